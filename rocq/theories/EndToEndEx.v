(** A robot for C51: a prismatic joint d_1 along z followed by a revolute joint th_2 about z, and a sympy whose simplify
    evaluates zeros, ones and sines and cosines of 0.  Nothing here models repository code. *)
From Coq Require Import Reals ZArith List String Ascii Bool Arith Lia Lra.
From Verif Require Import Expr Kin KinSpec KinFacts PropKin Trig Solver SolverSpec SolverFacts SolverInv Sympy0 PropLists SolverHist HistFacts PropHist PropSolvers PropSolversEx PropHistEx PropComplete Soa SoaFacts PropSoa PropEndToEnd.
Import ListNotations.
Local Open Scope string_scope.
Local Open Scope list_scope.
Local Open Scope nat_scope.
Fixpoint simpK (e : expr) : expr :=
  match e with
  | Add a b => match simpK a, simpK b with Num 0, b' => b' | a', Num 0 => a' | a', b' => Add a' b' end
  | Mul a b => match simpK a, simpK b with Num 0, _ => Num 0 | _, Num 0 => Num 0 | Num 1, b' => b' | a', Num 1 => a' | a', b' => Mul a' b' end
  | Neg a => match simpK a with Num 0 => Num 0 | a' => Neg a' end
  | Cos a => match simpK a with Num 0 => Num 1 | a' => Cos a' end
  | Sin a => match simpK a with Num 0 => Num 0 | a' => Sin a' end
  | _ => e
  end.
Ltac cases_z x := destruct x as [[|[?|?|]|?]| | | | | | | | | | | | | ].
Lemma simpK_keeps : keeps_value simpK.
Proof.
  intros rho e. induction e; cbn [simpK]; intros D; auto.
  - destruct D as [D1 D2]. destruct (IHe1 D1) as [H1 E1]. destruct (IHe2 D2) as [H2 E2]. cbn [eval]. rewrite <- E1, <- E2. clear IHe1 IHe2 E1 E2.
    cases_z (simpK e1); cases_z (simpK e2); (split; [cbn in *; tauto | cbn; lra]).
  - destruct D as [D1 D2]. destruct (IHe1 D1) as [H1 E1]. destruct (IHe2 D2) as [H2 E2]. cbn [eval]. rewrite <- E1, <- E2. clear IHe1 IHe2 E1 E2.
    cases_z (simpK e1); cases_z (simpK e2); (split; [cbn in *; tauto | cbn; lra]).
  - destruct (IHe D) as [H E]. cbn [eval]. rewrite <- E. clear IHe E. cases_z (simpK e); (split; [cbn in *; tauto | cbn; lra]).
  - destruct (IHe D) as [H E]. cbn [eval]. rewrite <- E. clear IHe E. cases_z (simpK e); (split; [cbn in *; tauto | cbn; rewrite ?sin_0; lra]).
  - destruct (IHe D) as [H E]. cbn [eval]. rewrite <- E. clear IHe E. cases_z (simpK e); (split; [cbn in *; tauto | cbn; rewrite ?cos_0; lra]).
Qed.
Lemma simpK_syms : no_new_symbols simpK.
Proof.
  intros s e. induction e; cbn [simpK]; auto.
  - intros H. cbn [has]. apply orb_true_iff. assert (G : has s (simpK e1) = true \/ has s (simpK e2) = true).
    { apply orb_true_iff. cases_z (simpK e1); cases_z (simpK e2); cbn in *; try discriminate; try exact H; rewrite ?orb_false_r; try exact H; fail. }
    destruct G; auto.
  - intros H. cbn [has]. apply orb_true_iff. assert (G : has s (simpK e1) = true \/ has s (simpK e2) = true).
    { apply orb_true_iff. cases_z (simpK e1); cases_z (simpK e2); cbn in *; try discriminate; try exact H; rewrite ?orb_false_r; try exact H; fail. }
    destruct G; auto.
  - intros H. cbn [has]. apply IHe. cases_z (simpK e); cbn in *; auto.
  - intros H. cbn [has]. apply IHe. cases_z (simpK e); cbn in *; auto.
  - intros H. cbn [has]. apply IHe. cases_z (simpK e); cbn in *; auto.
Qed.
Definition sympyK : sympy := {| sy_norm := sy_norm sympy0; sy_expand := sy_expand sympy0; sy_collect := sy_collect sympy0; sy_simplify := simpK; sy_subs := sy_subs sympy0;
  sy_match := sy_match sympy0; sy_coeff := sy_coeff sympy0; sy_has_sum := sy_has_sum sympy0; sy_sums := sy_sums sympy0 |}.
Lemma sympyK_ok : sympy_ok sympyK.
Proof. destruct sympy0_ok. constructor; auto. apply simpK_keeps. apply simpK_syms. Qed.

Definition zrow := DH (Num 0) (Num 0) (Num 0) (Num 0).
Definition rowsK : list (dhrow expr) := [DH (Num 0) (Num 0) (Sym "d_1") (Num 0); DH (Num 0) (Num 0) (Num 0) (Sym "th_2"); zrow; zrow; zrow; zrow].
Definition varsK := ["d_1"; "th_2"].
Definition niceK (e : expr) := expr_eqb e (Num 0).
Definition s51 := opt_state (prepared sympyK niceK varsK rowsK) (start [] (meq (fun _ _ => (Num 0, Num 0)))).
Definition e51 := state_of (ik_solve sympyK s51) s51.

(** For every joint vector (x, t), with the pose it reaches, all hypotheses of C51 are met, and the run ends with both
    joints solved: d_1 = Pz and th_2 = atan2(r_21, r_11). *)
Local Open Scope R_scope.
Definition rhoK (x t : R) : env := fun s =>
  if String.eqb s "d_1" then x else if String.eqb s "th_2" then t else if String.eqb s "Pz" then x
  else if String.eqb s "r_11" then cos t else if String.eqb s "r_12" then - sin t else if String.eqb s "r_21" then sin t else if String.eqb s "r_22" then cos t
  else if String.eqb s "r_33" then 1 else 0.
Lemma s51_ok : prepared sympyK niceK varsK rowsK = Some s51.
Proof. unfold s51. generalize (start [] (meq (fun _ _ => (Num 0, Num 0)))). intros d. destruct (prepared sympyK niceK varsK rowsK) eqn:E; [reflexivity|]. exfalso.
  assert (X : (match prepared sympyK niceK varsK rowsK with Some _ => true | None => false end) = true) by (vm_compute; reflexivity). rewrite E in X. discriminate. Qed.
Lemma e51_ok : ik_solve sympyK s51 = OK true e51. Proof. apply ok_true. vm_compute. reflexivity. Qed.
Example C51_example x t :
  sympy_ok sympyK /\ var_names varsK /\ (forall r, In r rowsK -> row_names varsK r /\ row_defd (rhoK x t) r) /\ consts_ok niceK (rhoK x t) rowsK
  /\ Meq 4 (mev (rhoK x t) ik_lhs) (FK (rhoK x t) rowsK) /\ prepared sympyK niceK varsK rowsK = Some s51 /\ ik_solve sympyK s51 = OK true e51.
Proof.
  split; [apply sympyK_ok|]. split.
  { split; [cbn; lia|]. intros i y H. destruct i as [|[|i]]; cbn in H; [| |destruct i; discriminate]; injection H as <-; vm_compute; auto. }
  split.
  { intros r Hr. split.
    - intros e y He Hy. cbn in Hr. repeat destruct Hr as [<-|Hr]; try destruct Hr; cbn in He; repeat destruct He as [<-|He]; try destruct He; cbn in Hy; try discriminate; apply String.eqb_eq in Hy; subst; left; cbn; auto.
    - intros e He. cbn in Hr. repeat destruct Hr as [<-|Hr]; try destruct Hr; cbn in He; repeat destruct He as [<-|He]; try destruct He; exact I. }
  split. { intros y e H. cbn in H. destruct H. }
  split; [|split; [apply s51_ok|apply e51_ok]].
  assert (EZ : Meq 4 (craig 0 0 0 0) ident).
  { rewrite <- link_craig. intros i j Hi Hj. unfold Link. idx4 i Hi; idx4 j Hj; unfold ident; munf; cbn -[sin cos]; rewrite ?sin_0, ?cos_0; ring. }
  unfold FK, rowsK, zrow. cbn [map chain d_al d_a d_d d_th eval]. rewrite !EZ, !mmul4_1r.
  rewrite <- !link_craig. intros i j Hi Hj. unfold mev, ik_lhs, Link. idx4 i Hi; idx4 j Hj; munf; cbn -[sin cos]; rewrite ?sin_0, ?cos_0; ring.
Qed.
(** and so the joint values themselves are found: *)
Example C51_example_found x t : among (rhoK x t) x (solutions (un e51 0)) /\ among (rhoK x t) t (solutions (un e51 1)).
Proof.
  destruct (C51_example x t) as (A1 & A2 & A3 & A4 & A5 & A6 & A7). destruct (C51_pipeline_complete _ _ _ _ _ _ _ _ A1 A2 A3 A4 A5 A6 A7) as (rho' & _ & Ag & H).
  assert (E0 : solutions (un e51 0) = [Div (Add (Num 0) (Neg (Neg (Sym "Pz")))) (Num 1)]) by (vm_compute; reflexivity).
  assert (E1 : solutions (un e51 1) = [Atan2 (Div (Add (Num 0) (Neg (Neg (Sym "r_21")))) (Num 1)) (Div (Add (Num 0) (Neg (Neg (Sym "r_11")))) (Num 1))]) by (vm_compute; reflexivity).
  assert (S0 : u_solved (un e51 0) = true) by (vm_compute; reflexivity). assert (S1 : u_solved (un e51 1) = true) by (vm_compute; reflexivity).
  assert (N0 : u_sym (un e51 0) = "d_1") by (vm_compute; reflexivity). assert (N1 : u_sym (un e51 1) = "th_2") by (vm_compute; reflexivity).
  assert (R : forall y, In y ["d_1"; "th_2"; "Pz"; "r_21"; "r_11"] -> rho' y = rhoK x t y). { intros y Hy. apply Ag. cbn in Hy. repeat destruct Hy as [<-|Hy]; try destruct Hy; cbn; auto. }
  assert (H0 := H 0%nat S0). assert (H1 := H 1%nat S1). rewrite E0, N0 in H0. rewrite E1, N1 in H1. rewrite E0, E1. split.
  - destruct H0 as (e & [<-|[]] & C). { intros e [<-|[]]. cbn. repeat split; lra. }
    eexists. split; [left; reflexivity|]. cbn [eval] in *. rewrite !R in C by (cbn; tauto). exact C.
  - destruct H1 as (e & [<-|[]] & C). { intros e [<-|[]]. cbn. rewrite !R by (cbn; tauto). repeat split; try lra. cbn. intros [X Y].
      assert (P := sin2_cos2 t). unfold Rsqr in P. assert (Z1 : sin t = 0) by lra. assert (Z2 : cos t = 0) by lra. rewrite Z1, Z2 in P. lra. }
    eexists. split; [left; reflexivity|]. cbn [eval] in *. rewrite !R in C by (cbn; tauto). exact C.
Qed.
