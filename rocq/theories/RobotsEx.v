(** A robot of the list, end to end: the wrist of ik_robots.py:337-354, with a sympy whose simplify knows zeros, ones, double negation
    and the sine and cosine of 0, pi/2, -pi/2 and pi/2 + x.  Nothing here models repository code. *)
From Coq Require Import Reals ZArith List String Ascii Bool Arith Lia Lra.
From Verif Require Import Expr Kin KinSpec KinFacts PropKin Trig Solver SolverSpec SolverFacts SolverInv Sympy0 PropLists SolverHist HistFacts PropHist PropSolvers PropSolversEx PropHistEx PropComplete Soa SoaFacts PropSoa PropEndToEnd EndToEndEx Robots PropRobots PropReach.
Import ListNotations.
Local Open Scope string_scope.
Local Open Scope list_scope.
Local Open Scope nat_scope.

Definition sneg (a : expr) : expr := match a with Num z => Num (- z) | Neg b => b | _ => Neg a end.
Definition sadd (a b : expr) : expr :=
  if expr_eqb a (Num 0) then b else if expr_eqb b (Num 0) then a else Add a b.
(** the sign and the rest *)
Definition unneg (a : expr) : bool * expr := match a with Neg b => (true, b) | _ => (false, a) end.
Definition smul (a b : expr) : expr :=
  if expr_eqb a (Num 0) || expr_eqb b (Num 0) then Num 0 else if expr_eqb a (Num 1) then b else if expr_eqb b (Num 1) then a
  else if expr_eqb a (Num (-1)) then sneg b else if expr_eqb b (Num (-1)) then sneg a
  else let '(m, a') := unneg a in let '(n, b') := unneg b in if xorb m n then Neg (Mul a' b') else Mul a' b'.
Definition half_pi : expr := Div PiE (Num 2).
Definition minus_half_pi : expr := Div (Neg PiE) (Num 2).
Definition ssin (a : expr) : expr :=
  if expr_eqb a (Num 0) then Num 0 else if expr_eqb a half_pi then Num 1 else if expr_eqb a minus_half_pi then Num (-1)
  else match a with Add p x => if expr_eqb p half_pi then Cos x else Sin a | _ => Sin a end.
Definition scos (a : expr) : expr :=
  if expr_eqb a (Num 0) then Num 1 else if expr_eqb a half_pi then Num 0 else if expr_eqb a minus_half_pi then Num 0
  else match a with Add p x => if expr_eqb p half_pi then Neg (Sin x) else Cos a | _ => Cos a end.
Fixpoint simpW (e : expr) : expr :=
  match e with
  | Add a b => sadd (simpW a) (simpW b)
  | Mul a b => smul (simpW a) (simpW b)
  | Neg a => sneg (simpW a)
  | Sin a => ssin (simpW a)
  | Cos a => scos (simpW a)
  | _ => e
  end.
(** what a smart constructor has to satisfy *)
Definition like (rho : env) (e f : expr) : Prop := defd rho e -> defd rho f /\ eval rho f = eval rho e.
Ltac eqcase := match goal with |- context [expr_eqb ?a ?b] => destruct (expr_eqb a b) eqn:?; [match goal with H : expr_eqb a b = true |- _ => apply expr_eqb_eq in H; try subst end|] end.
Lemma sneg_like rho a : like rho (Neg a) (sneg a).
Proof. intros D. destruct a; cbn [sneg]; auto. cbn. split; auto. rewrite opp_IZR. auto. cbn in *. split; auto. lra. Qed.
Lemma sadd_like rho a b : like rho (Add a b) (sadd a b).
Proof. intros D. destruct D as (Da & Db). unfold sadd. repeat eqcase; cbn in *; repeat split; auto; lra. Qed.
Lemma unneg_ok rho a : (defd rho a -> defd rho (snd (unneg a))) /\ eval rho a = if fst (unneg a) then (- eval rho (snd (unneg a)))%R else eval rho (snd (unneg a)).
Proof. destruct a; cbn; split; auto. Qed.
Lemma smul_like rho a b : like rho (Mul a b) (smul a b).
Proof.
  intros D. destruct D as (Da & Db). unfold smul. destruct (expr_eqb a (Num 0) || expr_eqb b (Num 0)) eqn:Z.
  - apply orb_prop in Z as [Z|Z]; apply expr_eqb_eq in Z; subst; cbn; split; auto; lra.
  - eqcase. cbn; split; auto; lra. eqcase. cbn; split; auto; lra.
    eqcase. { destruct (sneg_like rho b Db) as (X & Y). split; auto. rewrite Y. cbn. lra. }
    eqcase. { destruct (sneg_like rho a Da) as (X & Y). split; auto. rewrite Y. cbn. lra. }
    destruct (unneg_ok rho a) as (A1 & A2), (unneg_ok rho b) as (B1 & B2). destruct (unneg a) as ([] & a'), (unneg b) as ([] & b'); cbn [xorb fst snd] in *; cbn [defd eval]; rewrite A2, B2; repeat split; auto; lra.
Qed.
Lemma ssin_like rho a : like rho (Sin a) (ssin a).
Proof.
  intros D. unfold ssin. eqcase. cbn. split; auto. rewrite sin_0; auto. eqcase. cbn. split; auto. rewrite sin_PI2; auto. eqcase.
  { cbn. split; auto. replace (- PI / 2)%R with (- (PI / 2))%R by lra. rewrite sin_neg, sin_PI2. lra. }
  destruct a; auto. destruct (expr_eqb a1 half_pi) eqn:E; auto. apply expr_eqb_eq in E. subst. cbn in *. split; [tauto|]. rewrite sin_plus, sin_PI2, cos_PI2. lra.
Qed.
Lemma scos_like rho a : like rho (Cos a) (scos a).
Proof.
  intros D. unfold scos. eqcase. cbn. split; auto. rewrite cos_0; auto. eqcase. cbn. split; auto. rewrite cos_PI2; auto. eqcase.
  { cbn. split; auto. replace (- PI / 2)%R with (- (PI / 2))%R by lra. rewrite cos_neg, cos_PI2. lra. }
  destruct a; auto. destruct (expr_eqb a1 half_pi) eqn:E; auto. apply expr_eqb_eq in E. subst. cbn in *. split; [tauto|]. rewrite cos_plus, sin_PI2, cos_PI2. lra.
Qed.
Lemma like_trans rho e f g : like rho e f -> like rho f g -> like rho e g.
Proof. intros A B D. destruct (A D) as (D1 & E1). destruct (B D1) as (D2 & E2). split; auto. congruence. Qed.
Lemma simpW_keeps : keeps_value simpW.
Proof.
  intros rho e. change (like rho e (simpW e)). induction e; cbn [simpW]; try (intros D; split; auto; fail).
  - apply (like_trans rho _ (Add (simpW e1) (simpW e2))); [|apply sadd_like]. intros (D1 & D2). destruct (IHe1 D1), (IHe2 D2). cbn. split; auto. congruence.
  - apply (like_trans rho _ (Mul (simpW e1) (simpW e2))); [|apply smul_like]. intros (D1 & D2). destruct (IHe1 D1), (IHe2 D2). cbn. split; auto. congruence.
  - apply (like_trans rho _ (Neg (simpW e))); [|apply sneg_like]. intros D. destruct (IHe D). cbn. split; auto. congruence.
  - apply (like_trans rho _ (Sin (simpW e))); [|apply ssin_like]. intros D. destruct (IHe D). cbn. split; auto. congruence.
  - apply (like_trans rho _ (Cos (simpW e))); [|apply scos_like]. intros D. destruct (IHe D). cbn. split; auto. congruence.
Qed.
Lemma sneg_syms s a : has s (sneg a) = true -> has s a = true.
Proof. destruct a; auto. Qed.
Lemma sadd_syms s a b : has s (sadd a b) = true -> has s a = true \/ has s b = true.
Proof. unfold sadd. repeat eqcase; auto. cbn. apply orb_prop. Qed.
Lemma unneg_syms s a : has s (snd (unneg a)) = true -> has s a = true.
Proof. destruct a; auto. Qed.
Lemma smul_syms s a b : has s (smul a b) = true -> has s a = true \/ has s b = true.
Proof.
  unfold smul. destruct (_ || _). discriminate. repeat eqcase; auto; try (intros H; apply sneg_syms in H; auto).
  assert (A := unneg_syms s a). assert (B := unneg_syms s b). destruct (unneg a) as ([] & a'), (unneg b) as ([] & b'); cbn [snd] in *; cbn [xorb has]; intros H; apply orb_prop in H as [H|H]; auto.
Qed.
Lemma ssin_syms s a : has s (ssin a) = true -> has s a = true.
Proof. unfold ssin. repeat (eqcase; [discriminate|]). destruct a; auto. destruct (expr_eqb a1 half_pi); auto. cbn. intros H. rewrite H, orb_true_r. auto. Qed.
Lemma scos_syms s a : has s (scos a) = true -> has s a = true.
Proof. unfold scos. repeat (eqcase; [discriminate|]). destruct a; auto. destruct (expr_eqb a1 half_pi); auto. cbn. intros H. rewrite H, orb_true_r. auto. Qed.
Lemma simpW_syms : no_new_symbols simpW.
Proof.
  intros s e. induction e; cbn [simpW]; auto; intros H.
  - apply sadd_syms in H. cbn. apply orb_true_iff. tauto.
  - apply smul_syms in H. cbn. apply orb_true_iff. tauto.
  - apply sneg_syms in H. cbn. auto.
  - apply ssin_syms in H. cbn. auto.
  - apply scos_syms in H. cbn. auto.
Qed.
Definition sympyW : sympy := {| sy_norm := sy_norm sympy0; sy_expand := sy_expand sympy0; sy_collect := sy_collect sympy0; sy_simplify := simpW; sy_subs := sy_subs sympy0;
  sy_match := sy_match sympy0; sy_coeff := sy_coeff sympy0; sy_has_sum := sy_has_sum sympy0; sy_sums := sy_sums sympy0 |}.
Lemma sympyW_ok : sympy_ok sympyW.
Proof. destruct sympy0_ok. constructor; auto. apply simpW_keeps. apply simpW_syms. Qed.

Definition always (_ : expr) : bool := true.
Definition sW := opt_state (prepared sympyW always (rd_vars r_Wrist) (rd_dh r_Wrist)) (start [] (meq (fun _ _ => (Num 0, Num 0)))).
Definition eW := state_of (ik_solve sympyW sW) sW.
Lemma sW_ok : prepared sympyW always (rd_vars r_Wrist) (rd_dh r_Wrist) = Some sW.
Proof.
  unfold sW. generalize (start [] (meq (fun _ _ => (Num 0, Num 0)))). intros d. destruct (prepared sympyW always (rd_vars r_Wrist) (rd_dh r_Wrist)) eqn:E; [reflexivity|]. exfalso.
  assert (X : (match prepared sympyW always (rd_vars r_Wrist) (rd_dh r_Wrist) with Some _ => true | None => false end) = true) by (vm_compute; reflexivity). rewrite E in X. discriminate.
Qed.
Lemma eW_ok : ik_solve sympyW sW = OK true eW. Proof. apply ok_true. vm_compute. reflexivity. Qed.
(** the angle B (unknown 1) of the wrist is solved by atan2 from r_31, r_11 and A *)
Lemma eW_B : u_solved (un eW 1) = true /\ u_sym (un eW 1) = "B" /\ solutions (un eW 1) = [Atan2 (Div (Add (Num 0) (Neg (Neg (Sym "r_31")))) (Neg (Num 1))) (Div (Add (Num 0) (Neg (Neg (Sym "r_11")))) (Cos (Sym "A")))].
Proof. vm_compute. auto. Qed.
(** for every orientation of the wrist: the run succeeds, and the angle B is the recorded solution (where it is defined) *)
Example C64_wrist_example rho0 : ik_solve sympyW sW = OK true eW /\ exists rho', rho' "A" = rho0 "A" /\ rho' "B" = rho0 "B" /\ rho' "C" = rho0 "C" /\
  (all_defd rho' (solutions (un eW 1)) -> among rho' (rho0 "B") (solutions (un eW 1))).
Proof.
  split; [exact eW_ok|]. assert (E : robot_params "Wrist" = Described r_Wrist (number_from 1 (rd_vars r_Wrist))) by (vm_compute; reflexivity).
  destruct (C64_every_joint_vector "Wrist" r_Wrist _ sympyW always rho0 E sympyW_ok) as (rho & _ & _ & _ & H). destruct (H sW true eW sW_ok eW_ok) as (rho' & A & K).
  exists rho'. assert (I : forall v, In v ["A"; "B"; "C"] -> rho' v = rho0 v) by (intros v Hv; apply A; left; exact Hv).
  split; [apply I; cbn; auto|]. split; [apply I; cbn; auto|]. split; [apply I; cbn; auto|].
  assert (X := K 1 (proj1 eW_B)). rewrite (proj1 (proj2 eW_B)) in X. rewrite <- (I "B") by (cbn; auto). exact X.
Qed.
