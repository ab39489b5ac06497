(** C67: concrete cases, and a run whose report names an equation that was not used. *)
From Coq Require Import Reals ZArith List String Bool Arith Lia Lra.
From Verif Require Import Expr Kin KinSpec Trig Solver SolverSpec SolverFacts SolverInv Sympy0 PropSolvers PropSolversEx SolverHist HistFacts PropHist PropHistEx PropCrash PropCrashEx PropRowsEx PropExplain.
Import ListNotations.
Local Open Scope R_scope.
Local Open Scope string_scope.
Local Open Scope list_scope.

Definition one_round : list task := [TSub; TAssign; TSumId; TAlg; TScTan; TUpdateL; TCompDet false].
(** Px = l_1 cos th_1, Py = l_1 sin th_1: atan2 of the pair is reported *)
Definition s67 := match track sympy0 ex22 one_round with Some (_, s) => s | None => ex22 end.
Lemma run67 : exists l, track sympy0 ex22 one_round = Some (l, s67). Proof. exact (opt_get (track sympy0 ex22 one_round) ex22 ltac:(vm_compute; reflexivity)). Qed.
Lemma u67 : u_solved (un s67 0) = true /\ u_scable (un s67 0) = true /\ List.length (u_sc (un s67 0)) = 2%nat /\
  u_eqn (un s67 0) = Some (Keq (Num 0) (Add (Mul l1 (Sin th1)) (Neg py))) /\ u_eqn2 (un s67 0) = Some (Keq (Num 0) (Add (Mul l1 (Cos th1)) (Neg px))).
Proof. vm_compute. auto 6. Qed.
Example C67_example : exists ts, runs1 sympy0 ex22 ts s67 /\ u_solved (un s67 0) = true /\ explained (un s67 0)
  /\ u_eqn (un s67 0) = Some (Keq (Num 0) (Add (Mul l1 (Sin th1)) (Neg py))) /\ u_eqn2 (un s67 0) = Some (Keq (Num 0) (Add (Mul l1 (Cos th1)) (Neg px))).
Proof.
  destruct run67 as [ts H]. destruct u67 as (U1 & U2 & U3 & U4 & U5). exists ts. assert (R := track_runs1 _ _ _ _ _ H). split; [exact R|]. split; [exact U1|]. split; [|exact (conj U4 U5)].
  apply (C67_no_attempt sympy0 sympy0_ok sympy0_coeff ex22 ts s67 0%nat (start_initial _ _) R U1). right. intros Z. rewrite Z in U3. discriminate U3.
Qed.

(** Px = sin^2 th_1, Py = l_1 + l_2 l_2 sin th_1, Pz = l_1 + l_2 l_2 cos th_1: th_1 is solved by atan2 from the last two, but the sine solver has meanwhile
    identified th_1 by the first equation and cannot solve it.  Reported are the first and the last; they do not give the solution. *)
Definition ow67 := start ["th_1"] (meq (fun i j => match i, j with 0%nat, 3%nat => (px, Mul (Sin th1) (Sin th1)) | 1%nat, 3%nat => (py, Add l1 (Mul l2 (Mul l2 (Sin th1))))
  | 2%nat, 3%nat => (Sym "Pz", Add l1 (Mul l2 (Mul l2 (Cos th1)))) | _, _ => (Num 0, Num 0) end)).
Definition e67 := match track sympy0 ow67 one_round with Some (_, s) => s | None => ow67 end.
Lemma run_ow67 : exists l, track sympy0 ow67 one_round = Some (l, e67). Proof. exact (opt_get (track sympy0 ow67 one_round) ow67 ltac:(vm_compute; reflexivity)). Qed.
Definition sol67 := Atan2 (Div (Add (Num 0) (Neg (Add l1 (Neg py)))) (Mul l2 l2)) (Div (Add (Num 0) (Neg (Add l1 (Neg (Sym "Pz"))))) (Mul l2 l2)).
Definition q67 := Keq px (Mul (Sin th1) (Sin th1)).
Definition q67' := Keq (Num 0) (Add (Add l1 (Mul l2 (Mul l2 (Cos th1)))) (Neg (Sym "Pz"))).
Lemma u_ow67 : u_solved (un e67 0) = true /\ u_sym (un e67 0) = "th_1" /\ solutions (un e67 0) = [sol67] /\ u_eqn (un e67 0) = Some q67 /\ u_eqn2 (un e67 0) = Some q67'.
Proof. vm_compute. auto 6. Qed.
Lemma same67 : ik_solve sympy0 ow67 = OK true e67.
Proof. assert (E : state_of (ik_solve sympy0 ow67) ow67 = e67) by (vm_compute; reflexivity). rewrite <- E. apply ok_true. vm_compute. reflexivity. Qed.
Definition rho67 (p y : R) : env := fun s => if String.eqb s "Px" then p else if String.eqb s "Py" then y else if String.eqb s "Pz" then 1 else if String.eqb s "l_2" then 1 else 0.
Lemma val67 p y : eval (rho67 p y) sol67 = atan2 y 1 /\ defd (rho67 p y) sol67.
Proof.
  assert (E1 : eval (rho67 p y) (Div (Add (Num 0) (Neg (Add l1 (Neg py)))) (Mul l2 l2)) = y) by (unfold rho67; cbn; field).
  assert (E2 : eval (rho67 p y) (Div (Add (Num 0) (Neg (Add l1 (Neg (Sym "Pz"))))) (Mul l2 l2)) = 1) by (unfold rho67; cbn; field).
  unfold sol67. cbn [eval defd] in *. rewrite E1, E2. split; [reflexivity|]. assert (N : rho67 p y "l_2" * rho67 p y "l_2" <> 0) by (unfold rho67; cbn; lra). cbn. repeat split; auto. intros [A _]. lra.
Qed.
Lemma not_explained67 : ~ explained (un e67 0).
Proof.
  intros (q & Hq & K). destruct u_ow67 as (_ & Ux & Us & U1 & U2). rewrite U1 in Hq. injection Hq as <-. rewrite Us, Ux in K.
  assert (V1 := val67 1 0). destruct V1 as [V1 V2].
  assert (Z : cong (rho67 1 0 "th_1") (eval (rho67 1 0) sol67)). { rewrite V1. apply cong_sym. assert (X := atan2_unit 0). rewrite sin_0, cos_0 in X. exact X. }
  assert (S : sides (rho67 1 0) q67) by (split; cbn; auto). assert (NH : ~ holds (rho67 1 0) q67) by (unfold holds; cbn; rewrite sin_0; lra).
  destruct K as [(e & E & _ & K)|[(_ & K)|(q2 & Hq2 & _ & K & _)]].
  - injection E as <-. apply NH. apply (K _ S V2). rewrite V1. unfold atan2. destruct (Rlt_dec 0 1) as [_|F]; [|lra]. replace (0 / 1) with 0 by field. rewrite atan_0. reflexivity.
  - apply NH. apply (K _ S). { intros e [<-|[]]. exact V2. } exists sol67. split; [left; auto|exact Z].
  - rewrite U2 in Hq2. injection Hq2 as <-. destruct (val67 0 1) as [W1 W2].
    destruct (K (rho67 0 1)) as (e & [<-|[]] & C).
    + split; [cbn; auto|]. split; [cbn; auto|]. unfold holds. cbn. rewrite sin_0. lra.
    + split; [cbn; auto|]. split; [cbn; auto|]. unfold holds. cbn. rewrite cos_0. lra.
    + intros e [<-|[]]. exact W2.
    + rewrite W1 in C. apply cong_sin in C. unfold rho67 in C. cbn in C. rewrite sin_0 in C. destruct (atan2_polar 1 1) as [_ P]; [lra|]. rewrite <- C in P. lra.
Qed.
(** Intended: the reported equations always give the solutions.  Refuted, on a run of the shipped tree that solves everything. *)
Theorem C67_report_refuted : exists sy s0 ts s i, sympy_ok sy /\ initial sy s0 /\ runs1 sy s0 ts s /\ ik_solve sy s0 = OK true s /\ u_solved (un s i) = true /\ ~ explained (un s i).
Proof.
  destruct run_ow67 as [ts H]. exists sympy0, ow67, ts, e67, 0%nat. split; [exact sympy0_ok|]. split; [exact (start_initial _ _)|]. split; [exact (track_runs1 _ _ _ _ _ H)|]. split; [exact same67|].
  split; [exact (proj1 u_ow67)|exact not_explained67].
Qed.
Print Assumptions C67_report_refuted.
Print Assumptions C67_example.
