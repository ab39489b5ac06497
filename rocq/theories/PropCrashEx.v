(** C61, C62: concrete cases, and a solver that gives up too early. *)
From Coq Require Import Reals ZArith List String Bool Arith Lia.
From Verif Require Import Expr Kin Solver SolverSpec SolverFacts SolverInv Sympy0 PropLists SolverHist HistFacts PropHist PropSolvers PropSolversEx PropHistEx PropCrash.
Import ListNotations.
Local Open Scope string_scope.
Local Open Scope list_scope.
Local Open Scope nat_scope.

Lemma is_raise o : (match o with Raise => true | OK _ _ => false end) = true -> o = Raise. Proof. destruct o; [discriminate|auto]. Qed.
(** the extra assumption of C61/C62 holds of the concrete sympy *)
Lemma coeff0_syms a v e : has v (coeff0 a e) = true -> has v e = true.
Proof.
  induction e; cbn [coeff0 has]; intros H; try (destruct (expr_eqb _ _); discriminate).
  - apply orb_prop in H as [H|H]; apply orb_true_iff; auto.
  - destruct (expr_eqb _ _); [|destruct (expr_eqb _ _); [|discriminate]]; apply orb_true_iff; auto.
  - auto.
Qed.
Lemma sympy0_coeff : forall a, no_new_symbols (sy_coeff sympy0 a).
Proof. intros a v e H. apply ev0_syms in H. eapply coeff0_syms; eauto. Qed.

(** Px = sin th_1 * sin th_1 and Py = l_1 + l_2 l_2 sin th_1: the second equation gives th_1.  The sine solver identifies th_1 by the first, simpler one, cannot solve that one, and
    never looks at the second, because th_1 stays marked as identified (sincos_solver.py:117, 148-152, 200-208).  With the second equation alone th_1 is solved. *)
Definition gives_up := start ["th_1"] (meq (fun i j => match i, j with 0, 3 => (px, Mul (Sin th1) (Sin th1)) | 1, 3 => (py, Add l1 (Mul l2 (Mul l2 (Sin th1)))) | _, _ => (Num 0, Num 0) end)).
Definition without_it := start ["th_1"] (meq (fun i j => match i, j with 1, 3 => (py, Add l1 (Mul l2 (Mul l2 (Sin th1)))) | _, _ => (Num 0, Num 0) end)).
Definition end_gives_up := state_of (ik_solve sympy0 gives_up) gives_up.
Definition end_without := state_of (ik_solve sympy0 without_it) without_it.
(** an equation the sine solver can use: after collecting, its right side is A sin u + B, and neither A, B nor the left side contains u *)
Definition sin_usable (sy : sympy) (u : string) (q : kequation) : Prop :=
  exists A B, sy_match sy (Sin (Sym u)) (both_terms u) (sy_collect sy (both_terms u) (k_rhs q)) = Some (A, B) /\ has u A = false /\ has u B = false /\ has u (k_lhs q) = false /\ is0 sy A = false.
Theorem C61_sincos_gives_up_refuted : exists sy s0 s q, sympy_ok sy /\ initial sy s0 /\ ik_solve sy s0 = OK false s /\ s_curr s = Some 0 /\ u_solved (un s 0) = false
  /\ In q (s_L1 s) /\ sin_usable sy (u_sym (un s 0)) q /\ (forall t, sc_sol sy s = OK t (state_of (sc_sol sy s) s) -> t = false).
Proof.
  exists sympy0, gives_up, end_gives_up, (Keq py (Add l1 (Mul l2 (Mul l2 (Sin th1))))). split; [exact sympy0_ok|]. split; [exact (start_initial _ _)|].
  split. { apply ok_false. vm_compute. reflexivity. }
  split; [vm_compute; reflexivity|]. split; [vm_compute; reflexivity|].
  split. { assert (E : s_L1 end_gives_up = [Keq px (Mul (Sin th1) (Sin th1)); Keq py (Add l1 (Mul l2 (Mul l2 (Sin th1))))]) by (vm_compute; reflexivity). rewrite E. right. left. reflexivity. }
  split. { assert (E : u_sym (un end_gives_up 0) = "th_1") by (vm_compute; reflexivity). rewrite E. exists (Mul l2 l2), l1. split; [vm_compute; reflexivity|]. split; [vm_compute; reflexivity|]. split; [vm_compute; reflexivity|]. split; vm_compute; reflexivity. }
  intros t H. assert (E : (match sc_sol sympy0 end_gives_up with OK b _ => b | Raise => true end) = false) by (vm_compute; reflexivity). rewrite H in E. exact E.
Qed.
Example C61_without : ik_solve sympy0 without_it = OK true end_without. Proof. apply ok_true. vm_compute. reflexivity. Qed.

(** C61: after the assigner's tick of the example of C22 the atan2 solver has a usable pair *)
Example C61_example : runs1 sympy0 ex22 [(TAssign, true)] mid22 /\ ready mid22 0 /\ open_unknown mid22 0 /\ exists s', tan_sol sympy0 mid22 = OK true s'.
Proof.
  assert (N : no_resolve TAssign ex22) by (intros X; discriminate X).
  assert (Ea : run_task sympy0 TAssign ex22 = OK true mid22) by (apply (ok_true (assigner _)); vm_compute; reflexivity).
  assert (R : runs1 sympy0 ex22 [(TAssign, true)] mid22) by (exact (runs1_cons sympy0 _ TAssign true mid22 [] _ N Ea (runs1_nil sympy0 mid22))). clear N Ea.
  destruct (C61_reachable sympy0 sympy0_ok sympy0_coeff ex22 _ mid22 0 (start_initial _ _) R) as (A & B & _); [vm_compute; reflexivity|vm_compute; reflexivity|].
  split; [exact R|]. split; [exact A|]. split; [exact B|]. exists (state_of (tan_sol sympy0 mid22) mid22). apply ok_true. vm_compute. reflexivity.
Qed.
(** C61: the algebra solver on the first unknown of the example of C23 *)
Definition mid23 := state_of (assigner ex23) ex23.
Example C61_example_algebra : runs1 sympy0 ex23 [(TAssign, true)] mid23 /\ ready mid23 0 /\ exists s', alg_sol sympy0 mid23 = OK true s'.
Proof.
  assert (N : no_resolve TAssign ex23) by (intros X; discriminate X).
  assert (Ea : run_task sympy0 TAssign ex23 = OK true mid23) by (apply (ok_true (assigner _)); vm_compute; reflexivity).
  assert (R : runs1 sympy0 ex23 [(TAssign, true)] mid23) by (exact (runs1_cons sympy0 _ TAssign true mid23 [] _ N Ea (runs1_nil sympy0 mid23))). clear N Ea.
  destruct (C61_reachable sympy0 sympy0_ok sympy0_coeff ex23 _ mid23 0 (start_initial _ _) R) as (A & B & _); [vm_compute; reflexivity|vm_compute; reflexivity|].
  split; [exact R|]. split; [exact A|]. exists (state_of (alg_sol sympy0 mid23) mid23). apply ok_true. vm_compute. reflexivity.
Qed.

(** C62: Px = th_1 sin th_1 makes the solver raise; the cause is the one listed for the sine solver. *)
Definition crash := start ["th_1"] (meq (fun i j => match i, j with 0, 3 => (px, Mul th1 (Sin th1)) | _, _ => (Num 0, Num 0) end)).
Definition mid_crash := state_of (assigner crash) crash.
Example C62_example : ik_solve sympy0 crash = Raise /\ runs1 sympy0 crash [(TAssign, true)] mid_crash /\ run_task sympy0 TScTan mid_crash = Raise /\ cause sympy0 TScTan mid_crash.
Proof.
  assert (N : no_resolve TAssign crash) by (intros X; discriminate X).
  assert (Ea : run_task sympy0 TAssign crash = OK true mid_crash) by (apply (ok_true (assigner _)); vm_compute; reflexivity).
  assert (R : runs1 sympy0 crash [(TAssign, true)] mid_crash) by (exact (runs1_cons sympy0 _ TAssign true mid_crash [] _ N Ea (runs1_nil sympy0 mid_crash))). clear N Ea.
  assert (E : run_task sympy0 TScTan mid_crash = Raise) by (apply is_raise; vm_compute; reflexivity).
  split; [apply is_raise; vm_compute; reflexivity|]. split; [exact R|]. split; [exact E|].
  apply (C62_causes sympy0 sympy0_ok sympy0_coeff crash _ mid_crash TScTan (start_initial _ _) R); [|exact E].
  intros _ i Hc Hs. assert (X : s_curr mid_crash = Some 0) by (vm_compute; reflexivity). rewrite X in Hc. injection Hc as <-. assert (Y : u_solved (un mid_crash 0) = false) by (vm_compute; reflexivity). congruence.
Qed.
(** and a run that raises nothing *)
Example C62_example_ok : ik_solve sympy0 ex23 = OK true end23. Proof. exact end23_ok. Qed.
