(** C68: concrete ticks of the shipped tree, and the pipeline theorem C51 restated for the tick itself. *)
From Coq Require Import Reals ZArith List String Bool.
From Verif Require Import BB Engine TreeSem PropTree.
From Verif Require Import Expr Kin KinSpec Solver SolverSpec Sympy0 PropHist PropHistEx PropCrash PropCrashEx PropComplete Soa PropSoa PropEndToEnd.
Import ListNotations.

(** The engine state in which the script ticks its tree for the first time, for a robot state [w]. *)
Definition started (w : Solver.state) : Engine.st Solver.state :=
  Engine.St (ik_blackboard (VObj 1) (VObj 2) (VObj 3) (VObj 4) (VObj 5)) stdpp.base.empty nil 0 nil 0 w nil.

(** a robot that is solved: the tick returns SUCCESS and leaves the solved robot *)
Example C68_example_solved : exists e', tree_tick (ik_cfg sympy0) 0 (Some topnode) (started ex23) 0 = (Ret SUCCESS e', 1%Z) /\ s_world e' = end23.
Proof.
  pose proof (C68_shipped_tree sympy0 (ik_cfg sympy0) 0 (started ex23) 0 _ _ _ _ _ (C68_hypotheses_met sympy0) eq_refl) as H.
  change (s_world (started ex23)) with ex23 in H. rewrite end23_ok in H. exact H.
Qed.
(** a robot on which a leaf raises: the exception leaves the tick *)
Example C68_example_raises : exists e', tree_tick (ik_cfg sympy0) 0 (Some topnode) (started crash) 0 = (Engine.Raise UserExn e', 1%Z).
Proof.
  pose proof (C68_shipped_tree sympy0 (ik_cfg sympy0) 0 (started crash) 0 _ _ _ _ _ (C68_hypotheses_met sympy0) eq_refl) as H.
  change (s_world (started crash)) with crash in H. rewrite (proj1 C62_example) in H. exact H.
Qed.

(** The whole script, tick included: any six-row table, any pose the robot reaches; when the tick of the tree returns
    SUCCESS, every joint is solved and its value is, modulo a full turn, among the solutions recorded for it. *)
Theorem C68_success_end_to_end sy (C : cfg Solver.state) fuel e tc e' tc' l1 l2 l3 r u nice vars rows rho :
  (forall i, leaf_runs C (leaf_prog sy ik_code) i) -> s_bb e = ik_blackboard l1 l2 l3 r u ->
  sympy_ok sy -> var_names vars -> (forall r, In r rows -> row_names vars r /\ row_defd rho r) -> consts_ok nice rho rows ->
  Meq 4 (mev rho ik_lhs) (FK rho rows) ->
  prepared sy nice vars rows = Some (s_world e) -> tree_tick C fuel (Some topnode) e tc = (Ret SUCCESS e', tc') ->
  exists rho', (forall x, In x vars \/ strip_th x = None -> rho' x = rho x)
    /\ forall i, In i (s_unks (s_world e')) -> u_solved (un (s_world e') i) = true
       /\ (all_defd rho' (solutions (un (s_world e') i)) -> among rho' (rho' (u_sym (un (s_world e') i))) (solutions (un (s_world e') i))).
Proof.
  intros HL HB OK V HR HC HP Pr HT.
  pose proof (C68_shipped_tree sy C fuel e tc _ _ _ _ _ HL HB) as H.
  destruct (ik_solve sy (s_world e)) as [b w'|] eqn:E.
  - destruct H as (e2 & E2 & W2). rewrite E2 in HT. injection HT as Hb <- _. destruct b; [|discriminate]. subst w'.
    exact (C51_success sy nice vars rows (s_world e) _ rho OK V HR HC HP Pr E).
  - destruct H as (e2 & E2). rewrite E2 in HT. discriminate.
Qed.
Print Assumptions C68_example_solved.
Print Assumptions C68_success_end_to_end.
