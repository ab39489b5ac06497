(** C23, sharper: a run is one in which no unknown is solved twice exactly when the list of solved unknowns has no repetition;
    an unknown that is solved twice is in the list twice.  So the final list, which the user sees in the reports, tells. *)
From Coq Require Import Reals ZArith List String Ascii Bool Arith Lia Permutation.
From Verif Require Import Expr Kin KinSpec Trig Solver SolverSpec SolverFacts SolverInv PropLists SolverHist HistFacts PropHist PropCrash.
Import ListNotations.
Local Open Scope string_scope.
Local Open Scope list_scope.
Local Open Scope nat_scope.

(** every step keeps the list of solved unknowns or appends the current one *)
Lemma step_nodes t s s' : step t s s' -> s_nodes s' = s_nodes s \/ exists i, s_curr s = Some i /\ s_nodes s' = s_nodes s ++ [i].
Proof.
  intros [i0 f (R1 & R2 & R3 & R4) _ Eh Q S|i0 f Hc P E S Fw]; [left; exact R3|]. right. exists i0. split; auto.
  apply solve_step in E as [_ E]; auto. cbv zeta in E. destruct E as (deps & nver & _ & _ & _ & _ & _ & _ & _ & Ends & _). exact Ends.
Qed.
Lemma NoDup_front (l m : list nat) : NoDup (l ++ m) -> NoDup l.
Proof. induction l as [|x l IH]; cbn; intros H. constructor. inversion H; subst. constructor; auto. rewrite in_app_iff in *. tauto. Qed.
Lemma runs_nodes sy s ts s' : hinv s -> runs sy s ts s' -> exists m, s_nodes s' = s_nodes s ++ m.
Proof.
  intros Hv R. induction R as [s|s t b s1 ts s2 H R IH]. { exists []. rewrite app_nil_r. auto. }
  assert (St := task_step sy t s b s1 (hinv_curr s Hv) H). destruct (IH (step_hinv t s s1 Hv St)) as (m & E).
  destruct (step_nodes t s s1 St) as [En|(i & _ & En)]; rewrite En in E. eauto. rewrite <- app_assoc in E. eauto.
Qed.
(** The step that is given an unknown solved before: it does nothing at all, or lists the unknown again. *)
Lemma resolve_step sy t s b s' : hinv s -> ~ no_resolve t s -> run_task sy t s = OK b s' -> s' = s \/ exists i, In i (s_nodes s) /\ s_nodes s' = s_nodes s ++ [i].
Proof.
  intros Hv N H. assert (T : t = TScTan). { destruct t; auto; exfalso; apply N; intros X; discriminate X. } subst t.
  assert (H' := H). cbn [run_task] in H'. apply eff_sc_tan in H' as (i & Hc & K).
  assert (Sv : u_solved (getu (s_heap s) i) = true). { destruct (u_solved (getu (s_heap s) i)) eqn:E; auto. exfalso. apply N. intros _ j Hj Sj. assert (j = i) by congruence. subst j. unfold un in Sj. congruence. }
  destruct (K (hinv_curr s Hv i Hc)) as [(_ & f & _ & _ & S)|(_ & f & P & E & _)]; [left; auto|]. right. exists i. split; [apply hinv_nodes; auto|].
  apply solve_step in E as [_ E]; auto. cbv zeta in E. destruct E as (deps & nver & _ & _ & _ & _ & _ & _ & _ & Ends & _). exact Ends.
Qed.
Lemma NoDup_twice (l m : list nat) i : In i l -> ~ NoDup ((l ++ [i]) ++ m).
Proof. intros Hi H. apply NoDup_front in H. apply NoDup_remove_2 in H. apply H. rewrite app_nil_r. exact Hi. Qed.
Lemma runs_once sy s ts s' : hinv s -> runs sy s ts s' -> NoDup (s_nodes s') -> exists ts', runs1 sy s ts' s'.
Proof.
  intros Hv R. induction R as [s|s t b s1 ts s2 H R IH]; intros ND. { exists []. constructor. }
  assert (St := task_step sy t s b s1 (hinv_curr s Hv) H). assert (Hv1 := step_hinv t s s1 Hv St). destruct (IH Hv1 ND) as (ts' & R').
  destruct (no_resolve_dec t s) as [N|N]. { exists ((t, b) :: ts'). econstructor; eauto. }
  destruct (resolve_step sy t s b s1 Hv N H) as [->|(i & Hi & En)]; [eauto|]. exfalso. destruct (runs_nodes sy s1 ts s2 Hv1 R) as (m & E). rewrite E, En in ND. exact (NoDup_twice _ _ _ Hi ND).
Qed.
(** A run of the shipped tree ends in a state that a history without re-solving ends in - so that C23, C24, C42 and what is built on them hold of it -
    exactly when no unknown is listed twice.  Weaker than the hypothesis of C23_shipped_tree, and necessary. *)
Theorem C23_once_iff sy s0 b s : initial sy s0 -> ik_solve sy s0 = OK b s -> (exists ts, runs1 sy s0 ts s) <-> NoDup (s_nodes s).
Proof.
  intros I H. split.
  - intros (ts & R). exact (proj1 (C23_solved_once_in_order sy s0 ts s I R)).
  - intros ND. destruct (tree_runs sy s0 b s H) as (ts & R). exact (runs_once sy s0 ts s (hinv_initial sy s0 I) R ND).
Qed.
Print Assumptions C23_once_iff.
