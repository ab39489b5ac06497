(** C68: ticking the inverse-kinematics behaviour tree with the b3 engine runs the solver.
    Engine.v models the engine (open flags, counters, costs, the blackboard); Solver.v gives each leaf's code as a
    function and the wiring of ikSolver.py as function combinators.  Here the wiring is the tree of b3 nodes that the
    script builds, and the engine's tick of it is compared with the combinators. *)
From stdpp Require Import base strings gmap list.
From Coq Require Import ZArith Lia.
From Verif Require Import BB BBFacts Engine EngineSpec EngineFacts EngineInv EngineTotal TreeSem.
From Verif Require Solver SolverInv.

Notation rstate := Solver.state.

(** ** Specification *)
(** The leaf classes of ikbtleaves/ the tree is made of. *)
Inductive ikleaf :=
| KAssign | KRank | KTanId | KTanSolve | KAlgId | KAlgSolve | KScId | KScSolve | KSacId | KSacSolve | KX2z2
| KSimuId | KSimuSolve | KSub | KSumId | KUpdateL | KCompDet (fail_all_done : bool).
Definition leaf_code (sy : Solver.sympy) (k : ikleaf) : rstate -> Solver.outcome :=
  match k with
  | KAssign => Solver.assigner | KRank => Solver.rank
  | KTanId => Solver.tan_id sy | KTanSolve => Solver.tan_solve sy
  | KAlgId => Solver.algebra_id sy | KAlgSolve => Solver.algebra_solve sy
  | KScId => Solver.sincos_id | KScSolve => Solver.sincos_solve sy
  | KSacId => Solver.sinandcos_id sy | KSacSolve => Solver.sinandcos_solve sy
  | KX2z2 => Solver.x2z2_transform sy
  | KSimuId => Solver.simu_id sy | KSimuSolve => Solver.simu_solver sy
  | KSub => Solver.sub_transform sy | KSumId => Solver.sum_id sy | KUpdateL => Solver.updateL sy
  | KCompDet b => Solver.comp_det b
  end.
Definition of_outcome (o : Solver.outcome) : option (bool * rstate) :=
  match o with Solver.OK b w => Some (b, w) | Solver.Raise => None end.
Definition leaf_prog (sy : Solver.sympy) (code : nat -> ikleaf) (i : nat) : prog (W := rstate) :=
  fun w => of_outcome (leaf_code sy (code i) w).

(** The tree ikSolver.py:125-243 builds; the numbers stand for the uuids, one per object. *)
Definition L (i : nat) : node := NLeaf AUser i.
Definition ik_code (i : nat) : ikleaf :=
  match i with
  | 0 => KAssign | 1 => KRank | 2 => KTanId | 3 => KTanSolve | 4 => KAlgId | 5 => KAlgSolve | 6 => KScId | 7 => KScSolve
  | 8 => KSacId | 9 => KSacSolve | 10 => KX2z2 | 11 => KSimuId | 12 => KSimuSolve | 13 => KSub | 14 => KSumId
  | 15 => KUpdateL | _ => KCompDet false
  end.
(** ikSolver.py:143, 156, 169, 182, 200 *)
Definition tanSol := NComp CSequence 17 [L 2; L 3].
Definition algSol := NComp CSequence 18 [L 4; L 5].
Definition scSol := NComp CSequence 19 [L 6; L 7].
Definition sacSol := NComp CSequence 20 [L 8; L 9].
Definition simuSol := NComp CSequence 21 [L 11; L 12].
(** ikSolver.py:230 *)
Definition sc_tan := NComp CSequence 22 [NComp COrNode 23 [tanSol; scSol]; L 1].
(** ikSolver.py:235-243 *)
Definition worktools := NComp CPriority 24 [algSol; sc_tan; simuSol; sacSol; L 10].
Definition subtree := NDec (DRepeatUntilSuccess 6) 25 (Some (NComp CSequence 26 [L 0; L 14; worktools])).
Definition solveRoutine := NComp CSequence 27 [L 13; subtree; L 15; L 16].
Definition topnode := NDec (DRepeatUntilSuccess 10) 28 (Some solveRoutine).

(** ikSolver.py:319-333: the blackboard the script ticks the tree with *)
Definition ik_blackboard (l1 l2 l3 r u : val) : bb :=
  bb_set (bb_set (bb_set (bb_set (bb_set bb_new "eqns_1u" l1 SBase) "eqns_2u" l2 SBase) "eqns_3pu" l3 SBase) "Robot" r SBase) "unknowns" u SBase.

(** Trees a user may wire from the same parts ("it's also possible to build customized BT", ikSolver.py:234): a part
    is one of the shipped ID+solver sequences or a leaf that stands alone; parts are combined by Sequence, Priority,
    OrNode, Inverter, the repeaters, and b3's Succeeder and Failer. *)
Section Custom.
  Context (code : nat -> ikleaf).
  Definition leaf_of (n : node) (k : ikleaf) : Prop := exists i, n = NLeaf AUser i /\ code i = k.
  Definition pair_of (n : node) (k k' : ikleaf) : Prop :=
    exists i a b, n = NComp CSequence i [a; b] /\ leaf_of a k /\ leaf_of b k'.
  Definition part_of (n : node) (t : Solver.task) : Prop :=
    match t with
    | Solver.TAssign => leaf_of n KAssign
    | Solver.TSumId => leaf_of n KSumId
    | Solver.TAlg => pair_of n KAlgId KAlgSolve
    | Solver.TScTan => exists i j a b c, n = NComp CSequence i [NComp COrNode j [a; b]; c] /\
        pair_of a KTanId KTanSolve /\ pair_of b KScId KScSolve /\ leaf_of c KRank
    | Solver.TSimu => pair_of n KSimuId KSimuSolve
    | Solver.TSac => pair_of n KSacId KSacSolve
    | Solver.TX2z2 => leaf_of n KX2z2
    | Solver.TSub => leaf_of n KSub
    | Solver.TUpdateL => leaf_of n KUpdateL
    | Solver.TCompDet b => leaf_of n (KCompDet b)
    end.
  Inductive wired : node -> Prop :=
  | W_part n t : part_of n t -> wired n
  | W_const k i : k = ASucceeder \/ k = AFailer -> wired (NLeaf k i)
  | W_comp k i cs : Forall wired cs -> wired (NComp k i cs)
  | W_dec k i c : wired c -> wired (NDec k i (Some c)).
End Custom.

(** ** Proofs *)
Lemma one_tick {W} (C : cfg W) f fuel n (s : st W) tc :
  plain n = true -> acyclic n -> (forall i, i ∈ user_leaves n -> leaf_runs C f i) ->
  (forall i, i ∈ ids n -> is_open C s i = false) -> (exists z, bb_base (s_bb s) !! "TotalCost" = Some (VInt z)) ->
  match den f n (s_world s) with
  | Some (b, w') => exists s', tree_tick C fuel (Some n) s tc = (Ret (status_of b) s', (tc + 1)%Z) /\ s_world s' = w' /\
      bb_read (s_bb s') "open_nodes" (STree (c_tree C)) = VNodes [] /\
      (forall i, is_open C s' i = is_open C s i) /\ (exists z, bb_base (s_bb s') !! "TotalCost" = Some (VInt z))
  | None => exists s', tree_tick C fuel (Some n) s tc = (Raise UserExn s', (tc + 1)%Z)
  end.
Proof.
  intros Hp Ha Hl Ho Ht. unfold tree_tick.
  set (s0 := {| s_bb := s_bb s; s_stats := _ |}).
  assert (Hx := exec_den C f fuel n Hp Ha Hl s0 Ho Ht).
  change (s_world s0) with (s_world s) in Hx.
  destruct (den f n (s_world s)) as [[b w']|]; unfold outcome_ok in Hx.
  - destruct Hx as (s' & -> & Hw & Hs & (z & Hz) & Hoo). change (s_stack s0) with (@nil nat) in Hs.
    eexists. split; [reflexivity|]. split; [exact Hw|]. rewrite Hs. unfold set_bb; cbn [s_bb].
    split; [|split].
    + rewrite read_set_ne by (right; discriminate). rewrite read_set_same. reflexivity.
    + intros i. change (is_open C s i) with (is_open C s0 i). rewrite <- Hoo.
      apply is_open_nget. unfold nget; simpl. rewrite !read_set_ne by (left; discriminate). apply (bb_touch_read (s_bb s') (STree (c_tree C))).
    + exists z. exact Hz.
  - destruct Hx as (s' & ->). eauto.
Qed.

Lemma closed_if_fresh {W} (C : cfg W) (s : st W) : bb_trees (s_bb s) = ∅ -> forall i, is_open C s i = false.
Proof. intros E i. unfold is_open, nget. rewrite read_unfold. unfold get_memory, node_memory, tree_memory. rewrite E, lookup_empty. simpl. rewrite lookup_empty. reflexivity. Qed.

(** ** C68 *)
(** A tree of Sequences, Priorities, OrNodes, Inverters and finite repeaters, ticked once with all its nodes closed:
    the engine returns what the program the tree spells returns, leaves the world as it leaves it, and ends with no
    node open; an exception leaves the tick exactly when it leaves the program; no other exception, and no failure to
    terminate, is possible. *)
Theorem C68_tick_is_program {W} (C : cfg W) f fuel n (s : st W) tc :
  plain n = true -> acyclic n -> (forall i, i ∈ user_leaves n -> leaf_runs C f i) ->
  (forall i, i ∈ ids n -> is_open C s i = false) -> (exists z, bb_base (s_bb s) !! "TotalCost" = Some (VInt z)) ->
  match den f n (s_world s) with
  | Some (b, w') => exists s', tree_tick C fuel (Some n) s tc = (Ret (status_of b) s', (tc + 1)%Z) /\ s_world s' = w' /\
      bb_read (s_bb s') "open_nodes" (STree (c_tree C)) = VNodes [] /\
      (forall i, is_open C s' i = is_open C s i) /\ (exists z, bb_base (s_bb s') !! "TotalCost" = Some (VInt z))
  | None => exists s', tree_tick C fuel (Some n) s tc = (Raise UserExn s', (tc + 1)%Z)
  end.
Proof. exact (one_tick C f fuel n s tc). Qed.

Lemma den_seq2 sy code i a b (g h : rstate -> Solver.outcome) :
  (forall w, den (leaf_prog sy code) a w = of_outcome (g w)) -> (forall w, den (leaf_prog sy code) b w = of_outcome (h w)) ->
  forall w, den (leaf_prog sy code) (NComp CSequence i [a; b]) w = of_outcome (Solver.seq2 g h w).
Proof.
  intros Ha Hb w. simpl. rewrite Ha. unfold Solver.seq2. destruct (g w) as [[] w1|]; simpl; auto.
  rewrite Hb. destruct (h w1) as [[] w2|]; reflexivity.
Qed.
Lemma den_or2 sy code i a b (g h : rstate -> Solver.outcome) :
  (forall w, den (leaf_prog sy code) a w = of_outcome (g w)) -> (forall w, den (leaf_prog sy code) b w = of_outcome (h w)) ->
  forall w, den (leaf_prog sy code) (NComp COrNode i [a; b]) w = of_outcome (Solver.or2 g h w).
Proof.
  intros Ha Hb w. simpl. rewrite Ha. unfold Solver.or2. destruct (g w) as [b1 w1|]; simpl; auto.
  rewrite Hb. destruct (h w1) as [b2 w2|]; reflexivity.
Qed.
Lemma den_leaf sy code i k : code i = k -> forall w, den (leaf_prog sy code) (NLeaf AUser i) w = of_outcome (leaf_code sy k w).
Proof. intros <- w. reflexivity. Qed.
Lemma run_times_rus (f : rstate -> Solver.outcome) (g : prog (W := rstate)) n :
  (forall w, g w = of_outcome (f w)) -> forall w, run_times (Some false) n false g w = of_outcome (Solver.repeat_until_success n f w).
Proof.
  intros H. induction n as [|n IH]; intros w; [reflexivity|]. cbn [run_times Solver.repeat_until_success]. rewrite H.
  destruct (f w) as [[] w1|]; simpl; auto.
Qed.
Lemma run_while_cons_seq (g : prog (W := rstate)) gs (h k : rstate -> Solver.outcome) :
  (forall w, g w = of_outcome (h w)) -> (forall w, run_while true gs w = of_outcome (k w)) ->
  forall w, run_while true (g :: gs) w = of_outcome (Solver.seq2 h k w).
Proof. intros A B w. simpl. rewrite A. unfold Solver.seq2. destruct (h w) as [[] w1|]; simpl; auto. Qed.
Lemma run_while_cons_prio (g : prog (W := rstate)) gs (h k : rstate -> Solver.outcome) :
  (forall w, g w = of_outcome (h w)) -> (forall w, run_while false gs w = of_outcome (k w)) ->
  forall w, run_while false (g :: gs) w = of_outcome (Solver.prio2 h k w).
Proof. intros A B w. simpl. rewrite A. unfold Solver.prio2. destruct (h w) as [[] w1|]; simpl; auto. Qed.
Lemma run_while_one keep (g : prog (W := rstate)) (h : rstate -> Solver.outcome) :
  (forall w, g w = of_outcome (h w)) -> forall w, run_while keep [g] w = of_outcome (h w).
Proof. intros A w. simpl. rewrite A. destruct (h w) as [[] w1|], keep; reflexivity. Qed.

Lemma den_topnode sy w : den (leaf_prog sy ik_code) topnode w = of_outcome (Solver.ik_solve sy w).
Proof.
  revert w. unfold topnode. cbn [den]. apply run_times_rus.
  unfold solveRoutine. cbn [den]. unfold Solver.solve_routine.
  apply run_while_cons_seq; [intros ?; reflexivity|].
  apply run_while_cons_seq.
  2:{ apply run_while_cons_seq; [intros ?; reflexivity|].
      apply run_while_one. intros ?; reflexivity. }
  unfold subtree. cbn [den]. apply run_times_rus. cbn [den].
  apply run_while_cons_seq; [intros ?; reflexivity|].
  apply run_while_cons_seq; [intros ?; reflexivity|].
  apply run_while_one. unfold worktools. cbn [den]. unfold Solver.worktools.
  apply run_while_cons_prio; [apply den_seq2; intros ?; reflexivity|].
  apply run_while_cons_prio.
  { apply den_seq2; [|intros ?; reflexivity]. apply den_or2; apply den_seq2; intros ?; reflexivity. }
  apply run_while_cons_prio; [apply den_seq2; intros ?; reflexivity|].
  apply run_while_cons_prio; [apply den_seq2; intros ?; reflexivity|].
  apply run_while_one. intros ?; reflexivity.
Qed.

Lemma topnode_plain : plain topnode = true. Proof. reflexivity. Qed.
Lemma topnode_acyclic : acyclic topnode.
Proof. repeat split; refine (bool_decide_unpack _ _); vm_compute; exact I. Qed.

(** The tick ikSolver.py makes: the tree it builds, on the blackboard it fills, for every robot state, every sympy
    and every such engine configuration, does what the solver (Solver.ik_solve) says. *)
Theorem C68_shipped_tree sy (C : cfg rstate) fuel s tc l1 l2 l3 r u :
  (forall i, leaf_runs C (leaf_prog sy ik_code) i) -> s_bb s = ik_blackboard l1 l2 l3 r u ->
  match Solver.ik_solve sy (s_world s) with
  | Solver.OK b w' => exists s', tree_tick C fuel (Some topnode) s tc = (Ret (status_of b) s', (tc + 1)%Z) /\ s_world s' = w'
  | Solver.Raise => exists s', tree_tick C fuel (Some topnode) s tc = (Raise UserExn s', (tc + 1)%Z)
  end.
Proof.
  intros Hl Hb.
  assert (H := one_tick C (leaf_prog sy ik_code) fuel topnode s tc topnode_plain topnode_acyclic (fun i _ => Hl i)).
  rewrite den_topnode in H.
  assert (H' := H (fun i _ => closed_if_fresh C s ltac:(rewrite Hb; reflexivity) i)). clear H.
  assert (Ht : exists z, bb_base (s_bb s) !! "TotalCost" = Some (VInt z)). { exists 0%Z. rewrite Hb. reflexivity. }
  specialize (H' Ht). destruct (Solver.ik_solve sy (s_world s)) as [b w'|]; simpl in H'.
  - destruct H' as (s' & E & Hw & _). eauto.
  - exact H'.
Qed.

(** Custom trees *)
Lemma part_den sy code n t : part_of code n t -> forall w, den (leaf_prog sy code) n w = of_outcome (Solver.run_task sy t w).
Proof.
  assert (Hleaf : forall n k, leaf_of code n k -> forall w, den (leaf_prog sy code) n w = of_outcome (leaf_code sy k w)).
  { intros m k (i & -> & E). apply den_leaf. exact E. }
  assert (Hpair : forall n k k', pair_of code n k k' ->
    forall w, den (leaf_prog sy code) n w = of_outcome (Solver.seq2 (leaf_code sy k) (leaf_code sy k') w)).
  { intros m k k' (i & a & b & -> & Ha & Hb). apply den_seq2; apply Hleaf; auto. }
  destruct t; simpl; intros H.
  1,2: exact (Hleaf _ _ H).
  - exact (Hpair _ _ _ H).
  - destruct H as (i & j & a & b & c & -> & Ha & Hb & Hc).
    apply (den_seq2 sy code i (NComp COrNode j [a; b]) c (Solver.or2 (Solver.tan_sol sy) (Solver.sc_sol sy)) Solver.rank).
    + apply den_or2; [exact (Hpair _ _ _ Ha)|exact (Hpair _ _ _ Hb)].
    + exact (Hleaf _ _ Hc).
  - exact (Hpair _ _ _ H).
  - exact (Hpair _ _ _ H).
  - exact (Hleaf _ _ H).
  - exact (Hleaf _ _ H).
  - exact (Hleaf _ _ H).
  - exact (Hleaf _ _ H).
Qed.

Definition traced sy (g : prog (W := rstate)) : Prop := forall w b w', g w = Some (b, w') -> exists ts, Solver.runs sy w ts w'.
Lemma traced_while sy keep gs : Forall (traced sy) gs -> traced sy (run_while keep gs).
Proof.
  induction 1 as [|g gs Hg _ IH]; intros w b w' H; simpl in H.
  - injection H as <- <-. exists []. constructor.
  - destruct (g w) as [[b1 w1]|] eqn:E; [|discriminate]. destruct (Hg _ _ _ E) as (t1 & R1).
    destruct (eqb b1 keep).
    + destruct (IH _ _ _ H) as (t2 & R2). exists (t1 ++ t2). eapply SolverInv.runs_app; eauto.
    + injection H as <- <-. eauto.
Qed.
Lemma traced_all sy gs : Forall (traced sy) gs -> forall acc, traced sy (run_all acc gs).
Proof.
  induction 1 as [|g gs Hg _ IH]; intros acc w b w' H; simpl in H.
  - injection H as <- <-. exists []. constructor.
  - destruct (g w) as [[b1 w1]|] eqn:E; [|discriminate]. destruct (Hg _ _ _ E) as (t1 & R1).
    destruct (IH _ _ _ _ H) as (t2 & R2). exists (t1 ++ t2). eapply SolverInv.runs_app; eauto.
Qed.
Lemma traced_times sy ag g : traced sy g -> forall n l, traced sy (run_times ag n l g).
Proof.
  intros Hg. induction n as [|n IH]; intros l w b w' H.
  - injection H as <- <-. exists []. constructor.
  - cbn [run_times] in H. destruct (g w) as [[b1 w1]|] eqn:E; [|discriminate]. destruct (Hg _ _ _ E) as (t1 & R1).
    destruct (match ag with None => true | Some a => eqb b1 a end).
    + destruct (IH _ _ _ _ H) as (t2 & R2). exists (t1 ++ t2). eapply SolverInv.runs_app; eauto.
    + injection H as <- <-. eauto.
Qed.
Section WiredInd.
  Context (code : nat -> ikleaf) (P : node -> Prop).
  Context (Hp : forall n t, part_of code n t -> P n) (Hk : forall k i, k = ASucceeder \/ k = AFailer -> P (NLeaf k i))
          (Hc : forall k i cs, Forall P cs -> P (NComp k i cs)) (Hd : forall k i c, P c -> P (NDec k i (Some c))).
  Fixpoint wired_ind' n (H : wired code n) : P n :=
    match H with
    | W_part _ n t h => Hp n t h
    | W_const _ k i h => Hk k i h
    | W_comp _ k i cs h => Hc k i cs ((fix go l (h : Forall (wired code) l) : Forall P l :=
        match h with List.Forall_nil _ => Forall_nil_2 _ | List.Forall_cons _ x l' h1 h2 => Forall_cons_2 _ _ _ (wired_ind' x h1) (go l' h2) end) cs h)
    | W_dec _ k i c h => Hd k i c (wired_ind' c h)
    end.
End WiredInd.

Lemma wired_traced sy code n : wired code n -> traced sy (den (leaf_prog sy code) n).
Proof.
  revert n. apply (wired_ind' code); [intros n t H|intros k i H|intros k i cs H|intros k i n IH].
  - intros w b w' E. rewrite (part_den sy code n t H) in E.
    destruct (Solver.run_task sy t w) as [b1 w1|] eqn:Et; [|discriminate]. injection E as <- <-.
    exists [(t, b1)]. eapply Solver.runs_cons; [exact Et|constructor].
  - intros w b w' E. destruct H as [->| ->]; simpl in E; injection E as <- <-; exists []; constructor.
  - assert (F : Forall (traced sy) (map (den (leaf_prog sy code)) cs)).
    { apply Forall_fmap. exact H. }
    destruct k; cbn [den].
    + apply traced_while. exact F.
    + apply traced_while. exact F.
    + apply traced_all. exact F.
    + intros w b w' E. discriminate.
    + intros w b w' E. discriminate.
  - destruct k; cbn [den]; try (intros w b w' E; discriminate).
    + intros w b w' E. unfold not_of in E. destruct (den (leaf_prog sy code) n w) as [[b1 w1]|] eqn:E1; [|discriminate].
      injection E as <- <-. eapply IH; eauto.
    + apply traced_times. exact IH.
    + apply traced_times. exact IH.
    + apply traced_times. exact IH.
Qed.

(** Any tree wired from the solver's parts, ticked any number of times: what the ticks do to the robot and its unknowns
    is a history of solver steps (Solver.runs), so every property proved of such histories holds of the tree. *)
Fixpoint ticks {W} (C : cfg W) (fuel : nat) (n : node) (k : nat) (s s' : st W) : Prop :=
  match k with
  | O => s' = s
  | S k' => exists r s1 tc tc', tree_tick C fuel (Some n) s tc = (Ret r s1, tc') /\ ticks C fuel n k' s1 s'
  end.
Theorem C68_custom_tree sy code (C : cfg rstate) fuel n k s s' l1 l2 l3 r u :
  wired code n -> plain n = true -> acyclic n -> (forall i, i ∈ user_leaves n -> leaf_runs C (leaf_prog sy code) i) ->
  s_bb s = ik_blackboard l1 l2 l3 r u -> ticks C fuel n k s s' ->
  exists ts, Solver.runs sy (s_world s) ts (s_world s').
Proof.
  intros Hw Hp Ha Hl Hb.
  assert (Ho : forall i, is_open C s i = false) by (apply closed_if_fresh; rewrite Hb; reflexivity).
  assert (Ht : exists z, bb_base (s_bb s) !! "TotalCost" = Some (VInt z)) by (exists 0%Z; rewrite Hb; reflexivity).
  clear Hb. revert s Ho Ht. induction k as [|k IH]; intros s Ho Ht H.
  - simpl in H. subst s'. exists []. constructor.
  - destruct H as (r0 & s1 & tc & tc' & E & H).
    assert (H1 := one_tick C (leaf_prog sy code) fuel n s tc Hp Ha Hl (fun i _ => Ho i) Ht).
    destruct (den (leaf_prog sy code) n (s_world s)) as [[b w']|] eqn:Ed.
    + destruct H1 as (s2 & E2 & W2 & _ & O2 & T2). rewrite E2 in E. injection E as <- <- _.
      destruct (wired_traced sy code n Hw _ _ _ Ed) as (t1 & R1). subst w'.
      destruct (IH s2) as (t2 & R2); auto.
      * intros i. rewrite O2. apply Ho.
      * exists (t1 ++ t2). eapply SolverInv.runs_app; eauto.
    + destruct H1 as (s2 & E2). rewrite E2 in E. discriminate.
Qed.

(** The shipped tree is one of them. *)
Theorem C68_shipped_is_wired : wired ik_code topnode /\ plain topnode = true /\ acyclic topnode /\ NoDup (ids topnode).
Proof.
  split; [|split; [apply topnode_plain|split; [apply topnode_acyclic|refine (bool_decide_unpack _ _); vm_compute; exact I]]].
  assert (Hleaf : forall i t, part_of ik_code (L i) t -> wired ik_code (L i)) by (intros i t H; eapply W_part; eauto).
  assert (Lf : forall i, leaf_of ik_code (L i) (ik_code i)) by (intros i; exists i; auto).
  apply W_dec. apply W_comp. repeat apply Forall_cons_2; try apply Forall_nil_2.
  - apply (W_part _ _ Solver.TSub). apply (Lf 13).
  - apply W_dec. apply W_comp. repeat apply Forall_cons_2; try apply Forall_nil_2.
    + apply (W_part _ _ Solver.TAssign). apply (Lf 0).
    + apply (W_part _ _ Solver.TSumId). apply (Lf 14).
    + apply W_comp. repeat apply Forall_cons_2; try apply Forall_nil_2.
      * apply (W_part _ _ Solver.TAlg). exists 18, (L 4), (L 5). split; [reflexivity|]. split; [apply (Lf 4)|apply (Lf 5)].
      * apply (W_part _ _ Solver.TScTan). exists 22, 23, tanSol, scSol, (L 1). split; [reflexivity|].
        split; [|split; [|apply (Lf 1)]].
        -- exists 17, (L 2), (L 3). split; [reflexivity|]. split; [apply (Lf 2)|apply (Lf 3)].
        -- exists 19, (L 6), (L 7). split; [reflexivity|]. split; [apply (Lf 6)|apply (Lf 7)].
      * apply (W_part _ _ Solver.TSimu). exists 21, (L 11), (L 12). split; [reflexivity|]. split; [apply (Lf 11)|apply (Lf 12)].
      * apply (W_part _ _ Solver.TSac). exists 20, (L 8), (L 9). split; [reflexivity|]. split; [apply (Lf 8)|apply (Lf 9)].
      * apply (W_part _ _ Solver.TX2z2). apply (Lf 10).
  - apply (W_part _ _ Solver.TUpdateL). apply (Lf 15).
  - apply (W_part _ _ (Solver.TCompDet false)). apply (Lf 16).
Qed.

(** A configuration whose leaves are the solver's code exists for every sympy: the hypotheses are met. *)
Definition ik_cfg (sy : Solver.sympy) : cfg rstate :=
  Cfg 0 2 (fun i => "node") (fun _ => 0%Z)
    (fun i w m => match leaf_code sy (ik_code i) w with
                  | Solver.OK b w' => (inl (status_of b), w', <["eqns_1u" := VObj i]> m)
                  | Solver.Raise => (inr UserExn, w, m)
                  end).
Theorem C68_hypotheses_met sy i : leaf_runs (ik_cfg sy) (leaf_prog sy ik_code) i.
Proof.
  intros w m. unfold leaf_prog. cbn [ik_cfg c_leaf]. destruct (leaf_code sy (ik_code i) w) as [b w'|]; simpl.
  - eexists. split; [reflexivity|]. apply lookup_insert_ne. discriminate.
  - eauto.
Qed.
Print Assumptions C68_tick_is_program.
Print Assumptions C68_shipped_tree.
Print Assumptions C68_custom_tree.
Print Assumptions C68_shipped_is_wired.
Print Assumptions C68_hypotheses_met.
