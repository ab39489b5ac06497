(** What a tree of composites means as a program: the specification of C68's first half and its proof.
    [den] reads a tree as a function from the world before to the result and the world after; [exec] (Engine.v) is
    what the b3 engine does with it, with its open flags, counters, costs and blackboard. *)
From stdpp Require Import base strings gmap list.
From Coq Require Import ZArith Lia.
From Verif Require Import BB BBFacts Engine EngineSpec EngineFacts EngineInv EngineTotal.

(** ** Specification *)
Section Den.
  Context {W : Type}.
  (** A program: [None] when an exception leaves it. *)
  Definition prog := W -> option (bool * W).
  Definition skip_with (b : bool) : prog := fun w => Some (b, w).
  (** run the list in order while the result is [keep]; [keep] itself if all of them gave it *)
  Fixpoint run_while (keep : bool) (fs : list prog) : prog := fun w =>
    match fs with
    | [] => Some (keep, w)
    | f :: fs' => match f w with Some (b, w1) => if eqb b keep then run_while keep fs' w1 else Some (b, w1) | None => None end
    end.
  (** run all of them; true if one of them gave true *)
  Fixpoint run_all (acc : bool) (fs : list prog) : prog := fun w =>
    match fs with
    | [] => Some (acc, w)
    | f :: fs' => match f w with Some (b, w1) => run_all (acc || b) fs' w1 | None => None end
    end.
  (** run it at most [n] times, as long as the result is [again] ([None]: whatever the result); [last] if it never runs *)
  Fixpoint run_times (again : option bool) (n : nat) (last : bool) (f : prog) : prog := fun w =>
    match n with
    | O => Some (last, w)
    | S n' =>
        match f w with
        | Some (b, w1) =>
            if match again with None => true | Some a => eqb b a end then run_times again n' b f w1 else Some (b, w1)
        | None => None
        end
    end.
  Definition not_of (f : prog) : prog := fun w => match f w with Some (b, w1) => Some (negb b, w1) | None => None end.

  Fixpoint den (f : nat -> prog) (n : node) : prog :=
    match n with
    | NLeaf AUser i => f i
    | NLeaf ASucceeder _ => skip_with true
    | NLeaf _ _ => skip_with false
    | NComp CSequence _ cs => run_while true (map (den f) cs)
    | NComp CPriority _ cs => run_while false (map (den f) cs)
    | NComp COrNode _ cs => run_all false (map (den f) cs)
    | NComp _ _ _ => fun _ => None
    | NDec k _ (Some c) =>
        match k with
        | DInverter => not_of (den f c)
        | DRepeatUntilSuccess m => run_times (Some false) (Z.to_nat m) false (den f c)
        | DRepeatUntilFailure m => run_times (Some true) (Z.to_nat m) true (den f c)
        | DRepeater m => run_times None (Z.to_nat m) true (den f c)
        | _ => fun _ => None
        end
    | NDec _ _ None => fun _ => None
    end.
End Den.

(** The trees the theorem is about: user leaves, Succeeder and Failer, Sequence, Priority, OrNode, Inverter and the
    three repeaters with a finite limit (at least 1 for the two RepeatUntil...). *)
Definition plain_node (n : node) : bool :=
  match n with
  | NLeaf (AUser | ASucceeder | AFailer) _ => true
  | NComp (CSequence | CPriority | COrNode) _ _ => true
  | NDec DInverter _ (Some _) => true
  | NDec (DRepeatUntilSuccess m | DRepeatUntilFailure m) _ (Some _) => (1 <=? m)%Z
  | NDec (DRepeater m) _ (Some _) => (0 <=? m)%Z
  | _ => false
  end.
Definition plain (n : node) : bool := forallb plain_node (subnodes n).

Definition status_of (b : bool) : status := if b then SUCCESS else FAILURE.

(** The code of user leaf [i] is the program [f i]: it returns SUCCESS or FAILURE or raises, changes the world as
    [f i] says, and does what it likes to the blackboard's base memory except to TotalCost. *)
Definition leaf_runs {W} (C : cfg W) (f : nat -> prog) (i : nat) : Prop :=
  forall w m, match f i w with
              | Some (b, w') => exists m', c_leaf C i w m = (inl (status_of b), w', m') /\ m' !! "TotalCost" = m !! "TotalCost"
              | None => exists w' m', c_leaf C i w m = (inr UserExn, w', m')
              end.
(** The user leaves of a tree. *)
Definition user_leaves (n : node) : list nat :=
  omap (fun m => match m with NLeaf AUser i => Some i | _ => None end) (subnodes n).

(** What an execution of a tree must do, given what its program gives. *)
Definition outcome_ok {W} (C : cfg W) (s : st W) (r : option (bool * W)) (o : out W status) : Prop :=
  match r with
  | Some (b, w') => exists s', o = Ret (status_of b) s' /\ s_world s' = w' /\ s_stack s' = s_stack s /\
      (exists z, bb_base (s_bb s') !! "TotalCost" = Some (VInt z)) /\
      (forall i, is_open C s' i = is_open C s i)
  | None => exists s', o = Raise UserExn s'
  end.

(** ** Proofs *)
Section Proofs.
  Context {W : Type} (C : cfg W) (f : nat -> prog (W := W)) (fuel : nat).
  Notation st := (st W).

  (** what the body of a node keeps, the node's own memory aside *)
  Definition good (i : nat) (s0 s : st) : Prop :=
    s_stack s = s_stack s0 /\ tc_int s /\ (forall j, is_open C s j = is_open C s0 j).
  Definition body_ok (i : nat) (s0 : st) (r : option (bool * W)) (o : out W status) : Prop :=
    match r with
    | Some (b, w') => exists s', o = Ret (status_of b) s' /\ s_world s' = w' /\ good i s0 s'
    | None => exists s', o = Raise UserExn s'
    end.

  Definition child_ok (i : nat) (s0 : st) (c : node) : Prop :=
    forall s, good i s0 s -> outcome_ok C s (den f c (s_world s)) (exec C fuel c s).

  Lemma good_trans i s0 s s' : good i s0 s -> s_stack s' = s_stack s -> tc_int s' -> (forall j, is_open C s' j = is_open C s j) -> good i s0 s'.
  Proof. intros (A & B & D) E F G. split; [congruence|]. split; auto. intros j. rewrite G. apply D. Qed.
  Lemma good_cost i s0 s k z : good i s0 s -> good i s0 (set_cost s k z).
  Proof. intros H. exact H. Qed.
  Lemma good_i i s0 s k v : good i s0 s -> good i s0 (nset C s k "i" v).
  Proof.
    intros (A & B & D). split; [exact A|]. split; [exact B|].
    intros j. rewrite <- D. apply is_open_nget. rewrite nget_nset, decide_False; auto. intros [_ ?]. discriminate.
  Qed.

  Lemma seq_ok i s0 cs : Forall (child_ok i s0) cs -> forall tmp s, good i s0 s ->
    body_ok i s0 (run_while true (map (den f) cs) (s_world s)) (seq_loop (exec C fuel) i cs tmp s).
  Proof.
    induction 1 as [|c cs Hc _ IH]; intros tmp s G; simpl.
    - eexists. split; [reflexivity|]. split; [reflexivity|]. apply good_cost. exact G.
    - pose proof (Hc s G) as Hx. unfold outcome_ok in Hx.
      destruct (den f c (s_world s)) as [[b w1]|]; simpl in Hx.
      + destruct Hx as (s1 & -> & <- & S1 & T1 & O1).
        pose proof (good_trans _ _ _ _ G S1 T1 O1) as G1. destruct b; simpl.
        * apply IH. exact G1.
        * eexists. split; [reflexivity|]. split; [reflexivity|]. apply good_cost. exact G1.
      + destruct Hx as (s1 & ->). simpl. eauto.
  Qed.
  Lemma prio_ok i s0 cs : Forall (child_ok i s0) cs -> forall s, good i s0 s ->
    body_ok i s0 (run_while false (map (den f) cs) (s_world s)) (prio_loop (exec C fuel) i cs s).
  Proof.
    induction 1 as [|c cs Hc _ IH]; intros s G; simpl.
    - eexists. split; [reflexivity|]. split; [reflexivity|]. exact G.
    - pose proof (Hc s G) as Hx. unfold outcome_ok in Hx.
      destruct (den f c (s_world s)) as [[b w1]|]; simpl in Hx.
      + destruct Hx as (s1 & -> & <- & S1 & T1 & O1).
        pose proof (good_trans _ _ _ _ G S1 T1 O1) as G1. destruct b; simpl.
        * eexists. split; [reflexivity|]. split; [reflexivity|]. apply good_cost. exact G1.
        * apply (IH (set_cost s1 i _)). apply good_cost. exact G1.
      + destruct Hx as (s1 & ->). simpl. eauto.
  Qed.
  Lemma or_ok i s0 cs : Forall (child_ok i s0) cs -> forall acc s, good i s0 s ->
    body_ok i s0 (run_all acc (map (den f) cs) (s_world s)) (or_loop (exec C fuel) i cs (status_of acc) s).
  Proof.
    induction 1 as [|c cs Hc _ IH]; intros acc s G; simpl.
    - eexists. split; [reflexivity|]. split; [reflexivity|]. exact G.
    - pose proof (Hc s G) as Hx. unfold outcome_ok in Hx.
      destruct (den f c (s_world s)) as [[b w1]|]; simpl in Hx.
      + destruct Hx as (s1 & -> & <- & S1 & T1 & O1).
        pose proof (good_trans _ _ _ _ G S1 T1 O1) as G1.
        assert (E : (if decide (status_of b = FAILURE) then status_of acc else SUCCESS) = status_of (acc || b)).
        { destruct acc, b; reflexivity. }
        rewrite E. apply (IH (acc || b) (set_cost s1 i _)). apply good_cost. exact G1.
      + destruct Hx as (s1 & ->). simpl. eauto.
  Qed.

  Lemma times_last f0 ag n l l' w : (0 < n) -> run_times (W := W) ag n l f0 w = run_times ag n l' f0 w.
  Proof. destruct n; [lia|]. intros _. reflexivity. Qed.
  Lemma rep_ok i s0 c ag again m : child_ok i s0 c ->
    (forall b, again (status_of b) = match ag with None => true | Some a => eqb b a end) ->
    (0 <= m)%Z ->
    forall k j lo l s, k = Z.to_nat (m - j) -> good i s0 s ->
      (lo = Some (status_of l) \/ (lo = None /\ (0 < k))) ->
      body_ok i s0 (run_times ag k l (den f c) (s_world s)) (rep_loop C (exec C fuel) i c again m k j lo s).
  Proof.
    intros Hc Ha Hm. induction k as [|k IH]; intros j lo l s Hk G Hl.
    - simpl. assert (E : (m <? 0)%Z = false) by lia. rewrite E.
      destruct Hl as [->|[_ ?]]; [|lia]. eexists. split; [reflexivity|]. split; [reflexivity|]. apply good_i. exact G.
    - cbn [run_times rep_loop].
      assert (E : ((m <? 0)%Z || (j <? m)%Z) = true) by lia. rewrite E.
      pose proof (Hc s G) as Hx. unfold outcome_ok in Hx.
      destruct (den f c (s_world s)) as [[b w1]|]; simpl in Hx.
      + destruct Hx as (s1 & -> & <- & S1 & T1 & O1).
        pose proof (good_trans _ _ _ _ G S1 T1 O1) as G1. rewrite Ha.
        destruct (match ag with None => true | Some a => eqb b a end) eqn:Eb.
        * apply IH; auto. lia.
        * eexists. split; [reflexivity|]. split; [reflexivity|]. apply good_i. exact G1.
      + destruct Hx as (s1 & ->). simpl. eauto.
  Qed.

  Lemma pro_open_other n s j : nid n <> j -> is_open C (prologue C n s) j = is_open C s j.
  Proof. intros H. apply is_open_nget. apply pro_nget_other. exact H. Qed.
  Lemma pro_i n s m : is_open C s (nid n) = false ->
    match n with
    | NDec (DRepeater m' | DRepeatUntilSuccess m' | DRepeatUntilFailure m') _ _ => m' = m
    | _ => False
    end -> nget C (prologue C n s) (nid n) "i" = VInt 0.
  Proof.
    intros Ho Hn. unfold prologue, do_open.
    change (is_open C (do_enter s (nid n)) (nid n)) with (is_open C s (nid n)). rewrite Ho.
    destruct n as [[]|[]|[] i co]; try contradiction; simpl.
    all: unfold count_tick; change (nget C (nset C (nset C (do_enter s i) i "is_open" (VBool true)) i "i" (VInt 0)) i "i" = VInt 0).
    all: rewrite nget_nset, decide_True; auto.
  Qed.

  (** from the body to the whole execution *)
  Lemma wrap_ok n s r : is_open C s (nid n) = false -> tc_int s ->
    body_ok (nid n) (prologue C n s) r (body_of C fuel n (prologue C n s)) ->
    outcome_ok C s r (exec C fuel n s).
  Proof.
    intros Ho Htc Hb. rewrite exec_unfold.
    change (match n with NLeaf _ _ => _ | NComp _ _ _ => _ | NDec _ _ _ => _ end) with (body_of C fuel n (prologue C n s)).
    destruct r as [[b w']|]; simpl in Hb.
    2:{ destruct Hb as (s' & ->). simpl. eauto. }
    destruct Hb as (sb & -> & Hw & (S1 & T1 & O1)). rewrite pro_stack in S1.
    destruct (epilogue_total C (nid n) (status_of b) sb T1) as (s' & He).
    { rewrite S1. discriminate. }
    rewrite He. simpl. exists s'. split; [reflexivity|].
    unfold epilogue in He. unfold after_tick in He. destruct T1 as (z & Hz).
    unfold bb_inc in He. change (get_memory (s_bb sb) SBase) with (bb_base (s_bb sb)) in He. rewrite Hz in He.
    unfold finish in He. destruct (decide (status_of b = RUNNING)) as [Hr|_]; [destruct b; discriminate|].
    match type of He with match s_stack ?x with _ => _ end = _ => set (sx := x) in He end.
    assert (Ex : s_stack sx = s_stack sb /\ s_world sx = s_world sb /\
       s_bb sx = bb_set (s_bb sb) "TotalCost" (VInt (z + n_cost (stat sb (nid n)))) SBase).
    { unfold sx. destruct (decide (status_of b = SUCCESS)), (decide (status_of b = FAILURE)), (c_log C >? 0)%Z, (c_log C >? 1)%Z; auto. }
    clearbody sx. destruct Ex as (X1 & X2 & X3). rewrite X1, S1 in He. injection He as <-.
    split; [simpl; congruence|]. split; [reflexivity|]. split.
    - exists (z + n_cost (stat sb (nid n)))%Z. simpl. rewrite X3. simpl. apply lookup_insert.
    - intros j. destruct (decide (nid n = j)) as [<-|Hj].
      + rewrite Ho. unfold is_open. rewrite nget_nset, decide_True; auto.
      + transitivity (is_open C sb j).
        * apply is_open_nget. rewrite nget_nset, decide_False by naive_solver.
          unfold nget, set_stack; simpl. rewrite X3, !read_unfold, set_memory_other by discriminate. reflexivity.
        * rewrite O1. apply pro_open_other. exact Hj.
  Qed.

  Lemma plain_child n c : plain n = true -> In c (children n) -> plain c = true.
  Proof.
    unfold plain. rewrite !forallb_forall. intros H Hin m Hm. apply H.
    apply elem_of_list_In. eapply subnodes_child; eauto. apply elem_of_list_In; auto.
  Qed.
  Lemma plain_here n : plain n = true -> plain_node n = true.
  Proof. unfold plain. rewrite forallb_forall. intros H. apply H. apply elem_of_list_In. destruct n; left. Qed.
  Lemma leaves_child n c i : In c (children n) -> i ∈ user_leaves c -> i ∈ user_leaves n.
  Proof.
    unfold user_leaves. rewrite !elem_of_list_omap. intros Hin (m & Hm & E). exists m. split; [|exact E].
    eapply subnodes_child; eauto.
  Qed.

  Theorem exec_den n : plain n = true -> acyclic n -> (forall i, i ∈ user_leaves n -> leaf_runs C f i) ->
    forall s, (forall i, i ∈ ids n -> is_open C s i = false) -> (exists z, bb_base (s_bb s) !! "TotalCost" = Some (VInt z)) ->
    outcome_ok C s (den f n (s_world s)) (exec C fuel n s).
  Proof.
    induction n as [k i|k i cs IH|k i co IH] using node_ind'; intros Hp Hac Hlf s Hop Htc.
    - pose proof (plain_here _ Hp) as Hk. apply wrap_ok; [apply Hop; left|exact Htc|].
      assert (Ew : s_world (prologue C (NLeaf k i) s) = s_world s) by apply pro_world.
      assert (Et : tc_int (prologue C (NLeaf k i) s)) by (apply tc_pro; exact Htc).
      revert Ew Et. generalize (prologue C (NLeaf k i) s) as s0. intros s0 Ew Et.
      destruct k; try discriminate; cbn [body_of leaf_tick den nid].
      + assert (Hl : leaf_runs C f i). { apply Hlf. unfold user_leaves. simpl. left. }
        specialize (Hl (s_world s0) (bb_base (s_bb s0))). rewrite <- Ew.
        destruct (f i (s_world s0)) as [[b w']|]; simpl.
        * destruct Hl as (m' & -> & Hm). eexists. split; [reflexivity|]. split; [reflexivity|].
          split; [reflexivity|]. split; [|intros j; reflexivity]. destruct Et as (z & Hz). exists z. simpl. congruence.
        * destruct Hl as (w' & m' & ->). eauto.
      + eexists. split; [reflexivity|]. split; [exact Ew|]. split; auto.
      + eexists. split; [reflexivity|]. split; [exact Ew|]. split; auto.
    - pose proof (plain_here _ Hp) as Hk. apply wrap_ok; [apply Hop; left|exact Htc|].
      set (s0 := prologue C (NComp k i cs) s).
      assert (Ew : s_world s0 = s_world s) by apply pro_world.
      assert (G0 : good i s0 s0). { split; auto. split; auto. apply tc_pro. exact Htc. }
      assert (Hch : Forall (child_ok i s0) cs).
      { rewrite Forall_forall in IH |- *. intros c Hc s1 (_ & T1 & O1).
        assert (Hin : In c (children (NComp k i cs))) by (apply elem_of_list_In; exact Hc).
        destruct (acyclic_child _ _ Hac Hin) as [Hac' Hni].
        apply IH; auto.
        - eapply plain_child; eauto.
        - intros j Hj. apply Hlf. eapply leaves_child; eauto.
        - intros j Hj. rewrite O1. unfold s0. rewrite pro_open_other.
          + apply Hop. eapply ids_child; eauto.
          + intros E. apply Hni. simpl in E |- *. rewrite E. exact Hj. }
      destruct k; try discriminate; cbn [body_of comp_tick den nid].
      + rewrite <- Ew. apply seq_ok; auto.
      + rewrite <- Ew. apply (prio_ok i s0 cs Hch (set_cost s0 i 0)). apply good_cost. exact G0.
      + rewrite <- Ew. apply (or_ok i s0 cs Hch false (set_cost s0 i 0)). apply good_cost. exact G0.
    - pose proof (plain_here _ Hp) as Hk. destruct co as [c|]; [|destruct k; discriminate].
      apply wrap_ok; [apply Hop; left|exact Htc|].
      set (s0 := prologue C (NDec k i (Some c)) s).
      assert (Ew : s_world s0 = s_world s) by apply pro_world.
      assert (G0 : good i s0 s0). { split; auto. split; auto. apply tc_pro. exact Htc. }
      assert (Hch : child_ok i s0 c).
      { intros s1 (_ & T1 & O1).
        assert (Hin : In c (children (NDec k i (Some c)))) by (left; auto).
        destruct (acyclic_child _ _ Hac Hin) as [Hac' Hni].
        apply IH; auto.
        - eapply plain_child; eauto.
        - intros j Hj. rewrite O1. unfold s0. rewrite pro_open_other.
          + apply Hop. eapply ids_child; eauto.
          + intros E. apply Hni. simpl in E |- *. rewrite E. exact Hj. }
      assert (Hi : forall m, match k with DRepeater m' | DRepeatUntilSuccess m' | DRepeatUntilFailure m' => m' = m | _ => False end ->
         nget C s0 i "i" = VInt 0).
      { intros m Hm. apply (pro_i (NDec k i (Some c)) s m); [apply Hop; left|]. destruct k; exact Hm. }
      clearbody s0. rewrite <- Ew.
      destruct k; try discriminate; cbn [body_of dec_tick den nid]; simpl in Hk.
      + pose proof (Hch s0 G0) as Hx. unfold outcome_ok in Hx. unfold not_of.
        destruct (den f c (s_world s0)) as [[b w1]|]; simpl in Hx.
        * destruct Hx as (s1 & -> & <- & S1 & T1 & O1). simpl.
          exists s1. split; [destruct b; reflexivity|]. split; [reflexivity|]. split; auto.
        * destruct Hx as (s1 & ->). simpl. eauto.
      + rewrite (Hi max_loop eq_refl). unfold rep_fuel. assert (E : (max_loop <? 0)%Z = false) by lia. rewrite E.
        rewrite Z.sub_0_r. apply (rep_ok i s0 c None again_rep max_loop Hch); auto; try lia.
        * intros []; reflexivity.

      + rewrite (Hi max_loop eq_refl). unfold rep_fuel. assert (E : (max_loop <? 0)%Z = false) by lia. rewrite E.
        rewrite Z.sub_0_r. apply (rep_ok i s0 c (Some false) again_rus max_loop Hch); auto; try lia.
        * intros []; reflexivity.

        * right. split; [auto|lia].
      + rewrite (Hi max_loop eq_refl). unfold rep_fuel. assert (E : (max_loop <? 0)%Z = false) by lia. rewrite E.
        rewrite Z.sub_0_r. apply (rep_ok i s0 c (Some true) again_ruf max_loop Hch); auto; try lia.
        * intros []; reflexivity.

        * right. split; [auto|lia].
  Qed.
End Proofs.
