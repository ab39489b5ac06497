(** Proofs about the engine model (Engine.v). *)
From stdpp Require Import base strings gmap list.
From Coq Require Import ZArith Lia.
From Verif Require Import BB BBFacts Engine.

(** Induction principle for the nested type [node]. *)
Section NodeInd.
  Context (P : node -> Prop).
  Context (Hl : forall k i, P (NLeaf k i)).
  Context (Hc : forall k i cs, Forall P cs -> P (NComp k i cs)).
  Context (Hd : forall k i co, (match co with Some c => P c | None => True end) -> P (NDec k i co)).
  Fixpoint node_ind' (n : node) : P n :=
    match n with
    | NLeaf k i => Hl k i
    | NComp k i cs =>
        Hc k i cs ((fix go l : Forall P l :=
                      match l with [] => Forall_nil_2 _ | c :: l' => Forall_cons_2 _ _ _ (node_ind' c) (go l') end) cs)
    | NDec k i co => Hd k i co (match co with Some c => node_ind' c | None => I end)
    end.
End NodeInd.

Definition children (n : node) : list node :=
  match n with
  | NLeaf _ _ => []
  | NComp _ _ cs => cs
  | NDec _ _ (Some c) => [c]
  | NDec _ _ None => []
  end.

Section Facts.
  Context {W : Type} (C : cfg W).
  Notation st := (st W).

  (** A body step of node [n] other than executing a child. *)
  Inductive self_op (n : node) : st -> st -> Prop :=
  | SO_cost s z : self_op n s (set_cost s (nid n) z)
  | SO_mem s k v : k <> "is_open" -> self_op n s (nset C s (nid n) k v)
  | SO_clock s : self_op n s (snd (read_clock C s))
  | SO_leaf s r w m :
      children n = [] ->
      c_leaf C (nid n) (s_world s) (bb_base (s_bb s)) = (r, w, m) ->
      self_op n s (St (BB m (bb_trees (s_bb s))) (s_stats s) (s_stack s) (s_count s)
                     (s_log s) (s_clk s) w (s_trace s)).

  Inductive body_rel (P : node -> st -> status -> st -> Prop) (n : node) : st -> st -> Prop :=
  | B_refl s : body_rel P n s s
  | B_child c r s s' s'' : In c (children n) -> P c s r s' -> body_rel P n s' s'' -> body_rel P n s s''
  | B_self s s' s'' : self_op n s s' -> body_rel P n s' s'' -> body_rel P n s s''.

  Lemma body_trans P n s s' s'' : body_rel P n s s' -> body_rel P n s' s'' -> body_rel P n s s''.
  Proof. induction 1; eauto using body_rel. Qed.
  Lemma body_one P n s s' : self_op n s s' -> body_rel P n s s'.
  Proof. eauto using body_rel. Qed.
  Lemma body_mono (P Q : node -> st -> status -> st -> Prop) n s s' :
    (forall c s r s', In c (children n) -> P c s r s' -> Q c s r s') ->
    body_rel P n s s' -> body_rel Q n s s'.
  Proof. intros H. induction 1; eauto using body_rel. Qed.

  Definition exrel fuel c s r s' := exec C fuel c s = Ret r s'.

  Lemma seq_loop_body fuel n i cs tmp s r s' :
    i = nid n -> (forall c, In c cs -> In c (children n)) ->
    seq_loop (exec C fuel) i cs tmp s = Ret r s' -> body_rel (exrel fuel) n s s'.
  Proof.
    intros Hi. revert tmp s. induction cs as [|c cs IH]; simpl; intros tmp s Hin H.
    - inversion H; subst. apply body_one. constructor.
    - destruct (exec C fuel c s) as [r1 s1|e s1|] eqn:He; try discriminate.
      destruct (decide (r1 = SUCCESS)) as [->|Hne].
      + eapply B_child; eauto.
      + inversion H; subst. eapply B_child; eauto. apply body_one. constructor.
  Qed.

  Lemma prio_loop_body fuel n i cs s r s' :
    i = nid n -> (forall c, In c cs -> In c (children n)) ->
    prio_loop (exec C fuel) i cs s = Ret r s' -> body_rel (exrel fuel) n s s'.
  Proof.
    intros Hi. revert s. induction cs as [|c cs IH]; simpl; intros s Hin H.
    - inversion H; subst. constructor.
    - destruct (exec C fuel c s) as [r1 s1|e s1|] eqn:He; try discriminate.
      destruct (decide (r1 = FAILURE)) as [->|Hne].
      + eapply B_child; eauto. subst i. eapply B_self; [constructor|]. eauto.
      + inversion H; subst. eapply B_child; eauto. apply body_one. constructor.
  Qed.

  Lemma or_loop_body fuel n i cs acc s r s' :
    i = nid n -> (forall c, In c cs -> In c (children n)) ->
    or_loop (exec C fuel) i cs acc s = Ret r s' -> body_rel (exrel fuel) n s s'.
  Proof.
    intros Hi. revert acc s. induction cs as [|c cs IH]; simpl; intros acc s Hin H.
    - inversion H; subst. constructor.
    - destruct (exec C fuel c s) as [r1 s1|e s1|] eqn:He; try discriminate.
      eapply B_child; eauto. subst i. eapply B_self; [constructor|]. eauto.
  Qed.

  Lemma rep_loop_body fuel n id c ag m k i last s r s' :
    id = nid n -> In c (children n) ->
    rep_loop C (exec C fuel) id c ag m k i last s = Ret r s' -> body_rel (exrel fuel) n s s'.
  Proof.
    intros Hi Hin. revert i last s. induction k as [|k IH]; simpl; intros i last s H.
    - destruct (m <? 0)%Z; [discriminate|]. destruct last; inversion H; subst.
      apply body_one. constructor. discriminate.
    - destruct ((m <? 0)%Z || (i <? m)%Z).
      + destruct (exec C fuel c s) as [r1 s1|e s1|] eqn:He; try discriminate.
        destruct (ag r1).
        * eapply B_child; eauto.
        * inversion H; subst. eapply B_child; eauto. apply body_one. constructor. discriminate.
      + destruct last; inversion H; subst. apply body_one. constructor. discriminate.
  Qed.

  Lemma exec_unfold fuel n s :
    exec C fuel n s =
    match (match n with
      | NLeaf k id => leaf_tick C k id (prologue C n s)
      | NComp k id cs => comp_tick (exec C fuel) k id cs (prologue C n s)
      | NDec k id co => dec_tick C fuel (exec C fuel) k id co (prologue C n s)
      end) with
    | Ret r s' => epilogue C (nid n) r s'
    | Raise e s2 => Raise e s2 | NoFuel => NoFuel
    end.
  Proof. destruct n; reflexivity. Qed.

  Definition body_of fuel (n : node) (s0 : st) : out W status :=
    match n with
      | NLeaf k id => leaf_tick C k id s0
      | NComp k id cs => comp_tick (exec C fuel) k id cs s0
      | NDec k id co => dec_tick C fuel (exec C fuel) k id co s0
      end.

  Lemma body_shape fuel n s0 r sb :
    body_of fuel n s0 = Ret r sb -> body_rel (exrel fuel) n s0 sb.
  Proof.
    unfold body_of. intros Hb.
    destruct n as [k id|k id cs|k id co]; simpl in Hb |- *.
    - destruct k; simpl in Hb; try (inversion Hb; subst; constructor).
      + destruct (c_leaf C id _ _) as [[rr w] m] eqn:Hl. destruct rr; inversion Hb; subst.
        apply body_one. eapply (SO_leaf (NLeaf AUser id)); simpl; eauto.
      + destruct (nget _ _ _ _); inversion Hb; subst. apply body_one.
        apply (SO_clock (NLeaf (AWait end_time) id)).
    - destruct k; simpl in Hb; try discriminate.
      + eapply seq_loop_body in Hb; eauto.
      + eapply B_self; [apply (SO_cost (NComp CPriority id cs) _ 0)|]. eapply prio_loop_body; eauto.
      + eapply B_self; [apply (SO_cost (NComp COrNode id cs) _ 0)|]. eapply or_loop_body; eauto.
    - destruct co as [c|]; simpl in Hb; [|inversion Hb; subst; constructor].
      destruct k; simpl in Hb.
      + destruct (exec C fuel c _) as [r1 s1|e s1|] eqn:Hx; inversion Hb; subst.
        eapply B_child; eauto using body_rel; simpl; auto.
      + destruct (nget C _ id "i"); try discriminate.
        destruct (z <? max_loop)%Z; [|inversion Hb; subst; constructor].
        destruct (exec C fuel c _) as [r1 s1|e s1|] eqn:Hx; inversion Hb; subst.
        eapply B_child; [simpl; eauto|exact Hx|].
        destruct (again_rep r); [|constructor].
        apply body_one. apply (SO_mem (NDec (DLimiter max_loop) id (Some c))). discriminate.
      + destruct (nget C _ id "startTime"); try discriminate.
        eapply B_self; [apply (SO_clock (NDec (DMaxTime max_time) id (Some c)))|].
        destruct (exec C fuel c _) as [r1 s1|e s1|] eqn:Hx; inversion Hb; subst.
        eapply B_child; [simpl; eauto|exact Hx|constructor].
      + destruct (nget C _ id "i"); try discriminate. eapply rep_loop_body; [| |exact Hb]; simpl; auto.
      + destruct (nget C _ id "i"); try discriminate. eapply rep_loop_body; [| |exact Hb]; simpl; auto.
      + destruct (nget C _ id "i"); try discriminate. eapply rep_loop_body; [| |exact Hb]; simpl; auto.
  Qed.

  (** Every successful execution = prologue; body; epilogue. *)
  Lemma exec_shape fuel n s r s' :
    exec C fuel n s = Ret r s' ->
    exists sb, body_rel (exrel fuel) n (prologue C n s) sb /\ epilogue C (nid n) r sb = Ret r s'.
  Proof.
    rewrite exec_unfold. intros H.
    assert (Hep : forall r1 sb, epilogue C (nid n) r1 sb = Ret r s' -> r1 = r).
    { intros r1 sb He. unfold epilogue, after_tick, finish in He.
      destruct (bb_inc _ _ _ _) as [b|b|b]; try discriminate.
      destruct (decide (r1 = RUNNING)); [congruence|].
      destruct (s_stack _); congruence. }
    assert (G : forall o, match o with Ret r s' => epilogue C (nid n) r s' | Raise e s2 => Raise e s2 | NoFuel => NoFuel end = Ret r s' ->
                exists r1 sb, o = Ret r1 sb /\ r1 = r /\ epilogue C (nid n) r sb = Ret r s').
    { intros o Ho. destruct o as [r1 sb| |]; try discriminate.
      exists r1, sb. pose proof (Hep _ _ Ho). subst r1. auto. }
    apply G in H. clear G Hep. destruct H as (r1 & sb & Hb & -> & He).
    exists sb. split; [|exact He]. eapply body_shape; exact Hb.
  Qed.

  (** Induction over executions. *)
  Lemma exec_ind_gen fuel (P : node -> st -> status -> st -> Prop) :
    (forall n s r sb s',
        body_rel (fun c s r s' => P c s r s' /\ exec C fuel c s = Ret r s') n (prologue C n s) sb ->
        epilogue C (nid n) r sb = Ret r s' -> P n s r s') ->
    forall n s r s', exec C fuel n s = Ret r s' -> P n s r s'.
  Proof.
    intros H n. induction n using node_ind'; intros s r s' He;
      destruct (exec_shape _ _ _ _ _ He) as (sb & Hb & Hep);
      (eapply H; [|exact Hep]); (eapply body_mono; [|exact Hb]); simpl;
      intros c' s1 r1 s1' Hin Hx; (split; [|exact Hx]).
    - contradiction.
    - rewrite Forall_forall in H0. apply elem_of_list_In in Hin. eauto.
    - destruct co; simpl in Hin; [|contradiction]. destruct Hin as [->|[]]. eauto.
  Qed.
End Facts.
