(** A well-formed tree never crashes the engine; histories (proofs). *)
From stdpp Require Import base strings gmap list.
From Coq Require Import ZArith Lia.
From Verif Require Import BB BBFacts Engine EngineSpec EngineFacts EngineInv EngineSem EngineTerm.

Section Total.
  Context {W : Type} (C : cfg W).
  Notation st := (st W).

  (** what an open node keeps in its memory *)
  Definition kfact (n : node) (s : st) : Prop :=
    match n with
    | NLeaf (AWait _) i => exists t, nget C s i "start_time" = VFloat t
    | NDec (DMaxTime _) i _ => exists t, nget C s i "startTime" = VFloat t
    | NDec (DLimiter m) i _ => nget C s i "i" = VInt 0
    | NDec (DRepeater m) i _ => exists z, nget C s i "i" = VInt z /\ (0 <= z)%Z
    | NDec (DRepeatUntilSuccess m | DRepeatUntilFailure m) i _ =>
        exists z, nget C s i "i" = VInt z /\ (0 <= z)%Z /\ ((1 <= m)%Z -> (z < m)%Z)
    | _ => True
    end.
  Definition node_inv (n : node) (s : st) : Prop := is_open C s (nid n) = true -> kfact n s.
  Definition tree_inv (n : node) (s : st) : Prop := forall m, m ∈ subnodes n -> node_inv m s.
  Definition tc_int (s : st) : Prop := exists z, bb_base (s_bb s) !! "TotalCost" = Some (VInt z).

  Lemma kfact_ext n s s' : (forall k, nget C s' (nid n) k = nget C s (nid n) k) -> kfact n s -> kfact n s'.
  Proof. intros H. destruct n as [[]|[]|[]]; simpl in *; auto; rewrite H; auto. Qed.
  Lemma kfact_ext' n s s' : (forall k, k <> "is_open" -> nget C s' (nid n) k = nget C s (nid n) k) -> kfact n s -> kfact n s'.
  Proof. intros H. destruct n as [[]|[]|[]]; simpl in *; auto; rewrite H by discriminate; auto. Qed.
  Lemma node_inv_ext n s s' : (forall k, nget C s' (nid n) k = nget C s (nid n) k) -> node_inv n s -> node_inv n s'.
  Proof. intros H Hi. unfold node_inv, is_open in *. rewrite H. intros Ho. eapply kfact_ext; eauto. Qed.

  Lemma subnodes_nid n m : m ∈ subnodes n -> nid m ∈ ids n.
  Proof.
    induction n as [k i|k i cs IH|k i co IH] using node_ind'; simpl; rewrite elem_of_cons.
    - intros [->|H]; [left|inversion H].
    - intros [->|H]; [left|]. right. apply elem_of_list_In in H. apply in_concat in H.
      destruct H as (l & Hl & Hm). apply in_map_iff in Hl. destruct Hl as (c & <- & Hc).
      apply elem_of_list_In, in_concat. exists (ids c). split; [apply in_map; auto|].
      rewrite Forall_forall in IH. apply elem_of_list_In, IH; apply elem_of_list_In; auto.
    - intros [->|H]; [left|]. destruct co; [|inversion H]. right. auto.
  Qed.
  Lemma subnodes_child n c m : In c (children n) -> m ∈ subnodes c -> m ∈ subnodes n.
  Proof.
    intros Hin Hm. destruct n as [k j|k j cs|k j [c'|]]; simpl in *; try contradiction.
    - right. apply elem_of_list_In, in_concat. exists (subnodes c). split; [apply in_map; auto|apply elem_of_list_In; auto].
    - destruct Hin as [->|[]]. right. auto.
  Qed.
  Lemma subnodes_inv n m : m ∈ subnodes n -> m = n \/ exists c, In c (children n) /\ m ∈ subnodes c.
  Proof.
    destruct n as [k j|k j cs|k j [c'|]]; simpl; rewrite elem_of_cons; intros [->|H]; auto.
    - inversion H.
    - right. apply elem_of_list_In, in_concat in H. destruct H as (l & Hl & Hm).
      apply in_map_iff in Hl. destruct Hl as (c & <- & Hc). exists c. split; auto. apply elem_of_list_In; auto.
    - right. exists c'. auto.
    - inversion H.
  Qed.
  Lemma good_child n c : good_tree n = true -> In c (children n) -> good_tree c = true.
  Proof.
    unfold good_tree. rewrite !forallb_forall. intros H Hin m Hm. apply H.
    apply elem_of_list_In. eapply subnodes_child; eauto. apply elem_of_list_In; auto.
  Qed.
  Lemma nodup_child n c : NoDup (ids n) -> In c (children n) -> NoDup (ids c) /\ nid n ∉ ids c.
  Proof.
    destruct n as [k j|k j cs|k j [c'|]]; simpl; try contradiction; rewrite NoDup_cons.
    - intros [Hj Hn] Hin. induction cs as [|x cs IH]; [contradiction|]. simpl in *.
      rewrite elem_of_app in Hj. apply NoDup_app in Hn. destruct Hn as (H1 & H2 & H3).
      destruct Hin as [->|Hin]; [tauto|]. apply IH; tauto.
    - intros [Hj Hn] [->|[]]. auto.
  Qed.
  Lemma nodup_siblings k i cs c c' :
    NoDup (ids (NComp k i cs)) -> In c cs -> In c' cs -> c = c' \/ (forall j, j ∈ ids c -> j ∈ ids c' -> False).
  Proof.
    simpl. rewrite NoDup_cons. intros [_ Hn]. induction cs as [|x cs IH]; [contradiction|]. simpl in *.
    apply NoDup_app in Hn. destruct Hn as (H1 & H2 & H3).
    assert (Hin : forall d j, In d cs -> j ∈ ids d -> j ∈ concat (map ids cs)).
    { intros d j Hd Hj. apply elem_of_list_In, in_concat. exists (ids d). split; [apply in_map; auto|apply elem_of_list_In; auto]. }
    intros [->|Hc] [->|Hc']; auto.
    - right. intros j Hj Hj'. eapply H2; eauto.
    - right. intros j Hj Hj'. eapply H2; eauto.
  Qed.

  (** prologue *)
  Lemma pro_kfact n s : good_node n = true -> node_inv n s -> kfact n (prologue C n s).
  Proof.
    intros Hg Hi. unfold prologue. eapply (kfact_ext n (do_open C n (do_enter s (nid n)))); [reflexivity|].
    unfold do_open. destruct (is_open C (do_enter s (nid n)) (nid n)) eqn:Eo.
    - eapply (kfact_ext n s); [reflexivity|]. apply Hi. exact Eo.
    - destruct n as [[]|[]|[]]; simpl; auto; rewrite nget_nset, decide_True by auto; eauto.
      + exists 0%Z. split; auto; lia.
      + exists 0%Z. simpl in Hg. split; auto; lia.
      + exists 0%Z. simpl in Hg. split; auto; lia.
  Qed.
  Lemma pro_nget_other n s j k : nid n <> j -> nget C (prologue C n s) j k = nget C s j k.
  Proof.
    intros H. unfold nget. rewrite !read_unfold, pro_scope; [auto|]. intros E. inversion E. auto.
  Qed.
  Lemma pro_children_inv n s c : NoDup (ids n) -> In c (children n) -> tree_inv n s -> tree_inv c (prologue C n s).
  Proof.
    intros Hn Hin Ht m Hm. eapply (node_inv_ext m s).
    - intros k. apply pro_nget_other. destruct (nodup_child _ _ Hn Hin) as [_ Hni].
      intros E. apply Hni. rewrite E. apply subnodes_nid; auto.
    - apply Ht. eapply subnodes_child; eauto.
  Qed.
  Lemma tc_pro n s : tc_int s -> tc_int (prologue C n s).
  Proof. unfold tc_int. rewrite pro_base. auto. Qed.

  Lemma body_stack fuel n s r sb : body_of C fuel n (prologue C n s) = Ret r sb -> s_stack sb <> [].
  Proof.
    intros Hb. apply body_shape in Hb. apply (body_Delta C (fun _ => True)) in Hb; auto.
    2:{ intros c s1 r1 s1' _ Hx. apply exec_Delta in Hx. destruct Hx as (tr & c1 & D & _). eauto. }
    destruct Hb as (tr & D & _). destruct (d_stack _ _ _ _ D) as (l & Hl & _).
    rewrite pro_stack in Hl. rewrite Hl. destruct l; discriminate.
  Qed.
  Lemma epilogue_total i r sb : tc_int sb -> s_stack sb <> [] -> exists s', epilogue C i r sb = Ret r s'.
  Proof.
    intros (z & Hz) Hs. unfold epilogue, after_tick, bb_inc.
    change (get_memory (s_bb sb) SBase) with (bb_base (s_bb sb)). rewrite Hz.
    unfold finish. destruct (decide (r = RUNNING)); [eauto|].
    match goal with |- context[s_stack ?x] => assert (E : s_stack x = s_stack sb) end.
    { destruct (decide (r = SUCCESS)), (decide (r = FAILURE)), (c_log C >? 0)%Z, (c_log C >? 1)%Z; reflexivity. }
    rewrite E. destruct (s_stack sb); [congruence|eauto].
  Qed.

  Lemma wrap_total fuel n s r sb :
    NoDup (ids n) ->
    body_of C fuel n (prologue C n s) = Ret r sb ->
    (forall c, In c (children n) -> tree_inv c sb) -> tc_int sb ->
    (r = RUNNING -> kfact n sb) ->
    exists s', exec C fuel n s = Ret r s' /\ tree_inv n s' /\ tc_int s'.
  Proof.
    intros Hnd Hb Hch Htc Hk. destruct (epilogue_total (nid n) r sb Htc (body_stack _ _ _ _ _ Hb)) as (s' & He).
    exists s'. split; [rewrite exec_unfold; change (match n with NLeaf _ _ => _ | NComp _ _ _ => _ | NDec _ _ _ => _ end) with (body_of C fuel n (prologue C n s)); rewrite Hb; auto|].
    apply epilogue_inv in He. destruct He as (_ & z & Hz & _ & Eb & _ & _ & _ & _ & _ & _ & _ & _ & Eg). cbn zeta in Eb.
    split.
    - intros m Hm. destruct (subnodes_inv _ _ Hm) as [->|(c & Hin & Hmc)].
      + intros Ho. unfold is_open in Ho. rewrite Eg in Ho.
        destruct (decide (r = RUNNING)) as [Hr|Hr].
        * eapply (kfact_ext' n sb); [|auto]. intros k Hkk. rewrite Eg, decide_False; [auto|naive_solver].
        * rewrite decide_True in Ho by auto. discriminate.
      + eapply (node_inv_ext m sb); [|apply (Hch c); auto]. intros k. rewrite Eg, decide_False; [auto|].
        intros (E & _). destruct (nodup_child _ _ Hnd Hin) as [_ Hni]. apply Hni. rewrite E. apply subnodes_nid; auto.
    - exists (z + n_cost (stat sb (nid n)))%Z. rewrite Eb. apply lookup_insert.
  Qed.

  Lemma rep_total ex id c ag m (J : st -> Prop) :
    (forall s, J s -> exists r s', ex c s = Ret r s' /\ J s') ->
    (forall r, ag r = true -> r <> RUNNING) -> (0 <= m)%Z ->
    forall k i last s, k = Z.to_nat (m - i) -> J s ->
      (last = None -> (i < m)%Z) -> last <> Some RUNNING ->
      exists r s' j, rep_loop C ex id c ag m k i last s = Ret r (nset C s' id "i" (VInt j)) /\ J s' /\
        (i <= j)%Z /\ (r = RUNNING -> (j < m)%Z).
  Proof.
    intros Hex Hag Hm. induction k as [|k IH]; intros i last s Hk HJ Hl Hr.
    - simpl. assert (E : (m <? 0)%Z = false) by lia. rewrite E. destruct last as [r|].
      + exists r, s, i. split; auto. split; auto. split; [lia|]. intros ->. congruence.
      + specialize (Hl eq_refl). lia.
    - simpl. assert (E : ((m <? 0)%Z || (i <? m)%Z) = true) by lia. rewrite E.
      destruct (Hex s HJ) as (r & s1 & He & HJ1). rewrite He. destruct (ag r) eqn:Ea.
      + destruct (IH (i+1)%Z (Some r) s1) as (r' & s' & j & H1 & H2 & H3 & H4); auto; try lia; try congruence.
        { intros E'. inversion E'. subst. eapply Hag; eauto. }
        exists r', s', j. repeat split; auto. lia.
      + exists r, s1, i. repeat split; auto; lia.
  Qed.

  Lemma exec_total fuel n :
    leaves_safe C -> good_tree n = true -> NoDup (ids n) ->
    forall s, tree_inv n s -> tc_int s ->
    exists r s', exec C fuel n s = Ret r s' /\ tree_inv n s' /\ tc_int s'.
  Proof.
    intros HL. induction n as [k i|k i cs IH|k i co IH] using node_ind'; intros Hg Hnd s Ht Htc.
    - assert (Hgn : good_node (NLeaf k i) = true).
      { unfold good_tree in Hg. rewrite forallb_forall in Hg. apply Hg. left. auto. }
      assert (Hkf := pro_kfact _ s Hgn (Ht (NLeaf k i) (elem_of_list_here _ _))).
      assert (Htc0 := tc_pro (NLeaf k i) s Htc).
      assert (G : forall r sb, body_of C fuel (NLeaf k i) (prologue C (NLeaf k i) s) = Ret r sb -> tc_int sb ->
         (r = RUNNING -> kfact (NLeaf k i) sb) ->
         exists r s', exec C fuel (NLeaf k i) s = Ret r s' /\ tree_inv (NLeaf k i) s' /\ tc_int s').
      { intros r sb Hb Htc1 Hk1. destruct (wrap_total fuel (NLeaf k i) s r sb) as (s' & H); eauto. simpl. contradiction. }
      revert Hkf Htc0 G. generalize (prologue C (NLeaf k i) s) as s0. intros s0 Hkf Htc0 G.
      destruct k; try (eapply G; [reflexivity|auto|auto]).
      + cbn [body_of leaf_tick] in G. destruct (HL i (s_world s0) (bb_base (s_bb s0))) as ((r & Hr) & Hc).
        destruct (c_leaf C i (s_world s0) (bb_base (s_bb s0))) as [[rr w] m] eqn:El. simpl in Hr, Hc. subst rr.
        eapply G; [reflexivity| |simpl; auto]. destruct Htc0 as (z & Hz). exists z. simpl. congruence.
      + cbn [body_of leaf_tick read_clock] in G. destruct Hkf as (t & Hkf).
        set (s1 := {| s_bb := s_bb s0; s_stats := _ |}) in G.
        assert (E1 : nget C s1 i "start_time" = VFloat t) by exact Hkf. rewrite E1 in G.
        eapply G; [reflexivity|exact Htc0|]. intros _. exists t. exact Hkf.
    - assert (IH' : forall c, In c cs -> forall s, tree_inv c s -> tc_int s ->
         exists r s', exec C fuel c s = Ret r s' /\ tree_inv c s' /\ tc_int s').
      { intros c Hin. rewrite Forall_forall in IH. apply IH; [apply elem_of_list_In; auto| |].
        - eapply good_child; eauto.
        - eapply nodup_child; eauto. }
      clear IH.
      assert (Hgn : good_node (NComp k i cs) = true).
      { unfold good_tree in Hg. rewrite forallb_forall in Hg. apply Hg. left. auto. }
      set (J := fun s : st => (forall c, In c cs -> tree_inv c s) /\ tc_int s).
      assert (HJ0 : J (prologue C (NComp k i cs) s)).
      { split; [|apply tc_pro; auto]. intros c Hin. eapply pro_children_inv; eauto. }
      assert (HJc : forall s z, J s -> J (set_cost s i z)) by (intros s1 z H; exact H).
      assert (HJx : forall c s, In c cs -> J s -> exists r s', exec C fuel c s = Ret r s' /\ J s').
      { intros c s1 Hin [H1 H2]. destruct (IH' c Hin s1 (H1 c Hin) H2) as (r & s' & He & H3 & H4).
        exists r, s'. split; auto. split; auto. intros c' Hin'.
        destruct (nodup_siblings k i cs c c' Hnd Hin Hin') as [<-|Hdis]; [auto|].
        intros m Hm. eapply (node_inv_ext m s1); [|apply (H1 c'); auto].
        intros kk. eapply Frame_nget; [eapply exec_Frame; eauto|]. intros Hc. eapply Hdis; eauto. apply subnodes_nid; auto. }
      assert (HB : exists r sb, body_of C fuel (NComp k i cs) (prologue C (NComp k i cs) s) = Ret r sb /\ J sb).
      { revert HJ0. generalize (prologue C (NComp k i cs) s) as s0. intros s0 HJ0. clear Hg Hnd Ht Htc IH' s.
        destruct k; try discriminate; cbn [body_of comp_tick].
        - generalize 0%Z as z. revert s0 HJ0.
          assert (HH : forall l, (forall c, In c l -> In c cs) -> forall s0, J s0 -> forall z,
             exists r sb, seq_loop (exec C fuel) i l z s0 = Ret r sb /\ J sb).
          { induction l as [|c l IHl]; intros Hsub s0 HJ0 z; simpl; [eauto|].
            destruct (HJx c s0) as (r & s1 & He & HJ1); [apply Hsub; left; auto|auto|]. rewrite He.
            destruct (decide _); [apply IHl; auto; intros; apply Hsub; right; auto|eauto]. }
          intros s0 HJ0 z. apply HH; auto.
        - specialize (HJc s0 0%Z HJ0). revert HJc. generalize (set_cost s0 i 0) as s1.
          assert (HH : forall l, (forall c, In c l -> In c cs) -> forall s1, J s1 ->
             exists r sb, prio_loop (exec C fuel) i l s1 = Ret r sb /\ J sb).
          { clear HJ0 s0. induction l as [|c l IHl]; intros Hsub s0 HJ0; simpl; [eauto|].
            destruct (HJx c s0) as (r & s1 & He & HJ1); [apply Hsub; left; auto|auto|]. rewrite He.
            destruct (decide _); [apply IHl; auto; intros; apply Hsub; right; auto|eauto]. }
          intros s1 HJ1. apply HH; auto.
        - specialize (HJc s0 0%Z HJ0). revert HJc. generalize (set_cost s0 i 0) as s1.
          assert (HH : forall l, (forall c, In c l -> In c cs) -> forall s1, J s1 -> forall acc,
             exists r sb, or_loop (exec C fuel) i l acc s1 = Ret r sb /\ J sb).
          { clear HJ0 s0. induction l as [|c l IHl]; intros Hsub s0 HJ0 acc; simpl; [eauto|].
            destruct (HJx c s0) as (r & s1 & He & HJ1); [apply Hsub; left; auto|auto|]. rewrite He.
            apply IHl; auto; intros; apply Hsub; right; auto. }
          intros s1 HJ1. apply HH; auto. }
      destruct HB as (r & sb & Hb & HJ1 & HJ2).
      destruct (wrap_total fuel (NComp k i cs) s r sb) as (s' & H); eauto.
      intros _. destruct k; simpl; auto.
    - assert (Hgn : good_node (NDec k i co) = true).
      { unfold good_tree in Hg. rewrite forallb_forall in Hg. apply Hg. left. auto. }
      assert (Hkf := pro_kfact _ s Hgn (Ht (NDec k i co) (elem_of_list_here _ _))).
      assert (Htc0 := tc_pro (NDec k i co) s Htc).
      destruct co as [c|].
      2:{ destruct (wrap_total fuel (NDec k i None) s ERROR (prologue C (NDec k i None) s)) as (s' & H); eauto.
          all: simpl; try contradiction; try discriminate. }
      assert (Hin : In c (children (NDec k i (Some c)))) by (left; auto).
      specialize (IH (good_child _ _ Hg Hin) (proj1 (nodup_child _ _ Hnd Hin))).
      destruct (nodup_child _ _ Hnd Hin) as [_ Hni]. cbn [nid] in Hni.
      assert (Hc0 := pro_children_inv _ s _ Hnd Hin Ht).
      assert (G : forall r sb, body_of C fuel (NDec k i (Some c)) (prologue C (NDec k i (Some c)) s) = Ret r sb ->
         tree_inv c sb -> tc_int sb -> (r = RUNNING -> kfact (NDec k i (Some c)) sb) ->
         exists r s', exec C fuel (NDec k i (Some c)) s = Ret r s' /\ tree_inv (NDec k i (Some c)) s' /\ tc_int s').
      { intros r sb Hb H1 H2 H3. destruct (wrap_total fuel (NDec k i (Some c)) s r sb) as (s' & H); eauto.
        intros c' [<-|[]]. auto. }
      revert Hkf Htc0 Hc0 G. generalize (prologue C (NDec k i (Some c)) s) as s0. intros s0 Hkf Htc0 Hc0 G.
      set (J := fun s1 : st => tree_inv c s1 /\ tc_int s1 /\ forall kk, nget C s1 i kk = nget C s0 i kk).
      assert (HJ0 : J s0) by (repeat split; auto).
      assert (HJx : forall s1, J s1 -> exists r s', exec C fuel c s1 = Ret r s' /\ J s').
      { intros s1 (H1 & H2 & H3). destruct (IH s1 H1 H2) as (r & s' & He & H4 & H5).
        exists r, s'. split; auto. split; auto. split; auto. intros kk. rewrite <- H3.
        eapply Frame_nget; [eapply exec_Frame; eauto|auto]. }
      assert (HJn : forall s1 j, J s1 -> tree_inv c (nset C s1 i "i" (VInt j)) /\ tc_int (nset C s1 i "i" (VInt j))).
      { intros s1 j (H1 & H2 & _). split; [|exact H2]. intros m Hm. eapply (node_inv_ext m s1); [|auto].
        intros kk. rewrite nget_nset, decide_False; [auto|]. intros [E _]. apply Hni. rewrite E. apply subnodes_nid; auto. }
      assert (HR : forall m ag last z, (0 <= m)%Z -> (0 <= z)%Z -> nget C s0 i "i" = VInt z ->
         (last = None -> (z < m)%Z) -> last <> Some RUNNING -> (forall r, ag r = true -> r <> RUNNING) ->
         (forall r sb, rep_loop C (exec C fuel) i c ag m (rep_fuel fuel m z) z last s0 = Ret r sb ->
                       body_of C fuel (NDec k i (Some c)) s0 = Ret r sb) ->
         (forall r j sb, J sb -> (0 <= j)%Z -> (r = RUNNING -> (j < m)%Z) -> r = RUNNING -> kfact (NDec k i (Some c)) (nset C sb i "i" (VInt j))) ->
         exists r s', exec C fuel (NDec k i (Some c)) s = Ret r s' /\ tree_inv (NDec k i (Some c)) s' /\ tc_int s').
      { intros m ag last z Hm Hz Hi Hl1 Hl2 Hag Hbo Hk.
        destruct (rep_total (exec C fuel) i c ag m J HJx Hag Hm (rep_fuel fuel m z) z last s0) as (r & sb & j & H1 & H2 & H3 & H4); auto.
        { unfold rep_fuel. destruct (m <? 0)%Z eqn:E; lia. }
        destruct (HJn sb j H2) as [H5 H6].
        eapply G; [apply Hbo; exact H1|auto|auto|]. intros Hr. eapply Hk; eauto. lia. }
      destruct k.
      + cbn [body_of dec_tick] in G. destruct (HJx s0 HJ0) as (r & s1 & He & H1 & H2 & H3). rewrite He in G.
        eapply G; simpl; auto.
      + cbn [body_of dec_tick] in G. cbn [kfact] in Hkf. rewrite Hkf in G. destruct (0 <? max_loop)%Z; [|eapply G; eauto; discriminate].
        destruct (HJx s0 HJ0) as (r & s1 & He & HJ1). rewrite He in G.
        destruct (HJn s1 (0 + 1)%Z HJ1) as [H5 H6]. destruct HJ1 as (H1 & H2 & H3).
        eapply G; [reflexivity|destruct (again_rep r); auto|destruct (again_rep r); auto|].
        intros ->. simpl. rewrite H3. exact Hkf.
      + cbn [body_of dec_tick read_clock] in G. destruct Hkf as (t & Hkf).
        set (s1 := {| s_bb := s_bb s0; s_stats := _ |}) in G.
        assert (E1 : nget C s1 i "startTime" = VFloat t) by exact Hkf. rewrite E1 in G.
        assert (HJ1 : J s1) by exact HJ0.
        destruct (HJx s1 HJ1) as (r & s2 & He & H1 & H2 & H3). rewrite He in G.
        eapply G; [reflexivity|auto|auto|]. intros _. exists t. rewrite H3. exact Hkf.
      + destruct Hkf as (z & Hz & Hz0). simpl in Hgn.
        apply (HR max_loop again_rep (Some SUCCESS) z); auto; try lia; try congruence.
        * intros r Hr. destruct r; simpl in Hr; try discriminate.
        * intros r sb Hb. cbn [body_of dec_tick]. rewrite Hz. auto.
        * intros r j sb Hj Hj0 _ _. exists j. rewrite nget_nset, decide_True by auto. auto.
      + destruct Hkf as (z & Hz & Hz0 & Hz1). simpl in Hgn.
        apply (HR max_loop again_rus None z); auto; try lia; try congruence.
        * intros r Hr. destruct r; simpl in Hr; try discriminate.
        * intros r sb Hb. cbn [body_of dec_tick]. rewrite Hz. auto.
        * intros r j sb Hj Hj0 Hr1 Hr. exists j. rewrite nget_nset, decide_True by auto. auto.
      + destruct Hkf as (z & Hz & Hz0 & Hz1). simpl in Hgn.
        apply (HR max_loop again_ruf None z); auto; try lia; try congruence.
        * intros r Hr. destruct r; simpl in Hr; try discriminate.
        * intros r sb Hb. cbn [body_of dec_tick]. rewrite Hz. auto.
        * intros r j sb Hj Hj0 Hr1 Hr. exists j. rewrite nget_nset, decide_True by auto. auto.
  Qed.
End Total.
