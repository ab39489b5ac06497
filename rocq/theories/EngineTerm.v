(** Termination, totality, fuel independence, stack safety (proofs). *)
From stdpp Require Import base strings gmap list.
From Coq Require Import ZArith Lia.
From Verif Require Import BB BBFacts Engine EngineSpec EngineFacts EngineInv EngineSem.

Section Term.
  Context {W : Type} (C : cfg W).
  Notation st := (st W).

  (** ** Fuel monotonicity *)
  Definition agrees (a b : out W status) : Prop := a <> NoFuel -> b = a.
  Lemma seq_loop_agrees ex ex' i cs tmp s :
    (forall c s, In c cs -> agrees (ex c s) (ex' c s)) ->
    agrees (seq_loop ex i cs tmp s) (seq_loop ex' i cs tmp s).
  Proof.
    revert tmp s. induction cs as [|c cs IH]; intros tmp s H; simpl; [intros _; auto|].
    intros Hn. specialize (H c s (or_introl eq_refl)) as Hc. unfold agrees in Hc.
    destruct (ex c s) as [r s1|e s1|]; [| |congruence].
    - rewrite Hc by discriminate. destruct (decide _); [|auto]. apply IH; auto. intros; apply H; simpl; auto.
    - rewrite Hc by discriminate. auto.
  Qed.
  Lemma prio_loop_agrees ex ex' i cs s :
    (forall c s, In c cs -> agrees (ex c s) (ex' c s)) ->
    agrees (prio_loop ex i cs s) (prio_loop ex' i cs s).
  Proof.
    revert s. induction cs as [|c cs IH]; intros s H; simpl; [intros _; auto|].
    intros Hn. specialize (H c s (or_introl eq_refl)) as Hc. unfold agrees in Hc.
    destruct (ex c s) as [r s1|e s1|]; [| |congruence].
    - rewrite Hc by discriminate. destruct (decide _); [|auto]. apply IH; auto. intros; apply H; simpl; auto.
    - rewrite Hc by discriminate. auto.
  Qed.
  Lemma or_loop_agrees ex ex' i cs acc s :
    (forall c s, In c cs -> agrees (ex c s) (ex' c s)) ->
    agrees (or_loop ex i cs acc s) (or_loop ex' i cs acc s).
  Proof.
    revert acc s. induction cs as [|c cs IH]; intros acc s H; simpl; [intros _; auto|].
    intros Hn. specialize (H c s (or_introl eq_refl)) as Hc. unfold agrees in Hc.
    destruct (ex c s) as [r s1|e s1|]; [| |congruence].
    - rewrite Hc by discriminate. apply IH; auto. intros; apply H; simpl; auto.
    - rewrite Hc by discriminate. auto.
  Qed.
  Lemma rep_loop_agrees ex ex' id c ag m k k' i last s :
    ((m < 0)%Z /\ k <= k') \/ ((0 <= m)%Z /\ k = k') ->
    (forall s, agrees (ex c s) (ex' c s)) ->
    agrees (rep_loop C ex id c ag m k i last s) (rep_loop C ex' id c ag m k' i last s).
  Proof.
    revert k' i last s. induction k as [|k IH]; intros k' i last s Hk H.
    - simpl. destruct (m <? 0)%Z eqn:Em; [intros ?; congruence|].
      assert (k' = 0) by lia. subst. simpl. rewrite Em. intros _. auto.
    - destruct k' as [|k']; [lia|]. simpl. destruct ((m <? 0)%Z || (i <? m)%Z); [|intros _; auto].
      intros Hn. specialize (H s) as Hc. unfold agrees in Hc.
      destruct (ex c s) as [r s1|e s1|]; [| |congruence].
      + rewrite Hc by discriminate. destruct (ag r); [|auto]. apply IH; auto. lia.
      + rewrite Hc by discriminate. auto.
  Qed.

  Lemma exec_fuel_mono f f' n s : f <= f' -> agrees (exec C f n s) (exec C f' n s).
  Proof.
    intros Hf. revert s. induction n as [k i|k i cs IH|k i co IH] using node_ind'; intros s.
    - intros _. reflexivity.
    - intros Hn. rewrite !exec_unfold in *.
      assert (A : agrees (comp_tick (exec C f) k i cs (prologue C (NComp k i cs) s))
                         (comp_tick (exec C f') k i cs (prologue C (NComp k i cs) s))).
      { rewrite Forall_forall in IH.
        assert (forall c s, In c cs -> agrees (exec C f c s) (exec C f' c s)) as IH'
          by (intros c s1 Hin; apply IH, elem_of_list_In; auto).
        destruct k; simpl; auto using seq_loop_agrees, prio_loop_agrees, or_loop_agrees; intros _; auto. }
      unfold agrees in A. destruct (comp_tick (exec C f) k i cs _) as [r s1|e s1|]; [| |congruence];
        rewrite A by discriminate; auto.
    - intros Hn. rewrite !exec_unfold in *.
      assert (A : agrees (dec_tick C f (exec C f) k i co (prologue C (NDec k i co) s))
                         (dec_tick C f' (exec C f') k i co (prologue C (NDec k i co) s))).
      { destruct co as [c|]; [|intros _; auto].
        generalize (prologue C (NDec k i (Some c)) s) as s0. intros s0.
        assert (R : forall m ag last j, agrees (rep_loop C (exec C f) i c ag m (rep_fuel f m j) j last s0)
                                     (rep_loop C (exec C f') i c ag m (rep_fuel f' m j) j last s0)).
        { intros. apply rep_loop_agrees; auto. unfold rep_fuel. destruct (m <? 0)%Z eqn:E; lia. }
        destruct k; cbn [dec_tick].
        - intros Hx. specialize (IH s0). unfold agrees in IH. destruct (exec C f c s0); [| |congruence];
            rewrite IH by discriminate; auto.
        - destruct (nget C s0 i "i"); try (intros _; reflexivity).
          destruct (z <? max_loop)%Z; [|intros _; reflexivity].
          intros Hx. specialize (IH s0). unfold agrees in IH. destruct (exec C f c s0); [| |congruence];
            rewrite IH by discriminate; auto.
        - unfold read_clock. set (s1 := {| s_bb := _ |}). destruct (nget C s1 i "startTime"); try (intros _; reflexivity).
          intros Hx. specialize (IH s1). unfold agrees in IH. destruct (exec C f c s1); [| |congruence];
            rewrite IH by discriminate; auto.
        - destruct (nget C s0 i "i"); try (intros _; reflexivity). apply R.
        - destruct (nget C s0 i "i"); try (intros _; reflexivity). apply R.
        - destruct (nget C s0 i "i"); try (intros _; reflexivity). apply R. }
      unfold agrees in A. destruct (dec_tick C f (exec C f) k i co _) as [r s1|e s1|]; [| |congruence];
        rewrite A by discriminate; auto.
  Qed.

  (** ** Finite loops: a tick ends and its node count is bounded *)
  Definition nonneg_i (s : st) : Prop := forall j z, nget C s j "i" = VInt z -> (0 <= z)%Z.
  Definition ok_out (s : st) (b : nat) (o : out W status) : Prop :=
    match o with
    | Ret _ s' | Raise _ s' => s_count s' <= s_count s + b /\ nonneg_i s'
    | NoFuel => False
    end.
  Lemma nonneg_nset s id k v : nonneg_i s -> (k = "i" -> exists z, v = VInt z /\ (0 <= z)%Z) -> nonneg_i (nset C s id k v).
  Proof.
    intros H Hv j z. rewrite nget_nset. destruct (decide (id = j /\ k = "i")) as [[-> ->]|]; [|apply H].
    destruct (Hv eq_refl) as (z' & -> & Hz). intros E. inversion E. lia.
  Qed.
  Lemma nonneg_same s s' : s_bb s' = s_bb s -> nonneg_i s -> nonneg_i s'.
  Proof. unfold nonneg_i, nget. intros ->. auto. Qed.
  Lemma nget_trees (s s' : st) j k : bb_trees (s_bb s') = bb_trees (s_bb s) -> nget C s' j k = nget C s j k.
  Proof. intros E. unfold nget. rewrite !read_unfold. unfold get_memory, tree_memory. rewrite E. reflexivity. Qed.
  Lemma nonneg_trees s s' : bb_trees (s_bb s') = bb_trees (s_bb s) -> nonneg_i s -> nonneg_i s'.
  Proof. intros E H j z. rewrite (nget_trees s s') by auto. apply H. Qed.
  Lemma nonneg_open_hook n s : nonneg_i s -> nonneg_i (open_hook C n s).
  Proof.
    intros H. destruct n as [[]|[]|[]]; simpl; auto;
      (apply nonneg_nset; [exact H || (eapply nonneg_same; [|exact H]; reflexivity)|]); intros E; try discriminate; eexists; split; eauto; lia.
  Qed.
  Lemma nonneg_pro n s : nonneg_i s -> nonneg_i (prologue C n s).
  Proof.
    intros H. unfold prologue. eapply (nonneg_same (do_open C n (do_enter s (nid n)))); [reflexivity|].
    unfold do_open. destruct (is_open _ _ _).
    - eapply nonneg_same; [|exact H]. reflexivity.
    - apply nonneg_open_hook. apply nonneg_nset; [|discriminate]. eapply nonneg_same; [|exact H]. reflexivity.
  Qed.
  Lemma nonneg_set_cost s i z : nonneg_i s -> nonneg_i (set_cost s i z).
  Proof. intros H. eapply nonneg_same; [|exact H]. reflexivity. Qed.

  Lemma after_tick_facts i r sb :
    match after_tick C i r sb with
    | Ret r' s' => r' = r /\ s_count s' = s_count sb /\ s_stack s' = s_stack sb /\ (forall j k, nget C s' j k = nget C sb j k)
    | Raise e s' => (e = KeyErr \/ e = QuitExn) /\ s_count s' = s_count sb /\ (forall j k, nget C s' j k = nget C sb j k)
    | NoFuel => False
    end.
  Proof.
    unfold after_tick, bb_inc.
    assert (N : forall sc k, sc <> SBase -> forall v, get_memory (bb_set (s_bb sb) k v SBase) sc = get_memory (s_bb sb) sc)
      by (intros; apply set_memory_other; auto).
    destruct (get_memory (s_bb sb) SBase !! "TotalCost") as [[| |z| | |]|];
      try (split; [auto|split; [reflexivity|]]; intros j k; unfold nget; cbn [set_bb s_bb]; rewrite bb_touch_read; reflexivity).
    set (b := bb_set (s_bb sb) "TotalCost" (VInt (z + n_cost (stat sb i))) SBase).
    assert (Nb : forall j k (s' : st), s_bb s' = b -> nget C s' j k = nget C sb j k).
    { intros j k s' Hb. unfold nget. rewrite Hb. rewrite !read_unfold. unfold b. rewrite N by discriminate. reflexivity. }
    destruct (decide (r = SUCCESS)), (decide (r = FAILURE)), (c_log C >? 0)%Z, (c_log C >? 1)%Z;
      (split; [reflexivity|split; [reflexivity|split; [reflexivity|intros; apply Nb; reflexivity]]]).
  Qed.
  Lemma epilogue_ok i r sb s b : s_count sb <= s_count s + b -> nonneg_i sb -> ok_out s b (epilogue C i r sb).
  Proof.
    intros Hc Hn. unfold epilogue. pose proof (after_tick_facts i r sb) as A.
    destruct (after_tick C i r sb) as [r' s'|e s'|]; [|simpl|contradiction].
    - destruct A as (-> & Ec & Es & Eg).
      assert (nonneg_i s') by (intros j z; rewrite Eg; apply Hn).
      unfold finish. destruct (decide (r = RUNNING)); [simpl; split; [lia|auto]|].
      destruct (s_stack s'); simpl; (split; [lia|auto]).
      apply nonneg_nset; [|discriminate]. eapply nonneg_same; [|eassumption]. reflexivity.
    - destruct A as (_ & Ec & Eg). split; [lia|]. intros j z. rewrite Eg. apply Hn.
  Qed.

  Lemma seq_loop_ok ex i cs tmp s :
    (forall c s, In c cs -> nonneg_i s -> ok_out s (exec_bound c) (ex c s)) -> nonneg_i s ->
    ok_out s (foldr (fun c z => exec_bound c + z) 0 cs) (seq_loop ex i cs tmp s).
  Proof.
    revert tmp s. induction cs as [|c cs IH]; intros tmp s H Hn; simpl.
    - split; [lia|]. apply nonneg_set_cost; auto.
    - specialize (H c s (or_introl eq_refl) Hn) as Hc. destruct (ex c s) as [r s1|e s1|]; simpl in Hc; [| |contradiction].
      + destruct (decide (r = SUCCESS)).
        * assert (ok_out s1 (foldr (fun c z => exec_bound c + z) 0 cs) (seq_loop ex i cs (tmp + cost_of s1 c) s1)) as A
            by (apply IH; [intros; apply H; simpl; auto|tauto]).
          destruct (seq_loop ex i cs _ s1); simpl in *; try tauto; split; try tauto; lia.
        * simpl. split; [lia|]. apply nonneg_set_cost; tauto.
      + simpl. split; [lia|tauto].
  Qed.
  Lemma prio_loop_ok ex i cs s :
    (forall c s, In c cs -> nonneg_i s -> ok_out s (exec_bound c) (ex c s)) -> nonneg_i s ->
    ok_out s (foldr (fun c z => exec_bound c + z) 0 cs) (prio_loop ex i cs s).
  Proof.
    revert s. induction cs as [|c cs IH]; intros s H Hn; simpl.
    - split; [lia|auto].
    - specialize (H c s (or_introl eq_refl) Hn) as Hc. destruct (ex c s) as [r s1|e s1|]; simpl in Hc; [| |contradiction].
      + set (s2 := set_cost s1 i _).
        assert (nonneg_i s2) by (apply nonneg_set_cost; tauto).
        assert (s_count s2 = s_count s1) by reflexivity.
        destruct (decide (r = FAILURE)).
        * assert (ok_out s2 (foldr (fun c z => exec_bound c + z) 0 cs) (prio_loop ex i cs s2)) as A
            by (apply IH; [intros; apply H; simpl; auto|tauto]).
          destruct (prio_loop ex i cs s2); simpl in *; try tauto; split; try tauto; lia.
        * simpl in *. split; [lia|tauto].
      + simpl. split; [lia|tauto].
  Qed.
  Lemma or_loop_ok ex i cs acc s :
    (forall c s, In c cs -> nonneg_i s -> ok_out s (exec_bound c) (ex c s)) -> nonneg_i s ->
    ok_out s (foldr (fun c z => exec_bound c + z) 0 cs) (or_loop ex i cs acc s).
  Proof.
    revert acc s. induction cs as [|c cs IH]; intros acc s H Hn; simpl.
    - split; [lia|auto].
    - specialize (H c s (or_introl eq_refl) Hn) as Hc. destruct (ex c s) as [r s1|e s1|]; simpl in Hc; [| |contradiction].
      + set (s2 := set_cost s1 i _).
        assert (nonneg_i s2) by (apply nonneg_set_cost; tauto).
        assert (s_count s2 = s_count s1) by reflexivity.
        set (acc' := if decide _ then _ else _).
        assert (ok_out s2 (foldr (fun c z => exec_bound c + z) 0 cs) (or_loop ex i cs acc' s2)) as A
            by (apply IH; [intros; apply H; simpl; auto|tauto]).
        destruct (or_loop ex i cs acc' s2); simpl in *; try tauto; split; try tauto; lia.
      + simpl. split; [lia|tauto].
  Qed.
  Lemma rep_loop_ok ex id c ag m k i last s :
    (forall s, nonneg_i s -> ok_out s (exec_bound c) (ex c s)) -> nonneg_i s ->
    (0 <= m)%Z -> (0 <= i)%Z ->
    ok_out s (k * exec_bound c) (rep_loop C ex id c ag m k i last s).
  Proof.
    revert i last s. induction k as [|k IH]; intros i last s H Hn Hm Hi.
    - simpl. assert (E : (m <? 0)%Z = false) by lia. rewrite E.
      destruct last; simpl; (split; [lia|]); (apply nonneg_nset; [auto|]); intros; eauto.
    - simpl. assert (E : (m <? 0)%Z = false) by lia. rewrite E. simpl. destruct (i <? m)%Z.
      + specialize (H s Hn) as Hc. destruct (ex c s) as [r s1|e s1|]; simpl in Hc; [| |contradiction].
        * destruct (ag r).
          -- assert (ok_out s1 (k * exec_bound c) (rep_loop C ex id c ag m k (i + 1) (Some r) s1)) as A
               by (apply IH; [auto|tauto|auto|lia]).
             destruct (rep_loop C ex id c ag m k (i+1) _ s1); simpl in *; try tauto; split; try tauto; lia.
          -- simpl. split; [lia|]. apply nonneg_nset; [tauto|]; intros; eauto.
        * simpl. split; [lia|tauto].
      + destruct last; simpl; (split; [lia|]); (apply nonneg_nset; [auto|]); intros; eauto.
  Qed.

  Lemma ok_out_weaken s s0 b b' o : ok_out s0 b o -> s_count s0 + b <= s_count s + b' -> ok_out s b' o.
  Proof. destruct o; simpl; intros H ?; try tauto; split; try tauto; lia. Qed.

  Lemma exec_ok fuel n s : finite_loops n = true -> nonneg_i s -> ok_out s (exec_bound n) (exec C fuel n s).
  Proof.
    revert s. induction n as [k i|k i cs IH|k i co IH] using node_ind'; intros s Hf Hn.
    - rewrite exec_unfold. pose proof (pro_count C (NLeaf k i) s) as Hp.
      pose proof (nonneg_pro (NLeaf k i) s Hn) as Hn0.
      revert Hp Hn0. generalize (prologue C (NLeaf k i) s) as s0. intros s0 Hp Hn0.
      destruct k; simpl; try (apply epilogue_ok; [simpl; lia|auto]).
      + destruct (c_leaf C i _ _) as [[r w] m]. destruct r.
        * apply epilogue_ok; [simpl; lia|]. eapply nonneg_trees; [|exact Hn0]. reflexivity.
        * simpl. split; [lia|]. eapply nonneg_trees; [|exact Hn0]. reflexivity.
      + destruct (nget _ _ _ _); try (simpl; split; [lia|eapply nonneg_same; [|exact Hn0]; reflexivity]).
        apply epilogue_ok; [simpl; lia|eapply nonneg_same; [|exact Hn0]; reflexivity].
    - rewrite exec_unfold. pose proof (pro_count C (NComp k i cs) s) as Hp.
      pose proof (nonneg_pro (NComp k i cs) s Hn) as Hn0.
      revert Hp Hn0. generalize (prologue C (NComp k i cs) s) as s0. intros s0 Hp Hn0.
      assert (IH' : forall c s, In c cs -> nonneg_i s -> ok_out s (exec_bound c) (exec C fuel c s)).
      { intros c s1 Hin. rewrite Forall_forall in IH. apply IH; [apply elem_of_list_In; auto|].
        simpl in Hf. rewrite forallb_forall in Hf. auto. }
      assert (G : forall o, ok_out s0 (foldr (fun c z => exec_bound c + z) 0 cs) o ->
         ok_out s (exec_bound (NComp k i cs)) match o with Ret r s' => epilogue C i r s' | Raise e s2 => Raise e s2 | NoFuel => NoFuel end).
      { intros o Ho. destruct o as [r s1|e s1|]; simpl in Ho |- *; [|split; [lia|tauto]|tauto].
        apply epilogue_ok; [|tauto]. simpl. lia. }
      destruct k; cbn [comp_tick].
      + apply G. apply seq_loop_ok; auto.
      + apply G. apply (prio_loop_ok (exec C fuel) i cs (set_cost s0 i 0)); auto.
      + apply G. apply (or_loop_ok (exec C fuel) i cs FAILURE (set_cost s0 i 0)); auto.
      + simpl. split; [lia|auto].
      + simpl. split; [lia|auto].
    - rewrite exec_unfold. pose proof (pro_count C (NDec k i co) s) as Hp.
      pose proof (nonneg_pro (NDec k i co) s Hn) as Hn0.
      revert Hp Hn0. generalize (prologue C (NDec k i co) s) as s0. intros s0 Hp Hn0.
      destruct co as [c|].
      2:{ simpl. apply epilogue_ok; [simpl; lia|auto]. }
      simpl in Hf. apply andb_prop in Hf. destruct Hf as [Hm Hf].
      specialize (fun s => IH s Hf).
      assert (G : forall b o, ok_out s0 b o -> S b <= exec_bound (NDec k i (Some c)) ->
         ok_out s (exec_bound (NDec k i (Some c))) match o with Ret r s' => epilogue C i r s' | Raise e s2 => Raise e s2 | NoFuel => NoFuel end).
      { intros b o Ho Hb. destruct o as [r s1|e s1|]; cbn [ok_out] in Ho |- *; [|split; [lia|tauto]|tauto].
        apply epilogue_ok; [|tauto]. lia. }
      assert (HR : forall m ag last, (0 <=? m)%Z = true ->
         exec_bound (NDec k i (Some c)) = S (Z.to_nat m * exec_bound c) ->
         ok_out s (exec_bound (NDec k i (Some c)))
           match match nget C s0 i "i" with
                 | VInt j => rep_loop C (exec C fuel) i c ag m (rep_fuel fuel m j) j last s0
                 | _ => Raise TypeErr s0 end with Ret r s' => epilogue C i r s' | Raise e s2 => Raise e s2 | NoFuel => NoFuel end).
      { intros m ag last Hm0 Hbd.
        destruct (nget C s0 i "i") eqn:Ei; try (simpl; split; [simpl in *; lia|auto]).
        eapply G.
        - apply rep_loop_ok; auto; [lia|]. eapply Hn0; eauto.
        - rewrite Hbd. unfold rep_fuel. destruct (m <? 0)%Z eqn:E; [lia|].
          pose proof (Hn0 _ _ Ei). apply le_n_S. apply Nat.mul_le_mono_r. lia. }
      destruct k; cbn [dec_tick nid].
      + eapply G with (b := exec_bound c); [|simpl; lia].
        specialize (IH s0 Hn0). destruct (exec C fuel c s0); simpl in *; auto.
      + destruct (nget C s0 i "i") eqn:Ei; try (simpl; split; [lia|auto]).
        destruct (z <? max_loop)%Z; [|apply epilogue_ok; [simpl; lia|auto]].
        eapply G with (b := exec_bound c); [|simpl; lia].
        specialize (IH s0 Hn0). destruct (exec C fuel c s0) as [r s1|e s1|]; simpl in *; auto.
        split; [destruct (again_rep r); simpl; lia|]. destruct (again_rep r); [|tauto].
        apply nonneg_nset; [tauto|]. intros _. eexists; split; eauto. pose proof (Hn0 _ _ Ei). lia.
      + unfold read_clock. set (s1 := {| s_bb := _ |}).
        assert (Hn1 : nonneg_i s1) by (eapply nonneg_same; [|exact Hn0]; reflexivity).
        destruct (nget C s1 i "startTime"); try (simpl; split; [lia|auto]).
        eapply G with (b := exec_bound c); [|simpl; lia].
        specialize (IH s1 Hn1). destruct (exec C fuel c s1) as [r s2|e s2|]; simpl in *; auto.
      + apply HR; auto.
      + apply HR; auto.
      + apply HR; auto.
  Qed.

  (** ** The open-node stack is never popped when empty *)
  Lemma exec_no_IndexErr fuel n s s' :
    (forall i w m, fst (fst (c_leaf C i w m)) <> inr IndexErr) ->
    exec C fuel n s <> Raise IndexErr s'.
  Proof.
    intros HL. revert s s'. 
    assert (E : forall n s r sb s', body_of C fuel n (prologue C n s) = Ret r sb -> epilogue C (nid n) r sb <> Raise IndexErr s').
    { clear n. intros n s r sb s' Hb. apply body_shape in Hb.
      apply (body_Delta C (fun _ => True)) in Hb; auto.
      2:{ intros c s1 r1 s1' _ Hx. apply exec_Delta in Hx. destruct Hx as (tr & c1 & D & _). eauto. }
      destruct Hb as (tr & D & _). destruct (d_stack _ _ _ _ D) as (l & Hl & _).
      rewrite pro_stack in Hl. unfold epilogue. pose proof (after_tick_facts (nid n) r sb) as A.
      destruct (after_tick C (nid n) r sb) as [r' s1|e s1|]; [| |discriminate].
      - destruct A as (-> & _ & Es & _). unfold finish. destruct (decide (r = RUNNING)); [discriminate|].
        rewrite Es, Hl. destruct l; discriminate.
      - destruct A as ([->| ->] & _); discriminate. }
    assert (B : forall n s s', (forall s', body_of C fuel n (prologue C n s) <> Raise IndexErr s') -> exec C fuel n s <> Raise IndexErr s').
    { clear n. intros n s s' H. rewrite exec_unfold. change (match n with NLeaf _ _ => _ | NComp _ _ _ => _ | NDec _ _ _ => _ end) with (body_of C fuel n (prologue C n s)).
      destruct (body_of C fuel n (prologue C n s)) as [r sb|e sb|] eqn:Hb; [eapply E; eauto| |discriminate].
      apply H. }
    induction n as [k i|k i cs IH|k i co IH] using node_ind'; intros s s'; apply B; intros s1; clear B; simpl;
      generalize s1; clear s1.
    - generalize (prologue C (NLeaf k i) s) as s0. intros s0 s1. destruct k; simpl; try discriminate.
      + specialize (HL i (s_world s0) (bb_base (s_bb s0))). destruct (c_leaf C i _ _) as [[r w] m].
        destruct r; simpl in *; [discriminate|]. intros H. inversion H; subst. auto.
      + destruct (nget _ _ _ _); discriminate.
    - generalize (prologue C (NComp k i cs) s) as s0. intros s0 s1. rewrite Forall_forall in IH.
      assert (IH' : forall c s s', In c cs -> exec C fuel c s <> Raise IndexErr s') by (intros; apply IH, elem_of_list_In; auto).
      clear IH. destruct k; simpl; try discriminate.
      + generalize 0%Z. revert s0. induction cs as [|c cs IHc]; simpl; intros s0 z; [discriminate|].
        specialize (IH' c s0) as Hc. destruct (exec C fuel c s0) as [r s2|e s2|]; [|intros H; eapply Hc; [left; reflexivity|eauto]|discriminate].
        destruct (decide _); [|discriminate]. apply IHc. intros; apply IH'; right; auto.
      + generalize (set_cost s0 i 0) as s2. induction cs as [|c cs IHc]; simpl; intros s2; [discriminate|].
        specialize (IH' c s2) as Hc. destruct (exec C fuel c s2) as [r s3|e s3|]; [|intros H; eapply Hc; [left; reflexivity|eauto]|discriminate].
        destruct (decide _); [|discriminate]. apply IHc. intros; apply IH'; right; auto.
      + generalize FAILURE. generalize (set_cost s0 i 0) as s2. induction cs as [|c cs IHc]; simpl; intros s2 acc; [discriminate|].
        specialize (IH' c s2) as Hc. destruct (exec C fuel c s2) as [r s3|e s3|]; [|intros H; eapply Hc; [left; reflexivity|eauto]|discriminate].
        apply IHc. intros; apply IH'; right; auto.
    - generalize (prologue C (NDec k i co) s) as s0. intros s0 s1.
      destruct co as [c|]; [|discriminate].
      assert (HR : forall m ag k j last s, rep_loop C (exec C fuel) i c ag m k j last s <> Raise IndexErr s1).
      { intros m ag k'. induction k' as [|k' IHk]; simpl; intros j last s2.
        - destruct (m <? 0)%Z; [discriminate|]. destruct last; discriminate.
        - destruct (_ || _); [|destruct last; discriminate].
          specialize (IH s2). destruct (exec C fuel c s2) as [r s3|e s3|]; [|intros H; eapply IH; eauto|discriminate].
          destruct (ag r); [apply IHk|discriminate]. }
      destruct k; cbn [dec_tick].
      + specialize (IH s0). destruct (exec C fuel c s0) as [r s3|e s3|]; [discriminate|intros H; eapply IH; eauto|discriminate].
      + destruct (nget C s0 i "i"); try discriminate. destruct (z <? max_loop)%Z; [|discriminate].
        specialize (IH s0). destruct (exec C fuel c s0) as [r s3|e s3|]; [discriminate|intros H; eapply IH; eauto|discriminate].
      + unfold read_clock. set (s2 := {| s_bb := _ |}). destruct (nget C s2 i "startTime"); try discriminate.
        specialize (IH s2). destruct (exec C fuel c s2) as [r s3|e s3|]; [discriminate|intros H; eapply IH; eauto|discriminate].
      + destruct (nget C s0 i "i"); try discriminate. apply HR.
      + destruct (nget C s0 i "i"); try discriminate. apply HR.
      + destruct (nget C s0 i "i"); try discriminate. apply HR.
  Qed.
End Term.
