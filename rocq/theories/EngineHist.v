(** Histories of ticks (proofs). *)
From stdpp Require Import base strings gmap list.
From Coq Require Import ZArith Lia.
From Verif Require Import BB BBFacts Engine EngineSpec EngineFacts EngineInv EngineSem EngineTerm EngineTotal EngineObs.

Section Hist.
  Context {W : Type} (C : cfg W).
  Notation st := (st W).

  Definition start (s : st) : st := St (s_bb s) (s_stats s) [] 0 (s_log s) (s_clk s) (s_world s) (s_trace s).

  Lemma tick_inv fuel n s tc r s' tc' :
    tree_tick C fuel (Some n) s tc = (Ret r s', tc') ->
    tc' = (tc + 1)%Z /\ exists s1, exec C fuel n (start s) = Ret r s1 /\
      s_stats s' = s_stats s1 /\ s_trace s' = s_trace s1 /\ s_log s' = s_log s1 /\
      s_world s' = s_world s1 /\ s_count s' = s_count s1 /\ s_stack s' = s_stack s1 /\
      bb_base (s_bb s') = bb_base (s_bb s1) /\
      (forall sc, sc <> STree (c_tree C) -> get_memory (s_bb s') sc = get_memory (s_bb s1) sc) /\
      bb_read (s_bb s') "open_nodes" (STree (c_tree C)) = VNodes (rev (s_stack s1)) /\
      bb_read (s_bb s') "node_count" (STree (c_tree C)) = VInt (Z.of_nat (s_count s1)).
  Proof.
    unfold tree_tick. fold (start s). destruct (exec C fuel n (start s)) as [r1 s1| |] eqn:Ex; try discriminate.
    change (bb_get (s_bb s1) "open_nodes" (STree (c_tree C))).2 with (bb_touch (s_bb s1) (STree (c_tree C))).
    generalize (touch_memory (s_bb s1) (STree (c_tree C))). generalize (bb_touch (s_bb s1) (STree (c_tree C))) as b0.
    intros b0 Hb0 H. inversion H; subst. split; auto. exists s1. split; auto.
    repeat split; auto.
    - exact (Hb0 SBase).
    - intros sc Hsc. cbn [set_bb s_bb]. rewrite !set_memory_other by congruence. apply Hb0.
    - cbn [set_bb s_bb]. rewrite read_set_ne by (right; discriminate). apply read_set_same.
    - cbn [set_bb s_bb]. apply read_set_same.
  Qed.
  Lemma tick_nget fuel n s tc r s' tc' :
    tree_tick C fuel (Some n) s tc = (Ret r s', tc') ->
    exists s1, exec C fuel n (start s) = Ret r s1 /\ (forall j k, nget C s' j k = nget C s1 j k) /\
      (forall i, stat s' i = stat s1 i).
  Proof.
    intros H. apply tick_inv in H. destruct H as (_ & s1 & Ex & Es & _ & _ & _ & _ & _ & _ & Em & _).
    exists s1. split; auto. split.
    - intros j k. unfold nget. rewrite !read_unfold, Em; [auto|discriminate].
    - intros i. apply stat_eq. auto.
  Qed.

  Lemma exec_suc2_len fuel n s r s' :
    exec C fuel n s = Ret r s' -> forall i, length (n_suc2 (stat s' i)) = length (n_suc2 (stat s i)).
  Proof.
    revert n s r s'. apply (exec_ind_gen C fuel (fun n s r s' => forall i, length (n_suc2 (stat s' i)) = length (n_suc2 (stat s i)))).
    intros n s r sb s' Hb He i.
    assert (HB : forall i, length (n_suc2 (stat sb i)) = length (n_suc2 (stat (prologue C n s) i))).
    { clear i He. induction Hb as [s1|c r1 s1 s2 s3 Hin [Hp _] Hb IH|s1 s2 s3 Hs Hb IH]; intros i; auto.
      - rewrite IH. apply Hp.
      - rewrite IH. destruct Hs; try reflexivity. unfold set_cost. rewrite stat_set_stat. destruct (decide _) as [<-|]; reflexivity. }
    apply epilogue_inv in He. destruct He as (_ & z & _ & _ & _ & _ & _ & _ & _ & Es & _). cbn zeta in Es.
    rewrite Es. destruct (decide _) as [_|_]; simpl; rewrite ?alter_length, HB, pro_stat; cbn zeta; destruct (decide _) as [<-|]; reflexivity.
  Qed.

  Definition sane (s : st) : Prop := forall i,
    (0 <= n_success (stat s i) <= n_ticks_all (stat s i))%Z /\ n_ticks (stat s i) = 0%Z /\
    n_tik2 (stat s i) = [0;0;0;0]%Z /\ length (n_suc2 (stat s i)) = 4.

  Lemma n_succ_le i tr : (0 <= n_succ i tr <= n_exec i tr)%Z.
  Proof.
    unfold n_succ, n_exec. split; [lia|]. apply inj_le. induction tr as [|e tr IH]; [auto|].
    rewrite !filter_cons. destruct (decide (ev_id e = i /\ _)), (decide (ev_id e = i)); simpl; try lia; tauto.
  Qed.

  Lemma sane_reset s i : sane s -> sane (p_reset s i).
  Proof.
    intros H j. unfold p_reset. rewrite stat_set_stat. destruct (decide (i = j)); [simpl; repeat split; lia|apply H].
  Qed.
  Lemma sane_tick fuel n s tc r s' tc' :
    tree_tick C fuel (Some n) s tc = (Ret r s', tc') -> sane s -> sane s'.
  Proof.
    intros H Hs i. apply tick_nget in H. destruct H as (s1 & Ex & _ & Es). rewrite Es.
    pose proof (exec_suc2_len _ _ _ _ _ Ex i) as Hlen.
    apply exec_Delta in Ex. destruct Ex as (tr & c & D & _).
    destruct (Hs i) as (H1 & H2 & H3 & H4).
    rewrite (d_all _ _ _ _ D), (d_suc _ _ _ _ D). destruct (d_same _ _ _ _ D i) as (E1 & E2 & _). rewrite E1, E2, Hlen.
    change (stat (start s) i) with (stat s i). pose proof (n_succ_le i (tr ++ [Ev (nid n) r c])). repeat split; auto; lia.
  Qed.
  Lemma hist_sane fuel n h : forall s tc rs s' tc',
    run_hist C fuel n h s tc = Some (rs, s', tc') -> sane s -> sane s'.
  Proof.
    induction h as [|[|i|k v] h IH]; intros s tc rs s' tc' H Hs; simpl in H.
    - inversion H; subst; auto.
    - fold (start s) in H.
      destruct (exec C fuel n (start s)) as [r s1| |] eqn:Et; try discriminate.
      match type of H with context[run_hist _ _ _ _ ?x _] => set (s2 := x) in * end.
      destruct (run_hist C fuel n h s2 (tc + 1)) as [[[rs1 s3] tc3]|] eqn:Eh; try discriminate. inversion H; subst.
      eapply IH; eauto. eapply (sane_tick fuel n s tc r s2). unfold tree_tick. fold (start s). rewrite Et. reflexivity. auto.
    - eapply IH; eauto. apply sane_reset; auto.
    - eapply IH; eauto.
  Qed.
  Lemma initial_sane s : initial s -> sane s.
  Proof.
    intros (_ & _ & _ & H) i. destruct (H i) as (c & q & ->). simpl. repeat split; auto; lia.
  Qed.
  Lemma sane_prob s i : sane s -> prob (stat s i) = (1, 10)%Z /\ prob_state (stat s i) = [(1,2);(1,2);(1,2);(1,2)]%Z.
  Proof.
    intros H. destruct (H i) as (_ & H2 & H3 & H4). unfold prob, prob_state. rewrite H2, H3. split; [reflexivity|].
    destruct (n_suc2 (stat s i)) as [|a [|b [|c [|d [|]]]]]; try discriminate. reflexivity.
  Qed.



  (** no resets: the counters, the log and the trace *)
  Lemma hist_counts fuel n h : forall s tc rs s' tc',
    run_hist C fuel n h s tc = Some (rs, s', tc') ->
    Forall (fun o => match o with HReset _ => False | _ => True end) h ->
    exists tr, s_trace s' = s_trace s ++ tr /\ Forall (fun e => ev_id e ∈ ids n) tr /\
      s_log s' = s_log s ++ log_lines (c_log C) (c_name C) tr /\
      (forall i, n_ticks_all (stat s' i) = (n_ticks_all (stat s i) + n_exec i tr)%Z) /\
      (forall i, n_success (stat s' i) = (n_success (stat s i) + n_succ i tr)%Z).
  Proof.
    induction h as [|[|i|k v] h IH]; intros s tc rs s' tc' H Hf; simpl in H.
    - inversion H; subst. exists []. rewrite !app_nil_r. repeat split; auto; intros; unfold n_exec, n_succ; simpl; lia.
    - destruct (tree_tick C fuel (Some n) s tc) as [[r s2| |] tc2] eqn:Et.
      2,3: unfold tree_tick in Et; fold (start s) in Et, H; destruct (exec C fuel n (start s)); try discriminate.
      assert (E : exists rs1, run_hist C fuel n h s2 tc2 = Some (rs1, s', tc')).
      { unfold tree_tick in Et. fold (start s) in Et, H. destruct (exec C fuel n (start s)); try discriminate.
        inversion Et; subst. destruct (run_hist _ _ _ _ _ _) as [[[? ?] ?]|]; [|discriminate]. inversion H; subst. eauto. }
      destruct E as (rs1 & Eh). apply Forall_cons in Hf. destruct Hf as [_ Hf].
      destruct (IH _ _ _ _ _ Eh Hf) as (t2 & A1 & A2 & A3 & A4 & A5).
      apply tick_inv in Et. destruct Et as (_ & s1 & Ex & Es & Etr & El & _).
      apply exec_Delta in Ex. destruct Ex as (tr & c & D & Hid).
      exists ((tr ++ [Ev (nid n) r c]) ++ t2).
      rewrite A1, A3, Etr, El, (d_trace _ _ _ _ D), (d_log _ _ _ _ D), <- !app_assoc, !log_lines_app.
      split; [reflexivity|]. split; [|split; [|split]].
      + apply Forall_app. split; [auto|]. apply Forall_app. split; auto. constructor; [apply nid_ids|constructor].
      + simpl. rewrite <- !app_assoc. reflexivity.
      + intros i. rewrite A4, (stat_eq s1 s2 i Es), (d_all _ _ _ _ D), !n_exec_app. change (stat (start s) i) with (stat s i). lia.
      + intros i. rewrite A5, (stat_eq s1 s2 i Es), (d_suc _ _ _ _ D), !n_succ_app. change (stat (start s) i) with (stat s i). lia.
    - apply Forall_cons in Hf. tauto.
    - apply Forall_cons in Hf. destruct Hf as [_ Hf]. destruct (IH _ _ _ _ _ H Hf) as (tr & A). exists tr. exact A.
  Qed.

  Lemma hist_ticks fuel n h : forall s tc rs s' tc',
    run_hist C fuel n h s tc = Some (rs, s', tc') ->
    length rs = n_ticks_in h /\ tc' = (tc + Z.of_nat (n_ticks_in h))%Z.
  Proof.
    induction h as [|[|i|k v] h IH]; intros s tc rs s' tc' H; simpl in H.
    - inversion H; subst. simpl. split; auto. lia.
    - fold (start s) in H. destruct (exec C fuel n (start s)); try discriminate.
      destruct (run_hist _ _ _ _ _ _) as [[[? ?] ?]|] eqn:E; [|discriminate]. inversion H; subst.
      apply IH in E. destruct E as [E1 E2]. simpl. split; lia.
    - apply IH in H. auto.
    - apply IH in H. auto.
  Qed.

  Definition no_tc (h : list hop) : Prop :=
    Forall (fun o => match o with HSetBase k _ => k <> "TotalCost" | _ => True end) h.

  Lemma hist_cost fuel n h : tc_safe C -> no_tc h -> forall s tc rs s' tc' z,
    run_hist C fuel n h s tc = Some (rs, s', tc') ->
    bb_base (s_bb s) !! "TotalCost" = Some (VInt z) ->
    exists tr, s_trace s' = s_trace s ++ tr /\
      bb_base (s_bb s') !! "TotalCost" = Some (VInt (z + cost_sum tr)).
  Proof.
    intros Hsafe. induction h as [|[|i|k v] h IH]; intros Hno s tc rs s' tc' z H Hz; simpl in H;
      [|apply Forall_cons in Hno; destruct Hno as [Hk Hno]..].
    - inversion H; subst. exists []. rewrite app_nil_r. split; auto. rewrite Hz. simpl. do 2 f_equal. lia.
    - fold (start s) in H. destruct (exec C fuel n (start s)) as [r s1| |] eqn:Ex; try discriminate.
      match type of H with context[run_hist _ _ _ _ ?x _] => set (s2 := x) in * end.
      destruct (run_hist C fuel n h s2 (tc + 1)) as [[[rs1 s3] tc3]|] eqn:Eh; try discriminate. inversion H; subst.
      destruct (exec_total_cost C fuel n _ _ _ Hsafe Ex z Hz) as (t1 & B1 & B2).
      assert (Hz2 : bb_base (s_bb s2) !! "TotalCost" = Some (VInt (z + cost_sum t1))) by exact B2.
      destruct (IH Hno _ _ _ _ _ _ Eh Hz2) as (t2 & A1 & A2).
      exists (t1 ++ t2). split; [rewrite A1; simpl; rewrite B1; simpl; rewrite app_assoc; reflexivity|].
      rewrite A2, cost_sum_app. do 2 f_equal. lia.
    - exact (IH Hno _ _ _ _ _ _ H Hz).
    - eapply (IH Hno) in H; [exact H|]. cbn [set_bb s_bb].
      change (bb_base (bb_set (s_bb s) k v SBase)) with (get_memory (bb_set (s_bb s) k v SBase) SBase).
      rewrite set_memory_same, lookup_insert_ne by auto. exact Hz.
  Qed.

  (** no crash, and the per-node memory invariant, along every history *)
  Lemma initial_inv n s : initial s -> tree_inv C n s /\ tc_int s.
  Proof.
    intros (Hb & _ & _ & _). split.
    - intros m _ Ho. unfold is_open, nget in Ho. rewrite Hb in Ho. discriminate.
    - exists 0%Z. rewrite Hb. reflexivity.
  Qed.
  Lemma tick_total fuel n s tc :
    leaves_safe C -> good_tree n = true -> NoDup (ids n) -> tree_inv C n s -> tc_int s ->
    exists r s', tree_tick C fuel (Some n) s tc = (Ret r s', tc + 1)%Z /\ tree_inv C n s' /\ tc_int s'.
  Proof.
    intros HL Hg Hn Ht Htc. destruct (exec_total C fuel n HL Hg Hn (start s)) as (r & s1 & Ex & H1 & H2).
    { intros m Hm. exact (Ht m Hm). } { exact Htc. }
    destruct (tree_tick C fuel (Some n) s tc) as [o tc'] eqn:Et.
    assert (exists s', o = Ret r s' /\ tc' = (tc + 1)%Z) as (s' & -> & ->).
    { unfold tree_tick in Et. fold (start s) in Et. rewrite Ex in Et. inversion Et. eauto. }
    exists r, s'. split; auto. pose proof (tick_inv _ _ _ _ _ _ _ Et) as (_ & s1' & Ex' & _ & _ & _ & _ & _ & _ & Eb & Em & _).
    rewrite Ex in Ex'. inversion Ex'; subst s1'. split.
    - intros m Hm. eapply node_inv_ext; [|apply H1; auto]. intros k. unfold nget. rewrite !read_unfold, Em; [auto|discriminate].
    - destruct H2 as (z & Hz). exists z. congruence.
  Qed.
  Lemma hist_inv fuel n h : leaves_safe C -> good_tree n = true -> NoDup (ids n) -> no_tc h -> forall s tc,
    tree_inv C n s -> tc_int s ->
    exists rs s' tc', run_hist C fuel n h s tc = Some (rs, s', tc') /\ tree_inv C n s' /\ tc_int s'.
  Proof.
    intros HL Hg Hn. induction h as [|[|i|k v] h IH]; intros Hno s tc Ht Htc; [|apply Forall_cons in Hno; destruct Hno as [Hk Hno]..].
    - simpl. exists [], s, tc. auto.
    - destruct (tick_total fuel n s tc HL Hg Hn Ht Htc) as (r & s1 & Et & Ht1 & Htc1).
      destruct (IH Hno s1 (tc + 1)%Z Ht1 Htc1) as (rs & s2 & tc2 & Eh & A).
      exists (r :: rs), s2, tc2. split; [|auto]. cbn [run_hist]. rewrite Et, Eh. reflexivity.
    - apply (IH Hno); auto.
    - apply (IH Hno).
      + intros m Hm. apply (Ht m Hm).
      + destruct Htc as (z & Hz). exists z. cbn [set_bb s_bb].
        change (bb_base (bb_set (s_bb s) k v SBase)) with (get_memory (bb_set (s_bb s) k v SBase) SBase).
        rewrite set_memory_same, lookup_insert_ne by auto. exact Hz.
  Qed.

  (** A limiter with a positive limit is transparent in every reachable state. *)
  Lemma limiter_transparent fuel n h s tc rs s1 tc1 m id c r s2 :
    leaves_safe C -> good_tree n = true -> NoDup (ids n) -> no_tc h -> initial s ->
    run_hist C fuel n h s tc = Some (rs, s1, tc1) ->
    NDec (DLimiter m) id (Some c) ∈ subnodes n -> (1 <= m)%Z ->
    exec C fuel (NDec (DLimiter m) id (Some c)) s1 = Ret r s2 ->
    exists z sb z', runs C (exec C fuel) id [c] s1 [(r, z)] sb /\ closes C id r z' sb s2.
  Proof.
    intros HL Hg Hn Hno Hi Hh Hsub Hm Hx. destruct (initial_inv n s Hi) as [Ht Htc].
    destruct (hist_inv fuel n h HL Hg Hn Hno s tc Ht Htc) as (rs' & s1' & tc' & Eh & Ht1 & _).
    rewrite Eh in Hh. inversion Hh; subst. clear Hh.
    assert (Hk := pro_kfact C (NDec (DLimiter m) id (Some c)) s1 eq_refl (Ht1 _ Hsub)). cbn [kfact] in Hk.
    apply exec_body_iff in Hx. destruct Hx as (sb & Hb & He). cbn [dec_tick] in Hb. rewrite Hk in Hb.
    assert (E : (0 <? m)%Z = true) by lia. rewrite E in Hb.
    pose proof (own_pro C (NDec (DLimiter m) id (Some c)) s1) as Hown.
    destruct (exec C fuel c _) as [r1 s3| |] eqn:Ex; try discriminate. inversion Hb; subst.
    eexists _, _, _. split; [|apply epilogue_closes; exact He].
    econstructor; [exact Hown|exact Ex|]. constructor. destruct (again_rep r); [apply own_nset|apply own_refl].
  Qed.

  (** hypothetical Python 2 MemSequence/MemPriority: memsequence.py:12-24,
      mempriority.py:12-24 with [xrange] available.  [keep] is SUCCESS (FAILURE). *)
  Definition mem_loop (ex : node -> st -> out W status) (id : nat) (keep : status) : nat -> list node -> st -> out W status :=
    fix go i cs s :=
      match cs with
      | [] => Ret keep s
      | c :: cs' =>
          match ex c s with
          | Ret r s' =>
              if decide (r = keep) then go (S i) cs' s'
              else Ret r (if decide (r = RUNNING) then nset C s' id "running_child" (VInt (Z.of_nat i)) else s')
          | Raise e s' => Raise e s' | NoFuel => NoFuel
          end
      end.
  Definition mem_exec (fuel : nat) (k : ckind) (keep : status) (id : nat) (cs : list node) (s : st) : out W status :=
    let s0 := prologue C (NComp k id cs) s in
    match nget C s0 id "running_child" with
    | VInt idx =>
        match mem_loop (exec C fuel) id keep (Z.to_nat idx) (drop (Z.to_nat idx) cs) s0 with
        | Ret r s' => epilogue C id r s'
        | Raise e s' => Raise e s' | NoFuel => NoFuel
        end
    | _ => Raise TypeErr s0
    end.

  Lemma mem_loop_inv fuel id keep i cs s r s' :
    keep <> RUNNING -> (forall c, In c cs -> id ∉ ids c) ->
    mem_loop (exec C fuel) id keep i cs s = Ret r s' ->
    exists done rest l, cs = done ++ rest /\ runs C (exec C fuel) id done s l s' /\
      first_stop keep keep rest l r /\
      (r = RUNNING -> nget C s' id "running_child" = VInt (Z.of_nat (i + length done - 1)) /\ done <> []) /\
      nget C s' id "is_open" = nget C s id "is_open".
  Proof.
    intros Hkr. revert i s. induction cs as [|c cs IH]; simpl; intros i s Hni H.
    - inversion H; subst. exists [], [], []. split; [reflexivity|]. split; [constructor; apply own_refl|]. split; [left; auto|].
      split; [congruence|auto].
    - destruct (exec C fuel c s) as [r1 s1| |] eqn:Ex; try discriminate.
      assert (Ho : nget C s1 id "is_open" = nget C s id "is_open").
      { eapply Frame_nget; [eapply exec_Frame; eauto|]. apply Hni. auto. }
      destruct (decide (r1 = keep)) as [->|Hr].
      + destruct (IH _ _ (fun c Hc => Hni c (or_intror Hc)) H) as (d & re & l & Hcs & Hru & Hfs & Hrc & Hop).
        exists (c :: d), re, ((keep, cost_of s1 c) :: l). split; [rewrite Hcs; auto|].
        split; [econstructor; [apply own_refl|exact Ex|exact Hru]|]. split; [|split].
        * destruct Hfs as [(-> & Hf & ->)|(l0 & z & -> & Hf & Hne)].
          -- left. repeat split; auto.
          -- right. exists ((keep, cost_of s1 c) :: l0), z. repeat split; auto.
        * intros Hrr. destruct (Hrc Hrr) as [A B]. split; [|discriminate]. rewrite A. do 2 f_equal. simpl. lia.
        * rewrite Hop. auto.
      + inversion H; subst. exists [c], cs, [(r, cost_of s1 c)]. split; [reflexivity|]. split; [|split; [|split]].
        * econstructor; [apply own_refl|exact Ex|]. constructor. destruct (decide _); [apply own_nset|apply own_refl].
        * right. exists [], (cost_of s1 c). repeat split; auto.
        * intros ->. rewrite decide_True by auto. rewrite nget_nset, decide_True by auto. split; [|discriminate].
          simpl. do 2 f_equal. lia.
        * destruct (decide _); [|auto]. rewrite nget_nset, decide_False by naive_solver. auto.
  Qed.
End Hist.
