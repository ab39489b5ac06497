(** Composites and decorators described by what can be observed (proofs). *)
From stdpp Require Import base strings gmap list.
From Coq Require Import ZArith Lia.
From Verif Require Import BB BBFacts Engine EngineSpec EngineFacts EngineInv EngineSem EngineTerm EngineTotal.

Section Obs.
  Context {W : Type} (C : cfg W).
  Notation st := (st W).
  Notation keep_state := (fun (_ : node) (s : st) => s).

  Lemma own_refl i s : only_own C i s s.
  Proof. repeat split; auto. Qed.
  Lemma own_trans i s s' s'' : only_own C i s s' -> only_own C i s' s'' -> only_own C i s s''.
  Proof.
    intros (a1 & a2 & a3 & a4 & a5 & a6) (b1 & b2 & b3 & b4 & b5 & b6).
    repeat split; try congruence.
    - intros j Hj. rewrite b5, a5; auto.
    - intros sc Hsc. rewrite b6, a6; auto.
  Qed.
  Lemma own_pro n s : only_own C (nid n) s (prologue C n s).
  Proof.
    repeat split.
    - apply pro_world.
    - apply pro_base.
    - apply pro_log.
    - apply pro_trace.
    - intros j Hj. rewrite pro_stat. cbn zeta. rewrite decide_False; auto.
    - intros sc Hsc. apply pro_scope. auto.
  Qed.
  Lemma own_cost i z s : only_own C i s (set_cost s i z).
  Proof. repeat split. intros j Hj. apply stat_set_cost_ne. auto. Qed.
  Lemma own_nset i k v s : only_own C i s (nset C s i k v).
  Proof. repeat split. intros sc Hsc. simpl. apply set_memory_other. auto. Qed.
  Lemma own_clock i s : only_own C i s (snd (read_clock C s)).
  Proof. repeat split. Qed.

  Lemma runs_own_l ex i cs s0 s l s' : only_own C i s0 s -> runs C ex i cs s l s' -> runs C ex i cs s0 l s'.
  Proof.
    intros Ho. destruct 1 as [s s' H1|c cs s s1 r s2 l s' H1 H2 H3].
    - constructor. eapply own_trans; eauto.
    - econstructor; [eapply own_trans; eauto|eauto|eauto].
  Qed.
  Lemma runs_own_r ex i cs s l s' s2 : runs C ex i cs s l s' -> only_own C i s' s2 -> runs C ex i cs s l s2.
  Proof.
    induction 1 as [s s' H1|c cs s s1 r s3 l s' H1 H2 H3 IH]; intros Ho.
    - constructor. eapply own_trans; eauto.
    - econstructor; eauto.
  Qed.
  Lemma chain_runs ex i upd cs s l s' :
    (forall c s, only_own C i s (upd c s)) -> chain ex upd cs s l s' -> runs C ex i cs s l s'.
  Proof.
    intros Hu. induction 1 as [s|c cs s r s1 l s' Hex Hch IH].
    - constructor. apply own_refl.
    - econstructor; [apply own_refl|exact Hex|]. eapply runs_own_l; eauto.
  Qed.

  Lemma epilogue_closes i r sb s' : epilogue C i r sb = Ret r s' -> closes C i r (n_cost (stat sb i)) sb s'.
  Proof.
    intros He. apply epilogue_inv in He.
    destruct He as (_ & z & Hz & Et & Eb & Ec & Ek & Ew & El & Es & _ & _ & Em & Eg). cbn zeta in *.
    repeat split; auto.
    - rewrite Es. destruct (decide _); reflexivity.
    - intros j Hj. rewrite Es. rewrite decide_False; naive_solver.
    - intros k Hk. rewrite Eb, lookup_insert_ne; auto.
    - intros Hr. unfold is_open. rewrite Eg, decide_True; auto.
  Qed.

  Lemma runs_frame fuel i cs s l s' :
    runs C (exec C fuel) i cs s l s' ->
    forall j, j <> i -> (forall c, In c cs -> j ∉ ids c) ->
      stat s' j = stat s j /\ forall k, nget C s' j k = nget C s j k.
  Proof.
    induction 1 as [s s' Ho|c cs s s0 r s1 l s' Ho Hex Hr IH]; intros j Hj Hc.
    - destruct Ho as (_ & _ & _ & _ & H1 & H2). split; [auto|]. intros k. unfold nget. rewrite !read_unfold, H2; auto. congruence.
    - destruct (IH j Hj) as [A B]; [intros; apply Hc; right; auto|].
      destruct Ho as (_ & _ & _ & _ & H1 & H2). pose proof (exec_Frame _ _ _ _ _ _ Hex) as HF.
      assert (j ∉ ids c) by (apply Hc; left; auto). split.
      + rewrite A, (f_stat _ _ _ _ HF) by auto. auto.
      + intros k. rewrite B, (Frame_nget _ _ _ _ _ _ HF) by auto. unfold nget. rewrite !read_unfold, H2; auto. congruence.
  Qed.

  Lemma chain_cost fuel i cs s l s' :
    chain (exec C fuel) (add_cost i) cs s l s' -> (forall c, In c cs -> i ∉ ids c) ->
    n_cost (stat s' i) = (n_cost (stat s i) + sum_cost l)%Z.
  Proof.
    induction 1 as [s|c cs s r s1 l s' Hex Hch IH]; intros Hc; simpl; [lia|].
    rewrite IH by (intros; apply Hc; right; auto).
    pose proof (f_stat _ _ _ _ (exec_Frame _ _ _ _ _ _ Hex) i (Hc c (or_introl eq_refl))) as E.
    unfold add_cost, set_cost. rewrite stat_set_stat, decide_True by auto. simpl. unfold sum_cost at 2. simpl. rewrite E.
    unfold sum_cost. lia.
  Qed.
  Lemma chain_keep fuel i cs s l s' :
    chain (exec C fuel) keep_state cs s l s' -> (forall c, In c cs -> i ∉ ids c) -> stat s' i = stat s i.
  Proof.
    induction 1 as [s|c cs s r s1 l s' Hex Hch IH]; intros Hc; simpl; [auto|].
    rewrite IH by (intros; apply Hc; right; auto).
    apply (f_stat _ _ _ _ (exec_Frame _ _ _ _ _ _ Hex)). apply Hc. left. auto.
  Qed.

  Lemma nid_cost_eq (s : st) i z : n_cost (stat (set_cost s i z) i) = z.
  Proof. unfold set_cost. rewrite stat_set_stat, decide_True by auto. reflexivity. Qed.

  (** ** The composites *)
  Lemma sequence_obs fuel id cs s r s' :
    exec C fuel (NComp CSequence id cs) s = Ret r s' ->
    exists done rest l sb, cs = done ++ rest /\ runs C (exec C fuel) id done s l sb /\
      first_stop SUCCESS SUCCESS rest l r /\ closes C id r (sum_cost l) sb s'.
  Proof.
    intros H. apply sequence_iff in H. destruct H as (d & re & l & sb & Hcs & Hc & Hf & He).
    exists d, re, l, (set_cost sb id (sum_cost l)). split; [auto|]. split; [|split; [auto|]].
    - eapply runs_own_r; [|apply own_cost]. eapply runs_own_l; [apply (own_pro (NComp CSequence id cs))|].
      eapply chain_runs; [|exact Hc]. intros. apply own_refl.
    - apply epilogue_closes in He. rewrite nid_cost_eq in He. exact He.
  Qed.
  Lemma priority_obs fuel id cs s r s' :
    (forall c, In c cs -> id ∉ ids c) ->
    exec C fuel (NComp CPriority id cs) s = Ret r s' ->
    exists done rest l sb, cs = done ++ rest /\ runs C (exec C fuel) id done s l sb /\
      first_stop FAILURE FAILURE rest l r /\ closes C id r (sum_cost l) sb s'.
  Proof.
    intros Hac H. apply priority_iff in H. destruct H as (d & re & l & sb & Hcs & Hc & Hf & He).
    exists d, re, l, sb. split; [auto|]. split; [|split; [auto|]].
    - eapply runs_own_l; [apply (own_pro (NComp CPriority id cs))|]. eapply runs_own_l; [apply own_cost|].
      eapply chain_runs; [|exact Hc]. intros. apply own_cost.
    - apply epilogue_closes in He. apply chain_cost in Hc; [|intros; apply Hac; subst; apply in_or_app; auto].
      rewrite nid_cost_eq in Hc. rewrite Hc in He. exact He.
  Qed.
  Lemma ornode_obs fuel id cs s r s' :
    (forall c, In c cs -> id ∉ ids c) ->
    exec C fuel (NComp COrNode id cs) s = Ret r s' ->
    exists l sb, runs C (exec C fuel) id cs s l sb /\
      (r = FAILURE /\ Forall (fun p => fst p = FAILURE) l \/
       r = SUCCESS /\ Exists (fun p => fst p <> FAILURE) l) /\ closes C id r (sum_cost l) sb s'.
  Proof.
    intros Hac H. apply ornode_iff in H. destruct H as (l & sb & Hc & Hf & He).
    exists l, sb. split; [|split].
    - eapply runs_own_l; [apply (own_pro (NComp COrNode id cs))|]. eapply runs_own_l; [apply own_cost|].
      eapply chain_runs; [|exact Hc]. intros. apply own_cost.
    - destruct (decide _) as [Hd|Hd]; [auto|]. right. split; auto.
      apply not_Forall_Exists in Hd; [|apply _]. exact Hd.
    - apply epilogue_closes in He. apply chain_cost in Hc; [|intros; apply Hac; auto].
      rewrite nid_cost_eq in Hc. rewrite Hc in He. exact He.
  Qed.
  Lemma inverter_obs fuel id c s r s' :
    exec C fuel (NDec DInverter id (Some c)) s = Ret r s' ->
    exists r1 z sb, runs C (exec C fuel) id [c] s [(r1, z)] sb /\
      (r1 = SUCCESS -> r = FAILURE) /\ (r1 = FAILURE -> r = SUCCESS) /\
      (r1 <> SUCCESS -> r1 <> FAILURE -> r = r1) /\ exists z', closes C id r z' sb s'.
  Proof.
    intros H. apply inverter_iff in H. destruct H as (r1 & sb & Hx & -> & He).
    exists r1, (cost_of sb c), sb. split.
    - econstructor; [apply (own_pro (NDec DInverter id (Some c)))|exact Hx|]. constructor. apply own_refl.
    - destruct r1; simpl; repeat split; try congruence; eexists; apply epilogue_closes; exact He.
  Qed.
  Lemma childless_obs fuel k id s : 
    (exists z, bb_base (s_bb s) !! "TotalCost" = Some (VInt z)) ->
    exists s', exec C fuel (NDec k id None) s = Ret ERROR s'.
  Proof.
    intros (z & Hz). rewrite exec_unfold. cbn [dec_tick].
    apply epilogue_total.
    - apply tc_pro. exists z. auto.
    - rewrite pro_stack. discriminate.
  Qed.

  (** Double inversion is transparent. *)
  Lemma inverter_twice fuel i j c s r s' :
    exec C fuel (NDec DInverter i (Some (NDec DInverter j (Some c)))) s = Ret r s' ->
    exists s0 s1, exec C fuel c s0 = Ret r s1 /\
      s_world s0 = s_world s /\ bb_base (s_bb s0) = bb_base (s_bb s) /\
      (forall m, m <> i -> m <> j -> stat s0 m = stat s m /\ forall k, nget C s0 m k = nget C s m k).
  Proof.
    intros H. apply inverter_iff in H. destruct H as (r1 & sb & Hx & -> & He).
    apply inverter_iff in Hx. destruct Hx as (r2 & sb2 & Hx & -> & He2).
    exists (prologue C (NDec DInverter j (Some c)) (prologue C (NDec DInverter i (Some (NDec DInverter j (Some c)))) s)), sb2.
    split; [destruct r2; exact Hx|].
    rewrite !pro_world, !pro_base. split; [auto|]. split; [auto|]. intros m Hi Hj. split.
    - rewrite !pro_stat. cbn zeta. rewrite !decide_False by auto. auto.
    - intros k. rewrite !pro_nget_other by auto. auto.
  Qed.

  (** ** Loop decorators *)
  Lemma loop_obs fuel k id c m ag last0 i s r s' :
    loop_again k = Some (m, ag, last0) ->
    (is_open C s id = false /\ i = 0%Z \/ is_open C s id = true /\ nget C s id "i" = VInt i) ->
    (0 <= i < m)%Z ->
    exec C fuel (NDec k id (Some c)) s = Ret r s' ->
    exists l sb z, runs C (exec C fuel) id (replicate (length l) c) s l sb /\
      loop_stop ag (Z.to_nat (m - i)) l r /\ closes C id r z sb s' /\
      (id ∉ ids c -> nget C s' id "i" = VInt (i + Z.of_nat (length (filter (fun p => ag (fst p) = true) l)))).
  Proof.
    intros Hk Hi Him H.
    assert (Hi' : nget C (prologue C (NDec k id (Some c)) s) id "i" = VInt i).
    { destruct Hi as [[Ho ->]|[Ho Hi]]; [apply fresh_i; auto; destruct k; discriminate || exact I|].
      rewrite resumed_i; auto. }
    eapply loop_dec_stop in H; [|exact Hk|exact Hi'|lia|lia].
    destruct H as (l & sb & Hc & Hl & He).
    eexists l, _, _. split; [|split; [exact Hl|split]].
    - eapply runs_own_l; [apply (own_pro (NDec k id (Some c)))|].
      eapply runs_own_r; [eapply chain_runs; [|exact Hc]; intros; apply own_refl|].
      apply own_nset.
    - eapply epilogue_closes. exact He.
    - intros Hid. apply epilogue_inv in He. destruct He as (_ & z & _ & _ & _ & _ & _ & _ & _ & _ & _ & _ & _ & Eg).
      rewrite Eg, decide_False by naive_solver. rewrite nget_nset, decide_True by auto. auto.
  Qed.
  Lemma loop_unbounded_obs fuel k id c m ag last0 s r s' :
    loop_again k = Some (m, ag, last0) -> is_open C s id = false -> (m < 0)%Z ->
    exec C fuel (NDec k id (Some c)) s = Ret r s' ->
    exists l0 z sb z', runs C (exec C fuel) id (replicate (S (length l0)) c) s (l0 ++ [(r, z)]) sb /\
      Forall (fun p => ag (fst p) = true) l0 /\ ag r = false /\ closes C id r z' sb s'.
  Proof.
    intros Hk Ho Hm H.
    eapply loop_dec_unbounded in H; [|exact Hk|apply fresh_i; auto; destruct k; discriminate || exact I|lia].
    destruct H as (l0 & z & sb & Hc & Hl & Hr & He).
    eexists l0, z, _, _. split; [|split; [exact Hl|split; [auto|]]].
    - eapply runs_own_l; [apply (own_pro (NDec k id (Some c)))|].
      eapply runs_own_r; [eapply chain_runs; [|exact Hc]; intros; apply own_refl|].
      apply own_nset.
    - eapply epilogue_closes. exact He.
  Qed.
  Lemma loop_zero_obs fuel k id c ag last0 s :
    loop_again k = Some (0%Z, ag, last0) -> is_open C s id = false ->
    match last0 with
    | None => exists s', exec C fuel (NDec k id (Some c)) s = Raise UnboundLocalError s' /\ only_own C id s s'
    | Some r => forall r' s', exec C fuel (NDec k id (Some c)) s = Ret r' s' -> r' = r /\
         exists sb z, only_own C id s sb /\ closes C id r z sb s'
    end.
  Proof.
    intros Hk Ho.
    assert (E := loop_dec_zero C fuel k id c 0 ag last0 0 s Hk).
    rewrite E; [|apply fresh_i; auto; destruct k; discriminate || exact I|lia|lia].
    destruct last0 as [r|].
    - intros r' s' He. pose proof (epilogue_status _ _ _ _ _ _ He). subst. split; auto.
      eexists _, _. split; [|apply epilogue_closes; exact He].
      eapply own_trans; [apply (own_pro (NDec k id (Some c)))|apply own_nset].
    - eexists. split; [reflexivity|]. eapply own_trans; [apply (own_pro (NDec k id (Some c)))|apply own_nset].
  Qed.

  (** ** Wait and MaxTime *)
  Lemma wait_obs fuel e id s r s' :
    exec C fuel (NLeaf (AWait e) id) s = Ret r s' ->
    exists t0 t, (r = SUCCESS /\ (t - t0 > e)%Z \/ r = RUNNING /\ (t - t0 <= e)%Z) /\
      t = c_time C (pred (s_clk s')) /\
      nget C s' id "start_time" = VFloat t0 /\
      (is_open C s id = true -> nget C s id "start_time" = VFloat t0 /\ s_clk s' = S (s_clk s)) /\
      (is_open C s id = false -> t0 = c_time C (s_clk s) /\ s_clk s' = S (S (s_clk s))).
  Proof.
    intros H. apply exec_body_iff in H. destruct H as (sb & Hb & He).
    assert (HP : exists s0, prologue C (NLeaf (AWait e) id) s = s0 /\
      (is_open C s id = true -> nget C s0 id "start_time" = nget C s id "start_time" /\ s_clk s0 = s_clk s) /\
      (is_open C s id = false -> nget C s0 id "start_time" = VFloat (c_time C (s_clk s)) /\ s_clk s0 = S (s_clk s))).
    { eexists. split; [reflexivity|]. unfold prologue, do_open. simpl nid. rewrite is_open_enter.
      split; intros ->; simpl.
      - split; reflexivity.
      - split; [|reflexivity].
        match goal with |- nget C (count_tick ?x _) _ _ = _ => change (nget C x id "start_time" = VFloat (c_time C (s_clk s))) end.
        rewrite nget_nset, decide_True; auto. }
    destruct HP as (s0 & E0 & Ho & Hc). rewrite E0 in Hb. simpl in Hb.
    change (nget C {| s_bb := s_bb s0; s_stats := s_stats s0; s_stack := s_stack s0; s_count := s_count s0; s_log := s_log s0;
                      s_clk := S (s_clk s0); s_world := s_world s0; s_trace := s_trace s0 |} id "start_time")
      with (nget C s0 id "start_time") in Hb.
    destruct (nget C s0 id "start_time") as [| | |t0| |] eqn:En; try discriminate.
    inversion Hb; subst sb. clear Hb.
    apply epilogue_inv in He. destruct He as (_ & z & _ & _ & _ & _ & Ek & _ & _ & _ & _ & _ & _ & Eg). cbn [s_clk] in Ek.
    exists t0, (c_time C (s_clk s0)). split; [|split; [|split]].
    - destruct (c_time C (s_clk s0) - t0 >? e)%Z eqn:E; [left|right]; split; auto; lia.
    - rewrite Ek. reflexivity.
    - rewrite Eg, decide_False by naive_solver. exact En.
    - split; intros Hop.
      + destruct (Ho Hop) as [A B]. split; congruence.
      + destruct (Hc Hop) as [A B]. split; congruence.
  Qed.

  Lemma maxtime_obs fuel m id c s r s' :
    exec C fuel (NDec (DMaxTime m) id (Some c)) s = Ret r s' ->
    exists t0 t r1 z sb z', runs C (exec C fuel) id [c] s [(r1, z)] sb /\ closes C id r z' sb s' /\
      (r = if (t - t0 >? m)%Z then FAILURE else r1) /\
      (is_open C s id = true -> nget C s id "startTime" = VFloat t0 /\ t = c_time C (s_clk s)) /\
      (is_open C s id = false -> t0 = c_time C (s_clk s) /\ t = c_time C (S (s_clk s))).
  Proof.
    intros H. apply exec_body_iff in H. destruct H as (sb & Hb & He).
    assert (HP : exists s0, prologue C (NDec (DMaxTime m) id (Some c)) s = s0 /\
      (is_open C s id = true -> nget C s0 id "startTime" = nget C s id "startTime" /\ s_clk s0 = s_clk s) /\
      (is_open C s id = false -> nget C s0 id "startTime" = VFloat (c_time C (s_clk s)) /\ s_clk s0 = S (s_clk s))).
    { eexists. split; [reflexivity|]. unfold prologue, do_open. simpl nid. rewrite is_open_enter.
      split; intros ->; simpl.
      - split; reflexivity.
      - split; [|reflexivity].
        match goal with |- nget C (count_tick ?x _) _ _ = _ => change (nget C x id "startTime" = VFloat (c_time C (s_clk s))) end.
        rewrite nget_nset, decide_True; auto. }
    destruct HP as (s0 & E0 & Ho & Hc). pose proof (own_pro (NDec (DMaxTime m) id (Some c)) s) as Hown.
    rewrite E0 in Hb, Hown. simpl in Hb.
    set (s1 := {| s_bb := s_bb s0; s_stats := s_stats s0; s_stack := s_stack s0; s_count := s_count s0; s_log := s_log s0;
                      s_clk := S (s_clk s0); s_world := s_world s0; s_trace := s_trace s0 |}) in Hb.
    change (nget C s1 id "startTime") with (nget C s0 id "startTime") in Hb.
    destruct (nget C s0 id "startTime") as [| | |t0| |] eqn:En; try discriminate.
    destruct (exec C fuel c s1) as [r1 s2| |] eqn:Ex; try discriminate. inversion Hb; subst sb r. clear Hb.
    exists t0, (c_time C (s_clk s0)), r1, (cost_of s2 c), s2. eexists. split; [|split; [apply epilogue_closes; exact He|split; [auto|split]]].
    - econstructor; [eapply own_trans; [exact Hown|apply own_clock]|exact Ex|]. constructor. apply own_refl.
    - intros Hop. destruct (Ho Hop). split; congruence.
    - intros Hop. destruct (Hc Hop). split; congruence.
  Qed.
End Obs.
