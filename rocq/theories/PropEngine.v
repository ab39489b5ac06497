(** Properties C01-C15, C18, C19 of the behaviour-tree engine.
    The specification vocabulary ([runs], [first_stop], [loop_stop], [closes],
    [only_own], [log_lines], ...) is in EngineSpec.v. *)
From stdpp Require Import base strings gmap list.
From Coq Require Import ZArith Lia.
From Verif Require Import BB BBFacts Engine EngineSpec EngineFacts EngineInv EngineSem EngineTerm EngineTotal EngineObs EngineHist.

Section Props.
  Context {W : Type} (C : cfg W).

  (** C01: left to right, stop at the first non-SUCCESS, whose status is returned. *)
  Theorem c01_sequence :
    forall fuel id cs s r s',
      exec C fuel (NComp CSequence id cs) s = Ret r s' ->
      exists done rest l sb, cs = done ++ rest /\ runs C (exec C fuel) id done s l sb /\
        first_stop SUCCESS SUCCESS rest l r /\ closes C id r (sum_cost l) sb s'.
  Proof. exact (sequence_obs C). Qed.

  (** ... and what is right of the stopping child is not touched. *)
  Theorem c01_not_executed :
    forall fuel id done s l sb, runs C (exec C fuel) id done s l sb ->
      forall j, j <> id -> (forall c, In c done -> j ∉ ids c) ->
      stat sb j = stat s j /\ forall k, nget C sb j k = nget C s j k.
  Proof. exact (runs_frame C). Qed.

  (** C02 *)
  Theorem c02_priority :
    forall fuel id cs s r s',
      (forall c, In c cs -> id ∉ ids c) ->
      exec C fuel (NComp CPriority id cs) s = Ret r s' ->
      exists done rest l sb, cs = done ++ rest /\ runs C (exec C fuel) id done s l sb /\
        first_stop FAILURE FAILURE rest l r /\ closes C id r (sum_cost l) sb s'.
  Proof. exact (priority_obs C). Qed.

  (** C03 *)
  Theorem c03_ornode :
    forall fuel id cs s r s',
      (forall c, In c cs -> id ∉ ids c) ->
      exec C fuel (NComp COrNode id cs) s = Ret r s' ->
      exists l sb, runs C (exec C fuel) id cs s l sb /\
        (r = FAILURE /\ Forall (fun p => fst p = FAILURE) l \/
         r = SUCCESS /\ Exists (fun p => fst p <> FAILURE) l) /\ closes C id r (sum_cost l) sb s'.
  Proof. exact (ornode_obs C). Qed.

  (** C04 *)
  Theorem c04_inverter :
    forall fuel id c s r s',
      exec C fuel (NDec DInverter id (Some c)) s = Ret r s' ->
      exists r1 z sb, runs C (exec C fuel) id [c] s [(r1, z)] sb /\
        (r1 = SUCCESS -> r = FAILURE) /\ (r1 = FAILURE -> r = SUCCESS) /\
        (r1 <> SUCCESS -> r1 <> FAILURE -> r = r1) /\ exists z', closes C id r z' sb s'.
  Proof. exact (inverter_obs C). Qed.
  Theorem c04_inverter_twice :
    forall fuel i j c s r s',
      exec C fuel (NDec DInverter i (Some (NDec DInverter j (Some c)))) s = Ret r s' ->
      exists s0 s1, exec C fuel c s0 = Ret r s1 /\
        s_world s0 = s_world s /\ bb_base (s_bb s0) = bb_base (s_bb s) /\
        (forall m, m <> i -> m <> j -> stat s0 m = stat s m /\ forall k, nget C s0 m k = nget C s m k).
  Proof. exact (inverter_twice C). Qed.
  (** every decorator without a child returns ERROR *)
  Theorem c04_childless :
    forall fuel k id s,
      (exists z, bb_base (s_bb s) !! "TotalCost" = Some (VInt z)) ->
      exists s', exec C fuel (NDec k id None) s = Ret ERROR s'.
  Proof. exact (childless_obs C). Qed.

  (** C05: RepeatUntilSuccess.  [loop_stop (= FAILURE) m l r]: at most m executions, all
      but the last FAILURE, stopped by a non-FAILURE or by exhausting m. *)
  Theorem c05_repeat_until_success :
    forall fuel id c m s r s', (1 <= m)%Z -> is_open C s id = false ->
      exec C fuel (NDec (DRepeatUntilSuccess m) id (Some c)) s = Ret r s' ->
      exists l sb z, runs C (exec C fuel) id (replicate (length l) c) s l sb /\
        loop_stop (fun r => bool_decide (r = FAILURE)) (Z.to_nat m) l r /\ closes C id r z sb s'.
  Proof.
    exact (fun fuel id c m s r s' Hm Ho Hx =>
      match loop_obs C fuel (DRepeatUntilSuccess m) id c m again_rus None 0 s r s' eq_refl
              (or_introl (conj Ho eq_refl)) ltac:(lia) Hx with
      | ex_intro _ l (ex_intro _ sb (ex_intro _ z (conj H1 (conj H2 (conj H3 _))))) =>
          ex_intro _ l (ex_intro _ sb (ex_intro _ z (conj H1 (conj
            (eq_ind (m - 0)%Z (fun x => loop_stop again_rus (Z.to_nat x) l r) H2 m (Z.sub_0_r m)) H3))))
      end).
  Qed.
  (** resumed after RUNNING: the remaining budget counts from the stored index *)
  Theorem c05_resumed :
    forall fuel id c m i s r s', is_open C s id = true -> nget C s id "i" = VInt i -> (0 <= i < m)%Z ->
      exec C fuel (NDec (DRepeatUntilSuccess m) id (Some c)) s = Ret r s' ->
      exists l sb z, runs C (exec C fuel) id (replicate (length l) c) s l sb /\
        loop_stop (fun r => bool_decide (r = FAILURE)) (Z.to_nat (m - i)) l r /\ closes C id r z sb s' /\
        (id ∉ ids c -> nget C s' id "i" = VInt (i + Z.of_nat (length (filter (fun p => again_rus (fst p) = true) l)))).
  Proof.
    exact (fun fuel id c m i s r s' Ho Hi Him Hx =>
      loop_obs C fuel (DRepeatUntilSuccess m) id c m again_rus None i s r s' eq_refl (or_intror (conj Ho Hi)) Him Hx).
  Qed.
  Theorem c05_unbounded :
    forall fuel id c m s r s', (m < 0)%Z -> is_open C s id = false ->
      exec C fuel (NDec (DRepeatUntilSuccess m) id (Some c)) s = Ret r s' ->
      exists l0 z sb z', runs C (exec C fuel) id (replicate (S (length l0)) c) s (l0 ++ [(r, z)]) sb /\
        Forall (fun p => bool_decide (fst p = FAILURE) = true) l0 /\ bool_decide (r = FAILURE) = false /\ closes C id r z' sb s'.
  Proof. exact (fun fuel id c m s r s' Hm Ho => loop_unbounded_obs C fuel (DRepeatUntilSuccess m) id c m _ _ s r s' eq_refl Ho Hm). Qed.
  Theorem c05_zero_crashes :
    forall fuel id c s, is_open C s id = false ->
      exists s', exec C fuel (NDec (DRepeatUntilSuccess 0) id (Some c)) s = Raise UnboundLocalError s' /\ only_own C id s s'.
  Proof. exact (fun fuel id c s => loop_zero_obs C fuel (DRepeatUntilSuccess 0) id c _ _ s eq_refl). Qed.

  (** C06 *)
  Theorem c06_repeat_until_failure :
    forall fuel id c m s r s', (1 <= m)%Z -> is_open C s id = false ->
      exec C fuel (NDec (DRepeatUntilFailure m) id (Some c)) s = Ret r s' ->
      exists l sb z, runs C (exec C fuel) id (replicate (length l) c) s l sb /\
        loop_stop (fun r => bool_decide (r = SUCCESS)) (Z.to_nat (m - 0)) l r /\ closes C id r z sb s'.
  Proof.
    exact (fun fuel id c m s r s' Hm Ho Hx =>
      match loop_obs C fuel (DRepeatUntilFailure m) id c m again_ruf None 0 s r s' eq_refl
              (or_introl (conj Ho eq_refl)) ltac:(lia) Hx with
      | ex_intro _ l (ex_intro _ sb (ex_intro _ z (conj H1 (conj H2 (conj H3 _))))) =>
          ex_intro _ l (ex_intro _ sb (ex_intro _ z (conj H1 (conj H2 H3))))
      end).
  Qed.
  Theorem c06_repeater :
    forall fuel id c m s r s', (1 <= m)%Z -> is_open C s id = false ->
      exec C fuel (NDec (DRepeater m) id (Some c)) s = Ret r s' ->
      exists l sb z, runs C (exec C fuel) id (replicate (length l) c) s l sb /\
        loop_stop (fun r => bool_decide (r = SUCCESS) || bool_decide (r = FAILURE)) (Z.to_nat (m - 0)) l r /\ closes C id r z sb s'.
  Proof.
    exact (fun fuel id c m s r s' Hm Ho Hx =>
      match loop_obs C fuel (DRepeater m) id c m again_rep (Some SUCCESS) 0 s r s' eq_refl
              (or_introl (conj Ho eq_refl)) ltac:(lia) Hx with
      | ex_intro _ l (ex_intro _ sb (ex_intro _ z (conj H1 (conj H2 (conj H3 _))))) =>
          ex_intro _ l (ex_intro _ sb (ex_intro _ z (conj H1 (conj H2 H3))))
      end).
  Qed.
  Theorem c06_repeater_zero :
    forall fuel id c s, is_open C s id = false -> forall r s',
      exec C fuel (NDec (DRepeater 0) id (Some c)) s = Ret r s' -> r = SUCCESS /\
         exists sb z, only_own C id s sb /\ closes C id SUCCESS z sb s'.
  Proof. exact (fun fuel id c s => loop_zero_obs C fuel (DRepeater 0) id c _ _ s eq_refl). Qed.

  (** C07: what a Limiter really does - it never limits, in any reachable state. *)
  Theorem c07_limiter_never_limits :
    forall fuel n h s tc rs s1 tc1 m id c r s2,
      leaves_safe C -> good_tree n = true -> NoDup (ids n) -> no_tc h -> initial s ->
      run_hist C fuel n h s tc = Some (rs, s1, tc1) ->
      NDec (DLimiter m) id (Some c) ∈ subnodes n -> (1 <= m)%Z ->
      exec C fuel (NDec (DLimiter m) id (Some c)) s1 = Ret r s2 ->
      exists z sb z', runs C (exec C fuel) id [c] s1 [(r, z)] sb /\ closes C id r z' sb s2.
  Proof. exact (limiter_transparent C). Qed.

  (** C08 *)
  Theorem c08_frame :
    forall fuel n s r s', exec C fuel n s = Ret r s' ->
      (forall i, i ∉ ids n -> stat s' i = stat s i) /\
      (forall sc, sc <> SBase -> (forall i, i ∈ ids n -> sc <> SNode (c_tree C) i) ->
         get_memory (s_bb s') sc = get_memory (s_bb s) sc).
  Proof.
    exact (fun fuel n s r s' Hx => let F := exec_Frame C fuel n s r s' Hx in
             conj (f_stat _ _ _ _ F) (f_mem _ _ _ _ F)).
  Qed.

  (** C09: after any execution, for every node of the tree, the open flag says whether its
      latest execution returned RUNNING; nodes not executed keep their flag. *)
  Theorem c09_is_open :
    forall fuel n s r s', exec C fuel n s = Ret r s' -> acyclic n ->
      exists tr, s_trace s' = s_trace s ++ tr /\ Forall (fun e => ev_id e ∈ ids n) tr /\
        forall i, is_open C s' i =
          match last_exec i tr with
          | Some e => bool_decide (ev_status e = RUNNING)
          | None => is_open C s i
          end.
  Proof. exact (exec_open C). Qed.

  (** C10 *)
  Theorem c10_never_pops_empty :
    forall fuel n s s', (forall i w m, fst (fst (c_leaf C i w m)) <> inr IndexErr) ->
      exec C fuel n s <> Raise IndexErr s'.
  Proof. exact (exec_no_IndexErr C). Qed.
  Lemma tick_open_nodes fuel n s tc r s' tc' :
    tree_tick C fuel (Some n) s tc = (Ret r s', tc') ->
    exists tr l, s_trace s' = s_trace s ++ tr /\
      bb_read (s_bb s') "open_nodes" (STree (c_tree C)) = VNodes l /\ length l = n_running tr /\
      bb_read (s_bb s') "node_count" (STree (c_tree C)) = VInt (Z.of_nat (length tr)).
  Proof.
    intros H. apply tick_inv in H. destruct H as (_ & s1 & Ex & _ & Et & _ & _ & _ & _ & _ & _ & Eo & Ec).
    apply exec_Delta in Ex. destruct Ex as (tr & c & D & _). exists (tr ++ [Ev (nid n) r c]), (rev (s_stack s1)).
    rewrite Et, (d_trace _ _ _ _ D). split; [auto|]. split; [auto|].
    destruct (d_stack _ _ _ _ D) as (l & El & Hl). simpl in El. rewrite app_nil_r in El. subst l.
    split; [rewrite rev_length; auto|]. rewrite Ec, (d_count _ _ _ _ D). reflexivity.
  Qed.
  (** the recorded open_nodes has as many entries as executions of the tick returned
      RUNNING (so none if none did), and node_count is the number of executions *)
  Theorem c10_open_nodes_count :
    forall fuel n s tc r s' tc',
      tree_tick C fuel (Some n) s tc = (Ret r s', tc') ->
      exists tr l, s_trace s' = s_trace s ++ tr /\
        bb_read (s_bb s') "open_nodes" (STree (c_tree C)) = VNodes l /\ length l = n_running tr /\
        bb_read (s_bb s') "node_count" (STree (c_tree C)) = VInt (Z.of_nat (length tr)).
  Proof. exact tick_open_nodes. Qed.
  Theorem c10_stack_below_untouched :
    forall fuel n s r s', exec C fuel n s = Ret r s' -> exists l, s_stack s' = l ++ s_stack s.
  Proof.
    exact (fun fuel n s r s' Hx => match exec_Delta C fuel n s r s' Hx with
      | ex_intro _ tr (ex_intro _ c (conj D _)) =>
          match d_stack _ _ _ _ D with ex_intro _ l (conj E _) => ex_intro _ l E end end).
  Qed.

  (** C11, C14: counters, log and tick_count along any history without p_reset ... *)
  Lemma hist_from_initial fuel n h s tc rs s' tc' :
    initial s -> Forall (fun o => match o with HReset _ => False | _ => True end) h ->
    run_hist C fuel n h s tc = Some (rs, s', tc') ->
    (forall i, n_ticks_all (stat s' i) = n_exec i (s_trace s') /\ n_success (stat s' i) = n_succ i (s_trace s')) /\
    s_log s' = log_lines (c_log C) (c_name C) (s_trace s') /\
    length rs = n_ticks_in h /\ tc' = (tc + Z.of_nat (n_ticks_in h))%Z.
  Proof.
    intros (_ & Ht & Hl & Hi) Hh Hr. pose proof (hist_ticks C fuel n h s tc rs s' tc' Hr) as HT.
    destruct (hist_counts C fuel n h s tc rs s' tc' Hr Hh) as (tr & E1 & _ & E2 & E3 & E4).
    rewrite Ht in E1. rewrite Hl in E2. simpl in *. rewrite E1, E2. split; [|split; [auto|exact HT]].
    intros i. rewrite E3, E4. destruct (Hi i) as (c & q & ->). simpl. auto.
  Qed.
  Theorem c11_statistics :
    forall fuel n h s tc rs s' tc',
      initial s -> Forall (fun o => match o with HReset _ => False | _ => True end) h ->
      run_hist C fuel n h s tc = Some (rs, s', tc') ->
      (forall i, n_ticks_all (stat s' i) = n_exec i (s_trace s') /\ n_success (stat s' i) = n_succ i (s_trace s')) /\
      s_log s' = log_lines (c_log C) (c_name C) (s_trace s') /\
      length rs = n_ticks_in h /\ tc' = (tc + Z.of_nat (n_ticks_in h))%Z.
  Proof. exact hist_from_initial. Qed.
  (** ... and with p_reset anywhere: successes never exceed ticks. *)
  Theorem c11_success_le_ticks :
    forall fuel n h s tc rs s' tc', initial s ->
      run_hist C fuel n h s tc = Some (rs, s', tc') ->
      forall i, (0 <= n_success (stat s' i) <= n_ticks_all (stat s' i))%Z.
  Proof.
    exact (fun fuel n h s tc rs s' tc' Hi Hr i =>
      proj1 (hist_sane C fuel n h s tc rs s' tc' Hr (initial_sane s Hi) i)).
  Qed.

  (** C12: prob() is the constant 1/10 and prob_state() the constant 1/2 in every
      reachable state, whatever was executed. *)
  Theorem c12_prob_constant :
    forall fuel n h s tc rs s' tc', initial s ->
      run_hist C fuel n h s tc = Some (rs, s', tc') ->
      forall i, prob (stat s' i) = (1, 10)%Z /\ prob_state (stat s' i) = [(1,2);(1,2);(1,2);(1,2)]%Z.
  Proof.
    exact (fun fuel n h s tc rs s' tc' Hi Hr i =>
      sane_prob s' i (hist_sane C fuel n h s tc rs s' tc' Hr (initial_sane s Hi))).
  Qed.

  (** C13: TotalCost is the sum over all completed executions of the Cost at completion. *)
  Lemma total_cost fuel n h s tc rs s' tc' :
    tc_safe C -> no_tc h -> initial s -> run_hist C fuel n h s tc = Some (rs, s', tc') ->
    bb_read (s_bb s') "TotalCost" SBase = VInt (cost_sum (s_trace s')).
  Proof.
    intros Hs Hno (Hb & Ht & _) Hr.
    destruct (hist_cost C fuel n h Hs Hno s tc rs s' tc' 0 Hr) as (tr & E1 & E2); [rewrite Hb; reflexivity|].
    rewrite Ht in E1. simpl in E1. rewrite E1. rewrite read_unfold. cbn [get_memory]. rewrite E2. reflexivity.
  Qed.
  Theorem c13_total_cost :
    forall fuel n h s tc rs s' tc',
      tc_safe C -> no_tc h -> initial s -> run_hist C fuel n h s tc = Some (rs, s', tc') ->
      bb_read (s_bb s') "TotalCost" SBase = VInt (cost_sum (s_trace s')).
  Proof. exact total_cost. Qed.

  (** C14: one execution appends exactly the log lines of its events. *)
  Lemma log_one fuel n s r s' : exec C fuel n s = Ret r s' ->
    exists tr, s_trace s' = s_trace s ++ tr /\ s_log s' = s_log s ++ log_lines (c_log C) (c_name C) tr.
  Proof.
    intros H. apply exec_Delta in H. destruct H as (tr & c & D & _).
    eexists. split; [apply (d_trace _ _ _ _ D)|apply (d_log _ _ _ _ D)].
  Qed.
  Theorem c14_log :
    forall fuel n s r s', exec C fuel n s = Ret r s' ->
      exists tr, s_trace s' = s_trace s ++ tr /\ s_log s' = s_log s ++ log_lines (c_log C) (c_name C) tr.
  Proof. exact log_one. Qed.

  (** C15 *)
  Lemma tick_bound fuel n s tc :
    finite_loops n = true -> (forall j z, nget C s j "i" = VInt z -> (0 <= z)%Z) ->
    match fst (tree_tick C fuel (Some n) s tc) with
    | Ret _ s' | Raise _ s' => s_count s' <= exec_bound n
    | NoFuel => False
    end.
  Proof.
    intros Hf Hn. pose proof (exec_ok C fuel n (start s) Hf Hn) as H. unfold tree_tick. fold (start s).
    destruct (exec C fuel n (start s)); simpl in *; try tauto; lia.
  Qed.
  Theorem c15_tick_terminates_within_bound :
    forall fuel n s tc,
      finite_loops n = true -> (forall j z, nget C s j "i" = VInt z -> (0 <= z)%Z) ->
      match fst (tree_tick C fuel (Some n) s tc) with
      | Ret _ s' | Raise _ s' => s_count s' <= exec_bound n
      | NoFuel => False
      end.
  Proof. exact tick_bound. Qed.
  Theorem c15_fuel_independent :
    forall f f' n s, f <= f' -> exec C f n s <> NoFuel -> exec C f' n s = exec C f n s.
  Proof. exact (exec_fuel_mono C). Qed.
  (** a well-formed tree never crashes along any history *)
  Theorem c15_no_crash :
    forall fuel n h s tc,
      leaves_safe C -> good_tree n = true -> NoDup (ids n) -> no_tc h -> initial s ->
      exists rs s' tc', run_hist C fuel n h s tc = Some (rs, s', tc').
  Proof.
    exact (fun fuel n h s tc HL Hg Hn Hno Hi =>
      let I := initial_inv C n s Hi in
      match hist_inv C fuel n h HL Hg Hn Hno s tc (proj1 I) (proj2 I) with
      | ex_intro _ rs (ex_intro _ s' (ex_intro _ tc' (conj H _))) => ex_intro _ rs (ex_intro _ s' (ex_intro _ tc' H))
      end).
  Qed.

  (** C18 *)
  Theorem c18_wait :
    forall fuel e id s r s',
      exec C fuel (NLeaf (AWait e) id) s = Ret r s' ->
      exists t0 t, (r = SUCCESS /\ (t - t0 > e)%Z \/ r = RUNNING /\ (t - t0 <= e)%Z) /\
        t = c_time C (pred (s_clk s')) /\
        nget C s' id "start_time" = VFloat t0 /\
        (is_open C s id = true -> nget C s id "start_time" = VFloat t0 /\ s_clk s' = S (s_clk s)) /\
        (is_open C s id = false -> t0 = c_time C (s_clk s) /\ s_clk s' = S (S (s_clk s))).
  Proof. exact (wait_obs C). Qed.
  Theorem c18_maxtime :
    forall fuel m id c s r s',
      exec C fuel (NDec (DMaxTime m) id (Some c)) s = Ret r s' ->
      exists t0 t r1 z sb z', runs C (exec C fuel) id [c] s [(r1, z)] sb /\ closes C id r z' sb s' /\
        (r = if (t - t0 >? m)%Z then FAILURE else r1) /\
        (is_open C s id = true -> nget C s id "startTime" = VFloat t0 /\ t = c_time C (s_clk s)) /\
        (is_open C s id = false -> t0 = c_time C (s_clk s) /\ t = c_time C (S (s_clk s))).
  Proof. exact (maxtime_obs C). Qed.

  (** C19: under Python 3 a MemSequence or MemPriority never returns a status. *)
  Theorem c19_mem_nodes_crash :
    forall fuel k id cs s, k = CMemSequence \/ k = CMemPriority ->
      exec C fuel (NComp k id cs) s = Raise NameError (prologue C (NComp k id cs) s).
  Proof. intros fuel k id cs s [->| ->]; reflexivity. Qed.
End Props.
Print Assumptions c01_sequence.
Print Assumptions c01_not_executed.
Print Assumptions c02_priority.
Print Assumptions c03_ornode.
Print Assumptions c04_inverter.
Print Assumptions c04_inverter_twice.
Print Assumptions c04_childless.
Print Assumptions c05_repeat_until_success.
Print Assumptions c05_resumed.
Print Assumptions c05_unbounded.
Print Assumptions c05_zero_crashes.
Print Assumptions c06_repeat_until_failure.
Print Assumptions c06_repeater.
Print Assumptions c06_repeater_zero.
Print Assumptions c07_limiter_never_limits.
Print Assumptions c08_frame.
Print Assumptions c09_is_open.
Print Assumptions c10_never_pops_empty.
Print Assumptions c10_open_nodes_count.
Print Assumptions c10_stack_below_untouched.
Print Assumptions c11_statistics.
Print Assumptions c11_success_le_ticks.
Print Assumptions c12_prob_constant.
Print Assumptions c13_total_cost.
Print Assumptions c14_log.
Print Assumptions c15_tick_terminates_within_bound.
Print Assumptions c15_fuel_independent.
Print Assumptions c15_no_crash.
Print Assumptions c18_wait.
Print Assumptions c18_maxtime.
Print Assumptions c19_mem_nodes_crash.
