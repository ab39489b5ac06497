(** Trace-indexed invariants of executions (proofs only). *)
From stdpp Require Import base strings gmap list.
From Coq Require Import ZArith Lia.
From Verif Require Import BB BBFacts Engine EngineFacts EngineSpec.

Section Inv.
  Context {W : Type} (C : cfg W).
  Notation st := (st W).

  (** ** Elementary read lemmas *)
  Lemma stat_set_stat (s : st) i x j : stat (set_stat s i x) j = if decide (i = j) then x else stat s j.
  Proof.
    unfold stat, set_stat; simpl. destruct (decide (i = j)) as [->|H].
    - rewrite lookup_insert. reflexivity.
    - rewrite lookup_insert_ne by auto. reflexivity.
  Qed.
  Lemma stat_set_bb (s : st) b j : stat (set_bb s b) j = stat s j.
  Proof. reflexivity. Qed.
  Lemma stat_add_log (s : st) l j : stat (add_log s l) j = stat s j.
  Proof. reflexivity. Qed.
  Lemma stat_nset (s : st) i k v j : stat (nset C s i k v) j = stat s j.
  Proof. reflexivity. Qed.
  Lemma nget_nset (s : st) i k v j k' :
    nget C (nset C s i k v) j k' = if decide (i = j /\ k = k') then v else nget C s j k'.
  Proof.
    unfold nget, nset; simpl. rewrite read_set.
    destruct (decide (i = j /\ k = k')) as [[-> ->]|H].
    - rewrite decide_True; auto.
    - rewrite decide_False; [auto|]. intros [E1 E2]. inversion E1. apply H; auto.
  Qed.
  Lemma is_open_nget (s s' : st) i : nget C s' i "is_open" = nget C s i "is_open" -> is_open C s' i = is_open C s i.
  Proof. unfold is_open. intros ->. reflexivity. Qed.

  (** ** Prologue *)
  Lemma open_hook_stats n (s : st) : s_stats (open_hook C n s) = s_stats s.
  Proof. destruct n as [[]|[]|[]]; reflexivity. Qed.
  Lemma open_hook_trace n (s : st) : s_trace (open_hook C n s) = s_trace s.
  Proof. destruct n as [[]|[]|[]]; reflexivity. Qed.
  Lemma open_hook_stack n (s : st) : s_stack (open_hook C n s) = s_stack s.
  Proof. destruct n as [[]|[]|[]]; reflexivity. Qed.
  Lemma open_hook_count n (s : st) : s_count (open_hook C n s) = s_count s.
  Proof. destruct n as [[]|[]|[]]; reflexivity. Qed.
  Lemma open_hook_log n (s : st) : s_log (open_hook C n s) = s_log s.
  Proof. destruct n as [[]|[]|[]]; reflexivity. Qed.
  Lemma open_hook_base n (s : st) : bb_base (s_bb (open_hook C n s)) = bb_base (s_bb s).
  Proof. destruct n as [[]|[]|[]]; reflexivity. Qed.
  Lemma open_hook_world n (s : st) : s_world (open_hook C n s) = s_world s.
  Proof. destruct n as [[]|[]|[]]; reflexivity. Qed.
  Lemma open_hook_nget_other n (s : st) j k : nid n <> j -> nget C (open_hook C n s) j k = nget C s j k.
  Proof.
    intros H.
    destruct n as [[]|[]|[]]; simpl in H |- *; try reflexivity;
      rewrite nget_nset, decide_False by (intros [? _]; auto); reflexivity.
  Qed.
  Lemma open_hook_is_open n (s : st) j : nget C (open_hook C n s) j "is_open" = nget C s j "is_open".
  Proof.
    destruct n as [[]|[]|[]]; simpl; try reflexivity;
      rewrite nget_nset, decide_False by (intros [_ ?]; discriminate); reflexivity.
  Qed.
  Lemma open_hook_scope n (s : st) sc :
    (forall i, sc <> SNode (c_tree C) i) \/ sc <> SNode (c_tree C) (nid n) ->
    get_memory (s_bb (open_hook C n s)) sc = get_memory (s_bb s) sc.
  Proof.
    intros H.
    assert (Hs : sc <> SNode (c_tree C) (nid n)) by (destruct H; auto).
    destruct n as [[]|[]|[]]; simpl in Hs |- *; try reflexivity;
      rewrite set_memory_other; auto.
  Qed.

  Ltac pro := intros; unfold prologue, count_tick, do_open;
    match goal with |- context[if ?b then _ else _] => destruct b end; simpl;
    rewrite ?open_hook_stats, ?open_hook_trace, ?open_hook_stack, ?open_hook_count, ?open_hook_log,
      ?open_hook_base, ?open_hook_world; try reflexivity.
  Lemma pro_trace n (s : st) : s_trace (prologue C n s) = s_trace s. Proof. pro. Qed.
  Lemma pro_stack n (s : st) : s_stack (prologue C n s) = nid n :: s_stack s. Proof. pro. Qed.
  Lemma pro_count n (s : st) : s_count (prologue C n s) = S (s_count s). Proof. pro. Qed.
  Lemma pro_log n (s : st) : s_log (prologue C n s) = s_log s. Proof. pro. Qed.
  Lemma pro_base n (s : st) : bb_base (s_bb (prologue C n s)) = bb_base (s_bb s). Proof. pro. Qed.
  Lemma pro_world n (s : st) : s_world (prologue C n s) = s_world s. Proof. pro. Qed.
  Lemma do_open_stats n (s : st) : s_stats (do_open C n s) = s_stats s.
  Proof. unfold do_open. destruct (is_open _ _ _); [auto|]. rewrite open_hook_stats. reflexivity. Qed.
  Lemma stat_eq (s s' : st) i : s_stats s' = s_stats s -> stat s' i = stat s i.
  Proof. unfold stat. intros ->. reflexivity. Qed.
  Lemma pro_stat n (s : st) j :
    stat (prologue C n s) j =
      let x := stat s j in
      if decide (nid n = j) then
        NStat (n_ticks_all x + 1) (n_ticks x) (n_success x) (n_tik2 x) (n_suc2 x) (n_state x) (n_cost x)
      else x.
  Proof.
    unfold prologue, count_tick. rewrite stat_set_stat.
    assert (E : forall k, stat (do_open C n (do_enter s (nid n))) k = stat s k).
    { intros k. apply stat_eq. rewrite do_open_stats. reflexivity. }
    rewrite !E. destruct (decide (nid n = j)) as [<-|H]; reflexivity.
  Qed.
  Lemma pro_scope n (s : st) sc :
    sc <> SNode (c_tree C) (nid n) ->
    get_memory (s_bb (prologue C n s)) sc = get_memory (s_bb s) sc.
  Proof.
    intros H. unfold prologue, count_tick, do_open; simpl.
    destruct (is_open _ _ _); simpl; [reflexivity|].
    rewrite open_hook_scope by auto. simpl. rewrite set_memory_other by auto. reflexivity.
  Qed.
  Lemma pro_is_open n (s : st) : nget C (prologue C n s) (nid n) "is_open" = VBool true.
  Proof.
    unfold prologue, count_tick. unfold do_open.
    destruct (is_open C (do_enter s (nid n)) (nid n)) eqn:E.
    - unfold is_open in E. unfold nget in *; simpl in *.
      destruct (bb_read _ _ _); try discriminate. destruct b; [reflexivity|discriminate].
    - change (nget C (open_hook C n (nset C (do_enter s (nid n)) (nid n) "is_open" (VBool true))) (nid n) "is_open" = VBool true).
      rewrite open_hook_is_open, nget_nset, decide_True by auto. reflexivity.
  Qed.

  (** ** Epilogue *)
  Lemma epilogue_inv i r (sb s' : st) r' :
    epilogue C i r sb = Ret r' s' ->
    r' = r /\ exists z,
      bb_base (s_bb sb) !! "TotalCost" = Some (VInt z) /\
      let c := n_cost (stat sb i) in
      s_trace s' = s_trace sb ++ [Ev i r c] /\
      bb_base (s_bb s') = <["TotalCost" := VInt (z + c)]> (bb_base (s_bb sb)) /\
      s_count s' = s_count sb /\
      s_clk s' = s_clk sb /\ s_world s' = s_world sb /\
      s_log s' = s_log sb ++ log_line (c_log C) (c_name C) (Ev i r c) /\
      (forall j, stat s' j =
         let x := stat sb j in
         if decide (i = j /\ r = SUCCESS) then
           NStat (n_ticks_all x) (n_ticks x) (n_success x + 1) (n_tik2 x)
                 (alter Z.succ (n_state x) (n_suc2 x)) (n_state x) (n_cost x)
         else x) /\
      (r = RUNNING -> s_stack s' = s_stack sb) /\
      (r <> RUNNING -> exists top, s_stack sb = top :: s_stack s') /\
      (forall sc, sc <> SBase -> sc <> SNode (c_tree C) i ->
         get_memory (s_bb s') sc = get_memory (s_bb sb) sc) /\
      (forall j k, nget C s' j k =
         if decide (i = j /\ k = "is_open" /\ r <> RUNNING) then VBool false else nget C sb j k).
  Proof.
    unfold epilogue, after_tick, bb_inc. cbn [get_memory].
    destruct (bb_base (s_bb sb) !! "TotalCost") as [v|] eqn:HT; [|discriminate].
    destruct v; try discriminate. intros H.
    set (c := n_cost (stat sb i)) in *.
    set (b := bb_set (s_bb sb) "TotalCost" (VInt (z + c)) SBase) in *.
    assert (Hbb : forall sc, sc <> SBase -> get_memory b sc = get_memory (s_bb sb) sc).
    { intros sc Hsc. unfold b. apply set_memory_other. auto. }
    unfold finish in H.
    match type of H with context[if decide (r = RUNNING) then Ret r ?x else _] => set (s3 := x) in * end.
    assert (E3 : s_bb s3 = b /\ s_stack s3 = s_stack sb /\ s_count s3 = s_count sb /\
                 s_clk s3 = s_clk sb /\ s_world s3 = s_world sb /\
                 s_trace s3 = s_trace sb ++ [Ev i r c] /\
                 s_log s3 = s_log sb ++ log_line (c_log C) (c_name C) (Ev i r c) /\
                 (forall j, stat s3 j =
         let x := stat sb j in
         if decide (i = j /\ r = SUCCESS) then
           NStat (n_ticks_all x) (n_ticks x) (n_success x + 1) (n_tik2 x)
                 (alter Z.succ (n_state x) (n_suc2 x)) (n_state x) (n_cost x)
         else x)).
    { assert (Hcs : forall (x : st) j, s_stats x = s_stats sb -> stat (count_success x i) j =
         let y := stat sb j in
         if decide (i = j) then
           NStat (n_ticks_all y) (n_ticks y) (n_success y + 1) (n_tik2 y)
                 (alter Z.succ (n_state y) (n_suc2 y)) (n_state y) (n_cost y)
         else y).
      { intros x j Hx. unfold count_success. rewrite stat_set_stat.
        rewrite (stat_eq sb x i Hx), (stat_eq sb x j Hx).
        destruct (decide (i = j)) as [<-|]; reflexivity. }
      unfold s3, log_line. cbn [ev_status ev_id].
      destruct r; 
        repeat match goal with |- context[decide (?a = ?b)] => destruct (decide (a = b)); try congruence end;
        repeat match goal with |- context[(?a >? ?b)%Z] => destruct (a >? b)%Z end;
        rewrite ?app_nil_r; repeat split; auto; intros j;
        try (rewrite decide_False by (intros [? ?]; congruence); reflexivity);
        rewrite ?stat_add_log, Hcs by reflexivity; cbn zeta;
        (destruct (decide (i = j)) as [<-|Hij];
        [rewrite decide_True by auto; reflexivity | rewrite decide_False by naive_solver; reflexivity]). }
    destruct E3 as (Eb & Est & Ec & Eclk & Ew & Et & El & Estat). clearbody s3.
    destruct (decide (r = RUNNING)) as [Hr|Hr].
    - inversion H; subst r' s3. split; [auto|]. exists z. split; [auto|].
      repeat split; auto; try congruence.
      + rewrite Eb. reflexivity.
      + intros sc Hsc _. rewrite Eb. auto.
      + intros j k. rewrite decide_False by naive_solver. unfold nget.
        rewrite !read_unfold, Eb, Hbb by discriminate. reflexivity.
    - destruct (s_stack s3) as [|top l] eqn:Es; [discriminate|].
      inversion H; subst r' s'. split; [auto|]. exists z. split; [auto|].
      repeat split; auto; try congruence; simpl.
      + rewrite Eb. reflexivity.
      + intros _. exists top. congruence.
      + intros sc Hsc Hn. rewrite set_memory_other by auto. rewrite Eb. auto.
      + intros j k. rewrite nget_nset.
        destruct (decide (i = j /\ "is_open" = k)) as [[-> <-]|Hn].
        * rewrite decide_True by auto. reflexivity.
        * rewrite decide_False by naive_solver. unfold nget. cbn [set_stack s_bb].
          rewrite !read_unfold, Eb, Hbb by discriminate. reflexivity.
  Qed.

  (** ** Trace-indexed change of the state *)
  Record Delta (s s' : st) (tr : list event) : Prop := {
    d_trace : s_trace s' = s_trace s ++ tr;
    d_count : s_count s' = s_count s + length tr;
    d_all : forall i, n_ticks_all (stat s' i) = (n_ticks_all (stat s i) + n_exec i tr)%Z;
    d_suc : forall i, n_success (stat s' i) = (n_success (stat s i) + n_succ i tr)%Z;
    d_stack : exists l, s_stack s' = l ++ s_stack s /\ length l = n_running tr;
    d_log : s_log s' = s_log s ++ log_lines (c_log C) (c_name C) tr;
    d_same : forall i, n_ticks (stat s' i) = n_ticks (stat s i) /\
                       n_tik2 (stat s' i) = n_tik2 (stat s i) /\
                       n_state (stat s' i) = n_state (stat s i) }.

  Lemma n_exec_app i a b : n_exec i (a ++ b) = (n_exec i a + n_exec i b)%Z.
  Proof. unfold n_exec. rewrite filter_app, app_length. lia. Qed.
  Lemma n_succ_app i a b : n_succ i (a ++ b) = (n_succ i a + n_succ i b)%Z.
  Proof. unfold n_succ. rewrite filter_app, app_length. lia. Qed.
  Lemma n_running_app a b : n_running (a ++ b) = n_running a + n_running b.
  Proof. unfold n_running. rewrite filter_app, app_length. lia. Qed.
  Lemma log_lines_app f nm a b : log_lines f nm (a ++ b) = log_lines f nm a ++ log_lines f nm b.
  Proof. unfold log_lines. rewrite map_app, concat_app. reflexivity. Qed.
  Lemma log_lines_one f nm e : log_lines f nm [e] = log_line f nm e.
  Proof. unfold log_lines. simpl. apply app_nil_r. Qed.
  Lemma cost_sum_app a b : cost_sum (a ++ b) = (cost_sum a + cost_sum b)%Z.
  Proof. unfold cost_sum. induction a as [|x a IH]; simpl; lia. Qed.
  Lemma n_exec_one i e : n_exec i [e] = if decide (ev_id e = i) then 1%Z else 0%Z.
  Proof. unfold n_exec. rewrite filter_cons. destruct (decide _); reflexivity. Qed.
  Lemma n_succ_one i e : n_succ i [e] = if decide (ev_id e = i /\ ev_status e = SUCCESS) then 1%Z else 0%Z.
  Proof. unfold n_succ. rewrite filter_cons. destruct (decide _); reflexivity. Qed.
  Lemma n_running_one e : n_running [e] = if decide (ev_status e = RUNNING) then 1 else 0.
  Proof. unfold n_running. rewrite filter_cons. destruct (decide _); reflexivity. Qed.

  Lemma Delta_refl s : Delta s s [].
  Proof.
    constructor; auto; try (rewrite app_nil_r; auto); try (intros; unfold n_exec, n_succ; simpl; lia).
    exists []; auto.
  Qed.
  Lemma Delta_trans s s' s'' a b : Delta s s' a -> Delta s' s'' b -> Delta s s'' (a ++ b).
  Proof.
    intros [t1 c1 a1 u1 (l1 & k1 & k1') g1 e1] [t2 c2 a2 u2 (l2 & k2 & k2') g2 e2].
    constructor.
    - rewrite t2, t1, app_assoc. reflexivity.
    - rewrite c2, c1, app_length. lia.
    - intros i. rewrite a2, a1, n_exec_app. lia.
    - intros i. rewrite u2, u1, n_succ_app. lia.
    - exists (l2 ++ l1). rewrite k2, k1, app_assoc, app_length, n_running_app. split; auto; lia.
    - rewrite g2, g1, log_lines_app, app_assoc. reflexivity.
    - intros i. destruct (e1 i) as (? & ? & ?), (e2 i) as (? & ? & ?). repeat split; congruence.
  Qed.

  Lemma stat_set_cost (s : st) i z j :
    n_ticks_all (stat (set_cost s i z) j) = n_ticks_all (stat s j) /\
    n_success (stat (set_cost s i z) j) = n_success (stat s j) /\
    n_ticks (stat (set_cost s i z) j) = n_ticks (stat s j) /\
    n_tik2 (stat (set_cost s i z) j) = n_tik2 (stat s j) /\
    n_suc2 (stat (set_cost s i z) j) = n_suc2 (stat s j) /\
    n_state (stat (set_cost s i z) j) = n_state (stat s j) /\
    n_cost (stat (set_cost s i z) j) = if decide (i = j) then z else n_cost (stat s j).
  Proof.
    unfold set_cost. rewrite stat_set_stat. destruct (decide (i = j)) as [<-|]; repeat split; auto.
  Qed.

  Lemma self_op_Delta n s s' : self_op C n s s' -> Delta s s' [].
  Proof.
    intros H. destruct H.
    - constructor; simpl; auto; try (rewrite app_nil_r; auto).
      + intros i. destruct (stat_set_cost s (nid n) z i) as (-> & _). unfold n_exec; simpl; lia.
      + intros i. destruct (stat_set_cost s (nid n) z i) as (_ & -> & _). unfold n_succ; simpl; lia.
      + exists []; auto.
      + intros i. destruct (stat_set_cost s (nid n) z i) as (_ & _ & -> & -> & _ & -> & _). auto.
    - destruct (Delta_refl s) as [Dt Dc Da Du Dk Dg De]. constructor; auto.
    - destruct (Delta_refl s) as [Dt Dc Da Du Dk Dg De]. constructor; auto.
    - destruct (Delta_refl s) as [Dt Dc Da Du Dk Dg De]. constructor; auto.
  Qed.

  Lemma body_Delta (Q : list event -> Prop) (P : node -> st -> status -> st -> Prop) n s s' :
    Q [] -> (forall a b, Q a -> Q b -> Q (a ++ b)) ->
    (forall c s r s', In c (children n) -> P c s r s' -> exists tr, Delta s s' tr /\ Q tr) ->
    body_rel C P n s s' -> exists tr, Delta s s' tr /\ Q tr.
  Proof.
    intros Q0 QA H. induction 1 as [s|c r s s1 s2 Hin Hp Hb IH|s s1 s2 Hs Hb IH].
    - exists []. split; auto using Delta_refl.
    - destruct (H _ _ _ _ Hin Hp) as (t1 & D1 & q1). destruct IH as (t2 & D2 & q2).
      exists (t1 ++ t2). split; eauto using Delta_trans.
    - destruct IH as (t2 & D2 & q2). exists t2. split; [|auto].
      change t2 with ([] ++ t2). eapply Delta_trans; eauto using self_op_Delta.
  Qed.

  Lemma wrap_Delta n s r sb s' tr :
    Delta (prologue C n s) sb tr -> epilogue C (nid n) r sb = Ret r s' ->
    Delta s s' (tr ++ [Ev (nid n) r (n_cost (stat sb (nid n)))]).
  Proof.
    intros [t c a u (l & k & k') g e] He.
    apply epilogue_inv in He. destruct He as (_ & z & _ & Et & _ & Ec & _ & _ & El & Es & Er & Ep & _).
    cbn zeta in *.
    constructor.
    - rewrite Et, t, pro_trace, app_assoc. reflexivity.
    - rewrite Ec, c, pro_count, app_length. simpl. lia.
    - intros i. rewrite Es, n_exec_app, n_exec_one. cbn [ev_id].
      specialize (a i). rewrite pro_stat in a. cbn zeta in a.
      destruct (decide (nid n = i)); destruct (decide (_ /\ _)); simpl in a |- *; lia.
    - intros i. rewrite Es, n_succ_app, n_succ_one. cbn [ev_id ev_status].
      specialize (u i). rewrite pro_stat in u. cbn zeta in u.
      destruct (decide (nid n = i)) as [<-|]; destruct (decide (_ /\ _)); simpl in u |- *; lia.
    - rewrite n_running_app, n_running_one. cbn [ev_status]. rewrite pro_stack in k.
      destruct (decide (r = RUNNING)) as [E|E].
      + rewrite (Er E), k. exists (l ++ [nid n]). rewrite <- app_assoc, app_length. simpl. split; auto; lia.
      + destruct (Ep E) as (top & Htop). rewrite k in Htop. destruct l as [|x l].
        * simpl in Htop. inversion Htop. exists []. split; [auto|simpl in *; lia].
        * simpl in Htop. inversion Htop as [[H1 H2]]. exists (l ++ [nid n]).
          rewrite <- app_assoc, app_length. simpl in *. split; [auto|lia].
    - rewrite El, g, pro_log, log_lines_app, app_assoc, log_lines_one. reflexivity.
    - intros i. specialize (e i). rewrite pro_stat in e. rewrite Es. cbn zeta in *.
      destruct e as (e1 & e2 & e3).
      destruct (decide (nid n = i)); destruct (decide (_ /\ _)); simpl in *; auto.
  Qed.

  Lemma ids_child n c : In c (children n) -> forall i, i ∈ ids c -> i ∈ ids n.
  Proof.
    intros Hin i Hi. destruct n as [k j|k j cs|k j [c'|]]; simpl in *; try contradiction.
    - right. apply elem_of_list_In, in_concat. exists (ids c). split; [|apply elem_of_list_In; auto].
      apply in_map_iff. eauto.
    - destruct Hin as [->|[]]. right. auto.
  Qed.
  Lemma nid_ids n : nid n ∈ ids n.
  Proof. destruct n; simpl; left. Qed.

  Lemma exec_Delta fuel n s r s' :
    exec C fuel n s = Ret r s' ->
    exists tr c, Delta s s' (tr ++ [Ev (nid n) r c]) /\ Forall (fun e => ev_id e ∈ ids n) tr.
  Proof.
    revert n s r s'. apply (exec_ind_gen C fuel).
    intros n s r sb s' Hb He.
    apply body_Delta with (Q := fun tr => Forall (fun e => ev_id e ∈ ids n) tr) in Hb.
    - destruct Hb as (tr & D & q). exists tr, (n_cost (stat sb (nid n))). split; [|auto].
      eapply wrap_Delta; eauto.
    - constructor.
    - intros. apply Forall_app; auto.
    - intros c1 s1 r1 s1' Hin [(tr & c & D & q) _]. exists (tr ++ [Ev (nid c1) r1 c]). split; [auto|].
      apply Forall_app. split.
      + eapply Forall_impl; [exact q|]. intros. eapply ids_child; eauto.
      + constructor; [|constructor]. simpl. eapply ids_child; eauto using nid_ids.
  Qed.

  (** ** Frame *)
  Record Frame (n : node) (s s' : st) : Prop := {
    f_stat : forall i, i ∉ ids n -> stat s' i = stat s i;
    f_mem : forall sc, sc <> SBase -> (forall i, i ∈ ids n -> sc <> SNode (c_tree C) i) ->
       get_memory (s_bb s') sc = get_memory (s_bb s) sc }.

  Lemma stat_set_cost_ne (s : st) i z j : i <> j -> stat (set_cost s i z) j = stat s j.
  Proof. intros. unfold set_cost. rewrite stat_set_stat, decide_False; auto. Qed.

  Lemma self_op_Frame n s s' : self_op C n s s' -> Frame n s s'.
  Proof.
    intros H. destruct H; constructor; simpl; auto.
    - intros i Hi. apply stat_set_cost_ne. intros <-. apply Hi, nid_ids.
    - intros sc _ Hsc. apply set_memory_other. intros E. symmetry in E. revert E. apply Hsc, nid_ids.
    - intros sc Hsc _. destruct sc; [congruence|reflexivity..].
  Qed.
  Lemma exec_Frame fuel n s r s' : exec C fuel n s = Ret r s' -> Frame n s s'.
  Proof.
    revert n s r s'. apply (exec_ind_gen C fuel (fun n s _ s' => Frame n s s')).
    intros n s r sb s' Hb He.
    assert (HB : Frame n (prologue C n s) sb).
    { clear He. induction Hb as [s1|c r1 s1 s2 s3 Hin [Hp _] Hb IH|s1 s2 s3 Hs Hb IH].
      - constructor; auto.
      - destruct Hp as [a1 b1], IH as [a2 b2]. constructor.
        + intros i Hi. rewrite a2 by auto. apply a1. intros Hc. apply Hi. eapply ids_child; eauto.
        + intros sc Hsc Hn. rewrite b2 by auto. apply b1; auto. intros i Hi. apply Hn. eapply ids_child; eauto.
      - destruct (self_op_Frame _ _ _ Hs) as [a1 b1], IH as [a2 b2]. constructor.
        + intros i Hi. rewrite a2 by auto. auto.
        + intros sc Hsc Hn. rewrite b2 by auto. auto. }
    apply epilogue_inv in He. destruct He as (_ & z & _ & _ & _ & _ & _ & _ & _ & Es & _ & _ & Em & _).
    destruct HB as [a b]. constructor.
    - intros i Hi. assert (nid n <> i) by (intros <-; apply Hi, nid_ids).
      rewrite Es. cbn zeta. rewrite decide_False by naive_solver.
      rewrite a by auto. rewrite pro_stat. cbn zeta. rewrite decide_False by auto. reflexivity.
    - intros sc Hsc Hn. rewrite Em; [|auto|apply Hn, nid_ids].
      rewrite b by auto. apply pro_scope. apply Hn, nid_ids.
  Qed.

  Lemma Frame_nget n s s' j k : Frame n s s' -> j ∉ ids n -> nget C s' j k = nget C s j k.
  Proof.
    intros [_ f] Hj. unfold nget. rewrite !read_unfold, f; [reflexivity|discriminate|].
    intros i Hi E. inversion E; subst. auto.
  Qed.

  (** ** is_open *)
  Definition open_spec (s s' : st) (tr : list event) : Prop :=
    forall i, is_open C s' i =
      match last_exec i tr with
      | Some e => bool_decide (ev_status e = RUNNING)
      | None => is_open C s i
      end.
  Lemma last_exec_app i a b :
    last_exec i (a ++ b) = match last_exec i b with Some e => Some e | None => last_exec i a end.
  Proof.
    unfold last_exec. rewrite filter_app. rewrite last_app.
    destruct (last (filter _ b)); reflexivity.
  Qed.
  Lemma acyclic_child n c : acyclic n -> In c (children n) -> acyclic c /\ nid n ∉ ids c.
  Proof.
    destruct n as [k j|k j cs|k j [c'|]]; simpl; try contradiction.
    - intros [Hn Hf] Hin. induction cs as [|x cs IH]; [contradiction|].
      simpl in *. rewrite elem_of_app in Hn. destruct Hf as [H1 H2].
      destruct Hin as [->|Hin]; [tauto|]. apply IH; tauto.
    - intros [Hn Ha] [->|[]]. auto.
  Qed.
  Lemma exec_open fuel n s r s' :
    exec C fuel n s = Ret r s' -> acyclic n ->
    exists tr, s_trace s' = s_trace s ++ tr /\ Forall (fun e => ev_id e ∈ ids n) tr /\ open_spec s s' tr.
  Proof.
    revert n s r s'. apply (exec_ind_gen C fuel (fun n s r s' => acyclic n -> 
       exists tr, s_trace s' = s_trace s ++ tr /\ Forall (fun e => ev_id e ∈ ids n) tr /\ open_spec s s' tr)).
    intros n s r sb s' Hb He Hac.
    assert (HB : exists tr, s_trace sb = s_trace (prologue C n s) ++ tr /\
       Forall (fun e => ev_id e ∈ ids n /\ ev_id e <> nid n) tr /\ open_spec (prologue C n s) sb tr).
    { clear He. induction Hb as [s1|c r1 s1 s2 s3 Hin [Hp _] Hb IH|s1 s2 s3 Hs Hb IH].
      - exists []. rewrite app_nil_r. split; [auto|]. split; [constructor|]. intros i. reflexivity.
      - destruct (acyclic_child _ _ Hac Hin) as [Hc Hni].
        destruct (Hp Hc) as (t1 & e1 & f1 & o1). destruct IH as (t2 & e2 & f2 & o2).
        exists (t1 ++ t2). split; [rewrite e2, e1, app_assoc; auto|]. split.
        + apply Forall_app. split; [|auto]. eapply Forall_impl; [exact f1|]. simpl. intros x Hx.
          split; [eapply ids_child; eauto|]. intros E. apply Hni. rewrite <- E. auto.
        + intros i. rewrite last_exec_app. rewrite o2. destruct (last_exec i t2); [auto|]. apply o1.
      - destruct IH as (t2 & e2 & f2 & o2). exists t2.
        assert (s_trace s2 = s_trace s1) as E1 by (destruct Hs; reflexivity).
        assert (forall i, is_open C s2 i = is_open C s1 i) as E2.
        { intros i. destruct Hs; try reflexivity. unfold is_open. rewrite nget_nset, decide_False; [auto|]. naive_solver. }
        split; [congruence|]. split; [auto|]. intros i. rewrite o2. destruct (last_exec i t2); auto. }
    destruct HB as (tr & Et & Ef & Eo).
    apply epilogue_inv in He. destruct He as (_ & z & _ & Etr & _ & _ & _ & _ & _ & _ & _ & _ & _ & Eg).
    cbn zeta in *. set (c := n_cost (stat sb (nid n))) in *. exists (tr ++ [Ev (nid n) r c]).
    split; [rewrite Etr, Et, pro_trace, app_assoc; auto|]. split.
    { apply Forall_app. split; [eapply Forall_impl; [exact Ef|]; simpl; tauto|].
      constructor; [|constructor]. simpl. apply nid_ids. }
    intros i. rewrite last_exec_app.
    assert (E1 : last_exec i [Ev (nid n) r c] = if decide (nid n = i) then Some (Ev (nid n) r c) else None).
    { unfold last_exec. rewrite filter_cons. simpl. destruct (decide (nid n = i)); reflexivity. }
    rewrite E1. clear E1. unfold is_open at 1. rewrite Eg.
    destruct (decide (nid n = i)) as [<-|Hne].
    - simpl. destruct (decide (r = RUNNING)) as [->|Hr].
      + rewrite decide_False by naive_solver. rewrite bool_decide_true by auto.
        specialize (Eo (nid n)).
        assert (last_exec (nid n) tr = None) as E2.
        { unfold last_exec. apply last_None. clear -Ef. induction tr as [|x tr IH]; [auto|].
          inversion Ef; subst. rewrite filter_cons, decide_False by tauto. auto. }
        rewrite E2 in Eo. unfold is_open at 2 in Eo. rewrite pro_is_open in Eo. exact Eo.
      + rewrite decide_True by auto. rewrite bool_decide_false by auto. reflexivity.
    - rewrite decide_False by naive_solver. specialize (Eo i). unfold is_open at 1 in Eo. rewrite Eo.
      destruct (last_exec i tr); [auto|]. unfold is_open, nget. rewrite !read_unfold, pro_scope; [auto|].
      intros E. inversion E. auto.
  Qed.
End Inv.
