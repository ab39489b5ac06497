(** Characterisation of composites and decorators, costs, termination, fuel (proofs). *)
From stdpp Require Import base strings gmap list.
From Coq Require Import ZArith Lia.
From Verif Require Import BB BBFacts Engine EngineSpec EngineFacts EngineInv.

Section Sem.
  Context {W : Type} (C : cfg W).
  Notation st := (st W).
  Notation keep_state := (fun (_ : node) (s : st) => s).
  Definition add_cost (i : nat) (c : node) (s : st) : st :=
    set_cost s i (n_cost (stat s i) + cost_of s c).

  Section L.
  Context (ex : node -> st -> out W status).

  Lemma chain_app upd cs1 cs2 s l1 l2 s1 s' :
    chain ex upd cs1 s l1 s1 -> chain ex upd cs2 s1 l2 s' -> chain ex upd (cs1 ++ cs2) s (l1 ++ l2) s'.
  Proof. induction 1; simpl; auto. intros. econstructor; eauto. Qed.
  Lemma chain_length upd cs s l s' : chain ex upd cs s l s' -> length l = length cs.
  Proof. induction 1; simpl; congruence. Qed.

  Lemma seq_loop_iff i cs tmp s r s' :
    seq_loop ex i cs tmp s = Ret r s' <->
    exists done rest l sb, cs = done ++ rest /\ chain ex keep_state done s l sb /\
      first_stop SUCCESS SUCCESS rest l r /\ s' = set_cost sb i (tmp + sum_cost l).
  Proof.
    split.
    - revert tmp s. induction cs as [|c cs IH]; simpl; intros tmp s H.
      + inversion H; subst. exists [], [], [], s. repeat split; auto.
        * constructor.
        * left. auto.
        * simpl. f_equal. lia.
      + destruct (ex c s) as [r1 s1| |] eqn:He; try discriminate.
        destruct (decide (r1 = SUCCESS)) as [->|Hn].
        * apply IH in H. destruct H as (done & rest & l & sb & -> & Hc & Hf & ->).
          exists (c :: done), rest, ((SUCCESS, cost_of s1 c) :: l), sb. repeat split; auto.
          -- econstructor; eauto.
          -- destruct Hf as [(-> & Hf & ->)|(l0 & z & -> & Hf & Hr)].
             ++ left. auto.
             ++ right. exists ((SUCCESS, cost_of s1 c) :: l0), z. auto.
          -- simpl. f_equal. lia.
        * inversion H; subst. exists [c], cs, [(r, cost_of s1 c)], s1. repeat split; auto.
          -- econstructor; eauto. constructor.
          -- right. exists [], (cost_of s1 c). auto.
          -- simpl. f_equal. lia.
    - intros (done & rest & l & sb & -> & Hc & Hf & ->). revert tmp. 
      revert Hf. induction Hc as [s|c cs s r1 s1 l s' He Hc IH]; intros Hf tmp.
      + destruct Hf as [(-> & _ & ->)|(l0 & z & E & _)].
        * simpl. f_equal. f_equal. lia.
        * destruct l0; discriminate.
      + simpl. rewrite He.
        destruct Hf as [(-> & Hf & ->)|(l0 & z & E & Hf & Hr)].
        * inversion Hf; subst. simpl in *. subst. rewrite decide_True by auto.
          rewrite IH by (left; auto). f_equal. f_equal. lia.
        * destruct l0 as [|p l0].
          -- inversion E; subst. rewrite decide_False by auto.
             inversion Hc; subst. f_equal. f_equal. simpl. lia.
          -- inversion E; subst. inversion Hf; subst. simpl in *. subst. rewrite decide_True by auto.
             rewrite IH by (right; eauto). f_equal. f_equal. lia.
  Qed.

  Lemma prio_loop_iff i cs s r s' :
    prio_loop ex i cs s = Ret r s' <->
    exists done rest l, cs = done ++ rest /\ chain ex (add_cost i) done s l s' /\
      first_stop FAILURE FAILURE rest l r.
  Proof.
    split.
    - revert s. induction cs as [|c cs IH]; simpl; intros s H.
      + inversion H; subst. exists [], [], []. repeat split; auto; [constructor|left; auto].
      + destruct (ex c s) as [r1 s1| |] eqn:He; try discriminate.
        destruct (decide (r1 = FAILURE)) as [->|Hn].
        * apply IH in H. destruct H as (done & rest & l & -> & Hc & Hf).
          exists (c :: done), rest, ((FAILURE, cost_of s1 c) :: l). repeat split; auto.
          -- econstructor; eauto.
          -- destruct Hf as [(-> & Hf & ->)|(l0 & z & -> & Hf & Hr)].
             ++ left. auto.
             ++ right. exists ((FAILURE, cost_of s1 c) :: l0), z. auto.
        * inversion H; subst. exists [c], cs, [(r, cost_of s1 c)]. repeat split; auto.
          -- econstructor; eauto. constructor.
          -- right. exists [], (cost_of s1 c). auto.
    - intros (done & rest & l & -> & Hc & Hf).
      revert Hf. induction Hc as [s|c cs s r1 s1 l s' He Hc IH]; intros Hf.
      + destruct Hf as [(-> & _ & ->)|(l0 & z & E & _)]; [auto|destruct l0; discriminate].
      + simpl. rewrite He.
        destruct Hf as [(-> & Hf & ->)|(l0 & z & E & Hf & Hr)].
        * inversion Hf; subst. simpl in *. subst. rewrite decide_True by auto.
          apply IH. left; auto.
        * destruct l0 as [|p l0].
          -- inversion E; subst. rewrite decide_False by auto. inversion Hc; subst. reflexivity.
          -- inversion E; subst. inversion Hf; subst. simpl in *. subst. rewrite decide_True by auto.
             apply IH. right; eauto.
  Qed.

  Lemma or_loop_iff i cs acc s r s' :
    or_loop ex i cs acc s = Ret r s' <->
    exists l, chain ex (add_cost i) cs s l s' /\
      r = if decide (Forall (fun p => fst p = FAILURE) l) then acc else SUCCESS.
  Proof.
    split.
    - revert acc s. induction cs as [|c cs IH]; simpl; intros acc s H.
      + inversion H; subst. exists []. split; [constructor|]. rewrite decide_True; auto.
      + destruct (ex c s) as [r1 s1| |] eqn:He; try discriminate.
        apply IH in H. destruct H as (l & Hc & ->).
        exists ((r1, cost_of s1 c) :: l). split; [econstructor; eauto|].
        destruct (decide (Forall (fun p => fst p = FAILURE) l)) as [Hl|Hl].
        * destruct (decide (r1 = FAILURE)) as [->|Hr].
          -- rewrite decide_True; auto.
          -- rewrite decide_False; [auto|]. inversion 1; auto.
        * rewrite decide_False; [auto|]. inversion 1; auto.
    - intros (l & Hc & ->). revert acc.
      induction Hc as [s|c cs s r1 s1 l s' He Hc IH]; intros acc; [rewrite decide_True; auto|].
      simpl. rewrite He. change (set_cost s1 i (n_cost (stat s1 i) + cost_of s1 c)) with (add_cost i c s1).
      rewrite IH.
      destruct (decide (Forall (fun p => fst p = FAILURE) l)) as [Hl|Hl].
      + destruct (decide (r1 = FAILURE)) as [->|Hr].
        * rewrite decide_True; auto.
        * rewrite decide_False; [auto|]. inversion 1; auto.
      + rewrite decide_False; [auto|]. inversion 1; auto.
  Qed.

  (** number of completed "again" iterations recorded in l *)
  Lemma rep_loop_iff id c ag m k i last s r s' :
    (m < 0)%Z \/ k = Z.to_nat (m - i) ->
    rep_loop C ex id c ag m k i last s = Ret r s' <->
    ((0 <= m)%Z /\ k = 0 /\ last = Some r /\ s' = nset C s id "i" (VInt i)) \/
    (exists l0 z sb, chain ex keep_state (replicate (S (length l0)) c) s (l0 ++ [(r, z)]) sb /\
       Forall (fun p => ag (fst p) = true) l0 /\ S (length l0) <= k /\
       ((ag r = false /\ s' = nset C sb id "i" (VInt (i + Z.of_nat (length l0)))) \/
        ((0 <= m)%Z /\ ag r = true /\ S (length l0) = k /\ s' = nset C sb id "i" (VInt (i + Z.of_nat (length l0) + 1))))).
  Proof.
    revert i last s. induction k as [|k IH]; intros i last s Hk.
    - simpl. destruct (m <? 0)%Z eqn:Em.
      + split; [discriminate|]. intros [(H & _)|(l0 & z & sb & _ & _ & H & _)]; lia.
      + split.
        * destruct last; [|discriminate]. intros H. inversion H; subst. left. split; [lia|]. auto.
        * intros [(H & _ & -> & ->)|(l0 & z & sb & _ & _ & H & _)]; [auto|lia].
    - simpl.
      assert (Hb : ((m <? 0)%Z || (i <? m)%Z) = true) by lia.
      rewrite Hb. 
      assert (Hk' : (m < 0)%Z \/ k = Z.to_nat (m - (i + 1))) by lia.
      split.
      + destruct (ex c s) as [r1 s1| |] eqn:He; try discriminate.
        destruct (ag r1) eqn:Ha.
        * intros H. apply (IH _ _ _ Hk') in H. right.
          destruct H as [(H1 & -> & E & ->)|(l0 & z & sb & Hc & Hf & Hl & Hd)].
          -- inversion E; subst. exists [], (cost_of s1 c), s1. simpl. split; [|split; [auto|split; [lia|]]].
             ++ econstructor; eauto. constructor.
             ++ right. repeat split; auto. f_equal. f_equal. lia.
          -- exists ((r1, cost_of s1 c) :: l0), z, sb. simpl. split; [|split; [auto|split; [lia|]]].
             ++ econstructor; eauto.
             ++ destruct Hd as [(Hr & ->)|(Hm & Hr & Hkk & ->)]; [left|right]; repeat split; auto; f_equal; f_equal; lia.
        * intros H. inversion H; subst. right. exists [], (cost_of s1 c), s1. simpl.
          split; [|split; [auto|split; [lia|]]].
          -- econstructor; eauto. constructor.
          -- left. split; auto. f_equal. f_equal. lia.
      + intros [(_ & H & _)|(l0 & z & sb & Hc & Hf & Hl & Hd)]; [lia|].
        destruct l0 as [|p l0]; simpl in Hc.
        * inversion Hc as [|c' cs' s0 r0 s1 l' s0' He Hc' E1 E2 E3 E4]; subst. inversion Hc'; subst.
          rewrite He. destruct Hd as [(Hr & ->)|(Hm & Hr & Hkk & ->)]; rewrite Hr.
          -- f_equal. f_equal. f_equal. simpl. lia.
          -- apply (IH _ _ _ Hk'). left. simpl in Hkk. repeat split; auto; [lia|]. f_equal. f_equal. simpl. lia.
        * inversion Hc as [|c' cs' s0 r0 s1 l' s0' He Hc' E1 E2 E3 E4]; subst.
          rewrite He. inversion Hf as [|? ? Hp Hf']; subst. simpl in Hp. rewrite Hp.
          apply (IH _ _ _ Hk'). right. exists l0, z, sb. simpl in Hl. split; [exact Hc'|].
          split; [auto|split; [lia|]].
          destruct Hd as [(Hr & ->)|(Hm & Hr & Hkk & ->)]; [left|right]; repeat split; auto; simpl in *; try lia;
            f_equal; f_equal; lia.
  Qed.
  End L.

  (** ** Epilogue returns the status it is given *)
  Lemma epilogue_status i r sb r' s' : epilogue C i r sb = Ret r' s' -> r' = r.
  Proof. intros H. apply epilogue_inv in H. tauto. Qed.

  Lemma exec_body_iff fuel n s r s' :
    exec C fuel n s = Ret r s' <->
    exists sb, (match n with
      | NLeaf k id => leaf_tick C k id (prologue C n s)
      | NComp k id cs => comp_tick (exec C fuel) k id cs (prologue C n s)
      | NDec k id co => dec_tick C fuel (exec C fuel) k id co (prologue C n s)
      end) = Ret r sb /\ epilogue C (nid n) r sb = Ret r s'.
  Proof.
    rewrite exec_unfold. split.
    - destruct (match n with NLeaf _ _ => _ | NComp _ _ _ => _ | NDec _ _ _ => _ end) as [r1 sb| |]; try discriminate.
      intros H. pose proof (epilogue_status _ _ _ _ _ H). subst. eauto.
    - intros (sb & -> & H). exact H.
  Qed.

  Lemma sequence_iff fuel id cs s r s' :
    exec C fuel (NComp CSequence id cs) s = Ret r s' <->
    exists done rest l sb, cs = done ++ rest /\
      chain (exec C fuel) keep_state done (prologue C (NComp CSequence id cs) s) l sb /\
      first_stop SUCCESS SUCCESS rest l r /\
      epilogue C id r (set_cost sb id (sum_cost l)) = Ret r s'.
  Proof.
    rewrite exec_body_iff. simpl. split.
    - intros (sb & H & He). apply seq_loop_iff in H. destruct H as (d & re & l & sb' & Hcs & Hc & Hf & ->).
      exists d, re, l, sb'. auto.
    - intros (d & re & l & sb & Hcs & Hc & Hf & He). eexists. split; [|exact He].
      apply seq_loop_iff. exists d, re, l, sb. auto.
  Qed.

  Lemma priority_iff fuel id cs s r s' :
    exec C fuel (NComp CPriority id cs) s = Ret r s' <->
    exists done rest l sb, cs = done ++ rest /\
      chain (exec C fuel) (add_cost id) done (set_cost (prologue C (NComp CPriority id cs) s) id 0) l sb /\
      first_stop FAILURE FAILURE rest l r /\
      epilogue C id r sb = Ret r s'.
  Proof.
    rewrite exec_body_iff. simpl. split.
    - intros (sb & H & He). apply prio_loop_iff in H. destruct H as (d & re & l & Hcs & Hc & Hf).
      exists d, re, l, sb. auto.
    - intros (d & re & l & sb & Hcs & Hc & Hf & He). exists sb. split; [|exact He].
      apply prio_loop_iff. exists d, re, l. auto.
  Qed.

  Lemma ornode_iff fuel id cs s r s' :
    exec C fuel (NComp COrNode id cs) s = Ret r s' <->
    exists l sb,
      chain (exec C fuel) (add_cost id) cs (set_cost (prologue C (NComp COrNode id cs) s) id 0) l sb /\
      r = (if decide (Forall (fun p => fst p = FAILURE) l) then FAILURE else SUCCESS) /\
      epilogue C id r sb = Ret r s'.
  Proof.
    rewrite exec_body_iff. simpl. split.
    - intros (sb & H & He). apply or_loop_iff in H. destruct H as (l & Hc & Hr).
      exists l, sb. auto.
    - intros (l & sb & Hc & Hf & He). exists sb. split; [|exact He].
      apply or_loop_iff. exists l. auto.
  Qed.

  Lemma inverter_iff fuel id c s r s' :
    exec C fuel (NDec DInverter id (Some c)) s = Ret r s' <->
    exists r1 sb, exec C fuel c (prologue C (NDec DInverter id (Some c)) s) = Ret r1 sb /\
      r = invert r1 /\ epilogue C id r sb = Ret r s'.
  Proof.
    rewrite exec_body_iff. simpl. split.
    - intros (sb & H & He). destruct (exec C fuel c _) as [r1 s1| |] eqn:Hx; inversion H; subst. eauto.
    - intros (r1 & sb & Hx & -> & He). exists sb. rewrite Hx. auto.
  Qed.

  (** A freshly opened loop decorator starts counting at zero. *)
  Lemma is_open_enter s i : is_open C (do_enter s i) i = is_open C s i.
  Proof. reflexivity. Qed.
  Lemma fresh_i k id c s :
    (match k with DInverter | DMaxTime _ => False | _ => True end) ->
    is_open C s id = false ->
    nget C (prologue C (NDec k id c) s) id "i" = VInt 0.
  Proof.
    intros Hk Ho. unfold prologue, do_open. simpl nid. rewrite is_open_enter, Ho.
    destruct k; try contradiction; simpl open_hook;
      match goal with |- nget C (count_tick ?x _) _ _ = _ => change (nget C x id "i" = VInt 0) end;
      rewrite nget_nset, decide_True; auto.
  Qed.
  Lemma resumed_i k id c s :
    is_open C s id = true ->
    nget C (prologue C (NDec k id c) s) id "i" = nget C s id "i".
  Proof.
    intros Ho. unfold prologue, do_open. simpl nid. rewrite is_open_enter, Ho. reflexivity.
  Qed.

  Definition loop_again (k : dkind) : option (Z * (status -> bool) * option status) :=
    match k with
    | DRepeater m => Some (m, again_rep, Some SUCCESS)
    | DRepeatUntilSuccess m => Some (m, again_rus, None)
    | DRepeatUntilFailure m => Some (m, again_ruf, None)
    | _ => None
    end.

  Lemma loop_dec_iff fuel k id c m ag last0 i s r s' :
    loop_again k = Some (m, ag, last0) ->
    nget C (prologue C (NDec k id (Some c)) s) id "i" = VInt i ->
    exec C fuel (NDec k id (Some c)) s = Ret r s' <->
    exists sb, rep_loop C (exec C fuel) id c ag m (rep_fuel fuel m i) i last0 (prologue C (NDec k id (Some c)) s) = Ret r sb
       /\ epilogue C id r sb = Ret r s'.
  Proof.
    intros Hk Hi. rewrite exec_body_iff. 
    destruct k; inversion Hk; subst; cbn [dec_tick nid]; rewrite Hi; reflexivity.
  Qed.

  Lemma rep_fuel_ok fuel m i : (m < 0)%Z \/ rep_fuel fuel m i = Z.to_nat (m - i).
  Proof. unfold rep_fuel. destruct (m <? 0)%Z eqn:E; [left|right]; lia. Qed.

  (** main characterisation of the three loop decorators with remaining budget *)
  Lemma loop_dec_stop fuel k id c m ag last0 i s r s' :
    loop_again k = Some (m, ag, last0) ->
    nget C (prologue C (NDec k id (Some c)) s) id "i" = VInt i -> (i < m)%Z -> (0 <= i)%Z ->
    exec C fuel (NDec k id (Some c)) s = Ret r s' <->
    exists l sb, chain (exec C fuel) keep_state (replicate (length l) c) (prologue C (NDec k id (Some c)) s) l sb /\
      loop_stop ag (Z.to_nat (m - i)) l r /\
      epilogue C id r (nset C sb id "i" (VInt (i + Z.of_nat (length (filter (fun p => ag (fst p) = true) l))))) = Ret r s'.
  Proof.
    intros Hk Hi Him H0. rewrite loop_dec_iff by eauto.
    assert (Hlen : forall l0 : list (status * Z), Forall (fun p => ag (fst p) = true) l0 ->
       length (filter (fun p => ag (fst p) = true) l0) = length l0).
    { induction 1 as [|p l0 Hp Hl IH]; [auto|]. rewrite filter_cons, decide_True by auto. simpl. lia. }
    assert (Hf : rep_fuel fuel m i = Z.to_nat (m - i)) by (unfold rep_fuel; destruct (m <? 0)%Z eqn:E; lia).
    split.
    - intros (sb & H & He). apply rep_loop_iff in H; [|rewrite Hf; auto]. rewrite Hf in H.
      destruct H as [(_ & Hz & _)|(l0 & z & sb' & Hc & Hfa & Hl & Hd)]; [lia|].
      exists (l0 ++ [(r, z)]), sb'. rewrite app_length; simpl. rewrite Nat.add_1_r.
      split; [exact Hc|]. split.
      + exists l0, z. rewrite app_length; simpl. split; [auto|]. split; [auto|]. split; [lia|].
        destruct Hd as [(Hr & _)|(_ & _ & Hr & _)]; [auto|right; lia].
      + rewrite filter_app, app_length, (Hlen _ Hfa), filter_cons. simpl.
        destruct Hd as [(Hr & E)|(_ & Hr & _ & E)]; subst sb; rewrite Hr; simpl;
          match goal with |- epilogue _ _ _ (nset _ _ _ _ (VInt ?a)) = _ =>
            match type of He with epilogue _ _ _ (nset _ _ _ _ (VInt ?b)) = _ => replace a with b by lia end end; exact He.
    - intros (l & sb & Hc & (l0 & z & -> & Hfa & Hl & Hr) & He).
      eexists. split; [|exact He]. apply rep_loop_iff; [rewrite Hf; auto|]. rewrite Hf. right.
      rewrite app_length in *; simpl in *. rewrite Nat.add_1_r in *.
      exists l0, z, sb. split; [exact Hc|]. split; [auto|]. split; [lia|].
      rewrite filter_app, app_length, (Hlen _ Hfa), filter_cons. simpl.
      destruct (ag r) eqn:Er; simpl.
      + right. repeat split; auto; [lia|lia|]. f_equal. f_equal. lia.
      + left. split; auto. f_equal. f_equal. lia.
  Qed.

  Lemma loop_dec_zero fuel k id c m ag last0 i s :
    loop_again k = Some (m, ag, last0) ->
    nget C (prologue C (NDec k id (Some c)) s) id "i" = VInt i -> (m <= i)%Z -> (0 <= m)%Z ->
    exec C fuel (NDec k id (Some c)) s = 
      match last0 with
      | Some r => epilogue C id r (nset C (prologue C (NDec k id (Some c)) s) id "i" (VInt i))
      | None => Raise UnboundLocalError (nset C (prologue C (NDec k id (Some c)) s) id "i" (VInt i))
      end.
  Proof.
    intros Hk Hi Hm H0. rewrite exec_unfold.
    assert (Hf : rep_fuel fuel m i = 0) by (unfold rep_fuel; destruct (m <? 0)%Z eqn:E; lia).
    assert (Hm0 : (m <? 0)%Z = false) by lia.
    destruct k; inversion Hk; subst; cbn [dec_tick nid]; rewrite Hi, Hf; simpl; rewrite Hm0; reflexivity.
  Qed.

  Lemma loop_dec_unbounded fuel k id c m ag last0 i s r s' :
    loop_again k = Some (m, ag, last0) ->
    nget C (prologue C (NDec k id (Some c)) s) id "i" = VInt i -> (m < 0)%Z ->
    exec C fuel (NDec k id (Some c)) s = Ret r s' ->
    exists l0 z sb, chain (exec C fuel) keep_state (replicate (S (length l0)) c) (prologue C (NDec k id (Some c)) s) (l0 ++ [(r,z)]) sb /\
      Forall (fun p => ag (fst p) = true) l0 /\ ag r = false /\
      epilogue C id r (nset C sb id "i" (VInt (i + Z.of_nat (length l0)))) = Ret r s'.
  Proof.
    intros Hk Hi Hm. rewrite loop_dec_iff by eauto. intros (sb & H & He).
    apply rep_loop_iff in H; [|auto]. destruct H as [(? & _)|(l0 & z & sb' & Hc & Hfa & Hl & Hd)]; [lia|].
    destruct Hd as [(Hr & ->)|(? & _)]; [|lia]. exists l0, z, sb'. auto.
  Qed.

  (** ** Costs *)
  Definition tc_safe : Prop :=
    forall i w m, snd (c_leaf C i w m) !! "TotalCost" = m !! "TotalCost".

  Lemma exec_total_cost fuel n s r s' :
    tc_safe -> exec C fuel n s = Ret r s' ->
    forall z, bb_base (s_bb s) !! "TotalCost" = Some (VInt z) ->
    exists tr, s_trace s' = s_trace s ++ tr /\ bb_base (s_bb s') !! "TotalCost" = Some (VInt (z + cost_sum tr)).
  Proof.
    intros Hs. revert n s r s'.
    apply (exec_ind_gen C fuel (fun n s r s' => forall z, bb_base (s_bb s) !! "TotalCost" = Some (VInt z) ->
      exists tr, s_trace s' = s_trace s ++ tr /\ bb_base (s_bb s') !! "TotalCost" = Some (VInt (z + cost_sum tr)))).
    intros n s r sb s' Hb He z Hz.
    assert (HB : forall z, bb_base (s_bb (prologue C n s)) !! "TotalCost" = Some (VInt z) ->
       exists tr, s_trace sb = s_trace (prologue C n s) ++ tr /\ bb_base (s_bb sb) !! "TotalCost" = Some (VInt (z + cost_sum tr))).
    { clear z Hz He. induction Hb as [s1|c r1 s1 s2 s3 Hin [Hp _] Hb IH|s1 s2 s3 Hso Hb IH]; intros z Hz.
      - exists []. rewrite app_nil_r. split; auto. rewrite Hz. do 2 f_equal. simpl. lia.
      - destruct (Hp _ Hz) as (t1 & e1 & z1). destruct (IH _ z1) as (t2 & e2 & z2).
        exists (t1 ++ t2). split; [rewrite e2, e1, app_assoc; auto|]. rewrite z2, cost_sum_app. do 2 f_equal. lia.
      - assert (s_trace s2 = s_trace s1) as E1 by (destruct Hso; reflexivity).
        assert (bb_base (s_bb s2) !! "TotalCost" = bb_base (s_bb s1) !! "TotalCost") as E2.
        { destruct Hso as [| | |s0 r0 w m Hch Hleaf]; try reflexivity. simpl.
          specialize (Hs (nid n) (s_world s0) (bb_base (s_bb s0))). rewrite Hleaf in Hs. exact Hs. }
        rewrite <- E2 in Hz. destruct (IH _ Hz) as (t2 & e2 & z2). exists t2. split; [congruence|auto]. }
    rewrite <- (pro_base C n) in Hz. destruct (HB _ Hz) as (tr & Et & Ez).
    apply epilogue_inv in He. destruct He as (_ & z1 & Hz1 & Etr & Ebase & _). cbn zeta in *.
    exists (tr ++ [Ev (nid n) r (n_cost (stat sb (nid n)))]).
    split; [rewrite Etr, Et, pro_trace, app_assoc; auto|].
    rewrite Ebase, lookup_insert, cost_sum_app. rewrite Ez in Hz1. inversion Hz1. do 2 f_equal. simpl. lia.
  Qed.
End Sem.
