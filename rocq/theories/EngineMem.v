(** The MemSequence / MemPriority algorithm as it would run if [xrange] existed (proofs). *)
From stdpp Require Import base strings gmap list.
From Coq Require Import ZArith Lia.
From Verif Require Import BB BBFacts Engine EngineSpec EngineFacts EngineInv EngineSem EngineTerm EngineTotal EngineObs EngineHist.

Section Mem.
  Context {W : Type} (C : cfg W).
  Notation st := (st W).

  Lemma mem_exec_from fuel k keep id cs i s r s' :
    keep <> RUNNING -> (forall c, In c cs -> id ∉ ids c) ->
    nget C (prologue C (NComp k id cs) s) id "running_child" = VInt (Z.of_nat i) ->
    mem_exec C fuel k keep id cs s = Ret r s' ->
    exists done rest l sb z, drop i cs = done ++ rest /\ runs C (exec C fuel) id done s l sb /\
      first_stop keep keep rest l r /\ closes C id r z sb s' /\
      (r = RUNNING -> done <> [] /\ nget C s' id "running_child" = VInt (Z.of_nat (i + length done - 1)) /\
                      nget C s' id "is_open" = VBool true).
  Proof.
    intros Hk Hni Hi. unfold mem_exec. rewrite Hi, Nat2Z.id.
    destruct (mem_loop _ _ _ _ _ _ _) as [r1 sb| |] eqn:El; try discriminate.
    intros He. pose proof (epilogue_status _ _ _ _ _ _ He). subst r1.
    apply mem_loop_inv in El; auto.
    2:{ intros c Hc. apply Hni. rewrite <- (firstn_skipn i cs). apply in_or_app. right. exact Hc. }
    destruct El as (d & re & l & Hcs & Hru & Hfs & Hrc & Hop).
    exists d, re, l, sb. eexists. split; [auto|]. split; [eapply runs_own_l; [apply (own_pro C (NComp k id cs))|exact Hru]|].
    split; [auto|]. split; [eapply epilogue_closes; exact He|].
    intros ->. destruct (Hrc eq_refl) as [A B]. split; auto.
    apply epilogue_inv in He. destruct He as (_ & z & _ & _ & _ & _ & _ & _ & _ & _ & _ & _ & _ & Eg).
    rewrite !Eg, !decide_False by naive_solver. split; [auto|]. rewrite Hop. apply (pro_is_open C (NComp k id cs)).
  Qed.

  Lemma mem_resume fuel k keep id cs s s1 :
    (k = CMemSequence \/ k = CMemPriority) -> keep <> RUNNING -> (forall c, In c cs -> id ∉ ids c) ->
    is_open C s id = false ->
    mem_exec C fuel k keep id cs s = Ret RUNNING s1 ->
    exists d c rest l sb, cs = d ++ c :: rest /\ runs C (exec C fuel) id (d ++ [c]) s l sb /\
      first_stop keep keep rest l RUNNING /\
      forall s2 r s3, (forall kk, nget C s2 id kk = nget C s1 id kk) ->
        mem_exec C fuel k keep id cs s2 = Ret r s3 ->
        exists done2 rest2 l2 sb2, c :: rest = done2 ++ rest2 /\ runs C (exec C fuel) id done2 s2 l2 sb2 /\
          first_stop keep keep rest2 l2 r.
  Proof.
    intros Hk Hkeep Hni Ho Hx.
    assert (H0 : nget C (prologue C (NComp k id cs) s) id "running_child" = VInt (Z.of_nat 0)).
    { unfold prologue, do_open. simpl nid. rewrite is_open_enter, Ho.
      destruct Hk as [->| ->]; simpl open_hook;
        match goal with |- nget C (count_tick ?x _) _ _ = _ => change (nget C x id "running_child" = VInt (Z.of_nat 0)) end;
        rewrite nget_nset, decide_True; auto. }
    destruct (mem_exec_from fuel k keep id cs 0 s RUNNING s1 Hkeep Hni H0 Hx) as (dn & re & l & sb & z & Hcs & Hru & Hfs & _ & Hr).
    destruct (Hr eq_refl) as (Hne & Hrc & Hop).
    destruct (exists_last Hne) as (d & c & ->). rewrite drop_0 in Hcs.
    exists d, c, re, l, sb. split; [rewrite Hcs, <- app_assoc; reflexivity|]. split; [auto|]. split; [auto|].
    intros s2 r s3 Hsame Hx2. rewrite app_length in Hrc. simpl in Hrc.
    assert (Hop2 : is_open C s2 id = true) by (unfold is_open; rewrite Hsame, Hop; reflexivity).
    assert (H2 : nget C (prologue C (NComp k id cs) s2) id "running_child" = VInt (Z.of_nat (length d))).
    { unfold prologue, do_open. simpl nid. rewrite is_open_enter, Hop2.
      match goal with |- nget C (count_tick ?x _) _ _ = _ => change (nget C s2 id "running_child" = VInt (Z.of_nat (length d))) end.
      rewrite Hsame, Hrc. f_equal. lia. }
    destruct (mem_exec_from fuel k keep id cs _ s2 r s3 Hkeep Hni H2 Hx2) as (d2 & re2 & l2 & sb2 & z2 & Hcs2 & Hru2 & Hfs2 & _).
    exists d2, re2, l2, sb2. split; [|auto]. rewrite <- Hcs2, Hcs, <- app_assoc, drop_app. reflexivity.
  Qed.
End Mem.
