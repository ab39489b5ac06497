(** The hypotheses of C65 are met: a format of two pieces, and three processes. *)
From Coq Require Import Reals ZArith List String Bool Arith Lia.
From Verif Require Import Expr Kin Cache PropCache CacheConc PropConc.
Import ListNotations.
Local Open Scope string_scope.
Local Open Scope list_scope.
Local Open Scope nat_scope.

Notation mechN := (@mech nat nat).
Inductive piece := PM (m : mechN) | PU (u : nat) | PZ.
Definition dump2 (o : mechN * nat) : list piece := [PM (fst o); PU (snd o)].
Definition parse2 (l : list piece) : option (mechN * nat) := match l with PM m :: PU u :: _ => Some (m, u) | _ => None end.
Example codec2 : codec_ok dump2 parse2.
Proof. split; [intros [m u] rest; reflexivity| |discriminate]. intros o [|[|k]] H; cbn in *; auto; lia. Qed.
Example codec2_zeros o : zeros_detected PZ dump2 parse2 o.
Proof.
  intros l o' Nr H. destruct l as [|[m|u|] [|[m'|u'|] l]]; try discriminate. injection H as <-.
  destruct (Nr 0 _ eq_refl) as [A|[A _]]; [|discriminate]. destruct (Nr 1 _ eq_refl) as [A'|[A' _]]; [|discriminate]. cbn in *. destruct o. cbn in *. congruence.
Qed.
Definition nice0 (e : expr) : bool := true.
Definition fk0 (dh : list (dhrow expr)) (v u : nat) : option (nat * nat) := Some (List.length dh + v, u).
Definition row0 : dhrow expr := DH (Num 0%Z) (Num 0%Z) (Num 0%Z) (Sym "th_1").
(** one definition for everybody *)
Definition req1 (p : nat) : @request nat nat := Req "R" [row0] ["l_1"] [] 5 7.
(** process 1 has other parameters and unknowns *)
Definition req2 (p : nat) : @request nat nat := if p =? 1 then Req "R" [row0] ["l_2"] [] 5 8 else Req "R" [row0] ["l_1"] [] 5 7.
Definition o1 : mechN * nat := (Mech [row0] ["l_1"] [] 5 6, 7).
Definition o2 : mechN * nat := (Mech [row0] ["l_2"] [] 5 6, 8).
Definition all (p : nat) : bool := true.
Example one_def : one_definition nice0 fk0 req1 "R" o1.
Proof. intros p _. reflexivity. Qed.
Notation playN r := (play nice0 fk0 PZ dump2 parse2 r all).
(** process 1 reads the file while process 0 writes it, in step: calm, and served *)
Definition sched1 : list action := [Step 0 0; Step 0 0; Step 0 0; Step 0 0; Step 0 0; Step 1 0; Step 1 0; Step 1 0; Step 1 0; Step 0 0; Step 1 0; Step 0 0].
Example sched1_served : w_proc (playN req2 sched1 (cold true)) 0 = Ended (CServed (View (fst o1) 7 "R" ["l_1"]) false)
  /\ w_proc (playN req2 sched1 (cold true)) 1 = Ended (CServed (View (fst o1) 7 "R" ["l_2"]) true).
Proof. split; vm_compute; reflexivity. Qed.
(** splitting a list in all ways *)
Fixpoint splits {A} (pre l : list A) : list (list A * A * list A) := match l with [] => [] | a :: t => (pre, a, t) :: splits (pre ++ [a]) t end.
Lemma splits_ok {A} (l : list A) : forall pre h a t, l = h ++ a :: t -> In (pre ++ h, a, t) (splits pre l).
Proof.
  induction l as [|x l IH]; intros pre [|y h] a t H; try discriminate; cbn [app splits] in *; injection H as -> H.
  - left. rewrite app_nil_r. congruence.
  - right. specialize (IH (pre ++ [y]) h a t H). rewrite <- app_assoc in IH. exact IH.
Qed.
(** a schedule in which every opening for writing finds no file is calm *)
Definition fresh_opens (r : nat -> @request nat nat) (sched : list action) : bool :=
  forallb (fun x => match x with (h, Step p n, _) => match w_proc (playN r h (cold true)) p with OpenW _ => match w_name (playN r h (cold true)) (q_name (r p)) with None => true | _ => false end | _ => true end | _ => true end) (splits [] sched).
Lemma fresh_opens_calm r sched : fresh_opens r sched = true -> calm nice0 fk0 PZ dump2 parse2 r all (cold true) sched.
Proof.
  unfold fresh_opens. rewrite forallb_forall. intros H h p n t o j E Po Pn. specialize (H _ (splits_ok _ [] h (Step p n) t E)). cbn [app] in H. rewrite Po, Pn in H. discriminate.
Qed.
Example sched1_calm : calm nice0 fk0 PZ dump2 parse2 req2 all (cold true) sched1.
Proof. apply fresh_opens_calm. vm_compute. reflexivity. Qed.
Example sched1_result : exists p0, result_of nice0 fk0 req2 all p0 1 (View (fst o1) 7 "R" ["l_2"]).
Proof.
  destruct (C65_served nice0 fk0 PZ dump2 parse2 req2 all codec2 true sched1 1 _ true sched1_calm (proj2 sched1_served)) as [[X _]|[_ X]]; [discriminate|exact X].
Qed.
(** all three served at the end with one definition, although processes 0 and 1 wrote at the same time; then process 2 starts *)
Definition sched2 : list action := [Step 0 0; Step 1 0; Step 0 0; Step 1 0; Step 0 0; Step 1 0; Step 0 0; Step 0 0; Step 1 0; Step 0 0; Step 1 0; Step 0 0; Step 1 0; Step 1 0].
Example sched2_after : w_proc (playN req1 (sched2 ++ repeat (Step 2 0) 6) (cold true)) 2 = Ended (from_file req1 all 2 o1).
Proof.
  apply (C65_after nice0 fk0 PZ dump2 parse2 req1 all codec2 true sched2 (repeat (Step 2 0) 6) "R" o1 2 one_def).
  - intros p H. cbn in H. repeat (destruct H as [H|H]; [discriminate|]). destruct H.
  - intros [|[|q]]; [right|right|left]; [eexists; vm_compute; reflexivity|eexists; vm_compute; reflexivity|].
    unfold sched2. cbn [CacheConc.play fold_left CacheConc.act]. vm_compute. reflexivity.
  - vm_compute. reflexivity.
  - vm_compute. discriminate.
  - intros H. cbn in H. repeat (destruct H as [H|H]; [discriminate|]). destruct H.
  - reflexivity.
  - vm_compute. reflexivity.
  - intros H. cbn in H. repeat (destruct H as [H|H]; [discriminate|]). destruct H.
  - cbn. lia.
Qed.
(** two definitions written at the same time: process 2 is served the mechanism of one with the unknowns of the other, which no process
    computed, although it checks *)
Theorem C65_mixed_example_refuted : exists sched v, w_proc (playN req2 sched (cold true)) 2 = Ended (CServed v true)
  /\ forall p, compute nice0 fk0 (req2 p) <> Some (v_mech v, v_unks v).
Proof.
  destruct (C65_mixed_refuted nice0 fk0 PZ dump2 parse2 req2 all "R" eq_refl eq_refl eq_refl o1 o2 0 (fst o1, snd o2)) as (sched & _ & E); try reflexivity; try (cbn; lia).
  eexists sched, _. split. exact E. intros p. unfold req2. destruct (p =? 1); vm_compute; discriminate.
Qed.
Print Assumptions C65_mixed_example_refuted.
