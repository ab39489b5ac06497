(** C20, C21, C25, C26, C27: the bookkeeping leaves. *)
From Coq Require Import Reals ZArith List String Bool Arith Lia Permutation Sorted.
From Verif Require Import Expr Kin KinSpec Trig Solver SolverSpec SolverFacts SolverInv.
Import ListNotations.
Local Open Scope string_scope.
Local Open Scope nat_scope.
Local Open Scope list_scope.

(** * C20 assigner *)
(** The current unknown after [S k] ticks of the assigner with nothing else happening in between. *)
Fixpoint ticks (k : nat) (s : state) : option state :=
  match k with
  | O => Some s
  | S k' => match assigner s with OK true s1 => ticks k' s1 | _ => None end
  end.
Definition unsolved (s : state) (i : nat) : Prop := u_solved (getu (s_heap s) i) = false.

Lemma skipn_skipn {A} x y (l : list A) : skipn x (skipn y l) = skipn (x + y) l.
Proof.
  revert l. induction y; intros l. { rewrite Nat.add_0_r. auto. } rewrite Nat.add_succ_r. destruct l; simpl; auto. apply skipn_nil.
Qed.
Lemma skipn_past {A} (l1 : list A) x l2 : skipn (S (List.length l1)) (l1 ++ x :: l2) = l2.
Proof. induction l1; simpl in *; auto. Qed.
Lemma asgn_scan_some h ids c i c' : asgn_scan h ids c = Some (i, c') ->
  exists l1 l2, ids = l1 ++ i :: l2 /\ (forall j, In j l1 -> u_solved (getu h j) = true) /\ u_solved (getu h i) = false /\ c' = c + S (List.length l1).
Proof.
  revert c. induction ids as [|j ids IH]; simpl; [discriminate|]. intros c. destruct (u_solved (getu h j)) eqn:E.
  - intros H. destruct (IH _ H) as (l1 & l2 & -> & H1 & H2 & ->). exists (j :: l1), l2. repeat split; auto.
    + intros j' [<-|?]; auto.
    + simpl. lia.
  - intros H. injection H as <- <-. exists [], ids. repeat split; auto; simpl; try tauto; try lia.
Qed.
Lemma asgn_scan_none h ids c : asgn_scan h ids c = None -> forall j, In j ids -> u_solved (getu h j) = true.
Proof.
  revert c. induction ids as [|j ids IH]; simpl; [tauto|]. intros c. destruct (u_solved (getu h j)) eqn:E; [|discriminate].
  intros H j' [<-|?]; eauto.
Qed.

(** The assigner always succeeds on a non-empty list, hands out an unknown of the list and changes nothing but the
    current unknown and its own counter. *)
Theorem C20_assigner_succeeds s : s_unks s <> [] -> exists i c,
  assigner s = OK true (set_s_curr (Some i) (set_s_counter (Some c) s)) /\ In i (s_unks s) /\ c <= List.length (s_unks s).
Proof.
  intros N. unfold assigner. set (c0 := match s_counter s with None => 0 | Some c => c end).
  destruct (asgn_scan _ _ _) as [[i c]|] eqn:E.
  - apply asgn_scan_some in E as (l1 & l2 & E & _ & _ & ->). exists i, (c0 + S (List.length l1)). split; [reflexivity|].
    assert (L : List.length (skipn c0 (s_unks s)) = List.length (l1 ++ i :: l2)) by congruence.
    rewrite skipn_length, app_length in L. simpl in L. split; [|lia].
    rewrite <- (firstn_skipn c0 (s_unks s)), E. apply in_or_app. right. apply in_or_app. right. left. auto.
  - destruct (s_unks s) as [|i l] eqn:E'; [tauto|]. exists i, 0. repeat split; simpl; auto; lia.
Qed.
(** With an empty list of unknowns the assigner raises (IndexError). *)
Theorem C20_assigner_empty s : s_unks s = [] -> assigner s = Raise.
Proof. intros E. unfold assigner. rewrite E, skipn_nil. reflexivity. Qed.

(** From a counter at or before the position of an unsolved unknown, it is handed out within as many ticks as there
    are positions up to it. *)
Lemma reach h : forall l1 i l2 s, s_heap s = h -> skipn (match s_counter s with None => 0 | Some c => c end) (s_unks s) = l1 ++ i :: l2 ->
  u_solved (getu h i) = false -> exists k s', k <= List.length l1 /\ ticks (S k) s = Some s' /\ s_curr s' = Some i /\ s_heap s' = h.
Proof.
  intros l1. remember (List.length l1) as n eqn:Hn. revert l1 Hn. induction n as [n IH] using lt_wf_ind. intros l1 Hn i l2 s Hh Hs Hi.
  cbn [ticks]. unfold assigner. rewrite Hs, Hh.
  set (c0 := match s_counter s with None => 0 | Some c => c end) in *.
  destruct (asgn_scan h (l1 ++ i :: l2) c0) as [[j c]|] eqn:E.
  2:{ exfalso. assert (X := asgn_scan_none _ _ _ E i). rewrite X in Hi. discriminate. apply in_or_app; right; left; auto. }
  apply asgn_scan_some in E as (m1 & m2 & E & H1 & H2 & ->).
  assert (Cmp : l1 = m1 /\ i = j \/ exists r, l1 = m1 ++ j :: r).
  { clear - E H1 Hi. revert m1 E H1. induction l1 as [|a l1 IH]; intros [|b m1] E H1; simpl in E; injection E as -> E.
    - auto.
    - exfalso. rewrite (H1 b) in Hi. discriminate. left; auto.
    - right. exists l1. auto.
    - destruct (IH m1 E (fun j Hj => H1 j (or_intror Hj))) as [[-> ->]|[r ->]]; auto. right. exists r. auto. }
  destruct Cmp as [[-> ->]|[r ->]].
  - exists 0. eexists. split; [lia|]. cbn [ticks]. split; [reflexivity|]. auto.
  - set (s1 := set_s_curr (Some j) (set_s_counter (Some (c0 + S (List.length m1))) s)).
    destruct (IH (List.length r)) with (l1 := r) (i := i) (l2 := l2) (s := s1) as (k & s' & Hk & Ht & Hc & Hh'); auto.
    + subst n. rewrite app_length. simpl. lia.
    + unfold s1. cbn [s_counter set_s_curr set_s_counter s_unks]. rewrite (Nat.add_comm c0). rewrite <- skipn_skipn, Hs.
      rewrite <- app_assoc. apply (skipn_past m1 j).
    + exists (S k), s'. split. { subst n. rewrite app_length. simpl. lia. } cbn [ticks]. auto.
Qed.

(** Fairness: within (number of unknowns + 1) ticks every unsolved unknown of the list becomes the current one,
    whatever the counter was. *)
Theorem C20_assigner_fair s i : In i (s_unks s) -> unsolved s i ->
  exists k s', k <= List.length (s_unks s) /\ ticks (S k) s = Some s' /\ s_curr s' = Some i.
Proof.
  intros Hi Hu. set (c0 := match s_counter s with None => 0 | Some c => c end).
  destruct (in_dec Nat.eq_dec i (skipn c0 (s_unks s))) as [H|H].
  - apply in_split in H as (l1 & l2 & E). destruct (reach (s_heap s) l1 i l2 s eq_refl E Hu) as (k & s' & Hk & Ht & Hc & _).
    exists k, s'. repeat split; auto. assert (L : List.length (skipn c0 (s_unks s)) = List.length (l1 ++ i :: l2)) by congruence.
    rewrite skipn_length, app_length in L. simpl in L. lia.
  - (* the unsolved ones after the counter are handed out first: induction on how many positions are left *)
    assert (G : forall n s, List.length (skipn (match s_counter s with None => 0 | Some c => c end) (s_unks s)) <= n -> In i (s_unks s) -> unsolved s i ->
               ~ In i (skipn (match s_counter s with None => 0 | Some c => c end) (s_unks s)) ->
               exists k s', k + 0 <= n /\ ticks (S k) s = Some s' /\ s_heap s' = s_heap s /\ s_unks s' = s_unks s /\ s_counter s' = Some 0).
    { clear. induction n as [|n IH]; intros s Hl Hi Hu Hn.
      - exists 0. cbn [ticks]. unfold assigner. destruct (skipn _ _) eqn:E; [|simpl in Hl; lia]. simpl.
        destruct (s_unks s) eqn:E'; [destruct Hi|]. eexists. split; [lia|]. split; [reflexivity|]. simpl. auto.
      - cbn [ticks]. unfold assigner. set (c0 := match s_counter s with None => 0 | Some c => c end) in *.
        destruct (asgn_scan (s_heap s) (skipn c0 (s_unks s)) c0) as [[j c]|] eqn:E.
        + apply asgn_scan_some in E as (m1 & m2 & E & H1 & H2 & ->).
          set (s1 := set_s_curr (Some j) (set_s_counter (Some (c0 + S (List.length m1))) s)).
          assert (Es : skipn (c0 + S (List.length m1)) (s_unks s) = m2).
          { rewrite (Nat.add_comm c0), <- skipn_skipn, E. apply skipn_past. }
          destruct (IH s1) as (k & s' & Hk & Ht & Hh & Hun & Hc); auto.
          * unfold s1. cbn [s_counter set_s_curr set_s_counter s_unks]. rewrite Es. rewrite E, app_length in Hl. simpl in Hl. lia.
          * unfold s1. cbn [s_counter set_s_curr set_s_counter s_unks]. rewrite Es. intros Z. apply Hn. rewrite E. apply in_or_app; right; right; auto.
          * exists (S k), s'. split; [lia|]. cbn [ticks]. auto.
        + exists 0. destruct (s_unks s) eqn:E'; [destruct Hi|]. eexists. split; [lia|]. cbn [ticks]. split; [reflexivity|]. simpl. auto. }
    destruct (in_split _ _ Hi) as (l1 & l2 & E).
    assert (Hlt : List.length (skipn c0 (s_unks s)) + S (List.length l1) <= List.length (s_unks s)).
    { rewrite skipn_length. destruct (Nat.le_gt_cases c0 (List.length l1)) as [Hc|Hc].
      - exfalso. apply H. rewrite E. rewrite skipn_app. apply in_or_app. right. replace (c0 - List.length l1) with 0 by lia. left; auto.
      - rewrite E, app_length. simpl. lia. }
    destruct (G _ s (le_n _) Hi Hu H) as (k & s1 & Hk & Ht & Hh & Hun & Hc).
    destruct (reach (s_heap s) l1 i l2 s1 Hh) as (k2 & s2 & Hk2 & Ht2 & Hc2 & _); auto.
    { rewrite Hc, Hun. simpl. auto. }
    exists (S k + k2), s2. fold c0 in Hk. split; [lia|]. split; auto.
    replace (S (S k + k2)) with (S k + S k2) by lia. clear - Ht Ht2. revert s Ht. generalize (S k) as a. induction a; intros s Ht; simpl in *.
    + injection Ht as ->. auto.
    + destruct (assigner s) as [[] s'|]; try discriminate. auto.
Qed.

(** When the assigner hands out an already solved unknown, it is the first of the list and every unsolved unknown
    lies before the counter. *)
Theorem C20_solved_only_on_wrap s s' i : assigner s = OK true s' -> s_curr s' = Some i -> ~ unsolved s i ->
  exists l, s_unks s = i :: l /\ forall j, In j (skipn (match s_counter s with None => 0 | Some c => c end) (s_unks s)) -> ~ unsolved s j.
Proof.
  unfold assigner, unsolved. destruct (asgn_scan _ _ _) as [[j c]|] eqn:E.
  - intros H Hc N. injection H as <-. simpl in Hc. injection Hc as <-. apply asgn_scan_some in E as (l1 & l2 & _ & _ & H & _). tauto.
  - destruct (s_unks s) as [|j l]; [discriminate|]. intros H Hc N. injection H as <-. simpl in Hc. injection Hc as <-. exists l. split; auto.
    intros j' Hj. rewrite (asgn_scan_none _ _ _ E j' Hj). discriminate.
Qed.
(** And this does happen while an unsolved unknown exists: after the last position the first unknown is handed out
    without looking at it. *)
Definition two_unks (c : nat) : state :=
  St [set_u_solved true (new_unknown "th_1"); new_unknown "th_2"] [0; 1] None (Some c) [] [] [] [] [] 0 [] [].
Theorem C20_hands_out_solved_refuted : exists s s' i,
  assigner s = OK true s' /\ s_curr s' = Some i /\ u_solved (getu (s_heap s) i) = true /\ exists j, In j (s_unks s) /\ unsolved s j.
Proof.
  exists (two_unks 2), (set_s_curr (Some 0) (set_s_counter (Some 0) (two_unks 2))), 0. repeat split; auto.
  exists 1. split; simpl; auto. reflexivity.
Qed.
Example C20_example : In 1 (s_unks (two_unks 2)) /\ unsolved (two_unks 2) 1 /\ exists s', ticks 2 (two_unks 2) = Some s' /\ s_curr s' = Some 1.
Proof. repeat split; simpl; auto. eexists; split; reflexivity. Qed.

(** * C21 completion detection *)
Lemma filter_all {A} (f : A -> bool) l : List.length (filter f l) <= List.length l /\ (List.length l = List.length (filter f l) <-> forall x, In x l -> f x = true).
Proof.
  induction l as [|a l [IH1 IH2]]; simpl; [split; [lia|tauto]|]. destruct (f a) eqn:E; simpl; (split; [lia|]); split.
  - intros H x [<-|Hx]; auto. apply IH2; auto.
  - intros H. f_equal. apply IH2. auto.
  - lia.
  - intros H. rewrite H in E; [discriminate|auto].
Qed.
Theorem C21_completion_detect s : exists b, comp_det false s = OK b s /\ (b = true <-> forall i, In i (s_unks s) -> u_solved (getu (s_heap s) i) = true).
Proof.
  unfold comp_det. eexists. split; [reflexivity|]. destruct (filter_all u_solved (unk_objs s)) as [_ H].
  unfold unk_objs in *. rewrite map_length in H. destruct (_ =? _)%nat eqn:E.
  - apply Nat.eqb_eq in E. split; auto. intros _ i Hi. apply H; auto. apply in_map. auto.
  - apply Nat.eqb_neq in E. split; [discriminate|]. intros X. exfalso. apply E. apply H. intros u Hu. apply in_map_iff in Hu as (i & <- & Hi). auto.
Qed.
(** With FailAllDone the outcome is the opposite, and again nothing changes. *)
Theorem C21_completion_detect_inverted s b : comp_det false s = OK b s -> comp_det true s = OK (negb b) s.
Proof. unfold comp_det. intros H. injection H as <-. destruct (_ =? _)%nat; reflexivity. Qed.
Example C21_example : comp_det false (two_unks 0) = OK false (two_unks 0). Proof. reflexivity. Qed.

(** * C25 dependencies *)
Lemma set_add_in h l d x : In x (set_add h l d) -> In x l \/ x = d.
Proof. unfold set_add. destruct (existsb _ _); auto. intros H. apply in_app_or in H as [?|[<-|[]]]; auto. Qed.
Lemma set_add_old h l d x : In x l -> In x (set_add h l d).
Proof. unfold set_add. destruct (existsb _ _); auto. intros H. apply in_or_app; auto. Qed.
Lemma set_add_new h l d : exists x, In x (set_add h l d) /\ u_sym (getu h x) = u_sym (getu h d).
Proof.
  unfold set_add. destruct (existsb _ _) eqn:E.
  - apply existsb_exists in E as (x & ? & E). apply String.eqb_eq in E. eauto.
  - exists d. split; auto. apply in_or_app; right; left; auto.
Qed.
Lemma set_adds_in h ds : forall l x, In x (fold_left (set_add h) ds l) -> In x l \/ In x ds.
Proof. induction ds as [|d ds IH]; simpl; auto. intros l x H. apply IH in H as [H|?]; auto. apply set_add_in in H as [?| ->]; auto. Qed.
Lemma set_adds_old h ds : forall l x, In x l -> In x (fold_left (set_add h) ds l).
Proof. induction ds as [|d ds IH]; simpl; auto. intros l x H. apply IH. apply set_add_old. auto. Qed.
Lemma set_adds_new h ds : forall l d, In d ds -> exists x, In x (fold_left (set_add h) ds l) /\ u_sym (getu h x) = u_sym (getu h d).
Proof.
  induction ds as [|d ds IH]; simpl; [tauto|]. intros l d' [<-|Hd].
  - destruct (set_add_new h l d) as (x & Hx & E). exists x. split; auto. apply set_adds_old. auto.
  - apply IH. auto.
Qed.
Lemma set_add_nodup h l d : NoDup (map (fun i => u_sym (getu h i)) l) -> NoDup (map (fun i => u_sym (getu h i)) (set_add h l d)).
Proof.
  unfold set_add. destruct (existsb _ _) eqn:E; auto. intros H. rewrite map_app. simpl.
  apply (Permutation_NoDup (l := u_sym (getu h d) :: map (fun i => u_sym (getu h i)) l)). apply Permutation_cons_append.
  constructor; auto. intros Hin. apply in_map_iff in Hin as (x & Ex & Hx).
  assert (existsb (fun d' => String.eqb (u_sym (getu h d')) (u_sym (getu h d))) l = true); [|congruence].
  apply existsb_exists. exists x. split; auto. apply String.eqb_eq. auto.
Qed.
(** get_deps fails (assertion) exactly when the expression mentions an unsolved unknown of the list. *)
Theorem C25_get_deps_fails h ids e : get_deps h ids e = None <-> exists i, In i ids /\ has (u_sym (getu h i)) e = true /\ u_solved (getu h i) = false.
Proof.
  unfold get_deps. destruct (existsb _ _) eqn:E; split; try discriminate; auto.
  - intros _. apply existsb_exists in E as (i & ? & H). apply andb_true_iff in H as [? H]. exists i. repeat split; auto. destruct (u_solved _); auto; discriminate.
  - intros (i & Hi & H1 & H2). assert (X : existsb (fun i => has (u_sym (getu h i)) e && negb (u_solved (getu h i))) ids = true); [|congruence].
    apply existsb_exists. exists i. rewrite H1, H2. auto.
Qed.
(** Otherwise the result is, as a set of symbols, exactly the unknowns of the list the expression mentions; each
    symbol once. *)
Theorem C25_get_deps_exact h ids e ds : get_deps h ids e = Some ds ->
  (forall s, In s (map (fun i => u_sym (getu h i)) ds) <-> In s (map (fun i => u_sym (getu h i)) ids) /\ has s e = true)
  /\ NoDup (map (fun i => u_sym (getu h i)) ds) /\ (forall d, In d ds -> In d ids /\ u_solved (getu h d) = true).
Proof.
  unfold get_deps. destruct (existsb _ _) eqn:E; [discriminate|]. intros H. injection H as <-.
  set (sel := filter (fun i => has (u_sym (getu h i)) e) ids). split; [|split].
  - intros s. split.
    + intros Hs. apply in_map_iff in Hs as (d & <- & Hd). apply set_adds_in in Hd as [[]|Hd]. apply filter_In in Hd as [? ?]. split; auto. apply (in_map (fun i => u_sym (getu h i))); auto.
    + intros [Hs He]. apply in_map_iff in Hs as (d & <- & Hd). destruct (set_adds_new h sel [] d) as (x & Hx & Ex). { apply filter_In; auto. }
      rewrite <- Ex. apply (in_map (fun i => u_sym (getu h i))). auto.
  - assert (G : forall l acc, NoDup (map (fun i => u_sym (getu h i)) acc) -> NoDup (map (fun i => u_sym (getu h i)) (fold_left (set_add h) l acc))).
    { induction l; simpl; auto. intros acc Ha. apply IHl. apply set_add_nodup. auto. } apply G. constructor.
  - intros d Hd. apply set_adds_in in Hd as [[]|Hd]. apply filter_In in Hd as [Hi Hh]. split; auto.
    destruct (u_solved (getu h d)) eqn:Es; auto.
    assert (X : existsb (fun i => has (u_sym (getu h i)) e && negb (u_solved (getu h i))) ids = true); [|congruence].
    apply existsb_exists. exists d. rewrite Hh, Es. auto.
Qed.
Example C25_example : get_deps (s_heap (two_unks 0)) [0; 1] (Sin (Sym "th_1")) = Some [0] /\ get_deps (s_heap (two_unks 0)) [0; 1] (Sin (Sym "th_2")) = None.
Proof. split; reflexivity. Qed.

(** * C27 ranking *)
Lemma lookup_bucket_add k k' e d : lookup_bucket k (bucket_add k' e d) = if k =? k' then lookup_bucket k d ++ [e] else lookup_bucket k d.
Proof.
  unfold lookup_bucket. induction d as [|[k0 l0] d IH]; simpl.
  - rewrite (Nat.eqb_sym k' k). destruct (k =? k')%nat; reflexivity.
  - destruct (k' =? k0) eqn:E; simpl.
    + apply Nat.eqb_eq in E. subst k0. rewrite (Nat.eqb_sym k' k). destruct (k =? k')%nat eqn:E2; reflexivity.
    + destruct (k0 =? k) eqn:E2; auto. apply Nat.eqb_eq in E2. subst k0. rewrite Nat.eqb_sym, E. reflexivity.
Qed.
Lemma lookup_buckets k L : forall d, lookup_bucket k (fold_left (fun d e => bucket_add (cost e) e d) L d) = lookup_bucket k d ++ filter (fun e => cost e =? k) L.
Proof.
  induction L as [|e L IH]; simpl; intros d. { rewrite app_nil_r. auto. }
  rewrite IH, lookup_bucket_add, (Nat.eqb_sym k). destruct (cost e =? k); auto. rewrite <- app_assoc. auto.
Qed.
Lemma bucket_keys k e d : (forall x, In x (map fst (bucket_add k e d)) <-> x = k \/ In x (map fst d)) /\ (NoDup (map fst d) -> NoDup (map fst (bucket_add k e d))).
Proof.
  induction d as [|[k0 l0] d [IH1 IH2]]; simpl.
  - split. { intros x; intuition. } intros _. repeat constructor. simpl. tauto.
  - destruct (k =? k0) eqn:E; simpl.
    + apply Nat.eqb_eq in E. subst k0. split; auto. intros x; intuition.
    + apply Nat.eqb_neq in E. split. { intros x. rewrite IH1. intuition. } intros H. inversion H; subst. constructor; auto. rewrite IH1. intros [?|?]; auto.
Qed.
Lemma buckets_keys L : forall d, (forall x, In x (map fst (fold_left (fun d e => bucket_add (cost e) e d) L d)) <-> In x (map cost L) \/ In x (map fst d))
  /\ (NoDup (map fst d) -> NoDup (map fst (fold_left (fun d e => bucket_add (cost e) e d) L d))).
Proof.
  induction L as [|e L IH]; simpl; intros d; [split; auto; tauto|]. destruct (IH (bucket_add (cost e) e d)) as [H1 H2]. destruct (bucket_keys (cost e) e d) as [H3 H4].
  split; auto. intros x. rewrite H1, H3. intuition.
Qed.
Lemma ins_sorted_perm k l : Permutation (ins_sorted k l) (k :: l).
Proof. induction l; simpl; auto. destruct (_ <=? _)%nat; auto. rewrite IHl. apply perm_swap. Qed.
Lemma ins_sorted_sorted k l : StronglySorted le l -> StronglySorted le (ins_sorted k l).
Proof.
  induction l as [|x l IH]; simpl; intros H. { repeat constructor. } inversion H; subst. destruct (k <=? x) eqn:E.
  - apply Nat.leb_le in E. constructor; auto. constructor; auto. eapply Forall_impl; [|eauto]. simpl. intros; lia.
  - apply Nat.leb_gt in E. constructor; auto. rewrite ins_sorted_perm. constructor; auto. lia.
Qed.
Lemma filter_comp {A} (p q : A -> bool) l : filter p (filter q l) = filter (fun x => p x && q x) l.
Proof. induction l; simpl; auto. destruct (q a) eqn:E; simpl; rewrite ?E, ?andb_true_r, ?andb_false_r; destruct (p a); simpl; rewrite ?IHl; auto. Qed.
Lemma filter_none {A} (p : A -> bool) l : (forall x, In x l -> p x = false) -> filter p l = [].
Proof. induction l; simpl; auto. intros H. rewrite (H a) by auto. auto. Qed.
Lemma erank_eq L : exists keys, NoDup keys /\ StronglySorted le keys /\ (forall k, In k keys <-> In k (map cost L))
  /\ erank L = flat_map (fun k => filter (fun e => cost e =? k) L) keys.
Proof.
  unfold erank. set (d := fold_left _ L []). destruct (buckets_keys L []) as [K1 K2]. fold d in K1, K2.
  exists (fold_right ins_sorted [] (map fst d)).
  assert (P : Permutation (fold_right ins_sorted [] (map fst d)) (map fst d)).
  { generalize (map fst d). clear. induction l; simpl; auto. rewrite ins_sorted_perm. auto. }
  split; [|split; [|split]].
  - apply (Permutation_NoDup (Permutation_sym P)). apply K2. constructor.
  - generalize (map fst d). clear. induction l; simpl. constructor. apply ins_sorted_sorted. auto.
  - intros k. transitivity (In k (map fst d)). { split; apply Permutation_in; auto using Permutation_sym. } rewrite K1. simpl. tauto.
  - apply flat_map_ext. intros k. unfold d. rewrite lookup_buckets. reflexivity.
Qed.
(** erank returns the same equations, sorted by operation count, and equations of equal count keep their order. *)
Theorem C27_erank_stable_sort L :
  Permutation (erank L) L /\ StronglySorted (fun a b => cost a <= cost b) (erank L)
  /\ forall k, filter (fun e => cost e =? k) (erank L) = filter (fun e => cost e =? k) L.
Proof.
  destruct (erank_eq L) as (keys & ND & SS & IN & ->). set (f := fun k => filter (fun e => cost e =? k) L).
  assert (St : forall k, filter (fun e => cost e =? k) (flat_map f keys) = if in_dec Nat.eq_dec k keys then f k else []).
  { intros k. clear - ND. induction keys as [|a keys IH]; [reflexivity|]. inversion ND; subst. cbn [flat_map]. rewrite filter_app, IH by auto. unfold f at 1. rewrite filter_comp.
    destruct (Nat.eq_dec a k) as [<-|N].
    - destruct (in_dec _ a keys); [tauto|]. destruct (in_dec _ a (a :: keys)) as [_|X]; [|exfalso; apply X; left; auto]. rewrite app_nil_r. unfold f.
      apply filter_ext. intros x. apply andb_diag.
    - rewrite filter_none. 2:{ intros x _. destruct (cost x =? k) eqn:E1; auto. apply Nat.eqb_eq in E1. simpl. apply Nat.eqb_neq. lia. }
      simpl. destruct (in_dec _ k keys), (Nat.eq_dec a k); auto; try tauto. }
  assert (St' : forall k, filter (fun e => cost e =? k) (flat_map f keys) = filter (fun e => cost e =? k) L).
  { intros k. rewrite St. destruct (in_dec _ k keys) as [_|N]; auto. symmetry. apply filter_none. intros x Hx. apply Nat.eqb_neq. intros <-. apply N. apply IN. apply in_map. auto. }
  split; [|split; auto].
  - (* permutation: the parts partition L *)
    clear - ND IN f. assert (G : Permutation (flat_map f keys) (filter (fun e => existsb (Nat.eqb (cost e)) keys) L)).
    { clear IN. induction keys as [|a keys IH]; simpl. { rewrite filter_none; auto. } inversion ND; subst. rewrite IH by auto. unfold f. clear - H1.
      induction L as [|e L IHL]; simpl; auto. destruct (cost e =? a) eqn:E; simpl.
      - apply Nat.eqb_eq in E. destruct (existsb (Nat.eqb (cost e)) keys) eqn:E2.
        + exfalso. apply existsb_exists in E2 as (x & Hx & Ex). apply Nat.eqb_eq in Ex. subst. auto.
        + rewrite IHL. auto.
      - destruct (existsb (Nat.eqb (cost e)) keys) eqn:E2; auto. rewrite <- Permutation_middle. rewrite IHL. auto. }
    rewrite G. replace (filter _ L) with L; auto. clear - IN. symmetry. assert (forall l, (forall e, In e l -> In (cost e) keys) -> filter (fun e => existsb (Nat.eqb (cost e)) keys) l = l).
    { induction l; simpl; auto. intros H. replace (existsb _ _) with true. rewrite IHl; auto. symmetry. apply existsb_exists. exists (cost a). split; auto. apply Nat.eqb_refl. }
    apply H. intros e He. apply IN. apply in_map. auto.
  - clear - SS. induction keys as [|a keys IH]; simpl. constructor. inversion SS; subst. unfold f at 1.
    assert (Fa : forall x, In x (filter (fun e => cost e =? a) L) -> cost x = a) by (intros x Hx; apply filter_In in Hx as [_ Hx]; apply Nat.eqb_eq; auto).
    assert (Fk : forall y, In y (flat_map f keys) -> a <= cost y).
    { intros y Hy. apply in_flat_map in Hy as (k & Hk & Hy). apply filter_In in Hy as [_ Hy]. apply Nat.eqb_eq in Hy. rewrite Forall_forall in H2. rewrite Hy. auto. }
    induction (filter (fun e => cost e =? a) L) as [|x l IHl]; simpl; auto. constructor. { apply IHl. intros; apply Fa; right; auto. }
    apply Forall_forall. intros y Hy. rewrite (Fa x) by (left; auto). apply in_app_or in Hy as [Hy|Hy]; auto. rewrite (Fa y); auto. right; auto.
Qed.
Example C27_example : erank [Keq (Sym "a") (Sin (Sym "b")); Keq (Num 0) (Sym "x"); Keq (Sym "c") (Cos (Sym "d")); Keq (Num 0) (Sym "y")]
  = [Keq (Num 0) (Sym "x"); Keq (Num 0) (Sym "y"); Keq (Sym "a") (Sin (Sym "b")); Keq (Sym "c") (Cos (Sym "d"))].
Proof. reflexivity. Qed.

(** * C26 equation lists *)
Section C26.
Context (sy : sympy) (us : list unk).
(** The number the code classifies by: unsolved unknowns on the left plus unsolved unknowns on the right. *)
Definition nunk (q : kequation) : nat :=
  List.length (filter (fun u => has (u_sym u) (k_lhs q) && negb (u_solved u)) us)
  + List.length (filter (fun u => has (u_sym u) (k_rhs q) && negb (u_solved u)) us).
(** [q], or an equation the code considers equal to it (kequation.__eq__), is in the list. *)
Definition listed (q : kequation) (l : list kequation) : Prop := In q l \/ exists q', In q' l /\ keq_eqb sy q q' = true.
(** No equation equals (kequation.__eq__) an earlier one. *)
Definition no_repeat (l : list kequation) : Prop := forall a x b y c, l = a ++ x :: b ++ y :: c -> keq_eqb sy y x = false.

Definition push_all (es acc : list kequation) : list kequation := fold_left (fun acc e => push_new sy e acc) es acc.
Lemma push_all_in es : forall acc q, In q (push_all es acc) -> In q es \/ In q acc.
Proof. induction es; simpl; auto. intros acc q H. apply IHes in H as [?|H]; auto. apply in_push_new in H as [?|?]; auto. Qed.
Lemma push_new_old e acc q : In q acc -> In q (push_new sy e acc).
Proof. unfold push_new. destruct (existsb _ _); auto. intros. apply in_or_app; auto. Qed.
Lemma push_all_old es : forall acc q, In q acc -> In q (push_all es acc).
Proof. induction es; simpl; auto. intros. apply IHes. apply push_new_old. auto. Qed.
Lemma push_all_listed es : forall acc q, In q es -> listed q (push_all es acc).
Proof.
  induction es as [|e es IH]; simpl; [tauto|]. intros acc q [<-|H]; auto.
  unfold push_new. destruct (existsb (keq_eqb sy e) acc) eqn:E.
  - apply existsb_exists in E as (q' & Hq & Eq). right. exists q'. split; auto. apply push_all_old. auto.
  - left. apply push_all_old. apply in_or_app; right; left; auto.
Qed.
Lemma no_repeat_push e acc : no_repeat acc -> no_repeat (push_new sy e acc).
Proof.
  unfold push_new. destruct (existsb _ _) eqn:E; auto. intros H a x b y c Hl.
  destruct (exists_last (l := y :: c)) as (c' & z & Ec); [discriminate|].
  assert (Hl2 : acc ++ [e] = (a ++ x :: b ++ c') ++ [z]). { rewrite Hl, Ec. rewrite <- app_assoc. simpl. rewrite <- app_assoc. auto. }
  apply app_inj_tail in Hl2 as [Ha <-]. destruct c' as [|y' c'']; simpl in Ec; injection Ec as <- ->.
  - assert (N : forall x, In x acc -> keq_eqb sy y x = false).
    { intros w Hw. destruct (keq_eqb sy y w) eqn:K; auto. assert (existsb (keq_eqb sy y) acc = true); [|congruence]. apply existsb_exists; eauto. }
    apply N. rewrite Ha. apply in_or_app; right; left; auto.
  - eapply H. exact Ha.
Qed.
Lemma no_repeat_push_all es : forall acc, no_repeat acc -> no_repeat (push_all es acc).
Proof. induction es; simpl; auto. intros. apply IHes. apply no_repeat_push. auto. Qed.
Lemma fold_file es : forall a b c, fold_left (file_eqn sy us) es (a, b, c) =
  (push_all (filter (fun q => nunk q =? 1) es) a, push_all (filter (fun q => nunk q =? 2) es) b, push_all (filter (fun q => 2 <? nunk q) es) c).
Proof.
  induction es as [|e es IH]; intros a b c; [reflexivity|]. cbn [fold_left filter]. unfold file_eqn at 2. change (eqn_count us e) with (nunk e).
  destruct (nunk e) as [|[|[|n]]] eqn:E; cbn [Nat.eqb Nat.ltb Nat.leb]; rewrite IH; reflexivity.
Qed.
Lemma fold_aux es : forall a b c, fold_left (file_aux us) es (a, b, c) =
  (a ++ filter (fun q => nunk q =? 1) es, b ++ filter (fun q => nunk q =? 2) es, c).
Proof.
  induction es as [|e es IH]; intros a b c; cbn [fold_left filter]. { rewrite !app_nil_r. reflexivity. } unfold file_aux at 2. change (eqn_count us e) with (nunk e).
  destruct (nunk e) as [|[|[|n]]] eqn:E; cbn [Nat.eqb Nat.ltb Nat.leb]; rewrite IH, <- ?app_assoc; reflexivity.
Qed.
Lemma scan_eq meqs aux l1 l2 l3 : scan_for_equations sy meqs aux us = Some (l1, l2, l3) ->
  let es := flat_map meq_eqns meqs in
  l1 = erank (push_all (filter (fun q => nunk q =? 1) es) [] ++ filter (fun q => nunk q =? 1) aux) /\
  l2 = erank (push_all (filter (fun q => nunk q =? 2) es) [] ++ filter (fun q => nunk q =? 2) aux) /\
  l3 = erank (push_all (filter (fun q => 2 <? nunk q) es) []).
Proof.
  intros H. unfold scan_for_equations in H. set (es := flat_map meq_eqns meqs). cbv zeta.
  assert (H' : rank_lists (fold_left (file_aux us) aux (fold_left (file_eqn sy us) es ([], [], []))) = (l1, l2, l3)).
  { destruct meqs as [|M meqs]; [discriminate|]. unfold es. congruence. }
  rewrite fold_file, fold_aux in H'. unfold rank_lists in H'. repeat split; congruence.
Qed.
Lemma in_erank_iff q L : In q (erank L) <-> In q L.
Proof. destruct (C27_erank_stable_sort L) as [P _]. split; apply Permutation_in; auto using Permutation_sym. Qed.

(** [q] is the equation (left element = right element) of one of the elements i, j of the matrix equation, in its first
    [n] rows. *)
Definition element_of (n : nat) (M : matrix_equation) (q : kequation) : Prop :=
  exists i j, i < n /\ j < 4 /\ q = Keq (me_Td M i j) (me_Ts M i j).
Lemma meq_eqns_iff M q : In q (meq_eqns M) <-> element_of 4 M q.
Proof.
  unfold meq_eqns, element_of. rewrite in_map_iff. split.
  - intros ([i j] & <- & H). exists i, j. cbn [fst snd]. unfold idx16 in H. cbn [In] in H.
    repeat (destruct H as [H|H]; [injection H as <- <-; repeat split; lia|]). destruct H.
  - intros (i & j & Hi & Hj & ->). exists (i, j). split; auto. unfold idx16.
    destruct i as [|[|[|[|i]]]]; try lia; destruct j as [|[|[|[|j]]]]; try lia; cbn [In]; auto 20.
Qed.
Lemma kequation_list_iff M q : In q (get_kequation_list M) <-> element_of 3 M q \/ In q (me_aux M).
Proof.
  unfold get_kequation_list, element_of. rewrite in_app_iff, in_map_iff. split; (intros [H|H]; [left|right; auto]).
  - destruct H as ([i j] & <- & H). exists i, j. cbn [fst snd]. unfold idx12 in H. cbn [In] in H.
    repeat (destruct H as [H|H]; [injection H as <- <-; repeat split; lia|]). destruct H.
  - destruct H as (i & j & Hi & Hj & ->). exists (i, j). split; auto. unfold idx12.
    destruct i as [|[|[|i]]]; try lia; destruct j as [|[|[|[|j]]]]; try lia; cbn [In]; auto 20.
Qed.
(** Classification: each list holds only equations with its number of unknowns; every element equation of every matrix
    equation is listed where it belongs, and those without an unsolved unknown nowhere; auxiliary equations with one or
    two are listed; and nothing else is in the lists. *)
Theorem C26_classified meqs aux l1 l2 l3 : scan_for_equations sy meqs aux us = Some (l1, l2, l3) ->
  (forall q, In q l1 -> nunk q = 1) /\ (forall q, In q l2 -> nunk q = 2) /\ (forall q, In q l3 -> nunk q >= 3)
  /\ (forall M q, In M meqs -> element_of 4 M q ->
        (nunk q = 1 -> listed q l1) /\ (nunk q = 2 -> listed q l2) /\ (nunk q >= 3 -> listed q l3))
  /\ (forall q, In q aux -> (nunk q = 1 -> In q l1) /\ (nunk q = 2 -> In q l2))
  /\ (forall q, In q l1 \/ In q l2 \/ In q l3 -> (exists M, In M meqs /\ element_of 4 M q) \/ In q aux).
Proof.
  intros H. destruct (scan_eq _ _ _ _ _ H) as (E1 & E2 & E3). set (es := flat_map meq_eqns meqs) in *.
  assert (P : forall p q, In q (push_all (filter p es) []) -> p q = true).
  { intros p q Hq. apply push_all_in in Hq as [Hq|[]]. apply filter_In in Hq. tauto. }
  assert (F : forall p (l : list kequation) q, In q (filter p l) -> p q = true) by (intros p l q Hq; apply filter_In in Hq; tauto).
  assert (Lst : forall p q l r, p q = true -> In q es -> l = erank (push_all (filter p es) [] ++ r) -> listed q l).
  { intros p q l r Hp Hq ->. destruct (push_all_listed (filter p es) [] q) as [Hin|(q' & Hin & Eq)]. { apply filter_In; auto. }
    - left. apply in_erank_iff. apply in_or_app; auto.
    - right. exists q'. split; auto. apply in_erank_iff. apply in_or_app; auto. }
  split; [|split; [|split; [|split; [|split]]]].
  - intros q Hq. rewrite E1 in Hq. apply in_erank in Hq. apply in_app_or in Hq as [Hq|Hq]; [apply P in Hq|apply F in Hq]; apply Nat.eqb_eq; auto.
  - intros q Hq. rewrite E2 in Hq. apply in_erank in Hq. apply in_app_or in Hq as [Hq|Hq]; [apply P in Hq|apply F in Hq]; apply Nat.eqb_eq; auto.
  - intros q Hq. rewrite E3 in Hq. apply in_erank in Hq. apply P in Hq. apply Nat.ltb_lt in Hq. lia.
  - intros M q HM Hq. apply meq_eqns_iff in Hq. assert (Hes : In q es) by (apply in_flat_map; eauto). split; [|split]; intros Hn.
    + eapply (Lst (fun q => nunk q =? 1)); [apply Nat.eqb_eq; exact Hn|auto|exact E1].
    + eapply (Lst (fun q => nunk q =? 2)); [apply Nat.eqb_eq; exact Hn|auto|exact E2].
    + apply (Lst (fun q => 2 <? nunk q) q l3 []); [apply Nat.ltb_lt; lia|auto|rewrite app_nil_r; exact E3].
  - intros q Hq. split; intros Hn; [rewrite E1|rewrite E2]; apply in_erank_iff; apply in_or_app; right; apply filter_In; split; auto; apply Nat.eqb_eq; auto.
  - intros q Hq. destruct (in_scan sy q _ _ _ _ H) as [(M & HM & Hq')|?]; auto. apply meq_eqns_iff in Hq'. left. eauto.
Qed.
(** In each list the matrix elements appear at most once (up to kequation equality); auxiliary equations are added as
    they are. *)
Theorem C26_no_repeats meqs aux l1 l2 l3 : scan_for_equations sy meqs aux us = Some (l1, l2, l3) ->
  exists d1 d2, no_repeat d1 /\ no_repeat d2 /\ Permutation l1 (d1 ++ filter (fun q => nunk q =? 1) aux) /\ Permutation l2 (d2 ++ filter (fun q => nunk q =? 2) aux)
  /\ exists d3, no_repeat d3 /\ Permutation l3 d3.
Proof.
  intros H. destruct (scan_eq _ _ _ _ _ H) as (E1 & E2 & E3). set (es := flat_map meq_eqns meqs) in *.
  assert (N : no_repeat []) by (intros [|] ? ? ? ? Z; discriminate).
  exists (push_all (filter (fun q => nunk q =? 1) es) []), (push_all (filter (fun q => nunk q =? 2) es) []).
  split; [apply no_repeat_push_all; auto|]. split; [apply no_repeat_push_all; auto|].
  split; [rewrite E1; apply C27_erank_stable_sort|]. split; [rewrite E2; apply C27_erank_stable_sort|].
  exists (push_all (filter (fun q => 2 <? nunk q) es) []). split; [apply no_repeat_push_all; auto|]. rewrite E3; apply C27_erank_stable_sort.
Qed.
(** An auxiliary equation with three or more unsolved unknowns (e.g. th_234 = th_2 + th_3 + th_4) is in no list. *)
Theorem C26_aux_with_three_dropped meqs aux l1 l2 l3 q : scan_for_equations sy meqs aux us = Some (l1, l2, l3) ->
  nunk q >= 3 -> (forall M, In M meqs -> ~ element_of 4 M q) -> ~ In q l1 /\ ~ In q l2 /\ ~ In q l3.
Proof.
  intros H Hn HM. destruct (C26_classified _ _ _ _ _ H) as (H1 & H2 & _). destruct (scan_eq _ _ _ _ _ H) as (_ & _ & E3).
  split; [|split]; intros Hq; [apply H1 in Hq; lia|apply H2 in Hq; lia|]. rewrite E3 in Hq. apply in_erank in Hq. apply push_all_in in Hq as [Hq|[]].
  apply filter_In in Hq as [Hq _]. apply in_flat_map in Hq as (M & ? & Z). apply meq_eqns_iff in Z. eapply HM; eauto.
Qed.
(** The scan fails (assertion) exactly when there is no matrix equation. *)
Theorem C26_scan_total meqs aux : scan_for_equations sy meqs aux us = None <-> meqs = [].
Proof. unfold scan_for_equations. destruct meqs; split; congruence. Qed.
(** The lists for one matrix equation (scan_Mequation): the same classification of its twelve elements and its own
    auxiliary equations. *)
Theorem C26_scan_Mequation M l1 l2 l3 : scan_Mequation sy M us = (l1, l2, l3) ->
  (forall q, In q l1 -> nunk q = 1) /\ (forall q, In q l2 -> nunk q = 2) /\ (forall q, In q l3 -> nunk q >= 3)
  /\ (forall q, element_of 3 M q \/ In q (me_aux M) -> (nunk q = 1 -> listed q l1) /\ (nunk q = 2 -> listed q l2) /\ (nunk q >= 3 -> listed q l3))
  /\ (forall q, In q l1 \/ In q l2 \/ In q l3 -> element_of 3 M q \/ In q (me_aux M)).
Proof.
  unfold scan_Mequation. rewrite fold_file. unfold rank_lists. assert (K := kequation_list_iff M). revert K. generalize (get_kequation_list M). intros es K H. injection H as <- <- <-.
  assert (P : forall p q, In q (push_all (filter p es) []) -> p q = true /\ In q es).
  { intros p q Hq. apply push_all_in in Hq as [Hq|[]]. apply filter_In in Hq. tauto. }
  assert (Lst : forall p q, p q = true -> In q es -> listed q (erank (push_all (filter p es) []))).
  { intros p q Hp Hq. destruct (push_all_listed (filter p es) [] q) as [Hin|(q' & Hin & Eq)]. { apply filter_In; auto. }
    - left. apply in_erank_iff. auto.
    - right. exists q'. split; auto. apply in_erank_iff. auto. }
  split; [|split; [|split; [|split]]].
  - intros q Hq. apply in_erank, P in Hq as [Hq _]. apply Nat.eqb_eq; auto.
  - intros q Hq. apply in_erank, P in Hq as [Hq _]. apply Nat.eqb_eq; auto.
  - intros q Hq. apply in_erank, P in Hq as [Hq _]. apply Nat.ltb_lt in Hq. lia.
  - intros q Hq. apply K in Hq. split; [|split]; intros Hn; [apply (Lst (fun q => nunk q =? 1))|apply (Lst (fun q => nunk q =? 2))|apply (Lst (fun q => 2 <? nunk q))]; auto; try (apply Nat.eqb_eq; auto); apply Nat.ltb_lt; lia.
  - intros q Hq. apply K. destruct Hq as [Hq|[Hq|Hq]]; apply in_erank, P in Hq; tauto.
Qed.
End C26.
(** The intended criterion (distinct unsolved unknowns of the equation) is not what is counted: an unknown on both sides
    counts twice, so sin(th_2) = cos(th_2), an equation in one unknown, is not in the one-unknown list. *)
Definition meq_both : matrix_equation := Meqn (fun i j => if (i =? 0) && (j =? 0) then Sin (Sym "th_2") else Num 0) (fun i j => if (i =? 0) && (j =? 0) then Cos (Sym "th_2") else Num 0) [].
Theorem C26_distinct_unknowns_refuted sy : exists us meqs l1 l2 l3 q, scan_for_equations sy meqs [] us = Some (l1, l2, l3)
  /\ List.length (filter (fun u => (has (u_sym u) (k_lhs q) || has (u_sym u) (k_rhs q)) && negb (u_solved u)) us) = 1
  /\ (exists M, In M meqs /\ element_of 4 M q) /\ ~ In q l1 /\ In q l2.
Proof.
  exists [new_unknown "th_2"], [meq_both], [], [Keq (Sin (Sym "th_2")) (Cos (Sym "th_2"))], [], (Keq (Sin (Sym "th_2")) (Cos (Sym "th_2"))).
  split; [reflexivity|]. split; [reflexivity|]. split; [|split; simpl; auto]. exists meq_both. split. left; auto. exists 0, 0. repeat split; lia.
Qed.
