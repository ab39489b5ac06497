(** C65: concurrent runs sharing the kinematics cache. *)
From Coq Require Import Reals ZArith List String Bool Arith Lia.
From Verif Require Import Expr Kin Cache PropCache CacheConc.
Import ListNotations.
Local Open Scope list_scope.
Local Open Scope nat_scope.

Section C65.
Context {V U K : Type}.
Variable nice : expr -> bool.
Variable fk : list (dhrow expr) -> V -> U -> option (K * U).
Context {B : Type}.
Variable zero : B.
Notation obj := (@mech V K * U)%type.
Variable dump : obj -> list B.
Variable parse : list B -> option obj.
Variable req : nat -> @request V U.
Variable check : nat -> bool.
Notation world := (@world V U K B).
Notation compute := (@Cache.compute V U K nice fk).
Notation act := (@act V U K nice fk B zero dump parse req check).
Notation play := (@play V U K nice fk B zero dump parse req check).
Notation cold := (@cold V U K B).
Notation from_file := (@from_file V U K req check).
Notation name p := (q_name (req p)).

(** * Vocabulary *)
(** pickle: the object comes back whatever follows it in the file; of an incomplete dump nothing comes back *)
Record codec_ok : Prop := {
  cod_back : forall o rest, parse (dump o ++ rest) = Some o;
  cod_prefix : forall o k, k < List.length (dump o) -> parse (firstn k (dump o)) = None;
  cod_some : forall o, dump o <> [] }.
(** the process has the file open *)
Definition reading (w : world) (p j : nat) : Prop := exists buf, w_proc w p = Reading j buf.
Definition writing (w : world) (p j : nat) : Prop := exists off o, w_proc w p = Writing j off o.
(** nobody opens a cache file for writing while another process has it open *)
Definition calm (w0 : world) (sched : list action) : Prop := forall h p n t o j, sched = h ++ Step p n :: t ->
  w_proc (play h w0) p = OpenW o -> w_name (play h w0) (name p) = Some j -> forall p', ~ reading (play h w0) p' j /\ ~ writing (play h w0) p' j.
(** what a process can be given *)
Definition own_result (p : nat) (v : view) : Prop := compute (req p) = Some (v_mech v, v_unks v) /\ v_name v = name p /\ v_params v = m_params (v_mech v).
Definition result_of (p0 p : nat) (v : view) : Prop := name p0 = name p /\ compute (req p0) = Some (v_mech v, v_unks v) /\ v_name v = name p /\ v_params v = q_params (req p)
  /\ (check p = true -> q_dh (req p0) = q_dh (req p)).
(** all processes for this robot have the same definition, which gives this object *)
Definition one_definition (nm : string) (o : obj) : Prop := forall p, name p = nm -> compute (req p) = Some o.

(** * Bookkeeping *)
Lemma upd_eq {A} k (x : A) f : upd_fun k x f k = x. Proof. unfold upd_fun. rewrite Nat.eqb_refl. auto. Qed.
Lemma upd_ne {A} k (x : A) f i : i <> k -> upd_fun k x f i = f i. Proof. unfold upd_fun. intros H. apply Nat.eqb_neq in H. rewrite H. auto. Qed.
Lemma upd_case {A} k (x : A) f i y : upd_fun k x f i = y -> (i = k /\ x = y) \/ (i <> k /\ f i = y).
Proof. unfold upd_fun. destruct (Nat.eqb_spec i k); auto. Qed.
Lemma play_app h t w : play (h ++ t) w = play t (play h w). Proof. apply fold_left_app. Qed.
Lemma play_snoc h a w : play (h ++ [a]) w = act (play h w) a. Proof. rewrite play_app. reflexivity. Qed.
Lemma nth_firstn {A} (l : list A) : forall k i, nth_error (firstn k l) i = if i <? k then nth_error l i else None.
Proof.
  induction l as [|a l IH]; intros [|k] [|i]; cbn [firstn nth_error]; auto.
  - destruct (S i <? S k); auto.
  - rewrite IH. destruct (Nat.ltb_spec i k), (Nat.ltb_spec (S i) (S k)); auto; lia.
Qed.
Lemma nth_skipn {A} (l : list A) : forall k i, nth_error (skipn k l) i = nth_error l (k + i).
Proof. induction l as [|a l IH]; intros [|k] i; cbn [skipn nth_error Nat.add]; auto. destruct i; auto. Qed.
Lemma nth_ext {A} (a : list A) : forall b, (forall i, nth_error a i = nth_error b i) -> a = b.
Proof. induction a as [|x a IH]; intros [|y b] H; auto; try (specialize (H 0); discriminate). f_equal. specialize (H 0). cbn in H. congruence. apply IH. intros i. apply (H (S i)). Qed.
Lemma nth_repeat_z {A} (z : A) n i : nth_error (repeat z n) i = if i <? n then Some z else None.
Proof. revert i. induction n as [|n IH]; intros [|i]; cbn [repeat nth_error]; auto. rewrite IH. destruct (Nat.ltb_spec i n), (Nat.ltb_spec (S i) (S n)); auto; lia. Qed.
Lemma nth_app {A} (a b : list A) i : nth_error (a ++ b) i = if i <? List.length a then nth_error a i else nth_error b (i - List.length a).
Proof. destruct (Nat.ltb_spec i (List.length a)). apply nth_error_app1; auto. apply nth_error_app2; auto. Qed.
Lemma nth_write off bs d i : nth_error (write_at zero off bs d) i =
  if i <? off then (if i <? List.length d then nth_error d i else Some zero) else if i <? off + List.length bs then nth_error bs (i - off) else nth_error d i.
Proof.
  unfold write_at. rewrite !nth_app, nth_firstn, nth_repeat_z, nth_skipn, firstn_length, repeat_length.
  destruct (Nat.ltb_spec i off), (Nat.ltb_spec i (List.length d)), (Nat.ltb_spec i (Nat.min off (List.length d))); try lia; auto.
  - destruct (Nat.ltb_spec (i - Nat.min off (List.length d)) (off - List.length d)); auto; lia.
  - destruct (Nat.ltb_spec (i - Nat.min off (List.length d)) (off - List.length d)); try lia.
    replace (i - Nat.min off (List.length d) - (off - List.length d)) with (i - off) by lia.
    destruct (Nat.ltb_spec (i - off) (List.length bs)), (Nat.ltb_spec i (off + List.length bs)); auto; try lia. f_equal. lia.
  - destruct (Nat.ltb_spec (i - Nat.min off (List.length d)) (off - List.length d)); try lia.
    replace (i - Nat.min off (List.length d) - (off - List.length d)) with (i - off) by lia.
    destruct (Nat.ltb_spec (i - off) (List.length bs)), (Nat.ltb_spec i (off + List.length bs)); auto; try lia. f_equal. lia.
Qed.
(** the piece written *)
Lemma piece_nth (D : list B) off n i : off <= i < off + List.length (firstn (S n) (skipn off D)) -> nth_error (firstn (S n) (skipn off D)) (i - off) = nth_error D i.
Proof. intros H. rewrite nth_firstn, nth_skipn. rewrite firstn_length in H. destruct (Nat.ltb_spec (i - off) (S n)); [|lia]. f_equal. lia. Qed.
Lemma piece_len (D : list B) off n : off <= List.length D -> off + List.length (firstn (S n) (skipn off D)) <= List.length D.
Proof. rewrite firstn_length, skipn_length. lia. Qed.
Lemma piece_nil (D : list B) off n : firstn (S n) (skipn off D) = [] -> List.length D <= off.
Proof. intros H. apply (f_equal (@List.length B)) in H. rewrite firstn_length, skipn_length in H. cbn [List.length] in H. lia. Qed.

(** every file belongs to one robot name; the processes work on the file of their robot *)
Record wf (nf : nat -> string) (w : world) : Prop := {
  wf_link : forall s j, w_name w s = Some j -> j < w_next w /\ nf j = s;
  wf_read : forall p j buf, w_proc w p = Reading j buf -> j < w_next w /\ nf j = name p;
  wf_write : forall p j off o, w_proc w p = Writing j off o -> j < w_next w /\ nf j = name p /\ compute (req p) = Some o /\ off <= List.length (dump o);
  wf_open : forall p o, w_proc w p = OpenW o -> compute (req p) = Some o;
  wf_own : forall p v, w_proc w p = Ended (CServed v false) -> own_result p v }.
Lemma wf_cold dir : wf (fun _ => EmptyString) (cold dir).
Proof. split; cbn; intros; discriminate. Qed.
(** a change of one process only *)
Lemma wf_proc nf w p c : wf nf w -> (forall j buf, c = Reading j buf -> j < w_next w /\ nf j = name p) ->
  (forall j off o, c = Writing j off o -> j < w_next w /\ nf j = name p /\ compute (req p) = Some o /\ off <= List.length (dump o)) ->
  (forall o, c = OpenW o -> compute (req p) = Some o) -> (forall v, c = Ended (CServed v false) -> own_result p v) -> wf nf (set_proc p c w).
Proof.
  intros [L R W O E] H1 H2 H3 H4. split; cbn [set_proc w_name w_proc w_next]; auto.
  - intros q j buf H. apply upd_case in H as [[-> H]|[_ H]]; eauto.
  - intros q j off o H. apply upd_case in H as [[-> H]|[_ H]]; eauto.
  - intros q o H. apply upd_case in H as [[-> H]|[_ H]]; eauto.
  - intros q v H. apply upd_case in H as [[-> H]|[_ H]]; eauto.
Qed.
Lemma wf_data nf w j d : wf nf w -> wf nf (set_data j d w). Proof. intros [L R W O E]. split; cbn [set_data w_name w_proc w_next]; auto. Qed.
Lemma from_file_hit p o v : from_file p o <> CServed v false.
Proof. unfold CacheConc.from_file. destruct (_ || _); discriminate. Qed.
Lemma wf_act nf w a : wf nf w -> exists nf', (forall j, j < w_next w -> nf' j = nf j) /\ wf nf' (act w a).
Proof.
  intros H. destruct a as [p n|p|s].
  2:{ exists nf. split; auto. cbn [CacheConc.act]. destruct (w_proc w p); auto; apply wf_proc; auto; intros; discriminate. }
  2:{ exists nf. split; auto. destruct H as [L R W O E]. cbn [CacheConc.act]. split; cbn [w_name w_proc w_next]; auto. intros s' j. destruct (String.eqb s' s); [discriminate|]. auto. }
  cbn [CacheConc.act]. unfold pstep. destruct (w_proc w p) as [| | | |j buf| |o|j off o|r] eqn:E.
  - exists nf. split; auto. apply wf_proc; auto; destruct (w_dir w); intros; discriminate.
  - exists nf. split; auto. destruct (w_dir w). { apply wf_proc; auto; intros; discriminate. }
    assert (X : wf nf (set_proc p Look w)) by (apply wf_proc; auto; intros; discriminate). destruct X as [L R W O E']. split; auto.
  - exists nf. split; auto. apply wf_proc; auto; destruct (w_name w (name p)); intros; discriminate.
  - exists nf. split; auto. apply wf_proc; auto; destruct (w_name w (name p)) as [j|] eqn:N; intros; try discriminate. injection H0 as <- <-. eapply wf_link; eauto.
  - exists nf. split; auto. destruct (firstn (S n) (skipn (List.length buf) (w_data w j))). { apply wf_proc; auto; intros; discriminate. }
    destruct (parse _) as [o|]; apply wf_proc; auto; intros; try discriminate.
    + injection H0 as H0. exfalso. eapply from_file_hit; eauto.
    + injection H0 as <- <-. eapply wf_read; eauto.
  - exists nf. split; auto. apply wf_proc; auto; destruct (compute (req p)) as [o|] eqn:N; intros; try discriminate. congruence.
  - destruct (w_name w (name p)) as [j|] eqn:N.
    + exists nf. split; auto. apply wf_proc; [apply wf_data; auto|..]; intros; try discriminate. injection H0 as <- <- <-. destruct (wf_link _ _ H _ _ N). cbn. repeat split; auto. eapply wf_open; eauto. lia.
    + exists (upd_fun (w_next w) (name p) nf). split. { intros j Hj. apply upd_ne. lia. }
      destruct H as [L R W O E']. split; cbn [w_name w_proc w_next].
      * intros s j. destruct (String.eqb_spec s (name p)) as [->|]; intros H. injection H as <-. rewrite upd_eq. auto. apply L in H as [H1 H2]. rewrite upd_ne by lia. auto.
      * intros q j buf H. apply upd_case in H as [[-> H]|[_ H]]; [discriminate|]. apply R in H as [H1 H2]. rewrite upd_ne by lia. auto.
      * intros q j off o' H. apply upd_case in H as [[-> H]|[_ H]]. { injection H as <- <- <-. rewrite upd_eq. repeat split; auto; lia. } apply W in H as (H1 & H2 & H3). rewrite upd_ne by lia. auto.
      * intros q o' H. apply upd_case in H as [[-> H]|[_ H]]; [discriminate|]. auto.
      * intros q v H. apply upd_case in H as [[-> H]|[_ H]]; [discriminate|]. auto.
  - exists nf. split; auto. destruct (wf_write _ _ H _ _ _ _ E) as (W1 & W2 & W3 & W4). destruct (firstn (S n) (skipn off (dump o))) as [|b bs] eqn:F.
    + apply wf_proc; auto; intros; try discriminate. injection H0 as <-. destruct o as [m u]. repeat split; auto.
    + rewrite <- F. apply wf_proc; [apply wf_data; auto|..]; intros; try discriminate. injection H0 as <- <- <-. cbn. repeat split; auto. apply piece_len. auto.
  - exists nf. auto.
Qed.

(** * One definition per robot *)
(** the bytes are those of [D], or zeros in gaps *)
Definition near (D l : list B) : Prop := forall i x, nth_error l i = Some x -> nth_error D i = Some x \/ (x = zero /\ i < List.length D).
Lemma near_nil D : near D []. Proof. intros [|i] x H; discriminate. Qed.
Lemma near_len D l : near D l -> List.length l <= List.length D.
Proof.
  intros H. destruct (Nat.le_gt_cases (List.length l) (List.length D)) as [|G]; auto. exfalso. destruct (nth_error l (List.length D)) as [x|] eqn:E.
  - destruct (H _ _ E) as [X|[_ X]]; [|lia]. assert (Y : nth_error D (List.length D) <> None) by congruence. apply nth_error_Some in Y. lia.
  - apply nth_error_None in E. lia.
Qed.
Lemma near_write D l off n : off <= List.length D -> near D l -> near D (write_at zero off (firstn (S n) (skipn off D)) l).
Proof.
  intros L H i x E. rewrite nth_write in E. destruct (Nat.ltb_spec i off).
  - destruct (Nat.ltb_spec i (List.length l)). apply H; auto. injection E as <-. right. split; auto. lia.
  - destruct (Nat.ltb_spec i (off + List.length (firstn (S n) (skipn off D)))). rewrite piece_nth in E by lia. auto. apply H; auto.
Qed.
Lemma near_read D l buf n : near D l -> near D buf -> near D (buf ++ firstn (S n) (skipn (List.length buf) l)).
Proof.
  intros H1 H2 i x E. rewrite nth_app in E. destruct (Nat.ltb_spec i (List.length buf)). apply H2; auto.
  rewrite nth_firstn, nth_skipn in E. destruct (i - List.length buf <? S n); [|discriminate]. apply H1. rewrite <- E. f_equal. lia.
Qed.
(** the format notices zeros where the dump has something else *)
Definition zeros_detected (o : obj) : Prop := forall l o', near (dump o) l -> parse l = Some o' -> o' = o.

Section One.
Variable nm : string.
Variable o : obj.
Hypothesis one : one_definition nm o.
Record inv3 (nf : nat -> string) (w : world) : Prop := {
  i3_data : forall j, j < w_next w -> nf j = nm -> near (dump o) (w_data w j);
  i3_read : forall p j buf, w_proc w p = Reading j buf -> name p = nm -> near (dump o) buf;
  i3_serve : zeros_detected o -> forall p v, w_proc w p = Ended (CServed v true) -> name p = nm -> v = View (fst o) (snd o) nm (q_params (req p)) }.
Lemma i3_proc nf w p c : inv3 nf w -> (forall j buf, c = Reading j buf -> name p = nm -> near (dump o) buf) ->
  (forall v, zeros_detected o -> c = Ended (CServed v true) -> name p = nm -> v = View (fst o) (snd o) nm (q_params (req p))) -> inv3 nf (set_proc p c w).
Proof.
  intros [D R S] H1 H2. split; auto; cbn [set_proc w_proc].
  - intros q j buf H. apply upd_case in H as [[-> H]|[_ H]]; eauto.
  - intros Z q v H. apply upd_case in H as [[-> H]|[_ H]]; eauto.
Qed.
Lemma i3_set nf w j d : inv3 nf w -> (nf j = nm -> near (dump o) d) -> inv3 nf (set_data j d w).
Proof. intros [D R S] H. split; auto. cbn [set_data w_data w_next]. intros i L N. unfold upd_fun. destruct (Nat.eqb_spec i j) as [->|]; auto. Qed.
Lemma i3_act nf nf' w a : wf nf w -> inv3 nf w -> (forall j, j < w_next w -> nf' j = nf j) -> wf nf' (act w a) -> inv3 nf' (act w a).
Proof.
  intros Wf I3 Ag Wf'. clear Wf'.
  assert (I : inv3 nf' w). { destruct I3 as [D R S]. split; auto. intros j L N. apply D; auto. rewrite <- Ag; auto. }
  destruct a as [p n|p|s].
  2:{ cbn [CacheConc.act]. destruct (w_proc w p); auto; apply i3_proc; auto; intros; discriminate. }
  2:{ destruct I as [D R S]. split; auto. }
  cbn [CacheConc.act] in *. unfold pstep in *. destruct (w_proc w p) as [| | | |j buf| |o1|j off o1|r] eqn:E; auto.
  - apply i3_proc; auto; destruct (w_dir w); intros; discriminate.
  - destruct (w_dir w). { apply i3_proc; auto; intros; discriminate. } assert (X : inv3 nf' (set_proc p Look w)) by (apply i3_proc; auto; intros; discriminate). destruct X as [D R S]. split; auto.
  - apply i3_proc; auto; destruct (w_name w (name p)); intros; discriminate.
  - apply i3_proc; auto; destruct (w_name w (name p)) as [j|] eqn:N; intros; try discriminate. injection H as <- <-. apply near_nil.
  - destruct (firstn (S n) (skipn (List.length buf) (w_data w j))) as [|b bs] eqn:F. { apply i3_proc; auto; intros; discriminate. } rewrite <- F.
    assert (Nr : name p = nm -> near (dump o) (buf ++ firstn (S n) (skipn (List.length buf) (w_data w j)))).
    { intros Np. destruct (wf_read _ _ Wf _ _ _ E) as [R1 R2]. apply near_read. apply (i3_data _ _ I3); auto. congruence. eapply i3_read; eauto. }
    destruct (parse _) as [o1|] eqn:P; apply i3_proc; auto; intros; try discriminate.
    + injection H0 as H0. assert (o1 = o) by (eapply H; eauto). subst o1. unfold CacheConc.from_file in H0. destruct (_ || _); [|discriminate]. injection H0 as <-. rewrite H1. auto.
    + injection H as <- <-. auto.
  - apply i3_proc; auto; destruct (compute (req p)) as [o1|] eqn:N; intros; discriminate.
  - destruct (w_name w (name p)) as [j|] eqn:N.
    + apply i3_proc; [apply i3_set; auto; intros; apply near_nil|..]; intros; discriminate.
    + destruct I as [D R S]. split; cbn [w_proc w_data w_next].
      * intros j L Nj. unfold upd_fun. destruct (Nat.eqb_spec j (w_next w)). apply near_nil. apply D; auto. lia.
      * intros q j buf H. apply upd_case in H as [[-> H]|[_ H]]; [discriminate|]. eauto.
      * intros Z q v H. apply upd_case in H as [[-> H]|[_ H]]; [discriminate|]. eauto.
  - destruct (wf_write _ _ Wf _ _ _ _ E) as (W1 & W2 & W3 & W4). destruct (firstn (S n) (skipn off (dump o1))) as [|b bs] eqn:F. { apply i3_proc; auto; intros; discriminate. } rewrite <- F.
    apply i3_proc; [apply i3_set; auto|..]; intros; try discriminate. rewrite Ag in H by auto. assert (name p = nm) by congruence. rewrite one in W3 by auto. injection W3 as <-. apply near_write; auto. apply (i3_data _ _ I3); auto.
Qed.
Lemma i3_play dir sched : exists nf, wf nf (play sched (cold dir)) /\ inv3 nf (play sched (cold dir)).
Proof.
  induction sched as [|a h IH] using rev_ind.
  - exists (fun _ => EmptyString). split. apply wf_cold. split; cbn; intros; try discriminate. lia.
  - destruct IH as (nf & Wf & I). rewrite play_snoc. destruct (wf_act nf _ a Wf) as (nf' & Ag & Wf'). exists nf'. split; auto. eapply i3_act; eauto.
Qed.
(** the last process that emptied the file is writing it, or the file is complete *)
Definition fill (w : world) (j : nat) : Prop :=
  w_data w j = dump o \/ exists p off o', w_proc w p = Writing j off o' /\ name p = nm /\ forall i, i < off -> nth_error (w_data w j) i = nth_error (dump o) i.
Lemma near_full l : near (dump o) l -> (forall i, i < List.length (dump o) -> nth_error l i = nth_error (dump o) i) -> l = dump o.
Proof.
  intros Nr H. apply nth_ext. intros i. destruct (Nat.lt_ge_cases i (List.length (dump o))); auto. assert (L := near_len _ _ Nr).
  rewrite (proj2 (nth_error_None (dump o) i)) by lia. apply nth_error_None. lia.
Qed.
Lemma fill_write l off n i : off <= List.length (dump o) -> nth_error l i = nth_error (dump o) i -> i < List.length (dump o) ->
  nth_error (write_at zero off (firstn (S n) (skipn off (dump o))) l) i = nth_error (dump o) i.
Proof.
  intros L H Li. rewrite nth_write. destruct (Nat.ltb_spec i off).
  - assert (i < List.length l). { apply nth_error_Some. rewrite H. apply nth_error_Some. auto. } destruct (Nat.ltb_spec i (List.length l)); auto; lia.
  - destruct (Nat.ltb_spec i (off + List.length (firstn (S n) (skipn off (dump o))))); auto. apply piece_nth. lia.
Qed.
Lemma fill_other w w' p j : (forall c, w_proc w p = c -> forall k off o', c <> Writing k off o') -> (forall q, q <> p -> w_proc w' q = w_proc w q) -> w_data w' j = w_data w j -> fill w j -> fill w' j.
Proof.
  intros H1 H2 H3 [F|(q & off & o' & Q & N & F)]. left. congruence. right. exists q, off, o'. rewrite H2, H3. auto. intros ->. eapply H1; eauto.
Qed.
Lemma fill_act nf w a j : wf nf w -> inv3 nf w -> (forall p, a <> Kill p) -> (forall j, w_name w nm = Some j -> fill w j) -> w_name (act w a) nm = Some j -> fill (act w a) j.
Proof.
  intros Wf I3 NK F Nj. destruct a as [p n|p|s].
  2:{ exfalso. eapply NK; eauto. }
  2:{ cbn [CacheConc.act w_name] in Nj. destruct (String.eqb_spec nm s); [discriminate|]. destruct (F j Nj) as [G|G]. left; auto. right; auto. }
  cbn [CacheConc.act] in *. unfold pstep in *. destruct (w_proc w p) as [| | | |j1 buf| |o1|j1 off o1|r] eqn:E; auto.
  - apply (fill_other w _ p); auto; [congruence|]. intros q Hq. apply upd_ne; auto.
  - destruct (w_dir w); apply (fill_other w _ p); auto; try congruence; intros q Hq; apply upd_ne; auto.
  - apply (fill_other w _ p); auto; [congruence|]. intros q Hq. apply upd_ne; auto.
  - apply (fill_other w _ p); auto; [congruence|]. intros q Hq. apply upd_ne; auto.
  - destruct (firstn (S n) (skipn (List.length buf) (w_data w j1))); apply (fill_other w _ p); auto; try congruence; intros q Hq; apply upd_ne; auto.
  - apply (fill_other w _ p); auto; [congruence|]. intros q Hq. apply upd_ne; auto.
  - destruct (w_name w (name p)) as [j1|] eqn:N; cbn [set_proc set_data w_name] in Nj.
    + destruct (Nat.eq_dec j j1) as [->|Ne].
      * right. exists p, 0, o1. cbn [set_proc set_data w_data w_proc]. rewrite upd_eq. split; auto. split; [|intros; lia]. destruct (wf_link _ _ Wf _ _ N), (wf_link _ _ Wf _ _ Nj). congruence.
      * apply (fill_other w _ p); auto; try congruence. intros q Hq; apply upd_ne; auto. cbn [set_proc set_data w_data w_proc]. apply upd_ne; auto.
    + destruct (String.eqb_spec nm (name p)) as [En|Ne].
      * injection Nj as <-. right. exists p, 0, o1. cbn [set_proc set_data w_data w_proc]. rewrite upd_eq. split; auto. split; auto. intros; lia.
      * destruct (wf_link _ _ Wf _ _ Nj) as [L _]. apply (fill_other w _ p); auto; try congruence. intros q Hq; apply upd_ne; auto. cbn [set_proc set_data w_data w_proc]. apply upd_ne; lia.
  - destruct (wf_write _ _ Wf _ _ _ _ E) as (W1 & W2 & W3 & W4). destruct (firstn (S n) (skipn off (dump o1))) as [|b bs] eqn:Fp; cbn [set_proc set_data w_name] in Nj; specialize (F _ Nj); destruct (wf_link _ _ Wf _ _ Nj) as [L1 L2].
    + destruct F as [F|(q & off' & o' & Q & Nq & F)]. left; auto. destruct (Nat.eq_dec q p) as [->|Hq].
      * left. cbn [set_proc set_data w_data w_proc]. rewrite E in Q. injection Q as -> <- <-. apply piece_nil in Fp. rewrite one in W3 by congruence. injection W3 as <-. apply near_full. eapply i3_data; eauto. intros i Hi. apply F. lia.
      * right. exists q, off', o'. cbn [set_proc set_data w_data w_proc]. rewrite upd_ne; auto.
    + rewrite <- Fp in *. clear Fp. destruct (Nat.eq_dec j j1) as [->|Ne].
      * assert (Np : name p = nm) by congruence. rewrite one in W3 by auto. injection W3 as <-. assert (Nr := i3_data _ _ I3 _ L1 L2).
        destruct F as [F|(q & off' & o' & Q & Nq & F)].
        -- left. cbn [set_proc set_data w_data w_proc]. rewrite upd_eq. apply near_full. apply near_write; auto. intros i Hi. apply fill_write; auto. rewrite F. auto.
        -- right. cbn [set_proc set_data w_data w_proc]. rewrite upd_eq. destruct (Nat.eq_dec q p) as [->|Hq].
           ++ exists p. rewrite upd_eq. eexists _, _. split. reflexivity. split; auto. intros i Hi. rewrite E in Q. injection Q as <- <-.
              assert (Lp := piece_len (dump o) off n W4). rewrite nth_write. destruct (Nat.ltb_spec i off).
              ** assert (i < List.length (w_data w j1)). { apply nth_error_Some. rewrite F by auto. apply nth_error_Some. lia. } destruct (Nat.ltb_spec i (List.length (w_data w j1))); [auto|lia].
              ** destruct (Nat.ltb_spec i (off + List.length (firstn (S n) (skipn off (dump o))))); [|lia]. apply piece_nth. lia.
           ++ exists q, off', o'. rewrite upd_ne by auto. split; auto. split; auto. intros i Hi. destruct (wf_write _ _ Wf _ _ _ _ Q) as (_ & _ & Q3 & Q4). rewrite one in Q3 by auto. injection Q3 as <-. apply fill_write; auto. lia.
      * destruct F as [F|(q & off' & o' & Q & Nq & F)].
        -- left. cbn [set_proc set_data w_data w_proc]. rewrite upd_ne; auto.
        -- right. exists q, off', o'. cbn [set_proc set_data w_data w_proc]. rewrite !upd_ne; auto. intros ->. congruence.
Qed.
Lemma fill_play dir sched : (forall p, ~ In (Kill p) sched) -> forall j, w_name (play sched (cold dir)) nm = Some j -> fill (play sched (cold dir)) j.
Proof.
  induction sched as [|a h IH] using rev_ind; intros NK j Nj. { discriminate. }
  destruct (i3_play dir h) as (nf & Wf & I). rewrite play_snoc in *. eapply fill_act; eauto.
  - intros p ->. apply (NK p). apply in_or_app. right; left; auto.
  - intros j1. apply IH. intros p H. apply (NK p). apply in_or_app; auto.
Qed.
End One.

(** Any number of processes with one definition of the robot, none killed: whenever no process is in the middle of writing, the
    cache file is absent or complete and correct. *)
Theorem C65_file_complete dir sched nm o : one_definition nm o -> (forall p, ~ In (Kill p) sched) ->
  (forall p j, name p = nm -> ~ writing (play sched (cold dir)) p j) ->
  w_name (play sched (cold dir)) nm = None \/ exists j, w_name (play sched (cold dir)) nm = Some j /\ w_data (play sched (cold dir)) j = dump o.
Proof.
  intros One NK Q. destruct (w_name (play sched (cold dir)) nm) as [j|] eqn:N; auto. right. exists j. split; auto.
  destruct (fill_play nm o One dir sched NK j N) as [F|(p & off & o' & P & Np & _)]; auto. exfalso. apply (Q p j Np). exists off, o'. auto.
Qed.
(** and if the format notices zeros in place of other bytes, every process that is served, in any schedule with kills and removals,
    is served what it would compute itself. *)
Theorem C65_one_definition dir sched nm o p v hit : one_definition nm o -> zeros_detected o -> name p = nm ->
  w_proc (play sched (cold dir)) p = Ended (CServed v hit) -> compute (req p) = Some (v_mech v, v_unks v).
Proof.
  intros One Z Np E. destruct (i3_play nm o One dir sched) as (nf & Wf & I). destruct hit.
  - rewrite (i3_serve _ _ _ _ I Z p v E Np). rewrite One by auto. destruct o; auto.
  - apply (wf_own _ _ Wf _ _ E).
Qed.

(** * Schedules in which nobody empties a file another process has open *)
Definition prefix_of (D l : list B) : Prop := l = firstn (List.length l) D.
Lemma prefix_nth D l i : prefix_of D l -> i < List.length l -> nth_error l i = nth_error D i.
Proof. unfold prefix_of. intros H L. transitivity (nth_error (firstn (List.length l) D) i). f_equal. auto. rewrite nth_firstn. destruct (Nat.ltb_spec i (List.length l)); auto; lia. Qed.
Lemma prefix_len D l : prefix_of D l -> List.length l <= List.length D.
Proof. unfold prefix_of. intros H. apply (f_equal (@List.length B)) in H. rewrite firstn_length in H. lia. Qed.
Lemma prefix_read D l buf n : prefix_of D l -> prefix_of D buf -> List.length buf <= List.length l -> prefix_of D (buf ++ firstn (S n) (skipn (List.length buf) l)).
Proof.
  intros H1 H2 L. unfold prefix_of. apply nth_ext. intros i. rewrite nth_app, (nth_firstn D), app_length.
  destruct (Nat.ltb_spec i (List.length buf)).
  - destruct (Nat.ltb_spec i (List.length buf + List.length (firstn (S n) (skipn (List.length buf) l)))); [|lia]. apply prefix_nth; auto.
  - destruct (Nat.ltb_spec i (List.length buf + List.length (firstn (S n) (skipn (List.length buf) l)))) as [G|G]; rewrite firstn_length, skipn_length in G.
    + rewrite nth_firstn, nth_skipn. destruct (Nat.ltb_spec (i - List.length buf) (S n)); [|lia]. rewrite (prefix_nth D) by (auto; lia). f_equal. lia.
    + apply nth_error_None. rewrite firstn_length, skipn_length. lia.
Qed.
Lemma prefix_write D l n : prefix_of D l -> prefix_of D (write_at zero (List.length l) (firstn (S n) (skipn (List.length l) D)) l) /\
  List.length (write_at zero (List.length l) (firstn (S n) (skipn (List.length l) D)) l) = List.length l + List.length (firstn (S n) (skipn (List.length l) D)).
Proof.
  intros H. set (bs := firstn (S n) (skipn (List.length l) D)).
  assert (E : write_at zero (List.length l) bs l = l ++ bs). { unfold write_at. rewrite firstn_all, Nat.sub_diag, skipn_all2 by lia. cbn [repeat app]. rewrite app_nil_r. auto. }
  rewrite E, app_length. split; auto. unfold prefix_of. apply nth_ext. intros i. rewrite nth_app, (nth_firstn D), app_length. destruct (Nat.ltb_spec i (List.length l)).
  - destruct (Nat.ltb_spec i (List.length l + List.length bs)); [|lia]. apply prefix_nth; auto.
  - destruct (Nat.ltb_spec i (List.length l + List.length bs)). apply piece_nth. unfold bs in *. lia. apply nth_error_None. lia.
Qed.
Record held (w : world) (p0 : nat) (o0 : obj) (j : nat) : Prop := {
  hd_compute : compute (req p0) = Some o0;
  hd_data : prefix_of (dump o0) (w_data w j);
  hd_write : forall p off o', w_proc w p = Writing j off o' -> p = p0 /\ o' = o0 /\ off = List.length (w_data w j);
  hd_read : forall p buf, w_proc w p = Reading j buf -> prefix_of (dump o0) buf /\ List.length buf < List.length (dump o0) }.
Record inv4 (nf : nat -> string) (w : world) : Prop := {
  i4_held : forall j, j < w_next w -> exists p0 o0, nf j = name p0 /\ held w p0 o0 j;
  i4_serve : forall p v, w_proc w p = Ended (CServed v true) -> exists p0, result_of p0 p v }.
Lemma i4_proc nf w p c : inv4 nf w -> (forall j buf, c = Reading j buf -> forall p0 o0, held w p0 o0 j -> prefix_of (dump o0) buf /\ List.length buf < List.length (dump o0)) ->
  (forall j off o', c <> Writing j off o') -> (forall v, c = Ended (CServed v true) -> exists p0, result_of p0 p v) -> inv4 nf (set_proc p c w).
Proof.
  intros [H S] H1 H2 H3. split.
  - intros j L. destruct (H j L) as (p0 & o0 & N & Hd). exists p0, o0. split; auto. assert (Hd' := Hd). destruct Hd as [C D W R]. split; auto; cbn [set_proc w_proc w_data].
    + intros q off o' Q. apply upd_case in Q as [[-> Q]|[_ Q]]; eauto. exfalso. eapply H2; eauto.
    + intros q buf Q. apply upd_case in Q as [[-> Q]|[_ Q]]; eauto.
  - intros q v Q. cbn [set_proc w_proc] in Q. apply upd_case in Q as [[-> Q]|[_ Q]]; eauto.
Qed.
Lemma from_file_result p0 p o0 v : name p0 = name p -> compute (req p0) = Some o0 -> from_file p o0 = CServed v true -> result_of p0 p v.
Proof.
  intros N C H. unfold CacheConc.from_file in H. destruct (negb (check p) || same_dh (m_dh (fst o0)) (q_dh (req p))) eqn:G; [|discriminate]. injection H as <-. unfold result_of. cbn. rewrite C. destruct o0 as [m u]. cbn in *.
  repeat split; auto. intros Ck. rewrite Ck in G. cbn in G. apply same_dh_eq in G. rewrite <- G. unfold Cache.compute in C. destruct (fk _ _ _) as [[k u']|]; [|discriminate]. injection C as <- _. auto.
Qed.
Hypothesis Codec : codec_ok.
Lemma prefix_parse o l : prefix_of (dump o) l -> parse l = if List.length l <? List.length (dump o) then None else Some o.
Proof.
  intros H. destruct (Nat.ltb_spec (List.length l) (List.length (dump o))).
  - rewrite H. apply (cod_prefix Codec). auto.
  - unfold prefix_of in H. rewrite firstn_all2 in H by auto. rewrite H, <- (app_nil_r (dump o)). apply (cod_back Codec).
Qed.
Lemma i4_act nf nf' w a : wf nf w -> inv4 nf w -> (forall j, j < w_next w -> nf' j = nf j) -> wf nf' (act w a) ->
  (forall p n o j, a = Step p n -> w_proc w p = OpenW o -> w_name w (name p) = Some j -> forall p', ~ reading w p' j /\ ~ writing w p' j) -> inv4 nf' (act w a).
Proof.
  intros Wf I4 Ag Wf' Calm.
  assert (I : inv4 nf' w). { destruct I4 as [H S]. split; auto. intros j L. rewrite Ag by auto. auto. }
  destruct a as [p n|p|s].
  2:{ cbn [CacheConc.act]. destruct (w_proc w p); auto; apply i4_proc; auto; intros; discriminate. }
  2:{ destruct I as [H S]. split; auto. intros j L. destruct (H j L) as (p0 & o0 & N & [C D W R]). exists p0, o0. split; auto. split; auto. }
  specialize (Calm p n). cbn [CacheConc.act] in *. unfold pstep in *. destruct (w_proc w p) as [| | | |j buf| |o1|j off o1|r] eqn:E; auto.
  - apply i4_proc; auto; destruct (w_dir w); intros; discriminate.
  - destruct (w_dir w). { apply i4_proc; auto; intros; discriminate. } assert (X : inv4 nf' (set_proc p Look w)) by (apply i4_proc; auto; intros; discriminate).
    destruct X as [H S]. split; auto. intros j L. destruct (H j L) as (p0 & o0 & N & [C D W R]). exists p0, o0. split; auto. split; auto.
  - apply i4_proc; auto; destruct (w_name w (name p)); intros; discriminate.
  - apply i4_proc; auto; destruct (w_name w (name p)) as [j|] eqn:N; intros; try discriminate. injection H as <- <-. split. reflexivity. assert (X := cod_some Codec o0). destruct (dump o0); [tauto|cbn; lia].
  - clear Wf'. destruct (firstn (S n) (skipn (List.length buf) (w_data w j))) as [|b bs] eqn:F. { apply i4_proc; auto; intros; discriminate. }
    assert (L : List.length buf < List.length (w_data w j)). { destruct (Nat.lt_ge_cases (List.length buf) (List.length (w_data w j))); auto. rewrite skipn_all2 in F by lia. discriminate. }
    rewrite <- F. clear F. set (buf' := buf ++ firstn (S n) (skipn (List.length buf) (w_data w j))).
    assert (Pre : forall p0 o0, held w p0 o0 j -> prefix_of (dump o0) buf'). { intros p0 o0 [C D W R]. apply prefix_read; auto. apply (R p buf E). lia. }
    destruct (wf_read _ _ Wf _ _ _ E) as [R1 R2]. destruct (i4_held _ _ I4 j R1) as (p0 & o0 & N0 & Hd). assert (P0 := prefix_parse _ _ (Pre _ _ Hd)).
    destruct (parse buf') as [o1|] eqn:P; apply i4_proc; auto; intros; try discriminate.
    + injection H as H. destruct (List.length buf' <? List.length (dump o0)); [discriminate|]. injection P0 as ->. exists p0. eapply from_file_result; eauto. congruence. apply Hd.
    + injection H as <- <-. split. eauto. assert (Q := prefix_parse _ _ (Pre _ _ H0)). rewrite P in Q. destruct (Nat.ltb_spec (List.length buf') (List.length (dump o1))); auto. discriminate.
  - apply i4_proc; auto; destruct (compute (req p)) as [o1|] eqn:N; intros; discriminate.
  - assert (C1 := wf_open _ _ Wf _ _ E). destruct (w_name w (name p)) as [j|] eqn:N.
    + destruct (wf_link _ _ Wf _ _ N) as [L1 L2]. destruct I as [H S]. split.
      * cbn [set_proc set_data w_next]. intros k L. destruct (Nat.eq_dec k j) as [->|Ne].
        -- exists p, o1. split. { rewrite Ag; auto. } split; auto; cbn [set_proc set_data w_data w_proc]; rewrite ?upd_eq.
           ++ reflexivity.
           ++ intros q off o' Q. apply upd_case in Q as [[-> Q]|[_ Q]]. injection Q as <- <-. auto. exfalso. apply (proj2 (Calm o1 j eq_refl eq_refl eq_refl q)). exists off, o'. auto.
           ++ intros q buf Q. apply upd_case in Q as [[-> Q]|[_ Q]]; [discriminate|]. exfalso. apply (proj1 (Calm o1 j eq_refl eq_refl eq_refl q)). exists buf. auto.
        -- destruct (H k L) as (p0 & o0 & N0 & [C D W R]). exists p0, o0. split; auto. split; auto; cbn [set_proc set_data w_data w_proc]; rewrite ?upd_ne by auto; auto.
           ++ intros q off o' Q. apply upd_case in Q as [[-> Q]|[_ Q]]; [|eauto]. injection Q as <- <- <-. tauto.
           ++ intros q buf Q. apply upd_case in Q as [[-> Q]|[_ Q]]; [discriminate|eauto].
      * cbn [set_proc set_data w_proc]. intros q v Q. apply upd_case in Q as [[-> Q]|[_ Q]]; [discriminate|eauto].
    + destruct I as [H S]. split; cbn [w_proc w_next].
      * intros k L. destruct (Nat.eq_dec k (w_next w)) as [->|Ne].
        -- exists p, o1. split. { destruct (wf_link _ _ Wf' (name p) (w_next w)) as [_ X]; auto. cbn [w_name]. rewrite String.eqb_refl. auto. }
           split; auto; cbn [w_data w_proc]; rewrite ?upd_eq.
           ++ reflexivity.
           ++ intros q off o' Q. apply upd_case in Q as [[-> Q]|[_ Q]]. injection Q as <- <-. auto. apply (wf_write _ _ Wf) in Q as [Q _]. lia.
           ++ intros q buf Q. apply upd_case in Q as [[-> Q]|[_ Q]]; [discriminate|]. apply (wf_read _ _ Wf) in Q as [Q _]. lia.
        -- destruct (H k ltac:(lia)) as (p0 & o0 & N0 & [C D W R]). exists p0, o0. split; auto. split; auto; cbn [w_data w_proc]; rewrite ?upd_ne by auto; auto.
           ++ intros q off o' Q. apply upd_case in Q as [[-> Q]|[_ Q]]; [|eauto]. injection Q as <- <- <-. tauto.
           ++ intros q buf Q. apply upd_case in Q as [[-> Q]|[_ Q]]; [discriminate|eauto].
      * intros q v Q. apply upd_case in Q as [[-> Q]|[_ Q]]; [discriminate|eauto].
  - clear Wf'. destruct (firstn (S n) (skipn off (dump o1))) as [|b bs] eqn:F. { apply i4_proc; auto; intros; discriminate. } rewrite <- F. clear F.
    destruct (wf_write _ _ Wf _ _ _ _ E) as (W1 & W2 & W3 & W4). destruct I as [H S]. split.
    * cbn [set_proc set_data w_next]. intros k L. destruct (H k L) as (p0 & o0 & N0 & [C D W R]). exists p0, o0. split; auto. destruct (Nat.eq_dec k j) as [->|Ne].
      -- destruct (W _ _ _ E) as (-> & -> & ->). destruct (prefix_write (dump o0) (w_data w j) n D) as [P1 P2]. split; auto; cbn [set_proc set_data w_data w_proc]; rewrite ?upd_eq; auto.
         ++ intros q off o' Q. apply upd_case in Q as [[-> Q]|[Hq Q]]. injection Q as <- <-. auto. destruct (W _ _ _ Q) as (-> & _). tauto.
         ++ intros q buf Q. apply upd_case in Q as [[-> Q]|[_ Q]]; [discriminate|eauto].
      -- split; auto; cbn [set_proc set_data w_data w_proc]; rewrite ?upd_ne by auto; auto.
         ++ intros q off' o' Q. apply upd_case in Q as [[-> Q]|[_ Q]]; [|eauto]. injection Q as <- <- <-. tauto.
         ++ intros q buf Q. apply upd_case in Q as [[-> Q]|[_ Q]]; [discriminate|eauto].
    * cbn [set_proc set_data w_proc]. intros q v Q. apply upd_case in Q as [[-> Q]|[_ Q]]; [discriminate|eauto].
Qed.
Lemma i4_play dir sched : calm (cold dir) sched -> exists nf, wf nf (play sched (cold dir)) /\ inv4 nf (play sched (cold dir)).
Proof.
  induction sched as [|a h IH] using rev_ind; intros Calm.
  - exists (fun _ => EmptyString). split. apply wf_cold. split; cbn; intros; try discriminate. lia.
  - destruct IH as (nf & Wf & I). { intros h1 p n t o j Eh. intros. eapply (Calm h1 p n (t ++ [a])); eauto. rewrite Eh, <- app_assoc. auto. }
    rewrite play_snoc. destruct (wf_act nf _ a Wf) as (nf' & Ag & Wf'). exists nf'. split; auto. eapply i4_act; eauto. intros p n o j -> Ho Hj. eapply (Calm h p n []); eauto.
Qed.
(** In every such schedule, whatever definitions the processes have, whoever is killed and whatever is removed, a process that is
    served gets its own result or that of a process for the same robot, with its own DH table if it checks. *)
Theorem C65_served dir sched p v hit : calm (cold dir) sched -> w_proc (play sched (cold dir)) p = Ended (CServed v hit) ->
  (hit = false /\ own_result p v) \/ (hit = true /\ exists p0, result_of p0 p v).
Proof.
  intros Calm E. destruct (i4_play dir sched Calm) as (nf & Wf & I). destruct hit.
  - right. split; auto. eapply i4_serve; eauto.
  - left. split; auto. eapply wf_own; eauto.
Qed.

(** * A complete cache file *)
Definition warm (nm : string) (o : obj) (w : world) : Prop :=
  (forall p, w_proc w p = Begin \/ exists r, w_proc w p = Ended r) /\ w_dir w = true /\ (forall s j, w_name w s = Some j -> j < w_next w) /\ (forall s s' j, w_name w s = Some j -> w_name w s' = Some j -> s = s')
  /\ exists j, w_name w nm = Some j /\ w_data w j = dump o.
(** where the processes for this robot can be, and after how many calls of theirs at least *)
Definition warm_pc (o : obj) (j p c : nat) (x : @pc V U K B) : Prop :=
  match x with
  | Begin => True | Look => 1 <= c | OpenR => 2 <= c
  | Reading j' buf => j' = j /\ prefix_of (dump o) buf /\ List.length buf < List.length (dump o) /\ 3 <= c
  | Ended r => r = from_file p o \/ r = CKilled
  | _ => False
  end.
Definition rank (o : obj) (x : @pc V U K B) : nat :=
  match x with Begin => 3 + List.length (dump o) | Look => 2 + List.length (dump o) | OpenR => 1 + List.length (dump o) | Reading _ buf => List.length (dump o) - List.length buf | _ => 0 end.
Fixpoint calls (p : nat) (sched : list action) : nat := match sched with [] => 0 | Step q _ :: t => (if q =? p then 1 else 0) + calls p t | _ :: t => calls p t end.
Lemma calls_app p a b : calls p (a ++ b) = calls p a + calls p b.
Proof. induction a as [|[q n|q|s] a IH]; cbn [calls app]; auto. rewrite IH. lia. Qed.
Record inv5 (old : nat -> bool) (nm : string) (o : obj) (j : nat) (sched : list action) (w : world) : Prop := {
  i5_dir : w_dir w = true;
  i5_link : forall s k, w_name w s = Some k -> k < w_next w;
  i5_inj : forall s s' k, w_name w s = Some k -> w_name w s' = Some k -> s = s';
  i5_name : w_name w nm = Some j;
  i5_data : w_data w j = dump o;
  i5_other : forall p k off o', w_proc w p = Writing k off o' -> k <> j /\ k < w_next w;
  i5_pc : forall p, name p = nm -> (old p = true /\ exists r, w_proc w p = Ended r) \/ old p = false /\ warm_pc o j p (calls p sched) (w_proc w p) /\ rank o (w_proc w p) + calls p sched <= 3 + List.length (dump o) + match w_proc w p with Ended _ => calls p sched | _ => 0 end }.
Lemma i5_act old nm o j h w a : inv5 old nm o j h w -> a <> Unlink nm -> inv5 old nm o j (h ++ [a]) (act w a).
Proof.
  intros [Di Li Inj Na Da Ot Pc] Nu.
  assert (Fr : forall p x c, name p = nm -> warm_pc o j p c x -> warm_pc o j p (S c) x). { intros p x c _ H. destruct x; cbn in *; auto; try lia. destruct H as (? & ? & ? & ?). repeat split; auto. }
  destruct a as [p n|p|s].
  - assert (Cp : calls p (h ++ [Step p n]) = S (calls p h)). { rewrite calls_app. cbn. rewrite Nat.eqb_refl. lia. }
    assert (Cq : forall q, q <> p -> calls q (h ++ [Step p n]) = calls q h). { intros q Hq. rewrite calls_app. cbn. destruct (Nat.eqb_spec p q); [congruence|lia]. }
    assert (Al : (exists r, w_proc w p = Ended r) \/ forall r, w_proc w p <> Ended r) by (destruct (w_proc w p); eauto; right; intros; discriminate).
    destruct Al as [(r & E)|Alive].
    { cbn [CacheConc.act]. unfold pstep. rewrite E. split; auto. intros q Nq. destruct (Nat.eq_dec q p) as [->|Hq].
      - rewrite E, Cp. destruct (Pc p Nq) as [[O1 X]|(O1 & P1 & P2)]; [left; split; auto; eauto|right]. rewrite E in P1, P2. split; auto. split. apply Fr; auto. cbn [rank] in *. lia.
      - rewrite Cq; auto. }
    assert (Gen : forall c w', w_dir w' = true -> w_name w' = w_name w -> w_next w' = w_next w -> w_data w' j = w_data w j -> w_proc w' = upd_fun p c (w_proc w) ->
       (forall k off o', c = Writing k off o' -> k <> j /\ k < w_next w) ->
       (name p = nm -> old p = false -> warm_pc o j p (S (calls p h)) c /\ rank o c + S (calls p h) <= 3 + List.length (dump o) + match c with Ended _ => S (calls p h) | _ => 0 end) -> inv5 old nm o j (h ++ [Step p n]) w').
    { intros c w' H1 H2 H3 H4 H5 H6 H7. split; auto; rewrite ?H2, ?H3; auto.
      - congruence.
      - intros q k off o' Q. rewrite H5 in Q. apply upd_case in Q as [[-> Q]|[_ Q]]; eauto.
      - intros q Nq. rewrite H5. destruct (Nat.eq_dec q p) as [->|Hq]. rewrite upd_eq, Cp. destruct (Pc p Nq) as [[O1 (r & X)]|(O1 & _)]; [|right; auto]. exfalso. eapply Alive; eauto. rewrite upd_ne, Cq by auto. auto. }
    cbn [CacheConc.act]. unfold pstep. destruct (w_proc w p) as [| | | |k buf| |o1|k off o1|r] eqn:E.
    + apply (Gen (if w_dir w then Look else MkDir)); auto. { rewrite Di. intros; discriminate. } intros Np. destruct (Pc p Np) as [[_ (r & X)]|(Hold & P1 & P2)]; [congruence|]. rewrite E in P1, P2. rewrite Di. cbn [warm_pc rank] in *. lia.
    + rewrite Di. apply (Gen (Ended CMkdirError)); auto. { intros; discriminate. } intros Np. destruct (Pc p Np) as [[_ (r & X)]|(Hold & P1 & P2)]; [congruence|]. rewrite E in P1. destruct P1.
    + eapply Gen; [exact Di|reflexivity|reflexivity|reflexivity|reflexivity|..]. { intros. destruct (w_name w (name p)); discriminate. } intros Np. destruct (Pc p Np) as [[_ (r & X)]|(Hold & P1 & P2)]; [congruence|]. rewrite E in P1, P2. rewrite Np, Na. cbn [warm_pc rank] in *. lia.
    + eapply Gen; [exact Di|reflexivity|reflexivity|reflexivity|reflexivity|..]. { intros. destruct (w_name w (name p)); discriminate. } intros Np. destruct (Pc p Np) as [[_ (r & X)]|(Hold & P1 & P2)]; [congruence|]. rewrite E in P1, P2. rewrite Np, Na. cbn [warm_pc rank List.length] in *.
      split; [|lia]. split; auto. split. reflexivity. split; [|lia]. assert (X := cod_some Codec o). destruct (dump o); [tauto|cbn; lia].
    + destruct (firstn (S n) (skipn (List.length buf) (w_data w k))) as [|b bs] eqn:F.
      * apply (Gen (Ended CLoadError)); auto. { intros; discriminate. } intros Np. destruct (Pc p Np) as [[_ (r & X)]|(Hold & P1 & P2)]; [congruence|]. rewrite E in P1. destruct P1 as (-> & P & L & _). rewrite Da in F. apply piece_nil in F. lia.
      * rewrite <- F. assert (Fl : 1 <= List.length (firstn (S n) (skipn (List.length buf) (w_data w k)))) by (rewrite F; cbn; lia). clear F.
        eapply Gen; [exact Di|reflexivity|reflexivity|reflexivity|reflexivity|..]. { intros. destruct (parse _); discriminate. } intros Np. destruct (Pc p Np) as [[_ (r & X)]|(Hold & P1 & P2)]; [congruence|]. rewrite E in P1, P2. destruct P1 as (-> & P & L & C3). cbn [rank] in P2.
        assert (Pre : prefix_of (dump o) (buf ++ firstn (S n) (skipn (List.length buf) (w_data w j)))). { apply prefix_read; auto. rewrite Da. unfold prefix_of. rewrite firstn_all. auto. rewrite Da. lia. }
        rewrite (prefix_parse _ _ Pre). destruct (Nat.ltb_spec (List.length (buf ++ firstn (S n) (skipn (List.length buf) (w_data w j)))) (List.length (dump o))) as [Lt|Ge]; cbn [warm_pc rank].
        -- repeat split; auto. rewrite app_length in *. lia.
        -- split; auto. lia.
    + eapply Gen; [exact Di|reflexivity|reflexivity|reflexivity|reflexivity|..]. { intros. destruct (compute _); discriminate. } intros Np. destruct (Pc p Np) as [[_ (r & X)]|(Hold & P1 & P2)]; [congruence|]. rewrite E in P1. destruct P1.
    + assert (Nn : name p <> nm). { intros Np. destruct (Pc p Np) as [[_ (r & X)]|(Hold & P1 & P2)]; [congruence|]. rewrite E in P1. destruct P1. }
      destruct (w_name w (name p)) as [k|] eqn:N.
      * assert (k <> j). { intros ->. apply Nn. eapply Inj; eauto. } apply (Gen (Writing k 0 o1)); auto. cbn [set_proc set_data w_data]. apply upd_ne; auto. intros k' off o' X. injection X as <- _ _. split; eauto. tauto.
      * split; cbn [w_dir w_name w_next w_data w_proc]; auto.
        -- intros s k. destruct (String.eqb_spec s (name p)); intros X. injection X as <-. lia. apply Li in X. lia.
        -- intros s s' k. destruct (String.eqb_spec s (name p)), (String.eqb_spec s' (name p)); subst; auto; intros X Y. injection X as <-. apply Li in Y. lia. injection Y as <-. apply Li in X. lia. eauto.
        -- destruct (String.eqb_spec nm (name p)); congruence.
        -- rewrite upd_ne; auto. apply Li in Na. lia.
        -- intros q k off o' Q. apply upd_case in Q as [[-> Q]|[_ Q]]. injection Q as <- _ _. apply Li in Na. lia. apply Ot in Q. lia.
        -- intros q Nq. assert (q <> p) by congruence. rewrite upd_ne, Cq by auto. auto.
    + destruct (Ot _ _ _ _ E) as [O1 O2]. assert (Nn : name p <> nm). { intros Np. destruct (Pc p Np) as [[_ (r & X)]|(Hold & P1 & P2)]; [congruence|]. rewrite E in P1. destruct P1. }
      destruct (firstn (S n) (skipn off (dump o1))) as [|b bs].
      * eapply Gen; [exact Di|reflexivity|reflexivity|reflexivity|reflexivity|..]. intros; discriminate. tauto.
      * eapply Gen; [exact Di|reflexivity|reflexivity| |reflexivity|..]. cbn [set_proc set_data w_data]. apply upd_ne; auto. intros k' off' o' X. injection X as <- _ _. auto. tauto.
    + exfalso. eapply Alive; eauto.
  - assert (Cq : forall q, calls q (h ++ [Kill p]) = calls q h). { intros q. rewrite calls_app. cbn. lia. }
    assert (G : forall c, c = w_proc w p \/ c = Ended CKilled -> inv5 old nm o j (h ++ [Kill p]) (set_proc p c w)).
    { intros c Hc. split; auto; cbn [set_proc w_proc w_name w_next].
      - intros q k off o' Q. apply upd_case in Q as [[-> Q]|[_ Q]]; eauto. destruct Hc as [->|Hc]; [eauto|congruence].
      - intros q Nq. rewrite Cq. destruct (Nat.eq_dec q p) as [->|Hq]; [|rewrite upd_ne; auto]. rewrite upd_eq. destruct Hc as [->| ->]; auto. destruct (Pc p Nq) as [[O1 _]|(O1 & P1 & P2)]; [left; split; eauto|right]. cbn. split; auto. split; auto. lia. }
    assert (S0 : inv5 old nm o j (h ++ [Kill p]) w). { split; auto. intros q Nq. rewrite Cq. auto. }
    cbn [CacheConc.act]. destruct (w_proc w p) eqn:E; auto.
  - cbn [CacheConc.act]. split; auto; cbn [w_name w_next].
    + intros s' k. destruct (String.eqb s' s); [discriminate|eauto].
    + intros s1 s2 k. destruct (String.eqb s1 s); [discriminate|]. destruct (String.eqb s2 s); [discriminate|eauto].
    + destruct (String.eqb_spec nm s); congruence.
    + intros q Nq. rewrite calls_app. cbn [calls w_proc]. rewrite Nat.add_0_r. apply (Pc q Nq).
Qed.
Lemma i5_play old nm o j w0 sched : inv5 old nm o j [] w0 -> ~ In (Unlink nm) sched -> inv5 old nm o j sched (play sched w0).
Proof.
  intros I. induction sched as [|a h IH] using rev_ind; intros Nu; auto. rewrite play_snoc. apply i5_act.
  - apply IH. intros X. apply Nu, in_or_app; auto.
  - intros ->. apply Nu, in_or_app. right; left; auto.
Qed.
(** When the cache file is complete and nobody removes it, then in every schedule of any number of processes, any of them killed, each
    process for this robot that starts now reads it and is served from it (or rejected by the check): no other outcome, and after
    3 + the size of the file calls it has ended. *)
Theorem C65_warm nm o w0 sched p : warm nm o w0 -> ~ In (Unlink nm) sched -> name p = nm -> w_proc w0 p = Begin ->
  (forall r, w_proc (play sched w0) p = Ended r -> r = from_file p o \/ r = CKilled)
  /\ (3 + List.length (dump o) < calls p sched -> exists r, w_proc (play sched w0) p = Ended r)
  /\ (~ In (Kill p) sched -> w_proc (play sched w0) p <> Ended CKilled).
Proof.
  intros (W1 & W2 & W3 & W4 & j & W5 & W6) Nu Np Bp. set (old := fun p => match w_proc w0 p with Ended _ => true | _ => false end).
  assert (I : inv5 old nm o j sched (play sched w0)).
  { apply i5_play; auto. split; auto.
    - intros q k off o' Q. destruct (W1 q) as [X|(r & X)]; congruence.
    - intros q Nq. unfold old. destruct (W1 q) as [X|(r & X)]; rewrite X; [right|left; eauto]. cbn [warm_pc rank calls]. split; [auto|split; [exact Logic.I|lia]]. }
  destruct (i5_pc _ _ _ _ _ _ I p Np) as [[X _]|(_ & P1 & P2)]. { unfold old in X. rewrite Bp in X. discriminate. } split; [|split].
  - intros r E. rewrite E in P1. auto.
  - intros C. destruct (w_proc (play sched w0) p); try lia. eauto.
  - clear - Bp. induction sched as [|a h IH] using rev_ind; intros NK. { cbn. rewrite Bp. discriminate. }
    assert (NK' : ~ In (Kill p) h) by (intros X; apply NK, in_or_app; auto). specialize (IH NK'). rewrite play_snoc. set (w := play h w0) in *. clearbody w.
    destruct a as [q n|q|s]; cbn [CacheConc.act]; auto.
    + unfold pstep. assert (G : forall c, (q = p -> c <> Ended CKilled) -> upd_fun q c (w_proc w) p <> Ended CKilled). { intros c Hc. unfold upd_fun. destruct (Nat.eqb_spec p q); auto. }
      destruct (w_proc w q) eqn:E; auto; cbn [set_proc w_proc].
      * apply G. intros _. destruct (w_dir w); discriminate.
      * destruct (w_dir w); apply G; discriminate.
      * apply G. destruct (w_name w (name q)); discriminate.
      * apply G. destruct (w_name w (name q)); discriminate.
      * destruct (firstn _ _); apply G; [discriminate|]. destruct (parse _); [|discriminate]. intros _. unfold CacheConc.from_file. destruct (_ || _); discriminate.
      * apply G. destruct (compute _); discriminate.
      * destruct (w_name w (name q)); apply G; discriminate.
      * destruct (firstn _ _); apply G; discriminate.
    + assert (q <> p). { intros ->. apply NK, in_or_app. right; left; auto. }
      destruct (w_proc w q) eqn:E; auto; cbn [set_proc w_proc]; rewrite upd_ne; auto.
Qed.
(** The two together: after a schedule without kills at whose end every process has ended or not begun, and in which the robot was run
    and its file not removed, all later runs of the robot are served what they would compute, in every schedule. *)
Theorem C65_after dir h sched nm o p : one_definition nm o -> (forall p, ~ In (Kill p) h) -> (forall q, w_proc (play h (cold dir)) q = Begin \/ exists r, w_proc (play h (cold dir)) q = Ended r) ->
  w_dir (play h (cold dir)) = true -> w_name (play h (cold dir)) nm <> None -> ~ In (Unlink nm) sched -> name p = nm -> w_proc (play h (cold dir)) p = Begin -> ~ In (Kill p) sched ->
  3 + List.length (dump o) < calls p sched -> w_proc (play (h ++ sched) (cold dir)) p = Ended (from_file p o).
Proof.
  intros One NK Q Di Nn Nu Np Bp NKp C. rewrite play_app. set (w0 := play h (cold dir)) in *.
  assert (Wm : warm nm o w0).
  { destruct (i3_play nm o One dir h) as (nf & Wf & _). fold w0 in Wf. split; auto. split; auto. split. { intros s j E. eapply wf_link; eauto. }
    split. { intros s s' j E E'. destruct (wf_link _ _ Wf _ _ E), (wf_link _ _ Wf _ _ E'). congruence. }
    assert (Nw : forall q j, name q = nm -> ~ writing w0 q j). { intros q j _ (off & o' & X). destruct (Q q) as [Y|(r & Y)]; congruence. }
    destruct (C65_file_complete dir h nm o One NK Nw) as [X|X]; [exfalso; apply Nn; exact X|exact X]. }
  destruct (C65_warm nm o w0 sched p Wm Nu Np Bp) as (A & L & D). destruct (L C) as (r & E). destruct (A r E) as [->| ->]; auto. exfalso. apply D; auto.
Qed.

(** * What goes wrong *)
(** (1) Two first runs on a machine without the directory: the second os.mkdir raises. *)
Theorem C65_mkdir_refuted : exists sched, (forall r, ~ In (Kill r) sched) /\ w_proc (play sched (cold false)) 1 = Ended CMkdirError.
Proof. exists [Step 0 0; Step 1 0; Step 0 0; Step 1 0]. split. { intros r [X|[X|[X|[X|[]]]]]; discriminate. } reflexivity. Qed.
(** a world by its parts *)
Definition is_world (w : world) (nm : string) (link : option nat) (data : list B) (c0 c1 c2 : pc) : Prop :=
  w_dir w = true /\ w_name w nm = link /\ w_data w 0 = data /\ w_next w = (match link with None => 0 | _ => 1 end) /\ w_proc w 0 = c0 /\ w_proc w 1 = c1 /\ w_proc w 2 = c2.
Section Race.
Variable nm : string.
Hypotheses (N0 : name 0 = nm) (N1 : name 1 = nm) (N2 : name 2 = nm).
Lemma w_start : is_world (cold true) nm None [] Begin Begin Begin. Proof. repeat split. Qed.
Lemma w_begin w link data c1 c2 n : is_world w nm link data Begin c1 c2 -> is_world (act w (Step 0 n)) nm link data Look c1 c2.
Proof. intros (D & N & Da & Nx & P0 & P1 & P2). unfold CacheConc.act, pstep. rewrite P0, D. repeat split; auto. Qed.
Lemma w_begin1 w link data c0 c2 n : is_world w nm link data c0 Begin c2 -> is_world (act w (Step 1 n)) nm link data c0 Look c2.
Proof. intros (D & N & Da & Nx & P0 & P1 & P2). unfold CacheConc.act, pstep. rewrite P1, D. repeat split; auto. Qed.
Lemma w_begin2 w link data c0 c1 n : is_world w nm link data c0 c1 Begin -> is_world (act w (Step 2 n)) nm link data c0 c1 Look.
Proof. intros (D & N & Da & Nx & P0 & P1 & P2). unfold CacheConc.act, pstep. rewrite P2, D. repeat split; auto. Qed.
Definition looked (link : option nat) : @pc V U K B := match link with Some _ => OpenR | None => Compute end.
Lemma w_look w link data c1 c2 n : is_world w nm link data Look c1 c2 -> is_world (act w (Step 0 n)) nm link data (looked link) c1 c2.
Proof. intros (D & N & Da & Nx & P0 & P1 & P2). unfold CacheConc.act, pstep. rewrite P0, N0, N. repeat split; auto. Qed.
Lemma w_look1 w link data c0 c2 n : is_world w nm link data c0 Look c2 -> is_world (act w (Step 1 n)) nm link data c0 (looked link) c2.
Proof. intros (D & N & Da & Nx & P0 & P1 & P2). unfold CacheConc.act, pstep. rewrite P1, N1, N. repeat split; auto. Qed.
Lemma w_look2 w link data c0 c1 n : is_world w nm link data c0 c1 Look -> is_world (act w (Step 2 n)) nm link data c0 c1 (looked link).
Proof. intros (D & N & Da & Nx & P0 & P1 & P2). unfold CacheConc.act, pstep. rewrite P2, N2, N. repeat split; auto. Qed.
Lemma w_comp w link data c1 c2 n o : compute (req 0) = Some o -> is_world w nm link data Compute c1 c2 -> is_world (act w (Step 0 n)) nm link data (OpenW o) c1 c2.
Proof. intros C (D & N & Da & Nx & P0 & P1 & P2). unfold CacheConc.act, pstep. rewrite P0, C. repeat split; auto. Qed.
Lemma w_comp1 w link data c0 c2 n o : compute (req 1) = Some o -> is_world w nm link data c0 Compute c2 -> is_world (act w (Step 1 n)) nm link data c0 (OpenW o) c2.
Proof. intros C (D & N & Da & Nx & P0 & P1 & P2). unfold CacheConc.act, pstep. rewrite P1, C. repeat split; auto. Qed.
Lemma w_create w data c1 c2 n o : is_world w nm None data (OpenW o) c1 c2 -> is_world (act w (Step 0 n)) nm (Some 0) [] (Writing 0 0 o) c1 c2.
Proof.
  intros (D & N & Da & Nx & P0 & P1 & P2). unfold CacheConc.act, pstep. rewrite P0, N0, N. unfold is_world. cbn [w_dir w_name w_data w_next w_proc]. rewrite Nx, String.eqb_refl. repeat split; auto.
Qed.
Lemma w_empty1 w data c0 c2 n o : is_world w nm (Some 0) data c0 (OpenW o) c2 -> is_world (act w (Step 1 n)) nm (Some 0) [] c0 (Writing 0 0 o) c2.
Proof. intros (D & N & Da & Nx & P0 & P1 & P2). unfold CacheConc.act, pstep. rewrite P1, N1, N. repeat split; auto. Qed.
Lemma w_openr1 w data c0 c2 n : is_world w nm (Some 0) data c0 OpenR c2 -> is_world (act w (Step 1 n)) nm (Some 0) data c0 (Reading 0 []) c2.
Proof. intros (D & N & Da & Nx & P0 & P1 & P2). unfold CacheConc.act, pstep. rewrite P1, N1, N. repeat split; auto. Qed.
Lemma w_openr2 w data c0 c1 n : is_world w nm (Some 0) data c0 c1 OpenR -> is_world (act w (Step 2 n)) nm (Some 0) data c0 c1 (Reading 0 []).
Proof. intros (D & N & Da & Nx & P0 & P1 & P2). unfold CacheConc.act, pstep. rewrite P2, N2, N. repeat split; auto. Qed.
Lemma w_write w data c1 c2 k o : S k <= List.length (dump o) -> is_world w nm (Some 0) data (Writing 0 0 o) c1 c2 ->
  is_world (act w (Step 0 k)) nm (Some 0) (firstn (S k) (dump o) ++ skipn (S k) data) (Writing 0 (S k) o) c1 c2.
Proof.
  intros L (D & N & Da & Nx & P0 & P1 & P2). unfold CacheConc.act, pstep. rewrite P0. cbn [skipn]. destruct (firstn (S k) (dump o)) as [|b bs] eqn:F. { apply (f_equal (@List.length B)) in F. rewrite firstn_length in F. cbn [List.length] in F. lia. }
  rewrite <- F. assert (Le : List.length (firstn (S k) (dump o)) = S k) by (rewrite firstn_length; lia). unfold is_world. cbn [set_proc set_data w_dir w_name w_data w_next w_proc].
  rewrite (upd_eq 0), (upd_eq 0), Le, Da. unfold write_at. rewrite Le. cbn [firstn Nat.sub repeat app Nat.add]. repeat split; auto.
Qed.
Lemma w_write1 w data c0 c2 k o : S k <= List.length (dump o) -> is_world w nm (Some 0) data c0 (Writing 0 0 o) c2 ->
  is_world (act w (Step 1 k)) nm (Some 0) (firstn (S k) (dump o) ++ skipn (S k) data) c0 (Writing 0 (S k) o) c2.
Proof.
  intros L (D & N & Da & Nx & P0 & P1 & P2). unfold CacheConc.act, pstep. rewrite P1. cbn [skipn]. destruct (firstn (S k) (dump o)) as [|b bs] eqn:F. { apply (f_equal (@List.length B)) in F. rewrite firstn_length in F. cbn [List.length] in F. lia. }
  rewrite <- F. assert (Le : List.length (firstn (S k) (dump o)) = S k) by (rewrite firstn_length; lia). unfold is_world. cbn [set_proc set_data w_dir w_name w_data w_next w_proc].
  rewrite (upd_eq 0), (upd_eq 1), Le, Da. unfold write_at. rewrite Le. cbn [firstn Nat.sub repeat app Nat.add]. repeat split; auto.
Qed.
Lemma w_read2 w data c0 c1 n o : List.length data = S n -> parse data = Some o -> is_world w nm (Some 0) data c0 c1 (Reading 0 []) -> w_proc (act w (Step 2 n)) 2 = Ended (from_file 2 o).
Proof.
  intros L P (D & N & Da & Nx & P0 & P1 & P2). unfold CacheConc.act, pstep. rewrite P2. cbn [List.length skipn app]. rewrite Da, <- L, firstn_all. destruct data; [discriminate|]. cbn [set_proc w_proc app]. rewrite P. reflexivity.
Qed.
(** (2) A run that starts while another is writing the file for the first time raises. *)
Theorem C65_half_written_refuted o : compute (req 0) = Some o -> exists sched, (forall a, In a sched -> exists p n, a = Step p n) /\ w_proc (play sched (cold true)) 1 = Ended CLoadError.
Proof.
  intros C. exists [Step 0 0; Step 0 0; Step 0 0; Step 0 0; Step 1 0; Step 1 0; Step 1 0; Step 1 0].
  split. { intros a H. repeat (destruct H as [<-|H]; [eauto|]). destruct H. }
  assert (W := w_openr1 _ _ _ _ 0 (w_look1 _ _ _ _ _ 0 (w_begin1 _ _ _ _ _ 0 (w_create _ _ _ _ 0 _ (w_comp _ _ _ _ _ 0 o C (w_look _ _ _ _ _ 0 (w_begin _ _ _ _ _ 0 w_start))))))).
  cbn [CacheConc.play fold_left]. cbn [looked] in W. destruct W as (D & N & Da & Nx & P0 & P1 & P2). unfold CacheConc.act at 1, pstep at 1. rewrite P1, Da. reflexivity.
Qed.
(** (3) Two first runs at the same time with different definitions: a third one can be served an object made of pieces of both, if the
    format does not notice. *)
Theorem C65_mixed_refuted oa ob k x : compute (req 0) = Some oa -> compute (req 1) = Some ob -> S k <= List.length (dump oa) -> S k <= List.length (dump ob) ->
  parse (firstn (S k) (dump oa) ++ skipn (S k) (dump ob)) = Some x ->
  exists sched, (forall a, In a sched -> exists p n, a = Step p n) /\ w_proc (play sched (cold true)) 2 = Ended (from_file 2 x).
Proof.
  intros C0 C1 La Lb P. destruct (dump ob) as [|b bs] eqn:Eb; [cbn in Lb; lia|]. rewrite <- Eb in *. set (l := List.length bs). assert (Ll : List.length (dump ob) = S l) by (rewrite Eb; auto).
  exists [Step 0 0; Step 0 0; Step 0 0; Step 1 0; Step 1 0; Step 1 0; Step 0 0; Step 1 0; Step 1 l; Step 0 k; Step 2 0; Step 2 0; Step 2 0; Step 2 l].
  split. { intros a H. repeat (destruct H as [<-|H]; [eauto|]). destruct H. }
  assert (W := w_empty1 _ _ _ _ 0 _ (w_create _ _ _ _ 0 _ (w_comp1 _ _ _ _ _ 0 ob C1 (w_look1 _ _ _ _ _ 0 (w_begin1 _ _ _ _ _ 0 (w_comp _ _ _ _ _ 0 oa C0 (w_look _ _ _ _ _ 0 (w_begin _ _ _ _ _ 0 w_start)))))))).
  apply (w_write1 _ _ _ _ l) in W; [|lia]. rewrite <- Ll, firstn_all, skipn_nil, app_nil_r in W. apply (w_write _ _ _ _ k) in W; [|lia].
  apply (w_begin2 _ _ _ _ _ 0) in W. apply (w_look2 _ _ _ _ _ 0) in W. cbn [looked] in W. apply (w_openr2 _ _ _ _ 0) in W. apply (w_read2 _ _ _ _ l x) in W; auto.
  rewrite app_length, firstn_length, skipn_length. lia.
Qed.
(** (4) A file that is removed after a run has seen it and before the run opens it makes the run raise (kinematics_pickle, 83-84). *)
Theorem C65_removed_refuted o : compute (req 0) = Some o -> exists h t n, w_proc (play h (cold true)) 1 = OpenR /\ (forall r, ~ In (Kill r) h) /\ t = [Unlink (name 1); Step 1 n]
  /\ w_proc (play (h ++ t) (cold true)) 1 = Ended CNoFile.
Proof.
  intros C. assert (W := w_look1 _ _ _ _ _ 0 (w_begin1 _ _ _ _ _ 0 (w_create _ _ _ _ 0 _ (w_comp _ _ _ _ _ 0 o C (w_look _ _ _ _ _ 0 (w_begin _ _ _ _ _ 0 w_start)))))).
  exists [Step 0 0; Step 0 0; Step 0 0; Step 0 0; Step 1 0; Step 1 0], [Unlink (name 1); Step 1 0], 0. cbn [app CacheConc.play fold_left]. cbn [looked] in W. destruct W as (D & N & Da & Nx & P0 & P1 & P2).
  split; [exact P1|]. split. { intros r H. repeat (destruct H as [H|H]; [discriminate|]). destruct H. } split; auto.
  match type of P1 with w_proc ?w 1 = _ => generalize w as w1, P1 end. clear. intros w1 P1. unfold CacheConc.act, pstep. cbn [w_proc w_name]. rewrite P1, String.eqb_refl. cbn [set_proc w_proc]. apply upd_eq.
Qed.
End Race.
(** That is the only way in which a run finds no file: on a machine that starts without cache files, in every schedule, a run that raises
    because the file is missing had seen the file, and the file was removed in between. *)
Theorem C65_no_file dir sched p : w_proc (play sched (cold dir)) p = Ended CNoFile -> exists h t, sched = h ++ Unlink (name p) :: t /\ w_proc (play h (cold dir)) p = OpenR.
Proof.
  assert (X : (w_proc (play sched (cold dir)) p = OpenR -> w_name (play sched (cold dir)) (name p) <> None \/ exists h t, sched = h ++ Unlink (name p) :: t /\ w_proc (play h (cold dir)) p = OpenR)
    /\ (w_proc (play sched (cold dir)) p = Ended CNoFile -> exists h t, sched = h ++ Unlink (name p) :: t /\ w_proc (play h (cold dir)) p = OpenR)); [|tauto].
  induction sched as [|a sched IH] using rev_ind. { split; discriminate. } rewrite play_snoc. set (w := play sched (cold dir)) in *. destruct IH as [I1 I2].
  assert (Ex : (exists h t, sched = h ++ Unlink (name p) :: t /\ w_proc (play h (cold dir)) p = OpenR) -> exists h t, sched ++ [a] = h ++ Unlink (name p) :: t /\ w_proc (play h (cold dir)) p = OpenR).
  { intros (h & t & -> & E). exists h, (t ++ [a]). rewrite <- app_assoc. auto. }
  destruct a as [q n|q|nm].
  - assert (Nm : forall s, w_name w s <> None -> w_name (act w (Step q n)) s <> None).
    { intros s H. unfold CacheConc.act, pstep. destruct (w_proc w q) as [| | | |j buf| |o|j off o|r]; cbn [set_proc w_name]; auto.
      - destruct (w_dir w); cbn [w_name]; auto.
      - destruct (firstn (S n) (skipn (List.length buf) (w_data w j))); cbn [w_name]; auto.
      - destruct (w_name w (name q)) eqn:E; cbn [set_proc set_data w_name]; auto. destruct (String.eqb s (name q)); auto. discriminate.
      - destruct (firstn (S n) (skipn off (dump o))); cbn [w_name set_proc set_data]; auto. }
    destruct (Nat.eq_dec q p) as [->|Ne].
    + destruct (w_proc w p) as [| | | |j buf| |o|j off o|r] eqn:P; unfold CacheConc.act, pstep; rewrite P.
      * cbn [set_proc w_proc]. rewrite upd_eq. destruct (w_dir w); split; discriminate.
      * destruct (w_dir w); cbn [set_proc w_proc]; rewrite upd_eq; split; discriminate.
      * cbn [set_proc w_proc w_name]. rewrite upd_eq. destruct (w_name w (name p)); split; try discriminate. left. discriminate.
      * cbn [set_proc w_proc w_name]. rewrite upd_eq. destruct (w_name w (name p)) eqn:E; split; try discriminate. intros _. apply Ex. destruct (I1 eq_refl) as [?|?]; auto. congruence.
      * destruct (firstn (S n) (skipn (List.length buf) (w_data w j))); cbn [set_proc w_proc]; rewrite upd_eq; [split; discriminate|]. destruct (parse _) as [x|]; [|split; discriminate]. unfold CacheConc.from_file. destruct (negb _ || _); split; discriminate.
      * cbn [set_proc w_proc]. rewrite upd_eq. destruct (Cache.compute nice fk (req p)); split; discriminate.
      * destruct (w_name w (name p)); cbn [set_proc set_data w_proc]; rewrite upd_eq; split; discriminate.
      * destruct (firstn (S n) (skipn off (dump o))); cbn [set_proc set_data w_proc]; rewrite upd_eq; split; discriminate.
      * rewrite P. split. discriminate. intros E. apply Ex. apply I2. exact E.
    + assert (Pp : w_proc (act w (Step q n)) p = w_proc w p).
      { assert (Np : p <> q) by congruence. unfold CacheConc.act, pstep. destruct (w_proc w q) as [| | | |j buf| |o|j off o|r]; cbn [set_proc w_proc]; rewrite ?upd_ne by auto; auto.
        - destruct (w_dir w); cbn [w_proc set_proc]; rewrite ?upd_ne by auto; auto.
        - destruct (firstn (S n) (skipn (List.length buf) (w_data w j))); cbn [w_proc set_proc]; rewrite ?upd_ne by auto; auto.
        - destruct (w_name w (name q)) eqn:E; cbn [set_proc set_data w_proc]; rewrite ?upd_ne by auto; auto.
        - destruct (firstn (S n) (skipn off (dump o))); cbn [w_proc set_proc set_data]; rewrite ?upd_ne by auto; auto. }
      rewrite Pp. split; auto. intros E. destruct (I1 E) as [H|H]; auto.
  - assert (Nm : w_name (act w (Kill q)) = w_name w). { unfold CacheConc.act. destruct (w_proc w q); reflexivity. } rewrite Nm.
    assert (Pp : w_proc (act w (Kill q)) p = w_proc w p \/ w_proc (act w (Kill q)) p = Ended CKilled).
    { unfold CacheConc.act. destruct (w_proc w q); auto; cbn [set_proc w_proc]; unfold upd_fun; destruct (p =? q); auto. }
    destruct Pp as [-> | ->]; [|split; discriminate]. split; auto. intros E. destruct (I1 E) as [H|H]; auto.
  - change (w_proc (act w (Unlink nm)) p) with (w_proc w p). split; [|auto]. intros E. destruct (string_dec nm (name p)) as [->|Ne].
    + right. exists sched, []. auto.
    + unfold CacheConc.act. cbn [w_name]. destruct (String.eqb_spec (name p) nm); [congruence|]. destruct (I1 E) as [H|H]; auto.
Qed.
End C65.
Print Assumptions C65_file_complete.
Print Assumptions C65_one_definition.
Print Assumptions C65_served.
Print Assumptions C65_warm.
Print Assumptions C65_after.
Print Assumptions C65_mkdir_refuted.
Print Assumptions C65_half_written_refuted.
Print Assumptions C65_mixed_refuted.
Print Assumptions C65_removed_refuted.
Print Assumptions C65_no_file.
