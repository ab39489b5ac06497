(** C53: squares in the generated C++ (x**2 is rewritten to x*x, text by text). *)
From Coq Require Import List String Ascii Bool Arith Lia.
From Verif Require Import Solver PropHist CodeGen.
Import ListNotations.
Local Open Scope string_scope.
Local Open Scope nat_scope.

(** * Specification: properties of texts *)
Fixpoint all_chars (p : ascii -> bool) (s : string) : bool := match s with EmptyString => true | String c t => p c && all_chars p t end.
(** the characters of a name (\w of the re module, for ASCII text) *)
Definition name_chars : string := "ABCDEFGHIJKLMNOPQRSTUVWXYZabcdefghijklmnopqrstuvwxyz0123456789_".
Definition name_char (c : ascii) : bool := existsb (Ascii.eqb c) (list_ascii_of_string name_chars).
Lemma word_spec c : word c = name_char c.
Proof. destruct c as [[] [] [] [] [] [] [] []]; reflexivity. Qed.
Lemma all_name_word w : all_chars word w = all_chars name_char w.
Proof. induction w; cbn [all_chars]; auto. rewrite word_spec, IHw. auto. Qed.
Definition is_word (w : string) : Prop := w <> "" /\ all_chars word w = true.
(** the text does not end in a word character *)
Fixpoint ends_nonword (s : string) : bool := match s with EmptyString => true | String c EmptyString => negb (word c) | String _ t => ends_nonword t end.
(** every '(' of the text is closed in it *)
Fixpoint closed (s : string) : bool := match s with EmptyString => true | String c t => (if Ascii.eqb c "(" then contains ")" t else true) && closed t end.

(** * Facts *)
Lemma app_empty_r s : append s "" = s. Proof. induction s; simpl; congruence. Qed.
Lemma contains_cons p c t : contains p (String c t) = String.prefix p (String c t) || contains p t. Proof. reflexivity. Qed.
Lemma contains_app_l p a : forall b, contains p b = true -> contains p (append a b) = true.
Proof. induction a as [|c a IH]; intros b H; auto. change (append (String c a) b) with (String c (append a b)). rewrite contains_cons, IH, orb_true_r; auto. Qed.
Lemma prefix_app p : forall a b, String.prefix p a = true -> String.prefix p (append a b) = true.
Proof. induction p as [|c p IH]; intros a b H. destruct (append a b); auto. destruct a as [|d a]; [discriminate|]. cbn [append String.prefix] in *. destruct (ascii_dec c d); auto. Qed.
Lemma contains_app_r p a : forall b, contains p a = true -> contains p (append a b) = true.
Proof.
  induction a as [|c a IH]; intros b H. { destruct p; [|discriminate]. destruct b; auto. }
  change (append (String c a) b) with (String c (append a b)). rewrite contains_cons in *. apply orb_true_iff in H as [H|H]. rewrite (prefix_app p (String c a) b H : String.prefix p (String c (append a b)) = true). auto. rewrite IH, orb_true_r; auto.
Qed.
Lemma word_star : word "*" = false. Proof. reflexivity. Qed.
(** step of sub_word at a non-word character *)
Lemma sub_word_nw w c t : word c = false -> ~ (w <> "" /\ String.prefix "**2" (String c t) = true) -> sub_word w (String c t) = append w (String c (sub_word "" t)).
Proof.
  intros Hc H. cbn [sub_word]. rewrite Hc. destruct t as [|c2 [|c3 t']]; auto. destruct (Ascii.eqb_spec c "*"); auto. destruct (Ascii.eqb_spec c2 "*"); auto. destruct (Ascii.eqb_spec c3 "2"); auto. subst. cbn [andb].
  destruct (String.eqb_spec w ""); auto. exfalso; apply H; split; [auto|destruct t'; reflexivity].
Qed.
Lemma sub_word_run w x : forall v, all_chars word x = true -> sub_word v (append x w) = sub_word (append v x) w.
Proof.
  induction x as [|c x IH]; intros v H. rewrite app_empty_r. auto. cbn [all_chars] in H. apply andb_true_iff in H as [H1 H2]. change (append (String c x) w) with (String c (append x w)). cbn [sub_word]. rewrite H1, IH by auto. rewrite append_assoc. auto.
Qed.
(** a text without "**" is unchanged *)
Lemma sub_word_none s : forall v, contains "**" s = false -> sub_word v s = append v s.
Proof.
  induction s as [|c t IH]; intros v H. rewrite app_empty_r. auto. rewrite contains_cons in H. apply orb_false_iff in H as [H1 H2]. destruct (word c) eqn:Wc.
  - cbn [sub_word]. rewrite Wc, IH by auto. rewrite append_assoc. auto.
  - rewrite sub_word_nw; auto. rewrite IH by auto. auto. intros [_ P]. destruct t as [|c2 t]; [|destruct t as [|c3 t]]; cbn [String.prefix] in *; try (destruct (ascii_dec "*" c); [destruct (ascii_dec "*" c2)|]; discriminate); try (destruct (ascii_dec "*" c); discriminate).
Qed.
(** the same in front of a text that does not start with '*', when the boundary is not inside a word *)
Lemma sub_word_pre pre : forall v rest, contains "**" pre = false -> (rest = "" \/ exists c t, rest = String c t /\ Ascii.eqb c "*" = false) -> ends_nonword pre = true -> pre <> "" ->
  sub_word v (append pre rest) = append v (append pre (sub_word "" rest)).
Proof.
  induction pre as [|c t IH]; intros v rest H R E Ne; [congruence|]. rewrite contains_cons in H. apply orb_false_iff in H as [H1 H2]. change (append (String c t) rest) with (String c (append t rest)).
  destruct t as [|c2 t].
  - cbn [ends_nonword] in E. apply negb_true_iff in E. rewrite sub_word_nw; auto. intros [_ P]. cbn [append] in P. destruct R as [->|(d & r & -> & D)]; cbn [append String.prefix] in P. destruct (ascii_dec "*" c); discriminate.
    destruct (ascii_dec "*" c); [|discriminate]. destruct (ascii_dec "*" d); [|discriminate]. subst d. discriminate.
  - assert (E' : ends_nonword (String c2 t) = true) by exact E. destruct (word c) eqn:Wc.
    + cbn [sub_word]. rewrite Wc, IH by (auto; discriminate). rewrite append_assoc. auto.
    + rewrite sub_word_nw; auto. rewrite IH by (auto; discriminate). auto. intros [_ P]. cbn [append String.prefix] in P. cbn [String.prefix] in H1. destruct (ascii_dec "*" c); [|discriminate]. destruct (ascii_dec "*" c2); [|discriminate]. destruct t; discriminate.
Qed.
Lemma upto_split s : forall a b, upto_close s = Some (a, b) -> s = append a (String ")" b) /\ contains ")" a = false.
Proof.
  induction s as [|c s IH]; intros a b; cbn [upto_close]; [discriminate|]. destruct (Ascii.eqb_spec c ")"). { intros E. injection E as <- <-. subst. auto. }
  destruct (upto_close s) as [[x y]|]; [|discriminate]. intros E. injection E as <- <-. destruct (IH x y eq_refl) as [-> C]. split; auto. rewrite contains_cons, C, orb_false_r. cbn [String.prefix]. destruct (ascii_dec ")" c); auto. congruence.
Qed.
Lemma match_contains s g rest : match_call s = Some (g, rest) -> contains "**2" s = true.
Proof.
  destruct s as [|a [|b [|c [|d t]]]]; try discriminate. cbn [match_call]. destruct (_ && _); [|discriminate]. destruct (upto_close t) as [[x y]|] eqn:U; [|discriminate]. destruct (_ && String.prefix _ _) eqn:P; [|discriminate]. intros _.
  apply andb_true_iff in P as [_ P]. destruct (upto_split t x y U) as [-> _].
  assert (X : contains "**2" y = true). { destruct y; [discriminate|]. rewrite contains_cons, P. auto. }
  rewrite !contains_cons. rewrite (contains_app_l _ x (String ")" y)) by (rewrite contains_cons, X, orb_true_r; auto). rewrite !orb_true_r. auto.
Qed.
Lemma sub_call_none n : forall s, contains "**2" s = false -> sub_call n s = s.
Proof.
  induction n as [|n IH]; intros s H; auto. cbn [sub_call]. destruct (match_call s) as [[g rest]|] eqn:E. { apply match_contains in E. congruence. }
  destruct s as [|c t]; auto. rewrite contains_cons in H. apply orb_false_iff in H as [_ H]. rewrite IH; auto.
Qed.
Lemma no2 s : contains "**" s = false -> contains "**2" s = false.
Proof.
  induction s as [|c t IH]; auto. rewrite !contains_cons. intros H. apply orb_false_iff in H as [H1 H2]. rewrite IH, orb_false_r by auto. cbn [String.prefix] in *. destruct (ascii_dec "*" c); auto. destruct t as [|c2 t]; auto. cbn [String.prefix] in *. destruct (ascii_dec "*" c2); auto. destruct t; discriminate.
Qed.
(** "**" does not arise at a boundary with a word character on one side *)
Lemma no_app_word a : forall b, contains "**" a = false -> contains "**" b = false -> (a = "" \/ b = "" \/ (exists c t, b = String c t /\ word c = true) \/ exists a' c, a = append a' (String c "") /\ word c = true) -> contains "**" (append a b) = false.
Proof.
  induction a as [|c a IH]; intros b Ha Hb H; auto. change (append (String c a) b) with (String c (append a b)). rewrite contains_cons in *. apply orb_false_iff in Ha as [Ha1 Ha2].
  assert (R : contains "**" (append a b) = false).
  { apply IH; auto. destruct H as [H|[H|[H|(a' & d & H & W)]]]; auto; [discriminate|]. destruct a' as [|x a']; cbn [append] in H; injection H as -> ->. left; auto. right; right; right. eauto. }
  rewrite R, orb_false_r. cbn [String.prefix] in *. destruct (ascii_dec "*" c); auto. destruct a as [|c2 a].
  - cbn [append]. destruct b as [|d b]; auto. cbn [String.prefix]. destruct (ascii_dec "*" d); auto. subst. destruct H as [H|[H|[(x & t & H & W)|(a' & x & H & W)]]]; try discriminate.
    + injection H as <- <-. discriminate.
    + destruct a' as [|y [|z a']]; cbn [append] in H; try discriminate. injection H as <-. discriminate.
  - cbn [append String.prefix] in *. destruct (ascii_dec "*" c2); auto. destruct a; discriminate.
Qed.

(** * C53 *)
(** A line without a power is printed as it is. *)
Theorem C53_no_power l : contains "**" l = false -> fix_line l = l.
Proof. unfold fix_line. intros ->. auto. Qed.
(** a name or number: a non-empty text of letters, digits and underscores *)
Definition is_name (w : string) : Prop := w <> "" /\ all_chars name_char w = true.
(** the text does not end inside a name *)
Definition ends_outside (s : string) : Prop := forall a c, s = append a (String c "") -> name_char c = false.
Lemma ends_out s : ends_outside s -> ends_nonword s = true.
Proof.
  induction s as [|c s IH]; intros H; auto. destruct s as [|d t]. { cbn [ends_nonword]. rewrite word_spec, (H "" c) by auto. auto. }
  apply IH. intros a x E. apply (H (String c a) x). cbn [append]. rewrite E. auto.
Qed.
(** The square of a symbol (or number) is rewritten to the product, wherever it is in the line. *)
Theorem C53_symbol_square pre w post : is_name w -> contains "**" pre = false -> contains "**" post = false -> ends_outside pre ->
  fix_line (append pre (append w (append "**2" post))) = append pre (append w (append "*" (append w post))).
Proof.
  intros [Nw Ww] Hp Hq Ep. rewrite <- all_name_word in Ww. apply ends_out in Ep. unfold fix_line.
  assert (Hc : contains "**" (append pre (append w (append "**2" post))) = true) by (apply contains_app_l, contains_app_l, (contains_app_r "**" "**2" post eq_refl)). rewrite Hc. cbv zeta.
  assert (Wc : exists c t, w = String c t /\ word c = true). { destruct w as [|c t]; [congruence|]. exists c, t. cbn [all_chars] in Ww. apply andb_true_iff in Ww as [Ww _]. auto. }
  assert (S : sub_word "" (append w (append "**2" post)) = append w (append "*" (append w post))).
  { rewrite sub_word_run by auto. change (append "" w) with w. change (append "**2" post) with (String "*" (String "*" (String "2" post))).
    cbn [sub_word]. rewrite word_star. cbn [Ascii.eqb Bool.eqb andb]. destruct (String.eqb_spec w ""); [congruence|]. cbn [negb]. rewrite (sub_word_none post "" Hq). auto. }
  assert (E : sub_word "" (append pre (append w (append "**2" post))) = append pre (append w (append "*" (append w post)))).
  { destruct pre as [|c p] eqn:Epre. exact S. rewrite <- Epre in *. rewrite sub_word_pre; auto. rewrite S. auto. right. destruct Wc as (d & t & -> & Wd). exists d. eexists. split. reflexivity. destruct (Ascii.eqb_spec d "*"); auto. subst. discriminate. rewrite Epre; discriminate. }
  rewrite E. apply sub_call_none, no2.
  assert (Wn : contains "**" w = false). { clear - Ww. induction w as [|c t IH]; auto. cbn [all_chars] in Ww. apply andb_true_iff in Ww as [W1 W2]. rewrite contains_cons, IH, orb_false_r by auto. cbn [String.prefix]. destruct (ascii_dec "*" c); auto. subst. discriminate. }
  assert (We : exists a' c, w = append a' (String c "") /\ word c = true).
  { clear - Nw Ww. induction w as [|c [|d t] IH]; [congruence| |]. exists "", c. cbn [all_chars] in Ww. apply andb_true_iff in Ww as [W _]. auto. cbn [all_chars] in Ww. apply andb_true_iff in Ww as [_ W]. destruct IH as (a & x & E & X); auto. discriminate. exists (String c a), x. rewrite E. auto. }
  apply no_app_word; auto. 2:{ right; right; left. destruct Wc as (c & t & -> & W). exists c. eexists. split; [reflexivity|auto]. }
  apply no_app_word; auto. change (append "*" (append w post)) with (append "*" (append w post)). apply no_app_word; auto. apply no_app_word; auto.
  right; right; left. destruct Wc as (c & t & -> & W). exists c. eexists. split; [reflexivity|auto].
Qed.
(** The square of a call with a three letter name (sin, cos, tan ...) whose argument contains no ')' and no power, if every '(' before it is closed before it. *)
Lemma upto_app x : forall y, contains ")" x = false -> upto_close (append x (String ")" y)) = Some (x, y).
Proof. induction x as [|c x IH]; intros y H; auto. rewrite contains_cons in H. apply orb_false_iff in H as [H1 H2]. change (append (String c x) (String ")" y)) with (String c (append x (String ")" y))). cbn [upto_close]. rewrite IH by auto. destruct (Ascii.eqb_spec c ")"); auto. subst. destruct x; discriminate. Qed.
Lemma drop3 y : drop 3 (append "**2" y) = y. Proof. reflexivity. Qed.
Lemma match_here f arg post : String.length f = 3 -> all_chars lower f = true -> arg <> "" -> contains ")" arg = false ->
  match_call (append f (append "(" (append arg (append ")**2" post)))) = Some (append f (append "(" (append arg ")")), post).
Proof.
  intros L A Na Ha. destruct f as [|a [|b [|c [|d f]]]]; try discriminate. cbn [all_chars] in A. rewrite andb_true_r in A. apply andb_true_iff in A as [A1 A]. apply andb_true_iff in A as [A2 A3].
  change (append (String a (String b (String c ""))) (append "(" (append arg (append ")**2" post)))) with (String a (String b (String c (String "(" (append arg (String ")" (append "**2" post))))))).
  cbn [match_call]. rewrite A1, A2, A3. cbn [andb Ascii.eqb Bool.eqb]. rewrite upto_app by auto. destruct (String.eqb_spec arg ""); [congruence|]. cbn [negb andb]. replace (String.prefix "**2" (append "**2" post)) with true by (destruct post; reflexivity). rewrite drop3. reflexivity.
Qed.
Lemma word_lower c : lower c = true -> word c = true. Proof. unfold word. intros ->. auto. Qed.
Lemma contains1 c s : contains (String c "") s = true <-> exists a b, s = append a (String c b).
Proof.
  induction s as [|d s IH]. { split; [discriminate|]. intros ([|x a] & b & E); discriminate. }
  rewrite contains_cons, orb_true_iff, IH. cbn [String.prefix]. split.
  - intros [H|(a & b & ->)]. destruct (ascii_dec c d); [|discriminate]. subst. exists "", s. auto. exists (String d a), b. auto.
  - intros (a & b & E). destruct a as [|x a]; cbn [append] in E; injection E as -> ->. left. destruct (ascii_dec c c); [destruct b; auto|congruence]. right. eauto.
Qed.
(** no match can start in [pre] *)
Lemma no_match_pre pre f arg post : pre <> "" -> closed pre = true -> contains "**" pre = false -> String.length f = 3 -> all_chars lower f = true ->
  match_call (append pre (append f (append "(" (append arg (append ")**2" post))))) = None.
Proof.
  intros Ne Cl Hp Lf Af. destruct f as [|f1 [|f2 [|f3 [|f4 f]]]]; try discriminate. cbn [all_chars] in Af. rewrite andb_true_r in Af. apply andb_true_iff in Af as [F1 Af]. apply andb_true_iff in Af as [F2 F3].
  assert (NP : forall x, lower x = true -> Ascii.eqb x "(" = false). { intros x Hx. destruct (Ascii.eqb_spec x "("); auto. subst. discriminate. }
  set (R := append "(" (append arg (append ")**2" post))). change (append (String f1 (String f2 (String f3 ""))) R) with (String f1 (String f2 (String f3 R))).
  destruct pre as [|a [|b [|c [|d pre]]]]; [congruence| | | |].
  - cbn [append match_call]. rewrite (NP f3) by auto. rewrite andb_false_r. auto.
  - cbn [append match_call]. rewrite (NP f2) by auto. rewrite andb_false_r. auto.
  - cbn [append match_call]. rewrite (NP f1) by auto. rewrite andb_false_r. auto.
  - change (append (String a (String b (String c (String d pre)))) (String f1 (String f2 (String f3 R)))) with (String a (String b (String c (String d (append pre (String f1 (String f2 (String f3 R)))))))).
    cbn [match_call]. destruct (_ && Ascii.eqb d "(") eqn:E; auto. apply andb_true_iff in E as [_ E]. apply Ascii.eqb_eq in E. subst d.
    cbn [closed] in Cl. apply andb_true_iff in Cl as [_ Cl]. apply andb_true_iff in Cl as [_ Cl]. apply andb_true_iff in Cl as [_ Cl]. apply andb_true_iff in Cl as [Cl _]. cbn [Ascii.eqb Bool.eqb] in Cl.
    assert (Hp' : contains "**" pre = false). { rewrite !contains_cons in Hp. repeat (apply orb_false_iff in Hp as [_ Hp]). auto. }
    assert (U : exists x y, upto_close (append pre (String f1 (String f2 (String f3 R)))) = Some (x, append y (String f1 (String f2 (String f3 R)))) /\ contains "**" y = false).
    { clear - Cl Hp'. induction pre as [|c p IH]; [discriminate|]. rewrite contains_cons in Hp', Cl. apply orb_false_iff in Hp' as [_ Hp']. change (append (String c p) (String f1 (String f2 (String f3 R)))) with (String c (append p (String f1 (String f2 (String f3 R))))). cbn [upto_close].
      destruct (Ascii.eqb_spec c ")"). { exists "", p. auto. } apply orb_true_iff in Cl as [Cl|Cl]. { cbn [String.prefix] in Cl. destruct (ascii_dec ")" c); [congruence|discriminate]. }
      destruct (IH Cl Hp') as (x & y & U & Y). rewrite U. eauto. }
    destruct U as (x & y & U & Y). rewrite U. destruct (String.prefix "**2" _) eqn:P; [|rewrite andb_false_r; auto]. exfalso.
    destruct y as [|y1 [|y2 y]]; cbn [append String.prefix] in P, Y.
    + destruct (ascii_dec "*" f1); [|discriminate]. subst. discriminate.
    + destruct (ascii_dec "*" y1); [|discriminate]. destruct (ascii_dec "*" f1); [|discriminate]. subst. discriminate.
    + rewrite contains_cons in Y. apply orb_false_iff in Y as [Y _]. cbn [String.prefix] in Y. destruct (ascii_dec "*" y1); [|discriminate]. destruct (ascii_dec "*" y2); [|discriminate]. destruct y; discriminate.
Qed.
Lemma closed_tail c p : closed (String c p) = true -> closed p = true. Proof. cbn [closed]. intros H. apply andb_true_iff in H. tauto. Qed.
Lemma sub_call_pre pre : forall n f arg post, closed pre = true -> contains "**" pre = false -> String.length f = 3 -> all_chars lower f = true -> String.length pre <= n ->
  sub_call n (append pre (append f (append "(" (append arg (append ")**2" post))))) = append pre (sub_call (n - String.length pre) (append f (append "(" (append arg (append ")**2" post))))).
Proof.
  induction pre as [|c p IH]; intros n f arg post Cl Hp Lf Af Ln. { cbn [String.length append]. rewrite Nat.sub_0_r. auto. }
  cbn [String.length] in *. destruct n as [|n]; [lia|]. assert (M := no_match_pre (String c p) f arg post ltac:(discriminate) Cl Hp Lf Af).
  cbn [sub_call]. rewrite M. change (append (String c p) (append f (append "(" (append arg (append ")**2" post))))) with (String c (append p (append f (append "(" (append arg (append ")**2" post)))))). cbv beta iota.
  rewrite IH; auto. eapply closed_tail; eauto. rewrite contains_cons in Hp. apply orb_false_iff in Hp. tauto. lia.
Qed.
Lemma str_len_app a b : String.length (append a b) = String.length a + String.length b. Proof. induction a; simpl; auto. Qed.
(** sub_word leaves a text alone when every "**2" in it follows a ')' *)
Lemma sub_word_call pre f arg post : contains "**" pre = false -> contains "**" arg = false -> contains "**" post = false -> is_word f ->
  sub_word "" (append pre (append f (append "(" (append arg (append ")**2" post))))) = append pre (append f (append "(" (append arg (append ")**2" post)))).
Proof.
  intros Hp Ha Hq [Nf Wf].
  assert (B : forall x v, contains "**" x = false -> sub_word v (append x (append ")**2" post)) = append v (append x (append ")**2" post))).
  { induction x as [|c x IH]; intros v H.
    - change (append "" (append ")**2" post)) with (String ")" (append "**2" post)). rewrite sub_word_nw; [|reflexivity|intros [_ P]; discriminate]. do 2 f_equal. change (append "**2" post) with (String "*" (String "*" (String "2" post))).
      rewrite sub_word_nw; [|reflexivity|intros [X _]; congruence]. cbn [append]. f_equal. rewrite sub_word_nw; [|reflexivity|intros [X _]; congruence]. cbn [append]. f_equal. rewrite (sub_word_none (String "2" post)). reflexivity.
      rewrite contains_cons, Hq. reflexivity.
    - rewrite contains_cons in H. apply orb_false_iff in H as [H1 H2]. change (append (String c x) (append ")**2" post)) with (String c (append x (append ")**2" post))). destruct (word c) eqn:Wc.
      + cbn [sub_word]. rewrite Wc, IH by auto. rewrite append_assoc. auto.
      + rewrite sub_word_nw; auto. rewrite IH by auto. auto. intros [_ P]. cbn [String.prefix] in *. destruct (ascii_dec "*" c); [|discriminate]. destruct x as [|c2 x]; [discriminate|]. cbn [append] in P. cbn [String.prefix] in H1, P. destruct (ascii_dec "*" c2); [|discriminate]. destruct x; discriminate. }
  assert (We : exists c t, f = String c t /\ word c = true). { destruct f as [|c t]; [congruence|]. exists c, t. cbn [all_chars] in Wf. apply andb_true_iff in Wf as [W _]. auto. }
  assert (Wl : exists a' c, f = append a' (String c "") /\ word c = true).
  { clear - Nf Wf. induction f as [|c [|d t] IH]; [congruence| |]. exists "", c. cbn [all_chars] in Wf. apply andb_true_iff in Wf as [W _]. auto. cbn [all_chars] in Wf. apply andb_true_iff in Wf as [_ W]. destruct IH as (a & x & E & X); auto. discriminate. exists (String c a), x. rewrite E. auto. }
  assert (Fn : contains "**" f = false). { clear - Wf. induction f as [|c t IH]; auto. cbn [all_chars] in Wf. apply andb_true_iff in Wf as [W1 W2]. rewrite contains_cons, IH, orb_false_r by auto. cbn [String.prefix]. destruct (ascii_dec "*" c); auto. subst. discriminate. }
  rewrite <- !append_assoc. rewrite (append_assoc (append (append (append pre f) "(") arg)). assert (X := B (append (append (append pre f) "(") arg) ""). rewrite !append_assoc in *. change (append "" (append pre (append f (append "(" (append arg (append ")**2" post)))))) with (append pre (append f (append "(" (append arg (append ")**2" post))))) in X. apply X.
  apply no_app_word; auto. 2:{ right; right; left. destruct We as (c & t & -> & W). exists c. eexists. split; [reflexivity|auto]. }
  apply no_app_word; auto.
Qed.
Definition lower_char (c : ascii) : bool := existsb (Ascii.eqb c) (list_ascii_of_string "abcdefghijklmnopqrstuvwxyz").
Lemma lower_spec c : lower c = lower_char c.
Proof. destruct c as [[] [] [] [] [] [] [] []]; reflexivity. Qed.
Lemma all_lower w : all_chars lower w = all_chars lower_char w.
Proof. induction w; cbn [all_chars]; auto. rewrite lower_spec, IHw. auto. Qed.
Theorem C53_call_square pre f arg post : String.length f = 3 -> all_chars lower_char f = true -> arg <> "" -> contains ")" arg = false -> contains "**" arg = false ->
  contains "**" pre = false -> closed pre = true -> contains "**" post = false ->
  fix_line (append pre (append f (append "(" (append arg (append ")**2" post))))) = append pre (append (append f (append "(" (append arg ")"))) (append "*" (append (append f (append "(" (append arg ")"))) post))).
Proof.
  intros Lf Af Na Ca Sa Sp Cp Sq. rewrite <- all_lower in Af. unfold fix_line.
  assert (Hc : contains "**" (append pre (append f (append "(" (append arg (append ")**2" post))))) = true). { do 4 apply contains_app_l. apply (contains_app_r "**" ")**2" post). reflexivity. }
  rewrite Hc. cbv zeta. assert (Wf : is_word f). { split. destruct f; discriminate. clear - Af. induction f; auto. cbn [all_chars] in *. apply andb_true_iff in Af as [A1 A2]. rewrite IHf, word_lower; auto. }
  rewrite sub_word_call by auto. set (s := String.length (append pre _)). rewrite (sub_call_pre pre); auto. 2:{ unfold s. rewrite str_len_app. lia. } f_equal.
  assert (Ls : exists m, s - String.length pre = S m). { unfold s. rewrite !str_len_app, Lf. exists (2 + (String.length "(" + (String.length arg + (String.length ")**2" + String.length post)))). lia. }
  destruct Ls as (m & ->). cbn [sub_call]. rewrite match_here by auto. rewrite (sub_call_none m post) by (apply no2; auto). auto.
Qed.
(** What it gets wrong: the square of a function with another name length, of a bracketed sum, inside a call, and powers starting with the digit 2. *)
Theorem C53_refuted :
  fix_line "th_1 = asin(x)**2;" = "th_1 = asin(x)*sin(x);"
  /\ fix_line "th_1 = sqrt(x)**2;" = "th_1 = sqrt(x)*qrt(x);"
  /\ fix_line "th_1 = (a + b)**2;" = "th_1 = (a + b)**2;"
  /\ fix_line "th_1 = sin(cos(x)**2);" = "th_1 = sin(cos(x)*sin(cos(x));"
  /\ fix_line "th_1 = asin((l_1*cos(x)**2)/l_2);" = "th_1 = asin((l_1*cos(x)*sin((l_1*cos(x))/l_2);"
  /\ fix_line "th_1 = x**23;" = "th_1 = x*x3;"
  /\ fix_line "th_1 = x**3;" = "th_1 = x**3;".
Proof. vm_compute. intuition. Qed.
Example C53_example : is_name "l_1" /\ closed "th_2v1 = atan2(Px, Py) - " = true
  /\ fix_line "th_2v1 = atan2(Px, Py) - cos(th_1s1)**2 + 3;" = "th_2v1 = atan2(Px, Py) - cos(th_1s1)*cos(th_1s1) + 3;"
  /\ fix_line "d_1v1 = sqrt(-l_1**2 + Px);" = "d_1v1 = sqrt(-l_1*l_1 + Px);".
Proof. split. split; [discriminate|reflexivity]. vm_compute. intuition. Qed.
