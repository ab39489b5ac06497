(** Facts about the C++ writer: block structure of what it writes. *)
From Coq Require Import Reals NArith ZArith List String Ascii Bool Arith Lia Permutation.
From Verif Require Import Expr Kin Solver SolSet SolSetFacts CodeGen PropCodeGen.
Import ListNotations.
Local Open Scope string_scope.
Local Open Scope list_scope.
Local Open Scope nat_scope.

(** * Specification: nesting of braces in a text *)
(** the nesting depth after reading a text at depth [d]; None if a brace closes that was not opened *)
Fixpoint depth (d : nat) (s : string) : option nat :=
  match s with
  | EmptyString => Some d
  | String c t => if Ascii.eqb c "{" then depth (S d) t else if Ascii.eqb c "}" then match d with 0 => None | S d' => depth d' t end else depth d t
  end.
Fixpoint depth_lines (d : nat) (ls : list string) : option nat := match ls with [] => Some d | l :: ls' => match depth d l with None => None | Some d' => depth_lines d' ls' end end.
Fixpoint brace_free (s : string) : bool := match s with EmptyString => true | String c t => negb (Ascii.eqb c "{") && negb (Ascii.eqb c "}") && brace_free t end.

Lemma depth_app a : forall b d, depth d (append a b) = match depth d a with None => None | Some d' => depth d' b end.
Proof. induction a as [|c a IH]; intros b d; cbn [append depth]; auto. destruct (Ascii.eqb c "{"); auto. destruct (Ascii.eqb c "}"); auto. destruct d; auto. Qed.
Lemma depth_free s : forall d, brace_free s = true -> depth d s = Some d.
Proof. induction s as [|c s IH]; intros d H; cbn in *; auto. destruct (Ascii.eqb c "{"); [discriminate|]. destruct (Ascii.eqb c "}"); [discriminate|]. auto. Qed.
Lemma depth_lines_app a : forall b d, depth_lines d (a ++ b) = match depth_lines d a with None => None | Some d' => depth_lines d' b end.
Proof. induction a as [|l a IH]; intros b d; cbn [app depth_lines]; auto. destruct (depth d l); auto. Qed.
Lemma free_app a b : brace_free (append a b) = brace_free a && brace_free b.
Proof. induction a as [|c a IH]; cbn [append brace_free]; auto. rewrite IH, !andb_assoc. auto. Qed.
Lemma times_free n : brace_free (times n "    ") = true. Proof. induction n; auto. Qed.

(** * Rewriting keeps a text free of braces *)
Lemma sub_word_free s : forall w, brace_free w = true -> brace_free s = true -> brace_free (sub_word w s) = true.
Proof.
  assert (G : forall n s w, String.length s <= n -> brace_free w = true -> brace_free s = true -> brace_free (sub_word w s) = true).
  { induction n as [|n IH]; intros s' w L Hw Hs. destruct s'; [exact Hw|cbn in L; lia]. destruct s' as [|c t]; [exact Hw|]. cbn [sub_word]. cbn [String.length] in L.
    assert (Ht : brace_free t = true) by (cbn [brace_free] in Hs; apply andb_true_iff in Hs; tauto).
    assert (Hc : brace_free (String c "") = true) by (cbn [brace_free] in *; apply andb_true_iff in Hs; rewrite (proj1 Hs); auto).
    destruct (word c). { apply IH; auto. lia. rewrite free_app, Hw, Hc. auto. }
    assert (P : brace_free (append w (String c (sub_word "" t))) = true). { rewrite free_app, Hw. cbn [brace_free andb] in *. apply andb_true_iff in Hs as [Hs _]. rewrite Hs. cbn [andb]. apply IH; auto. lia. }
    destruct t as [|c2 [|c3 t']]; auto. destruct (_ && _); auto. rewrite !free_app, Hw. cbn [andb]. change (brace_free "*") with true. cbn [andb]. apply IH; auto. cbn in L. lia.
    cbn [brace_free] in Ht. apply andb_true_iff in Ht as [_ Ht]. apply andb_true_iff in Ht as [_ Ht]. auto. }
  intros w. apply (G (String.length s)). lia.
Qed.
Lemma upto_free s : forall a b, upto_close s = Some (a, b) -> brace_free s = true -> brace_free a = true /\ brace_free b = true.
Proof.
  induction s as [|c s IH]; intros a b; cbn [upto_close brace_free]; [discriminate|]. intros E H. apply andb_true_iff in H as [H1 H2]. destruct (Ascii.eqb c ")"). { injection E as <- <-. auto. }
  destruct (upto_close s) as [[x y]|]; [|discriminate]. injection E as <- <-. destruct (IH x y eq_refl H2). split; auto. cbn [brace_free]. rewrite H1. auto.
Qed.
Lemma drop_free n : forall s, brace_free s = true -> brace_free (drop n s) = true.
Proof. induction n; intros [|c s] H; cbn [drop]; auto. apply IHn. cbn [brace_free] in H. apply andb_true_iff in H. tauto. Qed.
Lemma sub_call_free n : forall s, brace_free s = true -> brace_free (sub_call n s) = true.
Proof.
  induction n as [|n IH]; intros s H; cbn [sub_call]; auto. destruct (match_call s) as [[g rest]|] eqn:E.
  - assert (X : brace_free g = true /\ brace_free rest = true).
    { destruct s as [|a [|b [|c [|d t]]]]; try discriminate. cbn [match_call] in E. destruct (_ && _); [|discriminate]. destruct (upto_close t) as [[x y]|] eqn:U; [|discriminate]. destruct (_ && _); [|discriminate]. injection E as <- <-.
      cbn [brace_free] in H. apply andb_true_iff in H as [Ha H]. apply andb_true_iff in H as [Hb H]. apply andb_true_iff in H as [Hc H]. apply andb_true_iff in H as [Hd H].
      destruct (upto_free t x y U H) as [Hx Hy]. split. cbn [brace_free]. rewrite Ha, Hb, Hc, Hd, free_app, Hx. auto. exact (drop_free 3 y Hy). }
    destruct X as [X1 X2]. rewrite !free_app, X1, IH by auto. auto.
  - destruct s as [|c t]; auto. cbn [brace_free] in *. apply andb_true_iff in H as [H1 H2]. rewrite H1, IH; auto.
Qed.
Lemma fix_free l : brace_free l = true -> brace_free (fix_line l) = true.
Proof. intros H. unfold fix_line. destruct (contains "**" l); auto. apply sub_call_free, sub_word_free; auto. Qed.
Lemma split_free s : brace_free s = true -> forall l, In l (split_lines s) -> brace_free l = true.
Proof.
  induction s as [|c s IH]; intros H l Hl; cbn [split_lines] in Hl. destruct Hl as [<-|[]]; auto. cbn [brace_free] in H. apply andb_true_iff in H as [H1 H2]. destruct (Ascii.eqb c nl).
  - destruct Hl as [<-|Hl]; auto.
  - destruct (split_lines s) as [|x xs]. { destruct Hl as [<-|[]]. cbn [brace_free]. rewrite H1. auto. } destruct Hl as [<-|Hl]. cbn [brace_free]. rewrite H1. apply IH; auto. left; auto. apply IH; auto. right; auto.
Qed.

(** * The writer *)
(** a text whose every line, as printed, leaves the depth unchanged *)
Definition neutral (s : string) : Prop := forall l, In l (split_lines s) -> forall d, depth d (fix_line l) = Some d.
Lemma free_neutral s : brace_free s = true -> neutral s.
Proof. intros H l Hl d. apply depth_free, fix_free. eapply split_free; eauto. Qed.
(** the block level after some calls, when it never becomes negative *)
Fixpoint lev (ms : list cmd) (a : nat) : option nat :=
  match ms with [] => Some a | Line _ :: ms' => lev ms' a | Push :: ms' => lev ms' (S a) | Pop :: ms' => match a with 0 => None | S a' => lev ms' a' end end.
Lemma lev_app x : forall y a, lev (x ++ y) a = match lev x a with None => None | Some b => lev y b end.
Proof. induction x as [|[s| |] x IH]; intros y a; cbn [app lev]; auto. destruct a; auto. Qed.
Lemma lev_lines l : (forall m, In m l -> exists s, m = Line s) -> forall a, lev l a = Some a.
Proof. induction l as [|m l IH]; intros H a; auto. destruct (H m (or_introl eq_refl)) as (s & ->). cbn [lev]. apply IH. intros; apply H; right; auto. Qed.
Lemma lev_concat ls a : (forall l, In l ls -> lev l a = Some a) -> lev (List.concat ls) a = Some a.
Proof. induction ls as [|l ls IH]; intros H; cbn [List.concat]; auto. rewrite lev_app, H by (left; auto). apply IH. intros; apply H; right; auto. Qed.
Definition all_neutral (ms : list cmd) : Prop := forall s, In (Line s) ms -> neutral s.
Lemma neutral_app a b : all_neutral a -> all_neutral b -> all_neutral (a ++ b).
Proof. intros A B s H. apply in_app_iff in H as [H|H]; auto. Qed.

Definition cinv (c : cpp) (a : nat) : Prop := c_level c = Z.of_nat a /\ depth_lines 0 (c_out c) = Some a.
Lemma print_inv s c a : cinv c a -> (forall d, depth d s = Some d) -> cinv (c_print s c) a.
Proof.
  intros [H1 H2] N. split; auto. cbn [c_print c_out]. rewrite depth_lines_app, H2. cbn [depth_lines]. rewrite depth_app, depth_free by apply times_free. rewrite N. auto.
Qed.
Lemma line_inv ls : forall c a, cinv c a -> (forall l, In l ls -> forall d, depth d (fix_line l) = Some d) -> cinv (fold_left (fun c l => c_print (fix_line l) c) ls c) a.
Proof. induction ls as [|l ls IH]; intros c a H N; cbn [fold_left]; auto. apply IH. apply print_inv; auto. intros d. apply N. left; auto. intros l' Hl'. apply N. right; auto. Qed.
Lemma run_inv ms : forall c a b, cinv c a -> all_neutral ms -> lev ms a = Some b -> cinv (run_cpp ms c) b.
Proof.
  unfold run_cpp. induction ms as [|m ms IH]; intros c a b H N L; cbn [fold_left]. cbn in L. injection L as <-. auto.
  assert (N' : all_neutral ms) by (intros s Hs; apply N; right; auto). destruct m as [s| |]; cbn [lev] in L.
  - eapply IH; eauto. cbn [step_cpp]. apply line_inv; auto. apply N. left; auto.
  - eapply IH; eauto. destruct H as [H1 H2]. cbn [step_cpp]. split; cbn [c_print c_level c_out]. lia. rewrite depth_lines_app, H2. cbn [depth_lines]. rewrite depth_app, depth_free by apply times_free. auto.
  - destruct a as [|a]; [discriminate|]. eapply IH; eauto. destruct H as [H1 H2]. cbn [step_cpp]. split; cbn [c_print c_level c_out]. lia. rewrite depth_lines_app, H2. cbn [depth_lines]. rewrite depth_app, depth_free by apply times_free. auto.
Qed.
Lemma start_inv : cinv (Cpp [] 0) 0. Proof. split; auto. Qed.
Lemma level_run ms : forall c a b, c_level c = Z.of_nat a -> lev ms a = Some b -> c_level (run_cpp ms c) = Z.of_nat b.
Proof.
  assert (LL : forall ls c, c_level (fold_left (fun c l => c_print (fix_line l) c) ls c) = c_level c) by (induction ls as [|l ls IH]; intros c; cbn [fold_left]; auto; rewrite IH; auto).
  unfold run_cpp. induction ms as [|m ms IH]; intros c a b H L; cbn [fold_left]. cbn in L. injection L as <-. auto. destruct m as [s| |]; cbn [lev] in L.
  - eapply IH; eauto. cbn [step_cpp]. rewrite LL. auto.
  - eapply IH; eauto. cbn [step_cpp c_print c_level]. lia.
  - destruct a as [|a]; [discriminate|]. eapply IH; eauto. cbn [step_cpp c_print c_level]. lia.
Qed.
Lemma out_grows ms : forall c, exists l, c_out (run_cpp ms c) = c_out c ++ l.
Proof.
  unfold run_cpp. induction ms as [|m ms IH]; intros c; cbn [fold_left]. exists []. rewrite app_nil_r. auto.
  assert (X : exists l, c_out (step_cpp c m) = c_out c ++ l).
  { destruct m as [s| |]; cbn [step_cpp]. 2,3: eexists; reflexivity. generalize (split_lines s) as ls. clear. intros ls. revert c. induction ls as [|l ls IH]; intros c; cbn [fold_left]. exists []. rewrite app_nil_r. auto.
    destruct (IH (c_print (fix_line l) c)) as (x & ->). eexists. cbn [c_print c_out]. rewrite <- app_assoc. reflexivity. }
  destruct X as (x & X). destruct (IH (step_cpp c m)) as (y & ->). rewrite X. exists (x ++ y). rewrite app_assoc. auto.
Qed.
(** A text given to line() at block level [b] is in the file, with 4*[b] spaces before each of its lines. *)
Lemma written ms1 s ms2 b : lev ms1 0 = Some b -> forall l, In l (split_lines s) -> In (append (times b "    ") (fix_line l)) (c_out (run_cpp (ms1 ++ Line s :: ms2) (Cpp [] 0))).
Proof.
  intros L l Hl. unfold run_cpp. rewrite fold_left_app. cbn [fold_left]. fold (run_cpp ms1 (Cpp [] 0)). set (c := run_cpp ms1 (Cpp [] 0)). assert (Lc : c_level c = Z.of_nat b) by (apply (level_run ms1 (Cpp [] 0) 0 b); auto).
  destruct (out_grows ms2 (step_cpp c (Line s))) as (x & X). unfold run_cpp in X. rewrite X. apply in_or_app. left. clear X. cbn [step_cpp]. revert Lc. generalize c. clear c.
  induction (split_lines s) as [|l' ls IH]; [destruct Hl|]. intros c Lc. cbn [fold_left]. destruct Hl as [->|Hl].
  - assert (G : forall ls c, exists x, c_out (fold_left (fun c l => c_print (fix_line l) c) ls c) = c_out c ++ x).
    { clear. induction ls as [|l ls IH]; intros c; cbn [fold_left]. exists []. rewrite app_nil_r. auto. destruct (IH (c_print (fix_line l) c)) as (x & ->). eexists. cbn [c_print c_out]. rewrite <- app_assoc. reflexivity. }
    destruct (G ls (c_print (fix_line l) c)) as (x2 & ->). apply in_or_app. left. cbn [c_print c_out]. apply in_or_app. right. left. rewrite Lc, Nat2Z.id. auto.
  - apply IH; auto.
Qed.
(** Text without "**" is printed as it is; a text of one line is one line. *)
Lemma fix_id l : contains "**" l = false -> fix_line l = l. Proof. unfold fix_line. intros ->. auto. Qed.
Fixpoint no_nl (s : string) : bool := match s with EmptyString => true | String c t => negb (Ascii.eqb c nl) && no_nl t end.
Lemma split_one s : no_nl s = true -> split_lines s = [s].
Proof. induction s as [|c s IH]; cbn [no_nl split_lines]; auto. intros H. apply andb_true_iff in H as [H1 H2]. destruct (Ascii.eqb c nl); [discriminate|]. rewrite IH; auto. Qed.
Lemma no_nl_app a b : no_nl (append a b) = no_nl a && no_nl b.
Proof. induction a as [|c a IH]; cbn [append no_nl]; auto. rewrite IH, !andb_assoc. auto. Qed.
