(** C55, C56, C57: is the generated Python a Python program?  The specification is a small reading of Python's lexical rules:
    statements, brackets, strings, comments and indentation. *)
From Coq Require Import Reals ZArith List String Ascii Bool Arith Lia Permutation.
From Verif Require Import Expr Kin Solver SolSet SolSetFacts PropHist CodeGen PropCodeGen CppFacts PropCpp PropEmit PyFile.
Import ListNotations.
Local Open Scope string_scope.
Local Open Scope list_scope.
Local Open Scope nat_scope.

(** * Specification: Python's lines and indentation *)
Inductive mode := Code | Quote (q : ascii) | Escape (q : ascii) | Comment.
(** position in a line: mode, number of open brackets, and whether the last significant character was ':' outside brackets *)
Record lex := Lex { l_mode : mode; l_depth : nat; l_colon : bool }.
Definition quote_char (c : ascii) : bool := Ascii.eqb c "'" || Ascii.eqb c """".
Definition open_char (c : ascii) : bool := Ascii.eqb c "(" || Ascii.eqb c "[" || Ascii.eqb c "{".
Definition close_char (c : ascii) : bool := Ascii.eqb c ")" || Ascii.eqb c "]" || Ascii.eqb c "}".
Definition lex1 (s : lex) (c : ascii) : option lex :=
  match l_mode s with
  | Comment => Some s
  | Escape q => Some (Lex (Quote q) (l_depth s) false)
  | Quote q => Some (Lex (if Ascii.eqb c "\" then Escape q else if Ascii.eqb c q then Code else Quote q) (l_depth s) false)
  | Code =>
      if Ascii.eqb c "#" then Some (Lex Comment (l_depth s) (l_colon s))
      else if quote_char c then Some (Lex (Quote c) (l_depth s) false)
      else if open_char c then Some (Lex Code (S (l_depth s)) false)
      else if close_char c then match l_depth s with 0 => None | S d => Some (Lex Code d false) end
      else if Ascii.eqb c " " then Some s
      else Some (Lex Code (l_depth s) (Ascii.eqb c ":" && (l_depth s =? 0)))
  end.
Fixpoint lexs (s : lex) (t : string) : option lex := match t with EmptyString => Some s | String c t' => match lex1 s c with None => None | Some s' => lexs s' t' end end.
(** a line starting with [d] open brackets: the number of open brackets at its end, and whether it opens a block.  A string must end on its line *)
Definition lex_line (d : nat) (t : string) : option (nat * bool) :=
  match lexs (Lex Code d false) t with
  | Some s => match l_mode s with Code | Comment => Some (l_depth s, l_colon s) | _ => None end
  | None => None
  end.
(** leading blanks and the rest *)
Fixpoint strip (s : string) : nat * string := match s with String " " t => let '(n, r) := strip t in (S n, r) | _ => (0, s) end.
(** blank lines and comment lines *)
Definition ignored (r : string) : bool := match r with EmptyString => true | String c _ => Ascii.eqb c "#" end.
(** the stack of indentations: after a ':' a deeper one must follow; otherwise the same or an enclosing one *)
Fixpoint dedent (n : nat) (stk : list nat) : option (list nat) :=
  match stk with [] => None | t :: stk' => if t =? n then Some stk else if n <? t then dedent n stk' else None end.
Definition indent (want : bool) (n : nat) (stk : list nat) : option (list nat) :=
  if want then match stk with t :: _ => if t <? n then Some (n :: stk) else None | [] => None end else dedent n stk.
(** stack of indentations, a block is expected, open brackets *)
Definition pos := (list nat * bool * nat)%type.
Definition step_line (p : pos) (l : string) : option pos :=
  let '(stk, want, d) := p in
  if 0 <? d then match lex_line d l with None => None | Some (d', k) => Some (stk, k, d') end
  else let '(n, r) := strip l in
       if ignored r then Some p
       else match indent want n stk with
            | None => None
            | Some stk' => match lex_line 0 r with None => None | Some (d', k) => Some (stk', k, d') end
            end.
Fixpoint go (p : pos) (ls : list string) : option pos := match ls with [] => Some p | l :: ls' => match step_line p l with None => None | Some p' => go p' ls' end end.
(** every bracket and string is closed and the indentation is consistent *)
Definition well_indented (ls : list string) : Prop := exists stk, go ([0], false, 0) ls = Some (stk, false, 0).

(** the statements: lines that start outside brackets, without blank and comment lines and without their indentation *)
Fixpoint statements (d : nat) (ls : list string) : option (list string) :=
  match ls with
  | [] => if d =? 0 then Some [] else None
  | l :: ls' =>
      let r := snd (strip l) in
      if (d =? 0) && ignored r then statements d ls'
      else match lex_line d l with
           | None => None
           | Some (d', _) => match statements d' ls' with None => None | Some sts => Some (if d =? 0 then r :: sts else sts) end
           end
  end.
(** print followed by blanks and a string or a name: an error in Python 3, where print is an ordinary name *)
Definition print_statement (s : string) : bool :=
  String.prefix "print " s && match snd (strip (drop 5 s)) with String c _ => quote_char c || word c | EmptyString => false end.
Definition python3 (ls : list string) : Prop := exists sts, statements 0 ls = Some sts /\ forall l, In l sts -> print_statement l = false.

(** text of an expression: round brackets are balanced; no newline, comment, string, ':' or other brackets *)
Definition text_char (c : ascii) : bool :=
  negb (Ascii.eqb c nl || Ascii.eqb c "#" || quote_char c || Ascii.eqb c ":" || Ascii.eqb c "[" || Ascii.eqb c "]" || Ascii.eqb c "{" || Ascii.eqb c "}").
Fixpoint balanced (d : nat) (s : string) : bool :=
  match s with
  | EmptyString => d =? 0
  | String c t => text_char c && (if Ascii.eqb c "(" then balanced (S d) t else if Ascii.eqb c ")" then match d with 0 => false | S d' => balanced d' t end else balanced d t)
  end.
Definition plain (s : string) : Prop := balanced 0 s = true.
Fixpoint all_word (s : string) : bool := match s with EmptyString => true | String c t => word c && all_word t end.
Definition digit (c : ascii) : bool := between "0" "9" c.
(** a Python identifier (ASCII) *)
Definition identifier (s : string) : Prop := all_word s = true /\ match s with EmptyString => False | String c _ => digit c = false end.

(** * Facts *)
Lemma lexs_app a : forall s b, lexs s (append a b) = match lexs s a with None => None | Some s' => lexs s' b end.
Proof. induction a as [|c a IH]; intros; cbn; auto. destruct (lex1 s c); auto. Qed.
Lemma go_app a : forall p b, go p (a ++ b) = match go p a with None => None | Some p' => go p' b end.
Proof. induction a as [|l a IH]; intros; cbn; auto. destruct (step_line p l); auto. Qed.
Lemma file_app a b : file_lines (a ++ b) = file_lines a ++ file_lines b.
Proof. unfold file_lines. rewrite map_app, concat_app. auto. Qed.
Lemma split_ne s : split_lines s <> []. Proof. destruct s; cbn [split_lines]. discriminate. destruct (Ascii.eqb a nl); [discriminate|]. destruct (split_lines s); discriminate. Qed.
Lemma split_nl a b : split_lines (append a (String nl b)) = split_lines a ++ split_lines b.
Proof.
  induction a as [|c a IH]. reflexivity. change (append (String c a) (String nl b)) with (String c (append a (String nl b))). cbn [split_lines]. destruct (Ascii.eqb c nl). rewrite IH. auto.
  rewrite IH. assert (N := split_ne a). destruct (split_lines a) as [|x l]; [congruence|]. auto.
Qed.
Lemma balanced_lex s : forall d e k, balanced d s = true -> exists k', lexs (Lex Code (d + e) k) s = Some (Lex Code e k') /\ (k = false -> k' = false).
Proof.
  induction s as [|c s IH]; cbn [balanced]; intros d e k H.
  - apply Nat.eqb_eq in H as ->. exists k. split; auto.
  - apply andb_prop in H as [T H]. unfold text_char in T. apply negb_true_iff in T. repeat (apply orb_false_iff in T as [T ?]). cbn [lexs]. unfold lex1. cbn [l_mode l_depth l_colon].
    rewrite H6, H5. unfold open_char, close_char. rewrite H3, H2, H1, H0. rewrite !orb_false_r. destruct (Ascii.eqb c "(").
    + destruct (IH (S d) e false H) as (k' & A & B). exists k'. split; auto.
    + destruct (Ascii.eqb c ")"). { destruct d as [|d]; [discriminate|]. cbn [Nat.add]. destruct (IH d e false H) as (k' & A & B). exists k'. split; auto. }
      destruct (Ascii.eqb c " "). apply (IH d e k H). rewrite H4. destruct (IH d e false H) as (k' & A & B). cbn [andb]. exists k'. split; auto.
Qed.
Lemma plain_lex s d : plain s -> lexs (Lex Code d false) s = Some (Lex Code d false).
Proof. intros P. destruct (balanced_lex s 0 d false P) as (k' & A & B). rewrite (B eq_refl) in A. exact A. Qed.
Lemma balanced_nl s : forall d, balanced d s = true -> no_nl s = true.
Proof.
  induction s as [|c s IH]; cbn [balanced]; intros d H; auto. apply andb_prop in H as [T H]. cbn [no_nl]. unfold text_char in T. destruct (Ascii.eqb c nl); [discriminate|]. cbn.
  destruct (Ascii.eqb c "("). eapply IH; eauto. destruct (Ascii.eqb c ")"). destruct d; [discriminate|]. eapply IH; eauto. eapply IH; eauto.
Qed.
Lemma plain_nl s : plain s -> no_nl s = true. Proof. apply balanced_nl. Qed.
Lemma word_text c : word c = true -> text_char c = true /\ Ascii.eqb c "(" = false /\ Ascii.eqb c ")" = false /\ Ascii.eqb c " " = false /\ Ascii.eqb c "#" = false.
Proof. destruct c as [b0 b1 b2 b3 b4 b5 b6 b7]. destruct b0, b1, b2, b3, b4, b5, b6, b7; vm_compute; intuition congruence. Qed.
Lemma word_plain s : all_word s = true -> plain s.
Proof.
  unfold plain. induction s as [|c s IH]; cbn [all_word balanced]; auto. intros H. apply andb_prop in H as [W H]. destruct (word_text c W) as (T & -> & -> & _). rewrite T. auto.
Qed.
Lemma no_close t : forall d, last_close t = None -> balanced d t = true -> d = 0.
Proof.
  induction t as [|c t IH]; cbn [last_close balanced]; intros d L B. apply Nat.eqb_eq in B. auto. destruct (last_close t); [discriminate|]. destruct (Ascii.eqb c ")") eqn:E; [discriminate|].
  apply andb_prop in B as [_ B]. destruct (Ascii.eqb c "("). apply (IH (S d)) in B; auto. discriminate. auto.
Qed.
Lemma last_balanced t : forall d u, last_close t = Some u -> balanced d t = true -> balanced d u = true.
Proof.
  induction t as [|c t IH]; cbn [last_close]; intros d u L B; [discriminate|]. destruct (last_close t) as [u'|] eqn:E.
  - injection L as <-. cbn [balanced] in *. apply andb_prop in B as [T B]. rewrite T. cbn. destruct (Ascii.eqb c "("). apply (IH (S d) u'); auto. destruct (Ascii.eqb c ")"). destruct d; [discriminate|]. eapply IH; eauto. eapply IH; eauto.
  - destruct (Ascii.eqb c ")") eqn:C; [|discriminate]. injection L as <-. cbn [balanced] in B. apply andb_prop in B as [T B]. apply Ascii.eqb_eq in C. subst c. cbn in B. destruct d as [|d]; [discriminate|]. apply no_close in B; auto. subst d. reflexivity.
Qed.
Lemma parens_plain s g : parens s = Some g -> plain s -> plain g.
Proof.
  unfold plain. induction s as [|c s IH]; cbn [parens balanced]; intros H B; [discriminate|]. apply andb_prop in B as [T B]. destruct (Ascii.eqb c "(") eqn:E.
  - destruct (last_close s) as [u|] eqn:L; [|discriminate]. apply some_inj in H. subst g. cbn [balanced]. rewrite T, E. cbn. eapply last_balanced; eauto.
  - destruct (Ascii.eqb c ")"); [discriminate|]. auto.
Qed.
Lemma strip_word c t : word c = true -> strip (String c t) = (0, String c t).
Proof. intros W. destruct (word_text c W) as (_ & _ & _ & E & _). destruct c as [b0 b1 b2 b3 b4 b5 b6 b7]. destruct b0, b1, b2, b3, b4, b5, b6, b7; try reflexivity; discriminate. Qed.
Lemma strip4 x : strip (append "    " x) = let '(n, r) := strip x in (4 + n, r).
Proof. cbn. destruct (strip x). reflexivity. Qed.
Lemma step0 stk want d l n r stk' d' k : d = 0 -> strip l = (n, r) -> ignored r = false -> indent want n stk = Some stk' -> lex_line 0 r = Some (d', k) -> step_line (stk, want, d) l = Some (stk', k, d').
Proof. intros -> E I S L. unfold step_line. cbn [Nat.ltb Nat.leb]. rewrite E, I, S, L. auto. Qed.
Lemma step_skip stk want l n r : strip l = (n, r) -> ignored r = true -> step_line (stk, want, 0) l = Some (stk, want, 0).
Proof. intros E I. unfold step_line. cbn [Nat.ltb Nat.leb]. rewrite E, I. auto. Qed.
Lemma word_not_ignored c t : word c = true -> ignored (String c t) = false.
Proof. intros W. apply (word_text c W). Qed.
(** lhs = rhs *)
Lemma assign_lex a b : all_word a = true -> plain b -> lex_line 0 (append a (append " = " b)) = Some (0, false).
Proof. intros A B. unfold lex_line. rewrite lexs_app, (plain_lex a 0 (word_plain a A)), lexs_app. change (lexs (Lex Code 0 false) " = ") with (Some (Lex Code 0 false)). cbv iota beta. rewrite (plain_lex b 0 B). auto. Qed.
Lemma one s : no_nl s = true -> file_lines [s] = [s].
Proof. intros N. unfold file_lines. cbn. rewrite (split_one s N). auto. Qed.
Lemma file_cons s l : file_lines (s :: l) = split_lines s ++ file_lines l. Proof. reflexivity. Qed.
Lemma go_one p s p' : no_nl s = true -> step_line p s = Some p' -> forall l, go p (file_lines (s :: l)) = go p' (file_lines l).
Proof. intros N S l. rewrite file_cons, (split_one s N). cbn. rewrite S. auto. Qed.

Section Prog.
Variable show : expr -> string.
(** the hypotheses on the texts, for the expressions and names that are printed *)
Definition plain_robot (r : robot) (groups : list row) : Prop :=
  plain (r_name r) /\ plain (fixed_name r) /\ (forall n, In n (r_nodes r) -> plain (n_name n))
  /\ (forall eqs q, In eqs (r_eqns r) -> In q eqs -> identifier (show (k_lhs q)) /\ plain (show (k_rhs q)))
  /\ (forall g v, In g groups -> In v g -> plain v).
Definition plain_params (r : robot) : Prop := forall p, In p (r_params r) -> identifier (fst p) /\ plain (snd p).

Lemma assign_step stk want n i a b stk' : identifier a -> plain b -> indent want n stk = Some stk' -> (forall x, strip (append i x) = let '(m, r) := strip x in (n + m, r)) ->
  step_line (stk, want, 0) (append i (append a (append " = " b))) = Some (stk', false, 0).
Proof.
  intros [A I] B In S. destruct a as [|c a]; [contradiction|]. apply andb_prop in A as [W A]. eapply step0 with (r := String c (append a (append " = " b))); auto.
  - rewrite S. change (append (String c a) (append " = " b)) with (String c (append a (append " = " b))). rewrite (strip_word c _ W). reflexivity.
  - apply word_not_ignored; auto.
  - rewrite Nat.add_0_r. exact In.
  - change (String c (append a (append " = " b))) with (append (String c a) (append " = " b)). apply assign_lex; auto. cbn [all_word]. rewrite W. auto.
Qed.
Lemma strip8 x : strip (append (append ind ind) x) = let '(n, r) := strip x in (8 + n, r).
Proof. cbn. destruct (strip x). reflexivity. Qed.
Lemma assign_nl i a b : no_nl i = true -> identifier a -> plain b -> no_nl (append i (append a (append " = " b))) = true.
Proof. intros I [A _] B. rewrite !no_nl_app, I, (plain_nl a (word_plain a A)), (plain_nl b B). reflexivity. Qed.
(** inside the function body *)
Definition inside (stk : list nat) : Prop := dedent 4 stk = Some [4; 0].
Definition runs (ls : list string) : Prop := forall stk, inside stk -> exists stk', inside stk' /\ go (stk, false, 0) ls = Some (stk', false, 0).
Lemma runs_nil : runs []. Proof. intros stk I. exists stk. auto. Qed.
Lemma runs_app a b : runs a -> runs b -> runs (a ++ b).
Proof. intros A B stk I. destruct (A stk I) as (s1 & I1 & G1). destruct (B s1 I1) as (s2 & I2 & G2). exists s2. split; auto. rewrite go_app, G1. auto. Qed.
Lemma runs_concat ls : (forall l, In l ls -> runs l) -> runs (List.concat ls).
Proof. induction ls; cbn; intros H. apply runs_nil. apply runs_app; auto. Qed.
Lemma runs_file_app a b : runs (file_lines a) -> runs (file_lines b) -> runs (file_lines (a ++ b)).
Proof. intros. rewrite file_app. apply runs_app; auto. Qed.
Lemma runs_file_concat ls : (forall l, In l ls -> runs (file_lines l)) -> runs (file_lines (List.concat ls)).
Proof. induction ls; cbn [List.concat]; intros H. apply runs_nil. apply runs_file_app. apply H; left; auto. apply IHls. intros; apply H; right; auto. Qed.
Lemma inside_step stk l r d' k : inside stk -> strip l = (4, r) -> ignored r = false -> lex_line 0 r = Some (d', k) -> step_line (stk, false, 0) l = Some ([4; 0], k, d').
Proof. intros I S G L. eapply step0; eauto. Qed.
Lemma runs_comment l n r : no_nl l = true -> strip l = (n, r) -> ignored r = true -> runs (file_lines [l]).
Proof. intros N S I stk J. exists stk. split; auto. rewrite (one l N). cbn [go]. rewrite (step_skip _ _ _ _ _ S I). auto. Qed.
Lemma runs_assign a b : identifier a -> plain b -> runs (file_lines [append ind (append a (append " = " b))]).
Proof.
  intros A B stk I. exists [4; 0]. split; [reflexivity|]. rewrite one by (apply assign_nl; auto). cbn [go].
  rewrite (assign_step stk false 4 ind a b [4; 0]); auto. intros x. apply strip4.
Qed.
Lemma guard_step g stk : inside stk -> plain g -> step_line (stk, false, 0) (append (append ind "if (solvable_pose and abs ") (append g "  > 1):")) = Some ([4; 0], true, 0).
Proof.
  intros I G. eapply inside_step with (r := append "if (solvable_pose and abs " (append g "  > 1):")); try reflexivity; auto.
  unfold lex_line. rewrite lexs_app. change (lexs (Lex Code 0 false) "if (solvable_pose and abs ") with (Some (Lex Code 1 false)). cbv iota beta. rewrite lexs_app, (plain_lex g 1 G). reflexivity.
Qed.
Lemma runs_guard a b g : identifier a -> plain b -> plain g ->
  runs (file_lines [append (append ind "if (solvable_pose and abs ") (append g "  > 1):"); append (append ind ind) "solvable_pose = False"; append ind "else:"; append (append ind ind) (append a (append " = " b))]).
Proof.
  intros A B G stk I. exists [8; 4; 0]. split; [reflexivity|].
  rewrite (go_one _ _ ([4; 0], true, 0)); [|rewrite !no_nl_app, (plain_nl g G); reflexivity|apply guard_step; auto].
  rewrite (go_one _ _ ([8; 4; 0], false, 0)); [|reflexivity|reflexivity]. rewrite (go_one _ _ ([4; 0], true, 0)); [|reflexivity|reflexivity].
  rewrite (go_one _ _ ([8; 4; 0], false, 0)); [reflexivity|apply assign_nl; auto|]. apply assign_step with (n := 8); auto. intros x. apply strip8.
Qed.
Lemma version_runs n q ls : identifier (show (k_lhs q)) -> plain (show (k_rhs q)) -> py_version show n q = Some ls -> runs (file_lines ls).
Proof.
  intros I P V. assert (A := runs_assign _ _ I P). unfold py_version in V.
  assert (Q : runs (file_lines ((if contains "atan" (show (k_rhs q)) then [append ind (assign_text show q)] else []) ++ (if String.eqb (n_method n) "algebra" then [append ind (assign_text show q)] else [])))).
  { apply runs_file_app. destruct (contains "atan" (show (k_rhs q))); [exact A|apply runs_nil]. destruct (String.eqb (n_method n) "algebra"); [exact A|apply runs_nil]. }
  destruct (contains "asin" (show (k_rhs q)) || contains "acos" (show (k_rhs q))).
  - destruct (parens (show (k_rhs q))) as [g|] eqn:E; [|discriminate]. apply some_inj in V. subst ls. apply runs_file_app; auto. apply runs_guard; auto. eapply parens_plain; eauto.
  - apply some_inj in V. subst ls. auto.
Qed.
Lemma node_runs r groups n ls : plain_robot r groups -> In n (r_nodes r) -> py_node show r n = Some ls -> runs (file_lines ls).
Proof.
  intros (_ & _ & Pn & Pq & _) Hn V. unfold py_node in V. destruct (node_eqns r n) as [qs|] eqn:Eq; [|discriminate]. destruct (mapM (py_version show n) qs) as [vs|] eqn:Ev; [|discriminate]. apply some_inj in V. subst ls.
  apply runs_file_app.
  - change [nls; append (append ind "#Variable:  ") (n_name n)] with ([nls] ++ [append (append ind "#Variable:  ") (n_name n)]). apply runs_file_app. { intros stk I. exists stk. auto. }
    eapply runs_comment. rewrite !no_nl_app, (plain_nl _ (Pn n Hn)). reflexivity. reflexivity. reflexivity.
  - apply runs_file_concat. intros l Hl. apply mapM_some in Ev as [Lv Ev]. apply In_nth_error in Hl as (k & Hl). assert (Lk : k < List.length qs). { rewrite <- Lv. apply nth_error_Some. congruence. }
    destruct (nth_error qs k) as [q|] eqn:Hq; [|apply nth_error_None in Hq; lia]. destruct (Ev k q Hq) as (l' & L1 & L2). assert (l' = l) by congruence. subst l'.
    unfold node_eqns in Eq. apply mapM_some in Eq as [Le Eq]. assert (Lk2 : k < List.length (r_eqns r)) by (rewrite <- Le; auto). destruct (nth_error (r_eqns r) k) as [eqs|] eqn:He; [|apply nth_error_None in He; lia].
    destruct (Eq k eqs He) as (q' & Q1 & Q2). assert (q' = q) by congruence. subst q'. destruct (Pq eqs q) as [A B]. eapply nth_error_In; eauto. eapply nth_error_In; eauto. eapply version_runs; eauto.
Qed.
Lemma sorted_in v g : In v (sort g) -> In v g. Proof. intros H. eapply Permutation_in; [apply sort_perm|exact H]. Qed.
Lemma items_go stk vs : (forall v, In v vs -> plain v) -> forall l, go (stk, false, 2) (file_lines (map (fun v => append v ", ") vs ++ l)) = go (stk, false, 2) (file_lines l).
Proof.
  intros P l. induction vs as [|v vs IH]; auto. cbn [map]. change ((append v ", " :: map (fun v => append v ", ") vs) ++ l) with (append v ", " :: (map (fun v => append v ", ") vs ++ l)).
  assert (Pv : plain v) by (apply P; left; auto). rewrite (go_one _ _ (stk, false, 2)). apply IH. intros; apply P; right; auto. rewrite no_nl_app, (plain_nl v Pv). reflexivity.
  unfold step_line, lex_line. rewrite lexs_app, (plain_lex v 2 Pv). reflexivity.
Qed.
Lemma row_runs g : (forall v, In v g -> plain v) -> runs (file_lines (py_row g)).
Proof.
  intros P stk I. exists [4; 0]. split; [reflexivity|]. unfold py_row.
  change (go (stk, false, 0) (file_lines (append ind "#(note trailing commas allowed in python" :: append ind "solution_list.append( [ " :: (map (fun v => append v ", ") (sort g) ++ ["] )"]))) = Some ([4; 0], false, 0)).
  rewrite (go_one _ _ (stk, false, 0)); [|reflexivity|reflexivity]. rewrite (go_one _ _ ([4; 0], false, 2)); [|reflexivity|eapply inside_step; auto; reflexivity].
  rewrite items_go. reflexivity. intros v Hv. apply P. apply sorted_in. auto.
Qed.
Lemma tail_go r groups stk : plain_robot r groups -> inside stk -> exists stk', go (stk, false, 0) (file_lines (py_tail groups)) = Some (stk', false, 0) /\ stk' = [8; 4; 0].
Proof.
  intros (_ & _ & _ & _ & Pg) I. exists [8; 4; 0]. split; auto. unfold py_tail.
  change (go (stk, false, 0) (file_lines (["
##################################
#
#package the solutions into a list for each set
#
###################################
"] ++ [append ind "solution_list = []"] ++ (List.concat (map py_row groups) ++ [append ind "if(solvable_pose):"; append (append ind ind) "return(solution_list)"; append ind "else: "; append (append ind ind) "return(False)"]))) = Some ([8; 4; 0], false, 0)).
  rewrite file_app, go_app. match goal with |- match ?x with _ => _ end = _ => change x with (Some (stk, false, 0)) end. cbv iota beta.
  rewrite file_app, go_app. match goal with |- match ?x with _ => _ end = _ => assert (X : x = Some ([4; 0], false, 0)) end. { rewrite one by reflexivity. cbn [go]. erewrite inside_step; [reflexivity|exact I|reflexivity|reflexivity|reflexivity]. }
  rewrite X. rewrite file_app, go_app. destruct (runs_file_concat (map py_row groups)) with (stk := [4; 0]) as (s' & I' & G'); [|reflexivity|].
  { intros l Hl. apply in_map_iff in Hl as (g & <- & Hg). apply row_runs. intros v. apply Pg; auto. }
  rewrite G'. rewrite (go_one _ _ ([4; 0], true, 0)); [|reflexivity|eapply inside_step; auto; reflexivity]. reflexivity.
Qed.
Definition head1 (name : string) : string := append "#!/usr/bin/python
#  Python inverse kinematic equations for " (append name "

import numpy as np
from math import sqrt
from math import atan2
from math import cos
from math import sin
from math import acos
from math import asin

pi = np.pi

").
Lemma head1_go name t : no_nl name = true -> go ([0], false, 0) (file_lines (head1 name :: t)) = go ([0], false, 0) (file_lines t).
Proof.
  intros N. rewrite file_cons, go_app. unfold head1.
  change (append "#!/usr/bin/python
#  Python inverse kinematic equations for " (append name "

import numpy as np
from math import sqrt
from math import atan2
from math import cos
from math import sin
from math import acos
from math import asin

pi = np.pi

")) with (append "#!/usr/bin/python" (String nl (append "#  Python inverse kinematic equations for " (append name "

import numpy as np
from math import sqrt
from math import atan2
from math import cos
from math import sin
from math import acos
from math import asin

pi = np.pi

")))). rewrite split_nl. rewrite go_app. change (go ([0], false, 0) (split_lines "#!/usr/bin/python")) with (Some ([0], false, 0)). cbv iota beta.
  replace (append "#  Python inverse kinematic equations for " (append name "

import numpy as np
from math import sqrt
from math import atan2
from math import cos
from math import sin
from math import acos
from math import asin

pi = np.pi

")) with (append (append "#  Python inverse kinematic equations for " name) (String nl "
import numpy as np
from math import sqrt
from math import atan2
from math import cos
from math import sin
from math import acos
from math import asin

pi = np.pi

")) by (rewrite <- append_assoc; reflexivity).
  rewrite split_nl, go_app. rewrite split_one by (rewrite no_nl_app, N; reflexivity). cbn [go]. erewrite step_skip; [|reflexivity|reflexivity]. reflexivity.
Qed.
Lemma head_go r t : plain (r_name r) -> plain (fixed_name r) ->
  go ([0], false, 0) (file_lines (py_head r ++ t)) = go ([4; 0], false, 0) (file_lines (py_params r :: skipn 9 (py_head r) ++ t)).
Proof.
  intros P1 P2. unfold py_head. cbn [app skipn].
  match goal with |- go _ (file_lines (?x :: ?y)) = _ => change x with (head1 (r_name r)); rewrite (head1_go _ y (plain_nl _ P1)) end.
  rewrite file_cons, go_app. match goal with |- match ?x with _ => _ end = _ => change x with (Some ([0], false, 0)) end. cbv iota beta.
  rewrite (go_one _ _ ([0], true, 0)); [|rewrite !no_nl_app, (plain_nl _ P2); reflexivity|].
  2:{ eapply step0 with (n := 0) (r := append "def ikin_" (append (fixed_name r) "(T):")); try reflexivity. unfold lex_line. rewrite lexs_app. change (lexs (Lex Code 0 false) "def ikin_") with (Some (Lex Code 0 false)). cbv iota beta. rewrite lexs_app, (plain_lex _ 0 P2). reflexivity. }
  rewrite (go_one _ _ ([4; 0], true, 0)); [|reflexivity|reflexivity]. rewrite (go_one _ _ ([8; 4; 0], false, 0)); [|reflexivity|reflexivity]. rewrite (go_one _ _ ([8; 4; 0], false, 0)); [|reflexivity|reflexivity].
  rewrite file_cons, go_app. match goal with |- match ?x with _ => _ end = _ => change x with (Some ([4; 0], false, 0)) end. cbv iota beta.
  rewrite (go_one _ _ ([4; 0], false, 0)); [|reflexivity|reflexivity]. reflexivity.
Qed.
Lemma after_params_go r t : go ([4; 0], false, 0) (file_lines (skipn 9 (py_head r) ++ t)) = go ([4; 0], false, 0) (file_lines t).
Proof.
  unfold py_head. cbn [app skipn]. do 5 (rewrite (go_one _ _ ([4; 0], false, 0)); [|reflexivity|reflexivity]).
  rewrite file_cons, go_app. match goal with |- match ?x with _ => _ end = _ => change x with (Some ([4; 0], false, 0)) end. reflexivity.
Qed.
Definition test_lines : string := substring 0 (String.length py_test1 - 12) py_test1.
Lemma test1_split : py_test1 = append test_lines (String nl "    list = "). Proof. vm_compute. reflexivity. Qed.
Definition test2_rest : string := drop 5 py_test2.
Lemma test2_split : py_test2 = append "(T1)" (String nl test2_rest). Proof. vm_compute. reflexivity. Qed.
Lemma test_split r : no_nl (fixed_name r) = true -> file_lines [py_test r] = split_lines test_lines ++ [append "    list = ikin_" (append (fixed_name r) "(T1)")] ++ split_lines test2_rest.
Proof.
  intros N. unfold file_lines. cbn [map List.concat]. rewrite app_nil_r. unfold py_test. rewrite test1_split, test2_split, !append_assoc.
  change (append (String nl "    list = ") (append "ikin_" (append (fixed_name r) (append "(T1)" (String nl test2_rest))))) with (String nl (append "    list = ikin_" (append (fixed_name r) (append "(T1)" (String nl test2_rest))))).
  rewrite split_nl. f_equal. rewrite <- !append_assoc, split_nl. f_equal. rewrite !append_assoc. apply split_one. rewrite !no_nl_app, N. reflexivity.
Qed.
Lemma test_go r : plain (fixed_name r) -> go ([8; 4; 0], false, 0) (file_lines [py_test r]) = Some ([8; 4; 0], false, 0).
Proof.
  intros P. rewrite test_split by (apply plain_nl; auto). rewrite go_app. assert (X : go ([8; 4; 0], false, 0) (split_lines test_lines) = Some ([4; 0], false, 0)) by (vm_compute; reflexivity). rewrite X. clear X.
  rewrite go_app. cbn [go]. erewrite step0 with (stk' := [4; 0]) (r := append "list = ikin_" (append (fixed_name r) "(T1)")); [|reflexivity|reflexivity|reflexivity|reflexivity|].
  2:{ unfold lex_line. rewrite lexs_app. change (lexs (Lex Code 0 false) "list = ikin_") with (Some (Lex Code 0 false)). cbv iota beta. rewrite lexs_app, (plain_lex _ 0 P). reflexivity. }
  vm_compute. reflexivity.
Qed.
Lemma nodes_runs r groups ns : plain_robot r groups -> mapM (py_node show r) (r_nodes r) = Some ns -> runs (file_lines (List.concat ns)).
Proof.
  intros P E. apply runs_file_concat. intros l Hl. apply mapM_some in E as [L E]. apply In_nth_error in Hl as (i & Hi). assert (Li : i < List.length (r_nodes r)). { rewrite <- L. apply nth_error_Some. congruence. }
  destruct (nth_error (r_nodes r) i) as [n|] eqn:Hn; [|apply nth_error_None in Hn; lia]. destruct (E i n Hn) as (l' & L1 & L2). assert (l' = l) by congruence. subst l'. eapply node_runs; eauto. eapply nth_error_In; eauto.
Qed.

(** C55: without parameters the generated inverse kinematics program is well indented. *)
Theorem C55_no_parameters r groups out : plain_robot r groups -> r_params r = [] -> output_python_file show r groups = Some out -> well_indented (file_lines out).
Proof.
  intros P N O. unfold output_python_file, output_python_code in O. destruct (mapM (py_node show r) (r_nodes r)) as [ns|] eqn:E; [|discriminate]. apply some_inj in O. subst out. assert (P' := P). destruct P' as (P1 & P2 & _).
  exists [8; 4; 0]. rewrite <- !app_assoc, (head_go r _ P1 P2). unfold py_params. rewrite N. cbn [map concat_s]. rewrite file_cons, go_app. change (go ([4; 0], false, 0) (split_lines (append nls ""))) with (Some ([4; 0], false, 0)). cbv iota beta.
  rewrite after_params_go, file_app, go_app. destruct (nodes_runs _ _ _ P E [4; 0]) as (s1 & I1 & G1); [reflexivity|]. rewrite G1, file_app, go_app. destruct (tail_go r groups s1 P I1) as (s2 & G2 & ->). rewrite G2. apply test_go; auto.
Qed.
(** one line per parameter, in column 0 *)
Definition par_line (r : robot) (p : string * string) : string :=
  append (fst p) (if r_pvals r then append " = " (snd p) else " = XXXXX    # deliberate undeclared error!  USER needs to give numerical value ").
Lemma params_lines r : plain_params r -> split_lines (py_params r) = "" :: map (par_line r) (r_params r) ++ [""].
Proof.
  intros P. unfold py_params. change (append nls ?x) with (String nl x). change (split_lines (String nl ?x)) with ("" :: split_lines x). f_equal. unfold plain_params in P. induction (r_params r) as [|p ps IH]. reflexivity.
  cbn [map concat_s app]. rewrite <- IH by (intros; apply P; right; auto). destruct (P p (or_introl eq_refl)) as [[A _] B]. unfold par_line at 1.
  set (T := concat_s _). destruct (r_pvals r).
  - replace (append (append (fst p) (append (append " = " (append (snd p) nls)) "")) T) with (append (append (fst p) (append " = " (snd p))) (String nl T)).
    rewrite split_nl, split_one. reflexivity. rewrite !no_nl_app, (plain_nl _ (word_plain _ A)), (plain_nl _ B). reflexivity. rewrite !append_assoc. reflexivity.
  - match goal with |- context [append (append ?x nls) ""] => set (X := x) end. replace (append (append (fst p) (append (append X nls) "")) T) with (append (append (fst p) X) (String nl T)).
    rewrite split_nl, split_one. reflexivity. rewrite !no_nl_app, (plain_nl _ (word_plain _ A)). reflexivity. rewrite !append_assoc. reflexivity.
Qed.
Lemma par_step r p stk : plain_params r -> In p (r_params r) -> dedent 0 stk = Some [0] -> step_line (stk, false, 0) (par_line r p) = Some ([0], false, 0).
Proof.
  intros P Hp D. destruct (P p Hp) as [A B]. unfold par_line. destruct (r_pvals r).
  - apply (assign_step stk false 0 "" (fst p) (snd p) [0]); auto. intros x. cbn. destruct (strip x). auto.
  - destruct A as [A I]. destruct (fst p) as [|c a] eqn:E; [contradiction|]. assert (W : word c = true) by (apply andb_prop in A; apply A).
    eapply step0 with (n := 0); [reflexivity| |apply word_not_ignored; exact W|exact D|]. apply strip_word. auto.
    change (lex_line 0 (append (String c a) " = XXXXX    # deliberate undeclared error!  USER needs to give numerical value ") = Some (0, false)). unfold lex_line. rewrite lexs_app, (plain_lex _ 0 (word_plain _ A)). reflexivity.
Qed.
Lemma par_go r ps stk : plain_params r -> (forall p, In p ps -> In p (r_params r)) -> ps <> [] -> dedent 0 stk = Some [0] -> go (stk, false, 0) (map (par_line r) ps) = Some ([0], false, 0).
Proof.
  intros P. revert stk. induction ps as [|p ps IH]; intros stk Hp N D; [congruence|]. cbn [map go]. rewrite (par_step r p stk P (Hp p (or_introl eq_refl)) D).
  destruct ps as [|p' ps]; [reflexivity|]. apply IH; [intros; apply Hp; right; auto|discriminate|reflexivity].
Qed.
(** C55, refuted: with at least one parameter it is not (IndentationError): the parameters are written in column 0, inside the function. *)
Theorem C55_parameters_refuted r groups out : plain (r_name r) -> plain (fixed_name r) -> plain_params r -> r_params r <> [] -> output_python_file show r groups = Some out -> ~ well_indented (file_lines out).
Proof.
  intros P1 P2 Pp N O (stk & G). unfold output_python_file, output_python_code in O. destruct (mapM (py_node show r) (r_nodes r)) as [ns|] eqn:E; [|discriminate]. apply some_inj in O. subst out.
  rewrite <- !app_assoc, (head_go r _ P1 P2), file_cons, (params_lines r Pp), go_app in G. change (?x :: ?y ++ ?z) with ([x] ++ y ++ z) in G. rewrite go_app in G. change (go ([4; 0], false, 0) [""]) with (Some ([4; 0], false, 0)) in G. cbv iota beta in G.
  rewrite go_app, (par_go r (r_params r) [4; 0]) in G; auto. unfold py_head in G. cbn [skipn app] in G.
  change (go ([0], false, 0) [""]) with (Some ([0], false, 0)) in G. cbv iota beta in G. rewrite file_cons, go_app in G. discriminate G.
Qed.
End Prog.

(** * C56: Python 3 *)
Lemma statements_app_end ls : forall d a, statements d (ls ++ a) <> None -> exists d', statements d' a <> None /\ forall sts, statements d (ls ++ a) = Some sts -> exists pre, forall sts', statements d' a = Some sts' -> sts = pre ++ sts'.
Proof.
  induction ls as [|l ls IH]; intros d a H.
  - exists d. split; auto. intros sts E. exists []. intros sts' E'. cbn [app] in *. congruence.
  - cbn [app statements] in H. cbn [app statements]. destruct ((d =? 0) && ignored (snd (strip l))). { destruct (IH d a H) as (d' & A & B). exists d'. split; auto. }
    destruct (lex_line d l) as [[d1 k]|]; [|congruence]. destruct (statements d1 (ls ++ a)) as [sts|] eqn:E; [|congruence]. destruct (IH d1 a ) as (d' & A & B); [congruence|]. exists d'. split; auto.
    intros s X. destruct (B sts E) as (pre & Y). apply some_inj in X. subst s. destruct (d =? 0). exists (snd (strip l) :: pre). intros s' Z. rewrite (Y s' Z). auto. exists pre. auto.
Qed.
Lemma test2_depth d : statements d (split_lines test2_rest) = if d =? 0 then Some ["i = 0"; "for sol in list:"; "print ''"; "print 'Solution ', i"; "i+=1"; "print sol"] else None.
Proof.
  assert (X : split_lines test2_rest = [""; "    i = 0"; "    for sol in list:"; "        print ''"; "        print 'Solution ', i"; "        i+=1"; "        print sol"; ""; ""; "    "]) by (vm_compute; reflexivity). rewrite X. clear X.
  destruct d as [|d]. vm_compute. reflexivity. reflexivity.
Qed.
Lemma split_last a b : exists pre, split_lines (append a (String nl b)) = pre ++ split_lines b.
Proof. exists (split_lines a). apply split_nl. Qed.
(** the generated program is never Python 3, whatever the robot *)
Theorem C56_python3_refuted show r groups out : output_python_file show r groups = Some out -> ~ python3 (file_lines out).
Proof.
  intros O (sts & E & H). unfold output_python_file in O. destruct (output_python_code show r groups) as [o|]; [|discriminate]. apply some_inj in O. subst out.
  assert (X : exists pre, file_lines (o ++ [py_test r]) = pre ++ split_lines test2_rest).
  { rewrite file_app. unfold file_lines at 2. cbn [map List.concat]. rewrite app_nil_r. unfold py_test. rewrite test2_split, <- !append_assoc. destruct (split_last (append (append (append py_test1 "ikin_") (fixed_name r)) "(T1)") test2_rest) as (pre & ->).
    exists (file_lines o ++ pre). apply app_assoc. }
  destruct X as (pre & X). rewrite X in E. destruct (statements_app_end pre 0 (split_lines test2_rest) ) as (d & A & B); [congruence|]. rewrite test2_depth in A, B. destruct (d =? 0); [|congruence].
  destruct (B sts E) as (q & Y). specialize (Y _ eq_refl). assert (Z : print_statement "print ''" = false). { apply H. rewrite Y. apply in_or_app. right. right. right. left. reflexivity. } vm_compute in Z. discriminate.
Qed.

(** * C57: the name of the generated function *)
Fixpoint all_alnum (s : string) : bool := match s with EmptyString => true | String c t => word c && negb (Ascii.eqb c "_") && all_alnum t end.
Lemma all_word_app a b : all_word (append a b) = all_word a && all_word b.
Proof. induction a as [|c a IH]; auto. change (append (String c a) b) with (String c (append a b)). cbn [all_word]. rewrite IH. apply andb_assoc. Qed.
Lemma replace_alnum s : all_alnum s = true -> replace_us s = s.
Proof.
  induction s as [|c s IH]; auto. cbn [all_alnum]. intros H. apply andb_prop in H as [H A]. apply andb_prop in H as [W U]. specialize (IH A). apply negb_true_iff in U.
  destruct c as [b0 b1 b2 b3 b4 b5 b6 b7]. destruct b0, b1, b2, b3, b4, b5, b6, b7; cbn [replace_us]; try (rewrite IH; reflexivity); discriminate.
Qed.
Lemma alnum_word s : all_alnum s = true -> all_word s = true.
Proof. induction s as [|c s IH]; auto. cbn [all_alnum all_word]. intros H. apply andb_prop in H as [H A]. apply andb_prop in H as [W _]. rewrite W. auto. Qed.
Lemma prefix_test_word s : all_word s = true -> String.prefix "test: " s = false.
Proof.
  intros W. destruct (String.prefix "test: " s) eqn:E; auto. exfalso. apply String.prefix_correct in E.
  do 6 (destruct s as [|? s]; [discriminate|]). cbn [all_word] in W. repeat (apply andb_prop in W as [? W]). cbn [String.length substring] in E. injection E as -> -> -> -> -> ->. discriminate.
Qed.
Lemma clean_word s f : all_word s = true -> remove_test f s = s.
Proof. revert s. induction f as [|f IH]; auto. intros s W. cbn [remove_test]. rewrite (prefix_test_word s W). destruct s as [|c s]; auto. apply andb_prop in W as [_ W]. rewrite IH; auto. Qed.
Theorem C57_identifier r : all_alnum (r_name r) = true -> identifier (append "ikin_" (fixed_name r)).
Proof.
  intros A. unfold fixed_name, clean_name. rewrite (replace_alnum _ A), (clean_word _ _ (alnum_word _ A)). split; [|reflexivity]. rewrite all_word_app, (alnum_word _ A). reflexivity.
Qed.
Lemma drop_bs n s : contains "\" (drop n s) = true -> contains "\" s = true.
Proof. revert n. induction s as [|c s IH]; intros [|n] H; auto. cbn [drop] in H. apply IH in H. cbn [contains]. rewrite H. apply orb_true_r. Qed.
Lemma contains_char c s : contains (String c "") s = true <-> In c (list_ascii_of_string s).
Proof.
  induction s as [|d s IH]; cbn [contains list_ascii_of_string]. split; [discriminate|contradiction]. rewrite orb_true_iff, IH. cbn [String.prefix In].
  destruct (ascii_dec c d) as [->|N]. split; auto. intros _. left. destruct s; reflexivity. split; intros [H|H]; auto; congruence.
Qed.
Lemma test_no_bs s : String.prefix "test: " s = true -> In "\"%char (list_ascii_of_string s) -> In "\"%char (list_ascii_of_string (drop 6 s)).
Proof.
  intros E H. apply String.prefix_correct in E. do 6 (destruct s as [|? s]; [discriminate|]). cbn [String.length substring] in E. injection E as -> -> -> -> -> ->.
  cbn [list_ascii_of_string In] in H. cbn [drop]. repeat (destruct H as [H|H]; [discriminate|]). destruct s; exact H.
Qed.
Lemma remove_bs f : forall s, In "\"%char (list_ascii_of_string s) -> In "\"%char (list_ascii_of_string (remove_test f s)).
Proof.
  induction f as [|f IH]; intros s H; auto. cbn [remove_test]. destruct (String.prefix "test: " s) eqn:E. apply IH. apply test_no_bs; auto.
  destruct s as [|c s]; auto. cbn [list_ascii_of_string In] in *. destruct H; auto.
Qed.
Lemma replace_bs s : In "_"%char (list_ascii_of_string s) -> In "\"%char (list_ascii_of_string (replace_us s)).
Proof.
  induction s as [|c s IH]; cbn [list_ascii_of_string In]; [contradiction|]. intros [->|H]. left; auto. specialize (IH H).
  destruct c as [b0 b1 b2 b3 b4 b5 b6 b7]. destruct b0, b1, b2, b3, b4, b5, b6, b7; cbn [replace_us list_ascii_of_string In]; auto.
Qed.
Lemma word_bs s : all_word s = true -> ~ In "\"%char (list_ascii_of_string s).
Proof. induction s as [|c s IH]; cbn [all_word list_ascii_of_string In]; intros W; [tauto|]. apply andb_prop in W as [W1 W]. intros [->|H]. discriminate. apply IH; auto. Qed.
Lemma ascii_app a b : list_ascii_of_string (append a b) = list_ascii_of_string a ++ list_ascii_of_string b.
Proof. induction a as [|c a IH]; auto. change (append (String c a) b) with (String c (append a b)). cbn [list_ascii_of_string app]. rewrite IH. auto. Qed.
(** a robot with an underscore in its name gets a function whose name is not an identifier (the name was prepared for LaTeX) *)
Theorem C57_underscore_refuted r : In "_"%char (list_ascii_of_string (r_name r)) -> ~ identifier (append "ikin_" (fixed_name r)).
Proof. intros U [W _]. apply word_bs in W. apply W. rewrite ascii_app. apply in_or_app. right. unfold fixed_name, clean_name. apply remove_bs. apply replace_bs. auto. Qed.
Theorem C57_definition show r groups out : output_python_code show r groups = Some out -> nth_error out 2 = Some (append "def " (append (append "ikin_" (fixed_name r)) "(T):")).
Proof. unfold output_python_code. destruct (mapM (py_node show r) (r_nodes r)); [|discriminate]. intros H. apply some_inj in H. subst out. unfold py_head. cbn [app nth_error]. f_equal. Qed.
Lemma replace_nl s : no_nl s = true -> no_nl (replace_us s) = true.
Proof.
  induction s as [|c s IH]; auto. cbn [no_nl]. intros H. apply andb_prop in H as [C H]. specialize (IH H).
  destruct c as [b0 b1 b2 b3 b4 b5 b6 b7]. destruct b0, b1, b2, b3, b4, b5, b6, b7; cbn [replace_us no_nl] in *; rewrite ?IH; auto.
Qed.
Lemma drop_nl n : forall s, no_nl s = true -> no_nl (drop n s) = true.
Proof. induction n as [|n IH]; intros [|c s] H; auto. cbn [drop no_nl] in *. apply andb_prop in H as [_ H]. auto. Qed.
Lemma remove_nl f : forall s, no_nl s = true -> no_nl (remove_test f s) = true.
Proof.
  induction f as [|f IH]; intros s H; auto. cbn [remove_test]. destruct (String.prefix "test: " s). apply IH, drop_nl; auto.
  destruct s as [|c s]; auto. cbn [no_nl] in *. apply andb_prop in H as [C H]. rewrite C. cbn. auto.
Qed.
Lemma no_nl_fixed r : no_nl (r_name r) = true -> no_nl (fixed_name r) = true.
Proof. intros H. apply remove_nl, replace_nl; auto. Qed.
(** the test code at the end calls the function the program defines *)
Theorem C57_test_calls show r groups out : no_nl (r_name r) = true -> output_python_file show r groups = Some out ->
  exists f, nth_error out 2 = Some (append "def " (append f "(T):")) /\ In (append "    list = " (append f "(T1)")) (file_lines out).
Proof.
  intros N H. unfold output_python_file in H. destruct (output_python_code show r groups) as [o|] eqn:E; [|discriminate]. injection H as <-.
  exists (append "ikin_" (fixed_name r)). assert (D := C57_definition show r groups o E). split.
  - rewrite nth_error_app1; auto. apply nth_error_Some. congruence.
  - rewrite file_app. apply in_or_app. right. rewrite test_split. apply in_or_app. right. apply in_or_app. left. left. reflexivity. apply no_nl_fixed; auto.
Qed.

(** * The forward kinematics program *)
Definition outside (stk : list nat) : Prop := dedent 0 stk = Some [0].
(** a piece of the program at column 0: it keeps the block structure and is Python 3 *)
Definition top (ls : list string) : Prop := (forall stk, outside stk -> exists stk', outside stk' /\ go (stk, false, 0) ls = Some (stk', false, 0)) /\ python3 ls.
Lemma statements_app a : forall d s1 b, statements d a = Some s1 -> statements d (a ++ b) = match statements 0 b with None => None | Some s2 => Some (s1 ++ s2) end.
Proof.
  induction a as [|l a IH]; intros d s1 b H; cbn [app statements] in *.
  - destruct (d =? 0) eqn:D; [|discriminate]. apply Nat.eqb_eq in D. subst d. apply some_inj in H. subst s1. destruct (statements 0 b); auto.
  - destruct ((d =? 0) && ignored (snd (strip l))). apply IH; auto. destruct (lex_line d l) as [[d1 k]|]; [|discriminate]. destruct (statements d1 a) as [s|] eqn:E; [|discriminate]. rewrite (IH d1 s b E). apply some_inj in H. subst s1.
    destruct (statements 0 b); auto. destruct (d =? 0); reflexivity.
Qed.
Lemma python3_app a b : python3 a -> python3 b -> python3 (a ++ b).
Proof. intros (s1 & E1 & H1) (s2 & E2 & H2). exists (s1 ++ s2). split. rewrite (statements_app a 0 s1 b E1), E2. auto. intros l Hl. apply in_app_or in Hl as [|]; auto. Qed.
Lemma top_nil : top []. Proof. split. intros stk I. exists stk. auto. exists []. split; auto. contradiction. Qed.
Lemma top_app a b : top a -> top b -> top (a ++ b).
Proof. intros [A A3] [B B3]. split; [|apply python3_app; auto]. intros stk I. destruct (A stk I) as (s1 & I1 & G1). destruct (B s1 I1) as (s2 & I2 & G2). exists s2. split; auto. rewrite go_app, G1. auto. Qed.
Lemma top_file_app a b : top (file_lines a) -> top (file_lines b) -> top (file_lines (a ++ b)). Proof. rewrite file_app. apply top_app. Qed.
Lemma top_file_cons a b : top (split_lines a) -> top (file_lines b) -> top (file_lines (a :: b)). Proof. rewrite file_cons. apply top_app. Qed.
Lemma top_map {A} (f : A -> string) l : (forall a, In a l -> top [f a]) -> top (map f l).
Proof. induction l as [|a l IH]; cbn [map]; intros H. apply top_nil. change (f a :: map f l) with ([f a] ++ map f l). apply top_app. apply H; left; auto. apply IH. intros; apply H; right; auto. Qed.
(** a line whose first word is an identifier and which is not a print statement *)
Lemma top_line c t : word c = true -> lex_line 0 (String c t) = Some (0, false) -> print_statement (String c t) = false -> top [String c t].
Proof.
  intros W L P. split.
  - intros stk O. exists [0]. split; [reflexivity|]. cbn [go]. rewrite (step0 stk false 0 (String c t) 0 (String c t) [0] 0 false); auto. apply strip_word; auto. apply word_not_ignored; auto.
  - exists [String c t]. split. cbn [statements]. rewrite (strip_word c t W). cbn [snd Nat.eqb andb]. rewrite (word_not_ignored c t W), L. reflexivity. intros l [<-|[]]. auto.
Qed.
Lemma top_skip l n r : strip l = (n, r) -> ignored r = true -> top [l].
Proof. intros S I. split. intros stk O. exists stk. split; auto. cbn [go]. rewrite (step_skip _ _ _ _ _ S I). auto. exists []. split. cbn [statements]. rewrite S. cbn [snd Nat.eqb andb]. rewrite I. auto. contradiction. Qed.
Lemma ident_not_print a b : identifier a -> print_statement (append a (append " = " b)) = false.
Proof.
  intros [W _]. unfold print_statement. destruct (String.prefix "print " (append a (append " = " b))) eqn:E; auto. cbn [andb]. apply String.prefix_correct in E. change (append " = " b) with (String " " (String "=" (String " " b))) in *.
  do 6 (destruct a as [|? a]; [cbn [append String.length substring] in E; try discriminate; injection E; intros; subst; try discriminate; try reflexivity|]).
  cbn [append String.length substring] in E. injection E as -> -> -> -> -> ->. exfalso. cbn [all_word] in W. repeat (apply andb_prop in W as [? W]). discriminate.
Qed.
Lemma top_assign a b : identifier a -> lexs (Lex Code 0 false) b = Some (Lex Code 0 false) \/ lexs (Lex Code 0 false) b = Some (Lex Comment 0 false) -> top [append a (append " = " b)].
Proof.
  intros A L. assert (X := ident_not_print a b A). destruct A as [W I]. assert (Y : lex_line 0 (append a (append " = " b)) = Some (0, false)).
  { unfold lex_line. rewrite lexs_app, (plain_lex a 0 (word_plain a W)), lexs_app. change (lexs (Lex Code 0 false) " = ") with (Some (Lex Code 0 false)). cbv iota beta. destruct L as [-> | ->]; reflexivity. }
  destruct a as [|c a]; [contradiction|]. change (append (String c a) (append " = " b)) with (String c (append a (append " = " b))) in *. apply top_line; auto. apply andb_prop in W. apply W.
Qed.
Lemma go_outside ls : forall p' stk, go ([0], false, 0) ls = Some p' -> outside stk -> go (stk, false, 0) ls = Some p' \/ (go (stk, false, 0) ls = Some (stk, false, 0) /\ p' = ([0], false, 0)).
Proof.
  induction ls as [|l ls IH]; intros p' stk G O. apply some_inj in G. right. auto. cbn [go] in *. unfold step_line in *. cbn [Nat.ltb Nat.leb] in *. destruct (strip l) as [n r]. destruct (ignored r). apply IH; auto.
  unfold indent in *. cbn [dedent] in G. destruct n as [|n]; [|destruct (S n <? 0) eqn:X; [apply Nat.ltb_lt in X; lia|discriminate]]. cbn [Nat.eqb] in G. rewrite O. left. exact G.
Qed.
Lemma top_const ls s' sts : go ([0], false, 0) ls = Some (s', false, 0) -> outside s' -> statements 0 ls = Some sts -> forallb (fun l => negb (print_statement l)) sts = true -> top ls.
Proof.
  intros G O S F. split.
  - intros stk I. destruct (go_outside ls _ stk G I) as [H|[H X]]. exists s'. auto. exists stk. auto.
  - exists sts. split; auto. intros l Hl. apply negb_true_iff. apply (proj1 (forallb_forall _ _) F); auto.
Qed.
Lemma top_one l : top [l] -> no_nl l = true -> top (split_lines l). Proof. intros T N. rewrite (split_one l N). auto. Qed.
Lemma top_params r : plain_params r -> top (split_lines (py_params r)).
Proof.
  intros P. rewrite (params_lines r P). change ("" :: map (par_line r) (r_params r) ++ [""]) with ([""] ++ map (par_line r) (r_params r) ++ [""]). apply top_app. eapply top_skip; reflexivity. apply top_app; [|eapply top_skip; reflexivity].
  apply top_map. intros p Hp. destruct (P p Hp) as [A B]. unfold par_line. destruct (r_pvals r). apply top_assign; auto. left. apply plain_lex; auto.
  apply (top_assign (fst p) "XXXXX    # deliberate undeclared error!  USER needs to give numerical value "); auto.
Qed.

(** ** C58: joint variables and sums of angles.  A joint variable is a letter name with a one character subscript, a sum has a longer subscript. *)
Definition letter (c : ascii) : bool := lower c || between "A" "Z" c.
Fixpoint all_chars (f : ascii -> bool) (s : string) : bool := match s with EmptyString => true | String c t => f c && all_chars f t end.
Definition joint_var (j : string * ascii) : string := append (fst j) (append "_" (String (snd j) "")).
Definition sum_var (v : string * string) : string := append (fst v) (append "_" (snd v)).
Definition good_joint (j : string * ascii) : Prop := all_chars letter (fst j) = true /\ fst j <> "" /\ digit (snd j) = true.
Definition good_sum (v : string * string) : Prop := all_chars letter (fst v) = true /\ fst v <> "" /\ all_chars digit (snd v) = true /\ 1 < String.length (snd v).
(** the joint variables whose subscripts make up the subscript of the sum, in the order of the subscript *)
Definition parts (js : list (string * ascii)) (v : string * string) : list string :=
  List.concat (map (fun c => map joint_var (filter (fun j => Ascii.eqb (snd j) c) js)) (list_ascii_of_string (snd v))).
Definition sum_line (js : list (string * ascii)) (v : string * string) : string := append (sum_var v) (append " =  " (append (String.concat " + " (parts js v)) " ")).

Lemma split_us_none s : ~ In "_"%char (list_ascii_of_string s) -> split_us s = [s].
Proof. induction s as [|c s IH]; cbn [list_ascii_of_string In split_us]; intros H; auto. destruct (Ascii.eqb c "_") eqn:E. apply Ascii.eqb_eq in E. subst. tauto. rewrite IH by tauto. auto. Qed.
Lemma split_us_app a b : ~ In "_"%char (list_ascii_of_string a) -> split_us (append a (append "_" b)) = a :: split_us b.
Proof.
  induction a as [|c a IH]; intros H. reflexivity. change (append (String c a) (append "_" b)) with (String c (append a (append "_" b))). cbn [split_us]. cbn [list_ascii_of_string In] in H. destruct (Ascii.eqb c "_") eqn:E. apply Ascii.eqb_eq in E. subst. tauto. rewrite IH by tauto. auto.
Qed.
Lemma all_in f s c : all_chars f s = true -> In c (list_ascii_of_string s) -> f c = true.
Proof. induction s as [|d s IH]; cbn [all_chars list_ascii_of_string In]; intros H; [contradiction|]. apply andb_prop in H as [H1 H]. intros [->|X]; auto. Qed.
Lemma letter_facts c : letter c = true -> c <> "_"%char /\ digit c = false /\ word c = true.
Proof. destruct c as [b0 b1 b2 b3 b4 b5 b6 b7]. destruct b0, b1, b2, b3, b4, b5, b6, b7; vm_compute; intuition congruence. Qed.
Lemma digit_facts c : digit c = true -> c <> "_"%char /\ word c = true.
Proof. destruct c as [b0 b1 b2 b3 b4 b5 b6 b7]. destruct b0, b1, b2, b3, b4, b5, b6, b7; vm_compute; intuition congruence. Qed.
Lemma pre_us p : all_chars letter p = true -> ~ In "_"%char (list_ascii_of_string p).
Proof. intros A H. apply (all_in _ _ _ A) in H. apply letter_facts in H as [H _]. congruence. Qed.
Lemma sub_us x : all_chars digit x = true -> ~ In "_"%char (list_ascii_of_string x).
Proof. intros A H. apply (all_in _ _ _ A) in H. apply digit_facts in H as [H _]. congruence. Qed.
Lemma split_joint j : good_joint j -> split_us (joint_var j) = [fst j; String (snd j) ""].
Proof. intros (A & N & D). unfold joint_var. rewrite (split_us_app _ _ (pre_us _ A)). f_equal. apply split_us_none. apply sub_us. cbn. rewrite D. auto. Qed.
Lemma split_sum v : good_sum v -> split_us (sum_var v) = [fst v; snd v].
Proof. intros (A & N & D & L). unfold sum_var. rewrite (split_us_app _ _ (pre_us _ A)). f_equal. apply split_us_none. apply sub_us. auto. Qed.
Lemma contains_joint c j : digit c = true -> good_joint j -> contains (String c "") (joint_var j) = Ascii.eqb (snd j) c.
Proof.
  intros D (A & N & Dj). apply Bool.eq_iff_eq_true. rewrite contains_char, Ascii.eqb_eq. unfold joint_var. rewrite !ascii_app. split.
  - intros H. apply in_app_or in H as [H|H]. apply (all_in _ _ _ A) in H. apply letter_facts in H as (_ & H & _). congruence. cbn in H. destruct H as [<-|[H|[]]]; auto. discriminate.
  - intros <-. apply in_or_app. right. right. left. auto.
Qed.
Lemma summands_joints c js : digit c = true -> Forall good_joint js -> summands c (map joint_var js) = Some (map joint_var (filter (fun j => Ascii.eqb (snd j) c) js)).
Proof.
  intros D H. induction H as [|j js G H IH]; auto. cbn [map summands filter]. unfold summand. rewrite (contains_joint c j D G), (split_joint j G), IH. cbn [nth_error]. destruct (Ascii.eqb (snd j) c); reflexivity.
Qed.
Lemma summands_sums c ss : Forall good_sum ss -> summands c (map sum_var ss) = Some [].
Proof.
  intros H. induction H as [|v ss G H IH]; auto. cbn [map summands]. unfold summand. rewrite (split_sum v G), IH. cbn [nth_error]. destruct (contains (String c "") (sum_var v)); auto. destruct G as (_ & _ & _ & L). destruct (Nat.eqb_spec (String.length (snd v)) 1); auto. lia.
Qed.
Lemma summands_app c a b l : summands c b = Some [] -> summands c a = Some l -> summands c (a ++ b) = Some l.
Proof.
  intros B. revert l. induction a as [|v a IH]; intros l H; cbn [app summands] in *. apply some_inj in H. subst. auto. destruct (summand c v); [|discriminate]. destruct (summands c a) as [l'|]; [|discriminate]. rewrite (IH l' eq_refl). auto.
Qed.
Lemma append_nil_r s : append s "" = s. Proof. induction s as [|c s IH]; auto. change (append (String c s) "") with (String c (append s "")). rewrite IH. auto. Qed.
Lemma concat_terms l : l <> [] -> concat_s (map (fun w => append " " (append w " +")) l) = append " " (append (String.concat " + " l) " +").
Proof.
  induction l as [|w l IH]; [congruence|]. intros _. destruct l as [|w' l]. cbn [map concat_s String.concat]. apply append_nil_r.
  cbn [map concat_s]. cbn [map concat_s] in IH. rewrite IH by discriminate. change (String.concat " + " (w :: w' :: l)) with (append w (append " + " (String.concat " + " (w' :: l)))). rewrite !append_assoc. reflexivity.
Qed.
Lemma cut_last y c : substring 0 (String.length (append y (String c "")) - 1) (append y (String c "")) = y.
Proof.
  assert (L : forall y, String.length (append y (String c "")) = S (String.length y)). { intros z. induction z as [|d z IHz]; auto. change (append (String d z) (String c "")) with (String d (append z (String c ""))). cbn [String.length]. rewrite IHz. auto. }
  rewrite L. replace (S (String.length y) - 1) with (String.length y) by lia. induction y as [|d y IH]. reflexivity. change (append (String d y) (String c "")) with (String d (append y (String c ""))). cbn [String.length substring]. rewrite IH. auto.
Qed.
Lemma mapM_all {A B} (f : A -> option B) (g : A -> B) l : (forall a, In a l -> f a = Some (g a)) -> mapM f l = Some (map g l).
Proof. induction l as [|a l IH]; intros H; auto. cbn [mapM map]. rewrite (H a (or_introl eq_refl)), IH; auto. intros; apply H; right; auto. Qed.
Lemma mapM_map {A B D} (f : B -> option D) (h : A -> B) l : mapM f (map h l) = mapM (fun a => f (h a)) l.
Proof. induction l as [|a l IH]; auto. cbn [map mapM]. rewrite IH. auto. Qed.
Lemma mapM_app {A B} (f : A -> option B) a b la lb : mapM f a = Some la -> mapM f b = Some lb -> mapM f (a ++ b) = Some (la ++ lb).
Proof. revert la. induction a as [|x a IH]; intros la H1 H2; cbn [app mapM] in *. apply some_inj in H1. subst. auto. destruct (f x); [|discriminate]. destruct (mapM f a) as [l|]; [|discriminate]. rewrite (IH l eq_refl H2). apply some_inj in H1. subst. auto. Qed.
Section FK.
Variables (js : list (string * ascii)) (ss : list (string * string)).
Hypothesis Hj : Forall good_joint js.
Hypothesis Hs : Forall good_sum ss.
(** every digit of a sum is the subscript of a joint variable *)
Hypothesis Hc : forall v c, In v ss -> In c (list_ascii_of_string (snd v)) -> exists j, In j js /\ snd j = c.
Lemma parts_ne v : In v ss -> parts js v <> [].
Proof.
  intros H. assert (G := proj1 (Forall_forall _ _) Hs v H). destruct G as (_ & _ & _ & L). destruct (snd v) as [|c x] eqn:E; [cbn in L; lia|]. destruct (Hc v c H) as (j & J1 & J2). rewrite E. left. auto.
  unfold parts. rewrite E. cbn [list_ascii_of_string map List.concat]. assert (X : In (joint_var j) (map joint_var (filter (fun j => Ascii.eqb (snd j) c) js))). { apply in_map. apply filter_In. split; auto. apply Ascii.eqb_eq. auto. }
  intros Y. apply app_eq_nil in Y as [Y _]. rewrite Y in X. contradiction.
Qed.
Lemma fk_sum v : In v ss -> fk_variable (map joint_var js ++ map sum_var ss) (sum_var v) = Some [sum_line js v].
Proof.
  intros H. assert (G := proj1 (Forall_forall _ _) Hs v H). assert (N := parts_ne v H). unfold fk_variable. rewrite (split_sum v G). destruct G as (A & _ & D & L). destruct (Nat.ltb_spec 1 (String.length (snd v))); [|lia].
  rewrite (mapM_all _ (fun c => map joint_var (filter (fun j => Ascii.eqb (snd j) c) js))).
  2:{ intros c Hcc. apply summands_app. apply summands_sums; auto. apply summands_joints; auto. eapply all_in; eauto. }
  match goal with |- context [List.concat ?x] => change (List.concat x) with (parts js v) end. cbv zeta. rewrite (concat_terms _ N). do 2 f_equal. unfold sum_line.
  replace (append (append (sum_var v) " = ") (append " " (append (String.concat " + " (parts js v)) " +"))) with (append (append (sum_var v) (append " =  " (append (String.concat " + " (parts js v)) " "))) (String "+" "")).
  apply cut_last. rewrite !append_assoc. reflexivity.
Qed.
Lemma fk_joint vars j : In j js -> fk_variable vars (joint_var j) = Some [append (joint_var j) " = 1.0   # 1.0= dummy value"].
Proof. intros H. unfold fk_variable. rewrite (split_joint j (proj1 (Forall_forall _ _) Hj j H)). reflexivity. Qed.
Definition variable_lines : list string := map (fun j => append (joint_var j) " = 1.0   # 1.0= dummy value") js ++ map (sum_line js) ss.
Lemma concat_map_one {A} (f : A -> string) l : List.concat (map (fun a => [f a]) l) = map f l. Proof. induction l; cbn; congruence. Qed.
Lemma fk_variables : exists ls, mapM (fk_variable (map joint_var js ++ map sum_var ss)) (map joint_var js ++ map sum_var ss) = Some ls /\ List.concat ls = variable_lines.
Proof.
  exists (map (fun j => [append (joint_var j) " = 1.0   # 1.0= dummy value"]) js ++ map (fun v => [sum_line js v]) ss). split.
  - apply mapM_app; rewrite mapM_map. apply mapM_all. intros; apply fk_joint; auto. apply mapM_all. intros; apply fk_sum; auto.
  - rewrite concat_app, !concat_map_one. auto.
Qed.
(** C58: the forward kinematics program assigns every joint variable, then every sum, as the sum of exactly the joint variables of its
    subscript; nothing else is written between the parameters and the transform. *)
Theorem C58_sums r tfks : exists pre post, output_FK_python_code r (map joint_var js ++ map sum_var ss) tfks = Some (pre ++ variable_lines ++ post)
  /\ nth_error (rev pre) 1 = Some (py_params r) /\ nth_error post 2 = Some (append "T06 = " tfks).
Proof.
  destruct fk_variables as (ls & E & C). unfold output_FK_python_code. rewrite E, C.
  match goal with |- context [Some (?a ++ variable_lines ++ ?b)] => exists a, b end. split; [reflexivity|]. split; reflexivity.
Qed.
Lemma ident_joint j : In j js -> identifier (joint_var j).
Proof.
  intros H. destruct (proj1 (Forall_forall _ _) Hj j H) as (A & N & D). split.
  - unfold joint_var. rewrite !all_word_app. cbn [all_word]. rewrite (proj2 (digit_facts _ D)). assert (X : all_word (fst j) = true). { clear N. induction (fst j) as [|c s IH]; auto. cbn [all_chars all_word] in *. apply andb_prop in A as [A1 A2]. rewrite (proj2 (proj2 (letter_facts c A1))). auto. } rewrite X. reflexivity.
  - unfold joint_var. destruct (fst j) as [|c s]; [congruence|]. change (append (String c s) ?x) with (String c (append s x)). cbv iota beta. apply andb_prop in A as [A _]. apply letter_facts in A. tauto.
Qed.
Lemma ident_sum v : In v ss -> identifier (sum_var v).
Proof.
  intros H. destruct (proj1 (Forall_forall _ _) Hs v H) as (A & N & D & _). split.
  - unfold sum_var. rewrite !all_word_app. assert (X : all_word (fst v) = true). { clear N. induction (fst v) as [|c s IH]; auto. cbn [all_chars all_word] in *. apply andb_prop in A as [A1 A2]. rewrite (proj2 (proj2 (letter_facts c A1))). auto. }
    assert (Y : all_word (snd v) = true). { induction (snd v) as [|c s IH]; auto. cbn [all_chars all_word] in *. apply andb_prop in D as [D1 D2]. rewrite (proj2 (digit_facts c D1)). auto. } rewrite X, Y. reflexivity.
  - unfold sum_var. destruct (fst v) as [|c s]; [congruence|]. change (append (String c s) ?x) with (String c (append s x)). cbv iota beta. apply andb_prop in A as [A _]. apply letter_facts in A. tauto.
Qed.
Lemma balanced_app a : forall d b, balanced d a = true -> plain b -> balanced d (append a b) = true.
Proof.
  induction a as [|c a IH]; intros d b A B. cbn [balanced] in A. apply Nat.eqb_eq in A. subst. exact B. change (append (String c a) b) with (String c (append a b)). cbn [balanced] in *. apply andb_prop in A as [T A]. rewrite T. cbn [andb].
  destruct (Ascii.eqb c "("). auto. destruct (Ascii.eqb c ")"). destruct d; auto; discriminate. auto.
Qed.
Lemma plain_concat l : (forall w, In w l -> plain w) -> plain (String.concat " + " l).
Proof.
  induction l as [|w l IH]; intros H. reflexivity. destruct l as [|w' l]. apply H. left; auto. change (String.concat " + " (w :: w' :: l)) with (append w (append " + " (String.concat " + " (w' :: l)))).
  apply balanced_app. apply H; left; auto. apply balanced_app; [reflexivity|]. apply IH. intros; apply H; right; auto.
Qed.
Lemma parts_in v w : In w (parts js v) -> exists j, In j js /\ w = joint_var j.
Proof. unfold parts. intros H. apply in_concat in H as (l & Hl & Hw). apply in_map_iff in Hl as (c & <- & _). apply in_map_iff in Hw as (j & <- & Hj'). apply filter_In in Hj' as [Hj' _]. eauto. Qed.
(** C55 for the forward kinematics program: it is well indented, and (C56) Python 3 *)
Theorem C55_forward_kinematics r tfks out : plain (r_name r) -> plain_params r -> no_nl tfks = true -> lexs (Lex Code 0 false) tfks = Some (Lex Code 0 false) ->
  output_FK_python_code r (map joint_var js ++ map sum_var ss) tfks = Some out -> well_indented (file_lines out) /\ python3 (file_lines out).
Proof.
  intros Pn Pp Nt Lt O. destruct fk_variables as (ls & E & C). unfold output_FK_python_code in O. rewrite E, C in O. apply some_inj in O. subst out.
  match goal with |- well_indented ?x /\ _ => assert (T : top x) end.
  { apply top_file_app; [|apply top_file_app].
    - apply top_file_cons; [|apply top_file_cons; [|apply top_file_cons; [|apply top_file_cons; [|apply top_file_cons; [|apply top_nil]]]]].
      + match goal with |- top (split_lines (append ?a (append ?n (String _ ?b)))) => change (top (split_lines (append a (append n (String nl b))))); replace (append a (append n (String nl b))) with (append "#!/usr/bin/python" (String nl (append (append "#  Python forward kinematic equations for " n) (String nl b)))) by (rewrite append_assoc; reflexivity) end.
        rewrite split_nl. apply top_app. eapply top_skip; reflexivity. rewrite split_nl. apply top_app. rewrite split_one by (rewrite no_nl_app, (plain_nl _ Pn); reflexivity). eapply top_skip; reflexivity.
        eapply top_const; [vm_compute; reflexivity|reflexivity|vm_compute; reflexivity|vm_compute; reflexivity].
      + eapply top_const; [vm_compute; reflexivity|reflexivity|vm_compute; reflexivity|vm_compute; reflexivity].
      + eapply top_const; [vm_compute; reflexivity|reflexivity|vm_compute; reflexivity|vm_compute; reflexivity].
      + apply top_params; auto.
      + eapply top_const; [vm_compute; reflexivity|reflexivity|vm_compute; reflexivity|vm_compute; reflexivity].
    - unfold variable_lines. rewrite file_app. apply top_app.
      + unfold file_lines. rewrite map_map. clear - Hj. assert (forall j, In j js -> In j js) as X by auto. revert X. generalize js at 1 3. intros l. induction l as [|j l IH]; intros X; [apply top_nil|]. cbn [map List.concat]. apply top_app; [|apply IH; intros; apply X; right; auto].
        assert (Ij := ident_joint j (X j (or_introl eq_refl))). apply top_one. apply (top_assign (joint_var j) "1.0   # 1.0= dummy value"); auto. rewrite no_nl_app, (plain_nl _ (word_plain _ (proj1 Ij))). reflexivity.
      + unfold file_lines. rewrite map_map. assert (forall v, In v ss -> In v ss) as X by auto. revert X. generalize ss at 1 3. intros l. induction l as [|v l IH]; intros X; [apply top_nil|]. cbn [map List.concat]. apply top_app; [|apply IH; intros; apply X; right; auto].
        assert (Iv := ident_sum v (X v (or_introl eq_refl))). assert (Pp' : plain (append " " (append (String.concat " + " (parts js v)) " "))).
        { apply balanced_app; [reflexivity|]. apply balanced_app; [|reflexivity]. apply plain_concat. intros w Hw. destruct (parts_in v w Hw) as (j & J & ->). apply word_plain. apply ident_joint. auto. }
        apply top_one. apply (top_assign (sum_var v) (append " " (append (String.concat " + " (parts js v)) " "))); auto. left. apply plain_lex. auto.
        unfold sum_line. rewrite no_nl_app, (plain_nl _ (word_plain _ (proj1 Iv))). change (append " =  " ?x) with (append " = " (append " " x)). rewrite no_nl_app, (plain_nl _ Pp'). reflexivity.
    - apply top_file_cons; [|apply top_file_cons; [|apply top_file_cons]].
      + eapply top_const; [vm_compute; reflexivity|reflexivity|vm_compute; reflexivity|vm_compute; reflexivity].
      + eapply top_const; [vm_compute; reflexivity|reflexivity|vm_compute; reflexivity|vm_compute; reflexivity].
      + apply top_one; [|rewrite no_nl_app, Nt; reflexivity]. apply (top_assign "T06" tfks); auto. split; reflexivity.
      + eapply top_const; [vm_compute; reflexivity|reflexivity|vm_compute; reflexivity|vm_compute; reflexivity]. }
  destruct T as [T T3]. split; auto. destruct (T [0]) as (stk & _ & G); [reflexivity|]. exists stk. auto.
Qed.
End FK.
