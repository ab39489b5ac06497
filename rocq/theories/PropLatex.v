(** C59: the LaTeX reports are well formed LaTeX.  The specification is a small scanner for LaTeX text: groups, math, environments,
    verbatim, control words, paragraphs. *)
From Coq Require Import Reals ZArith List String Ascii Bool Arith Lia.
From Verif Require Import Expr Kin Solver SolSet PropHist CodeGen CppFacts PropCpp PropEmit PyFile PropPy Latex.
Import ListNotations.
Local Open Scope string_scope.
Local Open Scope list_scope.
Local Open Scope nat_scope.

(** * Specification *)
(** what can be open: a brace group, \left, $, \[, an environment *)
Inductive grp := GBrace | GLeft | GMath | GDisp | GEnv (n : string).
(** normal; after a backslash; in a control word; in the name of \begin{..} or \end{..}; in a verbatim environment with the first [k]
    characters of \end{verbatim} seen.  Words and names are kept reversed *)
Inductive tmode := TN | TE | TW (w : string) | TName (b : bool) (acc : string) | TVerb (k : nat).
(** what is open (innermost first), the mode, and whether the current line is blank so far *)
Record tex := Tex { t_stk : list grp; t_mode : tmode; t_blank : bool }.
Definition alpha (c : ascii) : bool := between "a" "z" c || between "A" "Z" c.
Definition math_env (n : string) : bool := String.eqb n "dmath" || String.eqb n "align" || String.eqb n "matrix".
Definition math_grp (g : grp) : bool := match g with GMath | GDisp => true | GEnv n => math_env n | _ => false end.
Definition in_math (stk : list grp) : bool := existsb math_grp stk.
(** a blank line ends a paragraph: not allowed in math or in a group *)
Definition par_ok (stk : list grp) : bool := forallb (fun g => match g with GEnv n => negb (math_env n) | _ => false end) stk.
(** & is allowed directly in an environment with columns *)
Definition cell_ok (stk : list grp) : bool := match stk with GEnv n :: _ => String.eqb n "align" || String.eqb n "tabular" || String.eqb n "matrix" | _ => false end.
Fixpoint rev_s (acc s : string) : string := match s with EmptyString => acc | String c t => rev_s (String c acc) t end.
Definition norm (stk : list grp) (b : bool) (c : ascii) : option tex :=
  if Ascii.eqb c nl then if b && negb (par_ok stk) then None else Some (Tex stk TN true)
  else if Ascii.eqb c " " then Some (Tex stk TN b)
  else if Ascii.eqb c "\" then Some (Tex stk TE false)
  else if Ascii.eqb c "{" then Some (Tex (GBrace :: stk) TN false)
  else if Ascii.eqb c "}" then match stk with GBrace :: s => Some (Tex s TN false) | _ => None end
  else if Ascii.eqb c "$" then match stk with GMath :: s => Some (Tex s TN false) | _ => if in_math stk then None else Some (Tex (GMath :: stk) TN false) end
  else if Ascii.eqb c "&" then if cell_ok stk then Some (Tex stk TN false) else None
  else if Ascii.eqb c "_" || Ascii.eqb c "^" then if in_math stk then Some (Tex stk TN false) else None
  else if Ascii.eqb c "%" || Ascii.eqb c "#" then None
  else Some (Tex stk TN false).
(** the document class or the package that defines an environment *)
Definition env_home (n : string) : option string :=
  if existsb (String.eqb n) ["center"; "tabular"; "enumerate"; "itemize"; "verbatim"; "equation"; "figure"; "table"] then Some "article"
  else if existsb (String.eqb n) ["align"; "matrix"; "bmatrix"] then Some "amsmath"
  else if existsb (String.eqb n) ["dmath"] then Some "breqn" else None.
Definition open_env (stk : list grp) (n : string) : option tex :=
  if String.eqb n "verbatim" then if par_ok stk then Some (Tex stk (TVerb 0) false) else None
  else if String.eqb n "matrix" then if in_math stk then Some (Tex (GEnv n :: stk) TN false) else None
  else if in_math stk then None else match env_home n with Some _ => Some (Tex (GEnv n :: stk) TN false) | None => None end.
Definition close_env (stk : list grp) (n : string) : option tex := match stk with GEnv m :: s => if String.eqb m n then Some (Tex s TN false) else None | _ => None end.
(** a control word [w] (reversed) is over at the character [c] *)
Definition finish (stk : list grp) (w : string) (b : bool) (c : ascii) : option tex :=
  if String.eqb w "nigeb" then if Ascii.eqb c "{" then Some (Tex stk (TName true "") false) else None
  else if String.eqb w "dne" then if Ascii.eqb c "{" then Some (Tex stk (TName false "") false) else None
  else if String.eqb w "tfel" then if in_math stk then norm (GLeft :: stk) b c else None
  else if String.eqb w "thgir" then match stk with GLeft :: s => norm s b c | _ => None end
  else norm stk b c.
Definition end_verbatim : string := "\end{verbatim}".
Definition step (s : tex) (c : ascii) : option tex :=
  match t_mode s with
  | TN => norm (t_stk s) (t_blank s) c
  | TE => if alpha c then Some (Tex (t_stk s) (TW (String c "")) (t_blank s))
          else if Ascii.eqb c "[" then if in_math (t_stk s) then None else Some (Tex (GDisp :: t_stk s) TN (t_blank s))
          else if Ascii.eqb c "]" then match t_stk s with GDisp :: r => Some (Tex r TN (t_blank s)) | _ => None end
          else if Ascii.eqb c nl || Ascii.eqb c "(" || Ascii.eqb c ")" then None
          else Some (Tex (t_stk s) TN (t_blank s))
  | TW w => if alpha c then Some (Tex (t_stk s) (TW (String c w)) (t_blank s)) else finish (t_stk s) w (t_blank s) c
  | TName b acc => if Ascii.eqb c "}" then if b then open_env (t_stk s) (rev_s "" acc) else close_env (t_stk s) (rev_s "" acc)
                   else if alpha c then Some (Tex (t_stk s) (TName b (String c acc)) (t_blank s)) else None
  | TVerb k => match String.get k end_verbatim with
               | Some d => if Ascii.eqb c d then if S k =? String.length end_verbatim then Some (Tex (t_stk s) TN false) else Some (Tex (t_stk s) (TVerb (S k)) false)
                           else Some (Tex (t_stk s) (TVerb (if Ascii.eqb c "\" then 1 else 0)) false)
               | None => None
               end
  end.
Fixpoint scan (s : tex) (t : string) : option tex := match t with EmptyString => Some s | String c t' => match step s c with None => None | Some s' => scan s' t' end end.
(** the body of a document: everything opened is closed again, nothing else is *)
Definition well_formed (t : string) : Prop := exists b, scan (Tex [GEnv "document"] TN true) t = Some (Tex [GEnv "document"] TN b).

(** texts of mathematics: balanced, on one line, no $, % or #; [KScalar]: no environments and no &; [KMatrix]: matrix environments with &;
    [KAligned]: like a scalar, with & outside groups *)
Inductive kind := KScalar | KMatrix | KAligned.
Definition mnorm (k : kind) (o : list grp) (c : ascii) : option (list grp * tmode) :=
  if Ascii.eqb c nl || Ascii.eqb c "$" || Ascii.eqb c "%" || Ascii.eqb c "#" then None
  else if Ascii.eqb c "\" then Some (o, TE)
  else if Ascii.eqb c "{" then Some (GBrace :: o, TN)
  else if Ascii.eqb c "}" then match o with GBrace :: o' => Some (o', TN) | _ => None end
  else if Ascii.eqb c "&" then match k, o with KAligned, [] => Some (o, TN) | KMatrix, GEnv n :: _ => if String.eqb n "matrix" then Some (o, TN) else None | _, _ => None end
  else Some (o, TN).
Definition is_matrix (k : kind) : bool := match k with KMatrix => true | _ => false end.
Definition side (w : string) : bool := String.eqb w "tfel" || String.eqb w "thgir".
Definition env_word (w : string) : bool := String.eqb w "nigeb" || String.eqb w "dne".
Definition mfinish (k : kind) (o : list grp) (w : string) (c : ascii) : option (list grp * tmode) :=
  if String.eqb w "nigeb" then if is_matrix k && Ascii.eqb c "{" then Some (o, TName true "") else None
  else if String.eqb w "dne" then if is_matrix k && Ascii.eqb c "{" then Some (o, TName false "") else None
  else if String.eqb w "tfel" then mnorm k (GLeft :: o) c
  else if String.eqb w "thgir" then match o with GLeft :: o' => mnorm k o' c | _ => None end
  else mnorm k o c.
Definition mstep (k : kind) (s : list grp * tmode) (c : ascii) : option (list grp * tmode) :=
  let '(o, m) := s in
  match m with
  | TN => mnorm k o c
  | TE => if alpha c then Some (o, TW (String c "")) else if Ascii.eqb c nl || Ascii.eqb c "[" || Ascii.eqb c "]" || Ascii.eqb c "(" || Ascii.eqb c ")" then None else Some (o, TN)
  | TW w => if alpha c then if side w then None else if negb (is_matrix k) && env_word (String c w) then None else Some (o, TW (String c w)) else mfinish k o w c
  | TName b acc => if Ascii.eqb c "}" then if String.eqb (rev_s "" acc) "matrix" then if b then Some (GEnv "matrix" :: o, TN)
                       else match o with GEnv n :: o' => if String.eqb n "matrix" then Some (o', TN) else None | _ => None end else None
                   else if alpha c then Some (o, TName b (String c acc)) else None
  | TVerb _ => None
  end.
Fixpoint mrun (k : kind) (s : list grp * tmode) (t : string) : option (list grp * tmode) := match t with EmptyString => Some s | String c t' => match mstep k s c with None => None | Some s' => mrun k s' t' end end.
Definition mend (s : list grp * tmode) : bool := match s with ([], TN) => true | ([], TW w) => negb (side w) && negb (env_word w) | _ => false end.
Definition math_text (k : kind) (t : string) : Prop :=
  (exists s, mrun k ([], TN) t = Some s /\ mend s = true) /\ match t with String c _ => c <> " "%char | EmptyString => False end.
(** text outside mathematics *)
Definition text_char (c : ascii) : bool :=
  negb (Ascii.eqb c nl || Ascii.eqb c "\" || Ascii.eqb c "{" || Ascii.eqb c "}" || Ascii.eqb c "$" || Ascii.eqb c "&" || Ascii.eqb c "_" || Ascii.eqb c "^" || Ascii.eqb c "%" || Ascii.eqb c "#").
(** text in verbatim *)
Definition verb_text (t : string) : Prop := ~ In "\"%char (list_ascii_of_string t).

(** * Facts *)
Lemma scan_app a : forall s b, scan s (append a b) = match scan s a with None => None | Some s' => scan s' b end.
Proof. induction a as [|c a IH]; intros; cbn; auto. destruct (step s c); auto. Qed.
Lemma mrun_app k a : forall s b, mrun k s (append a b) = match mrun k s a with None => None | Some s' => mrun k s' b end.
Proof. induction a as [|c a IH]; intros; cbn; auto. destruct (mstep k s c); auto. Qed.
Lemma in_math_app o base : in_math base = true -> in_math (o ++ base) = true.
Proof. intros H. unfold in_math. rewrite existsb_app. fold (in_math base). rewrite H. apply orb_true_r. Qed.
Ltac eqb_cases := repeat match goal with
  | H : context [Ascii.eqb ?a ?b] |- _ => destruct (Ascii.eqb_spec a b); subst; cbn [orb andb] in *; try discriminate
  | |- context [Ascii.eqb ?a ?b] => destruct (Ascii.eqb_spec a b); subst; cbn [orb andb] in *; try discriminate
  end.
Definition ctx_ok (k : kind) (base : list grp) : Prop := in_math base = true /\ (k = KAligned -> cell_ok base = true).
(** a step of the restricted scanner is a step of the scanner inside mathematics *)
Lemma mnorm_step k o c o' m' base b : ctx_ok k base -> mnorm k o c = Some (o', m') ->
  exists b', norm (o ++ base) b c = Some (Tex (o' ++ base) m' b') /\ (b = false \/ c <> " "%char -> b' = false).
Proof.
  intros [M K] H. unfold mnorm in H. unfold norm. assert (IM := in_math_app o base M).
  destruct (Ascii.eqb_spec c nl). { cbn [orb] in H. discriminate. } cbn [orb] in H.
  destruct (Ascii.eqb_spec c "$"). { discriminate. } destruct (Ascii.eqb_spec c "%"). discriminate. destruct (Ascii.eqb_spec c "#"). discriminate. cbn [orb] in H.
  destruct (Ascii.eqb_spec c " ") as [E|]. { subst c. cbn in H. injection H as <- <-. exists b. split; auto. intros [X|X]; congruence. }
  destruct (Ascii.eqb_spec c "\"). { injection H as <- <-. exists false. auto. }
  destruct (Ascii.eqb_spec c "{"). { injection H as <- <-. exists false. auto. }
  destruct (Ascii.eqb_spec c "}"). { destruct o as [|[] o]; try discriminate. injection H as <- <-. exists false. auto. }
  destruct (Ascii.eqb_spec c "&").
  { destruct k, o as [|g o]; try discriminate.
    - destruct g as [| | | |nm]; try discriminate. destruct (String.eqb_spec nm "matrix"); [|discriminate]. subst. injection H as <- <-. exists false. auto.
    - injection H as <- <-. cbn [app]. rewrite (K eq_refl). exists false. auto. }
  injection H as <- <-. rewrite IM. destruct (Ascii.eqb c "_" || Ascii.eqb c "^"); exists false; auto.
Qed.
Lemma mfinish_step k o w c o' m' base b : ctx_ok k base -> mfinish k o w c = Some (o', m') ->
  exists b', finish (o ++ base) w b c = Some (Tex (o' ++ base) m' b') /\ (b = false \/ c <> " "%char -> b' = false).
Proof.
  intros C H. unfold mfinish in H. unfold finish. destruct (String.eqb w "nigeb"). { destruct (Ascii.eqb c "{"); [|rewrite andb_false_r in H; discriminate]. destruct (is_matrix k); [|discriminate]. injection H as <- <-. exists false. auto. }
  destruct (String.eqb w "dne"). { destruct (Ascii.eqb c "{"); [|rewrite andb_false_r in H; discriminate]. destruct (is_matrix k); [|discriminate]. injection H as <- <-. exists false. auto. }
  destruct (String.eqb w "tfel"). { rewrite in_math_app by apply C. apply (mnorm_step k (GLeft :: o)); auto. }
  destruct (String.eqb w "thgir"). { destruct o as [|[] o]; try discriminate. apply mnorm_step with k; auto. }
  apply mnorm_step with k; auto.
Qed.
Lemma mstep_step k o m c o' m' base b : ctx_ok k base -> mstep k (o, m) c = Some (o', m') ->
  exists b', step (Tex (o ++ base) m b) c = Some (Tex (o' ++ base) m' b') /\ (b = false -> b' = false) /\ (m = TN -> c <> " "%char -> b' = false).
Proof.
  intros C H. destruct m as [| |w|bb acc|j]; cbn [mstep] in H; unfold step; cbn [t_mode t_stk t_blank].
  - destruct (mnorm_step _ _ _ _ _ base b C H) as (b' & E & F). exists b'. auto.
  - destruct (alpha c). { injection H as <- <-. exists b. split; auto. split; [auto|discriminate]. }
    destruct (Ascii.eqb c nl); [discriminate|]. cbn [orb] in *. destruct (Ascii.eqb c "["); [discriminate|]. destruct (Ascii.eqb c "]"); [discriminate|]. cbn [orb] in *. destruct (Ascii.eqb c "("); [discriminate|]. destruct (Ascii.eqb c ")"); [discriminate|].
    cbn [orb] in *. injection H as <- <-. exists b. split; auto. split; [auto|discriminate].
  - destruct (alpha c). { destruct (side w); [discriminate|]. destruct (negb (is_matrix k) && env_word (String c w)); [discriminate|]. injection H as <- <-. exists b. split; auto. split; [auto|discriminate]. }
    destruct (mfinish_step _ _ _ _ _ _ base b C H) as (b' & E & F). exists b'. split; [auto|split; [auto|discriminate]].
  - destruct (Ascii.eqb c "}").
    + destruct (String.eqb_spec (rev_s "" acc) "matrix") as [->|]; [|discriminate]. destruct bb.
      * injection H as <- <-. unfold open_env. cbn [String.eqb Ascii.eqb]. rewrite in_math_app by apply C. exists false. split; [reflexivity|]. auto.
      * destruct o as [|[| | | |nm] o]; try discriminate. destruct (String.eqb_spec nm "matrix") as [->|]; [|discriminate]. injection H as <- <-. exists false. split; [reflexivity|]. auto.
    + destruct (alpha c); [|discriminate]. injection H as <- <-. exists b. split; auto. split; [auto|discriminate].
  - discriminate.
Qed.
Lemma mrun_scan k t base : ctx_ok k base -> forall o m o' m' b, mrun k (o, m) t = Some (o', m') ->
  exists b', scan (Tex (o ++ base) m b) t = Some (Tex (o' ++ base) m' b') /\ (b = false -> b' = false) /\ (m = TN -> match t with String c _ => c <> " "%char | EmptyString => False end -> b' = false).
Proof.
  intros C. induction t as [|c t IH]; cbn [mrun scan]; intros o m o' m' b H. { injection H as <- <-. exists b. split; auto. split; auto. contradiction. }
  destruct (mstep k (o, m) c) as [[o1 m1]|] eqn:E; [|discriminate]. destruct (mstep_step _ _ _ _ _ _ base b C E) as (b1 & E1 & F1 & G1). rewrite E1. destruct (IH _ _ _ _ b1 H) as (b2 & E2 & F2 & _). exists b2. split; auto.
Qed.
(** a text of mathematics followed by a character that cannot belong to a control word *)
Lemma math_then k t base b c rest : math_text k t -> ctx_ok k base -> alpha c = false ->
  scan (Tex base TN b) (append t (String c rest)) = scan (Tex base TN false) (String c rest).
Proof.
  intros [(s & E & F) N] C A. destruct s as [o m]. destruct (mrun_scan k t base C _ _ _ _ b E) as (b' & E1 & _ & G). cbn [app] in E1. specialize (G eq_refl N). subst b'.
  rewrite scan_app, E1. destruct o; [|discriminate]. destruct m as [| |w| |]; try discriminate; auto. cbn [mend] in F. apply andb_prop in F as [F1 F2]. apply negb_true_iff in F1, F2.
  unfold side in F1. unfold env_word in F2. apply orb_false_iff in F1 as [F11 F12]. apply orb_false_iff in F2 as [F21 F22].
  cbn [app scan]. unfold step at 1. cbn [t_mode t_stk t_blank]. rewrite A. unfold finish. rewrite F11, F12, F21, F22. reflexivity.
Qed.

(** * Replacing text keeps it well formed *)
(** states of the scanner of scalars *)
Definition mgood (s : list grp * tmode) : Prop := match snd s with TN | TE => True | TW w => env_word w = false | _ => False end.
Lemma mnorm_good k o c s : mnorm k o c = Some s -> mgood s.
Proof.
  unfold mnorm. intros H. repeat match type of H with (if ?x then _ else _) = _ => destruct x end; try discriminate; try (injection H as <-; exact I).
  destruct o as [|[] o]; try discriminate. injection H as <-. exact I. destruct k, o as [|[] o]; try discriminate; try (injection H as <-; exact I). destruct (String.eqb n "matrix"); [|discriminate]. injection H as <-. exact I.
Qed.
Lemma mstep_good k s c s' : is_matrix k = false -> mgood s -> mstep k s c = Some s' -> mgood s'.
Proof.
  intros K G H. destruct s as [o m]. destruct m as [| |w| |]; try contradiction; cbn [mstep] in H.
  - eapply mnorm_good; eauto.
  - destruct (alpha c). { injection H as <-. unfold mgood, env_word. cbn [snd]. destruct c as [[] [] [] [] [] [] [] []]; reflexivity. } destruct (_ || _); [discriminate|]. injection H as <-. exact I.
  - destruct (alpha c). { destruct (side w); [discriminate|]. rewrite K in H. cbn [negb andb] in H. destruct (env_word (String c w)) eqn:E; [discriminate|]. injection H as <-. exact E. }
    cbn [mgood snd] in G. unfold env_word in G. apply orb_false_iff in G as [G1 G2]. unfold mfinish in H. rewrite G1, G2 in H. destruct (String.eqb w "tfel"). eapply mnorm_good; eauto. destruct (String.eqb w "thgir"). destruct o as [|[] o]; try discriminate. eapply mnorm_good; eauto. eapply mnorm_good; eauto.
Qed.
Lemma mrun_good k t : is_matrix k = false -> forall s s', mgood s -> mrun k s t = Some s' -> mgood s'.
Proof. intros K. induction t as [|c t IH]; cbn [mrun]; intros s s' G H. injection H as <-. auto. destruct (mstep k s c) as [s1|] eqn:E; [|discriminate]. eapply IH; [|eauto]. eapply mstep_good; eauto. Qed.
(** a replacement that does the same as the pattern *)
Definition same_effect (k : kind) (pat rep : string) : Prop := forall s r, mgood s -> mrun k s pat = Some r -> mrun k s rep = Some r.
Lemma prefix_drop p s : String.prefix p s = true -> s = append p (drop (String.length p) s).
Proof. revert s. induction p as [|c p IH]; intros [|d s] H; cbn [String.prefix] in H; try discriminate; auto. destruct (ascii_dec c d); [|discriminate]. subst. cbn [String.length drop append]. rewrite <- IH; auto. Qed.
Lemma replace_all_run k pat rep : is_matrix k = false -> same_effect k pat rep -> forall f t s r, mgood s -> mrun k s t = Some r -> mrun k s (replace_all pat rep f t) = Some r.
Proof.
  intros K SE. induction f as [|f IH]; intros t s r G H; auto. cbn [replace_all]. destruct (String.prefix pat t) eqn:P.
  - rewrite (prefix_drop _ _ P) in H. rewrite mrun_app in *. destruct (mrun k s pat) as [s1|] eqn:E; [|discriminate]. rewrite (SE _ _ G E). apply IH; auto. eapply mrun_good; eauto.
  - destruct t as [|c t]; auto. cbn [mrun] in *. destruct (mstep k s c) eqn:E; [|discriminate]. apply IH; auto. eapply mstep_good; eauto.
Qed.
Lemma word_end k o w c : side w = false -> env_word w = false -> mfinish k o w c = mnorm k o c.
Proof. unfold side, env_word, mfinish. intros H1 H2. apply orb_false_iff in H1 as [A B]. apply orb_false_iff in H2 as [C D]. rewrite A, B, C, D. auto. Qed.
Lemma theta_effect k : is_matrix k = false -> same_effect k "th_" "\theta_".
Proof.
  intros K [o m] r G H. destruct m as [| |w|b acc|j]; try contradiction.
  - destruct k; exact H.
  - destruct k; exact H.
  - cbn [mgood snd] in G. change (mrun k (o, TW w) "\theta_") with (match mfinish k o w "\" with None => None | Some s => mrun k s "theta_" end).
    assert (S : side w = false). { destruct (side w) eqn:S; auto. cbn [mrun mstep] in H. change (alpha "t") with true in H. cbv iota in H. rewrite S in H. discriminate. }
    rewrite (word_end k o w _ S G). assert (R : r = (o, TN)).
    { cbn [mrun mstep] in H. change (alpha "t") with true in H. cbv iota in H. rewrite S in H. change (env_word (String "t" w)) with false in H. rewrite andb_false_r in H. cbv iota in H. cbn [mstep] in H. change (alpha "h") with true in H. cbv iota in H.
      destruct (side (String "t" w)); [discriminate|]. change (env_word (String "h" (String "t" w))) with false in H. rewrite andb_false_r in H. cbv iota in H. cbn [mstep] in H. change (alpha "_") with false in H. cbv iota in H.
      rewrite word_end in H by reflexivity. destruct k; injection H as <-; reflexivity. }
    subst r. destruct k; reflexivity.
Qed.
Lemma atan_effect k : is_matrix k = false -> same_effect k "atan_{2}" "atan2".
Proof.
  intros K [o m] r G H. destruct m as [| |w|b acc|j]; try contradiction.
  - destruct k; exact H.
  - destruct k; exact H.
  - cbn [mrun mstep] in H |- *. change (alpha "a") with true in *. change (alpha "t") with true in *. change (alpha "n") with true in *. cbv iota in *.
    destruct (side w); [discriminate|]. change (env_word (String "a" w)) with false in *. rewrite andb_false_r in *. cbv iota in *. cbn [mstep] in *. change (alpha "t") with true in *. cbv iota in *.
    change (side (String "a" w)) with false in *. change (env_word (String "t" (String "a" w))) with false in *. rewrite andb_false_r in *. cbv iota in *. cbn [mstep] in *. change (alpha "a") with true in *. cbv iota in *.
    change (side (String "t" (String "a" w))) with false in *. change (env_word (String "a" (String "t" (String "a" w)))) with false in *. rewrite andb_false_r in *. cbv iota in *. cbn [mstep] in *. change (alpha "n") with true in *. cbv iota in *.
    change (side (String "a" (String "t" (String "a" w)))) with false in *. change (env_word (String "n" (String "a" (String "t" (String "a" w))))) with false in *. rewrite andb_false_r in *. cbv iota in *. cbn [mstep] in *.
    change (alpha "_") with false in *. change (alpha "2") with false in *. cbv iota in *. rewrite word_end in * by reflexivity. destruct k; exact H.
Qed.
Lemma frac_effect k : is_matrix k = false -> same_effect k "(.+)=(.+)/(.+)" "\1 = \frac{\2}{\3}".
Proof.
  intros K [o m] r G H. destruct m as [| |w|b acc|j]; try contradiction.
  - destruct k; exact H.
  - destruct k; discriminate H.
  - change (mrun k (o, TW w) "(.+)=(.+)/(.+)") with (match mfinish k o w "(" with None => None | Some s => mrun k s ".+)=(.+)/(.+)" end) in H.
    change (mrun k (o, TW w) "\1 = \frac{\2}{\3}") with (match mfinish k o w "\" with None => None | Some s => mrun k s "1 = \frac{\2}{\3}" end).
    cbn [mgood snd] in G. unfold env_word in G. apply orb_false_iff in G as [G1 G2]. unfold mfinish in *. rewrite G1, G2 in *. destruct (String.eqb w "tfel"). { destruct k; exact H. } destruct (String.eqb w "thgir"). { destruct o as [|[] o]; try discriminate. destruct k; exact H. }
    destruct k; exact H.
Qed.
Lemma digits_app s : s = append (fst (digits s)) (snd (digits s)).
Proof. induction s as [|c s IH]; auto. cbn [digits]. destruct (is_digit c); auto. destruct (digits s) as [d r]. cbn [fst snd] in *. change (append (String c d) r) with (String c (append d r)). congruence. Qed.
Lemma digit_run k o d : (forall c, In c (list_ascii_of_string d) -> is_digit c = true) -> mrun k (o, TN) d = Some (o, TN).
Proof.
  induction d as [|c d IH]; intros H; auto. cbn [mrun]. assert (E : mstep k (o, TN) c = Some (o, TN)). { specialize (H c (or_introl eq_refl)). destruct c as [[] [] [] [] [] [] [] []]; try discriminate H; reflexivity. } rewrite E. apply IH. intros; apply H; right; auto.
Qed.
Lemma digits_digit s c : In c (list_ascii_of_string (fst (digits s))) -> is_digit c = true.
Proof. induction s as [|e s IH]; cbn [digits]; [contradiction|]. destruct (is_digit e) eqn:E; [|contradiction]. destruct (digits s). cbn [fst list_ascii_of_string In] in *. intros [<-|H]; auto. Qed.
Lemma us_step k s r : mgood s -> mstep k s "_" = Some r -> exists o, r = (o, TN).
Proof.
  intros G H. destruct s as [o m]. destruct m as [| |w| |]; try contradiction. 1,2: exists o; destruct k; injection H as <-; reflexivity.
  cbn [mgood snd] in G. unfold env_word in G. apply orb_false_iff in G as [G1 G2]. cbn [mstep] in H. change (alpha "_") with false in H. cbv iota in H. unfold mfinish in H. rewrite G1, G2 in H.
  destruct (String.eqb w "tfel"). { exists (GLeft :: o). destruct k; injection H as <-; reflexivity. } destruct (String.eqb w "thgir"). { destruct o as [|[] o]; try discriminate. exists o. destruct k; injection H as <-; reflexivity. } exists o. destruct k; injection H as <-; reflexivity.
Qed.
Lemma sub_digits_run k : is_matrix k = false -> forall f t s r, mgood s -> mrun k s t = Some r -> mrun k s (sub_digits_f f t) = Some r.
Proof.
  intros K. induction f as [|f IH]; intros t s r G H; auto. cbn [sub_digits_f]. destruct t as [|c t]; auto. destruct (Ascii.eqb_spec c "_") as [->|N].
  - cbn [mrun] in H. destruct (mstep k s "_") as [s1|] eqn:E; [|discriminate]. destruct (us_step _ _ _ G E) as (o & ->). assert (D := digits_app t). assert (DD := digits_digit t). destruct (digits t) as [[|d0 d] r0]; cbn [fst snd] in *.
    + cbn [mrun]. rewrite E. apply IH; auto. exact I.
    + rewrite D, mrun_app, digit_run in H by exact DD. change (append "_{" ?x) with (String "_" (String "{" x)). cbn [mrun]. rewrite E.
      replace (mstep k (o, TN) "{") with (Some (GBrace :: o, TN)) by (destruct k; reflexivity). rewrite mrun_app, digit_run by exact DD. change (append "}" ?x) with (String "}" x). cbn [mrun].
      replace (mstep k (GBrace :: o, TN) "}") with (Some (o, TN)) by (destruct k; reflexivity). apply IH; auto. exact I.
  - cbn [mrun] in *. destruct (mstep k s c) as [s1|] eqn:E; [|discriminate]. apply IH; auto. eapply mstep_good; eauto.
Qed.
Definition nsp (t : string) : Prop := match t with String c _ => c <> " "%char | EmptyString => False end.
Lemma nsp_app a b : nsp a -> nsp (append a b). Proof. destruct a; cbn; [contradiction|auto]. Qed.
Lemma replace_nsp pat rep f t : nsp rep -> nsp t -> nsp (replace_all pat rep f t).
Proof. intros R T. destruct f; auto. cbn [replace_all]. destruct (String.prefix pat t). apply nsp_app; auto. destruct t; auto. Qed.
Lemma sub_nsp f t : nsp t -> nsp (sub_digits_f f t).
Proof. intros T. destruct f; auto. cbn [sub_digits_f]. destruct t as [|c t]; auto. destruct (Ascii.eqb c "_"); [|exact T]. destruct (digits t) as [[|d0 d] r]. exact T. cbn. discriminate. Qed.
Lemma math_replace k pat rep t : is_matrix k = false -> same_effect k pat rep -> nsp rep -> math_text k t -> math_text k (replace pat rep t).
Proof. intros K SE R [(s & E & F) N]. split. exists s. split; auto. apply replace_all_run; auto. exact I. apply replace_nsp; auto. Qed.
Lemma math_theta k t : is_matrix k = false -> math_text k t -> math_text k (theta_expand t).
Proof. intros K. apply math_replace; auto. apply theta_effect; auto. discriminate. Qed.
Lemma math_sub k t : is_matrix k = false -> math_text k t -> math_text k (sub_digits t).
Proof. intros K [(s & E & F) N]. split. exists s. split; auto. apply sub_digits_run; auto. exact I. apply sub_nsp; auto. Qed.
Lemma math_frac k t : is_matrix k = false -> math_text k t -> math_text k (frac t).
Proof. intros K H. unfold frac. destruct (contains "/" t); auto. apply math_replace; auto. apply frac_effect; auto. discriminate. Qed.
Lemma scalar_aligned s c s' : mstep KScalar s c = Some s' -> mstep KAligned s c = Some s'.
Proof.
  destruct s as [o m]. assert (X : forall o, mnorm KScalar o c = Some s' -> mnorm KAligned o c = Some s'). { intros o' H. unfold mnorm in *. repeat match type of H with (if ?x then _ else _) = _ => destruct x end; auto; discriminate. }
  destruct m as [| |w|b acc|j]; cbn [mstep]; auto. destruct (alpha c); auto. unfold mfinish. cbn [is_matrix andb]. repeat match goal with |- context [String.eqb w ?x] => destruct (String.eqb w x) end; auto. destruct o as [|[] o]; auto.
Qed.
Lemma scalar_aligned_run t : forall s s', mrun KScalar s t = Some s' -> mrun KAligned s t = Some s'.
Proof. induction t as [|c t IH]; cbn [mrun]; intros s s' H; auto. destruct (mstep KScalar s c) as [s1|] eqn:E; [|discriminate]. rewrite (scalar_aligned _ _ _ E). auto. Qed.
Definition akind (align : bool) : kind := if align then KAligned else KScalar.
Lemma akind_scalar a t : math_text KScalar t -> math_text (akind a) t.
Proof. intros [(s & E & F) N]. split; auto. exists s. split; auto. destruct a; auto. apply scalar_aligned_run; auto. Qed.
Lemma math_seq k t c rest : math_text k t -> alpha c = false -> mrun k ([], TN) (append t (String c rest)) = mrun k ([], TN) (String c rest).
Proof.
  intros [(s & E & F) N] A. rewrite mrun_app, E. destruct s as [[|g o] m]; [|discriminate]. destruct m as [| |w| |]; try discriminate; auto. cbn [mend] in F. apply andb_prop in F as [F1 F2]. apply negb_true_iff in F1, F2.
  cbn [mrun]. cbn [mstep]. rewrite A, word_end; auto.
Qed.
Section Texts.
Variable latex : expr -> string.
Lemma LaTexOutput_ok a q : math_text KScalar (latex (k_lhs q)) -> math_text KScalar (latex (k_rhs q)) -> math_text (akind a) (frac (LaTexOutput latex a q)).
Proof.
  intros L R. assert (K : is_matrix (akind a) = false) by (destruct a; auto). apply math_frac; auto. unfold LaTexOutput. apply math_replace; auto. apply atan_effect; auto. discriminate. apply math_sub; auto.
  apply (akind_scalar a) in L, R. apply (math_theta _ _ K) in L, R. split; [|apply nsp_app; apply L]. destruct R as [(s & E & F) _]. exists s. split; auto. destruct a; cbv iota.
  - change (append " &" (append "= " ?x)) with (String " " (append "&= " x)). rewrite math_seq; auto.
  - change (append " " (append "= " ?x)) with (String " " (append "= " x)). rewrite math_seq; auto.
Qed.

(** $...$ around a text *)
Lemma replace_fuel pat rep : pat <> "" -> forall f t, String.length t < f -> replace_all pat rep f t = replace pat rep t.
Proof.
  intros P. assert (X : forall n t f1 f2, String.length t <= n -> String.length t < f1 -> String.length t < f2 -> replace_all pat rep f1 t = replace_all pat rep f2 t).
  { induction n as [|n IH]; intros t f1 f2 L A B; (destruct f1 as [|f1]; [lia|]); (destruct f2 as [|f2]; [lia|]); cbn [replace_all].
    - destruct t; [|cbn in L; lia]. destruct pat; [congruence|]. reflexivity.
    - destruct (String.prefix pat t) eqn:E.
      + f_equal. assert (D := prefix_drop _ _ E). assert (Y : String.length (drop (String.length pat) t) < String.length t). { rewrite D at 2. destruct pat as [|c p]; [congruence|]. clear. cbn [append String.length]. assert (Z : forall a b, String.length (append a b) = String.length a + String.length b). { induction a; cbn; auto. } rewrite Z. cbn [String.length]. lia. }
        apply IH; lia.
      + destruct t as [|c t]; auto. cbn in L, A, B. f_equal. apply IH; lia. }
  intros f t L. unfold replace. apply (X (String.length t)); lia.
Qed.
Lemma prefix_snoc p c t : ~ In c (list_ascii_of_string p) -> String.prefix p (append t (String c "")) = String.prefix p t.
Proof.
  revert t. induction p as [|d p IH]; intros t H. { destruct t; reflexivity. } cbn [list_ascii_of_string In] in H. destruct t as [|e t]; cbn [append String.prefix].
  - destruct (ascii_dec d c); auto. subst. tauto.
  - destruct (ascii_dec d e); auto.
Qed.
Lemma drop_snoc n c t : n <= String.length t -> drop n (append t (String c "")) = append (drop n t) (String c "").
Proof. revert n. induction t as [|e t IH]; intros [|n] H; cbn in *; auto; try lia. apply IH. lia. Qed.
Lemma prefix_len p t : String.prefix p t = true -> String.length p <= String.length t.
Proof. revert t. induction p as [|c p IH]; intros [|d t] H; cbn in *; try discriminate; try lia. destruct (ascii_dec c d); [|discriminate]. apply IH in H. lia. Qed.
Lemma replace_snoc pat rep c : pat <> "" -> ~ In c (list_ascii_of_string pat) -> forall f t, String.length t < f -> replace_all pat rep (S f) (append t (String c "")) = append (replace_all pat rep f t) (String c "").
Proof.
  intros P N. induction f as [|f IH]; intros t L; [lia|]. destruct t as [|d t].
  - cbn [append replace_all]. assert (X : String.prefix pat (String c "") = false). { destruct pat as [|e p]; [congruence|]. cbn. destruct (ascii_dec e c); auto. subst. cbn in N. tauto. } rewrite X. assert (Y : forall s, String.prefix pat s = true -> s <> ""). { intros s H ->. destruct pat; [congruence|discriminate]. }
    destruct (String.prefix pat "") eqn:Z. apply Y in Z. congruence. destruct f; cbn [replace_all]; auto.
  - change (replace_all pat rep (S (S f)) (append (String d t) (String c ""))) with (if String.prefix pat (append (String d t) (String c "")) then append rep (replace_all pat rep (S f) (drop (String.length pat) (append (String d t) (String c "")))) else String d (replace_all pat rep (S f) (append t (String c "")))).
    change (replace_all pat rep (S f) (String d t)) with (if String.prefix pat (String d t) then append rep (replace_all pat rep f (drop (String.length pat) (String d t))) else String d (replace_all pat rep f t)).
    rewrite prefix_snoc by auto. destruct (String.prefix pat (String d t)) eqn:E.
    + assert (LL := prefix_len _ _ E). rewrite drop_snoc by auto. rewrite IH. symmetry. apply append_assoc. assert (D := prefix_drop _ _ E). assert (Y : String.length (drop (String.length pat) (String d t)) < String.length (String d t)).
      { rewrite D at 2. destruct pat as [|e p]; [congruence|]. clear. cbn [append String.length]. assert (Z : forall a b, String.length (append a b) = String.length a + String.length b). { induction a; cbn; auto. } rewrite Z. cbn [String.length]. lia. } lia.
    + cbn in L. rewrite IH by lia. reflexivity.
Qed.
Lemma len_snoc t c : String.length (append t (String c "")) = S (String.length t). Proof. induction t; cbn; auto. Qed.
Lemma theta_dollar t : theta_expand (append "$" (append t "$")) = append "$" (append (theta_expand t) "$").
Proof.
  unfold theta_expand, replace. change (append "$" (append t "$")) with (String "$" (append t "$")). cbn [String.length]. rewrite len_snoc. change (replace_all "th_" "\theta_" (S (S (S (String.length t)))) (String "$" (append t "$"))) with (String "$" (replace_all "th_" "\theta_" (S (S (String.length t))) (append t "$"))).
  rewrite replace_snoc; try lia. reflexivity. discriminate. cbn. intuition discriminate.
Qed.
Lemma digits_snoc c t : is_digit c = false -> digits (append t (String c "")) = (fst (digits t), append (snd (digits t)) (String c "")).
Proof. intros C. induction t as [|d t IH]; cbn [append digits]. rewrite C. reflexivity. destruct (is_digit d); [|reflexivity]. rewrite IH. destruct (digits t); reflexivity. Qed.
Lemma digits_len t : String.length (snd (digits t)) <= String.length t. Proof. induction t as [|d t IH]; cbn [digits]; auto. destruct (is_digit d); [|auto]. destruct (digits t). cbn [snd String.length] in *. lia. Qed.
Lemma sub_cons f c t : sub_digits_f (S f) (String c t) = if Ascii.eqb c "_" then match digits t with (EmptyString, _) => String c (sub_digits_f f t) | (d, r) => append "_{" (append d (append "}" (sub_digits_f f r))) end else String c (sub_digits_f f t).
Proof. reflexivity. Qed.
Lemma sub_snoc c : is_digit c = false -> c <> "_"%char -> forall f t, String.length t < f -> sub_digits_f (S f) (append t (String c "")) = append (sub_digits_f f t) (String c "").
Proof.
  intros C U. induction f as [|f IH]; intros t L; [lia|]. destruct t as [|d t].
  - cbn [append sub_digits_f]. destruct (Ascii.eqb_spec c "_"); [congruence|]. destruct f; reflexivity.
  - change (append (String d t) (String c "")) with (String d (append t (String c ""))). cbn in L. rewrite !sub_cons, digits_snoc by auto. assert (DL := digits_len t). destruct (Ascii.eqb d "_").
    + destruct (digits t) as [[|d0 dd] r]; cbn [fst snd] in *. rewrite IH by lia. reflexivity. rewrite IH by lia. rewrite !append_assoc. reflexivity.
    + rewrite IH by lia. reflexivity.
Qed.
Lemma sub_dollar t : sub_digits (append "$" (append t "$")) = append "$" (append (sub_digits t) "$").
Proof.
  unfold sub_digits. change (append "$" (append t "$")) with (String "$" (append t "$")). cbn [String.length]. rewrite len_snoc. change (sub_digits_f (S (S (S (String.length t)))) (String "$" (append t "$"))) with (String "$" (sub_digits_f (S (S (String.length t))) (append t "$"))).
  rewrite sub_snoc; try lia; try reflexivity. discriminate.
Qed.
Lemma dollar_scan t stk rest b : math_text KScalar t -> in_math stk = false -> scan (Tex stk TN b) (append (append "$" (append t "$")) rest) = scan (Tex stk TN false) rest.
Proof.
  intros M N. rewrite append_assoc. change (append "$" ?x) with (String "$" x). rewrite append_assoc. change (append "$" rest) with (String "$" rest). cbn [scan].
  assert (S1 : step (Tex stk TN b) "$" = Some (Tex (GMath :: stk) TN false)). { unfold step, norm. cbn [t_mode t_stk t_blank]. cbn [Ascii.eqb]. change (Ascii.eqb "$" nl) with false. change (Ascii.eqb "$" " ") with false. cbn. rewrite N. destruct stk as [|[] stk]; auto. discriminate. }
  rewrite S1. rewrite (math_then KScalar); auto. split; [reflexivity|discriminate].
Qed.
Lemma var_tex_scan n stk rest b : math_text KScalar (latex (Sym (n_name n))) -> in_math stk = false -> scan (Tex stk TN b) (append (var_tex latex n) rest) = scan (Tex stk TN false) rest.
Proof. intros M N. unfold var_tex. rewrite theta_dollar, sub_dollar. apply dollar_scan; auto. apply math_sub; auto. apply math_theta; auto. Qed.
End Texts.

(** ** Pieces of the sections *)
Lemma text_scan t stk : all_chars text_char t = true -> scan (Tex stk TN false) t = Some (Tex stk TN false).
Proof.
  induction t as [|c t IH]; cbn [all_chars scan]; auto. intros H. apply andb_prop in H as [C H]. assert (E : step (Tex stk TN false) c = Some (Tex stk TN false)).
  { unfold text_char in C. apply negb_true_iff in C. repeat (apply orb_false_iff in C as [C ?]). unfold step, norm. cbn [t_mode t_stk t_blank]. rewrite C, H0, H1, H2, H3, H4, H5, H6, H7, H8. cbn [orb]. destruct (Ascii.eqb c " "); auto. }
  rewrite E. auto.
Qed.
Definition name_char (c : ascii) : bool := text_char c || Ascii.eqb c "_".
Lemma name_scan t stk : all_chars name_char t = true -> scan (Tex stk TN false) (replace_us t) = Some (Tex stk TN false).
Proof.
  induction t as [|c t IH]; cbn [all_chars replace_us scan]; auto. intros H. apply andb_prop in H as [C H]. destruct (Ascii.eqb_spec c "_") as [->|N]. { cbn. auto. }
  assert (R : replace_us (String c t) = String c (replace_us t)). { destruct c as [[] [] [] [] [] [] [] []]; try reflexivity. congruence. }
  change (match c with "_"%char => _ | _ => _ end) with (replace_us (String c t)). rewrite R. unfold name_char in C. destruct (Ascii.eqb_spec c "_"); [congruence|]. rewrite orb_false_r in C. change (String c (replace_us t)) with (append (String c "") (replace_us t)). rewrite scan_app, text_scan; auto. cbn. rewrite C. auto.
Qed.
Lemma drop_chars f n t : all_chars f t = true -> all_chars f (drop n t) = true.
Proof. revert n. induction t as [|c t IH]; intros [|n] H; auto. cbn [drop]. apply IH. cbn [all_chars] in H. apply andb_prop in H. tauto. Qed.
Lemma clean_chars f t : all_chars f t = true -> all_chars f (clean_name t) = true.
Proof.
  unfold clean_name. generalize (S (String.length t)). intros n. revert t. induction n as [|n IH]; intros t H; auto. cbn [remove_test]. destruct (String.prefix "test: " t). apply IH, drop_chars; auto.
  destruct t as [|c t]; auto. cbn [all_chars] in *. apply andb_prop in H as [A B]. rewrite A. cbn [andb]. auto.
Qed.
Lemma verb_scan t stk : verb_text t -> scan (Tex stk (TVerb 0) false) t = Some (Tex stk (TVerb 0) false).
Proof.
  unfold verb_text. induction t as [|c t IH]; cbn [list_ascii_of_string In scan]; auto. intros H. assert (E : step (Tex stk (TVerb 0) false) c = Some (Tex stk (TVerb 0) false)).
  { unfold step. cbn [t_mode t_stk t_blank]. change (String.get 0 end_verbatim) with (Some "\"%char). cbv iota. destruct (Ascii.eqb_spec c "\"); [|reflexivity]. subst. tauto. }
  rewrite E. apply IH. tauto.
Qed.
Lemma verb_app a b : verb_text a -> verb_text b -> verb_text (append a b).
Proof. unfold verb_text. rewrite ascii_app. intros H1 H2 H. apply in_app_or in H. tauto. Qed.
Definition digit_text (t : string) : Prop := t <> "" /\ forall c, In c (list_ascii_of_string t) -> is_digit c = true.
Lemma digit_text_nat n : digit_text (str_of_nat n).
Proof.
  assert (D : SolSetFacts.digits (str_of_nat n) = true) by apply SolSetFacts.str_digits. assert (N : str_of_nat n <> "").
  { unfold str_of_nat. destruct n as [|n]; [discriminate|]. assert (X := DecimalNat.Unsigned.of_to (S n)). destruct (Nat.to_uint (S n)); cbn; try discriminate. }
  split; auto. revert D. generalize (str_of_nat n). clear. intros t. induction t as [|c t IH]; cbn [list_ascii_of_string In]; [contradiction|]. intros H c' [<-|X]; cbn [SolSetFacts.digits] in H; apply andb_prop in H as [A B]; auto.
Qed.
Lemma digit_scan t stk b : digit_text t -> (forall c, is_digit c = true -> step (Tex stk TN b) c = Some (Tex stk TN false)) /\ scan (Tex stk TN b) t = Some (Tex stk TN false) /\ scan (Tex stk (TW "dauq") b) t = Some (Tex stk TN false).
Proof.
  intros [N D]. assert (S1 : forall b c, is_digit c = true -> step (Tex stk TN b) c = Some (Tex stk TN false) /\ step (Tex stk (TW "dauq") b) c = Some (Tex stk TN false)).
  { intros b' c C. destruct c as [[] [] [] [] [] [] [] []]; try discriminate C; split; reflexivity. }
  assert (S2 : forall t, (forall c, In c (list_ascii_of_string t) -> is_digit c = true) -> scan (Tex stk TN false) t = Some (Tex stk TN false)).
  { clear t N D. induction t as [|c t IH]; intros D; auto. cbn [scan]. rewrite (proj1 (S1 false c (D c (or_introl eq_refl)))). apply IH. intros; apply D; right; auto. }
  split. intros; apply S1; auto. destruct t as [|c t]; [congruence|]. cbn [scan]. destruct (S1 b c (D c (or_introl eq_refl))) as [-> ->]. split; apply S2; intros; apply D; right; auto.
Qed.
Ltac const := match goal with |- context [scan ?s (append ?a ?b)] => is_ground a; rewrite (scan_app a s b); let r := eval vm_compute in (scan s a) in replace (scan s a) with r by (vm_compute; reflexivity); cbv iota beta end.
Definition doc : list grp := [GEnv "document"].
Definition tidy (t : string) : Prop := forall b, exists b', scan (Tex doc TN b) t = Some (Tex doc TN b').
Lemma tidy_app a b : tidy a -> tidy b -> tidy (append a b).
Proof. intros A B x. destruct (A x) as (y & E). destruct (B y) as (z & F). exists z. rewrite scan_app, E. exact F. Qed.
Lemma tidy_nil : tidy "". Proof. intros b. exists b. reflexivity. Qed.
Lemma tidy_concat l : (forall t, In t l -> tidy t) -> tidy (concat_s l).
Proof. induction l as [|t l IH]; intros H; cbn [concat_s]. apply tidy_nil. apply tidy_app. apply H. left; auto. apply IH. intros; apply H; right; auto. Qed.
Section Sections.
Variable latex : expr -> string.
Definition scalar (t : string) : Prop := math_text KScalar t.
Definition good_eqn (q : kequation) : Prop := scalar (latex (k_lhs q)) /\ scalar (latex (k_rhs q)).
Definition env_of (a : bool) : string := if a then "align" else "dmath".
Lemma eqn_lines_scan a last qs : Forall good_eqn qs -> forall rest, scan (Tex (GEnv (env_of a) :: doc) TN false) (append (eqn_lines latex a last qs) rest) = scan (Tex (GEnv (env_of a) :: doc) TN false) rest.
Proof.
  unfold eqn_lines. intros H. unfold enum. generalize 0. induction H as [|q qs [L R] H IH]; intros n rest; [reflexivity|]. cbn [List.length seq combine map concat_s fst snd]. rewrite append_assoc, append_assoc. change (append (append " " ?x) ?y) with (String " " (append x y)).
  rewrite (math_then (akind a)); [| |destruct a; (split; [reflexivity|try reflexivity; discriminate])|reflexivity]. 2:{ apply LaTexOutput_ok; auto. }
  cbn [scan]. replace (step (Tex (GEnv (env_of a) :: doc) TN false) " ") with (Some (Tex (GEnv (env_of a) :: doc) TN false)) by reflexivity. cbv iota.
  assert (X : scan (Tex (GEnv (env_of a) :: doc) TN false) (if a && (n <? last) then "\\" else "") = Some (Tex (GEnv (env_of a) :: doc) TN false)). { destruct (a && (n <? last)); reflexivity. }
  rewrite scan_app, X. apply IH.
Qed.
Lemma block_tidy a n m last qs : scalar (latex (Sym (n_name n))) -> all_chars text_char m = true -> Forall good_eqn qs -> tidy (block latex a n m last qs).
Proof.
  intros N M H b. exists true. unfold block. destruct b; unfold doc.
  all: const; const; rewrite var_tex_scan by (auto; reflexivity); const; const; const; rewrite scan_app, text_scan by auto; const.
  all: destruct a; const; rewrite (eqn_lines_scan true) || rewrite (eqn_lines_scan false); auto; vm_compute; reflexivity.
Qed.
Lemma intro_tidy fk t : all_chars name_char t = true -> tidy (intro fk (replace_us t)).
Proof.
  intros H b. exists true. unfold intro, doc. destruct b, fk; const; rewrite scan_app, name_scan by auto; const; rewrite scan_app, name_scan by auto; vm_compute; reflexivity.
Qed.
Lemma params_tidy dh : math_text KMatrix dh -> tidy (params_sec dh).
Proof.
  intros H b. exists false. unfold params_sec, doc. destruct b; const; change (append dh ?x) with (append dh (String "\" "end{dmath}")); rewrite (math_then KMatrix); auto; try (split; [reflexivity|discriminate]); vm_compute; reflexivity.
Qed.
Lemma columns_scan fk cols : Forall (math_text KMatrix) cols -> forall n rest b, exists b', scan (Tex (GEnv "dmath" :: doc) TN b) (append (concat_s (map (fun ic => column_tex fk (fst ic) (snd ic)) (combine (seq n (List.length cols)) cols))) rest) = scan (Tex (GEnv "dmath" :: doc) TN b') rest.
Proof.
  intros H. induction H as [|c cols C H IH]; intros n rest b. { exists b. reflexivity. } cbn [List.length seq combine map concat_s fst snd]. unfold column_tex at 1.
  destruct (IH (S n) rest true) as (b' & E). exists b'. rewrite <- E. clear E IH. rewrite !append_assoc. unfold doc. const.
  destruct (digit_scan (str_of_nat (S n)) [GEnv "dmath"; GEnv "document"] false (digit_text_nat _)) as (_ & X & _).
  assert (Y := digit_scan (str_of_nat (S n)) (GBrace :: [GEnv "dmath"; GEnv "document"]) false (digit_text_nat _)). destruct Y as (_ & _ & Y). rewrite scan_app, Y. destruct fk; const; match goal with |- context [append c (append (String ?d ?s) ?x)] => change (append c (append (String d s) x)) with (append c (String d (append s x))) end; rewrite (math_then KMatrix); auto; try (split; [reflexivity|discriminate]); reflexivity.
Qed.
Lemma fk_tidy fk lhs cols : math_text KMatrix lhs -> Forall (math_text KMatrix) cols -> tidy (fk_sec fk lhs cols).
Proof.
  intros L H b. exists true. unfold fk_sec, doc. destruct b, fk; const; match goal with |- context [append lhs (append (String ?c ?s) ?x)] => change (append lhs (append (String c s) x)) with (append lhs (String c (append s x))) end; rewrite (math_then KMatrix); auto; try (split; [reflexivity|discriminate]); match goal with |- context [scan ?s (String ?c (append ?x ?y))] => change (String c (append x y)) with (append (String c x) y) end; const; unfold enum; match goal with |- context [column_tex ?f] => match goal with |- context [append (concat_s _) ?r] => destruct (columns_scan f cols H 0 r true) as (b' & E) end end; unfold doc in E; rewrite E; destruct b'; vm_compute; reflexivity.
Qed.
Lemma unknowns_tidy nodes : (forall n, In n nodes -> scalar (latex (Sym (n_name n)))) -> tidy (unknowns_sec latex nodes).
Proof.
  intros H b. exists true. unfold unknowns_sec, doc. assert (X : forall b rest, exists b', scan (Tex (GEnv "enumerate" :: doc) TN b) (append (concat_s (map (fun n => append nls (append "\item {" (append (var_tex latex n) "}"))) nodes)) rest) = scan (Tex (GEnv "enumerate" :: doc) TN b') rest).
  { induction nodes as [|n nodes IH]; intros b0 rest. exists b0. reflexivity. cbn [map concat_s]. destruct (IH (fun m M => H m (or_intror M)) false rest) as (b' & E). exists b'. rewrite <- E. clear E IH. rewrite !append_assoc. unfold doc.
    destruct b0; const; const; rewrite var_tex_scan by (try apply H; try left; auto; reflexivity); const; reflexivity. }
  destruct b; const; match goal with |- context [append (concat_s _) ?r] => destruct (X true r) as (b' & E) end; unfold doc in E; rewrite E; destruct b'; vm_compute; reflexivity.
Qed.
Lemma edges_tidy edges : (forall e, In e edges -> verb_text (fst e) /\ verb_text (snd e)) -> tidy (edges_sec edges).
Proof.
  intros H b. exists true. unfold edges_sec, doc. assert (X : forall n, verb_text (concat_s (map (fun ie => append (edge_repr (snd ie)) (if Nat.even (S (fst ie)) then nls else "     ")) (combine (seq n (List.length edges)) edges)))).
  { induction edges as [|e edges IH]; intros n. { intros X. exact X. } cbn [List.length seq combine map concat_s fst snd]. destruct (H e (or_introl eq_refl)) as [A B]. apply verb_app; [apply verb_app|].
    - unfold edge_repr. repeat (apply verb_app; auto); unfold verb_text; cbn; intuition discriminate.
    - destruct (Nat.even (S n)); unfold verb_text; cbn; intuition discriminate.
    - apply IH. intros; apply H; right; auto. }
  destruct b; const; rewrite scan_app, verb_scan by apply X; vm_compute; reflexivity.
Qed.
Lemma verb_concat sep l : verb_text sep -> (forall t, In t l -> verb_text t) -> verb_text (String.concat sep l).
Proof.
  intros S H. induction l as [|t l IH]. { intros X. exact X. } destruct l as [|u l]. { apply H. left; auto. }
  change (String.concat sep (t :: u :: l)) with (append t (append sep (String.concat sep (u :: l)))). apply verb_app. apply H; left; auto. apply verb_app; auto. apply IH. intros; apply H; right; auto.
Qed.
Lemma sets_tidy groups : (forall g v, In g groups -> In v g -> verb_text v) -> tidy (sets_sec groups).
Proof.
  intros H b. exists true. unfold sets_sec, doc. assert (X : verb_text (concat_s (map (fun g => append (tuple_repr g) nls) groups))).
  { induction groups as [|g groups IH]. { intros X. exact X. } cbn [map concat_s]. apply verb_app; [apply verb_app|apply IH; intros; eapply H; [right; eauto|auto]].
    - assert (G := fun v => H g v (or_introl eq_refl)). assert (Q : forall t, In t (map (fun x => append "'" (append x "'")) g) -> verb_text t). { intros t Ht. apply in_map_iff in Ht as (v & <- & V). repeat apply verb_app; auto; unfold verb_text; cbn; intuition discriminate. }
      assert (Y : verb_text (append "(" (append (String.concat ", " (map (fun x => append "'" (append x "'")) g)) ")"))). { repeat apply verb_app. unfold verb_text; cbn; intuition discriminate. apply verb_concat; auto. unfold verb_text; cbn; intuition discriminate. unfold verb_text; cbn; intuition discriminate. }
      destruct g as [|v [|w g]]; auto. unfold tuple_repr. apply verb_app; [|apply verb_app; [apply G; left; reflexivity|]]; unfold verb_text; cbn; intuition discriminate.
    - unfold verb_text; cbn; intuition discriminate. }
  destruct b; const; rewrite scan_app, verb_scan by apply X; vm_compute; reflexivity.
Qed.
Definition in_table : list grp := GEnv "tabular" :: doc.
Lemma row_scan g s rest b : (forall v, In v g -> scalar v) -> table_row g = Some s -> scan (Tex in_table TN b) (append s rest) = scan (Tex in_table TN true) rest.
Proof.
  intros H E. destruct g as [|v vs]; [discriminate|]. cbn [table_row] in E. apply some_inj in E. subst s.
  replace (append (append "$" (append v (append "$" (append (concat_s (map (fun w => append " & $" (append w "$ ")) vs)) "\\\hline
")))) rest) with (append (append "$" (append v "$")) (append (concat_s (map (fun w => append " & $" (append w "$ ")) vs)) (append "\\\hline
" rest))) by (rewrite !append_assoc; reflexivity).
  rewrite dollar_scan; [|apply H; left; auto|reflexivity]. assert (Hv : forall w, In w vs -> scalar w) by (intros; apply H; right; auto). clear H. induction vs as [|w vs IH].
  - cbn [map concat_s]. change (append "" ?x) with x. unfold in_table, doc. const. reflexivity.
  - cbn [map concat_s]. replace (append (append (append " & $" (append w "$ ")) (concat_s (map (fun w => append " & $" (append w "$ ")) vs))) (append "\\\hline
" rest)) with (append " & " (append (append "$" (append w "$")) (append " " (append (concat_s (map (fun w => append " & $" (append w "$ ")) vs)) (append "\\\hline
" rest))))) by (rewrite !append_assoc; reflexivity).
    unfold in_table, doc. const. rewrite dollar_scan; [|apply Hv; left; auto|reflexivity]. const. apply IH. intros; apply Hv; right; auto.
Qed.
Lemma bars_scan n stk b : scan (Tex stk TN b) (append "|" (times n "l|")) = Some (Tex stk TN false).
Proof. change (append "|" (times n "l|")) with (String "|" (times n "l|")). cbn [scan]. change (step (Tex stk TN b) "|") with (Some (Tex stk TN false)). cbv iota. induction n as [|n IH]; auto. Qed.
Lemma table_tidy groups t : (forall g v, In g groups -> In v g -> scalar v) -> table_sec groups = Some t -> tidy t.
Proof.
  intros H E b. exists true. unfold table_sec in E. destruct groups as [|g0 groups]; [discriminate|]. set (n := List.length g0) in *. set (gs := g0 :: groups) in *. destruct (mapM table_row gs) as [ls|] eqn:M; [|discriminate]. apply some_inj in E. subst t.
  assert (X : forall b rest, exists b', scan (Tex in_table TN b) (append (concat_s ls) rest) = scan (Tex in_table TN b') rest).
  { clear n. clearbody gs. revert ls M. induction gs as [|g gs IH]; intros ls M b0 rest; cbn [mapM] in M. apply some_inj in M. subst. exists b0. reflexivity. destruct (table_row g) as [s|] eqn:R; [|discriminate]. destruct (mapM table_row gs) as [l|]; [|discriminate]. apply some_inj in M. subst ls.
    cbn [concat_s]. rewrite append_assoc, (row_scan g s _ b0 (fun v => H g v (or_introl eq_refl)) R). apply IH; auto. intros; eapply H; [right; eauto|auto]. }
  unfold doc. destruct b; const; rewrite scan_app, bars_scan; const; match goal with |- context [append (concat_s _) ?r] => destruct (X true r) as (b' & E) end; unfold in_table, doc in E; rewrite E; destruct b'; vm_compute; reflexivity.
Qed.
Lemma jac_tidy fk cols : Forall (math_text KMatrix) cols -> tidy (jacobian_sec fk cols).
Proof.
  intros H b. exists true. unfold jacobian_sec, doc, enum.
  assert (X : forall n rest b, exists b', scan (Tex (GEnv "dmath" :: doc) TN b) (append (concat_s (map (fun ic => append (if fk then "\mathrm{Column \quad " else "\mathrm{ Column \quad") (append (str_of_nat (S (fst ic))) (append "}\\
" (append (snd ic) "
\\ 
")))) (combine (seq n (List.length cols)) cols))) rest) = scan (Tex (GEnv "dmath" :: doc) TN b') rest).
  { induction H as [|c cols C H IH]; intros n rest b0. { exists b0. reflexivity. } cbn [List.length seq combine map concat_s fst snd]. destruct (IH (S n) rest true) as (b' & E). exists b'. rewrite <- E. clear E IH. rewrite !append_assoc. unfold doc.
    destruct (digit_scan (str_of_nat (S n)) (GBrace :: [GEnv "dmath"; GEnv "document"]) false (digit_text_nat _)) as (_ & X & Y). destruct fk; const; rewrite scan_app; [rewrite X|rewrite Y]; const; match goal with |- context [append c (append (String ?d ?s) ?x)] => change (append c (append (String d s) x)) with (append c (String d (append s x))) end; rewrite (math_then KMatrix); auto; try (split; [reflexivity|discriminate]); reflexivity. }
  destruct b; const; match goal with |- context [append (concat_s _) ?r] => destruct (X 0 r true) as (b' & E) end; unfold doc in E; rewrite E; destruct b'; vm_compute; reflexivity.
Qed.
End Sections.
(** ** The documents *)
Lemma lines_text l : concat_s (map (fun x => append x nls) (drop_last_empty l)) = concat_s (map (fun x => append x nls) l) \/ append (concat_s (map (fun x => append x nls) (drop_last_empty l))) nls = concat_s (map (fun x => append x nls) l).
Proof.
  induction l as [|x l IH]; auto. destruct l as [|y l].
  - cbn [drop_last_empty]. destruct (String.eqb_spec x ""); auto. subst. right. reflexivity.
  - change (drop_last_empty (x :: y :: l)) with (x :: drop_last_empty (y :: l)). cbn [map concat_s] in *. destruct IH as [IH|IH]. left. f_equal. exact IH. right. rewrite append_assoc. f_equal. exact IH.
Qed.
Lemma split_text s : concat_s (map (fun x => append x nls) (split_lines s)) = append s nls.
Proof.
  induction s as [|c s IH]; auto. cbn [split_lines]. destruct (Ascii.eqb_spec c nl) as [->|N]. { cbn [map concat_s]. rewrite IH. reflexivity. }
  assert (NE := split_ne s). destruct (split_lines s) as [|l ls]; [congruence|]. cbn [map concat_s] in *. change (append (String c s) nls) with (String c (append s nls)). rewrite <- IH. reflexivity.
Qed.
Lemma app_nls_inj a b : append a nls = append b nls -> a = b.
Proof.
  revert b. induction a as [|c a IH]; intros [|d b] H; auto.
  - change (append (String d b) nls) with (String d (append b nls)) in H. injection H as _ H. destruct b; discriminate.
  - change (append (String c a) nls) with (String c (append a nls)) in H. injection H as _ H. destruct a; discriminate.
  - change (append (String c a) nls) with (String c (append a nls)) in H. change (append (String d b) nls) with (String d (append b nls)) in H. injection H as -> H. f_equal. auto.
Qed.
Lemma lines_tidy s : tidy s -> tidy (concat_s (map (fun l => append l nls) (splitlines s))).
Proof.
  intros T. unfold splitlines. assert (X := lines_text (split_lines s)). rewrite split_text in X. destruct X as [->|X].
  - apply tidy_app; auto. intros [|]; exists true; reflexivity.
  - apply app_nls_inj in X. rewrite X. auto.
Qed.
Lemma body_tidy ss : (forall s, In s ss -> tidy s) -> well_formed (body_text ss).
Proof.
  intros H. apply (tidy_concat (map (fun s => append (append nls (append nls nls)) (concat_s (map (fun l => append l nls) (splitlines s)))) ss)). intros t Ht. apply in_map_iff in Ht as (s & <- & Hs). apply tidy_app; [|apply lines_tidy; auto]. intros [|]; exists true; reflexivity.
Qed.
(** what is assumed of the texts that are printed *)
Record good_robot (latex : expr -> string) (names : node -> list string) (r : robot) (edges : list (string * string)) (groups : list row) : Prop := {
  gr_name : all_chars name_char (r_name r) = true;
  gr_var : forall n, In n (r_nodes r) -> scalar (latex (Sym (n_name n)));
  gr_method : forall n, In n (r_nodes r) -> all_chars text_char (n_method n) = true;
  gr_sols : forall n e, In n (r_nodes r) -> In e (n_sols n) -> scalar (latex e);
  gr_names : forall n v, In n (r_nodes r) -> In v (names n) -> scalar (latex (Sym v));
  gr_eqns : forall eqs q, In eqs (r_eqns r) -> In q eqs -> good_eqn latex q;
  gr_edges : forall e, In e edges -> verb_text (fst e) /\ verb_text (snd e);
  gr_groups : forall g v, In g groups -> In v g -> verb_text v /\ scalar v }.
Record good_matrices (m : matrices) : Prop := {
  gm_dh : math_text KMatrix (m_dh m); gm_lhs : math_text KMatrix (m_lhs m);
  gm_cols : Forall (math_text KMatrix) (m_cols m); gm_jac : Forall (math_text KMatrix) (m_jac m) }.
Lemma mapM_in {A B} (f : A -> option B) l : forall l' b, mapM f l = Some l' -> In b l' -> exists a, In a l /\ f a = Some b.
Proof.
  induction l as [|a l IH]; cbn [mapM]; intros l' b H I. { apply some_inj in H. subst. contradiction. } destruct (f a) as [x|] eqn:E; [|discriminate]. destruct (mapM f l) as [xs|] eqn:F; [|discriminate]. apply some_inj in H. subst l'.
  destruct I as [<-|I]. exists a. split; auto. left; auto. destruct (IH xs b eq_refl I) as (a' & A1 & A2). exists a'. split; auto. right; auto.
Qed.
Lemma combine_in {A} (l : list A) : forall n p, In p (combine (seq n (List.length l)) l) -> In (snd p) l.
Proof. intros n [i a] H. apply in_combine_r in H. auto. Qed.
(** C59: the inverse kinematics report and the forward kinematics report are well formed LaTeX. *)
Theorem C59_solution_report latex names r edges groups m secs : good_robot latex names r edges groups -> good_matrices m ->
  output_latex_solution latex names r edges groups m = Some secs -> well_formed (body_text secs).
Proof.
  intros G M H. destruct G, M. unfold output_latex_solution in H. destruct (generic_sec latex names (r_nodes r)) as [gs|] eqn:E1; [|discriminate]. destruct (versions_sec latex r) as [vs|] eqn:E2; [|discriminate]. destruct (table_sec groups) as [ts|] eqn:E3; [|discriminate]. apply some_inj in H. subst secs.
  apply body_tidy. intros s [<-|[<-|[<-|[<-|[<-|[<-|[<-|[<-|[<-|[<-|[]]]]]]]]]]].
  - apply intro_tidy. apply clean_chars; auto.
  - apply params_tidy; auto.
  - apply fk_tidy; auto.
  - apply unknowns_tidy; auto.
  - unfold generic_sec in E1. destruct (mapM (generic_block latex names) (r_nodes r)) as [bs|] eqn:B; [|discriminate]. apply some_inj in E1. subst gs. apply tidy_app. intros [|]; exists true; vm_compute; reflexivity.
    apply tidy_concat. intros t Ht. destruct (mapM_in _ _ _ _ B Ht) as (n & N & E). unfold generic_block in E. destruct (String.eqb (n_method n) ""). apply some_inj in E. subst. apply tidy_nil.
    destruct (mapM _ (enum (n_sols n))) as [qs|] eqn:Q; [|discriminate]. apply some_inj in E. subst t. apply block_tidy; auto. apply Forall_forall. intros q Hq. destruct (mapM_in _ _ _ _ Q Hq) as (ie & I & F). destruct (nth_error (names n) (fst ie)) as [v|] eqn:V; [|discriminate]. apply some_inj in F. subst q.
    split; cbn [k_lhs k_rhs]. apply (gr_names0 n v N). eapply nth_error_In; eauto. apply (gr_sols0 n _ N). apply (combine_in _ _ _ I).
  - unfold versions_sec in E2. destruct (mapM (version_block latex r) (r_nodes r)) as [bs|] eqn:B; [|discriminate]. apply some_inj in E2. subst vs. apply tidy_app. intros [|]; exists true; vm_compute; reflexivity.
    apply tidy_concat. intros t Ht. destruct (mapM_in _ _ _ _ B Ht) as (n & N & E). unfold version_block in E. destruct (String.eqb (n_method n) ""). apply some_inj in E. subst. apply tidy_nil.
    destruct (node_eqns r n) as [qs|] eqn:Q; [|discriminate]. apply some_inj in E. subst t. apply block_tidy; auto. apply Forall_forall. intros q Hq. unfold node_eqns in Q. destruct (mapM_in _ _ _ _ Q Hq) as (eqs & I & F). apply (gr_eqns0 eqs q I). eapply nth_error_In; eauto.
  - apply edges_tidy; auto.
  - apply sets_tidy. intros g v A B. apply (gr_groups0 g v A B).
  - eapply table_tidy; [|eauto]. intros g v A B. apply (gr_groups0 g v A B).
  - apply jac_tidy; auto.
Qed.
Theorem C59_forward_report r m : all_chars name_char (r_name r) = true -> good_matrices m -> well_formed (body_text (output_FK_equations r m)).
Proof.
  intros N M. destruct M. apply body_tidy. unfold output_FK_equations. intros s [<-|[<-|[<-|[<-|[]]]]]. apply intro_tidy. apply clean_chars; auto. apply params_tidy; auto. apply fk_tidy; auto. apply jac_tidy; auto.
Qed.
