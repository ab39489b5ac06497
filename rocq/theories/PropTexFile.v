(** C59: the whole files of the LaTeX reports: preamble, body and closing make one complete document. *)
From Coq Require Import Reals ZArith List String Ascii Bool Arith Lia.
From Verif Require Import Expr Kin Solver SolSet PropHist CodeGen CppFacts PropCpp PropEmit CodeGenEx PyFile PropPy PropLine Latex PropLatex PropLatexEx TexFile PropSession.
Import ListNotations.
Local Open Scope string_scope.
Local Open Scope list_scope.
Local Open Scope nat_scope.

(** * Specification: a complete document *)
(** the part of a line before an unescaped percent sign *)
Fixpoint uncomment (esc : bool) (s : string) : string :=
  match s with
  | EmptyString => ""
  | String c t => if Ascii.eqb c "%" && negb esc then "" else String c (uncomment (Ascii.eqb c "\" && negb esc) t)
  end.
(** the text up to the first [c], and the text after it *)
Fixpoint until (c : ascii) (s : string) : option (string * string) :=
  match s with
  | EmptyString => None
  | String d t => if Ascii.eqb c d then Some ("", t) else match until c t with Some (a, b) => Some (String d a, b) | None => None end
  end.
Fixpoint after (p s : string) : option string :=
  match p, s with
  | EmptyString, _ => Some s
  | String a p', String b s' => if Ascii.eqb a b then after p' s' else None
  | _, _ => None
  end.
(** the argument of \cmd[options]{argument} when the line starts with this command *)
Definition argument (cmd line : string) : option string :=
  match after cmd line with
  | Some (String "[" t) => match until "]" t with Some (_, String "{" u) => option_map fst (until "}" u) | _ => None end
  | Some (String "{" u) => option_map fst (until "}" u)
  | _ => None
  end.
Definition is_arg (cmd arg line : string) : bool := match argument cmd line with Some a => String.eqb a arg | None => false end.
(** no space, end of line *)
Definition blank_text (s : string) : bool := all_chars (fun c => Ascii.eqb c " " || Ascii.eqb c nl) s.
(** braces are balanced *)
Fixpoint braces (d : nat) (s : string) : option nat :=
  match s with
  | EmptyString => Some d
  | String c t => if Ascii.eqb c "{" then braces (S d) t else if Ascii.eqb c "}" then match d with 0 => None | S d' => braces d' t end else braces d t
  end.
Fixpoint braces_lines (d : nat) (l : list string) : option nat :=
  match l with [] => Some d | s :: l' => match braces d s with Some d' => braces_lines d' l' | None => None end end.
(** a preamble: it starts with \documentclass{article}, has no other \documentclass and no \begin{document}, closes its groups, and loads
    every package in which an environment of the reports is defined (env_home), and the one that defines \href *)
Definition is_preamble (pre : string) : Prop :=
  exists ls, ls = filter (fun l => negb (blank_text l)) (map (uncomment false) (split_lines pre))
  /\ (exists c rest, ls = c :: rest /\ is_arg "\documentclass" "article" c = true /\ forall l, In l rest -> contains "\documentclass" l = false)
  /\ (forall l, In l ls -> contains "\begin{document}" l = false)
  /\ braces_lines 0 ls = Some 0
  /\ (forall n p, env_home n = Some p -> p <> "article" -> exists l, In l ls /\ is_arg "\usepackage" p l = true)
  /\ exists l, In l ls /\ is_arg "\usepackage" "hyperref" l = true.
(** a preamble, then one document environment in which everything opened is closed again, then nothing *)
Definition complete (t : string) : Prop :=
  exists pre mid post, t = append pre (append "\begin{document}" (append mid (append "\end{document}" post)))
  /\ is_preamble pre /\ blank_text post = true
  /\ exists b, scan (Tex [GEnv "document"] TN false) mid = Some (Tex [GEnv "document"] TN b).

(** * The files *)
Lemma home_cases n p : env_home n = Some p -> p = "article" \/ p = "amsmath" \/ p = "breqn".
Proof. unfold env_home. destruct (existsb _ _). intros H; injection H as <-; auto. destruct (existsb _ _). intros H; injection H as <-; auto. destruct (existsb _ _). intros H; injection H as <-; auto. discriminate. Qed.
Definition preb (pre : string) : bool :=
  let ls := filter (fun l => negb (blank_text l)) (map (uncomment false) (split_lines pre)) in
  match ls with [] => false | c :: rest => is_arg "\documentclass" "article" c && forallb (fun l => negb (contains "\documentclass" l)) rest end
  && forallb (fun l => negb (contains "\begin{document}" l)) ls
  && match braces_lines 0 ls with Some 0 => true | _ => false end
  && existsb (is_arg "\usepackage" "amsmath") ls && existsb (is_arg "\usepackage" "breqn") ls && existsb (is_arg "\usepackage" "hyperref") ls.
Lemma preb_ok pre : preb pre = true -> is_preamble pre.
Proof.
  unfold preb, is_preamble. set (ls := filter _ _). clearbody ls. intros H. exists ls. split; [reflexivity|].
  apply andb_true_iff in H as [H H6]. apply andb_true_iff in H as [H H5]. apply andb_true_iff in H as [H H4]. apply andb_true_iff in H as [H H3]. apply andb_true_iff in H as [H1 H2].
  split. { destruct ls as [|c rest]; [discriminate H1|]. apply andb_true_iff in H1 as [A B]. exists c, rest. split; [reflexivity|]. split; [exact A|]. intros l Hl. rewrite forallb_forall in B. apply negb_true_iff. exact (B l Hl). }
  split. { intros l Hl. rewrite forallb_forall in H2. apply negb_true_iff. exact (H2 l Hl). }
  split. { destruct (braces_lines 0 ls) as [[|]|]; [reflexivity|discriminate H3|discriminate H3]. }
  split. { intros n p Hp Hn. apply home_cases in Hp as [->|[->| ->]]; [contradiction|apply existsb_exists; exact H4|apply existsb_exists; exact H5]. }
  apply existsb_exists. exact H6.
Qed.
(** the text before the line \begin{document} *)
Definition before_lines : list string := firstn 72 preamble_lines.
Definition before_text : string := plines_read before_lines.
Definition after_text : string := append (append " " (append nls nls)) (plines_read (skipn 73 preamble_lines)).
Lemma preamble_split : plines_read preamble_lines = append before_text (append "\begin{document}" after_text). Proof. vm_compute. reflexivity. Qed.
Lemma close_split : plines_read close_lines = append (append (append " " (append nls nls)) (append nls nls)) (append "\end{document}" (append (append nls nls) (append nls nls))). Proof. vm_compute. reflexivity. Qed.
Lemma before_ok : is_preamble before_text. Proof. apply preb_ok. vm_compute. reflexivity. Qed.
Lemma body_complete secs : well_formed (body_text secs) -> complete (file_text secs).
Proof.
  intros W. unfold file_text, complete. rewrite preamble_split, close_split.
  exists before_text, (append after_text (append (body_text secs) (append (append " " (append nls nls)) (append nls nls)))), (append (append nls nls) (append nls nls)).
  split. { rewrite !append_assoc. reflexivity. }
  split. { exact before_ok. } split. { vm_compute. reflexivity. }
  rewrite scan_app. assert (A : scan (Tex [GEnv "document"] TN false) after_text = Some (Tex [GEnv "document"] TN true)) by (vm_compute; reflexivity). rewrite A.
  rewrite scan_app. destruct W as (b & E). rewrite E. exists true. destruct b; vm_compute; reflexivity.
Qed.

(** C59: the file of either report is one complete LaTeX document: the shipped preamble loads every package the body's environments come
    from, and between \begin{document} and \end{document} everything opened is closed again. *)
Theorem C59_solution_file latex names r edges groups m secs : good_robot latex names r edges groups -> good_matrices m ->
  output_latex_solution latex names r edges groups m = Some secs -> complete (file_text secs).
Proof. intros G M H. apply body_complete. eapply C59_solution_report; eauto. Qed.
Theorem C59_forward_file r m : all_chars name_char (r_name r) = true -> good_matrices m -> complete (file_text (output_FK_equations r m)).
Proof. intros N M. apply body_complete. apply C59_forward_report; auto. Qed.

(** * The names of the files *)
Lemma substring_tail a b : substring (String.length a) (String.length b) (append a b) = b.
Proof. induction a; cbn [String.length append substring]; auto. induction b; cbn [String.length substring]; auto. f_equal. exact IHb. Qed.
Lemma substring_head a b : substring 0 (String.length a) (append a b) = a.
Proof. induction a; cbn [String.length append substring]. destruct b; reflexivity. f_equal. exact IHa. Qed.
Lemma filename_tex a : latex_filename (append a ".tex") = append a ".tex".
Proof.
  unfold latex_filename, ends_with. rewrite append_assoc. change (append ".tex" ".tex") with ".tex.tex".
  rewrite str_len_app. change (String.length ".tex.tex") with 8. replace (String.length a + 8 - 8) with (String.length a) by lia.
  change 8 with (String.length ".tex.tex") at 3. rewrite substring_tail, String.eqb_refl, andb_true_r.
  assert (X : (8 <=? String.length a + 8) = true) by (apply Nat.leb_le; lia). rewrite X.
  replace (append a ".tex.tex") with (append (append a ".tex") ".tex") by (rewrite append_assoc; reflexivity).
  replace (String.length a + 8 - 4) with (String.length (append a ".tex")) by (rewrite str_len_app; cbn; lia). apply substring_head.
Qed.
Lemma append_inj_r a b t : append a t = append b t -> a = b.
Proof.
  revert b. induction a as [|c a IH]; intros b H.
  - assert (L := f_equal String.length H). rewrite !str_len_app in L. destruct b; [reflexivity|cbn in L; lia].
  - destruct b as [|d b]. { assert (L := f_equal String.length H). rewrite !str_len_app in L. cbn in L. lia. }
    cbn [append] in H. injection H as -> H. f_equal. apply IH; auto.
Qed.
(** C59: the inverse kinematics report of a robot is written to LaTex/ik_solution_NAME.tex and the forward kinematics report to
    LaTex/fk_equations_NAME.tex, NAME being the robot's name without "test: "; reports of robots with different such names, and the two
    kinds of report, never go to the same file, and none of them replaces the preamble or the closing file. *)
Theorem C59_file_names r r' :
  solution_filename r = append "LaTex/ik_solution_" (append (clean_name (r_name r)) ".tex")
  /\ forward_filename r = append "LaTex/fk_equations_" (append (clean_name (r_name r)) ".tex")
  /\ (solution_filename r = solution_filename r' <-> clean_name (r_name r) = clean_name (r_name r'))
  /\ (forward_filename r = forward_filename r' <-> clean_name (r_name r) = clean_name (r_name r'))
  /\ solution_filename r <> forward_filename r'
  /\ forall f, f = solution_filename r \/ f = forward_filename r -> f <> "LaTex/IK_preamble.tex" /\ f <> "LaTex/IK_close.tex".
Proof.
  assert (S : forall r, solution_filename r = append "LaTex/ik_solution_" (append (clean_name (r_name r)) ".tex")).
  { intros q. unfold solution_filename. rewrite filename_tex. rewrite append_assoc. reflexivity. }
  assert (F : forall r, forward_filename r = append "LaTex/fk_equations_" (append (clean_name (r_name r)) ".tex")).
  { intros q. unfold forward_filename. rewrite filename_tex. rewrite append_assoc. reflexivity. }
  split; [apply S|]. split; [apply F|]. rewrite !S, !F. cbn [append].
  split. { split; [|intros ->; reflexivity]. intros H. injection H as H. apply append_inj_r in H. exact H. }
  split. { split; [|intros ->; reflexivity]. intros H. injection H as H. apply append_inj_r in H. exact H. }
  split; [discriminate|]. intros f [->| ->]; split; discriminate.
Qed.

(** * Examples *)
(** what the specification rejects: no package loaded; an open group; a second document *)
Example C59_file_rejects : ~ is_preamble "\documentclass{article}" /\ preb (append before_text "{") = false /\ ~ (exists b, scan (Tex [GEnv "document"] TN false) "\end{document}\begin{document}" = Some (Tex [GEnv "document"] TN b)).
Proof.
  split. { intros (ls & E & _ & _ & _ & P & _). vm_compute in E. subst ls. destruct (P "align" "amsmath" eq_refl) as (l & [<-|[]] & X); [discriminate|vm_compute in X; discriminate X]. }
  split. { vm_compute. reflexivity. } intros (b & X). vm_compute in X. discriminate X.
Qed.
(** the report of the example of C59, as a file *)
Example C59_file_example : exists secs, report46 = Some secs /\ complete (file_text secs) /\ solution_filename robot46 = "LaTex/ik_solution_Arm_3.tex".
Proof. destruct (some_of_ok _ report46_some) as (secs & E). exists secs. split; [exact E|]. split; [exact (C59_solution_file _ _ _ _ _ _ _ good46 good_mats0 E)|]. vm_compute. reflexivity. Qed.
Print Assumptions C59_solution_file.
Print Assumptions C59_forward_file.
Print Assumptions C59_file_names.
