(** Concrete cases for C59 and C60. *)
From Coq Require Import Reals ZArith List String Ascii Bool Arith Lia.
From Verif Require Import Expr Kin Solver SolSet SolSetFacts PropSolSet SolSetEx PropHist CodeGen CppFacts PropCpp PropEmit CodeGenEx PyFile PropPy Latex PropLatex Session PropSession.
Import ListNotations.
Local Open Scope string_scope.
Local Open Scope list_scope.
Local Open Scope nat_scope.

(** * C59: the table of the solutions has the columns it declares *)
Definition cells (line : string) : nat := S (List.length (filter (Ascii.eqb "&") (list_ascii_of_string line))).
Definition amp_free (v : string) : Prop := ~ In "&"%char (list_ascii_of_string v).
Lemma amp_app a b : filter (Ascii.eqb "&") (list_ascii_of_string (append a b)) = filter (Ascii.eqb "&") (list_ascii_of_string a) ++ filter (Ascii.eqb "&") (list_ascii_of_string b).
Proof. rewrite ascii_app, filter_app. auto. Qed.
Lemma amp_none v : amp_free v -> filter (Ascii.eqb "&") (list_ascii_of_string v) = [].
Proof. unfold amp_free. induction (list_ascii_of_string v) as [|c l IH]; auto. intros H. cbn [filter]. destruct (Ascii.eqb "&" c) eqn:E. apply Ascii.eqb_eq in E. subst c. exfalso. apply H. left; auto. apply IH. intros X. apply H. right; auto. Qed.
Lemma amp_cells vs : (forall v, In v vs -> amp_free v) -> List.length (filter (Ascii.eqb "&") (list_ascii_of_string (concat_s (map (fun w => append " & $" (append w "$ ")) vs)))) = List.length vs.
Proof.
  induction vs as [|v vs IH]; intros H; auto. cbn [map concat_s]. rewrite !amp_app, !app_length, (amp_none v) by (apply H; left; auto). rewrite IH by (intros; apply H; right; auto). reflexivity.
Qed.
(** C59: for every list of rows of the solution table, the report declares one column per solved unknown and every row of the
    LaTeX table has that many cells. *)
Theorem C59_table nodes groups : handed_over nodes -> (forall g, In g groups -> In g (create_solution_set nodes)) -> groups <> [] -> (forall g v, In g groups -> In v g -> amp_free v) ->
  exists ls, table_sec groups = Some (append "\section{Solution Set v3} \begin{tabular}{" (append (append "|" (times (List.length nodes) "l|")) (append "}\hline
" (append (concat_s ls) "\end{tabular}
")))) /\ List.length ls = List.length groups /\ forall l, In l ls -> cells l = List.length nodes.
Proof.
  intros H I N A. assert (W : forall g, In g groups -> List.length g = List.length nodes) by (intros g Hg; apply C42_rectangular; auto).
  assert (P : nodes <> []) by (destruct H as (_ & n0 & ns & -> & _); discriminate). unfold table_sec. destruct groups as [|g0 gs]; [congruence|]. rewrite (W g0) by (left; auto).
  assert (X : forall l, (forall g, In g l -> In g (g0 :: gs)) -> exists ls, mapM table_row l = Some ls /\ List.length ls = List.length l /\ forall x, In x ls -> cells x = List.length nodes).
  { induction l as [|g l IH]; intros J. { exists []. split; auto. split; auto. intros x []. } destruct (IH (fun g Hg => J g (or_intror Hg))) as (ls & E & L & C). cbn [mapM]. rewrite E.
    assert (G := W g (J g (or_introl eq_refl))). destruct g as [|v vs]. { destruct nodes; [congruence|discriminate]. } eexists. split. reflexivity. split. cbn [List.length]. lia.
    intros x [<-|Hx]; auto. unfold cells. assert (B : forall w, In w (v :: vs) -> amp_free w) by (intros w; apply A; apply J; left; auto). rewrite !amp_app, !app_length, (amp_none v) by (apply B; left; auto). rewrite amp_cells by (intros; apply B; right; auto).
    rewrite <- G. cbn. lia. }
  destruct (X (g0 :: gs) (fun g Hg => Hg)) as (ls & E & L & C). rewrite E. exists ls. auto.
Qed.

(** a printer in the manner of sympy's latex() *)
Fixpoint brace_sub (s : string) : string := match s with EmptyString => "" | String c t => if Ascii.eqb c "_" then append "_{" (append t "}") else String c (brace_sub t) end.
Fixpoint tex0 (e : expr) : string :=
  let bin a op b := append (tex0 a) (append op (tex0 b)) in
  let fn f a := append "\" (append f (append "{\left(" (append (tex0 a) " \right)}"))) in
  match e with
  | Sym s => brace_sub s | Add a b => bin a " + " b | Mul a b => bin a " " b | Neg a => append "- " (tex0 a)
  | Sin a => fn "sin" a | Cos a => fn "cos" a | Asin a => fn "operatorname{asin}" a | Acos a => fn "operatorname{acos}" a
  | Atan2 a b => append "\operatorname{atan_{2}}{\left(" (append (tex0 a) (append "," (append (tex0 b) " \right)}")))
  | PiE => "\pi" | _ => "1"
  end.
Definition mat0 := "\left[\begin{matrix}r_{11} & r_{12} \\r_{21} & r_{22}\end{matrix}\right]".
Definition mats0 := Matrices mat0 mat0 [mat0; mat0] [mat0; mat0; mat0].
Definition edges0 := [("th_2", "th_1"); ("th_3", "th_2")].
Definition report46 := output_latex_solution tex0 solution_names robot46 edges0 groups46 mats0.
(** boolean versions of the hypotheses *)
Definition mtb (k : kind) (t : string) : bool :=
  match mrun k ([], TN) t with Some s => mend s | None => false end && match t with String c _ => negb (Ascii.eqb c " ") | EmptyString => false end.
Lemma mtb_ok k t : mtb k t = true -> math_text k t.
Proof.
  unfold mtb, math_text. rewrite andb_true_iff. intros [A B]. split. destruct (mrun k ([], TN) t) as [s|]; [|discriminate]. exists s. auto. destruct t as [|c t]; [discriminate|]. intros ->. discriminate.
Qed.
Definition vtb (t : string) : bool := negb (existsb (Ascii.eqb "\") (list_ascii_of_string t)).
Lemma vtb_ok t : vtb t = true -> verb_text t.
Proof. unfold vtb, verb_text. rewrite negb_true_iff. intros H I. assert (X : existsb (Ascii.eqb "\") (list_ascii_of_string t) = true) by (apply existsb_exists; exists "\"%char; split; auto). congruence. Qed.
Definition good_b (latex : expr -> string) (names : node -> list string) (r : robot) (edges : list (string * string)) (groups : list row) : bool :=
  all_chars name_char (r_name r)
  && forallb (fun n => mtb KScalar (latex (Sym (n_name n))) && all_chars text_char (n_method n) && forallb (fun e => mtb KScalar (latex e)) (n_sols n) && forallb (fun v => mtb KScalar (latex (Sym v))) (names n)) (r_nodes r)
  && forallb (forallb (fun q => mtb KScalar (latex (k_lhs q)) && mtb KScalar (latex (k_rhs q)))) (r_eqns r)
  && forallb (fun e => vtb (fst e) && vtb (snd e)) edges && forallb (forallb (fun v => vtb v && mtb KScalar v)) groups.
Lemma good_b_ok latex names r edges groups : good_b latex names r edges groups = true -> good_robot latex names r edges groups.
Proof.
  unfold good_b. rewrite !andb_true_iff, !forallb_forall. intros ((((A & B) & C) & D) & G).
  assert (B' : forall n, In n (r_nodes r) -> mtb KScalar (latex (Sym (n_name n))) = true /\ all_chars text_char (n_method n) = true /\ (forall e, In e (n_sols n) -> mtb KScalar (latex e) = true) /\ (forall v, In v (names n) -> mtb KScalar (latex (Sym v)) = true)).
  { intros n Hn. specialize (B n Hn). rewrite !andb_true_iff, !forallb_forall in B. tauto. }
  constructor; auto.
  - intros n Hn. apply mtb_ok. apply B'; auto.
  - intros n Hn. apply B'; auto.
  - intros n e Hn He. apply mtb_ok. destruct (B' n Hn) as (_ & _ & X & _). auto.
  - intros n v Hn Hv. apply mtb_ok. destruct (B' n Hn) as (_ & _ & _ & X). auto.
  - intros eqs q He Hq. specialize (C eqs He). rewrite forallb_forall in C. specialize (C q Hq). apply andb_true_iff in C as [C1 C2]. split; apply mtb_ok; auto.
  - intros e He. specialize (D e He). apply andb_true_iff in D as [D1 D2]. split; apply vtb_ok; auto.
  - intros g v Hg Hv. specialize (G g Hg). rewrite forallb_forall in G. specialize (G v Hv). apply andb_true_iff in G as [G1 G2]. split. apply vtb_ok; auto. apply mtb_ok; auto.
Qed.
Definition some_of {A} (o : option A) : bool := match o with Some _ => true | None => false end.
Lemma some_of_ok {A} (o : option A) : some_of o = true -> exists a, o = Some a. Proof. destruct o; [eauto|discriminate]. Qed.
(** the hypotheses of C59 hold of a robot with three unknowns and eight versions, and its report has an equation array *)
Lemma good46 : good_robot tex0 solution_names robot46 edges0 groups46. Proof. apply good_b_ok. vm_compute. reflexivity. Qed.
Lemma good_mats0 : good_matrices mats0.
Proof. assert (X : math_text KMatrix mat0) by (apply mtb_ok; vm_compute; reflexivity). constructor; cbn [mats0 m_dh m_lhs m_cols m_jac]; auto. Qed.
Lemma report46_some : some_of report46 = true. Proof. vm_compute. reflexivity. Qed.
Lemma report46_line : contains "\theta_{1v1} &= \operatorname{atan2}{\left(r_{21},r_{11} \right)} \\" (match report46 with Some s => body_text s | None => "" end) = true. Proof. vm_compute. reflexivity. Qed.
Example C59_example : good_robot tex0 solution_names robot46 edges0 groups46 /\ good_matrices mats0 /\ exists secs, report46 = Some secs /\ well_formed (body_text secs)
  /\ contains "\theta_{1v1} &= \operatorname{atan2}{\left(r_{21},r_{11} \right)} \\" (body_text secs) = true.
Proof.
  split. exact good46. split. exact good_mats0. destruct (some_of_ok _ report46_some) as (secs & E). exists secs. split; auto. split. exact (C59_solution_report _ _ _ _ _ _ _ good46 good_mats0 E).
  assert (X := report46_line). rewrite E in X. exact X.
Qed.
Lemma amp_b46 : forallb (forallb (fun v => negb (existsb (Ascii.eqb "&") (list_ascii_of_string v)))) groups46 = true. Proof. vm_compute. reflexivity. Qed.
Lemma amp46 g v : In g groups46 -> In v g -> amp_free v.
Proof.
  intros G V I. assert (X := amp_b46). rewrite forallb_forall in X. specialize (X g G). rewrite forallb_forall in X. specialize (X v V). rewrite negb_true_iff in X.
  assert (Y : existsb (Ascii.eqb "&") (list_ascii_of_string v) = true) by (apply existsb_exists; exists "&"%char; split; auto). congruence.
Qed.
Example C59_table_example : handed_over nodes46 /\ (forall g v, In g groups46 -> In v g -> amp_free v) /\ List.length groups46 = 8 /\ cells "$th_1s1$ & $th_2v1$  & $th_3v1$ \\\hline" = 3.
Proof. split. exact (proj1 C45_example). split. exact amp46. split; vm_compute; reflexivity. Qed.
(** what the scanner rejects *)
Definition wfb (t : string) : bool := match scan (Tex [GEnv "document"] TN true) t with Some (Tex [GEnv n] TN _) => String.eqb n "document" | _ => false end.
Lemma wfb_no t : wfb t = false -> ~ well_formed t.
Proof. intros H (b & E). unfold wfb in H. rewrite E in H. discriminate. Qed.
Example C59_rejects : ~ well_formed "$ \theta_{1} " /\ ~ well_formed "\begin{align} a &= b \end{dmath}" /\ ~ well_formed "a_1" /\ ~ well_formed "a & b" /\ ~ well_formed "\begin{dmath} \frac{a}{b \end{dmath}" /\ ~ well_formed "$ \left( a $"
  /\ ~ well_formed "\begin{verbatim} x" /\ well_formed "\begin{align} a_{1} &= b \\ c &= d \end{align}".
Proof. do 7 (split; [apply wfb_no; vm_compute; reflexivity|]). exists false. vm_compute. reflexivity. Qed.

(** ** C60 *)
Definition run60 (h : list call) := do_calls show0 tex0 edges0 mats0 (fun t => t) (fun t => nodup string_dec (List.concat t)) (solved_robot "Arm_3" [("l_1", "5")] true nodes46) h.
Definition hist60 := [Create; Python; Report; Python; Cplusplus; Create; Python; Report; Cplusplus].
Lemma run60_some : some_of (run60 hist60) = true. Proof. vm_compute. reflexivity. Qed.
Lemma lhs60 : forallb (fun n => match n_lhs n with [] => true | _ => false end) nodes46 = true. Proof. vm_compute. reflexivity. Qed.
Lemma fresh60 n : In n nodes46 -> n_lhs n = []. Proof. intros H. assert (X := lhs60). rewrite forallb_forall in X. specialize (X n H). destruct (n_lhs n); [auto|discriminate]. Qed.
Lemma methods60 : exists n, In n nodes46 /\ n_method n <> "".
Proof. eexists. split. left. reflexivity. discriminate. Qed.
Definition outs60 := match run60 hist60 with Some (_, os) => os | None => [] end.
Lemma files60 : existsb (contains "    th_3v1 = atan2(Px, th_2v1)") (nth 3 outs60 []) = true. Proof. vm_compute. reflexivity. Qed.
Lemma files60_no : existsb (contains " = atan2(") (nth 1 outs60 []) = false. Proof. vm_compute. reflexivity. Qed.
Definition copies60 : list nat := match run60 hist60 with Some (s, _) => map (@List.length kequation) (ss_eqns s) | None => [] end.
Lemma eqns60 : copies60 = repeat 3 16. Proof. vm_compute. reflexivity. Qed.
(** nine calls on the same robot: the program written before any report has no assignment of a solution, the one after it has, and
    after the two reports FinalEqnMatrix has sixteen rows for eight solutions *)
Example C60_example : (forall n, In n nodes46 -> n_lhs n = []) /\ (exists n, In n nodes46 /\ n_method n <> "") /\ (exists s os, run60 hist60 = Some (s, os) /\ List.length (ss_eqns s) = 16)
  /\ existsb (contains "    th_3v1 = atan2(Px, th_2v1)") (nth 3 outs60 []) = true /\ existsb (contains " = atan2(") (nth 1 outs60 []) = false.
Proof.
  split. exact fresh60. split. exact methods60. split. destruct (some_of_ok _ run60_some) as ([s os] & E). exists s, os. split; auto. assert (X := eqns60). unfold copies60 in X. rewrite E in X. apply (f_equal (@List.length nat)) in X. rewrite map_length in X. exact X.
  split. exact files60. exact files60_no.
Qed.
Print Assumptions C59_solution_report.
Print Assumptions C60_outputs.
Print Assumptions C60_no_report_refuted.
Print Assumptions C60_report_again_refuted.
Print Assumptions C59_table.
Print Assumptions C59_forward_report.
