(** C74: what the generated forward kinematics program prints. *)
From Coq Require Import Reals ZArith List String Ascii Bool Arith Lia Lra.
From Verif Require Import Expr Kin KinSpec KinFacts KinVel2 PropKin SolverSpec Solver SolSet CodeGen CppFacts PyFile PropPy PyRun PropPyRun PropHist PropReach NumFK PropNumFK Robots PropRobots PropRobotKin PropHead FKRun.
Import ListNotations.
Local Open Scope string_scope.
Local Open Scope list_scope.
Local Open Scope nat_scope.

(** * The text *)
(** a line that is blank or a comment *)
Definition idle (l : string) : Prop := strip_left l = "" \/ exists t, strip_left l = append "#" t.
Definition idleb (l : string) : bool := String.eqb (strip_left l) "" || String.prefix "#" (strip_left l).
Lemma idleb_ok l : idleb l = true -> idle l.
Proof.
  unfold idleb, idle. intros H. apply orb_prop in H as [H|H]. left. apply String.eqb_eq; auto. right. destruct (strip_left l) as [|c t]; [discriminate|]. exists t. cbn [String.prefix] in H. destruct (ascii_dec "#" c); [|discriminate]. subst. reflexivity.
Qed.
Lemma split_params (f : string * string -> string) l : (forall p, In p l -> no_nl (f p) = true) -> split_lines (concat_s (map (fun p => append (f p) nls) l)) = map f l ++ [""].
Proof.
  induction l as [|p l IH]; intros H; [reflexivity|]. cbn [map concat_s]. assert (E : forall C, append (append (f p) nls) C = append (f p) (String nl C)) by (intros C; rewrite append_assoc; reflexivity).
  rewrite E, split_nl, split_one, IH; auto. intros; apply H; right; auto. apply H; left; auto.
Qed.
Lemma py_params_eq r : r_pvals r = true -> py_params r = append nls (concat_s (map (fun p => append (append (fst p) (append " = " (snd p))) nls) (r_params r))).
Proof. intros E. unfold py_params. rewrite E. do 2 f_equal. apply map_ext. intros p. rewrite !append_assoc, append_nil_r. reflexivity. Qed.
Lemma split_start x : split_lines (append nls x) = "" :: split_lines x. Proof. reflexivity. Qed.
Lemma word_no_nl s : all_chars (fun c => negb (Ascii.eqb c nl)) s = true -> no_nl s = true.
Proof. induction s as [|c s IH]; cbn [all_chars no_nl]; auto. intros H. apply andb_prop in H as [H1 H2]. rewrite H1, IH; auto. Qed.
Lemma letters_no_nl s : all_chars letter s = true -> no_nl s = true.
Proof. induction s as [|c s IH]; cbn [all_chars no_nl]; auto. intros H. apply andb_prop in H as [H1 H2]. rewrite IH by auto. destruct (Ascii.eqb_spec c nl); auto. subst. discriminate. Qed.
Lemma digits_no_nl s : all_chars digit s = true -> no_nl s = true.
Proof. induction s as [|c s IH]; cbn [all_chars no_nl]; auto. intros H. apply andb_prop in H as [H1 H2]. rewrite IH by auto. destruct (Ascii.eqb_spec c nl); auto. subst. discriminate. Qed.
Lemma joint_no_nl j : good_joint j -> no_nl (joint_var j) = true.
Proof. intros (A & _ & D). unfold joint_var. rewrite !no_nl_app, (letters_no_nl _ A), (digits_no_nl (String (snd j) "")). reflexivity. cbn [all_chars]. rewrite D. reflexivity. Qed.
Lemma concat_no_nl sep l : no_nl sep = true -> (forall w, In w l -> no_nl w = true) -> no_nl (String.concat sep l) = true.
Proof.
  intros S. induction l as [|w l IH]; intros H; [reflexivity|]. destruct l as [|w' l]. cbn. apply H; left; auto.
  change (String.concat sep (w :: w' :: l)) with (append w (append sep (String.concat sep (w' :: l)))). rewrite !no_nl_app, S, (H w) by (left; auto). rewrite IH. reflexivity. intros; apply H; right; auto.
Qed.
Lemma file_lines_one l : (forall s, In s l -> no_nl s = true) -> file_lines l = l.
Proof. induction l as [|s l IH]; intros H; [reflexivity|]. rewrite file_cons, split_one, IH; auto. intros; apply H; right; auto. apply H; left; auto. Qed.
Lemma file_app a b : file_lines (a ++ b) = file_lines a ++ file_lines b.
Proof. unfold file_lines. rewrite map_app, concat_app. reflexivity. Qed.
(** The program consists of the statements of fk_stmts; around them are only the imports and the class Matrix (before), comments and blank lines, and the final print. *)
Theorem C74_text show r ps js ss M : Forall good_joint js -> Forall good_sum ss -> (forall v c, In v ss -> In c (list_ascii_of_string (snd v)) -> exists j, In j js /\ snd j = c) ->
  r_pvals r = true -> r_params r = map (fun pv => (fst pv, pval_text show (snd pv))) ps -> (forall p v, In (p, v) ps -> no_nl p = true) -> (forall e, no_nl (show e) = true) ->
  exists out a b c, output_FK_python_code r (map joint_var js ++ map sum_var ss) (matrix_text show M) = Some out
  /\ file_lines out = a ++ map (fline show) (map (fun pv => FParam (fst pv) (snd pv)) ps) ++ b ++ map (fline show) (map (fun j => FJoint (joint_var j)) js ++ map (fun v => FSum (sum_var v) (parts js v)) ss) ++ c ++ [fline show (FResult M)]
       ++ [""; "print(f""T06 has {T06.rows} rows and {T06.cols} cols"")"; ""; "print(T06)"; ""]
  /\ (forall l, In l b \/ In l c -> idle l) /\ (forall r', r_name r' = r_name r -> exists rest, forall out', output_FK_python_code r' (map joint_var js ++ map sum_var ss) (matrix_text show M) = Some out' -> file_lines out' = a ++ rest).
Proof.
  intros Hj Hs Hc Pv Ps Np Ns. destruct (fk_variables js ss Hj Hs Hc) as (ls & E & C). unfold output_FK_python_code. rewrite E, C.
  set (h1 := append _ (append (r_name r) _)). set (h2 := "class Matrix:
    def __init__(self,A):
        Matrix.A = A
        Matrix.rows = len(A)
        Matrix.cols = len(A[0])

    def __repr__(self):
        res = '\n'
        for i in range(self.rows):
            for j in range(self.cols):
                res += f'{self.A[i][j]:10.3f} '
            res += '\n'
        return res
    "). set (h3 := "#
#      Robot Parameters 
#").
  exists ([h1; h2; h3; py_params r; "#
#     Robot Joint Variables 
#"] ++ variable_lines js ss ++ ["
# Code to compute Forward Kinematics "; "
#############################################################
#
#   Forward Kinematics
#
#############################################################
 "; append "T06 = " (matrix_text show M); ""; "print(f""T06 has {T06.rows} rows and {T06.cols} cols"")"; ""; "print(T06)"; ""]).
  exists (file_lines [h1; h2; h3] ++ [""]).
  eexists ([""] ++ split_lines "#
#     Robot Joint Variables 
#"). eexists (file_lines ["
# Code to compute Forward Kinematics "; "
#############################################################
#
#   Forward Kinematics
#
#############################################################
 "]). split; [reflexivity|]. split; [|split].
  - change ([h1; h2; h3; py_params r; ?x] ++ ?y) with ([h1; h2; h3] ++ [py_params r; x] ++ y). rewrite !file_app. rewrite <- !app_assoc. f_equal.
    rewrite file_cons, py_params_eq, split_start by auto.
    rewrite (split_params (fun p => append (fst p) (append " = " (snd p)))).
    2:{ intros p Hp. rewrite Ps in Hp. apply in_map_iff in Hp as ((q, v) & <- & Hq). cbn [fst snd]. rewrite !no_nl_app, (Np q v Hq). unfold pval_text. destruct v; rewrite ?no_nl_app, ?Ns; reflexivity. }
    rewrite Ps, !map_map. cbn [app fst snd fline]. f_equal. rewrite <- !app_assoc. f_equal.
    cbn [app]. f_equal. unfold file_lines at 1. cbn [map List.concat]. rewrite app_nil_r. f_equal.
    rewrite file_lines_one.
    2:{ intros s Hin. unfold variable_lines in Hin. apply in_app_or in Hin as [Hin|Hin]; apply in_map_iff in Hin as (j & <- & Hin).
      - rewrite no_nl_app, (joint_no_nl j). reflexivity. apply (proj1 (Forall_forall _ _) Hj j Hin).
      - unfold sum_line. destruct (proj1 (Forall_forall _ _) Hs j Hin) as (A & _ & D & _). unfold sum_var. rewrite !no_nl_app, (letters_no_nl _ A), (digits_no_nl _ D). rewrite concat_no_nl. reflexivity. reflexivity.
        intros w Hw. apply parts_in in Hw as (j' & Hj' & ->). apply joint_no_nl. apply (proj1 (Forall_forall _ _) Hj j' Hj'). }
    unfold variable_lines. rewrite map_app, !map_map. rewrite <- !app_assoc. f_equal. f_equal.
    match goal with |- file_lines (?x :: ?y :: ?t) = _ => change (file_lines (x :: y :: t)) with (file_lines ([x; y] ++ t)); rewrite file_app; f_equal end.
    rewrite file_cons. rewrite split_one. reflexivity. rewrite no_nl_app. unfold matrix_text. rewrite !no_nl_app. rewrite concat_no_nl; [reflexivity|reflexivity|].
    intros w Hw. apply in_map_iff in Hw as (i & <- & _). unfold row_text. rewrite !no_nl_app, concat_no_nl; [reflexivity|reflexivity|]. intros w Hw. apply in_map_iff in Hw as (k & <- & _). auto.
  - intros l Hl. apply idleb_ok. destruct Hl as [Hl|Hl]; vm_compute in Hl; repeat (destruct Hl as [<-|Hl]; [reflexivity|]); destruct Hl.
  - intros r' Hn. destruct (split_lines (py_params r')) as [|x rest] eqn:Er. { exfalso. eapply split_ne; eauto. }
    assert (Ex : x = ""). { unfold py_params in Er. rewrite split_start in Er. congruence. }
    eexists. intros out' Ho. apply PropEmit.some_inj in Ho. rewrite <- Ho. rewrite Hn. fold h1. change ([h1; h2; h3; py_params r'; ?x] ++ ?y) with ([h1; h2; h3] ++ [py_params r'; x] ++ y). rewrite file_app, <- app_assoc. f_equal.
    rewrite file_app, file_cons, Er, Ex. cbn [app]. reflexivity.
Qed.

(** * Specification of the run *)
(** the value a stored value stands for *)
Definition meaning (rho : env) (v : pval) : R := match v with Value e => eval rho e | NpCos e => cos (eval rho e) | NpSin e => sin (eval rho e) end.
Definition sum_R (rho : env) (ws : list string) : R := fold_right (fun w a => (rho w + a)%R) 0%R ws.
(** the names have the values the program says: parameters their stored values, joint variables 1, sums of angles the sums *)
Record setting (ps : list (string * pval)) (js : list (string * ascii)) (ss : list (string * string)) (rho : env) : Prop := {
  set_params : forall p v, In (p, v) ps -> rho p = meaning rho v;
  set_joints : forall j, In j js -> rho (joint_var j) = 1%R;
  set_sums : forall v, In v ss -> rho (sum_var v) = sum_R rho (parts js v)
}.
Definition pval_expr (v : pval) : expr := match v with Value e | NpCos e | NpSin e => e end.

(** * Lemmas *)
Lemma idx_all i j : i < 4 -> j < 4 -> In (i, j) idx.
Proof. apply idx44_all. Qed.
Lemma pval_val m rho v a : total m rho -> pval_eval m v = Some a -> meaning rho v = a.
Proof.
  intros T. destruct v as [e|e|e]; cbn [pval_eval meaning]; intros H.
  - apply (pyeval_val m rho T _ _ H).
  - destruct (pyeval m e) as [x|] eqn:E; [|discriminate]. rewrite (pyeval_val m rho T _ _ E). congruence.
  - destruct (pyeval m e) as [x|] eqn:E; [|discriminate]. rewrite (pyeval_val m rho T _ _ E). congruence.
Qed.
Lemma psum_val m rho ws : forall a, total m rho -> psum m ws = Some a -> sum_R rho ws = a.
Proof.
  induction ws as [|w ws IH]; intros a T H; [discriminate|]. cbn [sum_R fold_right]. destruct ws as [|w' ws].
  - cbn [psum] in H. rewrite (T _ _ H). cbn. lra.
  - change (psum m (w :: w' :: ws)) with (match m w, psum m (w' :: ws) with Some x, Some y => Some (x + y)%R | _, _ => None end) in H. destruct (m w) as [x|] eqn:E; [|discriminate]. destruct (psum m (w' :: ws)) as [y|] eqn:E2; [|discriminate].
    injection H as <-. rewrite (T _ _ E). f_equal. apply (IH y T eq_refl).
Qed.
Lemma total_set m rho x a : total m rho -> rho x = a -> total (pset m x a) rho.
Proof. intros T E y v. unfold pset. destruct (String.eqb_spec y x) as [->|]; intros H. congruence. auto. Qed.
Lemma run_params rho ps : forall t m V, (forall p v, In (p, v) ps -> rho p = meaning rho v) -> total m rho -> run_fk (map (fun pv => FParam (fst pv) (snd pv)) ps ++ t) m = Some V ->
  exists m', total m' rho /\ run_fk t m' = Some V /\ (forall x, m' x <> None -> m x <> None \/ In x (map fst ps)).
Proof.
  induction ps as [|(p, v) ps IH]; intros t m V Hp T H; cbn [map app] in H. { exists m. auto. }
  cbn [run_fk fst snd] in H. destruct (pval_eval m v) as [a|] eqn:E; [|discriminate]. apply IH in H as (m' & T' & R & D); [|intros; apply Hp; right; auto|apply total_set; auto; rewrite (Hp p v (or_introl eq_refl)); apply (pval_val m); auto].
  exists m'. split; auto. split; auto. intros x Hx. destruct (D x Hx) as [X|X]; [|right; right; auto]. unfold pset in X. destruct (String.eqb_spec x p) as [->|]; [right; left; auto|auto].
Qed.
Lemma run_joints rho js : forall t m V, (forall j, In j js -> rho (joint_var j) = 1%R) -> total m rho -> run_fk (map (fun j => FJoint (joint_var j)) js ++ t) m = Some V ->
  exists m', total m' rho /\ run_fk t m' = Some V /\ (forall x, m' x <> None -> m x <> None \/ In x (map joint_var js)).
Proof.
  induction js as [|j js IH]; intros t m V Hp T H; cbn [map app] in H. { exists m. auto. }
  cbn [run_fk] in H. apply IH in H as (m' & T' & R & D); [|intros; apply Hp; right; auto|apply total_set; auto; apply Hp; left; auto].
  exists m'. split; auto. split; auto. intros x Hx. destruct (D x Hx) as [X|X]; [|right; right; auto]. unfold pset in X. destruct (String.eqb_spec x (joint_var j)) as [->|]; [right; left; auto|auto].
Qed.
Lemma run_sums rho js ss : forall t m V, (forall v, In v ss -> rho (sum_var v) = sum_R rho (parts js v)) -> total m rho -> run_fk (map (fun v => FSum (sum_var v) (parts js v)) ss ++ t) m = Some V ->
  exists m', total m' rho /\ run_fk t m' = Some V /\ (forall x, m' x <> None -> m x <> None \/ In x (map sum_var ss)).
Proof.
  induction ss as [|v ss IH]; intros t m V Hp T H; cbn [map app] in H. { exists m. auto. }
  cbn [run_fk] in H. destruct (psum m (parts js v)) as [a|] eqn:E; [|discriminate]. apply IH in H as (m' & T' & R & D); [|intros; apply Hp; right; auto|apply total_set; auto; rewrite (Hp v (or_introl eq_refl)); apply (psum_val m); auto].
  exists m'. split; auto. split; auto. intros x Hx. destruct (D x Hx) as [X|X]; [|right; right; auto]. unfold pset in X. destruct (String.eqb_spec x (sum_var v)) as [->|]; [right; left; auto|auto].
Qed.

(** * C74 *)
(** What is printed is the matrix at the values set in the program. *)
Lemma fk_value ps js ss M V rho : fk_run (fk_stmts ps js ss M) = Some V -> setting ps js ss rho -> Meq 4 V (mev rho M)
  /\ forall x i j, i < 4 -> j < 4 -> has x (M i j) = true -> In x (map fst ps) \/ In x (map joint_var js) \/ In x (map sum_var ss).
Proof.
  intros H S. unfold fk_run, fk_stmts in H.
  apply (run_params rho) in H as (m1 & T1 & H & D1); [|apply (set_params _ _ _ _ S)|discriminate].
  apply (run_joints rho) in H as (m2 & T2 & H & D2); [|apply (set_joints _ _ _ _ S)|auto].
  apply (run_sums rho) in H as (m3 & T3 & H & D3); [|apply (set_sums _ _ _ _ S)|auto].
  cbn [run_fk] in H. destruct (forallb _ idx) eqn:F; [|discriminate]. injection H as <-. rewrite forallb_forall in F.
  assert (P : forall i j, i < 4 -> j < 4 -> exists v, pyeval m3 (M i j) = Some v). { intros i j Hi Hj. specialize (F (i, j) (idx_all i j Hi Hj)). cbn [fst snd] in F. destruct (pyeval m3 (M i j)); eauto; discriminate. }
  split.
  - intros i j Hi Hj. destruct (P i j Hi Hj) as (v & E). rewrite E. symmetry. apply (pyeval_val m3 rho T3 _ _ E).
  - intros x i j Hi Hj Hx. destruct (P i j Hi Hj) as (v & E). destruct (pyeval_reads m3 _ _ x E Hx) as (w & W).
    destruct (D3 x) as [X|X]; [congruence| |auto]. destruct (D2 x X) as [Y|Y]; auto. destruct (D1 x Y) as [Z|Z]; auto. congruence.
Qed.
Section C74.
Context (trigsimp : expr -> expr) (HT : good_simp trigsimp) (nice : expr -> bool).
(** the parameters a fresh computation of the mechanism leaves: those of the robot and the constants of the inclined axes, with the stored texts (kin_cl.py:287-300) *)
Fixpoint alpha_pvals (i : nat) (rows : list (dhrow expr)) : list (string * pval) :=
  match rows with [] => [] | r :: rs => (if nice (d_al r) then [] else [(ca_name i, NpCos (d_al r)); (sa_name i, NpSin (d_al r))]) ++ alpha_pvals (S i) rs end.
Lemma alpha_pvals_meaning rho rows : forall i s e, In (s, e) (alpha_params nice i rows) -> exists v, In (s, v) (alpha_pvals i rows) /\ meaning rho v = eval rho e.
Proof.
  induction rows as [|r rows IH]; intros i s e H; cbn [alpha_params alpha_pvals] in *; [destruct H|]. apply in_app_iff in H as [H|H].
  - destruct (nice (d_al r)); cbn in H; [destruct H|]. destruct H as [H|[H|[]]]; injection H as <- <-; [exists (NpCos (d_al r))|exists (NpSin (d_al r))]; (split; [apply in_or_app; left; cbn; auto|reflexivity]).
  - destruct (IH _ _ _ H) as (v & A & B). exists v. split; auto. apply in_or_app. auto.
Qed.
Lemma alpha_pvals_in rows : forall i s v, In (s, v) (alpha_pvals i rows) -> exists r, In r rows /\ pval_expr v = d_al r /\ In s (map fst (alpha_params nice i rows)).
Proof.
  induction rows as [|r rows IH]; intros i s v H; cbn [alpha_params alpha_pvals] in *; [destruct H|]. rewrite map_app. apply in_app_iff in H as [H|H].
  - exists r. split; [left; auto|]. destruct (nice (d_al r)); cbn in H; [destruct H|]. destruct H as [H|[H|[]]]; injection H as <- <-; (split; [reflexivity|]); apply in_or_app; left; cbn; auto.
  - destruct (IH _ _ _ H) as (r' & A & B & C). exists r'. split; [right; auto|]. split; auto. apply in_or_app. auto.
Qed.
Lemma FK_rigid rho rows : rigid (FK rho rows).
Proof.
  unfold FK. assert (X := c36_chain_rigid (map (rev_row rho) rows)). rewrite map_map in X. assert (Y := chain_ext _ _ (link_craig_list rho rows)). cbn in Y.
  destruct X as ((R1 & R2) & (B0 & B1 & B2 & B3)). change (map (fun x => link_of (rev_row rho x)) rows) with (map (fun r => Link (eval rho (d_al r)) (eval rho (d_a r)) (eval rho (d_d r)) (eval rho (d_th r))) rows) in *.
  split; [split|].
  - intros i j Hi Hj. rewrite <- (R1 i j Hi Hj). unfold mmul3, mtrans, osum3. rewrite !Y by lia. reflexivity.
  - rewrite <- R2. unfold det3. rewrite !Y by lia. reflexivity.
  - unfold affine. rewrite <- !Y by lia. auto.
Qed.
Lemma rigid_ext V W : Meq 4 V W -> rigid W -> rigid V.
Proof.
  intros M ((R1 & R2) & (B0 & B1 & B2 & B3)). split; [split|].
  - intros i j Hi Hj. rewrite <- (R1 i j Hi Hj). unfold mmul3, mtrans, osum3. rewrite !M by lia. reflexivity.
  - rewrite <- R2. unfold det3. rewrite !M by lia. reflexivity.
  - unfold affine. rewrite !M by lia. auto.
Qed.
(** The program of a freshly computed robot prints the forward kinematics of its table with all joint variables 1: a rigid transform. *)
Theorem C74_value rows given js ss V rho : (forall r, In r rows -> row_poly0 r) -> fk_run (fk_stmts (given ++ alpha_pvals 0 rows) js ss (fk_T06 trigsimp nice rows)) = Some V ->
  setting (given ++ alpha_pvals 0 rows) js ss rho -> Meq 4 V (FK rho rows) /\ rigid V.
Proof.
  intros HR H S. destruct (fk_value _ _ _ _ _ _ H S) as (M & _).
  assert (C : consts_ok nice rho rows). { intros s e He. destruct (alpha_pvals_meaning rho rows 0 s e He) as (v & Hv & Ev). rewrite <- Ev. apply (set_params _ _ _ _ S). apply in_or_app. auto. }
  assert (M' : Meq 4 V (FK rho rows)). { intros i j Hi Hj. rewrite M by auto. apply (c38_T06 trigsimp nice rho rows (proj1 HT) HR C i j Hi Hj). }
  split; auto. apply (rigid_ext V (FK rho rows)); auto. apply FK_rigid.
Qed.
(** It raises when the transform has a symbol that is not set: a symbol of the table that is not declared, or a constant of an inclined axis when the parameters
    come from the robot's description only (as they do from the second run on: C47). *)
Theorem C74_raises ps js ss M x i j : i < 4 -> j < 4 -> has x (M i j) = true -> ~ In x (map fst ps) -> ~ In x (map joint_var js) -> ~ In x (map sum_var ss) ->
  (exists rho, setting ps js ss rho) -> fk_run (fk_stmts ps js ss M) = None.
Proof.
  intros Hi Hj Hx N1 N2 N3 (rho & S). destruct (fk_run _) as [V|] eqn:E; auto. exfalso. destruct (fk_value _ _ _ _ _ rho E S) as (_ & D). destruct (D x i j Hi Hj Hx) as [X|[X|X]]; auto.
Qed.
(** without stored values it raises at the first parameter *)
Theorem C74_missing_raises p ps js ss M : fk_run (fk_stmts (map missing (p :: ps)) js ss M) = None.
Proof. reflexivity. Qed.
End C74.

(** * When it runs *)
Lemma poly_in_domain rho e : poly e = true -> in_domain rho e.
Proof.
  induction e; cbn [poly in_domain]; intros H; auto; try discriminate; try (apply andb_prop in H as [H1 H2]; auto).
  destruct e2; try discriminate. apply andb_prop in H as [H1 H2]. split; auto. split; [exact I|]. cbn [eval]. intros X. apply eq_IZR_R0 in X. subst. discriminate.
Qed.
Definition given_values (m : penv) : env := fun x => match m x with Some v => v | None => 0%R end.
Lemma given_total m : total m (given_values m).
Proof. intros x v H. unfold given_values. rewrite H. auto. Qed.
Lemma pyeval_poly m e : poly e = true -> (forall y, has y e = true -> m y <> None) -> exists v, pyeval m e = Some v.
Proof. intros P H. eexists. apply (pyeval_some m (given_values m) (given_total m) e H). apply poly_in_domain; auto. Qed.
Lemma pval_some m v : poly (pval_expr v) = true -> (forall y, has y (pval_expr v) = true -> m y <> None) -> exists a, pval_eval m v = Some a.
Proof. intros P H. destruct (pyeval_poly m (pval_expr v) P H) as (a & E). destruct v; cbn [pval_eval pval_expr] in *; rewrite E; eauto. Qed.
Lemma pval_ext m m' v a : extends m m' -> pval_eval m v = Some a -> pval_eval m' v = Some a.
Proof.
  intros X. destruct v as [e|e|e]; cbn [pval_eval]; intros H; [apply (pyeval_ext m m' X); auto| |]; (destruct (pyeval m e) as [x|] eqn:E; [|discriminate]); rewrite (pyeval_ext m m' X _ _ E); auto.
Qed.
Lemma extends_set m x a : m x = None -> extends m (pset m x a).
Proof. intros N y v H. unfold pset. destruct (String.eqb_spec y x) as [->|]; congruence. Qed.
Lemma psum_some m ws : ws <> [] -> (forall w, In w ws -> m w <> None) -> exists a, psum m ws = Some a.
Proof.
  induction ws as [|w ws IH]; intros N H; [congruence|]. destruct (m w) as [x|] eqn:E; [|exfalso; apply (H w); cbn; auto]. destruct ws as [|w' ws].
  - cbn [psum]. eauto.
  - destruct IH as (y & Y); [discriminate|intros; apply H; right; auto|]. change (psum m (w :: w' :: ws)) with (match m w, psum m (w' :: ws) with Some x, Some y => Some (x + y)%R | _, _ => None end). rewrite E, Y. eauto.
Qed.
Lemma psum_ext m m' ws : extends m m' -> forall a, psum m ws = Some a -> psum m' ws = Some a.
Proof.
  intros X. induction ws as [|w ws IH]; intros a H; [discriminate|]. destruct ws as [|w' ws]; [apply X; exact H|].
  change (psum m (w :: w' :: ws)) with (match m w, psum m (w' :: ws) with Some x, Some y => Some (x + y)%R | _, _ => None end) in H. change (psum m' (w :: w' :: ws)) with (match m' w, psum m' (w' :: ws) with Some x, Some y => Some (x + y)%R | _, _ => None end).
  destruct (m w) as [x|] eqn:E; [|discriminate]. destruct (psum m (w' :: ws)) as [y|] eqn:E2; [|discriminate]. rewrite (X _ _ E), (IH y eq_refl). auto.
Qed.
(** every stored value mentions only parameters above it *)
Fixpoint in_order (seen : list string) (ps : list (string * pval)) : Prop :=
  match ps with [] => True | (p, v) :: t => (poly (pval_expr v) = true /\ forall y, has y (pval_expr v) = true -> In y seen) /\ in_order (p :: seen) t end.
Lemma in_order_mono ps : forall s s', (forall x, In x s -> In x s') -> in_order s ps -> in_order s' ps.
Proof. induction ps as [|(p, v) ps IH]; cbn [in_order]; auto. intros s s' H ((P & A) & B). split; [split; auto|]. apply (IH (p :: s)); auto. intros x [->|Hx]; [left; auto|right; auto]. Qed.
Lemma params_run ps : forall t m, in_order [] ps \/ (exists s, in_order s ps /\ forall x, In x s -> m x <> None) -> NoDup (map fst ps) -> (forall p, In p (map fst ps) -> m p = None) ->
  exists m', extends m m' /\ run_fk (map (fun pv => FParam (fst pv) (snd pv)) ps ++ t) m = run_fk t m' /\ (forall p v, In (p, v) ps -> exists a, m' p = Some a /\ pval_eval m' v = Some a) /\ (forall x, ~ In x (map fst ps) -> m' x = m x).
Proof.
  induction ps as [|(p, v) ps IH]; intros t m O N F; cbn [map app]. { exists m. split; [intros ? ?; auto|]. split; auto. split; [intros ? ? []|auto]. }
  assert (O' : exists s, in_order s ((p, v) :: ps) /\ forall x, In x s -> m x <> None). { destruct O as [O|O]; auto. exists []. split; [exact O|intros x []]. }
  destruct O' as (s & ((P & A) & B) & S). inversion N as [|y z Np Nps]; subst. destruct (pval_some m v P) as (a & E). { intros y Hy. apply S, A; auto. }
  assert (Fp : m p = None) by (apply F; left; auto). assert (X := extends_set m p a Fp).
  destruct (IH t (pset m p a)) as (m' & X' & R & D & O2).
  - right. exists (p :: s). split; auto. intros x [<-|Hx]. unfold pset. rewrite String.eqb_refl. discriminate. unfold pset. destruct (String.eqb x p); [discriminate|auto].
  - auto.
  - intros q Hq. unfold pset. destruct (String.eqb_spec q p) as [->|]; [contradiction|]. apply F. right; auto.
  - exists m'. split. { intros y w Hy. apply X', X; auto. } split. { cbn [run_fk fst snd]. rewrite E. auto. } split.
    + intros q w [Hq|Hq]; [|auto]. injection Hq as <- <-. exists a. split. apply X'. unfold pset. rewrite String.eqb_refl. auto. apply (pval_ext m); auto. intros y b Hy. apply X', X; auto.
    + intros x Hx. cbn [map fst In] in Hx. rewrite O2 by tauto. unfold pset. destruct (String.eqb_spec x p) as [->|]; [exfalso; apply Hx; auto|auto].
Qed.
Lemma joints_run js : forall t m, (forall j, In j js -> m (joint_var j) = None) -> exists m', extends m m' /\ run_fk (map (fun j => FJoint (joint_var j)) js ++ t) m = run_fk t m' /\ (forall j, In j js -> m' (joint_var j) = Some 1%R) /\ (forall x, ~ In x (map joint_var js) -> m' x = m x).
Proof.
  intros t m F. assert (G : forall js m, (forall j, In j js -> m (joint_var j) = None \/ m (joint_var j) = Some 1%R) -> exists m', extends m m' /\ run_fk (map (fun j => FJoint (joint_var j)) js ++ t) m = run_fk t m' /\ (forall j, In j js -> m' (joint_var j) = Some 1%R) /\ (forall x, ~ In x (map joint_var js) -> m' x = m x)).
  { clear. induction js as [|j js IH]; intros m F; cbn [map app]. { exists m. split; [intros ? ?; auto|]. split; auto. split; [intros ? []|auto]. }
    assert (X : extends m (pset m (joint_var j) 1)). { intros y v H. unfold pset. destruct (String.eqb_spec y (joint_var j)) as [->|]; auto. destruct (F j (or_introl eq_refl)); congruence. }
    destruct (IH (pset m (joint_var j) 1%R)) as (m' & X' & R & D & O).
    { intros k Hk. unfold pset. destruct (String.eqb (joint_var k) (joint_var j)); auto. apply F. right; auto. }
    exists m'. split. { intros y w Hy. apply X', X; auto. } split. { cbn [run_fk]. auto. } split.
    - intros k [<-|Hk]; auto. apply X'. unfold pset. rewrite String.eqb_refl. auto.
    - intros x Hx. cbn [map In] in Hx. rewrite O by tauto. unfold pset. destruct (String.eqb_spec x (joint_var j)) as [->|]; [exfalso; apply Hx; auto|auto]. }
  apply (G js m). auto.
Qed.
Lemma sums_run js ss : forall t m, (forall v, In v ss -> parts js v <> []) -> (forall j, In j js -> m (joint_var j) <> None) -> NoDup (map sum_var ss) -> (forall v, In v ss -> m (sum_var v) = None) ->
  exists m', extends m m' /\ run_fk (map (fun v => FSum (sum_var v) (parts js v)) ss ++ t) m = run_fk t m' /\ (forall v, In v ss -> exists a, m' (sum_var v) = Some a /\ psum m' (parts js v) = Some a) /\ (forall x, ~ In x (map sum_var ss) -> m' x = m x).
Proof.
  induction ss as [|v ss IH]; intros t m P J N F; cbn [map app]. { exists m. split; [intros ? ?; auto|]. split; auto. split; [intros ? []|auto]. }
  inversion N as [|y z Np Nps]; subst. destruct (psum_some m (parts js v)) as (a & E). { apply P; left; auto. } { intros w Hw. apply parts_in in Hw as (j & Hj & ->). auto. }
  assert (X : extends m (pset m (sum_var v) a)) by (apply extends_set, F; left; auto).
  destruct (IH t (pset m (sum_var v) a)) as (m' & X' & R & D & O2).
  - intros; apply P; right; auto.
  - intros j Hj. unfold pset. destruct (String.eqb (joint_var j) (sum_var v)); [discriminate|auto].
  - auto.
  - intros w Hw. unfold pset. destruct (String.eqb_spec (sum_var w) (sum_var v)) as [Ew|]; [exfalso; apply Np; rewrite <- Ew; apply in_map; auto|]. apply F. right; auto.
  - exists m'. split. { intros y w Hy. apply X', X; auto. } split. { cbn [run_fk]. rewrite E. auto. } split.
    + intros w [<-|Hw]; [|auto]. exists a. split. apply X'. unfold pset. rewrite String.eqb_refl. auto. apply (psum_ext m); auto. intros y b Hy. apply X', X; auto.
    + intros x Hx. cbn [map In] in Hx. rewrite O2 by tauto. unfold pset. destruct (String.eqb_spec x (sum_var v)) as [->|]; [exfalso; apply Hx; auto|auto].
Qed.
(** the names the program sets are different *)
Record distinct (ps : list (string * pval)) (js : list (string * ascii)) (ss : list (string * string)) : Prop := {
  dist_params : NoDup (map fst ps);
  dist_joints : forall j, In j js -> ~ In (joint_var j) (map fst ps);
  dist_sums : NoDup (map sum_var ss);
  dist_apart : forall v, In v ss -> ~ In (sum_var v) (map fst ps) /\ ~ In (sum_var v) (map joint_var js)
}.
(** It runs when every value mentions only parameters above it, every sum has parts, and every symbol of the transform is set; and then there are values of the names such as the program says. *)
Theorem C74_runs ps js ss M : in_order [] ps -> distinct ps js ss -> (forall v, In v ss -> parts js v <> []) ->
  (forall i j, i < 4 -> j < 4 -> poly (M i j) = true /\ forall x, has x (M i j) = true -> In x (map fst ps) \/ In x (map joint_var js) \/ In x (map sum_var ss)) ->
  (exists V, fk_run (fk_stmts ps js ss M) = Some V) /\ exists rho, setting ps js ss rho.
Proof.
  intros O [N1 N2 N3 N4] P H. unfold fk_run, fk_stmts.
  destruct (params_run ps (map (fun j => FJoint (joint_var j)) js ++ map (fun v => FSum (sum_var v) (parts js v)) ss ++ [FResult M]) (fun _ => None)) as (m1 & X1 & R1 & D1 & O1); auto.
  destruct (joints_run js (map (fun v => FSum (sum_var v) (parts js v)) ss ++ [FResult M]) m1) as (m2 & X2 & R2 & D2 & O2). { intros j Hj. rewrite O1; auto. }
  destruct (sums_run js ss [FResult M] m2) as (m3 & X3 & R3 & D3 & O3); auto. { intros j Hj. rewrite D2 by auto. discriminate. } { intros v Hv. destruct (N4 v Hv). rewrite O2, O1; auto. }
  rewrite R1, R2, R3. split.
  - cbn [run_fk]. assert (F : forallb (fun ij => if pyeval m3 (M (fst ij) (snd ij)) then true else false) idx = true); [|rewrite F; eauto].
    apply forallb_forall. intros (i, j) Hij. cbn [fst snd]. destruct (idx44_lt (i, j) Hij) as [Hi Hj]. cbn [fst snd] in Hi, Hj. destruct (H i j Hi Hj) as (Pl & Hx). destruct (pyeval_poly m3 (M i j) Pl) as (v & E); [|rewrite E; auto].
    intros y Hy. destruct (Hx y Hy) as [K|[K|K]].
    + apply in_map_iff in K as ((p, v) & <- & K). destruct (D1 p v K) as (a & E & _). cbn [fst]. rewrite (X3 _ _ (X2 _ _ E)). discriminate.
    + apply in_map_iff in K as (k & <- & K). rewrite (X3 _ _ (D2 k K)). discriminate.
    + apply in_map_iff in K as (k & <- & K). destruct (D3 k K) as (a & E & _). rewrite E. discriminate.
  - exists (given_values m3). assert (T := given_total m3). split.
    + intros p v Hp. destruct (D1 p v Hp) as (a & E & E'). rewrite (T p a (X3 _ _ (X2 _ _ E))). symmetry. apply (pval_val m3); auto. apply (pval_ext m1); auto. intros y w Hy. auto.
    + intros j Hj. apply T. auto.
    + intros v Hv. destruct (D3 v Hv) as (a & E & E'). rewrite (T _ a E). symmetry. apply (psum_val m3); auto.
Qed.

(** * Every robot of the catalogue *)
Section Catalogue.
Context (trigsimp : expr -> expr) (HT : good_simp trigsimp) (HN : no_new_symbols trigsimp) (nice : expr -> bool).
(** the parameters of a description with their stored values *)
Definition stored (d : robot_def) : list (string * pval) := map (fun p => (p, Value (match find (fun q => String.eqb (fst q) p) (rd_pvals d) with Some q => snd q | None => Sym "XXXXX" end))) (rd_params d).
Fixpoint joint_of (s : string) : option (string * ascii) :=
  match s with
  | String u (String c EmptyString) => if Ascii.eqb u "_" then Some (EmptyString, c) else None
  | String c t => match joint_of t with Some (a, b) => Some (String c a, b) | None => None end
  | EmptyString => None
  end.
Lemma joint_of_eq s j : joint_of s = Some j -> joint_var j = s.
Proof.
  revert j. induction s as [|c s IH]; intros j H; [discriminate|]. destruct s as [|c2 s].
  - discriminate.
  - destruct s as [|c3 s]. { cbn [joint_of] in H. destruct (Ascii.eqb_spec c "_") as [->|]; [|discriminate]. injection H as <-. reflexivity. }
    change (joint_of (String c (String c2 (String c3 s)))) with (match joint_of (String c2 (String c3 s)) with Some (a, b) => Some (String c a, b) | None => None end) in H.
    destruct (joint_of (String c2 (String c3 s))) as [(a, b)|] eqn:E; [|discriminate]. injection H as <-. assert (X := IH (a, b) eq_refl). unfold joint_var in *. cbn [fst snd append] in *. rewrite X. reflexivity.
Qed.
Definition good_jointb (j : string * ascii) : bool := all_chars letter (fst j) && negb (String.eqb (fst j) "") && digit (snd j).
Definition fk_check (d : robot_def) : bool :=
  match mapM joint_of (rd_vars d) with
  | None => false
  | Some js => forallb good_jointb js
  end && forallb (fun pv => match snd pv with Value e => poly e && match symbols e with [] => true | _ => false end | _ => false end) (stored d)
  && nodupb (rd_params d)
  && forallb (fun r => poly (d_al r) && forallb (fun x => memb x (rd_params d)) (symbols (d_al r))) (rd_dh d)
  && forallb (fun n => negb (memb n (rd_params d)) && negb (memb n (rd_vars d))) (List.concat (map (fun i => [ca_name i; sa_name i]) (seq 0 6))).
Lemma in_order_all seen ps : (forall p v, In (p, v) ps -> poly (pval_expr v) = true /\ forall y, has y (pval_expr v) = true -> In y seen) -> in_order seen ps.
Proof.
  revert seen. induction ps as [|(p, v) ps IH]; intros seen H; cbn [in_order]; auto. split. apply (H p v). left; auto. apply IH. intros q w Hq. destruct (H q w (or_intror Hq)) as (A & B). split; auto. intros y Hy. right; auto.
Qed.
Lemma in_order_app a b : forall seen, in_order seen a -> (forall p v, In (p, v) b -> poly (pval_expr v) = true /\ forall y, has y (pval_expr v) = true -> In y (map fst a) \/ In y seen) -> in_order seen (a ++ b).
Proof.
  induction a as [|(p, v) a IH]; intros seen A B; cbn [app]. apply in_order_all. intros q w Hq. destruct (B q w Hq) as (X & Y). split; auto. intros y Hy. destruct (Y y Hy) as [[]|]; auto.
  cbn [in_order] in *. destruct A as (A1 & A2). split; auto. apply IH; auto. intros q w Hq. destruct (B q w Hq) as (X & Y). split; auto. intros y Hy. destruct (Y y Hy) as [[Z|Z]|Z]; auto; right; [left|right]; auto.
Qed.
Lemma alpha_names rows : List.length rows = 6 -> NoDup (map fst (alpha_pvals nice 0 rows)) /\ forall x, In x (map fst (alpha_pvals nice 0 rows)) -> In x (List.concat (map (fun i => [ca_name i; sa_name i]) (seq 0 6))).
Proof.
  intros L. do 6 (destruct rows as [|? rows]; [discriminate L|]). destruct rows; [|discriminate L]. cbn [alpha_pvals].
  assert (K : forall l m, nodupb l = true -> forallb (fun x => memb x m) l = true -> NoDup l /\ forall x, In x l -> In x m). { intros l m A B. split. apply nodupb_ok; auto. intros x Hx. rewrite forallb_forall in B. apply memb_in, B; auto. }
  repeat match goal with |- context [nice ?e] => destruct (nice e) end; apply K; vm_compute; reflexivity.
Qed.
Lemma alpha_fst rows : forall i, map fst (alpha_params nice i rows) = map fst (alpha_pvals nice i rows).
Proof. induction rows as [|r rows IH]; intros i; cbn [alpha_params alpha_pvals]; auto. rewrite !map_app, IH. destruct (nice (d_al r)); reflexivity. Qed.
Lemma stored_fst d : map fst (stored d) = rd_params d.
Proof. unfold stored. rewrite map_map. apply map_id. Qed.
(** The program written for a freshly computed robot of the catalogue - all but Mackler13 and Wrist - runs and prints its forward kinematics with all joint variables 1. *)
Theorem C74_catalogue name d us : robot_params name = Described d us -> name <> "Mackler13" -> name <> "Wrist" ->
  exists js, map joint_var js = rd_vars d /\ Forall good_joint js /\
  (exists V, fk_run (fk_stmts (stored d ++ alpha_pvals nice 0 (rd_dh d)) js [] (fk_T06 trigsimp nice (rd_dh d))) = Some V /\
     forall rho, setting (stored d ++ alpha_pvals nice 0 (rd_dh d)) js [] rho -> Meq 4 V (FK rho (rd_dh d)) /\ rigid V) /\
  exists rho, setting (stored d ++ alpha_pvals nice 0 (rd_dh d)) js [] rho.
Proof.
  intros HD NM NW. assert (C := described_check fk_check ["Wrist"] ltac:(vm_compute; reflexivity) name d us HD). assert (C' : fk_check d = true) by (apply C; intros [X|[]]; auto). clear C.
  unfold fk_check in C'. rewrite !andb_true_iff in C'. destruct C' as ((((CJ & CV) & CN) & CA) & CC). destruct (mapM joint_of (rd_vars d)) as [js|] eqn:EJ; [|discriminate].
  assert (Ej : map joint_var js = rd_vars d). { clear -EJ. revert js EJ. induction (rd_vars d) as [|v l IH]; cbn [mapM]; intros js E. injection E as <-. reflexivity. destruct (joint_of v) as [j|] eqn:Ev; [|discriminate]. destruct (mapM joint_of l) as [js'|]; [|discriminate]. injection E as <-. cbn [map]. rewrite (joint_of_eq v j Ev), IH; auto. }
  assert (Gj : Forall good_joint js). { apply Forall_forall. intros j Hj. rewrite forallb_forall in CJ. apply CJ in Hj. unfold good_jointb in Hj. rewrite !andb_true_iff, negb_true_iff, String.eqb_neq in Hj. unfold good_joint. tauto. }
  exists js. split; auto. split; auto. rewrite forallb_forall in CV, CA, CC.
  assert (S := proj1 (C64_sound name d us HD)). assert (L6 := rd_six name d us HD). destruct (alpha_names (rd_dh d) L6) as (AN & AI).
  assert (Ps : forall x, In x (rd_params d) -> ~ In x (rd_vars d)) by (apply S).
  assert (AA : forall x, In x (map fst (alpha_pvals nice 0 (rd_dh d))) -> ~ In x (rd_params d) /\ ~ In x (rd_vars d)).
  { intros x Hx. apply AI, CC in Hx. rewrite andb_true_iff, !negb_true_iff in Hx. destruct Hx as (X & Y). split; intros Z; apply memb_in in Z; congruence. }
  assert (RT : (exists V, fk_run (fk_stmts (stored d ++ alpha_pvals nice 0 (rd_dh d)) js [] (fk_T06 trigsimp nice (rd_dh d))) = Some V) /\ exists rho, setting (stored d ++ alpha_pvals nice 0 (rd_dh d)) js [] rho).
  { apply C74_runs.
    - apply in_order_app.
      + apply in_order_all. intros p v Hp. apply CV in Hp. cbn [snd] in Hp. destruct v as [e| |]; try discriminate. apply andb_prop in Hp as [P Q]. split; auto. intros y Hy. cbn [pval_expr] in Hy. apply symbols_has in Hy. destruct (symbols e); [destruct Hy|discriminate].
      + intros p v Hp. apply alpha_pvals_in in Hp as (r & Hr & E & _). rewrite E. apply CA in Hr. apply andb_prop in Hr as [P Q]. split; auto. intros y Hy. left. rewrite stored_fst. rewrite forallb_forall in Q. apply memb_in, Q, symbols_has; auto.
    - constructor.
      + rewrite map_app, stored_fst. apply SoaFacts.NoDup_app_intro; auto. apply nodupb_ok; auto. intros x Hx Ha. apply (proj1 (AA x Ha)); auto.
      + intros j Hj. rewrite map_app, stored_fst. assert (V : In (joint_var j) (rd_vars d)) by (rewrite <- Ej; apply in_map; auto). intros X. apply in_app_or in X as [X|X]. apply (Ps _ X V). apply (proj2 (AA _ X) V).
      + constructor.
      + intros v [].
    - intros v [].
    - intros i j Hi Hj. split. apply T06_poly; auto. apply (rows0 name d us HD). intros x Hx. rewrite map_app, stored_fst, Ej. rewrite in_app_iff.
      apply (T06_has trigsimp nice) in Hx as [(r & e & Hr & He & Hx)|Hx]; auto.
      + destruct (C64_closed name d us HD NM r e x Hr He Hx); auto.
      + rewrite alpha_fst in Hx. auto.
      + apply (rows0 name d us HD). }
  destruct RT as ((V & EV) & RS). split; auto. exists V. split; auto. intros rho St. destruct (C74_value trigsimp HT nice (rd_dh d) (stored d) js [] V rho (rows0 name d us HD) EV St) as (M & _). split; auto. apply (rigid_ext V (FK rho (rd_dh d))); auto. apply FK_rigid.
Qed.
(** It raises when the forward kinematics depends on something the program does not set. *)
Theorem C74_depends rows given js ss rho1 rho2 i j : (forall r, In r rows -> row_poly0 r) -> setting (given ++ alpha_pvals nice 0 rows) js ss rho1 -> setting (given ++ alpha_pvals nice 0 rows) js ss rho2 ->
  i < 4 -> j < 4 -> FK rho1 rows i j <> FK rho2 rows i j -> fk_run (fk_stmts (given ++ alpha_pvals nice 0 rows) js ss (fk_T06 trigsimp nice rows)) = None.
Proof.
  intros HR S1 S2 Hi Hj D. destruct (fk_run _) as [V|] eqn:E; auto. exfalso. apply D. destruct (C74_value trigsimp HT nice rows given js ss V rho1 HR E S1) as (M1 & _). destruct (C74_value trigsimp HT nice rows given js ss V rho2 HR E S2) as (M2 & _).
  rewrite <- M1, <- M2 by auto. reflexivity.
Qed.
End Catalogue.

(** * The two others, and the parameters lost on the second run *)
Lemma alpha_none nice rows : (forall r, In r rows -> nice (d_al r) = true) -> forall i, alpha_pvals nice i rows = [].
Proof. induction rows as [|r rows IH]; intros H i; cbn [alpha_pvals]; auto. rewrite (H r), IH; auto. intros; apply H; right; auto. left; auto. Qed.
Lemma chain1 T l i j : chain (T :: l) i j = mmul4 T (chain l) i j. Proof. reflexivity. Qed.
Lemma first_link rho r rows i j : i < 4 -> FK rho (r :: rows) i j = mmul4 (Link (eval rho (d_al r)) (eval rho (d_a r)) (eval rho (d_d r)) (eval rho (d_th r))) (FK rho rows) i j.
Proof. intros Hi. unfold FK. cbn [map]. rewrite chain1. unfold mmul4, osum4. rewrite <- !(c36_link_is_craig _ _ _ _ i _) by lia. reflexivity. Qed.
(** Wrist: its unknowns A, B, C have no subscript, so the program has no line for them (output_python.py:112-113) and raises. *)
Theorem C74_wrist_refuted trigsimp nice us d : good_simp trigsimp -> robot_params "Wrist" = Described d us -> (forall r, In r (rd_dh d) -> nice (d_al r) = true) ->
  mapM (fk_variable (rd_vars d)) (rd_vars d) = Some [[]; []; []] /\ fk_run (fk_stmts (stored d ++ alpha_pvals nice 0 (rd_dh d)) [] [] (fk_T06 trigsimp nice (rd_dh d))) = None.
Proof.
  intros HT HD HN. assert (E : d = r_Wrist) by (assert (X : robot_params "Wrist" = Described r_Wrist (number_from 1 (rd_vars r_Wrist))) by (vm_compute; reflexivity); congruence).
  assert (HR := rows0 "Wrist" d us HD). subst d. split; [vm_compute; reflexivity|].
  assert (AN := alpha_none nice (rd_dh r_Wrist) HN 0).
  set (rho := fun (a : R) (x : string) => if String.eqb x "A" then a else 0%R).
  assert (St : forall a, setting (stored r_Wrist ++ alpha_pvals nice 0 (rd_dh r_Wrist)) [] [] (rho a)). { intros a. rewrite AN. split; [intros p v []|intros j []|intros v []]. }
  set (B := FK (rho 0%R) (tl (rd_dh r_Wrist))).
  assert (K : forall a j, FK (rho a) (rd_dh r_Wrist) 0 j = (cos a * B 0%nat j - sin a * B 1%nat j)%R).
  { intros a j. change (rd_dh r_Wrist) with (DH (Num 0) (Num 0) (Num 0) (Sym "A") :: tl (rd_dh r_Wrist)). rewrite first_link by lia. assert (EB : FK (rho a) (tl (rd_dh r_Wrist)) = B) by reflexivity. rewrite EB. clearbody B. unfold mmul4, osum4. cbn [eval d_al d_a d_d d_th]. change (rho a "A") with a. unfold Link, of_rows. cbn -[sin cos]. ring. }
  destruct (FK_rigid (rho 0%R) (tl (rd_dh r_Wrist))) as ((R1 & R2) & _). fold B in R1, R2.
  assert (G : forall j, j < 4 -> B 0%nat j <> 0%R -> fk_run (fk_stmts (stored r_Wrist ++ alpha_pvals nice 0 (rd_dh r_Wrist)) [] [] (fk_T06 trigsimp nice (rd_dh r_Wrist))) = None).
  { intros j Hj N. apply (C74_depends trigsimp HT nice (rd_dh r_Wrist) (stored r_Wrist) [] [] (rho 0%R) (rho PI) 0 j); auto. rewrite !K, cos_0, sin_0, cos_PI, sin_PI. intros X. apply N. lra. }
  destruct (Req_dec (B 0%nat 0%nat) 0) as [Z0|N0]; [|apply (G 0); auto; lia]. destruct (Req_dec (B 0%nat 1%nat) 0) as [Z1|N1]; [|apply (G 1); auto; lia]. destruct (Req_dec (B 0%nat 2%nat) 0) as [Z2|N2]; [|apply (G 2); auto; lia].
  exfalso. unfold det3 in R2. rewrite Z0, Z1, Z2 in R2. lra.
Qed.
(** Mackler13: its table has a length that is not among its parameters. *)
Theorem C74_mackler_refuted trigsimp nice us d js : good_simp trigsimp -> robot_params "Mackler13" = Described d us -> (forall r, In r (rd_dh d) -> nice (d_al r) = true) ->
  map joint_var js = rd_vars d -> fk_run (fk_stmts (stored d ++ alpha_pvals nice 0 (rd_dh d)) js [] (fk_T06 trigsimp nice (rd_dh d))) = None.
Proof.
  intros HT HD HN EJ. assert (E : d = r_Mackler13) by (assert (X : robot_params "Mackler13" = Described r_Mackler13 (number_from 1 (rd_vars r_Mackler13))) by (vm_compute; reflexivity); congruence).
  assert (HR := rows0 "Mackler13" d us HD). subst d. assert (AN := alpha_none nice (rd_dh r_Mackler13) HN 0).
  set (rho := fun (h : R) (x : string) => if String.eqb x "h" then h else match find (fun pv => String.eqb (fst pv) x) (stored r_Mackler13) with Some pv => meaning (fun _ => 0%R) (snd pv) | None => 1%R end).
  assert (St : forall h, setting (stored r_Mackler13 ++ alpha_pvals nice 0 (rd_dh r_Mackler13)) js [] (rho h)).
  { intros h. rewrite AN, app_nil_r. split.
    - intros p v Hp. cbn in Hp. repeat (destruct Hp as [Hp|Hp]; [injection Hp as <- <-; reflexivity|]). destruct Hp.
    - intros j Hj. apply (in_map joint_var) in Hj. rewrite EJ in Hj. cbn in Hj. repeat (destruct Hj as [Hj|Hj]; [rewrite <- Hj; reflexivity|]). destruct Hj.
    - intros v []. }
  set (B := FK (rho 0%R) (tl (rd_dh r_Mackler13))). destruct (FK_rigid (rho 0%R) (tl (rd_dh r_Mackler13))) as (_ & (_ & _ & _ & B3)). fold B in B3.
  apply (C74_depends trigsimp HT nice (rd_dh r_Mackler13) (stored r_Mackler13) js [] (rho 0%R) (rho 1%R) 0 3); auto; try lia.
  assert (K : forall h, FK (rho h) (rd_dh r_Mackler13) 0 3 = (B 0%nat 3%nat + h)%R).
  { intros h. change (rd_dh r_Mackler13) with (DH (Div (Neg PiE) (Num 2)) (Sym "h") (Sym "d_1") (Num 0) :: tl (rd_dh r_Mackler13)). rewrite first_link by lia. assert (EB : FK (rho h) (tl (rd_dh r_Mackler13)) = B) by reflexivity. rewrite EB. clearbody B. unfold mmul4, osum4. cbn [eval d_al d_a d_d d_th]. change (rho h "h") with h. unfold Link, of_rows. cbn -[sin cos]. rewrite B3, cos_0, sin_0. ring. }
  rewrite !K. lra.
Qed.
(** From the second run on the mechanism is read from a file and the constants of the inclined axes are not among the parameters (C47_parameters_lost_refuted): then the program of
    Raven-II, which ran the first time, raises. *)
Definition not_symbol (e : expr) : bool := match e with Sym _ => false | _ => true end.
Theorem C74_second_run_refuted : exists d us js, robot_params "Raven-II" = Described d us /\ map joint_var js = rd_vars d /\
  (exists V, fk_run (fk_stmts (stored d ++ alpha_pvals not_symbol 0 (rd_dh d)) js [] (fk_T06 (fun e => e) not_symbol (rd_dh d))) = Some V) /\
  fk_run (fk_stmts (stored d) js [] (fk_T06 (fun e => e) not_symbol (rd_dh d))) = None.
Proof.
  assert (HD : robot_params "Raven-II" = Described r_Raven_II (number_from 1 (rd_vars r_Raven_II))) by (vm_compute; reflexivity).
  destruct (C74_catalogue (fun e => e) id_good (fun _ _ H => H) not_symbol "Raven-II" r_Raven_II _ HD ltac:(discriminate) ltac:(discriminate)) as (js & EJ & _ & (V & EV & _) & (rho & St)).
  exists r_Raven_II, (number_from 1 (rd_vars r_Raven_II)), js. split; [exact HD|]. split; [exact EJ|]. split; [exists V; exact EV|].
  apply (C74_raises (stored r_Raven_II) js [] (fk_T06 (fun e => e) not_symbol (rd_dh r_Raven_II)) "ca1" 2 2).
  - lia.
  - lia.
  - vm_compute. reflexivity.
  - rewrite stored_fst. intros X. apply memb_in in X. vm_compute in X. discriminate X.
  - rewrite EJ. intros X. apply memb_in in X. vm_compute in X. discriminate X.
  - intros [].
  - exists rho. split. intros p v Hp. apply (set_params _ _ _ _ St). apply in_or_app. left; auto. apply (set_joints _ _ _ _ St). intros v [].
Qed.
(** a program with a sum of angles: what C74_runs asks for is met, and what it prints *)
Definition ps74 : list (string * pval) := [("l_1", Value (Num 2)); ("al_1", Value (Div PiE (Num 2))); ("ca1", NpCos (Sym "al_1"))].
Definition js74 : list (string * ascii) := [("th", "1"%char); ("th", "2"%char)].
Definition M74 : mat expr := fun i j => match i, j with 0, 3 => Mul (Sym "l_1") (Cos (Sym "th_12")) | 1, 3 => Sym "ca1" | _, _ => if i =? j then Num 1 else Num 0 end.
Theorem C74_example : exists V, fk_run (fk_stmts ps74 js74 [("th", "12")] M74) = Some V /\ V 0 3 = (2 * cos (1 + 1))%R /\ V 1 3 = 0%R /\ fk_run (fk_stmts (firstn 2 ps74) js74 [("th", "12")] M74) = None.
Proof.
  destruct (C74_runs ps74 js74 [("th", "12")] M74) as ((V & EV) & (rho & St)).
  - cbn [in_order ps74]. repeat split; try reflexivity; cbn; intros y Hy; try discriminate. apply String.eqb_eq in Hy. subst. auto.
  - constructor; [repeat constructor; cbn; intuition discriminate|cbn; intuition (subst; cbn in *; intuition discriminate)|repeat constructor; cbn; intuition discriminate|cbn; intuition (subst; cbn in *; intuition discriminate)].
  - intros v [<-|[]]. discriminate.
  - intros i j Hi Hj. destruct i as [|[|[|[|i]]]]; try lia; (destruct j as [|[|[|[|j]]]]; try lia); (split; [reflexivity|]); intros x Hx; cbn in Hx; try discriminate.
    + apply orb_prop in Hx as [Hx|Hx]; apply String.eqb_eq in Hx; subst; cbn; auto.
    + apply String.eqb_eq in Hx; subst; cbn; auto 8.
  - exists V. split; [exact EV|]. destruct (fk_value _ _ _ _ _ _ EV St) as (M & _). rewrite !M by lia. unfold mev. cbn [M74 eval].
    rewrite (set_params _ _ _ _ St "l_1" (Value (Num 2))) by (cbn; auto). rewrite (set_params _ _ _ _ St "ca1" (NpCos (Sym "al_1"))) by (cbn; auto). cbn [meaning eval]. rewrite (set_params _ _ _ _ St "al_1" (Value (Div PiE (Num 2)))) by (cbn; auto). cbn [meaning eval].
    change "th_12" with (sum_var ("th", "12")). rewrite (set_sums _ _ _ _ St) by (cbn; auto). cbn [parts map list_ascii_of_string List.concat filter js74 snd]. cbn -[cos PI]. change "th_1" with (joint_var ("th", "1"%char)). change "th_2" with (joint_var ("th", "2"%char)). rewrite !(set_joints _ _ _ _ St) by (cbn; auto).
    split. f_equal. f_equal. lra. split. apply cos_PI2.
    apply (C74_raises (firstn 2 ps74) js74 [("th", "12")] M74 "ca1" 1 3); try lia; try reflexivity; try (cbn; intuition discriminate).
    exists rho. split. intros p v Hp. apply (set_params _ _ _ _ St). cbn in *. tauto. apply (set_joints _ _ _ _ St). apply (set_sums _ _ _ _ St).
Qed.
Print Assumptions C74_text.
Print Assumptions C74_value.
Print Assumptions C74_raises.
Print Assumptions C74_missing_raises.
Print Assumptions C74_runs.
Print Assumptions C74_catalogue.
Print Assumptions C74_depends.
Print Assumptions C74_wrist_refuted.
Print Assumptions C74_mackler_refuted.
Print Assumptions C74_second_run_refuted.
Print Assumptions C74_example.
