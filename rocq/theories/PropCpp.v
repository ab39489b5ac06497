(** C45, C46, C54: the generated code. *)
From Coq Require Import Reals NArith ZArith List String Ascii Bool Arith Lia Permutation.
From Verif Require Import Expr Kin Solver SolverSpec HistFacts PropHist SolSet SolSetFacts PropSolSet CodeGen PropCodeGen CppFacts.
Import ListNotations.
Local Open Scope string_scope.
Local Open Scope list_scope.
Local Open Scope nat_scope.

(** * C45: blocks *)
Lemma digits_free s : digits s = true -> brace_free s = true.
Proof.
  induction s as [|c s IH]; cbn [digits brace_free]; auto. intros H. apply andb_true_iff in H as [H1 H2]. rewrite IH by auto. unfold is_digit in H1. apply andb_true_iff in H1 as [_ H1]. apply Nat.leb_le in H1.
  destruct (Ascii.eqb_spec c "{"). { subst. exfalso. change (nat_of_ascii "{") with 123 in H1. lia. } destruct (Ascii.eqb_spec c "}"). { subst. exfalso. change (nat_of_ascii "}") with 125 in H1. lia. } auto.
Qed.
Lemma nat_free n : brace_free (str_of_nat n) = true. Proof. apply digits_free, str_digits. Qed.
Lemma concat_free l : (forall s, In s l -> brace_free s = true) -> brace_free (concat_s l) = true.
Proof. induction l; cbn [concat_s]; intros H; auto. rewrite free_app, H, IHl; auto. intros; apply H; right; auto. left; auto. Qed.
Lemma substring_free s : forall n m, brace_free s = true -> brace_free (substring n m s) = true.
Proof. induction s as [|c s IH]; intros [|n] [|m] H; cbn [substring]; auto; cbn [brace_free] in *; apply andb_true_iff in H as [H1 H2]; auto. rewrite H1, IH; auto. Qed.
Lemma us_free s : brace_free s = true -> brace_free (replace_us s) = true.
Proof.
  induction s as [|c s IH]; intros H; auto. cbn [brace_free] in H. apply andb_true_iff in H as [H1 H2]. specialize (IH H2).
  assert (E : replace_us (String c s) = String "\" (String "_" (replace_us s)) \/ replace_us (String c s) = String c (replace_us s)) by (cbn [replace_us]; destruct c as [[] [] [] [] [] [] [] []]; auto).
  destruct E as [-> | ->]. exact IH. cbn [brace_free]. rewrite H1. auto.
Qed.
Lemma test_free n : forall s, brace_free s = true -> brace_free (remove_test n s) = true.
Proof.
  induction n as [|n IH]; intros s H; cbn [remove_test]; auto. destruct (String.prefix "test: " s). apply IH. apply drop_free; auto. destruct s; auto. cbn [brace_free] in *. apply andb_true_iff in H as [H1 H2]. rewrite H1, IH; auto.
Qed.
(** the names, texts and printed expressions of the robot contain no braces *)
Definition brace_free_robot (show : expr -> string) (r : robot) (vars : list string) (groups : list row) : Prop :=
  brace_free (r_name r) = true /\ (forall p, In p (r_params r) -> brace_free (fst p) = true) /\ (forall eqs q, In eqs (r_eqns r) -> In q eqs -> brace_free (show (k_lhs q)) = true /\ brace_free (show (k_rhs q)) = true)
  /\ (forall n, In n (r_nodes r) -> brace_free (n_name n) = true /\ brace_free (n_method n) = true /\ brace_free (show (n_arg n)) = true)
  /\ (forall v, In v vars -> brace_free v = true) /\ (forall g v, In g groups -> In v g -> brace_free v = true).
Lemma lit_neutral s : forallb (fun l => match depth 0 (fix_line l) with Some 0 => true | _ => false end) (split_lines s) = true -> neutral s.
Proof.
  intros H l Hl d. rewrite forallb_forall in H. specialize (H l Hl). destruct (depth 0 (fix_line l)) as [[|]|] eqn:E; try discriminate. clear - E. revert E.
  assert (G : forall s a b k, depth a s = Some b -> depth (a + k) s = Some (b + k)).
  { induction s as [|c s IH]; intros a b k; cbn [depth]. intros E; injection E as ->; auto. destruct (Ascii.eqb c "{"). apply (IH (S a)). destruct (Ascii.eqb c "}"); [|apply IH]. destruct a; [discriminate|]. apply IH. }
  intros E. apply (G _ 0 0 d E).
Qed.
Lemma head_neutral name vars ps : brace_free name = true -> (forall v, In v vars -> brace_free v = true) -> (forall p, In p ps -> brace_free p = true) -> all_neutral (cpp_head name vars ps).
Proof.
  intros Hn Hv Hp s Hs. unfold cpp_head in Hs. set (P := fun m => match m with Line s => neutral s | _ => True end). change (P (Line s)).
  revert Hs. generalize (Line s) as m. change (forall m, In m (cpp_head name vars ps) -> P m). rewrite <- Forall_forall. unfold cpp_head.
  repeat (apply Forall_cons; [|]); try exact I; try apply Forall_nil; unfold P.
  all: try (apply lit_neutral; vm_compute; reflexivity).
  - apply free_neutral. rewrite !free_app, Hn. reflexivity.
  - apply free_neutral. unfold var_decl. rewrite free_app, substring_free; [reflexivity|]. rewrite free_app, concat_free; [reflexivity|]. intros x Hx. apply in_map_iff in Hx as (v & <- & Hx). rewrite !free_app, (Hv v) by auto. reflexivity.
  - apply free_neutral. unfold par_decl. rewrite free_app, concat_free; [reflexivity|]. intros x Hx. apply in_map_iff in Hx as (v & <- & Hx). rewrite !free_app, (Hp v) by auto. reflexivity.
Qed.
Lemma head_lev name vars ps : lev (cpp_head name vars ps) 0 = Some 1. Proof. reflexivity. Qed.
Lemma version_lev show n k q a : lev (cpp_version show n k q) a = Some a.
Proof.
  unfold cpp_version. rewrite !lev_app. cbn [lev]. destruct (_ || _); cbn [lev negb andb]; destruct (contains "atan2(y,x)" (n_method n)); cbn [lev]; destruct (contains "algebra" (n_method n)); cbn [lev];
    destruct (contains "x2z2" (n_method n)); cbn [lev]; destruct (contains "simultaneous eqn" (n_method n)); reflexivity.
Qed.
Lemma node_lev show n qs a : lev (cpp_node show n qs) a = Some a.
Proof. unfold cpp_node. rewrite lev_app. cbn [lev]. apply lev_concat. intros l Hl. apply in_map_iff in Hl as (iq & <- & _). apply version_lev. Qed.
Lemma rows_lines groups m : In m (cpp_rows groups) -> exists i j g v, nth_error groups i = Some g /\ nth_error (sort g) j = Some v
  /\ m = Line (append "solution_list[" (append (str_of_nat i) (append "][" (append (str_of_nat j) (append "] = " (append v ";")))))).
Proof.
  unfold cpp_rows. rewrite in_concat. intros (l & Hl & Hm). apply in_map_iff in Hl as ([i g] & <- & Hi). apply enum_in in Hi. apply in_map_iff in Hm as ([j v] & <- & Hj). apply enum_in in Hj. exists i, j, g, v. auto.
Qed.
Lemma rows_lev groups a : lev (cpp_rows groups) a = Some a.
Proof. apply lev_lines. intros m Hm. apply rows_lines in Hm as (i & j & g & v & _ & _ & ->). eexists; reflexivity. Qed.
Lemma tail_lev groups : lev (cpp_tail groups) 1 = Some 0.
Proof. unfold cpp_tail. rewrite lev_app. cbn [lev]. rewrite lev_app, rows_lev. reflexivity. Qed.
Lemma cmds_split show r vars groups ms : cpp_cmds show r vars groups = Some ms -> exists ns, ms = cpp_head (fixed_name r) vars (map fst (r_params r)) ++ List.concat ns ++ cpp_tail groups
  /\ List.length ns = List.length (r_nodes r) /\ forall i n, nth_error (r_nodes r) i = Some n -> exists qs, node_eqns r n = Some qs /\ nth_error ns i = Some (cpp_node show n qs).
Proof.
  unfold cpp_cmds. destruct (mapM _ (r_nodes r)) as [ns|] eqn:E; [|discriminate]. intros X. injection X as <-. exists ns. split; auto. apply mapM_some in E as [E1 E2]. split; auto.
  intros i n Hn. destruct (E2 i n Hn) as (b & B1 & B2). destruct (node_eqns r n) as [qs|]; [|discriminate]. injection B2 as <-. eauto.
Qed.
Lemma nodes_lev show r vars groups ms ns : cpp_cmds show r vars groups = Some ms -> List.length ns = List.length (r_nodes r) ->
  (forall i n, nth_error (r_nodes r) i = Some n -> exists qs, node_eqns r n = Some qs /\ nth_error ns i = Some (cpp_node show n qs)) -> forall l, In l ns -> exists n qs, In n (r_nodes r) /\ node_eqns r n = Some qs /\ l = cpp_node show n qs.
Proof.
  intros _ L H l Hl. apply In_nth_error in Hl as (i & Hi). assert (X := nth_error_some_lt _ _ _ Hi). rewrite L in X. destruct (nth_error_ex _ _ X) as (n & Hn). destruct (H i n Hn) as (qs & Q1 & Q2). exists n, qs. split. eapply nth_error_In; eauto. split; auto. congruence.
Qed.
Definition free_cmd (m : cmd) : Prop := match m with Line s => brace_free s = true | _ => True end.
Lemma Forall_line ms s : Forall free_cmd ms -> In (Line s) ms -> brace_free s = true.
Proof. intros H Hs. rewrite Forall_forall in H. apply (H _ Hs). Qed.
Lemma node_eqns_in r n qs : node_eqns r n = Some qs -> forall q, In q qs -> exists eqs, In eqs (r_eqns r) /\ In q eqs.
Proof.
  unfold node_eqns. intros E q Hq. apply mapM_some in E as [L E]. apply In_nth_error in Hq as (i & Hi). assert (X := nth_error_some_lt _ _ _ Hi). rewrite L in X. destruct (nth_error_ex _ _ X) as (eqs & He). destruct (E i eqs He) as (q' & A & B). exists eqs. split. eapply nth_error_In; eauto. assert (q' = q) by congruence. subst. eapply nth_error_In; eauto.
Qed.
Lemma version_free_text show n k q : brace_free (show (k_lhs q)) = true -> brace_free (show (k_rhs q)) = true -> brace_free (show (n_arg n)) = true -> brace_free (n_method n) = true -> Forall free_cmd (cpp_version show n k q).
Proof.
  intros B1 B2 B M. assert (A : brace_free (append (assign_text show q) ";") = true). { unfold assign_text. rewrite !free_app, B1, B2. reflexivity. }
  unfold cpp_version. repeat (apply Forall_app; split).
  - repeat (apply Forall_cons); try apply Forall_nil; unfold free_cmd; rewrite ?free_app, ?nat_free, ?M, ?B; reflexivity.
  - destruct (_ || _); [|constructor]. repeat (apply Forall_cons); try apply Forall_nil; try exact I; unfold free_cmd; rewrite ?free_app, ?M, ?B, ?B1; reflexivity.
  - destruct (_ && _); repeat constructor; auto.
  - destruct (contains _ _); repeat constructor; auto.
  - destruct (contains _ _); repeat constructor; auto.
  - destruct (contains _ _); repeat constructor; auto.
Qed.
(** The braces of every generated C++ file match. *)
Theorem C45_balanced show r vars groups c : brace_free_robot show r vars groups -> output_cpp_code show r vars groups = Some c ->
  depth_lines 0 (c_out c) = Some 0 /\ c_level c = 0%Z.
Proof.
  intros (B1 & B2 & B3 & B4 & B5 & B6) O. unfold output_cpp_code in O. destruct (cpp_cmds show r vars groups) as [ms|] eqn:E; [|discriminate]. injection O as <-.
  destruct (cmds_split _ _ _ _ _ E) as (ns & -> & L & H). assert (Nl := nodes_lev _ _ _ _ _ ns E L H).
  assert (Lv : lev (cpp_head (fixed_name r) vars (map fst (r_params r)) ++ List.concat ns ++ cpp_tail groups) 0 = Some 0).
  { rewrite lev_app, head_lev. cbv beta iota. rewrite lev_app, lev_concat. apply tail_lev. intros l Hl. destruct (Nl l Hl) as (n & qs & _ & _ & ->). apply node_lev. }
  assert (Nt : all_neutral (cpp_head (fixed_name r) vars (map fst (r_params r)) ++ List.concat ns ++ cpp_tail groups)).
  { apply neutral_app; [|apply neutral_app].
    - apply head_neutral; auto. apply test_free. apply us_free. auto. intros p Hp. apply in_map_iff in Hp as (x & <- & Hx). auto.
    - intros s Hs. apply in_concat in Hs as (l & Hl & Hs). destruct (Nl l Hl) as (n & qs & Hn & Hqs & ->). destruct (B4 n Hn) as (M1 & M2 & M3). unfold cpp_node in Hs. apply in_app_iff in Hs as [Hs|Hs].
      + apply free_neutral. apply (Forall_line [Line (append nls nls); Line (append "//Variable: " (n_name n))]); auto. apply Forall_cons; [reflexivity|]. apply Forall_cons; [|apply Forall_nil]. unfold free_cmd. rewrite free_app, M1. reflexivity.
      + apply in_concat in Hs as (l & Hl' & Hs). apply in_map_iff in Hl' as ([k q] & <- & Hkq). cbn [fst snd] in Hs. apply free_neutral. eapply Forall_line; [|exact Hs]. apply enum_in in Hkq. destruct (node_eqns_in r n qs Hqs q (nth_error_In _ _ Hkq)) as (eqs & He & Hq). destruct (B3 eqs q He Hq). apply version_free_text; auto.
    - unfold cpp_tail. apply neutral_app; [|apply neutral_app].
      + intros s [Hs|[Hs|[]]]; injection Hs as <-; apply lit_neutral; vm_compute; reflexivity.
      + intros s Hs. apply rows_lines in Hs as (i & j & g & v & Hi & Hj & Es). assert (Es' : s = append "solution_list[" (append (str_of_nat i) (append "][" (append (str_of_nat j) (append "] = " (append v ";")))))) by congruence. rewrite Es'. apply free_neutral. rewrite !free_app, !nat_free. rewrite (B6 g v). reflexivity. eapply nth_error_In; eauto.
        apply (Permutation_in _ (sort_perm g)). eapply nth_error_In; eauto.
      + intros s [Hs|[Hs|[Hs|[Hs|[]]]]]; try discriminate; injection Hs as <-; apply lit_neutral; vm_compute; reflexivity. }
  destruct (run_inv _ _ 0 0 start_inv Nt Lv) as [R1 R2]. split; auto.
Qed.

(** * C45: the array solution_list[64][6] *)
Definition write_text (i j : nat) (v : string) : string := append "solution_list[" (append (str_of_nat i) (append "][" (append (str_of_nat j) (append "] = " (append v ";"))))).
(** The generated file has, inside the function's block, exactly one assignment for each row i and each of its sorted entries j. *)
Theorem C45_writes show r vars groups c i j g v : output_cpp_code show r vars groups = Some c ->
  nth_error groups i = Some g -> nth_error (sort g) j = Some v -> no_nl v = true -> contains "**" (write_text i j v) = false ->
  In (append "    " (write_text i j v)) (c_out c).
Proof.
  intros O Hg Hv Nn Ns. unfold output_cpp_code in O. destruct (cpp_cmds show r vars groups) as [ms|] eqn:E; [|discriminate]. injection O as <-.
  destruct (cmds_split _ _ _ _ _ E) as (ns & -> & L & H). assert (Nl := nodes_lev _ _ _ _ _ ns E L H).
  assert (Hm : In (Line (write_text i j v)) (cpp_rows groups)).
  { unfold cpp_rows. apply in_concat. exists (cpp_row i g). split. apply in_map_iff. exists (i, g). split; auto. apply enum_in. auto. unfold cpp_row. apply in_map_iff. exists (j, v). split; auto. apply enum_in. auto. }
  apply in_split in Hm as (l1 & l2 & Hm). unfold cpp_tail. rewrite Hm.
  set (h := cpp_head (fixed_name r) vars (map fst (r_params r))). set (t1 := [Line _; Line _]). set (t2 := [_; _; _; _]).
  replace (h ++ List.concat ns ++ t1 ++ (l1 ++ Line (write_text i j v) :: l2) ++ t2) with ((h ++ List.concat ns ++ t1 ++ l1) ++ Line (write_text i j v) :: (l2 ++ t2)) by (rewrite <- !app_assoc; reflexivity).
  assert (Nw : no_nl (write_text i j v) = true).
  { unfold write_text. rewrite !no_nl_app, Nn. assert (D : forall n, no_nl (str_of_nat n) = true). { intros n. generalize (str_digits n). generalize (str_of_nat n). induction s as [|a s IH]; cbn [digits no_nl]; auto. intros X. apply andb_true_iff in X as [X1 X2]. rewrite IH by auto.
      destruct (Ascii.eqb_spec a nl); auto. subst. discriminate. } rewrite !D. reflexivity. }
  assert (W := written (h ++ List.concat ns ++ t1 ++ l1) (write_text i j v) (l2 ++ t2) 1). rewrite <- (fix_id (write_text i j v)) at 1 by auto. apply W.
  - unfold h. rewrite lev_app, head_lev. cbv beta iota. rewrite lev_app, lev_concat. cbv beta iota. rewrite lev_app. cbn [t1 lev].
    assert (X := lev_lines l1). rewrite X; auto. intros m Hi. assert (In m (cpp_rows groups)) by (rewrite Hm; apply in_or_app; auto). apply rows_lines in H0 as (? & ? & ? & ? & _ & _ & ->). eexists; reflexivity.
    intros l Hl. destruct (Nl l Hl) as (n & qs & _ & _ & ->). apply node_lev.
  - rewrite split_one by auto. left; auto.
Qed.
(** Writes stay within solution_list[64][6] exactly when there are at most 64 rows of at most 6 entries. *)
Theorem C45_bounds groups : (forall i j g v, nth_error groups i = Some g -> nth_error (sort g) j = Some v -> i < 64 /\ j < 6)
  <-> (forall i g, nth_error groups i = Some g -> g = [] \/ (i < 64 /\ List.length g <= 6)).
Proof.
  split.
  - intros H i g Hg. destruct g as [|x g'] eqn:E; auto. right. rewrite <- E in *. assert (L : List.length (sort g) = List.length g) by (apply Permutation_length, sort_perm).
    destruct (nth_error_ex (sort g) (List.length g - 1)) as (v & Hv). rewrite L, E. cbn [List.length]. lia. destruct (H i _ g v Hg Hv). lia.
  - intros H i j g v Hg Hv. assert (L : List.length (sort g) = List.length g) by (apply Permutation_length, sort_perm). assert (X := nth_error_some_lt _ _ _ Hv). destruct (H i g Hg) as [->|[A B]]; [cbn in X; lia|]. lia.
Qed.
(** At most six solved unknowns with at most two solutions each: it fits. *)
Theorem C45_six_unknowns nodes groups : handed_over nodes -> (forall n, In n nodes -> n_nsol n <= 2) -> List.length nodes <= 6 -> Permutation groups (create_solution_set nodes) ->
  List.length groups <= 64 /\ forall g, In g groups -> List.length g <= 6.
Proof.
  intros H T L P. split.
  - assert (Tl : forall n, In n (tl nodes) -> n_nsol n <= 2). { intros n Hn. apply T. destruct nodes as [|m l]. destruct Hn. right. exact Hn. }
    rewrite (Permutation_length P), C42_row_count by auto.
    assert (G : forall l, (forall n, In n l -> n_nsol n <= 2) -> prod (map n_nsol l) <= 2 ^ List.length l).
    { induction l as [|n l IH]; intros Hl; cbn [map prod fold_right List.length]. auto. rewrite Nat.pow_succ_r'. apply Nat.mul_le_mono. apply Hl; left; auto. apply IH. intros; apply Hl; right; auto. }
    transitivity (2 ^ List.length nodes); auto. change 64 with (2 ^ 6). apply Nat.pow_le_mono_r; lia.
  - intros g Hg. rewrite (C42_rectangular nodes g H). auto. apply (Permutation_in _ P). auto.
Qed.
(** A seventh solved unknown - a sum of angles such as th_23 is one - overflows it: solution_list[0][6] is written, and with two solutions each also solution_list[127]. *)
Definition seven : list node := map (fun x => nd x 2 (ex_sols "r_11")) ["th_1"; "th_23"; "th_3"; "th_4"; "th_5"; "th_6"; "th_2"].
Theorem C45_overflow_refuted : handed_over seven /\ let groups := create_solution_set seven in
  (exists g v, nth_error groups 0 = Some g /\ nth_error (sort g) 6 = Some v) /\ exists g v, nth_error groups 127 = Some g /\ nth_error (sort g) 0 = Some v.
Proof.
  split. { apply handed_nd. discriminate. intros n Hn. apply in_map_iff in Hn as (x & <- & _). eexists _, _, _. split; [reflexivity|discriminate]. }
  cbv zeta. split; eexists _, _; (split; [vm_compute; reflexivity|vm_compute; reflexivity]).
Qed.
