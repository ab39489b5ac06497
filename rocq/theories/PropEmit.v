(** C46, C54: which assignments the generated code contains, and which variables the C++ code declares. *)
From Coq Require Import Reals NArith ZArith List String Ascii Bool Arith Lia Permutation.
From Verif Require Import Expr Kin Solver SolverSpec HistFacts PropHist SolSet SolSetFacts PropSolSet CodeGen PropCodeGen CppFacts PropCpp.
Import ListNotations.
Local Open Scope string_scope.
Local Open Scope list_scope.
Local Open Scope nat_scope.

Lemma some_inj {A} (a b : A) : Some a = Some b -> a = b. Proof. intros E; injection E; auto. Qed.
(** * C46, Python *)
(** The assignment of a version is written exactly when the printed right hand side contains asin, acos or atan or the
    method is exactly 'algebra'; otherwise nothing at all is written for it. *)
Definition py_emits (show : expr -> string) (n : node) (q : kequation) : Prop :=
  contains "asin" (show (k_rhs q)) = true \/ contains "acos" (show (k_rhs q)) = true \/ contains "atan" (show (k_rhs q)) = true \/ n_method n = "algebra".
(** <unknown> = <solution> *)
Definition assignment (show : expr -> string) (q : kequation) : string := append (show (k_lhs q)) (append " = " (show (k_rhs q))).
Definition py_assign (show : expr -> string) (q : kequation) (l : string) : Prop := exists k, l = append (times k "    ") (assignment show q).
Theorem C46_py_version show n q ls : py_version show n q = Some ls ->
  (py_emits show n q -> exists l, In l ls /\ py_assign show q l) /\ (~ py_emits show n q -> ls = []).
Proof.
  unfold py_version, py_emits, py_assign. change (assignment show q) with (assign_text show q). intros E. split.
  - intros H. destruct (contains "asin" (show (k_rhs q))) eqn:E1; cbn [orb] in E.
    { destruct (parens _); [|discriminate]. injection E as <-. exists (append (append ind ind) (assign_text show q)). split. right; right; right; left; auto. exists 2. reflexivity. }
    destruct (contains "acos" (show (k_rhs q))) eqn:E2.
    { destruct (parens _); [|discriminate]. injection E as <-. exists (append (append ind ind) (assign_text show q)). split. right; right; right; left; auto. exists 2. reflexivity. }
    injection E as <-. destruct H as [H|[H|[H|H]]]; try discriminate.
    + rewrite H. exists (append ind (assign_text show q)). split. left; auto. exists 1. reflexivity.
    + rewrite H. exists (append ind (assign_text show q)). split. apply in_or_app. right. left; auto. exists 1. reflexivity.
  - intros H. destruct (contains "asin" (show (k_rhs q))). { destruct H; auto. } destruct (contains "acos" (show (k_rhs q))). { destruct H; auto. } cbn [orb] in E. injection E as <-.
    destruct (contains "atan" (show (k_rhs q))). { destruct H; auto. } destruct (String.eqb_spec (n_method n) "algebra"). { destruct H; auto. } auto.
Qed.
(** If every version is of that kind, the file has an assignment for every version of every solved unknown. *)
Theorem C46_python show r groups out n k eqs q : output_python_code show r groups = Some out ->
  In n (r_nodes r) -> nth_error (r_eqns r) k = Some eqs -> nth_error eqs (n_order n - 1) = Some q -> py_emits show n q -> exists l, In l out /\ py_assign show q l.
Proof.
  intros O Hn Hk Hq He. unfold output_python_code in O. destruct (mapM (py_node show r) (r_nodes r)) as [ns|] eqn:E; [|discriminate]. apply some_inj in O. subst out. apply mapM_some in E as [_ E].
  apply In_nth_error in Hn as (i & Hn). destruct (E i n Hn) as (b & B1 & B2). unfold py_node in B2. destruct (node_eqns r n) as [qs|] eqn:Eq; [|discriminate]. destruct (mapM (py_version show n) qs) as [vs|] eqn:Ev; [|discriminate]. apply some_inj in B2. subst b.
  unfold node_eqns in Eq. apply mapM_some in Eq as [_ Eq]. destruct (Eq k eqs Hk) as (q' & Q1 & Q2). assert (q' = q) by congruence. subst q'. apply mapM_some in Ev as [_ Ev]. destruct (Ev k q Q1) as (ls & L1 & L2).
  destruct (C46_py_version show n q ls L2) as [X _]. destruct (X He) as (l & Hl & A). exists l. split; auto. apply in_or_app. right. apply in_or_app. left. apply in_concat. eexists. split. eapply nth_error_In; eauto.
  apply in_or_app. right. apply in_concat. exists ls. split; auto. eapply nth_error_In; eauto.
Qed.

(** * C46, C++ *)
Definition exactly_trig (n : node) : Prop := n_method n = "arcsin" \/ n_method n = "arccos".
Definition cpp_emits (n : node) : Prop :=
  contains "atan2(y,x)" (n_method n) = true \/ contains "algebra" (n_method n) = true \/ contains "x2z2" (n_method n) = true \/ contains "simultaneous eqn" (n_method n) = true.
Lemma trig_spec n : String.eqb (n_method n) "arcsin" || String.eqb (n_method n) "arccos" = true <-> exactly_trig n.
Proof. unfold exactly_trig. rewrite orb_true_iff, !String.eqb_eq. tauto. Qed.
Lemma in_file show r vars groups c n k eqs q m : output_cpp_code show r vars groups = Some c -> In n (r_nodes r) -> nth_error (r_eqns r) k = Some eqs -> nth_error eqs (n_order n - 1) = Some q ->
  forall ms1 ms2 b, cpp_version show n k q = ms1 ++ Line m :: ms2 -> lev ms1 1 = Some b -> no_nl m = true -> In (append (times b "    ") (fix_line m)) (c_out c).
Proof.
  intros O Hn Hk Hq ms1 ms2 b Em Lb Nm. unfold output_cpp_code in O. destruct (cpp_cmds show r vars groups) as [ms|] eqn:E; [|discriminate]. injection O as <-.
  destruct (cmds_split _ _ _ _ _ E) as (ns & -> & L & H). assert (Nl := nodes_lev _ _ _ _ _ ns E L H). apply In_nth_error in Hn as (i & Hn). destruct (H i n Hn) as (qs & Q1 & Q2).
  assert (Hin := nth_error_In _ _ Q2). apply in_split in Hin as (a1 & a2 & ->). unfold node_eqns in Q1. apply mapM_some in Q1 as [_ Q1]. destruct (Q1 k eqs Hk) as (q' & Q3 & Q4). assert (q' = q) by congruence. subst q'.
  assert (Hv : In (cpp_version show n k q) (map (fun iq => cpp_version show n (fst iq) (snd iq)) (enum qs))). { apply in_map_iff. exists (k, q). split; auto. apply enum_in. auto. }
  apply in_split in Hv as (v1 & v2 & Hv).
  set (h := cpp_head (fixed_name r) vars (map fst (r_params r))). set (t := cpp_tail groups). set (n1 := [Line (append nls nls); Line (append "//Variable: " (n_name n))]).
  assert (Ec : h ++ List.concat (a1 ++ cpp_node show n qs :: a2) ++ t = (h ++ List.concat a1 ++ n1 ++ List.concat v1 ++ ms1) ++ Line m :: (ms2 ++ List.concat v2 ++ List.concat a2 ++ t)).
  { rewrite concat_app. cbn [List.concat]. unfold cpp_node. rewrite Hv, concat_app. cbn [List.concat]. rewrite Em. fold n1. rewrite <- !app_assoc. reflexivity. }
  rewrite Ec. apply written; [|rewrite split_one by auto; left; auto].
  unfold h. rewrite lev_app, head_lev. cbv beta iota. rewrite lev_app, lev_concat. cbv beta iota. rewrite lev_app. cbn [n1 lev]. rewrite lev_app, lev_concat. cbv beta iota. exact Lb.
  - intros l Hl. assert (X : In l (map (fun iq => cpp_version show n (fst iq) (snd iq)) (enum qs))) by (rewrite Hv; apply in_or_app; auto). apply in_map_iff in X as (iq & <- & _). apply version_lev.
  - intros l Hl. destruct (Nl l) as (n' & qs' & _ & _ & ->). apply in_or_app; auto. apply node_lev.
Qed.
(** The file has the assignment <version> = <solution>; for every version of every unknown whose method is not exactly arcsin/arccos and contains one of four method names (rewritten by line(), see C53). *)
Theorem C46_cpp show r vars groups c n k eqs q : output_cpp_code show r vars groups = Some c -> no_nl (assignment show q) = true ->
  In n (r_nodes r) -> nth_error (r_eqns r) k = Some eqs -> nth_error eqs (n_order n - 1) = Some q -> ~ exactly_trig n -> cpp_emits n ->
  In (append "    " (fix_line (append (assignment show q) ";"))) (c_out c).
Proof.
  change (assignment show q) with (assign_text show q). intros O Ns Hn Hk Hq T Em. assert (Tb : String.eqb (n_method n) "arcsin" || String.eqb (n_method n) "arccos" = false) by (apply not_true_is_false; rewrite trig_spec; auto).
  assert (Na : no_nl (append (assign_text show q) ";") = true) by (rewrite no_nl_app, Ns; reflexivity).
  assert (X : exists ms1 ms2, cpp_version show n k q = ms1 ++ Line (append (assign_text show q) ";") :: ms2 /\ lev ms1 1 = Some 1).
  { unfold cpp_version. rewrite Tb. cbn [negb andb app]. set (a := Line (append (assign_text show q) ";")). set (x := Line _). set (y := Line _). set (z := Line (append "//    argument: " _)).
    destruct Em as [E|[E|[E|E]]].
    - rewrite E. eexists [x; y; z], _. split. reflexivity. reflexivity.
    - rewrite E. destruct (contains "atan2(y,x)" (n_method n)). eexists [x; y; z], _. split; reflexivity. eexists [x; y; z], _. split; reflexivity.
    - rewrite E. destruct (contains "atan2(y,x)" (n_method n)). eexists [x; y; z], _. split; reflexivity. destruct (contains "algebra" (n_method n)). eexists [x; y; z], _. split; reflexivity. eexists [x; y; z], _. split; reflexivity.
    - rewrite E. destruct (contains "atan2(y,x)" (n_method n)). eexists [x; y; z], _. split; reflexivity. destruct (contains "algebra" (n_method n)). eexists [x; y; z], _. split; reflexivity.
      destruct (contains "x2z2" (n_method n)). eexists [x; y; z], _. split; reflexivity. eexists [x; y; z], _. split; reflexivity. }
  destruct X as (ms1 & ms2 & X1 & X2). apply (in_file show r vars groups c n k eqs q _ O Hn Hk Hq ms1 ms2 1 X1 X2 Na).
Qed.
(** For any other method only comments are written for a version ... *)
Definition comment (l : string) : Prop := l = "" \/ exists t, l = append "//" t.
Theorem C46_cpp_nothing show n k q : no_nl (show (n_arg n)) = true -> no_nl (n_method n) = true -> ~ exactly_trig n -> ~ cpp_emits n ->
  forall s l, In (Line s) (cpp_version show n k q) -> In l (split_lines s) -> comment l.
Proof.
  intros Ns Nm T Em s l Hs Hl. unfold cpp_emits in Em. assert (Tb : String.eqb (n_method n) "arcsin" || String.eqb (n_method n) "arccos" = false) by (apply not_true_is_false; rewrite trig_spec; auto).
  assert (D : forall n, no_nl (str_of_nat n) = true). { intros i. generalize (str_digits i). generalize (str_of_nat i). induction s0 as [|a s0 IH]; cbn [digits no_nl]; auto. intros X. apply andb_true_iff in X as [X1 X2]. rewrite IH by auto. destruct (Ascii.eqb_spec a nl); auto. subst. discriminate. }
  unfold cpp_version in Hs. rewrite Tb in Hs. destruct (contains "atan2(y,x)" (n_method n)). { destruct Em; auto. } destruct (contains "algebra" (n_method n)). { destruct Em; auto. } destruct (contains "x2z2" (n_method n)). { destruct Em; auto. } destruct (contains "simultaneous eqn" (n_method n)). { destruct Em; auto. }
  cbn [negb andb app] in Hs. rewrite ?app_nil_r in Hs. destruct Hs as [Hs|[Hs|[Hs|[]]]].
  - assert (s = append (append nls "// solution ") (str_of_nat k)) by congruence. subst s. rewrite append_assoc in Hl. change (append nls (append "// solution " (str_of_nat k))) with (String nl (append "// solution " (str_of_nat k))) in Hl.
    change (split_lines (String nl (append "// solution " (str_of_nat k)))) with ("" :: split_lines (append "// solution " (str_of_nat k))) in Hl. rewrite split_one in Hl by (rewrite no_nl_app, D; reflexivity). destruct Hl as [<-|[<-|[]]]. left; auto. right. eexists. reflexivity.
  - assert (s = append "// solvemethod: " (n_method n)) by congruence. subst s. rewrite split_one in Hl by (rewrite no_nl_app, Nm; reflexivity). destruct Hl as [<-|[]]. right. eexists. reflexivity.
  - assert (s = append "//    argument: " (show (n_arg n))) by congruence. subst s. rewrite split_one in Hl by (rewrite no_nl_app, Ns; reflexivity). destruct Hl as [<-|[]]. right. eexists. reflexivity.
Qed.
(** ... and when it is exactly arcsin or arccos all versions are assigned the same text <method>(argument), whatever their solutions are. *)
Theorem C46_cpp_trig_same show n k q s : exactly_trig n ->
  In (Line s) (cpp_version show n k q) <-> In (Line s) (cpp_version show n k (Keq (k_lhs q) (Num 0))).
Proof.
  intros T. assert (Tb := proj2 (trig_spec n) T). unfold cpp_version. rewrite Tb. cbn [negb andb app k_lhs].
  assert (X : contains "algebra" (n_method n) = false /\ contains "x2z2" (n_method n) = false /\ contains "simultaneous eqn" (n_method n) = false). { destruct T as [-> | ->]; repeat split; reflexivity. }
  destruct X as (-> & -> & ->). reflexivity.
Qed.

(** * C54: declared and assigned variables of the C++ code *)
Definition declared_in (vars : list string) (groups : list row) : Prop := forall v, In v vars <-> exists g, In g groups /\ In v g.
(** The variables that hold the first unknown's versions are assigned but not declared; those that the returned rows use for it are declared but never assigned. *)
Theorem C54_first nodes F vars groups n0 ns : nodes = n0 :: ns -> handed_over nodes -> NoDup (names_of nodes) -> make_LHS_versions nodes (create_solution_set nodes) = Some F ->
  (forall g, In g groups <-> In g (create_solution_set nodes)) -> declared_in vars groups ->
  (forall k eqs, nth_error F k = Some eqs -> exists e, nth_error eqs 0 = Some (Keq (Sym (vname (n_name n0) (S k))) e) /\ ~ In (vname (n_name n0) (S k)) vars)
  /\ (forall b, b < n_nsol n0 -> In (sname (n_name n0) (S b)) vars /\ forall eqs q, In eqs F -> In q eqs -> k_lhs q <> Sym (sname (n_name n0) (S b))).
Proof.
  intros En H N HF G Dv. destruct (C43_equations nodes F H HF) as [LF CE]. split.
  - intros k eqs Hk. assert (Lk := nth_error_some_lt _ _ _ Hk). rewrite LF in Lk. destruct (nth_error_ex _ _ Lk) as (r & Hr). destruct (CE k r Hr) as (eqs' & Q1 & _ & Q3). assert (eqs' = eqs) by congruence. subst eqs'.
    destruct (Q3 0 n0) as (e & _ & Q). { rewrite En. reflexivity. } eexists. split; [exact Q|]. intros X. apply Dv in X as (g & Hg & Hv). apply G in Hg. rewrite En in *.
    apply In_nth_error in Hg as (i & Hi). apply In_nth_error in Hv as (c & Hc). destruct (C42_consistent n0 ns H i g Hi) as [(b & _ & B) C]. destruct c as [|c].
    + rewrite B in Hc. injection Hc as Hc. apply (f_equal mark) in Hc. unfold sname in Hc. rewrite vname_mark, sname_mark in Hc. discriminate.
    + assert (Lc := nth_error_some_lt _ _ _ Hc). rewrite (C42_rectangular _ g H) in Lc by (eapply nth_error_In; eauto). cbn [List.length] in Lc. destruct (nth_error_ex ns c) as (n & Hn); [lia|]. destruct (C c n Hn) as (j & r' & _ & J & _).
      rewrite J in Hc. injection Hc as Hc. apply vname_inj2 in Hc as [Hc _]. cbn [names_of map] in N. inversion N; subst. apply H2. rewrite <- Hc. apply in_map. eapply nth_error_In; eauto.
  - intros b Hb. assert (X : exists r, In r (create_solution_set nodes) /\ nth_error r 0 = Some (sname (n_name n0) (S b))).
    { rewrite En in *. assert (R := C42_restrict n0 [] ns [sname (n_name n0) (S b)] H). assert (Y : In [sname (n_name n0) (S b)] (create_solution_set [n0])).
      { rewrite create_one. destruct H as (_ & m0 & ms & E & V). injection E as <- <-. rewrite V, map_map. apply in_map_iff. exists b. split; auto. apply in_seq. lia. }
      apply R in Y as (r & Hr & Hp). exists r. split; auto. destruct r; cbn in Hp; [discriminate|]. injection Hp as ->. auto. }
    destruct X as (r & Hr & Hv). split.
    + apply Dv. exists r. split. apply G; auto. eapply nth_error_In; eauto.
    + apply (C52_first_names_undefined nodes F r _ H HF Hr Hv).
Qed.
(** For a later unknown the version variable number k is declared exactly when k is at most the number of rows the table had when the unknown's column was added; the others are assigned without being declared. *)
Theorem C54_later nodes vars groups n0 ns n ns' : nodes = n0 :: ns ++ n :: ns' -> handed_over nodes -> NoDup (names_of nodes) ->
  (forall g, In g groups <-> In g (create_solution_set nodes)) -> declared_in vars groups ->
  forall k, In (vname (n_name n) (S k)) vars <-> k < List.length (create_solution_set (n0 :: ns ++ [n])).
Proof.
  intros En H N G Dv k. rewrite En in *. clear En. assert (E : n0 :: ns ++ n :: ns' = n0 :: (ns ++ [n]) ++ ns') by (rewrite <- app_assoc; reflexivity). rewrite E in *.
  assert (R := fun p => C42_restrict n0 (ns ++ [n]) ns' p H). destruct (ho_fresh _ _ H) as (Fr & V & _). assert (Fn : fresh_node n). { rewrite Forall_forall in Fr. apply Fr. apply in_or_app. left. apply in_or_app. right. left; auto. }
  assert (Ll : List.length (ns ++ [n]) = S (List.length ns)) by (rewrite app_length; cbn; lia). split.
  - intros X. apply Dv in X as (g & Hg & Hv). apply G in Hg. apply In_nth_error in Hv as (c & Hc). assert (Lg := C42_rectangular _ g H Hg). assert (Lc := nth_error_some_lt _ _ _ Hc).
    assert (Ec : c = S (List.length ns)).
    { apply In_nth_error in Hg as (i & Hi). destruct (C42_consistent _ _ H i g Hi) as [(b & _ & B) C]. destruct c as [|c]. { rewrite B in Hc. injection Hc as Hc. apply (f_equal mark) in Hc. unfold sname in Hc. rewrite vname_mark, sname_mark in Hc. discriminate. }
      rewrite Lg in Lc. cbn [List.length] in Lc. destruct (nth_error_ex ((ns ++ [n]) ++ ns') c) as (m & Hm); [lia|]. destruct (C c m Hm) as (j & r' & _ & J & _). rewrite J in Hc. injection Hc as Hc. apply vname_inj2 in Hc as [Hc _]. f_equal.
      assert (X : S c = S (List.length ns)); [|lia]. apply (NoDup_names _ (S c) (S (List.length ns)) m n N); auto. cbn [nth_error]. rewrite <- app_assoc. cbn [app]. rewrite nth_error_app2 by lia. rewrite Nat.sub_diag. auto. }
    subst c. assert (P : In (firstn (S (List.length (ns ++ [n]))) g) (create_solution_set (n0 :: ns ++ [n]))) by (apply R; eauto).
    apply In_nth_error in P as (k' & P). assert (Lk := nth_error_some_lt _ _ _ P). destruct (create_last n0 V ns n Fn k' _ P) as (r1 & Er). assert (L1 : List.length r1 = S (List.length ns)).
    { apply (f_equal (@List.length _)) in Er. rewrite app_length, firstn_length, Lg in Er. cbn [List.length] in Er. rewrite !app_length in Er. cbn [List.length] in Er. lia. }
    assert (Z : nth_error (firstn (S (List.length (ns ++ [n]))) g) (S (List.length ns)) = Some (vname (n_name n) (S k))). { rewrite nth_error_firstn' by lia. auto. }
    rewrite Er, nth_error_app2, L1, Nat.sub_diag in Z by lia. cbn [nth_error] in Z. injection Z as Z. apply vname_inj in Z. injection Z as ->. exact Lk.
  - intros Lk. destruct (nth_error_ex _ _ Lk) as (p & Hp). destruct (create_last n0 V ns n Fn k p Hp) as (r1 & Er). assert (X := nth_error_In _ _ Hp). apply R in X as (r & Hr & Hf). apply Dv. exists r. split. apply G; auto.
    assert (Z : In (vname (n_name n) (S k)) (firstn (S (List.length (ns ++ [n]))) r)). { rewrite Hf, Er. apply in_or_app. right. left; auto. } rewrite <- (firstn_skipn (S (List.length (ns ++ [n]))) r). apply in_or_app. auto.
Qed.
