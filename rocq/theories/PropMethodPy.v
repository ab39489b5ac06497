(** C75: what the recorded method texts mean for the generated files. *)
From Coq Require Import Reals ZArith List String Ascii Bool Arith Lia.
From Verif Require Import Expr Kin KinSpec Solver SolverSpec SolverFacts SolverInv PropLists SolverHist HistFacts PropHist Sympy0 PropSolvers PropSolversEx PropHistEx PropCrash PropCrashEx PropRowsEx PropExplain PropExplainEx
  SolSet SolSetFacts PropSolSet SolSetEx CodeGen PropCodeGen CppFacts PropCpp PropCpp2 PropEmit PropPy PropLatex CodeGenEx PyRun PropPyRun PropPyEnd PropMethod.
Import ListNotations.
Local Open Scope string_scope.
Local Open Scope list_scope.
Local Open Scope nat_scope.

(** * The text can be printed anywhere *)
Lemma text_ind (P : string -> Prop) : P "" -> (forall a b, P a -> P b -> P (append a b)) -> (forall l, In l (other_labels ++ arc_labels) -> P l) -> forall m, method_text m -> P m.
Proof. intros P0 Pa Pl m (ls & -> & F). induction F; cbn [joined]; auto. Qed.
Lemma all_chars_app p a b : all_chars p a = true -> all_chars p b = true -> all_chars p (append a b) = true.
Proof. induction a as [|c a IH]; cbn; auto. intros H K. apply andb_true_iff in H as [-> H]. auto. Qed.
Lemma text_class p m : forallb (all_chars p) (other_labels ++ arc_labels) = true -> method_text m -> all_chars p m = true.
Proof. intros H. apply (text_ind (fun m => all_chars p m = true)); auto using all_chars_app. intros l L. rewrite forallb_forall in H. auto. Qed.
Lemma text_brace_free m : method_text m -> brace_free m = true.
Proof. apply (text_ind (fun m => brace_free m = true)); auto. intros a b A B. rewrite free_app, A, B. auto. intros l L. cbn in L. repeat (destruct L as [<-|L]; [reflexivity|]). contradiction. Qed.
Lemma app_len a b : String.length (append a b) = String.length a + String.length b.
Proof. induction a; cbn; auto. Qed.
Lemma text_no_nl m : method_text m -> no_nl m = true.
Proof. apply (text_ind (fun m => no_nl m = true)); auto. intros a b A B. rewrite no_nl_app, A, B. auto. intros l L. cbn in L. repeat (destruct L as [<-|L]; [reflexivity|]). contradiction. Qed.
(** The method text of every unknown in every history is what C45, C46 and C59 assume it to be: one line without braces,
    square brackets or characters special to LaTeX. *)
Theorem C75_printable sy s0 ts s arg n : initial sy s0 -> Solver.runs sy s0 ts s -> In n (final_nodes arg s) ->
  no_nl (n_method n) = true /\ brace_free (n_method n) = true /\ unbracketed (n_method n) = true /\ all_chars text_char (n_method n) = true.
Proof.
  intros I R Hn. unfold final_nodes in Hn. apply in_map_iff in Hn as (i & <- & _). assert (T := C75_text sy s0 ts s i I R). cbn [node_of n_method]. fold (un s i).
  split. apply text_no_nl; auto. split. apply text_brace_free; auto. split; apply text_class; auto; vm_compute; reflexivity.
Qed.

(** * The generated Python program leaves out only algebra after something else *)
Inductive arc_function := FAsin | FAcos | FAtan.
Fixpoint calls (f : arc_function) (e : expr) : bool :=
  match e with
  | Num _ | PiE | Sym _ => false
  | Add a b | Mul a b | Div a b => calls f a || calls f b
  | Neg a | Pow a _ | Sin a | Cos a | Sqrt a => calls f a
  | Asin a => match f with FAsin => true | _ => calls f a end
  | Acos a => match f with FAcos => true | _ => calls f a end
  | Atan2 a b => match f with FAtan => true | _ => calls f a || calls f b end
  end.
(** the printed text of an expression shows the functions it calls *)
Definition shows_calls (show : expr -> string) : Prop :=
  forall e, (calls FAsin e = true -> contains "asin" (show e) = true) /\ (calls FAcos e = true -> contains "acos" (show e) = true) /\ (calls FAtan e = true -> contains "atan" (show e) = true).
Lemma calls_subs f x v e : calls f e = true -> calls f (subs (Sym x) v e) = true.
Proof.
  induction e; cbn [calls]; intros H; try discriminate; cbn [subs]; (unfold expr_eqb; match goal with |- context [if ?d then true else false] => destruct d as [K|_]; [discriminate K|] end); cbn [calls];
    repeat match goal with |- context [match f with _ => _ end] => destruct f end; auto; try (apply orb_true_iff in H as [H|H]; apply orb_true_iff; auto).
Qed.
Lemma calls_subs_all f (d : list (expr * expr)) e : (forall kv, In kv d -> exists x, fst kv = Sym x) -> calls f e = true -> calls f (subs_all d e) = true.
Proof.
  unfold subs_all. revert e. induction d as [|kv d IH]; cbn [fold_left]; auto. intros e H C. destruct (H kv (or_introl eq_refl)) as (x & Hx). apply IH. intros; apply H; right; auto. rewrite Hx. apply calls_subs; auto.
Qed.
Definition calls_arc (e : expr) : Prop := calls FAsin e = true \/ calls FAcos e = true \/ calls FAtan e = true.
Lemma named_calls m sols e : named m sols \/ misnamed m sols -> In e sols -> calls_arc e \/ ends_in "algebra" m.
Proof.
  assert (T : forall y x, calls_arc (Atan2 y x)) by (intros; right; right; reflexivity).
  intros [N|[_ [(y & x & ->)|(y1 & x1 & y2 & x2 & ->)]]].
  - destruct N; cbn [In]; intros H'; auto; left; repeat (destruct H' as [<-|H']; [try apply T; try (left; reflexivity); try (right; left; cbn; reflexivity); right; right; cbn; rewrite ?orb_true_r; reflexivity|]); contradiction.
  - intros [<-|[]]; auto.
  - intros [<-|[<-|[]]]; auto.
Qed.
Lemma sub_names_syms nodes r d : subdict nodes r = Some d -> forall kv, In kv d -> exists x, fst kv = Sym x.
Proof.
  unfold subdict. intros H kv Hk. apply In_nth_error in Hk as (j & Hj). apply mapM_some in H as [L H]. assert (Lj := nth_error_some_lt _ _ _ Hj). rewrite L in Lj. destruct (nth_error_ex _ _ Lj) as (cn & Hcn).
  destruct (H j cn Hcn) as (b & B1 & B2). assert (b = kv) by congruence. subst b. destruct (nth_error r (fst cn)); [|discriminate]. injection B2 as <-. eexists. reflexivity.
Qed.
Lemma version_from nodes t F k eqs c n q : make_LHS_versions nodes t = Some F -> nth_error F k = Some eqs -> nth_error eqs c = Some q -> nth_error nodes c = Some n ->
  exists d e, (forall kv, In kv d -> exists x, fst kv = Sym x) /\ In e (n_sols n) /\ k_rhs q = subs_all d e.
Proof.
  unfold make_LHS_versions. destruct t as [|r0 t']; [discriminate|]. set (t := r0 :: t'). set (ns := match rev nodes with [] => 0 | n :: _ => n_nsol n end). intros H Hk Hc Hn.
  apply mapM_some in H as [L H]. assert (Lk := nth_error_some_lt _ _ _ Hk). rewrite L in Lk. destruct (nth_error_ex _ _ Lk) as (kr & Hkr). destruct (H k kr Hkr) as (b & B1 & B2). assert (b = eqs) by congruence. subst b.
  unfold version_row in B2. destruct (subdict nodes (snd kr)) as [d|] eqn:D; [|discriminate]. apply mapM_some in B2 as [Lq Q]. assert (Lc := nth_error_some_lt _ _ _ Hc). rewrite Lq in Lc. destruct (nth_error_ex _ _ Lc) as (c' & Hc').
  destruct (Q c c' Hc') as (q' & Q1 & Q2). assert (q' = q) by congruence. subst q'. assert (c' = c). { rewrite seq_length in Lc. clear - Hc' Lc. apply (nth_error_nth _ _ 0) in Hc'. rewrite seq_nth in Hc' by auto. lia. } subst c'.
  unfold version_eqn in Q2. rewrite Hn in Q2. destruct (ns =? 0); [discriminate|]. destruct (nth_error (n_sols n) _) as [e|] eqn:Ee; [|discriminate]. injection Q2 as <-.
  exists d, e. split. eapply sub_names_syms; eauto. split. eapply nth_error_In; eauto. reflexivity.
Qed.
Lemma final_order sy s0 ts s arg c n : initial sy s0 -> runs1 sy s0 ts s -> nth_error (final_nodes arg s) c = Some n -> n_order n = S c /\ exists i, u_solved (un s i) = true /\ n = node_of arg s i.
Proof.
  intros I R H. destruct (C23_solved_once_in_order sy s0 ts s I R) as (_ & N2 & _ & N4 & _). unfold final_nodes in H. rewrite nth_error_map in H. destruct (nth_error (s_nodes s) c) as [i|] eqn:E; [|discriminate]. injection H as <-.
  split. 2:{ exists i. split; auto. apply N2. eapply nth_error_In; eauto. }
  cbn [node_of n_order]. fold (un s i). assert (Lc := nth_error_some_lt _ _ _ E). assert (X := f_equal (fun l => nth_error l c) N4). cbv beta in X. rewrite nth_error_map, E in X. cbn [option_map] in X.
  assert (Y : nth_error (seq 1 (List.length (s_nodes s))) c = Some (S c)). { rewrite (nth_error_nth' _ 0) by (rewrite seq_length; auto). rewrite seq_nth by auto. reflexivity. } congruence.
Qed.
(** For every history without re-solving: each version of each solved unknown is written to the generated Python program, except possibly those
    of an unknown whose text ends in 'algebra' but has another name before it. *)
Theorem C75_python_emits sy s0 ts s arg F show c n k eqs q : sympy_ok sy -> (forall a, no_new_symbols (sy_coeff sy a)) -> initial sy s0 -> runs1 sy s0 ts s -> shows_calls show ->
  make_LHS_versions (final_nodes arg s) (create_solution_set (final_nodes arg s)) = Some F ->
  nth_error (final_nodes arg s) c = Some n -> nth_error F k = Some eqs -> nth_error eqs c = Some q ->
  py_emits show n q \/ exists p, p <> "" /\ n_method n = append p "algebra".
Proof.
  intros HOK HCO I R Sh HF Hn Hk Hc. destruct (version_from _ _ _ _ _ _ _ _ HF Hk Hc Hn) as (d & e & D & He & Eq). destruct (final_order sy s0 ts s arg c n I R Hn) as (_ & i & Si & ->).
  assert (N := C75_names_the_formula sy HOK HCO s0 ts s i I R Si). cbn [node_of n_sols n_method] in *. fold (un s i) in *. destruct (named_calls _ _ e N He) as [C|[p E]].
  - left. unfold py_emits. rewrite Eq. destruct (Sh (subs_all d e)) as (S1 & S2 & S3). destruct C as [C|[C|C]]; apply (calls_subs_all _ d) in C; auto.
  - destruct p as [|ch p]. { left. right. right. right. cbn [node_of n_method]. fold (un s i). rewrite E. reflexivity. } right. exists (String ch p). split; [discriminate|exact E].
Qed.
Theorem C75_python_writes sy s0 ts s arg show r groups out c n k eqs q : sympy_ok sy -> (forall a, no_new_symbols (sy_coeff sy a)) -> initial sy s0 -> runs1 sy s0 ts s -> shows_calls show ->
  r_nodes r = final_nodes arg s -> make_LHS_versions (final_nodes arg s) (create_solution_set (final_nodes arg s)) = Some (r_eqns r) -> output_python_code show r groups = Some out ->
  nth_error (final_nodes arg s) c = Some n -> nth_error (r_eqns r) k = Some eqs -> nth_error eqs c = Some q ->
  (exists l, In l out /\ py_assign show q l) \/ exists p, p <> "" /\ n_method n = append p "algebra".
Proof.
  intros HOK HCO I R Sh En HF O Hn Hk Hc. destruct (C75_python_emits sy s0 ts s arg _ show c n k eqs q HOK HCO I R Sh HF Hn Hk Hc) as [P|?]; auto. left.
  destruct (final_order sy s0 ts s arg c n I R Hn) as (Eo & _). apply (C46_python show r groups out n k eqs q O); auto. rewrite En. eapply nth_error_In; eauto. rewrite Eo, Nat.sub_succ, Nat.sub_0_r. auto.
Qed.

(** The program of C70 computes the table (all its versions are written), if no unknown is solved by algebra after another name was recorded for it. *)
Corollary C75_python_computes sy s0 ts s arg guard show rb groups p m F out : sympy_ok sy -> (forall a, no_new_symbols (sy_coeff sy a)) -> initial sy s0 -> runs1 sy s0 ts s -> shows_calls show ->
  (forall i q, u_solved (un s i) = true -> u_method (un s i) = append q "algebra" -> q = "") ->
  let nodes := final_nodes arg s in r_nodes rb = nodes ->
  handed_over nodes -> NoDup (names_of nodes) -> version_free (names_of nodes) -> earlier_only nodes -> make_LHS_versions nodes (create_solution_set nodes) = Some F -> r_eqns rb = F ->
  (forall g, In g groups -> In g (create_solution_set nodes)) -> body show rb groups = Some p ->
  first_defined nodes m -> (forall n e y, In n nodes -> In e (n_sols n) -> has y e = true -> ~ In y (names_of nodes) -> m y <> None) ->
  executed nodes F out -> total m out -> (forall q, in_matrix F q -> in_domain out (k_rhs q)) -> passes guard m out p ->
  ikin guard p m = Some (Solutions (map (fun g => map out (sort g)) groups)).
Proof.
  intros HOK HCO I R Sh Alg nodes En H1 H2 H3 H4 HF EF H5 H6 H7 H8 H9 H10 H11 H12. assert (K := C70_computes guard show rb groups p m F out). cbv zeta in K. rewrite En in K.
  apply K; auto. { intros c n Hn. apply (final_order sy s0 ts s arg c n I R Hn). }
  intros k eqs c n q Hk Hn Hc. destruct (C75_python_emits sy s0 ts s arg F show c n k eqs q HOK HCO I R Sh HF Hn Hk Hc) as [P|(w & W1 & W2)]; auto.
  exfalso. destruct (final_order sy s0 ts s arg c n I R Hn) as (_ & i & Si & ->). apply W1. apply (Alg i); auto.
Qed.

(** * The generated C++ program leaves out only arcsin, arccos and sinANDcos solutions *)
Lemma contains_app p a b : contains p a = true \/ contains p b = true -> contains p (append a b) = true.
Proof.
  intros [H|H].
  - induction a as [|c a IH]. { destruct p as [|x p]; [destruct b; reflexivity|]. exfalso. revert H. cbn. discriminate. }
    cbn [contains append] in *. apply orb_true_iff in H as [H|H]; apply orb_true_iff; [left|right; auto]. clear IH. revert H. change (String c (append a b)) with (append (String c a) b). generalize (String c a) as s. clear.
    induction p as [|x p IH]; intros [|y s]; cbn [String.prefix append]; auto; try (intros; discriminate). destruct b; reflexivity. destruct (ascii_dec x y); auto; intros; discriminate.
  - induction a as [|c a IH]; auto. cbn [contains append]. apply orb_true_iff. auto.
Qed.
Lemma ends_contains l m : ends_in l m -> contains l m = true.
Proof. intros [p ->]. apply contains_app. right. clear. destruct l as [|c l]; [reflexivity|]. cbn [contains]. apply orb_true_iff. left. generalize (String c l) as t. clear. induction t as [|c t IH]; cbn [String.prefix]; auto. destruct (ascii_dec c c); [auto|congruence]. Qed.
Definition cpp_may_miss (sols : list expr) : Prop :=
  (exists t, sols = [Asin t; Sub PiE (Asin t)]) \/ (exists t, sols = [Acos t; Neg (Acos t)])
  \/ (exists y x, sols = [Atan2 y x; Add (Atan2 y x) PiE]) \/ exists y x t c, sols = [Add (Atan2 y x) (Atan2 t c); Add (Atan2 y x) (Atan2 (Neg t) c)].
Theorem C75_cpp_writes sy s0 ts s arg show r vars groups c n k eqs q col : sympy_ok sy -> (forall a, no_new_symbols (sy_coeff sy a)) -> initial sy s0 -> runs1 sy s0 ts s ->
  r_nodes r = final_nodes arg s -> output_cpp_code show r vars groups = Some c -> no_nl (assignment show q) = true ->
  nth_error (final_nodes arg s) col = Some n -> nth_error (r_eqns r) k = Some eqs -> nth_error eqs col = Some q ->
  In (append "    " (fix_line (append (assignment show q) ";"))) (c_out c) \/ cpp_may_miss (n_sols n).
Proof.
  intros HOK HCO I R En O Nl Hn Hk Hc. destruct (final_order sy s0 ts s arg col n I R Hn) as (Eo & i & Si & ->).
  assert (W : cpp_emits (node_of arg s i) -> In (append "    " (fix_line (append (assignment show q) ";"))) (c_out c)).
  { intros E. apply (C46_cpp show r vars groups c (node_of arg s i) k eqs q O Nl); auto. rewrite En. eapply nth_error_In; eauto. rewrite Eo, Nat.sub_succ, Nat.sub_0_r. auto.
    clear - E. unfold cpp_emits, exactly_trig in *. intros [H|H]; rewrite H in E; vm_compute in E; repeat (destruct E as [E|E]; try discriminate); discriminate. }
  assert (N := C75_names_the_formula sy HOK HCO s0 ts s i I R Si). cbn [node_of n_sols]. fold (un s i). unfold cpp_emits in W. cbn [node_of n_method] in W. fold (un s i) in W.
  clear - N W. destruct N as [N|N].
  - destruct N; try (apply ends_contains in H); try (left; apply W; tauto); right; unfold cpp_may_miss; eauto 10.
  - destruct N as [[H|H] _]; left; apply W; left; destruct H as [p ->]; apply contains_app; right; reflexivity.
Qed.

(** ** a case *)
Lemma shows0 : shows_calls show0.
Proof.
  assert (B : forall p a op b, contains p (show0 a) = true \/ contains p (show0 b) = true -> contains p (append "(" (append (show0 a) (append op (append (show0 b) ")")))) = true).
  { intros p a op b [H|H]. apply contains_app. right. apply contains_app. auto. apply contains_app. right. apply contains_app. right. apply contains_app. right. apply contains_app. auto. }
  assert (Fn : forall p f a, contains p (show0 a) = true -> contains p (append f (append "(" (append (show0 a) ")"))) = true).
  { intros p f a H. apply contains_app. right. apply contains_app. right. apply contains_app. auto. }
  intros e. induction e as [z| |s|a Ia b Ib|a Ia b Ib|a Ia|a Ia b Ib|a Ia n|a Ia|a Ia|a Ia|a Ia|a Ia b Ib|a Ia]; cbn [calls show0]; try (repeat split; intros; discriminate).
  1,2,4: destruct Ia as (A1 & A2 & A3), Ib as (B1 & B2 & B3); (split; [|split]); intros H; apply orb_true_iff in H; apply B; destruct H; auto.
  all: destruct Ia as (A1 & A2 & A3).
  1,3,4,8: (split; [|split]); intros H; apply Fn; auto.
  - (split; [|split]); intros H; apply contains_app; auto.
  - (split; [|split]); intros H; [reflexivity|apply Fn; auto|apply Fn; auto].
  - (split; [|split]); intros H; [apply Fn; auto|reflexivity|apply Fn; auto].
  - destruct Ib as (B1 & B2 & B3). (split; [|split]); intros H; [| |apply contains_app; left; reflexivity]; apply orb_true_iff in H as [H|H]; apply contains_app; right; apply contains_app; auto; right; apply contains_app; right; apply contains_app; auto.
Qed.
Definition out66p := match output_python_code show0 rb66 groups66 with Some o => o | None => [] end.
Lemma python66 : output_python_code show0 rb66 groups66 = Some out66p.
Proof. assert (E : (if output_python_code show0 rb66 groups66 then true else false) = true) by (vm_compute; reflexivity). unfold out66p. destruct (output_python_code show0 rb66 groups66); [reflexivity|discriminate]. Qed.
Lemma texts66 : map (fun i => u_method (un end66 i)) [0; 1] = ["arcsin"; "arccos"]. Proof. vm_compute. reflexivity. Qed.
Example C75_example : exists ts, sympy_ok sympy0 /\ (forall a, no_new_symbols (sy_coeff sympy0 a)) /\ initial sympy0 ex66 /\ runs1 sympy0 ex66 ts end66 /\ shows_calls show0
  /\ r_nodes rb66 = final_nodes arg0 end66 /\ make_LHS_versions (final_nodes arg0 end66) (create_solution_set (final_nodes arg0 end66)) = Some (r_eqns rb66)
  /\ output_python_code show0 rb66 groups66 = Some out66p /\ map (fun i => u_method (un end66 i)) [0; 1] = ["arcsin"; "arccos"].
Proof.
  destruct end66_tree as [ts R]. exists ts. split; [exact sympy0_ok|]. split; [exact sympy0_coeff|]. split; [exact (start_initial _ _)|]. split; [exact R|]. split; [exact shows0|].
  split; [reflexivity|]. split; [exact (proj1 (proj2 gen66))|]. split; [exact python66|exact texts66].
Qed.

(** * Findings *)
(** the text names arcsin, the solution is an atan2 (run of the shipped tree, everything solved) *)
Theorem C75_misnamed_refuted : exists sy s0 ts s i, sympy_ok sy /\ initial sy s0 /\ runs1 sy s0 ts s /\ ik_solve sy s0 = OK true s /\ u_solved (un s i) = true
  /\ u_method (un s i) = "atan2(y,x), arcsin" /\ (exists y x, solutions (un s i) = [Atan2 y x]) /\ ~ named (u_method (un s i)) (solutions (un s i)).
Proof.
  destruct run_ow67 as [ts H]. exists sympy0, ow67, ts, e67, 0. split; [exact sympy0_ok|]. split; [exact (start_initial _ _)|]. split; [exact (track_runs1 _ _ _ _ _ H)|]. split; [exact same67|].
  split; [exact (proj1 u_ow67)|]. assert (M : u_method (un e67 0) = "atan2(y,x), arcsin") by (vm_compute; reflexivity). assert (S : solutions (un e67 0) = [sol67]) by exact (proj1 (proj2 (proj2 u_ow67))). rewrite M, S.
  split; [reflexivity|]. split; [eexists _, _; reflexivity|]. clear. intros N. unfold sol67 in N.
  inversion N as [|m y x E|m ? ? ? ? E| | | | | | |m y x E]; subst.
  - destruct E as [p E]. assert (X := f_equal (fun t => substring 10 8 t) E). assert (L := f_equal String.length E). assert (Lp : String.length p = 8). { revert L. clear. rewrite app_len. cbn. lia. }
    do 8 (destruct p as [|? p]; [discriminate Lp|]). destruct p; [|discriminate Lp]. discriminate E.
  - destruct E as [p E]. assert (L := f_equal String.length E). assert (Lp : String.length p = 2). { revert L. clear. rewrite app_len. cbn. lia. }
    do 2 (destruct p as [|? p]; [discriminate Lp|]). destruct p; [|discriminate Lp]. discriminate E.
Qed.
Print Assumptions C75_only_grows.
Print Assumptions C75_text.
Print Assumptions C75_names_the_formula.
Print Assumptions C75_never_empty.
Print Assumptions C75_printable.
Print Assumptions C75_python_emits.
Print Assumptions C75_python_writes.
Print Assumptions C75_python_computes.
Print Assumptions C75_cpp_writes.
Print Assumptions C75_misnamed_refuted.
