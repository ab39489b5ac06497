(** C76: what the inverse kinematics report contains, for every history of solver ticks and every session of calls afterwards. *)
From Coq Require Import Reals ZArith List String Ascii Bool Arith Lia.
From Verif Require Import Expr Kin KinSpec Solver SolverSpec SolverFacts SolverInv PropLists SolverHist HistFacts PropHist Sympy0 PropSolvers PropCrash PropCrashEx PropExplain
  SolSet SolSetFacts PropSolSet CodeGen PropCodeGen CppFacts PropEmit PropPy Latex PropLatex Session PropSession PropMethod PropMethodPy.
Import ListNotations.
Local Open Scope string_scope.
Local Open Scope list_scope.
Local Open Scope nat_scope.

(** * Specification *)
(** the text occurs in the file *)
Definition shown (t : string) (secs : list string) : Prop := exists a b, body_text secs = append a (append t b).
(** the displayed equation does not contain the (literal) text that output_latex.py:215-216, 264-265 would replace *)
Definition ordinary (t : string) : Prop := contains "(.+)=(.+)/(.+)" t = false.
(** the first lines of the part on one unknown *)
Definition heading (latex : expr -> string) (name method : string) : string :=
  append "\subsection{" (append (var_tex latex (Node name "" (Num 0) 0 0 [] [] [])) (append " } " (append nls (append "Solution Method: " (append method nls))))).
(** the file has a part on the unknown that shows the equations [ts] *)
Definition part_on (latex : expr -> string) (name method : string) (ts : list string) (secs : list string) : Prop :=
  exists rest, shown (append (heading latex name method) rest) secs /\ forall t, In t ts -> ordinary t -> exists a b, rest = append a (append t b).
(** the i-th call of a session made the report [out] *)
Definition report_at show latex edges mats order vars nm ps pv (nodes : list node) (h : list call) (i : nat) (out : list string) : Prop :=
  exists s' os, do_calls show latex edges mats order vars (solved_robot nm ps pv nodes) h = Some (s', os) /\ nth_error h i = Some Report /\ nth_error os i = Some out.
(** the name of a solution *)
Definition solution_name (name : string) (k : nat) : string := append name (append "s" (str_of_nat (S k))).

(** * Texts in sections *)
Definition part (t s : string) : Prop := exists a b, s = append a (append t b).
Lemma part_refl t : part t t. Proof. exists "", "". cbn [append]. rewrite append_nil_r. auto. Qed.
Lemma part_l t a b : part t a -> part t (append a b). Proof. intros (x & y & ->). exists x, (append y b). rewrite !append_assoc. auto. Qed.
Lemma part_r t a b : part t b -> part t (append a b). Proof. intros (x & y & ->). exists (append a x), y. rewrite !append_assoc. auto. Qed.
Lemma part_trans t a b : part t a -> part a b -> part t b. Proof. intros H (x & y & ->). apply part_r. apply part_l. auto. Qed.
Lemma part3 a b c r : part (append a (append b c)) (append a (append b (append c r))).
Proof. exists "", r. change (append "" ?x) with x. rewrite !append_assoc. reflexivity. Qed.
Lemma part4 a b c d r : part (append a (append b (append c d))) (append a (append b (append c (append d r)))).
Proof. exists "", r. change (append "" ?x) with x. rewrite !append_assoc. reflexivity. Qed.
Lemma part_concat t a l : In a l -> part t a -> part t (concat_s l).
Proof. induction l as [|b l IH]; cbn [In concat_s]; [tauto|]. intros [->|H] P. apply part_l; auto. apply part_r; auto. Qed.
Lemma section_shown t sec secs : In sec secs -> part t sec -> shown t secs.
Proof.
  intros Hs P. unfold shown. assert (X : part t (body_text secs)); [|exact X]. unfold body_text. apply (part_concat t (append (append nls (append nls nls)) (concat_s (map (fun l => append l nls) (splitlines sec))))).
  apply in_map_iff. eauto. apply part_r. unfold splitlines. assert (Y := lines_text (split_lines sec)). rewrite split_text in Y. destruct Y as [->|Y]. apply part_l; auto. apply app_nls_inj in Y. rewrite Y. auto.
Qed.
Lemma replace_absent p r s : contains p s = false -> replace p r s = s.
Proof.
  unfold replace. generalize (S (String.length s)) as f. intros f. revert s. induction f as [|f IH]; intros s H; auto. cbn [replace_all]. destruct s as [|c t]; cbn [contains] in H.
  - apply orb_false_iff in H as [-> _]. reflexivity.
  - apply orb_false_iff in H as [-> H]. f_equal. auto.
Qed.
Lemma frac_id s : contains "(.+)=(.+)/(.+)" s = false -> frac s = s.
Proof. intros H. unfold frac. destruct (contains "/" s); auto. apply replace_absent; auto. Qed.
Lemma eqn_part latex align last qs q : ordinary (LaTexOutput latex align q) -> In q qs -> part (LaTexOutput latex align q) (eqn_lines latex align last qs).
Proof.
  intros O Hq. unfold eqn_lines. apply In_nth_error in Hq as (k & Hk). apply (part_concat _ (append (frac (LaTexOutput latex align q)) (append " " (if align && (k <? last) then "\\" else "")))).
  - apply in_map_iff. exists (k, q). split; auto. apply enum_in. auto.
  - apply part_l. rewrite frac_id by apply O. apply part_refl.
Qed.
(** the text of a block: heading, equations *)
Lemma block_split latex align n m last qs : exists rest, block latex align n m last qs = append nls (append (heading latex (n_name n) m) rest)
  /\ forall q, In q qs -> ordinary (LaTexOutput latex align q) -> part (LaTexOutput latex align q) rest.
Proof.
  eexists. split.
  - unfold block, heading. rewrite !append_assoc. reflexivity.
  - intros q Hq O. cbv beta. apply part_r. apply part_l. apply eqn_part; auto.
Qed.

Lemma mapM_is {A B} (f : A -> option B) (g : A -> B) : forall l, (forall a, In a l -> f a = Some (g a)) -> mapM f l = Some (map g l).
Proof. induction l as [|a l IH]; auto. intros H. cbn [mapM map]. rewrite H by (left; auto). rewrite IH by (intros; apply H; right; auto). auto. Qed.

(** * One report *)
Section One.
Variable latex : expr -> string.
Variables (names : node -> list string) (r : robot) (edges : list (string * string)) (groups : list row) (m : matrices) (secs : list string).
Hypothesis Hout : output_latex_solution latex names r edges groups m = Some secs.
Lemma sections : exists gs vs ts, generic_sec latex names (r_nodes r) = Some gs /\ versions_sec latex r = Some vs /\ table_sec groups = Some ts
  /\ secs = [intro false (tex_name r); params_sec (m_dh m); fk_sec false (m_lhs m) (m_cols m); unknowns_sec latex (r_nodes r); gs; vs; edges_sec edges; sets_sec groups; ts; jacobian_sec false (m_jac m)].
Proof.
  unfold output_latex_solution in Hout. destruct (generic_sec latex names (r_nodes r)) as [gs|]; [|discriminate]. destruct (versions_sec latex r) as [vs|]; [|discriminate]. destruct (table_sec groups) as [ts|]; [|discriminate].
  apply some_inj in Hout. exists gs, vs, ts. repeat (split; auto).
Qed.
Lemma block_shown sec t align n mt last qs ts : In sec secs -> sec = append t (concat_s ts) -> In (block latex align n mt last qs) ts ->
  part_on latex (n_name n) mt (map (LaTexOutput latex align) qs) secs.
Proof.
  intros H1 H2 H3. destruct (block_split latex align n mt last qs) as (rest & E & P). exists rest. split.
  - apply (section_shown _ sec); auto. rewrite H2. apply part_r. eapply part_concat. exact H3. rewrite E. apply part_r. apply part_refl.
  - intros x Hx Ox. apply in_map_iff in Hx as (q & <- & Hq). apply P; auto.
Qed.
Lemma solution_part n : In n (r_nodes r) -> n_method n <> "" -> names n = map (solution_name (n_name n)) (seq 0 (List.length (n_sols n))) ->
  part_on latex (n_name n) (n_method n) (map (fun ke => LaTexOutput latex (1 <? n_nsol n) (Keq (Sym (solution_name (n_name n) (fst ke))) (snd ke))) (enum (n_sols n))) secs.
Proof.
  intros Hn Hm L. destruct sections as (gs & vs & ts & G & _ & _ & E). unfold generic_sec in G. destruct (mapM (generic_block latex names) (r_nodes r)) as [bs|] eqn:Eb; [|discriminate]. apply some_inj in G.
  apply In_nth_error in Hn as (k & Hk). apply mapM_some in Eb as [_ Eb]. destruct (Eb k n Hk) as (b & B1 & B2). unfold generic_block in B2. destruct (String.eqb_spec (n_method n) ""); [congruence|].
  erewrite mapM_is in B2.
  2:{ intros ie Hie. destruct ie as [x e]. apply enum_in in Hie. cbn [fst snd]. rewrite L, nth_error_map. assert (Lx := nth_error_some_lt _ _ _ Hie).
      assert (Y : nth_error (seq 0 (List.length (n_sols n))) x = Some x). { rewrite (nth_error_nth' _ 0) by (rewrite seq_length; auto). rewrite seq_nth by auto. reflexivity. }
      rewrite Y. cbn [option_map]. instantiate (1 := fun ie => Keq (Sym (solution_name (n_name n) (fst ie))) (snd ie)). reflexivity. }
  apply some_inj in B2. assert (X := fun t => block_shown gs t (1 <? n_nsol n) n (n_method n) (n_nsol n - 1) (map (fun ie => Keq (Sym (solution_name (n_name n) (fst ie))) (snd ie)) (enum (n_sols n))) bs).
  setoid_rewrite map_map in X. eapply X; [rewrite E; cbn; tauto|symmetry; exact G|]. rewrite B2. eapply nth_error_In; eauto.
Qed.
Lemma version_part n qs : In n (r_nodes r) -> n_method n <> "" -> node_eqns r n = Some qs -> part_on latex (n_name n) (n_method n) (map (LaTexOutput latex true) qs) secs.
Proof.
  intros Hn Hm Hq. destruct sections as (gs & vs & ts & _ & V & _ & E). unfold versions_sec in V. destruct (mapM (version_block latex r) (r_nodes r)) as [bs|] eqn:Eb; [|discriminate]. apply some_inj in V.
  apply In_nth_error in Hn as (k & Hk). apply mapM_some in Eb as [_ Eb]. destruct (Eb k n Hk) as (b & B1 & B2). unfold version_block in B2. destruct (String.eqb_spec (n_method n) ""); [congruence|]. rewrite Hq in B2. apply some_inj in B2.
  eapply (block_shown vs); [rewrite E; cbn; tauto|symmetry; exact V|]. rewrite B2. eapply nth_error_In; eauto.
Qed.
Lemma edge_shown a b : In (a, b) edges -> shown (append "Edge:" (append a (append " depends on: " b))) secs.
Proof.
  intros H. destruct sections as (gs & vs & ts & _ & _ & _ & E). apply (section_shown _ (edges_sec edges)). rewrite E. cbn; tauto. unfold edges_sec. apply part_r. apply part_l. apply In_nth_error in H as (k & Hk).
  apply (part_concat _ (append (edge_repr (a, b)) (if Nat.even (S k) then nls else "     "))). apply in_map_iff. exists (k, (a, b)). split; auto. apply enum_in; auto.
  apply part_l. unfold edge_repr. cbn [fst snd]. apply part4.
Qed.
Lemma unknowns_shown : shown (concat_s (map (fun n => append nls (append "\item {" (append (var_tex latex n) "}"))) (r_nodes r))) secs.
Proof. destruct sections as (gs & vs & ts & _ & _ & _ & E). apply (section_shown _ (unknowns_sec latex (r_nodes r))). rewrite E. cbn; tauto. unfold unknowns_sec. apply part_r. apply part_l. apply part_refl. Qed.
Lemma pose_shown g : In g groups -> shown (tuple_repr g) secs /\ exists t, table_row g = Some t /\ part t (match table_sec groups with Some x => x | None => "" end) /\ shown t secs.
Proof.
  intros H. destruct sections as (gs & vs & ts & _ & _ & T & E). split.
  - apply (section_shown _ (sets_sec groups)). rewrite E. cbn; tauto. unfold sets_sec. apply part_r. apply part_l. apply (part_concat _ (append (tuple_repr g) nls)). apply in_map_iff. eauto. apply part_l. apply part_refl.
  - rewrite T. assert (X : exists t, table_row g = Some t /\ part t ts). { unfold table_sec in T. destruct groups as [|g0 gr] eqn:Eg; [discriminate|]. rewrite <- Eg in *. destruct (mapM table_row groups) as [ls|] eqn:M; [|discriminate]. apply some_inj in T. subst ts.
      apply In_nth_error in H as (k & Hk). apply mapM_some in M as [_ M]. destruct (M k g Hk) as (t & T1 & T2). exists t. split; auto. apply part_r. apply part_r. apply part_r. apply part_l. apply (part_concat _ t). eapply nth_error_In; eauto. apply part_refl. }
    destruct X as (t & T1 & T2). exists t. split; auto. split; auto. apply (section_shown _ ts); auto. rewrite E. cbn; tauto.
Qed.
Lemma matrices_shown : shown (m_dh m) secs /\ shown (m_lhs m) secs /\ (forall c, In c (m_cols m) -> shown c secs) /\ forall c, In c (m_jac m) -> shown c secs.
Proof.
  destruct sections as (gs & vs & ts & _ & _ & _ & E). split; [|split; [|split]].
  - apply (section_shown _ (params_sec (m_dh m))). rewrite E. cbn; tauto. unfold params_sec. apply part_r. apply part_l. apply part_refl.
  - apply (section_shown _ (fk_sec false (m_lhs m) (m_cols m))). rewrite E. cbn; tauto. unfold fk_sec. apply part_r. apply part_l. apply part_refl.
  - intros c Hc. apply (section_shown _ (fk_sec false (m_lhs m) (m_cols m))). rewrite E. cbn; tauto. unfold fk_sec. do 3 apply part_r. apply part_l. apply In_nth_error in Hc as (k & Hk). apply (part_concat _ (column_tex false k c)).
    apply in_map_iff. exists (k, c). split; auto. apply enum_in; auto. unfold column_tex. do 3 apply part_r. apply part_l. apply part_refl.
  - intros c Hc. apply (section_shown _ (jacobian_sec false (m_jac m))). rewrite E. cbn; tauto. unfold jacobian_sec. apply part_r. apply part_l. apply In_nth_error in Hc as (k & Hk).
    eapply part_concat. apply in_map_iff. exists (k, c). split. reflexivity. apply enum_in; auto. cbn [fst snd]. do 3 apply part_r. apply part_l. apply part_refl.
Qed.
End One.

(** * The report of a solved robot *)
Section Solved.
Variables (sy : sympy) (s0 : state) (ts : list (task * bool)) (s : state) (arg : nat -> expr).
Hypothesis HOK : sympy_ok sy.
Hypothesis HCO : forall a, no_new_symbols (sy_coeff sy a).
Hypothesis I : initial sy s0.
Hypothesis R : runs1 sy s0 ts s.
Variables (show latex : expr -> string) (edges : list (string * string)) (mats : matrices) (order : list row -> list row) (vars : list row -> list string) (nm : string) (ps : list (string * string)) (pv : bool) (h : list call) (i : nat) (out : list string).
Hypothesis Rep : report_at show latex edges mats order vars nm ps pv (final_nodes arg s) h i out.
Let nodes := final_nodes arg s.
Lemma no_lhs n : In n nodes -> n_lhs n = [].
Proof. unfold nodes, final_nodes. intros H. apply in_map_iff in H as (j & <- & _). destruct (hinv2_runs sy s0 ts s (hinv_initial sy s0 I) (hinv2_initial sy s0 I) R j) as [_ E]. exact E. Qed.
Lemma reported : output_latex_solution latex solution_names (with_copies nm ps pv nodes (S (reports (firstn i h)))) edges (order (the_table nodes)) mats = Some out /\ make_LHS_versions nodes (the_table nodes) <> None.
Proof.
  destruct Rep as (s' & os & D & H1 & H2). assert (X := C60_outputs show latex edges mats order vars nm ps pv nodes h no_lhs). unfold nodes in *. rewrite D in X. destruct (spec_nth _ _ _ _ _ _ _ _ _ _ h [] os i Report (eq_sym X) H1) as (o & O1 & O2).
  assert (o = out) by congruence. subst o. cbn [app spec_output] in O2. destruct (created (firstn i h)); cbn [negb] in O2; [|discriminate]. destruct (make_LHS_versions (final_nodes arg s) (the_table (final_nodes arg s))); [|discriminate]. split; auto. discriminate.
Qed.
Lemma solved_node j : In j (s_unks s) -> u_solved (un s j) = true -> In (node_of arg s j) nodes /\ u_method (un s j) <> "".
Proof. intros Hj Sj. split. apply in_map. apply (C23_solved_once_in_order sy s0 ts s I R). auto. apply (C75_never_empty sy HOK HCO s0 ts s j I R Sj). Qed.
(** C76: the names under which the solutions are reported are those recorded for the unknown: its own name with s1, s2 *)
Theorem C76_names j : In j (s_unks s) -> u_solved (un s j) = true ->
  u_names (un s j) = map (solution_name (u_sym (un s j))) (seq 0 (List.length (solutions (un s j)))) /\ solution_names (node_of arg s j) = u_names (un s j).
Proof.
  intros Hj Sj. destruct (C24_recorded sy s0 ts s j I R Sj) as (_ & E1 & E2 & _). rewrite E2, E1. split. unfold sol_names. apply map_ext. intros k. unfold solution_name. rewrite append_assoc. reflexivity.
  unfold solution_names, sol_names. cbn [node_of n_name n_sols]. fold (un s j). apply map_ext. intros k. rewrite append_assoc. reflexivity.
Qed.
(** C76: for every solved unknown the report has a part headed by its name and its (non-empty) solution method that shows every solution of
    the unknown: solution k as an equation whose left side is the k-th recorded solution name. *)
Theorem C76_solutions j : In j (s_unks s) -> u_solved (un s j) = true ->
  u_method (un s j) <> ""
  /\ part_on latex (u_sym (un s j)) (u_method (un s j))
       (map (fun ke => LaTexOutput latex (1 <? List.length (solutions (un s j))) (Keq (Sym (solution_name (u_sym (un s j)) (fst ke))) (snd ke))) (enum (solutions (un s j)))) out.
Proof.
  intros Hj Sj. destruct (solved_node j Hj Sj) as (Hn & Hm). split; auto. destruct reported as (Ho & _). destruct (C76_names j Hj Sj) as (N1 & N2). destruct (C24_recorded sy s0 ts s j I R Sj) as (_ & E1 & _).
  assert (X := solution_part _ _ _ _ _ _ _ Ho (node_of arg s j) Hn Hm). cbn [node_of n_name n_sols n_nsol n_method] in X. fold (un s j) in X. rewrite E1 in X. apply X. rewrite <- N1. exact N2.
Qed.
(** C76: and a part that shows every version of it: in every row of the table of poses, the equation that computes the unknown. *)
Theorem C76_versions c n F : nth_error nodes c = Some n -> make_LHS_versions nodes (create_solution_set nodes) = Some F ->
  exists qs, part_on latex (n_name n) (n_method n) (map (LaTexOutput latex true) qs) out /\ forall k eqs q, nth_error F k = Some eqs -> nth_error eqs c = Some q -> In q qs.
Proof.
  intros Hc HF. destruct (final_order sy s0 ts s arg c n I R Hc) as (Eo & j & Sj & En). destruct reported as (Ho & _). assert (Hn := nth_error_In _ _ Hc).
  assert (Hm : n_method n <> ""). { rewrite En. apply (C75_never_empty sy HOK HCO s0 ts s j I R Sj). }
  destruct (sections _ _ _ _ _ _ _ Ho) as (gs & vs & t & _ & V & _). unfold versions_sec in V. destruct (mapM _ (r_nodes _)) as [bs|] eqn:Eb; [|discriminate]. apply mapM_some in Eb as [_ Eb]. destruct (Eb c n Hc) as (b & _ & B2).
  unfold version_block in B2. destruct (String.eqb_spec (n_method n) ""); [congruence|]. destruct (node_eqns (with_copies nm ps pv nodes (S (reports (firstn i h)))) n) as [qs|] eqn:Q; [|discriminate].
  exists qs. split. { eapply version_part; eauto. } intros k eqs q Hk Hq. unfold node_eqns in Q. apply mapM_some in Q as [_ Q].
  assert (K : nth_error (r_eqns (with_copies nm ps pv nodes (S (reports (firstn i h))))) k = Some eqs).
  { cbn [with_copies r_eqns repeat List.concat]. unfold the_eqns, the_table. rewrite HF. rewrite nth_error_app1; auto. eapply nth_error_some_lt; eauto. }
  destruct (Q k eqs K) as (q' & Q1 & Q2). rewrite Eo, Nat.sub_succ, Nat.sub_0_r in Q2. assert (q' = q) by congruence. subst. eapply nth_error_In; eauto.
Qed.
(** C76: every dependency is reported: if a solution of one unknown mentions another unknown, the list of edges says so. *)
Theorem C76_dependencies j d : (forall e, In e (s_edges s) -> In e edges) -> In j (s_unks s) -> u_solved (un s j) = true -> In d (s_unks s) -> mentions s j d ->
  shown (append "Edge:" (append (u_sym (un s j)) (append " depends on: " (u_sym (un s d))))) out.
Proof.
  intros He Hj Sj Hd (e & E1 & E2). destruct reported as (Ho & _). apply (edge_shown _ _ _ _ _ _ _ Ho). apply He. apply (C23_edges sy s0 ts s I R).
  destruct (C24_recorded sy s0 ts s j I R Sj) as (_ & _ & _ & D & _). assert (X : In (u_sym (un s d)) (map (fun d => u_sym (un s d)) (u_deps (un s j)))). { apply D. split; eauto. apply in_map_iff. eauto. }
  apply in_map_iff in X as (d' & X1 & X2). exists j, d'. split; auto. apply (C23_solved_once_in_order sy s0 ts s I R). auto.
Qed.
(** C76: the list of unknowns is exactly the list of the solved unknowns, in the order in which they were solved. *)
Theorem C76_unknowns : shown (concat_s (map (fun j => append nls (append "\item {" (append (var_tex latex (node_of arg s j)) "}"))) (s_nodes s))) out.
Proof. destruct reported as (Ho & _). assert (X := unknowns_shown _ _ _ _ _ _ _ Ho). cbn [with_copies r_nodes] in X. unfold nodes, final_nodes in X. rewrite map_map in X. exact X. Qed.
(** C76: every pose of the table is listed, once as a tuple and once as a row of the LaTeX table. *)
Theorem C76_poses g : (forall t x, In x t -> In x (order t)) -> In g (create_solution_set nodes) -> shown (tuple_repr g) out /\ exists t, table_row g = Some t /\ shown t out.
Proof. intros Ho Hg. destruct reported as (E & _). destruct (pose_shown _ _ _ _ _ _ _ E g) as (A & t & B & _ & C). apply Ho. exact Hg. split; auto. exists t. auto. Qed.
(** C76: the texts of the parameters, of both sides of the forward kinematics and of the Jacobian are shown. *)
Theorem C76_matrices : shown (m_dh mats) out /\ shown (m_lhs mats) out /\ (forall c, In c (m_cols mats) -> shown c out) /\ forall c, In c (m_jac mats) -> shown c out.
Proof. destruct reported as (E & _). apply (matrices_shown _ _ _ _ _ _ _ E). Qed.
End Solved.
Print Assumptions C76_names.
Print Assumptions C76_solutions.
Print Assumptions C76_versions.
Print Assumptions C76_dependencies.
Print Assumptions C76_unknowns.
Print Assumptions C76_poses.
Print Assumptions C76_matrices.
