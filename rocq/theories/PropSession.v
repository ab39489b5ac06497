(** C60: the generators in any order and repeatedly. *)
From Coq Require Import Reals ZArith List String Ascii Bool Arith Lia.
From Verif Require Import Expr Kin Solver SolSet SolSetFacts PropSolSet PropHist CodeGen CppFacts PropCpp PropEmit PropLine PyFile PropPy Latex PropLatex Session.
Import ListNotations.
Local Open Scope string_scope.
Local Open Scope list_scope.
Local Open Scope nat_scope.

(** * create_solution_set can be repeated *)
Definition unnamed (n : node) : node := Node (n_name n) (n_method n) (n_arg n) (n_order n) (n_nsol n) (n_vers n) (n_sols n) [].
Lemma add_col_named name : forall t i lhs, (forall j, i <= j -> j < i + List.length t -> j < List.length lhs /\ nth j lhs "" = vname name (S j)) ->
  forall k, nth_error (add_col name i lhs t) k = match nth_error t k with None => None | Some r => Some (r ++ [vname name (S (i + k))]) end.
Proof.
  induction t as [|r t IH]; intros i lhs H k. { destruct k; reflexivity. } cbn [add_col]. destruct (H i) as [A B]; try (cbn [List.length]; lia).
  destruct k as [|k]; cbn [nth_error]. { rewrite app_nth1, B by auto. rewrite Nat.add_0_r. reflexivity. }
  rewrite IH. { replace (S i + k) with (i + S k) by lia. reflexivity. } intros j J1 J2. destruct (H j) as [C D]; try (cbn [List.length]; lia). rewrite app_length, app_nth1 by auto. split; auto. lia.
Qed.
Lemma nth_error_ext {A} (a b : list A) : (forall k, nth_error a k = nth_error b k) -> a = b.
Proof. revert b. induction a as [|x a IH]; intros [|y b] H; auto. specialize (H 0); discriminate. specialize (H 0); discriminate. f_equal. specialize (H 0). injection H; auto. apply IH. intros k. apply (H (S k)). Qed.
(** [ns'] is [ns] (no version names) with the version names of some earlier calls *)
Inductive again : list row -> list node -> list node -> Prop :=
| ag_nil t : again t [] []
| ag_cons t n n' ns ns' m : unnamed n' = unnamed n -> n_lhs n = [] -> n_lhs n' = List.concat (repeat (version_names (n_name n) (List.length (node_step t n))) m) -> (t = [] -> m = 0) ->
    again (node_step t n) ns ns' -> again t (n :: ns) (n' :: ns').
Lemma again_refl ns : forall t, (forall n, In n ns -> n_lhs n = []) -> again t ns ns.
Proof. induction ns as [|n ns IH]; intros t H. constructor. apply ag_cons with 0; auto. apply H; left; auto. rewrite H by (left; auto). reflexivity. apply IH. intros; apply H; right; auto. Qed.
Lemma again_step t n n' m : unnamed n' = unnamed n -> n_lhs n = [] -> n_lhs n' = List.concat (repeat (version_names (n_name n) (List.length (node_step t n))) m) -> (t = [] -> m = 0) -> node_step t n' = node_step t n.
Proof.
  intros U L L' M. assert (E1 : n_name n' = n_name n) by exact (f_equal n_name U). assert (E2 : n_nsol n' = n_nsol n) by exact (f_equal n_nsol U). assert (E3 : n_vers n' = n_vers n) by exact (f_equal n_vers U). destruct t as [|r0 t]. { rewrite !node_step_first, E3. auto. }
  assert (NE : r0 :: t <> []) by discriminate. destruct m as [|m].
  - cbn in L'. rewrite !node_step_next by auto. rewrite L, L', E1, E2. auto.
  - apply nth_error_ext. intros k. rewrite (step_nth _ n) by auto. rewrite (node_step_next _ n') by auto. rewrite E1, E2. rewrite add_col_named. reflexivity.
    intros j J1 J2. rewrite L'. cbn [repeat List.concat]. rewrite twice_len in J2. rewrite step_len by auto. rewrite app_length. unfold version_names. rewrite map_length, seq_length. split; [lia|].
    rewrite app_nth1 by (rewrite map_length, seq_length; lia). rewrite (nth_indep _ "" (vname (n_name n) 1)) by (rewrite map_length, seq_length; lia). rewrite (map_nth (fun i => vname (n_name n) (S i)) _ 0), seq_nth by lia. reflexivity.
Qed.
Lemma again_fold t ns ns' : again t ns ns' -> fold_left node_step ns' t = fold_left node_step ns t.
Proof. induction 1 as [t|t n n' ns ns' m U L L' M A IH]; auto. cbn [fold_left]. rewrite (again_step t n n' m); auto. Qed.
Lemma concat_repeat_snoc {A} (l : list A) m : List.concat (repeat l m) ++ l = List.concat (repeat l (S m)).
Proof. induction m as [|m IH]. cbn. rewrite app_nil_r. auto. change (repeat l (S m)) with (l :: repeat l m). cbn [List.concat]. rewrite <- app_assoc, IH. reflexivity. Qed.
Lemma again_create t ns ns' : again t ns ns' -> again t ns (create_nodes t ns').
Proof.
  induction 1 as [t|t n n' ns ns' m U L L' M A IH]; cbn [create_nodes]. constructor. assert (E := again_step t n n' m U L L' M). rewrite E. destruct t as [|r0 t].
  - apply ag_cons with m; auto.
  - change (0 <? List.length (r0 :: t)) with true. cbv iota. apply ag_cons with (S m); auto; try discriminate. unfold add_lhs. cbn [n_lhs]. assert (E1 : n_name n' = n_name n) by exact (f_equal n_name U). rewrite L', E1. apply concat_repeat_snoc.
Qed.
Lemma again_unnamed t ns ns' : again t ns ns' -> map unnamed ns' = map unnamed ns.
Proof. induction 1; auto. cbn [map]. congruence. Qed.
(** C60: calling create_solution_set any number of times gives the same table every time. *)
Theorem C60_table_again nodes k : (forall n, In n nodes -> n_lhs n = []) -> create_solution_set (Nat.iter k (create_nodes []) nodes) = create_solution_set nodes.
Proof.
  intros H. assert (A : again [] nodes (Nat.iter k (create_nodes []) nodes)). { induction k as [|k IH]; cbn. apply again_refl; auto. apply again_create; auto. }
  apply (again_fold _ _ _ A).
Qed.

(** * Version names do not matter to the generators *)
Lemma mapM_ext_map {A B C} (f : A -> option C) (g : B -> option C) (h : B -> A) : (forall b, f (h b) = g b) -> forall l, mapM f (map h l) = mapM g l.
Proof. intros E. induction l as [|b l IH]; auto. cbn [map mapM]. rewrite E, IH. auto. Qed.
Lemma mapM_unnamed {C} (f g : node -> option C) : (forall n, f (unnamed n) = g n) -> (forall n, f (unnamed n) = f n) -> forall l l', map unnamed l' = map unnamed l -> mapM g l' = mapM f l.
Proof. intros E F l l' H. rewrite <- (mapM_ext_map f g unnamed E), H. apply mapM_ext_map. auto. Qed.
Section Gen.
Variable show latex : expr -> string.
Lemma python_unnamed nm ps pv ns ns' eqs groups : map unnamed ns' = map unnamed ns -> output_python_code show (Robot nm ps pv ns' eqs) groups = output_python_code show (Robot nm ps pv ns eqs) groups.
Proof. intros H. unfold output_python_code. cbn [r_nodes]. rewrite (mapM_unnamed (py_node show (Robot nm ps pv ns eqs)) (py_node show (Robot nm ps pv ns' eqs)) (fun n => eq_refl) (fun n => eq_refl) ns ns' H). reflexivity. Qed.
Lemma cpp_unnamed nm ps pv ns ns' eqs vs groups : map unnamed ns' = map unnamed ns -> output_cpp_code show (Robot nm ps pv ns' eqs) vs groups = output_cpp_code show (Robot nm ps pv ns eqs) vs groups.
Proof.
  intros H. unfold output_cpp_code, cpp_cmds. cbn [r_nodes r_params].
  rewrite (mapM_unnamed (fun n => match node_eqns (Robot nm ps pv ns eqs) n with None => None | Some qs => Some (cpp_node show n qs) end) (fun n => match node_eqns (Robot nm ps pv ns' eqs) n with None => None | Some qs => Some (cpp_node show n qs) end) (fun n => eq_refl) (fun n => eq_refl) ns ns' H). reflexivity.
Qed.
Lemma latex_unnamed nm ps pv ns ns' eqs edges groups m : map unnamed ns' = map unnamed ns -> output_latex_solution latex solution_names (Robot nm ps pv ns' eqs) edges groups m = output_latex_solution latex solution_names (Robot nm ps pv ns eqs) edges groups m.
Proof.
  intros H. unfold output_latex_solution, generic_sec, versions_sec. cbn [r_nodes].
  rewrite (mapM_unnamed (generic_block latex solution_names) (generic_block latex solution_names) (fun n => eq_refl) (fun n => eq_refl) ns ns' H).
  rewrite (mapM_unnamed (version_block latex (Robot nm ps pv ns eqs)) (version_block latex (Robot nm ps pv ns' eqs)) (fun n => eq_refl) (fun n => eq_refl) ns ns' H).
  assert (U : unknowns_sec latex ns' = unknowns_sec latex ns). { unfold unknowns_sec. do 3 f_equal. replace (map (fun n => append nls (append "\item {" (append (var_tex latex n) "}"))) ns') with (map (fun n => append nls (append "\item {" (append (var_tex latex n) "}"))) (map unnamed ns')) by (rewrite map_map; reflexivity). rewrite H, map_map. reflexivity. }
  rewrite U. reflexivity.
Qed.
End Gen.
Lemma enum_map {A B} (f : A -> B) (l : list A) : enum (map f l) = map (fun p => (fst p, f (snd p))) (enum l).
Proof. unfold enum. rewrite map_length. generalize 0. induction l as [|a l IH]; intros n; auto. cbn. rewrite IH. auto. Qed.
Lemma mapM_same {A B} (f g : A -> option B) : (forall a, f a = g a) -> forall l, mapM f l = mapM g l.
Proof. intros E. induction l as [|a l IH]; auto. cbn [mapM]. rewrite E, IH. auto. Qed.
Lemma subdict_unnamed l r : subdict (map unnamed l) r = subdict l r.
Proof. unfold subdict. rewrite enum_map. apply mapM_ext_map. intros [i n]. reflexivity. Qed.
Lemma version_eqn_unnamed l q k d c : version_eqn (map unnamed l) q k d c = version_eqn l q k d c.
Proof. unfold version_eqn. rewrite nth_error_map. destruct (nth_error l c); reflexivity. Qed.
Lemma version_row_unnamed l q w kr : version_row (map unnamed l) q w kr = version_row l q w kr.
Proof. unfold version_row. rewrite subdict_unnamed. destruct (subdict l (snd kr)); auto. apply mapM_same. intros c. apply version_eqn_unnamed. Qed.
Lemma versions_unnamed ns ns' t : map unnamed ns' = map unnamed ns -> make_LHS_versions ns' t = make_LHS_versions ns t.
Proof.
  assert (X : forall l, make_LHS_versions (map unnamed l) t = make_LHS_versions l t).
  { intros l. unfold make_LHS_versions. destruct t as [|r0 t']; auto. rewrite <- map_rev.
    assert (E : match map unnamed (rev l) with [] => 0 | n :: _ => n_nsol n end = match rev l with [] => 0 | n :: _ => n_nsol n end) by (destruct (rev l); reflexivity).
    rewrite E. apply mapM_same. intros kr. apply version_row_unnamed. }
  intros H. rewrite <- (X ns'), H. apply X.
Qed.

(** * The specification: what a call writes, given the calls made before it *)
Definition is_create (c : call) : bool := match c with Create => true | _ => false end.
Definition is_report (c : call) : bool := match c with Report => true | _ => false end.
(** how many reports were made *)
Definition reports (h : list call) : nat := List.length (filter is_report h).
Definition created (h : list call) : bool := existsb is_create h.
(** the fields a solved robot has after ikbt.tick and before the calls *)
Definition solved_robot (nm : string) (ps : list (string * string)) (pv : bool) (nodes : list node) : session := Session nm ps pv nodes None [].
Section Hist.
Variable show latex : expr -> string.
Variable edges : list (string * string).
Variable mats : matrices.
Variable order : list row -> list row.
Variable vars : list row -> list string.
Variable nm : string.
Variable ps : list (string * string).
Variable pv : bool.
Variable nodes : list node.
Definition the_table : list row := create_solution_set nodes.
(** the version equations of one report, and a robot that holds [k] copies of them *)
Definition the_eqns : list (list kequation) := match make_LHS_versions nodes the_table with Some F => F | None => [] end.
Definition with_copies (k : nat) : robot := Robot nm ps pv nodes (List.concat (repeat the_eqns k)).
(** the text of a call after the history [p]: it depends on [p] only through the number of reports; None: an exception *)
Definition spec_output (p : list call) (c : call) : option (list string) :=
  match c with
  | Create => Some []
  | _ => if negb (created p) then None else
    match c with
    | Report => match make_LHS_versions nodes the_table with
                | None => None
                | Some _ => output_latex_solution latex solution_names (with_copies (S (reports p))) edges (order the_table) mats
                end
    | Python => output_python_code show (with_copies (reports p)) (order the_table)
    | _ => match output_cpp_code show (with_copies (reports p)) (vars the_table) (order the_table) with Some o => Some (c_out o) | None => None end
    end
  end.
Fixpoint spec_outputs (p h : list call) : option (list (list string)) :=
  match h with
  | [] => Some []
  | c :: h' => match spec_output p c with None => None | Some o => match spec_outputs (p ++ [c]) h' with None => None | Some os => Some (o :: os) end end
  end.
(** the state after the history [p] *)
Definition inv (p : list call) (s : session) : Prop :=
  ss_name s = nm /\ ss_params s = ps /\ ss_pvals s = pv /\ again [] nodes (ss_nodes s) /\ ss_table s = (if created p then Some the_table else None)
  /\ ss_eqns s = List.concat (repeat the_eqns (reports p)).
Lemma reports_snoc p c : reports (p ++ [c]) = reports p + (if is_report c then 1 else 0).
Proof. unfold reports. rewrite filter_app, app_length. cbn [filter]. destruct (is_report c); reflexivity. Qed.
Lemma created_snoc p c : created (p ++ [c]) = created p || is_create c.
Proof. unfold created. rewrite existsb_app. cbn [existsb]. rewrite orb_false_r. auto. Qed.
Lemma inv_step p s c : inv p s ->
  match do_call show latex edges mats order vars s c with
  | None => spec_output p c = None
  | Some (s', o) => spec_output p c = Some o /\ inv (p ++ [c]) s'
  end.
Proof.
  intros (I1 & I2 & I3 & I4 & I5 & I6). assert (U := again_unnamed _ _ _ I4). destruct s as [nm' ps' pv' ns t eqs]. cbn [ss_name ss_params ss_pvals ss_nodes ss_table ss_eqns] in *. subst nm' ps' pv'. unfold inv. rewrite reports_snoc, created_snoc.
  assert (T : create_solution_set ns = the_table) by apply (again_fold _ _ _ I4).
  destruct c; unfold do_call, spec_output; cbn [ss_name ss_params ss_pvals ss_nodes ss_table ss_eqns is_report is_create].
  - split; auto. rewrite orb_true_r, T, Nat.add_0_r. repeat (split; auto). apply again_create; auto.
  - rewrite I5. destruct (created p); cbn [negb]; auto. rewrite (versions_unnamed _ _ the_table U). unfold robot_of. cbn [ss_name ss_params ss_pvals ss_nodes ss_table ss_eqns].
    destruct (make_LHS_versions nodes the_table) as [F|] eqn:E; auto. rewrite (latex_unnamed latex nm ps pv nodes ns _ edges (order the_table) mats U).
    assert (EF : the_eqns = F) by (unfold the_eqns; rewrite E; auto). assert (EQ : eqs ++ F = List.concat (repeat the_eqns (S (reports p)))). { rewrite I6, EF. apply concat_repeat_snoc. }
    rewrite EQ. fold (with_copies (S (reports p))). destruct (output_latex_solution latex solution_names (with_copies (S (reports p))) edges (order the_table) mats); auto. split; auto. cbn [orb]. rewrite Nat.add_1_r. repeat (split; auto).
  - rewrite I5. destruct (created p); cbn [negb]; auto. unfold robot_of. cbn [ss_name ss_params ss_pvals ss_nodes ss_table ss_eqns]. rewrite (python_unnamed show nm ps pv nodes ns _ _ U), I6. fold (with_copies (reports p)).
    destruct (output_python_code show (with_copies (reports p)) (order the_table)); auto. split; auto. cbn [orb]. rewrite Nat.add_0_r. repeat (split; auto).
  - rewrite I5. destruct (created p); cbn [negb]; auto. unfold robot_of. cbn [ss_name ss_params ss_pvals ss_nodes ss_table ss_eqns]. rewrite (cpp_unnamed show nm ps pv nodes ns _ _ _ U), I6. fold (with_copies (reports p)).
    destruct (output_cpp_code show (with_copies (reports p)) (vars the_table) (order the_table)); auto. split; auto. cbn [orb]. rewrite Nat.add_0_r. repeat (split; auto).
Qed.
Lemma inv_run h : forall p s, inv p s ->
  match do_calls show latex edges mats order vars s h with
  | None => spec_outputs p h = None
  | Some (s', os) => spec_outputs p h = Some os /\ inv (p ++ h) s'
  end.
Proof.
  induction h as [|c h IH]; intros p s I; cbn [do_calls spec_outputs]. { rewrite app_nil_r. auto. }
  assert (X := inv_step p s c I). destruct (do_call show latex edges mats order vars s c) as [[s1 o]|]; [|rewrite X; auto]. destruct X as [X1 X2]. rewrite X1.
  specialize (IH _ _ X2). destruct (do_calls show latex edges mats order vars s1 h) as [[s2 os]|]. destruct IH as [-> I2]. rewrite <- app_assoc in I2. auto. rewrite IH. auto.
Qed.
Lemma inv_start : (forall n, In n nodes -> n_lhs n = []) -> inv [] (solved_robot nm ps pv nodes).
Proof. intros H. unfold inv, solved_robot. cbn. repeat (split; auto). apply again_refl; auto. Qed.
(** C60: whatever calls are made in whatever order, the texts written are those of the specification, and an exception is
    raised exactly when the specification says so. *)
Theorem C60_outputs h : (forall n, In n nodes -> n_lhs n = []) ->
  match do_calls show latex edges mats order vars (solved_robot nm ps pv nodes) h with Some (_, os) => Some os | None => None end = spec_outputs [] h.
Proof. intros H. assert (X := inv_run h [] _ (inv_start H)). destruct (do_calls _ _ _ _ _ _ _ h) as [[s os]|]; [destruct X as [X _]|]; auto. Qed.
(** C60: the fields afterwards: the table is that of one create_solution_set, FinalEqnMatrix holds one copy of the version
    equations per report. *)
Theorem C60_state h s os : (forall n, In n nodes -> n_lhs n = []) -> do_calls show latex edges mats order vars (solved_robot nm ps pv nodes) h = Some (s, os) ->
  ss_table s = (if created h then Some the_table else None) /\ ss_eqns s = List.concat (repeat the_eqns (reports h)) /\ map unnamed (ss_nodes s) = map unnamed nodes.
Proof. intros H E. assert (X := inv_run h [] _ (inv_start H)). rewrite E in X. destruct X as [_ (_ & _ & _ & A & B & C)]. split; auto. split; auto. apply again_unnamed with []; auto. Qed.
Lemma spec_nth h : forall p os k c, spec_outputs p h = Some os -> nth_error h k = Some c -> exists o, nth_error os k = Some o /\ spec_output (p ++ firstn k h) c = Some o.
Proof.
  induction h as [|c0 h IH]; intros p os k c E K. destruct k; discriminate. cbn [spec_outputs] in E. destruct (spec_output p c0) as [o|] eqn:E0; [|discriminate]. destruct (spec_outputs (p ++ [c0]) h) as [os'|] eqn:E1; [|discriminate]. apply some_inj in E. subst os.
  destruct k as [|k]; cbn [nth_error firstn] in *. { apply some_inj in K. subst c0. rewrite app_nil_r. eauto. } destruct (IH _ _ _ _ E1 K) as (o' & A & B). exists o'. split; auto. rewrite <- app_assoc in B. exact B.
Qed.
(** C60: two calls of a code generator with the same number of reports before them write the same file, whatever else was
    called in between. *)
Theorem C60_same_file h s os i j c oi oj : (forall n, In n nodes -> n_lhs n = []) -> do_calls show latex edges mats order vars (solved_robot nm ps pv nodes) h = Some (s, os) ->
  c = Python \/ c = Cplusplus -> nth_error h i = Some c -> nth_error h j = Some c -> nth_error os i = Some oi -> nth_error os j = Some oj ->
  reports (firstn i h) = reports (firstn j h) -> oi = oj.
Proof.
  intros H E C Hi Hj Oi Oj R. assert (X := inv_run h [] _ (inv_start H)). rewrite E in X. destruct X as [X _].
  destruct (spec_nth h [] os i c X Hi) as (a & A1 & A2). destruct (spec_nth h [] os j c X Hj) as (b & B1 & B2). cbn [app] in *.
  assert (a = b); [|congruence]. unfold spec_output in A2, B2. destruct C as [-> | ->]; destruct (created (firstn i h)), (created (firstn j h)); cbn [negb] in A2, B2; try discriminate; rewrite R in A2; congruence.
Qed.
(** C60: a generator that runs before create_solution_set raises. *)
Theorem C60_needs_table h c : c <> Create -> created h = false -> do_calls show latex edges mats order vars (solved_robot nm ps pv nodes) (h ++ [c]) = None.
Proof.
  intros C. assert (Y : forall h s, ss_table s = None -> created h = false -> do_calls show latex edges mats order vars s (h ++ [c]) = None). 2:{ apply Y. reflexivity. }
  clear h. induction h as [|c0 h IH]; intros s T H; cbn [app do_calls]. { unfold do_call. rewrite T. destruct c; auto. congruence. } unfold do_call. rewrite T. destruct c0; auto. cbn in H. discriminate.
Qed.
(** C60: without a report before it, a generated program contains nothing of the solutions: it is the same whatever the
    solutions, their methods and the printer are. *)
Definition other (n n' : node) : Prop := n_name n' = n_name n.
Lemma no_py show1 show2 ns1 : forall ns2, Forall2 other ns1 ns2 -> forall r1 r2, r_eqns r1 = [] -> r_eqns r2 = [] -> mapM (py_node show1 r1) ns1 = mapM (py_node show2 r2) ns2.
Proof. intros ns2 F r1 r2 E1 E2. induction F as [|n n' l l' O F IH]; auto. cbn [mapM]. rewrite IH. unfold py_node, node_eqns. rewrite E1, E2. cbn [mapM]. rewrite O. reflexivity. Qed.
Lemma no_cpp show1 show2 ns1 : forall ns2, Forall2 other ns1 ns2 -> forall r1 r2, r_eqns r1 = [] -> r_eqns r2 = [] ->
  mapM (fun n => match node_eqns r1 n with None => None | Some qs => Some (cpp_node show1 n qs) end) ns1 = mapM (fun n => match node_eqns r2 n with None => None | Some qs => Some (cpp_node show2 n qs) end) ns2.
Proof. intros ns2 F r1 r2 E1 E2. induction F as [|n n' l l' O F IH]; auto. cbn [mapM]. rewrite IH. unfold node_eqns. rewrite E1, E2. cbn [mapM]. unfold cpp_node, enum. cbn. rewrite O. reflexivity. Qed.
End Hist.
(** C60: without a report before it, a generated program holds none of the solutions: any other robot with the same
    unknowns, table and parameters - whatever its solutions, methods, and however they are printed - gets the same file. *)
Theorem C60_no_report_refuted nm ps pv nodes1 nodes2 show1 show2 latex edges mats order vars h c s1 s2 os1 os2 o1 o2 :
  (forall n, In n nodes1 -> n_lhs n = []) -> (forall n, In n nodes2 -> n_lhs n = []) -> map n_name nodes1 = map n_name nodes2 -> create_solution_set nodes1 = create_solution_set nodes2 ->
  c = Python \/ c = Cplusplus -> reports h = 0 ->
  do_calls show1 latex edges mats order vars (solved_robot nm ps pv nodes1) (h ++ [c]) = Some (s1, os1) -> do_calls show2 latex edges mats order vars (solved_robot nm ps pv nodes2) (h ++ [c]) = Some (s2, os2) ->
  nth_error os1 (List.length h) = Some o1 -> nth_error os2 (List.length h) = Some o2 -> o1 = o2.
Proof.
  intros L1 L2 N T C R E1 E2 O1 O2. assert (X1 := inv_run show1 latex edges mats order vars nm ps pv nodes1 (h ++ [c]) [] _ (inv_start nm ps pv nodes1 L1)). rewrite E1 in X1. destruct X1 as [X1 _].
  assert (X2 := inv_run show2 latex edges mats order vars nm ps pv nodes2 (h ++ [c]) [] _ (inv_start nm ps pv nodes2 L2)). rewrite E2 in X2. destruct X2 as [X2 _].
  assert (K : nth_error (h ++ [c]) (List.length h) = Some c) by (rewrite nth_error_app2, Nat.sub_diag by auto; reflexivity).
  destruct (spec_nth _ _ _ _ _ _ _ _ _ _ _ _ _ _ _ X1 K) as (a & A1 & A2). destruct (spec_nth _ _ _ _ _ _ _ _ _ _ _ _ _ _ _ X2 K) as (b & B1 & B2). cbn [app] in A2, B2. rewrite firstn_app, Nat.sub_diag, firstn_all in A2, B2. cbn [firstn] in A2, B2. rewrite app_nil_r in A2, B2.
  assert (a = b); [|congruence]. assert (F : Forall2 other nodes1 nodes2). { clear - N. revert nodes2 N. induction nodes1 as [|n l IH]; intros [|n' l'] N; try discriminate; constructor. injection N; unfold other; auto. apply IH. injection N; auto. }
  unfold spec_output, the_table in A2, B2. rewrite T in A2. destruct C as [-> | ->]; destruct (created h); cbn [negb] in A2, B2; try discriminate; unfold with_copies in A2, B2; rewrite R in A2, B2; cbn [repeat List.concat] in A2, B2.
  - unfold output_python_code in A2, B2. cbn [r_nodes] in A2, B2. rewrite (no_py show1 show2 _ _ F (Robot nm ps pv nodes1 []) (Robot nm ps pv nodes2 []) eq_refl eq_refl) in A2. destruct (mapM (py_node show2 (Robot nm ps pv nodes2 [])) nodes2); [|discriminate]. change (py_head (Robot nm ps pv nodes1 [])) with (py_head (Robot nm ps pv nodes2 [])) in A2. exact (some_inj _ _ (eq_trans (eq_sym A2) B2)).
  - unfold output_cpp_code, cpp_cmds in A2, B2. cbn [r_nodes] in A2, B2. rewrite (no_cpp show1 show2 _ _ F (Robot nm ps pv nodes1 []) (Robot nm ps pv nodes2 []) eq_refl eq_refl) in A2.
    destruct (mapM _ nodes2); [|discriminate]. unfold fixed_name in A2, B2. cbn [r_name r_params] in A2, B2. congruence.
Qed.

(** * A second report *)
Lemma enum_app {A} (l l' : list A) : enum (l ++ l') = enum l ++ combine (seq (List.length l) (List.length l')) l'.
Proof.
  unfold enum. rewrite app_length. assert (X : forall l n, combine (seq n (List.length l + List.length l')) (l ++ l') = combine (seq n (List.length l)) l ++ combine (seq (n + List.length l) (List.length l')) l').
  { clear l. induction l as [|a l IH]; intros n; cbn [List.length Nat.add app seq combine]. rewrite Nat.add_0_r; auto. rewrite IH. replace (n + S (List.length l)) with (S n + List.length l) by lia. reflexivity. } apply X.
Qed.
Lemma concat_s_app a b : concat_s (a ++ b) = append (concat_s a) (concat_s b).
Proof. induction a as [|x a IH]; auto. cbn [app concat_s]. rewrite IH, append_assoc. auto. Qed.
Lemma concat_s_len (l : list string) : String.length (concat_s l) = list_sum (map String.length l).
Proof. induction l as [|x l IH]; auto. cbn [concat_s map list_sum fold_right]. rewrite str_len_app, IH. auto. Qed.
Lemma sum_le {A} (f g : A -> nat) l : (forall a, In a l -> f a <= g a) -> list_sum (map f l) <= list_sum (map g l).
Proof. induction l as [|a l IH]; intros H; auto. cbn [map list_sum fold_right]. assert (X := H a (or_introl eq_refl)). assert (Y := IH (fun b Hb => H b (or_intror Hb))). unfold list_sum in Y. lia. Qed.
Section Twice.
Variable latex : expr -> string.
Definition line_len (last : nat) (iq : nat * kequation) : nat := String.length (append (frac (LaTexOutput latex true (snd iq))) (append " " (if true && (fst iq <? last) then "\\" else ""))).
Lemma line_len_mono m n iq : m <= n -> line_len m iq <= line_len n iq.
Proof. intros H. unfold line_len. rewrite !str_len_app. destruct (fst iq <? m) eqn:A, (fst iq <? n) eqn:B; cbn; try lia. apply Nat.ltb_lt in A. apply Nat.ltb_ge in B. lia. Qed.
Lemma eqn_lines_len last qs : String.length (eqn_lines latex true last qs) = list_sum (map (line_len last) (enum qs)).
Proof. unfold eqn_lines. rewrite concat_s_len, map_map. reflexivity. Qed.
Lemma eqn_lines_more m n qs qs' : m <= n -> qs' <> [] -> String.length (eqn_lines latex true m qs) < String.length (eqn_lines latex true n (qs ++ qs')).
Proof.
  intros H N. rewrite !eqn_lines_len, enum_app, map_app, list_sum_app. assert (A := sum_le (line_len m) (line_len n) (enum qs) (fun iq _ => line_len_mono m n iq H)).
  destruct qs' as [|q qs']; [congruence|]. cbn [List.length seq combine map list_sum fold_right]. unfold line_len at 3. rewrite !str_len_app. cbn [String.length]. lia.
Qed.
Lemma block_more n m m' qs qs' : m <= m' -> qs' <> [] -> String.length (block latex true n (n_method n) m qs) < String.length (block latex true n (n_method n) m' (qs ++ qs')).
Proof. intros H N. unfold block. rewrite !str_len_app. assert (X := eqn_lines_more m m' qs qs' H N). lia. Qed.
Lemma mapM_app {A B} (f : A -> option B) l l' : mapM f (l ++ l') = match mapM f l, mapM f l' with Some a, Some b => Some (a ++ b) | _, _ => None end.
Proof. induction l as [|a l IH]; cbn [app mapM]. destruct (mapM f l'); auto. destruct (f a); auto. rewrite IH. destruct (mapM f l), (mapM f l'); auto. Qed.
Lemma mapM_len2 {A B} (f : A -> option B) l l' : mapM f l = Some l' -> List.length l' = List.length l.
Proof. revert l'. induction l as [|a l IH]; cbn [mapM]; intros l' H. injection H as <-. auto. destruct (f a); [|discriminate]. destruct (mapM f l); [|discriminate]. injection H as <-. cbn. rewrite (IH _ eq_refl). auto. Qed.
Lemma sections_more nm ps pv ns F G : F <> [] -> forall l b1 b2, mapM (version_block latex (Robot nm ps pv ns G)) l = Some b1 -> mapM (version_block latex (Robot nm ps pv ns (G ++ F))) l = Some b2 ->
  String.length (concat_s b1) <= String.length (concat_s b2) /\ ((exists n, In n l /\ n_method n <> "") -> String.length (concat_s b1) < String.length (concat_s b2)).
Proof.
  intros NF. induction l as [|n l IH]; cbn [mapM]; intros b1 b2 E1 E2. { injection E1 as <-. injection E2 as <-. split; auto. intros (n & [] & _). }
  destruct (version_block latex (Robot nm ps pv ns G) n) as [x1|] eqn:X1; [|discriminate]. destruct (mapM (version_block latex (Robot nm ps pv ns G)) l) as [y1|] eqn:Y1; [|discriminate]. apply some_inj in E1. subst b1.
  destruct (version_block latex (Robot nm ps pv ns (G ++ F)) n) as [x2|] eqn:X2; [|discriminate]. destruct (mapM (version_block latex (Robot nm ps pv ns (G ++ F))) l) as [y2|] eqn:Y2; [|discriminate]. apply some_inj in E2. subst b2.
  destruct (IH _ _ eq_refl eq_refl) as [L1 L2]. cbn [concat_s]. rewrite !str_len_app. unfold version_block in X1, X2. destruct (String.eqb (n_method n) "") eqn:M.
  - apply some_inj in X1. apply some_inj in X2. subst. cbn [String.length]. split. lia. intros (m & [<-|I] & J). apply String.eqb_eq in M. congruence. apply L2. eauto.
  - cbn [r_eqns] in X1, X2. unfold node_eqns in X1, X2. cbn [r_eqns] in X1, X2. rewrite mapM_app in X2. destruct (mapM _ G) as [q1|]; [|discriminate]. destruct (mapM _ F) as [q2|] eqn:Q2; [|discriminate].
    apply some_inj in X1. apply some_inj in X2. assert (N2 : q2 <> []). { apply mapM_len2 in Q2. destruct q2, F; cbn in Q2; congruence. }
    assert (X := block_more n (List.length G - 1) (List.length (G ++ F) - 1) q1 q2 ltac:(rewrite app_length; lia) N2). rewrite X1, X2 in X. split; lia.
Qed.
End Twice.
(** C60: the second report is never the first one again: every version equation is listed once more. *)
Theorem C60_report_again_refuted nm ps pv nodes show latex edges mats order vars h1 h2 s os i o1 o2 : (forall n, In n nodes -> n_lhs n = []) -> (exists n, In n nodes /\ n_method n <> "") ->
  do_calls show latex edges mats order vars (solved_robot nm ps pv nodes) (h1 ++ Report :: h2 ++ [Report]) = Some (s, os) -> i = List.length h1 + S (List.length h2) ->
  nth_error os (List.length h1) = Some o1 -> nth_error os i = Some o2 -> o1 <> o2.
Proof.
  intros L M E -> O1 O2 EQ. subst o2. assert (X := inv_run show latex edges mats order vars nm ps pv nodes (h1 ++ Report :: h2 ++ [Report]) [] _ (inv_start nm ps pv nodes L)). rewrite E in X. destruct X as [X _].
  assert (K1 : nth_error (h1 ++ Report :: h2 ++ [Report]) (List.length h1) = Some Report) by (rewrite nth_error_app2, Nat.sub_diag by auto; reflexivity).
  assert (K2 : nth_error (h1 ++ Report :: h2 ++ [Report]) (List.length h1 + S (List.length h2)) = Some Report). { rewrite nth_error_app2 by lia. replace (_ + _ - _) with (S (List.length h2)) by lia. cbn [nth_error]. rewrite nth_error_app2, Nat.sub_diag by auto. reflexivity. }
  destruct (spec_nth _ _ _ _ _ _ _ _ _ _ _ _ _ _ _ X K1) as (a & A1 & A2). destruct (spec_nth _ _ _ _ _ _ _ _ _ _ _ _ _ _ _ X K2) as (b & B1 & B2). cbn [app] in A2, B2. assert (a = o1) by congruence. assert (b = o1) by congruence. subst a b.
  set (p1 := firstn (List.length h1) _) in A2. set (p2 := firstn _ _) in B2. assert (R : exists d, reports p2 = reports p1 + S d).
  { unfold p1, p2. exists (reports h2). rewrite !firstn_app, firstn_all, Nat.sub_diag. rewrite firstn_all2 by lia. replace (List.length h1 + S (List.length h2) - List.length h1) with (S (List.length h2)) by lia. cbn [firstn]. rewrite firstn_app, firstn_all, Nat.sub_diag. cbn [firstn]. rewrite !app_nil_r. unfold reports. rewrite filter_app, app_length. cbn [filter is_report List.length]. reflexivity. }
  destruct R as (d & R). unfold spec_output in A2, B2. destruct (created p1); cbn [negb] in A2; [|discriminate]. destruct (created p2); cbn [negb] in B2; [|discriminate]. destruct (make_LHS_versions nodes (the_table nodes)) as [F|] eqn:EF; [|discriminate].
  assert (NF : F <> []). { unfold make_LHS_versions in EF. destruct (the_table nodes) as [|r0 t]; [discriminate|]. apply mapM_len2 in EF. unfold enum in EF. rewrite combine_length, seq_length, Nat.min_id in EF. destruct F; cbn in EF; congruence. }
  unfold output_latex_solution in A2, B2. cbn [with_copies r_nodes] in A2, B2. destruct (generic_sec latex solution_names nodes) as [g|]; [|discriminate].
  destruct (versions_sec latex (with_copies nm ps pv nodes (S (reports p1)))) as [v1|] eqn:V1; [|discriminate]. destruct (versions_sec latex (with_copies nm ps pv nodes (S (reports p2)))) as [v2|] eqn:V2; [|discriminate].
  destruct (table_sec (order (the_table nodes))) as [t|]; [|discriminate]. assert (v1 = v2). { assert (Y := f_equal (fun o => nth 5 o "") (some_inj _ _ (eq_trans A2 (eq_sym B2)))). exact Y. } subst v2.
  unfold versions_sec, with_copies in V1, V2. cbn [r_nodes] in V1, V2. replace (S (reports p2)) with (S (reports p1) + S d) in V2 by lia. rewrite repeat_app, concat_app in V2. unfold the_eqns in V1, V2. rewrite EF in V1, V2.
  assert (NR : List.concat (repeat F (S d)) <> []). { cbn [repeat List.concat]. destruct F; cbn; congruence. }
  destruct (mapM _ nodes) as [b1|] eqn:C1 in V1; [|discriminate]. destruct (mapM _ nodes) as [b2|] eqn:C2 in V2; [|discriminate].
  destruct (sections_more latex nm ps pv nodes _ _ NR nodes b1 b2 C1 C2) as [_ Z]. specialize (Z M). apply some_inj in V1. apply some_inj in V2. rewrite <- V2 in V1. apply (f_equal String.length) in V1. rewrite !str_len_app in V1. lia.
Qed.
