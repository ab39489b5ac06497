(** C70: what running the generated Python function gives. *)
From Coq Require Import Reals ZArith List String Ascii Bool Arith Lia Lra.
From Verif Require Import Expr Kin KinSpec Trig Solver SolverSpec SolverFacts SolverInv PropLists PropSolvers SolverHist HistFacts PropHist PropCrash SolSet SolSetFacts PropSolSet CodeGen PropCodeGen CppFacts PropCpp PropEmit PropRows PropExplain PropSound PyRun.
Import ListNotations.
Local Open Scope string_scope.
Local Open Scope list_scope.
Local Open Scope nat_scope.

(** * The text is the rendering of the statements *)
Lemma version_text show n q : py_version show n q = match version_stmts show n q with None => None | Some p => Some (flat_map (lines show) p) end.
Proof.
  unfold py_version, version_stmts. destruct (contains "asin" _ || contains "acos" _); [destruct (parens _); auto|]; destruct (contains "atan" _), (String.eqb _ "algebra"); reflexivity.
Qed.
Lemma mapM_map {A B C} (f : A -> option B) (g : A -> option C) (h : B -> C) l : (forall a, g a = match f a with None => None | Some b => Some (h b) end) ->
  mapM g l = match mapM f l with None => None | Some bs => Some (map h bs) end.
Proof.
  intros E. induction l as [|a l IH]; cbn [mapM]; auto. rewrite E. destruct (f a); auto. rewrite IH. destruct (mapM f l); auto.
Qed.
Lemma flat_map_concat {A B} (f : A -> list B) ll : flat_map f (List.concat ll) = List.concat (map (flat_map f) ll).
Proof. induction ll; cbn; auto. rewrite flat_map_app, IHll. auto. Qed.
Lemma node_text show r n : py_node show r n = match node_stmts show r n with None => None | Some p => Some (flat_map (lines show) p) end.
Proof.
  unfold py_node, node_stmts. destruct (node_eqns r n) as [qs|]; auto. rewrite (mapM_map (version_stmts show n) (py_version show n) (flat_map (lines show)) qs (version_text show n)).
  destruct (mapM (version_stmts show n) qs); auto. cbn [flat_map app lines]. rewrite flat_map_concat. auto.
Qed.
Theorem C70_text show r groups : output_python_code show r groups = match body show r groups with None => None | Some p => Some (py_head r ++ flat_map (lines show) p) end.
Proof.
  unfold output_python_code, body. rewrite (mapM_map (node_stmts show r) (py_node show r) (flat_map (lines show)) _ (node_text show r)). destruct (mapM (node_stmts show r) (r_nodes r)) as [ns|]; auto.
  do 2 f_equal. rewrite !flat_map_app, flat_map_concat. f_equal. unfold py_tail. cbn [flat_map lines app]. do 2 f_equal. f_equal.
  induction groups as [|g gs IH]; auto. cbn [map flat_map List.concat]. rewrite IH. auto.
Qed.

(** what the statements look like in the file *)
Theorem C70_lines show q g names :
  lines show (Assign q) = [append "    " (append (show (k_lhs q)) (append " = " (show (k_rhs q))))] /\
  lines show (Guarded g q) = [append "    if (solvable_pose and abs " (append g "  > 1):"); "        solvable_pose = False"; "    else:"; append "        " (append (show (k_lhs q)) (append " = " (show (k_rhs q))))] /\
  lines show NewList = ["    solution_list = []"] /\
  lines show (Append names) = ["    #(note trailing commas allowed in python"; "    solution_list.append( [ "] ++ map (fun v => append v ", ") names ++ ["] )"] /\
  lines show Return = ["    if(solvable_pose):"; "        return(solution_list)"; "    else: "; "        return(False)"].
Proof. repeat split; reflexivity. Qed.

(** * Expressions *)
Definition extends (m m' : penv) : Prop := forall x v, m x = Some v -> m' x = Some v.
Definition total (m : penv) (rho : env) : Prop := forall x v, m x = Some v -> rho x = v.
Lemma pyeval_ext m m' : extends m m' -> forall e v, pyeval m e = Some v -> pyeval m' e = Some v.
Proof.
  intros X. induction e; cbn [pyeval]; intros v H; auto;
    try (destruct (pyeval m e1) as [x|] eqn:E1; [|discriminate]; destruct (pyeval m e2) as [y|] eqn:E2; [|discriminate]; rewrite (IHe1 _ eq_refl), (IHe2 _ eq_refl); auto);
    try (destruct (pyeval m e) as [x|] eqn:E1; [|discriminate]; rewrite (IHe _ eq_refl); auto).
Qed.
Lemma pyeval_same m m' : (forall x, m x = m' x) -> forall e, pyeval m e = pyeval m' e.
Proof. intros X. induction e; cbn [pyeval]; auto; rewrite ?IHe1, ?IHe2, ?IHe; auto. Qed.
(** A value is computed exactly when the expression is defined and its symbols are (Python's atan2 is also defined at the origin). *)
Lemma pyeval_val m rho : total m rho -> forall e v, pyeval m e = Some v -> eval rho e = v.
Proof.
  intros X. induction e; cbn [pyeval eval]; intros v H; auto; try (injection H as <-; auto; fail);
    try (destruct (pyeval m e1) as [x|] eqn:E1; [|discriminate]; destruct (pyeval m e2) as [y|] eqn:E2; [|discriminate]; rewrite (IHe1 _ eq_refl), (IHe2 _ eq_refl));
    try (destruct (pyeval m e) as [x|] eqn:E1; [|discriminate]; rewrite (IHe _ eq_refl)); try (injection H as <-; auto; fail).
  - destruct (Req_EM_T y 0); [discriminate|]. injection H as <-. auto.
  - destruct (Rle_dec (-1) x); [|discriminate]. destruct (Rle_dec x 1); [|discriminate]. injection H as <-. auto.
  - destruct (Rle_dec (-1) x); [|discriminate]. destruct (Rle_dec x 1); [|discriminate]. injection H as <-. auto.
  - destruct (Rle_dec 0 x); [|discriminate]. injection H as <-. auto.
Qed.
Lemma pyeval_reads m e v y : pyeval m e = Some v -> has y e = true -> exists w, m y = Some w.
Proof.
  revert v. induction e; cbn [pyeval has]; intros v H Hy; try discriminate;
    try (destruct (pyeval m e1) as [x1|] eqn:E1; [|discriminate]; destruct (pyeval m e2) as [x2|] eqn:E2; [|discriminate]; apply orb_prop in Hy as [Hy|Hy]; eauto; fail);
    try (destruct (pyeval m e) as [x|] eqn:E1; [|discriminate]; eauto; fail).
  apply String.eqb_eq in Hy. subst. eauto.
Qed.
(** the domain of a real function call: as [defd], but atan2 is defined everywhere *)
Fixpoint in_domain (rho : env) (e : expr) : Prop :=
  match e with
  | Num _ | PiE | Sym _ => True
  | Add a b | Mul a b | Atan2 a b => in_domain rho a /\ in_domain rho b
  | Neg a | Pow a _ | Sin a | Cos a => in_domain rho a
  | Div a b => in_domain rho a /\ in_domain rho b /\ eval rho b <> 0%R
  | Asin a | Acos a => in_domain rho a /\ (-1 <= eval rho a <= 1)%R
  | Sqrt a => in_domain rho a /\ (0 <= eval rho a)%R
  end.
Lemma pyeval_domain m rho : total m rho -> forall e v, pyeval m e = Some v -> in_domain rho e.
Proof.
  intros X. induction e; cbn [pyeval in_domain]; intros v H; auto;
    try (destruct (pyeval m e1) as [x|] eqn:E1; [|discriminate]; destruct (pyeval m e2) as [y|] eqn:E2; [|discriminate]; assert (V1 := pyeval_val m rho X _ _ E1); assert (V2 := pyeval_val m rho X _ _ E2));
    try (destruct (pyeval m e) as [x|] eqn:E1; [|discriminate]; assert (V1 := pyeval_val m rho X _ _ E1)); eauto; try (split; eauto; fail).
  - destruct (Req_EM_T y 0); [discriminate|]. rewrite V2. split; eauto.
  - rewrite V1. destruct (Rle_dec (-1) x); [|discriminate]. destruct (Rle_dec x 1); [|discriminate]. split; eauto.
  - rewrite V1. destruct (Rle_dec (-1) x); [|discriminate]. destruct (Rle_dec x 1); [|discriminate]. split; eauto.
  - rewrite V1. destruct (Rle_dec 0 x); [|discriminate]. split; eauto.
Qed.
Lemma defd_in_domain rho e : defd rho e -> in_domain rho e.
Proof. induction e; cbn; tauto. Qed.
Lemma pyeval_some m rho : total m rho -> forall e, (forall y, has y e = true -> m y <> None) -> in_domain rho e -> pyeval m e = Some (eval rho e).
Proof.
  intros X. induction e; cbn [pyeval in_domain eval has]; intros H D; auto;
    try (rewrite IHe1, IHe2; try tauto; try (intros y Hy; apply H; rewrite Hy; auto using orb_true_r); auto; fail); try (rewrite IHe; auto; fail).
  - destruct (m s) as [v|] eqn:E. rewrite (X _ _ E). auto. exfalso. apply (H s); auto. apply String.eqb_refl.
  - destruct D as (D1 & D2 & D3). rewrite IHe1, IHe2; auto; try (intros y Hy; apply H; rewrite Hy; auto using orb_true_r). destruct (Req_EM_T (eval rho e2) 0); [contradiction|auto].
  - destruct D as (D1 & D2 & D3). rewrite IHe; auto. destruct (Rle_dec (-1) (eval rho e)); [|contradiction]. destruct (Rle_dec (eval rho e) 1); [auto|contradiction].
  - destruct D as (D1 & D2 & D3). rewrite IHe; auto. destruct (Rle_dec (-1) (eval rho e)); [|contradiction]. destruct (Rle_dec (eval rho e) 1); [auto|contradiction].
  - destruct D as (D1 & D2). rewrite IHe; auto. destruct (Rle_dec 0 (eval rho e)); [auto|contradiction].
Qed.

(** * Statements that compute versions *)
Definition eqn_of (s : stmt) : option kequation := match s with Assign q | Guarded _ q => Some q | _ => None end.
Definition computes (s : stmt) : Prop := (exists t, s = Note t) \/ (exists q, s = Assign q) \/ exists g q, s = Guarded g q.
Definition in_matrix (F : list (list kequation)) (q : kequation) : Prop := exists eqs, In eqs F /\ In q eqs.
Lemma version_computes show n q p s : version_stmts show n q = Some p -> In s p -> computes s /\ eqn_of s = Some q.
Proof.
  unfold version_stmts. intros H Hs.
  assert (K : In s ((if contains "atan" (show (k_rhs q)) then [Assign q] else []) ++ (if String.eqb (n_method n) "algebra" then [Assign q] else [])) -> computes s /\ eqn_of s = Some q).
  { intros X. apply in_app_or in X as [X|X]; [destruct (contains "atan" _)|destruct (String.eqb _ _)]; try (destruct X; fail); destruct X as [<-|[]]; unfold computes; eauto. }
  destruct (_ || _).
  - destruct (parens _); [|discriminate]. injection H as <-. destruct Hs as [<-|Hs]; [unfold computes; eauto 6|]. apply K; auto.
  - injection H as <-. apply K; auto.
Qed.
Lemma node_computes show rb n p s : node_stmts show rb n = Some p -> In s p -> computes s /\ forall q, eqn_of s = Some q -> in_matrix (r_eqns rb) q.
Proof.
  unfold node_stmts. destruct (node_eqns rb n) as [qs|] eqn:Eq; [|discriminate]. destruct (mapM (version_stmts show n) qs) as [vs|] eqn:Ev; [|discriminate]. intros H Hs. injection H as <-.
  destruct Hs as [<-|[<-|Hs]]; try (split; [unfold computes; eauto|discriminate]). apply in_concat in Hs as (p & Hp & Hs). apply In_nth_error in Hp as (k & Hk).
  apply mapM_some in Ev as [L Ev]. assert (Lk := nth_error_some_lt _ _ _ Hk). rewrite L in Lk. destruct (nth_error_ex qs k Lk) as (q & Hq). destruct (Ev k q Hq) as (p' & P1 & P2).
  assert (p' = p) by congruence. subst. destruct (version_computes _ _ _ _ _ P2 Hs) as [C E]. split; auto. intros q' E'. assert (q' = q) by congruence. subst q'.
  unfold node_eqns in Eq. apply mapM_some in Eq as [L2 Eq]. rewrite L2 in Lk. destruct (nth_error_ex (r_eqns rb) k Lk) as (eqs & He). destruct (Eq k eqs He) as (q' & Q1 & Q2). assert (q' = q) by congruence. subst.
  exists eqs. split; eapply nth_error_In; eauto.
Qed.
Definition banner : string := "
##################################
#
#package the solutions into a list for each set
#
###################################
".
Lemma body_shape show rb groups p : body show rb groups = Some p -> exists pre, p = pre ++ [Note banner; NewList] ++ map (fun g => Append (sort g)) groups ++ [Return]
  /\ forall s, In s pre -> computes s /\ forall q, eqn_of s = Some q -> in_matrix (r_eqns rb) q.
Proof.
  unfold body. destruct (mapM (node_stmts show rb) (r_nodes rb)) as [ns|] eqn:E; [|discriminate]. intros H. injection H as <-. exists (List.concat ns). split; auto.
  intros s Hs. apply in_concat in Hs as (l & Hl & Hs). apply In_nth_error in Hl as (k & Hk). apply mapM_some in E as [L E]. assert (Lk := nth_error_some_lt _ _ _ Hk). rewrite L in Lk.
  destruct (nth_error_ex _ _ Lk) as (n & Hn). destruct (E k n Hn) as (l' & L1 & L2). assert (l' = l) by congruence. subst. eapply node_computes; eauto.
Qed.

(** ** Running them *)
Section Run.
Variable guard : string -> penv -> option bool.
Lemma pset_same m x v y : m x = Some v -> pset m x v y = m y.
Proof. intros H. unfold pset. destruct (String.eqb_spec y x); subst; auto. Qed.
(** Nothing but left hand sides is changed. *)
Lemma run_changes (K : kequation -> Prop) pre : forall rest st res, (forall s, In s pre -> computes s /\ forall q, eqn_of s = Some q -> K q) -> run_py guard (pre ++ rest) st = Some res ->
  exists st', run_py guard rest st' = Some res /\ p_list st' = p_list st /\ forall x, (forall q, K q -> k_lhs q <> Sym x) -> p_vars st' x = p_vars st x.
Proof.
  induction pre as [|s pre IH]; intros rest st res C R. { exists st. auto. }
  destruct (C s (or_introl eq_refl)) as [Cs Ks]. assert (C' : forall s, In s pre -> computes s /\ forall q, eqn_of s = Some q -> K q) by (intros; apply C; right; auto).
  assert (As : forall q, eqn_of s = Some q -> match assign st q with None => None | Some st' => run_py guard (pre ++ rest) st' end = Some res ->
    exists st', run_py guard rest st' = Some res /\ p_list st' = p_list st /\ forall x, (forall q, K q -> k_lhs q <> Sym x) -> p_vars st' x = p_vars st x).
  { intros q Eq H. unfold assign in H. destruct (k_lhs q) as [| |x| | | | | | | | | | |] eqn:El; try discriminate. destruct (pyeval (p_vars st) (k_rhs q)) as [v|]; [|discriminate].
    destruct (IH _ _ _ C' H) as (st' & R1 & R2 & R3). exists st'. split; auto. split; auto. intros y Hy. rewrite R3 by auto. cbn. unfold pset. destruct (String.eqb_spec y x); auto. subst. exfalso. apply (Hy q); auto. }
  cbn [app run_py] in R. destruct Cs as [(t & ->)|[(q & ->)|(g & q & ->)]].
  - apply IH; auto.
  - apply (As q); auto.
  - destruct (p_ok st); [|apply (As q); auto]. destruct (guard g (p_vars st)) as [[]|]; [| |discriminate]. 2:{ apply (As q); auto. }
    destruct (IH _ _ _ C' R) as (st' & R1 & R2 & R3). exists st'. auto.
Qed.
Lemma run_appends groups : forall st l res, p_list st = Some l -> run_py guard (map (fun g => Append (sort g)) groups ++ [Return]) st = Some res ->
  exists vss, mapM (fun g => mapM (p_vars st) (sort g)) groups = Some vss /\ res = if p_ok st then Solutions (l ++ vss) else Unsolvable.
Proof.
  induction groups as [|g gs IH]; intros st l res Hl R; cbn [map app run_py mapM] in *.
  - exists []. split; auto. rewrite Hl, app_nil_r in *. destruct (p_ok st); congruence.
  - rewrite Hl in R. destruct (mapM (p_vars st) (sort g)) as [vs|]; [|discriminate]. destruct (IH (Py (p_vars st) (p_ok st) (Some (l ++ [vs]))) (l ++ [vs]) res eq_refl R) as (vss & V1 & V2). cbn [p_vars p_ok] in *.
    rewrite V1. exists (vs :: vss). split; auto. rewrite V2. rewrite <- app_assoc. reflexivity.
Qed.
(** While running, every version that has a value has the value of its solution. *)
Definition consistent (K : kequation -> Prop) (m : penv) : Prop := forall q x v, K q -> k_lhs q = Sym x -> m x = Some v -> pyeval m (k_rhs q) = Some v.
Lemma run_consistent (K : kequation -> Prop) pre : (forall q q' x, K q -> K q' -> k_lhs q = Sym x -> k_lhs q' = Sym x -> q = q') ->
  forall rest st res, (forall s, In s pre -> computes s /\ forall q, eqn_of s = Some q -> K q) -> consistent K (p_vars st) -> run_py guard (pre ++ rest) st = Some res ->
  exists st', run_py guard rest st' = Some res /\ p_list st' = p_list st /\ consistent K (p_vars st') /\ extends (p_vars st) (p_vars st').
Proof.
  intros Fn. induction pre as [|s pre IH]; intros rest st res C I R. { exists st. unfold extends. auto. }
  destruct (C s (or_introl eq_refl)) as [Cs Ks]. assert (C' : forall s, In s pre -> computes s /\ forall q, eqn_of s = Some q -> K q) by (intros; apply C; right; auto).
  assert (As : forall q, eqn_of s = Some q -> match assign st q with None => None | Some st' => run_py guard (pre ++ rest) st' end = Some res ->
    exists st', run_py guard rest st' = Some res /\ p_list st' = p_list st /\ consistent K (p_vars st') /\ extends (p_vars st) (p_vars st')).
  { intros q Eq H. unfold assign in H. destruct (k_lhs q) as [| |x| | | | | | | | | | |] eqn:El; try discriminate. destruct (pyeval (p_vars st) (k_rhs q)) as [v|] eqn:Ev; [|discriminate].
    assert (Kq := Ks q Eq).
    assert (X : extends (p_vars st) (pset (p_vars st) x v)).
    { intros y w Ey. unfold pset. destruct (String.eqb_spec y x) as [->|]; auto. assert (X := I q x w Kq El Ey). congruence. }
    destruct (IH rest (Py (pset (p_vars st) x v) (p_ok st) (p_list st)) res C') as (st' & R1 & R2 & R3 & R4); auto.
    - cbn [p_vars]. intros q' y w Kq' El' Ey. unfold pset in Ey. destruct (String.eqb_spec y x) as [->|Ne].
      + injection Ey as <-. assert (q' = q) by (eapply Fn; eauto). subst. apply (pyeval_ext _ _ X). auto.
      + apply (pyeval_ext _ _ X). eapply I; eauto.
    - exists st'. split; auto. split; auto. split; auto. intros y w Ey. apply R4. apply X. auto. }
  cbn [app run_py] in R. destruct Cs as [(t & ->)|[(q & ->)|(g & q & ->)]].
  - apply IH; auto.
  - apply (As q); auto.
  - destruct (p_ok st); [|apply (As q); auto]. destruct (guard g (p_vars st)) as [[]|]; [| |discriminate]. 2:{ apply (As q); auto. }
    apply (IH rest (Py (p_vars st) false (p_list st)) res); auto.
Qed.

(** * C70: as generated, the function never returns *)
(** The rows it appends name the first unknown's solutions, which no statement defines. *)
Theorem C70_never_returns show rb groups p m n0 ns F : r_nodes rb = n0 :: ns -> handed_over (n0 :: ns) -> make_LHS_versions (n0 :: ns) (create_solution_set (n0 :: ns)) = Some F -> r_eqns rb = F ->
  (exists g, In g groups) -> (forall g, In g groups -> In g (create_solution_set (n0 :: ns))) -> body show rb groups = Some p ->
  (forall k, m (sname (n_name n0) k) = None) -> ikin guard p m = None.
Proof.
  intros En H HF EF (g & Hg) G B M. destruct (ikin guard p m) as [res|] eqn:R; auto. exfalso. destruct (body_shape _ _ _ _ B) as (pre & -> & C). rewrite EF in C.
  destruct (run_changes (in_matrix F) pre _ _ _ C R) as (st & R1 & R2 & R3). cbn [app run_py] in R1. destruct (run_appends groups (Py (p_vars st) (p_ok st) (Some [])) [] res eq_refl R1) as (vss & V & _). cbn [p_vars] in V.
  assert (X : mapM (fun g => mapM (p_vars st) (sort g)) groups = None); [|congruence]. apply mapM_none. exists g. split; auto. apply mapM_none.
  apply G in Hg. assert (Hg' := Hg). apply In_nth_error in Hg' as (k & Hk). destruct (C42_consistent n0 ns H k g Hk) as [(b & _ & Bb) _]. exists (sname (n_name n0) (S b)). split.
  - apply (Permutation.Permutation_in _ (Permutation.Permutation_sym (sort_perm g))). eapply nth_error_In; eauto.
  - rewrite R3. cbn. auto. intros q (eqs & He & Hq). apply (C52_first_names_undefined _ F g _ H HF Hg Bb eqs q He Hq).
Qed.
Corollary C70_every_pose_raises show rb groups p T ps n0 ns F : r_nodes rb = n0 :: ns -> handed_over (n0 :: ns) -> make_LHS_versions (n0 :: ns) (create_solution_set (n0 :: ns)) = Some F -> r_eqns rb = F ->
  (exists g, In g groups) -> (forall g, In g groups -> In g (create_solution_set (n0 :: ns))) -> body show rb groups = Some p ->
  (forall k, ps (sname (n_name n0) k) = None) -> ikin guard p (fun x => match pose_env T x with Some v => Some v | None => ps x end) = None.
Proof.
  intros En H HF EF G1 G2 B M. eapply C70_never_returns; eauto. intros k. assert (E : pose_env T (sname (n_name n0) k) = None); [|rewrite E; auto].
  unfold pose_env. destruct (find _ _) as [[x v]|] eqn:Fd; auto. exfalso. apply find_some in Fd as [I E]. cbn [fst] in E. apply String.eqb_eq in E. subst x.
  assert (Mk := sname_mark (n_name n0) k). fold (sname (n_name n0) k) in Mk. unfold pose_vars in I. cbn [In] in I.
  repeat (destruct I as [I|I]; [assert (I' := f_equal fst I); cbn [fst] in I'; rewrite <- I' in Mk; vm_compute in Mk; discriminate|]). destruct I.
Qed.

Lemma matrix_in nodes F q : handed_over nodes -> make_LHS_versions nodes (create_solution_set nodes) = Some F -> in_matrix F q ->
  exists k r c n e, nth_error (create_solution_set nodes) k = Some r /\ nth_error nodes c = Some n /\ nth_error (n_sols n) (k mod last_nsol nodes) = Some e
    /\ q = Keq (Sym (vname (n_name n) (S k))) (subs_all (sub_names nodes r) e).
Proof.
  intros H HF (eqs & He & Hq). destruct (C43_equations nodes F H HF) as [LF C]. apply In_nth_error in He as (k & Hk). assert (Lk := nth_error_some_lt _ _ _ Hk). rewrite LF in Lk.
  destruct (nth_error_ex _ _ Lk) as (r & Hr). destruct (C k r Hr) as (eqs' & Q1 & Q2 & Q3). assert (eqs' = eqs) by congruence. subst. apply In_nth_error in Hq as (c & Hc). assert (Lc := nth_error_some_lt _ _ _ Hc). rewrite Q2 in Lc.
  destruct (nth_error_ex _ _ Lc) as (n & Hn). destruct (Q3 c n Hn) as (e & E1 & E2). exists k, r, c, n, e. repeat split; auto. congruence.
Qed.
Lemma matrix_fn nodes F : handed_over nodes -> NoDup (names_of nodes) -> make_LHS_versions nodes (create_solution_set nodes) = Some F ->
  forall q q' x, in_matrix F q -> in_matrix F q' -> k_lhs q = Sym x -> k_lhs q' = Sym x -> q = q'.
Proof.
  intros H N HF q q' x Hq Hq' E E'. destruct (matrix_in nodes F q H HF Hq) as (k & r & c & n & e & A1 & A2 & A3 & ->). destruct (matrix_in nodes F q' H HF Hq') as (k' & r' & c' & n' & e' & B1 & B2 & B3 & ->).
  cbn [k_lhs] in *. rewrite <- E' in E. injection E as E. apply vname_inj2 in E as [En Ek]. injection Ek as ->. assert (c = c') by (eapply NoDup_names; eauto). subst c'. assert (n = n') by congruence. subst n'. congruence.
Qed.
Lemma mapM_val {A B} (f : A -> option B) (g : A -> B) l bs : mapM f l = Some bs -> (forall a b, In a l -> f a = Some b -> g a = b) -> bs = map g l.
Proof.
  revert bs. induction l as [|a l IH]; cbn [mapM map]; intros bs H K. congruence. destruct (f a) as [b|] eqn:E; [|discriminate]. destruct (mapM f l) as [bs'|]; [|discriminate]. injection H as <-.
  rewrite (K a b) by (auto; left; auto). f_equal. apply IH; auto. intros; apply K; auto. right; auto.
Qed.
Lemma mapM_all {A B} (f : A -> option B) l bs a : mapM f l = Some bs -> In a l -> exists b, f a = Some b.
Proof. intros H I. destruct (f a) eqn:E; eauto. exfalso. assert (mapM f l = None) by (apply mapM_none; eauto). congruence. Qed.

(** * With the first unknown's solutions defined beforehand *)
(** The names of the first unknown's solutions have these solutions' values, and no version has a value. *)
Definition first_defined (nodes : list node) (m : penv) : Prop :=
  (forall n0 ns b e, nodes = n0 :: ns -> nth_error (n_sols n0) b = Some e -> exists v, m (sname (n_name n0) (S b)) = Some v /\ pyeval m e = Some v)
  /\ forall n k, In n nodes -> m (vname (n_name n) k) = None.
(** Whatever it returns: there are values of all names, those given unchanged, at which all version equations hold; the solutions of all versions that
    a row lists are defined there; and the returned list is the table at these values, each row in the order of its sorted names. *)
Theorem C70_returns show rb groups p m F res : let nodes := r_nodes rb in
  handed_over nodes -> NoDup (names_of nodes) -> version_free (names_of nodes) -> inputs_free nodes -> make_LHS_versions nodes (create_solution_set nodes) = Some F -> r_eqns rb = F ->
  (forall g, In g groups <-> In g (create_solution_set nodes)) -> body show rb groups = Some p -> first_defined nodes m -> ikin guard p m = Some res ->
  exists out, total m out /\ executed nodes F out
    /\ (forall g x q, In g groups -> In x g -> in_matrix F q -> k_lhs q = Sym x -> in_domain out (k_rhs q))
    /\ (res = Unsolvable \/ res = Solutions (map (fun g => map out (sort g)) groups)).
Proof.
  intros nodes H N Vf If HF EF G B [M1 M2] R. destruct (body_shape _ _ _ _ B) as (pre & -> & C). rewrite EF in C. unfold ikin in R.
  assert (Fn := matrix_fn nodes F H N HF).
  assert (Vn : forall q, in_matrix F q -> exists n k, In n nodes /\ k_lhs q = Sym (vname (n_name n) k)).
  { intros q Hq. destruct (matrix_in nodes F q H HF Hq) as (k & r & c & n & e & _ & A2 & _ & ->). exists n, (S k). split; auto. eapply nth_error_In; eauto. }
  assert (I0 : consistent (in_matrix F) (p_vars (Py m true None))). { intros q x v Hq El Ex. destruct (Vn q Hq) as (n & k & Hn & E). cbn in Ex. assert (x = vname (n_name n) k) by congruence. subst x. rewrite M2 in Ex by auto. discriminate. }
  destruct (run_consistent (in_matrix F) pre Fn _ _ _ C I0 R) as (st & R1 & _ & Co & Ex). cbn [p_vars] in Ex.
  cbn [app run_py] in R1. destruct (run_appends groups (Py (p_vars st) (p_ok st) (Some [])) [] res eq_refl R1) as (vss & V & Er). cbn [p_vars p_ok app] in V, Er.
  set (mf := p_vars st) in *.
  assert (Listed : forall g x, In g groups -> In x g -> exists v, mf x = Some v).
  { intros g x Hg Hx. destruct (mapM_all _ _ _ g V Hg) as (vs & Hv). apply (mapM_all _ _ _ x Hv). apply (Permutation.Permutation_in _ (Permutation.Permutation_sym (sort_perm g))). auto. }
  set (out0 := fun x => match mf x with Some v => v | None => 0%R end).
  set (find_q := fun x => find (fun q => match k_lhs q with Sym y => String.eqb y x | _ => false end) (List.concat F)).
  set (out := fun x => match mf x with Some v => v | None => match find_q x with Some q => eval out0 (k_rhs q) | None => 0%R end end).
  assert (T0 : total mf out0). { intros x v E. unfold out0. rewrite E. auto. }
  assert (T : total mf out). { intros x v E. unfold out. rewrite E. auto. }
  assert (Inq : forall q, In q (List.concat F) <-> in_matrix F q). { intros q. rewrite in_concat. reflexivity. }
  assert (Fq : forall x q, find_q x = Some q -> in_matrix F q /\ k_lhs q = Sym x).
  { intros x q Hf. apply find_some in Hf as [Hi Hl]. split. apply Inq; auto. destruct (k_lhs q); try discriminate. apply String.eqb_eq in Hl. congruence. }
  assert (Fx : forall x q, in_matrix F q -> k_lhs q = Sym x -> find_q x = Some q).
  { intros x q Hq El. destruct (find_q x) as [q'|] eqn:E. destruct (Fq x q' E) as [A1 A2]. f_equal. eapply Fn; eauto.
    exfalso. assert (Z := find_none _ _ E q (proj2 (Inq q) Hq)). cbn in Z. rewrite El, String.eqb_refl in Z. discriminate. }
  (* symbols of a right hand side are listed or given *)
  assert (Agree : forall q y, in_matrix F q -> has y (k_rhs q) = true -> out y = out0 y).
  { intros q y Hq Hy. unfold out, out0. destruct (mf y) eqn:Ey; auto. destruct (find_q y) as [q'|] eqn:Ef; auto. exfalso.
    destruct (matrix_in nodes F q H HF Hq) as (k & r & c & n & e & A1 & A2 & A3 & ->). cbn [k_rhs] in Hy. assert (Hr := nth_error_In _ _ A1).
    apply has_sub_names in Hy as [(i & n' & B1 & B2 & B3)|[B1 B2]]; [| |apply (C42_rectangular nodes r H Hr)|apply row_free; auto].
    - destruct (Listed r y) as (v & Hv). apply G; auto. eapply nth_error_In; eauto. congruence.
    - destruct (Fq y q' Ef) as [D1 D2]. destruct (Vn q' D1) as (n' & k' & E1 & E2). apply (If n e y (nth_error_In _ _ A2) (nth_error_In _ _ A3) B1 B2 n' k' E1). congruence. }
  exists out. split. { intros x v E. apply T. apply Ex. auto. }
  assert (Val : forall q x v, in_matrix F q -> k_lhs q = Sym x -> mf x = Some v -> eval out (k_rhs q) = v /\ in_domain out (k_rhs q)).
  { intros q x v Hq El Hv. assert (Z := Co q x v Hq El Hv). split. eapply pyeval_val; eauto. eapply pyeval_domain; eauto. }
  split; [split|split].
  - intros eqs q He Hq. assert (Kq : in_matrix F q) by (exists eqs; auto). destruct (Vn q Kq) as (n & k & Hn & El). rewrite El. cbn [eval]. set (x := vname (n_name n) k) in *.
    destruct (mf x) as [v|] eqn:Ev. { destruct (Val q x v Kq El Ev) as [-> _]. apply T. auto. }
    unfold out at 1. rewrite Ev, (Fx x q Kq El). symmetry. apply eval_ext. intros y Hy. apply (Agree q); auto.
  - intros n0 ns b e En He. destruct (M1 n0 ns b e En He) as (v & V1 & V2). rewrite (T _ v) by (apply Ex; auto). symmetry. apply (pyeval_val mf); auto. apply (pyeval_ext m); auto.
  - intros g x q Hg Hx Hq El. destruct (Listed g x Hg Hx) as (v & Hv). apply (Val q x v Hq El Hv).
  - destruct (p_ok st); [right|left; auto]. rewrite Er. f_equal. apply (mapM_val _ _ _ _ V). intros g vs Hg Hv. symmetry. apply (mapM_val _ _ _ _ Hv). intros x v _ Hx. apply T. auto.
Qed.

(** * When it does return the list *)
(** The guards let the assignments pass: wherever the symbols of the guarded solution have values that agree with [out]. *)
Definition passes (m : penv) (out : env) (p : list stmt) : Prop :=
  forall g q m', In (Guarded g q) p -> extends m m' -> total m' out -> (forall y, has y (k_rhs q) = true -> m' y <> None) -> guard g m' = Some false.
Lemma run_block m out p : forall rest st,
  (forall s, In s p -> computes s /\ forall q, eqn_of s = Some q -> exists x, k_lhs q = Sym x /\ out x = eval out (k_rhs q) /\ in_domain out (k_rhs q) /\ forall y, has y (k_rhs q) = true -> p_vars st y <> None) ->
  passes m out p -> extends m (p_vars st) -> total (p_vars st) out -> p_ok st = true ->
  exists m', run_py guard (p ++ rest) st = run_py guard rest (Py m' true (p_list st)) /\ extends (p_vars st) m' /\ total m' out /\ forall s q x, In s p -> eqn_of s = Some q -> k_lhs q = Sym x -> m' x <> None.
Proof.
  induction p as [|s p IH]; intros rest st C P Ex T Ok. { exists (p_vars st). destruct st; cbn in *; subst. split; [reflexivity|]. split; [intros x v Hx; exact Hx|]. split; [exact T|]. intros ? ? ? Z; destruct Z. }
  assert (P' : passes m out p) by (intros g q m' Hg; apply P; right; auto).
  destruct (C s (or_introl eq_refl)) as [Cs Es].
  assert (As : forall q, eqn_of s = Some q -> exists m', match assign st q with None => None | Some st' => run_py guard (p ++ rest) st' end = run_py guard rest (Py m' true (p_list st)) /\ extends (p_vars st) m' /\ total m' out
     /\ forall s' q x, In s' (s :: p) -> eqn_of s' = Some q -> k_lhs q = Sym x -> m' x <> None).
  { intros q Eq. destruct (Es q Eq) as (x & El & Ev & D & Rd). unfold assign. rewrite El, (pyeval_some (p_vars st) out T _ Rd D).
    assert (X : extends (p_vars st) (pset (p_vars st) x (eval out (k_rhs q)))). { intros y w Ey. unfold pset. destruct (String.eqb_spec y x) as [->|]; auto. rewrite <- Ev, (T _ _ Ey). auto. }
    assert (T' : total (pset (p_vars st) x (eval out (k_rhs q))) out). { intros y w Ey. unfold pset in Ey. destruct (String.eqb_spec y x) as [->|]; auto. congruence. }
    destruct (IH rest (Py (pset (p_vars st) x (eval out (k_rhs q))) (p_ok st) (p_list st))) as (m' & R1 & R2 & R3 & R4); auto.
    - intros s' Hs'. destruct (C s' (or_intror Hs')) as [C1 C2]. split; auto. intros q' Eq'. destruct (C2 q' Eq') as (x' & X1 & X2 & X3 & X4). exists x'. split; auto. split; auto. split; auto.
      intros y Hy. cbn [p_vars]. specialize (X4 y Hy). destruct (p_vars st y) as [w|] eqn:Ey; [|congruence]. rewrite (X _ _ Ey). discriminate.
    - cbn [p_vars]. intros y w Ey. auto.
    - exists m'. split; auto. split. { intros y w Ey. apply R2, X. auto. } split; auto. intros s' q' x' [<-|Hs'] Eq' El'; [|eapply R4; eauto].
      assert (q' = q) by congruence. subst q'. assert (x' = x) by congruence. subst x'. cbn [p_vars] in R2. rewrite (R2 x (eval out (k_rhs q))). discriminate. unfold pset. rewrite String.eqb_refl. auto. }
  cbn [app run_py]. destruct Cs as [(t & ->)|[(q & ->)|(g & q & ->)]].
  - destruct (IH rest st) as (m' & R1 & R2 & R3 & R4); auto. { intros s' Hs'. apply C. right; auto. } exists m'. split; auto. split; auto. split; auto. intros s' q' x' [<-|Hs'] Eq' El'; [discriminate|eapply R4; eauto].
  - apply (As q); auto.
  - rewrite Ok. assert (Gd : guard g (p_vars st) = Some false). { apply (P g q); [left; reflexivity|exact Ex|exact T|]. destruct (Es q eq_refl) as (x & _ & _ & _ & Rd). exact Rd. } rewrite Gd. apply (As q); auto.
Qed.
Lemma version_emitted show n q p : version_stmts show n q = Some p -> py_emits show n q -> exists s, In s p /\ eqn_of s = Some q.
Proof.
  unfold version_stmts, py_emits. intros H E. destruct (contains "asin" (show (k_rhs q))) eqn:E1; cbn [orb] in H.
  { destruct (parens _); [|discriminate]. injection H as <-. eexists. split. left; auto. auto. }
  destruct (contains "acos" (show (k_rhs q))) eqn:E2. { destruct (parens _); [|discriminate]. injection H as <-. eexists. split. left; auto. auto. }
  injection H as <-. destruct E as [E|[E|[E|E]]]; try discriminate.
  - rewrite E. exists (Assign q). split; auto. left; auto.
  - rewrite E. exists (Assign q). split; auto. apply in_or_app. right. left; auto.
Qed.
Lemma run_appends_ok out groups : forall m l, total m out -> (forall g x, In g groups -> In x g -> m x <> None) ->
  run_py guard (map (fun g => Append (sort g)) groups ++ [Return]) (Py m true (Some l)) = Some (Solutions (l ++ map (fun g => map out (sort g)) groups)).
Proof.
  induction groups as [|g gs IH]; intros m l T D; cbn [map app run_py p_ok p_list p_vars]. { rewrite app_nil_r. auto. }
  assert (E : mapM m (sort g) = Some (map out (sort g))).
  { assert (Dg : forall x, In x (sort g) -> m x <> None). { intros x Hx. apply (D g). left; auto. apply (Permutation.Permutation_in _ (sort_perm g)). auto. }
    clear - T Dg. induction (sort g) as [|x l IH]; cbn [mapM map]; auto. destruct (m x) as [v|] eqn:E; [|exfalso; apply (Dg x); auto; left; auto]. rewrite IH by (intros; apply Dg; right; auto). rewrite (T _ _ E). auto. }
  rewrite E. rewrite IH; auto. 2:{ intros; eapply D; eauto. right; auto. } rewrite <- app_assoc. auto.
Qed.
(** The generator writes every version (py_emits, C46) and places each unknown's equations in its column: if the symbols that are given have values,
    the first unknown's solutions are defined beforehand, all solutions are defined at the values the equations have, and no guard stops an assignment,
    then the function returns the table at these values. *)
Theorem C70_computes show rb groups p m F out : let nodes := r_nodes rb in
  handed_over nodes -> NoDup (names_of nodes) -> version_free (names_of nodes) -> earlier_only nodes -> make_LHS_versions nodes (create_solution_set nodes) = Some F -> r_eqns rb = F ->
  (forall g, In g groups -> In g (create_solution_set nodes)) -> body show rb groups = Some p ->
  (forall c n, nth_error nodes c = Some n -> n_order n = S c) ->
  (forall k eqs c n q, nth_error F k = Some eqs -> nth_error nodes c = Some n -> nth_error eqs c = Some q -> py_emits show n q) ->
  first_defined nodes m -> (forall n e y, In n nodes -> In e (n_sols n) -> has y e = true -> ~ In y (names_of nodes) -> m y <> None) ->
  executed nodes F out -> total m out -> (forall q, in_matrix F q -> in_domain out (k_rhs q)) -> passes m out p ->
  ikin guard p m = Some (Solutions (map (fun g => map out (sort g)) groups)).
Proof.
  intros nodes H N Vf Eo HF EF G B Ord Em [M1 M2] Inp [X1 X2] Tm Dom P. assert (LF := C43_equations nodes F H HF). cbv zeta in LF. destruct LF as [LF CE].
  unfold body in B. fold nodes in B. destruct (mapM (node_stmts show rb) nodes) as [nss|] eqn:Ens; [|discriminate]. injection B as <-. apply mapM_some in Ens as [Ln Hns].
  match type of P with passes _ _ (_ ++ ?x) => set (rest := x) in * end.
  (* the statements of a node *)
  assert (Blk : forall c n b, nth_error nodes c = Some n -> nth_error nss c = Some b ->
     (forall s, In s b -> computes s /\ forall q, eqn_of s = Some q -> exists k r e, nth_error (create_solution_set nodes) k = Some r /\ In e (n_sols n) /\ in_matrix F q /\ q = Keq (Sym (vname (n_name n) (S k))) (subs_all (sub_names nodes r) e))
     /\ forall k, k < List.length F -> exists s q, In s b /\ eqn_of s = Some q /\ k_lhs q = Sym (vname (n_name n) (S k))).
  { intros c n b Hn Hb. destruct (Hns c n Hn) as (b' & B1 & B2). assert (b' = b) by congruence. subst b'. unfold node_stmts in B2. destruct (node_eqns rb n) as [qs|] eqn:Eq; [|discriminate].
    destruct (mapM (version_stmts show n) qs) as [vs|] eqn:Ev; [|discriminate]. injection B2 as <-. unfold node_eqns in Eq. rewrite EF, (Ord c n Hn), Nat.sub_succ, Nat.sub_0_r in Eq. apply mapM_some in Eq as [Lq Eq]. apply mapM_some in Ev as [Lv Ev].
    assert (Qk : forall k q, nth_error qs k = Some q -> exists eqs r e, nth_error F k = Some eqs /\ nth_error eqs c = Some q /\ nth_error (create_solution_set nodes) k = Some r /\ In e (n_sols n) /\ q = Keq (Sym (vname (n_name n) (S k))) (subs_all (sub_names nodes r) e)).
    { intros k q Hq. assert (Lk := nth_error_some_lt _ _ _ Hq). rewrite Lq in Lk. destruct (nth_error_ex F k Lk) as (eqs & He). destruct (Eq k eqs He) as (q' & Q1 & Q2). assert (q' = q) by congruence. subst q'.
      rewrite LF in Lk. destruct (nth_error_ex _ _ Lk) as (r & Hr). destruct (CE k r Hr) as (eqs' & E1 & _ & E3). assert (eqs' = eqs) by congruence. subst eqs'. destruct (E3 c n Hn) as (e & E4 & E5).
      exists eqs, r, e. repeat split; auto. eapply nth_error_In; eauto. congruence. }
    split.
    - intros s Hs. destruct Hs as [<-|[<-|Hs]]; try (split; [unfold computes; eauto|discriminate]). apply in_concat in Hs as (pv & Hp & Hs). apply In_nth_error in Hp as (k & Hk). assert (Lk := nth_error_some_lt _ _ _ Hk). rewrite Lv in Lk.
      destruct (nth_error_ex qs k Lk) as (q & Hq). destruct (Ev k q Hq) as (pv' & V1 & V2). assert (pv' = pv) by congruence. subst pv'. destruct (version_computes _ _ _ _ _ V2 Hs) as [Cs Es]. split; auto.
      intros q' Eq'. assert (q' = q) by congruence. subst q'. destruct (Qk k q Hq) as (eqs & r & e & A1 & A2 & A3 & A4 & A5). exists k, r, e. split; auto. split; auto. split; auto. exists eqs. split; eapply nth_error_In; eauto.
    - intros k Lk. rewrite <- Lq in Lk. destruct (nth_error_ex qs k Lk) as (q & Hq). destruct (Ev k q Hq) as (pv & V1 & V2). destruct (Qk k q Hq) as (eqs & r & e & A1 & A2 & A3 & A4 & A5).
      destruct (version_emitted _ _ _ _ V2 (Em k eqs c n q A1 Hn A2)) as (s & S1 & S2). exists s, q. split. { right. right. apply in_concat. exists pv. split; auto. eapply nth_error_In; eauto. } split; auto. rewrite A5. auto. }
  (* node by node *)
  assert (Sn : forall n0 ns b, nodes = n0 :: ns -> b < n_nsol n0 -> m (sname (n_name n0) (S b)) <> None).
  { intros n0 ns b En Hb. destruct (nth_error_ex (n_sols n0) b) as (e & He). { destruct (proj1 H n0) as (_ & E & _). rewrite En. left; auto. lia. } destruct (M1 n0 ns b e En He) as (v & V & _). congruence. }
  assert (Row : forall c m', extends m m' -> (forall c' n' k, c' < c -> nth_error nodes c' = Some n' -> k < List.length F -> m' (vname (n_name n') (S k)) <> None) ->
     forall r i v, In r (create_solution_set nodes) -> i < c -> nth_error r i = Some v -> m' v <> None).
  { intros c m' Ex Def r i v Hr Hi Hv. destruct (proj2 H) as (n0 & ns & En & _). assert (H' := H). rewrite En in H'. assert (Hr' := Hr). rewrite En in Hr'. apply In_nth_error in Hr' as (k & Hk). destruct (C42_consistent n0 ns H' k r Hk) as [(b & Lb & B0) C].
    destruct i as [|i].
    - assert (v = sname (n_name n0) (S b)) by congruence. subst v. specialize (Sn n0 ns b En Lb). destruct (m (sname (n_name n0) (S b))) as [w|] eqn:Ew; [|congruence]. rewrite (Ex _ _ Ew). discriminate.
    - assert (Lr := C42_rectangular nodes r H Hr). assert (Li := nth_error_some_lt _ _ _ Hv). rewrite Lr, En in Li. cbn [List.length] in Li. destruct (nth_error_ex ns i) as (n' & Hn'). lia.
      destruct (C i n' Hn') as (j & r' & J1 & J2 & _). assert (v = vname (n_name n') (S j)) by congruence. subst v. apply (Def (S i)); auto. rewrite En. auto. rewrite LF. rewrite En. eapply nth_error_some_lt; eauto. }
  assert (Main : forall d c m', c + d = List.length nodes -> extends m m' -> total m' out -> (forall c' n' k, c' < c -> nth_error nodes c' = Some n' -> k < List.length F -> m' (vname (n_name n') (S k)) <> None) ->
     exists m'', run_py guard (List.concat (skipn c nss) ++ rest) (Py m' true None) = run_py guard rest (Py m'' true None) /\ total m'' out /\ extends m m''
       /\ forall c' n' k, nth_error nodes c' = Some n' -> k < List.length F -> m'' (vname (n_name n') (S k)) <> None).
  { induction d as [|d IH]; intros c m' Lc Ex T Def.
    - rewrite skipn_all2 by lia. cbn [List.concat app]. exists m'. split; auto. split; auto. split; auto. intros c' n' k Hc Lk. apply (Def c' n'); auto. apply nth_error_some_lt in Hc. lia.
    - destruct (nth_error_ex nodes c) as (n & Hn); [lia|]. destruct (nth_error_ex nss c) as (b & Hb); [lia|]. destruct (Blk c n b Hn Hb) as [Bs Bk].
      assert (Es : skipn c nss = b :: skipn (S c) nss). { clear - Hb. revert c Hb. induction nss as [|x l IHl]; intros [|c] Hb; cbn in *; try discriminate. congruence. apply IHl. auto. }
      rewrite Es. cbn [List.concat]. rewrite <- app_assoc.
      destruct (run_block m out b (List.concat (skipn (S c) nss) ++ rest) (Py m' true None)) as (m2 & R1 & R2 & R3 & R4); auto.
      + intros s Hs. destruct (Bs s Hs) as [C1 C2]. split; auto. intros q Eq. destruct (C2 q Eq) as (k & r & e & A1 & A2 & A3 & A4). exists (vname (n_name n) (S k)). assert (El : k_lhs q = Sym (vname (n_name n) (S k))) by (rewrite A4; auto).
        split; auto. split. { destruct A3 as (eqs & E1 & E2). assert (Z := X1 eqs q E1 E2). rewrite El in Z. exact Z. } split; [apply Dom; auto|]. intros y Hy. cbn [p_vars]. rewrite A4 in Hy. cbn [k_rhs] in Hy. assert (Hr := nth_error_In _ _ A1).
        apply has_sub_names in Hy as [(i & n' & B1 & B2 & B3)|[B1 B2]]; [| |apply (C42_rectangular nodes r H Hr)|apply row_free; auto].
        * apply (Row c m' Ex Def r i y Hr); auto. apply (Eo c n e i n'); auto.
        * assert (Z := Inp n e y (nth_error_In _ _ Hn) A2 B1 B2). destruct (m y) as [w|] eqn:Ew; [|congruence]. rewrite (Ex _ _ Ew). discriminate.
      + intros g q mm Hg. apply P. apply in_or_app. left. apply in_concat. exists b. split; auto. eapply nth_error_In; eauto.
      + cbn [p_list p_vars] in *. rewrite R1. apply (IH (S c)); auto. lia. { intros y w Ey. apply R2, Ex. auto. }
        intros c' n' k Lc' Hn' Lk. destruct (Nat.eq_dec c' c) as [->|Ne].
        * assert (n' = n) by congruence. subst n'. destruct (Bk k Lk) as (s & q & S1 & S2 & S3). eapply R4; eauto.
        * assert (Z := Def c' n' k ltac:(lia) Hn' Lk). destruct (m' (vname (n_name n') (S k))) as [w|] eqn:Ew; [|congruence]. rewrite (R2 _ _ Ew). discriminate. }
  destruct (Main (List.length nodes) 0 m) as (m2 & R1 & R2 & R3 & R4); auto. { intros x v; auto. } { intros c' n' k Lc'. lia. }
  cbn [skipn] in R1. unfold ikin. rewrite R1. unfold rest. cbn [app run_py p_vars p_ok p_list]. rewrite (run_appends_ok out); auto.
  intros g x Hg Hx. apply In_nth_error in Hx as (i & Hi). refine (Row (S i) m2 R3 _ g i x (G g Hg) _ Hi); [|lia]. intros c' n' k _ Hn' Lk. apply (R4 c'); auto.
Qed.
End Run.
Print Assumptions C70_text.
Print Assumptions C70_never_returns.
Print Assumptions C70_every_pose_raises.
Print Assumptions C70_returns.
Print Assumptions C70_computes.
