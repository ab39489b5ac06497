(** C78: what the three files left by a run of the whole program contain, and what running the Python program does. *)
From Coq Require Import Reals ZArith List String Ascii Bool Arith Lia Permutation.
From Verif Require Import Expr Kin KinSpec PropKin Trig Solver SolverSpec SolverFacts SolverInv PropLists SolverHist HistFacts PropHist PropSolvers PropCrash PropOnce Soa SoaFacts PropSoa SolSet SolSetFacts PropSolSet CodeGen PropCodeGen CppFacts PropCpp PropEmit PyFile
  PropRows PropExplain PropSound PyRun PropPyRun PropPyEnd PropMethod PropMethodPy Latex TexFile PropTexFile Session PropSession PropReport Robots PropRobots PropReach Cache PropCache PropEndToEnd Program PropProgram.
Import ListNotations.
Local Open Scope string_scope.
Local Open Scope list_scope.
Local Open Scope nat_scope.

Lemma prepared_initial sy nice vars rows s0 : sympy_ok sy -> List.length vars <= 9 -> prepared sy nice vars rows = Some s0 -> initial sy s0.
Proof.
  intros OK V9 Pr. unfold prepared in Pr. destruct (robot_state nice vars rows) as [s1|] eqn:E1; [|discriminate].
  destruct (sum_of_angles_transform sy s1) as [s2|] eqn:E2; [|discriminate].
  destruct (scan_for_equations sy (s_meqs s2) (s_aux s2) (unk_objs s2)) as [L|] eqn:E3; [|discriminate]. injection Pr as <-.
  destruct (robot_state_spec _ _ _ _ E1) as (T01 & T12 & T23 & T34 & T45 & T56 & EL & Es1).
  assert (Ob : unk_objs s1 = numbered vars) by (apply objs_numbered; rewrite Es1; reflexivity).
  assert (J : joints s1).
  { split. rewrite Es1. cbn. intros i Hi. apply in_seq in Hi. rewrite numbered_len. lia.
    rewrite Ob. intros v Hv. apply in_numbered in Hv as (i & x & Hi & ->). cbn. assert (i < List.length vars) by (apply nth_error_Some; congruence). lia. }
  destruct (C28_registered sy s1 s2 OK J E2) as (H & U & A2 & EH & EU & EA2 & HF & _ & _ & _ & HI & _ & _ & _ & F1 & F2 & F3 & F4 & F5).
  destruct L as [[l1 l2] l3]. unfold initial. cbn [set_lists s_heap s_unks s_curr s_counter s_solveN s_nodes s_edges s_meqs s_aux s_L1 s_L2 s_L3 set_s_L1 set_s_L2 set_s_L3 unk_objs].
  split. { rewrite EH. intros u Hu. apply in_app_iff in Hu as [Hu|Hu]; [|apply HF; auto]. rewrite Es1 in Hu. apply in_numbered in Hu as (i & x & _ & ->). reflexivity. }
  split. { rewrite EU. intros i Hi. apply in_app_iff in Hi as [Hi|Hi]; [|apply HI in Hi; lia]. rewrite EH, app_length. assert (X := proj1 J i Hi). lia. }
  rewrite F1, F2, F3, F4, F5, Es1. cbn. repeat (split; [reflexivity|]). exact E3.
Qed.

(** * Specification *)
(** the solver's run: the kinematics of the robot, the state in which the tree leaves the solver, and the result of the tree *)
Definition solved_by (sy : sympy) (nice : expr -> bool) (d : robot_def) (s0 s : state) (b : bool) : Prop := prepared sy nice (rd_vars d) (rd_dh d) = Some s0 /\ ik_solve sy s0 = OK b s.
(** the histories of C23: no unknown is solved twice, and the unknown that was solved first does not occur in its own solution *)
Definition orderly (s : state) : Prop := NoDup (s_nodes s) /\ forall i l, s_nodes s = i :: l -> ~ mentions s i i.
Definition same_rows (order : list SolSet.row -> list SolSet.row) : Prop := forall t x, In x (order t) <-> In x t.

Section C78.
Context (sy : sympy) (nice : expr -> bool) (show latex : expr -> string) (arg : state -> nat -> expr) (edges : state -> list (string * string))
  (mats : @mech (list nat) state -> matrices) (order : list SolSet.row -> list SolSet.row) (vars : list SolSet.row -> list string).
Context (HOK : sympy_ok sy) (HCO : forall a, no_new_symbols (sy_coeff sy a)) (HO : same_rows order).
Local Notation work := (work sy nice show latex arg edges mats order vars). Local Notation main := (main sy nice show latex arg edges mats order vars).
Local Notation as_first := (as_first sy nice show latex arg edges mats order vars).
Local Notation fkm := (fk_main sy nice). Local Notation crun := (Cache.run nice fkm). Local Notation compute := (compute nice fkm).

(** * The files of a run that ends *)
(** what is in the robot [n]'s files in the directory f: the texts of the three generators, for one robot object with the tree's unknowns and one copy of
    the version equations *)
Definition holds_files (n : string) (s : state) (f : dir) (m : @mech (list nat) state) (ps : list (string * string)) (pv : bool) (F : list (list kequation)) (rep py : list string) (c : cpp) : Prop :=
  let nodes := final_nodes (arg s) s in let t := create_solution_set nodes in let rb := Robot n ps pv nodes F in
  make_LHS_versions nodes t = Some F
  /\ output_latex_solution latex solution_names rb (edges s) (order t) (mats m) = Some rep /\ output_python_code show rb (order t) = Some py /\ output_cpp_code show rb (vars t) (order t) = Some c
  /\ report_at show latex (edges s) (mats m) order vars n ps pv nodes [Create; Report; Python; Cplusplus] 1 rep
  /\ d_text f (append "LaTex/ik_solution_" (append (clean_name n) ".tex")) = Whole (file_text rep)
  /\ d_text f (append "CodeGen/Python/IK_equations" (append (clean_name n) ".py")) = Whole (printed (py ++ [py_test rb]))
  /\ d_text f (append "CodeGen/Cpp/IK_equations" (append (clean_name n) ".cpp")) = Whole (printed (c_out c)).
Lemma no_lhs_nodes s0 ts s a x : initial sy s0 -> runs1 sy s0 ts s -> In x (final_nodes a s) -> n_lhs x = [].
Proof. intros I R. unfold final_nodes. intros H. apply in_map_iff in H as (j & <- & _). destruct (hinv2_runs sy s0 ts s (hinv_initial sy s0 I) (hinv2_initial sy s0 I) R j) as [_ E]. exact E. Qed.
Lemma run_c_name c0 q c v h : crun c0 true q Never = (c, Served v h) -> v_name v = q_name q.
Proof. intros E. assert (X := served_name sy nice c0 true q Never v h). rewrite E in X. apply X. reflexivity. Qed.
Lemma to_finished cat argv n d us f b : robot_name argv = Some n -> cat n = Described d us -> snd (main cat argv Finish f) = Finished b -> d_cache f n = Absent ->
  exists m, prepared sy nice (rd_vars d) (rd_dh d) = Some (m_kin m) /\ exists ws, work (View m (rd_vars d) n (m_params m)) = (ws, Finished b) /\ d_text (fst (main cat argv Finish f)) = puts (d_text f) ws.
Proof.
  intros N D E A. rewrite (finish sy nice show latex arg edges mats order vars cat argv n d us f N D) in *. unfold Cache.run in *. cbn [q_name request_of] in *. rewrite A in *.
  destruct (compute (request_of n d)) as [[m u]|] eqn:C; [|cbn [snd] in E; discriminate]. assert (U : u = rd_vars d /\ prepared sy nice (rd_vars d) (rd_dh d) = Some (m_kin m)).
  { unfold Cache.compute, fk_main in C. cbn [request_of q_dh q_vv q_unks] in C. destruct (6 <=? _); [|discriminate]. destruct (prepared _ _ _ _); [|discriminate]. injection C as <- <-. auto. }
  destruct U as [-> U]. exists m. split; auto. destruct (work _) as [ws r] eqn:W. cbn [snd fst d_text] in *. subst r. exists ws. auto.
Qed.
Lemma files_of m u n ps0 ws b f s0 s ts : m_kin m = s0 -> initial sy s0 -> ik_solve sy s0 = OK b s -> runs1 sy s0 ts s -> forall b', work (View m u n ps0) = (ws, Finished b') -> 
  b' = b /\ exists ps pv F rep py c, holds_files n s (Dir (d_cache f) (puts (d_text f) ws)) m ps pv F rep py c /\ param_texts nice show m ps0 = Some ps.
Proof.
  intros K I Sv R b' W. unfold Program.work in W. cbn [v_mech v_name v_params] in W. rewrite K, Sv in W. cbv zeta in W. unfold solved_session in W. cbn [v_mech v_name v_params] in W.
  set (nodes := final_nodes (arg s) s) in *. set (ps1 := match param_texts nice show m ps0 with Some x => x | None => _ end) in W. set (pv := match m_pvals m with [] => false | _ => true end) in W.
  destruct (do_call show latex (edges s) (mats m) order vars (Session n ps1 pv nodes None []) Create) as [[s1 o1]|] eqn:E1; [|discriminate].
  destruct (do_call _ _ _ _ _ _ s1 Report) as [[s2 rep]|] eqn:E2; [|discriminate].
  destruct (param_texts nice show m ps0) as [ps|] eqn:Ep; [|discriminate].
  destruct (do_call _ _ _ _ _ _ s2 Python) as [[s3 py]|] eqn:E3; [|discriminate]. destruct (do_call _ _ _ _ _ _ s3 Cplusplus) as [[s4 cc]|] eqn:E4; [|discriminate].
  injection W as <- <-. split; auto. subst ps1. exists ps, pv.
  assert (NL : forall x, In x nodes -> n_lhs x = []) by (intros x; apply (no_lhs_nodes s0 ts); auto).
  assert (DC : do_calls show latex (edges s) (mats m) order vars (solved_robot n ps pv nodes) [Create; Report; Python; Cplusplus] = Some (s4, [o1; rep; py; cc])).
  { unfold solved_robot. cbn [do_calls]. rewrite E1, E2, E3, E4. reflexivity. }
  assert (X := C60_outputs show latex (edges s) (mats m) order vars n ps pv nodes [Create; Report; Python; Cplusplus] NL). rewrite DC in X. symmetry in X.
  destruct (spec_nth _ _ _ _ _ _ _ _ _ _ _ [] _ 1 Report X eq_refl) as (r1 & A1 & A2). destruct (spec_nth _ _ _ _ _ _ _ _ _ _ _ [] _ 2 Python X eq_refl) as (r2 & B1 & B2). destruct (spec_nth _ _ _ _ _ _ _ _ _ _ _ [] _ 3 Cplusplus X eq_refl) as (r3 & C1 & C2).
  cbn [nth_error] in A1, B1, C1. injection A1 as <-. injection B1 as <-. injection C1 as <-. cbn [app firstn] in A2, B2, C2. unfold spec_output in A2, B2, C2. cbn [created existsb is_create orb negb reports filter is_report List.length] in A2, B2, C2.
  destruct (make_LHS_versions nodes (the_table nodes)) as [F|] eqn:EF; [|discriminate]. exists F, rep, py.
  assert (WC : with_copies n ps pv nodes 1 = Robot n ps pv nodes F). { unfold with_copies, the_eqns. rewrite EF. cbn [repeat List.concat]. rewrite app_nil_r. reflexivity. }
  rewrite WC in A2, B2, C2. destruct (output_cpp_code show (Robot n ps pv nodes F) (vars (the_table nodes)) (order (the_table nodes))) as [c|] eqn:Ec; [|discriminate]. injection C2 as <-. exists c. split; auto.
  unfold holds_files. fold nodes. cbn [d_text]. split; [exact EF|]. split; [exact A2|]. split; [exact B2|]. split; [exact Ec|].
  split. { exists s4, [o1; rep; py; c_out c]. split; auto. }
  assert (N1 := call_name show latex order vars _ _ _ _ n _ _ E1 eq_refl). assert (N2 := call_name show latex order vars _ _ _ _ n _ _ E2 (eq_sym N1)).
  assert (Fn : solution_filename (robot_of s2) = append "LaTex/ik_solution_" (append (clean_name n) ".tex")) by (apply sol_name; exact N2).
  cbn [puts fold_left]. unfold put. cbn [fst snd]. rewrite Fn. unfold python_filename, cpp_filename.
  split. { rewrite String.eqb_refl. reflexivity. }
  split. { rewrite String.eqb_refl. cbn [append String.eqb Ascii.eqb]. replace (py_test (robot_of s2)) with (py_test (Robot n ps pv nodes F)); auto. unfold py_test. do 3 f_equal. unfold fixed_name. cbn [r_name robot_of]. rewrite N2. reflexivity. }
  rewrite String.eqb_refl. reflexivity.
Qed.
(** A run that ends as a first run (C77_first_run, C77_available) leaves three files made from the state in which the solver ended. *)
Theorem C78_files cat argv n d us f b : robot_name argv = Some n -> cat n = Described d us -> List.length (rd_vars d) <= 9 -> as_first cat argv f -> snd (main cat argv Finish f) = Finished b ->
  exists s0 s, solved_by sy nice d s0 s b /\ initial sy s0 /\
    (orderly s -> exists ts m ps pv F rep py c, runs1 sy s0 ts s /\ holds_files n s (fst (main cat argv Finish f)) m ps pv F rep py c).
Proof.
  intros N D V [A1 A2] E. rewrite A1 in E. destruct (to_finished cat argv n d us empty_dir b N D E eq_refl) as (m & P & ws & W & T).
  assert (I := prepared_initial _ _ _ _ _ HOK V P). exists (m_kin m). assert (W' := W). unfold Program.work in W'. cbn [v_mech] in W'. destruct (ik_solve sy (m_kin m)) as [b0 s|] eqn:Sv; [|discriminate].
  assert (X : forall ts, runs1 sy (m_kin m) ts s -> _) by (intros ts R; exact (files_of m (rd_vars d) n (m_params m) ws b0 empty_dir (m_kin m) s ts eq_refl I Sv R b W)).
  assert (b0 = b). { clear - W'. cbv zeta in W'. repeat match type of W' with context [match ?x with _ => _ end] => destruct x end; try discriminate W'; injection W' as _ H; exact H. }
  subst b0. exists s. split; [split; auto|]. split; auto. intros [Or _]. destruct (proj2 (C23_once_iff sy (m_kin m) b s I Sv) Or) as (ts & R). destruct (X ts R) as (_ & ps & pv & F & rep & py & c & H & _). exists ts, m, ps, pv, F, rep, py, c. split; auto.
  unfold holds_files in *. cbn [d_text] in H. destruct H as (H1 & H2 & H3 & H4 & H5 & H6 & H7 & H8). repeat (split; [assumption|]). rewrite <- T in H6, H7, H8.
  split; [|split]; (etransitivity; [apply A2|]); try eassumption; intros Y; rewrite Y in *; discriminate.
Qed.

(** * The Python program *)
(** the file contains the statements p *)
Definition python_program (f : dir) (n : string) (rb : robot) (p : list stmt) : Prop :=
  d_text f (append "CodeGen/Python/IK_equations" (append (clean_name n) ".py")) = Whole (printed ((py_head rb ++ flat_map (lines show) p) ++ [py_test rb])).
Lemma program_of n s f m ps pv F rep py c : holds_files n s f m ps pv F rep py c -> let rb := Robot n ps pv (final_nodes (arg s) s) F in
  exists p, body show rb (order (create_solution_set (final_nodes (arg s) s))) = Some p /\ python_program f n rb p /\ generated_from s (arg s) rb (order (create_solution_set (final_nodes (arg s) s))) F.
Proof.
  intros (H1 & _ & H3 & _ & _ & _ & H7 & _) rb. fold rb in H3, H7. rewrite C70_text in H3. destruct (body show rb _) as [p|]; [|discriminate]. exists p. split; auto. unfold python_program. injection H3 as <-.
  split; [exact H7|]. split; [reflexivity|]. split; [exact H1|]. split; [reflexivity|]. intros g. apply HO.
Qed.
Lemma finished_solved n s f m ps pv F rep py c : holds_files n s f m ps pv F rep py c -> exists i l, s_nodes s = i :: l.
Proof. intros (H & _). unfold final_nodes in H. destruct (s_nodes s) as [|i l]; [discriminate H|]. eauto. Qed.
(** When the tree solves no unknown, the run raises and writes none of the files. *)
Theorem C78_nothing_solved cat argv n d us f s0 s b : robot_name argv = Some n -> cat n = Described d us -> as_first cat argv f -> 6 <= List.length (rd_vv d) -> solved_by sy nice d s0 s b -> s_nodes s = [] ->
  snd (main cat argv Finish f) = Raised /\ d_text (fst (main cat argv Finish empty_dir)) = fun _ => NoFile.
Proof.
  intros N D [A _] L [P Sv] En. rewrite A, !(finish sy nice show latex arg edges mats order vars cat argv n d us empty_dir N D). unfold Cache.run. cbn [d_cache d_text empty_dir q_name request_of].
  unfold Cache.compute, fk_main. cbn [q_dh q_vv q_unks request_of]. apply Nat.leb_le in L. rewrite L, P. unfold Program.work. cbn [v_mech m_kin v_name v_params]. rewrite Sv. cbv zeta. unfold solved_session. cbn [v_mech m_kin v_name v_params].
  replace (final_nodes (arg s) s) with (@nil node) by (unfold final_nodes; rewrite En; reflexivity). split; reflexivity.
Qed.
(** It never returns: called with any pose, any parameters and any version of the guard, the function in the Python file of a run that ended raises. *)
Theorem C78_python_never_returns cat argv n d us f b : robot_name argv = Some n -> cat n = Described d us -> List.length (rd_vars d) <= 9 -> as_first cat argv f -> snd (main cat argv Finish f) = Finished b ->
  exists s0 s i l, solved_by sy nice d s0 s b /\ (orderly s -> s_nodes s = i :: l /\
    exists rb p, python_program (fst (main cat argv Finish f)) n rb p /\ forall guard T ps, (forall k, ps (sname (u_sym (un s i)) k) = None) -> ikin guard p (fun x => match pose_env T x with Some v => Some v | None => ps x end) = None).
Proof.
  intros N D V A E. destruct (C78_files cat argv n d us f b N D V A E) as (s0 & s & S & I & H). exists s0, s, (hd 0 (s_nodes s)), (tl (s_nodes s)). split; auto. intros O. destruct (H O) as (ts & m & ps0 & pv & F & rep & py & c & R & Fs).
  destruct (finished_solved _ _ _ _ _ _ _ _ _ _ Fs) as (i & l & En). rewrite En. cbn [hd tl]. split; auto.
  destruct (program_of _ _ _ _ _ _ _ _ _ _ Fs) as (p & B & P & G1 & G2 & G3 & G4). exists (Robot n ps0 pv (final_nodes (arg s) s) F), p. split; auto. intros guard T ps Hp.
  destruct (C42_reachable sy s0 ts s (arg s) i l I R En) as (Ho & _ & _ & Nn). { apply (proj2 O i l). auto. }
  assert (Fn : final_nodes (arg s) s = node_of (arg s) s i :: map (node_of (arg s) s) l) by (unfold final_nodes; rewrite En; reflexivity).
  refine (C70_every_pose_raises guard show (Robot n ps0 pv (final_nodes (arg s) s) F) _ p T ps (node_of (arg s) s i) (map (node_of (arg s) s) l) F Fn _ _ G3 _ _ B Hp); rewrite <- ?Fn; auto.
  - destruct (create_solution_set (final_nodes (arg s) s)) as [|g gs] eqn:Et; [discriminate G2|exists g; apply HO; left; auto].
  - intros g. apply HO.
Qed.
(** With the names of the first unknown's solutions defined by the caller: what it returns are vectors at which the solved unknowns answer the equations reported for them. *)
Theorem C78_python_returns cat argv n d us f b : robot_name argv = Some n -> cat n = Described d us -> List.length (rd_vars d) <= 9 -> as_first cat argv f -> snd (main cat argv Finish f) = Finished b ->
  exists s0 s, solved_by sy nice d s0 s b /\ (orderly s -> well_named s -> inputs_free (final_nodes (arg s) s) ->
    exists rb p, python_program (fst (main cat argv Finish f)) n rb p /\
      forall guard m L, first_defined (final_nodes (arg s) s) m -> ikin guard p m = Some (Solutions L) ->
        exists perm, Permutation perm (seq 0 (List.length (s_nodes s))) /\ forall v, In v L ->
          exists theta, v = vector (solved_names s) perm theta /\ (forall x a, m x = Some a -> ~ In x (solved_names s) -> theta x = a) /\ forall j, In j (s_nodes s) -> answers (un s j) theta).
Proof.
  intros N D V A E. destruct (C78_files cat argv n d us f b N D V A E) as (s0 & s & S & I & H). exists s0, s. split; auto. intros O W If. destruct (H O) as (ts & m & ps0 & pv & F & rep & py & c & R & Fs).
  destruct (finished_solved _ _ _ _ _ _ _ _ _ _ Fs) as (i & l & En). destruct (program_of _ _ _ _ _ _ _ _ _ _ Fs) as (p & B & P & G). exists (Robot n ps0 pv (final_nodes (arg s) s) F), p. split; auto.
  intros guard m0 L Fd Rn. destruct (C70_returned_vectors sy HOK HCO s0 ts s (arg s) i l _ _ F guard show p m0 L I R En W G If B Fd Rn) as (perm & P1 & _ & P3). exists perm. split; auto.
Qed.
(** And they contain every joint vector: whatever the joints and parameters of the robot, if the pose handed to the function is the one they reach (C64), under the conditions of C66 on what the solver recorded. *)
Theorem C78_every_joint_vector cat argv n d us f b rho0 : robot_name argv = Some n -> cat n = Described d us -> var_names (rd_vars d) -> (forall r, In r (rd_dh d) -> row_names (rd_vars d) r) -> List.length (rd_dh d) <= 6 -> table_names (rd_dh d) ->
  (forall rho r, In r (rd_dh d) -> row_defd rho r) -> (forall x, In x (rd_vars d) -> ~ In x pose_names /\ ~ In x const_names) ->
  as_first cat argv f -> snd (main cat argv Finish f) = Finished b ->
  exists s0 s, solved_by sy nice d s0 s b /\ (orderly s -> well_named s -> inputs_free (final_nodes (arg s) s) ->
    exists rb p, python_program (fst (main cat argv Finish f)) n rb p /\
    exists rho, (forall x, In x (rd_vars d) -> rho x = rho0 x) /\ Meq 4 (mev rho ik_lhs) (FK rho (rd_dh d)) /\
      forall guard m L A, first_defined (final_nodes (arg s) s) m -> ikin guard p m = Some (Solutions L) ->
        (forall j e x, In j (s_nodes s) -> In e (solutions (un s j)) -> has x e = true -> ~ In x (solved_names s) -> m x = Some (rho x)) ->
        numbers_fit (map (fun j => u_nsol (un s j)) (s_nodes s)) ->
        (forall j, In j (s_nodes s) -> all_defd rho (solutions (un s j))
           /\ (~ In (u_sym (un s j)) A -> PropRows.by_algebra sy s0 s j) /\ forall e, In e (solutions (un s j)) -> free_of_turns A (u_sym (un s j)) e) ->
        incl A (solved_names s) ->
        exists perm, Permutation perm (seq 0 (List.length (s_nodes s))) /\ exists theta, In (vector (solved_names s) perm theta) L
          /\ (forall x, In x (solved_names s) -> matches A x (theta x) (rho x)) /\ forall x, In x (solved_names s) -> In x (rd_vars d) -> matches A x (theta x) (rho0 x)).
Proof.
  intros N D Vn Rn L6 Tn Rd Vp A E. destruct (C78_files cat argv n d us f b N D (proj1 Vn) A E) as (s0 & s & S & I & H). exists s0, s. split; auto. intros O W If. destruct (H O) as (ts & m & ps0 & pv & F & rep & py & c & R & Fs).
  destruct (finished_solved _ _ _ _ _ _ _ _ _ _ Fs) as (i & l & En). destruct (program_of _ _ _ _ _ _ _ _ _ _ Fs) as (p & B & P & G). exists (Robot n ps0 pv (final_nodes (arg s) s) F), p. split; auto.
  destruct (C38_reached nice (rd_dh d) rho0 L6 Tn) as (rho & Ag & Co & M).
  destruct (prepared_sat sy nice (rd_vars d) (rd_dh d) s0 rho HOK Vn (fun r Hr => conj (Rn r Hr) (Rd rho r Hr)) Co M (proj1 S)) as (_ & rho' & NS & Ag' & Sa & So).
  assert (V : forall x, In x (rd_vars d) -> rho' x = rho0 x). { intros x Hx. rewrite Ag' by auto. destruct (Vp x Hx). apply Ag; auto. }
  exists rho'. split; auto. split.
  { rewrite (FK_ext rho rho' (rd_dh d)). 2:{ intros r e Hr He. apply eval_ext. intros x Hx. apply Ag'. apply (Rn r Hr e x); auto. }
    intros a0 b0 Ha Hb. rewrite <- (M a0 b0 Ha Hb). unfold mev, ik_lhs, of_rows. idx a0 Ha; idx b0 Hb; cbn; try reflexivity; apply Ag'; right; reflexivity. }
  intros guard m0 L A0 Fd Run Inp Nf Hj IA. destruct (C70_contains sy HOK s0 ts s rho' A0 (arg s) i l _ _ F guard show p m0 L I Sa So R En W G If B Fd Run Inp Nf Hj IA) as (perm & P1 & theta & T1 & T2).
  exists perm. split; auto. exists theta. split; auto. split; auto. intros x Hx Hv. rewrite <- (V x Hv). auto.
Qed.
(** In particular for every robot of the catalogue. *)
Theorem C78_catalogue argv n d us f b rho0 : robot_name argv = Some n -> robot_params n = Described d us -> as_first robot_params argv f -> snd (main robot_params argv Finish f) = Finished b ->
  exists s0 s, solved_by sy nice d s0 s b /\ (orderly s -> well_named s -> inputs_free (final_nodes (arg s) s) ->
    exists rb p, python_program (fst (main robot_params argv Finish f)) n rb p /\
    exists rho, (forall x, In x (rd_vars d) -> rho x = rho0 x) /\ Meq 4 (mev rho ik_lhs) (FK rho (rd_dh d)) /\
      forall guard m L A, first_defined (final_nodes (arg s) s) m -> ikin guard p m = Some (Solutions L) ->
        (forall j e x, In j (s_nodes s) -> In e (solutions (un s j)) -> has x e = true -> ~ In x (solved_names s) -> m x = Some (rho x)) ->
        numbers_fit (map (fun j => u_nsol (un s j)) (s_nodes s)) ->
        (forall j, In j (s_nodes s) -> all_defd rho (solutions (un s j))
           /\ (~ In (u_sym (un s j)) A -> PropRows.by_algebra sy s0 s j) /\ forall e, In e (solutions (un s j)) -> free_of_turns A (u_sym (un s j)) e) ->
        incl A (solved_names s) ->
        exists perm, Permutation perm (seq 0 (List.length (s_nodes s))) /\ exists theta, In (vector (solved_names s) perm theta) L
          /\ (forall x, In x (solved_names s) -> matches A x (theta x) (rho x)) /\ forall x, In x (solved_names s) -> In x (rd_vars d) -> matches A x (theta x) (rho0 x)).
Proof.
  intros N E. destruct (namesb_ok d (described_check namesb [] ltac:(vm_compute; reflexivity) n d us E (fun x => x))) as (VN & RN).
  assert (T := tableb_ok d (described_check tableb [] ltac:(vm_compute; reflexivity) n d us E (fun x => x))).
  assert (K := described_check (fun d => forallb (fun x => negb (memb x pose_names) && negb (memb x const_names)) (rd_vars d ++ rd_params d)) [] ltac:(vm_compute; reflexivity) n d us E (fun x => x)). cbn beta in K. rewrite forallb_forall in K.
  assert (C := described_check (fun d => forallb (fun r => forallb totalb (cells r)) (rd_dh d)) [] ltac:(vm_compute; reflexivity) n d us E (fun x => x)). cbn beta in C. rewrite forallb_forall in C.
  apply (C78_every_joint_vector robot_params argv n d us f b rho0 N E VN RN); auto.
  - rewrite (sound_six d (proj1 (C64_sound _ _ _ E))); auto.
  - intros rho r Hr e He. apply totalb_ok. assert (X := C r Hr). rewrite forallb_forall in X. apply X; auto.
  - intros x Hx. assert (I : In x (rd_vars d ++ rd_params d)) by (apply in_or_app; auto). apply K, andb_true_iff in I as (X & Y). split; intros I; apply memb_in in I; rewrite I in *; discriminate.
Qed.
(** Every version equation is assigned in the file, unless the recorded method is the misnamed one of C75. *)
Theorem C78_python_writes cat argv n d us f b : robot_name argv = Some n -> cat n = Described d us -> List.length (rd_vars d) <= 9 -> as_first cat argv f -> snd (main cat argv Finish f) = Finished b -> shows_calls show ->
  exists s0 s, solved_by sy nice d s0 s b /\ (orderly s -> exists rb out F, d_text (fst (main cat argv Finish f)) (append "CodeGen/Python/IK_equations" (append (clean_name n) ".py")) = Whole (printed (out ++ [py_test rb]))
    /\ make_LHS_versions (final_nodes (arg s) s) (create_solution_set (final_nodes (arg s) s)) = Some F
    /\ forall c x k eqs q, nth_error (final_nodes (arg s) s) c = Some x -> nth_error F k = Some eqs -> nth_error eqs c = Some q -> (exists l, In l out /\ py_assign show q l) \/ exists p, p <> "" /\ n_method x = append p "algebra").
Proof.
  intros N D V A E Sh. destruct (C78_files cat argv n d us f b N D V A E) as (s0 & s & S & I & H). exists s0, s. split; auto. intros O. destruct (H O) as (ts & m & ps0 & pv & F & rep & py & c & R & Fs).
  destruct Fs as (H1 & _ & H3 & _ & _ & _ & H7 & _). exists (Robot n ps0 pv (final_nodes (arg s) s) F), py, F. split; auto. split; auto. intros col x k eqs q Hx Hk Hq.
  exact (C75_python_writes sy s0 ts s (arg s) show (Robot n ps0 pv (final_nodes (arg s) s) F) _ py col x k eqs q HOK HCO I R Sh eq_refl H1 H3 Hx Hk Hq).
Qed.
(** And in the C++ file, except for the formulas of C75. *)
Theorem C78_cpp_writes cat argv n d us f b : robot_name argv = Some n -> cat n = Described d us -> List.length (rd_vars d) <= 9 -> as_first cat argv f -> snd (main cat argv Finish f) = Finished b ->
  exists s0 s, solved_by sy nice d s0 s b /\ (orderly s -> exists out F, d_text (fst (main cat argv Finish f)) (append "CodeGen/Cpp/IK_equations" (append (clean_name n) ".cpp")) = Whole (printed out)
    /\ make_LHS_versions (final_nodes (arg s) s) (create_solution_set (final_nodes (arg s) s)) = Some F
    /\ forall c x k eqs q, nth_error (final_nodes (arg s) s) c = Some x -> nth_error F k = Some eqs -> nth_error eqs c = Some q -> no_nl (assignment show q) = true -> In (append "    " (fix_line (append (assignment show q) ";"))) out \/ cpp_may_miss (n_sols x)).
Proof.
  intros N D V A E. destruct (C78_files cat argv n d us f b N D V A E) as (s0 & s & S & I & H). exists s0, s. split; auto. intros O. destruct (H O) as (ts & m & ps0 & pv & F & rep & py & c & R & Fs).
  destruct Fs as (H1 & _ & _ & H4 & _ & _ & _ & H8). exists (c_out c), F. split; auto. split; auto. intros col x k eqs q Hx Hk Hq Nl.
  exact (C75_cpp_writes sy s0 ts s (arg s) show (Robot n ps0 pv (final_nodes (arg s) s) F) _ _ c x k eqs q col HOK HCO I R eq_refl H4 Nl Hx Hk Hq).
Qed.
(** * The report *)
(** Every solution of every unknown that the tree solved is in the report file, under the unknown's name and method; and every pose of the table is. *)
Theorem C78_report cat argv n d us f b : robot_name argv = Some n -> cat n = Described d us -> List.length (rd_vars d) <= 9 -> as_first cat argv f -> snd (main cat argv Finish f) = Finished b ->
  exists s0 s, solved_by sy nice d s0 s b /\ (orderly s -> exists rep, d_text (fst (main cat argv Finish f)) (append "LaTex/ik_solution_" (append (clean_name n) ".tex")) = Whole (file_text rep)
    /\ (forall j, In j (s_unks s) -> u_solved (un s j) = true -> u_method (un s j) <> ""
        /\ part_on latex (u_sym (un s j)) (u_method (un s j)) (map (fun ke => LaTexOutput latex (1 <? List.length (solutions (un s j))) (Keq (Sym (solution_name (u_sym (un s j)) (fst ke))) (snd ke))) (enum (solutions (un s j)))) rep)
    /\ forall g, In g (create_solution_set (final_nodes (arg s) s)) -> shown (tuple_repr g) rep).
Proof.
  intros N D V A E. destruct (C78_files cat argv n d us f b N D V A E) as (s0 & s & S & I & H). exists s0, s. split; auto. intros O. destruct (H O) as (ts & m & ps0 & pv & F & rep & py & c & R & Fs).
  destruct Fs as (_ & _ & _ & _ & H5 & H6 & _). exists rep. split; auto. split.
  - intros j Hj Sj. exact (C76_solutions sy s0 ts s (arg s) HOK HCO I R show latex (edges s) (mats m) order vars n ps0 pv _ 1 rep H5 j Hj Sj).
  - intros g Hg. refine (proj1 (C76_poses sy s0 ts s (arg s) I R show latex (edges s) (mats m) order vars n ps0 pv _ 1 rep H5 g _ Hg)). intros t x. apply HO.
Qed.
End C78.
Print Assumptions C78_files. Print Assumptions C78_nothing_solved. Print Assumptions C78_python_never_returns. Print Assumptions C78_python_returns. Print Assumptions C78_every_joint_vector. Print Assumptions C78_catalogue. Print Assumptions C78_python_writes. Print Assumptions C78_cpp_writes. Print Assumptions C78_report.
