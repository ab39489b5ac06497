(** A concrete case for C78: the robot of C77_first_example, whose joints are d_1 (prismatic) and th_2. *)
From Coq Require Import Reals ZArith List String Ascii Bool Arith Lia Lra Permutation.
From Verif Require Import Expr Kin KinSpec PropKin Trig Solver SolverSpec SolverFacts SolverInv PropLists SolverHist HistFacts PropHist PropSolvers PropCrash Soa SoaFacts PropSoa SolSet SolSetFacts PropSolSet CodeGen PropCodeGen CppFacts PropCpp PropEmit PyFile
  PropRows PropRowsEx PropExplain PropSound PyRun PropPyRun PropPyEnd PropMethod PropMethodPy Latex TexFile PropTexFile Session PropSession PropReport Robots PropRobots PropReach Cache PropCache PropEndToEnd EndToEndEx SolSetEx CodeGenEx PropLatexEx Program PropProgram PropProgramEx PropFiles.
Import ListNotations.
Local Open Scope string_scope.
Local Open Scope list_scope.
Local Open Scope nat_scope.
Definition sol_d78 : expr := Div (Add (Num 0) (Neg (Neg (Sym "Pz")))) (Num 1).
Definition sol_th78 : expr := Atan2 (Div (Add (Num 0) (Neg (Neg (Sym "r_21")))) (Num 1)) (Div (Add (Num 0) (Neg (Neg (Sym "r_11")))) (Num 1)).
Definition F78 : list (list kequation) := [[Keq (Sym "d_1v1") sol_d78; Keq (Sym "th_2v1") sol_th78]].
Lemma versions78 : make_LHS_versions (final_nodes arg0 e51) (create_solution_set (final_nodes arg0 e51)) = Some F78. Proof. vm_compute. reflexivity. Qed.
Definition assigns (p : list stmt) : list stmt := filter (fun s => match s with Note _ => false | _ => true end) p.
Lemma body78 ps pv : option_map assigns (body show0 (Robot "K" ps pv (final_nodes arg0 e51) F78) (create_solution_set (final_nodes arg0 e51)))
  = Some [Assign (Keq (Sym "d_1v1") sol_d78); Assign (Keq (Sym "th_2v1") sol_th78); NewList; Append ["d_1s1"; "th_2v1"]; Return].
Proof. vm_compute. reflexivity. Qed.
Lemma run_assigns guard p : forall st, run_py guard p st = run_py guard (assigns p) st.
Proof.
  induction p as [|s p IH]; intros st; auto. destruct s; cbn [assigns filter run_py]; fold (assigns p); auto.
  - destruct (assign st q); auto.
  - destruct (p_ok st); [destruct (guard g (p_vars st)) as [[]|]; auto|]; destruct (assign st q); auto.
  - destruct (p_list st); auto. destruct (mapM (p_vars st) names); auto.
Qed.
Lemma orderly78 : orderly e51.
Proof.
  split.
  - assert (U : s_nodes e51 = [0; 1]) by (vm_compute; reflexivity). rewrite U. clear. repeat constructor; cbn; intuition discriminate.
  - assert (U : s_nodes e51 = [0; 1]) by (vm_compute; reflexivity). rewrite U. intros i l H. injection H as <- <-.
    assert (S : solutions (un e51 0) = [sol_d78]) by (vm_compute; reflexivity). assert (X : u_sym (un e51 0) = "d_1") by (vm_compute; reflexivity).
    intros (e & He & Hm). rewrite S in He. rewrite X in Hm. destruct He as [<-|[]]. discriminate Hm.
Qed.
Local Open Scope R_scope.
(** the pose that the joint values x, t reach *)
Definition pose78 (x t : R) : mat R := fun i j => mev (rhoK x t) ik_lhs i j.
Lemma ok_inj b b' (s s' : state) : OK b s = OK b' s' -> b = b' /\ s = s'. Proof. intros H. injection H as -> ->. auto. Qed.
Lemma e51_only s0 s b : solved_by sympyK niceK straight s0 s b -> s0 = s51 /\ s = e51 /\ b = true.
Proof.
  intros [P S]. assert (E : s51 = s0). { apply some_inj. rewrite <- s51_ok. exact P. } rewrite <- E in S. rewrite e51_ok in S. apply ok_inj in S as [B S]. split; [symmetry; exact E|]. split; symmetry; assumption.
Qed.
Lemma runs78 guard p x m : option_map assigns (Some p) = Some [Assign (Keq (Sym "d_1v1") sol_d78); Assign (Keq (Sym "th_2v1") sol_th78); NewList; Append ["d_1s1"; "th_2v1"]; Return] ->
  forall s c, m "Pz" = Some x -> m "r_21" = Some s -> m "r_11" = Some c ->
  ikin guard p m = match m "d_1s1" with Some y => Some (Solutions [[y; atan2 ((0 + - - s) / 1) ((0 + - - c) / 1)]]) | None => None end.
Proof.
  intros E s c M1 M2 M3. unfold ikin. rewrite run_assigns. cbn [option_map] in E. apply some_inj in E. rewrite E. clear E.
  cbn [run_py assign k_lhs k_rhs p_vars pyeval sol_d78 sol_th78]. rewrite M1. destruct (Req_EM_T 1 0) as [e|_]; [exfalso; lra|]. cbn [p_vars p_ok p_list pset]. unfold pset at 1 2. cbn [String.eqb Ascii.eqb Bool.eqb]. rewrite M2, M3. cbn [p_vars p_ok p_list mapM pset].
  unfold pset. cbn [String.eqb Ascii.eqb Bool.eqb]. destruct (m "d_1s1"); reflexivity.
Qed.
Local Notation cat78 := (catalogue straight).
Local Notation argv78 := (@cons string "ikSolver.py" (@cons string "K" (@nil string))).
Local Notation run78 := (main sympyK niceK show0 tex0 (fun _ => arg0) s_edges (fun _ => mats0) (fun t => t) vars77 cat78 argv78 Finish).
Local Notation then78 := (history sympyK niceK show0 tex0 (fun _ => arg0) s_edges (fun _ => mats0) (fun t => t) vars77 empty_dir happened).
Lemma first78 : as_first sympyK niceK show0 tex0 (fun _ => arg0) s_edges (fun _ => mats0) (fun t => t) vars77 cat78 argv78 then78.
Proof. exact (proj2 (proj2 (proj2 C77_history_example))). Qed.
Lemma ends78 : snd (run78 empty_dir) = Finished true.
Proof. vm_compute. reflexivity. Qed.
Lemma ended78 : snd (run78 then78) = Finished true.
Proof. exact (eq_trans (proj1 first78) ends78). Qed.
Definition files78 := C78_files sympyK niceK show0 tex0 (fun _ => arg0) s_edges (fun _ => mats0) (fun t => t) vars77 sympyK_ok cat78 argv78 "K" straight (number_from 1 varsK) then78 true eq_refl eq_refl (proj1 (Nat.leb_le 2 9) eq_refl) first78 ended78.
(** The history of C77_history_example, and one more run.  The function in the Python file that is then there raises when it is called; if the caller defines d_1s1
    as the solution it stands for, it returns one vector, the joint values that reach the pose. *)
Theorem C78_example x t : orderly e51 /\ solved_by sympyK niceK straight s51 e51 true /\
  exists rb p, python_program show0 (fst (run78 then78)) "K" rb p /\ forall guard, ikin guard p (pose_env (pose78 x t)) = None
    /\ exists y, ikin guard p (pset (pose_env (pose78 x t)) "d_1s1" x) = Some (Solutions [[x; y]]) /\ cong y t.
Proof.
  split; [exact orderly78|]. assert (S51 : solved_by sympyK niceK straight s51 e51 true) by (split; [exact s51_ok|exact e51_ok]). split; [exact S51|].
  destruct files78 as (s0 & s & S & I0 & H). destruct (e51_only s0 s true S) as (E0 & E1 & _). rewrite E1 in H. clear S I0 E0 E1 s.
  destruct (H orderly78) as (ts & m & ps & pv & F & rep & py & c & _ & Fs). clear H.
  destruct (program_of show0 tex0 (fun _ => arg0) s_edges (fun _ => mats0) (fun t => t) vars77 (fun t x => iff_refl _) _ _ _ _ _ _ _ _ _ _ Fs) as (p & B & P & _). cbv beta in B, P.
  assert (EF : F78 = F). { apply some_inj. rewrite <- versions78. exact (proj1 Fs). } rewrite <- EF in B, P. clear EF Fs.
  exists (Robot "K" ps pv (final_nodes arg0 e51) F78), p. split; [exact P|]. assert (A := body78 ps pv). rewrite B in A. clear B P. intros guard.
  assert (K := fun m => runs78 guard p x m A (sin t) (cos t)). clear A. split.
  - rewrite K; reflexivity.
  - exists (atan2 ((0 + - - sin t) / 1) ((0 + - - cos t) / 1)). split. rewrite K; reflexivity.
    replace ((0 + - - sin t) / 1) with (sin t) by lra. replace ((0 + - - cos t) / 1) with (cos t) by lra. apply atan2_unit.
Qed.
(** The hypotheses of C78_python_returns and C78_every_joint_vector on this robot, for all joint values. *)
Lemma u78 : s_unks e51 = [0; 1]%nat /\ s_nodes e51 = [0; 1]%nat /\ u_sym (un e51 0) = "d_1" /\ u_sym (un e51 1) = "th_2" /\ solutions (un e51 0) = [sol_d78] /\ solutions (un e51 1) = [sol_th78] /\ u_nsol (un e51 0) = 1%nat /\ u_nsol (un e51 1) = 1%nat.
Proof. split; [vm_compute; reflexivity|]. split; [vm_compute; reflexivity|]. split; [vm_compute; reflexivity|]. split; [vm_compute; reflexivity|]. split; [vm_compute; reflexivity|]. split; [vm_compute; reflexivity|]. split; vm_compute; reflexivity. Qed.
Lemma node_fields a (s : state) j : n_name (node_of a s j) = u_sym (un s j) /\ n_sols (node_of a s j) = solutions (un s j). Proof. split; reflexivity. Qed.
Lemma nodes78 : exists n0 n1, final_nodes arg0 e51 = [n0; n1] /\ (n_name n0 = "d_1" /\ n_sols n0 = [sol_d78]) /\ n_name n1 = "th_2" /\ n_sols n1 = [sol_th78].
Proof.
  destruct u78 as (_ & E & A & B & C & D & _). exists (node_of arg0 e51 0), (node_of arg0 e51 1). split. { unfold final_nodes. rewrite E. reflexivity. }
  destruct (node_fields arg0 e51 0) as [-> ->]. destruct (node_fields arg0 e51 1) as [-> ->]. auto.
Qed.
Lemma named78 : well_named e51 /\ solved_names e51 = ["d_1"; "th_2"].
Proof.
  destruct u78 as (Eu & En & N0 & N1 & _). assert (SF : self_free e51 = true) by (vm_compute; reflexivity).
  assert (Nm : forall l, l = [0; 1]%nat -> map (fun j => u_sym (un e51 j)) l = ["d_1"; "th_2"]). { intros l ->. cbn [map]. rewrite N0, N1. reflexivity. }
  assert (Sn : solved_names e51 = ["d_1"; "th_2"]) by (apply Nm, En). split; auto. split; [|split; [|split]].
  - rewrite (Nm _ Eu). repeat constructor; cbn; intuition discriminate.
  - rewrite Sn. apply names_ok_th. intros x [<-|[<-|[]]]; reflexivity.
  - rewrite Sn. clear. intros a b Ha Hb x rest E. destruct Ha as [<-|[<-|[]]], Hb as [<-|[<-|[]]]; discriminate E.
  - intros j Hj. apply (self_free_ok _ SF). rewrite Eu. rewrite En in Hj. exact Hj.
Qed.
Lemma inputs78 : inputs_free (final_nodes arg0 e51).
Proof.
  unfold inputs_free. destruct nodes78 as (n0 & n1 & -> & (A1 & A2) & B1 & B2). cbn [names_of map]. rewrite A1, B1. intros n e y Hn He Hy Ny m k _ ->.
  assert (SY : syms_in ["Pz"; "r_21"; "r_11"] e = true). { destruct Hn as [<-|[<-|[]]]; [rewrite A2 in He|rewrite B2 in He]; destruct He as [<-|[]]; reflexivity. }
  assert (Hi := syms_in_has _ _ SY _ Hy). assert (Mv := vname_mark (n_name m) k). cbn in Hi. destruct Hi as [E|[E|[E|[]]]]; rewrite <- E in Mv; vm_compute in Mv; discriminate.
Qed.
Example C78_example_hypotheses x t : orderly e51 /\ well_named e51 /\ inputs_free (final_nodes arg0 e51) /\ first_defined (final_nodes arg0 e51) (pset (pose_env (pose78 x t)) "d_1s1" x)
  /\ (forall j e y, In j (s_nodes e51) -> In e (solutions (un e51 j)) -> has y e = true -> ~ In y (solved_names e51) -> pset (pose_env (pose78 x t)) "d_1s1" x y = Some (rhoK x t y))
  /\ numbers_fit (map (fun j => u_nsol (un e51 j)) (s_nodes e51))
  /\ forall rho j, In j (s_nodes e51) -> (defd rho sol_th78 -> all_defd rho (solutions (un e51 j))) /\ forall e, In e (solutions (un e51 j)) -> free_of_turns ["d_1"; "th_2"] (u_sym (un e51 j)) e.
Proof.
  split; [exact orderly78|]. destruct named78 as (W & Sn). split; [exact W|]. split; [exact inputs78|]. destruct u78 as (Eu & En & N0 & N1 & S0 & S1 & K0 & K1).
  assert (TF : turns_ok ["d_1"; "th_2"] e51 = true) by (vm_compute; reflexivity). split; [|split; [|split]].
  - destruct nodes78 as (n0 & n1 & -> & (A1 & A2) & B1 & B2). split.
    + intros n ns k e E He. injection E as <- <-. rewrite A2 in He. rewrite A1. destruct k as [|k]; cbn [nth_error] in He; [|destruct k; discriminate]. injection He as <-. exists x. split. reflexivity.
      cbn [pyeval sol_d78]. change (pset (pose_env (pose78 x t)) "d_1s1" x "Pz") with (Some x). destruct (Req_EM_T 1 0); [exfalso; lra|]. f_equal. lra.
    + intros n k Hn. unfold pset. assert (Mv := vname_mark (n_name n) k). destruct (String.eqb_spec (vname (n_name n) k) "d_1s1") as [E|_]. { rewrite E in Mv. vm_compute in Mv. discriminate. }
      unfold pose_env. destruct (find _ _) as [[y v]|] eqn:Fd; auto. exfalso. apply find_some in Fd as [Hi E]. cbn [fst] in E. apply String.eqb_eq in E. rewrite <- E in Mv. unfold pose_vars in Hi. cbn [In] in Hi.
      repeat (destruct Hi as [Hi|Hi]; [assert (I' := f_equal fst Hi); cbn [fst] in I'; rewrite <- I' in Mv; vm_compute in Mv; discriminate|]). destruct Hi.
  - rewrite Sn. intros j e y Hj He Hh Hy. assert (SY : syms_in ["Pz"; "r_21"; "r_11"] e = true). { rewrite En in Hj. destruct Hj as [<-|[<-|[]]]; [rewrite S0 in He|rewrite S1 in He]; destruct He as [<-|[]]; reflexivity. }
    assert (Hi := syms_in_has _ _ SY y Hh). cbn in Hi. destruct Hi as [<-|[<-|[<-|[]]]]; reflexivity.
  - rewrite En. cbn [map]. rewrite K0, K1. clear. intros k k' [<-|[]] [<-|[]]. split; [reflexivity|]. apply le_n.
  - intros rho j Hj. assert (Hu : In j (s_unks e51)) by (rewrite Eu; rewrite En in Hj; exact Hj). rewrite En in Hj.
    split. 2:{ intros e He. exact (turns_ok_ok _ _ TF j e Hu He). }
    intros D. destruct Hj as [<-|[<-|[]]]; [rewrite S0|rewrite S1]; intros e [<-|[]]; [|exact D]. cbn [defd sol_d78]. cbn [eval]. repeat split; lra.
Qed.
Print Assumptions C78_example. Print Assumptions C78_example_hypotheses.
