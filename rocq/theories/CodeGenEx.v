(** Concrete cases for C44-C46 and C54, and what goes wrong. *)
From Coq Require Import Reals ZArith List String Ascii Bool Arith Lia Permutation.
From Verif Require Import Expr Kin KinSpec Trig Solver SolverSpec SolverFacts SolverInv Sympy0 PropLists SolverHist HistFacts PropHist PropSolvers PropSolversEx PropHistEx
  SolSet SolSetFacts PropSolSet SolSetEx CodeGen PropCodeGen CppFacts PropCpp PropEmit.
Import ListNotations.
Local Open Scope string_scope.
Local Open Scope list_scope.
Local Open Scope nat_scope.

(** a printer for expressions (fully parenthesised) *)
Definition show_z (z : Z) : string := match z with Z0 => "0" | Zpos p => str_of_nat (Pos.to_nat p) | Zneg p => append "-" (str_of_nat (Pos.to_nat p)) end.
Fixpoint show0 (e : expr) : string :=
  let bin a op b := append "(" (append (show0 a) (append op (append (show0 b) ")"))) in
  let fn f a := append f (append "(" (append (show0 a) ")")) in
  match e with
  | Num z => show_z z | PiE => "pi" | Sym s => s | Add a b => bin a " + " b | Mul a b => bin a "*" b | Neg a => fn "-" a | Div a b => bin a "/" b
  | Pow a n => append (show0 a) (append "**" (str_of_nat n)) | Sin a => fn "sin" a | Cos a => fn "cos" a | Asin a => fn "asin" a | Acos a => fn "acos" a
  | Atan2 y x => append "atan2(" (append (show0 y) (append ", " (append (show0 x) ")"))) | Sqrt a => fn "sqrt" a
  end.

(** ** C44 *)
Definition sol2 (name : string) : node := nd name 2 (ex_sols "r_11").
Definition puma_like := map sol2 ["th_1"; "th_23"; "th_4"; "th_2"].
Example C44_example : handed_over puma_like /\ names_sortable (names_of puma_like)
  /\ map sort (firstn 3 (create_solution_set puma_like)) =
     [["th_1s1"; "th_23v1"; "th_2v1"; "th_4v1"]; ["th_1s2"; "th_23v2"; "th_2v2"; "th_4v2"]; ["th_1s2"; "th_23v3"; "th_2v3"; "th_4v3"]].
Proof.
  split. { apply handed_nd. discriminate. intros n Hn. apply in_map_iff in Hn as (x & <- & _). eexists _, _, _. split; [reflexivity|discriminate]. }
  split. { split. { repeat constructor; cbn; intuition discriminate. } intros a b Ha Hb x r E. destruct Ha as [<-|[<-|[<-|[<-|[]]]]]; destruct Hb as [<-|[<-|[<-|[<-|[]]]]]; cbn in E; try discriminate; inversion E; subst; reflexivity. }
  vm_compute. reflexivity.
Qed.
(** The order is not the order of the joints: th_2 comes third although it is the second joint, because the sum th_23 sorts before it. *)
Theorem C44_joint_order_refuted : exists nodes, handed_over nodes /\ names_sortable (names_of nodes) /\ In "th_2" (names_of nodes)
  /\ forall r, In r (create_solution_set nodes) -> exists v, nth_error (sort r) 2 = Some v /\ String.prefix "th_2v" v = true.
Proof.
  exists puma_like. destruct C44_example as (A & B & _). split; auto. split; auto. split. { right; right; right; left; reflexivity. }
  intros r Hr. assert (X : forallb (fun r => match nth_error (sort r) 2 with Some v => String.prefix "th_2v" v | None => false end) (create_solution_set puma_like) = true) by (vm_compute; reflexivity).
  rewrite forallb_forall in X. specialize (X r Hr). destruct (nth_error (sort r) 2) as [v|]; [|discriminate]. exists v. auto.
Qed.
(** Names that continue another name with 'v': the order differs between rows. *)
Theorem C44_names_refuted : exists nodes r1 r2 v1 v2, handed_over nodes /\ NoDup (names_of nodes) /\ In r1 (create_solution_set nodes) /\ In r2 (create_solution_set nodes)
  /\ nth_error (sort r1) 1 = Some v1 /\ nth_error (sort r2) 1 = Some v2 /\ String.prefix "av" v1 = true /\ String.prefix "av2v" v1 = false /\ String.prefix "av2v" v2 = true.
Proof.
  exists [sol2 "x"; sol2 "a"; sol2 "av2"], ["xs2"; "av3"; "av2v3"], ["xs1"; "av1"; "av2v1"]. exists "av3", "av2v1".
  split. { apply handed_nd. discriminate. intros n [<-|[<-|[<-|[]]]]; eexists _, _, _; (split; [reflexivity|discriminate]). }
  split. { repeat constructor; cbn; intuition discriminate. } vm_compute. intuition.
Qed.

(** ** C45, C46, C54: a robot with three solved unknowns *)
Definition with_method (m : string) (n : node) : node := Node (n_name n) m (n_arg n) (n_order n) (n_nsol n) (n_vers n) (n_sols n) (n_lhs n).
Definition with_order (k : nat) (n : node) : node := Node (n_name n) (n_method n) (n_arg n) k (n_nsol n) (n_vers n) (n_sols n) (n_lhs n).
Definition nodes46 := [with_order 1 (with_method "atan2(y,x)" (nd "th_1" 2 [Atan2 (Sym "r_21") (Sym "r_11"); Add (Atan2 (Sym "r_21") (Sym "r_11")) PiE]));
  with_order 2 (with_method "arcsin" (nd "th_2" 2 [Asin (Mul (Sin (Sym "th_1")) (Sym "r_13")); Sub PiE (Asin (Mul (Sin (Sym "th_1")) (Sym "r_13")))]));
  with_order 3 (with_method "sinANDcos" (nd "th_3" 2 [Atan2 (Sym "Px") (Sym "th_2"); Add (Atan2 (Sym "Px") (Sym "th_2")) PiE]))].
Definition eqns46 := match make_LHS_versions nodes46 (create_solution_set nodes46) with Some F => F | None => [] end.
Definition robot46 := Robot "Arm_3" [("l_1", "5")] true nodes46 eqns46.
Definition groups46 := create_solution_set nodes46.
Definition vars46 := nodup string_dec (List.concat groups46).
Definition file46 := match output_cpp_code show0 robot46 vars46 groups46 with Some c => c_out c | None => [] end.
Definition py46 := match output_python_code show0 robot46 groups46 with Some c => c | None => [] end.
Example C45_example : handed_over nodes46 /\ make_LHS_versions nodes46 (create_solution_set nodes46) = Some eqns46
  /\ (exists c, output_cpp_code show0 robot46 vars46 groups46 = Some c) /\ depth_lines 0 file46 = Some 0
  /\ In "    solution_list[7][2] = th_3v8;" file46.
Proof.
  split. { split. { intros n [<-|[<-|[<-|[]]]]; (split; [|split]); try reflexivity; cbn; lia. } eexists _, _. split; [reflexivity|]. reflexivity. }
  split. { vm_compute. reflexivity. } split. { unfold output_cpp_code. destruct (cpp_cmds show0 robot46 vars46 groups46) as [ms|] eqn:E. eexists; reflexivity. vm_compute in E. discriminate. }
  split. { vm_compute. reflexivity. }
  assert (X : existsb (String.eqb "    solution_list[7][2] = th_3v8;") file46 = true) by (vm_compute; reflexivity). apply existsb_exists in X as (l & Hl & E). apply String.eqb_eq in E. subst l. exact Hl.
Qed.
(** The generated C++ has th_1's assignments, but no line that assigns a version of th_3 (solved by sinANDcos), and th_2's two branches are both arcsin(argument). *)
Definition line_with (p : string) (ls : list string) : bool := existsb (contains p) ls.
Example C46_cpp_example : line_with "th_1v1 = atan2(r_21, r_11);" file46 = true /\ line_with "th_1v2 = (atan2(r_21, r_11) + pi);" file46 = true
  /\ line_with "th_2v1 = arcsin(argument);" file46 = true /\ line_with "th_2v2 = arcsin(argument);" file46 = true /\ line_with "th_3v1 = " (filter (fun l => negb (contains "solution_list" l)) file46) = false.
Proof. vm_compute. intuition. Qed.
Example C46_python_example : line_with "    th_3v1 = atan2(Px, th_2v1)" py46 = true /\ line_with "    th_2v2 = (pi + -(asin((sin(th_1s2)*r_13))))" py46 = true.
Proof. vm_compute. intuition. Qed.
(** th_1s1 is used in returned rows but assigned nowhere in the Python file. *)
Theorem C52_python_refuted : In "th_1s1, " py46 /\ forall l, In l py46 -> contains "th_1s1 = " l = false.
Proof.
  split. { assert (X : existsb (String.eqb "th_1s1, ") py46 = true) by (vm_compute; reflexivity). apply existsb_exists in X as (l & Hl & E). apply String.eqb_eq in E. subst l. exact Hl. }
  intros l Hl. assert (X : forallb (fun l => negb (contains "th_1s1 = " l)) py46 = true) by (vm_compute; reflexivity). rewrite forallb_forall in X. specialize (X l Hl). destruct (contains "th_1s1 = " l); auto.
Qed.
(** An unknown solved by algebra after another method was tried or named (e.g. 'x2z2 transform and '): nothing is written in Python. *)
Theorem C46_python_refuted : exists show n q, contains "algebra" (n_method n) = true /\ py_version show n q = Some [].
Proof. exists show0, (with_method "x2z2 transform and algebra" (nd "d_3" 1 [Sub (Sym "Px") (Sym "l_1")])), (Keq (Sym "d_3v1") (Sub (Sym "Px") (Sym "l_1"))). vm_compute. auto. Qed.

(** A robot solved by the tree with sinANDcos: Px = l_1 sin th_1 + l_2 cos th_1.  The C++ code has no assignment for it. *)
Definition ex46 := start ["th_1"] (meq (fun i j => match i, j with 0, 3 => (px, Add (Mul l1 (Sin th1)) (Mul l2 (Cos th1))) | _, _ => (Num 0, Num 0) end)).
Definition end46 := state_of (ik_solve sympy0 ex46) ex46.
Definition nodes_end46 := final_nodes arg0 end46.
Definition eqns_end46 := match make_LHS_versions nodes_end46 (create_solution_set nodes_end46) with Some F => F | None => [] end.
Definition file_end46 := match output_cpp_code show0 (Robot "One" [("l_1", "1"); ("l_2", "1")] true nodes_end46 eqns_end46) ["th_1s1"; "th_1s2"] [["th_1s1"]; ["th_1s2"]] with Some c => c | None => Cpp [] 0 end.
Lemma nodes46_eq : final_nodes arg0 end46 = nodes_end46. Proof. unfold nodes_end46. reflexivity. Qed.
Lemma set46_eq : create_solution_set nodes_end46 = [["th_1s1"]; ["th_1s2"]]. Proof. vm_compute. reflexivity. Qed.
Lemma eqns46_eq : make_LHS_versions nodes_end46 (create_solution_set nodes_end46) = Some eqns_end46. Proof. vm_compute. reflexivity. Qed.
Lemma file46_eq : output_cpp_code show0 (Robot "One" [("l_1", "1"); ("l_2", "1")] true nodes_end46 eqns_end46) ["th_1s1"; "th_1s2"] [["th_1s1"]; ["th_1s2"]] = Some file_end46.
Proof. vm_compute. reflexivity. Qed.
Lemma file46_no : forallb (fun l => negb (contains "th_1v" l) && negb (contains "th_1s1 =" l) && negb (contains "th_1s2 =" l)) (c_out file_end46) = true. Proof. vm_compute. reflexivity. Qed.
Lemma unks46 : s_unks end46 = [0]. Proof. vm_compute. reflexivity. Qed.
Lemma ik46 : ik_solve sympy0 ex46 = OK true end46. Proof. apply ok_true. vm_compute. reflexivity. Qed.
Lemma solved46 : u_solved (un end46 0) = true. Proof. vm_compute. reflexivity. Qed.
Lemma tan46 : u_tanable (un end46 0) = false. Proof. vm_compute. reflexivity. Qed.
Lemma first46 i l : s_unks end46 = i :: l -> u_tanable (un end46 i) = false. Proof. rewrite unks46. intros E. injection E as <- _. exact tan46. Qed.
Lemma no_assign46 l : In l (c_out file_end46) -> contains "th_1v" l = false /\ contains "th_1s1 =" l = false /\ contains "th_1s2 =" l = false.
Proof.
  intros Hl. assert (X := file46_no). rewrite forallb_forall in X. specialize (X l Hl). apply andb_true_iff in X as [X X3]. apply andb_true_iff in X as [X1 X2]. rewrite negb_true_iff in X1, X2, X3. exact (conj X1 (conj X2 X3)).
Qed.
Theorem C46_cpp_reachable_refuted : exists sy s0 ts s nodes F c, sympy_ok sy /\ initial sy s0 /\ runs1 sy s0 ts s /\ (forall i, In i (s_unks s) -> u_solved (un s i) = true)
  /\ final_nodes arg0 s = nodes /\ create_solution_set nodes = [["th_1s1"]; ["th_1s2"]] /\ make_LHS_versions nodes (create_solution_set nodes) = Some F
  /\ output_cpp_code show0 (Robot "One" [("l_1", "1"); ("l_2", "1")] true nodes F) ["th_1s1"; "th_1s2"] [["th_1s1"]; ["th_1s2"]] = Some c
  /\ forall l, In l (c_out c) -> contains "th_1v" l = false /\ contains "th_1s1 =" l = false /\ contains "th_1s2 =" l = false.
Proof.
  destruct (C23_shipped_tree sympy0 ex46 true end46 (start_initial _ _) ik46 first46) as (ts & R).
  exists sympy0, ex46, ts, end46, nodes_end46, eqns_end46, file_end46. split; [exact sympy0_ok|]. split; [exact (start_initial _ _)|]. split; [exact R|].
  split. { intros i Hi. rewrite unks46 in Hi. destruct Hi as [Hi|Hi]; [rewrite <- Hi; exact solved46|destruct Hi]. }
  split; [exact nodes46_eq|]. split; [exact set46_eq|]. split; [exact eqns46_eq|]. split; [exact file46_eq|]. exact no_assign46.
Qed.
(** C54 on the example: th_1v1 is assigned, not declared; of th_2's eight assigned versions only four are declared. *)
Example C54_example : NoDup (names_of nodes46) /\ ~ In "th_1v1" vars46 /\ In "th_1s1" vars46 /\ In "th_2v4" vars46 /\ ~ In "th_2v5" vars46 /\ line_with "th_2v5 = " file46 = true.
Proof.
  split. { repeat constructor; cbn; intuition discriminate. }
  assert (D : forall v b, (if in_dec string_dec v vars46 then true else false) = b -> if b then In v vars46 else ~ In v vars46) by (intros v b; destruct (in_dec string_dec v vars46); intros <-; auto).
  split; [apply (D _ false); vm_compute; reflexivity|]. split; [apply (D _ true); vm_compute; reflexivity|]. split; [apply (D _ true); vm_compute; reflexivity|]. split; [apply (D _ false); vm_compute; reflexivity|]. vm_compute. reflexivity.
Qed.
