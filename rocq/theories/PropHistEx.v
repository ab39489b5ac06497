(** C22-C25: concrete runs of the whole tree (with the concrete sympy of Sympy0.v), and what goes wrong when the
    proviso of C23/C24 is not met. *)
From Coq Require Import Reals ZArith List String Bool Arith Lia Lra.
From Verif Require Import Expr Kin KinSpec Trig Solver SolverSpec SolverFacts SolverInv Sympy0 PropLists SolverHist HistFacts PropHist PropSolvers PropSolversEx.
Import ListNotations.
Local Open Scope string_scope.
Local Open Scope list_scope.
Local Open Scope nat_scope.

(** A state as set up before the tree is started: the given unknowns, one matrix equation, the lists scanned from it. *)
Definition start (syms : list string) (M : matrix_equation) : state :=
  let s := St (map new_unknown syms) (seq 0 (List.length syms)) None None [] [] [] [M] [] 0 [] [] in
  match scan_for_equations sympy0 [M] [] (unk_objs s) with Some L => set_lists L s | None => s end.
Lemma start_initial syms M : initial sympy0 (start syms M).
Proof.
  unfold initial, start. set (s := St _ _ _ _ _ _ _ _ _ _ _ _). destruct (scan_for_equations sympy0 [M] [] (unk_objs s)) as [[[l1 l2] l3]|] eqn:E.
  - cbn [s_heap s_unks s_curr s_counter s_solveN s_nodes s_edges s_meqs s_aux s_L1 s_L2 s_L3 set_lists set_s_L1 set_s_L2 set_s_L3 s].
    split. { intros u Hu. apply in_map_iff in Hu as (x & <- & _). reflexivity. }
    split. { intros i Hi. apply in_seq in Hi. rewrite map_length. lia. } repeat (split; [reflexivity|]). exact E.
  - apply C26_scan_total in E. discriminate.
Qed.
(** Px = d_1 + l_1 and Py = d_1 sin th_2 *)
Definition ex23 := start ["d_1"; "th_2"] (meq (fun i j => match i, j with 0, 3 => (px, Add (Sym "d_1") l1) | 1, 3 => (py, Mul (Sym "d_1") (Sin th2)) | _, _ => (Num 0, Num 0) end)).
Definition end23 := state_of (ik_solve sympy0 ex23) ex23.
Lemma end23_ok : ik_solve sympy0 ex23 = OK true end23. Proof. apply ok_true. vm_compute. reflexivity. Qed.
Example C23_example : (exists ts, runs1 sympy0 ex23 ts end23) /\ s_nodes end23 = [0; 1] /\ mentions end23 1 0
  /\ map u_names (s_heap end23) = [["d_1s1"]; ["th_2s1"; "th_2s2"]] /\ map u_nver (s_heap end23) = [1; 2] /\ s_edges end23 = [("th_2", "d_1")].
Proof.
  split. { apply (C23_shipped_tree sympy0 ex23 true). apply start_initial. apply end23_ok. intros i l H.
           assert (E : s_unks end23 = [0; 1]) by (vm_compute; reflexivity). rewrite E in H. injection H as <- _. vm_compute. reflexivity. }
  split; [vm_compute; reflexivity|]. split; [|split; [vm_compute; reflexivity|split; vm_compute; reflexivity]].
  unfold mentions. assert (E : solutions (un end23 1) = let t := Div (Sub py (Num 0)) (Sym "d_1") in [Asin t; Sub PiE (Asin t)]) by (vm_compute; reflexivity).
  rewrite E. eexists. split; [left; reflexivity|]. vm_compute. reflexivity.
Qed.
(** Px = l_1 cos th_1, Py = l_1 sin th_1: both methods apply, atan2 has fewer solutions and is kept *)
Definition ex22 := start ["th_1"] (meq (fun i j => match i, j with 0, 3 => (px, Mul l1 (Cos th1)) | 1, 3 => (py, Mul l1 (Sin th1)) | _, _ => (Num 0, Num 0) end)).
Definition mid22 := state_of (assigner ex22) ex22.
Example C22_example : runs sympy0 ex22 [(TAssign, true)] mid22 /\ s_curr mid22 = Some 0 /\ u_solved (un mid22 0) = false
  /\ let s' := state_of (sc_tan sympy0 mid22) mid22 in sc_tan sympy0 mid22 = OK true s'
     /\ List.length (u_sc (un s' 0)) = 2 /\ solutions (un s' 0) = u_tan (un s' 0) /\ List.length (u_tan (un s' 0)) = 1.
Proof.
  split. { econstructor; [|constructor]. apply ok_true. vm_compute. reflexivity. }
  split; [vm_compute; reflexivity|]. split; [vm_compute; reflexivity|]. cbv zeta. split; [apply ok_true; vm_compute; reflexivity|]. split; [vm_compute; reflexivity|split; vm_compute; reflexivity].
Qed.
(** The same with a second unknown that no solver can solve.  The assigner, having found nothing unsolved after th_2,
    hands out th_1 again; tan_id answers SUCCESS because th_1 was identified before, and th_1 is solved a second time:
    it is twice in the list of solution nodes, its solve order changes from 1 to 2, its recorded solutions change from
    the one atan2 solution to two arcsine solutions and its names and versions are appended to - and so on in every
    further round. *)
Definition ex23twice := start ["th_1"; "th_2"] (meq (fun i j => match i, j with 0, 3 => (px, Mul l1 (Cos th1)) | 1, 3 => (py, Mul l1 (Sin th1)) | _, _ => (Num 0, Num 0) end)).
Definition end23twice := state_of (ik_solve sympy0 ex23twice) ex23twice.
Lemma ok_false o d : (match o with OK b _ => b | Raise => true end) = false -> o = OK false (state_of o d).
Proof. destruct o as [[] s|]; simpl; congruence. Qed.
Lemma dup2 {A} (l : list A) a : firstn 2 l = [a; a] -> ~ NoDup l.
Proof. destruct l as [|x [|y l]]; try discriminate. intros E X. injection E as -> ->. inversion X; subst. apply H1. left; auto. Qed.
Theorem C23_solved_twice_refuted : exists sy s0 b s, sympy_ok sy /\ initial sy s0 /\ ik_solve sy s0 = OK b s
  /\ ~ NoDup (s_nodes s) /\ u_order (un s 0) <> 1 /\ ~ NoDup (u_names (un s 0)) /\ List.length (u_names (un s 0)) <> List.length (solutions (un s 0)).
Proof.
  exists sympy0, ex23twice, false, end23twice. split; [apply sympy0_ok|]. split; [apply start_initial|].
  split. { apply ok_false. vm_compute. reflexivity. }
  split. { apply (dup2 _ 0). vm_compute. reflexivity. }
  split. { apply Nat.eqb_neq. vm_compute. reflexivity. }
  split. { apply (dup2 _ "th_1s1"). vm_compute. reflexivity. }
  apply Nat.eqb_neq. vm_compute. reflexivity.
Qed.
(** The recorded solutions of a solved unknown change: after the first round th_1 has its atan2 solution, at the end
    it has two arccosine or arcsine solutions. *)
Definition round (n : nat) := state_of (repeat_until_success n (solve_routine sympy0) ex23twice) ex23twice.
Theorem C24_solutions_change_refuted : u_solved (un (round 1) 0) = true /\ List.length (solutions (un (round 1) 0)) = 1
  /\ List.length (solutions (un (round 2) 0)) = 2.
Proof. split; [vm_compute; reflexivity|split; vm_compute; reflexivity]. Qed.
(** An unknown whose recorded solution mentions itself, in a run of the tree. *)
Definition ex23self := start ["th_1"] (meq (fun i j => match i, j with 0, 3 => (Num 0, Add (Mul (Add (Mul l1 (Cos th1)) px) (Sin th1)) (Mul l2 (Cos th1))) | _, _ => (Num 0, Num 0) end)).
Definition end23self := state_of (ik_solve sympy0 ex23self) ex23self.
Theorem C23_self_dependency_refuted : exists sy s0 s, sympy_ok sy /\ initial sy s0 /\ ik_solve sy s0 = OK true s /\ (exists ts, runs1 sy s0 ts s)
  /\ In 0 (s_nodes s) /\ mentions s 0 0 /\ s_edges s = [("th_1", "th_1")].
Proof.
  exists sympy0, ex23self, end23self. split; [apply sympy0_ok|]. split; [apply start_initial|].
  assert (E : ik_solve sympy0 ex23self = OK true end23self) by (apply ok_true; vm_compute; reflexivity). split; auto.
  split. { apply (C23_shipped_tree sympy0 ex23self true); auto. apply start_initial. intros i l H. assert (E' : s_unks end23self = [0]) by (vm_compute; reflexivity).
           rewrite E' in H. injection H as <- _. vm_compute. reflexivity. }
  assert (Nd : s_nodes end23self = [0]) by (vm_compute; reflexivity). rewrite Nd. split; [left; auto|]. split; [|vm_compute; reflexivity].
  assert (S : solutions (un end23self 0) = [Atan2 (Neg l2) (Add (Mul l1 (Cos th1)) px); Add (Atan2 (Neg l2) (Add (Mul l1 (Cos th1)) px)) PiE]) by (vm_compute; reflexivity).
  unfold mentions. rewrite S. eexists. split; [left; reflexivity|]. vm_compute. reflexivity.
Qed.
