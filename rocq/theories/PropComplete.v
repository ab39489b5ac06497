(** C50: whatever the tree does, no joint value that satisfies the equations is lost. *)
From Coq Require Import Reals ZArith List String Bool Arith Lia Lra.
From Verif Require Import Expr Kin KinSpec Trig Solver SolverSpec SolverFacts SolverInv Sympy0 PropLists SolverHist HistFacts PropHist PropSolvers PropSolversEx PropHistEx.
Import ListNotations.
Local Open Scope string_scope.
Local Open Scope list_scope.

(** For every assignment that satisfies the equations the solver was started with, after any history of ticks every
    solved unknown's value is, modulo a full turn, among its recorded solutions evaluated at that assignment -
    provided those are defined there. *)
Theorem C50_no_solution_lost sy s0 ts s rho i : sympy_ok sy -> initial sy s0 -> sat rho s0 -> soa_ok rho -> runs sy s0 ts s ->
  u_solved (un s i) = true -> all_defd rho (solutions (un s i)) -> among rho (rho (u_sym (un s i))) (solutions (un s i)).
Proof.
  intros OK I Sa So R Hs. assert (Hv := inv_runs sy OK rho So s0 ts s (inv_initial sy rho s0 I Sa) R).
  destruct (uinv_getu rho s i Hv) as (_ & _ & _ & _ & C1 & C2 & C3 & Ne). specialize (Ne Hs). fold (un s i) in *.
  unfold solutions in *. destruct (u_ref (un s i)); [destruct C1|destruct C2|destruct C3]; tauto.
Qed.
Theorem C50_tree sy s0 b s rho i : sympy_ok sy -> initial sy s0 -> sat rho s0 -> soa_ok rho -> ik_solve sy s0 = OK b s ->
  u_solved (un s i) = true -> all_defd rho (solutions (un s i)) -> among rho (rho (u_sym (un s i))) (solutions (un s i)).
Proof. intros OK I Sa So H. destruct (tree_runs sy s0 b s H) as (ts & R). eapply C50_no_solution_lost; eauto. Qed.
(** When the tree succeeds, every unknown of the list is solved. *)
Theorem C50_success_solves_all sy s0 s : ik_solve sy s0 = OK true s -> forall i, In i (s_unks s) -> u_solved (un s i) = true.
Proof.
  unfold ik_solve. generalize 10%nat. intros n. revert s0. induction n; simpl; [discriminate|]. intros s0 H. destruct (solve_routine sy s0) as [[] s1|] eqn:E; try discriminate; eauto.
  injection H as <-. unfold solve_routine, seq2 in E. destruct (sub_transform sy s0) as [[] sa|]; try discriminate. destruct (subtree sy sa) as [[] sb|]; try discriminate.
  destruct (updateL sy sb) as [[] sc|]; try discriminate. destruct (C21_completion_detect sc) as (b & Eb & Hb). rewrite Eb in E. injection E as -> ->. apply Hb. auto.
Qed.
(** A robot pose with Px = d_1 + l_1, Py = d_1 sin th_2 : d_1 = 2, th_2 = PI - 1/2 is found among the solutions. *)
Definition rho50 : env := fun s => if String.eqb s "d_1" then 2%R else if String.eqb s "l_1" then 1%R else if String.eqb s "Px" then 3%R else if String.eqb s "th_2" then (PI - 1/2)%R
  else if String.eqb s "Py" then (2 * sin (PI - 1/2))%R else if String.eqb s "th_12" then (PI - 1/2)%R else if String.eqb s "th_23" then (PI - 1/2)%R else if String.eqb s "th_123" then (PI - 1/2)%R
  else if String.eqb s "th_234" then (PI - 1/2)%R else 0%R.
Example C50_example : sat rho50 ex23 /\ soa_ok rho50 /\ ik_solve sympy0 ex23 = OK true end23 /\ all_defd rho50 (solutions (un end23 1)).
Proof.
  split; [|split; [|split; [exact end23_ok|]]].
  - split.
    + intros M HM i j Hi Hj. change (s_meqs ex23) with [meq (fun i j => match i, j with 0, 3 => (px, Add (Sym "d_1") l1) | 1, 3 => (py, Mul (Sym "d_1") (Sin th2)) | _, _ => (Num 0, Num 0) end)%nat] in HM.
      destruct HM as [<-|[]]. unfold ok_at, holds, meq. cbn [me_Td me_Ts].
      destruct i as [|[|i]]; (destruct j as [|[|[|[|j]]]]); try lia; cbn; repeat split; auto; lra.
    + intros q Hq. change (s_aux ex23) with (@nil kequation) in Hq. destruct Hq.
  - unfold soa_ok. cbn. repeat split; lra.
  - assert (E : solutions (un end23 1) = let t := Div (Sub py (Num 0)) (Sym "d_1") in [Asin t; Sub PiE (Asin t)]) by (vm_compute; reflexivity).
    rewrite E. assert (D : defd rho50 (Asin (Div (Sub py (Num 0)) (Sym "d_1")))).
    { cbn. split; [repeat split; auto; lra|]. assert (B := SIN_bound (PI - 1/2)). 
      match goal with |- (-1 <= ?x <= 1)%R => replace x with (sin (PI - 1/2)) by (cbn; field) end. lra. }
    intros e [<-|[<-|[]]]; [exact D|]. cbn [defd Sub]. split; auto.
Qed.
