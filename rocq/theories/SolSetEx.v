(** Concrete cases for C42, C43, C52. *)
From Coq Require Import Reals ZArith List String Ascii Bool Arith Lia.
From Verif Require Import Expr Kin KinSpec Trig Solver SolverSpec SolverFacts SolverInv Sympy0 PropLists SolverHist HistFacts PropHist PropSolvers PropSolversEx PropHistEx SolSet SolSetFacts PropSolSet.
Import ListNotations.
Local Open Scope string_scope.
Local Open Scope list_scope.
Local Open Scope nat_scope.

(** ** A state the solver reaches: d_1 with one solution, then th_2 with two *)
Definition arg0 : nat -> expr := fun _ => Num 0.
Lemma no_self23 : ~ mentions end23 0 0.
Proof.
  assert (E : existsb (fun e => has (u_sym (un end23 0)) e) (solutions (un end23 0)) = false) by (vm_compute; reflexivity).
  intros (e & He & Hh). assert (X : existsb (fun e => has (u_sym (un end23 0)) e) (solutions (un end23 0)) = true).
  { apply existsb_exists. exists e. split; [exact He|exact Hh]. } rewrite E in X. discriminate.
Qed.
Example C42_reachable_example : exists ts, initial sympy0 ex23 /\ runs1 sympy0 ex23 ts end23 /\ s_nodes end23 = [0; 1] /\ ~ mentions end23 0 0
  /\ create_solution_set (final_nodes arg0 end23) = [["d_1s1"; "th_2v1"]; ["d_1s1"; "th_2v2"]].
Proof.
  destruct C23_example as ((ts & R) & E & _). exists ts. split. { apply start_initial. }
  split; [exact R|]. split; [exact E|]. split; [exact no_self23|]. vm_compute. reflexivity.
Qed.
(** For it make_LHS_versions raises: the tree solves the robot, but no code is produced. *)
Theorem C43_exception_reachable_refuted : exists sy s0 ts s, sympy_ok sy /\ initial sy s0 /\ runs1 sy s0 ts s
  /\ (forall i, In i (s_unks s) -> u_solved (un s i) = true)
  /\ make_LHS_versions (final_nodes arg0 s) (create_solution_set (final_nodes arg0 s)) = None.
Proof.
  destruct C42_reachable_example as (ts & I & R & _). exists sympy0, ex23, ts, end23. split; [apply sympy0_ok|]. split; [exact I|]. split; [exact R|].
  split; [|vm_compute; reflexivity]. intros i Hi. assert (E : s_unks end23 = [0; 1]) by (vm_compute; reflexivity). rewrite E in Hi. destruct Hi as [<-|[<-|[]]]; vm_compute; reflexivity.
Qed.

(** ** Three unknowns with two solutions each *)
Definition ex43 : list node :=
  [nd "th_1" 2 [Atan2 (Sym "r_21") (Sym "r_11"); Add (Atan2 (Sym "r_21") (Sym "r_11")) PiE];
   nd "th_2" 2 [Asin (Mul (Sin (Sym "th_1")) (Sym "r_13")); Sub PiE (Asin (Mul (Sin (Sym "th_1")) (Sym "r_13")))];
   nd "th_23" 2 [Acos (Add (Sym "th_1") (Sym "th_2")); Neg (Acos (Add (Sym "th_1") (Sym "th_2")))]].
Example C43_example : handed_over ex43 /\ two_each ex43 /\ NoDup (names_of ex43) /\ version_free (names_of ex43) /\ earlier_only ex43 /\ inputs_free ex43
  /\ create_solution_set ex43 =
     [["th_1s1"; "th_2v1"; "th_23v1"]; ["th_1s2"; "th_2v2"; "th_23v2"]; ["th_1s2"; "th_2v3"; "th_23v3"]; ["th_1s1"; "th_2v4"; "th_23v4"];
      ["th_1s1"; "th_2v4"; "th_23v5"]; ["th_1s2"; "th_2v3"; "th_23v6"]; ["th_1s2"; "th_2v2"; "th_23v7"]; ["th_1s1"; "th_2v1"; "th_23v8"]]
  /\ exists F, make_LHS_versions ex43 (create_solution_set ex43) = Some F
     /\ (exists eqs, nth_error F 4 = Some eqs /\ nth_error eqs 2 = Some (Keq (Sym "th_23v5") (Acos (Add (Sym "th_1s1") (Sym "th_2v4"))))).
Proof.
  assert (M : forall x, In x (names_of ex43) -> mark x = Some "_"%char). { intros x [<-|[<-|[<-|[]]]]; reflexivity. }
  split. { apply handed_nd. discriminate. intros n [<-|[<-|[<-|[]]]]; eexists _, _, _; (split; [reflexivity|discriminate]). }
  split. { intros n [<-|[<-|[<-|[]]]]; reflexivity. }
  split. { repeat constructor; cbn; intuition discriminate. }
  split. { apply names_ok_th. auto. }
  split. { intros c n e c' n' Hc He Hc' Hh. destruct c as [|[|[|c]]]; cbn in Hc; try (destruct c; discriminate); injection Hc as <-;
           destruct c' as [|[|[|c']]]; cbn in Hc'; try (destruct c'; discriminate); injection Hc' as <-; try lia;
           destruct He as [<-|[<-|[]]]; vm_compute in Hh; discriminate. }
  split. { intros n e x Hn He Hx _ m k _ E. assert (X : mark x = Some "_"%char). { destruct Hn as [<-|[<-|[<-|[]]]]; destruct He as [<-|[<-|[]]]; cbn [has Sub] in Hx; repeat (apply orb_true_iff in Hx as [Hx|Hx]); try discriminate; apply String.eqb_eq in Hx; subst x; try (rewrite <- Hx); reflexivity. }
           rewrite E, vname_mark in X. discriminate. }
  split. { vm_compute. reflexivity. }
  eexists. split. { vm_compute. reflexivity. } eexists. split; reflexivity.
Qed.
