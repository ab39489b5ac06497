(** A concrete case for C76: the two-unknown robot of C66, solved by the shipped tree, then create_solution_set and a report. *)
From Coq Require Import Reals ZArith List String Ascii Bool Arith Lia.
From Verif Require Import Expr Kin KinSpec Solver SolverSpec SolverFacts SolverInv PropLists SolverHist HistFacts PropHist Sympy0 PropSolvers PropSolversEx PropHistEx PropCrash PropCrashEx PropRowsEx PropExplain PropExplainEx
  SolSet SolSetFacts PropSolSet SolSetEx CodeGen PropCodeGen CppFacts PropEmit PropPy CodeGenEx PyRun PropPyRun PropPyEnd Latex PropLatex PropLatexEx Session PropSession PropMethod PropMethodPy PropReport.
Import ListNotations.
Local Open Scope string_scope.
Local Open Scope list_scope.
Local Open Scope nat_scope.

Definition two_texts (r : option (session * list (list string))) : bool := match r with Some (_, [_; _]) => true | _ => false end.
Lemma second_out show latex edges mats order vars nm ps pv nodes :
  two_texts (do_calls show latex edges mats order vars (solved_robot nm ps pv nodes) [Create; Report]) = true -> exists out, report_at show latex edges mats order vars nm ps pv nodes [Create; Report] 1 out.
Proof. unfold report_at. destruct (do_calls _ _ _ _ _ _ _ _) as [[s' os]|]; [|discriminate]. destruct os as [|o1 [|o2 [|]]]; try discriminate. intros _. exists o2, s', [o1; o2]. auto. Qed.
Lemma report76 : exists out, report_at show0 tex0 (s_edges end66) mats0 (fun t => t) (fun t => nodup string_dec (List.concat t)) "ex" [] false (final_nodes arg0 end66) [Create; Report] 1 out.
Proof. apply second_out. vm_compute. reflexivity. Qed.
(** both unknowns are solved, with two solutions each, and the displayed equations are ordinary *)
Definition eqs76 (j : nat) : list string :=
  map (fun ke => LaTexOutput tex0 (1 <? List.length (solutions (un end66 j))) (Keq (Sym (solution_name (u_sym (un end66 j)) (fst ke))) (snd ke))) (enum (solutions (un end66 j))).
Lemma solved76 : forallb (fun j => u_solved (un end66 j)) [0; 1] = true. Proof. vm_compute. reflexivity. Qed.
Lemma unks76 : s_unks end66 = [0; 1]. Proof. vm_compute. reflexivity. Qed.
Lemma eqs76_are : eqs76 0 = ["\theta_{1s1} &= \operatorname{asin}{\left(1 \right)}"; "\theta_{1s2} &= \pi + - \operatorname{asin}{\left(1 \right)}"]. Proof. vm_compute. reflexivity. Qed.
Lemma ordinary76 : forallb (fun t => negb (contains "(.+)=(.+)/(.+)" t)) (eqs76 0 ++ eqs76 1) = true. Proof. vm_compute. reflexivity. Qed.
Lemma rows76 : 0 <? List.length (create_solution_set (final_nodes arg0 end66)) = true. Proof. vm_compute. reflexivity. Qed.
Lemma edge76 : s_edges end66 = [("th_2", "th_1")]. Proof. vm_compute. reflexivity. Qed.
(** the report of that robot exists, and shows both solutions of th_1 in the part on th_1 *)
Example C76_example : exists ts out, sympy_ok sympy0 /\ (forall a, no_new_symbols (sy_coeff sympy0 a)) /\ initial sympy0 ex66 /\ runs1 sympy0 ex66 ts end66
  /\ report_at show0 tex0 (s_edges end66) mats0 (fun t => t) (fun t => nodup string_dec (List.concat t)) "ex" [] false (final_nodes arg0 end66) [Create; Report] 1 out
  /\ (forall j, In j (s_unks end66) -> u_solved (un end66 j) = true) /\ Forall ordinary (eqs76 0 ++ eqs76 1)
  /\ shown "\theta_{1s1} &= \operatorname{asin}{\left(1 \right)}" out /\ shown "\theta_{1s2} &= \pi + - \operatorname{asin}{\left(1 \right)}" out /\ shown "Edge:th_2 depends on: th_1" out.
Proof.
  destruct end66_tree as [ts R]. destruct report76 as (out & Rep). exists ts, out.
  assert (Sv : forall j, In j (s_unks end66) -> u_solved (un end66 j) = true). { rewrite unks76. apply forallb_forall. exact solved76. }
  assert (Or : Forall ordinary (eqs76 0 ++ eqs76 1)). { apply Forall_forall. intros t Ht. assert (X := ordinary76). rewrite forallb_forall in X. specialize (X t Ht). apply negb_true_iff in X. exact X. }
  assert (J : In 0 (s_unks end66)) by (rewrite unks76; left; reflexivity).
  assert (K := C76_solutions sympy0 ex66 ts end66 arg0 sympy0_ok sympy0_coeff (start_initial _ _) R _ _ _ _ _ _ _ _ _ _ _ _ Rep 0 J (Sv 0 J)). fold (eqs76 0) in K.
  rewrite eqs76_are in K, Or. destruct K as (_ & rest & Sh & P).
  assert (Q : forall t, In t ["\theta_{1s1} &= \operatorname{asin}{\left(1 \right)}"; "\theta_{1s2} &= \pi + - \operatorname{asin}{\left(1 \right)}"] -> shown t out).
  { intros t Ht. destruct (P t Ht) as (a & b & E). { rewrite Forall_forall in Or. apply Or. apply in_or_app. left. exact Ht. }
    unfold shown in *. apply (part_trans t (append (heading tex0 (u_sym (un end66 0)) (u_method (un end66 0))) rest)); [|exact Sh]. apply part_r. exists a, b. exact E. }
  split; [exact sympy0_ok|]. split; [exact sympy0_coeff|]. split; [exact (start_initial _ _)|]. split; [exact R|]. split; [exact Rep|]. split; [exact Sv|]. split; [rewrite eqs76_are; exact Or|].
  split; [apply Q; left; reflexivity|]. split; [apply Q; right; left; reflexivity|].
  destruct (reported sympy0 ex66 ts end66 arg0 (start_initial _ _) R _ _ _ _ _ _ _ _ _ _ _ _ Rep) as (Ho & _). apply (edge_shown _ _ _ _ _ _ _ Ho "th_2" "th_1"). rewrite edge76. left. reflexivity.
Qed.
