(** Concrete cases for C77: a robot with two joints, run from an empty directory; without and with an inclined axis. *)
From Coq Require Import Reals ZArith List String Ascii Bool Arith Lia.
From Verif Require Import Expr Kin Solver SolverSpec SolverFacts SolSet PropHist CodeGen PyFile Latex TexFile PropTexFile Session Robots Cache PropCache PropEndToEnd EndToEndEx SolSetEx CodeGenEx PropLatexEx Program PropProgram.
Import ListNotations.
Local Open Scope string_scope.
Local Open Scope list_scope.
Local Open Scope nat_scope.
Definition vars77 (t : list row) : list string := nodup string_dec (List.concat t).
Definition catalogue (d : robot_def) (n : string) : robot_result := if String.eqb n "K" then Described d (number_from 1 (rd_vars d)) else Quits.
Definition main77 (d : robot_def) := main sympyK niceK show0 tex0 (fun _ => arg0) s_edges (fun _ => mats0) (fun t => t) vars77 (catalogue d) ["ikSolver.py"; "K"].
(** a prismatic and a revolute joint (C51_example), and the same with its first axis inclined by one radian *)
Definition straight : robot_def := RobotDef rowsK [0; 1; 1; 1; 1; 1] [] [] varsK.
Definition inclined : robot_def := RobotDef [DH (Num 1) (Num 0) (Sym "d_1") (Num 0); DH (Num 0) (Num 0) (Num 0) (Sym "th_2"); zrow; zrow; zrow; zrow] [0; 1; 1; 1; 1; 1] [] [] varsK.
Definition whole (t : text) : bool := match t with Whole _ => true | _ => false end.
Definition ends_well (r : dir * result) : bool := match r with (f, Finished true) => forallb (fun p => whole (d_text f p)) (outputs_of "K") | _ => false end.
Lemma ends_well_spec r : ends_well r = true -> snd r = Finished true /\ forall p, In p (outputs_of "K") -> exists t, d_text (fst r) p = Whole t.
Proof.
  destruct r as [f [ | | | | |[|]|]]; cbn [ends_well fst snd]; try discriminate. rewrite forallb_forall. intros H. split; auto. intros p Hp. specialize (H p Hp). destruct (d_text f p); try discriminate. eauto.
Qed.
(** The first run from an empty directory writes all three files. *)
Example C77_first_example : snd (main77 straight Finish empty_dir) = Finished true /\ forall p, In p (outputs_of "K") -> exists t, d_text (fst (main77 straight Finish empty_dir)) p = Whole t.
Proof. apply ends_well_spec. vm_compute. reflexivity. Qed.
(** A history with a run killed while it writes the Python program, another program, another robot and a removed report meets the hypotheses of C77_available: the next run ends well. *)
Definition happened : list event :=
  [Solve (catalogue straight) ["ikSolver.py"; "K"] (Working 1 true); Solve (catalogue straight) ["ikSolver.py"; "Unknown"] Finish; Other false (request_of "K" straight) Never;
   Edit "LaTex/ik_solution_K.tex" NoFile; Solve (catalogue straight) ["ikSolver.py"; "K"] (Caching BeforeOpen); RemoveCache "K"].
Example C77_history_example : consistent "K" (request_of "K" straight) happened /\ ~ odd_alpha niceK (request_of "K" straight) /\ (forall e, In e happened -> ~ cut_short "K" e)
  /\ as_first sympyK niceK show0 tex0 (fun _ => arg0) s_edges (fun _ => mats0) (fun t => t) vars77 (catalogue straight) ["ikSolver.py"; "K"]
       (history sympyK niceK show0 tex0 (fun _ => arg0) s_edges (fun _ => mats0) (fun t => t) vars77 empty_dir happened).
Proof.
  assert (C : consistent "K" (request_of "K" straight) happened).
  { intros e q' He U. unfold happened in He. cbn [In] in He. destruct He as [<-|[<-|[<-|[<-|[<-|[<-|[]]]]]]]; cbn [uses] in U.
    - destruct U as (_ & d & us & D & ->). unfold catalogue in D. cbn [String.eqb] in D. injection D as <- _. reflexivity.
    - destruct U as (N & _). discriminate N.
    - destruct U as (<- & _). reflexivity.
    - destruct U.
    - destruct U as (_ & d & us & D & ->). unfold catalogue in D. cbn [String.eqb] in D. injection D as <- _. reflexivity.
    - destruct U. }
  assert (O : ~ odd_alpha niceK (request_of "K" straight)). { unfold odd_alpha. intros H. apply H. vm_compute. reflexivity. }
  assert (K : forall e, In e happened -> ~ cut_short "K" e). { intros e He X. unfold happened in He. cbn [In] in He. destruct He as [<-|[<-|[<-|[<-|[<-|[<-|[]]]]]]]; exact X. }
  split; [exact C|]. split; [exact O|]. split; [exact K|].
  exact (C77_available sympyK niceK show0 tex0 (fun _ => arg0) s_edges (fun _ => mats0) (fun t => t) vars77 (catalogue straight) ["ikSolver.py"; "K"] "K" straight (number_from 1 varsK) empty_dir happened eq_refl eq_refl eq_refl C O K).
Qed.
(** With an inclined axis the second run ends well too, but the programs it writes lack the constants they compute with. *)
Definition python_of (r : dir * result) : text := d_text (fst r) "CodeGen/Python/IK_equationsK.py".
Definition cpp_of (r : dir * result) : text := d_text (fst r) "CodeGen/Cpp/IK_equationsK.cpp".
(** the first text declares ca0, the second does not, and computes with it *)
Definition loses (declare declare' compute : string) (t1 t2 : text) : Prop :=
  exists s1 s2, t1 = Whole s1 /\ t2 = Whole s2 /\ contains declare s1 = true /\ contains declare' s2 = false /\ contains compute s2 = true.
Definition losesb (declare declare' compute : string) (t1 t2 : text) : bool :=
  match t1, t2 with Whole s1, Whole s2 => contains declare s1 && negb (contains declare' s2) && contains compute s2 | _, _ => false end.
Lemma losesb_ok a b c t1 t2 : losesb a b c t1 t2 = true -> loses a b c t1 t2.
Proof. destruct t1 as [| |s1]; try discriminate. destruct t2 as [| |s2]; try discriminate. cbn [losesb]. rewrite !andb_true_iff, negb_true_iff. intros [[A B] C]. exists s1, s2. auto. Qed.
Definition lost_python : text -> text -> Prop := loses (append nls "ca0 = np.cos(1)") "ca0 =" (append nls "    d_1v1 = ((0 + -(-(Pz)))/ca0)").
Definition lost_cpp : text -> text -> Prop := loses "double ca0 = " "double ca0" (append nls "    d_1v1 = ((0 + -(-(Pz)))/ca0);").
Definition lost (r1 r2 : dir * result) : bool :=
  ends_well r1 && ends_well r2 && losesb (append nls "ca0 = np.cos(1)") "ca0 =" (append nls "    d_1v1 = ((0 + -(-(Pz)))/ca0)") (python_of r1) (python_of r2)
  && losesb "double ca0 = " "double ca0" (append nls "    d_1v1 = ((0 + -(-(Pz)))/ca0);") (cpp_of r1) (cpp_of r2).
Lemma lost_spec r1 r2 : lost r1 r2 = true -> snd r1 = Finished true /\ snd r2 = Finished true /\ lost_python (python_of r1) (python_of r2) /\ lost_cpp (cpp_of r1) (cpp_of r2).
Proof.
  unfold lost. rewrite !andb_true_iff. intros [[[H1 H2] H] K]. apply ends_well_spec in H1 as [H1 _], H2 as [H2 _]. split; [exact H1|]. split; [exact H2|]. split; apply losesb_ok; assumption.
Qed.
Theorem C77_second_run_refuted : exists sy nice show latex arg edges mats order vars cat argv, sympy_ok sy /\
  let main := main sy nice show latex arg edges mats order vars cat argv Finish in let r1 := main empty_dir in let r2 := main (fst r1) in
  snd r1 = Finished true /\ snd r2 = Finished true /\ lost_python (python_of r1) (python_of r2) /\ lost_cpp (cpp_of r1) (cpp_of r2).
Proof.
  exists sympyK, niceK, show0, tex0, (fun _ => arg0), s_edges, (fun _ => mats0), (fun t => t), vars77, (catalogue inclined), ["ikSolver.py"; "K"]. split; [exact sympyK_ok|]. cbv zeta. apply lost_spec. vm_compute. reflexivity.
Qed.
Print Assumptions C77_second_run_refuted. Print Assumptions C77_history_example.
