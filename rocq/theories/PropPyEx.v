(** Concrete cases for C55-C58. *)
From Coq Require Import Reals ZArith List String Ascii Bool Arith Lia Permutation.
From Verif Require Import Expr Kin Solver SolSet SolSetFacts SolSetEx CodeGen PropHist PropCodeGen CppFacts PropCpp PropEmit CodeGenEx PyFile PropPy.
Import ListNotations.
Local Open Scope string_scope.
Local Open Scope list_scope.
Local Open Scope nat_scope.

Definition robot55 (params : list (string * string)) : robot := Robot "Arm3" params true nodes46 eqns46.
Definition file55 params := match output_python_file show0 (robot55 params) groups46 with Some o => o | None => [] end.
Lemma nodes55_some params : match mapM (py_node show0 (robot55 params)) nodes46 with Some _ => true | None => false end = true. Proof. vm_compute. reflexivity. Qed.
Lemma file55_some params : output_python_file show0 (robot55 params) groups46 = Some (file55 params).
Proof. unfold file55. unfold output_python_file, output_python_code. change (r_nodes (robot55 params)) with nodes46.
  assert (X := nodes55_some params). destruct (mapM (py_node show0 (robot55 params)) nodes46); [reflexivity|discriminate X]. Qed.
Lemma forallb_all {A} (f : A -> bool) l : forallb f l = true -> forall x, In x l -> f x = true. Proof. apply forallb_forall. Qed.
Definition ident_b (s : string) : bool := all_word s && match s with EmptyString => false | String c _ => negb (digit c) end.
Lemma ident_b_ok s : ident_b s = true -> identifier s.
Proof. unfold ident_b, identifier. intros H. apply andb_prop in H as [A B]. split; auto. destruct s as [|c s]; [discriminate|]. apply negb_true_iff in B. exact B. Qed.
Lemma plain55 params : plain_robot show0 (robot55 params) groups46.
Proof.
  unfold plain_robot. split. vm_compute. reflexivity. split. vm_compute. reflexivity. split; [|split].
  - assert (X : forallb (fun n => balanced 0 (n_name n)) nodes46 = true) by (vm_compute; reflexivity). exact (forallb_all _ _ X).
  - assert (X : forallb (fun eqs => forallb (fun q => ident_b (show0 (k_lhs q)) && balanced 0 (show0 (k_rhs q))) eqs) eqns46 = true) by (vm_compute; reflexivity).
    intros eqs q H1 H2. assert (Y := forallb_all _ _ X eqs H1). assert (Z := forallb_all _ _ Y q H2). cbv beta in Z. apply andb_prop in Z as [Z1 Z2]. split. apply ident_b_ok. exact Z1. exact Z2.
  - assert (X : forallb (fun g => forallb (balanced 0) g) groups46 = true) by (vm_compute; reflexivity).
    intros g v H1 H2. assert (Y := forallb_all _ _ X g H1). exact (forallb_all _ _ Y v H2).
Qed.
(** ** C55: the same robot without and with a length parameter *)
Theorem C55_example_good : well_indented (file_lines (file55 [])) /\ 60 < List.length (file_lines (file55 [])).
Proof. split. eapply C55_no_parameters. apply plain55. reflexivity. apply file55_some. apply Nat.ltb_lt. vm_compute. reflexivity. Qed.
Theorem C55_example_bad : ~ well_indented (file_lines (file55 [("l_1", "5")])).
Proof.
  eapply C55_parameters_refuted; [| | | |apply file55_some]. vm_compute; reflexivity. vm_compute; reflexivity.
  - intros p [<-|[]]. split. apply ident_b_ok. vm_compute. reflexivity. vm_compute. reflexivity.
  - discriminate.
Qed.
(** ** C56 *)
Theorem C56_example : ~ python3 (file_lines (file55 [])). Proof. eapply C56_python3_refuted. apply file55_some. Qed.
(** the program without the test code is Python 3 (and the file is not rejected for another reason) *)
Definition p3b (ls : list string) : bool := match statements 0 ls with Some sts => forallb (fun l => negb (print_statement l)) sts | None => false end.
Lemma p3b_ok ls : p3b ls = true -> python3 ls.
Proof. unfold p3b, python3. destruct (statements 0 ls) as [sts|]; [|discriminate]. intros H. exists sts. split; auto. intros l Hl. apply negb_true_iff. exact (forallb_all _ _ H l Hl). Qed.
Definition part55 : list string := match output_python_code show0 (robot55 []) groups46 with Some o => o | None => [] end.
Lemma part55_ok : p3b (file_lines part55) = true. Proof. vm_compute. reflexivity. Qed.
Theorem C56_function_part : exists out, output_python_code show0 (robot55 []) groups46 = Some out /\ python3 (file_lines out).
Proof.
  exists part55. split; [|apply p3b_ok, part55_ok].
  unfold part55, output_python_code. change (r_nodes (robot55 [])) with nodes46. assert (X := nodes55_some []). destruct (mapM (py_node show0 (robot55 [])) nodes46); [reflexivity|discriminate X].
Qed.
(** ** C57: two of the robots of ik_robots.py *)
Example C57_puma : identifier (append "ikin_" (fixed_name (Robot "Puma" [] true [] []))). Proof. apply C57_identifier. reflexivity. Qed.
Example C57_chair : append "ikin_" (fixed_name (Robot "Chair_Helper" [] true [] [])) = "ikin_Chair\_Helper" /\ ~ identifier (append "ikin_" (fixed_name (Robot "Chair_Helper" [] true [] []))).
Proof. split. vm_compute. reflexivity. apply C57_underscore_refuted. cbn. intuition. Qed.
(** ** C58: three joints and a sum of two of them *)
Definition js58 : list (string * ascii) := [("th", "1"%char); ("th", "2"%char); ("th", "3"%char)].
Definition ss58 : list (string * string) := [("th", "23")].
Lemma good_js58 : Forall good_joint js58.
Proof. apply Forall_cons; [|apply Forall_cons; [|apply Forall_cons; [|apply Forall_nil]]]; (split; [reflexivity|split; [discriminate|reflexivity]]). Qed.
Lemma good_ss58 : Forall good_sum ss58.
Proof. apply Forall_cons; [|apply Forall_nil]. split; [reflexivity|split; [discriminate|split; [reflexivity|cbn; lia]]]. Qed.
Lemma covered58 : forall v c, In v ss58 -> In c (list_ascii_of_string (snd v)) -> exists j, In j js58 /\ snd j = c.
Proof. intros v c [<-|[]] [<-|[<-|[]]]. exists ("th", "2"%char). cbn; tauto. exists ("th", "3"%char). cbn; tauto. Qed.
Example C58_example : variable_lines js58 ss58 = ["th_1 = 1.0   # 1.0= dummy value"; "th_2 = 1.0   # 1.0= dummy value"; "th_3 = 1.0   # 1.0= dummy value"; "th_23 =  th_2 + th_3 "].
Proof. vm_compute. reflexivity. Qed.
Definition tfks58 := "Matrix([[cos(th_1), 0, 0, l_1], [0, sin(th_23), 0, 0]])".
Theorem C58_example_program : exists out, output_FK_python_code (robot55 [("l_1", "5")]) (map joint_var js58 ++ map sum_var ss58) tfks58 = Some out /\ well_indented (file_lines out) /\ python3 (file_lines out).
Proof.
  destruct (C58_sums js58 ss58 good_js58 good_ss58 covered58 (robot55 [("l_1", "5")]) tfks58) as (pre & post & E & _).
  exists (pre ++ variable_lines js58 ss58 ++ post). split. exact E. eapply C55_forward_kinematics; [apply good_js58|apply good_ss58|apply covered58| | | | |exact E].
  - vm_compute. reflexivity.
  - intros p [<-|[]]. split. apply ident_b_ok. vm_compute. reflexivity. vm_compute. reflexivity.
  - vm_compute. reflexivity.
  - vm_compute. reflexivity.
Qed.
Print Assumptions C55_no_parameters. Print Assumptions C55_parameters_refuted. Print Assumptions C56_python3_refuted. Print Assumptions C57_identifier.
Print Assumptions C57_underscore_refuted. Print Assumptions C57_definition. Print Assumptions C57_test_calls. Print Assumptions C58_sums. Print Assumptions C55_forward_kinematics. Print Assumptions C58_example_program.
