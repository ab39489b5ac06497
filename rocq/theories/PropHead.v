(** Tightening found by seeded wrong programs: the first statements of the generated Python function (C70) and the declarations of the C++ function (C54). *)
From Coq Require Import Reals ZArith List String Ascii Bool Arith Lia.
From Verif Require Import Expr Kin Solver SolSet CodeGen CppFacts PyFile PropPy PyRun PropPyRun SolSetFacts PropSolSet PropEmit PropHist PropReach.
Import ListNotations.
Local Open Scope string_scope.
Local Open Scope list_scope.
Local Open Scope nat_scope.

(** * A reader for the lines between "def ikin_...(T):" and the body *)
Fixpoint strip_left (s : string) : string := match s with String " " t => strip_left t | _ => s end.
Definition digit_of (c : ascii) : nat := nat_of_ascii c - 48.
Inductive hline := HSkip | HCheck | HInner | HEntry (x : string) (i j : nat) | HFlag (b : bool) | HOther.
Definition read_entry (s : string) : hline :=
  match index 0 " = T[" s with
  | None => HOther
  | Some n => match substring (n + 5) (String.length s) s with String a (String "," (String b (String "]" ""))) => HEntry (substring 0 n s) (digit_of a) (digit_of b) | _ => HOther end
  end.
Definition read_line (l : string) : hline :=
  let s := strip_left l in
  if String.eqb s "" || String.prefix "#" s then HSkip
  else if String.prefix "        " l then HInner
  else if String.prefix "    print (" l then HSkip
  else if String.eqb l "    if(T.shape != (4,4)):" then HCheck
  else if String.eqb l "    solvable_pose = True" then HFlag true
  else if String.eqb l "    solvable_pose = False" then HFlag false
  else if String.prefix "    " l then read_entry s else HOther.
(** Running them on a 4x4 matrix: the check of the shape passes (the lines below it are not run); x = T[i,j] defines x.
    The result: the variables, and solvable_pose if it is assigned. *)
Fixpoint run_head (T : mat R) (ls : list string) (m : penv) (ok : option bool) : option (penv * option bool) :=
  match ls with
  | [] => Some (m, ok)
  | l :: t => match read_line l with
    | HSkip | HCheck | HInner => run_head T t m ok
    | HEntry x i j => run_head T t (pset m x (T i j)) ok
    | HFlag b => run_head T t m (Some b)
    | HOther => None
    end
  end.
Definition def_line (r : robot) : string := append "def ikin_" (append (fixed_name r) "(T):").
(** Before its body the function (of a robot without parameters; with parameters the file is not Python, C55) puts the elements of T in the twelve symbols
    of the pose and sets solvable_pose: the body is run from exactly the state C70 starts it in. *)
Theorem C70_head r T : r_params r = [] -> exists a b rest m, py_head r = a :: b :: def_line r :: rest /\ run_head T (file_lines rest) (fun _ => None) None = Some (m, Some true) /\ forall x, m x = pose_env T x.
Proof.
  intros P. unfold py_head, py_params, def_line. rewrite P. do 3 eexists. eexists. split; [reflexivity|]. split. { match goal with |- run_head T ?l _ _ = _ => let v := eval vm_compute in l in change l with v end. cbv -[append pset]. reflexivity. }
  intros x. unfold pose_env, pose_vars, pset. cbn [find fst].
  repeat match goal with |- context [String.eqb ?n x] => is_ground n; rewrite (String.eqb_sym n x) end.
  repeat match goal with |- context [String.eqb x ?n] => destruct (String.eqb_spec x n) as [->|?]; [reflexivity|] end. reflexivity.
Qed.
(** the whole function, called on T *)
Definition call (guard : string -> penv -> option bool) (head : list string) (p : list stmt) (T : mat R) : option result :=
  match run_head T (file_lines head) (fun _ => None) None with Some (m, Some ok) => run_py guard p (Py m ok None) | _ => None end.
(** as generated, for every pose, it raises *)
Theorem C70_call_raises guard show rb groups out n0 ns F T : output_python_code show rb groups = Some out -> r_params rb = [] -> r_nodes rb = n0 :: ns -> handed_over (n0 :: ns) ->
  make_LHS_versions (n0 :: ns) (create_solution_set (n0 :: ns)) = Some F -> r_eqns rb = F -> (exists g, In g groups) -> (forall g, In g groups -> In g (create_solution_set (n0 :: ns))) ->
  exists a b head p, out = a :: b :: def_line rb :: head ++ flat_map (lines show) p /\ call guard head p T = None.
Proof.
  intros O P En H HF EF G1 G2. rewrite C70_text in O. destruct (body show rb groups) as [p|] eqn:B; [|discriminate]. apply some_inj in O. destruct (C70_head rb T P) as (a & b & rest & m & E & Rn & M).
  exists a, b, rest, p. split. { rewrite <- O, E. reflexivity. } unfold call. rewrite Rn. refine (C70_never_returns guard show rb groups p m n0 ns F En H HF EF G1 G2 B _).
  intros k. rewrite M. destruct (pose_env T (sname (n_name n0) k)) eqn:X; auto. exfalso. unfold pose_env in X. destruct (find _ _) as [[x v]|] eqn:Fd; [|discriminate]. apply find_some in Fd as [I E']. cbn [fst] in E'. apply String.eqb_eq in E'. subst x.
  assert (Mk := sname_mark (n_name n0) k). fold (sname (n_name n0) k) in Mk. unfold pose_vars in I. cbn [In] in I.
  repeat (destruct I as [I|I]; [assert (I' := f_equal fst I); cbn [fst] in I'; rewrite <- I' in Mk; vm_compute in Mk; discriminate|]). destruct I.
Qed.

(** * C54: the C++ declarations *)
Definition head_line (l : string) (ms : list cmd) : Prop := exists s, In (Line s) ms /\ In l (split_lines s).
(** the twelve symbols of the pose are declared with the elements of T, and nothing else is read from T in the declarations *)
Definition pose_lines : list string :=
  ["double r_11 = T[0][0];"; "double r_12 = T[0][1];"; "double r_13 = T[0][2];"; "double r_21 = T[1][0];"; "double r_22 = T[1][1];"; "double r_23 = T[1][2];";
   "double r_31 = T[2][0];"; "double r_32 = T[2][1];"; "double r_33 = T[2][2];"; "double Px = T[0][3];"; "double Py = T[1][3];"; "double Pz = T[2][3];"].
Definition flag_lines : list string := ["double argument;"; "int True = 1;"; "int False = 0;"; "int solvable_pose = True;"].
Definition lineb (l : string) (m : cmd) : bool := match m with Line s => existsb (String.eqb l) (split_lines s) | _ => false end.
Lemma lineb_ok l ms : existsb (lineb l) ms = true -> head_line l ms.
Proof.
  intros H. apply existsb_exists in H as (m & Hm & H). destruct m as [s| |]; try discriminate. cbn [lineb] in H. apply existsb_exists in H as (l' & Hl & E). apply String.eqb_eq in E. subst l'. exists s. auto.
Qed.
Lemma existsb_tl {A} (f : A -> bool) a t : existsb f t = true -> existsb f (a :: t) = true.
Proof. intros H. cbn [existsb]. rewrite H. apply orb_true_r. Qed.
Theorem C54_inputs name vars ps l : In l (pose_lines ++ flag_lines) -> head_line l (cpp_head name vars ps).
Proof.
  intros H. apply lineb_ok. unfold cpp_head. apply existsb_tl.
  unfold pose_lines, flag_lines in H. cbn [app In] in H.
  assert (S : forall f : cmd -> bool, f (Line "int solvable_pose = True;") = true \/ f (nth 0 (skipn 18 (cpp_head name vars ps)) Push) = true -> existsb f (tl (cpp_head name vars ps)) = true).
  { intros f [E|E]; unfold cpp_head; cbn [tl]; apply existsb_exists; eexists; (split; [|exact E]); unfold cpp_head; cbn [In skipn nth]; tauto. }
  apply S. clear S. repeat (destruct H as [<-|H]; [first [left; vm_compute; reflexivity|right; vm_compute; reflexivity]|]). destruct H.
Qed.
(** every parameter is declared, as a double, with the marker for a missing value *)
Theorem C54_parameters name vars ps p : In p ps -> (forall q, In q ps -> no_nl q = true) ->
  head_line (append "double " (append p " = XXXXX ; \ deliberate undeclared error!  USER needs to give numerical value")) (cpp_head name vars ps).
Proof.
  intros Hp N. exists (par_decl ps). split. { unfold cpp_head. cbn [In]. repeat match goal with |- Line (par_decl _) = Line (par_decl _) \/ _ => left; reflexivity | |- _ \/ _ => right end. }
  unfold par_decl. change (append nls ?x) with (String nl x). cbn [split_lines]. change (Ascii.eqb nl nl) with true. cbv iota. right.
  induction ps as [|q ps IH]; [destruct Hp|]. cbn [map concat_s]. set (mk := " = XXXXX ; \ deliberate undeclared error!  USER needs to give numerical value") in *.
  assert (Nm : no_nl mk = true) by reflexivity. clearbody mk.
  assert (As : forall C, append (append "double " (append q (append mk nls))) C = append (append "double " (append q mk)) (String nl C)). { intros C. rewrite !PropHist.append_assoc. reflexivity. }
  rewrite As. clear As.
  rewrite split_nl. apply in_or_app. destruct Hp as [->|Hp]; [left|right; apply IH; auto; intros; apply N; right; auto].
  rewrite split_one. left; reflexivity. rewrite !no_nl_app, (N p) by (left; auto). rewrite Nm. reflexivity.
Qed.
(** The generated C++ assigns to a name it does not declare: for every table, if the first unknown is solved by a method the generator prints (and not exactly arcsin or arccos). *)
Theorem C54_never_compiles_refuted show rb vars groups c n0 ns F k eqs : output_cpp_code show rb vars groups = Some c -> r_nodes rb = n0 :: ns -> handed_over (n0 :: ns) -> NoDup (names_of (n0 :: ns)) ->
  make_LHS_versions (n0 :: ns) (create_solution_set (n0 :: ns)) = Some F -> r_eqns rb = F -> (forall g, In g groups <-> In g (create_solution_set (n0 :: ns))) -> declared_in vars groups -> ~ exactly_trig n0 -> cpp_emits n0 -> n_order n0 = 1 ->
  nth_error F k = Some eqs -> (forall e, no_nl (show e) = true) ->
  exists e, In (append "    " (fix_line (append (assignment show (Keq (Sym (vname (n_name n0) (S k))) e)) ";"))) (c_out c) /\ ~ In (vname (n_name n0) (S k)) vars.
Proof.
  intros O En H N HF EF G D T Em O1 Hk Ns. destruct (C54_first (n0 :: ns) F vars groups n0 ns eq_refl H N HF G D) as (A & _). destruct (A k eqs Hk) as (e & E & U). exists e. split; [|exact U].
  eapply (C46_cpp show rb vars groups c n0 k eqs); eauto.
  - unfold assignment. rewrite !no_nl_app, !Ns. reflexivity.
  - rewrite En. left; auto.
  - rewrite EF. exact Hk.
  - rewrite O1. exact E.
Qed.
Print Assumptions C70_head.
Print Assumptions C70_call_raises.
Print Assumptions C54_inputs.
Print Assumptions C54_parameters.
Print Assumptions C54_never_compiles_refuted.
