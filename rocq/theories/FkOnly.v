(** fkOnly.py as a program: the forward kinematics program and the short report of a robot, from the command line to the files it leaves; and
    histories of runs of both programs (ikSolver.py: Program.v) in one directory, where they share the cache files.
    TEST_DATA_GENERATION is False, as shipped (fkOnly.py:49).  Not modelled: what is printed on the screen.  R.Mech.forward_kinematics() is called once
    more while the Python program is written (output_python.py:141): it computes
    the same matrices again, and appends the constants of inclined axes once more to the list of parameters, after that has been printed (91-104); the report
    does not print the parameters. *)
From Coq Require Import Reals ZArith List String Ascii Bool Arith.
From Verif Require Import Expr Kin Solver SolSet CodeGen PyFile FKRun Latex TexFile Robots Cache PropEndToEnd Program.
Import ListNotations.
Local Open Scope string_scope.
Local Open Scope list_scope.
Local Open Scope nat_scope.

(** fkOnly.py:86-94; None: [robot] stays undefined and the next print raises NameError *)
Definition fk_robot_name (argv : list string) : option string :=
  match argv with [_] => Some "Raven-II" | [_; r] => Some r | _ => None end.
(** output_python.py:48-50 *)
Definition fk_python_filename (n : string) : string := append "CodeGen/Python/" (append "FK_equations" (append (clean_name n) ".py")).
(** str(v) for v in Robot.variables: the joints and the sums of angles (fkOnly.py:117, kin_cl.py:88-) *)
Definition variables (s : state) : list string := map u_sym (unk_objs s).

Section FkOnly.
Variable sy : sympy.
Variable nice : expr -> bool.                                (* kin_cl.py:290 *)
Variable trigsimp : expr -> expr.                            (* kin_cl.py:334 *)
Variable show : expr -> string.                              (* str *)
Variable mats : @mech (list nat) state -> matrices.           (* the texts of the matrices in the report *)
Notation fk_view := (@view (list nat) (list string) state).
Inductive fk_result := FkNameErr | FkExits | FkUnbound | FkNoKinematics (o : @Cache.outcome (list nat) (list string) state) | FkRaised | FkDone | FkDead.
(** fkOnly.py:115-117: the Robot object; its nodes and equations are not looked at *)
Definition fk_robot (v : fk_view) (ps : list (string * string)) : robot :=
  Robot (v_name v) ps (match m_pvals (v_mech v) with [] => false | _ => true end) [] [].
(** output_python.py:144-148 *)
Definition T06_text (v : fk_view) : string := matrix_text show (fk_T06 trigsimp nice (m_dh (v_mech v))).
(** fkOnly.py:123-142: the files written, in order, and how it ends; the program is opened before anything can raise (output_python.py:51) *)
Definition fk_work (v : fk_view) : list (string * text) * fk_result :=
  match param_texts nice show (v_mech v) (v_params v) with
  | None => ([(fk_python_filename (v_name v), Torn)], FkRaised)
  | Some ps =>
    match output_FK_python_code (fk_robot v ps) (variables (m_kin (v_mech v))) (T06_text v) with
    | None => ([(fk_python_filename (v_name v), Torn)], FkRaised)
    | Some py => ([(fk_python_filename (v_name v), Whole (printed py)); (forward_filename (fk_robot v ps), Whole (file_text (output_FK_equations (fk_robot v ps) (mats (v_mech v)))))], FkDone)
    end
  end.
(** fkOnly.py *)
Definition fk_only (cat : string -> robot_result) (argv : list string) (st : stop) (f : dir) : dir * fk_result :=
  match fk_robot_name argv with
  | None => (f, FkNameErr)
  | Some n =>
    match cat n with
    | Quits => (f, FkExits)
    | Unbound => (f, FkUnbound)
    | Described d _ =>
      let '(c, o) := Cache.run nice (fk_main sy nice) (d_cache f) true (request_of n d) (match st with Caching k => k | _ => Never end) in
      match o, st with
      | Served v _, Finish => let '(ws, r) := fk_work v in (Dir c (puts (d_text f) ws), r)
      | Served v _, Working k torn => (Dir c (puts (d_text f) (done_before (fst (fk_work v)) k torn)), FkDead)
      | Served _ _, Caching _ => (Dir c (d_text f), FkDead)
      | _, _ => (Dir c (d_text f), FkNoKinematics o)
      end
    end
  end.
End FkOnly.

(** both programs in one directory: an event of Program.v, or a run of fkOnly.py *)
Inductive job := Also (e : event) | Forward (cat : string -> robot_result) (argv : list string) (st : stop).
Definition perform sy nice trigsimp show latex arg edges mats order vars (f : dir) (j : job) : dir :=
  match j with
  | Also e => happen sy nice show latex arg edges mats order vars f e
  | Forward cat argv st => fst (fk_only sy nice trigsimp show mats cat argv st f)
  end.
Definition performed sy nice trigsimp show latex arg edges mats order vars (f : dir) (js : list job) : dir := fold_left (perform sy nice trigsimp show latex arg edges mats order vars) js f.
