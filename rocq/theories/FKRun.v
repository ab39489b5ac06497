(** The generated forward kinematics program (output_python.py:46-155) statement by statement, and what running it does.
    PyFile.v has the text; C74_text (PropFKRun.v) relates the two.  Floats are real numbers, as in PyRun.v. *)
From Coq Require Import Reals ZArith List String Ascii Bool Arith.
From Verif Require Import Expr Kin Solver SolSet CodeGen PyFile PropPy PyRun.
Import ListNotations.
Local Open Scope string_scope.
Local Open Scope list_scope.

(** a stored value of a parameter: a number or expression (ik_robots.py pvals), or the text 'np.cos(..)', 'np.sin(..)' (kin_cl.py:296-297) *)
Inductive pval := Value (e : expr) | NpCos (e : expr) | NpSin (e : expr).
Inductive fstmt :=
| FParam (p : string) (v : pval)          (* p = <value> *)
| FJoint (v : string)                     (* v = 1.0   # 1.0= dummy value *)
| FSum (v : string) (ws : list string)    (* v =  w1 + w2 + ... *)
| FResult (M : mat expr).                 (* T06 = Matrix([[..], ..]); print(T06) *)

Section Text.
Variable show : expr -> string.
(** str(val), output_python.py:94-95 *)
Definition pval_text (v : pval) : string := match v with Value e => show e | NpCos e => append "np.cos(" (append (show e) ")") | NpSin e => append "np.sin(" (append (show e) ")") end.
(** str(Matrix), output_python.py:144-148: the rows, each in brackets *)
Definition row_text (M : mat expr) (i : nat) : string := append "[" (append (String.concat ", " (map (fun j => show (M i j)) [0; 1; 2; 3])) "]")%nat.
Definition matrix_text (M : mat expr) : string := append "Matrix([" (append (String.concat ", " (map (row_text M) [0; 1; 2; 3])) "])")%nat.
(** the line a statement is printed as (output_python.py:95-96, 113-126, 148) *)
Definition fline (s : fstmt) : string :=
  match s with
  | FParam p v => append p (append " = " (pval_text v))
  | FJoint v => append v " = 1.0   # 1.0= dummy value"
  | FSum v ws => append v (append " =  " (append (String.concat " + " ws) " "))
  | FResult M => append "T06 = " (matrix_text M)
  end.
End Text.
(** the program (output_python.py:91-148) for parameters ps, joint variables js and sums of angles ss (C58) *)
Definition fk_stmts (ps : list (string * pval)) (js : list (string * ascii)) (ss : list (string * string)) (M : mat expr) : list fstmt :=
  map (fun pv => FParam (fst pv) (snd pv)) ps ++ map (fun j => FJoint (joint_var j)) js ++ map (fun v => FSum (sum_var v) (parts js v)) ss ++ [FResult M].

Local Open Scope R_scope.
(** what Python makes of the printed value (the text of output_python.py:94-95) *)
Definition pval_eval (m : penv) (v : pval) : option R :=
  match v with
  | Value e => pyeval m e
  | NpCos e => match pyeval m e with Some x => Some (cos x) | None => None end
  | NpSin e => match pyeval m e with Some x => Some (sin x) | None => None end
  end.
(** w1 + w2 + ... (output_python.py:118-124); an empty sum is a syntax error *)
Fixpoint psum (m : penv) (ws : list string) : option R :=
  match ws with
  | [] => None
  | [w] => m w
  | w :: t => match m w, psum m t with Some x, Some y => Some (x + y) | _, _ => None end
  end.
(** the entries of Matrix([[..], ..]) in the order they are computed (output_python.py:148) *)
Definition idx : list (nat * nat) := [(0,0);(0,1);(0,2);(0,3);(1,0);(1,1);(1,2);(1,3);(2,0);(2,1);(2,2);(2,3);(3,0);(3,1);(3,2);(3,3)]%nat.
(** what is printed at the end; None: an exception (a name that is not defined, a division by zero) *)
Fixpoint run_fk (p : list fstmt) (m : penv) : option (mat R) :=
  match p with
  | [] => None
  | FParam x v :: t => match pval_eval m v with Some a => run_fk t (pset m x a) | None => None end
  | FJoint x :: t => run_fk t (pset m x 1)
  | FSum x ws :: t => match psum m ws with Some a => run_fk t (pset m x a) | None => None end
  | FResult M :: _ =>
      if forallb (fun ij => if pyeval m (M (fst ij) (snd ij)) then true else false) idx
      then Some (fun i j => match pyeval m (M i j) with Some v => v | None => 0 end) else None
  end.
(** the module starts with no names of its own *)
Definition fk_run (p : list fstmt) : option (mat R) := run_fk p (fun _ => None).
(** no stored values (output_python.py:97-99): every parameter is given the undefined name XXXXX *)
Definition missing (p : string) : string * pval := (p, Value (Sym "XXXXX")).
