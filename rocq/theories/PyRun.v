(** The body of the generated Python function, statement by statement, and what running it does.
    The generator of CodeGen.v produces text; here the same generator produces statements whose rendering is that text (C70_text, PropPyRun.v).
    The meaning of a statement is that of Python, with real numbers for floats: reading a name that is not defined, dividing by zero,
    the square root of a negative number and asin/acos outside [-1,1] raise (math.sqrt, math.asin, math.acos: ValueError; atan2(0,0) is 0). *)
From Coq Require Import Reals ZArith List String Ascii Bool Arith.
From Verif Require Import Expr Kin Solver SolSet CodeGen.
Import ListNotations.
Local Open Scope string_scope.
Local Open Scope list_scope.

(** * Statements *)
Inductive stmt :=
| Note (t : string)                        (* comments and blank lines *)
| Assign (q : kequation)                   (* <left> = <right> *)
| Guarded (g : string) (q : kequation)     (* if (solvable_pose and abs <g>  > 1): solvable_pose = False; else: <left> = <right> *)
| NewList                                  (* solution_list = [] *)
| Append (names : row)                     (* solution_list.append([ ... ]) *)
| Return.                                  (* if(solvable_pose): return(solution_list) else: return(False) *)

Section Text.
Variable show : expr -> string.
(** the lines a statement is printed as (output_python.py:267-330) *)
Definition lines (s : stmt) : list string :=
  match s with
  | Note t => [t]
  | Assign q => [append ind (assign_text show q)]
  | Guarded g q => [append (append ind "if (solvable_pose and abs ") (append g "  > 1):"); append (append ind ind) "solvable_pose = False"; append ind "else:"; append (append ind ind) (assign_text show q)]
  | NewList => [append ind "solution_list = []"]
  | Append names => [append ind "#(note trailing commas allowed in python"; append ind "solution_list.append( [ "] ++ map (fun v => append v ", ") names ++ ["] )"]
  | Return => [append ind "if(solvable_pose):"; append (append ind ind) "return(solution_list)"; append ind "else: "; append (append ind ind) "return(False)"]
  end.
(** output_python.py:267-286, one version *)
Definition version_stmts (n : node) (q : kequation) : option (list stmt) :=
  let rhs := show (k_rhs q) in
  let plain := (if contains "atan" rhs then [Assign q] else []) ++ (if String.eqb (n_method n) "algebra" then [Assign q] else []) in
  if contains "asin" rhs || contains "acos" rhs then match parens rhs with None => None | Some g => Some (Guarded g q :: plain) end else Some plain.
(** output_python.py:261-286, one node *)
Definition node_stmts (r : robot) (n : node) : option (list stmt) :=
  match node_eqns r n with
  | None => None
  | Some qs => match mapM (version_stmts n) qs with None => None | Some vs => Some ([Note nls; Note (append (append ind "#Variable:  ") (n_name n))] ++ List.concat vs) end
  end.
(** output_python.py:261-330: the statements after the declarations and solvable_pose = True *)
Definition body (r : robot) (groups : list row) : option (list stmt) :=
  match mapM (node_stmts r) (r_nodes r) with
  | None => None
  | Some ns => Some (List.concat ns ++ [Note "
##################################
#
#package the solutions into a list for each set
#
###################################
"; NewList] ++ map (fun g => Append (sort g)) groups ++ [Return])
  end.
End Text.

(** * Running them *)
Local Open Scope R_scope.
(** the names that are defined, with their values *)
Definition penv := string -> option R.
Definition pset (m : penv) (x : string) (v : R) : penv := fun y => if String.eqb y x then Some v else m y.
(** the value of an expression; None: an exception *)
Fixpoint pyeval (m : penv) (e : expr) : option R :=
  let bin a b f := match pyeval m a, pyeval m b with Some x, Some y => f x y | _, _ => None end in
  let un a f := match pyeval m a with Some x => f x | None => None end in
  let unit x := if Rle_dec (-1) x then if Rle_dec x 1 then true else false else false in
  match e with
  | Num z => Some (IZR z)
  | PiE => Some PI
  | Sym s => m s
  | Add a b => bin a b (fun x y => Some (x + y))
  | Mul a b => bin a b (fun x y => Some (x * y))
  | Neg a => un a (fun x => Some (- x))
  | Div a b => bin a b (fun x y => if Req_EM_T y 0 then None else Some (x / y))
  | Pow a n => un a (fun x => Some (x ^ n))
  | Sin a => un a (fun x => Some (sin x))
  | Cos a => un a (fun x => Some (cos x))
  | Asin a => un a (fun x => if unit x then Some (asin x) else None)
  | Acos a => un a (fun x => if unit x then Some (acos x) else None)
  | Atan2 a b => bin a b (fun x y => Some (atan2 x y))
  | Sqrt a => un a (fun x => if Rle_dec 0 x then Some (sqrt x) else None)
  end.
(** the state of the function: its variables, solvable_pose, solution_list (None: not created yet) *)
Record pystate := Py { p_vars : penv; p_ok : bool; p_list : option (list (list R)) }.
(** what the function does: return(solution_list), return(False), or fall off the end (return None) *)
Inductive result := Solutions (l : list (list R)) | Unsolvable | Nothing.
Definition assign (st : pystate) (q : kequation) : option pystate :=
  match k_lhs q, pyeval (p_vars st) (k_rhs q) with
  | Sym x, Some v => Some (Py (pset (p_vars st) x v) (p_ok st) (p_list st))
  | _, _ => None
  end.
(** [guard g m]: the truth of abs g > 1, where g is the text the generator cut out of the printed solution; None: evaluating it raises.
    Nothing is assumed of it: the theorems hold for every such function. *)
Fixpoint run_py (guard : string -> penv -> option bool) (p : list stmt) (st : pystate) : option result :=
  match p with
  | [] => Some Nothing
  | s :: p' =>
    let go o := match o with None => None | Some st' => run_py guard p' st' end in
    match s with
    | Note _ => run_py guard p' st
    | Assign q => go (assign st q)
    | Guarded g q =>
      if p_ok st then match guard g (p_vars st) with None => None | Some true => run_py guard p' (Py (p_vars st) false (p_list st)) | Some false => go (assign st q) end
      else go (assign st q)
    | NewList => run_py guard p' (Py (p_vars st) (p_ok st) (Some []))
    | Append names => match p_list st, mapM (p_vars st) names with Some l, Some vs => run_py guard p' (Py (p_vars st) (p_ok st) (Some (l ++ [vs]))) | _, _ => None end
    | Return => if p_ok st then match p_list st with Some l => Some (Solutions l) | None => None end else Some Unsolvable
    end
  end.
(** output_python.py:219-232, 247: the function starts with the elements of T in r_11 .. Pz, and solvable_pose = True *)
Definition pose_vars (T : mat R) : list (string * R) :=
  [("r_11", T 0%nat 0%nat); ("r_12", T 0%nat 1%nat); ("r_13", T 0%nat 2%nat); ("r_21", T 1%nat 0%nat); ("r_22", T 1%nat 1%nat); ("r_23", T 1%nat 2%nat);
   ("r_31", T 2%nat 0%nat); ("r_32", T 2%nat 1%nat); ("r_33", T 2%nat 2%nat); ("Px", T 0%nat 3%nat); ("Py", T 1%nat 3%nat); ("Pz", T 2%nat 3%nat)].
Definition pose_env (T : mat R) : penv := fun x => match find (fun p => String.eqb (fst p) x) (pose_vars T) with Some p => Some (snd p) | None => None end.
(** the function called on T, with further variables [ps] (the parameters) defined *)
Definition ikin (guard : string -> penv -> option bool) (p : list stmt) (m : penv) : option result := run_py guard p (Py m true None).
