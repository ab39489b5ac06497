(** The whole program: ikSolver.py from the command line to the files it leaves, and histories of runs in one directory.
    Composes the models of robot_params (Robots.v), the kinematics cache (Cache.v), forward kinematics and preparation (PropEndToEnd.v: prepared),
    the shipped tree (Solver.v: ik_solve), and the calls of ikSolver.py:406-411 (Session.v).
    Not modelled: what is printed on the screen, the debugging code after the calls, missing directories (CodeGen/Python, CodeGen/Cpp, LaTex are in
    the repository), failing disks, and pickling as anything but an exact copy. *)
From Coq Require Import Reals ZArith List String Ascii Bool Arith.
From Verif Require Import Expr Kin Solver SolSet CodeGen PyFile Latex TexFile Session Robots Cache PropEndToEnd.
Import ListNotations.
Local Open Scope string_scope.
Local Open Scope list_scope.
Local Open Scope nat_scope.

(** ikSolver.py:82-89; None: [robot] stays undefined and the next print raises NameError *)
Definition robot_name (argv : list string) : option string :=
  match argv with [_] => Some "Wrist" | [_; r] => Some r | _ => None end.
(** ik_robots.py:643 as an argument of kinematics_pickle (ikSolver.py:98-109) *)
Definition request_of (n : string) (d : robot_def) : request := Req n (rd_dh d) (rd_params d) (rd_pvals d) (rd_vv d) (rd_vars d).
(** output_python.py:183-185 *)
Definition python_filename (n : string) : string := append "CodeGen/Python/" (append "IK_equations" (append (clean_name n) ".py")).
(** output_cpp.py:60-65 *)
Definition cpp_filename (n : string) : string := append "CodeGen/Cpp/" (append "IK_equations" (append (clean_name n) ".cpp")).
(** print(s, file=f) *)
Definition printed (l : list string) : string := concat_s (map (fun s => append s nls) l).

Section Program.
Variable sy : sympy.
Variable nice : expr -> bool.                                (* kin_cl.py:290 *)
Variable show latex : expr -> string.                        (* str, sympy.latex *)
Variable arg : state -> nat -> expr.                         (* the argument fields of the unknowns *)
Variable edges : state -> list (string * string).            (* the iteration order of the set of edges *)
Variable mats : @mech (list nat) state -> matrices.           (* the texts of the matrices in the report *)
Variable order : list row -> list row.                       (* the iteration order of a set of rows *)
Variable vars : list row -> list string.                     (* and of a set of names *)

(** ik_classes.py:92-104: forward_kinematics (the velocities need the kind of all six joints), Robot, sums of angles *)
Definition fk_main (rows : list (dhrow expr)) (vv : list nat) (us : list string) : option (state * list string) :=
  if 6 <=? List.length vv then match prepared sy nice us rows with Some s => Some (s, us) | None => None end else None.

(** the text of the stored value of a parameter: kin_cl.py:296-297 stores the texts np.cos(..), np.sin(..) for inclined axes *)
Definition val_text (m : @mech (list nat) state) (p : string) (e : expr) : string :=
  if existsb (String.eqb p) (map fst (alpha_params nice 0 (m_dh m))) then
    match e with Cos a => append "np.cos(" (append (show a) ")") | Sin a => append "np.sin(" (append (show a) ")") | _ => show e end
  else show e.
(** output_python.py:193-199: the parameters with their texts; None: KeyError *)
Definition param_texts (m : @mech (list nat) state) (ps : list string) : option (list (string * string)) :=
  match m_pvals m with
  | [] => Some (map (fun p => (p, "")) ps)
  | pv => mapM (fun p => match find (fun pe => String.eqb (fst pe) p) pv with Some pe => Some (p, val_text m p (snd pe)) | None => None end) ps
  end.
(** the Robot object when the tree has been ticked *)
Definition solved_session (v : @view (list nat) (list string) state) (s : state) : session :=
  Session (v_name v) (match param_texts (v_mech v) (v_params v) with Some ps => ps | None => map (fun p => (p, "")) (v_params v) end)
    (match m_pvals (v_mech v) with [] => false | _ => true end) (final_nodes (arg s) s) None [].

(** files: absent, incompletely written, complete *)
Inductive text := NoFile | Torn | Whole (t : string).
Inductive result := NameErr | Exits | UnboundErr | NoKinematics (o : @Cache.outcome (list nat) (list string) state) | Raised | Finished (solved : bool) | Dead.
(** ikSolver.py:345-411: the files written, in order, and how it ends.  The report is written by its last statement (output_latex.py:387); the
    programs are opened before they are generated (output_python.py:186, output_cpp.py:66) *)
Definition work (v : @view (list nat) (list string) state) : list (string * text) * result :=
  match ik_solve sy (m_kin (v_mech v)) with
  | Raise => ([], Raised)
  | OK b s =>
    let call := do_call show latex (edges s) (mats (v_mech v)) order vars in
    match call (solved_session v s) Create with
    | None => ([], Raised)
    | Some (s1, _) =>
      match call s1 Report with
      | None => ([], Raised)
      | Some (s2, rep) =>
        let w1 := (solution_filename (robot_of s2), Whole (file_text rep)) in
        match param_texts (v_mech v) (v_params v), call s2 Python with
        | Some _, Some (s3, py) =>
          let w2 := (python_filename (v_name v), Whole (printed (py ++ [py_test (robot_of s2)]))) in
          match call s3 Cplusplus with
          | None => ([w1; w2; (cpp_filename (v_name v), Torn)], Raised)
          | Some (_, cc) => ([w1; w2; (cpp_filename (v_name v), Whole (printed cc))], Finished b)
          end
        | _, _ => ([w1; (python_filename (v_name v), Torn)], Raised)
        end
      end
    end
  end.

(** the directory *)
Record dir := Dir { d_cache : @store (list nat) (list string) state; d_text : string -> text }.
Definition put (f : string -> text) (w : string * text) : string -> text := fun p => if String.eqb (fst w) p then snd w else f p.
Definition puts (f : string -> text) (ws : list (string * text)) : string -> text := fold_left put ws f.
(** when the process is killed: never, in kinematics_pickle, or after [k] files were written ([torn]: while the next one is written) *)
Inductive stop := Finish | Caching (k : kill) | Working (k : nat) (torn : bool).
Definition done_before (ws : list (string * text)) (k : nat) (torn : bool) : list (string * text) :=
  firstn k ws ++ (if torn then match nth_error ws k with Some w => [(fst w, Torn)] | None => [] end else []).
(** ikSolver.py; [cat]: the catalogue in ik_robots.py, which users extend *)
Definition main (cat : string -> robot_result) (argv : list string) (st : stop) (f : dir) : dir * result :=
  match robot_name argv with
  | None => (f, NameErr)
  | Some n =>
    match cat n with
    | Quits => (f, Exits)
    | Unbound => (f, UnboundErr)
    | Described d _ =>
      let '(c, o) := Cache.run nice fk_main (d_cache f) true (request_of n d) (match st with Caching k => k | _ => Never end) in
      match o, st with
      | Served v _, Finish => let '(ws, r) := work v in (Dir c (puts (d_text f) ws), r)
      | Served v _, Working k torn => (Dir c (puts (d_text f) (done_before (fst (work v)) k torn)), Dead)
      | Served _ _, Caching _ => (Dir c (d_text f), Dead)
      | _, _ => (Dir c (d_text f), NoKinematics o)
      end
    end
  end.

(** what happens in the directory: a run of ikSolver.py; a run of another program that uses kinematics_pickle (fkOnly.py, solChecker.py); somebody
    removes a cache file, or writes, changes or removes an output file *)
Inductive event := Solve (cat : string -> robot_result) (argv : list string) (st : stop) | Other (check : bool) (q : @request (list nat) (list string)) (k : kill) | RemoveCache (n : string) | Edit (p : string) (t : text).
Definition happen (f : dir) (e : event) : dir :=
  match e with
  | Solve cat argv st => fst (main cat argv st f)
  | Other c q k => Dir (fst (Cache.run nice fk_main (d_cache f) c q k)) (d_text f)
  | RemoveCache n => Dir (write n Absent (d_cache f)) (d_text f)
  | Edit p t => Dir (d_cache f) (put (d_text f) (p, t))
  end.
Definition history (f : dir) (es : list event) : dir := fold_left happen es f.
(** no cache files, no outputs *)
Definition empty_dir : dir := Dir (fun _ => Absent) (fun _ => NoFile).
End Program.
