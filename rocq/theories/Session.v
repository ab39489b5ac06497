(** A session with a solved robot: the calls of ikSolver.py:406-411 (create_solution_set, the LaTeX report, the Python and the C++
    generator) in any order and number, with the fields of the Robot object they share. *)
From Coq Require Import Reals ZArith List String Ascii Bool Arith.
From Verif Require Import Expr Kin Solver SolSet CodeGen Latex.
Import ListNotations.
Local Open Scope string_scope.
Local Open Scope list_scope.
Local Open Scope nat_scope.

(** the fields: name, params, Mech.pvals, solution_nodes, solListMatrix (None: the attribute does not exist yet), FinalEqnMatrix.
    Robot.nversions counts the rows of FinalEqnMatrix: both grow together (ik_classes.py:225-226) *)
Record session := Session { ss_name : string; ss_params : list (string * string); ss_pvals : bool; ss_nodes : list node; ss_table : option (list row); ss_eqns : list (list kequation) }.
(** ik_classes.py:256-261: create_solution_set also appends to unknown.LHSversionNames *)
Definition version_names (name : string) (k : nat) : list string := map (fun i => vname name (S i)) (seq 0 k).
Definition add_lhs (n : node) (k : nat) : node :=
  Node (n_name n) (n_method n) (n_arg n) (n_order n) (n_nsol n) (n_vers n) (n_sols n) (n_lhs n ++ version_names (n_name n) k).
Fixpoint create_nodes (t : list row) (ns : list node) : list node :=
  match ns with
  | [] => []
  | n :: ns' => let t' := node_step t n in (if 0 <? List.length t then add_lhs n (List.length t') else n) :: create_nodes t' ns'
  end.
(** kin_cl.py:175-179: unknown.solutionNames, for an unknown that was solved once *)
Definition solution_names (n : node) : list string := map (fun k => append (n_name n) (append "s" (str_of_nat (S k)))) (seq 0 (List.length (n_sols n))).
Inductive call := Create | Report | Python | Cplusplus.
Section Session.
Variable show latex : expr -> string.
Variable edges : list (string * string).
Variable mats : matrices.
Variable order : list row -> list row.          (* the iteration order of the set of rows, Robot.solutionSet *)
Variable vars : list row -> list string.        (* the iteration order of the set of names (output_cpp.py:97-103) *)
Definition robot_of (s : session) : robot := Robot (ss_name s) (ss_params s) (ss_pvals s) (ss_nodes s) (ss_eqns s).
(** one call: the new state and the text written; None: an exception *)
Definition do_call (s : session) (c : call) : option (session * list string) :=
  match c with
  | Create => Some (Session (ss_name s) (ss_params s) (ss_pvals s) (create_nodes [] (ss_nodes s)) (Some (create_solution_set (ss_nodes s))) (ss_eqns s), [])
  | Report =>
      match ss_table s with
      | None => None
      | Some t =>
          match make_LHS_versions (ss_nodes s) t with
          | None => None
          | Some F =>
              let s' := Session (ss_name s) (ss_params s) (ss_pvals s) (ss_nodes s) (ss_table s) (ss_eqns s ++ F) in
              match output_latex_solution latex solution_names (robot_of s') edges (order t) mats with None => None | Some out => Some (s', out) end
          end
      end
  | Python => match ss_table s with None => None | Some t => match output_python_code show (robot_of s) (order t) with None => None | Some out => Some (s, out) end end
  | Cplusplus => match ss_table s with None => None | Some t => match output_cpp_code show (robot_of s) (vars t) (order t) with None => None | Some c => Some (s, c_out c) end end
  end.
(** a list of calls: the final state and the texts written, one per call *)
Fixpoint do_calls (s : session) (h : list call) : option (session * list (list string)) :=
  match h with
  | [] => Some (s, [])
  | c :: h' => match do_call s c with
               | None => None
               | Some (s1, o) => match do_calls s1 h' with None => None | Some (s2, os) => Some (s2, o :: os) end
               end
  end.
End Session.
