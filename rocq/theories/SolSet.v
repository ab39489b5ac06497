(** Solution sets and version equations: what Robot.create_solution_set and Robot.make_LHS_versions compute from the
    list of solution nodes.  A row of the table is a list of names, one per solved unknown; the equations define
    names of the form <unknown>v<number>.  Printing and verListMatrix (never filled) are left out. *)
From Coq Require Import Reals ZArith List String Bool Arith.
From Verif Require Import Expr Kin Solver.
Import ListNotations.
Local Open Scope string_scope.
Local Open Scope list_scope.
Local Open Scope nat_scope.

(** ikbtbasics/solutionGraphV3.py:28-60, class Node, together with the fields of its [unknown] (kin_cl.py:88-131) that
    the functions below read: name, solvemethod, argument, unknown.solveorder, unknown.nsolutions, unknown.versionNames,
    unknown.solutions, unknown.LHSversionNames.  A node and its unknown are joined in one record: each unknown has one
    node (C23). *)
Record node := Node {
  n_name : string;
  n_method : string;
  n_arg : expr;
  n_order : nat;
  n_nsol : nat;
  n_vers : list string;
  n_sols : list expr;
  n_lhs : list string }.
Definition row := list string.

(** name + 'v' + str(k) *)
Definition vname (name : string) (k : nat) : string := append (append name "v") (str_of_nat k).
(** ik_classes.py:250-254: [k] times, append the reversed table to the table *)
Fixpoint twice (k : nat) (t : list row) : list row := match k with 0 => t | S k' => twice k' (t ++ rev t) end.
(** ik_classes.py:256-263: the loop over the rows from row [i]; [lhs] is the LHSversionNames list so far *)
Fixpoint add_col (name : string) (i : nat) (lhs : list string) (t : list row) : list row :=
  match t with
  | [] => []
  | r :: t' => let lhs' := lhs ++ [vname name (S i)] in (r ++ [nth i lhs' ""]) :: add_col name (S i) lhs' t'
  end.
(** ik_classes.py:243-270, one pass of the loop over the nodes *)
Definition node_step (t : list row) (n : node) : list row :=
  let rows0 := List.length t in
  let t := if 1 <? n_nsol n then twice (n_nsol n - 1) t else t in
  if 0 <? rows0 then add_col (n_name n) 0 (n_lhs n) t else t ++ map (fun v => [v]) (n_vers n).
(** ik_classes.py:238-285: the table solListMatrix *)
Definition create_solution_set (nodes : list node) : list row := fold_left node_step nodes [].

(** Python list comprehension with an indexing error *)
Fixpoint mapM {A B} (f : A -> option B) (l : list A) : option (list B) :=
  match l with
  | [] => Some []
  | a :: l' => match f a with None => None | Some b => match mapM f l' with None => None | Some bs => Some (b :: bs) end end
  end.
Definition enum {A} (l : list A) : list (nat * A) := combine (seq 0 (List.length l)) l.
(** ik_classes.py:205-208: the substitution dictionary of row [r]: unknown name -> name in the row *)
Definition subdict (nodes : list node) (r : row) : option (list (expr * expr)) :=
  mapM (fun cn => match nth_error r (fst cn) with None => None | Some v => Some (Sym (n_name (snd cn)), Sym v) end) (enum nodes).
(** ik_classes.py:213-224: the equation of row [k] (content [r]) and column [c]; [nsols] is the number of solutions of
    the LAST node (line 210 reads [col] after the loop of 206).  expr.subs(dict) is [subs_all]: one key after the other,
    in the order of the nodes (sympy orders the keys itself; the order is irrelevant when no new name is a key). *)
Definition version_eqn (nodes : list node) (nsols k : nat) (d : list (expr * expr)) (c : nat) : option kequation :=
  match nth_error nodes c with
  | None => None
  | Some n => if nsols =? 0 then None else
      match nth_error (n_sols n) (k mod nsols) with
      | None => None
      | Some e => Some (Keq (Sym (vname (n_name n) (S k))) (subs_all d e))
      end
  end.
Definition version_row (nodes : list node) (nsols nunks : nat) (kr : nat * row) : option (list kequation) :=
  match subdict nodes (snd kr) with
  | None => None
  | Some d => mapM (version_eqn nodes nsols (fst kr) d) (seq 0 nunks)
  end.
(** ik_classes.py:200-226: FinalEqnMatrix; [None] is a Python exception (empty table, index out of range, modulo 0) *)
Definition make_LHS_versions (nodes : list node) (t : list row) : option (list (list kequation)) :=
  match t with
  | [] => None
  | r0 :: _ =>
      let nsols := match rev nodes with [] => 0 | n :: _ => n_nsol n end in
      mapM (version_row nodes nsols (List.length r0)) (enum t)
  end.

(** The nodes of a solver state, in solve order.  [argument] is not part of the solver model: parameter.  The method
    is the unknown's current one; Node copies it when the unknown is solved, after which no solver is given it again
    except as described at C23. *)
Definition node_of (arg : nat -> expr) (s : state) (i : nat) : node :=
  let u := getu (s_heap s) i in
  Node (u_sym u) (u_method u) (arg i) (u_order u) (u_nsol u) (u_vers u) (solutions u) (u_lhsnames u).
Definition final_nodes (arg : nat -> expr) (s : state) : list node := map (node_of arg s) (s_nodes s).
