(** The solver: unknowns, robot state, and every leaf of the IK behaviour tree as a function on that state.

    sympy is external.  Its operations are the fields of a record [sympy] that every leaf takes as an argument;
    what is assumed about them is the predicate [sympy_ok] (SolverSpec.v), and a concrete instance satisfying
    it is given there.  Python objects of class [unknown] are mutable and shared, so they live in a heap and
    the unknown list, the current unknown, dependency sets and solution nodes hold references (positions).
    Simplifications: printing, BHdebug code, the [argument] field, sympy's global_assumptions and Robot.l1/l2/l3p
    (aliases of the lists put on the blackboard) are left out; a freshly built solution is kept as built
    (sympy's automatic cancellation inside it is not applied: cancellation would only make it defined at more
    points); after an exception the state is dropped, because nothing in the repository catches it. *)
From Coq Require Import Reals ZArith List String Bool Arith Lia DecimalString.
From Verif Require Import Expr Kin.
Import ListNotations.
Local Open Scope string_scope.
Local Open Scope list_scope.

(** * sympy *)
Record sympy := Sympy {
  (** automatic evaluation when an expression is built, e.g. x - x -> 0, (a*d)/(c*d) -> a/c *)
  sy_norm : expr -> expr;
  sy_expand : expr -> expr;
  sy_collect : list expr -> expr -> expr;
  sy_simplify : expr -> expr;
  (** e.subs(old, new) *)
  sy_subs : expr -> expr -> expr -> expr;
  (** [sy_match atom excl e] : e.match(Aw*atom + Bw), Wilds Aw, Bw with exclude=excl *)
  sy_match : expr -> list expr -> expr -> option (expr * expr);
  (** e.coeff(t) *)
  sy_coeff : expr -> expr -> expr;
  (** a sin or cos of a sum thx + sgn*thy with three non-zero parts occurs in e (sum_id.py:75-90) *)
  sy_has_sum : expr -> bool;
  (** the sin/cos(aw+bw+cw) sub-expressions of e with the values of aw, bw, cw, 3-way ones first (ik_classes.py:424-452) *)
  sy_sums : expr -> list (expr * expr * expr) }.

(** e == 0 and a == b: sympy equality is structural, on evaluated expressions. *)
Definition is0 (sy : sympy) (e : expr) : bool := expr_eqb (sy_norm sy e) (Num 0).
Definition same (sy : sympy) (a b : expr) : bool := expr_eqb (sy_norm sy a) (sy_norm sy b).
(** Python's "p in s" on strings. *)
Fixpoint contains (p s : string) : bool :=
  String.prefix p s || match s with EmptyString => false | String _ t => contains p t end.
Definition str_of_nat (n : nat) : string := NilEmpty.string_of_uint (Nat.to_uint n).
Fixpoint first_some {A B} (f : A -> option B) (l : list A) : option B :=
  match l with [] => None | a :: l' => match f a with Some b => Some b | None => first_some f l' end end.

(** * Unknowns and state *)
(** kin_cl.py:103 and rank_leaf.py:82,87: [solutions] is a list of its own until the ranker makes it the same
    list object as sincos_solutions or tan_solutions. *)
Inductive solref := Own | RefSC | RefTan.
(** kin_cl.py:88-123, class unknown (symbol and name are the same string). *)
Record unk := Unk {
  u_sym : string;
  u_n : nat;
  u_ready : bool;
  u_eqn : option kequation;
  u_eqn2 : option kequation;
  u_method : string;
  u_solved : bool;
  u_order : nat;
  u_own : list expr;
  u_ref : solref;
  u_names : list string;
  u_vers : list string;
  u_deps : list nat;
  u_nver : nat;
  u_nsol : nat;
  u_assume : list (bool * expr);
  u_lhsnames : list string;
  u_sc : list expr;
  u_sceq : list kequation;
  u_scable : bool;
  u_tan : list expr;
  u_taneq : list kequation;
  u_tanable : bool }.

(** Field assignment (Python attribute stores). *)
Definition set_u_n (v : nat) (r : unk) : unk := Unk (u_sym r) v (u_ready r) (u_eqn r) (u_eqn2 r) (u_method r) (u_solved r) (u_order r) (u_own r) (u_ref r) (u_names r) (u_vers r) (u_deps r) (u_nver r) (u_nsol r) (u_assume r) (u_lhsnames r) (u_sc r) (u_sceq r) (u_scable r) (u_tan r) (u_taneq r) (u_tanable r).
Definition set_u_ready (v : bool) (r : unk) : unk := Unk (u_sym r) (u_n r) v (u_eqn r) (u_eqn2 r) (u_method r) (u_solved r) (u_order r) (u_own r) (u_ref r) (u_names r) (u_vers r) (u_deps r) (u_nver r) (u_nsol r) (u_assume r) (u_lhsnames r) (u_sc r) (u_sceq r) (u_scable r) (u_tan r) (u_taneq r) (u_tanable r).
Definition set_u_eqn (v : option kequation) (r : unk) : unk := Unk (u_sym r) (u_n r) (u_ready r) v (u_eqn2 r) (u_method r) (u_solved r) (u_order r) (u_own r) (u_ref r) (u_names r) (u_vers r) (u_deps r) (u_nver r) (u_nsol r) (u_assume r) (u_lhsnames r) (u_sc r) (u_sceq r) (u_scable r) (u_tan r) (u_taneq r) (u_tanable r).
Definition set_u_eqn2 (v : option kequation) (r : unk) : unk := Unk (u_sym r) (u_n r) (u_ready r) (u_eqn r) v (u_method r) (u_solved r) (u_order r) (u_own r) (u_ref r) (u_names r) (u_vers r) (u_deps r) (u_nver r) (u_nsol r) (u_assume r) (u_lhsnames r) (u_sc r) (u_sceq r) (u_scable r) (u_tan r) (u_taneq r) (u_tanable r).
Definition set_u_method (v : string) (r : unk) : unk := Unk (u_sym r) (u_n r) (u_ready r) (u_eqn r) (u_eqn2 r) v (u_solved r) (u_order r) (u_own r) (u_ref r) (u_names r) (u_vers r) (u_deps r) (u_nver r) (u_nsol r) (u_assume r) (u_lhsnames r) (u_sc r) (u_sceq r) (u_scable r) (u_tan r) (u_taneq r) (u_tanable r).
Definition set_u_solved (v : bool) (r : unk) : unk := Unk (u_sym r) (u_n r) (u_ready r) (u_eqn r) (u_eqn2 r) (u_method r) v (u_order r) (u_own r) (u_ref r) (u_names r) (u_vers r) (u_deps r) (u_nver r) (u_nsol r) (u_assume r) (u_lhsnames r) (u_sc r) (u_sceq r) (u_scable r) (u_tan r) (u_taneq r) (u_tanable r).
Definition set_u_order (v : nat) (r : unk) : unk := Unk (u_sym r) (u_n r) (u_ready r) (u_eqn r) (u_eqn2 r) (u_method r) (u_solved r) v (u_own r) (u_ref r) (u_names r) (u_vers r) (u_deps r) (u_nver r) (u_nsol r) (u_assume r) (u_lhsnames r) (u_sc r) (u_sceq r) (u_scable r) (u_tan r) (u_taneq r) (u_tanable r).
Definition set_u_own (v : list expr) (r : unk) : unk := Unk (u_sym r) (u_n r) (u_ready r) (u_eqn r) (u_eqn2 r) (u_method r) (u_solved r) (u_order r) v (u_ref r) (u_names r) (u_vers r) (u_deps r) (u_nver r) (u_nsol r) (u_assume r) (u_lhsnames r) (u_sc r) (u_sceq r) (u_scable r) (u_tan r) (u_taneq r) (u_tanable r).
Definition set_u_ref (v : solref) (r : unk) : unk := Unk (u_sym r) (u_n r) (u_ready r) (u_eqn r) (u_eqn2 r) (u_method r) (u_solved r) (u_order r) (u_own r) v (u_names r) (u_vers r) (u_deps r) (u_nver r) (u_nsol r) (u_assume r) (u_lhsnames r) (u_sc r) (u_sceq r) (u_scable r) (u_tan r) (u_taneq r) (u_tanable r).
Definition set_u_names (v : list string) (r : unk) : unk := Unk (u_sym r) (u_n r) (u_ready r) (u_eqn r) (u_eqn2 r) (u_method r) (u_solved r) (u_order r) (u_own r) (u_ref r) v (u_vers r) (u_deps r) (u_nver r) (u_nsol r) (u_assume r) (u_lhsnames r) (u_sc r) (u_sceq r) (u_scable r) (u_tan r) (u_taneq r) (u_tanable r).
Definition set_u_vers (v : list string) (r : unk) : unk := Unk (u_sym r) (u_n r) (u_ready r) (u_eqn r) (u_eqn2 r) (u_method r) (u_solved r) (u_order r) (u_own r) (u_ref r) (u_names r) v (u_deps r) (u_nver r) (u_nsol r) (u_assume r) (u_lhsnames r) (u_sc r) (u_sceq r) (u_scable r) (u_tan r) (u_taneq r) (u_tanable r).
Definition set_u_deps (v : list nat) (r : unk) : unk := Unk (u_sym r) (u_n r) (u_ready r) (u_eqn r) (u_eqn2 r) (u_method r) (u_solved r) (u_order r) (u_own r) (u_ref r) (u_names r) (u_vers r) v (u_nver r) (u_nsol r) (u_assume r) (u_lhsnames r) (u_sc r) (u_sceq r) (u_scable r) (u_tan r) (u_taneq r) (u_tanable r).
Definition set_u_nver (v : nat) (r : unk) : unk := Unk (u_sym r) (u_n r) (u_ready r) (u_eqn r) (u_eqn2 r) (u_method r) (u_solved r) (u_order r) (u_own r) (u_ref r) (u_names r) (u_vers r) (u_deps r) v (u_nsol r) (u_assume r) (u_lhsnames r) (u_sc r) (u_sceq r) (u_scable r) (u_tan r) (u_taneq r) (u_tanable r).
Definition set_u_nsol (v : nat) (r : unk) : unk := Unk (u_sym r) (u_n r) (u_ready r) (u_eqn r) (u_eqn2 r) (u_method r) (u_solved r) (u_order r) (u_own r) (u_ref r) (u_names r) (u_vers r) (u_deps r) (u_nver r) v (u_assume r) (u_lhsnames r) (u_sc r) (u_sceq r) (u_scable r) (u_tan r) (u_taneq r) (u_tanable r).
Definition set_u_assume (v : list (bool * expr)) (r : unk) : unk := Unk (u_sym r) (u_n r) (u_ready r) (u_eqn r) (u_eqn2 r) (u_method r) (u_solved r) (u_order r) (u_own r) (u_ref r) (u_names r) (u_vers r) (u_deps r) (u_nver r) (u_nsol r) v (u_lhsnames r) (u_sc r) (u_sceq r) (u_scable r) (u_tan r) (u_taneq r) (u_tanable r).
Definition set_u_lhsnames (v : list string) (r : unk) : unk := Unk (u_sym r) (u_n r) (u_ready r) (u_eqn r) (u_eqn2 r) (u_method r) (u_solved r) (u_order r) (u_own r) (u_ref r) (u_names r) (u_vers r) (u_deps r) (u_nver r) (u_nsol r) (u_assume r) v (u_sc r) (u_sceq r) (u_scable r) (u_tan r) (u_taneq r) (u_tanable r).
Definition set_u_sc (v : list expr) (r : unk) : unk := Unk (u_sym r) (u_n r) (u_ready r) (u_eqn r) (u_eqn2 r) (u_method r) (u_solved r) (u_order r) (u_own r) (u_ref r) (u_names r) (u_vers r) (u_deps r) (u_nver r) (u_nsol r) (u_assume r) (u_lhsnames r) v (u_sceq r) (u_scable r) (u_tan r) (u_taneq r) (u_tanable r).
Definition set_u_sceq (v : list kequation) (r : unk) : unk := Unk (u_sym r) (u_n r) (u_ready r) (u_eqn r) (u_eqn2 r) (u_method r) (u_solved r) (u_order r) (u_own r) (u_ref r) (u_names r) (u_vers r) (u_deps r) (u_nver r) (u_nsol r) (u_assume r) (u_lhsnames r) (u_sc r) v (u_scable r) (u_tan r) (u_taneq r) (u_tanable r).
Definition set_u_scable (v : bool) (r : unk) : unk := Unk (u_sym r) (u_n r) (u_ready r) (u_eqn r) (u_eqn2 r) (u_method r) (u_solved r) (u_order r) (u_own r) (u_ref r) (u_names r) (u_vers r) (u_deps r) (u_nver r) (u_nsol r) (u_assume r) (u_lhsnames r) (u_sc r) (u_sceq r) v (u_tan r) (u_taneq r) (u_tanable r).
Definition set_u_tan (v : list expr) (r : unk) : unk := Unk (u_sym r) (u_n r) (u_ready r) (u_eqn r) (u_eqn2 r) (u_method r) (u_solved r) (u_order r) (u_own r) (u_ref r) (u_names r) (u_vers r) (u_deps r) (u_nver r) (u_nsol r) (u_assume r) (u_lhsnames r) (u_sc r) (u_sceq r) (u_scable r) v (u_taneq r) (u_tanable r).
Definition set_u_taneq (v : list kequation) (r : unk) : unk := Unk (u_sym r) (u_n r) (u_ready r) (u_eqn r) (u_eqn2 r) (u_method r) (u_solved r) (u_order r) (u_own r) (u_ref r) (u_names r) (u_vers r) (u_deps r) (u_nver r) (u_nsol r) (u_assume r) (u_lhsnames r) (u_sc r) (u_sceq r) (u_scable r) (u_tan r) v (u_tanable r).
Definition set_u_tanable (v : bool) (r : unk) : unk := Unk (u_sym r) (u_n r) (u_ready r) (u_eqn r) (u_eqn2 r) (u_method r) (u_solved r) (u_order r) (u_own r) (u_ref r) (u_names r) (u_vers r) (u_deps r) (u_nver r) (u_nsol r) (u_assume r) (u_lhsnames r) (u_sc r) (u_sceq r) (u_scable r) (u_tan r) (u_taneq r) v.


(** kin_cl.py:89-123 *)
Definition new_unknown (s : string) : unk :=
  Unk s 0 false None None "" false 0 [] Own [] [] [] 1 0 [] [] [] [] false [] [] false.
Definition solutions (u : unk) : list expr := match u_ref u with Own => u_own u | RefSC => u_sc u | RefTan => u_tan u end.
(** u.solutions.append(e) *)
Definition add_solution (e : expr) (u : unk) : unk :=
  match u_ref u with
  | Own => set_u_own (u_own u ++ [e]) u
  | RefSC => set_u_sc (u_sc u ++ [e]) u
  | RefTan => set_u_tan (u_tan u ++ [e]) u
  end.
Definition add_method (m : string) (u : unk) : unk := set_u_method (append (u_method u) m) u.

(** The blackboard entries unknowns, curr_unk, counter, eqns_1u/2u/3pu and the Robot's mequation_list,
    kequation_aux_list, solveN, solution_nodes, notation_graph_edges (ik_classes.py:143-180). *)
Record state := St {
  s_heap : list unk;
  s_unks : list nat;
  s_curr : option nat;
  s_counter : option nat;
  s_L1 : list kequation;
  s_L2 : list kequation;
  s_L3 : list kequation;
  s_meqs : list matrix_equation;
  s_aux : list kequation;
  s_solveN : nat;
  s_nodes : list nat;
  s_edges : list (string * string) }.

Definition set_s_heap (v : list unk) (r : state) : state := St v (s_unks r) (s_curr r) (s_counter r) (s_L1 r) (s_L2 r) (s_L3 r) (s_meqs r) (s_aux r) (s_solveN r) (s_nodes r) (s_edges r).
Definition set_s_unks (v : list nat) (r : state) : state := St (s_heap r) v (s_curr r) (s_counter r) (s_L1 r) (s_L2 r) (s_L3 r) (s_meqs r) (s_aux r) (s_solveN r) (s_nodes r) (s_edges r).
Definition set_s_curr (v : option nat) (r : state) : state := St (s_heap r) (s_unks r) v (s_counter r) (s_L1 r) (s_L2 r) (s_L3 r) (s_meqs r) (s_aux r) (s_solveN r) (s_nodes r) (s_edges r).
Definition set_s_counter (v : option nat) (r : state) : state := St (s_heap r) (s_unks r) (s_curr r) v (s_L1 r) (s_L2 r) (s_L3 r) (s_meqs r) (s_aux r) (s_solveN r) (s_nodes r) (s_edges r).
Definition set_s_L1 (v : list kequation) (r : state) : state := St (s_heap r) (s_unks r) (s_curr r) (s_counter r) v (s_L2 r) (s_L3 r) (s_meqs r) (s_aux r) (s_solveN r) (s_nodes r) (s_edges r).
Definition set_s_L2 (v : list kequation) (r : state) : state := St (s_heap r) (s_unks r) (s_curr r) (s_counter r) (s_L1 r) v (s_L3 r) (s_meqs r) (s_aux r) (s_solveN r) (s_nodes r) (s_edges r).
Definition set_s_L3 (v : list kequation) (r : state) : state := St (s_heap r) (s_unks r) (s_curr r) (s_counter r) (s_L1 r) (s_L2 r) v (s_meqs r) (s_aux r) (s_solveN r) (s_nodes r) (s_edges r).
Definition set_s_meqs (v : list matrix_equation) (r : state) : state := St (s_heap r) (s_unks r) (s_curr r) (s_counter r) (s_L1 r) (s_L2 r) (s_L3 r) v (s_aux r) (s_solveN r) (s_nodes r) (s_edges r).
Definition set_s_aux (v : list kequation) (r : state) : state := St (s_heap r) (s_unks r) (s_curr r) (s_counter r) (s_L1 r) (s_L2 r) (s_L3 r) (s_meqs r) v (s_solveN r) (s_nodes r) (s_edges r).
Definition set_s_solveN (v : nat) (r : state) : state := St (s_heap r) (s_unks r) (s_curr r) (s_counter r) (s_L1 r) (s_L2 r) (s_L3 r) (s_meqs r) (s_aux r) v (s_nodes r) (s_edges r).
Definition set_s_nodes (v : list nat) (r : state) : state := St (s_heap r) (s_unks r) (s_curr r) (s_counter r) (s_L1 r) (s_L2 r) (s_L3 r) (s_meqs r) (s_aux r) (s_solveN r) v (s_edges r).
Definition set_s_edges (v : list (string * string)) (r : state) : state := St (s_heap r) (s_unks r) (s_curr r) (s_counter r) (s_L1 r) (s_L2 r) (s_L3 r) (s_meqs r) (s_aux r) (s_solveN r) (s_nodes r) v.


Inductive outcome := OK (success : bool) (s : state) | Raise.

Definition getu (h : list unk) (i : nat) : unk := nth i h (new_unknown "").
Fixpoint updh (i : nat) (f : unk -> unk) (h : list unk) : list unk :=
  match h, i with [], _ => [] | u :: h', O => f u :: h' | u :: h', S i' => u :: updh i' f h' end.
Definition upd_unk (i : nat) (f : unk -> unk) (s : state) : state := set_s_heap (updh i f (s_heap s)) s.
Definition unk_objs (s : state) : list unk := map (getu (s_heap s)) (s_unks s).

(** * helperfunctions.py *)
(** helperfunctions.py:37-42 *)
Definition count_unknowns (us : list unk) (e : expr) : nat :=
  List.length (filter (fun u => has (u_sym u) e && negb (u_solved u)) us).
(** helperfunctions.py:45-50 *)
Definition get_unknowns (us : list unk) (e : expr) : list unk :=
  filter (fun u => has (u_sym u) e && negb (u_solved u)) us.
(** set.add of an unknown: unknowns are equal when their symbols are (kin_cl.py:125-131) *)
Definition set_add (h : list unk) (l : list nat) (d : nat) : list nat :=
  if existsb (fun d' => String.eqb (u_sym (getu h d')) (u_sym (getu h d))) l then l else l ++ [d].
(** helperfunctions.py:53-65; None is the failing assertion *)
Definition get_deps (h : list unk) (ids : list nat) (e : expr) : option (list nat) :=
  if existsb (fun i => has (u_sym (getu h i)) e && negb (u_solved (getu h i))) ids then None
  else Some (fold_left (set_add h) (filter (fun i => has (u_sym (getu h i)) e) ids) []).
(** helperfunctions.py:70-77 *)
Definition get_variables (us : list unk) (e : expr) : list unk := filter (fun u => has (u_sym u) e) us.
(** helperfunctions.py:80-84 *)
Definition find_obj (sym : string) (us : list unk) : option unk := find (fun u => String.eqb (u_sym u) sym) us.
(** rank_leaf.py:31-36 *)
Definition count_variables (us : list unk) (e : expr) : nat := List.length (filter (fun u => has (u_sym u) e) us).

(** * kin_cl.py:153-200, unknown.set_solved; None: an assertion fails *)
Fixpoint collect_deps (h : list unk) (ids : list nat) (sols : list expr) (acc : list nat) : option (list nat) :=
  match sols with
  | [] => Some acc
  | e :: sols' => match get_deps h ids e with
                  | None => None
                  | Some ds => collect_deps h ids sols' (fold_left (set_add h) ds acc)
                  end
  end.
Definition sol_names (name : string) (n : nat) : list string :=
  map (fun k => append (append name "s") (str_of_nat (S k))) (seq 0 n).
Definition add_edge (l : list (string * string)) (e : string * string) : list (string * string) :=
  if existsb (fun e' => String.eqb (fst e') (fst e) && String.eqb (snd e') (snd e)) l then l else l ++ [e].
Definition set_solved (i : nat) (s : state) : option state :=
  let s := upd_unk i (set_u_solved true) s in
  let s := upd_unk i (set_u_ready false) s in
  let u := getu (s_heap s) i in
  let sols := solutions u in
  let nsol := List.length sols in
  let s := upd_unk i (set_u_nsol nsol) s in
  if (nsol <? 1)%nat then None else
  let s := set_s_solveN (S (s_solveN s)) s in
  let s := upd_unk i (set_u_order (s_solveN s)) s in
  match collect_deps (s_heap s) (s_unks s) sols (u_deps u) with
  | None => None
  | Some deps =>
      let s := upd_unk i (set_u_deps deps) s in
      let s := upd_unk i (set_u_names (u_names u ++ sol_names (u_sym u) nsol)) s in
      let s := set_s_nodes (s_nodes s ++ [i]) s in
      let nver := fold_left (fun n d => n * u_nsol (getu (s_heap s) d))%nat deps nsol in
      let s := upd_unk i (set_u_nver nver) s in
      let names := u_names (getu (s_heap s) i) in
      let s := upd_unk i (set_u_vers (u_vers u ++ map (fun k => nth (k mod nsol) names "") (seq 0 nver))) s in
      Some (set_s_edges (fold_left (fun es d => add_edge es (u_sym u, u_sym (getu (s_heap s) d))) deps (s_edges s)) s)
  end.
Definition finish (o : option state) : outcome := match o with Some s => OK true s | None => Raise end.

(** * Leaves.  [with_curr]: u = blackboard.get('curr_unk'); attribute access on None raises. *)
Definition with_curr (s : state) (f : nat -> unk -> outcome) : outcome :=
  match s_curr s with None => Raise | Some i => f i (getu (s_heap s) i) end.

(** assigner_leaf.py:38-46, the while loop from position [c] on *)
Fixpoint asgn_scan (h : list unk) (ids : list nat) (c : nat) : option (nat * nat) :=
  match ids with
  | [] => None
  | i :: ids' => if u_solved (getu h i) then asgn_scan h ids' (S c) else Some (i, S c)
  end.
(** assigner_leaf.py:32-54 *)
Definition assigner (s : state) : outcome :=
  let counter := match s_counter s with None => O | Some c => c end in
  match asgn_scan (s_heap s) (skipn counter (s_unks s)) counter with
  | Some (i, c) => OK true (set_s_curr (Some i) (set_s_counter (Some c) s))
  | None => match s_unks s with
            | [] => Raise
            | i :: _ => OK true (set_s_curr (Some i) (set_s_counter (Some O) s))
            end
  end.

(** comp_detect.py:40-96 ([fail_all_done] is the node's FailAllDone) *)
Definition comp_det (fail_all_done : bool) (s : state) : outcome :=
  let n := List.length (s_unks s) in
  let ns := List.length (filter u_solved (unk_objs s)) in
  OK (if (n =? ns)%nat then negb fail_all_done else fail_all_done) s.

(** rank_leaf.py:39-107 *)
Definition rank_choice (us : list unk) (u : unk) : solref :=
  let n_sc := List.length (u_sc u) in
  let n_tan := List.length (u_tan u) in
  if (n_sc <? n_tan)%nat then RefSC
  else if (n_tan <? n_sc)%nat then RefTan
  else if (count_variables us (nth 0 (u_sc u) (Num 0)) <? count_variables us (nth 0 (u_tan u) (Num 0)))%nat then RefSC else RefTan.
Definition rank (s : state) : outcome :=
  with_curr s (fun i u =>
    let n_sc := List.length (u_sc u) in
    let n_tan := List.length (u_tan u) in
    if (0 <? n_sc)%nat && (0 <? n_tan)%nat then
      let s := upd_unk i (add_method ", best ranked, ") s in
      match rank_choice (unk_objs s) u with
      | RefTan =>
          match u_taneq u with
          | e1 :: e2 :: _ =>
              finish (set_solved i (upd_unk i (fun u => add_method "atan2(y,x)" (set_u_eqn2 (Some e2) (set_u_eqn (Some e1)
                                     (set_u_nsol n_tan (set_u_ref RefTan u))))) s))
          | _ => Raise
          end
      | _ =>
          match u_sceq u with
          | e1 :: _ =>
              finish (set_solved i (upd_unk i (fun u => add_method "sin or cos" (set_u_eqn (Some e1)
                                     (set_u_nsol n_sc (set_u_ref RefSC u)))) s))
          | _ => Raise
          end
      end
    else if (0 <? n_sc)%nat || (0 <? n_tan)%nat then finish (set_solved i s)
    else OK true s).

Section Leaves.
Context (sy : sympy).
Definition resid (e : kequation) : expr := sy_norm sy (Sub (k_rhs e) (k_lhs e)).

(** algebra_solver.py:96-121 *)
Definition linear_match (e : expr) (u : string) : option (expr * expr) :=
  match sy_match sy (Sym u) [Sym u] e with
  | None => None
  | Some (A, B) => if is0 sy A then None else Some (A, B)
  end.
(** algebra_solver.py:156-188, one equation *)
Definition algebra_try (u : string) (e : kequation) : option expr :=
  if occurs (Sin (Sym u)) (k_rhs e) || occurs (Cos (Sym u)) (k_rhs e)
     || occurs (Sin (Sym u)) (k_lhs e) || occurs (Cos (Sym u)) (k_lhs e) then None
  else if has u (k_rhs e) || has u (k_lhs e) then
         let tmp := sy_collect sy [Sym u] (sy_expand sy (resid e)) in
         match linear_match tmp u with None => None | Some _ => Some tmp end
       else None.
(** algebra_solver.py:125-200 *)
Definition algebra_id (s : state) : outcome :=
  if (List.length (s_L1 s) =? 0)%nat then OK false s else
  with_curr s (fun i u =>
    if u_solved u then OK false s else
    match first_some (algebra_try (u_sym u)) (s_L1 s) with
    | None => OK false s
    | Some tmp => OK true (upd_unk i (fun u => add_method "algebra" (set_u_eqn (Some (Keq (Num 0) tmp)) (set_u_ready true u))) s)
    end).
(** algebra_solver.py:205-246 *)
Definition algebra_solve (s : state) : outcome :=
  with_curr s (fun i u =>
    if u_ready u && contains "algebra" (u_method u) then
      match u_eqn u with
      | None => Raise
      | Some q =>
          match linear_match (k_rhs q) (u_sym u) with
          | None => OK false s
          | Some (A, B) =>
              let sol := Div (Sub (k_lhs q) B) A in
              if has (u_sym u) sol then OK false s
              else finish (set_solved i (upd_unk i (fun u => set_u_nsol 1 (add_solution sol u)) s))
          end
      end
    else OK true s).

Definition both_terms (u : string) : list expr := [Sin (Sym u); Cos (Sym u)].
(** sincos_solver.py:125-149, one equation: does it identify, and as sin (true) or cos (false) *)
Definition sincos_try (u : string) (e : kequation) : option (bool * kequation) :=
  let hs := occurs (Sin (Sym u)) (k_rhs e) || occurs (Sin (Sym u)) (k_lhs e) in
  let hc := occurs (Cos (Sym u)) (k_rhs e) || occurs (Cos (Sym u)) (k_lhs e) in
  if hs && hc then None else if hs then Some (true, e) else if hc then Some (false, e) else None.
(** sincos_solver.py:97-159 *)
Definition sincos_id (s : state) : outcome :=
  with_curr s (fun i u =>
    if negb (u_scable u) && negb (u_solved u) then
      match first_some (sincos_try (u_sym u)) (s_L1 s) with
      | None => OK false s
      | Some (issin, e) =>
          let m := append (if (0 <? String.length (u_method u))%nat then ", " else "") (if issin then "arcsin" else "arccos") in
          OK true (upd_unk i (fun u => set_u_scable true (add_method m (set_u_eqn (Some e) u))) s)
      end
    else OK false s).
(** the appends of sincos_solver.py:220-226 and 251-266 *)
Definition sincos_store (sol1 sol2 : expr) (q : kequation) (u : unk) : unk :=
  let u := add_solution sol1 u in
  let u := add_solution sol2 u in
  let u := set_u_sc (u_sc u ++ [sol1]) u in
  let u := set_u_sc (u_sc u ++ [sol2]) u in
  set_u_nsol 2 (set_u_sceq (u_sceq u ++ [q]) u).
(** sincos_solver.py:164-279 *)
Definition sincos_solve (s : state) : outcome :=
  with_curr s (fun i u =>
    if u_scable u then
      match u_eqn u with
      | None => Raise
      | Some q =>
          let rhs := sy_collect sy (both_terms (u_sym u)) (k_rhs q) in
          if contains "arcsin" (u_method u) then
            match sy_match sy (Sin (Sym (u_sym u))) (both_terms (u_sym u)) rhs with
            | None => OK false s
            | Some (A, B) =>
                let targ := Div (Sub (k_lhs q) B) A in
                if has (u_sym u) targ then Raise
                else OK true (upd_unk i (sincos_store (Asin targ) (Sub PiE (Asin targ)) q) s)
            end
          else if contains "arccos" (u_method u) then
            match sy_match sy (Cos (Sym (u_sym u))) (both_terms (u_sym u)) rhs with
            | None => OK false s
            | Some (A, B) =>
                let targ := Div (Sub (k_lhs q) B) A in
                if has (u_sym u) targ then Raise
                else OK true (upd_unk i (sincos_store (Acos targ) (Neg (Acos targ)) q) s)
            end
          else OK false s
      end
    else OK false s).

(** tan_solver.py:78-101, which lists an equation enters (sin_eqn, cos_eqn) *)
Definition tan_has_sin (u : string) (e : kequation) : bool :=
  let t := resid e in has u t && negb (occurs (Sin (Sym u)) t && occurs (Cos (Sym u)) t) && occurs (Sin (Sym u)) t.
Definition tan_has_cos (u : string) (e : kequation) : bool :=
  let t := resid e in has u t && negb (occurs (Sin (Sym u)) t && occurs (Cos (Sym u)) t) && occurs (Cos (Sym u)) t.
(** tan_solver.py:120-197, one pair *)
Definition tan_pair (us : list unk) (u : string) (es ec : kequation) : option (expr * expr) :=
  let estst := sy_collect sy (both_terms u) (resid es) in
  let ectst := sy_collect sy (both_terms u) (resid ec) in
  match sy_match sy (Sin (Sym u)) (both_terms u) estst, sy_match sy (Cos (Sym u)) (both_terms u) ectst with
  | Some (A, B), Some (C, D) =>
      let co := sy_norm sy (Div A C) in
      if (count_unknowns us co =? 0)%nat && (count_unknowns us B =? 0)%nat && (count_unknowns us D =? 0)%nat
      then Some (estst, ectst) else None
  | _, _ => None
  end.
(** tan_solver.py:53-223 *)
Definition tan_id (s : state) : outcome :=
  with_curr s (fun i u =>
    let s' :=
      if negb (u_tanable u) && negb (u_solved u) then
        let es := filter (tan_has_sin (u_sym u)) (s_L1 s ++ s_L2 s) in
        let ec := filter (tan_has_cos (u_sym u)) (s_L1 s ++ s_L2 s) in
        match first_some (fun a => first_some (tan_pair (unk_objs s) (u_sym u) a) ec) es with
        | None => s
        | Some (e1, e2) => upd_unk i (fun u => set_u_tanable true (add_method "atan2(y,x)" (set_u_ready true
                             (set_u_eqn2 (Some (Keq (Num 0) e2)) (set_u_eqn (Some (Keq (Num 0) e1)) u))))) s
        end
      else s in
    OK (u_tanable (getu (s_heap s') i)) s').
(** the appends of tan_solver.py:310-315 and 320-336 *)
Definition tan_store (sols : list expr) (q1 q2 : kequation) (asm : list (bool * expr)) (u : unk) : unk :=
  let u := fold_left (fun u e => add_solution e u) sols u in
  let u := fold_left (fun u e => set_u_tan (u_tan u ++ [e]) u) sols u in
  let u := set_u_taneq (u_taneq u ++ [q1; q2]) u in
  set_u_nsol (List.length sols) (set_u_assume (u_assume u ++ asm) u).
(** tan_solver.py:229-346 *)
Definition tan_solve (s : state) : outcome :=
  with_curr s (fun i u =>
    if u_tanable u then
      match u_eqn u, u_eqn2 u with
      | Some q1, Some q2 =>
          match sy_match sy (Sin (Sym (u_sym u))) (both_terms (u_sym u)) (k_rhs q1),
                sy_match sy (Cos (Sym (u_sym u))) (both_terms (u_sym u)) (k_rhs q2) with
          | Some (A1, B1), Some (A2, B2) =>
              if negb (count_unknowns (unk_objs s) B1 =? 0)%nat || negb (count_unknowns (unk_objs s) B2 =? 0)%nat then OK false s
              else
                let co := sy_norm sy (Div A1 A2) in
                let Y := Sub (k_lhs q1) B1 in
                let X := Sub (k_lhs q2) B2 in
                let unsolved := filter (fun v => negb (u_solved v)) (unk_objs s) in
                if (List.length (get_variables unsolved A1) =? 0)%nat
                then OK true (upd_unk i (tan_store [Atan2 (Div Y A1) (Div X A2)] q1 q2 []) s)
                else OK true (upd_unk i (tan_store [Atan2 (Div Y co) X; Atan2 (Div (Neg Y) co) (Neg X)] q1 q2
                                           [(true, A2); (false, A2)]) s)
          | _, _ => OK false s
          end
      | _, _ => Raise
      end
    else OK false s).

(** sinANDcos_solver.py:112-138, one equation *)
Definition sac_try (u : string) (e : kequation) : option expr :=
  let tmp := resid e in
  if occurs (Sin (Sym u)) tmp && occurs (Cos (Sym u)) tmp then
    let es := sy_collect sy [Cos (Sym u)] (sy_collect sy [Sin (Sym u)] (sy_expand sy tmp)) in
    let A := sy_coeff sy (Sin (Sym u)) es in
    let B := sy_coeff sy (Cos (Sym u)) es in
    let C := sy_norm sy (Sub (Sub es (Mul A (Sin (Sym u)))) (Mul B (Cos (Sym u)))) in
    if has u C then None else Some es
  else None.
(** sinANDcos_solver.py:94-149 *)
Definition sinandcos_id (s : state) : outcome :=
  with_curr s (fun i u =>
    if u_solved u then OK false s else
    match first_some (sac_try (u_sym u)) (s_L1 s) with
    | None => OK false s
    | Some es => OK true (upd_unk i (fun u => add_method "sinANDcos" (set_u_eqn (Some (Keq (Num 0) es)) (set_u_ready true u))) s)
    end).
(** sinANDcos_solver.py:157-218 *)
Definition sinandcos_solve (s : state) : outcome :=
  with_curr s (fun i u =>
    if negb (u_solved u) && u_ready u && contains "sinANDcos" (u_method u) then
      match u_eqn u with
      | None => Raise
      | Some q =>
          let rhs := k_rhs q in
          let sn := Sin (Sym (u_sym u)) in
          let cs := Cos (Sym (u_sym u)) in
          let A := sy_coeff sy sn rhs in
          let B := sy_coeff sy cs rhs in
          let C := sy_norm sy (Sub (Add (Mul A sn) (Mul B cs)) rhs) in
          if is0 sy (Add (Mul A A) (Mul B B)) then Raise else
          let sols := if is0 sy C then [Atan2 (Neg B) A; Add (Atan2 (Neg B) A) PiE]
                      else let t := Sqrt (Sub (Add (Mul A A) (Mul B B)) (Mul C C)) in
                           [Add (Atan2 A B) (Atan2 t C); Add (Atan2 A B) (Atan2 (Neg t) C)] in
          finish (set_solved i (upd_unk i (fun u => set_u_nsol 2 (fold_left (fun u e => add_solution e u) sols u)) s))
      end
    else OK true s).

(** two_eqn_m7.py:39-68 *)
Definition canonical_second_eqn (u : string) (e1 e2 : expr) : option expr :=
  let sn := Sin (Sym u) in
  let cs := Cos (Sym u) in
  let A := sy_coeff sy sn e1 in
  let B := sy_coeff sy cs e1 in
  if is0 sy A && is0 sy B then None else
  let a2 := sy_coeff sy cs e2 in
  let b2 := Neg (sy_coeff sy sn e2) in
  if same sy a2 A && same sy b2 B then Some e2
  else if same sy a2 (Neg A) && same sy b2 (Neg B) then Some (sy_norm sy (Neg e2))
  else None.
(** two_eqn_m7.py:92-107: the flattened equations, without repetitions *)
Definition simu_flat (u : string) (e : kequation) : option expr :=
  let f := sy_expand sy (resid e) in
  if occurs (Sin (Sym u)) f || occurs (Cos (Sym u)) f
  then Some (sy_collect sy [Cos (Sym u)] (sy_collect sy [Sin (Sym u)] f)) else None.
Definition simu_eqns (u : string) (L : list kequation) : list expr :=
  fold_left (fun acc e => match simu_flat u e with
                          | None => acc
                          | Some f => if existsb (same sy f) acc then acc else acc ++ [f]
                          end) L [].
(** two_eqn_m7.py:121-134, one pair of candidates *)
Definition simu_pair (u : string) (c1 c2 : expr) : option (expr * expr) :=
  if is0 sy (Sub c2 c1) || is0 sy (Add c2 c1) then None
  else match canonical_second_eqn u c1 c2 with
       | Some n2 => Some (c1, n2)
       | None => match canonical_second_eqn u c2 c1 with Some n2 => Some (c2, n2) | None => None end
       end.
Fixpoint simu_pairs (u : string) (l : list expr) : option (expr * expr) :=
  match l with
  | [] => None
  | c1 :: l' => match first_some (simu_pair u c1) l' with Some r => Some r | None => simu_pairs u l' end
  end.
(** two_eqn_m7.py:78-150 *)
Definition simu_id (s : state) : outcome :=
  with_curr s (fun i u =>
    if u_solved u then OK false s else
    match simu_pairs (u_sym u) (simu_eqns (u_sym u) (s_L1 s)) with
    | None => OK false s
    | Some (e1, e2) => OK true (upd_unk i (fun u => set_u_eqn2 (Some (Keq (Num 0) e2)) (set_u_eqn (Some (Keq (Num 0) e1))
                                             (add_method "simultaneous eqn" u))) s)
    end).
(** two_eqn_m7.py:153-187 *)
Definition simu_solver (s : state) : outcome :=
  with_curr s (fun i u =>
    match u_eqn u, u_eqn2 u with
    | Some q1, Some q2 =>
        let sn := Sin (Sym (u_sym u)) in
        let cs := Cos (Sym (u_sym u)) in
        let A := sy_coeff sy sn (k_rhs q1) in
        let B := sy_coeff sy cs (k_rhs q1) in
        let C := sy_simplify sy (Sub (Add (Mul A sn) (Mul B cs)) (k_rhs q1)) in
        let D := sy_simplify sy (Sub (Sub (Mul A cs) (Mul B sn)) (k_rhs q2)) in
        if is0 sy C && is0 sy D then OK false s else
        let sol := Atan2 (Sub (Mul A C) (Mul B D)) (Add (Mul A D) (Mul B C)) in
        finish (set_solved i (upd_unk i (fun u => set_u_nsol 1 (set_u_ref Own (set_u_own [sol] u))) s))
    | _, _ => Raise
    end).

(** ik_classes.py:51-60, soa_expansions *)
Definition soa_expansions : list (string * expr) :=
  let t k := Sym (append "th_" k) in
  [("th_12", Add (t "1") (t "2")); ("th_23", Add (t "2") (t "3")); ("th_34", Add (t "3") (t "4"));
   ("th_45", Add (t "4") (t "5")); ("th_56", Add (t "5") (t "6"));
   ("th_123", Add (Add (t "1") (t "2")) (t "3")); ("th_234", Add (Add (t "2") (t "3")) (t "4"));
   ("th_345", Add (Add (t "3") (t "4")) (t "5")); ("th_456", Add (Add (t "4") (t "5")) (t "6"))].
(** x2y2_transform.py:206-245, one pair: the new equation *)
Definition x2z2_pair (us : list unk) (e1 e2 : kequation) : option (expr * expr) :=
  let l := sy_simplify sy (Add (Mul (k_lhs e1) (k_lhs e1)) (Mul (k_lhs e2) (k_lhs e2))) in
  if (count_unknowns us l =? 0)%nat then
    let r := sy_simplify sy (Add (Mul (k_rhs e1) (k_rhs e1)) (Mul (k_rhs e2) (k_rhs e2))) in
    let r := fold_left (fun e kv => sy_subs sy (Sym (fst kv)) (snd kv) e) soa_expansions r in
    let r := sy_simplify sy r in
    if (count_unknowns us r =? 1)%nat then Some (l, r) else None
  else None.
Fixpoint x2z2_pairs (us : list unk) (l : list kequation) : option (expr * expr) :=
  match l with
  | [] => None
  | e1 :: l' => match first_some (x2z2_pair us e1) l' with Some r => Some r | None => x2z2_pairs us l' end
  end.
(** x2y2_transform.py:150-286 *)
Definition x2z2_transform (s : state) : outcome :=
  with_curr s (fun i u =>
    if negb (String.eqb (u_sym u) "th_2" || String.eqb (u_sym u) "th_3") then OK false s else
    let cand := filter (fun e => let t := sy_norm sy (Add (k_rhs e) (k_lhs e)) in has "Py" t || has "Px" t || has "Pz" t) (s_L2 s) in
    match x2z2_pairs (unk_objs s) cand with
    | None => OK false s
    | Some (l, r) =>
        match find (fun j => has (u_sym (getu (s_heap s) j)) r && negb (u_solved (getu (s_heap s) j))) (s_unks s) with
        | None => OK false s
        | Some j => OK true (set_s_aux (s_aux s ++ [Keq l r]) (upd_unk j (add_method "x2z2 transform and ") s))
        end
    end).

(** ** Equation lists *)
(** kin_cl.py:60-66, kequation.__eq__ *)
Definition keq_eqb (a b : kequation) : bool := is0 sy (Sub (k_lhs a) (k_lhs b)) && is0 sy (Sub (k_rhs a) (k_rhs b)).
Definition cost (e : kequation) : nat := (count_ops (k_rhs e) + count_ops (k_lhs e))%nat.
(** ik_classes.py:558-577: a dict from operation count to the equations having it, then the keys in order *)
Fixpoint bucket_add (k : nat) (e : kequation) (d : list (nat * list kequation)) : list (nat * list kequation) :=
  match d with
  | [] => [(k, [e])]
  | (k', l) :: d' => if (k =? k')%nat then (k', l ++ [e]) :: d' else (k', l) :: bucket_add k e d'
  end.
Fixpoint ins_sorted (k : nat) (l : list nat) : list nat :=
  match l with [] => [k] | x :: l' => if (k <=? x)%nat then k :: l else x :: ins_sorted k l' end.
Definition lookup_bucket (k : nat) (d : list (nat * list kequation)) : list kequation :=
  match find (fun kv => (fst kv =? k)%nat) d with Some kv => snd kv | None => [] end.
Definition erank (L : list kequation) : list kequation :=
  let d := fold_left (fun d e => bucket_add (cost e) e d) L [] in
  let keys := fold_right ins_sorted [] (map fst d) in
  flat_map (fun k => lookup_bucket k d) keys.
Definition idx16 : list (nat * nat) :=
  [(0,0);(0,1);(0,2);(0,3);(1,0);(1,1);(1,2);(1,3);(2,0);(2,1);(2,2);(2,3);(3,0);(3,1);(3,2);(3,3)]%nat.
Definition eqn_count (us : list unk) (e : kequation) : nat := (count_unknowns us (k_lhs e) + count_unknowns us (k_rhs e))%nat.
Definition push_new (e : kequation) (L : list kequation) : list kequation := if existsb (keq_eqb e) L then L else L ++ [e].
Definition lists := (list kequation * list kequation * list kequation)%type.
(** ik_classes.py:303-318 and 347-357: file one equation *)
Definition file_eqn (us : list unk) (L : lists) (e : kequation) : lists :=
  let '(l1, l2, l3) := L in
  let n := eqn_count us e in
  if (n =? 1)%nat then (push_new e l1, l2, l3)
  else if (n =? 2)%nat then (l1, push_new e l2, l3)
  else if (2 <? n)%nat then (l1, l2, push_new e l3) else L.
(** ik_classes.py:320-327: file an auxiliary equation *)
Definition file_aux (us : list unk) (L : lists) (e : kequation) : lists :=
  let '(l1, l2, l3) := L in
  let n := eqn_count us e in
  if (n =? 1)%nat then (l1 ++ [e], l2, l3) else if (n =? 2)%nat then (l1, l2 ++ [e], l3) else L.
Definition rank_lists (L : lists) : lists := let '(l1, l2, l3) := L in (erank l1, erank l2, erank l3).
Definition meq_eqns (M : matrix_equation) : list kequation :=
  map (fun ij => Keq (me_Td M (fst ij) (snd ij)) (me_Ts M (fst ij) (snd ij))) idx16.
(** ik_classes.py:289-332; None: the assertion len(elist) > 0 *)
Definition scan_for_equations (meqs : list matrix_equation) (aux : list kequation) (us : list unk) : option lists :=
  match meqs with
  | [] => None
  | _ => Some (rank_lists (fold_left (file_aux us) aux (fold_left (file_eqn us) (flat_map meq_eqns meqs) ([], [], []))))
  end.
(** ik_classes.py:340-361 *)
Definition scan_Mequation (M : matrix_equation) (us : list unk) : lists :=
  rank_lists (fold_left (file_eqn us) (get_kequation_list M) ([], [], [])).
Definition set_lists (L : lists) (s : state) : state :=
  let '(l1, l2, l3) := L in set_s_L1 l1 (set_s_L2 l2 (set_s_L3 l3 s)).
(** updateL.py:45-56 *)
Definition push_aux (us : list unk) (L : lists) (e : kequation) : lists :=
  let '(l1, l2, l3) := L in
  let e1 := Keq (Num 0) (sy_norm sy (Sub (k_lhs e) (k_rhs e))) in
  let cu := count_unknowns us (k_rhs e1) in
  if (cu =? 1)%nat then (l1 ++ [e1], l2, l3) else if (cu =? 2)%nat then (l1, l2 ++ [e1], l3)
  else if (cu =? 3)%nat then (l1, l2, l3 ++ [e1]) else L.
(** updateL.py:37-64 *)
Definition updateL (s : state) : outcome :=
  match scan_for_equations (s_meqs s) (s_aux s) (unk_objs s) with
  | None => Raise
  | Some L => OK true (set_lists (fold_left (push_aux (unk_objs s)) (s_aux s) L) s)
  end.

(** ** Transforms *)
(** sum_id.py:29-140.  When a sum of angles is found the code calls find_xy (line 95), which no module of the
    repository defines: NameError.  Otherwise the leaf changes nothing and succeeds. *)
Definition sum_id (s : state) : outcome :=
  if existsb (fun M => existsb (fun e => sy_has_sum sy (k_lhs e) || sy_has_sum sy (k_rhs e)) (get_kequation_list M)) (s_meqs s)
  then Raise else OK true s.

Definition set_elt (M : mat expr) (i j : nat) (v : expr) : mat expr :=
  fun i' j' => if (i' =? i)%nat && (j' =? j)%nat then v else M i' j'.
(** sub_transform.py:123-153, body of the k,l loops, for e2 = Ts[i,j] as it was when i,j was entered *)
Definition sub_step (us : list unk) (Td : mat expr) (i j : nat) (e2 : expr) (acc : mat expr * bool) (kl : nat * nat) : mat expr * bool :=
  let '(Ts, found) := acc in
  let e1 := Ts (fst kl) (snd kl) in
  let l := Td (fst kl) (snd kl) in
  if negb (same sy e1 e2) && negb (is0 sy e2) && occurs e1 e2 then
    let new := sy_subs sy e1 l e2 in
    if (count_unknowns us new <? count_unknowns us e2)%nat then (set_elt Ts i j new, true) else acc
  else if negb (same sy e1 e2) && negb (is0 sy e2) && occurs (sy_norm sy (Neg e1)) e2 then
    let new := sy_subs sy (sy_norm sy (Neg e1)) (sy_norm sy (Neg l)) e2 in
    if (count_unknowns us new <? count_unknowns us e2)%nat then (set_elt Ts i j new, true) else acc
  else acc.
Definition sub_elt (us : list unk) (Td : mat expr) (acc : mat expr * bool) (ij : nat * nat) : mat expr * bool :=
  let e2 := fst acc (fst ij) (snd ij) in
  fold_left (sub_step us Td (fst ij) (snd ij) e2) idx12 acc.
(** sub_transform.py:87-164 *)
Definition sub_transform (s : state) : outcome :=
  match s_meqs s with
  | [] => Raise
  | M :: Ms =>
      let us := unk_objs s in
      let '(Ts, found) := fold_left (sub_elt us (me_Td M)) idx12 (me_Ts M, false) in
      let s := set_s_meqs (Meqn (me_Td M) Ts (me_aux M) :: Ms) s in
      if found then
        match scan_for_equations (s_meqs s) (s_aux s) us with
        | None => Raise
        | Some L => OK true (set_lists L s)
        end
      else OK true s
  end.
End Leaves.

(** * The behaviour tree (ikSolver.py:130-243) *)
(** None of these leaves returns RUNNING or ERROR, so a composite is a function of its children's outcomes:
    b3.Sequence and b3.Priority (two children at a time), b3.OrNode (all children are run) and
    b3.RepeatUntilSuccess (at most n runs of the child); their engine-level behaviour is the subject of Engine.v. *)
Definition seq2 (f g : state -> outcome) (s : state) : outcome := match f s with OK true s1 => g s1 | o => o end.
Definition prio2 (f g : state -> outcome) (s : state) : outcome := match f s with OK false s1 => g s1 | o => o end.
Definition or2 (f g : state -> outcome) (s : state) : outcome :=
  match f s with
  | OK b1 s1 => match g s1 with OK b2 s2 => OK (b1 || b2) s2 | Raise => Raise end
  | Raise => Raise
  end.
Fixpoint repeat_until_success (n : nat) (f : state -> outcome) (s : state) : outcome :=
  match n with
  | O => OK false s
  | S n' => match f s with OK false s1 => repeat_until_success n' f s1 | o => o end
  end.
Section Tree.
Context (sy : sympy).
(** ikSolver.py:143, 156, 169, 182, 200, 230 *)
Definition tan_sol := seq2 (tan_id sy) (tan_solve sy).
Definition alg_sol := seq2 (algebra_id sy) (algebra_solve sy).
Definition sc_sol := seq2 sincos_id (sincos_solve sy).
Definition sac_sol := seq2 (sinandcos_id sy) (sinandcos_solve sy).
Definition simu_sol := seq2 (simu_id sy) (simu_solver sy).
Definition sc_tan := seq2 (or2 tan_sol sc_sol) rank.
(** ikSolver.py:235-241 *)
Definition worktools := prio2 alg_sol (prio2 sc_tan (prio2 simu_sol (prio2 sac_sol (x2z2_transform sy)))).
Definition subtree := repeat_until_success 6 (seq2 assigner (seq2 (sum_id sy) worktools)).
Definition solve_routine := seq2 (sub_transform sy) (seq2 subtree (seq2 (updateL sy) (comp_det false))).
Definition ik_solve := repeat_until_success 10 solve_routine.
End Tree.

(** The parts the tree is made of, and any sequence of their ticks that raises nothing: a history.  Every run of
    the tree is one (lemma [tree_runs], SolverInv.v); so are the runs of other trees built from the same parts. *)
Inductive task := TAssign | TSumId | TAlg | TScTan | TSimu | TSac | TX2z2 | TSub | TUpdateL | TCompDet (fail_all_done : bool).
Definition run_task (sy : sympy) (t : task) : state -> outcome :=
  match t with
  | TAssign => assigner | TSumId => sum_id sy | TAlg => alg_sol sy | TScTan => sc_tan sy | TSimu => simu_sol sy | TSac => sac_sol sy
  | TX2z2 => x2z2_transform sy | TSub => sub_transform sy | TUpdateL => updateL sy | TCompDet b => comp_det b
  end.
Inductive runs (sy : sympy) : state -> list (task * bool) -> state -> Prop :=
| runs_nil s : runs sy s [] s
| runs_cons s t b s1 ts s2 : run_task sy t s = OK b s1 -> runs sy s1 ts s2 -> runs sy s ((t, b) :: ts) s2.
