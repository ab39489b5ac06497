(** Python sets, and the classes whose objects are put in them: Edge (ikbtbasics/solutionGraphV3.py:64-78) and
    kequation (ikbtbasics/kin_cl.py:49-85).  CPython's set is modelled as buckets with chaining instead of open
    addressing; the lookup rule is the same: an entry is found when its stored hash is the hash of the key and it is
    equal to the key (__eq__; the identity shortcut agrees with __eq__ because __eq__ is reflexive). *)
From Coq Require Import Reals ZArith List String Ascii Bool Arith Lia.
From Verif Require Import Expr Kin Solver.
Import ListNotations.
Local Open Scope list_scope.
Local Open Scope nat_scope.

Section HS.
Context {A : Type}.
Variable eqb : A -> A -> bool.
Variable h : A -> Z.
Definition index (m : nat) (x : A) : nat := Z.to_nat (h x mod Z.of_nat m)%Z.
Definition found (x : A) (b : list A) : bool := existsb (fun y => Z.eqb (h y) (h x) && eqb y x) b.
Definition mem (x : A) (t : list (list A)) : bool := found x (nth (index (List.length t) x) t []).
Fixpoint upd {B} (i : nat) (f : B -> B) (l : list B) : list B := match l, i with [], _ => [] | b :: l', 0 => f b :: l' | b :: l', S i' => b :: upd i' f l' end.
Definition put (x : A) (t : list (list A)) : list (list A) := upd (index (List.length t) x) (fun b => b ++ [x]) t.
(** set.add *)
Definition add (x : A) (t : list (list A)) : list (list A) := if mem x t then t else put x t.
(** growing the table: every entry is moved by its hash, without comparisons *)
Definition resize (m : nat) (t : list (list A)) : list (list A) := fold_left (fun t x => put x t) (List.concat t) (repeat [] m).
Definition elements (t : list (list A)) : list A := List.concat t.
Inductive op := AddOp (x : A) | Resize (m : nat).
Definition step (t : list (list A)) (o : op) : list (list A) := match o with AddOp x => add x t | Resize m => if m =? 0 then t else resize m t end.
(** set() makes a table of eight entries *)
Definition history (os : list op) : list (list A) := fold_left step os (repeat [] 8).
End HS.

(** solutionGraphV3.py:64-78: the two ends are unknowns, compared and hashed by their symbol (kin_cl.py:125-131) *)
Record edge := Edge { e_start : string; e_dep : string; e_mult : Z }.
Definition edge_eqb (a b : edge) : bool := String.eqb (e_start a) (e_start b) && String.eqb (e_dep a) (e_dep b) && Z.eqb (e_mult a) (e_mult b).
(** [hs]: the hash of a symbol; [hi]: the hash of an int; [word]: hash() reduces the result of __hash__ to a machine word *)
Definition edge_hash (hs : string -> Z) (hi : Z -> Z) (word : Z -> Z) (e : edge) : Z := word (hs (e_start e) * hs (e_dep e) + hi (e_mult e))%Z.
(** kin_cl.py:72-73: the hash of a kequation is the hash of the concatenated texts of its sides *)
Definition keq_hash (show : expr -> string) (hstr : string -> Z) (q : kequation) : Z := hstr (append (show (k_lhs q)) (show (k_rhs q))).
