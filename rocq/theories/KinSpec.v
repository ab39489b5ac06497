(** Vocabulary of the kinematics properties, over the reals only. *)
From Coq Require Import Reals ZArith List String Bool Lra Lia Setoid Morphisms.
From Verif Require Import Expr Kin.
Import ListNotations.
Local Open Scope R_scope.

(** Equality of n x n matrices. *)
Definition Meq (n : nat) (X Y : mat R) : Prop := forall i j, (i < n)%nat -> (j < n)%nat -> X i j = Y i j.
Definition ident : mat R := fun i j => if (i =? j)%nat then 1 else 0.
Definition det3 (X : mat R) : R :=
  X 0%nat 0%nat * (X 1%nat 1%nat * X 2%nat 2%nat - X 1%nat 2%nat * X 2%nat 1%nat)
  - X 0%nat 1%nat * (X 1%nat 0%nat * X 2%nat 2%nat - X 1%nat 2%nat * X 2%nat 0%nat)
  + X 0%nat 2%nat * (X 1%nat 0%nat * X 2%nat 1%nat - X 1%nat 1%nat * X 2%nat 0%nat).
(** A rotation matrix: orthonormal columns, determinant 1. *)
Definition rotation (X : mat R) : Prop := Meq 3 (mmul3 (mtrans X) X) ident /\ det3 X = 1.
(** A homogeneous transform: last row 0 0 0 1;  a rigid one: its 3x3 block is a rotation. *)
Definition affine (X : mat R) : Prop := X 3%nat 0%nat = 0 /\ X 3%nat 1%nat = 0 /\ X 3%nat 2%nat = 0 /\ X 3%nat 3%nat = 1.
Definition rigid (X : mat R) : Prop := rotation X /\ affine X.
(** Product of a list of 4x4 transforms, base first. *)
Fixpoint chain (l : list (mat R)) : mat R := match l with [] => ident | T :: r => mmul4 T (chain r) end.
(** Craig's definition of a link transform: RotX(alpha) TransX(a) RotZ(theta) TransZ(d). *)
Definition craig (al a d th : R) : mat R :=
  mmul4 (mmul4 (mmul4 (RotX4 al) (Trans4 (of_list 0 [a; 0; 0]))) (RotZ4 th)) (Trans4 (of_list 0 [0; 0; d])).
Definition mev (rho : env) (M : mat expr) : mat R := fun i j => eval rho (M i j).
Definition vev (rho : env) (v : vec expr) : vec R := fun i => eval rho (v i).
Definition rev_row (rho : env) (r : dhrow expr) : dhrow R := DH (eval rho (d_al r)) (eval rho (d_a r)) (eval rho (d_d r)) (eval rho (d_th r)).
(** Numerical forward kinematics of a symbolic DH table: the product of Craig's transforms. *)
Definition FK (rho : env) (rows : list (dhrow expr)) : mat R :=
  chain (map (fun r => craig (eval rho (d_al r)) (eval rho (d_a r)) (eval rho (d_d r)) (eval rho (d_th r))) rows).
(** An equation holds for an assignment. *)
Definition holds (rho : env) (k : kequation) : Prop := eval rho (k_lhs k) = eval rho (k_rhs k).
(** A rewriting function that keeps the value of every expression made of symbols, numbers, +, *, -, powers,
    sin, cos and division by a number (it may do anything with others: cancelling x/x, say, does not keep the value at 0). *)
Definition value_preserving (f : expr -> expr) : Prop := forall rho e, poly e = true -> eval rho (f e) = eval rho e.

(** The constants ca{i}, sa{i} introduced for the alphas have the values recorded in pvals. *)
Definition consts_ok (nice : expr -> bool) (rho : env) (rows : list (dhrow expr)) : Prop :=
  forall s e, In (s, e) (alpha_params nice 0 rows) -> rho s = eval rho e.

(** Sum of a function over a list. *)
Definition rsum {A} (f : A -> R) (l : list A) : R := fold_right (fun a acc => f a + acc) 0 l.


(** What the rewriting oracles must satisfy here: keep values, keep expressions polynomial in symbols,
    sines and cosines (so that they can be differentiated). *)
Definition good_simp (f : expr -> expr) : Prop := value_preserving f /\ forall e, poly e = true -> poly (f e) = true.


Definition skew (w : vec R) : mat R := of_rows 0 [ [0; - w 2%nat; w 1%nat]; [w 2%nat; 0; - w 0%nat]; [- w 1%nat; w 0%nat; 0] ].
(** Entry-wise derivative of a matrix valued function of time. *)
Definition mderiv (F : R -> mat R) (t : R) (D : mat R) : Prop := forall i j, (i < 3)%nat -> (j < 3)%nat -> derivable_pt_lim (fun s => F s i j) t (D i j).
Definition vderiv (F : R -> vec R) (t : R) (D : vec R) : Prop := forall i, (i < 3)%nat -> derivable_pt_lim (fun s => F s i) t (D i).


(** At time t the joint parameters move as the joint rates say: a revolute joint's theta (a prismatic joint's d) at rate q, nothing else. *)
Definition row_moves (rho : R -> env) (t : R) (x : dhrow expr * bool * string) : Prop :=
  let '(r, rev, q) := x in
  derivable_pt_lim (fun s => eval (rho s) (d_al r)) t 0 /\ derivable_pt_lim (fun s => eval (rho s) (d_a r)) t 0 /\
  derivable_pt_lim (fun s => eval (rho s) (d_d r)) t (if rev : bool then 0 else rho t q) /\
  derivable_pt_lim (fun s => eval (rho s) (d_th r)) t (if rev then rho t q else 0).

(** Each of the entries of a DH row is such an expression. *)
Definition row_poly0 (r : dhrow expr) : Prop := forall e, In e [d_al r; d_a r; d_d r; d_th r] -> poly e = true.
(** A DH row built from symbols, numbers, +, *, -, powers, sin, cos and division by a number that does not mention the symbols xs. *)
Definition row_poly (xs : list string) (r : dhrow expr) : Prop :=
  forall e, In e [d_al r; d_a r; d_d r; d_th r] -> poly e = true /\ forall x, In x xs -> has x e = false.
