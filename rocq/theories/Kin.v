(** Kinematics: /repo/ikbtbasics/pykinsym.py and the mechanism class of /repo/ikbtbasics/kin_cl.py.

    The matrix builders are written once over an abstract set of operations: instantiated with [expr]
    they are the symbolic functions (suffix _S), instantiated with [R] the numerical ones (suffix _N; floats
    are modelled as exact reals). *)
From Coq Require Import Reals ZArith List String Bool Lra Lia.
From Verif Require Import Expr.
Import ListNotations.
Local Open Scope R_scope.

Class Ops (A : Type) := mkOps { o0 : A; o1 : A; oadd : A -> A -> A; omul : A -> A -> A; oneg : A -> A; osin : A -> A; ocos : A -> A }.
Global Instance ops_R : Ops R := mkOps R 0 1 Rplus Rmult Ropp sin cos.
Global Instance ops_expr : Ops expr := mkOps expr (Num 0) (Num 1) Add Mul Neg Sin Cos.

(** A matrix: entry (row, column); only indices below the dimension are meaningful. *)
Definition mat (A : Type) := nat -> nat -> A.
Definition vec (A : Type) := nat -> A.
Definition of_rows {A} (d : A) (l : list (list A)) : mat A := fun i j => nth j (nth i l []) d.
Definition of_list {A} (d : A) (l : list A) : vec A := fun i => nth i l d.

Section Generic.
  Context {A : Type} {O : Ops A}.
  Definition osum3 (f : nat -> A) : A := oadd (oadd (f 0%nat) (f 1%nat)) (f 2%nat).
  Definition osum4 (f : nat -> A) : A := oadd (oadd (oadd (f 0%nat) (f 1%nat)) (f 2%nat)) (f 3%nat).
  (** sympy Matrix product, 3x3 and 4x4 *)
  Definition mmul3 (X Y : mat A) : mat A := fun i j => osum3 (fun k => omul (X i k) (Y k j)).
  Definition mmul4 (X Y : mat A) : mat A := fun i j => osum4 (fun k => omul (X i k) (Y k j)).
  Definition mvec3 (X : mat A) (v : vec A) : vec A := fun i => osum3 (fun k => omul (X i k) (v k)).
  Definition mtrans (X : mat A) : mat A := fun i j => X j i.
  Definition mneg (X : mat A) : mat A := fun i j => oneg (X i j).
  Definition vadd (u v : vec A) : vec A := fun i => oadd (u i) (v i).
  (** T[0:3,0:3] and T[0:3,3] *)
  Definition rot (T : mat A) : mat A := T.
  Definition pos (T : mat A) : vec A := fun i => T i 3%nat.
  (** Matrix.cross *)
  Definition cross (u v : vec A) : vec A := of_list o0
    [ oadd (omul (u 1%nat) (v 2%nat)) (oneg (omul (u 2%nat) (v 1%nat)));
      oadd (omul (u 2%nat) (v 0%nat)) (oneg (omul (u 0%nat) (v 2%nat)));
      oadd (omul (u 0%nat) (v 1%nat)) (oneg (omul (u 1%nat) (v 0%nat))) ].

  (** pykinsym.py:92-99 (and Link_N 102-109) *)
  Definition Link (al a d th : A) : mat A := of_rows o0
    [ [ocos th;                    oneg (osin th);              o0;             a];
      [omul (osin th) (ocos al);   omul (ocos th) (ocos al);    oneg (osin al); omul (oneg (osin al)) d];
      [omul (osin th) (osin al);   omul (ocos th) (osin al);    ocos al;        omul (ocos al) d];
      [o0; o0; o0; o1] ].
  (** pykinsym.py:178-197 (and the _N versions 273-292) *)
  Definition RotX (t : A) : mat A := of_rows o0 [ [o1; o0; o0]; [o0; ocos t; oneg (osin t)]; [o0; osin t; ocos t] ].
  Definition RotY (t : A) : mat A := of_rows o0 [ [ocos t; o0; osin t]; [o0; o1; o0]; [oneg (osin t); o0; ocos t] ].
  Definition RotZ (t : A) : mat A := of_rows o0 [ [ocos t; oneg (osin t); o0]; [osin t; ocos t; o0]; [o0; o0; o1] ].
  (** pykinsym.py:201-223 (and _N 296-318) *)
  Definition RotX4 (t : A) : mat A := of_rows o0 [ [o1; o0; o0; o0]; [o0; ocos t; oneg (osin t); o0]; [o0; osin t; ocos t; o0]; [o0; o0; o0; o1] ].
  Definition RotY4 (t : A) : mat A := of_rows o0 [ [ocos t; o0; osin t; o0]; [o0; o1; o0; o0]; [oneg (osin t); o0; ocos t; o0]; [o0; o0; o0; o1] ].
  Definition RotZ4 (t : A) : mat A := of_rows o0 [ [ocos t; oneg (osin t); o0; o0]; [osin t; ocos t; o0; o0]; [o0; o0; o1; o0]; [o0; o0; o0; o1] ].
  (** pykinsym.py:227-229 (and RPY3_N 323-325) *)
  Definition RPY3 (r p y : A) : mat A := mmul3 (mmul3 (RotZ y) (RotY p)) (RotX r).
  (** pykinsym.py:231-238: the 3x3 block copied into zeros(4), [3,3] set to 1 *)
  Definition RPY4 (r p y : A) : mat A := fun i j =>
    if (i <? 3)%nat && (j <? 3)%nat then RPY3 r p y i j
    else if (i =? 3)%nat && (j =? 3)%nat then o1 else o0.
  (** pykinsym.py:241-246 (and Trans4_N 263-268) *)
  Definition Trans4 (v : vec A) : mat A := fun i j =>
    if (j =? 3)%nat && (i <? 3)%nat then v i else if (i =? j)%nat then o1 else o0.
  (** pykinsym.py:250-255: R = T[0:3,0:3].T ; P = -R*T[0:3,3]; [R|P] over [0 0 0 1] *)
  Definition H_inv (T : mat A) : mat A := fun i j =>
    if (i <? 3)%nat then
      if (j <? 3)%nat then mtrans (rot T) i j
      else mvec3 (mneg (mtrans (rot T))) (pos T) i
    else if (j <? 3)%nat then o0 else o1.
End Generic.

(** pykinsym.py:61-66 (np.pi modelled as PI) *)
Definition wrap_angle_N (t : R) : R :=
  if Rlt_dec t (- PI) then t + 2 * PI else if Rle_dec PI t then t - 2 * PI else t.

(** pykinsym.py:52-58 (the return value; the verbose flag only prints) *)
Definition approx_N (a b : R) : bool :=
  if Rlt_dec (Rabs (a - b)) (Rmax (/ 1000 * Rmax (Rabs a) (Rabs b)) (/ 100000)) then true else false.

(** pykinsym.py:338-343, H_inv_N: T1 = R.row_join(P) on a numpy matrix - numpy.matrix has no such
    attribute; pykinsym.py:327-335, RPY4_N: T = np.matrix(np.zeros(4)) has shape 1x4, and the loop writes row 1.
    Both numerical functions therefore raise on every input. *)
Inductive nexn := NAttributeError | NIndexError.
Definition H_inv_N (T : mat R) : mat R + nexn := inr NAttributeError.
(** a store into a matrix of [rows] rows and [cols] columns *)
Definition mset {A} (rows cols : nat) (M : mat A) (i j : nat) (v : A) : mat A + nexn :=
  if (i <? rows)%nat && (j <? cols)%nat then inl (fun i' j' => if (i' =? i)%nat && (j' =? j)%nat then v else M i' j')
  else inr NIndexError.
Definition mset_all {A} (rows cols : nat) (l : list (nat * nat * A)) (M : mat A) : mat A + nexn :=
  fold_left (fun acc x => match acc with inl M => mset rows cols M (fst (fst x)) (snd (fst x)) (snd x) | inr e => inr e end) l (inl M).
Definition RPY4_N (r p y : R) : mat R + nexn :=
  let R3 := RPY3 r p y in
  mset_all 1 4 ([(0,0,R3 0 0);(0,1,R3 0 1);(0,2,R3 0 2);(1,0,R3 1 0);(1,1,R3 1 1);(1,2,R3 1 2);
                 (2,0,R3 2 0);(2,1,R3 2 1);(2,2,R3 2 2);(3,3,1%R)])%nat (fun _ _ => 0).

(** helperfunctions.py:87-101, the desired pose: symbols r_11 .. r_33, Px Py Pz, last row 0 0 0 1. *)
Definition ik_lhs : mat expr := of_rows (Num 0)
  [ [Sym "r_11"; Sym "r_12"; Sym "r_13"; Sym "Px"];
    [Sym "r_21"; Sym "r_22"; Sym "r_23"; Sym "Py"];
    [Sym "r_31"; Sym "r_32"; Sym "r_33"; Sym "Pz"];
    [Num 0; Num 0; Num 0; Num 1] ]%string.

(** kin_cl.py:49-53: a scalar equation LHS = RHS. *)
Record kequation := Keq { k_lhs : expr; k_rhs : expr }.
(** kin_cl.py:222-233: rows 0..2 copied from the arguments, row 3 is 0 0 0 1. *)
Record matrix_equation := Meqn { me_Td : mat expr; me_Ts : mat expr; me_aux : list kequation }.
Definition copy3 (X : mat expr) : mat expr := fun i j =>
  if (i <? 3)%nat && (j <? 4)%nat then X i j else if (i =? 3)%nat && (j =? 3)%nat then Num 1 else Num 0.
Definition new_matrix_equation (Td Ts : mat expr) : matrix_equation := Meqn (copy3 Td) (copy3 Ts) [].
(** kin_cl.py:235-242: the 12 equations of the first three rows, row by row, then the auxiliary ones. *)
Definition idx12 : list (nat * nat) := [(0,0);(0,1);(0,2);(0,3);(1,0);(1,1);(1,2);(1,3);(2,0);(2,1);(2,2);(2,3)]%nat.
Definition get_kequation_list (M : matrix_equation) : list kequation :=
  map (fun ij => Keq (me_Td M (fst ij) (snd ij)) (me_Ts M (fst ij) (snd ij))) idx12 ++ me_aux M.

(** A row of the DH table: alpha_{n-1}, a_{n-1}, d_n, theta_n (kin_cl.py:280-284). *)
Record dhrow (A : Type) := DH { d_al : A; d_a : A; d_d : A; d_th : A }.
Arguments DH {A}. Arguments d_al {A}. Arguments d_a {A}. Arguments d_d {A}. Arguments d_th {A}.
Definition link_of {A} {O : Ops A} (r : dhrow A) : mat A := Link (d_al r) (d_a r) (d_d r) (d_th r).

Section Mechanism.
  (** sympy's trigsimp and expand, and the test of kin_cl.py:290 (sin(alpha)==0 or cos(alpha)==0). *)
  Context (trigsimp expand : expr -> expr) (nice : expr -> bool).
  Definition mapm (f : expr -> expr) (M : mat expr) : mat expr := fun i j => f (M i j).
  Definition mapv (f : expr -> expr) (v : vec expr) : vec expr := fun i => f (v i).

  (** kin_cl.py:287-300: fresh names ca{i}/sa{i} for cos/sin of every alpha that is not "nice";
      the dict is insertion ordered. *)
  Definition ca_name (i : nat) : string := append "ca" (nth i ["0";"1";"2";"3";"4";"5"]%string ""%string).
  Definition sa_name (i : nat) : string := append "sa" (nth i ["0";"1";"2";"3";"4";"5"]%string ""%string).
  Fixpoint alpha_subs (i : nat) (rows : list (dhrow expr)) : list (expr * expr) :=
    match rows with
    | [] => []
    | r :: rs => (if nice (d_al r) then [] else [(Cos (d_al r), Sym (ca_name i)); (Sin (d_al r), Sym (sa_name i))]) ++ alpha_subs (S i) rs
    end.
  (** kin_cl.py:294-297: params / pvals entries *)
  Fixpoint alpha_params (i : nat) (rows : list (dhrow expr)) : list (string * expr) :=
    match rows with
    | [] => []
    | r :: rs => (if nice (d_al r) then [] else [(ca_name i, Cos (d_al r)); (sa_name i, Sin (d_al r))]) ++ alpha_params (S i) rs
    end.
  (** kin_cl.py:303-322: T_01 .. T_56 *)
  Definition link_ts (rows : list (dhrow expr)) : list (mat expr) :=
    map (fun r => mapm (subs_all (alpha_subs 0 rows)) (link_of r)) rows.
  Definition mprod (l : list (mat expr)) : mat expr :=
    match l with [] => fun i j => if (i =? j)%nat then Num 1 else Num 0 | T :: r => fold_left mmul4 r T end.
  (** kin_cl.py:334: T_06 *)
  Definition fk_T06 (rows : list (dhrow expr)) : mat expr := mapm trigsimp (mprod (link_ts rows)).

  (** kin_cl.py:474-514, with T = [T_01;...;T_56]. *)
  Definition get_mequation_set (T01 T12 T23 T34 T45 T56 : mat expr) : list matrix_equation :=
    let Td := ik_lhs in
    let inv := H_inv in
    let m := mmul4 in
    [ new_matrix_equation Td (m (m (m (m (m T01 T12) T23) T34) T45) T56);
      new_matrix_equation (m (inv T01) Td) (m (m (m (m T12 T23) T34) T45) T56);
      new_matrix_equation (m (m (inv T12) (inv T01)) Td) (m (m (m T23 T34) T45) T56);
      new_matrix_equation (m (m (m (inv T23) (inv T12)) (inv T01)) Td) (m (m T34 T45) T56);
      new_matrix_equation (m (m (m (m (inv T34) (inv T23)) (inv T12)) (inv T01)) Td) (m T45 T56);
      new_matrix_equation (m (m (m (m (m (inv T45) (inv T34)) (inv T23)) (inv T12)) (inv T01)) Td) T56;
      new_matrix_equation (m (m (inv T01) Td) (inv T56)) (m (m (m T12 T23) T34) T45);
      new_matrix_equation (m (m (m (m (inv T12) (inv T01)) Td) (inv T56)) (inv T45)) (m T23 T34) ].

  (** kin_cl.py:366-454, velocity propagation.  One joint: link transform [T], joint type (true =
      revolute, vv[i]==1; false = prismatic, vv[i]==0; any other value of vv adds nothing and is not modelled),
      joint rate [qd] and the flag simp[i] that requests trigsimp. *)
  Definition zvec (q : expr) : vec expr := of_list (Num 0) [Num 0; Num 0; q].
  Definition maybe_simp (b : bool) (v : vec expr) : vec expr := if b then mapv trigsimp v else v.
  Definition w_next (T : mat expr) (rev : bool) (qd : expr) (simp : bool) (w : vec expr) : vec expr :=
    let w1 := mvec3 (mtrans (rot T)) w in
    maybe_simp simp (if rev then vadd w1 (zvec qd) else w1).
  Definition v_next (T : mat expr) (rev : bool) (qd : expr) (simp : bool) (v w : vec expr) : vec expr :=
    let v1 := mvec3 (mtrans (rot T)) (vadd v (cross w (pos T))) in
    maybe_simp simp (if rev then v1 else vadd v1 (zvec qd)).
  Record joint := Joint { j_T : mat expr; j_rev : bool; j_qd : string; j_simp : bool }.
  Definition zero_vec : vec expr := fun _ => Num 0.
  (** (v_nn, w_nn) after the links of the list *)
  Definition vel_step (vw : vec expr * vec expr) (j : joint) : vec expr * vec expr :=
    (v_next (j_T j) (j_rev j) (Sym (j_qd j)) (j_simp j) (fst vw) (snd vw),
     w_next (j_T j) (j_rev j) (Sym (j_qd j)) (j_simp j) (snd vw)).
  Definition velocities (js : list joint) : vec expr * vec expr := fold_left vel_step js (zero_vec, zero_vec).
End Mechanism.

(** Symbolic differentiation (Matrix.jacobian): d e / d s.  Only defined here for the operations
    velocity expressions are made of (division: by a number only, as in pi/2); [poly] recognises them. *)
Fixpoint poly (e : expr) : bool :=
  match e with
  | Num _ | PiE | Sym _ => true
  | Add a b | Mul a b => poly a && poly b
  | Neg a | Pow a _ | Sin a | Cos a => poly a
  | Div a (Num z) => negb (z =? 0)%Z && poly a
  | _ => false
  end.
Fixpoint diff (s : string) (e : expr) : expr :=
  match e with
  | Sym t => if String.eqb s t then Num 1 else Num 0
  | Add a b => Add (diff s a) (diff s b)
  | Mul a b => Add (Mul (diff s a) b) (Mul a (diff s b))
  | Neg a => Neg (diff s a)
  | Pow a n => Mul (Mul (Num (Z.of_nat n)) (Pow a (Nat.pred n))) (diff s a)
  | Sin a => Mul (Cos a) (diff s a)
  | Cos a => Neg (Mul (Sin a) (diff s a))
  | Div a (Num z) => Div (diff s a) (Num z)
  | _ => Num 0
  end.
(** pykinsym.py:356-376: rows 0..2 d v_i / d x_j, rows 3..5 d w_i / d x_j *)
Definition ManipJacobian (expand : expr -> expr) (v w : vec expr) (x : list string) : mat expr :=
  fun i j => let s := nth j x ""%string in
    if (i <? 3)%nat then expand (diff s (v i)) else expand (diff s (w (i - 3)%nat)).

(** kin_cl.py:366-370: simp[j] is set for j = 1..4 when alpha_j is 0 or pi (structurally); 0 elsewhere. *)
Definition simp_flags (rows : list (dhrow expr)) : list bool :=
  map (fun jr => (1 <=? fst jr)%nat && (fst jr <=? 4)%nat && (expr_eqb (d_al (snd jr)) (Num 0) || expr_eqb (d_al (snd jr)) PiE))
      (combine (seq 0 (List.length rows)) rows).
(** kin_cl.py:376-450: the unrolled recursion, link by link. *)
Fixpoint joints_of (Ts : list (mat expr)) (vv : list bool) (qds : list string) (simp : list bool) : list joint :=
  match Ts, vv, qds, simp with
  | T :: Ts, r :: vv, q :: qds, s :: simp => Joint T r q s :: joints_of Ts vv qds simp
  | _, _, _, _ => []
  end.
Definition qd_names : list string := ["qd_1"; "qd_2"; "qd_3"; "qd_4"; "qd_5"; "qd_6"]%string.
(** (v_66, w_66) of kin_cl.py:376-450 and J66 of 454 for a six row DH table. *)
Definition fk_velocities (trigsimp : expr -> expr) (nice : expr -> bool) (rows : list (dhrow expr)) (vv : list bool) : vec expr * vec expr :=
  velocities trigsimp (joints_of (link_ts nice rows) vv qd_names (simp_flags rows)).
Definition fk_J66 (trigsimp expand : expr -> expr) (nice : expr -> bool) (rows : list (dhrow expr)) (vv : list bool) : mat expr :=
  let vw := fk_velocities trigsimp nice rows vv in ManipJacobian expand (fst vw) (snd vw) qd_names.
