(** Vocabulary of the solver properties: where an expression is defined, what is assumed of sympy, when an
    equation system is satisfied, and when a list of solutions covers a joint value. *)
From Coq Require Import Reals ZArith List String Bool Arith Lia Lra.
From Verif Require Import Expr Kin KinSpec Trig Solver.
Import ListNotations.
Local Open Scope R_scope.
Local Open Scope string_scope.
Local Open Scope list_scope.

(** Where an expression is defined: no division by zero, arguments of sqrt, asin, acos in their domain, and
    atan2 not applied to (0,0). *)
Fixpoint defd (rho : env) (e : expr) : Prop :=
  match e with
  | Num _ | PiE | Sym _ => True
  | Add a b | Mul a b => defd rho a /\ defd rho b
  | Neg a | Pow a _ | Sin a | Cos a => defd rho a
  | Div a b => defd rho a /\ defd rho b /\ eval rho b <> 0
  | Asin a | Acos a => defd rho a /\ -1 <= eval rho a <= 1
  | Atan2 y x => defd rho y /\ defd rho x /\ ~ (eval rho x = 0 /\ eval rho y = 0)
  | Sqrt a => defd rho a /\ 0 <= eval rho a
  end.

(** Where the input is defined the rewritten expression is defined and has the same value. *)
Definition keeps_value (f : expr -> expr) : Prop :=
  forall rho e, defd rho e -> defd rho (f e) /\ eval rho (f e) = eval rho e.
Definition no_new_symbols (f : expr -> expr) : Prop := forall s e, has s (f e) = true -> has s e = true.

(** What is assumed of sympy. *)
Record sympy_ok (sy : sympy) : Prop := {
  ok_norm : keeps_value (sy_norm sy);
  ok_expand : keeps_value (sy_expand sy);
  ok_collect : forall ts, keeps_value (sy_collect sy ts);
  ok_simplify : keeps_value (sy_simplify sy);
  ok_norm_syms : no_new_symbols (sy_norm sy);
  ok_expand_syms : no_new_symbols (sy_expand sy);
  ok_collect_syms : forall ts, no_new_symbols (sy_collect sy ts);
  ok_simplify_syms : no_new_symbols (sy_simplify sy);
  (** replacing equals by equals *)
  ok_subs : forall rho p q e, defd rho e -> defd rho q -> eval rho p = eval rho q ->
            defd rho (sy_subs sy p q e) /\ eval rho (sy_subs sy p q e) = eval rho e;
  (** a match is a decomposition A*atom + B; excluded expressions do not occur in A, B *)
  ok_match : forall atom excl e A B, sy_match sy atom excl e = Some (A, B) ->
             (forall rho, defd rho e -> defd rho A /\ defd rho B /\ eval rho e = eval rho A * eval rho atom + eval rho B)
             /\ (forall x, In x excl -> occurs x A = false /\ occurs x B = false)
             /\ (forall s, has s A = true \/ has s B = true -> has s e = true);
  (** an evaluated quotient times its divisor is the dividend wherever all three are defined *)
  ok_div : forall rho a c, defd rho a -> defd rho c -> defd rho (sy_norm sy (Div a c)) ->
           eval rho (sy_norm sy (Div a c)) * eval rho c = eval rho a }.

(** The equation is defined at rho and holds there. *)
Definition ok_at (rho : env) (q : kequation) : Prop := defd rho (k_lhs q) /\ defd rho (k_rhs q) /\ holds rho q.
(** All sixteen scalar equations of a matrix equation. *)
Definition msat (rho : env) (M : matrix_equation) : Prop :=
  forall i j, (i < 4)%nat -> (j < 4)%nat -> ok_at rho (Keq (me_Td M i j) (me_Ts M i j)).
(** The names th_12, th_23, ... stand for the sums of the joint angles they are named after. *)
Definition soa_ok (rho : env) : Prop :=
  rho "th_12" = rho "th_1" + rho "th_2" /\ rho "th_23" = rho "th_2" + rho "th_3" /\ rho "th_34" = rho "th_3" + rho "th_4" /\
  rho "th_45" = rho "th_4" + rho "th_5" /\ rho "th_56" = rho "th_5" + rho "th_6" /\
  rho "th_123" = rho "th_1" + rho "th_2" + rho "th_3" /\ rho "th_234" = rho "th_2" + rho "th_3" + rho "th_4" /\
  rho "th_345" = rho "th_3" + rho "th_4" + rho "th_5" /\ rho "th_456" = rho "th_4" + rho "th_5" + rho "th_6".
(** One of the solutions is the value v modulo full turns. *)
Definition among (rho : env) (v : R) (sols : list expr) : Prop := exists e, In e sols /\ cong v (eval rho e).
Definition all_defd (rho : env) (sols : list expr) : Prop := forall e, In e sols -> defd rho e.

(** The state the behaviour tree is started in (ikSolver.py:319-333): nothing solved, the equation lists from a scan. *)
Definition fresh (u : unk) : Prop := u = set_u_n (u_n u) (new_unknown (u_sym u)).
Definition initial (sy : sympy) (s : state) : Prop :=
  (forall u, In u (s_heap s) -> fresh u)
  /\ (forall i, In i (s_unks s) -> (i < List.length (s_heap s))%nat)
  /\ s_curr s = None /\ s_counter s = None /\ s_solveN s = 0%nat /\ s_nodes s = [] /\ s_edges s = []
  /\ scan_for_equations sy (s_meqs s) (s_aux s) (unk_objs s) = Some (s_L1 s, s_L2 s, s_L3 s).
(** The equation system of a state. *)
Definition sat (rho : env) (s : state) : Prop :=
  (forall M, In M (s_meqs s) -> msat rho M) /\ (forall q, In q (s_aux s) -> ok_at rho q).
