(** The sum-of-angles transform (ik_classes.py:367-547): sin/cos of th_x + th_y (+ th_z) are rewritten with a new
    unknown th_xy(z), which is added to the unknowns and defined by an auxiliary equation. *)
From Coq Require Import ZArith List String Ascii Bool Arith Lia DecimalString.
From Verif Require Import Expr Kin Solver.
Import ListNotations.
Local Open Scope string_scope.
Local Open Scope list_scope.
Local Open Scope nat_scope.

(** int(s); 0 stands for ValueError (never met: see [soa_match]) *)
Definition int_of (s : string) : nat := match NilEmpty.uint_of_string s with Some d => Nat.of_uint d | None => 0 end.
(** list.sort() on strings *)
Fixpoint ins_str (a : string) (l : list string) : list string :=
  match l with [] => [a] | b :: l' => if String.leb a b then a :: l else b :: ins_str a l' end.
Definition sort_str (l : list string) : list string := fold_right ins_str [] l.
(** ik_classes.py:474-482: the subscript of the sum: the indices as strings, sorted, concatenated *)
Definition soa_index (ns : list nat) : string := fold_right append "" (sort_str (map str_of_nat ns)).
(** ik_classes.py:531-547; None: quit() at an earlier variable with n == 0, or the failing assertion *)
Fixpoint get_variable_index (us : list unk) (e : expr) : option nat :=
  match us with
  | [] => None
  | v :: r => if u_n v =? 0 then None else if expr_eqb (Sym (u_sym v)) e then Some (u_n v) else get_variable_index r e
  end.
Fixpoint map_opt {A B} (f : A -> option B) (l : list A) : option (list B) :=
  match l with
  | [] => Some []
  | a :: r => match f a with None => None | Some b => match map_opt f r with None => None | Some bs => Some (b :: bs) end end
  end.
(** ik_classes.py:496-512: a new unknown, added to the variables, and its definition, added to the auxiliary equations *)
Definition soa_register (ni : string) (sum : expr) (s : state) : nat * kequation * state :=
  let th := append "th_" ni in
  let id := List.length (s_heap s) in
  let q := Keq (Sym th) sum in
  (id, q, set_s_aux (s_aux s ++ [q]) (set_s_unks (s_unks s ++ [id]) (set_s_heap (s_heap s ++ [set_u_n (int_of ni) (new_unknown th)]) s))).
(** ik_classes.py:454-525, one match.  The accumulator: the expression, found2 or found3 (never reset), newjoint,
    tmpeqn, and the state holding variables and kequation_aux_list.  The values of the wilds are sympy results, so
    d[k] == 0 is a comparison with the number 0. *)
Definition soa_acc := (expr * bool * option nat * option kequation * state)%type.
Definition soa_match (sy : sympy) (acc : soa_acc) (m : expr * expr * expr) : option soa_acc :=
  let '(e, fnd, _, _, s) := acc in
  let '(a, b, c) := m in
  let vl := filter (fun x => negb (expr_eqb x (Num 0))) [a; b; c] in
  let fnd := fnd || (List.length vl =? 2) || (List.length vl =? 3) in
  if fnd then
    match vl, map_opt (get_variable_index (unk_objs s)) vl with
    | _ :: _, Some ns =>
        let ni := soa_index ns in
        let sum := sy_norm sy (Add (Add a b) c) in
        let e' := sy_subs sy sum (Sym (append "th_" ni)) e in
        if existsb (fun v => u_n v =? int_of ni) (unk_objs s) then Some (e', fnd, None, None, s)
        else let '(id, q, s1) := soa_register ni sum s in Some (e', fnd, Some id, Some q, s1)
    | _, _ => None
    end
  else Some (e, fnd, None, None, s).
Fixpoint soa_matches (sy : sympy) (ms : list (expr * expr * expr)) (acc : soa_acc) : option soa_acc :=
  match ms with
  | [] => Some acc
  | m :: r => match soa_match sy acc m with None => None | Some acc1 => soa_matches sy r acc1 end
  end.
(** ik_classes.py:419-529: (expr, newjoint, tmpeqn) and the state; None: an exception or quit() *)
Definition sum_of_angles_sub (sy : sympy) (e : expr) (s : state) : option (expr * option nat * option kequation * state) :=
  match soa_matches sy (sy_sums sy e) (e, false, None, None, s) with
  | None => None
  | Some (e', _, nj, ne, s') => Some (e', nj, ne, s')
  end.
Definition add_unk (o : option nat) (s : state) : state := match o with None => s | Some i => set_s_unks (s_unks s ++ [i]) s end.
Definition add_aux (o : option kequation) (s : state) : state := match o with None => s | Some q => set_s_aux (s_aux s ++ [q]) s end.
(** ik_classes.py:383-404, one element: both sides are simplified, then rewritten; what the left side returns is appended (again) *)
Definition set_m (M : mat expr) (i j : nat) (v : expr) : mat expr := fun i' j' => if (i' =? i) && (j' =? j) then v else M i' j'.
Definition soa_elt (sy : sympy) (acc : option (mat expr * mat expr * state)) (ij : nat * nat) : option (mat expr * mat expr * state) :=
  match acc with
  | None => None
  | Some (Td, Ts, s) =>
      let '(i, j) := ij in
      match sum_of_angles_sub sy (sy_simplify sy (Td i j)) s with
      | None => None
      | Some (lhs, nj, ne, s1) =>
          match sum_of_angles_sub sy (sy_simplify sy (Ts i j)) (add_aux ne (add_unk nj s1)) with
          | None => None
          | Some (rhs, _, _, s2) => Some (set_m Td i j lhs, set_m Ts i j rhs, s2)
          end
      end
  end.
(** ik_classes.py:367-411 *)
Definition soa_meq (sy : sympy) (M : matrix_equation) (s : state) : option (matrix_equation * state) :=
  match fold_left (soa_elt sy) idx12 (Some (me_Td M, me_Ts M, s)) with
  | None => None
  | Some (Td, Ts, s') => Some (Meqn Td Ts (me_aux M), s')
  end.
Fixpoint soa_meqs (sy : sympy) (Ms : list matrix_equation) (s : state) : option (list matrix_equation * state) :=
  match Ms with
  | [] => Some ([], s)
  | M :: r => match soa_meq sy M s with
              | None => None
              | Some (M', s1) => match soa_meqs sy r s1 with None => None | Some (r', s2) => Some (M' :: r', s2) end
              end
  end.
Definition sum_of_angles_transform (sy : sympy) (s : state) : option state :=
  match soa_meqs sy (s_meqs s) s with None => None | Some (Ms, s') => Some (set_s_meqs Ms s') end.
