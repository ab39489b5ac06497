(** Grouping notations into poses: ikbtbasics/matching.py.  A notation (a sympy symbol such as th_1s4) is its name; a solution node is
    the list of its notations (node.sol_notations, the only field matching.py reads).  A Python set is a list without repetitions; the
    order in which list(new_set) yields it depends on the hash seed and is the parameter [ord] of the functions that need it.
    Printing is not modelled. *)
From Coq Require Import List String Bool Arith.
Import ListNotations.
Local Open Scope list_scope.
Local Open Scope nat_scope.

Definition mem (x : string) (l : list string) : bool := existsb (String.eqb x) l.
(** set(l) *)
Fixpoint to_set (l : list string) : list string :=
  match l with [] => [] | x :: t => if mem x t then to_set t else x :: to_set t end.
(** a.union(b) *)
Definition union (a b : list string) : list string := a ++ filter (fun x => negb (mem x a)) (to_set b).

(** a Python dictionary from integers to lists, with keys in order of insertion *)
Definition dict := list (nat * list (list string)).
(** if k not in d.keys(): d[k] = [] ; d[k].append(g) *)
Fixpoint dict_append (d : dict) (k : nat) (g : list string) : dict :=
  match d with
  | [] => [(k, [g])]
  | (k', l) :: t => if k' =? k then (k', l ++ [g]) :: t else (k', l) :: dict_append t k g
  end.
(** d[k] (for a key that is absent: the empty list; the callers only read keys that are present) *)
Fixpoint dict_get (d : dict) (k : nat) : list (list string) :=
  match d with [] => [] | (k', l) :: t => if k' =? k then l else dict_get t k end.

(** matching.py:43-58; max_len = -1 is None.  len() of a list never raises, so the except branch is dead *)
Definition sort_step (acc : dict * option nat) (g : list string) : dict * option nat :=
  let '(d, m) := acc in
  (dict_append d (List.length g) g, match m with None => Some (List.length g) | Some k => if k <? List.length g then Some (List.length g) else Some k end).
Definition sort_by_length (cs : list (list string)) : dict * option nat := fold_left sort_step cs ([], None).

(** matching.py:73-80: the score of a candidate is its length plus the number of its elements that are in start *)
Definition score (start g : list string) : nat := List.length g + List.length (filter (fun s => mem s start) g).
(** sorted(keys, reverse=True): insertion sort, largest first *)
Fixpoint insert_desc (k : nat) (l : list nat) : list nat :=
  match l with [] => [k] | a :: t => if k <? a then a :: insert_desc k t else k :: l end.
Fixpoint sort_desc (l : list nat) : list nat := match l with [] => [] | k :: t => insert_desc k (sort_desc t) end.
(** matching.py:62-67: a candidate appears once for every goal notation it contains *)
Definition candidates (search : list (list string)) (goals : list (list string)) : list (list string) :=
  flat_map (fun g => flat_map (fun goal => flat_map (fun n => if mem n g then [g] else []) goal) goals) search.
(** matching.py:61-88 *)
Definition search_notation (search goals : list (list string)) (start : list string) : list (list string) :=
  let d := fold_left (fun d g => dict_append d (score start g) g) (candidates search goals) [] in
  flat_map (dict_get d) (sort_desc (map fst d)).

(** matching.py:92-97 *)
Definition finish_found (check : list bool) : bool := forallb (fun b => b) check.
(** matching.py:99-113 (check_list, goals, start_pts) *)
Definition touches (set : list string) (node : list string) : bool := existsb (fun x => mem x node) set.
Definition mark_off (set : list string) (nodes : list (list string)) : list bool * list (list string) * list (list string) :=
  (map (touches set) nodes, filter (fun n => negb (touches set n)) nodes, filter (touches set) nodes).

(** matching.py:155-159, where range(len(solution_nodes))[1:] leaves out the first node *)
Definition has_new_sym (check : list bool) (nodes : list (list string)) (g : list string) : bool :=
  existsb (fun sym => existsb (fun nc => mem sym (fst nc) && snd nc) (combine (tl nodes) (tl check))) g.
(** matching.py:163-171 *)
Definition no_conflict (nodes : list (list string)) (set g : list string) : bool :=
  negb (existsb (fun sym => existsb (fun s => negb (String.eqb sym s) && existsb (fun n => mem sym n && mem s n) (tl nodes)) set) g).

(** the local variables new_set, check_list, goals, contained *)
Record mstate := mkm { m_set : list string; m_check : list bool; m_goals : list (list string); m_cont : list (list string) }.
(** matching.py:150-183: one element of start *)
Definition merge1 (nodes : list (list string)) (g : list string) (st : mstate) (x : string) : mstate :=
  if mem x g && has_new_sym (m_check st) nodes g && no_conflict nodes (m_set st) g then
    let ns := union (m_set st) g in
    let '(c, go, ct) := mark_off ns nodes in mkm ns c go ct
  else st.
(** matching.py:187-209.  Line 209 assigns the third result to the misspelt variable countained: [m_cont] keeps its old value *)
Definition merge2 (nodes : list (list string)) (g : list string) (st : mstate) : mstate :=
  if negb (existsb (fun x => mem x (m_set st)) g)
     && existsb (fun goal => existsb (fun x => mem x goal) g) (m_goals st)
     && negb (existsb (fun pt => existsb (fun x => mem x pt) g) (m_cont st)) then
    let ns := union (m_set st) g in
    let '(c, go, _) := mark_off ns nodes in mkm ns c go (m_cont st)
  else st.
(** matching.py:227-235 *)
Definition sort_variables (l : list string) (nodes : list (list string)) : list string :=
  flat_map (fun n => filter (fun x => mem x n) l) nodes.
(** matching.py:146-222: the candidates one after the other, until everything is found *)
Fixpoint try_groups (ord : list string -> list string) (nodes : list (list string)) (start : list string) (gs : list (list string)) (st : mstate) : option (list string) :=
  match gs with
  | [] => None
  | g :: t =>
      let st' := merge2 nodes g (fold_left (merge1 nodes g) start st) in
      if finish_found (m_check st') then Some (sort_variables (ord (m_set st')) nodes) else try_groups ord nodes start t st'
  end.
(** matching.py:133-222 for one start *)
Definition match_start (ord : list string -> list string) (cs nodes : list (list string)) (start : list string) : option (list string) :=
  let '(c, go, ct) := mark_off start nodes in
  try_groups ord nodes start (search_notation cs go start) (mkm (to_set start) c go ct).
(** final_group.add(...) *)
Definition list_eqb (a b : list string) : bool := if list_eq_dec string_dec a b then true else false.
Definition add_group (acc : list (list string)) (g : list string) : list (list string) := if existsb (list_eqb g) acc then acc else acc ++ [g].
(** matching.py:129-222: the loop over start_list, with its early return *)
Fixpoint match_all (ord : list string -> list string) (cs nodes whole starts acc : list (list string)) : list (list string) :=
  match starts with
  | [] => acc
  | s :: t =>
      if List.length s =? List.length nodes then whole
      else match_all ord cs nodes whole t (match match_start ord cs nodes s with Some g => add_group acc g | None => acc end)
  end.
(** matching.py:116-224.  The result is a list (early return) or a set of tuples *)
Definition matching_func (ord : list string -> list string) (cs nodes : list (list string)) : list (list string) :=
  let '(d, m) := sort_by_length cs in
  match m with
  | None => []
  | Some k => match_all ord cs nodes (dict_get d k) (dict_get d k) []
  end.
