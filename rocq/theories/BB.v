(** Model of the blackboard: /repo/b3/core/blackboard.py (whole file, 57 lines).
    Node and tree ids (uuid strings, basenode.py:13, behaviortree.py:9) are
    modelled as [nat]; keys are strings. *)
From stdpp Require Import base strings gmap.
From Coq Require Import ZArith.

(** Values a blackboard cell can hold.  Simplification: only the value shapes the
    engine itself stores or tests are distinguished ([inc] tests for [int]:
    blackboard.py:48-49); floats (clock readings) carry an integer number of time
    units; any other Python object is opaque. *)
Inductive val :=
| VNone                      (* Python None *)
| VBool (b : bool)
| VInt (z : Z)
| VFloat (t : Z)
| VNodes (l : list nat)      (* a list of nodes (open_nodes) *)
| VObj (n : nat).            (* any other object *)

Notation mem := (gmap string val).

(** blackboard.py:9-16 [_get_tree_memory]: a tree memory is the dict
    {'node_memory': {...}, 'open_nodes': []}.  The sub-dict 'node_memory' is the
    separate field [tm_nodes]; simplification: user code that overwrites the
    reserved key 'node_memory' at tree scope is outside the model. *)
Record tree_mem := TM { tm_nodes : gmap nat mem; tm_keys : mem }.

(** blackboard.py:4-7: [_base_memory], [_tree_memory]. *)
Record bb := BB { bb_base : mem; bb_trees : gmap nat tree_mem }.

Definition fresh_tree : tree_mem := TM ∅ {["open_nodes" := VNodes []]}.

(** blackboard.py:4-7: constructor, ends with [self.set('TotalCost', 0)]. *)
Definition bb_new : bb := BB {["TotalCost" := VInt 0]} ∅.

(** blackboard.py:9-16 *)
Definition tree_memory (b : bb) (t : nat) : tree_mem :=
  default fresh_tree (bb_trees b !! t).
(** blackboard.py:18-24 *)
Definition node_memory (tm : tree_mem) (n : nat) : mem :=
  default ∅ (tm_nodes tm !! n).

(** blackboard.py:26-35 [_get_memory]: how (tree_scope, node_scope) selects a dict. *)
Inductive scope := SBase | STree (t : nat) | SNode (t n : nat).
Definition mk_scope (tree_scope node_scope : option nat) : scope :=
  match tree_scope, node_scope with
  | None, _ => SBase
  | Some t, None => STree t
  | Some t, Some n => SNode t n
  end.

Definition get_memory (b : bb) (sc : scope) : mem :=
  match sc with
  | SBase => bb_base b
  | STree t => tm_keys (tree_memory b t)
  | SNode t n => node_memory (tree_memory b t) n
  end.

(** Writing back a dict obtained by [_get_memory] (Python mutates it in place). *)
Definition put_memory (b : bb) (sc : scope) (m : mem) : bb :=
  match sc with
  | SBase => BB m (bb_trees b)
  | STree t =>
      let tm := tree_memory b t in
      BB (bb_base b) (<[t := TM (tm_nodes tm) m]> (bb_trees b))
  | SNode t n =>
      let tm := tree_memory b t in
      BB (bb_base b) (<[t := TM (<[n := m]> (tm_nodes tm)) (tm_keys tm)]> (bb_trees b))
  end.

(** blackboard.py:37-39 *)
Definition bb_set (b : bb) (k : string) (v : val) (sc : scope) : bb :=
  put_memory b sc (<[k := v]> (get_memory b sc)).

(** blackboard.py:41-43: returns [memory.get(key)] (None by default) and, as a side
    effect of [_get_memory], materialises the (empty) scope dictionaries. *)
Definition bb_touch (b : bb) (sc : scope) : bb := put_memory b sc (get_memory b sc).
Definition bb_get (b : bb) (k : string) (sc : scope) : val * bb :=
  (default VNone (get_memory b sc !! k), bb_touch b sc).

(** blackboard.py:46-55 [inc]: int cell: add; missing key: KeyError; other: quit(). *)
Inductive inc_res := IncOk (b : bb) | IncKeyError (b : bb) | IncQuit (b : bb).
Definition bb_inc (b : bb) (k : string) (d : Z) (sc : scope) : inc_res :=
  match get_memory b sc !! k with
  | Some (VInt z) => IncOk (bb_set b k (VInt (z + d)) sc)
  | None => IncKeyError (bb_touch b sc)
  | Some _ => IncQuit (bb_touch b sc)
  end.

(** The observable content of a blackboard: what [get] would return. *)
Definition bb_read (b : bb) (k : string) (sc : scope) : val := fst (bb_get b k sc).
