(** Specification vocabulary for the engine properties: node ids of a tree, what an
    execution's trace says, chains of executions.  No proofs; small on purpose. *)
From stdpp Require Import base strings gmap list.
From Coq Require Import ZArith.
From Verif Require Import BB Engine.

(** All node ids of a subtree, root first. *)
Fixpoint ids (n : node) : list nat :=
  match n with
  | NLeaf _ i => [i]
  | NComp _ i cs => i :: concat (map ids cs)
  | NDec _ i co => i :: match co with Some c => ids c | None => [] end
  end.

(** The lines a completed execution contributes to the log file. *)
Definition log_line (flag : Z) (name : nat -> string) (e : event) : list string :=
  match ev_status e with
  | SUCCESS => if (flag >? 0)%Z then ["S " +:+ name (ev_id e)] else []
  | FAILURE => if (flag >? 1)%Z then ["F " +:+ name (ev_id e)] else []
  | _ => []
  end.
Definition log_lines flag name (tr : list event) : list string := concat (map (log_line flag name) tr).

(** Counting executions in a trace. *)
Definition n_exec (i : nat) (tr : list event) : Z :=
  Z.of_nat (length (filter (fun e => ev_id e = i) tr)).
Definition n_succ (i : nat) (tr : list event) : Z :=
  Z.of_nat (length (filter (fun e => ev_id e = i /\ ev_status e = SUCCESS) tr)).
Definition n_running (tr : list event) : nat :=
  length (filter (fun e => ev_status e = RUNNING) tr).
Definition cost_sum (tr : list event) : Z := foldr (fun e z => (ev_cost e + z)%Z) 0%Z tr.

(** The most recent completed execution of node [i] in a trace. *)
Definition last_exec (i : nat) (tr : list event) : option event :=
  last (filter (fun e => ev_id e = i) tr).

(** No node is its own descendant (true of every finite tree of Python objects:
    an object reachable from itself would make the tree infinite). *)
Fixpoint acyclic (n : node) : Prop :=
  match n with
  | NLeaf _ _ => True
  | NComp _ i cs => i ∉ concat (map ids cs) /\ foldr (fun c P => acyclic c /\ P) True cs
  | NDec _ i co => match co with Some c => i ∉ ids c /\ acyclic c | None => True end
  end.

(** [chain ex upd cs s l s']: the nodes [cs] are executed one after the other, each
    from the state its predecessor left (after the parent's own bookkeeping [upd]),
    yielding the (status, Cost) pairs [l]. *)
Inductive chain {W} (ex : node -> st W -> out W status) (upd : node -> st W -> st W)
  : list node -> st W -> list (status * Z) -> st W -> Prop :=
| chain_nil s : chain ex upd [] s [] s
| chain_cons c cs s r s1 l s' :
    ex c s = Ret r s1 ->
    chain ex upd cs (upd c s1) l s' ->
    chain ex upd (c :: cs) s ((r, cost_of s1 c) :: l) s'.

Definition sum_cost (l : list (status * Z)) : Z := foldr (fun p z => (snd p + z)%Z) 0%Z l.

(** [first_stop keep dflt rest l r]: executing children left to right as long as they
    return [keep]; [l] is what the executed ones returned and [rest] the ones not
    executed.  Either all were executed, all returned [keep], and the result is
    [dflt]; or all but the last returned [keep] and the result [r] is the last one's,
    which is not [keep]. *)
Definition first_stop (keep dflt : status) (rest : list node) (l : list (status * Z)) (r : status) : Prop :=
  (rest = [] /\ Forall (fun p => fst p = keep) l /\ r = dflt) \/
  (exists l0 c, l = l0 ++ [(r, c)] /\ Forall (fun p => fst p = keep) l0 /\ r <> keep).

(** Loop decorators: [l] is what the successive executions of the child returned,
    [budget] how many executions were allowed; all but the last satisfy [again], the
    last one [r] stopped the loop or exhausted the budget. *)
Definition loop_stop (again : status -> bool) (budget : nat) (l : list (status * Z)) (r : status) : Prop :=
  exists l0 c, l = l0 ++ [(r, c)] /\ Forall (fun p => again (fst p) = true) l0 /\
    length l <= budget /\ (again r = false \/ length l = budget).

(** Static properties of trees. *)
Fixpoint finite_loops (n : node) : bool :=
  match n with
  | NLeaf _ _ => true
  | NComp _ _ cs => forallb finite_loops cs
  | NDec k _ co =>
      match k with
      | DRepeater m | DRepeatUntilSuccess m | DRepeatUntilFailure m => (0 <=? m)%Z
      | _ => true
      end && match co with Some c => finite_loops c | None => true end
  end.
(** Worst-case number of node executions in one execution of [n]. *)
Fixpoint exec_bound (n : node) : nat :=
  match n with
  | NLeaf _ _ => 1
  | NComp _ _ cs => 1 + foldr (fun c z => exec_bound c + z) 0 cs
  | NDec k _ co =>
      match co with
      | None => 1
      | Some c =>
          match k with
          | DRepeater m | DRepeatUntilSuccess m | DRepeatUntilFailure m => 1 + Z.to_nat m * exec_bound c
          | _ => 1 + exec_bound c
          end
      end
  end.

(** Subtrees, root first. *)
Fixpoint subnodes (n : node) : list node :=
  n :: match n with
       | NLeaf _ _ => []
       | NComp _ _ cs => concat (map subnodes cs)
       | NDec _ _ (Some c) => subnodes c
       | NDec _ _ None => []
       end.

(** Trees whose own nodes cannot crash the engine: no MemSequence/MemPriority
    (xrange), no RepeatUntil* with max_loop = 0, finite loops. *)
Definition good_node (n : node) : bool :=
  match n with
  | NLeaf _ _ => true
  | NComp (CMemSequence | CMemPriority) _ _ => false
  | NComp _ _ _ => true
  | NDec (DRepeatUntilSuccess m | DRepeatUntilFailure m) _ _ => (1 <=? m)%Z
  | NDec (DRepeater m) _ _ => (0 <=? m)%Z
  | NDec _ _ _ => true
  end.
Definition good_tree (n : node) : bool := forallb good_node (subnodes n).

(** A user leaf that returns normally and leaves TotalCost alone. *)
Definition leaves_safe {W} (C : cfg W) : Prop :=
  forall i w m, (exists r, fst (fst (c_leaf C i w m)) = inl r) /\
                snd (c_leaf C i w m) !! "TotalCost" = m !! "TotalCost".

(** Histories of a tree and its blackboard: ticks, p_reset calls, and user writes to
    base memory between ticks. *)
Inductive hop := HTick | HReset (i : nat) | HSetBase (k : string) (v : val).

(** Running a history; [None] if a tick raised (or the interpreter ran out of fuel).
    Collects the statuses of the ticks and the tree's tick_count. *)
Fixpoint run_hist {W} (C : cfg W) (fuel : nat) (root : node) (h : list hop) (s : st W) (tc : Z)
  : option (list status * st W * Z) :=
  match h with
  | [] => Some ([], s, tc)
  | HTick :: h' =>
      match tree_tick C fuel (Some root) s tc with
      | (Ret r s', tc') =>
          match run_hist C fuel root h' s' tc' with
          | Some (rs, s'', tc'') => Some (r :: rs, s'', tc'')
          | None => None
          end
      | _ => None
      end
  | HReset i :: h' => run_hist C fuel root h' (p_reset s i) tc
  | HSetBase k v :: h' => run_hist C fuel root h' (set_bb s (bb_set (s_bb s) k v SBase)) tc
  end.

(** Number of tree ticks in a history. *)
Fixpoint n_ticks_in (h : list hop) : nat :=
  match h with [] => 0 | HTick :: h' => S (n_ticks_in h') | _ :: h' => n_ticks_in h' end.

(** A new tree on a new blackboard: nothing executed yet; costs of the leaves are
    whatever the user set. *)
Definition initial {W} (s : st W) : Prop :=
  s_bb s = bb_new /\ s_trace s = [] /\ s_log s = [] /\
  forall i, exists c q, stat s i = NStat 0 0 0 [0;0;0;0]%Z [0;0;0;0]%Z q c.

(** Node [i]'s own bookkeeping, and nothing else, may differ between [s] and [s']:
    the world, base memory, log, list of completed executions, every other node's
    statistics and every other memory scope are the same. *)
Definition only_own {W} (C : cfg W) (i : nat) (s s' : st W) : Prop :=
  s_world s' = s_world s /\ bb_base (s_bb s') = bb_base (s_bb s) /\
  s_log s' = s_log s /\ s_trace s' = s_trace s /\
  (forall j, j <> i -> stat s' j = stat s j) /\
  (forall sc, sc <> SNode (c_tree C) i -> get_memory (s_bb s') sc = get_memory (s_bb s) sc).

(** The nodes are executed one after the other, each from the state the previous one
    left up to node [i]'s own bookkeeping; [l] lists the (status, Cost) pairs. *)
Inductive runs {W} (C : cfg W) (ex : node -> st W -> out W status) (i : nat)
  : list node -> st W -> list (status * Z) -> st W -> Prop :=
| runs_nil s s' : only_own C i s s' -> runs C ex i [] s [] s'
| runs_cons c cs s s0 r s1 l s' :
    only_own C i s s0 ->
    ex c s0 = Ret r s1 ->
    runs C ex i cs s1 l s' ->
    runs C ex i (c :: cs) s ((r, cost_of s1 c) :: l) s'.

(** Node [i]'s execution completes with status [r] and cost [c]: one event is added to
    the history, the open flag says whether it is RUNNING, and apart from TotalCost
    nothing outside node [i]'s own bookkeeping changes. *)
Definition closes {W} (C : cfg W) (i : nat) (r : status) (c : Z) (s s' : st W) : Prop :=
  s_trace s' = s_trace s ++ [Ev i r c] /\ s_world s' = s_world s /\
  n_cost (stat s' i) = c /\
  (forall j, j <> i -> stat s' j = stat s j) /\
  (forall k, k <> "TotalCost" -> bb_base (s_bb s') !! k = bb_base (s_bb s) !! k) /\
  (forall sc, sc <> SBase -> sc <> SNode (c_tree C) i -> get_memory (s_bb s') sc = get_memory (s_bb s) sc) /\
  (r <> RUNNING -> is_open C s' i = false).
