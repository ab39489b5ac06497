(** Model of the behaviour-tree engine /repo/b3: statuses, nodes, Tick,
    BaseNode._execute, composites, decorators, actions, BehaviorTree.tick. *)
From stdpp Require Import base strings gmap list.
From Coq Require Import ZArith.
From Verif Require Import BB.

(** b3/__init__.py:3-6.  [NOSTATUS] stands for a [tick()] that returns anything
    else, e.g. None (basenode.py:184 [def tick(self, tick): pass]). *)
Inductive status := SUCCESS | FAILURE | RUNNING | ERROR | NOSTATUS.
Global Instance status_eq : EqDecision status.
Proof. solve_decision. Defined.

(** Composite kinds: b3/composites/*.py *)
Inductive ckind := CSequence | CPriority | COrNode | CMemSequence | CMemPriority.
(** Decorator kinds: b3/decorators/*.py, with their constructor parameters.
    (WalkTillDestination is not importable: mixed tabs, and its constructor names
    another class; it is not exported by b3/__init__.py and is not modelled.) *)
Inductive dkind :=
| DInverter
| DLimiter (max_loop : Z)
| DMaxTime (max_time : Z)
| DRepeater (max_loop : Z)
| DRepeatUntilSuccess (max_loop : Z)
| DRepeatUntilFailure (max_loop : Z).
(** Leaf kinds: b3/actions/*.py; [AUser] is any user-defined Action/Condition. *)
Inductive akind := AUser | ASucceeder | AFailer | ARunner | AError | AWait (end_time : Z).

(** A tree node: kind, id, children.  [None] is a decorator built without a child
    (b3/core/decorator.py:12: [self.child = child or []]). *)
Inductive node :=
| NLeaf (k : akind) (id : nat)
| NComp (k : ckind) (id : nat) (cs : list node)
| NDec (k : dkind) (id : nat) (c : option node).

Definition nid (n : node) : nat :=
  match n with NLeaf _ i => i | NComp _ i _ => i | NDec _ i _ => i end.

(** Per-node mutable statistics: basenode.py:19-34.  [n_ticks] and [n_tik2] are the
    counters that [prob] and [prob_state] read. *)
Record nstat := NStat {
  n_ticks_all : Z; n_ticks : Z; n_success : Z;
  n_tik2 : list Z; n_suc2 : list Z; n_state : nat; n_cost : Z }.
Definition nstat0 : nstat := NStat 0 0 0 [0;0;0;0]%Z [0;0;0;0]%Z 0 0.

(** Exceptions that can escape a tick. *)
Inductive exn := NameError | UnboundLocalError | TypeErr | KeyErr | IndexErr | QuitExn | AttrError | UserExn.

(** Ghost event: a completed node execution (id, status, Cost added to TotalCost). *)
Record event := Ev { ev_id : nat; ev_status : status; ev_cost : Z }.

Section Engine.
  Context {W : Type}.    (* state of the outside world seen by user leaves *)

  (** What a run is parameterised by: the executing tree's id (behaviortree.py:9),
      log_flag (behaviortree.py:16), node names (basenode.py:19), the clock
      ([time k] is the value of the k-th time.time() call), the code of user leaves.
      Simplification: a user leaf may read and write the blackboard's base memory and
      the world [W]; it does not touch tree- or node-scoped memory. *)
  Record cfg := Cfg {
    c_tree : nat;
    c_log : Z;
    c_name : nat -> string;
    c_time : nat -> Z;
    c_leaf : nat -> W -> mem -> (status + exn) * W * mem }.
  Context (C : cfg).

  (** Engine state: blackboard, node statistics, Tick object (tick.py:33-34; the
      open-node list is kept with its last element first), log file, number of clock
      readings so far, world, and the ghost trace of completed executions (newest last). *)
  Record st := St {
    s_bb : bb; s_stats : gmap nat nstat; s_stack : list nat; s_count : nat;
    s_log : list string; s_clk : nat; s_world : W; s_trace : list event }.

  Inductive out (A : Type) :=
  | Ret (a : A) (s : st)
  | Raise (e : exn) (s : st)
  | NoFuel.
  Global Arguments Ret {A} _ _. Global Arguments Raise {A} _ _. Global Arguments NoFuel {A}.

  Definition stat (s : st) (i : nat) : nstat := default nstat0 (s_stats s !! i).

  Definition set_bb (s : st) (b : bb) : st :=
    St b (s_stats s) (s_stack s) (s_count s) (s_log s) (s_clk s) (s_world s) (s_trace s).
  Definition set_stat (s : st) (i : nat) (x : nstat) : st :=
    St (s_bb s) (<[i := x]> (s_stats s)) (s_stack s) (s_count s) (s_log s) (s_clk s) (s_world s) (s_trace s).
  Definition set_stack (s : st) (l : list nat) : st :=
    St (s_bb s) (s_stats s) l (s_count s) (s_log s) (s_clk s) (s_world s) (s_trace s).

  (** node-scoped memory of node [i] in the executing tree *)
  (* Simplification: the empty dicts that [blackboard.get] materialises on the way are
     not recorded; they are unobservable (BBFacts.bb_touch_read). *)
  Definition nget (s : st) (i : nat) (k : string) : val := bb_read (s_bb s) k (SNode (c_tree C) i).
  Definition nset (s : st) (i : nat) (k : string) (v : val) : st :=
    set_bb s (bb_set (s_bb s) k v (SNode (c_tree C) i)).

  Definition cost_of (s : st) (n : node) : Z := n_cost (stat s (nid n)).
  Definition set_cost (s : st) (i : nat) (z : Z) : st :=
    let x := stat s i in
    set_stat s i (NStat (n_ticks_all x) (n_ticks x) (n_success x) (n_tik2 x) (n_suc2 x) (n_state x) z).

  (** [time.time()] *)
  Definition read_clock (s : st) : Z * st :=
    (c_time C (s_clk s),
     St (s_bb s) (s_stats s) (s_stack s) (s_count s) (s_log s) (S (s_clk s)) (s_world s) (s_trace s)).

  (** basenode.py:136-138 + tick.py:36-42 *)
  Definition do_enter (s : st) (i : nat) : st :=
    St (s_bb s) (s_stats s) (i :: s_stack s) (S (s_count s)) (s_log s) (s_clk s) (s_world s) (s_trace s).

  (** The [open] hooks: limiter.py:11-12, maxtime.py:12-14, repeater.py:11-12,
      repeatuntil*.py:11-12, mem*.py:9-10, wait.py:11-13. *)
  Definition open_hook (n : node) (s : st) : st :=
    match n with
    | NLeaf (AWait _) i => let '(t, s') := read_clock s in nset s' i "start_time" (VFloat t)
    | NLeaf _ _ => s
    | NComp (CMemSequence | CMemPriority) i _ => nset s i "running_child" (VInt 0)
    | NComp _ _ _ => s
    | NDec (DMaxTime _) i _ => let '(t, s') := read_clock s in nset s' i "startTime" (VFloat t)
    | NDec DInverter _ _ => s
    | NDec _ i _ => nset s i "i" (VInt 0)
    end.

  (** truthiness of blackboard.get('is_open', ...) (basenode.py:124) *)
  Definition is_open (s : st) (i : nat) : bool :=
    match nget s i "is_open" with VBool b => b | _ => false end.

  (** basenode.py:122-126 and 140-143: enter, then open if not already open *)
  Definition do_open (n : node) (s : st) : st :=
    if is_open s (nid n) then s
    else open_hook n (nset s (nid n) "is_open" (VBool true)).

  (** basenode.py:150-151 [self.N_ticks_all += 1] (line 147: N_ticks is NOT incremented) *)
  Definition count_tick (s : st) (i : nat) : st :=
    let x := stat s i in
    set_stat s i (NStat (n_ticks_all x + 1) (n_ticks x) (n_success x) (n_tik2 x) (n_suc2 x) (n_state x) (n_cost x)).

  Definition prologue (n : node) (s : st) : st :=
    count_tick (do_open n (do_enter s (nid n))) (nid n).

  (** basenode.py:162-165 *)
  Definition count_success (s : st) (i : nat) : st :=
    let x := stat s i in
    set_stat s i (NStat (n_ticks_all x) (n_ticks x) (n_success x + 1) (n_tik2 x)
                        (alter Z.succ (n_state x) (n_suc2 x)) (n_state x) (n_cost x)).
  Definition add_log (s : st) (l : string) : st :=
    St (s_bb s) (s_stats s) (s_stack s) (s_count s) (s_log s ++ [l]) (s_clk s) (s_world s) (s_trace s).
  Definition add_trace (s : st) (e : event) : st :=
    St (s_bb s) (s_stats s) (s_stack s) (s_count s) (s_log s) (s_clk s) (s_world s) (s_trace s ++ [e]).

  (** basenode.py:152-171: everything in [_tick] after the call of [self.tick]. *)
  Definition after_tick (i : nat) (r : status) (s : st) : out status :=
    let c := n_cost (stat s i) in
    match bb_inc (s_bb s) "TotalCost" c SBase with
    | IncKeyError b => Raise KeyErr (set_bb s b)
    | IncQuit b => Raise QuitExn (set_bb s b)
    | IncOk b =>
        let s1 := add_trace (set_bb s b) (Ev i r c) in
        let s2 := if decide (r = SUCCESS) then
                    let s' := count_success s1 i in
                    if (c_log C >? 0)%Z then add_log s' ("S " +:+ c_name C i) else s'
                  else s1 in
        let s3 := if decide (r = FAILURE) then
                    if (c_log C >? 1)%Z then add_log s2 ("F " +:+ c_name C i) else s2
                  else s2 in
        Ret r s3
    end.

  (** basenode.py:130-131 and 173-176, tick.py:58-63: close unless RUNNING.
      [_open_nodes.pop()] removes the LAST entry, whichever node that is. *)
  Definition finish (i : nat) (r : status) (s : st) : out status :=
    if decide (r = RUNNING) then Ret r s
    else match s_stack s with
         | [] => Raise IndexErr s
         | _ :: l => Ret r (nset (set_stack s l) i "is_open" (VBool false))
         end.

  Definition epilogue (i : nat) (r : status) (s : st) : out status :=
    match after_tick i r s with
    | Ret r' s' => finish i r' s'
    | Raise e s' => Raise e s'
    | NoFuel => NoFuel
    end.

  (** Composite [tick] loops, over an arbitrary executor [ex] of children. *)
  Section Loops.
    Context (ex : node -> st -> out status).

    (** sequence.py:11-22 *)
    Definition seq_loop (i : nat) : list node -> Z -> st -> out status :=
      fix go cs tmp s :=
        match cs with
        | [] => Ret SUCCESS (set_cost s i tmp)
        | c :: cs' =>
            match ex c s with
            | Ret r s' =>
                let tmp' := (tmp + cost_of s' c)%Z in
                if decide (r = SUCCESS) then go cs' tmp' s'
                else Ret r (set_cost s' i tmp')
            | Raise e s' => Raise e s' | NoFuel => NoFuel
            end
        end.

    (** priority.py:10-19 (loop; [self.Cost = 0] is done by the caller) *)
    Definition prio_loop (i : nat) : list node -> st -> out status :=
      fix go cs s :=
        match cs with
        | [] => Ret FAILURE s
        | c :: cs' =>
            match ex c s with
            | Ret r s' =>
                let s'' := set_cost s' i (n_cost (stat s' i) + cost_of s' c) in
                if decide (r = FAILURE) then go cs' s'' else Ret r s''
            | Raise e s' => Raise e s' | NoFuel => NoFuel
            end
        end.

    (** ornode.py:33-45 *)
    Definition or_loop (i : nat) : list node -> status -> st -> out status :=
      fix go cs acc s :=
        match cs with
        | [] => Ret acc s
        | c :: cs' =>
            match ex c s with
            | Ret r s' =>
                let s'' := set_cost s' i (n_cost (stat s' i) + cost_of s' c) in
                go cs' (if decide (r = FAILURE) then acc else SUCCESS) s''
            | Raise e s' => Raise e s' | NoFuel => NoFuel
            end
        end.

    (** The common shape of repeater.py:14-30, repeatuntilsuccess.py:14-28,
        repeatuntilfailure.py:14-28: [while max_loop < 0 or i < max_loop: status =
        child._execute(tick); if <again status>: i += 1 else: break], then store [i]
        and return [status] (unbound if the loop body never ran and it had no initial
        value).  [k] is the number of iterations still allowed: exact when
        max_loop >= 0, the interpreter's fuel when max_loop < 0. *)
    Definition rep_loop (id : nat) (c : node) (again : status -> bool) (maxl : Z)
      : nat -> Z -> option status -> st -> out status :=
      fix go k i last s :=
        let done :=
          let s' := nset s id "i" (VInt i) in
          match last with Some r => Ret r s' | None => Raise UnboundLocalError s' end in
        match k with
        | O => if (maxl <? 0)%Z then NoFuel else done
        | S k' =>
            if (maxl <? 0)%Z || (i <? maxl)%Z then
              match ex c s with
              | Ret r s' =>
                  if again r then go k' (i + 1)%Z (Some r) s'
                  else Ret r (nset s' id "i" (VInt i))
              | Raise e s' => Raise e s' | NoFuel => NoFuel
              end
            else done
        end.
  End Loops.

  Definition again_rep (r : status) : bool := bool_decide (r = SUCCESS) || bool_decide (r = FAILURE).
  Definition again_rus (r : status) : bool := bool_decide (r = FAILURE).
  Definition again_ruf (r : status) : bool := bool_decide (r = SUCCESS).

  Definition rep_fuel (fuel : nat) (maxl i : Z) : nat :=
    if (maxl <? 0)%Z then fuel else Z.to_nat (maxl - i).

  Definition invert (r : status) : status :=
    match r with SUCCESS => FAILURE | FAILURE => SUCCESS | r => r end.

  (** User leaf: b3/core/action.py; succeeder/failer/runner/error.py; wait.py:15-22 *)
  Definition leaf_tick (k : akind) (id : nat) (s : st) : out status :=
    match k with
    | ASucceeder => Ret SUCCESS s
    | AFailer => Ret FAILURE s
    | ARunner => Ret RUNNING s
    | AError => Ret ERROR s
    | AWait e =>
        let '(t, s') := read_clock s in
        match nget s' id "start_time" with
        | VFloat t0 => Ret (if (t - t0 >? e)%Z then SUCCESS else RUNNING) s'
        | _ => Raise TypeErr s'
        end
    | AUser =>
        let '(r, w, m) := c_leaf C id (s_world s) (bb_base (s_bb s)) in
        let s' := St (BB m (bb_trees (s_bb s))) (s_stats s) (s_stack s) (s_count s)
                     (s_log s) (s_clk s) w (s_trace s) in
        match r with inl r => Ret r s' | inr e => Raise e s' end
    end.

  (** Decorator ticks, over an executor of the child. *)
  Definition dec_tick (fuel : nat) (ex : node -> st -> out status) (k : dkind) (id : nat)
             (co : option node) (s : st) : out status :=
    match co with
    | None => Ret ERROR s                                  (* if not self.child: return b3.ERROR *)
    | Some c =>
        match k with
        | DInverter =>                                     (* inverter.py:10-21 *)
            match ex c s with Ret r s' => Ret (invert r) s' | Raise e s' => Raise e s' | NoFuel => NoFuel end
        | DLimiter m =>                                    (* limiter.py:14-27 *)
            match nget s id "i" with
            | VInt i =>
                if (i <? m)%Z then
                  match ex c s with
                  | Ret r s' =>
                      Ret r (if again_rep r then nset s' id "i" (VInt (i + 1)) else s')
                  | Raise e s' => Raise e s' | NoFuel => NoFuel
                  end
                else Ret FAILURE s
            | _ => Raise TypeErr s
            end
        | DMaxTime m =>                                    (* maxtime.py:16-27 *)
            let '(t, s1) := read_clock s in
            match nget s1 id "startTime" with
            | VFloat t0 =>
                match ex c s1 with
                | Ret r s' => Ret (if (t - t0 >? m)%Z then FAILURE else r) s'
                | Raise e s' => Raise e s' | NoFuel => NoFuel
                end
            | _ => Raise TypeErr s1
            end
        | DRepeater m =>
            match nget s id "i" with
            | VInt i => rep_loop ex id c again_rep m (rep_fuel fuel m i) i (Some SUCCESS) s
            | _ => Raise TypeErr s
            end
        | DRepeatUntilSuccess m =>
            match nget s id "i" with
            | VInt i => rep_loop ex id c again_rus m (rep_fuel fuel m i) i None s
            | _ => Raise TypeErr s
            end
        | DRepeatUntilFailure m =>
            match nget s id "i" with
            | VInt i => rep_loop ex id c again_ruf m (rep_fuel fuel m i) i None s
            | _ => Raise TypeErr s
            end
        end
    end.

  (** Composite ticks.  memsequence.py:15 and mempriority.py:15 evaluate [xrange],
      which does not exist in Python 3 (README: "Python 3.8.x"): NameError. *)
  Definition comp_tick (ex : node -> st -> out status) (k : ckind) (id : nat)
             (cs : list node) (s : st) : out status :=
    match k with
    | CSequence => seq_loop ex id cs 0 s
    | CPriority => prio_loop ex id cs (set_cost s id 0)
    | COrNode => or_loop ex id cs FAILURE (set_cost s id 0)
    | CMemSequence | CMemPriority => Raise NameError s
    end.

  (** basenode.py:122-134 [_execute] *)
  Fixpoint exec (fuel : nat) (n : node) (s : st) {struct n} : out status :=
    let s0 := prologue n s in
    let body :=
      match n with
      | NLeaf k id => leaf_tick k id s0
      | NComp k id cs => comp_tick (exec fuel) k id cs s0
      | NDec k id co => dec_tick fuel (exec fuel) k id co s0
      end in
    match body with
    | Ret r s' => epilogue (nid n) r s'
    | Raise e s' => Raise e s' | NoFuel => NoFuel
    end.

  (** behaviortree.py:109-150 [BehaviorTree.tick] ([self.root] may be None). The
      tree's own [tick_count] is the extra component. *)
  Definition tree_tick (fuel : nat) (root : option node) (s : st) (tick_count : Z) : out status * Z :=
    let s0 := St (s_bb s) (s_stats s) [] 0 (s_log s) (s_clk s) (s_world s) (s_trace s) in
    (match root with
     | None => Raise AttrError s0
     | Some n =>
         match exec fuel n s0 with
         | Ret r s' =>
             let b1 := snd (bb_get (s_bb s') "open_nodes" (STree (c_tree C))) in
             let b2 := bb_set b1 "open_nodes" (VNodes (rev (s_stack s'))) (STree (c_tree C)) in
             let b3 := bb_set b2 "node_count" (VInt (Z.of_nat (s_count s'))) (STree (c_tree C)) in
             Ret r (set_bb s' b3)
         | Raise e s' => Raise e s' | NoFuel => NoFuel
         end
     end, (tick_count + 1)%Z).

  (** basenode.py:40-46 [prob]: the returned float as a fraction (numerator, denominator);
      0.1 is (1,10). *)
  Definition prob (x : nstat) : Z * Z :=
    if (n_ticks x >? 0)%Z then (n_success x, n_ticks x) else (1, 10)%Z.
  (** basenode.py:80-95 [prob_state]: four fractions; 0.5 is (1,2). *)
  Definition prob_state (x : nstat) : list (Z * Z) :=
    zip_with (fun t c => if (t >? 0)%Z then (c, t) else (1, 2)%Z) (n_tik2 x) (n_suc2 x).
  (** basenode.py:98-104 [p_reset] *)
  Definition p_reset (s : st) (i : nat) : st :=
    let x := stat s i in
    set_stat s i (NStat 0 0 0 [0;0;0;0]%Z [0;0;0;0]%Z (n_state x) (n_cost x)).

End Engine.
Arguments cfg : clear implicits.
Arguments st : clear implicits.
Arguments out : clear implicits.
