(** Model of BehaviorTree.dump and BehaviorTree.load: /repo/b3/core/behaviortree.py:19-106. *)
From stdpp Require Import base strings list.
From Coq Require Import Lia.

(** b3/__init__.py:8-11 *)
Inductive category := COMPOSITE | DECORATOR | ACTION | CONDITION.
Global Instance category_eq : EqDecision category.
Proof. solve_decision. Defined.

(** A tree node as dump sees it: class name, category, id, title, description,
    properties (an opaque token, 0 is the empty dict) and its children (for a decorator: the list
    of at most one child, [] when built without one, decorator.py:12).  Simplification: constructor
    arguments (max_loop, milliseconds, ...) are not part of it - dump does not write them. *)
Inductive pnode := PN (cls : string) (cat : category) (id title desc : string) (props : nat) (kids : list pnode).
Definition p_cls n := match n with PN c _ _ _ _ _ _ => c end.
Definition p_cat n := match n with PN _ c _ _ _ _ _ => c end.
Definition p_id n := match n with PN _ _ i _ _ _ _ => i end.
Definition p_title n := match n with PN _ _ _ t _ _ _ => t end.
Definition p_desc n := match n with PN _ _ _ _ d _ _ => d end.
Definition p_props n := match n with PN _ _ _ _ _ p _ => p end.
Definition p_kids n := match n with PN _ _ _ _ _ _ k => k end.

(** behaviortree.py:77-82, 95-102: one entry of data['nodes'].  [sp_child] is the key 'child',
    [sp_children] the key 'children'; absent keys are None. *)
Record spec := Spec { sp_id : string; sp_name : string; sp_title : string; sp_desc : string;
  sp_props : nat; sp_children : option (list string); sp_child : option string }.
(** behaviortree.py:61-69 (title/description/properties of the tree itself are copied verbatim and
    left out).  [d_nodes] is an insertion-ordered dict. *)
Record data := Data { d_root : option string; d_nodes : list (string * spec);
                      d_custom : list (string * string * category) }.

Inductive ioexn := IOAttr | IOName | IOType | IOKey.
Inductive res (A : Type) := OK (a : A) | Err (e : ioexn) | OutOfFuel.
Arguments OK {A} _. Arguments Err {A} _. Arguments OutOfFuel {A}.

(** dict item assignment / lookup *)
Fixpoint dict_set {A} (d : list (string * A)) (k : string) (v : A) : list (string * A) :=
  match d with
  | [] => [(k, v)]
  | (k', v') :: d' => if decide (k' = k) then (k, v) :: d' else (k', v') :: dict_set d' k v
  end.
Fixpoint dict_get {A} (d : list (string * A)) (k : string) : option A :=
  match d with
  | [] => None
  | (k', v') :: d' => if decide (k' = k) then Some v' else dict_get d' k
  end.

Section IO.
  (** hasattr(b3, name) *)
  Context (in_b3 : string -> bool).

  (** behaviortree.py:74-104: the DFS with an explicit stack (top first here).  A composite pushes
      reversed(children) one by one, so its first child is popped first; it LISTS them reversed. *)
  Fixpoint dump_loop (fuel : nat) (stack : list pnode) (nodes : list (string * spec))
           (custom : list (string * string * category)) : res (list (string * spec) * list (string * string * category)) :=
    match stack with
    | [] => OK (nodes, custom)
    | n :: rest =>
        match fuel with
        | O => OutOfFuel
        | S f =>
            let sp ch c := Spec (p_id n) (p_cls n) (p_title n) (p_desc n) (p_props n) ch c in
            let custom' :=
              if in_b3 (p_cls n) || bool_decide (p_cls n ∈ map (fun x => fst (fst x)) custom) then custom
              else custom ++ [(p_cls n, p_title n, p_cat n)] in
            match p_cat n with
            | COMPOSITE =>
                dump_loop f (p_kids n ++ rest)
                  (dict_set nodes (p_id n) (sp (Some (map p_id (rev (p_kids n)))) None)) custom'
            | DECORATOR =>
                match p_kids n with
                | [] => Err IOAttr                      (* [].id *)
                | c :: _ => dump_loop f (c :: rest)
                              (dict_set nodes (p_id n) (sp None (Some (p_id c)))) custom'
                end
            | _ => dump_loop f rest (dict_set nodes (p_id n) (sp None None)) custom'
            end
        end
    end.

  Fixpoint psize (n : pnode) : nat := match n with PN _ _ _ _ _ _ ks => S (foldr (fun c z => psize c + z) 0 ks) end.

  (** behaviortree.py:60-106; the loop runs once per node, so [psize] steps are enough (proved). *)
  Definition dump (root : option pnode) : res data :=
    match root with
    | None => OK (Data None [] [])
    | Some n =>
        match dump_loop (psize n) [n] [] [] with
        | OK (ns, cu) => OK (Data (Some (p_id n)) ns cu)
        | Err e => Err e | OutOfFuel => OutOfFuel
        end
    end.

  (** What calling [cls()] yields: category and default title/description; [ci_nullary = false] when
      the constructor has required arguments (limiter.py:6, maxtime.py:7, repeater.py:6,
      repeatuntilfailure.py:6, repeatuntilsuccess.py:6): TypeError. *)
  Record clsinfo := CI { ci_cat : category; ci_title : string; ci_desc : string; ci_nullary : bool }.
  (** behaviortree.py:29-36: names[...] or getattr(b3, ...); None: the misspelt AttibuteError is a NameError. *)
  Context (cls_of : string -> option clsinfo).
  (** the uuid a new node is born with (basenode.py:13); only used when spec['id'] is empty *)
  Context (fresh : string -> string).

  (** A loaded node object; children by key of the [nodes] dict (Python references). *)
  Record lobj := LObj { lo_cls : string; lo_cat : category; lo_id : string; lo_title : string;
                        lo_desc : string; lo_props : nat; lo_kids : list string }.
  Definition or_str (a b : string) : string := if decide (a = "") then b else a.

  (** behaviortree.py:25-43 *)
  Definition load1 (e : string * spec) : res (string * lobj) :=
    let '(k, sp) := e in
    match cls_of (sp_name sp) with
    | None => Err IOName
    | Some ci =>
        if ci_nullary ci then
          OK (k, LObj (sp_name sp) (ci_cat ci) (or_str (sp_id sp) (fresh k)) (or_str (sp_title sp) (ci_title ci))
                      (or_str (sp_desc sp) (ci_desc ci)) (sp_props sp) [])
        else Err IOType
    end.
  (** behaviortree.py:45-54 *)
  Definition load2 (nodes : list (string * lobj)) (e : string * spec) (ko : string * lobj) : res (string * lobj) :=
    let '(_, sp) := e in let '(k, o) := ko in
    let with_kids ks := if forallb (fun c => bool_decide (is_Some (dict_get nodes c))) ks
                        then OK (k, LObj (lo_cls o) (lo_cat o) (lo_id o) (lo_title o) (lo_desc o) (lo_props o) ks)
                        else Err IOKey in
    match lo_cat o, sp_children sp, sp_child sp with
    | COMPOSITE, Some ks, _ => with_kids ks
    | DECORATOR, _, Some c => with_kids [c]
    | _, _, _ => OK ko
    end.
  Fixpoint mapR {A B} (f : A -> res B) (l : list A) : res (list B) :=
    match l with
    | [] => OK []
    | a :: l' => match f a with
                 | OK b => match mapR f l' with OK bs => OK (b :: bs) | Err e => Err e | OutOfFuel => OutOfFuel end
                 | Err e => Err e | OutOfFuel => OutOfFuel
                 end
    end.
  (** behaviortree.py:19-57.  Result: the node objects by key, and the root's key. *)
  Definition load (d : data) : res (list (string * lobj) * option string) :=
    match mapR load1 (d_nodes d) with
    | OK os =>
        match mapR (fun p => load2 os (fst p) (snd p)) (zip (d_nodes d) os) with
        | OK os' =>
            match d_root d with
            | None => OK (os', None)
            | Some r => if decide (r = "") then OK (os', None)
                        else if decide (is_Some (dict_get os' r)) then OK (os', Some r) else Err IOKey
            end
        | Err e => Err e | OutOfFuel => OutOfFuel
        end
    | Err e => Err e | OutOfFuel => OutOfFuel
    end.
End IO.

(** The tree a loaded object graph represents, starting at key [k]. *)
Inductive repr (g : list (string * lobj)) : string -> pnode -> Prop :=
| repr_node k o ks :
    dict_get g k = Some o -> Forall2 (repr g) (lo_kids o) ks ->
    repr g k (PN (lo_cls o) (lo_cat o) (lo_id o) (lo_title o) (lo_desc o) (lo_props o) ks).

(** Mirror image: every child list reversed. *)
Fixpoint mirror (n : pnode) : pnode :=
  match n with PN c ca i t d p ks => PN c ca i t d p (rev (map mirror ks)) end.
