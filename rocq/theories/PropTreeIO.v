(** Property C17: dump/load round trip. *)
From stdpp Require Import base strings list.
From Coq Require Import Lia.
From Verif Require Import TreeIO TreeIOFacts.

(** The b3 classes (b3/__init__.py:24-55): composites, Inverter and actions have nullary constructors;
    the other decorators require arguments. *)
Definition b3_cls (name : string) : option clsinfo :=
  if bool_decide (name ∈ ["Sequence"; "Priority"; "OrNode"; "MemSequence"; "MemPriority"]) then Some (CI COMPOSITE name "" true)
  else if bool_decide (name ∈ ["Succeeder"; "Failer"; "Runner"; "Error"; "Wait"]) then Some (CI ACTION name "" true)
  else if bool_decide (name = "Inverter") then Some (CI DECORATOR name "" true)
  else if bool_decide (name ∈ ["Limiter"; "MaxTime"; "Repeater"; "RepeatUntilFailure"; "RepeatUntilSuccess"]) then Some (CI DECORATOR name "" false)
  else None.
Definition b3_has (name : string) : bool := bool_decide (is_Some (b3_cls name)).

(** What load(dump(t)) is, for every tree it works on: t with every child list reversed, same ids,
    classes, titles, descriptions and properties. *)
Theorem c17_load_dump_is_mirror :
  forall in_b3 cls_of fresh n,
    tree_ok n = true -> NoDup (pids n) -> forallb (loadable cls_of) (pnodes n) = true ->
    exists d g, dump in_b3 (Some n) = OK d /\ load cls_of fresh d = OK (g, Some (p_id n)) /\
      forall t, repr g (p_id n) t <-> t = mirror n.
Proof. exact roundtrip. Qed.
Print Assumptions c17_load_dump_is_mirror.

(** Doing it twice is the identity. *)
Theorem c17_twice_is_identity :
  forall in_b3 cls_of fresh n,
    tree_ok n = true -> NoDup (pids n) -> forallb (loadable cls_of) (pnodes n) = true ->
    exists d1 g1 t1 d2 g2, dump in_b3 (Some n) = OK d1 /\ load cls_of fresh d1 = OK (g1, Some (p_id n)) /\ repr g1 (p_id n) t1 /\
      dump in_b3 (Some t1) = OK d2 /\ load cls_of fresh d2 = OK (g2, Some (p_id n)) /\ forall t, repr g2 (p_id n) t <-> t = n.
Proof. exact roundtrip_twice. Qed.
Print Assumptions c17_twice_is_identity.

(** The round trip as claimed (same child order) is false. *)
Definition leaf name id := PN name ACTION id name "" 0 [].
Definition two := PN "Sequence" COMPOSITE "s" "Sequence" "" 0
                    [leaf "Failer" "a"; PN "Inverter" DECORATOR "i" "not" "d" 3 [leaf "Succeeder" "b"]].
Theorem c17_roundtrip_refuted :
  tree_ok two = true /\ NoDup (pids two) /\ forallb (loadable b3_cls) (pnodes two) = true /\
  exists d g, dump b3_has (Some two) = OK d /\ load b3_cls id d = OK (g, Some "s") /\ ~ repr g "s" two.
Proof.
  assert (H1 : tree_ok two = true) by reflexivity.
  assert (H2 : NoDup (pids two)) by (apply (bool_decide_unpack _); vm_compute; exact I).
  assert (H3 : forallb (loadable b3_cls) (pnodes two) = true) by (vm_compute; reflexivity).
  split; [auto|]. split; [auto|]. split; [auto|].
  destruct (roundtrip b3_has b3_cls id two H1 H2 H3) as (d & g & A & B & C). exists d, g. split; [exact A|]. split; [exact B|].
  intros HR. apply C in HR. vm_compute in HR. discriminate HR.
Qed.
Print Assumptions c17_roundtrip_refuted.

(** Reloading a tree containing any decorator but Inverter (e.g. the shipped IK tree, which uses
    RepeatUntilSuccess) raises TypeError. *)
Theorem c17_decorators_do_not_load :
  forall in_b3 cls_of fresh n m ci,
    tree_ok n = true -> NoDup (pids n) -> m ∈ pnodes n -> cls_of (p_cls m) = Some ci -> ci_nullary ci = false ->
    (forall x, x ∈ pnodes n -> cls_of (p_cls x) <> None) ->
    exists d, dump in_b3 (Some n) = OK d /\ load cls_of fresh d = Err IOType.
Proof. exact load_required_args. Qed.
Print Assumptions c17_decorators_do_not_load.
Example c17_example :
  let t := PN "RepeatUntilSuccess" DECORATOR "r" "R" "" 0 [two] in
  tree_ok t = true /\ bool_decide (NoDup (pids t)) = true /\
  match dump b3_has (Some t) with OK d => load b3_cls id d = Err IOType | _ => False end.
Proof. vm_compute. auto. Qed.

(** The list of custom node classes: each non-b3 class of the tree exactly once. *)
Lemma customs in_b3 n d : tree_ok n = true -> NoDup (pids n) -> dump in_b3 (Some n) = OK d ->
  NoDup (map (fun x => fst (fst x)) (d_custom d)) /\
  (forall m, m ∈ pnodes n -> in_b3 (p_cls m) = false -> p_cls m ∈ map (fun x => fst (fst x)) (d_custom d)).
Proof.
  intros H1 H2 Hd. rewrite dump_ok in Hd by auto. inversion Hd; subst. simpl. split.
  - apply add_custom_nodup. constructor.
  - intros m Hm Hb. apply add_custom_all; auto.
Qed.
Theorem c17_custom_nodes :
  forall in_b3 n d, tree_ok n = true -> NoDup (pids n) -> dump in_b3 (Some n) = OK d ->
    NoDup (map (fun x => fst (fst x)) (d_custom d)) /\
    (forall m, m ∈ pnodes n -> in_b3 (p_cls m) = false -> p_cls m ∈ map (fun x => fst (fst x)) (d_custom d)).
Proof. exact customs. Qed.
Print Assumptions c17_custom_nodes.
