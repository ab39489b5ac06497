(** Proofs about the blackboard model (BB.v). *)
From stdpp Require Import base strings gmap list.
From Coq Require Import ZArith.
From Verif Require Import BB.

Global Arguments bb_read : simpl never.
Global Arguments bb_set : simpl never.
Global Arguments bb_get : simpl never.
Global Instance scope_eq_dec : EqDecision scope.
Proof. solve_decision. Defined.

Lemma get_put_same b sc m : get_memory (put_memory b sc m) sc = m.
Proof.
  destruct sc as [|t|t n]; unfold get_memory, put_memory, tree_memory, node_memory; simpl; auto.
  - rewrite lookup_insert. reflexivity.
  - rewrite lookup_insert. simpl. rewrite lookup_insert. reflexivity.
Qed.

Lemma get_put_other b sc sc' m : sc <> sc' -> get_memory (put_memory b sc m) sc' = get_memory b sc'.
Proof.
  destruct sc as [|t|t n], sc' as [|t'|t' n']; unfold get_memory, put_memory, tree_memory, node_memory; simpl;
    try congruence; intros H; auto.
  - destruct (decide (t = t')) as [->|Hn]; [congruence|]. rewrite lookup_insert_ne by auto. reflexivity.
  - destruct (decide (t = t')) as [->|Hn].
    + rewrite lookup_insert. reflexivity.
    + rewrite lookup_insert_ne by auto. reflexivity.
  - destruct (decide (t = t')) as [->|Hn].
    + rewrite lookup_insert. reflexivity.
    + rewrite lookup_insert_ne by auto. reflexivity.
  - destruct (decide (t = t')) as [->|Hn].
    + rewrite lookup_insert. simpl. rewrite lookup_insert_ne by congruence. reflexivity.
    + rewrite lookup_insert_ne by auto. reflexivity.
Qed.

Lemma read_unfold b k sc : bb_read b k sc = default VNone (get_memory b sc !! k).
Proof. reflexivity. Qed.

Lemma read_set b k v sc k' sc' :
  bb_read (bb_set b k v sc) k' sc' =
  if decide (sc = sc' /\ k = k') then v else bb_read b k' sc'.
Proof.
  rewrite !read_unfold. unfold bb_set.
  destruct (decide (sc = sc')) as [->|Hsc].
  - rewrite get_put_same. destruct (decide (k = k')) as [->|Hk].
    + rewrite lookup_insert, decide_True by auto. reflexivity.
    + rewrite lookup_insert_ne, decide_False by naive_solver. reflexivity.
  - rewrite get_put_other by auto. rewrite decide_False by naive_solver. reflexivity.
Qed.

Lemma read_set_same b k v sc : bb_read (bb_set b k v sc) k sc = v.
Proof. rewrite read_set, decide_True; auto. Qed.
Lemma read_set_ne b k v sc k' sc' : (sc <> sc' \/ k <> k') ->
  bb_read (bb_set b k v sc) k' sc' = bb_read b k' sc'.
Proof. intros H. rewrite read_set, decide_False; naive_solver. Qed.

Lemma touch_memory b sc sc' : get_memory (bb_touch b sc) sc' = get_memory b sc'.
Proof.
  unfold bb_touch. destruct (decide (sc = sc')) as [->|H].
  - apply get_put_same.
  - apply get_put_other; auto.
Qed.
Lemma bb_touch_read b sc k sc' : bb_read (bb_touch b sc) k sc' = bb_read b k sc'.
Proof. rewrite !read_unfold, touch_memory. reflexivity. Qed.

Lemma set_memory_other b k v sc sc' : sc <> sc' -> get_memory (bb_set b k v sc) sc' = get_memory b sc'.
Proof. intros H. unfold bb_set. apply get_put_other; auto. Qed.
Lemma set_memory_same b k v sc : get_memory (bb_set b k v sc) sc = <[k:=v]> (get_memory b sc).
Proof. unfold bb_set. apply get_put_same. Qed.
