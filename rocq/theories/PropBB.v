(** Property C16: the blackboard is a scoped last-write-wins map. *)
From stdpp Require Import base strings gmap list.
From Coq Require Import ZArith Lia.
From Verif Require Import BB BBFacts.

(** ** Specification: API calls, and a flat store addressed by (scope, key). *)
(** blackboard.py:37,41,46: set/get/inc with optional tree and node scope. *)
Inductive bbop :=
| OSet (k : string) (v : val) (t n : option nat)
| OGet (k : string) (t n : option nat)
| OInc (k : string) (d : Z) (t n : option nat).
Inductive answer := ADone | AVal (v : val) | AKeyError | AQuit.

(** Which store a call addresses: no tree means the base store whatever the node. *)
Definition addr (t n : option nat) : option (nat * option nat) :=
  match t with None => None | Some t => Some (t, n) end.
Definition flat := option (nat * option nat) -> string -> option val.
(** A new blackboard: TotalCost = 0 in the base store; a tree store has open_nodes = []. *)
Definition flat_new : flat := fun a k =>
  match a with
  | None => if decide (k = "TotalCost") then Some (VInt 0) else None
  | Some (_, None) => if decide (k = "open_nodes") then Some (VNodes []) else None
  | Some (_, Some _) => None
  end.
Definition upd (f : flat) a k v : flat :=
  fun a' k' => if decide (a' = a /\ k' = k) then Some v else f a' k'.
Definition flat_step (f : flat) (o : bbop) : flat * answer :=
  match o with
  | OSet k v t n => (upd f (addr t n) k v, ADone)
  | OGet k t n => (f, AVal (default VNone (f (addr t n) k)))
  | OInc k d t n =>
      match f (addr t n) k with
      | Some (VInt z) => (upd f (addr t n) k (VInt (z + d)), ADone)
      | Some _ => (f, AQuit)
      | None => (f, AKeyError)
      end
  end.
Fixpoint flat_run (f : flat) (os : list bbop) : list answer :=
  match os with [] => [] | o :: os' => snd (flat_step f o) :: flat_run (fst (flat_step f o)) os' end.

(** The model's run of the same calls. *)
Definition bb_step (b : bb) (o : bbop) : bb * answer :=
  match o with
  | OSet k v t n => (bb_set b k v (mk_scope t n), ADone)
  | OGet k t n => let '(v, b') := bb_get b k (mk_scope t n) in (b', AVal v)
  | OInc k d t n =>
      match bb_inc b k d (mk_scope t n) with
      | IncOk b' => (b', ADone) | IncKeyError b' => (b', AKeyError) | IncQuit b' => (b', AQuit)
      end
  end.
Fixpoint bb_run (b : bb) (os : list bbop) : list answer :=
  match os with [] => [] | o :: os' => snd (bb_step b o) :: bb_run (fst (bb_step b o)) os' end.

(** ** Refinement *)
Definition sc_addr (sc : scope) : option (nat * option nat) :=
  match sc with SBase => None | STree t => Some (t, None) | SNode t n => Some (t, Some n) end.
Definition R (b : bb) (f : flat) : Prop := forall sc k, get_memory b sc !! k = f (sc_addr sc) k.

Lemma R_new : R bb_new flat_new.
Proof.
  intros [|t|t n] k; unfold bb_new, flat_new; simpl; unfold tree_memory, node_memory; simpl;
    rewrite ?lookup_empty; simpl.
  - destruct (decide (k = "TotalCost")) as [->|H]; [apply lookup_singleton|apply lookup_singleton_ne; auto].
  - destruct (decide (k = "open_nodes")) as [->|H]; [apply lookup_singleton|apply lookup_singleton_ne; auto].
  - apply lookup_empty.
Qed.
Lemma sc_addr_inj sc sc' : sc_addr sc = sc_addr sc' -> sc = sc'.
Proof. destruct sc, sc'; simpl; congruence. Qed.
Lemma addr_mk t n : sc_addr (mk_scope t n) = addr t n.
Proof. destruct t, n; reflexivity. Qed.
Lemma R_set b f k v sc : R b f -> R (bb_set b k v sc) (upd f (sc_addr sc) k v).
Proof.
  intros HR sc' k'. unfold upd. destruct (decide (sc' = sc)) as [->|Hsc].
  - rewrite set_memory_same. destruct (decide (k' = k)) as [->|Hk].
    + rewrite lookup_insert, decide_True by auto. reflexivity.
    + rewrite lookup_insert_ne, decide_False by naive_solver. apply HR.
  - rewrite set_memory_other by auto. rewrite decide_False; [apply HR|].
    intros [E _]. apply sc_addr_inj in E. auto.
Qed.
Lemma R_touch b f sc : R b f -> R (bb_touch b sc) f.
Proof. intros HR sc' k. rewrite touch_memory. apply HR. Qed.
Lemma R_step b f o : R b f ->
  R (fst (bb_step b o)) (fst (flat_step f o)) /\ snd (bb_step b o) = snd (flat_step f o).
Proof.
  intros HR. destruct o as [k v t n|k t n|k d t n]; cbn [bb_step flat_step].
  - split; [|reflexivity]. rewrite <- addr_mk. apply R_set; auto.
  - unfold bb_get. cbn [fst snd]. split; [apply R_touch; auto|]. rewrite HR, addr_mk. reflexivity.
  - unfold bb_inc. rewrite HR, addr_mk. destruct (f (addr t n) k) as [[]|]; cbn [fst snd];
      (split; [|reflexivity]); try (apply R_touch; auto). rewrite <- addr_mk. apply R_set; auto.
Qed.
Lemma run_refines os b f : R b f -> bb_run b os = flat_run f os.
Proof.
  revert b f. induction os as [|o os IH]; intros b f HR; [reflexivity|]. cbn [bb_run flat_run].
  destruct (R_step b f o HR) as [H1 H2]. rewrite H2. f_equal. apply IH. auto.
Qed.

(** C16: any sequence of blackboard calls on a new blackboard gives exactly the answers
    of the flat store. *)
Theorem c16_blackboard_refines_flat_store :
  forall os, bb_run bb_new os = flat_run flat_new os.
Proof. exact (fun os => run_refines os _ _ R_new). Qed.
Print Assumptions c16_blackboard_refines_flat_store.

(** The same from any blackboard whatever its content. *)
Theorem c16_any_blackboard :
  forall b os, bb_run b os = flat_run (fun a k => match a with
     | None => get_memory b SBase !! k
     | Some (t, None) => get_memory b (STree t) !! k
     | Some (t, Some n) => get_memory b (SNode t n) !! k end) os.
Proof. intros b os. apply run_refines. intros [|t|t n] k; reflexivity. Qed.
Print Assumptions c16_any_blackboard.

(** Last write wins, literally: after any calls that do not write (key, scope), get
    returns the value last set there; a node without a tree addresses the base store. *)
Definition writes_to (o : bbop) (a : option (nat * option nat)) (k : string) : bool :=
  match o with
  | OGet _ _ _ => false
  | OSet k' _ t n | OInc k' _ t n => bool_decide (addr t n = a /\ k' = k)
  end.
Lemma flat_untouched os f a k : forallb (fun o => negb (writes_to o a k)) os = true ->
  fold_left (fun f o => fst (flat_step f o)) os f a k = f a k.
Proof.
  revert f. induction os as [|o os IH]; intros f; [reflexivity|]. cbn [forallb fold_left].
  rewrite andb_true_iff. intros [H1 H2]. rewrite IH by auto.
  destruct o as [k' v t n|k' t n|k' d t n]; simpl in *; auto.
  - unfold upd. rewrite decide_False; auto. apply negb_true_iff, bool_decide_eq_false in H1. naive_solver.
  - apply negb_true_iff, bool_decide_eq_false in H1.
    destruct (f (addr t n) k') as [[]|]; auto. simpl. unfold upd. rewrite decide_False; auto. naive_solver.
Qed.
Lemma R_fold os b f : R b f ->
  R (fold_left (fun b o => fst (bb_step b o)) os b) (fold_left (fun f o => fst (flat_step f o)) os f).
Proof.
  revert b f. induction os as [|o os IH]; intros b f H; [exact H|]. simpl. apply IH. apply R_step. auto.
Qed.
Lemma last_write os b k v t n :
  forallb (fun o => negb (writes_to o (addr t n) k)) os = true ->
  fst (bb_get (fold_left (fun b o => fst (bb_step b o)) os (bb_set b k v (mk_scope t n))) k (mk_scope t n)) = v.
Proof.
  intros H. set (f0 := fun a k => match a with
     | None => get_memory b SBase !! k
     | Some (t, None) => get_memory b (STree t) !! k
     | Some (t, Some n) => get_memory b (SNode t n) !! k end).
  assert (HR : R b f0) by (intros [|t'|t' n'] k'; reflexivity).
  pose proof (R_fold os _ _ (R_set _ _ k v (mk_scope t n) HR)) as HF.
  unfold bb_get. cbn [fst]. rewrite HF, !addr_mk, flat_untouched by auto. unfold upd. rewrite decide_True; auto.
Qed.
Theorem c16_last_write_wins :
  forall os b k v t n,
    forallb (fun o => negb (writes_to o (addr t n) k)) os = true ->
    fst (bb_get (fold_left (fun b o => fst (bb_step b o)) os (bb_set b k v (mk_scope t n))) k (mk_scope t n)) = v.
Proof. exact last_write. Qed.
Print Assumptions c16_last_write_wins.

(** Hypotheses are met: interleaved writes to other keys and scopes. *)
Example c16_example :
  let os := [OSet "x" (VInt 5) (Some 1) None; OInc "x" 2 (Some 1) None; OSet "y" (VInt 9) (Some 1) (Some 2);
             OGet "x" None (Some 2); OInc "z" 1 None None] in
  forallb (fun o => negb (writes_to o (addr (Some 1) (Some 2)) "x")) os = true /\
  bb_run bb_new (OSet "x" (VBool true) (Some 1) (Some 2) :: os ++
                 [OGet "x" (Some 1) (Some 2); OGet "x" (Some 1) None; OInc "x" 1 (Some 1) (Some 2); OGet "TotalCost" None (Some 7)])
  = [ADone; ADone; ADone; ADone; AVal VNone; AKeyError; AVal (VBool true); AVal (VInt 7); AQuit; AVal (VInt 0)].
Proof. vm_compute. auto. Qed.
