(** C48: equality and hashing of edges and equations. *)
From Coq Require Import Reals ZArith List String Ascii Bool Arith Lia Lra Permutation.
From Verif Require Import Expr Kin Solver SolverSpec Sympy0 CodeGenEx HashSet.
Import ListNotations.
Local Open Scope list_scope.
Local Open Scope nat_scope.

(** * Sets *)
Section Sets.
Context {A : Type}.
Variable eqb : A -> A -> bool.
Variable h : A -> Z.
Hypothesis refl : forall x, eqb x x = true.
Hypothesis sym : forall x y, eqb x y = true -> eqb y x = true.
Hypothesis trans : forall x y z, eqb x y = true -> eqb y z = true -> eqb x z = true.
Hypothesis compat : forall x y, eqb x y = true -> h x = h y.
(** no two entries are equal *)
Fixpoint distinct (l : list A) : Prop := match l with [] => True | x :: l' => (forall y, In y l' -> eqb x y = false) /\ distinct l' end.
Local Notation index := (index h). Local Notation mem := (mem eqb h). Local Notation put := (put h).

Lemma upd_len {B} (f : B -> B) : forall l i, List.length (upd i f l) = List.length l. Proof. induction l; intros [|i]; cbn; auto. Qed.
Lemma put_len x t : List.length (put x t) = List.length t. Proof. apply upd_len. Qed.
Lemma index_lt m x : m <> 0 -> index m x < m.
Proof. intros H. unfold HashSet.index. assert (X := Z.mod_pos_bound (h x) (Z.of_nat m)). lia. Qed.
Lemma put_perm x t : t <> [] -> Permutation (elements (put x t)) (x :: elements t).
Proof.
  intros H. assert (L : index (List.length t) x < List.length t) by (apply index_lt; destruct t; [congruence|discriminate]). unfold HashSet.put, elements. revert L. generalize (index (List.length t) x). clear H. induction t as [|b t IH]; intros i L; [cbn in L; lia|]. destruct i as [|i]; cbn [upd List.concat].
  - rewrite <- app_assoc. apply Permutation_sym, Permutation_middle.
  - cbn [List.length] in L. rewrite IH by lia. apply Permutation_sym, Permutation_middle.
Qed.
(** every entry is in the bucket of its hash *)
Definition placed (t : list (list A)) : Prop := t <> [] /\ forall i b x, nth_error t i = Some b -> In x b -> i = index (List.length t) x.
Lemma nth_upd {B} (f : B -> B) : forall l i j, nth_error (upd i f l) j = (if Nat.eqb i j then option_map f (nth_error l j) else nth_error l j).
Proof. induction l as [|b l IH]; intros [|i] [|j]; cbn; auto. destruct (i =? j); auto. Qed.
Lemma put_placed x t : placed t -> placed (put x t).
Proof.
  intros [N P]. split. { assert (X := put_len x t). destruct t; [congruence|]. destruct (put x (l :: t)); [discriminate|congruence]. }
  intros i b y Hb Hy. rewrite put_len. unfold HashSet.put in Hb. rewrite nth_upd in Hb. destruct (Nat.eqb_spec (index (List.length t) x) i).
  - destruct (nth_error t i) as [b0|] eqn:E; [|discriminate]. injection Hb as <-. apply in_app_iff in Hy as [Hy|[<-|[]]]; auto. eapply P; eauto.
  - eapply P; eauto.
Qed.
Lemma empty_placed m : m <> 0 -> placed (repeat [] m).
Proof. intros H. split. destruct m; [congruence|discriminate]. intros i b x Hb Hx. apply nth_error_In, repeat_spec in Hb. subst. destruct Hx. Qed.
Lemma empty_elements m : elements (repeat [] m) = @nil A. Proof. induction m; cbn; auto. Qed.
Lemma mem_spec x t : placed t -> (mem x t = true <-> exists y, In y (elements t) /\ eqb y x = true).
Proof.
  intros [N P]. unfold HashSet.mem, found. rewrite existsb_exists. split.
  - intros (y & Hy & E). apply andb_true_iff in E as [_ E]. exists y. split; auto. destruct (nth_error t (index (List.length t) x)) as [b|] eqn:B. rewrite (nth_error_nth _ _ _ B) in Hy. unfold elements. apply in_concat. exists b. split; auto. eapply nth_error_In; eauto.
    rewrite nth_overflow in Hy by (apply nth_error_None; auto). destruct Hy.
  - intros (y & Hy & E). exists y. rewrite (compat _ _ E), Z.eqb_refl, E. split; auto. unfold elements in Hy. apply in_concat in Hy as (b & Hb & Hy). apply In_nth_error in Hb as (i & Hi). assert (Ei := P i b y Hi Hy). assert (Ix : index (List.length t) y = index (List.length t) x) by (unfold HashSet.index; rewrite (compat _ _ E); auto).
    rewrite <- Ix, <- Ei. rewrite (nth_error_nth _ _ _ Hi). auto.
Qed.
Lemma distinct_perm l l' : Permutation l l' -> distinct l -> distinct l'.
Proof.
  assert (S' : forall x y, eqb x y = false -> eqb y x = false). { intros x y H. apply not_true_is_false. intros X. apply sym in X. congruence. }
  induction 1 as [|x l l' P IH|x y l|]; cbn [distinct]; auto.
  - intros [H D]. split; auto. intros y Hy. apply H. apply (Permutation_in _ (Permutation_sym P)). auto.
  - intros (H1 & H2 & D). split. intros z [<-|Hz]. apply S'. apply H1. left; auto. apply H2; auto. split; auto. intros z Hz. apply H1. right; auto.
Qed.
Definition sinv (added : list A) (t : list (list A)) : Prop :=
  placed t /\ distinct (elements t) /\ (forall y, In y (elements t) -> In y added) /\ forall x, In x added -> exists y, In y (elements t) /\ eqb y x = true.
Lemma put_all l : forall t, placed t -> let t' := fold_left (fun t x => put x t) l t in placed t' /\ Permutation (elements t') (l ++ elements t).
Proof.
  induction l as [|x l IH]; intros t P; cbn [fold_left]. split; auto. destruct (IH (put x t) (put_placed x t P)) as [P' Q]. split; auto. rewrite Q. rewrite put_perm by apply P. apply Permutation_sym. cbn [app]. apply Permutation_middle.
Qed.
Lemma step_inv added t o : sinv added t -> sinv (match o with AddOp x => added ++ [x] | Resize _ => added end) (step eqb h t o).
Proof.
  intros (P & D & I1 & I2). destruct o as [x|m]; cbn [step].
  - unfold add. destruct (mem x t) eqn:M.
    + split; auto. split; auto. split. intros y Hy. apply in_or_app. auto. intros z Hz. apply in_app_iff in Hz as [Hz|[<-|[]]]; auto. apply mem_spec; auto.
    + split. apply put_placed; auto. assert (Q := put_perm x t (proj1 P)). split. { apply (distinct_perm _ _ (Permutation_sym Q)). cbn [distinct]. split; auto. intros y Hy. apply not_true_is_false. intros E. assert (X : mem x t = true) by (apply mem_spec; auto; exists y; auto). congruence. }
      split. intros y Hy. apply (Permutation_in _ Q) in Hy as [<-|Hy]; apply in_or_app; auto. right; left; auto. intros z Hz. apply in_app_iff in Hz as [Hz|[<-|[]]]. destruct (I2 z Hz) as (y & Hy & E). exists y. split; auto. apply (Permutation_in _ (Permutation_sym Q)). right; auto.
      exists x. split; auto. apply (Permutation_in _ (Permutation_sym Q)). left; auto.
  - destruct (Nat.eqb_spec m 0). split; auto. assert (R := put_all (List.concat t) (repeat [] m) (empty_placed m n)). cbv zeta in R. destruct R as [R1 R2]. fold (resize h m t) in R1, R2. rewrite empty_elements, app_nil_r in R2.
    split; auto. split. apply (distinct_perm _ _ (Permutation_sym R2)). auto. split. intros y Hy. apply I1. apply (Permutation_in _ R2). auto. intros x Hx. destruct (I2 x Hx) as (y & Hy & E). exists y. split; auto. apply (Permutation_in _ (Permutation_sym R2)). auto.
Qed.
Definition adds (os : list (@op A)) : list A := flat_map (fun o => match o with AddOp x => [x] | Resize _ => [] end) os.
Lemma history_inv os : sinv (adds os) (history eqb h os).
Proof.
  unfold history. assert (G : forall os t a, sinv a t -> sinv (a ++ adds os) (fold_left (step eqb h) os t)).
  { clear os. induction os as [|o os IH]; intros t a H; cbn [fold_left adds flat_map]. rewrite app_nil_r. auto. apply (step_inv _ _ o) in H. apply IH in H. destruct o; cbn [app] in *. rewrite <- app_assoc in H. exact H. exact H. }
  apply (G os _ []). split. apply empty_placed. discriminate. rewrite empty_elements. split. exact I. split. intros y []. intros x [].
Qed.
(** After any history of additions and growth the set has no two equal entries, and has an entry equal to x iff one was added. *)
Theorem C48_set os : distinct (elements (history eqb h os)) /\ (forall x, mem x (history eqb h os) = true <-> exists y, In y (adds os) /\ eqb y x = true).
Proof.
  destruct (history_inv os) as (P & D & I1 & I2). split; auto. intros x. rewrite mem_spec by auto. split. intros (y & Hy & E). eauto. intros (y & Hy & E). destruct (I2 y Hy) as (z & Hz & E2). exists z. split; auto. eapply trans; eauto.
Qed.
End Sets.

(** * Edges *)
(** Two edges are equal iff they have the same start, the same dependency and the same multiplicity. *)
Theorem C48_edge_equal a b : edge_eqb a b = true <-> e_start a = e_start b /\ e_dep a = e_dep b /\ e_mult a = e_mult b.
Proof. unfold edge_eqb. rewrite !andb_true_iff, !String.eqb_eq, Z.eqb_eq. tauto. Qed.
Lemma edge_eqb_eq a b : edge_eqb a b = true <-> a = b. Proof. rewrite C48_edge_equal. destruct a, b; cbn. split. intros (-> & -> & ->); auto. intros E; injection E; auto. Qed.
(** Equal edges have equal hashes, whatever the hashes of symbols and numbers are. *)
Theorem C48_edge_hash hs hi w a b : edge_eqb a b = true -> edge_hash hs hi w a = edge_hash hs hi w b.
Proof. rewrite edge_eqb_eq. intros ->. auto. Qed.
(** An edge and its reverse always collide, and are equal only for a self loop. *)
Theorem C48_edge_reversed hs hi w a b m : edge_hash hs hi w (Edge a b m) = edge_hash hs hi w (Edge b a m) /\ (edge_eqb (Edge a b m) (Edge b a m) = true <-> a = b).
Proof. split. unfold edge_hash. cbn. rewrite Z.mul_comm. auto. rewrite edge_eqb_eq. split. intros E; injection E; auto. intros ->; auto. Qed.
(** Whatever the hash functions, after any history of additions and growth the edge set has no duplicates and contains exactly the added edges - in particular a pair of opposite edges is kept, in spite of the collision. *)
Theorem C48_edge_set hs hi w os : let s := history edge_eqb (edge_hash hs hi w) os in
  NoDup (elements s) /\ (forall e, In e (elements s) <-> In e (adds os)) /\ forall e, mem edge_eqb (edge_hash hs hi w) e s = true <-> In e (adds os).
Proof.
  cbv zeta. assert (R : forall x, edge_eqb x x = true) by (intros; apply edge_eqb_eq; auto). assert (S' : forall x y, edge_eqb x y = true -> edge_eqb y x = true) by (intros x y; rewrite !edge_eqb_eq; auto). assert (T : forall x y z, edge_eqb x y = true -> edge_eqb y z = true -> edge_eqb x z = true) by (intros x y z; rewrite !edge_eqb_eq; congruence).
  destruct (C48_set edge_eqb (edge_hash hs hi w) R S' T (C48_edge_hash hs hi w) os) as [D M]. destruct (history_inv edge_eqb (edge_hash hs hi w) R S' (C48_edge_hash hs hi w) os) as (_ & _ & I1 & I2). split; [|split].
  - revert D. generalize (elements (history edge_eqb (edge_hash hs hi w) os)). induction l as [|x l IH]; intros D; constructor; destruct D as [D1 D2]; auto. intros X. specialize (D1 x X). rewrite R in D1. discriminate.
  - intros e. split; auto. intros H. destruct (I2 e H) as (y & Hy & E). apply edge_eqb_eq in E. subst. auto.
  - intros e. rewrite M. split. intros (y & Hy & E). apply edge_eqb_eq in E. subst. auto. intros H. exists e. auto.
Qed.
(** The edge list of the solver model (Solver.v) is this set: the same edges, once each, for any order of additions, growth and hash functions. *)
Theorem C48_solver_edges hs hi w es os : adds os = map (fun p => Edge (fst p) (snd p) 1) es ->
  forall a b, In (a, b) (fold_left add_edge es []) <-> In (Edge a b 1) (elements (history edge_eqb (edge_hash hs hi w) os)).
Proof.
  intros E a b. destruct (C48_edge_set hs hi w os) as (_ & X & _). rewrite X, E, in_map_iff.
  assert (G : forall es l, In (a, b) (fold_left add_edge es l) <-> In (a, b) l \/ In (a, b) es).
  { clear. induction es as [|e es IH]; intros l; cbn [fold_left]. cbn. tauto. rewrite IH. unfold add_edge. destruct (existsb _ l) eqn:X.
    - apply existsb_exists in X as (e' & H1 & H2). apply andb_true_iff in H2 as [H2 H3]. apply String.eqb_eq in H2, H3. assert (e' = e) by (destruct e, e'; cbn in *; congruence). subst. cbn [In]. split. tauto. intros [?|[->|?]]; auto.
    - rewrite in_app_iff. cbn [In]. tauto. }
  rewrite G. cbn [In]. split. intros [[]|H]. exists (a, b). auto. intros ([a' b'] & H1 & H2). cbn in H1. injection H1 as -> ->. auto.
Qed.
Local Open Scope string_scope.
Example C48_edge_example : let s := history edge_eqb (edge_hash (fun s => Z.of_nat (String.length s)) (fun z => z) (fun z => (z mod 2^61)%Z))
    [AddOp (Edge "th_2" "th_1" 1); AddOp (Edge "th_1" "th_2" 1); Resize 32; AddOp (Edge "th_2" "th_1" 1); AddOp (Edge "th_23" "th_1" 1)] in
  elements s = [Edge "th_2" "th_1" 1; Edge "th_1" "th_2" 1; Edge "th_23" "th_1" 1].
Proof. vm_compute. reflexivity. Qed.

(** * Equations *)
(** Equations that compare equal have, wherever they are defined, the same values on both sides (any sympy meeting its contract). *)
Theorem C48_keq_sound sy a b rho : sympy_ok sy -> keq_eqb sy a b = true -> defd rho (k_lhs a) -> defd rho (k_rhs a) -> defd rho (k_lhs b) -> defd rho (k_rhs b) ->
  eval rho (k_lhs a) = eval rho (k_lhs b) /\ eval rho (k_rhs a) = eval rho (k_rhs b).
Proof.
  intros K E A1 A2 B1 B2. unfold keq_eqb in E. apply andb_true_iff in E as [E1 E2]. unfold is0 in *. apply expr_eqb_eq in E1, E2.
  assert (N1 := proj2 (ok_norm _ K rho (Sub (k_lhs a) (k_lhs b)) (conj A1 B1))). assert (N2 := proj2 (ok_norm _ K rho (Sub (k_rhs a) (k_rhs b)) (conj A2 B2))). rewrite E1 in N1. rewrite E2 in N2. cbn in N1, N2. lra.
Qed.
(** If evaluation of a difference gives 0 exactly for expressions with the same canonical form, equality of equations is an equivalence relation and means equality of the canonical forms of both sides. *)
Theorem C48_keq_equivalence sy (canon : expr -> expr) : (forall a b, is0 sy (Sub a b) = true <-> canon a = canon b) ->
  (forall a b, keq_eqb sy a b = true <-> canon (k_lhs a) = canon (k_lhs b) /\ canon (k_rhs a) = canon (k_rhs b))
  /\ (forall a, keq_eqb sy a a = true) /\ (forall a b, keq_eqb sy a b = keq_eqb sy b a) /\ forall a b c, keq_eqb sy a b = true -> keq_eqb sy b c = true -> keq_eqb sy a c = true.
Proof.
  intros C. assert (X : forall a b, keq_eqb sy a b = true <-> canon (k_lhs a) = canon (k_lhs b) /\ canon (k_rhs a) = canon (k_rhs b)). { intros a b. unfold keq_eqb. rewrite andb_true_iff, !C. tauto. }
  split; auto. split. { intros a. apply X. auto. } split. { intros a b. apply eq_true_iff_eq. rewrite !X. intuition. } intros a b c. rewrite !X. intuition congruence.
Qed.
(** The hash of an equation is that of its text: two equal equations that print differently can have different hashes, and a set then holds both. *)
Theorem C48_keq_hash_refuted sy show a b : keq_eqb sy a b = true -> append (show (k_lhs a)) (show (k_rhs a)) <> append (show (k_lhs b)) (show (k_rhs b)) ->
  exists hstr, keq_hash show hstr a <> keq_hash show hstr b /\ elements (history (keq_eqb sy) (keq_hash show hstr) [AddOp a; AddOp b]) = [b; a].
Proof.
  intros E N. set (ta := append (show (k_lhs a)) (show (k_rhs a))) in *. set (tb := append (show (k_lhs b)) (show (k_rhs b))) in *. exists (fun s => if String.eqb s ta then 1%Z else 0%Z).
  assert (Ha : keq_hash show (fun s => if String.eqb s ta then 1%Z else 0%Z) a = 1%Z) by (unfold keq_hash; fold ta; rewrite String.eqb_refl; auto).
  assert (Hb : keq_hash show (fun s => if String.eqb s ta then 1%Z else 0%Z) b = 0%Z) by (unfold keq_hash; fold tb; destruct (String.eqb_spec tb ta); auto; congruence).
  split. rewrite Ha, Hb. discriminate. unfold history. cbn [fold_left step]. unfold add, mem, put, index. cbn [List.length repeat nth]. rewrite !Ha, !Hb. cbn. rewrite !Hb. reflexivity.
Qed.
(** The hypotheses are met: a back end whose evaluated differences are 0 exactly for identical expressions, and the equations x = y + 0, x = y of the model back end. *)
Definition syntactic : sympy := {| sy_norm := fun e => match e with Add a (Neg b) => if expr_eqb a b then Num 0 else e | _ => e end; sy_expand := fun e => e; sy_collect := fun _ e => e; sy_simplify := fun e => e;
  sy_subs := subs; sy_match := fun _ _ _ => None; sy_coeff := fun _ _ => Num 0; sy_has_sum := fun _ => false; sy_sums := fun _ => [] |}.
Example C48_canon_example : forall a b, is0 syntactic (Sub a b) = true <-> a = b.
Proof. intros a b. unfold is0, syntactic, Sub. cbn [sy_norm]. destruct (expr_eqb a b) eqn:E. apply expr_eqb_eq in E. rewrite expr_eqb_refl. tauto. rewrite expr_eqb_eq. split. discriminate. intros X. apply expr_eqb_eq in X. congruence. Qed.
Example C48_keq_example : let a := Keq (Sym "x") (Add (Sym "y") (Num 0)) in let b := Keq (Sym "x") (Sym "y") in
  keq_eqb sympy0 a b = true /\ append (show0 (k_lhs a)) (show0 (k_rhs a)) <> append (show0 (k_lhs b)) (show0 (k_rhs b)).
Proof. split. vm_compute. reflexivity. vm_compute. discriminate. Qed.
