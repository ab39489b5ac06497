(** C44: the order of the entries in the generated solution vectors. *)
From Coq Require Import Reals NArith ZArith List String Ascii Bool Arith Lia Permutation Sorted.
From Verif Require Import Expr Kin Solver SolverSpec HistFacts PropHist SolSet SolSetFacts PropSolSet CodeGen.
Import ListNotations.
Local Open Scope string_scope.
Local Open Scope list_scope.
Local Open Scope nat_scope.

Lemma map_nth_seq (l : list string) : map (fun c => nth c l "") (seq 0 (List.length l)) = l.
Proof. induction l; simpl; auto. f_equal. rewrite <- seq_shift, map_map. auto. Qed.
(** * Sorting *)
Fixpoint ins_by (le : nat -> nat -> bool) (x : nat) (l : list nat) : list nat := match l with [] => [x] | y :: l' => if le x y then x :: l else y :: ins_by le x l' end.
Fixpoint sort_by (le : nat -> nat -> bool) (l : list nat) : list nat := match l with [] => [] | x :: l' => ins_by le x (sort_by le l') end.
Lemma ins_by_perm le x l : Permutation (ins_by le x l) (x :: l).
Proof. induction l; simpl; auto. destruct (le x a); auto. rewrite IHl. constructor. Qed.
Lemma sort_by_perm le l : Permutation (sort_by le l) l.
Proof. induction l; simpl; auto. rewrite ins_by_perm, IHl. auto. Qed.
Lemma insert_map f le x l : (forall y, In y l -> (f x <=? f y)%string = le x y) -> insert (f x) (map f l) = map f (ins_by le x l).
Proof. induction l; simpl; intros H; auto. rewrite H by auto. destruct (le x a); auto. simpl. rewrite IHl; auto. Qed.
Lemma sort_map f le l : NoDup l -> (forall x y, In x l -> In y l -> x <> y -> (f x <=? f y)%string = le x y) -> sort (map f l) = map f (sort_by le l).
Proof.
  induction 1 as [|x l Hx N IH]; simpl; intros H; auto. rewrite IH by auto. apply insert_map. intros y Hy. apply (Permutation_in _ (sort_by_perm le l)) in Hy. apply H; auto. congruence.
Qed.
Lemma leb_trans a : forall b c, (a <=? b)%string = true -> (b <=? c)%string = true -> (a <=? c)%string = true.
Proof.
  unfold String.leb. induction a as [|x a IH]; intros [|y b] [|z c]; simpl; try congruence. unfold Ascii.compare.
  destruct (N.compare_spec (N_of_ascii x) (N_of_ascii y)), (N.compare_spec (N_of_ascii y) (N_of_ascii z)), (N.compare_spec (N_of_ascii x) (N_of_ascii z)); try congruence; try (exfalso; lia).
  intros. eapply IH; eauto.
Qed.
Lemma leb_refl a : (a <=? a)%string = true. Proof. destruct (String.leb_total a a); auto. Qed.
Lemma insert_sorted x l : StronglySorted (fun a b => (a <=? b)%string = true) l -> StronglySorted (fun a b => (a <=? b)%string = true) (insert x l).
Proof.
  induction 1 as [|y l S IH F]; simpl. repeat constructor. destruct (x <=? y)%string eqn:E.
  - constructor. constructor; auto. constructor; auto. eapply Forall_impl; [|exact F]. intros z Hz. eapply leb_trans; eauto.
  - constructor; auto. assert (Hx : (y <=? x)%string = true) by (destruct (String.leb_total x y); congruence).
    clear - F Hx. induction l; simpl. constructor; auto. inversion F; subst. destruct (x <=? a)%string; constructor; auto.
Qed.
Lemma sort_sorted l : StronglySorted (fun a b => (a <=? b)%string = true) (sort l).
Proof. induction l; simpl. constructor. apply insert_sorted. auto. Qed.
Lemma insert_perm x l : Permutation (insert x l) (x :: l).
Proof. induction l; simpl; auto. destruct (x <=? a)%string; auto. rewrite IHl. constructor. Qed.
Lemma sort_perm l : Permutation (sort l) l.
Proof. induction l; simpl; auto. rewrite insert_perm, IHl. auto. Qed.
Lemma sorted_unique l : forall l', StronglySorted (fun a b => (a <=? b)%string = true) l -> StronglySorted (fun a b => (a <=? b)%string = true) l' -> Permutation l l' -> l = l'.
Proof.
  induction l as [|x l IH]; intros l' S S' P. apply Permutation_nil in P. auto. destruct l' as [|y l']. apply Permutation_sym, Permutation_nil in P. discriminate.
  inversion S; inversion S'; subst. assert (x = y).
  { assert (A : In x (y :: l')) by (apply (Permutation_in _ P); left; auto). assert (B : In y (x :: l)) by (apply (Permutation_in _ (Permutation_sym P)); left; auto).
    destruct A as [->|A]; auto. destruct B as [->|B]; auto. rewrite Forall_forall in *. apply String.leb_antisym; auto. }
  subst. f_equal. apply IH; auto. eapply Permutation_cons_inv; eauto.
Qed.

(** * Comparing version names *)
(** [b] continues [a], if at all, with a digit *)
Definition digit_ext (a b : string) : Prop := forall x rest, b = append a (String x rest) -> is_digit x = true.
Lemma digit_lt x m : is_digit x = true -> m = "s"%char \/ m = "v"%char -> (N_of_ascii x < N_of_ascii m)%N.
Proof.
  unfold is_digit. intros H M. apply andb_true_iff in H as [_ H]. apply Nat.leb_le in H. assert (E : N_of_ascii x = N.of_nat (nat_of_ascii x)) by (unfold nat_of_ascii; rewrite N2Nat.id; auto).
  rewrite E. destruct M as [->| ->]; [change (N_of_ascii "s") with 115%N|change (N_of_ascii "v") with 118%N]; lia.
Qed.
Lemma compare_marked a : forall b m m' x y, (m = "s"%char \/ m = "v"%char) -> (m' = "s"%char \/ m' = "v"%char) -> a <> b -> digit_ext a b -> digit_ext b a ->
  String.compare (append a (String m x)) (append b (String m' y)) = String.compare (append a "v") (append b "v").
Proof.
  induction a as [|c a IH]; intros [|d b] m m' x y M M' Ne D1 D2; try congruence.
  - assert (Hd := D1 d b eq_refl). cbn [append String.compare]. unfold Ascii.compare.
    rewrite (proj2 (N.compare_gt_iff (N_of_ascii m) (N_of_ascii d))) by (apply digit_lt; auto).
    rewrite (proj2 (N.compare_gt_iff (N_of_ascii "v") (N_of_ascii d))) by (apply digit_lt; auto). auto.
  - assert (Hc := D2 c a eq_refl). cbn [append String.compare]. unfold Ascii.compare.
    rewrite (proj2 (N.compare_lt_iff (N_of_ascii c) (N_of_ascii m'))) by (apply digit_lt; auto).
    rewrite (proj2 (N.compare_lt_iff (N_of_ascii c) (N_of_ascii "v"))) by (apply digit_lt; auto). auto.
  - cbn [append String.compare]. destruct (Ascii.compare c d) eqn:E; auto. apply Ascii.compare_eq_iff in E. subst d. apply IH; auto. congruence.
    intros z r E. apply (D1 z r). cbn [append]. congruence. intros z r E. apply (D2 z r). cbn [append]. congruence.
Qed.

(** * C44 *)
Definition names_sortable (names : list string) : Prop := NoDup names /\ forall a b, In a names -> In b names -> digit_ext a b.
(** the order of the columns: by name, where a name continued by digits comes before the name itself *)
Definition sorts_after (a b : string) : Prop := (append a "v" <=? append b "v")%string = true.
Lemma entry_form n0 ns r c n : handed_over (n0 :: ns) -> In r (create_solution_set (n0 :: ns)) -> nth_error (n0 :: ns) c = Some n ->
  exists m x, (m = "s"%char \/ m = "v"%char) /\ nth c r "" = append (n_name n) (String m x).
Proof.
  intros H Hr Hn. apply In_nth_error in Hr as (k & Hk). destruct (C42_consistent n0 ns H k r Hk) as [(b & _ & B) C]. destruct c as [|c].
  - cbn [nth_error] in Hn. injection Hn as <-. exists "s"%char, (str_of_nat (S b)). split; auto. rewrite (nth_error_nth r 0 "" B). reflexivity.
  - destruct (C c n Hn) as (j & r' & _ & J & _). exists "v"%char, (str_of_nat (S j)). split; auto. rewrite (nth_error_nth r (S c) "" J). unfold vname. rewrite append_assoc. reflexivity.
Qed.
Theorem C44_same_order nodes : handed_over nodes -> names_sortable (names_of nodes) ->
  exists order, Permutation order (seq 0 (List.length nodes))
    /\ StronglySorted sorts_after (map (fun c => nth c (names_of nodes) "") order)
    /\ forall r, In r (create_solution_set nodes) -> sort r = map (fun c => nth c r "") order.
Proof.
  intros H [N D]. set (key := fun c => append (nth c (names_of nodes) "") "v"). set (le := fun a b => (key a <=? key b)%string).
  assert (In' : forall c, In c (seq 0 (List.length nodes)) -> exists n, nth_error nodes c = Some n /\ nth c (names_of nodes) "" = n_name n /\ In (n_name n) (names_of nodes)).
  { intros c Hc. apply in_seq in Hc. destruct (nth_error_ex nodes c) as (n & Hn); [lia|]. exists n. split; auto. split.
    - apply nth_error_nth. unfold names_of. rewrite nth_error_map, Hn. auto.
    - unfold names_of. apply in_map. eapply nth_error_In; eauto. }
  exists (sort_by le (seq 0 (List.length nodes))). split; [apply sort_by_perm|]. split.
  - assert (E : sort (map key (seq 0 (List.length nodes))) = map key (sort_by le (seq 0 (List.length nodes)))) by (apply sort_map; [apply seq_NoDup|auto]).
    assert (S := sort_sorted (map key (seq 0 (List.length nodes)))). rewrite E in S. clear E. revert S. generalize (sort_by le (seq 0 (List.length nodes))) as l.
    induction l; cbn [map]; intros S; constructor; inversion S; subst; auto. rewrite Forall_forall in *. intros x Hx. apply in_map_iff in Hx as (c & <- & Hc). unfold sorts_after. apply H3. apply (in_map key). auto.
  - intros r Hr. assert (L := C42_rectangular nodes r H Hr).
    assert (E : r = map (fun c => nth c r "") (seq 0 (List.length nodes))). { rewrite <- L, map_nth_seq. auto. }
    rewrite E at 1. apply sort_map; [apply seq_NoDup|]. intros x y Hx Hy Ne. destruct (In' x Hx) as (nx & X1 & X2 & X3). destruct (In' y Hy) as (ny & Y1 & Y2 & Y3).
    destruct (proj2 H) as (n0 & ns & En & _). rewrite En in H, Hr, X1, Y1.
    destruct (entry_form n0 ns r x nx H Hr X1) as (m & sx & M & ->). destruct (entry_form n0 ns r y ny H Hr Y1) as (m' & sy & M' & ->).
    unfold le, key. rewrite X2, Y2. unfold String.leb. rewrite compare_marked; auto. intros E2. apply Ne. rewrite En in N. eapply NoDup_names; eauto.
Qed.
(** In particular, the generated vectors all list the unknowns in the same order. *)
Theorem C44_generated show rb out groups : let nodes := r_nodes rb in handed_over nodes -> names_sortable (names_of nodes) -> (forall g, In g groups -> In g (create_solution_set nodes)) ->
  output_python_code show rb groups = Some out ->
  exists order, Permutation order (seq 0 (List.length nodes)) /\ exists before after, out = before
    ++ List.concat (map (fun g => ["    #(note trailing commas allowed in python"; "    solution_list.append( [ "] ++ map (fun c => append (nth c g "") ", ") order ++ ["] )"]) groups) ++ after.
Proof.
  intros nodes H N G O. destruct (C44_same_order nodes H N) as (order & P & _ & S). exists order. split; auto. unfold output_python_code in O. destruct (mapM (py_node show rb) (r_nodes rb)) as [bs|]; [|discriminate].
  injection O as <-. set (rows := fun g => _ ++ map _ order ++ _). assert (E : map rows groups = map py_row groups).
  { apply map_ext_in. intros g Hg. unfold rows, py_row. rewrite (S g) by auto. rewrite map_map. reflexivity. }
  rewrite E. unfold py_tail. set (h := py_head rb). set (t1 := [_; _]). set (t2 := [_; _; _; _]). exists (h ++ List.concat bs ++ t1), t2. rewrite !app_assoc. reflexivity.
Qed.
Theorem C44_generated_cpp nodes groups : handed_over nodes -> names_sortable (names_of nodes) -> (forall g, In g groups -> In g (create_solution_set nodes)) ->
  exists order, Permutation order (seq 0 (List.length nodes))
    /\ forall m, In m (cpp_rows groups) <-> exists i j g c, nth_error groups i = Some g /\ nth_error order j = Some c
       /\ m = Line (append "solution_list[" (append (str_of_nat i) (append "][" (append (str_of_nat j) (append "] = " (append (nth c g "") ";")))))).
Proof.
  intros H N G. destruct (C44_same_order nodes H N) as (order & P & _ & S). exists order. split; auto. intros m. unfold cpp_rows. rewrite in_concat. split.
  - intros (l & Hl & Hm). apply in_map_iff in Hl as ([i g] & <- & Hi). apply enum_in in Hi. cbn [fst snd] in Hm. unfold cpp_row in Hm. rewrite (S g) in Hm by (apply G; eapply nth_error_In; eauto).
    apply in_map_iff in Hm as ([j v] & <- & Hj). apply enum_in in Hj. rewrite nth_error_map in Hj. destruct (nth_error order j) as [c|] eqn:Ec; [|discriminate]. injection Hj as <-. exists i, j, g, c. auto.
  - intros (i & j & g & c & Hi & Hj & ->). exists (cpp_row i g). split. { apply in_map_iff. exists (i, g). split; auto. apply enum_in. auto. }
    unfold cpp_row. rewrite (S g) by (apply G; eapply nth_error_In; eauto). apply in_map_iff. exists (j, nth c g ""). split; auto. apply enum_in. rewrite nth_error_map, Hj. auto.
Qed.
(** If no name continues another one, the order is the alphabetical order of the unknowns, whatever the solve order. *)
Definition prefix_free (names : list string) : Prop := forall a b x rest, In a names -> In b names -> b <> append a (String x rest).
Lemma compare_pf a : forall b, a <> b -> (forall x r, b <> append a (String x r)) -> (forall x r, a <> append b (String x r)) -> String.compare (append a "v") (append b "v") = String.compare a b.
Proof.
  induction a as [|c a IH]; intros [|d b] Ne H1 H2; try congruence. { exfalso. apply (H1 d b). auto. } { exfalso. apply (H2 c a). auto. }
  cbn [append String.compare]. destruct (Ascii.compare c d) eqn:E; auto. apply Ascii.compare_eq_iff in E. subst. apply IH. congruence.
  intros x r E. apply (H1 x r). cbn [append]. congruence. intros x r E. apply (H2 x r). cbn [append]. congruence.
Qed.
Theorem C44_alphabetical nodes names : handed_over nodes -> NoDup (names_of nodes) -> prefix_free (names_of nodes) ->
  Permutation names (names_of nodes) -> StronglySorted (fun a b => (a <=? b)%string = true) names ->
  exists order, Permutation order (seq 0 (List.length nodes)) /\ map (fun c => nth c (names_of nodes) "") order = names
    /\ forall r, In r (create_solution_set nodes) -> sort r = map (fun c => nth c r "") order.
Proof.
  intros H N Pf P S. destruct (C44_same_order nodes H) as (order & Po & So & R). { split; auto. intros a b Ha Hb x r E. destruct (Pf a b x r Ha Hb E). }
  exists order. split; auto. split; auto. apply sorted_unique; auto.
  2:{ rewrite P. transitivity (map (fun c => nth c (names_of nodes) "") (seq 0 (List.length nodes))). apply Permutation_map; auto.
      assert (L : List.length (names_of nodes) = List.length nodes) by (unfold names_of; apply map_length). rewrite <- L. rewrite map_nth_seq. apply Permutation_refl. }
  assert (Hin : Forall (fun c => In (nth c (names_of nodes) "") (names_of nodes)) order).
  { apply Forall_forall. intros c Hc. apply nth_In. apply (Permutation_in _ Po) in Hc. apply in_seq in Hc. unfold names_of. rewrite map_length. lia. }
  clear - So Pf Hin. induction order as [|c l IH]; cbn [map] in *; constructor; inversion So; inversion Hin; subst; auto. rewrite Forall_forall in *. intros x Hx. specialize (H2 x Hx). unfold sorts_after, String.leb in *.
  apply in_map_iff in Hx as (d & <- & Hd). destruct (string_dec (nth c (names_of nodes) "") (nth d (names_of nodes) "")) as [E|E]. { rewrite E. destruct (String.leb_total (nth d (names_of nodes) "") (nth d (names_of nodes) "")) as [X|X]; exact X. }
  rewrite compare_pf in H2; auto.
Qed.
