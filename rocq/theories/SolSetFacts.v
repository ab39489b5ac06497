(** Facts about the solution table and the version equations (helpers for PropSolSet.v). *)
From Coq Require Import Reals ZArith List String Ascii Bool Arith Lia Permutation DecimalString.
From Verif Require Import Expr Kin Solver SolverSpec PropHist SolSet.
Import ListNotations.
Local Open Scope string_scope.
Local Open Scope list_scope.
Local Open Scope nat_scope.

(** * Lists *)
Lemma mapM_some {A B} (f : A -> option B) : forall l bs, mapM f l = Some bs -> List.length bs = List.length l /\ forall k a, nth_error l k = Some a -> exists b, nth_error bs k = Some b /\ f a = Some b.
Proof.
  induction l as [|a l IH]; simpl; intros bs H. { injection H as <-. split; auto. intros [|k] a' E; discriminate. }
  destruct (f a) as [b|] eqn:F; [|discriminate]. destruct (mapM f l) as [bs'|] eqn:M; [|discriminate]. injection H as <-.
  destruct (IH bs' eq_refl) as [L N]. split; [simpl; congruence|]. intros [|k] a' E; simpl in *; [injection E as <-; eauto|eauto].
Qed.
Lemma mapM_none {A B} (f : A -> option B) : forall l, mapM f l = None <-> exists a, In a l /\ f a = None.
Proof.
  induction l as [|a l IH]; simpl. { split; [discriminate|]. intros (a & [] & _). }
  destruct (f a) as [b|] eqn:F.
  - destruct (mapM f l) as [bs|] eqn:M.
    + split; [discriminate|]. intros (a' & [<-|Ha] & Fa); [congruence|]. assert (X : Some bs = None) by (apply IH; eauto). discriminate.
    + split; auto. intros _. destruct IH as [IH _]. destruct (IH eq_refl) as (a' & ? & ?). eauto.
  - split; eauto.
Qed.
Lemma enum_from {A} (l : list A) : forall s k a, nth_error (combine (seq s (List.length l)) l) k = Some a <-> exists x, nth_error l k = Some x /\ a = (s + k, x).
Proof.
  induction l as [|x l IH]; simpl; intros s k a. { split; [destruct k; discriminate|]. intros (x & E & _). destruct k; discriminate. }
  destruct k as [|k]; simpl. { rewrite Nat.add_0_r. split. intros E. injection E as <-. eauto. intros (y & E & ->). congruence. }
  rewrite IH. replace (S s + k) with (s + S k) by lia. tauto.
Qed.
Lemma enum_nth {A} (l : list A) k a : nth_error (enum l) k = Some a <-> exists x, nth_error l k = Some x /\ a = (k, x).
Proof. unfold enum. rewrite enum_from. simpl. tauto. Qed.
Lemma enum_in {A} (l : list A) k x : In (k, x) (enum l) <-> nth_error l k = Some x.
Proof.
  split.
  - intros H. apply In_nth_error in H as (j & H). apply enum_nth in H as (y & H & E). injection E as -> ->. auto.
  - intros H. apply (nth_error_In _ k). apply enum_nth. eauto.
Qed.
Lemma enum_len {A} (l : list A) : List.length (enum l) = List.length l.
Proof. unfold enum. rewrite combine_length, seq_length. apply Nat.min_id. Qed.
Lemma nth_error_some_lt {A} (l : list A) k x : nth_error l k = Some x -> k < List.length l.
Proof. intros H. apply nth_error_Some. congruence. Qed.
Lemma nth_error_ex {A} (l : list A) k : k < List.length l -> exists x, nth_error l k = Some x.
Proof. intros H. destruct (nth_error l k) eqn:E; eauto. apply nth_error_None in E. lia. Qed.
Lemma firstn_app_le {A} n (a b : list A) : n <= List.length a -> firstn n (a ++ b) = firstn n a.
Proof. intros H. rewrite firstn_app. replace (n - List.length a) with 0 by lia. simpl. apply app_nil_r. Qed.
Lemma nth_error_firstn' {A} (l : list A) c m : c < m -> nth_error (firstn m l) c = nth_error l c.
Proof. revert c m. induction l; intros [|c] [|m] H; simpl; auto; try lia. apply IHl. lia. Qed.
Lemma nth_error_rev {A} (l : list A) k : k < List.length l -> nth_error (rev l) k = nth_error l (List.length l - S k).
Proof.
  intros H. destruct (nth_error_ex l (List.length l - S k)) as (x & E). { lia. } rewrite E.
  rewrite (nth_error_nth' (rev l) x) by (rewrite rev_length; auto). rewrite rev_nth by auto. f_equal. apply nth_error_nth. auto.
Qed.

(** * Doubling *)
Lemma twice_len k : forall t, List.length (twice k t) = 2 ^ k * List.length t.
Proof. induction k; simpl; intros t. lia. rewrite IHk, app_length, rev_length. lia. Qed.
Lemma twice_in k : forall t r, In r (twice k t) <-> In r t.
Proof. induction k; simpl; intros t r. tauto. rewrite IHk, in_app_iff, <- in_rev. tauto. Qed.
Lemma twice_prefix k : forall t i, i < List.length t -> nth_error (twice k t) i = nth_error t i.
Proof. induction k; simpl; intros t i H; auto. rewrite IHk. apply nth_error_app1. auto. rewrite app_length. lia. Qed.

(** * A new column *)
Lemma add_col_len name : forall t i lhs, List.length (add_col name i lhs t) = List.length t.
Proof. induction t; simpl; intros; auto. Qed.
Lemma add_col_nth name : forall t i lhs k, List.length lhs = i -> nth_error (add_col name i lhs t) k = match nth_error t k with None => None | Some r => Some (r ++ [vname name (S (i + k))]) end.
Proof.
  induction t as [|r t IH]; intros i lhs k H. { simpl. destruct k; auto. }
  cbn [add_col]. destruct k as [|k]; cbn [nth_error].
  - rewrite app_nth2 by lia. rewrite H, Nat.sub_diag, Nat.add_0_r. reflexivity.
  - rewrite IH by (rewrite app_length; simpl; lia). replace (S i + k) with (i + S k) by lia. auto.
Qed.

(** * The table *)
Definition fresh_node (n : node) : Prop := n_lhs n = [].
Lemma node_step_first n : node_step [] n = map (fun v => [v]) (n_vers n).
Proof.
  assert (X : forall k, twice k ([] : list row) = []) by (induction k; simpl; auto).
  unfold node_step. change (0 <? @List.length row []) with false. cbv iota zeta. destruct (1 <? n_nsol n); rewrite ?X; reflexivity.
Qed.
Lemma node_step_next t n : t <> [] -> node_step t n = add_col (n_name n) 0 (n_lhs n) (twice (n_nsol n - 1) t).
Proof.
  intros H. unfold node_step. destruct t as [|r t]; [tauto|]. change (0 <? List.length (r :: t)) with true. cbv iota zeta.
  destruct (1 <? n_nsol n) eqn:E; auto. apply Nat.ltb_ge in E. replace (n_nsol n - 1) with 0 by lia. reflexivity.
Qed.
Lemma step_nth t n k : fresh_node n -> t <> [] -> nth_error (node_step t n) k = match nth_error (twice (n_nsol n - 1) t) k with None => None | Some r => Some (r ++ [vname (n_name n) (S k)]) end.
Proof. intros F H. rewrite node_step_next by auto. rewrite F. apply (add_col_nth (n_name n) _ 0 [] k). auto. Qed.
Lemma step_len t n : t <> [] -> List.length (node_step t n) = 2 ^ (n_nsol n - 1) * List.length t.
Proof. intros H. rewrite node_step_next by auto. rewrite add_col_len. apply twice_len. Qed.
Lemma len_ne {A} (t : list A) : t <> [] <-> 0 < List.length t.
Proof. destruct t; simpl; split; try congruence; try lia. Qed.
Lemma pow2_pos k : 1 <= 2 ^ k. Proof. induction k; simpl; lia. Qed.
Lemma step_ne t n : t <> [] -> node_step t n <> [].
Proof. intros H. apply len_ne. rewrite step_len by auto. apply len_ne in H. assert (X := pow2_pos (n_nsol n - 1)). nia. Qed.
Lemma create_snoc ns n : create_solution_set (ns ++ [n]) = node_step (create_solution_set ns) n.
Proof. unfold create_solution_set. rewrite fold_left_app. reflexivity. Qed.
Lemma create_one n : create_solution_set [n] = map (fun v => [v]) (n_vers n).
Proof. apply node_step_first. Qed.

Section Table.
Context (n0 : node).
Hypothesis V0 : n_vers n0 <> [].
Lemma create_ne ns : create_solution_set (n0 :: ns) <> [].
Proof.
  induction ns as [|n ns IH] using rev_ind. { rewrite create_one. destruct (n_vers n0); [tauto|discriminate]. }
  change (n0 :: ns ++ [n]) with ((n0 :: ns) ++ [n]). rewrite create_snoc. apply step_ne. auto.
Qed.
Lemma create_len ns : List.length (create_solution_set (n0 :: ns)) = List.length (n_vers n0) * fold_right Nat.mul 1 (map (fun n => 2 ^ (n_nsol n - 1)) ns).
Proof.
  induction ns as [|n ns IH] using rev_ind. { rewrite create_one, map_length. simpl. lia. }
  change (n0 :: ns ++ [n]) with ((n0 :: ns) ++ [n]). rewrite create_snoc. rewrite step_len by apply create_ne. rewrite IH, map_app.
  rewrite fold_right_app. cbn [map fold_right]. rewrite Nat.mul_1_r.
  assert (X : forall l a, fold_right Nat.mul a l = fold_right Nat.mul 1 l * a) by (induction l; simpl; intros; [lia|]; rewrite IHl; lia).
  rewrite (X _ (2 ^ _)). lia.
Qed.
(** what a row looks like, and where it comes from *)
Lemma create_inv ns : Forall fresh_node ns -> let t := create_solution_set (n0 :: ns) in
  forall k r, nth_error t k = Some r -> List.length r = S (List.length ns)
    /\ (exists v, nth_error r 0 = Some v /\ In v (n_vers n0))
    /\ forall c n, nth_error ns c = Some n -> exists j r', nth_error t j = Some r' /\ nth_error r (S c) = Some (vname (n_name n) (S j)) /\ firstn (S (S c)) r = firstn (S (S c)) r'.
Proof.
  induction ns as [|n ns IH] using rev_ind; intros F; cbv zeta; intros k r Hr.
  { rewrite create_one in Hr. rewrite nth_error_map in Hr. destruct (nth_error (n_vers n0) k) as [v|] eqn:E; [|discriminate]. injection Hr as <-.
    split; auto. split. { exists v. split; auto. eapply nth_error_In; eauto. } intros [|c] n E'; discriminate. }
  apply Forall_app in F as [F Fn]. inversion Fn as [|? ? Fn' _]; subst. clear Fn.
  change (n0 :: ns ++ [n]) with ((n0 :: ns) ++ [n]) in Hr. rewrite create_snoc in Hr. set (t := create_solution_set (n0 :: ns)) in *.
  assert (Ne : t <> []) by apply create_ne. assert (Hr0 := Hr). rewrite step_nth in Hr by auto.
  destruct (nth_error (twice (n_nsol n - 1) t) k) as [r1|] eqn:E1; [|discriminate]. injection Hr as <-.
  assert (I1 : In r1 t). { apply (twice_in (n_nsol n - 1)). eapply nth_error_In; eauto. } apply In_nth_error in I1 as (i & Hi).
  destruct (IH F i r1 Hi) as (L & (v & V1 & V2) & C). split; [|split].
  - rewrite app_length, L, app_length. simpl. lia.
  - exists v. split; auto. destruct r1; [discriminate|]. auto.
  - intros c m Hm. change (n0 :: ns ++ [n]) with ((n0 :: ns) ++ [n]). rewrite create_snoc. fold t.
    destruct (Nat.lt_ge_cases c (List.length ns)) as [Lc|Gc].
    + rewrite nth_error_app1 in Hm by auto. destruct (C c m Hm) as (j & r' & J1 & J2 & J3). exists j, (r' ++ [vname (n_name n) (S j)]).
      destruct (IH F j r' J1) as (L' & _). split; [|split].
      * rewrite step_nth by auto. rewrite twice_prefix by (eapply nth_error_some_lt; eauto). rewrite J1. auto.
      * rewrite nth_error_app1 by lia. auto.
      * rewrite !firstn_app_le by lia. auto.
    + assert (c = List.length ns). { apply nth_error_some_lt in Hm. rewrite app_length in Hm. simpl in Hm. lia. } subst c.
      rewrite nth_error_app2 in Hm by lia. rewrite Nat.sub_diag in Hm. injection Hm as <-.
      exists k, (r1 ++ [vname (n_name n) (S k)]). split; [|split]; auto. rewrite nth_error_app2 by lia. rewrite L, Nat.sub_diag. auto.
Qed.
(** the last column numbers the rows *)
Lemma create_last ns n : fresh_node n -> forall k r, nth_error (create_solution_set (n0 :: ns ++ [n])) k = Some r -> exists r1, r = r1 ++ [vname (n_name n) (S k)].
Proof.
  intros F k r Hr. change (n0 :: ns ++ [n]) with ((n0 :: ns) ++ [n]) in Hr. rewrite create_snoc, step_nth in Hr by (auto; apply create_ne).
  destruct (nth_error _ k) as [r1|]; [|discriminate]. injection Hr as <-. eauto.
Qed.
Lemma create_prefix ns ns' : Forall fresh_node (ns ++ ns') -> forall p, (exists r, In r (create_solution_set (n0 :: ns ++ ns')) /\ firstn (S (List.length ns)) r = p) <-> In p (create_solution_set (n0 :: ns)).
Proof.
  induction ns' as [|n ns' IH] using rev_ind; intros F p.
  - rewrite app_nil_r in F. rewrite List.app_nil_r. split.
    + intros (r & Hr & <-). apply In_nth_error in Hr as (k & Hk). destruct (create_inv ns F k r Hk) as (L & _). rewrite <- L, firstn_all. eapply nth_error_In; eauto.
    + intros Hp. exists p. split; auto. apply In_nth_error in Hp as (k & Hk). destruct (create_inv ns F k p Hk) as (L & _). rewrite <- L. apply firstn_all.
  - rewrite app_assoc in F. assert (F0 := F). apply Forall_app in F as [F Fn]. inversion Fn as [|? ? Fn' _]; subst. clear Fn. rewrite <- (IH F p).
    rewrite app_assoc. change (n0 :: (ns ++ ns') ++ [n]) with ((n0 :: ns ++ ns') ++ [n]). rewrite create_snoc. set (t := create_solution_set (n0 :: ns ++ ns')) in *.
    assert (Ne : t <> []) by apply create_ne.
    assert (LL : forall r, In r t -> S (List.length ns) <= List.length r). { intros r Hr. apply In_nth_error in Hr as (k & Hk). destruct (create_inv _ F k r Hk) as (L & _). rewrite L, app_length. lia. }
    split.
    + intros (r & Hr & <-). apply In_nth_error in Hr as (k & Hk). rewrite step_nth in Hk by auto. destruct (nth_error (twice _ t) k) as [r1|] eqn:E; [|discriminate].
      injection Hk as <-. apply nth_error_In, twice_in in E. exists r1. split; auto. rewrite firstn_app_le; auto.
    + intros (r & Hr & <-). apply In_nth_error in Hr as (k & Hk). exists (r ++ [vname (n_name n) (S k)]). split.
      * apply (nth_error_In _ k). rewrite step_nth by auto. rewrite twice_prefix by (eapply nth_error_some_lt; eauto). rewrite Hk. auto.
      * apply firstn_app_le. apply LL. eapply nth_error_In; eauto.
Qed.
End Table.

Lemma vname_inj name a b : vname name a = vname name b -> a = b.
Proof. unfold vname. intros H. apply append_inj in H. apply str_of_nat_inj. auto. Qed.
(** * Marks: the last character of a name that is not a digit *)
Definition is_digit (c : ascii) : bool := (48 <=? nat_of_ascii c) && (nat_of_ascii c <=? 57).
Fixpoint digits (s : string) : bool := match s with EmptyString => true | String c s' => is_digit c && digits s' end.
Fixpoint mark (s : string) : option ascii :=
  match s with EmptyString => None | String c s' => match mark s' with Some m => Some m | None => if is_digit c then None else Some c end end.
Lemma mark_digits s : digits s = true -> mark s = None.
Proof. induction s as [|c s IH]; simpl; auto. intros H. apply andb_true_iff in H as [H1 H2]. rewrite IH, H1; auto. Qed.
Lemma mark_app a c d : is_digit c = false -> digits d = true -> mark (append a (String c d)) = Some c.
Proof. intros C D. induction a as [|x a IH]; cbn [append mark]. rewrite (mark_digits d D), C. auto. rewrite IH. auto. Qed.
Lemma uint_digits u : digits (NilEmpty.string_of_uint u) = true.
Proof. induction u; cbn [NilEmpty.string_of_uint digits]; auto. Qed.
Lemma str_digits n : digits (str_of_nat n) = true. Proof. apply uint_digits. Qed.
Lemma vname_mark name k : mark (vname name k) = Some "v"%char.
Proof. unfold vname. rewrite append_assoc. apply (mark_app name "v"%char (str_of_nat k)). reflexivity. apply str_digits. Qed.
Lemma sname_mark name k : mark (append name (append "s" (str_of_nat k))) = Some "s"%char.
Proof. apply (mark_app name "s"%char (str_of_nat k)). reflexivity. apply str_digits. Qed.
