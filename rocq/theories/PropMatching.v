(** C63: the groups of notations that the matching function returns. *)
From Coq Require Import List String Bool Arith Lia Permutation Sorted.
From Verif Require Import Matching.
Import ListNotations.
Local Open Scope string_scope.
Local Open Scope list_scope.
Local Open Scope nat_scope.

(** * Specification *)
(** a group is a pose when it picks one notation for every node, in the order of the nodes *)
Definition pose (nodes : list (list string)) (g : list string) : Prop := Forall2 (fun x n => In x n) g nodes.
(** a group covers the nodes when it is made of consecutive blocks, one per node, each with at least one notation of its node *)
Definition covers (nodes : list (list string)) (g : list string) : Prop :=
  exists blocks, g = List.concat blocks /\ Forall2 (fun b n => b <> [] /\ (forall x, In x b -> In x n)) blocks nodes.
(** the order in which a set is listed is arbitrary *)
Definition listing (ord : list string -> list string) : Prop := forall l, Permutation l (ord l).
(** no two different notations of a list belong to the same node *)
Definition consistent (nodes : list (list string)) (g : list string) : Prop :=
  forall x y n, In n nodes -> In x g -> In y g -> In x n -> In y n -> x = y.
(** the longest of the given lists *)
Definition longest (cs : list (list string)) (g : list string) : Prop := In g cs /\ forall h, In h cs -> List.length h <= List.length g.

(** * Lists *)
Lemma mem_in x l : mem x l = true <-> In x l.
Proof. unfold mem. rewrite existsb_exists. split. intros (y & H & E). apply String.eqb_eq in E. subst; auto. intros H. exists x. split; auto. apply String.eqb_refl. Qed.
Lemma mem_not x l : mem x l = false <-> ~ In x l.
Proof. rewrite <- mem_in. destruct (mem x l); split; congruence. Qed.
Lemma to_set_in x l : In x (to_set l) <-> In x l.
Proof.
  induction l as [|a l IH]; cbn [to_set]; [tauto|]. destruct (mem a l) eqn:E; cbn [In]; rewrite ?IH; [|tauto].
  apply mem_in in E. split; auto. intros [->|H]; auto.
Qed.
Lemma to_set_nodup l : NoDup (to_set l).
Proof. induction l as [|a l IH]; cbn [to_set]; [constructor|]. destruct (mem a l) eqn:E; auto. constructor; auto. rewrite to_set_in. apply mem_not; auto. Qed.
Lemma union_in x a b : In x (union a b) <-> In x a \/ In x b.
Proof.
  unfold union. rewrite in_app_iff, filter_In, to_set_in, negb_true_iff. split; [tauto|]. intros [H|H]; auto.
  destruct (mem x a) eqn:E; auto. left. apply mem_in; auto.
Qed.
Lemma nodup_app_intro {A} (a b : list A) : NoDup a -> NoDup b -> (forall x, In x a -> ~ In x b) -> NoDup (a ++ b).
Proof.
  induction a as [|x a IH]; cbn; auto. intros Na Nb D. inversion Na; subst. constructor.
  - rewrite in_app_iff. intros [H|H]; auto. apply (D x); auto.
  - apply IH; auto.
Qed.
Lemma union_nodup a b : NoDup a -> NoDup (union a b).
Proof.
  intros N. unfold union. apply nodup_app_intro; auto. apply NoDup_filter, to_set_nodup.
  intros x Hx Hf. apply filter_In in Hf as (_ & E). apply negb_true_iff, mem_not in E. auto.
Qed.
Lemma list_eqb_eq a b : list_eqb a b = true <-> a = b.
Proof. unfold list_eqb. destruct (list_eq_dec _ a b); split; congruence. Qed.
Lemma add_group_in acc g h : In h (add_group acc g) <-> In h acc \/ h = g.
Proof.
  unfold add_group. destruct (existsb (list_eqb g) acc) eqn:E.
  - apply existsb_exists in E as (y & Hy & Q). apply list_eqb_eq in Q. subst y. split; auto. intros [H| ->]; auto.
  - rewrite in_app_iff. cbn. split. intros [H|[->|[]]]; auto. intros [H| ->]; auto.
Qed.
Lemma add_group_nodup acc g : NoDup acc -> NoDup (add_group acc g).
Proof.
  intros N. unfold add_group. destruct (existsb (list_eqb g) acc) eqn:E; auto. apply nodup_app_intro; auto. constructor; auto; constructor.
  intros x Hx [<-|[]]. assert (X : existsb (list_eqb g) acc = true) by (apply existsb_exists; exists g; split; auto; apply list_eqb_eq; auto). congruence.
Qed.

(** * Dictionaries *)
Lemma dict_get_append d k g k' : dict_get (dict_append d k g) k' = if k =? k' then dict_get d k' ++ [g] else dict_get d k'.
Proof.
  induction d as [|(a, l) d IH]; cbn [dict_append dict_get].
  - destruct (k =? k'); auto.
  - destruct (a =? k) eqn:E; cbn [dict_get].
    + apply Nat.eqb_eq in E. subst a. destruct (k =? k'); auto.
    + destruct (a =? k') eqn:F; auto. apply Nat.eqb_eq in F. subst a. rewrite Nat.eqb_sym in E. rewrite E. auto.
Qed.
Lemma dict_keys_append d k g k' : In k' (map fst (dict_append d k g)) <-> k' = k \/ In k' (map fst d).
Proof.
  induction d as [|(a, l) d IH]; cbn [dict_append map fst In]; [intuition|].
  destruct (a =? k) eqn:E; cbn [map fst In]. apply Nat.eqb_eq in E. subst. intuition. rewrite IH. intuition.
Qed.
Lemma dict_keys_nodup d k g : NoDup (map fst d) -> NoDup (map fst (dict_append d k g)).
Proof.
  induction d as [|(a, l) d IH]; cbn [dict_append map fst]; intros N. constructor; auto.
  inversion N; subst. destruct (a =? k) eqn:E; cbn [map fst]; constructor; auto.
  rewrite dict_keys_append. intros [->|H]; auto. rewrite Nat.eqb_refl in E. discriminate.
Qed.
(** filling a dictionary by key: every key holds the values with this key, in order *)
Lemma dict_fill f : forall gs d k, dict_get (fold_left (fun d g => dict_append d (f g) g) gs d) k = dict_get d k ++ filter (fun g => f g =? k) gs.
Proof.
  induction gs as [|g gs IH]; intros d k; cbn [fold_left filter]. rewrite app_nil_r; auto.
  rewrite IH, dict_get_append. destruct (f g =? k) eqn:E; auto. rewrite <- app_assoc. auto.
Qed.
Lemma dict_fill_keys f : forall gs d k, In k (map fst (fold_left (fun d g => dict_append d (f g) g) gs d)) <-> In k (map fst d) \/ exists g, In g gs /\ f g = k.
Proof.
  induction gs as [|g gs IH]; intros d k; cbn [fold_left]. split; auto. intros [H|(g & [] & _)]; auto.
  rewrite IH, dict_keys_append. split.
  - intros [[->|H]|(h & Hh & E)]; eauto. right. exists g. cbn; auto. right. exists h. cbn; auto.
  - intros [H|(h & [->|Hh] & E)]; eauto.
Qed.
Lemma dict_fill_nodup f : forall gs d, NoDup (map fst d) -> NoDup (map fst (fold_left (fun d g => dict_append d (f g) g) gs d)).
Proof. induction gs as [|g gs IH]; intros d N; cbn [fold_left]; auto. apply IH, dict_keys_nodup; auto. Qed.

Lemma sort_fold : forall cs d m, fst (fold_left sort_step cs (d, m)) = fold_left (fun d g => dict_append d (List.length g) g) cs d.
Proof. induction cs as [|g cs IH]; intros d m; cbn [fold_left sort_step]; auto. Qed.
Lemma sort_max : forall cs d m k, snd (fold_left sort_step cs (d, m)) = Some k ->
  (forall g, In g cs -> List.length g <= k) /\ (forall j, m = Some j -> j <= k) /\ (m = Some k \/ exists g, In g cs /\ List.length g = k).
Proof.
  induction cs as [|g cs IH]; intros d m k E; cbn [fold_left sort_step snd] in E.
  - subst m. repeat split; auto. intros g []. intros j J. injection J as ->. lia.
  - apply IH in E as (A & B & C). destruct m as [j|].
    + destruct (j <? List.length g) eqn:L.
      * apply Nat.ltb_lt in L. assert (X := B _ eq_refl). repeat split.
        -- intros h [->|H]; auto.
        -- intros j' J. injection J as <-. lia.
        -- right. destruct C as [C|(h & H & E)]. injection C as C. exists g. cbn; auto. exists h. cbn; auto.
      * apply Nat.ltb_ge in L. assert (X := B _ eq_refl). repeat split.
        -- intros h [->|H]; auto. lia.
        -- intros j' J. injection J as <-. lia.
        -- destruct C as [C|(h & H & E)]; auto. right. exists h. cbn; auto.
    + assert (X := B _ eq_refl). repeat split.
      * intros h [->|H]; auto.
      * discriminate.
      * right. destruct C as [C|(h & H & E)]. injection C as C. exists g. cbn; auto. exists h. cbn; auto.
Qed.
Lemma sort_none : forall cs d m, snd (fold_left sort_step cs (d, m)) = None -> cs = [].
Proof.
  intros cs d m. destruct cs as [|g cs]; auto. cbn [fold_left]. intros E. exfalso.
  assert (X : forall cs acc, snd acc <> None -> snd (fold_left sort_step cs acc) <> None).
  { clear. induction cs as [|g cs IH]; intros (d, m) N; cbn [fold_left]; auto. apply IH. cbn [sort_step snd]. destruct m as [j|]; [|discriminate]. destruct (j <? List.length g); discriminate. }
  apply (X cs (sort_step (d, m) g)); auto. cbn [sort_step snd]. destruct m as [j|]; [|discriminate]. destruct (j <? List.length g); discriminate.
Qed.
Lemma sort_spec cs d k : sort_by_length cs = (d, Some k) -> dict_get d k = filter (fun g => List.length g =? k) cs /\ (forall g, In g cs -> List.length g <= k) /\ exists g, In g cs /\ List.length g = k.
Proof.
  intros E. assert (F : fst (sort_by_length cs) = fold_left (fun d g => dict_append d (List.length g) g) cs []) by apply sort_fold.
  assert (M : forall k, snd (sort_by_length cs) = Some k -> (forall g, In g cs -> List.length g <= k) /\ (forall j, None = Some j -> j <= k) /\ (None = Some k \/ exists g, In g cs /\ List.length g = k)) by (intros j; apply sort_max).
  rewrite E in F, M. cbn [fst snd] in F, M.
  destruct (M k eq_refl) as (A & _ & [C|C]); [discriminate|]. subst d. rewrite dict_fill. auto.
Qed.
Lemma start_longest cs d k g : sort_by_length cs = (d, Some k) -> In g (dict_get d k) <-> longest cs g.
Proof.
  intros E. apply sort_spec in E as (-> & A & (h & H & L)). rewrite filter_In, Nat.eqb_eq. unfold longest. split.
  - intros (I & <-). auto.
  - intros (I & M). split; auto. assert (X := A _ I). assert (Y := M _ H). lia.
Qed.

(** * The order of the candidates *)
Lemma insert_perm k l : Permutation (k :: l) (insert_desc k l).
Proof. induction l as [|a l IH]; cbn [insert_desc]; auto. destruct (k <? a); auto. apply (perm_trans (perm_swap a k l)). apply perm_skip; auto. Qed.
Lemma sort_perm l : Permutation l (sort_desc l).
Proof. induction l as [|k l IH]; cbn; auto. eapply perm_trans; [apply perm_skip, IH | apply insert_perm]. Qed.
Lemma insert_sorted k l : StronglySorted ge l -> StronglySorted ge (insert_desc k l).
Proof.
  induction l as [|a l IH]; intros S0; cbn [insert_desc]. repeat constructor. inversion S0; subst. destruct (k <? a) eqn:E.
  - apply Nat.ltb_lt in E. constructor; auto. apply Forall_forall. intros x Hx. apply (Permutation_in _ (Permutation_sym (insert_perm k l))) in Hx as [<-|Hx]. lia.
    rewrite Forall_forall in H2. auto.
  - apply Nat.ltb_ge in E. constructor; auto. constructor; auto. rewrite Forall_forall in *. intros x Hx. apply H2 in Hx. lia.
Qed.
Lemma sort_sorted l : StronglySorted ge (sort_desc l).
Proof. induction l; cbn. constructor. apply insert_sorted; auto. Qed.

Lemma filter_perm_split {A} (p q : A -> bool) l : (forall x, In x l -> p x = true -> q x = false) ->
  Permutation (filter (fun x => p x || q x) l) (filter p l ++ filter q l).
Proof.
  induction l as [|x l IH]; intros D; cbn; auto. assert (IH' : Permutation (filter (fun x => p x || q x) l) (filter p l ++ filter q l)) by (apply IH; intros; apply D; cbn; auto).
  destruct (p x) eqn:P; cbn.
  - rewrite (D x) by (cbn; auto). cbn. constructor; auto.
  - destruct (q x); auto. apply Permutation_cons_app. auto.
Qed.
Lemma buckets_perm f (gs : list (list string)) : forall ks, NoDup ks -> Permutation (filter (fun g => existsb (Nat.eqb (f g)) ks) gs) (flat_map (fun k => filter (fun g => f g =? k) gs) ks).
Proof.
  induction ks as [|k ks IH]; intros N; cbn [flat_map existsb].
  - clear. induction gs; cbn; auto.
  - inversion N; subst. eapply perm_trans. apply filter_perm_split.
    + intros g _ E. apply Nat.eqb_eq in E. destruct (existsb (Nat.eqb (f g)) ks) eqn:X; auto. apply existsb_exists in X as (y & Hy & Q). apply Nat.eqb_eq in Q. congruence.
    + apply Permutation_app; auto.
Qed.
Lemma filter_all {A} (p : A -> bool) l : (forall x, In x l -> p x = true) -> filter p l = l.
Proof. induction l as [|x l IH]; intros H; cbn; auto. rewrite H by (cbn; auto). f_equal. apply IH. intros; apply H; cbn; auto. Qed.
Lemma search_eq search goals start : search_notation search goals start =
  flat_map (fun k => filter (fun g => score start g =? k) (candidates search goals)) (sort_desc (map fst (fold_left (fun d g => dict_append d (score start g) g) (candidates search goals) []))).
Proof. unfold search_notation. rewrite !flat_map_concat_map. f_equal. apply map_ext. intros k. rewrite dict_fill. auto. Qed.
(** the candidates are a rearrangement: none is lost and none is invented *)
Lemma search_perm search goals start : Permutation (candidates search goals) (search_notation search goals start).
Proof.
  rewrite search_eq. set (gs := candidates search goals). set (d := fold_left _ gs _).
  eapply perm_trans; [|apply buckets_perm].
  - rewrite filter_all; auto. intros g Hg. apply existsb_exists. exists (score start g). split; [|apply Nat.eqb_refl].
    apply (Permutation_in _ (sort_perm _)). unfold d. apply dict_fill_keys. right. eauto.
  - eapply Permutation_NoDup. apply sort_perm. unfold d. apply dict_fill_nodup. constructor.
Qed.
Lemma sorted_flat f (gs : list (list string)) : forall ks, StronglySorted ge ks -> StronglySorted (fun g h => f g >= f h) (flat_map (fun k => filter (fun g => f g =? k) gs) ks).
Proof.
  induction ks as [|k ks IH]; intros S0; cbn. constructor. inversion S0; subst.
  assert (K : forall l, StronglySorted (fun g h => f g >= f h) (filter (fun g => f g =? k) l ++ flat_map (fun k => filter (fun g => f g =? k) gs) ks)).
  { induction l as [|g l IHl]; cbn; auto. destruct (f g =? k) eqn:E; auto. cbn. constructor; auto. apply Nat.eqb_eq in E. apply Forall_forall. intros h Hh.
    apply in_app_or in Hh as [Hh|Hh]. apply filter_In in Hh as (_ & Q). apply Nat.eqb_eq in Q. lia.
    apply in_flat_map in Hh as (j & Hj & Hh). apply filter_In in Hh as (_ & Q). apply Nat.eqb_eq in Q. rewrite Forall_forall in H2. apply H2 in Hj. lia. }
  apply K.
Qed.
Lemma candidates_in search goals g : In g (candidates search goals) <-> In g search /\ exists n x, In n goals /\ In x n /\ In x g.
Proof.
  unfold candidates. rewrite in_flat_map. split.
  - intros (h & Hh & I). apply in_flat_map in I as (n & Hn & I). apply in_flat_map in I as (x & Hx & I). destruct (mem x h) eqn:M; [|destruct I]. destruct I as [<-|[]].
    apply mem_in in M. split; auto. exists n, x. auto.
  - intros (Hs & n & x & Hn & Hx & Hg). exists g. split; auto. apply in_flat_map. exists n. split; auto. apply in_flat_map. exists x. split; auto. apply mem_in in Hg. rewrite Hg. cbn; auto.
Qed.
Lemma search_in search goals start g : In g (search_notation search goals start) <-> In g search /\ exists n x, In n goals /\ In x n /\ In x g.
Proof. rewrite <- candidates_in. split; apply Permutation_in; [apply Permutation_sym|]; apply search_perm. Qed.

(** * The loop *)
Lemma touches_iff set n : touches set n = true <-> exists x, In x set /\ In x n.
Proof. unfold touches. rewrite existsb_exists. split; intros (x & H & E); exists x; split; auto; apply mem_in; auto. Qed.
(** the invariant of the loop: the marks agree with the set, which is made of the start and of given lists *)
Definition minv (nodes : list (list string)) (cs : list (list string)) (start : list string) (st : mstate) : Prop :=
  m_check st = map (touches (m_set st)) nodes /\ NoDup (m_set st) /\ (forall x, In x start -> In x (m_set st)) /\ (forall x, In x (m_set st) -> exists h, In h cs /\ In x h).
Lemma minv_union nodes cs start g st ct go : In g cs -> minv nodes cs start st -> minv nodes cs start (mkm (union (m_set st) g) (map (touches (union (m_set st) g)) nodes) go ct).
Proof.
  intros Hg (A & B & C & D). unfold minv. cbn [m_set m_check]. repeat split; auto.
  - apply union_nodup; auto.
  - intros x Hx. apply union_in. auto.
  - intros x Hx. apply union_in in Hx as [Hx|Hx]; eauto.
Qed.
Lemma merge1_minv nodes cs start g st x : In g cs -> minv nodes cs start st -> minv nodes cs start (merge1 nodes g st x).
Proof. intros Hg I. unfold merge1, mark_off. destruct (_ && _); auto. apply minv_union; auto. Qed.
Lemma merge2_minv nodes cs start g st : In g cs -> minv nodes cs start st -> minv nodes cs start (merge2 nodes g st).
Proof. intros Hg I. unfold merge2, mark_off. destruct (_ && _); auto. apply minv_union; auto. Qed.
Lemma fold_merge1 (P : mstate -> Prop) nodes g : (forall st x, P st -> P (merge1 nodes g st x)) -> forall l st, P st -> P (fold_left (merge1 nodes g) l st).
Proof. intros H. induction l as [|x l IH]; intros st I; cbn; auto. Qed.
Lemma try_groups_inv ord nodes start (P : mstate -> Prop) (ok : list string -> Prop) :
  (forall g st x, ok g -> P st -> P (merge1 nodes g st x)) -> (forall g st, ok g -> P st -> P (merge2 nodes g st)) ->
  forall gs st r, (forall g, In g gs -> ok g) -> P st -> try_groups ord nodes start gs st = Some r ->
  exists st', P st' /\ finish_found (m_check st') = true /\ r = sort_variables (ord (m_set st')) nodes.
Proof.
  intros H1 H2. induction gs as [|g gs IH]; intros st r Hok I E; cbn [try_groups] in E; [discriminate|].
  set (st' := merge2 nodes g _) in E. assert (I' : P st') by (apply H2; [apply Hok; cbn; auto|apply fold_merge1; auto; intros; apply H1; auto; apply Hok; cbn; auto]).
  destruct (finish_found (m_check st')) eqn:F.
  - injection E as <-. exists st'. auto.
  - apply (IH st' r); auto. intros; apply Hok; cbn; auto.
Qed.
Lemma start_minv nodes cs start : In start cs -> minv nodes cs start (mkm (to_set start) (map (touches start) nodes) (filter (fun n => negb (touches start n)) nodes) (filter (touches start) nodes)).
Proof.
  intros H. unfold minv. cbn [m_set m_check]. repeat split.
  - apply map_ext. intros n. destruct (touches start n) eqn:E, (touches (to_set start) n) eqn:F; auto.
    + apply touches_iff in E as (x & Hx & Hn). assert (X : touches (to_set start) n = true) by (apply touches_iff; exists x; split; auto; apply to_set_in; auto). congruence.
    + apply touches_iff in F as (x & Hx & Hn). assert (X : touches start n = true) by (apply touches_iff; exists x; split; auto; apply (proj1 (to_set_in _ _)); auto). congruence.
  - apply to_set_nodup.
  - intros x Hx. apply to_set_in. auto.
  - intros x Hx. apply (proj1 (to_set_in _ _)) in Hx. eauto.
Qed.
Lemma sort_variables_covers l nodes : (forall n, In n nodes -> touches l n = true) -> covers nodes (sort_variables l nodes).
Proof.
  intros H. exists (map (fun n => filter (fun x => mem x n) l) nodes). unfold sort_variables. rewrite flat_map_concat_map. split; auto.
  induction nodes as [|n nodes IH]; cbn [map]; constructor.
  - split.
    + assert (T : touches l n = true) by (apply H; cbn; auto). apply touches_iff in T as (x & Hx & Hn). intros E.
      assert (X : In x (filter (fun x => mem x n) l)) by (apply filter_In; split; auto; apply mem_in; auto). rewrite E in X. destruct X.
    + intros x Hx. apply filter_In in Hx as (_ & M). apply mem_in; auto.
  - apply IH. intros; apply H; cbn; auto.
Qed.
Lemma finish_all set nodes : finish_found (map (touches set) nodes) = true -> forall n, In n nodes -> touches set n = true.
Proof. unfold finish_found. rewrite forallb_forall. intros H n Hn. apply H. apply in_map_iff. eauto. Qed.
Lemma sort_variables_in x l nodes : In x (sort_variables l nodes) <-> In x l /\ exists n, In n nodes /\ In x n.
Proof.
  unfold sort_variables. rewrite in_flat_map. split.
  - intros (n & Hn & I). apply filter_In in I as (I & M). apply mem_in in M. eauto.
  - intros (I & n & Hn & M). exists n. split; auto. apply filter_In. split; auto. apply mem_in; auto.
Qed.
Lemma match_start_state ord cs nodes start r (P : mstate -> Prop) : In start cs -> match_start ord cs nodes start = Some r ->
  (forall g st x, In g cs -> minv nodes cs start st -> P st -> P (merge1 nodes g st x)) ->
  (forall g st, In g cs -> minv nodes cs start st -> P st -> P (merge2 nodes g st)) ->
  P (mkm (to_set start) (map (touches start) nodes) (filter (fun n => negb (touches start n)) nodes) (filter (touches start) nodes)) ->
  exists st, minv nodes cs start st /\ P st /\ finish_found (m_check st) = true /\ r = sort_variables (ord (m_set st)) nodes.
Proof.
  intros Hs E H1 H2 H0. unfold match_start, mark_off in E.
  assert (X1 : forall g st x, In g cs -> minv nodes cs start st /\ P st -> minv nodes cs start (merge1 nodes g st x) /\ P (merge1 nodes g st x)) by (intros g st x Hg (I & J); split; auto; apply merge1_minv; auto).
  assert (X2 : forall g st, In g cs -> minv nodes cs start st /\ P st -> minv nodes cs start (merge2 nodes g st) /\ P (merge2 nodes g st)) by (intros g st Hg (I & J); split; auto; apply merge2_minv; auto).
  eapply (try_groups_inv ord nodes start (fun st => minv nodes cs start st /\ P st) (fun g => In g cs) X1 X2) in E.
  - destruct E as (st & (I & J) & F & Q). eauto.
  - intros g Hg. apply search_in in Hg as (Hg & _). auto.
  - split; auto. apply start_minv; auto.
Qed.
Lemma match_all_in ord cs nodes whole : forall starts acc g, (forall s, In s starts -> List.length s <> List.length nodes) ->
  In g (match_all ord cs nodes whole starts acc) <-> In g acc \/ exists s, In s starts /\ match_start ord cs nodes s = Some g.
Proof.
  induction starts as [|s starts IH]; intros acc g H; cbn [match_all].
  - split; auto. intros [A|(s & [] & _)]; auto.
  - destruct (_ =? _) eqn:E. apply Nat.eqb_eq in E. exfalso. apply (H s); cbn; auto.
    rewrite IH by (intros; apply H; cbn; auto). destruct (match_start ord cs nodes s) as [h|] eqn:M.
    + rewrite add_group_in. split.
      * intros [[A| ->]|(s' & Hs & Q)]; auto. right. exists s. cbn; auto. right. exists s'. cbn; auto.
      * intros [A|(s' & [<-|Hs] & Q)]; auto. rewrite M in Q. injection Q as ->. auto. right. eauto.
    + split.
      * intros [A|(s' & Hs & Q)]; auto. right. exists s'. cbn; auto.
      * intros [A|(s' & [<-|Hs] & Q)]; auto. congruence. right. eauto.
Qed.
Lemma match_all_early ord cs nodes whole s starts acc : List.length s = List.length nodes -> match_all ord cs nodes whole (s :: starts) acc = whole.
Proof. intros E. cbn [match_all]. rewrite E, Nat.eqb_refl. auto. Qed.

(** the groups, by cases *)
Lemma matching_cases ord cs nodes g : In g (matching_func ord cs nodes) <->
  (longest cs g /\ List.length g = List.length nodes) \/
  (exists s, longest cs s /\ List.length s <> List.length nodes /\ match_start ord cs nodes s = Some g).
Proof.
  unfold matching_func. destruct (sort_by_length cs) as (d, [k|]) eqn:E.
  - assert (L := fun g => start_longest cs d k g E). apply sort_spec in E as (D & A & (h & Hh & K)).
    assert (Len : forall s, In s (dict_get d k) -> List.length s = k) by (intros s Hs; rewrite D in Hs; apply filter_In in Hs as (_ & Q); apply Nat.eqb_eq; auto).
    destruct (Nat.eq_dec k (List.length nodes)) as [N|N].
    + assert (Q : match_all ord cs nodes (dict_get d k) (dict_get d k) [] = dict_get d k).
      { destruct (dict_get d k) as [|s t] eqn:G; auto. apply match_all_early. rewrite <- N. apply Len. cbn; auto. }
      rewrite Q, L. split.
      * intros H. left. split; auto. rewrite <- N. apply Len, L; auto.
      * intros [(H & _)|(s & H & C & _)]; auto. exfalso. apply C. rewrite <- N. apply Len, L; auto.
    + rewrite match_all_in by (intros s Hs; rewrite (Len s Hs); auto). split.
      * intros [[]|(s & Hs & M)]. right. exists s. split. apply L; auto. split; auto. rewrite (Len s Hs); auto.
      * intros [(H & C)|(s & H & C & M)]. exfalso. apply N. rewrite <- C. symmetry. apply Len, L; auto.
        right. exists s. split; auto. apply L; auto.
  - assert (C : cs = []). { apply (sort_none cs [] None). change (snd (sort_by_length cs) = None). rewrite E. auto. } subst cs. split; [intros []|].
    intros [((H & _) & _)|(s & (H & _) & _)]; destruct H.
Qed.

(** * Theorems *)
(** every group is one of the longest given lists (when these have as many elements as there are nodes), or it grew from one of them: it then
    names every node at least once, in the order of the nodes, uses only notations that were given, and keeps those of the list it grew from *)
Theorem C63_groups ord cs nodes g : listing ord -> In g (matching_func ord cs nodes) ->
  (longest cs g /\ List.length g = List.length nodes) \/
  (covers nodes g /\ (forall x, In x g -> exists h, In h cs /\ In x h) /\
   exists s, longest cs s /\ List.length s <> List.length nodes /\ forall x n, In x s -> In n nodes -> In x n -> In x g).
Proof.
  intros O H. apply matching_cases in H as [H|(s & Hs & N & M)]; auto. right.
  destruct (match_start_state ord cs nodes s g (fun _ => True) (proj1 Hs) M) as (st & (A & B & C & D) & _ & F & ->); auto.
  rewrite A in F. assert (T := finish_all _ _ F). split; [|split].
  - apply sort_variables_covers. intros n Hn. apply T, touches_iff in Hn as (x & Hx & Hn). apply touches_iff. exists x. split; auto. apply (Permutation_in _ (O (m_set st))); auto.
  - intros x Hx. apply sort_variables_in in Hx as (Hx & _). apply D. apply (Permutation_in _ (Permutation_sym (O (m_set st)))); auto.
  - exists s. split; auto. split; auto. intros x n Hx Hn Hi. apply sort_variables_in. split; eauto. apply (Permutation_in _ (O (m_set st))); auto.
Qed.
(** nothing comes out of nothing, and a set holds no group twice *)
Theorem C63_empty ord nodes : matching_func ord [] nodes = [].
Proof. reflexivity. Qed.
Lemma match_all_nodup ord cs nodes whole : forall starts acc, (forall s, In s starts -> List.length s <> List.length nodes) -> NoDup acc ->
  NoDup (match_all ord cs nodes whole starts acc) /\ List.length (match_all ord cs nodes whole starts acc) <= List.length acc + List.length starts.
Proof.
  induction starts as [|s starts IH]; intros acc H N; cbn [match_all]. split; auto. lia.
  destruct (_ =? _) eqn:E. apply Nat.eqb_eq in E. exfalso. apply (H s); cbn; auto.
  destruct (match_start ord cs nodes s) as [h|].
  - destruct (IH (add_group acc h)) as (A & B). intros; apply H; cbn; auto. apply add_group_nodup; auto. split; auto.
    assert (X : List.length (add_group acc h) <= S (List.length acc)) by (unfold add_group; destruct (existsb _ _); rewrite ?app_length; cbn; lia). cbn. lia.
  - destruct (IH acc) as (A & B); auto. intros; apply H; cbn; auto. split; auto. cbn. lia.
Qed.
(** there are at most as many groups as longest lists: every longest list is completed at most once *)
Theorem C63_at_most_once ord cs nodes : NoDup cs ->
  NoDup (matching_func ord cs nodes) /\ exists starts, NoDup starts /\ (forall s, In s starts <-> longest cs s) /\ List.length (matching_func ord cs nodes) <= List.length starts.
Proof.
  intros Nc. unfold matching_func. destruct (sort_by_length cs) as (d, [k|]) eqn:E.
  - assert (L := fun g => start_longest cs d k g E). apply sort_spec in E as (D & A & (h & Hh & K)).
    assert (Len : forall s, In s (dict_get d k) -> List.length s = k) by (intros s Hs; rewrite D in Hs; apply filter_In in Hs as (_ & Q); apply Nat.eqb_eq; auto).
    assert (Nd : NoDup (dict_get d k)) by (rewrite D; apply NoDup_filter; auto).
    destruct (Nat.eq_dec k (List.length nodes)) as [N|N].
    + assert (Q : match_all ord cs nodes (dict_get d k) (dict_get d k) [] = dict_get d k).
      { destruct (dict_get d k) as [|s t] eqn:G; auto. apply match_all_early. rewrite <- N. apply Len. cbn; auto. }
      rewrite Q. split; auto. exists (dict_get d k). auto.
    + destruct (match_all_nodup ord cs nodes (dict_get d k) (dict_get d k) []) as (X & Y). intros s Hs; rewrite (Len s Hs); auto. constructor. split; auto.
      exists (dict_get d k). auto.
  - split. constructor. assert (C : cs = []). { apply (sort_none cs [] None). change (snd (sort_by_length cs) = None). rewrite E. auto. } subst cs. exists []. split. constructor. split; auto.
    intros s. split; [intros []|intros ([] & _)].
Qed.
(** the candidates for completing a list are tried from the largest score (length and number of elements shared with the list) down; they are exactly the given lists that name a missing node *)
Definition shared (a b : list string) : nat := List.length (filter (fun x => if in_dec string_dec x b then true else false) a).
Lemma score_is start g : score start g = List.length g + shared g start.
Proof.
  unfold score, shared. f_equal. f_equal. apply filter_ext. intros x. destruct (in_dec string_dec x start) as [I|I].
  - apply mem_in; auto.
  - destruct (mem x start) eqn:E; auto. apply mem_in in E. contradiction.
Qed.
Lemma sorted_weaken {A} (R R' : A -> A -> Prop) l : (forall a b, R a b -> R' a b) -> StronglySorted R l -> StronglySorted R' l.
Proof. intros H. induction 1 as [|a l S IH F]; constructor; auto. exact (Forall_impl _ (H a) F). Qed.
Theorem C63_candidates search goals start :
  (forall g, In g (search_notation search goals start) <-> In g search /\ exists n x, In n goals /\ In x n /\ In x g) /\
  StronglySorted (fun g h => List.length g + shared g start >= List.length h + shared h start) (search_notation search goals start).
Proof.
  split. intros g. apply search_in. rewrite search_eq. apply sorted_weaken with (R := fun g h => score start g >= score start h); [|apply sorted_flat, sort_sorted].
  intros g h H. rewrite !score_is in H. exact H.
Qed.

(** * When a group is a pose *)
(** distinct nodes have distinct notations *)
Definition disjoint_nodes (nodes : list (list string)) : Prop := forall i j x, In x (nth i nodes []) -> In x (nth j nodes []) -> i = j.

Lemma no_conflict_true nodes set g : no_conflict nodes set g = true -> forall x y n, In x g -> In y set -> In n (tl nodes) -> In x n -> In y n -> x = y.
Proof.
  unfold no_conflict. rewrite negb_true_iff. intros E x y n Hx Hy Hn Nx Ny. destruct (string_dec x y); auto. exfalso.
  assert (X : existsb (fun sym => existsb (fun s => negb (String.eqb sym s) && existsb (fun n => mem sym n && mem s n) (tl nodes)) set) g = true); [|congruence].
  apply existsb_exists. exists x. split; auto. apply existsb_exists. exists y. split; auto. apply andb_true_iff. split.
  - apply negb_true_iff. apply String.eqb_neq. auto.
  - apply existsb_exists. exists n. split; auto. apply andb_true_iff. split; apply mem_in; auto.
Qed.
Lemma consistent_union nodes a b : consistent nodes a -> consistent nodes b -> (forall x y n, In n nodes -> In x b -> In y a -> In x n -> In y n -> x = y) -> consistent nodes (union a b).
Proof.
  intros Ha Hb H x y n Hn Hx Hy Nx Ny. apply union_in in Hx, Hy. destruct Hx as [Hx|Hx], Hy as [Hy|Hy]; eauto. symmetry. eauto.
Qed.
Lemma filter_one {A} (p : A -> bool) l x : NoDup l -> In x l -> p x = true -> (forall y, In y l -> p y = true -> y = x) -> filter p l = [x].
Proof.
  induction l as [|a l IH]; intros N H P U; [destruct H|]. inversion N; subst. cbn [filter]. destruct (p a) eqn:E.
  - assert (a = x) by (apply U; cbn; auto). subst a. f_equal. destruct (filter p l) as [|b t] eqn:F; auto. exfalso.
    assert (In b (filter p l)) by (rewrite F; cbn; auto). apply filter_In in H0 as (I & Q). assert (b = x) by (apply U; cbn; auto). subst b. auto.
  - destruct H as [->|H]; [congruence|]. apply IH; auto. intros; apply U; cbn; auto.
Qed.
Lemma sort_variables_pose l nodes : NoDup l -> consistent nodes l -> (forall n, In n nodes -> touches l n = true) -> pose nodes (sort_variables l nodes).
Proof.
  intros N C T. unfold pose. assert (K : forall ns, (forall n, In n ns -> In n nodes) -> Forall2 (fun x n => In x n) (flat_map (fun n => filter (fun x => mem x n) l) ns) ns).
  { induction ns as [|n ns IH]; intros S0; cbn [flat_map]; [constructor|]. assert (Tn : touches l n = true) by (apply T, S0; cbn; auto). apply touches_iff in Tn as (x & Hx & Hn).
    rewrite (filter_one _ l x); auto.
    - constructor; auto. apply IH. intros; apply S0; cbn; auto.
    - apply mem_in; auto.
    - intros y Hy M. apply mem_in in M. apply (C y x n); auto. apply S0; cbn; auto. }
  apply K. auto.
Qed.
(** when all given lists are consistent and agree on a notation r of the first node, every group that is put together is a pose:
    exactly one notation for every node, in the order of the nodes *)
Theorem C63_poses ord cs nodes r first g : listing ord ->
  hd_error nodes = Some first -> In r first -> (forall h, In h cs -> In r h /\ consistent nodes h) ->
  In g (matching_func ord cs nodes) ->
  (longest cs g /\ List.length g = List.length nodes) \/ pose nodes g.
Proof.
  intros O F R H G. apply matching_cases in G as [G|(s & Hs & N & M)]; auto. right.
  destruct nodes as [|f rest]; [discriminate|]. injection F as ->.
  destruct (match_start_state ord cs (first :: rest) s g (fun st => consistent (first :: rest) (m_set st) /\ In r (m_set st)) (proj1 Hs) M) as (st & (A & B & C & D) & (K & _) & Fi & ->).
  - intros g0 st x Hg I (K & Rr). unfold merge1, mark_off. destruct (_ && _) eqn:E; auto. cbn [m_set]. apply andb_true_iff in E as (_ & Nc).
    split; [|apply union_in; auto]. apply consistent_union; auto. apply H; auto.
    intros a b n Hn Ha Hb Na Nb. destruct Hn as [<-|Hn].
    + destruct (H g0 Hg) as (Hr & Cg). rewrite (Cg a r first); cbn; auto. apply (K r b first); cbn; auto.
    + apply (no_conflict_true _ _ _ Nc a b n); auto.
  - intros g0 st Hg I (K & Rr). unfold merge2, mark_off. destruct (existsb (fun x => mem x (m_set st)) g0) eqn:E; cbn [negb andb]; auto.
    exfalso. assert (X : existsb (fun x => mem x (m_set st)) g0 = true); [|congruence]. apply existsb_exists. exists r. split. apply H; auto. apply mem_in; auto.
  - cbn [m_set]. destruct (H s (proj1 Hs)) as (Hr & Cs). split; [|apply to_set_in; auto].
    intros x y n Hn Hx Hy. apply (proj1 (to_set_in _ _)) in Hx, Hy. apply (Cs x y n); auto.
  - rewrite A in Fi. assert (T := finish_all _ _ Fi). apply sort_variables_pose.
    + eapply Permutation_NoDup; [apply O|auto].
    + intros x y n Hn Hx Hy. apply (Permutation_in _ (Permutation_sym (O _))) in Hx, Hy. apply (K x y n); auto.
    + intros n Hn. apply T, touches_iff in Hn as (x & Hx & Hn). apply touches_iff. exists x. split; auto. apply (Permutation_in _ (O (m_set st))); auto.
Qed.
(** the given lists that have as many elements as there are nodes are poses up to order, when they are consistent, without repetitions and made of notations of the nodes *)
Theorem C63_early_pose nodes g : disjoint_nodes nodes -> NoDup g -> consistent nodes g -> (forall x, In x g -> exists n, In n nodes /\ In x n) ->
  List.length g = List.length nodes -> forall n, In n nodes -> exists x, In x g /\ In x n.
Proof.
  intros D N C H L n Hn.
  (* the index of the node of a notation *)
  set (idx := fun x => hd 0 (filter (fun i => mem x (nth i nodes [])) (seq 0 (List.length nodes)))).
  assert (I : forall x, In x g -> idx x < List.length nodes /\ In x (nth (idx x) nodes [])).
  { intros x Hx. destruct (H x Hx) as (m & Hm & Xm). apply (In_nth nodes m []) in Hm as (i & Hi & E). unfold idx.
    destruct (filter _ _) as [|j t] eqn:F.
    - exfalso. assert (X : In i (filter (fun i => mem x (nth i nodes [])) (seq 0 (List.length nodes)))). { apply filter_In. split. apply in_seq; lia. apply mem_in. rewrite E; auto. } rewrite F in X. destruct X.
    - assert (X : In j (filter (fun i => mem x (nth i nodes [])) (seq 0 (List.length nodes)))) by (rewrite F; cbn; auto). apply filter_In in X as (X & M). apply in_seq in X. apply mem_in in M. cbn. split; auto. lia. }
  assert (Nd : NoDup (map idx g)).
  { assert (Inj : forall x y, In x g -> In y g -> idx x = idx y -> x = y). { intros x y Hx Hy E. destruct (I x Hx) as (A & B), (I y Hy) as (A' & B'). rewrite <- E in B'. apply (C x y (nth (idx x) nodes [])); auto. apply nth_In; auto. }
    clear -N Inj. induction g as [|x g IH]; cbn; constructor.
    - intros Hx. apply in_map_iff in Hx as (y & E & Hy). inversion N; subst. apply H1. rewrite <- (Inj y x); cbn; auto.
    - inversion N; subst. apply IH; auto. intros; apply Inj; cbn; auto. }
  assert (Inc : incl (seq 0 (List.length nodes)) (map idx g)).
  { apply NoDup_length_incl; auto. rewrite seq_length, map_length. lia. intros i Hi. apply in_map_iff in Hi as (x & <- & Hx). apply in_seq. destruct (I x Hx). lia. }
  apply (In_nth nodes n []) in Hn as (i & Hi & <-). assert (Ii : In i (map idx g)) by (apply Inc, in_seq; lia). apply in_map_iff in Ii as (x & <- & Hx). exists x. split; auto. apply I; auto.
Qed.
(** in that case the groups do not depend on the order in which Python lists its sets *)
Lemma filter_single_perm {A} (p : A -> bool) l l' : Permutation l l' -> List.length (filter p l) = 1 -> filter p l = filter p l'.
Proof.
  intros P L. assert (Q : Permutation (filter p l) (filter p l')).
  { clear L. induction P; cbn; auto. destruct (p x); auto. destruct (p x), (p y); auto; constructor. eapply perm_trans; eauto. }
  destruct (filter p l) as [|a [|? ?]]; try discriminate. apply Permutation_length_1_inv in Q. congruence.
Qed.
Lemma sort_variables_ord o1 o2 l nodes : listing o1 -> listing o2 -> NoDup l -> consistent nodes l -> (forall n, In n nodes -> touches l n = true) ->
  sort_variables (o1 l) nodes = sort_variables (o2 l) nodes.
Proof.
  intros O1 O2 N C T. unfold sort_variables. rewrite !flat_map_concat_map. f_equal. apply map_ext_in. intros n Hn.
  assert (Tn := T n Hn). apply touches_iff in Tn as (x & Hx & Xn).
  assert (F : filter (fun x => mem x n) l = [x]) by (apply filter_one; auto; [apply mem_in; auto|intros y Hy M; apply mem_in in M; apply (C y x n); auto]).
  assert (L : List.length (filter (fun x => mem x n) l) = 1) by (rewrite F; auto).
  rewrite <- (filter_single_perm _ l (o1 l)); auto. apply filter_single_perm; auto.
Qed.
Lemma try_groups_ord o1 o2 nodes start (P : mstate -> Prop) (ok : list string -> Prop) :
  (forall g st x, ok g -> P st -> P (merge1 nodes g st x)) -> (forall g st, ok g -> P st -> P (merge2 nodes g st)) ->
  (forall st, P st -> finish_found (m_check st) = true -> sort_variables (o1 (m_set st)) nodes = sort_variables (o2 (m_set st)) nodes) ->
  forall gs st, (forall g, In g gs -> ok g) -> P st -> try_groups o1 nodes start gs st = try_groups o2 nodes start gs st.
Proof.
  intros H1 H2 H3. induction gs as [|g gs IH]; intros st Hok I; cbn [try_groups]; auto.
  set (st' := merge2 nodes g _). assert (I' : P st') by (apply H2; [apply Hok; cbn; auto|apply fold_merge1; auto; intros; apply H1; auto; apply Hok; cbn; auto]).
  destruct (finish_found (m_check st')) eqn:F.
  - f_equal. auto.
  - apply IH; auto. intros; apply Hok; cbn; auto.
Qed.
Theorem C63_same_for_every_hash_seed o1 o2 cs nodes r first : listing o1 -> listing o2 ->
  hd_error nodes = Some first -> In r first -> (forall h, In h cs -> In r h /\ consistent nodes h) ->
  matching_func o1 cs nodes = matching_func o2 cs nodes.
Proof.
  intros O1 O2 F R H. destruct nodes as [|f rest]; [discriminate|]. injection F as ->. set (nodes := first :: rest) in *.
  assert (M : forall s, In s cs -> match_start o1 cs nodes s = match_start o2 cs nodes s).
  { intros s Hs. unfold match_start, mark_off.
    apply (try_groups_ord o1 o2 nodes s (fun st => minv nodes cs s st /\ consistent nodes (m_set st) /\ In r (m_set st)) (fun g => In g cs)).
    - intros g st x Hg (I & K & Rr). split. apply merge1_minv; auto. unfold merge1, mark_off. destruct (_ && _) eqn:E; auto. cbn [m_set]. apply andb_true_iff in E as (_ & Nc).
      split; [|apply union_in; auto]. apply consistent_union; auto. apply H; auto.
      intros a b n Hn Ha Hb Na Nb. destruct Hn as [<-|Hn].
      + destruct (H g Hg) as (Hr & Cg). rewrite (Cg a r first); cbn; auto. apply (K r b first); cbn; auto.
      + apply (no_conflict_true _ _ _ Nc a b n); auto.
    - intros g st Hg (I & K & Rr). split. apply merge2_minv; auto. unfold merge2, mark_off. destruct (existsb (fun x => mem x (m_set st)) g) eqn:E; cbn [negb andb]; auto.
      exfalso. assert (X : existsb (fun x => mem x (m_set st)) g = true); [|congruence]. apply existsb_exists. exists r. split. apply H; auto. apply mem_in; auto.
    - intros st ((A & B & C & D) & K & _) Fi. rewrite A in Fi. apply sort_variables_ord; auto. apply (finish_all _ _ Fi).
    - intros g Hg. apply search_in in Hg as (Hg & _). auto.
    - split; [apply start_minv; auto|]. cbn [m_set]. destruct (H s Hs) as (Hr & Cs). split; [|apply to_set_in; auto].
      intros x y n Hn Hx Hy. apply (proj1 (to_set_in _ _)) in Hx, Hy. apply (Cs x y n); auto. }
  unfold matching_func. destruct (sort_by_length cs) as (d, [k|]) eqn:E; auto. apply sort_spec in E as (D & _).
  assert (K : forall starts acc, (forall s, In s starts -> In s cs) -> match_all o1 cs nodes (dict_get d k) starts acc = match_all o2 cs nodes (dict_get d k) starts acc).
  { induction starts as [|s starts IH]; intros acc Hi; cbn [match_all]; auto. destruct (_ =? _); auto. rewrite M by (apply Hi; cbn; auto). apply IH. intros; apply Hi; cbn; auto. }
  apply K. intros s Hs. rewrite D in Hs. apply filter_In in Hs as (Hs & _). auto.
Qed.

(** * Examples: the theorems apply, and what does not hold *)
(** a robot whose first variable has one notation, as in tests/matching_test_log *)
Definition ex_nodes : list (list string) := [["d_1"]; ["th_2s1"; "th_2s2"]; ["th_3s1"; "th_3s2"]; ["th_4s1"; "th_4s2"]].
Definition ex_cs : list (list string) := [["d_1"; "th_2s1"; "th_4s1"]; ["d_1"; "th_2s2"; "th_4s2"]; ["d_1"; "th_2s1"; "th_3s1"]; ["d_1"; "th_2s2"; "th_3s2"]].
Definition as_is (l : list string) : list string := l.
Lemma as_is_listing : listing as_is. Proof. intros l. apply Permutation_refl. Qed.
Lemma rev_listing : listing (@rev string). Proof. intros l. apply Permutation_rev. Qed.
(** decidable versions of the hypotheses *)
Definition consistent_b (nodes : list (list string)) (g : list string) : bool :=
  forallb (fun n => forallb (fun x => forallb (fun y => negb (mem x n && mem y n) || String.eqb x y) g) g) nodes.
Lemma consistent_b_ok nodes g : consistent_b nodes g = true -> consistent nodes g.
Proof.
  unfold consistent_b. intros H x y n Hn Hx Hy Nx Ny. rewrite forallb_forall in H. assert (A := H n Hn). rewrite forallb_forall in A. assert (B := A x Hx). rewrite forallb_forall in B. assert (C := B y Hy).
  apply mem_in in Nx, Ny. rewrite Nx, Ny in C. cbn in C. apply String.eqb_eq; auto.
Qed.
Example C63_poses_example : exists g, In g (matching_func as_is ex_cs ex_nodes) /\ pose ex_nodes g.
Proof.
  exists ["d_1"; "th_2s1"; "th_3s1"; "th_4s1"]. assert (I : In ["d_1"; "th_2s1"; "th_3s1"; "th_4s1"] (matching_func as_is ex_cs ex_nodes)) by (vm_compute; auto). split; [exact I|].
  assert (Hyp : forall h, In h ex_cs -> In "d_1" h /\ consistent ex_nodes h).
  { intros h Hh. assert (X : forallb (fun h => mem "d_1" h && consistent_b ex_nodes h) ex_cs = true) by (vm_compute; reflexivity). rewrite forallb_forall in X.
    apply X, andb_true_iff in Hh as (A & B). split. apply mem_in; exact A. apply consistent_b_ok; exact B. }
  destruct (C63_poses as_is ex_cs ex_nodes "d_1" ["d_1"] _ as_is_listing eq_refl (or_introl eq_refl) Hyp I) as [(L & _)|P].
  - exfalso. destruct L as (L & _). vm_compute in L. repeat (destruct L as [L|L]; [discriminate|]). destruct L.
  - exact P.
Qed.
(** the two poses of this robot *)
Example C63_example_value : matching_func as_is ex_cs ex_nodes = [["d_1"; "th_2s1"; "th_3s1"; "th_4s1"]; ["d_1"; "th_2s2"; "th_3s2"; "th_4s2"]].
Proof. vm_compute. reflexivity. Qed.
(** a group may name two values of the first variable: the check for conflicts starts at the second node *)
Theorem C63_first_node_conflict_refuted : exists cs nodes g, disjoint_nodes nodes /\ (forall h, In h cs -> consistent nodes h) /\ In g (matching_func as_is cs nodes) /\ ~ consistent nodes g.
Proof.
  exists [["th_1s1"; "th_2s1"; "th_3s1"]; ["th_1s2"; "th_2s1"; "th_4s1"]], [["th_1s1"; "th_1s2"]; ["th_2s1"]; ["th_3s1"]; ["th_4s1"]], ["th_1s1"; "th_1s2"; "th_2s1"; "th_3s1"; "th_4s1"].
  split; [|split; [|split]].
  - intros i j x Hi Hj. assert (U : forall i, In x (nth i [["th_1s1"; "th_1s2"]; ["th_2s1"]; ["th_3s1"]; ["th_4s1"]] []) -> (x = "th_1s1" \/ x = "th_1s2") /\ i = 0 \/ x = "th_2s1" /\ i = 1 \/ x = "th_3s1" /\ i = 2 \/ x = "th_4s1" /\ i = 3).
    { clear. intros i H. destruct i as [|[|[|[|i]]]]; cbn in H; try (destruct H as [<-|[<-|[]]]; tauto); try (destruct H as [<-|[]]; tauto). destruct i; destruct H. }
    apply U in Hi, Hj. intuition (subst; try discriminate; auto).
  - intros h Hh. apply consistent_b_ok. repeat (destruct Hh as [<-|Hh]; [reflexivity|]). destruct Hh.
  - vm_compute. auto.
  - intros C. assert (X : "th_1s1" = "th_1s2") by (apply (C "th_1s1" "th_1s2" ["th_1s1"; "th_1s2"]); cbn; auto). discriminate.
Qed.
(** nor is this avoided when the first variable has one notation: the record of what the group already has is stale after a list without common elements was merged *)
Theorem C63_stale_conflict_refuted : exists cs nodes g, hd_error nodes = Some ["d_1"] /\ (forall h, In h cs -> consistent nodes h) /\ In g (matching_func as_is cs nodes) /\ ~ consistent nodes g.
Proof.
  exists [["d_1"; "th_2s1"]; ["th_4s1"; "th_3s1"]; ["th_3s2"; "th_5s1"]], [["d_1"]; ["th_2s1"]; ["th_3s1"; "th_3s2"]; ["th_4s1"]; ["th_5s1"]], ["d_1"; "th_2s1"; "th_3s1"; "th_3s2"; "th_4s1"; "th_5s1"].
  split; [|split; [|split]].
  - reflexivity.
  - intros h Hh. apply consistent_b_ok. repeat (destruct Hh as [<-|Hh]; [reflexivity|]). destruct Hh.
  - vm_compute. auto.
  - intros C. assert (X : "th_3s1" = "th_3s2") by (apply (C "th_3s1" "th_3s2" ["th_3s1"; "th_3s2"]); cbn; auto). discriminate.
Qed.
(** the groups then depend on the hash seed *)
Theorem C63_hash_seed_refuted : exists cs nodes, (forall h, In h cs -> consistent nodes h) /\ ~ (forall g, In g (matching_func as_is cs nodes) <-> In g (matching_func (@rev string) cs nodes)).
Proof.
  exists [["th_1s1"; "th_2s1"; "th_3s1"; "th_5s1"]; ["th_1s2"; "th_2s1"; "th_4s1"]], [["th_1s1"; "th_1s2"]; ["th_2s1"]; ["th_3s1"]; ["th_4s1"]; ["th_5s1"]]. split.
  - intros h Hh. apply consistent_b_ok. repeat (destruct Hh as [<-|Hh]; [reflexivity|]). destruct Hh.
  - intros H. assert (X : In ["th_1s1"; "th_1s2"; "th_2s1"; "th_3s1"; "th_4s1"; "th_5s1"] (matching_func (@rev string) [["th_1s1"; "th_2s1"; "th_3s1"; "th_5s1"]; ["th_1s2"; "th_2s1"; "th_4s1"]] [["th_1s1"; "th_1s2"]; ["th_2s1"]; ["th_3s1"]; ["th_4s1"]; ["th_5s1"]])).
    { refine (proj1 (H _) _). vm_compute. auto. } vm_compute in X. repeat (destruct X as [X|X]; [discriminate|]). destruct X.
Qed.
(** poses are missed: four poses can be read off these lists, which meet in the notation of the first variable only, and no group is returned *)
Theorem C63_poses_missed_refuted : exists cs nodes, (forall h, In h cs -> In "d_1" h /\ consistent nodes h) /\
  (exists a b, In a cs /\ In b cs /\ consistent nodes (a ++ b) /\ forall n, In n nodes -> exists x, In x (a ++ b) /\ In x n) /\ forall ord, matching_func ord cs nodes = [].
Proof.
  exists [["d_1"; "th_2s1"]; ["d_1"; "th_2s2"]; ["d_1"; "th_3s1"]; ["d_1"; "th_3s2"]], [["d_1"]; ["th_2s1"; "th_2s2"]; ["th_3s1"; "th_3s2"]]. split; [|split].
  - intros h Hh. split. repeat (destruct Hh as [<-|Hh]; [cbn; auto|]); destruct Hh. apply consistent_b_ok. repeat (destruct Hh as [<-|Hh]; [reflexivity|]). destruct Hh.
  - exists ["d_1"; "th_2s1"], ["d_1"; "th_3s1"]. split; [cbn; auto|]. split; [cbn; auto|]. split. apply consistent_b_ok. reflexivity.
    intros n [<-|[<-|[<-|[]]]]; [exists "d_1"|exists "th_2s1"|exists "th_3s1"]; split; cbn; auto 10.
  - intros ord. vm_compute. reflexivity.
Qed.
(** a longest list with as many elements as nodes is returned as it is, even when it names one variable twice and another not at all *)
Theorem C63_early_return_refuted : exists cs nodes g, In g (matching_func as_is cs nodes) /\ ~ covers nodes g.
Proof.
  exists [["th_1s1"; "th_1s2"]], [["th_1s1"; "th_1s2"]; ["th_2s1"]], ["th_1s1"; "th_1s2"]. split. vm_compute; auto.
  intros (bl & E & F). inversion F as [|b1 n1 bs ns (N1 & B1) F1 E1]; subst. inversion F1 as [|b2 n2 bs2 ns2 (N2 & B2) F2 E2]; subst. inversion F2; subst.
  cbn in E. rewrite app_nil_r in E. destruct b2 as [|x t]; [auto|]. assert (X := B2 x (or_introl eq_refl)). cbn in X. destruct X as [<-|[]].
  assert (Y : In "th_2s1" (b1 ++ "th_2s1" :: t)) by (apply in_or_app; cbn; auto). rewrite <- E in Y. cbn in Y. destruct Y as [Y|[Y|[]]]; discriminate.
Qed.
