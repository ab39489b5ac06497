From stdpp Require Import base strings list.
From Coq Require Import Lia.
From Verif Require Import TreeIO.

Fixpoint pnode_ind' (P : pnode -> Prop)
  (H : forall c ca i t d p ks, Forall P ks -> P (PN c ca i t d p ks)) (n : pnode) : P n :=
  match n with
  | PN c ca i t d p ks => H c ca i t d p ks
      ((fix go l : Forall P l := match l with [] => Forall_nil_2 P | x :: l' => Forall_cons_2 P x l' (pnode_ind' P H x) (go l') end) ks)
  end.

(** all nodes, in the order dump visits them *)
Fixpoint pnodes (n : pnode) : list pnode :=
  match n with PN _ _ _ _ _ _ ks => n :: concat (map pnodes ks) end.
Definition pids (n : pnode) : list string := map p_id (pnodes n).

(** A tree whose nodes dump and load can handle. *)
Definition shape_ok (n : pnode) : bool :=
  match p_cat n with
  | COMPOSITE => true
  | DECORATOR => bool_decide (length (p_kids n) = 1)
  | _ => bool_decide (p_kids n = [])
  end.
Definition tree_ok (n : pnode) : bool := forallb shape_ok (pnodes n).

Definition spec_of (n : pnode) : spec :=
  let sp ch c := Spec (p_id n) (p_cls n) (p_title n) (p_desc n) (p_props n) ch c in
  match p_cat n with
  | COMPOSITE => sp (Some (map p_id (rev (p_kids n)))) None
  | DECORATOR => sp None (match p_kids n with c :: _ => Some (p_id c) | [] => None end)
  | _ => sp None None
  end.
Definition fill (l : list pnode) (d : list (string * spec)) : list (string * spec) :=
  fold_left (fun d n => dict_set d (p_id n) (spec_of n)) l d.

Section F.
  Context (in_b3 : string -> bool).
  Definition add_custom (l : list pnode) cu := fold_left (fun cu n =>
    if in_b3 (p_cls n) || bool_decide (p_cls n ∈ map (fun x => fst (fst x)) cu) then cu
    else cu ++ [(p_cls n, p_title n, p_cat n)]) l cu.

  Definition ssize (l : list pnode) := foldr (fun c z => psize c + z) 0 l.
  Lemma ssize_app a b : ssize (a ++ b) = ssize a + ssize b.
  Proof. unfold ssize. induction a; simpl; lia. Qed.
  Lemma psize_ssize n : psize n = S (ssize (p_kids n)).
  Proof. destruct n. reflexivity. Qed.

  Lemma dump_loop_ok fuel : forall stack d cu,
    ssize stack <= fuel -> forallb tree_ok stack = true ->
    dump_loop in_b3 fuel stack d cu = OK (fill (concat (map pnodes stack)) d, add_custom (concat (map pnodes stack)) cu).
  Proof.
    induction fuel as [|f IH]; intros stack d cu Hs Hok.
    - destruct stack as [|n st]; [reflexivity|]. simpl in Hs. rewrite psize_ssize in Hs. lia.
    - destruct stack as [|n st]; [reflexivity|]. cbn [dump_loop].
      simpl in Hs. rewrite psize_ssize in Hs. simpl in Hok. apply andb_true_iff in Hok. destruct Hok as [Hn Hst].
      unfold tree_ok in Hn.
      assert (E : pnodes n = n :: concat (map pnodes (p_kids n))) by (destruct n; reflexivity).
      rewrite E in Hn. simpl in Hn. apply andb_true_iff in Hn. destruct Hn as [Hsh Hk].
      assert (Hkids : forallb tree_ok (p_kids n) = true).
      { clear -Hk. induction (p_kids n) as [|c l IHl]; [reflexivity|]. simpl in *. rewrite forallb_app in Hk.
        apply andb_true_iff in Hk. destruct Hk as [H1 H2]. unfold tree_ok at 1. rewrite H1. simpl. auto. }
      cbn [map concat]. rewrite E. cbn [app]. unfold fill, add_custom. cbn [fold_left].
      fold (fill (concat (map pnodes (p_kids n)) ++ concat (map pnodes st)) (dict_set d (p_id n) (spec_of n))).
      unfold shape_ok in Hsh. unfold spec_of.
      destruct (p_cat n) eqn:Ec.
      + rewrite IH.
        * rewrite map_app, concat_app. reflexivity.
        * rewrite ssize_app. unfold ssize in *. lia.
        * rewrite forallb_app, Hkids, Hst. reflexivity.
      + apply bool_decide_eq_true in Hsh. destruct (p_kids n) as [|c [|]] eqn:Ek; try discriminate.
        rewrite IH.
        * simpl. rewrite app_nil_r. reflexivity.
        * unfold ssize in *. simpl in *. lia.
        * simpl in *. rewrite andb_true_r in Hkids. rewrite Hkids, Hst. reflexivity.
      + apply bool_decide_eq_true in Hsh. rewrite Hsh in *. rewrite IH; auto; simpl in Hs; unfold ssize in *; lia.
      + apply bool_decide_eq_true in Hsh. rewrite Hsh in *. rewrite IH; auto; simpl in Hs; unfold ssize in *; lia.
  Qed.

  Lemma dict_get_set {A} (d : list (string * A)) k v k' :
    dict_get (dict_set d k v) k' = if decide (k = k') then Some v else dict_get d k'.
  Proof.
    induction d as [|[k1 v1] d IH]; simpl.
    - reflexivity.
    - destruct (decide (k1 = k)) as [->|Hne]; simpl.
      + destruct (decide (k = k')); reflexivity.
      + rewrite IH. destruct (decide (k1 = k')) as [->|]; [rewrite decide_False by congruence|]; reflexivity.
  Qed.
  Lemma fill_fresh l d : NoDup (map p_id l) -> (forall n, n ∈ l -> p_id n ∉ map fst d) ->
    fill l d = d ++ map (fun n => (p_id n, spec_of n)) l.
  Proof.
    revert d. induction l as [|n l IH]; intros d Hn Hd; [rewrite app_nil_r; reflexivity|].
    simpl in Hn. apply NoDup_cons in Hn. destruct Hn as [Hn1 Hn2].
    assert (E : dict_set d (p_id n) (spec_of n) = d ++ [(p_id n, spec_of n)]).
    { assert (p_id n ∉ map fst d) as Hx by (apply Hd; left). clear -Hx.
      induction d as [|[k v] d IHd]; [reflexivity|]. simpl in *. apply not_elem_of_cons in Hx. destruct Hx as [H1 H2].
      rewrite decide_False by congruence. rewrite IHd; auto. }
    unfold fill. cbn [fold_left]. fold (fill l (dict_set d (p_id n) (spec_of n))). rewrite E, IH; auto.
    - rewrite <- app_assoc. reflexivity.
    - intros m Hm. rewrite map_app. rewrite not_elem_of_app. split; [apply Hd; right; auto|]. simpl.
      intros Hin. apply elem_of_list_singleton in Hin. apply Hn1. rewrite <- Hin. apply elem_of_list_fmap_1. auto.
  Qed.

  Definition shown (l : list pnode) := map (fun n => (p_id n, spec_of n)) l.

  Lemma dump_ok n : tree_ok n = true -> NoDup (pids n) ->
    dump in_b3 (Some n) = OK (Data (Some (p_id n)) (shown (pnodes n)) (add_custom (pnodes n) [])).
  Proof.
    intros Hok Hn. unfold dump. rewrite dump_loop_ok; simpl.
    - rewrite app_nil_r. rewrite fill_fresh; auto. intros m _ H. inversion H.
    - unfold ssize. simpl. lia.
    - rewrite Hok. reflexivity.
  Qed.

  Context (cls_of : string -> option clsinfo) (fresh : string -> string).
  (** The class of the node exists, takes no constructor arguments, and the texts survive the
      [x or default] idiom. *)
  Definition loadable (n : pnode) : bool :=
    match cls_of (p_cls n) with
    | None => false
    | Some ci => ci_nullary ci && bool_decide (ci_cat ci = p_cat n) && bool_decide (p_id n <> "") &&
                 (bool_decide (p_title n <> "") || bool_decide (ci_title ci = "")) &&
                 (bool_decide (p_desc n <> "") || bool_decide (ci_desc ci = ""))
    end.
  Definition obj0 (n : pnode) := LObj (p_cls n) (p_cat n) (p_id n) (p_title n) (p_desc n) (p_props n) [].
  Definition kids_of (n : pnode) : list string :=
    match p_cat n with
    | COMPOSITE => map p_id (rev (p_kids n))
    | DECORATOR => map p_id (p_kids n)
    | _ => []
    end.
  Definition obj (n : pnode) := LObj (p_cls n) (p_cat n) (p_id n) (p_title n) (p_desc n) (p_props n) (kids_of n).

  Lemma or_str_id a b : (a <> "" \/ b = "") -> or_str a b = a.
  Proof. unfold or_str. destruct (decide (a = "")) as [->|]; [intros [|]; congruence|auto]. Qed.

  Lemma load1_ok n : loadable n = true -> load1 cls_of fresh (p_id n, spec_of n) = OK (p_id n, obj0 n).
  Proof.
    unfold loadable, load1. assert (E : sp_name (spec_of n) = p_cls n /\ sp_id (spec_of n) = p_id n /\ sp_title (spec_of n) = p_title n
      /\ sp_desc (spec_of n) = p_desc n /\ sp_props (spec_of n) = p_props n).
    { unfold spec_of. destruct (p_cat n); auto 10. }
    destruct E as (-> & -> & -> & -> & ->).
    destruct (cls_of (p_cls n)) as [ci|]; [|discriminate].
    rewrite !andb_true_iff, !orb_true_iff, !bool_decide_eq_true. intros ((((H1 & H2) & H3) & H4) & H5). rewrite H1.
    rewrite !or_str_id by tauto. unfold obj0. rewrite H2. reflexivity.
  Qed.
  Lemma mapR_ok {A B} (f : A -> res B) g l : (forall a, a ∈ l -> f a = OK (g a)) -> mapR f l = OK (map g l).
  Proof.
    induction l as [|a l IH]; intros H; [reflexivity|]. simpl. rewrite H by left. rewrite IH; [reflexivity|].
    intros. apply H. right. auto.
  Qed.
  Lemma dict_get_shown {A} (g : pnode -> A) l n : NoDup (map p_id l) -> n ∈ l -> dict_get (map (fun n => (p_id n, g n)) l) (p_id n) = Some (g n).
  Proof.
    induction l as [|m l IH]; intros Hn Hin; [inversion Hin|]. simpl in *. apply NoDup_cons in Hn. destruct Hn as [H1 H2].
    apply elem_of_cons in Hin. destruct Hin as [->|Hin]; [rewrite decide_True; auto|].
    rewrite decide_False; [auto|]. intros E. apply H1. rewrite E. apply elem_of_list_fmap_1. auto.
  Qed.
  Lemma pnodes_self n : n ∈ pnodes n.
  Proof. destruct n. left. Qed.
  Lemma pnodes_kid n m c : m ∈ pnodes n -> c ∈ p_kids m -> c ∈ pnodes n.
  Proof.
    induction n as [cl ca i t d p ks IH] using pnode_ind'. cbn [pnodes]. rewrite !elem_of_cons.
    intros [->|Hm] Hc.
    - right. apply elem_of_list_In, in_concat. exists (pnodes c). split; [apply in_map; apply elem_of_list_In; auto|].
      apply elem_of_list_In, pnodes_self.
    - right. apply elem_of_list_In, in_concat in Hm. destruct Hm as (l & Hl & Hm). apply in_map_iff in Hl.
      destruct Hl as (x & <- & Hx). rewrite Forall_forall in IH.
      apply elem_of_list_In, in_concat. exists (pnodes x). split; [apply in_map; auto|].
      apply elem_of_list_In. apply IH; auto; apply elem_of_list_In; auto.
  Qed.

  Lemma load_ok n cu :
    tree_ok n = true -> NoDup (pids n) -> forallb loadable (pnodes n) = true ->
    load cls_of fresh (Data (Some (p_id n)) (shown (pnodes n)) cu) = OK (map (fun n => (p_id n, obj n)) (pnodes n), Some (p_id n)).
  Proof.
    intros Hok Hn Hl. unfold load. cbn [d_nodes d_root]. unfold tree_ok in Hok. rewrite forallb_forall in Hok, Hl.
    assert (E1 : mapR (load1 cls_of fresh) (shown (pnodes n)) = OK (map (fun n => (p_id n, obj0 n)) (pnodes n))).
    { unfold shown. transitivity (mapR (fun m => load1 cls_of fresh (p_id m, spec_of m)) (pnodes n)).
      - generalize (pnodes n) as l. induction l as [|m l IH]; [reflexivity|]. cbn [map mapR]. rewrite IH. reflexivity.
      - apply mapR_ok. intros m Hm. apply load1_ok, Hl, elem_of_list_In. auto. }
    rewrite E1. set (os := map (fun n => (p_id n, obj0 n)) (pnodes n)).
    assert (E2 : mapR (fun p => load2 os (fst p) (snd p)) (zip (shown (pnodes n)) os) = OK (map (fun n => (p_id n, obj n)) (pnodes n))).
    { transitivity (mapR (fun m => load2 os (p_id m, spec_of m) (p_id m, obj0 m)) (pnodes n)).
      - unfold shown, os at 2. generalize (pnodes n) as l. induction l as [|m l IH]; [reflexivity|]. simpl. simpl in IH. rewrite IH. reflexivity.
      - apply mapR_ok. intros m Hm.
        assert (Hk : forall ks, (forall c, c ∈ ks -> c ∈ p_kids m) -> forallb (fun c => bool_decide (is_Some (dict_get os c))) (map p_id ks) = true).
        { intros ks Hks. apply forallb_forall. intros x Hx. apply in_map_iff in Hx. destruct Hx as (c & <- & Hc).
          apply bool_decide_eq_true. unfold os. rewrite dict_get_shown; eauto. eapply pnodes_kid; eauto. apply Hks, elem_of_list_In; auto. }
        assert (Hsh := Hok m (proj1 (elem_of_list_In _ _) Hm)). unfold shape_ok in Hsh.
        unfold load2, obj, obj0, spec_of, kids_of. cbn [lo_cat lo_cls lo_id lo_title lo_desc lo_props]. destruct (p_cat m) eqn:Ec; cbn [sp_children sp_child].
        + rewrite Hk; [reflexivity|]. intros c Hc. apply elem_of_list_In, in_rev. apply elem_of_list_In. exact Hc.
        + apply bool_decide_eq_true in Hsh. destruct (p_kids m) as [|c [|]] eqn:Ek; try discriminate. cbn [map].
          change [p_id c] with (map p_id [c]). rewrite Hk; [reflexivity|]. auto.
        + reflexivity.
        + reflexivity. }
    rewrite E2. rewrite decide_False.
    - rewrite decide_True; [reflexivity|]. rewrite dict_get_shown; eauto. apply pnodes_self.
    - intros E. specialize (Hl n (proj1 (elem_of_list_In _ _) (pnodes_self n))). unfold loadable in Hl.
      destruct (cls_of (p_cls n)); [|discriminate]. rewrite E in Hl. rewrite !andb_true_iff, !bool_decide_eq_true in Hl. tauto.
  Qed.

  Lemma mirror_ids n : p_id (mirror n) = p_id n.
  Proof. destruct n; reflexivity. Qed.
  Lemma mirror_mirror n : mirror (mirror n) = n.
  Proof.
    induction n as [c ca i t d p ks IH] using pnode_ind'. cbn [mirror]. f_equal.
    rewrite map_rev, rev_involutive, map_map. induction IH as [|x l Hx Hl IHl]; [reflexivity|]. simpl. rewrite Hx, IHl. reflexivity.
  Qed.
  Lemma repr_ok root n : tree_ok root = true -> NoDup (pids root) -> n ∈ pnodes root ->
    repr (map (fun n => (p_id n, obj n)) (pnodes root)) (p_id n) (mirror n).
  Proof.
    intros Hok Hn. unfold tree_ok in Hok. rewrite forallb_forall in Hok. induction n as [c ca i t d p ks IH] using pnode_ind'. intros Hin.
    set (g := map (fun n => (p_id n, obj n)) (pnodes root)).
    assert (Hg : dict_get g i = Some (obj (PN c ca i t d p ks))).
    { change i with (p_id (PN c ca i t d p ks)). unfold g. apply (dict_get_shown obj); auto. }
    assert (Hks : Forall2 (repr g) (kids_of (PN c ca i t d p ks)) (rev (map mirror ks))).
    { assert (HF : Forall2 (repr g) (map p_id ks) (map mirror ks)).
      { rewrite Forall2_fmap. apply Forall_Forall2_diag. rewrite Forall_forall in IH |- *. intros x Hx. apply IH; auto.
        eapply pnodes_kid; eauto. }
      specialize (Hok _ (proj1 (elem_of_list_In _ _) Hin)). unfold shape_ok, kids_of in *. simpl in *. destruct ca.
      - rewrite map_rev. clear -HF. induction HF; simpl; [constructor|]. apply Forall2_app; auto.
      - apply bool_decide_eq_true in Hok. destruct ks as [|x [|]]; try discriminate. exact HF.
      - apply bool_decide_eq_true in Hok. subst. constructor.
      - apply bool_decide_eq_true in Hok. subst. constructor. }
    exact (repr_node g i (obj (PN c ca i t d p ks)) _ Hg Hks).
  Qed.
  Lemma repr_fun g n : forall k n', repr g k n -> repr g k n' -> n' = n.
  Proof.
    induction n as [c ca i t d p ks IH] using pnode_ind'. intros k n' H1 H2. inversion H1 as [k0 o ks1 Hg HF]; subst.
    inversion H2 as [k1 o' ks2 Hg' HF']; subst. rewrite Hg in Hg'. inversion Hg'; subst. f_equal.
    clear -IH HF HF'. revert ks2 HF'. induction HF as [|x y l l' Hx Hl IHl]; intros ks2 HF'; inversion HF'; subst; [reflexivity|].
    apply Forall_cons in IH. destruct IH as [IH1 IH2]. f_equal; [eapply IH1; eauto|]. apply IHl; auto.
  Qed.

  Lemma roundtrip n :
    tree_ok n = true -> NoDup (pids n) -> forallb loadable (pnodes n) = true ->
    exists d g, dump in_b3 (Some n) = OK d /\ load cls_of fresh d = OK (g, Some (p_id n)) /\
      forall t, repr g (p_id n) t <-> t = mirror n.
  Proof.
    intros H1 H2 H3. eexists _, _. split; [apply dump_ok; auto|]. split; [apply load_ok; auto|].
    intros t. assert (HR := repr_ok n n H1 H2 (pnodes_self n)). split; [|intros ->; auto].
    intros Ht. eapply repr_fun; eauto.
  Qed.

  (** mirror preserves the hypotheses *)
  Lemma mirror_pnodes n : Permutation (pnodes (mirror n)) (map mirror (pnodes n)).
  Proof.
    induction n as [c ca i t d p ks IH] using pnode_ind'. cbn [mirror pnodes map].
    apply perm_skip. rewrite map_rev, concat_map, map_map, map_map.
    transitivity (concat (map (fun x => pnodes (mirror x)) ks)).
    - generalize (map (fun x => pnodes (mirror x)) ks) as l. intros l. induction l as [|x l IHl]; simpl; [constructor|].
      rewrite concat_app. simpl. rewrite app_nil_r, IHl. apply Permutation_app_comm.
    - induction IH as [|x l Hx Hl IHl]; simpl; [constructor|]. apply Permutation_app; auto.
  Qed.
  Lemma mirror_ok n : tree_ok n = true -> NoDup (pids n) -> forallb loadable (pnodes n) = true ->
    tree_ok (mirror n) = true /\ NoDup (pids (mirror n)) /\ forallb loadable (pnodes (mirror n)) = true.
  Proof.
    intros H1 H2 H3. pose proof (mirror_pnodes n) as HP.
    assert (HF : forall f, (forall m, f (mirror m) = f m) -> forallb f (pnodes n) = true -> forallb f (pnodes (mirror n)) = true).
    { intros f Hf Hx. rewrite forallb_forall in Hx |- *. intros x Hin. eapply Permutation_in in Hin; [|exact HP].
      apply in_map_iff in Hin. destruct Hin as (y & <- & Hy). rewrite Hf. auto. }
    split; [|split].
    - apply HF; auto. intros [c ca i t d p ks]. unfold shape_ok. simpl. destruct ca; auto.
      + rewrite rev_length, map_length. reflexivity.
      + apply bool_decide_ext. destruct ks as [|a l]; simpl; [tauto|]. split; [|discriminate]. destruct (rev (map mirror l)); discriminate.
      + apply bool_decide_ext. destruct ks as [|a l]; simpl; [tauto|]. split; [|discriminate]. destruct (rev (map mirror l)); discriminate.
    - unfold pids. rewrite HP, map_map. erewrite map_ext; [exact H2|]. intros m. apply mirror_ids.
    - apply HF; auto. intros []. reflexivity.
  Qed.
  Lemma roundtrip_twice n :
    tree_ok n = true -> NoDup (pids n) -> forallb loadable (pnodes n) = true ->
    exists d1 g1 t1 d2 g2, dump in_b3 (Some n) = OK d1 /\ load cls_of fresh d1 = OK (g1, Some (p_id n)) /\ repr g1 (p_id n) t1 /\
      dump in_b3 (Some t1) = OK d2 /\ load cls_of fresh d2 = OK (g2, Some (p_id n)) /\ forall t, repr g2 (p_id n) t <-> t = n.
  Proof.
    intros H1 H2 H3. destruct (roundtrip n H1 H2 H3) as (d1 & g1 & A1 & A2 & A3).
    destruct (mirror_ok n H1 H2 H3) as (B1 & B2 & B3).
    destruct (roundtrip (mirror n) B1 B2 B3) as (d2 & g2 & C1 & C2 & C3). rewrite mirror_ids, mirror_mirror in *.
    exists d1, g1, (mirror n), d2, g2. repeat split; auto; [apply A3; auto|apply C3..].
  Qed.

  (** unknown classes and constructors with required arguments *)
  Lemma mapR_err {A B} (f : A -> res B) l a e : (forall x, x ∈ l -> f x = Err e \/ exists y, f x = OK y) -> a ∈ l -> f a = Err e -> mapR f l = Err e.
  Proof.
    intros H. induction l as [|x l IH]; intros Hin Ha; [inversion Hin|]. simpl.
    destruct (H x) as [->|(y & Hy)]; [left|reflexivity|]. rewrite Hy.
    apply elem_of_cons in Hin. destruct Hin as [->|Hin]; [congruence|]. rewrite IH; auto. intros. apply H. right. auto.
  Qed.
  Lemma load_required_args n m ci :
    tree_ok n = true -> NoDup (pids n) -> m ∈ pnodes n -> cls_of (p_cls m) = Some ci -> ci_nullary ci = false ->
    (forall x, x ∈ pnodes n -> cls_of (p_cls x) <> None) ->
    exists d, dump in_b3 (Some n) = OK d /\ load cls_of fresh d = Err IOType.
  Proof.
    intros H1 H2 Hm Hc Hnul Hall. eexists. split; [apply dump_ok; auto|]. unfold load. cbn [d_nodes].
    assert (En : forall x, sp_name (spec_of x) = p_cls x) by (intros x; unfold spec_of; destruct (p_cat x); reflexivity).
    rewrite (mapR_err _ _ (p_id m, spec_of m) IOType); [reflexivity| | |].
    - intros e He. unfold shown in He. apply elem_of_list_fmap in He. destruct He as (x & -> & Hx).
      unfold load1. rewrite En. specialize (Hall x Hx). destruct (cls_of (p_cls x)) as [cx|]; [|congruence]. destruct (ci_nullary cx); eauto.
    - unfold shown. apply elem_of_list_fmap. eauto.
    - unfold load1. rewrite En, Hc, Hnul. reflexivity.
  Qed.
  Lemma dump_childless fuel n rest d cu : p_cat n = DECORATOR -> p_kids n = [] -> dump_loop in_b3 (S fuel) (n :: rest) d cu = Err IOAttr.
  Proof. intros H1 H2. cbn [dump_loop]. rewrite H1, H2. reflexivity. Qed.

  Lemma add_custom_nodup l cu : NoDup (map (fun x => fst (fst x)) cu) -> NoDup (map (fun x => fst (fst x)) (add_custom l cu)).
  Proof.
    revert cu. induction l as [|n l IH]; intros cu H; [exact H|]. unfold add_custom. cbn [fold_left]. apply IH.
    destruct (in_b3 (p_cls n)); [exact H|]. cbn [orb]. destruct (bool_decide _) eqn:E; [exact H|].
    apply bool_decide_eq_false in E. rewrite map_app. apply NoDup_app. repeat split; auto.
    - intros x Hx. simpl. rewrite elem_of_list_singleton. intros ->. auto.
    - simpl. apply NoDup_singleton.
  Qed.
  Lemma add_custom_all l cu n : n ∈ l -> in_b3 (p_cls n) = false -> p_cls n ∈ map (fun x => fst (fst x)) (add_custom l cu).
  Proof.
    assert (Hmono : forall l cu x, x ∈ map (fun x => fst (fst x)) cu -> x ∈ map (fun x => fst (fst x)) (add_custom l cu)).
    { clear. induction l as [|m l IH]; intros cu x Hx; [exact Hx|]. unfold add_custom. cbn [fold_left]. apply IH.
      destruct (_ || _); [auto|]. rewrite map_app, elem_of_app. auto. }
    revert cu. induction l as [|m l IH]; intros cu Hin Hb; [inversion Hin|]. apply elem_of_cons in Hin.
    unfold add_custom. cbn [fold_left]. destruct Hin as [->|Hin]; [|apply IH; auto].
    apply Hmono. rewrite Hb. cbn [orb]. destruct (bool_decide _) eqn:E.
    - apply bool_decide_eq_true in E. exact E.
    - rewrite map_app, elem_of_app. right. left.
  Qed.
End F.
