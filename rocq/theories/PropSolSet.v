(** C42, C43, C52: the table of solutions and the version equations. *)
From Coq Require Import Reals ZArith List String Ascii Bool Arith Lia Permutation DecimalString.
From Verif Require Import Expr Kin Solver SolverSpec HistFacts PropHist SolSet SolSetFacts.
Import ListNotations.
Local Open Scope string_scope.
Local Open Scope list_scope.
Local Open Scope nat_scope.

(** * What the solver hands over *)
(** Every node has its solutions counted and no version names yet; the first one's version names are its solution names
    name+'s'+1 ... name+'s'+nsolutions. *)
Definition sname (name : string) (k : nat) : string := append name (append "s" (str_of_nat k)).
Definition node_ok (n : node) : Prop := 1 <= n_nsol n /\ n_nsol n = List.length (n_sols n) /\ n_lhs n = [].
Definition handed_over (nodes : list node) : Prop :=
  (forall n, In n nodes -> node_ok n)
  /\ exists n0 ns, nodes = n0 :: ns /\ n_vers n0 = map (fun k => sname (n_name n0) (S k)) (seq 0 (n_nsol n0)).

(** Every history of the solver in which something was solved hands over such a list (if the first solved unknown does
    not occur in its own solution), with one or two solutions each and the unknowns' names in solve order. *)
Theorem C42_reachable sy s0 ts s arg i l : initial sy s0 -> runs1 sy s0 ts s -> s_nodes s = i :: l -> ~ mentions s i i ->
  handed_over (final_nodes arg s)
  /\ (forall n, In n (final_nodes arg s) -> n_nsol n = 1 \/ n_nsol n = 2)
  /\ map n_order (final_nodes arg s) = seq 1 (List.length (final_nodes arg s))
  /\ (NoDup (map (fun j => u_sym (un s j)) (s_unks s)) -> NoDup (map n_name (final_nodes arg s))).
Proof.
  intros I R En Ms. destruct (C23_solved_once_in_order sy s0 ts s I R) as (N1 & N2 & N3 & N4 & N5).
  assert (V2 := hinv2_runs sy s0 ts s (hinv_initial sy s0 I) (hinv2_initial sy s0 I) R).
  assert (Rc : forall j, In j (s_nodes s) -> u_nsol (un s j) >= 1 /\ recorded s j). { intros j Hj. apply (C24_recorded sy s0 ts s j I R). apply N2. auto. }
  split; [split|split; [|split]].
  - intros n Hn. apply in_map_iff in Hn as (j & <- & Hj). destruct (Rc j Hj) as [G (E & _)]. split; [exact G|]. split; [exact E|]. apply V2.
  - exists (node_of arg s i), (map (node_of arg s) l). unfold final_nodes. rewrite En. split; [reflexivity|].
    destruct (Rc i) as [G (E1 & E2 & _ & _ & E5 & E6 & E7)]. { rewrite En. left; auto. }
    change (n_vers (node_of arg s i)) with (u_vers (un s i)). change (n_name (node_of arg s i)) with (u_sym (un s i)). change (n_nsol (node_of arg s i)) with (u_nsol (un s i)).
    assert (D : u_deps (un s i) = []).
    { destruct (u_deps (un s i)) as [|d ds] eqn:Ed; auto. exfalso. destruct (E5 d) as [Hd Hm]. { rewrite ?Ed. left; auto. }
      destruct (N5 i d) as [->|[_ Lt]]; auto. { rewrite En. left; auto. }
      rewrite En in N4. cbn [map List.length seq] in N4. injection N4 as N4 _. assert (X : In d (s_nodes s)). { destruct (N5 i d) as [->|[? _]]; auto. rewrite En; left; auto. rewrite En; left; auto. }
      assert (Y : In (u_order (un s d)) (map (fun i => u_order (un s i)) (s_nodes s))) by (apply (in_map (fun i => u_order (un s i))); auto).
      assert (Z : map (fun i => u_order (un s i)) (s_nodes s) = seq 1 (List.length (s_nodes s))). { apply (C23_solved_once_in_order sy s0 ts s I R). }
      rewrite Z in Y. apply in_seq in Y. lia. }
    rewrite E7, E6, D, E2. cbn [map fold_right prod]. rewrite Nat.mul_1_r. apply map_ext_in. intros k Hk. apply in_seq in Hk.
    rewrite Nat.mod_small by lia. apply (C24_names_distinct (u_sym (un s i)) (u_nsol (un s i))). lia.
  - intros n Hn. apply in_map_iff in Hn as (j & <- & Hj). apply (C24_one_or_two sy s0 ts s j I R). apply N2. auto.
  - unfold final_nodes. rewrite map_map, map_length. exact N4.
  - intros Nd. unfold final_nodes. rewrite map_map. change (fun x => n_name (node_of arg s x)) with (fun j => u_sym (un s j)).
    assert (Inj : forall a b, In a (s_nodes s) -> In b (s_nodes s) -> u_sym (un s a) = u_sym (un s b) -> a = b).
    { intros a b Ha Hb E. apply N2 in Ha as [Ha _]. apply N2 in Hb as [Hb _]. clear - Nd Ha Hb E. induction (s_unks s) as [|x xs IH]; [destruct Ha|]. cbn [map] in Nd. inversion Nd; subst.
      destruct Ha as [<-|Ha], Hb as [<-|Hb]; auto.
      - exfalso. apply H1. rewrite E. apply (in_map (fun j => u_sym (un s j))). auto.
      - exfalso. apply H1. rewrite <- E. apply (in_map (fun j => u_sym (un s j))). auto. }
    clear - N1 Inj. induction N1 as [|x xs Hx N1 IH]; cbn [map]; constructor.
    + intros X. apply in_map_iff in X as (y & E & Hy). apply Hx. rewrite <- (Inj y x); auto. right; auto. left; auto.
    + apply IH. intros a b Ha Hb. apply Inj; right; auto.
Qed.

(** * C42: the table *)
Lemma ho_fresh n0 ns : handed_over (n0 :: ns) -> Forall fresh_node ns /\ n_vers n0 <> [] /\ NoDup (n_vers n0) /\ List.length (n_vers n0) = n_nsol n0.
Proof.
  intros (H & m0 & ms & E & V). injection E as <- <-. split. { apply Forall_forall. intros n Hn. apply H. right. auto. }
  assert (L : List.length (n_vers n0) = n_nsol n0) by (rewrite V, map_length, seq_length; auto). split. { apply len_ne. rewrite L. apply H. left; auto. }
  split; auto. rewrite V. clear. generalize (n_nsol n0) as k. intros k. assert (G : forall l, NoDup l -> NoDup (map (fun k => sname (n_name n0) (S k)) l)).
  { induction l; cbn [map]; intros N; constructor; inversion N; subst; auto. intros X. apply in_map_iff in X as (j & E & Hj). unfold sname in E. apply append_inj, append_inj, str_of_nat_inj in E. injection E as ->. tauto. }
  apply G. apply seq_NoDup.
Qed.
(** One column per solved unknown, in solve order. *)
Theorem C42_rectangular nodes r : handed_over nodes -> In r (create_solution_set nodes) -> List.length r = List.length nodes.
Proof.
  intros H Hr. destruct (proj2 H) as (n0 & ns & -> & _). destruct (ho_fresh n0 ns H) as (F & V & _). apply In_nth_error in Hr as (k & Hk).
  destruct (create_inv n0 V ns F k r Hk) as (-> & _). auto.
Qed.
(** As many rows as the product of the numbers of solutions, if no unknown after the first has more than two. *)
Theorem C42_row_count nodes : handed_over nodes -> (forall n, In n (tl nodes) -> n_nsol n <= 2) ->
  List.length (create_solution_set nodes) = prod (map n_nsol nodes).
Proof.
  intros H T. destruct (proj2 H) as (n0 & ns & E & _). subst nodes. destruct (ho_fresh n0 ns H) as (F & V & _ & L). rewrite create_len, L by auto. cbn [map prod fold_right]. f_equal.
  cbn [tl] in T. assert (G : forall n, In n ns -> 1 <= n_nsol n) by (intros n Hn; apply (proj1 H); right; auto). clear - T G. unfold prod. induction ns as [|n ns IH]; cbn [map fold_right]; auto.
  rewrite IH; [|intros; apply T; right; auto|intros; apply G; right; auto]. f_equal. specialize (T n (or_introl eq_refl)). specialize (G n (or_introl eq_refl)). destruct (n_nsol n) as [|[|[|k]]]; try lia; auto.
Qed.
(** In general: the first unknown's number of solutions times 2^(n-1) for every further unknown with n solutions. *)
Theorem C42_row_count_general n0 ns : handed_over (n0 :: ns) ->
  List.length (create_solution_set (n0 :: ns)) = n_nsol n0 * prod (map (fun n => 2 ^ (n_nsol n - 1)) ns).
Proof. intros H. destruct (ho_fresh n0 ns H) as (F & V & _ & L). rewrite create_len, L by auto. auto. Qed.
Theorem C42_rows_distinct nodes : handed_over nodes -> NoDup (create_solution_set nodes).
Proof.
  intros H. destruct (proj2 H) as (n0 & ns & E & _). subst nodes. destruct (ho_fresh n0 ns H) as (F & V & N & L).
  destruct (list_eq_dec Nat.eq_dec (map (fun _ => 0) ns) []) as [E|E].
  - destruct ns; [|discriminate]. rewrite create_one. clear - N. induction N; cbn [map]; constructor; auto. intros X. apply in_map_iff in X as (y & E & Hy). congruence.
  - destruct (exists_last (l := ns)) as (ns' & n & ->). { intros ->. auto. }
    apply NoDup_nth_error. intros a b Ha Eab. destruct (nth_error_ex _ a Ha) as (r & Er). rewrite Er in Eab. symmetry in Eab.
    apply Forall_app in F as [_ Fn]. inversion Fn; subst. destruct (create_last n0 V ns' n H2 a r Er) as (r1 & E1). destruct (create_last n0 V ns' n H2 b r Eab) as (r2 & E2).
    rewrite E1 in E2. apply app_inj_tail in E2 as [_ E2]. apply vname_inj in E2. congruence.
Qed.
(** The first column holds solution names of the first unknown; the entry of a later column is the name+'v'+number of
    that unknown, and the row with that number starts with the same names: each row is consistent with the rows its
    names were made for. *)
Theorem C42_consistent n0 ns : handed_over (n0 :: ns) -> let t := create_solution_set (n0 :: ns) in
  forall k r, nth_error t k = Some r ->
    (exists b, b < n_nsol n0 /\ nth_error r 0 = Some (sname (n_name n0) (S b)))
    /\ forall c n, nth_error ns c = Some n -> exists j r', nth_error t j = Some r' /\ nth_error r (S c) = Some (vname (n_name n) (S j)) /\ firstn (S (S c)) r = firstn (S (S c)) r'.
Proof.
  intros H. cbv zeta. intros k r Hr. destruct (ho_fresh n0 ns H) as (F & V & _). destruct (create_inv n0 V ns F k r Hr) as (_ & (v & V1 & V2) & C).
  split; auto. destruct H as (_ & m0 & ms & E & Ev). injection E as <- <-. rewrite Ev in V2. apply in_map_iff in V2 as (b & <- & Hb). apply in_seq in Hb. exists b. split; [lia|auto].
Qed.
(** Dropping the later unknowns from the rows gives exactly the rows for the earlier ones. *)
Theorem C42_restrict n0 ns ns' p : handed_over (n0 :: ns ++ ns') ->
  (exists r, In r (create_solution_set (n0 :: ns ++ ns')) /\ firstn (S (List.length ns)) r = p) <-> In p (create_solution_set (n0 :: ns)).
Proof. intros H. destruct (ho_fresh _ _ H) as (F & V & _). apply create_prefix; auto. Qed.
(** With three solutions the row count is not the product (18 rows instead of 9)... *)
Definition nd (name : string) (k : nat) (sols : list expr) : node :=
  Node name "" (Num 0) 1 (List.length sols) (map (fun k => sname name (S k)) (seq 0 (List.length sols))) sols [].
Theorem C42_row_count_refuted : exists nodes, handed_over nodes /\ List.length (create_solution_set nodes) <> prod (map n_nsol nodes).
Proof.
  exists [nd "th_1" 3 [Num 1; Num 2; Num 3]; nd "th_2" 3 [Num 1; Num 2; Num 3]]. split.
  - split. { intros n [<-|[<-|[]]]; split; cbn; auto. } eexists _, _. split; [reflexivity|]. reflexivity.
  - vm_compute. discriminate.
Qed.

(** * C43: the equations *)
Definition last_nsol (nodes : list node) : nat := match rev nodes with [] => 0 | n :: _ => n_nsol n end.
Definition sub_names (nodes : list node) (r : row) : list (expr * expr) := combine (map (fun n => Sym (n_name n)) nodes) (map Sym r).

Lemma subdict_ok nodes r : List.length r = List.length nodes -> subdict nodes r = Some (sub_names nodes r).
Proof.
  unfold subdict, sub_names, enum. assert (G : forall (ns : list node) (q : row) s full, List.length q = List.length ns -> (forall k, nth_error full (s + k) = nth_error q k) ->
    mapM (fun cn : nat * node => match nth_error full (fst cn) with None => None | Some v => Some (Sym (n_name (snd cn)), Sym v) end) (combine (seq s (List.length ns)) ns) = Some (combine (map (fun n => Sym (n_name n)) ns) (map Sym q))).
  { induction ns as [|n ns IH]; intros [|v q] s full L N; try discriminate; auto. cbn [List.length seq combine mapM map fst snd]. assert (N0 := N 0). rewrite Nat.add_0_r in N0. rewrite N0. cbn [nth_error].
    rewrite (IH q (S s) full); auto. intros k. assert (Nk := N (S k)). cbn [nth_error] in Nk. rewrite <- Nk. f_equal. lia. }
  intros L. apply (G nodes r 0 r); auto.
Qed.
Lemma seq_nth_err s n k : nth_error (seq s n) k = if k <? n then Some (s + k) else None.
Proof.
  destruct (k <? n) eqn:E. { apply Nat.ltb_lt in E. rewrite (nth_error_nth' (seq s n) 0) by (rewrite seq_length; auto). rewrite seq_nth; auto. }
  apply Nat.ltb_ge in E. apply nth_error_None. rewrite seq_length. auto.
Qed.
(** It raises an exception exactly when some unknown has fewer solutions than the unknown solved last. *)
Theorem C43_raises nodes : handed_over nodes ->
  make_LHS_versions nodes (create_solution_set nodes) = None <-> exists n, In n nodes /\ n_nsol n < last_nsol nodes.
Proof.
  intros H. destruct (proj2 H) as (n0 & ns & En & _). assert (Rect := C42_rectangular nodes). set (t := create_solution_set nodes) in *.
  assert (Big : forall b, b < last_nsol nodes -> exists r, nth_error t b = Some r).
  { intros b Hb. apply nth_error_ex. eapply Nat.lt_le_trans; [exact Hb|]. unfold t. rewrite En in *. destruct (ho_fresh n0 ns H) as (F & V & _ & L). unfold last_nsol in *.
    destruct ns as [|n' ns'] eqn:Ens. { rewrite create_one, map_length, L. simpl. lia. } rewrite <- Ens in *.
    destruct (exists_last (l := ns)) as (ms & n & Em). { rewrite Ens. discriminate. } rewrite Em. change (n0 :: ms ++ [n]) with ((n0 :: ms) ++ [n]). rewrite create_snoc. rewrite rev_app_distr. cbn [rev app].
    rewrite step_len by (apply create_ne; auto).
    assert (P : 0 < List.length (create_solution_set (n0 :: ms))) by (apply len_ne; apply create_ne; auto).
    assert (X : n_nsol n <= 2 ^ (n_nsol n - 1)). { clear. destruct (n_nsol n) as [|k]; [lia|]. replace (S k - 1) with k by lia. induction k; simpl in *; lia. } nia. }
  unfold make_LHS_versions. destruct t as [|r0 t'] eqn:Et.
  { exfalso. assert (X : t <> []). { unfold t. rewrite En. apply create_ne. rewrite En in H. apply (ho_fresh n0 ns H). } subst t. congruence. }
  rewrite <- Et in *. fold (last_nsol nodes). rewrite mapM_none.
  assert (L0 : List.length r0 = List.length nodes). { apply Rect; auto. fold t. rewrite Et. left; auto. }
  assert (Lp : 1 <= last_nsol nodes). { unfold last_nsol. rewrite En. destruct (rev (n0 :: ns)) as [|n l] eqn:Er. { apply (f_equal (@List.length _)) in Er. rewrite rev_length in Er. discriminate. }
    apply (proj1 H). apply in_rev. rewrite En, Er. left; auto. }
  split.
  - intros ([k r] & Hkr & Hn). apply enum_in in Hkr. unfold version_row in Hn. cbn [fst snd] in Hn. rewrite subdict_ok in Hn by (apply Rect; auto; eapply nth_error_In; eauto).
    apply mapM_none in Hn as (c & Hc & Hn). apply in_seq in Hc. unfold version_eqn in Hn. destruct (nth_error_ex nodes c) as (n & Hnc). { lia. } rewrite Hnc in Hn.
    replace (last_nsol nodes =? 0) with false in Hn by (symmetry; apply Nat.eqb_neq; lia).
    exists n. split. { eapply nth_error_In; eauto. } destruct (nth_error (n_sols n) (k mod last_nsol nodes)) eqn:Es; [discriminate|]. apply nth_error_None in Es.
    destruct (proj1 H n) as (_ & -> & _). { eapply nth_error_In; eauto. } assert (k mod last_nsol nodes < last_nsol nodes) by (apply Nat.mod_upper_bound; lia). lia.
  - intros (n & Hn & Lt). destruct (Big (n_nsol n)) as (r & Hr). { auto. } exists (n_nsol n, r). split. { apply enum_in. auto. }
    unfold version_row. cbn [fst snd]. rewrite subdict_ok by (apply Rect; auto; eapply nth_error_In; eauto). apply mapM_none.
    apply In_nth_error in Hn as (c & Hc). exists c. split. { apply in_seq. apply nth_error_some_lt in Hc. lia. }
    unfold version_eqn. rewrite Hc. destruct (last_nsol nodes =? 0); auto. rewrite Nat.mod_small by auto.
    destruct (nth_error (n_sols n) (n_nsol n)) eqn:Es; auto. apply nth_error_some_lt in Es. destruct (proj1 H n) as (_ & X & _). { eapply nth_error_In; eauto. } lia.
Qed.
(** Otherwise: one equation per row and unknown, name+'v'+(row number) = one of the unknown's own solutions, in which
    every unknown is replaced by its name in that row. *)
Theorem C43_equations nodes F : handed_over nodes -> make_LHS_versions nodes (create_solution_set nodes) = Some F ->
  let t := create_solution_set nodes in
  List.length F = List.length t
  /\ forall k r, nth_error t k = Some r -> exists eqs, nth_error F k = Some eqs /\ List.length eqs = List.length nodes
    /\ forall c n, nth_error nodes c = Some n -> exists e, nth_error (n_sols n) (k mod last_nsol nodes) = Some e
         /\ nth_error eqs c = Some (Keq (Sym (vname (n_name n) (S k))) (subs_all (sub_names nodes r) e)).
Proof.
  intros H HF. cbv zeta. set (t := create_solution_set nodes) in *. assert (Rect := fun r => C42_rectangular nodes r H). fold t in Rect.
  unfold make_LHS_versions in HF. destruct t as [|r0 t'] eqn:Et; [discriminate|]. rewrite <- Et in *. fold (last_nsol nodes) in HF.
  assert (L0 : List.length r0 = List.length nodes) by (apply Rect; rewrite Et; left; auto).
  apply mapM_some in HF as [LF NF]. rewrite enum_len in LF. split; auto. intros k r Hr.
  destruct (NF k (k, r)) as (eqs & E1 & E2). { apply enum_nth. eauto. } exists eqs. split; auto.
  unfold version_row in E2. cbn [fst snd] in E2. rewrite subdict_ok in E2 by (apply Rect; eapply nth_error_In; eauto).
  apply mapM_some in E2 as [LE NE]. rewrite seq_length, L0 in LE. split; auto. intros c n Hc.
  destruct (NE c c) as (q & Q1 & Q2). { rewrite seq_nth_err. apply nth_error_some_lt in Hc. replace (c <? List.length r0) with true by (symmetry; apply Nat.ltb_lt; lia). auto. }
  unfold version_eqn in Q2. rewrite Hc in Q2. destruct (_ =? 0); [discriminate|]. destruct (nth_error (n_sols n) _) as [e|]; [|discriminate]. injection Q2 as <-. eauto.
Qed.

(** * C43: what the equations mean *)
(** The joint vector of a row: the value of an unknown is the value of its name in the row. *)
Fixpoint through (names r : list string) (rho : env) (x : string) : R :=
  match names, r with
  | n :: ns, v :: vs => if String.eqb n x then rho v else through ns vs rho x
  | _, _ => rho x
  end.
Definition names_of (nodes : list node) : list string := map n_name nodes.
(** No unknown is called like a solution or a version of another. *)
Definition version_free (names : list string) : Prop := forall a b k, In a names -> In b names -> a <> sname b k /\ a <> vname b k.
(** Solutions use unknowns solved earlier only (C23, C25). *)
Definition earlier_only (nodes : list node) : Prop := forall c n e c' n', nth_error nodes c = Some n -> In e (n_sols n) -> nth_error nodes c' = Some n' -> has (n_name n') e = true -> c' < c.
(** All equations of the matrix hold, and the names of the first unknown's solutions have these solutions' values. *)
Definition executed (nodes : list node) (F : list (list kequation)) (rho : env) : Prop :=
  (forall eqs q, In eqs F -> In q eqs -> eval rho (k_lhs q) = eval rho (k_rhs q))
  /\ forall n0 ns b e, nodes = n0 :: ns -> nth_error (n_sols n0) b = Some e -> rho (sname (n_name n0) (S b)) = eval rho e.

Lemma names_ok_th names : (forall x, In x names -> mark x = Some "_"%char) -> version_free names.
Proof. intros H a b k Ha _. split; intros ->; specialize (H _ Ha). unfold sname in H. rewrite sname_mark in H. discriminate. rewrite vname_mark in H. discriminate. Qed.
Lemma through_out names : forall r rho x, ~ In x names -> through names r rho x = rho x.
Proof.
  induction names as [|n ns IH]; intros [|v vs] rho x H; cbn [through]; auto. destruct (String.eqb_spec n x) as [->|]. { exfalso. apply H. left; auto. } apply IH. intros X. apply H. right; auto.
Qed.
Lemma through_at names : forall r rho c x v, NoDup names -> nth_error names c = Some x -> nth_error r c = Some v -> through names r rho x = rho v.
Proof.
  induction names as [|n ns IH]; intros [|w ws] rho [|c] x v N Hx Hv; cbn [nth_error] in *; try discriminate; cbn [through].
  - injection Hx as ->. injection Hv as ->. rewrite String.eqb_refl. auto.
  - inversion N; subst. destruct (String.eqb_spec n x) as [->|]. { exfalso. apply H1. eapply nth_error_In; eauto. } eapply IH; eauto.
Qed.
Lemma eval_sub_names nodes : forall r rho e, List.length r = List.length nodes -> (forall v, In v r -> ~ In v (names_of nodes)) ->
  eval rho (subs_all (sub_names nodes r) e) = eval (through (names_of nodes) r rho) e.
Proof.
  unfold names_of, sub_names. induction nodes as [|n ns IH]; intros [|v vs] rho e L N; try discriminate; auto. cbn [map combine through].
  match goal with |- eval rho (subs_all ((?a, ?b) :: ?l) e) = _ => change (subs_all ((a, b) :: l) e) with (subs_all l (subs a b e)) end. rewrite (IH vs rho (subs (Sym (n_name n)) (Sym v) e)); auto. 2:{ intros w Hw X. apply (N w). right; auto. right; auto. }
  rewrite eval_subs_sym. apply eval_ext. intros x _. cbn [eval]. unfold upd. rewrite through_out. 2:{ intros X. apply (N v). left; auto. right. auto. }
  rewrite (String.eqb_sym (n_name n) x). auto.
Qed.
Lemma row_entries n0 ns r : handed_over (n0 :: ns) -> In r (create_solution_set (n0 :: ns)) -> forall v, In v r -> exists n k, In n (n0 :: ns) /\ (v = sname (n_name n) k \/ v = vname (n_name n) k).
Proof.
  intros H Hr v Hv. assert (L := C42_rectangular _ r H Hr). apply In_nth_error in Hr as (k & Hk). destruct (C42_consistent n0 ns H k r Hk) as [(b & _ & H0) C].
  apply In_nth_error in Hv as (c & Hc). destruct c as [|c]. { exists n0, (S b). split; [left; auto|]. left. congruence. }
  destruct (nth_error_ex ns c) as (n & Hn). { apply nth_error_some_lt in Hc. rewrite L in Hc. simpl in Hc. lia. }
  destruct (C c n Hn) as (j & _ & _ & Hj & _). exists n, (S j). split. { right. eapply nth_error_In; eauto. } right. congruence.
Qed.
Lemma row_free nodes r : handed_over nodes -> version_free (names_of nodes) -> In r (create_solution_set nodes) -> forall v, In v r -> ~ In v (names_of nodes).
Proof.
  intros H Vf Hr v Hv X. destruct (proj2 H) as (n0 & ns & -> & _). destruct (row_entries n0 ns r H Hr v Hv) as (n & k & Hn & E).
  destruct (Vf v (n_name n) k X) as [V1 V2]. { apply (in_map n_name). auto. } destruct E; auto.
Qed.
Lemma firstn_nth_same {A} m (a b : list A) i : firstn m a = firstn m b -> i < m -> nth_error a i = nth_error b i.
Proof. intros E L. rewrite <- (nth_error_firstn' a i m), <- (nth_error_firstn' b i m), E; auto. Qed.
Lemma through_same names r r' rho x c : NoDup names -> List.length r = List.length names -> List.length r' = List.length names ->
  (forall i, i < c -> nth_error r i = nth_error r' i) -> (forall i, nth_error names i = Some x -> i < c) -> through names r rho x = through names r' rho x.
Proof.
  intros N L L' E K. destruct (in_dec string_dec x names) as [I|I]; [|rewrite !through_out; auto].
  apply In_nth_error in I as (i & Hi). assert (Hl := nth_error_some_lt _ _ _ Hi). destruct (nth_error_ex r i) as (v & Hv). { lia. }
  rewrite (through_at names r rho i x v); auto. rewrite (through_at names r' rho i x v); auto. rewrite <- E; auto.
Qed.
(** The value a row gives an unknown is that of one of the unknown's own solutions, at the values the same row gives
    the other unknowns: [row_branch] says which solution. *)
Definition row_branch (nodes : list node) (r : row) (c b : nat) : Prop :=
  exists n, nth_error nodes c = Some n /\
    match c with 0 => nth_error r 0 = Some (sname (n_name n) (S b)) | S _ => exists j, nth_error r c = Some (vname (n_name n) (S j)) /\ b = j mod last_nsol nodes end.
Lemma row_value nodes F rho r c n b e : handed_over nodes -> NoDup (names_of nodes) -> version_free (names_of nodes) -> earlier_only nodes ->
  make_LHS_versions nodes (create_solution_set nodes) = Some F -> executed nodes F rho ->
  In r (create_solution_set nodes) -> nth_error nodes c = Some n -> row_branch nodes r c b -> nth_error (n_sols n) b = Some e ->
  through (names_of nodes) r rho (n_name n) = eval (through (names_of nodes) r rho) e.
Proof.
  intros H N Vf Eo HF [X1 X2] Hr Hn (n' & Hn' & B) He. assert (n' = n) by congruence. subst n'. clear Hn'.
  assert (Lr := C42_rectangular nodes r H Hr). assert (LN : List.length (names_of nodes) = List.length nodes) by (unfold names_of; rewrite map_length; auto).
  assert (Nn : nth_error (names_of nodes) c = Some (n_name n)) by (unfold names_of; rewrite nth_error_map, Hn; auto).
  assert (Use : forall x i, nth_error (names_of nodes) i = Some x -> has x e = true -> i < c).
  { intros x i Hi Hh. unfold names_of in Hi. rewrite nth_error_map in Hi. destruct (nth_error nodes i) as [m|] eqn:Em; [|discriminate]. injection Hi as <-.
    apply (Eo c n e i m); auto. eapply nth_error_In; eauto. }
  destruct c as [|c].
  - rewrite (through_at _ _ _ 0 _ _ N Nn B). destruct (proj2 H) as (n0 & ns & En & _). rewrite En in Hn. injection Hn as <-. rewrite (X2 n0 ns b e En He).
    apply eval_ext. intros x Hx. rewrite through_out; auto. intros I. apply In_nth_error in I as (i & Hi). specialize (Use x i Hi Hx). lia.
  - destruct B as (j & Hj & Ej). rewrite (through_at _ _ _ (S c) _ _ N Nn Hj).
    destruct (proj2 H) as (n0 & ns & En & _). assert (Hnc : nth_error ns c = Some n) by (rewrite En in Hn; exact Hn). assert (Hr0 := Hr). apply In_nth_error in Hr0 as (k & Hk). rewrite En in Hk.
    assert (H' := H). rewrite En in H'. destruct (C42_consistent n0 ns H' k r Hk) as [_ C]. destruct (C c n Hnc) as (j' & r' & J1 & J2 & J3).
    assert (j' = j). { rewrite J2 in Hj. injection Hj as Hj. apply vname_inj in Hj. lia. } subst j'. rewrite <- En in J1.
    destruct (C43_equations nodes F H HF) as [_ CE]. destruct (CE j r' J1) as (eqs & Q1 & Q2 & Q3). destruct (Q3 (S c) n Hn) as (e' & Q4 & Q5). rewrite <- Ej, He in Q4. injection Q4 as <-.
    assert (Q := X1 eqs _ (nth_error_In _ _ Q1) (nth_error_In _ _ Q5)). cbn [k_lhs k_rhs eval] in Q. rewrite Q.
    assert (Hr' := nth_error_In _ _ J1). assert (Lr' := C42_rectangular nodes r' H Hr').
    rewrite eval_sub_names; auto. 2:{ apply row_free; auto. }
    apply eval_ext. intros x Hx. apply (through_same _ _ _ _ _ (S c)); auto; try lia.
    + intros i Hi. symmetry. apply (firstn_nth_same (S (S c))); auto.
    + intros i Hi. apply (Use x i); auto.
Qed.
Lemma row_branch_ex nodes r c n : handed_over nodes -> In r (create_solution_set nodes) -> nth_error nodes c = Some n ->
  exists b, row_branch nodes r c b /\ (b < n_nsol n \/ (b < last_nsol nodes /\ c <> 0)).
Proof.
  intros H Hr Hn. destruct (proj2 H) as (n0 & ns & En & _). assert (H' := H). rewrite En in H', Hr. apply In_nth_error in Hr as (k & Hk).
  destruct (C42_consistent n0 ns H' k r Hk) as [(b & Hb & B) C]. destruct c as [|c].
  - exists b. rewrite En in Hn. injection Hn as <-. split; auto. exists n0. rewrite En. auto.
  - rewrite En in Hn. destruct (C c n Hn) as (j & r' & _ & Hj & _). exists (j mod last_nsol nodes). split. { exists n. rewrite En at 1. split; auto. exists j. auto. }
    right. split; auto. apply Nat.mod_upper_bound. unfold last_nsol. destruct (rev nodes) as [|m l] eqn:Er. { apply (f_equal (@rev _)) in Er. rewrite rev_involutive in Er. simpl in Er. congruence. }
    assert (1 <= n_nsol m); [|lia]. apply (proj1 H). apply in_rev. rewrite Er. left; auto.
Qed.
Theorem C43_rows_are_solutions nodes F rho r c n : handed_over nodes -> NoDup (names_of nodes) -> version_free (names_of nodes) -> earlier_only nodes ->
  make_LHS_versions nodes (create_solution_set nodes) = Some F -> executed nodes F rho ->
  In r (create_solution_set nodes) -> nth_error nodes c = Some n ->
  exists e, In e (n_sols n) /\ through (names_of nodes) r rho (n_name n) = eval (through (names_of nodes) r rho) e.
Proof.
  intros H N Vf Eo HF X Hr Hn. destruct (row_branch_ex nodes r c n H Hr Hn) as (b & Hb & Lb).
  assert (L : b < List.length (n_sols n)).
  { destruct (proj1 H n (nth_error_In _ _ Hn)) as (_ & <- & _). destruct Lb as [?|[Lb _]]; auto.
    destruct (Nat.lt_ge_cases (n_nsol n) (last_nsol nodes)) as [Lt|]; [|lia]. exfalso.
    assert (Z : make_LHS_versions nodes (create_solution_set nodes) = None). { apply C43_raises; auto. exists n. split; auto. eapply nth_error_In; eauto. } congruence. }
  destruct (nth_error_ex _ _ L) as (e & He). exists e. split. { eapply nth_error_In; eauto. } eapply row_value; eauto.
Qed.

(** Every combination of branches occurs in exactly one row, when every unknown has two solutions. *)
Definition two_each (nodes : list node) : Prop := forall n, In n nodes -> n_nsol n = 2.
Theorem C43_every_combination nodes (b : nat -> nat) : handed_over nodes -> two_each nodes -> (forall c, b c < 2) ->
  exists k r, nth_error (create_solution_set nodes) k = Some r /\ (forall c, c < List.length nodes -> row_branch nodes r c (b c))
    /\ forall k' r', nth_error (create_solution_set nodes) k' = Some r' -> (forall c, c < List.length nodes -> row_branch nodes r' c (b c)) -> k' = k.
Proof.
  intros H T Hb. destruct (proj2 H) as (n0 & ns & En & Ev). subst nodes. destruct (ho_fresh n0 ns H) as (F & V & _ & L0).
  assert (T0 : n_nsol n0 = 2) by (apply T; left; auto). rewrite T0 in Ev, L0. assert (Tn : forall n, In n ns -> n_nsol n = 2) by (intros; apply T; right; auto).
  set (br := fun (ns : list node) (r : row) => nth_error r 0 = Some (sname (n_name n0) (S (b 0))) /\ forall c n, nth_error ns c = Some n -> exists j, nth_error r (S c) = Some (vname (n_name n) (S j)) /\ b (S c) = j mod 2).
  assert (LL : last_nsol (n0 :: ns) = 2). { unfold last_nsol. destruct (rev (n0 :: ns)) as [|m l] eqn:Er. { apply (f_equal (@List.length _)) in Er. rewrite rev_length in Er. discriminate. } apply T. apply in_rev. rewrite Er. left; auto. }
  assert (Br : forall r, (forall c, c < List.length (n0 :: ns) -> row_branch (n0 :: ns) r c (b c)) <-> br ns r).
  { intros r. split.
    - intros X. split. { destruct (X 0) as (n & E & Y). simpl; lia. injection E as <-. exact Y. }
      intros c n Hn. destruct (X (S c)) as (n' & E & j & Y1 & Y2). { simpl. apply nth_error_some_lt in Hn. lia. } cbn [nth_error] in E. assert (n' = n) by congruence. subst. rewrite LL in Y2. eauto.
    - intros [X1 X2] [|c] Hc. { exists n0. auto. } destruct (nth_error_ex ns c) as (n & Hn). { simpl in Hc. lia. } destruct (X2 c n Hn) as (j & Y1 & Y2). exists n. split; auto. exists j. rewrite LL. auto. }
  assert (G : exists k r, nth_error (create_solution_set (n0 :: ns)) k = Some r /\ br ns r /\ forall k' r', nth_error (create_solution_set (n0 :: ns)) k' = Some r' -> br ns r' -> k' = k).
  { clear Br LL H T. induction ns as [|n ns IH] using rev_ind.
    - rewrite create_one, Ev. cbn [seq map]. unfold br. specialize (Hb 0). exists (b 0), [sname (n_name n0) (S (b 0))]. split. { destruct (b 0) as [|[|]]; try lia; auto. }
      split. { split; auto. intros [|c] n E; discriminate. }
      intros [|[|[|k]]] r'; cbn [nth_error]; intros E [X _]; try discriminate; injection E as <-; cbn [nth_error] in X; injection X as X; unfold sname in X; apply append_inj, append_inj, str_of_nat_inj in X; lia.
    - apply Forall_app in F as [F Fn]. inversion Fn as [|? ? Fn' _]; subst. destruct (IH F) as (i & r & I1 & [I2 I3] & I4). { intros m Hm. apply Tn. apply in_or_app; auto. }
      change (n0 :: ns ++ [n]) with ((n0 :: ns) ++ [n]). rewrite create_snoc. set (t := create_solution_set (n0 :: ns)) in *. assert (Ne : t <> []) by (apply create_ne; auto).
      assert (T2 : n_nsol n = 2) by (apply Tn; apply in_or_app; right; left; auto).
      assert (St : forall k, nth_error (node_step t n) k = match nth_error (t ++ rev t) k with None => None | Some r => Some (r ++ [vname (n_name n) (S k)]) end).
      { intros k. rewrite step_nth by auto. rewrite T2. reflexivity. }
      assert (Hi := nth_error_some_lt _ _ _ I1).
      assert (Lr : forall k q, nth_error t k = Some q -> List.length q = S (List.length ns)) by (intros k q Hq; apply (create_inv n0 V ns F k q Hq)).
      assert (Ext : forall q k, List.length q = S (List.length ns) -> (br (ns ++ [n]) (q ++ [vname (n_name n) (S k)]) <-> br ns q /\ b (S (List.length ns)) = k mod 2)).
      { intros q k Lq. unfold br. split.
        - intros [X1 X2]. split; [split|].
          + rewrite nth_error_app1 in X1 by lia. auto.
          + intros c m Hm. assert (Hl := nth_error_some_lt _ _ _ Hm). destruct (X2 c m) as (j & Y1 & Y2). { rewrite nth_error_app1; auto. } exists j. rewrite nth_error_app1 in Y1 by lia. auto.
          + destruct (X2 (List.length ns) n) as (j & Y1 & Y2). { rewrite nth_error_app2, Nat.sub_diag; auto. } rewrite nth_error_app2 in Y1 by lia. rewrite Lq, Nat.sub_diag in Y1. cbn [nth_error] in Y1.
            injection Y1 as Y1. apply vname_inj in Y1. injection Y1 as ->. auto.
        - intros [[X1 X2] X3]. split. { rewrite nth_error_app1 by lia. auto. } intros c m Hm. destruct (Nat.lt_ge_cases c (List.length ns)).
          + rewrite nth_error_app1 in Hm by auto. destruct (X2 c m Hm) as (j & Y1 & Y2). exists j. rewrite nth_error_app1 by lia. auto.
          + assert (c = List.length ns). { apply nth_error_some_lt in Hm. rewrite app_length in Hm. simpl in Hm. lia. } subst c. rewrite nth_error_app2, Nat.sub_diag in Hm by lia. injection Hm as <-.
            exists k. rewrite nth_error_app2 by lia. rewrite Lq, Nat.sub_diag. auto. }
      assert (Mir : nth_error (t ++ rev t) (2 * List.length t - 1 - i) = Some r).
      { rewrite nth_error_app2 by lia. rewrite nth_error_rev by lia. rewrite <- I1. f_equal. lia. }
      assert (Fst : nth_error (t ++ rev t) i = Some r). { rewrite nth_error_app1 by lia. auto. }
      assert (Par : (2 * List.length t - 1 - i) mod 2 <> i mod 2).
      { intros E. assert (X := Nat.div_mod i 2 ltac:(lia)). assert (Y := Nat.div_mod (2 * List.length t - 1 - i) 2 ltac:(lia)). assert (Z := Nat.mod_upper_bound i 2 ltac:(lia)). lia. }
      assert (B2 := Hb (S (List.length ns))). assert (M1 := Nat.mod_upper_bound i 2 ltac:(lia)). assert (M2 := Nat.mod_upper_bound (2 * List.length t - 1 - i) 2 ltac:(lia)).
      assert (Uq : forall k' r', nth_error (node_step t n) k' = Some r' -> br (ns ++ [n]) r' -> (k' = i \/ k' = 2 * List.length t - 1 - i) /\ b (S (List.length ns)) = k' mod 2).
      { intros k' r' E X. rewrite St in E. destruct (nth_error (t ++ rev t) k') as [q|] eqn:Eq; [|discriminate]. injection E as <-.
        assert (Hk := nth_error_some_lt _ _ _ Eq). rewrite app_length, rev_length in Hk. destruct (Nat.lt_ge_cases k' (List.length t)) as [Lk|Gk].
        - rewrite nth_error_app1 in Eq by auto. apply Ext in X as [X1 X2]; [|eauto]. split; auto. left. eapply I4; eauto.
        - rewrite nth_error_app2 in Eq by auto. rewrite nth_error_rev in Eq by lia. apply Ext in X as [X1 X2]; [|eauto]. split; auto. right. assert (E := I4 _ _ Eq X1). lia. }
      destruct (Nat.eq_dec (i mod 2) (b (S (List.length ns)))) as [P|P].
      + exists i, (r ++ [vname (n_name n) (S i)]). split. { rewrite St, Fst. auto. } split. { apply Ext. eauto. split; auto. split; auto. }
        intros k' r' E X. destruct (Uq k' r' E X) as [[->| ->] Y]; auto. congruence.
      + exists (2 * List.length t - 1 - i), (r ++ [vname (n_name n) (S (2 * List.length t - 1 - i))]). split. { rewrite St, Mir. auto. } split. { apply Ext. eauto. split. split; auto. lia. }
        intros k' r' E X. destruct (Uq k' r' E X) as [[->| ->] Y]; auto. congruence. }
  destruct G as (k & r & G1 & G2 & G3). exists k, r. split; auto. split. { apply Br. auto. } intros k' r' E X. apply (G3 k' r' E). apply Br. auto.
Qed.
(** So no solution is lost: a joint vector theta in which every unknown's value is that of one of its solutions is the
    vector of some row. *)
Theorem C43_nothing_lost nodes F rho theta : handed_over nodes -> two_each nodes -> NoDup (names_of nodes) -> version_free (names_of nodes) -> earlier_only nodes ->
  make_LHS_versions nodes (create_solution_set nodes) = Some F -> executed nodes F rho ->
  (forall n e x, In n nodes -> In e (n_sols n) -> has x e = true -> ~ In x (names_of nodes) -> rho x = theta x) ->
  (forall c n, nth_error nodes c = Some n -> exists e, In e (n_sols n) /\ theta (n_name n) = eval theta e) ->
  exists r, In r (create_solution_set nodes) /\ forall x, In x (names_of nodes) -> through (names_of nodes) r rho x = theta x.
Proof.
  intros H T N Vf Eo HF X Agree Th.
  assert (Bx : forall c, exists b, b < 2 /\ forall n, nth_error nodes c = Some n -> exists e, nth_error (n_sols n) b = Some e /\ theta (n_name n) = eval theta e).
  { intros c. destruct (nth_error nodes c) as [n|] eqn:En. 2:{ exists 0. split; [lia|]. intros n; discriminate. }
    destruct (Th c n En) as (e & He & Ev). apply In_nth_error in He as (b & Hb). exists b. split.
    - assert (I := nth_error_In _ _ En). apply nth_error_some_lt in Hb. destruct (proj1 H n I) as (_ & E & _). rewrite (T n I) in E. lia.
    - intros m Em. injection Em as <-. eauto. }
  assert (Bf : exists b : nat -> nat, forall c, c < List.length nodes -> b c < 2 /\ forall n, nth_error nodes c = Some n -> exists e, nth_error (n_sols n) (b c) = Some e /\ theta (n_name n) = eval theta e).
  { clear - Bx. induction (List.length nodes) as [|m (b & IH)]. { exists (fun _ => 0). lia. } destruct (Bx m) as (y & Hy). exists (fun c => if c =? m then y else b c). intros c Hc.
    destruct (Nat.eqb_spec c m) as [->|]; auto. apply IH. lia. }
  destruct Bf as (b & Hb). destruct (C43_every_combination nodes (fun c => if c <? List.length nodes then b c else 0) H T) as (k & r & Hk & Br & _).
  { intros c. destruct (Nat.ltb_spec c (List.length nodes)); [apply Hb; auto|lia]. }
  assert (Hr := nth_error_In _ _ Hk). exists r. split; auto.
  assert (Main : forall c n, nth_error nodes c = Some n -> through (names_of nodes) r rho (n_name n) = theta (n_name n)).
  { intros c. induction c as [c IH] using (well_founded_induction lt_wf). intros n Hn. assert (Lc := nth_error_some_lt _ _ _ Hn).
    destruct (Hb c Lc) as [_ Hb2]. destruct (Hb2 n Hn) as (e & He & ->). assert (B := Br c Lc). replace (c <? List.length nodes) with true in B by (symmetry; apply Nat.ltb_lt; auto).
    rewrite (row_value nodes F rho r c n (b c) e H N Vf Eo HF X Hr Hn B He). apply eval_ext. intros x Hx.
    destruct (in_dec string_dec x (names_of nodes)) as [I|I]. 2:{ rewrite through_out by auto. apply (Agree n e x); auto; eapply nth_error_In; eauto. }
    unfold names_of in I. apply in_map_iff in I as (m & <- & Hm). apply In_nth_error in Hm as (i & Hi).
    apply (IH i); auto. apply (Eo c n e i m); auto. eapply nth_error_In; eauto. }
  intros x I. unfold names_of in I. apply in_map_iff in I as (m & <- & Hm). apply In_nth_error in Hm as (i & Hi). eauto.
Qed.

(** * Refuted parts of C43 *)
(** If the unknown solved last has a single solution, no equation uses any solution but the first one of any unknown. *)
Theorem C43_last_single_loses nodes F : handed_over nodes -> make_LHS_versions nodes (create_solution_set nodes) = Some F -> last_nsol nodes = 1 ->
  forall k r c n, nth_error (create_solution_set nodes) k = Some r -> nth_error nodes c = Some n -> exists eqs e, nth_error F k = Some eqs /\ nth_error (n_sols n) 0 = Some e
    /\ nth_error eqs c = Some (Keq (Sym (vname (n_name n) (S k))) (subs_all (sub_names nodes r) e)).
Proof.
  intros H HF L k r c n Hk Hn. destruct (C43_equations nodes F H HF) as [_ C]. destruct (C k r Hk) as (eqs & E1 & _ & E2). destruct (E2 c n Hn) as (e & E3 & E4).
  rewrite L, Nat.mod_1_r in E3. eauto.
Qed.
Lemma handed_nd l : l <> [] -> (forall n, In n l -> exists name k sols, n = nd name k sols /\ sols <> []) -> handed_over l.
Proof.
  intros Ne H. split.
  - intros n Hn. destruct (H n Hn) as (name & k & sols & -> & S). split; [|split; reflexivity]. cbn. destruct sols; [tauto|cbn; lia].
  - destruct l as [|n ns]; [tauto|]. exists n, ns. split; auto. destruct (H n) as (name & k & sols & -> & S). left; auto. reflexivity.
Qed.
Definition ex_sols (a : string) : list expr := [Asin (Sym a); Sub PiE (Asin (Sym a))].
(** Two solutions for th_1 and th_2, one for th_3: th_2's second solution (and with it half of the combinations) is in
    no equation. *)
Theorem C43_lost_branch_refuted : exists nodes F n e, handed_over nodes /\ make_LHS_versions nodes (create_solution_set nodes) = Some F
  /\ In n nodes /\ In e (n_sols n) /\ forall eqs q, In eqs F -> In q eqs -> k_rhs q <> e.
Proof.
  set (nodes := [nd "th_1" 2 (ex_sols "r_11"); nd "th_2" 2 (ex_sols "r_12"); nd "th_3" 1 [Sym "r_13"]]).
  exists nodes. eexists _, (nd "th_2" 2 (ex_sols "r_12")), (Sub PiE (Asin (Sym "r_12"))).
  split. { apply handed_nd. discriminate. intros n [<-|[<-|[<-|[]]]]; eexists _, _, _; (split; [reflexivity|discriminate]). }
  split. { vm_compute. reflexivity. } split. { right. left. reflexivity. } split. { right. left. reflexivity. }
  intros eqs q Heqs Hq. vm_compute in Heqs. repeat (destruct Heqs as [<-|Heqs]; [vm_compute in Hq; repeat (destruct Hq as [<-|Hq]; [vm_compute; discriminate|]); destruct Hq|]). destruct Heqs.
Qed.
(** One solution for th_1, two for th_2: an exception instead of equations. *)
Theorem C43_exception_refuted : exists nodes, handed_over nodes /\ (forall n, In n nodes -> n_nsol n <= 2) /\ make_LHS_versions nodes (create_solution_set nodes) = None.
Proof.
  exists [nd "th_1" 1 [Sym "r_13"]; nd "th_2" 2 (ex_sols "r_12")]. split. { apply handed_nd. discriminate. intros n [<-|[<-|[]]]; eexists _, _, _; (split; [reflexivity|discriminate]). }
  split. { intros n [<-|[<-|[]]]; cbn; lia. } vm_compute. reflexivity.
Qed.

(** * C52: which names the equations define *)
(** The names of the first solved unknown that the rows (and therefore the substituted solutions) use are not defined by
    any equation. *)
Theorem C52_first_names_undefined nodes F r v : handed_over nodes -> make_LHS_versions nodes (create_solution_set nodes) = Some F ->
  In r (create_solution_set nodes) -> nth_error r 0 = Some v -> forall eqs q, In eqs F -> In q eqs -> k_lhs q <> Sym v.
Proof.
  intros H HF Hr Hv eqs q He Hq E. destruct (proj2 H) as (n0 & ns & En & _). assert (H' := H). rewrite En in H', Hr. apply In_nth_error in Hr as (k & Hk).
  destruct (C42_consistent n0 ns H' k r Hk) as [(b & _ & B) _]. rewrite B in Hv. injection Hv as <-.
  destruct (C43_equations nodes F H HF) as [LF C]. apply In_nth_error in He as (i & Hi). assert (Li := nth_error_some_lt _ _ _ Hi). rewrite LF in Li. destruct (nth_error_ex _ _ Li) as (r' & Hr').
  destruct (C i r' Hr') as (eqs' & Q1 & Q2 & Q3). assert (eqs' = eqs) by congruence. subst. apply In_nth_error in Hq as (c & Hc). assert (Lc := nth_error_some_lt _ _ _ Hc). rewrite Q2 in Lc.
  destruct (nth_error_ex _ _ Lc) as (n & Hn). destruct (Q3 c n Hn) as (e & _ & Q4). rewrite Q4 in Hc. injection Hc as <-. cbn [k_lhs] in E. injection E as E.
  apply (f_equal mark) in E. unfold sname in E. rewrite vname_mark, sname_mark in E. discriminate.
Qed.
(** All other names in the rows are defined, once, by the equation of their number. *)
Theorem C52_later_names_defined n0 ns F r c n : handed_over (n0 :: ns) -> make_LHS_versions (n0 :: ns) (create_solution_set (n0 :: ns)) = Some F ->
  In r (create_solution_set (n0 :: ns)) -> nth_error ns c = Some n ->
  exists j eqs e, nth_error r (S c) = Some (vname (n_name n) (S j)) /\ nth_error F j = Some eqs /\ nth_error eqs (S c) = Some (Keq (Sym (vname (n_name n) (S j))) e).
Proof.
  intros H HF Hr Hn. apply In_nth_error in Hr as (k & Hk). destruct (C42_consistent n0 ns H k r Hk) as [_ C]. destruct (C c n Hn) as (j & r' & J1 & J2 & _).
  destruct (C43_equations _ F H HF) as [_ CE]. destruct (CE j r' J1) as (eqs & Q1 & _ & Q3). destruct (Q3 (S c) n Hn) as (e & _ & Q). eauto 8.
Qed.

(** * Running the equations as assignments, unknown by unknown, row by row *)
Fixpoint run (l : list (string * expr)) (rho : env) : env := match l with [] => rho | (x, e) :: l' => run l' (upd rho x (eval rho e)) end.
Definition assignment (q : kequation) : list (string * expr) := match k_lhs q with Sym x => [(x, k_rhs q)] | _ => [] end.
Definition column (F : list (list kequation)) (c : nat) : list (string * expr) := flat_map (fun eqs => match nth_error eqs c with None => [] | Some q => assignment q end) F.
Definition program (nodes : list node) (F : list (list kequation)) : list (string * expr) := flat_map (column F) (seq 0 (List.length nodes)).

Fixpoint ordered (l : list (string * expr)) : Prop :=
  match l with [] => True | (x, e) :: l' => ~ In x (map fst l') /\ (forall y, has y e = true -> ~ In y (x :: map fst l')) /\ ordered l' end.
Lemma run_out l : forall rho x, ~ In x (map fst l) -> run l rho x = rho x.
Proof. induction l as [|[y e] l IH]; cbn [run map fst]; intros rho x H; auto. rewrite IH. apply upd_ne. intros ->. apply H. left; auto. intros X. apply H. right; auto. Qed.
Lemma run_exec l : forall rho x e, ordered l -> In (x, e) l -> run l rho x = eval (run l rho) e.
Proof.
  induction l as [|[y d] l IH]; intros rho x e; [intros _ []|]. cbn [ordered run]. intros (O1 & O2 & O3) [E|H]; [|apply IH; auto]. injection E as -> ->.
  rewrite run_out by auto. rewrite upd_eq. apply eval_ext. intros z Hz. rewrite run_out. symmetry. apply upd_ne. intros ->. apply (O2 x Hz). left; auto. intros X. apply (O2 z Hz). right; auto.
Qed.
Lemma ordered_app l1 l2 : ordered l1 -> ordered l2 -> (forall x e, In (x, e) l1 -> ~ In x (map fst l2) /\ forall y, has y e = true -> ~ In y (map fst l2)) -> ordered (l1 ++ l2).
Proof.
  induction l1 as [|[x e] l1 IH]; cbn [app ordered]; auto. intros (O1 & O2 & O3) H2 C. destruct (C x e) as [C1 C2]. left; auto. rewrite map_app. split; [|split].
  - intros X. apply in_app_or in X. tauto.
  - intros y Hy X. destruct X as [<-|X]. apply (O2 x Hy). left; auto. apply in_app_or in X as [X|X]. apply (O2 y Hy). right; auto. apply (C2 y Hy X).
  - apply IH; auto. intros x' e' H'. apply C. right; auto.
Qed.
Lemma digits_app a c d : digits (append a (String c d)) = true -> is_digit c = true.
Proof. induction a as [|x a IH]; cbn [append digits]; intros H; apply andb_true_iff in H as [H1 H2]; auto. Qed.
Lemma marked_inj c a b d1 d2 : is_digit c = false -> digits d1 = true -> digits d2 = true -> append a (String c d1) = append b (String c d2) -> a = b /\ d1 = d2.
Proof.
  intros C D1 D2. revert b. induction a as [|x a IH]; intros [|y b] E; cbn [append] in E; inversion E; subst; auto.
  - rewrite (digits_app b _ _ D1) in C. discriminate.
  - rewrite (digits_app a _ _ D2) in C. discriminate.
  - match goal with K : append a _ = append b _ |- _ => destruct (IH b K) as [-> ->]; auto end.
Qed.
Lemma vname_inj2 a b i j : vname a i = vname b j -> a = b /\ i = j.
Proof. unfold vname. rewrite !append_assoc. intros E. apply (marked_inj "v"%char) in E as [-> E]; auto using str_digits. split; auto. apply str_of_nat_inj. auto. Qed.
Lemma has_sub_names nodes : forall r e y, List.length r = List.length nodes -> (forall v, In v r -> ~ In v (names_of nodes)) -> has y (subs_all (sub_names nodes r) e) = true ->
  (exists c n, nth_error nodes c = Some n /\ has (n_name n) e = true /\ nth_error r c = Some y) \/ (has y e = true /\ ~ In y (names_of nodes)).
Proof.
  unfold names_of, sub_names. induction nodes as [|n ns IH]; intros [|v vs] e y L N Hy; try discriminate. { right. split; auto. }
  cbn [map combine] in Hy. match type of Hy with has y (subs_all ((?a, ?b) :: ?l) e) = _ => change (subs_all ((a, b) :: l) e) with (subs_all l (subs a b e)) in Hy end.
  assert (Nv : ~ In v (map n_name ns)) by (intros X; apply (N v); [left; auto|right; auto]). assert (Nn : v <> n_name n) by (intros ->; apply (N (n_name n)); left; auto).
  assert (Hs : forall z, has z (subs (Sym (n_name n)) (Sym v) e) = true -> (z = v /\ has (n_name n) e = true) \/ (z <> n_name n /\ has z e = true)).
  { intros z Hz. destruct (has (n_name n) e) eqn:En.
    - destruct (string_dec z v) as [->|Zv]; auto. right. destruct (string_dec z (n_name n)) as [->|Zn].
      + rewrite has_subs_gone in Hz. discriminate. cbn [has]. apply String.eqb_neq. auto.
      + split; auto. rewrite has_subs_sym_other in Hz; auto. cbn [has]. apply String.eqb_neq. auto.
    - rewrite subs_absent in Hz by auto. right. split; auto. intros ->. congruence. }
  apply IH in Hy; auto. 2:{ intros w Hw X. apply (N w). right; auto. right; auto. }
  destruct Hy as [(c & m & H1 & H2 & H3)|[H1 H2]].
  - apply Hs in H2 as [[E _]|[_ H2]]. { exfalso. apply Nv. rewrite <- E. apply (in_map n_name). eapply nth_error_In; eauto. } left. exists (S c), m. auto.
  - apply Hs in H1 as [[-> H1]|[H0 H1]]. left. exists 0, n. auto. right. split; auto. cbn [map]. intros [X|X]; auto.
Qed.
(** The given symbols of the solutions are not called like a version. *)
Definition inputs_free (nodes : list node) : Prop := forall n e x, In n nodes -> In e (n_sols n) -> has x e = true -> ~ In x (names_of nodes) ->
  forall m k, In m nodes -> x <> vname (n_name m) k.
Lemma column_in nodes F c x e : handed_over nodes -> make_LHS_versions nodes (create_solution_set nodes) = Some F -> In (x, e) (column F c) -> c < List.length nodes ->
  exists k r n d, nth_error (create_solution_set nodes) k = Some r /\ nth_error nodes c = Some n /\ In d (n_sols n) /\ x = vname (n_name n) (S k) /\ e = subs_all (sub_names nodes r) d.
Proof.
  intros H HF Hx Hc. destruct (C43_equations nodes F H HF) as [LF C]. unfold column in Hx. apply in_flat_map in Hx as (eqs & He & Hx).
  apply In_nth_error in He as (k & Hk). assert (Lk := nth_error_some_lt _ _ _ Hk). rewrite LF in Lk. destruct (nth_error_ex _ _ Lk) as (r & Hr). destruct (C k r Hr) as (eqs' & Q1 & Q2 & Q3). assert (eqs' = eqs) by congruence. subst.
  destruct (nth_error_ex nodes c Hc) as (n & Hn). destruct (Q3 c n Hn) as (d & Q4 & Q5). rewrite Q5 in Hx. cbn in Hx. destruct Hx as [E|[]]. injection E as <- <-.
  exists k, r, n, d. split; auto. split; auto. split. { eapply nth_error_In; eauto. } auto.
Qed.
Lemma column_dom nodes F c x : handed_over nodes -> make_LHS_versions nodes (create_solution_set nodes) = Some F -> In x (map fst (column F c)) -> c < List.length nodes -> exists k n, nth_error nodes c = Some n /\ x = vname (n_name n) (S k).
Proof. intros H HF Hx Hc. apply in_map_iff in Hx as ([y e] & <- & Hy). destruct (column_in nodes F c y e H HF Hy Hc) as (k & r & n & d & _ & Hn & _ & -> & _). exists k, n. auto. Qed.
Lemma NoDup_names nodes c c' n n' : NoDup (names_of nodes) -> nth_error nodes c = Some n -> nth_error nodes c' = Some n' -> n_name n = n_name n' -> c = c'.
Proof.
  intros N H H' E. apply (proj1 (NoDup_nth_error (names_of nodes)) N). { unfold names_of. rewrite map_length. eapply nth_error_some_lt; eauto. } unfold names_of. rewrite !nth_error_map, H, H'. cbn. congruence.
Qed.
Lemma program_ordered nodes F : handed_over nodes -> NoDup (names_of nodes) -> version_free (names_of nodes) -> earlier_only nodes -> inputs_free nodes ->
  make_LHS_versions nodes (create_solution_set nodes) = Some F -> ordered (program nodes F).
Proof.
  intros H N Vf Eo If HF.
  (* names read by column c are not assigned by columns >= c *)
  assert (Rd : forall c x e, In (x, e) (column F c) -> c < List.length nodes -> forall y, has y e = true -> forall c', c <= c' -> c' < List.length nodes -> ~ In y (map fst (column F c'))).
  { intros c x e Hx Hc y Hy c' Lc Hc' X. destruct (column_in nodes F c x e H HF Hx Hc) as (k & r & n & d & Hk & Hn & Hd & -> & ->).
    destruct (column_dom nodes F c' y H HF X Hc') as (k' & n' & Hn' & ->). assert (Hr := nth_error_In _ _ Hk).
    apply has_sub_names in Hy as [(i & m & M1 & M2 & M3)|[M1 M2]]; [| |apply (C42_rectangular nodes r H Hr)|apply row_free; auto].
    - assert (Li := Eo c n d i m Hn Hd M1 M2). destruct (proj2 H) as (n0 & ns & En & _). assert (H' := H). rewrite En in H', Hk, M1. destruct (C42_consistent n0 ns H' k r Hk) as [(b & _ & B) C]. destruct i as [|i].
      + rewrite B in M3. injection M3 as M3. apply (f_equal mark) in M3. unfold sname in M3. rewrite vname_mark, sname_mark in M3. discriminate.
      + destruct (C i m M1) as (j & _ & _ & Hj & _). rewrite Hj in M3. injection M3 as M3. apply vname_inj2 in M3 as [M3 _]. 
        assert (c' = S i); [|lia]. apply (NoDup_names nodes c' (S i) n' m N Hn'); [rewrite En; exact M1|congruence].
    - apply (If n d _ (nth_error_In _ _ Hn) Hd M1 M2 n' (S k') (nth_error_In _ _ Hn')). auto. }
  assert (Col : forall c, c < List.length nodes -> ordered (column F c)).
  { intros c Hc. destruct (nth_error_ex nodes c Hc) as (n & Hn). destruct (C43_equations nodes F H HF) as [LF C].
    assert (Sub : forall l1 l2, F = l1 ++ l2 -> ordered (column l2 c)); [|apply (Sub [] F); auto]. intros l1 l2. revert l1. induction l2 as [|eqs l2 IH]; intros l1 EF. { exact I. }
    assert (O := IH (l1 ++ [eqs])). rewrite <- app_assoc in O. specialize (O EF).
    assert (Hk : nth_error F (List.length l1) = Some eqs). { rewrite EF, nth_error_app2, Nat.sub_diag; auto. } assert (Lk := nth_error_some_lt _ _ _ Hk). rewrite LF in Lk.
    destruct (nth_error_ex _ _ Lk) as (r & Hr). destruct (C _ r Hr) as (eqs' & Q1 & Q2 & Q3). assert (eqs' = eqs) by congruence. subst eqs'. destruct (Q3 c n Hn) as (d & Q4 & Q5).
    unfold column. cbn [flat_map]. rewrite Q5. cbn [assignment k_lhs k_rhs app]. fold (column l2 c).
    assert (In1 : In (vname (n_name n) (S (List.length l1)), subs_all (sub_names nodes r) d) (column F c)). { unfold column. apply in_flat_map. exists eqs. split. { eapply nth_error_In; eauto. } rewrite Q5. left. auto. }
    assert (Inc : forall y, In y (map fst (column l2 c)) -> In y (map fst (column F c))). { intros y Hy. rewrite EF. unfold column. rewrite flat_map_app, map_app. apply in_or_app. right. cbn [flat_map]. rewrite map_app. apply in_or_app. right. auto. }
    cbn [ordered]. split; [|split; auto].
    - intros X. unfold column in X. apply in_map_iff in X as ([y e'] & Ey & Hy). cbn [fst] in Ey. subst y. apply in_flat_map in Hy as (eqs2 & He2 & Hy). apply In_nth_error in He2 as (i & Hi).
      assert (Hi' : nth_error F (List.length l1 + S i) = Some eqs2). { rewrite EF, nth_error_app2 by lia. replace (List.length l1 + S i - List.length l1) with (S i) by lia. auto. }
      assert (Lk2 := nth_error_some_lt _ _ _ Hi'). rewrite LF in Lk2. destruct (nth_error_ex _ _ Lk2) as (r2 & Hr2). destruct (C _ r2 Hr2) as (eqs3 & P1 & _ & P3). assert (eqs3 = eqs2) by congruence. subst eqs3.
      destruct (P3 c n Hn) as (d2 & _ & P5). rewrite P5 in Hy. cbn in Hy. destruct Hy as [E|[]]. injection E as E _. apply vname_inj in E. lia.
    - intros y Hy [X|X]; apply (Rd c _ _ In1 Hc y Hy c); auto. rewrite <- X. apply (in_map fst) in In1. exact In1. }
  assert (G : forall m c, c + m <= List.length nodes -> ordered (flat_map (column F) (seq c m))).
  { induction m as [|m IH]; intros c Lc; cbn [seq flat_map]. { exact I. } apply ordered_app. apply Col; lia. apply IH; lia.
    intros x e Hx. assert (Dom : forall y, In y (map fst (flat_map (column F) (seq (S c) m))) -> exists c', c < c' < List.length nodes /\ In y (map fst (column F c'))).
    { intros y Hy. apply in_map_iff in Hy as ([z e'] & <- & Hz). apply in_flat_map in Hz as (c' & Hc' & Hz). apply in_seq in Hc'. exists c'. split; [lia|]. apply (in_map fst) in Hz. exact Hz. }
    split.
    - intros X. destruct (Dom x X) as (c' & Lc' & X'). assert (Lc0 : c < List.length nodes) by lia. destruct (column_in nodes F c x e H HF Hx Lc0) as (k & r & n & d & _ & Hn & _ & -> & _).
      destruct (column_dom nodes F c' _ H HF X' ltac:(lia)) as (k' & n' & Hn' & E). apply vname_inj2 in E as [E _]. assert (c = c'); [|lia]. eapply NoDup_names; eauto.
    - intros y Hy X. destruct (Dom y X) as (c' & Lc' & X'). apply (Rd c x e Hx ltac:(lia) y Hy c'); auto; lia. }
  apply (G (List.length nodes) 0). lia.
Qed.
(** Started with the first unknown's solution names defined, the assignments produce a state in which all equations hold
    and every other symbol is unchanged: C43_rows_are_solutions and C43_nothing_lost apply to it. *)
Theorem C43_program_runs nodes F rho : handed_over nodes -> NoDup (names_of nodes) -> version_free (names_of nodes) -> earlier_only nodes -> inputs_free nodes ->
  make_LHS_versions nodes (create_solution_set nodes) = Some F ->
  (forall n0 ns b e, nodes = n0 :: ns -> nth_error (n_sols n0) b = Some e -> rho (sname (n_name n0) (S b)) = eval rho e) ->
  let rho' := run (program nodes F) rho in
  executed nodes F rho' /\ forall x, (forall n k, In n nodes -> x <> vname (n_name n) k) -> rho' x = rho x.
Proof.
  intros H N Vf Eo If HF Fst. cbv zeta.
  assert (Out : forall x, (forall n k, In n nodes -> x <> vname (n_name n) k) -> run (program nodes F) rho x = rho x).
  { intros x Hx. apply run_out. intros X. apply in_map_iff in X as ([y e] & <- & Hy). unfold program in Hy. apply in_flat_map in Hy as (c & Hc & Hy). apply in_seq in Hc.
    destruct (column_in nodes F c y e H HF Hy ltac:(lia)) as (k & r & n & d & _ & Hn & _ & E & _). apply (Hx n (S k)); auto. eapply nth_error_In; eauto. }
  split; auto. split.
  - intros eqs q He Hq. destruct (C43_equations nodes F H HF) as [LF C]. apply In_nth_error in He as (k & Hk). assert (Lk := nth_error_some_lt _ _ _ Hk). rewrite LF in Lk. destruct (nth_error_ex _ _ Lk) as (r & Hr).
    destruct (C k r Hr) as (eqs' & Q1 & Q2 & Q3). assert (eqs' = eqs) by congruence. subst. apply In_nth_error in Hq as (c & Hc). assert (Lc := nth_error_some_lt _ _ _ Hc). rewrite Q2 in Lc.
    destruct (nth_error_ex _ _ Lc) as (n & Hn). destruct (Q3 c n Hn) as (d & _ & Q5). assert (q = Keq (Sym (vname (n_name n) (S k))) (subs_all (sub_names nodes r) d)) by congruence. subst q. cbn [k_lhs k_rhs]. cbn [eval].
    apply run_exec. apply program_ordered; auto. unfold program. apply in_flat_map. exists c. split. { apply in_seq. lia. } unfold column. apply in_flat_map. exists eqs. split. { eapply nth_error_In; eauto. } rewrite Q5. left. auto.
  - intros n0 ns b e En He. rewrite Out. 2:{ intros n k _ E. apply (f_equal mark) in E. unfold sname in E. rewrite vname_mark, sname_mark in E. discriminate. }
    rewrite (Fst n0 ns b e En He). apply eval_ext. intros x Hx. symmetry. apply Out. intros n k Hn E.
    destruct (in_dec string_dec x (names_of nodes)) as [I|I].
    + assert (X := Vf x (n_name n) k I (in_map n_name _ _ Hn)). tauto.
    + apply (If n0 e x) with (m := n) (k := k); auto. rewrite En. left; auto. eapply nth_error_In; eauto.
Qed.
