(** C22, C23, C24, C25 over histories: what is true of the solution nodes and the solved unknowns after any
    history of ticks. *)
From Coq Require Import Reals ZArith List String Bool Arith Lia Permutation DecimalString DecimalNat.
From Verif Require Import Expr Kin Solver SolverSpec SolverFacts SolverInv PropLists SolverHist HistFacts.
Import ListNotations.
Local Open Scope string_scope.
Local Open Scope list_scope.
Local Open Scope nat_scope.

(** Unknown number i in state s. *)
Definition un (s : state) (i : nat) : unk := getu (s_heap s) i.
(** One of i's recorded solutions mentions j. *)
Definition mentions (s : state) (i j : nat) : Prop := exists e, In e (solutions (un s i)) /\ has (u_sym (un s j)) e = true.

(** * C25 at run level *)
(** After any history, a recorded solution mentions only solved unknowns, and a solved unknown has at least one
    solution. *)
Theorem C25_no_unsolved_in_solutions sy s0 ts s i : initial sy s0 -> runs sy s0 ts s -> u_solved (un s i) = true ->
  solutions (un s i) <> [] /\ forall j, In j (s_unks s) -> mentions s i j -> u_solved (un s j) = true.
Proof.
  intros I R H. apply hinv_initial in I. destruct (hinv_runs sy s0 ts s I R) as (_ & _ & _ & H4 & _).
  destruct (H4 i H) as (K1 & _ & K3). split; auto. intros j Hj (e & He & Hh). eapply K3; eauto.
Qed.
(** Solved unknowns stay solved, after any history. *)
Theorem C24_solved_forever sy s0 ts0 s ts s' i : initial sy s0 -> runs sy s0 ts0 s -> runs sy s ts s' -> u_solved (un s i) = true -> u_solved (un s' i) = true.
Proof.
  intros I R0 R. apply hinv_initial in I. assert (Hv := hinv_runs _ _ _ _ I R0). clear I R0. induction R; auto.
  intros Hs. assert (St := task_step sy t s b s1 (hinv_curr s Hv) H). apply IHR; [eapply step_hinv; eauto|].
  destruct St as [i0 f _ _ Eh Q _|i0 f _ P E _]; unfold un in *.
  - rewrite Eh. destruct (quiet_getu i0 f (s_heap s) i Q) as [B _]. rewrite (book_solved _ _ B). auto.
  - apply solve_step in E as [_ E]; auto. cbv zeta in E. destruct E as (deps & nver & (_ & U2 & _) & _ & Eo & _).
    destruct (Nat.eq_dec i i0) as [->|N]; auto. rewrite Eo; auto.
Qed.

(** * C22: the ranker *)
(** After any history, when the sin/cos-or-atan2 step solves an unsolved unknown, the solutions kept are those of the
    method the rule prefers: the one with fewer solutions; on a tie sin/cos only if its first solution has strictly
    fewer variables; the only one available if there is just one ([better], SolverHist.v). *)
Theorem C22_kept_is_better sy s0 ts s s' i : initial sy s0 -> runs sy s0 ts s -> s_curr s = Some i -> u_solved (un s i) = false -> sc_tan sy s = OK true s' ->
  u_solved (un s' i) = true /\ (u_sc (un s' i) <> [] \/ u_tan (un s' i) <> [])
  /\ solutions (un s' i) = better (map (fun j => u_sym (un s' j)) (s_unks s')) (u_sc (un s' i)) (u_tan (un s' i)).
Proof.
  intros I R Hc Hs H. apply hinv_initial in I. assert (Hv := hinv_runs _ _ _ _ I R). assert (Hi := hinv_curr s Hv i Hc).
  destruct Hv as (_ & _ & H3 & _). destruct (H3 i Hs) as (_ & _ & _ & _ & P1 & P2 & P3 & P4 & _).
  apply eff_sc_tan in H as (i' & Hc' & H). assert (i' = i) by congruence. subst i'. destruct (H Hi) as [[? _]|(_ & f & P & E & _ & K)]; [discriminate|].
  destruct (K _ eq_refl P1 P2 P3 P4) as (K1 & K2 & _). assert (Eb := book_sym _ _ (proj1 P (getu (s_heap s) i))). apply solve_step in E as [_ E]; auto. cbv zeta in E.
  destruct E as (deps & nver & (U1 & U2 & U3 & _ & _ & _ & _ & _ & _ & U10 & U11 & _) & _ & Eo & _ & Eun & _). unfold un.
  rewrite U2, U3, U10, U11, Eun. split; auto. split; auto. rewrite K2. f_equal. unfold syms_of, unk_objs. rewrite map_map. apply map_ext.
  intros j. destruct (Nat.eq_dec j i) as [->|N]. congruence. rewrite Eo; auto.
Qed.
(** The ranker alone: with no candidate nothing changes; otherwise the current unknown becomes solved. *)
Theorem C22_no_candidate s i : s_curr s = Some i -> u_sc (un s i) = [] -> u_tan (un s i) = [] -> rank s = OK true s.
Proof. intros Hc H1 H2. unfold rank, with_curr. rewrite Hc. fold (un s i). rewrite H1, H2. reflexivity. Qed.
Theorem C22_both_candidates s s' b i : s_curr s = Some i -> i < List.length (s_heap s) -> u_sc (un s i) <> [] -> u_tan (un s i) <> [] -> rank s = OK b s' ->
  b = true /\ u_solved (un s' i) = true /\ solutions (un s' i) = better (map (fun j => u_sym (un s j)) (s_unks s)) (u_sc (un s i)) (u_tan (un s i)).
Proof.
  intros Hc Hi H1 H2 H. apply eff_rank in H as (i' & Hc' & -> & H). assert (i' = i) by congruence. subst i'. cbv zeta in H. fold (un s i) in H.
  split; auto. destruct H as [(? & _)|(f & P & E & H)]; [tauto|]. destruct H as [(_ & _ & K & _)|([(? & _)|(_ & ?)] & _)]; [|tauto|tauto].
  apply solve_step in E as [_ E]; auto. cbv zeta in E. destruct E as (deps & nver & (U1 & U2 & U3 & _) & _). unfold un at 1 2. rewrite U2, U3. split; auto.
  fold (un s i). rewrite K. f_equal. unfold syms_of, unk_objs. rewrite map_map. auto.
Qed.

(** * C23, C24 *)
(** The tick does not hand an already solved unknown to an atan2 solver that has identified it before.  (Without this
    the properties fail: [C23_solved_twice_refuted].) *)
Definition no_resolve (t : task) (s : state) : Prop := t = TScTan -> forall i, s_curr s = Some i -> u_solved (un s i) = true -> u_tanable (un s i) = false.
Inductive runs1 (sy : sympy) : state -> list (task * bool) -> state -> Prop :=
| runs1_nil s : runs1 sy s [] s
| runs1_cons s t b s1 ts s2 : no_resolve t s -> run_task sy t s = OK b s1 -> runs1 sy s1 ts s2 -> runs1 sy s ((t, b) :: ts) s2.
Lemma runs1_runs sy s ts s' : runs1 sy s ts s' -> runs sy s ts s'.
Proof. induction 1; econstructor; eauto. Qed.

(** What is recorded about a solved unknown. *)
Definition recorded (s : state) (i : nat) : Prop :=
  let u := un s i in
  u_nsol u = List.length (solutions u)
  /\ u_names u = sol_names (u_sym u) (u_nsol u)
  /\ (forall x, In x (map (fun d => u_sym (un s d)) (u_deps u)) <-> In x (map (fun j => u_sym (un s j)) (s_unks s)) /\ exists e, In e (solutions u) /\ has x e = true)
  /\ NoDup (map (fun d => u_sym (un s d)) (u_deps u))
  /\ (forall d, In d (u_deps u) -> In d (s_unks s) /\ mentions s i d)
  /\ u_nver u = u_nsol u * prod (map (fun d => u_nsol (un s d)) (u_deps u))
  /\ u_vers u = map (fun k => nth (k mod u_nsol u) (u_names u) "") (seq 0 (u_nver u)).
Definition hinv1 (s : state) : Prop :=
  hinv s /\ NoDup (s_nodes s) /\ map (fun i => u_order (un s i)) (s_nodes s) = seq 1 (List.length (s_nodes s))
  /\ (forall i, In i (s_nodes s) -> recorded s i)
  /\ (forall i j, In i (s_nodes s) -> In j (s_unks s) -> mentions s i j -> j = i \/ u_order (un s j) < u_order (un s i))
  /\ NoDup (s_edges s)
  /\ (forall a b, In (a, b) (s_edges s) <-> exists i d, In i (s_nodes s) /\ In d (u_deps (un s i)) /\ a = u_sym (un s i) /\ b = u_sym (un s d)).

Lemma add_edge_in es x y : In y (add_edge es x) <-> In y es \/ y = x.
Proof.
  unfold add_edge. destruct (existsb _ _) eqn:E.
  - apply existsb_exists in E as ([a b] & Hx & E). apply andb_true_iff in E as [E1 E2]. apply String.eqb_eq in E1, E2. destruct x as [x1 x2]. simpl in *. subst. split; auto. intros [?| ->]; auto.
  - rewrite in_app_iff. simpl. intuition.
Qed.
Lemma add_edge_nodup es x : NoDup es -> NoDup (add_edge es x).
Proof.
  intros N. unfold add_edge. destruct (existsb _ _) eqn:E; auto. apply (Permutation_NoDup (l := x :: es)). apply Permutation_cons_append. constructor; auto.
  intros Hx. assert (X : existsb (fun e' => String.eqb (fst e') (fst x) && String.eqb (snd e') (snd x)) es = true); [|congruence].
  apply existsb_exists. exists x. rewrite !String.eqb_refl. auto.
Qed.
Lemma add_edges (g : nat -> string * string) ds : forall es, (NoDup es -> NoDup (fold_left (fun es d => add_edge es (g d)) ds es))
  /\ forall y, In y (fold_left (fun es d => add_edge es (g d)) ds es) <-> In y es \/ exists d, In d ds /\ y = g d.
Proof.
  induction ds as [|d ds IH]; simpl; intros es. { split; auto. intros y. split; auto. intros [?|(d & [] & _)]; auto. }
  destruct (IH (add_edge es (g d))) as [I1 I2]. split. { intros N. apply I1. apply add_edge_nodup. auto. }
  intros y. rewrite I2, add_edge_in. split.
  - intros [[?| ->]|(d' & ? & ?)]; eauto.
  - intros [?|(d' & [<-|?] & ?)]; eauto.
Qed.
(** In a history without re-solving nothing about a solved unknown ever changes. *)
Lemma step_frozen t s s' i : step t s s' -> no_resolve t s -> u_solved (un s i) = true -> un s' i = un s i.
Proof.
  intros [i0 f _ _ Eh Q S|i0 f Hc P E S Fw] N Hs; unfold un in *.
  - destruct (Nat.eq_dec i i0) as [->|Ne]. rewrite (S Hs). auto. rewrite Eh, getu_updh_other; auto.
  - destruct (Nat.eq_dec i i0) as [->|Ne]. { destruct (S Hs) as [-> T]. specialize (N eq_refl _ Hc Hs). unfold un in N. congruence. }
    apply solve_step in E as [_ E]; auto. cbv zeta in E. destruct E as (deps & nver & _ & _ & Eo & _). apply Eo; auto.
Qed.
Lemma step_syms t s s' : step t s s' -> s_unks s' = s_unks s /\ forall i, u_sym (un s' i) = u_sym (un s i).
Proof.
  intros [i0 f (R1 & _) _ Eh Q S|i0 f Hc P E S Fw]; unfold un in *.
  - split; auto. intros i. rewrite Eh. destruct (quiet_getu i0 f (s_heap s) i Q) as [B _]. apply book_sym. auto.
  - assert (B := proj1 P (getu (s_heap s) i0)). apply solve_step in E as [_ E]; auto. cbv zeta in E. destruct E as (deps & nver & (U1 & _) & _ & Eo & _ & Eun & _). split; auto. intros i.
    destruct (Nat.eq_dec i i0) as [->|Ne]. rewrite U1. apply book_sym; auto. rewrite Eo; auto.
Qed.
Lemma recorded_frozen s s' i : s_unks s' = s_unks s -> (forall j, u_sym (un s' j) = u_sym (un s j)) -> un s' i = un s i ->
  (forall d, In d (u_deps (un s i)) -> u_nsol (un s' d) = u_nsol (un s d)) -> recorded s i -> recorded s' i.
Proof.
  intros Eu Es Ei En (K1 & K2 & K3 & K4 & K5 & K6 & K7). unfold recorded. rewrite Ei, Eu. split; auto. split; auto.
  assert (M : forall l, map (fun d => u_sym (un s' d)) l = map (fun d => u_sym (un s d)) l) by (intros; apply map_ext; auto).
  rewrite !M. split; auto. split; auto. split. { intros d Hd. destruct (K5 d Hd) as (K & e & ?). split; auto. exists e. rewrite Ei, Es. auto. }
  split; auto. rewrite K6. f_equal. f_equal. apply map_ext_in. intros d Hd. symmetry. auto.
Qed.
Lemma step_hinv1 t s s' : hinv1 s -> no_resolve t s -> step t s s' -> hinv1 s'.
Proof.
  intros (Hv & H1 & H2 & H3 & H4 & H5 & H6) N St. assert (Hv' := step_hinv t s s' Hv St). split; auto.
  assert (Fz : forall i, In i (s_nodes s) -> un s' i = un s i). { intros i Hi. eapply step_frozen; eauto. apply Hv. auto. }
  destruct (step_syms t s s' St) as [Eu Es].
  assert (Rc : forall i, In i (s_nodes s) -> recorded s' i).
  { intros i Hi. apply (recorded_frozen s); auto. intros d Hd. destruct (H3 i Hi) as (_ & _ & _ & _ & K & _). destruct (K d Hd) as [Kd (e & He & Hh)].
    rewrite Fz; auto. apply Hv. destruct Hv as (_ & _ & _ & V4 & V5 & _). destruct (V4 i) as (_ & _ & V). { apply V5. auto. } eapply V; eauto. }
  assert (Mn : forall i j, In i (s_nodes s) -> mentions s' i j -> mentions s i j).
  { intros i j Hi (e & He & Hh). rewrite Fz in He by auto. rewrite Es in Hh. exists e. auto. }
  assert (Sl : forall i j, In i (s_nodes s) -> In j (s_unks s) -> mentions s i j -> In j (s_nodes s)).
  { intros i j Hi Hj (e & He & Hh). destruct Hv as (_ & _ & _ & V4 & V5 & _). apply V5. destruct (V4 i) as (_ & _ & V). { apply V5. auto. } eapply V; eauto. }
  destruct St as [i0 f (R1 & R2 & R3 & R4) C Eh Q S|i0 f Hc P E S Fw].
  - rewrite R3, R4, R1. split; auto. split. { rewrite <- H2. apply map_ext_in. intros i Hi. rewrite Fz; auto. }
    split; auto. split. { intros i j Hi Hj M. rewrite (Fz i), (Fz j); eauto. } split; auto.
    intros a b. rewrite H6. split; intros (i & d & Hi & Hd & -> & ->); exists i, d; rewrite ?Es; repeat split; auto. rewrite Fz; auto. rewrite Fz in Hd; auto.
  - assert (Ns : u_solved (un s i0) = false). { destruct (u_solved (un s i0)) eqn:Eso; auto. destruct (S Eso) as [-> T]. specialize (N eq_refl _ Hc Eso). unfold un in N. congruence. }
    assert (Nn : ~ In i0 (s_nodes s)). { intros X. apply (hinv_nodes s i0 Hv) in X. unfold un in Ns. congruence. }
    assert (B := proj1 P (getu (s_heap s) i0)). apply solve_step in E as [Hi E]; auto. cbv zeta in E. set (v := f (getu (s_heap s) i0)) in *.
    destruct E as (deps & nver & (U1 & U2 & U3 & U4 & U5 & U6 & U7 & U8 & U9 & _) & Hne & Eo & El & _ & Ec & En & Ends & Ee & Hnv & D1 & D2 & D3 & D4 & D5).
    fold (un s' i0) in U1, U2, U3, U4, U5, U6, U7, U8, U9.
    destruct Hv as (_ & _ & V3 & _ & V5 & V6 & V7). destruct (V3 i0 Ns) as (_ & P2 & P3 & P4 & _).
    assert (Bv : u_names v = [] /\ u_vers v = [] /\ u_deps v = [] /\ u_sym v = u_sym (un s i0)).
    { unfold book in B. fold v in B. injection B as B1 _ _ _ B2 B3 B4 _ _. rewrite B2, B3, B4, P2, P3, P4. repeat split; auto. }
    destruct Bv as (Bn & Bv & Bd & Bs). rewrite Bn in U8. rewrite Bv in U9. rewrite Bd in D2, D5. simpl in U8, U9.
    rewrite Ends. split. { apply (Permutation_NoDup (l := i0 :: s_nodes s)). apply Permutation_cons_append. constructor; auto. }
    split. { rewrite map_app, app_length. simpl. rewrite seq_app. simpl. rewrite U5, <- V6. f_equal. rewrite V6, <- H2. apply map_ext_in. intros i Hin. rewrite Fz; auto. }
    assert (Mi : forall j, mentions s' i0 j <-> exists e, In e (solutions v) /\ has (u_sym (un s j)) e = true). { intros j. unfold mentions. rewrite U3, Es. tauto. }
    assert (Ri : recorded s' i0).
    { unfold recorded. rewrite U3, U4, U8, U1, U6, U7, Eu. split; auto. split; auto.
      assert (M : forall l, map (fun d => u_sym (un s' d)) l = map (fun d => u_sym (un s d)) l) by (intros; apply map_ext; auto). rewrite !M.
      split. { intros x. split.
        - intros Hx. apply in_map_iff in Hx as (d & <- & Hd). apply D2 in Hd as [[]|(Hd & e & He & Hh)]. split; eauto. apply (in_map (fun j => u_sym (un s j))). auto.
        - intros [Hx (e & He & Hh)]. apply in_map_iff in Hx as (j & <- & Hj). destruct (D4 e j He Hj Hh) as (d & Hd & Ed). unfold un at 1. rewrite <- Ed. apply (in_map (fun d => u_sym (un s d))). auto. }
      split. { apply D5. constructor. }
      split. { intros d Hd. apply D2 in Hd as [[]|(Hd & e & He & Hh)]. split; auto. apply Mi. eauto. }
      split. { exact Hnv. } rewrite U9, U8. reflexivity. }
    split. { intros i Hin. apply in_app_or in Hin as [?|[<-|[]]]; auto. }
    split. { intros i j Hin Hj M. rewrite Eu in Hj. apply in_app_or in Hin as [Hin|[<-|[]]].
      - apply Mn in M; auto. rewrite (Fz i), (Fz j); eauto.
      - apply Mi in M as (e & He & Hh). destruct (D1 e j He Hj Hh) as [->|Hsj]; auto. right. apply V5 in Hsj. rewrite (Fz j) by auto. rewrite U5.
        assert (X : In (u_order (un s j)) (seq 1 (List.length (s_nodes s)))). { rewrite <- H2. apply (in_map (fun i => u_order (un s i))). auto. }
        apply in_seq in X. lia. }
    rewrite Ee. destruct (add_edges (fun d => (u_sym v, u_sym (getu (s_heap s) d))) deps (s_edges s)) as [A1 A2]. split; auto.
    intros a b. rewrite A2, H6. split.
    + intros [(i & d & Hin & Hd & -> & ->)|(d & Hd & Ed)].
      * exists i, d. rewrite !Es. split; [apply in_or_app; auto|]. split; auto. rewrite Fz; auto.
      * injection Ed as -> ->. exists i0, d. rewrite !Es, Bs, U6. split; [apply in_or_app; right; left; auto|]. auto.
    + intros (i & d & Hin & Hd & -> & ->). rewrite !Es. apply in_app_or in Hin as [Hin|[<-|[]]].
      * left. exists i, d. rewrite Fz in Hd; auto.
      * right. exists d. rewrite U6 in Hd. rewrite Bs. auto.
Qed.
Lemma hinv1_initial sy s : initial sy s -> hinv1 s.
Proof.
  intros I. split. { eapply hinv_initial; eauto. } destruct I as (_ & _ & _ & _ & _ & -> & -> & _). simpl. repeat split; try constructor; try tauto.
  intros (i & d & [] & _).
Qed.
Lemma hinv1_runs sy s ts s' : hinv1 s -> runs1 sy s ts s' -> hinv1 s'.
Proof. intros Hv R. induction R; auto. apply IHR. eapply step_hinv1; eauto. eapply task_step; eauto. apply hinv_curr. apply Hv. Qed.

(** Solution nodes: each solved unknown once, numbered 1, 2, 3, ... in the order they were solved; and a solution
    mentions, besides possibly its own unknown, only unknowns with smaller numbers. *)
Theorem C23_solved_once_in_order sy s0 ts s : initial sy s0 -> runs1 sy s0 ts s ->
  NoDup (s_nodes s)
  /\ (forall i, In i (s_nodes s) <-> In i (s_unks s) /\ u_solved (un s i) = true)
  /\ s_solveN s = List.length (s_nodes s)
  /\ map (fun i => u_order (un s i)) (s_nodes s) = seq 1 (List.length (s_nodes s))
  /\ (forall i j, In i (s_nodes s) -> In j (s_unks s) -> mentions s i j -> j = i \/ (In j (s_nodes s) /\ u_order (un s j) < u_order (un s i))).
Proof.
  intros I R. destruct (hinv1_runs sy s0 ts s (hinv1_initial sy s0 I) R) as ((_ & _ & _ & V4 & V5 & V6 & V7) & H1 & H2 & _ & H4 & _).
  split; auto. split. { intros i. split. intros Hi. split; auto. apply V5. auto. intros [_ ?]. apply V5. auto. }
  split; auto. split; auto. intros i j Hi Hj M. destruct (H4 i j Hi Hj M) as [?|?]; auto. right. split; auto.
  destruct M as (e & He & Hh). apply V5. destruct (V4 i) as (_ & _ & V). { apply V5. auto. } eapply V; eauto.
Qed.
(** The dependency graph: exactly the pairs (i, dependency of i), no edge twice. *)
Theorem C23_edges sy s0 ts s : initial sy s0 -> runs1 sy s0 ts s ->
  NoDup (s_edges s) /\ forall a b, In (a, b) (s_edges s) <-> exists i d, In i (s_nodes s) /\ In d (u_deps (un s i)) /\ a = u_sym (un s i) /\ b = u_sym (un s d).
Proof. intros I R. destruct (hinv1_runs sy s0 ts s (hinv1_initial sy s0 I) R) as (_ & _ & _ & _ & _ & H). auto. Qed.
(** Counts, names, dependencies and versions of every solved unknown. *)
Theorem C24_recorded sy s0 ts s i : initial sy s0 -> runs1 sy s0 ts s -> u_solved (un s i) = true -> u_nsol (un s i) >= 1 /\ recorded s i.
Proof.
  intros I R Hi. destruct (hinv1_runs sy s0 ts s (hinv1_initial sy s0 I) R) as (Hv & _ & _ & H3 & _). destruct Hv as (_ & _ & _ & V4 & V5 & _).
  split. { destruct (V4 i Hi) as (K1 & K2 & _). unfold un. rewrite K2. destruct (solutions _); [tauto|simpl; lia]. } apply H3. apply V5. auto.
Qed.
(** Every solved unknown has one or two solutions, and no version name has been made for it yet. *)
Definition hinv2 (s : state) : Prop := forall i, List.length (solutions (un s i)) <= 2 /\ u_lhsnames (un s i) = [].
Lemma step_hinv2 t s s' : hinv s -> no_resolve t s -> step t s s' -> hinv2 s -> hinv2 s'.
Proof.
  intros Hv N [i0 f _ _ Eh Q S|i0 f Hc P E S Fw] V i; unfold un in *.
  - rewrite Eh. destruct (quiet_getu i0 f (s_heap s) i Q) as [B K]. destruct (book_stock _ _ B K) as (_ & _ & -> & _). unfold book in B. injection B as _ _ _ _ _ _ _ _ ->. apply V.
  - assert (Ns : u_solved (un s i0) = false). { destruct (u_solved (un s i0)) eqn:Eso; auto. destruct (S Eso) as [-> T]. specialize (N eq_refl _ Hc Eso). unfold un in N. congruence. }
    assert (B := proj1 P (getu (s_heap s) i0)). assert (Hi := hinv_curr s Hv i0 Hc).
    apply set_solved_spec in E; [|rewrite len_upd; auto]. cbv zeta in E. destruct E as (deps & nver & _ & _ & _ & Eh & _).
    rewrite Eh. destruct (Nat.eq_dec i i0) as [->|Ne].
    + rewrite getu_updh_same by (rewrite len_upd; auto). rewrite get_upd by auto. set (v := f (getu (s_heap s) i0)) in *.
      destruct (solved_facts (Datatypes.S (s_solveN (upd_unk i0 f s))) deps nver v) as (_ & _ & -> & _).
      change (u_lhsnames (solved_unk (Datatypes.S (s_solveN (upd_unk i0 f s))) deps nver v)) with (u_lhsnames v). split.
      * destruct Hv as (_ & _ & H3 & _). destruct (H3 i0 Ns) as (_ & _ & _ & _ & P1 & P2 & P3 & P4 & _). apply Fw; auto.
      * unfold book in B. injection B as _ _ _ _ _ _ _ _ ->. apply V.
    + rewrite getu_updh_other by auto. unfold upd_unk. cbn [s_heap set_s_heap]. rewrite getu_updh_other by auto. apply V.
Qed.
Lemma hinv2_runs sy s ts s' : hinv s -> hinv2 s -> runs1 sy s ts s' -> hinv2 s'.
Proof. intros Hv H2 R. induction R; auto. assert (St := task_step sy t s b s1 (hinv_curr s Hv) H0). apply IHR. eapply step_hinv; eauto. eapply step_hinv2; eauto. Qed.
Lemma hinv2_initial sy s : initial sy s -> hinv2 s.
Proof.
  intros (Hf & _) i. unfold un. destruct (Nat.lt_ge_cases i (List.length (s_heap s))). rewrite (Hf (getu (s_heap s) i)) by (apply getu_in; auto). simpl. auto.
  unfold getu. rewrite nth_overflow by auto. simpl. auto.
Qed.
Theorem C24_one_or_two sy s0 ts s i : initial sy s0 -> runs1 sy s0 ts s -> u_solved (un s i) = true -> u_nsol (un s i) = 1 \/ u_nsol (un s i) = 2.
Proof.
  intros I R Hi. destruct (C24_recorded sy s0 ts s i I R Hi) as [G (E & _)]. destruct (hinv2_runs sy s0 ts s (hinv_initial sy s0 I) (hinv2_initial sy s0 I) R i) as [L _]. lia.
Qed.
(** The names given to the solutions are pairwise different. *)
Lemma append_inj p a b : append p a = append p b -> a = b.
Proof. induction p; simpl; intros H; auto. injection H as H. auto. Qed.
Lemma append_assoc a b c : append (append a b) c = append a (append b c).
Proof. induction a; simpl; congruence. Qed.
Lemma str_of_nat_inj a b : str_of_nat a = str_of_nat b -> a = b.
Proof.
  unfold str_of_nat. intros H. apply (f_equal NilEmpty.uint_of_string) in H. rewrite !NilEmpty.usu in H. injection H as H. apply Unsigned.to_uint_inj. auto.
Qed.
Theorem C24_names_distinct name n : NoDup (sol_names name n) /\ List.length (sol_names name n) = n
  /\ forall k, k < n -> nth k (sol_names name n) "" = append name (append "s" (str_of_nat (S k))).
Proof.
  unfold sol_names. split; [|split].
  - assert (G : forall l, NoDup l -> NoDup (map (fun k => append (append name "s") (str_of_nat (S k))) l)).
    { induction l; simpl; intros N; constructor; inversion N; subst; auto. intros X. apply in_map_iff in X as (k & E & Hk). apply append_inj in E. apply str_of_nat_inj in E. injection E as ->. tauto. }
    apply G. apply seq_NoDup.
  - rewrite map_length, seq_length. auto.
  - intros k Hk. rewrite <- (append_assoc name). rewrite (nth_indep _ "" (append (append name "s") (str_of_nat (S 0)))) by (rewrite map_length, seq_length; auto).
    rewrite (map_nth (fun k => append (append name "s") (str_of_nat (S k)))). rewrite seq_nth; auto.
Qed.
(** Once solved, nothing recorded about an unknown changes any more. *)
Theorem C24_frozen sy s0 ts0 s ts s' i : initial sy s0 -> runs1 sy s0 ts0 s -> runs1 sy s ts s' -> u_solved (un s i) = true -> un s' i = un s i.
Proof.
  intros I R0 R. assert (Hv := proj1 (hinv1_runs sy s0 ts0 s (hinv1_initial sy s0 I) R0)). clear I R0. induction R; auto. intros Hi.
  assert (St := task_step sy t s b s1 (hinv_curr s Hv) H0). assert (E := step_frozen t s s1 i St H Hi). rewrite IHR; auto. eapply step_hinv; eauto. rewrite E. auto.
Qed.

(** * The shipped tree *)
Lemma step_tanable t s s' i : step t s s' -> u_tanable (un s i) = true -> u_tanable (un s' i) = true.
Proof.
  intros [i0 f _ _ Eh Q S|i0 f Hc P E S Fw] H; unfold un in *.
  - rewrite Eh. destruct (Nat.eq_dec i i0) as [->|Ne]; [|rewrite getu_updh_other; auto]. destruct (Nat.lt_ge_cases i0 (List.length (s_heap s))).
    rewrite getu_updh_same by auto. apply Q. auto. rewrite updh_oob; auto.
  - apply solve_step in E as [_ E]; auto. cbv zeta in E. destruct E as (deps & nver & (_ & _ & _ & _ & _ & _ & _ & _ & _ & _ & _ & U12) & _ & Eo & _).
    destruct (Nat.eq_dec i i0) as [->|Ne]; [|rewrite Eo; auto]. rewrite U12. apply P. auto.
Qed.
(** A history in which the atan2 step is given a solved unknown only when it is the first of the list. *)
Definition wrapped (t : task) (s : state) : Prop := t = TScTan -> forall i, s_curr s = Some i -> u_solved (un s i) = true -> exists l, s_unks s = i :: l.
Inductive runs2 (sy : sympy) : state -> list (task * bool) -> state -> Prop :=
| runs2_nil s : runs2 sy s [] s
| runs2_cons s t b s1 ts s2 : wrapped t s -> run_task sy t s = OK b s1 -> runs2 sy s1 ts s2 -> runs2 sy s ((t, b) :: ts) s2.
Lemma runs2_runs1 sy s ts s' : hinv s -> (forall i l, s_unks s' = i :: l -> u_tanable (un s' i) = false) -> runs2 sy s ts s' -> runs1 sy s ts s'.
Proof.
  intros Hv T R. induction R as [|s t b s1 ts s2 H H0 R1 IHR]; [constructor|]. assert (St := task_step sy t s b s1 (hinv_curr s Hv) H0). assert (Hv1 := step_hinv t s s1 Hv St).
  econstructor; eauto. intros Et i Hc Hi. destruct (H Et i Hc Hi) as (l & El). destruct (u_tanable (un s i)) eqn:Eta; auto.
  assert (X : s_unks s2 = s_unks s1 /\ (u_tanable (un s1 i) = true -> u_tanable (un s2 i) = true)).
  { clear - R1 Hv1. induction R1 as [|s t b s1 ts s2 H H0 R1 IHR]; auto. assert (St := task_step sy t s b s1 (hinv_curr s Hv1) H0). destruct (IHR (step_hinv t s s1 Hv1 St)) as [X1 X2].
    split. rewrite X1. apply (step_syms t s s1 St). intros K. apply X2. eapply step_tanable; eauto. }
  destruct X as [X1 X2]. assert (E1 : s_unks s1 = i :: l) by (rewrite (proj1 (step_syms t s s1 St)); auto).
  rewrite <- (T i l); [|congruence]. symmetry. apply X2. eapply step_tanable; eauto.
Qed.
Lemma runs2_app sy s1 a s2 b s3 : runs2 sy s1 a s2 -> runs2 sy s2 b s3 -> runs2 sy s1 (a ++ b) s3.
Proof. intros H. induction H; simpl; auto. intros. econstructor; eauto. Qed.
(** [f] started in a state satisfying P runs such a history; with outcome b it ends in Q b. *)
Definition traced2 (sy : sympy) (P : state -> Prop) (f : state -> outcome) (Q : bool -> state -> Prop) : Prop :=
  forall s b s', P s -> f s = OK b s' -> Q b s' /\ exists ts, runs2 sy s ts s'.
Lemma t2_seq2 sy (P : state -> Prop) (Q R : bool -> state -> Prop) f g : traced2 sy P f Q -> (forall s, Q false s -> R false s) -> traced2 sy (Q true) g R -> traced2 sy P (seq2 f g) R.
Proof.
  intros Hf Hi Hg s b s' Hp H. unfold seq2 in H. destruct (f s) as [[] s1|] eqn:E; try discriminate.
  - destruct (Hf s true s1 Hp E) as [Q1 (ts & R1)]. destruct (Hg s1 b s' Q1 H) as [Q2 (ts2 & R2)]. split; auto. exists (ts ++ ts2). eapply runs2_app; eauto.
  - injection H as <- <-. destruct (Hf s false s1 Hp E) as [Q1 R1]. auto.
Qed.
Lemma t2_prio2 sy (P : state -> Prop) (Q R : bool -> state -> Prop) f g : traced2 sy P f Q -> (forall s, Q true s -> R true s) -> traced2 sy (Q false) g R -> traced2 sy P (prio2 f g) R.
Proof.
  intros Hf Hi Hg s b s' Hp H. unfold prio2 in H. destruct (f s) as [[] s1|] eqn:E; try discriminate.
  - injection H as <- <-. destruct (Hf s true s1 Hp E) as [Q1 R1]. auto.
  - destruct (Hf s false s1 Hp E) as [Q1 (ts & R1)]. destruct (Hg s1 b s' Q1 H) as [Q2 (ts2 & R2)]. split; auto. exists (ts ++ ts2). eapply runs2_app; eauto.
Qed.
Lemma t2_repeat sy P n f : traced2 sy P f (fun _ => P) -> traced2 sy P (repeat_until_success n f) (fun _ => P).
Proof.
  intros Hf. induction n; simpl; intros s b s' Hp H. { injection H as <- <-. split; auto. exists []. constructor. }
  destruct (f s) as [[] s1|] eqn:E; try discriminate.
  - injection H as <- <-. apply (Hf s true s1); auto.
  - destruct (Hf s false s1 Hp E) as [Q1 (ts & R1)]. destruct (IHn s1 b s' Q1 H) as [Q2 (ts2 & R2)]. split; auto. exists (ts ++ ts2). eapply runs2_app; eauto.
Qed.
Lemma t2_task sy t (Q : bool -> state -> Prop) (P : state -> Prop) : (forall s, P s -> hinv s /\ wrapped t s) -> (forall s b s', P s -> hinv s -> run_task sy t s = OK b s' -> hinv s' -> Q b s') -> traced2 sy P (run_task sy t) Q.
Proof.
  intros W HQ s b s' Hp H. destruct (W s Hp) as [Hv Hw]. split.
  - apply (HQ s b s'); auto. eapply step_hinv; eauto. eapply task_step; eauto. apply hinv_curr; auto.
  - exists [(t, b)]. econstructor; eauto. constructor.
Qed.
Definition ready (s : state) : Prop := hinv s /\ forall i, s_curr s = Some i -> u_solved (un s i) = true -> exists l, s_unks s = i :: l.
Lemma t2_any sy t (P : state -> Prop) : t <> TScTan -> (forall s, P s -> hinv s) -> traced2 sy P (run_task sy t) (fun _ => hinv).
Proof. intros N HP. apply t2_task; auto. intros s Hp. split; auto. intros ->. tauto. Qed.
Lemma t2_weaken sy P f (Q Q' : bool -> state -> Prop) : traced2 sy P f Q -> (forall b s, Q b s -> Q' b s) -> traced2 sy P f Q'.
Proof. intros H K s b s' Hp E. destruct (H s b s' Hp E). auto. Qed.
Lemma tree_runs2 sy : traced2 sy hinv (ik_solve sy) (fun _ => hinv).
Proof.
  apply t2_repeat. apply (t2_seq2 sy hinv (fun _ => hinv)). { apply (t2_any sy TSub); auto. discriminate. } { auto. }
  apply (t2_seq2 sy _ (fun _ => hinv)); auto.
  - apply t2_repeat. apply (t2_seq2 sy hinv (fun _ => ready)). 2:{ intros s [? _]; auto. }
    + apply (t2_task sy TAssign). { intros s Hs. split; auto. intros X; discriminate. }
      intros s b s' _ Hv H Hv'. split; auto. intros i Hc Hi. destruct b; [|unfold run_task, assigner in H; destruct (asgn_scan _ _ _) as [[? ?]|]; [discriminate|]; destruct (s_unks s); discriminate].
      assert (Eh : s_heap s' = s_heap s /\ s_unks s' = s_unks s).
      { unfold run_task, assigner in H. destruct (asgn_scan _ _ _) as [[? ?]|]; [injection H as <-; auto|]. destruct (s_unks s) eqn:E; [discriminate|]. injection H as <-. auto. }
      destruct Eh as [Eh Eun]. rewrite Eun. unfold un in Hi. rewrite Eh in Hi. unfold run_task, assigner in H.
      destruct (asgn_scan _ _ _) as [[j c]|] eqn:E.
      * injection H as <-. cbn in Hc. injection Hc as ->. apply asgn_scan_some in E as (_ & _ & _ & _ & E & _). congruence.
      * destruct (s_unks s) as [|j l] eqn:E'; [discriminate|]. injection H as <-. cbn in Hc. injection Hc as ->. eauto.
    + apply (t2_seq2 sy ready (fun _ => ready)). 2:{ intros s [? _]; auto. }
      * apply (t2_task sy TSumId). { intros s [? _]. split; auto. intros X; discriminate. } intros s b s' R _ H _. unfold run_task, sum_id in H. destruct (existsb _ _); [discriminate|]. injection H as <- <-. auto.
      * apply (t2_prio2 sy ready (fun b => if b then hinv else ready)); auto.
        { apply (t2_task sy TAlg). { intros s [? _]. split; auto. intros X; discriminate. }
          intros s b s' [_ R] _ H Hv'. destruct b; auto. split; auto. apply eff_alg in H as [->|(i & Hc & E & Hs)]; auto.
          inversion E as [b' f Q Es _|]; subst. intros i' Hc' Hi'. rewrite curr_upd in Hc'. assert (i' = i) by congruence. subst i'. exfalso.
          unfold un, upd_unk in Hi'. cbn [s_heap set_s_heap] in Hi'. destruct (quiet_getu i f (s_heap s) i Q) as [B _]. rewrite (book_solved _ _ B) in Hi'. congruence. }
        apply (t2_prio2 sy ready (fun _ => hinv)); auto.
        { apply (t2_task sy TScTan); auto. intros s [? R]. split; auto. intros _. exact R. }
        apply (t2_prio2 sy hinv (fun _ => hinv)); auto. { apply (t2_any sy TSimu); auto. discriminate. }
        apply (t2_prio2 sy hinv (fun _ => hinv)); auto. { apply (t2_any sy TSac); auto. discriminate. }
        apply (t2_any sy TX2z2); auto. discriminate.
  - apply (t2_seq2 sy hinv (fun _ => hinv)); auto. { apply (t2_any sy TUpdateL); auto. discriminate. } apply (t2_any sy (TCompDet false)); auto. discriminate.
Qed.
(** Every run of the shipped tree in which the first unknown of the list is not identified as solvable by atan2 is a
    history without re-solving: C23 and C24 hold of its final state. *)
Theorem C23_shipped_tree sy s0 b s : initial sy s0 -> ik_solve sy s0 = OK b s -> (forall i l, s_unks s = i :: l -> u_tanable (un s i) = false) ->
  exists ts, runs1 sy s0 ts s.
Proof.
  intros I H T. destruct (tree_runs2 sy s0 b s (hinv_initial sy s0 I) H) as [_ (ts & R)]. exists ts. apply runs2_runs1; auto. eapply hinv_initial; eauto.
Qed.
