(** C61: identification and solution leaves agree; C62: what can make the solver raise. *)
From Coq Require Import Reals ZArith List String Bool Arith Lia.
From Verif Require Import Expr Kin Solver SolverSpec SolverFacts SolverInv PropLists SolverHist HistFacts PropHist.
Import ListNotations.
Local Open Scope string_scope.
Local Open Scope list_scope.
Local Open Scope nat_scope.

(** * Vocabulary *)
(** every unknown that occurs in the expression is solved *)
Definition known (s : state) (e : expr) : Prop := forall j, In j (s_unks s) -> has (u_sym (un s j)) e = true -> u_solved (un s j) = true.
Definition in_eqn (v : string) (q : kequation) : Prop := has v (k_lhs q) = true \/ has v (k_rhs q) = true.
(** sin u occurs, cos u does not (and the other way round) *)
Definition only_sin (u : string) (e : expr) : Prop := occurs (Sin (Sym u)) e = true /\ occurs (Cos (Sym u)) e = false.
Definition only_cos (u : string) (e : expr) : Prop := occurs (Cos (Sym u)) e = true /\ occurs (Sin (Sym u)) e = false.
(** the state an unknown is in when no atan2 pair was found for it *)
Definition open_unknown (s : state) (i : nat) : Prop := s_curr s = Some i /\ i < List.length (s_heap s) /\ u_solved (un s i) = false /\ u_tanable (un s i) = false.

Lemma in_len1 {A} (x : A) l : In x l -> 1 <= List.length l. Proof. destruct l; cbn; [contradiction|lia]. Qed.
Lemma filter_len0 {A} (p : A -> bool) l : List.length (filter p l) = 0 <-> forall x, In x l -> p x = false.
Proof.
  split. { intros H x Hx. destruct (p x) eqn:E; auto. assert (I : In x (filter p l)) by (apply filter_In; auto). destruct (filter p l); [contradiction|discriminate]. }
  intros H. rewrite filter_none; auto.
Qed.
Lemma known_count s e : known s e <-> count_unknowns (unk_objs s) e = 0.
Proof.
  unfold count_unknowns. rewrite filter_len0. unfold known, unk_objs, un. split.
  - intros H x Hx. apply in_map_iff in Hx as (j & <- & Hj). destruct (has _ e) eqn:E; auto. cbn. rewrite (H j Hj E). auto.
  - intros H j Hj E. assert (X := H _ (in_map (getu (s_heap s)) _ _ Hj)). rewrite E in X. cbn in X. destruct (u_solved _); auto.
Qed.
Lemma filter_two {A B} (g : A -> B) (p : B -> bool) l i j : In i l -> In j l -> i <> j -> p (g i) = true -> p (g j) = true -> 2 <= List.length (filter p (map g l)).
Proof.
  induction l as [|a l IH]; intros Hi Hj N Pi Pj; [contradiction|]. cbn [map filter]. assert (One : forall k, In k l -> p (g k) = true -> 1 <= List.length (filter p (map g l))).
  { intros k Hk Pk. assert (I : In (g k) (filter p (map g l))) by (apply filter_In; split; auto; apply in_map; auto). destruct (filter p (map g l)); [contradiction|cbn; lia]. }
  destruct Hi as [->|Hi], Hj as [->|Hj].
  - congruence.
  - rewrite Pi. cbn. assert (X := One j Hj Pj). lia.
  - rewrite Pj. cbn. assert (X := One i Hi Pi). lia.
  - assert (X := IH Hi Hj N Pi Pj). destruct (p (g a)); cbn; lia.
Qed.
(** at most one occurrence of an unsolved unknown in an equation: its two sides counted separately *)
Lemma one_unknown s q i j : eqn_count (unk_objs s) q <= 1 -> In i (s_unks s) -> In j (s_unks s) -> u_solved (un s i) = false -> u_solved (un s j) = false ->
  in_eqn (u_sym (un s i)) q -> in_eqn (u_sym (un s j)) q -> i = j.
Proof.
  unfold eqn_count, count_unknowns, unk_objs, un. intros C Hi Hj Si Sj Oi Oj. destruct (Nat.eq_dec i j); auto. exfalso.
  assert (One : forall e k, In k (s_unks s) -> u_solved (getu (s_heap s) k) = false -> has (u_sym (getu (s_heap s) k)) e = true ->
    1 <= List.length (filter (fun u => has (u_sym u) e && negb (u_solved u)) (map (getu (s_heap s)) (s_unks s)))).
  { intros e k Hk Sk Ok. apply (in_len1 (getu (s_heap s) k)). apply filter_In. split. apply in_map; auto. rewrite Ok, Sk. auto. }
  assert (Two : forall e, has (u_sym (getu (s_heap s) i)) e = true -> has (u_sym (getu (s_heap s) j)) e = true ->
    2 <= List.length (filter (fun u => has (u_sym u) e && negb (u_solved u)) (map (getu (s_heap s)) (s_unks s)))).
  { intros e Oi' Oj'. apply (filter_two _ _ _ i j); auto; rewrite ?Oi', ?Oj', ?Si, ?Sj; auto. }
  destruct Oi as [Oi|Oi], Oj as [Oj|Oj].
  - assert (X := Two _ Oi Oj). lia.
  - assert (X := One _ i Hi Si Oi). assert (Y := One _ j Hj Sj Oj). lia.
  - assert (X := One _ i Hi Si Oi). assert (Y := One _ j Hj Sj Oj). lia.
  - assert (X := Two _ Oi Oj). lia.
Qed.
Lemma has_occurs v x e : occurs x e = true -> has v x = true -> has v e = true.
Proof.
  intros O H. induction e; cbn [occurs] in O; apply orb_prop in O as [O|O]; try (apply expr_eqb_eq in O; subst x; exact H); try discriminate; cbn [has]; try (apply orb_prop in O as [O|O]); rewrite ?orb_true_iff; auto.
Qed.
Lemma count_same s s' e : s_unks s' = s_unks s -> (forall j, u_sym (un s' j) = u_sym (un s j) /\ u_solved (un s' j) = u_solved (un s j)) -> count_unknowns (unk_objs s') e = count_unknowns (unk_objs s) e.
Proof.
  intros U H. unfold count_unknowns, unk_objs. rewrite U. clear U. induction (s_unks s) as [|j l IH]; auto. cbn [map filter]. destruct (H j) as [H1 H2]. unfold un in H1, H2. rewrite H1, H2. destruct (_ && _); cbn [List.length]; rewrite IH; auto.
Qed.
Lemma quiet_un i f s j : quiet f -> u_sym (un (upd_unk i f s) j) = u_sym (un s j) /\ u_solved (un (upd_unk i f s) j) = u_solved (un s j).
Proof. intros Q. destruct (quiet_getu i f (s_heap s) j Q) as [B S]. destruct (book_stock _ _ B S) as (A1 & A2 & _). auto. Qed.
Lemma count_quiet i f s e : quiet f -> count_unknowns (unk_objs (upd_unk i f s)) e = count_unknowns (unk_objs s) e.
Proof. intros Q. apply count_same. reflexivity. intros j. apply quiet_un; auto. Qed.
Lemma first_some_ex {A B} (f : A -> option B) l a b : In a l -> f a = Some b -> exists b', first_some f l = Some b'.
Proof. induction l as [|x l IH]; intros I E; [contradiction|]. cbn. destruct (f x) eqn:F; eauto. destruct I as [->|I]. congruence. eauto. Qed.

(** * set_solved cannot fail on solutions whose unknowns are solved *)
Lemma collect_total h ids : forall sols acc, (forall e j, In e sols -> In j ids -> has (u_sym (getu h j)) e = true -> u_solved (getu h j) = true) -> exists d, collect_deps h ids sols acc = Some d.
Proof.
  induction sols as [|e sols IH]; cbn [collect_deps]; intros acc H; [eauto|]. destruct (get_deps h ids e) as [ds|] eqn:E.
  - apply IH. intros e' j He. apply H. right; auto.
  - apply C25_get_deps_fails in E as (j & Hj & Hh & Hs). rewrite (H e j) in Hs; auto. discriminate. left; auto.
Qed.
Lemma set_solved_total i s : i < List.length (s_heap s) -> solutions (un s i) <> [] ->
  (forall e j, In e (solutions (un s i)) -> In j (s_unks s) -> has (u_sym (un s j)) e = true -> j = i \/ u_solved (un s j) = true) -> exists s', set_solved i s = Some s'.
Proof.
  unfold un. intros Hi Hn H. unfold set_solved, upd_unk. cbn [s_heap s_unks s_solveN set_s_heap set_s_solveN]. rewrite !updh_updh. rewrite getu_updh_same by auto. cbv beta.
  set (u := getu (s_heap s) i) in *. change (solutions (set_u_ready false (set_u_solved true u))) with (solutions u). change (u_deps (set_u_ready false (set_u_solved true u))) with (u_deps u).
  destruct (_ <? 1) eqn:E. { apply Nat.ltb_lt in E. destruct (solutions u); [congruence|cbn in E; lia]. }
  match goal with |- context [collect_deps ?h _ _ _] => set (h1 := h) end.
  destruct (collect_total h1 (s_unks s) (solutions u) (u_deps u)) as [d ->]; [|eauto].
  intros e j He Hj Hh. unfold h1 in *. destruct (Nat.eq_dec j i) as [->|N]. { rewrite getu_updh_same by auto. reflexivity. }
  rewrite getu_updh_other in * by auto. destruct (H e j He Hj Hh); [congruence|auto].
Qed.
Lemma finish_total i f s : i < List.length (s_heap s) -> presolve f -> solutions (f (un s i)) <> [] ->
  (forall e j, In e (solutions (f (un s i))) -> In j (s_unks s) -> has (u_sym (un s j)) e = true -> j = i \/ u_solved (un s j) = true) -> exists s', finish (set_solved i (upd_unk i f s)) = OK true s'.
Proof.
  intros Hi P Hn H. destruct (set_solved_total i (upd_unk i f s)) as [s' ->]; [| | |cbn; eauto].
  - rewrite len_upd. auto.
  - unfold un. rewrite get_upd by auto. auto.
  - intros e j. unfold un. rewrite get_upd by auto. change (s_unks (upd_unk i f s)) with (s_unks s). intros He Hj Hh. destruct (Nat.eq_dec j i) as [->|N]; auto.
    assert (X : getu (s_heap (upd_unk i f s)) j = getu (s_heap s) j) by (unfold upd_unk; cbn [s_heap set_s_heap]; apply getu_updh_other; auto).
    rewrite X in *. apply (H e j); auto.
Qed.
(** the unknowns of a one-unknown equation in [u] are [u] or solved *)
Definition mine (s : state) (i : nat) (e : expr) : Prop := forall j, In j (s_unks s) -> has (u_sym (un s j)) e = true -> j = i \/ u_solved (un s j) = true.
Definition one_each (s : state) : Prop := forall q, In q (s_L1 s) -> eqn_count (unk_objs s) q <= 1.

Section Leaves.
Variable sy : sympy.
(** * C61: the atan2 solver *)
(** a pair of equations the atan2 solver can use for the unknown [u]: A sin u + B = 0 and C cos u + D = 0 with A/C, B and D known *)
Definition tan_usable (s : state) (u : string) (es ec : kequation) : Prop :=
  In es (s_L1 s ++ s_L2 s) /\ In ec (s_L1 s ++ s_L2 s) /\ only_sin u (resid sy es) /\ only_cos u (resid sy ec)
  /\ exists A B C D, sy_match sy (Sin (Sym u)) (both_terms u) (sy_collect sy (both_terms u) (resid sy es)) = Some (A, B)
     /\ sy_match sy (Cos (Sym u)) (both_terms u) (sy_collect sy (both_terms u) (resid sy ec)) = Some (C, D)
     /\ known s (sy_norm sy (Div A C)) /\ known s B /\ known s D.
Lemma sin_iff u e : tan_has_sin sy u e = true <-> only_sin u (resid sy e).
Proof.
  unfold tan_has_sin, only_sin. cbv zeta. set (t := resid sy e). split.
  - rewrite !andb_true_iff, negb_true_iff. intros [[H B] O]. split; auto. rewrite O in B. auto.
  - intros [O N]. rewrite O, N. rewrite (has_occurs u _ _ O) by (cbn; apply String.eqb_refl). auto.
Qed.
Lemma cos_iff u e : tan_has_cos sy u e = true <-> only_cos u (resid sy e).
Proof.
  unfold tan_has_cos, only_cos. cbv zeta. set (t := resid sy e). split.
  - rewrite !andb_true_iff, negb_true_iff. intros [[H B] O]. split; auto. rewrite O, andb_true_r in B. auto.
  - intros [O N]. rewrite O, N. rewrite (has_occurs u _ _ O) by (cbn; apply String.eqb_refl). auto.
Qed.
Lemma tan_pair_iff s u es ec e1 e2 : tan_pair sy (unk_objs s) u es ec = Some (e1, e2) <->
  e1 = sy_collect sy (both_terms u) (resid sy es) /\ e2 = sy_collect sy (both_terms u) (resid sy ec) /\
  exists A B C D, sy_match sy (Sin (Sym u)) (both_terms u) e1 = Some (A, B) /\ sy_match sy (Cos (Sym u)) (both_terms u) e2 = Some (C, D) /\ known s (sy_norm sy (Div A C)) /\ known s B /\ known s D.
Proof.
  unfold tan_pair. cbv zeta. split.
  - destruct (sy_match sy (Sin _) _ _) as [[A B]|] eqn:E1; [|discriminate]. destruct (sy_match sy (Cos _) _ _) as [[C D]|] eqn:E2; [|discriminate].
    destruct (_ && _) eqn:K; [|discriminate]. apply andb_true_iff in K as [K K3]. apply andb_true_iff in K as [K1 K2]. apply Nat.eqb_eq in K1, K2, K3. rewrite <- !known_count in *.
    intros H. injection H as <- <-. split; auto. split; auto. exists A, B, C, D. auto.
  - intros (-> & -> & A & B & C & D & -> & -> & K1 & K2 & K3). rewrite known_count in K1, K2, K3. rewrite K1, K2, K3. reflexivity.
Qed.
(** the solution the solver stores for the pair *)
Definition tan_sols (s : state) (A B C D : expr) : list expr :=
  let Y := Sub (Num 0) B in let X := Sub (Num 0) D in let co := sy_norm sy (Div A C) in
  if (List.length (get_variables (filter (fun v => negb (u_solved v)) (unk_objs s)) A) =? 0)%nat then [Atan2 (Div Y A) (Div X C)] else [Atan2 (Div Y co) X; Atan2 (Div (Neg Y) co) (Neg X)].
Lemma get_vars_same s s' e : s_unks s' = s_unks s -> (forall j, u_sym (un s' j) = u_sym (un s j) /\ u_solved (un s' j) = u_solved (un s j)) ->
  List.length (get_variables (filter (fun v => negb (u_solved v)) (unk_objs s')) e) = List.length (get_variables (filter (fun v => negb (u_solved v)) (unk_objs s)) e).
Proof.
  intros U H. unfold get_variables, unk_objs. rewrite U. clear U. induction (s_unks s) as [|j l IH]; auto. cbn [map filter]. destruct (H j) as [H1 H2]. unfold un in H1, H2. rewrite H2.
  destruct (negb _); auto. cbn [filter]. rewrite H1. destruct (has _ e); cbn; auto.
Qed.
Lemma tan_run s i : open_unknown s i ->
  (tan_sol sy s = OK false s /\ forall es ec, ~ tan_usable s (u_sym (un s i)) es ec)
  \/ exists es ec A B C D g asm, tan_usable s (u_sym (un s i)) es ec
     /\ sy_match sy (Sin (Sym (u_sym (un s i)))) (both_terms (u_sym (un s i))) (sy_collect sy (both_terms (u_sym (un s i))) (resid sy es)) = Some (A, B)
     /\ sy_match sy (Cos (Sym (u_sym (un s i)))) (both_terms (u_sym (un s i))) (sy_collect sy (both_terms (u_sym (un s i))) (resid sy ec)) = Some (C, D)
     /\ known s (sy_norm sy (Div A C)) /\ known s B /\ known s D /\ quiet g
     /\ tan_sol sy s = OK true (upd_unk i (fun u => tan_store (tan_sols s A B C D) (Keq (Num 0) (sy_collect sy (both_terms (u_sym (un s i))) (resid sy es))) (Keq (Num 0) (sy_collect sy (both_terms (u_sym (un s i))) (resid sy ec))) asm (g u)) s)
     /\ (forall u, u_tanable (g u) = true).
Proof.
  intros (Hc & Hi & Hs & Ht). unfold un in *. set (u := getu (s_heap s) i) in *. unfold tan_sol, seq2, tan_id, with_curr. rewrite Hc. fold u. rewrite Ht, Hs. cbn [negb andb].
  destruct (first_some _ _) as [[e1 e2]|] eqn:F.
  - right. apply first_some_in in F as (es & I1 & F). apply first_some_in in F as (ec & I2 & F). apply filter_In in I1 as [I1 T1]. apply filter_In in I2 as [I2 T2].
    rewrite sin_iff in T1. rewrite cos_iff in T2. apply tan_pair_iff in F as (E1 & E2 & A & B & C & D & M1 & M2 & K1 & K2 & K3).
    set (g := fun u : unk => set_u_tanable true _) in *. assert (Q : quiet g). { split. intros v; split; reflexivity. intros v _. reflexivity. }
    assert (Eu : getu (s_heap (upd_unk i g s)) i = g u) by (apply get_upd; auto). cbv zeta. rewrite Eu. change (u_tanable (g u)) with true. cbv iota.
    unfold tan_solve, with_curr. rewrite curr_upd, Hc. rewrite Eu. change (u_tanable (g u)) with true. cbv iota. change (u_eqn (g u)) with (Some (Keq (Num 0) e1)). change (u_eqn2 (g u)) with (Some (Keq (Num 0) e2)). change (u_sym (g u)) with (u_sym u).
    cbn [k_rhs k_lhs]. rewrite M1, M2. rewrite !(count_quiet i g s) by auto. assert (K2' := K2). assert (K3' := K3). rewrite known_count in K2', K3'. rewrite K2', K3'. cbn [Nat.eqb negb orb]. cbv zeta.
    rewrite (get_vars_same s (upd_unk i g s) A eq_refl (fun j => quiet_un i g s j Q)).
    rewrite E1 in M1. rewrite E2 in M2.
    exists es, ec, A, B, C, D, g. eexists. split. { split; auto. split; auto. split; auto. split; auto. exists A, B, C, D. auto. } split; auto. split; auto. split; auto. split; auto. split; auto. split; auto.
    split; [|intros v; reflexivity]. rewrite <- E1, <- E2. unfold tan_sols. cbv zeta. fold u.
    instantiate (1 := if (List.length (get_variables (filter (fun v => negb (u_solved v)) (unk_objs s)) A) =? 0)%nat then [] else [(true, C); (false, C)]).
    destruct (_ =? 0)%nat; rewrite upd_unk_comp; reflexivity.
  - left. split. { cbv zeta. fold u. rewrite Ht. reflexivity. }
    intros es ec (I1 & I2 & O1 & O2 & A & B & C & D & M1 & M2 & K1 & K2 & K3).
    assert (N := first_some_none _ _ F es). assert (I1' : In es (filter (tan_has_sin sy (u_sym u)) (s_L1 s ++ s_L2 s))) by (apply filter_In; split; auto; apply sin_iff; auto). specialize (N I1').
    assert (N2 := first_some_none _ _ N ec). assert (I2' : In ec (filter (tan_has_cos sy (u_sym u)) (s_L1 s ++ s_L2 s))) by (apply filter_In; split; auto; apply cos_iff; auto). specialize (N2 I2').
    assert (P : tan_pair sy (unk_objs s) (u_sym u) es ec = Some (sy_collect sy (both_terms (u_sym u)) (resid sy es), sy_collect sy (both_terms (u_sym u)) (resid sy ec))). { apply tan_pair_iff. split; auto. split; auto. exists A, B, C, D. auto. }
    congruence.
Qed.
(** C61: the atan2 solver finds a solution exactly when a usable pair is among the equations; it never raises, and when it fails it changes nothing. *)
Theorem C61_tan s i : open_unknown s i ->
  ((exists es ec, tan_usable s (u_sym (un s i)) es ec) -> exists s', tan_sol sy s = OK true s') /\ ((forall es ec, ~ tan_usable s (u_sym (un s i)) es ec) -> tan_sol sy s = OK false s).
Proof.
  intros O. destruct (tan_run s i O) as [[E N]|(es & ec & A & B & C & D & g & asm & U & _ & _ & _ & _ & _ & _ & E & _)]; split.
  - intros (es & ec & U). exfalso. apply (N es ec U).
  - auto.
  - eauto.
  - intros N. exfalso. apply (N es ec U).
Qed.

(** * C61: the algebra solver *)
Context (HOK : sympy_ok sy) (HCO : forall a, no_new_symbols (sy_coeff sy a)).
(** q does not contain sin u or cos u, and rearranges to A u + B = 0 with A not zero *)
Definition alg_usable (u : string) (q : kequation) : Prop :=
  in_eqn u q /\ (forall t, In t (both_terms u) -> occurs t (k_lhs q) = false /\ occurs t (k_rhs q) = false)
  /\ exists A B, sy_match sy (Sym u) [Sym u] (sy_collect sy [Sym u] (sy_expand sy (resid sy q))) = Some (A, B) /\ is0 sy A = false.
Lemma resid_in v q : has v (resid sy q) = true -> in_eqn v q.
Proof. intros H. apply (ok_norm_syms sy HOK) in H. cbn [has] in H. apply orb_prop in H as [H|H]; [right|left]; auto. Qed.
Lemma in_eqn_dec v q : in_eqn v q <-> has v (k_rhs q) || has v (k_lhs q) = true.
Proof. unfold in_eqn. rewrite orb_true_iff. tauto. Qed.
Lemma alg_try_iff u q tmp : algebra_try sy u q = Some tmp <-> alg_usable u q /\ tmp = sy_collect sy [Sym u] (sy_expand sy (resid sy q)).
Proof.
  unfold algebra_try, alg_usable, linear_match. cbv zeta. rewrite in_eqn_dec. unfold both_terms. split.
  - destruct (_ || _ || _ || _) eqn:T; [discriminate|]. apply orb_false_iff in T as [T T4]. apply orb_false_iff in T as [T T3]. apply orb_false_iff in T as [T1 T2].
    destruct (has _ _ || _); [|discriminate]. destruct (sy_match _ _ _ _) as [[A B]|]; [|discriminate]. destruct (is0 sy A) eqn:Z; [discriminate|]. intros H; injection H as <-.
    split; auto. split; auto. split. { intros t [<-|[<-|[]]]; auto. } exists A, B. auto.
  - intros ((H & T & A & B & M & Z) & ->). destruct (T (Sin (Sym u))) as [T1 T2]; [cbn; auto|]. destruct (T (Cos (Sym u))) as [T3 T4]; [cbn; auto|]. rewrite T1, T2, T3, T4, H, M, Z. reflexivity.
Qed.
Lemma mine_eqn s i q e : one_each s -> In q (s_L1 s) -> In i (s_unks s) -> u_solved (un s i) = false -> in_eqn (u_sym (un s i)) q -> (forall v, has v e = true -> in_eqn v q) -> mine s i e.
Proof.
  intros O Hq Hi Hs Hu He j Hj Hh. destruct (u_solved (un s j)) eqn:Sj; auto. left. symmetry. apply (one_unknown s q i j); auto.
Qed.
Lemma occurs_sym v e : occurs (Sym v) e = has v e.
Proof.
  induction e; cbn [occurs has]; rewrite ?IHe, ?IHe1, ?IHe2; cbn [expr_eqb orb]; auto; try (destruct (expr_eqb _ _) eqn:Q; [apply expr_eqb_eq in Q; discriminate|]; auto).
  destruct (expr_eqb _ _) eqn:Q. { apply expr_eqb_eq in Q. injection Q as ->. symmetry. apply String.eqb_refl. } destruct (String.eqb _ _) eqn:Q'; auto. apply String.eqb_eq in Q' as ->. rewrite expr_eqb_refl in Q. discriminate.
Qed.
(** what the leaf needs of the state: the current unknown is in range, among the unknowns and unsolved; one unknown per equation *)
Definition ready (s : state) (i : nat) : Prop := s_curr s = Some i /\ In i (s_unks s) /\ i < List.length (s_heap s) /\ u_solved (un s i) = false /\ one_each s.
Lemma sols_add e u : solutions (add_solution e u) = solutions u ++ [e].
Proof. unfold solutions, add_solution. destruct (u_ref u) eqn:E; cbn [u_ref u_own u_sc u_tan set_u_own set_u_sc set_u_tan]; rewrite ?E; auto. Qed.
Lemma alg_run s i : ready s i -> solutions (un s i) = [] ->
  (alg_sol sy s = OK false s /\ forall q, In q (s_L1 s) -> ~ alg_usable (u_sym (un s i)) q)
  \/ exists q A B s' g, In q (s_L1 s) /\ alg_usable (u_sym (un s i)) q
     /\ sy_match sy (Sym (u_sym (un s i))) [Sym (u_sym (un s i))] (sy_collect sy [Sym (u_sym (un s i))] (sy_expand sy (resid sy q))) = Some (A, B)
     /\ alg_sol sy s = OK true s' /\ presolve g /\ set_solved i (upd_unk i g s) = Some s' /\ solutions (g (un s i)) = [Div (Sub (Num 0) B) A].
Proof.
  intros (Hc & Hiu & Hi & Hs & O) Hn. unfold un in *. set (u := getu (s_heap s) i) in *. unfold alg_sol, seq2, algebra_id, with_curr. rewrite Hc. fold u. rewrite Hs.
  destruct (_ =? 0) eqn:L. { left. split; auto. intros q Hq. apply Nat.eqb_eq in L. destruct (s_L1 s); [contradiction|discriminate]. }
  destruct (first_some _ _) as [tmp|] eqn:F.
  2:{ left. split; auto. intros q Hq U. assert (N := first_some_none _ _ F q Hq). rewrite (proj2 (alg_try_iff _ q _) (conj U eq_refl)) in N. discriminate. }
  right. apply first_some_in in F as (q & Hq & F). apply alg_try_iff in F as [U E].
  assert (U' := U). destruct U' as (Hin & _ & A & B & M & Z).
  set (g := fun u : unk => add_method "algebra" _). assert (Q : quiet g). { split. intros v; split; reflexivity. intros v T; exact T. }
  unfold algebra_solve, with_curr. rewrite curr_upd, Hc. rewrite get_upd by auto. fold u. change (u_ready (g u)) with true. change (u_method (g u)) with (append (u_method u) "algebra").
  rewrite contains_end by auto. cbn [andb]. change (u_eqn (g u)) with (Some (Keq (Num 0) tmp)). cbv iota. cbn [k_rhs k_lhs]. change (u_sym (g u)) with (u_sym u).
  unfold linear_match. rewrite E, M, Z. destruct (ok_match sy HOK _ _ _ _ _ M) as (_ & X & V). destruct (X (Sym (u_sym u))) as [X1 X2]; [left; auto|]. rewrite occurs_sym in X1, X2. 
  cbv zeta.
  assert (Xs : has (u_sym u) (Div (Sub (Num 0) B) A) = false) by (cbn; rewrite X1, X2; auto). rewrite Xs. rewrite upd_unk_comp.
  match goal with |- context [upd_unk i ?f s] => set (f2 := f) end.
  assert (P : presolve f2). { apply (pre_comp g (fun u => set_u_nsol 1 (add_solution (Div (Sub (Num 0) B) A) u))). apply quiet_pre; auto. split; [intros v; apply (book_add_solution _ v) | apply keeps_tan_same; intros v; apply (tan_add_solution _ v)]. }
  assert (Es : solutions (f2 u) = [Div (Sub (Num 0) B) A]). { unfold f2. change (solutions (set_u_nsol 1 ?w)) with (solutions w). rewrite (sols_add _ (g u)). change (solutions (g u)) with (solutions u). rewrite Hn. reflexivity. }
  destruct (finish_total i f2 s) as [s' Hf]; auto.
  { unfold un. fold u. rewrite Es. discriminate. }
  { unfold un. fold u. rewrite Es. intros e j [<-|[]]. revert j. change (mine s i (Div (Sub (Num 0) B) A)). apply (mine_eqn s i q); auto.
    intros v Hv. cbn in Hv. apply resid_in. apply (ok_expand_syms sy HOK). apply (ok_collect_syms sy HOK [Sym (u_sym u)]). apply V. apply orb_prop in Hv as [Hv|Hv]; auto. }
  exists q, A, B, s', f2. split; auto. split; auto. split; auto. split; auto. split; auto. split; auto. apply finish_inv in Hf as [_ Hf]. auto.
Qed.
(** C61: where the equations of the first list have at most one unsolved unknown each, the algebra solver succeeds exactly when one of them is linear in the unknown and
    has no sine or cosine of it; it never raises, and when it fails it changes nothing. *)
Theorem C61_algebra s i : ready s i -> solutions (un s i) = [] ->
  ((exists q, In q (s_L1 s) /\ alg_usable (u_sym (un s i)) q) -> exists s', alg_sol sy s = OK true s' /\ u_solved (un s' i) = true)
  /\ ((forall q, In q (s_L1 s) -> ~ alg_usable (u_sym (un s i)) q) -> alg_sol sy s = OK false s).
Proof.
  intros R N. destruct (alg_run s i R N) as [[E Nq]|(q & A & B & s' & g & Hq & U & M & E & P & Es & Hsol)]; split.
  - intros (q & Hq & U). destruct (Nq q Hq U).
  - auto.
  - intros _. exists s'. split; auto. destruct R as (_ & _ & Hi & _). apply solve_step in Es as [_ (deps & nver & (_ & K & _) & _)]; auto.
  - intros Nq. destruct (Nq q Hq U).
Qed.

(** * C61: the solver for two simultaneous equations *)
Lemma mine_sub s i e e' : mine s i e -> (forall v, has v e' = true -> has v e = true) -> mine s i e'.
Proof. intros M H j Hj Hh. apply M; auto. Qed.
Lemma simu_flat_in u q f : simu_flat sy u q = Some f -> in_eqn u q /\ forall v, has v f = true -> in_eqn v q.
Proof.
  unfold simu_flat. cbv zeta. destruct (_ || _) eqn:T; [|discriminate]. intros H; injection H as <-. split.
  - apply resid_in. apply (ok_expand_syms sy HOK). apply orb_prop in T as [T|T]; apply (has_occurs u _ _ T); cbn; apply String.eqb_refl.
  - intros v Hv. apply resid_in. apply (ok_expand_syms sy HOK). apply (ok_collect_syms sy HOK [Sin (Sym u)]). apply (ok_collect_syms sy HOK [Cos (Sym u)]). auto.
Qed.
Lemma simu_eqns_in u L f : In f (simu_eqns sy u L) -> exists q, In q L /\ simu_flat sy u q = Some f.
Proof.
  unfold simu_eqns. assert (G : forall l acc, In f (fold_left (fun acc e => match simu_flat sy u e with None => acc | Some f => if existsb (same sy f) acc then acc else acc ++ [f] end) l acc) ->
    In f acc \/ exists q, In q l /\ simu_flat sy u q = Some f).
  { induction l as [|q l IH]; cbn [fold_left]; intros acc H; auto. apply IH in H as [H|(q' & ? & ?)]; [|right; exists q'; split; auto; right; auto].
    destruct (simu_flat sy u q) as [f'|] eqn:E; auto. destruct (existsb _ _); auto. apply in_app_or in H as [H|[<-|[]]]; auto. right. exists q. split; auto. left; auto. }
  intros H. apply G in H as [[]|H]. auto.
Qed.
Lemma canonical_in u e1 e2 r : canonical_second_eqn sy u e1 e2 = Some r -> forall v, has v r = true -> has v e2 = true.
Proof.
  unfold canonical_second_eqn. destruct (_ && _); [discriminate|]. destruct (_ && _). { intros H; injection H as <-. auto. }
  destruct (_ && _); [|discriminate]. intros H; injection H as <-. intros v Hv. apply (ok_norm_syms sy HOK) in Hv. auto.
Qed.
Lemma simu_pairs_in u l e1 e2 : simu_pairs sy u l = Some (e1, e2) -> In e1 l /\ exists c, In c l /\ forall v, has v e2 = true -> has v c = true.
Proof.
  induction l as [|c l IH]; cbn [simu_pairs]; [discriminate|]. destruct (first_some _ _) as [r|] eqn:E.
  - intros H. injection H as ->. apply first_some_in in E as (c2 & Hc2 & E). unfold simu_pair in E. destruct (_ || _); [discriminate|].
    destruct (canonical_second_eqn sy u c c2) eqn:K. { injection E as <- <-. split. left; auto. exists c2. split. right; auto. eapply canonical_in; eauto. }
    destruct (canonical_second_eqn sy u c2 c) eqn:K'; [|discriminate]. injection E as <- <-. split. right; auto. exists c. split. left; auto. eapply canonical_in; eauto.
  - intros H. apply IH in H as (H1 & c' & ? & ?). split. right; auto. exists c'. split; auto. right; auto.
Qed.
Lemma has_bin v a b : has v a || has v b = true -> has v a = true \/ has v b = true. Proof. apply orb_prop. Qed.
Lemma coeff_in v a e : has v (sy_coeff sy a e) = true -> has v e = true. Proof. apply HCO. Qed.
(** A, B, C, D of the two equations  A sin u + B cos u = C,  A cos u - B sin u = D *)
Definition simu_C (u : string) (e1 : expr) : expr := sy_simplify sy (Sub (Add (Mul (sy_coeff sy (Sin (Sym u)) e1) (Sin (Sym u))) (Mul (sy_coeff sy (Cos (Sym u)) e1) (Cos (Sym u)))) e1).
Definition simu_D (u : string) (e1 e2 : expr) : expr := sy_simplify sy (Sub (Sub (Mul (sy_coeff sy (Sin (Sym u)) e1) (Cos (Sym u))) (Mul (sy_coeff sy (Cos (Sym u)) e1) (Sin (Sym u)))) e2).
Lemma simu_run s i : ready s i ->
  (simu_sol sy s = OK false s /\ simu_pairs sy (u_sym (un s i)) (simu_eqns sy (u_sym (un s i)) (s_L1 s)) = None)
  \/ exists e1 e2, simu_pairs sy (u_sym (un s i)) (simu_eqns sy (u_sym (un s i)) (s_L1 s)) = Some (e1, e2) /\
     ((is0 sy (simu_C (u_sym (un s i)) e1) = true /\ is0 sy (simu_D (u_sym (un s i)) e1 e2) = true /\ exists g, quiet g /\ (forall v, u_tanable (g v) = u_tanable v) /\ simu_sol sy s = OK false (upd_unk i g s))
      \/ ((is0 sy (simu_C (u_sym (un s i)) e1) = false \/ is0 sy (simu_D (u_sym (un s i)) e1 e2) = false) /\ exists s', simu_sol sy s = OK true s' /\ u_solved (un s' i) = true)).
Proof.
  intros (Hc & Hiu & Hi & Hs & O). unfold un in *. set (u := getu (s_heap s) i) in *. unfold simu_sol, seq2, simu_id, with_curr. rewrite Hc. fold u. rewrite Hs.
  destruct (simu_pairs _ _ _) as [[e1 e2]|] eqn:F; [|left; auto]. right. exists e1, e2. split; auto.
  apply simu_pairs_in in F as (I1 & c & I2 & V2). apply simu_eqns_in in I1 as (q1 & Q1 & F1). apply simu_eqns_in in I2 as (q2 & Q2 & F2).
  apply simu_flat_in in F1 as [U1 W1]. apply simu_flat_in in F2 as [U2 W2].
  assert (M1 : mine s i e1) by (apply (mine_eqn s i q1); auto). assert (M2 : mine s i e2) by (apply (mine_eqn s i q2); auto).
  set (g := fun u : unk => set_u_eqn2 _ _). assert (Q : quiet g). { split. intros v; split; reflexivity. intros v T; exact T. }
  unfold simu_solver, with_curr. rewrite curr_upd, Hc. rewrite get_upd by auto. fold u. change (u_eqn (g u)) with (Some (Keq (Num 0) e1)). change (u_eqn2 (g u)) with (Some (Keq (Num 0) e2)).
  cbv iota. cbn [k_rhs k_lhs]. change (u_sym (g u)) with (u_sym u). cbv zeta. fold (simu_C (u_sym u) e1). fold (simu_D (u_sym u) e1 e2).
  match goal with |- context [set_u_own [?e] _] => set (sol := e) end.
  assert (MU : mine s i (Sym (u_sym u))). { apply (mine_eqn s i q1); auto. intros v Hv. cbn in Hv. apply String.eqb_eq in Hv. subst v. auto. }
  assert (MS : mine s i sol).
  { intros j Hj Hh. unfold sol in Hh. cbn in Hh. repeat (match goal with H : _ || _ = true |- _ => apply orb_prop in H as [H|H] end);
      try (apply coeff_in in Hh; apply (M1 j); auto; fail);
      (apply (ok_simplify_syms sy HOK) in Hh; cbn in Hh; repeat (match goal with H : _ || _ = true |- _ => apply orb_prop in H as [H|H] end);
       first [apply (MU j); [assumption|exact Hh] | apply coeff_in in Hh; apply (M1 j); [assumption|exact Hh] | apply (M1 j); [assumption|exact Hh] | apply (M2 j); [assumption|exact Hh]]). }
  rewrite upd_unk_comp. match goal with |- context [finish (set_solved i (upd_unk i ?f s))] => set (f2 := f) end.
  assert (P : presolve f2) by (apply (pre_comp g (fun u => set_u_nsol 1 (set_u_ref Own (set_u_own [sol] u)))); [apply quiet_pre; auto | split; [intros v; reflexivity | intros v T; exact T]]).
  assert (Fin : exists s', finish (set_solved i (upd_unk i f2 s)) = OK true s' /\ u_solved (getu (s_heap s') i) = true).
  { destruct (finish_total i f2 s) as [s' Hf]; auto.
    - unfold un. fold u. unfold f2. cbn. discriminate.
    - unfold un. fold u. unfold f2. intros e j [<-|[]]. apply (MS j).
    - exists s'. split; auto. apply finish_inv in Hf as [_ Hf]. apply solve_step in Hf as [_ (deps & nver & (_ & K & _) & _)]; auto. }
  destruct (is0 sy (simu_C _ _)) eqn:Z1; destruct (is0 sy (simu_D _ _ _)) eqn:Z2; cbn [andb]; [left; split; auto; split; auto; exists g; auto|right|right|right]; (split; [auto|exact Fin]).
Qed.
(** C61: the two-equation solver succeeds exactly when a pair of partner equations is found and the picked pair is not homogeneous; it never raises. *)
Theorem C61_simultaneous s i : ready s i -> exists b s', simu_sol sy s = OK b s' /\
  (b = true <-> exists e1 e2, simu_pairs sy (u_sym (un s i)) (simu_eqns sy (u_sym (un s i)) (s_L1 s)) = Some (e1, e2) /\
                              (is0 sy (simu_C (u_sym (un s i)) e1) = false \/ is0 sy (simu_D (u_sym (un s i)) e1 e2) = false))
  /\ u_solved (un s' i) = b.
Proof.
  intros R. assert (R' := R). destruct R' as (Hc & _ & Hi & Hs & _). destruct (simu_run s i R) as [[E N]|(e1 & e2 & F & [(Z1 & Z2 & g & Q & _ & E)|(Z & s' & E & K)])].
  - exists false, s. split; auto. split; auto. split; [discriminate|]. intros (e1 & e2 & F & _). congruence.
  - exists false, (upd_unk i g s). split; auto. split. { split; [discriminate|]. intros (e1' & e2' & F' & Z). assert (X : (e1', e2') = (e1, e2)) by congruence. injection X as -> ->. destruct Z; congruence. }
    destruct (quiet_un i g s i Q) as [_ ->]. auto.
  - exists true, s'. split; auto. split; auto. split; auto. intros _. eauto.
Qed.
(** * C61: the solver for A sin u + B cos u = C *)
Definition sac_zero (u : string) (q : kequation) : Prop := exists es, sac_try sy u q = Some es /\
  is0 sy (Add (Mul (sy_coeff sy (Sin (Sym u)) es) (sy_coeff sy (Sin (Sym u)) es)) (Mul (sy_coeff sy (Cos (Sym u)) es) (sy_coeff sy (Cos (Sym u)) es))) = true.
Lemma sac_try_in u q es : sac_try sy u q = Some es -> in_eqn u q /\ forall v, has v es = true -> in_eqn v q.
Proof.
  unfold sac_try. cbv zeta. destruct (_ && _) eqn:T; [|discriminate]. destruct (has u _); [discriminate|]. intros H; injection H as <-. apply andb_true_iff in T as [T _]. split.
  - apply resid_in. apply (has_occurs u _ _ T). cbn. apply String.eqb_refl.
  - intros v Hv. apply resid_in. apply (ok_expand_syms sy HOK). apply (ok_collect_syms sy HOK [Sin (Sym u)]). apply (ok_collect_syms sy HOK [Cos (Sym u)]). auto.
Qed.
Lemma sols_adds l : forall u, solutions (fold_left (fun u e => add_solution e u) l u) = solutions u ++ l.
Proof. induction l as [|e l IH]; intros u; cbn [fold_left]. symmetry. apply app_nil_r. rewrite IH, sols_add, <- app_assoc. auto. Qed.
Lemma sac_run s i : ready s i -> solutions (un s i) = [] ->
  (sac_sol sy s = OK false s /\ forall q, In q (s_L1 s) -> sac_try sy (u_sym (un s i)) q = None)
  \/ (exists s', sac_sol sy s = OK true s' /\ u_solved (un s' i) = true /\ exists q, In q (s_L1 s) /\ sac_try sy (u_sym (un s i)) q <> None)
  \/ (sac_sol sy s = Raise /\ exists q, In q (s_L1 s) /\ sac_zero (u_sym (un s i)) q).
Proof.
  intros (Hc & Hiu & Hi & Hs & O) Hn. unfold un in *. set (u := getu (s_heap s) i) in *. unfold sac_sol, seq2, sinandcos_id, with_curr. rewrite Hc. fold u. rewrite Hs.
  destruct (first_some _ _) as [es|] eqn:F. 2:{ left. split; auto. intros q Hq. exact (first_some_none _ _ F q Hq). } right.
  apply first_some_in in F as (q & Hq & F). assert (F' := F). apply sac_try_in in F' as [U V]. assert (M : mine s i es) by (apply (mine_eqn s i q); auto).
  set (g := fun u : unk => add_method "sinANDcos" _). assert (Q : quiet g). { split. intros v; split; reflexivity. intros v T; exact T. }
  unfold sinandcos_solve, with_curr. rewrite curr_upd, Hc. rewrite get_upd by auto. fold u. change (u_solved (g u)) with (u_solved u). rewrite Hs. change (u_ready (g u)) with true. change (u_method (g u)) with (append (u_method u) "sinANDcos").
  rewrite contains_end by auto. cbn [andb negb]. change (u_eqn (g u)) with (Some (Keq (Num 0) es)). cbv iota. cbn [k_rhs]. change (u_sym (g u)) with (u_sym u). cbv zeta.
  destruct (is0 sy (Add _ _)) eqn:Z. { right. split; auto. exists q. split; auto. exists es. auto. } left.
  rewrite upd_unk_comp. match goal with |- context [upd_unk i ?f s] => set (f2 := f) end.
  set (A := sy_coeff sy (Sin (Sym (u_sym u))) es) in *. set (B := sy_coeff sy (Cos (Sym (u_sym u))) es) in *. set (C := sy_norm sy (Sub (Add (Mul A (Sin (Sym (u_sym u)))) (Mul B (Cos (Sym (u_sym u))))) es)) in *.
  set (sols := if is0 sy C then [Atan2 (Neg B) A; Add (Atan2 (Neg B) A) PiE]
               else [Add (Atan2 A B) (Atan2 (Sqrt (Sub (Add (Mul A A) (Mul B B)) (Mul C C))) C); Add (Atan2 A B) (Atan2 (Neg (Sqrt (Sub (Add (Mul A A) (Mul B B)) (Mul C C)))) C)]) in *.
  assert (P : presolve f2) by exact (pre_comp g _ (quiet_pre g Q) (pre_adds 2 _)).
  assert (Es : solutions (f2 u) = sols).
  { transitivity (solutions (fold_left (fun u e => add_solution e u) sols (g u))). { reflexivity. } rewrite sols_adds. change (solutions (g u)) with (solutions u). rewrite Hn. reflexivity. }
  assert (MA : mine s i A) by (intros j Hj Hh; apply coeff_in in Hh; apply (M j); auto).
  assert (MB : mine s i B) by (intros j Hj Hh; apply coeff_in in Hh; apply (M j); auto).
  assert (MU : mine s i (Sym (u_sym u))). { apply (mine_eqn s i q); auto. intros v Hv. cbn in Hv. apply String.eqb_eq in Hv. subst v. auto. }
  assert (MC : mine s i C).
  { intros j Hj Hh. unfold C in Hh. apply (ok_norm_syms sy HOK) in Hh. cbn in Hh. repeat (match goal with H : _ || _ = true |- _ => apply orb_prop in H as [H|H] end);
      first [apply (MU j); [assumption|exact Hh] | apply (MA j); [assumption|exact Hh] | apply (MB j); [assumption|exact Hh] | apply (M j); [assumption|exact Hh]]. }
  destruct (finish_total i f2 s) as [s' Hf]; auto.
  { unfold un. fold u. rewrite Es. unfold sols. destruct (is0 sy C); discriminate. }
  { unfold un. fold u. rewrite Es. intros e j He Hj Hh. unfold sols in He.
    destruct (is0 sy C); destruct He as [<-|[<-|[]]]; cbn [has Sub] in Hh; repeat (match goal with H : _ || _ = true |- _ => apply orb_prop in H as [H|H] end); try discriminate;
      first [apply (MA j); [assumption|exact Hh] | apply (MB j); [assumption|exact Hh] | apply (MC j); [assumption|exact Hh] ].
  }
  exists s'. split; auto. split. { apply finish_inv in Hf as [_ Hf]. apply solve_step in Hf as [_ (deps & nver & (_ & K & _) & _)]; auto. } exists q. split; auto. congruence.
Qed.

(** C61: the solver succeeds exactly when an equation of the first list has the form and the squares of the two coefficients of the one it picks do not cancel;
    it raises (assertion) only when they do. *)
Theorem C61_sinandcos s i : ready s i -> solutions (un s i) = [] ->
  ((forall q, In q (s_L1 s) -> sac_try sy (u_sym (un s i)) q = None) -> sac_sol sy s = OK false s)
  /\ ((exists q, In q (s_L1 s) /\ sac_try sy (u_sym (un s i)) q <> None) -> (forall q, In q (s_L1 s) -> ~ sac_zero (u_sym (un s i)) q) -> exists s', sac_sol sy s = OK true s' /\ u_solved (un s' i) = true).
Proof.
  intros R N. destruct (sac_run s i R N) as [[E Nq]|[(s' & E & K & q & Hq & T)|(E & q & Hq & Z)]]; split; auto.
  - intros (q & Hq & T). destruct (T (Nq q Hq)).
  - intros Nq. destruct (T (Nq q Hq)).
  - eauto.
  - intros Nq. destruct Z as (es & Z & _). rewrite (Nq q Hq) in Z. discriminate.
  - intros _ NZ. destruct (NZ q Hq Z).
Qed.
(** * The sine/cosine solver *)
(** the unknown also occurs outside the sine or cosine: in the left side, or in the coefficients of the right side *)
Definition sincos_self (u : string) (q : kequation) : Prop :=
  exists t A B, In t (both_terms u) /\ sy_match sy t (both_terms u) (sy_collect sy (both_terms u) (k_rhs q)) = Some (A, B) /\ (has u (k_lhs q) = true \/ has u A = true \/ has u B = true).
Lemma sincos_try_in u q r : sincos_try u q = Some r -> in_eqn u q /\ snd r = q.
Proof.
  unfold sincos_try. cbv zeta. intros H.
  assert (X : snd r = q /\ exists t, In t (both_terms u) /\ (occurs t (k_rhs q) = true \/ occurs t (k_lhs q) = true)).
  { destruct (occurs (Sin (Sym u)) (k_rhs q) || _) eqn:E1; destruct (occurs (Cos (Sym u)) (k_rhs q) || _) eqn:E2; cbn in H; try discriminate; injection H as <-; (split; [reflexivity|]); [exists (Sin (Sym u)); apply orb_prop in E1|exists (Cos (Sym u)); apply orb_prop in E2]; (split; [cbn; auto|auto]). }
  destruct X as (X & t & Ht & O). split; auto. assert (Hu : has u t = true) by (destruct Ht as [<-|[<-|[]]]; cbn; apply String.eqb_refl).
  destruct O as [O|O]; [right|left]; eapply has_occurs; eauto.
Qed.
Lemma sc_run s i : s_curr s = Some i -> i < List.length (s_heap s) -> u_solved (un s i) = false ->
  (exists g, quiet g /\ (forall v, u_tanable (g v) = u_tanable v) /\ sc_sol sy s = OK false (upd_unk i g s))
  \/ (sc_sol sy s = Raise /\ exists q, In q (s_L1 s) /\ sincos_self (u_sym (un s i)) q)
  \/ exists q sol1 sol2 g, In q (s_L1 s) /\ in_eqn (u_sym (un s i)) q /\ quiet g /\ sc_sol sy s = OK true (upd_unk i (fun u => sincos_store sol1 sol2 q (g u)) s)
     /\ forall e v, In e [sol1; sol2] -> has v e = true -> in_eqn v q.
Proof.
  intros Hc Hi Hs. unfold un in *. set (u := getu (s_heap s) i) in *. unfold sc_sol, seq2, sincos_id, with_curr. rewrite Hc. fold u. rewrite Hs.
  destruct (u_scable u) eqn:Sc; cbn [negb andb]. { left. exists (fun u => u). rewrite upd_unk_id. auto using quiet_id. }
  destruct (first_some _ _) as [[iss q]|] eqn:F. 2:{ left. exists (fun u => u). rewrite upd_unk_id. auto using quiet_id. }
  apply first_some_in in F as (q' & Hq & F). apply sincos_try_in in F as [U Eq]. cbn in Eq. subst q'. cbv zeta.
  set (g := fun u : unk => set_u_scable true _). assert (Q : quiet g). { split. intros v; split; reflexivity. intros v T; exact T. }
  unfold sincos_solve, with_curr. rewrite curr_upd, Hc. rewrite get_upd by auto. fold u. change (u_scable (g u)) with true. change (u_eqn (g u)) with (Some q). cbv iota. cbv zeta. change (u_sym (g u)) with (u_sym u).
  assert (Sy : forall t A B, In t (both_terms (u_sym u)) -> sy_match sy t (both_terms (u_sym u)) (sy_collect sy (both_terms (u_sym u)) (k_rhs q)) = Some (A, B) ->
    forall v, has v (Div (Sub (k_lhs q) B) A) = true -> in_eqn v q).
  { intros t A B Ht M v Hv. destruct (ok_match sy HOK _ _ _ _ _ M) as (_ & _ & V). cbn in Hv. apply orb_prop in Hv as [Hv|Hv]; [apply orb_prop in Hv as [Hv|Hv]; [left; auto|]|]; right; apply (ok_collect_syms sy HOK (both_terms (u_sym u))); apply V; auto. }
  assert (Sf : forall t A B, In t (both_terms (u_sym u)) -> sy_match sy t (both_terms (u_sym u)) (sy_collect sy (both_terms (u_sym u)) (k_rhs q)) = Some (A, B) ->
    has (u_sym u) (Div (Sub (k_lhs q) B) A) = true -> sincos_self (u_sym u) q).
  { intros t A B Ht M Hv. exists t, A, B. split; auto. split; auto. cbn in Hv. apply orb_prop in Hv as [Hv|Hv]; auto. apply orb_prop in Hv as [Hv|Hv]; auto. }
  destruct (contains "arcsin" _); [|destruct (contains "arccos" _); [|left; exists g; auto]];
    (destruct (sy_match _ _ _ _) as [[A B]|] eqn:M; [|left; exists g; auto]; right; destruct (has _ _) eqn:Hh;
     [left; split; auto; exists q; split; auto; eapply Sf; eauto; cbn; auto|right]; rewrite upd_unk_comp; eexists q, _, _, g; (split; [auto|split; [auto|split; [auto|split; [reflexivity|]]]]);
     intros e v He Hv; eapply Sy; eauto; [cbn; auto|]; destruct He as [<-|[<-|[]]]; exact Hv).
Qed.
(** * The ranker *)
Lemma rank_total i F s : s_curr s = Some i -> i < List.length (s_heap s) -> presolve F ->
  (u_sc (F (un s i)) <> [] -> u_sceq (F (un s i)) <> []) -> (u_tan (F (un s i)) <> [] -> exists e1 e2 r, u_taneq (F (un s i)) = e1 :: e2 :: r) ->
  split_own (F (un s i)) -> (forall e, In e (u_sc (F (un s i))) \/ In e (u_tan (F (un s i))) -> mine s i e) ->
  exists s', rank (upd_unk i F s) = OK true s'.
Proof.
  intros Hc Hi P N1 N2 [So Sp] M. unfold un in *. set (u := F (getu (s_heap s) i)) in *. unfold rank, with_curr. rewrite curr_upd, Hc. rewrite get_upd by auto. fold u.
  assert (Pm : forall m, presolve (fun v => add_method m (F v))). { intros m. apply (pre_comp F); auto. split. intros v; reflexivity. intros v T; exact T. }
  assert (One : solutions u <> [] -> exists s', finish (set_solved i (upd_unk i F s)) = OK true s').
  { intros Ne. apply finish_total; auto. intros e j He. unfold un in He. fold u in He. assert (X : In e (u_tan u ++ u_sc u)) by (unfold solutions in He; rewrite So, Sp in He; auto).
    apply in_app_or in X. apply M. tauto. }
  assert (Ne : u_sc u <> [] \/ u_tan u <> [] -> solutions u <> []). { intros D Z. unfold solutions in Z. rewrite So, Sp in Z. apply app_eq_nil in Z as [Z1 Z2]. tauto. }
  assert (L : forall l : list expr, (0 <? List.length l) = match l with [] => false | _ => true end) by (intros []; auto). rewrite !L.
  destruct (u_sc u) as [|s0 scs] eqn:Es; destruct (u_tan u) as [|t0 tans] eqn:Et; cbn [andb orb].
  - eauto.
  - apply One. apply Ne. right. discriminate.
  - apply One. apply Ne. left. discriminate.
  - clear One Ne. rewrite <- Es in M. assert (N1' : u_sceq u <> []) by (apply N1; discriminate). destruct N2 as (e1 & e2 & r & N2); [discriminate|].
    destruct (rank_choice _ _).
    + destruct (u_sceq u) as [|q qs]; [tauto|]. rewrite !upd_unk_comp. apply finish_total.
      { auto. }
      { apply (pre_comp _ (fun v => add_method "sin or cos" (set_u_eqn (Some q) (set_u_nsol (S (List.length scs)) (set_u_ref RefSC v)))) (Pm ", best ranked, ")). split. intros v; reflexivity. intros v T; exact T. }
      { unfold un. cbv beta. change (solutions _) with (u_sc u) . rewrite Es. discriminate. }
      { unfold un. cbv beta. intros e j He. change (In e (u_sc u)) in He. apply M. auto. }
    + destruct (u_sceq u) as [|q qs]; [tauto|]. rewrite !upd_unk_comp. apply finish_total.
      { auto. }
      { apply (pre_comp _ (fun v => add_method "sin or cos" (set_u_eqn (Some q) (set_u_nsol (S (List.length scs)) (set_u_ref RefSC v)))) (Pm ", best ranked, ")). split. intros v; reflexivity. intros v T; exact T. }
      { unfold un. cbv beta. change (solutions _) with (u_sc u) . rewrite Es. discriminate. }
      { unfold un. cbv beta. intros e j He. change (In e (u_sc u)) in He. apply M. auto. }
    + rewrite N2. rewrite !upd_unk_comp. apply finish_total.
      { auto. }
      { apply (pre_comp _ (fun v => add_method "atan2(y,x)" (set_u_eqn2 (Some e2) (set_u_eqn (Some e1) (set_u_nsol (S (List.length tans)) (set_u_ref RefTan v))))) (Pm ", best ranked, ")). split. intros v; reflexivity. intros v T; exact T. }
      { unfold un. cbv beta. change (solutions _) with (u_tan u). rewrite Et. discriminate. }
      { unfold un. cbv beta. intros e j He. change (In e (u_tan u)) in He. rewrite <- Et in M. apply M. auto. }
Qed.

(** * The two trigonometric solvers with the ranker *)
(** a usable pair whose sine coefficient is known and whose cosine coefficient is not, although their quotient is *)
Definition tan_half (s : state) (u : string) : Prop := exists es ec A B C D, tan_usable s u es ec
  /\ sy_match sy (Sin (Sym u)) (both_terms u) (sy_collect sy (both_terms u) (resid sy es)) = Some (A, B)
  /\ sy_match sy (Cos (Sym u)) (both_terms u) (sy_collect sy (both_terms u) (resid sy ec)) = Some (C, D) /\ known s A /\ ~ known s C.
Lemma known_vars s e : known s e <-> List.length (get_variables (filter (fun v => negb (u_solved v)) (unk_objs s)) e) = 0.
Proof.
  unfold get_variables. rewrite filter_len0. unfold known, unk_objs, un. split.
  - intros H x Hx. apply filter_In in Hx as [Hx Sx]. apply in_map_iff in Hx as (j & <- & Hj). destruct (has _ e) eqn:E; auto. rewrite (H j Hj E) in Sx. discriminate.
  - intros H j Hj E. destruct (u_solved (getu (s_heap s) j)) eqn:Sj; auto. assert (X : has (u_sym (getu (s_heap s) j)) e = false). { apply H. apply filter_In. split. apply in_map; auto. rewrite Sj. auto. } congruence.
Qed.
Lemma known_dec s e : known s e \/ ~ known s e.
Proof. rewrite known_vars. destruct (Nat.eq_dec (List.length (get_variables (filter (fun v => negb (u_solved v)) (unk_objs s)) e)) 0); auto. Qed.
Lemma known_mine s i e : known s e -> mine s i e. Proof. intros K j Hj Hh. right. apply K; auto. Qed.
Lemma tan_sols_mine s i A B C D : known s (sy_norm sy (Div A C)) -> known s B -> known s D -> (known s A -> known s C) -> forall e, In e (tan_sols s A B C D) -> mine s i e.
Proof.
  intros K1 K2 K3 K4 e He. apply known_mine. unfold tan_sols in He. cbv zeta in He. destruct (_ =? 0) eqn:Z.
  - apply Nat.eqb_eq in Z. apply known_vars in Z. specialize (K4 Z). destruct He as [<-|[]]. intros j Hj Hh. cbn in Hh. repeat (match goal with H : _ || _ = true |- _ => apply orb_prop in H as [H|H] end);
      first [apply (Z j); [assumption|exact Hh] | apply (K2 j); [assumption|exact Hh] | apply (K3 j); [assumption|exact Hh] | apply (K4 j); [assumption|exact Hh]].
  - destruct He as [<-|[<-|[]]]; intros j Hj Hh; cbn in Hh; repeat (match goal with H : _ || _ = true |- _ => apply orb_prop in H as [H|H] end);
      first [apply (K1 j); [assumption|exact Hh] | apply (K2 j); [assumption|exact Hh] | apply (K3 j); [assumption|exact Hh]].
Qed.
Lemma mine_upd s i f e : presolve f -> mine (upd_unk i f s) i e <-> mine s i e.
Proof.
  intros P. assert (G : forall j, u_sym (un (upd_unk i f s) j) = u_sym (un s j) /\ u_solved (un (upd_unk i f s) j) = u_solved (un s j)).
  { intros j. unfold un, upd_unk. cbn [s_heap set_s_heap]. destruct (Nat.eq_dec i j) as [<-|N]; [|rewrite getu_updh_other; auto].
    destruct (Nat.lt_ge_cases i (List.length (s_heap s))). rewrite getu_updh_same by auto. assert (B := proj1 P (getu (s_heap s) i)). split. apply book_sym; auto. apply book_solved; auto. rewrite updh_oob; auto. }
  unfold mine. change (s_unks (upd_unk i f s)) with (s_unks s). split; intros H j Hj; specialize (H j Hj); destruct (G j) as [G1 G2]; rewrite ?G1, ?G2 in *; auto.
Qed.
Lemma clean_of u : pristine u -> u_ref u = Own /\ u_own u = [] /\ u_sc u = [] /\ u_tan u = []. Proof. intros (_ & _ & _ & _ & A & B & C & D & _). auto. Qed.
Lemma quiet_fields f u : quiet f -> u_ref (f u) = u_ref u /\ u_own (f u) = u_own u /\ u_sc (f u) = u_sc u /\ u_tan (f u) = u_tan u /\ u_sceq (f u) = u_sceq u /\ u_taneq (f u) = u_taneq u.
Proof. intros Q. destruct (proj1 Q u) as [_ K]. unfold stock in K. injection K as ? ? ? ? ? ? ?. auto 6. Qed.
Lemma one_more {A} (l : list A) a : l ++ [a] <> []. Proof. destruct l; discriminate. Qed.
Lemma two_more {A} (l : list A) a b : exists e1 e2 r, l ++ [a; b] = e1 :: e2 :: r.
Proof. destruct l as [|x [|y l]]; cbn; eauto. Qed.
Lemma tan_store_taneq sols q1 q2 asm u : u_taneq (tan_store sols q1 q2 asm u) = u_taneq u ++ [q1; q2].
Proof.
  unfold tan_store. cbn [u_taneq set_u_nsol set_u_assume set_u_taneq]. f_equal.
  assert (G1 : forall l v, u_taneq (fold_left (fun u e => set_u_tan (u_tan u ++ [e]) u) l v) = u_taneq v) by (induction l; intros v; cbn [fold_left]; auto; rewrite IHl; reflexivity). rewrite G1.
  assert (G2 : forall l v, u_taneq (fold_left (fun u e => add_solution e u) l v) = u_taneq v). { induction l; intros v; cbn [fold_left]; auto. rewrite IHl. unfold add_solution. destruct (u_ref v); reflexivity. } apply G2.
Qed.
Lemma sincos_store_eqs s1 s2 q u : u_sceq (sincos_store s1 s2 q u) = u_sceq u ++ [q] /\ u_taneq (sincos_store s1 s2 q u) = u_taneq u.
Proof. unfold sincos_store, add_solution. destruct (u_ref u) eqn:E; cbn; rewrite ?E; cbn; auto. Qed.
Lemma sc_tan_run s i : ready s i -> pristine (un s i) -> u_tanable (un s i) = false ->
  (sc_tan sy s = Raise /\ ((exists q, In q (s_L1 s) /\ sincos_self (u_sym (un s i)) q) \/ tan_half s (u_sym (un s i))))
  \/ (exists s', sc_tan sy s = OK true s') \/ ((exists g, quiet g /\ (forall v, u_tanable (g v) = u_tanable v) /\ sc_tan sy s = OK false (upd_unk i g s)) /\ forall es ec, ~ tan_usable s (u_sym (un s i)) es ec).
Proof.
  intros (Hc & Hiu & Hi & Hs & O) Pr Ht. destruct (clean_of _ Pr) as (Cr & Co & Cs & Ct).
  assert (SB : forall f F, f = upd_unk i F s -> presolve F -> u_sym (un f i) = u_sym (un s i) /\ u_solved (un f i) = false).
  { intros f F -> P. unfold un. rewrite get_upd by auto. assert (B := proj1 P (getu (s_heap s) i)). split. apply book_sym; auto. rewrite (book_solved _ _ B). auto. }
  assert (MQ : forall q e, In q (s_L1 s) -> in_eqn (u_sym (un s i)) q -> (forall v, has v e = true -> in_eqn v q) -> mine s i e) by (intros q e Hq Hu Hv; apply (mine_eqn s i q); auto).
  unfold sc_tan, seq2, or2.
  destruct (tan_run s i (conj Hc (conj Hi (conj Hs Ht)))) as [[E N]|(es & ec & A & B & C & D & g & asm & U & M1 & M2 & K1 & K2 & K3 & Q & E & _)]; rewrite E.
  - destruct (sc_run s i Hc Hi Hs) as [(g & Q & Tg & ->)|[(-> & q & Hq & Sf)|(q & s1 & s2 & g & Hq & Uq & Q & -> & Vq)]].
    + right. right. split; eauto.
    + left. split; eauto.
    + right. left. cbn [orb]. destruct (quiet_fields g (un s i) Q) as (F1 & F2 & F3 & F4 & F5 & F6). destruct (sincos_store_split s1 s2 q (g (un s i))) as (J1 & J2 & J3).
      { split. congruence. rewrite F2, F3, F4, Co, Cs, Ct. auto. } destruct (sincos_store_eqs s1 s2 q (g (un s i))) as [J4 J5].
      apply rank_total; auto.
      * apply (pre_comp g (sincos_store s1 s2 q)). apply quiet_pre; auto. apply pre_sincos_store.
      * intros _. rewrite J4. apply one_more.
      * rewrite J3, F4, Ct. tauto.
      * rewrite J2, J3, F3, F4, Cs, Ct. intros e [He|[]]. apply (MQ q); auto. intros v. apply Vq. auto.
  - set (TS := tan_store (tan_sols s A B C D) (Keq (Num 0) (sy_collect sy (both_terms (u_sym (un s i))) (resid sy es))) (Keq (Num 0) (sy_collect sy (both_terms (u_sym (un s i))) (resid sy ec))) asm) in *.
    assert (P1 : presolve (fun u => TS (g u))). { apply (pre_comp g TS). apply quiet_pre; auto. apply pre_tan_store. }
    destruct (quiet_fields g (un s i) Q) as (F1 & F2 & F3 & F4 & F5 & F6).
    destruct (tan_store_split (tan_sols s A B C D) (Keq (Num 0) (sy_collect sy (both_terms (u_sym (un s i))) (resid sy es))) (Keq (Num 0) (sy_collect sy (both_terms (u_sym (un s i))) (resid sy ec))) asm (g (un s i))) as (T1 & T2 & T3).
    { split. congruence. rewrite F2, F3, F4, Co, Cs, Ct. auto. } { congruence. } fold TS in T1, T2, T3.
    assert (T4 : exists e1 e2 r, u_taneq (TS (g (un s i))) = e1 :: e2 :: r). { unfold TS. rewrite tan_store_taneq. apply two_more. }
    assert (KK : (known s A -> known s C) \/ (known s A /\ ~ known s C)) by (destruct (known_dec s A); destruct (known_dec s C); tauto).
    destruct KK as [KK|[KA KC]].
    2:{ assert (H : tan_half s (u_sym (un s i))) by (exists es, ec, A, B, C, D; auto 8).
        destruct (sc_sol sy (upd_unk i (fun u => TS (g u)) s)) as [b2 s2|]; [|left; auto]. rewrite orb_true_l. destruct (rank s2) as [b3 s3|] eqn:Er; [|left; auto]. right. left. apply eff_rank in Er as (_ & _ & -> & _). eauto. }
    assert (MT : forall e, In e (tan_sols s A B C D) -> mine s i e) by (apply tan_sols_mine; auto).
    set (s1 := upd_unk i (fun u => TS (g u)) s) in *. destruct (SB s1 _ eq_refl P1) as [Sy1 So1].
    destruct (sc_run s1 i Hc) as [(h & Qh & _ & ->)|[(-> & q & Hq & Sf)|(q & l1 & l2 & h & Hq & Uq & Qh & -> & Vq)]]; [unfold s1; rewrite len_upd; exact Hi | exact So1 | | left; rewrite Sy1 in Sf; split; eauto | ];
    (right; left; cbn [orb]; unfold s1; rewrite upd_unk_comp; destruct (quiet_fields h (TS (g (un s i))) Qh) as (H1 & H2 & H3 & H4 & H5 & H6)).
    + apply rank_total; auto; [ apply (pre_comp _ h P1); apply quiet_pre; auto | rewrite H3, T2; tauto | rewrite H6; auto | destruct T1; split; congruence | rewrite H3, H4, T2, T3, F4, Ct; intros e [[]|He]; auto ].
    + destruct (sincos_store_split l1 l2 q (h (TS (g (un s i))))) as (J1 & J2 & J3); [destruct T1; split; congruence|]. destruct (sincos_store_eqs l1 l2 q (h (TS (g (un s i))))) as [J4 J5].
      apply rank_total; auto; [ apply (pre_comp (fun u => h (TS (g u))) (sincos_store l1 l2 q)); [apply (pre_comp _ h P1); apply quiet_pre; auto|apply pre_sincos_store]
      | intros _; rewrite J4; apply one_more | rewrite J5, H6; auto | rewrite J2, J3, H3, H4, T2, T3, F4, Ct; cbn [app]; intros e [He|He]; auto; rewrite Sy1 in Uq; apply (MQ q); auto; intros v; apply Vq; auto ].
Qed.

(** * Invariants *)
Definition no_half_id (s : state) : Prop := forall j, u_solved (un s j) = false -> u_tanable (un s j) = false.
Definition cinv (s : state) : Prop := one_each s /\ s_meqs s <> [] /\ no_half_id s.
Lemma count_mono s s' e : s_unks s' = s_unks s -> (forall j, u_sym (un s' j) = u_sym (un s j)) -> (forall j, u_solved (un s j) = true -> u_solved (un s' j) = true) ->
  count_unknowns (unk_objs s') e <= count_unknowns (unk_objs s) e.
Proof.
  intros U H1 H2. unfold count_unknowns, unk_objs. rewrite U. clear U. induction (s_unks s) as [|j l IH]; auto. cbn [map filter]. specialize (H1 j). specialize (H2 j). unfold un in H1, H2. rewrite H1.
  destruct (has _ e); cbn [andb]; auto. destruct (u_solved (getu (s_heap s) j)). rewrite H2 by auto. cbn [negb]. exact IH. destruct (negb (u_solved (getu (s_heap s') j))); cbn [negb List.length]; lia.
Qed.
Lemma one_each_mono s s' : one_each s -> s_L1 s' = s_L1 s -> s_unks s' = s_unks s -> (forall j, u_sym (un s' j) = u_sym (un s j)) -> (forall j, u_solved (un s j) = true -> u_solved (un s' j) = true) -> one_each s'.
Proof. intros O L U H1 H2 q Hq. rewrite L in Hq. specialize (O q Hq). unfold eqn_count in *. assert (X := count_mono s s' (k_lhs q) U H1 H2). assert (Y := count_mono s s' (k_rhs q) U H1 H2). lia. Qed.
Lemma cinv_upd i f s : cinv s -> quiet f -> (forall v, u_tanable (f v) = u_tanable v) -> cinv (upd_unk i f s).
Proof.
  intros (O & M & T) Q Tf. split; [|split].
  - apply (one_each_mono s); auto; intros j; destruct (quiet_un i f s j Q) as [A B]; auto. rewrite B. auto.
  - exact M.
  - intros j. destruct (quiet_un i f s j Q) as [_ B]. rewrite B. intros Hs. specialize (T j Hs). unfold un, upd_unk in *. cbn [s_heap set_s_heap]. destruct (Nat.eq_dec i j) as [<-|N]; [|rewrite getu_updh_other; auto].
    destruct (Nat.lt_ge_cases i (List.length (s_heap s))). rewrite getu_updh_same by auto. rewrite Tf. auto. rewrite updh_oob; auto.
Qed.
Lemma cinv_same s s' : cinv s -> s_heap s' = s_heap s -> s_unks s' = s_unks s -> s_L1 s' = s_L1 s -> s_meqs s' = s_meqs s -> cinv s'.
Proof. intros (O & M & T) H U L Q. unfold cinv, one_each, no_half_id, un, unk_objs in *. rewrite H, U, L, Q. auto. Qed.
Lemma cinv_solve i f s s' : cinv s -> presolve f -> set_solved i (upd_unk i f s) = Some s' -> cinv s'.
Proof.
  intros (O & M & T) P E. assert (Pv := proj1 P (getu (s_heap s) i)). assert (E' := E). apply solve_step in E as [Hi E]; auto. cbv zeta in E. destruct E as (deps & nver & (U1 & U2 & _) & _ & Eo & El & Eun & _).
  apply set_solved_spec in E' as (d' & n' & _ & _ & _ & _ & _ & _ & _ & L1 & _ & _ & Me & _); [|rewrite len_upd; auto].
  assert (G1 : forall j, u_sym (un s' j) = u_sym (un s j)). { intros j. unfold un. destruct (Nat.eq_dec j i) as [->|N]; [|rewrite Eo; auto]. rewrite U1. apply book_sym; auto. }
  assert (G2 : forall j, u_solved (un s j) = true -> u_solved (un s' j) = true). { intros j. unfold un. destruct (Nat.eq_dec j i) as [->|N]; [rewrite U2; auto|rewrite Eo; auto]. }
  split; [|split].
  - apply (one_each_mono s); auto.
  - rewrite Me. exact M.
  - intros j. unfold un. destruct (Nat.eq_dec j i) as [->|N]. rewrite U2. discriminate. rewrite Eo by auto. apply T.
Qed.
Lemma cinv_effect s s' i b : cinv s -> u_solved (un s i) = false -> effect s s' i b -> u_solved (un s' i) = true -> cinv s'.
Proof.
  intros C Hs [b' f Q -> _|f P E _] K. destruct (quiet_un i f s i Q) as [_ X]. congruence. eapply cinv_solve; eauto.
Qed.
Lemma scan_meqs meqs aux us L : scan_for_equations sy meqs aux us = Some L -> meqs <> []. Proof. destruct meqs; [discriminate|intros _; discriminate]. Qed.
Lemma push_auxs_one us aux : forall l1 l2 l3, (forall q, In q l1 -> eqn_count us q <= 1) -> let '(k1, _, _) := fold_left (push_aux sy us) aux (l1, l2, l3) in forall q, In q k1 -> eqn_count us q <= 1.
Proof.
  induction aux as [|e aux IH]; intros l1 l2 l3 H; cbn [fold_left]; auto. unfold push_aux at 2. cbv zeta. cbn [k_rhs].
  destruct (_ =? 1) eqn:E; [|destruct (_ =? 2); [|destruct (_ =? 3)]]; try (apply IH; exact H). apply IH. intros q Hq. apply in_app_or in Hq as [Hq|[<-|[]]]; auto.
  apply Nat.eqb_eq in E. unfold eqn_count. cbn [k_lhs k_rhs]. rewrite E. assert (Z : count_unknowns us (Num 0) = 0) by (unfold count_unknowns; rewrite filter_len0; intros x _; reflexivity). lia.
Qed.
Lemma cinv_task t s b s' : hinv s -> cinv s -> no_resolve t s -> run_task sy t s = OK b s' -> cinv s'.
Proof.
  intros Hv C N H. assert (Rd : forall i, s_curr s = Some i -> u_solved (un s i) = false -> ready s i).
  { intros i Hc Hs. destruct Hv as (H1 & H2 & _). split; auto. split; auto. split; auto. split; auto. apply C. }
  assert (Pr : forall i, u_solved (un s i) = false -> pristine (un s i)) by (intros i; apply Hv).
  assert (So : forall i, u_solved (un s i) = false -> solutions (un s i) = []). { intros i Hs. destruct (clean_of _ (Pr i Hs)) as (A & B & _). unfold solutions. rewrite A. auto. }
  destruct t; cbn [run_task] in H.
  - unfold assigner in H. destruct (asgn_scan _ _ _) as [[i c]|]; [|destruct (s_unks s) eqn:E; [discriminate|]]; injection H as <- <-; apply (cinv_same s); auto.
  - unfold sum_id in H. destruct (existsb _ _); [discriminate|]. injection H as <- <-. auto.
  - assert (H' := H). apply eff_alg in H' as [->|(i & Hc & E & Hs)]; auto. destruct (alg_run s i (Rd i Hc Hs) (So i Hs)) as [[X _]|(q & A & B & s1 & g & _ & _ & _ & X & P & Es & _)]; rewrite X in H; injection H as <- <-; auto. eapply cinv_solve; eauto.
  - assert (H' := H). apply eff_sc_tan in H' as (i & Hc & H'). destruct (u_solved (un s i)) eqn:Hs.
    + destruct (H' (hinv_curr s Hv i Hc)) as [(_ & f & _ & _ & X)|(_ & f & P & E & X & _)]. rewrite (X Hs). auto. eapply cinv_solve; eauto.
    + destruct (sc_tan_run s i (Rd i Hc Hs) (Pr i Hs) (proj2 (proj2 C) i Hs)) as [[X _]|[[s1 X]|[(g & Q & Tg & X) _]]]; rewrite X in H; [discriminate| |]; injection H as <- <-.
      * destruct (H' (hinv_curr s Hv i Hc)) as [(Z & _)|(_ & f & P & E & _)]; [discriminate|]. eapply cinv_solve; eauto.
      * apply cinv_upd; auto.
  - assert (H' := H). apply eff_simu in H' as [->|(i & Hc & E & Hs)]; auto. destruct (simu_run s i (Rd i Hc Hs)) as [[X _]|(e1 & e2 & _ & [(_ & _ & g & Q & Tg & X)|(_ & s1 & X & K)])]; rewrite X in H; injection H as <- <-; auto.
    apply cinv_upd; auto. eapply cinv_effect; eauto.
  - assert (H' := H). apply eff_sac in H' as [->|(i & Hc & E & Hs)]; auto. destruct (sac_run s i (Rd i Hc Hs) (So i Hs)) as [[X _]|[(s1 & X & K & _)|[X _]]]; rewrite X in H; [| |discriminate]; injection H as <- <-; auto. eapply cinv_effect; eauto.
  - unfold x2z2_transform in H. apply with_curr_inv in H as (i & Hc & H). destruct (negb _). { injection H as <- <-. auto. }
    destruct (x2z2_pairs _ _ _) as [[l r]|]; [|injection H as <- <-; auto]. destruct (find _ _) as [j|]; injection H as <- <-; auto.
    apply (cinv_same (upd_unk j (add_method "x2z2 transform and ") s)); auto. apply cinv_upd; auto. split. intros v; split; reflexivity. intros v T; exact T.
  - unfold sub_transform in H. destruct (s_meqs s) as [|M Ms]; [discriminate|]. destruct (fold_left (sub_elt sy (unk_objs s) (me_Td M)) idx12 (me_Ts M, false)) as [Ts fd]. cbv zeta in H. destruct C as (O & Mq & T).
    destruct fd. 2:{ injection H as <- <-. split; [|split]; auto. discriminate. }
    destruct (scan_for_equations _ _ _ _) as [[[l1 l2] l3]|] eqn:E; [|discriminate]. injection H as <- <-. apply C26_classified in E as (E & _). split; [|split]; auto.
    { intros q Hq. cbn in Hq. specialize (E q Hq). change (eqn_count (unk_objs s) q <= 1). change (eqn_count (unk_objs s) q = 1) in E. lia. } discriminate.
  - unfold updateL in H. destruct (scan_for_equations _ _ _ _) as [[[l1 l2] l3]|] eqn:E; [|discriminate]. injection H as <- <-. destruct C as (O & Mq & T). apply C26_classified in E as (E & _).
    assert (X := push_auxs_one (unk_objs s) (s_aux s) l1 l2 l3). destruct (fold_left _ _ _) as [[k1 k2] k3]. split; [|split]; auto.
    intros q Hq. cbn in Hq. apply X; auto. intros q' Hq'. specialize (E q' Hq'). change (eqn_count (unk_objs s) q' = 1) in E. lia.
  - unfold comp_det in H. injection H as _ <-. auto.
Qed.
Lemma cinv_initial s : initial sy s -> cinv s.
Proof.
  intros (Hf & Hr & Hc & _ & Hn & Hnd & _ & E). assert (M := scan_meqs _ _ _ _ E). apply C26_classified in E as (E & _). split; [|split]; auto.
  - intros q Hq. specialize (E q Hq). change (eqn_count (unk_objs s) q = 1) in E. lia.
  - intros j _. unfold un. destruct (Nat.lt_ge_cases j (List.length (s_heap s))). rewrite (Hf (getu (s_heap s) j)) by (apply getu_in; auto). reflexivity. unfold getu. rewrite nth_overflow by auto. reflexivity.
Qed.
Lemma cinv_runs s ts s' : hinv s -> cinv s -> runs1 sy s ts s' -> hinv s' /\ cinv s'.
Proof.
  intros Hv C H. induction H; auto. apply IHruns1. eapply step_hinv; eauto. eapply task_step; eauto. apply hinv_curr; auto. eapply cinv_task; eauto.
Qed.

(** C61: in every state a history without re-solving reaches, an unsolved current unknown meets the hypotheses of the theorems above. *)
Theorem C61_reachable s0 ts s i : initial sy s0 -> runs1 sy s0 ts s -> s_curr s = Some i -> u_solved (un s i) = false -> ready s i /\ open_unknown s i /\ solutions (un s i) = [].
Proof.
  intros I R Hc Hs. destruct (cinv_runs s0 ts s (hinv_initial sy s0 I) (cinv_initial s0 I) R) as [Hv (O & _ & T)]. assert (Hi := hinv_curr s Hv i Hc).
  split; [|split].
  - exact (conj Hc (conj (proj1 (proj2 Hv) i Hc) (conj Hi (conj Hs O)))).
  - exact (conj Hc (conj Hi (conj Hs (T i Hs)))).
  - destruct Hv as (_ & _ & P & _). destruct (clean_of _ (P i Hs)) as (A & B & _). unfold un, solutions. rewrite A. auto.
Qed.
(** * C62: what can make a part of the tree raise an exception *)
Definition cause (t : task) (s : state) : Prop :=
  match t with
  | TAssign => s_unks s = []
  | TSumId => exists M q, In M (s_meqs s) /\ In q (get_kequation_list M) /\ (sy_has_sum sy (k_lhs q) = true \/ sy_has_sum sy (k_rhs q) = true)
  | TAlg | TSimu | TX2z2 => s_curr s = None
  | TScTan => s_curr s = None \/ exists i, s_curr s = Some i /\ u_solved (un s i) = false /\ ((exists q, In q (s_L1 s) /\ sincos_self (u_sym (un s i)) q) \/ tan_half s (u_sym (un s i)))
  | TSac => s_curr s = None \/ exists i q, s_curr s = Some i /\ u_solved (un s i) = false /\ In q (s_L1 s) /\ sac_zero (u_sym (un s i)) q
  | TSub | TUpdateL | TCompDet _ => False
  end.
Lemma raise_cause t s : hinv s -> cinv s -> no_resolve t s -> run_task sy t s = Raise -> cause t s.
Proof.
  intros Hv C N H. assert (Rd : forall i, s_curr s = Some i -> u_solved (un s i) = false -> ready s i).
  { intros i Hc Hs. destruct Hv as (H1 & H2 & _). split; auto. split; auto. split; auto. split; auto. apply C. }
  assert (Pr : forall i, u_solved (un s i) = false -> pristine (un s i)) by (intros i; apply Hv).
  assert (So : forall i, u_solved (un s i) = false -> solutions (un s i) = []). { intros i Hs. destruct (clean_of _ (Pr i Hs)) as (A & B & _). unfold solutions. rewrite A. auto. }
  destruct t; cbn [run_task cause] in *.
  - unfold assigner in H. destruct (asgn_scan _ _ _) as [[i c]|]; [discriminate|]. destruct (s_unks s); [auto|discriminate].
  - unfold sum_id in H. destruct (existsb _ _) eqn:E; [|discriminate]. apply existsb_exists in E as (M & HM & E). apply existsb_exists in E as (q & Hq & E). apply orb_prop in E. eauto.
  - destruct (s_curr s) as [i|] eqn:Hc; auto. exfalso. destruct (u_solved (un s i)) eqn:Hs.
    + unfold alg_sol, seq2, algebra_id, with_curr in H. destruct (_ =? 0); [discriminate|]. rewrite Hc in H. unfold un in Hs. rewrite Hs in H. discriminate.
    + destruct (alg_run s i (Rd i eq_refl Hs) (So i Hs)) as [[X _]|(q & A & B & s1 & g & _ & _ & _ & X & _)]; rewrite X in H; discriminate.
  - destruct (s_curr s) as [i|] eqn:Hc; auto. right. exists i. split; auto. destruct (u_solved (un s i)) eqn:Hs.
    + exfalso. specialize (N eq_refl i Hc Hs). unfold un in *. unfold sc_tan, seq2, or2, tan_sol, sc_sol, seq2, tan_id, sincos_id, with_curr in H. rewrite Hc, N, Hs in H. cbn [negb andb] in H. cbv zeta in H. rewrite N in H.
      rewrite Hc, Hs, andb_false_r in H. discriminate.
    + split; auto. destruct (sc_tan_run s i (Rd i eq_refl Hs) (Pr i Hs) (proj2 (proj2 C) i Hs)) as [[X Y]|[[s1 X]|[(g & Q & Tg & X) _]]]; rewrite X in H; [auto|discriminate|discriminate].
  - destruct (s_curr s) as [i|] eqn:Hc; auto. exfalso. destruct (u_solved (un s i)) eqn:Hs.
    + unfold simu_sol, seq2, simu_id, with_curr in H. rewrite Hc in H. unfold un in Hs. rewrite Hs in H. discriminate.
    + destruct (simu_run s i (Rd i eq_refl Hs)) as [[X _]|(e1 & e2 & _ & [(_ & _ & g & Q & Tg & X)|(_ & s1 & X & K)])]; rewrite X in H; discriminate.
  - destruct (s_curr s) as [i|] eqn:Hc; auto. right. destruct (u_solved (un s i)) eqn:Hs.
    + exfalso. unfold sac_sol, seq2, sinandcos_id, with_curr in H. rewrite Hc in H. unfold un in Hs. rewrite Hs in H. discriminate.
    + destruct (sac_run s i (Rd i eq_refl Hs) (So i Hs)) as [[X _]|[(s1 & X & K & _)|(X & q & Hq & Z)]]; rewrite X in H; [discriminate|discriminate|]. exists i, q. auto.
  - unfold x2z2_transform, with_curr in H. destruct (s_curr s); auto. exfalso. destruct (negb _); [discriminate|]. destruct (x2z2_pairs _ _ _) as [[l r]|]; [|discriminate]. destruct (find _ _); discriminate.
  - unfold sub_transform in H. destruct C as (_ & M & _). destruct (s_meqs s) as [|M0 Ms]; [tauto|]. destruct (fold_left _ _ _) as [Ts fd]. cbv zeta in H. destruct fd; [|discriminate]. cbn in H. discriminate.
  - unfold updateL in H. destruct C as (_ & M & _). destruct (s_meqs s) as [|M0 Ms]; [tauto|]. cbn in H. discriminate.
  - discriminate.
Qed.
(** C62: wherever a history without re-solving has led, a tick of a part of the tree raises an exception only for one of the listed causes. *)
Theorem C62_causes s0 ts s t : initial sy s0 -> runs1 sy s0 ts s -> no_resolve t s -> run_task sy t s = Raise -> cause t s.
Proof. intros I R N H. destruct (cinv_runs s0 ts s (hinv_initial sy s0 I) (cinv_initial s0 I) R). apply raise_cause; auto. Qed.
(** the equation-list parts and the completion test never raise, and the algebra, two-equation and x2z2 parts do not once an unknown has been handed out *)
Theorem C62_never s0 ts s t : initial sy s0 -> runs1 sy s0 ts s -> In t [TSub; TUpdateL; TCompDet true; TCompDet false] \/ (In t [TAlg; TSimu; TX2z2] /\ s_curr s <> None) -> exists b s', run_task sy t s = OK b s'.
Proof.
  intros I R D. destruct (run_task sy t s) as [b s'|] eqn:E; eauto. exfalso.
  assert (N : no_resolve t s) by (intros ->; cbn in D; intuition discriminate).
  assert (X := C62_causes s0 ts s t I R N E). cbn in D. decompose [or and False] D; subst t; cbn in X; auto; tauto.
Qed.

(** ** The whole tree *)
(** [f] raises: then some part of the tree raised after a history; the parts that work on the current unknown only after one was handed out *)
Definition works (t : task) : Prop := In t [TAlg; TScTan; TSimu; TSac; TX2z2].
Definition raises (P : state -> Prop) (f : state -> outcome) : Prop :=
  forall s, P s -> f s = Raise -> exists ts s1 t, runs sy s ts s1 /\ run_task sy t s1 = Raise /\ (works t -> s_curr s1 <> None).
Lemma raises_task (P : state -> Prop) t : (works t -> forall s, P s -> s_curr s <> None) -> raises P (run_task sy t).
Proof. intros H s HP E. exists [], s, t. split. constructor. split; eauto. Qed.
Lemma raises_seq2 (P Q : state -> Prop) f g : traced sy f -> raises P f -> (forall s s1, P s -> f s = OK true s1 -> Q s1) -> raises Q g -> raises P (seq2 f g).
Proof.
  intros Tf Rf K Rg s HP E. unfold seq2 in E. destruct (f s) as [[] s1|] eqn:F; [|discriminate|].
  - destruct (Tf _ _ _ F) as [ts R]. destruct (Rg s1 (K s s1 HP F) E) as (ts' & s2 & t & R' & X). exists (ts ++ ts'), s2, t. split; auto. eapply runs_app; eauto.
  - apply Rf; auto.
Qed.
Lemma raises_prio2 (P Q : state -> Prop) f g : traced sy f -> raises P f -> (forall s s1, P s -> f s = OK false s1 -> Q s1) -> raises Q g -> raises P (prio2 f g).
Proof.
  intros Tf Rf K Rg s HP E. unfold prio2 in E. destruct (f s) as [[] s1|] eqn:F; [discriminate| |].
  - destruct (Tf _ _ _ F) as [ts R]. destruct (Rg s1 (K s s1 HP F) E) as (ts' & s2 & t & R' & X). exists (ts ++ ts'), s2, t. split; auto. eapply runs_app; eauto.
  - apply Rf; auto.
Qed.
Lemma raises_repeat (P : state -> Prop) n f : traced sy f -> raises P f -> (forall s b s1, P s -> f s = OK b s1 -> P s1) -> raises P (repeat_until_success n f).
Proof.
  intros Tf Rf K. induction n as [|n IH]; intros s HP E; [discriminate|]. cbn [repeat_until_success] in E. destruct (f s) as [[] s1|] eqn:F; [discriminate| |].
  - destruct (Tf _ _ _ F) as [ts R]. destruct (IH s1 (K _ _ _ HP F) E) as (ts' & s2 & t & R' & X). exists (ts ++ ts'), s2, t. split; auto. eapply runs_app; eauto.
  - apply Rf; auto.
Qed.
Lemma traced_hinv f s b s1 : traced sy f -> hinv s -> f s = OK b s1 -> hinv s1.
Proof. intros T Hv E. destruct (T _ _ _ E) as [ts R]. eapply hinv_runs; eauto. Qed.
Definition handed (s : state) : Prop := hinv s /\ s_curr s <> None.
Lemma handed_task t s b s' : handed s -> run_task sy t s = OK b s' -> handed s'.
Proof.
  intros [Hv Hc] E. assert (St := task_step sy t s b s' (hinv_curr s Hv) E). split. eapply step_hinv; eauto. destruct St as [i f _ [C|(j & C & _)] _ _ _|i f _ P St _ _]; try congruence.
  apply solve_step in St as [_ (deps & nver & _ & _ & _ & _ & _ & Ec & _)]; auto. congruence.
Qed.
Lemma assigner_handed s s' : hinv s -> assigner s = OK true s' -> handed s'.
Proof.
  intros Hv E. split. { eapply (traced_hinv (run_task sy TAssign)); eauto. apply traced_task. } unfold assigner in E. destruct (asgn_scan _ _ _) as [[i c]|]; [|destruct (s_unks s); [discriminate|]]; injection E as <-; discriminate.
Qed.
Lemma tree_raises : raises hinv (ik_solve sy).
Proof.
  assert (TT : forall t, traced sy (run_task sy t)) by (intros t; apply traced_task).
  assert (Tw : traced sy (worktools sy)) by (repeat apply traced_prio2; [exact (TT TAlg)|exact (TT TScTan)|exact (TT TSimu)|exact (TT TSac)|exact (TT TX2z2)]).
  assert (Tb : traced sy (seq2 assigner (seq2 (sum_id sy) (worktools sy)))) by (apply traced_seq2; [exact (TT TAssign)|apply traced_seq2; [exact (TT TSumId)|exact Tw]]).
  assert (Ts : traced sy (subtree sy)) by (apply traced_repeat; exact Tb).
  assert (Te : traced sy (seq2 (updateL sy) (comp_det false))) by (apply traced_seq2; [exact (TT TUpdateL)|exact (TT (TCompDet false))]).
  assert (Tr : traced sy (solve_routine sy)) by (apply traced_seq2; [exact (TT TSub)|apply traced_seq2; auto]).
  assert (Rt : forall t, raises handed (run_task sy t)) by (intros t; apply raises_task; intros _ s H; apply H).
  assert (Rn : forall t, ~ works t -> raises hinv (run_task sy t)) by (intros t W; apply raises_task; tauto).
  assert (NW : ~ works TAssign /\ ~ works TSub /\ ~ works TUpdateL /\ ~ works (TCompDet false)) by (unfold works; cbn; intuition discriminate).
  destruct NW as (W1 & W2 & W3 & W4).
  assert (Hd : forall t s s1, handed s -> run_task sy t s = OK false s1 -> handed s1) by (intros t s s1; apply handed_task).
  assert (Rw : raises handed (worktools sy)).
  { apply (raises_prio2 handed handed (run_task sy TAlg)); [apply TT|apply Rt|apply Hd|]. apply (raises_prio2 handed handed (run_task sy TScTan)); [apply TT|apply Rt|apply Hd|].
    apply (raises_prio2 handed handed (run_task sy TSimu)); [apply TT|apply Rt|apply Hd|]. apply (raises_prio2 handed handed (run_task sy TSac)); [apply TT|apply Rt|apply Hd|]. exact (Rt TX2z2). }
  assert (Rb : raises hinv (seq2 assigner (seq2 (sum_id sy) (worktools sy)))).
  { apply (raises_seq2 hinv handed (run_task sy TAssign)); [apply TT|apply Rn; auto|apply assigner_handed|]. apply (raises_seq2 handed handed (run_task sy TSumId)); [apply TT|apply Rt|intros s s1; apply handed_task|exact Rw]. }
  apply raises_repeat; [exact Tr| |intros s b s1; apply traced_hinv; exact Tr].
  apply (raises_seq2 hinv hinv (run_task sy TSub)); [apply TT|apply Rn; auto|intros s s1; apply traced_hinv; apply TT|].
  apply (raises_seq2 hinv hinv (subtree sy)); [exact Ts| |intros s s1; apply traced_hinv; exact Ts|].
  - apply raises_repeat; [exact Tb|exact Rb|intros s b s1; apply traced_hinv; exact Tb].
  - apply (raises_seq2 hinv hinv (run_task sy TUpdateL)); [apply TT|apply Rn; auto|intros s s1; apply traced_hinv; apply TT|exact (Rn _ W4)].
Qed.
Lemma no_resolve_dec t s : no_resolve t s \/ ~ no_resolve t s.
Proof.
  unfold no_resolve. destruct t; try (left; discriminate). destruct (s_curr s) as [i|]; [|left; discriminate]. destruct (u_solved (un s i)) eqn:E1. 2:{ left. intros _ j H. injection H as <-. congruence. }
  destruct (u_tanable (un s i)) eqn:E2. right. intros H. specialize (H eq_refl i eq_refl E1). congruence. left. intros _ j H. injection H as <-. auto.
Qed.
Lemma runs_split s ts s' : runs sy s ts s' -> runs1 sy s ts s' \/ exists ts1 s1 t, runs1 sy s ts1 s1 /\ ~ no_resolve t s1.
Proof.
  induction 1 as [s|s t b s1 ts s2 E R IH]. left; constructor. destruct (no_resolve_dec t s) as [N|N]. 2:{ right. exists [], s, t. split; auto. constructor. }
  destruct IH as [IH|(ts1 & s3 & t' & R1 & X)]. left. econstructor; eauto. right. exists ((t, b) :: ts1), s3, t'. split; auto. econstructor; eauto.
Qed.
(** C62: when the solver raises an exception, a part of the tree met one of the causes in a state the history reached, always with a current unknown for the parts that need one; or the
    history has handed an unknown to the atan2 solver that it had solved before. *)
Theorem C62_tree s0 : initial sy s0 -> ik_solve sy s0 = Raise ->
  exists ts s t, runs1 sy s0 ts s /\ ((run_task sy t s = Raise /\ cause t s /\ (works t -> s_curr s <> None)) \/ (t = TScTan /\ exists i, s_curr s = Some i /\ u_solved (un s i) = true /\ u_tanable (un s i) = true)).
Proof.
  intros I E. destruct (tree_raises s0 (hinv_initial sy s0 I) E) as (ts & s & t & R & X & W).
  assert (NN : forall t s, ~ no_resolve t s -> t = TScTan /\ exists i, s_curr s = Some i /\ u_solved (un s i) = true /\ u_tanable (un s i) = true).
  { clear. intros t s N. unfold no_resolve in N. destruct t; try (exfalso; apply N; discriminate). split; auto. destruct (s_curr s) as [i|]; [|exfalso; apply N; discriminate].
    exists i. split; auto. destruct (u_solved (un s i)) eqn:E1. 2:{ exfalso. apply N. intros _ j H. injection H as <-. congruence. } split; auto. destruct (u_tanable (un s i)) eqn:E2; auto. exfalso. apply N. intros _ j H. injection H as <-. auto. }
  destruct (runs_split s0 ts s R) as [R1|(ts1 & s1 & t1 & R1 & N)].
  - exists ts, s, t. split; auto. destruct (no_resolve_dec t s) as [N|N]; [left|right]; auto. split; auto. split; auto. eapply C62_causes; eauto.
  - exists ts1, s1, t1. auto.
Qed.
End Leaves.
