(** The coverage invariant: along any history of leaf ticks, at any assignment satisfying the equations, every
    recorded equation holds and every recorded solution list contains the unknown's value. *)
From Coq Require Import Reals ZArith List String Bool Arith Lia Lra Permutation.
From Verif Require Import Expr Kin KinSpec Trig Solver SolverSpec SolverFacts.
Import ListNotations.
Local Open Scope R_scope.
Local Open Scope string_scope.
Local Open Scope list_scope.

(** * set_solved in one step *)
Definition solved_unk (order : nat) (deps : list nat) (nver : nat) (u : unk) : unk :=
  let nsol := List.length (solutions u) in
  let names := u_names u ++ sol_names (u_sym u) nsol in
  set_u_vers (u_vers u ++ map (fun k => nth (k mod nsol) names "") (seq 0 nver))
    (set_u_nver nver (set_u_names names (set_u_deps deps (set_u_order order (set_u_nsol nsol (set_u_ready false (set_u_solved true u))))))).

Lemma set_solved_spec i s s' : (i < List.length (s_heap s))%nat -> set_solved i s = Some s' ->
  let u := getu (s_heap s) i in
  let h1 := updh i (fun u => set_u_order (S (s_solveN s)) (set_u_nsol (List.length (solutions u)) (set_u_ready false (set_u_solved true u)))) (s_heap s) in
  exists deps nver,
    collect_deps h1 (s_unks s) (solutions u) (u_deps u) = Some deps /\
    nver = fold_left (fun n d => n * u_nsol (getu h1 d))%nat deps (List.length (solutions u)) /\
    solutions u <> [] /\
    s_heap s' = updh i (solved_unk (S (s_solveN s)) deps nver) (s_heap s) /\
    s_unks s' = s_unks s /\ s_curr s' = s_curr s /\ s_counter s' = s_counter s /\
    s_L1 s' = s_L1 s /\ s_L2 s' = s_L2 s /\ s_L3 s' = s_L3 s /\ s_meqs s' = s_meqs s /\ s_aux s' = s_aux s /\
    s_solveN s' = S (s_solveN s) /\ s_nodes s' = s_nodes s ++ [i] /\
    s_edges s' = fold_left (fun es d => add_edge es (u_sym u, u_sym (getu (s_heap s) d))) deps (s_edges s).
Proof.
  intros Hi. destruct s as [h un cu ct l1 l2 l3 ms ax n nd ed]. simpl in Hi.
  unfold set_solved, upd_unk. cbn [s_heap s_unks s_curr s_counter s_L1 s_L2 s_L3 s_meqs s_aux s_solveN s_nodes s_edges set_s_heap set_s_solveN set_s_nodes set_s_edges].
  rewrite !updh_updh. rewrite getu_updh_same by auto.
  set (u := getu h i).
  assert (Hs : solutions (set_u_ready false (set_u_solved true u)) = solutions u) by reflexivity. rewrite Hs.
  destruct (List.length (solutions u) <? 1)%nat eqn:E; [discriminate|]. apply Nat.ltb_ge in E.
  set (f1 := fun u0 : unk => set_u_order (S n) (set_u_nsol (List.length (solutions u)) (set_u_ready false (set_u_solved true u0)))).
  assert (Ef : updh i f1 h = updh i (fun u => set_u_order (S n) (set_u_nsol (List.length (solutions u)) (set_u_ready false (set_u_solved true u)))) h).
  { apply updh_ext. reflexivity. }
  rewrite <- Ef.
  change (u_deps (set_u_ready false (set_u_solved true u))) with (u_deps u).
  destruct (collect_deps (updh i f1 h) un (solutions u) (u_deps u)) as [deps|] eqn:Ed; [|discriminate].
  cbn [s_heap s_unks s_curr s_counter s_L1 s_L2 s_L3 s_meqs s_aux s_solveN s_nodes s_edges set_s_heap set_s_solveN set_s_nodes set_s_edges].
  intros H. injection H as <-. exists deps. eexists. split; [reflexivity|]. split; [reflexivity|].
  cbn [s_heap s_unks s_curr s_counter s_L1 s_L2 s_L3 s_meqs s_aux s_solveN s_nodes s_edges].
  split. { intros Z. rewrite Z in E. simpl in E. lia. }
  assert (Enver : forall d, u_nsol (getu (updh i (fun u0 => set_u_names (u_names u ++ sol_names (u_sym u) (List.length (solutions u))) (set_u_deps deps (f1 u0))) h) d)
                  = u_nsol (getu (updh i f1 h) d)).
  { intros d. destruct (Nat.eq_dec i d) as [<-|N]. rewrite !getu_updh_same by auto. reflexivity. rewrite !getu_updh_other by auto. reflexivity. }
  assert (Efold : forall l a, fold_left (fun n0 d => (n0 * u_nsol (getu (updh i (fun u0 => set_u_names (u_names u ++ sol_names (u_sym u) (List.length (solutions u))) (set_u_deps deps (f1 u0))) h) d))%nat) l a
                  = fold_left (fun n0 d => (n0 * u_nsol (getu (updh i f1 h) d))%nat) l a).
  { induction l; simpl; auto. intros a0. rewrite Enver. apply IHl. }
  split.
  { rewrite !updh_updh. apply updh_ext. fold u. unfold solved_unk, f1. cbv zeta.
    rewrite Efold. rewrite getu_updh_same by auto. fold u. reflexivity. }
  repeat (split; [reflexivity|]).
  assert (Esym : forall f d, (forall v, u_sym (f v) = u_sym v) -> u_sym (getu (updh i f h) d) = u_sym (getu h d)).
  { intros f d Hf. destruct (Nat.eq_dec i d) as [<-|N]. rewrite !getu_updh_same by auto. apply Hf. rewrite getu_updh_other by auto. reflexivity. }
  assert (Ee : forall (f g : nat -> string) l ed0, (forall d, f d = g d) ->
    fold_left (fun es d => add_edge es (u_sym u, f d)) l ed0 = fold_left (fun es d => add_edge es (u_sym u, g d)) l ed0).
  { intros f g l. induction l; simpl; auto. intros ed0 Hfg. rewrite Hfg. auto. }
  apply (Ee (fun d => u_sym (getu _ d)) (fun d => u_sym (getu h d))).
  intros d. rewrite !updh_updh. apply Esym. reflexivity.
Qed.
Lemma set_solved_oob i s s' : (List.length (s_heap s) <= i)%nat -> set_solved i s = Some s' -> False.
Proof.
  intros Hi. unfold set_solved, upd_unk. cbn [s_heap set_s_heap]. rewrite !(updh_oob i) by (rewrite ?updh_oob by auto; auto).
  unfold getu. rewrite nth_overflow by auto. simpl. discriminate.
Qed.

(** * The invariant *)
Section Inv.
Context (sy : sympy) (HOK : sympy_ok sy) (rho : env) (HSOA : soa_ok rho).

Definition cov (s : string) (l : list expr) : Prop := l = [] \/ (all_defd rho l -> among rho (rho s) l).
Definition uinv (u : unk) : Prop :=
  (forall q, u_eqn u = Some q -> ok_at rho q) /\ (forall q, u_eqn2 u = Some q -> ok_at rho q)
  /\ (forall q, In q (u_sceq u) -> ok_at rho q) /\ (forall q, In q (u_taneq u) -> ok_at rho q)
  /\ cov (u_sym u) (u_own u) /\ cov (u_sym u) (u_sc u) /\ cov (u_sym u) (u_tan u)
  /\ (u_solved u = true -> solutions u <> []).
Definition sinv (s : state) : Prop :=
  sat rho s /\ (forall q, In q (s_L1 s) -> ok_at rho q) /\ (forall q, In q (s_L2 s) -> ok_at rho q) /\ (forall q, In q (s_L3 s) -> ok_at rho q)
  /\ (forall u, In u (s_heap s) -> uinv u).

Lemma cov_app1 s l l' : cov s l -> (all_defd rho l' -> among rho (rho s) l') -> cov s (l ++ l').
Proof.
  intros [->|H] H'; [right; auto|]. right. intros D. destruct H as (e & ? & ?). { intros e He. apply D. apply in_or_app. auto. }
  exists e. split; auto. apply in_or_app. auto.
Qed.
Lemma cov_app2 s l l' : cov s l -> l <> [] -> cov s (l ++ l').
Proof.
  intros [H|H] N; [tauto|]. right. intros D. destruct H as (e & ? & ?). { intros e He. apply D. apply in_or_app. auto. }
  exists e. split; auto. apply in_or_app. auto.
Qed.
Lemma cov_covered s l : (all_defd rho l -> among rho (rho s) l) -> cov s l.
Proof. right. auto. Qed.

Lemma uinv_new n : uinv (new_unknown n).
Proof. unfold uinv, cov. simpl. intuition (try discriminate; tauto). Qed.
Lemma uinv_q1 u q : uinv u -> u_eqn u = Some q -> ok_at rho q. Proof. intros (H & _). auto. Qed.
Lemma uinv_q2 u q : uinv u -> u_eqn2 u = Some q -> ok_at rho q. Proof. intros (_ & H & _). auto. Qed.
Lemma uinv_getu s i : sinv s -> uinv (getu (s_heap s) i).
Proof.
  intros (_ & _ & _ & _ & H). destruct (Nat.lt_ge_cases i (List.length (s_heap s))).
  - apply H. apply getu_in. auto.
  - unfold getu. rewrite nth_overflow by auto. apply uinv_new.
Qed.
Lemma sinv_upd i f s : sinv s -> (uinv (getu (s_heap s) i) -> uinv (f (getu (s_heap s) i))) -> sinv (upd_unk i f s).
Proof.
  intros S F. assert (G := uinv_getu s i S). destruct S as (H1 & H2 & H3 & H4 & H5). split; [exact H1|]. repeat (split; [assumption|]).
  intros v Hv. unfold upd_unk in Hv. cbn [set_s_heap s_heap] in Hv. apply in_updh in Hv as [Hv|[_ ->]]; auto.
Qed.
Lemma uinv_solved o d n u : uinv u -> solutions u <> [] -> uinv (solved_unk o d n u).
Proof. destruct u. unfold uinv, solved_unk, solutions. simpl. intuition. Qed.
Lemma sinv_set_solved i s s' : sinv s -> set_solved i s = Some s' -> sinv s'.
Proof.
  intros S H. destruct (Nat.lt_ge_cases i (List.length (s_heap s))) as [Hi|Hi].
  2:{ exfalso. eapply set_solved_oob; eauto. }
  assert (G := uinv_getu s i S).
  destruct (set_solved_spec i s s' Hi H) as (deps & nver & _ & _ & Hn & Eh & _ & _ & _ & E1 & E2 & E3 & Em & Ea & _).
  destruct S as ((H1a & H1b) & H2 & H3 & H4 & H5). unfold sinv, sat. rewrite E1, E2, E3, Em, Ea, Eh.
  repeat (split; [auto; fail|]). intros v Hv. apply in_updh in Hv as [Hv|[_ ->]]; auto. apply uinv_solved; auto.
Qed.
Lemma sinv_finish o b s' : (forall s1, o = Some s1 -> sinv s1) -> finish o = OK b s' -> sinv s'.
Proof. intros H. destruct o; simpl; [|discriminate]. intros E. injection E as <- <-. auto. Qed.
Lemma with_curr_inv s f b s' : with_curr s f = OK b s' -> exists i, s_curr s = Some i /\ f i (getu (s_heap s) i) = OK b s'.
Proof. unfold with_curr. destruct (s_curr s) as [i|]; [|discriminate]. eauto. Qed.

Ltac curr H := apply with_curr_inv in H as (i & Hc & H); match type of Hc with s_curr ?st = _ => set (u := getu (s_heap st) i) in * end.
Ltac fin H := first [ discriminate H | injection H as <- <- | injection H as <- ].

Lemma sinv_irrel s s' : s_heap s' = s_heap s -> s_L1 s' = s_L1 s -> s_L2 s' = s_L2 s -> s_L3 s' = s_L3 s -> s_meqs s' = s_meqs s -> s_aux s' = s_aux s ->
  sinv s -> sinv s'.
Proof. unfold sinv, sat. intros -> -> -> -> -> ->. auto. Qed.

Lemma inv_assigner s b s' : sinv s -> assigner s = OK b s' -> sinv s'.
Proof.
  intros S. unfold assigner. destruct (asgn_scan _ _ _) as [[i c]|].
  - intros H. injection H as <- <-. apply (sinv_irrel s); auto.
  - destruct (s_unks s); [discriminate|]. intros H. injection H as <- <-. apply (sinv_irrel s); auto.
Qed.
Lemma inv_rank s b s' : sinv s -> rank s = OK b s' -> sinv s'.
Proof.
  intros S H. unfold rank in H. curr H. assert (G := uinv_getu s i S). fold u in G.
  destruct ((0 <? List.length (u_sc u))%nat && (0 <? List.length (u_tan u))%nat) eqn:E.
  - apply andb_true_iff in E as [E1 E2]. apply Nat.ltb_lt in E1, E2.
    set (s1 := upd_unk i (add_method ", best ranked, ") s) in *.
    assert (S1 : sinv s1) by (apply sinv_upd; auto; fold u; destruct u; unfold uinv, solutions; simpl; auto).
    assert (Gen : forall f, (uinv (getu (s_heap s1) i) -> uinv (f (getu (s_heap s1) i))) -> finish (set_solved i (upd_unk i f s1)) = OK b s' -> sinv s').
    { intros f Hf. apply sinv_finish. intros s2. apply sinv_set_solved. apply sinv_upd; auto. }
    assert (Hu : forall P : unk -> Prop, (forall v, P (add_method ", best ranked, " v)) \/ True -> True) by auto. clear Hu.
    destruct (Nat.lt_ge_cases i (List.length (s_heap s))) as [Hi|Hi].
    2:{ exfalso. unfold u, getu in E1. rewrite nth_overflow in E1 by auto. simpl in E1. lia. }
    assert (Eu : getu (s_heap s1) i = add_method ", best ranked, " u) by (unfold s1, upd_unk; cbn [s_heap set_s_heap]; rewrite getu_updh_same by auto; reflexivity).
    assert (Csc : forall q l, u_sceq u = q :: l -> finish (set_solved i (upd_unk i (fun u0 => add_method "sin or cos" (set_u_eqn (Some q) (set_u_nsol (List.length (u_sc u)) (set_u_ref RefSC u0)))) s1)) = OK b s' -> sinv s').
    { intros q l Eq. apply Gen. rewrite Eu. intros _. destruct G as (g1 & g2 & g3 & g4 & g5 & g6 & g7 & g8).
      unfold uinv. cbn [u_eqn u_eqn2 u_sceq u_taneq u_sym u_own u_sc u_tan u_solved solutions u_ref add_method set_u_method set_u_eqn set_u_eqn2 set_u_nsol set_u_ref].
      split. { intros q' Hq. injection Hq as <-. apply g3. rewrite Eq. left; auto. }
      do 6 (split; [assumption|]). intros _ Z. rewrite Z in E1. simpl in E1. lia. }
    destruct (rank_choice (unk_objs s1) u).
    + destruct (u_sceq u) as [|q l] eqn:Eq; [discriminate|]. apply (Csc q l); auto.
    + destruct (u_sceq u) as [|q l] eqn:Eq; [discriminate|]. apply (Csc q l); auto.
    + destruct (u_taneq u) as [|q1 [|q2 l]] eqn:Eq; try discriminate. revert H. apply Gen. rewrite Eu. intros _.
      destruct G as (g1 & g2 & g3 & g4 & g5 & g6 & g7 & g8).
      unfold uinv. cbn [u_eqn u_eqn2 u_sceq u_taneq u_sym u_own u_sc u_tan u_solved solutions u_ref add_method set_u_method set_u_eqn set_u_eqn2 set_u_nsol set_u_ref].
      split. { intros q' Hq. injection Hq as <-. apply g4. rewrite Eq. left; auto. }
      split. { intros q' Hq. injection Hq as <-. apply g4. rewrite Eq. right; left; auto. }
      do 5 (split; [assumption|]). intros _ Z. rewrite Z in E2. simpl in E2. lia.
  - destruct (_ || _).
    + revert H. apply sinv_finish. intros s1. apply sinv_set_solved. auto.
    + fin H. auto.
Qed.

(** ** Identifiers record implied equations *)
Lemma resid_ok q : ok_at rho q -> defd rho (resid sy q) /\ eval rho (resid sy q) = 0.
Proof. apply ok_at_resid. auto. Qed.
Lemma keeps0 f e : keeps_value f -> defd rho e -> eval rho e = 0 -> defd rho (f e) /\ eval rho (f e) = 0.
Proof. intros K D E. destruct (K rho e D) as [? E']. split; auto. congruence. Qed.
Lemma uinv_eqn q u : ok_at rho q -> uinv u -> uinv (set_u_eqn (Some q) u).
Proof. destruct u. unfold uinv, solutions. simpl. intros O H. intuition. injection H6 as <-. auto. Qed.
Lemma uinv_eqn2 q u : ok_at rho q -> uinv u -> uinv (set_u_eqn2 (Some q) u).
Proof. destruct u. unfold uinv, solutions. simpl. intros O H. intuition. injection H6 as <-. auto. Qed.
Lemma uinv_ready b u : uinv u -> uinv (set_u_ready b u). Proof. exact (fun H => H). Qed.
Lemma uinv_method m u : uinv u -> uinv (add_method m u). Proof. exact (fun H => H). Qed.
Lemma uinv_nsol m u : uinv u -> uinv (set_u_nsol m u). Proof. exact (fun H => H). Qed.
Lemma uinv_scable m u : uinv u -> uinv (set_u_scable m u). Proof. exact (fun H => H). Qed.
Lemma uinv_tanable m u : uinv u -> uinv (set_u_tanable m u). Proof. exact (fun H => H). Qed.
Hint Resolve uinv_eqn uinv_eqn2 uinv_ready uinv_method uinv_nsol uinv_scable uinv_tanable : uinv.

Lemma sinv_L1 s q : sinv s -> In q (s_L1 s) -> ok_at rho q. Proof. intros (_ & H & _) ?. auto. Qed.
Lemma sinv_L2 s q : sinv s -> In q (s_L2 s) -> ok_at rho q. Proof. intros (_ & _ & H & _) ?. auto. Qed.
Lemma sinv_sat s : sinv s -> sat rho s. Proof. intros (H & _). auto. Qed.

Lemma inv_alg_id s b s' : sinv s -> algebra_id sy s = OK b s' -> sinv s'.
Proof.
  intros S. unfold algebra_id. destruct (_ =? _)%nat. { intros H. fin H. auto. }
  intros H. curr H. destruct (u_solved u). { fin H. auto. }
  destruct (first_some _ _) as [tmp|] eqn:E; fin H; auto.
  apply first_some_in in E as (e & He & E). assert (O : ok_at rho e) by (eapply sinv_L1; eauto).
  unfold algebra_try in E. destruct (_ || _ || _ || _); [discriminate|]. destruct (_ || _); [|discriminate].
  destruct (linear_match _ _ _); [|discriminate]. injection E as <-.
  apply sinv_upd; auto. intros G. apply uinv_method. apply uinv_eqn; auto with uinv.
  destruct (resid_ok e O) as [D0 E0]. destruct (keeps0 _ _ (ok_expand sy HOK) D0 E0) as [D1 E1].
  destruct (keeps0 _ _ (ok_collect sy HOK [Sym (u_sym u)]) D1 E1) as [D2 E2]. apply ok_at0; auto.
Qed.
Lemma inv_sc_id s b s' : sinv s -> sincos_id s = OK b s' -> sinv s'.
Proof.
  intros S H. unfold sincos_id in H. curr H. destruct (_ && _); [|fin H; auto].
  destruct (first_some _ _) as [[iss e]|] eqn:E; fin H; auto.
  apply first_some_in in E as (e' & He & E). assert (O : ok_at rho e') by (eapply sinv_L1; eauto).
  assert (e = e'). { unfold sincos_try in E. destruct (_ && _); [discriminate|]. destruct (_ || _); [congruence|]. destruct (_ || _); congruence. }
  subst e'. apply sinv_upd; auto. intros G. auto with uinv.
Qed.
Lemma inv_tan_id s b s' : sinv s -> tan_id sy s = OK b s' -> sinv s'.
Proof.
  intros S H. unfold tan_id in H. curr H. fin H. destruct (_ && _); auto.
  destruct (first_some _ _) as [[e1 e2]|] eqn:E; auto.
  apply first_some_in in E as (es & Hes & E). apply first_some_in in E as (ec & Hec & E).
  apply filter_In in Hes as [Hes _]. apply filter_In in Hec as [Hec _].
  assert (Os : ok_at rho es). { apply in_app_or in Hes as [?|?]; [eapply sinv_L1 | eapply sinv_L2]; eauto. }
  assert (Oc : ok_at rho ec). { apply in_app_or in Hec as [?|?]; [eapply sinv_L1 | eapply sinv_L2]; eauto. }
  unfold tan_pair in E. destruct (sy_match _ _ _ _) as [[A B]|]; [|discriminate]. destruct (sy_match _ _ _ _) as [[C D]|]; [|discriminate].
  destruct (_ && _); [|discriminate]. injection E as <- <-.
  destruct (resid_ok es Os) as [D0 E0]. destruct (keeps0 _ _ (ok_collect sy HOK (both_terms (u_sym u))) D0 E0) as [D1 E1].
  destruct (resid_ok ec Oc) as [D0' E0']. destruct (keeps0 _ _ (ok_collect sy HOK (both_terms (u_sym u))) D0' E0') as [D1' E1'].
  apply sinv_upd; auto. intros G. apply uinv_tanable, uinv_method, uinv_ready. apply uinv_eqn2. apply ok_at0; auto. apply uinv_eqn; auto. apply ok_at0; auto.
Qed.
Lemma inv_sac_id s b s' : sinv s -> sinandcos_id sy s = OK b s' -> sinv s'.
Proof.
  intros S H. unfold sinandcos_id in H. curr H. destruct (u_solved u). { fin H; auto. }
  destruct (first_some _ _) as [es|] eqn:E; fin H; auto.
  apply first_some_in in E as (e & He & E). assert (O : ok_at rho e) by (eapply sinv_L1; eauto).
  unfold sac_try in E. destruct (_ && _); [|discriminate]. destruct (has _ _); [discriminate|]. injection E as <-.
  destruct (resid_ok e O) as [D0 E0]. destruct (keeps0 _ _ (ok_expand sy HOK) D0 E0) as [D1 E1].
  destruct (keeps0 _ _ (ok_collect sy HOK [Sin (Sym (u_sym u))]) D1 E1) as [D2 E2].
  destruct (keeps0 _ _ (ok_collect sy HOK [Cos (Sym (u_sym u))]) D2 E2) as [D3 E3].
  apply sinv_upd; auto. intros G. apply uinv_method. apply uinv_eqn; auto with uinv. apply ok_at0; auto.
Qed.
Lemma simu_eqns_ok u L : (forall q, In q L -> ok_at rho q) -> forall f, In f (simu_eqns sy u L) -> defd rho f /\ eval rho f = 0.
Proof.
  intros HL. unfold simu_eqns.
  assert (G : forall acc, (forall f, In f acc -> defd rho f /\ eval rho f = 0) ->
     forall f, In f (fold_left (fun acc e => match simu_flat sy u e with None => acc | Some f => if existsb (same sy f) acc then acc else acc ++ [f] end) L acc) ->
     defd rho f /\ eval rho f = 0).
  { induction L as [|q L IH]; simpl; auto. intros acc Ha f. apply IH; [intros; apply HL; right; auto|].
    unfold simu_flat. destruct (_ || _); auto. destruct (existsb _ _); auto.
    intros f' Hf. apply in_app_or in Hf as [Hf|[<-|[]]]; auto.
    destruct (resid_ok q) as [D0 E0]. apply HL; left; auto. destruct (keeps0 _ _ (ok_expand sy HOK) D0 E0) as [D1 E1].
    destruct (keeps0 _ _ (ok_collect sy HOK [Sin (Sym u)]) D1 E1) as [D2 E2].
    destruct (keeps0 _ _ (ok_collect sy HOK [Cos (Sym u)]) D2 E2) as [D3 E3]. auto. }
  apply G. simpl. tauto.
Qed.
Lemma canonical_ok u e1 e2 r : canonical_second_eqn sy u e1 e2 = Some r -> defd rho e2 -> eval rho e2 = 0 -> defd rho r /\ eval rho r = 0.
Proof.
  unfold canonical_second_eqn. destruct (_ && _); [discriminate|]. destruct (_ && _). { intros H; injection H as <-. auto. }
  destruct (_ && _); [|discriminate]. intros H; injection H as <-. intros D E. destruct (ok_norm sy HOK rho (Neg e2) D) as [? E']. split; auto.
  rewrite E'. simpl. lra.
Qed.
Lemma simu_pairs_ok u l e1 e2 : simu_pairs sy u l = Some (e1, e2) -> (forall f, In f l -> defd rho f /\ eval rho f = 0) ->
  (defd rho e1 /\ eval rho e1 = 0) /\ (defd rho e2 /\ eval rho e2 = 0).
Proof.
  induction l as [|c l IH]; simpl; [discriminate|]. destruct (first_some _ _) as [r|] eqn:E.
  - intros H. injection H as ->. intros Hl. apply first_some_in in E as (c2 & Hc2 & E).
    unfold simu_pair in E. destruct (_ || _); [discriminate|].
    destruct (canonical_second_eqn sy u c c2) eqn:K. { injection E as <- <-. split; auto. eapply canonical_ok; eauto; apply Hl; auto. }
    destruct (canonical_second_eqn sy u c2 c) eqn:K'; [|discriminate]. injection E as <- <-. split; auto. eapply canonical_ok; eauto; apply Hl; auto.
  - intros H Hl. apply IH; auto.
Qed.
Lemma inv_simu_id s b s' : sinv s -> simu_id sy s = OK b s' -> sinv s'.
Proof.
  intros S H. unfold simu_id in H. curr H. destruct (u_solved u). { fin H; auto. }
  destruct (simu_pairs _ _ _) as [[e1 e2]|] eqn:E; fin H; auto.
  apply simu_pairs_ok in E as [[D1 E1] [D2 E2]].
  2:{ apply simu_eqns_ok. intros q Hq. eapply sinv_L1; eauto. }
  apply sinv_upd; auto. intros G. apply uinv_eqn2. apply ok_at0; auto. apply uinv_eqn; auto with uinv. apply ok_at0; auto.
Qed.

(** ** Solvers record covering lists *)
Lemma uinv_add_sols l u : (all_defd rho l -> among rho (rho (u_sym u)) l) -> l <> [] ->
  uinv u -> uinv (fold_left (fun u e => add_solution e u) l u).
Proof.
  intros C Nl (g1 & g2 & g3 & g4 & g5 & g6 & g7 & g8).
  assert (E : forall l u, fold_left (fun u e => add_solution e u) l u =
     match u_ref u with Own => set_u_own (u_own u ++ l) u | RefSC => set_u_sc (u_sc u ++ l) u | RefTan => set_u_tan (u_tan u ++ l) u end).
  { clear. induction l; intros u; simpl. { destruct u as [? ? ? ? ? ? ? ? ? [] ]; simpl; rewrite app_nil_r; reflexivity. }
    rewrite IHl. destruct u as [? ? ? ? ? ? ? ? ? [] ]; simpl; rewrite <- app_assoc; reflexivity. }
  rewrite E. destruct u as [? ? ? ? ? ? ? ? ? r ]. unfold uinv, solutions in *. simpl in *.
  destruct r; simpl in *; repeat (split; [assumption || (apply cov_app1; auto) |]); try (intros _ Z; apply app_eq_nil in Z as [_ Z]; auto).
Qed.
Lemma uinv_own sol u : (defd rho sol -> among rho (rho (u_sym u)) [sol]) -> uinv u -> uinv (set_u_ref Own (set_u_own [sol] u)).
Proof.
  intros C. destruct u as [? ? ? ? ? ? ? ? ? r ]. unfold uinv, solutions in *. simpl in *. intuition.
  - right. intros D. apply C. apply D. left; auto.
  - discriminate.
Qed.
Lemma uinv_add_sc l u : (all_defd rho l -> among rho (rho (u_sym u)) l) -> uinv u -> uinv (set_u_sc (u_sc u ++ l) u).
Proof.
  intros C (g1 & g2 & g3 & g4 & g5 & g6 & g7 & g8). destruct u as [? ? ? ? ? ? ? ? ? r ]. unfold uinv, solutions in *. simpl in *.
  repeat (split; [assumption || (apply cov_app1; auto) |]). destruct r; auto. intros Hs Z. apply app_eq_nil in Z as [Z _]. apply g8; auto.
Qed.
Lemma uinv_add_tan l u : (all_defd rho l -> among rho (rho (u_sym u)) l) -> uinv u -> uinv (set_u_tan (u_tan u ++ l) u).
Proof.
  intros C (g1 & g2 & g3 & g4 & g5 & g6 & g7 & g8). destruct u as [? ? ? ? ? ? ? ? ? r ]. unfold uinv, solutions in *. simpl in *.
  repeat (split; [assumption || (apply cov_app1; auto) |]). destruct r; auto. intros Hs Z. apply app_eq_nil in Z as [Z _]. apply g8; auto.
Qed.
Lemma uinv_sceq q u : ok_at rho q -> uinv u -> uinv (set_u_sceq (u_sceq u ++ [q]) u).
Proof.
  intros C (g1 & g2 & g3 & g4 & g5 & g6 & g7 & g8). destruct u. unfold uinv, solutions in *. simpl in *.
  repeat (split; [assumption|]). split. { intros q' Hq. apply in_app_or in Hq as [?|[<-|[]]]; auto. } auto.
Qed.
Lemma uinv_taneq l u : (forall q, In q l -> ok_at rho q) -> uinv u -> uinv (set_u_taneq (u_taneq u ++ l) u).
Proof.
  intros C (g1 & g2 & g3 & g4 & g5 & g6 & g7 & g8). destruct u. unfold uinv, solutions in *. simpl in *.
  repeat (split; [assumption|]). split. { intros q' Hq. apply in_app_or in Hq as [?|?]; auto. } auto.
Qed.
Lemma uinv_sc_store s1 s2 q u : ok_at rho q -> (all_defd rho [s1; s2] -> among rho (rho (u_sym u)) [s1; s2]) -> uinv u -> uinv (sincos_store s1 s2 q u).
Proof.
  intros O C G. unfold sincos_store. cbv zeta.
  set (u1 := add_solution s2 (add_solution s1 u)).
  assert (G1 : uinv u1). { change u1 with (fold_left (fun u e => add_solution e u) [s1; s2] u). apply uinv_add_sols; auto. discriminate. }
  assert (Es : u_sym u1 = u_sym u) by (unfold u1, add_solution; destruct u as [? ? ? ? ? ? ? ? ? []]; reflexivity).
  apply uinv_nsol. apply (uinv_sceq q); auto.
  replace (set_u_sc (u_sc (set_u_sc (u_sc u1 ++ [s1]) u1) ++ [s2]) (set_u_sc (u_sc u1 ++ [s1]) u1)) with (set_u_sc (u_sc u1 ++ [s1; s2]) u1).
  - apply uinv_add_sc; auto. rewrite Es. auto.
  - destruct u1. simpl. unfold set_u_sc. simpl. rewrite <- app_assoc. reflexivity.
Qed.
Lemma uinv_tan_store sols q1 q2 asm u : ok_at rho q1 -> ok_at rho q2 -> sols <> [] -> (all_defd rho sols -> among rho (rho (u_sym u)) sols) ->
  uinv u -> uinv (tan_store sols q1 q2 asm u).
Proof.
  intros O1 O2 N C G. unfold tan_store. cbv zeta.
  set (u1 := fold_left (fun u e => add_solution e u) sols u).
  assert (G1 : uinv u1) by (apply uinv_add_sols; auto).
  assert (Es : u_sym u1 = u_sym u).
  { unfold u1. generalize u. clear. induction sols; simpl; auto. intros u. rewrite IHsols. unfold add_solution. destruct u as [? ? ? ? ? ? ? ? ? []]; reflexivity. }
  set (u2 := fold_left (fun u e => set_u_tan (u_tan u ++ [e]) u) sols u1).
  assert (E2 : u2 = set_u_tan (u_tan u1 ++ sols) u1).
  { unfold u2. generalize u1. clear. induction sols; intros u; simpl. { rewrite app_nil_r. destruct u; reflexivity. }
    rewrite IHsols. destruct u; simpl. unfold set_u_tan. simpl. rewrite <- app_assoc. reflexivity. }
  apply uinv_nsol.
  assert (G3 : uinv (set_u_taneq (u_taneq u2 ++ [q1; q2]) u2)).
  { apply uinv_taneq. { intros q [<-|[<-|[]]]; auto. } rewrite E2. apply uinv_add_tan; auto. rewrite Es. auto. }
  exact G3.
Qed.

Lemma inv_alg_solve s b s' : sinv s -> algebra_solve sy s = OK b s' -> sinv s'.
Proof.
  intros S H. unfold algebra_solve in H. curr H. assert (G := uinv_getu s i S). fold u in G.
  destruct (_ && _); [|fin H; auto]. destruct (u_eqn u) as [q|] eqn:Eq; [|discriminate].
  destruct (linear_match _ _ _) as [[A B]|] eqn:M; [|fin H; auto]. destruct (has _ _); [fin H; auto|].
  revert H. apply sinv_finish. intros s1. apply sinv_set_solved. apply sinv_upd; auto. fold u. intros _. apply uinv_nsol.
  unfold linear_match in M. destruct (sy_match _ _ _ _) as [[A' B']|] eqn:M'; [|discriminate]. destruct (is0 _ _); [discriminate|]. injection M as -> ->.
  assert (O : ok_at rho q) by (eapply uinv_q1; eauto). destruct O as (D1 & D2 & O).
  set (sol := Div _ A). change (add_solution sol u) with (fold_left (fun u e => add_solution e u) [sol] u).
  apply uinv_add_sols; auto; [|discriminate]. intros D. exists sol. split; [left; auto|].
  assert (DS : defd rho sol) by (apply D; left; auto).
  replace (eval rho sol) with (rho (u_sym u)); [apply cong_refl|]. apply (alg_iff sy HOK rho _ _ _ _ _ M'); auto.
Qed.
Lemma inv_sc_solve s b s' : sinv s -> sincos_solve sy s = OK b s' -> sinv s'.
Proof.
  intros S H. unfold sincos_solve in H. curr H. assert (G := uinv_getu s i S). fold u in G.
  destruct (u_scable u); [|fin H; auto]. destruct (u_eqn u) as [q|] eqn:Eq; [|discriminate].
  assert (O : ok_at rho q) by (eapply uinv_q1; eauto). assert (O' := O). destruct O' as (D1 & D2 & O').
  destruct (ok_collect sy HOK (both_terms (u_sym u)) rho (k_rhs q) D2) as [D2' E2].
  destruct (contains "arcsin" _).
  - destruct (sy_match _ _ _ _) as [[A B]|] eqn:M; [|fin H; auto]. destruct (has _ _); [discriminate|]. fin H.
    apply sinv_upd; auto. fold u. intros _. apply uinv_sc_store; auto. intros D.
    apply (asin_iff sy HOK rho _ _ (k_rhs q) _ _ _ M); auto. assert (X : defd rho (Asin (Div (Sub (k_lhs q) B) A))) by (apply D; left; auto). apply X.
  - destruct (contains "arccos" _); [|fin H; auto].
    destruct (sy_match _ _ _ _) as [[A B]|] eqn:M; [|fin H; auto]. destruct (has _ _); [discriminate|]. fin H.
    apply sinv_upd; auto. fold u. intros _. apply uinv_sc_store; auto. intros D.
    apply (acos_iff sy HOK rho _ _ (k_rhs q) _ _ _ M); auto. assert (X : defd rho (Acos (Div (Sub (k_lhs q) B) A))) by (apply D; left; auto). apply X.
Qed.
Lemma inv_tan_solve s b s' : sinv s -> tan_solve sy s = OK b s' -> sinv s'.
Proof.
  intros S H. unfold tan_solve in H. curr H. assert (G := uinv_getu s i S). fold u in G.
  destruct (u_tanable u); [|fin H; auto]. destruct (u_eqn u) as [q1|] eqn:Eq1; [|discriminate]. destruct (u_eqn2 u) as [q2|] eqn:Eq2; [|discriminate].
  assert (O1 : ok_at rho q1) by (eapply uinv_q1; eauto). assert (O2 : ok_at rho q2) by (eapply uinv_q2; eauto).
  destruct (sy_match _ (Sin _) _ _) as [[A1 B1]|] eqn:M1; [|fin H; auto]. destruct (sy_match _ (Cos _) _ _) as [[A2 B2]|] eqn:M2; [|fin H; auto].
  destruct (_ || _); [fin H; auto|]. destruct O1 as (D1 & D1' & O1). destruct O2 as (D2 & D2' & O2).
  destruct (_ =? _)%nat; fin H; apply sinv_upd; auto; fold u; intros _; (apply uinv_tan_store; [split; auto | split; auto | discriminate | | auto]); intros D.
  - eexists. split; [left; reflexivity|]. apply (tan_iff sy HOK rho _ _ _ _ _ _ _ _ _ M1 M2); auto;
    assert (X : defd rho (Atan2 (Div (Sub (k_lhs q1) B1) A1) (Div (Sub (k_lhs q2) B2) A2))) by (apply D; left; auto); apply X.
  - destruct (tan2_cover sy HOK rho _ _ _ _ _ _ _ _ _ M1 M2 D1' D2' O1 O2) as (P1 & P2 & P3). cbv zeta in *.
    set (s1 := Atan2 _ (Sub (k_lhs q2) B2)) in *. set (s2 := Atan2 _ (Neg _)) in *.
    assert (Ds1 : defd rho s1) by (apply D; left; auto). assert (Ds2 : defd rho s2) by (apply D; right; left; auto).
    destruct (Rtotal_order (eval rho A2) 0) as [L|[L|L]].
    + exists s2. split; auto. right; left; auto.
    + exfalso. apply (P3 Ds1 L).
    + exists s1. split; auto. left; auto.
Qed.
Lemma inv_sac_solve0 s i b s' : sinv s -> s_curr s = Some i -> (forall q, u_eqn (getu (s_heap s) i) = Some q -> k_lhs q = Num 0) ->
  sinandcos_solve sy s = OK b s' -> sinv s'.
Proof.
  intros S Hc' Hz H. unfold sinandcos_solve in H. unfold with_curr in H. rewrite Hc' in H.
  set (u := getu (s_heap s) i) in *. assert (G := uinv_getu s i S). fold u in G.
  destruct (_ && _); [|fin H; auto]. destruct (u_eqn u) as [q|] eqn:Eq; [|discriminate].
  assert (O : ok_at rho q) by (eapply uinv_q1; eauto). destruct O as (D1 & D2 & O). unfold holds in O. rewrite (Hz q eq_refl) in O.
  set (A := sy_coeff sy (Sin _) _) in *. set (B := sy_coeff sy (Cos _) _) in *. set (C := sy_norm sy (Sub _ _)) in *.
  destruct (is0 sy (Add _ _)); [discriminate|].
  revert H. apply sinv_finish. intros s1. apply sinv_set_solved. apply sinv_upd; auto. fold u. intros _. apply uinv_nsol.
  apply uinv_add_sols; auto; [|destruct (is0 _ _); discriminate].
  destruct (is0 sy C) eqn:Z; intros D.
  - assert (X : defd rho (Atan2 (Neg B) A)) by (apply D; left; auto).
    apply (sac0_iff sy HOK rho (u_sym u) (k_rhs q) A B C D2 eq_refl Z X). exact O.
  - set (t := Sqrt _) in *. assert (X : defd rho (Add (Atan2 A B) (Atan2 t C))) by (apply D; left; auto). destruct X as [X _].
    apply (sac_iff sy HOK rho (u_sym u) (k_rhs q) A B C D2 eq_refl X). exact O.
Qed.
Lemma inv_sac_sol s b s' : sinv s -> sac_sol sy s = OK b s' -> sinv s'.
Proof.
  intros S H. unfold sac_sol, seq2 in H. destruct (sinandcos_id sy s) as [[] s1|] eqn:E; [|fin H; eapply inv_sac_id; eauto|discriminate].
  assert (S1 := inv_sac_id _ _ _ S E). unfold sinandcos_id in E. curr E. destruct (u_solved u) eqn:Es; [discriminate E|].
  destruct (first_some _ _) as [es|] eqn:F; fin E.
  destruct (Nat.lt_ge_cases i (List.length (s_heap s))) as [Hi|Hi].
  - revert H. apply (inv_sac_solve0 _ i); auto. unfold upd_unk. cbn [s_heap set_s_heap]. rewrite getu_updh_same by auto. intros q Hq. injection Hq as <-. reflexivity.
  - revert H. apply (inv_sac_solve0 _ i); auto. unfold upd_unk. cbn [s_heap set_s_heap]. rewrite updh_oob by auto.
    unfold getu. rewrite nth_overflow by auto. discriminate.
Qed.
Lemma inv_simu_sol s b s' : sinv s -> simu_sol sy s = OK b s' -> sinv s'.
Proof.
  intros S H. unfold simu_sol, seq2 in H. destruct (simu_id sy s) as [[] s1|] eqn:E; [|fin H; eapply inv_simu_id; eauto|discriminate].
  assert (S1 := inv_simu_id _ _ _ S E). unfold simu_id in E. curr E. destruct (u_solved u) eqn:Es; [discriminate E|].
  destruct (simu_pairs _ _ _) as [[e1 e2]|] eqn:F; fin E. unfold simu_solver in H.
  set (s1 := upd_unk i _ s) in *. change (with_curr s1) with (fun f => with_curr (set_s_heap (s_heap s1) s) f) in H. cbv beta in H.
  unfold with_curr in H. cbn [s_curr set_s_heap] in H. rewrite Hc in H. cbn [s_heap set_s_heap] in H.
  assert (G := uinv_getu s1 i S1).
  destruct (Nat.lt_ge_cases i (List.length (s_heap s))) as [Hi|Hi].
  2:{ exfalso. unfold s1, upd_unk in H. cbn [s_heap set_s_heap] in H. rewrite updh_oob in H by auto.
      unfold getu in H. rewrite nth_overflow in H by auto. simpl in H. discriminate. }
  assert (Eu : getu (s_heap s1) i = set_u_eqn2 (Some (Keq (Num 0) e2)) (set_u_eqn (Some (Keq (Num 0) e1)) (add_method "simultaneous eqn" u))).
  { unfold s1, upd_unk. cbn [s_heap set_s_heap]. rewrite getu_updh_same by auto. reflexivity. }
  set (v := getu (s_heap s1) i) in *.
  assert (Ev1 : u_eqn v = Some (Keq (Num 0) e1)) by (rewrite Eu; reflexivity).
  assert (Ev2 : u_eqn2 v = Some (Keq (Num 0) e2)) by (rewrite Eu; reflexivity).
  assert (O1 : ok_at rho (Keq (Num 0) e1)) by (eapply uinv_q1; eauto). assert (O2 : ok_at rho (Keq (Num 0) e2)) by (eapply uinv_q2; eauto).
  destruct O1 as (_ & D1 & O1). destruct O2 as (_ & D2 & O2). unfold holds in O1, O2. cbn [k_lhs k_rhs eval] in *.
  rewrite Ev1, Ev2 in H. cbn [k_rhs] in H.
  set (A := sy_coeff sy (Sin _) _) in *. set (B := sy_coeff sy (Cos _) _) in *.
  set (C := sy_simplify sy (Sub _ e1)) in *. set (D := sy_simplify sy (Sub _ e2)) in *.
  destruct (_ && _); [fin H; auto|].
  revert H. apply sinv_finish. intros s2. apply sinv_set_solved. apply sinv_upd; auto. fold v. intros _. apply uinv_nsol.
  apply uinv_own; auto. intros DS. eexists. split; [left; reflexivity|].
  apply (simu_cover sy HOK rho (u_sym v) e1 e2 A B C D D1 D2 eq_refl eq_refl DS); auto.
Qed.

(** ** Transforms *)
Lemma fold_subs_ok l : (forall k v, In (k, v) l -> defd rho v /\ rho k = eval rho v) -> forall e, defd rho e ->
  defd rho (fold_left (fun e kv => sy_subs sy (Sym (fst kv)) (snd kv) e) l e) /\
  eval rho (fold_left (fun e kv => sy_subs sy (Sym (fst kv)) (snd kv) e) l e) = eval rho e.
Proof.
  induction l as [|[k v] l IH]; simpl; auto. intros Hl e De.
  destruct (Hl k v (or_introl eq_refl)) as [Dv Ev]. destruct (ok_subs sy HOK rho (Sym k) v e De Dv Ev) as [D1 E1].
  destruct (IH (fun k' v' Hkv => Hl k' v' (or_intror Hkv)) _ D1) as [D2 E2]. split; auto. congruence.
Qed.
Lemma x2z2_pair_ok us e1 e2 l r : ok_at rho e1 -> ok_at rho e2 -> x2z2_pair sy us e1 e2 = Some (l, r) -> ok_at rho (Keq l r).
Proof.
  intros (D1 & D1' & O1) (D2 & D2' & O2). unfold x2z2_pair. destruct (_ =? _)%nat; [|discriminate]. destruct (_ =? _)%nat; [|discriminate].
  intros H. injection H as <- <-. unfold holds in *.
  destruct (ok_simplify sy HOK rho (Add (Mul (k_lhs e1) (k_lhs e1)) (Mul (k_lhs e2) (k_lhs e2)))) as [Dl El]. { cbn [defd]; auto. }
  destruct (ok_simplify sy HOK rho (Add (Mul (k_rhs e1) (k_rhs e1)) (Mul (k_rhs e2) (k_rhs e2)))) as [Dr Er]. { cbn [defd]; auto. }
  destruct (fold_subs_ok soa_expansions) with (e := sy_simplify sy (Add (Mul (k_rhs e1) (k_rhs e1)) (Mul (k_rhs e2) (k_rhs e2)))) as [Ds Es]; auto.
  { destruct HSOA as (h1 & h2 & h3 & h4 & h5 & h6 & h7 & h8 & h9). intros k v Hkv. unfold soa_expansions in Hkv. simpl in Hkv.
    repeat destruct Hkv as [Hkv|Hkv]; try tauto; injection Hkv as <- <-; split; simpl; auto. }
  destruct (ok_simplify sy HOK rho _ Ds) as [Dt Et].
  split; [exact Dl|]. split; [exact Dt|]. unfold holds. cbn [k_lhs k_rhs]. rewrite El. etransitivity; [|symmetry; exact (eq_trans Et (eq_trans Es Er))].
  simpl. rewrite O1, O2. reflexivity.
Qed.
Lemma x2z2_pairs_ok us L l r : (forall q, In q L -> ok_at rho q) -> x2z2_pairs sy us L = Some (l, r) -> ok_at rho (Keq l r).
Proof.
  induction L as [|e L IH]; simpl; [discriminate|]. intros HL. destruct (first_some _ _) as [p|] eqn:E.
  - intros H. injection H as ->. apply first_some_in in E as (e2 & H2 & E). eapply x2z2_pair_ok; [| |exact E]; auto.
  - intros H. apply IH; auto.
Qed.
Lemma inv_x2z2 s b s' : sinv s -> x2z2_transform sy s = OK b s' -> sinv s'.
Proof.
  intros S H. unfold x2z2_transform in H. curr H. destruct (negb _); [fin H; auto|].
  destruct (x2z2_pairs _ _ _) as [[l r]|] eqn:E; [|fin H; auto]. destruct (find _ _) as [j|] eqn:F; fin H; auto.
  assert (O : ok_at rho (Keq l r)). { revert E. apply x2z2_pairs_ok. intros q Hq. apply filter_In in Hq as [Hq _]. eapply sinv_L2; eauto. }
  assert (S1 : sinv (upd_unk j (add_method "x2z2 transform and ") s)) by (apply sinv_upd; auto with uinv).
  destruct S1 as ((h1a & h1b) & h2 & h3 & h4 & h5). split; [|split; [|split; [|split]]]; try assumption. split; [exact h1a|].
  cbn [s_aux set_s_aux upd_unk set_s_heap]. intros q Hq. apply in_app_or in Hq as [Hq|[<-|[]]]; auto.
Qed.

(** ** Equation lists *)
Lemma bucket_in k e d kk l q : In (kk, l) (bucket_add k e d) -> In q l -> q = e \/ exists l', In (kk, l') d /\ In q l'.
Proof.
  induction d as [|[k0 l0] d IH]; simpl.
  - intros [H|[]] Hq. injection H as <- <-. destruct Hq as [<-|[]]; auto.
  - destruct (k =? k0)%nat; simpl; intros [H|H] Hq.
    + injection H as <- <-. apply in_app_or in Hq as [Hq|[<-|[]]]; eauto.
    + eauto.
    + injection H as <- <-. eauto.
    + destruct (IH H Hq) as [?|(l' & ? & ?)]; eauto.
Qed.
Lemma buckets_in L d kk l q : In (kk, l) (fold_left (fun d e => bucket_add (cost e) e d) L d) -> In q l -> In q L \/ exists l', In (kk, l') d /\ In q l'.
Proof.
  revert d. induction L as [|e L IH]; simpl; eauto. intros d H Hq. destruct (IH _ H Hq) as [?|(l' & Hl & Hq')]; auto.
  apply bucket_in with (q := q) in Hl; auto. destruct Hl as [->|?]; auto.
Qed.
Lemma in_erank q L : In q (erank L) -> In q L.
Proof.
  unfold erank. intros H. apply in_flat_map in H as (k & _ & H). unfold lookup_bucket in H. destruct (find _ _) as [[k' l]|] eqn:F; [|destruct H].
  apply find_some in F as [F _]. destruct (buckets_in _ _ _ _ _ F H) as [?|(l' & [] & _)]; auto.
Qed.
Definition in_lists (q : kequation) (L : lists) : Prop := let '(l1, l2, l3) := L in In q l1 \/ In q l2 \/ In q l3.
Lemma in_push_new q e L : In q (push_new sy e L) -> q = e \/ In q L.
Proof. unfold push_new. destruct (existsb _ _); auto. intros H. apply in_app_or in H as [?|[<-|[]]]; auto. Qed.
Lemma in_file_eqn us q e L : in_lists q (file_eqn sy us L e) -> q = e \/ in_lists q L.
Proof.
  destruct L as [[l1 l2] l3]. unfold file_eqn, in_lists. repeat destruct (_ =? _)%nat; try destruct (_ <? _)%nat; intros [H|[H|H]]; auto;
    apply in_push_new in H as [?|?]; auto.
Qed.
Lemma in_file_aux us q e L : in_lists q (file_aux us L e) -> q = e \/ in_lists q L.
Proof.
  destruct L as [[l1 l2] l3]. unfold file_aux, in_lists. repeat destruct (_ =? _)%nat; intros [H|[H|H]]; auto;
    apply in_app_or in H as [?|[<-|[]]]; auto.
Qed.
Lemma in_fold_lists (f : lists -> kequation -> lists) q es : (forall e L, in_lists q (f L e) -> q = e \/ in_lists q L) ->
  forall L, in_lists q (fold_left f es L) -> In q es \/ in_lists q L.
Proof.
  intros Hf. induction es as [|e es IH]; simpl; auto. intros L H. destruct (IH _ H) as [?|H']; auto. destruct (Hf _ _ H') as [->|?]; auto.
Qed.
Lemma in_rank_lists q L : in_lists q (rank_lists L) -> in_lists q L.
Proof. destruct L as [[l1 l2] l3]. simpl. intros [H|[H|H]]; apply in_erank in H; auto. Qed.
Lemma in_scan q meqs aux us L : scan_for_equations sy meqs aux us = Some L -> in_lists q L ->
  (exists M, In M meqs /\ In q (meq_eqns M)) \/ In q aux.
Proof.
  unfold scan_for_equations. destruct meqs as [|M0 meqs0] eqn:Em; [discriminate|]. rewrite <- Em. clear Em. intros H. injection H as <-. intros H.
  apply in_rank_lists in H. apply in_fold_lists in H. 2:{ intros. eapply in_file_aux; eauto. }
  destruct H as [?|H]; auto. apply in_fold_lists in H. 2:{ intros. eapply in_file_eqn; eauto. }
  destruct H as [H|H]; [|simpl in H; tauto]. apply in_flat_map in H as (M & ? & ?). eauto.
Qed.
Lemma msat_eqns M q : msat rho M -> In q (meq_eqns M) -> ok_at rho q.
Proof.
  intros HM Hq. unfold meq_eqns in Hq. apply in_map_iff in Hq as ([i j] & <- & Hij). cbn [fst snd]. unfold idx16 in Hij. simpl in Hij.
  repeat destruct Hij as [Hij|Hij]; try tauto; injection Hij as <- <-; apply HM; lia.
Qed.
Lemma scan_ok s L : sat rho s -> scan_for_equations sy (s_meqs s) (s_aux s) (unk_objs s) = Some L -> forall q, in_lists q L -> ok_at rho q.
Proof.
  intros [Hm Ha] E q Hq. destruct (in_scan _ _ _ _ _ E Hq) as [(M & HM & Hq')|Hq']; auto. eapply msat_eqns; eauto.
Qed.
Lemma push_aux_ok us L e : ok_at rho e -> (forall q, in_lists q L -> ok_at rho q) -> forall q, in_lists q (push_aux sy us L e) -> ok_at rho q.
Proof.
  intros (D1 & D2 & O) HL q. destruct L as [[l1 l2] l3]. unfold push_aux. cbn [k_rhs].
  set (e1 := Keq (Num 0) (sy_norm sy (Sub (k_lhs e) (k_rhs e)))).
  assert (O1 : ok_at rho e1). { destruct (ok_norm sy HOK rho (Sub (k_lhs e) (k_rhs e))) as [D E]. { split; auto. } apply ok_at0; auto.
    rewrite E. unfold holds in O. simpl. lra. }
  unfold in_lists in *. repeat destruct (_ =? _)%nat; intros [H|[H|H]]; try (apply HL; tauto); apply in_app_or in H as [H|[<-|[]]]; auto; apply HL; tauto.
Qed.
Lemma set_lists_inv L s : sinv s -> (forall q, in_lists q L -> ok_at rho q) -> sinv (set_lists L s).
Proof.
  destruct L as [[l1 l2] l3]. intros ((h1a & h1b) & h2 & h3 & h4 & h5) HL. unfold in_lists in HL.
  split; [split; assumption|]. cbn [set_lists s_L1 s_L2 s_L3 set_s_L1 set_s_L2 set_s_L3 s_heap]. split; [|split; [|split]]; auto.
Qed.
Lemma inv_updateL s b s' : sinv s -> updateL sy s = OK b s' -> sinv s'.
Proof.
  intros S H. unfold updateL in H. destruct (scan_for_equations _ _ _ _) as [L|] eqn:E; fin H.
  apply set_lists_inv; auto. assert (Sat := sinv_sat s S). assert (HL := scan_ok s L Sat E). destruct Sat as [_ Ha].
  assert (G : forall aux us L, (forall q, in_lists q L -> ok_at rho q) -> (forall q, In q aux -> ok_at rho q) -> forall q, in_lists q (fold_left (push_aux sy us) aux L) -> ok_at rho q).
  { clear - HOK. induction aux as [|e aux IH]; simpl; auto. intros us L HL Ha. apply IH; auto. apply push_aux_ok; auto. }
  apply G; auto.
Qed.
Lemma inv_sum_id s b s' : sinv s -> sum_id sy s = OK b s' -> sinv s'.
Proof. intros S H. unfold sum_id in H. destruct (existsb _ _); fin H. auto. Qed.
Lemma inv_comp_det f s b s' : sinv s -> comp_det f s = OK b s' -> sinv s'.
Proof. intros S H. unfold comp_det in H. fin H. auto. Qed.

(** sub_transform keeps the matrix equation true at rho *)
Definition tsat (Td Ts : mat expr) : Prop := forall i j, (i < 4)%nat -> (j < 4)%nat -> ok_at rho (Keq (Td i j) (Ts i j)).
Lemma sub_step_ok us Td i j e2 Ts f Ts' f' kl : (i < 4)%nat -> (j < 4)%nat -> In kl idx12 ->
  ok_at rho (Keq (Td i j) e2) -> tsat Td Ts -> sub_step sy us Td i j e2 (Ts, f) kl = (Ts', f') -> tsat Td Ts'.
Proof.
  intros Hi Hj Hkl O2 HT. assert (B : (fst kl < 4)%nat /\ (snd kl < 4)%nat).
  { unfold idx12 in Hkl. simpl in Hkl. repeat destruct Hkl as [<-|Hkl]; simpl; try lia; tauto. }
  destruct B as [Bk Bl]. assert (O1 := HT _ _ Bk Bl). unfold sub_step.
  set (e1 := Ts (fst kl) (snd kl)) in *. set (l := Td (fst kl) (snd kl)) in *.
  destruct O1 as (Dl & D1 & O1). destruct O2 as (D0 & D2 & O2). unfold holds in *. cbn [k_lhs k_rhs] in *.
  assert (Set_ : forall new, defd rho new -> eval rho new = eval rho e2 -> tsat Td (set_elt Ts i j new)).
  { intros new Dn En i' j' Hi' Hj'. unfold set_elt. destruct ((i' =? i)%nat && (j' =? j)%nat) eqn:E; [|apply HT; auto].
    apply andb_true_iff in E as [E1 E2]. apply Nat.eqb_eq in E1, E2. subst. split; [exact D0|]. split; [exact Dn|]. unfold holds. cbn [k_lhs k_rhs]. congruence. }
  destruct (_ && _ && _).
  - destruct (_ <? _)%nat; intros H; injection H as <- <-; auto.
    destruct (ok_subs sy HOK rho e1 l e2 D2 Dl (eq_sym O1)) as [? ?]. auto.
  - destruct (_ && _ && _); [|intros H; injection H as <- <-; auto].
    destruct (_ <? _)%nat; intros H; injection H as <- <-; auto.
    destruct (ok_norm sy HOK rho (Neg e1) D1) as [Dn1 En1]. destruct (ok_norm sy HOK rho (Neg l) Dl) as [Dn2 En2].
    destruct (ok_subs sy HOK rho (sy_norm sy (Neg e1)) (sy_norm sy (Neg l)) e2 D2 Dn2) as [? ?]; auto. rewrite En1, En2. simpl. congruence.
Qed.
Lemma fold_inv {A B} (P : A -> Prop) (f : A -> B -> A) l : forall a, P a -> (forall a b, In b l -> P a -> P (f a b)) -> P (fold_left f l a).
Proof. induction l as [|b l IH]; simpl; auto. Qed.
Lemma sub_elt_ok us Td ij acc : In ij idx12 -> tsat Td (fst acc) -> tsat Td (fst (sub_elt sy us Td acc ij)).
Proof.
  intros Hij HT. assert (B : (fst ij < 4)%nat /\ (snd ij < 4)%nat).
  { unfold idx12 in Hij. simpl in Hij. repeat destruct Hij as [<-|Hij]; simpl; try lia; tauto. }
  destruct B as [Bi Bj]. unfold sub_elt. cbn [fst]. assert (O2 := HT _ _ Bi Bj). set (e2 := fst acc (fst ij) (snd ij)) in *. clearbody e2.
  apply (fold_inv (fun a => tsat Td (fst a))); auto. intros [Ts f] kl Hkl HT'.
  destruct (sub_step sy us Td (fst ij) (snd ij) e2 (Ts, f) kl) as [Ts1 f1] eqn:E. exact (sub_step_ok us Td _ _ e2 Ts f Ts1 f1 kl Bi Bj Hkl O2 HT' E).
Qed.
Lemma sub_fold_ok us Td acc : tsat Td (fst acc) -> tsat Td (fst (fold_left (sub_elt sy us Td) idx12 acc)).
Proof. intros HT. apply (fold_inv (fun a => tsat Td (fst a))); auto. intros a b Hb Ha. apply sub_elt_ok; auto. Qed.
Lemma inv_sub_transform s b s' : sinv s -> sub_transform sy s = OK b s' -> sinv s'.
Proof.
  intros S H. unfold sub_transform in H. destruct (s_meqs s) as [|M Ms] eqn:Em; [discriminate|].
  destruct (fold_left _ _ _) as [Ts f] eqn:E.
  set (s1 := set_s_meqs _ s) in *.
  assert (S1 : sinv s1).
  { destruct S as ((h1a & h1b) & h2 & h3 & h4 & h5). rewrite Em in h1a. split; [|split; [|split; [|split]]]; try assumption. split; [|exact h1b].
    unfold s1. cbn [s_meqs set_s_meqs]. intros M' [<-|HM']; [|apply h1a; right; auto].
    assert (X := sub_fold_ok (unk_objs s) (me_Td M) (me_Ts M, false) (h1a M (or_introl eq_refl))). rewrite E in X. exact X. }
  destruct f; [|fin H; auto].
  destruct (scan_for_equations _ _ _ _) as [L|] eqn:EL; fin H. apply set_lists_inv; auto. apply (scan_ok s1 L); auto. apply sinv_sat; auto.
Qed.

(** ** Composition *)
Lemma inv_seq2 f g : (forall s b s', sinv s -> f s = OK b s' -> sinv s') -> (forall s b s', sinv s -> g s = OK b s' -> sinv s') ->
  forall s b s', sinv s -> seq2 f g s = OK b s' -> sinv s'.
Proof. intros Hf Hg s b s' S H. unfold seq2 in H. destruct (f s) as [[] s1|] eqn:E; try discriminate; [|fin H]; eauto. Qed.
Lemma inv_or2 f g : (forall s b s', sinv s -> f s = OK b s' -> sinv s') -> (forall s b s', sinv s -> g s = OK b s' -> sinv s') ->
  forall s b s', sinv s -> or2 f g s = OK b s' -> sinv s'.
Proof. intros Hf Hg s b s' S H. unfold or2 in H. destruct (f s) as [b1 s1|] eqn:E; [|discriminate]. destruct (g s1) as [b2 s2|] eqn:E2; fin H. eauto. Qed.
Lemma inv_task t s b s' : sinv s -> run_task sy t s = OK b s' -> sinv s'.
Proof.
  destruct t; simpl; eauto using inv_assigner, inv_sum_id, inv_simu_sol, inv_sac_sol, inv_x2z2, inv_sub_transform, inv_updateL, inv_comp_det.
  - apply inv_seq2; eauto using inv_alg_id, inv_alg_solve.
  - apply inv_seq2; [|eauto using inv_rank]. apply inv_or2; apply inv_seq2; eauto using inv_tan_id, inv_tan_solve, inv_sc_id, inv_sc_solve.
Qed.
Lemma inv_runs s ts s' : sinv s -> runs sy s ts s' -> sinv s'.
Proof. intros S H. induction H; auto. apply IHruns. eapply inv_task; eauto. Qed.
Lemma inv_initial s : initial sy s -> sat rho s -> sinv s.
Proof.
  intros (Hf & _ & _ & _ & _ & _ & _ & Hs) Sat. assert (HL := scan_ok s _ Sat Hs). unfold in_lists in HL.
  split; [exact Sat|]. do 3 (split; [intros q Hq; apply HL; auto|]). intros u Hu. specialize (Hf u Hu). rewrite Hf. unfold uinv, cov. simpl.
  intuition (try discriminate).
Qed.
End Inv.

(** Every run of the tree is a history of its parts. *)
Lemma runs_app sy s1 a s2 b s3 : runs sy s1 a s2 -> runs sy s2 b s3 -> runs sy s1 (a ++ b) s3.
Proof. intros H. induction H; simpl; auto. intros. econstructor; eauto. Qed.
Definition traced (sy : sympy) (f : state -> outcome) : Prop := forall s b s', f s = OK b s' -> exists ts, runs sy s ts s'.
Lemma traced_task sy t : traced sy (run_task sy t).
Proof. intros s b s' H. exists [(t, b)]. econstructor; eauto. constructor. Qed.
Lemma traced_seq2 sy f g : traced sy f -> traced sy g -> traced sy (seq2 f g).
Proof.
  intros Hf Hg s b s' H. unfold seq2 in H. destruct (f s) as [[] s1|] eqn:E; try discriminate.
  - destruct (Hf _ _ _ E) as [a ?]. destruct (Hg _ _ _ H) as [c ?]. exists (a ++ c). eapply runs_app; eauto.
  - injection H as <- <-. eauto.
Qed.
Lemma traced_prio2 sy f g : traced sy f -> traced sy g -> traced sy (prio2 f g).
Proof.
  intros Hf Hg s b s' H. unfold prio2 in H. destruct (f s) as [[] s1|] eqn:E; try discriminate.
  - injection H as <- <-. eauto.
  - destruct (Hf _ _ _ E) as [a ?]. destruct (Hg _ _ _ H) as [c ?]. exists (a ++ c). eapply runs_app; eauto.
Qed.
Lemma traced_repeat sy n f : traced sy f -> traced sy (repeat_until_success n f).
Proof.
  intros Hf. induction n; intros s b s' H; simpl in H. { injection H as <- <-. exists []. constructor. }
  destruct (f s) as [[] s1|] eqn:E; try discriminate.
  - injection H as <- <-. eauto.
  - destruct (Hf _ _ _ E) as [a ?]. destruct (IHn _ _ _ H) as [c ?]. exists (a ++ c). eapply runs_app; eauto.
Qed.
Lemma tree_runs sy : traced sy (ik_solve sy).
Proof.
  apply traced_repeat. apply traced_seq2. exact (traced_task sy TSub). apply traced_seq2.
  - apply traced_repeat. apply traced_seq2. exact (traced_task sy TAssign). apply traced_seq2. exact (traced_task sy TSumId).
    repeat apply traced_prio2. exact (traced_task sy TAlg). exact (traced_task sy TScTan). exact (traced_task sy TSimu). exact (traced_task sy TSac). exact (traced_task sy TX2z2).
  - apply traced_seq2. exact (traced_task sy TUpdateL). exact (traced_task sy (TCompDet false)).
Qed.
