(** Facts used for the history properties: one solving step in full, and the invariants of all histories. *)
From Coq Require Import Reals ZArith List String Bool Arith Lia Permutation.
From Verif Require Import Expr Kin Solver SolverSpec SolverFacts SolverInv PropLists SolverHist.
Import ListNotations.
Local Open Scope string_scope.
Local Open Scope list_scope.
Local Open Scope nat_scope.

(** * collect_deps *)
Lemma collect_deps_spec h ids : forall sols acc deps, collect_deps h ids sols acc = Some deps ->
  (forall e j, In e sols -> In j ids -> has (u_sym (getu h j)) e = true -> u_solved (getu h j) = true)
  /\ (forall d, In d deps -> In d acc \/ (In d ids /\ exists e, In e sols /\ has (u_sym (getu h d)) e = true))
  /\ (forall d, In d acc -> In d deps)
  /\ (forall e j, In e sols -> In j ids -> has (u_sym (getu h j)) e = true -> exists d, In d deps /\ u_sym (getu h d) = u_sym (getu h j))
  /\ (NoDup (map (fun i => u_sym (getu h i)) acc) -> NoDup (map (fun i => u_sym (getu h i)) deps)).
Proof.
  induction sols as [|e sols IH]; simpl; intros acc deps H. { injection H as <-. repeat split; auto; tauto. }
  destruct (get_deps h ids e) as [ds|] eqn:E; [|discriminate]. destruct (IH _ _ H) as (I1 & I2 & I3 & I4 & I5).
  assert (Ed := C25_get_deps_exact h ids e ds E). destruct Ed as (D1 & _ & D3).
  assert (D1' : forall j, In j ids -> has (u_sym (getu h j)) e = true -> exists d, In d ds /\ u_sym (getu h d) = u_sym (getu h j)).
  { intros j Hj He. assert (X : In (u_sym (getu h j)) (map (fun i => u_sym (getu h i)) ds)). { apply D1. split; auto. apply (in_map (fun i => u_sym (getu h i))). auto. }
    apply in_map_iff in X as (d & X & Hd). eauto. }
  split; [|split; [|split; [|split]]].
  - intros e' j [<-|He] Hj Hh; eauto. destruct (u_solved (getu h j)) eqn:Es; auto.
    assert (X : get_deps h ids e = None) by (apply C25_get_deps_fails; eauto). congruence.
  - intros d Hd. apply I2 in Hd as [Hd|(Hd & e' & ? & ?)]; [|right; eauto]. apply set_adds_in in Hd as [?|Hd]; auto.
    right. split. { apply D3; auto. } exists e. split; auto. apply D1. apply (in_map (fun i => u_sym (getu h i))). auto.
  - intros d Hd. apply I3. apply set_adds_old. auto.
  - intros e' j [<-|He] Hj Hh; eauto. destruct (D1' j Hj Hh) as (d & Hd & Ed). destruct (set_adds_new h ds acc d Hd) as (x & Hx & Ex).
    exists x. split; auto. congruence.
  - intros N. apply I5. clear - N. revert acc N. induction ds; simpl; auto. intros acc N. apply IHds. apply set_add_nodup. auto.
Qed.

(** * One solving step *)
Lemma solved_facts o d n u : let w := solved_unk o d n u in let ns := List.length (solutions u) in
  u_sym w = u_sym u /\ u_solved w = true /\ solutions w = solutions u /\ u_nsol w = ns /\ u_order w = o /\ u_deps w = d /\ u_nver w = n
  /\ u_names w = u_names u ++ sol_names (u_sym u) ns /\ u_vers w = u_vers u ++ map (fun k => nth (k mod ns) (u_names w) "") (seq 0 n)
  /\ u_sc w = u_sc u /\ u_tan w = u_tan u /\ u_tanable w = u_tanable u.
Proof. destruct u. cbv zeta. repeat split. Qed.
Definition prod (l : list nat) : nat := fold_right Nat.mul 1 l.
Lemma fold_mul (g : nat -> nat) l : forall a, fold_left (fun n d => n * g d) l a = a * prod (map g l).
Proof. induction l; simpl; intros; [lia|]. rewrite IHl. lia. Qed.
Lemma solve_step i f s s' : presolve f -> set_solved i (upd_unk i f s) = Some s' ->
  i < List.length (s_heap s) /\
  let v := f (getu (s_heap s) i) in
  exists deps nver, (let w := getu (s_heap s') i in let ns := List.length (solutions v) in
     u_sym w = u_sym v /\ u_solved w = true /\ solutions w = solutions v /\ u_nsol w = ns /\ u_order w = S (s_solveN s) /\ u_deps w = deps /\ u_nver w = nver
     /\ u_names w = u_names v ++ sol_names (u_sym v) ns /\ u_vers w = u_vers v ++ map (fun k => nth (k mod ns) (u_names w) "") (seq 0 nver)
     /\ u_sc w = u_sc v /\ u_tan w = u_tan v /\ u_tanable w = u_tanable v)
  /\ solutions v <> []
  /\ (forall j, j <> i -> getu (s_heap s') j = getu (s_heap s) j)
  /\ List.length (s_heap s') = List.length (s_heap s) /\ s_unks s' = s_unks s /\ s_curr s' = s_curr s /\ s_solveN s' = S (s_solveN s) /\ s_nodes s' = s_nodes s ++ [i]
  /\ s_edges s' = fold_left (fun es d => add_edge es (u_sym v, u_sym (getu (s_heap s) d))) deps (s_edges s)
  /\ nver = List.length (solutions v) * prod (map (fun d => u_nsol (getu (s_heap s') d)) deps)
  /\ (forall e j, In e (solutions v) -> In j (s_unks s) -> has (u_sym (getu (s_heap s) j)) e = true -> j = i \/ u_solved (getu (s_heap s) j) = true)
  /\ (forall d, In d deps -> In d (u_deps v) \/ (In d (s_unks s) /\ exists e, In e (solutions v) /\ has (u_sym (getu (s_heap s) d)) e = true))
  /\ (forall d, In d (u_deps v) -> In d deps)
  /\ (forall e j, In e (solutions v) -> In j (s_unks s) -> has (u_sym (getu (s_heap s) j)) e = true -> exists d, In d deps /\ u_sym (getu (s_heap s) d) = u_sym (getu (s_heap s) j))
  /\ (NoDup (map (fun i => u_sym (getu (s_heap s) i)) (u_deps v)) -> NoDup (map (fun i => u_sym (getu (s_heap s) i)) deps)).
Proof.
  intros P H. destruct (Nat.lt_ge_cases i (List.length (s_heap s))) as [Hi|Hi].
  2:{ exfalso. apply (set_solved_oob i (upd_unk i f s) s'); auto. rewrite len_upd. auto. }
  split; auto. cbv zeta. apply set_solved_spec in H; [|rewrite len_upd; auto]. cbv zeta in H. rewrite get_upd in H by auto.
  destruct H as (deps & nver & Hd & Hn & Hne & Eh & Eu & Ec & _ & _ & _ & _ & _ & _ & En & Ends & Ee).
  set (v := f (getu (s_heap s) i)) in *.
  unfold upd_unk in Eh, Eu, Ec, En, Ends, Ee, Hd, Hn. cbn [s_heap s_unks s_curr s_solveN s_nodes s_edges set_s_heap] in *. rewrite updh_updh in Eh.
  assert (Pv : book v = book (getu (s_heap s) i)) by apply (proj1 P).
  assert (Es : u_sym v = u_sym (getu (s_heap s) i)) by (apply book_sym; auto).
  rewrite updh_updh in Hd. 
  set (h1 := updh i (fun u => set_u_order _ _) (s_heap s)) in Hd.
  assert (G1 : forall j, u_sym (getu h1 j) = u_sym (getu (s_heap s) j)).
  { intros j. unfold h1. destruct (Nat.eq_dec j i) as [->|N]. rewrite getu_updh_same by auto. exact Es. rewrite getu_updh_other; auto. }
  assert (G2 : forall j, u_solved (getu h1 j) = true -> j = i \/ u_solved (getu (s_heap s) j) = true).
  { intros j. unfold h1. destruct (Nat.eq_dec j i) as [->|N]; auto. rewrite getu_updh_other; auto. }
  assert (G3 : forall j, u_nsol (getu h1 j) = u_nsol (getu (s_heap s') j)).
  { intros j. rewrite Eh. unfold h1. destruct (Nat.eq_dec j i) as [->|N]. rewrite !getu_updh_same by auto. reflexivity. rewrite !getu_updh_other; auto. }
  destruct (collect_deps_spec h1 _ _ _ _ Hd) as (C1 & C2 & C3 & C4 & C5).
  exists deps, nver. split. { rewrite Eh, getu_updh_same by auto. apply solved_facts. } split; auto.
  split. { intros j N. rewrite Eh, getu_updh_other; auto. } split. { rewrite Eh, updh_length. auto. }
  split; auto. split; auto. split; auto. split; auto.
  split. { rewrite Ee. clear - Es Hi P. generalize (s_edges s). induction deps as [|d deps IH]; simpl; auto. intros es. rewrite <- IH. f_equal. f_equal. f_equal.
           destruct (Nat.eq_dec d i) as [->|N]. rewrite getu_updh_same by auto. exact Es. rewrite getu_updh_other; auto. }
  split. { rewrite Hn. rewrite updh_updh. fold h1. rewrite (fold_mul (fun d => u_nsol (getu h1 d))). f_equal. f_equal. apply map_ext. auto. }
  split. { intros e j He Hj Hh. apply G2. eapply C1; eauto. rewrite G1; auto. }
  split. { intros d Hdd. apply C2 in Hdd as [?|(? & e & ? & K)]; auto. rewrite G1 in K. right. eauto. }
  split; auto.
  split. { intros e j He Hj Hh. rewrite <- G1 in Hh. destruct (C4 e j He Hj Hh) as (d & ? & K). exists d. rewrite !G1 in K. auto. }
  intros N. rewrite (map_ext (fun i => u_sym (getu (s_heap s) i)) (fun i => u_sym (getu h1 i))) by (intros; symmetry; apply G1).
  apply C5. rewrite (map_ext (fun i => u_sym (getu h1 i)) (fun i => u_sym (getu (s_heap s) i))); auto.
Qed.

(** * Invariants of all histories *)
Definition pristine (u : unk) : Prop :=
  u_order u = 0 /\ u_names u = [] /\ u_vers u = [] /\ u_deps u = [] /\ u_ref u = Own /\ u_own u = [] /\ u_sc u = [] /\ u_tan u = [] /\ u_nsol u = 0.
Definition hinv (s : state) : Prop :=
  (forall i, In i (s_unks s) -> i < List.length (s_heap s)) /\ (forall i, s_curr s = Some i -> In i (s_unks s))
  /\ (forall i, u_solved (getu (s_heap s) i) = false -> pristine (getu (s_heap s) i))
  /\ (forall i, u_solved (getu (s_heap s) i) = true -> solutions (getu (s_heap s) i) <> [] /\ u_nsol (getu (s_heap s) i) = List.length (solutions (getu (s_heap s) i))
       /\ forall e j, In e (solutions (getu (s_heap s) i)) -> In j (s_unks s) -> has (u_sym (getu (s_heap s) j)) e = true -> u_solved (getu (s_heap s) j) = true)
  /\ (forall i, In i (s_nodes s) <-> u_solved (getu (s_heap s) i) = true) /\ s_solveN s = List.length (s_nodes s)
  /\ (forall i, In i (s_nodes s) -> In i (s_unks s)).
Lemma hinv_curr s : hinv s -> forall i, s_curr s = Some i -> i < List.length (s_heap s).
Proof. intros (H1 & H2 & _) i Hc. auto. Qed.
Lemma hinv_nodes s i : hinv s -> In i (s_nodes s) <-> u_solved (getu (s_heap s) i) = true.
Proof. intros (_ & _ & _ & _ & H & _). auto. Qed.
Lemma quiet_getu i f h j : quiet f -> book (getu (updh i f h) j) = book (getu h j) /\ stock (getu (updh i f h) j) = stock (getu h j).
Proof.
  intros Q. destruct (Nat.eq_dec j i) as [->|N]. 2:{ rewrite getu_updh_other; auto. }
  destruct (Nat.lt_ge_cases i (List.length h)). rewrite getu_updh_same by auto. apply (proj1 Q). rewrite updh_oob; auto.
Qed.
Lemma book_stock u v : book u = book v -> stock u = stock v ->
  u_sym u = u_sym v /\ u_solved u = u_solved v /\ solutions u = solutions v /\ u_nsol u = u_nsol v /\ (pristine v -> pristine u)
  /\ u_order u = u_order v /\ u_deps u = u_deps v /\ u_names u = u_names v /\ u_vers u = u_vers v /\ u_nver u = u_nver v.
Proof.
  destruct u, v. unfold book, stock, pristine, solutions. cbn. intros B S. injection B as -> -> -> -> -> -> -> -> ->. injection S as -> -> -> -> -> -> ->. repeat split; auto; tauto.
Qed.
Lemma step_hinv t s s' : hinv s -> step t s s' -> hinv s'.
Proof.
  intros (H1 & H2 & H3 & H4 & H5 & H6 & H7) [i f (R1 & R2 & R3 & R4) C Eh Q _|i f Hc P E _ _].
  - assert (G : forall j, let u := getu (s_heap s') j in let v := getu (s_heap s) j in
      u_sym u = u_sym v /\ u_solved u = u_solved v /\ solutions u = solutions v /\ u_nsol u = u_nsol v /\ (pristine v -> pristine u)).
    { intros j. cbv zeta. rewrite Eh. destruct (quiet_getu i f (s_heap s) j Q) as [B S]. destruct (book_stock _ _ B S) as (? & ? & ? & ? & ? & _). auto. }
    cbv zeta in G. unfold hinv. rewrite R1, R2, R3.
    split. { intros j Hj. rewrite Eh, updh_length. auto. }
    split. { intros j Hj. destruct C as [C|(k & C & ?)]. apply H2. congruence. congruence. }
    split. { intros j Hj. destruct (G j) as (_ & G2 & _ & _ & G5). apply G5. apply H3. congruence. }
    split. { intros j Hj. destruct (G j) as (_ & G2 & G3 & G4 & _). rewrite G2 in Hj. rewrite G3, G4. destruct (H4 j Hj) as (K1 & K2 & K3). split; auto. split; auto.
             intros e k He Hk Hh. destruct (G k) as (Gk1 & Gk2 & _). rewrite Gk1 in Hh. rewrite Gk2. eauto. }
    split. { intros j. destruct (G j) as (_ & -> & _). apply H5. } split; auto.
  - assert (Pv := proj1 P (getu (s_heap s) i)). apply solve_step in E as [Hi E]; auto. cbv zeta in E. set (v := f (getu (s_heap s) i)) in *.
    destruct E as (deps & nver & (U1 & U2 & U3 & U4 & _) & Hn & Eo & El & Eun & Ec & En & Ends & _ & _ & D1 & _).
    assert (Hsym : u_sym v = u_sym (getu (s_heap s) i)) by (apply book_sym; auto).
    assert (G1 : forall j, u_sym (getu (s_heap s') j) = u_sym (getu (s_heap s) j)).
    { intros j. destruct (Nat.eq_dec j i) as [->|N]; [|rewrite Eo; auto]. rewrite U1. exact Hsym. }
    assert (G2 : forall j, u_solved (getu (s_heap s') j) = true <-> j = i \/ u_solved (getu (s_heap s) j) = true).
    { intros j. destruct (Nat.eq_dec j i) as [->|N]; [rewrite U2; tauto|rewrite Eo; auto; tauto]. }
    unfold hinv. rewrite El, Eun, Ec, En, Ends. split; auto. split; auto.
    split. { intros j Hj. destruct (Nat.eq_dec j i) as [->|N]; [congruence|]. rewrite Eo in Hj by auto. rewrite Eo by auto. auto. }
    split. { intros j Hj. destruct (Nat.eq_dec j i) as [->|N].
             - rewrite U3, U4. split; auto. split; [reflexivity|].
               intros e k He Hk Hh. apply G2. rewrite G1 in Hh. eapply D1; eauto.
             - rewrite Eo in Hj by auto. rewrite Eo by auto. destruct (H4 j Hj) as (K1 & K2 & K3). split; auto. split; auto. intros e k He Hk Hh. apply G2. right. rewrite G1 in Hh. eauto. }
    split. { intros j. rewrite G2, in_app_iff, H5. simpl. split; intuition. }
    split. { rewrite app_length, H6. simpl. lia. }
    intros j Hj. apply in_app_or in Hj as [?|[<-|[]]]; auto.
Qed.
Lemma hinv_initial sy s : initial sy s -> hinv s.
Proof.
  intros (Hf & Hr & Hc & _ & Hn & Hnd & _). unfold hinv. rewrite Hc, Hn, Hnd.
  assert (F : forall i, u_solved (getu (s_heap s) i) = false /\ pristine (getu (s_heap s) i)).
  { intros i. destruct (Nat.lt_ge_cases i (List.length (s_heap s))). rewrite (Hf (getu (s_heap s) i)) by (apply getu_in; auto). repeat split. unfold getu. rewrite nth_overflow by auto. repeat split. }
  split; auto. split; [discriminate|]. split. { intros i _. apply F. } split. { intros i Hi. destruct (F i). congruence. }
  split. { intros i. destruct (F i). simpl. split; [tauto|congruence]. } split; [reflexivity|]. simpl. tauto.
Qed.
Lemma hinv_runs sy s ts s' : hinv s -> runs sy s ts s' -> hinv s'.
Proof. intros S H. induction H; auto. apply IHruns. eapply step_hinv; eauto. eapply task_step; eauto. apply hinv_curr; auto. Qed.
