(** C66: the rows of the solution table contain every joint vector that reaches the pose.  C50 and C51 speak of one unknown at a time;
    here the solutions are put together by create_solution_set and make_LHS_versions, so that the value of each unknown is computed from
    the values of the others in the same row. *)
From Coq Require Import Reals ZArith List String Ascii Bool Arith Lia Lra.
From Verif Require Import Expr Kin KinSpec KinFacts PropKin Trig Solver SolverSpec SolverFacts SolverInv PropLists SolverHist HistFacts PropHist PropCrash PropOnce PropSolvers PropComplete Soa SoaFacts PropSoa PropEndToEnd SolSet SolSetFacts PropSolSet Robots PropRobots PropReach.
Import ListNotations.
Local Open Scope string_scope.
Local Open Scope list_scope.
Local Open Scope nat_scope.

(** * Expressions that do not feel full turns *)
(** assignments that differ by full turns, in the symbols of a list only *)
Definition turned (A : list string) (rho rho' : env) : Prop := forall x, (In x A -> cong (rho x) (rho' x)) /\ (~ In x A -> rho x = rho' x).
(** the value changes by full turns only when these symbols do *)
Definition periodic (A : list string) (e : expr) : Prop := forall rho rho', turned A rho rho' -> cong (eval rho e) (eval rho' e).
(** the value does not change *)
Definition steady (A : list string) (e : expr) : Prop := forall rho rho', turned A rho rho' -> eval rho e = eval rho' e.

Lemma cong_of_eq a b : a = b -> cong a b. Proof. intros ->. apply cong_refl. Qed.
Lemma cong_mulz z a b : cong a b -> cong (IZR z * a) (IZR z * b).
Proof. intros (k & Hk). exists (z * k)%Z. rewrite Hk, mult_IZR. lra. Qed.

(** a sufficient condition that can be read off the expression: [exactly] - these symbols occur under sine and cosine only;
    [whole] - sums, differences and whole multiples of such expressions and of the symbols *)
Fixpoint exactly (A : list string) (e : expr) : bool :=
  match e with
  | Num _ | PiE => true
  | Sym s => negb (memb s A)
  | Add a b | Mul a b | Div a b | Atan2 a b => exactly A a && exactly A b
  | Neg a | Pow a _ | Asin a | Acos a | Sqrt a => exactly A a
  | Sin a | Cos a => whole A a
  end
with whole (A : list string) (e : expr) : bool :=
  match e with
  | Num _ | PiE | Sym _ => true
  | Add a b => whole A a && whole A b
  | Neg a => whole A a
  | Mul a b => match a with Num _ => whole A b | _ => false end || (exactly A a && exactly A b)
  | Div a b | Atan2 a b => exactly A a && exactly A b
  | Pow a _ | Asin a | Acos a | Sqrt a => exactly A a
  | Sin a | Cos a => whole A a
  end.
Lemma exactly_whole A rho rho' : turned A rho rho' -> forall e, (exactly A e = true -> eval rho e = eval rho' e) /\ (whole A e = true -> cong (eval rho e) (eval rho' e)).
Proof.
  intros T. induction e; cbn [exactly whole eval].
  - split; intros _; auto. apply cong_refl.
  - split; intros _; auto. apply cong_refl.
  - split; intros H.
    + apply T. intros I. apply memb_in in I. rewrite I in H. discriminate.
    + destruct (in_dec string_dec s A) as [I|I]; [apply T; auto|apply cong_of_eq, T; auto].
  - destruct IHe1 as (X1 & W1), IHe2 as (X2 & W2). split; intros H; apply andb_true_iff in H as (H1 & H2). rewrite X1, X2; auto. apply cong_plus; auto.
  - destruct IHe1 as (X1 & W1), IHe2 as (X2 & W2). split; intros H. apply andb_true_iff in H as (H1 & H2). rewrite X1, X2; auto.
    apply orb_prop in H as [H|H]. { destruct e1; try discriminate. cbn [eval]. apply cong_mulz; auto. }
    apply andb_true_iff in H as (H1 & H2). apply cong_of_eq. rewrite X1, X2; auto.
  - destruct IHe as (X & W). split; intros H. rewrite X; auto. apply cong_opp; auto.
  - destruct IHe1 as (X1 & W1), IHe2 as (X2 & W2). split; intros H; apply andb_true_iff in H as (H1 & H2); try apply cong_of_eq; rewrite X1, X2; auto.
  - destruct IHe as (X & W). split; intros H; try apply cong_of_eq; rewrite X; auto.
  - destruct IHe as (X & W). split; intros H; try apply cong_of_eq; apply cong_sin; auto.
  - destruct IHe as (X & W). split; intros H; try apply cong_of_eq; apply cong_cos; auto.
  - destruct IHe as (X & W). split; intros H; try apply cong_of_eq; rewrite X; auto.
  - destruct IHe as (X & W). split; intros H; try apply cong_of_eq; rewrite X; auto.
  - destruct IHe1 as (X1 & W1), IHe2 as (X2 & W2). split; intros H; apply andb_true_iff in H as (H1 & H2); try apply cong_of_eq; rewrite X1, X2; auto.
  - destruct IHe as (X & W). split; intros H; try apply cong_of_eq; rewrite X; auto.
Qed.
Lemma exactly_steady A e : exactly A e = true -> steady A e.
Proof. intros H rho rho' T. apply (exactly_whole A rho rho' T); auto. Qed.
Lemma whole_periodic A e : whole A e = true -> periodic A e.
Proof. intros H rho rho' T. apply (exactly_whole A rho rho' T); auto. Qed.

(** * The table *)
(** the unknowns after the first have the same number of solutions, and not more than the first (otherwise make_LHS_versions raises or loses solutions: C66_numbers) *)
Definition numbers_fit (l : list nat) : Prop := forall k k', In k (tl l) -> In k' (tl l) -> k' = k /\ k <= hd 0 l.
Lemma last_case nodes n0 ns : nodes = n0 :: ns -> (ns = [] /\ last_nsol nodes = n_nsol n0) \/ exists m, In m ns /\ last_nsol nodes = n_nsol m.
Proof.
  intros ->. destruct ns as [|n ns]; [left; auto|]. right. destruct (exists_last (l := n :: ns)) as (ms & m & E); [discriminate|]. exists m. rewrite E. split. { apply in_or_app. right. left. auto. }
  unfold last_nsol. change (n0 :: ms ++ [m]) with ((n0 :: ms) ++ [m]). rewrite rev_app_distr. reflexivity.
Qed.
Definition one_or_two (nodes : list node) : Prop := forall n, In n nodes -> n_nsol n = 1 \/ n_nsol n = 2.
Lemma combination nodes (b : nat -> nat) : handed_over nodes -> one_or_two nodes -> numbers_fit (map n_nsol nodes) -> (forall c n, nth_error nodes c = Some n -> b c < n_nsol n) ->
  exists r, In r (create_solution_set nodes) /\ forall c, c < List.length nodes -> row_branch nodes r c (b c).
Proof.
  intros H O T Hb. destruct (proj2 H) as (n0 & ns & En & Ev). assert (B0 := Hb 0 n0). rewrite En in B0. specialize (B0 eq_refl).
  destruct (last_case nodes n0 ns En) as [(-> & L)|(m & Im & L)].
  - exists [sname (n_name n0) (S (b 0))]. split.
    + rewrite En, create_one, Ev, map_map. apply in_map_iff. exists (b 0). split; auto. apply in_seq. lia.
    + intros c Hc. rewrite En in Hc. cbn [List.length] in Hc. replace c with 0 by lia. exists n0. rewrite En. auto.
  - assert (Tk : forall n, In n ns -> n_nsol n = n_nsol m /\ n_nsol n <= n_nsol n0).
    { intros n Hn. rewrite En in T. destruct (T (n_nsol n) (n_nsol m)) as [A1 A2]; cbn [map tl]; try (apply in_map; auto). cbn [map hd] in A2. auto. }
    assert (I0 : In n0 nodes) by (rewrite En; left; auto). destruct (O m) as [Km|Km]. { rewrite En. right. auto. }
    + destruct (proj2 (C42_restrict n0 [] ns [sname (n_name n0) (S (b 0))] ltac:(cbn [app]; rewrite <- En; exact H))) as (r & Hr & F).
      { rewrite create_one, Ev, map_map. apply in_map_iff. exists (b 0). split; auto. apply in_seq. lia. }
      cbn [app List.length] in Hr, F. rewrite <- En in Hr. exists r. split; auto. intros [|c] Hc.
      * exists n0. rewrite En. split; auto. destruct r as [|v r]; [discriminate|]. cbn [firstn] in F. injection F as ->. reflexivity.
      * destruct (nth_error_ex nodes (S c) Hc) as (n & Hn). assert (J : In n ns) by (rewrite En in Hn; cbn [nth_error] in Hn; eapply nth_error_In; eauto). destruct (Tk n J) as [N1 _].
        destruct (row_branch_ex nodes r (S c) n H Hr Hn) as (b' & Hb' & Lb). assert (Y := Hb _ _ Hn). replace (b (S c)) with b'; auto. destruct Lb as [?|[? _]]; lia.
    + assert (Two : two_each nodes). { intros n Hn. rewrite En in Hn. destruct Hn as [<-|Hn]; [|destruct (Tk n Hn); lia]. destruct (Tk m Im). destruct (O n0 I0); lia. }
      destruct (C43_every_combination nodes (fun c => if c <? List.length nodes then b c else 0) H Two) as (i & r & Hi & Br & _).
      { intros c. destruct (Nat.ltb_spec c (List.length nodes)) as [Lc|]; [|lia]. destruct (nth_error_ex nodes c Lc) as (n & Hn). rewrite <- (Two n); [apply Hb; auto|eapply nth_error_In; eauto]. }
      exists r. split; [eapply nth_error_In; eauto|]. intros c Hc. assert (X := Br c Hc). replace (c <? List.length nodes) with true in X by (symmetry; apply Nat.ltb_lt; auto). exact X.
Qed.
(** Exactly then the equations are produced and every combination of one solution of each unknown is a row. *)
Theorem C66_numbers nodes : handed_over nodes -> one_or_two nodes ->
  (make_LHS_versions nodes (create_solution_set nodes) <> None
   /\ forall b, (forall c n, nth_error nodes c = Some n -> b c < n_nsol n) -> exists r, In r (create_solution_set nodes) /\ forall c, c < List.length nodes -> row_branch nodes r c (b c))
  <-> numbers_fit (map n_nsol nodes).
Proof.
  intros H O. destruct (proj2 H) as (n0 & ns & En & _). split.
  - intros [P C]. assert (Ge : forall n, In n nodes -> last_nsol nodes <= n_nsol n). { intros n Hn. destruct (Nat.le_gt_cases (last_nsol nodes) (n_nsol n)); auto. exfalso. apply P, C43_raises; eauto. }
    assert (Eq : forall n, In n ns -> n_nsol n = last_nsol nodes).
    { intros n Hn. assert (I : In n nodes) by (rewrite En; right; auto). assert (G := Ge n I). destruct (last_case nodes n0 ns En) as [(-> & _)|(m & Im & L)]; [destruct Hn|]. destruct (O n I) as [K|K]; destruct (O m) as [K'|K']; try (rewrite En; right; auto); try lia. exfalso.
      apply In_nth_error in Hn as (c & Hc). assert (Lc := nth_error_some_lt _ _ _ Hc). destruct (C (fun i => if i =? S c then 1 else 0)) as (r & _ & Br).
      { intros i n' Hn'. assert (1 <= n_nsol n') by (apply (proj1 H); eapply nth_error_In; eauto). destruct (Nat.eqb_spec i (S c)) as [->|]; [|lia]. rewrite En in Hn'. cbn [nth_error] in Hn'. assert (n' = n) by congruence. subst. lia. }
      destruct (Br (S c)) as (n' & _ & j & _ & M). { rewrite En. cbn [List.length]. lia. } rewrite Nat.eqb_refl, L, K', Nat.mod_1_r in M. discriminate. }
    intros k k' Hk Hk'. rewrite En in Hk, Hk' |- *. cbn [map tl hd] in *. apply in_map_iff in Hk as (n & <- & Hn). apply in_map_iff in Hk' as (n' & <- & Hn'). rewrite (Eq n Hn), (Eq n' Hn'). split; auto. apply Ge. rewrite En. left. auto.
  - intros T. split; [|intros b Hb; apply combination; auto]. intros E. apply (C43_raises nodes H) in E as (n & Hn & L). rewrite En in T. cbn [map] in T.
    destruct (last_case nodes n0 ns En) as [(-> & L')|(m & Im & L')]; rewrite L' in L; rewrite En in Hn.
    + destruct Hn as [<-|[]]. lia.
    + unfold numbers_fit in T. cbn [tl hd] in T. destruct Hn as [<-|Hn]. { destruct (T (n_nsol m) (n_nsol m)); try (apply in_map; auto). lia. } destruct (T (n_nsol n) (n_nsol m)); try (apply in_map; auto). lia.
Qed.
(** Let the equations be executed, and let theta be a vector of values such that the value of each unknown of the list A (the angles) is,
    up to full turns, that of one of its solutions at theta, and the value of each other unknown (the lengths) exactly.  Then a row of the
    table gives every unknown its value in theta: the angles up to full turns, the lengths exactly. *)
Definition matches (A : list string) (x : string) (a b : R) : Prop := (In x A -> cong a b) /\ (~ In x A -> a = b).
Definition found (A : list string) (theta : env) (x : string) (sols : list expr) : Prop := exists e, In e sols /\ matches A x (theta x) (eval theta e).
Definition free_of_turns (A : list string) (x : string) (e : expr) : Prop := (In x A -> periodic A e) /\ (~ In x A -> steady A e).
Theorem C66_table A nodes F rho theta : handed_over nodes -> one_or_two nodes -> numbers_fit (map n_nsol nodes) -> NoDup (names_of nodes) -> version_free (names_of nodes) -> earlier_only nodes ->
  make_LHS_versions nodes (create_solution_set nodes) = Some F -> executed nodes F rho -> incl A (names_of nodes) ->
  (forall n e x, In n nodes -> In e (n_sols n) -> has x e = true -> ~ In x (names_of nodes) -> rho x = theta x) ->
  (forall n e, In n nodes -> In e (n_sols n) -> free_of_turns A (n_name n) e) ->
  (forall n, In n nodes -> found A theta (n_name n) (n_sols n)) ->
  exists r, In r (create_solution_set nodes) /\ forall x, In x (names_of nodes) -> matches A x (through (names_of nodes) r rho x) (theta x).
Proof.
  intros H O T N Vf Eo HF X IA Agree Per Th.
  assert (Bx : forall c, exists b, forall n, nth_error nodes c = Some n -> b < n_nsol n /\ exists e, nth_error (n_sols n) b = Some e /\ matches A (n_name n) (theta (n_name n)) (eval theta e)).
  { intros c. destruct (nth_error nodes c) as [n|] eqn:En. 2:{ exists 0. intros n; discriminate. }
    assert (I := nth_error_In _ _ En). destruct (Th n I) as (e & He & Ev). apply In_nth_error in He as (b & Hb). exists b. intros m Em. injection Em as <-. split; eauto.
    apply nth_error_some_lt in Hb. destruct (proj1 H n I) as (_ & E & _). rewrite E. exact Hb. }
  assert (Bf : exists b : nat -> nat, forall c, c < List.length nodes -> forall n, nth_error nodes c = Some n -> b c < n_nsol n /\ exists e, nth_error (n_sols n) (b c) = Some e /\ matches A (n_name n) (theta (n_name n)) (eval theta e)).
  { clear - Bx. induction (List.length nodes) as [|m (b & IH)]. { exists (fun _ => 0). lia. } destruct (Bx m) as (y & Hy). exists (fun c => if c =? m then y else b c). intros c Hc.
    destruct (Nat.eqb_spec c m) as [->|]; auto. apply IH. lia. }
  destruct Bf as (b & Hb). destruct (combination nodes b H O T) as (r & Hr & Br).
  { intros c n Hn. apply (Hb c); auto. eapply nth_error_some_lt; eauto. }
  exists r. split; auto.
  assert (Main : forall c n, nth_error nodes c = Some n -> matches A (n_name n) (through (names_of nodes) r rho (n_name n)) (theta (n_name n))).
  { intros c. induction c as [c IH] using (well_founded_induction lt_wf). intros n Hn. assert (Lc := nth_error_some_lt _ _ _ Hn). assert (I := nth_error_In _ _ Hn).
    destruct (Hb c Lc n Hn) as (_ & e & He & Ce). assert (B := Br c Lc).
    rewrite (row_value nodes F rho r c n (b c) e H N Vf Eo HF X Hr Hn B He). assert (Ie := nth_error_In _ _ He).
    (* change the assignment where the expression does not look *)
    set (th' := fun x => if has x e then theta x else through (names_of nodes) r rho x).
    assert (E2 : eval theta e = eval th' e). { apply eval_ext. intros x Hx. unfold th'. rewrite Hx. auto. }
    assert (Tu : turned A (through (names_of nodes) r rho) th').
    { intros x. unfold th'. destruct (has x e) eqn:Hx; [|split; auto; intros; apply cong_refl]. destruct (in_dec string_dec x (names_of nodes)) as [Ix|Ix].
      - unfold names_of in Ix. apply in_map_iff in Ix as (m & <- & Hm). apply In_nth_error in Hm as (i & Hi). apply (IH i); auto. apply (Eo c n e i m); auto.
      - split; [intros Y; exfalso; apply Ix, IA; auto|]. intros _. rewrite through_out by auto. apply (Agree n e x); auto. }
    destruct (Per n e I Ie) as (P1 & P2). destruct Ce as (C1 & C2). split; intros Hx.
    - apply (cong_trans _ (eval th' e)). apply (P1 Hx); auto. rewrite <- E2. apply cong_sym. auto.
    - rewrite (P2 Hx _ _ Tu), <- E2. symmetry. auto. }
  intros x I. unfold names_of in I. apply in_map_iff in I as (m & <- & Hm). apply In_nth_error in Hm as (i & Hi). eauto.
Qed.

(** * Any history of the solver *)
Lemma runs1_app sy s1 a s2 b s3 : runs1 sy s1 a s2 -> runs1 sy s2 b s3 -> runs1 sy s1 (a ++ b) s3.
Proof. induction 1; intros R; cbn [app]; auto. econstructor; eauto. Qed.
Lemma runs1_syms sy s0 ts s : hinv s0 -> runs1 sy s0 ts s -> s_unks s = s_unks s0 /\ forall i, u_sym (un s i) = u_sym (un s0 i).
Proof.
  intros Hv R. induction R; auto. assert (St := task_step sy t s b s1 (hinv_curr s Hv) H0). destruct (step_syms t s s1 St) as (A & B). assert (Hv1 := step_hinv t s s1 Hv St).
  destruct (IHR Hv1) as (C & D). split; [congruence|]. intros i. rewrite D. auto.
Qed.
(** the unknown was solved by the algebra solver *)
Definition by_algebra (sy : sympy) (s0 s : state) (i : nat) : Prop :=
  exists ts1 s1 ts2, runs1 sy s0 ts1 s1 /\ s_curr s1 = Some i /\ runs1 sy s1 ((TAlg, true) :: ts2) s.
(** its recorded solution is then the exact value, not only up to full turns *)
Theorem C66_algebra_exact sy s0 s rho i : sympy_ok sy -> initial sy s0 -> sat rho s0 -> soa_ok rho -> by_algebra sy s0 s i ->
  all_defd rho (solutions (un s i)) -> exists e, In e (solutions (un s i)) /\ rho (u_sym (un s i)) = eval rho e.
Proof.
  intros OK I Sa So (ts1 & s1 & ts2 & R1 & Hc & R2). inversion R2 as [|? ? ? s2 ? ? Nr Run R3]; subst. clear R2.
  assert (Hv1 := proj1 (hinv1_runs sy s0 ts1 s1 (hinv1_initial sy s0 I) R1)).
  assert (Cur : current s1 i) by (split; [auto|apply hinv_curr; auto]).
  destruct (C30_algebra_exact sy OK s1 s2 i Cur Run) as (e & sol & He & Es & Sv & _ & Ex).
  assert (Fz : un s i = un s2 i). { apply (C24_frozen sy s0 (ts1 ++ [(TAlg, true)]) s2 ts2); auto. eapply runs1_app; eauto. econstructor; eauto. constructor. }
  assert (Sy : u_sym (un s2 i) = u_sym (un s1 i)). { apply (step_syms TAlg s1 s2). apply (task_step sy TAlg s1 true s2); auto. apply hinv_curr; auto. }
  rewrite Fz. intros D. exists sol. assert (Is : In sol (solutions (un s2 i))). { unfold un. rewrite Es. apply in_or_app. right; left; auto. }
  split; auto. rewrite Sy. assert (Inv := inv_runs sy OK rho So s0 ts1 s1 (inv_initial sy rho s0 I Sa) (runs1_runs _ _ _ _ R1)).
  destruct Inv as (_ & L1 & _). destruct (L1 e He) as (D1 & D2 & Ho). apply (Ex rho); auto.
Qed.
Lemma order_index (f : nat -> nat) l : map f l = seq 1 (List.length l) -> forall c i, nth_error l c = Some i -> f i = S c.
Proof.
  intros E c i H. assert (X : nth_error (map f l) c = Some (f i)) by (rewrite nth_error_map, H; auto). rewrite E, seq_nth_err in X.
  destruct (c <? List.length l); [injection X; lia|discriminate].
Qed.
Lemma nodup_nth {A} (l : list A) i j x : NoDup l -> nth_error l i = Some x -> nth_error l j = Some x -> i = j.
Proof. intros N H1 H2. apply (proj1 (NoDup_nth_error l) N). apply nth_error_Some. congruence. congruence. Qed.
Lemma nodes_earlier sy s0 ts s arg : initial sy s0 -> runs1 sy s0 ts s -> NoDup (map (fun j => u_sym (un s j)) (s_unks s)) -> (forall i, In i (s_nodes s) -> ~ mentions s i i) -> earlier_only (final_nodes arg s).
Proof.
  intros I R Nd Ns c n e c' n' Hc He Hc' Hh. destruct (C23_solved_once_in_order sy s0 ts s I R) as (_ & N2 & _ & N4 & N5).
  unfold final_nodes in Hc, Hc'. rewrite nth_error_map in Hc, Hc'. destruct (nth_error (s_nodes s) c) as [i|] eqn:Ei; [|discriminate]. destruct (nth_error (s_nodes s) c') as [j|] eqn:Ej; [|discriminate].
  injection Hc as <-. injection Hc' as <-. assert (Ii := nth_error_In _ _ Ei). assert (Ij := nth_error_In _ _ Ej).
  assert (M : mentions s i j) by (exists e; split; auto). destruct (N5 i j Ii (proj1 (proj1 (N2 j) Ij)) M) as [->|(_ & Lt)]. { exfalso. apply (Ns i); auto. }
  rewrite (order_index _ _ N4 c i Ei), (order_index _ _ N4 c' j Ej) in Lt. lia.
Qed.

(** two assignments agree on the inputs (the symbols in the recorded solutions that are not unknowns) *)
Definition same_inputs (s : state) (l : list nat) (out rho : env) : Prop :=
  forall j e x, In j l -> In e (solutions (un s j)) -> has x e = true -> ~ In x (map (fun j => u_sym (un s j)) l) -> out x = rho x.
(** Start the solver on equations that an assignment rho satisfies (C51: every joint vector, with the pose it reaches), and let it do
    anything.  If the solutions are defined at rho and every solved unknown has the same number of them, then make_LHS_versions does not raise, and
    however its equations are executed on the same inputs, a row of the table is rho's vector of the solved unknowns: lengths (solved by
    algebra) exactly, angles up to full turns - provided the recorded solutions do not feel full turns of the angles. *)
Theorem C66_history sy s0 ts s rho A arg i l : sympy_ok sy -> initial sy s0 -> sat rho s0 -> soa_ok rho -> runs1 sy s0 ts s -> s_nodes s = i :: l ->
  NoDup (map (fun j => u_sym (un s j)) (s_unks s)) -> version_free (map (fun j => u_sym (un s j)) (s_nodes s)) ->
  numbers_fit (map (fun j => u_nsol (un s j)) (s_nodes s)) ->
  (forall j, In j (s_nodes s) -> ~ mentions s j j /\ all_defd rho (solutions (un s j))
     /\ (~ In (u_sym (un s j)) A -> by_algebra sy s0 s j) /\ forall e, In e (solutions (un s j)) -> free_of_turns A (u_sym (un s j)) e) ->
  incl A (map (fun j => u_sym (un s j)) (s_nodes s)) ->
  let nodes := final_nodes arg s in let table := create_solution_set nodes in
  exists F, make_LHS_versions nodes table = Some F /\
  forall out, executed nodes F out -> same_inputs s (s_nodes s) out rho ->
  exists r, In r table /\ forall j, In j (s_nodes s) -> matches A (u_sym (un s j)) (through (names_of nodes) r out (u_sym (un s j))) (rho (u_sym (un s j))).
Proof.
  intros OK I Sa So R En Nd Vf Nf H IA nodes table.
  destruct (C42_reachable sy s0 ts s arg i l I R En) as (Ho & One & _ & Nn). { apply H. rewrite En. left; auto. } fold nodes in Ho, One, Nn. specialize (Nn Nd).
  assert (Names : names_of nodes = map (fun j => u_sym (un s j)) (s_nodes s)). { unfold names_of, nodes, final_nodes. rewrite map_map. apply map_ext. reflexivity. }
  assert (In_node : forall n, In n nodes -> exists j, In j (s_nodes s) /\ n = node_of arg s j). { intros n Hn. unfold nodes, final_nodes in Hn. apply in_map_iff in Hn as (j & <- & Hj). eauto. }
  assert (Fit : numbers_fit (map n_nsol nodes)). { unfold nodes, final_nodes. rewrite map_map. exact Nf. }
  destruct (make_LHS_versions nodes table) as [F|] eqn:EF. 2:{ exfalso. apply (proj2 (C66_numbers nodes Ho One) Fit). exact EF. }
  exists F. split; auto. intros out X Ag.
  destruct (C66_table A nodes F out rho) as (r & Hr & M); auto.
  - rewrite Names. auto.
  - apply (nodes_earlier sy s0 ts s); auto. intros j Hj. apply (H j Hj).
  - rewrite Names. auto.
  - intros n e x Hn He Hh Hx. rewrite Names in Hx. destruct (In_node n Hn) as (j & Hj & ->). apply (Ag j e x); auto.
  - intros n e Hn He. destruct (In_node n Hn) as (j & Hj & ->). apply (H j Hj); auto.
  - intros n Hn. destruct (In_node n Hn) as (j & Hj & ->). destruct (H j Hj) as (_ & D & By & _). destruct (C23_solved_once_in_order sy s0 ts s I R) as (_ & N2 & _).
    change (n_name (node_of arg s j)) with (u_sym (un s j)). change (n_sols (node_of arg s j)) with (solutions (un s j)). assert (Sv : u_solved (un s j) = true) by (apply N2; auto).
    destruct (in_dec string_dec (u_sym (un s j)) A) as [Y|Y].
    + destruct (C50_no_solution_lost sy s0 ts s rho j OK I Sa So (runs1_runs _ _ _ _ R) Sv D) as (e & He & C). exists e. split; auto. split; auto. intros N; contradiction.
    + destruct (C66_algebra_exact sy s0 s rho j OK I Sa So (By Y) D) as (e & He & E). exists e. split; auto. split; auto. intros N; contradiction.
  - exists r. split; auto. intros j Hj. apply M. rewrite Names. apply (in_map (fun j => u_sym (un s j))). auto.
Qed.

(** * From the DH table to the rows *)
(** the unknowns the tree is started with: the joints, and sums of joints *)
Lemma prepared_unknowns sy nice vars rows s0 : sympy_ok sy -> var_names vars -> prepared sy nice vars rows = Some s0 ->
  forall x, In x vars -> exists j, In j (s_unks s0) /\ u_sym (un s0 j) = x.
Proof.
  intros OK [V9 VN] Pr x Hx. unfold prepared in Pr. destruct (robot_state nice vars rows) as [s1|] eqn:E1; [|discriminate].
  destruct (sum_of_angles_transform sy s1) as [s2|] eqn:E2; [|discriminate].
  destruct (scan_for_equations sy (s_meqs s2) (s_aux s2) (unk_objs s2)) as [[[l1 l2] l3]|] eqn:E3; [|discriminate]. injection Pr as <-.
  destruct (robot_state_spec _ _ _ _ E1) as (T01 & T12 & T23 & T34 & T45 & T56 & EL & Es1).
  assert (Ob : unk_objs s1 = numbered vars) by (apply objs_numbered; rewrite Es1; reflexivity).
  assert (J : joints s1).
  { split. rewrite Es1. cbn. intros i Hi. apply in_seq in Hi. rewrite numbered_len. lia.
    rewrite Ob. intros v Hv. apply in_numbered in Hv as (i & y & Hi & ->). cbn. assert (i < List.length vars) by (apply nth_error_Some; congruence). lia. }
  destruct (C28_registered sy s1 s2 OK J E2) as (H & U & A2 & EH & EU & _). cbn [set_lists set_s_L1 set_s_L2 set_s_L3 s_unks s_heap]. rewrite EU. unfold un. cbn [set_lists set_s_L1 set_s_L2 set_s_L3 s_unks s_heap]. rewrite EH.
  assert (X : In x (map u_sym (unk_objs s1))).
  { rewrite Ob. unfold numbered. rewrite map_map. apply In_nth_error in Hx as (i & Hi). apply in_map_iff. exists (i, x). split; [reflexivity|]. clear -Hi. rewrite <- (Nat.add_0_l i). revert i Hi. generalize 0.
    induction vars as [|a l IH]; intros k [|i] Hi; try discriminate; cbn in *. injection Hi as ->. left. f_equal. lia. right. replace (k + S i) with (S k + i) by lia. apply IH; auto. }
  unfold unk_objs in X. rewrite map_map in X. apply in_map_iff in X as (j & E & Hj). exists j. split; [apply in_or_app; auto|].
  rewrite <- E. unfold getu. rewrite app_nth1; auto. apply (proj1 J j Hj).
Qed.
(** For every DH table, every joint vector and every sympy: if the preparation goes through and the tree reports success, with the
    conditions above on what it recorded, then the equations are produced, and however they are executed on the pose the joint vector
    reaches, some row is this joint vector. *)
Theorem C66_pipeline sy nice vars rows s0 s rho A arg :
  sympy_ok sy -> var_names vars -> (forall r, In r rows -> row_names vars r /\ row_defd rho r) -> consts_ok nice rho rows -> Meq 4 (mev rho ik_lhs) (FK rho rows) ->
  prepared sy nice vars rows = Some s0 -> ik_solve sy s0 = OK true s -> vars <> [] ->
  NoDup (s_nodes s) ->
  NoDup (map (fun j => u_sym (un s j)) (s_unks s)) -> version_free (map (fun j => u_sym (un s j)) (s_unks s)) ->
  numbers_fit (map (fun j => u_nsol (un s j)) (s_nodes s)) ->
  (forall j, In j (s_unks s) -> ~ mentions s j j /\ (~ In (u_sym (un s j)) A -> by_algebra sy s0 s j)
     /\ forall e, In e (solutions (un s j)) -> free_of_turns A (u_sym (un s j)) e) ->
  incl A (map (fun j => u_sym (un s j)) (s_unks s)) ->
  exists rho', (forall x, In x vars \/ strip_th x = None -> rho' x = rho x) /\
  ((forall j, In j (s_unks s) -> all_defd rho' (solutions (un s j))) ->
  let nodes := final_nodes arg s in let table := create_solution_set nodes in
  exists F, make_LHS_versions nodes table = Some F /\
  forall out, executed nodes F out -> same_inputs s (s_unks s) out rho' ->
  exists r, In r table /\ forall x, In x vars -> matches A x (through (names_of nodes) r out x) (rho x)).
Proof.
  intros OK V HR HC HP Pr Run Nv Tb Nd Vf Nf H IA. destruct (prepared_sat sy nice vars rows s0 rho OK V HR HC HP Pr) as (I & rho' & NS & Ag & Sa & So).
  exists rho'. split; auto. intros D nodes table. destruct (proj2 (C23_once_iff sy s0 true s I Run) Tb) as (ts & R).
  assert (All := C50_success_solves_all sy s0 s Run). destruct (C23_solved_once_in_order sy s0 ts s I R) as (_ & N2 & _).
  assert (Same : forall j, In j (s_nodes s) <-> In j (s_unks s)). { intros j. split; intros Hj. apply N2; auto. apply N2. auto. }
  destruct (runs1_syms sy s0 ts s (hinv_initial sy s0 I) R) as (Su & Sy).
  assert (Vars : forall x, In x vars -> exists j, In j (s_nodes s) /\ u_sym (un s j) = x).
  { intros x Hx. destruct (prepared_unknowns sy nice vars rows s0 OK V Pr x Hx) as (j & Hj & E). exists j. split. apply Same. rewrite Su. auto. rewrite Sy. auto. }
  destruct (s_nodes s) as [|i l] eqn:En. { exfalso. destruct vars as [|x vs]; [congruence|]. destruct (Vars x (or_introl eq_refl)) as (j & [] & _). }
  rewrite <- En in N2, Same, Vars. rewrite <- En in Nf.
  assert (Nm : forall x, In x (map (fun j => u_sym (un s j)) (s_nodes s)) <-> In x (map (fun j => u_sym (un s j)) (s_unks s))).
  { intros x. rewrite !in_map_iff. split; intros (j & E & Hj); exists j; split; auto; apply Same; auto. }
  destruct (C66_history sy s0 ts s rho' A arg i l OK I Sa So R En Nd) as (F & EF & Rows).
  - intros a b m Ha Hb. apply (Vf a b m); apply Nm; auto.
  - exact Nf.
  - intros j Hj. apply Same in Hj. destruct (H j Hj) as (M1 & M3 & M4). split; [exact M1|]. split; [apply D; exact Hj|]. split; [exact M3|exact M4].
  - intros x Hx. apply Nm. auto.
  - exists F. split; [exact EF|]. intros out X Agr. destruct (Rows out X) as (r & Hr & M). { intros j e x Hj He Hh Hx. apply (Agr j e x); auto. apply Same; auto. intros Y. apply Hx, Nm; auto. }
    exists r. split; auto. intros x Hx. destruct (Vars x Hx) as (j & Hj & E). assert (Mj := M j Hj). rewrite E in Mj. fold nodes in Mj. rewrite (Ag x) in Mj by auto. exact Mj.
Qed.
Print Assumptions C66_numbers.
Print Assumptions C66_table.
Print Assumptions C66_algebra_exact.
Print Assumptions C66_history.
Print Assumptions C66_pipeline.
