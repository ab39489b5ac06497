(** C47: what the kinematics cache serves. *)
From Coq Require Import Reals ZArith List String Bool Arith Lia.
From Verif Require Import Expr Kin Cache.
Import ListNotations.
Local Open Scope list_scope.
Local Open Scope nat_scope.

Section C47.
Context {V U K : Type}.
Variable nice : expr -> bool.
Variable fk : list (dhrow expr) -> V -> U -> option (K * U).
Local Notation request := (@request V U). Local Notation event := (@event V U). Local Notation file := (@file V U K).
Local Notation compute := (compute nice fk). Local Notation run := (run nice fk). Local Notation after := (after nice fk).
(** * Specification *)
(** what a run that computes everything works with *)
Definition from_scratch (q : request) : option view := match compute q with None => None | Some (m, u) => Some (View m u (q_name q) (m_params m)) end.
Definition never_removed (n : string) (es : list event) : Prop := ~ In (Remove n) es.
(** the DH table has an alpha whose sine or cosine is not 0 *)
Definition odd_alpha (q : request) : Prop := alpha_params nice 0 (q_dh q) <> [].

(** * Facts *)
Lemma row_eqb_eq a b : row_eqb a b = true <-> a = b.
Proof. unfold row_eqb. rewrite !andb_true_iff, !expr_eqb_eq. destruct a, b; cbn. split. intros (((-> & ->) & ->) & ->); auto. intros E; injection E; auto. Qed.
Lemma same_dh_eq a : forall b, same_dh a b = true <-> a = b.
Proof.
  induction a as [|x a IH]; intros [|y b]; try (split; [discriminate|congruence]). split; auto.
  unfold same_dh in *. cbn [List.length combine forallb fst snd Nat.eqb]. specialize (IH b). rewrite !andb_true_iff in *. rewrite row_eqb_eq. split. intros (A & -> & C). f_equal. apply IH; auto. intros E; injection E as -> ->. destruct IH as [_ IH]. destruct (IH eq_refl). auto.
Qed.
Lemma after_snoc es e : after (es ++ [e]) = step nice fk (after es) e. Proof. unfold Cache.after. rewrite fold_left_app. auto. Qed.
Lemma write_same n (f : file) s : write n f s n = f. Proof. unfold write. rewrite String.eqb_refl. auto. Qed.
Lemma write_other n n' (f : file) s : n <> n' -> write n f s n' = s n'. Proof. unfold write. destruct (String.eqb_spec n n'); congruence. Qed.
Lemma run_other s c q k n : q_name q <> n -> fst (run s c q k) n = s n.
Proof. intros N. unfold Cache.run. destruct (s (q_name q)) eqn:E; auto. destruct k; auto; destruct (compute q) as [[m u]|]; auto; cbn [fst]; apply write_other; auto. Qed.
Lemma run_kept s c q k n : s n <> Absent -> fst (run s c q k) n = s n.
Proof.
  intros H. destruct (string_dec (q_name q) n) as [<-|N]; [|apply run_other; auto]. unfold Cache.run. destruct (s (q_name q)) eqn:E; auto. congruence.
Qed.
(** a file stays as it is until it is removed *)
Lemma kept n es2 : forall es1, never_removed n es2 -> after es1 n <> Absent -> after (es1 ++ es2) n = after es1 n.
Proof.
  induction es2 as [|e es2 IH]; intros es1 R H. rewrite app_nil_r. auto. assert (X : after (es1 ++ [e]) n = after es1 n).
  { rewrite after_snoc. destruct e as [c q k|n']; cbn [step]. apply run_kept; auto. apply write_other. intros ->. apply R. left; auto. }
  replace (es1 ++ e :: es2) with ((es1 ++ [e]) ++ es2) by (rewrite <- app_assoc; auto). rewrite IH, X; auto. intros Y. apply R. right; auto. congruence.
Qed.
(** where a file comes from *)
Lemma origin es : forall n, match after es n with
  | Absent => True
  | Partial => exists es1 c q es2, es = es1 ++ Run c q DuringDump :: es2 /\ q_name q = n /\ never_removed n es2
  | Full m u => exists es1 c q k es2, es = es1 ++ Run c q k :: es2 /\ q_name q = n /\ never_removed n es2 /\ after es1 n = Absent /\ (k = Never \/ k = AfterDump) /\ compute q = Some (m, u)
  end.
Proof.
  induction es as [|e es IH] using rev_ind; intros n. cbn. auto. specialize (IH n). rewrite after_snoc.
  assert (Keep : forall n', n' <> n \/ match e with Run _ _ _ => True | Remove _ => False end -> match e with Run _ _ _ => True | Remove r => r = n' end ->
    match after es n with
  | Absent => True
  | Partial => exists es1 c q es2, es ++ [e] = es1 ++ Run c q DuringDump :: es2 /\ q_name q = n /\ never_removed n es2
  | Full m u => exists es1 c q k es2, es ++ [e] = es1 ++ Run c q k :: es2 /\ q_name q = n /\ never_removed n es2 /\ after es1 n = Absent /\ (k = Never \/ k = AfterDump) /\ compute q = Some (m, u)
  end).
  { intros n' D D2. assert (Nr : forall es2, never_removed n es2 -> never_removed n (es2 ++ [e])). { intros es2 R X. apply in_app_iff in X as [X|[->|[]]]; [auto|]. destruct D as [D|[]]. congruence. }
    destruct (after es n); auto. destruct IH as (es1 & c & q & es2 & -> & A & B). exists es1, c, q, (es2 ++ [e]). rewrite <- app_assoc. cbn [app]. auto.
    destruct IH as (es1 & c & q & k & es2 & -> & A & B & C). exists es1, c, q, k, (es2 ++ [e]). rewrite <- app_assoc. cbn [app]. auto. }
  destruct e as [c q k|r]; cbn [step].
  - specialize (Keep (append n "x")). destruct (string_dec (q_name q) n) as [E|N].
    + destruct (after es n) eqn:A.
      * unfold Cache.run. rewrite E, A. assert (Em : never_removed n []) by (intros []). destruct k; cbn [fst]; rewrite ?A; auto; destruct (compute q) as [[m u]|] eqn:C; cbn [fst]; rewrite ?A; auto; rewrite write_same; eexists es, c, q, _; try (exists []; split; [reflexivity|]); auto 10.
      * rewrite run_kept by congruence. rewrite A. apply Keep; auto.
      * rewrite run_kept by congruence. rewrite A. apply Keep; auto.
    + rewrite run_other by auto. apply Keep; auto.
  - destruct (string_dec r n) as [->|N]. rewrite write_same. auto. rewrite write_other by auto. apply (Keep r); auto.
Qed.

(** * C47 *)
(** Every result served was computed: by this run, or by an earlier run for the same name, whose file was not removed since, and (if the
    program checks) from the same DH table. *)
Theorem C47_served es check q v hit : snd (run (after es) check q Never) = Served v hit ->
  (hit = false /\ from_scratch q = Some v)
  \/ (hit = true /\ exists es1 c q0 k es2, es = es1 ++ Run c q0 k :: es2 /\ never_removed (q_name q) es2 /\ q_name q0 = q_name q /\ (check = true -> q_dh q0 = q_dh q)
      /\ compute q0 = Some (v_mech v, v_unks v) /\ v_name v = q_name q /\ v_params v = q_params q).
Proof.
  intros H. assert (O := origin es (q_name q)). unfold Cache.run in H. destruct (after es (q_name q)) as [| |m u] eqn:A; cbn [snd] in H.
  - left. unfold from_scratch. destruct (compute q) as [[m u]|] eqn:C; [|discriminate]. cbn [snd] in H. injection H as <- <-. auto.
  - discriminate.
  - right. destruct (negb check || same_dh (m_dh m) (q_dh q)) eqn:B; [|discriminate]. injection H as <- <-. split; auto. destruct O as (es1 & c & q0 & k & es2 & E & N & R & _ & _ & C). exists es1, c, q0, k, es2. split; auto. split; auto. split; auto. split; [|auto].
    intros ->. cbn [negb orb] in B. apply same_dh_eq in B. unfold Cache.compute in C. destruct (fk _ _ _) as [[kk uu]|]; [|discriminate]. injection C as <- _. exact B.
Qed.
(** A checking run gets the kinematics it would have computed, if the joint variables and unknowns of the run that filled the cache were the same. *)
Theorem C47_correct es q v hit : snd (run (after es) true q Never) = Served v hit ->
  (forall c q0 k, In (Run c q0 k) es -> q_name q0 = q_name q -> q_dh q0 = q_dh q -> q_vv q0 = q_vv q /\ q_unks q0 = q_unks q) ->
  exists m u, compute q = Some (m, u) /\ m_dh (v_mech v) = m_dh m /\ m_kin (v_mech v) = m_kin m /\ v_unks v = u.
Proof.
  intros H Same. apply C47_served in H as [[_ F]|(_ & es1 & c & q0 & k & es2 & E & R & N & D & C & Vn & Vp)].
  - unfold from_scratch in F. destruct (compute q) as [[m u]|]; [|discriminate]. injection F as <-. exists m, u. auto.
  - specialize (D eq_refl). destruct (Same c q0 k) as [S1 S2]; auto. { rewrite E. apply in_or_app. right; left; auto. }
    unfold Cache.compute in *. rewrite D, S1, S2 in C. destruct (fk (q_dh q) (q_vv q) (q_unks q)) as [[kk uu]|]; [|discriminate]. injection C as C1 C2. eexists _, _. split; [reflexivity|]. rewrite <- C1, <- C2. auto.
Qed.
(** If the whole definition was the same and every alpha is a multiple of a right angle, it gets exactly what it would have computed. *)
Theorem C47_exact es q v hit : snd (run (after es) true q Never) = Served v hit -> ~ odd_alpha q ->
  (forall c q0 k, In (Run c q0 k) es -> q_name q0 = q_name q -> q_dh q0 = q_dh q -> q0 = q) -> from_scratch q = Some v.
Proof.
  intros H Odd Same. apply C47_served in H as [[_ F]|(_ & es1 & c & q0 & k & es2 & E & R & N & D & C & Vn & Vp)]; auto.
  assert (q0 = q). { eapply Same; auto. rewrite E. apply in_or_app. right; left; reflexivity. } subst q0. unfold from_scratch. rewrite C. f_equal. destruct v as [vm vu vn vp]. cbn in *. subst. f_equal.
  unfold Cache.compute in C. destruct (fk _ _ _) as [[kk uu]|]; [|discriminate]. injection C as <- _. cbn [m_params]. unfold odd_alpha in Odd. destruct (alpha_params nice 0 (q_dh q)); [apply app_nil_r|]. exfalso. apply Odd. discriminate.
Qed.
(** A run whose DH table differs from that of the cached result is rejected, and the file stays. *)
Theorem C47_rejected es1 c q0 k es2 q v0 : snd (run (after es1) c q0 Never) = Served v0 false -> (k = Never \/ k = AfterDump) -> never_removed (q_name q) es2 ->
  q_name q0 = q_name q -> q_dh q0 <> q_dh q -> run (after (es1 ++ Run c q0 k :: es2)) true q Never = (after (es1 ++ Run c q0 k :: es2), Rejected).
Proof.
  intros H Hk R N D. assert (X : exists m u, after (es1 ++ [Run c q0 k]) (q_name q) = Full m u /\ m_dh m = q_dh q0).
  { rewrite after_snoc. cbn [step]. unfold Cache.run in *. destruct (after es1 (q_name q0)) as [| |m u] eqn:A; cbn [snd] in H; [|discriminate|destruct (negb c || same_dh (m_dh m) (q_dh q0)); discriminate].
    destruct (compute q0) as [[m u]|] eqn:C; [|discriminate]. unfold Cache.compute in C. destruct (fk _ _ _) as [[kk uu]|]; [|discriminate]. injection C as <- <-. destruct Hk as [-> | ->]; cbn [fst]; rewrite <- N, write_same; eexists _, _; (split; [reflexivity|reflexivity]). }
  destruct X as (m & u & X & Dm). assert (Y : after (es1 ++ Run c q0 k :: es2) (q_name q) = Full m u). { replace (es1 ++ Run c q0 k :: es2) with ((es1 ++ [Run c q0 k]) ++ es2) by (rewrite <- app_assoc; auto). rewrite kept; auto. congruence. }
  unfold Cache.run. rewrite Y. cbn [negb orb]. destruct (same_dh (m_dh m) (q_dh q)) eqn:B; auto. apply same_dh_eq in B. congruence.
Qed.
(** A run that was served stays served: every later run of the same definition, until the file is removed, is served the same mechanism and unknowns from the cache. *)
Theorem C47_repeat es1 c q v hit es2 c' : snd (run (after es1) c q Never) = Served v hit -> c' = false \/ m_dh (v_mech v) = q_dh q -> never_removed (q_name q) es2 ->
  snd (run (after (es1 ++ Run c q Never :: es2)) c' q Never) = Served (View (v_mech v) (v_unks v) (q_name q) (q_params q)) true.
Proof.
  intros H Hc R. assert (X : after (es1 ++ [Run c q Never]) (q_name q) = Full (v_mech v) (v_unks v)).
  { rewrite after_snoc. cbn [step]. unfold Cache.run in *. destruct (after es1 (q_name q)) as [| |m u] eqn:A; cbn [snd fst] in *. destruct (compute q) as [[m u]|]; [|discriminate]. injection H as <- <-. apply write_same. discriminate. destruct (_ || _); [|discriminate]. injection H as <- <-. auto. }
  assert (Y : after (es1 ++ Run c q Never :: es2) (q_name q) = Full (v_mech v) (v_unks v)). { replace (es1 ++ Run c q Never :: es2) with ((es1 ++ [Run c q Never]) ++ es2) by (rewrite <- app_assoc; auto). rewrite kept; auto. congruence. }
  unfold Cache.run. rewrite Y. cbn [snd]. replace (negb c' || same_dh (m_dh (v_mech v)) (q_dh q)) with true; auto. symmetry. apply orb_true_iff. destruct Hc as [-> |Hc]; auto. right. apply same_dh_eq. auto.
Qed.
(** A process killed while it writes the file makes every later run of that robot raise, until the file is removed by hand. *)
Theorem C47_killed_blocks es1 c q0 es2 check q : after es1 (q_name q0) = Absent -> compute q0 <> None -> q_name q0 = q_name q -> never_removed (q_name q) es2 ->
  snd (run (after (es1 ++ Run c q0 DuringDump :: es2)) check q Never) = LoadError.
Proof.
  intros A C N R. assert (X : after (es1 ++ [Run c q0 DuringDump]) (q_name q) = Partial). { rewrite after_snoc. cbn [step]. unfold Cache.run. rewrite A. destruct (compute q0) as [[m u]|]; [|congruence]. cbn [fst]. rewrite <- N. apply write_same. }
  assert (Y : after (es1 ++ Run c q0 DuringDump :: es2) (q_name q) = Partial). { replace (es1 ++ Run c q0 DuringDump :: es2) with ((es1 ++ [Run c q0 DuringDump]) ++ es2) by (rewrite <- app_assoc; auto). rewrite kept; auto. congruence. }
  unfold Cache.run. rewrite Y. auto.
Qed.
(** What goes wrong, for every robot: (1) a second run with other parameter values, joint variables or unknowns gets those of the first; *)
Theorem C47_stale_refuted q q' v c : snd (run (after []) c q Never) = Served v false -> q_name q' = q_name q -> q_dh q' = q_dh q ->
  exists v', snd (run (after [Run c q Never]) true q' Never) = Served v' true /\ m_pvals (v_mech v') = q_pvals q ++ alpha_params nice 0 (q_dh q) /\ m_vv (v_mech v') = q_vv q /\ v_unks v' = v_unks v.
Proof.
  intros H N D. unfold Cache.run in H. cbn [Cache.after fold_left] in H. destruct (compute q) as [[m u]|] eqn:C; [|discriminate]. injection H as <-. unfold Cache.after. cbn [fold_left step]. unfold Cache.run at 2. rewrite C. cbn [fst]. unfold Cache.run. rewrite N, write_same. cbn [snd negb orb].
  unfold Cache.compute in C. destruct (fk _ _ _) as [[kk uu]|]; [|discriminate]. injection C as <- <-. cbn [m_dh]. replace (same_dh (q_dh q) (q_dh q')) with true by (symmetry; apply same_dh_eq; auto). eexists. split. reflexivity. auto.
Qed.
(** (2) running the same definition twice gives different parameter lists when an alpha is odd: the parameters ca_i, sa_i used by the equations are lost on the second run. *)
Theorem C47_parameters_lost_refuted q v c : snd (run (after []) c q Never) = Served v false -> odd_alpha q ->
  exists v', snd (run (after [Run c q Never]) true q Never) = Served v' true /\ v_params v = v_params v' ++ map fst (alpha_params nice 0 (q_dh q)) /\ v_params v' <> v_params v /\ from_scratch q = Some v.
Proof.
  intros H Odd. assert (Dv : m_dh (v_mech v) = q_dh q /\ v_params v = q_params q ++ map fst (alpha_params nice 0 (q_dh q)) /\ from_scratch q = Some v).
  { unfold from_scratch. unfold Cache.run in H. cbn [Cache.after fold_left] in H. destruct (compute q) as [[m u]|] eqn:C; [|discriminate]. injection H as <-. unfold Cache.compute in C. destruct (fk _ _ _) as [[kk uu]|]; [|discriminate]. injection C as <- <-. auto. }
  destruct Dv as (D1 & D2 & D3). assert (X := C47_repeat [] c q v false [] true H (or_intror D1) (fun X => X)). cbn [app] in X. eexists. split. exact X. cbn [v_params]. split; auto. split; auto. rewrite D2. intros E. apply Odd. assert (L := f_equal (@List.length _) E). rewrite app_length, map_length in L. destruct (alpha_params nice 0 (q_dh q)); auto. cbn in L. lia.
Qed.
(** (3) a program that does not check is served the kinematics of another DH table. *)
Theorem C47_unchecked_refuted q q' v c : snd (run (after []) c q Never) = Served v false -> q_name q' = q_name q ->
  exists v', snd (run (after [Run c q Never]) false q' Never) = Served v' true /\ m_dh (v_mech v') = q_dh q /\ m_kin (v_mech v') = m_kin (v_mech v).
Proof.
  intros H N. unfold Cache.run in H. cbn [Cache.after fold_left] in H. destruct (compute q) as [[m u]|] eqn:C; [|discriminate]. injection H as <-. unfold Cache.after. cbn [fold_left step]. unfold Cache.run at 2. rewrite C. cbn [fst]. unfold Cache.run. rewrite N, write_same. cbn [snd negb orb].
  unfold Cache.compute in C. destruct (fk _ _ _) as [[kk uu]|]; [|discriminate]. injection C as <- <-. eexists. split. reflexivity. auto.
Qed.
End C47.

(** A robot with an alpha of 75 degrees: both runs are served, the second without ca1, sa1. *)
Local Open Scope string_scope.
Definition nice47 (e : expr) : bool := expr_eqb e (Num 0) || expr_eqb e (Div PiE (Num 2)).
Definition dh47 : list (dhrow expr) := [DH (Num 0) (Num 0) (Num 0) (Sym "th_1"); DH (Div (Mul (Num 5) PiE) (Num 12)) (Num 0) (Num 0) (Sym "th_2"); DH (Div PiE (Num 2)) (Sym "a_3") (Sym "d_3") (Num 0)].
Definition fk47 (dh : list (dhrow expr)) (vv us : list string) : option (nat * list string) := Some (List.length dh, us).
Definition req47 : request := Req "Raven" dh47 ["a_3"] [("a_3", Num 2)] [1%nat] ["th_1"; "th_2"; "d_3"].
Example C47_example : let fk := fun dh (vv : list nat) us => fk47 dh [] us in
  (exists v, snd (run nice47 fk (after nice47 fk []) true req47 Never) = Served v false /\ v_params v = ["a_3"; "ca1"; "sa1"])
  /\ (exists v, snd (run nice47 fk (after nice47 fk [Run true req47 Never]) true req47 Never) = Served v true /\ v_params v = ["a_3"])
  /\ odd_alpha nice47 req47
  /\ snd (run nice47 fk (after nice47 fk [Run true req47 DuringDump]) true req47 Never) = LoadError
  /\ (exists v, snd (run nice47 fk (after nice47 fk [Run true req47 DuringDump; Remove "Raven"]) true req47 Never) = Served v false).
Proof. cbv zeta. split. { eexists. split; vm_compute; reflexivity. } split. { eexists. split; vm_compute; reflexivity. } split. { vm_compute. discriminate. } split. { vm_compute. reflexivity. } eexists. vm_compute. reflexivity. Qed.
