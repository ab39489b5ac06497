(** C69: the rows of the solution table satisfy the equations their unknowns were solved from - but not always the whole
    equation system. *)
From Coq Require Import Reals ZArith List String Bool Arith Lia Lra.
From Verif Require Import Expr Kin KinSpec Trig Solver SolverSpec SolverFacts SolverInv Sympy0 PropLists PropSolvers PropSolversEx SolverHist HistFacts PropHist PropHistEx PropCrash PropCrashEx
  SolSet SolSetFacts PropSolSet SolSetEx PropRows PropRowsEx PropExplain PropExplainEx.
Import ListNotations.
Local Open Scope R_scope.
Local Open Scope string_scope.
Local Open Scope list_scope.

(** The pair [q1], [q2] with the other unknowns as in [theta]: every value of x that makes both hold is one of the solutions
    modulo full turns; and if there is one solution, and some value makes both hold, then theta's value of x does. *)
Definition pair_fits (theta : env) (x : string) (q1 q2 : kequation) (sols : list expr) : Prop :=
  forall t, ok_at (upd theta x t) q1 -> ok_at (upd theta x t) q2 ->
    (all_defd (upd theta x t) sols -> among (upd theta x t) t sols)
    /\ forall e, sols = [e] -> defd theta e -> sides theta q1 -> sides theta q2 -> holds theta q1 /\ holds theta q2.

Lemma upd_twice theta x t v y : upd (upd theta x t) x v y = upd theta x v y.
Proof. unfold upd. destruct (String.eqb y x); auto. Qed.
Lemma upd_same theta x y : upd theta x (theta x) y = theta y.
Proof. unfold upd. destruct (String.eqb_spec y x); subst; auto. Qed.
Lemma eval_upd_same theta x t e : has x e = false -> eval (upd theta x t) e = eval theta e.
Proof. intros H. apply eval_ext. intros y Hy. unfold upd. destruct (String.eqb_spec y x); subst; congruence. Qed.
Lemma defd_upd_same theta x t e : has x e = false -> defd (upd theta x t) e <-> defd theta e.
Proof. intros H. split; apply defd_ext; intros y Hy; unfold upd; destruct (String.eqb_spec y x); subst; congruence. Qed.
Lemma sides_ext r1 r2 q : (forall y, r1 y = r2 y) -> sides r1 q -> sides r2 q.
Proof. intros E [A B]. split; (eapply defd_ext; [|eassumption]; intros; auto). Qed.
Lemma holds_ext r1 r2 q : (forall y, r1 y = r2 y) -> holds r1 q -> holds r2 q.
Proof. intros E. unfold holds. rewrite !(eval_ext _ r1 r2) by auto. auto. Qed.
Lemma pair_fits_of x q1 q2 sols theta : as_pair x q1 q2 sols -> (exists e, In e sols /\ theta x = eval theta e) -> (forall e, In e sols -> has x e = false) ->
  pair_fits theta x q1 q2 sols.
Proof.
  intros (_ & P1 & P2) (e & He & E) N t O1 O2. split.
  - intros D. assert (K := P1 _ O1 O2 D). unfold upd at 2 in K. rewrite String.eqb_refl in K. exact K.
  - intros e' Es D S1 S2. subst sols. destruct He as [->|[]]. assert (Ne := N e (or_introl eq_refl)).
    assert (X : forall y, upd (upd theta x t) x (theta x) y = theta y) by (intros y; rewrite upd_twice; apply upd_same).
    destruct (P2 e eq_refl Ne (upd theta x t) (theta x) O1 O2) as [H1 H2].
    + apply defd_upd_same; auto.
    + rewrite eval_upd_same by auto. rewrite E. apply cong_refl.
    + apply (sides_ext theta); auto.
    + apply (sides_ext theta); auto.
    + split; [apply (holds_ext _ _ _ X); exact H1|apply (holds_ext _ _ _ X); exact H2].
Qed.

Section Sound.
Context (sy : sympy) (HOK : sympy_ok sy) (HCO : forall a, no_new_symbols (sy_coeff sy a)).

(** The unknown's value in [theta] against the equations reported for it: the equation holds, or the value fits the pair. *)
Definition answers (u : unk) (theta : env) : Prop :=
  (exists q, u_eqn u = Some q /\ (sides theta q -> all_defd theta (solutions u) -> holds theta q))
  \/ (exists q1 q2, u_eqn2 u = Some q2 /\ (u_eqn u = Some q1 \/ u_taneq u = [q1; q2]) /\ pair_fits theta (u_sym u) q1 q2 (solutions u)).
Lemma explained_answers u theta : explained u \/ overwritten u -> (exists e, In e (solutions u) /\ theta (u_sym u) = eval theta e) ->
  (forall e, In e (solutions u) -> has (u_sym u) e = false) -> answers u theta.
Proof.
  intros [(q & Hq & K)|(_ & _ & q1 & q2 & Ht & H2 & K)] (e & He & E) N.
  - destruct K as [(e' & Es & _ & K)|[(_ & K)|(q2 & Hq2 & K)]].
    + left. exists q. split; auto. intros S D. rewrite Es in He. destruct He as [->|[]]. apply (K theta S); auto. apply D. rewrite Es. left; auto.
    + left. exists q. split; auto. intros S D. apply (K theta S D). exists e. split; auto. rewrite E. apply cong_refl.
    + right. exists q, q2. split; auto. split; auto. apply pair_fits_of; eauto.
  - right. exists q1, q2. split; auto. split; auto. apply pair_fits_of; eauto.
Qed.
(** In every history, if the version equations can be made: execute them on any inputs, and read any row of the table as
    a joint vector; then each unknown's value answers the equations reported for it. *)
Theorem C69_row_answers s0 ts s arg i l F out r j : initial sy s0 -> runs1 sy s0 ts s -> s_nodes s = i :: l ->
  NoDup (map (fun j => u_sym (un s j)) (s_unks s)) -> version_free (map (fun j => u_sym (un s j)) (s_nodes s)) -> (forall j, In j (s_nodes s) -> ~ mentions s j j) ->
  let nodes := final_nodes arg s in let table := create_solution_set nodes in
  make_LHS_versions nodes table = Some F -> executed nodes F out -> In r table -> In j (s_nodes s) ->
  answers (un s j) (through (names_of nodes) r out).
Proof.
  intros I R En Nd Vf Ns nodes table HF X Hr Hj.
  destruct (C42_reachable sy s0 ts s arg i l I R En) as (Ho & _ & _ & Nn). { apply Ns. rewrite En. left; auto. } fold nodes in Ho, Nn. specialize (Nn Nd).
  assert (Names : names_of nodes = map (fun j => u_sym (un s j)) (s_nodes s)). { unfold names_of, nodes, final_nodes. rewrite map_map. apply map_ext. reflexivity. }
  assert (Eo : earlier_only nodes) by (apply (nodes_earlier sy s0 ts s); auto).
  apply In_nth_error in Hj as (c & Hc). assert (Hj := nth_error_In _ _ Hc).
  assert (Hn : nth_error nodes c = Some (node_of arg s j)). { unfold nodes, final_nodes. rewrite nth_error_map, Hc. reflexivity. }
  destruct (C43_rows_are_solutions nodes F out r c _ Ho Nn ltac:(rewrite Names; exact Vf) Eo HF X Hr Hn) as (e & He & Ev).
  change (n_sols (node_of arg s j)) with (solutions (un s j)) in He. change (n_name (node_of arg s j)) with (u_sym (un s j)) in Ev.
  apply explained_answers; eauto.
  - apply (C67_reported_equations sy HOK HCO s0 ts s j I R). destruct (C23_solved_once_in_order sy s0 ts s I R) as (_ & N2 & _). apply N2; auto.
  - intros e' He'. destruct (has (u_sym (un s j)) e') eqn:Hh; auto. exfalso. apply (Ns j Hj). exists e'. split; auto.
Qed.
(** An unknown reported with one equation only: the row satisfies it. *)
Corollary C69_row_satisfies s0 ts s arg i l F out r j q : initial sy s0 -> runs1 sy s0 ts s -> s_nodes s = i :: l ->
  NoDup (map (fun j => u_sym (un s j)) (s_unks s)) -> version_free (map (fun j => u_sym (un s j)) (s_nodes s)) -> (forall j, In j (s_nodes s) -> ~ mentions s j j) ->
  let nodes := final_nodes arg s in let table := create_solution_set nodes in let theta := through (names_of nodes) r out in
  make_LHS_versions nodes table = Some F -> executed nodes F out -> In r table -> In j (s_nodes s) ->
  u_eqn (un s j) = Some q -> u_eqn2 (un s j) = None -> sides theta q -> all_defd theta (solutions (un s j)) -> holds theta q.
Proof.
  intros I R En Nd Vf Ns nodes table theta HF X Hr Hj Q1 Q2 S D.
  destruct (C69_row_answers s0 ts s arg i l F out r j I R En Nd Vf Ns HF X Hr Hj) as [(q' & E & K)|(q1 & q2 & E & _)]; [|congruence].
  rewrite Q1 in E. injection E as <-. apply K; auto.
Qed.
End Sound.

(** * A row that does not reach the pose *)
(** Px = sin th_1 and Py = sin th_1 cos th_1: the first gives th_1 = asin(Px) and pi - asin(Px); the second excludes one of them. *)
Definition ex69 := start ["th_1"] (meq (fun i j => match i, j with 0%nat, 3%nat => (px, Sin th1) | 1%nat, 3%nat => (py, Mul (Sin th1) (Cos th1)) | _, _ => (Num 0, Num 0) end)).
Definition e69 := match track sympy0 ex69 one_round with Some (_, s) => s | None => ex69 end.
Lemma run69 : exists l, track sympy0 ex69 one_round = Some (l, e69). Proof. exact (opt_get (track sympy0 ex69 one_round) ex69 ltac:(vm_compute; reflexivity)). Qed.
Lemma same69 : ik_solve sympy0 ex69 = OK true e69.
Proof. assert (E : state_of (ik_solve sympy0 ex69) ex69 = e69) by (vm_compute; reflexivity). rewrite <- E. apply ok_true. vm_compute. reflexivity. Qed.
Lemma u69 : solutions (un e69 0) = (let t := Div (Sub px (Num 0)) (Num 1) in [Asin t; Sub PiE (Asin t)]) /\ u_sym (un e69 0) = "th_1" /\ s_nodes e69 = [0%nat] /\ s_unks e69 = [0%nat].
Proof. vm_compute. auto. Qed.
Definition rho69 (a : R) : env := fun s => if String.eqb s "th_1" then a else if String.eqb s "Px" then sin a else if String.eqb s "Py" then sin a * cos a
  else if String.eqb s "th_12" then a else if String.eqb s "th_123" then a else 0.
Definition out69 (a : R) : env := fun s => if String.eqb s "Px" then sin a else if String.eqb s "Py" then sin a * cos a
  else if String.eqb s "th_1s1" then asin ((sin a + - 0) / 1) else if String.eqb s "th_1v1" then asin ((sin a + - 0) / 1)
  else if String.eqb s "th_1s2" then PI + - asin ((sin a + - 0) / 1) else if String.eqb s "th_1v2" then PI + - asin ((sin a + - 0) / 1) else 0.
Definition F69 := let t := Div (Sub px (Num 0)) (Num 1) in [[Keq (Sym "th_1v1") (Asin t)]; [Keq (Sym "th_1v2") (Sub PiE (Asin t))]].
Lemma table69 : create_solution_set (final_nodes arg0 e69) = [["th_1s1"]; ["th_1s2"]] /\ make_LHS_versions (final_nodes arg0 e69) (create_solution_set (final_nodes arg0 e69)) = Some F69
  /\ names_of (final_nodes arg0 e69) = ["th_1"].
Proof. vm_compute. auto. Qed.
Lemma sat69 a : sat (rho69 a) ex69 /\ soa_ok (rho69 a).
Proof.
  split.
  - split.
    + intros M HM i j Hi Hj.
      change (s_meqs ex69) with [meq (fun i j => match i, j with 0%nat, 3%nat => (px, Sin th1) | 1%nat, 3%nat => (py, Mul (Sin th1) (Cos th1)) | _, _ => (Num 0, Num 0) end)] in HM.
      destruct HM as [<-|[]]. unfold ok_at, holds, meq. cbn [me_Td me_Ts].
      destruct i as [|[|i]]; (destruct j as [|[|[|[|j]]]]); try lia; cbn; repeat split; auto; lra.
    + intros q Hq. change (s_aux ex69) with (@nil kequation) in Hq. destruct Hq.
  - unfold soa_ok. cbn. repeat split; lra.
Qed.
Lemma exec69 a : executed (final_nodes arg0 e69) F69 (out69 a).
Proof.
  assert (S : exists n, final_nodes arg0 e69 = [n] /\ n_name n = "th_1" /\ n_sols n = (let t := Div (Sub px (Num 0)) (Num 1) in [Asin t; Sub PiE (Asin t)])).
  { exists (node_of arg0 e69 0). vm_compute. auto. }
  destruct S as (n & -> & Nn & Sn). split.
  - intros eqs q H1 H2. unfold F69 in H1. cbv zeta in H1. destruct H1 as [<-|[<-|[]]]; (destruct H2 as [<-|[]]); reflexivity.
  - intros n0 ns b e E He. injection E as <- _. rewrite Nn. rewrite Sn in He. destruct b as [|[|b]]; cbn in He; [| |destruct b; discriminate]; injection He as <-; reflexivity.
Qed.
(** Intended: every row is a joint vector that satisfies the equations.  Refuted, on a run of the shipped tree that solves everything, for every
    reachable pose outside the singular ones. *)
Theorem C69_every_row_refuted : exists sy s0 s, sympy_ok sy /\ initial sy s0 /\ ik_solve sy s0 = OK true s /\
  forall a, 0 < a < PI / 2 -> exists rho, sat rho s0 /\ soa_ok rho /\ rho "th_1" = a /\
  exists F out r, make_LHS_versions (final_nodes arg0 s) (create_solution_set (final_nodes arg0 s)) = Some F /\ executed (final_nodes arg0 s) F out
    /\ (forall x, In x ["Px"; "Py"] -> out x = rho x) /\ In r (create_solution_set (final_nodes arg0 s)) /\ ~ sat (through (names_of (final_nodes arg0 s)) r out) s0.
Proof.
  exists sympy0, ex69, e69. split; [exact sympy0_ok|]. split; [exact (start_initial _ _)|]. split; [exact same69|]. intros a Ha.
  exists (rho69 a). destruct (sat69 a) as [S1 S2]. split; [exact S1|]. split; [exact S2|]. split; [reflexivity|].
  destruct table69 as (T1 & T2 & T3). exists F69, (out69 a), ["th_1s2"]. split; [exact T2|]. split; [exact (exec69 a)|].
  split. { intros x [<-|[<-|[]]]; reflexivity. } split. { rewrite T1. right. left. reflexivity. }
  rewrite T3. intros [K _].
  specialize (K (meq (fun i j => match i, j with 0%nat, 3%nat => (px, Sin th1) | 1%nat, 3%nat => (py, Mul (Sin th1) (Cos th1)) | _, _ => (Num 0, Num 0) end)) (or_introl eq_refl) 1%nat 3%nat ltac:(lia) ltac:(lia)).
  destruct K as (_ & _ & K). unfold holds, meq in K. cbn -[sin cos asin PI] in K.
  change (out69 a "Py") with (sin a * cos a) in K. change (out69 a "th_1s2") with (PI + - asin ((sin a + - 0) / 1)) in K.
  replace ((sin a + - 0) / 1) with (sin a) in K by field. rewrite asin_sin in K by lra.
  replace (PI + - a) with (PI - a) in K by ring. rewrite <- Rtrigo_facts.sin_pi_minus in K. rewrite Rtrigo_facts.cos_pi_minus in K.
  assert (P1 : 0 < sin a) by (apply sin_gt_0; lra). assert (P2 : 0 < cos a) by (apply cos_gt_0; lra). rewrite ?Rtrigo_facts.sin_pi_minus in K. nra.
Qed.
(** Its rows do satisfy the equation reported (C69_row_satisfies applies). *)
Lemma rep69 : u_eqn (un e69 0) = Some (Keq px (Sin th1)) /\ u_eqn2 (un e69 0) = None /\ self_free e69 = true.
Proof. vm_compute. auto. Qed.
Example C69_example a r : 0 < a < PI / 2 -> In r (create_solution_set (final_nodes arg0 e69)) -> holds (through ["th_1"] r (out69 a)) (Keq px (Sin th1)).
Proof.
  intros Ha Hr. destruct run69 as [ts R]. apply track_runs1 in R. destruct u69 as (U1 & U2 & U3 & U4). destruct rep69 as (Q1 & Q2 & Q3). destruct table69 as (T1 & T2 & T3).
  assert (K := C69_row_satisfies sympy0 sympy0_ok sympy0_coeff ex69 ts e69 arg0 0%nat [] F69 (out69 a) r 0%nat (Keq px (Sin th1)) (start_initial _ _) R U3).
  cbv zeta in K. rewrite T3, U1, U4, U3 in K. cbn [map] in K. rewrite U2 in K.
  refine (K _ _ _ T2 (exec69 a) Hr (or_introl eq_refl) Q1 Q2 _ _); clear K.
  - constructor; [intros []|constructor].
  - apply names_ok_th. intros x [<-|[]]. reflexivity.
  - intros j Hj. apply (self_free_ok _ Q3). rewrite U4. exact Hj.
  - split; exact I.
  - rewrite T1 in Hr. assert (B := SIN_bound a).
    assert (V : through ["th_1"] r (out69 a) "Px" = sin a) by (destruct Hr as [<-|[<-|[]]]; reflexivity).
    assert (D : defd (through ["th_1"] r (out69 a)) (Asin (Div (Sub px (Num 0)) (Num 1)))).
    { cbn [defd Sub eval px]. rewrite V. repeat split; auto; cbn; lra. }
    intros e [<-|[<-|[]]]; [exact D|]. exact (conj I D).
Qed.
Print Assumptions C69_row_answers.
Print Assumptions C69_row_satisfies.
Print Assumptions C69_every_row_refuted.
Print Assumptions C69_example.
