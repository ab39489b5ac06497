(** C67: the equations reported as evaluated for an unknown (ikSolver.py:415-424 prints unknown.eqntosolve and
    unknown.secondeqn for every unknown) hold for every joint vector of the problem, and are the ones its solutions come from. *)
From Coq Require Import Reals ZArith List String Bool Arith Lia Lra Psatz.
From Verif Require Import Expr Kin KinSpec Trig Solver SolverSpec SolverFacts SolverInv Sympy0 PropSolvers SolverHist HistFacts PropHist PropCrash.
Import ListNotations.
Local Open Scope R_scope.
Local Open Scope string_scope.
Local Open Scope list_scope.

(** * Specification *)
(** Both sides have a value. *)
Definition sides (rho : env) (q : kequation) : Prop := defd rho (k_lhs q) /\ defd rho (k_rhs q).
(** The equation [q] says: x is the value of the only solution, which does not mention x. *)
Definition as_value (x : string) (q : kequation) (sols : list expr) : Prop :=
  exists e, sols = [e] /\ has x e = false /\ forall rho, sides rho q -> defd rho e -> (holds rho q <-> rho x = eval rho e).
(** The equation [q] says: x is one of the solutions, modulo full turns. *)
Definition as_angle (x : string) (q : kequation) (sols : list expr) : Prop :=
  sols <> [] /\ forall rho, sides rho q -> all_defd rho sols -> (holds rho q <-> among rho (rho x) sols).
(** The two equations together give x: when both hold, x is one of the solutions modulo full turns; and when there is
    one solution, not mentioning x, both go on holding when x is given any value equal to it modulo full turns. *)
Definition as_pair (x : string) (q1 q2 : kequation) (sols : list expr) : Prop :=
  sols <> []
  /\ (forall rho, ok_at rho q1 -> ok_at rho q2 -> all_defd rho sols -> among rho (rho x) sols)
  /\ (forall e, sols = [e] -> has x e = false -> forall rho t, ok_at rho q1 -> ok_at rho q2 -> defd rho e -> cong t (eval rho e) ->
        sides (upd rho x t) q1 -> sides (upd rho x t) q2 -> holds (upd rho x t) q1 /\ holds (upd rho x t) q2).
(** The reported equations give the solutions of the unknown. *)
Definition explained (u : unk) : Prop :=
  exists q, u_eqn u = Some q /\ (as_value (u_sym u) q (solutions u) \/ as_angle (u_sym u) q (solutions u)
                                 \/ exists q2, u_eqn2 u = Some q2 /\ as_pair (u_sym u) q q2 (solutions u)).
(** Or: the solutions are atan2 solutions of a pair that is still on record (tan_eqnlist) but only its second equation is
    reported; the first was overwritten by an equation of an arcsin/arccos attempt that led to nothing. *)
Definition overwritten (u : unk) : Prop :=
  u_scable u = true /\ u_sc u = [] /\ exists q1 q2, u_taneq u = [q1; q2] /\ u_eqn2 u = Some q2 /\ as_pair (u_sym u) q1 q2 (solutions u).

Section Explain.
Context (sy : sympy) (HOK : sympy_ok sy).

(** * Each solver *)
Lemma pair_of_iff x q1 q2 e E1 E2 :
  (forall rho, sides rho q1 -> sides rho q2 -> defd rho e -> (holds rho q1 /\ holds rho q2 <-> eval rho E1 = eval rho E2 /\ cong (rho x) (eval rho e))) ->
  (has x e = false -> has x E1 = false /\ has x E2 = false) -> as_pair x q1 q2 [e].
Proof.
  intros I N. split; [discriminate|]. split.
  - intros rho (A1 & A2 & A3) (B1 & B2 & B3) D. exists e. split; [left; auto|]. apply (I rho); [split; auto|split; auto| |auto]. apply D. left. auto.
  - intros e' E F rho t (A1 & A2 & A3) (B1 & B2 & B3) D C S1 S2. injection E as <-. destruct (N F) as [N1 N2].
    destruct (proj1 (I rho (conj A1 A2) (conj B1 B2) D) (conj A3 B3)) as [K _].
    assert (X : forall f, has x f = false -> eval (upd rho x t) f = eval rho f).
    { intros f Hf. apply eval_ext. intros s Hs. unfold upd. destruct (String.eqb_spec s x); [subst; congruence|auto]. }
    apply (I (upd rho x t)); auto.
    + apply (defd_ext e rho); auto. intros s Hs. unfold upd. destruct (String.eqb_spec s x); [subst; congruence|auto].
    + rewrite !X by auto. split; auto. unfold upd. rewrite String.eqb_refl. auto.
Qed.
Lemma has2 x a b : has x a || has x b = false -> has x a = false /\ has x b = false. Proof. apply orb_false_iff. Qed.
Lemma tan1_pair x r1 r2 A B C D : sy_match sy (Sin (Sym x)) (both_terms x) r1 = Some (A, B) -> sy_match sy (Cos (Sym x)) (both_terms x) r2 = Some (C, D) ->
  as_pair x (Keq (Num 0) r1) (Keq (Num 0) r2) [Atan2 (Div (Sub (Num 0) B) A) (Div (Sub (Num 0) D) C)].
Proof.
  intros M1 M2. set (y := Div (Sub (Num 0) B) A). set (z := Div (Sub (Num 0) D) C).
  apply (pair_of_iff x _ _ _ (Add (Mul z z) (Mul y y)) (Num 1)).
  - intros rho [_ S1] [_ S2] (Dy & Dz & _). exact (tan_iff sy HOK rho x (Num 0) _ (Num 0) _ _ _ _ _ M1 M2 S1 S2 Dy Dz).
  - cbn [has]. intros H. apply has2 in H as [-> ->]. auto.
Qed.
Lemma tan2_pair x r1 r2 A B C D : sy_match sy (Sin (Sym x)) (both_terms x) r1 = Some (A, B) -> sy_match sy (Cos (Sym x)) (both_terms x) r2 = Some (C, D) ->
  let co := sy_norm sy (Div A C) in let Y := Sub (Num 0) B in let X := Sub (Num 0) D in
  as_pair x (Keq (Num 0) r1) (Keq (Num 0) r2) [Atan2 (Div Y co) X; Atan2 (Div (Neg Y) co) (Neg X)].
Proof.
  intros M1 M2 co Y X. split; [discriminate|]. split; [|intros e E; discriminate].
  intros rho (_ & D1 & H1) (_ & D2 & H2) AD. destruct (tan2_cover sy HOK rho x (Num 0) r1 (Num 0) r2 A B C D M1 M2 D1 D2 H1 H2) as (P1 & P2 & P3).
  assert (Ds1 := AD _ (or_introl eq_refl)). assert (Ds2 := AD _ (or_intror (or_introl eq_refl))). specialize (P3 Ds1).
  destruct (Rtotal_order (eval rho C) 0) as [L|[L|L]]; [|contradiction|].
  - exists (Atan2 (Div (Neg Y) co) (Neg X)). split; [right; left; reflexivity|]. exact (P2 L Ds2).
  - exists (Atan2 (Div Y co) X). split; [left; reflexivity|]. exact (P1 L Ds1).
Qed.
Lemma asin_angle x q A B : let t := Div (Sub (k_lhs q) B) A in
  sy_match sy (Sin (Sym x)) (both_terms x) (sy_collect sy (both_terms x) (k_rhs q)) = Some (A, B) -> as_angle x q [Asin t; Sub PiE (Asin t)].
Proof.
  intros t M. split; [discriminate|]. intros rho [D1 D2] AD. destruct (AD _ (or_introl eq_refl)) as [DT L].
  destruct (ok_collect sy HOK (both_terms x) rho _ D2) as [D2' E2]. unfold holds. rewrite (asin_iff sy HOK rho _ _ (k_rhs q) _ _ _ M D1 D2' E2 DT). fold t. tauto.
Qed.
Lemma acos_angle x q A B : let t := Div (Sub (k_lhs q) B) A in
  sy_match sy (Cos (Sym x)) (both_terms x) (sy_collect sy (both_terms x) (k_rhs q)) = Some (A, B) -> as_angle x q [Acos t; Neg (Acos t)].
Proof.
  intros t M. split; [discriminate|]. intros rho [D1 D2] AD. destruct (AD _ (or_introl eq_refl)) as [DT L].
  destruct (ok_collect sy HOK (both_terms x) rho _ D2) as [D2' E2]. unfold holds. rewrite (acos_iff sy HOK rho _ _ (k_rhs q) _ _ _ M D1 D2' E2 DT). fold t. tauto.
Qed.
Lemma simu_as_pair x e1 e2 :
  let A := sy_coeff sy (Sin (Sym x)) e1 in let B := sy_coeff sy (Cos (Sym x)) e1 in
  let C := sy_simplify sy (Sub (Add (Mul A (Sin (Sym x))) (Mul B (Cos (Sym x)))) e1) in
  let D := sy_simplify sy (Sub (Sub (Mul A (Cos (Sym x))) (Mul B (Sin (Sym x)))) e2) in
  as_pair x (Keq (Num 0) e1) (Keq (Num 0) e2) [Atan2 (Sub (Mul A C) (Mul B D)) (Add (Mul A D) (Mul B C))].
Proof.
  intros A B C D. apply (pair_of_iff x _ _ _ (Add (Mul C C) (Mul D D)) (Add (Mul A A) (Mul B B))).
  - intros rho [_ D1] [_ D2] DS. cbn [k_rhs] in D1, D2. unfold holds. cbn [k_lhs k_rhs]. cbn [Sub defd] in DS. destruct DS as (((DA & _) & (DB & _)) & _ & N).
    destruct (ok_simplify sy HOK rho (Sub (Add (Mul A (Sin (Sym x))) (Mul B (Cos (Sym x)))) e1)) as [_ EC]. { cbn [Sub defd]; auto 10. }
    destruct (ok_simplify sy HOK rho (Sub (Sub (Mul A (Cos (Sym x))) (Mul B (Sin (Sym x)))) e2)) as [_ ED]. { cbn [Sub defd]; auto 10. }
    fold C in EC. fold D in ED. cbn [Sub eval] in EC, ED, N. cbn [Sub eval].
    assert (NAB : ~ (eval rho A = 0 /\ eval rho B = 0)). { intros [Z1 Z2]. apply N. rewrite Z1, Z2. split; lra. }
    set (sn := sin (rho x)) in *. set (cs := cos (rho x)) in *.
    assert (SC : sn * sn + cs * cs = 1). { pose proof (sin2_cos2 (rho x)) as P. unfold Rsqr in P. exact P. }
    assert (Eq : 0 = eval rho e1 /\ 0 = eval rho e2 <-> eval rho A * sn + eval rho B * cs = eval rho C /\ eval rho A * cs - eval rho B * sn = eval rho D).
    { rewrite EC, ED. split; intros [P1 P2]; (split; lra). }
    rewrite Eq. split.
    + intros P. assert (Sq : eval rho C * eval rho C + eval rho D * eval rho D = eval rho A * eval rho A + eval rho B * eval rho B).
      { destruct P as [<- <-]. transitivity ((eval rho A * eval rho A + eval rho B * eval rho B) * (sn * sn + cs * cs)); [ring|rewrite SC; ring]. }
      split; [exact Sq|]. apply pair_iff; auto.
    + intros [P1 P2]. apply pair_iff; auto.
  - cbn [has Sub]. intros H. apply orb_false_iff in H as [H _]. apply orb_false_iff in H as [H1 H2]. apply has2 in H1 as [-> ->]. apply has2 in H2 as [-> ->]. auto.
Qed.
Lemma sac_angle x es : let sn := Sin (Sym x) in let cs := Cos (Sym x) in let A := sy_coeff sy sn es in let B := sy_coeff sy cs es in
  let C := sy_norm sy (Sub (Add (Mul A sn) (Mul B cs)) es) in let t := Sqrt (Sub (Add (Mul A A) (Mul B B)) (Mul C C)) in
  as_angle x (Keq (Num 0) es) (if is0 sy C then [Atan2 (Neg B) A; Add (Atan2 (Neg B) A) PiE] else [Add (Atan2 A B) (Atan2 t C); Add (Atan2 A B) (Atan2 (Neg t) C)]).
Proof.
  intros sn cs A B C t.
  assert (Ex : forall rho e, eval (upd rho x (rho x)) e = eval rho e) by (intros rho e; apply eval_ext; intros; apply upd_same).
  assert (Dx : forall rho e, defd rho e -> defd (upd rho x (rho x)) e) by (intros rho e; apply defd_ext; intros; symmetry; apply upd_same).
  destruct (is0 sy C) eqn:Z; (split; [discriminate|]); intros rho [_ D] AD; cbn [k_rhs] in D; unfold holds; cbn [k_lhs k_rhs eval].
  - assert (DD := AD _ (or_introl eq_refl)). assert (DD' := DD). cbn [defd] in DD'. destruct DD' as (DB & DA & _).
    destruct (sac0_iff sy HOK rho x es A B C D eq_refl Z DD) as [P1 P2]. specialize (P2 (rho x)). cbv zeta in P2. rewrite !Ex in P2.
    split; intros H. apply P1; auto. symmetry. apply P2; auto.
  - assert (DD := AD _ (or_introl eq_refl)). destruct DD as [DD _]. assert (DD' := DD). cbn [defd] in DD'. destruct DD' as (DA & DB & _).
    destruct (sac_iff sy HOK rho x es A B C D eq_refl DD) as [P1 P2]. specialize (P2 (rho x)). cbv zeta in P2. rewrite !Ex in P2.
    split; intros H. apply P1; auto. symmetry. apply P2; auto.
Qed.

(** * One tick that solves an unknown *)
Lemma has_end m q : contains m m = true -> contains m (append q m) = true. Proof. intros H. apply contains_end; auto. Qed.
Lemma alg_new s b s' i : current s i -> solutions (un s i) = [] -> u_solved (un s i) = false -> alg_sol sy s = OK b s' -> u_solved (un s' i) = true -> explained (un s' i).
Proof.
  intros [Hc Hi] Hn Hu H Hs'. unfold un in *. unfold alg_sol, seq2 in H. destruct (algebra_id sy s) as [b1 s1|] eqn:E; [|discriminate].
  assert (Out : forall b0 s0, OK b0 s0 = OK b s' -> u_solved (getu (s_heap s0) i) = false -> False) by (intros b0 s0 K1 K2; injection K1 as -> ->; congruence).
  unfold algebra_id in E. destruct (_ =? _)%nat. { injection E as <- <-. destruct (Out _ _ H Hu). }
  unfold with_curr in E. rewrite Hc in E. set (u := getu (s_heap s) i) in *. rewrite Hu in E.
  destruct (first_some _ _) as [tmp|] eqn:F; injection E as <- <-. 2:{ destruct (Out _ _ H Hu). }
  unfold algebra_solve, with_curr in H. change (s_curr (upd_unk _ _ s)) with (s_curr s) in H. rewrite Hc in H. rewrite getu_upd in H by auto. fold u in H.
  cbn [u_ready add_method set_u_method set_u_eqn set_u_ready u_method u_eqn u_sym] in H. rewrite has_end in H by reflexivity. cbn [andb k_rhs k_lhs] in H.
  assert (Out1 : u_solved (getu (s_heap (upd_unk i (fun u0 => add_method "algebra" (set_u_eqn (Some (Keq (Num 0) tmp)) (set_u_ready true u0))) s)) i) = false) by (rewrite getu_upd by auto; exact Hu).
  destruct (linear_match sy tmp (u_sym u)) as [[A B]|] eqn:LM. 2:{ destruct (Out _ _ H Out1). }
  destruct (has (u_sym u) (Div (Sub (Num 0) B) A)) eqn:Hh. { destruct (Out _ _ H Out1). }
  apply finish_solved in H as (Hl & _ & o & d & n & Eu). rewrite getu_upd in Eu by (rewrite upd_len; auto). rewrite getu_upd in Eu by auto. fold u in Eu. rewrite Eu.
  exists (Keq (Num 0) tmp). split. { destruct u as [? ? ? ? ? ? ? ? ? []]; reflexivity. } left.
  assert (Es : solutions (solved_unk o d n (set_u_nsol 1 (add_solution (Div (Sub (Num 0) B) A) (add_method "algebra" (set_u_eqn (Some (Keq (Num 0) tmp)) (set_u_ready true u)))))) = [Div (Sub (Num 0) B) A]).
  { transitivity (solutions (add_solution (Div (Sub (Num 0) B) A) u)); [|rewrite solutions_add, Hn; reflexivity]. destruct u as [? ? ? ? ? ? ? ? ? []]; reflexivity. }
  rewrite Es. replace (u_sym (solved_unk o d n _)) with (u_sym u) by (destruct u as [? ? ? ? ? ? ? ? ? []]; reflexivity).
  exists (Div (Sub (Num 0) B) A). split; [reflexivity|]. split; [exact Hh|]. intros rho [D1 D2] DS.
  unfold linear_match in LM. destruct (sy_match _ _ _ _) as [[A' B']|] eqn:M; [|discriminate]. destruct (is0 _ _); [discriminate|]. injection LM as -> ->.
  exact (alg_iff sy HOK rho (u_sym u) (Num 0) tmp A B M D1 D2 DS).
Qed.
Lemma sac_new s b s' i : current s i -> solutions (un s i) = [] -> u_solved (un s i) = false -> sac_sol sy s = OK b s' -> u_solved (un s' i) = true -> explained (un s' i).
Proof.
  intros [Hc Hi] Hn Hu H Hs'. unfold un in *. unfold sac_sol, seq2 in H. destruct (sinandcos_id sy s) as [b1 s1|] eqn:E; [|discriminate].
  assert (Out : forall b0 s0, OK b0 s0 = OK b s' -> u_solved (getu (s_heap s0) i) = false -> False) by (intros b0 s0 K1 K2; injection K1 as -> ->; congruence).
  unfold sinandcos_id, with_curr in E. rewrite Hc in E. set (u := getu (s_heap s) i) in *. rewrite Hu in E.
  destruct (first_some _ _) as [es|] eqn:F; injection E as <- <-. 2:{ destruct (Out _ _ H Hu). }
  unfold sinandcos_solve, with_curr in H. change (s_curr (upd_unk _ _ s)) with (s_curr s) in H. rewrite Hc in H. rewrite getu_upd in H by auto. fold u in H.
  cbn [u_ready u_solved add_method set_u_method set_u_eqn set_u_ready u_method u_eqn u_sym k_rhs] in H. rewrite Hu in H. rewrite has_end in H by reflexivity. cbn [negb andb] in H.
  destruct (is0 sy (Add _ _)); [discriminate|].
  match type of H with finish (set_solved i (upd_unk i (fun u => set_u_nsol 2 (fold_left _ ?l u)) _)) = _ => set (sols := l) in H end.
  apply finish_solved in H as (Hl & _ & o & d & n & Eu). rewrite getu_upd in Eu by (rewrite upd_len; auto). rewrite getu_upd in Eu by auto. fold u in Eu. rewrite Eu. clear Eu.
  set (g := add_method "sinANDcos" (set_u_eqn (Some (Keq (Num 0) es)) (set_u_ready true u))).
  assert (Es : solutions (solved_unk o d n (set_u_nsol 2 (fold_left (fun u e => add_solution e u) sols g))) = sols).
  { transitivity (solutions (fold_left (fun u e => add_solution e u) sols g)); [reflexivity|]. rewrite solutions_adds. change (solutions g) with (solutions u). rewrite Hn. reflexivity. }
  assert (X : forall l v, u_eqn (fold_left (fun u e => add_solution e u) l v) = u_eqn v /\ u_sym (fold_left (fun u e => add_solution e u) l v) = u_sym v).
  { induction l as [|e l IH]; intros v; cbn [fold_left]; auto. destruct (IH (add_solution e v)) as [-> ->]. destruct v as [? ? ? ? ? ? ? ? ? []]; auto. }
  exists (Keq (Num 0) es). split. { exact (proj1 (X sols g)). } right. left. rewrite Es.
  replace (u_sym (solved_unk o d n _)) with (u_sym u) by (symmetry; exact (proj2 (X sols g))). exact (sac_angle (u_sym u) es).
Qed.
Lemma simu_new s b s' i : current s i -> u_solved (un s i) = false -> simu_sol sy s = OK b s' -> u_solved (un s' i) = true -> explained (un s' i).
Proof.
  intros [Hc Hi] Hu H Hs'. unfold un in *. unfold simu_sol, seq2 in H. destruct (simu_id sy s) as [b1 s1|] eqn:E; [|discriminate].
  assert (Out : forall b0 s0, OK b0 s0 = OK b s' -> u_solved (getu (s_heap s0) i) = false -> False) by (intros b0 s0 K1 K2; injection K1 as -> ->; congruence).
  unfold simu_id, with_curr in E. rewrite Hc in E. set (u := getu (s_heap s) i) in *. rewrite Hu in E.
  destruct (simu_pairs _ _ _) as [[e1 e2]|] eqn:F; injection E as <- <-. 2:{ destruct (Out _ _ H Hu). }
  unfold simu_solver, with_curr in H. change (s_curr (upd_unk _ _ s)) with (s_curr s) in H. rewrite Hc in H. rewrite getu_upd in H by auto. fold u in H.
  cbn [add_method set_u_method set_u_eqn set_u_eqn2 u_method u_eqn u_eqn2 u_sym k_rhs] in H.
  destruct (_ && _). { exfalso. apply (Out _ _ H). rewrite getu_upd by auto. exact Hu. }
  apply finish_solved in H as (Hl & _ & o & d & n & Eu). rewrite getu_upd in Eu by (rewrite upd_len; auto). rewrite getu_upd in Eu by auto. fold u in Eu. rewrite Eu. clear Eu.
  exists (Keq (Num 0) e1). split; [reflexivity|]. right. right. exists (Keq (Num 0) e2). split; [reflexivity|]. exact (simu_as_pair (u_sym u) e1 e2).
Qed.
(** what the two identify-and-solve pairs leave behind for the ranker *)
Record tan_left (u : unk) (sols : list expr) (q1 q2 : kequation) : Prop := TL {
  tl_pair : as_pair (u_sym u) q1 q2 sols; tl_own : u_own u = sols; tl_tan : u_tan u = sols; tl_eqs : u_taneq u = [q1; q2]; tl_q2 : u_eqn2 u = Some q2; tl_q1 : u_eqn u = Some q1;
  tl_ref : u_ref u = Own; tl_sc : u_sc u = []; tl_sceq : u_sceq u = [] }.
Definition blank (u : unk) : Prop := u_ref u = Own /\ u_own u = [] /\ u_sc u = [] /\ u_tan u = [] /\ u_sceq u = [] /\ u_taneq u = [].
Lemma tan_store1 a q1 q2 asm v : u_ref v = Own -> u_own v = [] -> u_tan v = [] -> u_taneq v = [] -> let w := tan_store [a] q1 q2 asm v in
  u_own w = [a] /\ u_tan w = [a] /\ u_taneq w = [q1; q2] /\ u_eqn2 w = u_eqn2 v /\ u_eqn w = u_eqn v /\ u_ref w = Own /\ u_sc w = u_sc v /\ u_sceq w = u_sceq v /\ u_sym w = u_sym v /\ u_solved w = u_solved v.
Proof. destruct v. cbn. intros -> -> -> ->. cbn. auto 20. Qed.
Lemma tan_store2 a b q1 q2 asm v : u_ref v = Own -> u_own v = [] -> u_tan v = [] -> u_taneq v = [] -> let w := tan_store [a; b] q1 q2 asm v in
  u_own w = [a; b] /\ u_tan w = [a; b] /\ u_taneq w = [q1; q2] /\ u_eqn2 w = u_eqn2 v /\ u_eqn w = u_eqn v /\ u_ref w = Own /\ u_sc w = u_sc v /\ u_sceq w = u_sceq v /\ u_sym w = u_sym v /\ u_solved w = u_solved v.
Proof. destruct v. cbn. intros -> -> -> ->. cbn. auto 20. Qed.
Lemma tan_stage s b s1 i : current s i -> blank (un s i) -> u_tanable (un s i) = false -> u_solved (un s i) = false -> tan_sol sy s = OK b s1 ->
  current s1 i /\ u_solved (un s1 i) = false /\ u_sym (un s1 i) = u_sym (un s i) /\ (s1 = s \/ exists sols q1 q2, tan_left (un s1 i) sols q1 q2).
Proof.
  intros [Hc Hi] (B1 & B2 & B3 & B4 & B5 & B6) Ht Hu H. unfold un in *. unfold tan_sol, seq2, tan_id in H. unfold with_curr in H at 1. rewrite Hc in H. set (u := getu (s_heap s) i) in *.
  rewrite Ht, Hu in H. cbn [negb andb] in H.
  destruct (first_some _ _) as [[e1 e2]|] eqn:F. 2:{ fold u in H. rewrite Ht in H. injection H as <- <-. fold u. repeat split; auto. }
  apply first_some_in in F as (es & _ & F). apply first_some_in in F as (ec & _ & F).
  rewrite getu_upd in H by auto. cbn [u_tanable set_u_tanable] in H. unfold tan_solve, with_curr in H.
  change (s_curr (upd_unk _ _ s)) with (s_curr s) in H. rewrite Hc in H. rewrite getu_upd in H by auto. fold u in H.
  cbn [u_tanable set_u_tanable u_eqn u_eqn2 add_method set_u_method set_u_eqn set_u_eqn2 set_u_ready u_sym k_lhs k_rhs] in H.
  unfold tan_pair in F. destruct (sy_match sy _ _ _) as [[A B]|] eqn:M1 in F; [|discriminate]. destruct (sy_match sy _ _ _) as [[C D]|] eqn:M2 in F; [|discriminate].
  destruct (_ && _) eqn:Kn in F; [|discriminate]. injection F as <- <-. rewrite M1, M2 in H.
  set (f := fun u : unk => set_u_tanable _ _) in H. assert (Q : quiet f). { split. intros v; split; reflexivity. intros v T; reflexivity. }
  rewrite !count_quiet in H by exact Q. apply andb_true_iff in Kn as [Kn K3]. apply andb_true_iff in Kn as [_ K2]. rewrite K2, K3 in H. cbn [negb orb] in H.
  destruct (_ =? 0)%nat in H; injection H as <- <-; rewrite getu_upd by (rewrite upd_len; auto); rewrite getu_upd by auto; fold u.
  - match goal with |- context [tan_store [?a] ?q1 ?q2 ?asm ?v] => destruct (tan_store1 a q1 q2 asm v B1 B2 B4 B6) as (R1 & R2 & R3 & R4 & R5 & R6 & R7 & R8 & R9 & R10) end.
    split. { split; [exact Hc|]. rewrite !upd_len. exact Hi. } split; [rewrite R10; exact Hu|]. split; [exact R9|]. right. eexists _, _, _. constructor; [rewrite R9|exact R1|exact R2|exact R3|exact R4|exact R5|exact R6|rewrite R7; exact B3|rewrite R8; exact B5].
    exact (tan1_pair (u_sym u) _ _ _ _ _ _ M1 M2).
  - match goal with |- context [tan_store [?a; ?b] ?q1 ?q2 ?asm ?v] => destruct (tan_store2 a b q1 q2 asm v B1 B2 B4 B6) as (R1 & R2 & R3 & R4 & R5 & R6 & R7 & R8 & R9 & R10) end.
    split. { split; [exact Hc|]. rewrite !upd_len. exact Hi. } split; [rewrite R10; exact Hu|]. split; [exact R9|]. right. eexists _, _, _. constructor; [rewrite R9|exact R1|exact R2|exact R3|exact R4|exact R5|exact R6|rewrite R7; exact B3|rewrite R8; exact B5].
    exact (tan2_pair (u_sym u) _ _ _ _ _ _ M1 M2).
Qed.
(** the arcsin/arccos pair *)
Lemma sc_store a b q v : u_ref v = Own -> u_sc v = [] -> u_sceq v = [] -> let w := sincos_store a b q v in
  u_own w = u_own v ++ [a; b] /\ u_sc w = [a; b] /\ u_sceq w = [q] /\ u_tan w = u_tan v /\ u_taneq w = u_taneq v /\ u_eqn w = u_eqn v /\ u_ref w = Own /\ u_sym w = u_sym v /\ u_solved w = u_solved v.
Proof. destruct v. cbn. intros -> -> ->. cbn. rewrite <- app_assoc. auto 20. Qed.
Lemma sc_stage s b s1 i : current s i -> u_ref (un s i) = Own -> u_sc (un s i) = [] -> u_sceq (un s i) = [] -> u_solved (un s i) = false -> sc_sol sy s = OK b s1 ->
  current s1 i /\ u_solved (un s1 i) = false /\ u_sym (un s1 i) = u_sym (un s i) /\
  (s1 = s \/ (exists m q, un s1 i = set_u_scable true (add_method m (set_u_eqn (Some q) (un s i))))
   \/ (exists q, u_ref (un s1 i) = Own /\ u_own (un s1 i) = u_own (un s i) ++ u_sc (un s1 i) /\ u_sceq (un s1 i) = [q] /\ u_eqn (un s1 i) = Some q /\ as_angle (u_sym (un s i)) q (u_sc (un s1 i))
        /\ u_tan (un s1 i) = u_tan (un s i) /\ u_taneq (un s1 i) = u_taneq (un s i))).
Proof.
  intros [Hc Hi] B1 B3 B5 Hu H. unfold un in *. unfold sc_sol, seq2, sincos_id in H. unfold with_curr in H at 1. rewrite Hc in H. set (u := getu (s_heap s) i) in *. rewrite Hu in H.
  assert (Same : forall b0 s0, OK b0 s0 = OK b s1 -> s0 = s1) by (intros b0 s0 K1; injection K1; auto).
  destruct (_ && _). 2:{ apply Same in H as <-. fold u. repeat split; auto. }
  destruct (first_some _ _) as [[iss e]|] eqn:F. 2:{ apply Same in H as <-. fold u. repeat split; auto. }
  unfold sincos_solve, with_curr in H. change (s_curr (upd_unk _ _ s)) with (s_curr s) in H. rewrite Hc in H. rewrite getu_upd in H by auto. fold u in H.
  cbn [u_scable set_u_scable u_eqn add_method set_u_method set_u_eqn u_sym u_method] in H.
  assert (Quit : forall m s0, s0 = upd_unk i (fun u : unk => set_u_scable true (add_method m (set_u_eqn (Some e) u))) s -> current s0 i /\ u_solved (getu (s_heap s0) i) = false /\ u_sym (getu (s_heap s0) i) = u_sym u /\
    exists m q, getu (s_heap s0) i = set_u_scable true (add_method m (set_u_eqn (Some q) u))).
  { intros m s0 ->. split. { split; [exact Hc|]. rewrite upd_len. exact Hi. } rewrite getu_upd by auto. fold u. split; [exact Hu|]. split; [reflexivity|]. eauto. }
  assert (Done : forall m a c s0, s0 = upd_unk i (sincos_store a c e) (upd_unk i (fun u : unk => set_u_scable true (add_method m (set_u_eqn (Some e) u))) s) -> as_angle (u_sym u) e [a; c] ->
    current s0 i /\ u_solved (getu (s_heap s0) i) = false /\ u_sym (getu (s_heap s0) i) = u_sym u /\ exists q, u_ref (getu (s_heap s0) i) = Own /\ u_own (getu (s_heap s0) i) = u_own u ++ u_sc (getu (s_heap s0) i)
      /\ u_sceq (getu (s_heap s0) i) = [q] /\ u_eqn (getu (s_heap s0) i) = Some q /\ as_angle (u_sym u) q (u_sc (getu (s_heap s0) i)) /\ u_tan (getu (s_heap s0) i) = u_tan u /\ u_taneq (getu (s_heap s0) i) = u_taneq u).
  { intros m a c s0 -> An. split. { split; [exact Hc|]. rewrite !upd_len. exact Hi. } rewrite getu_upd by (rewrite upd_len; auto). rewrite getu_upd by auto. fold u.
    match goal with |- context [sincos_store a c e ?v] => destruct (sc_store a c e v B1 B3 B5) as (R1 & R2 & R3 & R4 & R5 & R6 & R7 & R8 & R9) end.
    split; [rewrite R9; exact Hu|]. split; [exact R8|]. exists e. rewrite R2. auto 10. }
  destruct (contains "arcsin" _).
  - destruct (sy_match _ _ _ _) as [[A B]|] eqn:M.
    + destruct (has (u_sym u) _); [discriminate|]. apply Same in H. symmetry in H. apply Done in H as (R1 & R2 & R3 & R4). { auto 8. } exact (asin_angle (u_sym u) e A B M).
    + apply Same in H. symmetry in H. apply Quit in H as (R1 & R2 & R3 & R4). auto 8.
  - destruct (contains "arccos" _).
    + destruct (sy_match _ _ _ _) as [[A B]|] eqn:M.
      * destruct (has (u_sym u) _); [discriminate|]. apply Same in H. symmetry in H. apply Done in H as (R1 & R2 & R3 & R4). { auto 8. } exact (acos_angle (u_sym u) e A B M).
      * apply Same in H. symmetry in H. apply Quit in H as (R1 & R2 & R3 & R4). auto 8.
    + apply Same in H. symmetry in H. apply Quit in H as (R1 & R2 & R3 & R4). auto 8.
Qed.
(** the ranker *)
Lemma rank_stage s b s' i : current s i -> u_solved (un s i) = false -> rank s = OK b s' -> u_solved (un s' i) = true ->
  exists o d n, let u := un s i in
  ((u_sc u = [] /\ u_tan u <> [] \/ u_sc u <> [] /\ u_tan u = []) /\ un s' i = solved_unk o d n u)
  \/ (exists e1 r m1 m2 k, u_sceq u = e1 :: r /\ un s' i = solved_unk o d n (add_method m2 (set_u_eqn (Some e1) (set_u_nsol k (set_u_ref RefSC (add_method m1 u))))))
  \/ (exists e1 e2 r m1 m2 k, u_taneq u = e1 :: e2 :: r /\ un s' i = solved_unk o d n (add_method m2 (set_u_eqn2 (Some e2) (set_u_eqn (Some e1) (set_u_nsol k (set_u_ref RefTan (add_method m1 u))))))).
Proof.
  intros [Hc Hi] Hu H Hs'. unfold un in *. unfold rank, with_curr in H. rewrite Hc in H. set (u := getu (s_heap s) i) in *.
  assert (L : forall l : list expr, (0 <? List.length l)%nat = match l with [] => false | _ => true end) by (intros []; auto). rewrite !L in H.
  assert (One : finish (set_solved i s) = OK b s' -> exists o d n, getu (s_heap s') i = solved_unk o d n u). { intros K. apply finish_solved in K as (_ & _ & o & d & n & Eu). eauto. }
  destruct (u_sc u) as [|s0 scs] eqn:Es; destruct (u_tan u) as [|t0 tans] eqn:Et; cbn [andb orb] in H.
  - injection H as <- <-. fold u in Hs'. congruence.
  - destruct (One H) as (o & d & n & E). exists o, d, n. left. split; [|exact E]. left. split; [auto|discriminate].
  - destruct (One H) as (o & d & n & E). exists o, d, n. left. split; [|exact E]. right. split; [discriminate|auto].
  - assert (SC : forall e1 r, u_sceq u = e1 :: r -> finish (set_solved i (upd_unk i (fun u => add_method "sin or cos" (set_u_eqn (Some e1) (set_u_nsol (List.length (s0 :: scs)) (set_u_ref RefSC u)))) (upd_unk i (add_method ", best ranked, ") s))) = OK b s' ->
      exists o d n, (exists e1 r m1 m2 k, u_sceq u = e1 :: r /\ getu (s_heap s') i = solved_unk o d n (add_method m2 (set_u_eqn (Some e1) (set_u_nsol k (set_u_ref RefSC (add_method m1 u))))))).
    { intros e1 r Hq K. apply finish_solved in K as (_ & _ & o & d & n & Eu). rewrite getu_upd in Eu by (rewrite upd_len; auto). rewrite getu_upd in Eu by auto. fold u in Eu.
      exists o, d, n. eexists e1, r, _, _, _. split; [exact Hq|exact Eu]. }
    destruct (rank_choice _ u).
    + destruct (u_sceq u) as [|e1 r] eqn:Eq; [discriminate|]. destruct (SC e1 r eq_refl H) as (o & d & n & K). exists o, d, n. auto.
    + destruct (u_sceq u) as [|e1 r] eqn:Eq; [discriminate|]. destruct (SC e1 r eq_refl H) as (o & d & n & K). exists o, d, n. auto.
    + destruct (u_taneq u) as [|e1 [|e2 r]] eqn:Eq; try discriminate. apply finish_solved in H as (_ & _ & o & d & n & Eu). rewrite getu_upd in Eu by (rewrite upd_len; auto). rewrite getu_upd in Eu by auto. fold u in Eu.
      exists o, d, n. right. right. eexists e1, e2, r, _, _, _. split; [reflexivity|exact Eu].
Qed.
Lemma sols_own u : u_ref u = Own -> solutions u = u_own u. Proof. unfold solutions. intros ->. auto. Qed.
Lemma sctan_new s b s' i : current s i -> blank (un s i) -> u_tanable (un s i) = false -> u_solved (un s i) = false -> sc_tan sy s = OK b s' -> u_solved (un s' i) = true ->
  explained (un s' i) \/ overwritten (un s' i).
Proof.
  intros Cu Bl Ht Hu H Hs'. unfold sc_tan, seq2, or2 in H. destruct (tan_sol sy s) as [b1 s1|] eqn:E1; [|discriminate]. destruct (sc_sol sy s1) as [b2 s2|] eqn:E2; [|discriminate].
  destruct (tan_stage s b1 s1 i Cu Bl Ht Hu E1) as (C1 & U1 & Y1 & T).
  assert (Pre : u_ref (un s1 i) = Own /\ u_sc (un s1 i) = [] /\ u_sceq (un s1 i) = []).
  { destruct T as [->|(sols & q1 & q2 & [])]; auto. destruct Bl as (? & ? & ? & ? & ? & ?). auto. }
  destruct Pre as (P1 & P2 & P3). destruct (sc_stage s1 b2 s2 i C1 P1 P2 P3 U1 E2) as (C2 & U2 & Y2 & S).
  destruct (b1 || b2). 2:{ injection H as <- <-. congruence. }
  destruct (rank_stage s2 b s' i C2 U2 H Hs') as (o & d & n & R). cbv zeta in R. clear H Hs' E1 E2.
  assert (Tr : (u_own (un s1 i) = [] /\ u_tan (un s1 i) = [] /\ u_taneq (un s1 i) = []) \/ exists sols q1 q2, tan_left (un s1 i) sols q1 q2).
  { destruct T as [->|T]; auto. left. destruct Bl as (? & ? & ? & ? & ? & ?). auto. }
  clear T. destruct S as [->|[(m & q & E)|(q & S1 & S2 & S3 & S4 & S5 & S6 & S7)]].
  - destruct Tr as [(T1 & T2 & T3)|(sols & q1 & q2 & [T1 T2 T3 T4 T5 T6 T7 T8 T9])].
    + destruct R as [([[_ K]|[K _]] & _)|[(e1 & r & m1 & m2 & k & K & _)|(e1 & e2 & r & m1 & m2 & k & K & _)]]; congruence.
    + left. destruct R as [(_ & E)|[(e1 & r & m1 & m2 & k & K & _)|(e1 & e2 & r & m1 & m2 & k & K & E)]]; [|congruence|]; rewrite E.
      * exists q1. split; [exact T6|]. right. right. exists q2. split; [exact T5|]. change (as_pair (u_sym (un s1 i)) q1 q2 (solutions (un s1 i))). rewrite sols_own, T2 by auto. exact T1.
      * rewrite T4 in K. injection K as <- <- <-. exists q1. split; [reflexivity|]. right. right. exists q2. split; [reflexivity|]. change (as_pair (u_sym (un s1 i)) q1 q2 (u_tan (un s1 i))). rewrite T3. exact T1.
  - destruct Tr as [(T1 & T2 & T3)|(sols & q1 & q2 & [T1 T2 T3 T4 T5 T6 T7 T8 T9])].
    + rewrite E in R. change (u_sc (set_u_scable true _)) with (u_sc (un s1 i)) in R. change (u_tan (set_u_scable true _)) with (u_tan (un s1 i)) in R. change (u_sceq (set_u_scable true _)) with (u_sceq (un s1 i)) in R. change (u_taneq (set_u_scable true _)) with (u_taneq (un s1 i)) in R.
      destruct R as [([[_ K]|[K _]] & _)|[(e1 & r & m1 & m2 & k & K & _)|(e1 & e2 & r & m1 & m2 & k & K & _)]]; congruence.
    + rewrite E in R. change (u_sc (set_u_scable true _)) with (u_sc (un s1 i)) in R. change (u_tan (set_u_scable true _)) with (u_tan (un s1 i)) in R. change (u_sceq (set_u_scable true _)) with (u_sceq (un s1 i)) in R. change (u_taneq (set_u_scable true _)) with (u_taneq (un s1 i)) in R.
      destruct R as [(_ & E')|[(e1 & r & m1 & m2 & k & K & _)|(e1 & e2 & r & m1 & m2 & k & K & E')]]; [right|congruence|left]; rewrite E'.
      * split; [reflexivity|]. split; [exact T8|]. exists q1, q2. split; [exact T4|]. split; [exact T5|]. change (as_pair (u_sym (un s1 i)) q1 q2 (solutions (un s1 i))). rewrite sols_own, T2 by auto. exact T1.
      * rewrite T4 in K. injection K as <- <- <-. exists q1. split; [reflexivity|]. right. right. exists q2. split; [reflexivity|]. change (as_pair (u_sym (un s1 i)) q1 q2 (u_tan (un s1 i))). rewrite T3. exact T1.
  - left. destruct R as [(K & E)|[(e1 & r & m1 & m2 & k & K & E)|(e1 & e2 & r & m1 & m2 & k & K & E)]]; rewrite E.
    + destruct K as [[K _]|[_ K]]. { destruct S5 as [S5 _]. congruence. }
      exists q. split; [exact S4|]. right. left. change (as_angle (u_sym (un s2 i)) q (solutions (un s2 i))). rewrite sols_own, S2, Y2 by auto.
      destruct Tr as [(T1 & T2 & T3)|(sols & q1 & q2 & [T1 T2 T3 T4 T5 T6 T7 T8 T9])]. rewrite T1. exact S5. exfalso. destruct T1 as [T1 _]. congruence.
    + rewrite S3 in K. injection K as <- <-. exists q. split; [reflexivity|]. right. left. change (as_angle (u_sym (un s2 i)) q (u_sc (un s2 i))). rewrite Y2. exact S5.
    + destruct Tr as [(T1 & T2 & T3)|(sols & q1 & q2 & [T1 T2 T3 T4 T5 T6 T7 T8 T9])]. { rewrite S7, T3 in K. discriminate. }
      rewrite S7, T4 in K. injection K as <- <- <-. exists q1. split; [reflexivity|]. right. right. exists q2. split; [reflexivity|]. change (as_pair (u_sym (un s2 i)) q1 q2 (u_tan (un s2 i))). rewrite S6, T3, Y2. exact T1.
Qed.

(** * All histories *)
Definition einv (s : state) : Prop :=
  (forall i, u_solved (un s i) = false -> u_sceq (un s i) = [] /\ u_taneq (un s i) = []) /\ (forall i, u_solved (un s i) = true -> explained (un s i) \/ overwritten (un s i)).
Context (HCO : forall a, no_new_symbols (sy_coeff sy a)).
Lemma einv_task t s b s' : hinv s -> cinv s -> einv s -> no_resolve t s -> run_task sy t s = OK b s' -> einv s'.
Proof.
  intros Hv Ci [E1 E2] N H. assert (St := task_step sy t s b s' (hinv_curr s Hv) H).
  assert (Keep : forall i, u_solved (un s' i) = false -> u_solved (un s i) = false /\ u_sceq (un s' i) = u_sceq (un s i) /\ u_taneq (un s' i) = u_taneq (un s i)).
  { intros i Hs. destruct St as [i0 f _ _ Eh Q S|i0 f Hc P E S Fw]; unfold un in *.
    - destruct (quiet_getu i0 f (s_heap s) i Q) as [B K]. rewrite <- Eh in B, K. unfold book in B. unfold stock in K. injection B as _ _ B _ _ _ _ _ _. injection K as _ _ _ K1 _ K2 _. rewrite <- B, K1, K2. auto.
    - apply solve_step in E as [_ E]; auto. cbv zeta in E. destruct E as (deps & nver & (_ & U2 & _) & _ & Eo & _). destruct (Nat.eq_dec i i0) as [->|Ne]; [congruence|]. rewrite Eo in * by auto. auto. }
  split. { intros i Hs. destruct (Keep i Hs) as (K1 & -> & ->). auto. }
  intros i Hs. destruct (u_solved (un s i)) eqn:Hu. { rewrite (step_frozen t s s' i St N Hu). auto. }
  assert (Pr : pristine (un s i)) by (apply Hv; auto). destruct (clean_of _ Pr) as (A1 & A2 & A3 & A4). destruct (E1 i Hu) as [A5 A6].
  assert (Sn : solutions (un s i) = []) by (rewrite sols_own; auto).
  assert (Cur : s_curr s = Some i -> current s i) by (intros Hc; split; auto; apply (hinv_curr s Hv); auto).
  assert (Quiet : forall i0 f, quiet f -> s_heap s' = updh i0 f (s_heap s) -> False).
  { intros i0 f Q Eh. destruct (quiet_getu i0 f (s_heap s) i Q) as [B _]. rewrite <- Eh in B. unfold un in *. unfold book in B. injection B as _ _ B _ _ _ _ _ _. congruence. }
  assert (Same : s_heap s' = s_heap s -> False) by (intros Eh; unfold un in *; rewrite Eh in Hs; congruence).
  assert (Mine : forall j, s_curr s = Some j -> u_solved (un s j) = false -> s_curr s = Some i).
  { intros j Hj _. destruct St as [i0 f _ _ Eh Q _|i0 f Hc P E S Fw]. { destruct (Quiet i0 f Q Eh). }
    apply solve_step in E as [_ E]; auto. cbv zeta in E. destruct E as (deps & nver & _ & _ & Eo & _). destruct (Nat.eq_dec i i0) as [->|Ne]; auto. unfold un in *. rewrite Eo in Hs by auto. congruence. }
  destruct t; cbn [run_task] in H.
  - exfalso. apply Same. unfold assigner in H. destruct (asgn_scan _ _ _) as [[j c]|]; [|destruct (s_unks s); [discriminate|]]; injection H as <- <-; reflexivity.
  - exfalso. apply Same. unfold sum_id in H. destruct (existsb _ _); [discriminate|]. injection H as <- <-. reflexivity.
  - left. assert (H' := H). apply eff_alg in H' as [->|(j & Hc & _ & Hj)]. { destruct (Same eq_refl). } apply (alg_new s b s'); auto. apply Cur. eapply Mine; eauto.
  - assert (H' := H). apply eff_sc_tan in H' as (j & Hc & H'). specialize (H' (hinv_curr s Hv j Hc)).
    assert (Hc' : s_curr s = Some i).
    { destruct H' as [(_ & f & Q & -> & _)|(_ & f & P & E & _)]. { destruct (Quiet j f Q eq_refl). }
      apply solve_step in E as [_ E]; auto. cbv zeta in E. destruct E as (deps & nver & _ & _ & Eo & _). destruct (Nat.eq_dec i j) as [->|Ne]; auto. unfold un in *. rewrite Eo in Hs by auto. congruence. }
    apply (sctan_new s b s'); auto. { split; auto 8. } apply Ci; auto.
  - left. assert (H' := H). apply eff_simu in H' as [->|(j & Hc & _ & Hj)]. { destruct (Same eq_refl). } apply (simu_new s b s'); auto. apply Cur. eapply Mine; eauto.
  - left. assert (H' := H). apply eff_sac in H' as [->|(j & Hc & _ & Hj)]. { destruct (Same eq_refl). } apply (sac_new s b s'); auto. apply Cur. eapply Mine; eauto.
  - exfalso. unfold x2z2_transform in H. apply with_curr_inv in H as (j & Hc & H). destruct (negb _). { injection H as <- <-. auto. }
    destruct (x2z2_pairs _ _ _) as [[l r]|]; [|injection H as <- <-; auto]. destruct (find _ _) as [k|]; injection H as <- <-; auto.
    apply (Quiet k (add_method "x2z2 transform and ")); [|reflexivity]. split. intros v; split; reflexivity. intros v T; exact T.
  - exfalso. apply Same. unfold sub_transform in H. destruct (s_meqs s) as [|M Ms]; [discriminate|]. destruct (fold_left (sub_elt sy (unk_objs s) (me_Td M)) idx12 (me_Ts M, false)) as [Ts fd]. cbv zeta in H.
    destruct fd; [|injection H as <- <-; reflexivity]. destruct (scan_for_equations _ _ _ _) as [[[l1 l2] l3]|]; [|discriminate]. injection H as <- <-. reflexivity.
  - exfalso. apply Same. unfold updateL in H. destruct (scan_for_equations _ _ _ _) as [[[l1 l2] l3]|]; [|discriminate]. destruct (fold_left _ _ _) as [[k1 k2] k3] in H. injection H as <- <-. reflexivity.
  - exfalso. apply Same. unfold comp_det in H. injection H as _ <-. reflexivity.
Qed.
Lemma einv_initial s : initial sy s -> einv s.
Proof.
  intros (Hf & _). assert (F : forall i, exists x n, un s i = set_u_n n (new_unknown x)).
  { intros i. unfold un. destruct (Nat.lt_ge_cases i (List.length (s_heap s))) as [L|L]. rewrite (Hf _ (getu_in _ _ L)). eauto. exists "", 0%nat. unfold getu. rewrite nth_overflow by auto. reflexivity. }
  split; intros i Hi; destruct (F i) as (x & n & E); rewrite E in *; cbn in *; [auto|discriminate].
Qed.

(** C67: in every state a history without re-solving reaches, the equations reported for a solved unknown give its solutions
    - except that the first of them may have been overwritten by a failed arcsin/arccos attempt. *)
Theorem C67_reported_equations s0 ts s i : initial sy s0 -> runs1 sy s0 ts s -> u_solved (un s i) = true -> explained (un s i) \/ overwritten (un s i).
Proof.
  intros I R. assert (X : einv s); [|apply X]. assert (Hv := hinv_initial sy s0 I). assert (Ci := cinv_initial sy s0 I). assert (Ei := einv_initial s0 I). clear I.
  induction R; auto. apply IHR. eapply step_hinv; eauto. eapply task_step; eauto. apply hinv_curr; auto. eapply cinv_task; eauto. eapply einv_task; eauto.
Qed.
(** Without such an attempt the reported equations always give the solutions. *)
Corollary C67_no_attempt s0 ts s i : initial sy s0 -> runs1 sy s0 ts s -> u_solved (un s i) = true -> u_scable (un s i) = false \/ u_sc (un s i) <> [] -> explained (un s i).
Proof.
  intros I R Hs K. destruct (C67_reported_equations s0 ts s i I R Hs) as [E|(S & C & q1 & q2 & E1 & E2 & P)]; auto. destruct K as [K|K]; congruence.
Qed.
(** C67: every reported equation - the overwriting ones included - holds for every solution of the equation system the run started with, in all histories. *)
Theorem C67_reported_hold s0 ts s i q rho : initial sy s0 -> runs sy s0 ts s -> u_eqn (un s i) = Some q \/ u_eqn2 (un s i) = Some q -> sat rho s0 -> soa_ok rho -> ok_at rho q.
Proof.
  intros I R Q Sa So. assert (X := inv_runs sy HOK rho So s0 ts s (inv_initial sy rho s0 I Sa) R). apply (uinv_getu rho s i) in X. destruct X as (X1 & X2 & _). destruct Q as [Q|Q]; auto.
Qed.
End Explain.
Print Assumptions C67_reported_equations.
Print Assumptions C67_no_attempt.
Print Assumptions C67_reported_hold.
