(** C29-C35: what each solver leaf stores, against the equation it was identified from. *)
From Coq Require Import Reals ZArith List String Bool Arith Lia Lra Psatz.
From Verif Require Import Expr Kin KinSpec Trig Solver SolverSpec SolverFacts SolverInv Sympy0.
Import ListNotations.
Local Open Scope R_scope.
Local Open Scope string_scope.
Local Open Scope list_scope.

Lemma solutions_add e u : solutions (add_solution e u) = solutions u ++ [e].
Proof. destruct u as [? ? ? ? ? ? ? ? ? []]; reflexivity. Qed.
Lemma solutions_adds l : forall u, solutions (fold_left (fun u e => add_solution e u) l u) = solutions u ++ l.
Proof. induction l; simpl; intros u. { rewrite app_nil_r. auto. } rewrite IHl, solutions_add, <- app_assoc. auto. Qed.
Lemma finish_solved i s b s' : finish (set_solved i s) = OK b s' ->
  (i < List.length (s_heap s))%nat /\ b = true /\ exists o d n, getu (s_heap s') i = solved_unk o d n (getu (s_heap s) i).
Proof.
  destruct (set_solved i s) as [s1|] eqn:E; simpl; [|discriminate]. intros H. injection H as <- <-.
  destruct (Nat.lt_ge_cases i (List.length (s_heap s))) as [Hi|Hi]. 2:{ exfalso. eapply set_solved_oob; eauto. }
  destruct (set_solved_spec i s s1 Hi E) as (deps & nver & _ & _ & _ & Eh & _). split; [auto|split; auto].
  exists (S (s_solveN s)), deps, nver. rewrite Eh. apply getu_updh_same. auto.
Qed.
Lemma getu_upd i f s : (i < List.length (s_heap s))%nat -> getu (s_heap (upd_unk i f s)) i = f (getu (s_heap s) i).
Proof. intros. unfold upd_unk. cbn [s_heap set_s_heap]. apply getu_updh_same. auto. Qed.
Lemma upd_len i f s : List.length (s_heap (upd_unk i f s)) = List.length (s_heap s).
Proof. unfold upd_unk. cbn [s_heap set_s_heap]. apply updh_length. Qed.
Lemma getu_oob i s : (List.length (s_heap s) <= i)%nat -> getu (s_heap s) i = new_unknown "".
Proof. intros. unfold getu. apply nth_overflow. auto. Qed.

Section Solvers.
Context (sy : sympy) (HOK : sympy_ok sy).

(** A chain of value-keeping rewrites of the residual keeps the equation. *)
Lemma holds_rewritten rho q f : keeps_value f -> defd rho (k_lhs q) -> defd rho (k_rhs q) ->
  defd rho (f (resid sy q)) /\ (holds rho q <-> 0 = eval rho (f (resid sy q))).
Proof.
  intros K D1 D2. destruct (resid_defd sy HOK rho q D1 D2) as [D E]. destruct (K rho _ D) as [D' E']. split; auto. rewrite E', E. unfold holds. lra.
Qed.
Lemma keeps_comp f g : keeps_value f -> keeps_value g -> keeps_value (fun e => g (f e)).
Proof. intros Hf Hg rho e D. destruct (Hf rho e D) as [D1 E1]. destruct (Hg rho _ D1) as [D2 E2]. split; auto. congruence. Qed.

(** In all theorems below the current unknown is a valid reference: position [i] of the heap. *)
Definition current (s : state) (i : nat) : Prop := s_curr s = Some i /\ (i < List.length (s_heap s))%nat.
Ltac start H f := unfold f in H; unfold seq2 in H.

(** * C30 algebra solver *)
(** Whenever identification and solution succeed, one solution is added for an equation of the one-unknown list; it does
    not mention the unknown, and wherever it is defined (its denominator is not zero) the equation holds exactly when
    the unknown has that value. *)
Theorem C30_algebra_exact s s' i : current s i -> alg_sol sy s = OK true s' ->
  let u := u_sym (getu (s_heap s) i) in
  exists e sol, In e (s_L1 s)
    /\ solutions (getu (s_heap s') i) = solutions (getu (s_heap s) i) ++ [sol]
    /\ u_solved (getu (s_heap s') i) = true
    /\ has u sol = false
    /\ forall rho, defd rho (k_lhs e) -> defd rho (k_rhs e) -> defd rho sol -> (holds rho e <-> rho u = eval rho sol).
Proof.
  intros [Hc Hi] H. start H alg_sol. destruct (algebra_id sy s) as [[] s1|] eqn:E; try discriminate.
  unfold algebra_id in E. destruct (_ =? _)%nat; [discriminate|]. unfold with_curr in E. rewrite Hc in E. set (u := getu (s_heap s) i) in *.
  destruct (u_solved u); [discriminate|]. destruct (first_some _ _) as [tmp|] eqn:F; [|discriminate]. injection E as <-.
  apply first_some_in in F as (e & He & F). unfold algebra_solve, with_curr in H. change (s_curr (upd_unk _ _ s)) with (s_curr s) in H. rewrite Hc in H.
  rewrite getu_upd in H by auto. fold u in H. cbn [u_ready add_method set_u_method set_u_eqn set_u_ready u_method u_eqn u_sym] in H.
  destruct (_ && _) eqn:Eb.
  2:{ exfalso. revert Eb. simpl. clear. intros Eb. assert (X : forall a, contains "algebra" (append a "algebra") = true).
      { clear. induction a; [reflexivity|]. simpl append. cbn [contains]. rewrite IHa. apply orb_true_r. } rewrite X in Eb. discriminate. }
  cbn [k_lhs k_rhs] in H. destruct (linear_match sy tmp (u_sym u)) as [[A B]|] eqn:LM; [|discriminate].
  set (sol := Div (Sub (Num 0) B) A) in *. destruct (has (u_sym u) sol) eqn:Hs; [discriminate|].
  apply finish_solved in H as (Hl & _ & o & d & n & Eu). rewrite getu_upd in Eu by (rewrite upd_len; auto). rewrite getu_upd in Eu by auto. fold u in Eu.
  exists e, sol. split; auto. rewrite Eu. split. { unfold solved_unk. transitivity (solutions (add_solution sol u)); [|apply solutions_add]. destruct u as [? ? ? ? ? ? ? ? ? []]; reflexivity. }
  split. { reflexivity. } split; auto. intros rho D1 D2 DS.
  unfold algebra_try in F. destruct (_ || _ || _ || _); [discriminate|]. destruct (_ || _); [|discriminate]. destruct (linear_match sy _ _); [|discriminate]. injection F as F.
  destruct (holds_rewritten rho e (fun x => sy_collect sy [Sym (u_sym u)] (sy_expand sy x))) as [Dt Ht]; auto.
  { apply keeps_comp; [apply HOK|apply (ok_collect sy HOK)]. }
  rewrite Ht. rewrite F in *. unfold linear_match in LM. destruct (sy_match _ _ _ _) as [[A' B']|] eqn:M; [|discriminate]. destruct (is0 _ _); [discriminate|]. injection LM as -> ->.
  apply (alg_iff sy HOK rho (u_sym u) (Num 0) tmp A B M); simpl; auto.
Qed.

(** * C31 arcsin / arccos solver *)
(** The stored pair of solutions comes from one equation of the one-unknown list, does not mention the unknown, and
    wherever the argument is defined the equation holds exactly when the argument is in [-1,1] and the unknown is one
    of the two values modulo full turns. *)
Theorem C31_sincos_exact s s' i : current s i -> u_ref (getu (s_heap s) i) = Own ->
  sc_sol sy s = OK true s' ->
  let u := u_sym (getu (s_heap s) i) in
  exists e t sols, In e (s_L1 s)
    /\ (sols = [Asin t; Sub PiE (Asin t)] \/ sols = [Acos t; Neg (Acos t)])
    /\ u_sc (getu (s_heap s') i) = u_sc (getu (s_heap s) i) ++ sols
    /\ solutions (getu (s_heap s') i) = solutions (getu (s_heap s) i) ++ sols
    /\ has u t = false
    /\ forall rho, defd rho (k_lhs e) -> defd rho (k_rhs e) -> defd rho t ->
         (holds rho e <-> -1 <= eval rho t <= 1 /\ among rho (rho u) sols).
Proof.
  intros [Hc Hi] Href H. start H sc_sol. destruct (sincos_id s) as [[] s1|] eqn:E; try discriminate.
  unfold sincos_id, with_curr in E. rewrite Hc in E. set (u := getu (s_heap s) i) in *. destruct (_ && _); [|discriminate].
  destruct (first_some _ _) as [[iss e]|] eqn:F; [|discriminate]. injection E as <-. apply first_some_in in F as (e' & He & F).
  assert (Ee : e = e'). { unfold sincos_try in F. destruct (_ && _); [discriminate|]. destruct (_ || _); [congruence|]. destruct (_ || _); congruence. } subst e'.
  unfold sincos_solve, with_curr in H. change (s_curr (upd_unk _ _ s)) with (s_curr s) in H. rewrite Hc in H. rewrite getu_upd in H by auto. fold u in H.
  cbn [u_scable set_u_scable u_eqn add_method set_u_method set_u_eqn u_sym u_method] in H.
  assert (Store : forall s1 s2 v, u_ref v = Own -> u_sc (sincos_store s1 s2 e v) = u_sc v ++ [s1; s2] /\ solutions (sincos_store s1 s2 e v) = solutions v ++ [s1; s2]).
  { intros s1 s2 v Hv. destruct v as [? ? ? ? ? ? ? ? ? []]; simpl in *; try discriminate. unfold sincos_store, solutions. simpl. rewrite <- !app_assoc. auto. }
  assert (Kc := ok_collect sy HOK (both_terms (u_sym u))).
  destruct (contains "arcsin" _).
  - destruct (sy_match _ _ _ _) as [[A B]|] eqn:M; [|discriminate]. set (t := Div (Sub (k_lhs e) B) A) in *.
    destruct (has (u_sym u) t) eqn:Ht; [discriminate|]. injection H as <-. rewrite getu_upd by (rewrite upd_len; auto). rewrite getu_upd by auto. fold u.
    destruct (Store (Asin t) (Sub PiE (Asin t)) (set_u_scable true (add_method (append (if (0 <? String.length (u_method u))%nat then ", " else "") (if iss then "arcsin" else "arccos")) (set_u_eqn (Some e) u))) Href) as [S1 S2].
    exists e, t, [Asin t; Sub PiE (Asin t)]. split; auto. split; auto. split; [exact S1|]. split; [exact S2|]. split; auto. intros rho D1 D2 DT.
    destruct (Kc rho _ D2) as [D2' E2]. exact (asin_iff sy HOK rho _ _ (k_rhs e) _ _ _ M D1 D2' E2 DT).
  - destruct (contains "arccos" _); [|discriminate].
    destruct (sy_match _ _ _ _) as [[A B]|] eqn:M; [|discriminate]. set (t := Div (Sub (k_lhs e) B) A) in *.
    destruct (has (u_sym u) t) eqn:Ht; [discriminate|]. injection H as <-. rewrite getu_upd by (rewrite upd_len; auto). rewrite getu_upd by auto. fold u.
    destruct (Store (Acos t) (Neg (Acos t)) (set_u_scable true (add_method (append (if (0 <? String.length (u_method u))%nat then ", " else "") (if iss then "arcsin" else "arccos")) (set_u_eqn (Some e) u))) Href) as [S1 S2].
    exists e, t, [Acos t; Neg (Acos t)]. split; auto. split; auto. split; [exact S1|]. split; [exact S2|]. split; auto. intros rho D1 D2 DT.
    destruct (Kc rho _ D2) as [D2' E2]. exact (acos_iff sy HOK rho _ _ (k_rhs e) _ _ _ M D1 D2' E2 DT).
Qed.

(** * C32 atan2 solver *)
Lemma tan_store_u_tan sols q1 q2 asm u : u_tan (tan_store sols q1 q2 asm u) = (match u_ref u with RefTan => u_tan u ++ sols | _ => u_tan u end) ++ sols.
Proof.
  assert (X : forall l v, u_tan (fold_left (fun u e => set_u_tan (u_tan u ++ [e]) u) l v) = u_tan v ++ l).
  { induction l; simpl; intros v. { rewrite app_nil_r. auto. } rewrite IHl. simpl. rewrite <- app_assoc. auto. }
  unfold tan_store. cbn [u_tan set_u_nsol set_u_assume set_u_taneq]. rewrite X. f_equal.
  clear X. revert u. induction sols; simpl; intros u. { destruct u as [? ? ? ? ? ? ? ? ? []]; simpl; auto. rewrite app_nil_r. auto. }
  rewrite IHsols. destruct u as [? ? ? ? ? ? ? ? ? []]; simpl; auto. rewrite <- app_assoc. auto.
Qed.
Lemma tan_store_own sols q1 q2 asm u : u_ref u = Own -> solutions (tan_store sols q1 q2 asm u) = solutions u ++ sols.
Proof.
  intros H. assert (X : forall l v, u_ref v = Own -> solutions (fold_left (fun u e => set_u_tan (u_tan u ++ [e]) u) l v) = solutions v).
  { induction l; simpl; intros v Hv; auto. rewrite IHl by auto. destruct v as [? ? ? ? ? ? ? ? ? []]; auto; discriminate. }
  assert (Y : forall l v, u_ref v = Own -> u_ref (fold_left (fun u e => add_solution e u) l v) = Own).
  { induction l; simpl; intros v Hv; auto. apply IHl. destruct v as [? ? ? ? ? ? ? ? ? []]; auto; discriminate. }
  unfold tan_store. transitivity (solutions (fold_left (fun u e => set_u_tan (u_tan u ++ [e]) u) sols (fold_left (fun u e => add_solution e u) sols u))).
  { reflexivity. } rewrite X by auto. apply solutions_adds.
Qed.
Lemma tan_store_assume sols q1 q2 asm u : u_assume (tan_store sols q1 q2 asm u) = u_assume u ++ asm.
Proof.
  unfold tan_store. cbn [u_assume set_u_nsol set_u_assume]. f_equal. cbn [u_assume set_u_taneq].
  assert (X : forall l v, u_assume (fold_left (fun u e => set_u_tan (u_tan u ++ [e]) u) l v) = u_assume v) by (induction l; simpl; intros; auto; rewrite IHl; auto).
  rewrite X. clear. revert u. induction sols; simpl; intros u; auto. rewrite IHsols. destruct u as [? ? ? ? ? ? ? ? ? []]; auto.
Qed.

(** Whenever the pair is newly identified and solved, the stored solutions come from two listed equations es, ec.
    With known coefficients there is one solution atan2(y,x): wherever y and x are defined both equations hold exactly
    when x^2+y^2 = 1 and the unknown is atan2(y,x) modulo full turns.  With a common unsolved coefficient there are two
    candidates with recorded assumptions (positive, negative) on that coefficient A2: whenever both equations hold and
    the candidates are defined, A2 is not zero and the candidate whose assumption holds is the unknown modulo full turns. *)
Theorem C32_tan_exact s s' i : current s i -> u_ref (getu (s_heap s) i) = Own ->
  u_tanable (getu (s_heap s) i) = false -> u_solved (getu (s_heap s) i) = false ->
  tan_sol sy s = OK true s' ->
  let u := u_sym (getu (s_heap s) i) in
  exists es ec sols asm, In es (s_L1 s ++ s_L2 s) /\ In ec (s_L1 s ++ s_L2 s)
    /\ u_tan (getu (s_heap s') i) = u_tan (getu (s_heap s) i) ++ sols
    /\ solutions (getu (s_heap s') i) = solutions (getu (s_heap s) i) ++ sols
    /\ u_assume (getu (s_heap s') i) = u_assume (getu (s_heap s) i) ++ asm
    /\ ((exists y x, sols = [Atan2 y x] /\ asm = []
           /\ forall rho, defd rho (k_lhs es) -> defd rho (k_rhs es) -> defd rho (k_lhs ec) -> defd rho (k_rhs ec) -> defd rho y -> defd rho x ->
                (holds rho es /\ holds rho ec <->
                 eval rho x * eval rho x + eval rho y * eval rho y = 1 /\ cong (rho u) (eval rho (Atan2 y x))))
        \/ (exists s1 s2 A2, sols = [s1; s2] /\ asm = [(true, A2); (false, A2)]
           /\ forall rho, ok_at rho es -> ok_at rho ec -> all_defd rho sols ->
                (0 < eval rho A2 /\ cong (rho u) (eval rho s1)) \/ (eval rho A2 < 0 /\ cong (rho u) (eval rho s2)))).
Proof.
  intros [Hc Hi] Href Htan Hsol H. unfold tan_sol, seq2, tan_id in H. unfold with_curr in H at 1. rewrite Hc in H. set (u := getu (s_heap s) i) in *.
  rewrite Htan, Hsol in H. cbn [negb andb] in H.
  destruct (first_some _ _) as [[e1 e2]|] eqn:F. 2:{ fold u in H. rewrite Htan in H. discriminate. }
  apply first_some_in in F as (es & Hes & F). apply first_some_in in F as (ec & Hec & F).
  apply filter_In in Hes as [Hes _]. apply filter_In in Hec as [Hec _].
  rewrite getu_upd in H by auto. cbn [u_tanable set_u_tanable] in H. unfold tan_solve, with_curr in H.
  change (s_curr (upd_unk _ _ s)) with (s_curr s) in H. rewrite Hc in H. rewrite getu_upd in H by auto. fold u in H.
  cbn [u_tanable set_u_tanable u_eqn u_eqn2 add_method set_u_method set_u_eqn set_u_eqn2 set_u_ready u_sym k_lhs k_rhs] in H.
  unfold tan_pair in F. destruct (sy_match sy _ _ _) as [[A B]|] eqn:M1 in F; [|discriminate]. destruct (sy_match sy _ _ _) as [[C D]|] eqn:M2 in F; [|discriminate].
  destruct (_ && _) in F; [|discriminate]. injection F as <- <-. rewrite M1, M2 in H.
  destruct (_ || _) in H; [discriminate|].
  set (f := fun u : unk => set_u_tanable _ _) in H.
  assert (K := ok_collect sy HOK (both_terms (u_sym u))).
  assert (HH : forall rho, defd rho (k_lhs es) -> defd rho (k_rhs es) -> defd rho (k_lhs ec) -> defd rho (k_rhs ec) ->
     let r1 := sy_collect sy (both_terms (u_sym u)) (resid sy es) in let r2 := sy_collect sy (both_terms (u_sym u)) (resid sy ec) in
     defd rho r1 /\ defd rho r2 /\ (holds rho es <-> 0 = eval rho r1) /\ (holds rho ec <-> 0 = eval rho r2)).
  { intros rho D1 D2 D3 D4. destruct (holds_rewritten rho es _ K D1 D2). destruct (holds_rewritten rho ec _ K D3 D4). cbv zeta. auto. }
  exists es, ec. destruct (_ =? 0)%nat in H; injection H as <-; rewrite getu_upd by (rewrite upd_len; auto); rewrite getu_upd by auto; fold u.
  - eexists _, _. split; [exact Hes|]. split; [exact Hec|]. split. { rewrite tan_store_u_tan. change (u_ref (f u)) with (u_ref u). rewrite Href. reflexivity. }
    split. { apply (tan_store_own _ _ _ _ (f u)). exact Href. } split. { apply (tan_store_assume _ _ _ _ (f u)). }
    left. eexists _, _. split; [reflexivity|]. split; [reflexivity|]. intros rho D1 D2 D3 D4 Dy Dx.
    destruct (HH rho D1 D2 D3 D4) as (Dr1 & Dr2 & E1 & E2). rewrite E1, E2.
    exact (tan_iff sy HOK rho (u_sym u) (Num 0) _ (Num 0) _ _ _ _ _ M1 M2 Dr1 Dr2 Dy Dx).
  - eexists _, _. split; [exact Hes|]. split; [exact Hec|]. split. { rewrite tan_store_u_tan. change (u_ref (f u)) with (u_ref u). rewrite Href. reflexivity. }
    split. { apply (tan_store_own _ _ _ _ (f u)). exact Href. } split. { apply (tan_store_assume _ _ _ _ (f u)). }
    right. eexists _, _, C. split; [reflexivity|]. split; [reflexivity|]. intros rho (D1 & D2 & H1) (D3 & D4 & H2) AD.
    destruct (HH rho D1 D2 D3 D4) as (Dr1 & Dr2 & E1 & E2). apply E1 in H1. apply E2 in H2.
    destruct (tan2_cover sy HOK rho (u_sym u) (Num 0) _ (Num 0) _ _ _ _ _ M1 M2 Dr1 Dr2 H1 H2) as (P1 & P2 & P3).
    assert (Ds1 := AD _ (or_introl eq_refl)). assert (Ds2 := AD _ (or_intror (or_introl eq_refl))).
    specialize (P3 Ds1). destruct (Rtotal_order (eval rho C) 0) as [L|[L|L]]; [right|contradiction|left]; split; auto.
Qed.

(** * C33 A sin + B cos = C solver *)
Lemma defd_ext e : forall r1 r2, (forall s, has s e = true -> r1 s = r2 s) -> defd r1 e -> defd r2 e.
Proof.
  assert (Two : forall e1 e2 (r1 r2 : env), (forall s, has s e1 || has s e2 = true -> r1 s = r2 s) ->
    (forall s, has s e1 = true -> r1 s = r2 s) /\ (forall s, has s e2 = true -> r1 s = r2 s)).
  { intros e1 e2 r1 r2 H. split; intros s Hs; apply H; rewrite Hs, ?orb_true_r; auto. }
  induction e; intros r1 r2 H; cbn [defd]; auto; cbn [has] in H; try (apply IHe; exact H);
    try (apply Two in H as [K1 K2]; specialize (IHe1 _ _ K1); specialize (IHe2 _ _ K2); rewrite ?(eval_ext e1 r1 r2 K1), ?(eval_ext e2 r1 r2 K2); tauto);
    specialize (IHe _ _ H); rewrite (eval_ext e r1 r2 H); tauto.
Qed.
Lemma upd_same rho s : forall t, upd rho s (rho s) t = rho t.
Proof. intros t. unfold upd. destruct (String.eqb_spec t s); congruence. Qed.

Lemma sac_try_rest u e es : sac_try sy u e = Some es ->
  let A := sy_coeff sy (Sin (Sym u)) es in let B := sy_coeff sy (Cos (Sym u)) es in
  has u (sy_norm sy (Sub (Sub es (Mul A (Sin (Sym u)))) (Mul B (Cos (Sym u))))) = false.
Proof.
  unfold sac_try. destruct (_ && _); [|discriminate]. cbv zeta. destruct (has _ _) eqn:Hh; [discriminate|]. intros H. injection H as <-. exact Hh.
Qed.

(** The two stored solutions come from one equation e of the one-unknown list, decomposed as A sin u + B cos u - C = 0.
    At every point where e, A and B are defined and A, B are not both zero, e holds exactly when both solutions are
    defined and the unknown is one of them modulo full turns.
    The solutions can be computed before the unknown is known: wherever A and B do not depend on the unknown, giving the unknown
    a value v that is one of the two solutions evaluated at a point where the unknown had any other value makes e hold. *)
Theorem C33_sinandcos_exact s s' i : current s i -> sac_sol sy s = OK true s' ->
  let u := u_sym (getu (s_heap s) i) in
  exists e A B C sols, In e (s_L1 s)
    /\ (sols = [Atan2 (Neg B) A; Add (Atan2 (Neg B) A) PiE]
        \/ sols = [Add (Atan2 A B) (Atan2 (Sqrt (Sub (Add (Mul A A) (Mul B B)) (Mul C C))) C);
                   Add (Atan2 A B) (Atan2 (Neg (Sqrt (Sub (Add (Mul A A) (Mul B B)) (Mul C C)))) C)])
    /\ solutions (getu (s_heap s') i) = solutions (getu (s_heap s) i) ++ sols
    /\ u_solved (getu (s_heap s') i) = true
    /\ forall rho, defd rho (k_lhs e) -> defd rho (k_rhs e) -> defd rho A -> defd rho B -> ~ (eval rho A = 0 /\ eval rho B = 0) ->
         (holds rho e <-> all_defd rho sols /\ among rho (rho u) sols)
         /\ (forall v, let r := upd rho u v in defd r (k_lhs e) -> defd r (k_rhs e) -> defd r A -> defd r B ->
              eval r A = eval rho A -> eval r B = eval rho B -> all_defd rho sols -> among rho v sols -> holds r e).
Proof.
  intros [Hc Hi] H. unfold sac_sol, seq2 in H. destruct (sinandcos_id sy s) as [[] s1|] eqn:E; try discriminate.
  unfold sinandcos_id, with_curr in E. rewrite Hc in E. set (u := getu (s_heap s) i) in *.
  destruct (u_solved u) eqn:Hso; [discriminate|]. destruct (first_some _ _) as [es|] eqn:F; [|discriminate]. injection E as <-.
  apply first_some_in in F as (e & He & F). unfold sinandcos_solve, with_curr in H. change (s_curr (upd_unk _ _ s)) with (s_curr s) in H. rewrite Hc in H.
  rewrite getu_upd in H by auto. fold u in H. cbn [u_ready u_solved add_method set_u_method set_u_eqn set_u_ready u_method u_eqn u_sym k_rhs] in H.
  rewrite Hso in H. cbn [negb andb] in H.
  destruct (contains _ _) eqn:Eb in H.
  2:{ exfalso. revert Eb. clear. assert (X : forall a, contains "sinANDcos" (append a "sinANDcos") = true).
      { clear. induction a; [reflexivity|]. simpl append. cbn [contains]. rewrite IHa. apply orb_true_r. } rewrite X. discriminate. }
  set (A := sy_coeff sy (Sin (Sym (u_sym u))) es) in *. set (B := sy_coeff sy (Cos (Sym (u_sym u))) es) in *.
  set (C := sy_norm sy (Sub (Add (Mul A (Sin (Sym (u_sym u)))) (Mul B (Cos (Sym (u_sym u))))) es)) in *.
  destruct (is0 sy (Add _ _)); [discriminate|].
  set (t := Sqrt (Sub (Add (Mul A A) (Mul B B)) (Mul C C))) in *.
  assert (Hes : forall rho, defd rho (k_lhs e) -> defd rho (k_rhs e) -> defd rho es /\ (holds rho e <-> 0 = eval rho es)).
  { intros rho D1 D2. unfold sac_try in F. destruct (_ && _) in F; [|discriminate]. destruct (has _ _) in F; [discriminate|]. injection F as <-.
    apply (holds_rewritten rho e (fun x => sy_collect sy [Cos (Sym (u_sym u))] (sy_collect sy [Sin (Sym (u_sym u))] (sy_expand sy x)))); auto.
    apply (keeps_comp (fun x => sy_collect sy [Sin (Sym (u_sym u))] (sy_expand sy x))); [|apply (ok_collect sy HOK)].
    apply (keeps_comp (sy_expand sy)); [apply HOK|apply (ok_collect sy HOK)]. }
  assert (HC : forall r1 r2, (forall t, t <> u_sym u -> r1 t = r2 t) -> defd r1 es -> defd r2 es -> defd r1 A -> defd r2 A -> defd r1 B -> defd r2 B ->
      eval r1 C = eval r2 C).
  { intros r1 r2 HR D1 D2 DA1 DA2 DB1 DB2. pose proof (sac_try_rest _ _ _ F) as Hh. cbv zeta in Hh. fold A B in Hh.
    assert (E : forall r, defd r es -> defd r A -> defd r B ->
      eval r C = - eval r (sy_norm sy (Sub (Sub es (Mul A (Sin (Sym (u_sym u))))) (Mul B (Cos (Sym (u_sym u))))))).
    { intros r D DA DB. subst C. destruct (ok_norm sy HOK r (Sub (Sub es (Mul A (Sin (Sym (u_sym u))))) (Mul B (Cos (Sym (u_sym u)))))) as [_ ->]; [cbn [Sub defd]; auto 10|].
      destruct (ok_norm sy HOK r (Sub (Add (Mul A (Sin (Sym (u_sym u)))) (Mul B (Cos (Sym (u_sym u))))) es)) as [_ ->]; [cbn [Sub defd]; auto 10|].
      cbn [Sub eval]. ring. }
    rewrite !E by auto. f_equal. apply eval_ext. intros x Hx. apply HR. intros ->. congruence. }
  assert (Fin : forall sols b s', finish (set_solved i (upd_unk i (fun u => set_u_nsol 2 (fold_left (fun u e => add_solution e u) sols u))
        (upd_unk i (fun u0 => add_method "sinANDcos" (set_u_eqn (Some (Keq (Num 0) es)) (set_u_ready true u0))) s))) = OK b s' ->
      solutions (getu (s_heap s') i) = solutions u ++ sols /\ u_solved (getu (s_heap s') i) = true).
  { clear. intros sols b s' H. apply finish_solved in H as (Hl & _ & o & d & n & Eu). rewrite !upd_len in Hl.
    rewrite getu_upd in Eu by (rewrite upd_len; auto). rewrite getu_upd in Eu by auto. fold u in Eu. rewrite Eu. split; [|reflexivity].
    transitivity (solutions (fold_left (fun u e => add_solution e u) sols (add_method "sinANDcos" (set_u_eqn (Some (Keq (Num 0) es)) (set_u_ready true u))))).
    { reflexivity. } rewrite solutions_adds. reflexivity. }
  destruct (is0 sy C) eqn:EC.
  - apply Fin in H as [H1 H2]. exists e, A, B, C, [Atan2 (Neg B) A; Add (Atan2 (Neg B) A) PiE].
    split; [exact He|]. split; [left; reflexivity|]. split; [exact H1|]. split; [exact H2|]. intros rho D1 D2 DA DB NZ.
    destruct (Hes rho D1 D2) as [De Ee]. rewrite Ee.
    assert (DD : defd rho (Atan2 (Neg B) A)). { cbn [defd eval]. repeat split; auto. intros [Z1 Z2]. apply NZ. split; lra. }
    destruct (sac0_iff sy HOK rho (u_sym u) es A B C De eq_refl EC DD) as [P1 P2].
    split.
    2:{ intros v r V1 V2 V3 V4 V5 V6 V7 V8. destruct (Hes r V1 V2) as [Vd Ve]. apply Ve. symmetry. apply P2; auto. }
    split; [exact P1|]. intros [AD AM].
    specialize (P2 (rho (u_sym u))). cbv zeta in P2.
    assert (Ex : forall x, eval (upd rho (u_sym u) (rho (u_sym u))) x = eval rho x) by (intros x; apply eval_ext; intros; apply upd_same).
    assert (Dx : forall x, defd rho x -> defd (upd rho (u_sym u) (rho (u_sym u))) x) by (intros x; apply defd_ext; intros; symmetry; apply upd_same).
    rewrite !Ex in P2. symmetry. apply P2; auto.
  - apply Fin in H as [H1 H2]. exists e, A, B, C, [Add (Atan2 A B) (Atan2 t C); Add (Atan2 A B) (Atan2 (Neg t) C)].
    split; [exact He|]. split; [right; reflexivity|]. split; [exact H1|]. split; [exact H2|]. intros rho D1 D2 DA DB NZ.
    destruct (Hes rho D1 D2) as [De Ee]. rewrite Ee.
    assert (DD : defd rho (Atan2 A B)). { cbn [defd eval]. repeat split; auto. intros [Z1 Z2]. apply NZ. split; lra. }
    destruct (sac_iff sy HOK rho (u_sym u) es A B C De eq_refl DD) as [P1 P2].
    split.
    2:{ intros v r V1 V2 V3 V4 V5 V6 V7 V8. destruct (Hes r V1 V2) as [Vd Ve]. apply Ve. symmetry. apply P2; auto.
        apply HC; auto. intros x Hx. unfold upd. destruct (String.eqb_spec x (u_sym u)); congruence. }
    split; [exact P1|]. intros [AD AM].
    specialize (P2 (rho (u_sym u))). cbv zeta in P2.
    assert (Ex : forall x, eval (upd rho (u_sym u) (rho (u_sym u))) x = eval rho x) by (intros x; apply eval_ext; intros; apply upd_same).
    assert (Dx : forall x, defd rho x -> defd (upd rho (u_sym u) (rho (u_sym u))) x) by (intros x; apply defd_ext; intros; symmetry; apply upd_same).
    rewrite !Ex in P2. symmetry. apply P2; auto.
Qed.

(** * C34 simultaneous equations *)
(** The stored solution replaces earlier ones and comes from two equations of the one-unknown list.  At every point
    where the solution is defined and both equations hold, the unknown is the solution modulo full turns. *)
Lemma simu_eqns_from u L : forall f, In f (simu_eqns sy u L) -> exists e, In e L /\ f = sy_collect sy [Cos (Sym u)] (sy_collect sy [Sin (Sym u)] (sy_expand sy (resid sy e))).
Proof.
  unfold simu_eqns. apply (fold_inv (fun acc => forall f, In f acc -> exists e, In e L /\ f = sy_collect sy [Cos (Sym u)] (sy_collect sy [Sin (Sym u)] (sy_expand sy (resid sy e))))).
  - intros ? [].
  - intros acc e He IH f Hf. destruct (simu_flat sy u e) as [h|] eqn:S; [|apply IH; exact Hf].
    destruct (existsb _ _); [apply IH; exact Hf|]. apply in_app_iff in Hf as [Hf|[<-|[]]]; [apply IH; exact Hf|].
    exists e. split; [exact He|]. unfold simu_flat in S. destruct (_ || _); [|discriminate]. congruence.
Qed.
Lemma simu_pairs_from u l e1 e2 : simu_pairs sy u l = Some (e1, e2) -> In e1 l /\ exists c, In c l /\ (e2 = c \/ e2 = sy_norm sy (Neg c)).
Proof.
  assert (Can : forall a b r, canonical_second_eqn sy u a b = Some r -> r = b \/ r = sy_norm sy (Neg b)).
  { intros a b r. unfold canonical_second_eqn. destruct (_ && _); [discriminate|]. destruct (_ && _); [intros H; injection H as <-; auto|].
    destruct (_ && _); [intros H; injection H as <-; auto|discriminate]. }
  induction l as [|c1 l IH]; cbn [simu_pairs]; [discriminate|]. destruct (first_some _ _) as [r|] eqn:F.
  - intros H; injection H as ->. apply first_some_in in F as (c2 & Hc & F). unfold simu_pair in F. destruct (_ || _); [discriminate|].
    destruct (canonical_second_eqn sy u c1 c2) as [n|] eqn:E; [|destruct (canonical_second_eqn sy u c2 c1) as [n|] eqn:E'; [|discriminate]]; injection F as <- <-.
    + split; [simpl; auto|]. exists c2. split; [simpl; auto|]. eauto.
    + split; [simpl; auto|]. exists c1. split; [simpl; auto|]. eauto.
  - intros H. destruct (IH H) as (? & c & ? & ?). split; [simpl; auto|]. exists c. simpl. auto.
Qed.
Theorem C34_simultaneous_exact s s' i : current s i -> simu_sol sy s = OK true s' ->
  let u := u_sym (getu (s_heap s) i) in
  exists ea eb A B C D, let sol := Atan2 (Sub (Mul A C) (Mul B D)) (Add (Mul A D) (Mul B C)) in
    In ea (s_L1 s) /\ In eb (s_L1 s)
    /\ solutions (getu (s_heap s') i) = [sol]
    /\ u_solved (getu (s_heap s') i) = true
    /\ forall rho, defd rho (k_lhs ea) -> defd rho (k_rhs ea) -> defd rho (k_lhs eb) -> defd rho (k_rhs eb) -> defd rho sol ->
         (holds rho ea /\ holds rho eb <->
          eval rho C * eval rho C + eval rho D * eval rho D = eval rho A * eval rho A + eval rho B * eval rho B /\ cong (rho u) (eval rho sol)).
Proof.
  intros [Hc Hi] H. unfold simu_sol, seq2 in H. destruct (simu_id sy s) as [[] s1|] eqn:E; try discriminate.
  unfold simu_id, with_curr in E. rewrite Hc in E. set (u := getu (s_heap s) i) in *.
  destruct (u_solved u) eqn:Hso; [discriminate|]. destruct (simu_pairs _ _ _) as [[e1 e2]|] eqn:F; [|discriminate]. injection E as <-.
  apply simu_pairs_from in F as (F1 & c & F2 & Ec). apply simu_eqns_from in F1 as (ea & Hea & Ea). apply simu_eqns_from in F2 as (eb & Heb & Eb).
  unfold simu_solver, with_curr in H. change (s_curr (upd_unk _ _ s)) with (s_curr s) in H. rewrite Hc in H.
  rewrite getu_upd in H by auto. fold u in H. cbn [add_method set_u_method set_u_eqn set_u_eqn2 u_method u_eqn u_eqn2 u_sym k_rhs] in H.
  set (A := sy_coeff sy (Sin (Sym (u_sym u))) e1) in *. set (B := sy_coeff sy (Cos (Sym (u_sym u))) e1) in *.
  set (C := sy_simplify sy (Sub (Add (Mul A (Sin (Sym (u_sym u)))) (Mul B (Cos (Sym (u_sym u))))) e1)) in *.
  set (D := sy_simplify sy (Sub (Sub (Mul A (Cos (Sym (u_sym u)))) (Mul B (Sin (Sym (u_sym u))))) e2)) in *.
  destruct (_ && _); [discriminate|].
  set (sol := Atan2 (Sub (Mul A C) (Mul B D)) (Add (Mul A D) (Mul B C))) in *.
  apply finish_solved in H as (Hl & _ & o & d & n & Eu). rewrite !upd_len in Hl.
  rewrite getu_upd in Eu by (rewrite upd_len; auto). rewrite getu_upd in Eu by auto. fold u in Eu.
  exists ea, eb, A, B, C, D. cbv zeta. fold sol. split; [exact Hea|]. split; [exact Heb|]. rewrite Eu. split; [reflexivity|]. split; [reflexivity|].
  intros rho D1 D2 D3 D4 DS.
  assert (K : keeps_value (fun x => sy_collect sy [Cos (Sym (u_sym u))] (sy_collect sy [Sin (Sym (u_sym u))] (sy_expand sy x)))).
  { apply (keeps_comp (fun x => sy_collect sy [Sin (Sym (u_sym u))] (sy_expand sy x))); [|apply (ok_collect sy HOK)].
    apply (keeps_comp (sy_expand sy)); [apply HOK|apply (ok_collect sy HOK)]. }
  destruct (holds_rewritten rho ea _ K D1 D2) as [Da Ha]. destruct (holds_rewritten rho eb _ K D3 D4) as [Db Hb]. rewrite <- Ea in *. rewrite <- Eb in *.
  assert (E2 : defd rho e2 /\ (eval rho e2 = 0 <-> eval rho c = 0)).
  { destruct Ec as [->| ->]. tauto. destruct (ok_norm sy HOK rho (Neg c) Db) as [? Ev]. split; auto. rewrite Ev. cbn [eval]. split; lra. }
  destruct E2 as [De2 E2]. rewrite Ha, Hb.
  assert (DS' := DS). cbn [sol Sub defd] in DS'. destruct DS' as (((DA & _) & (DB & _)) & _ & N).
  destruct (ok_simplify sy HOK rho (Sub (Add (Mul A (Sin (Sym (u_sym u)))) (Mul B (Cos (Sym (u_sym u))))) e1)) as [_ EC]. { cbn [Sub defd]; auto 10. }
  destruct (ok_simplify sy HOK rho (Sub (Sub (Mul A (Cos (Sym (u_sym u)))) (Mul B (Sin (Sym (u_sym u))))) e2)) as [_ ED]. { cbn [Sub defd]; auto 10. }
  fold C in EC. fold D in ED. cbn [Sub eval] in EC, ED, N. cbn [sol Sub eval].
  assert (NAB : ~ (eval rho A = 0 /\ eval rho B = 0)). { intros [Z1 Z2]. apply N. rewrite Z1, Z2. split; lra. }
  set (sn := sin (rho (u_sym u))) in *. set (cs := cos (rho (u_sym u))) in *.
  assert (SC : sn * sn + cs * cs = 1). { pose proof (sin2_cos2 (rho (u_sym u))) as P. unfold Rsqr in P. exact P. }
  assert (Eq : 0 = eval rho e1 /\ 0 = eval rho c <-> eval rho A * sn + eval rho B * cs = eval rho C /\ eval rho A * cs - eval rho B * sn = eval rho D).
  { rewrite EC, ED. split; intros [P1 P2]; (split; [lra|]). assert (eval rho e2 = 0) by (apply E2; lra). lra. symmetry. apply E2. lra. }
  rewrite Eq. assert (Sq : eval rho A * sn + eval rho B * cs = eval rho C /\ eval rho A * cs - eval rho B * sn = eval rho D ->
     eval rho C * eval rho C + eval rho D * eval rho D = eval rho A * eval rho A + eval rho B * eval rho B).
  { intros [<- <-]. transitivity ((eval rho A * eval rho A + eval rho B * eval rho B) * (sn * sn + cs * cs)); [ring|rewrite SC; ring]. }
  unfold sn, cs. split.
  - intros P. split; [apply Sq; exact P|]. apply pair_iff; auto.
  - intros [P1 P2]. apply pair_iff; auto.
Qed.

(** * C35 sum of squares *)
Lemma x2z2_pairs_from us L l r : x2z2_pairs sy us L = Some (l, r) -> exists a e1 b e2 c, L = a ++ e1 :: b ++ e2 :: c /\ x2z2_pair sy us e1 e2 = Some (l, r).
Proof.
  assert (FS : forall (f : kequation -> option (expr * expr)) L p, first_some f L = Some p -> exists b e c, L = b ++ e :: c /\ f e = Some p).
  { induction L0 as [|e L0 IH]; simpl; [discriminate|]. intros p. destruct (f e) eqn:E; intros H.
    - injection H as <-. exists [], e, L0. auto.
    - destruct (IH _ H) as (b & e' & c & -> & ?). exists (e :: b), e', c. auto. }
  induction L as [|e L IH]; simpl; [discriminate|]. destruct (first_some _ _) as [p|] eqn:E; intros H.
  - injection H as ->. apply FS in E as (b & e2 & c & -> & E). exists [], e, b, e2, c. auto.
  - destruct (IH H) as (a & e1 & b & e2 & c & -> & ?). exists (e :: a), e1, b, e2, c. auto.
Qed.
Lemma x2z2_pair_value us rho e1 e2 l r : x2z2_pair sy us e1 e2 = Some (l, r) -> soa_ok rho ->
  defd rho (k_lhs e1) -> defd rho (k_rhs e1) -> defd rho (k_lhs e2) -> defd rho (k_rhs e2) ->
  defd rho l /\ defd rho r
  /\ eval rho l = eval rho (k_lhs e1) * eval rho (k_lhs e1) + eval rho (k_lhs e2) * eval rho (k_lhs e2)
  /\ eval rho r = eval rho (k_rhs e1) * eval rho (k_rhs e1) + eval rho (k_rhs e2) * eval rho (k_rhs e2).
Proof.
  intros H HSOA D1 D1' D2 D2'. unfold x2z2_pair in H. destruct (_ =? _)%nat; [|discriminate]. destruct (_ =? _)%nat; [|discriminate].
  injection H as <- <-.
  destruct (ok_simplify sy HOK rho (Add (Mul (k_lhs e1) (k_lhs e1)) (Mul (k_lhs e2) (k_lhs e2)))) as [Dl El]. { cbn [defd]; auto. }
  destruct (ok_simplify sy HOK rho (Add (Mul (k_rhs e1) (k_rhs e1)) (Mul (k_rhs e2) (k_rhs e2)))) as [Dr Er]. { cbn [defd]; auto. }
  destruct (fold_subs_ok sy HOK rho soa_expansions) with (e := sy_simplify sy (Add (Mul (k_rhs e1) (k_rhs e1)) (Mul (k_rhs e2) (k_rhs e2)))) as [Ds Es]; auto.
  { destruct HSOA as (h1 & h2 & h3 & h4 & h5 & h6 & h7 & h8 & h9). intros k v Hkv. unfold soa_expansions in Hkv. simpl in Hkv.
    repeat destruct Hkv as [Hkv|Hkv]; try tauto; injection Hkv as <- <-; split; simpl; auto. }
  destruct (ok_simplify sy HOK rho _ Ds) as [Dt Et].
  split; [exact Dl|]. split; [exact Dt|]. split; [exact El|]. exact (eq_trans Et (eq_trans Es Er)).
Qed.
(** A successful transform adds exactly one equation: the sum of the squares of the sides of two equations of the
    two-unknown list (at different positions); its left side has no unsolved unknown and its right side exactly one
    occurrence-counted unsolved unknown.  At every assignment that gives the sum angles their meaning the new equation
    says |lhs|^2 = |rhs|^2, so it holds wherever the two equations hold.  Nothing else of the equation system, the
    equation lists or any solution changes; failure changes nothing. *)
Theorem C35_sum_of_squares s b s' : x2z2_transform sy s = OK b s' ->
  (b = false /\ s' = s)
  \/ (b = true /\ exists e1 e2 l r p q w, s_L2 s = p ++ e1 :: q ++ e2 :: w
      /\ s_aux s' = s_aux s ++ [Keq l r] /\ s_meqs s' = s_meqs s /\ s_L1 s' = s_L1 s /\ s_L2 s' = s_L2 s /\ s_L3 s' = s_L3 s
      /\ count_unknowns (unk_objs s) l = 0%nat /\ count_unknowns (unk_objs s) r = 1%nat
      /\ (forall i, solutions (getu (s_heap s') i) = solutions (getu (s_heap s) i) /\ u_solved (getu (s_heap s') i) = u_solved (getu (s_heap s) i)
                    /\ u_sym (getu (s_heap s') i) = u_sym (getu (s_heap s) i))
      /\ forall rho, soa_ok rho -> defd rho (k_lhs e1) -> defd rho (k_rhs e1) -> defd rho (k_lhs e2) -> defd rho (k_rhs e2) ->
           (holds rho (Keq l r) <->
            eval rho (k_lhs e1) * eval rho (k_lhs e1) + eval rho (k_lhs e2) * eval rho (k_lhs e2)
            = eval rho (k_rhs e1) * eval rho (k_rhs e1) + eval rho (k_rhs e2) * eval rho (k_rhs e2))
           /\ (holds rho e1 -> holds rho e2 -> ok_at rho (Keq l r))).
Proof.
  intros H. unfold x2z2_transform in H. apply with_curr_inv in H as (i & Hc & H). destruct (negb _). { left. injection H as <- <-. auto. }
  destruct (x2z2_pairs _ _ _) as [[l r]|] eqn:E; [|left; injection H as <- <-; auto]. destruct (find _ _) as [j|] eqn:F; [|left; injection H as <- <-; auto].
  right. injection H as <- <-. split; [reflexivity|]. apply x2z2_pairs_from in E as (a & e1 & b & e2 & c & EL & E).
  assert (Sp : forall (f : kequation -> bool) L a e b, filter f L = a ++ e :: b -> exists p q, L = p ++ e :: q /\ filter f q = b).
  { clear. induction L as [|x L IH]; simpl; intros a e b H. { destruct a; discriminate. }
    destruct (f x) eqn:Fx; [destruct a as [|y a]|].
    - injection H as <- <-. exists [], L. auto.
    - injection H as <- H. destruct (IH _ _ _ H) as (p & q & -> & ?). exists (x :: p), q. auto.
    - destruct (IH _ _ _ H) as (p & q & -> & ?). exists (x :: p), q. auto. }
  apply Sp in EL as (p & q & EL & Eq). apply Sp in Eq as (q' & w & -> & _).
  exists e1, e2, l, r, p, q', w. split; [exact EL|]. do 5 (split; [reflexivity|]).
  assert (E' := E). unfold x2z2_pair in E'. destruct (_ =? _)%nat eqn:C1 in E'; [|discriminate]. destruct (_ =? _)%nat eqn:C2 in E'; [|discriminate].
  injection E' as <- <-. apply Nat.eqb_eq in C1, C2. split; [exact C1|]. split; [exact C2|].
  split. { intros k. cbn [s_heap set_s_aux upd_unk set_s_heap]. destruct (Nat.eq_dec j k) as [->|N]. 2:{ rewrite getu_updh_other by auto. auto. }
    destruct (Nat.lt_ge_cases k (List.length (s_heap s))). { rewrite getu_updh_same by auto. auto. } rewrite updh_oob by auto. auto. }
  intros rho HS D1 D1' D2 D2'. destruct (x2z2_pair_value _ rho _ _ _ _ E HS D1 D1' D2 D2') as (Dl & Dr & El & Er).
  assert (HH : holds rho (Keq (sy_simplify sy (Add (Mul (k_lhs e1) (k_lhs e1)) (Mul (k_lhs e2) (k_lhs e2))))
     (sy_simplify sy (fold_left (fun e kv => sy_subs sy (Sym (fst kv)) (snd kv) e) soa_expansions (sy_simplify sy (Add (Mul (k_rhs e1) (k_rhs e1)) (Mul (k_rhs e2) (k_rhs e2))))))) <->
     eval rho (k_lhs e1) * eval rho (k_lhs e1) + eval rho (k_lhs e2) * eval rho (k_lhs e2)
            = eval rho (k_rhs e1) * eval rho (k_rhs e1) + eval rho (k_rhs e2) * eval rho (k_rhs e2)).
  { unfold holds. cbn [k_lhs k_rhs]. rewrite El. rewrite <- Er. reflexivity. }
  split; [exact HH|]. intros H1 H2. split; [exact Dl|]. split; [exact Dr|]. apply HH. unfold holds in H1, H2. rewrite H1, H2. reflexivity.
Qed.

(** * C29 substitution transform *)
(** what the body of the k,l loops writes into (i,j), if anything *)
Definition sub_new (us : list unk) (e1 l e2 : expr) : option expr :=
  if negb (same sy e1 e2) && negb (is0 sy e2) && occurs e1 e2 then
    let new := sy_subs sy e1 l e2 in if (count_unknowns us new <? count_unknowns us e2)%nat then Some new else None
  else if negb (same sy e1 e2) && negb (is0 sy e2) && occurs (sy_norm sy (Neg e1)) e2 then
    let new := sy_subs sy (sy_norm sy (Neg e1)) (sy_norm sy (Neg l)) e2 in if (count_unknowns us new <? count_unknowns us e2)%nat then Some new else None
  else None.
Lemma sub_step_new us Td i j e2 acc kl : sub_step sy us Td i j e2 acc kl =
  match sub_new us (fst acc (fst kl) (snd kl)) (Td (fst kl) (snd kl)) e2 with Some new => (set_elt (fst acc) i j new, true) | None => acc end.
Proof. destruct acc as [Ts f]. unfold sub_step, sub_new. cbn [fst]. destruct (_ && _ && _); [|destruct (_ && _ && _)]; try destruct (_ <? _)%nat; reflexivity. Qed.
Lemma sub_new_count us e1 l e2 new : sub_new us e1 l e2 = Some new -> (count_unknowns us new < count_unknowns us e2)%nat.
Proof.
  unfold sub_new. destruct (_ && _ && _); [|destruct (_ && _ && _); [|discriminate]]; destruct (_ <? _)%nat eqn:E; try discriminate;
    intros H; injection H as <-; apply Nat.ltb_lt; exact E.
Qed.
Lemma sub_new_value us e1 l e2 new rho : sub_new us e1 l e2 = Some new -> defd rho e1 -> defd rho l -> defd rho e2 -> eval rho l = eval rho e1 ->
  defd rho new /\ eval rho new = eval rho e2.
Proof.
  unfold sub_new. intros H D1 Dl D2 E. destruct (_ && _ && _).
  - destruct (_ <? _)%nat; [|discriminate]. injection H as <-. apply (ok_subs sy HOK rho e1 l e2 D2 Dl (eq_sym E)).
  - destruct (_ && _ && _); [|discriminate]. destruct (_ <? _)%nat; [|discriminate]. injection H as <-.
    destruct (ok_norm sy HOK rho (Neg e1) D1) as [Dn1 En1]. destruct (ok_norm sy HOK rho (Neg l) Dl) as [Dn2 En2].
    apply (ok_subs sy HOK rho _ _ e2 D2 Dn2). rewrite En1, En2. simpl. congruence.
Qed.
(** The element (i,j) is rewritten with the equation that its own rewriting has just produced: at its turn in the inner
    loop the current content of (i,j) occurs in the old content. *)
Definition self_use (us : list unk) (M : matrix_equation) : Prop :=
  exists a ij b c d, idx12 = a ++ ij :: b /\ idx12 = c ++ ij :: d /\
    let acc := fold_left (sub_elt sy us (me_Td M)) a (me_Ts M, false) in
    let e2 := fst acc (fst ij) (snd ij) in
    let cur := fst (fold_left (sub_step sy us (me_Td M) (fst ij) (snd ij) e2) c acc) (fst ij) (snd ij) in
    sub_new us cur (me_Td M (fst ij) (snd ij)) e2 <> None.
Lemma set_elt_same T i j v : set_elt T i j v i j = v.
Proof. unfold set_elt. rewrite !Nat.eqb_refl. auto. Qed.
Lemma set_elt_other T i j v p : p <> (i, j) -> set_elt T i j v (fst p) (snd p) = T (fst p) (snd p).
Proof.
  intros N. unfold set_elt. destruct ((fst p =? i)%nat && (snd p =? j)%nat) eqn:E; auto. exfalso. apply N.
  apply andb_true_iff in E as [E1 E2]. apply Nat.eqb_eq in E1, E2. destruct p; simpl in *; congruence.
Qed.
(** the inner loop changes (i,j) only, into the old content or something with fewer unknowns *)
Lemma steps_only us Td ij e2 l : forall acc, let acc' := fold_left (sub_step sy us Td (fst ij) (snd ij) e2) l acc in
  (forall p, p <> ij -> fst acc' (fst p) (snd p) = fst acc (fst p) (snd p))
  /\ (fst acc' (fst ij) (snd ij) = fst acc (fst ij) (snd ij) \/ (count_unknowns us (fst acc' (fst ij) (snd ij)) < count_unknowns us e2)%nat).
Proof.
  induction l as [|kl l IH]; intros acc; cbn [fold_left]; [auto|]. cbv zeta in *. destruct (IH (sub_step sy us Td (fst ij) (snd ij) e2 acc kl)) as [P1 P2].
  generalize dependent (fold_left (sub_step sy us Td (fst ij) (snd ij) e2) l (sub_step sy us Td (fst ij) (snd ij) e2 acc kl)). intros acc' P1 P2.
  rewrite sub_step_new in *. destruct (sub_new _ _ _ _) as [new|] eqn:N; [|auto]. cbn [fst] in *. split.
  - intros p Hp. rewrite P1 by auto. apply set_elt_other. destruct ij; auto.
  - rewrite set_elt_same in P2. apply sub_new_count in N. right. destruct P2 as [->|?]; auto.
Qed.
Lemma elt_fold us Td acc ij : sub_elt sy us Td acc ij = fold_left (sub_step sy us Td (fst ij) (snd ij) (fst acc (fst ij) (snd ij))) idx12 acc.
Proof. reflexivity. Qed.
Lemma elts_gen us (F : mat expr * bool -> nat * nat -> mat expr * bool) L :
  (forall acc ij, (forall p, p <> ij -> fst (F acc ij) (fst p) (snd p) = fst acc (fst p) (snd p))
     /\ (fst (F acc ij) (fst ij) (snd ij) = fst acc (fst ij) (snd ij) \/ (count_unknowns us (fst (F acc ij) (fst ij) (snd ij)) < count_unknowns us (fst acc (fst ij) (snd ij)))%nat)) ->
  NoDup L -> forall acc,
  (forall p, ~ In p L -> fst (fold_left F L acc) (fst p) (snd p) = fst acc (fst p) (snd p))
  /\ (forall p, In p L -> fst (fold_left F L acc) (fst p) (snd p) = fst acc (fst p) (snd p) \/ (count_unknowns us (fst (fold_left F L acc) (fst p) (snd p)) < count_unknowns us (fst acc (fst p) (snd p)))%nat).
Proof.
  intros HF. induction L as [|ij L IH]; intros ND acc; cbn [fold_left]; [split; [auto|intros ? []]|]. inversion ND as [|? ? Nin ND']; subst.
  destruct (HF acc ij) as [S1 S2]. destruct (IH ND' (F acc ij)) as [P1 P2]. split.
  - intros p Hp. simpl in Hp. rewrite P1 by tauto. apply S1. intros ->. tauto.
  - intros p [<-|Hp].
    + rewrite (P1 ij Nin). exact S2.
    + destruct (P2 p Hp) as [E|E]; rewrite S1 in E by (intros ->; tauto); auto.
Qed.
Lemma elts_only us Td L : NoDup L -> forall acc,
  (forall p, ~ In p L -> fst (fold_left (sub_elt sy us Td) L acc) (fst p) (snd p) = fst acc (fst p) (snd p))
  /\ (forall p, In p L -> fst (fold_left (sub_elt sy us Td) L acc) (fst p) (snd p) = fst acc (fst p) (snd p)
        \/ (count_unknowns us (fst (fold_left (sub_elt sy us Td) L acc) (fst p) (snd p)) < count_unknowns us (fst acc (fst p) (snd p)))%nat).
Proof. apply elts_gen. intros acc ij. rewrite elt_fold. apply steps_only. Qed.
Lemma idx12_nodup : NoDup idx12.
Proof. unfold idx12. repeat (apply NoDup_cons; [simpl; intuition congruence|]). apply NoDup_nil. Qed.
Lemma idx12_lt4 p : In p idx12 -> (fst p < 4)%nat /\ (snd p < 4)%nat.
Proof. unfold idx12. simpl. intros H. repeat destruct H as [<-|H]; simpl; try lia; tauto. Qed.
(** inner loop: the new content of (i,j) was made from the equation of another element *)
Lemma steps_from us Td ij e2 (acc : mat expr * bool) : fst acc (fst ij) (snd ij) = e2 -> forall c, 
  (forall c1 d, c = c1 ++ ij :: d -> sub_new us (fst (fold_left (sub_step sy us Td (fst ij) (snd ij) e2) c1 acc) (fst ij) (snd ij)) (Td (fst ij) (snd ij)) e2 = None) ->
  let v := fst (fold_left (sub_step sy us Td (fst ij) (snd ij) e2) c acc) (fst ij) (snd ij) in
  v = e2 \/ exists kl, In kl c /\ kl <> ij /\ sub_new us (fst acc (fst kl) (snd kl)) (Td (fst kl) (snd kl)) e2 = Some v.
Proof.
  intros E0 c. induction c as [|kl c IH] using rev_ind; intros Hself; cbv zeta in *; [left; exact E0|].
  rewrite fold_left_app. cbn [fold_left]. rewrite sub_step_new.
  assert (IH' := IH (fun c1 d H => Hself c1 (d ++ [kl]) (eq_trans (f_equal (fun x => x ++ [kl]) H) (eq_sym (app_assoc c1 (ij :: d) [kl]))))). clear IH.
  destruct (steps_only us Td ij e2 c acc) as [O1 _]. specialize (Hself c []).
  generalize dependent (fold_left (sub_step sy us Td (fst ij) (snd ij) e2) c acc). intros acc1 Hself IH' O1.
  assert (Dec : {kl = ij} + {kl <> ij}) by (repeat decide equality). destruct Dec as [->|N].
  - rewrite (Hself eq_refl). destruct IH' as [?|(kl & ? & ? & ?)]; auto. right. exists kl. rewrite in_app_iff. auto.
  - rewrite (O1 kl N). destruct (sub_new us (fst acc (fst kl) (snd kl)) (Td (fst kl) (snd kl)) e2) as [new|] eqn:S.
    + right. exists kl. split; [apply in_app_iff; simpl; auto|]. split; auto. rewrite S. cbn [fst]. rewrite set_elt_same. reflexivity.
    + destruct IH' as [?|(kl' & ? & ? & ?)]; auto. right. exists kl'. rewrite in_app_iff. auto.
Qed.

(** The transform always succeeds (given a matrix equation), changes nothing but right-hand sides of the first matrix
    equation and, when something was rewritten, the equation lists; a rewritten element has strictly fewer unsolved
    unknowns than before; when nothing was rewritten nothing at all changes. *)
Theorem C29_only_lowers s : (sub_transform sy s = Raise <-> s_meqs s = []) /\
  forall b s', sub_transform sy s = OK b s' -> b = true /\ exists M Ms Ts',
    s_meqs s = M :: Ms /\ s_meqs s' = Meqn (me_Td M) Ts' (me_aux M) :: Ms
    /\ s_heap s' = s_heap s /\ s_unks s' = s_unks s /\ s_aux s' = s_aux s
    /\ (forall i, Ts' 3%nat i = me_Ts M 3%nat i)
    /\ (forall i j, (i < 3)%nat -> (j < 4)%nat -> Ts' i j = me_Ts M i j \/ (count_unknowns (unk_objs s) (Ts' i j) < count_unknowns (unk_objs s) (me_Ts M i j))%nat)
    /\ ((s_L1 s' = s_L1 s /\ s_L2 s' = s_L2 s /\ s_L3 s' = s_L3 s)
        \/ scan_for_equations sy (s_meqs s') (s_aux s') (unk_objs s') = Some (s_L1 s', s_L2 s', s_L3 s')).
Proof.
  unfold sub_transform. destruct (s_meqs s) as [|M Ms] eqn:Em. { split; [tauto|discriminate]. }
  assert (E := elts_only (unk_objs s) (me_Td M) idx12 idx12_nodup (me_Ts M, false)).
  destruct (fold_left _ idx12 (me_Ts M, false)) as [Ts f]. cbn [fst] in E. destruct E as [E1 E2].
  assert (P1 : forall i, Ts 3%nat i = me_Ts M 3%nat i). { intros i. apply (E1 (3%nat, i)). intros H. unfold idx12 in H. simpl in H. intuition congruence. }
  assert (P2 : forall i j, (i < 3)%nat -> (j < 4)%nat -> Ts i j = me_Ts M i j \/ (count_unknowns (unk_objs s) (Ts i j) < count_unknowns (unk_objs s) (me_Ts M i j))%nat).
  { intros i j Hi Hj. apply (E2 (i, j)). unfold idx12. simpl.
    destruct i as [|[|[|i]]]; try lia; destruct j as [|[|[|[|j]]]]; try lia; auto 20. }
  destruct f.
  - set (s1 := set_s_meqs _ s). destruct (scan_for_equations sy (s_meqs s1) (s_aux s1) (unk_objs s)) as [[[l1 l2] l3]|] eqn:L.
    2:{ discriminate L. }
    split. { split; discriminate. } intros b s' H. injection H as <- <-. split; auto. exists M, Ms, Ts. do 5 (split; [reflexivity|]). split; [exact P1|]. split; [exact P2|].
    right. exact L.
  - split. { split; discriminate. } intros b s' H. injection H as <- <-. split; auto. exists M, Ms, Ts. do 5 (split; [reflexivity|]). split; [exact P1|]. split; [exact P2|]. auto.
Qed.
(** No solution is lost: every assignment satisfying the system satisfies the rewritten system. *)
Theorem C29_loses_nothing s b s' rho : sub_transform sy s = OK b s' -> sat rho s -> sat rho s'.
Proof.
  intros H [S1 S2]. unfold sub_transform in H. destruct (s_meqs s) as [|M Ms] eqn:Em; [discriminate|].
  assert (X := sub_fold_ok sy HOK rho (unk_objs s) (me_Td M) (me_Ts M, false) (S1 M (or_introl eq_refl))).
  destruct (fold_left _ idx12 (me_Ts M, false)) as [Ts f]. cbn [fst] in X.
  assert (G : sat rho (set_s_meqs (Meqn (me_Td M) Ts (me_aux M) :: Ms) s)).
  { split; [|exact S2]. cbn [s_meqs set_s_meqs]. intros M' [<-|HM]; [exact X|]. apply S1. right. auto. }
  destruct f; [|injection H as <- <-; exact G]. destruct (scan_for_equations _ _ _ _) as [[[? ?] ?]|]; [|discriminate]. injection H as <- <-. exact G.
Qed.
Lemma back_gen {A B} (F : A -> B -> A) (P : A -> Prop) (full : list B) (a0 : A) :
  (forall a x l, full = a ++ x :: l -> P (F (fold_left F a a0) x) -> P (fold_left F a a0)) -> P (fold_left F full a0) -> P a0.
Proof.
  intros H. assert (G : forall l a, full = a ++ l -> P (fold_left F l (fold_left F a a0)) -> P (fold_left F a a0)).
  { induction l as [|x l IH]; intros a Ha T; [exact T|]. apply (H a x l Ha).
    assert (T' := IH (a ++ [x])). rewrite <- app_assoc in T'. specialize (T' Ha). rewrite fold_left_app in T'. apply T'. exact T. }
  exact (G full [] eq_refl).
Qed.
(** No solution is added either, provided no element is rewritten with the equation its own rewriting produced: at
    every point where the elements of the first matrix equation are defined, the rewritten system is satisfied
    exactly when the system was.  Without the proviso this is false (C29_self_use_refuted). *)
Theorem C29_equivalent s b s' rho M Ms : sub_transform sy s = OK b s' -> s_meqs s = M :: Ms -> ~ self_use (unk_objs s) M ->
  (forall i j, (i < 4)%nat -> (j < 4)%nat -> defd rho (me_Ts M i j) /\ defd rho (me_Td M i j)) ->
  (sat rho s' <-> sat rho s).
Proof.
  intros H Em NS DM. split; [|apply (C29_loses_nothing s b s' rho H)].
  unfold sub_transform in H. rewrite Em in H. set (us := unk_objs s) in *. set (Td := me_Td M) in *.
  assert (Inner : forall a ij l, idx12 = a ++ ij :: l -> let acc := fold_left (sub_elt sy us Td) a (me_Ts M, false) in
     tsat rho Td (fst (sub_elt sy us Td acc ij)) -> tsat rho Td (fst acc)).
  { intros a ij l Hi acc T.
    assert (Hin : In ij idx12) by (rewrite Hi; apply in_app_iff; simpl; auto).
    assert (Eo : fst acc (fst ij) (snd ij) = me_Ts M (fst ij) (snd ij)).
    { pose proof idx12_nodup as ND. rewrite Hi in ND. assert (NDa : NoDup a). { clear -ND. induction a; [constructor|]. inversion ND; subst. constructor; auto. intro. apply H1. apply in_app_iff. auto. }
      destruct (elts_only us Td a NDa (me_Ts M, false)) as [P _]. apply P. apply NoDup_remove_2 in ND. intros K. apply ND. apply in_app_iff. auto. }
    assert (SF := steps_from us Td ij (fst acc (fst ij) (snd ij)) acc eq_refl idx12).
    destruct (steps_only us Td ij (fst acc (fst ij) (snd ij)) idx12 acc) as [O1 _].
    rewrite <- elt_fold in SF, O1.
    assert (V := SF (fun c1 d Hc => match sub_new us _ _ _ as x return (x <> None -> False) -> x = None with None => fun _ => eq_refl | Some n => fun F => False_ind _ (F (fun K => eq_ind (Some n) (fun x => match x with Some _ => True | None => False end) I _ K)) end
         (fun K => NS (ex_intro _ a (ex_intro _ ij (ex_intro _ l (ex_intro _ c1 (ex_intro _ d (conj Hi (conj Hc K)))))))))). clear SF. cbv zeta in V.
    generalize dependent (sub_elt sy us Td acc ij). intros acc' T O1 V i j Hij Hjj.
    assert (Dec : {(i, j) = ij} + {(i, j) <> ij}) by (repeat decide equality). destruct Dec as [E|N].
    2:{ assert (X := O1 (i, j) N). cbn [fst snd] in X. rewrite <- X. apply T; auto. }
    subst ij. cbn [fst snd] in *. destruct (T i j Hij Hjj) as (D1 & D2 & H1). unfold ok_at. cbn [k_lhs k_rhs] in *. rewrite Eo in *.
    destruct (DM i j Hij Hjj) as [De2 _].
    split; [exact D1|]. split; [exact De2|]. unfold holds in *. cbn [k_lhs k_rhs] in *. rewrite H1.
    destruct V as [->|(kl & Hkl & Nkl & V)]; [reflexivity|]. apply idx12_lt4 in Hkl as [Hk Hl].
    destruct (T _ _ Hk Hl) as (D3 & D4 & H3). rewrite (O1 kl Nkl) in *. unfold holds in H3. cbn [k_lhs k_rhs] in *.
    apply (sub_new_value us _ _ _ _ rho V D4 D3 De2 H3). }
  assert (Outer := back_gen (sub_elt sy us Td) (fun acc => tsat rho Td (fst acc)) idx12 (me_Ts M, false) Inner).
  destruct (fold_left (sub_elt sy us Td) idx12 (me_Ts M, false)) as [Ts f] eqn:EF. cbn [fst] in Outer.
  assert (G : sat rho (set_s_meqs (Meqn Td Ts (me_aux M) :: Ms) s) -> sat rho s).
  { intros [S1 S2]. split; [|exact S2]. rewrite Em. cbn [s_meqs set_s_meqs] in S1. intros M' [<-|HM]; [|apply S1; right; auto].
    apply Outer. exact (S1 _ (or_introl eq_refl)). }
  destruct f; [|injection H as <- <-; exact G]. destruct (scan_for_equations _ _ _ _) as [[[? ?] ?]|]; [|discriminate]. injection H as <- <-. exact G.
Qed.
End Solvers.
