(** Facts about the solver model: heap updates, and what each solver's formula means over the reals. *)
From Coq Require Import Reals ZArith List String Bool Arith Lia Lra Psatz.
From Verif Require Import Expr Kin KinSpec Trig Solver SolverSpec.
Import ListNotations.
Local Open Scope R_scope.
Local Open Scope string_scope.
Local Open Scope list_scope.

(** * Heap *)
Lemma updh_length i f h : List.length (updh i f h) = List.length h.
Proof. revert i. induction h; intros [|i]; simpl; auto. Qed.
Lemma getu_updh_same i f h : (i < List.length h)%nat -> getu (updh i f h) i = f (getu h i).
Proof. unfold getu. revert i. induction h; intros [|i] H; simpl in *; try lia; auto. apply IHh. lia. Qed.
Lemma getu_updh_other i j f h : i <> j -> getu (updh i f h) j = getu h j.
Proof. unfold getu. revert i j. induction h; intros [|i] [|j] H; simpl in *; try lia; auto. Qed.
Lemma updh_oob i f h : (List.length h <= i)%nat -> updh i f h = h.
Proof. revert i. induction h; intros [|i] H; simpl in *; try lia; auto. f_equal. apply IHh. lia. Qed.
Lemma updh_updh i f g h : updh i g (updh i f h) = updh i (fun u => g (f u)) h.
Proof. revert i. induction h; intros [|i]; simpl; auto. f_equal. auto. Qed.
Lemma updh_ext i f g h : f (getu h i) = g (getu h i) -> updh i f h = updh i g h.
Proof. unfold getu. revert i. induction h; intros [|i] H; simpl in *; auto. congruence. f_equal. auto. Qed.
Lemma in_updh v i f h : In v (updh i f h) -> In v h \/ ((i < List.length h)%nat /\ v = f (getu h i)).
Proof.
  unfold getu. revert i. induction h; intros [|i]; simpl; auto.
  - intros [<-|H]; auto. right. split; auto. lia.
  - intros [<-|H]; auto. destruct (IHh _ H) as [?|[? ?]]; auto. right. split; auto. lia.
Qed.
Lemma getu_in i h : (i < List.length h)%nat -> In (getu h i) h.
Proof. unfold getu. intros. apply nth_In. auto. Qed.
Lemma in_getu v h : In v h -> exists i, (i < List.length h)%nat /\ getu h i = v.
Proof. intros H. apply (In_nth _ _ (new_unknown "")) in H as (i & ? & ?). exists i. auto. Qed.

(** * first_some *)
Lemma first_some_in {A B} (f : A -> option B) l b : first_some f l = Some b -> exists a, In a l /\ f a = Some b.
Proof.
  induction l; simpl; [discriminate|]. destruct (f a) eqn:E; intros H.
  - injection H as <-. eauto.
  - destruct (IHl H) as (a' & ? & ?). eauto.
Qed.
Lemma first_some_none {A B} (f : A -> option B) l : first_some f l = None -> forall a, In a l -> f a = None.
Proof. induction l; simpl; [tauto|]. destruct (f a) eqn:E; [discriminate|]. intros H a' [<-|?]; auto. Qed.

(** * Occurrence of a symbol *)
Lemma occurs_sym s e : occurs (Sym s) e = has s e.
Proof.
  assert (N : forall x, (forall t, x <> Sym t) -> expr_eqb (Sym s) x = false).
  { intros x H. unfold expr_eqb. destruct (expr_eq_dec _ _); auto. exfalso. eapply H; eauto. }
  induction e; cbn [occurs has]; try (rewrite N by (intros ? ?; discriminate); simpl; congruence).
  unfold expr_eqb. destruct (expr_eq_dec (Sym s) (Sym s0)) as [E|E]; simpl.
  - injection E as ->. symmetry. apply String.eqb_refl.
  - symmetry. apply String.eqb_neq. congruence.
Qed.

Section Facts.
Context (sy : sympy) (OK : sympy_ok sy) (rho : env).

Lemma is0_eval e : defd rho e -> is0 sy e = true -> eval rho e = 0.
Proof.
  intros D H. unfold is0 in H. apply expr_eqb_eq in H. destruct (ok_norm sy OK rho e D) as [_ E]. rewrite H in E. simpl in E. lra.
Qed.
Lemma resid_defd q : defd rho (k_lhs q) -> defd rho (k_rhs q) -> defd rho (resid sy q) /\ eval rho (resid sy q) = eval rho (k_rhs q) - eval rho (k_lhs q).
Proof. intros D1 D2. destruct (ok_norm sy OK rho (Sub (k_rhs q) (k_lhs q))) as [? E]; [split; auto|]. split; auto. Qed.
Lemma resid_holds q : defd rho (k_lhs q) -> defd rho (k_rhs q) -> (holds rho q <-> eval rho (resid sy q) = 0).
Proof. intros D1 D2. destruct (resid_defd q D1 D2) as [_ ->]. unfold holds. lra. Qed.
Lemma ok_at_resid q : ok_at rho q -> defd rho (resid sy q) /\ eval rho (resid sy q) = 0.
Proof. intros (D1 & D2 & H). split. apply resid_defd; auto. apply resid_holds; auto. Qed.
Lemma ok_at0 e : defd rho e -> eval rho e = 0 -> ok_at rho (Keq (Num 0) e).
Proof. intros D E. split; [exact I|]. split; auto. unfold holds. simpl. auto. Qed.

(** * What the formulas mean *)
(** algebra_solver *)
Lemma alg_iff u lhs rhs A B : sy_match sy (Sym u) [Sym u] rhs = Some (A, B) -> defd rho lhs -> defd rho rhs ->
  defd rho (Div (Sub lhs B) A) -> (eval rho lhs = eval rho rhs <-> rho u = eval rho (Div (Sub lhs B) A)).
Proof.
  intros M D1 D2 DS. destruct (ok_match sy OK _ _ _ _ _ M) as (V & _ & _). destruct (V rho D2) as (_ & _ & E).
  cbn [defd Sub] in DS. destruct DS as (_ & _ & NZ). rewrite E. simpl. split.
  - intros H. rewrite H. field. auto.
  - intros ->. field. auto.
Qed.
(** sincos_solver *)
Lemma asin_iff u lhs rhs rhs' A B : sy_match sy (Sin (Sym u)) (both_terms u) rhs' = Some (A, B) ->
  defd rho lhs -> defd rho rhs' -> eval rho rhs' = eval rho rhs ->
  let t := Div (Sub lhs B) A in defd rho t ->
  (eval rho lhs = eval rho rhs <-> -1 <= eval rho t <= 1 /\ among rho (rho u) [Asin t; Sub PiE (Asin t)]).
Proof.
  intros M D1 D2 Er t DT. destruct (ok_match sy OK _ _ _ _ _ M) as (V & _ & _). destruct (V rho D2) as (_ & _ & E).
  assert (NZ : eval rho A <> 0) by (cbn [t defd Sub] in DT; tauto).
  assert (Et : eval rho lhs = eval rho rhs <-> sin (rho u) = eval rho t).
  { rewrite <- Er, E. unfold t. simpl. split; [intros H; rewrite H | intros ->]; field; auto. }
  rewrite Et. split.
  - intros H. pose proof (SIN_bound (rho u)) as Bd. rewrite H in Bd. split; auto.
    apply sin_eq_iff in H as [H|H]; auto; [exists (Asin t) | exists (Sub PiE (Asin t))]; simpl; auto.
  - intros [Bd (e & He & C)]. apply sin_eq_iff; auto. simpl in He. destruct He as [<-|[<-|[]]]; simpl in C; auto.
Qed.
Lemma acos_iff u lhs rhs rhs' A B : sy_match sy (Cos (Sym u)) (both_terms u) rhs' = Some (A, B) ->
  defd rho lhs -> defd rho rhs' -> eval rho rhs' = eval rho rhs ->
  let t := Div (Sub lhs B) A in defd rho t ->
  (eval rho lhs = eval rho rhs <-> -1 <= eval rho t <= 1 /\ among rho (rho u) [Acos t; Neg (Acos t)]).
Proof.
  intros M D1 D2 Er t DT. destruct (ok_match sy OK _ _ _ _ _ M) as (V & _ & _). destruct (V rho D2) as (_ & _ & E).
  assert (NZ : eval rho A <> 0) by (cbn [t defd Sub] in DT; tauto).
  assert (Et : eval rho lhs = eval rho rhs <-> cos (rho u) = eval rho t).
  { rewrite <- Er, E. unfold t. simpl. split; [intros H; rewrite H | intros ->]; field; auto. }
  rewrite Et. split.
  - intros H. pose proof (COS_bound (rho u)) as Bd. rewrite H in Bd. split; auto.
    apply cos_eq_iff in H as [H|H]; auto; [exists (Acos t) | exists (Neg (Acos t))]; simpl; auto.
  - intros [Bd (e & He & C)]. apply cos_eq_iff; auto. simpl in He. destruct He as [<-|[<-|[]]]; simpl in C; auto.
Qed.
(** tan_solver, known coefficients: complete; and sound where the two equations are consistent *)
Lemma tan_iff u l1 r1 l2 r2 A1 B1 A2 B2 :
  sy_match sy (Sin (Sym u)) (both_terms u) r1 = Some (A1, B1) -> sy_match sy (Cos (Sym u)) (both_terms u) r2 = Some (A2, B2) ->
  defd rho r1 -> defd rho r2 ->
  let y := Div (Sub l1 B1) A1 in let x := Div (Sub l2 B2) A2 in
  defd rho y -> defd rho x ->
  (eval rho l1 = eval rho r1 /\ eval rho l2 = eval rho r2 <->
   eval rho x * eval rho x + eval rho y * eval rho y = 1 /\ cong (rho u) (eval rho (Atan2 y x))).
Proof.
  intros M1 M2 D1 D2 y x Dy Dx.
  destruct (ok_match sy OK _ _ _ _ _ M1) as (V1 & _ & _). destruct (V1 rho D1) as (_ & _ & E1).
  destruct (ok_match sy OK _ _ _ _ _ M2) as (V2 & _ & _). destruct (V2 rho D2) as (_ & _ & E2).
  assert (N1 : eval rho A1 <> 0) by (cbn [y defd Sub] in Dy; tauto).
  assert (N2 : eval rho A2 <> 0) by (cbn [x defd Sub] in Dx; tauto).
  assert (Ey : eval rho l1 = eval rho r1 <-> sin (rho u) = eval rho y).
  { rewrite E1. unfold y. simpl. split; [intros H; rewrite H | intros ->]; field; auto. }
  assert (Ex : eval rho l2 = eval rho r2 <-> cos (rho u) = eval rho x).
  { rewrite E2. unfold x. simpl. split; [intros H; rewrite H | intros ->]; field; auto. }
  rewrite Ey, Ex. cbn [eval]. change (eval rho l1 + - eval rho B1) with (eval rho (Sub l1 B1)).
  split.
  - intros [H1 H2]. rewrite <- H1, <- H2. pose proof (sin2_cos2 (rho u)) as P. unfold Rsqr in P. split. lra. apply cong_sym, atan2_unit.
  - intros [H1 H2]. destruct (atan2_polar (eval rho y) (eval rho x)) as [Pc Ps]. { intros [Z1 Z2]. rewrite Z1, Z2 in H1. lra. }
    rewrite H1, sqrt_1 in *. rewrite (cong_sin _ _ H2), (cong_cos _ _ H2). lra.
Qed.
(** tan_solver, common unsolved factor *)
Lemma tan2_cover u l1 r1 l2 r2 A1 B1 A2 B2 :
  sy_match sy (Sin (Sym u)) (both_terms u) r1 = Some (A1, B1) -> sy_match sy (Cos (Sym u)) (both_terms u) r2 = Some (A2, B2) ->
  defd rho r1 -> defd rho r2 -> eval rho l1 = eval rho r1 -> eval rho l2 = eval rho r2 ->
  let co := sy_norm sy (Div A1 A2) in let Y := Sub l1 B1 in let X := Sub l2 B2 in
  let s1 := Atan2 (Div Y co) X in let s2 := Atan2 (Div (Neg Y) co) (Neg X) in
  (0 < eval rho A2 -> defd rho s1 -> cong (rho u) (eval rho s1)) /\ (eval rho A2 < 0 -> defd rho s2 -> cong (rho u) (eval rho s2))
  /\ (defd rho s1 -> eval rho A2 <> 0).
Proof.
  intros M1 M2 D1 D2 H1 H2 co Y X s1 s2.
  destruct (ok_match sy OK _ _ _ _ _ M1) as (V1 & _ & _). destruct (V1 rho D1) as (DA1 & _ & E1).
  destruct (ok_match sy OK _ _ _ _ _ M2) as (V2 & _ & _). destruct (V2 rho D2) as (DA2 & _ & E2).
  assert (EY : eval rho Y = eval rho A1 * sin (rho u)) by (unfold Y; simpl in *; lra).
  assert (EX : eval rho X = eval rho A2 * cos (rho u)) by (unfold X; simpl in *; lra).
  assert (K : defd rho co -> eval rho co <> 0 -> eval rho Y / eval rho co = eval rho A2 * sin (rho u)).
  { intros Dc Nc. pose proof (ok_div sy OK rho A1 A2 DA1 DA2 Dc) as Q. fold co in Q. rewrite EY, <- Q. field. auto. }
  split; [|split].
  - intros P D. cbn [s1 defd] in D. destruct D as ((_ & Dc & Nc) & _ & _).
    cbn [s1 eval]. rewrite K, EX by auto. apply cong_sym, atan2_scaled. auto.
  - intros P D. cbn [s2 defd] in D. destruct D as ((_ & Dc & Nc) & _ & _).
    cbn [s2 eval]. replace (- eval rho Y / eval rho co) with (- (eval rho Y / eval rho co)) by (field; auto).
    rewrite K, EX by auto. apply cong_sym, atan2_neg_scaled. auto.
  - intros D Z. cbn [s1 defd] in D. destruct D as ((_ & Dc & Nc) & _ & N). apply N. cbn [eval]. rewrite K, EX, Z by auto. lra.
Qed.
(** sinANDcos_solver, C not the zero expression *)
Lemma sac_iff u rhs A B C : defd rho rhs -> C = sy_norm sy (Sub (Add (Mul A (Sin (Sym u))) (Mul B (Cos (Sym u)))) rhs) ->
  defd rho (Atan2 A B) ->
  let t := Sqrt (Sub (Add (Mul A A) (Mul B B)) (Mul C C)) in
  let sols := [Add (Atan2 A B) (Atan2 t C); Add (Atan2 A B) (Atan2 (Neg t) C)] in
  (0 = eval rho rhs -> all_defd rho sols /\ among rho (rho u) sols)
  /\ (forall v, let r := upd rho u v in
      eval r A = eval rho A -> eval r B = eval rho B -> eval r C = eval rho C -> defd r rhs -> defd r A -> defd r B ->
      all_defd rho sols -> among rho v sols -> eval r rhs = 0).
Proof.
  intros D HC DAB t sols. cbn [defd] in DAB. destruct DAB as (DA & DB & NZ).
  assert (DT : forall r, defd r rhs -> defd r A -> defd r B -> defd r C /\ eval r C = eval r A * sin (r u) + eval r B * cos (r u) - eval r rhs).
  { intros r Dr Ar Br. rewrite HC. destruct (ok_norm sy OK r (Sub (Add (Mul A (Sin (Sym u))) (Mul B (Cos (Sym u)))) rhs)) as [? E].
    { cbn [Sub defd]. auto 10. } split; [assumption|]. rewrite E. simpl. ring. }
  assert (NZ' : ~ (eval rho A = 0 /\ eval rho B = 0)) by tauto.
  destruct (DT rho D DA DB) as [DC EC].
  split.
  - intros H. rewrite <- H in EC.
    set (a := eval rho A) in *. set (b := eval rho B) in *. set (c := eval rho C) in *.
    assert (Ec : a * sin (rho u) + b * cos (rho u) = c) by lra.
    pose proof (lincomb_range a b (rho u)) as Rg. rewrite Ec in Rg.
    assert (S0 : 0 < a * a + b * b). { destruct (Req_dec a 0); [destruct (Req_dec b 0)|]; try tauto; nra. }
    assert (Dt : defd rho t). { cbn [t Sub defd eval]. repeat split; auto. fold a b c. lra. }
    assert (Et : eval rho t = sqrt (a * a + b * b - c * c)) by reflexivity.
    assert (Nt : ~ (c = 0 /\ eval rho t = 0)).
    { intros [Z1 Z2]. rewrite Et, Z1 in Z2. replace (a * a + b * b - 0 * 0) with (a * a + b * b) in Z2 by ring.
      pose proof (sqrt_lt_R0 _ S0). lra. }
    split.
    + assert (Dn : defd rho (Neg t)) by exact Dt.
      assert (Nn : ~ (c = 0 /\ eval rho (Neg t) = 0)). { cbn [eval]. intros [Z1 Z2]. apply Nt. split; auto. lra. }
      intros e [<-|[<-|[]]]; (split; [split; [exact DA | split; [exact DB | exact NZ]] | split; [assumption | split; assumption]]).
    + apply (lincomb_iff a b c (rho u)) in Ec as [Ec|Ec]; auto;
        [exists (Add (Atan2 A B) (Atan2 t C)) | exists (Add (Atan2 A B) (Atan2 (Neg t) C))]; (split; [simpl; auto | exact Ec]).
  - intros v r EA EB EC' Dr Ar Br AD AM. destruct (DT r Dr Ar Br) as [_ ECr].
    rewrite EC', EA, EB in ECr. replace (r u) with v in ECr by (unfold r; rewrite upd_eq; auto).
    assert (Rg : eval rho C * eval rho C <= eval rho A * eval rho A + eval rho B * eval rho B).
    { assert (In (Add (Atan2 A B) (Atan2 t C)) sols) as I1 by (simpl; auto). apply AD in I1. cbn [t Sub defd eval] in I1.
      destruct I1 as (_ & [[_ ?] _]). lra. }
    assert (Ec : eval rho A * sin v + eval rho B * cos v = eval rho C).
    { apply lincomb_iff; auto. destruct AM as (e & [<-|[<-|[]]] & Cg); simpl in Cg; auto. }
    lra.
Qed.
(** sinANDcos_solver, C the zero expression *)
Lemma sac0_iff u rhs A B C : defd rho rhs -> C = sy_norm sy (Sub (Add (Mul A (Sin (Sym u))) (Mul B (Cos (Sym u)))) rhs) -> is0 sy C = true ->
  defd rho (Atan2 (Neg B) A) ->
  let sols := [Atan2 (Neg B) A; Add (Atan2 (Neg B) A) PiE] in
  (0 = eval rho rhs -> all_defd rho sols /\ among rho (rho u) sols)
  /\ (forall v, let r := upd rho u v in
      eval r A = eval rho A -> eval r B = eval rho B -> defd r rhs -> defd r A -> defd r B -> among rho v sols -> eval r rhs = 0).
Proof.
  intros D HC Z DAB sols.
  assert (DAB' := DAB). cbn [defd eval] in DAB'. destruct DAB' as (DB & DA & NZ).
  assert (NZ' : ~ (eval rho A = 0 /\ eval rho B = 0)). { intros [? ?]. apply NZ. split; lra. }
  assert (DT : forall r, defd r rhs -> defd r A -> defd r B -> eval r A * sin (r u) + eval r B * cos (r u) = eval r rhs).
  { intros r Dr Ar Br. destruct (ok_norm sy OK r (Sub (Add (Mul A (Sin (Sym u))) (Mul B (Cos (Sym u)))) rhs)) as [DC EC].
    { cbn [Sub defd]. auto 10. } rewrite <- HC in *. 
    assert (eval r C = 0). { unfold is0 in Z. apply expr_eqb_eq in Z. destruct (ok_norm sy OK r C DC) as [_ E]. rewrite Z in E. simpl in E. lra. }
    simpl in EC. lra. }
  split.
  - intros H. split. { intros e [<-|[<-|[]]]; [exact DAB | split; [exact DAB | exact I]]. }
    pose proof (DT rho D DA DB) as E. rewrite <- H in E.
    apply lincomb0_iff in E as [E|E]; auto; [exists (Atan2 (Neg B) A) | exists (Add (Atan2 (Neg B) A) PiE)]; (split; [simpl; auto | exact E]).
  - intros v r EA EB Dr Ar Br AM. pose proof (DT r Dr Ar Br) as E. rewrite EA, EB in E.
    replace (r u) with v in E by (unfold r; rewrite upd_eq; auto). rewrite <- E. apply lincomb0_iff; auto.
    destruct AM as (e & [<-|[<-|[]]] & Cg); simpl in Cg; auto.
Qed.
(** two_eqn_m7 *)
Lemma simu_cover u r1 r2 A B C D : defd rho r1 -> defd rho r2 ->
  C = sy_simplify sy (Sub (Add (Mul A (Sin (Sym u))) (Mul B (Cos (Sym u)))) r1) ->
  D = sy_simplify sy (Sub (Sub (Mul A (Cos (Sym u))) (Mul B (Sin (Sym u)))) r2) ->
  let sol := Atan2 (Sub (Mul A C) (Mul B D)) (Add (Mul A D) (Mul B C)) in
  defd rho sol -> eval rho r1 = 0 -> eval rho r2 = 0 -> cong (rho u) (eval rho sol).
Proof.
  intros D1 D2 HC HD sol DS E1 E2. assert (DS' := DS). cbn [sol Sub defd] in DS'. destruct DS' as (((DA & _) & (DB & _)) & _ & N).
  destruct (ok_simplify sy OK rho (Sub (Add (Mul A (Sin (Sym u))) (Mul B (Cos (Sym u)))) r1)) as [_ EC]. { cbn [Sub defd]; auto 10. }
  destruct (ok_simplify sy OK rho (Sub (Sub (Mul A (Cos (Sym u))) (Mul B (Sin (Sym u)))) r2)) as [_ ED]. { cbn [Sub defd]; auto 10. }
  rewrite <- HC in EC. rewrite <- HD in ED. simpl in EC, ED, N. cbn [sol Sub eval].
  assert (H : ~ (eval rho A = 0 /\ eval rho B = 0)). { intros [Z1 Z2]. apply N. rewrite Z1, Z2. split; lra. }
  apply (pair_complete (eval rho A) (eval rho B)); auto; lra.
Qed.
End Facts.
