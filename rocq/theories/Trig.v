(** Real trigonometry used by the solver properties: angles modulo 2*PI, atan2, and the three basic
    trigonometric equations.  Nothing here models repository code. *)
From Coq Require Import Reals ZArith List String Bool Lra Lia Psatz.
From Verif Require Import Expr.
Local Open Scope R_scope.

(** Equality of angles modulo full turns. *)
Definition cong (a b : R) : Prop := exists k : Z, a = b + 2 * IZR k * PI.

Lemma cong_refl a : cong a a.
Proof. exists 0%Z. simpl. lra. Qed.
Lemma cong_sym a b : cong a b -> cong b a.
Proof. intros [k ->]. exists (-k)%Z. rewrite opp_IZR. lra. Qed.
Lemma cong_trans a b c : cong a b -> cong b c -> cong a c.
Proof. intros [k ->] [l ->]. exists (k + l)%Z. rewrite plus_IZR. lra. Qed.
Lemma cong_plus a b c d : cong a b -> cong c d -> cong (a + c) (b + d).
Proof. intros [k ->] [l ->]. exists (k + l)%Z. rewrite plus_IZR. lra. Qed.
Lemma cong_opp a b : cong a b -> cong (- a) (- b).
Proof. intros [k ->]. exists (-k)%Z. rewrite opp_IZR. lra. Qed.
Lemma cong_minus a b c d : cong a b -> cong c d -> cong (a - c) (b - d).
Proof. intros H1 H2. unfold Rminus. apply cong_plus; auto using cong_opp. Qed.

Lemma sin_period_Z x k : sin (x + 2 * IZR k * PI) = sin x.
Proof.
  destruct (Z_le_gt_dec 0 k) as [H|H].
  - rewrite <- (Z2Nat.id k) by lia. rewrite <- INR_IZR_INZ. apply sin_period.
  - set (n := Z.to_nat (- k)). assert (E : k = (- Z.of_nat n)%Z) by (unfold n; lia).
    rewrite E, opp_IZR, <- INR_IZR_INZ.
    rewrite <- (sin_period (x + 2 * - INR n * PI) n). f_equal. lra.
Qed.
Lemma cos_period_Z x k : cos (x + 2 * IZR k * PI) = cos x.
Proof.
  destruct (Z_le_gt_dec 0 k) as [H|H].
  - rewrite <- (Z2Nat.id k) by lia. rewrite <- INR_IZR_INZ. apply cos_period.
  - set (n := Z.to_nat (- k)). assert (E : k = (- Z.of_nat n)%Z) by (unfold n; lia).
    rewrite E, opp_IZR, <- INR_IZR_INZ.
    rewrite <- (cos_period (x + 2 * - INR n * PI) n). f_equal. lra.
Qed.
Lemma cong_sin a b : cong a b -> sin a = sin b.
Proof. intros [k ->]. apply sin_period_Z. Qed.
Lemma cong_cos a b : cong a b -> cos a = cos b.
Proof. intros [k ->]. apply cos_period_Z. Qed.

Lemma cos1_cong0 x : cos x = 1 -> cong x 0.
Proof.
  intros H.
  assert (Hs : sin (x / 2) = 0).
  { replace x with (2 * (x / 2)) in H by lra. rewrite cos_2a_sin in H. nra. }
  apply sin_eq_0_0 in Hs as [k Hk]. exists k. lra.
Qed.
Lemma sincos_cong a b : sin a = sin b -> cos a = cos b -> cong a b.
Proof.
  intros Hs Hc.
  assert (H : cos (a - b) = 1).
  { rewrite cos_minus, Hs, Hc. pose proof (sin2_cos2 b) as P. unfold Rsqr in P. lra. }
  apply cos1_cong0 in H as [k Hk]. exists k. lra.
Qed.
Lemma cong_iff a b : cong a b <-> sin a = sin b /\ cos a = cos b.
Proof. split. intros H; split; [apply cong_sin | apply cong_cos]; auto. intros [? ?]; apply sincos_cong; auto. Qed.

(** ** atan2 *)
Lemma sqrt_sq_pos x : 0 < x -> sqrt (x * x) = x.
Proof. intros H. apply sqrt_square. lra. Qed.

Lemma cos_atan_mult x y : 0 < x -> sqrt (x * x + y * y) * cos (atan (y / x)) = x /\ sqrt (x * x + y * y) * sin (atan (y / x)) = y.
Proof.
  intros Hx.
  assert (E : sqrt (x * x + y * y) = x * sqrt (1 + (y / x)²)).
  { transitivity (sqrt (x * x) * sqrt (1 + (y / x)²)); [|rewrite sqrt_sq_pos by auto; reflexivity].
    rewrite <- sqrt_mult_alt by nra. f_equal. unfold Rsqr. field. lra. }
  assert (Hp : 0 < sqrt (1 + (y / x)²)). { apply sqrt_lt_R0. pose proof (Rle_0_sqr (y / x)). lra. }
  rewrite cos_atan, sin_atan, E. split; field; lra.
Qed.

(** The point (x,y) is at angle atan2 y x, at distance sqrt(x^2+y^2) - for every point but the origin. *)
Lemma atan2_polar y x : ~ (x = 0 /\ y = 0) ->
  sqrt (x * x + y * y) * cos (atan2 y x) = x /\ sqrt (x * x + y * y) * sin (atan2 y x) = y.
Proof.
  intros H. unfold atan2.
  destruct (Rlt_dec 0 x). { apply cos_atan_mult; auto. }
  destruct (Rlt_dec x 0).
  - assert (E : y / x = (- y) / (- x)) by (field; lra).
    destruct (cos_atan_mult (- x) (- y)) as [Hc Hs]; [lra|].
    replace (- x * - x + - y * - y) with (x * x + y * y) in * by ring. rewrite <- E in *.
    destruct (Rle_dec 0 y).
    + rewrite neg_cos, neg_sin. split; lra.
    + replace (atan (y / x) - PI) with (atan (y / x) + PI + 2 * IZR (-1) * PI) by (simpl; lra).
      rewrite cos_period_Z, sin_period_Z, neg_cos, neg_sin. split; lra.
  - assert (x = 0) by lra. subst x. replace (0 * 0 + y * y) with (y * y) by ring.
    destruct (Rlt_dec 0 y). { rewrite cos_PI2, sin_PI2, sqrt_sq_pos by auto. split; lra. }
    destruct (Rlt_dec y 0). 2:{ exfalso. apply H. split; lra. }
    replace (y * y) with ((- y) * (- y)) by ring. rewrite sqrt_sq_pos by lra.
    replace (- PI / 2) with (- (PI / 2)) by lra. rewrite cos_neg, sin_neg, cos_PI2, sin_PI2. split; lra.
Qed.
Lemma atan2_range y x : - PI < atan2 y x <= PI.
Proof.
  pose proof PI_RGT_0 as HP. unfold atan2. pose proof (atan_bound (y / x)) as B.
  destruct (Rlt_dec 0 x). lra.
  destruct (Rlt_dec x 0).
  - destruct (Rle_dec 0 y).
    + assert (y / x <= 0). { assert (E : y / x = - (y / - x)) by (field; lra). rewrite E.
        assert (0 <= y / - x) by (apply Rmult_le_pos; [lra | left; apply Rinv_0_lt_compat; lra]). lra. }
      assert (atan (y / x) <= 0). { destruct (Req_dec (y / x) 0) as [->|]. rewrite atan_0; lra.
        rewrite <- atan_0. left. apply atan_increasing. lra. }
      lra.
    + assert (0 < y / x). { assert (E : y / x = (- y / - x)) by (field; lra). rewrite E.
        apply Rmult_lt_0_compat; [lra | apply Rinv_0_lt_compat; lra]. }
      assert (0 < atan (y / x)). { rewrite <- atan_0. apply atan_increasing. lra. }
      lra.
  - destruct (Rlt_dec 0 y). lra. destruct (Rlt_dec y 0); lra.
Qed.
Lemma atan2_scaled r t : 0 < r -> cong (atan2 (r * sin t) (r * cos t)) t.
Proof.
  intros Hr. pose proof (sin2_cos2 t) as P. unfold Rsqr in P.
  destruct (atan2_polar (r * sin t) (r * cos t)) as [Hc Hs].
  { intros [H1 H2]. assert (cos t = 0) by nra. assert (sin t = 0) by nra. nra. }
  replace (r * cos t * (r * cos t) + r * sin t * (r * sin t)) with (r * r) in * by nra.
  rewrite sqrt_sq_pos in * by auto.
  apply sincos_cong; nra.
Qed.
Lemma atan2_unit t : cong (atan2 (sin t) (cos t)) t.
Proof. generalize (atan2_scaled 1 t). rewrite !Rmult_1_l. intros H. apply H. lra. Qed.
Lemma atan2_neg_scaled r t : r < 0 -> cong (atan2 (- (r * sin t)) (- (r * cos t))) t.
Proof. intros Hr. replace (- (r * sin t)) with (- r * sin t) by ring. replace (- (r * cos t)) with (- r * cos t) by ring. apply atan2_scaled. lra. Qed.

(** ** The equations sin u = t, cos u = t *)
Lemma asin_cos_nonneg t : -1 <= t <= 1 -> 0 <= cos (asin t).
Proof. intros H. pose proof (asin_bound t). apply cos_ge_0; lra. Qed.
Lemma sin_eq_iff u t : -1 <= t <= 1 -> sin u = t <-> (cong u (asin t) \/ cong u (PI - asin t)).
Proof.
  intros H. split.
  - intros Hu. pose proof (sin_asin t H) as Ha.
    pose proof (sin2_cos2 u) as P. pose proof (sin2_cos2 (asin t)) as Q. unfold Rsqr in *.
    assert (D : (cos u - cos (asin t)) * (cos u + cos (asin t)) = 0) by nra.
    apply Rmult_integral in D as [D|D].
    + left. apply sincos_cong; lra.
    + right. apply sincos_cong. rewrite sin_PI_x; lra.
      rewrite Rtrigo_facts.cos_pi_minus. lra.
  - intros [C|C]; rewrite (cong_sin _ _ C). apply sin_asin; auto. rewrite sin_PI_x. apply sin_asin; auto.
Qed.
Lemma cos_eq_iff u t : -1 <= t <= 1 -> cos u = t <-> (cong u (acos t) \/ cong u (- acos t)).
Proof.
  intros H. split.
  - intros Hu. pose proof (cos_acos t H) as Ha.
    pose proof (sin2_cos2 u) as P. pose proof (sin2_cos2 (acos t)) as Q. unfold Rsqr in *.
    assert (D : (sin u - sin (acos t)) * (sin u + sin (acos t)) = 0) by nra.
    apply Rmult_integral in D as [D|D].
    + left. apply sincos_cong; lra.
    + right. apply sincos_cong. rewrite sin_neg; lra. rewrite cos_neg; lra.
  - intros [C|C]; rewrite (cong_cos _ _ C). apply cos_acos; auto. rewrite cos_neg. apply cos_acos; auto.
Qed.

(** ** A sin u + B cos u = C *)
Lemma lincomb_polar A B u : ~ (A = 0 /\ B = 0) ->
  A * sin u + B * cos u = sqrt (A * A + B * B) * cos (u - atan2 A B).
Proof.
  intros H. destruct (atan2_polar A B) as [Hc Hs]. { intros [? ?]; apply H; auto. }
  replace (B * B + A * A) with (A * A + B * B) in * by ring.
  rewrite cos_minus. set (r := sqrt (A * A + B * B)) in *. set (p := atan2 A B) in *.
  replace (r * (cos u * cos p + sin u * sin p)) with ((r * sin p) * sin u + (r * cos p) * cos u) by ring.
  rewrite Hc, Hs. ring.
Qed.
(** The formula used when C is not the zero expression: valid for every C in range (also C = 0). *)
Lemma lincomb_iff A B C u : ~ (A = 0 /\ B = 0) -> C * C <= A * A + B * B ->
  A * sin u + B * cos u = C <->
  (cong u (atan2 A B + atan2 (sqrt (A * A + B * B - C * C)) C) \/
   cong u (atan2 A B + atan2 (- sqrt (A * A + B * B - C * C)) C)).
Proof.
  intros HAB HC. set (S := A * A + B * B) in *. set (t := sqrt (S - C * C)).
  assert (HS : 0 < S). { unfold S. destruct (Req_dec A 0). assert (B <> 0) by (intro; apply HAB; auto). nra. nra. }
  assert (Ht : t * t = S - C * C) by (apply sqrt_sqrt; lra).
  assert (Hr : 0 < sqrt S) by (apply sqrt_lt_R0; auto).
  assert (Hrr : sqrt S * sqrt S = S) by (apply sqrt_sqrt; lra).
  assert (Hnz : forall t', t' * t' = S - C * C -> ~ (C = 0 /\ t' = 0)) by (intros t' E [-> ->]; nra).
  assert (Hpol : forall t', t' * t' = S - C * C -> sqrt S * cos (atan2 t' C) = C /\ sqrt S * sin (atan2 t' C) = t').
  { intros t' E. generalize (atan2_polar t' C (Hnz t' E)). replace (C * C + t' * t') with S by lra. auto. }
  destruct (Hpol t Ht) as [c1 s1]. destruct (Hpol (- t)) as [c2 s2]. nra.
  rewrite lincomb_polar by auto. fold S. split.
  - intros E. set (v := u - atan2 A B) in *.
    pose proof (sin2_cos2 v) as P. unfold Rsqr in P.
    assert (D : (sqrt S * sin v - t) * (sqrt S * sin v + t) = 0).
    { replace ((sqrt S * sin v - t) * (sqrt S * sin v + t)) with ((sqrt S * sqrt S) * (sin v * sin v) - t * t) by ring.
      assert (Q : (sqrt S * sqrt S) * (cos v * cos v) = C * C) by (rewrite <- E; ring). rewrite Hrr in *. nra. }
    apply Rmult_integral in D as [D|D]; [left | right].
    + assert (K : cong v (atan2 t C)).
      { apply sincos_cong; apply (Rmult_eq_reg_l (sqrt S)); lra. }
      destruct K as [k K]. exists k. unfold v in K. lra.
    + assert (K : cong v (atan2 (- t) C)).
      { apply sincos_cong; apply (Rmult_eq_reg_l (sqrt S)); lra. }
      destruct K as [k K]. exists k. unfold v in K. lra.
  - intros [[k ->]|[k ->]].
    + replace (atan2 A B + atan2 t C + 2 * IZR k * PI - atan2 A B) with (atan2 t C + 2 * IZR k * PI) by ring. rewrite cos_period_Z. auto.
    + replace (atan2 A B + atan2 (- t) C + 2 * IZR k * PI - atan2 A B) with (atan2 (- t) C + 2 * IZR k * PI) by ring. rewrite cos_period_Z. auto.
Qed.
Lemma lincomb_range A B u : (A * sin u + B * cos u) * (A * sin u + B * cos u) <= A * A + B * B.
Proof.
  pose proof (sin2_cos2 u) as P. unfold Rsqr in P.
  assert (Q : A * A + B * B - (A * sin u + B * cos u) * (A * sin u + B * cos u) = (A * cos u - B * sin u) * (A * cos u - B * sin u)).
  { replace (A * A + B * B) with ((A * A + B * B) * (sin u * sin u + cos u * cos u)) by (rewrite P; ring). ring. }
  pose proof (Rle_0_sqr (A * cos u - B * sin u)) as K. unfold Rsqr in K. lra.
Qed.
(** The formula used when C is the zero expression. *)
Lemma lincomb0_iff A B u : ~ (A = 0 /\ B = 0) ->
  A * sin u + B * cos u = 0 <-> (cong u (atan2 (- B) A) \/ cong u (atan2 (- B) A + PI)).
Proof.
  intros HAB. assert (HS : 0 < A * A + B * B). { destruct (Req_dec A 0). assert (B <> 0) by (intro; apply HAB; auto). nra. nra. }
  destruct (atan2_polar (- B) A) as [Hc Hs]. { intros [? ?]. apply HAB. split; lra. }
  replace (A * A + - B * - B) with (A * A + B * B) in * by ring.
  assert (Hr : 0 < sqrt (A * A + B * B)) by (apply sqrt_lt_R0; auto).
  set (r := sqrt (A * A + B * B)) in *. set (p := atan2 (- B) A) in *.
  assert (E : A * sin u + B * cos u = r * sin (u - p)).
  { rewrite sin_minus. replace (r * (sin u * cos p - cos u * sin p)) with ((r * cos p) * sin u - (r * sin p) * cos u) by ring.
    rewrite Hc, Hs. ring. }
  rewrite E. split.
  - intros H. assert (Z : sin (u - p) = 0) by nra.
    pose proof (sin2_cos2 (u - p)) as P. unfold Rsqr in P.
    assert (D : (cos (u - p) - 1) * (cos (u - p) + 1) = 0) by nra.
    apply Rmult_integral in D as [D|D].
    + left. destruct (cos1_cong0 (u - p)) as [k K]. lra. exists k. lra.
    + right. destruct (cos1_cong0 (u - p - PI)) as [k K].
      { rewrite cos_minus, cos_PI, sin_PI. lra. } exists k. lra.
  - intros [[k ->]|[k ->]].
    + replace (p + 2 * IZR k * PI - p) with (0 + 2 * IZR k * PI) by ring. rewrite sin_period_Z, sin_0. ring.
    + replace (p + PI + 2 * IZR k * PI - p) with (PI + 2 * IZR k * PI) by ring. rewrite sin_period_Z, sin_PI. ring.
Qed.

(** ** The pair A sin u + B cos u = C, A cos u - B sin u = D *)
Lemma pair_iff A B C D u : ~ (A = 0 /\ B = 0) -> C * C + D * D = A * A + B * B ->
  (A * sin u + B * cos u = C /\ A * cos u - B * sin u = D) <-> cong u (atan2 (A * C - B * D) (A * D + B * C)).
Proof.
  intros HAB Hcons. assert (HS : 0 < A * A + B * B). { destruct (Req_dec A 0). assert (B <> 0) by (intro; apply HAB; auto). nra. nra. }
  split.
  - intros [<- <-]. apply cong_sym.
    replace (A * (A * sin u + B * cos u) - B * (A * cos u - B * sin u)) with ((A * A + B * B) * sin u) by ring.
    replace (A * (A * cos u - B * sin u) + B * (A * sin u + B * cos u)) with ((A * A + B * B) * cos u) by ring.
    apply atan2_scaled. auto.
  - intros K. pose proof (cong_sin _ _ K) as Ks. pose proof (cong_cos _ _ K) as Kc.
    set (y := A * C - B * D) in *. set (x := A * D + B * C) in *.
    assert (N : x * x + y * y = (A * A + B * B) * (A * A + B * B)).
    { rewrite <- Hcons at 2. unfold x, y. ring. }
    destruct (atan2_polar y x) as [Hc Hs]. { intros [Z1 Z2]. rewrite Z1, Z2 in N. nra. }
    rewrite N, sqrt_sq_pos in Hc, Hs by auto. rewrite <- Ks in Hs. rewrite <- Kc in Hc.
    split; apply (Rmult_eq_reg_l (A * A + B * B)); try lra.
    + replace ((A * A + B * B) * (A * sin u + B * cos u)) with (A * ((A * A + B * B) * sin u) + B * ((A * A + B * B) * cos u)) by ring.
      rewrite Hs, Hc. unfold x, y. ring.
    + replace ((A * A + B * B) * (A * cos u - B * sin u)) with (A * ((A * A + B * B) * cos u) - B * ((A * A + B * B) * sin u)) by ring.
      rewrite Hs, Hc. unfold x, y. ring.
Qed.
(** Without consistency: every common solution is the stored one. *)
Lemma pair_complete A B C D u : ~ (A = 0 /\ B = 0) ->
  A * sin u + B * cos u = C -> A * cos u - B * sin u = D -> cong u (atan2 (A * C - B * D) (A * D + B * C)).
Proof.
  intros HAB H1 H2. apply pair_iff; auto. rewrite <- H1, <- H2.
  pose proof (sin2_cos2 u) as P. unfold Rsqr in P.
  replace (A * A + B * B) with ((A * A + B * B) * (sin u * sin u + cos u * cos u)) by (rewrite P; ring). ring.
Qed.
