(** Properties C36 - C41 and C49: link transforms, inverse, matrix equations, rotations, Jacobian, angle wrapping.
    Vocabulary in KinSpec.v. *)
From Coq Require Import Reals ZArith List String Bool Lra Lia Setoid.
From Verif Require Import Expr Kin KinSpec KinFacts KinVel KinVel2.
Import ListNotations.
Local Open Scope R_scope.

(** ** C36 *)
Theorem c36_link_rigid : forall al a d th, rigid (Link al a d th).
Proof. exact link_rigid. Qed.
Print Assumptions c36_link_rigid.
Theorem c36_link_is_craig : forall al a d th, Meq 4 (Link al a d th) (craig al a d th).
Proof. exact link_craig. Qed.
Print Assumptions c36_link_is_craig.
(** Any number of links; symbolic (evaluated) and numerical link agree. *)
Theorem c36_chain_rigid : forall l : list (dhrow R), rigid (chain (map link_of l)).
Proof.
  exact (fun l => chain_rigid (map link_of l) (fun T H => match proj1 (in_map_iff _ _ _) H with ex_intro _ r (conj E _) => eq_ind _ rigid (link_rigid _ _ _ _) _ E end)).
Qed.
Print Assumptions c36_chain_rigid.
Theorem c36_symbolic_link : forall rho r i j, (i < 4)%nat -> (j < 4)%nat ->
  eval rho (link_of r i j) = Link (eval rho (d_al r)) (eval rho (d_a r)) (eval rho (d_d r)) (eval rho (d_th r)) i j.
Proof. exact mev_link. Qed.
Print Assumptions c36_symbolic_link.

(** ** C37 *)
Theorem c37_inverse : forall T, rigid T ->
  Meq 4 (mmul4 (H_inv T) T) ident /\ Meq 4 (mmul4 T (H_inv T)) ident /\ rigid (H_inv T) /\ Meq 4 (H_inv (H_inv T)) T.
Proof. exact (fun T H => conj (h_inv_l T H) (conj (h_inv_r T H) (conj (h_inv_rigid T H) (h_inv_invol T H)))). Qed.
Print Assumptions c37_inverse.
Theorem c37_inverse_of_product : forall A B, rigid A -> rigid B -> Meq 4 (H_inv (mmul4 A B)) (mmul4 (H_inv B) (H_inv A)).
Proof. exact h_inv_mul. Qed.
Print Assumptions c37_inverse_of_product.
Example c37_example : rigid (Link 1 2 3 4). Proof. apply link_rigid. Qed.
(** The numerical counterparts are unusable: they raise for every argument. *)
Theorem c37_numerical_inverse_refuted : forall T, H_inv_N T = inr NAttributeError.
Proof. exact (fun T => eq_refl). Qed.
Print Assumptions c37_numerical_inverse_refuted.

(** ** C38 *)
(** The forward kinematics result T_06 is the product of the Craig transforms of the DH rows. *)
Theorem c38_T06 : forall trigsimp nice rho rows,
  value_preserving trigsimp -> (forall r, In r rows -> row_poly0 r) -> consts_ok nice rho rows ->
  Meq 4 (mev rho (fk_T06 trigsimp nice rows)) (FK rho rows).
Proof. exact (fun s n => fk_T06_ok n s). Qed.
Print Assumptions c38_T06.
(** Every generated matrix equation - taken as the 12 scalar equations the solvers see - holds exactly when
    the joint values reach the desired pose. *)
Lemma mequations nice rho rows T01 T12 T23 T34 T45 T56 :
  consts_ok nice rho rows -> link_ts nice rows = [T01; T12; T23; T34; T45; T56] ->
  forall M, In M (get_mequation_set T01 T12 T23 T34 T45 T56) ->
    ((forall k, In k (get_kequation_list M) -> holds rho k) <-> Meq 4 (mev rho ik_lhs) (FK rho rows)).
Proof.
  intros HC HL M HM.
  pose proof (link_ts_ok nice rho rows HC) as F.
  assert (HRig : forall T, In T (link_ts nice rows) -> rigid (mev rho T)).
  { intros T HT. revert F HT. generalize (link_ts nice rows). intros l. revert rows HC HL. clear.
    intros rows _ _. revert l. induction rows as [|r rows IH]; intros [|X l]; simpl; intros F HT; try tauto; inversion F; subst.
    destruct HT as [<-|HT]; [|eapply IH; eauto].
    match goal with H : Meq 4 (mev rho X) _ |- _ => rewrite H end. apply link_rigid. }
  rewrite HL in HRig, F.
  rewrite (eight rho T01 T12 T23 T34 T45 T56); auto; try (apply HRig; simpl; tauto).
  unfold FK. rewrite <- (chain_ext _ _ (link_craig_list rho rows)), <- (chain_ext _ _ F). reflexivity.
Qed.
Theorem c38_matrix_equations : forall nice rho rows T01 T12 T23 T34 T45 T56,
  consts_ok nice rho rows -> link_ts nice rows = [T01; T12; T23; T34; T45; T56] ->
  forall M, In M (get_mequation_set T01 T12 T23 T34 T45 T56) ->
    ((forall k, In k (get_kequation_list M) -> holds rho k) <-> Meq 4 (mev rho ik_lhs) (FK rho rows)).
Proof. exact mequations. Qed.
Print Assumptions c38_matrix_equations.
(** There are eight of them. *)
Theorem c38_eight : forall a b c d e f, List.length (get_mequation_set a b c d e f) = 8%nat.
Proof. exact (fun _ _ _ _ _ _ => eq_refl). Qed.
Print Assumptions c38_eight.

(** Non-vacuity: a table whose first alpha (1 rad) is not "nice", with a pose that is reached. *)
Section Ex.
  Let z := DH (Num 0) (Num 0) (Num 0) (Num 0) : dhrow expr.
  Let rows := [DH (Num 1) (Num 2) (Sym "d_1") (Num 0); z; z; z; z; z]%string.
  Let nice e := negb (expr_eqb e (Num 1)).
  Let rho : env := fun s =>
    if String.eqb s "ca0" then cos 1 else if String.eqb s "sa0" then sin 1 else if String.eqb s "d_1" then 3
    else if String.eqb s "r_11" then 1 else if String.eqb s "r_22" then cos 1 else if String.eqb s "r_23" then - sin 1
    else if String.eqb s "r_32" then sin 1 else if String.eqb s "r_33" then cos 1
    else if String.eqb s "Px" then 2 else if String.eqb s "Py" then - sin 1 * 3 else if String.eqb s "Pz" then cos 1 * 3 else 0.
  Example c38_example : consts_ok nice rho rows /\ (forall r, In r rows -> row_poly0 r) /\ Meq 4 (mev rho ik_lhs) (FK rho rows).
  Proof.
    split; [|split].
    - intros s e H. simpl in H. repeat destruct H as [E|H]; try inversion E; subst; try reflexivity; destruct H.
    - intros r Hr e He. simpl in Hr. repeat (destruct Hr as [<-|Hr]); try destruct Hr; simpl in He; repeat (destruct He as [<-|He]); try reflexivity; destruct He.
    - assert (EZ : Meq 4 (craig 0 0 0 0) ident).
      { rewrite <- link_craig. intros i j Hi Hj. unfold Link. idx4 i Hi; idx4 j Hj; unfold ident; munf; cbn -[sin cos]; rewrite ?sin_0, ?cos_0; ring. }
      unfold FK, rows, z. cbn [map chain d_al d_a d_d d_th eval]. rewrite !EZ, !mmul4_1r.
      rewrite <- link_craig. intros i j Hi Hj. unfold mev, ik_lhs, Link. idx4 i Hi; idx4 j Hj; munf; cbn -[sin cos]; rewrite ?sin_0, ?cos_0; ring.
  Qed.
End Ex.

(** ** C39 *)
Ltac rot_by th := split; [intros i j Hi Hj; idx3 i Hi; idx3 j Hj; unfold RotX, RotY, RotZ, ident; munf; cbn -[sin cos]; pose proof (cc th) as H1; ring [H1]
  | unfold RotX, RotY, RotZ, det3; munf; pose proof (cc th) as H1; ring [H1]].
Lemma rotx t : rotation (RotX t). Proof. rot_by t. Qed.
Lemma roty t : rotation (RotY t). Proof. rot_by t. Qed.
Lemma rotz t : rotation (RotZ t). Proof. rot_by t. Qed.
Theorem c39_elementary : forall t, rotation (RotX t) /\ rotation (RotY t) /\ rotation (RotZ t).
Proof. exact (fun t => conj (rotx t) (conj (roty t) (rotz t))). Qed.
Print Assumptions c39_elementary.
Lemma rot_add s t : Meq 3 (mmul3 (RotX s) (RotX t)) (RotX (s + t)) /\ Meq 3 (mmul3 (RotY s) (RotY t)) (RotY (s + t)) /\ Meq 3 (mmul3 (RotZ s) (RotZ t)) (RotZ (s + t)).
Proof.
  split; [|split]; intros i j Hi Hj; idx3 i Hi; idx3 j Hj; unfold RotX, RotY, RotZ; munf; cbn -[sin cos]; rewrite ?sin_plus, ?cos_plus; ring.
Qed.
Theorem c39_additive : forall s t, Meq 3 (mmul3 (RotX s) (RotX t)) (RotX (s + t)) /\ Meq 3 (mmul3 (RotY s) (RotY t)) (RotY (s + t)) /\ Meq 3 (mmul3 (RotZ s) (RotZ t)) (RotZ (s + t)).
Proof. exact rot_add. Qed.
Print Assumptions c39_additive.
Lemma rot_inv t : Meq 3 (mtrans (RotX t)) (RotX (- t)) /\ Meq 3 (mtrans (RotY t)) (RotY (- t)) /\ Meq 3 (mtrans (RotZ t)) (RotZ (- t)).
Proof. split; [|split]; intros i j Hi Hj; idx3 i Hi; idx3 j Hj; unfold RotX, RotY, RotZ; munf; cbn -[sin cos]; rewrite ?sin_neg, ?cos_neg; ring. Qed.
Theorem c39_inverse_is_negative_angle : forall t, Meq 3 (mtrans (RotX t)) (RotX (- t)) /\ Meq 3 (mtrans (RotY t)) (RotY (- t)) /\ Meq 3 (mtrans (RotZ t)) (RotZ (- t)).
Proof. exact rot_inv. Qed.
Print Assumptions c39_inverse_is_negative_angle.
(** The axis of each is fixed and a positive angle turns x to y about z (and so on): which rotation it is. *)
Lemma rot_axes t : (forall i, (i < 3)%nat -> mvec3 (RotX t) (of_list 0 [1;0;0]) i = of_list 0 [1;0;0] i) /\
  (forall i, (i < 3)%nat -> mvec3 (RotY t) (of_list 0 [0;1;0]) i = of_list 0 [0;1;0] i) /\
  (forall i, (i < 3)%nat -> mvec3 (RotZ t) (of_list 0 [0;0;1]) i = of_list 0 [0;0;1] i) /\
  (forall i, (i < 3)%nat -> mvec3 (RotX t) (of_list 0 [0;1;0]) i = of_list 0 [0; cos t; sin t] i) /\
  (forall i, (i < 3)%nat -> mvec3 (RotY t) (of_list 0 [0;0;1]) i = of_list 0 [sin t; 0; cos t] i) /\
  (forall i, (i < 3)%nat -> mvec3 (RotZ t) (of_list 0 [1;0;0]) i = of_list 0 [cos t; sin t; 0] i).
Proof. repeat split; intros i Hi; idx3 i Hi; unfold RotX, RotY, RotZ; munf; ring. Qed.
Theorem c39_axes : forall t, (forall i, (i < 3)%nat -> mvec3 (RotX t) (of_list 0 [1;0;0]) i = of_list 0 [1;0;0] i) /\
  (forall i, (i < 3)%nat -> mvec3 (RotY t) (of_list 0 [0;1;0]) i = of_list 0 [0;1;0] i) /\
  (forall i, (i < 3)%nat -> mvec3 (RotZ t) (of_list 0 [0;0;1]) i = of_list 0 [0;0;1] i) /\
  (forall i, (i < 3)%nat -> mvec3 (RotX t) (of_list 0 [0;1;0]) i = of_list 0 [0; cos t; sin t] i) /\
  (forall i, (i < 3)%nat -> mvec3 (RotY t) (of_list 0 [0;0;1]) i = of_list 0 [sin t; 0; cos t] i) /\
  (forall i, (i < 3)%nat -> mvec3 (RotZ t) (of_list 0 [1;0;0]) i = of_list 0 [cos t; sin t; 0] i).
Proof. exact rot_axes. Qed.
Print Assumptions c39_axes.
Lemma rpy3 r p y : rotation (RPY3 r p y).
Proof. unfold RPY3. auto using rotation_mul, rotx, roty, rotz. Qed.
Lemma rpy4 r p y : rigid (RPY4 r p y) /\ Meq 3 (RPY4 r p y) (RPY3 r p y) /\ forall i, (i < 3)%nat -> pos (RPY4 r p y) i = 0.
Proof.
  assert (E : Meq 3 (RPY4 r p y) (RPY3 r p y)).
  { intros i j Hi Hj. idx3 i Hi; idx3 j Hj; reflexivity. }
  split; [|split; [exact E|]].
  - split; [rewrite E; apply rpy3|]. unfold affine, RPY4. cbn. auto.
  - intros i Hi. idx3 i Hi; reflexivity.
Qed.
Theorem c39_rpy : forall r p y, rotation (RPY3 r p y) /\ rigid (RPY4 r p y) /\ Meq 3 (RPY4 r p y) (RPY3 r p y) /\ forall i, (i < 3)%nat -> pos (RPY4 r p y) i = 0.
Proof. exact (fun r p y => conj (rpy3 r p y) (rpy4 r p y)). Qed.
Print Assumptions c39_rpy.
Lemma rot4 t v : (Meq 3 (RotX4 t) (RotX t) /\ rigid (RotX4 t)) /\ (Meq 3 (RotY4 t) (RotY t) /\ rigid (RotY4 t)) /\ (Meq 3 (RotZ4 t) (RotZ t) /\ rigid (RotZ4 t)) /\
  rigid (Trans4 v) /\ forall i, (i < 3)%nat -> pos (Trans4 v) i = v i.
Proof.
  assert (EX : Meq 3 (RotX4 t) (RotX t)) by (intros i j Hi Hj; idx3 i Hi; idx3 j Hj; reflexivity).
  assert (EY : Meq 3 (RotY4 t) (RotY t)) by (intros i j Hi Hj; idx3 i Hi; idx3 j Hj; reflexivity).
  assert (EZ : Meq 3 (RotZ4 t) (RotZ t)) by (intros i j Hi Hj; idx3 i Hi; idx3 j Hj; reflexivity).
  repeat split; auto; try (match goal with |- Meq 3 (mmul3 (mtrans (_ t)) _) _ => idtac | |- det3 (_ t) = 1 => idtac end; first [apply EX | apply EY | apply EZ]).
  all: try (rewrite EX; apply rotx). all: try (rewrite EY; apply roty). all: try (rewrite EZ; apply rotz).
  - intros i j Hi Hj. idx3 i Hi; idx3 j Hj; unfold Trans4, ident; munf; cbn; ring.
  - unfold det3, Trans4; cbn; ring.
  - intros i Hi. idx3 i Hi; reflexivity.
Qed.
Theorem c39_homogeneous : forall t v, (Meq 3 (RotX4 t) (RotX t) /\ rigid (RotX4 t)) /\ (Meq 3 (RotY4 t) (RotY t) /\ rigid (RotY4 t)) /\ (Meq 3 (RotZ4 t) (RotZ t) /\ rigid (RotZ4 t)) /\
  rigid (Trans4 v) /\ forall i, (i < 3)%nat -> pos (Trans4 v) i = v i.
Proof. exact rot4. Qed.
Print Assumptions c39_homogeneous.
Theorem c39_numerical_rpy4_refuted : forall r p y, RPY4_N r p y = inr NIndexError.
Proof. exact (fun r p y => eq_refl). Qed.
Print Assumptions c39_numerical_rpy4_refuted.

(** ** C40 *)
(** J66 * qdot = (v_66; w_66), and J66 does not depend on the joint rates. *)
Theorem c40_jacobian : forall trigsimp expand nice rows vv,
  good_simp trigsimp -> value_preserving expand -> (forall r, In r rows -> row_poly qd_names r) ->
  let vw := fk_velocities trigsimp nice rows vv in
  let J := fk_J66 trigsimp expand nice rows vv in
  forall rho i, (i < 3)%nat ->
    eval rho (fst vw i) = rsum (fun j => eval rho (J i j) * rho (nth j qd_names ""%string)) (seq 0 6) /\
    eval rho (snd vw i) = rsum (fun j => eval rho (J (3 + i)%nat j) * rho (nth j qd_names ""%string)) (seq 0 6) /\
    forall j y u, (j < 6)%nat -> In y qd_names -> eval (upd rho y u) (J i j) = eval rho (J i j) /\ eval (upd rho y u) (J (3 + i)%nat j) = eval rho (J (3 + i)%nat j).
Proof. exact (fun t e n r v Ht He => jacobian_ok t e Ht He n r v). Qed.
Print Assumptions c40_jacobian.
(** The recursion is right: for a motion of the joints at the given rates, the derivative of the last
    frame's rotation is R*[w_nn] and of its origin R*v_nn (w_nn, v_nn are expressed in the last frame). *)
Theorem c40_body_velocity : forall trigsimp nice rho t rows vv qds simp,
  good_simp trigsimp ->
  List.length vv = List.length rows -> List.length qds = List.length rows -> List.length simp = List.length rows ->
  (forall r, In r rows -> row_poly0 r) -> consts_ok nice (rho t) rows ->
  (forall x, In x (combine (combine rows vv) qds) -> row_moves rho t x) ->
  let vw := velocities trigsimp (joints_of (link_ts nice rows) vv qds simp) in
  mderiv (fun s => FK (rho s) rows) t (mmul3 (FK (rho t) rows) (skew (vev (rho t) (snd vw)))) /\
  vderiv (fun s => pos (FK (rho s) rows)) t (mvec3 (FK (rho t) rows) (vev (rho t) (fst vw))).
Proof. exact (fun tr n rho t rows vv qds simp Ht => body_velocity tr Ht n rho t rows vv qds simp). Qed.
Print Assumptions c40_body_velocity.
Example c40_oracles : good_simp (fun e => e) /\ value_preserving (fun e => e).
Proof. repeat split; auto; intros ? ? _; reflexivity. Qed.
(** A two joint arm, revolute then prismatic, moving. *)
Section ExV.
  Let rows := [DH (Num 0) (Sym "a_0") (Num 0) (Sym "th_1"); DH PiE (Num 0) (Sym "d_2") (Num 0)]%string : list (dhrow expr).
  Let rho : R -> env := fun s x => if String.eqb x "th_1" then 5 * s else if String.eqb x "d_2" then 7 * s
     else if String.eqb x "qd_1" then 5 else if String.eqb x "qd_2" then 7 else 1.
  Let lin k t : derivable_pt_lim (fun s => k * s) t k.
  Proof. eapply lim_val; [|apply (derivable_pt_lim_scal id)]; [|apply derivable_pt_lim_id]. ring. Qed.
  Example c40_example : forall t, (forall x, In x (combine (combine rows [true; false]) ["qd_1"; "qd_2"]%string) -> row_moves rho t x) /\
    consts_ok (fun _ => true) (rho t) rows /\ (forall r, In r rows -> row_poly qd_names r).
  Proof.
    intros t. split; [|split].
    - intros x Hx. simpl in Hx. destruct Hx as [<-|[<-|[]]]; unfold row_moves; cbn; repeat split; try apply derivable_pt_lim_const; apply lin.
    - intros s e H. simpl in H. destruct H.
    - intros r Hr e He. simpl in Hr. repeat (destruct Hr as [<-|Hr]); try destruct Hr; simpl in He; repeat (destruct He as [<-|He]); try destruct He;
        (split; [reflexivity|]); intros x Hx; simpl in Hx; repeat (destruct Hx as [<-|Hx]); try reflexivity; destruct Hx.
  Qed.
End ExV.

(** ** C41 *)
Lemma wrap_cong t : exists k : Z, (-1 <= k <= 1)%Z /\ wrap_angle_N t = t + 2 * PI * IZR k.
Proof.
  unfold wrap_angle_N. destruct (Rlt_dec t (- PI)); [exists 1%Z|destruct (Rle_dec PI t); [exists (-1)%Z|exists 0%Z]]; (split; [lia|]); simpl; ring.
Qed.
Theorem c41_congruent : forall t, exists k : Z, (-1 <= k <= 1)%Z /\ wrap_angle_N t = t + 2 * PI * IZR k.
Proof. exact wrap_cong. Qed.
Print Assumptions c41_congruent.
Lemma wrap_range t : - PI <= wrap_angle_N t < PI <-> -3 * PI <= t < 3 * PI.
Proof. pose proof PI_RGT_0. unfold wrap_angle_N. destruct (Rlt_dec t (- PI)), (Rle_dec PI t); split; intros; lra. Qed.
Theorem c41_range_exactly : forall t, - PI <= wrap_angle_N t < PI <-> -3 * PI <= t < 3 * PI.
Proof. exact wrap_range. Qed.
Print Assumptions c41_range_exactly.
Lemma wrap_bad : exists t, ~ (- PI <= wrap_angle_N t <= PI).
Proof. exists (5 * PI). pose proof PI_RGT_0. unfold wrap_angle_N. destruct (Rlt_dec (5 * PI) (- PI)), (Rle_dec PI (5 * PI)); lra. Qed.
Theorem c41_all_angles_refuted : exists t, ~ (- PI <= wrap_angle_N t <= PI).
Proof. exact wrap_bad. Qed.
Print Assumptions c41_all_angles_refuted.
Lemma wrap_id t : - PI <= t < PI -> wrap_angle_N t = t.
Proof. unfold wrap_angle_N. destruct (Rlt_dec t (- PI)), (Rle_dec PI t); lra. Qed.
Theorem c41_identity_in_range : forall t, - PI <= t < PI -> wrap_angle_N t = t.
Proof. exact wrap_id. Qed.
Print Assumptions c41_identity_in_range.

(** ** C49: approximate comparison *)
Lemma approx_spec a b : approx_N a b = true <-> (Rabs (a - b) < Rmax (Rabs a) (Rabs b) / 1000 \/ Rabs (a - b) < 1 / 100000).
Proof.
  unfold approx_N. destruct (Rlt_dec _ _) as [H|H]; split; intros G; auto; try discriminate.
  - unfold Rmax in H at 1. destruct (Rle_dec _ _); [right|left]; lra.
  - exfalso. apply H. unfold Rmax at 1. destruct (Rle_dec _ _) as [L|L]; destruct G; lra.
Qed.
Theorem c49_approx : forall a b, approx_N a b = true <-> (Rabs (a - b) < Rmax (Rabs a) (Rabs b) / 1000 \/ Rabs (a - b) < 1 / 100000).
Proof. exact approx_spec. Qed.
Print Assumptions c49_approx.
Lemma approx_refl_sym : (forall a, approx_N a a = true) /\ (forall a b, approx_N a b = approx_N b a).
Proof.
  split; [|intros a b].
  - intros a. apply approx_spec. right. rewrite Rminus_diag_eq, Rabs_R0 by auto. lra.
  - unfold approx_N. rewrite (Rabs_minus_sym b a), (Rmax_comm (Rabs b)). reflexivity.
Qed.
Theorem c49_reflexive_symmetric : (forall a, approx_N a a = true) /\ (forall a b, approx_N a b = approx_N b a).
Proof. exact approx_refl_sym. Qed.
Print Assumptions c49_reflexive_symmetric.
Lemma approx_not_trans : exists a b c, approx_N a b = true /\ approx_N b c = true /\ approx_N a c = false.
Proof.
  exists 0, (9 / 1000000), (18 / 1000000).
  split; [|split].
  - apply approx_spec. right. unfold Rabs. destruct (Rcase_abs _); lra.
  - apply approx_spec. right. unfold Rabs. destruct (Rcase_abs _); lra.
  - destruct (approx_N 0 (18 / 1000000)) eqn:E; auto. apply approx_spec in E. exfalso.
    unfold Rabs, Rmax in E. repeat (destruct (Rcase_abs _) in E; try lra). destruct (Rle_dec _ _) in E; lra.
Qed.
Theorem c49_transitive_refuted : exists a b c, approx_N a b = true /\ approx_N b c = true /\ approx_N a c = false.
Proof. exact approx_not_trans. Qed.
Print Assumptions c49_transitive_refuted.
