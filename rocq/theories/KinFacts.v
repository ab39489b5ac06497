(** Facts about the kinematics model. *)
From Coq Require Import Reals List String Bool Lra Lia Setoid Morphisms.
From Verif Require Import Expr Kin KinSpec.
Import ListNotations.
Local Open Scope R_scope.

Ltac idx3 i H := destruct i as [|[|[|i]]]; [| | |exfalso; lia].
Ltac idx4 i H := destruct i as [|[|[|[|i]]]]; [| | | |exfalso; lia].
Ltac munf := unfold mmul4, mmul3, mvec3, mtrans, mneg, rot, pos, of_rows, of_list, osum4, osum3; cbn [nth oadd omul oneg o0 o1 osin ocos ops_R].

Global Instance Meq_equiv n : Equivalence (Meq n).
Proof. split; unfold Meq; repeat intro; auto. - symmetry; auto. - rewrite H; auto. Qed.
Global Instance mmul4_proper : Proper (Meq 4 ==> Meq 4 ==> Meq 4) mmul4.
Proof. intros X X' HX Y Y' HY i j Hi Hj. munf. rewrite !HX, !HY by lia. reflexivity. Qed.
Global Instance mmul3_proper : Proper (Meq 3 ==> Meq 3 ==> Meq 3) mmul3.
Proof. intros X X' HX Y Y' HY i j Hi Hj. munf. rewrite !HX, !HY by lia. reflexivity. Qed.
Lemma mmul4_assoc (X Y Z : mat R) : Meq 4 (mmul4 (mmul4 X Y) Z) (mmul4 X (mmul4 Y Z)).
Proof. intros i j Hi Hj. munf. ring. Qed.
Lemma mmul3_assoc (X Y Z : mat R) : Meq 3 (mmul3 (mmul3 X Y) Z) (mmul3 X (mmul3 Y Z)).
Proof. intros i j Hi Hj. munf. ring. Qed.
Lemma mmul4_1l (X : mat R) : Meq 4 (mmul4 ident X) X.
Proof. intros i j Hi Hj. idx4 i Hi; munf; unfold ident; cbn; ring. Qed.
Lemma mmul4_1r (X : mat R) : Meq 4 (mmul4 X ident) X.
Proof. intros i j Hi Hj. idx4 j Hj; munf; unfold ident; cbn; ring. Qed.
Lemma mmul3_1l (X : mat R) : Meq 3 (mmul3 ident X) X.
Proof. intros i j Hi Hj. idx3 i Hi; munf; unfold ident; cbn; ring. Qed.
Lemma mmul3_1r (X : mat R) : Meq 3 (mmul3 X ident) X.
Proof. intros i j Hi Hj. idx3 j Hj; munf; unfold ident; cbn; ring. Qed.
Lemma Meq_43 X Y : Meq 4 X Y -> Meq 3 X Y.
Proof. intros H i j Hi Hj. apply H; lia. Qed.
Lemma mtrans_mul (X Y : mat R) : Meq 3 (mtrans (mmul3 X Y)) (mmul3 (mtrans Y) (mtrans X)).
Proof. intros i j Hi Hj. munf. ring. Qed.
Global Instance mtrans_proper n : Proper (Meq n ==> Meq n) mtrans.
Proof. intros X Y H i j Hi Hj. apply H; auto. Qed.
Global Instance det3_proper : Proper (Meq 3 ==> eq) det3.
Proof. intros X Y H. unfold det3. unfold Meq in H. rewrite !H by lia. auto. Qed.
Lemma det3_mul X Y : det3 (mmul3 X Y) = det3 X * det3 Y.
Proof. unfold det3. munf. ring. Qed.
Global Instance rotation_proper : Proper (Meq 3 ==> iff) rotation.
Proof. intros X Y H. unfold rotation. rewrite H. tauto. Qed.
Global Instance rigid_proper : Proper (Meq 4 ==> iff) rigid.
Proof.
  intros X Y H. unfold rigid. pose proof (Meq_43 _ _ H) as H3. rewrite (rotation_proper _ _ H3). unfold affine. unfold Meq in H. rewrite !H by lia. tauto.
Qed.

Lemma rotation_mul X Y : rotation X -> rotation Y -> rotation (mmul3 X Y).
Proof.
  intros [HX DX] [HY DY]. split.
  - rewrite mtrans_mul, mmul3_assoc, <- (mmul3_assoc (mtrans X)), HX, mmul3_1l. exact HY.
  - rewrite det3_mul, DX, DY. ring.
Qed.
(** The other side: rows are orthonormal too. *)
Definition adj3 (X : mat R) : mat R := fun i j =>
  let i1 := (S i mod 3)%nat in let i2 := (S (S i) mod 3)%nat in let j1 := (S j mod 3)%nat in let j2 := (S (S j) mod 3)%nat in
  X j1 i1 * X j2 i2 - X j1 i2 * X j2 i1.
Lemma adj3_r X : Meq 3 (mmul3 X (adj3 X)) (fun i j => det3 X * ident i j).
Proof. intros i j Hi Hj. idx3 i Hi; idx3 j Hj; munf; unfold adj3, det3, ident; cbn; ring. Qed.
Lemma rotation_adj X : rotation X -> Meq 3 (mtrans X) (adj3 X).
Proof.
  intros [HX DX].
  assert (E : Meq 3 (mmul3 (mtrans X) (mmul3 X (adj3 X))) (adj3 X)).
  { rewrite <- mmul3_assoc, HX. apply mmul3_1l. }
  rewrite adj3_r in E. rewrite <- E. intros i j Hi Hj. rewrite DX. idx3 j Hj; munf; unfold ident; cbn; ring.
Qed.
Lemma rotation_rows X : rotation X -> Meq 3 (mmul3 X (mtrans X)) ident.
Proof.
  intros H. rewrite (rotation_adj X H), adj3_r. destruct H as [_ D]. rewrite D.
  intros i j Hi Hj. ring.
Qed.
Lemma det3_trans X : det3 (mtrans X) = det3 X.
Proof. unfold det3. munf. ring. Qed.
Lemma rotation_trans X : rotation X -> rotation (mtrans X).
Proof. intros H. split; [|rewrite det3_trans; apply H]. apply rotation_rows in H. exact H. Qed.

Lemma affine_mul X Y : affine X -> affine Y -> affine (mmul4 X Y).
Proof. intros (a&b&c&d) (e&f&g&h). unfold affine. munf. rewrite a, b, c, d, e, f, g, h. repeat split; ring. Qed.
(** The rotation block of a product of homogeneous transforms is the product of the blocks. *)
Lemma rot_mul X Y : affine Y -> Meq 3 (mmul4 X Y) (mmul3 X Y).
Proof. intros (e&f&g&h) i j Hi Hj. idx3 j Hj; munf; rewrite ?e, ?f, ?g; ring. Qed.
Lemma rigid_mul X Y : rigid X -> rigid Y -> rigid (mmul4 X Y).
Proof.
  intros [HX AX] [HY AY]. split; [|apply affine_mul; auto].
  rewrite (rot_mul X Y AY). apply rotation_mul; auto.
Qed.
Lemma ident_rigid : rigid ident.
Proof.
  split; [split|].
  - intros i j Hi Hj. idx3 i Hi; idx3 j Hj; munf; unfold ident; cbn; ring.
  - unfold det3, ident; cbn; ring.
  - unfold affine, ident; cbn; auto.
Qed.

Lemma cc x : cos x * cos x = 1 - sin x * sin x.
Proof. pose proof (sin2_cos2 x) as H. unfold Rsqr in H. lra. Qed.
Lemma link_rot al a d th : rotation (Link al a d th).
Proof.
  split.
  - intros i j Hi Hj. idx3 i Hi; idx3 j Hj; unfold Link, ident; munf; cbn -[sin cos]; pose proof (cc th) as H1; pose proof (cc al) as H2; ring [H1 H2].
  - unfold Link, det3; munf; pose proof (cc th) as H1; pose proof (cc al) as H2; ring [H1 H2].
Qed.
Lemma link_rigid al a d th : rigid (Link al a d th).
Proof. split; [apply link_rot|]. unfold affine, Link. munf. auto. Qed.
Lemma link_craig al a d th : Meq 4 (Link al a d th) (craig al a d th).
Proof.
  intros i j Hi Hj. unfold craig, Link, RotX4, RotZ4, Trans4.
  idx4 i Hi; idx4 j Hj; munf; cbn -[sin cos]; ring.
Qed.
Lemma chain_rigid l : (forall T, In T l -> rigid T) -> rigid (chain l).
Proof.
  induction l as [|T l IH]; simpl; intros H; [apply ident_rigid|].
  apply rigid_mul; auto.
Qed.

Lemma h_inv_l T : rigid T -> Meq 4 (mmul4 (H_inv T) T) ident.
Proof.
  intros [[HO D] (e&f&g&h)]. pose proof (fun i j => HO i j) as O. unfold Meq in O.
  intros i j Hi Hj. idx4 i Hi; idx4 j Hj; unfold H_inv, ident; munf; cbn;
    rewrite ?e, ?f, ?g, ?h;
    try (match goal with |- context [T 0%nat ?i * T 0%nat ?j + _] =>
       let X := fresh in pose proof (O i j ltac:(lia) ltac:(lia)) as X; revert X; munf; unfold ident; cbn; intros X; lra end); try lra; ring.
Qed.
Ltac hfin T O i :=
  let X0 := fresh in let X1 := fresh in let X2 := fresh in
  pose proof (O i 0%nat ltac:(lia) ltac:(lia)) as X0; pose proof (O i 1%nat ltac:(lia) ltac:(lia)) as X1; pose proof (O i 2%nat ltac:(lia) ltac:(lia)) as X2;
  revert X0 X1 X2; munf; unfold ident; cbn; intros X0 X1 X2;
  match type of X0 with ?l0 = ?r0 => match type of X1 with ?l1 = ?r1 => match type of X2 with ?l2 = ?r2 =>
     transitivity ((r0 - l0) * T 0%nat 3%nat + (r1 - l1) * T 1%nat 3%nat + (r2 - l2) * T 2%nat 3%nat);
     [ring | rewrite X0, X1, X2; ring] end end end.
Lemma h_inv_r T : rigid T -> Meq 4 (mmul4 T (H_inv T)) ident.
Proof.
  intros HT. pose proof (rotation_rows T (proj1 HT)) as O. destruct HT as [[HO D] (e&f&g&h)]. unfold Meq in O.
  intros i j Hi Hj. idx4 i Hi; idx4 j Hj; unfold H_inv, ident; munf; cbn; rewrite ?e, ?f, ?g, ?h; try ring;
    try (match goal with |- context [T ?i 0%nat * T ?j 0%nat + _] =>
       let X := fresh in pose proof (O i j ltac:(lia) ltac:(lia)) as X; revert X; munf; unfold ident; cbn; intros X; lra end).
  - hfin T O 0%nat.
  - hfin T O 1%nat.
  - hfin T O 2%nat.
Qed.
Lemma h_inv_affine T : affine (H_inv T).
Proof. unfold affine, H_inv. cbn. auto. Qed.
Lemma h_inv_rigid T : rigid T -> rigid (H_inv T).
Proof.
  intros [HO HA]. split; [|apply h_inv_affine].
  assert (E : Meq 3 (H_inv T) (mtrans T)).
  { intros i j Hi Hj. idx3 i Hi; idx3 j Hj; reflexivity. }
  rewrite E. apply rotation_trans; auto.
Qed.
Global Instance h_inv_proper : Proper (Meq 4 ==> Meq 4) H_inv.
Proof.
  intros X Y H i j Hi Hj. unfold Meq in H. unfold H_inv. idx4 i Hi; idx4 j Hj; unfold Nat.ltb; cbn [Nat.leb]; munf; rewrite ?H by lia; reflexivity.
Qed.
Lemma inv_unique A B T : affine A -> affine B -> Meq 4 (mmul4 A T) ident -> Meq 4 (mmul4 T B) ident -> Meq 4 A B.
Proof.
  intros _ _ H1 H2. rewrite <- (mmul4_1r A), <- H2, <- mmul4_assoc, H1, mmul4_1l. reflexivity.
Qed.
Lemma h_inv_invol T : rigid T -> Meq 4 (H_inv (H_inv T)) T.
Proof.
  intros H. rewrite <- (mmul4_1r (H_inv (H_inv T))), <- (h_inv_l T H), <- mmul4_assoc.
  rewrite (h_inv_l (H_inv T)) by (apply h_inv_rigid; auto). apply mmul4_1l.
Qed.
Lemma h_inv_mul A B : rigid A -> rigid B -> Meq 4 (H_inv (mmul4 A B)) (mmul4 (H_inv B) (H_inv A)).
Proof.
  intros HA HB.
  assert (E : Meq 4 (mmul4 (mmul4 A B) (mmul4 (H_inv B) (H_inv A))) ident).
  { rewrite mmul4_assoc, <- (mmul4_assoc B), (h_inv_r B HB), mmul4_1l. apply h_inv_r; auto. }
  rewrite <- (mmul4_1r (H_inv (mmul4 A B))), <- E, <- mmul4_assoc, h_inv_l by (apply rigid_mul; auto). apply mmul4_1l.
Qed.

(** * Moving factors across an equation *)
Lemma move_l T X Y : rigid T -> (Meq 4 (mmul4 (H_inv T) X) Y <-> Meq 4 X (mmul4 T Y)).
Proof.
  intros H. split; intros E.
  - rewrite <- E, <- mmul4_assoc, (h_inv_r T H), mmul4_1l. reflexivity.
  - rewrite E, <- mmul4_assoc, (h_inv_l T H), mmul4_1l. reflexivity.
Qed.
Lemma move_r T X Y : rigid T -> (Meq 4 (mmul4 X (H_inv T)) Y <-> Meq 4 X (mmul4 Y T)).
Proof.
  intros H. split; intros E.
  - rewrite <- E, mmul4_assoc, (h_inv_l T H), mmul4_1r. reflexivity.
  - rewrite E, mmul4_assoc, (h_inv_r T H), mmul4_1r. reflexivity.
Qed.

(** * From symbols to numbers *)
Lemma mev_mul rho X Y : mev rho (mmul4 X Y) = mmul4 (mev rho X) (mev rho Y).
Proof. reflexivity. Qed.
Lemma mev_mul3 rho X Y : mev rho (mmul3 X Y) = mmul3 (mev rho X) (mev rho Y).
Proof. reflexivity. Qed.
Lemma mev_inv rho X i j : mev rho (H_inv X) i j = H_inv (mev rho X) i j.
Proof. unfold mev, H_inv. destruct (i <? 3)%nat, (j <? 3)%nat; reflexivity. Qed.
Lemma mev_inv_eq rho X : Meq 4 (mev rho (H_inv X)) (H_inv (mev rho X)).
Proof. intros i j _ _. apply mev_inv. Qed.
Lemma eval_nth rho l i d : eval rho (nth i l d) = nth i (map (eval rho) l) (eval rho d).
Proof. symmetry. apply map_nth. Qed.
Lemma mev_link rho r i j : (i < 4)%nat -> (j < 4)%nat -> eval rho (link_of r i j) = Link (eval rho (d_al r)) (eval rho (d_a r)) (eval rho (d_d r)) (eval rho (d_th r)) i j.
Proof. intros Hi Hj. unfold link_of, Link. idx4 i Hi; idx4 j Hj; reflexivity. Qed.
Lemma fold_mmul4 l T : Meq 4 (fold_left mmul4 l T) (mmul4 T (chain l)).
Proof.
  revert T. induction l as [|X l IH]; simpl; intros T.
  - symmetry. apply mmul4_1r.
  - rewrite IH. apply mmul4_assoc.
Qed.
Lemma mev_fold rho l T : mev rho (fold_left mmul4 l T) = fold_left mmul4 (map (mev rho) l) (mev rho T).
Proof. revert T. induction l as [|X l IH]; simpl; intros T; auto. rewrite IH. rewrite mev_mul. reflexivity. Qed.
Lemma mev_mprod rho l : Meq 4 (mev rho (mprod l)) (chain (map (mev rho) l)).
Proof.
  destruct l as [|T l]; simpl.
  - intros i j _ _. unfold mev, ident. destruct (i =? j)%nat; reflexivity.
  - rewrite mev_fold. apply fold_mmul4.
Qed.
Lemma chain_ext l1 l2 : Forall2 (Meq 4) l1 l2 -> Meq 4 (chain l1) (chain l2).
Proof. induction 1; simpl; [reflexivity|]. rewrite H, IHForall2. reflexivity. Qed.

Section Mech.
  Context (nice : expr -> bool).
  Lemma alpha_subs_ok rho i rows : (forall s e, In (s, e) (alpha_params nice i rows) -> rho s = eval rho e) ->
    forall k v, In (k, v) (alpha_subs nice i rows) -> eval rho k = eval rho v.
  Proof.
    revert i. induction rows as [|r rows IH]; simpl; intros i H k v Hk; [tauto|].
    apply in_app_iff in Hk as [Hk|Hk].
    - destruct (nice (d_al r)); simpl in *; [tauto|].
      destruct Hk as [E|[E|[]]]; inversion E; subst; cbn; symmetry.
      + apply (H (ca_name i) (Cos (d_al r))). auto.
      + apply (H (sa_name i) (Sin (d_al r))). auto.
    - eapply IH; eauto. intros s e Hs. apply H. apply in_app_iff. auto.
  Qed.
  Lemma link_ts_ok rho rows : consts_ok nice rho rows ->
    Forall2 (Meq 4) (map (mev rho) (link_ts nice rows))
      (map (fun r => Link (eval rho (d_al r)) (eval rho (d_a r)) (eval rho (d_d r)) (eval rho (d_th r))) rows).
  Proof.
    intros H. unfold link_ts. rewrite map_map. generalize (alpha_subs_ok rho 0 rows H). generalize (alpha_subs nice 0 rows). intros l Hl.
    clear H. induction rows as [|r rows IH]; simpl; constructor; auto.
    intros i j Hi Hj. unfold mev, mapm. rewrite eval_subs_all by auto. apply mev_link; auto.
  Qed.
  Lemma link_craig_list rho rows : Forall2 (Meq 4)
      (map (fun r => Link (eval rho (d_al r)) (eval rho (d_a r)) (eval rho (d_d r)) (eval rho (d_th r))) rows)
      (map (fun r => craig (eval rho (d_al r)) (eval rho (d_a r)) (eval rho (d_d r)) (eval rho (d_th r))) rows).
  Proof. induction rows; simpl; constructor; auto. apply link_craig. Qed.
  Definition no_number (p : expr) : Prop := forall z, p <> Num z.
  Lemma poly_div a b : poly (Div a b) = true -> exists z, b = Num z /\ (z =? 0)%Z = false /\ poly a = true.
  Proof. destruct b as [z| | | | | | | | | | | | |]; cbn [poly]; try discriminate. intros H. apply andb_true_iff in H as [H1 H2]. exists z. apply negb_true_iff in H1. auto. Qed.
  Lemma poly_subs p q e : no_number p -> poly q = true -> poly e = true -> poly (subs p q e) = true.
  Proof.
    intros Np Hq. induction e; intros H;
      match goal with |- poly (subs p q (Div ?a ?b)) = true => apply poly_div in H as (z & -> & Hz & Ha) | _ => cbn [poly] in H end;
      try discriminate; cbn [subs]; (destruct (expr_eqb p _) eqn:E0; [auto|]).
    7:{ destruct (expr_eqb p (Num z)) eqn:Ez; [exfalso; apply expr_eqb_eq in Ez; exact (Np z Ez)|]. cbn [poly]. rewrite Hz, IHe1; auto. }
    all: cbn [poly]; auto; apply andb_true_iff in H as [H1 H2]; rewrite IHe1, IHe2; auto.
  Qed.
  Lemma alpha_subs_keys i rows k v : In (k, v) (alpha_subs nice i rows) -> no_number k.
  Proof.
    revert i. induction rows as [|r rows IH]; simpl; intros i; [tauto|]. intros H. apply in_app_iff in H as [H|H]; [|eauto].
    destruct (nice (d_al r)); simpl in H; [tauto|]. destruct H as [E|[E|[]]]; inversion E; intros z; discriminate.
  Qed.
  Lemma alpha_subs_syms i rows k v : In (k, v) (alpha_subs nice i rows) -> exists n, v = Sym (ca_name n) \/ v = Sym (sa_name n).
  Proof.
    revert i. induction rows as [|r rows IH]; simpl; intros i; [tauto|]. intros H. apply in_app_iff in H as [H|H]; [|eauto].
    destruct (nice (d_al r)); simpl in H; [tauto|]. destruct H as [E|[E|[]]]; inversion E; eauto.
  Qed.
  Lemma poly_subs_all l e : (forall k v, In (k, v) l -> no_number k /\ poly v = true) -> poly e = true -> poly (subs_all l e) = true.
  Proof.
    unfold subs_all. revert e. induction l as [|[k v] l IH]; simpl; intros e H He; auto.
    destruct (H k v (or_introl eq_refl)). apply IH; auto. apply poly_subs; auto.
  Qed.
  Definition mpoly (M : mat expr) : Prop := forall i k, (i < 4)%nat -> (k < 4)%nat -> poly (M i k) = true.
  Lemma link_ts_poly rows : (forall r, In r rows -> row_poly0 r) -> forall T, In T (link_ts nice rows) -> mpoly T.
  Proof.
    intros HR T HT i k Hi Hk. unfold link_ts in HT. apply in_map_iff in HT as (r & <- & Hr). unfold mapm.
    apply poly_subs_all.
    - intros k0 v Hv. split; [eapply alpha_subs_keys; eauto|]. apply alpha_subs_syms in Hv as (n & [->| ->]); reflexivity.
    - pose proof (HR r Hr) as H. pose proof (H (d_al r)) as A1. pose proof (H (d_a r)) as A2. pose proof (H (d_d r)) as A3. pose proof (H (d_th r)) as A4.
      simpl in A1, A2, A3, A4. unfold link_of, Link, of_rows. idx4 i Hi; idx4 k Hk; cbn; rewrite ?A1, ?A2, ?A3, ?A4; auto 6.
  Qed.
  Lemma mprod_poly l : (forall T, In T l -> mpoly T) -> mpoly (mprod l).
  Proof.
    destruct l as [|T l]; simpl; intros H.
    - intros i k _ _. destruct (i =? k)%nat; reflexivity.
    - assert (G : mpoly T) by auto. assert (H' : forall T', In T' l -> mpoly T') by auto. clear H. revert T G.
      induction l as [|X l IH]; simpl; intros T G; auto. apply IH; [simpl in H'; auto|].
      intros i k Hi Hk. unfold mmul4, osum4. cbn. pose proof (H' X (or_introl eq_refl)) as HX.
      rewrite !G, !HX by lia. reflexivity.
  Qed.
  Lemma fk_T06_ok trigsimp rho rows : value_preserving trigsimp -> (forall r, In r rows -> row_poly0 r) -> consts_ok nice rho rows ->
    Meq 4 (mev rho (fk_T06 trigsimp nice rows)) (FK rho rows).
  Proof.
    intros HS HR HC. unfold FK. rewrite <- (chain_ext _ _ (link_craig_list rho rows)), <- (chain_ext _ _ (link_ts_ok rho rows HC)), <- mev_mprod.
    intros i j Hi Hj. unfold mev, fk_T06, mapm. apply HS. apply mprod_poly; auto. apply link_ts_poly; auto.
  Qed.
End Mech.

Lemma copy3_affine rho X : affine (mev rho (copy3 X)).
Proof. unfold affine, mev, copy3. cbn. auto. Qed.
Lemma copy3_eq rho X : affine (mev rho X) -> Meq 4 (mev rho (copy3 X)) (mev rho X).
Proof.
  intros (a&b&c&d) i j Hi Hj. unfold mev, copy3 in *. idx4 i Hi; idx4 j Hj; cbn; auto.
Qed.
Lemma kequation_list_holds rho Td Ts : affine (mev rho Td) -> affine (mev rho Ts) ->
  ((forall k, In k (get_kequation_list (new_matrix_equation Td Ts)) -> holds rho k) <-> Meq 4 (mev rho Td) (mev rho Ts)).
Proof.
  intros (a&b&c&d) (e&f&g&h). split; intros H.
  - intros i j Hi Hj. idx4 i Hi; idx4 j Hj; try (rewrite ?a, ?b, ?c, ?d, ?e, ?f, ?g, ?h; reflexivity).
    all: match goal with |- mev _ _ ?i ?j = _ => refine (H (Keq (me_Td (new_matrix_equation Td Ts) i j) (me_Ts (new_matrix_equation Td Ts) i j)) _);
      unfold get_kequation_list; apply in_app_iff; left; apply (in_map (fun ij => Keq (me_Td (new_matrix_equation Td Ts) (fst ij) (snd ij)) (me_Ts (new_matrix_equation Td Ts) (fst ij) (snd ij))) idx12 (i, j)); unfold idx12; simpl; tauto end.
  - intros k Hk. unfold get_kequation_list in Hk. cbn [me_aux new_matrix_equation] in Hk. rewrite app_nil_r in Hk.
    apply in_map_iff in Hk as ((i & j) & <- & Hin).
    assert (Hij : (i < 3 /\ j < 4)%nat).
    { unfold idx12 in Hin. simpl in Hin. repeat destruct Hin as [E|Hin]; try (inversion E; subst; lia). destruct Hin. }
    unfold holds. cbn [fst snd k_lhs k_rhs me_Td me_Ts new_matrix_equation].
    unfold copy3. destruct Hij as [Hi Hj].
    replace (i <? 3)%nat with true by (symmetry; apply Nat.ltb_lt; auto).
    replace (j <? 4)%nat with true by (symmetry; apply Nat.ltb_lt; auto). cbn. apply H; lia.
Qed.

Section Eight.
  Context (rho : env) (T01 T12 T23 T34 T45 T56 : mat expr).
  Let a := mev rho T01. Let b := mev rho T12. Let c := mev rho T23. Let d := mev rho T34. Let e := mev rho T45. Let f := mev rho T56.
  Let P := mev rho ik_lhs.
  Context (Ra : rigid a) (Rb : rigid b) (Rc : rigid c) (Rd : rigid d) (Re : rigid e) (Rf : rigid f).
  Lemma ik_lhs_affine : affine P.
  Proof. subst P. unfold affine, mev, ik_lhs. cbn. auto. Qed.
  Lemma rig_aff T : rigid T -> affine T. Proof. intros [_ H]; auto. Qed.
  Lemma inv_aff T : affine (mev rho (H_inv T)).
  Proof. unfold affine. rewrite !mev_inv. apply h_inv_affine. Qed.
  Ltac aff := rewrite ?mev_mul; repeat apply affine_mul; auto using inv_aff, rig_aff, ik_lhs_affine.
  Lemma eight M : In M (get_mequation_set T01 T12 T23 T34 T45 T56) ->
    ((forall k, In k (get_kequation_list M) -> holds rho k) <-> Meq 4 P (chain [a; b; c; d; e; f])).
  Proof.
    assert (E : Meq 4 (chain [a; b; c; d; e; f]) (mmul4 a (mmul4 b (mmul4 c (mmul4 d (mmul4 e f)))))).
    { simpl. rewrite mmul4_1r. reflexivity. }
    rewrite E. clear E.
    unfold get_mequation_set. intros H.
    repeat destruct H as [<-|H]; [..|destruct H];
      rewrite kequation_list_holds by aff; rewrite ?mev_mul, ?mev_inv_eq; fold a b c d e f P;
      rewrite ?mmul4_assoc, ?move_l, ?move_r, ?mmul4_assoc by auto; try reflexivity.
    rewrite <- (mmul4_assoc P), !move_r, !mmul4_assoc by auto. reflexivity.
  Qed.
End Eight.
