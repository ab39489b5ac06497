(** From the symbolic velocity recursion to body velocities and the Jacobian of a DH table. *)
From Coq Require Import Reals ZArith List String Bool Lra Lia Setoid Morphisms.
From Verif Require Import Expr Kin KinSpec KinFacts KinVel.
Import ListNotations.
Local Open Scope R_scope.

(** Numerical value of a vel_step. *)
Definition veq (u v : vec R) : Prop := forall i, (i < 3)%nat -> u i = v i.
Lemma nstep_ext t u u' w w' l : veq u u' -> veq w w' ->
  veq (fst (nstep t (u, w) l)) (fst (nstep t (u', w') l)) /\ veq (snd (nstep t (u, w) l)) (snd (nstep t (u', w') l)).
Proof.
  intros Hu Hw. unfold veq in *. split; intros i Hi; unfold nstep, mvec3, osum3, vadd, cross, of_list; cbn [fst snd nth oadd omul oneg ops_R];
    rewrite ?Hu, ?Hw by lia; reflexivity.
Qed.
Section S.
  Context (trigsimp : expr -> expr) (Htr : good_simp trigsimp).
  Definition vpoly (v : vec expr) : Prop := forall i, (i < 3)%nat -> poly (v i) = true.
  Lemma simp_ev rho b v i : poly (v i) = true -> eval rho (maybe_simp trigsimp b v i) = eval rho (v i).
  Proof. destruct b; simpl; auto. unfold mapv. intros H. apply Htr; auto. Qed.
  Lemma vpoly_simp b v : vpoly v -> vpoly (maybe_simp trigsimp b v).
  Proof. intros H. destruct b; simpl; auto. intros i Hi. apply Htr. auto. Qed.
  Lemma vpoly_add u v : vpoly u -> vpoly v -> vpoly (vadd u v).
  Proof. intros Hu Hv i Hi. cbn. rewrite Hu, Hv; auto. Qed.
  Lemma vpoly_z x : vpoly (zvec (Sym x)).
  Proof. intros i Hi. idx3 i Hi; reflexivity. Qed.
  Lemma vpoly_mvec T v : mpoly T -> vpoly v -> vpoly (mvec3 (mtrans (rot T)) v).
  Proof. intros HT Hv i Hi. unfold mvec3, osum3, mtrans, rot. cbn. rewrite !HT, !Hv by lia. reflexivity. Qed.
  Lemma vpoly_cross T v : mpoly T -> vpoly v -> vpoly (cross v (pos T)).
  Proof. intros HT Hv i Hi. idx3 i Hi; unfold cross, of_list, pos; cbn; rewrite !HT, !Hv by lia; reflexivity. Qed.
  Lemma vpoly_pre T (b : bool) x v w : mpoly T -> vpoly v -> vpoly w ->
    vpoly (let v1 := mvec3 (mtrans (rot T)) (vadd v (cross w (pos T))) in if b then v1 else vadd v1 (zvec (Sym x))) /\
    vpoly (let w1 := mvec3 (mtrans (rot T)) w in if b then vadd w1 (zvec (Sym x)) else w1).
  Proof.
    intros HT Hv Hw. cbn zeta. split; destruct b; auto using vpoly_mvec, vpoly_add, vpoly_z, vpoly_cross.
  Qed.
  Lemma vel_step_ev (rho : R -> env) t j vw nvw row :
    (forall i k, (i < 4)%nat -> (k < 4)%nat -> eval (rho t) (j_T j i k) = link_of (row t) i k) ->
    veq (vev (rho t) (fst vw)) (fst nvw) -> veq (vev (rho t) (snd vw)) (snd nvw) ->
    mpoly (j_T j) -> vpoly (fst vw) -> vpoly (snd vw) ->
    let l := NLink row (j_rev j) (rho t (j_qd j)) in
    veq (vev (rho t) (fst (vel_step trigsimp vw j))) (fst (nstep t nvw l)) /\
    veq (vev (rho t) (snd (vel_step trigsimp vw j))) (snd (nstep t nvw l)) /\
    vpoly (fst (vel_step trigsimp vw j)) /\ vpoly (snd (vel_step trigsimp vw j)).
  Proof.
    intros HT Hv Hw PT Pv Pw.
    destruct (vpoly_pre (j_T j) (j_rev j) (j_qd j) _ _ PT Pv Pw) as [Q1 Q2].
    rewrite <- and_assoc. split; [|split; apply vpoly_simp; [exact Q1|exact Q2]].  unfold veq, vev in *. destruct nvw as [nv nw]. cbn [fst snd] in *.
    split; intros i Hi; unfold vel_step, v_next, w_next; cbn [fst snd]; rewrite simp_ev by (first [exact (Q1 i Hi)|exact (Q2 i Hi)]);
      unfold nstep, ntrans, l_row, l_rev, l_qd; cbn [fst snd].
    - assert (E : eval (rho t) (mvec3 (mtrans (rot (j_T j))) (vadd (fst vw) (cross (snd vw) (pos (j_T j)))) i) =
        mvec3 (mtrans (link_of (row t))) (vadd nv (cross nw (pos (link_of (row t))))) i).
      { unfold mvec3, osum3, mtrans, rot, vadd, cross, pos, of_list; cbn [nth oadd omul oneg ops_R ops_expr eval].
        rewrite !HT, !Hv, !Hw by lia. reflexivity. }
      destruct (j_rev j).
      + rewrite E. unfold znum, of_list. idx3 i Hi; cbn [nth]; ring.
      + unfold vadd at 1. cbn [oadd ops_expr eval]. rewrite E. unfold znum, zvec, of_list. idx3 i Hi; reflexivity.
    - assert (E : eval (rho t) (mvec3 (mtrans (rot (j_T j))) (snd vw) i) = mvec3 (mtrans (link_of (row t))) nw i).
      { unfold mvec3, osum3, mtrans, rot; cbn [nth oadd omul oneg ops_R ops_expr eval]. rewrite !HT, !Hw by lia. reflexivity. }
      destruct (j_rev j).
      + unfold vadd at 1. cbn [oadd ops_expr eval]. rewrite E. unfold znum, zvec, of_list. idx3 i Hi; reflexivity.
      + rewrite E. unfold znum, of_list. idx3 i Hi; cbn [nth]; ring.
  Qed.
  Fixpoint nlinks (rho : R -> env) (t : R) (rows : list (dhrow expr)) (vv : list bool) (qds : list string) : list nlink :=
    match rows, vv, qds with
    | r :: rows, b :: vv, q :: qds => NLink (fun s => rev_row (rho s) r) b (rho t q) :: nlinks rho t rows vv qds
    | _, _, _ => []
    end.
  Lemma velocities_ev rho t rows : forall Ts vv qds simp vw nvw,
    Forall2 (fun T r => forall i k, (i < 4)%nat -> (k < 4)%nat -> eval (rho t) (T i k) = link_of (rev_row (rho t) r) i k) Ts rows ->
    List.length vv = List.length rows -> List.length qds = List.length rows -> List.length simp = List.length rows ->
    veq (vev (rho t) (fst vw)) (fst nvw) -> veq (vev (rho t) (snd vw)) (snd nvw) ->
    (forall T, In T Ts -> mpoly T) -> vpoly (fst vw) -> vpoly (snd vw) ->
    let r := fold_left (vel_step trigsimp) (joints_of Ts vv qds simp) vw in
    let n := fold_left (nstep t) (nlinks rho t rows vv qds) nvw in
    veq (vev (rho t) (fst r)) (fst n) /\ veq (vev (rho t) (snd r)) (snd n).
  Proof.
    induction rows as [|row rows IH]; intros Ts vv qds simp vw nvw HF L1 L2 L3 Hv Hw PT Pv Pw; inversion HF as [|x y Ts2 rows2 H1 HF2]; subst.
    - destruct vv; [|discriminate]. simpl. auto.
    - destruct vv as [|b vv], qds as [|q qds], simp as [|s simp]; try discriminate.
      simpl in L1, L2, L3. simpl.
      destruct (vel_step_ev rho t (Joint x b q s) vw nvw (fun s => rev_row (rho s) row) H1 Hv Hw (PT x (or_introl eq_refl)) Pv Pw) as (A & B & PA & PB).
      apply IH; auto. intros T HT; apply PT; right; auto.
  Qed.
  Lemma link_ts_ev nice rho rows : consts_ok nice rho rows ->
    Forall2 (fun T r => forall i k, (i < 4)%nat -> (k < 4)%nat -> eval rho (T i k) = link_of (rev_row rho r) i k) (link_ts nice rows) rows.
  Proof.
    intros H. unfold link_ts. generalize (alpha_subs_ok nice rho 0 rows H). generalize (alpha_subs nice 0 rows). intros l Hl. clear H.
    induction rows as [|r rows IH]; simpl; constructor; auto.
    intros i j Hi Hj. unfold mapm. rewrite eval_subs_all by auto. rewrite mev_link by auto. reflexivity.
  Qed.
  Lemma nlinks_chain rho t rows : forall vv qds, List.length vv = List.length rows -> List.length qds = List.length rows ->
    forall s, Meq 4 (nchain (nlinks rho t rows vv qds) s) (FK (rho s) rows).
  Proof.
    induction rows as [|r rows IH]; intros [|b vv] [|q qds] L1 L2 s; try discriminate.
    - reflexivity.
    - unfold nchain, FK. simpl. apply mmul4_proper.
      + unfold ntrans. simpl. unfold link_of. cbn. apply link_craig.
      + apply IH; auto.
  Qed.
  Lemma nlinks_move rho t rows : forall vv qds, (forall x, In x (combine (combine rows vv) qds) -> row_moves rho t x) ->
    forall l, In l (nlinks rho t rows vv qds) -> moves t l.
  Proof.
    induction rows as [|r rows IH]; intros [|b vv] [|q qds] H l; simpl; try tauto.
    intros [<-|Hl].
    - apply (H (r, b, q)). left; auto.
    - apply (IH vv qds); auto. intros x Hx. apply H. right; auto.
  Qed.
  Lemma body_velocity nice rho t rows vv qds simp :
    List.length vv = List.length rows -> List.length qds = List.length rows -> List.length simp = List.length rows ->
    (forall r, In r rows -> row_poly0 r) ->
    consts_ok nice (rho t) rows ->
    (forall x, In x (combine (combine rows vv) qds) -> row_moves rho t x) ->
    let vw := velocities trigsimp (joints_of (link_ts nice rows) vv qds simp) in
    mderiv (fun s => FK (rho s) rows) t (mmul3 (FK (rho t) rows) (skew (vev (rho t) (snd vw)))) /\
    vderiv (fun s => pos (FK (rho s) rows)) t (mvec3 (FK (rho t) rows) (vev (rho t) (fst vw))).
  Proof.
    intros L1 L2 L3 HR HC HM vw.
    destruct (nvel_correct (nlinks rho t rows vv qds) t (nlinks_move rho t rows vv qds HM)) as [A B].
    destruct (velocities_ev rho t rows (link_ts nice rows) vv qds simp (zero_vec, zero_vec) (fun _ => 0, fun _ => 0)
       (link_ts_ev nice (rho t) rows HC) L1 L2 L3) as [C D]; [intros i Hi; reflexivity|intros i Hi; reflexivity|apply link_ts_poly; auto|intros i Hi; reflexivity|intros i Hi; reflexivity|].
    fold (velocities trigsimp (joints_of (link_ts nice rows) vv qds simp)) in C, D. fold vw in C, D.
    fold (nvel t (nlinks rho t rows vv qds)) in C, D.
    assert (EK := nlinks_chain rho t rows vv qds L1 L2).
    split.
    - eapply mderiv_ext; [| |exact A].
      + intros s. apply Meq_43. apply EK.
      + apply mmul3_proper; [apply Meq_43; apply EK|]. unfold veq in D. intros i j Hi Hj. unfold skew. idx3 i Hi; idx3 j Hj; munf; rewrite ?D by lia; reflexivity.
    - eapply vderiv_ext; [| |exact B].
      + intros s i Hi. unfold pos. apply EK; lia.
      + intros i Hi. unfold mvec3, osum3. rewrite !(EK t) by lia. unfold veq in C. rewrite !C by lia. reflexivity.
  Qed.
End S.

Section J.
  Context (trigsimp expand : expr -> expr) (Htr : good_simp trigsimp) (Hex : value_preserving expand).
  Lemma has_subs x p q e : has x q = false -> has x e = false -> has x (subs p q e) = false.
  Proof.
    intros Hq. induction e; cbn [has subs]; intros H; (destruct (expr_eqb p _); [auto|]); cbn [has]; auto;
      try (apply orb_false_iff in H as [H1 H2]; rewrite IHe1, IHe2; auto).
  Qed.
  Lemma subs_all_ok l x e : (forall k v, In (k, v) l -> no_number k /\ poly v = true /\ has x v = false) ->
    (poly e = true -> poly (subs_all l e) = true) /\ (has x e = false -> has x (subs_all l e) = false).
  Proof.
    unfold subs_all. revert e. induction l as [|[k v] l IH]; simpl; intros e H; auto.
    destruct (IH (subs k v e)) as [A B]; [intros; eapply H; eauto|]. destruct (H k v) as (Nk & P & Q); auto.
    split; intros; [apply A, poly_subs; auto|apply B, has_subs; auto].
  Qed.
  Lemma link_poly xs r i k : row_poly xs r -> (i < 4)%nat -> (k < 4)%nat -> poly (link_of r i k) = true /\ forall x, In x xs -> has x (link_of r i k) = false.
  Proof.
    intros H Hi Hk.
    destruct (H (d_al r)) as [A1 B1]; [simpl; auto|]. destruct (H (d_a r)) as [A2 B2]; [simpl; auto|].
    destruct (H (d_d r)) as [A3 B3]; [simpl; auto|]. destruct (H (d_th r)) as [A4 B4]; [simpl; auto|].
    unfold link_of, Link, of_rows. idx4 i Hi; idx4 k Hk; cbn; rewrite ?A1, ?A2, ?A3, ?A4; (split; [auto|]); intros x Hx; rewrite ?B1, ?B2, ?B3, ?B4; auto.
  Qed.
  Lemma ca_not_qd n : ~ In (ca_name n) qd_names.
  Proof. unfold ca_name, qd_names. intros H. simpl in H. intuition discriminate. Qed.
  Lemma sa_not_qd n : ~ In (sa_name n) qd_names.
  Proof. unfold sa_name, qd_names. intros H. simpl in H. intuition discriminate. Qed.
  Lemma joints_ok nice rows vv simp : (forall r, In r rows -> row_poly qd_names r) ->
    forall j, In j (joints_of (link_ts nice rows) vv qd_names simp) -> joint_ok qd_names j.
  Proof.
    intros HR.
    assert (HT : forall T, In T (link_ts nice rows) -> forall i k, (i < 3)%nat -> (k < 4)%nat -> poly (T i k) = true /\ forall x, In x qd_names -> has x (T i k) = false).
    { intros T HTin i k Hi Hk. unfold link_ts in HTin. apply in_map_iff in HTin as (r & <- & Hr). unfold mapm.
      destruct (link_poly qd_names r i k (HR r Hr)) as [P Q]; [lia|lia|].
      assert (HS : forall x, In x qd_names -> forall k0 v, In (k0, v) (alpha_subs nice 0 rows) -> no_number k0 /\ poly v = true /\ has x v = false).
      { intros x Hx k0 v Hkv. split; [eapply alpha_subs_keys; eauto|]. apply alpha_subs_syms in Hkv as (n & [->| ->]); (split; [reflexivity|]); cbn; apply String.eqb_neq; intros ->; [apply (ca_not_qd n)|apply (sa_not_qd n)]; auto. }
      split.
      - apply (subs_all_ok _ "qd_1"%string); [apply HS; left; auto|auto].
      - intros x Hx. apply (subs_all_ok _ x); [apply HS; auto|auto]. }
    revert HT. generalize (link_ts nice rows). intros Ts HT j Hj.
    assert (G : forall qds, (forall q, In q qds -> In q qd_names) -> In j (joints_of Ts vv qds simp) -> joint_ok qd_names j); [|eapply G; eauto].
    clear Hj. intros qds. revert Ts HT vv qds simp. induction Ts as [|T Ts IH]; intros HT [|b vv] [|q qds] [|s simp] Hq; simpl; try tauto.
    intros [<-|Hj].
    - split; cbn; [apply Hq; left; auto|]. apply HT. left; auto.
    - apply (IH (fun T' H' => HT T' (or_intror H')) vv qds simp); auto. intros; apply Hq; right; auto.
  Qed.
  Lemma qd_nodup : NoDup qd_names.
  Proof. unfold qd_names. repeat constructor; simpl; intuition discriminate. Qed.
  Lemma jacobian_ok nice rows vv : (forall r, In r rows -> row_poly qd_names r) ->
    let vw := fk_velocities trigsimp nice rows vv in
    let J := fk_J66 trigsimp expand nice rows vv in
    forall rho i, (i < 3)%nat ->
      eval rho (fst vw i) = rsum (fun j => eval rho (J i j) * rho (nth j qd_names ""%string)) (seq 0 6) /\
      eval rho (snd vw i) = rsum (fun j => eval rho (J (3 + i)%nat j) * rho (nth j qd_names ""%string)) (seq 0 6) /\
      forall j y u, (j < 6)%nat -> In y qd_names -> eval (upd rho y u) (J i j) = eval rho (J i j) /\ eval (upd rho y u) (J (3 + i)%nat j) = eval rho (J (3 + i)%nat j).
  Proof.
    intros HR vw J rho i Hi.
    destruct (velocities_ok trigsimp Htr qd_names qd_nodup _ (joints_ok nice rows vv (simp_flags rows) HR)) as [V W].
    destruct (jac_row expand Hex qd_names qd_nodup _ V i rho Hi) as [A1 A2].
    destruct (jac_row expand Hex qd_names qd_nodup _ W i rho Hi) as [B1 B2].
    assert (E1 : forall j, J i j = expand (diff (nth j qd_names ""%string) (fst vw i))).
    { intros j. unfold J, fk_J66, ManipJacobian. replace (i <? 3)%nat with true by (symmetry; apply Nat.ltb_lt; auto). reflexivity. }
    assert (E2 : forall j, J (3 + i)%nat j = expand (diff (nth j qd_names ""%string) (snd vw i))).
    { intros j. unfold J, fk_J66, ManipJacobian. replace (3 + i <? 3)%nat with false by (symmetry; apply Nat.ltb_ge; lia). replace (3 + i - 3)%nat with i by lia. reflexivity. }
    split; [|split].
    - unfold vw at 1, fk_velocities. rewrite A1, rsum_nth. change (List.length qd_names) with 6%nat. apply rsum_ext. intros j _. rewrite E1. reflexivity.
    - unfold vw at 1, fk_velocities. rewrite B1, rsum_nth. change (List.length qd_names) with 6%nat. apply rsum_ext. intros j _. rewrite E2. reflexivity.
    - intros j y u Hj Hy. rewrite E1, E2. assert (In (nth j qd_names ""%string) qd_names) by (apply nth_In; auto). split; [apply A2|apply B2]; auto.
  Qed.
End J.
