(** Velocity propagation and the Jacobian. *)
From Coq Require Import Reals ZArith List String Bool Lra Lia Setoid Morphisms.
From Verif Require Import Expr Kin KinSpec KinFacts.
Import ListNotations.
Local Open Scope R_scope.

(** * Symbolic differentiation is differentiation *)
Lemma lim_ext (f g : R -> R) x l : (forall t, f t = g t) -> derivable_pt_lim f x l -> derivable_pt_lim g x l.
Proof. intros H Hf eps He. destruct (Hf eps He) as [d Hd]. exists d. intros h Hh Hlt. rewrite <- !H. auto. Qed.
Lemma diff_correct s e rho x : poly e = true ->
  derivable_pt_lim (fun t => eval (upd rho s t) e) x (eval (upd rho s x) (diff s e)).
Proof.
  induction e; intros H; match goal with |- context [Div ?a ?b] => apply poly_div in H as (z & -> & Hz & Ha) | _ => cbn [poly] in H end; cbn [diff eval]; try discriminate; try apply andb_true_iff in H as [H1 H2].
  - apply derivable_pt_lim_const.
  - apply derivable_pt_lim_const.
  - destruct (String.eqb s s0) eqn:E.
    + apply String.eqb_eq in E; subst. unfold upd. rewrite String.eqb_refl. apply derivable_pt_lim_id.
    + unfold upd. rewrite String.eqb_sym, E. apply derivable_pt_lim_const.
  - apply (derivable_pt_lim_plus (fun t => eval (upd rho s t) e1) (fun t => eval (upd rho s t) e2)); auto.
  - apply (derivable_pt_lim_mult (fun t => eval (upd rho s t) e1) (fun t => eval (upd rho s t) e2)); auto.
  - apply (derivable_pt_lim_opp (fun t => eval (upd rho s t) e)); auto.
  - unfold Rdiv. apply (lim_ext (mult_real_fct (/ IZR z) (fun t => eval (upd rho s t) e1))). { intros t. unfold mult_real_fct. ring. }
    rewrite Rmult_comm. apply derivable_pt_lim_scal; auto.
  - rewrite <- INR_IZR_INZ.
    apply (derivable_pt_lim_comp (fun t => eval (upd rho s t) e) (fun y => y ^ n)); auto. apply derivable_pt_lim_pow.
  - apply (derivable_pt_lim_comp (fun t => eval (upd rho s t) e) sin); auto. apply derivable_pt_lim_sin.
  - replace (- (sin (eval (upd rho s x) e) * eval (upd rho s x) (diff s e))) with (- sin (eval (upd rho s x) e) * eval (upd rho s x) (diff s e)) by ring.
    apply (derivable_pt_lim_comp (fun t => eval (upd rho s t) e) cos); auto. apply derivable_pt_lim_cos.
Qed.

Lemma poly_diff s e : poly e = true -> poly (diff s e) = true.
Proof.
  induction e; intros H; match goal with |- context [Div ?a ?b] => apply poly_div in H as (z & -> & Hz & Ha) | _ => cbn [poly] in H end; cbn [diff]; try discriminate; auto; cbn [poly]; try apply andb_true_iff in H as [H1 H2]; try (rewrite ?IHe1, ?IHe2, ?H1, ?H2 by auto; auto).
  - destruct (String.eqb s s0); auto.
  - rewrite Hz; auto.
  - cbn. rewrite H, IHe; auto.
  - rewrite H, IHe; auto.
  - rewrite H, IHe; auto.
Qed.

(** * Linearity in the joint rates *)
Lemma rsum_ext {A} (f g : A -> R) l : (forall a, In a l -> f a = g a) -> rsum f l = rsum g l.
Proof. induction l; simpl; intros H; auto. rewrite (H a), IHl; auto. Qed.
Lemma rsum_plus {A} (f g : A -> R) l : rsum (fun a => f a + g a) l = rsum f l + rsum g l.
Proof. induction l; simpl; [ring|]. rewrite IHl. ring. Qed.
Lemma rsum_scale {A} k (f : A -> R) l : rsum (fun a => k * f a) l = k * rsum f l.
Proof. induction l; simpl; [ring|]. rewrite IHl. ring. Qed.
Lemma rsum_zero {A} (f : A -> R) l : (forall a, In a l -> f a = 0) -> rsum f l = 0.
Proof. induction l; simpl; intros H; auto. rewrite (H a), IHl; auto. ring. Qed.

Section Lin.
  Context (xs : list string).
  Definition free (F : env -> R) : Prop := forall rho x v, In x xs -> F (upd rho x v) = F rho.
  Definition lin (F : env -> R) : Prop :=
    exists c : string -> env -> R, (forall x, free (c x)) /\ forall rho, F rho = rsum (fun x => c x rho * rho x) xs.
  Lemma lin_zero F : (forall rho, F rho = 0) -> lin F.
  Proof. intros H. exists (fun _ _ => 0). split; [repeat intro; auto|]. intros rho. rewrite H. symmetry. apply rsum_zero. intros; ring. Qed.
  Lemma lin_add F G H : (forall rho, H rho = F rho + G rho) -> lin F -> lin G -> lin H.
  Proof.
    intros E (c & C1 & C2) (d & D1 & D2). exists (fun x rho => c x rho + d x rho). split.
    - intros x rho y v Hy. rewrite C1, D1 by auto. auto.
    - intros rho. rewrite E, C2, D2, <- rsum_plus. apply rsum_ext. intros; ring.
  Qed.
  Lemma lin_mul k F H : free k -> (forall rho, H rho = k rho * F rho) -> lin F -> lin H.
  Proof.
    intros Hk E (c & C1 & C2). exists (fun x rho => k rho * c x rho). split.
    - intros x rho y v Hy. rewrite C1, Hk by auto. auto.
    - intros rho. rewrite E, C2, <- rsum_scale. apply rsum_ext. intros; ring.
  Qed.
  Lemma rsum_single (x : string) (f : string -> R) l : NoDup l -> In x l -> (forall y, y <> x -> f y = 0) -> rsum f l = f x.
  Proof.
    induction 1 as [|a l Ha Hl IH]; simpl; [tauto|]. intros [->|Hx] Hz.
    - rewrite (rsum_zero f l); [ring|]. intros y Hy. apply Hz. intros ->. auto.
    - rewrite IH by auto. rewrite Hz; [ring|]. intros ->; auto.
  Qed.
  Lemma lin_sym x : NoDup xs -> In x xs -> lin (fun rho => rho x).
  Proof.
    intros HN Hx. exists (fun y _ => if String.eqb y x then 1 else 0). split; [repeat intro; auto|].
    intros rho. rewrite (rsum_single x); auto.
    - rewrite String.eqb_refl. ring.
    - intros y Hy. apply String.eqb_neq in Hy. rewrite Hy. ring.
  Qed.
  Lemma lin_ext F G : (forall rho, F rho = G rho) -> lin F -> lin G.
  Proof. intros E (c & C1 & C2). exists c. split; auto. intros rho. rewrite <- E. auto. Qed.
  (** the derivative of a linear form is its coefficient *)
  Lemma lin_deriv F x rho v : NoDup xs -> In x xs -> forall c, (forall y, free (c y)) -> (forall rho, F rho = rsum (fun x => c x rho * rho x) xs) ->
    derivable_pt_lim (fun t => F (upd rho x t)) v (c x rho).
  Proof.
    intros HN Hx c C1 C2.
    apply (lim_ext (fun t => rsum (fun y => c y rho * (if String.eqb y x then t else rho y)) xs)).
    { intros t. rewrite C2. apply rsum_ext. intros y Hy. rewrite C1 by auto. reflexivity. }
    clear C1 C2 F. replace (c x rho) with (rsum (fun y => c y rho * (if String.eqb y x then 1 else 0)) xs).
    2:{ rewrite (rsum_single x); auto; [rewrite String.eqb_refl; ring|]. intros y Hy. apply String.eqb_neq in Hy. rewrite Hy. ring. }
    clear HN Hx. induction xs as [|y l IH]; simpl.
    - apply derivable_pt_lim_const.
    - apply (derivable_pt_lim_plus (fun t => c y rho * (if String.eqb y x then t else rho y))); auto.
      destruct (String.eqb y x).
      + apply (derivable_pt_lim_scal id). apply derivable_pt_lim_id.
      + replace (c y rho * 0) with 0 by ring. apply derivable_pt_lim_const.
  Qed.
End Lin.

Section Jac.
  Context (trigsimp expand : expr -> expr) (Htr : good_simp trigsimp) (Hex : value_preserving expand).
  Context (xs : list string) (Hxs : NoDup xs).
  Definition joint_ok (j : joint) : Prop :=
    In (j_qd j) xs /\ forall i k, (i < 3)%nat -> (k < 4)%nat -> poly (j_T j i k) = true /\ forall x, In x xs -> has x (j_T j i k) = false.
  Definition vok (v : vec expr) : Prop := forall i, (i < 3)%nat -> poly (v i) = true /\ lin xs (fun rho => eval rho (v i)).

  Lemma free_of e : (forall x, In x xs -> has x e = false) -> free xs (fun rho => eval rho e).
  Proof. intros H rho x v Hx. apply eval_upd_fresh. auto. Qed.
  Lemma vok_zero : vok zero_vec.
  Proof. intros i Hi. split; auto. apply lin_zero. auto. Qed.
  Lemma vok_add u v : vok u -> vok v -> vok (vadd u v).
  Proof.
    intros Hu Hv i Hi. destruct (Hu i Hi) as [P1 L1], (Hv i Hi) as [P2 L2]. split; [cbn; rewrite P1, P2; auto|].
    eapply lin_add; [|apply L1|apply L2]. reflexivity.
  Qed.
  Lemma vok_z x : In x xs -> vok (zvec (Sym x)).
  Proof.
    intros Hx i Hi. idx3 i Hi; (split; [reflexivity|]); try (apply lin_zero; reflexivity). apply lin_sym; auto.
  Qed.
  Lemma vok_simp b v : vok v -> vok (maybe_simp trigsimp b v).
  Proof.
    intros Hv. destruct b; simpl; auto. intros i Hi. destruct (Hv i Hi) as [P L]. unfold mapv. split; [apply Htr; auto|].
    eapply lin_ext; [|apply L]. intros rho. simpl. symmetry. apply Htr; auto.
  Qed.
  Lemma lin_prod a u : (forall x, In x xs -> has x a = false) -> lin xs (fun rho => eval rho u) -> lin xs (fun rho => eval rho (Mul a u)).
  Proof. intros H L. eapply lin_mul; [apply (free_of a); auto| |apply L]. reflexivity. Qed.
  Lemma lin_prod_r a u : (forall x, In x xs -> has x a = false) -> lin xs (fun rho => eval rho u) -> lin xs (fun rho => eval rho (Mul u a)).
  Proof. intros H L. eapply lin_mul; [apply (free_of a); auto| |apply L]. intros; simpl; ring. Qed.
  Lemma lin_plus a b : lin xs (fun rho => eval rho a) -> lin xs (fun rho => eval rho b) -> lin xs (fun rho => eval rho (Add a b)).
  Proof. intros Ha Hb. eapply lin_add; [|apply Ha|apply Hb]. reflexivity. Qed.
  Lemma lin_neg a : lin xs (fun rho => eval rho a) -> lin xs (fun rho => eval rho (Neg a)).
  Proof. intros. eapply (lin_mul xs (fun _ => -1)); eauto. - repeat intro; auto. - intros; simpl; ring. Qed.
  Lemma vok_mvec j v : joint_ok j -> vok v -> vok (mvec3 (mtrans (rot (j_T j))) v).
  Proof.
    intros [_ HT] Hv i Hi. unfold mvec3, mtrans, rot, osum3; cbn [oadd omul ops_expr].
    destruct (HT 0%nat i ltac:(lia) ltac:(lia)) as [A1 B1], (HT 1%nat i ltac:(lia) ltac:(lia)) as [A2 B2], (HT 2%nat i ltac:(lia) ltac:(lia)) as [A3 B3].
    destruct (Hv 0%nat ltac:(lia)) as [C1 D1], (Hv 1%nat ltac:(lia)) as [C2 D2], (Hv 2%nat ltac:(lia)) as [C3 D3]. split.
    - cbn. rewrite A1, A2, A3, C1, C2, C3. auto.
    - repeat apply lin_plus; apply lin_prod; auto.
  Qed.
  Lemma vok_cross j w : joint_ok j -> vok w -> vok (cross w (pos (j_T j))).
  Proof.
    intros [_ HT] Hv i Hi.
    destruct (HT 0%nat 3%nat ltac:(lia) ltac:(lia)) as [A1 B1], (HT 1%nat 3%nat ltac:(lia) ltac:(lia)) as [A2 B2], (HT 2%nat 3%nat ltac:(lia) ltac:(lia)) as [A3 B3].
    destruct (Hv 0%nat ltac:(lia)) as [C1 D1], (Hv 1%nat ltac:(lia)) as [C2 D2], (Hv 2%nat ltac:(lia)) as [C3 D3].
    idx3 i Hi; unfold cross, of_list, pos; cbn [nth oadd omul oneg ops_expr]; (split; [cbn; rewrite ?A1, ?A2, ?A3, ?C1, ?C2, ?C3; auto|]);
      apply lin_plus; [|apply lin_neg| |apply lin_neg| |apply lin_neg]; apply lin_prod_r; auto.
  Qed.
  Lemma vel_step_ok vw j : joint_ok j -> vok (fst vw) -> vok (snd vw) -> vok (fst (vel_step trigsimp vw j)) /\ vok (snd (vel_step trigsimp vw j)).
  Proof.
    intros Hj Hv Hw. unfold vel_step; cbn [fst snd]. split; apply vok_simp; destruct (j_rev j).
    - apply vok_mvec; auto. apply vok_add; auto. apply vok_cross; auto.
    - apply vok_add; [|apply vok_z; apply Hj]. apply vok_mvec; auto. apply vok_add; auto. apply vok_cross; auto.
    - apply vok_add; [|apply vok_z; apply Hj]. apply vok_mvec; auto.
    - apply vok_mvec; auto.
  Qed.
  Lemma velocities_ok js : (forall j, In j js -> joint_ok j) -> vok (fst (velocities trigsimp js)) /\ vok (snd (velocities trigsimp js)).
  Proof.
    unfold velocities. intros H. assert (G : vok (fst (zero_vec, zero_vec)) /\ vok (snd (zero_vec, zero_vec))) by (split; apply vok_zero).
    revert G. generalize ((zero_vec, zero_vec) : vec expr * vec expr). induction js as [|j js IH]; simpl; intros vw [G1 G2]; auto.
    apply IH; [intros; apply H; right; auto|]. apply vel_step_ok; auto. apply H; left; auto.
  Qed.

  Lemma jac_row v : vok v -> forall i rho, (i < 3)%nat ->
    eval rho (v i) = rsum (fun x => eval rho (expand (diff x (v i))) * rho x) xs /\
    forall x y u, In x xs -> In y xs -> eval (upd rho y u) (expand (diff x (v i))) = eval rho (expand (diff x (v i))).
  Proof.
    intros Hv i rho Hi. destruct (Hv i Hi) as [P (c & C1 & C2)].
    assert (K : forall rho x, In x xs -> eval rho (expand (diff x (v i))) = c x rho).
    { intros r x Hx. rewrite Hex by (apply poly_diff; auto).
      assert (D1 := diff_correct x (v i) r (r x) P).
      assert (D2 := lin_deriv xs (fun rho => eval rho (v i)) x r (r x) Hxs Hx c C1 C2). cbn beta in D2.
      pose proof (uniqueness_limite _ _ _ _ D1 D2) as E. rewrite <- E. apply eval_ext.
      intros t _. unfold upd. destruct (String.eqb t x) eqn:Et; auto. apply String.eqb_eq in Et. subst; auto. }
    split.
    - rewrite C2. apply rsum_ext. intros x Hx. rewrite K; auto.
    - intros x y u Hx Hy. rewrite !K by auto. apply C1; auto.
  Qed.
End Jac.

Lemma rsum_nth (f : string -> R) xs : rsum f xs = rsum (fun j => f (nth j xs ""%string)) (seq 0 (List.length xs)).
Proof.
  induction xs as [|x xs IH]; simpl; auto. rewrite IH. f_equal. rewrite <- seq_shift.
  clear. induction (seq 0 (List.length xs)); simpl; auto. rewrite IHl. auto.
Qed.

(** * The recursion gives the body velocities *)
Lemma lim_val f x l l' : l = l' -> derivable_pt_lim f x l -> derivable_pt_lim f x l'.
Proof. intros <-; auto. Qed.
Lemma mderiv_mul F G t DF DG : mderiv F t DF -> mderiv G t DG ->
  mderiv (fun s => mmul3 (F s) (G s)) t (fun i j => mmul3 DF (G t) i j + mmul3 (F t) DG i j).
Proof.
  intros HF HG i j Hi Hj.
  assert (M : forall k, (k < 3)%nat -> derivable_pt_lim (fun s => F s i k * G s k j) t (DF i k * G t k j + F t i k * DG k j)).
  { intros k Hk. apply (derivable_pt_lim_mult (fun s => F s i k) (fun s => G s k j)); auto. }
  munf.
  eapply lim_val; [|apply (derivable_pt_lim_plus (fun s => F s i 0%nat * G s 0%nat j + F s i 1%nat * G s 1%nat j) (fun s => F s i 2%nat * G s 2%nat j));
    [apply (derivable_pt_lim_plus (fun s => F s i 0%nat * G s 0%nat j) (fun s => F s i 1%nat * G s 1%nat j))|]].
  2: exact (M 0%nat ltac:(lia)). 2: exact (M 1%nat ltac:(lia)). 2: exact (M 2%nat ltac:(lia)).
  ring.
Qed.
Lemma mderiv_vec F g t DF Dg : mderiv F t DF -> vderiv g t Dg ->
  vderiv (fun s => mvec3 (F s) (g s)) t (fun i => mvec3 DF (g t) i + mvec3 (F t) Dg i).
Proof.
  intros HF HG i Hi.
  assert (M : forall k, (k < 3)%nat -> derivable_pt_lim (fun s => F s i k * g s k) t (DF i k * g t k + F t i k * Dg k)).
  { intros k Hk. apply (derivable_pt_lim_mult (fun s => F s i k) (fun s => g s k)); auto. }
  munf.
  eapply lim_val; [|apply (derivable_pt_lim_plus (fun s => F s i 0%nat * g s 0%nat + F s i 1%nat * g s 1%nat) (fun s => F s i 2%nat * g s 2%nat));
    [apply (derivable_pt_lim_plus (fun s => F s i 0%nat * g s 0%nat) (fun s => F s i 1%nat * g s 1%nat))|]].
  2: exact (M 0%nat ltac:(lia)). 2: exact (M 1%nat ltac:(lia)). 2: exact (M 2%nat ltac:(lia)).
  ring.
Qed.
(** R^T [w] R = [R^T w] for a rotation *)
Lemma skew_conj X w : rotation X -> Meq 3 (mmul3 (mmul3 (mtrans X) (skew w)) X) (skew (mvec3 (mtrans X) w)).
Proof.
  intros H. pose proof (rotation_adj X H) as A. unfold Meq, mtrans, adj3 in A.
  pose proof (A 0%nat 0%nat ltac:(lia) ltac:(lia)) as A00. pose proof (A 0%nat 1%nat ltac:(lia) ltac:(lia)) as A01. pose proof (A 0%nat 2%nat ltac:(lia) ltac:(lia)) as A02.
  pose proof (A 1%nat 0%nat ltac:(lia) ltac:(lia)) as A10. pose proof (A 1%nat 1%nat ltac:(lia) ltac:(lia)) as A11. pose proof (A 1%nat 2%nat ltac:(lia) ltac:(lia)) as A12.
  pose proof (A 2%nat 0%nat ltac:(lia) ltac:(lia)) as A20. pose proof (A 2%nat 1%nat ltac:(lia) ltac:(lia)) as A21. pose proof (A 2%nat 2%nat ltac:(lia) ltac:(lia)) as A22.
  cbn in A00, A01, A02, A10, A11, A12, A20, A21, A22. clear A.
  intros i j Hi Hj. idx3 i Hi; idx3 j Hj; unfold skew; munf; first [ring | rewrite A00, A01, A02; ring | rewrite A10, A11, A12; ring | rewrite A20, A21, A22; ring].
Qed.
Lemma skew_cross w p i : (i < 3)%nat -> mvec3 (skew w) p i = cross w p i.
Proof. intros Hi. idx3 i Hi; unfold skew, cross; munf; ring. Qed.

(** Rotation and position of the last frame for a list of numerical links (base first). *)
Lemma chain_snoc l T : Meq 4 (chain (l ++ [T])) (mmul4 (chain l) T).
Proof.
  induction l as [|X l IH]; simpl.
  - rewrite mmul4_1r, mmul4_1l. reflexivity.
  - rewrite IH, mmul4_assoc. reflexivity.
Qed.
Lemma pos_mul X Y i : affine Y -> (i < 3)%nat -> pos (mmul4 X Y) i = pos X i + mvec3 X (pos Y) i.
Proof. intros (a&b&c&d) Hi. munf. rewrite d. ring. Qed.

Lemma lim_mul f g t a b : derivable_pt_lim f t a -> derivable_pt_lim g t b -> derivable_pt_lim (fun s => f s * g s) t (a * g t + f t * b).
Proof. intros Hf Hg. apply (derivable_pt_lim_mult f g); auto. Qed.
Definition znum (q : R) : vec R := of_list 0 [0; 0; q].
(** one link moving: rotation derivative and position derivative *)
Lemma link_deriv (al a d th : R -> R) t (rev : bool) qd :
  derivable_pt_lim al t 0 -> derivable_pt_lim a t 0 -> derivable_pt_lim d t (if rev then 0 else qd) -> derivable_pt_lim th t (if rev then qd else 0) ->
  mderiv (fun s => Link (al s) (a s) (d s) (th s)) t (mmul3 (Link (al t) (a t) (d t) (th t)) (skew (znum (if rev then qd else 0)))) /\
  vderiv (fun s => pos (Link (al s) (a s) (d s) (th s))) t (mvec3 (Link (al t) (a t) (d t) (th t)) (znum (if rev then 0 else qd))).
Proof.
  intros Hal Ha Hd Hth.
  assert (Sth := derivable_pt_lim_comp th sin t _ _ Hth (derivable_pt_lim_sin (th t))).
  assert (Cth := derivable_pt_lim_comp th cos t _ _ Hth (derivable_pt_lim_cos (th t))).
  assert (Sal := derivable_pt_lim_comp al sin t _ _ Hal (derivable_pt_lim_sin (al t))).
  assert (Cal := derivable_pt_lim_comp al cos t _ _ Hal (derivable_pt_lim_cos (al t))).
  unfold comp in *.
  assert (Nth := derivable_pt_lim_opp _ _ _ Sth). assert (Nal := derivable_pt_lim_opp _ _ _ Sal). unfold opp_fct in *.
  split.
  - intros i j Hi Hj. unfold Link, skew, znum. idx3 i Hi; idx3 j Hj; munf;
    (eapply lim_val; [|first [exact Sth | exact Cth | exact Nth | exact Sal | exact Cal | exact Nal | apply derivable_pt_lim_const
       | exact (lim_mul _ _ _ _ _ Sth Sal) | exact (lim_mul _ _ _ _ _ Sth Cal) | exact (lim_mul _ _ _ _ _ Cth Sal) | exact (lim_mul _ _ _ _ _ Cth Cal)]]; cbn beta; ring).
  - intros i Hi. unfold Link, znum. idx3 i Hi; munf.
    + eapply lim_val; [|exact Ha]. ring.
    + eapply lim_val; [|apply (derivable_pt_lim_mult (fun s => - sin (al s)) (fun s => d s)); [exact Nal|exact Hd]]. ring.
    + eapply lim_val; [|apply (derivable_pt_lim_mult (fun s => cos (al s)) (fun s => d s)); [exact Cal|exact Hd]]. ring.
Qed.

(** A joint's motion agrees with its rate. *)
Record nlink := NLink { l_row : R -> dhrow R; l_rev : bool; l_qd : R }.
Definition moves (t : R) (l : nlink) : Prop :=
  derivable_pt_lim (fun s => d_al (l_row l s)) t 0 /\ derivable_pt_lim (fun s => d_a (l_row l s)) t 0 /\
  derivable_pt_lim (fun s => d_d (l_row l s)) t (if l_rev l then 0 else l_qd l) /\
  derivable_pt_lim (fun s => d_th (l_row l s)) t (if l_rev l then l_qd l else 0).
Definition ntrans (l : nlink) (t : R) : mat R := link_of (l_row l t).
(** the recursion on numbers *)
Definition nstep (t : R) (vw : vec R * vec R) (l : nlink) : vec R * vec R :=
  let T := ntrans l t in
  ((fun i => mvec3 (mtrans T) (vadd (fst vw) (cross (snd vw) (pos T))) i + znum (if l_rev l then 0 else l_qd l) i),
   (fun i => mvec3 (mtrans T) (snd vw) i + znum (if l_rev l then l_qd l else 0) i)).
Definition nvel (t : R) (ls : list nlink) : vec R * vec R := fold_left (nstep t) ls (fun _ => 0, fun _ => 0).
Definition nchain (ls : list nlink) (t : R) : mat R := chain (map (fun l => ntrans l t) ls).
Lemma nchain_rigid ls t : rigid (nchain ls t).
Proof. apply chain_rigid. intros T HT. apply in_map_iff in HT as (l & <- & _). apply link_rigid. Qed.
Lemma mderiv_ext F G t D D' : (forall s, Meq 3 (F s) (G s)) -> Meq 3 D D' -> mderiv F t D -> mderiv G t D'.
Proof. intros H HD HF i j Hi Hj. eapply lim_ext; [intros s; apply H; auto|]. rewrite <- HD by auto. apply HF; auto. Qed.
Lemma vderiv_ext F G t D D' : (forall s i, (i < 3)%nat -> F s i = G s i) -> (forall i, (i < 3)%nat -> D i = D' i) -> vderiv F t D -> vderiv G t D'.
Proof. intros H HD HF i Hi. eapply lim_ext; [intros s; apply H; auto|]. rewrite <- HD by auto. apply HF; auto. Qed.
Lemma nvel_correct ls t : (forall l, In l ls -> moves t l) ->
  mderiv (nchain ls) t (mmul3 (nchain ls t) (skew (snd (nvel t ls)))) /\
  vderiv (fun s => pos (nchain ls s)) t (mvec3 (nchain ls t) (fst (nvel t ls))).
Proof.
  induction ls as [|l ls IH] using rev_ind; intros H.
  - split.
    + intros i j Hi Hj. unfold nchain; simpl. eapply lim_val; [|apply derivable_pt_lim_const].
      unfold nvel, skew; simpl. idx3 i Hi; idx3 j Hj; munf; ring.
    + intros i Hi. unfold nchain; simpl. eapply lim_val; [|apply (derivable_pt_lim_const (pos ident i))].
      unfold nvel; simpl. munf. ring.
  - destruct IH as [IR IP]; [intros; apply H; apply in_app_iff; auto|].
    assert (Hl : moves t l) by (apply H; apply in_app_iff; right; left; auto).
    destruct Hl as (Hal & Ha & Hd & Hth).
    destruct (link_deriv _ _ _ _ t (l_rev l) (l_qd l) Hal Ha Hd Hth) as [LR LP]. clear Hal Ha Hd Hth H.
    assert (EC : forall s, Meq 4 (nchain (ls ++ [l]) s) (mmul4 (nchain ls s) (ntrans l s))).
    { intros s. unfold nchain. rewrite map_app. apply chain_snoc. }
    assert (AT : forall s, rigid (ntrans l s)) by (intros; apply link_rigid).
    assert (EV : nvel t (ls ++ [l]) = nstep t (nvel t ls) l) by (unfold nvel; rewrite fold_left_app; reflexivity).
    rewrite EV. destruct (nvel t ls) as [v w]. unfold nstep; cbn [fst snd] in *. clear EV.
    set (X := nchain ls) in *. set (T := ntrans l) in *.
    fold (T t) in *.
    assert (ER : forall s, Meq 3 (nchain (ls ++ [l]) s) (mmul3 (X s) (T s))).
    { intros s. rewrite (Meq_43 _ _ (EC s)). apply rot_mul. apply AT. }
    split.
    + eapply mderiv_ext; [intros s; symmetry; apply ER| |apply (mderiv_mul X T t _ _ IR LR)].
      rewrite (ER t).
      fold (T t).
      assert (K : Meq 3 (fun i j => mmul3 (mmul3 (X t) (skew w)) (T t) i j + mmul3 (X t) (mmul3 (T t) (skew (znum (if l_rev l then l_qd l else 0)))) i j)
                   (mmul3 (mmul3 (X t) (T t)) (fun i j => mmul3 (mmul3 (mtrans (T t)) (skew w)) (T t) i j + skew (znum (if l_rev l then l_qd l else 0)) i j))).
      { pose proof (rotation_rows (T t) (proj1 (AT t))) as RR.
        assert (Q : Meq 3 (mmul3 (mmul3 (X t) (T t)) (mmul3 (mmul3 (mtrans (T t)) (skew w)) (T t))) (mmul3 (mmul3 (X t) (skew w)) (T t))).
        { rewrite (mmul3_assoc (X t) (T t)), <- (mmul3_assoc (T t)), <- (mmul3_assoc (T t)), RR, mmul3_1l, mmul3_assoc. reflexivity. }
        intros i j Hi Hj. rewrite <- (Q i j Hi Hj). munf. ring. }
      etransitivity; [exact K|]. apply mmul3_proper; [reflexivity|].
      intros i j Hi Hj. rewrite (skew_conj (T t) w (proj1 (AT t)) i j Hi Hj).
      unfold skew, znum. idx3 i Hi; idx3 j Hj; munf; ring.
    + eapply vderiv_ext; [| |apply (fun H => H)].
      3:{ intros i Hi. apply (derivable_pt_lim_plus (fun s => pos (X s) i) (fun s => mvec3 (X s) (pos (T s)) i)).
          - apply (IP i Hi).
          - apply (mderiv_vec X (fun s => pos (T s)) t _ _ IR LP i Hi). }
      * intros s i Hi. unfold plus_fct. symmetry. unfold pos at 1. rewrite (EC s) by lia. apply (pos_mul (X s) (T s)); auto. apply AT.
      * intros i Hi. cbn beta.
        pose proof (rotation_rows (T t) (proj1 (AT t))) as RR.
        set (u := vadd v (cross w (pos (T t)))).
        set (z := znum (if l_rev l then 0 else l_qd l)).
        assert (E1 : mvec3 (nchain (ls ++ [l]) t) (fun i0 => mvec3 (mtrans (T t)) u i0 + z i0) i =
                     mvec3 (mmul3 (X t) (T t)) (fun i0 => mvec3 (mtrans (T t)) u i0 + z i0) i).
        { unfold mvec3, osum3. cbn [oadd omul ops_R]. rewrite !(ER t) by lia. reflexivity. }
        transitivity (mvec3 (X t) u i + mvec3 (mmul3 (X t) (T t)) z i).
        { subst u. unfold vadd. assert (E2 : mvec3 (mmul3 (X t) (skew w)) (pos (T t)) i = mvec3 (X t) (cross w (pos (T t))) i).
          { assert (S3 : forall k, (k < 3)%nat -> mvec3 (skew w) (pos (T t)) k = cross w (pos (T t)) k) by (intros; apply skew_cross; auto).
            transitivity (mvec3 (X t) (mvec3 (skew w) (pos (T t))) i); [munf; ring|].
            unfold mvec3 at 1. unfold osum3. rewrite !S3 by lia. reflexivity. }
          change (Link (d_al (l_row l t)) (d_a (l_row l t)) (d_d (l_row l t)) (d_th (l_row l t))) with (T t). rewrite E2. clearbody z. munf. ring. }
        rewrite E1.
        assert (E3 : mvec3 (mmul3 (X t) (T t)) (mvec3 (mtrans (T t)) u) i = mvec3 (X t) u i).
        { transitivity (mvec3 (mmul3 (X t) (mmul3 (T t) (mtrans (T t)))) u i); [munf; ring|].
          assert (E4 : Meq 3 (mmul3 (X t) (mmul3 (T t) (mtrans (T t)))) (X t)) by (rewrite RR; apply mmul3_1r).
          unfold mvec3, osum3. rewrite !E4 by lia. reflexivity. }
        rewrite <- E3. clearbody z u. munf. ring.
Qed.
