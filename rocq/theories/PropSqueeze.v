(** C72: the abbreviations used in the reports. *)
From Coq Require Import Reals ZArith List String Ascii Bool Arith Lia Lra.
From Verif Require Import Expr Kin KinSpec KinFacts PropKin SolverSpec NumFK PropNumFK.
Import ListNotations.
Local Open Scope string_scope.
Local Open Scope list_scope.
Local Open Scope R_scope.

(** * Specification: how a reader takes the abbreviations *)
Definition legend (rho : env) : Prop :=
  (rho "s_1" = sin (rho "th_1") /\ rho "s_2" = sin (rho "th_2") /\ rho "s_3" = sin (rho "th_3") /\ rho "s_4" = sin (rho "th_4") /\ rho "s_5" = sin (rho "th_5") /\ rho "s_6" = sin (rho "th_6")) /\
  (rho "c_1" = cos (rho "th_1") /\ rho "c_2" = cos (rho "th_2") /\ rho "c_3" = cos (rho "th_3") /\ rho "c_4" = cos (rho "th_4") /\ rho "c_5" = cos (rho "th_5") /\ rho "c_6" = cos (rho "th_6")) /\
  (rho "s_12" = sin (rho "th_1" + rho "th_2") /\ rho "c_12" = cos (rho "th_1" + rho "th_2")) /\ (rho "s_23" = sin (rho "th_2" + rho "th_3") /\ rho "c_23" = cos (rho "th_2" + rho "th_3")) /\
  (rho "s_34" = sin (rho "th_3" + rho "th_4") /\ rho "c_34" = cos (rho "th_3" + rho "th_4")) /\ (rho "s_45" = sin (rho "th_4" + rho "th_5") /\ rho "c_45" = cos (rho "th_4" + rho "th_5")) /\
  (rho "s_56" = sin (rho "th_5" + rho "th_6") /\ rho "c_56" = cos (rho "th_5" + rho "th_6")) /\ (rho "s_13" = sin (rho "th_1" + rho "th_3") /\ rho "c_13" = cos (rho "th_1" + rho "th_3")).
Definition abbreviations : list string :=
  ["s_1"; "s_2"; "s_3"; "s_4"; "s_5"; "s_6"; "c_1"; "c_2"; "c_3"; "c_4"; "c_5"; "c_6"; "s_12"; "c_12"; "s_23"; "c_23"; "s_34"; "c_34"; "s_45"; "c_45"; "s_56"; "c_56"; "s_13"; "c_13"].
Definition joints6 : list string := ["th_1"; "th_2"; "th_3"; "th_4"; "th_5"; "th_6"].
Definition sums6 : list (string * string) := [("th_1", "th_2"); ("th_2", "th_3"); ("th_3", "th_4"); ("th_4", "th_5"); ("th_5", "th_6"); ("th_1", "th_3")].
(** a sine or cosine for which there is an abbreviation *)
Definition abbreviated (p : expr) : Prop :=
  (exists x, In x joints6 /\ (p = Sin (Sym x) \/ p = Cos (Sym x))) \/ exists x y, In (x, y) sums6 /\ (p = Sin (Add (Sym x) (Sym y)) \/ p = Cos (Add (Sym x) (Sym y))).

(** * Substitution of a name *)
Lemma subs_name_same k s e : has s (subs k (Sym s) e) = false -> subs k (Sym s) e = e.
Proof.
  induction e; cbn [subs]; (destruct (expr_eqb k _) eqn:E; [cbn [has]; rewrite String.eqb_refl; discriminate|]); cbn [has]; intros H; auto;
    try (apply orb_false_iff in H as [H1 H2]; rewrite IHe1, IHe2; auto); rewrite IHe; auto.
Qed.
Lemma occurs_subs p k s e : has s p = false -> occurs p (subs k (Sym s) e) = true -> occurs p e = true.
Proof.
  intros Hp. assert (P1 : forall e, expr_eqb p (subs k (Sym s) e) = true -> expr_eqb p e = true).
  { intros a H. apply expr_eqb_eq in H. apply expr_eqb_eq. rewrite H. apply subs_name_same. rewrite <- H. auto. }
  induction e;
    (match goal with |- occurs p (subs k (Sym s) ?e0) = true -> _ => intros H; destruct (expr_eqb p (subs k (Sym s) e0)) eqn:E0; [apply P1 in E0; cbn [occurs]; rewrite E0; reflexivity|] end);
    cbn [subs] in H, E0; (destruct (expr_eqb k _) eqn:E; [cbn [occurs] in H; rewrite E0 in H; discriminate|]); cbn [occurs] in H |- *; rewrite E0 in H; cbn [orb] in H;
    try discriminate; try (apply orb_prop in H as [H|H]; [rewrite (IHe1 H)|rewrite (IHe2 H)]; rewrite ?orb_true_r; reflexivity); rewrite (IHe H), orb_true_r; reflexivity.
Qed.
Lemma occurs_gone k s e : has s k = false -> occurs k (subs k (Sym s) e) = false.
Proof.
  intros Hk. assert (P1 : forall e, expr_eqb k e = false -> expr_eqb k (subs k (Sym s) e) = false).
  { intros a H. destruct (expr_eqb k (subs k (Sym s) a)) eqn:E; auto. apply expr_eqb_eq in E. rewrite subs_name_same in E by (rewrite <- E; auto). subst a. rewrite expr_eqb_refl in H. discriminate. }
  assert (PS : occurs k (Sym s) = false). { cbn [occurs]. rewrite orb_false_r. destruct (expr_eqb k (Sym s)) eqn:E; auto. apply expr_eqb_eq in E. subst k. cbn [has] in Hk. rewrite String.eqb_refl in Hk. discriminate. }
  induction e;
    (match goal with |- occurs k (subs k (Sym s) ?e0) = false => assert (Q := P1 e0) end);
    cbn [subs] in *; (destruct (expr_eqb k _) eqn:E; [exact PS|]); cbn [occurs]; rewrite Q by reflexivity; cbn [orb]; auto; rewrite IHe1, IHe2; reflexivity.
Qed.
Lemma subs_all_keeps p l : (forall k v, In (k, v) l -> exists s, v = Sym s /\ has s p = false) -> forall e, occurs p e = false -> occurs p (subs_all l e) = false.
Proof.
  unfold subs_all. induction l as [|(k, v) l IH]; cbn [fold_left]; intros H e He; auto. apply IH. { intros; eapply H; right; eauto. }
  cbn [fst snd]. destruct (H k v (or_introl eq_refl)) as (s & -> & Hs). destruct (occurs p (subs k (Sym s) e)) eqn:E; auto. apply occurs_subs in E; auto. congruence.
Qed.
Lemma subs_all_gone p l : (forall k v, In (k, v) l -> exists s, v = Sym s /\ has s p = false) -> (exists v, In (p, v) l) -> forall e, occurs p (subs_all l e) = false.
Proof.
  unfold subs_all. induction l as [|(k, v) l IH]; cbn [fold_left]; intros H (w & Hw) e. destruct Hw.
  cbn [fst snd]. destruct Hw as [E|Hw].
  - injection E as -> ->. apply (subs_all_keeps p l). { intros; eapply H; right; eauto. } destruct (H p w (or_introl eq_refl)) as (s & -> & Hs). apply occurs_gone; auto.
  - apply IH; eauto. intros; eapply H; right; eauto.
Qed.

(** * Theorems *)
Lemma legend_subs rho k v : legend rho -> In (k, v) squeeze_subs -> eval rho k = eval rho v.
Proof.
  unfold legend. intros L H. unfold squeeze_subs, singles, pairs, th in H. cbn in H. repeat match goal with X : _ /\ _ |- _ => destruct X end. repeat (destruct H as [H|H]; [injection H as <- <-; cbn [eval]; congruence|]). destruct H.
Qed.
(** Read with the legend, an abbreviated matrix is the matrix. *)
Theorem C72_meaning rho T i j : legend rho -> eval rho (notation_squeeze T i j) = eval rho (T i j).
Proof. intros L. apply eval_subs_all. intros k v. apply legend_subs; auto. Qed.
(** The report's forward kinematics: what is printed for T_06, read with the legend, is the forward kinematics of the DH table. *)
Theorem C72_T06 trigsimp nice rho rows : value_preserving trigsimp -> (forall r, In r rows -> row_poly0 r) -> consts_ok nice rho rows -> legend rho ->
  Meq 4 (mev rho (notation_squeeze (fk_T06 trigsimp nice rows))) (FK rho rows).
Proof. intros V HR C L i j Hi Hj. unfold mev. rewrite C72_meaning by auto. apply (c38_T06 trigsimp nice rho rows V HR C i j Hi Hj). Qed.
(** the report's Jacobian: what is printed for J66 maps the joint rates to the velocity of the last frame *)
Theorem C72_J66 trigsimp expand nice rows vv : good_simp trigsimp -> value_preserving expand -> (forall r, In r rows -> row_poly qd_names r) ->
  forall rho i, legend rho -> (i < 3)%nat ->
    let vw := fk_velocities trigsimp nice rows vv in let J := notation_squeeze (fk_J66 trigsimp expand nice rows vv) in
    eval rho (fst vw i) = rsum (fun j => eval rho (J i j) * rho (nth j qd_names "")) (seq 0 6) /\
    eval rho (snd vw i) = rsum (fun j => eval rho (J (3 + i)%nat j) * rho (nth j qd_names "")) (seq 0 6).
Proof.
  intros G V HR rho i L Hi vw J. destruct (c40_jacobian trigsimp expand nice rows vv G V HR rho i Hi) as (A & B & _). fold vw in A, B. split; [rewrite A|rewrite B]; unfold J, rsum; cbn [seq fold_right];
    rewrite !C72_meaning by auto; reflexivity.
Qed.
(** The legend can always be added: every assignment has one, and only one, reading of the abbreviations. *)
Definition with_legend (rho : env) : env := fun x => match find (fun kv => String.eqb x (match snd kv with Sym s => s | _ => "" end)) squeeze_subs with Some kv => eval rho (fst kv) | None => rho x end.
Lemma with_legend_other rho x : ~ In x abbreviations -> with_legend rho x = rho x.
Proof.
  intros H. unfold with_legend. destruct (find _ squeeze_subs) as [(k, v)|] eqn:E; auto. exfalso. apply find_some in E as [E1 E2]. cbn [snd] in E2. apply String.eqb_eq in E2. apply H. subst x. clear H. unfold squeeze_subs, singles, pairs, th in E1. cbn in E1.
  repeat (destruct E1 as [E1|E1]; [injection E1 as <- <-; cbn; tauto|]). destruct E1.
Qed.
Theorem C72_legend rho : exists rho', legend rho' /\ (forall x, ~ In x abbreviations -> rho' x = rho x) /\
  forall rho2, legend rho2 -> (forall x, ~ In x abbreviations -> rho2 x = rho x) -> forall x, rho2 x = rho' x.
Proof.
  exists (with_legend rho). assert (L : legend (with_legend rho)) by (unfold legend; repeat split; reflexivity). split; [exact L|]. split; [apply with_legend_other|].
  intros rho2 L2 O x. destruct (in_dec string_dec x abbreviations) as [I|I]; [|rewrite O, with_legend_other; auto].
  assert (T : forall t, In t joints6 -> rho2 t = with_legend rho t). { intros t Ht. rewrite O, with_legend_other; auto; intros X; cbn in Ht, X; repeat (destruct Ht as [<-|Ht]; [repeat (destruct X as [X|X]; [discriminate|]); destruct X|]); destruct Ht. }
  assert (T1 := T "th_1" ltac:(cbn; auto)). assert (T2 := T "th_2" ltac:(cbn; auto)). assert (T3 := T "th_3" ltac:(cbn; auto)). assert (T4 := T "th_4" ltac:(cbn; auto)). assert (T5 := T "th_5" ltac:(cbn; auto 6)). assert (T6 := T "th_6" ltac:(cbn; auto 7)).
  unfold legend in L, L2. set (r' := with_legend rho) in *. clearbody r'. repeat match goal with X : _ /\ _ |- _ => destruct X end. cbn in I. repeat (destruct I as [<-|I]; [congruence|]). destruct I.
Qed.
(** Two expressions without abbreviations that are printed alike are equal: nothing is lost by abbreviating. *)
Theorem C72_faithful T1 T2 rho i j : (forall x, In x abbreviations -> has x (T1 i j) = false /\ has x (T2 i j) = false) ->
  notation_squeeze T1 i j = notation_squeeze T2 i j -> eval rho (T1 i j) = eval rho (T2 i j).
Proof.
  intros F E. destruct (C72_legend rho) as (r & L & O & _). assert (K : forall T, (forall x, In x abbreviations -> has x (T i j) = false) -> eval rho (T i j) = eval r (notation_squeeze T i j)).
  { intros T HF. rewrite C72_meaning by auto. apply eval_ext. intros x Hx. symmetry. apply O. intros I. rewrite (HF x I) in Hx. discriminate. }
  rewrite (K T1), (K T2), E; auto; intros x Hx; apply F; auto.
Qed.
(** but a parameter named as an abbreviation is: a robot with a length called c_1 is reported as if the length were the cosine of joint 1 *)
Theorem C72_clash_refuted : exists T1 T2 rho, notation_squeeze T1 0%nat 0%nat = notation_squeeze T2 0%nat 0%nat /\ eval rho (T1 0%nat 0%nat) <> eval rho (T2 0%nat 0%nat).
Proof.
  exists (fun _ _ => Cos (Sym "th_1")), (fun _ _ => Sym "c_1"), (fun _ => 0). split. reflexivity. cbn. rewrite cos_0. lra.
Qed.
(** Everything that has an abbreviation is abbreviated. *)
Theorem C72_complete T i j p : abbreviated p -> occurs p (notation_squeeze T i j) = false.
Proof.
  intros A. unfold notation_squeeze. destruct A as [(x & Hx & Hp)|(x & y & Hx & Hp)]; cbn in Hx.
  all: repeat (destruct Hx as [Hx|Hx]; [try subst x; try (injection Hx as <- <-); destruct Hp as [-> | ->];
         (apply subs_all_gone; [intros k v Hk; unfold squeeze_subs, singles, pairs, th in Hk; cbn in Hk; repeat (destruct Hk as [Hk|Hk]; [injection Hk as <- <-; eexists; split; reflexivity|]); destruct Hk
                               |eexists; unfold squeeze_subs, singles, pairs, th; cbn; repeat (first [left; reflexivity|right])])|]); destruct Hx.
Qed.
(** names that are not th_1 .. th_6 are left alone, and a sum written the other way round has no abbreviation here (sympy orders the terms) *)
Theorem C72_example : notation_squeeze (fun _ _ => Add (Mul (Cos (Sym "th_1")) (Sin (Add (Sym "th_2") (Sym "th_3")))) (Mul (Sym "l_1") (Sin (Sym "th_7")))) 0%nat 0%nat
  = Add (Mul (Sym "c_1") (Sym "s_23")) (Mul (Sym "l_1") (Sin (Sym "th_7"))).
Proof. reflexivity. Qed.
Print Assumptions C72_meaning.
Print Assumptions C72_T06.
Print Assumptions C72_J66.
Print Assumptions C72_legend.
Print Assumptions C72_faithful.
Print Assumptions C72_clash_refuted.
Print Assumptions C72_complete.
