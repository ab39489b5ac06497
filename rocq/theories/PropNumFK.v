(** C71: numerical forward kinematics. *)
From Coq Require Import Reals ZArith List String Ascii Bool Arith Lia Lra Machin.
From Verif Require Import Expr Kin KinSpec KinFacts KinVel KinVel2 PropKin PropReach SolverSpec NumFK.
Import ListNotations.
Local Open Scope string_scope.
Local Open Scope list_scope.
Local Open Scope R_scope.

(** * Specification *)
(** the value given to a symbol: by the parameters, else by the pose *)
Definition given (pose params : dict) (x : string) : option R := match dget params x with Some v => Some v | None => dget pose x end.
Definition agrees (pose params : dict) (rho : env) : Prop := forall x v, given pose params x = Some v -> rho x = v.
(** What is assumed of sympy's substitution of numbers and N: a number it returns is the value of the expression at every assignment that agrees with
    the dictionary (so a symbol without a value has no influence), and it returns a number if every symbol has a value. *)
Definition num_ok (num : dict -> expr -> option R) : Prop :=
  (forall d e v rho, poly e = true -> num d e = Some v -> (forall x a, dget d x = Some a -> rho x = a) -> eval rho e = v)
  /\ forall d e, poly e = true -> (forall x, has x e = true -> dget d x <> None) -> num d e <> None.

(** * Dictionaries *)
Lemma dget_cons p d x : dget (p :: d) x = if String.eqb x (fst p) then Some (snd p) else dget d x.
Proof. unfold dget. cbn [find]. destruct (String.eqb x (fst p)); auto. Qed.
Lemma dget_dset d x v y : dget (dset d x v) y = if String.eqb y x then Some v else dget d y.
Proof.
  induction d as [|p d IH]; cbn [dset].
  - rewrite dget_cons. reflexivity.
  - destruct (String.eqb_spec x (fst p)) as [->|N]; rewrite !dget_cons; cbn [fst snd].
    + destruct (String.eqb_spec y (fst p)); auto.
    + rewrite IH. destruct (String.eqb_spec y (fst p)) as [->|]; auto. destruct (String.eqb_spec (fst p) x); congruence.
Qed.
Lemma dget_update params : forall pose x, NoDup (map fst params) -> dget (dupdate pose params) x = given pose params x.
Proof.
  unfold dupdate, given. induction params as [|p ps IH]; intros pose x N; cbn [fold_left]; auto. cbn [map] in N. inversion N; subst.
  rewrite IH, dget_cons, dget_dset; auto. destruct (String.eqb_spec x (fst p)) as [->|]; auto.
  assert (E : dget ps (fst p) = None); [|rewrite E; auto]. clear -H1. induction ps as [|q ps IH]; auto. rewrite dget_cons. cbn [map In] in H1. destruct (String.eqb_spec (fst p) (fst q)) as [E|]; [exfalso; apply H1; auto|]. apply IH. tauto.
Qed.

(** * C71 *)
Section C71.
Context (num : dict -> expr -> option R) (HN : num_ok num) (trigsimp : expr -> expr) (HT : good_simp trigsimp) (nice : expr -> bool).
Lemma idx44_all i j : (i < 4)%nat -> (j < 4)%nat -> In (i, j) idx44.
Proof. intros Hi Hj. do 4 (destruct i as [|i]; [do 4 (destruct j as [|j]; [cbn; auto 20|]); lia|]). lia. Qed.
Lemma idx44_lt ij : In ij idx44 -> (fst ij < 4)%nat /\ (snd ij < 4)%nat.
Proof. intros H. cbn in H. repeat (destruct H as [<-|H]; [cbn; lia|]). destruct H. Qed.
Lemma T06_poly rows i j : (forall r, In r rows -> row_poly0 r) -> (i < 4)%nat -> (j < 4)%nat -> poly (fk_T06 trigsimp nice rows i j) = true.
Proof. intros HR Hi Hj. unfold fk_T06, mapm. apply HT. apply mprod_poly; auto. apply link_ts_poly; auto. Qed.

(** What it returns is the forward kinematics of the robot, a rigid transform, at the values given (those of the parameters before those of the pose),
    whatever the symbols without a value stand for. *)
Theorem C71_value rows pose params V rho : NoDup (map fst params) -> (forall r, In r rows -> row_poly0 r) ->
  forward_kinematics_N num (fk_T06 trigsimp nice rows) pose params = Some V -> agrees pose params rho -> consts_ok nice rho rows ->
  Meq 4 V (FK rho rows) /\ rigid V.
Proof.
  intros N HR H A C. unfold forward_kinematics_N in H. destruct (forallb _ idx44) eqn:F; [|discriminate]. injection H as <-.
  rewrite forallb_forall in F. assert (M : Meq 4 (fun i j => match num (dupdate pose params) (fk_T06 trigsimp nice rows i j) with Some v => v | None => 0 end) (FK rho rows)).
  { intros i j Hi Hj. rewrite <- (c38_T06 trigsimp nice rho rows (proj1 HT) HR C i j Hi Hj). unfold mev.
    specialize (F (i, j) (idx44_all i j Hi Hj)). cbn [fst snd] in F. destruct (num _ (fk_T06 trigsimp nice rows i j)) as [v|] eqn:E; [|discriminate]. symmetry. apply (proj1 HN (dupdate pose params)); auto.
    - apply T06_poly; auto.
    - intros x a Hx. rewrite dget_update in Hx by auto. apply A; auto. }
  split; auto.
  assert (Rg : rigid (FK rho rows)).
  { unfold FK. assert (X := c36_chain_rigid (map (rev_row rho) rows)). rewrite map_map in X.
    assert (Y := chain_ext _ _ (link_craig_list rho rows)). cbn in Y.
    destruct X as ((R1 & R2) & (B0 & B1 & B2 & B3)). change (map (fun x => link_of (rev_row rho x)) rows) with (map (fun r => Link (eval rho (d_al r)) (eval rho (d_a r)) (eval rho (d_d r)) (eval rho (d_th r))) rows) in *.
    split; [split|].
    - intros i j Hi Hj. rewrite <- (R1 i j Hi Hj). unfold mmul3, mtrans, osum3. rewrite !Y by lia. reflexivity.
    - rewrite <- R2. unfold det3. rewrite !Y by lia. reflexivity.
    - unfold affine. rewrite <- !Y by lia. auto. }
  destruct Rg as ((R1 & R2) & (B0 & B1 & B2 & B3)). set (W := fun i j => _) in *. clearbody W. split; [split|].
  - intros i j Hi Hj. rewrite <- (R1 i j Hi Hj). unfold mmul3, mtrans, osum3. rewrite !M by lia. reflexivity.
  - rewrite <- R2. unfold det3. rewrite !M by lia. reflexivity.
  - unfold affine. rewrite !M by lia. auto.
Qed.
(** A symbol without a value that matters makes it quit. *)
Theorem C71_quits rows pose params rho1 rho2 i j : NoDup (map fst params) -> (forall r, In r rows -> row_poly0 r) ->
  agrees pose params rho1 -> agrees pose params rho2 -> consts_ok nice rho1 rows -> consts_ok nice rho2 rows -> (i < 4)%nat -> (j < 4)%nat -> FK rho1 rows i j <> FK rho2 rows i j ->
  forward_kinematics_N num (fk_T06 trigsimp nice rows) pose params = None.
Proof.
  intros N HR A1 A2 C1 C2 Hi Hj D. destruct (forward_kinematics_N _ _ _ _) as [V|] eqn:E; auto. exfalso. apply D.
  rewrite <- (proj1 (C71_value _ _ _ _ _ N HR E A1 C1) i j Hi Hj). apply (proj1 (C71_value _ _ _ _ _ N HR E A2 C2) i j Hi Hj).
Qed.
(** It returns if every symbol of the table and every constant introduced for the alphas has a value. *)
Lemma alpha_subs_names : forall rows i k v, In (k, v) (alpha_subs nice i rows) -> exists s, v = Sym s /\ In s (map fst (alpha_params nice i rows)).
Proof.
  induction rows as [|r rows IH]; intros i k v H; cbn [alpha_subs alpha_params] in *; [destruct H|]. rewrite map_app. apply in_app_iff in H as [H|H].
  - destruct (nice (d_al r)); cbn in H; [destruct H|]. destruct H as [E|[E|[]]]; injection E as <- <-; eexists; (split; [reflexivity|]); apply in_or_app; left; cbn; auto.
  - destruct (IH _ _ _ H) as (s & -> & Hs). exists s. split; auto. apply in_or_app. auto.
Qed.
Lemma has_mprod x l : (forall T i j, In T l -> (i < 4)%nat -> (j < 4)%nat -> has x (T i j) = false) -> forall i j, (i < 4)%nat -> (j < 4)%nat -> has x (mprod l i j) = false.
Proof.
  destruct l as [|T l]; cbn [mprod]; intros H. { intros i j _ _. destruct (i =? j)%nat; auto. }
  assert (G : forall i j, (i < 4)%nat -> (j < 4)%nat -> has x (T i j) = false) by (intros; apply H; cbn; auto).
  assert (H' : forall T i j, In T l -> (i < 4)%nat -> (j < 4)%nat -> has x (T i j) = false) by (intros; apply H; cbn; auto). clear H. revert T G.
  induction l as [|X l IH]; cbn [fold_left]; intros T G; auto. apply IH. { intros; apply H'; cbn; auto. }
  intros i j Hi Hj. unfold mmul4, osum4. cbn -[has]. cbn [has]. rewrite !G, !(H' X) by (cbn; auto; lia). reflexivity.
Qed.
Lemma T06_has rows x i j : no_new_symbols trigsimp -> (forall r, In r rows -> row_poly0 r) -> (i < 4)%nat -> (j < 4)%nat -> has x (fk_T06 trigsimp nice rows i j) = true ->
  (exists r e, In r rows /\ In e [d_al r; d_a r; d_d r; d_th r] /\ has x e = true) \/ In x (map fst (alpha_params nice 0 rows)).
Proof.
  intros NN HR Hi Hj H. unfold fk_T06, mapm in H. apply NN in H.
  destruct (existsb (fun r => existsb (has x) [d_al r; d_a r; d_d r; d_th r]) rows) eqn:E.
  { apply existsb_exists in E as (r & Hr & E). apply existsb_exists in E as (e & He & E). left. eauto. }
  destruct (in_dec string_dec x (map fst (alpha_params nice 0 rows))) as [|Nx]; auto. exfalso.
  rewrite has_mprod in H; auto; [discriminate|]. clear i j Hi Hj H. intros T i j HTi Hi Hj. unfold link_ts in HTi. apply in_map_iff in HTi as (r & <- & Hr). unfold mapm.
  assert (Cr : forall e, In e [d_al r; d_a r; d_d r; d_th r] -> has x e = false).
  { intros e He. destruct (has x e) eqn:X; auto. assert (Y : existsb (fun r => existsb (has x) [d_al r; d_a r; d_d r; d_th r]) rows = true); [|congruence]. apply existsb_exists. exists r. split; auto. apply existsb_exists. eauto. }
  apply subs_all_ok.
  - intros k v Hkv. split. { eapply alpha_subs_keys; eauto. } destruct (alpha_subs_names _ _ _ _ Hkv) as (s & -> & Hs). split; [reflexivity|]. cbn [has]. apply String.eqb_neq. intros <-. auto.
  - apply (link_poly [x] r i j); auto. 2: cbn; auto. intros e He. split. apply (HR r Hr); auto. intros y [<-|[]]. auto.
Qed.
Theorem C71_returns rows pose params : no_new_symbols trigsimp -> NoDup (map fst params) -> (forall r, In r rows -> row_poly0 r) ->
  (forall r e x, In r rows -> In e [d_al r; d_a r; d_d r; d_th r] -> has x e = true -> given pose params x <> None) ->
  (forall x, In x (map fst (alpha_params nice 0 rows)) -> given pose params x <> None) ->
  exists V, forward_kinematics_N num (fk_T06 trigsimp nice rows) pose params = Some V.
Proof.
  intros NN N HR G1 G2. unfold forward_kinematics_N. assert (F : forallb (fun ij => if num (dupdate pose params) (fk_T06 trigsimp nice rows (fst ij) (snd ij)) then true else false) idx44 = true).
  { apply forallb_forall. intros ij Hij. destruct (idx44_lt ij Hij) as [Hi Hj]. assert (X := proj2 HN (dupdate pose params) (fk_T06 trigsimp nice rows (fst ij) (snd ij)) (T06_poly rows _ _ HR Hi Hj)).
    destruct (num _ _) eqn:E; auto. exfalso. apply X; auto. intros x Hx. rewrite dget_update by auto. apply T06_has in Hx as [(r & e & Hr & He & Hh)|Hx]; eauto. }
  rewrite F. eauto.
Qed.
End C71.

(** deg is not a degree: a full turn of 360*deg falls short of 2*pi by 10 microradians (the literal is 6.28317531, not 6.28318531). *)
Lemma PI_bounds : 31415926 / 10000000 < PI < 31415927 / 10000000.
Proof.
  destruct (PI_2_3_7_ineq 4) as [A _]. destruct (PI_2_3_7_ineq 4) as [_ B].
  unfold tg_alt, PI_2_3_7_tg, Ratan_seq in A, B. cbn [sum_f_R0 Nat.mul Nat.add pow INR] in A, B. split; lra.
Qed.
Theorem C71_degree_refuted : 9 / 1000000 < 2 * PI - 360 * deg < 11 / 1000000.
Proof. assert (B := PI_bounds). unfold deg. lra. Qed.
(** so a joint at "180 degrees" is not turned by half a turn *)
Theorem C71_half_turn_refuted : 0 < sin (180 * deg).
Proof. assert (B := PI_bounds). apply sin_gt_0; unfold deg; lra. Qed.
(** the error grows with the angle, and is never larger than three hundred-millionths of a radian per degree *)
Theorem C71_degree_error k : Rabs (k * deg - k * (PI / 180)) <= Rabs k * (4 / 100000000) /\ rad2deg * deg = 1.
Proof.
  assert (B := PI_bounds). split.
  - replace (k * deg - k * (PI / 180)) with (k * (deg - PI / 180)) by ring. rewrite Rabs_mult. apply Rmult_le_compat_l. apply Rabs_pos. apply Rabs_le. unfold deg. lra.
  - unfold rad2deg, deg. field.
Qed.

(** an example: one inclined axis (alpha_1 given by its sine and cosine), a joint variable and a length; the contract on [num] can be met *)
Definition num0 (d : dict) (e : expr) : option R :=
  if forallb (fun x => if dget d x then true else false) ((fix syms (e : expr) : list string := match e with
    | Num _ | PiE => [] | Sym s => [s] | Add a b | Mul a b | Div a b | Atan2 a b => syms a ++ syms b | Neg a | Pow a _ | Sin a | Cos a | Asin a | Acos a | Sqrt a => syms a end) e)
  then Some (eval (fun x => match dget d x with Some v => v | None => 0 end) e) else None.
Lemma num0_ok : num_ok num0.
Proof.
  set (syms := fix syms (e : expr) : list string := match e with
    | Num _ | PiE => [] | Sym s => [s] | Add a b | Mul a b | Div a b | Atan2 a b => syms a ++ syms b | Neg a | Pow a _ | Sin a | Cos a | Asin a | Acos a | Sqrt a => syms a end).
  assert (S : forall x e, has x e = true <-> In x (syms e)).
  { intros x. induction e; cbn [has syms In]; try tauto; try (split; [discriminate|tauto]); try (rewrite orb_true_iff, in_app_iff; tauto).
    rewrite String.eqb_eq. intuition. }
  split.
  - intros d e v rho _ H A. unfold num0 in H. fold syms in H. destruct (forallb _ (syms e)) eqn:F; [|discriminate]. injection H as <-. apply eval_ext. intros x Hx. apply S in Hx. rewrite forallb_forall in F. specialize (F x Hx). destruct (dget d x) eqn:E; [|discriminate]. apply A; auto.
  - intros d e _ H. unfold num0. fold syms. assert (F : forallb (fun x => if dget d x then true else false) (syms e) = true); [|rewrite F; discriminate]. apply forallb_forall. intros x Hx. apply S, H in Hx. destruct (dget d x); congruence.
Qed.
Definition rows71 : list (dhrow expr) := [DH (Num 0) (Num 0) (Sym "l_1") (Sym "th_1"); DH (Sym "al_1") (Num 0) (Num 0) (Sym "th_2"); DH (Div (Neg PiE) (Num 2)) (Sym "l_2") (Num 0) (Sym "th_3")].
Definition nice71 (e : expr) : bool := match e with Sym _ => false | _ => true end.
Definition pose71 : dict := [("th_1", 1); ("th_2", 2); ("th_3", 3)].
Definition params71 : dict := [("l_1", 4); ("l_2", 5); ("al_1", 1 / 2); ("ca1", cos (1 / 2)); ("sa1", sin (1 / 2))].
Lemma rows71_poly r : In r rows71 -> row_poly0 r.
Proof. intros H e He. cbn in H. repeat (destruct H as [<-|H]; [cbn in He; repeat (destruct He as [<-|He]; [reflexivity|]); destruct He|]). destruct H. Qed.
Lemma id_good : good_simp (fun e => e). Proof. split; intros ? *; auto. Qed.
Theorem C71_example rho : agrees pose71 params71 rho -> exists V, forward_kinematics_N num0 (fk_T06 (fun e => e) nice71 rows71) pose71 params71 = Some V /\ Meq 4 V (FK rho rows71) /\ rigid V
  /\ forward_kinematics_N num0 (fk_T06 (fun e => e) nice71 rows71) pose71 (tl params71) = None.
Proof.
  intros A. assert (N : NoDup (map fst params71)) by (repeat constructor; cbn; intuition discriminate).
  destruct (C71_returns num0 num0_ok (fun e => e) id_good nice71 rows71 pose71 params71 (fun _ _ H => H) N rows71_poly) as (V & E).
  - intros r e x Hr He Hx. cbn in Hr. repeat (destruct Hr as [<-|Hr]; [cbn in He; repeat (destruct He as [<-|He]; [cbn in Hx; try discriminate; apply String.eqb_eq in Hx; subst x; discriminate|]); destruct He|]). destruct Hr.
  - intros x Hx. cbn in Hx. repeat (destruct Hx as [<-|Hx]; [discriminate|]). destruct Hx.
  - assert (C : forall rho, (forall x v, In (x, v) [("al_1", 1 / 2); ("ca1", cos (1 / 2)); ("sa1", sin (1 / 2))] -> rho x = v) -> consts_ok nice71 rho rows71).
    { intros r A' s e H. cbn in H. destruct H as [H|[H|[]]]; injection H as <- <-; cbn [eval]; rewrite (A' "al_1" (1 / 2)) by (cbn; auto); apply A'; cbn; auto. }
    assert (C1 : consts_ok nice71 rho rows71). { apply C. intros x v Hx. apply A. cbn in Hx. repeat (destruct Hx as [Hx|Hx]; [injection Hx as <- <-; reflexivity|]). destruct Hx. }
    destruct (C71_value num0 num0_ok (fun e => e) id_good nice71 rows71 pose71 params71 V rho N rows71_poly E A C1) as [M G]. exists V. split; [exact E|]. split; [exact M|]. split; [exact G|].
    set (r1 := fun (l : R) (x : string) => match given pose71 (tl params71) x with Some v => v | None => l end).
    assert (Ar : forall l, agrees pose71 (tl params71) (r1 l)). { intros l x v Hx. unfold r1. rewrite Hx. auto. }
    assert (Cr : forall l, consts_ok nice71 (r1 l) rows71). { intros l. apply C. intros x v Hx. apply Ar. cbn in Hx. repeat (destruct Hx as [Hx|Hx]; [injection Hx as <- <-; reflexivity|]). destruct Hx. }
    refine (C71_quits num0 num0_ok (fun e => e) id_good nice71 rows71 pose71 (tl params71) (r1 0) (r1 1) 2%nat 3%nat _ rows71_poly (Ar 0) (Ar 1) (Cr 0) (Cr 1) _ _ _).
    + repeat constructor; cbn; intuition discriminate.
    + lia.
    + lia.
    + intros X. assert (Z : forall l, FK (r1 l) rows71 2%nat 3%nat = l + FK (r1 0) rows71 2%nat 3%nat).
      { intros l. unfold FK, rows71. cbn [map chain d_al d_a d_d d_th eval]. match goal with |- mmul4 _ (mmul4 ?a (mmul4 ?b ?c)) _ _ = _ => assert (Af : affine (mmul4 a (mmul4 b c))) by (apply (chain_affine [a; b]); intros T HTi; destruct HTi as [<-|[<-|[]]]; apply craig_affine) end.
        match goal with |- mmul4 _ ?a _ _ = l + mmul4 _ ?b _ _ => change b with a; set (B := a) in *; clearbody B end. destruct Af as (_ & _ & _ & B3).
        unfold mmul4, osum4. rewrite <- !(c36_link_is_craig _ _ _ _ 2%nat _) by lia. unfold Link, of_rows. cbn -[sin cos]. rewrite B3, sin_0, cos_0. change (r1 l "l_1") with l. change (r1 0 "l_1") with 0. ring. }
      rewrite (Z 1) in X. lra.
Qed.
Print Assumptions C71_value.
Print Assumptions C71_quits.
Print Assumptions C71_returns.
Print Assumptions C71_degree_refuted.
Print Assumptions C71_half_turn_refuted.
Print Assumptions C71_degree_error.
Print Assumptions C71_example.
