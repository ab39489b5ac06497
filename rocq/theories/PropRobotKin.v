(** C73: the kinematics of every robot of the catalogue. *)
From Coq Require Import Reals ZArith List String Ascii Bool Arith Lia Lra.
From Verif Require Import Expr Kin KinSpec KinFacts KinVel KinVel2 PropKin SolverSpec Robots PropRobots PropReach NumFK PropNumFK PropSqueeze.
Import ListNotations.
Local Open Scope string_scope.
Local Open Scope list_scope.
Local Open Scope nat_scope.

(** * The tables are of the form the theorems on the kinematics need *)
Definition polyb (d : robot_def) : bool := forallb (fun r => forallb (fun e => poly e && freeb "qd_1" [e] && freeb "qd_2" [e] && freeb "qd_3" [e] && freeb "qd_4" [e] && freeb "qd_5" [e] && freeb "qd_6" [e]) (cells r)) (rd_dh d).
Lemma polyb_ok d : polyb d = true -> forall r, In r (rd_dh d) -> row_poly qd_names r.
Proof.
  unfold polyb. intros H r Hr e He. rewrite forallb_forall in H. assert (A := H r Hr). rewrite forallb_forall in A. assert (B := A e He). rewrite !andb_true_iff in B.
  destruct B as ((((((P & B1) & B2) & B3) & B4) & B5) & B6). split; auto. intros x Hx.
  assert (K : forall q, freeb q [e] = true -> has q e = false). { intros q F. apply (freeb_ok q [e] F). cbn. auto. }
  cbn in Hx. repeat (destruct Hx as [<-|Hx]; [apply K; assumption|]). destruct Hx.
Qed.
Theorem C73_rows name d us : robot_params name = Described d us -> forall r, In r (rd_dh d) -> row_poly qd_names r.
Proof. intros E. apply polyb_ok. apply (described_check polyb [] ltac:(vm_compute; reflexivity) name d us E). intros []. Qed.
Lemma rows0 name d us : robot_params name = Described d us -> forall r, In r (rd_dh d) -> row_poly0 r.
Proof. intros E r Hr e He. apply (C73_rows name d us E r Hr e He). Qed.

(** * Specification *)
(** A motion of the robot at time t: the unknowns move at the rates qd_1, qd_2, ... (the joints beyond them do not move), all other symbols of the table keep their values. *)
Definition rate (n : nat) : string := nth n ["qd_1"; "qd_2"; "qd_3"; "qd_4"; "qd_5"; "qd_6"] "".
Record motion (d : robot_def) (rho : R -> env) (t : R) : Prop := {
  mo_unknowns : forall i v, nth_error (rd_vars d) i = Some v -> derivable_pt_lim (fun s => rho s v) t (rho t (rate i));
  mo_fixed : forall i, List.length (rd_vars d) <= i -> i < 6 -> rho t (rate i) = 0%R;
  mo_others : forall x s, ~ In x (rd_vars d) -> (exists r e, In r (rd_dh d) /\ In e (cells r) /\ has x e = true) -> rho s x = rho t x
}.
(** only vv[0] to vv[5] are read (one robot has a seventh) *)
Definition kinds (d : robot_def) : list bool := map (fun k => k =? 1) (firstn 6 (rd_vv d)).

(** * Theorems *)
Section C73.
Context (trigsimp expand : expr -> expr) (HT : good_simp trigsimp) (HX : value_preserving expand) (nice : expr -> bool) (name : string) (d : robot_def) (us : list (string * nat)) (HD : robot_params name = Described d us).
(** the matrix T_06, and what the report shows for it, is the forward kinematics of the table *)
Theorem C73_T06 rho : consts_ok nice rho (rd_dh d) -> Meq 4 (mev rho (fk_T06 trigsimp nice (rd_dh d))) (FK rho (rd_dh d))
  /\ (legend rho -> Meq 4 (mev rho (notation_squeeze (fk_T06 trigsimp nice (rd_dh d)))) (FK rho (rd_dh d))).
Proof. intros C. split. apply c38_T06; auto. apply HT. apply (rows0 name d us HD). intros L. apply C72_T06; auto. apply HT. apply (rows0 name d us HD). Qed.
(** no table uses an abbreviation as a name: the reports are not ambiguous *)
Theorem C73_no_clash r e x : In r (rd_dh d) -> In e (cells r) -> In x abbreviations -> has x e = false.
Proof.
  intros Hr He Hx. assert (C := described_check (fun d => forallb (fun r => forallb (fun e => forallb (fun x => negb (has x e)) abbreviations) (cells r)) (rd_dh d)) [] ltac:(vm_compute; reflexivity) name d us HD (fun x => x)). cbn beta in C.
  rewrite forallb_forall in C. assert (C1 := C r Hr). rewrite forallb_forall in C1. assert (C2 := C1 e He). rewrite forallb_forall in C2. apply C2, negb_true_iff in Hx. auto.
Qed.
(** the numerical forward kinematics returns when the unknowns, the parameters and the constants of inclined axes have values *)
Theorem C73_numeric num pose params : num_ok num -> no_new_symbols trigsimp -> name <> "Mackler13" -> NoDup (map fst params) ->
  (forall x, In x (rd_vars d) \/ In x (rd_params d) \/ In x (map fst (alpha_params nice 0 (rd_dh d))) -> given pose params x <> None) ->
  exists V, forward_kinematics_N num (fk_T06 trigsimp nice (rd_dh d)) pose params = Some V /\
    forall rho, agrees pose params rho -> consts_ok nice rho (rd_dh d) -> Meq 4 V (FK rho (rd_dh d)) /\ rigid V.
Proof.
  intros HN NN NM ND G. destruct (C71_returns num HN trigsimp HT nice (rd_dh d) pose params NN ND (rows0 name d us HD)) as (V & EV).
  - intros r e x Hr He Hx. apply G. destruct (C64_closed name d us HD NM r e x Hr He Hx); auto.
  - intros x Hx. apply G. auto.
  - exists V. split; auto. intros rho A C. apply (C71_value num HN trigsimp HT nice (rd_dh d) pose params V rho); auto. apply (rows0 name d us HD).
Qed.

Lemma rd_six : List.length (rd_dh d) = 6. Proof. apply (proj1 (C64_sound name d us HD)). Qed.
Lemma row_in i : i < 6 -> In (row d i) (rd_dh d).
Proof. intros H. apply nth_In. rewrite rd_six. auto. Qed.
(** an expression of the table without unknowns does not change *)
Lemma eval_const rho t e r : motion d rho t -> In r (rd_dh d) -> In e (cells r) -> forall e', (forall x, has x e' = true -> has x e = true /\ ~ In x (rd_vars d)) -> forall s, eval (rho s) e' = eval (rho t) e'.
Proof. intros M Hr He e' H s. apply eval_ext. intros x Hx. destruct (H x Hx) as (Hx' & N). apply (mo_others d rho t M); eauto. Qed.
Lemma lim_const f t : (forall s, f s = f t) -> derivable_pt_lim f t 0%R.
Proof. intros H. apply (lim_ext (fun _ => f t)). auto. apply derivable_pt_lim_const. Qed.
Lemma lim_cell rho t i e : motion d rho t -> i < 6 -> In e (cells (row d i)) -> (forall v, nth_error (rd_vars d) i = Some v -> has v e = false) -> derivable_pt_lim (fun s => eval (rho s) e) t 0%R.
Proof.
  intros M Hi He F. apply lim_const. intros s. apply (eval_const rho t e (row d i) M (row_in i Hi) He). intros x Hx. split; auto. intros I. apply In_nth_error in I as (j & Hj).
  destruct (Nat.eq_dec j i) as [->|N]; [rewrite (F x Hj) in Hx; discriminate|]. rewrite (sound_only d (proj1 (C64_sound name d us HD)) j i x e Hj) in Hx; auto; discriminate.
Qed.
Lemma lim_joint rho t i v e : motion d rho t -> i < 6 -> In e (cells (row d i)) -> nth_error (rd_vars d) i = Some v -> moves v e -> derivable_pt_lim (fun s => eval (rho s) e) t (rho t (rate i)).
Proof.
  intros M Hi He Hv [->|(c & -> & Hc)]; cbn [eval]. apply (mo_unknowns d rho t M); auto.
  replace (rho t (rate i)) with (0 + rho t (rate i))%R by ring. apply (derivable_pt_lim_plus (fun s => eval (rho s) c) (fun s => rho s v)). 2: apply (mo_unknowns d rho t M); auto.
  apply lim_const. intros s. apply (eval_const rho t _ (row d i) M (row_in i Hi) He). intros x Hx. cbn [has]. rewrite Hx. split; auto. intros I. apply In_nth_error in I as (j & Hj).
  destruct (Nat.eq_dec j i) as [->|N]; [rewrite Hv in Hj; injection Hj as ->; congruence|]. assert (X := sound_only d (proj1 (C64_sound name d us HD)) j i x _ Hj (not_eq_sym N) Hi He). cbn [has] in X. rewrite Hx in X. discriminate.
Qed.
Lemma nth_error_firstn6 {A} (l : list A) i : i < 6 -> nth_error (firstn 6 l) i = nth_error l i.
Proof. generalize 6. intros n. revert l i. induction n as [|n IH]; intros l i H; [lia|]. destruct l, i; cbn [firstn nth_error]; auto. apply IH. lia. Qed.
(** the velocities computed link by link are the velocities of the last frame when the joints move, expressed in that frame; and J66 maps the rates to them *)
Theorem C73_velocity rho t : name <> "MiniDD" -> motion d rho t -> consts_ok nice (rho t) (rd_dh d) ->
  let vw := fk_velocities trigsimp nice (rd_dh d) (kinds d) in
  let J := fk_J66 trigsimp expand nice (rd_dh d) (kinds d) in
  mderiv (fun s => FK (rho s) (rd_dh d)) t (mmul3 (FK (rho t) (rd_dh d)) (skew (vev (rho t) (snd vw)))) /\
  vderiv (fun s => pos (FK (rho s) (rd_dh d))) t (mvec3 (FK (rho t) (rd_dh d)) (vev (rho t) (fst vw))) /\
  forall i, i < 3 ->
    (vev (rho t) (fst vw) i = rsum (fun j => eval (rho t) (J i j) * rho t (rate j)) (seq 0 6) /\
     vev (rho t) (snd vw) i = rsum (fun j => eval (rho t) (J (3 + i)%nat j) * rho t (rate j)) (seq 0 6))%R.
Proof.
  intros NM M C vw J. assert (KP := C64_kinds name d us HD NM 5 ltac:(lia)). apply nth_error_Some in KP.
  assert (LV : List.length (firstn 6 (rd_vv d)) = 6) by (rewrite firstn_length; lia).
  assert (S := proj1 (C64_sound name d us HD)). assert (L6 := rd_six).
  assert (BV := c40_body_velocity trigsimp nice rho t (rd_dh d) (kinds d) qd_names (simp_flags (rd_dh d)) HT).
  destruct BV as (B1 & B2).
  - unfold kinds. rewrite map_length. lia.
  - rewrite L6. reflexivity.
  - unfold simp_flags. rewrite map_length, combine_length, seq_length. lia.
  - apply (rows0 name d us HD).
  - exact C.
  - intros ((r, b), q) Hx. apply In_nth_error in Hx as (i & Hi).
    assert (Li : i < 6). { assert (X := proj1 (nth_error_Some (combine (combine (rd_dh d) (kinds d)) qd_names) i)). rewrite Hi in X. assert (Y := X ltac:(discriminate)). rewrite !combine_length, L6 in Y. cbn in Y. lia. }
    assert (Hr : r = row d i /\ b = nth i (kinds d) true /\ q = rate i).
    { apply nth_error_nth with (d := (DH (Num 0) (Num 0) (Num 0) (Num 0), true, "")) in Hi. rewrite combine_nth in Hi by (rewrite combine_length; unfold kinds; rewrite map_length, LV, L6; reflexivity). rewrite combine_nth in Hi by (unfold kinds; rewrite map_length; lia).
      injection Hi as <- <- <-. auto. }
    destruct Hr as (-> & -> & ->). cbn [row_moves].
    assert (Cell : forall e, In e [d_al (row d i); d_a (row d i); d_d (row d i); d_th (row d i)] -> In e (cells (row d i))) by auto.
    destruct (nth_error (rd_vars d) i) as [v|] eqn:Hv.
    + assert (K1 : forall k, nth_error (rd_vv d) i = Some k -> nth i (kinds d) true = (k =? 1)). { intros k Hk. unfold kinds. apply nth_error_nth. rewrite nth_error_map, nth_error_firstn6, Hk by auto. reflexivity. }
      assert (Z : forall e, In e (cells (row d i)) -> has v e = false -> derivable_pt_lim (fun s => eval (rho s) e) t 0%R). { intros e He F. apply (lim_cell rho t i e M Li He). intros w Hw. rewrite Hv in Hw. injection Hw as <-. auto. }
      destruct (sound_joint d S i v Hv) as [(K & Mv & F)|(K & Mv & F)]; rewrite (K1 _ K); cbn [Nat.eqb]; (split; [|split; [|split]]); try (apply Z; [apply Cell; cbn; auto|apply F; cbn; auto]).
      * apply (lim_joint rho t i v); auto. apply Cell. cbn. auto.
      * apply (lim_joint rho t i v); auto. apply Cell. cbn. auto.
    + assert (Z : forall e, In e (cells (row d i)) -> derivable_pt_lim (fun s => eval (rho s) e) t 0%R). { intros e He. apply (lim_cell rho t i e M Li He). intros w Hw. congruence. }
      assert (Q : rho t (rate i) = 0%R). { apply (mo_fixed d rho t M); auto. apply nth_error_None. auto. }
      rewrite Q. destruct (nth i (kinds d) true); (split; [|split; [|split]]); apply Z, Cell; cbn; auto.
  - split; [exact B1|]. split; [exact B2|]. intros i Hi. destruct (c40_jacobian trigsimp expand nice (rd_dh d) (kinds d) HT HX (C73_rows name d us HD) (rho t) i Hi) as (J1 & J2 & _).
    unfold vev. split; [exact J1|exact J2].
Qed.
End C73.

(** an example: Stanford's arm (its third joint is prismatic) moving *)
Definition st_motion : R -> env := fun s x => (if String.eqb x "th_1" then 5 * s else if String.eqb x "d_3" then 7 * s else if String.eqb x "th_6" then 3 * s
  else if String.eqb x "qd_1" then 5 else if String.eqb x "qd_3" then 7 else if String.eqb x "qd_6" then 3 else if memb x ["qd_2"; "qd_4"; "qd_5"] then 0 else 2)%R.
Lemma lin k t : derivable_pt_lim (fun s => k * s)%R t k.
Proof. eapply lim_val; [|apply (derivable_pt_lim_scal id)]; [|apply derivable_pt_lim_id]. ring. Qed.
Theorem C73_example t : robot_params "Stanford" = Described r_Stanford (number_from 1 (rd_vars r_Stanford)) /\ motion r_Stanford st_motion t /\ consts_ok (fun _ => true) (st_motion t) (rd_dh r_Stanford)
  /\ kinds r_Stanford = [true; true; false; true; true; true].
Proof.
  split. vm_compute; reflexivity. split; [|split].
  - constructor.
    + intros i v H. do 6 (destruct i as [|i]; [cbn in H; injection H as <-; cbn [rate nth]; unfold st_motion; cbn; first [apply lin|apply derivable_pt_lim_const]|]). destruct i; discriminate H.
    + intros i L Hi. cbn in L. lia.
    + intros x s N _. unfold st_motion. assert (K : forall y, In y (rd_vars r_Stanford) -> String.eqb x y = false). { intros y Hy. apply String.eqb_neq. intros ->. auto. }
      rewrite !K by (cbn; auto 8). reflexivity.
  - intros s e H. vm_compute in H. destruct H.
  - reflexivity.
Qed.
Print Assumptions C73_rows.
Print Assumptions C73_T06.
Print Assumptions C73_no_clash.
Print Assumptions C73_numeric.
Print Assumptions C73_velocity.
Print Assumptions C73_example.
