(** C80: the robot that ikSolver.py solves when it is given no name, from the command line to the vectors. *)
From Coq Require Import Reals ZArith List String Ascii Bool Arith Lia Lra Permutation.
From Verif Require Import Expr Kin KinSpec KinFacts PropKin Trig Solver SolverSpec SolverFacts SolverInv Sympy0 PropLists SolverHist HistFacts PropHist PropSolvers PropSolversEx PropHistEx PropComplete PropCrash PropOnce Soa SoaFacts PropSoa
  SolSet SolSetFacts PropSolSet CodeGen PropCodeGen CppFacts PropCpp PropEmit PyFile PropRows PropRowsEx PropExplain PropSound PyRun PropPyRun PropPyEnd PropMethod PropMethodPy Latex TexFile PropTexFile Session PropSession PropReport
  Robots PropRobots PropReach Cache PropCache PropEndToEnd EndToEndEx SolSetEx CodeGenEx PropLatexEx Program PropProgram PropProgramEx PropFiles PropFilesEx RobotsEx PolySimp.
Import ListNotations.
Local Open Scope string_scope.
Local Open Scope list_scope.
Local Open Scope nat_scope.

(** * What the solver records *)
Definition sP := opt_state (prepared sympyP always (rd_vars r_Wrist) (rd_dh r_Wrist)) (start [] (meq (fun _ _ => (Num 0, Num 0)))).
Definition eP := state_of (ik_solve sympyP sP) sP.
Lemma sP_ok : prepared sympyP always (rd_vars r_Wrist) (rd_dh r_Wrist) = Some sP.
Proof.
  unfold sP. generalize (start [] (meq (fun _ _ => (Num 0, Num 0)))). intros d. destruct (prepared sympyP always (rd_vars r_Wrist) (rd_dh r_Wrist)) eqn:E; [reflexivity|]. exfalso.
  assert (X : (match prepared sympyP always (rd_vars r_Wrist) (rd_dh r_Wrist) with Some _ => true | None => false end) = true) by (vm_compute; reflexivity). rewrite E in X. discriminate.
Qed.
Lemma eP_ok : ik_solve sympyP sP = OK true eP. Proof. apply ok_true. vm_compute. reflexivity. Qed.
(** the solutions: an arcsine, and atan2 of two quotients *)
Definition asin80 : expr := Asin (Div (Add (Sym "r_31") (Neg (Num 0))) (Neg (Num 1))).
Definition over (y x b : string) : expr := Atan2 (Div (Add (Num 0) (Neg (Neg (Sym y)))) (Cos (Sym b))) (Div (Add (Num 0) (Neg (Neg (Sym x)))) (Cos (Sym b))).
Lemma eP_unknowns : map (fun j => (u_sym (un eP j), (u_nsol (un eP j), solutions (un eP j)))) (s_nodes eP)
  = [("B", (2, [asin80; Add PiE (Neg asin80)])); ("C", (1, [over "r_32" "r_33" "B"])); ("A", (1, [over "r_21" "r_11" "B"]))].
Proof. vm_compute. reflexivity. Qed.
Definition F80 : list (list kequation) :=
  [[Keq (Sym "Bv1") asin80; Keq (Sym "Cv1") (over "r_32" "r_33" "Bs1"); Keq (Sym "Av1") (over "r_21" "r_11" "Bs1")];
   [Keq (Sym "Bv2") asin80; Keq (Sym "Cv2") (over "r_32" "r_33" "Bs2"); Keq (Sym "Av2") (over "r_21" "r_11" "Bs2")]].
Lemma versions80 : make_LHS_versions (final_nodes arg0 eP) (create_solution_set (final_nodes arg0 eP)) = Some F80. Proof. vm_compute. reflexivity. Qed.
Definition guard80 : string := "(((r_31 + -(0))/-(1)))".
Definition stmts80 : list stmt :=
  [Guarded guard80 (Keq (Sym "Bv1") asin80); Guarded guard80 (Keq (Sym "Bv2") asin80);
   Assign (Keq (Sym "Cv1") (over "r_32" "r_33" "Bs1")); Assign (Keq (Sym "Cv2") (over "r_32" "r_33" "Bs2"));
   Assign (Keq (Sym "Av1") (over "r_21" "r_11" "Bs1")); Assign (Keq (Sym "Av2") (over "r_21" "r_11" "Bs2"));
   NewList; Append ["Av1"; "Bs1"; "Cv1"]; Append ["Av2"; "Bs2"; "Cv2"]; Return].
Lemma body80 ps pv : option_map assigns (body show0 (Robot "Wrist" ps pv (final_nodes arg0 eP) F80) (create_solution_set (final_nodes arg0 eP))) = Some stmts80.
Proof. vm_compute. reflexivity. Qed.
Lemma orderly80 : orderly eP.
Proof.
  split.
  - assert (U : s_nodes eP = [1; 2; 0]) by (vm_compute; reflexivity). rewrite U. clear. repeat constructor; cbn; intuition discriminate.
  - assert (U : s_nodes eP = [1; 2; 0]) by (vm_compute; reflexivity). rewrite U. intros i l H. injection H as <- <-.
    assert (S : solutions (un eP 1) = [asin80; Add PiE (Neg asin80)]) by (vm_compute; reflexivity). assert (X : u_sym (un eP 1) = "B") by (vm_compute; reflexivity).
    intros (e & He & Hm). rewrite S in He. rewrite X in Hm. destruct He as [<-|[<-|[]]]; discriminate Hm.
Qed.
Lemma eP_only s0 s b : solved_by sympyP always r_Wrist s0 s b -> s0 = sP /\ s = eP /\ b = true.
Proof.
  intros [P S]. assert (E : sP = s0). { apply some_inj. rewrite <- sP_ok. exact P. } rewrite <- E in S. rewrite eP_ok in S. apply ok_inj in S as [B S]. split; [symmetry; exact E|]. split; symmetry; assumption.
Qed.

(** * Running the function *)
Local Open Scope R_scope.
(** the test of the function is evaluated as Python does: abs(-r_31) > 1 *)
Definition right_guard (guard : string -> penv -> option bool) : Prop := forall m x, m "r_31" = Some x -> guard guard80 m = Some (if Rlt_dec 1 (Rabs ((x + - 0) / - (1))) then true else false).
Lemma over_value m y x b s c v : m y = Some s -> m x = Some c -> m b = Some v -> cos v <> 0 -> pyeval m (over y x b) = Some (atan2 (s / cos v) (c / cos v)).
Proof.
  intros H1 H2 H3 N. unfold over. cbn [pyeval]. rewrite H1, H2, H3. destruct (Req_EM_T (cos v) 0) as [e|_]; [contradiction|]. f_equal. f_equal; field; exact N.
Qed.
Lemma pset_is m' x v y : pset m' x v y = if String.eqb y x then Some v else m' y. Proof. reflexivity. Qed.
Local Ltac look := repeat (progress (rewrite ?pset_is; cbn [String.eqb Ascii.eqb Bool.eqb])); try assumption.
Lemma runs80 guard p m r31 r32 r33 r21 r11 b1 b2 : option_map assigns (Some p) = Some stmts80 -> right_guard guard -> -1 <= r31 <= 1 ->
  m "r_31" = Some r31 -> m "r_32" = Some r32 -> m "r_33" = Some r33 -> m "r_21" = Some r21 -> m "r_11" = Some r11 -> m "Bs1" = Some b1 -> m "Bs2" = Some b2 -> cos b1 <> 0 -> cos b2 <> 0 ->
  ikin guard p m = Some (Solutions [[atan2 (r21 / cos b1) (r11 / cos b1); b1; atan2 (r32 / cos b1) (r33 / cos b1)]; [atan2 (r21 / cos b2) (r11 / cos b2); b2; atan2 (r32 / cos b2) (r33 / cos b2)]]).
Proof.
  intros E G B M31 M32 M33 M21 M11 M1 M2 N1 N2. unfold ikin. rewrite run_assigns. cbn [option_map] in E. apply some_inj in E. rewrite E. clear E. unfold stmts80.
 assert (Z : (r31 + - 0) / - (1) = - r31) by field.
  assert (AS : forall m', m' "r_31" = Some r31 -> pyeval m' asin80 = Some (asin ((r31 + - 0) / - (1)))).
  { intros m' H. unfold asin80. cbn [pyeval]. rewrite H. destruct (Req_EM_T (- (1)) 0) as [e|_]; [exfalso; lra|]. rewrite Z. destruct (Rle_dec (-1) (- r31)) as [_|n]; [|exfalso; apply n; lra]. destruct (Rle_dec (- r31) 1) as [_|n]; [|exfalso; apply n; lra]. reflexivity. }
  assert (GF : forall m', m' "r_31" = Some r31 -> guard guard80 m' = Some false).
  { intros m' H. rewrite (G m' r31 H), Z. destruct (Rlt_dec 1 (Rabs (- r31))) as [l|_]; auto. exfalso. apply Rlt_not_le in l. apply l. apply Rabs_le. lra. }
  cbn [run_py p_ok p_vars p_list]. rewrite GF by assumption. unfold assign at 1. cbn [k_lhs k_rhs p_vars]. rewrite AS by assumption. cbn [p_ok p_vars p_list].
  rewrite GF by look. unfold assign at 1. cbn [k_lhs k_rhs p_vars]. rewrite AS by look. cbn [p_ok p_vars p_list].
  unfold assign at 1. cbn [k_lhs k_rhs p_vars]. rewrite (over_value _ "r_32" "r_33" "Bs1" r32 r33 b1) by look. cbn [p_ok p_vars p_list].
  unfold assign at 1. cbn [k_lhs k_rhs p_vars]. rewrite (over_value _ "r_32" "r_33" "Bs2" r32 r33 b2) by look. cbn [p_ok p_vars p_list].
  unfold assign at 1. cbn [k_lhs k_rhs p_vars]. rewrite (over_value _ "r_21" "r_11" "Bs1" r21 r11 b1) by look. cbn [p_ok p_vars p_list].
  unfold assign at 1. cbn [k_lhs k_rhs p_vars]. rewrite (over_value _ "r_21" "r_11" "Bs2" r21 r11 b2) by look. cbn [p_ok p_vars p_list].
  cbn [mapM]. repeat (progress (rewrite ?pset_is; cbn [String.eqb Ascii.eqb Bool.eqb])). rewrite M1, M2. reflexivity.
Qed.

(** * The wrist *)
(** joint angles a, b, c; the pose they reach *)
Definition wrist (a b c : R) : env := fun x => if String.eqb x "A" then a else if String.eqb x "B" then b else if String.eqb x "C" then c else 0.
Definition reached (a b c : R) : mat R := FK (wrist a b c) (rd_dh r_Wrist).
Lemma mul_ext X X' Y Y' : Meq 4 X X' -> Meq 4 Y Y' -> Meq 4 (mmul4 X Y) (mmul4 X' Y').
Proof. intros H K i j Hi Hj. unfold mmul4, osum4. rewrite !(H i), !(K _ j) by Lia.lia. reflexivity. Qed.
Lemma meq_trans X Y Z : Meq 4 X Y -> Meq 4 Y Z -> Meq 4 X Z.
Proof. intros H K i j Hi Hj. rewrite (H i j Hi Hj). auto. Qed.
Local Ltac entries := let i := fresh in let j := fresh in let Hi := fresh in let Hj := fresh in intros i j Hi Hj; destruct i as [|[|[|[|i]]]]; try (exfalso; Lia.lia); destruct j as [|[|[|[|j]]]]; try (exfalso; Lia.lia);
  cbv -[Rplus Rmult Ropp Rminus Rdiv sin cos IZR PI].
(** one link with both offsets zero *)
Lemma craig0 al th : Meq 4 (craig al 0 0 th) (of_rows 0 [[cos th; - sin th; 0; 0]; [cos al * sin th; cos al * cos th; - sin al; 0]; [sin al * sin th; sin al * cos th; cos al; 0]; [0; 0; 0; 1]]).
Proof. entries; ring. Qed.
Lemma FK80 a b c : Meq 4 (reached a b c) (of_rows 0
  [[cos a * cos b; cos a * sin b * sin c - sin a * cos c; cos a * sin b * cos c + sin a * sin c; 0];
   [sin a * cos b; sin a * sin b * sin c + cos a * cos c; sin a * sin b * cos c - cos a * sin c; 0];
   [- sin b; sin c * cos b; cos c * cos b; 0]; [0; 0; 0; 1]]).
Proof.
  assert (SP : forall x, sin (PI / IZR 2 + x) = cos x) by (intros; rewrite sin_plus; replace (PI / IZR 2) with (PI / 2) by reflexivity; rewrite sin_PI2, cos_PI2; lra).
  assert (CP : forall x, cos (PI / IZR 2 + x) = - sin x) by (intros; rewrite cos_plus; replace (PI / IZR 2) with (PI / 2) by reflexivity; rewrite sin_PI2, cos_PI2; lra).
  assert (SM : sin (- PI / IZR 2) = -1). { replace (- PI / IZR 2) with (- (PI / 2)) by (unfold Rdiv; ring). rewrite sin_neg, sin_PI2. lra. }
  assert (CM : cos (- PI / IZR 2) = 0). { replace (- PI / IZR 2) with (- (PI / 2)) by (unfold Rdiv; ring). rewrite cos_neg, cos_PI2. lra. }
  unfold reached, FK, r_Wrist. cbn [rd_dh map chain d_al d_a d_d d_th eval]. replace (wrist a b c "A") with a by reflexivity. replace (wrist a b c "B") with b by reflexivity. replace (wrist a b c "C") with c by reflexivity.
  assert (L1 := craig0 (IZR 0) a). assert (L2 := craig0 (- PI / IZR 2) (PI / IZR 2 + b)). assert (L3 := craig0 (PI / IZR 2) (PI / IZR 2 + c)). assert (L4 := craig0 (- PI / IZR 2) (- PI / IZR 2)). assert (L5 := craig0 (IZR 0) (IZR 0)).
  rewrite sin_0, cos_0 in L1. rewrite SP, CP, SM, CM in L2. rewrite SP, CP in L3. replace (sin (PI / IZR 2)) with 1 in L3 by (symmetry; exact sin_PI2). replace (cos (PI / IZR 2)) with 0 in L3 by (symmetry; exact cos_PI2). rewrite SM, CM in L4. rewrite sin_0, cos_0 in L5.
  refine (meq_trans _ _ _ (mul_ext _ _ _ _ L1 (mul_ext _ _ _ _ L2 (mul_ext _ _ _ _ L3 (mul_ext _ _ _ _ L4 (mul_ext _ _ _ _ L5 (mul_ext _ _ ident _ L5 (fun _ _ _ _ => eq_refl))))))) _).
  clear. eapply meq_trans. { apply mul_ext. intros i j _ _; reflexivity. apply mul_ext. intros i j _ _; reflexivity. apply mul_ext. intros i j _ _; reflexivity.
    instantiate (1 := of_rows 0 [[0; 1; 0; 0]; [0; 0; 1; 0]; [1; 0; 0; 0]; [0; 0; 0; 1]]). entries; ring. }
  eapply meq_trans. { apply mul_ext. intros i j _ _; reflexivity. apply mul_ext. intros i j _ _; reflexivity.
    instantiate (1 := of_rows 0 [[0; - sin c; - cos c; 0]; [-1; 0; 0; 0]; [0; cos c; - sin c; 0]; [0; 0; 0; 1]]). entries; ring. }
  eapply meq_trans. { apply mul_ext. intros i j _ _; reflexivity.
    instantiate (1 := of_rows 0 [[cos b; sin b * sin c; sin b * cos c; 0]; [0; cos c; - sin c; 0]; [- sin b; sin c * cos b; cos c * cos b; 0]; [0; 0; 0; 1]]). entries; ring. }
  entries; ring.
Qed.

Lemma turned a y x s : (s = 1 \/ s = -1) -> y = s * sin a -> x = s * cos a -> sin (atan2 y x) = y /\ cos (atan2 y x) = x /\ (s = 1 -> cong (atan2 y x) a).
Proof.
  intros [-> | ->] -> ->.
  - rewrite !Rmult_1_l. assert (H := atan2_unit a). split; [exact (cong_sin _ _ H)|]. split; [exact (cong_cos _ _ H)|auto].
  - replace (-1 * sin a) with (sin (a + PI)) by (rewrite neg_sin; ring). replace (-1 * cos a) with (cos (a + PI)) by (rewrite neg_cos; ring).
    assert (H := atan2_unit (a + PI)). split; [exact (cong_sin _ _ H)|]. split; [exact (cong_cos _ _ H)|]. intros E. exfalso. lra.
Qed.
Definition first_of (T : mat R) (u : R) : R := atan2 (T 1%nat 0%nat / cos u) (T 0%nat 0%nat / cos u).
Definition third_of (T : mat R) (u : R) : R := atan2 (T 2%nat 1%nat / cos u) (T 2%nat 2%nat / cos u).
Lemma branch a b c u : cos b <> 0 -> sin u = sin b -> cos u = cos b \/ cos u = - cos b -> let T := reached a b c in
  Meq 4 (reached (first_of T u) u (third_of T u)) T /\ (cos u = cos b -> cong (first_of T u) a /\ cong u b /\ cong (third_of T u) c).
Proof.
  intros N Su Cu T. assert (E : exists s, (s = 1 \/ s = -1) /\ cos u = s * cos b /\ (cos u = cos b -> s = 1)).
  { destruct Cu as [C|C]; [exists 1|exists (-1)]; split; auto; split; try lra; auto. }
  destruct E as (s & Hs & Cs & S1). assert (Ns : s <> 0) by (destruct Hs; lra). assert (SS : s * s = 1) by (destruct Hs as [-> | ->]; ring). assert (IS : / s = s) by (destruct Hs as [-> | ->]; field).
  assert (FK := FK80 a b c). fold T in FK.
  assert (Q : forall q, q * cos b / cos u = s * q). { intros q. rewrite Cs. replace (q * cos b / (s * cos b)) with (/ s * q) by (field; auto). rewrite IS. reflexivity. }
  destruct (turned a (T 1%nat 0%nat / cos u) (T 0%nat 0%nat / cos u) s Hs) as (A1 & A2 & A3).
  { rewrite (FK 1%nat 0%nat) by lia. cbn [of_rows nth]. apply Q. } { rewrite (FK 0%nat 0%nat) by lia. cbn [of_rows nth]. apply Q. }
  destruct (turned c (T 2%nat 1%nat / cos u) (T 2%nat 2%nat / cos u) s Hs) as (C1 & C2 & C3).
  { rewrite (FK 2%nat 1%nat) by lia. cbn [of_rows nth]. apply Q. } { rewrite (FK 2%nat 2%nat) by lia. cbn [of_rows nth]. apply Q. }
  fold (first_of T u) in A1, A2, A3. fold (third_of T u) in C1, C2, C3.
  rewrite (FK 1%nat 0%nat) in A1 by lia. rewrite (FK 0%nat 0%nat) in A2 by lia. rewrite (FK 2%nat 1%nat) in C1 by lia. rewrite (FK 2%nat 2%nat) in C2 by lia. cbn [of_rows nth] in A1, A2, C1, C2. rewrite Q in A1, A2, C1, C2.
  split.
  - refine (meq_trans _ _ _ (FK80 _ _ _) _). rewrite A1, A2, C1, C2, Su, Cs. clear - FK SS. intros i j Hi Hj. rewrite (FK i j Hi Hj).
    destruct i as [|[|[|[|i]]]]; try (exfalso; lia); destruct j as [|[|[|[|j]]]]; try (exfalso; lia); cbn [of_rows nth]; try reflexivity;
    match goal with |- ?l = ?r => transitivity ((s * s) * r); [ring|rewrite SS; ring] || (transitivity r; [|reflexivity]) end;
    first [ring | match goal with |- ?l = ?p - ?q => transitivity ((s * s) * p - (s * s) * q); [ring|rewrite SS; ring] end | match goal with |- ?l = ?p + ?q => transitivity ((s * s) * p + (s * s) * q); [ring|rewrite SS; ring] end].
  - intros H. assert (s = 1) by auto. split; [auto|]. split; [|auto]. apply cong_iff. auto.
Qed.

(** * The program *)
Local Notation runW := (main sympyP always show0 tex0 (fun _ => arg0) s_edges (fun _ => mats0) (fun t => t) vars77 robot_params (@cons string "ikSolver.py" (@nil string)) Finish).
Local Notation firstW := (as_first sympyP always show0 tex0 (fun _ => arg0) s_edges (fun _ => mats0) (fun t => t) vars77 robot_params (@cons string "ikSolver.py" (@nil string))).
Lemma described80 : robot_params "Wrist" = Described r_Wrist (number_from 1 (rd_vars r_Wrist)). Proof. vm_compute. reflexivity. Qed.
Lemma ends80 : snd (runW empty_dir) = Finished true. Proof. vm_compute. reflexivity. Qed.
Lemma nine80 : (List.length (rd_vars r_Wrist) <= 9)%nat. Proof. apply Nat.leb_le. vm_compute. reflexivity. Qed.
Lemma stops80 guard p m : option_map assigns (Some p) = Some stmts80 -> m "Bs1" = None -> ikin guard p m = None.
Proof.
  intros E M. unfold ikin. rewrite run_assigns. cbn [option_map] in E. apply some_inj in E. rewrite E. clear E. unfold stmts80.
  assert (Ov : forall y x m', m' "Bs1" = None -> pyeval m' (over y x "Bs1") = None).
  { intros y x m' H. unfold over. cbn [pyeval]. rewrite H. destruct (m' y); auto. }
  assert (AG : forall st x, p_vars st "Bs1" = None -> x <> "Bs1" -> forall q st', k_lhs q = Sym x -> assign st q = Some st' -> p_vars st' "Bs1" = None).
  { intros st x H N q st' L A. unfold assign in A. rewrite L in A. destruct (pyeval _ _); [|discriminate]. injection A as <-. cbn [p_vars]. unfold pset. destruct (String.eqb_spec "Bs1" x); auto. subst x. contradiction. }
  assert (C : forall st, p_vars st "Bs1" = None -> assign st (Keq (Sym "Cv1") (over "r_32" "r_33" "Bs1")) = None) by (intros st H; unfold assign; cbn [k_lhs k_rhs]; rewrite Ov by exact H; reflexivity).
  assert (G2 : forall st r, p_vars st "Bs1" = None -> run_py guard (Assign (Keq (Sym "Cv1") (over "r_32" "r_33" "Bs1")) :: r) st = None) by (intros st r H; cbn [run_py]; rewrite C by exact H; reflexivity).
  assert (GG : forall x q r, x <> "Bs1" -> k_lhs q = Sym x -> (forall st, p_vars st "Bs1" = None -> run_py guard r st = None) -> forall st, p_vars st "Bs1" = None -> run_py guard (Guarded guard80 q :: r) st = None).
  { intros x q r N L K st H. cbn [run_py]. destruct (p_ok st).
    - destruct (guard guard80 (p_vars st)) as [[]|]; [apply K; exact H| |reflexivity]. destruct (assign st q) as [st'|] eqn:A; [|reflexivity]. apply K. exact (AG st x H N q st' L A).
    - destruct (assign st q) as [st'|] eqn:A; [|reflexivity]. apply K. exact (AG st x H N q st' L A). }
  apply (GG "Bv1" (Keq (Sym "Bv1") asin80)); [discriminate|reflexivity| |exact M]. apply (GG "Bv2" (Keq (Sym "Bv2") asin80)); [discriminate|reflexivity|]. intros st H. exact (G2 st _ H).
Qed.
(** What is returned when the caller defines Bs1 and Bs2. *)
Lemma called80 guard p a b c b1 b2 : option_map assigns (Some p) = Some stmts80 -> right_guard guard -> cos b1 <> 0 -> cos b2 <> 0 -> let T := reached a b c in
  ikin guard p (pset (pset (pose_env T) "Bs1" b1) "Bs2" b2) = Some (Solutions [[first_of T b1; b1; third_of T b1]; [first_of T b2; b2; third_of T b2]]).
Proof.
  intros E G N1 N2 T. refine (runs80 guard p _ (T 2%nat 0%nat) (T 2%nat 1%nat) (T 2%nat 2%nat) (T 1%nat 0%nat) (T 0%nat 0%nat) b1 b2 E G _ eq_refl eq_refl eq_refl eq_refl eq_refl eq_refl eq_refl N1 N2).
  unfold T. rewrite (FK80 a b c 2%nat 0%nat) by lia. cbn [of_rows nth]. assert (X := SIN_bound b). lra.
Qed.
Lemma asin80_values b : let u := asin (- - sin b) in sin u = sin b /\ cos u = Rabs (cos b) /\ sin (PI - u) = sin b /\ cos (PI - u) = - Rabs (cos b).
Proof.
  cbv zeta. rewrite Ropp_involutive. assert (B := SIN_bound b). assert (S : sin (asin (sin b)) = sin b) by (apply sin_asin; lra).
  assert (C : cos (asin (sin b)) = Rabs (cos b)). { rewrite cos_asin by lra. rewrite <- sqrt_Rsqr_abs. f_equal. assert (P := sin2_cos2 b). unfold Rsqr in *. lra. }
  split; [exact S|]. split; [exact C|]. split. - rewrite <- sin_PI_x in S. exact S. - replace (PI - asin (sin b)) with (- (asin (sin b)) + PI) by ring. rewrite neg_cos, cos_neg, C. reflexivity.
Qed.
(** ikSolver.py without arguments, in a directory where it behaves as on its first run (C77): it ends well, and the Python file it leaves contains a function that
    - raises for every pose when it is called as it is;
    - if the caller defines Bs1 and Bs2 as the two solutions the report gives for B, returns, for the pose of every joint vector (a, b, c) with cos b <> 0, two vectors: both reach the pose, and one
      of them is (a, b, c) up to full turns;
    - but if Bs1 and Bs2 get the values that the function itself computes for the two versions of B, Bv1 and Bv2, it returns one vector twice: the version equations of the Wrist use the first
      solution of B in both rows, because C and A have one solution.  Then no joint vector with cos b < 0 is returned. *)
Theorem C80_default_robot f : firstW f -> snd (runW f) = Finished true /\ exists rb p, python_program show0 (fst (runW f)) "Wrist" rb p
  /\ (exists q1 q2, r_eqns rb = [q1; q2] /\ In (Keq (Sym "Bv1") asin80) q1 /\ In (Keq (Sym "Bv2") asin80) q2)
  /\ forall guard, right_guard guard -> forall a b c, cos b <> 0 -> let T := reached a b c in let u := asin (- T 2%nat 0%nat) in
       ikin guard p (pose_env T) = None
       /\ (exists v1 v2, ikin guard p (pset (pset (pose_env T) "Bs1" u) "Bs2" (PI + - u)) = Some (Solutions [v1; v2])
            /\ (forall v, In v [v1; v2] -> exists x y z, v = [x; y; z] /\ Meq 4 (reached x y z) T) /\ exists x y z, In [x; y; z] [v1; v2] /\ cong x a /\ cong y b /\ cong z c)
       /\ exists x y z, ikin guard p (pset (pset (pose_env T) "Bs1" u) "Bs2" u) = Some (Solutions [[x; y; z]; [x; y; z]]) /\ Meq 4 (reached x y z) T /\ (cos b < 0 -> ~ cong y b).
Proof.
  intros A. assert (E : snd (runW f) = Finished true) by exact (eq_trans (proj1 A) ends80). split; [exact E|].
  destruct (C78_files sympyP always show0 tex0 (fun _ => arg0) s_edges (fun _ => mats0) (fun t => t) vars77 sympyP_ok robot_params (@cons string "ikSolver.py" (@nil string)) "Wrist" r_Wrist _ f true eq_refl described80 nine80 A E) as (s0 & s & S & I0 & H).
  destruct (eP_only s0 s true S) as (_ & E1 & _). rewrite E1 in H. clear S I0 E1 s.
  destruct (H orderly80) as (ts & m & ps & pv & F & rep & py & cc & _ & Fs). clear H.
  destruct (program_of show0 tex0 (fun _ => arg0) s_edges (fun _ => mats0) (fun t => t) vars77 (fun t x => iff_refl _) _ _ _ _ _ _ _ _ _ _ Fs) as (p & B & P & _). cbv beta in B, P.
  assert (EF : F80 = F). { apply some_inj. rewrite <- versions80. exact (proj1 Fs). } rewrite <- EF in B, P. clear EF Fs.
  exists (Robot "Wrist" ps pv (final_nodes arg0 eP) F80), p. split; [exact P|]. split.
  { eexists _, _. split; [reflexivity|]. split; left; reflexivity. }
  assert (ST := body80 ps pv). rewrite B in ST. clear B P E A. intros guard G a b c N T u.
  assert (U : - T 2%nat 0%nat = - - sin b). { unfold T. rewrite (FK80 a b c 2%nat 0%nat) by lia. reflexivity. }
  destruct (asin80_values b) as (S1 & C1 & S2 & C2). unfold u. rewrite U. clear u U. set (u := asin (- - sin b)) in *.
  assert (Pos : 0 < Rabs (cos b)) by (apply Rabs_pos_lt; exact N). assert (N1 : cos u <> 0) by (rewrite C1; lra). assert (N2 : cos (PI + - u) <> 0) by (change (PI + - u) with (PI - u); rewrite C2; lra).
  assert (V1 : cos u = cos b \/ cos u = - cos b). { rewrite C1. unfold Rabs. destruct (Rcase_abs (cos b)); auto. }
  assert (V2 : cos (PI - u) = cos b \/ cos (PI - u) = - cos b). { rewrite C2. unfold Rabs. destruct (Rcase_abs (cos b)); [left|right]; ring. }
  destruct (branch a b c u N S1 V1) as (R1 & K1). destruct (branch a b c (PI - u) N S2 V2) as (R2 & K2). fold T in R1, K1, R2, K2.
  split. { apply stops80; [exact ST|reflexivity]. }
  split.
  - eexists _, _. split. { exact (called80 guard p a b c u (PI + - u) ST G N1 N2). } fold T. change (PI + - u) with (PI - u). split.
    + intros v [<-|[<-|[]]]; eexists _, _, _; (split; [reflexivity|assumption]).
    + destruct (Rcase_abs (cos b)) as [L|L].
      * exists (first_of T (PI - u)), (PI - u), (third_of T (PI - u)). split; [right; left; reflexivity|]. apply K2. rewrite C2, Rabs_left by exact L. ring.
      * exists (first_of T u), u, (third_of T u). split; [left; reflexivity|]. apply K1. rewrite C1, Rabs_right by exact L. ring.
  - eexists _, _, _. split. { exact (called80 guard p a b c u u ST G N1 N1). } fold T. split; [exact R1|]. intros L K. apply cong_cos in K. rewrite C1 in K. lra.
Qed.
(** In particular the first time, and after every history that C77 allows. *)
Corollary C80_first_time : firstW empty_dir.
Proof. exact (C77_first_run sympyP always show0 tex0 (fun _ => arg0) s_edges (fun _ => mats0) (fun t => t) vars77 robot_params (@cons string "ikSolver.py" (@nil string)) "Wrist" r_Wrist _ empty_dir eq_refl described80 eq_refl). Qed.
Corollary C80_any_time f0 es : d_cache f0 "Wrist" = Absent -> consistent "Wrist" (request_of "Wrist" r_Wrist) es -> (forall e, In e es -> ~ cut_short "Wrist" e) ->
  firstW (history sympyP always show0 tex0 (fun _ => arg0) s_edges (fun _ => mats0) (fun t => t) vars77 f0 es).
Proof.
  intros A C K. refine (C77_available sympyP always show0 tex0 (fun _ => arg0) s_edges (fun _ => mats0) (fun t => t) vars77 robot_params (@cons string "ikSolver.py" (@nil string)) "Wrist" r_Wrist _ f0 es eq_refl described80 A C _ K).
  unfold odd_alpha. intros H. apply H. vm_compute. reflexivity.
Qed.
(** a guard that evaluates the test as Python does, and a pose whose joint vector is lost *)
Example C80_lost_example : (exists guard, right_guard guard) /\ cos PI <> 0 /\ cos PI < 0.
Proof.
  split; [|rewrite cos_PI; split; lra]. exists (fun g m => match m "r_31" with Some x => Some (if Rlt_dec 1 (Rabs ((x + - 0) / - (1))) then true else false) | None => None end).
  intros m x H. rewrite H. reflexivity.
Qed.
Print Assumptions C80_default_robot. Print Assumptions C80_any_time.
