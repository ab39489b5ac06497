(** C70, continued: the function generated after any run of the solver.  What it returns satisfies the reported equations (C69), and every joint
    vector is in it (C66). *)
From Coq Require Import Reals ZArith List String Ascii Bool Arith Lia Lra Permutation Sorted.
From Verif Require Import Expr Kin KinSpec Trig Solver SolverSpec SolverFacts SolverInv Sympy0 PropLists PropSolvers PropSolversEx SolverHist HistFacts PropHist PropHistEx PropCrash PropCrashEx
  SolSet SolSetFacts PropSolSet SolSetEx CodeGen PropCodeGen CodeGenEx PropEmit PropRows PropRowsEx PropExplain PropExplainEx PropSound PyRun PropPyRun.
Import ListNotations.
Local Open Scope string_scope.
Local Open Scope list_scope.
Local Open Scope nat_scope.

(** A pose at which a listed version's solution is not defined (an asin argument outside [-1,1], a division by zero) makes the function raise: it does
    not return False. *)
Theorem C70_unreachable_raises guard show rb groups p m F g x q : let nodes := r_nodes rb in
  handed_over nodes -> NoDup (names_of nodes) -> version_free (names_of nodes) -> inputs_free nodes -> make_LHS_versions nodes (create_solution_set nodes) = Some F -> r_eqns rb = F ->
  (forall g, In g groups <-> In g (create_solution_set nodes)) -> body show rb groups = Some p -> first_defined nodes m ->
  In g groups -> In x g -> in_matrix F q -> k_lhs q = Sym x -> (forall y, has y (k_rhs q) = true -> m y <> None) -> pyeval m (k_rhs q) = None -> ikin guard p m = None.
Proof.
  intros nodes H N Vf If HF EF G B M Hg Hx Hq El Hy Hn. destruct (ikin guard p m) as [res|] eqn:R; auto. exfalso.
  destruct (C70_returns guard show rb groups p m F res H N Vf If HF EF G B M R) as (out & T & _ & D & _). rewrite (pyeval_some m out T _ Hy (D g x q Hg Hx Hq El)) in Hn. discriminate.
Qed.

(** * The order of the values *)
(** the values of the unknowns, in a given order of the unknowns *)
Definition vector (names : list string) (order : list nat) (theta : env) : list R := map (fun c => theta (nth c names "")) order.
Lemma row_vector nodes order r out : handed_over nodes -> NoDup (names_of nodes) -> Permutation order (seq 0 (List.length nodes)) -> In r (create_solution_set nodes) ->
  sort r = map (fun c => nth c r "") order -> map out (sort r) = vector (names_of nodes) order (through (names_of nodes) r out).
Proof.
  intros H N P Hr ->. unfold vector. rewrite map_map. apply map_ext_in. intros c Hc. apply (Permutation_in _ P) in Hc. apply in_seq in Hc.
  assert (L := C42_rectangular nodes r H Hr). destruct (nth_error_ex nodes c) as (n & Hn); [lia|]. destruct (nth_error_ex r c) as (v & Hv); [lia|].
  assert (Hx : nth_error (names_of nodes) c = Some (n_name n)) by (unfold names_of; rewrite nth_error_map, Hn; auto).
  rewrite (nth_error_nth _ _ "" Hv), (nth_error_nth _ _ "" Hx). symmetry. apply (through_at _ _ _ c); auto.
Qed.

Section Hist.
Context (sy : sympy) (HOK : sympy_ok sy) (HCO : forall a, no_new_symbols (sy_coeff sy a)).
(** what is handed to the generator after a run of the solver that ended in state s *)
Definition generated_from (s : state) (arg : nat -> expr) (rb : robot) (groups : list row) (F : list (list kequation)) : Prop :=
  r_nodes rb = final_nodes arg s /\ make_LHS_versions (final_nodes arg s) (create_solution_set (final_nodes arg s)) = Some F /\ r_eqns rb = F
  /\ forall g, In g groups <-> In g (create_solution_set (final_nodes arg s)).
(** the names of the solved unknowns, in the order in which they were solved *)
Definition solved_names (s : state) : list string := map (fun j => u_sym (un s j)) (s_nodes s).
Definition well_named (s : state) : Prop :=
  NoDup (map (fun j => u_sym (un s j)) (s_unks s)) /\ version_free (solved_names s) /\ (forall a b, In a (solved_names s) -> In b (solved_names s) -> digit_ext a b)
  /\ forall j, In j (s_nodes s) -> ~ mentions s j j.

Lemma common s0 ts s arg i l rb groups F : initial sy s0 -> runs1 sy s0 ts s -> s_nodes s = i :: l -> well_named s -> generated_from s arg rb groups F ->
  handed_over (final_nodes arg s) /\ names_of (final_nodes arg s) = solved_names s /\ NoDup (solved_names s).
Proof.
  intros I R En (Nd & Vf & Dg & Ns) _. destruct (C42_reachable sy s0 ts s arg i l I R En) as (Ho & _ & _ & Nn). { apply Ns. rewrite En. left; auto. }
  assert (Names : names_of (final_nodes arg s) = solved_names s). { unfold names_of, final_nodes, solved_names. rewrite map_map. apply map_ext. reflexivity. }
  split; auto. split; auto. rewrite <- Names. auto.
Qed.
(** The list the function returns, if it returns one: the vectors of all rows, each listing the unknowns in one and the same order; at each, the unknowns
    answer the equations reported for them, with the given values of all other symbols. *)
Theorem C70_returned_vectors s0 ts s arg i l rb groups F guard show p m L : initial sy s0 -> runs1 sy s0 ts s -> s_nodes s = i :: l -> well_named s -> generated_from s arg rb groups F ->
  inputs_free (final_nodes arg s) -> body show rb groups = Some p -> first_defined (final_nodes arg s) m -> ikin guard p m = Some (Solutions L) ->
  exists order, Permutation order (seq 0 (List.length (s_nodes s))) /\ List.length L = List.length groups /\
    forall v, In v L -> exists theta, v = vector (solved_names s) order theta /\ (forall x a, m x = Some a -> ~ In x (solved_names s) -> theta x = a) /\ forall j, In j (s_nodes s) -> answers (un s j) theta.
Proof.
  intros I R En W Gf If B M Rn. destruct (common s0 ts s arg i l rb groups F I R En W Gf) as (Ho & Names & Nn). destruct W as (Nd & Vf & Dg & Ns). destruct Gf as (G1 & G2 & G3 & G4).
  destruct (C44_same_order (final_nodes arg s) Ho) as (order & P & _ & S). { rewrite Names. split; auto. }
  assert (K := C70_returns guard show rb groups p m F (Solutions L)). cbv zeta in K. rewrite G1, Names in K. destruct (K Ho Nn Vf If G2 G3 G4 B M Rn) as (out & T & X & _ & [E|E]); [discriminate|]. injection E as ->.
  assert (Ll : List.length (final_nodes arg s) = List.length (s_nodes s)) by (unfold final_nodes; apply map_length). exists order. split. { rewrite <- Ll. auto. } split. { apply map_length. }
  intros v Hv. apply in_map_iff in Hv as (g & <- & Hg). apply G4 in Hg. exists (through (solved_names s) g out). split.
  - rewrite <- Names. apply row_vector; auto. rewrite Names. auto.
  - split. { intros x a Hx Nx. rewrite through_out by auto. apply T. auto. }
    intros j Hj. rewrite <- Names. apply (C69_row_answers sy HOK HCO s0 ts s arg i l F out g j); auto.
Qed.
(** And it contains every joint vector that reaches the pose: any assignment rho that satisfies the equations, whose inputs are those the function
    was called with, under the conditions of C66. *)
Theorem C70_contains s0 ts s rho A arg i l rb groups F guard show p m L : initial sy s0 -> sat rho s0 -> soa_ok rho -> runs1 sy s0 ts s -> s_nodes s = i :: l -> well_named s -> generated_from s arg rb groups F ->
  inputs_free (final_nodes arg s) -> body show rb groups = Some p -> first_defined (final_nodes arg s) m -> ikin guard p m = Some (Solutions L) ->
  (forall j e x, In j (s_nodes s) -> In e (solutions (un s j)) -> has x e = true -> ~ In x (solved_names s) -> m x = Some (rho x)) ->
  numbers_fit (map (fun j => u_nsol (un s j)) (s_nodes s)) ->
  (forall j, In j (s_nodes s) -> all_defd rho (solutions (un s j))
     /\ (~ In (u_sym (un s j)) A -> by_algebra sy s0 s j) /\ forall e, In e (solutions (un s j)) -> free_of_turns A (u_sym (un s j)) e) ->
  incl A (solved_names s) ->
  exists order, Permutation order (seq 0 (List.length (s_nodes s))) /\ exists theta, In (vector (solved_names s) order theta) L /\ forall x, In x (solved_names s) -> matches A x (theta x) (rho x).
Proof.
  intros I Sa So R En W Gf If B M Rn Inp Nf H IA. destruct (common s0 ts s arg i l rb groups F I R En W Gf) as (Ho & Names & Nn). destruct W as (Nd & Vf & Dg & Ns). destruct Gf as (G1 & G2 & G3 & G4).
  destruct (C44_same_order (final_nodes arg s) Ho) as (order & P & _ & S). { rewrite Names. split; auto. }
  assert (K := C70_returns guard show rb groups p m F (Solutions L)). cbv zeta in K. rewrite G1, Names in K. destruct (K Ho Nn Vf If G2 G3 G4 B M Rn) as (out & T & X & _ & [E|E]); [discriminate|]. injection E as ->.
  assert (Ll : List.length (final_nodes arg s) = List.length (s_nodes s)) by (unfold final_nodes; apply map_length). exists order. split. { rewrite <- Ll. auto. }
  assert (H' : forall j, In j (s_nodes s) -> ~ mentions s j j /\ all_defd rho (solutions (un s j))
     /\ (~ In (u_sym (un s j)) A -> by_algebra sy s0 s j) /\ forall e, In e (solutions (un s j)) -> free_of_turns A (u_sym (un s j)) e). { intros j Hj. split; auto. }
  destruct (C66_history sy s0 ts s rho A arg i l HOK I Sa So R En Nd Vf Nf H' IA) as (F' & EF & Rows).
  assert (F' = F) by congruence. subst F'. destruct (Rows out X) as (r & Hr & Ma). { intros j e x Hj He Hh Hx. apply T. apply (Inp j e x); auto. }
  exists (through (solved_names s) r out). split.
  - rewrite <- Names, <- row_vector; auto. apply (in_map (fun g => map out (sort g))). apply G4. auto. rewrite Names. auto.
  - intros x Hx. unfold solved_names in Hx. apply in_map_iff in Hx as (j & <- & Hj). rewrite <- Names. apply Ma. auto.
Qed.
End Hist.

(** * An example: Px = l_1 sin th_1, Py = sin th_1 cos th_2 (PropRowsEx.v), four rows *)
Local Open Scope R_scope.
Definition px66 : expr := Div (Sub (Sym "Px") (Num 0)) (Sym "l_1").
Definition py66 (x : string) : expr := Div (Sub (Sym "Py") (Num 0)) (Sin (Sym x)).
Definition F66 : list (list kequation) :=
  [[Keq (Sym "th_1v1") (Asin px66); Keq (Sym "th_2v1") (Acos (py66 "th_1s1"))]; [Keq (Sym "th_1v2") (Sub PiE (Asin px66)); Keq (Sym "th_2v2") (Neg (Acos (py66 "th_1s2")))];
   [Keq (Sym "th_1v3") (Asin px66); Keq (Sym "th_2v3") (Acos (py66 "th_1s2"))]; [Keq (Sym "th_1v4") (Sub PiE (Asin px66)); Keq (Sym "th_2v4") (Neg (Acos (py66 "th_1s1")))]].
Definition groups66 : list row := [["th_1s1"; "th_2v1"]; ["th_1s2"; "th_2v2"]; ["th_1s2"; "th_2v3"]; ["th_1s1"; "th_2v4"]].
Definition rb66 : robot := Robot "ex" [] false (final_nodes arg0 end66) F66.
Lemma gen66 : generated_from end66 arg0 rb66 groups66 F66.
Proof.
  assert (T : create_solution_set (final_nodes arg0 end66) = groups66) by (vm_compute; reflexivity).
  split; [reflexivity|]. split; [vm_compute; reflexivity|]. split; [reflexivity|]. intros g. rewrite T. reflexivity.
Qed.
Lemma nodes66 : exists n0 n1, final_nodes arg0 end66 = [n0; n1] /\ (n_name n0 = "th_1" /\ n_order n0 = 1%nat /\ n_sols n0 = [Asin px66; Sub PiE (Asin px66)])
  /\ n_name n1 = "th_2" /\ n_order n1 = 2%nat /\ n_sols n1 = [Acos (py66 "th_1"); Neg (Acos (py66 "th_1"))].
Proof. exists (node_of arg0 end66 0), (node_of arg0 end66 1). vm_compute. auto 10. Qed.
(** the function called on the pose of (a, b), with l_1 = 1, after the names of the first unknown's solutions have been given their values *)
Definition m66 (a b : R) : penv := fun s => if String.eqb s "Px" then Some (sin a) else if String.eqb s "Py" then Some (sin a * cos b) else if String.eqb s "l_1" then Some 1
  else if String.eqb s "th_1s1" then Some (asin ((sin a + - 0) / 1)) else if String.eqb s "th_1s2" then Some (PI + - asin ((sin a + - 0) / 1)) else None.
Definition base66 (a b : R) : env := fun s => match m66 a b s with Some v => v | None => 0 end.
Definition out66 (a b : R) : env := fun s =>
  if String.eqb s "th_1v1" then eval (base66 a b) (Asin px66) else if String.eqb s "th_1v2" then eval (base66 a b) (Sub PiE (Asin px66))
  else if String.eqb s "th_1v3" then eval (base66 a b) (Asin px66) else if String.eqb s "th_1v4" then eval (base66 a b) (Sub PiE (Asin px66))
  else if String.eqb s "th_2v1" then eval (base66 a b) (Acos (py66 "th_1s1")) else if String.eqb s "th_2v2" then eval (base66 a b) (Neg (Acos (py66 "th_1s2")))
  else if String.eqb s "th_2v3" then eval (base66 a b) (Acos (py66 "th_1s2")) else if String.eqb s "th_2v4" then eval (base66 a b) (Neg (Acos (py66 "th_1s1"))) else base66 a b s.
Definition free_guard (g : string) (m : penv) : option bool := Some false.
Definition p66 : list stmt := match body show0 rb66 groups66 with Some p => p | None => [] end.
Lemma body66 : body show0 rb66 groups66 = Some p66.
Proof. assert (E : (if body show0 rb66 groups66 then true else false) = true) by (vm_compute; reflexivity). unfold p66. destruct (body show0 rb66 groups66); [reflexivity|discriminate]. Qed.
Lemma sin66 a : sin (asin ((sin a + - 0) / 1)) = sin a /\ sin (PI + - asin ((sin a + - 0) / 1)) = sin a.
Proof.
  assert (B := SIN_bound a). assert (E : sin (asin ((sin a + - 0) / 1)) = sin a). { replace ((sin a + - 0) / 1) with (sin a) by field. apply sin_asin. lra. }
  split; auto. replace (PI + - asin ((sin a + - 0) / 1)) with (PI - asin ((sin a + - 0) / 1)) by ring. rewrite Rtrigo_facts.sin_pi_minus. auto.
Qed.
Lemma named66 : well_named end66 /\ solved_names end66 = ["th_1"; "th_2"].
Proof.
  destruct end66_sols as (Eu & En & N0 & N1 & _ & _). assert (SF : self_free end66 = true) by (vm_compute; reflexivity).
  assert (Nm : forall l, l = [0; 1]%nat -> map (fun j => u_sym (un end66 j)) l = ["th_1"; "th_2"]). { intros l ->. cbn [map]. rewrite N0, N1. reflexivity. }
  assert (Sn : solved_names end66 = ["th_1"; "th_2"]) by (apply Nm, En). split; auto. split; [|split; [|split]].
  - rewrite (Nm _ Eu). repeat constructor; cbn; intuition discriminate.
  - rewrite Sn. apply names_ok_th. intros x [<-|[<-|[]]]; reflexivity.
  - rewrite Sn. clear. intros a b Ha Hb x rest E. destruct Ha as [<-|[<-|[]]], Hb as [<-|[<-|[]]]; discriminate E.
  - intros j Hj. apply (self_free_ok _ SF). rewrite Eu. rewrite En in Hj. exact Hj.
Qed.
Lemma first66 a b : first_defined (final_nodes arg0 end66) (m66 a b).
Proof.
  destruct nodes66 as (n0 & n1 & -> & (A1 & A2 & A3) & B1 & B2 & B3). split.
  - intros n ns k e E He. injection E as <- <-. rewrite A3 in He. rewrite A1. assert (B := SIN_bound a).
    assert (V : pyeval (m66 a b) (Asin px66) = Some (asin ((sin a + - 0) / 1))).
    { cbn [pyeval px66 Sub m66 String.eqb Ascii.eqb Bool.eqb]. destruct (Req_EM_T 1 0); [lra|]. destruct (Rle_dec (-1) ((sin a + - 0) / 1)); [|lra]. destruct (Rle_dec ((sin a + - 0) / 1) 1); [reflexivity|lra]. }
    destruct k as [|[|k]]; cbn [nth_error] in He; [| |destruct k; discriminate]; injection He as <-.
    + exists (asin ((sin a + - 0) / 1)). split; [reflexivity|exact V].
    + exists (PI + - asin ((sin a + - 0) / 1)). split; [reflexivity|]. cbn [pyeval Sub]. cbn [pyeval Sub] in V. rewrite V. reflexivity.
  - intros n k Hn. unfold m66.
    assert (Mv := vname_mark (n_name n) k). set (x := vname (n_name n) k) in *. clearbody x.
    repeat (match goal with |- context [String.eqb x ?y] => destruct (String.eqb_spec x y) as [->|_]; [vm_compute in Mv; discriminate|] end). reflexivity.
Qed.
Theorem C70_example a b : sin a <> 0 -> ikin free_guard p66 (m66 a b) = Some (Solutions (map (fun g => map (out66 a b) (sort g)) groups66)).
Proof.
  intros Sa. assert (K := C70_computes free_guard show0 rb66 groups66 p66 (m66 a b) F66 (out66 a b)). cbv zeta in K. change (r_nodes rb66) with (final_nodes arg0 end66) in K.
  destruct end66_tree as (ts & R). destruct named66 as (W & Sn). destruct end66_sols as (_ & En & _). destruct gen66 as (_ & G2 & _ & G4).
  destruct (common sympy0 ex66 ts end66 arg0 0%nat [1%nat] rb66 groups66 F66 (start_initial _ _) R En W gen66) as (Ho & Names & Nn).
  destruct W as (Nd & Vf & _ & Ns). rewrite Names in K.
  assert (Sb := sin66 a). assert (Ba := SIN_bound a). assert (Bb := COS_bound b).
  refine (K Ho Nn Vf _ G2 eq_refl (fun g => proj1 (G4 g)) body66 _ _ (first66 a b) _ _ _ _ _); clear K.
  - apply (nodes_earlier sympy0 ex66 ts end66); auto. exact (start_initial _ _).
  - clear. destruct nodes66 as (n0 & n1 & -> & (A1 & A2 & A3) & B1 & B2 & B3). intros [|[|c]] n Hn; cbn in Hn; [| |destruct c; discriminate]; injection Hn as <-; assumption.
  - clear. destruct nodes66 as (n0 & n1 & -> & _). intros k eqs c n q Hk Hn Hq. unfold py_emits.
    assert (Q : In q (List.concat F66)). { apply in_concat. exists eqs. split; eapply nth_error_In; eauto. }
    clear Hk Hn Hq. cbn [F66 List.concat app In] in Q. repeat (destruct Q as [<-|Q]; [vm_compute; auto|]). destruct Q.
  - clear - Sn. rewrite Sn. destruct nodes66 as (n0 & n1 & -> & (A1 & A2 & A3) & B1 & B2 & B3). intros n e y Hn He Hy Ny.
    assert (SY : syms_in ["th_1"; "th_2"; "Px"; "Py"; "l_1"] e = true). { destruct Hn as [<-|[<-|[]]]; [rewrite A3 in He|rewrite B3 in He]; destruct He as [<-|[<-|[]]]; reflexivity. }
    assert (Hi := syms_in_has _ _ SY y Hy). cbn in Hi, Ny. destruct Hi as [<-|[<-|[<-|[<-|[<-|[]]]]]]; try (exfalso; apply Ny; auto; fail); discriminate.
  - clear. destruct nodes66 as (n0 & n1 & -> & (A1 & A2 & A3) & B1 & B2 & B3). split.
    + intros eqs q He Hq. assert (Q : In q (List.concat F66)) by (apply in_concat; eauto). clear He Hq. cbn [F66 List.concat app In] in Q. repeat (destruct Q as [<-|Q]; [reflexivity|]). destruct Q.
    + intros n ns k e E He. injection E as <- <-. rewrite A1. rewrite A3 in He. destruct k as [|[|k]]; cbn [nth_error] in He; [| |destruct k; discriminate]; injection He as <-; reflexivity.
  - clear. intros x v Hx. unfold out66, base66. unfold m66 in *.
    repeat (match type of Hx with (if String.eqb x ?y then _ else _) = _ => destruct (String.eqb_spec x y) as [->|]; [injection Hx as <-; reflexivity|] end). discriminate.
  - clear - Sa Sb Ba Bb. destruct Sb as [Sb1 Sb2]. intros q (eqs & He & Hq). assert (Q : In q (List.concat F66)) by (apply in_concat; eauto). clear He Hq eqs.
    assert (D1 : in_domain (out66 a b) (Asin px66)). { cbn [in_domain px66 Sub eval]. change (out66 a b "Px") with (sin a). change (out66 a b "l_1") with 1. repeat split; auto; lra. }
    assert (D2 : forall x v, out66 a b x = v -> sin v = sin a -> in_domain (out66 a b) (Acos (py66 x))).
    { intros x v Hx Hv. cbn [in_domain py66 Sub eval]. rewrite Hx. change (out66 a b "Py") with (sin a * cos b). rewrite Hv. repeat split; auto; replace ((sin a * cos b + - 0) / sin a) with (cos b) by (field; auto); lra. }
    assert (D3 := D2 "th_1s1" _ eq_refl Sb1). assert (D4 := D2 "th_1s2" _ eq_refl Sb2).
    cbn [F66 List.concat app In] in Q.
    repeat (destruct Q as [<-|Q]; [cbn [k_rhs]; first [exact D1|exact D3|exact D4|exact (conj I D1)]|]). destruct Q.
  - intros g q m' _ _ _ _. reflexivity.
Qed.
(** The same function as generated, with nothing but the pose and the parameters defined, raises on every pose. *)
Theorem C70_example_raises guard T ps : (forall k, ps (sname "th_1" k) = None) -> ikin guard p66 (fun x => match pose_env T x with Some v => Some v | None => ps x end) = None.
Proof.
  intros Hp. destruct end66_tree as (ts & R). destruct named66 as (W & _). destruct end66_sols as (_ & En & _). destruct gen66 as (_ & G2 & _ & G4).
  destruct (common sympy0 ex66 ts end66 arg0 0%nat [1%nat] rb66 groups66 F66 (start_initial _ _) R En W gen66) as (Ho & _ & _).
  assert (En' : exists n0 n1, final_nodes arg0 end66 = [n0; n1] /\ n_name n0 = "th_1"). { destruct nodes66 as (n0 & n1 & E & (A & _) & _). eauto. }
  destruct En' as (n0 & n1 & E & A). rewrite E in Ho, G2, G4.
  refine (C70_every_pose_raises guard show0 rb66 groups66 p66 T ps n0 [n1] F66 E Ho G2 eq_refl _ (fun g => proj1 (G4 g)) body66 _).
  - exists ["th_1s1"; "th_2v1"]. left. reflexivity.
  - rewrite A. exact Hp.
Qed.
(** C70_contains on it: the list it returns contains the joint vector (a, b). *)
Lemma inputs66 : inputs_free (final_nodes arg0 end66).
Proof.
  unfold inputs_free. destruct nodes66 as (n0 & n1 & -> & (A1 & A2 & A3) & B1 & B2 & B3). cbn [names_of map]. rewrite A1, B1. intros n e y Hn He Hy Ny m k _ ->.
  assert (SY : syms_in ["th_1"; "th_2"; "Px"; "Py"; "l_1"] e = true). { destruct Hn as [<-|[<-|[]]]; [rewrite A3 in He|rewrite B3 in He]; destruct He as [<-|[<-|[]]]; reflexivity. }
  assert (Hi := syms_in_has _ _ SY _ Hy). assert (Mv := vname_mark (n_name m) k). cbn in Hi. destruct Hi as [E|[E|[E|[E|[E|[]]]]]]; rewrite <- E in Mv; vm_compute in Mv; discriminate.
Qed.
Theorem C70_example_contains a b : sin a <> 0 -> exists L theta order, ikin free_guard p66 (m66 a b) = Some (Solutions L) /\ Permutation order (seq 0 2) /\ In (vector ["th_1"; "th_2"] order theta) L /\ cong (theta "th_1") a /\ cong (theta "th_2") b.
Proof.
  intros Sa. assert (Rn := C70_example a b Sa). remember (map (fun g => map (out66 a b) (sort g)) groups66) as L eqn:EL. clear EL. destruct end66_tree as (ts & R). destruct end66_sols as (Eu & En & N0 & N1 & S0 & S1). destruct (rho66_sat a b) as (St & So). destruct (rho66_defd a b Sa) as (D0 & D1).
  destruct named66 as (W & Sn). assert (TF : turns_ok ["th_1"; "th_2"] end66 = true) by (vm_compute; reflexivity).
  assert (K0 : u_nsol (un end66 0) = 2%nat) by (vm_compute; reflexivity). assert (K1 : u_nsol (un end66 1) = 2%nat) by (vm_compute; reflexivity).
  destruct (C70_contains sympy0 sympy0_ok ex66 ts end66 (rho66 a b) ["th_1"; "th_2"] arg0 0%nat [1%nat] rb66 groups66 F66 free_guard show0 p66 (m66 a b) L
    (start_initial _ _) St So R En W gen66 inputs66 body66 (first66 a b) Rn) as (order & P & theta & In1 & Ma).
  - rewrite Sn. intros j e x Hj He Hh Hx. assert (SY : syms_in ["th_1"; "th_2"; "Px"; "Py"; "l_1"] e = true).
    { rewrite En in Hj. destruct Hj as [<-|[<-|[]]]; [rewrite S0 in He|rewrite S1 in He]; destruct He as [<-|[<-|[]]]; reflexivity. }
    assert (Hi := syms_in_has _ _ SY x Hh). clear -Hi Hx. cbn in Hi, Hx. destruct Hi as [<-|[<-|[<-|[<-|[<-|[]]]]]]; try (exfalso; apply Hx; auto; fail); unfold m66, rho66; cbn; f_equal; lra.
  - rewrite En. cbn [map]. rewrite K0, K1. clear. intros k k' [<-|[]] [<-|[]]. split; [reflexivity|]. apply le_n.
  - intros j Hj. assert (Hu : In j (s_unks end66)) by (rewrite Eu; rewrite En in Hj; exact Hj). rewrite En in Hj.
    split. { destruct Hj as [<-|[<-|[]]].
      - rewrite S0. intros e [<-|[<-|[]]]; [exact D0|]. exact (conj I D0).
      - rewrite S1. intros e [<-|[<-|[]]]; exact D1. }
    split. { intros Y. exfalso. apply Y. destruct Hj as [<-|[<-|[]]]; [rewrite N0; left; reflexivity|rewrite N1; right; left; reflexivity]. }
    intros e He. exact (turns_ok_ok _ _ TF j e Hu He).
  - rewrite Sn. apply incl_refl.
  - exists L, theta, order. rewrite Sn in In1, Ma. rewrite En in P. split; [exact Rn|]. split; [exact P|]. split; [exact In1|].
    split. exact (proj1 (Ma "th_1" (or_introl eq_refl)) (or_introl eq_refl)). exact (proj1 (Ma "th_2" (or_intror (or_introl eq_refl))) (or_intror (or_introl eq_refl))).
Qed.
Print Assumptions C70_example_contains.
Print Assumptions C70_unreachable_raises.
Print Assumptions C70_returned_vectors.
Print Assumptions C70_contains.
Print Assumptions C70_example.
Print Assumptions C70_example_raises.
