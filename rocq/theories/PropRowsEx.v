(** Concrete cases for C66. *)
From Coq Require Import Reals ZArith List String Ascii Bool Arith Lia Lra.
From Verif Require Import Expr Kin KinSpec KinFacts PropKin Trig Solver SolverSpec SolverFacts SolverInv Sympy0 PropLists SolverHist HistFacts PropHist PropSolvers PropSolversEx PropHistEx PropComplete Soa SoaFacts PropSoa PropEndToEnd EndToEndEx SolSet SolSetFacts PropSolSet SolSetEx PropRobots PropRows.
Import ListNotations.
Local Open Scope string_scope.
Local Open Scope list_scope.
Local Open Scope nat_scope.

(** running a list of tasks; which of them reported success, and the state reached *)
Fixpoint track (sy : sympy) (s : state) (ts : list task) : option (list (task * bool) * state) :=
  match ts with
  | [] => Some ([], s)
  | t :: r =>
      let stale := match t, s_curr s with TScTan, Some i => u_solved (un s i) && u_tanable (un s i) | _, _ => false end in
      if stale then None else
      match run_task sy t s with Raise => None | OK b s1 => match track sy s1 r with Some (l, e) => Some ((t, b) :: l, e) | None => None end end
  end.
Lemma track_runs1 sy : forall ts s l e, track sy s ts = Some (l, e) -> runs1 sy s l e.
Proof.
  induction ts as [|t ts IH]; intros s l e H; cbn [track] in H. { injection H as <- <-. constructor. }
  set (stale := match t, s_curr s with TScTan, Some i => u_solved (un s i) && u_tanable (un s i) | _, _ => false end) in *.
  destruct stale eqn:N; [discriminate|]. destruct (run_task sy t s) as [b s1|] eqn:E; [|discriminate]. destruct (track sy s1 ts) as [(l' & e')|] eqn:T; [|discriminate]. injection H as <- <-.
  apply (runs1_cons sy s t b s1); auto. intros -> i Hc Sv. unfold stale in N. rewrite Hc, Sv in N. exact N.
Qed.
Fixpoint syms_in (l : list string) (e : expr) : bool :=
  match e with
  | Sym x => memb x l
  | Add a b | Mul a b | Div a b | Atan2 a b => syms_in l a && syms_in l b
  | Neg a | Pow a _ | Asin a | Acos a | Sqrt a | Sin a | Cos a => syms_in l a
  | _ => true
  end.
Lemma syms_in_has l e : syms_in l e = true -> forall x, has x e = true -> In x l.
Proof.
  induction e; cbn [syms_in has]; intros H x Hx; try discriminate; auto.
  all: try (apply andb_true_iff in H as (? & ?); apply orb_true_iff in Hx as [?|?]; auto; fail).
  apply String.eqb_eq in Hx as ->. apply memb_in; auto.
Qed.
(** the checks on a final state, by computation *)
Definition self_free (s : state) : bool := forallb (fun j => negb (existsb (has (u_sym (un s j))) (solutions (un s j)))) (s_unks s).
Definition turns_ok (A : list string) (s : state) : bool := forallb (fun j => forallb (if memb (u_sym (un s j)) A then whole A else exactly A) (solutions (un s j))) (s_unks s).
Lemma self_free_ok s : self_free s = true -> forall j, In j (s_unks s) -> ~ mentions s j j.
Proof.
  unfold self_free. intros H j Hj (e & He & Hh). rewrite forallb_forall in H. apply H in Hj. apply negb_true_iff in Hj.
  assert (X : existsb (has (u_sym (un s j))) (solutions (un s j)) = true); [|rewrite X in Hj; discriminate]. apply existsb_exists. exists e. split; auto.
Qed.
Lemma turns_ok_ok A s : turns_ok A s = true -> forall j e, In j (s_unks s) -> In e (solutions (un s j)) -> free_of_turns A (u_sym (un s j)) e.
Proof.
  unfold turns_ok. intros H j e Hj He. rewrite forallb_forall in H. apply H in Hj. rewrite forallb_forall in Hj. apply Hj in He. clear H Hj. destruct (memb (u_sym (un s j)) A) eqn:M.
  - apply memb_in in M. split; intros X. apply whole_periodic; auto. contradiction.
  - split; intros X. apply memb_in in X. rewrite X in M. discriminate. apply exactly_steady; auto.
Qed.

(** ** Two unknowns with two solutions each: Px = l_1 sin th_1, Py = sin th_1 cos th_2 *)
Definition ex66 := start ["th_1"; "th_2"] (meq (fun i j => match i, j with 0, 3 => (Sym "Px", Mul (Sym "l_1") (Sin (Sym "th_1"))) | 1, 3 => (Sym "Py", Mul (Sin (Sym "th_1")) (Cos (Sym "th_2"))) | _, _ => (Num 0, Num 0) end)%nat).
Definition end66 := state_of (ik_solve sympy0 ex66) ex66.
Definition rho66 (a b : R) : env := fun s => if String.eqb s "th_1" then a else if String.eqb s "th_2" then b else if String.eqb s "l_1" then 1%R else if String.eqb s "Px" then sin a
  else if String.eqb s "Py" then (sin a * cos b)%R else if String.eqb s "th_12" then (a + b)%R else if String.eqb s "th_23" then b else if String.eqb s "th_123" then (a + b)%R
  else if String.eqb s "th_234" then b else 0%R.
Lemma end66_ok : ik_solve sympy0 ex66 = OK true end66.
Proof. apply ok_true. vm_compute. reflexivity. Qed.
Lemma end66_sols : s_unks end66 = [0; 1] /\ s_nodes end66 = [0; 1] /\ u_sym (un end66 0) = "th_1" /\ u_sym (un end66 1) = "th_2"
  /\ solutions (un end66 0) = (let t := Div (Sub (Sym "Px") (Num 0)) (Sym "l_1") in [Asin t; Sub PiE (Asin t)])
  /\ solutions (un end66 1) = (let t := Div (Sub (Sym "Py") (Num 0)) (Sin (Sym "th_1")) in [Acos t; Neg (Acos t)]).
Proof. vm_compute. auto 10. Qed.
Lemma end66_tree : exists ts, runs1 sympy0 ex66 ts end66.
Proof.
  apply (C23_shipped_tree sympy0 ex66 true). apply start_initial. apply end66_ok. intros i l H. destruct end66_sols as (E & _). rewrite E in H. injection H as <- _. vm_compute. reflexivity.
Qed.
Local Open Scope R_scope.
Lemma rho66_sat a b : sat (rho66 a b) ex66 /\ soa_ok (rho66 a b).
Proof.
  split.
  - split.
    + intros M HM i j Hi Hj.
      change (s_meqs ex66) with [meq (fun i j => match i, j with 0, 3 => (Sym "Px", Mul (Sym "l_1") (Sin (Sym "th_1"))) | 1, 3 => (Sym "Py", Mul (Sin (Sym "th_1")) (Cos (Sym "th_2"))) | _, _ => (Num 0, Num 0) end)%nat] in HM.
      destruct HM as [<-|[]]. unfold ok_at, holds, meq. cbn [me_Td me_Ts].
      destruct i as [|[|i]]; (destruct j as [|[|[|[|j]]]]); try lia; cbn; repeat split; auto; lra.
    + intros q Hq. change (s_aux ex66) with (@nil kequation) in Hq. destruct Hq.
  - unfold soa_ok. cbn. repeat split; lra.
Qed.
Lemma rho66_defd a b : sin a <> 0 -> defd (rho66 a b) (Asin (Div (Sub (Sym "Px") (Num 0)) (Sym "l_1"))) /\ defd (rho66 a b) (Acos (Div (Sub (Sym "Py") (Num 0)) (Sin (Sym "th_1")))).
Proof.
  intros Sa. split.
  - cbn. split; [repeat split; auto; lra|]. assert (B := SIN_bound a). lra.
  - cbn. split; [repeat split; auto|]. assert (B := COS_bound b).
    match goal with |- (-1 <= ?x <= 1)%R => replace x with (cos b) by (cbn; field; auto) end. lra.
Qed.
(** For every pair of angles (a, b) with sin a not 0 (and the pose they reach), whatever the executed equations give, one of the four rows
    is (a, b). *)
Theorem C66_example_two a b : sin a <> 0 ->
  let nodes := final_nodes arg0 end66 in let table := create_solution_set nodes in
  table = [["th_1s1"; "th_2v1"]; ["th_1s2"; "th_2v2"]; ["th_1s2"; "th_2v3"]; ["th_1s1"; "th_2v4"]] /\
  exists F, make_LHS_versions nodes table = Some F /\
  forall out, executed nodes F out -> (forall x, In x ["Px"; "Py"; "l_1"] -> out x = rho66 a b x) ->
  exists r, In r table /\ cong (through (names_of nodes) r out "th_1") a /\ cong (through (names_of nodes) r out "th_2") b.
Proof.
  intros Sa nodes table. split. { vm_compute. reflexivity. }
  destruct end66_tree as (ts & R). destruct end66_sols as (Eu & En & N0 & N1 & S0 & S1). destruct (rho66_sat a b) as (St & So). destruct (rho66_defd a b Sa) as (D0 & D1).
  assert (Nm : forall l, l = [0; 1]%nat -> map (fun j => u_sym (un end66 j)) l = ["th_1"; "th_2"]). { intros l ->. cbn [map]. rewrite N0, N1. reflexivity. }
  assert (SF : self_free end66 = true) by (vm_compute; reflexivity). assert (TF : turns_ok ["th_1"; "th_2"] end66 = true) by (vm_compute; reflexivity).
  assert (K0 : u_nsol (un end66 0) = 2%nat) by (vm_compute; reflexivity). assert (K1 : u_nsol (un end66 1) = 2%nat) by (vm_compute; reflexivity).
  destruct (C66_history sympy0 ex66 ts end66 (rho66 a b) ["th_1"; "th_2"] arg0 0%nat [1%nat] sympy0_ok (start_initial _ _) St So R En) as (F & EF & Rows).
  - rewrite (Nm _ Eu). repeat constructor; cbn; intuition discriminate.
  - rewrite (Nm _ En). apply names_ok_th. intros x [<-|[<-|[]]]; reflexivity.
  - rewrite En. cbn [map]. rewrite K0, K1. clear. intros k k' [<-|[]] [<-|[]]. split; [reflexivity|]. cbn [hd]. lia.
  - intros j Hj. assert (Hu : In j (s_unks end66)) by (rewrite Eu; rewrite En in Hj; exact Hj).
    split; [exact (self_free_ok _ SF j Hu)|]. rewrite En in Hj.
    split. { destruct Hj as [<-|[<-|[]]].
      - rewrite S0. intros e [<-|[<-|[]]]; [exact D0|]. exact (conj I D0).
      - rewrite S1. intros e [<-|[<-|[]]]; exact D1. }
    split. { intros Y. exfalso. apply Y. destruct Hj as [<-|[<-|[]]]; [rewrite N0; left; reflexivity|rewrite N1; right; left; reflexivity]. }
    intros e He. exact (turns_ok_ok _ _ TF j e Hu He).
  - rewrite (Nm _ En). apply incl_refl.
  - exists F. split; [exact EF|]. intros out X Ag. destruct (Rows out X) as (r & Hr & M).
    { intros j e x Hj He Hh Hx. rewrite (Nm _ En) in Hx. apply Ag. assert (SY : syms_in ["th_1"; "th_2"; "Px"; "Py"; "l_1"] e = true).
      { rewrite En in Hj. destruct Hj as [<-|[<-|[]]]; [rewrite S0 in He|rewrite S1 in He]; destruct He as [<-|[<-|[]]]; reflexivity. }
      assert (Hi := syms_in_has _ _ SY x Hh). clear -Hi Hx. cbn in *. intuition. }
    exists r. split; [exact Hr|]. assert (M0 := M 0%nat). assert (M1 := M 1%nat). rewrite En in M0, M1. rewrite N0 in M0. rewrite N1 in M1.
    split. exact (proj1 (M0 (or_introl eq_refl)) (or_introl eq_refl)). exact (proj1 (M1 (or_intror (or_introl eq_refl))) (or_intror (or_introl eq_refl))).
Qed.


(** ** From a DH table: the robot of C51 *)
Lemma opt_get {X Y} (o : option (X * Y)) d : (if o then true else false) = true -> exists a, o = Some (a, match o with Some (_, b) => b | None => d end).
Proof. destruct o as [(a & b)|]; intros H; [exists a; reflexivity|discriminate]. Qed.
Lemma opt_get2 {X Y} (o : option (X * Y)) d e : match o with Some (_, b) => b | None => d end = e -> (if o then true else false) = true -> exists a, o = Some (a, e).
Proof. destruct o as [(a & b)|]; intros <- H; [exists a; reflexivity|discriminate]. Qed.
Lemma out_get (o : outcome) d : match o with OK b _ => b | Raise => false end = true -> o = OK true (match o with OK _ s => s | Raise => d end).
Proof. destruct o as [b s|]; intros H; [rewrite H; reflexivity|discriminate]. Qed.
Definition ts51 : list task := [TSub; TAssign; TSumId].
Definition ts51' : list task := [TUpdateL; TCompDet false; TSub; TAssign; TSumId; TAlg; TScTan; TUpdateL; TCompDet false].
Definition s51a := match track sympyK s51 ts51 with Some (_, s) => s | None => s51 end.
Definition s51b := match run_task sympyK TAlg s51a with OK _ s => s | Raise => s51 end.
Lemma e51_steps : (exists l, track sympyK s51 ts51 = Some (l, s51a)) /\ s_curr s51a = Some 0%nat /\ run_task sympyK TAlg s51a = OK true s51b /\ (exists l, track sympyK s51b ts51' = Some (l, e51)).
Proof.
  split. { exact (opt_get (track sympyK s51 ts51) s51 ltac:(vm_compute; reflexivity)). }
  split. { vm_compute. reflexivity. }
  split. { exact (out_get (run_task sympyK TAlg s51a) s51 ltac:(vm_compute; reflexivity)). }
  assert (X : match track sympyK s51b ts51' with Some (_, s) => s | None => s51 end = e51) by (vm_compute; reflexivity).
  exact (opt_get2 (track sympyK s51b ts51') s51 e51 X ltac:(vm_compute; reflexivity)).
Qed.
Lemma e51_algebra : by_algebra sympyK s51 e51 0.
Proof.
  destruct e51_steps as ((l1 & H1) & Hc & H2 & l3 & H3). exists l1, s51a, l3. split; [exact (track_runs1 _ _ _ _ _ H1)|]. split; [exact Hc|].
  refine (runs1_cons sympyK s51a TAlg true s51b l3 e51 _ H2 (track_runs1 _ _ _ _ _ H3)). intros X. discriminate X.
Qed.
Lemma e51_sols : s_unks e51 = [0; 1]%nat /\ u_sym (un e51 0) = "d_1" /\ u_sym (un e51 1) = "th_2" /\ u_nsol (un e51 0) = 1%nat /\ u_nsol (un e51 1) = 1%nat /\ u_tanable (un e51 0) = false
  /\ solutions (un e51 0) = [Div (Add (Num 0) (Neg (Neg (Sym "Pz")))) (Num 1)]
  /\ solutions (un e51 1) = [Atan2 (Div (Add (Num 0) (Neg (Neg (Sym "r_21")))) (Num 1)) (Div (Add (Num 0) (Neg (Neg (Sym "r_11")))) (Num 1))].
Proof.
  split; [vm_compute; reflexivity|]. split; [vm_compute; reflexivity|]. split; [vm_compute; reflexivity|]. split; [vm_compute; reflexivity|]. split; [vm_compute; reflexivity|].
  split; [vm_compute; reflexivity|]. split; vm_compute; reflexivity.
Qed.
(** For every joint vector (x, t) the table has one row, and it is (x, t): the length exactly, the angle up to full turns. *)
Theorem C66_example_pipeline x t :
  let nodes := final_nodes arg0 e51 in let table := create_solution_set nodes in
  table = [["d_1s1"; "th_2v1"]] /\
  exists F, make_LHS_versions nodes table = Some F /\
  forall out, executed nodes F out -> out "Pz" = x -> out "r_21" = sin t -> out "r_11" = cos t ->
  exists r, In r table /\ through (names_of nodes) r out "d_1" = x /\ cong (through (names_of nodes) r out "th_2") t.
Proof.
  intros nodes table. split. { vm_compute. reflexivity. }
  destruct (C51_example x t) as (A1 & A2 & A3 & A4 & A5 & A6 & A7). destruct e51_sols as (Eu & N0 & N1 & K0 & K1 & Tb & S0 & S1).
  assert (Nm : map (fun j => u_sym (un e51 j)) (s_unks e51) = ["d_1"; "th_2"]). { rewrite Eu. cbn [map]. rewrite N0, N1. reflexivity. }
  assert (SF : self_free e51 = true) by (vm_compute; reflexivity). assert (TF : turns_ok ["th_2"] e51 = true) by (vm_compute; reflexivity).
  destruct (C66_pipeline sympyK niceK varsK rowsK s51 e51 (rhoK x t) ["th_2"] arg0 A1 A2 A3 A4 A5 A6 A7) as (rho' & Ag & H).
  - intros X. discriminate X.
  - assert (En : s_nodes e51 = [0; 1]%nat) by (vm_compute; reflexivity). rewrite En. clear. repeat constructor; cbn; intuition discriminate.
  - rewrite Nm. clear. repeat constructor; cbn; intuition discriminate.
  - rewrite Nm. apply names_ok_th. clear. intros y [<-|[<-|[]]]; reflexivity.
  - assert (En : s_nodes e51 = [0; 1]%nat) by (vm_compute; reflexivity). rewrite En. cbn [map]. rewrite K0, K1. clear. intros k k' [<-|[]] [<-|[]]. split; [reflexivity|]. cbn [hd]. lia.
  - intros j Hj. split; [exact (self_free_ok _ SF j Hj)|]. assert (Hu := Hj). rewrite Eu in Hj.
    split. { intros Y. destruct Hj as [<-|[<-|[]]]. exact e51_algebra. exfalso. apply Y. rewrite N1. left; reflexivity. }
    intros e He. exact (turns_ok_ok _ _ TF j e Hu He).
  - rewrite Nm. clear. intros y [<-|[]]. right; left; reflexivity.
  - assert (RR : forall y, In y ["d_1"; "th_2"; "Pz"; "r_21"; "r_11"] -> rho' y = rhoK x t y). { clear -Ag. intros y Hy. apply Ag. cbn in Hy. repeat destruct Hy as [<-|Hy]; try destruct Hy; cbn; auto. }
    destruct H as (F & EF & Rows).
    { intros j Hj. rewrite Eu in Hj. destruct Hj as [<-|[<-|[]]]; [rewrite S0|rewrite S1]; clear -RR; intros e [<-|[]]; cbn.
      - repeat split; lra.
      - rewrite !RR by (cbn; tauto). repeat split; try lra. cbn. intros [X Y].
        assert (P := sin2_cos2 t). unfold Rsqr in P. assert (Z1 : sin t = 0) by lra. assert (Z2 : cos t = 0) by lra. rewrite Z1, Z2 in P. lra. }
    exists F. split; [exact EF|]. intros out X O1 O2 O3. destruct (Rows out X) as (r & Hr & M).
    { intros j e y Hj He Hh Hy. assert (SY : syms_in ["Pz"; "r_21"; "r_11"] e = true).
      { rewrite Eu in Hj. destruct Hj as [<-|[<-|[]]]; [rewrite S0 in He|rewrite S1 in He]; destruct He as [<-|[]]; reflexivity. }
      assert (Hi := syms_in_has _ _ SY y Hh). clear -Hi RR O1 O2 O3. rewrite RR by (cbn in *; tauto). destruct Hi as [<-|[<-|[<-|[]]]]; assumption. }
    exists r. split; [exact Hr|]. split.
    + apply (proj2 (M "d_1" (or_introl eq_refl))). clear. intros [X|[]]; discriminate X.
    + apply (proj1 (M "th_2" (or_intror (or_introl eq_refl)))). left; reflexivity.
Qed.
