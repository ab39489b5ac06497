(** C64: the robot descriptions. *)
From Coq Require Import Reals ZArith List String Ascii Bool Arith Lia Lra.
From Verif Require Import Expr Kin KinSpec Solver SolverSpec SolverFacts SolverInv PropLists SolverHist HistFacts PropHist PropComplete Soa SoaFacts PropSoa PropEndToEnd Robots.
Import ListNotations.
Local Open Scope string_scope.
Local Open Scope list_scope.
Local Open Scope nat_scope.

(** * Specification *)
Definition row (d : robot_def) (i : nat) : dhrow expr := nth i (rd_dh d) (DH (Num 0) (Num 0) (Num 0) (Num 0)).
Definition cells (r : dhrow expr) : list expr := [d_al r; d_a r; d_d r; d_th r].
(** the expression is the symbol, or the symbol plus something without it *)
Definition moves (v : string) (e : expr) : Prop := e = Sym v \/ exists c, e = Add c (Sym v) /\ has v c = false.
(** unknown v is the joint of row i: it is the angle of a revolute joint (kind 1) or the offset of a prismatic joint (kind 0) *)
Definition joint_at (d : robot_def) (i : nat) (v : string) : Prop :=
  (nth_error (rd_vv d) i = Some 1 /\ moves v (d_th (row d i)) /\ forall e, In e [d_al (row d i); d_a (row d i); d_d (row d i)] -> has v e = false) \/
  (nth_error (rd_vv d) i = Some 0 /\ moves v (d_d (row d i)) /\ forall e, In e [d_al (row d i); d_a (row d i); d_th (row d i)] -> has v e = false).
(** a sound description: six links; the unknowns are different, unknown number n (from 1) is the joint of link n and of no other link;
    parameters are not unknowns, and every parameter has a value *)
Record sound (d : robot_def) : Prop := {
  sound_six : List.length (rd_dh d) = 6;
  sound_unknowns : NoDup (rd_vars d) /\ rd_vars d <> [];
  sound_joint : forall i v, nth_error (rd_vars d) i = Some v -> joint_at d i v;
  sound_only : forall i j v e, nth_error (rd_vars d) i = Some v -> j <> i -> j < 6 -> In e (cells (row d j)) -> has v e = false;
  sound_params : forall p, In p (rd_params d) -> ~ In p (rd_vars d);
  sound_values : NoDup (map fst (rd_pvals d)) /\ forall p, In p (map fst (rd_pvals d)) <-> In p (rd_params d)
}.
(** every symbol of the table is an unknown or a declared parameter *)
Definition closed (d : robot_def) : Prop := forall r e x, In r (rd_dh d) -> In e (cells r) -> has x e = true -> In x (rd_vars d) \/ In x (rd_params d).
(** kin_cl.py:381-447 reads vv[0] to vv[5] (JACOBIAN is True): the forward kinematics raises an IndexError when one is missing *)
Definition kinds_present (d : robot_def) : Prop := forall i, i < 6 -> nth_error (rd_vv d) i <> None.

(** * Deciding it *)
Definition memb (x : string) (l : list string) : bool := existsb (String.eqb x) l.
Lemma memb_in x l : memb x l = true <-> In x l.
Proof. unfold memb. rewrite existsb_exists. split. intros (y & H & E). apply String.eqb_eq in E. subst; auto. intros H. exists x. split; auto. apply String.eqb_refl. Qed.
Fixpoint nodupb (l : list string) : bool := match l with [] => true | x :: t => negb (memb x t) && nodupb t end.
Lemma nodupb_ok l : nodupb l = true -> NoDup l.
Proof. induction l as [|x l IH]; cbn; intros H. constructor. apply andb_true_iff in H as (A & B). constructor; auto. intros I. apply memb_in in I. rewrite I in A. discriminate. Qed.
Definition movesb (v : string) (e : expr) : bool :=
  expr_eqb e (Sym v) || match e with Add c (Sym w) => String.eqb w v && negb (has v c) | _ => false end.
Lemma movesb_ok v e : movesb v e = true -> moves v e.
Proof.
  unfold movesb. intros H. apply orb_prop in H as [H|H]. left. apply expr_eqb_eq; auto.
  destruct e as [| | |c b| | | | | | | | | |]; try discriminate. destruct b; try discriminate. apply andb_true_iff in H as (A & B). apply String.eqb_eq in A. subst. right. exists c. split; auto.
  destruct (has v c); auto; discriminate.
Qed.
Definition freeb (v : string) (l : list expr) : bool := forallb (fun e => negb (has v e)) l.
Lemma freeb_ok v l : freeb v l = true -> forall e, In e l -> has v e = false.
Proof. unfold freeb. rewrite forallb_forall. intros H e He. apply H, negb_true_iff in He. auto. Qed.
Definition jointb (d : robot_def) (i : nat) (v : string) : bool :=
  match nth_error (rd_vv d) i with
  | Some 1 => movesb v (d_th (row d i)) && freeb v [d_al (row d i); d_a (row d i); d_d (row d i)]
  | Some 0 => movesb v (d_d (row d i)) && freeb v [d_al (row d i); d_a (row d i); d_th (row d i)]
  | _ => false
  end.
Lemma jointb_ok d i v : jointb d i v = true -> joint_at d i v.
Proof.
  unfold jointb, joint_at. destruct (nth_error (rd_vv d) i) as [[|[|k]]|]; intros H; try discriminate; apply andb_true_iff in H as (A & B); [right|left];
    (split; [reflexivity|split; [apply movesb_ok; auto|apply freeb_ok; auto]]).
Qed.
Definition index_vars (d : robot_def) : list (nat * string) := combine (seq 0 (List.length (rd_vars d))) (rd_vars d).
Lemma nth_combine_seq {A} (l : list A) : forall k i x, nth_error l i = Some x -> In (k + i, x) (combine (seq k (List.length l)) l).
Proof.
  induction l as [|a l IH]; intros k [|i] x H; cbn in *; try discriminate. injection H as ->. left. f_equal. lia.
  right. replace (k + S i) with (S k + i) by lia. apply IH; auto.
Qed.
Definition soundb (d : robot_def) : bool :=
  (List.length (rd_dh d) =? 6) && nodupb (rd_vars d) && negb (List.length (rd_vars d) =? 0)
  && forallb (fun iv => jointb d (fst iv) (snd iv) && forallb (fun j => (j =? fst iv) || freeb (snd iv) (cells (row d j))) (seq 0 6)) (index_vars d)
  && forallb (fun p => negb (memb p (rd_vars d))) (rd_params d)
  && nodupb (map fst (rd_pvals d)) && forallb (fun p => memb p (rd_params d)) (map fst (rd_pvals d)) && forallb (fun p => memb p (map fst (rd_pvals d))) (rd_params d).
Lemma soundb_ok d : soundb d = true -> sound d.
Proof.
  unfold soundb. rewrite !andb_true_iff. intros (((((((A & B) & C) & D) & E) & F) & G) & H).
  assert (J : forall i v, nth_error (rd_vars d) i = Some v -> jointb d i v = true /\ forallb (fun j => (j =? i) || freeb v (cells (row d j))) (seq 0 6) = true).
  { intros i v Hi. rewrite forallb_forall in D. assert (X := D (i, v) (nth_combine_seq _ 0 i v Hi)). cbn [fst snd] in X. apply andb_true_iff in X. auto. }
  rewrite forallb_forall in E, G, H. constructor.
  - apply Nat.eqb_eq; auto.
  - split. apply nodupb_ok; auto. intros Z. rewrite Z in C. discriminate.
  - intros i v Hi. apply jointb_ok, J; auto.
  - intros i j v e Hi N Hj He. destruct (J i v Hi) as (_ & X). rewrite forallb_forall in X. assert (Y := X j (proj2 (in_seq 6 0 j) (conj (Nat.le_0_l _) Hj))).
    apply orb_prop in Y as [Y|Y]. apply Nat.eqb_eq in Y. contradiction. apply (freeb_ok _ _ Y); auto.
  - intros p Hp I. apply E in Hp. apply memb_in in I. rewrite I in Hp. discriminate.
  - split. apply nodupb_ok; auto. intros p. split; intros I. apply memb_in, G; auto. apply memb_in, H; auto.
Qed.
(** all symbols of an expression *)
Fixpoint symbols (e : expr) : list string :=
  match e with
  | Num _ | PiE => []
  | Sym s => [s]
  | Add a b | Mul a b | Div a b | Atan2 a b => symbols a ++ symbols b
  | Neg a | Pow a _ | Sin a | Cos a | Asin a | Acos a | Sqrt a => symbols a
  end.
Lemma symbols_has x e : has x e = true -> In x (symbols e).
Proof.
  induction e; cbn [has symbols]; intros H; try discriminate; auto; try (apply in_or_app; apply orb_prop in H as [H|H]; auto).
  apply String.eqb_eq in H. subst. cbn; auto.
Qed.
Definition closedb (d : robot_def) : bool := forallb (fun r => forallb (fun e => forallb (fun x => memb x (rd_vars d) || memb x (rd_params d)) (symbols e)) (cells r)) (rd_dh d).
Lemma closedb_ok d : closedb d = true -> closed d.
Proof.
  unfold closedb, closed. intros H r e x Hr He Hx. rewrite forallb_forall in H. assert (A := H r Hr). rewrite forallb_forall in A. assert (B := A e He). rewrite forallb_forall in B.
  apply symbols_has in Hx. apply B in Hx. apply orb_prop in Hx as [X|X]; apply memb_in in X; auto.
Qed.

(** * All names *)
Lemma robot_cases (P : string -> robot_result -> Prop) :
  (forall name, ~ In name robot_names -> P name Quits) -> (forall name, In name robot_names -> P name (robot_params name)) -> forall name, P name (robot_params name).
Proof.
  intros H1 H2 name. destruct (in_dec string_dec name robot_names) as [I|I]; auto. assert (E : robot_params name = Quits); [|rewrite E; auto].
  unfold robot_params. destruct (existsb (String.eqb name) robot_names) eqn:X; auto. exfalso. apply I. apply memb_in. exact X.
Qed.
Lemma names_check (f : string -> bool) : forallb f robot_names = true -> forall name, In name robot_names -> f name = true.
Proof. rewrite forallb_forall. auto. Qed.

(** * Theorems *)
(** whatever the name: the program ends when the name is not listed, and exactly for two listed names there is no description *)
Theorem C64_answers name :
  (robot_params name = Quits <-> ~ In name robot_names) /\
  (robot_params name = Unbound <-> name = "Chair6DOF" \/ name = "Issue4DZhang").
Proof.
  set (f := fun n => match robot_params n with Quits => false | Unbound => memb n ["Chair6DOF"; "Issue4DZhang"] | Described _ _ => negb (memb n ["Chair6DOF"; "Issue4DZhang"]) end).
  assert (C : forallb f robot_names = true) by (vm_compute; reflexivity). assert (K := names_check f C). clear C.
  destruct (in_dec string_dec name robot_names) as [I|I].
  - assert (X := K name I). unfold f in X. destruct (robot_params name) eqn:E.
    + discriminate.
    + apply memb_in in X. split; split; intros Y; try discriminate; try contradiction; auto. destruct X as [<-|[<-|[]]]; auto.
    + assert (N : ~ In name ["Chair6DOF"; "Issue4DZhang"]). { intros Z. apply memb_in in Z. rewrite Z in X. discriminate. }
      split; split; intros Y; try discriminate; try contradiction. exfalso. apply N. cbn. destruct Y as [->| ->]; auto.
  - assert (E : robot_params name = Quits). { unfold robot_params. destruct (existsb (String.eqb name) robot_names) eqn:X; auto. exfalso. apply I. apply memb_in. exact X. }
    rewrite E. split; split; intros Y; auto; try discriminate. exfalso. apply I. destruct Y as [->| ->]; apply memb_in; vm_compute; reflexivity.
Qed.
(** every description in the source but one can be asked for by the name it is given there *)
Definition described (name : string) (d : robot_def) : Prop := exists us, robot_params name = Described d us.
Theorem C64_reachable i : i < List.length branches -> fst (nth i branches ("", r_Wrist)) <> "DZhang" ->
  described (fst (nth i branches ("", r_Wrist))) (snd (nth i branches ("", r_Wrist))).
Proof.
  unfold described. cbn [List.length branches]. intros H N.
  do 31 (destruct i as [|i]; [cbn [nth branches fst snd] in *; (eexists; vm_compute; reflexivity) || (exfalso; apply N; reflexivity)|]). lia.
Qed.
Lemma described_check (f : robot_def -> bool) (skip : list string) : forallb (fun n => match robot_params n with Described d _ => memb n skip || f d | _ => true end) robot_names = true ->
  forall name d us, robot_params name = Described d us -> ~ In name skip -> f d = true.
Proof.
  intros C name d us E N. assert (I : In name robot_names). { destruct (in_dec string_dec name robot_names) as [I|I]; auto. apply (proj1 (C64_answers name)) in I. congruence. }
  apply (names_check _ C) in I. rewrite E in I. destruct (memb name skip) eqn:M; auto. apply memb_in in M. contradiction.
Qed.
Lemma number_from_nth vars : forall k i v, nth_error vars i = Some v -> nth_error (number_from k vars) i = Some (v, k + i).
Proof. induction vars as [|a l IH]; intros k [|i] v H; cbn in *; try discriminate. injection H as ->. f_equal. f_equal. lia. rewrite (IH (S k) i v H). do 2 f_equal. lia. Qed.
Lemma number_from_names vars : forall k, map fst (number_from k vars) = vars.
Proof. induction vars; intros k; cbn; auto. f_equal. auto. Qed.
(** every description is sound, and the unknowns carry the numbers 1, 2, ... in order *)
Theorem C64_sound name d us : robot_params name = Described d us ->
  sound d /\ map fst us = rd_vars d /\ forall i v, nth_error (rd_vars d) i = Some v -> nth_error us i = Some (v, S i).
Proof.
  intros E. split.
  - apply soundb_ok. apply (described_check soundb [] ltac:(vm_compute; reflexivity) name d us E). intros [].
  - assert (U : us = number_from 1 (rd_vars d)).
    { unfold robot_params in E. destruct (negb _); [discriminate|]. destruct (select name); [|discriminate]. injection E as <- <-. reflexivity. }
    subst us. split. apply number_from_names. intros i v Hi. apply (number_from_nth _ 1); auto.
Qed.
(** all symbols of the table are declared, except in one robot *)
Theorem C64_closed name d us : robot_params name = Described d us -> name <> "Mackler13" -> closed d.
Proof. intros E N. apply closedb_ok. apply (described_check closedb ["Mackler13"] ltac:(vm_compute; reflexivity) name d us E). intros [X|[]]; auto. Qed.
Theorem C64_closed_refuted : exists d us, robot_params "Mackler13" = Described d us /\ ~ closed d.
Proof.
  exists r_Mackler13, (number_from 1 (rd_vars r_Mackler13)). split. vm_compute; reflexivity.
  intros C. destruct (C (row r_Mackler13 0) (Sym "h") "h") as [H|H]; try (vm_compute; reflexivity).
  - left. reflexivity.
  - right; left. reflexivity.
  - vm_compute in H. repeat (destruct H as [H|H]; [discriminate|]). destruct H.
  - vm_compute in H. repeat (destruct H as [H|H]; [discriminate|]). destruct H.
Qed.
(** the kinds of all six joints are given, except in one robot, whose forward kinematics therefore raises *)
Theorem C64_kinds name d us : robot_params name = Described d us -> name <> "MiniDD" -> kinds_present d.
Proof.
  intros E N. assert (X := described_check (fun d => 6 <=? List.length (rd_vv d)) ["MiniDD"] ltac:(vm_compute; reflexivity) name d us E). cbn beta in X.
  assert (Y : (6 <=? List.length (rd_vv d)) = true) by (apply X; intros [Z|[]]; auto). apply Nat.leb_le in Y. intros i Hi. apply nth_error_Some. lia.
Qed.
Theorem C64_kinds_refuted : exists d us, robot_params "MiniDD" = Described d us /\ ~ kinds_present d.
Proof. exists r_MiniDD, (number_from 1 (rd_vars r_MiniDD)). split. vm_compute; reflexivity. intros K. apply (K 5). lia. reflexivity. Qed.
(** a described robot that no call returns *)
Theorem C64_unreachable_refuted : (exists d, select "DZhang" = Some d /\ sound d) /\ robot_params "DZhang" = Quits.
Proof. split. exists r_DZhang. split. vm_compute; reflexivity. apply soundb_ok. vm_compute. reflexivity. vm_compute. reflexivity. Qed.

(** * The solver is started properly *)
(** the names of unknowns and parameters are those the pipeline expects *)
Definition namesb (d : robot_def) : bool :=
  (List.length (rd_vars d) <=? 9)
  && forallb (fun iv => String.eqb (snd iv) (append "th_" (str_of_nat (S (fst iv)))) || match strip_th (snd iv) with None => true | _ => false end) (index_vars d)
  && forallb (fun r => forallb (fun e => forallb (fun x => memb x (rd_vars d) || match strip_th x with None => true | _ => false end) (symbols e)) (cells r)) (rd_dh d).
Lemma namesb_ok d : namesb d = true -> var_names (rd_vars d) /\ forall r, In r (rd_dh d) -> row_names (rd_vars d) r.
Proof.
  unfold namesb. rewrite !andb_true_iff. intros ((A & B) & C). split.
  - split. apply Nat.leb_le; auto. intros i x Hi. rewrite forallb_forall in B. assert (X := B (i, x) (nth_combine_seq _ 0 i x Hi)). cbn [fst snd] in X.
    apply orb_prop in X as [X|X]. left. apply String.eqb_eq; auto. right. destruct (strip_th x); auto; discriminate.
  - intros r Hr e x He Hx. rewrite forallb_forall in C. assert (X := C r Hr). rewrite forallb_forall in X. assert (Y := X e He). rewrite forallb_forall in Y. apply symbols_has in Hx. apply Y in Hx.
    apply orb_prop in Hx as [Z|Z]. left. apply memb_in; auto. right. destruct (strip_th x); auto; discriminate.
Qed.
(** only divisions by numbers other than 0, no inverse functions or roots: the cells have a value for every assignment *)
Fixpoint totalb (e : expr) : bool :=
  match e with
  | Num _ | PiE | Sym _ => true
  | Add a b | Mul a b => totalb a && totalb b
  | Neg a | Sin a | Cos a => totalb a
  | Div a (Num z) => totalb a && negb (z =? 0)%Z
  | _ => false
  end.
Lemma totalb_ok rho e : totalb e = true -> defd rho e.
Proof.
  induction e; cbn [totalb defd]; intros H; try discriminate; auto; try (apply andb_true_iff in H as (A & B); auto).
  destruct e2; try discriminate. apply andb_true_iff in H as (A & B). cbn [defd eval]. repeat split; auto. apply IZR_neq. intros Z. subst. discriminate.
Qed.
(** the assertions of Robot() hold for every robot *)
Theorem C64_robot_starts nice name d us : robot_params name = Described d us -> exists s, robot_state nice (rd_vars d) (rd_dh d) = Some s.
Proof.
  intros E. assert (X := described_check (fun d => (List.length (rd_dh d) =? 6) && match rd_dh d with r0 :: rest => has_variable r0 && existsb has_variable rest | [] => false end) [] ltac:(vm_compute; reflexivity) name d us E (fun x => x)). cbn beta in X.
  apply andb_true_iff in X as (L & V). apply Nat.eqb_eq in L. assert (L' : List.length (link_ts nice (rd_dh d)) = 6) by (unfold link_ts; rewrite map_length; auto).
  unfold robot_state. destruct (link_ts nice (rd_dh d)) as [|T1 [|T2 [|T3 [|T4 [|T5 [|T6 [|]]]]]]]; try discriminate. destruct (rd_dh d) as [|r0 rest]; [discriminate|]. rewrite V. eauto.
Qed.
(** for every robot that can be asked for, every joint vector, and the pose it reaches: if the tables are prepared and the tree runs through, no solved unknown
    misses its value *)
Theorem C64_no_joint_vector_lost name d us sy nice s0 b s rho : robot_params name = Described d us -> sympy_ok sy -> consts_ok nice rho (rd_dh d) ->
  Meq 4 (mev rho ik_lhs) (FK rho (rd_dh d)) -> prepared sy nice (rd_vars d) (rd_dh d) = Some s0 -> ik_solve sy s0 = OK b s ->
  exists rho', (forall v, In v (rd_vars d) \/ In v (rd_params d) -> rho' v = rho v) /\
    forall i, u_solved (un s i) = true -> all_defd rho' (solutions (un s i)) -> among rho' (rho' (u_sym (un s i))) (solutions (un s i)).
Proof.
  intros E OK HC HP Pr Run.
  destruct (namesb_ok d (described_check namesb [] ltac:(vm_compute; reflexivity) name d us E (fun x => x))) as (VN & RN).
  assert (T := described_check (fun d => forallb (fun r => forallb totalb (cells r)) (rd_dh d)) [] ltac:(vm_compute; reflexivity) name d us E (fun x => x)). cbn beta in T. rewrite forallb_forall in T.
  assert (PN := described_check (fun d => forallb (fun x => match strip_th x with None => true | _ => false end) (rd_params d)) [] ltac:(vm_compute; reflexivity) name d us E (fun x => x)). cbn beta in PN. rewrite forallb_forall in PN.
  destruct (C51_pipeline_complete sy nice (rd_vars d) (rd_dh d) s0 b s rho OK VN) as (rho' & _ & Ag & H); auto.
  - intros r Hr. split; auto. intros e He. apply totalb_ok. assert (X := T r Hr). rewrite forallb_forall in X. apply X; auto.
  - exists rho'. split; auto. intros v [Hv|Hv]; apply Ag; auto. right. apply PN in Hv. destruct (strip_th v); auto; discriminate.
Qed.
(** a robot to which the theorems apply *)
Example C64_puma : exists d us, robot_params "Puma" = Described d us /\ sound d /\ closed d /\ kinds_present d /\ nth_error us 2 = Some ("th_3", 3).
Proof.
  exists r_Puma, (number_from 1 (rd_vars r_Puma)). assert (E : robot_params "Puma" = Described r_Puma (number_from 1 (rd_vars r_Puma))) by (vm_compute; reflexivity).
  split; [exact E|]. split; [exact (proj1 (C64_sound _ _ _ E))|]. split; [apply (C64_closed _ _ _ E); discriminate|]. split; [apply (C64_kinds _ _ _ E); discriminate|]. reflexivity.
Qed.
