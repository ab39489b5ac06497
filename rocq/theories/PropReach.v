(** Tightening found by seeded wrong programs: which pose the symbols of the wanted pose stand for (C38), which rotation RPY is (C39),
    what the declaration line of the C++ program declares (C54); and C51 and C64 for every joint vector. *)
From Coq Require Import Reals ZArith List String Ascii Bool Arith Lia Lra.
From Verif Require Import Expr Kin KinSpec KinFacts PropKin Trig Solver SolverSpec SolverFacts SolverInv PropLists SolverHist HistFacts PropHist PropComplete Soa SoaFacts PropSoa PropEndToEnd Robots PropRobots SolSet CodeGen PropPy.
Import ListNotations.
Local Open Scope string_scope.
Local Open Scope list_scope.
Local Open Scope nat_scope.

(** * C38: every pose can be asked for *)
Definition pose_names : list string := ["r_11"; "r_12"; "r_13"; "Px"; "r_21"; "r_22"; "r_23"; "Py"; "r_31"; "r_32"; "r_33"; "Pz"].
Definition with_pose (rho : env) (M : mat R) : env := fun s =>
  if String.eqb s "r_11" then M 0 0 else if String.eqb s "r_12" then M 0 1 else if String.eqb s "r_13" then M 0 2 else if String.eqb s "Px" then M 0 3
  else if String.eqb s "r_21" then M 1 0 else if String.eqb s "r_22" then M 1 1 else if String.eqb s "r_23" then M 1 2 else if String.eqb s "Py" then M 1 3
  else if String.eqb s "r_31" then M 2 0 else if String.eqb s "r_32" then M 2 1 else if String.eqb s "r_33" then M 2 2 else if String.eqb s "Pz" then M 2 3 else rho s.
Lemma with_pose_other rho M x : ~ In x pose_names -> with_pose rho M x = rho x.
Proof.
  intros H. unfold with_pose. assert (E : forall n, In n pose_names -> String.eqb x n = false). { intros n Hn. apply String.eqb_neq. intros ->. auto. }
  rewrite !E by (unfold pose_names; cbn; auto 20). reflexivity.
Qed.
(** the twelve symbols of the wanted pose are independent: every homogeneous transform is the value of the pose for some assignment to them *)
Theorem C38_every_pose rho M : affine M -> exists rho', (forall x, ~ In x pose_names -> rho' x = rho x) /\ Meq 4 (mev rho' ik_lhs) M.
Proof.
  intros (A0 & A1 & A2 & A3). exists (with_pose rho M). split. apply with_pose_other.
  intros i j Hi Hj. idx i Hi; idx j Hj; cbn; auto.
Qed.
Lemma craig_affine al a d th : affine (craig al a d th).
Proof. unfold affine. repeat split; rewrite <- (link_craig al a d th) by lia; unfold Link; munf; cbn -[sin cos]; ring. Qed.
Lemma chain_affine l : (forall T, In T l -> affine T) -> affine (chain l).
Proof.
  induction l as [|T l IH]; cbn [chain]; intros H. repeat split.
  apply affine_mul. apply H; cbn; auto. apply IH. intros; apply H; cbn; auto.
Qed.
Lemma FK_affine rho rows : affine (FK rho rows).
Proof. apply chain_affine. intros T HT. apply in_map_iff in HT as (r & <- & _). apply craig_affine. Qed.

(** * The constants of inclined axes *)
Fixpoint lookup (l : list (string * expr)) (s : string) : option expr := match l with [] => None | (k, e) :: t => if String.eqb s k then Some e else lookup t s end.
Lemma lookup_in l s e : NoDup (map fst l) -> In (s, e) l -> lookup l s = Some e.
Proof.
  induction l as [|(k, f) l IH]; cbn; intros N H; [destruct H|]. inversion N; subst. destruct H as [H|H].
  - injection H as -> ->. rewrite String.eqb_refl. auto.
  - destruct (String.eqb s k) eqn:E; auto. apply String.eqb_eq in E. subst. exfalso. apply H2. apply in_map_iff. exists (k, e). auto.
Qed.
Lemma lookup_none l s : ~ In s (map fst l) -> lookup l s = None.
Proof. induction l as [|(k, f) l IH]; cbn; intros H; auto. destruct (String.eqb s k) eqn:E. apply String.eqb_eq in E. subst. exfalso; auto. apply IH. auto. Qed.
Definition with_consts (rho : env) (l : list (string * expr)) : env := fun s => match lookup l s with Some e => eval rho e | None => rho s end.
(** the names for an arm of six links *)
Definition const_names : list string := map ca_name (seq 0 6) ++ map sa_name (seq 0 6).
Lemma alpha_names nice : forall rows i x, i + List.length rows <= 6 -> In x (map fst (alpha_params nice i rows)) -> exists j, i <= j < 6 /\ (x = ca_name j \/ x = sa_name j).
Proof.
  induction rows as [|r rows IH]; intros i x L H; cbn [alpha_params map] in H; [destruct H|]. cbn [List.length] in L. rewrite map_app in H. apply in_app_or in H as [H|H].
  - exists i. split; [lia|]. destruct (nice (d_al r)); cbn in H; [destruct H|]. destruct H as [<-|[<-|[]]]; auto.
  - destruct (IH (S i) x ltac:(lia) H) as (j & B & E). exists j. split; auto. lia.
Qed.
Lemma ca_inj i j : i < 6 -> j < 6 -> ca_name i = ca_name j -> i = j.
Proof. intros Hi Hj. do 6 (destruct i as [|i]; [do 6 (destruct j as [|j]; [try reflexivity; intros H; discriminate|]); lia|]). lia. Qed.
Lemma sa_inj i j : i < 6 -> j < 6 -> sa_name i = sa_name j -> i = j.
Proof. intros Hi Hj. do 6 (destruct i as [|i]; [do 6 (destruct j as [|j]; [try reflexivity; intros H; discriminate|]); lia|]). lia. Qed.
Lemma ca_sa i j : ca_name i <> sa_name j. Proof. unfold ca_name, sa_name. discriminate. Qed.
Lemma alpha_nodup nice : forall rows i, i + List.length rows <= 6 -> NoDup (map fst (alpha_params nice i rows)).
Proof.
  induction rows as [|r rows IH]; intros i L; cbn [alpha_params map]. constructor. cbn [List.length] in L.
  assert (N := IH (S i) ltac:(lia)). assert (F : forall x, In x (map fst (alpha_params nice (S i) rows)) -> x <> ca_name i /\ x <> sa_name i).
  { intros x Hx. apply alpha_names in Hx as (j & B & [-> | ->]); [| |lia]; split; intros E; try (apply ca_inj in E; lia); try (apply sa_inj in E; lia).
    apply ca_sa in E; auto. symmetry in E. apply ca_sa in E; auto. }
  rewrite map_app. destruct (nice (d_al r)); cbn [map fst app]; auto. constructor.
  - intros [E|H]. symmetry in E. apply ca_sa in E; auto. apply F in H as (X & _). auto.
  - constructor; auto. intros H. apply F in H as (_ & X). auto.
Qed.

(** * C51: for every joint vector *)
(** the cells of the table do not use the names of the wanted pose or of the constants *)
Definition table_names (rows : list (dhrow expr)) : Prop := forall r e x, In r rows -> In e (cells r) -> has x e = true -> ~ In x pose_names /\ ~ In x const_names.
Lemma const_in nice rows x : List.length rows <= 6 -> In x (map fst (alpha_params nice 0 rows)) -> In x const_names.
Proof.
  intros L H. apply alpha_names in H as (j & B & E); [|lia]. unfold const_names. apply in_or_app. destruct E as [-> | ->]; [left|right]; apply in_map, in_seq; lia.
Qed.
Lemma pose_not_const x : In x pose_names -> ~ In x const_names.
Proof. intros H C. vm_compute in C. repeat (destruct H as [<-|H]; [repeat (destruct C as [C|C]; [discriminate|]); destruct C|]). destruct H. Qed.
(** for every assignment to the joints and parameters there is one to the other symbols so that the constants have their values and the wanted pose is the pose that is reached *)
Theorem C38_reached nice rows rho0 : List.length rows <= 6 -> table_names rows ->
  exists rho, (forall x, ~ In x pose_names -> ~ In x const_names -> rho x = rho0 x) /\ consts_ok nice rho rows /\ Meq 4 (mev rho ik_lhs) (FK rho rows).
Proof.
  intros L T. set (rho1 := with_consts rho0 (alpha_params nice 0 rows)).
  assert (A1 : forall x, ~ In x const_names -> rho1 x = rho0 x). { intros x Hx. unfold rho1, with_consts. rewrite lookup_none; auto. intros H. apply Hx. apply (const_in nice rows); auto. }
  destruct (C38_every_pose rho1 (FK rho1 rows) (FK_affine rho1 rows)) as (rho & A & M). exists rho.
  assert (Ev : forall r e, In r rows -> In e (cells r) -> eval rho e = eval rho0 e /\ eval rho1 e = eval rho0 e).
  { intros r e Hr He. split; apply eval_ext; intros x Hx; destruct (T r e x Hr He Hx). rewrite A, A1; auto. apply A1; auto. }
  split; [|split].
  - intros x H1 H2. rewrite A, A1; auto.
  - intros s e H. assert (K : In s const_names). { apply (const_in nice rows); auto. apply in_map_iff. exists (s, e). auto. }
    assert (NP : ~ In s pose_names). { intros P. apply (pose_not_const s P); auto. }
    rewrite A by auto. unfold rho1 at 1. unfold with_consts. rewrite (lookup_in _ s e (alpha_nodup nice rows 0 ltac:(lia)) H).
    destruct (consts_expr _ _ _ _ _ H) as (r & Hr & [-> | ->]); cbn [eval]; rewrite (proj1 (Ev r (d_al r) Hr ltac:(cbn; auto))); reflexivity.
  - rewrite (FK_ext rho1 rho rows); auto. intros r e Hr He. destruct (Ev r e Hr He). congruence.
Qed.

(** * C64: every robot of the list, every joint vector *)
Definition tableb (d : robot_def) : bool := forallb (fun r => forallb (fun e => forallb (fun x => negb (memb x pose_names) && negb (memb x const_names)) (symbols e)) (cells r)) (rd_dh d).
Lemma tableb_ok d : tableb d = true -> table_names (rd_dh d).
Proof.
  unfold tableb. intros H r e x Hr He Hx. rewrite forallb_forall in H. assert (A := H r Hr). rewrite forallb_forall in A. assert (B := A e He). rewrite forallb_forall in B.
  apply symbols_has, B, andb_true_iff in Hx as (X & Y). split; intros I; apply memb_in in I; rewrite I in *; discriminate.
Qed.
(** every robot of the list, every value of its joints and parameters: there is a pose (the one reached) for which the value of every solved unknown is among its recorded solutions,
    whatever sympy answers within its contract, provided the preparation and the run of the tree finish *)
Theorem C64_every_joint_vector name d us sy nice rho0 : robot_params name = Described d us -> sympy_ok sy ->
  exists rho, (forall x, In x (rd_vars d) \/ In x (rd_params d) -> rho x = rho0 x) /\ consts_ok nice rho (rd_dh d) /\ Meq 4 (mev rho ik_lhs) (FK rho (rd_dh d)) /\
  forall s0 b s, prepared sy nice (rd_vars d) (rd_dh d) = Some s0 -> ik_solve sy s0 = OK b s ->
  exists rho', (forall v, In v (rd_vars d) \/ In v (rd_params d) -> rho' v = rho0 v) /\
    forall i, u_solved (un s i) = true -> all_defd rho' (solutions (un s i)) -> among rho' (rho' (u_sym (un s i))) (solutions (un s i)).
Proof.
  intros E OK. assert (T := tableb_ok d (described_check tableb [] ltac:(vm_compute; reflexivity) name d us E (fun x => x))).
  assert (N := described_check (fun d => forallb (fun x => negb (memb x pose_names) && negb (memb x const_names)) (rd_vars d ++ rd_params d)) [] ltac:(vm_compute; reflexivity) name d us E (fun x => x)). cbn beta in N. rewrite forallb_forall in N.
  destruct (C38_reached nice (rd_dh d) rho0) as (rho & A & C & M); auto. rewrite (sound_six d (proj1 (C64_sound _ _ _ E))); auto.
  assert (Ag : forall x, In x (rd_vars d) \/ In x (rd_params d) -> rho x = rho0 x).
  { intros x Hx. assert (I : In x (rd_vars d ++ rd_params d)) by (apply in_or_app; auto). apply N, andb_true_iff in I as (X & Y). apply A; intros I; apply memb_in in I; rewrite I in *; discriminate. }
  exists rho. split; auto. split; auto. split; auto. intros s0 b s Pr Run.
  destruct (C64_no_joint_vector_lost name d us sy nice s0 b s rho E OK C M Pr Run) as (rho' & A' & H). exists rho'. split; auto. intros v Hv. rewrite A' by auto. auto.
Qed.

(** * C39: the fixed-angle formula *)
Local Open Scope R_scope.
(** roll r about x, then pitch p about y, then yaw y about z (Craig, eq. 2.64), entry by entry *)
Theorem C39_rpy_entries r p y : Meq 3 (RPY3 r p y) (of_rows 0
  [[cos y * cos p; cos y * sin p * sin r - sin y * cos r; cos y * sin p * cos r + sin y * sin r];
   [sin y * cos p; sin y * sin p * sin r + cos y * cos r; sin y * sin p * cos r - cos y * sin r];
   [- sin p; cos p * sin r; cos p * cos r]]).
Proof. intros i j Hi Hj. unfold RPY3. idx3 i Hi; idx3 j Hj; unfold RotX, RotY, RotZ; munf; cbn -[sin cos]; ring. Qed.
Local Close Scope R_scope.

(** * C54: the declaration line *)
Fixpoint join (sep : string) (l : list string) : string := match l with [] => "" | [x] => x | x :: t => append x (append sep (join sep t)) end.
Lemma concat_commas v vs : concat_s (map (fun v => append " " (append v ",")) (v :: vs)) = append (append " " (join ", " (v :: vs))) ",".
Proof.
  revert v. induction vs as [|w vs IH]; intros v.
  - cbn [map concat_s join]. rewrite append_nil_r, append_assoc. reflexivity.
  - cbn [map concat_s] in *. rewrite IH. cbn [join]. rewrite !append_assoc. reflexivity.
Qed.
(** the C++ program declares exactly the given variables, in one line, separated by commas *)
Theorem C54_declaration name v vs ps : In (Line (append "double " (append (join ", " (v :: vs)) ";"))) (cpp_head name (v :: vs) ps).
Proof.
  assert (E : var_decl (v :: vs) = append "double " (append (join ", " (v :: vs)) ";")).
  { unfold var_decl. rewrite concat_commas. rewrite <- append_assoc. change "," with (String "," ""). rewrite cut_last. rewrite !append_assoc. reflexivity. }
  rewrite <- E. unfold cpp_head. cbn [In]. repeat match goal with |- Line (var_decl _) = Line (var_decl _) \/ _ => left; reflexivity | |- _ \/ _ => right end.
Qed.
