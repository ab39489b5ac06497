(** C51: the whole pipeline - forward kinematics, sum-of-angles, equation scan, solver tree - loses no joint vector that
    reaches the wanted pose. *)
From Coq Require Import Reals ZArith List String Ascii Bool Arith Lia Lra.
From Verif Require Import Expr Kin KinSpec KinFacts PropKin Trig Solver SolverSpec SolverFacts SolverInv Sympy0 PropLists SolverHist HistFacts PropHist PropSolvers PropSolversEx PropHistEx PropComplete Soa SoaFacts PropSoa.
Import ListNotations.
Local Open Scope string_scope.
Local Open Scope list_scope.
Local Open Scope nat_scope.

(** ik_robots.py:638-641: the variables, numbered from 1 *)
Definition numbered (vars : list string) : list unk := map (fun ix => set_u_n (S (fst ix)) (new_unknown (snd ix))) (combine (seq 0 (List.length vars)) vars).
(** ik_classes.py:176-194: a row with a variable: d or theta is not the number 0 *)
Definition has_variable (r : dhrow expr) : bool := negb (expr_eqb (d_d r) (Num 0)) || negb (expr_eqb (d_th r) (Num 0)).
(** ik_classes.py:142-194 (Robot(Mech)) and kin_cl.py:474-514, for a DH table of six rows; None: an assertion fails *)
Definition robot_state (nice : expr -> bool) (vars : list string) (rows : list (dhrow expr)) : option state :=
  match link_ts nice rows, rows with
  | [T01; T12; T23; T34; T45; T56], r0 :: rest =>
      if has_variable r0 && existsb has_variable rest then
        Some (St (numbered vars) (seq 0 (List.length vars)) None None [] [] [] (get_mequation_set T01 T12 T23 T34 T45 T56) [] 0 [] [])
      else None
  | _, _ => None
  end.
(** ik_classes.py:90-104 (no cached result) and ikSolver.py:319-333: forward kinematics, Robot, sum of angles, equation lists *)
Definition prepared (sy : sympy) (nice : expr -> bool) (vars : list string) (rows : list (dhrow expr)) : option state :=
  match robot_state nice vars rows with
  | None => None
  | Some s => match sum_of_angles_transform sy s with
              | None => None
              | Some s' => match scan_for_equations sy (s_meqs s') (s_aux s') (unk_objs s') with
                           | None => None
                           | Some L => Some (set_lists L s')
                           end
              end
  end.

(** Names of the joint variables: th_i or something not starting with th_, for joint i; at most nine of them. *)
Definition var_names (vars : list string) : Prop := List.length vars <= 9 /\ forall i x, nth_error vars i = Some x -> x = append "th_" (str_of_nat (S i)) \/ strip_th x = None.
(** The DH table mentions joint variables and parameters, the latter not named th_... *)
Definition row_names (vars : list string) (r : dhrow expr) : Prop :=
  forall e x, In e [d_al r; d_a r; d_d r; d_th r] -> has x e = true -> In x vars \/ strip_th x = None.
Definition row_defd (rho : env) (r : dhrow expr) : Prop := forall e, In e [d_al r; d_a r; d_d r; d_th r] -> defd rho e.

Lemma defd_subs rho p q e : defd rho q -> eval rho p = eval rho q -> defd rho e -> defd rho (subs p q e).
Proof.
  intros Dq E. induction e; cbn [subs]; intros D; (destruct (expr_eqb p _); [assumption|]); cbn [defd] in *; try tauto;
    repeat match goal with H : _ /\ _ |- _ => destruct H end; repeat split; auto; rewrite ?(eval_subs p q _ rho E); auto.
Qed.
Lemma defd_subs_all rho l e : (forall k v, In (k, v) l -> defd rho v /\ eval rho k = eval rho v) -> defd rho e -> defd rho (subs_all l e).
Proof.
  unfold subs_all. revert e. induction l as [|[k v] l IH]; simpl; intros e H D; auto. apply IH; auto. destruct (H k v (or_introl eq_refl)). apply defd_subs; auto.
Qed.
Definition mdefd (rho : env) (M : mat expr) : Prop := forall i j, i < 4 -> j < 4 -> defd rho (M i j).
Ltac idx i H := destruct i as [|[|[|[|i]]]]; try (exfalso; lia).
Lemma mdefd_mul rho X Y : mdefd rho X -> mdefd rho Y -> mdefd rho (mmul4 X Y).
Proof. intros HX HY i j Hi Hj. unfold mmul4, osum4. cbn. repeat split; first [apply HX | apply HY]; lia. Qed.
Lemma mdefd_inv rho X : mdefd rho X -> mdefd rho (H_inv X).
Proof. intros HX i j Hi Hj. idx i Hi; idx j Hj; cbn; repeat split; auto; try (apply HX; lia). Qed.
Lemma mdefd_ik rho : mdefd rho ik_lhs.
Proof. intros i j Hi Hj. idx i Hi; idx j Hj; cbn; auto. Qed.
Lemma mdefd_links nice rho rows : consts_ok nice rho rows -> (forall r, In r rows -> row_defd rho r) -> forall T, In T (link_ts nice rows) -> mdefd rho T.
Proof.
  intros C D T HT i j Hi Hj. unfold link_ts in HT. apply in_map_iff in HT as (r & <- & Hr). unfold mapm. apply defd_subs_all.
  - intros k v Hv. split; [|apply (alpha_subs_ok nice rho 0 rows C); auto]. apply alpha_subs_syms in Hv as (n & [-> | ->]); exact I.
  - assert (H := D r Hr). pose proof (H (d_al r)) as A1. pose proof (H (d_a r)) as A2. pose proof (H (d_d r)) as A3. pose proof (H (d_th r)) as A4.
    simpl in A1, A2, A3, A4. unfold link_of, Link, of_rows. idx i Hi; idx j Hj; cbn; repeat split; auto 6.
Qed.
Lemma mdefd_copy3 rho X : mdefd rho X -> mdefd rho (copy3 X).
Proof. intros H i j Hi Hj. unfold copy3. destruct ((i <? 3) && (j <? 4)); auto. destruct ((i =? 3) && (j =? 3)); exact I. Qed.
Definition msys (rho : env) (M : matrix_equation) : Prop := exists Td Ts, M = new_matrix_equation Td Ts /\ mdefd rho Td /\ mdefd rho Ts.
Lemma mset_defd rho T01 T12 T23 T34 T45 T56 : Forall (mdefd rho) [T01; T12; T23; T34; T45; T56] -> Forall (msys rho) (get_mequation_set T01 T12 T23 T34 T45 T56).
Proof.
  intros H. inversion H as [|? ? D1 H1]; subst. inversion H1 as [|? ? D2 H2]; subst. inversion H2 as [|? ? D3 H3]; subst. inversion H3 as [|? ? D4 H4]; subst.
  inversion H4 as [|? ? D5 H5]; subst. inversion H5 as [|? ? D6 H6]; subst. clear H H1 H2 H3 H4 H5 H6. assert (D0 := mdefd_ik rho).
  unfold get_mequation_set. repeat (constructor; [eexists _, _; split; [reflexivity|]; split; auto 12 using mdefd_mul, mdefd_inv|]). constructor.
Qed.
(** The forward kinematics equations hold at a pose-reaching assignment. *)
Lemma fk_sat nice rho rows T01 T12 T23 T34 T45 T56 : consts_ok nice rho rows -> (forall r, In r rows -> row_defd rho r) -> link_ts nice rows = [T01; T12; T23; T34; T45; T56] ->
  Meq 4 (mev rho ik_lhs) (FK rho rows) -> forall M, In M (get_mequation_set T01 T12 T23 T34 T45 T56) -> msat rho M.
Proof.
  intros C D L P M HM. assert (Hh := proj2 (c38_matrix_equations nice rho rows _ _ _ _ _ _ C L M HM) P).
  assert (F : Forall (mdefd rho) [T01; T12; T23; T34; T45; T56]). { apply Forall_forall. rewrite <- L. apply mdefd_links; auto. }
  apply mset_defd in F. rewrite Forall_forall in F. destruct (F M HM) as (Td & Ts & E & D1 & D2). clear F HM. intros i j Hi Hj.
  assert (E1 : me_Td M = copy3 Td) by (rewrite E; reflexivity). assert (E2 : me_Ts M = copy3 Ts) by (rewrite E; reflexivity).
  split; [|split]; cbn [k_lhs k_rhs]. rewrite E1. apply mdefd_copy3; auto. rewrite E2. apply mdefd_copy3; auto.
  destruct (Nat.eq_dec i 3) as [->|N].
  - unfold holds. cbn [k_lhs k_rhs]. rewrite E1, E2. reflexivity.
  - apply Hh. unfold get_kequation_list. apply in_app_iff. left.
    apply (in_map (fun ij => Keq (me_Td M (fst ij) (snd ij)) (me_Ts M (fst ij) (snd ij))) idx12 (i, j)). unfold idx12. idx i Hi; idx j Hj; simpl; tauto.
Qed.
Lemma in_numbered vars v : In v (numbered vars) -> exists i x, nth_error vars i = Some x /\ v = set_u_n (S i) (new_unknown x).
Proof.
  unfold numbered. intros H. apply in_map_iff in H as ([i x] & <- & H). exists i, x. split; [|reflexivity]. cbn.
  assert (G : forall l k, In (i, x) (combine (seq k (List.length l)) l) -> k <= i /\ nth_error l (i - k) = Some x).
  { clear. induction l as [|a l IH]; cbn; intros k Hin; [destruct Hin|]. destruct Hin as [E|Hin].
    - injection E as <- <-. rewrite Nat.sub_diag. auto.
    - apply IH in Hin as [Hk Hn]. split; [lia|]. replace (i - k) with (S (i - S k)) by lia. auto. }
  apply G in H as [_ H]. rewrite Nat.sub_0_r in H. auto.
Qed.
Lemma numbered_len vars : List.length (numbered vars) = List.length vars.
Proof. unfold numbered. rewrite map_length, combine_length, seq_length. lia. Qed.
Lemma objs_numbered vars s : s_heap s = numbered vars -> s_unks s = seq 0 (List.length vars) -> unk_objs s = numbered vars.
Proof.
  intros E1 E2. unfold unk_objs. rewrite E1, E2, <- numbered_len. generalize (numbered vars). clear. intros h.
  assert (G : forall (l p : list unk), map (getu (p ++ l)) (seq (List.length p) (List.length l)) = l).
  { induction l as [|a l IH]; intros p; cbn; auto. f_equal. unfold getu. rewrite app_nth2, Nat.sub_diag; auto.
    specialize (IH (p ++ [a])). rewrite app_length in IH. cbn in IH. rewrite <- app_assoc in IH. cbn in IH. rewrite Nat.add_1_r in IH. exact IH. }
  exact (G h []).
Qed.
Lemma robot_state_spec nice vars rows s : robot_state nice vars rows = Some s -> exists T01 T12 T23 T34 T45 T56, link_ts nice rows = [T01; T12; T23; T34; T45; T56]
  /\ s = St (numbered vars) (seq 0 (List.length vars)) None None [] [] [] (get_mequation_set T01 T12 T23 T34 T45 T56) [] 0 [] [].
Proof.
  unfold robot_state. destruct (link_ts nice rows) as [|a [|b [|c [|d [|e [|f [|g l]]]]]]]; try discriminate. destruct rows as [|r0 rest]; [discriminate|].
  destruct (_ && _); [|discriminate]. intros H. injection H as <-. exists a, b, c, d, e, f. auto.
Qed.
Lemma names_soa_ok rho : names_are_sums rho -> soa_ok rho.
Proof.
  intros N. assert (G : forall n s, 1 <= n -> str_of_nat n = s -> rho (append "th_" s) = sum_over (fun c => rho (append "th_" (String c ""))) s) by (intros n s Hn <-; auto).
  pose proof (G 12 "12" ltac:(lia) eq_refl) as A1. pose proof (G 23 "23" ltac:(lia) eq_refl) as A2. pose proof (G 34 "34" ltac:(lia) eq_refl) as A3.
  pose proof (G 45 "45" ltac:(lia) eq_refl) as A4. pose proof (G 56 "56" ltac:(lia) eq_refl) as A5. pose proof (G 123 "123" ltac:(lia) eq_refl) as A6.
  pose proof (G 234 "234" ltac:(lia) eq_refl) as A7. pose proof (G 345 "345" ltac:(lia) eq_refl) as A8. pose proof (G 456 "456" ltac:(lia) eq_refl) as A9.
  cbn in A1, A2, A3, A4, A5, A6, A7, A8, A9. unfold soa_ok. repeat split; lra.
Qed.
Lemma consts_names nice n rows : forall x e, In (x, e) (alpha_params nice n rows) -> strip_th x = None.
Proof.
  revert n. induction rows as [|r rows IH]; cbn; intros n x e H; [destruct H|]. apply in_app_iff in H as [H|H]; [|eauto].
  destruct (nice (d_al r)); [destruct H|]. destruct H as [E|[E|[]]]; injection E as <- _; reflexivity.
Qed.
Lemma consts_expr nice n rows : forall x e, In (x, e) (alpha_params nice n rows) -> exists r, In r rows /\ (e = Cos (d_al r) \/ e = Sin (d_al r)).
Proof.
  revert n. induction rows as [|r rows IH]; cbn; intros n x e H; [destruct H|]. apply in_app_iff in H as [H|H].
  - destruct (nice (d_al r)); [destruct H|]. exists r. destruct H as [E|[E|[]]]; injection E as _ <-; auto.
  - destruct (IH _ _ _ H) as (r' & ? & ?). eauto.
Qed.
Lemma FK_ext rho rho' rows : (forall r e, In r rows -> In e [d_al r; d_a r; d_d r; d_th r] -> eval rho' e = eval rho e) -> FK rho' rows = FK rho rows.
Proof.
  intros H. unfold FK. f_equal. apply map_ext_in. intros r Hr. pose proof (H r) as G. rewrite !G; auto; simpl; auto.
Qed.

(** The pose reached by a joint vector satisfies the equations the tree is started with. *)
Lemma prepared_sat sy nice vars rows s0 rho :
  sympy_ok sy -> var_names vars -> (forall r, In r rows -> row_names vars r /\ row_defd rho r) -> consts_ok nice rho rows ->
  Meq 4 (mev rho ik_lhs) (FK rho rows) -> prepared sy nice vars rows = Some s0 ->
  initial sy s0 /\ exists rho', names_are_sums rho' /\ (forall x, In x vars \/ strip_th x = None -> rho' x = rho x) /\ sat rho' s0 /\ soa_ok rho'.
Proof.
  intros OK [V9 VN] HR HC HP Pr. unfold prepared in Pr. destruct (robot_state nice vars rows) as [s1|] eqn:E1; [|discriminate].
  destruct (sum_of_angles_transform sy s1) as [s2|] eqn:E2; [|discriminate].
  destruct (scan_for_equations sy (s_meqs s2) (s_aux s2) (unk_objs s2)) as [L|] eqn:E3; [|discriminate]. injection Pr as <-.
  destruct (robot_state_spec _ _ _ _ E1) as (T01 & T12 & T23 & T34 & T45 & T56 & EL & Es1).
  assert (Ob : unk_objs s1 = numbered vars) by (apply objs_numbered; rewrite Es1; reflexivity).
  assert (J : joints s1).
  { split. rewrite Es1. cbn. intros i Hi. apply in_seq in Hi. rewrite numbered_len. lia.
    rewrite Ob. intros v Hv. apply in_numbered in Hv as (i & x & Hi & ->). cbn. assert (i < List.length vars) by (apply nth_error_Some; congruence). lia. }
  assert (ON : own_names (unk_objs s1)).
  { rewrite Ob. split.
    - intros v Hv. apply in_numbered in Hv as (i & x & Hi & ->). apply VN in Hi. exact Hi.
    - intros v w Hv Hw. apply in_numbered in Hv as (i & x & Hi & ->). apply in_numbered in Hw as (j & y & Hj & ->). cbn. intros E. injection E as <-. congruence. }
  destruct (C28_registered sy s1 s2 OK J E2) as (H & U & A2 & EH & EU & EA2 & HF & _ & _ & _ & HI & _ & _ & _ & F1 & F2 & F3 & F4 & F5).
  destruct L as [[l1 l2] l3].
  assert (I0 : initial sy (set_lists (l1, l2, l3) s2)).
  { unfold initial. cbn [set_lists s_heap s_unks s_curr s_counter s_solveN s_nodes s_edges s_meqs s_aux s_L1 s_L2 s_L3 set_s_L1 set_s_L2 set_s_L3 unk_objs].
    split. { rewrite EH. intros u Hu. apply in_app_iff in Hu as [Hu|Hu]; [|apply HF; auto]. rewrite Es1 in Hu. apply in_numbered in Hu as (i & x & _ & ->). reflexivity. }
    split. { rewrite EU. intros i Hi. apply in_app_iff in Hi as [Hi|Hi]; [|apply HI in Hi; lia]. rewrite EH, app_length. assert (X := proj1 J i Hi). lia. }
    rewrite F1, F2, F3, F4, F5, Es1. cbn. repeat (split; [reflexivity|]). exact E3. }
  destruct (C28_sums_exist s1 rho J ON) as (rho' & NS & TJ & AV & AN). split; [exact I0|]. exists rho'.
  assert (Ag : forall x, In x vars \/ strip_th x = None -> rho' x = rho x).
  { intros x [Hx|Hx]; auto. apply In_nth_error in Hx as [i Hi]. rewrite Ob in AV. apply (AV (set_u_n (S i) (new_unknown x))).
    unfold numbered. apply in_map_iff. exists (i, x). split; auto. clear -Hi. rewrite <- (Nat.add_0_l i). revert i Hi. generalize 0. induction vars as [|a l IH]; intros k [|i] Hi; try discriminate; cbn in *.
    - injection Hi as ->. left. f_equal. lia.
    - right. replace (k + S i) with (S k + i) by lia. apply IH; auto. }
  split; auto. split; auto. split; [|apply names_soa_ok; auto].
  assert (Ev : forall r e, In r rows -> In e [d_al r; d_a r; d_d r; d_th r] -> eval rho' e = eval rho e).
  { intros r e Hr He. apply eval_ext. intros x Hx. apply Ag. apply (proj1 (HR r Hr) e x); auto. }
  assert (HC' : consts_ok nice rho' rows).
  { intros x e Hx. rewrite Ag by (right; eapply consts_names; eauto). rewrite (HC x e Hx). destruct (consts_expr _ _ _ _ _ Hx) as (r & Hr & [-> | ->]); cbn; rewrite (Ev r); simpl; auto. }
  assert (HD' : forall r, In r rows -> row_defd rho' r).
  { intros r Hr e He. apply (defd_ext e rho); [|apply (HR r Hr); auto]. intros x Hx. symmetry. apply Ag. apply (proj1 (HR r Hr) e x); auto. }
  assert (HP' : Meq 4 (mev rho' ik_lhs) (FK rho' rows)).
  { rewrite (FK_ext rho rho' rows) by auto. intros i j Hi Hj. rewrite <- (HP i j Hi Hj). unfold mev, ik_lhs, of_rows. idx i Hi; idx j Hj; cbn; try reflexivity; apply Ag; auto. }
  assert (Sat0 := fk_sat nice rho' rows _ _ _ _ _ _ HC' HD' EL HP').
  destruct (C28_definitions_hold sy s1 s2 OK J E2) as (A & EA & HA). specialize (HA rho' TJ NS).
  destruct (C28_meaning sy s1 s2 OK J E2) as (A' & EA' & HM). assert (A' = A) by (rewrite EA in EA'; apply app_inv_head in EA'; auto). subst A'.
  specialize (HM rho' TJ (fun q Hq => proj2 (proj2 (HA q Hq)))).
  split; cbn [set_lists s_meqs s_aux set_s_L1 set_s_L2 set_s_L3].
  - intros M HMin. assert (G : forall Ms Ms', Forall2 (same_meq rho') Ms Ms' -> (forall M, In M Ms -> msat rho' M) -> forall M, In M Ms' -> msat rho' M).
    { clear. induction 1 as [|M M' Ms Ms' [HM _] F IH]; intros HA N HN; [destruct HN|]. destruct HN as [<-|HN]; [|apply IH; auto; intros; apply HA; right; auto].
      intros i j Hi Hj. destruct (HA M (or_introl eq_refl) i j Hi Hj) as (D1 & D2 & E). cbn in D1, D2. unfold holds in E. cbn in E. destruct (HM i j) as [K1 K2].
      destruct (K1 D1) as [K3 K4]. destruct (K2 D2) as [K5 K6]. split; [exact K3|]. split; [exact K5|]. unfold holds. cbn. congruence. }
    refine (G _ _ HM _ M HMin). rewrite Es1. exact Sat0.
  - intros q Hq. rewrite EA, Es1 in Hq. apply HA. exact Hq.
Qed.
(** Take any six-row DH table, any assignment of the joints and parameters, and the pose this joint vector reaches.  If
    the pipeline runs through, then - extending the assignment to the sum-of-angles names - the value of every unknown
    that was solved is, modulo a full turn, among the recorded solutions for it (where these are defined). *)
Theorem C51_pipeline_complete sy nice vars rows s0 b s rho :
  sympy_ok sy -> var_names vars -> (forall r, In r rows -> row_names vars r /\ row_defd rho r) -> consts_ok nice rho rows ->
  Meq 4 (mev rho ik_lhs) (FK rho rows) ->
  prepared sy nice vars rows = Some s0 -> ik_solve sy s0 = OK b s ->
  exists rho', names_are_sums rho' /\ (forall x, In x vars \/ strip_th x = None -> rho' x = rho x)
    /\ forall i, u_solved (un s i) = true -> all_defd rho' (solutions (un s i)) -> among rho' (rho' (u_sym (un s i))) (solutions (un s i)).
Proof.
  intros OK V HR HC HP Pr Run. destruct (prepared_sat sy nice vars rows s0 rho OK V HR HC HP Pr) as (I & rho' & NS & Ag & Sa & So).
  exists rho'. split; auto. split; auto. intros i. eapply C50_tree; eauto.
Qed.
(** In particular, when the tree reports success, for every joint. *)
Theorem C51_success sy nice vars rows s0 s rho :
  sympy_ok sy -> var_names vars -> (forall r, In r rows -> row_names vars r /\ row_defd rho r) -> consts_ok nice rho rows ->
  Meq 4 (mev rho ik_lhs) (FK rho rows) ->
  prepared sy nice vars rows = Some s0 -> ik_solve sy s0 = OK true s ->
  exists rho', (forall x, In x vars \/ strip_th x = None -> rho' x = rho x)
    /\ forall i, In i (s_unks s) -> u_solved (un s i) = true /\ (all_defd rho' (solutions (un s i)) -> among rho' (rho' (u_sym (un s i))) (solutions (un s i))).
Proof.
  intros OK V HR HC HP Pr Run. destruct (C51_pipeline_complete sy nice vars rows s0 true s rho OK V HR HC HP Pr Run) as (rho' & _ & Ag & H).
  exists rho'. split; auto. intros i Hi. assert (Hs := C50_success_solves_all sy s0 s Run i Hi). auto.
Qed.
