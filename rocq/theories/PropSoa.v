(** C28: the sum-of-angles transform keeps the meaning of the equations and registers each new angle. *)
From Coq Require Import Reals ZArith List String Ascii Bool Arith Lia Lra Permutation DecimalString.
From Verif Require Import Expr Kin KinSpec Trig Solver SolverSpec SolverFacts SolverInv Sympy0 PropLists SolverHist HistFacts PropHist PropSolvers PropSolversEx PropHistEx Soa SoaFacts.
Import ListNotations.
Local Open Scope string_scope.
Local Open Scope list_scope.
Local Open Scope nat_scope.

(** * Vocabulary *)
(** The joints as ik_robots.py:638-641 numbers them: indices from 1 on, one digit. *)
Definition joints (s : state) : Prop :=
  (forall i, In i (s_unks s) -> i < List.length (s_heap s)) /\ forall v, In v (unk_objs s) -> 1 <= u_n v <= 9.
(** th_i is the i-th joint's variable, also when that joint is called d_i (for which no th_i is in use otherwise). *)
Definition th_is_joint (rho : env) (s : state) : Prop := forall v, In v (unk_objs s) -> rho (append "th_" (str_of_nat (u_n v))) = rho (u_sym v).
(** Defined where it was defined, with the value it had. *)
Definition same_at (rho : env) (e e' : expr) : Prop := defd rho e -> defd rho e' /\ eval rho e' = eval rho e.
Definition same_meq (rho : env) (M M' : matrix_equation) : Prop :=
  (forall i j, same_at rho (me_Td M i j) (me_Td M' i j) /\ same_at rho (me_Ts M i j) (me_Ts M' i j)) /\ me_aux M' = me_aux M.
(** th_ijk... has the value of the sum of th_i, th_j, th_k, ... for every subscript. *)
Fixpoint sum_over (f : ascii -> R) (s : string) : R := match s with EmptyString => 0 | String c r => f c + sum_over f r end.
Definition names_are_sums (rho : env) : Prop :=
  forall n, 1 <= n -> rho (append "th_" (str_of_nat n)) = sum_over (fun c => rho (append "th_" (String c ""))) (str_of_nat n).

Lemma sum_over_dsum f s : sum_over f s = dsum f s. Proof. induction s; simpl; congruence. Qed.
Lemma joints_wf s : joints s -> wf_unks s.
Proof. intros [J1 J2]. split; auto. intros v Hv. apply J2 in Hv. lia. Qed.
Lemma str_digit n : 1 <= n <= 9 -> exists c, str_of_nat n = String c "".
Proof. intros H. do 10 (destruct n as [|n]; [first [lia | eexists; vm_compute; reflexivity]|]). lia. Qed.
Lemma joints_named rho s : joints s -> th_is_joint rho s -> Jn rho (unk_objs s).
Proof.
  intros [_ J] C v Hv. assert (E := C v Hv). destruct (str_digit (u_n v) (J v Hv)) as [c Ec]. unfold named. rewrite Ec in *. cbn [dsum].
  unfold digit_of. specialize (J v Hv). split; [lia|]. rewrite E. split; lra.
Qed.
Lemma transform_split sy s s' : sum_of_angles_transform sy s = Some s' -> exists Ms s1, soa_meqs sy (s_meqs s) s = Some (Ms, s1) /\ s' = set_s_meqs Ms s1.
Proof. unfold sum_of_angles_transform. destruct (soa_meqs sy (s_meqs s) s) as [[Ms s1]|]; [|discriminate]. intros H. injection H as <-. eauto. Qed.
Lemma objs_meqs Ms s : unk_objs (set_s_meqs Ms s) = unk_objs s. Proof. reflexivity. Qed.
Lemma forall2_same rho Ms Ms' : Forall2 (me_kept rho) Ms Ms' -> Forall2 (same_meq rho) Ms Ms'.
Proof. induction 1 as [|M M' Ms Ms' (A & B & C)]; constructor; auto. split; auto. intros i j. split; [apply A|apply B]. Qed.

(** * Meaning *)
(** The transform only adds equations; wherever those hold, every element of every matrix equation has the value it had. *)
Theorem C28_meaning sy s s' : sympy_ok sy -> joints s -> sum_of_angles_transform sy s = Some s' ->
  exists A, s_aux s' = s_aux s ++ A /\
    forall rho, th_is_joint rho s -> (forall q, In q A -> holds rho q) -> Forall2 (same_meq rho) (s_meqs s) (s_meqs s').
Proof.
  intros OK J E. apply transform_split in E as (Ms & s1 & E & ->). assert (W := joints_wf s J).
  destruct (proj2 (proj2 (proj2 (meqs_step sy OK (fun _ => 0%R) _ _ _ _ W E))) s W (held_refl sy s)) as (H & U & A & G & _).
  exists A. split. { rewrite (g_eq _ _ _ _ _ _ G). reflexivity. }
  intros rho C HA. assert (J0 := joints_named rho s J C). apply forall2_same. cbn. destruct (meqs_step sy OK rho _ _ _ _ W E) as (_ & _ & K & _). apply K.
  intros v Hv. apply (objs_plus _ _ _ _ _ _ W G) in Hv as [Hv|Hv]; auto. apply (g_vals _ _ _ _ _ _ G OK rho); auto.
Qed.
(** The added equations hold for every assignment that gives the sums their names stand for. *)
Theorem C28_definitions_hold sy s s' : sympy_ok sy -> joints s -> sum_of_angles_transform sy s = Some s' ->
  exists A, s_aux s' = s_aux s ++ A /\ forall rho, th_is_joint rho s -> names_are_sums rho -> forall q, In q A -> ok_at rho q.
Proof.
  intros OK J E. apply transform_split in E as (Ms & s1 & E & ->). assert (W := joints_wf s J).
  destruct (proj2 (proj2 (proj2 (meqs_step sy OK (fun _ => 0%R) _ _ _ _ W E))) s W (held_refl sy s)) as (H & U & A & G & _).
  exists A. split. { rewrite (g_eq _ _ _ _ _ _ G). reflexivity. }
  intros rho C N q Hq. assert (J0 := joints_named rho s J C).
  assert (Js : Jn rho (unk_objs s1)).
  { intros v Hv. apply (objs_plus _ _ _ _ _ _ W G) in Hv as [Hv|Hv]; auto. destruct (g_new _ _ _ _ _ _ G v Hv) as (_ & P & E1). specialize (N _ P). rewrite sum_over_dsum in N.
    unfold named. rewrite E1. split; auto. }
  destruct (g_aux _ _ _ _ _ _ G q Hq) as (v & Hv & a & b & c & ns & Ar & En & ->).
  destruct (args_vals rho (unk_objs s1) a b c ns) as [D V]; [intros w Hw; apply Js; auto|auto|]. destruct (ok_norm _ OK rho _ D) as [D' V'].
  split; [exact I|]. split; [exact D'|]. unfold holds. cbn [k_lhs k_rhs eval]. rewrite V', V.
  destruct (Js v) as (P & E2 & _); [apply (objs_plus _ _ _ _ _ _ W G); auto|]. rewrite E2, En. f_equal. apply soa_index_ok. apply Ar. eapply args_pos; [|eauto]. apply (grown_wf _ _ _ _ _ _ W G).
Qed.
(** Every assignment of the joints can be extended to the new names so. *)
Definition strip_th (s : string) : option string := match s with String "t" (String "h" (String "_" r)) => Some r | _ => None end.
Definition joint_named (us : list unk) (c : ascii) : option unk := find (fun v => String.eqb (str_of_nat (u_n v)) (String c "")) us.
Definition joint_val (rho : env) (us : list unk) (c : ascii) : R :=
  match joint_named us c with Some v => rho (u_sym v) | None => rho (append "th_" (String c "")) end.
Definition with_sums (rho : env) (us : list unk) : env := fun x =>
  match strip_th x with
  | Some (String c r) => sum_over (joint_val rho us) (String c r)
  | _ => rho x
  end.
Lemma strip_th_app r : strip_th (append "th_" r) = Some r. Proof. reflexivity. Qed.
Definition own_names (us : list unk) : Prop :=
  (forall v, In v us -> u_sym v = append "th_" (str_of_nat (u_n v)) \/ strip_th (u_sym v) = None)
  /\ forall v w, In v us -> In w us -> u_n v = u_n w -> u_sym v = u_sym w.
Lemma sum_over_ext f g s : (forall c, f c = g c) -> sum_over f s = sum_over g s.
Proof. intros E. induction s; simpl; auto. rewrite E, IHs. auto. Qed.
Theorem C28_sums_exist s rho : joints s -> own_names (unk_objs s) -> exists rho',
  names_are_sums rho' /\ th_is_joint rho' s /\ (forall v, In v (unk_objs s) -> rho' (u_sym v) = rho (u_sym v)) /\ forall x, strip_th x = None -> rho' x = rho x.
Proof.
  intros [_ J] [O1 O2]. set (us := unk_objs s) in *. exists (with_sums rho us).
  assert (D : forall c, with_sums rho us (append "th_" (String c "")) = joint_val rho us c). { intros c. unfold with_sums. rewrite strip_th_app. cbn. lra. }
  assert (JV : forall v, In v us -> with_sums rho us (append "th_" (str_of_nat (u_n v))) = rho (u_sym v)).
  { intros v Hv. destruct (str_digit (u_n v) (J v Hv)) as [c Ec]. rewrite Ec, D. unfold joint_val, joint_named. destruct (find _ us) as [w|] eqn:F.
    - apply find_some in F as [Hw Ew]. apply String.eqb_eq in Ew. f_equal. apply O2; auto. apply str_of_nat_inj. congruence.
    - apply find_none with (x := v) in F; auto. rewrite Ec, String.eqb_refl in F. discriminate. }
  assert (V : forall v, In v us -> with_sums rho us (u_sym v) = rho (u_sym v)).
  { intros v Hv. destruct (O1 v Hv) as [E|E]. rewrite E at 1. apply JV; auto. unfold with_sums. rewrite E. auto. }
  split; [|split; [|split]]; auto.
  - intros n Hn. unfold with_sums at 1. rewrite strip_th_app. destruct (str_of_nat n) as [|c r] eqn:En.
    + assert (E := str_of_nat_inj n). exfalso. assert (X := lead_to_uint n Hn). unfold str_of_nat in En. destruct (Nat.to_uint n); try discriminate. exact X.
    + symmetry. apply sum_over_ext. exact D.
  - intros v Hv. rewrite JV, V; auto.
  - intros x E. unfold with_sums. rewrite E. auto.
Qed.

(** * Registration *)
Lemma meqs_len sy l : forall s Ms s1, soa_meqs sy l s = Some (Ms, s1) -> List.length Ms = List.length l.
Proof.
  induction l as [|M l IH]; cbn [soa_meqs]; intros s Ms s1 E. injection E as <- _. auto.
  destruct (soa_meq sy M s) as [[M' s2]|]; [|discriminate]. destruct (soa_meqs sy l s2) as [[r s3]|] eqn:E2; [|discriminate]. injection E as <- _. cbn. erewrite IH; eauto.
Qed.
(** What is registered: new unknowns th_n, unsolved, with pairwise different subscripts none of which was in use, all of
    them in the list of unknowns, each with a defining equation; and nothing else is added. *)
Theorem C28_registered sy s s' : sympy_ok sy -> joints s -> sum_of_angles_transform sy s = Some s' ->
  exists H U A, s_heap s' = s_heap s ++ H /\ s_unks s' = s_unks s ++ U /\ s_aux s' = s_aux s ++ A
    /\ (forall v, In v H -> fresh v /\ u_sym v = append "th_" (str_of_nat (u_n v)))
    /\ NoDup (map u_n H) /\ NoDup (map u_sym H) /\ (forall v w, In v H -> In w (unk_objs s) -> u_n w <> u_n v)
    /\ (forall i, In i U <-> List.length (s_heap s) <= i < List.length (s_heap s'))
    /\ (forall v, In v H -> exists sum, In (Keq (Sym (u_sym v)) sum) A) /\ (forall q, In q A -> exists v, In v H /\ k_lhs q = Sym (u_sym v))
    /\ List.length (s_meqs s') = List.length (s_meqs s) /\ s_curr s' = s_curr s /\ s_counter s' = s_counter s /\ s_nodes s' = s_nodes s /\ s_edges s' = s_edges s /\ s_solveN s' = s_solveN s.
Proof.
  intros OK J E. apply transform_split in E as (Ms & s1 & E & ->). assert (W := joints_wf s J).
  destruct (meqs_step sy OK (fun _ => 0%R) _ _ _ _ W E) as (_ & _ & _ & Hd).
  destruct (Hd s W (held_refl sy s)) as (H & U & A & G & _). assert (Eq := g_eq _ _ _ _ _ _ G).
  assert (Hn : forall v, In v H -> u_sym v = append "th_" (str_of_nat (u_n v))) by (intros v Hv; apply (g_new _ _ _ _ _ _ G v Hv)).
  exists H, U, A. cbn. rewrite Eq. cbn. split; [reflexivity|]. split; [reflexivity|]. split; [reflexivity|]. split; [|split; [|split; [|split; [|split; [|split; [|split; [|split]]]]]]].
  - intros v Hv. split; [apply (g_new _ _ _ _ _ _ G v Hv)|exact (Hn v Hv)].
  - apply (g_nodup _ _ _ _ _ _ G).
  - assert (N := g_nodup _ _ _ _ _ _ G). clear -N Hn. induction H as [|v H IH]; cbn; [constructor|]. cbn in N. inversion N; subst. constructor.
    + intros X. apply in_map_iff in X as (w & Ew & Hw). apply H2. apply in_map_iff. exists w. split; auto. rewrite (Hn w), (Hn v) in Ew by (cbn; auto).
      injection Ew as Ew. apply str_of_nat_inj; auto.
    + apply IH; auto. intros w Hw. apply Hn. right; auto.
  - apply (g_other _ _ _ _ _ _ G).
  - intros i. rewrite app_length. apply (g_ids _ _ _ _ _ _ G).
  - intros v Hv. destruct (g_def _ _ _ _ _ _ G v Hv) as (q & Hq & a & b & c & ns & _ & _ & ->). eauto.
  - intros q Hq. destruct (g_aux _ _ _ _ _ _ G q Hq) as (v & Hv & a & b & c & ns & _ & _ & ->). eauto.
  - exact (meqs_len _ _ _ _ _ E).
  - repeat split; reflexivity.
Qed.

(** When no left hand side contains a sum of angles, each new angle is listed once and defined once. *)
Definition exactly (sy : sympy) (s0 s : state) : Prop := exists H U A, grown sy s0 s H U A /\ U = seq (List.length (s_heap s0)) (List.length H)
  /\ map k_lhs A = map (fun v => Sym (u_sym v)) H.
Lemma match_exact sy s0 e fnd x1 x2 s m e' fnd' nj ne s' : wf_unks s0 -> exactly sy s0 s -> soa_match sy (e, fnd, x1, x2, s) m = Some (e', fnd', nj, ne, s') -> exactly sy s0 s'.
Proof.
  destruct m as [[a b] c]. intros W (H & U & A & G & HU & HA) E. apply soa_match_cases in E as [(-> & -> & -> & ->)|(ns & Ar & _ & [(v & _ & _ & -> & -> & ->)|(New & id & q & R & -> & ->)])];
    try (exists H, U, A; auto; fail).
  destruct (grown_register _ _ _ _ _ _ _ _ _ _ _ _ _ W G Ar New R) as (G' & Ei & Eq). eexists _, _, _. split; [exact G'|]. split.
  - rewrite HU, Ei, app_length. cbn. rewrite seq_app. reflexivity.
  - rewrite !map_app, HA, Eq. reflexivity.
Qed.
Lemma matches_exact sy s0 ms : forall e fnd x1 x2 s e' fnd' nj ne s', wf_unks s0 -> exactly sy s0 s -> soa_matches sy ms (e, fnd, x1, x2, s) = Some (e', fnd', nj, ne, s') -> exactly sy s0 s'.
Proof.
  induction ms as [|m ms IH]; cbn [soa_matches]; intros e fnd x1 x2 s e' fnd' nj ne s' W Hd E. injection E as <- <- <- <- <-. auto.
  destruct (soa_match sy (e, fnd, x1, x2, s) m) as [[[[[e1 f1] n1] q1] s1]|] eqn:Em; [|discriminate]. eapply IH; [auto| |exact E]. eapply match_exact; eauto.
Qed.
Lemma sub_exact sy s0 e s e' nj ne s' : wf_unks s0 -> exactly sy s0 s -> sum_of_angles_sub sy e s = Some (e', nj, ne, s') -> exactly sy s0 s'.
Proof.
  intros W Hd. unfold sum_of_angles_sub. destruct (soa_matches _ _ _) as [[[[[e1 f1] n1] q1] s1]|] eqn:Em; [|discriminate]. intros E. injection E as <- <- <- <-. eapply matches_exact; eauto.
Qed.
(** how many of the three parts of a matched angle are not 0: 1 for sin(th_1), 2 or 3 for a sum of angles *)
Definition angle_parts (m : expr * expr * expr) : nat := let '(a, b, c) := m in List.length (filter (fun x => negb (expr_eqb x (Num 0))) [a; b; c]).
(** no sine or cosine of a sum of angles occurs in the expression *)
Definition no_sum (sy : sympy) (e : expr) : Prop := forall m, In m (sy_sums sy e) -> angle_parts m <= 1.
Lemma matches_single sy ms : forall e x1 x2 s, (forall m, In m ms -> angle_parts m <= 1) -> exists nj ne, soa_matches sy ms (e, false, x1, x2, s) = Some (e, false, nj, ne, s) /\ (x1 = None -> nj = None) /\ (x2 = None -> ne = None).
Proof.
  induction ms as [|[[a b] c] ms IH]; intros e x1 x2 s H; cbn [soa_matches]. { exists x1, x2. auto. }
  assert (P := H _ (or_introl eq_refl)). unfold angle_parts in P. unfold soa_match. destruct (List.length (filter _ [a; b; c])) as [|[|n]]; [| |lia]; cbn [Nat.eqb orb].
  all: destruct (IH e None None s) as (nj & ne & E & N1 & N2); [intros; apply H; right; auto|]; exists nj, ne; rewrite E, N1, N2 by auto; auto.
Qed.
Lemma sub_nothing sy e s : no_sum sy e -> sum_of_angles_sub sy e s = Some (e, None, None, s).
Proof. intros E. unfold sum_of_angles_sub. destruct (matches_single sy (sy_sums sy e) e None None s E) as (nj & ne & -> & N1 & N2). rewrite N1, N2; auto. Qed.
Lemma elts_exact sy s0 l : forall Td Ts s Td' Ts' s', NoDup l -> wf_unks s0 -> (forall i j, In (i, j) l -> no_sum sy (sy_simplify sy (Td i j))) -> exactly sy s0 s ->
  fold_left (soa_elt sy) l (Some (Td, Ts, s)) = Some (Td', Ts', s') -> exactly sy s0 s'.
Proof.
  induction l as [|[i j] l IH]; cbn [fold_left]; intros Td Ts s Td' Ts' s' N W HL X E. injection E as <- <- <-. auto. inversion N; subst.
  cbn [soa_elt] in E. rewrite (sub_nothing sy _ s (HL i j (or_introl eq_refl))) in E. cbn [add_aux add_unk] in E.
  destruct (sum_of_angles_sub sy (sy_simplify sy (Ts i j)) s) as [[[[rhs x] y] s2]|] eqn:E2. 2:{ exfalso. clear -E. induction l; [discriminate|]. auto. }
  eapply IH; [auto|auto| |eapply sub_exact; eauto|exact E]. intros i' j' Hij. unfold set_m. destruct ((i' =? i) && (j' =? j)) eqn:Eij.
  - apply andb_prop in Eij as [E1 E3]. apply Nat.eqb_eq in E1, E3. subst. tauto.
  - apply HL. right; auto.
Qed.
Lemma meqs_exact sy s0 Ms : forall s Ms' s', wf_unks s0 -> (forall M i j, In M Ms -> In (i, j) idx12 -> no_sum sy (sy_simplify sy (me_Td M i j))) -> exactly sy s0 s ->
  soa_meqs sy Ms s = Some (Ms', s') -> exactly sy s0 s'.
Proof.
  induction Ms as [|M Ms IH]; cbn [soa_meqs]; intros s Ms' s' W HL X E. injection E as <- <-. auto.
  destruct (soa_meq sy M s) as [[M1 s1]|] eqn:E1; [|discriminate]. destruct (soa_meqs sy Ms s1) as [[Ms2 s2]|] eqn:E2; [|discriminate]. injection E as <- <-.
  eapply IH; [auto| | |exact E2]. intros M' i j HM Hij. apply HL; auto. right; auto. unfold soa_meq in E1.
  destruct (fold_left (soa_elt sy) idx12 (Some (me_Td M, me_Ts M, s))) as [[[Td Ts] s3]|] eqn:E3; [|discriminate]. injection E1 as <- <-.
  eapply (elts_exact sy s0 idx12); [apply idx12_nodup|auto| |exact X|exact E3]. intros i j Hij. apply HL; auto. left; auto.
Qed.
Theorem C28_once sy s s' : joints s -> (forall M i j, In M (s_meqs s) -> i < 3 -> j < 4 -> no_sum sy (sy_simplify sy (me_Td M i j))) ->
  sum_of_angles_transform sy s = Some s' -> NoDup (s_unks s) ->
  NoDup (s_unks s') /\ exists A, s_aux s' = s_aux s ++ A /\ NoDup (map k_lhs A) /\ List.length (s_unks s') = List.length (s_unks s) + List.length A.
Proof.
  intros J HL E N. apply transform_split in E as (Ms & s1 & E & ->). assert (W := joints_wf s J).
  destruct (meqs_exact sy s (s_meqs s) s Ms s1) as (H & U & A & G & HU & HA); auto.
  { intros M i j HM Hij. apply HL; auto; unfold idx12 in Hij; simpl in Hij; repeat destruct Hij as [Hij|Hij]; try (injection Hij as <- <-; lia); destruct Hij. }
  { exists [], [], []. split; [apply grown_refl|]. split; reflexivity. }
  assert (Eq := g_eq _ _ _ _ _ _ G). cbn. rewrite Eq. cbn. split.
  - apply NoDup_app_intro; auto. rewrite HU. apply seq_NoDup. intros i Hi X. apply (g_ids _ _ _ _ _ _ G) in X. apply W in Hi. lia.
  - exists A. split; auto. split.
    + rewrite HA. assert (Nn := g_nodup _ _ _ _ _ _ G). assert (Hn : forall v, In v H -> u_sym v = append "th_" (str_of_nat (u_n v))) by (intros v Hv; apply (g_new _ _ _ _ _ _ G v Hv)).
      clear -Nn Hn. induction H as [|v H IH]; cbn; [constructor|]. cbn in Nn. inversion Nn; subst. constructor.
      * intros X. apply in_map_iff in X as (w & Ew & Hw). apply H2. apply in_map_iff. exists w. split; auto. rewrite (Hn w), (Hn v) in Ew by (cbn; auto).
        injection Ew as Ew. apply str_of_nat_inj; auto.
      * apply IH; auto. intros w Hw. apply Hn. right; auto.
    + rewrite app_length. f_equal. rewrite HU, seq_length. rewrite <- (map_length k_lhs A), HA, map_length. auto.
Qed.

(** Without a sum of angles anywhere the transform only simplifies: the same unknowns and auxiliary equations, every element the simplified one. *)
Lemma elts_same sy l : forall (Td Ts : mat expr) s, NoDup l -> (forall i j, In (i, j) l -> no_sum sy (sy_simplify sy (Td i j)) /\ no_sum sy (sy_simplify sy (Ts i j))) ->
  exists Td' Ts' : mat expr, fold_left (soa_elt sy) l (Some (Td, Ts, s)) = Some (Td', Ts', s)
  /\ (forall i j, In (i, j) l -> Td' i j = sy_simplify sy (Td i j) /\ Ts' i j = sy_simplify sy (Ts i j)) /\ (forall i j, ~ In (i, j) l -> Td' i j = Td i j /\ Ts' i j = Ts i j).
Proof.
  induction l as [|[i j] l IH]; intros Td Ts s N H; cbn [fold_left]. { exists Td, Ts. split; auto. split; [intros ? ? []|auto]. }
  inversion N as [|x y Hx Nl]; subst. destruct (H i j (or_introl eq_refl)) as [H1 H2]. cbn [soa_elt]. rewrite (sub_nothing sy _ s H1). cbn [add_aux add_unk]. rewrite (sub_nothing sy _ s H2).
  assert (Out : forall M v a b, (a, b) <> (i, j) -> set_m M i j v a b = M a b). { intros M v a b Hab. unfold set_m. destruct ((a =? i) && (b =? j)) eqn:Ea; auto. apply andb_prop in Ea as [A B]. apply Nat.eqb_eq in A, B. congruence. }
  assert (Ins : forall M v, set_m M i j v i j = v). { intros M v. unfold set_m. rewrite !Nat.eqb_refl. reflexivity. }
  destruct (IH (set_m Td i j (sy_simplify sy (Td i j))) (set_m Ts i j (sy_simplify sy (Ts i j))) s Nl) as (Td' & Ts' & E & A & B).
  { intros a b Hab. rewrite !Out by congruence. apply H. right; auto. }
  exists Td', Ts'. split; auto. split.
  - intros a b [Hab|Hab]. + injection Hab as <- <-. destruct (B i j Hx) as [-> ->]. rewrite !Ins. auto. + destruct (A a b Hab) as [-> ->]. rewrite !Out by congruence. auto.
  - intros a b Hab. destruct (B a b) as [-> ->]; [intros X; apply Hab; right; auto|]. rewrite !Out. auto. all: intros X; apply Hab; left; auto.
Qed.
Theorem C28_no_sums sy s : (forall M i j, In M (s_meqs s) -> i < 3 -> j < 4 -> no_sum sy (sy_simplify sy (me_Td M i j)) /\ no_sum sy (sy_simplify sy (me_Ts M i j))) ->
  exists Ms, sum_of_angles_transform sy s = Some (set_s_meqs Ms s)
  /\ Forall2 (fun M M' => me_aux M' = me_aux M /\ (forall i j, i < 3 -> j < 4 -> me_Td M' i j = sy_simplify sy (me_Td M i j) /\ me_Ts M' i j = sy_simplify sy (me_Ts M i j))
       /\ (forall i j, 3 <= i -> me_Td M' i j = me_Td M i j /\ me_Ts M' i j = me_Ts M i j)) (s_meqs s) Ms.
Proof.
  intros H. assert (G : forall Ms, (forall M i j, In M Ms -> i < 3 -> j < 4 -> no_sum sy (sy_simplify sy (me_Td M i j)) /\ no_sum sy (sy_simplify sy (me_Ts M i j))) ->
    exists Ms', soa_meqs sy Ms s = Some (Ms', s) /\ Forall2 (fun M M' => me_aux M' = me_aux M /\ (forall i j, i < 3 -> j < 4 -> me_Td M' i j = sy_simplify sy (me_Td M i j) /\ me_Ts M' i j = sy_simplify sy (me_Ts M i j))
       /\ (forall i j, 3 <= i -> me_Td M' i j = me_Td M i j /\ me_Ts M' i j = me_Ts M i j)) Ms Ms').
  { clear H. assert (In12 : forall i j, In (i, j) idx12 <-> i < 3 /\ j < 4). { intros i j. split. - intros X. unfold idx12 in X. simpl in X. repeat destruct X as [X|X]; try (injection X as <- <-; lia); destruct X.
      - intros [A B]. destruct i as [|[|[|i]]]; try lia; (destruct j as [|[|[|[|j]]]]; try lia); unfold idx12; simpl; tauto. }
    induction Ms as [|M Ms IH]; intros H; cbn [soa_meqs]. { exists []. split; auto. }
    unfold soa_meq. destruct (elts_same sy idx12 (me_Td M) (me_Ts M) s idx12_nodup) as (Td & Ts & -> & A & B). { intros i j Hij. apply In12 in Hij as [X Y]. apply H; auto. left; auto. }
    destruct IH as (Ms' & -> & F). { intros; apply H; auto. right; auto. }
    eexists. split; [reflexivity|]. constructor; auto. cbn. split; auto. split; intros i j Hi; [intros Hj; apply A, In12; auto|apply B; rewrite In12; lia]. }
  destruct (G (s_meqs s) H) as (Ms & E & F). exists Ms. unfold sum_of_angles_transform. rewrite E. auto.
Qed.

(** * Concrete runs *)
(** Joints th_1 .. th_4 numbered 1 .. 4, one matrix equation. *)
Definition jstate (vars : list (string * nat)) (M : matrix_equation) : state :=
  St (map (fun x => set_u_n (snd x) (new_unknown (fst x))) vars) (seq 0 (List.length vars)) None None [] [] [] [M] [] 0 [] [].
Definition four := [("th_1", 1); ("th_2", 2); ("th_3", 3); ("d_4", 4)].
Definition opt_state (o : option state) (d : state) : state := match o with Some s => s | None => d end.
Lemma opt_some o d : (match o with Some _ => true | None => false end) = true -> o = Some (opt_state o d).
Proof. destruct o; simpl; congruence. Qed.
Lemma jstate_joints vars M : forallb (fun x => (1 <=? snd x) && (snd x <=? 9)) vars = true -> joints (jstate vars M).
Proof.
  intros Hv. rewrite forallb_forall in Hv. split.
  - cbn. intros i Hi. apply in_seq in Hi. rewrite map_length. lia.
  - intros v Hin. unfold unk_objs in Hin. apply in_map_iff in Hin as (i & <- & Hi). cbn in *. apply in_seq in Hi. unfold getu.
    assert (X : In (nth i (map (fun x : string * nat => set_u_n (snd x) (new_unknown (fst x))) vars) (new_unknown "")) (map (fun x : string * nat => set_u_n (snd x) (new_unknown (fst x))) vars)) by (apply nth_In; rewrite map_length; lia).
    apply in_map_iff in X as (x & <- & Hx). cbn. apply Hv, andb_prop in Hx. destruct Hx as [A B]. apply Nat.leb_le in B. destruct (snd x); [discriminate A|lia].
Qed.
(** Px = d_4 cos(th_2+th_3) + l_1 sin(th_1+th_2+th_3), Py = l_1 sin(th_2+th_3) *)
Definition soa1 := jstate four (meq (fun i j => match i, j with
  | 0, 3 => (px, Add (Mul (Sym "d_4") (Cos (Add (Sym "th_2") (Sym "th_3")))) (Mul l1 (Sin (Add (Add (Sym "th_1") (Sym "th_2")) (Sym "th_3")))))
  | 1, 3 => (py, Mul l1 (Sin (Add (Sym "th_2") (Sym "th_3")))) | _, _ => (Num 0, Num 0) end)).
Definition soa1' := opt_state (sum_of_angles_transform sympy0 soa1) soa1.
Example C28_example : joints soa1 /\ own_names (unk_objs soa1) /\ sum_of_angles_transform sympy0 soa1 = Some soa1'
  /\ map u_sym (unk_objs soa1') = ["th_1"; "th_2"; "th_3"; "d_4"; "th_23"; "th_123"]
  /\ s_aux soa1' = [Keq (Sym "th_23") (Add (Sym "th_2") (Sym "th_3")); Keq (Sym "th_123") (Add (Add (Sym "th_1") (Sym "th_2")) (Sym "th_3"))]
  /\ map (fun M => me_Ts M 0 3) (s_meqs soa1') = [Add (Mul (Sym "d_4") (Cos (Sym "th_23"))) (Mul l1 (Sin (Sym "th_123")))].
Proof.
  split; [apply jstate_joints; reflexivity|]. split.
  { split.
    - intros v Hv. assert (E : unk_objs soa1 = map (fun x => set_u_n (snd x) (new_unknown (fst x))) four) by (vm_compute; reflexivity).
      rewrite E in Hv. cbn in Hv. repeat destruct Hv as [<-|Hv]; try destruct Hv; vm_compute; auto.
    - intros v w Hv Hw. assert (E : unk_objs soa1 = map (fun x => set_u_n (snd x) (new_unknown (fst x))) four) by (vm_compute; reflexivity).
      rewrite E in Hv, Hw. cbn in Hv, Hw. repeat destruct Hv as [<-|Hv]; try destruct Hv; repeat destruct Hw as [<-|Hw]; try destruct Hw; cbn; intros; auto; discriminate. }
  split; [apply opt_some; vm_compute; reflexivity|]. split; [vm_compute; reflexivity|]. split; vm_compute; reflexivity.
Qed.
(** A sum on a left hand side that was not seen before: the new unknown is listed twice and defined twice ... *)
Definition soa2 := jstate four (meq (fun i j => match i, j with 0, 3 => (Mul px (Cos (Add (Sym "th_2") (Sym "th_3"))), l1) | _, _ => (Num 0, Num 0) end)).
Definition soa2' := opt_state (sum_of_angles_transform sympy0 soa2) soa2.
Theorem C28_once_on_left_refuted : exists sy s s', sympy_ok sy /\ joints s /\ NoDup (s_unks s) /\ s_aux s = [] /\ sum_of_angles_transform sy s = Some s'
  /\ ~ NoDup (s_unks s') /\ s_aux s' = let q := Keq (Sym "th_23") (Add (Sym "th_2") (Sym "th_3")) in [q; q].
Proof.
  exists sympy0, soa2, soa2'. split; [apply sympy0_ok|]. split; [apply jstate_joints; reflexivity|]. split; [apply seq_NoDup|]. split; [reflexivity|].
  split; [apply opt_some; vm_compute; reflexivity|]. split; [|vm_compute; reflexivity].
  assert (E : s_unks soa2' = [0; 1; 2; 3; 4; 4]) by (vm_compute; reflexivity). rewrite E. intros X. inversion X; inversion H2; inversion H6; inversion H10; inversion H14; subst. apply H17. left; auto.
Qed.
(** ... so an equation whose only unknown is that angle is counted as having two, and is not in the list of equations
    with one unknown. *)
Theorem C28_double_count_refuted : exists us e, get_unknowns us e = [set_u_n 23 (new_unknown "th_23"); set_u_n 23 (new_unknown "th_23")] /\ count_unknowns us e = 2
  /\ us = unk_objs soa2' /\ e = match s_meqs soa2' with M :: _ => me_Td M 0 3 | [] => Num 0 end /\ (forall x, has x e = true -> x = "Px" \/ x = "th_23").
Proof.
  exists (unk_objs soa2'), (match s_meqs soa2' with M :: _ => me_Td M 0 3 | [] => Num 0 end).
  split; [vm_compute; reflexivity|]. split; [vm_compute; reflexivity|]. split; [reflexivity|]. split; [reflexivity|].
  assert (E : (match s_meqs soa2' with M :: _ => me_Td M 0 3 | [] => Num 0 end) = Mul px (Cos (Sym "th_23"))) by (vm_compute; reflexivity). rewrite E.
  intros x Hx. cbn in Hx. apply orb_prop in Hx as [Hx|Hx]; apply String.eqb_eq in Hx; auto.
Qed.
(** found2/found3 are not reset: after a sum, a single joint variable whose name is not th_<index> is renamed to a
    symbol nobody defines.  (ik_robots.py:352 names the variables A, B, C.) *)
Definition soa3 := jstate [("A", 1); ("B", 2); ("C", 3)] (meq (fun i j => match i, j with
  | 0, 3 => (px, Mul (Sin (Add (Sym "A") (Sym "B"))) (Cos (Sym "C"))) | _, _ => (Num 0, Num 0) end)).
Definition soa3' := opt_state (sum_of_angles_transform sympy0 soa3) soa3.
Theorem C28_renamed_to_nothing_refuted : exists sy s s', sympy_ok sy /\ joints s /\ sum_of_angles_transform sy s = Some s'
  /\ exists M, s_meqs s' = [M] /\ me_Ts M 0 3 = Mul (Sin (Sym "th_12")) (Cos (Sym "th_3")) /\ (forall v, In v (unk_objs s') -> u_sym v <> "th_3")
  /\ forall q, In q (s_aux s') -> has "th_3" (k_lhs q) = false /\ has "th_3" (k_rhs q) = false.
Proof.
  exists sympy0, soa3, soa3'. split; [apply sympy0_ok|]. split; [apply jstate_joints; reflexivity|]. split; [apply opt_some; vm_compute; reflexivity|].
  exists (hd (Meqn (fun _ _ => Num 0) (fun _ _ => Num 0) []) (s_meqs soa3')).
  assert (L : List.length (s_meqs soa3') = 1) by (vm_compute; reflexivity). split. { destruct (s_meqs soa3') as [|M [|]]; try discriminate. reflexivity. }
  split; [vm_compute; reflexivity|]. split.
  - assert (E : map u_sym (unk_objs soa3') = ["A"; "B"; "C"; "th_12"]) by (vm_compute; reflexivity). intros v Hv X. apply (in_map u_sym) in Hv. rewrite E, X in Hv. cbn in Hv. intuition discriminate.
  - assert (E : s_aux soa3' = [Keq (Sym "th_12") (Add (Sym "A") (Sym "B"))]) by (vm_compute; reflexivity). intros q Hq. rewrite E in Hq. destruct Hq as [<-|[]]. split; reflexivity.
Qed.
(** The leaf sum_id of the solver tree: no sum left, nothing done; a sum of angles met, the run ends with a NameError. *)
Theorem C28_sum_id sy s : sum_id sy s = OK true s \/
  (sum_id sy s = Raise /\ exists M e, In M (s_meqs s) /\ In e (get_kequation_list M) /\ (sy_has_sum sy (k_lhs e) = true \/ sy_has_sum sy (k_rhs e) = true)).
Proof.
  unfold sum_id. destruct (existsb _ (s_meqs s)) eqn:E; auto. right. split; auto. apply existsb_exists in E as (M & HM & E). apply existsb_exists in E as (e & He & E).
  apply orb_prop in E. eauto.
Qed.
Example C28_once_example : (forall M i j, In M (s_meqs soa1) -> i < 3 -> j < 4 -> no_sum sympy0 (sy_simplify sympy0 (me_Td M i j))) /\ NoDup (s_unks soa1).
Proof.
  split; [|apply seq_NoDup]. intros M i j [<-|[]] Hi Hj. unfold no_sum. destruct i as [|[|[|i]]]; try lia; (destruct j as [|[|[|[|j]]]]; try lia); intros m Hm; vm_compute in Hm; repeat (destruct Hm as [<-|Hm]; [vm_compute; lia|]); destruct Hm.
Qed.

(** a table with single angles only *)
Definition soa4 := jstate four (meq (fun i j => match i, j with
  | 0, 3 => (px, Mul (Sym "d_4") (Cos (Sym "th_2"))) | 1, 3 => (Mul py (Sin (Sym "th_1")), Mul l1 (Sin (Sym "th_3"))) | _, _ => (Num 0, Num 0) end)).
Example C28_no_sums_example : (forall M i j, In M (s_meqs soa4) -> i < 3 -> j < 4 -> no_sum sympy0 (sy_simplify sympy0 (me_Td M i j)) /\ no_sum sympy0 (sy_simplify sympy0 (me_Ts M i j)))
  /\ exists M, In M (s_meqs soa4) /\ sy_sums sympy0 (sy_simplify sympy0 (me_Ts M 0 3)) <> [].
Proof.
  split.
  - intros M i j [<-|[]] Hi Hj. unfold no_sum. destruct i as [|[|[|i]]]; try lia; (destruct j as [|[|[|[|j]]]]; try lia); split; intros m Hm; vm_compute in Hm; repeat (destruct Hm as [<-|Hm]; [vm_compute; lia|]); destruct Hm.
  - eexists. split; [left; reflexivity|]. intros X. vm_compute in X. discriminate.
Qed.
