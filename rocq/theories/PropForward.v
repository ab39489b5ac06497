(** C79, second part: what the forward kinematics program in the file prints. *)
From Coq Require Import Reals ZArith List String Ascii Bool Arith Lia Lra Permutation.
From Verif Require Import Expr Kin KinSpec KinFacts PropKin SolverSpec Solver SolverHist HistFacts Soa SoaFacts PropSoa SolSet PropHist CodeGen CppFacts PyFile PropPy PyRun PropPyRun NumFK PropNumFK Latex TexFile PropTexFile Session Robots PropRobots PropLine PropRobotKin PropReach PropHead FKRun PropFKRun Cache PropCache PropEndToEnd Program PropProgram FkOnly PropFkOnly.
Import ListNotations.
Local Open Scope string_scope.
Local Open Scope list_scope.
Local Open Scope nat_scope.

(** * The names of the sums of angles *)
Section Names.
Context (sy : sympy) (J : list unk) (D : ascii -> Prop).
Definition tidy (s : state) : Prop :=
  (forall i, In i (s_unks s) -> i < List.length (s_heap s)) /\ forall v, In v (unk_objs s) -> 1 <= u_n v /\ (forall c, In c (chars (str_of_nat (u_n v))) -> D c)
    /\ (In v J \/ (u_sym v = append "th_" (str_of_nat (u_n v)) /\ 2 <= String.length (str_of_nat (u_n v)))).
Lemma index_chars ns c : In c (chars (soa_index ns)) -> exists n, In n ns /\ In c (chars (str_of_nat n)).
Proof.
  intros H. unfold soa_index in H. assert (G : forall l, In c (chars (fold_right append "" l)) -> exists x, In x l /\ In c (chars x)).
  { clear. induction l as [|x l IH]; cbn [fold_right]; [intros []|]. unfold chars. intros H. assert (E : forall a b, list_ascii_of_string (append a b) = list_ascii_of_string a ++ list_ascii_of_string b) by (induction a as [|y a IHa]; intros b; cbn; [auto|rewrite IHa; auto]).
    rewrite E in H. apply in_app_or in H as [H|H]. exists x. split; [left; auto|auto]. destruct (IH H) as (y & A & B). exists y. split; [right; auto|auto]. }
  destruct (G _ H) as (x & Hx & Hc). apply (Permutation_in _ (sort_str_perm _)) in Hx. apply in_map_iff in Hx as (n & <- & Hn). eauto.
Qed.
Lemma str_pos n : 1 <= n -> 1 <= String.length (str_of_nat n).
Proof. intros H. destruct (str_of_nat n) as [|c r] eqn:E; cbn; [|lia]. assert (X := lead_to_uint n H). unfold str_of_nat in E. destruct (Nat.to_uint n); try discriminate. destruct X. Qed.
Lemma index_len ns : (forall n, In n ns -> 1 <= n) -> List.length ns <= String.length (soa_index ns).
Proof.
  intros P. unfold soa_index. assert (G : forall l, (forall x, In x l -> 1 <= String.length x) -> List.length l <= String.length (fold_right append "" l)).
  { induction l as [|x l IH]; cbn [fold_right List.length]; intros H; [lia|]. rewrite str_len_app. assert (A := H x (or_introl eq_refl)). assert (B := IH (fun y Hy => H y (or_intror Hy))). lia. }
  assert (L : List.length (sort_str (map str_of_nat ns)) = List.length ns) by (rewrite (Permutation_length (sort_str_perm _)), map_length; auto). rewrite <- L. apply G.
  intros x Hx. apply (Permutation_in _ (sort_str_perm _)) in Hx. apply in_map_iff in Hx as (n & <- & Hn). apply str_pos; auto.
Qed.
Lemma match_tidy e fnd x1 x2 s m e' fnd' nj ne s' : tidy s -> soa_match sy (e, fnd, x1, x2, s) m = Some (e', fnd', nj, ne, s') -> tidy s' /\ forall i, nj = Some i -> In i (s_unks s').
Proof.
  destruct m as [[a b] c]. intros [T1 T2] E. apply soa_match_cases in E as [(-> & -> & -> & ->)|(ns & Ar & _ & [(v & _ & _ & -> & -> & ->)|(New & id & q & R & -> & ->)])].
  - split; [split; auto|discriminate].
  - split; [split; auto|discriminate].
  - unfold soa_register in R. injection R as -> -> ->. unfold tidy, unk_objs. cbn [s_heap s_unks s_aux set_s_aux set_s_unks set_s_heap]. split.
    2:{ intros i Hi. injection Hi as <-. apply in_or_app. right. left. auto. }
    assert (P : forall n, In n ns -> 1 <= n) by (apply (args_pos (unk_objs s) a b c); auto; intros v Hv; apply T2; auto).
    assert (Nn : ns <> []) by apply Ar. assert (Ok := soa_index_ok ns Nn P).
    assert (Dn : forall n, In n ns -> exists v, In v (unk_objs s) /\ u_n v = n). { destruct Ar as [_ F]. clear -F. intros n Hn. induction F; [destruct Hn|]. destruct Hn as [<-|Hn]; auto. destruct H as (v & Hv & _ & E). eauto. }
    split.
    + intros i Hi. rewrite app_length. cbn. apply in_app_or in Hi as [Hi|[<-|[]]]; [apply T1 in Hi|]; lia.
    + intros v Hv. apply in_map_iff in Hv as (i & <- & Hi). apply in_app_or in Hi as [Hi|[<-|[]]].
      * rewrite getu_app by auto. apply T2. unfold unk_objs. apply in_map. auto.
      * unfold getu. rewrite app_nth2, Nat.sub_diag by lia. cbn [nth u_n u_sym set_u_n new_unknown]. rewrite Ok. split; [apply soa_index_pos; auto|]. split.
        { intros ch Hc. apply index_chars in Hc as (n & Hn & Hc). destruct (Dn n Hn) as (w & Hw & <-). apply (proj1 (proj2 (T2 w Hw))); auto. }
        right. split; auto. destruct ns as [|n [|n2 ns]]; [congruence| |].
        { exfalso. destruct (Dn n (or_introl eq_refl)) as (w & Hw & <-). apply (New w Hw). apply str_of_nat_inj. rewrite Ok. unfold soa_index. cbn [map sort_str fold_right ins_str]. assert (X : forall x, append x "" = x) by (induction x as [|y x IHx]; cbn; [auto|rewrite IHx; auto]). rewrite X. reflexivity. }
        assert (X := index_len (n :: n2 :: ns) P). cbn [List.length] in X. lia.
Qed.
Lemma matches_tidy ms : forall e fnd x1 x2 s e' fnd' nj ne s', tidy s -> (forall i, x1 = Some i -> In i (s_unks s)) -> soa_matches sy ms (e, fnd, x1, x2, s) = Some (e', fnd', nj, ne, s') -> tidy s' /\ forall i, nj = Some i -> In i (s_unks s').
Proof.
  induction ms as [|m ms IH]; cbn [soa_matches]; intros e fnd x1 x2 s e' fnd' nj ne s' T X E. injection E as <- <- <- <- <-. auto.
  destruct (soa_match sy (e, fnd, x1, x2, s) m) as [[[[[e1 f1] n1] q1] s1]|] eqn:Em; [|discriminate]. destruct (match_tidy _ _ _ _ _ _ _ _ _ _ _ T Em) as (T1 & X1). exact (IH _ _ _ _ _ _ _ _ _ _ T1 X1 E).
Qed.
Lemma sub_tidy e s e' nj ne s' : tidy s -> sum_of_angles_sub sy e s = Some (e', nj, ne, s') -> tidy s' /\ forall i, nj = Some i -> In i (s_unks s').
Proof.
  intros T. unfold sum_of_angles_sub. destruct (soa_matches _ _ _) as [[[[[e1 f1] n1] q1] s1]|] eqn:Em; [|discriminate]. intros E. injection E as <- <- <- <-. apply (matches_tidy _ _ _ _ _ _ _ _ _ _ _ T) in Em; auto. discriminate.
Qed.
Lemma add_tidy s nj ne : tidy s -> (forall i, nj = Some i -> In i (s_unks s)) -> tidy (add_aux ne (add_unk nj s)).
Proof.
  intros [T1 T2] X. assert (T : tidy (add_unk nj s)).
  { destruct nj as [i|]; [|split; auto]. split; unfold unk_objs; cbn [add_unk s_unks s_heap set_s_unks].
    - intros k Hk. apply in_app_or in Hk as [Hk|[<-|[]]]; auto.
    - intros v Hv. apply T2. rewrite map_app in Hv. apply in_app_or in Hv as [Hv|[<-|[]]]; auto. unfold unk_objs. apply in_map. auto. }
  destruct ne; exact T.
Qed.
Lemma elt_tidy l : forall Td Ts s Td' Ts' s', tidy s -> fold_left (soa_elt sy) l (Some (Td, Ts, s)) = Some (Td', Ts', s') -> tidy s'.
Proof.
  induction l as [|ij l IH]; cbn [fold_left]; intros Td Ts s Td' Ts' s' T E. injection E as _ _ <-. auto.
  destruct (soa_elt sy (Some (Td, Ts, s)) ij) as [[[Td1 Ts1] s1]|] eqn:E1. 2:{ exfalso. clear -E. induction l; [discriminate|]. auto. }
  refine (IH _ _ _ _ _ _ _ E). destruct ij as [i j]. cbn [soa_elt] in E1. destruct (sum_of_angles_sub sy (sy_simplify sy (Td i j)) s) as [[[[lhs nj] ne] s2]|] eqn:E2; [|discriminate].
  destruct (sum_of_angles_sub sy (sy_simplify sy (Ts i j)) _) as [[[[rhs x] y] s3]|] eqn:E3; [|discriminate]. injection E1 as _ _ <-.
  destruct (sub_tidy _ _ _ _ _ _ T E2) as (T2 & X2). exact (proj1 (sub_tidy _ _ _ _ _ _ (add_tidy _ _ _ T2 X2) E3)).
Qed.
Lemma meqs_tidy Ms : forall s Ms' s', tidy s -> soa_meqs sy Ms s = Some (Ms', s') -> tidy s'.
Proof.
  induction Ms as [|M Ms IH]; cbn [soa_meqs]; intros s Ms' s' T E. injection E as _ <-. auto.
  destruct (soa_meq sy M s) as [[M1 s1]|] eqn:E1; [|discriminate]. destruct (soa_meqs sy Ms s1) as [[Ms2 s2]|] eqn:E2; [|discriminate]. injection E as _ <-. refine (IH _ _ _ _ E2).
  unfold soa_meq in E1. destruct (fold_left (soa_elt sy) idx12 _) as [[[Td Ts] s3]|] eqn:E3; [|discriminate]. injection E1 as _ <-. exact (elt_tidy _ _ _ _ _ _ _ T E3).
Qed.
Lemma transform_tidy s s' : tidy s -> sum_of_angles_transform sy s = Some s' -> tidy s'.
Proof. intros T E. apply transform_split in E as (Ms & s1 & E & ->). exact (meqs_tidy _ _ _ _ T E). Qed.
End Names.
(** a subscript of a sum: two or more of the joints' numbers *)
Definition sum_subscript (n : nat) (x : string) : Prop := 2 <= String.length x /\ forall c, In c (chars x) -> exists i, i < n /\ str_of_nat (S i) = String c "".
Lemma variables_named sy nice vars rows s0 : sympy_ok sy -> List.length vars <= 9 -> prepared sy nice vars rows = Some s0 ->
  exists xs, variables s0 = vars ++ map (append "th_") xs /\ Forall (sum_subscript (List.length vars)) xs.
Proof.
  intros OK V9 Pr. unfold prepared in Pr. destruct (robot_state nice vars rows) as [s1|] eqn:E1; [|discriminate]. destruct (sum_of_angles_transform sy s1) as [s2|] eqn:E2; [|discriminate].
  destruct (scan_for_equations sy (s_meqs s2) (s_aux s2) (unk_objs s2)) as [L|] eqn:E3; [|discriminate]. injection Pr as <-.
  destruct (robot_state_spec _ _ _ _ E1) as (T01 & T12 & T23 & T34 & T45 & T56 & EL & Es1). assert (Ob : unk_objs s1 = numbered vars) by (apply objs_numbered; rewrite Es1; reflexivity).
  assert (J : joints s1).
  { split. rewrite Es1. cbn. intros i Hi. apply in_seq in Hi. rewrite numbered_len. lia.
    rewrite Ob. intros v Hv. apply in_numbered in Hv as (i & x & Hi & ->). cbn. assert (i < List.length vars) by (apply nth_error_Some; congruence). lia. }
  destruct (C28_registered sy s1 s2 OK J E2) as (H & U & A2 & EH & EU & EA2 & HF & _ & _ & HO & HI & _).
  set (Dg := fun c => exists i, i < List.length vars /\ str_of_nat (S i) = String c "").
  assert (T : tidy (unk_objs s1) Dg s1).
  { split; [apply J|]. intros v Hv. assert (X := proj2 J v Hv). split; [lia|]. split; [|auto]. rewrite Ob in Hv. apply in_numbered in Hv as (i & x & Hi & ->). cbn [u_n set_u_n] in *. destruct (str_digit (S i) X) as (ch & Ec). rewrite Ec. intros c [<-|[]]. exists i. split; auto. apply nth_error_Some. congruence. }
  assert (T2 := transform_tidy sy _ Dg s1 s2 T E2). destruct L as [[l1 l2] l3].
  assert (Vs : variables (set_lists (l1, l2, l3) s2) = map (fun i => u_sym (getu (s_heap s2) i)) (s_unks s2)). { unfold variables, unk_objs. rewrite map_map. reflexivity. }
  rewrite Vs, EU, map_app. exists (map (fun i => str_of_nat (u_n (getu (s_heap s2) i))) U). split.
  - f_equal.
    + transitivity (map u_sym (unk_objs s1)). { unfold unk_objs. rewrite map_map. apply map_ext_in. intros i Hi. rewrite EH, getu_app; auto. apply J. auto. }
      rewrite Ob. unfold numbered. rewrite map_map. clear. generalize 0. induction vars as [|v vs IH]; intros k; cbn; auto. f_equal. apply IH.
    + rewrite map_map. apply map_ext_in. intros i Hi. apply HI in Hi. assert (X : In (getu (s_heap s2) i) H). { rewrite EH in *. unfold getu. rewrite app_nth2 by lia. apply nth_In. rewrite app_length in Hi. lia. } apply (HF _ X).
  - apply Forall_forall. intros x Hx. apply in_map_iff in Hx as (i & <- & Hi). assert (O : In (getu (s_heap s2) i) (unk_objs s2)) by (unfold unk_objs; apply in_map; rewrite EU; apply in_or_app; auto).
    apply HI in Hi. assert (X : In (getu (s_heap s2) i) H). { rewrite EH in *. unfold getu. rewrite app_nth2 by lia. apply nth_In. rewrite app_length in Hi. lia. }
    destruct (proj2 T2 _ O) as (_ & C & [Y|(_ & L2)]). exfalso. exact (HO _ _ X Y eq_refl). split; auto.
Qed.

(** * The sums of angles do not change what is printed *)
Lemma pyeval_agree m m' e : (forall y, has y e = true -> m y = m' y) -> pyeval m e = pyeval m' e.
Proof.
  induction e; cbn [pyeval has]; intros H; auto;
    try (rewrite IHe1, IHe2; auto; intros y Hy; apply H; rewrite Hy, ?orb_true_r; auto; fail);
    try (rewrite IHe; auto; fail).
  apply H. apply String.eqb_refl.
Qed.
Lemma run_prefix p : (forall s, In s p -> match s with FParam _ _ | FJoint _ => True | _ => False end) -> forall m, (forall t, run_fk (p ++ t) m = None) \/
  exists m', (forall t, run_fk (p ++ t) m = run_fk t m') /\ (forall x, m x <> None -> m' x <> None) /\ forall v, In (FJoint v) p -> m' v <> None.
Proof.
  induction p as [|s p IH]; intros H m. { right. exists m. cbn. split; auto. }
  assert (Hs := H s (or_introl eq_refl)). assert (Hp : forall s, In s p -> match s with FParam _ _ | FJoint _ => True | _ => False end) by (intros; apply H; right; auto).
  assert (Set1 : forall x a y, m y <> None -> pset m x a y <> None) by (intros x a y Hy; unfold pset; destruct (String.eqb y x); [discriminate|auto]).
  destruct s as [x v|x|x ws|M]; try contradiction; cbn [app run_fk].
  - destruct (pval_eval m v) as [a|]; [|left; auto]. destruct (IH Hp (pset m x a)) as [N|(m' & R & K & J)]; [left; auto|]. right. exists m'. split; auto. split; [auto|]. intros w [E|Hw]; [discriminate|auto].
  - destruct (IH Hp (pset m x 1%R)) as [N|(m' & R & K & J)]; [left; auto|]. right. exists m'. split; auto. split; [auto|]. intros w [E|Hw]; auto. injection E as <-. apply K. unfold pset. rewrite String.eqb_refl. discriminate.
Qed.
Lemma sums_any js ss : (forall v, In v ss -> parts js v <> []) -> forall m t, (forall j, In j js -> m (joint_var j) <> None) ->
  exists m', run_fk (map (fun v => FSum (sum_var v) (parts js v)) ss ++ t) m = run_fk t m' /\ forall x, ~ In x (map sum_var ss) -> m' x = m x.
Proof.
  induction ss as [|v ss IH]; intros P m t J; cbn [map app]. { exists m. auto. }
  destruct (psum_some m (parts js v)) as (a & E). { apply P; left; auto. } { intros w Hw. apply parts_in in Hw as (j & Hj & ->). auto. }
  destruct (IH (fun w Hw => P w (or_intror Hw)) (pset m (sum_var v) a) t) as (m' & R & O). { intros j Hj. unfold pset. destruct (String.eqb (joint_var j) (sum_var v)); [discriminate|auto]. }
  exists m'. split. { cbn [run_fk]. rewrite E. exact R. } intros x Hx. cbn [map In] in Hx. rewrite O by tauto. unfold pset. destruct (String.eqb_spec x (sum_var v)) as [->|]; [exfalso; apply Hx; auto|auto].
Qed.
Lemma symbols_set m M V : run_fk [FResult M] m = Some V -> forall i j x, i < 4 -> j < 4 -> has x (M i j) = true -> m x <> None.
Proof.
  cbn [run_fk]. destruct (forallb _ idx) eqn:F; [|discriminate]. intros _ i j x Hi Hj Hx. rewrite forallb_forall in F. specialize (F (i, j) (idx_all i j Hi Hj)). cbn [fst snd] in F.
  destruct (pyeval m (M i j)) as [v|] eqn:E; [|discriminate]. destruct (pyeval_reads m _ _ x E Hx) as (w & ->). discriminate.
Qed.
(** A program whose sums of angles have names of their own prints what the program without them prints. *)
Theorem C79_sums_ignored ps js ss M V : (forall v, In v ss -> parts js v <> []) ->
  (forall v i j, In v ss -> i < 4 -> j < 4 -> has (sum_var v) (M i j) = false) ->
  fk_run (fk_stmts ps js [] M) = Some V -> exists V', fk_run (fk_stmts ps js ss M) = Some V' /\ Meq 4 V' V.
Proof.
  intros P A H. unfold fk_run, fk_stmts in *. cbn [map app] in H. rewrite app_assoc in *.
  set (p := map (fun pv => FParam (fst pv) (snd pv)) ps ++ map (fun j => FJoint (joint_var j)) js) in *.
  destruct (run_prefix p) with (m := (fun _ => None) : penv) as [N|(m2 & R & _ & J)].
  { intros s Hs. unfold p in Hs. apply in_app_or in Hs as [Hs|Hs]; apply in_map_iff in Hs as (? & <- & _); exact I. }
  { rewrite N in H. discriminate. }
  rewrite R in *.
  destruct (sums_any js ss P m2 [FResult M]) as (m3 & R3 & O). { intros j Hj. apply J. unfold p. apply in_or_app. right. apply in_map_iff. eauto. }
  rewrite R3. assert (E : forall i j, i < 4 -> j < 4 -> pyeval m3 (M i j) = pyeval m2 (M i j)).
  { intros i j Hi Hj. apply pyeval_agree. intros y Hy. apply O. intros X. apply in_map_iff in X as (v & <- & Hv). rewrite (A v i j Hv Hi Hj) in Hy. discriminate. }
  cbn [run_fk] in *. destruct (forallb (fun ij => if pyeval m2 (M (fst ij) (snd ij)) then true else false) idx) eqn:F; [|discriminate]. injection H as <-.
  assert (F3 : forallb (fun ij => if pyeval m3 (M (fst ij) (snd ij)) then true else false) idx = true).
  { rewrite forallb_forall in *. intros (i, j) Hij. destruct (idx44_lt (i, j) Hij) as [Hi Hj]. cbn [fst snd] in *. rewrite E by auto. exact (F (i, j) Hij). }
  rewrite F3. eexists. split; [reflexivity|]. intros i j Hi Hj. cbn beta. rewrite E by auto. reflexivity.
Qed.
(** the names of the sums are not read if they are different from those of the parameters and joints *)
Lemma sums_unread ps js ss M V : fk_run (fk_stmts ps js [] M) = Some V -> (exists rho, setting ps js [] rho) -> (forall v, In v ss -> ~ In (sum_var v) (map fst ps) /\ ~ In (sum_var v) (map joint_var js)) ->
  forall v i j, In v ss -> i < 4 -> j < 4 -> has (sum_var v) (M i j) = false.
Proof.
  intros H (rho & S) A v i j Hv Hi Hj. destruct (has (sum_var v) (M i j)) eqn:E; auto. exfalso. destruct (A v Hv). destruct (fk_value _ _ _ _ _ rho H S) as (_ & D). destruct (D _ i j Hi Hj E) as [X|[X|[]]]; auto.
Qed.

(** * The texts of the parameters *)
Lemma mapM_pairs {A B C} (f : A -> option C) (k : B -> A) (h : B -> C) L : (forall b, In b L -> f (k b) = Some (h b)) -> mapM f (map k L) = Some (map h L).
Proof. induction L as [|b L IH]; cbn [map mapM]; intros H; auto. rewrite (H b) by (left; auto). rewrite IH by (intros; apply H; right; auto). auto. Qed.
Lemma alpha_text nice show rows : forall i s v, In (s, v) (alpha_pvals nice i rows) -> exists e, In (s, e) (alpha_params nice i rows)
  /\ match e with Cos a => append "np.cos(" (append (show a) ")") | Sin a => append "np.sin(" (append (show a) ")") | _ => show e end = pval_text show v.
Proof.
  induction rows as [|r rows IH]; intros i s v H; cbn [alpha_params alpha_pvals] in *; [destruct H|]. apply in_app_iff in H as [H|H].
  - destruct (nice (d_al r)); cbn in H; [destruct H|]. destruct H as [H|[H|[]]]; injection H as <- <-; eexists; (split; [apply in_or_app; left; cbn; eauto|reflexivity]).
  - destruct (IH _ _ _ H) as (e & A & B). exists e. split; auto. apply in_or_app. auto.
Qed.
Lemma find_fst {B} (l : list (string * B)) p : In p (map fst l) -> exists e, find (fun q => String.eqb (fst q) p) l = Some (p, e).
Proof.
  induction l as [|(x, e) l IH]; cbn [map find In fst]; [intros []|]. destruct (String.eqb_spec x p) as [->|N]; [eauto|]. intros [H|H]; [congruence|auto].
Qed.
Lemma find_none {B} (l l' : list (string * B)) p : ~ In p (map fst l) -> find (fun q => String.eqb (fst q) p) (l ++ l') = find (fun q => String.eqb (fst q) p) l'.
Proof. induction l as [|(x, e) l IH]; cbn [map find In fst app]; auto. intros H. destruct (String.eqb_spec x p) as [->|N]; [exfalso; apply H; auto|]. apply IH. auto. Qed.
Lemma find_some {B} (l l' : list (string * B)) p r : find (fun q => String.eqb (fst q) p) l = Some r -> find (fun q => String.eqb (fst q) p) (l ++ l') = Some r.
Proof. induction l as [|(x, e) l IH]; cbn [find app fst]; [discriminate|]. destruct (String.eqb x p); auto. Qed.
Lemma find_own {B} (l : list (string * B)) p e : NoDup (map fst l) -> In (p, e) l -> find (fun q => String.eqb (fst q) p) l = Some (p, e).
Proof.
  induction l as [|(x, e') l IH]; cbn [map find In fst]; [intros _ []|]. intros N H. inversion N; subst. destruct H as [H|H]. injection H as -> ->. rewrite String.eqb_refl. auto.
  destruct (String.eqb_spec x p) as [->|]; [|auto]. exfalso. apply H2. change p with (fst (p, e)). apply in_map. auto.
Qed.
Lemma texts_first nice show d (vv : list nat) (k : state) : List.length (rd_dh d) = 6 -> rd_pvals d <> [] -> (forall p, In p (rd_params d) -> In p (map fst (rd_pvals d))) ->
  (forall x, In x (map fst (alpha_pvals nice 0 (rd_dh d))) -> ~ In x (rd_params d) /\ ~ In x (map fst (rd_pvals d))) ->
  param_texts nice show (Mech (rd_dh d) (rd_params d ++ map fst (alpha_params nice 0 (rd_dh d))) (rd_pvals d ++ alpha_params nice 0 (rd_dh d)) vv k) (rd_params d ++ map fst (alpha_params nice 0 (rd_dh d)))
    = Some (map (fun pv => (fst pv, pval_text show (snd pv))) (stored d ++ alpha_pvals nice 0 (rd_dh d))).
Proof.
  intros L6 NE HP HA. unfold param_texts. cbn [m_pvals m_dh]. set (al := alpha_params nice 0 (rd_dh d)) in *.
  assert (X : exists c l, rd_pvals d ++ al = c :: l) by (destruct (rd_pvals d) as [|c l]; [congruence|cbn; eauto]). destruct X as (c & l & X). rewrite X. rewrite <- X. clear c l X.
  assert (EA : map fst al = map fst (alpha_pvals nice 0 (rd_dh d))) by apply alpha_fst.
  rewrite EA, <- (stored_fst d), <- map_app. apply mapM_pairs. intros (p, v) Hb. cbn [fst snd]. apply in_app_or in Hb as [Hb|Hb].
  - assert (Hp : In p (rd_params d)) by (rewrite <- stored_fst; change p with (fst (p, v)); apply in_map; auto).
    destruct (find_fst (rd_pvals d) p (HP p Hp)) as (e & E). rewrite (find_some _ _ _ _ E). cbn [snd]. f_equal. f_equal. unfold val_text. cbn [m_dh]. fold al.
    assert (Na : existsb (String.eqb p) (map fst al) = false). { destruct (existsb _ _) eqn:Ex; auto. exfalso. apply existsb_exists in Ex as (y & Hy & Ey). apply String.eqb_eq in Ey. subst y. rewrite EA in Hy. apply (proj1 (HA p Hy)); auto. }
    rewrite Na. unfold stored in Hb. apply in_map_iff in Hb as (q & Eq & _). injection Eq as <- <-. rewrite E. reflexivity.
  - assert (Hp : In p (map fst (alpha_pvals nice 0 (rd_dh d)))) by (change p with (fst (p, v)); apply in_map; auto).
    destruct (alpha_text nice show _ _ _ _ Hb) as (e & He & T). rewrite find_none by (apply HA; auto). fold al in He. rewrite (find_own al p e) by (auto; rewrite EA; apply alpha_names; auto). cbn [snd]. f_equal. f_equal.
    unfold val_text. cbn [m_dh]. fold al. assert (Ya : existsb (String.eqb p) (map fst al) = true). { apply existsb_exists. exists p. rewrite EA, String.eqb_refl. auto. } rewrite Ya. exact T.
Qed.

(** * The lines of the file *)
Lemma split_printed out : split_lines (printed out) = file_lines out ++ [""].
Proof.
  induction out as [|s out IH]; [reflexivity|]. unfold printed. cbn [map concat_s]. unfold file_lines. cbn [map List.concat]. assert (A : append (append s nls) (concat_s (map (fun s => append s nls) out)) = append s (String nl (printed out))) by (unfold printed; rewrite append_assoc; reflexivity).
  rewrite A, split_nl, IH, <- app_assoc. reflexivity.
Qed.

(** * A robot of the catalogue *)
Fixpoint last_char (s : string) : string := match s with EmptyString => "" | String c EmptyString => String c "" | String _ t => last_char t end.
Definition forward_check (d : robot_def) : bool :=
  match rd_pvals d with [] => false | _ => true end
  && forallb (fun p => negb (String.prefix "th_" p) && no_nl p && memb p (map fst (rd_pvals d))) (rd_params d)
  && forallb (fun x => negb (memb x (map fst (rd_pvals d))) && negb (memb x (rd_params d)) && negb (memb x (rd_vars d))) (List.concat (map (fun i => [ca_name i; sa_name i]) (seq 0 6)))
  && (List.length (rd_vars d) <=? 9)
  && forallb (fun iv => String.eqb (last_char (snd iv)) (str_of_nat (fst iv)) && (String.length (snd iv) <=? 4)) (combine (seq 1 (List.length (rd_vars d))) (rd_vars d)).
Lemma last_joint j : last_char (joint_var j) = String (snd j) "".
Proof.
  destruct j as [a c]. unfold joint_var. cbn [fst snd]. induction a as [|x a IH]; [reflexivity|]. change (append (String x a) (append "_" (String c ""))) with (String x (append a (append "_" (String c "")))).
  destruct (append a (append "_" (String c ""))) as [|y r] eqn:E; [destruct a; discriminate|]. exact IH.
Qed.
Lemma prefix_th x : String.prefix "th_" (append "th_" x) = true.
Proof. destruct x; reflexivity. Qed.
Lemma digits_nine i : i < 9 -> forall c, str_of_nat (S i) = String c "" -> digit c = true.
Proof. intros H. do 9 (destruct i as [|i]; [intros c E; injection E as <-; reflexivity|]). lia. Qed.
Lemma all_chars_in f s : (forall c, In c (list_ascii_of_string s) -> f c = true) -> all_chars f s = true.
Proof. induction s as [|c s IH]; cbn [list_ascii_of_string all_chars In]; intros H; auto. rewrite (H c) by auto. apply IH. auto. Qed.
(** what a program that does not raise reads, it has set *)
Lemma run_reads_gen p : (forall s, In s p -> match s with FResult _ => False | _ => True end) -> forall m M V x i j, i < 4 -> j < 4 -> has x (M i j) = true -> run_fk (p ++ [FResult M]) m = Some V ->
  m x <> None \/ In x (map (fun s => match s with FParam y _ | FJoint y | FSum y _ => y | FResult _ => "" end) p).
Proof.
  assert (Set1 : forall (m : penv) y a x, pset m y a x <> None -> m x <> None \/ y = x) by (intros m y a x; unfold pset; destruct (String.eqb_spec x y); auto).
  induction p as [|s p IH]; intros H m M V x i j Hi Hj Hx E. { left. exact (symbols_set m M V E i j x Hi Hj Hx). }
  assert (Hs := H s (or_introl eq_refl)). assert (Hp : forall s, In s p -> match s with FResult _ => False | _ => True end) by (intros; apply H; right; auto).
  destruct s as [y v|y|y ws|M']; try contradiction; cbn [app run_fk map In] in *.
  - destruct (pval_eval m v) as [a|]; [|discriminate]. destruct (IH Hp _ _ _ x i j Hi Hj Hx E) as [X|X]; auto. apply Set1 in X as [X|X]; auto.
  - destruct (IH Hp _ _ _ x i j Hi Hj Hx E) as [X|X]; auto. apply Set1 in X as [X|X]; auto.
  - destruct (psum m ws) as [a|]; [|discriminate]. destruct (IH Hp _ _ _ x i j Hi Hj Hx E) as [X|X]; auto. apply Set1 in X as [X|X]; auto.
Qed.
Lemma run_reads ps js ss M V x i j : i < 4 -> j < 4 -> has x (M i j) = true -> fk_run (fk_stmts ps js ss M) = Some V -> In x (map fst ps) \/ In x (map joint_var js) \/ In x (map sum_var ss).
Proof.
  intros Hi Hj Hx E. unfold fk_run, fk_stmts in E. rewrite !app_assoc in E. apply (run_reads_gen _) with (x := x) (i := i) (j := j) in E; auto.
  - destruct E as [E|E]; [congruence|]. rewrite !map_app, !map_map in E. apply in_app_or in E as [E|E]; [apply in_app_or in E as [E|E]; auto|auto].
  - intros s Hs. apply in_app_or in Hs as [Hs|Hs]; [apply in_app_or in Hs as [Hs|Hs]|]; apply in_map_iff in Hs as (? & <- & _); exact I.
Qed.
Lemma texts_lost nice show d (vv : list nat) (k : state) (all : list string) : rd_pvals d <> [] -> (forall p, In p (rd_params d) -> In p (map fst (rd_pvals d))) ->
  (forall x, In x (map fst (alpha_pvals nice 0 (rd_dh d))) -> ~ In x (rd_params d)) ->
  param_texts nice show (Mech (rd_dh d) all (rd_pvals d ++ alpha_params nice 0 (rd_dh d)) vv k) (rd_params d) = Some (map (fun pv => (fst pv, pval_text show (snd pv))) (stored d)).
Proof.
  intros NE HP HA. unfold param_texts. cbn [m_pvals m_dh]. set (al := alpha_params nice 0 (rd_dh d)) in *.
  assert (X : exists c l, rd_pvals d ++ al = c :: l) by (destruct (rd_pvals d) as [|c l]; [congruence|cbn; eauto]). destruct X as (c & l & X). rewrite X. rewrite <- X. clear c l X.
  assert (EA : map fst al = map fst (alpha_pvals nice 0 (rd_dh d))) by apply alpha_fst.
  rewrite <- (stored_fst d). apply mapM_pairs. intros (p, v) Hb. cbn [fst snd].
  assert (Hp : In p (rd_params d)) by (rewrite <- stored_fst; change p with (fst (p, v)); apply in_map; auto).
  destruct (find_fst (rd_pvals d) p (HP p Hp)) as (e & E). rewrite (find_some _ _ _ _ E). cbn [snd]. f_equal. f_equal. unfold val_text. cbn [m_dh]. fold al.
  assert (Na : existsb (String.eqb p) (map fst al) = false). { destruct (existsb _ _) eqn:Ex; auto. exfalso. apply existsb_exists in Ex as (y & Hy & Ey). apply String.eqb_eq in Ey. subst y. rewrite EA in Hy. apply (HA p Hy); auto. }
  rewrite Na. unfold stored in Hb. apply in_map_iff in Hb as (q & Eq & _). injection Eq as <- <-. rewrite E. reflexivity.
Qed.
Section Catalogue.
Context (sy : sympy) (OK : sympy_ok sy) (nice : expr -> bool) (trigsimp : expr -> expr) (HT : good_simp trigsimp) (HN : no_new_symbols trigsimp) (show : expr -> string) (Hs : forall e, no_nl (show e) = true) (mats : @mech (list nat) state -> matrices).
(** the mechanism object after its kinematics has been computed, and that a request for it is answered with it *)
Definition computed (d : robot_def) (s0 : state) : @mech (list nat) state :=
  Mech (rd_dh d) (rd_params d ++ map fst (alpha_params nice 0 (rd_dh d))) (rd_pvals d ++ alpha_params nice 0 (rd_dh d)) (rd_vv d) s0.
Definition shipped (n : string) : Prop := n <> "Mackler13" /\ n <> "Wrist" /\ n <> "MiniDD".
(** the lines of the text are, up to lines that do nothing, a heading, the statements of the program, and the prints at its end *)
Definition text_of (text : string) (ps : list (string * pval)) (js : list (string * ascii)) (ss : list (string * string)) (M : mat expr) : Prop :=
  exists a b c, split_lines text = a ++ map (fline show) (map (fun pv => FParam (fst pv) (snd pv)) ps) ++ b ++ map (fline show) (map (fun j => FJoint (joint_var j)) js ++ map (fun v => FSum (sum_var v) (parts js v)) ss) ++ c ++ [fline show (FResult M)]
       ++ [""; "print(f""T06 has {T06.rows} rows and {T06.cols} cols"")"; ""; "print(T06)"; ""; ""] /\ (forall l, In l b \/ In l c -> idle l).
Lemma shipped_computed n d us s0 : robot_params n = Described d us -> shipped n -> prepared sy nice (rd_vars d) (rd_dh d) = Some s0 -> Cache.compute nice (fk_main sy nice) (request_of n d) = Some (computed d s0, rd_vars d).
Proof.
  intros HD (_ & _ & ND) Pr. assert (V6 := described_check (fun d => 6 <=? List.length (rd_vv d)) ["MiniDD"] ltac:(vm_compute; reflexivity) n d us HD). cbn beta in V6. assert (V6' : (6 <=? List.length (rd_vv d)) = true) by (apply V6; intros [X|[]]; auto).
  unfold Cache.compute, fk_main. cbn [request_of q_vv q_unks q_dh q_params q_pvals]. rewrite V6', Pr. reflexivity.
Qed.
(** for the parameters of the description, with or without the constants of the inclined axes *)
Lemma forward_work n d us s0 (lost : bool) : robot_params n = Described d us -> shipped n -> prepared sy nice (rd_vars d) (rd_dh d) = Some s0 ->
  let ps := stored d ++ (if lost then [] else alpha_pvals nice 0 (rd_dh d)) in
  let M := fk_T06 trigsimp nice (rd_dh d) in
  exists text w js ss, fk_work nice trigsimp show mats (View (computed d s0) (rd_vars d) n (if lost then rd_params d else m_params (computed d s0))) = ([(fk_python_filename n, Whole text); w], FkDone)
  /\ String.eqb (fst w) (fk_python_filename n) = false /\ text_of text ps js ss M /\ map joint_var js = rd_vars d /\ (forall v, In v ss -> parts js v <> [])
  /\ (forall v, In v ss -> ~ In (sum_var v) (map fst (stored d ++ alpha_pvals nice 0 (rd_dh d))) /\ ~ In (sum_var v) (map joint_var js))
  /\ (forall x, In x (map fst (alpha_pvals nice 0 (rd_dh d))) -> ~ In x (map fst (stored d)) /\ ~ In x (map joint_var js))
  /\ (exists V, fk_run (fk_stmts (stored d ++ alpha_pvals nice 0 (rd_dh d)) js [] M) = Some V /\ forall rho, setting (stored d ++ alpha_pvals nice 0 (rd_dh d)) js [] rho -> Meq 4 V (FK rho (rd_dh d)) /\ rigid V)
  /\ exists rho, setting (stored d ++ alpha_pvals nice 0 (rd_dh d)) js [] rho.
Proof.
  intros HD (NM & NW & ND) Pr ps0 M.
  assert (C := described_check forward_check ["Mackler13"; "Wrist"] ltac:(vm_compute; reflexivity) n d us HD). assert (C' : forward_check d = true) by (apply C; intros [X|[X|[]]]; auto). clear C.
  unfold forward_check in C'. rewrite !andb_true_iff in C'. destruct C' as ((((CP & CQ) & CA) & CL) & CV). rewrite forallb_forall in CQ, CA, CV. apply Nat.leb_le in CL.
  assert (L6 := rd_six n d us HD). destruct (alpha_names nice (rd_dh d) L6) as (AN & AI).
  assert (AA : forall x, In x (map fst (alpha_pvals nice 0 (rd_dh d))) -> (~ In x (rd_params d) /\ ~ In x (map fst (rd_pvals d))) /\ ~ In x (rd_vars d)).
  { intros x Hx. apply AI, CA in Hx. rewrite !andb_true_iff, !negb_true_iff in Hx. destruct Hx as ((X & Y) & W). split; [split|]; intros Z; apply memb_in in Z; congruence. }
  assert (PP : forall p, In p (rd_params d) -> String.prefix "th_" p = false /\ no_nl p = true /\ In p (map fst (rd_pvals d))).
  { intros p Hp. apply CQ in Hp. rewrite !andb_true_iff, negb_true_iff in Hp. destruct Hp as ((P1 & P2) & P3). split; auto. split; auto. apply memb_in; auto. }
  destruct (C74_catalogue trigsimp HT HN nice n d us HD NM NW) as (js & EJ & GJ & (V & EV & HV) & RS).
  set (ps := stored d ++ alpha_pvals nice 0 (rd_dh d)) in *. 
  destruct (variables_named sy nice (rd_vars d) (rd_dh d) s0 OK CL Pr) as (xs & EX & FX). rewrite Forall_forall in FX.
  set (ss := map (pair "th") xs).
  assert (Ess : map sum_var ss = map (append "th_") xs) by (unfold ss; rewrite map_map; reflexivity).
  (* the k-th joint ends in its number *)
  assert (Jn : forall i, i < List.length (rd_vars d) -> exists j, In j js /\ String (snd j) "" = str_of_nat (S i)).
  { intros i Hi. assert (Hl : List.length js = List.length (rd_vars d)) by (rewrite <- EJ, map_length; auto). destruct (nth_error js i) as [j|] eqn:Ej; [|apply nth_error_None in Ej; lia]. exists j. split; [apply (nth_error_In _ _ Ej)|].
    rewrite <- last_joint. assert (Hv : nth_error (rd_vars d) i = Some (joint_var j)) by (rewrite <- EJ; apply map_nth_error; auto).
    assert (G : forall (l : list string) k i v, nth_error l i = Some v -> In (k + i, v) (combine (seq k (List.length l)) l)).
    { clear. induction l as [|w l IH]; intros k i v H; [destruct i; discriminate|]. destruct i as [|i]; cbn [nth_error] in H; cbn [List.length seq combine]. injection H as ->. left. f_equal. lia. right. replace (k + S i) with (S k + i) by lia. apply IH; auto. }
    assert (I := G _ 1 i _ Hv). apply CV in I. cbn [fst snd] in I. apply andb_prop in I as [I _]. apply String.eqb_eq in I. exact I. }
  assert (Xc : forall v c, In v ss -> In c (list_ascii_of_string (snd v)) -> digit c = true /\ exists j, In j js /\ snd j = c).
  { intros v c Hv Hc. unfold ss in Hv. apply in_map_iff in Hv as (x & <- & Hx). cbn [snd] in Hc. destruct (FX x Hx) as (_ & D). destruct (D c Hc) as (i & Hi & E). split. apply (digits_nine i) ; auto. lia. destruct (Jn i Hi) as (j & Hj & Ej). exists j. split; auto. rewrite E in Ej. injection Ej. auto. }
  assert (Gs : Forall good_sum ss).
  { apply Forall_forall. intros v Hv. assert (Hv' := Hv). unfold ss in Hv'. apply in_map_iff in Hv' as (x & <- & Hx). destruct (FX x Hx) as (L2 & _). unfold good_sum. cbn [fst snd]. split; [reflexivity|]. split; [discriminate|]. split; [|lia]. apply all_chars_in. intros c Hc. apply (Xc _ c Hv Hc). }
  assert (NP : forall v, In v ss -> parts js v <> []).
  { intros v Hv. unfold parts. assert (Hv' := Hv). unfold ss in Hv'. apply in_map_iff in Hv' as (x & <- & Hx). cbn [snd] in *. destruct (FX x Hx) as (L2 & _). destruct x as [|c x]; [cbn in L2; lia|]. destruct (Xc _ c Hv (or_introl eq_refl)) as (_ & j & Hj & Ej).
    cbn [list_ascii_of_string map List.concat]. intros X. apply app_eq_nil in X as [X _]. apply map_eq_nil in X. assert (F : In j (filter (fun j0 => Ascii.eqb (snd j0) c) js)) by (apply filter_In; split; auto; apply Ascii.eqb_eq; auto). rewrite X in F. destruct F. }
  assert (Ap : forall v, In v ss -> ~ In (sum_var v) (map fst ps) /\ ~ In (sum_var v) (map joint_var js)).
  { intros v Hv. unfold ss in Hv. apply in_map_iff in Hv as (x & <- & Hx). assert (L2 := proj1 (FX x Hx)). change (sum_var ("th", x)) with (append "th_" x). split.
    - unfold ps. rewrite map_app, stored_fst. intros X. apply in_app_or in X as [X|X]. apply PP in X as (X & _). rewrite prefix_th in X. discriminate X.
      apply AI in X. assert (Y : forallb (fun y => negb (String.prefix "th_" y)) (List.concat (map (fun i => [ca_name i; sa_name i]) (seq 0 6))) = true) by (vm_compute; reflexivity). rewrite forallb_forall in Y. apply Y in X. rewrite prefix_th in X. discriminate X.
    - rewrite EJ. intros X. apply In_nth_error in X as (i & Hi). assert (G : forall (l : list string) k i v, nth_error l i = Some v -> In (k + i, v) (combine (seq k (List.length l)) l)).
      { clear. induction l as [|w l IH]; intros k i v H; [destruct i; discriminate|]. destruct i as [|i]; cbn [nth_error] in H; cbn [List.length seq combine]. injection H as ->. left. f_equal. lia. right. replace (k + S i) with (S k + i) by lia. apply IH; auto. }
      apply (G _ 1) in Hi. apply CV in Hi. cbn [fst snd] in Hi. apply andb_prop in Hi as [_ Hi]. apply Nat.leb_le in Hi. rewrite str_len_app in Hi. cbn in Hi. lia. }
  assert (Np0 : forall p v, In (p, v) ps -> no_nl p = true).
  { intros p v Hp. assert (X : In p (map fst ps)) by (change p with (fst (p, v)); apply in_map; auto). unfold ps in X. rewrite map_app, stored_fst in X. apply in_app_or in X as [X|X]. apply PP in X; tauto.
    apply AI in X. assert (Y : forallb no_nl (List.concat (map (fun i => [ca_name i; sa_name i]) (seq 0 6))) = true) by (vm_compute; reflexivity). rewrite forallb_forall in Y. exact (Y _ X). }
  assert (Np : forall p v, In (p, v) ps0 -> no_nl p = true). { intros p v Hp. apply (Np0 p v). unfold ps0, ps in *. apply in_app_or in Hp as [Hp|Hp]; apply in_or_app; [left; auto|]. destruct lost; [destruct Hp|right; auto]. }
  assert (NE : rd_pvals d <> []) by (destruct (rd_pvals d); [discriminate|congruence]).
  set (v := View (computed d s0) (rd_vars d) n (if lost then rd_params d else m_params (computed d s0))).
  assert (Et : param_texts nice show (v_mech v) (v_params v) = Some (map (fun pv => (fst pv, pval_text show (snd pv))) ps0)).
  { unfold v, ps0. cbn [v_mech v_params]. destruct lost.
    - rewrite app_nil_r. apply texts_lost; auto. { intros p Hp; apply PP; auto. } intros x Hx; apply AA; auto.
    - apply texts_first; auto. { intros p Hp. apply PP; auto. } intros x Hx. apply AA; auto. }
  set (pt := map (fun pv => (fst pv, pval_text show (snd pv))) ps0) in *.
  assert (Rp : r_pvals (fk_robot v pt) = true). { unfold fk_robot, v. cbn [v_mech r_pvals computed m_pvals]. destruct (rd_pvals d); [congruence|reflexivity]. }
  destruct (C74_text show (fk_robot v pt) ps0 js ss M GJ Gs (fun w c Hw Hc => proj2 (Xc w c Hw Hc)) Rp eq_refl Np Hs) as (out & a & b & c & EO & EL & EI & _).
  exists (printed out), (forward_filename (fk_robot v pt), Whole (file_text (output_FK_equations (fk_robot v pt) (mats (v_mech v))))), js, ss. split.
  { unfold fk_work. rewrite Et. change (variables (m_kin (v_mech v))) with (variables s0). rewrite EX, <- Ess, <- EJ. unfold T06_text. change (fk_T06 trigsimp nice (m_dh (v_mech v))) with M. rewrite EO. reflexivity. }
  split. { cbn [fst]. rewrite report_name. apply String.eqb_neq. intros X. discriminate X. }
  split. { exists a, b, c. split; auto. rewrite split_printed, EL, <- !app_assoc. reflexivity. }
  split; [exact EJ|]. split; [exact NP|]. split; [exact Ap|]. split; [|split; [exists V; auto|exact RS]].
  intros x Hx. rewrite stored_fst, EJ. split; apply AA; auto.
Qed.
(** A robot of the catalogue - all but Mackler13, Wrist and MiniDD - whose kinematics has not been computed: the run ends well; the file is complete, and its lines are,
    up to lines that do nothing, the statements of a program that prints a rigid transform: the forward kinematics of its table at the stored values of
    the parameters and all joint variables 1. *)
Theorem C79_catalogue argv n d us f s0 : fk_robot_name argv = Some n -> robot_params n = Described d us -> shipped n -> d_cache f n = Absent ->
  prepared sy nice (rd_vars d) (rd_dh d) = Some s0 ->
  snd (fk_only sy nice trigsimp show mats robot_params argv Finish f) = FkDone /\
  exists text ps js ss M, d_text (fst (fk_only sy nice trigsimp show mats robot_params argv Finish f)) (fk_python_filename n) = Whole text
  /\ text_of text ps js ss M /\ map joint_var js = rd_vars d /\ ps = stored d ++ alpha_pvals nice 0 (rd_dh d) /\ M = fk_T06 trigsimp nice (rd_dh d)
  /\ exists V, fk_run (fk_stmts ps js ss M) = Some V /\ rigid V /\ (forall rho, setting ps js [] rho -> Meq 4 V (FK rho (rd_dh d))) /\ exists rho, setting ps js [] rho.
Proof.
  intros N HD Sh A Pr. destruct (forward_work n d us s0 false HD Sh Pr) as (text & w & js & ss & Ew & Nw & Tx & EJ & NP & Ap & _ & (V & EV & HV) & RS).
  assert (Ec := shipped_computed n d us s0 HD Sh Pr).
  assert (Er : snd (Cache.run nice (fk_main sy nice) (d_cache f) true (request_of n d) Never) = Served (View (computed d s0) (rd_vars d) n (m_params (computed d s0))) false). { unfold Cache.run. cbn [q_name request_of]. rewrite A. cbn [request_of] in Ec. rewrite Ec. reflexivity. }
  rewrite (fk_finish sy nice trigsimp show mats robot_params argv n d us f N HD). destruct (Cache.run nice (fk_main sy nice) (d_cache f) true (request_of n d) Never) as [cs o]. cbn [snd] in Er. subst o. rewrite Ew. cbn [fst snd d_text]. split; [reflexivity|].
  exists text, (stored d ++ alpha_pvals nice 0 (rd_dh d)), js, ss, (fk_T06 trigsimp nice (rd_dh d)). split.
  { cbn [puts fold_left]. unfold put. rewrite Nw. cbn [fst snd]. rewrite String.eqb_refl. reflexivity. }
  split; [exact Tx|]. split; [exact EJ|]. split; [reflexivity|]. split; [reflexivity|].
  destruct (C79_sums_ignored _ js ss _ V NP (sums_unread _ js ss _ V EV RS Ap) EV) as (V' & EV' & MV). exists V'. split; auto. destruct RS as (rho0 & S0).
  assert (HV0 := HV rho0 S0). split. { apply (rigid_ext V' V MV). tauto. } split; [|eauto]. intros rho S. destruct (HV rho S) as (Hm & _). intros i j Hi Hj. rewrite MV, Hm; auto.
Qed.
(** The next run finds the cache file and ends well too, but the constants of the inclined axes are not among the parameters it prints (fkOnly.py:116
    replaces the list by that of the description): if the transform reads one of them the program it leaves raises an exception. *)
Theorem C79_second_run argv n d us f s0 : fk_robot_name argv = Some n -> robot_params n = Described d us -> shipped n -> d_cache f n = Absent ->
  prepared sy nice (rd_vars d) (rd_dh d) = Some s0 ->
  let f' := fst (fk_only sy nice trigsimp show mats robot_params argv Finish f) in
  snd (fk_only sy nice trigsimp show mats robot_params argv Finish f') = FkDone /\
  exists text js ss M, d_text (fst (fk_only sy nice trigsimp show mats robot_params argv Finish f')) (fk_python_filename n) = Whole text
  /\ text_of text (stored d) js ss M /\ map joint_var js = rd_vars d /\ M = fk_T06 trigsimp nice (rd_dh d)
  /\ forall x i j, In x (map fst (alpha_params nice 0 (rd_dh d))) -> i < 4 -> j < 4 -> has x (M i j) = true -> fk_run (fk_stmts (stored d) js ss M) = None.
Proof.
  intros N HD Sh A Pr f'. destruct (forward_work n d us s0 true HD Sh Pr) as (text & w & js & ss & Ew & Nw & Tx & EJ & NP & Ap & AL & _).
  assert (Ec := shipped_computed n d us s0 HD Sh Pr).
  assert (Ecache : d_cache f' n = Full (computed d s0) (rd_vars d)).
  { unfold f'. rewrite (fk_finish sy nice trigsimp show mats robot_params argv n d us f N HD). unfold Cache.run. cbn [q_name request_of]. rewrite A. cbn [request_of] in Ec. rewrite Ec. match goal with |- context [fk_work _ _ _ _ ?v] => destruct (fk_work nice trigsimp show mats v) as [ws r] end. cbn [fst d_cache]. unfold Cache.write. rewrite String.eqb_refl. reflexivity. }
  assert (Er : snd (Cache.run nice (fk_main sy nice) (d_cache f') true (request_of n d) Never) = Served (View (computed d s0) (rd_vars d) n (rd_params d)) true).
  { unfold Cache.run. cbn [q_name request_of]. rewrite Ecache. change (same_dh (m_dh (computed d s0)) (q_dh (request_of n d))) with (same_dh (rd_dh d) (rd_dh d)). rewrite (proj2 (same_dh_eq (rd_dh d) (rd_dh d)) eq_refl). reflexivity. }
  rewrite (fk_finish sy nice trigsimp show mats robot_params argv n d us f' N HD). destruct (Cache.run nice (fk_main sy nice) (d_cache f') true (request_of n d) Never) as [cs o]. cbn [snd] in Er. subst o. rewrite Ew. cbn [fst snd d_text]. split; [reflexivity|].
  exists text, js, ss, (fk_T06 trigsimp nice (rd_dh d)). split.
  { cbn [puts fold_left]. unfold put. rewrite Nw. cbn [fst snd]. rewrite String.eqb_refl. reflexivity. }
  rewrite app_nil_r in Tx. split; [exact Tx|]. split; [exact EJ|]. split; [reflexivity|]. intros x i j Hx Hi Hj Hh. rewrite alpha_fst in Hx. destruct (fk_run _) as [V|] eqn:EV; auto. exfalso.
  apply (run_reads _ _ _ _ _ x i j Hi Hj Hh) in EV. destruct (AL x Hx) as (A1 & A2). destruct EV as [X|[X|X]]; [auto|auto|].
  apply in_map_iff in X as (v & Ev & Hv). apply (proj1 (Ap v Hv)). rewrite Ev, map_app. apply in_or_app. right. auto.
Qed.
End Catalogue.

(** * A concrete case: the Puma, with a sympy that simplifies little *)
From Verif Require Import CodeGenEx EndToEndEx.
(** a printer that prints one line *)
Definition show79 (e : expr) : string := if no_nl (show0 e) then show0 e else "?".
Lemma show79_line e : no_nl (show79 e) = true.
Proof. unfold show79. destruct (no_nl (show0 e)) eqn:E; auto. Qed.
Lemma is_some {A} (o : option A) : match o with Some _ => true | None => false end = true -> exists a, o = Some a.
Proof. destruct o; [eauto|discriminate]. Qed.
Lemma described_of {A} (P : robot_def -> option A) n : match robot_params n with Described d _ => match P d with Some _ => true | None => false end | _ => false end = true ->
  exists d us a, robot_params n = Described d us /\ P d = Some a.
Proof. destruct (robot_params n) as [d us| |]; try discriminate. destruct (P d) as [a|] eqn:E; [|discriminate]. eauto 10. Qed.
Example C79_puma mats : exists d us s0, robot_params "Puma" = Described d us /\ prepared sympyK niceK (rd_vars d) (rd_dh d) = Some s0 /\
  snd (fk_only sympyK niceK (fun e => e) show79 mats robot_params ["fkOnly.py"; "Puma"] Finish empty_dir) = FkDone.
Proof.
  destruct (described_of (fun d => prepared sympyK niceK (rd_vars d) (rd_dh d)) "Puma") as (d & us & s0 & HD & Pr). { vm_compute. reflexivity. }
  exists d, us, s0. split; [exact HD|]. split; [exact Pr|].
  refine (proj1 (C79_catalogue sympyK sympyK_ok niceK (fun e => e) id_good (fun _ _ H => H) show79 show79_line mats ["fkOnly.py"; "Puma"] "Puma" d us empty_dir s0 eq_refl HD _ eq_refl Pr)). split; [discriminate|split; discriminate].
Qed.
(** The Raven-II, run twice from an empty directory: both runs end well; the program the first leaves prints its forward kinematics, the one the second leaves raises. *)
Notation run79 mats := (fk_only sympyK not_symbol (fun e => e) show79 mats robot_params ["fkOnly.py"; "Raven-II"] Finish).
Theorem C79_second_run_refuted mats : exists d us js1 js2 ss1 ss2 text1 text2 V, robot_params "Raven-II" = Described d us /\
  let f1 := fst (run79 mats empty_dir) in let f2 := fst (run79 mats f1) in let M := fk_T06 (fun e => e) not_symbol (rd_dh d) in
  snd (run79 mats empty_dir) = FkDone /\ snd (run79 mats f1) = FkDone
  /\ d_text f1 "CodeGen/Python/FK_equationsRaven-II.py" = Whole text1 /\ text_of show79 text1 (stored d ++ alpha_pvals not_symbol 0 (rd_dh d)) js1 ss1 M /\ fk_run (fk_stmts (stored d ++ alpha_pvals not_symbol 0 (rd_dh d)) js1 ss1 M) = Some V
  /\ d_text f2 "CodeGen/Python/FK_equationsRaven-II.py" = Whole text2 /\ text_of show79 text2 (stored d) js2 ss2 M /\ fk_run (fk_stmts (stored d) js2 ss2 M) = None.
Proof.
  assert (X : match robot_params "Raven-II" with Described d _ => match (if existsb (String.eqb "ca1") (map fst (alpha_params not_symbol 0 (rd_dh d))) && has "ca1" (fk_T06 (fun e => e) not_symbol (rd_dh d) 2 2) then prepared sympyK not_symbol (rd_vars d) (rd_dh d) else None) with Some _ => true | None => false end | _ => false end = true).
  { vm_compute. reflexivity. }
  apply (described_of (fun d => if existsb (String.eqb "ca1") (map fst (alpha_params not_symbol 0 (rd_dh d))) && has "ca1" (fk_T06 (fun e => e) not_symbol (rd_dh d) 2 2) then prepared sympyK not_symbol (rd_vars d) (rd_dh d) else None)) in X as (d & us & s0 & HD & Pr).
  destruct (existsb _ _ && _) eqn:B; [|discriminate Pr]. apply andb_prop in B as [B1 B2]. apply existsb_exists in B1 as (y & Hy & Ey). apply String.eqb_eq in Ey. subst y.
  assert (Sh : shipped "Raven-II"). { split; [discriminate|split; discriminate]. }
  destruct (C79_catalogue sympyK sympyK_ok not_symbol (fun e => e) id_good (fun _ _ H => H) show79 show79_line mats ["fkOnly.py"; "Raven-II"] "Raven-II" d us empty_dir s0 eq_refl HD Sh eq_refl Pr) as (E1 & t1 & ps & js & ss1 & M & F1 & T1 & J1 & -> & -> & V & R1 & _).
  destruct (C79_second_run sympyK sympyK_ok not_symbol (fun e => e) id_good (fun _ _ H => H) show79 show79_line mats ["fkOnly.py"; "Raven-II"] "Raven-II" d us empty_dir s0 eq_refl HD Sh eq_refl Pr) as (E2 & t2 & js2 & ss2 & M2 & F2 & T2 & J2 & -> & R2).
  exists d, us, js, js2, ss1, ss2, t1, t2, V. split; [exact HD|]. cbn zeta.
  split; [exact E1|]. split; [exact E2|]. split; [exact F1|]. split; [exact T1|]. split; [exact R1|]. split; [exact F2|]. split; [exact T2|].
  refine (R2 "ca1" 2 2 Hy _ _ B2); lia.
Qed.
(** sums of angles that have names of their own *)
Example C79_sums_example : (forall v, In v [("th", "12")] -> parts js74 v <> []) /\ (forall v i j, In v [("th", "12")] -> i < 4 -> j < 4 -> has (sum_var v) (if j =? 3 then Sym "ca1" else Num 1) = false)
  /\ exists V, fk_run (fk_stmts ps74 js74 [] (fun _ j => if j =? 3 then Sym "ca1" else Num 1)) = Some V.
Proof.
  split. { intros v [<-|[]]. discriminate. } split. { intros v i j [<-|[]] Hi Hj. destruct (j =? 3); reflexivity. }
  refine (proj1 (C74_runs ps74 js74 [] _ _ _ _ _)).
  - cbn. repeat split; auto; intros y H; try discriminate. apply String.eqb_eq in H. auto.
  - constructor.
    + repeat constructor; cbn; intuition discriminate.
    + intros j Hj. cbn in Hj |- *. destruct Hj as [<-|[<-|[]]]; cbn; intuition discriminate.
    + constructor.
    + intros v [].
  - intros v [].
  - intros i j Hi Hj. destruct (j =? 3); split; auto; cbn; intros x H; try discriminate. left. apply String.eqb_eq in H. auto.
Qed.
Print Assumptions variables_named.
Print Assumptions C79_sums_ignored.
Print Assumptions C79_catalogue.
Print Assumptions C79_second_run.
Print Assumptions C79_second_run_refuted.
