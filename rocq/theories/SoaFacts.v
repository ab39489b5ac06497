(** Facts about the sum-of-angles transform: subscripts, and one invariant for the whole scan. *)
From Coq Require Import Reals ZArith List String Ascii Bool Arith Lia Lra Permutation DecimalString DecimalFacts DecimalNat.
From Verif Require Import Expr Kin KinSpec Solver SolverSpec PropHist Soa.
Import ListNotations.
Local Open Scope string_scope.
Local Open Scope list_scope.
Local Open Scope nat_scope.

(** * Subscripts *)
Fixpoint dapp (d e : Decimal.uint) : Decimal.uint :=
  match d with
  | Decimal.Nil => e
  | Decimal.D0 d => Decimal.D0 (dapp d e) | Decimal.D1 d => Decimal.D1 (dapp d e) | Decimal.D2 d => Decimal.D2 (dapp d e)
  | Decimal.D3 d => Decimal.D3 (dapp d e) | Decimal.D4 d => Decimal.D4 (dapp d e) | Decimal.D5 d => Decimal.D5 (dapp d e)
  | Decimal.D6 d => Decimal.D6 (dapp d e) | Decimal.D7 d => Decimal.D7 (dapp d e) | Decimal.D8 d => Decimal.D8 (dapp d e)
  | Decimal.D9 d => Decimal.D9 (dapp d e)
  end.
Lemma dapp_str d e : NilEmpty.string_of_uint (dapp d e) = append (NilEmpty.string_of_uint d) (NilEmpty.string_of_uint e).
Proof. induction d; simpl; congruence. Qed.
Definition lead (d : Decimal.uint) : Prop := match d with Decimal.Nil | Decimal.D0 _ => False | _ => True end.
Lemma lead_unorm d : lead d -> Decimal.unorm d = d.
Proof. destruct d; simpl; tauto. Qed.
Lemma lead_app d e : lead d -> lead (dapp d e).
Proof. destruct d; simpl; tauto. Qed.
Lemma lead_to_uint n : 1 <= n -> lead (Nat.to_uint n).
Proof.
  intros H. assert (E := Unsigned.to_of (Nat.to_uint n)). rewrite Unsigned.of_to in E.
  unfold Decimal.unorm in E. destruct (Decimal.nzhead (Nat.to_uint n)) eqn:Z.
  - assert (X := Unsigned.of_to n). rewrite E in X. vm_compute in X. destruct n; [lia|discriminate].
  - apply nzhead_nonzero in Z. tauto.
  - rewrite E. simpl; auto.
  - rewrite E. simpl; auto.
  - rewrite E. simpl; auto.
  - rewrite E. simpl; auto.
  - rewrite E. simpl; auto.
  - rewrite E. simpl; auto.
  - rewrite E. simpl; auto.
  - rewrite E. simpl; auto.
  - rewrite E. simpl; auto.
Qed.
Lemma cat_uint l : (forall n, In n l -> 1 <= n) -> l <> [] -> exists d, lead d /\ fold_right append "" (map str_of_nat l) = NilEmpty.string_of_uint d.
Proof.
  induction l as [|n l IH]; [congruence|]. intros H _. assert (Hn : lead (Nat.to_uint n)) by (apply lead_to_uint; apply H; left; auto).
  destruct l as [|m l].
  - exists (Nat.to_uint n). split; auto. simpl. unfold str_of_nat. clear. generalize (NilEmpty.string_of_uint (Nat.to_uint n)). induction s; simpl; congruence.
  - destruct IH as (d & Hd & E); [intros; apply H; right; auto | congruence|].
    exists (dapp (Nat.to_uint n) d). split; [apply lead_app; auto|]. cbn [map fold_right] in *. rewrite E, dapp_str. reflexivity.
Qed.
Lemma ins_str_perm a l : Permutation (ins_str a l) (a :: l).
Proof. induction l; simpl; auto. destruct (String.leb a a0); auto. rewrite IHl. apply perm_swap. Qed.
Lemma sort_str_perm l : Permutation (sort_str l) l.
Proof. induction l; simpl; auto. rewrite ins_str_perm. auto. Qed.
Lemma perm_map_str l ns : Permutation l (map str_of_nat ns) -> exists ms, l = map str_of_nat ms /\ Permutation ms ns.
Proof. intros H. apply Permutation_map_inv in H as (ms & E & P). exists ms. split; auto. apply Permutation_sym; auto. Qed.
Lemma soa_index_ok ns : ns <> [] -> (forall n, In n ns -> 1 <= n) -> str_of_nat (int_of (soa_index ns)) = soa_index ns.
Proof.
  intros N H. unfold soa_index. destruct (perm_map_str _ ns (sort_str_perm (map str_of_nat ns))) as (ms & E & P). rewrite E.
  destruct (cat_uint ms) as (d & Hd & Ed). intros n Hn. apply H. eapply Permutation_in; eauto. intros ->. apply Permutation_nil in P. auto.
  rewrite Ed. unfold int_of, str_of_nat. rewrite NilEmpty.usu. rewrite Unsigned.to_of, lead_unorm; auto.
Qed.
Lemma soa_index_pos ns : ns <> [] -> (forall n, In n ns -> 1 <= n) -> 1 <= int_of (soa_index ns).
Proof.
  intros N H. assert (E := soa_index_ok ns N H). destruct (int_of (soa_index ns)) eqn:Z; [|lia]. exfalso.
  unfold soa_index in *. destruct (perm_map_str _ ns (sort_str_perm (map str_of_nat ns))) as (ms & E' & P). rewrite E' in *.
  destruct (cat_uint ms) as (d & Hd & Ed). intros n Hn. apply H. eapply Permutation_in; eauto. intros ->. apply Permutation_nil in P. auto.
  rewrite Ed in E. unfold str_of_nat in E. apply (f_equal NilEmpty.uint_of_string) in E. rewrite !NilEmpty.usu in E. injection E as <-. simpl in Hd. auto.
Qed.

(** The sum over the characters of a subscript. *)
Local Open Scope R_scope.
Fixpoint dsum (f : ascii -> R) (s : string) : R := match s with EmptyString => 0 | String c r => f c + dsum f r end.
Lemma dsum_app f a b : dsum f (append a b) = dsum f a + dsum f b.
Proof. induction a; simpl; [lra|]. rewrite IHa. lra. Qed.
Lemma dsum_cat f l : dsum f (fold_right append "" l) = rsum (dsum f) l.
Proof. induction l; simpl; auto. rewrite dsum_app, IHl. auto. Qed.
Lemma rsum_perm {A} (f : A -> R) l l' : Permutation l l' -> rsum f l = rsum f l'.
Proof. induction 1; simpl; try lra. Qed.
Lemma dsum_index f ns : dsum f (soa_index ns) = rsum (fun n => dsum f (str_of_nat n)) ns.
Proof. unfold soa_index. rewrite dsum_cat, (rsum_perm _ _ _ (sort_str_perm _)). induction ns; simpl; auto. rewrite IHns. auto. Qed.
Local Close Scope R_scope.

(** * One rewriting *)
Lemma get_variable_index_some us e n : get_variable_index us e = Some n -> exists v, In v us /\ e = Sym (u_sym v) /\ u_n v = n.
Proof.
  induction us as [|v us IH]; simpl; [discriminate|]. destruct (u_n v =? 0); [discriminate|]. destruct (expr_eqb (Sym (u_sym v)) e) eqn:E.
  - intros H. injection H as <-. apply expr_eqb_eq in E. eauto.
  - intros H. destruct (IH H) as (w & ? & ?). eauto.
Qed.
Lemma map_opt_some {A B} (f : A -> option B) l bs : map_opt f l = Some bs -> Forall2 (fun a b => f a = Some b) l bs.
Proof.
  revert bs. induction l as [|a l IH]; simpl; intros bs H. injection H as <-. constructor.
  destruct (f a) eqn:E; [|discriminate]. destruct (map_opt f l); [|discriminate]. injection H as <-. constructor; auto.
Qed.
(** The arguments of a sum are variables of the list, the indices theirs. *)
Definition args (us : list unk) (a b c : expr) (ns : list nat) : Prop :=
  ns <> [] /\ Forall2 (fun x n => exists v, In v us /\ x = Sym (u_sym v) /\ u_n v = n) (filter (fun x => negb (expr_eqb x (Num 0))) [a; b; c]) ns.
Lemma soa_match_cases sy e fnd x1 x2 s a b c e' fnd' nj ne s' : soa_match sy (e, fnd, x1, x2, s) (a, b, c) = Some (e', fnd', nj, ne, s') ->
  (e' = e /\ nj = None /\ ne = None /\ s' = s) \/
  exists ns, args (unk_objs s) a b c ns /\ let ni := soa_index ns in let sum := sy_norm sy (Add (Add a b) c) in
    e' = sy_subs sy sum (Sym (append "th_" ni)) e /\
    ((exists v, In v (unk_objs s) /\ u_n v = int_of ni /\ nj = None /\ ne = None /\ s' = s) \/
     ((forall v, In v (unk_objs s) -> u_n v <> int_of ni) /\ exists id q, (id, q, s') = soa_register ni sum s /\ nj = Some id /\ ne = Some q)).
Proof.
  unfold soa_match. set (vl0 := filter _ _). cbv zeta. destruct (_ || _ || _).
  2:{ intros H. injection H as <- <- <- <- <-. auto. }
  intros H. right. destruct vl0 as [|y vl] eqn:Ev; [discriminate|]. destruct (map_opt _ (y :: vl)) as [ns|] eqn:Em; [|discriminate].
  apply map_opt_some in Em. exists ns. split.
  { split. intros ->. inversion Em. fold vl0. rewrite Ev. clear -Em. remember (y :: vl) as l. clear Heql. induction Em; constructor; auto. apply get_variable_index_some; auto. }
  destruct (existsb _ _) eqn:Ex.
  - injection H as <- <- <- <- <-. split; auto. left. apply existsb_exists in Ex as (v & Hv & E). apply Nat.eqb_eq in E. exists v. auto.
  - destruct (soa_register _ _ _) as [[id q] s1] eqn:Er. injection H as <- <- <- <- <-. split; auto. right. split.
    + intros v Hv E. assert (X : existsb (fun v => u_n v =? int_of (soa_index ns)) (unk_objs s) = true). { apply existsb_exists. exists v. split; auto. apply Nat.eqb_eq. auto. } congruence.
    + exists id, q. auto.
Qed.

(** The value of a name is the sum of the joint values its subscript lists. *)
Definition digit_of (rho : env) (c : ascii) : R := rho (append "th_" (String c "")).
Definition named (rho : env) (v : unk) : Prop :=
  1 <= u_n v /\ rho (u_sym v) = dsum (digit_of rho) (str_of_nat (u_n v)) /\ rho (append "th_" (str_of_nat (u_n v))) = dsum (digit_of rho) (str_of_nat (u_n v)).
Definition Jn (rho : env) (us : list unk) : Prop := forall v, In v us -> named rho v.
Lemma args_vals rho us a b c ns : (forall v, In v us -> rho (u_sym v) = dsum (digit_of rho) (str_of_nat (u_n v))) -> args us a b c ns ->
  defd rho (Add (Add a b) c) /\ eval rho (Add (Add a b) c) = dsum (digit_of rho) (soa_index ns).
Proof.
  intros J [_ F]. rewrite dsum_index.
  assert (G : forall l ns, Forall2 (fun x n => exists v, In v us /\ x = Sym (u_sym v) /\ u_n v = n) (filter (fun x => negb (expr_eqb x (Num 0))) l) ns ->
     (forall x, In x l -> defd rho x) /\ rsum (eval rho) l = rsum (fun n => dsum (digit_of rho) (str_of_nat n)) ns).
  { clear F ns a b c. induction l as [|x l IH]; cbn [filter]; intros ns F. { inversion F; subst. split; [intros ? []|auto]. }
    destruct (expr_eqb x (Num 0)) eqn:E; cbn [negb] in F.
    - apply expr_eqb_eq in E. subst x. destruct (IH _ F) as [D R]. split. intros y [<-|Hy]; [exact I|auto]. cbn [rsum fold_right]. fold (rsum (eval rho) l). rewrite R. cbn. lra.
    - inversion F as [|? ? ? ? (v & Hv & -> & <-) F']; subst. destruct (IH _ F') as [D R]. split. intros y [<-|Hy]; [exact I|auto].
      cbn [rsum fold_right]. fold (rsum (eval rho) l). rewrite R. cbn [eval]. rewrite (J v Hv). auto. }
  destruct (G _ _ F) as [D R]. split.
  - cbn [defd]. repeat split; apply D; simpl; auto.
  - cbn [eval]. cbn [rsum fold_right] in R. rewrite <- R. fold (rsum (fun n : nat => dsum (digit_of rho) (str_of_nat n)) ns). unfold rsum in *. cbn [fold_right] in *. lra.
Qed.
Lemma args_pos us a b c ns : (forall v, In v us -> 1 <= u_n v) -> args us a b c ns -> forall n, In n ns -> 1 <= n.
Proof. intros J [_ F] n Hn. clear -J F Hn. induction F; [destruct Hn|]. destruct Hn as [<-|Hn]; auto. destruct H as (v & Hv & _ & <-). auto. Qed.

(** * What the scan adds to a state *)
Lemma NoDup_app_intro {A} (l : list A) l' : NoDup l -> NoDup l' -> (forall x, In x l -> ~ In x l') -> NoDup (l ++ l').
Proof.
  induction 1; simpl; intros N D; auto. constructor. rewrite in_app_iff. intros [X|X]; [tauto|]. apply (D x); auto. apply IHNoDup; auto.
Qed.
Definition plus_hua (H : list unk) (U : list nat) (A : list kequation) (s0 : state) : state :=
  set_s_aux (s_aux s0 ++ A) (set_s_unks (s_unks s0 ++ U) (set_s_heap (s_heap s0 ++ H) s0)).
Definition wf_unks (s : state) : Prop := (forall i, In i (s_unks s) -> i < List.length (s_heap s)) /\ forall v, In v (unk_objs s) -> 1 <= u_n v.
(** q defines v as the (normalised) sum of three of the variables, or fewer *)
Definition def_of (sy : sympy) (us : list unk) (v : unk) (q : kequation) : Prop :=
  exists a b c ns, args us a b c ns /\ u_n v = int_of (soa_index ns) /\ q = Keq (Sym (u_sym v)) (sy_norm sy (Add (Add a b) c)).
Record grown (sy : sympy) (s0 s : state) (H : list unk) (U : list nat) (A : list kequation) : Prop := {
  g_eq : s = plus_hua H U A s0;
  g_ids : forall i, In i U <-> List.length (s_heap s0) <= i < List.length (s_heap s0) + List.length H;
  g_new : forall v, In v H -> v = set_u_n (u_n v) (new_unknown (u_sym v)) /\ 1 <= u_n v /\ u_sym v = append "th_" (str_of_nat (u_n v));
  g_nodup : NoDup (map u_n H);
  g_other : forall v w, In v H -> In w (unk_objs s0) -> u_n w <> u_n v;
  g_def : forall v, In v H -> exists q, In q A /\ def_of sy (unk_objs s) v q;
  g_aux : forall q, In q A -> exists v, In v H /\ def_of sy (unk_objs s) v q;
  g_vals : sympy_ok sy -> forall rho, Jn rho (unk_objs s0) -> (forall q, In q A -> holds rho q) -> Jn rho H }.
Lemma getu_app h h' i : i < List.length h -> getu (h ++ h') i = getu h i.
Proof. intros. unfold getu. apply app_nth1. auto. Qed.
Lemma objs_plus sy s0 s H U A : wf_unks s0 -> grown sy s0 s H U A -> forall v, In v (unk_objs s) <-> In v (unk_objs s0) \/ In v H.
Proof.
  intros [W _] G v. rewrite (g_eq _ _ _ _ _ _ G). unfold unk_objs, plus_hua. cbn. rewrite map_app, in_app_iff.
  assert (E1 : map (getu (s_heap s0 ++ H)) (s_unks s0) = map (getu (s_heap s0)) (s_unks s0)). { apply map_ext_in. intros i Hi. apply getu_app. auto. }
  rewrite E1. cut (In v (map (getu (s_heap s0 ++ H)) U) <-> In v H); [tauto|]. rewrite in_map_iff. split.
  - intros (i & <- & Hi). apply (g_ids _ _ _ _ _ _ G) in Hi. unfold getu. rewrite app_nth2 by lia. apply nth_In. lia.
  - intros Hv. apply In_nth with (d := new_unknown "") in Hv as (k & Hk & <-). exists (List.length (s_heap s0) + k). split.
    unfold getu. rewrite app_nth2 by lia. f_equal. lia. apply (g_ids _ _ _ _ _ _ G). lia.
Qed.
Lemma grown_wf sy s0 s H U A : wf_unks s0 -> grown sy s0 s H U A -> wf_unks s.
Proof.
  intros W G. split.
  - rewrite (g_eq _ _ _ _ _ _ G). unfold plus_hua. cbn. intros i Hi. rewrite app_length. apply in_app_iff in Hi as [Hi|Hi].
    apply W in Hi. lia. apply (g_ids _ _ _ _ _ _ G) in Hi. lia.
  - intros v Hv. apply (objs_plus _ _ _ _ _ _ W G) in Hv as [Hv|Hv]. apply W; auto. apply (g_new _ _ _ _ _ _ G) in Hv. tauto.
Qed.
Lemma grown_refl sy s : grown sy s s [] [] [].
Proof.
  constructor.
  - unfold plus_hua. rewrite !List.app_nil_r. destruct s; reflexivity.
  - intros i. simpl. split; [tauto|lia].
  - intros ? [].
  - constructor.
  - intros ? ? [].
  - intros ? [].
  - intros ? [].
  - intros OK rho _ _ ? [].
Qed.
Lemma args_incl us us' a b c ns : (forall v, In v us -> In v us') -> args us a b c ns -> args us' a b c ns.
Proof. intros S [N F]. split; auto. clear N. induction F; constructor; auto. destruct H as (v & ? & ?). eauto. Qed.
Lemma def_incl sy us us' v q : (forall w, In w us -> In w us') -> def_of sy us v q -> def_of sy us' v q.
Proof. intros S (a & b & c & ns & Ha & R). exists a, b, c, ns. split; auto. eapply args_incl; eauto. Qed.
Lemma grown_register sy s0 s H U A a b c ns id q s' : wf_unks s0 -> grown sy s0 s H U A -> args (unk_objs s) a b c ns ->
  (forall v, In v (unk_objs s) -> u_n v <> int_of (soa_index ns)) -> (id, q, s') = soa_register (soa_index ns) (sy_norm sy (Add (Add a b) c)) s ->
  let v := set_u_n (int_of (soa_index ns)) (new_unknown (append "th_" (soa_index ns))) in
  grown sy s0 s' (H ++ [v]) (U ++ [id]) (A ++ [q]) /\ id = List.length (s_heap s0) + List.length H /\ q = Keq (Sym (u_sym v)) (sy_norm sy (Add (Add a b) c)).
Proof.
  intros W G Ar New R v. unfold soa_register in R. injection R as -> -> Es.
  assert (Ei : List.length (s_heap s) = List.length (s_heap s0) + List.length H) by (rewrite (g_eq _ _ _ _ _ _ G); unfold plus_hua; cbn; apply app_length).
  assert (Ws := grown_wf _ _ _ _ _ _ W G). assert (P := args_pos _ _ _ _ _ (proj2 Ws) Ar).
  assert (Es' : s' = plus_hua (H ++ [v]) (U ++ [List.length (s_heap s)]) (A ++ [Keq (Sym (append "th_" (soa_index ns))) (sy_norm sy (Add (Add a b) c))]) s0).
  { rewrite Es. fold v. rewrite (g_eq _ _ _ _ _ _ G). unfold plus_hua. destruct s0; cbn. rewrite <- !List.app_assoc. reflexivity. }
  assert (Sub : forall w, In w (unk_objs s) -> In w (unk_objs s')).
  { intros w. rewrite Es. unfold unk_objs. cbn. rewrite map_app, in_app_iff, !in_map_iff. intros (i & <- & Hi). left. exists i. split; auto. apply getu_app. apply Ws; auto. }
  split; [|split; auto]. constructor; auto.
  - intros i. rewrite in_app_iff, app_length. rewrite (g_ids _ _ _ _ _ _ G). simpl. lia.
  - intros w Hw. apply in_app_iff in Hw as [Hw|[<-|[]]]. apply (g_new _ _ _ _ _ _ G); auto. assert (Eu : u_n v = int_of (soa_index ns)) by reflexivity. rewrite Eu.
    split; [reflexivity|]. split; [apply soa_index_pos; auto; apply Ar|]. rewrite soa_index_ok; auto. apply Ar.
  - rewrite map_app. cbn [map]. apply NoDup_app_intro. apply (g_nodup _ _ _ _ _ _ G). repeat constructor; auto.
    intros n Hn [<-|[]]. apply in_map_iff in Hn as (w & E & Hw). apply (New w); auto. apply (objs_plus _ _ _ _ _ _ W G). auto.
  - intros w x Hw Hx. apply in_app_iff in Hw as [Hw|[<-|[]]]. eapply (g_other _ _ _ _ _ _ G); eauto. cbn. apply New. apply (objs_plus _ _ _ _ _ _ W G). auto.
  - intros w Hw. apply in_app_iff in Hw as [Hw|[<-|[]]].
    + destruct (g_def _ _ _ _ _ _ G w Hw) as (q & Hq & D). exists q. split. apply in_app_iff; auto. eapply def_incl; eauto.
    + eexists. split. apply in_app_iff. right. left. reflexivity. exists a, b, c, ns. split. eapply args_incl; eauto. split; reflexivity.
  - intros q Hq. apply in_app_iff in Hq as [Hq|[<-|[]]].
    + destruct (g_aux _ _ _ _ _ _ G q Hq) as (w & Hw & D). exists w. split. apply in_app_iff; auto. eapply def_incl; eauto.
    + exists v. split. apply in_app_iff. right. left. auto. exists a, b, c, ns. split. eapply args_incl; eauto. split; reflexivity.
  - intros OK rho J0 HA. assert (JH : Jn rho H) by (apply (g_vals _ _ _ _ _ _ G); auto; intros q Hq; apply HA, in_app_iff; auto).
    intros w Hw. apply in_app_iff in Hw as [Hw|[<-|[]]]; [auto|].
    assert (Js : Jn rho (unk_objs s)) by (intros w Hw; apply (objs_plus _ _ _ _ _ _ W G) in Hw as [Hw|Hw]; auto).
    destruct (args_vals rho (unk_objs s) a b c ns) as [D V]; [intros w Hw; apply Js; auto|auto|].
    destruct (ok_norm _ OK rho _ D) as [D' V'].
    assert (Hq := HA _ ltac:(apply in_app_iff; right; left; reflexivity)). unfold holds in Hq. cbn [k_lhs k_rhs eval] in Hq. rewrite V', V in Hq.
    assert (Eu : u_n v = int_of (soa_index ns)) by reflexivity. unfold named. rewrite Eu, soa_index_ok by (auto; apply Ar).
    split; [apply soa_index_pos; auto; apply Ar|]. split; exact Hq.
Qed.
Lemma grown_dup sy s0 s H U A nj ne : wf_unks s0 -> grown sy s0 s H U A -> (forall i, nj = Some i -> In i U) -> (forall q, ne = Some q -> In q A) ->
  exists U' A', grown sy s0 (add_aux ne (add_unk nj s)) H U' A' /\ incl U U' /\ incl A A' /\ (nj = None -> U' = U) /\ (ne = None -> A' = A).
Proof.
  intros W G HU HA. assert (Sub : forall w, In w (unk_objs s) -> In w (unk_objs (add_aux ne (add_unk nj s)))).
  { intros w. unfold unk_objs. destruct ne, nj; cbn; auto; rewrite map_app, in_app_iff; auto. }
  exists (U ++ match nj with None => [] | Some i => [i] end), (A ++ match ne with None => [] | Some q => [q] end).
  split; [|split; [|split; [|split]]]; try (intros ? ?; apply in_app_iff; auto); try (intros ->; apply List.app_nil_r).
  constructor.
  - rewrite (g_eq _ _ _ _ _ _ G). unfold plus_hua. destruct s0, nj, ne; cbn; rewrite ?List.app_nil_r, <- ?List.app_assoc; reflexivity.
  - intros i. rewrite in_app_iff, <- (g_ids _ _ _ _ _ _ G). split; auto. intros [X|X]; auto. destruct nj; [destruct X as [<-|[]]; auto | destruct X].
  - apply G.
  - apply G.
  - apply G.
  - intros v Hv. destruct (g_def _ _ _ _ _ _ G v Hv) as (q & Hq & D). exists q. split. apply in_app_iff; auto. eapply def_incl; eauto.
  - intros q Hq. assert (Hq' : In q A). { apply in_app_iff in Hq as [Hq|Hq]; auto. destruct ne; [destruct Hq as [<-|[]]; auto | destruct Hq]. }
    destruct (g_aux _ _ _ _ _ _ G q Hq') as (v & Hv & D). exists v. split; auto. eapply def_incl; eauto.
  - intros OK rho J0 HA'. apply (g_vals _ _ _ _ _ _ G); auto. intros q Hq. apply HA', in_app_iff; auto.
Qed.
Definition held (sy : sympy) (s0 s : state) (nj : option nat) (ne : option kequation) : Prop :=
  exists H U A, grown sy s0 s H U A /\ (forall i, nj = Some i -> In i U) /\ (forall q, ne = Some q -> In q A).
Lemma held_none sy s0 s nj ne : held sy s0 s nj ne -> held sy s0 s None None.
Proof. intros (H & U & A & G & _). exists H, U, A. split; auto. split; discriminate. Qed.
Lemma match_held sy s0 e fnd x1 x2 s m e' fnd' nj ne s' : wf_unks s0 -> held sy s0 s None None -> soa_match sy (e, fnd, x1, x2, s) m = Some (e', fnd', nj, ne, s') -> held sy s0 s' nj ne.
Proof.
  destruct m as [[a b] c]. intros W (H & U & A & G & HU & HA) E. apply soa_match_cases in E as [(-> & -> & -> & ->)|(ns & Ar & _ & [(v & _ & _ & -> & -> & ->)|(New & id & q & R & -> & ->)])].
  - exists H, U, A. split; [auto|]. split; discriminate.
  - exists H, U, A. split; [auto|]. split; discriminate.
  - destruct (grown_register _ _ _ _ _ _ _ _ _ _ _ _ _ W G Ar New R) as (G' & _ & _). eexists _, _, _. split; [exact G'|]. split; intros x Hx; injection Hx as <-; apply in_app_iff; simpl; auto.
Qed.
Lemma matches_held sy s0 ms : forall e fnd x1 x2 s e' fnd' nj ne s', wf_unks s0 -> held sy s0 s x1 x2 -> soa_matches sy ms (e, fnd, x1, x2, s) = Some (e', fnd', nj, ne, s') -> held sy s0 s' nj ne.
Proof.
  induction ms as [|m ms IH]; cbn [soa_matches]; intros e fnd x1 x2 s e' fnd' nj ne s' W Hd E. injection E as <- <- <- <- <-. auto.
  destruct (soa_match sy (e, fnd, x1, x2, s) m) as [[[[[e1 f1] n1] q1] s1]|] eqn:Em; [|discriminate]. eapply IH; [auto| |exact E]. eapply match_held; [auto| |exact Em]. eapply held_none; eauto.
Qed.
Lemma sub_held sy s0 e s e' nj ne s' : wf_unks s0 -> held sy s0 s None None -> sum_of_angles_sub sy e s = Some (e', nj, ne, s') -> held sy s0 s' nj ne.
Proof.
  intros W Hd. unfold sum_of_angles_sub. destruct (soa_matches _ _ _) as [[[[[e1 f1] n1] q1] s1]|] eqn:Em; [|discriminate]. intros E. injection E as <- <- <- <-.
  eapply matches_held; eauto.
Qed.
Lemma dup_held sy s0 s nj ne : wf_unks s0 -> held sy s0 s nj ne -> held sy s0 (add_aux ne (add_unk nj s)) None None.
Proof. intros W (H & U & A & G & HU & HA). destruct (grown_dup _ _ _ _ _ _ _ _ W G HU HA) as (U' & A' & G' & _). exists H, U', A'. split; auto. split; discriminate. Qed.

(** * Values *)
Definition sub_objs (s s' : state) : Prop := forall v, In v (unk_objs s) -> In v (unk_objs s').
Lemma held_sub sy s s' nj ne : wf_unks s -> held sy s s' nj ne -> sub_objs s s' /\ wf_unks s'.
Proof. intros W (H & U & A & G & _). split. intros v Hv. apply (objs_plus _ _ _ _ _ _ W G). auto. eapply grown_wf; eauto. Qed.
Lemma held_refl sy s : held sy s s None None.
Proof. exists [], [], []. split. apply grown_refl. split; discriminate. Qed.
Definition kept (rho : env) (e e' : expr) : Prop := defd rho e -> defd rho e' /\ eval rho e' = eval rho e.
Lemma kept_refl rho e : kept rho e e. Proof. intros D. auto. Qed.
Lemma kept_trans rho a b c : kept rho a b -> kept rho b c -> kept rho a c.
Proof. intros H1 H2 D. destruct (H1 D) as [D1 E1]. destruct (H2 D1) as [D2 E2]. split; auto. congruence. Qed.
Section Values.
Context (sy : sympy) (OK : sympy_ok sy) (rho : env).
Lemma Jn_anti s s' : sub_objs s s' -> Jn rho (unk_objs s') -> Jn rho (unk_objs s).
Proof. intros S J v Hv. auto. Qed.
Lemma match_value e fnd x1 x2 s m e' fnd' nj ne s' : wf_unks s -> soa_match sy (e, fnd, x1, x2, s) m = Some (e', fnd', nj, ne, s') ->
  Jn rho (unk_objs s') -> kept rho e e'.
Proof.
  intros W E J. assert (S := E). apply (match_held sy s) in S; [|auto|apply held_refl]. destruct (held_sub _ _ _ _ _ W S) as [S1 _].
  destruct m as [[a b] c]. apply soa_match_cases in E as [(-> & -> & -> & ->)|(ns & Ar & -> & C)]; [apply kept_refl|].
  assert (P := args_pos _ _ _ _ _ (proj2 W) Ar).
  destruct (args_vals rho (unk_objs s) a b c ns) as [D V]; [intros v Hv; apply J; auto|auto|].
  destruct (ok_norm _ OK rho _ D) as [D' V']. intros De. apply (ok_subs _ OK); auto. exact I. rewrite V', V. cbn [eval]. symmetry.
  assert (Ev : forall v, In v (unk_objs s') -> u_n v = int_of (soa_index ns) -> rho (append "th_" (soa_index ns)) = dsum (digit_of rho) (soa_index ns)).
  { intros v Hv En. destruct (J v Hv) as (_ & _ & E3). rewrite En, soa_index_ok in E3; auto. apply Ar. }
  destruct C as [(v & Hv & En & -> & -> & ->)|(New & id & q & R & -> & ->)].
  - apply (Ev v); auto.
  - destruct (grown_register _ _ _ _ _ _ _ _ _ _ _ _ _ W (grown_refl sy s) Ar New R) as (G' & _ & _).
    eapply Ev; [apply (objs_plus _ _ _ _ _ _ W G'); right; left; reflexivity|]. reflexivity.
Qed.
Lemma match_sub e fnd x1 x2 s m e' fnd' nj ne s' : wf_unks s -> soa_match sy (e, fnd, x1, x2, s) m = Some (e', fnd', nj, ne, s') -> sub_objs s s' /\ wf_unks s'.
Proof. intros W E. apply (match_held sy s) in E; [|auto|apply held_refl]. eapply held_sub; eauto. Qed.
Lemma matches_sub ms : forall e fnd x1 x2 s e' fnd' nj ne s', wf_unks s -> soa_matches sy ms (e, fnd, x1, x2, s) = Some (e', fnd', nj, ne, s') -> sub_objs s s' /\ wf_unks s'.
Proof.
  induction ms as [|m ms IH]; cbn [soa_matches]; intros e fnd x1 x2 s e' fnd' nj ne s' W E. injection E as <- <- <- <- <-. split; auto. intros v; auto.
  destruct (soa_match sy (e, fnd, x1, x2, s) m) as [[[[[e1 f1] n1] q1] s1]|] eqn:Em; [|discriminate].
  destruct (match_sub _ _ _ _ _ _ _ _ _ _ _ W Em) as [S1 W1]. destruct (IH _ _ _ _ _ _ _ _ _ _ W1 E) as [S2 W2]. split; auto. intros v Hv. auto.
Qed.
Lemma matches_value ms : forall e fnd x1 x2 s e' fnd' nj ne s', wf_unks s -> soa_matches sy ms (e, fnd, x1, x2, s) = Some (e', fnd', nj, ne, s') ->
  Jn rho (unk_objs s') -> kept rho e e'.
Proof.
  induction ms as [|m ms IH]; cbn [soa_matches]; intros e fnd x1 x2 s e' fnd' nj ne s' W E J. injection E as <- <- <- <- <-. apply kept_refl.
  destruct (soa_match sy (e, fnd, x1, x2, s) m) as [[[[[e1 f1] n1] q1] s1]|] eqn:Em; [|discriminate].
  destruct (match_sub _ _ _ _ _ _ _ _ _ _ _ W Em) as [S1 W1]. destruct (matches_sub _ _ _ _ _ _ _ _ _ _ _ W1 E) as [S2 W2].
  apply (kept_trans _ _ e1); [eapply match_value; [exact W|exact Em|exact (Jn_anti _ _ S2 J)]|exact (IH _ _ _ _ _ _ _ _ _ _ W1 E J)].
Qed.
Lemma sub_value e s e' nj ne s' : wf_unks s -> sum_of_angles_sub sy e s = Some (e', nj, ne, s') -> sub_objs s s' /\ wf_unks s' /\ (Jn rho (unk_objs s') -> kept rho e e').
Proof.
  intros W. unfold sum_of_angles_sub. destruct (soa_matches _ _ _) as [[[[[e1 f1] n1] q1] s1]|] eqn:Em; [|discriminate]. intros E. injection E as <- <- <- <-.
  destruct (matches_sub _ _ _ _ _ _ _ _ _ _ _ W Em). split; auto. split; auto. intros J. exact (matches_value _ _ _ _ _ _ _ _ _ _ _ W Em J).
Qed.
Definition mkept (M M' : mat expr) : Prop := forall i j, kept rho (M i j) (M' i j).
Lemma simp_kept e e' : kept rho (sy_simplify sy e) e' -> kept rho e e'.
Proof. intros K D. destruct (ok_simplify _ OK rho e D) as [D1 E1]. destruct (K D1). split; auto. congruence. Qed.
Lemma set_m_kept M i j e : kept rho (M i j) e -> mkept M (set_m M i j e).
Proof. intros K i' j'. unfold set_m. destruct ((i' =? i) && (j' =? j)) eqn:E; [|apply kept_refl]. apply andb_prop in E as [E1 E2]. apply Nat.eqb_eq in E1, E2. subst. auto. Qed.
Lemma elt_step Td Ts s ij Td' Ts' s' : wf_unks s -> soa_elt sy (Some (Td, Ts, s)) ij = Some (Td', Ts', s') ->
  sub_objs s s' /\ wf_unks s' /\ (Jn rho (unk_objs s') -> mkept Td Td' /\ mkept Ts Ts') /\ (forall s0, wf_unks s0 -> held sy s0 s None None -> held sy s0 s' None None).
Proof.
  destruct ij as [i j]. cbn [soa_elt]. intros W H. destruct (sum_of_angles_sub sy (sy_simplify sy (Td i j)) s) as [[[[lhs nj] ne] s1]|] eqn:E1; [|discriminate].
  destruct (sum_of_angles_sub sy (sy_simplify sy (Ts i j)) (add_aux ne (add_unk nj s1))) as [[[[rhs x] y] s2]|] eqn:E2; [|discriminate]. injection H as <- <- <-.
  destruct (sub_value _ _ _ _ _ _ W E1) as (S1 & W1 & K1).
  assert (Hd := sub_held sy s _ _ _ _ _ _ W (held_refl sy s) E1). assert (Hd2 := dup_held _ _ _ _ _ W Hd). destruct (held_sub _ _ _ _ _ W Hd2) as [S12 W2].
  assert (S2 : sub_objs s1 (add_aux ne (add_unk nj s1))). { intros v. unfold unk_objs. destruct ne, nj; cbn; auto; rewrite map_app, in_app_iff; auto. }
  destruct (sub_value _ _ _ _ _ _ W2 E2) as (S3 & W3 & K3). split; [|split; [|split]].
  - intros v Hv. auto.
  - auto.
  - intros J. split; apply set_m_kept, simp_kept; auto. apply K1. intros v Hv. auto.
  - intros s0 W0 H0. eapply held_none. eapply (sub_held sy s0); [auto| |exact E2]. apply dup_held; auto. eapply sub_held; eauto.
Qed.
Lemma elts_step l : forall Td Ts s Td' Ts' s', wf_unks s -> fold_left (soa_elt sy) l (Some (Td, Ts, s)) = Some (Td', Ts', s') ->
  sub_objs s s' /\ wf_unks s' /\ (Jn rho (unk_objs s') -> mkept Td Td' /\ mkept Ts Ts') /\ (forall s0, wf_unks s0 -> held sy s0 s None None -> held sy s0 s' None None).
Proof.
  induction l as [|ij l IH]; cbn [fold_left]; intros Td Ts s Td' Ts' s' W E.
  - injection E as <- <- <-. split; [intros v; auto|]. split; auto. split; auto. intros _. split; intros i j; apply kept_refl.
  - destruct (soa_elt sy (Some (Td, Ts, s)) ij) as [[[Td1 Ts1] s1]|] eqn:E1. 2:{ exfalso. clear -E. induction l; [discriminate|]. auto. }
    destruct (elt_step _ _ _ _ _ _ _ W E1) as (S1 & W1 & K1 & H1). destruct (IH _ _ _ _ _ _ W1 E) as (S2 & W2 & K2 & H2).
    split; [intros v Hv; auto|]. split; auto. split; auto. intros J. destruct (K1 (Jn_anti _ _ S2 J)) as [A1 A2]. destruct (K2 J) as [B1 B2].
    split; intros i j; eapply kept_trans; eauto.
Qed.
Definition me_kept (M M' : matrix_equation) : Prop := mkept (me_Td M) (me_Td M') /\ mkept (me_Ts M) (me_Ts M') /\ me_aux M' = me_aux M.
Lemma meq_step M s M' s' : wf_unks s -> soa_meq sy M s = Some (M', s') ->
  sub_objs s s' /\ wf_unks s' /\ (Jn rho (unk_objs s') -> me_kept M M') /\ (forall s0, wf_unks s0 -> held sy s0 s None None -> held sy s0 s' None None).
Proof.
  intros W. unfold soa_meq. destruct (fold_left (soa_elt sy) idx12 (Some (me_Td M, me_Ts M, s))) as [[[Td Ts] s1]|] eqn:E; [|discriminate]. intros H. injection H as <- <-.
  destruct (elts_step _ _ _ _ _ _ _ W E) as (S1 & W1 & K1 & H1). split; auto. split; auto. split; auto. intros J. destruct (K1 J). split; [|split]; auto.
Qed.
Lemma meqs_step Ms : forall s Ms' s', wf_unks s -> soa_meqs sy Ms s = Some (Ms', s') ->
  sub_objs s s' /\ wf_unks s' /\ (Jn rho (unk_objs s') -> Forall2 me_kept Ms Ms') /\ (forall s0, wf_unks s0 -> held sy s0 s None None -> held sy s0 s' None None).
Proof.
  induction Ms as [|M Ms IH]; cbn [soa_meqs]; intros s Ms' s' W E.
  - injection E as <- <-. split; [intros v; auto|]. split; auto. 
  - destruct (soa_meq sy M s) as [[M1 s1]|] eqn:E1; [|discriminate]. destruct (soa_meqs sy Ms s1) as [[Ms2 s2]|] eqn:E2; [|discriminate]. injection E as <- <-.
    destruct (meq_step _ _ _ _ W E1) as (S1 & W1 & K1 & H1). destruct (IH _ _ _ W1 E2) as (S2 & W2 & K2 & H2).
    split; [intros v Hv; auto|]. split; auto. split; auto. intros J. constructor; auto. apply K1. eapply Jn_anti; eauto.
Qed.
End Values.
