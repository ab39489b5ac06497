(** Histories of the solver: what each task does to the unknowns' bookkeeping, and the invariants this gives. *)
From Coq Require Import Reals ZArith List String Bool Arith Lia.
From Verif Require Import Expr Kin Solver SolverSpec SolverFacts SolverInv PropLists.
Import ListNotations.
Local Open Scope string_scope.
Local Open Scope list_scope.
Local Open Scope nat_scope.

(** * Effects *)
Definition book (u : unk) := (u_sym u, u_n u, u_solved u, u_order u, u_names u, u_vers u, u_deps u, u_nver u, u_lhsnames u).
Definition stock (u : unk) := (u_own u, u_ref u, u_sc u, u_sceq u, u_tan u, u_taneq u, u_nsol u).
Definition keeps_tan (f : unk -> unk) : Prop := forall u, u_tanable u = true -> u_tanable (f u) = true.
Definition quiet (f : unk -> unk) : Prop := (forall u, book (f u) = book u /\ stock (f u) = stock u) /\ keeps_tan f.
Definition presolve (f : unk -> unk) : Prop := (forall u, book (f u) = book u) /\ keeps_tan f.
Lemma keeps_tan_comp f g : keeps_tan f -> keeps_tan g -> keeps_tan (fun u => g (f u)). Proof. intros F G u H. apply G. apply F. auto. Qed.
Lemma keeps_tan_same f : (forall u, u_tanable (f u) = u_tanable u) -> keeps_tan f. Proof. intros F u H. congruence. Qed.
Lemma quiet_pre f : quiet f -> presolve f. Proof. intros [H K]. split; auto. intros u. apply H. Qed.
Lemma pre_comp f g : presolve f -> presolve g -> presolve (fun u => g (f u)). Proof. intros [Hf Kf] [Hg Kg]. split. intros u. rewrite Hg. apply Hf. apply keeps_tan_comp; auto. Qed.
Lemma quiet_comp f g : quiet f -> quiet g -> quiet (fun u => g (f u)).
Proof. intros [Hf Kf] [Hg Kg]. split. intros u. destruct (Hg (f u)) as [-> ->]. apply Hf. apply keeps_tan_comp; auto. Qed.
Lemma quiet_id : quiet (fun u => u). Proof. split; auto. intros u; auto. Qed.
Lemma pre_id : presolve (fun u => u). Proof. split; auto. intros u; auto. Qed.
Ltac qt := split; [intros ?; split; reflexivity | intros ? ?; first [assumption | reflexivity]].
Ltac pt := split; [intros ?; reflexivity | intros ? ?; assumption].
Lemma updh_id i h : updh i (fun u => u) h = h. Proof. revert i. induction h; intros [|i]; simpl; auto. f_equal. auto. Qed.
Lemma upd_unk_id i s : upd_unk i (fun u => u) s = s. Proof. unfold upd_unk. rewrite updh_id. destruct s; auto. Qed.
Lemma upd_unk_comp i f g s : upd_unk i g (upd_unk i f s) = upd_unk i (fun u => g (f u)) s.
Proof. unfold upd_unk. cbn [s_heap set_s_heap]. rewrite updh_updh. destruct s; auto. Qed.

Lemma book_add_solution e u : book (add_solution e u) = book u. Proof. unfold add_solution. destruct (u_ref u); auto. Qed.
Lemma tan_add_solution e u : u_tanable (add_solution e u) = u_tanable u. Proof. unfold add_solution. destruct (u_ref u); auto. Qed.
Lemma tan_add_solutions l : forall u, u_tanable (fold_left (fun u e => add_solution e u) l u) = u_tanable u.
Proof. induction l; simpl; auto. intros u. rewrite IHl. apply tan_add_solution. Qed.
Lemma book_add_solutions l : forall u, book (fold_left (fun u e => add_solution e u) l u) = book u.
Proof. induction l; simpl; auto. intros u. rewrite IHl. apply book_add_solution. Qed.
Lemma pre_tan_store sols q1 q2 asm : presolve (tan_store sols q1 q2 asm).
Proof.
  assert (X : forall l v, book (fold_left (fun u e => set_u_tan (u_tan u ++ [e]) u) l v) = book v) by (induction l; simpl; intros; auto; rewrite IHl; auto).
  assert (Y : forall l v, u_tanable (fold_left (fun u e => set_u_tan (u_tan u ++ [e]) u) l v) = u_tanable v) by (induction l; simpl; intros; auto; rewrite IHl; auto).
  split.
  - intros u. unfold tan_store. transitivity (book (fold_left (fun u e => set_u_tan (u_tan u ++ [e]) u) sols (fold_left (fun u e => add_solution e u) sols u))). { reflexivity. }
    rewrite X. apply book_add_solutions.
  - apply keeps_tan_same. intros u. unfold tan_store. transitivity (u_tanable (fold_left (fun u e => set_u_tan (u_tan u ++ [e]) u) sols (fold_left (fun u e => add_solution e u) sols u))). { reflexivity. }
    rewrite Y. apply tan_add_solutions.
Qed.
Lemma pre_sincos_store s1 s2 q : presolve (sincos_store s1 s2 q).
Proof.
  split.
  - intros u. unfold sincos_store. transitivity (book (add_solution s2 (add_solution s1 u))). { reflexivity. } rewrite !book_add_solution. auto.
  - apply keeps_tan_same. intros u. unfold sincos_store. transitivity (u_tanable (add_solution s2 (add_solution s1 u))). { reflexivity. } rewrite !tan_add_solution. auto.
Qed.

(** stores on an unknown that has nothing stored yet in its own list but what the two lists hold *)
Definition split_own (u : unk) : Prop := u_ref u = Own /\ u_own u = u_tan u ++ u_sc u.
Lemma own_adds l : forall u, u_ref u = Own -> u_ref (fold_left (fun u e => add_solution e u) l u) = Own
  /\ u_own (fold_left (fun u e => add_solution e u) l u) = u_own u ++ l /\ u_sc (fold_left (fun u e => add_solution e u) l u) = u_sc u
  /\ u_tan (fold_left (fun u e => add_solution e u) l u) = u_tan u.
Proof.
  induction l; simpl; intros u H. { rewrite app_nil_r. auto. }
  assert (E : add_solution a u = set_u_own (u_own u ++ [a]) u) by (unfold add_solution; rewrite H; auto). rewrite E.
  destruct (IHl (set_u_own (u_own u ++ [a]) u) H) as (K1 & K2 & K3 & K4). simpl in *. rewrite K2, K3, K4, <- app_assoc. auto.
Qed.
Lemma tan_store_split sols q1 q2 asm u : split_own u -> u_sc u = [] -> split_own (tan_store sols q1 q2 asm u)
  /\ u_sc (tan_store sols q1 q2 asm u) = [] /\ u_tan (tan_store sols q1 q2 asm u) = u_tan u ++ sols.
Proof.
  intros [H1 H2] H3. unfold tan_store, split_own. set (v := fold_left (fun u e => add_solution e u) sols u).
  destruct (own_adds sols u H1) as (K1 & K2 & K3 & K4). fold v in K1, K2, K3, K4.
  assert (X : forall l w, u_ref (fold_left (fun u e => set_u_tan (u_tan u ++ [e]) u) l w) = u_ref w /\ u_own (fold_left (fun u e => set_u_tan (u_tan u ++ [e]) u) l w) = u_own w
     /\ u_sc (fold_left (fun u e => set_u_tan (u_tan u ++ [e]) u) l w) = u_sc w /\ u_tan (fold_left (fun u e => set_u_tan (u_tan u ++ [e]) u) l w) = u_tan w ++ l).
  { induction l; simpl; intros w. { rewrite app_nil_r. auto. } destruct (IHl (set_u_tan (u_tan w ++ [a]) w)) as (-> & -> & -> & ->). simpl. rewrite <- app_assoc. auto. }
  destruct (X sols v) as (X1 & X2 & X3 & X4). cbn [u_ref u_own u_sc u_tan set_u_nsol set_u_assume set_u_taneq]. rewrite X1, X2, X3, X4, K1, K2, K3, K4, H2, H3.
  rewrite !app_nil_r. auto.
Qed.
Lemma tan_store_ne sols q1 q2 asm u : sols <> [] -> u_tan (tan_store sols q1 q2 asm u) <> [].
Proof.
  intros Hs. unfold tan_store. cbn [u_tan set_u_nsol set_u_assume set_u_taneq].
  assert (X : forall l w, u_tan (fold_left (fun u e => set_u_tan (u_tan u ++ [e]) u) l w) = u_tan w ++ l).
  { induction l; simpl; intros w. { rewrite app_nil_r. auto. } rewrite IHl. simpl. rewrite <- app_assoc. auto. }
  rewrite X. intros E. apply app_eq_nil in E. tauto.
Qed.
Lemma sincos_store_split s1 s2 q u : split_own u -> split_own (sincos_store s1 s2 q u)
  /\ u_sc (sincos_store s1 s2 q u) = u_sc u ++ [s1; s2] /\ u_tan (sincos_store s1 s2 q u) = u_tan u.
Proof.
  intros [H1 H2]. unfold sincos_store, split_own, add_solution. rewrite H1. cbn [u_ref set_u_own]. rewrite H1.
  cbn [u_ref u_own u_sc u_tan set_u_own set_u_sc set_u_nsol set_u_sceq]. rewrite H1, H2, <- !app_assoc. auto.
Qed.

Section Hist.
Context (sy : sympy).

(** * What each leaf does *)

Lemma eff_tan_id s b s' : tan_id sy s = OK b s' -> exists i f, s_curr s = Some i /\ s' = upd_unk i f s /\ quiet f
  /\ (u_solved (getu (s_heap s) i) = true -> s' = s /\ b = u_tanable (getu (s_heap s) i)).
Proof.
  intros H. unfold tan_id in H. apply with_curr_inv in H as (i & Hc & H). exists i.
  destruct (u_solved (getu (s_heap s) i)) eqn:Es.
  - rewrite andb_false_r in H. injection H as <- <-. exists (fun u => u). rewrite upd_unk_id. auto using quiet_id.
  - destruct (negb _ && _); [destruct (first_some _ _) as [[e1 e2]|]|]; injection H as <- <-.
    + eexists. split; [exact Hc|]. split; [reflexivity|]. split; [|discriminate]. qt.
    + exists (fun u => u). rewrite upd_unk_id. split; [|split; [|split]]; auto using quiet_id.
    + exists (fun u => u). rewrite upd_unk_id. split; [|split; [|split]]; auto using quiet_id.
Qed.
Lemma eff_tan_solve s b s' : tan_solve sy s = OK b s' -> exists i, s_curr s = Some i /\
  ((b = false /\ s' = s) \/ (b = true /\ exists sols q1 q2 asm, s' = upd_unk i (tan_store sols q1 q2 asm) s /\ (sols <> [] /\ List.length sols <= 2))).
Proof.
  intros H. unfold tan_solve in H. apply with_curr_inv in H as (i & Hc & H). exists i. split; auto.
  destruct (u_tanable _); [|injection H as <- <-; auto]. destruct (u_eqn _) as [q1|]; [|discriminate]. destruct (u_eqn2 _) as [q2|]; [|discriminate].
  destruct (sy_match _ _ _ _) as [[A1 B1]|]; [|injection H as <- <-; auto]. destruct (sy_match _ _ _ _) as [[A2 B2]|]; [|injection H as <- <-; auto].
  destruct (_ || _); [injection H as <- <-; auto|]. destruct (_ =? _)%nat; injection H as <- <-; right; split; auto; eexists _, _, _, _; (split; [reflexivity|split; [discriminate|simpl; lia]]).
Qed.
Lemma eff_sincos_id s b s' : sincos_id s = OK b s' -> exists i f, s_curr s = Some i /\ s' = upd_unk i f s /\ quiet f
  /\ (b = false -> s' = s) /\ (u_solved (getu (s_heap s) i) = true -> b = false).
Proof.
  intros H. unfold sincos_id in H. apply with_curr_inv in H as (i & Hc & H). exists i.
  destruct (negb _ && _) eqn:C; [destruct (first_some _ _) as [[iss e]|]|]; injection H as <- <-.
  - eexists. split; [exact Hc|]. split; [reflexivity|]. split; [qt|]. split; [discriminate|].
    intros S. rewrite S in C. rewrite andb_false_r in C. discriminate.
  - exists (fun u => u). rewrite upd_unk_id. auto 6 using quiet_id.
  - exists (fun u => u). rewrite upd_unk_id. auto 6 using quiet_id.
Qed.
Lemma eff_sincos_solve s b s' : sincos_solve sy s = OK b s' -> exists i, s_curr s = Some i /\
  ((b = false /\ s' = s) \/ (b = true /\ exists s1 s2 q, s' = upd_unk i (sincos_store s1 s2 q) s)).
Proof.
  intros H. unfold sincos_solve in H. apply with_curr_inv in H as (i & Hc & H). exists i. split; auto.
  destruct (u_scable _); [|injection H as <- <-; auto]. destruct (u_eqn _) as [q|]; [|discriminate].
  destruct (contains "arcsin" _); [|destruct (contains "arccos" _); [|injection H as <- <-; auto]];
    (destruct (sy_match _ _ _ _) as [[A B]|]; [|injection H as <- <-; auto]; destruct (has _ _); [discriminate|]; injection H as <- <-; right; split; auto; eexists _, _, _; reflexivity).
Qed.

(** the Or of the two: an update of the current unknown only *)
Lemma curr_upd i f s : s_curr (upd_unk i f s) = s_curr s. Proof. reflexivity. Qed.
Lemma len_upd i f s : List.length (s_heap (upd_unk i f s)) = List.length (s_heap s).
Proof. unfold upd_unk. cbn [s_heap set_s_heap]. apply updh_length. Qed.
Lemma get_upd i f s : i < List.length (s_heap s) -> getu (s_heap (upd_unk i f s)) i = f (getu (s_heap s) i).
Proof. intros. unfold upd_unk. cbn [s_heap set_s_heap]. apply getu_updh_same. auto. Qed.
Lemma eff_tan_sol s b s' : tan_sol sy s = OK b s' -> exists i f, s_curr s = Some i /\ s' = upd_unk i f s /\ presolve f
  /\ ((b = false /\ quiet f) \/ (b = true /\ exists g sols q1 q2 asm, quiet g /\ (sols <> [] /\ List.length sols <= 2) /\ f = fun u => tan_store sols q1 q2 asm (g u)))
  /\ (u_solved (getu (s_heap s) i) = true -> (b = false /\ s' = s) \/ (b = true /\ u_tanable (getu (s_heap s) i) = true)).
Proof.
  unfold tan_sol, seq2. destruct (tan_id sy s) as [b1 s1|] eqn:E1; [|discriminate]. apply eff_tan_id in E1 as (i & f & Hc & -> & Q & S).
  destruct b1.
  - intros H. apply eff_tan_solve in H as (i' & Hc' & H). rewrite curr_upd in Hc'. assert (i' = i) by congruence. subst i'.
    destruct H as [(-> & ->)|(-> & sols & q1 & q2 & asm & -> & Hs)].
    + exists i, f. split; [exact Hc|]. split; [reflexivity|]. split; [apply quiet_pre; auto|]. split; [auto|]. intros K. destruct (S K) as [? ?]; auto.
    + rewrite upd_unk_comp. exists i. eexists. split; [exact Hc|]. split; [reflexivity|]. split. { apply (pre_comp f); [apply quiet_pre; auto | apply pre_tan_store]. }
      split. { right. split; auto. exists f, sols, q1, q2, asm. auto. } intros K. destruct (S K) as [? ?]. auto.
  - intros H. injection H as <- <-. exists i, f. split; [exact Hc|]. split; [reflexivity|]. split; [apply quiet_pre; auto|]. split; auto. intros K. destruct (S K). auto.
Qed.
Lemma eff_sc_sol s b s' : sc_sol sy s = OK b s' -> exists i f, s_curr s = Some i /\ s' = upd_unk i f s /\ presolve f
  /\ ((b = false /\ quiet f) \/ (b = true /\ exists g s1 s2 q, quiet g /\ f = fun u => sincos_store s1 s2 q (g u)))
  /\ (u_solved (getu (s_heap s) i) = true -> b = false /\ s' = s).
Proof.
  unfold sc_sol, seq2. destruct (sincos_id s) as [b1 s1|] eqn:E1; [|discriminate]. apply eff_sincos_id in E1 as (i & f & Hc & -> & Q & F & S).
  destruct b1.
  - intros H. apply eff_sincos_solve in H as (i' & Hc' & H). rewrite curr_upd in Hc'. assert (i' = i) by congruence. subst i'.
    destruct H as [(-> & ->)|(-> & sl1 & sl2 & q & ->)].
    + exists i, f. split; [exact Hc|]. split; [reflexivity|]. split; [apply quiet_pre; auto|]. split; [auto|]. intros K. discriminate (S K).
    + rewrite upd_unk_comp. exists i. eexists. split; [exact Hc|]. split; [reflexivity|]. split. { apply (pre_comp f); [apply quiet_pre; auto | apply pre_sincos_store]. }
      split. { right. split; auto. exists f, sl1, sl2, q. auto. } intros K. discriminate (S K).
  - intros H. injection H as <- <-. rewrite (F eq_refl). exists i, (fun u => u). rewrite upd_unk_id. split; [exact Hc|]. split; auto. split; [apply pre_id|]. split; auto using quiet_id.
Qed.
(** [eff i s f]: after both, with the success flag *)
Lemma eff_or s b s' : or2 (tan_sol sy) (sc_sol sy) s = OK b s' -> exists i f, s_curr s = Some i /\ s' = upd_unk i f s /\ presolve f
  /\ (b = false -> quiet f) /\ (b = true -> forall u, u_sc (f u) <> [] \/ u_tan (f u) <> [])
  /\ (b = true -> forall u, u_ref u = Own -> u_own u = [] -> u_sc u = [] -> u_tan u = [] -> split_own (f u) /\ List.length (u_sc (f u)) <= 2 /\ List.length (u_tan (f u)) <= 2)
  /\ (u_solved (getu (s_heap s) i) = true -> (b = false /\ s' = s) \/ (b = true /\ u_tanable (getu (s_heap s) i) = true)).
Proof.
  unfold or2. destruct (tan_sol sy s) as [b1 s1|] eqn:E1; [|discriminate]. apply eff_tan_sol in E1 as (i & f & Hc & -> & P & C & S).
  destruct (sc_sol sy (upd_unk i f s)) as [b2 s2|] eqn:E2; [|discriminate]. apply eff_sc_sol in E2 as (i' & g & Hc' & -> & P' & C' & S').
  rewrite curr_upd in Hc'. assert (i' = i) by congruence. subst i'. intros H. injection H as <- <-. rewrite upd_unk_comp.
  exists i. eexists. split; [exact Hc|]. split; [reflexivity|]. split; [apply pre_comp; auto|].
  assert (Qs : forall g u, quiet g -> u_ref (g u) = u_ref u /\ u_own (g u) = u_own u /\ u_sc (g u) = u_sc u /\ u_tan (g u) = u_tan u).
  { clear. intros g u Q. destruct (proj1 Q u) as [_ K]. unfold stock in K. injection K as ? ? ? ? ? ? ?. auto. }
  split; [|split; [|split]].
  - intros B. apply orb_false_iff in B as [-> ->]. destruct C as [[_ C]|[? _]]; [|discriminate]. destruct C' as [[_ C']|[? _]]; [|discriminate]. apply quiet_comp; auto.
  - intros B u. destruct C' as [[-> Q]|(-> & h & sl1 & sl2 & q & Q & ->)].
    + destruct (Qs g (f u) Q) as (K1 & K2 & K3 & K4). rewrite K4. right. destruct C as [[-> _]|(-> & h & sols & q1 & q2 & asm & _ & Hs & ->)]; [discriminate|].
      apply tan_store_ne. apply Hs.
    + left. unfold sincos_store. cbn [u_sc set_u_nsol set_u_sceq set_u_sc]. destruct (u_sc _); discriminate.
  - intros B u Ur Uo Us Ut.
    assert (T : split_own (f u) /\ u_sc (f u) = [] /\ List.length (u_tan (f u)) <= 2).
    { destruct C as [[-> Q]|(-> & h & sols & q1 & q2 & asm & Q & Hs & ->)].
      - destruct (Qs f u Q) as (K1 & K2 & K3 & K4). unfold split_own. rewrite K1, K2, K3, K4, Ur, Uo, Us, Ut. simpl. auto.
      - destruct (Qs h u Q) as (K1 & K2 & K3 & K4). destruct (tan_store_split sols q1 q2 asm (h u)) as (S1 & S2 & S3).
        { split; [congruence|]. rewrite K2, K3, K4, Uo, Us, Ut. auto. } { congruence. }
        split; auto. split; auto. rewrite S3, K4, Ut. apply Hs. }
    destruct T as (T1 & T2 & T3).
    destruct C' as [[-> Q]|(-> & h & sl1 & sl2 & q & Q & ->)].
    + destruct (Qs g (f u) Q) as (K1 & K2 & K3 & K4). destruct T1 as [T0 T1]. rewrite K3, K4, T2. split; [split; [congruence|rewrite K2, K3, K4; auto]|]. simpl. split; [lia|auto].
    + destruct (Qs h (f u) Q) as (K1 & K2 & K3 & K4). destruct T1 as [T0 T1]. destruct (sincos_store_split sl1 sl2 q (h (f u))) as (J1 & J2 & J3).
      { split; [congruence|]. rewrite K2, K3, K4. auto. } split; auto. rewrite J2, J3, K3, K4, T2. simpl. auto.
  - intros K. destruct (S K) as [[-> E]|[-> ?]]; auto. rewrite E in S'. destruct (S' K) as [-> E']. left. split; auto. rewrite <- upd_unk_comp, E. exact E'.
Qed.

(** the ranker's rule *)
Definition better (syms : list string) (sc tan : list expr) : list expr :=
  let vars e := List.length (filter (fun v => has v e) syms) in
  match sc, tan with
  | [], _ => tan
  | _, [] => sc
  | s0 :: _, t0 :: _ =>
      if (List.length sc <? List.length tan) then sc
      else if (List.length tan <? List.length sc) then tan
      else if (vars s0 <? vars t0) then sc else tan
  end.
Definition syms_of (s : state) : list string := map u_sym (unk_objs s).
Lemma count_vars us e : count_variables us e = List.length (filter (fun v => has v e) (map u_sym us)).
Proof. unfold count_variables. induction us as [|u us IH]; simpl; auto. destruct (has (u_sym u) e); simpl; congruence. Qed.
Lemma syms_upd i f s : (forall u, u_sym (f u) = u_sym u) -> syms_of (upd_unk i f s) = syms_of s.
Proof.
  intros Hf. unfold syms_of, unk_objs. rewrite !map_map. apply map_ext. intros j. unfold upd_unk. cbn [s_heap set_s_heap].
  destruct (Nat.eq_dec i j) as [<-|N]; [|rewrite getu_updh_other; auto].
  destruct (Nat.lt_ge_cases i (List.length (s_heap s))). rewrite getu_updh_same; auto. rewrite updh_oob; auto.
Qed.
Lemma book_sym u v : book u = book v -> u_sym u = u_sym v. Proof. unfold book. congruence. Qed.
Lemma book_solved u v : book u = book v -> u_solved u = u_solved v. Proof. unfold book. congruence. Qed.
Lemma pre_sym f : presolve f -> forall u, u_sym (f u) = u_sym u. Proof. intros P u. apply book_sym. apply (proj1 P). Qed.
Lemma finish_inv o b s' : finish o = OK b s' -> b = true /\ o = Some s'.
Proof. destruct o; simpl; [|discriminate]. intros H; injection H as <- <-; auto. Qed.
Lemma eff_rank s b s' : rank s = OK b s' -> exists i, s_curr s = Some i /\ b = true /\
  let u := getu (s_heap s) i in
  ((u_sc u = [] /\ u_tan u = [] /\ s' = s)
   \/ (exists f, presolve f /\ set_solved i (upd_unk i f s) = Some s' /\
        ((u_sc u <> [] /\ u_tan u <> [] /\ solutions (f u) = better (syms_of s) (u_sc u) (u_tan u) /\ u_sc (f u) = u_sc u /\ u_tan (f u) = u_tan u)
         \/ ((u_sc u = [] /\ u_tan u <> [] \/ u_sc u <> [] /\ u_tan u = []) /\ f = fun u => u)))).
Proof.
  intros H. unfold rank in H. apply with_curr_inv in H as (i & Hc & H). exists i. split; [exact Hc|]. cbv zeta. set (u := getu (s_heap s) i) in *.
  assert (L : forall l : list expr, (0 <? List.length l) = match l with [] => false | _ => true end) by (intros []; auto). rewrite !L in H.
  destruct (u_sc u) as [|s0 scs] eqn:Es; destruct (u_tan u) as [|t0 tans] eqn:Et; cbn [andb orb] in H.
  - injection H as <- <-. auto.
  - apply finish_inv in H as [-> H]. split; auto. right. exists (fun u => u). rewrite upd_unk_id. split; [apply pre_id|]. split; auto. right. split; auto. left. split; auto. discriminate.
  - apply finish_inv in H as [-> H]. split; auto. right. exists (fun u => u). rewrite upd_unk_id. split; [apply pre_id|]. split; auto. right. split; auto. right. split; auto. discriminate.
  - assert (Ch : rank_choice (unk_objs (upd_unk i (add_method ", best ranked, ") s)) u = RefSC /\ better (syms_of s) (s0 :: scs) (t0 :: tans) = s0 :: scs
        \/ rank_choice (unk_objs (upd_unk i (add_method ", best ranked, ") s)) u = RefTan /\ better (syms_of s) (s0 :: scs) (t0 :: tans) = t0 :: tans).
    { unfold rank_choice, better. rewrite Es, Et, !count_vars. change (map u_sym (unk_objs (upd_unk i (add_method ", best ranked, ") s))) with (syms_of (upd_unk i (add_method ", best ranked, ") s)).
      rewrite syms_upd by auto. cbn [nth]. destruct (_ <? _); auto. destruct (_ <? _); auto. destruct (_ <? _); auto. }
    destruct Ch as [[Er Eb]|[Er Eb]]; rewrite Er in H; rewrite Eb.
    + destruct (u_sceq u) as [|e1 es]; [discriminate|]. apply finish_inv in H as [-> H]. split; auto. right. rewrite upd_unk_comp in H. eexists. split; [|split; [exact H|]].
      { pt. } left. split; [discriminate|]. split; [discriminate|]. unfold solutions. cbn. auto.
    + destruct (u_taneq u) as [|e1 [|e2 es]]; try discriminate. apply finish_inv in H as [-> H]. split; auto. right. rewrite upd_unk_comp in H. eexists. split; [|split; [exact H|]].
      { pt. } left. split; [discriminate|]. split; [discriminate|]. unfold solutions. cbn. auto.
Qed.

(** on an unknown without solutions, at most two are stored *)
Definition few (f : unk -> unk) (u : unk) : Prop := u_ref u = Own -> u_own u = [] -> u_sc u = [] -> u_tan u = [] -> List.length (solutions (f u)) <= 2.
Lemma quiet_stock f u : quiet f -> stock (f u) = stock u. Proof. intros Q. apply (proj1 Q). Qed.
Lemma quiet_clean f u : quiet f -> u_ref u = Own -> u_own u = [] -> u_sc u = [] -> u_tan u = [] -> u_ref (f u) = Own /\ u_own (f u) = [] /\ u_sc (f u) = [] /\ u_tan (f u) = [].
Proof. intros Q R O S T. assert (K := quiet_stock f u Q). unfold stock in K. injection K as -> -> -> _ -> _ _. auto. Qed.
(** * Solver tasks: either a quiet update of an unsolved current unknown, or set_solved of it *)
Inductive effect (s s' : state) (i : nat) : bool -> Prop :=
| EQuiet b f : quiet f -> s' = upd_unk i f s -> (u_solved (getu (s_heap s) i) = true -> s' = s) -> effect s s' i b
| ESolve f : presolve f -> set_solved i (upd_unk i f s) = Some s' -> few f (getu (s_heap s) i) -> effect s s' i true.

Lemma getu_past i s : List.length (s_heap s) <= i -> getu (s_heap s) i = new_unknown "".
Proof. intros. unfold getu. apply nth_overflow. auto. Qed.
Lemma contains_end p : (forall q, contains p (append q p) = true -> True) -> contains p p = true -> forall q, contains p (append q p) = true.
Proof. intros _ H q. induction q; simpl append; auto. cbn [contains]. rewrite IHq. apply orb_true_r. Qed.

Lemma eff_alg s b s' : alg_sol sy s = OK b s' -> s' = s \/ exists i, s_curr s = Some i /\ effect s s' i b /\ u_solved (getu (s_heap s) i) = false.
Proof.
  unfold alg_sol, seq2. destruct (algebra_id sy s) as [b1 s1|] eqn:E; [|discriminate]. unfold algebra_id in E.
  destruct (_ =? _). { injection E as <- <-. intros H; injection H as <- <-. auto. }
  apply with_curr_inv in E as (i & Hc & E). destruct (u_solved (getu (s_heap s) i)) eqn:Es. { injection E as <- <-. intros H; injection H as <- <-. auto. }
  destruct (first_some _ _) as [tmp|]. 2:{ injection E as <- <-. intros H; injection H as <- <-. auto. }
  injection E as <- <-. intros H. right. exists i. split; auto. split; auto. unfold algebra_solve in H. apply with_curr_inv in H as (i' & Hc' & H).
  rewrite curr_upd in Hc'. assert (i' = i) by congruence. subst i'. set (f := fun u : unk => add_method "algebra" _) in *.
  assert (Q : quiet f) by qt.
  destruct (_ && _) in H. 2:{ injection H as <- <-. eapply EQuiet; eauto. congruence. }
  destruct (u_eqn _) as [q|]; [|discriminate]. destruct (linear_match _ _ _) as [[A B]|]. 2:{ injection H as <- <-. eapply EQuiet; eauto. congruence. }
  destruct (has _ _). { injection H as <- <-. eapply EQuiet; eauto. congruence. }
  apply finish_inv in H as [-> H]. rewrite upd_unk_comp in H. eapply ESolve; [|exact H|]. apply (pre_comp f); [apply quiet_pre; auto|]. split; [intros v; apply (book_add_solution _ v) | apply keeps_tan_same; intros v; apply (tan_add_solution _ v)].
  set (v := getu (s_heap s) i). intros R O S T. destruct (quiet_clean f v Q R O S T) as (R' & O' & _). cbv beta.
  match goal with |- context [add_solution ?e (f v)] => assert (X : solutions (add_solution e (f v)) = [e]) by (unfold solutions, add_solution; rewrite R'; cbn [u_ref u_own set_u_own]; rewrite R', O'; auto) end.
  match type of X with solutions ?w = _ => match goal with |- List.length ?a <= _ => change a with (solutions w) end end.
  rewrite X. simpl. lia.
Qed.
Lemma eff_simu s b s' : simu_sol sy s = OK b s' -> s' = s \/ exists i, s_curr s = Some i /\ effect s s' i b /\ u_solved (getu (s_heap s) i) = false.
Proof.
  unfold simu_sol, seq2. destruct (simu_id sy s) as [b1 s1|] eqn:E; [|discriminate]. unfold simu_id in E.
  apply with_curr_inv in E as (i & Hc & E). destruct (u_solved (getu (s_heap s) i)) eqn:Es. { injection E as <- <-. intros H; injection H as <- <-. auto. }
  destruct (simu_pairs _ _ _) as [[e1 e2]|]. 2:{ injection E as <- <-. intros H; injection H as <- <-. auto. }
  injection E as <- <-. intros H. right. exists i. split; auto. split; auto. unfold simu_solver in H. apply with_curr_inv in H as (i' & Hc' & H).
  rewrite curr_upd in Hc'. assert (i' = i) by congruence. subst i'. set (f := fun u : unk => set_u_eqn2 _ _) in *.
  assert (Q : quiet f) by qt.
  destruct (u_eqn _) as [q|]; [|discriminate]. destruct (u_eqn2 _) as [q2|]; [|discriminate].
  destruct (_ && _) in H. { injection H as <- <-. eapply EQuiet; eauto. congruence. }
  apply finish_inv in H as [-> H]. rewrite upd_unk_comp in H. eapply ESolve; [|exact H|]. apply (pre_comp f); [apply quiet_pre; auto|]. pt.
  set (v := getu (s_heap s) i). intros R O S T. destruct (quiet_clean f v Q R O S T) as (R' & O' & S' & T'). cbv beta. unfold solutions. cbn. rewrite ?R', ?O'. cbn. lia.
Qed.
Lemma pre_adds n l : presolve (fun u => set_u_nsol n (fold_left (fun u e => add_solution e u) l u)).
Proof. split. intros v. exact (book_add_solutions l v). apply keeps_tan_same. intros v. exact (tan_add_solutions l v). Qed.
Lemma eff_sac s b s' : sac_sol sy s = OK b s' -> s' = s \/ exists i, s_curr s = Some i /\ effect s s' i b /\ u_solved (getu (s_heap s) i) = false.
Proof.
  unfold sac_sol, seq2. destruct (sinandcos_id sy s) as [b1 s1|] eqn:E; [|discriminate]. unfold sinandcos_id in E.
  apply with_curr_inv in E as (i & Hc & E). destruct (u_solved (getu (s_heap s) i)) eqn:Es. { injection E as <- <-. intros H; injection H as <- <-. auto. }
  destruct (first_some _ _) as [es|]. 2:{ injection E as <- <-. intros H; injection H as <- <-. auto. }
  injection E as <- <-. intros H. right. exists i. split; auto. split; auto. unfold sinandcos_solve in H. apply with_curr_inv in H as (i' & Hc' & H).
  rewrite curr_upd in Hc'. assert (i' = i) by congruence. subst i'. set (f := fun u : unk => add_method "sinANDcos" _) in *.
  assert (Q : quiet f) by qt.
  destruct (_ && _) in H. 2:{ injection H as <- <-. eapply EQuiet; eauto. congruence. }
  destruct (u_eqn _) as [q|]; [|discriminate]. cbv zeta in H. destruct (is0 sy (Add _ _)); [discriminate|].
  apply finish_inv in H as [-> H]. rewrite upd_unk_comp in H. eapply ESolve; [|exact H|]. exact (pre_comp f _ (quiet_pre f Q) (pre_adds 2 _)).
  set (v := getu (s_heap s) i). intros R O S T. destruct (quiet_clean f v Q R O S T) as (R' & O' & S' & T'). cbv beta.
  match goal with |- context [fold_left _ ?l (f v)] => destruct (own_adds l (f v) R') as (A1 & A2 & _); match goal with |- List.length (solutions ?w) <= _ => change (solutions w) with (solutions (fold_left (fun u e => add_solution e u) l (f v))) end end.
  unfold solutions. rewrite A1, A2, O'. destruct (is0 sy _); simpl; lia.
Qed.

(** the sin/cos and atan2 solvers with the ranker *)
Lemma eff_sc_tan s b s' : sc_tan sy s = OK b s' -> exists i, s_curr s = Some i /\ (i < List.length (s_heap s) ->
  (b = false /\ exists f, quiet f /\ s' = upd_unk i f s /\ (u_solved (getu (s_heap s) i) = true -> s' = s))
  \/ (b = true /\ exists f, presolve f /\ set_solved i (upd_unk i f s) = Some s'
      /\ (u_solved (getu (s_heap s) i) = true -> u_tanable (getu (s_heap s) i) = true)
      /\ forall u, u = getu (s_heap s) i -> u_ref u = Own -> u_own u = [] -> u_sc u = [] -> u_tan u = [] ->
           (u_sc (f u) <> [] \/ u_tan (f u) <> []) /\ solutions (f u) = better (syms_of s) (u_sc (f u)) (u_tan (f u))
           /\ List.length (u_sc (f u)) <= 2 /\ List.length (u_tan (f u)) <= 2)).
Proof.
  unfold sc_tan, seq2. destruct (or2 _ _ s) as [b1 s1|] eqn:E; [|discriminate]. apply eff_or in E as (i & f & Hc & -> & P & Q & N & Sp & S).
  intros H. exists i. split; [exact Hc|]. intros Hi. destruct b1.
  - right. apply eff_rank in H as (i' & Hc' & -> & H). rewrite curr_upd in Hc'. assert (i' = i) by congruence. subst i'. cbv zeta in H.
    rewrite get_upd in H by auto. rewrite syms_upd in H by (apply pre_sym; auto). split; auto. set (u := getu (s_heap s) i) in *.
    assert (So : u_solved u = true -> u_tanable u = true) by (intros K; destruct (S K) as [[? _]|[_ ?]]; [discriminate|auto]).
    destruct H as [(H1 & H2 & _)|(g & Pg & Es & Cs)]; [destruct (N eq_refl u); tauto|]. rewrite upd_unk_comp in Es.
    eexists. split; [exact (pre_comp f g P Pg)|]. split; [exact Es|]. split; auto. intros u0 -> Ur Uo Us Ut.
    destruct (Sp eq_refl u Ur Uo Us Ut) as ([K1 K2] & K3 & K4). cbv beta.
    destruct Cs as [(C1 & C2 & C3 & C4 & C5)|(Cs & ->)].
    + rewrite C3, C4, C5. auto 6.
    + split. { destruct Cs as [[_ ?]|[? _]]; auto. } split; [|auto]. unfold solutions. rewrite K1, K2. destruct Cs as [[-> _]|[C ->]]. simpl. apply app_nil_r.
      simpl. destruct (u_sc (f u)); [tauto|]. auto.
  - left. injection H as <- <-. split; auto. exists f. split; auto. split; auto. intros K. destruct (S K) as [[_ ?]|[? _]]; [auto|discriminate].
Qed.

(** * Every task *)
Definition rest_same (s s' : state) : Prop := s_unks s' = s_unks s /\ s_solveN s' = s_solveN s /\ s_nodes s' = s_nodes s /\ s_edges s' = s_edges s.
Definition curr_ok (s s' : state) : Prop := s_curr s' = s_curr s \/ exists i, s_curr s' = Some i /\ In i (s_unks s).
Inductive step (t : task) (s s' : state) : Prop :=
| KQuiet i f : rest_same s s' -> curr_ok s s' -> s_heap s' = updh i f (s_heap s) -> quiet f -> (u_solved (getu (s_heap s) i) = true -> s_heap s' = s_heap s) -> step t s s'
| KSolve i f : s_curr s = Some i -> presolve f -> set_solved i (upd_unk i f s) = Some s' ->
    (u_solved (getu (s_heap s) i) = true -> t = TScTan /\ u_tanable (getu (s_heap s) i) = true) -> few f (getu (s_heap s) i) -> step t s s'.
Lemma step_same t s s' : rest_same s s' -> curr_ok s s' -> s_heap s' = s_heap s -> step t s s'.
Proof. intros R C H. apply (KQuiet t s s' 0 (fun u => u)); auto using quiet_id. rewrite updh_id. auto. Qed.
Lemma step_effect t s s' i b : s_curr s = Some i -> u_solved (getu (s_heap s) i) = false -> effect s s' i b -> step t s s'.
Proof.
  intros Hc Hs [b' f Q -> S|f P E].
  - apply (KQuiet t s _ i f); auto. unfold rest_same. cbn. auto. left; auto. congruence.
  - apply (KSolve t s s' i f); auto. congruence.
Qed.
Lemma task_step t s b s' : (forall i, s_curr s = Some i -> i < List.length (s_heap s)) -> run_task sy t s = OK b s' -> step t s s'.
Proof.
  intros L H.
  assert (Refl : forall s, rest_same s s /\ curr_ok s s) by (unfold rest_same, curr_ok; auto 6).
  destruct t; simpl in H.
  - unfold assigner in H. destruct (asgn_scan _ _ _) as [[i c]|] eqn:E.
    + injection H as <- <-. apply step_same; [unfold rest_same; cbn; auto| |reflexivity]. right. exists i. split; [reflexivity|].
      apply asgn_scan_some in E as (l1 & l2 & E & _). rewrite <- (firstn_skipn (match s_counter s with None => 0 | Some c => c end) (s_unks s)), E.
      apply in_or_app. right. apply in_or_app. right. left. auto.
    + destruct (s_unks s) as [|i l] eqn:E'; [discriminate|]. injection H as <- <-. apply step_same; [unfold rest_same; cbn; auto| |reflexivity].
      right. exists i. rewrite E'. split; [reflexivity|]. left; auto.
  - unfold sum_id in H. destruct (existsb _ _); [discriminate|]. injection H as <- <-. apply step_same; try apply Refl. auto.
  - apply eff_alg in H as [->|(i & Hc & E & S)]. apply step_same; try apply Refl; auto. eapply step_effect; eauto.
  - apply eff_sc_tan in H as (i & Hc & H). destruct (H (L i Hc)) as [(_ & f & Q & -> & S)|(_ & f & P & E & S & Fw)].
    + apply (KQuiet TScTan s _ i f); auto. unfold rest_same. cbn. auto. left; auto. intros K. rewrite (S K). auto.
    + apply (KSolve TScTan s s' i f); auto. intros Ur Uo Us Ut. destruct (Fw _ eq_refl Ur Uo Us Ut) as (_ & -> & F1 & F2).
      unfold better. destruct (u_sc (f _)) as [|s0 sc]; auto. destruct (u_tan (f _)) as [|t0 tn]; auto. destruct (_ <? _); auto. destruct (_ <? _); auto. destruct (_ <? _); auto.
  - apply eff_simu in H as [->|(i & Hc & E & S)]. apply step_same; try apply Refl; auto. eapply step_effect; eauto.
  - apply eff_sac in H as [->|(i & Hc & E & S)]. apply step_same; try apply Refl; auto. eapply step_effect; eauto.
  - unfold x2z2_transform in H. apply with_curr_inv in H as (i & Hc & H). destruct (negb _). { injection H as <- <-. apply step_same; try apply Refl. auto. }
    destruct (x2z2_pairs _ _ _) as [[l r]|]. 2:{ injection H as <- <-. apply step_same; try apply Refl. auto. }
    destruct (find _ _) as [j|] eqn:E. 2:{ injection H as <- <-. apply step_same; try apply Refl. auto. }
    injection H as <- <-. apply find_some in E as [_ E]. apply andb_true_iff in E as [_ E]. apply negb_true_iff in E.
    apply (KQuiet _ s _ j (add_method "x2z2 transform and ")); [unfold rest_same; cbn; auto | left; reflexivity | reflexivity | qt | congruence].
  - unfold sub_transform in H. destruct (s_meqs s) as [|M Ms]; [discriminate|].
    destruct (fold_left (sub_elt sy (unk_objs s) (me_Td M)) idx12 (me_Ts M, false)) as [Ts fd]. cbv zeta in H.
    destruct fd. 2:{ injection H as <- <-. apply step_same; [unfold rest_same; cbn; auto | left; reflexivity | reflexivity]. }
    destruct (scan_for_equations _ _ _ _) as [[[l1 l2] l3]|]; [|discriminate]. injection H as <- <-. apply step_same; [unfold rest_same; cbn; auto | left; reflexivity | reflexivity].
  - unfold updateL in H. destruct (scan_for_equations _ _ _ _) as [L'|]; [|discriminate]. injection H as <- <-.
    destruct (fold_left _ _ _) as [[l1 l2] l3]. apply step_same; [unfold rest_same; cbn; auto | left; reflexivity | reflexivity].
  - unfold comp_det in H. injection H as _ <-. apply step_same; try apply Refl. auto.
Qed.
End Hist.
