(** C75: the method text recorded for an unknown (u.solvemethod), in every history of solver ticks. *)
From Coq Require Import Reals ZArith List String Ascii Bool Arith Lia.
From Verif Require Import Expr Kin Solver SolverSpec SolverFacts SolverInv PropLists SolverHist HistFacts PropHist PropSolvers PropCrash PropExplain.
Import ListNotations.
Local Open Scope string_scope.
Local Open Scope list_scope.
Local Open Scope nat_scope.

(** * Specification *)
(** the names the solvers write (algebra_solver.py:190, tan_solver.py:196, rank_leaf.py:74-91, sinANDcos_solver.py:138, two_eqn_m7.py:144, x2y2_transform.py:278; sincos_solver.py:132-147) *)
Definition other_labels : list string := ["algebra"; "atan2(y,x)"; ", best ranked, "; "sin or cos"; "sinANDcos"; "simultaneous eqn"; "x2z2 transform and "].
Definition arc_labels : list string := ["arcsin"; "arccos"; ", arcsin"; ", arccos"].
Fixpoint joined (ls : list string) : string := match ls with [] => "" | l :: ls' => append l (joined ls') end.
(** a text made of these names and nothing else *)
Definition method_text (m : string) : Prop := exists ls, m = joined ls /\ Forall (fun l => In l (other_labels ++ arc_labels)) ls.
(** the last thing written is [l] *)
Definition ends_in (l m : string) : Prop := exists p, m = append p l.
(** the text's last name says by which formula the solutions were found *)
Inductive named : string -> list expr -> Prop :=
| by_algebra m a b : ends_in "algebra" m -> named m [Div a b]
| by_atan2 m y x : ends_in "atan2(y,x)" m -> named m [Atan2 y x]
| by_atan2_two m y1 x1 y2 x2 : ends_in "atan2(y,x)" m -> named m [Atan2 y1 x1; Atan2 y2 x2]
| by_arcsin m t : ends_in "arcsin" m -> named m [Asin t; Sub PiE (Asin t)]
| by_arccos m t : ends_in "arccos" m -> named m [Acos t; Neg (Acos t)]
| by_ranked_sin m t : ends_in "arcsin, best ranked, sin or cos" m -> named m [Asin t; Sub PiE (Asin t)]
| by_ranked_cos m t : ends_in "arccos, best ranked, sin or cos" m -> named m [Acos t; Neg (Acos t)]
| by_sinandcos_zero m y x : ends_in "sinANDcos" m -> named m [Atan2 y x; Add (Atan2 y x) PiE]
| by_sinandcos m y x t c : ends_in "sinANDcos" m -> named m [Add (Atan2 y x) (Atan2 t c); Add (Atan2 y x) (Atan2 (Neg t) c)]
| by_simultaneous m y x : ends_in "simultaneous eqn" m -> named m [Atan2 y x].
(** ... except that the name of an arcsin/arccos attempt that found nothing may follow the atan2 that succeeded *)
Definition misnamed (m : string) (sols : list expr) : Prop :=
  (ends_in "atan2(y,x), arcsin" m \/ ends_in "atan2(y,x), arccos" m) /\ ((exists y x, sols = [Atan2 y x]) \/ exists y1 x1 y2 x2, sols = [Atan2 y1 x1; Atan2 y2 x2]).

(** * Growth *)
Lemma app_assoc_s a b c : append (append a b) c = append a (append b c). Proof. induction a; cbn; congruence. Qed.
Lemma app_nil_s a : append a "" = a. Proof. induction a; cbn; congruence. Qed.
Lemma joined_app a b : joined (a ++ b) = append (joined a) (joined b). Proof. induction a; cbn [app joined]; auto. rewrite app_assoc_s. congruence. Qed.
Definition grows (u u' : unk) : Prop := exists ls, u_method u' = append (u_method u) (joined ls) /\ Forall (fun l => In l (other_labels ++ arc_labels)) ls
  /\ (u_scable u' = false -> u_scable u = false /\ Forall (fun l => In l other_labels) ls).
Lemma grows_same u u' : u_method u' = u_method u -> u_scable u' = u_scable u -> grows u u'.
Proof. intros E S. exists []. cbn. rewrite app_nil_s. rewrite S. auto. Qed.
Lemma grows_refl u : grows u u. Proof. apply grows_same; auto. Qed.
Lemma grows_trans u v w : grows u v -> grows v w -> grows u w.
Proof.
  intros (l1 & E1 & F1 & S1) (l2 & E2 & F2 & S2). exists (l1 ++ l2). rewrite joined_app, <- app_assoc_s, <- E1. split; auto. split. apply Forall_app; auto.
  intros S. destruct (S2 S) as [S3 G2]. destruct (S1 S3) as [S4 G1]. split; auto. apply Forall_app; auto.
Qed.
Lemma grows_label l u u' : In l other_labels -> u_method u' = append (u_method u) l -> u_scable u' = u_scable u -> grows u u'.
Proof. intros L E S. exists [l]. cbn [joined]. rewrite app_nil_s. split; auto. split. constructor; auto. apply in_or_app; auto. rewrite S. auto. Qed.
Lemma grows_arc l u u' : In l arc_labels -> u_method u' = append (u_method u) l -> u_scable u' = true -> grows u u'.
Proof. intros L E S. exists [l]. cbn [joined]. rewrite app_nil_s. split; auto. split. constructor; auto. apply in_or_app; auto. rewrite S. discriminate. Qed.
Definition sgrows (s s' : state) : Prop := forall i, grows (un s i) (un s' i).
Lemma sgrows_refl s : sgrows s s. Proof. intros i. apply grows_refl. Qed.
Lemma sgrows_trans a b c : sgrows a b -> sgrows b c -> sgrows a c. Proof. intros H K i. eapply grows_trans; eauto. Qed.
Lemma sgrows_heap s s' : s_heap s' = s_heap s -> sgrows s s'. Proof. intros E i. unfold un. rewrite E. apply grows_refl. Qed.
Lemma sgrows_upd i f s : grows (un s i) (f (un s i)) -> sgrows s (upd_unk i f s).
Proof.
  intros G j. unfold un in *. unfold upd_unk. cbn [s_heap set_s_heap]. destruct (Nat.eq_dec j i) as [->|N]; [|rewrite getu_updh_other by auto; apply grows_refl].
  destruct (Nat.lt_ge_cases i (List.length (s_heap s))). rewrite getu_updh_same; auto. rewrite updh_oob by auto. apply grows_refl.
Qed.
Lemma sgrows_set_solved i s s' : set_solved i s = Some s' -> sgrows s s'.
Proof.
  intros H. destruct (Nat.lt_ge_cases i (List.length (s_heap s))) as [Hi|Hi]. 2:{ exfalso. eapply set_solved_oob; eauto. }
  destruct (set_solved_spec i s s' Hi H) as (deps & nver & _ & _ & _ & Eh & _). intros j. unfold un. rewrite Eh. destruct (Nat.eq_dec j i) as [->|N].
  - rewrite getu_updh_same by auto. apply grows_same; reflexivity.
  - rewrite getu_updh_other by auto. apply grows_refl.
Qed.
Lemma sgrows_finish i s b s' : finish (set_solved i s) = OK b s' -> sgrows s s'.
Proof. intros H. apply finish_inv in H as [_ H]. eapply sgrows_set_solved; eauto. Qed.
Lemma adds_method l : forall u, u_method (fold_left (fun u e => add_solution e u) l u) = u_method u /\ u_scable (fold_left (fun u e => add_solution e u) l u) = u_scable u.
Proof. induction l as [|e l IH]; cbn [fold_left]; auto. intros u. destruct (IH (add_solution e u)) as [-> ->]. unfold add_solution. destruct (u_ref u); auto. Qed.
Lemma tans_method l : forall u, u_method (fold_left (fun u e => set_u_tan (u_tan u ++ [e]) u) l u) = u_method u /\ u_scable (fold_left (fun u e => set_u_tan (u_tan u ++ [e]) u) l u) = u_scable u.
Proof. induction l as [|e l IH]; cbn [fold_left]; auto. intros u. destruct (IH (set_u_tan (u_tan u ++ [e]) u)) as [-> ->]. auto. Qed.
Lemma tan_store_method sols q1 q2 asm u : u_method (tan_store sols q1 q2 asm u) = u_method u /\ u_scable (tan_store sols q1 q2 asm u) = u_scable u.
Proof.
  unfold tan_store. set (v := fold_left (fun u e => add_solution e u) sols u). destruct (adds_method sols u) as [A1 A2]. fold v in A1, A2. destruct (tans_method sols v) as [B1 B2].
  cbn [u_method u_scable set_u_nsol set_u_assume set_u_taneq]. split; congruence.
Qed.
Lemma sincos_store_method a b q u : u_method (sincos_store a b q u) = u_method u /\ u_scable (sincos_store a b q u) = u_scable u.
Proof. unfold sincos_store, add_solution. destruct u as [? ? ? ? ? ? ? ? ? []]; cbn; auto. Qed.

Section Method.
Context (sy : sympy).
Lemma g_assigner s b s' : assigner s = OK b s' -> sgrows s s'.
Proof. unfold assigner. destruct (asgn_scan _ _ _) as [[i c]|]; [|destruct (s_unks s); [discriminate|]]; intros H; injection H as <- <-; apply sgrows_heap; reflexivity. Qed.
Lemma g_rank s b s' : rank s = OK b s' -> sgrows s s'.
Proof.
  intros H. unfold rank in H. apply with_curr_inv in H as (i & Hc & H). fold (un s i) in H. destruct (_ && _).
  - assert (G : sgrows s (upd_unk i (add_method ", best ranked, ") s)). { apply sgrows_upd. apply (grows_label ", best ranked, "); auto. right; right; left; auto. }
    apply (sgrows_trans _ _ _ G). set (s1 := upd_unk i (add_method ", best ranked, ") s) in *. clearbody s1. clear G.
    assert (X : forall m f, In m other_labels -> (forall u, u_method (f u) = append (u_method u) m /\ u_scable (f u) = u_scable u) -> finish (set_solved i (upd_unk i f s1)) = OK b s' -> sgrows s1 s').
    { intros m f L E K. apply (sgrows_trans _ (upd_unk i f s1)). apply sgrows_upd. destruct (E (un s1 i)). apply (grows_label m); auto. eapply sgrows_finish; eauto. }
    destruct (rank_choice _ _).
    + destruct (u_sceq _); [discriminate|]. apply (X "sin or cos" _) in H; auto. right; right; right; left; auto.
    + destruct (u_sceq _); [discriminate|]. apply (X "sin or cos" _) in H; auto. right; right; right; left; auto.
    + destruct (u_taneq _) as [|e1 [|e2 l]]; try discriminate. apply (X "atan2(y,x)" _) in H; auto. right; left; auto.
  - destruct (_ || _). eapply sgrows_finish; eauto. injection H as <- <-. apply sgrows_refl.
Qed.
Lemma g_alg_id s b s' : algebra_id sy s = OK b s' -> sgrows s s'.
Proof.
  intros H. unfold algebra_id in H. destruct (_ =? _). { injection H as <- <-. apply sgrows_refl. } apply with_curr_inv in H as (i & Hc & H). destruct (u_solved _). { injection H as <- <-. apply sgrows_refl. }
  destruct (first_some _ _); injection H as <- <-; [|apply sgrows_refl]. apply sgrows_upd. apply (grows_label "algebra"); auto. left; auto.
Qed.
Lemma g_alg_solve s b s' : algebra_solve sy s = OK b s' -> sgrows s s'.
Proof.
  intros H. unfold algebra_solve in H. apply with_curr_inv in H as (i & Hc & H). destruct (_ && _); [|injection H as <- <-; apply sgrows_refl]. destruct (u_eqn _) as [q|]; [|discriminate].
  destruct (linear_match _ _ _) as [[A B]|]; [|injection H as <- <-; apply sgrows_refl]. destruct (has _ _). { injection H as <- <-. apply sgrows_refl. }
  eapply sgrows_trans; [|eapply sgrows_finish; eauto]. apply sgrows_upd. apply grows_same; unfold add_solution; destruct (u_ref _); auto.
Qed.
Lemma arc_label (m : string) (iss : bool) : In (append (if 0 <? String.length m then ", " else "") (if iss then "arcsin" else "arccos")) arc_labels.
Proof. destruct (0 <? _), iss; cbn; auto. Qed.
Lemma g_sincos_id s b s' : sincos_id s = OK b s' -> sgrows s s'.
Proof.
  intros H. unfold sincos_id in H. apply with_curr_inv in H as (i & Hc & H). destruct (_ && _); [|injection H as <- <-; apply sgrows_refl]. destruct (first_some _ _) as [[iss e]|]; injection H as <- <-; [|apply sgrows_refl].
  apply sgrows_upd. eapply grows_arc; [apply arc_label|reflexivity|reflexivity].
Qed.
Lemma g_sincos_solve s b s' : sincos_solve sy s = OK b s' -> sgrows s s'.
Proof.
  intros H. apply eff_sincos_solve in H as (i & _ & [[_ ->]|(_ & a & c & q & ->)]). apply sgrows_refl. apply sgrows_upd. destruct (sincos_store_method a c q (un s i)). apply grows_same; auto.
Qed.
Lemma g_tan_id s b s' : tan_id sy s = OK b s' -> sgrows s s'.
Proof.
  intros H. unfold tan_id in H. apply with_curr_inv in H as (i & Hc & H). injection H as <- <-. destruct (_ && _); [|apply sgrows_refl]. destruct (first_some _ _) as [[e1 e2]|]; [|apply sgrows_refl].
  apply sgrows_upd. apply (grows_label "atan2(y,x)"); auto. right; left; auto.
Qed.
Lemma g_tan_solve s b s' : tan_solve sy s = OK b s' -> sgrows s s'.
Proof.
  intros H. apply eff_tan_solve in H as (i & _ & [[_ ->]|(_ & a & q1 & q2 & c & -> & _)]). apply sgrows_refl. apply sgrows_upd. destruct (tan_store_method a q1 q2 c (un s i)). apply grows_same; auto.
Qed.
Lemma g_sac_id s b s' : sinandcos_id sy s = OK b s' -> sgrows s s'.
Proof.
  intros H. unfold sinandcos_id in H. apply with_curr_inv in H as (i & Hc & H). destruct (u_solved _). { injection H as <- <-. apply sgrows_refl. }
  destruct (first_some _ _); injection H as <- <-; [|apply sgrows_refl]. apply sgrows_upd. apply (grows_label "sinANDcos"); auto. do 4 right; left; auto.
Qed.
Lemma g_sac_solve s b s' : sinandcos_solve sy s = OK b s' -> sgrows s s'.
Proof.
  intros H. unfold sinandcos_solve in H. apply with_curr_inv in H as (i & Hc & H). destruct (_ && _); [|injection H as <- <-; apply sgrows_refl]. destruct (u_eqn _) as [q|]; [|discriminate].
  destruct (is0 _ _); [discriminate|]. eapply sgrows_trans; [|eapply sgrows_finish; eauto]. apply sgrows_upd.
  match goal with |- context [fold_left _ ?l ?u] => destruct (adds_method l u) end. apply grows_same; auto.
Qed.
Lemma g_simu_id s b s' : simu_id sy s = OK b s' -> sgrows s s'.
Proof.
  intros H. unfold simu_id in H. apply with_curr_inv in H as (i & Hc & H). destruct (u_solved _). { injection H as <- <-. apply sgrows_refl. }
  destruct (simu_pairs _ _ _) as [[e1 e2]|]; injection H as <- <-; [|apply sgrows_refl]. apply sgrows_upd. apply (grows_label "simultaneous eqn"); auto. do 5 right; left; auto.
Qed.
Lemma g_simu_solver s b s' : simu_solver sy s = OK b s' -> sgrows s s'.
Proof.
  intros H. unfold simu_solver in H. apply with_curr_inv in H as (i & Hc & H). destruct (u_eqn _); [|discriminate]. destruct (u_eqn2 _); [|discriminate]. destruct (_ && _). { injection H as <- <-. apply sgrows_refl. }
  eapply sgrows_trans; [|eapply sgrows_finish; eauto]. apply sgrows_upd. apply grows_same; auto.
Qed.
Lemma g_x2z2 s b s' : x2z2_transform sy s = OK b s' -> sgrows s s'.
Proof.
  intros H. unfold x2z2_transform in H. apply with_curr_inv in H as (i & Hc & H). destruct (negb _). { injection H as <- <-. apply sgrows_refl. }
  destruct (x2z2_pairs _ _ _) as [[l r]|]; [|injection H as <- <-; apply sgrows_refl]. destruct (find _ _) as [j|]; injection H as <- <-; [|apply sgrows_refl].
  apply (sgrows_trans _ (upd_unk j (add_method "x2z2 transform and ") s)); [|apply sgrows_heap; reflexivity]. apply sgrows_upd. apply (grows_label "x2z2 transform and "); auto. do 6 right; left; auto.
Qed.
Lemma g_seq2 f g : (forall s b s', f s = OK b s' -> sgrows s s') -> (forall s b s', g s = OK b s' -> sgrows s s') -> forall s b s', seq2 f g s = OK b s' -> sgrows s s'.
Proof. intros F G s b s' H. unfold seq2 in H. destruct (f s) as [[] s1|] eqn:E; try discriminate. eapply sgrows_trans; eauto. injection H as <- <-. eauto. Qed.
Lemma g_or2 f g : (forall s b s', f s = OK b s' -> sgrows s s') -> (forall s b s', g s = OK b s' -> sgrows s s') -> forall s b s', or2 f g s = OK b s' -> sgrows s s'.
Proof. intros F G s b s' H. unfold or2 in H. destruct (f s) as [b1 s1|] eqn:E; try discriminate. destruct (g s1) as [b2 s2|] eqn:E2; [|discriminate]. injection H as <- <-. eapply sgrows_trans; eauto. Qed.
Lemma task_grows t s b s' : run_task sy t s = OK b s' -> sgrows s s'.
Proof.
  destruct t; cbn [run_task]; intros H.
  - eapply g_assigner; eauto.
  - unfold sum_id in H. destruct (existsb _ _); [discriminate|]. injection H as <- <-. apply sgrows_refl.
  - revert s b s' H. apply g_seq2; eauto using g_alg_id, g_alg_solve.
  - revert s b s' H. apply g_seq2; [apply g_or2|]; eauto using g_rank; apply g_seq2; eauto using g_tan_id, g_tan_solve, g_sincos_id, g_sincos_solve.
  - revert s b s' H. apply g_seq2; eauto using g_simu_id, g_simu_solver.
  - revert s b s' H. apply g_seq2; eauto using g_sac_id, g_sac_solve.
  - eapply g_x2z2; eauto.
  - unfold sub_transform in H. destruct (s_meqs s) as [|M Ms]; [discriminate|]. destruct (fold_left (sub_elt sy (unk_objs s) (me_Td M)) idx12 (me_Ts M, false)) as [Ts fd]. cbv zeta in H.
    destruct fd; [|injection H as <- <-; apply sgrows_heap; reflexivity]. destruct (scan_for_equations _ _ _ _) as [[[l1 l2] l3]|]; [|discriminate]. injection H as <- <-. apply sgrows_heap; reflexivity.
  - unfold updateL in H. destruct (scan_for_equations _ _ _ _) as [[[l1 l2] l3]|]; [|discriminate]. destruct (fold_left _ _ _) as [[k1 k2] k3] in H. injection H as <- <-. apply sgrows_heap; reflexivity.
  - unfold comp_det in H. injection H as _ <-. apply sgrows_refl.
Qed.
Lemma runs_grow s ts s' : runs sy s ts s' -> sgrows s s'.
Proof. induction 1. apply sgrows_refl. eapply sgrows_trans; eauto using task_grows. Qed.
Lemma start_fresh s i : initial sy s -> u_method (un s i) = "" /\ u_scable (un s i) = false.
Proof.
  intros (Hf & _). unfold un. destruct (Nat.lt_ge_cases i (List.length (s_heap s))) as [L|L]. { rewrite (Hf _ (getu_in _ _ L)). auto. } unfold getu. rewrite nth_overflow by auto. auto.
Qed.

(** * C75 *)
(** In every history the text only grows, by whole method names. *)
Theorem C75_only_grows s ts s' i : runs sy s ts s' -> exists m, method_text m /\ u_method (un s' i) = append (u_method (un s i)) m.
Proof. intros R. destruct (runs_grow s ts s' R i) as (ls & E & F & _). exists (joined ls). split; auto. exists ls. auto. Qed.
Theorem C75_text s0 ts s i : initial sy s0 -> runs sy s0 ts s -> method_text (u_method (un s i)).
Proof. intros I R. destruct (C75_only_grows s0 ts s i R) as (m & M & ->). rewrite (proj1 (start_fresh s0 i I)). exact M. Qed.

(** ** the arcsin/arccos solver reads back its own name: "rcs" occurs only in "arcsin" *)
Definition rcs1 (st : nat) (c : ascii) : option nat :=
  if Ascii.eqb c "r" then Some 1 else if Ascii.eqb c "c" then Some (match st with 1 => 2 | _ => 0 end) else if Ascii.eqb c "s" then match st with 2 => None | _ => Some 0 end else Some 0.
Fixpoint rcs (st : nat) (s : string) : option nat := match s with EmptyString => Some st | String c t => match rcs1 st c with None => None | Some st' => rcs st' t end end.
Lemma rcs_app a : forall st b, rcs st (append a b) = match rcs st a with None => None | Some st' => rcs st' b end.
Proof. induction a as [|c a IH]; intros st b; cbn [append rcs]; auto. destruct (rcs1 st c); auto. Qed.
Lemma rcs_bad s : forall st st', rcs st s = Some st' -> contains "arcsin" s = false.
Proof.
  induction s as [|c s IH]; intros st st' H; [reflexivity|]. cbn [rcs] in H. destruct (rcs1 st c) as [st1|] eqn:E; [|discriminate]. cbn [contains]. rewrite (IH st1 st' H), orb_false_r.
  destruct (String.prefix "arcsin" (String c s)) eqn:P; auto. exfalso. clear IH. cbn [String.prefix] in P. destruct (ascii_dec "a" c) as [<-|]; [|discriminate].
  assert (st1 = 0) by (cbv in E; congruence). subst st1. destruct s as [|c1 s]; [discriminate|]. cbn [String.prefix] in P. destruct (ascii_dec "r" c1) as [<-|]; [|discriminate]. cbn [rcs] in H. change (rcs1 0 "r") with (Some 1) in H. cbv iota in H.
  destruct s as [|c2 s]; [discriminate|]. cbn [String.prefix] in P. destruct (ascii_dec "c" c2) as [<-|]; [|discriminate]. cbn [rcs] in H. change (rcs1 1 "c") with (Some 2) in H. cbv iota in H.
  destruct s as [|c3 s]; [discriminate|]. cbn [String.prefix] in P. destruct (ascii_dec "s" c3) as [<-|]; [|discriminate]. cbn [rcs] in H. change (rcs1 2 "s") with (@None nat) in H. discriminate.
Qed.
Lemma rcs_labels ls : Forall (fun l => In l other_labels) ls -> rcs 0 (joined ls) = Some 0.
Proof.
  induction 1 as [|l ls H _ IH]; [reflexivity|]. cbn [joined]. rewrite rcs_app. assert (E : rcs 0 l = Some 0) by (cbn in H; repeat (destruct H as [<-|H]; [reflexivity|]); contradiction). rewrite E. exact IH.
Qed.
Definition minv (s : state) : Prop := forall i, u_scable (un s i) = false -> rcs 0 (u_method (un s i)) = Some 0.
Lemma minv_initial s : initial sy s -> minv s. Proof. intros I i _. rewrite (proj1 (start_fresh s i I)). reflexivity. Qed.
Lemma minv_grows s s' : minv s -> sgrows s s' -> minv s'.
Proof. intros M G i S. destruct (G i) as (ls & E & _ & F). destruct (F S) as [S0 L]. rewrite E, rcs_app, (M i S0). apply rcs_labels. auto. Qed.

(** * What a solving tick records *)
Lemma ends_self p l : ends_in l (append p l). Proof. exists p. auto. Qed.
Lemma alg_named s b s' i : current s i -> solutions (un s i) = [] -> u_solved (un s i) = false -> alg_sol sy s = OK b s' -> u_solved (un s' i) = true -> named (u_method (un s' i)) (solutions (un s' i)).
Proof.
  intros [Hc Hi] Hn Hu H Hs'. unfold un in *. unfold alg_sol, seq2 in H. destruct (algebra_id sy s) as [b1 s1|] eqn:E; [|discriminate].
  assert (Out : forall b0 s0, OK b0 s0 = OK b s' -> u_solved (getu (s_heap s0) i) = false -> False) by (intros b0 s0 K1 K2; injection K1 as -> ->; congruence).
  unfold algebra_id in E. destruct (_ =? _)%nat. { injection E as <- <-. destruct (Out _ _ H Hu). }
  unfold with_curr in E. rewrite Hc in E. set (u := getu (s_heap s) i) in *. rewrite Hu in E.
  destruct (first_some _ _) as [tmp|] eqn:F; injection E as <- <-. 2:{ destruct (Out _ _ H Hu). }
  unfold algebra_solve, with_curr in H. change (s_curr (upd_unk _ _ s)) with (s_curr s) in H. rewrite Hc in H. rewrite getu_upd in H by auto. fold u in H.
  cbn [u_ready add_method set_u_method set_u_eqn set_u_ready u_method u_eqn u_sym] in H. rewrite has_end in H by reflexivity. cbn [andb k_rhs k_lhs] in H.
  assert (Out1 : u_solved (getu (s_heap (upd_unk i (fun u0 => add_method "algebra" (set_u_eqn (Some (Keq (Num 0) tmp)) (set_u_ready true u0))) s)) i) = false) by (rewrite getu_upd by auto; exact Hu).
  destruct (linear_match sy tmp (u_sym u)) as [[A B]|] eqn:LM. 2:{ destruct (Out _ _ H Out1). }
  destruct (has (u_sym u) (Div (Sub (Num 0) B) A)) eqn:Hh. { destruct (Out _ _ H Out1). }
  apply finish_solved in H as (Hl & _ & o & d & n & Eu). rewrite getu_upd in Eu by (rewrite upd_len; auto). rewrite getu_upd in Eu by auto. fold u in Eu. rewrite Eu.
  assert (Es : solutions (solved_unk o d n (set_u_nsol 1 (add_solution (Div (Sub (Num 0) B) A) (add_method "algebra" (set_u_eqn (Some (Keq (Num 0) tmp)) (set_u_ready true u)))))) = [Div (Sub (Num 0) B) A]).
  { transitivity (solutions (add_solution (Div (Sub (Num 0) B) A) u)); [|rewrite solutions_add, Hn; reflexivity]. destruct u as [? ? ? ? ? ? ? ? ? []]; reflexivity. }
  rewrite Es. apply by_algebra. exists (u_method u). destruct u as [? ? ? ? ? ? ? ? ? []]; reflexivity.
Qed.
Lemma sac_named s b s' i : current s i -> solutions (un s i) = [] -> u_solved (un s i) = false -> sac_sol sy s = OK b s' -> u_solved (un s' i) = true -> named (u_method (un s' i)) (solutions (un s' i)).
Proof.
  intros [Hc Hi] Hn Hu H Hs'. unfold un in *. unfold sac_sol, seq2 in H. destruct (sinandcos_id sy s) as [b1 s1|] eqn:E; [|discriminate].
  assert (Out : forall b0 s0, OK b0 s0 = OK b s' -> u_solved (getu (s_heap s0) i) = false -> False) by (intros b0 s0 K1 K2; injection K1 as -> ->; congruence).
  unfold sinandcos_id, with_curr in E. rewrite Hc in E. set (u := getu (s_heap s) i) in *. rewrite Hu in E.
  destruct (first_some _ _) as [es|] eqn:F; injection E as <- <-. 2:{ destruct (Out _ _ H Hu). }
  unfold sinandcos_solve, with_curr in H. change (s_curr (upd_unk _ _ s)) with (s_curr s) in H. rewrite Hc in H. rewrite getu_upd in H by auto. fold u in H.
  cbn [u_ready u_solved add_method set_u_method set_u_eqn set_u_ready u_method u_eqn u_sym k_rhs] in H. rewrite Hu in H. rewrite has_end in H by reflexivity. cbn [negb andb] in H.
  destruct (is0 sy (Add _ _)); [discriminate|].
  match type of H with finish (set_solved i (upd_unk i (fun u => set_u_nsol 2 (fold_left _ ?l u)) _)) = _ => set (sols := l) in H end.
  apply finish_solved in H as (Hl & _ & o & d & n & Eu). rewrite getu_upd in Eu by (rewrite upd_len; auto). rewrite getu_upd in Eu by auto. fold u in Eu. rewrite Eu. clear Eu.
  set (g := add_method "sinANDcos" (set_u_eqn (Some (Keq (Num 0) es)) (set_u_ready true u))).
  assert (Es : solutions (solved_unk o d n (set_u_nsol 2 (fold_left (fun u e => add_solution e u) sols g))) = sols).
  { transitivity (solutions (fold_left (fun u e => add_solution e u) sols g)); [reflexivity|]. rewrite solutions_adds. change (solutions g) with (solutions u). rewrite Hn. reflexivity. }
  rewrite Es. assert (Em : ends_in "sinANDcos" (u_method (solved_unk o d n (set_u_nsol 2 (fold_left (fun u e => add_solution e u) sols g))))).
  { exists (u_method u). transitivity (u_method (fold_left (fun u e => add_solution e u) sols g)); [reflexivity|]. rewrite (proj1 (adds_method sols g)). reflexivity. }
  unfold sols. destruct (is0 sy _). apply by_sinandcos_zero; exact Em. apply by_sinandcos; exact Em.
Qed.
Lemma own_solved o d n sol v : u_method (solved_unk o d n (set_u_nsol 1 (set_u_ref Own (set_u_own [sol] v)))) = u_method v /\ solutions (solved_unk o d n (set_u_nsol 1 (set_u_ref Own (set_u_own [sol] v)))) = [sol].
Proof. split; reflexivity. Qed.
Lemma simu_named s b s' i : current s i -> u_solved (un s i) = false -> simu_sol sy s = OK b s' -> u_solved (un s' i) = true -> named (u_method (un s' i)) (solutions (un s' i)).
Proof.
  intros [Hc Hi] Hu H Hs'. unfold un in *. unfold simu_sol, seq2 in H. destruct (simu_id sy s) as [b1 s1|] eqn:E; [|discriminate].
  assert (Out : forall b0 s0, OK b0 s0 = OK b s' -> u_solved (getu (s_heap s0) i) = false -> False) by (intros b0 s0 K1 K2; injection K1 as -> ->; congruence).
  unfold simu_id, with_curr in E. rewrite Hc in E. set (u := getu (s_heap s) i) in *. rewrite Hu in E.
  destruct (simu_pairs _ _ _) as [[e1 e2]|] eqn:F; injection E as <- <-. 2:{ destruct (Out _ _ H Hu). }
  unfold simu_solver, with_curr in H. change (s_curr (upd_unk _ _ s)) with (s_curr s) in H. rewrite Hc in H. rewrite getu_upd in H by auto. fold u in H.
  cbn [add_method set_u_method set_u_eqn set_u_eqn2 u_method u_eqn u_eqn2 u_sym k_rhs] in H.
  destruct (_ && _). { exfalso. apply (Out _ _ H). rewrite getu_upd by auto. exact Hu. }
  apply finish_solved in H as (Hl & _ & o & d & n & Eu). rewrite getu_upd in Eu by (rewrite upd_len; auto). rewrite getu_upd in Eu by auto. fold u in Eu. rewrite Eu. clear Eu.
  match goal with |- context [set_u_own [?a] ?v] => destruct (own_solved o d n a v) as [E1 E2]; set (sol := a) in *; set (w := v) in * end. rewrite E1, E2.
  assert (Ew : u_method w = append (u_method u) "simultaneous eqn") by (unfold w; reflexivity). rewrite Ew. unfold sol. apply by_simultaneous. apply ends_self.
Qed.
Definition tans (sols : list expr) : Prop := (exists y x, sols = [Atan2 y x]) \/ exists y1 x1 y2 x2, sols = [Atan2 y1 x1; Atan2 y2 x2].
Lemma tan_stage_m s b s1 i : current s i -> blank (un s i) -> u_tanable (un s i) = false -> u_solved (un s i) = false -> tan_sol sy s = OK b s1 ->
  s1 = s \/ exists sols, tans sols /\ u_own (un s1 i) = sols /\ u_tan (un s1 i) = sols /\ u_ref (un s1 i) = Own /\ u_sc (un s1 i) = [] /\ u_sceq (un s1 i) = [] /\ u_solved (un s1 i) = false /\ current s1 i
    /\ u_method (un s1 i) = append (u_method (un s i)) "atan2(y,x)" /\ u_scable (un s1 i) = u_scable (un s i).
Proof.
  intros [Hc Hi] (B1 & B2 & B3 & B4 & B5 & B6) Ht Hu H. unfold un in *. unfold tan_sol, seq2, tan_id in H. unfold with_curr in H at 1. rewrite Hc in H. set (u := getu (s_heap s) i) in *.
  rewrite Ht, Hu in H. cbn [negb andb] in H.
  destruct (first_some _ _) as [[e1 e2]|] eqn:F. 2:{ fold u in H. rewrite Ht in H. injection H as <- <-. auto. }
  apply first_some_in in F as (es & _ & F). apply first_some_in in F as (ec & _ & F).
  rewrite getu_upd in H by auto. cbn [u_tanable set_u_tanable] in H. unfold tan_solve, with_curr in H.
  change (s_curr (upd_unk _ _ s)) with (s_curr s) in H. rewrite Hc in H. rewrite getu_upd in H by auto. fold u in H.
  cbn [u_tanable set_u_tanable u_eqn u_eqn2 add_method set_u_method set_u_eqn set_u_eqn2 set_u_ready u_sym k_lhs k_rhs] in H.
  unfold tan_pair in F. destruct (sy_match sy _ _ _) as [[A B]|] eqn:M1 in F; [|discriminate]. destruct (sy_match sy _ _ _) as [[C D]|] eqn:M2 in F; [|discriminate].
  destruct (_ && _) eqn:Kn in F; [|discriminate]. injection F as <- <-. rewrite M1, M2 in H.
  set (f := fun u : unk => set_u_tanable _ _) in H. assert (Q : quiet f). { split. intros v; split; reflexivity. intros v T; reflexivity. }
  rewrite !count_quiet in H by exact Q. apply andb_true_iff in Kn as [Kn K3]. apply andb_true_iff in Kn as [_ K2]. rewrite K2, K3 in H. cbn [negb orb] in H.
  right. destruct (_ =? 0)%nat in H; injection H as <- <-; rewrite getu_upd by (rewrite upd_len; auto); rewrite getu_upd by auto; fold u.
  - match goal with |- context [tan_store [?a] ?q1 ?q2 ?asm ?v] => destruct (tan_store1 a q1 q2 asm v B1 B2 B4 B6) as (R1 & R2 & R3 & R4 & R5 & R6 & R7 & R8 & R9 & R10); destruct (tan_store_method [a] q1 q2 asm v) as [S1 S2] end.
    eexists. split; [left; eexists _, _; reflexivity|]. split; [exact R1|]. split; [exact R2|]. split; [exact R6|]. split; [rewrite R7; exact B3|]. split; [rewrite R8; exact B5|]. split; [rewrite R10; exact Hu|].
    split. { split; [exact Hc|]. rewrite !upd_len. exact Hi. } split; [rewrite S1; reflexivity|rewrite S2; reflexivity].
  - match goal with |- context [tan_store [?a; ?b] ?q1 ?q2 ?asm ?v] => destruct (tan_store2 a b q1 q2 asm v B1 B2 B4 B6) as (R1 & R2 & R3 & R4 & R5 & R6 & R7 & R8 & R9 & R10); destruct (tan_store_method [a; b] q1 q2 asm v) as [S1 S2] end.
    eexists. split; [right; eexists _, _, _, _; reflexivity|]. split; [exact R1|]. split; [exact R2|]. split; [exact R6|]. split; [rewrite R7; exact B3|]. split; [rewrite R8; exact B5|]. split; [rewrite R10; exact Hu|].
    split. { split; [exact Hc|]. rewrite !upd_len. exact Hi. } split; [rewrite S1; reflexivity|rewrite S2; reflexivity].
Qed.
(** [m'] is [m] with the name of the arcsin (true) or arccos solver added *)
Definition arc_name (m : string) (iss : bool) : string := append (if 0 <? String.length m then ", " else "") (if iss then "arcsin" else "arccos").
Lemma sc_stage_m s b s1 i : minv s -> current s i -> u_ref (un s i) = Own -> u_sc (un s i) = [] -> u_sceq (un s i) = [] -> u_solved (un s i) = false -> sc_sol sy s = OK b s1 ->
  s1 = s \/ exists iss, u_method (un s1 i) = append (u_method (un s i)) (arc_name (u_method (un s i)) iss) /\ u_ref (un s1 i) = Own /\ u_tan (un s1 i) = u_tan (un s i) /\ u_solved (un s1 i) = false /\ current s1 i
    /\ (u_sc (un s1 i) = [] /\ u_own (un s1 i) = u_own (un s i)
        \/ exists t, u_sc (un s1 i) = (if iss then [Asin t; Sub PiE (Asin t)] else [Acos t; Neg (Acos t)]) /\ u_own (un s1 i) = u_own (un s i) ++ u_sc (un s1 i)).
Proof.
  intros Mi [Hc Hi] B1 B3 B5 Hu H. assert (Mi' := Mi i). unfold un in *. unfold sc_sol, seq2, sincos_id in H. unfold with_curr in H at 1. rewrite Hc in H. set (u := getu (s_heap s) i) in *. rewrite Hu in H.
  assert (Same : forall b0 s0, OK b0 s0 = OK b s1 -> s0 = s1) by (intros b0 s0 K1; injection K1; auto).
  destruct (negb (u_scable u)) eqn:Sc; cbn [negb andb] in H. 2:{ apply Same in H as <-. auto. }
  apply negb_true_iff in Sc. specialize (Mi' Sc).
  destruct (first_some _ _) as [[iss e]|] eqn:F. 2:{ apply Same in H as <-. auto. } right. exists iss.
  unfold sincos_solve, with_curr in H. change (s_curr (upd_unk _ _ s)) with (s_curr s) in H. rewrite Hc in H. rewrite getu_upd in H by auto. fold u in H.
  fold (arc_name (u_method u) iss) in H. cbn [u_scable set_u_scable u_eqn add_method set_u_method set_u_eqn u_sym u_method] in H.
  set (f := fun u0 : unk => set_u_scable true (add_method (arc_name (u_method u) iss) (set_u_eqn (Some e) u0))) in *.
  assert (Quit : forall s0, upd_unk i f s = s0 -> u_method (getu (s_heap s0) i) = append (u_method u) (arc_name (u_method u) iss) /\ u_ref (getu (s_heap s0) i) = Own /\ u_tan (getu (s_heap s0) i) = u_tan u /\ u_solved (getu (s_heap s0) i) = false /\ current s0 i
     /\ u_sc (getu (s_heap s0) i) = [] /\ u_own (getu (s_heap s0) i) = u_own u).
  { intros s0 <-. assert (C0 : current (upd_unk i f s) i). { split; [exact Hc|]. rewrite upd_len. exact Hi. } rewrite getu_upd by auto. fold u. cbn. auto 10. }
  assert (Done : forall a c s0, upd_unk i (sincos_store a c e) (upd_unk i f s) = s0 -> u_method (getu (s_heap s0) i) = append (u_method u) (arc_name (u_method u) iss) /\ u_ref (getu (s_heap s0) i) = Own /\ u_tan (getu (s_heap s0) i) = u_tan u
     /\ u_solved (getu (s_heap s0) i) = false /\ current s0 i /\ u_sc (getu (s_heap s0) i) = [a; c] /\ u_own (getu (s_heap s0) i) = u_own u ++ [a; c]).
  { intros a c s0 <-. assert (C0 : current (upd_unk i (sincos_store a c e) (upd_unk i f s)) i). { split; [exact Hc|]. rewrite !upd_len. exact Hi. } rewrite getu_upd by (rewrite upd_len; auto). rewrite getu_upd by auto. fold u.
    destruct (sc_store a c e (f u) B1 B3 B5) as (R1 & R2 & R3 & R4 & R5 & R6 & R7 & R8 & R9). destruct (sincos_store_method a c e (f u)) as [S1 S2]. rewrite R1, R2, R4, R7, R9, S1. cbn. auto 10. }
  assert (Lab : contains "arcsin" (append (u_method u) (arc_name (u_method u) iss)) = iss).
  { destruct iss; unfold arc_name. rewrite <- app_assoc_s. apply has_end. reflexivity.
    apply (rcs_bad _ 0 0). rewrite !rcs_app, Mi'. destruct (0 <? _); reflexivity. }
  rewrite Lab in H. destruct iss.
  - destruct (sy_match _ _ _ _) as [[A B]|] eqn:M.
    + destruct (has (u_sym u) _); [discriminate|]. apply Same in H. apply Done in H as (R1 & R2 & R3 & R4 & R5 & R6 & R7). rewrite R7, R6. repeat (split; [assumption|]). right. eexists. auto.
    + apply Same in H. apply Quit in H as (R1 & R2 & R3 & R4 & R5 & R6 & R7). repeat (split; [assumption|]). auto.
  - assert (Lc : contains "arccos" (append (u_method u) (arc_name (u_method u) false)) = true). { unfold arc_name. rewrite <- app_assoc_s. apply has_end. reflexivity. }
    rewrite Lc in H. destruct (sy_match _ _ _ _) as [[A B]|] eqn:M.
    + destruct (has (u_sym u) _); [discriminate|]. apply Same in H. apply Done in H as (R1 & R2 & R3 & R4 & R5 & R6 & R7). rewrite R7, R6. repeat (split; [assumption|]). right. eexists. auto.
    + apply Same in H. apply Quit in H as (R1 & R2 & R3 & R4 & R5 & R6 & R7). repeat (split; [assumption|]). auto.
Qed.
Lemma rank_stage_m s b s' i : current s i -> u_solved (un s i) = false -> rank s = OK b s' -> u_solved (un s' i) = true ->
  let u := un s i in let w := un s' i in
  ((u_sc u = [] /\ u_tan u <> [] \/ u_sc u <> [] /\ u_tan u = []) /\ u_method w = u_method u /\ solutions w = solutions u)
  \/ (u_sc u <> [] /\ u_tan u <> [] /\ u_method w = append (u_method u) ", best ranked, sin or cos" /\ solutions w = u_sc u)
  \/ (u_sc u <> [] /\ u_tan u <> [] /\ u_method w = append (u_method u) ", best ranked, atan2(y,x)" /\ solutions w = u_tan u).
Proof.
  intros [Hc Hi] Hu H Hs'. unfold un in *. unfold rank, with_curr in H. rewrite Hc in H. set (u := getu (s_heap s) i) in *. cbv zeta.
  assert (L : forall l : list expr, (0 <? List.length l)%nat = match l with [] => false | _ => true end) by (intros []; auto). rewrite !L in H.
  assert (One : finish (set_solved i s) = OK b s' -> u_method (getu (s_heap s') i) = u_method u /\ solutions (getu (s_heap s') i) = solutions u). { intros K. apply finish_solved in K as (_ & _ & o & d & n & Eu). rewrite Eu. auto. }
  destruct (u_sc u) as [|s0 scs] eqn:Es; destruct (u_tan u) as [|t0 tans] eqn:Et; cbn [andb orb] in H.
  - injection H as <- <-. fold u in Hs'. congruence.
  - left. split; auto. left. split; [auto|discriminate].
  - left. split; auto. right. split; [discriminate|auto].
  - right. assert (N1 : s0 :: scs <> []) by discriminate. assert (N2 : t0 :: tans <> []) by discriminate.
    assert (SC : forall e1, finish (set_solved i (upd_unk i (fun u => add_method "sin or cos" (set_u_eqn (Some e1) (set_u_nsol (List.length (s0 :: scs)) (set_u_ref RefSC u)))) (upd_unk i (add_method ", best ranked, ") s))) = OK b s' ->
      u_method (getu (s_heap s') i) = append (u_method u) ", best ranked, sin or cos" /\ solutions (getu (s_heap s') i) = u_sc u).
    { intros e1 K. apply finish_solved in K as (_ & _ & o & d & n & Eu). rewrite getu_upd in Eu by (rewrite upd_len; auto). rewrite getu_upd in Eu by auto. fold u in Eu. rewrite Eu. split; [|reflexivity].
      transitivity (append (append (u_method u) ", best ranked, ") "sin or cos"); [reflexivity|]. rewrite app_assoc_s. reflexivity. }
    destruct (rank_choice _ u).
    + destruct (u_sceq u) as [|e1 r] eqn:Eq; [discriminate|]. apply SC in H as [-> ->]. left. rewrite Es. auto.
    + destruct (u_sceq u) as [|e1 r] eqn:Eq; [discriminate|]. apply SC in H as [-> ->]. left. rewrite Es. auto.
    + destruct (u_taneq u) as [|e1 [|e2 r]] eqn:Eq; try discriminate. apply finish_solved in H as (_ & _ & o & d & n & Eu). rewrite getu_upd in Eu by (rewrite upd_len; auto). rewrite getu_upd in Eu by auto. fold u in Eu. rewrite Eu.
      right. split; auto. split; auto. split; [|exact Et]. transitivity (append (append (u_method u) ", best ranked, ") "atan2(y,x)"); [reflexivity|]. rewrite app_assoc_s. reflexivity.
Qed.
Lemma len_pos p l : 0 < String.length l -> (0 <? String.length (append p l)) = true.
Proof. intros H. apply Nat.ltb_lt. induction p; cbn; lia. Qed.
Lemma arc_after (p : string) (iss : bool) : arc_name (append p "atan2(y,x)") iss = append ", " (if iss then "arcsin" else "arccos").
Proof. unfold arc_name. rewrite len_pos by (cbn; lia). reflexivity. Qed.
Lemma arc_ends (m : string) (iss : bool) : ends_in (if iss then "arcsin" else "arccos") (append m (arc_name m iss)).
Proof. unfold arc_name. exists (append m (if 0 <? String.length m then ", " else "")). rewrite app_assoc_s. auto. Qed.
Lemma tans_ne sols : tans sols -> sols <> []. Proof. intros [(? & ? & ->)|(? & ? & ? & ? & ->)]; discriminate. Qed.
Lemma tans_named m sols : tans sols -> ends_in "atan2(y,x)" m -> named m sols.
Proof. intros [(? & ? & ->)|(? & ? & ? & ? & ->)] H. apply by_atan2; auto. apply by_atan2_two; auto. Qed.
Lemma sctan_named s b s' i : minv s -> current s i -> blank (un s i) -> u_tanable (un s i) = false -> u_solved (un s i) = false -> sc_tan sy s = OK b s' -> u_solved (un s' i) = true ->
  named (u_method (un s' i)) (solutions (un s' i)) \/ misnamed (u_method (un s' i)) (solutions (un s' i)).
Proof.
  intros Mi Cu Bl Ht Hu H Hs'. unfold sc_tan, seq2, or2 in H. destruct (tan_sol sy s) as [b1 s1|] eqn:E1; [|discriminate]. destruct (sc_sol sy s1) as [b2 s2|] eqn:E2; [|discriminate].
  assert (Mi1 : minv s1). { apply (minv_grows s); auto. revert E1. apply (g_seq2 (tan_id sy) (tan_solve sy)); eauto using g_tan_id, g_tan_solve. }
  destruct (b1 || b2). 2:{ injection H as <- <-. exfalso. clear - E1 E2 Cu Bl Ht Hu Hs' Mi Mi1. destruct (tan_stage_m s b1 s1 i Cu Bl Ht Hu E1) as [->|(sols & T1 & T2 & T3 & T4 & T5 & T6 & T7 & T8 & T9 & _)].
    - destruct Bl as (? & ? & ? & ? & ? & ?). destruct (sc_stage_m s b2 s2 i Mi Cu) as [->|(iss & _ & _ & _ & K & _)]; auto; congruence.
    - destruct (sc_stage_m s1 b2 s2 i Mi1 T8) as [->|(iss & _ & _ & _ & K & _)]; auto; congruence. }
  destruct (tan_stage_m s b1 s1 i Cu Bl Ht Hu E1) as [->|(sols & T1 & T2 & T3 & T4 & T5 & T6 & T7 & T8 & T9 & _)]; clear E1.
  - destruct Bl as (B1 & B2 & B3 & B4 & B5 & B6). destruct (sc_stage_m s b2 s2 i Mi Cu B1 B3 B5 Hu E2) as [->|(iss & K1 & K2 & K3 & K4 & K5 & K6)]; clear E2.
    + destruct (rank_stage_m s b s' i Cu Hu H Hs') as [([[_ K]|[K _]] & _)|[(K & _)|(K & _)]]; congruence.
    + destruct (rank_stage_m s2 b s' i K5 K4 H Hs') as [(K & -> & ->)|[(_ & K & _)|(_ & K & _)]]; [|congruence|congruence].
      destruct K6 as [(K6 & K7)|(t & K6 & K7)]. { destruct K as [[_ K]|[K _]]; congruence. }
      left. rewrite sols_own, K7, B2, K1 by auto. cbn [app]. rewrite K6. assert (X := arc_ends (u_method (un s i)) iss). destruct iss. apply by_arcsin; auto. apply by_arccos; auto.
  - destruct (sc_stage_m s1 b2 s2 i Mi1 T8 T4 T5 T6 T7 E2) as [->|(iss & K1 & K2 & K3 & K4 & K5 & K6)]; clear E2.
    + destruct (rank_stage_m s1 b s' i T8 T7 H Hs') as [(K & -> & ->)|[(K & _)|(K & _)]]; [|congruence|congruence].
      left. rewrite sols_own, T2, T9 by auto. apply tans_named; auto. apply ends_self.
    + rewrite T9 in K1. rewrite arc_after in K1. destruct (rank_stage_m s2 b s' i K5 K4 H Hs') as [(K & -> & ->)|[(N1 & N2 & -> & ->)|(N1 & N2 & -> & ->)]].
      * destruct K as [[K _]|[_ K]]. 2:{ exfalso. apply (tans_ne sols T1). congruence. }
        right. split. { rewrite K1. destruct iss; [left|right]; exists (u_method (un s i)); rewrite app_assoc_s; reflexivity. }
        rewrite sols_own by auto. destruct K6 as [(_ & K6)|(t & K6 & K7)]. rewrite K6, T2. exact T1. destruct iss; congruence.
      * left. destruct K6 as [(K6 & _)|(t & K6 & _)]; [congruence|]. rewrite K6, K1. destruct iss; [apply by_ranked_sin|apply by_ranked_cos];
          exists (append (append (u_method (un s i)) "atan2(y,x)") ", "); rewrite !app_assoc_s; reflexivity.
      * left. rewrite K3, T3. apply tans_named; auto. exists (append (u_method (un s2 i)) ", best ranked, "). rewrite app_assoc_s. reflexivity.
Qed.
Definition ninv (s : state) : Prop := minv s /\ (forall i, u_solved (un s i) = false -> u_sceq (un s i) = [] /\ u_taneq (un s i) = [])
  /\ (forall i, u_solved (un s i) = true -> named (u_method (un s i)) (solutions (un s i)) \/ misnamed (u_method (un s i)) (solutions (un s i))).
Context (HOK : sympy_ok sy) (HCO : forall a, no_new_symbols (sy_coeff sy a)).
Lemma ninv_task t s b s' : hinv s -> cinv s -> ninv s -> no_resolve t s -> run_task sy t s = OK b s' -> ninv s'.
Proof.
  intros Hv Ci (M & E1 & E2) N H. assert (St := task_step sy t s b s' (hinv_curr s Hv) H).
  assert (Keep : forall i, u_solved (un s' i) = false -> u_solved (un s i) = false /\ u_sceq (un s' i) = u_sceq (un s i) /\ u_taneq (un s' i) = u_taneq (un s i)).
  { intros i Hs. destruct St as [i0 f _ _ Eh Q S|i0 f Hc P E S Fw]; unfold un in *.
    - destruct (quiet_getu i0 f (s_heap s) i Q) as [B K]. rewrite <- Eh in B, K. unfold book in B. unfold stock in K. injection B as _ _ B _ _ _ _ _ _. injection K as _ _ _ K1 _ K2 _. rewrite <- B, K1, K2. auto.
    - apply solve_step in E as [_ E]; auto. cbv zeta in E. destruct E as (deps & nver & (_ & U2 & _) & _ & Eo & _). destruct (Nat.eq_dec i i0) as [->|Ne]; [congruence|]. rewrite Eo in * by auto. auto. }
  split. { apply (minv_grows s); auto. eapply task_grows; eauto. }
  split. { intros i Hs. destruct (Keep i Hs) as (K1 & -> & ->). auto. }
  intros i Hs. destruct (u_solved (un s i)) eqn:Hu. { rewrite (step_frozen t s s' i St N Hu). auto. }
  assert (Pr : pristine (un s i)) by (apply Hv; auto). destruct (clean_of _ Pr) as (A1 & A2 & A3 & A4). destruct (E1 i Hu) as [A5 A6].
  assert (Sn : solutions (un s i) = []) by (rewrite sols_own; auto).
  assert (Cur : s_curr s = Some i -> current s i) by (intros Hc; split; auto; apply (hinv_curr s Hv); auto).
  assert (Quiet : forall i0 f, quiet f -> s_heap s' = updh i0 f (s_heap s) -> False).
  { intros i0 f Q Eh. destruct (quiet_getu i0 f (s_heap s) i Q) as [B _]. rewrite <- Eh in B. unfold un in *. unfold book in B. injection B as _ _ B _ _ _ _ _ _. congruence. }
  assert (Same : s_heap s' = s_heap s -> False) by (intros Eh; unfold un in *; rewrite Eh in Hs; congruence).
  assert (Mine : forall j, s_curr s = Some j -> u_solved (un s j) = false -> s_curr s = Some i).
  { intros j Hj _. destruct St as [i0 f _ _ Eh Q _|i0 f Hc P E S Fw]. { destruct (Quiet i0 f Q Eh). }
    apply solve_step in E as [_ E]; auto. cbv zeta in E. destruct E as (deps & nver & _ & _ & Eo & _). destruct (Nat.eq_dec i i0) as [->|Ne]; auto. unfold un in *. rewrite Eo in Hs by auto. congruence. }
  destruct t; cbn [run_task] in H.
  - exfalso. apply Same. unfold assigner in H. destruct (asgn_scan _ _ _) as [[j c]|]; [|destruct (s_unks s); [discriminate|]]; injection H as <- <-; reflexivity.
  - exfalso. apply Same. unfold sum_id in H. destruct (existsb _ _); [discriminate|]. injection H as <- <-. reflexivity.
  - left. assert (H' := H). apply eff_alg in H' as [->|(j & Hc & _ & Hj)]. { destruct (Same eq_refl). } apply (alg_named s b s'); auto. apply Cur. eapply Mine; eauto.
  - assert (H' := H). apply eff_sc_tan in H' as (j & Hc & H'). specialize (H' (hinv_curr s Hv j Hc)).
    assert (Hc' : s_curr s = Some i).
    { destruct H' as [(_ & f & Q & -> & _)|(_ & f & P & E & _)]. { destruct (Quiet j f Q eq_refl). }
      apply solve_step in E as [_ E]; auto. cbv zeta in E. destruct E as (deps & nver & _ & _ & Eo & _). destruct (Nat.eq_dec i j) as [->|Ne]; auto. unfold un in *. rewrite Eo in Hs by auto. congruence. }
    apply (sctan_named s b s'); auto. { split; auto 8. } apply Ci; auto.
  - left. assert (H' := H). apply eff_simu in H' as [->|(j & Hc & _ & Hj)]. { destruct (Same eq_refl). } apply (simu_named s b s'); auto. apply Cur. eapply Mine; eauto.
  - left. assert (H' := H). apply eff_sac in H' as [->|(j & Hc & _ & Hj)]. { destruct (Same eq_refl). } apply (sac_named s b s'); auto. apply Cur. eapply Mine; eauto.
  - exfalso. unfold x2z2_transform in H. apply with_curr_inv in H as (j & Hc & H). destruct (negb _). { injection H as <- <-. auto. }
    destruct (x2z2_pairs _ _ _) as [[l r]|]; [|injection H as <- <-; auto]. destruct (find _ _) as [k|]; injection H as <- <-; auto.
    apply (Quiet k (add_method "x2z2 transform and ")); [|reflexivity]. split. intros v; split; reflexivity. intros v T; exact T.
  - exfalso. apply Same. unfold sub_transform in H. destruct (s_meqs s) as [|Me Ms]; [discriminate|]. destruct (fold_left (sub_elt sy (unk_objs s) (me_Td Me)) idx12 (me_Ts Me, false)) as [Ts fd]. cbv zeta in H.
    destruct fd; [|injection H as <- <-; reflexivity]. destruct (scan_for_equations _ _ _ _) as [[[l1 l2] l3]|]; [|discriminate]. injection H as <- <-. reflexivity.
  - exfalso. apply Same. unfold updateL in H. destruct (scan_for_equations _ _ _ _) as [[[l1 l2] l3]|]; [|discriminate]. destruct (fold_left _ _ _) as [[k1 k2] k3] in H. injection H as <- <-. reflexivity.
  - exfalso. apply Same. unfold comp_det in H. injection H as _ <-. reflexivity.
Qed.
Lemma ninv_initial s : initial sy s -> ninv s.
Proof.
  intros I. split. { apply minv_initial; auto. } destruct I as (Hf & _). assert (F : forall i, exists x n, un s i = set_u_n n (new_unknown x)).
  { intros i. unfold un. destruct (Nat.lt_ge_cases i (List.length (s_heap s))) as [L|L]. rewrite (Hf _ (getu_in _ _ L)). eauto. exists "", 0%nat. unfold getu. rewrite nth_overflow by auto. reflexivity. }
  split; intros i Hi; destruct (F i) as (x & n & E); rewrite E in *; cbn in *; [auto|discriminate].
Qed.
(** In every state a history without re-solving reaches, the last name of a solved unknown's text is that of the formula
    its solutions were found by - or that of an arcsin/arccos attempt without result that followed a successful atan2. *)
Theorem C75_names_the_formula s0 ts s i : initial sy s0 -> runs1 sy s0 ts s -> u_solved (un s i) = true ->
  named (u_method (un s i)) (solutions (un s i)) \/ misnamed (u_method (un s i)) (solutions (un s i)).
Proof.
  intros I R. assert (X : ninv s); [|apply X]. assert (Hv := hinv_initial sy s0 I). assert (Ci := cinv_initial sy s0 I). assert (Ni := ninv_initial s0 I). clear I.
  induction R; auto. apply IHR. eapply step_hinv; eauto. eapply task_step; eauto. apply hinv_curr; auto. eapply cinv_task; eauto. eapply ninv_task; eauto.
Qed.
Corollary C75_never_empty s0 ts s i : initial sy s0 -> runs1 sy s0 ts s -> u_solved (un s i) = true -> u_method (un s i) <> "".
Proof.
  intros I R S. destruct (C75_names_the_formula s0 ts s i I R S) as [N|[[[p ->]|[p ->]] _]]; [|destruct p; discriminate|destruct p; discriminate].
  destruct N as [m a b [p ->]|m y x [p ->]|m y1 x1 y2 x2 [p ->]|m t [p ->]|m t [p ->]|m t [p ->]|m t [p ->]|m y x [p ->]|m y x t c [p ->]|m y x [p ->]]; destruct p; discriminate.
Qed.
End Method.
