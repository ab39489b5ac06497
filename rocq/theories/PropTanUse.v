(** C32: how many candidates the atan2 solver records, and that they can be computed from what is already known. *)
From Coq Require Import Reals ZArith List String Bool Arith Lia Lra.
From Verif Require Import Expr Kin Solver SolverSpec SolverFacts SolverInv PropLists SolverHist HistFacts PropHist PropCrash PropSolvers Sympy0 PropSolversEx PropHistEx PropCrashEx.
Import ListNotations.
Local Open Scope string_scope.
Local Open Scope list_scope.
Local Open Scope nat_scope.

(** two assignments that agree on everything but the unknowns of the state that are not solved yet *)
Definition agree_on_known (s : state) (r1 r2 : env) : Prop :=
  forall v, (forall j, In j (s_unks s) -> u_sym (un s j) = v -> u_solved (un s j) = true) -> r1 v = r2 v.

Section TanUse.
Variable sy : sympy.
Context (HOK : sympy_ok sy) (HCO : forall a, no_new_symbols (sy_coeff sy a)).
Lemma known_same s e r1 r2 : known s e -> agree_on_known s r1 r2 -> eval r1 e = eval r2 e.
Proof. intros K H. apply eval_ext. intros v Hv. apply H. intros j Hj <-. apply K; auto. Qed.

(** C32: in every state an unsolved current unknown is in during a history, whenever the atan2 solver succeeds it used a usable pair
    A1 sin u + B1 = 0, A2 cos u + B2 = 0; it records one solution if every unknown in A1 is solved, and otherwise two; and the value of each
    recorded solution does not depend on any unknown that is not solved yet, wherever it is defined. *)
Theorem C32_tan_known s0 ts s s' i : initial sy s0 -> runs1 sy s0 ts s -> s_curr s = Some i -> u_solved (un s i) = false ->
  tan_sol sy s = OK true s' ->
  let u := u_sym (un s i) in
  exists es ec A1 B1 A2 B2, In es (s_L1 s ++ s_L2 s) /\ In ec (s_L1 s ++ s_L2 s)
    /\ sy_match sy (Sin (Sym u)) (both_terms u) (sy_collect sy (both_terms u) (resid sy es)) = Some (A1, B1)
    /\ sy_match sy (Cos (Sym u)) (both_terms u) (sy_collect sy (both_terms u) (resid sy ec)) = Some (A2, B2)
    /\ (known s A1 -> List.length (solutions (un s' i)) = 1)
    /\ (~ known s A1 -> List.length (solutions (un s' i)) = 2)
    /\ forall e r1 r2, In e (solutions (un s' i)) -> agree_on_known s r1 r2 -> defd r1 e -> defd r2 e -> eval r1 e = eval r2 e.
Proof.
  intros I R Hc Hs Ht u. destruct (C61_reachable sy HOK HCO s0 ts s i I R Hc Hs) as (_ & O & _).
  assert (Hv : hinv s). { exact (proj1 (cinv_runs sy HOK HCO s0 ts s (hinv_initial sy s0 I) (cinv_initial sy s0 I) R)). }
  assert (P : pristine (un s i)). { destruct Hv as (_ & _ & P & _). exact (P i Hs). }
  destruct (clean_of _ P) as (P1 & P2 & _).
  destruct (tan_run sy s i O) as [[E _]|(es & ec & A & B & C & D & g & asm & U & M1 & M2 & K1 & K2 & K3 & Q & E & _)]. congruence.
  rewrite E in Ht. injection Ht as <-. destruct U as (I1 & I2 & _).
  assert (Hi : i < List.length (s_heap s)) by (destruct O as (_ & X & _); exact X).
  assert (S : solutions (un (upd_unk i (fun u0 => tan_store (tan_sols sy s A B C D) (Keq (Num 0) (sy_collect sy (both_terms (u_sym (un s i))) (resid sy es)))
      (Keq (Num 0) (sy_collect sy (both_terms (u_sym (un s i))) (resid sy ec))) asm (g u0)) s) i) = tan_sols sy s A B C D).
  { unfold un at 1. rewrite getu_upd by auto. destruct (quiet_fields g (un s i) Q) as (Q1 & Q2 & _). rewrite P1 in Q1. rewrite P2 in Q2.
    unfold un in Q1, Q2. rewrite tan_store_own by exact Q1. unfold solutions. rewrite Q1, Q2. reflexivity. }
  exists es, ec, A, B, C, D. split; [exact I1|]. split; [exact I2|]. split; [exact M1|]. split; [exact M2|]. rewrite S. clear S E.
  assert (KV := known_vars s A). unfold tan_sols. cbv zeta. destruct (Nat.eqb_spec (List.length (get_variables (filter (fun v => negb (u_solved v)) (unk_objs s)) A)) 0) as [Z|Z].
  - split; [reflexivity|]. split; [tauto|]. intros e r1 r2 [<-|[]] G D1 D2. apply KV in Z.
    cbn [defd] in D1, D2. destruct D1 as (DY1 & DX1 & _). destruct D2 as (DY2 & DX2 & _).
    assert (NK := fun r (Dc : defd r (Div A C)) => ok_norm sy HOK r _ Dc).
    cbn [Sub defd eval] in DY1, DX1, DY2, DX2, NK. destruct DY1 as (_ & DA1 & NA1). destruct DX1 as ((_ & DD1) & DC1 & NC1). destruct DY2 as (_ & DA2 & NA2). destruct DX2 as (_ & DC2 & NC2).
    destruct (NK r1 (conj DA1 (conj DC1 NC1))) as [_ E1]. destruct (NK r2 (conj DA2 (conj DC2 NC2))) as [_ E2].
    assert (EA := known_same s A r1 r2 Z G). assert (EB := known_same s B r1 r2 K2 G). assert (ED := known_same s D r1 r2 K3 G). assert (EK := known_same s _ r1 r2 K1 G).
    rewrite E1, E2, EA in EK. rewrite EA in NA1.
    assert (EC : eval r1 C = eval r2 C).
    { unfold Rdiv in EK. apply Rmult_eq_reg_l in EK; auto. rewrite <- (Rinv_inv (eval r1 C)) by auto. rewrite EK. apply Rinv_inv; auto. }
    cbn [Sub eval]. rewrite EA, EB, ED, EC. reflexivity.
  - split; [tauto|]. split; [reflexivity|]. intros e r1 r2 He G _ _.
    assert (EB := known_same s B r1 r2 K2 G). assert (ED := known_same s D r1 r2 K3 G). assert (EK := known_same s _ r1 r2 K1 G).
    destruct He as [<-|[<-|[]]]; cbn [Sub eval]; rewrite EB, ED, EK; reflexivity.
Qed.
End TanUse.

(** one solution: Px = l_1 cos th_1, Py = l_1 sin th_1; two: Px = l_2 sin th_2 cos th_1, Py = l_1 sin th_2 sin th_1, nothing solved yet *)
Definition tan1 := start ["th_1"] (meq (fun i j => match i, j with 0, 3 => (px, Mul l1 (Cos th1)) | 1, 3 => (py, Mul l1 (Sin th1)) | _, _ => (Num 0, Num 0) end)).
Definition tan2 := start ["th_1"; "th_2"] (meq (fun i j => match i, j with 0, 3 => (px, Mul (Mul l2 (Sin th2)) (Cos th1)) | 1, 3 => (py, Mul (Mul l1 (Sin th2)) (Sin th1)) | _, _ => (Num 0, Num 0) end)).
Definition mid_tan1 := state_of (assigner tan1) tan1.
Definition mid_tan2 := state_of (assigner tan2) tan2.
Lemma tan_mid (s0 m : state) : m = state_of (assigner s0) s0 ->
  match assigner s0 with OK b _ => b | Raise => false end = true ->
  match s_curr m with Some 0 => negb (u_solved (un m 0)) | _ => false end = true ->
  match tan_sol sympy0 m with OK b _ => b | Raise => false end = true ->
  runs1 sympy0 s0 [(TAssign, true)] m /\ s_curr m = Some 0 /\ u_solved (un m 0) = false /\ exists s', tan_sol sympy0 m = OK true s'.
Proof.
  intros -> A C T. split.
  { apply (runs1_cons sympy0 _ TAssign true (state_of (assigner s0) s0) [] _); [intros X; discriminate X| |apply runs1_nil]. exact (ok_true (assigner s0) s0 A). }
  destruct (s_curr _) as [[|]|] eqn:E; try discriminate C. split; [reflexivity|]. split. { apply negb_true_iff. exact C. }
  exists (state_of (tan_sol sympy0 (state_of (assigner s0) s0)) s0). exact (ok_true _ s0 T).
Qed.
Example C32_known_example : (runs1 sympy0 tan1 [(TAssign, true)] mid_tan1 /\ s_curr mid_tan1 = Some 0 /\ u_solved (un mid_tan1 0) = false /\ exists s', tan_sol sympy0 mid_tan1 = OK true s')
  /\ known mid_tan1 l1
  /\ (runs1 sympy0 tan2 [(TAssign, true)] mid_tan2 /\ s_curr mid_tan2 = Some 0 /\ u_solved (un mid_tan2 0) = false /\ exists s', tan_sol sympy0 mid_tan2 = OK true s')
  /\ ~ known mid_tan2 (Mul l1 (Sin th2)).
Proof.
  split. { apply tan_mid; [reflexivity|vm_compute; reflexivity..]. }
  split. { apply known_count. vm_compute. reflexivity. }
  split. { apply tan_mid; [reflexivity|vm_compute; reflexivity..]. }
  intros K. apply known_count in K. vm_compute in K. discriminate K.
Qed.
Print Assumptions C32_tan_known.
