(** A concrete, small sympy that meets the contract [sympy_ok]: the solver properties are not vacuous.
    Nothing here models repository code. *)
From Coq Require Import Reals ZArith List String Bool Arith Lia Lra.
From Verif Require Import Expr Kin KinSpec Trig Solver SolverSpec.
Import ListNotations.
Local Open Scope R_scope.
Local Open Scope string_scope.
Local Open Scope list_scope.

(** * A concrete sympy: rewriting leaves expressions as they are, apart from evaluating x - x (in sums of any length) and
    quotients with a common factor; matching and coefficients are structural. *)
Fixpoint lin (atom : expr) (e : expr) : option (expr * expr) :=
  if expr_eqb e atom then Some (Num 1, Num 0)
  else if negb (occurs atom e) then Some (Num 0, e)
  else match e with
       | Add a b => match lin atom a, lin atom b with
                    | Some (A1, B1), Some (A2, B2) => Some (Add A1 A2, Add B1 B2)
                    | _, _ => None
                    end
       | Neg a => match lin atom a with Some (A, B) => Some (Neg A, Neg B) | None => None end
       | Mul a b => if negb (occurs atom a) then match lin atom b with Some (A, B) => Some (Mul a A, Mul a B) | None => None end
                    else if negb (occurs atom b) then match lin atom a with Some (A, B) => Some (Mul A b, Mul B b) | None => None end
                    else None
       | _ => None
       end.
(** sums of terms c*atom: the coefficient, other terms ignored *)
Fixpoint coeff0 (atom e : expr) : expr :=
  match e with
  | Add a b => Add (coeff0 atom a) (coeff0 atom b)
  | Neg a => Neg (coeff0 atom a)
  | Mul a b => if expr_eqb b atom then a else if expr_eqb a atom then b else Num 0
  | _ => if expr_eqb e atom then Num 1 else Num 0
  end.
(** evaluation of the zero coefficients, so that  e == 0  can succeed *)
Fixpoint ev0 (e : expr) : expr :=
  match e with
  | Add a b => match ev0 a, ev0 b with Num 0, b' => b' | a', Num 0 => a' | a', b' => if expr_eqb b' (Neg a') then Num 0 else Add a' b' end
  | Neg a => match ev0 a with Num 0 => Num 0 | a' => Neg a' end
  | Mul a b => match ev0 a, ev0 b with Num 0, _ => Num 0 | _, Num 0 => Num 0 | Num 1, b' => b' | a', Num 1 => a' | a', b' => Mul a' b' end
  | Div a b => match ev0 a, ev0 b with
               | a', Num 1 => a'
               | Mul a1 a2, Mul b1 b2 => if expr_eqb a1 b1 then Div a2 b2 else if expr_eqb a2 b2 then Div a1 b1 else Div (Mul a1 a2) (Mul b1 b2)
               | a', b' => Div a' b'
               end
  | _ => e
  end.
Definition sum2 (e : expr) : bool := match e with Add a b => negb (expr_eqb a (Num 0)) && negb (expr_eqb b (Num 0)) | _ => false end.
Fixpoint has_sum (e : expr) : bool :=
  match e with
  | Num _ | PiE | Sym _ => false
  | Sin a | Cos a => sum2 a || has_sum a
  | Add a b | Mul a b | Div a b | Atan2 a b => has_sum a || has_sum b
  | Neg a | Pow a _ | Asin a | Acos a | Sqrt a => has_sum a
  end.
Fixpoint sums (e : expr) : list (expr * expr * expr) :=
  match e with
  | Num _ | PiE | Sym _ => []
  | Sin a | Cos a => match a with
                     | Add (Add x y) z => [(x, y, z)]
                     | Add x y => [(x, y, Num 0)]
                     | x => [(x, Num 0, Num 0)]
                     end
  | Add a b | Mul a b | Div a b | Atan2 a b => sums a ++ sums b
  | Neg a | Pow a _ | Asin a | Acos a | Sqrt a => sums a
  end.
(** a sum as a list of signed terms; opposite terms cancel *)
Fixpoint terms (b : bool) (e : expr) : list (bool * expr) :=
  match e with
  | Num 0 => []
  | Add x y => terms b x ++ terms b y
  | Neg x => terms (negb b) x
  | _ => [(b, e)]
  end.
Fixpoint drop_first (b : bool) (e : expr) (l : list (bool * expr)) : option (list (bool * expr)) :=
  match l with
  | [] => None
  | (b', e') :: l' => if Bool.eqb b b' && expr_eqb e e' then Some l' else match drop_first b e l' with Some r => Some ((b', e') :: r) | None => None end
  end.
Definition cancel (l : list (bool * expr)) : list (bool * expr) :=
  fold_left (fun acc (t : bool * expr) => match drop_first (negb (fst t)) (snd t) acc with Some r => r | None => acc ++ [t] end) l [].
Definition signed (t : bool * expr) : expr := if fst t then snd t else Neg (snd t).
Definition rebuild (l : list (bool * expr)) : expr :=
  match l with [] => Num 0 | t :: l' => fold_left (fun acc t => Add acc (signed t)) l' (signed t) end.
Definition norm0 (e : expr) : expr :=
  match e with Add _ _ | Neg _ => rebuild (cancel (terms true (ev0 e))) | _ => ev0 e end.
(** (a sin t)^2 + (a cos t)^2 = a^2 *)
Definition pyth (e : expr) : expr :=
  match e with
  | Add (Mul (Mul a x) (Mul a1 x1)) (Mul (Mul a2 y) (Mul a3 y1)) =>
      match x, y with
      | Sin t, Cos t' | Cos t, Sin t' =>
          if expr_eqb a a1 && expr_eqb a a2 && expr_eqb a a3 && expr_eqb x x1 && expr_eqb y y1 && expr_eqb t t' then Mul a a else e
      | _, _ => e
      end
  | _ => e
  end.
Definition simp0 (e : expr) : expr := pyth (norm0 e).
Definition sympy0 : sympy := {|
  sy_norm := norm0; sy_expand := fun e => e; sy_collect := fun _ e => e; sy_simplify := simp0; sy_subs := fun p q e => norm0 (subs p q e);
  sy_match := fun atom excl e => match lin atom e with
                                 | Some (A, B) => let A := ev0 A in let B := ev0 B in
                                     if forallb (fun x => negb (occurs x A) && negb (occurs x B)) excl then Some (A, B) else None
                                 | None => None
                                 end;
  sy_coeff := fun t e => ev0 (coeff0 t e); sy_has_sum := has_sum; sy_sums := sums |}.

(** ** The concrete sympy meets the contract *)
Lemma Rdiv_1_r' x : x / 1 = x.
Proof. field. Qed.
Lemma ev0_keeps : keeps_value ev0.
Proof.
  intros rho e. induction e; simpl; intros D; auto.
  - destruct D as [D1 D2]. destruct (IHe1 D1) as [H1 E1]. destruct (IHe2 D2) as [H2 E2]. clear IHe1 IHe2 D1 D2.
    rewrite <- E1, <- E2. clear E1 E2.
    assert (G : forall a b, defd rho a -> defd rho b ->
       let r := (if expr_eqb b (Neg a) then Num 0 else Add a b) in defd rho r /\ eval rho r = eval rho a + eval rho b).
    { intros a b Ha Hb. simpl. destruct (expr_eqb b (Neg a)) eqn:E. apply expr_eqb_eq in E. subst b. simpl. split; auto. lra. simpl. auto. }
    destruct (ev0 e1) as [[|?|?]| | | | | | | | | | | | | ]; try (split; [assumption | simpl; lra]);
      destruct (ev0 e2) as [[|?|?]| | | | | | | | | | | | | ]; try (refine (G _ _ _ _); assumption); try (split; [assumption | simpl; lra]);
      (split; [split; assumption | reflexivity]).
  - destruct D as [D1 D2]. destruct (IHe1 D1) as [H1 E1]. destruct (IHe2 D2) as [H2 E2]. clear IHe1 IHe2 D1 D2.
    rewrite <- E1, <- E2. clear E1 E2.
    destruct (ev0 e1) as [[|[?|?|]|?]| | | | | | | | | | | | | ]; destruct (ev0 e2) as [[|[?|?|]|?]| | | | | | | | | | | | | ];
      (split; [simpl in *; tauto | simpl; lra]).
  - destruct (IHe D) as [H E]. rewrite <- E. destruct (ev0 e) as [[|?|?]| | | | | | | | | | | | | ]; (split; [simpl in *; tauto | simpl; lra]).
  - destruct D as (D1 & D2 & D3). destruct (IHe1 D1) as [H1 E1]. destruct (IHe2 D2) as [H2 E2]. clear IHe1 IHe2 D1 D2.
    rewrite <- E1, <- E2. rewrite <- E2 in D3. clear E1 E2.
    destruct (ev0 e2) as [[|[?|?|]|?]| | | |b1 b2| | | | | | | | | ];
      try (destruct (ev0 e1) as [| | | |a1 a2| | | | | | | | | ]; split; simpl in *; tauto).
    { destruct (ev0 e1); (split; [assumption | symmetry; apply Rdiv_1_r']). }
    destruct (ev0 e1) as [| | | |a1 a2| | | | | | | | | ]; try (split; simpl in *; tauto).
    simpl in *. destruct H1, H2. assert (eval rho b1 <> 0 /\ eval rho b2 <> 0) as [? ?] by (split; intros Z; apply D3; rewrite Z; ring).
    destruct (expr_eqb a1 b1) eqn:E. { apply expr_eqb_eq in E. subst. simpl. repeat split; auto. field. auto. }
    destruct (expr_eqb a2 b2) eqn:E'. { apply expr_eqb_eq in E'. subst. simpl. repeat split; auto. field. auto. }
    simpl. repeat split; auto.
Qed.
Lemma ev0_syms : no_new_symbols ev0.
Proof.
  intros s e. induction e; simpl; auto; intros H.
  - assert (G : has s (ev0 e1) = true \/ has s (ev0 e2) = true).
    { destruct (ev0 e1) as [[|?|?]| | | | | | | | | | | | | ]; auto;
      destruct (ev0 e2) as [[|?|?]| | | | | | | | | | | | | ];
      repeat match type of H with context [expr_eqb ?a ?b] => destruct (expr_eqb a b) end;
      cbn [has] in *; rewrite ?orb_true_iff in *; try tauto; discriminate. }
    apply orb_true_iff. tauto.
  - assert (G : has s (ev0 e1) = true \/ has s (ev0 e2) = true).
    { destruct (ev0 e1) as [[|[?|?|]|?]| | | | | | | | | | | | | ]; 
      destruct (ev0 e2) as [[|[?|?|]|?]| | | | | | | | | | | | | ];
      cbn [has] in *; rewrite ?orb_true_iff in *; try tauto; discriminate. }
    apply orb_true_iff. tauto.
  - apply IHe. destruct (ev0 e) as [[|?|?]| | | | | | | | | | | | | ]; auto.
  - assert (G : has s (ev0 e1) = true \/ has s (ev0 e2) = true).
    { destruct (ev0 e2) as [[|[?|?|]|?]| | | |b1 b2| | | | | | | | | ];
      destruct (ev0 e1) as [| | | |a1 a2| | | | | | | | | ];
      repeat match type of H with context [expr_eqb ?a ?b] => destruct (expr_eqb a b) end;
      cbn [has] in *; rewrite ?orb_true_iff in *; try tauto; discriminate. }
    apply orb_true_iff. tauto.
Qed.
Lemma div_mul_cancel x y : y <> 0 -> x / y * y = x.
Proof. intros. field. auto. Qed.
Lemma ev0_div rho a c : defd rho a -> defd rho c -> defd rho (ev0 (Div a c)) -> eval rho (ev0 (Div a c)) * eval rho c = eval rho a.
Proof.
  intros Da Dc. destruct (ev0_keeps rho a Da) as [Ha Ea]. destruct (ev0_keeps rho c Dc) as [Hc Ec]. rewrite <- Ea, <- Ec.
  cbn [ev0].
  destruct (ev0 c) as [[|[?|?|]|?]| | | |b1 b2| | | | | | | | | ];
    try (destruct (ev0 a) as [| | | |a1 a2| | | | | | | | | ]; intros (? & ? & N); exact (div_mul_cancel _ _ N)).
  { destruct (ev0 a); intros _; apply Rmult_1_r. }
  destruct (ev0 a) as [| | | |a1 a2| | | | | | | | | ]; try (intros (? & ? & N); exact (div_mul_cancel _ _ N)).
  destruct (expr_eqb a1 b1) eqn:E. { apply expr_eqb_eq in E. subst. simpl. intros (? & ? & ?). field. auto. }
  destruct (expr_eqb a2 b2) eqn:E'. { apply expr_eqb_eq in E'. subst. simpl. intros (? & ? & ?). field. auto. }
  intros (? & ? & N); exact (div_mul_cancel _ _ N).
Qed.
Definition decomp (atom e A B : expr) : Prop :=
  (forall rho, defd rho e -> defd rho A /\ defd rho B /\ eval rho e = eval rho A * eval rho atom + eval rho B)
  /\ (forall s, has s A = true \/ has s B = true -> has s e = true).
Lemma decomp_atom e : decomp e e (Num 1) (Num 0).
Proof. split. intros rho D. repeat split; auto. cbn [eval]. ring. intros s [K|K]; discriminate K. Qed.
Lemma decomp_free atom e : decomp atom e (Num 0) e.
Proof. split. intros rho D. repeat split; auto. cbn [eval]. ring. intros s [K|K]; [discriminate K | auto]. Qed.
Lemma lin_ok atom e : forall A B, lin atom e = Some (A, B) -> decomp atom e A B.
Proof.
  induction e; intros A B; cbn [lin];
    match goal with |- context [if expr_eqb ?x atom then _ else _] =>
      destruct (expr_eqb x atom) eqn:E;
      [ apply expr_eqb_eq in E; subst atom; intros H; injection H as <- <-; apply decomp_atom
      | destruct (negb (occurs atom x)) eqn:O; [ intros H; injection H as <- <-; apply decomp_free | ] ] end;
    try discriminate.
  - destruct (lin atom e1) as [[A1 B1]|]; [|discriminate]. destruct (lin atom e2) as [[A2 B2]|]; [|discriminate].
    intros H; inversion H; subst; clear H. destruct (IHe1 _ _ eq_refl) as [V1 S1]. destruct (IHe2 _ _ eq_refl) as [V2 S2]. split.
    + intros rho [D1 D2]. destruct (V1 _ D1) as (? & ? & H1). destruct (V2 _ D2) as (? & ? & H2). cbn [eval defd]. repeat split; auto. rewrite H1, H2. ring.
    + intros s. cbn [has]. rewrite !orb_true_iff. specialize (S1 s). specialize (S2 s). tauto.
  - destruct (negb (occurs atom e1)).
    + destruct (lin atom e2) as [[A2 B2]|]; [|discriminate]. intros H; inversion H; subst; clear H. destruct (IHe2 _ _ eq_refl) as [V2 S2]. split.
      * intros rho [D1 D2]. destruct (V2 _ D2) as (? & ? & H2). cbn [eval defd]. repeat split; auto. rewrite H2. ring.
      * intros s. cbn [has]. rewrite !orb_true_iff. specialize (S2 s). tauto.
    + destruct (negb (occurs atom e2)); [|discriminate].
      destruct (lin atom e1) as [[A2 B2]|]; [|discriminate]. intros H; inversion H; subst; clear H. destruct (IHe1 _ _ eq_refl) as [V2 S2]. split.
      * intros rho [D1 D2]. destruct (V2 _ D1) as (? & ? & H2). cbn [eval defd]. repeat split; auto. rewrite H2. ring.
      * intros s. cbn [has]. rewrite !orb_true_iff. specialize (S2 s). tauto.
  - destruct (lin atom e) as [[A2 B2]|]; [|discriminate]. intros H; inversion H; subst; clear H. destruct (IHe _ _ eq_refl) as [V2 S2]. split.
    * intros rho D2. destruct (V2 _ D2) as (? & ? & H2). cbn [eval defd]. repeat split; auto. rewrite H2. ring.
    * intros s. cbn [has]. specialize (S2 s). tauto.
Qed.
Lemma subs_defd rho p q e : defd rho e -> defd rho q -> eval rho p = eval rho q -> defd rho (subs p q e).
Proof.
  intros De Dq E. induction e; cbn [subs]; (destruct (expr_eqb p _); [exact Dq|]); cbn [defd] in *; rewrite ?(eval_subs p q _ rho E); tauto.
Qed.
(** sums of signed terms *)
Definition sgn (b : bool) (x : R) : R := if b then x else - x.
Fixpoint tsum (rho : env) (l : list (bool * expr)) : R := match l with [] => 0 | t :: l' => sgn (fst t) (eval rho (snd t)) + tsum rho l' end.
Definition tdef (rho : env) (l : list (bool * expr)) : Prop := forall t, In t l -> defd rho (snd t).
Lemma tsum_app rho a b : tsum rho (a ++ b) = tsum rho a + tsum rho b.
Proof. induction a; simpl; lra. Qed.
Lemma terms_ok rho e : defd rho e -> forall b, tdef rho (terms b e) /\ tsum rho (terms b e) = sgn b (eval rho e).
Proof.
  assert (One : forall e b, defd rho e -> tdef rho [(b, e)] /\ tsum rho [(b, e)] = sgn b (eval rho e)).
  { intros e0 b D. split; [|simpl; lra]. intros t [<-|[]]. auto. }
  induction e; intros D b; cbn [terms]; try (apply One; assumption).
  - destruct z; try (apply One; assumption). split. intros ? []. destruct b; simpl; lra.
  - destruct D as [D1 D2]. destruct (IHe1 D1 b) as [K1 K2]. destruct (IHe2 D2 b) as [K3 K4]. split.
    + intros t Ht. apply in_app_iff in Ht as [?|?]; auto.
    + rewrite tsum_app, K2, K4. destruct b; simpl; lra.
  - destruct (IHe D (negb b)) as [K1 K2]. split; auto. rewrite K2. destruct b; simpl; lra.
Qed.
Lemma drop_first_ok b e l r : drop_first b e l = Some r -> (forall t, In t r -> In t l) /\ forall rho, tsum rho l = sgn b (eval rho e) + tsum rho r.
Proof.
  revert r. induction l as [|[b' e'] l]; intros r; simpl; [discriminate|]. destruct (_ && _) eqn:E.
  - apply andb_true_iff in E as [E1 E2]. apply eqb_prop in E1. apply expr_eqb_eq in E2. subst. intros H; injection H as <-. auto.
  - destruct (drop_first b e l) as [r'|]; [|discriminate]. intros H; injection H as <-. destruct (IHl _ eq_refl) as [K1 K2]. split.
    + intros t [<-|Ht]; auto.
    + intros rho. simpl. rewrite K2. lra.
Qed.
Lemma cancel_ok l : (forall t, In t (cancel l) -> In t l) /\ forall rho, tsum rho (cancel l) = tsum rho l.
Proof.
  unfold cancel. assert (G : forall acc, (forall t, In t (fold_left (fun acc (t : bool * expr) => match drop_first (negb (fst t)) (snd t) acc with Some r => r | None => acc ++ [t] end) l acc) -> In t acc \/ In t l)
    /\ forall rho, tsum rho (fold_left (fun acc (t : bool * expr) => match drop_first (negb (fst t)) (snd t) acc with Some r => r | None => acc ++ [t] end) l acc) = tsum rho acc + tsum rho l).
  { induction l as [|[b e] l IH]; simpl; intros acc. { split; auto. intros; lra. }
    destruct (drop_first (negb b) e acc) as [r|] eqn:D.
    - apply drop_first_ok in D as [D1 D2]. destruct (IH r) as [K1 K2]. split.
      + intros t Ht. apply K1 in Ht as [?|?]; auto.
      + intros rho. rewrite K2, D2. destruct b; simpl; lra.
    - destruct (IH (acc ++ [(b, e)])) as [K1 K2]. split.
      + intros t Ht. apply K1 in Ht as [Ht|?]; auto. apply in_app_iff in Ht as [?|[<-|[]]]; auto.
      + intros rho. rewrite K2, tsum_app. simpl. lra. }
  destruct (G []) as [G1 G2]. split.
  - intros t Ht. apply G1 in Ht as [[]|?]; auto.
  - intros rho. rewrite G2. simpl. lra.
Qed.
Lemma rebuild_ok l : (forall rho, tdef rho l -> defd rho (rebuild l) /\ eval rho (rebuild l) = tsum rho l)
  /\ (forall s, has s (rebuild l) = true -> exists t, In t l /\ has s (snd t) = true).
Proof.
  assert (S1 : forall t rho, defd rho (snd t) -> defd rho (signed t) /\ eval rho (signed t) = sgn (fst t) (eval rho (snd t))) by (intros [[] e] rho D; split; auto).
  assert (S2 : forall t s, has s (signed t) = true -> has s (snd t) = true) by (intros [[] e] s; auto).
  destruct l as [|t l]. { split. intros; split; simpl; auto. intros s H. discriminate. }
  assert (G : forall l acc, (forall rho, tdef rho l -> defd rho acc -> defd rho (fold_left (fun acc t => Add acc (signed t)) l acc)
      /\ eval rho (fold_left (fun acc t => Add acc (signed t)) l acc) = eval rho acc + tsum rho l)
    /\ (forall s, has s (fold_left (fun acc t => Add acc (signed t)) l acc) = true -> has s acc = true \/ exists t, In t l /\ has s (snd t) = true)).
  { clear t l. induction l as [|t l IH]; simpl; intros acc.
    - split; auto. intros. split; auto. lra.
    - destruct (IH (Add acc (signed t))) as [K1 K2]. split.
      + intros rho T D. destruct (S1 t rho) as [D' E']. { apply T. simpl. auto. } destruct (K1 rho) as [K3 K4]. { intros x Hx. apply T. simpl. auto. } { split; auto. }
        split; auto. rewrite K4. simpl. rewrite E'. lra.
      + intros s H. apply K2 in H as [H|(x & ? & ?)]; eauto. simpl in H. apply orb_true_iff in H as [?|H]; auto. right. apply S2 in H. eauto. }
  destruct (G l (signed t)) as [G1 G2]. simpl rebuild. split.
  - intros rho T. destruct (S1 t rho) as [D' E']. { apply T. simpl. auto. } destruct (G1 rho) as [? E]; auto. { intros x Hx. apply T. simpl. auto. }
    split; auto. rewrite E, E'. reflexivity.
  - intros s H. apply G2 in H as [H|(x & ? & ?)]. { apply S2 in H. exists t. simpl. auto. } exists x. simpl. auto.
Qed.
Lemma terms_syms s e : forall b t, In t (terms b e) -> has s (snd t) = true -> has s e = true.
Proof.
  induction e; intros b t; cbn [terms]; try (intros [<-|[]]; exact (fun H => H)).
  - destruct z; try (intros [<-|[]]; exact (fun H => H)). intros [].
  - intros Ht H. cbn [has]. apply orb_true_iff. apply in_app_iff in Ht as [Ht|Ht]; eauto.
  - eauto.
Qed.
Lemma norm0_keeps : keeps_value norm0.
Proof.
  intros rho e D. assert (K := ev0_keeps rho e D). destruct K as [D1 E1].
  assert (R : defd rho (rebuild (cancel (terms true (ev0 e)))) /\ eval rho (rebuild (cancel (terms true (ev0 e)))) = eval rho e).
  { destruct (terms_ok rho _ D1 true) as [T1 T2]. destruct (cancel_ok (terms true (ev0 e))) as [C1 C2]. destruct (rebuild_ok (cancel (terms true (ev0 e)))) as [B1 _].
    destruct (B1 rho) as [? E]. { intros t Ht. apply T1. auto. } split; auto. rewrite E, C2, T2. exact E1. }
  unfold norm0. destruct e; auto.
Qed.
Lemma norm0_syms : no_new_symbols norm0.
Proof.
  intros s e H. assert (R : has s (rebuild (cancel (terms true (ev0 e)))) = true -> has s e = true).
  { intros K. apply rebuild_ok in K as (t & Ht & K). apply cancel_ok in Ht. apply ev0_syms. eapply terms_syms; eauto. }
  unfold norm0 in H. destruct e; auto; apply ev0_syms; exact H.
Qed.
Lemma pyth_inv (P : expr -> Prop) e : P e -> (forall a x y t, e = Add (Mul (Mul a x) (Mul a x)) (Mul (Mul a y) (Mul a y)) -> x = Sin t /\ y = Cos t \/ x = Cos t /\ y = Sin t -> P (Mul a a)) -> P (pyth e).
Proof.
  intros H0 H. destruct e; simpl; auto. destruct e1; auto. destruct e1_1; auto. destruct e1_2; auto. destruct e2; auto. destruct e2_1; auto. destruct e2_2; auto.
  destruct e1_1_2; auto; destruct e2_1_2; auto; cbn match; (match goal with |- context [if ?c then _ else _] => destruct c eqn:E end); auto;
    repeat (apply andb_true_iff in E as [E ?]); repeat match goal with H : expr_eqb _ _ = true |- _ => apply expr_eqb_eq in H end; subst;
    eapply H; eauto.
Qed.
Lemma simp0_keeps : keeps_value simp0.
Proof.
  intros rho e D. destruct (norm0_keeps rho e D) as [D1 E1]. rewrite <- E1. unfold simp0. apply (pyth_inv (fun x => defd rho x /\ eval rho x = eval rho (norm0 e))); auto.
  intros a x y t E K. rewrite E in *. cbn [defd] in D1. split; [cbn [defd]; tauto|]. cbn [eval]. pose proof (sin2_cos2 (eval rho t)) as P. unfold Rsqr in P.
  destruct K as [[-> ->]|[-> ->]]; cbn [eval]; set (sn := sin _) in *; set (cs := cos _) in *; set (A := eval rho a);
    [transitivity (A * A * (sn * sn + cs * cs)) | transitivity (A * A * (sn * sn + cs * cs))]; try ring; rewrite P; ring.
Qed.
Lemma simp0_syms : no_new_symbols simp0.
Proof.
  intros s e. unfold simp0. assert (N := norm0_syms s e). revert N. apply (pyth_inv (fun x => (has s (norm0 e) = true -> has s e = true) -> has s x = true -> has s e = true)); auto.
  intros a x y t E K N. rewrite E in N. intros H. apply N. cbn [has] in *. rewrite !orb_true_iff in *. tauto.
Qed.
Theorem sympy0_ok : sympy_ok sympy0.
Proof.
  assert (I : keeps_value (fun e => e)) by (intros rho e D; split; [exact D | reflexivity]).
  assert (J : no_new_symbols (fun e => e)) by (intros s e D; exact D).
  constructor; cbn [sy_norm sy_expand sy_collect sy_simplify sy_subs sy_match sympy0].
  - apply norm0_keeps. - apply I. - intros _. apply I. - apply simp0_keeps.
  - apply norm0_syms. - apply J. - intros _. apply J. - apply simp0_syms.
  - intros rho p q e De Dq E. destruct (norm0_keeps rho (subs p q e)) as [D1 E1]. { apply subs_defd; auto. } split; auto. rewrite E1. apply eval_subs; auto.
  - intros atom excl e A B. destruct (lin atom e) as [[A0 B0]|] eqn:L; [|discriminate].
    destruct (forallb _ excl) eqn:F; [|discriminate]. intros H; inversion H; subst; clear H. destruct (lin_ok _ _ _ _ L) as [V S]. split; [|split].
    + intros rho D. destruct (V rho D) as (DA & DB & E).
      destruct (ev0_keeps rho A0 DA) as [? ->]. destruct (ev0_keeps rho B0 DB) as [? ->]. auto.
    + intros x Hx. rewrite forallb_forall in F. specialize (F x Hx). apply andb_true_iff in F as [F1 F2].
      split; apply negb_true_iff; auto.
    + intros s [K|K]; apply S; [left|right]; apply ev0_syms; auto.
  - apply ev0_div.
Qed.
