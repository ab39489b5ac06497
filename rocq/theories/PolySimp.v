(** A sympy whose simplify multiplies out, sorts products and collects equal terms, and knows the sines and cosines of RobotsEx.v.
    With it the shipped Wrist is solved as IKBT solves it (WristEx.v).  Nothing here models repository code. *)
From Coq Require Import Reals ZArith List String Ascii Bool Arith Lia Lra.
From Verif Require Import Expr Kin KinSpec Trig Solver SolverSpec Sympy0 RobotsEx.
Import ListNotations.
Local Open Scope string_scope.
Local Open Scope list_scope.

(** a sum of products: an integer and the factors, sorted *)
Definition mono : Type := Z * list expr.
Definition cz (c : ascii) : Z := Z.of_N (N_of_ascii c).
Definition key (s : string) : Z := match s with String c t => (cz c * 65536 + (match t with String d t => cz d * 256 + match t with String e _ => cz e | _ => 0 end | _ => 0 end))%Z | _ => 0%Z end.
Fixpoint ekey (e : expr) : Z :=
  match e with
  | Num z => z | PiE => 5 | Sym s => key s | Sin a => 300000000 + 2 * ekey a | Cos a => 300000001 + 2 * ekey a
  | Add a b | Mul a b | Div a b | Atan2 a b => 1000000000 + ekey a + 3 * ekey b
  | Neg a | Pow a _ | Asin a | Acos a | Sqrt a => 2000000000 + ekey a
  end%Z.
Fixpoint ins (x : expr) (l : list expr) : list expr := match l with [] => [x] | y :: t => if (ekey x <=? ekey y)%Z then x :: l else y :: ins x t end.
Definition mprods (a b : list expr) : list expr := fold_right ins b a.
Fixpoint lexpr_eqb (a b : list expr) : bool := match a, b with [], [] => true | x :: a, y :: b => expr_eqb x y && lexpr_eqb a b | _, _ => false end.
Fixpoint addm (m : mono) (l : list mono) : list mono :=
  match l with
  | [] => [m]
  | n :: t => if lexpr_eqb (snd m) (snd n) then (if (fst m + fst n =? 0)%Z then t else ((fst m + fst n)%Z, snd n) :: t) else n :: addm m t
  end.
Definition addp (a b : list mono) : list mono := fold_left (fun acc m => addm m acc) b a.
Definition mulm (m : mono) (b : list mono) (acc : list mono) : list mono := fold_left (fun acc n => addm ((fst m * fst n)%Z, mprods (snd m) (snd n)) acc) b acc.
Definition mulp (a b : list mono) : list mono := fold_left (fun acc m => mulm m b acc) a [].
Definition negp (a : list mono) : list mono := map (fun m => ((- fst m)%Z, snd m)) a.
Definition prodl (l : list expr) : expr := match l with [] => Num 1 | x :: t => fold_left Mul t x end.
Definition monoe (m : mono) : expr :=
  if (fst m =? 1)%Z then prodl (snd m) else if (fst m =? -1)%Z then Neg (prodl (snd m)) else match snd m with [] => Num (fst m) | _ => Mul (Num (fst m)) (prodl (snd m)) end.
Definition back (l : list mono) : expr := match l with [] => Num 0 | m :: t => fold_left (fun a n => Add a (monoe n)) t (monoe m) end.
Definition atomp (e : expr) : list mono := match e with Num z => if (z =? 0)%Z then [] else [(z, [])] | Neg x => [((-1)%Z, [x])] | x => [(1%Z, [x])] end.
Fixpoint poly_of (e : expr) : list mono :=
  match e with
  | Num z => if (z =? 0)%Z then [] else [(z, [])]
  | Add a b => addp (poly_of a) (poly_of b)
  | Mul a b => mulp (poly_of a) (poly_of b)
  | Neg a => negp (poly_of a)
  | Sin a => atomp (ssin (simpW a))
  | Cos a => atomp (scos (simpW a))
  | e => [(1%Z, [e])]
  end.
Definition simpP (e : expr) : expr := back (poly_of e).

(** * Every factor satisfies a predicate *)
Section All.
Context (P : expr -> Prop).
Definition allm (m : mono) : Prop := Forall P (snd m).
Lemma ins_all x l : P x -> Forall P l -> Forall P (ins x l).
Proof. intros Hx. induction 1 as [|y l Hy Hl IH]; cbn [ins]; auto. destruct (_ <=? _)%Z; auto. Qed.
Lemma mprods_all a b : Forall P a -> Forall P b -> Forall P (mprods a b).
Proof. induction 1; cbn; auto. intros. apply ins_all; auto. Qed.
Lemma addm_all m l : allm m -> Forall allm l -> Forall allm (addm m l).
Proof. intros Hm. induction 1 as [|n l Hn Hl IH]; cbn [addm]; auto. destruct (lexpr_eqb _ _); auto. destruct (_ =? _)%Z; auto. Qed.
Lemma addp_all b : forall a, Forall allm a -> Forall allm b -> Forall allm (addp a b).
Proof. unfold addp. induction b as [|m b IH]; cbn [fold_left]; intros a A B; auto. inversion B; subst. apply IH; auto. apply addm_all; auto. Qed.
Lemma mulm_all m b : forall acc, allm m -> Forall allm b -> Forall allm acc -> Forall allm (mulm m b acc).
Proof. unfold mulm. induction b as [|n b IH]; cbn [fold_left]; intros acc M B A; auto. inversion B; subst. apply IH; auto. apply addm_all; auto. apply mprods_all; auto. Qed.
Lemma mulp_all a b : Forall allm a -> Forall allm b -> Forall allm (mulp a b).
Proof.
  unfold mulp. intros A B. assert (G : forall acc, Forall allm acc -> Forall allm (fold_left (fun acc m => mulm m b acc) a acc)); [|apply G; auto].
  induction A as [|m a Hm Ha IH]; cbn [fold_left]; intros acc C; auto. apply IH. apply mulm_all; auto.
Qed.
Lemma negp_all a : Forall allm a -> Forall allm (negp a).
Proof. unfold negp. induction 1; cbn; auto. Qed.
(** what the sum of products is built from *)
Context (HN : forall z, P (Num z)) (HA : forall a b, P a -> P b -> P (Add a b)) (HM : forall a b, P a -> P b -> P (Mul a b)) (HNeg : forall a, P a -> P (Neg a)).
Lemma prodl_all l : Forall P l -> P (prodl l).
Proof. destruct 1 as [|x l Hx Hl]; cbn [prodl]; auto. revert x Hx. induction Hl; cbn [fold_left]; auto. Qed.
Lemma monoe_all m : allm m -> P (monoe m).
Proof. unfold monoe. intros H. assert (X := prodl_all _ H). destruct (_ =? _)%Z; auto. destruct (_ =? _)%Z; auto. destruct (snd m); auto. Qed.
Lemma back_all l : Forall allm l -> P (back l).
Proof. destruct 1 as [|m l Hm Hl]; cbn [back]; auto. assert (X := monoe_all _ Hm). revert X. generalize (monoe m). induction Hl; cbn [fold_left]; auto. intros e He. apply IHHl. apply HA; auto. apply monoe_all; auto. Qed.
End All.

(** * The value *)
Section Value.
Context (rho : env).
Local Open Scope R_scope.
Definition pi_val (l : list expr) : R := fold_right (fun x a => eval rho x * a) 1 l.
Definition mval (m : mono) : R := IZR (fst m) * pi_val (snd m).
Definition lval (l : list mono) : R := fold_right (fun m a => mval m + a) 0 l.
Lemma ins_val x l : pi_val (ins x l) = eval rho x * pi_val l.
Proof. induction l as [|y l IH]; cbn [ins]; auto. destruct (_ <=? _)%Z; auto. cbn [pi_val fold_right]. fold (pi_val (ins x l)). rewrite IH. fold (pi_val l). ring. Qed.
Lemma mprods_val a b : pi_val (mprods a b) = pi_val a * pi_val b.
Proof. induction a as [|x a IH]; cbn [mprods fold_right]. cbn. ring. rewrite ins_val. fold (mprods a b). rewrite IH. cbn [pi_val fold_right]. fold (pi_val a). ring. Qed.
Lemma lexpr_eqb_eq a : forall b, lexpr_eqb a b = true -> a = b.
Proof. induction a as [|x a IH]; destruct b as [|y b]; cbn; intros H; try discriminate; auto. apply andb_prop in H as [A B]. apply expr_eqb_eq in A. f_equal; auto. Qed.
Lemma addm_val m l : lval (addm m l) = mval m + lval l.
Proof.
  induction l as [|n l IH]; cbn [addm]; auto. destruct (lexpr_eqb (snd m) (snd n)) eqn:E.
  - apply lexpr_eqb_eq in E. assert (V : mval m + mval n = IZR (fst m + fst n) * pi_val (snd n)) by (unfold mval; rewrite E, plus_IZR; ring). destruct (Z.eqb_spec (fst m + fst n) 0) as [Z|_].
    + rewrite Z in V. cbn [lval fold_right]. fold (lval l). lra.
    + cbn [lval fold_right]. fold (lval l). unfold mval at 1. cbn [fst snd]. lra.
  - cbn [lval fold_right]. fold (lval l) (lval (addm m l)). rewrite IH. ring.
Qed.
Lemma addp_val b : forall a, lval (addp a b) = lval a + lval b.
Proof. unfold addp. induction b as [|m b IH]; cbn [fold_left]; intros a. cbn. ring. rewrite IH, addm_val. cbn [lval fold_right]. fold (lval b). ring. Qed.
Lemma mulm_val m b : forall acc, lval (mulm m b acc) = mval m * lval b + lval acc.
Proof. unfold mulm. induction b as [|n b IH]; cbn [fold_left]; intros acc. cbn. ring. rewrite IH, addm_val. unfold mval at 2. cbn [fst snd lval fold_right]. fold (lval b). rewrite mult_IZR, mprods_val. unfold mval. ring. Qed.
Lemma mulp_val a b : lval (mulp a b) = lval a * lval b.
Proof.
  unfold mulp. assert (G : forall acc, lval (fold_left (fun acc m => mulm m b acc) a acc) = lval a * lval b + lval acc); [|rewrite G; cbn; ring].
  induction a as [|m a IH]; cbn [fold_left]; intros acc. cbn. ring. rewrite IH, mulm_val. cbn [lval fold_right]. fold (lval a). ring.
Qed.
Lemma negp_val a : lval (negp a) = - lval a.
Proof.
  induction a as [|m a IH]. cbn. ring. assert (A : lval (negp (m :: a)) = IZR (- fst m) * pi_val (snd m) + lval (negp a)) by reflexivity. rewrite A, IH, opp_IZR.
  assert (B : lval (m :: a) = mval m + lval a) by reflexivity. rewrite B. unfold mval. ring.
Qed.
Lemma prodl_val l : eval rho (prodl l) = pi_val l.
Proof.
  destruct l as [|x l]; [reflexivity|]. cbn [prodl pi_val fold_right]. fold (pi_val l). revert x. induction l as [|y l IH]; intros x; cbn [fold_left]. cbn. ring. rewrite IH. cbn [eval pi_val fold_right]. fold (pi_val l). ring.
Qed.
Lemma monoe_val m : eval rho (monoe m) = mval m.
Proof.
  unfold monoe, mval. destruct (Z.eqb_spec (fst m) 1) as [->|_]. rewrite prodl_val. ring. destruct (Z.eqb_spec (fst m) (-1)) as [->|_]. cbn [eval]. rewrite prodl_val. ring.
  destruct (snd m) as [|x l]. cbn. ring. cbn [eval]. rewrite prodl_val. ring.
Qed.
Lemma back_val l : eval rho (back l) = lval l.
Proof.
  destruct l as [|m l]; [reflexivity|]. cbn [back lval fold_right]. fold (lval l). rewrite <- monoe_val. generalize (monoe m). induction l as [|n l IH]; intros e; cbn [fold_left]. cbn. ring. rewrite IH. cbn [eval]. rewrite monoe_val. cbn [lval fold_right]. fold (lval l). ring.
Qed.
Lemma num_val z : lval (if (z =? 0)%Z then [] else [(z, [])]) = IZR z.
Proof. destruct (Z.eqb_spec z 0) as [->|]; cbn; unfold mval; cbn; ring. Qed.
Lemma num_all P z : Forall (allm P) (if (z =? 0)%Z then [] else [(z, [])]).
Proof. destruct (z =? 0)%Z; auto. constructor; auto. constructor. Qed.
Lemma atomp_val e : lval (atomp e) = eval rho e.
Proof. destruct e; cbn [atomp]; try (cbn; unfold mval; cbn; ring). apply num_val. Qed.
Lemma atomp_all (P : expr -> Prop) e : P e -> (forall a, e = Neg a -> P a) -> Forall (allm P) (atomp e).
Proof. intros H N. destruct e; cbn [atomp]; try (constructor; [constructor; auto|auto]; fail). apply num_all. Qed.
Lemma poly_keeps e : defd rho e -> Forall (allm (defd rho)) (poly_of e) /\ lval (poly_of e) = eval rho e.
Proof.
  assert (At : forall x, defd rho x -> Forall (allm (defd rho)) [(1%Z, [x])] /\ lval [(1%Z, [x])] = eval rho x).
  { intros x Hx. split. constructor; auto. constructor; auto. cbn. unfold mval. cbn. ring. }
  assert (Ap : forall x y, defd rho x -> eval rho x = y -> Forall (allm (defd rho)) (atomp x) /\ lval (atomp x) = y).
  { intros x y Hx <-. split; [|apply atomp_val]. apply atomp_all; auto. intros a ->. exact Hx. }
  induction e; intros D; cbn [poly_of]; try (apply At; exact D).
  - split. apply num_all. apply num_val.
  - destruct D as (D1 & D2). destruct (IHe1 D1) as (A1 & V1), (IHe2 D2) as (A2 & V2). split. apply addp_all; auto. rewrite addp_val, V1, V2. reflexivity.
  - destruct D as (D1 & D2). destruct (IHe1 D1) as (A1 & V1), (IHe2 D2) as (A2 & V2). split. apply mulp_all; auto. rewrite mulp_val, V1, V2. reflexivity.
  - destruct (IHe D) as (A & V). split. apply negp_all; auto. rewrite negp_val, V. reflexivity.
  - destruct (simpW_keeps rho e D) as (D1 & V1). destruct (ssin_like rho (simpW e) D1) as (D2 & V2). apply Ap; auto. rewrite V2. cbn [eval]. rewrite V1. reflexivity.
  - destruct (simpW_keeps rho e D) as (D1 & V1). destruct (scos_like rho (simpW e) D1) as (D2 & V2). apply Ap; auto. rewrite V2. cbn [eval]. rewrite V1. reflexivity.
Qed.
End Value.
Lemma simpP_keeps : keeps_value simpP.
Proof.
  intros rho e D. destruct (poly_keeps rho e D) as (A & V). unfold simpP. split; [|rewrite back_val; auto]. apply (back_all (defd rho)); auto; cbn; auto.
Qed.
Lemma poly_syms s e : Forall (allm (fun x => has s x = true -> has s e = true)) (poly_of e).
Proof.
  assert (W : forall (P Q : expr -> Prop) l, (forall x, P x -> Q x) -> Forall (allm P) l -> Forall (allm Q) l).
  { intros P Q l I H. induction H as [|m l Hm Hl IH]; constructor; auto. unfold allm in *. induction Hm; constructor; auto. }
  induction e; cbn [poly_of]; try (constructor; [constructor; auto|auto]; fail).
  - apply num_all.
  - apply addp_all; [apply (W _ _ _ (fun x (I : has s x = true -> has s e1 = true) H => proj2 (orb_true_iff _ _) (or_introl (I H))) IHe1)|apply (W _ _ _ (fun x (I : has s x = true -> has s e2 = true) H => proj2 (orb_true_iff _ _) (or_intror (I H))) IHe2)].
  - apply mulp_all; [apply (W _ _ _ (fun x (I : has s x = true -> has s e1 = true) H => proj2 (orb_true_iff _ _) (or_introl (I H))) IHe1)|apply (W _ _ _ (fun x (I : has s x = true -> has s e2 = true) H => proj2 (orb_true_iff _ _) (or_intror (I H))) IHe2)].
  - apply negp_all. exact IHe.
  - apply atomp_all. intros H. apply ssin_syms in H. apply simpW_syms in H. exact H. intros a Ea H. assert (K : has s (ssin (simpW e)) = true) by (rewrite Ea; exact H). apply ssin_syms, simpW_syms in K. exact K.
  - apply atomp_all. intros H. apply scos_syms in H. apply simpW_syms in H. exact H. intros a Ea H. assert (K : has s (scos (simpW e)) = true) by (rewrite Ea; exact H). apply scos_syms, simpW_syms in K. exact K.
Qed.
Lemma simpP_syms : no_new_symbols simpP.
Proof.
  intros s e. unfold simpP. apply (back_all (fun x => has s x = true -> has s e = true)); cbn; try discriminate; auto; try apply poly_syms; intros a b A B H; apply orb_prop in H as [H|H]; auto.
Qed.
Definition sympyP : sympy := {| sy_norm := sy_norm sympy0; sy_expand := sy_expand sympy0; sy_collect := sy_collect sympy0; sy_simplify := simpP; sy_subs := sy_subs sympy0;
  sy_match := sy_match sympy0; sy_coeff := sy_coeff sympy0; sy_has_sum := sy_has_sum sympy0; sy_sums := sy_sums sympy0 |}.
Lemma sympyP_ok : sympy_ok sympyP.
Proof. destruct sympy0_ok. constructor; auto. apply simpP_keeps. apply simpP_syms. Qed.
Print Assumptions sympyP_ok.
