(** Symbolic expressions as sympy holds them, and their value for an assignment of the symbols.

    sympy itself is external to the repository.  The model's expressions are free syntax trees: sympy's
    automatic simplifications (0*x -> 0, x+0 -> x, sin(0) -> 0, argument sorting, ...) are not applied by
    the constructors.  They do not change [eval]; a theorem that speaks about which symbols OCCUR in an
    expression says so through [has], and leaves that rewrite take the rewriting function as an argument. *)
From Coq Require Import Reals ZArith List String Bool Lra Lia.
Import ListNotations.
Local Open Scope R_scope.
Local Open Scope string_scope.

Inductive expr :=
| Num (z : Z)
| PiE
| Sym (s : string)
| Add (a b : expr)
| Mul (a b : expr)
| Neg (a : expr)
| Div (a b : expr)
| Pow (a : expr) (n : nat)
| Sin (a : expr)
| Cos (a : expr)
| Asin (a : expr)
| Acos (a : expr)
| Atan2 (y x : expr)
| Sqrt (a : expr).

Definition Sub (a b : expr) : expr := Add a (Neg b).

Lemma expr_eq_dec (a b : expr) : {a = b} + {a <> b}.
Proof. decide equality; [apply Z.eq_dec | apply string_dec | apply Nat.eq_dec]. Defined.
Definition expr_eqb (a b : expr) : bool := if expr_eq_dec a b then true else false.

(** atan2 over the reals: the angle of the point (x,y) in (-pi,pi], 0 at the origin
    (numpy.arctan2, C atan2 and sympy.atan2 agree with this away from signed zeros). *)
Definition atan2 (y x : R) : R :=
  if Rlt_dec 0 x then atan (y / x)
  else if Rlt_dec x 0 then
         if Rle_dec 0 y then atan (y / x) + PI else atan (y / x) - PI
       else if Rlt_dec 0 y then PI / 2
            else if Rlt_dec y 0 then - PI / 2 else 0.

Definition env := string -> R.
Definition upd (rho : env) (s : string) (v : R) : env := fun t => if String.eqb t s then v else rho t.

Fixpoint eval (rho : env) (e : expr) : R :=
  match e with
  | Num z => IZR z
  | PiE => PI
  | Sym s => rho s
  | Add a b => eval rho a + eval rho b
  | Mul a b => eval rho a * eval rho b
  | Neg a => - eval rho a
  | Div a b => eval rho a / eval rho b
  | Pow a n => (eval rho a) ^ n
  | Sin a => sin (eval rho a)
  | Cos a => cos (eval rho a)
  | Asin a => asin (eval rho a)
  | Acos a => acos (eval rho a)
  | Atan2 y x => atan2 (eval rho y) (eval rho x)
  | Sqrt a => sqrt (eval rho a)
  end.

(** expr.has(symbol) *)
Fixpoint has (s : string) (e : expr) : bool :=
  match e with
  | Num _ | PiE => false
  | Sym t => String.eqb s t
  | Add a b | Mul a b | Div a b | Atan2 a b => has s a || has s b
  | Neg a | Pow a _ | Sin a | Cos a | Asin a | Acos a | Sqrt a => has s a
  end.

(** expr.has(sub-expression): structural occurrence. *)
Fixpoint occurs (p e : expr) : bool :=
  expr_eqb p e ||
  match e with
  | Num _ | PiE | Sym _ => false
  | Add a b | Mul a b | Div a b | Atan2 a b => occurs p a || occurs p b
  | Neg a | Pow a _ | Sin a | Cos a | Asin a | Acos a | Sqrt a => occurs p a
  end.

(** expr.subs(old,new): replace every (maximal) structural occurrence of [p] by [q]. *)
Fixpoint subs (p q e : expr) : expr :=
  if expr_eqb p e then q else
  match e with
  | Num _ | PiE | Sym _ => e
  | Add a b => Add (subs p q a) (subs p q b)
  | Mul a b => Mul (subs p q a) (subs p q b)
  | Neg a => Neg (subs p q a)
  | Div a b => Div (subs p q a) (subs p q b)
  | Pow a n => Pow (subs p q a) n
  | Sin a => Sin (subs p q a)
  | Cos a => Cos (subs p q a)
  | Asin a => Asin (subs p q a)
  | Acos a => Acos (subs p q a)
  | Atan2 a b => Atan2 (subs p q a) (subs p q b)
  | Sqrt a => Sqrt (subs p q a)
  end.
(** expr.subs(dict): the pairs one after the other. *)
Definition subs_all (l : list (expr * expr)) (e : expr) : expr :=
  fold_left (fun e kv => subs (fst kv) (snd kv) e) l e.

(** count_ops / len of an expression: number of interior nodes. *)
Fixpoint count_ops (e : expr) : nat :=
  match e with
  | Num _ | PiE | Sym _ => 0
  | Add a b | Mul a b | Div a b | Atan2 a b => S (count_ops a + count_ops b)
  | Neg a | Pow a _ | Sin a | Cos a | Asin a | Acos a | Sqrt a => S (count_ops a)
  end.

(** * Facts *)
Lemma expr_eqb_eq a b : expr_eqb a b = true <-> a = b.
Proof. unfold expr_eqb. destruct (expr_eq_dec a b); split; congruence. Qed.
Lemma expr_eqb_refl a : expr_eqb a a = true. Proof. apply expr_eqb_eq; auto. Qed.

Lemma eval_Sub rho a b : eval rho (Sub a b) = eval rho a - eval rho b.
Proof. reflexivity. Qed.

Lemma upd_eq rho s v : upd rho s v s = v.
Proof. unfold upd. rewrite String.eqb_refl. auto. Qed.
Lemma upd_ne rho s t v : t <> s -> upd rho s v t = rho t.
Proof. intros H. unfold upd. apply String.eqb_neq in H. rewrite H. auto. Qed.

(** Two assignments that agree on the symbols of [e] give it the same value. *)
Lemma eval_ext e : forall r1 r2, (forall s, has s e = true -> r1 s = r2 s) -> eval r1 e = eval r2 e.
Proof.
  induction e; intros r1 r2 H; simpl in *; auto;
    try (rewrite (IHe1 r1 r2), (IHe2 r1 r2); [auto | |]; intros t Ht; apply H; rewrite Ht; auto using orb_true_r);
    try (rewrite (IHe r1 r2); auto).
  apply H. apply String.eqb_refl.
Qed.
Lemma eval_upd_fresh e s v rho : has s e = false -> eval (upd rho s v) e = eval rho e.
Proof. intros H. apply eval_ext. intros t Ht. apply upd_ne. congruence. Qed.

(** Substituting equals for equals keeps the value. *)
Lemma eval_subs p q e rho : eval rho p = eval rho q -> eval rho (subs p q e) = eval rho e.
Proof.
  intros Hpq. induction e; cbn [subs];
    (destruct (expr_eqb p _) eqn:E; [apply expr_eqb_eq in E; rewrite <- E; auto|]); cbn [eval]; congruence.
Qed.
Lemma eval_subs_all l e rho : (forall k v, In (k, v) l -> eval rho k = eval rho v) -> eval rho (subs_all l e) = eval rho e.
Proof.
  unfold subs_all. revert e. induction l as [|[k v] l IH]; simpl; intros e H; auto.
  rewrite IH by (intros; apply H; auto). apply eval_subs. apply H; auto.
Qed.
(** Substituting a symbol: the value under the changed assignment. *)
Lemma eval_subs_sym s q e rho : eval rho (subs (Sym s) q e) = eval (upd rho s (eval rho q)) e.
Proof.
  induction e; cbn [subs]; try (replace (expr_eqb (Sym s) _) with false by (symmetry; unfold expr_eqb; destruct (expr_eq_dec _ _); congruence));
    cbn [eval]; try congruence.
  unfold upd. destruct (expr_eqb (Sym s) (Sym s0)) eqn:E.
  - apply expr_eqb_eq in E. inversion E; subst. rewrite String.eqb_refl. auto.
  - destruct (String.eqb s0 s) eqn:E2; auto. apply String.eqb_eq in E2. subst. rewrite expr_eqb_refl in E. discriminate.
Qed.
Lemma has_subs_sym_other t s q e : t <> s -> has t q = false -> has t (subs (Sym s) q e) = has t e.
Proof.
  intros Ht Hq. induction e; cbn [subs]; try (replace (expr_eqb (Sym s) _) with false by (symmetry; unfold expr_eqb; destruct (expr_eq_dec _ _); congruence));
    cbn [has]; try congruence.
  destruct (expr_eqb (Sym s) (Sym s0)) eqn:E; [|reflexivity].
  apply expr_eqb_eq in E. inversion E; subst. rewrite Hq. symmetry. apply String.eqb_neq. auto.
Qed.
Lemma subs_absent s q e : has s e = false -> subs (Sym s) q e = e.
Proof.
  induction e; cbn [subs has]; intros H; try (replace (expr_eqb (Sym s) _) with false by (symmetry; unfold expr_eqb; destruct (expr_eq_dec _ _); congruence));
    try apply orb_false_iff in H as [? ?]; try f_equal; auto.
  destruct (expr_eqb (Sym s) (Sym s0)) eqn:E; auto. apply expr_eqb_eq in E. inversion E; subst. rewrite String.eqb_refl in H. discriminate.
Qed.
Lemma has_subs_gone s q e : has s q = false -> has s (subs (Sym s) q e) = false.
Proof.
  intros Hq. induction e; cbn [subs]; try (replace (expr_eqb (Sym s) _) with false by (symmetry; unfold expr_eqb; destruct (expr_eq_dec _ _); congruence));
    cbn [has]; auto; try (rewrite IHe1, IHe2; auto).
  destruct (expr_eqb (Sym s) (Sym s0)) eqn:E; auto. cbn. apply String.eqb_neq. intros <-. rewrite expr_eqb_refl in E. discriminate.
Qed.
