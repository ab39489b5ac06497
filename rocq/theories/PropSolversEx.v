(** C29-C35: concrete instances meeting the hypotheses of the theorems of PropSolvers.v (with the concrete sympy of
    Sympy0.v), and counterexamples to what the code was meant to guarantee but does not. *)
From Coq Require Import Reals ZArith List String Bool Arith Lia Lra Psatz.
From Verif Require Import Expr Kin KinSpec Trig Solver SolverSpec SolverFacts SolverInv Sympy0 PropSolvers.
Import ListNotations.
Local Open Scope string_scope.
Local Open Scope list_scope.

(** A state in the middle of a run: nothing solved, the first unknown is the current one. *)
Definition at_work (syms : list string) (L1 L2 : list kequation) : state :=
  St (map new_unknown syms) (seq 0 (List.length syms)) (Some 0%nat) (Some 1%nat) L1 L2 [] [] [] 0 [] [].
Definition th1 := Sym "th_1". Definition th2 := Sym "th_2".
Definition px := Sym "Px". Definition py := Sym "Py". Definition l1 := Sym "l_1". Definition l2 := Sym "l_2".
Definition sols_of (o : outcome) : option (bool * list (list expr)) := match o with OK b s => Some (b, map solutions (s_heap s)) | Raise => None end.
Definition state_of (o : outcome) (d : state) : state := match o with OK _ s => s | Raise => d end.
Lemma ok_true o d : (match o with OK b _ => b | Raise => false end) = true -> o = OK true (state_of o d).
Proof. destruct o as [[] s|]; simpl; congruence. Qed.

(** Px = l_1 d_1 + l_2 *)
Definition ex30 := at_work ["d_1"] [Keq px (Add (Mul l1 (Sym "d_1")) l2)] [].
Example C30_example : current ex30 0 /\ alg_sol sympy0 ex30 = OK true (state_of (alg_sol sympy0 ex30) ex30)
  /\ sols_of (alg_sol sympy0 ex30) = Some (true, [[Div (Sub (Num 0) (Sub l2 px)) l1]]).
Proof. split; [split; [reflexivity | simpl; lia]|]. split; [apply ok_true; vm_compute|vm_compute]; reflexivity. Qed.
(** Px = l_1 sin th_1, and Px = l_1 cos th_1 *)
Definition ex31s := at_work ["th_1"] [Keq px (Mul l1 (Sin th1))] [].
Definition ex31c := at_work ["th_1"] [Keq px (Mul l1 (Cos th1))] [].
Example C31_example :
  (current ex31s 0 /\ u_ref (getu (s_heap ex31s) 0) = Own
   /\ sols_of (sc_sol sympy0 ex31s) = Some (true, let t := Div (Sub px (Num 0)) l1 in [[Asin t; Sub PiE (Asin t)]]))
  /\ (current ex31c 0 /\ u_ref (getu (s_heap ex31c) 0) = Own
   /\ sols_of (sc_sol sympy0 ex31c) = Some (true, let t := Div (Sub px (Num 0)) l1 in [[Acos t; Neg (Acos t)]])).
Proof. repeat split; try (vm_compute; reflexivity); simpl; lia. Qed.
(** Px = l_1 cos th_1, Py = l_1 sin th_1; and with the unsolved factor sin th_2 *)
Definition ex32a := at_work ["th_1"] [Keq px (Mul l1 (Cos th1)); Keq py (Mul l1 (Sin th1))] [].
Definition ex32b := at_work ["th_1"; "th_2"] [] [Keq px (Mul (Mul l2 (Sin th2)) (Cos th1)); Keq py (Mul (Mul l1 (Sin th2)) (Sin th1))].
Example C32_example :
  (current ex32a 0 /\ u_tanable (getu (s_heap ex32a) 0) = false /\ u_solved (getu (s_heap ex32a) 0) = false
   /\ sols_of (tan_sol sympy0 ex32a) = Some (true, [[Atan2 (Div (Sub (Num 0) (Neg py)) l1) (Div (Sub (Num 0) (Neg px)) l1)]]))
  /\ (current ex32b 0 /\ u_tanable (getu (s_heap ex32b) 0) = false /\ u_solved (getu (s_heap ex32b) 0) = false
   /\ sols_of (tan_sol sympy0 ex32b) = Some (true, let Y := Sub (Num 0) (Neg py) in let X := Sub (Num 0) (Neg px) in
        [[Atan2 (Div Y (Div l1 l2)) X; Atan2 (Div (Neg Y) (Div l1 l2)) (Neg X)]; []])).
Proof. repeat split; try (vm_compute; reflexivity); simpl; lia. Qed.
(** Px = l_1 sin th_1 + l_2 cos th_1, and the same with 0 on the left *)
Definition ex33 (l : expr) := at_work ["th_1"] [Keq l (Add (Mul l1 (Sin th1)) (Mul l2 (Cos th1)))] [].
Example C33_example : current (ex33 px) 0 /\ current (ex33 (Num 0)) 0
  /\ sols_of (sac_sol sympy0 (ex33 px)) = Some (true, let t := Sqrt (Sub (Add (Mul l1 l1) (Mul l2 l2)) (Mul px px)) in
        [[Add (Atan2 l1 l2) (Atan2 t px); Add (Atan2 l1 l2) (Atan2 (Neg t) px)]])
  /\ sols_of (sac_sol sympy0 (ex33 (Num 0))) = Some (true, [[Atan2 (Neg l2) l1; Add (Atan2 (Neg l2) l1) PiE]]).
Proof. repeat split; try (vm_compute; reflexivity); simpl; lia. Qed.
(** The solver does not check that A and B are free of the unknown: from 0 = (l_1 cos th_1 + Px) sin th_1 + l_2 cos th_1
    it records a "solution" for th_1 that mentions th_1, so generated code would read th_1 before assigning it. *)
Definition ex33self := at_work ["th_1"] [Keq (Num 0) (Add (Mul (Add (Mul l1 (Cos th1)) px) (Sin th1)) (Mul l2 (Cos th1)))] [].
Theorem C33_self_free_refuted : exists sy s s', sympy_ok sy /\ current s 0 /\ u_solved (getu (s_heap s) 0) = false /\ sac_sol sy s = OK true s'
  /\ u_solved (getu (s_heap s') 0) = true
  /\ exists e, In e (solutions (getu (s_heap s') 0)) /\ has (u_sym (getu (s_heap s') 0)) e = true.
Proof.
  exists sympy0, ex33self, (state_of (sac_sol sympy0 ex33self) ex33self). split; [apply sympy0_ok|]. split; [split; [reflexivity | simpl; lia]|].
  split; [reflexivity|]. split; [apply ok_true; vm_compute; reflexivity|]. split; [vm_compute; reflexivity|].
  exists (Atan2 (Neg l2) (Add (Mul l1 (Cos th1)) px)). split; vm_compute; auto.
Qed.
(** Px = l_1 sin th_1 + l_2 cos th_1, Py = l_1 cos th_1 - l_2 sin th_1 *)
Definition ex34 := at_work ["th_1"] [Keq px (Add (Mul l1 (Sin th1)) (Mul l2 (Cos th1))); Keq py (Sub (Mul l1 (Cos th1)) (Mul l2 (Sin th1)))] [].
Example C34_example : current ex34 0
  /\ sols_of (simu_sol sympy0 ex34) = Some (true, [[Atan2 (Sub (Mul l1 px) (Mul l2 py)) (Add (Mul l1 py) (Mul l2 px))]]).
Proof. repeat split; try (vm_compute; reflexivity); simpl; lia. Qed.
(** Px = l_1 cos th_2 cos th_1, Py = l_1 cos th_2 sin th_1  gives  Px^2 + Py^2 = (l_1 cos th_2)^2 *)
Definition ex35 := at_work ["th_2"; "th_1"] [] [Keq px (Mul (Mul l1 (Cos th2)) (Cos th1)); Keq py (Mul (Mul l1 (Cos th2)) (Sin th1))].
Example C35_example : match x2z2_transform sympy0 ex35 with
  | OK true s' => s_aux s' = [Keq (Add (Mul px px) (Mul py py)) (Mul (Mul l1 (Cos th2)) (Mul l1 (Cos th2)))] | _ => False end.
Proof. vm_compute. reflexivity. Qed.
(** The added equation does not imply the two it came from. *)
Theorem C35_extraneous : exists rho e, In e (s_L2 ex35) /\ ~ holds rho e /\ soa_ok rho
  /\ holds rho (Keq (Add (Mul px px) (Mul py py)) (Mul (Mul l1 (Cos th2)) (Mul l1 (Cos th2)))).
Proof.
  exists (fun s => if String.eqb s "Py" then 1%R else if String.eqb s "l_1" then 1%R else 0%R). 
  exists (Keq px (Mul (Mul l1 (Cos th2)) (Cos th1))). split; [simpl; auto|]. unfold holds, soa_ok. simpl. rewrite cos_0. repeat split; try lra.
Qed.

(** * C29 *)
Definition meq (f : nat -> nat -> expr * expr) : matrix_equation := Meqn (fun i j => fst (f i j)) (fun i j => snd (f i j)) [].
(** Py = sin th_1, Px = sin th_1 cos th_2: the second becomes Px = Py cos th_2 *)
Definition m_good := meq (fun i j => match i, j with 0, 0 => (py, Sin th1) | 0, 1 => (px, Mul (Sin th1) (Cos th2)) | _, _ => (Num 0, Num 0) end)%nat.
Definition ex29 := set_s_meqs [m_good] (at_work ["th_1"; "th_2"] [] []).
Lemma split_at {A} (l : list A) a x b : l = a ++ x :: b -> exists n, (n < List.length l)%nat /\ a = firstn n l /\ nth_error l n = Some x.
Proof.
  intros ->. exists (List.length a). rewrite app_length. simpl. split; [lia|]. split. { rewrite firstn_app, Nat.sub_diag, firstn_all. simpl. rewrite app_nil_r. auto. }
  rewrite nth_error_app2, Nat.sub_diag by lia. reflexivity.
Qed.
Definition self_at (us : list unk) (M : matrix_equation) (n m : nat) : option expr :=
  match nth_error idx12 n with
  | None => None
  | Some ij => 
    let acc := fold_left (sub_elt sympy0 us (me_Td M)) (firstn n idx12) (me_Ts M, false) in
    let e2 := fst acc (fst ij) (snd ij) in
    let cur := fst (fold_left (sub_step sympy0 us (me_Td M) (fst ij) (snd ij) e2) (firstn m idx12) acc) (fst ij) (snd ij) in
    sub_new sympy0 us cur (me_Td M (fst ij) (snd ij)) e2
  end.
Lemma self_at_none us M : forallb (fun n => match self_at us M n n with None => true | Some _ => false end) (seq 0 12) = true -> ~ self_use sympy0 us M.
Proof.
  intros H (a & ij & b & c & d & Ha & Hc & S). apply split_at in Ha as (n & Hn & -> & En). apply split_at in Hc as (m & Hm & -> & Em).
  assert (E : n = m). { pose proof idx12_nodup as ND. rewrite NoDup_nth_error in ND. apply ND; congruence. } subst m.
  assert (L : List.length idx12 = 12%nat) by reflexivity. rewrite L in *. rewrite forallb_forall in H. specialize (H n). rewrite in_seq in H. specialize (H ltac:(lia)).
  unfold self_at in H. rewrite En in H. apply S. destruct (sub_new _ _ _ _ _); [discriminate|reflexivity].
Qed.
Example C29_example : ~ self_use sympy0 (unk_objs ex29) m_good
  /\ (forall rho i j, (i < 4)%nat -> (j < 4)%nat -> defd rho (me_Ts m_good i j) /\ defd rho (me_Td m_good i j))
  /\ match sub_transform sympy0 ex29 with OK true s' => map (fun M => me_Ts M 0%nat 1%nat) (s_meqs s') = [Mul py (Cos th2)] | _ => False end.
Proof.
  split; [apply self_at_none; vm_compute; reflexivity|]. split; [|vm_compute; reflexivity].
  intros rho i j _ _. destruct i as [|i]; [destruct j as [|[|j]]|]; simpl; auto.
Qed.
(** 0 = th_1, Px = th_1 + th_2: the second element becomes th_2, then - because th_2 occurs in th_1 + th_2 - it is
    replaced by th_1 + Px, and the equation Px = th_1 + Px no longer determines th_2. *)
Definition m_self := meq (fun i j => match i, j with 0, 0 => (Num 0, th1) | 0, 1 => (px, Add th1 th2) | _, _ => (Num 0, Num 0) end)%nat.
Definition ex29self := set_s_meqs [m_self] (at_work ["th_1"; "th_2"] [] []).
Theorem C29_self_use_refuted : exists sy s s' rho, sympy_ok sy /\ sub_transform sy s = OK true s'
  /\ (forall M i j, In M (s_meqs s) -> defd rho (me_Ts M i j) /\ defd rho (me_Td M i j)) /\ sat rho s' /\ ~ sat rho s.
Proof.
  pose (rho := fun s : string => if String.eqb s "th_2" then 1%R else 0%R).
  exists sympy0, ex29self, (state_of (sub_transform sympy0 ex29self) ex29self), rho. split; [apply sympy0_ok|].
  split; [apply ok_true; vm_compute; reflexivity|]. split; [|split].
  - intros M i j [<-|[]]. destruct i as [|i]; [destruct j as [|[|j]]|]; simpl; auto.
  - assert (E : s_meqs (state_of (sub_transform sympy0 ex29self) ex29self) =
      [Meqn (me_Td m_self) (fst (fold_left (sub_elt sympy0 (unk_objs ex29self) (me_Td m_self)) idx12 (me_Ts m_self, false))) []]) by (vm_compute; reflexivity).
    split. 2:{ assert (A : s_aux (state_of (sub_transform sympy0 ex29self) ex29self) = []) by (vm_compute; reflexivity). rewrite A. intros q []. }
    rewrite E. clear E. intros M [<-|[]] i j Hi Hj. cbn [me_Td me_Ts].
    assert (V : forall i j, (i < 4)%nat -> (j < 4)%nat -> fst (fold_left (sub_elt sympy0 (unk_objs ex29self) (me_Td m_self)) idx12 (me_Ts m_self, false)) i j
        = match i, j with 0, 0 => th1 | 0, 1 => Add th1 px | _, _ => Num 0 end%nat).
    { clear. intros i j Hi Hj. destruct i as [|[|[|[|i]]]]; try lia; destruct j as [|[|[|[|j]]]]; try lia; vm_compute; reflexivity. }
    rewrite (V i j Hi Hj). clear V. destruct i as [|i]; [destruct j as [|[|j]]|]; unfold ok_at, holds; simpl; repeat split; auto; unfold rho; simpl; lra.
  - intros [S _]. destruct (S m_self (or_introl eq_refl) 0%nat 1%nat ltac:(lia) ltac:(lia)) as (_ & _ & H). unfold holds, rho in H. simpl in H. lra.
Qed.
