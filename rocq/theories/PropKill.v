(** C81: what a killed run, and a run that raises while it writes, leave in the directory (Program.v). *)
From Coq Require Import Reals ZArith List String Ascii Bool Arith Lia.
From Verif Require Import Expr Kin Solver SolSet PropHist CodeGen PyFile Latex TexFile PropTexFile Session Robots Cache PropCache PropEndToEnd EndToEndEx CodeGenEx SolSetEx PropLatexEx Program PropProgram PropProgramEx FKRun FkOnly PropFkOnly.
Import ListNotations.
Local Open Scope string_scope.
Local Open Scope list_scope.
Local Open Scope nat_scope.

(** * Files written one after the other *)
Lemma puts_nth ws : forall f i w, NoDup (map fst ws) -> nth_error ws i = Some w -> puts f ws (fst w) = snd w.
Proof.
  induction ws as [|v ws IH]; intros f i w N H; [destruct i; discriminate|]. cbn [map] in N. apply NoDup_cons_iff in N as (N1 & N2). cbn [puts fold_left]. fold (puts (put f v) ws). destruct i as [|i]; cbn [nth_error] in H.
  - injection H as ->. rewrite puts_other by auto. unfold put. rewrite String.eqb_refl. reflexivity.
  - eapply IH; eauto.
Qed.
Lemma firstn_S_nth {A} (l : list A) k : firstn (S k) l = firstn k l ++ match nth_error l k with Some x => [x] | None => [] end.
Proof. revert k. induction l as [|a l IH]; intros [|k]; auto. cbn [firstn nth_error app]. f_equal. exact (IH k). Qed.
Lemma done_paths ws k torn : map fst (done_before ws k torn) = firstn (if torn then S k else k) (map fst ws).
Proof.
  unfold done_before. rewrite map_app. destruct torn.
  - rewrite firstn_S_nth, firstn_map. f_equal. rewrite nth_error_map. destruct (nth_error ws k); reflexivity.
  - cbn [map]. rewrite app_nil_r, firstn_map. reflexivity.
Qed.
Lemma nodup_firstn {A} (l : list A) k : NoDup l -> NoDup (firstn k l).
Proof. revert k. induction l as [|a l IH]; intros [|k] N; cbn [firstn]; try constructor; inversion N; subst; auto. intros X. apply H1. eapply firstn_in; eauto. Qed.
Lemma nth_not_firstn {A} (l : list A) k i x : NoDup l -> nth_error l i = Some x -> k <= i -> ~ In x (firstn k l).
Proof.
  intros N H L X. apply In_nth_error in X as (j & X). assert (Lj : j < k). { assert (Y := nth_error_Some (firstn k l) j). rewrite X in Y. assert (Z : j < List.length (firstn k l)) by (apply Y; discriminate). rewrite firstn_length in Z. lia. }
  assert (X' : nth_error l j = Some x). { rewrite <- X. clear -Lj. revert k j Lj. induction l as [|a l IH]; intros [|k] [|j] L; auto; try lia. cbn. apply IH. lia. }
  assert (i = j); [|lia]. apply (proj1 (NoDup_nth_error l) N). apply nth_error_Some. congruence. congruence.
Qed.
Lemma nth_firstn_lt {A} (l : list A) k i : i < k -> nth_error (firstn k l) i = nth_error l i.
Proof. revert k i. induction l as [|a l IH]; intros [|k] [|i] L; auto; try lia. cbn. apply IH. lia. Qed.
(** the files of a complete run are a prefix of [out]; the run is cut off after [k] of them *)
Lemma cut_files out ws j f k torn i p : NoDup out -> map fst ws = firstn j out -> nth_error out i = Some p ->
  let f0 := puts f ws in let f1 := puts f (done_before ws k torn) in
  (i < k -> f1 p = f0 p) /\ (k < i -> f1 p = f p) /\ (i = k -> torn = false -> f1 p = f p) /\ (i = k -> torn = true -> f1 p = Torn \/ (f1 p = f p /\ f0 p = f p)).
Proof.
  intros N P Hi f0 f1. assert (Nw : NoDup (map fst ws)) by (rewrite P; apply nodup_firstn; auto). assert (Dp := done_paths ws k torn).
  assert (Nd : NoDup (map fst (done_before ws k torn))) by (rewrite Dp; apply nodup_firstn; auto).
  assert (Out : forall c, c <= i -> ~ In p (firstn c (map fst ws))). { intros c L X. rewrite P in X. rewrite firstn_firstn in X. revert X. apply (nth_not_firstn out _ i p N Hi). lia. }
  assert (Cases : (exists w, nth_error ws i = Some w /\ fst w = p) \/ ~ In p (map fst ws)).
  { destruct (Nat.lt_ge_cases i j) as [L|L].
    - left. assert (X : nth_error (map fst ws) i = Some p) by (rewrite P, nth_firstn_lt; auto). rewrite nth_error_map in X. destruct (nth_error ws i) as [w|]; [|discriminate]. injection X as X. eauto.
    - right. rewrite P. apply (nth_not_firstn out j i p N Hi L). }
  assert (Sub : forall c, ~ In p (map fst ws) -> ~ In p (firstn c (map fst ws))) by (intros c H X; apply H; eapply firstn_in; eauto).
  assert (Off : ~ In p (map fst (done_before ws k torn)) -> f1 p = f p) by (intros H; apply puts_other; auto).
  split; [|split; [|split]].
  - intros L. destruct Cases as [(w & Hw & <-)|H].
    + unfold f1, f0. rewrite (puts_nth ws f i w Nw Hw). apply (puts_nth _ f i w Nd). unfold done_before. assert (Lw := nth_error_Some ws i). rewrite Hw in Lw. assert (Z : i < List.length ws) by (apply Lw; discriminate).
      rewrite nth_error_app1, nth_firstn_lt; auto. rewrite firstn_length. lia.
    + rewrite Off by (rewrite Dp; auto). unfold f0. rewrite puts_other by auto. reflexivity.
  - intros L. apply Off. rewrite Dp. apply Out. destruct torn; lia.
  - intros -> ->. apply Off. rewrite Dp. apply Out. lia.
  - intros -> ->. destruct Cases as [(w & Hw & <-)|H].
    + left. unfold f1. assert (Lw := nth_error_Some ws k). rewrite Hw in Lw. assert (Z : k < List.length ws) by (apply Lw; discriminate).
      change Torn with (snd (fst w, Torn)). change (fst w) with (fst (fst w, Torn)) at 1. apply (puts_nth _ f k _ Nd). unfold done_before. rewrite nth_error_app2 by (rewrite firstn_length; lia). rewrite firstn_length, Nat.min_l, Nat.sub_diag by lia. rewrite Hw. reflexivity.
    + right. split; [apply Off; rewrite Dp; auto|]. apply puts_other. auto.
Qed.

Section C81.
Context (sy : sympy) (nice : expr -> bool) (show latex : expr -> string) (arg : state -> nat -> expr) (edges : state -> list (string * string))
  (mats : @mech (list nat) state -> matrices) (order : list row -> list row) (vars : list row -> list string).
Local Notation work := (work sy nice show latex arg edges mats order vars). Local Notation main := (main sy nice show latex arg edges mats order vars).
Local Notation history := (history sy nice show latex arg edges mats order vars).
Local Notation fkm := (fk_main sy nice). Local Notation crun := (Cache.run nice fkm).

(** A run that is killed after it has written [k] of its three files (report, Python program, C++ program, in this order): the first [k] are those that the run would have left, the next one is
    torn if the process was killed while writing it (unless the run would not have written it), all others are as before; the cache is that of the complete run. *)
Theorem C81_killed cat argv n d us k torn f : robot_name argv = Some n -> cat n = Described d us ->
  let f0 := fst (main cat argv Finish f) in let r := main cat argv (Working k torn) f in let f1 := fst r in
  (forall m, d_cache f1 m = d_cache f0 m)
  /\ (forall b, snd r <> Finished b)
  /\ (forall p, ~ In p (outputs_of n) -> d_text f1 p = d_text f p)
  /\ forall i p, nth_error (outputs_of n) i = Some p ->
       (i < k -> d_text f1 p = d_text f0 p) /\ (k < i -> d_text f1 p = d_text f p) /\ (i = k -> torn = false -> d_text f1 p = d_text f p)
       /\ (i = k -> torn = true -> d_text f1 p = Torn \/ (d_text f1 p = d_text f p /\ d_text f0 p = d_text f p)).
Proof.
  intros N D f0 r f1. assert (Fr : forall p, ~ In p (outputs_of n) -> d_text f1 p = d_text f p).
  { intros p H. destruct (C77_frame sy nice show latex arg edges mats order vars cat argv (Working k torn) f f1 (snd r)) as (_ & T). { apply surjective_pairing. }
    apply T. intros m M. rewrite N in M. injection M as <-. exact H. }
  assert (M0 := finish sy nice show latex arg edges mats order vars cat argv n d us f N D).
  assert (M1 : main cat argv (Working k torn) f = (let '(c, o) := crun (d_cache f) true (request_of n d) Never in match o with Served v _ => (Dir c (puts (d_text f) (done_before (fst (work v)) k torn)), Dead) | _ => (Dir c (d_text f), NoKinematics o) end)).
  { unfold Program.main. rewrite N, D. destruct (crun (d_cache f) true (request_of n d) Never) as [c o]. destruct o; reflexivity. }
  unfold f0, f1, r in *. clear f0 f1 r. rewrite M0. rewrite M1 in Fr |- *. clear M0 M1. destruct (crun (d_cache f) true (request_of n d) Never) as [c o] eqn:E. cbv beta iota zeta in Fr |- *. destruct o as [v h| | | |];
    [|split; [intros m; reflexivity|split; [intros b X; discriminate X|split; [exact Fr|intros i p _; split; [intros _; reflexivity|split; [intros _; reflexivity|split; [intros _ _; reflexivity|intros _ _; right; split; reflexivity]]]]]]..].
  destruct (work v) as [ws r'] eqn:W. cbn [fst snd d_cache d_text] in *. split; [reflexivity|]. split; [discriminate|]. split; [exact Fr|].
  intros i p Hi. destruct (work_files sy nice show latex arg edges mats order vars v) as (j & P). rewrite W in P. cbn [fst] in P.
  assert (Vn : v_name v = n). { assert (S := served_name sy nice (d_cache f) true (request_of n d) Never v h). rewrite E in S. apply S. reflexivity. } rewrite Vn in P.
  exact (cut_files (outputs_of n) ws j (d_text f) k torn i p (C77_three_files n) P Hi).
Qed.

(** A parameter that has no value, when others have: *)
Definition unvalued (d : robot_def) (x : string) : Prop := In x (rd_params d) /\ rd_pvals d ++ alpha_params nice 0 (rd_dh d) <> [] /\ ~ In x (map fst (rd_pvals d ++ alpha_params nice 0 (rd_dh d))).
Lemma mapM_none {A B} (g : A -> option B) l x : In x l -> g x = None -> mapM g l = None.
Proof. induction l as [|a l IH]; intros I G; [destruct I|]. cbn [mapM]. destruct I as [->|I]. { rewrite G. reflexivity. } destruct (g a); auto. rewrite IH; auto. Qed.
Lemma no_texts m ps x : m_pvals m <> [] -> In x ps -> ~ In x (map fst (m_pvals m)) -> param_texts nice show m ps = None.
Proof.
  intros P I H. unfold param_texts. destruct (m_pvals m) as [|e pv] eqn:E; [congruence|]. apply (mapM_none _ _ x I). destruct (find _ _) as [q|] eqn:F; auto. exfalso. apply find_some in F as (F1 & F2). apply String.eqb_eq in F2. apply H. rewrite <- F2. apply in_map. exact F1.
Qed.
Lemma no_texts_work v : param_texts nice show (v_mech v) (v_params v) = None -> (forall b, snd (work v) <> Finished b) /\ (exists j, j <= 2 /\ map fst (fst (work v)) = firstn j (outputs_of (v_name v)))
  /\ forall t, In (python_filename (v_name v), t) (fst (work v)) -> t = Torn.
Proof.
  intros E. destruct (work_files sy nice show latex arg edges mats order vars v) as (j & P). revert P. unfold Program.work. rewrite E. destruct (ik_solve _ _) as [b s|].
  2:{ intros _. split; [discriminate|]. split; [exists 0; auto|intros t []]. }
  cbv zeta. destruct (do_call _ _ _ _ _ _ _ Create) as [[s1 o1]|]. 2:{ intros _. split; [discriminate|]. split; [exists 0; auto|intros t []]. }
  destruct (do_call _ _ _ _ _ _ s1 Report) as [[s2 o2]|]. 2:{ intros _. split; [discriminate|]. split; [exists 0; auto|intros t []]. }
  cbn [fst snd map]. intros P. split; [discriminate|]. split.
  - exists 2. split; auto. rewrite P. unfold outputs_of in P |- *. destruct j as [|[|[|[|j]]]]; cbn [firstn] in *; try discriminate P; reflexivity.
  - intros t [H|[H|[]]].
    + exfalso. unfold outputs_of in P. destruct j as [|j]; [discriminate P|]. cbn [firstn] in P. injection P as P _. injection H as H _. rewrite P in H. unfold python_filename in H. cbn [append] in H. discriminate H.
    + injection H as <-. reflexivity.
Qed.
(** every run, after any history in which the robot kept its description, raises: the C++ program is not written and the Python program, if it is opened, stays torn *)
Theorem C81_unvalued cat argv n d us f0 es x : robot_name argv = Some n -> cat n = Described d us -> d_cache f0 n = Absent -> consistent n (request_of n d) es -> unvalued d x ->
  let f := history f0 es in let r := main cat argv Finish f in
  (forall b, snd r <> Finished b)
  /\ (forall p, nth_error (outputs_of n) 2 = Some p -> d_text (fst r) p = d_text f p)
  /\ (forall p, nth_error (outputs_of n) 1 = Some p -> d_text (fst r) p = d_text f p \/ d_text (fst r) p = Torn).
Proof.
  intros N D A C (U1 & U2 & U3) f r.
  assert (Fr : fresh sy nice (request_of n d) (d_cache f)). { apply history_fresh; auto. unfold fresh. cbn [q_name request_of]. rewrite A. exact I. }
  unfold r. rewrite (finish sy nice show latex arg edges mats order vars cat argv n d us f N D). assert (Sv := served_fresh sy nice _ _ Fr). destruct (crun (d_cache f) true (request_of n d) Never) as [c o]. cbn [snd] in Sv.
  destruct Sv as [->|[[_ ->]|(m & u & hit & Ec & -> & _)]]; [split; [discriminate|]; split; intros; auto|split; [discriminate|]; split; intros; auto|].
  set (v := scratch (request_of n d) hit m u). assert (Ep : param_texts nice show (v_mech v) (v_params v) = None).
  { unfold Cache.compute in Ec. destruct (fkm _ _ _) as [[kk u']|]; [|discriminate]. injection Ec as <- _. apply (no_texts _ _ x); unfold v, scratch; cbn [v_mech v_params m_pvals m_params q_pvals q_dh q_params request_of]; auto. destruct hit; auto. apply in_or_app. auto. }
  destruct (no_texts_work v Ep) as (W1 & (j & Lj & W2) & W3). assert (Vn : v_name v = n) by reflexivity. rewrite Vn in *. destruct (work v) as [ws r'] eqn:W. cbn [fst snd d_text] in *.
  split; [exact W1|]. split; intros p Hp.
  - apply puts_other. rewrite W2. apply (nth_not_firstn (outputs_of n) j 2 p (C77_three_files n) Hp Lj).
  - destruct (in_dec string_dec p (map fst ws)) as [I|I]; [|left; apply puts_other; auto]. right. apply in_map_iff in I as ((p' & t) & Ep' & I). cbn [fst] in Ep'. subst p'.
    assert (Et : t = Torn). { apply W3. unfold outputs_of in Hp. cbn [nth_error] in Hp. injection Hp as <-. exact I. } subst t. apply In_nth_error in I as (i & I). refine (puts_nth ws (d_text f) i (p, Torn) _ I).
    rewrite W2. apply nodup_firstn, C77_three_files.
Qed.
End C81.

(** The same for fkOnly.py, which writes its Python program before its report; in histories of both programs. *)
Section FK.
Context (sy : sympy) (nice : expr -> bool) (trigsimp : expr -> expr) (show latex : expr -> string) (arg : state -> nat -> expr) (edges : state -> list (string * string))
  (mats : @mech (list nat) state -> matrices) (order : list row -> list row) (vars : list row -> list string).
Local Notation fwork := (fk_work nice trigsimp show mats). Local Notation fonly := (fk_only sy nice trigsimp show mats).
Local Notation performed := (performed sy nice trigsimp show latex arg edges mats order vars).
Local Notation fkm := (fk_main sy nice). Local Notation crun := (Cache.run nice fkm).
Lemma fk_paths v : exists j, map fst (fst (fwork v)) = firstn j (fk_outputs_of (v_name v)).
Proof. destruct (fk_work_cases nice trigsimp show mats v) as [->|(ps & py & _ & _ & ->)]; [exists 1|exists 2]; reflexivity. Qed.
Lemma fk_two_files n : NoDup (fk_outputs_of n).
Proof. unfold fk_outputs_of. cbn [append]. repeat constructor; cbn [In]; intuition discriminate. Qed.
Theorem C81_fk_killed cat argv n d us k torn f : fk_robot_name argv = Some n -> cat n = Described d us ->
  let f0 := fst (fonly cat argv Finish f) in let r := fonly cat argv (Working k torn) f in let f1 := fst r in
  (forall m, d_cache f1 m = d_cache f0 m)
  /\ snd r <> FkDone
  /\ (forall p, ~ In p (fk_outputs_of n) -> d_text f1 p = d_text f p)
  /\ forall i p, nth_error (fk_outputs_of n) i = Some p ->
       (i < k -> d_text f1 p = d_text f0 p) /\ (k < i -> d_text f1 p = d_text f p) /\ (i = k -> torn = false -> d_text f1 p = d_text f p)
       /\ (i = k -> torn = true -> d_text f1 p = Torn \/ (d_text f1 p = d_text f p /\ d_text f0 p = d_text f p)).
Proof.
  intros N D f0 r f1. assert (Fr : forall p, ~ In p (fk_outputs_of n) -> d_text f1 p = d_text f p).
  { intros p H. destruct (C79_frame sy nice trigsimp show latex arg edges mats order vars cat argv (Working k torn) f f1 (snd r)) as (_ & T). { apply surjective_pairing. }
    apply T. intros m M. rewrite N in M. injection M as <-. exact H. }
  assert (M0 := fk_finish sy nice trigsimp show mats cat argv n d us f N D).
  assert (M1 : fonly cat argv (Working k torn) f = (let '(c, o) := crun (d_cache f) true (request_of n d) Never in match o with Served v _ => (Dir c (puts (d_text f) (done_before (fst (fwork v)) k torn)), FkDead) | _ => (Dir c (d_text f), FkNoKinematics o) end)).
  { unfold fk_only. rewrite N, D. destruct (crun (d_cache f) true (request_of n d) Never) as [c o]. destruct o; reflexivity. }
  unfold f0, f1, r in *. clear f0 f1 r. rewrite M0. rewrite M1 in Fr |- *. clear M0 M1. destruct (crun (d_cache f) true (request_of n d) Never) as [c o] eqn:E. cbv beta iota zeta in Fr |- *. destruct o as [v h| | | |];
    [|split; [intros m; reflexivity|split; [intros X; discriminate X|split; [exact Fr|intros i p _; split; [intros _; reflexivity|split; [intros _; reflexivity|split; [intros _ _; reflexivity|intros _ _; right; split; reflexivity]]]]]]..].
  destruct (fwork v) as [ws r'] eqn:W. cbn [fst snd d_cache d_text] in *. split; [reflexivity|]. split; [discriminate|]. split; [exact Fr|].
  intros i p Hi. destruct (fk_paths v) as (j & P). rewrite W in P. cbn [fst] in P.
  assert (Vn : v_name v = n). { assert (S := served_name sy nice (d_cache f) true (request_of n d) Never v h). rewrite E in S. apply S. reflexivity. } rewrite Vn in P.
  exact (cut_files (fk_outputs_of n) ws j (d_text f) k torn i p (fk_two_files n) P Hi).
Qed.
(** a parameter without a value: the program is left torn, or not opened, and the report is not written *)
Theorem C81_fk_unvalued cat argv n d us f0 js x : fk_robot_name argv = Some n -> cat n = Described d us -> d_cache f0 n = Absent -> jobs_consistent n (request_of n d) js -> unvalued nice d x ->
  let f := performed f0 js in let r := fonly cat argv Finish f in
  snd r <> FkDone
  /\ (forall p, nth_error (fk_outputs_of n) 0 = Some p -> d_text (fst r) p = d_text f p \/ d_text (fst r) p = Torn)
  /\ (forall p, nth_error (fk_outputs_of n) 1 = Some p -> d_text (fst r) p = d_text f p).
Proof.
  intros N D A C (U1 & U2 & U3) f r.
  assert (Fr : fresh sy nice (request_of n d) (d_cache f)).
  { unfold f. destruct (C79_jobs sy nice trigsimp show latex arg edges mats order vars js f0) as (es & -> & H & _). apply history_fresh; auto. unfold fresh. cbn [q_name request_of]. rewrite A. exact I. }
  unfold r. rewrite (fk_finish sy nice trigsimp show mats cat argv n d us f N D). assert (Sv := served_fresh sy nice _ _ Fr). destruct (crun (d_cache f) true (request_of n d) Never) as [c o]. cbn [snd] in Sv.
  destruct Sv as [->|[[_ ->]|(m & u & hit & Ec & -> & _)]]; [split; [discriminate|]; split; intros; auto|split; [discriminate|]; split; intros; auto|].
  set (v := scratch (request_of n d) hit m u). assert (Ep : param_texts nice show (v_mech v) (v_params v) = None).
  { unfold Cache.compute in Ec. destruct (fkm _ _ _) as [[kk u']|]; [|discriminate]. injection Ec as <- _. apply (no_texts nice show _ _ x); unfold v, scratch; cbn [v_mech v_params m_pvals m_params q_pvals q_dh q_params request_of]; auto. destruct hit; auto. apply in_or_app. auto. }
  unfold fk_work. rewrite Ep. cbn [fst snd d_text]. split; [discriminate|]. split; intros p Hp.
  - unfold fk_outputs_of in Hp. cbn [nth_error] in Hp. injection Hp as <-. right. apply (puts_nth [(fk_python_filename (v_name v), Torn)] (d_text f) 0 (fk_python_filename (v_name v), Torn)); [|reflexivity]. repeat constructor. intros [].
  - apply puts_other. cbn [map fst]. intros [H|[]]. revert H. unfold fk_outputs_of in Hp. cbn [nth_error] in Hp. injection Hp as <-. unfold fk_python_filename. cbn [append]. discriminate.
Qed.
End FK.

(** * Examples: the two-joint robot of C77 with two parameters, of which one has a value; and a run killed while it writes the Python program *)
Definition half : robot_def := RobotDef rowsK [0; 1; 1; 1; 1; 1] ["l_1"; "l_2"] [("l_1", Num 1)] varsK.
Lemma C81_example_unvalued : unvalued niceK half "l_2" /\ whole (d_text (fst (main77 half Finish empty_dir)) "LaTex/ik_solution_K.tex") = true
  /\ d_text (fst (main77 half Finish empty_dir)) "CodeGen/Python/IK_equationsK.py" = Torn /\ d_text (fst (main77 half Finish empty_dir)) "CodeGen/Cpp/IK_equationsK.cpp" = NoFile.
Proof.
  split. { split; [right; left; reflexivity|]. split; [discriminate|]. vm_compute. intros [H|[]]. discriminate H. }
  split; [vm_compute; reflexivity|]. split; vm_compute; reflexivity.
Qed.
Lemma C81_example_killed : let f := fst (main77 straight (Working 1 true) empty_dir) in whole (d_text f "LaTex/ik_solution_K.tex") = true /\ d_text f "CodeGen/Python/IK_equationsK.py" = Torn
  /\ d_text f "CodeGen/Cpp/IK_equationsK.cpp" = NoFile.
Proof. split; [vm_compute; reflexivity|]. split; vm_compute; reflexivity. Qed.
Print Assumptions C81_killed. Print Assumptions C81_unvalued. Print Assumptions C81_example_unvalued. Print Assumptions C81_example_killed. Print Assumptions C81_fk_killed. Print Assumptions C81_fk_unvalued.
