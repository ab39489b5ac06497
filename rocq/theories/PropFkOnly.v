(** C79: fkOnly.py from the command line to the files it leaves, and histories of both programs in one directory. *)
From Coq Require Import Reals ZArith List String Ascii Bool Arith Lia.
From Verif Require Import Expr Kin Solver SolSet PropHist CodeGen PyFile FKRun Latex TexFile PropTexFile Session Robots Cache PropCache PropEndToEnd Program PropProgram FkOnly.
Import ListNotations.
Local Open Scope string_scope.
Local Open Scope list_scope.
Local Open Scope nat_scope.

(** * Specification *)
(** the files a forward run writes, by the robot's name without 'test: ' *)
Definition fk_outputs_of (n : string) : list string :=
  [append "CodeGen/Python/FK_equations" (append (clean_name n) ".py"); append "LaTex/fk_equations_" (append (clean_name n) ".tex")].
(** the job computes or reads the kinematics of robot [n], described by [q] *)
Definition job_uses (n : string) (q : @request (list nat) (list string)) (j : job) : Prop :=
  match j with
  | Also e => uses n q e
  | Forward cat argv _ => fk_robot_name argv = Some n /\ exists d us, cat n = Described d us /\ q = request_of n d
  end.
Definition job_cut_short (n : string) (j : job) : Prop :=
  match j with
  | Also e => cut_short n e
  | Forward _ argv (Caching DuringDump) => fk_robot_name argv = Some n
  | Forward _ _ _ => False
  end.
(** all jobs with one description of [n] *)
Definition jobs_consistent (n : string) (q : @request (list nat) (list string)) (js : list job) : Prop := forall j q', In j js -> job_uses n q' j -> q' = q.
(** the event is something that job does to the directory *)
Definition part_of (j : job) (e : event) : Prop :=
  match e with
  | Other true q k => job_uses (q_name q) q j /\ (k = DuringDump -> job_cut_short (q_name q) j)
  | Edit p _ => exists n, (match j with Forward _ argv _ => fk_robot_name argv = Some n | Also _ => False end) /\ In p (fk_outputs_of n)
  | _ => False
  end.

Section C79.
Context (sy : sympy) (nice : expr -> bool) (trigsimp : expr -> expr) (show latex : expr -> string) (arg : state -> nat -> expr) (edges : state -> list (string * string))
  (mats : @mech (list nat) state -> matrices) (order : list row -> list row) (vars : list row -> list string).
Local Notation fwork := (fk_work nice trigsimp show mats). Local Notation fonly := (fk_only sy nice trigsimp show mats).
Local Notation main := (main sy nice show latex arg edges mats order vars). Local Notation history := (history sy nice show latex arg edges mats order vars). Local Notation happen := (happen sy nice show latex arg edges mats order vars).
Local Notation performed := (performed sy nice trigsimp show latex arg edges mats order vars). Local Notation perform := (perform sy nice trigsimp show latex arg edges mats order vars).
Local Notation as_first := (as_first sy nice show latex arg edges mats order vars).
Local Notation fkm := (fk_main sy nice). Local Notation crun := (Cache.run nice fkm). Local Notation compute := (compute nice fkm).

(** * The files of one run *)
Lemma report_name v ps : forward_filename (fk_robot v ps) = append "LaTex/fk_equations_" (append (clean_name (v_name v)) ".tex").
Proof. exact (proj1 (proj2 (C59_file_names (fk_robot v ps) (fk_robot v ps)))). Qed.
Lemma fk_work_cases v : fwork v = ([(fk_python_filename (v_name v), Torn)], FkRaised)
  \/ exists ps py, param_texts nice show (v_mech v) (v_params v) = Some ps /\ output_FK_python_code (fk_robot v ps) (variables (m_kin (v_mech v))) (T06_text nice trigsimp show v) = Some py
     /\ fwork v = ([(append "CodeGen/Python/FK_equations" (append (clean_name (v_name v)) ".py"), Whole (printed py));
                    (append "LaTex/fk_equations_" (append (clean_name (v_name v)) ".tex"), Whole (file_text (output_FK_equations (fk_robot v ps) (mats (v_mech v)))))], FkDone).
Proof.
  unfold fk_work. destruct (param_texts _ _ _ _) as [ps|]; auto. destruct (output_FK_python_code _ _ _) as [py|] eqn:E; auto. right. exists ps, py. split; auto. split; auto. rewrite report_name. reflexivity.
Qed.
Lemma fk_work_in v p : In p (map fst (fst (fwork v))) -> In p (fk_outputs_of (v_name v)).
Proof. destruct (fk_work_cases v) as [->|(ps & py & _ & _ & ->)]; cbn [fst map In fk_outputs_of]. intros [<-|[]]. left. reflexivity. intros [<-|[<-|[]]]; auto. Qed.
(** With no argument the robot is Raven-II; with more than one, or an unknown name, nothing is touched. *)
Theorem C79_arguments cat st f :
  (forall script, fonly cat [script] st f = fonly cat [script; "Raven-II"] st f)
  /\ (forall script a b l, fonly cat (script :: a :: b :: l) st f = (f, FkNameErr))
  /\ (forall script n, cat n = Quits -> fonly cat [script; n] st f = (f, FkExits)).
Proof. split; [|split]; intros; try reflexivity. unfold fk_only. cbn [fk_robot_name]. rewrite H. reflexivity. Qed.
(** A run does to the directory what another program does that uses the robot's cache file, and edits of its two files. *)
Lemma puts_history c : forall ws f, exists es, Dir c (puts f ws) = history (Dir c f) es /\ forall e, In e es -> exists p t, e = Edit p t /\ In p (map fst ws).
Proof.
  induction ws as [|w ws IH]; intros f. { exists []. split; [reflexivity|intros e []]. }
  destruct (IH (put f w)) as (es & E & H). exists (Edit (fst w) (snd w) :: es). split.
  - cbn [puts fold_left]. fold (puts (put f w) ws). rewrite E. cbn [Program.history fold_left Program.happen d_cache d_text]. rewrite <- surjective_pairing. reflexivity.
  - intros e [<-|He]. exists (fst w), (snd w). split; auto. left. auto. destruct (H e He) as (p & t & -> & I). exists p, t. split; auto. right. auto.
Qed.
Theorem C79_as_events cat argv st f : exists es, fst (fonly cat argv st f) = history f es /\ forall e, In e es -> part_of (Forward cat argv st) e.
Proof.
  unfold fk_only. destruct (fk_robot_name argv) as [n|] eqn:N; [|exists []; split; [reflexivity|intros e []]].
  destruct (cat n) as [| |d us] eqn:D; [exists []; split; [reflexivity|intros e []]|exists []; split; [reflexivity|intros e []]|].
  set (k := match st with Caching k => k | _ => Never end). destruct (crun (d_cache f) true (request_of n d) k) as [c o] eqn:E.
  assert (S : forall ws, (forall p, In p (map fst ws) -> In p (fk_outputs_of n)) -> exists es, Dir c (puts (d_text f) ws) = history f es /\ forall e, In e es -> part_of (Forward cat argv st) e).
  { intros ws W. destruct (puts_history c ws (d_text f)) as (es & X & Y). exists (Other true (request_of n d) k :: es). split.
    - cbn [Program.history fold_left Program.happen]. rewrite E. exact X.
    - intros e [<-|He]. cbn [part_of job_uses job_cut_short q_name request_of]. split; [split; eauto|]. intros K. unfold k in K. destruct st as [|k0|]; try discriminate K. subst k0. exact N.
      destruct (Y e He) as (p & t & -> & I). exists n. auto. }
  assert (T : forall v h, o = Served v h -> v_name v = n). { intros v h ->. apply (served_name sy nice (d_cache f) true (request_of n d) k v h). rewrite E. reflexivity. }
  assert (Z := S [] (fun p H => match H with end)). cbn [puts fold_left] in Z.
  destruct o as [v h| | | |]; try exact Z. rewrite <- (T v h eq_refl) in S. destruct st as [|k0|k0 torn]; [|exact Z|].
  - assert (S' := S (fst (fwork v)) (fk_work_in v)). destruct (fwork v) as [ws r]. exact S'.
  - exact (S (done_before (fst (fwork v)) k0 torn) (fun p H => fk_work_in v p (done_in _ _ _ _ H))).
Qed.
Theorem C79_frame cat argv st f f' r : fonly cat argv st f = (f', r) ->
  (forall n, fk_robot_name argv <> Some n -> d_cache f' n = d_cache f n)
  /\ (forall p, (forall n, fk_robot_name argv = Some n -> ~ In p (fk_outputs_of n)) -> d_text f' p = d_text f p).
Proof.
  intros E. destruct (C79_as_events cat argv st f) as (es & H & P). rewrite E in H. cbn [fst] in H. subst f'. clear E. split.
  - intros n N. revert f P. induction es as [|e es IH]; intros f P; auto. cbn [Program.history fold_left]. fold (history (happen f e) es). rewrite IH by (intros; apply P; right; auto).
    assert (X := P e (or_introl eq_refl)). destruct e as [c a s|chk q k|m|p t]; cbn [part_of] in X; try contradiction; auto. destruct chk; [|contradiction]. cbn [Program.happen d_cache]. rewrite run_other; auto. destruct X as [[X _] _]. congruence.
  - intros p N. revert f P. induction es as [|e es IH]; intros f P; auto. cbn [Program.history fold_left]. fold (history (happen f e) es). rewrite IH by (intros; apply P; right; auto).
    assert (X := P e (or_introl eq_refl)). destruct e as [c a s|chk q k|m|p' t]; cbn [part_of] in X; try contradiction; auto. destruct X as (n & Nn & I). cbn [Program.happen d_text put]. unfold put. cbn [fst]. destruct (String.eqb_spec p' p) as [->|]; auto. exfalso. exact (N n Nn I).
Qed.
(** Its files are none of those ikSolver.py writes, whatever the robots; and two robots whose names differ by more than 'test: ' have different ones. *)
Theorem C79_separate n n' p : In p (fk_outputs_of n) -> ~ In p (outputs_of n') /\ (In p (fk_outputs_of n') -> clean_name n = clean_name n').
Proof.
  unfold outputs_of, fk_outputs_of. intros [<-|[<-|[]]]; split; intros H; cbn [In append] in H.
  all: repeat (destruct H as [H|H]; [try discriminate H; repeat (injection H as H); apply append_inj_r in H; auto|]); destruct H.
Qed.

(** * Histories of both programs *)
Theorem C79_jobs js : forall f, exists es, performed f js = history f es
  /\ (forall n q, jobs_consistent n q js -> consistent n q es) /\ (forall n, (forall j, In j js -> ~ job_cut_short n j) -> forall e, In e es -> ~ cut_short n e) /\ forall n, ~ In (Also (RemoveCache n)) js -> ~ In (RemoveCache n) es.
Proof.
  induction js as [|j js IH]; intros f. { exists []. split; [reflexivity|]. split; [intros n q _ e q' []|]. split; [intros n _ e []|intros n _ []]. }
  assert (J : exists es, perform f j = history f es /\ forall e, In e es -> (exists e0, j = Also e0 /\ e = e0) \/ (exists c a s, j = Forward c a s /\ part_of j e)).
  { destruct j as [e|c a s]. exists [e]. split; [reflexivity|]. intros e' [<-|[]]. left. eauto. destruct (C79_as_events c a s f) as (es & H & P). exists es. split; [exact H|]. intros e He. right. exists c, a, s. auto. }
  destruct J as (e1 & E1 & P1). destruct (IH (perform f j)) as (e2 & E2 & A & B & R). exists (e1 ++ e2). split; [|split; [|split]].
  - cbn [FkOnly.performed fold_left]. fold (performed (perform f j) js). rewrite E2, E1. unfold Program.history. rewrite fold_left_app. reflexivity.
  - intros n q C e q' I U. apply in_app_or in I as [I|I]; [|refine (A n q _ e q' I U); intros x y Hx; apply C; right; auto].
    apply (C j q' (or_introl eq_refl)). destruct (P1 e I) as [(e0 & -> & ->)|(c & a & s & -> & X)]; [exact U|]. destruct e as [c0 a0 s0|chk q0 k|m|p t]; cbn [part_of] in X; cbn [uses] in U; try contradiction. destruct U as [-> <-]. destruct chk; [|contradiction]. apply X.
  - intros n C e I U. apply in_app_or in I as [I|I]; [|exact (B n (fun j Hj => C j (or_intror Hj)) e I U)].
    apply (C j (or_introl eq_refl)). destruct (P1 e I) as [(e0 & -> & ->)|(c & a & s & -> & X)]; [exact U|]. destruct e as [c0 a0 s0|chk q0 k|m|p t]; cbn [part_of] in X; cbn [cut_short] in U; try contradiction. destruct k; try contradiction. subst n. destruct chk; [|contradiction]. destruct X as [_ X]. exact (X eq_refl).
  - intros n C I. apply in_app_or in I as [I|I]; [|exact (R n (fun H => C (or_intror H)) I)]. destruct (P1 _ I) as [(e0 & -> & <-)|(c & a & s & -> & X)]; [apply C; left; auto|exact X].
Qed.
(** What C77 says about ikSolver.py holds with runs of fkOnly.py in between, whole or killed. *)
Theorem C79_ikSolver cat argv n d us f0 js : robot_name argv = Some n -> cat n = Described d us -> d_cache f0 n = Absent -> jobs_consistent n (request_of n d) js -> ~ odd_alpha nice (request_of n d) ->
  (forall j, In j js -> ~ job_cut_short n j) -> as_first cat argv (performed f0 js).
Proof. intros N D A C O K. destruct (C79_jobs js f0) as (es & -> & H1 & H2 & _). apply (C77_available sy nice show latex arg edges mats order vars cat argv n d us f0 es); auto. Qed.

(** * fkOnly.py in such a history *)
Definition fk_as_first (cat : string -> robot_result) (argv : list string) (f : dir) : Prop :=
  snd (fonly cat argv Finish f) = snd (fonly cat argv Finish empty_dir)
  /\ forall p, d_text (fst (fonly cat argv Finish empty_dir)) p <> NoFile -> d_text (fst (fonly cat argv Finish f)) p = d_text (fst (fonly cat argv Finish empty_dir)) p.
Lemma fk_finish cat argv n d us f : fk_robot_name argv = Some n -> cat n = Described d us -> fonly cat argv Finish f =
  (let '(c, o) := crun (d_cache f) true (request_of n d) Never in match o with Served v _ => let '(ws, r) := fwork v in (Dir c (puts (d_text f) ws), r) | _ => (Dir c (d_text f), FkNoKinematics o) end).
Proof. intros N D. unfold fk_only. rewrite N, D. destruct (crun _ _ _ _) as [c o]. destruct o; auto. Qed.
Lemma fk_same_work cat argv n d us f v v' h h' : fk_robot_name argv = Some n -> cat n = Described d us -> snd (crun (d_cache f) true (request_of n d) Never) = Served v h ->
  snd (crun (fun _ => Absent) true (request_of n d) Never) = Served v' h' -> fwork v = fwork v' -> fk_as_first cat argv f.
Proof.
  intros N D H H' W. unfold fk_as_first. rewrite !(fk_finish _ _ n d us) by auto. cbn [d_cache empty_dir]. destruct (crun (d_cache f) _ _ _) as [c o]. destruct (crun (fun _ => Absent) _ _ _) as [c' o']. cbn [snd] in H, H'. subst o o'.
  rewrite W. destruct (fwork v') as [ws r]. cbn [fst snd d_text]. split; auto. intros p P. apply puts_in. apply puts_empty. exact P.
Qed.
Theorem C79_first_run cat argv n d us f : fk_robot_name argv = Some n -> cat n = Described d us -> d_cache f n = Absent -> fk_as_first cat argv f.
Proof.
  intros N D A. destruct (compute (request_of n d)) as [[m u]|] eqn:E.
  - apply (fk_same_work cat argv n d us f (View m u n (m_params m)) (View m u n (m_params m)) false false); auto; unfold Cache.run; cbn [q_name request_of]; rewrite ?A, E; reflexivity.
  - unfold fk_as_first. rewrite !(fk_finish _ _ n d us) by auto. cbn [d_cache empty_dir]. unfold Cache.run. cbn [q_name request_of]. rewrite A. cbn [d_cache empty_dir]. rewrite E. cbn [fst snd d_text]. split; auto. intros p P. exfalso. apply P. reflexivity.
Qed.
Lemma fk_work_ends v o : snd (fwork v) <> FkNoKinematics o.
Proof. destruct (fk_work_cases v) as [->|(ps & py & _ & _ & ->)]; discriminate. Qed.
Theorem C79_reproducible cat argv n d us f0 js : fk_robot_name argv = Some n -> cat n = Described d us -> d_cache f0 n = Absent -> jobs_consistent n (request_of n d) js -> ~ odd_alpha nice (request_of n d) ->
  let f := performed f0 js in (snd (fonly cat argv Finish f) = FkNoKinematics LoadError \/ fk_as_first cat argv f) /\ ((forall j, In j js -> ~ job_cut_short n j) -> fk_as_first cat argv f).
Proof.
  intros N D A C O f. destruct (C79_jobs js f0) as (es & E0 & H1 & H2 & _). subst f. rewrite E0. set (f := history f0 es). assert (F : fresh sy nice (request_of n d) (d_cache f)). { apply history_fresh; auto. unfold fresh. cbn [q_name request_of]. rewrite A. exact I. }
  assert (G : snd (fonly cat argv Finish f) = FkNoKinematics LoadError \/ fk_as_first cat argv f).
  { destruct (served_fresh sy nice _ _ F) as [H|[[E H]|(m & u & hit & E & H & Hh)]].
    - left. rewrite (fk_finish _ _ n d us) by auto. destruct (crun _ _ _ _) as [c o]. cbn [snd] in H. subst o. reflexivity.
    - right. unfold fk_as_first. rewrite !(fk_finish _ _ n d us) by auto. cbn [d_cache empty_dir]. assert (X : snd (crun (fun _ => Absent) true (request_of n d) Never) = FkError) by (unfold Cache.run; rewrite E; reflexivity).
      destruct (crun (d_cache f) _ _ _) as [c o]. destruct (crun (fun _ => Absent) _ _ _) as [c' o']. cbn [snd] in H, X. subst o o'. cbn [fst snd d_text]. split; auto. intros p P. exfalso. apply P. reflexivity.
    - right. apply (fk_same_work cat argv n d us f (scratch (request_of n d) hit m u) (scratch (request_of n d) false m u) hit false); auto.
      + unfold Cache.run. rewrite E. reflexivity.
      + assert (P : scratch (request_of n d) hit m u = scratch (request_of n d) false m u); [|rewrite P; auto]. unfold scratch. f_equal. destruct hit; auto. rewrite (proj2 (compute_dh sy nice _ _ _ E)).
        unfold odd_alpha in O. destruct (alpha_params nice 0 (q_dh (request_of n d))) as [|a l]; [symmetry; apply app_nil_r|]. exfalso. apply O. discriminate. }
  split; auto. intros K. destruct G as [G|G]; auto. exfalso. assert (U : d_cache f n <> Partial).
  { assert (H : d_cache f0 n <> Partial) by (rewrite A; discriminate). assert (K' := H2 n K). subst f. clear - K' H. revert f0 H. induction es as [|e es IH]; intros f0 H; auto. cbn [Program.history fold_left]. apply IH. intros e' I. apply K'. right. auto. apply happen_untorn; auto. apply K'. left. auto. }
  rewrite (fk_finish _ _ n d us) in G by auto. unfold Cache.run in G. cbn [q_name request_of] in G. destruct (d_cache f n) as [| |m u]; [|congruence|].
  - destruct (compute (request_of n d)) as [[m u]|]; [|discriminate]. match type of G with context [fwork ?v] => assert (X := fk_work_ends v LoadError); destruct (fwork v) as [ws r] end. exact (X G).
  - destruct (negb true || _); [|discriminate]. match type of G with context [fwork ?v] => assert (X := fk_work_ends v LoadError); destruct (fwork v) as [ws r] end. exact (X G).
Qed.
(** A torn cache file stays until it is removed; and a description with fewer than six joint kinds never gets kinematics. *)
Theorem C79_torn cat argv n d us f js : fk_robot_name argv = Some n -> cat n = Described d us -> d_cache f n = Partial -> ~ In (Also (RemoveCache n)) js ->
  fonly cat argv Finish (performed f js) = (performed f js, FkNoKinematics LoadError) /\ fk_as_first cat argv (perform (performed f js) (Also (RemoveCache n))).
Proof.
  intros N D H K. destruct (C79_jobs js f) as (es & -> & _ & _ & R). assert (K' := R n K).
  assert (P : d_cache (history f es) n = Partial). { clear - K' H. revert f H. induction es as [|e es IH]; intros f H; auto. cbn [Program.history fold_left]. apply IH. intros X. apply K'. right. auto. apply happen_torn; auto. intros ->. apply K'. left. auto. }
  split.
  - rewrite (fk_finish _ _ n d us) by auto. unfold Cache.run. cbn [q_name request_of]. rewrite P. destruct (history f es). reflexivity.
  - apply (C79_first_run cat argv n d us); auto. cbn [FkOnly.perform Program.happen d_cache]. apply write_same.
Qed.
Theorem C79_changed_robot cat argv n d us f m u : fk_robot_name argv = Some n -> cat n = Described d us -> d_cache f n = Full m u -> m_dh m <> rd_dh d ->
  fonly cat argv Finish f = (f, FkNoKinematics Rejected).
Proof.
  intros N D H K. rewrite (fk_finish _ _ n d us) by auto. unfold Cache.run. cbn [q_name request_of]. rewrite H. cbn [negb orb q_dh request_of]. destruct (same_dh (m_dh m) (rd_dh d)) eqn:E. { apply same_dh_eq in E. tauto. } destruct f. reflexivity.
Qed.
(** The report does not show the parameters: it is the same for every run after a consistent history, inclined axes or not - unless the Python program could not be written, which comes first. *)
Theorem C79_report cat argv n d us f0 js : fk_robot_name argv = Some n -> cat n = Described d us -> d_cache f0 n = Absent -> jobs_consistent n (request_of n d) js ->
  let p := append "LaTex/fk_equations_" (append (clean_name n) ".tex") in let f := performed f0 js in
  snd (fonly cat argv Finish empty_dir) = FkDone -> snd (fonly cat argv Finish f) = FkDone ->
  exists m rb, m_dh m = rd_dh d /\ r_name rb = n /\ prepared sy nice (rd_vars d) (rd_dh d) = Some (m_kin m) /\
    d_text (fst (fonly cat argv Finish f)) p = Whole (file_text (output_FK_equations rb (mats m))) /\ d_text (fst (fonly cat argv Finish f)) p = d_text (fst (fonly cat argv Finish empty_dir)) p.
Proof.
  intros N D A C p f E0 E1. destruct (C79_jobs js f0) as (es & Ef & H1 & _). subst f. rewrite Ef in *. set (f := history f0 es) in *.
  assert (F : fresh sy nice (request_of n d) (d_cache f)). { apply history_fresh; auto. unfold fresh. cbn [q_name request_of]. rewrite A. exact I. }
  rewrite (fk_finish _ _ n d us) in * by auto. rewrite (fk_finish _ _ n d us) in * by auto. cbn [d_cache empty_dir] in *.
  destruct (served_fresh sy nice _ _ F) as [H|[[E H]|(m & u & hit & E & H & Hh)]].
  - destruct (crun (d_cache f) _ _ _) as [c o]. cbn [snd] in H. subst o. discriminate.
  - destruct (crun (d_cache f) _ _ _) as [c o]. cbn [snd] in H. subst o. discriminate.
  - assert (H0 : snd (crun (fun _ => Absent) true (request_of n d) Never) = Served (scratch (request_of n d) false m u) false) by (unfold Cache.run; rewrite E; reflexivity).
    destruct (crun (d_cache f) _ _ _) as [c o]. destruct (crun (fun _ => Absent) _ _ _) as [c' o']. cbn [snd] in H, H0. subst o o'.
    assert (K : prepared sy nice (rd_vars d) (rd_dh d) = Some (m_kin m)). { unfold Cache.compute, fk_main in E. cbn [request_of q_dh q_vv q_unks] in E. destruct (6 <=? _); [|discriminate]. destruct (prepared _ _ _ _); [|discriminate]. injection E as <- _. reflexivity. }
    assert (W : forall v g, v_name v = n -> v_mech v = m -> snd (fwork v) = FkDone -> exists rb, r_name rb = n /\ puts g (fst (fwork v)) p = Whole (file_text (output_FK_equations rb (mats m)))).
    { intros v g Nv Mv Dv. destruct (fk_work_cases v) as [X|(ps & py & _ & _ & X)]; rewrite X in *; [discriminate Dv|]. exists (fk_robot v ps). split; [exact Nv|]. cbn [fst puts fold_left]. unfold put. cbn [fst snd]. rewrite Nv, Mv. unfold p. rewrite String.eqb_refl. reflexivity. }
    assert (W1 := W (scratch (request_of n d) hit m u) (d_text f) eq_refl eq_refl). assert (W2 := W (scratch (request_of n d) false m u) (fun _ => NoFile) eq_refl eq_refl).
    destruct (fwork (scratch (request_of n d) hit m u)) as [ws r]. destruct (fwork (scratch (request_of n d) false m u)) as [ws' r']. cbn [fst snd d_text empty_dir] in *.
    destruct (W1 E1) as (rb & Nb & P1). destruct (W2 E0) as (rb' & Nb' & P2). exists m, rb. split; [apply (compute_dh sy nice _ _ _ E)|]. split; auto. split; auto. split; auto. rewrite P1, P2. unfold output_FK_equations, tex_name. rewrite Nb, Nb'. reflexivity.
Qed.
End C79.
(** MiniDD: no files *)
Theorem C79_minidd sy nice trigsimp show mats script f : d_cache f "MiniDD" = Absent -> fk_only sy nice trigsimp show mats robot_params [script; "MiniDD"] Finish f = (f, FkNoKinematics FkError).
Proof.
  intros A. rewrite (fk_finish sy nice trigsimp show mats robot_params [script; "MiniDD"] "MiniDD" r_MiniDD (number_from 1 (rd_vars r_MiniDD)) f eq_refl eq_refl). unfold Cache.run. cbn [q_name request_of]. rewrite A. unfold Cache.compute, fk_main. cbn [q_dh q_vv q_unks request_of].
  assert (L : (6 <=? List.length (rd_vv r_MiniDD)) = false) by (vm_compute; reflexivity). rewrite L. destruct f. reflexivity.
Qed.
Print Assumptions C79_arguments. Print Assumptions C79_as_events. Print Assumptions C79_frame. Print Assumptions C79_separate. Print Assumptions C79_jobs. Print Assumptions C79_ikSolver. Print Assumptions C79_first_run. Print Assumptions C79_reproducible. Print Assumptions C79_torn. Print Assumptions C79_changed_robot. Print Assumptions C79_report. Print Assumptions C79_minidd.
