(** C77: what runs of the whole program leave in the directory, for every history of runs, crashes, other programs and edits. *)
From Coq Require Import Reals ZArith List String Ascii Bool Arith Lia.
From Verif Require Import Expr Kin Solver SolSet PropHist CodeGen PyFile Latex TexFile PropTexFile Session Robots Cache PropCache PropEndToEnd Program.
Import ListNotations.
Local Open Scope string_scope.
Local Open Scope list_scope.
Local Open Scope nat_scope.

(** * Specification *)
(** the files a robot's run writes, by the robot's name without 'test: ' *)
Definition outputs_of (n : string) : list string :=
  [append "LaTex/ik_solution_" (append (clean_name n) ".tex"); append "CodeGen/Python/IK_equations" (append (clean_name n) ".py"); append "CodeGen/Cpp/IK_equations" (append (clean_name n) ".cpp")].
(** the event computes or reads the kinematics of robot [n], described by [q] *)
Definition uses (n : string) (q : @request (list nat) (list string)) (e : event) : Prop :=
  match e with
  | Solve cat argv _ => robot_name argv = Some n /\ exists d us, cat n = Described d us /\ q = request_of n d
  | Other _ q0 _ => q0 = q /\ q_name q = n
  | _ => False
  end.
(** all of them with one description *)
Definition consistent (n : string) (q : @request (list nat) (list string)) (es : list event) : Prop := forall e q', In e es -> uses n q' e -> q' = q.
(** the process was killed while it wrote the cache file of [n] *)
Definition cut_short (n : string) (e : event) : Prop :=
  match e with
  | Solve _ argv (Caching DuringDump) => robot_name argv = Some n
  | Other _ q DuringDump => q_name q = n
  | _ => False
  end.

Section C77.
Context (sy : sympy) (nice : expr -> bool) (show latex : expr -> string) (arg : state -> nat -> expr) (edges : state -> list (string * string))
  (mats : @mech (list nat) state -> matrices) (order : list row -> list row) (vars : list row -> list string).
Local Notation work := (work sy nice show latex arg edges mats order vars). Local Notation main := (main sy nice show latex arg edges mats order vars).
Local Notation history := (history sy nice show latex arg edges mats order vars). Local Notation happen := (happen sy nice show latex arg edges mats order vars).
Local Notation fkm := (fk_main sy nice). Local Notation crun := (Cache.run nice fkm). Local Notation compute := (compute nice fkm).

(** * The files of one run *)
Lemma call_name s c s' o h e m : do_call show latex e m order vars s c = Some (s', o) -> h = ss_name s -> ss_name s' = h.
Proof.
  destruct c; cbn [do_call]; intros H ->.
  - injection H as <- _. reflexivity.
  - destruct (ss_table s); [|discriminate]. destruct (make_LHS_versions _ _); [|discriminate]. destruct (output_latex_solution _ _ _ _ _ _); [|discriminate]. injection H as <- _. reflexivity.
  - destruct (ss_table s); [|discriminate]. destruct (output_python_code _ _ _); [|discriminate]. injection H as <- _. reflexivity.
  - destruct (ss_table s); [|discriminate]. destruct (output_cpp_code _ _ _ _); [|discriminate]. injection H as <- _. reflexivity.
Qed.
Lemma sol_name r n : r_name r = n -> solution_filename r = append "LaTex/ik_solution_" (append (clean_name n) ".tex").
Proof. intros <-. apply (proj1 (C59_file_names r r)). Qed.
Lemma work_files v : exists k, map fst (fst (work v)) = firstn k (outputs_of (v_name v)).
Proof.
  unfold Program.work. destruct (ik_solve _ _) as [b s|]; [|exists 0; reflexivity]. cbv zeta. destruct (do_call _ _ _ _ _ _ _ Create) as [[s1 o1]|] eqn:E1; [|exists 0; reflexivity].
  assert (N1 := call_name _ _ _ _ (v_name v) _ _ E1 eq_refl).
  destruct (do_call _ _ _ _ _ _ s1 Report) as [[s2 o2]|] eqn:E2; [|exists 0; reflexivity]. assert (N2 := call_name _ _ _ _ (v_name v) _ _ E2 (eq_sym N1)).
  assert (F : solution_filename (robot_of s2) = append "LaTex/ik_solution_" (append (clean_name (v_name v)) ".tex")) by (apply sol_name; exact N2).
  destruct (param_texts _ _ _ _); [|exists 2; cbn [map fst]; rewrite F; reflexivity]. destruct (do_call _ _ _ _ _ _ s2 Python) as [[s3 o3]|] eqn:E3; [|exists 2; cbn [map fst]; rewrite F; reflexivity].
  destruct (do_call _ _ _ _ _ _ s3 Cplusplus) as [[s4 o4]|]; exists 3; cbn [map fst]; rewrite F; reflexivity.
Qed.
Lemma puts_other p : forall ws f, ~ In p (map fst ws) -> puts f ws p = f p.
Proof.
  induction ws as [|w ws IH]; intros f H; auto. cbn [puts fold_left]. fold (puts (put f w) ws). rewrite IH by (intros X; apply H; right; auto). unfold put. destruct (String.eqb_spec (fst w) p) as [<-|]; auto. exfalso. apply H. left. auto.
Qed.
Lemma firstn_in {A} (l : list A) k x : In x (firstn k l) -> In x l.
Proof. revert k. induction l; intros [|k]; cbn; intuition eauto. Qed.
Lemma done_in ws k torn p : In p (map fst (done_before ws k torn)) -> In p (map fst ws).
Proof.
  unfold done_before. rewrite map_app, in_app_iff. intros [H|H].
  - apply in_map_iff in H as (w & <- & H). apply in_map. eapply firstn_in; eauto.
  - destruct torn; [|destruct H]. destruct (nth_error ws k) as [w|] eqn:E; [|destruct H]. cbn in H. destruct H as [<-|[]]. apply in_map. eapply nth_error_In; eauto.
Qed.
Lemma work_in v p : In p (map fst (fst (work v))) -> In p (outputs_of (v_name v)).
Proof. destruct (work_files v) as (k & ->). apply firstn_in. Qed.
Lemma served_name c chk (q : @request (list nat) (list string)) k v h : snd (crun c chk q k) = Served v h -> v_name v = q_name q.
Proof.
  unfold Cache.run. destruct (c (q_name q)) as [| |m u].
  - destruct k; cbn [snd]; try discriminate; destruct (compute q) as [[m u]|]; cbn [snd]; try discriminate. intros H. injection H as <- _. auto.
  - destruct k; discriminate.
  - destruct k; cbn [snd]; try discriminate. destruct (_ || _); [|discriminate]. intros H. injection H as <- _. auto.
Qed.

(** With no argument the robot is Wrist; with more than one, or an unknown name, nothing is touched. *)
Theorem C77_arguments cat st f :
  (forall script, main cat [script] st f = main cat [script; "Wrist"] st f)
  /\ (forall script a b l, main cat (script :: a :: b :: l) st f = (f, NameErr))
  /\ (forall script n, cat n = Quits -> main cat [script; n] st f = (f, Exits)).
Proof. split; [|split]; intros; try reflexivity. unfold Program.main. cbn [robot_name]. rewrite H. reflexivity. Qed.
(** A run touches only its robot's cache file and output files. *)
Theorem C77_frame cat argv st f f' r : main cat argv st f = (f', r) ->
  (forall n, robot_name argv <> Some n -> d_cache f' n = d_cache f n)
  /\ (forall p, (forall n, robot_name argv = Some n -> ~ In p (outputs_of n)) -> d_text f' p = d_text f p).
Proof.
  unfold Program.main. destruct (robot_name argv) as [n|] eqn:N; [|intros H; injection H as <- _; auto].
  destruct (cat n) as [| |d us]; [intros H; injection H as <- _; auto|intros H; injection H as <- _; auto|].
  destruct (crun (d_cache f) true (request_of n d) _) as [c o] eqn:E.
  assert (C : forall n', Some n <> Some n' -> c n' = d_cache f n').
  { intros n' D. rewrite <- (run_other nice fkm (d_cache f) true (request_of n d) (match st with Caching k => k | _ => Never end) n'). rewrite E. reflexivity. cbn [q_name request_of]. congruence. }
  assert (V : forall v h, o = Served v h -> v_name v = n). { intros v h ->. apply (served_name (d_cache f) true (request_of n d) (match st with Caching k => k | _ => Never end) v h). rewrite E. reflexivity. }
  assert (T : forall ws v h, o = Served v h -> (forall p, In p (map fst ws) -> In p (map fst (fst (work v)))) -> forall p, (forall n0, Some n = Some n0 -> ~ In p (outputs_of n0)) -> puts (d_text f) ws p = d_text f p).
  { intros ws v h Ho S p P. apply puts_other. intros X. apply (P n eq_refl). rewrite <- (V v h Ho). apply work_in. auto. }
  destruct o as [v h| | | |]; try (intros H; injection H as <- _; cbn [d_cache d_text]; auto; fail).
  destruct st as [|k|k torn].
  - destruct (work v) as [ws r'] eqn:W. intros H. injection H as <- _. cbn [d_cache d_text]. split; auto. apply (T ws v h eq_refl). rewrite W. auto.
  - intros H. injection H as <- _. auto.
  - intros H. injection H as <- _. cbn [d_cache d_text]. split; auto. apply (T _ v h eq_refl). apply done_in.
Qed.
(** The output files of two robots are different files if their names differ by more than 'test: '; the three files of a robot are different. *)
Theorem C77_separate n n' p : In p (outputs_of n) -> In p (outputs_of n') -> clean_name n = clean_name n'.
Proof.
  unfold outputs_of. intros [<-|[<-|[<-|[]]]] [H|[H|[H|[]]]]; try discriminate H; cbn [append] in H.
  all: repeat (injection H as H); apply append_inj_r in H; auto.
Qed.
Theorem C77_three_files n : NoDup (outputs_of n).
Proof. unfold outputs_of. cbn [append]. repeat constructor; cbn [In]; intuition discriminate. Qed.

(** * Runs from the same kinematics *)
Definition fresh (q : @request (list nat) (list string)) (c : @store (list nat) (list string) state) : Prop := match c (q_name q) with Full m u => compute q = Some (m, u) | _ => True end.
Lemma compute_dh q m u : compute q = Some (m, u) -> m_dh m = q_dh q /\ m_params m = q_params q ++ map fst (alpha_params nice 0 (q_dh q)).
Proof. unfold Cache.compute. destruct (fkm _ _ _) as [[k u']|]; [|discriminate]. intros H. injection H as <- _. auto. Qed.
Lemma run_fresh c chk q k : fresh q c -> fresh q (fst (crun c chk q k)).
Proof.
  unfold fresh, Cache.run. destruct (c (q_name q)) as [| |m u] eqn:E.
  - intros _. destruct k; cbn [fst]; rewrite ?E; auto; destruct (compute q) as [[m u]|]; cbn [fst]; rewrite ?E, ?write_same; auto.
  - intros _. destruct k; cbn [fst]; rewrite E; auto.
  - intros H. destruct k; cbn [fst]; rewrite E; auto.
Qed.
Lemma main_cache cat argv st f : d_cache (fst (main cat argv st f)) = match robot_name argv with
  | Some n => match cat n with Described d _ => fst (crun (d_cache f) true (request_of n d) (match st with Caching k => k | _ => Never end)) | _ => d_cache f end
  | None => d_cache f end.
Proof.
  unfold Program.main. destruct (robot_name argv); auto. destruct (cat s); auto. destruct (crun _ _ _ _) as [c o]. cbn [fst]. destruct o; auto. destruct st; auto. destruct (work v). reflexivity.
Qed.
Lemma happen_fresh q e f : (forall q', uses (q_name q) q' e -> q' = q) -> fresh q (d_cache f) -> fresh q (d_cache (happen f e)).
Proof.
  intros U H. destruct e as [cat argv st|chk q0 k|n|p t]; cbn [Program.happen].
  - rewrite main_cache. destruct (robot_name argv) as [n|] eqn:N; auto. destruct (cat n) as [| |d us] eqn:D; auto.
    destruct (string_dec n (q_name q)) as [->|X].
    + rewrite (U (request_of (q_name q) d)); [apply run_fresh; auto|]. cbn [uses]. eauto.
    + unfold fresh. rewrite run_other by exact X. exact H.
  - cbn [d_cache]. destruct (string_dec (q_name q0) (q_name q)) as [X|X].
    + rewrite (U q0); [apply run_fresh; auto|]. cbn [uses]. auto.
    + unfold fresh. rewrite run_other by exact X. exact H.
  - cbn [d_cache]. unfold fresh, write. destruct (String.eqb n (q_name q)); auto.
  - exact H.
Qed.
Lemma history_fresh q es : forall f, consistent (q_name q) q es -> fresh q (d_cache f) -> fresh q (d_cache (history f es)).
Proof.
  induction es as [|e es IH]; intros f C H; auto. cbn [Program.history fold_left]. apply IH. { intros e' q' I. apply C. right. auto. } apply happen_fresh; auto. intros q'. apply C. left. auto.
Qed.
(** what a run with all kinematics at hand does *)
Lemma finish cat argv n d us f : robot_name argv = Some n -> cat n = Described d us -> main cat argv Finish f =
  (let '(c, o) := crun (d_cache f) true (request_of n d) Never in match o with Served v _ => let '(ws, r) := work v in (Dir c (puts (d_text f) ws), r) | _ => (Dir c (d_text f), NoKinematics o) end).
Proof. intros N D. unfold Program.main. rewrite N, D. destruct (crun _ _ _ _) as [c o]. destruct o; auto. Qed.
Definition scratch (q : @request (list nat) (list string)) (hit : bool) (m : @mech (list nat) state) (u : list string) : @view (list nat) (list string) state := View m u (q_name q) (if hit then q_params q else m_params m).
Lemma served_fresh c q : fresh q c -> snd (crun c true q Never) = LoadError \/ (compute q = None /\ snd (crun c true q Never) = FkError)
  \/ exists m u hit, compute q = Some (m, u) /\ snd (crun c true q Never) = Served (scratch q hit m u) hit /\ hit = (match c (q_name q) with Absent => false | _ => true end).
Proof.
  unfold fresh, Cache.run. destruct (c (q_name q)) as [| |m u].
  - intros _. right. destruct (compute q) as [[m u]|]; [right; exists m, u, false; auto|left; auto].
  - intros _. left. reflexivity.
  - intros E. right. right. exists m, u, true. split; auto. split; auto. cbn [negb orb snd]. replace (same_dh (m_dh m) (q_dh q)) with true; auto. symmetry. apply same_dh_eq. apply (compute_dh _ _ _ E).
Qed.
Lemma puts_in ws : forall f g p, In p (map fst ws) -> puts f ws p = puts g ws p.
Proof.
  induction ws as [|w ws IH]; intros f g p H; [destruct H|]. cbn [puts fold_left]. fold (puts (put f w) ws) (puts (put g w) ws). destruct (in_dec string_dec p (map fst ws)) as [I|I]; [auto|].
  rewrite !puts_other by auto. destruct H as [<-|H]; [|tauto]. unfold put. rewrite String.eqb_refl. auto.
Qed.
Lemma puts_empty ws p : puts (fun _ => NoFile) ws p <> NoFile -> In p (map fst ws).
Proof. intros H. destruct (in_dec string_dec p (map fst ws)); auto. exfalso. apply H. apply puts_other. auto. Qed.
(** the run in [f] ends as one in an empty directory, and leaves what that one leaves *)
Definition as_first (cat : string -> robot_result) (argv : list string) (f : dir) : Prop :=
  snd (main cat argv Finish f) = snd (main cat argv Finish empty_dir)
  /\ forall p, d_text (fst (main cat argv Finish empty_dir)) p <> NoFile -> d_text (fst (main cat argv Finish f)) p = d_text (fst (main cat argv Finish empty_dir)) p.
Lemma same_work cat argv n d us f v v' h h' : robot_name argv = Some n -> cat n = Described d us -> snd (crun (d_cache f) true (request_of n d) Never) = Served v h ->
  snd (crun (fun _ => Absent) true (request_of n d) Never) = Served v' h' -> work v = work v' -> as_first cat argv f.
Proof.
  intros N D H H' W. unfold as_first. rewrite !(finish _ _ n d us) by auto. cbn [d_cache empty_dir]. destruct (crun (d_cache f) _ _ _) as [c o]. destruct (crun (fun _ => Absent) _ _ _) as [c' o']. cbn [snd] in H, H'. subst o o'.
  rewrite W. destruct (work v') as [ws r]. cbn [fst snd d_text]. split; auto. intros p P. apply puts_in. apply puts_empty. exact P.
Qed.
(** A run that finds no cache file ends as in an empty directory, and leaves the same files. *)
Theorem C77_first_run cat argv n d us f : robot_name argv = Some n -> cat n = Described d us -> d_cache f n = Absent -> as_first cat argv f.
Proof.
  intros N D A. destruct (compute (request_of n d)) as [[m u]|] eqn:E.
  - apply (same_work cat argv n d us f (View m u n (m_params m)) (View m u n (m_params m)) false false); auto; unfold Cache.run; cbn [q_name request_of]; rewrite ?A, E; reflexivity.
  - unfold as_first. rewrite !(finish _ _ n d us) by auto. cbn [d_cache empty_dir]. unfold Cache.run. cbn [q_name request_of]. rewrite A. cbn [d_cache empty_dir]. rewrite E. cbn [fst snd d_text]. split; auto. intros p P. exfalso. apply P. reflexivity.
Qed.
(** After any history in which the robot had one description and no inclined axes, a run raises at a torn cache file or ends as a run in an empty directory and leaves the same files, whatever was killed, whatever other programs and
    robots ran, and whatever happened to the output files. *)
Theorem C77_reproducible cat argv n d us f0 es : robot_name argv = Some n -> cat n = Described d us -> d_cache f0 n = Absent -> consistent n (request_of n d) es -> ~ odd_alpha nice (request_of n d) ->
  let f := history f0 es in snd (main cat argv Finish f) = NoKinematics LoadError \/ as_first cat argv f.
Proof.
  intros N D A C O f. assert (F : fresh (request_of n d) (d_cache f)). { apply history_fresh; auto. unfold fresh. cbn [q_name request_of]. rewrite A. exact I. }
  destruct (served_fresh _ _ F) as [H|[[E H]|(m & u & hit & E & H & Hh)]].
  - left. rewrite (finish _ _ n d us) by auto. destruct (crun _ _ _ _) as [c o]. cbn [snd] in H. subst o. reflexivity.
  - right. unfold as_first. rewrite !(finish _ _ n d us) by auto. cbn [d_cache empty_dir]. assert (X : snd (crun (fun _ => Absent) true (request_of n d) Never) = FkError) by (unfold Cache.run; rewrite E; reflexivity).
    destruct (crun (d_cache f) _ _ _) as [c o]. destruct (crun (fun _ => Absent) _ _ _) as [c' o']. cbn [snd] in H, X. subst o o'. cbn [fst snd d_text]. split; auto. intros p P. exfalso. apply P. reflexivity.
  - right. apply (same_work cat argv n d us f (scratch (request_of n d) hit m u) (scratch (request_of n d) false m u) hit false); auto.
    + unfold Cache.run. rewrite E. reflexivity.
    + assert (P : scratch (request_of n d) hit m u = scratch (request_of n d) false m u); [|rewrite P; auto]. unfold scratch. f_equal. destruct hit; auto. rewrite (proj2 (compute_dh _ _ _ E)).
      unfold odd_alpha in O. destruct (alpha_params nice 0 (q_dh (request_of n d))) as [|a l]; [symmetry; apply app_nil_r|]. exfalso. apply O. discriminate.
Qed.
(** The cache file can only be torn by a process killed while it wrote it. *)
Lemma run_untorn c chk q k n : c n <> Partial -> ~ (q_name q = n /\ k = DuringDump) -> fst (crun c chk q k) n <> Partial.
Proof.
  intros H K. destruct (string_dec (q_name q) n) as [<-|X]; [|rewrite run_other by auto; auto]. unfold Cache.run. destruct (c (q_name q)) as [| |m u] eqn:E; [|tauto|].
  - destruct k; cbn [fst]; rewrite ?E; try discriminate; destruct (compute q) as [[m u]|]; cbn [fst]; rewrite ?E, ?write_same; try discriminate. tauto.
  - destruct k; cbn [fst]; rewrite E; discriminate.
Qed.
Lemma happen_untorn n e f : ~ cut_short n e -> d_cache f n <> Partial -> d_cache (happen f e) n <> Partial.
Proof.
  intros K H. destruct e as [cat argv st|chk q0 k|n'|p t]; cbn [Program.happen].
  - rewrite main_cache. destruct (robot_name argv) as [n'|] eqn:N; auto. destruct (cat n') as [| |d us]; auto. apply run_untorn; auto. cbn [q_name request_of]. intros [-> E]. apply K. destruct st as [|k|]; try discriminate E. subst k. exact N.
  - apply run_untorn; auto. intros [X ->]. apply K. exact X.
  - cbn [d_cache]. unfold write. destruct (String.eqb n' n); [discriminate|auto].
  - exact H.
Qed.
Theorem C77_available cat argv n d us f0 es : robot_name argv = Some n -> cat n = Described d us -> d_cache f0 n = Absent -> consistent n (request_of n d) es -> ~ odd_alpha nice (request_of n d) ->
  (forall e, In e es -> ~ cut_short n e) -> as_first cat argv (history f0 es).
Proof.
  intros N D A C O K. assert (U : d_cache (history f0 es) n <> Partial).
  { assert (H : d_cache f0 n <> Partial) by (rewrite A; discriminate). clear A C. revert f0 H. induction es as [|e es IH]; intros f0 H; auto. cbn [Program.history fold_left]. apply IH. intros e' I. apply K. right. auto. apply happen_untorn; auto. apply K. left. auto. }
  destruct (C77_reproducible cat argv n d us f0 es N D A C O) as [H|H]; auto. exfalso. rewrite (finish _ _ n d us) in H by auto. unfold Cache.run in H. cbn [q_name request_of] in H.
  destruct (d_cache (history f0 es) n) as [| |m u]; [|congruence|].
  - destruct (compute (request_of n d)) as [[m u]|]; [destruct (work _) as [ws r] eqn:W|]; cbn [snd] in H; [|discriminate]. assert (Y := W). unfold Program.work in Y. destruct (ik_solve _ _); [|injection Y as _ <-; discriminate]. cbv zeta in Y.
    repeat match type of Y with context [match ?x with _ => _ end] => destruct x end; injection Y as _ <-; discriminate.
  - destruct (negb true || _); [|discriminate]. destruct (work _) as [ws r] eqn:W. cbn [snd] in H. assert (Y := W). unfold Program.work in Y. destruct (ik_solve _ _); [|injection Y as _ <-; discriminate]. cbv zeta in Y.
    repeat match type of Y with context [match ?x with _ => _ end] => destruct x end; injection Y as _ <-; discriminate.
Qed.
(** A torn cache file stays, and every run of the robot raises and writes nothing, until somebody removes it; then runs are as in an empty directory. *)
Lemma happen_torn n e f : e <> RemoveCache n -> d_cache f n = Partial -> d_cache (happen f e) n = Partial.
Proof.
  intros K H. assert (H' : d_cache f n <> Absent) by (rewrite H; discriminate). destruct e as [cat argv st|chk q0 k|n'|p t]; cbn [Program.happen].
  - rewrite main_cache. destruct (robot_name argv) as [n'|]; auto. destruct (cat n') as [| |d us]; auto. rewrite run_kept; auto.
  - cbn [d_cache]. rewrite run_kept; auto.
  - cbn [d_cache]. rewrite write_other; auto. congruence.
  - exact H.
Qed.
Theorem C77_torn cat argv n d us f es : robot_name argv = Some n -> cat n = Described d us -> d_cache f n = Partial -> ~ In (RemoveCache n) es ->
  main cat argv Finish (history f es) = (history f es, NoKinematics LoadError) /\ as_first cat argv (happen (history f es) (RemoveCache n)).
Proof.
  intros N D H K. assert (P : d_cache (history f es) n = Partial). { revert f H. induction es as [|e es IH]; intros f H; auto. cbn [Program.history fold_left]. apply IH. intros X. apply K. right. auto. apply happen_torn; auto. intros ->. apply K. left. auto. }
  split.
  - rewrite (finish _ _ n d us) by auto. unfold Cache.run. cbn [q_name request_of]. rewrite P. destruct (history f es). reflexivity.
  - apply (C77_first_run cat argv n d us); auto. cbn [Program.happen d_cache]. apply write_same.
Qed.
(** The report is the same for all robots, inclined axes or not: it does not show the parameters. *)
Lemma version_blocks nm ps ps' pv pv' nd eq ns : mapM (version_block latex (Robot nm ps pv nd eq)) ns = mapM (version_block latex (Robot nm ps' pv' nd eq)) ns.
Proof. reflexivity. Qed.
Lemma report_params nm ps ps' pv pv' nd tb eq e m : 
  option_map (fun so => (ss_name (fst so), snd so)) (do_call show latex e m order vars (Session nm ps pv nd tb eq) Report)
  = option_map (fun so => (ss_name (fst so), snd so)) (do_call show latex e m order vars (Session nm ps' pv' nd tb eq) Report).
Proof.
  cbn [do_call ss_table ss_nodes ss_eqns ss_name]. destruct tb as [t|]; auto. destruct (make_LHS_versions nd t) as [F|]; auto. unfold output_latex_solution, versions_sec, robot_of. cbn [r_nodes r_eqns ss_name ss_nodes ss_eqns ss_params ss_pvals].
  rewrite (version_blocks nm ps ps' pv pv' nd (eq ++ F) nd). destruct (generic_sec latex solution_names nd); auto. destruct (mapM (version_block latex _) nd); auto. destruct (table_sec (order t)); auto.
Qed.
(** what is written first *)
Definition first_file (v : @view (list nat) (list string) state) : option text :=
  match ik_solve sy (m_kin (v_mech v)) with
  | Raise => None
  | OK b s => match do_call show latex (edges s) (mats (v_mech v)) order vars (Session (v_name v) [] false (create_nodes [] (final_nodes (arg s) s)) (Some (create_solution_set (final_nodes (arg s) s))) []) Report with
              | None => None | Some so => Some (Whole (file_text (snd so))) end
  end.
Lemma work_first v : match first_file v with None => fst (work v) = [] | Some t => exists rest, fst (work v) = (append "LaTex/ik_solution_" (append (clean_name (v_name v)) ".tex"), t) :: rest end.
Proof.
  unfold first_file, Program.work. destruct (ik_solve _ _) as [b s|]; [|reflexivity]. cbv zeta. unfold solved_session. match goal with |- context [Session (v_name v) ?p ?q (final_nodes _ _) None []] => set (P := p); set (Q := q) end.
  assert (R := report_params (v_name v) P [] Q false (create_nodes [] (final_nodes (arg s) s)) (Some (create_solution_set (final_nodes (arg s) s))) [] (edges s) (mats (v_mech v))).
  change (do_call show latex (edges s) (mats (v_mech v)) order vars (Session (v_name v) P Q (final_nodes (arg s) s) None []) Create) with (Some (Session (v_name v) P Q (create_nodes [] (final_nodes (arg s) s)) (Some (create_solution_set (final_nodes (arg s) s))) [], @nil string)).
  cbv beta iota. destruct (do_call _ _ _ _ _ _ (Session (v_name v) P Q _ _ _) Report) as [[s2 o2]|] eqn:E2.
  - assert (N2 := call_name _ _ _ _ (v_name v) _ _ E2 eq_refl). destruct (do_call _ _ _ _ _ _ (Session _ [] false _ _ _) Report) as [[s2' o2']|]; [|discriminate R]. cbn [option_map fst snd] in R |- *. injection R as R1 R2. subst o2'.
    assert (F : solution_filename (robot_of s2) = append "LaTex/ik_solution_" (append (clean_name (v_name v)) ".tex")) by (apply sol_name; exact N2). rewrite F.
    destruct (param_texts _ _ _ _); [|cbn [fst]; eauto]. destruct (do_call _ _ _ _ _ _ s2 Python) as [[s3 o3]|]; [|cbn [fst]; eauto]. destruct (do_call _ _ _ _ _ _ s3 Cplusplus) as [[s4 o4]|]; cbn [fst]; eauto.
  - destruct (do_call _ _ _ _ _ _ (Session _ [] false _ _ _) Report) as [[s2' o2']|]; [discriminate R|]. reflexivity.
Qed.
Lemma first_puts v f : puts f (fst (work v)) (append "LaTex/ik_solution_" (append (clean_name (v_name v)) ".tex")) = match first_file v with Some t => t | None => f (append "LaTex/ik_solution_" (append (clean_name (v_name v)) ".tex")) end.
Proof.
  assert (W := work_first v). destruct (work_files v) as (k & K). destruct (first_file v) as [t|]; [|rewrite W; reflexivity]. destruct W as (rest & W). rewrite W in *. cbn [puts fold_left]. fold (puts (put f (append "LaTex/ik_solution_" (append (clean_name (v_name v)) ".tex"), t)) rest).
  rewrite puts_other. { unfold put. cbn [fst snd]. rewrite String.eqb_refl. reflexivity. }
  destruct k as [|k]; [discriminate|]. cbn [firstn outputs_of map fst] in K. injection K as K. rewrite K. intros X. apply firstn_in in X. assert (D := C77_three_files (v_name v)). unfold outputs_of in D. apply NoDup_cons_iff in D as [D _]. apply D. exact X.
Qed.
Theorem C77_report cat argv n d us f0 es : robot_name argv = Some n -> cat n = Described d us -> d_cache f0 n = Absent -> consistent n (request_of n d) es ->
  let p := append "LaTex/ik_solution_" (append (clean_name n) ".tex") in let f := history f0 es in
  snd (main cat argv Finish f) = NoKinematics LoadError \/
  (d_text (fst (main cat argv Finish empty_dir)) p <> NoFile -> d_text (fst (main cat argv Finish f)) p = d_text (fst (main cat argv Finish empty_dir)) p).
Proof.
  intros N D A C p f. assert (F : fresh (request_of n d) (d_cache f)). { apply history_fresh; auto. unfold fresh. cbn [q_name request_of]. rewrite A. exact I. }
  destruct (served_fresh _ _ F) as [H|[[E H]|(m & u & hit & E & H & Hh)]].
  - left. rewrite (finish _ _ n d us) by auto. destruct (crun _ _ _ _) as [c o]. cbn [snd] in H. subst o. reflexivity.
  - right. rewrite !(finish _ _ n d us) by auto. cbn [d_cache empty_dir]. unfold Cache.run at 1. rewrite E. cbn [fst snd d_text]. intros X. exfalso. apply X. reflexivity.
  - right. rewrite !(finish _ _ n d us) by auto. cbn [d_cache empty_dir]. assert (H0 : snd (crun (fun _ => Absent) true (request_of n d) Never) = Served (scratch (request_of n d) false m u) false) by (unfold Cache.run; rewrite E; reflexivity).
    destruct (crun (d_cache f) _ _ _) as [c o]. destruct (crun (fun _ => Absent) _ _ _) as [c' o']. cbn [snd] in H, H0. subst o o'.
    assert (P1 := first_puts (scratch (request_of n d) hit m u) (d_text f)). assert (P2 := first_puts (scratch (request_of n d) false m u) (fun _ => NoFile)).
    destruct (work (scratch (request_of n d) hit m u)) as [ws r]. destruct (work (scratch (request_of n d) false m u)) as [ws' r']. cbn [fst d_text empty_dir] in *. cbn [v_name scratch q_name request_of] in P1, P2. fold p in P1, P2. rewrite P1, P2.
    change (first_file (scratch (request_of n d) hit m u)) with (first_file (scratch (request_of n d) false m u)). destruct (first_file _); auto. intros X. exfalso. apply X. reflexivity.
Qed.
(** When the robot's DH table is not the one in the cache file, the run stops and changes nothing. *)
Theorem C77_changed_robot cat argv n d us f m u : robot_name argv = Some n -> cat n = Described d us -> d_cache f n = Full m u -> m_dh m <> rd_dh d ->
  main cat argv Finish f = (f, NoKinematics Rejected).
Proof.
  intros N D H K. rewrite (finish _ _ n d us) by auto. unfold Cache.run. cbn [q_name request_of]. rewrite H. cbn [negb orb q_dh request_of]. destruct (same_dh (m_dh m) (rd_dh d)) eqn:E. { apply same_dh_eq in E. tauto. } destruct f. reflexivity.
Qed.
(** A description without the kinds of six joints never gets kinematics: every run that finds no file raises, and leaves none. *)
Theorem C77_six_joints cat argv n d us f : robot_name argv = Some n -> cat n = Described d us -> d_cache f n = Absent -> List.length (rd_vv d) < 6 ->
  main cat argv Finish f = (f, NoKinematics FkError).
Proof.
  intros N D H K. rewrite (finish _ _ n d us) by auto. unfold Cache.run. cbn [q_name request_of]. rewrite H. unfold Cache.compute, fk_main. cbn [q_dh q_vv q_unks request_of]. destruct (Nat.leb_spec 6 (List.length (rd_vv d))); [lia|]. destruct f. reflexivity.
Qed.
End C77.
(** the shipped robots have different output files *)
Lemma names_differ : forallb (fun n => forallb (fun n' => String.eqb n n' || negb (String.eqb (clean_name n) (clean_name n'))) robot_names) robot_names = true.
Proof. vm_compute. reflexivity. Qed.
Theorem C77_catalogue n n' p : In n robot_names -> In n' robot_names -> n <> n' -> In p (outputs_of n) -> ~ In p (outputs_of n').
Proof.
  intros H H' D P P'. assert (E := C77_separate _ _ _ P P'). assert (X := names_differ). rewrite forallb_forall in X. specialize (X n H). rewrite forallb_forall in X. specialize (X n' H').
  apply orb_true_iff in X as [X|X]. apply String.eqb_eq in X. congruence. rewrite E, String.eqb_refl in X. discriminate.
Qed.

(** MiniDD, one of the shipped robots, is such a description *)
Theorem C77_minidd sy nice show latex arg edges mats order vars script f : d_cache f "MiniDD" = Absent ->
  main sy nice show latex arg edges mats order vars robot_params [script; "MiniDD"] Finish f = (f, NoKinematics FkError).
Proof. intros A. apply (C77_six_joints sy nice show latex arg edges mats order vars robot_params [script; "MiniDD"] "MiniDD" r_MiniDD (number_from 1 (rd_vars r_MiniDD)) f eq_refl eq_refl A). apply Nat.ltb_lt. vm_compute. reflexivity. Qed.

Print Assumptions C77_arguments. Print Assumptions C77_frame. Print Assumptions C77_separate. Print Assumptions C77_three_files. Print Assumptions C77_first_run. Print Assumptions C77_reproducible. Print Assumptions C77_available. Print Assumptions C77_torn. Print Assumptions C77_report. Print Assumptions C77_catalogue. Print Assumptions C77_changed_robot. Print Assumptions C77_six_joints. Print Assumptions C77_minidd.
