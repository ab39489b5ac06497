(** C45, continued: the generated C++ writes no other cell of the array. *)
From Coq Require Import Reals NArith ZArith List String Ascii Bool Arith Lia Permutation.
From Verif Require Import Expr Kin Solver SolverSpec HistFacts PropHist SolSet SolSetFacts PropSolSet CodeGen PropCodeGen CppFacts PropCpp PropLine CodeGenEx.
Import ListNotations.
Local Open Scope string_scope.
Local Open Scope list_scope.
Local Open Scope nat_scope.

(** * Characters of what is printed *)
Section Chars.
Variable p : ascii -> bool.
Hypothesis star : p "*" = true.
Local Notation ok := (all_chars p).
Lemma ok_app a b : ok (append a b) = ok a && ok b. Proof. induction a as [|c a IH]; cbn [append all_chars]; auto. rewrite IH, andb_assoc. auto. Qed.
Lemma ok_sub_word : forall n s w, String.length s <= n -> ok w = true -> ok s = true -> ok (sub_word w s) = true.
Proof.
  induction n as [|n IH]; intros s' w L Hw Hs. destruct s'; [exact Hw|cbn in L; lia]. destruct s' as [|c t]; [exact Hw|]. cbn [sub_word]. cbn [String.length] in L. cbn [all_chars] in Hs. apply andb_true_iff in Hs as [Hc Ht].
  destruct (word c). { apply IH; auto. lia. rewrite ok_app, Hw. cbn [all_chars]. rewrite Hc. auto. }
  assert (P : ok (append w (String c (sub_word "" t))) = true). { rewrite ok_app, Hw. cbn [all_chars]. rewrite Hc. apply IH; auto. lia. }
  destruct t as [|c2 [|c3 t']]; auto. destruct (_ && _); auto. rewrite !ok_app, Hw. cbn [all_chars]. rewrite star. cbn [andb]. cbn [all_chars String.length] in *. apply andb_true_iff in Ht as [_ Ht]. apply andb_true_iff in Ht as [_ Ht]. apply IH; auto. lia.
Qed.
Lemma ok_upto s : forall a b, upto_close s = Some (a, b) -> ok s = true -> ok a = true /\ ok b = true /\ p ")" = true.
Proof.
  induction s as [|c s IH]; intros a b; cbn [upto_close all_chars]; [discriminate|]. intros E H. apply andb_true_iff in H as [H1 H2]. destruct (Ascii.eqb_spec c ")"). { injection E as <- <-. subst. auto. }
  destruct (upto_close s) as [[x y]|]; [|discriminate]. injection E as <- <-. destruct (IH x y eq_refl H2) as (A & B & C). split; auto. cbn [all_chars]. rewrite H1. auto.
Qed.
Lemma ok_drop n : forall s, ok s = true -> ok (drop n s) = true.
Proof. induction n; intros [|c s] H; cbn [drop]; auto. apply IHn. cbn [all_chars] in H. apply andb_true_iff in H. tauto. Qed.
Lemma ok_sub_call n : forall s, ok s = true -> ok (sub_call n s) = true.
Proof.
  induction n as [|n IH]; intros s H; cbn [sub_call]; auto. destruct (match_call s) as [[g rest]|] eqn:E.
  - assert (X : ok g = true /\ ok rest = true).
    { destruct s as [|a [|b [|c [|d t]]]]; try discriminate. cbn [match_call] in E. destruct (_ && _); [|discriminate]. destruct (upto_close t) as [[x y]|] eqn:U; [|discriminate]. destruct (_ && _); [|discriminate]. injection E as <- <-.
      cbn [all_chars] in H. apply andb_true_iff in H as [Ha H]. apply andb_true_iff in H as [Hb H]. apply andb_true_iff in H as [Hc H]. apply andb_true_iff in H as [Hd H].
      destruct (ok_upto t x y U H) as (Hx & Hy & Hp). split. cbn [all_chars]. rewrite Ha, Hb, Hc, Hd, ok_app, Hx. cbn [all_chars andb]. rewrite Hp. auto. exact (ok_drop 3 y Hy). }
    destruct X as [X1 X2]. rewrite !ok_app, X1, IH by auto. cbn [all_chars andb]. rewrite star. auto.
  - destruct s as [|c t]; auto. cbn [all_chars] in *. apply andb_true_iff in H as [H1 H2]. rewrite H1, IH; auto.
Qed.
Lemma ok_fix l : ok l = true -> ok (fix_line l) = true.
Proof. intros H. unfold fix_line. destruct (contains "**" l); auto. apply ok_sub_call. eapply ok_sub_word; eauto. Qed.
Lemma ok_split s : ok s = true -> forall l, In l (split_lines s) -> ok l = true.
Proof.
  induction s as [|c s IH]; intros H l Hl; cbn [split_lines] in Hl. destruct Hl as [<-|[]]; auto. cbn [all_chars] in H. apply andb_true_iff in H as [H1 H2]. destruct (Ascii.eqb c nl).
  - destruct Hl as [<-|Hl]; auto.
  - destruct (split_lines s) as [|x xs]. { destruct Hl as [<-|[]]. cbn [all_chars]. rewrite H1. auto. } destruct Hl as [<-|Hl]. cbn [all_chars]. rewrite H1. apply IH; auto. left; auto. apply IH; auto. right; auto.
Qed.
Lemma ok_concat l : (forall s, In s l -> ok s = true) -> ok (concat_s l) = true.
Proof. induction l; cbn [concat_s]; intros H; auto. rewrite ok_app, H, IHl; auto. intros; apply H; right; auto. left; auto. Qed.
Lemma ok_substring s : forall n m, ok s = true -> ok (substring n m s) = true.
Proof. induction s as [|c s IH]; intros [|n] [|m] H; cbn [substring]; auto; cbn [all_chars] in *; apply andb_true_iff in H as [H1 H2]; auto. rewrite H1, IH; auto. Qed.
End Chars.

(** * Every line of the file comes from a call of the writer *)
Lemma comes ms : forall c l, In l (c_out (run_cpp ms c)) -> In l (c_out c) \/ exists n, (exists s x, In (Line s) ms /\ In x (split_lines s) /\ l = append (times n "    ") (fix_line x)) \/ l = append (times n "    ") "{" \/ l = append (times n "    ") "}".
Proof.
  unfold run_cpp. induction ms as [|m ms IH]; intros c l Hl; cbn [fold_left] in Hl; auto. apply IH in Hl as [Hl|(n & [(s & x & A & B & C)|Hl])]; [|right; exists n; left; exists s, x; split; [right; auto|auto]|right; exists n; auto].
  destruct m as [s| |]; cbn [step_cpp] in Hl.
  - assert (G : forall ls c, In l (c_out (fold_left (fun c l => c_print (fix_line l) c) ls c)) -> In l (c_out c) \/ exists n x, In x ls /\ l = append (times n "    ") (fix_line x)).
    { clear. induction ls as [|y ls IH]; intros c Hl; cbn [fold_left] in Hl; auto. apply IH in Hl as [Hl|(n & x & A & B)]. cbn [c_print c_out] in Hl. apply in_app_iff in Hl as [Hl|[<-|[]]]; auto. right. eexists _, y. split; [left; auto|reflexivity]. right. exists n, x. split; [right|]; auto. }
    apply G in Hl as [Hl|(n & x & A & B)]; auto. right. exists n. left. exists s, x. split; [left|]; auto.
  - cbn [c_print c_out] in Hl. apply in_app_iff in Hl as [Hl|[<-|[]]]; auto. right. eexists. right; left. reflexivity.
  - cbn [c_print c_out] in Hl. apply in_app_iff in Hl as [Hl|[<-|[]]]; auto. right. eexists. right; right. reflexivity.
Qed.

Definition unbracketed (s : string) : bool := all_chars (fun c => negb (Ascii.eqb c "[")) s.
(** no name, text or printed expression of the robot contains a '[' *)
Definition unbracketed_robot (show : expr -> string) (r : robot) (vars : list string) : Prop :=
  unbracketed (r_name r) = true /\ (forall p, In p (r_params r) -> unbracketed (fst p) = true) /\ (forall eqs q, In eqs (r_eqns r) -> In q eqs -> unbracketed (show (k_lhs q)) = true /\ unbracketed (show (k_rhs q)) = true)
  /\ (forall n, In n (r_nodes r) -> unbracketed (n_name n) = true /\ unbracketed (n_method n) = true /\ unbracketed (show (n_arg n)) = true) /\ (forall v, In v vars -> unbracketed v = true).
(** texts whose every line, as printed, is without '[' or a declaration *)
Definition harmless (s : string) : Prop := forall l, In l (split_lines s) -> unbracketed (fix_line l) = true \/ contains "double" (fix_line l) = true.
Lemma un_harmless s : unbracketed s = true -> harmless s.
Proof. intros H l Hl. left. apply ok_fix; auto. eapply ok_split; eauto. Qed.
Lemma lit_harmless s : forallb (fun l => unbracketed (fix_line l) || contains "double" (fix_line l)) (split_lines s) = true -> harmless s.
Proof. intros H l Hl. rewrite forallb_forall in H. apply orb_true_iff. auto. Qed.
Lemma un_app a b : unbracketed (append a b) = unbracketed a && unbracketed b. Proof. apply ok_app. Qed.
Lemma un_us s : unbracketed s = true -> unbracketed (replace_us s) = true.
Proof.
  induction s as [|c s IH]; intros H; auto. unfold unbracketed in H. cbn [all_chars] in H. apply andb_true_iff in H as [H1 H2]. specialize (IH H2).
  assert (E : replace_us (String c s) = String "\" (String "_" (replace_us s)) \/ replace_us (String c s) = String c (replace_us s)) by (cbn [replace_us]; destruct c as [[] [] [] [] [] [] [] []]; auto).
  destruct E as [-> | ->]. exact IH. unfold unbracketed. cbn [all_chars]. rewrite H1. auto.
Qed.
Lemma un_test n : forall s, unbracketed s = true -> unbracketed (remove_test n s) = true.
Proof.
  induction n as [|n IH]; intros s H; cbn [remove_test]; auto. destruct (String.prefix "test: " s). apply IH. apply ok_drop; auto. destruct s; auto. unfold unbracketed in *. cbn [all_chars] in *. apply andb_true_iff in H as [H1 H2]. rewrite H1, IH; auto.
Qed.
Lemma un_nat n : unbracketed (str_of_nat n) = true.
Proof.
  generalize (str_digits n). generalize (str_of_nat n). induction s as [|c s IH]; cbn [digits]; auto. intros H. apply andb_true_iff in H as [H1 H2]. unfold unbracketed in *. cbn [all_chars]. rewrite IH by auto. destruct (Ascii.eqb_spec c "["); auto. subst. discriminate.
Qed.
Lemma split_nl a : forall b, split_lines (append a (String nl b)) = split_lines a ++ split_lines b.
Proof.
  induction a as [|c a IH]; intros b. { cbn [append split_lines]. rewrite Ascii.eqb_refl. auto. } cbn [append split_lines]. destruct (Ascii.eqb c nl). rewrite IH. auto. rewrite IH. destruct (split_lines a) eqn:E; auto. exfalso. clear - E. destruct a; cbn [split_lines] in E; [discriminate|]. destruct (Ascii.eqb a nl); [discriminate|]. destruct (split_lines a0); discriminate.
Qed.
Lemma harmless_nl a b : harmless a -> harmless b -> harmless (append a (String nl b)).
Proof. intros A B l Hl. rewrite split_nl in Hl. apply in_app_iff in Hl as [Hl|Hl]; auto. Qed.
Definition harmless_cmd (m : cmd) : Prop := match m with Line s => harmless s | _ => True end.
Lemma head_harmless name vars ps : unbracketed name = true -> (forall v, In v vars -> unbracketed v = true) -> (forall p, In p ps -> unbracketed p = true) -> Forall harmless_cmd (cpp_head name vars ps).
Proof.
  intros Hn Hv Hp. unfold cpp_head. repeat (apply Forall_cons; [|]); try exact I; try apply Forall_nil; unfold harmless_cmd.
  all: try (apply lit_harmless; vm_compute; reflexivity).
  - match goal with |- harmless (append ?a (append name (String _ ?b))) => change (harmless (append a (append name (String nl b)))); rewrite <- append_assoc; apply harmless_nl end.
    apply un_harmless. rewrite !un_app, Hn. reflexivity. apply lit_harmless. vm_compute. reflexivity.
  - apply un_harmless. unfold var_decl. rewrite un_app. unfold unbracketed at 1. rewrite ok_substring; [reflexivity|]. rewrite ok_app, ok_concat; [reflexivity|]. intros x Hx. apply in_map_iff in Hx as (v & <- & Hx). fold (unbracketed (append " " (append v ","))). rewrite !un_app, (Hv v) by auto. reflexivity.
  - apply un_harmless. unfold par_decl. rewrite un_app. unfold unbracketed at 2. rewrite ok_concat; [reflexivity|]. intros x Hx. apply in_map_iff in Hx as (v & <- & Hx). match goal with |- all_chars _ ?s = true => fold (unbracketed s) end. rewrite !un_app, (Hp v) by auto. reflexivity.
Qed.
Lemma version_harmless show n k q : unbracketed (show (k_lhs q)) = true -> unbracketed (show (k_rhs q)) = true -> unbracketed (show (n_arg n)) = true -> unbracketed (n_method n) = true -> Forall harmless_cmd (cpp_version show n k q).
Proof.
  intros B1 B2 B M. assert (A : harmless (append (assign_text show q) ";")). { apply un_harmless. unfold assign_text. rewrite !un_app, B1, B2. reflexivity. }
  unfold cpp_version. repeat (apply Forall_app; split).
  - repeat (apply Forall_cons); try apply Forall_nil; unfold harmless_cmd; apply un_harmless; rewrite ?un_app, ?un_nat, ?M, ?B; reflexivity.
  - destruct (_ || _); [|constructor]. repeat (apply Forall_cons); try apply Forall_nil; try exact I; unfold harmless_cmd; apply un_harmless; rewrite ?un_app, ?M, ?B, ?B1; reflexivity.
  - destruct (_ && _); (apply Forall_nil || (apply Forall_cons; [exact A|apply Forall_nil])).
  - destruct (contains _ _); (apply Forall_nil || (apply Forall_cons; [exact A|apply Forall_nil])).
  - destruct (contains _ _); (apply Forall_nil || (apply Forall_cons; [exact A|apply Forall_nil])).
  - destruct (contains _ _); (apply Forall_nil || (apply Forall_cons; [exact A|apply Forall_nil])).
Qed.
Lemma contains_un s : contains "[" s = true -> unbracketed s = false.
Proof. rewrite contains1. intros (a & b & ->). rewrite un_app. unfold unbracketed at 2. cbn [all_chars]. rewrite andb_false_r. auto. Qed.
Lemma spaces_un n s : unbracketed (append (times n "    ") s) = unbracketed s.
Proof. rewrite un_app. replace (unbracketed (times n "    ")) with true; auto. symmetry. induction n; auto. Qed.
Definition starless (s : string) : bool := all_chars (fun c => negb (Ascii.eqb c "*")) s.
Lemma starless_none s : starless s = true -> contains "**" s = false.
Proof. induction s as [|c s IH]; auto. unfold starless. cbn [all_chars]. intros H. apply andb_true_iff in H as [H1 H2]. rewrite contains_cons, IH, orb_false_r by auto. cbn [String.prefix]. destruct (ascii_dec "*" c); auto. subst. discriminate. Qed.
Lemma digits_ok (p : ascii -> bool) : (forall c, is_digit c = true -> p c = true) -> forall n, all_chars p (str_of_nat n) = true.
Proof. intros P n. generalize (str_digits n). generalize (str_of_nat n). induction s as [|c s IH]; cbn [digits all_chars]; auto. intros H. apply andb_true_iff in H as [H1 H2]. rewrite P, IH by auto. auto. Qed.
Lemma no_nl_all s : no_nl s = all_chars (fun c => negb (Ascii.eqb c nl)) s. Proof. induction s; cbn [no_nl all_chars]; congruence. Qed.
(** Apart from lines with a declaration, every line with an index is one of the assignments of C45_writes. *)
Theorem C45_only_writes show r vars groups c l : unbracketed_robot show r vars -> output_cpp_code show r vars groups = Some c -> (forall g v, In g groups -> In v g -> no_nl v = true /\ starless v = true) ->
  In l (c_out c) -> contains "[" l = true -> contains "double" l = false ->
  exists i j g v, nth_error groups i = Some g /\ nth_error (sort g) j = Some v /\ exists n, l = append (times n "    ") (write_text i j v).
Proof.
  intros (B1 & B2 & B3 & B4 & B5) O Hg Hl Hb Hd. unfold output_cpp_code in O. destruct (cpp_cmds show r vars groups) as [ms|] eqn:E; [|discriminate]. injection O as <-.
  apply comes in Hl as [[]|(n & [(s & x & Hs & Hx & ->)|[-> | ->]])]. 2,3: apply contains_un in Hb; rewrite spaces_un in Hb; discriminate.
  destruct (cmds_split _ _ _ _ _ E) as (ns & -> & L & H). assert (Nl := nodes_lev _ _ _ _ _ ns E L H).
  assert (Bad : harmless s -> False). { intros X. destruct (X x Hx) as [Y|Y]. apply contains_un in Hb. rewrite spaces_un in Hb. congruence. rewrite (contains_app_l _ _ _ Y) in Hd. discriminate. }
  assert (BadF : forall l, Forall harmless_cmd l -> In (Line s) l -> False). { intros k Hk Hi. rewrite Forall_forall in Hk. apply Bad. exact (Hk _ Hi). }
  apply in_app_iff in Hs as [Hs|Hs]. { exfalso. revert Hs. apply BadF. apply head_harmless; auto. apply un_test, un_us; auto. intros p Hp. apply in_map_iff in Hp as (y & <- & Hy). auto. }
  apply in_app_iff in Hs as [Hs|Hs].
  { exfalso. apply in_concat in Hs as (k & Hk & Hs). destruct (Nl k Hk) as (m & qs & Hn & Hqs & ->). destruct (B4 m Hn) as (M1 & M2 & M3). unfold cpp_node in Hs. apply in_app_iff in Hs as [Hs|Hs].
    - revert Hs. apply BadF. apply Forall_cons; [apply un_harmless; reflexivity|]. apply Forall_cons; [|apply Forall_nil]. apply un_harmless. rewrite un_app, M1. reflexivity.
    - apply in_concat in Hs as (k & Hl' & Hs). apply in_map_iff in Hl' as ([a q] & <- & Haq). apply enum_in in Haq. destruct (node_eqns_in r m qs Hqs q (nth_error_In _ _ Haq)) as (eqs & He & Hq). destruct (B3 eqs q He Hq). revert Hs. apply BadF. apply version_harmless; auto. }
  unfold cpp_tail in Hs. apply in_app_iff in Hs as [Hs|Hs]. { exfalso. destruct Hs as [Hs|[Hs|[]]]; apply Bad; injection Hs as <-; apply lit_harmless; vm_compute; reflexivity. }
  apply in_app_iff in Hs as [Hs|Hs]. 2:{ exfalso. destruct Hs as [Hs|[Hs|[Hs|[Hs|[]]]]]; try discriminate; apply Bad; injection Hs as <-; apply lit_harmless; vm_compute; reflexivity. }
  apply rows_lines in Hs as (i & j & g & v & Hi & Hj & Es). assert (Es' : s = write_text i j v) by (unfold write_text; congruence). exists i, j, g, v. split; auto. split; auto. exists n.
  assert (Hv : In v g) by (apply (Permutation_in _ (sort_perm g)); eapply nth_error_In; eauto). destruct (Hg g v (nth_error_In _ _ Hi) Hv) as [N1 N2].
  assert (St : starless s = true). { rewrite Es'. unfold write_text, starless in *. rewrite !ok_app, !digits_ok, N2. reflexivity. all: intros a Ha; destruct (Ascii.eqb_spec a "*"); auto; subst; discriminate. }
  assert (Sn : no_nl s = true). { rewrite Es', no_nl_all. rewrite no_nl_all in N1. unfold write_text. rewrite !ok_app, !digits_ok, N1. reflexivity. all: intros a Ha; destruct (Ascii.eqb_spec a nl); auto; subst; discriminate. }
  rewrite split_one in Hx by auto. destruct Hx as [<-|[]]. rewrite fix_id by (apply starless_none; auto). rewrite Es'. auto.
Qed.
(** The example robot of CodeGenEx meets the hypotheses of C45_balanced and C45_only_writes. *)
Lemma robot_check (f : string -> bool) show r vars groups :
  f (r_name r) && forallb (fun p => f (fst p)) (r_params r) && forallb (forallb (fun q => f (show (k_lhs q)) && f (show (k_rhs q)))) (r_eqns r)
  && forallb (fun n => f (n_name n) && f (n_method n) && f (show (n_arg n))) (r_nodes r) && forallb f vars && forallb (forallb f) groups = true ->
  f (r_name r) = true /\ (forall p, In p (r_params r) -> f (fst p) = true) /\ (forall eqs q, In eqs (r_eqns r) -> In q eqs -> f (show (k_lhs q)) = true /\ f (show (k_rhs q)) = true)
  /\ (forall n, In n (r_nodes r) -> f (n_name n) = true /\ f (n_method n) = true /\ f (show (n_arg n)) = true) /\ (forall v, In v vars -> f v = true) /\ (forall g v, In g groups -> In v g -> f v = true).
Proof.
  rewrite !andb_true_iff. intros [[[[[A B] C] D] E] F]. rewrite forallb_forall in B, C, D, E, F. split; auto. split; auto. split. { intros eqs q He Hq. specialize (C eqs He). rewrite forallb_forall in C. specialize (C q Hq). apply andb_true_iff in C. auto. }
  split. { intros n Hn. specialize (D n Hn). rewrite !andb_true_iff in D. tauto. } split; auto. intros g v Hg Hv. specialize (F g Hg). rewrite forallb_forall in F. auto.
Qed.
Example C45_robot_example : brace_free_robot show0 robot46 vars46 groups46 /\ unbracketed_robot show0 robot46 vars46 /\ (forall g v, In g groups46 -> In v g -> no_nl v = true /\ starless v = true).
Proof.
  split. { apply (robot_check brace_free). vm_compute. reflexivity. }
  split. { destruct (robot_check unbracketed show0 robot46 vars46 groups46) as (A & B & C & D & E & F). vm_compute; reflexivity. exact (conj A (conj B (conj C (conj D E)))). }
  assert (X : forallb (forallb (fun v => no_nl v && starless v)) groups46 = true) by (vm_compute; reflexivity). rewrite forallb_forall in X. intros g v Hg Hv. specialize (X g Hg). rewrite forallb_forall in X. apply andb_true_iff. exact (X v Hv).
Qed.
