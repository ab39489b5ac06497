(** Concrete trees: hypotheses of the engine theorems are met, and the properties the
    code violates (refutations, with witnesses computed by the kernel). *)
From stdpp Require Import base strings gmap list.
From Coq Require Import ZArith Lia.
From Verif Require Import BB BBFacts Engine EngineSpec EngineFacts EngineInv EngineSem EngineTerm EngineTotal EngineObs EngineHist EngineMem PropEngine.

(** Scripted leaves: the world is the list of statuses the user leaves will return. *)
Definition script_leaf (i : nat) (w : list status) (m : mem) : (status + exn) * list status * mem :=
  (inl (hd FAILURE w), tl w, m).
Definition cfgx : cfg (list status) := Cfg 7 2 (fun i => "n") (fun k => Z.of_nat k) script_leaf.
Definition U (i : nat) : node := NLeaf AUser i.
Definition mk_st (w : list status) (costs : list (nat * Z)) : st (list status) :=
  St bb_new (list_to_map (map (fun p => (fst p, NStat 0 0 0 [0;0;0;0]%Z [0;0;0;0]%Z 0 (snd p))) costs)) [] 0 [] 0 w [].
Definition ticks (k : nat) : list hop := replicate k HTick.
Definition obs (x : option (list status * st (list status) * Z)) : option (list status * list event * Z) :=
  match x with Some (rs, s, tc) => Some (rs, s_trace s, tc) | None => None end.

Lemma mk_st_initial w costs : initial (mk_st w costs).
Proof.
  split; [reflexivity|]. split; [reflexivity|]. split; [reflexivity|]. intros i. unfold stat, mk_st. cbn [s_stats].
  match goal with |- context[?m !! i] => destruct (m !! i) as [x|] eqn:E end; [|exists 0%Z, 0; reflexivity].
  apply elem_of_list_to_map_2 in E. apply elem_of_list_In, in_map_iff in E. destruct E as (p & E & _).
  inversion E; subst. simpl. eauto.
Qed.
Lemma cfgx_safe : leaves_safe cfgx.
Proof. intros i w m. split; [exists (hd FAILURE w); reflexivity|reflexivity]. Qed.
Lemma cfgx_tc : tc_safe cfgx.
Proof. intros i w m. reflexivity. Qed.

(** A tree using every node kind that does not crash. *)
Definition big : node :=
  NDec (DRepeatUntilSuccess 3) 0 (Some
    (NComp CSequence 1
      [NComp CPriority 2 [U 3; NDec DInverter 4 (Some (U 5))];
       NComp COrNode 6 [U 7; NDec (DLimiter 2) 8 (Some (U 9))];
       NDec (DRepeater 2) 10 (Some (NDec (DRepeatUntilFailure 2) 11 (Some (U 12))));
       NDec (DMaxTime 100) 13 (Some (NLeaf ASucceeder 14))])).
Example big_ok :
  good_tree big = true /\ bool_decide (NoDup (ids big)) = true /\ finite_loops big = true /\
  exec_bound big = 1 + 3 * (1 + (1 + 1 + (1 + 1)) + (1 + 1 + (1 + 1)) + (1 + 2 * (1 + 2 * 1)) + (1 + 1)).
Proof. vm_compute. auto. Qed.
Example big_acyclic : acyclic big.
Proof.
  unfold big. simpl. repeat split; auto;
    try (intros Hin; repeat (apply elem_of_cons in Hin; destruct Hin as [Hin|Hin]; [discriminate Hin|]); inversion Hin).
Qed.
Definition big_run := run_hist cfgx 0 big (ticks 2 ++ [HReset 3; HSetBase "unknowns" (VObj 1)] ++ ticks 1)
                        (mk_st [FAILURE; SUCCESS; SUCCESS; FAILURE; SUCCESS; FAILURE; SUCCESS; SUCCESS;
                               SUCCESS; SUCCESS; FAILURE; SUCCESS; SUCCESS; SUCCESS; SUCCESS] [(3, 2%Z); (5, 1%Z)]) 0.
(** The premises of c05, c07, c08-c15 hold of it, and it runs: every kind of status flow occurs. *)
Example big_runs : exists rs tr, obs big_run = Some (rs, tr, 3%Z) /\ rs = [SUCCESS; SUCCESS; FAILURE].
Proof. eexists _, _. split; [vm_compute; reflexivity|]. reflexivity. Qed.

Lemma ret_ex {W} (o : out W status) (P : status -> st W -> Prop) :
  match o with Ret a s => P a s | _ => False end -> exists a s, o = Ret a s /\ P a s.
Proof. destruct o; try contradiction. eauto. Qed.
Lemma hist_ex {W} (o : option (list status * st W * Z)) (P : st W -> Prop) :
  match o with Some (_, s, _) => P s | None => False end -> exists rs s tc, o = Some (rs, s, tc) /\ P s.
Proof. destruct o as [[[rs s] tc]|]; [|contradiction]. eauto. Qed.

(** ** C07 refuted: Limiter(child, 1) executes its child on every tick. *)
Definition lim := NDec (DLimiter 1) 0 (Some (U 1)).
Theorem c07_limiter_refuted :
  exists rs tr, obs (run_hist cfgx 0 lim (ticks 3) (mk_st [SUCCESS; FAILURE; SUCCESS] []) 0) = Some (rs, tr, 3%Z) /\
    rs = [SUCCESS; FAILURE; SUCCESS] /\ n_exec 1 tr = 3%Z.
Proof. eexists _, _. split; [vm_compute; reflexivity|]. split; reflexivity. Qed.
Print Assumptions c07_limiter_refuted.

(** ** C10: open_nodes need not be the nodes that are still open.  OrNode swallows the
    RUNNING of its first child and closes itself, but pops the child's entry: the tree
    records the OrNode (closed) and forgets the Runner (open). *)
Definition orrun := NComp COrNode 0 [NLeaf ARunner 1; NLeaf ASucceeder 2].
Theorem c10_open_nodes_exact_refuted :
  exists r s', fst (tree_tick cfgx 0 (Some orrun) (mk_st [] []) 0) = Ret r s' /\ r = SUCCESS /\
    bb_read (s_bb s') "open_nodes" (STree 7) = VNodes [0] /\
    is_open cfgx s' 0 = false /\ is_open cfgx s' 1 = true.
Proof. apply ret_ex. vm_compute. auto. Qed.
Print Assumptions c10_open_nodes_exact_refuted.

(** ** C12 refuted: a leaf that succeeded on 2 of 2 ticks has prob() = 1/10. *)
Theorem c12_prob_refuted :
  exists rs s' tc, run_hist cfgx 0 (U 1) (ticks 2) (mk_st [SUCCESS; SUCCESS] []) 0 = Some (rs, s', tc) /\
    n_ticks_all (stat s' 1) = 2%Z /\ n_success (stat s' 1) = 2%Z /\ prob (stat s' 1) = (1, 10)%Z.
Proof. apply hist_ex. vm_compute. auto. Qed.
Print Assumptions c12_prob_refuted.

(** ** C13 refuted (leaf counted once): one execution of one leaf of Cost 5 inside a
    Sequence adds 10 to TotalCost, inside two nested Sequences 15. *)
Theorem c13_leaf_once_refuted :
  exists rs s' tc, run_hist cfgx 0 (NComp CSequence 0 [NComp CSequence 1 [U 2]]) (ticks 1) (mk_st [SUCCESS] [(2, 5%Z)]) 0 = Some (rs, s', tc) /\
    n_exec 2 (s_trace s') = 1%Z /\ bb_read (s_bb s') "TotalCost" SBase = VInt 15.
Proof. apply hist_ex. vm_compute. auto. Qed.
Print Assumptions c13_leaf_once_refuted.

(** ** C19 refuted: a MemSequence whose first child runs crashes; resuming never happens. *)
Theorem c19_resume_refuted :
  run_hist cfgx 0 (NComp CMemSequence 0 [U 1; U 2]) (ticks 1) (mk_st [SUCCESS; RUNNING] []) 0 = None.
Proof. vm_compute. reflexivity. Qed.
Print Assumptions c19_resume_refuted.
(** The algorithm with xrange restored does resume at the running child (intended claim). *)
Theorem c19_intended_algorithm_resumes :
  forall W (C : cfg W) fuel k keep id cs s s1,
    (k = CMemSequence \/ k = CMemPriority) -> keep <> RUNNING -> (forall c, In c cs -> id ∉ ids c) ->
    is_open C s id = false ->
    mem_exec C fuel k keep id cs s = Ret RUNNING s1 ->
    exists d c rest l sb, cs = d ++ c :: rest /\ runs C (exec C fuel) id (d ++ [c]) s l sb /\
      first_stop keep keep rest l RUNNING /\
      forall s2 r s3, (forall kk, nget C s2 id kk = nget C s1 id kk) ->
        mem_exec C fuel k keep id cs s2 = Ret r s3 ->
        exists done2 rest2 l2 sb2, c :: rest = done2 ++ rest2 /\ runs C (exec C fuel) id done2 s2 l2 sb2 /\
          first_stop keep keep rest2 l2 r.
Proof. exact @mem_resume. Qed.
Print Assumptions c19_intended_algorithm_resumes.
Example c19_example :
  match mem_exec cfgx 0 CMemSequence SUCCESS 0 [U 1; U 2; U 3] (mk_st [SUCCESS; RUNNING; SUCCESS; SUCCESS] []) with
  | Ret r s1 =>
      match mem_exec cfgx 0 CMemSequence SUCCESS 0 [U 1; U 2; U 3] s1 with
      | Ret r2 s2 => r = RUNNING /\ r2 = SUCCESS /\ map ev_id (s_trace s2) = [1; 2; 0; 2; 3; 0]
      | _ => False
      end
  | _ => False
  end.
Proof. vm_compute. auto. Qed.

(** ** C18 example: Wait(2) opened at clock 0 is RUNNING at 1 and 2, SUCCESS at 3. *)
Example c18_example : exists tr, obs (run_hist cfgx 0 (NLeaf (AWait 2) 1) (ticks 4) (mk_st [] []) 0)
   = Some ([RUNNING; RUNNING; SUCCESS; RUNNING], tr, 4%Z).
Proof. eexists. vm_compute. reflexivity. Qed.

(** ** C15 for the shipped IK tree: ikSolver.py:191-243 (ids: node numbers in order of appearance;
    every leaf is a user action). *)
Definition ik_tree : node :=
  NDec (DRepeatUntilSuccess 10) 0 (Some
   (NComp CSequence 1
     [U 2 (* sub_trans *);
      NDec (DRepeatUntilSuccess 6) 3 (Some
        (NComp CSequence 4
          [U 5 (* asgn *); U 6 (* sum_id *);
           NComp CPriority 7
             [NComp CSequence 8 [U 9; U 10];                       (* algSol: id, solve *)
              NComp CSequence 11
                [NComp COrNode 12 [NComp CSequence 13 [U 14; U 15];  (* tanSol *)
                                   NComp CSequence 16 [U 17; U 18]]; (* scSol *)
                 U 19 (* rank *)];
              NComp CSequence 20 [U 21; U 22];                     (* Simu_Eqn_Sol *)
              NComp CSequence 23 [U 24; U 25];                     (* sacSol *)
              U 26 (* x2z2 *)]]));
      U 27 (* updateL *); U 28 (* compDetect *)])).
Example ik_tree_ok : good_tree ik_tree = true /\ bool_decide (NoDup (ids ik_tree)) = true /\ finite_loops ik_tree = true.
Proof. vm_compute. auto. Qed.

Lemma ik_bound_val : exec_bound ik_tree = 1431.
Proof. vm_compute. reflexivity. Qed.
(** Every tick of the IK tree, whatever its leaves do (even raise), ends after at most
    1431 node executions. *)
Theorem c15_ik_tree_bound :
  forall W (C : cfg W) fuel s tc, (forall j z, nget C s j "i" = VInt z -> (0 <= z)%Z) ->
    match fst (tree_tick C fuel (Some ik_tree) s tc) with
    | Ret _ s' | Raise _ s' => s_count s' <= 1431
    | NoFuel => False
    end.
Proof.
  exact (fun W C fuel s tc Hn =>
    eq_ind _ (fun b => match fst (tree_tick C fuel (Some ik_tree) s tc) with
                        | Ret _ s' | Raise _ s' => s_count s' <= b
                        | NoFuel => False end)
            (c15_tick_terminates_within_bound C fuel ik_tree s tc eq_refl Hn) _ ik_bound_val).
Qed.
Print Assumptions c15_ik_tree_bound.
(** a new blackboard satisfies the hypothesis *)
Example c15_hyp w : forall j z, nget cfgx (mk_st w []) j "i" = VInt z -> (0 <= z)%Z.
Proof. intros j z H. discriminate H. Qed.
