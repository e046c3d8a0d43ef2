(** Properties of the reachability analysis, continued (C20, C23). *)
From Verif Require Import Base BaseFacts LpModel LpSpec SetSpec LpUtil LpFacts ChullFacts ApiSpec ApiFacts Automaton StateSet HybridSpec FlowFacts StateSpec
  StateFacts StateFacts2 StateFacts3 AutoFacts CoreModel HeapFacts CoreOps CoreGhost CoreHeap CoreInv CoreSpec CoreSetup CoreExt SetupHa CoreSub SetupHaSub Prop_Core.
Open Scope nat_scope.

Definition no_deagg (cf : cfg) : Prop := forall g, cf_strat cf = Some g -> ag_deagg g = false.

Section Core2.
Variable solve : solver.
Hypothesis Hsolve : solver_ok solve.
Variable arnoldi : nat -> option (list Q) -> csr -> option csr -> nat -> list (list Q).

Lemma pre_gi cf a ru inits c : wf_ha a -> inputs_plain a -> Forall (init_ok solve a) inits -> setup solve a inits = Ok c -> ru_bound ru = cf_num cf ->
  gi solve a ru (init_of_list inits) c /\ gcur a c.
Proof.
  intros W Hinp HF Hs Hb. destruct (setup_ok solve Hsolve a W Hinp inits c HF Hs) as (P & _ & K). pose proof (p_n _ _ _ P) as En.
  assert (HnN : forall N, N < nN c -> False) by (intros N HN; rewrite (p_nodes _ _ _ P) in HN; cbn in HN; lia).
  split; [|apply gcur_none; apply (p_cur _ _ _ P)]. constructor.
  - intros i Hi. apply (p_st _ _ _ P). lia.
  - intros i Hi _. assert (Hi' : i < nO c) by lia. destruct (p_st _ _ _ P i Hi') as (_ & G1 & _ & _ & G4 & G5 & _). split; [congruence|]. intros p Hp. rewrite G1, G4.
    destruct (K i p (conj Hi' Hp)) as [K1 K2]. unfold pmode in K1, K2. rewrite (p_op _ _ _ P i Hi') in K1, K2. cbn [o_post] in K1, K2. apply R_init; assumption.
  - intros o Ho. rewrite (p_op _ _ _ P o Ho). cbn [o_post]. lia.
  - intros o o' Ho Ho' E. rewrite (p_op _ _ _ P o Ho), (p_op _ _ _ P o' Ho') in E. exact E.
  - intros n Hn. exfalso. eauto.
  - rewrite (p_w _ _ _ P). apply seq_NoDup.
  - intros o Ho. rewrite (p_w _ _ _ P) in Ho. apply in_seq in Ho. assert (Ho' : o < nO c) by lia. rewrite (p_op _ _ _ P o Ho'). cbn [o_post]. split; [exact Ho'|]. split; [apply (p_st _ _ _ P o Ho')|]. intros n Hn. exfalso. eauto.
  - apply (p_dw _ _ _ P).
  - apply (p_rep _ _ _ P).
  - rewrite (p_co _ _ _ P). discriminate.
Qed.

(** in the automaton that Core.setup makes *)
Lemma concerr_real cf a0 a inits fuel c :
  wf_ha a0 -> inputs_plain a0 -> no_deagg cf -> setup_ha cf a0 = Ok a -> Forall (init_ok solve a0) inits ->
  run solve arnoldi cf a0 inits fuel = Some (Ok c) -> c_concerr c = true ->
  error_reachable tol13 (rules_of cf) a (init_of_list inits).
Proof.
  intros W0 Hinp Hnd Hs Hinit Hrun He. destruct (setup_ha_ok cf a0 a W0 Hs) as (Em & W & _).
  unfold run in Hrun. assert (E0 : (do _ <- assert (negb (List.length inits =? 0)); setup_ha cf a0) = Ok a).
  { destruct (assert _) as [u|e] eqn:Ea; cbn [bind] in *; [exact Hs|]. discriminate. }
  rewrite E0 in Hrun. destruct (setup solve a inits) as [c0|e] eqn:Esu; [|discriminate].
  assert (Hinit' : Forall (init_ok solve a) inits) by (eapply Forall_impl; [|exact Hinit]; intros s Hsx; eapply init_ok_modes; eauto).
  assert (Hinp' : inputs_plain a). { intros m Hm. rewrite (get_mode_eq a0 a m Em). apply Hinp. rewrite <- Em. exact Hm. }
  destruct (pre_gi cf a (rules_of cf) inits c0 W Hinp' Hinit' Esu eq_refl) as [G0 C0].
  pose proof (gi_run solve Hsolve arnoldi cf a W Hinp' (rules_of cf) (init_of_list inits) eq_refl eq_refl (fun _ => eq_refl) eq_refl Hnd fuel c0 c G0 C0 Hrun) as G.
  exact (gi_err _ _ _ _ _ G He).
Qed.

(** ** C20: a concrete error is real *)
(** When Core.run terminates with has_concrete_error, an execution with at most num_steps time steps, whose states satisfy the
    invariants up to 1e-13, enters an error mode. *)
Theorem C20_concrete_error_real cf a0 a inits fuel c :
  wf_ha a0 -> inputs_plain a0 -> no_deagg cf -> setup_ha cf a0 = Ok a -> no_tt cf a -> Forall (init_ok solve a0) inits ->
  run solve arnoldi cf a0 inits fuel = Some (Ok c) -> c_concerr c = true ->
  error_reachable tol13 (rules_of cf) a0 (init_of_list inits).
Proof. intros W0 Hinp Hnd Hs Htt Hinit Hrun He. apply (setup_ha_sub cf a0 a tol13 W0 Hs Htt). eapply concerr_real; eauto. Qed.
End Core2.

(** ** C23: errors within the time bound *)
Lemma reach_bound lax ru a (init : nat -> vec -> Prop) m p k n : reach lax ru a init m p k n -> n <= ru_bound ru.
Proof. induction 1; lia. Qed.
(** without deaggregation a reported concrete error happens after at most num_steps steps *)
Theorem C23_errors_within_bound_partial solve arnoldi cf a0 a inits fuel c : solver_ok solve ->
  wf_ha a0 -> inputs_plain a0 -> no_deagg cf -> setup_ha cf a0 = Ok a -> no_tt cf a -> Forall (init_ok solve a0) inits ->
  run solve arnoldi cf a0 inits fuel = Some (Ok c) -> c_concerr c = true ->
  exists t p k n, n <= cf_num cf /\ t < List.length (ha_trans a0) /\ is_error (get_mode a0 (t_to (get_trans a0 t))) = true /\
    reach tol13 (rules_of cf) a0 (init_of_list inits) (t_from (get_trans a0 t)) p k n /\ guard_ok (get_trans a0 t) p.
Proof.
  intros Hsv W0 Hinp Hnd Hs Htt Hinit Hrun He. destruct (C20_concrete_error_real solve Hsv arnoldi cf a0 a inits fuel c W0 Hinp Hnd Hs Htt Hinit Hrun He) as (t & p & k & n & K1 & K2 & K3 & K4 & _).
  exists t, p, k, n. split; [exact (reach_bound _ _ _ _ _ _ _ _ K3)|]. auto.
Qed.

From Verif Require Import SetFacts2 Solver Prop_Sets Ex_Core Ex_Late.
Open Scope nat_scope.
(** no aggregation: mode b is entered at steps 2, 3 and 4, and x - y >= 0 holds after one step *)
Definition exC_plain : cfg := mkCfg 6 1 false true false true false true false None.
Definition exL_cf : cfg := mkCfg 6 1 false true false true false true false (Some (mkAgg ABox PAvg false true true DMost)).
Example C20_witness : exists c, run fm_solver arn0 exC_plain (exC 0) [exC_s] 100 = Some (Ok c) /\ c_concerr c = true /\
  error_reachable tol13 (rules_of exC_plain) (exC 0) (init_of_list [exC_s]).
Proof.
  pose (o := run fm_solver arn0 exC_plain (exC 0) [exC_s] 100).
  assert (H : o = Some (Ok (getc o))) by (apply getc_ok; vm_compute; reflexivity). exists (getc o). split; [exact H|].
  assert (H1 : c_concerr (getc o) = true) by (vm_compute; reflexivity). split; [exact H1|].
  destruct (exC_pre 0 false) as (A1 & A2 & A3 & A4 & A5 & A6).
  destruct (setup_ha exC_plain (exC 0)) as [a|e] eqn:Ea; [|vm_compute in Ea; discriminate].
  refine (C20_concrete_error_real fm_solver fm_solver_ok arn0 exC_plain (exC 0) a [exC_s] 100 (getc o) A1 A2 _ Ea _ A6 H H1).
  - intros g K. discriminate.
  - intro K. discriminate.
Qed.
Lemma exL_pre : inputs_plain exL /\ zero_plain exL_cf exL /\ path_ok exL_cf.
Proof.
  split; [|split].
  - intros m Hm. destruct m as [|[|[|m]]]; cbn; try congruence. cbn in Hm. lia.
  - intros _ m x Hm Hx Hn. destruct m as [|[|[|m]]]; cbn in Hx; try discriminate; [| |cbn in Hm; lia]; injection Hx as <-; discriminate.
  - intros g' Hg _. injection Hg as <-. reflexivity.
Qed.
(** With deaggregation both fail: the box around the states entering b at steps 2, 3, 4 is followed until its earliest part
    is at num_steps = 6, and the replay takes the part that entered at step 4 to step 8, where it reports a concrete error.
    The error guard x >= 15/2 needs 8 steps: no execution with at most 7 steps gets there. *)
Theorem C23_errors_within_bound_refuted : exists c,
  wf_ha exL /\ inputs_plain exL /\ zero_plain exL_cf exL /\ path_ok exL_cf /\ Forall (init_ok fm_solver exL) [exC_s] /\
  run fm_solver arn0 exL_cf exL [exC_s] 100 = Some (Ok c) /\ c_concerr c = true /\ cf_num exL_cf = 6 /\
  ~ error_reachable tol13 (mkRules false 7 (fun _ => false) false) exL (init_of_list [exC_s]).
Proof.
  pose (o := run fm_solver arn0 exL_cf exL [exC_s] 100).
  assert (H : o = Some (Ok (getc o))) by (apply getc_ok; vm_compute; reflexivity). exists (getc o).
  split; [apply exL_wf|]. split; [|split; [|split; [|split; [apply exL_init|split; [exact H|split; [vm_compute; reflexivity|split; [reflexivity|]]]]]]].
  - apply exL_pre.
  - apply exL_pre.
  - apply exL_pre.
  - apply exL_safe. cbn. lia.
Qed.
