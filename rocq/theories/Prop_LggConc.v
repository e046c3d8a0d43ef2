(** APPROX_LGG without inputs and without aggregation (C61, C66). *)
From Verif Require Import Base BaseFacts LpModel LpSpec SetSpec LpUtil LpFacts LpWf ApiSpec Automaton StateSet HybridSpec FlowFacts StateSpec StateFacts StateFacts2 StateFacts3 AutoFacts BuildFacts CoreModel HeapFacts CoreOps CorePop CoreExt CoreGhost CoreSpec CoreSetup SetupHa
  Approx ApproxFacts CoreApprox ApproxInv Prop_Inv Prop_Approx Prop_Core Prop_Core2 Prop_Detect Prop_Dense CoreDag CoreLive CoreLive2 CoreIvl CoreIvl3 ConcA CoreConc Prop_Conc CoreTermA Prop_TotalA Prop_LggRun.
From Coq Require Import Lia Lqa.
Open Scope list_scope.
Open Scope nat_scope.

Section P.
Variable solve : solver.
Hypothesis Hsolve : solver_ok solve.
Variable arnoldi : nat -> option (list Q) -> csr -> option csr -> nat -> list (list Q).
Variable qexp : Q -> Q.
Hypothesis Hexp : forall q, (1 + q <= qexp q)%Q.

(** Without aggregation, with APPROX_LGG, no inputs and make_counterexample = True: an analysis that returns at all proves the automaton safe in dense time. *)
Theorem C61_lgg_unaggregated_returns_safe cf a0 inits fuel c :
  wf_ha a0 -> inv_free a0 -> no_inputs a0 -> zero_plain cf a0 -> cf_strat cf = None -> cf_ce cf = true -> no_tt cf a0 -> Forall (init_ok solve a0) inits ->
  (forall s, In s inits -> is_error (get_mode a0 (ss_mode s)) = false) ->
  run_ap solve arnoldi qexp ApLgg cf a0 inits fuel = Some (Ok c) -> ~ dense_error a0 (init_of_list inits) (cf_num cf) (cf_urgent cf).
Proof.
  intros W F NI HZ Hun Hce NT Hinit Hne Hrun. pose proof (init_fresh solve a0 inits Hinit) as Hs.
  assert (Hnd : no_deagg cf) by (intros g K; congruence).
  destruct (C66_lgg_error_never_returned solve arnoldi qexp cf a0 inits fuel c NI Hce Hnd Hs Hrun) as [Fc _].
  assert (Q : exists a, setup_ha cf a0 = Ok a).
  { pose proof Hrun as K. unfold run_ap in K. destruct (do _ <- _; setup_ha cf a0) as [a|e] eqn:Ea; [|discriminate K]. apply bind_ok in Ea as (u & _ & Ea). eauto. }
  destruct Q as (a & Ea). destruct (free_setup cf a0 a W F NT Ea) as (Em & Wa & _). assert (Fa0 : inv_free a) by (intro i; rewrite (get_mode_eq a0 a i Em); apply F).
  assert (Hia : Forall (init_ok solve a) inits) by (eapply Forall_impl; [|exact Hinit]; intros s; apply init_ok_modes; exact Em).
  assert (Fa : c_aggerr c = false).
  { pose proof Hrun as K. unfold run_ap in K. destruct (assert _) as [u|]; [|discriminate K]. cbn [bind] in K. rewrite Ea in K. destruct (setup solve a inits) as [c0|] eqn:Es; [|discriminate K].
    assert (U : una c0) by (eapply (una_setup solve Hsolve a inits c0 Wa); [intros m _ _; apply Fa0|exact Hia|exact Es]).
    pose proof (una_loop_ap solve arnoldi cf a _ (approx_set_all solve qexp (cf_step cf) ApLgg a) Hun fuel c0 c (linv_setup solve cf a inits c0 Es) (iv_setup solve a inits c0 Hs Es) U K) as ((_ & X) & _). exact X. }
  exact (C61_lgg_safe_in_dense_time_partial solve Hsolve arnoldi qexp Hexp cf a0 a inits fuel c W F NI HZ Hnd NT Ea Hinit Hne Hrun Fa Fc).
Qed.
(** So in these settings an automaton that is unsafe in dense time is never reported unsafe: the analysis always ends with an exception. *)
Theorem C66_lgg_unsafe_always_raises_refuted cf a0 inits :
  wf_ha a0 -> inv_free a0 -> no_inputs a0 -> zero_plain cf a0 -> cf_strat cf = None -> cf_ce cf = true -> no_tt cf a0 -> Forall (init_ok solve a0) inits ->
  (forall s, In s inits -> is_error (get_mode a0 (ss_mode s)) = false) ->
  (cf_urgent cf = true -> exists rank : nat -> nat, forall t, t < List.length (ha_trans a0) -> rank (t_to (get_trans a0 t)) < rank (t_from (get_trans a0 t))) ->
  dense_error a0 (init_of_list inits) (cf_num cf) (cf_urgent cf) ->
  exists fuel e, run_ap solve arnoldi qexp ApLgg cf a0 inits fuel = Some (Err e).
Proof.
  intros W F NI HZ Hun Hce NT Hinit Hne Hu HD. destruct (C24_approx_terminates solve arnoldi qexp ApLgg cf a0 inits) as (fuel & H); [intros _; exact NI|intros g K; congruence|eapply init_fresh; exact Hinit|exact Hu|].
  exists fuel. destruct (run_ap solve arnoldi qexp ApLgg cf a0 inits fuel) as [[c|e]|] eqn:E; [|eauto|congruence].
  exfalso. exact (C61_lgg_unaggregated_returns_safe cf a0 inits fuel c W F NI HZ Hun Hce NT Hinit Hne E HD).
Qed.
End P.

From Verif Require Import Solver Ex_Core Ex_Approx.
Open Scope nat_scope.
(** the hypotheses are met by an automaton whose trajectory meets the guard at time 1/2 (raising), and by one that is safe (returning) *)
Example C66_lgg_unsafe_witness : exists fuel e, run_ap fm_solver arn0 qexp2 ApLgg exZ_cf (exQ (5 # 4) (7 # 4)) [exQ_s] fuel = Some (Err e).
Proof.
  destruct (exZ_hyps (5 # 4) (7 # 4)) as (H1 & H2 & H3 & H4 & H5 & H6). apply (C66_lgg_unsafe_always_raises_refuted fm_solver fm_solver_ok arn0 qexp2 qexp2_ok); auto using exQ_noinp; [|exact exQ_dense].
  intros _. exists (fun m => match m with 0 => 1 | _ => 0 end). intros t Ht. destruct t as [|t]; [vm_compute; lia|cbn in Ht; lia].
Qed.
Example C61_lgg_unaggregated_witness : ~ dense_error (exQ 90 100) (init_of_list [exQ_s]) 2 true /\ exists c, run_ap fm_solver arn0 qexp2 ApLgg exZ_cf (exQ 90 100) [exQ_s] 40 = Some (Ok c).
Proof.
  assert (H : match run_ap fm_solver arn0 qexp2 ApLgg exZ_cf (exQ 90 100) [exQ_s] 40 with Some (Ok c) => true | _ => false end = true) by (vm_compute; reflexivity).
  destruct (run_ap _ _ _ _ _ _ _ _) as [[c|]|] eqn:E; try discriminate H. split; [|eauto].
  destruct (exZ_hyps 90 100) as (H1 & H2 & H3 & H4 & H5 & H6). exact (C61_lgg_unaggregated_returns_safe fm_solver fm_solver_ok arn0 qexp2 qexp2_ok exZ_cf (exQ 90 100) [exQ_s] 40 c H1 H2 (exQ_noinp 90 100) H3 eq_refl eq_refl H4 H5 H6 E).
Qed.
