(** C63: the analysis without aggregation is exact, and for automata without invariants the strategies agree. *)
From Verif Require Import Base BaseFacts LpModel LpSpec SetSpec LpUtil LpFacts ChullFacts ApiSpec ApiFacts Automaton StateSet HybridSpec FlowFacts StateSpec
  StateFacts StateFacts2 StateFacts3 AutoFacts CoreModel HeapFacts CoreOps CoreGhost CoreHeap CoreInv CoreSpec CoreSetup CoreExt SetupHa CoreSub SetupHaSub CoreDag3 CoreConc Prop_Core Prop_Dense Prop_Core2.
From Coq Require Import Lia.
Open Scope nat_scope.

Section C63.
Variable solve : solver.
Hypothesis Hsolve : solver_ok solve.
Variable arnoldi : nat -> option (list Q) -> csr -> option csr -> nat -> list (list Q).

Lemma una_setup a inits c : wf_ha a -> inputs_plain a -> Forall (init_ok solve a) inits -> setup solve a inits = Ok c -> una c.
Proof.
  intros W Hinp HF Hs. destruct (setup_ok solve Hsolve a W Hinp inits c HF Hs) as (P & _).
  split; [split|split; [apply (p_rep _ _ _ P)|apply (p_dw _ _ _ P)]]; [|apply (p_ag _ _ _ P)].
  intros i Hi. rewrite (p_n _ _ _ P) in Hi. pose proof (p_st _ _ _ P i Hi) as K. unfold init_good in K. apply K.
Qed.

(** At every point of an analysis with the Unaggregated strategy every state set is concrete, no error of an aggregated set is noted and no
    deaggregation is under way. *)
Theorem C63_never_aggregated cf a0 a inits c :
  wf_ha a0 -> inputs_plain a0 -> cf_strat cf = None -> setup_ha cf a0 = Ok a -> Forall (init_ok solve a0) inits ->
  reached solve arnoldi cf a inits c ->
  (forall i, i < List.length (c_states c) -> ss_conc (getS c i) = true) /\ c_aggerr c = false /\ doing_replay c = false.
Proof.
  intros W0 Hinp Hun Hs Hinit R. destruct (setup_ha_ok cf a0 a W0 Hs) as (Em & W & _).
  assert (Hinp' : inputs_plain a) by (intros m Hm; rewrite (get_mode_eq a0 a m Em); apply Hinp; rewrite <- Em; exact Hm).
  assert (HF : Forall (init_ok solve a) inits) by (eapply Forall_impl; [|exact Hinit]; intro s; apply init_ok_modes; exact Em).
  destruct (una_reached solve arnoldi cf a Hun inits c) as ((U1 & U2) & U3 & U4); auto.
  { intros c0 H0. apply (una_setup a inits c0 W Hinp' HF H0). }
  split; [exact U1|]. split; [exact U2|]. unfold doing_replay. rewrite U3, U4. reflexivity.
Qed.

(** The verdict is exact up to the tolerance of the invariants: without an error no execution enters an error mode, and an error is an execution
    (with invariants relaxed by 1e-13) that does; "safe, but an aggregated set met an error" is never printed. *)
Theorem C63_unaggregated_exact cf a0 a inits fuel c :
  wf_ha a0 -> inputs_plain a0 -> zero_plain cf a0 -> cf_strat cf = None -> setup_ha cf a0 = Ok a -> no_tt cf a -> Forall (init_ok solve a0) inits ->
  run solve arnoldi cf a0 inits fuel = Some (Ok c) ->
  (printed_verdict c = VSafe /\ ~ error_reachable 0 (rules_of cf) a0 (init_of_list inits)) \/
  (printed_verdict c = VUnsafe /\ error_reachable tol13 (rules_of cf) a0 (init_of_list inits)).
Proof.
  intros W0 Hinp HZ Hun Hs Htt Hinit Hrun.
  assert (R : reached solve arnoldi cf a inits c).
  { unfold run in Hrun. rewrite Hs in Hrun. destruct (assert _) as [u|] in Hrun; [|discriminate]. cbn [bind] in Hrun. destruct (setup solve a inits) as [c0|] eqn:E0; [|discriminate].
    apply (run_reached solve arnoldi cf a inits fuel c0); [apply r_setup; exact E0|exact Hrun]. }
  destruct (C63_never_aggregated cf a0 a inits c W0 Hinp Hun Hs Hinit R) as (_ & Ea & _). unfold printed_verdict. rewrite Ea.
  destruct (c_concerr c) eqn:Ec.
  - right. split; [reflexivity|]. apply (C20_concrete_error_real solve Hsolve arnoldi cf a0 a inits fuel c); auto. intros g K. congruence.
  - left. split; [reflexivity|]. apply (C19_safe_verdict_sound solve Hsolve arnoldi cf a0 a inits fuel c); auto. intros g K. congruence.
Qed.

(** ** without invariants the tolerance disappears *)
Lemma free_inv_ok a lax m p : inv_free a -> inv_ok lax (get_mode a m) p.
Proof. intros F q Hq. rewrite F in Hq. destruct Hq. Qed.
Lemma free_reach a lax lax' ru (init : nat -> vec -> Prop) m p k n : inv_free a -> reach lax ru a init m p k n -> reach lax' ru a init m p k n.
Proof.
  intros F R. induction R.
  - apply R_init; [assumption|apply free_inv_ok; exact F].
  - eapply R_step; eauto. apply free_inv_ok; exact F.
  - eapply R_jump; eauto. match goal with H : may_jump _ _ _ _ _ |- _ => destruct H as [[K|[K1 K2]] _] end; (split; [|intros _; apply free_inv_ok; exact F]); [left; exact K|right; split; [exact K1|apply free_inv_ok; exact F]].
Qed.
Lemma free_error a lax lax' ru (init : nat -> vec -> Prop) : inv_free a -> error_reachable lax ru a init -> error_reachable lax' ru a init.
Proof.
  intros F (t & p & k & n & K1 & K2 & K3 & K4 & [K5 _]). exists t, p, k, n. split; [exact K1|]. split; [exact K2|]. split; [eapply free_reach; eauto|]. split; [exact K4|].
  split; [|intros _; apply free_inv_ok; exact F]. destruct K5 as [K|[K _]]; [left; exact K|right; split; [exact K|apply free_inv_ok; exact F]].
Qed.
Lemma free_inputs a : inv_free a -> inputs_plain a.
Proof. intros F m _ _. apply F. Qed.

(** For automata without invariants the verdict of the Unaggregated strategy is exactly whether an error mode can be entered. *)
Theorem C63_unaggregated_iff cf a0 a inits fuel c :
  wf_ha a0 -> inv_free a0 -> zero_plain cf a0 -> cf_strat cf = None -> setup_ha cf a0 = Ok a -> no_tt cf a -> Forall (init_ok solve a0) inits ->
  run solve arnoldi cf a0 inits fuel = Some (Ok c) ->
  (printed_verdict c = VUnsafe <-> error_reachable 0 (rules_of cf) a0 (init_of_list inits)) /\ printed_verdict c <> VSafeAgg.
Proof.
  intros W0 F HZ Hun Hs Htt Hinit Hrun. destruct (C63_unaggregated_exact cf a0 a inits fuel c W0 (free_inputs a0 F) HZ Hun Hs Htt Hinit Hrun) as [[E N]|[E N]]; rewrite E; (split; [|discriminate]).
  - split; [discriminate|contradiction].
  - split; [intros _; eapply free_error; eauto|reflexivity].
Qed.

(** Two analyses of one automaton without invariants, with the same number of steps and the same setting for urgent guards, any strategies without
    deaggregation and any other settings, never contradict each other: if one reports an error the other does not say "safe". *)
Theorem C63_settings_agree cf1 cf2 a0 a1 a2 inits fuel1 fuel2 c1 c2 :
  wf_ha a0 -> inv_free a0 -> zero_plain cf2 a0 -> no_deagg cf1 -> no_deagg cf2 -> cf_num cf1 = cf_num cf2 -> cf_urgent cf1 = cf_urgent cf2 ->
  setup_ha cf1 a0 = Ok a1 -> setup_ha cf2 a0 = Ok a2 -> no_tt cf1 a1 -> no_tt cf2 a2 -> Forall (init_ok solve a0) inits ->
  run solve arnoldi cf1 a0 inits fuel1 = Some (Ok c1) -> run solve arnoldi cf2 a0 inits fuel2 = Some (Ok c2) ->
  printed_verdict c1 = VUnsafe -> printed_verdict c2 <> VSafe.
Proof.
  intros W0 F HZ Hd1 Hd2 En Eu Hs1 Hs2 Ht1 Ht2 Hinit R1 R2 E1 E2. unfold printed_verdict in E1, E2.
  destruct (c_concerr c1) eqn:K1; [|destruct (c_aggerr c1); discriminate]. destruct (c_concerr c2) eqn:K2; [discriminate|]. destruct (c_aggerr c2) eqn:K3; [discriminate|].
  pose proof (C20_concrete_error_real solve Hsolve arnoldi cf1 a0 a1 inits fuel1 c1 W0 (free_inputs a0 F) Hd1 Hs1 Ht1 Hinit R1 K1) as X1.
  assert (P2 : path_ok cf2) by (intros g K K'; rewrite (Hd2 g K) in K'; discriminate).
  apply (C19_safe_verdict_sound solve Hsolve arnoldi cf2 a0 a2 inits fuel2 c2 W0 (free_inputs a0 F) HZ P2 Hs2 Ht2 Hinit R2 K3 K2).
  replace (rules_of cf2) with (rules_of cf1) by (unfold rules_of; rewrite En, Eu; reflexivity). eapply free_error; eauto.
Qed.

(** Two analyses without aggregation give the same verdict, whatever the other settings are. *)
Theorem C63_unaggregated_settings cf1 cf2 a0 a1 a2 inits fuel1 fuel2 c1 c2 :
  wf_ha a0 -> inv_free a0 -> zero_plain cf1 a0 -> zero_plain cf2 a0 -> cf_strat cf1 = None -> cf_strat cf2 = None -> cf_num cf1 = cf_num cf2 -> cf_urgent cf1 = cf_urgent cf2 ->
  setup_ha cf1 a0 = Ok a1 -> setup_ha cf2 a0 = Ok a2 -> no_tt cf1 a1 -> no_tt cf2 a2 -> Forall (init_ok solve a0) inits ->
  run solve arnoldi cf1 a0 inits fuel1 = Some (Ok c1) -> run solve arnoldi cf2 a0 inits fuel2 = Some (Ok c2) ->
  printed_verdict c1 = printed_verdict c2.
Proof.
  intros W0 F HZ1 HZ2 Hu1 Hu2 En Eu Hs1 Hs2 Ht1 Ht2 Hinit R1 R2.
  destruct (C63_unaggregated_iff cf1 a0 a1 inits fuel1 c1 W0 F HZ1 Hu1 Hs1 Ht1 Hinit R1) as [A1 B1]. destruct (C63_unaggregated_iff cf2 a0 a2 inits fuel2 c2 W0 F HZ2 Hu2 Hs2 Ht2 Hinit R2) as [A2 B2].
  replace (rules_of cf2) with (rules_of cf1) in A2 by (unfold rules_of; rewrite En, Eu; reflexivity).
  assert (X : printed_verdict c1 = VUnsafe <-> printed_verdict c2 = VUnsafe) by tauto. destruct (printed_verdict c1), (printed_verdict c2); try congruence; destruct X as [X Y]; try (discriminate (X eq_refl)); discriminate (Y eq_refl).
Qed.
End C63.

From Verif Require Import SetFacts2 Solver Prop_Sets Ex_Core Ex_Late.
Open Scope nat_scope.
(** Non-vacuity: mode b is entered at steps 2, 3 and 4 and is analysed from each of them *)
Example C63_exact_witness : exists c, run fm_solver arn0 exC_plain (exC 0) [exC_s] 100 = Some (Ok c) /\ printed_verdict c = VUnsafe /\
  exists a, setup_ha exC_plain (exC 0) = Ok a /\ wf_ha (exC 0) /\ inputs_plain (exC 0) /\ zero_plain exC_plain (exC 0) /\ cf_strat exC_plain = None /\ no_tt exC_plain a /\ Forall (init_ok fm_solver (exC 0)) [exC_s].
Proof.
  pose (o := run fm_solver arn0 exC_plain (exC 0) [exC_s] 100).
  assert (H : o = Some (Ok (getc o))) by (apply getc_ok; vm_compute; reflexivity). exists (getc o). split; [exact H|]. split; [vm_compute; reflexivity|].
  destruct (exC_pre 0 false) as (A1 & A2 & A3 & A4 & A5 & A6). destruct (setup_ha exC_plain (exC 0)) as [a|e] eqn:Ea; [|vm_compute in Ea; discriminate].
  exists a. split; [reflexivity|]. split; [exact A1|]. split; [exact A2|]. split; [|split; [reflexivity|split; [intro K; discriminate|exact A6]]].
  intros _. apply A3. reflexivity.
Qed.
(** the same with an aggregating strategy whose box meets the error guard although no execution does: safe without aggregation only *)
Definition big_run (g : Q) (cf : cfg) := run fm_solver arn0 cf (exC g) [exC_s] 100.
Theorem C63_aggregation_differs : exists c1 c2, big_run (-(1#2)) (exC_cf false) = Some (Ok c1) /\ big_run (-(1#2)) exC_plain = Some (Ok c2) /\ printed_verdict c1 = VSafeAgg /\ printed_verdict c2 = VSafe.
Proof.
  pose (o1 := big_run (-(1#2)) (exC_cf false)). pose (o2 := big_run (-(1#2)) exC_plain).
  assert (H1 : o1 = Some (Ok (getc o1))) by (apply getc_ok; vm_compute; reflexivity). assert (H2 : o2 = Some (Ok (getc o2))) by (apply getc_ok; vm_compute; reflexivity).
  exists (getc o1), (getc o2). split; [exact H1|]. split; [exact H2|]. split; vm_compute; reflexivity.
Qed.
(** no aggregation and box aggregation on an automaton without invariants: both report the error, or both say safe *)
Definition exQ_plain : cfg := mkCfg 2 1 false false false false false false true None.
Example C63_agree_witness lo hi v : (lo, hi, v) = (9%Q, 10%Q, VSafe) \/ (lo, hi, v) = (3%Q, 5%Q, VUnsafe) ->
  exists a1 a2 c1 c2, wf_ha (exQ lo hi) /\ inv_free (exQ lo hi) /\ zero_plain exQ_plain (exQ lo hi) /\ zero_plain (exQ_cf false) (exQ lo hi) /\ no_deagg exQ_plain /\ no_deagg (exQ_cf false) /\
    setup_ha exQ_plain (exQ lo hi) = Ok a1 /\ setup_ha (exQ_cf false) (exQ lo hi) = Ok a2 /\ no_tt exQ_plain a1 /\ no_tt (exQ_cf false) a2 /\ Forall (init_ok fm_solver (exQ lo hi)) [exQ_s] /\
    run fm_solver arn0 exQ_plain (exQ lo hi) [exQ_s] 50 = Some (Ok c1) /\ run fm_solver arn0 (exQ_cf false) (exQ lo hi) [exQ_s] 50 = Some (Ok c2) /\ printed_verdict c1 = v /\ printed_verdict c2 = v.
Proof.
  intro K.
  assert (B : forall cf, cf = exQ_plain \/ cf = exQ_cf false -> (match run fm_solver arn0 cf (exQ lo hi) [exQ_s] 50 with Some (Ok c) => match printed_verdict c, v with VSafe, VSafe | VUnsafe, VUnsafe => true | _, _ => false end | _ => false end) = true).
  { intros cf [->| ->]; destruct K as [[= -> -> ->]|[= -> -> ->]]; vm_compute; reflexivity. }
  assert (C : forall cf, cf = exQ_plain \/ cf = exQ_cf false -> exists c, run fm_solver arn0 cf (exQ lo hi) [exQ_s] 50 = Some (Ok c) /\ printed_verdict c = v).
  { intros cf Hc. specialize (B cf Hc). destruct (run _ _ _ _ _ _) as [[c|]|]; [|discriminate|discriminate]. exists c. split; [reflexivity|]. destruct (printed_verdict c), v; try discriminate; reflexivity. }
  clear B. destruct (C exQ_plain) as (c1 & R1 & V1); [auto|]. destruct (C (exQ_cf false)) as (c2 & R2 & V2); [auto|]. clear C.
  exists (exQ lo hi), (exQ_a false lo hi), c1, c2.
  split; [apply exQ_wf|]. split; [apply exQ_free|]. split; [intro X; discriminate X|]. split; [apply exQ_zero|]. split; [intros g X; discriminate X|]. split; [apply exQ_nd|].
  split; [destruct K as [[= -> -> ->]|[= -> -> ->]]; vm_compute; reflexivity|]. split; [destruct K as [[= -> -> ->]|[= -> -> ->]]; vm_compute; reflexivity|].
  split; [intro X; discriminate X|]. split; [|split; [apply exQ_init|auto]].
  destruct K as [[= -> -> ->]|[= -> -> ->]]; intros _ [|t] Ht; try reflexivity; vm_compute in Ht; lia.
Qed.
