(** Properties of the reachability analysis (C19, C21, C29). *)
From Verif Require Import Base BaseFacts LpModel LpSpec SetSpec LpUtil LpFacts ChullFacts ApiSpec ApiFacts Automaton StateSet HybridSpec FlowFacts StateSpec
  StateFacts StateFacts2 StateFacts3 AutoFacts CoreModel HeapFacts CoreOps CoreGhost CoreHeap CoreInv CoreStep CoreCont CorePop CoreReplay CoreDeagg CoreSplit CoreMono CoreFinal
  CoreSpec CoreSetup CoreExt SkipZero SetupHa CoreTT.
Open Scope nat_scope.

(** ** Assumptions of the soundness theorems, in terms of the automaton and the settings *)
(** modes with inputs have no invariant (C43 shows the analysis is unsound otherwise) *)
Definition inputs_plain (a : ha) : Prop := forall m, m < List.length (ha_modes a) -> m_b (get_mode a m) <> None -> m_inv (get_mode a m) = [].
(** a zero dynamics matrix means nothing changes: no inputs, and expm(0) = I; only needed with skip_zero_dynamics_modes *)
Definition zero_plain (cf : cfg) (a : ha) : Prop := cf_skip0 cf = true ->
  forall m x, m < List.length (ha_modes a) -> m_a (get_mode a m) = Some x -> nnz x = 0 ->
    m_b (get_mode a m) = None /\ forall p, veq (c_nr x) (mapply (m_bm (get_mode a m) 1) p) p.
(** deaggregation needs require_same_path (the default) *)
Definition path_ok (cf : cfg) : Prop := forall g, cf_strat cf = Some g -> ag_deagg g = true -> ag_path g = true.
(** the executions the settings ask for: at most num_steps time steps, urgent transitions if process_urgent_guards *)
Definition rules_of (cf : cfg) : rules := mkRules (cf_urgent cf) (cf_num cf) (fun _ => false) false.

Section Core.
Variable solve : solver.
Hypothesis Hsolve : solver_ok solve.
Variable arnoldi : nat -> option (list Q) -> csr -> option csr -> nat -> list (list Q).

Definition core_rules (cf : cfg) (a : ha) : rules :=
  mkRules (cf_urgent cf) (cf_num cf) (fun m => match m_a (get_mode a m) with Some x => (nnz x =? 0) && cf_skip0 cf | None => false end) false.

Lemma no_tt_all cf a : no_tt cf a -> forall t, cf_tt cf && t_tt (get_trans a t) = false.
Proof.
  intros H t. destruct (cf_tt cf) eqn:E; [|reflexivity]. cbn [andb]. destruct (Nat.lt_ge_cases t (List.length (ha_trans a))) as [L|L]; [apply H; auto|].
  unfold get_trans. rewrite nth_overflow by auto. reflexivity.
Qed.
Lemma cap_error cf a (init : nat -> vec -> Prop) : wf_ha a -> zero_plain cf a -> (forall m p, init m p -> m < List.length (ha_modes a)) ->
  error_reachable 0 (rules_of cf) a init -> error_reachable 0 (core_rules cf a) a init.
Proof.
  intros W HZ Hi. apply (skip_error a W (rules_of cf) (core_rules cf a) init eq_refl eq_refl eq_refl); auto.
  intros m p u p' Hm He Hc Hu Ho. cbn [ru_cap core_rules] in Hc. destruct (m_a (get_mode a m)) as [x|] eqn:Ex; [|discriminate]. apply andb_true_iff in Hc as [Hc1 Hc2]. apply Nat.eqb_eq in Hc1.
  destruct (HZ Hc2 m x Hm Ex Hc1) as [Hb HI]. intros i Hi'. rewrite (Ho i Hi'). rewrite Hb. unfold m_dims in Hi'. rewrite Ex in Hi'. rewrite (HI p i Hi'). ring.
Qed.

Lemma core_final cf a0 a inits fuel c :
  wf_ha a0 -> inputs_plain a0 -> path_ok cf -> setup_ha cf a0 = Ok a -> no_tt cf a -> Forall (init_ok solve a0) inits ->
  run solve arnoldi cf a0 inits fuel = Some (Ok c) -> ~ bad cf c ->
  exists I0 D, wf_ha a /\ base solve cf a (core_rules cf a) I0 D (fun _ => False) [] c /\ c_wait c = [] /\ (forall N, N < nN c -> done a (core_rules cf a) I0 c N) /\
    (forall m x, err a m = false -> init_of_list inits m x -> inv_ok 0 (get_mode a m) x -> exists o, o < nO c /\ o_parent (getO c o) = None /\ pmode c o = m /\ I0 o x).
Proof.
  intros W0 Hinp Hpath Hs Htt Hinit Hrun Hb. exact (core_final_gen solve Hsolve arnoldi false cf a0 a inits fuel c W0 Hinp Hpath Hs Hinit (or_introl (fun t _ => no_tt_all cf a Htt t)) Hrun Hb).
Qed.

(** ** C19: the verdict "safe" is sound *)
(** When Core.run terminates and reports no error, neither for aggregated nor for concrete states, then no execution of the
    automaton with at most num_steps time steps enters an error mode: for every automaton, initial states, aggregation
    strategy (none, box, Arnoldi directions, convex hull; any pop order; with or without deaggregation) and settings. *)
Theorem C19_safe_verdict_sound cf a0 a inits fuel c :
  wf_ha a0 -> inputs_plain a0 -> zero_plain cf a0 -> path_ok cf -> setup_ha cf a0 = Ok a -> no_tt cf a -> Forall (init_ok solve a0) inits ->
  run solve arnoldi cf a0 inits fuel = Some (Ok c) -> c_aggerr c = false -> c_concerr c = false ->
  ~ error_reachable 0 (rules_of cf) a0 (init_of_list inits).
Proof.
  intros W0 Hinp HZ Hpath Hs Htt Hinit Hrun H1 H2 HE.
  assert (Hb : ~ bad cf c) by (intros [[_ K]|[_ K]]; congruence).
  destruct (core_final cf a0 a inits fuel c W0 Hinp Hpath Hs Htt Hinit Hrun Hb) as (I0 & D & W & B & Hw & Hd & Hi).
  destruct (setup_ha_ok cf a0 a W0 Hs) as (Em & _ & HE'). apply (cap_error cf a0 _ W0 HZ) in HE; [|intros m p; eapply init_of_list_mode; eauto].
  apply (HE' Htt) in HE. replace (core_rules cf a0) with (core_rules cf a) in HE.
  - exact (safe_sound solve cf a W (core_rules cf a) I0 (init_of_list inits) c D B Hw Hd Hi H1 H2 HE).
  - unfold core_rules. unfold get_mode. rewrite Em. reflexivity.
Qed.

(** ** C21: deaggregation decides *)
(** With deaggregation and stop_on_aggregated_error off, a terminated analysis without a concrete error is a safety proof,
    whatever errors the aggregated states had. *)
Theorem C21_deaggregation_decides cf a0 a inits fuel c g :
  wf_ha a0 -> inputs_plain a0 -> zero_plain cf a0 -> path_ok cf -> setup_ha cf a0 = Ok a -> no_tt cf a -> Forall (init_ok solve a0) inits ->
  cf_strat cf = Some g -> ag_deagg g = true -> cf_stop_agg cf = false ->
  run solve arnoldi cf a0 inits fuel = Some (Ok c) -> c_concerr c = false ->
  ~ error_reachable 0 (rules_of cf) a0 (init_of_list inits).
Proof.
  intros W0 Hinp HZ Hpath Hs Htt Hinit Hg Hdg Hsa Hrun H2 HE.
  assert (Hb : ~ bad cf c) by (intros [[_ K]|[K _]]; congruence).
  destruct (core_final cf a0 a inits fuel c W0 Hinp Hpath Hs Htt Hinit Hrun Hb) as (I0 & D & W & B & Hw & Hd & Hi).
  destruct (setup_ha_ok cf a0 a W0 Hs) as (Em & _ & HE'). apply (cap_error cf a0 _ W0 HZ) in HE; [|intros m p; eapply init_of_list_mode; eauto].
  apply (HE' Htt) in HE. replace (core_rules cf a0) with (core_rules cf a) in HE.
  - apply (safe_deagg solve cf a W (core_rules cf a) I0 (init_of_list inits) c D B Hw Hd Hi); [|exact H2|exact HE]. unfold dg. rewrite Hg. exact Hdg.
  - unfold core_rules. unfold get_mode. rewrite Em. reflexivity.
Qed.

(** ** C29: skipping zero-dynamics modes *)
(** stopping after one step in a mode where nothing changes loses no error *)
Theorem C29_skip_zero_dynamics_harmless cf a (init : nat -> vec -> Prop) lax :
  wf_ha a -> zero_plain cf a -> (forall m p, init m p -> m < List.length (ha_modes a)) ->
  error_reachable lax (rules_of cf) a init ->
  error_reachable lax (mkRules (cf_urgent cf) (cf_num cf) (fun m => match m_a (get_mode a m) with Some x => (nnz x =? 0) && cf_skip0 cf | None => false end) false) a init.
Proof.
  intros W HZ Hi. apply (skip_error a W (rules_of cf) (core_rules cf a) init eq_refl eq_refl eq_refl); auto.
  intros m p u p' Hm He Hc Hu Ho. cbn [ru_cap core_rules] in Hc. destruct (m_a (get_mode a m)) as [x|] eqn:Ex; [|discriminate]. apply andb_true_iff in Hc as [Hc1 Hc2]. apply Nat.eqb_eq in Hc1.
  destruct (HZ Hc2 m x Hm Ex Hc1) as [Hb HI]. intros i Hi'. rewrite (Ho i Hi'). rewrite Hb. unfold m_dims in Hi'. rewrite Ex in Hi'. rewrite (HI p i Hi'). ring.
Qed.
End Core.

(** ** C45: the printed verdict *)
(** "System is safe, although error modes were reachable when aggregation was used" is printed when only an aggregated state
    reached the error.  Whenever no aggregated error was found, or deaggregation is on (and stop_on_aggregated_error off),
    a printed "safe" is true; *)
Theorem C45_printed_verdict_truthful_partial solve arnoldi cf a0 a inits fuel c : solver_ok solve ->
  wf_ha a0 -> inputs_plain a0 -> zero_plain cf a0 -> path_ok cf -> setup_ha cf a0 = Ok a -> no_tt cf a -> Forall (init_ok solve a0) inits ->
  run solve arnoldi cf a0 inits fuel = Some (Ok c) ->
  printed_verdict c = VSafe \/ (printed_verdict c = VSafeAgg /\ cf_stop_agg cf = false /\ exists g, cf_strat cf = Some g /\ ag_deagg g = true) ->
  ~ error_reachable 0 (rules_of cf) a0 (init_of_list inits).
Proof.
  intros Hsv W0 Hinp HZ Hpath Hs Htt Hinit Hrun [Hv|(Hv & Hsa & g & Hg & Hd)]; unfold printed_verdict in Hv.
  - destruct (c_concerr c) eqn:E1; [discriminate|]. destruct (c_aggerr c) eqn:E2; [discriminate|]. eapply C19_safe_verdict_sound; eauto.
  - destruct (c_concerr c) eqn:E1; [discriminate|]. eapply C21_deaggregation_decides; eauto.
Qed.

From Verif Require Import SetFacts2 Solver Prop_Sets Ex_Core Ex_Zero Ex_TT.
Open Scope nat_scope.
(** ** The small automaton of Ex_Core.v meets the hypotheses *)
Lemma exC_pre g dgg : wf_ha (exC g) /\ inputs_plain (exC g) /\ zero_plain (exC_cf dgg) (exC g) /\ path_ok (exC_cf dgg) /\ no_tt (exC_cf dgg) (exC g) /\ Forall (init_ok fm_solver (exC g)) [exC_s].
Proof.
  split; [apply exC_wf|]. split; [|split; [|split; [|split; [|apply exC_init]]]].
  - intros m Hm. destruct m as [|[|[|m]]]; cbn; try congruence. cbn in Hm. lia.
  - intros _ m x Hm Hx Hn. destruct m as [|[|[|m]]]; cbn in Hx; try discriminate; [| |cbn in Hm; lia]; injection Hx as <-; discriminate.
  - intros g' Hg _. injection Hg as <-. reflexivity.
  - intro K. discriminate.
Qed.
Definition getc (o : option (res core)) : core := match o with Some (Ok c) => c | _ => core0 end.
Lemma getc_ok o : (match o with Some (Ok _) => true | _ => false end) = true -> o = Some (Ok (getc o)).
Proof. destruct o as [[c|e]|]; intro H; try discriminate. reflexivity. Qed.
Lemma exC_run dgg g : (match run fm_solver arn0 (exC_cf dgg) (exC g) [exC_s] 100 with Some (Ok _) => true | _ => false end) = true ->
  exists c, run fm_solver arn0 (exC_cf dgg) (exC g) [exC_s] 100 = Some (Ok c).
Proof. intro H. eexists. apply getc_ok. exact H. Qed.

(** with the guard x - y >= 5/2 nothing is reached, not even by the aggregated states *)
Example C19_witness : exists c, run fm_solver arn0 (exC_cf true) (exC (-(5#2))) [exC_s] 100 = Some (Ok c) /\ c_aggerr c = false /\ c_concerr c = false /\
  4 <= List.length (c_nodes c) + List.length (c_ops c) /\ ~ error_reachable 0 (rules_of (exC_cf true)) (exC (-(5#2))) (init_of_list [exC_s]).
Proof.
  pose (o := run fm_solver arn0 (exC_cf true) (exC (-(5#2))) [exC_s] 100).
  assert (H : o = Some (Ok (getc o))) by (apply getc_ok; vm_compute; reflexivity). exists (getc o). split; [exact H|].
  assert (H1 : c_aggerr (getc o) = false) by (vm_compute; reflexivity). assert (H2 : c_concerr (getc o) = false) by (vm_compute; reflexivity).
  split; [exact H1|]. split; [exact H2|]. split; [apply Nat.leb_le; vm_compute; reflexivity|].
  destruct (exC_pre (-(5#2)) true) as (A1 & A2 & A3 & A4 & A5 & A6).
  destruct (setup_ha (exC_cf true) (exC (-(5#2)))) as [a|e] eqn:Ea; [|vm_compute in Ea; discriminate].
  refine (C19_safe_verdict_sound fm_solver fm_solver_ok arn0 (exC_cf true) (exC (-(5#2))) a [exC_s] 100 (getc o) A1 A2 A3 A4 Ea _ A6 H H1 H2). intro K. discriminate.
Qed.
(** with x - y >= 3/2 the aggregated state reaches the error, deaggregation shows there is none *)
Example C21_witness : exists c, run fm_solver arn0 (exC_cf true) (exC (-(3#2))) [exC_s] 100 = Some (Ok c) /\ c_aggerr c = true /\ c_concerr c = false /\
  ~ error_reachable 0 (rules_of (exC_cf true)) (exC (-(3#2))) (init_of_list [exC_s]).
Proof.
  pose (o := run fm_solver arn0 (exC_cf true) (exC (-(3#2))) [exC_s] 100).
  assert (H : o = Some (Ok (getc o))) by (apply getc_ok; vm_compute; reflexivity). exists (getc o). split; [exact H|].
  assert (H1 : c_aggerr (getc o) = true) by (vm_compute; reflexivity). assert (H2 : c_concerr (getc o) = false) by (vm_compute; reflexivity).
  split; [exact H1|]. split; [exact H2|].
  destruct (exC_pre (-(3#2)) true) as (A1 & A2 & A3 & A4 & A5 & A6).
  destruct (setup_ha (exC_cf true) (exC (-(3#2)))) as [a|e] eqn:Ea; [|vm_compute in Ea; discriminate].
  assert (Hn : no_tt (exC_cf true) a) by (intro K; discriminate).
  exact (C21_deaggregation_decides fm_solver fm_solver_ok arn0 (exC_cf true) (exC (-(3#2))) a [exC_s] 100 (getc o) _ A1 A2 A3 A4 Ea Hn A6 eq_refl eq_refl eq_refl H H2).
Qed.
(** the execution x = y: 0, 1, 2, then mode b, one more step, x - y >= 0 *)
Lemma exC_reach0 : error_reachable 0 (rules_of (exC_cf false)) (exC 0) (init_of_list [exC_s]).
Proof.
  set (p0 := of_list [0%Q; 0%Q; 1%Q]). set (p1 := of_list [1%Q; 1%Q; 1%Q]). set (p2 := of_list [2%Q; 2%Q; 1%Q]). set (p3 := of_list [3%Q; 3%Q; 1%Q]).
  assert (S1 : forall nm inv p q, (forall i, i < 3 -> (q i == match i with O => p 0%nat + p 2%nat | S O => p 1%nat + p 2%nat | _ => p 2%nat end)%Q) -> one_step (exC_mode nm inv) p (fun _ => 0%Q) q).
  { intros nm inv p q Hq i Hi. change (m_dims (exC_mode nm inv)) with 3 in Hi. cbn [m_b m_bm exC_mode]. rewrite exC_bm_ok by auto. rewrite (Hq i Hi). change (inject_Z (Z.of_nat 1)) with 1%Q.
    destruct i as [|[|i]]; ring. }
  assert (V : forall p, (p 0%nat <= 3)%Q -> inv_ok 0 (get_mode (exC 0) 0) p).
  { intros p Hp c [<-|[]]. left. cbn. lra. }
  assert (R0 : reach 0 (rules_of (exC_cf false)) (exC 0) (init_of_list [exC_s]) 0 p0 0 0).
  { apply R_init; [|apply V; unfold p0; cbn; lra]. exists exC_s. split; [left; reflexivity|]. split; [reflexivity|].
    change (ss_lpi exC_s) with exC_l. assert (H : from_box fm_solver [(0, 0); (0, 0); (1, 1)]%Q 0 false = Ok exC_l) by (vm_compute; reflexivity).
    destruct (from_box_in fm_solver fm_solver_ok _ _ _ _ H) as (_ & Hb & _). apply Hb.
    intros i lb ub Hn. destruct i as [|[|[|i]]]; cbn in Hn; try (injection Hn as <- <-; unfold p0; cbn; lra). destruct i; discriminate. }
  assert (R1 : reach 0 (rules_of (exC_cf false)) (exC 0) (init_of_list [exC_s]) 0 p1 1 1).
  { eapply R_step with (u := fun _ => 0%Q); [exact R0|apply V; unfold p0; cbn; lra|cbn; lia|discriminate|exact Logic.I|].
    apply S1. intros i Hi. destruct i as [|[|[|i]]]; [| | |lia]; unfold p0, p1; cbn; lra. }
  assert (R2 : reach 0 (rules_of (exC_cf false)) (exC 0) (init_of_list [exC_s]) 0 p2 2 2).
  { eapply R_step with (u := fun _ => 0%Q); [exact R1|apply V; unfold p1; cbn; lra|cbn; lia|discriminate|exact Logic.I|].
    apply S1. intros i Hi. destruct i as [|[|[|i]]]; [| | |lia]; unfold p1, p2; cbn; lra. }
  assert (R3 : reach 0 (rules_of (exC_cf false)) (exC 0) (init_of_list [exC_s]) 1 p2 0 2).
  { change 1 with (t_to (get_trans (exC 0) 0)). eapply R_jump; [cbn; lia|exact R2| |split; [left; lia|discriminate]|].
    - unfold guard_ok, poly. cbn. intros [|[|i]] r c Hr Hc; try discriminate. injection Hr as <-. injection Hc as <-. unfold p2. cbn. lra.
    - exists (fun _ => 0%Q). split; [exact Logic.I|]. intros i Hi. cbn. ring. }
  exists 1, p3, 1, 3. split; [cbn; lia|]. split; [reflexivity|]. split; [|split; [|split; [left; lia|discriminate]]].
  - eapply R_step with (u := fun _ => 0%Q); [exact R3|intros c []|cbn; lia|discriminate|exact Logic.I|].
    apply S1. intros i Hi. destruct i as [|[|[|i]]]; [| | |lia]; unfold p2, p3; cbn; lra.
  - unfold guard_ok, poly. cbn. intros [|[|i]] r c Hr Hc; try discriminate. injection Hr as <-. injection Hc as <-. unfold p3. cbn. lra.
Qed.
(** without deaggregation the printed text "System is safe, although ..." is false: the error is reachable *)
Theorem C45_printed_verdict_refuted : exists c, run fm_solver arn0 (exC_cf false) (exC 0) [exC_s] 100 = Some (Ok c) /\
  wf_ha (exC 0) /\ Forall (init_ok fm_solver (exC 0)) [exC_s] /\ printed_verdict c = VSafeAgg /\
  error_reachable 0 (rules_of (exC_cf false)) (exC 0) (init_of_list [exC_s]).
Proof.
  pose (o := run fm_solver arn0 (exC_cf false) (exC 0) [exC_s] 100).
  assert (H : o = Some (Ok (getc o))) by (apply getc_ok; vm_compute; reflexivity). exists (getc o). split; [exact H|].
  split; [apply exC_wf|]. split; [apply exC_init|]. split; [vm_compute; reflexivity|exact exC_reach0].
Qed.

(** C29: a mode with a zero matrix where the theorem applies: the error is found although only one step is made *)
Example C29_witness : zero_plain (exZ_cf true) (exZ false 0) /\
  error_reachable 0 (rules_of (exZ_cf true)) (exZ false 0) (init_of_list [exZ_s false]) /\
  error_reachable 0 (mkRules false 5 (fun m => match m_a (get_mode (exZ false 0) m) with Some x => (nnz x =? 0) && true | None => false end) false) (exZ false 0) (init_of_list [exZ_s false]).
Proof.
  assert (Z : zero_plain (exZ_cf true) (exZ false 0)).
  { intros _ m x Hm Hx Hn. destruct m as [|[|m]]; cbn in Hx; [|discriminate|cbn in Hm; lia]. split; [reflexivity|]. injection Hx as <-.
    intros p i Hi. apply exZ_id. exact Hi. }
  split; [exact Z|]. assert (R := exZ_reach0 5 ltac:(lia)). split; [exact R|].
  refine (C29_skip_zero_dynamics_harmless (exZ_cf true) _ _ 0%Q (exZ_wf false 0) Z _ R).
  intros m p (s & [<-|[]] & Hm & _). vm_compute in Hm. subst m. cbn. lia.
Qed.
(** C29 fails with inputs: x' = u is a zero matrix too, the analysis stops after one step and reports "safe" *)
Theorem C29_skip_zero_dynamics_inputs_refuted : exists c, wf_ha (exZ true 2) /\ Forall (init_ok fm_solver (exZ true 2)) [exZ_s true] /\
  run fm_solver arn0 (exZ_cf true) (exZ true 2) [exZ_s true] 100 = Some (Ok c) /\ printed_verdict c = VSafe /\
  error_reachable 0 (rules_of (exZ_cf true)) (exZ true 2) (init_of_list [exZ_s true]).
Proof.
  pose (o := run fm_solver arn0 (exZ_cf true) (exZ true 2) [exZ_s true] 100). exists (getc o).
  split; [apply exZ_wf|]. split; [apply exZ_init|]. split; [apply getc_ok; vm_compute; reflexivity|]. split; [vm_compute; reflexivity|exact exZ_reach].
Qed.
(** ... while with skip_zero_dynamics_modes off it is found *)
Example C29_inputs_witness : exists c, run fm_solver arn0 (exZ_cf false) (exZ true 2) [exZ_s true] 100 = Some (Ok c) /\ printed_verdict c = VUnsafe.
Proof.
  pose (o := run fm_solver arn0 (exZ_cf false) (exZ true 2) [exZ_s true] 100). exists (getc o). split; [apply getc_ok; vm_compute; reflexivity|vm_compute; reflexivity].
Qed.

(** ** C44: the flag took_tt_transition outlives the state that set it *)
(** The first state takes its time-triggered transition at the last step, the flag stays set, and the second state, which
    reaches the error, is dropped: "System is safe" is printed, with the default settings. *)
Theorem C44_tt_flag_refuted : exists c, wf_ha exT /\ Forall (init_ok fm_solver exT) [exT_s 0; exT_s 1] /\
  run fm_solver arn0 (exT_cf true) exT [exT_s 0; exT_s 1] 100 = Some (Ok c) /\ printed_verdict c = VSafe /\
  error_reachable 0 (rules_of (exT_cf true)) exT (init_of_list [exT_s 0; exT_s 1]).
Proof.
  pose (o := run fm_solver arn0 (exT_cf true) exT [exT_s 0; exT_s 1] 100). exists (getc o).
  split; [apply exT_wf|]. split; [apply exT_init|]. split; [apply getc_ok; vm_compute; reflexivity|]. split; [vm_compute; reflexivity|exact exT_reach].
Qed.
Example C44_witness : exists c, run fm_solver arn0 (exT_cf false) exT [exT_s 0; exT_s 1] 100 = Some (Ok c) /\ printed_verdict c = VUnsafe.
Proof.
  pose (o := run fm_solver arn0 (exT_cf false) exT [exT_s 0; exT_s 1] 100). exists (getc o). split; [apply getc_ok; vm_compute; reflexivity|vm_compute; reflexivity].
Qed.
