(** C20 with deaggregation: a concrete error is an execution of the automaton without its invariants. *)
From Verif Require Import Base BaseFacts LpModel LpSpec SetSpec LpUtil LpFacts ChullFacts ApiSpec ApiFacts Automaton StateSet HybridSpec FlowFacts StateSpec
  StateFacts StateFacts2 StateFacts3 AutoFacts CoreModel HeapFacts CoreOps CoreGhost CoreHeap CoreInv CoreSpec CoreSetup CoreExt SetupHa CoreSub CorePop SetupHaSub Prop_Core CoreDag CoreDag2 CoreDag3 CoreSubD Prop_Core2.
Open Scope nat_scope.

Section D.
Variable solve : solver.
Hypothesis Hsolve : solver_ok solve.
Variable arnoldi : nat -> option (list Q) -> csr -> option csr -> nat -> list (list Q).

Lemma sinv_setup cf a inits c : wf_ha a -> inputs_plain a -> Forall (init_ok solve a) inits -> setup solve a inits = Ok c -> sinv solve cf a (init_of_list inits) c.
Proof.
  intros W Hinp HF Hs. destruct (setup_ok solve Hsolve a W Hinp inits c HF Hs) as (P & _ & K). pose proof (p_n _ _ _ P) as En. constructor.
  - apply (cinv_setup _ _ _ _ _ Hs).
  - split; [|split].
    + intro i. destruct (lt_dec i (nS c)) as [Hi|Hi].
      2:{ apply cg_nonconc. unfold getS. rewrite nth_overflow by lia. reflexivity. }
      intros _ He. assert (Hi' : i < nO c) by lia. destruct (p_st _ _ _ P i Hi') as ((_ & _ & _ & G0) & G1 & _ & _ & G4 & G5 & _). split; [apply G0; exact He|]. split; [congruence|]. intros p Hp. rewrite G1, G4.
      destruct (K i p (conj Hi' Hp)) as [K1 K2]. unfold pmode in K1, K2. rewrite (p_op _ _ _ P i Hi') in K1, K2. cbn [o_post] in K1, K2. exists 0. apply R_init; [exact K1|].
      destruct (lt_dec (ss_mode (getS c i)) (List.length (ha_modes a))) as [Hm|Hm]; [apply inv_dropm; exact Hm|]. intros z Hz. exfalso.
      unfold get_mode in Hz. rewrite nth_overflow in Hz; [destruct Hz|]. cbn [drop_inv ha_modes]. rewrite map_length. lia.
    + intros o Ho t M Et. rewrite (p_op _ _ _ P o Ho) in Et. discriminate.
    + rewrite (p_co _ _ _ P). discriminate.
  - intros p chs Hin. rewrite (p_dw _ _ _ P) in Hin. destruct Hin.
  - intros r Hr. rewrite (p_rep _ _ _ P) in Hr. discriminate.
Qed.

(** guards that only became smaller *)
Definition sub_ha (a a0 : ha) : Prop := ha_modes a = ha_modes a0 /\ List.length (ha_trans a) = List.length (ha_trans a0) /\
  forall t, t < List.length (ha_trans a) -> t_from (get_trans a t) = t_from (get_trans a0 t) /\ t_to (get_trans a t) = t_to (get_trans a0 t) /\ t_reset (get_trans a t) = t_reset (get_trans a0 t) /\
    t_mink (get_trans a t) = t_mink (get_trans a0 t) /\ forall p, guard_ok (get_trans a t) p -> guard_ok (get_trans a0 t) p.
Lemma sub_trans a b d : sub_ha a b -> sub_ha b d -> sub_ha a d.
Proof.
  intros (A1 & A2 & A3) (B1 & B2 & B3). split; [congruence|]. split; [congruence|]. intros t Ht. destruct (A3 t Ht) as (K1 & K2 & K3 & K4 & K5). destruct (B3 t ltac:(lia)) as (L1 & L2 & L3 & L4 & L5).
  repeat (split; [congruence|]). auto.
Qed.
Lemma sub_refl a : sub_ha a a. Proof. split; [reflexivity|]. split; [reflexivity|]. auto 10. Qed.
Lemma drop_get a a0 m : ha_modes a = ha_modes a0 -> get_mode (drop_inv a) m = get_mode (drop_inv a0) m.
Proof. intro E. unfold get_mode, drop_inv. cbn [ha_modes]. rewrite E. reflexivity. Qed.
Lemma sub_reach lax ru a a0 init : sub_ha a a0 -> forall m p k n, reach lax ru (drop_inv a) init m p k n -> reach lax ru (drop_inv a0) init m p k n.
Proof.
  intros (E1 & E2 & E3). induction 1 as [m p Hi Hv|m p k n u p' H IH Hv Hn Hc Hu Ho|t p p' k n Ht H IH Hg Hj Hr].
  - apply R_init; rewrite <- ?(drop_get a a0) by auto; auto.
  - apply R_step with p u; rewrite <- ?(drop_get a a0) by auto; auto.
  - change (ha_trans (drop_inv a)) with (ha_trans a) in Ht. destruct (E3 t Ht) as (K1 & K2 & K3 & K4 & K5). change (get_trans (drop_inv a) t) with (get_trans a t) in *. rewrite K2. rewrite K1 in IH, Hj.
    change (get_trans a0 t) with (get_trans (drop_inv a0) t). apply R_jump with p k.
    + change (t < List.length (ha_trans a0)). lia.
    + exact IH.
    + apply K5. exact Hg.
    + rewrite <- (drop_get a a0) by auto. exact Hj.
    + change (get_trans (drop_inv a0) t) with (get_trans a0 t). unfold reset_ok, post_dims in *. rewrite K1, K3, K4, (drop_get a a0) in Hr by auto. exact Hr.
Qed.
Lemma sub_error lax ru a a0 init : sub_ha a a0 -> error_reachable lax ru (drop_inv a) init -> error_reachable lax ru (drop_inv a0) init.
Proof.
  intros HS (t & p & k & n & Ht & He & HR & Hg & Hj). apply (sub_reach _ _ _ _ _ HS) in HR. destruct HS as (E1 & E2 & E3). change (ha_trans (drop_inv a)) with (ha_trans a) in Ht. destruct (E3 t Ht) as (K1 & K2 & _ & _ & K5).
  change (get_trans (drop_inv a) t) with (get_trans a t) in *. rewrite K1 in HR, Hj. rewrite K2 in He. rewrite (drop_get a a0) in He, Hj by auto. exists t, p, k, n. change (get_trans (drop_inv a0) t) with (get_trans a0 t).
  split; [change (t < List.length (ha_trans a0)); lia|]. split; [exact He|]. split; [exact HR|]. split; [apply K5; exact Hg|exact Hj].
Qed.
Lemma setup_sub cf a0 a : wf_ha a0 -> setup_ha cf a0 = Ok a -> no_tt cf a -> sub_ha a a0.
Proof.
  intros W H Hn. unfold setup_ha in H. apply bind_ok in H as (a1 & H1 & H). apply bind_ok in H as (a2 & H2 & H). apply bind_ok in H as (? & _ & H). apply ok_inj in H. subst a2.
  assert (W1 : wf_ha a1) by (destruct (cf_tt cf); [eapply detect_wf; eauto|apply ok_inj in H1; subst a1; exact W]).
  assert (S2 : sub_ha a a1 /\ (cf_tt cf = true -> forall t, t < List.length (ha_trans a1) -> t_tt (get_trans a1 t) = false)).
  { destruct (cf_gs cf); [|apply ok_inj in H2; subst a; split; [apply sub_refl|intros Ht t; apply Hn; exact Ht]]. pose proof (gs_len a1 a H2) as El. split.
    - split; [apply (gs_modes a1 a H2)|]. split; [exact El|]. intros t Ht. destruct (gs_trans a1 a W1 H2 t ltac:(lia)) as ((B1 & B2 & B3 & B4 & B5 & B6 & B7) & K). repeat (split; [assumption|]). intros p Hp. apply K. exact Hp.
    - intros Ht t Hlt. destruct (gs_trans a1 a W1 H2 t Hlt) as ((B1 & B2 & B3 & B4 & B5 & B6 & B7) & _). rewrite <- B6. apply Hn; [exact Ht|]. lia. }
  destruct S2 as [S2 Hn1]. eapply sub_trans; [exact S2|]. destruct (cf_tt cf); [|apply ok_inj in H1; subst; apply sub_refl]. pose proof (detect_tt_ok _ _ _ _ H1) as (Em & El & HR). split; [exact Em|]. split; [exact El|]. intros t Ht.
  destruct (HR t ltac:(lia)) as (R0 & R1 & R2 & R3 & R4 & R5). repeat (split; [assumption|]). intros p. apply (relaxed_guard_back _ _ _ _ _ (HR t ltac:(lia))). apply Hn1; auto.
Qed.

Lemma concerr_drop cf a0 a inits fuel c :
  wf_ha a0 -> inputs_plain a0 -> setup_ha cf a0 = Ok a -> Forall (init_ok solve a0) inits ->
  run solve arnoldi cf a0 inits fuel = Some (Ok c) -> c_concerr c = true ->
  exists B, error_reachable tol13 (mkRules (cf_urgent cf) B (fun _ => false) false) (drop_inv a) (init_of_list inits).
Proof.
  intros W0 Hinp Hs Hinit Hrun He. destruct (setup_ha_ok cf a0 a W0 Hs) as (Em & W & _).
  unfold run in Hrun. assert (E0 : (do _ <- assert (negb (List.length inits =? 0)); setup_ha cf a0) = Ok a).
  { destruct (assert _) as [u|e] eqn:Ea; cbn [bind] in *; [exact Hs|]. discriminate. }
  rewrite E0 in Hrun. destruct (setup solve a inits) as [c0|e] eqn:Esu; [|discriminate].
  assert (Hinit' : Forall (init_ok solve a) inits) by (eapply Forall_impl; [|exact Hinit]; intros s Hsx; eapply init_ok_modes; eauto).
  assert (Hinp' : inputs_plain a). { intros m Hm. rewrite (get_mode_eq a0 a m Em). apply Hinp. rewrite <- Em. exact Hm. }
  pose proof (sinv_setup cf a inits c0 W Hinp' Hinit' Esu) as V0.
  pose proof (sinv_run solve Hsolve arnoldi cf a W Hinp' (init_of_list inits) fuel c0 c V0 Hrun) as V.
  destruct (si_sem _ _ _ _ _ V) as (_ & _ & K). destruct (K He) as (B & HB). exists B. exact HB.
Qed.
(** With deaggregation a concrete error still is an execution of the automaton without its invariants (drop_inv), some number B of time steps long.
    (With invariants, or with B = num_steps, this is false: C20_deagg_invariant_refuted, C23_errors_within_bound_refuted.) *)
Theorem C20_concrete_error_deagg_partial cf a0 a inits fuel c :
  wf_ha a0 -> inputs_plain a0 -> setup_ha cf a0 = Ok a -> no_tt cf a -> Forall (init_ok solve a0) inits ->
  run solve arnoldi cf a0 inits fuel = Some (Ok c) -> c_concerr c = true ->
  exists B, error_reachable tol13 (mkRules (cf_urgent cf) B (fun _ => false) false) (drop_inv a0) (init_of_list inits).
Proof.
  intros W0 Hinp Hs Htt Hinit Hrun He. destruct (concerr_drop cf a0 a inits fuel c W0 Hinp Hs Hinit Hrun He) as (B & HB). exists B. apply (sub_error _ _ a); [apply (setup_sub cf); auto|exact HB].
Qed.

Definition no_invariants (a : ha) : Prop := forall m, In m (ha_modes a) -> m_inv m = [].
Lemma drop_none a : no_invariants a -> drop_inv a = a.
Proof.
  intro H. destruct a as [ms ts]. unfold drop_inv. cbn [ha_modes ha_trans]. f_equal. rewrite <- (map_id ms) at 2. apply map_ext_in. intros [n x b i bm ie] Hin. specialize (H _ Hin). cbn [m_inv] in H. subst i. reflexivity.
Qed.
(** without invariants in the automaton: a concrete error is an execution of the automaton *)
Theorem C20_concrete_error_deagg cf a0 a inits fuel c :
  wf_ha a0 -> no_invariants a0 -> setup_ha cf a0 = Ok a -> no_tt cf a -> Forall (init_ok solve a0) inits ->
  run solve arnoldi cf a0 inits fuel = Some (Ok c) -> c_concerr c = true ->
  exists B, error_reachable tol13 (mkRules (cf_urgent cf) B (fun _ => false) false) a0 (init_of_list inits).
Proof.
  intros W0 Hni Hs Htt Hinit Hrun He. assert (Hinp : inputs_plain a0). { intros m Hm _. apply Hni. unfold get_mode. apply nth_In. exact Hm. }
  destruct (C20_concrete_error_deagg_partial cf a0 a inits fuel c W0 Hinp Hs Htt Hinit Hrun He) as (B & K). exists B. rewrite (drop_none a0 Hni) in K. exact K.
Qed.
End D.

From Verif Require Import Solver Ex_Core Ex_Late Ex_Deagg Prop_Core2.
Open Scope nat_scope.
(** exL of Ex_Late.v without its invariant x <= 3 *)
Definition exN : ha :=
  mkHa [exC_mode "a" []; exC_mode "b" []; exC_err]
       [exC_tr "t0" 0 1 (mkCsr 3 [[(0, (-(1))%Q)]], [(-(2))%Q]) 0; exC_tr "t1" 1 2 (mkCsr 3 [[(0, (-(1))%Q)]], [(-(15 # 2))%Q]) 0].
Lemma exN_wf : wf_ha exN.
Proof.
  split.
  - intros i Hi. destruct i as [|[|[|i]]]; [| | |cbn in Hi; lia].
    + apply exC_mode_wf. intros c [].
    + apply exC_mode_wf. intros c [].
    + reflexivity.
  - intros t Ht. destruct t as [|[|t]]; [| |cbn in Ht; lia]; unfold get_trans; cbn [nth ha_trans exN exC_tr].
    + constructor; cbn [t_from t_to t_guard t_reset t_mink exN exC_tr].
      * split; [cbn; lia|reflexivity].
      * cbn; lia.
      * eexists; eexists. split; [reflexivity|]. repeat constructor.
      * split; [exact Logic.I|discriminate].
      * split; [exact Logic.I|auto].
      * reflexivity.
    + constructor; cbn [t_from t_to t_guard t_reset t_mink exN exC_tr].
      * split; [cbn; lia|reflexivity].
      * cbn; lia.
      * eexists; eexists. split; [reflexivity|]. repeat constructor.
      * split; [exact Logic.I|discriminate].
      * split; [exact Logic.I|auto].
      * discriminate.
Qed.
Definition exN_s := Eval vm_compute in getr dss0 (new_stateset exN exC_l 0 0 0 None true).
Lemma exN_init : Forall (init_ok fm_solver exN) [exN_s].
Proof.
  constructor; [|constructor]. exists exC_l, 0. split; [cbn; lia|]. split; [vm_compute; reflexivity|]. cbn [m_a get_mode nth exN ha_modes exC_mode].
  split; [exact exC_api|reflexivity].
Qed.
Lemma exN_noinv : no_invariants exN.
Proof. intros m [<-|[<-|[<-|[]]]]; reflexivity. Qed.
Definition conc_run (cf : cfg) (a : ha) (s : sset) : bool := match run fm_solver arn0 cf a [s] 100 with Some (Ok c) => c_concerr c | _ => false end.
Lemma conc_run_ok cf a s : conc_run cf a s = true -> exists c, run fm_solver arn0 cf a [s] 100 = Some (Ok c) /\ c_concerr c = true.
Proof. unfold conc_run. destruct (run fm_solver arn0 cf a [s] 100) as [[c|e]|]; try discriminate. intro H. exists c. auto. Qed.
(** the analysis deaggregates (the settings say so and an aggregated state is hit) and reports a concrete error *)
Example C20_deagg_witness : (exists c, run fm_solver arn0 exL_cf exN [exN_s] 100 = Some (Ok c) /\ c_concerr c = true) /\ (exists g, cf_strat exL_cf = Some g /\ ag_deagg g = true) /\
  exists B, error_reachable tol13 (mkRules false B (fun _ => false) false) exN (init_of_list [exN_s]).
Proof.
  assert (H : conc_run exL_cf exN exN_s = true) by (vm_compute; reflexivity). apply conc_run_ok in H. split; [exact H|]. split; [eexists; split; reflexivity|]. destruct H as (c & H & He).
  destruct (setup_ha exL_cf exN) as [a|e] eqn:Ea; [|vm_compute in Ea; discriminate].
  apply (C20_concrete_error_deagg fm_solver fm_solver_ok arn0 exL_cf exN a [exN_s] 100 c exN_wf exN_noinv Ea); [|exact exN_init|exact H|exact He].
  intro K. discriminate.
Qed.
Example C20_deagg_partial_witness : (exists c, run fm_solver arn0 exL_cf exL [exC_s] 100 = Some (Ok c) /\ c_concerr c = true) /\
  exists B, error_reachable tol13 (mkRules false B (fun _ => false) false) (drop_inv exL) (init_of_list [exC_s]).
Proof.
  assert (H : conc_run exL_cf exL exC_s = true) by (vm_compute; reflexivity). apply conc_run_ok in H. split; [exact H|]. destruct H as (c & H & He).
  destruct (setup_ha exL_cf exL) as [a|e] eqn:Ea; [|vm_compute in Ea; discriminate].
  apply (C20_concrete_error_deagg_partial fm_solver fm_solver_ok arn0 exL_cf exL a [exC_s] 100 c exL_wf (proj1 exL_pre) Ea); [|exact exL_init|exact H|exact He].
  intro K. discriminate.
Qed.
Lemma exD_pre : inputs_plain exD /\ zero_plain exD_cf exD /\ path_ok exD_cf.
Proof.
  split; [|split].
  - intros m Hm. destruct m as [|[|[|m]]]; cbn; try congruence. cbn in Hm. lia.
  - intros _ m x Hm Hx Hn. destruct m as [|[|[|m]]]; cbn in Hx; try discriminate; [| |cbn in Hm; lia]; injection Hx as <-; discriminate.
  - intros g' Hg _. injection Hg as <-. reflexivity.
Qed.
(** With deaggregation and invariants: a concrete error is reported that no execution reaches, however long, even when every invariant condition may be
    violated by 10^-13.  The replay of a part of the aggregated set applies an invariant condition only at the steps where it cut the aggregated set; a part
    that exceeds the invariant by 5e-14 (less than the tolerance) is not cut on entry, and what exceeds is multiplied by 10^7 in each of the next steps. *)
Theorem C20_deagg_invariant_refuted : exists c,
  wf_ha exD /\ inputs_plain exD /\ zero_plain exD_cf exD /\ path_ok exD_cf /\ setup_ha exD_cf exD = Ok exD /\ no_tt exD_cf exD /\ Forall (init_ok fm_solver exD) [exD_s] /\
  run fm_solver arn0 exD_cf exD [exD_s] 100 = Some (Ok c) /\ c_concerr c = true /\
  forall B, ~ error_reachable tol13 (mkRules (cf_urgent exD_cf) B (fun _ => false) false) exD (init_of_list [exD_s]).
Proof.
  assert (H : conc_run exD_cf exD exD_s = true) by (vm_compute; reflexivity). apply conc_run_ok in H. destruct H as (c & H & He). exists c.
  split; [exact exD_wf|]. split; [apply exD_pre|]. split; [apply exD_pre|]. split; [apply exD_pre|]. split; [reflexivity|]. split; [intro K; discriminate|]. split; [exact exD_init|]. split; [exact H|]. split; [exact He|].
  intro B. apply exD_safe.
Qed.
From Verif Require Import Prop_TT.
(** the same with time-triggered transitions: the guards are also relaxed by step_size / num_steps / 1000 *)
Theorem C20_concrete_error_deagg_time_triggered_partial solve arnoldi cf a0 a inits fuel c : solver_ok solve ->
  wf_ha a0 -> inputs_plain a0 -> (0 <= cf_step cf)%Q -> setup_ha cf a0 = Ok a -> Forall (init_ok solve a0) inits ->
  run solve arnoldi cf a0 inits fuel = Some (Ok c) -> c_concerr c = true ->
  exists B, error_reachable tol13 (mkRules (cf_urgent cf) B (fun _ => false) false) (relax_guards (cf_step cf / inject_Z (Z.of_nat (cf_num cf)) / 1000) (drop_inv a0)) (init_of_list inits).
Proof.
  intros Hsv W Hinp Hh Hs Hinit Hrun He. destruct (concerr_drop solve Hsv arnoldi cf a0 a inits fuel c W Hinp Hs Hinit Hrun He) as (B & HE). exists B.
  set (eps := (cf_step cf / inject_Z (Z.of_nat (cf_num cf)) / 1000)%Q).
  assert (Hep : (0 <= eps)%Q).
  { unfold eps, Qdiv. assert (K : (0 <= / inject_Z (Z.of_nat (cf_num cf)))%Q) by (apply Qinv_le_0_compat; change 0%Q with (inject_Z 0); rewrite <- Zle_Qle; lia). repeat apply Qmult_le_0_compat; auto. discriminate. }
  unfold setup_ha in Hs. apply bind_ok in Hs as (a1 & H1 & H). apply bind_ok in H as (a2 & H2 & H). apply bind_ok in H as (? & _ & H). injection H as ->.
  assert (W1 : wf_ha a1) by (destruct (cf_tt cf); [eapply detect_wf; eauto|injection H1 as <-; exact W]).
  assert (HE1 : error_reachable tol13 (mkRules (cf_urgent cf) B (fun _ => false) false) (drop_inv a1) (init_of_list inits)).
  { apply (sub_error _ _ a); [|exact HE]. destruct (cf_gs cf); [|injection H2 as ->; apply sub_refl]. pose proof (gs_len a1 a H2) as El.
    split; [apply (gs_modes a1 a H2)|]. split; [exact El|]. intros t Ht. destruct (gs_trans a1 a W1 H2 t ltac:(lia)) as ((B1 & B2 & B3 & B4 & B5 & B6 & B7) & K). repeat (split; [assumption|]). intros p Hp. apply K. exact Hp. }
  assert (Hm : ha_modes a1 = ha_modes a0 -> ha_modes (drop_inv a1) = ha_modes (drop_inv a0)) by (intro E; unfold drop_inv; cbn [ha_modes]; rewrite E; reflexivity).
  destruct (cf_tt cf).
  - apply detect_tt_ok in H1 as (Em & El & HR). apply (relax_sub (drop_inv a1)); auto. intros t Ht. eexists. apply (HR t Ht).
  - injection H1 as ->. apply (relax_sub (drop_inv a1)); auto. intros t Ht. exists []. apply relaxed_refl.
Qed.
(** t0 is time-triggered *)
Definition exM_cf := mkCfg 6 1 false true true true false true false (Some (mkAgg ABox PAvg false true true DMost)).
Definition exM : ha :=
  mkHa [exC_mode "a" [mkLc [(0%nat, 1%Q)] 3 3%Q]; exC_mode "b" []; exC_err]
       [exC_tr "t0" 0 1 (mkCsr 3 [[(0, (-(1))%Q)]], [(-(3))%Q]) 0; exC_tr "t1" 1 2 (mkCsr 3 [[(0, (-(1))%Q)]], [(-(5))%Q]) 0].
Lemma exM_wf : wf_ha exM.
Proof.
  split.
  - intros i Hi. destruct i as [|[|[|i]]]; [| | |cbn in Hi; lia].
    + apply exC_mode_wf. intros c [<-|[]]. split; [reflexivity|]. repeat constructor.
    + apply exC_mode_wf. intros c [].
    + reflexivity.
  - intros t Ht. destruct t as [|[|t]]; [| |cbn in Ht; lia]; unfold get_trans; cbn [nth ha_trans exM exC_tr].
    + constructor; cbn [t_from t_to t_guard t_reset t_mink exM exC_tr].
      * split; [cbn; lia|reflexivity].
      * cbn; lia.
      * eexists; eexists. split; [reflexivity|]. repeat constructor.
      * split; [exact Logic.I|discriminate].
      * split; [exact Logic.I|auto].
      * reflexivity.
    + constructor; cbn [t_from t_to t_guard t_reset t_mink exM exC_tr].
      * split; [cbn; lia|reflexivity].
      * cbn; lia.
      * eexists; eexists. split; [reflexivity|]. repeat constructor.
      * split; [exact Logic.I|discriminate].
      * split; [exact Logic.I|auto].
      * discriminate.
Qed.
Lemma exM_init : Forall (init_ok fm_solver exM) [exC_s].
Proof.
  constructor; [|constructor]. exists exC_l, 0. split; [cbn; lia|]. split; [vm_compute; reflexivity|]. cbn [m_a get_mode nth exM ha_modes exC_mode].
  split; [exact exC_api|reflexivity].
Qed.
Example C20_deagg_tt_witness : (exists a, setup_ha exM_cf exM = Ok a /\ t_tt (get_trans a 0) = true) /\ (exists c, run fm_solver arn0 exM_cf exM [exC_s] 100 = Some (Ok c) /\ c_concerr c = true) /\
  exists B, error_reachable tol13 (mkRules false B (fun _ => false) false) (relax_guards (1 / 6 / 1000) (drop_inv exM)) (init_of_list [exC_s]).
Proof.
  assert (Hs : match setup_ha exM_cf exM with Ok a => t_tt (get_trans a 0) | Err _ => false end = true) by (vm_compute; reflexivity).
  destruct (setup_ha exM_cf exM) as [a|e] eqn:Ea; [|discriminate]. split; [exists a; auto|].
  assert (H : conc_run exM_cf exM exC_s = true) by (vm_compute; reflexivity). apply conc_run_ok in H. split; [exact H|]. destruct H as (c & H & He).
  apply (C20_concrete_error_deagg_time_triggered_partial fm_solver arn0 exM_cf exM a [exC_s] 100 c fm_solver_ok exM_wf); [|discriminate|exact Ea|exact exM_init|exact H|exact He].
  intros m Hm. destruct m as [|[|[|m]]]; cbn; try congruence. cbn in Hm. lia.
Qed.
