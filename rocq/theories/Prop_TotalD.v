(** C66, with deaggregation: the analysis that splits aggregated nodes and replays the recorded operations does not raise. *)
From Verif Require Import Base BaseFacts LpModel LpSpec SetSpec LpUtil LpFacts LpWf SetFacts SetFacts2 MinkFacts OpsFacts OpsFacts2 OpsFacts3 OpsFacts4 AggFacts ChullFacts
  ApiSpec ApiFacts Automaton StateSet HybridSpec FlowFacts StateSpec StateFacts StateFacts2 StateFacts3 AutoFacts BuildFacts CoreModel HeapFacts Prop_Sets CoreOps CorePop CoreExt CoreDag CoreDag2 CoreDag3 CoreStep CoreGhost CoreCont CoreSpec CoreSetup
  CoreShape CoreShape2 Bounded Bounded2 Bounded3 Bounded4 Bounded5 Bounded6 Bounded7 ChullTotal CoreTotal CoreTotal2 CoreTotal3 CoreTotal4 CoreTotal5 CoreTotal6 CoreTotalD CoreTotalD2 CoreTotalD3 CoreTotalD4 CexD CexD2 CexD3 CexD4 CoreTotalD5
  CoreSubD SetupHa SetupHaSub CoreTT CoreFinal Prop_Core Prop_Core2 Prop_Core6 Prop_Total CoreFlag Prop_Flag Prop_TT.
From Coq Require Import Lia Lqa Setoid QArith.Qabs.
Open Scope nat_scope.

(** the settings covered here: at least one step, nodes are only merged along equal paths when they may be split again
    (Aggregated's default require_same_path), and an analysis that stops at errors of aggregated sets also stops at concrete ones (both are the default) *)
Definition deagg_settings (cf : cfg) : Prop := 0 < cf_num cf /\ path_ok cf /\ (cf_stop_agg cf = true -> cf_stop_conc cf = true).

Section TotalD.
Variable solve : solver.
Hypothesis Hsolve : solver_ok solve.
Hypothesis Hcomp : solver_complete solve.
Variable arnoldi : nat -> option (list Q) -> csr -> option csr -> nat -> list (list Q).
Hypothesis Harn : forall k ctr am r n, Forall (fun row => List.length row = n) (arnoldi k ctr am r n).
Variable cf : cfg.

Lemma run_total_deagg_gen strict a0 a inits fuel : deagg_settings cf -> wf_ha a0 -> fits a0 -> inputs_plain a0 -> setup_ha cf a0 = Ok a ->
  no_tt cf a \/ (strict = true /\ tt_moves cf a (mkRules (cf_urgent cf) (cf_num cf) (fun _ => false) true) (init_of_list inits) /\ forall c, reached solve arnoldi cf a inits c -> c_cur c = None -> c_tt c = false) ->
  cex_ok solve cf a0 inits -> Forall (init_ok solve a0) inits -> Forall (init_fits a0) inits -> (exists s p, In s inits /\ in_lp (ss_lpi s) p /\ inv_ok 0 (get_mode a0 (ss_mode s)) p) ->
  forall e, run solve arnoldi cf a0 inits fuel <> Some (Err e).
Proof.
  intros (Hnum & Hpath & Hsc) W0 F0 Hinp Hs Htt Hce0 Hinit Hfit Hne e. destruct (setup_ha_ok cf a0 a W0 Hs) as (Em & W & _). pose proof (setup_ha_fits cf a0 a W0 F0 Hs) as F.
  assert (EM : forall m, get_mode a m = get_mode a0 m) by (intro m; apply get_mode_eq; exact Em).
  assert (Hinit' : Forall (init_ok solve a) inits) by (eapply Forall_impl; [|exact Hinit]; intros s Hsx; eapply init_ok_modes; eauto).
  assert (Hfit' : Forall (init_fits a) inits) by (eapply Forall_impl; [|exact Hfit]; intros s Hsx; unfold init_fits in *; rewrite EM; exact Hsx).
  assert (Hinp' : inputs_plain a). { intros m Hm. rewrite EM. apply Hinp. rewrite <- Em. exact Hm. }
  assert (Hne' : exists s p, In s inits /\ in_lp (ss_lpi s) p /\ inv_ok 0 (get_mode a (ss_mode s)) p) by (destruct Hne as (s & p & H1 & H2 & H3); exists s, p; rewrite EM; auto).
  destruct (setup_total solve Hsolve Hcomp cf a W Hnum Hinp' inits Hinit' Hfit' Hne') as (c0 & Esu & [V0 T0 K0 R0 W00]).
  destruct (setup_ok solve Hsolve a W Hinp' inits c0 Hinit' Esu) as (P & K1 & K2).
  assert (Hce : cf_ce cf = true -> CexSetup.index_ok a) by (intro Ece; exact (setup_ha_index cf a0 a W0 (proj1 (Hce0 Ece)) Hs)).
  assert (KQ : kq cf a c0).
  { intro Ece. apply (setup_kinv solve Hsolve a W Hinp' inits c0 Hinit'); [|exact Esu]. intros s Hin _. pose proof (proj1 (Forall_forall _ _) (proj2 (Hce0 Ece)) s Hin) as (cs & rhs & hi & dims & Hc). eapply CexSetup.init_cols_fc; exact Hc. }
  set (ru := srules strict cf a). assert (HI := pre_INV solve cf a ru c0 P).
  assert (Hcap : forall m x, m_a (get_mode a m) = Some x -> ru_cap ru m = (nnz x =? 0) && cf_skip0 cf) by (intros m x Hx; unfold ru; cbn [ru_cap srules]; rewrite Hx; reflexivity).
  assert (L : match run_loop solve arnoldi cf a fuel c0 with Some (Err _) => False | _ => True end).
  { destruct Htt as [Htt|(Est & HM & Hcl)].
    - pose proof (no_tt_all cf a Htt) as Hno.
      apply (loop_total_deagg solve Hsolve Hcomp arnoldi Harn cf a W F Hinp' Hnum Hce ru (I0_of c0) Hpath eq_refl eq_refl Hcap Hsc c0) with (Pr := fun c => c_tt c = false).
      + intros c1 N t l g rhs k x n u x' _ _ _ K. rewrite Hno in K. discriminate.
      + intros c1 c2 T1 Hst. exact (tts_step solve arnoldi cf a Hno _ _ Hst T1).
      + intros c1 T1 _. exact T1.
      + constructor; auto; [exact (xinv_setup solve a inits c0 Hinit' Esu)|apply repx_none; exact R0|exact (p_tt _ _ _ P)|apply ext_refl].
    - apply (loop_total_deagg solve Hsolve Hcomp arnoldi Harn cf a W F Hinp' Hnum Hce ru (I0_of c0) Hpath eq_refl eq_refl Hcap Hsc c0) with (Pr := reached solve arnoldi cf a inits).
      + apply (stuck_moves solve cf a ru (mkRules (cf_urgent cf) (cf_num cf) (fun _ => false) true) (init_of_list inits) c0 P); auto.
        * intros o p Hp. apply (K2 o p Hp).
        * intros m p k n. unfold ru. rewrite Est. induction 1 as [m p Hi Hv|m p k n u p' H IH Hv Hn Hc Hu Ho|t p p' k n Ht H IH Hg Hj Hr].
          -- apply R_init; auto.
          -- apply R_step with p u; auto. discriminate.
          -- apply R_jump with p k; auto.
      + intros c1 c2 R1 Hst. eapply r_step; eauto.
      + exact Hcl.
      + constructor; auto; [exact (xinv_setup solve a inits c0 Hinit' Esu)|apply repx_none; exact R0|apply r_setup; exact Esu|apply ext_refl]. }
  unfold run. assert (Hl : List.length inits <> 0) by (destruct inits; [destruct Hne as (s & _ & [] & _)|discriminate]). destruct (Nat.eqb_spec (List.length inits) 0); [congruence|]. cbn [negb assert bind]. rewrite Hs, Esu.
  intro K. rewrite K in L. exact L.
Qed.
Lemma run_total_deagg a0 a inits fuel : deagg_settings cf -> wf_ha a0 -> fits a0 -> inputs_plain a0 -> setup_ha cf a0 = Ok a -> no_tt cf a ->
  cex_ok solve cf a0 inits -> Forall (init_ok solve a0) inits -> Forall (init_fits a0) inits -> (exists s p, In s inits /\ in_lp (ss_lpi s) p /\ inv_ok 0 (get_mode a0 (ss_mode s)) p) ->
  forall e, run solve arnoldi cf a0 inits fuel <> Some (Err e).
Proof. intros. apply (run_total_deagg_gen false a0 a inits fuel); auto. Qed.

(** Core.run does not raise, whatever the number of steps already made ([fuel]), also when error sets are traced back to aggregated
    nodes, those nodes are split and the recorded operations are replayed on the parts; every preference and pop strategy. *)
Theorem C66_deaggregation_never_raises a0 inits fuel : deagg_settings cf -> cf_tt cf = false -> wf_ha a0 -> fits a0 -> inputs_plain a0 -> (cf_gs cf = true -> rows_comparable a0) ->
  cex_ok solve cf a0 inits -> Forall (init_ok solve a0) inits -> Forall (init_fits a0) inits -> (exists s p, In s inits /\ in_lp (ss_lpi s) p /\ inv_ok 0 (get_mode a0 (ss_mode s)) p) ->
  forall e, run solve arnoldi cf a0 inits fuel <> Some (Err e).
Proof.
  intros HS Htt W F Hinp HG Hcx Hinit Hfit Hne e. destruct (setup_ha_total cf a0 W F (proj1 HS) HG) as (a & Ea). apply (run_total_deagg a0 a inits fuel HS W F Hinp Ea); auto. intro K. congruence.
Qed.
(** the same with the time-triggered optimisation on, when it marks no transition *)
Theorem C66_deaggregation_unmarked_never_raises a0 a inits fuel : deagg_settings cf -> setup_ha cf a0 = Ok a -> (forall t, t < List.length (ha_trans a) -> t_tt (get_trans a t) = false) ->
  wf_ha a0 -> fits a0 -> inputs_plain a0 -> cex_ok solve cf a0 inits -> Forall (init_ok solve a0) inits -> Forall (init_fits a0) inits -> (exists s p, In s inits /\ in_lp (ss_lpi s) p /\ inv_ok 0 (get_mode a0 (ss_mode s)) p) ->
  forall e, run solve arnoldi cf a0 inits fuel <> Some (Err e).
Proof. intros HS Ea Hno W F Hinp. apply (run_total_deagg a0 a inits fuel HS W F Hinp Ea). intros _ t Ht. apply Hno. exact Ht. Qed.

(** the same with time-triggered transitions: when their clocks really run (C19's hypothesis) and the flag of a taken one does not outlive
    the state that raised it *)
Theorem C66_deaggregation_time_triggered_never_raises a0 a inits fuel : deagg_settings cf -> setup_ha cf a0 = Ok a -> clocks_move cf a (init_of_list inits) -> flag_consumed solve arnoldi cf a inits ->
  wf_ha a0 -> fits a0 -> inputs_plain a0 -> cex_ok solve cf a0 inits -> Forall (init_ok solve a0) inits -> Forall (init_fits a0) inits -> (exists s p, In s inits /\ in_lp (ss_lpi s) p /\ inv_ok 0 (get_mode a0 (ss_mode s)) p) ->
  forall e, run solve arnoldi cf a0 inits fuel <> Some (Err e).
Proof. intros HS Ea HM HC W F Hinp. apply (run_total_deagg_gen true a0 a inits fuel HS W F Hinp Ea). right. split; [reflexivity|]. split; assumption. Qed.

(** so it returns a result (with urgent guards: when the modes can be ranked along the transitions) *)
Theorem C66_deaggregation_returns a0 inits : deagg_settings cf -> cf_tt cf = false -> wf_ha a0 -> fits a0 -> inputs_plain a0 -> (cf_gs cf = true -> rows_comparable a0) ->
  (forall g, cf_strat cf = Some g -> ag_path g = true) ->
  (cf_urgent cf = true -> exists rank : nat -> nat, forall t, t < List.length (ha_trans a0) -> rank (t_to (get_trans a0 t)) < rank (t_from (get_trans a0 t))) ->
  cex_ok solve cf a0 inits -> Forall (init_ok solve a0) inits -> Forall (init_fits a0) inits -> (exists s p, In s inits /\ in_lp (ss_lpi s) p /\ inv_ok 0 (get_mode a0 (ss_mode s)) p) ->
  exists fuel c, run solve arnoldi cf a0 inits fuel = Some (Ok c).
Proof.
  intros HS Htt W F Hinp HG HP Hu Hcx Hinit Hfit Hne. destruct (C24_terminates_deagg solve arnoldi cf a0 inits HP) as (fuel & H2); [|exact Hu|].
  { intros s Hin. pose proof (proj1 (Forall_forall _ _) Hinit s Hin) as (l & m & _ & Hn & _). destruct (new_stateset_mode _ _ _ _ _ _ _ _ Hn) as (_ & _ & E1 & E2 & E3 & _). split; [exact E1|]. split; assumption. }
  exists fuel. pose proof (C66_deaggregation_never_raises a0 inits fuel HS Htt W F Hinp HG Hcx Hinit Hfit Hne) as H1.
  destruct (run solve arnoldi cf a0 inits fuel) as [[c|e]|]; [eauto|exfalso; exact (H1 e eq_refl)|congruence].
Qed.
End TotalD.

(** ** a concrete case: the analysis of Prop_Deagg.v, which reaches a state where the aggregated node 1 is split *)
From Verif Require Import Solver Ex_Core Prop_Deagg.
Open Scope nat_scope.
Lemma exY_returns g0 cf : deagg_settings cf -> cf_tt cf = false -> (forall g, cf_strat cf = Some g -> ag_path g = true) -> cf_urgent cf = false -> exists fuel c, run fm_solver arn0 cf (exC g0) [exC_s] fuel = Some (Ok c).
Proof.
  intros HS Htt HP Hurg. apply C66_deaggregation_returns; try exact fm_solver_ok; try exact fm_solver_complete; auto.
  - intros. unfold arn0, ident. apply Forall_forall. intros row Hr. apply in_map_iff in Hr as (i & <- & _). unfold unit_row. rewrite map_length, seq_length. reflexivity.
  - apply exC_wf.
  - apply exC_fits.
  - intros m Hm Hb. destruct m as [|[|[|m]]]; cbn in Hb; try congruence. cbn in Hm; lia.
  - intros _ t g rhs i r b c Ht Hne Hr Hg H1 H2 Hc. exfalso. destruct t as [|[|t]]; [exact Hc|exact Hc|cbn in Ht; lia].
  - intro K. congruence.
  - intros _. split; [intros t Ht; destruct t as [|[|t]]; [reflexivity|reflexivity|cbn in Ht; lia]|]. constructor; [|constructor].
    apply (Prop_Cex.plain_box fm_solver _ [(0, 0); (0, 0); (1, 1)]%Q false). vm_compute. reflexivity.
  - apply exC_init.
  - constructor; [|constructor]. apply (C66_box_bounded fm_solver fm_solver_ok (exC g0) [(0, 0); (0, 0); (1, 1)]%Q false exC_l); [vm_compute; reflexivity|vm_compute; reflexivity|]. intro K. exfalso. apply K. reflexivity.
  - exists exC_s, (fun i => if i =? 2 then 1%Q else 0%Q). split; [left; reflexivity|]. split.
    + assert (H : from_box fm_solver [(0, 0); (0, 0); (1, 1)]%Q 0 false = Ok exC_l) by (vm_compute; reflexivity). change (ss_lpi exC_s) with exC_l.
      destruct (SetFacts2.from_box_in fm_solver fm_solver_ok _ _ _ _ H) as (_ & Hb & _). apply Hb. intros i lb ub Hn. destruct i as [|[|[|i]]]; cbn in Hn; [| | |destruct i; discriminate]; injection Hn as <- <-; cbn; lra.
    + intros c [<-|[]]. cbn. lra.
Qed.
Example C66_deagg_witness : (exists fuel c, run fm_solver arn0 exY_cf (exC (-(3#2))) [exC_s] fuel = Some (Ok c)) /\
  exists c, reached fm_solver arn0 exY_cf exY_a [exC_s] c /\ get_deagg_node exY_cf exY_a c = Ok (Some 1).
Proof.
  split; [|exact C60_witness]. apply exY_returns; [|reflexivity|intros g K; injection K as <-; reflexivity|reflexivity].
  split; [cbn; lia|]. split; [intros g K _; injection K as <-; reflexivity|]. intros _. reflexivity.
Qed.
(** the same with counter-examples requested (make_counterexample, the default) *)
Definition exZ_cf : cfg := mkCfg 6 1 false true false true false true true (Some (mkAgg ABox PAvg false true true DMost)).
Definition exZ_a : ha := getr (mkHa [] []) (setup_ha exZ_cf (exC (-(3#2)))).
Definition exZ_c (n : nat) : core := steps n exZ_cf exZ_a (getr core0 (setup fm_solver exZ_a [exC_s])).
Definition exZ_check : bool := match setup fm_solver exZ_a [exC_s], get_deagg_node exZ_cf exZ_a (exZ_c 12) with Ok _, Ok (Some m) => m =? 1 | _, _ => false end.
Lemma exZ_checked : exZ_check = true. Proof. vm_compute. reflexivity. Qed.
Example C66_deagg_cex_witness : cf_ce exZ_cf = true /\ (exists fuel c, run fm_solver arn0 exZ_cf (exC (-(3#2))) [exC_s] fuel = Some (Ok c)) /\
  exists c, reached fm_solver arn0 exZ_cf exZ_a [exC_s] c /\ get_deagg_node exZ_cf exZ_a c = Ok (Some 1).
Proof.
  split; [reflexivity|]. split.
  - apply exY_returns; [|reflexivity|intros g K; injection K as <-; reflexivity|reflexivity]. split; [cbn; lia|]. split; [intros g K _; injection K as <-; reflexivity|]. intros _. reflexivity.
  - pose proof exZ_checked as H. unfold exZ_check in H. destruct (setup fm_solver exZ_a [exC_s]) as [c0|e] eqn:E; [|discriminate H].
    destruct (get_deagg_node exZ_cf exZ_a (exZ_c 12)) as [[m|]|e] eqn:E2; try discriminate H. apply Nat.eqb_eq in H. subst m.
    exists (exZ_c 12). split; [|exact E2]. unfold exZ_c. apply steps_reached. apply r_setup. rewrite E. reflexivity.
Qed.

(** and going on after concrete errors: node 3 is split although an error state has already been reached by a concrete set *)
Definition exV_cf : cfg := mkCfg 6 1 false true false true false false true (Some (mkAgg ABox PAvg false true true DMost)).
Definition exV_a : ha := getr (mkHa [] []) (setup_ha exV_cf (exC 0)).
Definition exV_c (n : nat) : core := steps n exV_cf exV_a (getr core0 (setup fm_solver exV_a [exC_s])).
Definition exV_check : bool := match setup fm_solver exV_a [exC_s], get_deagg_node exV_cf exV_a (exV_c 17) with Ok _, Ok (Some m) => (m =? 3) && c_concerr (exV_c 17) | _, _ => false end.
Lemma exV_checked : exV_check = true. Proof. vm_compute. reflexivity. Qed.
Example C66_deagg_goes_on_witness : cf_stop_conc exV_cf = false /\ (exists fuel c, run fm_solver arn0 exV_cf (exC 0) [exC_s] fuel = Some (Ok c)) /\
  exists c, reached fm_solver arn0 exV_cf exV_a [exC_s] c /\ c_concerr c = true /\ get_deagg_node exV_cf exV_a c = Ok (Some 3).
Proof.
  split; [reflexivity|]. split.
  - apply exY_returns; [|reflexivity|intros g K; injection K as <-; reflexivity|reflexivity]. split; [cbn; lia|]. split; [intros g K _; injection K as <-; reflexivity|]. intro K. discriminate K.
  - pose proof exV_checked as H. unfold exV_check in H. destruct (setup fm_solver exV_a [exC_s]) as [c0|e] eqn:E; [|discriminate H].
    destruct (get_deagg_node exV_cf exV_a (exV_c 17)) as [[m|]|e] eqn:E2; try discriminate H. apply andb_true_iff in H as [H1 H2]. apply Nat.eqb_eq in H1. subst m.
    exists (exV_c 17). split; [|split; [exact H2|exact E2]]. unfold exV_c. apply steps_reached. apply r_setup. rewrite E. reflexivity.
Qed.

(** with a time-triggered transition: the clock automaton of Ex_TT2.v, whose mode "a" (x <= 2) is left when x >= 2, analysed with deaggregation *)
From Verif Require Import Ex_TT Ex_TT2.
Open Scope nat_scope.
Definition exS_dcf : cfg := mkCfg 4 1 false true true true false true false (Some (mkAgg ABox PAvg false true true DMost)).
Lemma exS_fits f g : f < 2 -> fits (exS f g).
Proof. intro Hf.
  assert (HM : forall name inv, mode_fits (exT_mode name inv)).
  { intros name inv. split; [exact Logic.I|]. intros x K. injection K as <-. split; [repeat constructor|]. split; [reflexivity|]. vm_compute. discriminate. }
  split.
  - intros m Hm. destruct m as [|[|[|m]]]; [apply HM|apply HM| |cbn in Hm; lia]. split; [exact Logic.I|]. intros x K. discriminate K.
  - intros t Ht. destruct t as [|[|t]]; [| |cbn in Ht; lia]; (split; [intros g0 rhs K; injection K as <- _; first [reflexivity|destruct f as [|[|f]]; [reflexivity|reflexivity|lia]]|first [exact Logic.I|destruct f as [|[|f]]; [exact Logic.I|exact Logic.I|lia]]]).
Qed.
Example C66_deagg_tt_witness : deagg_settings exS_dcf /\ setup_ha exS_dcf (exS 1 5%Q) = Ok exS5 /\ t_tt (get_trans exS5 0) = true /\
  clocks_move exS_dcf exS5 (init_of_list [exS_s]) /\ flag_consumed fm_solver arn0 exS_dcf exS5 [exS_s] /\ wf_ha (exS 1 5%Q) /\ fits (exS 1 5%Q) /\ inputs_plain (exS 1 5%Q) /\
  Forall (init_ok fm_solver (exS 1 5%Q)) [exS_s] /\ Forall (init_fits (exS 1 5%Q)) [exS_s] /\ (exists s p, In s [exS_s] /\ in_lp (ss_lpi s) p /\ inv_ok 0 (get_mode (exS 1 5%Q) (ss_mode s)) p) /\
  forall fuel e, run fm_solver arn0 exS_dcf (exS 1 5%Q) [exS_s] fuel <> Some (Err e).
Proof.
  assert (H1 : deagg_settings exS_dcf). { split; [cbn; lia|]. split; [intros g K _; injection K as <-; reflexivity|]. intros _. reflexivity. }
  assert (H2 : setup_ha exS_dcf (exS 1 5%Q) = Ok exS5) by (vm_compute; reflexivity).
  assert (H3 : clocks_move exS_dcf exS5 (init_of_list [exS_s])) by (destruct C19_time_triggered_witness as (c & _ & _ & _ & _ & _ & _ & _ & _ & K & _); unfold clocks_move, strict_rules in *; cbn [cf_urgent cf_num cf_step exS_cf exS_dcf] in *; exact K).
  assert (H4 : flag_consumed fm_solver arn0 exS_dcf exS5 [exS_s]).
  { pose (s0 := setup fm_solver exS5 [exS_s]). assert (E : exists c0, s0 = Ok c0 /\ all_clean fm_solver arn0 exS_dcf exS5 100 c0 = true) by (exists (getr core0 s0); split; vm_compute; reflexivity).
    destruct E as (c0 & E1 & E2). exact (all_clean_ok fm_solver arn0 exS_dcf exS5 [exS_s] c0 100 E1 E2). }
  assert (H5 : wf_ha (exS 1 5%Q)) by (apply exS_wf; lia).
  assert (H6 : Forall (init_fits (exS 1 5%Q)) [exS_s]).
  { constructor; [|constructor]. apply (C66_box_bounded fm_solver fm_solver_ok (exS 1 5%Q) [(0, 0); (1, 1)]%Q false (exT_l 0)); [vm_compute; reflexivity|vm_compute; reflexivity|]. intro K. exfalso. apply K. reflexivity. }
  assert (H7 : exists s p, In s [exS_s] /\ in_lp (ss_lpi s) p /\ inv_ok 0 (get_mode (exS 1 5%Q) (ss_mode s)) p).
  { exists exS_s, (fun i => if i =? 0 then 0%Q else 1%Q). split; [left; reflexivity|]. split; [apply exS_in; split; reflexivity|]. replace (ss_mode exS_s) with 0 by (vm_compute; reflexivity). change (get_mode (exS 1 5%Q) 0) with (exT_mode "a" [mkLc [(0, 1%Q)] 2 2%Q]). intros c [<-|[]]. cbn. lra. }
  assert (HI : Forall (init_ok fm_solver (exS 1 5%Q)) [exS_s]) by apply exS_init. assert (HX : cex_ok fm_solver exS_dcf (exS 1 5%Q) [exS_s]) by (intro K; discriminate K).
  assert (HF := exS_fits 1 5%Q ltac:(lia)). assert (HP := exS5_inp).
  split; [exact H1|]. split; [exact H2|]. split; [reflexivity|]. split; [exact H3|]. split; [exact H4|]. split; [exact H5|]. split; [exact HF|]. split; [exact HP|]. split; [exact HI|]. split; [exact H6|]. split; [exact H7|].
  intros fuel. apply (C66_deaggregation_time_triggered_never_raises fm_solver fm_solver_ok fm_solver_complete arn0) with (a := exS5); [|exact H1|exact H2|exact H3|exact H4|exact H5|exact HF|exact HP|exact HX|exact HI|exact H6|exact H7].
  intros. unfold arn0, ident. apply Forall_forall. intros row Hr. apply in_map_iff in Hr as (i & <- & _). unfold unit_row. rewrite map_length, seq_length. reflexivity.
Qed.
