(** C66 for the analysis with the convex-hull approximation model (settings.approx_model = APPROX_CHULL). *)
From Verif Require Import Base BaseFacts LpModel LpSpec SetSpec LpUtil LpFacts LpWf SetFacts SetFacts2 MinkFacts OpsFacts OpsFacts2 OpsFacts3 OpsFacts4 AggFacts ChullFacts
  ApiSpec ApiFacts Automaton StateSet HybridSpec FlowFacts StateSpec StateFacts StateFacts2 StateFacts3 AutoFacts BuildFacts CoreModel HeapFacts Prop_Sets CoreOps CorePop CoreExt CoreDag CoreDag2 CoreDag3 CoreStep CoreGhost CoreCont CoreSpec CoreSetup
  Bounded Bounded2 Bounded3 Bounded4 Bounded5 Bounded6 Bounded7 ChullTotal CoreTotal CoreTotal2 CoreTotal3 CoreTotal4 CoreTotal5 CoreTotal6 CoreSubD SetupHa SetupHaSub Prop_Core Prop_Core2
  CoreInv CoreSub Approx ApproxFacts CoreApprox ApproxInv CoreTotalA Prop_Cex Prop_Total Prop_Dense.
From Coq Require Import Lia Lqa Setoid QArith.Qabs.
Open Scope nat_scope.

Section TotalA.
Variable solve : solver.
Hypothesis Hsolve : solver_ok solve.
Hypothesis Hcomp : solver_complete solve.
Variable arnoldi : nat -> option (list Q) -> csr -> option csr -> nat -> list (list Q).
Hypothesis Harn : forall k ctr am r n, Forall (fun row => List.length row = n) (arnoldi k ctr am r n).

(** On automata without invariants, with non-empty input sets, and without counter-example generation (make_counterexample = False), the
    analysis with APPROX_CHULL does not raise, whatever the number of steps already made ([fuel]).
    With make_counterexample = True it may: C66_chull_counterexample_refuted. *)
Theorem C66_chull_never_raises qexp cf a0 inits fuel : settings_ok cf -> cf_ce cf = false -> wf_ha a0 -> fits a0 -> inv_free a0 -> no_tt cf a0 ->
  (forall m, m < List.length (ha_modes a0) -> exists u, input_ok (get_mode a0 m) u) -> (cf_gs cf = true -> rows_comparable a0) ->
  Forall (init_ok solve a0) inits -> Forall (init_fits a0) inits -> (exists s p, In s inits /\ in_lp (ss_lpi s) p) ->
  forall e, run_ap solve arnoldi qexp ApChull cf a0 inits fuel <> Some (Err e).
Proof.
  intros [Hnum Hnd] Hce W0 F0 Hi NT0 Hin HG Hinit Hfit Hne e. destruct (setup_ha_total cf a0 W0 F0 Hnum HG) as (a & Hs).
  destruct (free_setup cf a0 a W0 Hi NT0 Hs) as (Em & W & El & NT & _). pose proof (setup_ha_fits cf a0 a W0 F0 Hs) as F.
  assert (EM : forall m, get_mode a m = get_mode a0 m) by (intro m; apply get_mode_eq; exact Em).
  assert (Hi' : inv_free a) by (intro m; rewrite EM; apply Hi).
  assert (Hinp : inputs_plain a) by (intros m _ _; apply Hi').
  assert (Hinit' : Forall (init_ok solve a) inits) by (eapply Forall_impl; [|exact Hinit]; intros s Hsx; eapply init_ok_modes; eauto).
  assert (Hfit' : Forall (init_fits a) inits) by (eapply Forall_impl; [|exact Hfit]; intros s Hsx; unfold init_fits in *; rewrite EM; exact Hsx).
  assert (Hne' : exists s p, In s inits /\ in_lp (ss_lpi s) p /\ inv_ok 0 (get_mode a (ss_mode s)) p).
  { destruct Hne as (s & p & H1 & H2). exists s, p. split; [exact H1|]. split; [exact H2|]. unfold inv_ok. rewrite Hi'. intros c []. }
  destruct (setup_total solve Hsolve Hcomp cf a W Hnum Hinp inits Hinit' Hfit' Hne') as (c0 & Esu & U0).
  pose proof (setup_minv solve Hsolve cf a inits c0 (seg0 a) W Hi' Hinit' Esu) as M0.
  assert (Hin' : forall m, m < List.length (ha_modes a) -> exists u, input_ok (get_mode a m) u) by (intros m Hm; rewrite EM; apply Hin; rewrite <- Em; exact Hm).
  pose proof (loop_ap_total solve Hsolve Hcomp arnoldi Harn cf a W F Hnum Hnd Hce Hi' NT Hin' (init_of_list inits) qexp (cf_step cf) (seg0 a)
    (chull_ap solve Hsolve qexp (cf_step cf) a W) fuel c0 U0 M0) as L.
  unfold run_ap. assert (Hl : List.length inits <> 0) by (destruct inits; [destruct Hne as (s & _ & [] & _)|discriminate]). destruct (Nat.eqb_spec (List.length inits) 0); [congruence|].
  cbn [negb assert bind]. rewrite Hs, Esu. intro K. rewrite K in L. exact L.
Qed.
End TotalA.

(** ** concrete cases *)
From Verif Require Import Solver Ex_Core Ex_Approx Ex_Zero Ex_Cex Ex_Dense.
Open Scope nat_scope.
(** x doubles at every step, from 1; to the error mode when 3 <= x <= 5: the execution 1, 2, 4 enters it *)
Lemma exQ_fits lo hi : fits (exQ lo hi).
Proof.
  split.
  - intros m Hm. destruct m as [|[|m]]; [| |cbn in Hm; lia]; (split; [exact Logic.I|]); intros x K; [|discriminate K]. injection K as <-. split; [repeat constructor|]. split; [reflexivity|]. vm_compute. discriminate.
  - intros t Ht. destruct t as [|t]; [|cbn in Ht; lia]. split; [intros g0 rhs K; injection K as <- _; reflexivity|exact Logic.I].
Qed.
Lemma exQ_rows lo hi : rows_comparable (exQ lo hi).
Proof. intros t g rhs i r b c Ht Hne Hr Hg H1 H2 Hc. exfalso. destruct t as [|t]; [|cbn in Ht; lia]. exact Hc. Qed.
Lemma exQ_box : from_box fm_solver [(1, 1)%Q] 0 false = Ok exQ_l.
Proof. vm_compute. reflexivity. Qed.
Lemma exQ_initfits lo hi : init_fits (exQ lo hi) exQ_s /\ plain_init fm_solver exQ_s.
Proof. apply (C66_box_bounded fm_solver fm_solver_ok (exQ lo hi) [(1, 1)%Q] false exQ_l); [exact exQ_box|vm_compute; reflexivity|]. intro K. exfalso. apply K. reflexivity. Qed.
Lemma exQ_nonempty : exists s p, In s [exQ_s] /\ in_lp (ss_lpi s) p.
Proof.
  exists exQ_s, (fun _ => 1%Q). split; [left; reflexivity|]. change (ss_lpi exQ_s) with exQ_l. destruct (SetFacts2.from_box_in fm_solver fm_solver_ok _ _ _ _ exQ_box) as (_ & Hb & _).
  apply Hb. intros i lb ub Hn. destruct i as [|[|i]]; cbn in Hn; try discriminate Hn. injection Hn as <- <-. lra.
Qed.
Lemma arn0_rows : forall k ctr am r n, Forall (fun row => List.length row = n) (arn0 k ctr am r n).
Proof. intros. unfold arn0, ident. apply Forall_forall. intros row Hr. apply in_map_iff in Hr as (i & <- & _). unfold unit_row. rewrite map_length, seq_length. reflexivity. Qed.

Definition exA_cf (ce : bool) : cfg := mkCfg 2 1 false true true true false true ce (Some (mkAgg ABox PAvg false true false DMost)).
Lemma exA_hyps ce : settings_ok (exA_cf ce) /\ wf_ha (exQ 3 5) /\ fits (exQ 3 5) /\ inv_free (exQ 3 5) /\ no_tt (exA_cf ce) (exQ 3 5) /\
  (forall m, m < List.length (ha_modes (exQ 3 5)) -> exists u, input_ok (get_mode (exQ 3 5) m) u) /\ rows_comparable (exQ 3 5) /\ cex_ok fm_solver (exA_cf ce) (exQ 3 5) [exQ_s] /\
  Forall (init_ok fm_solver (exQ 3 5)) [exQ_s] /\ Forall (init_fits (exQ 3 5)) [exQ_s] /\ (exists s p, In s [exQ_s] /\ in_lp (ss_lpi s) p).
Proof.
  split; [split; [cbn; lia|intros g K; injection K as <-; reflexivity]|]. split; [apply exQ_wf|]. split; [apply exQ_fits|]. split; [apply exQ_free|].
  split; [intros _ t Ht; destruct t as [|t]; [reflexivity|cbn in Ht; lia]|].
  split; [intros m Hm; exists (fun _ => 0%Q); destruct m as [|[|m]]; [exact Logic.I|exact Logic.I|cbn in Hm; lia]|]. split; [apply exQ_rows|].
  split; [intros _; split; [intros t Ht; destruct t as [|t]; [reflexivity|cbn in Ht; lia]|constructor; [apply (exQ_initfits 3 5)|constructor]]|].
  split; [apply exQ_init|]. split; [constructor; [apply exQ_initfits|constructor]|]. exact exQ_nonempty.
Qed.
(** the hypotheses of C66_chull_never_raises are met; this analysis reports the error *)
Example C66_chull_total_witness : (forall fuel e, run_ap fm_solver arn0 (fun q => q) ApChull (exA_cf false) (exQ 3 5) [exQ_s] fuel <> Some (Err e)) /\
  exists c, run_ap fm_solver arn0 (fun q => q) ApChull (exA_cf false) (exQ 3 5) [exQ_s] 40 = Some (Ok c) /\ c_concerr c = true.
Proof.
  destruct (exA_hyps false) as (H1 & H2 & H3 & H4 & H5 & H6 & H7 & _ & H8 & H9 & H10). split.
  - intros fuel e. apply (C66_chull_never_raises fm_solver fm_solver_ok fm_solver_complete arn0 arn0_rows); auto.
  - assert (H : match run_ap fm_solver arn0 (fun q => q) ApChull (exA_cf false) (exQ 3 5) [exQ_s] 40 with Some (Ok c) => c_concerr c | _ => false end = true) by (vm_compute; reflexivity).
    destruct (run_ap _ _ _ _ _ _ _ _) as [[c|]|]; try discriminate H. exists c. auto.
Qed.

(** With counter-examples (make_counterexample = True, the default) the same analysis raises UnboundLocalError when it finds the error: the
    columns of a convex hull have no name 'm<id>_i0', so make_counterexample appends to [seg] before assigning it.  With APPROX_NONE the
    same call reports the error and makes a counter-example. *)
Theorem C66_chull_counterexample_refuted : exists cf a0 inits, cf_ce cf = true /\ settings_ok cf /\ wf_ha a0 /\ fits a0 /\ inv_free a0 /\ no_tt cf a0 /\
  (forall m, m < List.length (ha_modes a0) -> exists u, input_ok (get_mode a0 m) u) /\ rows_comparable a0 /\ cex_ok fm_solver cf a0 inits /\
  Forall (init_ok fm_solver a0) inits /\ Forall (init_fits a0) inits /\ (exists s p, In s inits /\ in_lp (ss_lpi s) p) /\
  run_ap fm_solver arn0 (fun q => q) ApChull cf a0 inits 40 = Some (Err EUnbound) /\
  exists c, run_ap fm_solver arn0 (fun q => q) ApNone cf a0 inits 40 = Some (Ok c) /\ c_concerr c = true /\ c_cex c <> [].
Proof.
  exists (exA_cf true), (exQ 3 5), [exQ_s]. split; [reflexivity|]. destruct (exA_hyps true) as (H1 & H2 & H3 & H4 & H5 & H6 & H7 & H8 & H9 & H10 & H11). split; [exact H1|].
  split; [exact H2|]. split; [exact H3|]. split; [exact H4|]. split; [exact H5|]. split; [exact H6|]. split; [exact H7|]. split; [exact H8|]. split; [exact H9|]. split; [exact H10|]. split; [exact H11|].
  split; [vm_compute; reflexivity|].
  assert (H : match run_ap fm_solver arn0 (fun q => q) ApNone (exA_cf true) (exQ 3 5) [exQ_s] 40 with Some (Ok c) => c_concerr c && match c_cex c with [] => false | _ => true end | _ => false end = true) by (vm_compute; reflexivity).
  destruct (run_ap _ _ _ _ _ _ _ _) as [[c|]|]; try discriminate H. exists c. apply andb_true_iff in H as [Ha Hb]. split; [reflexivity|]. split; [exact Ha|]. intro K. rewrite K in Hb. discriminate Hb.
Qed.

(** ** termination *)
From Verif Require Import CoreDag CoreTerm CoreTermA Prop_Core4 Prop_Core6.
Open Scope nat_scope.
Lemma approx_set solve qexp tau m a : m <> ApLgg -> forall s s', approx_of solve qexp tau m a s = Ok s' -> exists l, s' = ss_with_lpi s l.
Proof.
  intros Hm s s' H. unfold approx_of in H. apply bind_ok in H as ([s1 o] & H & E). apply ok_inj in E. cbn [fst] in E. subst s1. unfold apply_approx_model in H.
  apply bind_ok in H as (u1 & _ & H). apply bind_ok in H as (u2 & _ & H). destruct m; [|apply bind_ok in H as (s1 & H & E)|congruence].
  - apply ok_inj in H. injection H as H _. exists (ss_lpi s). rewrite <- H. destruct s. reflexivity.
  - apply ok_inj in E. injection E as E _. subst s1. unfold apply_approx_chull in H. apply bind_ok in H as (o1 & _ & H). apply bind_ok in H as (o2 & _ & H). apply bind_ok in H as (o3 & _ & H). apply bind_ok in H as (l & _ & H).
    apply ok_inj in H. eauto.
Qed.
(** The analysis with APPROX_NONE or APPROX_CHULL finishes (with a result or an exception) for every automaton, solver answer and
    aggregation strategy with require_same_path, with or without deaggregation, with process_urgent_guards if the transitions form no cycle. *)
Theorem C24_chull_terminates solve arnoldi qexp m cf a0 inits : m <> ApLgg ->
  (forall g, cf_strat cf = Some g -> ag_path g = true) -> (forall s, In s inits -> fresh_set s) ->
  (cf_urgent cf = true -> exists rank : nat -> nat, forall t, t < List.length (ha_trans a0) -> rank (t_to (get_trans a0 t)) < rank (t_from (get_trans a0 t))) ->
  exists fuel, run_ap solve arnoldi qexp m cf a0 inits fuel <> None.
Proof.
  intros Hm HP Hs Hu. unfold run_ap. destruct (do _ <- _; setup_ha cf a0) as [a|e] eqn:Ea; [|exists 0; discriminate]. apply bind_ok in Ea as (u & _ & Ea).
  destruct (setup solve a inits) as [c|e] eqn:Es; [|exists 0; discriminate]. apply (terminates_setup_ap solve arnoldi cf a (approx_of solve qexp (cf_step cf) m a) inits c); auto.
  - apply approx_set. exact Hm.
  - unfold path_cf. destruct (cf_strat cf); auto.
  - intro E. destruct (Hu E) as [rk K]. exists rk. intros t Ht. destruct (setup_ha_edges cf a0 a Ea t Ht) as [-> ->]. apply K. rewrite <- (setup_ha_count cf a0 a Ea). exact Ht.
Qed.
(** so, in the settings of C66_chull_never_raises, the analysis with APPROX_CHULL returns a result *)
Theorem C66_chull_returns solve (Hsolve : solver_ok solve) (Hcomp : solver_complete solve) arnoldi (Harn : forall k ctr am r n, Forall (fun row => List.length row = n) (arnoldi k ctr am r n))
  qexp cf a0 inits : settings_ok cf -> cf_ce cf = false -> wf_ha a0 -> fits a0 -> inv_free a0 -> no_tt cf a0 ->
  (forall m, m < List.length (ha_modes a0) -> exists u, input_ok (get_mode a0 m) u) -> (cf_gs cf = true -> rows_comparable a0) ->
  Forall (init_ok solve a0) inits -> Forall (init_fits a0) inits -> (exists s p, In s inits /\ in_lp (ss_lpi s) p) ->
  (forall g, cf_strat cf = Some g -> ag_path g = true) ->
  (cf_urgent cf = true -> exists rank : nat -> nat, forall t, t < List.length (ha_trans a0) -> rank (t_to (get_trans a0 t)) < rank (t_from (get_trans a0 t))) ->
  exists fuel c, run_ap solve arnoldi qexp ApChull cf a0 inits fuel = Some (Ok c).
Proof.
  intros HS Hce W F Hi NT Hin HG Hinit Hfit Hne HP Hu. destruct (C24_chull_terminates solve arnoldi qexp ApChull cf a0 inits) as (fuel & H2); [discriminate|exact HP| |exact Hu|].
  { intros s Hs. pose proof (proj1 (Forall_forall _ _) Hinit s Hs) as (l & m & _ & Hn & _). destruct (new_stateset_mode _ _ _ _ _ _ _ _ Hn) as (_ & _ & E1 & E2 & E3 & _). split; [exact E1|]. split; assumption. }
  exists fuel. pose proof (C66_chull_never_raises solve Hsolve Hcomp arnoldi Harn qexp cf a0 inits fuel HS Hce W F Hi NT Hin HG Hinit Hfit Hne) as H1.
  destruct (run_ap solve arnoldi qexp ApChull cf a0 inits fuel) as [[c|e]|]; [eauto|exfalso; exact (H1 e eq_refl)|congruence].
Qed.
Example C66_chull_returns_witness : exists fuel c, run_ap fm_solver arn0 (fun q => q) ApChull (exA_cf false) (exQ 3 5) [exQ_s] fuel = Some (Ok c).
Proof.
  destruct (exA_hyps false) as (H1 & H2 & H3 & H4 & H5 & H6 & H7 & _ & H8 & H9 & H10). apply (C66_chull_returns fm_solver fm_solver_ok fm_solver_complete arn0 arn0_rows); auto; [intros g K; injection K as <-; reflexivity|discriminate].
Qed.

(** ** the result never reports an error *)
From Verif Require Import CoreNoCex CoreNoCex2.
Open Scope nat_scope.
(** The general form of C66_chull_counterexample_refuted.  For every automaton, initial sets, solver and settings without deaggregation: with
    make_counterexample = True, an analysis with APPROX_CHULL that returns never reports a concrete error nor a counter-example (when it finds one it
    ends with an exception), even if the executions reach the error mode. *)
Theorem C66_chull_error_never_returned solve arnoldi qexp cf a0 inits fuel c : cf_ce cf = true -> no_deagg cf -> (forall s, In s inits -> fresh_set s) ->
  run_ap solve arnoldi qexp ApChull cf a0 inits fuel = Some (Ok c) -> c_concerr c = false /\ c_cex c = [].
Proof.
  intros Hce Hnd Hs H. unfold run_ap in H. destruct (do _ <- _; setup_ha cf a0) as [a|e]; [|discriminate H]. destruct (setup solve a inits) as [c0|e] eqn:Es; [|discriminate H].
  assert (Hset := approx_set solve qexp (cf_step cf) ApChull a ltac:(discriminate)).
  refine (z_loop solve arnoldi cf a (approx_of solve qexp (cf_step cf) ApChull a) _ Hset Hce Hnd fuel c0 c _ H); [|eapply z_setup; eauto].
  intros s s' K. unfold approx_of in K. apply bind_ok in K as ([s1 o] & K & E). apply ok_inj in E. cbn [fst] in E. subst s1. unfold apply_approx_model in K.
  apply bind_ok in K as (u1 & _ & K). apply bind_ok in K as (u2 & _ & K). apply bind_ok in K as (s1 & K & E). apply ok_inj in E. injection E as E _. subst s1. exact (hull_names _ _ _ _ K).
Qed.
(** the hypotheses are met by an analysis that returns *)
Example C66_chull_error_never_returned_witness : cf_ce (exA_cf true) = true /\ no_deagg (exA_cf true) /\ (forall s, In s [exQ_s] -> fresh_set s) /\
  exists c, run_ap fm_solver arn0 (fun q => q) ApChull (exA_cf true) (exQ 40 50) [exQ_s] 40 = Some (Ok c) /\ List.length (c_nodes c) = 1.
Proof.
  split; [reflexivity|]. split; [intros g K; injection K as <-; reflexivity|]. split; [intros s [<-|[]]; repeat split|].
  assert (H : match run_ap fm_solver arn0 (fun q => q) ApChull (exA_cf true) (exQ 40 50) [exQ_s] 40 with Some (Ok c) => List.length (c_nodes c) =? 1 | _ => false end = true) by (vm_compute; reflexivity).
  destruct (run_ap _ _ _ _ _ _ _ _) as [[c|]|]; try discriminate H. exists c. split; [reflexivity|]. apply Nat.eqb_eq. exact H.
Qed.

(** More exactly: the default make_counterexample = True either gives exactly the analysis that make_counterexample = False gives, or an exception; and
    whenever the latter reports a concrete error, the former ends with an exception instead. *)
Theorem C66_chull_same_or_raises solve arnoldi qexp cf a0 inits fuel : cf_ce cf = true -> no_deagg cf -> (forall s, In s inits -> fresh_set s) ->
  (exists e, run_ap solve arnoldi qexp ApChull cf a0 inits fuel = Some (Err e)) \/
  run_ap solve arnoldi qexp ApChull cf a0 inits fuel = run_ap solve arnoldi qexp ApChull (no_ce cf) a0 inits fuel.
Proof.
  intros Hce Hnd Hs. destruct (run_ap solve arnoldi qexp ApChull cf a0 inits fuel) as [[c|e]|] eqn:H; [|left; exists e; reflexivity|]; right; rewrite <- H; assert (NE : forall e, run_ap solve arnoldi qexp ApChull cf a0 inits fuel <> Some (Err e)) by (intros e K; rewrite H in K; discriminate K); clear H; symmetry; revert NE;
  unfold run_ap; change (setup_ha (no_ce cf) a0) with (setup_ha cf a0); (destruct (do _ <- _; setup_ha cf a0) as [a|e]; [|reflexivity]); (destruct (setup solve a inits) as [c0|e] eqn:Es; [|reflexivity]); intros NE;
  assert (Hset := approx_set solve qexp (cf_step cf) ApChull a ltac:(discriminate));
  (refine (loop_ce solve arnoldi cf a (approx_of solve qexp (cf_step cf) ApChull a) _ Hset Hce Hnd fuel c0 _ NE); [|eapply z_setup; eauto]);
  intros s s' K; unfold approx_of in K; apply bind_ok in K as ([s1 o] & K & E); apply ok_inj in E; cbn [fst] in E; subst s1; unfold apply_approx_model in K;
  apply bind_ok in K as (u1 & _ & K); apply bind_ok in K as (u2 & _ & K); apply bind_ok in K as (s1 & K & E); apply ok_inj in E; injection E as E _; subst s1; exact (hull_names _ _ _ _ K).
Qed.
Theorem C66_chull_reported_error_raises_refuted solve arnoldi qexp cf a0 inits fuel c : cf_ce cf = true -> no_deagg cf -> (forall s, In s inits -> fresh_set s) ->
  run_ap solve arnoldi qexp ApChull (no_ce cf) a0 inits fuel = Some (Ok c) -> c_concerr c = true ->
  exists e, run_ap solve arnoldi qexp ApChull cf a0 inits fuel = Some (Err e).
Proof.
  intros Hce Hnd Hs H Hc. destruct (C66_chull_same_or_raises solve arnoldi qexp cf a0 inits fuel Hce Hnd Hs) as [K|K]; [exact K|exfalso]. rewrite H in K.
  destruct (C66_chull_error_never_returned solve arnoldi qexp cf a0 inits fuel c Hce Hnd Hs K) as [E _]. rewrite E in Hc. discriminate Hc.
Qed.
(** the hypotheses of both are met *)
Example C66_chull_reported_error_raises_witness : cf_ce (exA_cf true) = true /\ no_deagg (exA_cf true) /\ (forall s, In s [exQ_s] -> fresh_set s) /\
  exists c, run_ap fm_solver arn0 (fun q => q) ApChull (no_ce (exA_cf true)) (exQ 3 5) [exQ_s] 40 = Some (Ok c) /\ c_concerr c = true.
Proof.
  split; [reflexivity|]. split; [intros g K; injection K as <-; reflexivity|]. split; [intros s [<-|[]]; repeat split|]. exact (proj2 C66_chull_total_witness).
Qed.

(** ** the analysis without aggregation *)
From Verif Require Import CoreLive CoreLive2 CoreIvl CoreIvl3 ConcA CoreConc Prop_Conc.
Open Scope nat_scope.
Lemma init_fresh solve a0 inits : Forall (init_ok solve a0) inits -> forall s, In s inits -> fresh_set s.
Proof.
  intros Hinit s Hs. pose proof (proj1 (Forall_forall _ _) Hinit s Hs) as (l & m & _ & Hn & _). destruct (new_stateset_mode _ _ _ _ _ _ _ _ Hn) as (_ & _ & E1 & E2 & E3 & _). split; [exact E1|]. split; assumption.
Qed.
(** Without aggregation (Unaggregated strategy), with APPROX_CHULL and make_counterexample = True: an analysis that returns at all proves the
    automaton safe in dense time. *)
Theorem C61_chull_unaggregated_returns_safe solve (Hsolve : solver_ok solve) arnoldi qexp cf a0 inits fuel c :
  wf_ha a0 -> inv_free a0 -> zero_plain cf a0 -> cf_strat cf = None -> cf_ce cf = true -> no_tt cf a0 -> Forall (init_ok solve a0) inits ->
  (forall s, In s inits -> is_error (get_mode a0 (ss_mode s)) = false) ->
  run_ap solve arnoldi qexp ApChull cf a0 inits fuel = Some (Ok c) -> ~ dense_error a0 (init_of_list inits) (cf_num cf) (cf_urgent cf).
Proof.
  intros W F HZ Hun Hce NT Hinit Hne Hrun. pose proof (init_fresh solve a0 inits Hinit) as Hs.
  assert (Hnd : no_deagg cf) by (intros g K; congruence).
  destruct (C66_chull_error_never_returned solve arnoldi qexp cf a0 inits fuel c Hce Hnd Hs Hrun) as [Fc _].
  assert (Q : exists a, setup_ha cf a0 = Ok a).
  { pose proof Hrun as K. unfold run_ap in K. destruct (do _ <- _; setup_ha cf a0) as [a|e] eqn:Ea; [|discriminate K]. apply bind_ok in Ea as (u & _ & Ea). eauto. }
  destruct Q as (a & Ea). destruct (free_setup cf a0 a W F NT Ea) as (Em & Wa & _). assert (Fa0 : inv_free a) by (intro i; rewrite (get_mode_eq a0 a i Em); apply F).
  assert (Hia : Forall (init_ok solve a) inits) by (eapply Forall_impl; [|exact Hinit]; intros s; apply init_ok_modes; exact Em).
  assert (Fa : c_aggerr c = false).
  { pose proof Hrun as K. unfold run_ap in K. destruct (assert _) as [u|]; [|discriminate K]. cbn [bind] in K. rewrite Ea in K. destruct (setup solve a inits) as [c0|] eqn:Es; [|discriminate K].
    assert (Hset := approx_set solve qexp (cf_step cf) ApChull a ltac:(discriminate)).
    assert (U : una c0) by (eapply (una_setup solve Hsolve a inits c0 Wa); [intros m _ _; apply Fa0|exact Hia|exact Es]).
    pose proof (una_loop_ap solve arnoldi cf a _ Hset Hun fuel c0 c (linv_setup solve cf a inits c0 Es) (iv_setup solve a inits c0 Hs Es) U K) as ((_ & X) & _). exact X. }
  exact (C61_chull_safe_in_dense_time_partial solve Hsolve arnoldi qexp cf a0 a inits fuel c W F HZ Hnd NT Ea Hinit Hne Hrun Fa Fc).
Qed.
(** So in these settings an automaton that is unsafe in dense time is never reported unsafe: the analysis always ends with an exception. *)
Theorem C66_chull_unsafe_always_raises_refuted solve (Hsolve : solver_ok solve) arnoldi qexp cf a0 inits :
  wf_ha a0 -> inv_free a0 -> zero_plain cf a0 -> cf_strat cf = None -> cf_ce cf = true -> no_tt cf a0 -> Forall (init_ok solve a0) inits ->
  (forall s, In s inits -> is_error (get_mode a0 (ss_mode s)) = false) ->
  (cf_urgent cf = true -> exists rank : nat -> nat, forall t, t < List.length (ha_trans a0) -> rank (t_to (get_trans a0 t)) < rank (t_from (get_trans a0 t))) ->
  dense_error a0 (init_of_list inits) (cf_num cf) (cf_urgent cf) ->
  exists fuel e, run_ap solve arnoldi qexp ApChull cf a0 inits fuel = Some (Err e).
Proof.
  intros W F HZ Hun Hce NT Hinit Hne Hu HD. destruct (C24_chull_terminates solve arnoldi qexp ApChull cf a0 inits) as (fuel & H); [discriminate|intros g K; congruence|eapply init_fresh; exact Hinit|exact Hu|].
  exists fuel. destruct (run_ap solve arnoldi qexp ApChull cf a0 inits fuel) as [[c|e]|] eqn:E; [|eauto|congruence].
  exfalso. exact (C61_chull_unaggregated_returns_safe solve Hsolve arnoldi qexp cf a0 inits fuel c W F HZ Hun Hce NT Hinit Hne E HD).
Qed.
(** the hypotheses are met by an automaton whose trajectory meets the guard at time 1/2 (raising), and by one that is safe (returning) *)
Lemma exQ_dense : dense_error (exQ (5 # 4) (7 # 4)) (init_of_list [exQ_s]) 2 true.
Proof.
  exists 1, (fun _ => (3 # 2)%Q), (0 + inject_Z (Z.of_nat 0) + (1 # 2))%Q. split; [|reflexivity].
  apply (dn_jump (exQ (5 # 4) (7 # 4)) _ 2 true 0 (fun k _ => pow2 k) (fun _ _ => 0%Q) 0 0 (1 # 2) 0).
  - apply dn_init. exists exQ_s. split; [left; reflexivity|]. split; [vm_compute; reflexivity|].
    exists (fun i => 1%Q). split; [apply satb_ok; vm_compute; reflexivity|intros i Hi; vm_compute in Hi; destruct i; [reflexivity|lia]].
  - reflexivity.
  - intros k Hk. split; [intros q []|]. split; [exact Logic.I|]. intros i Hi. change (m_dims (get_mode (exQ (5 # 4) (7 # 4)) 0)) with 1 in Hi. change (m_bm (get_mode (exQ (5 # 4) (7 # 4)) 0) 1) with [[pow2 1]]. rewrite exL_app by exact Hi. change (m_b (get_mode (exQ (5 # 4) (7 # 4)) 0)) with (@None (csr * csr * list Q)). cbv match. change (pow2 (S k)) with (Qred (2 * pow2 k)). rewrite Qred_correct. change (pow2 1) with 2%Q. ring.
  - split; discriminate.
  - discriminate.
  - reflexivity.
  - cbn; lia.
  - reflexivity.
  - intros [|[|i]] r b Hr0 Hb0; [| |destruct i; discriminate]; (injection Hr0 as <-; injection Hb0 as <-; vm_compute; discriminate).
  - exists (fun _ => 0%Q). vm_compute. split; [exact Logic.I|]. intros [|i] Hi; [reflexivity|lia].
Qed.
Definition exZ_cf : cfg := mkCfg 2 1 true true true true false true true None.
Lemma exZ_hyps lo hi : wf_ha (exQ lo hi) /\ inv_free (exQ lo hi) /\ zero_plain exZ_cf (exQ lo hi) /\ no_tt exZ_cf (exQ lo hi) /\ Forall (init_ok fm_solver (exQ lo hi)) [exQ_s] /\
  (forall s, In s [exQ_s] -> is_error (get_mode (exQ lo hi) (ss_mode s)) = false).
Proof. split; [apply exQ_wf|]. split; [apply exQ_free|]. split; [apply (exQ_zero true)|]. split; [apply (exQ_tt true)|]. split; [apply exQ_init|]. intros s [<-|[]]. reflexivity. Qed.
Example C66_chull_unsafe_witness : exists fuel e, run_ap fm_solver arn0 (fun q => q) ApChull exZ_cf (exQ (5 # 4) (7 # 4)) [exQ_s] fuel = Some (Err e).
Proof.
  destruct (exZ_hyps (5 # 4) (7 # 4)) as (H1 & H2 & H3 & H4 & H5 & H6). apply (C66_chull_unsafe_always_raises_refuted fm_solver fm_solver_ok arn0); auto; [|exact exQ_dense].
  intros _. exists (fun m => match m with 0 => 1 | _ => 0 end). intros t Ht. destruct t as [|t]; [vm_compute; lia|cbn in Ht; lia].
Qed.
Example C61_chull_unaggregated_witness : ~ dense_error (exQ 9 10) (init_of_list [exQ_s]) 2 true /\ exists c, run_ap fm_solver arn0 (fun q => q) ApChull exZ_cf (exQ 9 10) [exQ_s] 40 = Some (Ok c).
Proof.
  assert (H : match run_ap fm_solver arn0 (fun q => q) ApChull exZ_cf (exQ 9 10) [exQ_s] 40 with Some (Ok c) => true | _ => false end = true) by (vm_compute; reflexivity).
  destruct (run_ap _ _ _ _ _ _ _ _) as [[c|]|] eqn:E; try discriminate H. split; [|eauto].
  destruct (exZ_hyps 9 10) as (H1 & H2 & H3 & H4 & H5 & H6). exact (C61_chull_unaggregated_returns_safe fm_solver fm_solver_ok arn0 (fun q => q) exZ_cf (exQ 9 10) [exQ_s] 40 c H1 H2 H3 eq_refl eq_refl H4 H5 H6 E).
Qed.
