(** C66 for APPROX_LGG on automata without inputs. *)
From Verif Require Import Base BaseFacts LpModel LpSpec SetSpec LpUtil LpFacts LpWf SetFacts SetFacts2 MinkFacts OpsFacts OpsFacts2 OpsFacts3 OpsFacts4 AggFacts ChullFacts
  ApiSpec ApiFacts Automaton StateSet HybridSpec FlowFacts StateSpec StateFacts StateFacts2 StateFacts3 AutoFacts BuildFacts CoreModel HeapFacts Prop_Sets CoreOps CorePop CoreExt CoreDag CoreDag2 CoreDag3 CoreStep CoreGhost CoreCont CoreSpec CoreSetup
  Bounded Bounded2 Bounded3 Bounded4 Bounded5 Bounded6 Bounded7 ChullTotal CoreTotal CoreTotal2 CoreTotal3 CoreTotal4 CoreTotal5 CoreTotal6 CoreSubD SetupHa SetupHaSub Prop_Core Prop_Core2
  CoreInv CoreSub Approx ApproxFacts CoreApprox ApproxInv CoreTotalA Prop_Cex Prop_Total Prop_Dense Prop_TotalA CoreTermA LggTotal CoreTotalL Prop_LggRun.
From Coq Require Import Lia Lqa Setoid QArith.Qabs.
Open Scope nat_scope.

Section TotalL.
Variable solve : solver.
Hypothesis Hsolve : solver_ok solve.
Hypothesis Hcomp : solver_complete solve.
Variable arnoldi : nat -> option (list Q) -> csr -> option csr -> nat -> list (list Q).
Hypothesis Harn : forall k ctr am r n, Forall (fun row => List.length row = n) (arnoldi k ctr am r n).
Variable qexp : Q -> Q.
Hypothesis Hexp : forall q, (1 + q <= qexp q)%Q.

(** On automata without invariants and inputs, with make_counterexample = False, the analysis with APPROX_LGG does not raise, whatever the number of
    steps already made ([fuel]).  With make_counterexample = True it may: C66_lgg_reported_error_raises_refuted. *)
Theorem C66_lgg_never_raises cf a0 inits fuel : settings_ok cf -> cf_ce cf = false -> wf_ha a0 -> fits a0 -> inv_free a0 -> no_inputs a0 -> no_tt cf a0 -> (cf_gs cf = true -> rows_comparable a0) ->
  Forall (init_ok solve a0) inits -> Forall (init_fits a0) inits -> (exists s p, In s inits /\ in_lp (ss_lpi s) p) ->
  forall e, run_ap solve arnoldi qexp ApLgg cf a0 inits fuel <> Some (Err e).
Proof.
  intros [Hnum Hnd] Hce W0 F0 Hi NI NT0 HG Hinit Hfit Hne e. destruct (setup_ha_total cf a0 W0 F0 Hnum HG) as (a & Hs).
  destruct (free_setup cf a0 a W0 Hi NT0 Hs) as (Em & W & El & NT & _). pose proof (setup_ha_fits cf a0 a W0 F0 Hs) as F.
  assert (EM : forall m, get_mode a m = get_mode a0 m) by (intro m; apply get_mode_eq; exact Em).
  assert (Hi' : inv_free a) by (intro m; rewrite EM; apply Hi). assert (NIa : no_inputs a) by (intro m; rewrite EM; apply NI).
  assert (Hinp : inputs_plain a) by (intros m _ _; apply Hi').
  assert (Hinit' : Forall (init_ok solve a) inits) by (eapply Forall_impl; [|exact Hinit]; intros s Hsx; eapply init_ok_modes; eauto).
  assert (Hfit' : Forall (init_fits a) inits) by (eapply Forall_impl; [|exact Hfit]; intros s Hsx; unfold init_fits in *; rewrite EM; exact Hsx).
  assert (Hne' : exists s p, In s inits /\ in_lp (ss_lpi s) p /\ inv_ok 0 (get_mode a (ss_mode s)) p).
  { destruct Hne as (s & p & H1 & H2). exists s, p. split; [exact H1|]. split; [exact H2|]. unfold inv_ok. rewrite Hi'. intros c []. }
  destruct (setup_total solve Hsolve Hcomp cf a W Hnum Hinp inits Hinit' Hfit' Hne') as (c0 & Esu & U0).
  pose proof (setup_minv solve Hsolve cf a inits c0 (seg0 a) W Hi' Hinit' Esu) as M0.
  assert (Hin' : forall m, m < List.length (ha_modes a) -> exists u, input_ok (get_mode a m) u) by (intros m Hm; exists (fun _ => 0%Q); unfold input_ok; rewrite NIa; exact Logic.I).
  assert (Hrad : forall l r, compute_radius_inf solve l = Ok (Some r) -> (0 <= r)%Q) by (intros l r H; eapply radius_nonneg; [|exact H]; discriminate).
  assert (Hat : forall s, live solve a s -> ss_step s = 0 -> nonempty (ss_lpi s) -> exists l, approx_of solve qexp (cf_step cf) ApLgg a s = Ok (ss_with_lpi s l) /\ live solve a (ss_with_lpi s l)).
  { intros s L E0 Hn. destruct (lgg_total solve Hsolve Hcomp cf Hnum a W F Hi' NIa qexp Hexp (cf_step cf) Hrad s L E0 Hn) as (l & E & Ll). exists l. split; [|exact Ll].
    unfold approx_of, apply_approx_model. rewrite E0. cbn [Nat.eqb assert bind]. destruct L as (x & St & _). rewrite (StateFacts.st_a _ _ _ _ St). cbn [bind]. rewrite E. reflexivity. }
  pose proof (CoreTotalL.loop_ap_total solve Hsolve Hcomp arnoldi Harn cf a W F Hnum Hnd Hce Hi' NT (init_of_list inits) (approx_of solve qexp (cf_step cf) ApLgg a) (seg0 a)
    (lgg_ap solve Hsolve qexp Hexp (cf_step cf) a W NIa) Hat fuel c0 U0 M0) as L.
  unfold run_ap. assert (Hl : List.length inits <> 0) by (destruct inits; [destruct Hne as (s & _ & [] & _)|discriminate]). destruct (Nat.eqb_spec (List.length inits) 0); [congruence|].
  cbn [negb assert bind]. rewrite Hs, Esu. intro K. rewrite K in L. exact L.
Qed.
(** and with require_same_path it returns a result *)
Theorem C66_lgg_returns cf a0 inits : settings_ok cf -> cf_ce cf = false -> wf_ha a0 -> fits a0 -> inv_free a0 -> no_inputs a0 -> no_tt cf a0 -> (cf_gs cf = true -> rows_comparable a0) ->
  Forall (init_ok solve a0) inits -> Forall (init_fits a0) inits -> (exists s p, In s inits /\ in_lp (ss_lpi s) p) ->
  (forall g, cf_strat cf = Some g -> ag_path g = true) ->
  (cf_urgent cf = true -> exists rank : nat -> nat, forall t, t < List.length (ha_trans a0) -> rank (t_to (get_trans a0 t)) < rank (t_from (get_trans a0 t))) ->
  exists fuel c, run_ap solve arnoldi qexp ApLgg cf a0 inits fuel = Some (Ok c).
Proof.
  intros HS Hce W F Hi NI NT HG Hinit Hfit Hne HP Hu. destruct (C24_approx_terminates solve arnoldi qexp ApLgg cf a0 inits) as (fuel & H2); [intros _; exact NI|exact HP|eapply init_fresh; exact Hinit|exact Hu|].
  exists fuel. pose proof (C66_lgg_never_raises cf a0 inits fuel HS Hce W F Hi NI NT HG Hinit Hfit Hne) as H1.
  destruct (run_ap solve arnoldi qexp ApLgg cf a0 inits fuel) as [[c|e]|]; [eauto|exfalso; exact (H1 e eq_refl)|congruence].
Qed.
End TotalL.

From Verif Require Import Solver Ex_Core Ex_Approx Ex_Zero Ex_Cex Ex_Dense.
Open Scope nat_scope.
(** the hypotheses are met; this analysis reports the error *)
Example C66_lgg_total_witness : (forall fuel e, run_ap fm_solver arn0 qexp2 ApLgg (exA_cf false) (exQ 3 5) [exQ_s] fuel <> Some (Err e)) /\
  (exists fuel c, run_ap fm_solver arn0 qexp2 ApLgg (exA_cf false) (exQ 3 5) [exQ_s] fuel = Some (Ok c)).
Proof.
  destruct (exA_hyps false) as (H1 & H2 & H3 & H4 & H5 & H6 & H7 & _ & H8 & H9 & H10). split.
  - intros fuel e. apply (C66_lgg_never_raises fm_solver fm_solver_ok fm_solver_complete arn0 arn0_rows qexp2 qexp2_ok); auto using exQ_noinp.
  - apply (C66_lgg_returns fm_solver fm_solver_ok fm_solver_complete arn0 arn0_rows qexp2 qexp2_ok); auto using exQ_noinp.
    + intros g K. injection K as <-. reflexivity.
    + discriminate.
Qed.
