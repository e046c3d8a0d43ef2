(** C66: on well-formed automata with bounded sets, the analysis does not raise. *)
From Verif Require Import Base BaseFacts LpModel LpSpec SetSpec LpUtil LpFacts LpWf SetFacts SetFacts2 MinkFacts OpsFacts OpsFacts2 OpsFacts3 OpsFacts4 AggFacts ChullFacts
  ApiSpec ApiFacts Automaton StateSet HybridSpec FlowFacts StateSpec StateFacts StateFacts2 StateFacts3 AutoFacts BuildFacts CoreModel HeapFacts Prop_Sets CoreOps CorePop CoreExt CoreDag CoreDag2 CoreDag3 CoreStep CoreGhost CoreCont CoreSpec CoreSetup
  Bounded Bounded2 Bounded3 Bounded4 Bounded5 Bounded6 Bounded7 ChullTotal CoreTotal CoreTotal2 CoreTotal3 CoreTotal4 CoreTotal5 CoreTotal6 CoreSubD SetupHa SetupHaSub Prop_Core Prop_Core2
  CoreInv CoreSub Names CexSpec NameFacts Layout TraceLp TraceState TraceReset CoreTrace CexSetup Prop_Cex Prop_Flag Prop_Core4.
From Coq Require Import Lia Lqa Setoid QArith.Qabs.
Open Scope nat_scope.

Section Total.
Variable solve : solver.
Hypothesis Hsolve : solver_ok solve.
Hypothesis Hcomp : solver_complete solve.
Variable arnoldi : nat -> option (list Q) -> csr -> option csr -> nat -> list (list Q).
Hypothesis Harn : forall k ctr am r n, Forall (fun row => List.length row = n) (arnoldi k ctr am r n).
Variable cf : cfg.
(** the settings covered: at least one step and no deaggregation (every kind of aggregation) *)
Definition settings_ok : Prop := 0 < cf_num cf /\ no_deagg cf.
(** what building counter-examples (make_counterexample, the default) relies on *)
Definition cex_ok (a0 : ha) (inits : list sset) : Prop := cf_ce cf = true -> index_ok a0 /\ Forall (plain_init solve) inits.

Lemma run_total a0 a inits fuel : settings_ok -> wf_ha a0 -> fits a0 -> inputs_plain a0 -> setup_ha cf a0 = Ok a -> cex_ok a0 inits ->
  Forall (init_ok solve a0) inits -> Forall (init_fits a0) inits -> (exists s p, In s inits /\ in_lp (ss_lpi s) p /\ inv_ok 0 (get_mode a0 (ss_mode s)) p) ->
  forall e, run solve arnoldi cf a0 inits fuel <> Some (Err e).
Proof.
  intros (Hnum & Hnd) W0 F0 Hinp Hs Hce Hinit Hfit Hne e. destruct (setup_ha_ok cf a0 a W0 Hs) as (Em & W & _). pose proof (setup_ha_fits cf a0 a W0 F0 Hs) as F.
  assert (EM : forall m, get_mode a m = get_mode a0 m) by (intro m; apply get_mode_eq; exact Em).
  assert (Hinit' : Forall (init_ok solve a) inits) by (eapply Forall_impl; [|exact Hinit]; intros s Hsx; eapply init_ok_modes; eauto).
  assert (Hfit' : Forall (init_fits a) inits) by (eapply Forall_impl; [|exact Hfit]; intros s Hsx; unfold init_fits in *; rewrite EM; exact Hsx).
  assert (Hinp' : inputs_plain a). { intros m Hm. rewrite EM. apply Hinp. rewrite <- Em. exact Hm. }
  assert (Hne' : exists s p, In s inits /\ in_lp (ss_lpi s) p /\ inv_ok 0 (get_mode a (ss_mode s)) p) by (destruct Hne as (s & p & H1 & H2 & H3); exists s, p; rewrite EM; auto).
  destruct (setup_total solve Hsolve Hcomp cf a W Hnum Hinp' inits Hinit' Hfit' Hne') as (c0 & Esu & U0).
  assert (L : match run_loop solve arnoldi cf a fuel c0 with Some (Err _) => False | Some (Ok c') => uinv solve cf a c' | None => True end).
  { destruct (cf_ce cf) eqn:Ece.
    - destruct (Hce Ece) as [HI Hpl]. destruct (pre_gi solve Hsolve cf a (rules_of cf) inits c0 W Hinp' Hinit' Esu eq_refl) as [G0 C0].
      assert (T0 : CoreTrace.ti cf a (init_of_list inits) c0).
      { apply (setup_ti solve Hsolve cf a W Hinp' inits c0 Hinit'); [|exact Esu]. intros s Hin _. pose proof (proj1 (Forall_forall _ _) Hpl s Hin) as (cs & rhs & hi & dims & Hc). eapply init_cols_fc; exact Hc. }
      pose proof (setup_ha_index cf a0 a W0 HI Hs) as HI'. pose proof (init_list_ext solve a inits Hinit') as Hext.
      apply (loop_total solve Hsolve Hcomp arnoldi Harn cf a W F Hnum (J solve cf a (init_of_list inits))) with (J1 := J1 solve cf a (init_of_list inits)); auto.
      + intros c nid t l1 tl. apply (J_err solve Hsolve Hcomp arnoldi cf a W (init_of_list inits)).
      + intros c nid t c'. apply (J_step solve Hsolve arnoldi cf a W Hinp' HI' (init_of_list inits) Hext Hnd).
      + intros c n. apply (J_cont solve Hsolve cf a W Hinp' (init_of_list inits)).
      + intros c c1 n. apply (J_pop solve Hsolve arnoldi cf a W (init_of_list inits) Hnd).
      + intros c c'. apply (J_do solve Hsolve arnoldi cf a W Hinp' HI' (init_of_list inits) Hext Hnd).
      + split; [exact G0|]. split; [exact C0|]. split; [exact T0|]. apply (u_c _ _ _ _ U0).
    - apply (loop_total solve Hsolve Hcomp arnoldi Harn cf a W F Hnum (fun _ _ => True)) with (J1 := fun _ => True); auto.
      intros c nid t l1 tl _ _ _ _ _ _. unfold error_reached. cbv zeta. rewrite Ece. cbn [andb]. match goal with |- context [if ?b then _ else _] => destruct b end; eauto. }
  unfold run. assert (Hl : List.length inits <> 0) by (destruct inits; [destruct Hne as (s & _ & [] & _)|discriminate]). destruct (Nat.eqb_spec (List.length inits) 0); [congruence|]. cbn [negb assert bind]. rewrite Hs, Esu.
  intro K. rewrite K in L. exact L.
Qed.

(** Core.run does not raise, whatever the number of steps already made ([fuel]): for every automaton with matching shapes, bounded
    input sets and bounded, non-empty Minkowski-sum sets, and bounded initial sets of which at least one has a point inside its mode's
    invariant.  Guard strengthening needs [rows_comparable] (without it almost_equals may raise, C27_strengthening_raises_refuted). *)
Theorem C66_run_never_raises a0 inits fuel : settings_ok -> wf_ha a0 -> fits a0 -> inputs_plain a0 -> (cf_gs cf = true -> rows_comparable a0) -> cex_ok a0 inits ->
  Forall (init_ok solve a0) inits -> Forall (init_fits a0) inits -> (exists s p, In s inits /\ in_lp (ss_lpi s) p /\ inv_ok 0 (get_mode a0 (ss_mode s)) p) ->
  forall e, run solve arnoldi cf a0 inits fuel <> Some (Err e).
Proof.
  intros HS W F Hinp HG Hce Hinit Hfit Hne e. destruct (setup_ha_total cf a0 W F (proj1 HS) HG) as (a & Ea). exact (run_total a0 a inits fuel HS W F Hinp Ea Hce Hinit Hfit Hne e).
Qed.

(** so, without urgent guards, it returns a result: after at most |init sets| * 2 * (|transitions| + 2)^num_steps iterations *)
Theorem C66_run_returns a0 inits fuel : settings_ok -> cf_urgent cf = false -> wf_ha a0 -> fits a0 -> inputs_plain a0 -> (cf_gs cf = true -> rows_comparable a0) -> cex_ok a0 inits ->
  Forall (init_ok solve a0) inits -> Forall (init_fits a0) inits -> (exists s p, In s inits /\ in_lp (ss_lpi s) p /\ inv_ok 0 (get_mode a0 (ss_mode s)) p) ->
  List.length inits * (2 * (List.length (ha_trans a0) + 2) ^ cf_num cf) <= fuel -> exists c, run solve arnoldi cf a0 inits fuel = Some (Ok c).
Proof.
  intros HS Hu W F Hinp HG Hce Hinit Hfit Hne Hfuel. pose proof (C66_run_never_raises a0 inits fuel HS W F Hinp HG Hce Hinit Hfit Hne) as H1.
  assert (H2 : run solve arnoldi cf a0 inits fuel <> None).
  { apply C24_terminates; [exact Hu|apply HS| |exact Hfuel]. intros s Hin. pose proof (proj1 (Forall_forall _ _) Hinit s Hin) as (l & m & _ & Hn & _).
    destruct (new_stateset_mode _ _ _ _ _ _ _ _ Hn) as (_ & _ & E1 & E2 & E3 & _). split; [exact E1|]. split; assumption. }
  destruct (run solve arnoldi cf a0 inits fuel) as [[c|e]|]; [eauto|exfalso; exact (H1 e eq_refl)|congruence].
Qed.

(** preparing the automaton (Core.setup_ha: time-triggered transitions, guard strengthening, check_transitions) does not raise *)
Theorem C66_setup_ha_never_raises a0 : wf_ha a0 -> fits a0 -> 0 < cf_num cf -> (cf_gs cf = true -> rows_comparable a0) -> exists a, setup_ha cf a0 = Ok a.
Proof. intros. apply setup_ha_total; auto. Qed.

(** sets made by from_constraints from a bounded polytope are bounded: what C66_run_never_raises asks of the initial sets *)
Theorem C66_constraints_bounded a0 m rhs hi dims l s : csr_ok m -> (forall c, c < c_nc m -> exists M, forall x, poly (c_rows m) rhs x -> (Qabs (x c) <= M)%Q) ->
  from_constraints solve m rhs (ss_mode s) hi None dims = Ok l -> new_stateset a0 l (ss_mode s) 0 0 None true = Ok s -> (m_b (get_mode a0 (ss_mode s)) <> None -> hi = true) -> init_fits a0 s.
Proof.
  intros Hok HB Hl Hn Hi. destruct (new_stateset_mode _ _ _ _ _ _ _ _ Hn) as (El & _). unfold init_fits. rewrite El.
  destruct (from_constraints_cb solve Hsolve m rhs (ss_mode s) hi None dims l 0 Hok Logic.I Hl) as (WL & B & O).
  { intros c Hc. destruct (HB c Hc) as (M & HM). exists M. intros x Hx. apply HM. apply (proj1 (tpoly_UP (c_rows m) rhs x (List.length rhs) (Nat.le_refl _))). exact Hx. }
  split; [|split].
  - intros c Hc. exact (cb_lb l _ _ _ _ WL B c Hc).
  - exact O.
  - intro Hb. destruct (from_constraints_wf solve Hsolve m rhs (ss_mode s) hi None dims l 0 Hok Logic.I Hl) as (_ & _ & _ & _ & _ & Hie & _). rewrite (Hi Hb) in Hie. destruct (l_ie l) as [c|] eqn:Ei; [eauto|]. exfalso. pose proof (proj1 Hie eq_refl). discriminate.
Qed.
Theorem C66_box_bounded a0 box hi l s : from_box solve box (ss_mode s) hi = Ok l -> new_stateset a0 l (ss_mode s) 0 0 None true = Ok s -> (m_b (get_mode a0 (ss_mode s)) <> None -> hi = true) ->
  init_fits a0 s /\ plain_init solve s.
Proof.
  intros Hl Hn Hi. destruct (new_stateset_mode _ _ _ _ _ _ _ _ Hn) as (El & _). split; [|apply (plain_box solve s box hi); rewrite El; exact Hl].
  unfold from_box in Hl. apply bind_ok in Hl as (u & _ & Hl). apply (C66_constraints_bounded a0 _ _ hi None l s (box_rows_ok _)) in Hl; auto.
  cbn [c_nc c_rows]. intros c Hc. destruct (nth_error box c) as [[lo up]|] eqn:Eb; [|apply nth_error_None in Eb; lia]. exists (Qabs lo + Qabs up)%Q. intros x Hx.
  unfold box_rows in Hx. rewrite (box_poly_aux box 0 x) in Hx. destruct (Hx c lo up Eb) as [H1 H2]. cbn [Nat.add] in H1, H2. apply Qabs_Qle_condition.
  pose proof (Qle_Qabs lo). pose proof (Qle_Qabs up). pose proof (Qle_Qabs (- lo)). pose proof (Qle_Qabs (- up)). rewrite Qabs_opp in *. pose proof (Qabs_nonneg lo). pose proof (Qabs_nonneg up). split; lra.
Qed.

(** lputil.aggregate_chull returns on bounded, non-empty sets of equal dimension ([bounded_lp]: every variable of the LP is bounded,
    [obj_ok]: the objective refers to existing columns), and the hull is a bounded set *)
Definition bounded_lp (l : lp) : Prop := forall c, c < l_nc l -> exists M, forall x, lp_sat l x -> (Qabs (x c) <= M)%Q.
Theorem C14_aggregate_chull_total ls mid hi n : ls <> [] ->
  (forall s, In s ls -> (exists k, api solve s (Some k)) /\ bounded_lp s /\ obj_ok s /\ l_dims s = n /\ exists p, in_lp s p) ->
  exists l, aggregate_chull solve (List.length ls) ls mid hi = Ok l /\ l_dims l = n /\ bounded_lp l /\ exists p, in_lp l p.
Proof.
  intros Hne H. assert (HF : Forall (chull_in n) ls).
  { apply Forall_forall. intros s Hs. destruct (H s Hs) as ((k & Hk) & B & O & D & (p & x & X & _)). apply (api_ok solve Hsolve) in Hk. destruct k as [[[BM nu] IEs] js]. destruct Hk as (K1 & K2 & K3 & K4 & _).
    split; [exact (wf_clonable _ _ _ _ K4 K3)|]. split; [split; [exact K1|exact K2]|]. split; [split; [exact K1|split; [exact O|exact B]]|]. split; [exact D|eauto]. }
  assert (Hn : 0 < n). { destruct ls as [|s ls]; [congruence|]. destruct (H s (or_introl eq_refl)) as ((k & Hk) & _ & _ & D & _). apply (api_ok solve Hsolve) in Hk. destruct Hk as (_ & _ & K & _). lia. }
  destruct (chull_total solve Hsolve Hcomp n Hn (List.length ls) ls mid hi HF Hne (Nat.le_refl _)) as (l & E & (_ & _ & (_ & _ & B) & D & (x & X)) & _).
  exists l. split; [exact E|]. split; [exact D|]. split; [exact B|]. exists (fun i => x (l_cvo l + i)). exists x. split; [exact X|]. intros i _. reflexivity.
Qed.
End Total.

(** ** concrete cases *)
From Verif Require Import Solver Ex_Core Ex_Zero Ex_Cex.
Open Scope nat_scope.
Lemma exC_fits g : fits (exC g).
Proof.
  assert (HM : forall name inv, mode_fits (exC_mode name inv)).
  { intros name inv. split; [exact Logic.I|]. intros x K. injection K as <-. split; [repeat constructor|]. split; [reflexivity|]. vm_compute. discriminate. }
  split.
  - intros m Hm. destruct m as [|[|[|m]]]; [apply HM|apply HM| |cbn in Hm; lia]. split; [exact Logic.I|]. intros x K. discriminate K.
  - intros t Ht. destruct t as [|[|t]]; [| |cbn in Ht; lia]; (split; [intros g0 rhs K; injection K as <- _; reflexivity|exact Logic.I]).
Qed.
(** default settings with box aggregation or with convex-hull aggregation: it is known beforehand that the analysis returns *)
Lemma exC_returns cf : cf_num cf = cf_num (exC_cf false) -> no_deagg cf -> cf_urgent cf = false -> exists c, run fm_solver arn0 cf (exC (-(3#2))) [exC_s] 8192 = Some (Ok c).
Proof.
  intros Hnum Hnd Hurg. apply C66_run_returns; try exact fm_solver_ok; try exact fm_solver_complete.
  - intros. unfold arn0, ident. apply Forall_forall. intros row Hr. apply in_map_iff in Hr as (i & <- & _). unfold unit_row. rewrite map_length, seq_length. reflexivity.
  - split; [rewrite Hnum; cbn; lia|exact Hnd].
  - exact Hurg.
  - apply exC_wf.
  - apply exC_fits.
  - intros m Hm Hb. destruct m as [|[|[|m]]]; cbn in Hb; try congruence. cbn in Hm; lia.
  - intros _ t g rhs i r b c Ht Hne Hr Hg H1 H2 Hc. exfalso. destruct t as [|[|t]]; [exact Hc|exact Hc|cbn in Ht; lia].
  - intros _. split; [intros t Ht; destruct t as [|[|t]]; [reflexivity|reflexivity|cbn in Ht; lia]|]. constructor; [|constructor].
    apply (plain_box fm_solver _ [(0, 0); (0, 0); (1, 1)]%Q false). vm_compute. reflexivity.
  - apply exC_init.
  - constructor; [|constructor]. apply (C66_box_bounded fm_solver fm_solver_ok (exC (-(3#2))) [(0, 0); (0, 0); (1, 1)]%Q false exC_l); [vm_compute; reflexivity|vm_compute; reflexivity|]. intro K. exfalso. apply K. reflexivity.
  - exists exC_s, (fun i => if i =? 2 then 1%Q else 0%Q). split; [left; reflexivity|]. split.
    + assert (H : from_box fm_solver [(0, 0); (0, 0); (1, 1)]%Q 0 false = Ok exC_l) by (vm_compute; reflexivity). change (ss_lpi exC_s) with exC_l.
      destruct (SetFacts2.from_box_in fm_solver fm_solver_ok _ _ _ _ H) as (_ & Hb & _). apply Hb. intros i lb ub Hn. destruct i as [|[|[|i]]]; cbn in Hn; [| | |destruct i; discriminate]; injection Hn as <- <-; cbn; lra.
    + intros c [<-|[]]. cbn. lra.
  - rewrite Hnum. vm_compute. lia.
Qed.
Example C66_witness : exists c, run fm_solver arn0 (exC_cf false) (exC (-(3#2))) [exC_s] 8192 = Some (Ok c).
Proof. apply exC_returns; [reflexivity|intros g K; injection K as <-; reflexivity|reflexivity]. Qed.
Definition exH_cf := let c := exC_cf false in mkCfg (cf_num c) (cf_step c) (cf_urgent c) (cf_gs c) (cf_tt c) (cf_skip0 c) (cf_stop_agg c) (cf_stop_conc c) (cf_ce c)
  (Some (mkAgg AChull PAvg false true false DMost)).
Example C66_chull_witness : exists c, run fm_solver arn0 exH_cf (exC (-(3#2))) [exC_s] 8192 = Some (Ok c).
Proof. apply exC_returns; [reflexivity|intros g K; injection K as <-; reflexivity|reflexivity]. Qed.

(** boundedness is needed: with the initial set x >= 0, y = 0, a = 1, which is not bounded, everything else is as above and the
    analysis raises (RuntimeError, glpk reports an unbounded problem) when the invariant is intersected *)
Definition exU_l := Eval vm_compute in getr lp_new (from_constraints fm_solver (mkCsr 3 [[(0, (-(1))%Q)]; [(1, 1%Q)]; [(1, (-(1))%Q)]; [(2, 1%Q)]; [(2, (-(1))%Q)]]) [0; 0; 0; 1; -(1)]%Q 0 false None None).
Definition exU_s := Eval vm_compute in getr dss0 (new_stateset (exC 0) exU_l 0 0 0 None true).
Theorem C66_unbounded_set_refuted : exists a0 inits, settings_ok (exC_cf false) /\ wf_ha a0 /\ fits a0 /\ inputs_plain a0 /\ rows_comparable a0 /\ cex_ok fm_solver (exC_cf false) a0 inits /\ Forall (init_ok fm_solver a0) inits /\
  run fm_solver arn0 (exC_cf false) a0 inits 0 = Some (Err ERuntime).
Proof.
  exists (exC 0), [exU_s]. split; [split; [cbn; lia|]; intros g K; injection K as <-; reflexivity|]. split; [apply exC_wf|]. split; [apply exC_fits|].
  assert (H : from_constraints fm_solver (mkCsr 3 [[(0, (-(1))%Q)]; [(1, 1%Q)]; [(1, (-(1))%Q)]; [(2, 1%Q)]; [(2, (-(1))%Q)]]) [0; 0; 0; 1; -(1)]%Q 0 false None None = Ok exU_l) by (vm_compute; reflexivity).
  split; [intros m Hm Hb; destruct m as [|[|[|m]]]; cbn in Hb; try congruence; cbn in Hm; lia|].
  split; [intros t g rhs i r b c Ht Hne Hr Hg H1 H2 Hc; exfalso; destruct t as [|[|t]]; [exact Hc|exact Hc|cbn in Ht; lia]|].
  split; [intros _; split; [intros t Ht; destruct t as [|[|t]]; [reflexivity|reflexivity|cbn in Ht; lia]|constructor; [|constructor]; unfold plain_init; eauto]|].
  split.
  - constructor; [|constructor]. exists exU_l, 0. split; [cbn; lia|]. split; [vm_compute; reflexivity|]. cbn [m_a get_mode nth exC ha_modes exC_mode]. split; [|reflexivity].
    change (ident 3) with (ident (l_dims exU_l)). eapply api_from_constraints; [| |exact H|cbn; lia]; [repeat constructor|exact Logic.I].
  - vm_compute. reflexivity.
Qed.
