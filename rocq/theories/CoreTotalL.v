(** CoreTotalA.v for any approximation model [ap] that does not fail on bounded sets (for C66). *)
From Verif Require Import Base BaseFacts LpModel LpSpec SetSpec LpUtil LpFacts LpWf SetFacts SetFacts2 MinkFacts OpsFacts OpsFacts2 OpsFacts3 OpsFacts4 AggFacts ChullFacts
  ApiSpec ApiFacts Automaton StateSet HybridSpec FlowFacts StateSpec StateFacts StateFacts2 StateFacts3 AutoFacts BuildFacts CoreModel HeapFacts Prop_Sets CoreOps CoreGhost CoreHeap CoreInv CoreStep CorePop CoreExt CoreDag CoreDag2 CoreDag3 CoreCont CoreSpec CoreSetup
  Bounded Bounded2 Bounded3 Bounded4 Bounded5 Bounded6 Bounded7 ChullTotal CoreTotal CoreTotal2 CoreTotal3 CoreTotal4 CoreSubD Prop_Core2 Approx ApproxFacts CoreApprox ApproxInv CoreTotalA.
From Coq Require Import Lia Lqa Setoid QArith.Qabs.
Open Scope nat_scope.

Section WithSolver.
Variable solve : solver.
Hypothesis Hsolve : solver_ok solve.
Hypothesis Hcomp : solver_complete solve.
Variable arnoldi : nat -> option (list Q) -> csr -> option csr -> nat -> list (list Q).
Hypothesis Harn : forall k ctr am r n, Forall (fun row => List.length row = n) (arnoldi k ctr am r n).
Variable cf : cfg.
Variable a : ha.
Hypothesis WH : wf_ha a.
Hypothesis HF : fits a.
Hypothesis Hnum : 0 < cf_num cf.
Hypothesis Hnd : no_deagg cf.
Hypothesis Hce : cf_ce cf = false.
Hypothesis Hninv : forall m, m_inv (get_mode a m) = [].
Hypothesis Hntt : cf_tt cf = true -> forall t, t < List.length (ha_trans a) -> t_tt (get_trans a t) = false.
Hypothesis Hin : forall m, m < List.length (ha_modes a) -> exists u, input_ok (get_mode a m) u.
Notation dag := (dag cf a).
Notation tinv := (tinv solve a).
Notation err m := (is_error (get_mode a m)).

Variable init : nat -> vec -> Prop.
Variable ap : sset -> res sset.
Variable blur : nat -> vec -> vec -> Prop.
Hypothesis Hap : forall s x s', st_ok solve a s x -> ss_step s = 0 -> no_rows s -> ap s = Ok s' ->
  st_ok solve a s' x /\ ss_mode s' = ss_mode s /\ ss_step s' = 0 /\ ss_lo s' = ss_lo s /\ forall p b, in_lp (ss_lpi s) p -> blur (ss_mode s) p b -> in_lp (ss_lpi s') b.
Notation minv := (minv solve cf a init blur).
Notation uinv := (uinv solve cf a).

Hypothesis ap_total : forall s, live solve a s -> ss_step s = 0 -> nonempty (ss_lpi s) -> exists l, ap s = Ok (ss_with_lpi s l) /\ live solve a (ss_with_lpi s l).

Lemma step_pop_ap_total c (Pr : ent_set) : uinv c -> av solve a c -> cov cf a init blur c Pr (fun _ _ _ _ _ => False) -> c_wait c <> [] -> exists c', do_step_pop_ap solve arnoldi cf a ap c = Ok c' /\ uinv c'.
Proof.
  intros [V T K R W] G HC Hw. destruct (pop_total solve Hsolve Hcomp arnoldi Harn cf a WH HF Hnum c V T Hw) as (c1 & nid & E1 & T1).
  destruct (cinv_pop _ _ _ _ _ _ _ V E1) as [V1 C1]. pose proof (ci_cur _ _ _ V1 nid C1) as Hn. pose proof (ci_dag _ _ _ V1) as D1.
  destruct (av_pop solve Hsolve arnoldi cf a WH Hnd init blur c c1 nid Pr G HC E1) as (G1 & _ & _ & _ & S0 & Hne & _).
  unfold do_step_pop_ap. rewrite E1. cbn [bind]. destruct (err _) eqn:Ee.
  - eexists. split; [reflexivity|]. pose proof (cinv_step_pop solve arnoldi cf a c (left_invariant c1 nid (n_state (getN c1 nid)) false) V) as VL. assert (ED : do_step_pop solve arnoldi cf a c = Ok (left_invariant c1 nid (n_state (getN c1 nid)) false)) by (unfold do_step_pop; rewrite E1; cbn [bind]; rewrite Ee; reflexivity).
    constructor; [exact (VL ED)|apply tinv_left; exact T1|intros n Hn'; discriminate|exact (av_rep solve a _ G1)|exact (av_dw solve a _ G1)].
  - rewrite (intersect_nil solve a Hninv). cbn [bind]. set (sid := n_state (getN c1 nid)) in *. fold (nst c1 nid).
    pose proof (av_nst solve a c1 G1 nid Hn) as Hs. fold sid in Hs. pose proof (t_live _ _ _ T1 sid Hs Ee) as L1.
    destruct (ap_total (getS c1 sid) L1 S0 Hne) as (l & El & Ll). rewrite El. cbn [bind]. eexists. split; [reflexivity|].
    assert (KS : keeps c1 (setS c1 sid (ss_with_lpi (getS c1 sid) l))) by apply keeps_lpi.
    assert (V2 : cinv cf a (setS c1 sid (ss_with_lpi (getS c1 sid) l))).
    { apply (cinv_pf cf a c1); [exact V1|apply (dag_k _ _ _ c1); [exact D1|exact KS]|reflexivity|reflexivity|reflexivity|]. intros n Hn'. exact (ci_cur _ _ _ V1 n Hn'). }
    constructor.
    + exact V2.
    + apply (tinv_set solve cf a Hnum c1 sid _ _ D1 T1); [reflexivity|intros _; exact Ll|]. exact (away cf a Hnum c1 _ nid D1 Hn).
    + intros n Hn'. change (c_cur c1 = Some n) in Hn'. assert (n = nid) by congruence. subst n. unfold nodemode. rewrite getN_setS. fold sid. rewrite getS_set_eq by exact Hs. exact Ee.
    + exact (av_rep solve a _ G1).
    + exact (av_dw solve a _ G1).
Qed.

Lemma noerr c nid t l1 tl : True -> t < List.length (ha_trans a) -> t_from (get_trans a t) = ss_mode (getS c (n_state (getN c nid))) -> err (t_to (get_trans a t)) = true ->
  get_guard_intersection solve (get_trans a t) (ss_lpi (getS c (n_state (getN c nid)))) = Ok (l1, Some tl) -> lp_fine tl ->
  exists c', error_reached solve cf a (setS c (n_state (getN c nid)) (ss_with_lpi (getS c (n_state (getN c nid))) l1)) (n_state (getN c nid)) t tl = Ok c'.
Proof. intros _ _ _ _ _ _. unfold error_reached. cbv zeta. rewrite Hce. cbn [andb]. match goal with |- context [if ?b then _ else _] => destruct b end; eauto. Qed.

Lemma step_ap_total c : uinv c -> minv c -> exists c', do_step_ap solve arnoldi cf a ap c = Ok c' /\ uinv c'.
Proof.
  intros U (G & Pr & M).
  assert (HS := step_total_core solve Hsolve Hcomp arnoldi Harn cf a WH HF Hnum (fun _ _ => True) noerr (fun _ _ _ _ _ _ _ _ => Logic.I) (fun _ => True) (fun _ _ _ _ _ _ _ _ _ _ => Logic.I) (fun _ _ _ _ _ _ _ _ => Logic.I) Hnd c U Logic.I).
  pose proof U as [V T K R W]. unfold do_step_ap. destruct (is_finished cf c) eqn:Ef; [eauto|].
  destruct (cur_state c) as [[nid sid]|] eqn:Ec.
  - unfold do_step in HS. rewrite Ef, Ec in HS. exact HS.
  - clear HS. assert (Hr : doing_replay c = false) by (unfold doing_replay; rewrite R, W; reflexivity). rewrite Hr.
    assert (Hg : get_deagg_node cf a c = Ok None). { unfold get_deagg_node. destruct (cf_strat cf) as [g|] eqn:Eg; [|reflexivity]. rewrite (Hnd g Eg). reflexivity. }
    rewrite Hg. cbn [bind].
    assert (Hw : c_wait c <> []). { intro Hw. unfold is_finished in Ef. rewrite Ec, Hr, Hw in Ef. cbn in Ef. destruct (cf_stop_agg cf && c_aggerr c); [discriminate|]. destruct (cf_stop_conc cf && c_concerr c); discriminate. }
    assert (HC : cov cf a init blur c Pr (fun _ _ _ _ _ => False)).
    { destruct M as [(_ & HC)|(n & E & E1 & _ & HL & _)]; [exact HC|]. unfold cur_state in Ec. rewrite E1, HL in Ec. discriminate. }
    destruct (step_pop_ap_total c Pr U G HC Hw) as (c1 & E1 & U1). rewrite E1. cbn [bind]. destruct (cur_state c1) as [[nid sid]|] eqn:Ec1; [|eauto]. case_eq (cf_urgent cf); intro Eu; [|eauto].
    pose proof U1 as [V1 T1 K1 R1 W1]. unfold cur_state in Ec1. destruct (c_cur c1) as [n|] eqn:En; [|discriminate]. destruct (left_inv c1 n) eqn:El; [discriminate|]. injection Ec1 as -> <-.
    pose proof (ci_cur _ _ _ V1 nid En) as Hn. unfold check_guards.
    destruct (guards_total solve Hsolve Hcomp cf a WH HF Hnum (fun _ _ => True) noerr (fun _ _ _ _ _ _ _ _ => Logic.I) nid _ (out_trans a (ss_mode (getS c1 (n_state (getN c1 nid))))) c1 _ (ci_dag _ _ _ V1) T1 Logic.I Hn eq_refl (K1 nid En)) as (c2 & E2 & T2).
    { intros t Ht. apply (out_ok a). exact Ht. }
    rewrite E2. eexists. split; [reflexivity|]. destruct (dag_guards _ _ _ _ _ _ _ _ _ (ci_dag _ _ _ V1) Hn E2) as [D2 P2]. pose proof (ext_guards _ _ _ _ _ _ _ _ E2) as X2.
    constructor.
    + apply (cinv_pf _ _ c1); auto; [apply P2|apply P2|rewrite (pf_nN _ _ P2); auto|]. intros m Hm. rewrite (pf_cur _ _ P2) in Hm. rewrite (pf_nN _ _ P2). apply (ci_cur _ _ _ V1). exact Hm.
    + exact T2.
    + apply (cur_ext cf a c1); auto. left. apply P2.
    + rewrite (pf_rep _ _ P2). exact R1.
    + rewrite (pf_dw _ _ P2). exact W1.
Qed.

Lemma loop_ap_total fuel : forall c, uinv c -> minv c -> match run_loop_ap solve arnoldi cf a ap fuel c with Some (Err _) => False | _ => True end.
Proof.
  induction fuel as [|f IH]; intros c U HM; cbn [run_loop_ap]; destruct (is_finished cf c); auto. destruct (step_ap_total c U HM) as (c1 & E & U1). rewrite E. apply IH; [exact U1|].
  exact (minv_step solve Hsolve arnoldi cf a WH Hninv Hntt Hnd init blur ap Hap c c1 HM E).
Qed.
End WithSolver.
