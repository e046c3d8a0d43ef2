(** The analysis with the convex-hull approximation model does not fail on bounded sets (for C66): automata without invariants. *)
From Verif Require Import Base BaseFacts LpModel LpSpec SetSpec LpUtil LpFacts LpWf SetFacts SetFacts2 MinkFacts OpsFacts OpsFacts2 OpsFacts3 OpsFacts4 AggFacts ChullFacts
  ApiSpec ApiFacts Automaton StateSet HybridSpec FlowFacts StateSpec StateFacts StateFacts2 StateFacts3 AutoFacts BuildFacts CoreModel HeapFacts Prop_Sets CoreOps CoreGhost CoreHeap CoreInv CoreStep CorePop CoreExt CoreDag CoreDag2 CoreDag3 CoreCont CoreSpec CoreSetup
  Bounded Bounded2 Bounded3 Bounded4 Bounded5 Bounded6 Bounded7 ChullTotal CoreTotal CoreTotal2 CoreTotal3 CoreTotal4 CoreSubD Prop_Core2 Approx ApproxFacts CoreApprox ApproxInv.
From Coq Require Import Lia Lqa Setoid QArith.Qabs.
Open Scope nat_scope.

Section WithSolver.
Variable solve : solver.
Hypothesis Hsolve : solver_ok solve.
Hypothesis Hcomp : solver_complete solve.
Variable arnoldi : nat -> option (list Q) -> csr -> option csr -> nat -> list (list Q).
Hypothesis Harn : forall k ctr am r n, Forall (fun row => List.length row = n) (arnoldi k ctr am r n).
Variable cf : cfg.
Variable a : ha.
Hypothesis WH : wf_ha a.
Hypothesis HF : fits a.
Hypothesis Hnum : 0 < cf_num cf.
Hypothesis Hnd : no_deagg cf.
Hypothesis Hce : cf_ce cf = false.
Hypothesis Hninv : forall m, m_inv (get_mode a m) = [].
Hypothesis Hntt : cf_tt cf = true -> forall t, t < List.length (ha_trans a) -> t_tt (get_trans a t) = false.
Hypothesis Hin : forall m, m < List.length (ha_modes a) -> exists u, input_ok (get_mode a m) u.
Notation dag := (dag cf a).
Notation tinv := (tinv solve a).
Notation err m := (is_error (get_mode a m)).

Lemma chull_fuel l1 l2 mid hi f : clonable l1 -> clonable l2 -> aggregate_chull solve (S f) [l1; l2] mid hi = aggregate_chull solve 1 [l1; l2] mid hi.
Proof. intros C1 C2. cbn [aggregate_chull]. rewrite (clonable_clone _ C1), (clonable_clone _ C2). reflexivity. Qed.

Lemma live_chull_in s : live solve a s -> nonempty (ss_lpi s) -> chull_in (m_dims (get_mode a (ss_mode s))) (ss_lpi s).
Proof.
  intros L (p & x & Hx & _). destruct (live_api solve a s L) as (k & Hk). apply (api_ok solve Hsolve) in Hk. destruct (live_wf solve Hsolve a s L) as (BM & nu & IEs & x0 & E0 & W0 & Q1 & Q2).
  split; [apply (wf_clonable _ _ _ _ W0); lia|]. split; [split; apply Hk|]. split; [apply (live_fine solve Hsolve a s L)|]. split; [rewrite Q1; symmetry; apply m_dims_eq; exact E0|exists x; exact Hx].
Qed.

Lemma approx_total s : live solve a s -> ss_step s = 0 -> nonempty (ss_lpi s) -> exists l, apply_approx_chull solve a s = Ok (ss_with_lpi s l) /\ live solve a (ss_with_lpi s l).
Proof.
  intros L E0 Hne. pose proof L as (x & St & _ & _ & _). assert (HN : no_rows s) by (eapply st_norows; eauto).
  destruct (step_total solve Hsolve a s 1 WH (fun m Hm => proj1 (proj1 HF m Hm)) L ltac:(lia)) as (s1 & E1 & L1 & M1).
  set (md := get_mode a (ss_mode s)) in *. assert (Hm := st_mode _ _ _ _ St). assert (Hx := st_a _ _ _ _ St). fold md in Hx.
  assert (C1 := live_chull_in s L Hne). fold md in C1.
  assert (N1 : nonempty (ss_lpi s1)).
  { destruct (step_to_ok solve Hsolve a s x 1 s1 WH St E1) as (_ & _ & _ & _ & _ & _ & _ & _ & _ & _ & F). specialize (F (or_intror HN)). rewrite E0 in F. cbn [Nat.sub flow] in F.
    destruct Hne as (p & Hp). destruct (Hin _ Hm) as (u & Hu). fold md in F, Hu.
    set (q := fun i => (mapply (m_bm md 1) p i + match m_b md with Some _ => mapply (m_ie md 1) u i | None => 0 end)%Q).
    exists q. apply F. exists p. split; [exact Hp|]. exists p, u. split; [intros j _; reflexivity|]. split; [exact Hu|]. intros i Hi. reflexivity. }
  assert (C2 := live_chull_in s1 L1 N1). rewrite M1 in C2. fold md in C2.
  assert (Hpos : 0 < m_dims md). { rewrite (m_dims_eq _ _ Hx). pose proof (proj1 WH _ Hm) as W. fold md in W. rewrite Hx in W. apply (wfm_pos _ _ W). }
  destruct (chull_total solve Hsolve Hcomp (m_dims md) Hpos 2 [ss_lpi s; ss_lpi s1] (ss_mode s) (has_inputs md)) as (l & El & Cl & R); [constructor; [exact C1|constructor; [exact C2|constructor]]|discriminate|cbn; lia|].
  rewrite chull_fuel in El by (first [apply C1|apply C2]). destruct (R ltac:(cbn; lia)) as (_ & _ & B & Hie). clear R.
  assert (EA : apply_approx_chull solve a s = Ok (ss_with_lpi s l)).
  { unfold apply_approx_chull. fold md. rewrite (clonable_clone _ (proj1 C1)). cbn [bind]. unfold ss_step_to in E1. fold md in E1. rewrite E0 in E1. cbn [Nat.leb assert bind Nat.sub Nat.eqb] in E1. rewrite Hx in E1.
    apply bind_ok in E1 as (b & Hb & E1). rewrite Hb. cbn [bind]. rewrite (st_ies _ _ _ _ St) in E1. fold md in E1. destruct (m_b md) as [[[b0 uc] ur]|] eqn:Eb.
    - apply bind_ok in E1 as ([l2 i2] & H2 & E1). apply bind_ok in H2 as ([l3 i3] & H3 & H2). cbn [add_inputs] in H3. rewrite Eb in H3. apply bind_ok in H3 as (o & Ho & H3). rewrite Ho. cbn [bind].
      apply ok_inj in H3. injection H3 as E3 _. apply ok_inj in H2. cbn [fst snd] in H2. injection H2 as E2 _. apply ok_inj in E1. rewrite <- E1 in El. cbn [ss_lpi fst] in El. rewrite E3, E2, El. reflexivity.
    - cbn [bind fst snd] in E1. apply ok_inj in E1. rewrite <- E1 in El. cbn [ss_lpi] in El. cbn [bind]. rewrite El. reflexivity. }
  exists l. split; [exact EA|]. exists x. split; [exact (approx_chull_st solve Hsolve a WH s x _ St E0 HN EA)|]. cbn [ss_with_lpi ss_lpi ss_mode].
  split; [apply (cb_mono _ _ (fun _ => False)); [intros j K; exact (HN j K)|exact B]|]. split; [apply Cl|]. intro Hb. apply Hie. unfold has_inputs. fold md in Hb. destruct (m_b md); congruence.
Qed.

Variable init : nat -> vec -> Prop.
Variable qexp : Q -> Q.
Variable tau : Q.
Notation ap := (approx_of solve qexp tau ApChull a).
Variable blur : nat -> vec -> vec -> Prop.
Hypothesis Hap : forall s x s', st_ok solve a s x -> ss_step s = 0 -> no_rows s -> ap s = Ok s' ->
  st_ok solve a s' x /\ ss_mode s' = ss_mode s /\ ss_step s' = 0 /\ ss_lo s' = ss_lo s /\ forall p b, in_lp (ss_lpi s) p -> blur (ss_mode s) p b -> in_lp (ss_lpi s') b.
Notation minv := (minv solve cf a init blur).
Notation uinv := (uinv solve cf a).

Lemma ap_total s : live solve a s -> ss_step s = 0 -> nonempty (ss_lpi s) -> exists l, ap s = Ok (ss_with_lpi s l) /\ live solve a (ss_with_lpi s l).
Proof.
  intros L E0 Hne. destruct (approx_total s L E0 Hne) as (l & E & Ll). exists l. split; [|exact Ll]. unfold approx_of, apply_approx_model. rewrite E0. cbn [Nat.eqb assert bind].
  destruct L as (x & St & _). rewrite (st_a _ _ _ _ St). cbn [bind]. rewrite E. reflexivity.
Qed.

Lemma step_pop_ap_total c (Pr : ent_set) : uinv c -> av solve a c -> cov cf a init blur c Pr (fun _ _ _ _ _ => False) -> c_wait c <> [] -> exists c', do_step_pop_ap solve arnoldi cf a ap c = Ok c' /\ uinv c'.
Proof.
  intros [V T K R W] G HC Hw. destruct (pop_total solve Hsolve Hcomp arnoldi Harn cf a WH HF Hnum c V T Hw) as (c1 & nid & E1 & T1).
  destruct (cinv_pop _ _ _ _ _ _ _ V E1) as [V1 C1]. pose proof (ci_cur _ _ _ V1 nid C1) as Hn. pose proof (ci_dag _ _ _ V1) as D1.
  destruct (av_pop solve Hsolve arnoldi cf a WH Hnd init blur c c1 nid Pr G HC E1) as (G1 & _ & _ & _ & S0 & Hne & _).
  unfold do_step_pop_ap. rewrite E1. cbn [bind]. destruct (err _) eqn:Ee.
  - eexists. split; [reflexivity|]. pose proof (cinv_step_pop solve arnoldi cf a c (left_invariant c1 nid (n_state (getN c1 nid)) false) V) as VL. assert (ED : do_step_pop solve arnoldi cf a c = Ok (left_invariant c1 nid (n_state (getN c1 nid)) false)) by (unfold do_step_pop; rewrite E1; cbn [bind]; rewrite Ee; reflexivity).
    constructor; [exact (VL ED)|apply tinv_left; exact T1|intros n Hn'; discriminate|exact (av_rep solve a _ G1)|exact (av_dw solve a _ G1)].
  - rewrite (intersect_nil solve a Hninv). cbn [bind]. set (sid := n_state (getN c1 nid)) in *. fold (nst c1 nid).
    pose proof (av_nst solve a c1 G1 nid Hn) as Hs. fold sid in Hs. pose proof (t_live _ _ _ T1 sid Hs Ee) as L1.
    destruct (ap_total (getS c1 sid) L1 S0 Hne) as (l & El & Ll). rewrite El. cbn [bind]. eexists. split; [reflexivity|].
    assert (KS : keeps c1 (setS c1 sid (ss_with_lpi (getS c1 sid) l))) by apply keeps_lpi.
    assert (V2 : cinv cf a (setS c1 sid (ss_with_lpi (getS c1 sid) l))).
    { apply (cinv_pf cf a c1); [exact V1|apply (dag_k _ _ _ c1); [exact D1|exact KS]|reflexivity|reflexivity|reflexivity|]. intros n Hn'. exact (ci_cur _ _ _ V1 n Hn'). }
    constructor.
    + exact V2.
    + apply (tinv_set solve cf a Hnum c1 sid _ _ D1 T1); [reflexivity|intros _; exact Ll|]. exact (away cf a Hnum c1 _ nid D1 Hn).
    + intros n Hn'. change (c_cur c1 = Some n) in Hn'. assert (n = nid) by congruence. subst n. unfold nodemode. rewrite getN_setS. fold sid. rewrite getS_set_eq by exact Hs. exact Ee.
    + exact (av_rep solve a _ G1).
    + exact (av_dw solve a _ G1).
Qed.

Lemma noerr c nid t l1 tl : True -> t < List.length (ha_trans a) -> t_from (get_trans a t) = ss_mode (getS c (n_state (getN c nid))) -> err (t_to (get_trans a t)) = true ->
  get_guard_intersection solve (get_trans a t) (ss_lpi (getS c (n_state (getN c nid)))) = Ok (l1, Some tl) -> lp_fine tl ->
  exists c', error_reached solve cf a (setS c (n_state (getN c nid)) (ss_with_lpi (getS c (n_state (getN c nid))) l1)) (n_state (getN c nid)) t tl = Ok c'.
Proof. intros _ _ _ _ _ _. unfold error_reached. cbv zeta. rewrite Hce. cbn [andb]. match goal with |- context [if ?b then _ else _] => destruct b end; eauto. Qed.

Lemma step_ap_total c : uinv c -> minv c -> exists c', do_step_ap solve arnoldi cf a ap c = Ok c' /\ uinv c'.
Proof.
  intros U (G & Pr & M).
  assert (HS := step_total_core solve Hsolve Hcomp arnoldi Harn cf a WH HF Hnum (fun _ _ => True) noerr (fun _ _ _ _ _ _ _ _ => Logic.I) (fun _ => True) (fun _ _ _ _ _ _ _ _ _ _ => Logic.I) (fun _ _ _ _ _ _ _ _ => Logic.I) Hnd c U Logic.I).
  pose proof U as [V T K R W]. unfold do_step_ap. destruct (is_finished cf c) eqn:Ef; [eauto|].
  destruct (cur_state c) as [[nid sid]|] eqn:Ec.
  - unfold do_step in HS. rewrite Ef, Ec in HS. exact HS.
  - clear HS. assert (Hr : doing_replay c = false) by (unfold doing_replay; rewrite R, W; reflexivity). rewrite Hr.
    assert (Hg : get_deagg_node cf a c = Ok None). { unfold get_deagg_node. destruct (cf_strat cf) as [g|] eqn:Eg; [|reflexivity]. rewrite (Hnd g Eg). reflexivity. }
    rewrite Hg. cbn [bind].
    assert (Hw : c_wait c <> []). { intro Hw. unfold is_finished in Ef. rewrite Ec, Hr, Hw in Ef. cbn in Ef. destruct (cf_stop_agg cf && c_aggerr c); [discriminate|]. destruct (cf_stop_conc cf && c_concerr c); discriminate. }
    assert (HC : cov cf a init blur c Pr (fun _ _ _ _ _ => False)).
    { destruct M as [(_ & HC)|(n & E & E1 & _ & HL & _)]; [exact HC|]. unfold cur_state in Ec. rewrite E1, HL in Ec. discriminate. }
    destruct (step_pop_ap_total c Pr U G HC Hw) as (c1 & E1 & U1). rewrite E1. cbn [bind]. destruct (cur_state c1) as [[nid sid]|] eqn:Ec1; [|eauto]. case_eq (cf_urgent cf); intro Eu; [|eauto].
    pose proof U1 as [V1 T1 K1 R1 W1]. unfold cur_state in Ec1. destruct (c_cur c1) as [n|] eqn:En; [|discriminate]. destruct (left_inv c1 n) eqn:El; [discriminate|]. injection Ec1 as -> <-.
    pose proof (ci_cur _ _ _ V1 nid En) as Hn. unfold check_guards.
    destruct (guards_total solve Hsolve Hcomp cf a WH HF Hnum (fun _ _ => True) noerr (fun _ _ _ _ _ _ _ _ => Logic.I) nid _ (out_trans a (ss_mode (getS c1 (n_state (getN c1 nid))))) c1 _ (ci_dag _ _ _ V1) T1 Logic.I Hn eq_refl (K1 nid En)) as (c2 & E2 & T2).
    { intros t Ht. apply (out_ok a). exact Ht. }
    rewrite E2. eexists. split; [reflexivity|]. destruct (dag_guards _ _ _ _ _ _ _ _ _ (ci_dag _ _ _ V1) Hn E2) as [D2 P2]. pose proof (ext_guards _ _ _ _ _ _ _ _ E2) as X2.
    constructor.
    + apply (cinv_pf _ _ c1); auto; [apply P2|apply P2|rewrite (pf_nN _ _ P2); auto|]. intros m Hm. rewrite (pf_cur _ _ P2) in Hm. rewrite (pf_nN _ _ P2). apply (ci_cur _ _ _ V1). exact Hm.
    + exact T2.
    + apply (cur_ext cf a c1); auto. left. apply P2.
    + rewrite (pf_rep _ _ P2). exact R1.
    + rewrite (pf_dw _ _ P2). exact W1.
Qed.

Lemma loop_ap_total fuel : forall c, uinv c -> minv c -> match run_loop_ap solve arnoldi cf a ap fuel c with Some (Err _) => False | _ => True end.
Proof.
  induction fuel as [|f IH]; intros c U HM; cbn [run_loop_ap]; destruct (is_finished cf c); auto. destruct (step_ap_total c U HM) as (c1 & E & U1). rewrite E. apply IH; [exact U1|].
  exact (minv_step solve Hsolve arnoldi cf a WH Hninv Hntt Hnd init blur ap Hap c c1 HM E).
Qed.
End WithSolver.
