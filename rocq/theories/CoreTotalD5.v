(** The whole analysis with deaggregation does not fail on bounded sets (for C66). *)
From Verif Require Import Base BaseFacts LpModel LpSpec SetSpec LpUtil LpFacts LpWf SetFacts SetFacts2 MinkFacts OpsFacts OpsFacts2 OpsFacts3 OpsFacts4 AggFacts ChullFacts
  ApiSpec ApiFacts Automaton StateSet HybridSpec FlowFacts StateSpec StateFacts StateFacts2 StateFacts3 AutoFacts BuildFacts CoreModel HeapFacts Prop_Sets CoreOps CorePop CoreExt CoreDag CoreDag2 CoreDag3
  CoreGhost CoreHeap CoreInv CoreStep CoreCont CoreReplay CoreDeagg CoreSplit CoreMono CoreFlag CoreFinal CoreTT CoreSpec CoreSetup CoreSubD CoreIvl CoreShape CoreShape2
  Bounded Bounded2 Bounded3 Bounded4 Bounded5 Bounded6 Bounded7 ChullTotal CoreTotal CoreTotal2 CoreTotal3 CoreTotal4 CoreTotalD CoreTotalD2 CoreTotalD3 CoreTotalD4 CexD CexD2 CexD3 CexD4.
From Coq Require Import Lia Lqa Setoid QArith.Qabs Permutation.
Open Scope nat_scope.

Section WithSolver.
Variable solve : solver.
Hypothesis Hsolve : solver_ok solve.
Hypothesis Hcomp : solver_complete solve.
Variable arnoldi : nat -> option (list Q) -> csr -> option csr -> nat -> list (list Q).
Hypothesis Harn : forall k ctr am r n, Forall (fun row => List.length row = n) (arnoldi k ctr am r n).
Variable cf : cfg.
Variable a : ha.
Hypothesis WH : wf_ha a.
Hypothesis HF : fits a.
Hypothesis Hinp : forall m, m < List.length (ha_modes a) -> m_b (get_mode a m) <> None -> m_inv (get_mode a m) = [].
Hypothesis Hnum : 0 < cf_num cf.
Hypothesis Hce : cf_ce cf = true -> CexSetup.index_ok a.
Notation kq := (kq cf a).
Variable ru : rules.
Variable I0 : nat -> vec -> Prop.
Notation dag := (dag cf a).
Notation tinv := (tinv solve a).
Notation xinv := (xinv a).
Notation cinv := (cinv cf a).
Notation err m := (is_error (get_mode a m)).
Notation base := (base solve cf a ru I0).
Notation done := (done a ru I0).
Notation dg := (dg cf).
Notation map_ok := (map_ok a ru I0).
Notation loop_inv := (loop_inv solve cf a ru I0).
Notation rep_ok := (rep_ok solve cf a ru I0).
Notation none := (fun _ : nat => False).

Hypothesis Hpath : forall g, cf_strat cf = Some g -> ag_deagg g = true -> ag_path g = true.
Hypothesis Hbound : ru_bound ru = cf_num cf.
Hypothesis Hurg : ru_urgent ru = cf_urgent cf.
Hypothesis Hcap : forall m x, m_a (get_mode a m) = Some x -> ru_cap ru m = (nnz x =? 0) && cf_skip0 cf.
Hypothesis Hsc : cf_stop_agg cf = true -> cf_stop_conc cf = true.
Variable c0 : core.
Hypothesis Hstuck : forall c N t l g rhs k x n u x', heap_ok solve a ru I0 c -> ext c0 c -> t < List.length (ha_trans a) -> cf_tt cf && t_tt (get_trans a t) = true -> t_from (get_trans a t) = nmode c N -> t_guard (get_trans a t) = Some (g, rhs) ->
  tt_row (get_mode a (nmode c N)) l (2 * cf_step cf / inject_Z (Z.of_nat (cf_num cf)) / 1000) (c_rows g) rhs -> in_lp l x -> Tn a ru I0 c N k x n ->
  inv_ok 0 (get_mode a (nmode c N)) x -> input_ok (get_mode a (nmode c N)) u -> one_step (get_mode a (nmode c N)) x u x' -> stuck a ru (nmode c N) x'.
(** something the states of the run have, from which the flag of a taken time-triggered transition is known to be off between states *)
Variable Pr : core -> Prop.
Hypothesis Hpr_step : forall c c', Pr c -> do_step solve arnoldi cf a c = Ok c' -> Pr c'.
Hypothesis Hpr_tt : forall c, Pr c -> c_cur c = None -> c_tt c = false.
Notation INV := (INV solve cf a ru I0).

Record dinv (c : core) : Prop := {
  v_c : cinv c; v_t : tinv c; v_x : xinv c; v_cur : cur_ok a c; v_rep : repx c; v_tt : Pr c; v_ext : ext c0 c; v_k : kq c; v_inv : bad cf c \/ INV c }.

Lemma bad_finished c : bad cf c -> is_finished cf c = true.
Proof. intros [[H0 H]|[H1 H2]]; unfold is_finished; [|rewrite H1, H2; reflexivity]. assert (K : cf_stop_conc cf = true) by (destruct H0; auto). rewrite K, H. destruct (cf_stop_agg cf && c_aggerr c); reflexivity. Qed.
Lemma repx_none c : c_rep c = None -> repx c.
Proof. intros E rp H. congruence. Qed.
Definition Jk (nid : nat) (c : core) : Prop := nid < nN c /\ err (nodemode c nid) = false /\ kq c /\ exists mp, dag mp c.
Lemma jerr_t : forall c nid t l1 tl, Jk nid c -> t < List.length (ha_trans a) -> t_from (get_trans a t) = ss_mode (getS c (n_state (getN c nid))) -> err (t_to (get_trans a t)) = true ->
  get_guard_intersection solve (get_trans a t) (ss_lpi (getS c (n_state (getN c nid)))) = Ok (l1, Some tl) -> lp_fine tl ->
  exists c', error_reached solve cf a (setS c (n_state (getN c nid)) (ss_with_lpi (getS c (n_state (getN c nid))) l1)) (n_state (getN c nid)) t tl = Ok c'.
Proof. intros c nid t l1 tl (J1 & J2 & J3 & mp & J4) Ht Hf He Hg Hfine. exact (err_guard_q solve Hsolve Hcomp cf a mp c nid t l1 tl J4 J3 J1 J2 Hg Hfine). Qed.
Lemma jstep_t : forall c nid t c', Jk nid c -> t < List.length (ha_trans a) -> t_from (get_trans a t) = ss_mode (getS c (n_state (getN c nid))) ->
  check_guards_loop solve cf a c nid (n_state (getN c nid)) [t] = Ok c' -> Jk nid c'.
Proof.
  intros c nid t c' (J1 & J2 & J3 & mp & J4) Ht Hf H. destruct (dag_guards _ _ _ mp _ _ _ _ _ J4 J1 H) as [D1 P1]. pose proof (ext_guards _ _ _ _ _ _ _ _ H) as X1.
  split; [rewrite (pf_nN _ _ P1); exact J1|]. split; [rewrite (nodemode_ext cf a mp c c' nid J4 X1 J1); exact J2|]. split; [|exists mp; exact D1].
  intro Ec. refine (kinv_guards solve cf a WH (Hce Ec) mp nid [t] c c' J4 (J3 Ec) J1 _ H). intros t0 [<-|[]]. split; [exact Ht|exact Hf].
Qed.

Lemma step_post c c' : dinv c -> is_finished cf c = false -> do_step solve arnoldi cf a c = Ok c' -> tinv c' -> cur_ok a c' -> repx c' -> kq c' -> dinv c'.
Proof.
  intros [V T X K R Ht Xe HK HI] Ef H T' K' R' HK'. constructor; auto.
  - exact (cinv_step _ _ _ _ _ _ V H).
  - exact (xinv_step solve arnoldi cf a c c' V X H).
  - exact (Hpr_step _ _ Ht H).
  - eapply ext_trans; [exact Xe|]. eapply CoreExt.ext_step; eauto.
  - destruct HI as [HI|HI]; [apply bad_finished in HI; congruence|].
    refine (do_step_ok solve Hsolve arnoldi cf a WH ru I0 Hinp c0 Hstuck Hpath Hbound Hurg Hcap c c' Xe HI (Hpr_tt c Ht) _ H).
    intro Q. apply bad_finished in Q. congruence.
Qed.

Lemma step_total_deagg c : dinv c -> exists c', do_step solve arnoldi cf a c = Ok c' /\ dinv c'.
Proof.
  intro U. case_eq (is_finished cf c); intro Ef; [exists c; split; [unfold do_step; rewrite Ef; reflexivity|exact U]|]. pose proof U as [V T X K R Ht Xe HK HI].
  destruct HI as [HI|(D & HI)]; [apply bad_finished in HI; congruence|].
  assert (E : exists c', do_step solve arnoldi cf a c = Ok c' /\ tinv c' /\ cur_ok a c' /\ repx c' /\ kq c').
  { assert (Hrep : forall D c, dg = true -> c_cur c = None -> (c_rep c = None /\ base D none [] c /\ c_dwait c <> [] \/ exists rp, c_rep c = Some rp /\ rep_ok D c rp) -> cinv c -> tinv c -> kq c -> xinv c -> repx c ->
       exists c', do_step_replay solve arnoldi cf a c = Ok c' /\ tinv c' /\ cur_ok a c' /\ repx c' /\ kq c').
    { intros D1 c1 Hd1 Hc1 Hr1 V1 T1 Q1k X1 R1. destruct (do_step_replay_total solve Hsolve Hcomp arnoldi Harn cf a WH HF Hinp Hnum Hce ru I0 D1 c1 Hd1 Hr1 V1 T1 Q1k X1 R1) as (c' & E & T' & R' & K'). exists c'. split; [exact E|]. split; [exact T'|]. split; [|split; [exact R'|exact K']].
      destruct (do_step_replay_ok solve Hsolve arnoldi cf a WH ru I0 Hinp D1 c1 c' Hd1) as [L1 _]; [|exact E|intros n Hn; congruence]. destruct Hr1 as [(Q1 & Q2 & _)|Q]; [left; auto|right; exact Q]. }
    unfold do_step. rewrite Ef. destruct HI as [(Hc & Hr & B & Hd)|[(N & Hc & Hr & Hdw & B & Hcu)|(Hc & Hd & rp & Hr & HR)]].
    - unfold cur_state at 1. rewrite Hc. unfold doing_replay. rewrite Hr. destruct (c_dwait c) as [|p dw] eqn:Edw.
      2:{ assert (Hn : p :: dw <> []) by discriminate. apply (Hrep D c); auto. left. split; [exact Hr|]. split; [exact B|]. rewrite Edw. exact Hn. }
      pose proof (ci_dag _ _ _ V) as Dg. unfold rep_map in Dg. rewrite Hr in Dg.
      destruct (deagg_node_total solve cf a Hnum ru I0 D c B Edw Dg X) as (r & Er & Hr2). rewrite Er. cbn [bind]. destruct r as [n|].
      + destruct (deagg_node_some solve cf a WH ru I0 D c n B Er) as (K1 & K2 & K3 & K4).
        destruct (begin_replay_total solve Hsolve Hcomp arnoldi Harn cf a WH HF Hnum ru I0 D c n K1 B K2 K3 K4 (Hr2 n eq_refl) Dg T X) as (c1 & E1 & T1 & W1). rewrite E1. cbn [bind].
        destruct (begin_replay_ok solve Hsolve arnoldi cf a WH ru I0 D c n c1 K1 B Edw K2 K3 K4 E1) as (L1 & L2 & D' & L3).
        destruct (cinv_begin _ _ _ _ _ _ _ V Hr E1) as (V1 & R1 & C1).
        assert (KQ1 : kq c1) by (intro Ec; refine (kinv_begin solve arnoldi cf a c n c1 Dg (HK Ec) K2 _ E1); intros o Ho; exact (b_d3 _ _ _ _ _ _ _ _ _ B n o K2 K3 Ho)).
        apply (Hrep D' c1); [exact K1|congruence|left; split; [exact R1|split; [exact L3|exact W1]]|exact V1|exact T1|exact KQ1|exact (xinv_begin solve arnoldi cf a c n c1 V X Hr E1)|apply repx_none; exact R1].
      + assert (U0 : uinv solve cf a c) by (constructor; auto).
        assert (Hw : c_wait c <> []). { intro Hw. unfold is_finished, cur_state, doing_replay in Ef. rewrite Hc, Hr, Edw, Hw in Ef. cbn in Ef. destruct (cf_stop_agg cf && c_aggerr c); [discriminate|]. destruct (cf_stop_conc cf && c_concerr c); discriminate. }
        destruct (step_pop_total solve Hsolve Hcomp arnoldi Harn cf a WH HF Hnum c U0 Hw) as (c1 & E1 & U1). rewrite E1. cbn [bind]. pose proof U1 as [V1 T1 K1 R1 W1].
        assert (KQ1 : kq c1) by (intro Ec; exact (kinv_step_pop solve arnoldi cf a c c1 V (HK Ec) E1)).
        destruct (cur_state c1) as [[nid sid]|] eqn:Ec1; [|exists c1; split; [reflexivity|]; split; [exact T1|]; split; [exact K1|split; [apply repx_none; exact R1|exact KQ1]]].
        case_eq (cf_urgent cf); intro Eu; [|exists c1; split; [reflexivity|]; split; [exact T1|]; split; [exact K1|split; [apply repx_none; exact R1|exact KQ1]]].
        unfold cur_state in Ec1. destruct (c_cur c1) as [n|] eqn:En; [|discriminate]. destruct (left_inv c1 n) eqn:El; [discriminate|]. injection Ec1 as -> <-.
        pose proof (ci_cur _ _ _ V1 nid En) as Hn. unfold check_guards.
        destruct (guards_total solve Hsolve Hcomp cf a WH HF Hnum Jk jerr_t jstep_t nid _ (out_trans a (ss_mode (getS c1 (n_state (getN c1 nid))))) c1 _ (ci_dag _ _ _ V1) T1 (conj Hn (conj (K1 nid En) (conj KQ1 (ex_intro _ _ (ci_dag _ _ _ V1))))) Hn eq_refl (K1 nid En)) as (c2 & E2 & T2).
        { intros t Hti. apply (out_ok a). exact Hti. }
        rewrite E2. exists c2. split; [reflexivity|]. destruct (dag_guards _ _ _ _ _ _ _ _ _ (ci_dag _ _ _ V1) Hn E2) as [D2 P2]. pose proof (ext_guards _ _ _ _ _ _ _ _ E2) as X2.
        split; [exact T2|]. split; [apply (cur_ext cf a c1); auto; left; apply P2|]. split; [apply repx_none; rewrite (pf_rep _ _ P2); exact R1|].
        intro Ec. refine (kinv_guards solve cf a WH (Hce Ec) _ nid _ c1 c2 (ci_dag _ _ _ V1) (KQ1 Ec) Hn _ E2). intros t Hti. apply (out_ok a). exact Hti.
    - rewrite (cur_ops_state c N Hc (active_left _ _ _ _ _ _ (cu_act _ _ _ _ _ Hcu))).
      pose proof (ci_cur _ _ _ V N Hc) as Hn.
      assert (HJ : forall c1 s1, ss_lo (getS c (n_state (getN c N))) < cf_num cf -> intersect_state solve a c N (n_state (getN c N)) = Ok (c1, true) -> ss_step1 a (getS c1 (n_state (getN c N))) = Ok s1 -> Jk N (setS c1 (n_state (getN c N)) s1)).
      { intros c1 s1 _ H1 Hs. pose proof (sg_intersect solve a c N c1 true H1) as G1. destruct (dag_intersect _ _ _ _ _ _ _ _ _ (ci_dag _ _ _ V) H1) as [D1 P1].
        assert (G2 : sameg a c (setS c1 (n_state (getN c N)) s1)) by (eapply sg_trans; [exact G1|]; apply sg_set; eapply g_step; exact Hs).
        split; [change (N < nN c1); rewrite (pf_nN _ _ P1); exact Hn|]. split; [rewrite (sg_mode a _ _ N G2); exact (K N Hc)|]. split; [intro Ec; apply (kinv_same cf a c); [exact (HK Ec)|exact G2]|].
        exists (rep_map c). apply (dag_k _ _ _ c1); [exact D1|]. apply keeps_set. eapply f2_step. exact Hs. }
      destruct (cont_total solve Hsolve Hcomp cf a WH HF Hnum Jk jerr_t jstep_t c N (ci_dag _ _ _ V) T HJ Hn (K N Hc)) as (c1 & E1 & T1).
      fold (nst c N) in E1. rewrite E1. cbn [bind]. eexists. split; [reflexivity|]. split; [apply (tinv_same solve a c1); auto|].
      destruct (dw_cont solve cf a c N _ c1 V Hn E1) as [Q1 Q2]. pose proof (cur_cont solve cf a c N _ c1 (ci_dag _ _ _ V) Hn E1) as Hcur. pose proof (ext_cont _ _ _ _ _ _ _ E1) as X1.
      split; [intros m Hm; exact (cur_ext cf a c c1 V K X1 Hcur m Hm)|]. split; [apply repx_none; cbn [c_rep with_csteps]; congruence|].
      intro Ec. apply (kinv_same cf a c1); [exact (kinv_cont solve cf a WH (Hce Ec) _ c N c1 (ci_dag _ _ _ V) (HK Ec) Hn E1)|apply sg_eq; reflexivity].
    - unfold cur_state at 1. rewrite Hc. unfold doing_replay. rewrite Hr. apply (Hrep D c); auto. right. eauto. }
  destruct E as (c' & E & T' & K' & R' & Q'). exists c'. split; [exact E|]. exact (step_post c c' U Ef E T' K' R' Q').
Qed.

Lemma loop_total_deagg fuel : forall c, dinv c -> match run_loop solve arnoldi cf a fuel c with Some (Err _) => False | _ => True end.
Proof.
  induction fuel as [|f IH]; intros c U; cbn [run_loop]; destruct (is_finished cf c); auto. destruct (step_total_deagg c U) as (c1 & E & U1). rewrite E. exact (IH c1 U1).
Qed.
End WithSolver.
