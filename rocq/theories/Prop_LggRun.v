(** The analysis with approx_model = APPROX_LGG for automata without inputs (with inputs, the later steps use lgg_beta, which CoreApprox.v does not
    model; see Lgg.v).  math.exp is any function with 1 + x <= exp x. *)
From Verif Require Import Base BaseFacts LpModel LpSpec SetSpec LpUtil LpFacts LpWf ChullFacts ApiSpec ApiFacts Automaton StateSet HybridSpec FlowFacts StateSpec
  StateFacts StateFacts2 StateFacts3 AutoFacts BuildFacts CoreModel HeapFacts CoreOps CorePop CoreExt CoreGhost CoreSpec CoreSetup SetupHa Approx ApproxFacts FreshFacts LggFacts CoreApprox ApproxInv Prop_Inv Prop_Approx Prop_Core Prop_Detect Prop_Dense
  CoreDag CoreLive CoreLive2 CoreIvl CoreTerm CoreTermA CoreNoCex CoreNoCex2 Prop_Core2 Prop_Core4 Prop_Core6 Prop_TotalA.
From Coq Require Import Lia Lqa Setoid QArith.Qabs.
Open Scope list_scope.
Open Scope nat_scope.

Definition no_inputs (a : ha) : Prop := forall m, m_b (get_mode a m) = None.

Lemma lgg_of solve qexp tau a s s' : approx_of solve qexp tau ApLgg a s = Ok s' -> ss_step s = 0 /\ exists o, apply_approx_lgg solve qexp tau a s = Ok (s', o).
Proof.
  unfold approx_of. intro H. apply bind_ok in H as ([s1 o] & H & E). apply ok_inj in E. cbn [fst] in E. subst s1. unfold apply_approx_model in H.
  apply bind_ok in H as (? & E & H). apply assert_ok in E. apply Nat.eqb_eq in E. apply bind_ok in H as (? & _ & H). eauto.
Qed.
Lemma lgg_shape solve qexp tau a s s' o : apply_approx_lgg solve qexp tau a s = Ok (s', o) -> exists l2 l, aggregate_chull solve 1 [ss_lpi s; l2] (ss_mode s) (has_inputs (get_mode a (ss_mode s))) = Ok l /\ s' = ss_with_lpi s l.
Proof.
  unfold apply_approx_lgg. intro H. apply bind_ok in H as (x & _ & H). cbv zeta in H. apply bind_ok in H as (c & _ & H). apply bind_ok in H as (c1 & _ & H). apply bind_ok in H as (rx & _ & H). apply bind_ok in H as (r0 & _ & H).
  apply bind_ok in H as ([ms rv] & _ & H). apply bind_ok in H as (l2 & _ & H). apply bind_ok in H as (l & Hl & H). exists l2, l. split; [exact Hl|].
  destruct (negb _ && _); [|apply ok_inj in H; injection H as H _; symmetry; exact H]. apply bind_ok in H as (u1 & _ & H). apply bind_ok in H as (u2 & _ & H). apply ok_inj in H. injection H as H _. symmetry. exact H.
Qed.
Lemma approx_set_all solve qexp tau m a s s' : approx_of solve qexp tau m a s = Ok s' -> exists l, s' = ss_with_lpi s l.
Proof.
  intro H. destruct m; [eapply approx_set; [|exact H]; discriminate|eapply approx_set; [|exact H]; discriminate|]. apply lgg_of in H as (_ & o & H). apply lgg_shape in H as (l2 & l & _ & E). eauto.
Qed.
Lemma two_names solve l1 l2 mid hi l : aggregate_chull solve 1 [l1; l2] mid hi = Ok l -> nxs l.
Proof.
  intro H. cbn [aggregate_chull] in H. apply bind_ok in H as (news & Hn & H). apply bind_ok in Hn as (y1 & _ & Hn). apply bind_ok in Hn as (ys & Hy & Hn). apply bind_ok in Hy as (y2 & _ & Hy). cbn [bind] in Hy. apply ok_inj in Hy. subst ys. apply ok_inj in Hn. subst news.
  apply bind_ok in H as (l0 & H0 & H). apply chull2_names in H0. eapply given_names; eauto.
Qed.
Lemma lgg_names solve qexp tau a s s' : approx_of solve qexp tau ApLgg a s = Ok s' -> nxs (ss_lpi s').
Proof. intro H. apply lgg_of in H as (_ & o & H). apply lgg_shape in H as (l2 & l & H & ->). exact (two_names _ _ _ _ _ _ H). Qed.

(** the radius is never negative *)
Lemma radius_nonneg solve l : forall work acc r, (forall v, acc = Some v -> (0 <= v)%Q) -> radius_loop solve l work acc = Ok (Some r) -> (0 <= r)%Q.
Proof.
  intros work. revert l. induction work as [|[n s] w IH]; intros l acc r Ha H; cbn [radius_loop] in H; [apply ok_inj in H; apply Ha; exact H|].
  apply bind_ok in H as (l1 & _ & H). apply bind_ok in H as (o & _ & H). destruct o as [vals|]; [|discriminate H]. eapply IH; [|exact H].
  intros v Hv. pose proof (Qabs_nonneg (nth n vals 0%Q)) as K. destruct acc as [q|]; cbn [omax] in Hv; [destruct (Qle_bool _ _) in Hv|]; injection Hv as <-; auto.
Qed.

Section P.
Variable solve : solver.
Hypothesis Hsolve : solver_ok solve.
Variable arnoldi : nat -> option (list Q) -> csr -> option csr -> nat -> list (list Q).
Variable qexp : Q -> Q.
Hypothesis Hexp : forall q, (1 + q <= qexp q)%Q.

(** the first set holds the entry set and the straight lines to the states one step later *)
Lemma lgg_ap tau a : wf_ha a -> no_inputs a -> forall s x s', st_ok solve a s x -> ss_step s = 0 -> no_rows s -> approx_of solve qexp tau ApLgg a s = Ok s' ->
  st_ok solve a s' x /\ ss_mode s' = ss_mode s /\ ss_step s' = 0 /\ ss_lo s' = ss_lo s /\ forall p b, in_lp (ss_lpi s) p -> seg0 a (ss_mode s) p b -> in_lp (ss_lpi s') b.
Proof.
  intros W NI s x s' St E0 HN H. apply lgg_of in H as (_ & o & H). assert (Eb := NI (ss_mode s)).
  destruct (approx_lgg_set solve Hsolve a W qexp tau s x s' o St E0 ltac:(rewrite Eb; exact Logic.I) H) as (rx & rv & Hr & Hv & l2 & D2 & (G2 & lf & Hl & E) & F & I1 & _).
  rewrite Eb in Hv. assert (Dm : m_dims (get_mode a (ss_mode s)) = c_nr x) by (unfold m_dims; rewrite (StateFacts.st_a _ _ _ _ St); reflexivity).
  split; [eapply (lgg_st solve Hsolve a a s x s' lf l2); eauto; [congruence|exact (StateFacts.st_a _ _ _ _ St)|tauto]|].
  split; [rewrite E; reflexivity|]. split; [rewrite E; exact E0|]. split; [rewrite E; reflexivity|].
  intros p b Hp (t & u & q & Ht & Hu & Ho & ->). apply (I1 t p q); [exact Ht|exact Hp| |intros i _; unfold Prop_Approx.between, mix; ring].
  apply F. exists p, (fun _ => 0%Q), (fun _ => 0%Q). split; [exact Hp|]. split; [unfold velocity; rewrite Eb; reflexivity|].
  assert (R0 : (0 <= rx)%Q) by (eapply radius_nonneg; [|exact Hr]; discriminate).
  assert (Al : (0 <= lgg_alpha qexp tau (norm_inf x) rx rv)%Q).
  { unfold lgg_alpha. destruct (Qlt_le_dec _ _) as [K|K]; [lra|]. pose proof (Hexp (tau * norm_inf x)) as K2. assert (Z : (rv / norm_inf x == 0)%Q) by (rewrite Hv; unfold Qdiv; ring). apply Qmult_le_0_compat; [lra|rewrite Z; lra]. }
  intros i Hi. split; [lra|]. rewrite (Ho i Hi), Eb. ring.
Qed.

Theorem C61_lgg_safe_in_dense_time_partial cf a0 a inits fuel c :
  wf_ha a0 -> inv_free a0 -> no_inputs a0 -> zero_plain cf a0 -> no_deagg cf -> no_tt cf a0 -> setup_ha cf a0 = Ok a -> Forall (init_ok solve a0) inits ->
  (forall s, In s inits -> is_error (get_mode a0 (ss_mode s)) = false) ->
  run_ap solve arnoldi qexp ApLgg cf a0 inits fuel = Some (Ok c) -> c_aggerr c = false -> c_concerr c = false ->
  ~ dense_error a0 (init_of_list inits) (cf_num cf) (cf_urgent cf).
Proof.
  intros W F NI HZ Hnd NT Hs Hinit Hne Hrun Fa Fc (m & p & T & HD & He). destruct (free_setup cf a0 a W F NT Hs) as (Em & Wa & El & NTa & _).
  assert (Fa0 : inv_free a) by (intro i; rewrite (get_mode_eq a0 a i Em); apply F). assert (NIa : no_inputs a) by (intro i; rewrite (get_mode_eq a0 a i Em); apply NI).
  assert (Hia : Forall (init_ok solve a) inits) by (eapply Forall_impl; [|exact Hinit]; intros s; apply init_ok_modes; exact Em).
  unfold run_ap in Hrun. destruct (negb (List.length inits =? 0)) eqn:El0; cbn [assert bind] in Hrun; [|discriminate Hrun]. rewrite Hs in Hrun. destruct (setup solve a inits) as [c0|] eqn:Es; [|discriminate Hrun].
  pose proof (setup_minv solve Hsolve cf a inits c0 (seg0 a) Wa Fa0 Hia Es) as M0.
  destruct (minv_run solve Hsolve arnoldi cf a Wa Fa0 NTa Hnd (init_of_list inits) (seg0 a) (approx_of solve qexp (cf_step cf) ApLgg a) (lgg_ap (cf_step cf) a Wa NIa) fuel c0 c M0 Hrun) as [M Hfin].
  assert (Hf : flagged c = false) by (unfold flagged; rewrite Fa, Fc; reflexivity).
  destruct (dense_ent cf a0 a (init_of_list inits) W F NT HZ Hs) with (m := m) (p := p) (T := T) as (_ & _ & [(s & K1 & K2 & _)|(m1 & p1 & n & k & t & K1 & K2 & K3)]); auto.
  { intros m1 p1. eapply init_of_list_mode. exact Hinit. }
  - specialize (Hne s K1). rewrite K2 in Hne. congruence.
  - pose proof (ent_covered solve cf a (init_of_list inits) (seg0 a) c M Hfin Hf _ _ _ _ _ _ K1 K2) as K. rewrite <- K3 in K. rewrite (get_mode_eq a0 a m Em) in K. congruence.
Qed.
End P.

(** ** termination and counter-examples for every approximation model (APPROX_LGG without inputs) *)
Definition modelled (m : approx) (a : ha) : Prop := m = ApLgg -> no_inputs a.
Theorem C24_approx_terminates solve arnoldi qexp m cf a0 inits : modelled m a0 ->
  (forall g, cf_strat cf = Some g -> ag_path g = true) -> (forall s, In s inits -> fresh_set s) ->
  (cf_urgent cf = true -> exists rank : nat -> nat, forall t, t < List.length (ha_trans a0) -> rank (t_to (get_trans a0 t)) < rank (t_from (get_trans a0 t))) ->
  exists fuel, run_ap solve arnoldi qexp m cf a0 inits fuel <> None.
Proof.
  intros _ HP Hs Hu. unfold run_ap. destruct (do _ <- _; setup_ha cf a0) as [a|e] eqn:Ea; [|exists 0; discriminate]. apply bind_ok in Ea as (u & _ & Ea).
  destruct (setup solve a inits) as [c|e] eqn:Es; [|exists 0; discriminate]. apply (terminates_setup_ap solve arnoldi cf a (approx_of solve qexp (cf_step cf) m a) inits c); auto.
  - intros s s'. apply approx_set_all.
  - unfold path_cf. destruct (cf_strat cf); auto.
  - intro E. destruct (Hu E) as [rk K]. exists rk. intros t Ht. destruct (setup_ha_edges cf a0 a Ea t Ht) as [-> ->]. apply K. rewrite <- (setup_ha_count cf a0 a Ea). exact Ht.
Qed.
(** APPROX_LGG has the same defect as APPROX_CHULL: with make_counterexample = True no analysis that returns reports an error *)
Theorem C66_lgg_error_never_returned solve arnoldi qexp cf a0 inits fuel c : no_inputs a0 -> cf_ce cf = true -> no_deagg cf -> (forall s, In s inits -> fresh_set s) ->
  run_ap solve arnoldi qexp ApLgg cf a0 inits fuel = Some (Ok c) -> c_concerr c = false /\ c_cex c = [].
Proof.
  intros _ Hce Hnd Hs H. unfold run_ap in H. destruct (do _ <- _; setup_ha cf a0) as [a|e]; [|discriminate H]. destruct (setup solve a inits) as [c0|e] eqn:Es; [|discriminate H].
  exact (z_loop solve arnoldi cf a (approx_of solve qexp (cf_step cf) ApLgg a) (lgg_names solve qexp (cf_step cf) a) (approx_set_all solve qexp (cf_step cf) ApLgg a) Hce Hnd fuel c0 c (z_setup solve cf a inits c0 Hs Es) H).
Qed.
Theorem C66_lgg_same_or_raises solve arnoldi qexp cf a0 inits fuel : no_inputs a0 -> cf_ce cf = true -> no_deagg cf -> (forall s, In s inits -> fresh_set s) ->
  (exists e, run_ap solve arnoldi qexp ApLgg cf a0 inits fuel = Some (Err e)) \/
  run_ap solve arnoldi qexp ApLgg cf a0 inits fuel = run_ap solve arnoldi qexp ApLgg (no_ce cf) a0 inits fuel.
Proof.
  intros _ Hce Hnd Hs. destruct (run_ap solve arnoldi qexp ApLgg cf a0 inits fuel) as [[c|e]|] eqn:H; [|left; exists e; reflexivity|]; right; rewrite <- H; assert (NE : forall e, run_ap solve arnoldi qexp ApLgg cf a0 inits fuel <> Some (Err e)) by (intros e K; rewrite H in K; discriminate K); clear H; symmetry; revert NE;
  unfold run_ap; change (setup_ha (no_ce cf) a0) with (setup_ha cf a0); (destruct (do _ <- _; setup_ha cf a0) as [a|e]; [|reflexivity]); (destruct (setup solve a inits) as [c0|e] eqn:Es; [|reflexivity]); intros NE;
  exact (loop_ce solve arnoldi cf a (approx_of solve qexp (cf_step cf) ApLgg a) (lgg_names solve qexp (cf_step cf) a) (approx_set_all solve qexp (cf_step cf) ApLgg a) Hce Hnd fuel c0 (z_setup solve cf a inits c0 Hs Es) NE).
Qed.
Theorem C66_lgg_reported_error_raises_refuted solve arnoldi qexp cf a0 inits fuel c : no_inputs a0 -> cf_ce cf = true -> no_deagg cf -> (forall s, In s inits -> fresh_set s) ->
  run_ap solve arnoldi qexp ApLgg (no_ce cf) a0 inits fuel = Some (Ok c) -> c_concerr c = true ->
  exists e, run_ap solve arnoldi qexp ApLgg cf a0 inits fuel = Some (Err e).
Proof.
  intros NI Hce Hnd Hs H Hc. destruct (C66_lgg_same_or_raises solve arnoldi qexp cf a0 inits fuel NI Hce Hnd Hs) as [K|K]; [exact K|exfalso]. rewrite H in K.
  destruct (C66_lgg_error_never_returned solve arnoldi qexp cf a0 inits fuel c NI Hce Hnd Hs K) as [E _]. rewrite E in Hc. discriminate Hc.
Qed.

From Verif Require Import Solver Ex_Core Ex_Approx.
Open Scope nat_scope.
(** 1 + x + x^2 is at least 1 + x *)
Definition qexp2 (q : Q) : Q := (1 + q + q * q)%Q.
Lemma qexp2_ok q : (1 + q <= qexp2 q)%Q.
Proof. unfold qexp2. nra. Qed.
Lemma exQ_noinp lo hi : no_inputs (exQ lo hi).
Proof. intros [|[|m]]; [reflexivity|reflexivity|]. unfold get_mode. cbn. destruct m; reflexivity. Qed.
(** runs that end without an error (the hypotheses of C61_lgg), with urgent guards and without: |A| = 1, so the first set is [0, 3] *)
Example C61_lgg_witness u : exists a c, wf_ha (exQ 90 100) /\ inv_free (exQ 90 100) /\ no_inputs (exQ 90 100) /\ zero_plain (exQ_cf u) (exQ 90 100) /\ no_deagg (exQ_cf u) /\ no_tt (exQ_cf u) (exQ 90 100) /\ setup_ha (exQ_cf u) (exQ 90 100) = Ok a /\
  Forall (init_ok fm_solver (exQ 90 100)) [exQ_s] /\ run_ap fm_solver arn0 qexp2 ApLgg (exQ_cf u) (exQ 90 100) [exQ_s] 20 = Some (Ok c) /\ c_aggerr c = false /\ c_concerr c = false.
Proof.
  assert (H : match run_ap fm_solver arn0 qexp2 ApLgg (exQ_cf u) (exQ 90 100) [exQ_s] 20 with Some (Ok c) => negb (flagged c) | _ => false end = true) by (destruct u; vm_compute; reflexivity).
  destruct (run_ap _ _ _ _ _ _ _ _) as [[c|]|] eqn:E; try discriminate H. apply negb_true_iff in H. apply orb_false_iff in H as [H1 H2].
  exists (exQ_a u 90 100), c. split; [apply exQ_wf|]. split; [apply exQ_free|]. split; [apply exQ_noinp|]. split; [apply exQ_zero|]. split; [apply exQ_nd|]. split; [apply exQ_tt|]. split; [destruct u; vm_compute; reflexivity|]. split; [apply exQ_init|]. auto.
Qed.
(** the guard at time 1/2 is seen *)
Example C61_lgg_witness_urgent : match run_ap fm_solver arn0 qexp2 ApLgg (exQ_cf true) (exQ (5 # 4) (7 # 4)) [exQ_s] 20 with Some (Ok c) => c_concerr c | _ => false end = true.
Proof. vm_compute. reflexivity. Qed.
(** an error found: reported with make_counterexample = False, an exception with True *)
Example C66_lgg_witness : no_inputs (exQ 3 5) /\ cf_ce (exA_cf true) = true /\ no_deagg (exA_cf true) /\ (forall s, In s [exQ_s] -> fresh_set s) /\
  (exists c, run_ap fm_solver arn0 qexp2 ApLgg (no_ce (exA_cf true)) (exQ 3 5) [exQ_s] 40 = Some (Ok c) /\ c_concerr c = true) /\
  run_ap fm_solver arn0 qexp2 ApLgg (exA_cf true) (exQ 3 5) [exQ_s] 40 = Some (Err EUnbound) /\
  (exists c, run_ap fm_solver arn0 qexp2 ApLgg (exA_cf true) (exQ 90 100) [exQ_s] 40 = Some (Ok c)).
Proof.
  split; [apply exQ_noinp|]. split; [reflexivity|]. split; [intros g K; injection K as <-; reflexivity|]. split; [intros s [<-|[]]; repeat split|]. split; [|split].
  - assert (H : match run_ap fm_solver arn0 qexp2 ApLgg (no_ce (exA_cf true)) (exQ 3 5) [exQ_s] 40 with Some (Ok c) => c_concerr c | _ => false end = true) by (vm_compute; reflexivity).
    destruct (run_ap _ _ _ _ _ _ _ _) as [[c|]|]; try discriminate H. exists c. auto.
  - vm_compute. reflexivity.
  - assert (H : match run_ap fm_solver arn0 qexp2 ApLgg (exA_cf true) (exQ 90 100) [exQ_s] 40 with Some (Ok c) => true | _ => false end = true) by (vm_compute; reflexivity).
    destruct (run_ap _ _ _ _ _ _ _ _) as [[c|]|]; try discriminate H. exists c. reflexivity.
Qed.
