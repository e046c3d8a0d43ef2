(** Properties of the reachability analysis, continued: termination (C24) with deaggregation and with process_urgent_guards. *)
From Verif Require Import Base BaseFacts LpModel LpSpec SetSpec LpUtil LpFacts ChullFacts ApiSpec ApiFacts Automaton StateSet HybridSpec FlowFacts StateSpec
  StateFacts StateFacts2 StateFacts3 AutoFacts CoreModel HeapFacts CoreOps CoreGhost CoreHeap CoreInv CoreStep CoreCont CorePop CoreReplay CoreDeagg CoreSplit CoreMono CoreFinal
  CoreSpec CoreSetup CoreExt SkipZero SetupHa Prop_Core CoreDag CoreTerm Prop_Core4 CoreTermD.
Open Scope nat_scope.

(** what setup_ha keeps: the edges, and the transitions that can be taken (when none is time-triggered) *)
Lemma setup_ha_edges cf a0 a : setup_ha cf a0 = Ok a -> forall t, t < List.length (ha_trans a) -> t_from (get_trans a t) = t_from (get_trans a0 t) /\ t_to (get_trans a t) = t_to (get_trans a0 t).
Proof.
  intro H. pose proof (setup_ha_count cf a0 a H) as Hc. unfold setup_ha in H. apply bind_ok in H as (a1 & H1 & H). apply bind_ok in H as (a2 & H2 & H). apply bind_ok in H as (u & _ & H). apply ok_inj in H. subst a2. intros t Ht.
  assert (K1 : List.length (ha_trans a1) = List.length (ha_trans a0) /\ t_from (get_trans a1 t) = t_from (get_trans a0 t) /\ t_to (get_trans a1 t) = t_to (get_trans a0 t)).
  { destruct (cf_tt cf); [|apply ok_inj in H1; subst; auto]. apply detect_tt_ok in H1 as (_ & El & HR). destruct (HR t ltac:(lia)) as (_ & R1 & R2 & _). auto. }
  destruct K1 as (K0 & K1 & K2). rewrite <- K1, <- K2. destruct (cf_gs cf); [|apply ok_inj in H2; subst; auto].
  assert (F := Forall2_nth _ _ _ dtrans dtrans t (gs_trans_F2 a1 a H2) ltac:(lia)). apply strengthen_trans_ok in F as [(_ & E1 & E2 & _) _]. auto.
Qed.
Lemma setup_ha_jump cf a0 a : wf_ha a0 -> setup_ha cf a0 = Ok a -> no_tt cf a -> forall t p p', t < List.length (ha_trans a0) ->
  guard_ok (get_trans a0 t) p -> reset_ok a0 (get_trans a0 t) p p' -> inv_ok 0 (get_mode a0 (t_to (get_trans a0 t))) p' ->
  guard_ok (get_trans a t) p /\ reset_ok a (get_trans a t) p p'.
Proof.
  intros W H Htt t p p' Ht Hg Hr Hi. unfold setup_ha in H. apply bind_ok in H as (a1 & H1 & H). apply bind_ok in H as (a2 & H2 & H). apply bind_ok in H as (u & _ & H). apply ok_inj in H. subst a2.
  assert (K1 : wf_ha a1 /\ ha_modes a1 = ha_modes a0 /\ List.length (ha_trans a1) = List.length (ha_trans a0) /\ t_to (get_trans a1 t) = t_to (get_trans a0 t) /\
    ((cf_tt cf = true -> t_tt (get_trans a1 t) = false) -> guard_ok (get_trans a1 t) p) /\ reset_ok a1 (get_trans a1 t) p p').
  { destruct (cf_tt cf); [|apply ok_inj in H1; subst; auto 7]. split; [eapply detect_wf; eauto|]. apply detect_tt_ok in H1 as (Em & El & HR). split; [auto|]. split; [auto|]. assert (HR' := HR t Ht). destruct HR' as (_ & R1 & R2 & R3 & R4 & R5). split; [auto|]. split.
    - intro K. apply (relaxed_guard _ _ _ _ _ (HR t Ht)); [apply K; auto|exact Hg].
    - unfold reset_ok, post_dims in *. rewrite R1, R3, R4, (get_mode_eq a0 a1 _ Em). exact Hr. }
  destruct K1 as (W1 & Em & El & Eto & G1 & R1). destruct (cf_gs cf).
  - assert (Ht1 : t < List.length (ha_trans a1)) by lia. destruct (gs_trans a1 a W1 H2 t Ht1) as ((_ & B2 & B3 & B4 & B5 & B6 & _) & _ & GG & _). assert (Em2 := gs_modes a1 a H2). split.
    + apply (GG p p'); [apply G1; intro E; rewrite <- B6; apply Htt; [exact E|rewrite (gs_len a1 a H2); exact Ht1]|exact R1|]. rewrite Eto, (get_mode_eq a0 a1 _ Em). exact Hi.
    + unfold reset_ok, post_dims in *. rewrite B2, B4, B5, (get_mode_eq a1 a _ Em2). exact R1.
  - apply ok_inj in H2. subst a1. split; [|exact R1]. apply G1. intro E. apply Htt; [exact E|lia].
Qed.

(** ** C24, with deaggregation, and with urgent transitions *)
(** The analysis finishes (with a result or an exception) for every automaton, solver answer and aggregation strategy with
    require_same_path (the default), with or without deaggregation.  With process_urgent_guards, transitions may be taken without
    time passing; it then finishes if the transitions form no cycle: some rank of the modes decreases along each of them. *)
Theorem C24_terminates_deagg solve arnoldi cf a0 inits :
  (forall g, cf_strat cf = Some g -> ag_path g = true) -> (forall s, In s inits -> fresh_set s) ->
  (cf_urgent cf = true -> exists rank : nat -> nat, forall t, t < List.length (ha_trans a0) -> rank (t_to (get_trans a0 t)) < rank (t_from (get_trans a0 t))) ->
  exists fuel, run solve arnoldi cf a0 inits fuel <> None.
Proof.
  intros HP Hs Hu. unfold run. destruct (do _ <- _; setup_ha cf a0) as [a|e] eqn:Ea; [|exists 0; discriminate]. apply bind_ok in Ea as (u & _ & Ea).
  destruct (setup solve a inits) as [c|e] eqn:Es; [|exists 0; discriminate]. apply (terminates_setup solve arnoldi cf a inits c); auto.
  - unfold path_cf. destruct (cf_strat cf); auto.
  - intro E. destruct (Hu E) as [rk K]. exists rk. intros t Ht. destruct (setup_ha_edges cf a0 a Ea t Ht) as [-> ->]. apply K. rewrite <- (setup_ha_count cf a0 a Ea). exact Ht.
Qed.

(** More fuel does not change the outcome: the fuel is a device of the model, not a parameter of the analysis. *)
Lemma run_loop_more solve arnoldi cf a k : forall fuel c, run_loop solve arnoldi cf a fuel c <> None -> run_loop solve arnoldi cf a (fuel + k) c = run_loop solve arnoldi cf a fuel c.
Proof.
  induction fuel as [|f IH]; intros c H; cbn [run_loop Nat.add] in *.
  - destruct (is_finished cf c) eqn:Ef; [|exfalso; apply H; reflexivity]. destruct k; cbn [run_loop]; rewrite Ef; reflexivity.
  - destruct (is_finished cf c); [reflexivity|]. destruct (do_step solve arnoldi cf a c) as [c1|e]; [apply IH; exact H|reflexivity].
Qed.
Theorem C24_fuel_irrelevant solve arnoldi cf a0 inits fuel fuel' : fuel <= fuel' -> run solve arnoldi cf a0 inits fuel <> None -> run solve arnoldi cf a0 inits fuel' = run solve arnoldi cf a0 inits fuel.
Proof.
  intros Hf H. unfold run in *. destruct (do _ <- _; setup_ha cf a0) as [a|e]; [|reflexivity]. destruct (setup solve a inits) as [c|e]; [|reflexivity].
  replace fuel' with (fuel + (fuel' - fuel)) by lia. apply run_loop_more. exact H.
Qed.

(** ** C24, refuted for urgent cycles *)
(** an endless sequence of transitions that can be taken one after the other without time passing, from an initial state *)
Record urgent_cycle (a : ha) (init : nat -> vec -> Prop) (t : nat -> nat) (p : nat -> vec) : Prop := {
  uc_init : init (t_from (get_trans a (t 0))) (p 0);
  uc_t : forall i, t i < List.length (ha_trans a);
  uc_next : forall i, t_from (get_trans a (t (S i))) = t_to (get_trans a (t i));
  uc_inv : forall i, inv_ok 0 (get_mode a (t_from (get_trans a (t i)))) (p i);
  uc_guard : forall i, guard_ok (get_trans a (t i)) (p i);
  uc_reset : forall i, reset_ok a (get_trans a (t i)) (p i) (p (S i)) }.

Section Cycle.
Variable solve : solver.
Hypothesis Hsolve : solver_ok solve.
Variable arnoldi : nat -> option (list Q) -> csr -> option csr -> nat -> list (list Q).

(** With process_urgent_guards and such a sequence the analysis never comes to an end with a result, however long it runs, unless it
    stops at an error state. *)
Theorem C24_urgent_cycle_never_finishes cf a0 a inits t p :
  wf_ha a0 -> inputs_plain a0 -> path_ok cf -> setup_ha cf a0 = Ok a -> no_tt cf a -> Forall (init_ok solve a0) inits ->
  cf_urgent cf = true -> urgent_cycle a0 (init_of_list inits) t p ->
  forall fuel c, run solve arnoldi cf a0 inits fuel = Some (Ok c) -> ((cf_stop_conc cf = true \/ cf_stop_agg cf = true) /\ c_concerr c = true) \/ (cf_stop_agg cf = true /\ c_aggerr c = true).
Proof.
  intros W0 Hinp Hpath Hs Htt Hinit Hu UC fuel c Hrun. destruct (bad_dec cf c) as [Hb|Hb]; [exact Hb|]. exfalso.
  destruct (core_final solve Hsolve arnoldi cf a0 a inits fuel c W0 Hinp Hpath Hs Htt Hinit Hrun Hb) as (I0 & D & W & B & Hw & Hd & Hi).
  destruct (setup_ha_ok cf a0 a W0 Hs) as (Em & _ & _). assert (Hct := setup_ha_count cf a0 a Hs).
  assert (Ht : forall i, t i < List.length (ha_trans a)) by (intro i; rewrite Hct; apply UC).
  assert (Fr : forall i, t_from (get_trans a (t i)) = t_from (get_trans a0 (t i)) /\ t_to (get_trans a (t i)) = t_to (get_trans a0 (t i))) by (intro i; apply (setup_ha_edges cf a0 a Hs); auto).
  assert (J : forall i, guard_ok (get_trans a (t i)) (p i) /\ reset_ok a (get_trans a (t i)) (p i) (p (S i))).
  { intro i. apply (setup_ha_jump cf a0 a W0 Hs Htt); try apply UC. rewrite <- (uc_next _ _ _ _ UC i). apply UC. }
  assert (Hv : forall i, inv_ok 0 (get_mode a (t_from (get_trans a (t i)))) (p i)) by (intro i; rewrite (proj1 (Fr i)), (get_mode_eq a0 a _ Em); apply UC).
  assert (Hne : forall i, err a (t_from (get_trans a (t i))) = false) by (intro i; apply (proj2 (wft_from _ _ (proj2 W (t i) (Ht i))))).
  (* every jump of the sequence leads to a later node *)
  assert (Q : forall i, exists N, i <= N /\ N < nN c /\ ~ D N /\ nmode c N = t_from (get_trans a (t i)) /\ Tn a (core_rules cf a) I0 c N 0 (p i) 0).
  { induction i as [|i IH].
    - assert (I1 : init_of_list inits (t_from (get_trans a (t 0))) (p 0)) by (rewrite (proj1 (Fr 0)); apply UC).
      destruct (Hi _ _ (Hne 0) I1 (Hv 0)) as (o & Ho & Hp & Hm & HI). destruct (child_of solve cf a (core_rules cf a) I0 c D B Hw o Ho) as (N & _ & HN & HD & Hin & HmN); [intros M HM; congruence|].
      exists N. split; [lia|]. split; [exact HN|]. split; [exact HD|]. split; [congruence|]. apply Tn_in with o; auto. apply To_init; auto.
    - destruct IH as (N & Hle & HN & HD & HmN & HT). destruct (J i) as [Hg Hr]. destruct (Hd N HN) as (_ & _ & HC).
      assert (Hj : may_jump 0 (core_rules cf a) (get_mode a (nmode c N)) (p i) 0) by (split; [right; split; [exact Hu|rewrite HmN; apply Hv]|discriminate]).
      destruct (HC 0 (t i)) as (o & Ho & Hk & Hto).
      { exists (p i), 0. split; [exact HT|]. split; [apply Ht|]. split; [auto|]. split; [exact Hg|exact Hj]. }
      destruct (h_ntr _ _ _ _ _ (b_heap _ _ _ _ _ _ _ _ _ B) N o HN Ho) as [Ho1 Ho2].
      destruct (child_of solve cf a (core_rules cf a) I0 c D B Hw o Ho1) as (N' & Hc & HN' & HD' & Hin & HmN'); [intros M HM; congruence|].
      assert (HT' : Tn a (core_rules cf a) I0 c N' 0 (p (S i)) 0) by (apply Tn_in with o; auto; apply To_jump with N (t i) (p i); auto; rewrite Hk; auto).
      exists N'. split.
      + destruct (h_par _ _ _ _ _ (b_heap _ _ _ _ _ _ _ _ _ B) N' HN') as (_ & _ & K). destruct (K o Hin) as (_ & _ & K3). specialize (K3 N Ho2). lia.
      + split; [exact HN'|]. split; [exact HD'|]. split; [|exact HT']. rewrite HmN', (proj1 (Fr (S i))), (uc_next _ _ _ _ UC i), <- (proj2 (Fr i)).
        pose proof (h_op _ _ _ _ _ (b_heap _ _ _ _ _ _ _ _ _ B) o Ho1) as K. unfold op_ok in K. rewrite Ho2, Hto in K. destruct K as (_ & _ & t' & K1 & _ & _ & K2). injection K1 as <-. auto. }
  destruct (Q (nN c)) as (N & K1 & K2 & _). lia.
Qed.
End Cycle.

From Verif Require Import Solver Ex_Core Ex_Zero Ex_TT Ex_Path Prop_Core2.
(** Two modes with x' = 0 and transitions a -> b -> a with guard x >= 0 (x = 0 initially), no error mode. *)
Definition exU_tr (f t : nat) : trans := mkTrans "t" f t (Some (mkCsr 1 [[(0, (-(1))%Q)]], [0%Q])) None None false 0.
Definition exU : ha := mkHa [exZ_mode false; exZ_mode false] [exU_tr 0 1; exU_tr 1 0].
Definition exU_cf : cfg := mkCfg 5 1 true true false true false true true None.
Lemma exU_wf : wf_ha exU.
Proof.
  destruct (exZ_wf false 0) as [WM _]. split.
  - intros i Hi. destruct i as [|[|i]]; [| |cbn in Hi; lia]; apply (WM 0); cbn; lia.
  - assert (K : forall f t, f < 2 -> t < 2 -> wf_trans exU (exU_tr f t)).
    { intros f t Hf Ht. constructor; cbn [t_from t_to t_guard t_reset t_mink exU_tr].
      - split; [cbn; lia|]. destruct f as [|[|f]]; try reflexivity; lia.
      - cbn; lia.
      - eexists; eexists. split; [reflexivity|]. destruct f as [|[|f]]; [| |lia]; repeat constructor.
      - split; [exact Logic.I|discriminate].
      - split; [exact Logic.I|auto].
      - destruct f as [|[|f]], t as [|[|t]]; try lia; reflexivity. }
    intros t Ht. destruct t as [|[|t]]; [| |cbn in Ht; lia]; apply K; lia.
Qed.
Lemma exU_init : Forall (init_ok fm_solver exU) [exZ_s false].
Proof.
  constructor; [|constructor]. exists (exZ_l false), 0. split; [cbn; lia|]. split; [vm_compute; reflexivity|].
  cbn [m_a get_mode nth exU ha_modes exZ_mode]. split; [|reflexivity].
  assert (H : from_box fm_solver [(0%Q, 0%Q)] 0 false = Ok (exZ_l false)) by (vm_compute; reflexivity).
  unfold from_box in H. apply bind_ok in H as (? & _ & H). replace (c_nr exZ_mat) with (l_dims (exZ_l false)) by reflexivity.
  eapply api_from_constraints; [| |exact H|cbn; lia]; [repeat constructor|exact Logic.I].
Qed.
Lemma exU_cycle : urgent_cycle exU (init_of_list [exZ_s false]) (fun i => Nat.modulo i 2) (fun _ _ => 0%Q).
Proof.
  assert (M : forall i, (Nat.modulo i 2 = 0 /\ Nat.modulo (S i) 2 = 1) \/ (Nat.modulo i 2 = 1 /\ Nat.modulo (S i) 2 = 0)).
  { intro i. induction i as [|i IH]; [left; split; reflexivity|]. pose proof (Nat.add_mod i 2 2 ltac:(lia)) as E. rewrite Nat.mod_same, Nat.add_0_r, Nat.mod_mod in E by lia. replace (i + 2) with (S (S i)) in E by lia. rewrite E. lia. }
  constructor.
  - exists (exZ_s false). split; [left; reflexivity|]. split; [vm_compute; reflexivity|]. apply exZ_in. reflexivity.
  - intro i. apply (Nat.mod_upper_bound i 2). discriminate.
  - intro i. destruct (M i) as [[-> ->]|[-> ->]]; reflexivity.
  - intros i c Hc. destruct (M i) as [[E _]|[E _]]; rewrite E in Hc; destruct Hc.
  - intro i. destruct (M i) as [[-> _]|[-> _]]; intros j r c Hr Hc; (destruct j as [|j]; cbn in Hr, Hc; [|destruct j; discriminate]); injection Hr as <-; injection Hc as <-; vm_compute; discriminate.
  - intro i. destruct (M i) as [[-> _]|[-> _]]; (exists (fun _ => 0%Q); split; [exact Logic.I|]; intros j Hj; cbn; reflexivity).
Qed.
Theorem C24_terminates_urgent_refuted : exists cf a0 inits, wf_ha a0 /\ inputs_plain a0 /\ path_ok cf /\ (forall s, In s inits -> fresh_set s) /\ Forall (init_ok fm_solver a0) inits /\ cf_urgent cf = true /\
  (forall arnoldi fuel c, run fm_solver arnoldi cf a0 inits fuel <> Some (Ok c)) /\ run fm_solver arn0 cf a0 inits 40 = None.
Proof.
  exists exU_cf, exU, [exZ_s false]. split; [exact exU_wf|]. assert (HI : inputs_plain exU) by (intros m Hm H; exfalso; apply H; destruct m as [|[|m]]; [reflexivity|reflexivity|cbn in Hm; lia]). split; [exact HI|].
  assert (HPa : path_ok exU_cf) by (intros g Hg; discriminate). split; [exact HPa|]. split; [intros s [<-|[]]; vm_compute; auto|]. split; [exact exU_init|]. split; [reflexivity|]. split; [|vm_compute; reflexivity].
  intros arnoldi fuel c H. assert (NT : no_tt exU_cf exU) by (intro K; discriminate). assert (Hs : setup_ha exU_cf exU = Ok exU) by reflexivity.
  destruct (C24_urgent_cycle_never_finishes fm_solver fm_solver_ok arnoldi exU_cf exU exU [exZ_s false] _ _ exU_wf HI HPa Hs NT exU_init eq_refl exU_cycle fuel c H) as [[_ K]|[K _]]; [|discriminate].
  assert (ND : no_deagg exU_cf) by (intros g Hg; discriminate Hg).
  destruct (C20_concrete_error_real fm_solver fm_solver_ok arnoldi exU_cf exU exU [exZ_s false] fuel c exU_wf HI ND Hs NT exU_init H K) as (t & p & k & n & Ht & He & _).
  destruct t as [|[|t]]; [discriminate|discriminate|cbn in Ht; lia].
Qed.

(** the analysis with deaggregation of Ex_Path (which splits nodes and replays), also with urgent transitions: the modes are ranked *)
Definition exP_ucf : cfg := mkCfg 8 1 true false false true false true false (Some (mkAgg ABox PAvg false true true DRoot)).
Example C24_terminates_deagg_witness : (exists fuel, run fm_solver arn0 (exP_cf true) exP exP_inits fuel <> None) /\ (exists fuel, run fm_solver arn0 exP_ucf exP exP_inits fuel <> None) /\
  exists c, run fm_solver arn0 exP_ucf exP exP_inits 200 = Some (Ok c).
Proof.
  assert (Hs : forall s, In s exP_inits -> fresh_set s) by (intros s [<-|[<-|[]]]; vm_compute; auto). split; [|split].
  - apply C24_terminates_deagg; [intros g [= <-]; reflexivity|exact Hs|discriminate].
  - apply C24_terminates_deagg; [intros g [= <-]; reflexivity|exact Hs|]. intros _. exists (fun m => 6 - m). intros t Ht. destruct t as [|[|[|[|[|t]]]]]; [cbn; lia|cbn; lia|cbn; lia|cbn; lia|cbn; lia|cbn in Ht; lia].
  - pose (o := run fm_solver arn0 exP_ucf exP exP_inits 200). exists (getc o). apply getc_ok. vm_compute. reflexivity.
Qed.
