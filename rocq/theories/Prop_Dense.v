(** C61: the analysis with an approximation model and executions in dense time. *)
From Verif Require Import Base BaseFacts LpModel LpSpec SetSpec LpUtil LpFacts LpWf ChullFacts ApiSpec ApiFacts Automaton StateSet HybridSpec FlowFacts StateSpec
  StateFacts StateFacts2 StateFacts3 AutoFacts BuildFacts CoreModel HeapFacts CoreOps CoreGhost CoreSpec CoreSetup SetupHa Approx ApproxFacts CoreApprox ApproxInv Prop_Inv Prop_Approx Prop_Core Prop_Detect.
Open Scope nat_scope.

(** ** Specification.  The trajectory in a mode: sampled states x 0, x 1, ... one time step apart, joined by straight lines.  [dense m p T]: an execution
    enters mode m at time T (in time steps) in state p; it stays k full steps and a fraction s of a step and leaves by transition t, at most at time [num].
    [urgent = false]: only after at least one full step. *)
Inductive dense (a : ha) (init : nat -> vec -> Prop) (num : nat) (urgent : bool) : nat -> vec -> Q -> Prop :=
| dn_init m p : init m p -> dense a init num urgent m p 0
| dn_jump m x u T k s t p' : dense a init num urgent m (x 0) T -> is_error (get_mode a m) = false -> run_of (get_mode a m) (S k) x u -> (0 <= s <= 1)%Q ->
    (T + inject_Z (Z.of_nat k) + s <= inject_Z (Z.of_nat num))%Q -> (k = 0 -> urgent = true) ->
    t < List.length (ha_trans a) -> t_from (get_trans a t) = m -> guard_ok (get_trans a t) (between s (x k) (x (S k))) -> reset_ok a (get_trans a t) (between s (x k) (x (S k))) p' ->
    dense a init num urgent (t_to (get_trans a t)) p' (T + inject_Z (Z.of_nat k) + s)%Q.
Definition dense_error (a : ha) (init : nat -> vec -> Prop) (num : nat) (urgent : bool) : Prop :=
  exists m p T, dense a init num urgent m p T /\ is_error (get_mode a m) = true.
(** the automaton has no invariants *)
Definition inv_free (a : ha) : Prop := forall m, m_inv (get_mode a m) = [].
Definition no_deagg (cf : cfg) : Prop := forall g, cf_strat cf = Some g -> ag_deagg g = false.

(** ** setup_ha does nothing to an automaton without invariants *)
Lemma free_detect a h N a' : wf_ha a -> inv_free a -> detect_tt a h N = Ok a' -> forall t, t < List.length (ha_trans a) ->
  t_tt (get_trans a' t) = t_tt (get_trans a t) /\ t_guard (get_trans a' t) = t_guard (get_trans a t) /\ t_from (get_trans a' t) = t_from (get_trans a t) /\ t_to (get_trans a' t) = t_to (get_trans a t) /\
  t_reset (get_trans a' t) = t_reset (get_trans a t) /\ t_mink (get_trans a' t) = t_mink (get_trans a t).
Proof.
  intros W F H t Ht. destruct (C28_marked a h N a' t W H Ht) as (M & g & rhs & rhs' & G1 & G2 & L & R).
  assert (NT : forall i, ~ trigger a t i).
  { intros i (x & g0 & rhs0 & r & b & _ & _ & _ & _ & _ & _ & _ & K). unfold opposite_inv in K. rewrite (F _) in K. destruct K as (c & [] & _). }
  pose proof H as H0. apply detect_tt_ok in H0 as (_ & _ & HR). destruct (HR t Ht) as (_ & R1 & R2 & R3 & R4 & _). split.
  - destruct (t_tt (get_trans a t)) eqn:E; [apply M; auto|]. destruct (t_tt (get_trans a' t)) eqn:E'; [|reflexivity]. destruct (proj1 M eq_refl) as [K|(i & K)]; [discriminate|destruct (NT i K)].
  - split; [|auto]. rewrite G1, G2. f_equal. f_equal. apply nth_ext with (d := 0%Q) (d' := 0%Q); [exact L|]. intros i Hi. assert (Hi2 : i < List.length rhs) by lia. destruct (nth_error rhs i) as [b|] eqn:Eb; [|apply nth_error_None in Eb; lia].
    destruct (R i b Eb) as (b' & Hb' & [[K _]|[_ ->]]); [destruct (NT i K)|]. rewrite (nth_error_nth _ _ _ Eb), (nth_error_nth _ _ _ Hb'). reflexivity.
Qed.
Lemma free_setup cf a0 a : wf_ha a0 -> inv_free a0 -> no_tt cf a0 -> setup_ha cf a0 = Ok a ->
  ha_modes a = ha_modes a0 /\ wf_ha a /\ List.length (ha_trans a) = List.length (ha_trans a0) /\ no_tt cf a /\
  forall t, t < List.length (ha_trans a0) -> t_from (get_trans a t) = t_from (get_trans a0 t) /\ t_to (get_trans a t) = t_to (get_trans a0 t) /\
    forall p p', guard_ok (get_trans a0 t) p -> reset_ok a0 (get_trans a0 t) p p' -> guard_ok (get_trans a t) p /\ reset_ok a (get_trans a t) p p'.
Proof.
  intros W F NT H. pose proof (setup_ha_ok cf a0 a W H) as (Em & Wa & _). split; [exact Em|]. split; [exact Wa|].
  unfold setup_ha in H. apply bind_ok in H as (a1 & H1 & H). apply bind_ok in H as (a2 & H2 & H). apply bind_ok in H as (? & _ & H). injection H as ->.
  assert (A : ha_modes a1 = ha_modes a0 /\ wf_ha a1 /\ List.length (ha_trans a1) = List.length (ha_trans a0) /\ forall t, t < List.length (ha_trans a0) -> 
     t_tt (get_trans a1 t) = t_tt (get_trans a0 t) /\ t_guard (get_trans a1 t) = t_guard (get_trans a0 t) /\ t_from (get_trans a1 t) = t_from (get_trans a0 t) /\ t_to (get_trans a1 t) = t_to (get_trans a0 t) /\
     t_reset (get_trans a1 t) = t_reset (get_trans a0 t) /\ t_mink (get_trans a1 t) = t_mink (get_trans a0 t)).
  { destruct (cf_tt cf); [|injection H1 as <-; split; [reflexivity|]; split; [exact W|]; split; [reflexivity|]; intros; repeat split].
    pose proof H1 as K. apply detect_tt_ok in K as (K1 & K2 & _). split; [exact K1|]. split; [apply (detect_wf a0 _ _ a1 W H1)|]. split; [exact K2|]. intros t Ht. apply (free_detect a0 _ _ a1 W F H1 t Ht). }
  destruct A as (A1 & A2 & A3 & A4). assert (G1 : forall t p, t < List.length (ha_trans a0) -> guard_ok (get_trans a0 t) p -> guard_ok (get_trans a1 t) p).
  { intros t p Ht. destruct (A4 t Ht) as (_ & E & _). unfold guard_ok. rewrite E. auto. }
  assert (R1 : forall t p p', t < List.length (ha_trans a0) -> reset_ok a0 (get_trans a0 t) p p' -> reset_ok a1 (get_trans a1 t) p p').
  { intros t p p' Ht. destruct (A4 t Ht) as (_ & _ & E2 & E3 & E4 & E5). unfold reset_ok, post_dims. rewrite ?E2, ?E3, ?E4, ?E5. rewrite ?(get_mode_eq a0 a1 _ A1). auto. }
  destruct (cf_gs cf).
  - split; [rewrite (gs_len a1 a H2); exact A3|]. assert (FT : forall t, t < List.length (ha_trans a0) -> same_but_guard (get_trans a1 t) (get_trans a t)) by (intros t Ht; apply (gs_trans a1 a A2 H2 t); lia). split.
    + intros Ht t Hlt. rewrite (gs_len a1 a H2), A3 in Hlt. destruct (FT t Hlt) as (B1 & B2 & B3 & B4 & B5 & B6 & B7). destruct (A4 t Hlt) as (B8 & _). specialize (NT Ht t Hlt). congruence.
    + intros t Ht. destruct (FT t Ht) as (B1 & B2 & B3 & B4 & B5 & B6 & B7). destruct (A4 t Ht) as (C1 & C2 & C3 & C4 & C5 & C6). split; [congruence|]. split; [congruence|]. intros p p' Hg Hr.
      destruct (gs_trans a1 a A2 H2 t ltac:(lia)) as (_ & _ & K & _). split.
      * apply (K p p'); [apply G1; assumption|apply R1; assumption|]. intros q Hq. rewrite (get_mode_eq a0 a1 _ A1), F in Hq. destruct Hq.
      * apply (R1 t p p' Ht) in Hr. unfold reset_ok, post_dims in *. rewrite ?(gs_get_mode a1 a H2). replace (t_from (get_trans a t)) with (t_from (get_trans a1 t)) by congruence.
        replace (t_reset (get_trans a t)) with (t_reset (get_trans a1 t)) by congruence. replace (t_mink (get_trans a t)) with (t_mink (get_trans a1 t)) by congruence. exact Hr.
  - injection H2 as <-. split; [exact A3|]. split; [intros Ht t Hlt; rewrite A3 in Hlt; destruct (A4 t Hlt) as (-> & _); apply (NT Ht t Hlt)|]. intros t Ht. destruct (A4 t Ht) as (C1 & C2 & C3 & C4 & C5 & C6). split; [exact C3|]. split; [exact C4|].
    intros p p' Hg Hr. split; [apply G1; assumption|apply R1; assumption].
Qed.

(** ** the blurred entry points *)
Definition seg0 (a : ha) (m : nat) (p b : vec) : Prop := exists s u q, (0 <= s <= 1)%Q /\ input_ok (get_mode a m) u /\ one_step (get_mode a m) p u q /\ b = between s p q.

Lemma inv_flow_flow m : forall k p q, inv_flow m k p q -> flow m k p q.
Proof. induction k as [|k IH]; intros p q H; cbn [inv_flow flow] in *; [exact H|]. destruct H as (r & u & H1 & _ & H2 & H3). exists r, u. auto. Qed.

Lemma zero_flow m x : m_a m = Some x -> m_b m = None -> (forall p, veq (c_nr x) (mapply (m_bm m 1) p) p) -> forall k b z, flow m k b z -> flow m 1 b z.
Proof.
  intros Ex Eb Hz. assert (V : forall k b z, flow m k b z -> veq (m_dims m) b z).
  { induction k as [|k IH]; intros b z H; cbn [flow] in H; [exact H|]. destruct H as (q & u & H & _ & Ho). intros i Hi. rewrite (IH b q H i Hi). rewrite (Ho i Hi). rewrite Eb. unfold m_dims in Hi. rewrite Ex in Hi. rewrite (Hz q i Hi). ring. }
  intros k b z H. exists b, b. split; [intros i _; reflexivity|]. split; [unfold input_ok; rewrite Eb; exact Logic.I|]. intros i Hi. rewrite <- (V k b z H i Hi). rewrite Eb. unfold m_dims in Hi. rewrite Ex in Hi. rewrite (Hz b i Hi). ring.
Qed.

Lemma dense_ent cf a0 a (init : nat -> vec -> Prop) : wf_ha a0 -> inv_free a0 -> no_tt cf a0 -> zero_plain cf a0 -> setup_ha cf a0 = Ok a ->
  (forall m p, init m p -> m < List.length (ha_modes a0)) ->
  forall m p T, dense a0 init (cf_num cf) (cf_urgent cf) m p T -> m < List.length (ha_modes a0) /\
   ((exists n, (inject_Z (Z.of_nat n) <= T)%Q /\ ent cf a init (seg0 a) m p n) /\
    (init m p \/ exists m1 p1 n k t, ent cf a init (seg0 a) m1 p1 n /\ succ cf a (seg0 a) m1 p1 n k t p /\ m = t_to (get_trans a t))).
Proof.
  intros W F NT HZ Hs Him. destruct (free_setup cf a0 a W F NT Hs) as (Em & Wa & El & _ & HT).
  induction 1 as [m p Hi|m x u T k s t p' HD (Hm & (n & Hn & He) & _) Hne HR Hs1 Hb Hu Ht Hf Hg Hr].
  - split; [eapply Him; eauto|]. split; [exists 0; split; [apply Qle_refl|apply ent_init; exact Hi]|left; exact Hi].
  - destruct (HT t Ht) as (T1 & T2 & T3). destruct (T3 _ _ Hg Hr) as [Hg' Hr'].
    split; [apply (wft_to _ _ (proj2 W t Ht))|].
    pose proof (run_flow _ k x u s Hs1 HR) as HF. apply inv_flow_flow in HF.
    assert (Hbl : seg0 a m (x 0) (between s (x 0) (x 1))).
    { destruct (HR 0 ltac:(lia)) as (_ & U & O). exists s, (u 0), (x 1). rewrite (get_mode_eq a0 a m Em). auto. }
    assert (Hk : exists k', (k' <= k) /\ (k = 0 <-> k' = 0) /\ (zero_mode cf a m = true -> k' <= 1) /\ flow (get_mode a0 m) k' (between s (x 0) (x 1)) (between s (x k) (x (S k)))).
    { destruct (zero_mode cf a m) eqn:Ez; [|exists k; split; [lia|]; split; [tauto|]; split; [discriminate|exact HF]].
      destruct k as [|k]; [exists 0; split; [lia|]; split; [tauto|]; split; [lia|exact HF]|]. exists 1. split; [lia|]. split; [lia|]. split; [lia|]. unfold zero_mode in Ez. rewrite (get_mode_eq a0 a m Em) in Ez. destruct (m_a (get_mode a0 m)) as [y|] eqn:Ey; [|discriminate].
      apply andb_true_iff in Ez as [Ez1 Ez2]. apply Nat.eqb_eq in Ez1. destruct (HZ Ez2 m y Hm Ey Ez1) as [Hb0 Hv]. eapply zero_flow; eauto. }
    destruct Hk as (k' & Hk1 & Hk2 & Hk3 & HF').
    assert (Hle : (inject_Z (Z.of_nat (n + k')) <= T + inject_Z (Z.of_nat k) + s)%Q).
    { assert (E : (inject_Z (Z.of_nat (n + k')) <= inject_Z (Z.of_nat n) + inject_Z (Z.of_nat k))%Q) by (rewrite <- inject_Z_plus, <- Zle_Qle; lia). lra. }
    assert (HS : succ cf a (seg0 a) m (x 0) n k' t p').
    { split; [rewrite (get_mode_eq a0 a m Em); exact Hne|]. split; [|split; [|split; [|split; [|split]]]].
      - assert (E : (inject_Z (Z.of_nat (n + k')) <= inject_Z (Z.of_nat (cf_num cf)))%Q) by lra. rewrite <- Zle_Qle in E. lia.
      - intro K. apply Hu. apply Hk2. exact K.
      - exact Hk3.
      - lia.
      - congruence.
      - exists (between s (x 0) (x 1)), (between s (x k) (x (S k))). split; [exact Hbl|]. split; [rewrite (get_mode_eq a0 a m Em); exact HF'|]. auto. }
    split.
    + exists (n + k'). split; [exact Hle|]. rewrite <- T2. eapply ent_jump; eauto.
    + right. exists m, (x 0), n, k', t. split; [exact He|]. split; [exact HS|]. symmetry. exact T2.
Qed.

Section P.
Variable solve : solver.
Hypothesis Hsolve : solver_ok solve.
Variable arnoldi : nat -> option (list Q) -> csr -> option csr -> nat -> list (list Q).

Lemma setup_minv cf a inits c blur : wf_ha a -> inv_free a -> Forall (init_ok solve a) inits -> setup solve a inits = Ok c -> minv solve cf a (init_of_list inits) blur c.
Proof.
  intros W F HF Hs. assert (Hinp : inputs_plain a) by (intros m _ _; apply F). destruct (setup_ok solve Hsolve a W Hinp inits c HF Hs) as (P & K & _). pose proof (p_n _ _ _ P) as En.
  assert (HnN : forall N, N < nN c -> False) by (intros N HN; rewrite (p_nodes _ _ _ P) in HN; cbn in HN; lia).
  assert (HwO : forall o, In o (c_wait c) <-> o < nO c) by (intro o; rewrite (p_w _ _ _ P), in_seq; lia).
  assert (HP : forall o, o < nO c -> o_post (getO c o) = o) by (intros o Ho; rewrite (p_op _ _ _ P o Ho); reflexivity).
  split.
  - constructor.
    + intros i Hi. apply (p_st _ _ _ P). lia.
    + intros o Ho. rewrite HP by exact Ho. lia.
    + intros o o' Ho Ho' E. rewrite !HP in E by assumption. exact E.
    + intros n Hn. exfalso. eauto.
    + rewrite (p_w _ _ _ P). apply seq_NoDup.
    + intros o Ho. apply HwO in Ho. rewrite HP by exact Ho. destruct (p_st _ _ _ P o Ho) as (_ & G1 & _ & G3 & _). split; [exact Ho|]. split; [exact G3|]. split; [exact G1|]. intros n Hn. exfalso. eauto.
    + apply (p_dw _ _ _ P).
    + apply (p_rep _ _ _ P).
    + apply (p_tt _ _ _ P).
  - exists (fun _ _ _ => False). left. split; [apply (p_cur _ _ _ P)|]. intros _. split; [|intros ? ? ? ? ? ? []]. intros m p Hm. left.
    destruct (K m p Hm) as (o & Ho & _ & Hpm & _ & Hin); [intros q Hq; rewrite F in Hq; destruct Hq|]. exists o. split; [apply HwO; exact Ho|]. split; [exact Hpm|]. unfold pstate. rewrite HP by exact Ho. split; [exact Hin|]. destruct (p_st _ _ _ P o Ho) as (_ & _ & _ & _ & -> & _). lia.
Qed.

(** The approximation models the theorem covers: ApChull. *)
Lemma chull_ap qexp tau a : wf_ha a -> forall s x s', st_ok solve a s x -> ss_step s = 0 -> no_rows s -> approx_of solve qexp tau ApChull a s = Ok s' ->
  st_ok solve a s' x /\ ss_mode s' = ss_mode s /\ ss_step s' = 0 /\ ss_lo s' = ss_lo s /\ forall p b, in_lp (ss_lpi s) p -> seg0 a (ss_mode s) p b -> in_lp (ss_lpi s') b.
Proof.
  intros W s x s' St E0 HN H. unfold approx_of in H. apply bind_ok in H as ([s1 o] & H & E). injection E as ->. apply chull_of in H as [_ H].
  split; [eapply approx_chull_st; eauto|]. destruct (approx_chull_shape solve a s x s' St E0 H) as (s1' & l & _ & _ & E). assert (E' : s' = ss_with_lpi s l) by exact E.
  split; [rewrite E'; reflexivity|]. split; [rewrite E'; exact E0|]. split; [rewrite E'; reflexivity|]. clear E E'.
  destruct (approx_chull_set solve Hsolve a W s x s' St E0 (or_intror HN) H) as (s2 & Ds & F & I1 & _). intros p b Hp (t & u & q & Ht & Hu & Ho & ->).
  apply (I1 t p q); [exact Ht|exact Hp|apply F; exists p, u; auto|]. intros i _. unfold between, mix. ring.
Qed.

(** If the analysis with the convex-hull model ends without reporting an error, no execution in dense time enters an error mode within the time bound. *)
Theorem C61_chull_safe_in_dense_time_partial qexp cf a0 a inits fuel c :
  wf_ha a0 -> inv_free a0 -> zero_plain cf a0 -> no_deagg cf -> no_tt cf a0 -> setup_ha cf a0 = Ok a -> Forall (init_ok solve a0) inits ->
  (forall s, In s inits -> is_error (get_mode a0 (ss_mode s)) = false) ->
  run_ap solve arnoldi qexp ApChull cf a0 inits fuel = Some (Ok c) -> c_aggerr c = false -> c_concerr c = false ->
  ~ dense_error a0 (init_of_list inits) (cf_num cf) (cf_urgent cf).
Proof.
  intros W F HZ Hnd NT Hs Hinit Hne Hrun Fa Fc (m & p & T & HD & He). destruct (free_setup cf a0 a W F NT Hs) as (Em & Wa & El & NTa & _).
  assert (Fa0 : inv_free a) by (intro i; rewrite (get_mode_eq a0 a i Em); apply F).
  assert (Hia : Forall (init_ok solve a) inits) by (eapply Forall_impl; [|exact Hinit]; intros s; apply init_ok_modes; exact Em).
  unfold run_ap in Hrun. destruct (negb (List.length inits =? 0)) eqn:El0; cbn [assert bind] in Hrun; [|discriminate]. rewrite Hs in Hrun. destruct (setup solve a inits) as [c0|] eqn:Es; [|discriminate].
  pose proof (setup_minv cf a inits c0 (seg0 a) Wa Fa0 Hia Es) as M0.
  destruct (minv_run solve Hsolve arnoldi cf a Wa Fa0 NTa Hnd (init_of_list inits) (seg0 a) (approx_of solve qexp (cf_step cf) ApChull a) (chull_ap qexp (cf_step cf) a Wa) fuel c0 c M0 Hrun) as [M Hfin].
  assert (Hf : flagged c = false) by (unfold flagged; rewrite Fa, Fc; reflexivity).
  destruct (dense_ent cf a0 a (init_of_list inits) W F NT HZ Hs) with (m := m) (p := p) (T := T) as (_ & _ & [(s & K1 & K2 & _)|(m1 & p1 & n & k & t & K1 & K2 & K3)]); auto.
  { intros m1 p1. eapply init_of_list_mode. exact Hinit. }
  - specialize (Hne s K1). rewrite K2 in Hne. congruence.
  - pose proof (ent_covered solve cf a (init_of_list inits) (seg0 a) c M Hfin Hf _ _ _ _ _ _ K1 K2) as K. rewrite <- K3 in K. rewrite (get_mode_eq a0 a m Em) in K. congruence.
Qed.
End P.

(** with APPROX_NONE the analysis is the one of CoreModel.v (C19 - C26) *)
Theorem C61_none_is_plain solve arnoldi qexp cf a0 inits fuel c : run_ap solve arnoldi qexp ApNone cf a0 inits fuel = Some (Ok c) -> run solve arnoldi cf a0 inits fuel = Some (Ok c).
Proof.
  unfold run_ap, run. destruct (bind (assert (negb (List.length inits =? 0))) (fun _ => setup_ha cf a0)) as [a|]; [|auto]. destruct (setup solve a inits) as [c0|]; [|auto].
  assert (Hap : forall s s', approx_of solve qexp (cf_step cf) ApNone a s = Ok s' -> s' = s).
  { intros s s' H. unfold approx_of in H. apply bind_ok in H as ([s1 o] & H & E). apply (C46_none solve a) in H as [-> _]. injection E as <-. reflexivity. }
  set (ap := approx_of solve qexp (cf_step cf) ApNone a) in *. clearbody ap.
  assert (HS : forall d d', do_step_ap solve arnoldi cf a ap d = Ok d' -> do_step solve arnoldi cf a d = Ok d').
  { intros d d'. unfold do_step_ap, do_step. destruct (is_finished cf d); [auto|]. destruct (cur_state d) as [[n i]|]; [auto|]. destruct (doing_replay d); [auto|]. destruct (get_deagg_node cf a d) as [[n|]|]; cbn [bind]; auto.
    assert (HP : forall d2, do_step_pop_ap solve arnoldi cf a ap d = Ok d2 -> do_step_pop solve arnoldi cf a d = Ok d2).
    { intros d2. unfold do_step_pop_ap, do_step_pop. destruct (pop_waiting_list solve arnoldi cf a d) as [[d1 n]|]; cbn [bind]; [|auto]. destruct (is_error _); [auto|]. destruct (intersect_state solve a d1 n _) as [[d3 [|]]|]; cbn [bind]; auto.
      intro H. apply bind_ok in H as (s & Hs & H). apply Hap in Hs. subst s. rewrite setS_same in H. exact H. }
    intro H. apply bind_ok in H as (d2 & H2 & H). rewrite (HP d2 H2). exact H. }
  clear Hap. revert c0. induction fuel as [|f IH]; intros c0 H; cbn [run_loop_ap run_loop] in *; (destruct (is_finished cf c0); [exact H|]); [exact H|].
  destruct (do_step_ap solve arnoldi cf a ap c0) as [c1|e] eqn:E; [|discriminate]. rewrite (HS c0 c1 E). apply IH. exact H.
Qed.

From Verif Require Import Solver Ex_Core Ex_Approx.
Open Scope nat_scope.
(** x doubles at every step, from 1; transition to the error mode when lo <= x <= hi *)
Definition exQ (lo hi : Q) : ha := mkHa [exL_mode false; exC_err] [exC_tr "t" 0 1 (mkCsr 1 [[(0, 1%Q)]; [(0, (-1)%Q)]], [hi; (- lo)%Q]) 0].
Definition exQ_l := Eval vm_compute in getr lp_new (from_box fm_solver [(1, 1)%Q] 0 false).
Definition exQ_s : sset := getr dss0 (new_stateset (exQ 0 0) exQ_l 0 0 0 None true).
Definition exQ_cf (urgent : bool) : cfg := mkCfg 2 1 urgent true true true false true false (Some (mkAgg ABox PAvg false true false DMost)).
Lemma exQ_wf lo hi : wf_ha (exQ lo hi).
Proof.
  split.
  - intros i Hi. destruct i as [|[|i]]; [|reflexivity|cbn in Hi; lia]. apply (proj1 (exL_wf false) 0). cbn. lia.
  - intros t Ht. destruct t as [|t]; [|cbn in Ht; lia]. unfold get_trans; cbn [nth ha_trans exQ exC_tr]. constructor; cbn [t_from t_to t_guard t_reset t_mink exQ exC_tr].
    + split; [cbn; lia|reflexivity].
    + cbn; lia.
    + eexists; eexists. split; [reflexivity|]. repeat constructor.
    + split; [exact Logic.I|discriminate].
    + split; [exact Logic.I|auto].
    + discriminate.
Qed.
Lemma exQ_l_api : api fm_solver exQ_l (Some (ident 1, 0, [], [])).
Proof.
  assert (H : from_box fm_solver [(1, 1)%Q] 0 false = Ok exQ_l) by (vm_compute; reflexivity). unfold from_box in H. apply bind_ok in H as (? & _ & H).
  change 1%nat with (l_dims exQ_l) at 1. eapply api_from_constraints; [| |exact H|cbn; lia]; [repeat constructor|exact Logic.I].
Qed.
Lemma exQ_init lo hi : Forall (init_ok fm_solver (exQ lo hi)) [exQ_s].
Proof.
  constructor; [|constructor]. exists exQ_l, 0. split; [cbn; lia|]. split; [vm_compute; reflexivity|]. cbn [get_mode exQ ha_modes nth m_a exL_mode]. split; [exact exQ_l_api|reflexivity].
Qed.
Lemma exQ_free lo hi : inv_free (exQ lo hi).
Proof. intros [|[|m]]; [reflexivity|reflexivity|]. unfold get_mode. cbn. destruct m; reflexivity. Qed.
Lemma exQ_zero u lo hi : zero_plain (exQ_cf u) (exQ lo hi).
Proof. intros _ m x Hm Hx Hz. destruct m as [|[|m]]; [|discriminate|cbn in Hm; lia]. cbn in Hx. injection Hx as <-. discriminate. Qed.
Lemma exQ_nd u : no_deagg (exQ_cf u).
Proof. intros g H. injection H as <-. reflexivity. Qed.
Lemma exQ_tt u lo hi : no_tt (exQ_cf u) (exQ lo hi).
Proof. intros _ t Ht. destruct t as [|t]; [reflexivity|cbn in Ht; lia]. Qed.
Definition exQ_a u lo hi := getr (mkHa [] []) (setup_ha (exQ_cf u) (exQ lo hi)).
Definition exQ_run u lo hi := run_ap fm_solver arn0 (fun q => q) ApChull (exQ_cf u) (exQ lo hi) [exQ_s] 20.
Definition exQ_c u lo hi : core := match exQ_run u lo hi with Some (Ok c) => c | _ => core0 end.
Definition exQ_okb u lo hi : bool := match exQ_run u lo hi with Some (Ok c) => negb (flagged c) | _ => false end.
Lemma exQ_ok u lo hi : exQ_okb u lo hi = true -> exists c, run_ap fm_solver arn0 (fun q => q) ApChull (exQ_cf u) (exQ lo hi) [exQ_s] 20 = Some (Ok c) /\ c_aggerr c = false /\ c_concerr c = false.
Proof. unfold exQ_okb, exQ_run. destruct (run_ap _ _ _ _ _ _ _ _) as [[c|]|]; try discriminate. intro H. apply negb_true_iff in H. apply orb_false_iff in H as [H1 H2]. exists c. auto. Qed.

(** With the default process_urgent_guards = False the first segment after entering a mode is never checked: the analysis ends without reporting an
    error although every trajectory passes through the guard of the error transition (at time 1/2). *)
Theorem C61_default_refuted : exists cf a0 a inits fuel c, wf_ha a0 /\ inv_free a0 /\ zero_plain cf a0 /\ no_deagg cf /\ no_tt cf a0 /\ setup_ha cf a0 = Ok a /\ Forall (init_ok fm_solver a0) inits /\
  (forall s, In s inits -> is_error (get_mode a0 (ss_mode s)) = false) /\ cf_urgent cf = false /\
  run_ap fm_solver arn0 (fun q => q) ApChull cf a0 inits fuel = Some (Ok c) /\ c_aggerr c = false /\ c_concerr c = false /\
  dense_error a0 (init_of_list inits) (cf_num cf) true.
Proof.
  destruct (exQ_ok false (5 # 4)%Q (7 # 4)%Q) as (c & Hr & F1 & F2); [vm_compute; reflexivity|].
  exists (exQ_cf false), (exQ (5 # 4) (7 # 4)), (exQ_a false (5 # 4) (7 # 4)), [exQ_s], 20, c.
  split; [apply exQ_wf|]. split; [apply exQ_free|]. split; [apply exQ_zero|]. split; [apply exQ_nd|]. split; [apply exQ_tt|]. split; [vm_compute; reflexivity|]. split; [apply exQ_init|].
  split; [intros s [<-|[]]; vm_compute; reflexivity|]. split; [reflexivity|]. split; [exact Hr|]. split; [exact F1|]. split; [exact F2|].
  exists 1, (fun _ => (3 # 2)%Q), (0 + inject_Z (Z.of_nat 0) + (1 # 2))%Q. split; [|reflexivity].
  apply (dn_jump (exQ (5 # 4) (7 # 4)) _ 2 true 0 (fun k _ => pow2 k) (fun _ _ => 0%Q) 0 0 (1 # 2) 0).
  - apply dn_init. exists exQ_s. split; [left; reflexivity|]. split; [vm_compute; reflexivity|].
    exists (fun i => 1%Q). split; [apply satb_ok; vm_compute; reflexivity|intros i Hi; vm_compute in Hi; destruct i; [reflexivity|lia]].
  - reflexivity.
  - intros k Hk. split; [intros q []|]. split; [exact Logic.I|]. intros i Hi. change (m_dims (get_mode (exQ (5 # 4) (7 # 4)) 0)) with 1 in Hi. change (m_bm (get_mode (exQ (5 # 4) (7 # 4)) 0) 1) with [[pow2 1]]. rewrite exL_app by exact Hi. change (m_b (get_mode (exQ (5 # 4) (7 # 4)) 0)) with (@None (csr * csr * list Q)). cbv match. change (pow2 (S k)) with (Qred (2 * pow2 k)). rewrite Qred_correct. change (pow2 1) with 2%Q. ring.
  - split; discriminate.
  - discriminate.
  - reflexivity.
  - cbn; lia.
  - reflexivity.
  - intros [|[|i]] r b Hr0 Hb0; [| |destruct i; discriminate]; (injection Hr0 as <-; injection Hb0 as <-; vm_compute; discriminate).
  - exists (fun _ => 0%Q). vm_compute. split; [exact Logic.I|]. intros [|i] Hi; [reflexivity|lia].
Qed.

(** Non-vacuity: runs that end without an error exist, with urgent guards (C61 then covers the first segment) and without *)
Example C61_witness u : exists a c, wf_ha (exQ 9 10) /\ inv_free (exQ 9 10) /\ zero_plain (exQ_cf u) (exQ 9 10) /\ no_deagg (exQ_cf u) /\ no_tt (exQ_cf u) (exQ 9 10) /\ setup_ha (exQ_cf u) (exQ 9 10) = Ok a /\
  Forall (init_ok fm_solver (exQ 9 10)) [exQ_s] /\ run_ap fm_solver arn0 (fun q => q) ApChull (exQ_cf u) (exQ 9 10) [exQ_s] 20 = Some (Ok c) /\ c_aggerr c = false /\ c_concerr c = false.
Proof.
  destruct (exQ_ok u 9 10) as (c & Hr & F1 & F2); [destruct u; vm_compute; reflexivity|]. exists (exQ_a u 9 10), c.
  split; [apply exQ_wf|]. split; [apply exQ_free|]. split; [apply exQ_zero|]. split; [apply exQ_nd|]. split; [apply exQ_tt|]. split; [destruct u; vm_compute; reflexivity|]. split; [apply exQ_init|]. auto.
Qed.
(** and the guard missed above is seen with urgent guards *)
Example C61_witness_urgent : match exQ_run true (5 # 4) (7 # 4) with Some (Ok c) => c_concerr c | _ => false end = true.
Proof. vm_compute. reflexivity. Qed.
