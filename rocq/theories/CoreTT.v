(** Time-triggered transitions: when the states that the optimisation discards are dead ends, and the final state of the analysis. *)
From Verif Require Import Base BaseFacts LpModel LpSpec SetSpec LpUtil LpFacts ChullFacts ApiSpec ApiFacts Automaton StateSet HybridSpec FlowFacts StateSpec
  StateFacts StateFacts2 StateFacts3 AutoFacts CoreModel HeapFacts CoreOps CoreGhost CoreHeap CoreInv CoreStep CoreCont CorePop CoreReplay CoreDeagg CoreSplit CoreMono CoreFlag CoreFinal
  CoreSpec CoreSetup CoreExt SkipZero SetupHa CoreDag3.
Open Scope nat_scope.

(** ** the relaxed guards admit all executions of the automaton *)
Lemma relaxed_guard_le inv eps t t' p : (0 <= eps)%Q -> relaxed inv eps t t' -> guard_ok t p -> guard_ok t' p.
Proof.
  intros He (_ & _ & _ & _ & _ & _ & R). unfold guard_ok. destruct (t_guard t) as [[g rhs]|], (t_guard t') as [[g' rhs']|]; try tauto. destruct R as (-> & L & R).
  unfold poly. intros HP i r c' Hr Hc'. destruct (nth_error rhs i) as [b|] eqn:Eb.
  - destruct (R i b Eb) as (b' & Hb' & Hc). rewrite Hb' in Hc'. injection Hc' as <-. specialize (HP i r b Hr Eb). destruct Hc as [-> | (-> & _)]; [exact HP|]. lra.
  - apply nth_error_None in Eb. assert (nth_error rhs' i = None) by (apply nth_error_None; lia). congruence.
Qed.
Lemma detect_sup a h N a' ru init lax : (0 <= h)%Q -> detect_tt a h N = Ok a' -> error_reachable lax ru a init -> error_reachable lax ru a' init.
Proof.
  intros Hh H. apply detect_tt_ok in H as (Em & El & HR). assert (EM : forall i, get_mode a' i = get_mode a i) by (intro; apply get_mode_eq; auto).
  assert (He : (0 <= h / inject_Z (Z.of_nat N) / 1000)%Q).
  { unfold Qdiv. assert (K : (0 <= / inject_Z (Z.of_nat N))%Q) by (apply Qinv_le_0_compat; change 0%Q with (inject_Z 0); rewrite <- Zle_Qle; lia). repeat apply Qmult_le_0_compat; auto. discriminate. }
  assert (G : forall t p, t < List.length (ha_trans a) -> guard_ok (get_trans a t) p -> guard_ok (get_trans a' t) p) by (intros t p Ht; apply (relaxed_guard_le _ _ _ _ _ He (HR t Ht))).
  assert (HRe : forall m p k n, reach lax ru a init m p k n -> reach lax ru a' init m p k n).
  { induction 1 as [m p Hi Hv|m p k n u p' H IH Hv Hn Hc Hu Ho|t p p' k n Ht H IH Hg Hj Hr].
    - apply R_init; rewrite ?EM; auto.
    - apply R_step with p u; rewrite ?EM; auto.
    - destruct (HR t Ht) as (_ & R1 & R2 & R3 & R4 & R5). rewrite <- R2. apply R_jump with p k; rewrite ?El, ?R1, ?EM; auto.
      unfold reset_ok, post_dims in *. rewrite R1, R3, R4, EM. exact Hr. }
  intros (t & p & k & n & Ht & Hee & HRr & Hg & Hj). destruct (HR t Ht) as (_ & R1 & R2 & R3 & R4 & R5). exists t, p, k, n. rewrite El, R1, R2, !EM. auto 10.
Qed.
Lemma setup_sup cf a0 a ru init : (0 <= cf_step cf)%Q -> wf_ha a0 -> setup_ha cf a0 = Ok a -> error_reachable 0 ru a0 init -> error_reachable 0 ru a init.
Proof.
  intros Hh W H HE. unfold setup_ha in H. apply bind_ok in H as (a1 & H1 & H). apply bind_ok in H as (a2 & H2 & H). apply bind_ok in H as (? & _ & H). injection H as <-.
  assert (A : wf_ha a1 /\ error_reachable 0 ru a1 init).
  { destruct (cf_tt cf); [|injection H1 as <-; auto]. split; [eapply detect_wf; eauto|]. eapply detect_sup; eauto. }
  destruct A as (A2 & A3). destruct (cf_gs cf); [|injection H2 as <-; auto]. apply (gs_error_sup a1 a2 A2 H2). exact A3.
Qed.

(** ** the executions followed by the analysis are executions of the automaton *)
Section Exec.
Variable solve : solver.
Variable cf : cfg.
Variable a : ha.
Variable ru : rules.
Variable init : nat -> vec -> Prop.
Variable c0 : core.
Hypothesis P0 : pre solve a c0.
Hypothesis Hi0 : forall o p, I0_of c0 o p -> init (pmode c0 o) p.

Lemma Tn_reach c : heap_ok solve a ru (I0_of c0) c -> ext c0 c ->
  (forall N k x n, Tn a ru (I0_of c0) c N k x n -> (k = 0 -> inv_ok 0 (get_mode a (nmode c N)) x) -> reach 0 ru a init (nmode c N) x k n) /\
  (forall o x n, To a ru (I0_of c0) c o x n -> inv_ok 0 (get_mode a (pmode c o)) x -> reach 0 ru a init (pmode c o) x 0 n).
Proof.
  intros H X. apply (TnTo_ind a ru (I0_of c0) c (fun N k x n _ => (k = 0 -> inv_ok 0 (get_mode a (nmode c N)) x) -> reach 0 ru a init (nmode c N) x k n)
    (fun o x n _ => inv_ok 0 (get_mode a (pmode c o)) x -> reach 0 ru a init (pmode c o) x 0 n)).
  - intros N o x n HN Ho _ IH Hv. specialize (Hv eq_refl). destruct (h_par _ _ _ _ _ H N HN) as (_ & _ & K). destruct (K o Ho) as (_ & Em & _). rewrite <- Em in *. apply IH. exact Hv.
  - intros N k x n u x' _ IH Hv Hn Hc Hu Hs _. apply R_step with x u; auto.
  - intros o x Ho Hp HI Hv. destruct HI as [HI1 HI2]. destruct (ex_op _ _ X o HI1) as (_ & E2 & _ & E4).
    assert (Em : pmode c o = pmode c0 o) by (apply pmode_ext; auto; rewrite (p_op _ _ _ P0 o HI1); cbn [o_post]; pose proof (p_n _ _ _ P0); lia).
    rewrite Em in *. apply R_init; [|exact Hv]. apply Hi0. split; auto.
  - intros o M t y x n Ho Hp Ht HT IH Hg Hj Hr Hv. pose proof (h_op _ _ _ _ _ H o Ho) as K. unfold op_ok in K. rewrite Hp, Ht in K. destruct K as (_ & _ & t' & K1 & K2 & K3 & K4). injection K1 as <-.
    rewrite <- K4. apply R_jump with y (o_step (getO c o)); auto; rewrite K3; [|exact Hj]. apply IH. intro E0. destruct Hj as [[Hj|[_ Hj]] _]; [lia|exact Hj].
Qed.
End Exec.

(** ** the time-triggered transitions that end a mode *)
(** Every invariant condition that a guard of a time-triggered transition (one that Core.setup marked) negates grows in every time step of
    every execution by at least twice the tolerance with which the analysis recognises the boundary, 4/1000 of the step size over the number of steps. *)
Definition tt_moves (cf : cfg) (a : ha) (ru : rules) (init : nat -> vec -> Prop) : Prop :=
  forall t g rhs i r ic p k n u p', t < List.length (ha_trans a) -> t_tt (get_trans a t) = true -> t_guard (get_trans a t) = Some (g, rhs) -> nth_error (c_rows g) i = Some r ->
    In ic (m_inv (get_mode a (t_from (get_trans a t)))) -> (forall q, reval r q == - reval (lc_row ic) q)%Q ->
    reach 0 ru a init (t_from (get_trans a t)) p k n -> inv_ok 0 (get_mode a (t_from (get_trans a t))) p ->
    input_ok (get_mode a (t_from (get_trans a t))) u -> one_step (get_mode a (t_from (get_trans a t))) p u p' ->
    (reval (lc_row ic) p + 4 * cf_step cf / inject_Z (Z.of_nat (cf_num cf)) / 1000 <= reval (lc_row ic) p')%Q.

Section Final.
Variable solve : solver.
Hypothesis Hsolve : solver_ok solve.
Variable arnoldi : nat -> option (list Q) -> csr -> option csr -> nat -> list (list Q).

Lemma stuck_moves cf a ru ru1 (init : nat -> vec -> Prop) c0 : pre solve a c0 -> (forall o p, I0_of c0 o p -> init (pmode c0 o) p) -> ru_strict ru = true ->
  (forall m p k n, reach 0 ru a init m p k n -> reach 0 ru1 a init m p k n) -> tt_moves cf a ru1 init ->
  forall c N t l g rhs k x n u x', heap_ok solve a ru (I0_of c0) c -> ext c0 c -> t < List.length (ha_trans a) -> cf_tt cf && t_tt (get_trans a t) = true ->
  t_from (get_trans a t) = nmode c N -> t_guard (get_trans a t) = Some (g, rhs) ->
  tt_row (get_mode a (nmode c N)) l (2 * cf_step cf / inject_Z (Z.of_nat (cf_num cf)) / 1000) (c_rows g) rhs -> in_lp l x -> Tn a ru (I0_of c0) c N k x n ->
  inv_ok 0 (get_mode a (nmode c N)) x -> input_ok (get_mode a (nmode c N)) u -> one_step (get_mode a (nmode c N)) x u x' -> stuck a ru (nmode c N) x'.
Proof.
  intros P0 Hi0 Hst Hru HM c N t l g rhs k x n u x' H X Ht Htt Hfr Hg (i & r & b & ic & E1 & E2 & E3 & E4 & E5 & E6 & E7) Hin HT Hv Hu Hs.
  apply andb_true_iff in Htt as [_ Htt]. rewrite <- Hfr in *.
  assert (HR : reach 0 ru1 a init (t_from (get_trans a t)) x k n).
  { rewrite Hfr. apply Hru. apply (proj1 (Tn_reach solve a ru init c0 P0 Hi0 c H X) N k x n HT). intros _. rewrite <- Hfr. exact Hv. }
  assert (Hm := HM t g rhs i r ic x k n u x' Ht Htt Hg E1 E3 E5 HR Hv Hu Hs).
  specialize (E7 x Hin). rewrite (E5 x) in E7. apply Qabs_Qlt_condition in E4 as [E4 E4'].
  set (eps := (2 * cf_step cf / inject_Z (Z.of_nat (cf_num cf)) / 1000)%Q) in *.
  assert (E : (4 * cf_step cf / inject_Z (Z.of_nat (cf_num cf)) / 1000 == eps + eps)%Q) by (unfold eps, Qdiv; ring). rewrite E in Hm.
  assert (Hno : ~ inv_ok 0 (get_mode a (t_from (get_trans a t))) x').
  { intro K. specialize (K ic E3). set (v := reval (lc_row ic) x) in *. set (w := reval (lc_row ic) x') in *. clearbody eps v w. destruct K as [K|K]; lra. }
  split; [exact Hno|]. intros t' k' _ _ _ [_ K]. apply Hno. apply K. exact Hst.
Qed.

Definition srules (strict : bool) (cf : cfg) (a : ha) : rules :=
  mkRules (cf_urgent cf) (cf_num cf) (fun m => match m_a (get_mode a m) with Some x => (nnz x =? 0) && cf_skip0 cf | None => false end) strict.

Lemma core_final_gen strict cf a0 a inits fuel c :
  wf_ha a0 -> (forall m, m < List.length (ha_modes a0) -> m_b (get_mode a0 m) <> None -> m_inv (get_mode a0 m) = []) ->
  (forall g, cf_strat cf = Some g -> ag_deagg g = true -> ag_path g = true) -> setup_ha cf a0 = Ok a -> Forall (init_ok solve a0) inits ->
  (forall t, t < List.length (ha_trans a) -> cf_tt cf && t_tt (get_trans a t) = false) \/
  (strict = true /\ tt_moves cf a (mkRules (cf_urgent cf) (cf_num cf) (fun _ => false) true) (init_of_list inits) /\
   forall c, reached solve arnoldi cf a inits c -> c_cur c = None -> c_tt c = false) ->
  run solve arnoldi cf a0 inits fuel = Some (Ok c) -> ~ bad cf c ->
  exists I0 D, wf_ha a /\ base solve cf a (srules strict cf a) I0 D (fun _ => False) [] c /\ c_wait c = [] /\ (forall N, N < nN c -> done a (srules strict cf a) I0 c N) /\
    (forall m x, err a m = false -> init_of_list inits m x -> inv_ok 0 (get_mode a m) x -> exists o, o < nO c /\ o_parent (getO c o) = None /\ pmode c o = m /\ I0 o x).
Proof.
  intros W0 Hinp Hpath Hs Hinit Htt Hrun Hb. destruct (setup_ha_ok cf a0 a W0 Hs) as (Em & W & _).
  unfold run in Hrun. assert (E0 : (do _ <- assert (negb (List.length inits =? 0)); setup_ha cf a0) = Ok a).
  { destruct (assert _) as [u|e] eqn:Ea; cbn [bind] in *; [exact Hs|]. discriminate. }
  rewrite E0 in Hrun. destruct (setup solve a inits) as [c0|e] eqn:Esu; [|discriminate].
  assert (Hinit' : Forall (init_ok solve a) inits) by (eapply Forall_impl; [|exact Hinit]; intros s Hsx; eapply init_ok_modes; eauto).
  assert (Hinp' : forall m, m < List.length (ha_modes a) -> m_b (get_mode a m) <> None -> m_inv (get_mode a m) = []). { intros m Hm. rewrite (get_mode_eq a0 a m Em). apply Hinp. rewrite <- Em. exact Hm. }
  destruct (setup_ok solve Hsolve a W Hinp' inits c0 Hinit' Esu) as (P & K1 & K2).
  set (ru := srules strict cf a). assert (HI := pre_INV solve cf a ru c0 P).
  assert (Hcap : forall m x, m_a (get_mode a m) = Some x -> ru_cap ru m = (nnz x =? 0) && cf_skip0 cf) by (intros m x Hx; cbn [ru ru_cap srules]; rewrite Hx; reflexivity).
  assert (HX : INV solve cf a ru (I0_of c0) c /\ is_finished cf c = true).
  { destruct Htt as [Hno|(Est & HM & Hcl)].
    - assert (Hno' : forall t, cf_tt cf && t_tt (get_trans a t) = false).
      { intro t. destruct (Nat.lt_ge_cases t (List.length (ha_trans a))) as [L|L]; [apply Hno; auto|]. unfold get_trans. rewrite nth_overflow by auto. apply andb_false_r. }
      apply (run_loop_ok solve Hsolve arnoldi cf a W ru (I0_of c0) Hinp' c0) with (P := fun c => ext c0 c /\ c_tt c = false) (fuel := fuel) (c := c0); auto.
      + intros c1 N t l g rhs k x n u x' _ _ _ K. rewrite Hno' in K. discriminate.
      + intros c1 c2 [X1 T1] Hst. split; [eapply ext_trans; [exact X1|]; eapply ext_step; eauto|]. exact (tts_step solve arnoldi cf a Hno' _ _ Hst T1).
      + intros c1 [X1 _]. exact X1.
      + intros c1 [_ T1] _. exact T1.
      + split; [apply ext_refl|apply (p_tt _ _ _ P)].
    - apply (run_loop_ok solve Hsolve arnoldi cf a W ru (I0_of c0) Hinp' c0) with (P := fun c => reached solve arnoldi cf a inits c /\ ext c0 c) (fuel := fuel) (c := c0); auto.
      + apply (stuck_moves cf a ru (mkRules (cf_urgent cf) (cf_num cf) (fun _ => false) true) (init_of_list inits) c0 P); auto.
        * intros o p Hp. apply (K2 o p Hp).
        * intros m p k n. unfold ru. rewrite Est. induction 1 as [m p Hi Hv|m p k n u p' H IH Hv Hn Hc Hu Ho|t p p' k n Ht H IH Hg Hj Hr].
          -- apply R_init; auto.
          -- apply R_step with p u; auto. discriminate.
          -- apply R_jump with p k; auto.
      + intros c1 c2 [R1 X1] Hst. split; [eapply r_step; eauto|]. eapply ext_trans; [exact X1|]. eapply ext_step; eauto.
      + intros c1 [_ X1]. exact X1.
      + intros c1 [R1 _]. apply Hcl. exact R1.
      + split; [apply r_setup; exact Esu|apply ext_refl]. }
  destruct HX as [HI' Hfin].
  destruct (finished_done solve cf a ru (I0_of c0) c HI' Hb Hfin) as (D & B & Hw & _ & Hd).
  exists (I0_of c0), D. split; [exact W|]. split; [exact B|]. split; [exact Hw|]. split; [exact Hd|].
  intros m x He Hix Hv. destruct (K1 m x Hix Hv) as (o & Ho & Hp & Hm & HIo).
  assert (X : ext c0 c) by (eapply ext_run; eauto).
  exists o. destruct (ex_op _ _ X o Ho) as (_ & E2 & _ & E4). split; [pose proof (ex_nO _ _ X); lia|]. split; [congruence|]. split; [|exact HIo].
  rewrite <- Hm. apply pmode_ext; auto. rewrite (p_op _ _ _ P o Ho). cbn [o_post]. pose proof (p_n _ _ _ P). lia.
Qed.
End Final.
