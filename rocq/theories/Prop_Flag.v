(** C44: what the flag took_tt_transition guarantees while it is not stale. *)
From Verif Require Import Base BaseFacts LpModel LpSpec SetSpec LpUtil LpFacts OpsFacts4 Automaton StateSet HybridSpec AutoFacts BuildFacts StateFacts CoreModel HeapFacts CoreOps CorePop CoreExt CoreCont CoreDag CoreDag2 CoreDag3 CoreLive CoreLive2 CoreFlag Prop_Automaton.
Open Scope nat_scope.

Section Flag.
Variable solve : solver.
Hypothesis Hsolve : solver_ok solve.
Variable arnoldi : nat -> option (list Q) -> csr -> option csr -> nat -> list (list Q).
Variable cf : cfg.
Variable a : ha.
Hypothesis WH : wf_ha a.

(** the same LP up to the objective *)
Definition sameobj (l l' : lp) : Prop := exists o, l' = with_obj l o.
Lemma sameobj_refl l : sameobj l l. Proof. exists (l_obj l). destruct l; reflexivity. Qed.
Lemma sameobj_trans l1 l2 l3 : sameobj l1 l2 -> sameobj l2 l3 -> sameobj l1 l3.
Proof. intros [o ->] [o' ->]. exists o'. reflexivity. Qed.

Lemma guard_rows_obj w rows : forall rhs l l1 b, guard_rows_sat solve l w rows rhs = Ok (l1, b) -> sameobj l l1.
Proof.
  induction rows as [|r rows IH]; intros rhs l l1 b H; cbn [guard_rows_sat] in H; [apply ok_inj in H; injection H as <- _; apply sameobj_refl|].
  apply bind_ok in H as (l2 & H2 & H). assert (S2 : sameobj l l2).
  { unfold set_min_dir_csr in H2. apply bind_ok in H2 as (off & _ & H2). apply bind_ok in H2 as (u & _ & H2). apply ok_inj in H2. subst l2. eexists; reflexivity. }
  apply bind_ok in H as (v & _ & H). destruct v as [vals|]; [|apply ok_inj in H; injection H as <- _; exact S2]. destruct rhs as [|b0 rhs]; [discriminate|].
  destruct (Qle_bool _ _); [|apply ok_inj in H; injection H as <- _; exact S2]. eapply sameobj_trans; [exact S2|eauto].
Qed.
Lemma ggi_obj t l r : get_guard_intersection solve t l = Ok r -> sameobj l (fst r).
Proof.
  unfold get_guard_intersection. intro H. destruct (t_guard t) as [[g rhs]|]; [|discriminate]. apply bind_ok in H as ([l1 b] & H1 & H). apply guard_rows_obj in H1.
  destruct b; [|apply ok_inj in H; subst r; exact H1]. apply bind_ok in H as (l2 & _ & H). apply bind_ok in H as (l3 & _ & H). apply bind_ok in H as (f & _ & H). apply ok_inj in H. subst r. exact H1.
Qed.

Definition lpi_of (c : core) (sid : nat) : lp := ss_lpi (getS c sid).
Lemma set_lpi c sid l : sid < nS c -> lpi_of (setS c sid (ss_with_lpi (getS c sid) l)) sid = l.
Proof. intro H. unfold lpi_of. rewrite getS_set_eq by exact H. reflexivity. Qed.
Lemma add_lpi c t l sid nid c' : sid < nS c -> add_transition_successor solve cf a c t l sid nid = Ok c' -> lpi_of c' sid = lpi_of c sid.
Proof.
  unfold add_transition_successor, make_op_transition. intros Hs H. apply bind_ok in H as ([c1 o] & H1 & H).
  assert (E : getS c1 sid = getS c sid).
  { apply bind_ok in H1 as (p & _ & H1). destruct p as [[l1 ctr]|]; [|apply ok_inj in H1; injection H1 as <- _; reflexivity].
    apply bind_ok in H1 as (l2 & _ & H1). apply bind_ok in H1 as (f & _ & H1). apply bind_ok in H1 as (u & _ & H1). apply bind_ok in H1 as (s & _ & H1). apply ok_inj in H1. injection H1 as <- _.
    change (getS (with_states c (c_states c ++ [s])) sid = getS c sid). rewrite getS_add. destruct (Nat.eqb_spec sid (nS c)); [lia|reflexivity]. }
  unfold lpi_of. destruct o as [o|]; apply ok_inj in H; subst c'; [|congruence]. change (ss_lpi (getS c1 sid) = ss_lpi (getS c sid)). congruence.
Qed.

(** some time-triggered transition of ts is decided as taken for a set equal to l *)
Definition decided (ts : list nat) (l : lp) : Prop := exists t l0 l1, In t ts /\ t_tt (get_trans a t) = true /\ cf_tt cf = true /\
  sameobj l0 l /\ was_tt_taken solve a l0 (get_trans a t) (cf_step cf) (cf_num cf) = Ok (l1, true).

Lemma guards_flag nid sid m ts : (forall t, In t ts -> In t (out_trans a m)) -> forall c c', sid < nS c -> check_guards_loop solve cf a c nid sid ts = Ok c' ->
  sameobj (lpi_of c sid) (lpi_of c' sid) /\ (c_tt c = false -> c_tt c' = true -> decided ts (lpi_of c' sid)).
Proof.
  induction ts as [|t ts IH]; intros Hts c c' Hs H; cbn [check_guards_loop] in H; [apply ok_inj in H; subst c'; split; [apply sameobj_refl|congruence]|].
  assert (Hts' : forall t, In t ts -> In t (out_trans a m)) by (intros; apply Hts; right; auto).
  assert (Dw : forall l, decided ts l -> decided (t :: ts) l) by (intros l (t' & l0 & l1 & I & R); exists t', l0, l1; split; [right; exact I|exact R]).
  apply bind_ok in H as (r & H0 & H). set (c1 := setS c sid _) in H. assert (S1 : sameobj (lpi_of c sid) (lpi_of c1 sid)) by (unfold c1; rewrite set_lpi by exact Hs; apply (ggi_obj _ _ _ H0)).
  assert (N1 : sid < nS c1) by (pose proof (ex_nS _ _ (ext_lpi c sid (fst r))); unfold c1; lia). assert (T1 : c_tt c1 = c_tt c) by reflexivity.
  destruct (snd r) as [l|]; [|destruct (IH Hts' _ _ N1 H) as [A B]; split; [eapply sameobj_trans; eauto|rewrite T1 in B; auto]].
  apply bind_ok in H as (c2 & H2 & H).
  assert (E2 : (c_states c2 = c_states c1) /\ c_tt c2 = c_tt c1).
  { destruct (is_error _) in H2; [apply error_reached_ok in H2 as (ag & co & ce & -> & _); split; reflexivity|apply ok_inj in H2; subst; auto]. }
  destruct E2 as [E2 T2]. assert (G2 : lpi_of c2 sid = lpi_of c1 sid) by (unfold lpi_of, getS; rewrite E2; reflexivity).
  destruct (_ && _) in H; [apply ok_inj in H; subst c'; rewrite G2; split; [exact S1|congruence]|].
  apply bind_ok in H as (c3 & H3 & H). assert (N2 : sid < nS c2) by (rewrite E2; exact N1). assert (G3 := add_lpi _ _ _ _ _ _ N2 H3). assert (N3 := ex_nS _ _ (ext_add solve cf a _ _ _ _ _ _ H3)).
  assert (T3 := tts_add solve cf a _ _ _ _ _ _ H3). unfold tts in T3. apply bind_ok in H as (c4 & H4 & H).
  assert (S3 : sameobj (lpi_of c sid) (lpi_of c3 sid)) by (rewrite G3, G2; exact S1).
  assert (K4 : sameobj (lpi_of c3 sid) (lpi_of c4 sid) /\ sid < nS c4 /\ (c_tt c3 = false -> c_tt c4 = true -> decided (t :: ts) (lpi_of c4 sid))).
  { destruct (cf_tt cf && t_tt (get_trans a t)) eqn:Ec; [|apply ok_inj in H4; subst c4; split; [apply sameobj_refl|split; [lia|congruence]]].
    apply andb_prop in Ec as [Ec1 Ec2]. apply bind_ok in H4 as ([l1 b] & Hw & H4). cbn [fst snd] in H4. apply ok_inj in H4.
    assert (Ht : t < List.length (ha_trans a)) by (eapply out_trans_spec, Hts; left; reflexivity).
    destruct (was_tt_taken_ok solve Hsolve a _ _ _ _ _ _ WH (proj2 WH t Ht) Hw) as [So _].
    assert (G4 : lpi_of c4 sid = l1) by (destruct b; subst c4; [change (lpi_of (setS c3 sid (ss_with_lpi (getS c3 sid) l1)) sid = l1)|]; apply set_lpi; lia).
    assert (N4 : nS c4 = nS c3) by (destruct b; subst c4; [change (nS (setS c3 sid (ss_with_lpi (getS c3 sid) l1)) = nS c3)|]; apply nS_setS).
    split; [rewrite G4; exact So|]. split; [lia|]. intros F1 F2. destruct b; [|subst c4; cbn in F2; congruence].
    exists t, (ss_lpi (getS c3 sid)), l1. split; [left; reflexivity|]. split; [auto|]. split; [auto|]. split; [rewrite G4; exact So|exact Hw]. }
  destruct K4 as (S4 & N4 & D4). destruct (IH Hts' _ _ N4 H) as [A B]. split; [eapply sameobj_trans; [exact S3|]; eapply sameobj_trans; eauto|].
  intros F1 F2. destruct (c_tt c4) eqn:F4.
  - destruct (D4 ltac:(congruence) eq_refl) as (t' & l0 & l1 & I1 & I2 & I3 & I4 & I5). exists t', l0, l1. split; [exact I1|]. split; [exact I2|]. split; [exact I3|]. split; [eapply sameobj_trans; eauto|exact I5].
  - apply Dw. auto.
Qed.

(** One step that raises the flag while a current state remains: a time-triggered transition of that state's mode was decided as taken
    for exactly that state's set. *)
Lemma flag_owner inits c c1 n s : reached solve arnoldi cf a inits c -> c_tt c = false -> do_step solve arnoldi cf a c = Ok c1 -> c_tt c1 = true ->
  cur_state c1 = Some (n, s) -> decided (out_trans a (ss_mode (getS c1 s))) (lpi_of c1 s).
Proof.
  intros R F0 H F1 Hcur. assert (V := linv_reached _ _ _ _ _ _ R). assert (D := ci_dag _ _ _ (li_cinv _ _ _ V)). unfold do_step in H.
  assert (Cs : forall c0 n0 s0, cur_state c0 = Some (n0, s0) -> c_cur c0 = Some n0 /\ s0 = n_state (getN c0 n0)).
  { intros c0 n0 s0 K. unfold cur_state in K. destruct (c_cur c0) as [k|]; [|discriminate]. destruct (left_inv c0 k); [discriminate|]. injection K as -> <-. auto. }
  assert (Main : forall c2 c' nid sid, linv cf a c2 -> c_cur c2 = Some nid -> sid = n_state (getN c2 nid) -> forall c2' , ext c2 c2' -> c_cur c2' = c_cur c2 -> dag cf a (rep_map c2) c2' -> c_tt c2' = false ->
     check_guards solve cf a c2' nid sid = Ok c' -> c_tt c' = true -> forall n s, c_cur c' = Some n -> s = n_state (getN c' n) -> decided (out_trans a (ss_mode (getS c' s))) (lpi_of c' s)).
  { clear V D R F0 H F1 Hcur. clear n s. intros c2 c' nid sid V2 Hc2 Hsid c2' E2 Ec D2 F G F' n s Hn Hs. unfold check_guards in G. assert (Hlt : nid < nN c2) by (apply (ci_cur _ _ _ (li_cinv _ _ _ V2)); exact Hc2).
    assert (Hlt' : nid < nN c2') by (pose proof (ex_nN _ _ E2); lia).
    assert (En : n_state (getN c2' nid) = sid) by (rewrite Hsid; apply (ex_node _ _ E2); exact Hlt).
    destruct (d_parents _ _ _ _ D2 nid Hlt') as (_ & _ & Hsn & _). rewrite En in Hsn. assert (X := ext_guards solve cf a _ _ _ _ _ G).
    assert (P2 := proj2 (dag_guards solve cf a _ _ _ _ _ _ D2 Hlt' G)). rewrite (pf_cur _ _ P2), Ec, Hc2 in Hn. injection Hn as <-.
    assert (Es : s = sid) by (rewrite Hs, (proj1 (ex_node _ _ X nid Hlt')); exact En). rewrite Es. clear Hs Es s.
    destruct (guards_flag nid sid _ _ (fun t K => K) _ _ Hsn G) as [_ B]. specialize (B F F'). rewrite (proj1 (ex_mode _ _ X sid Hsn)). exact B. }
  destruct (is_finished cf c); [apply ok_inj in H; congruence|]. destruct (cur_state c) as [[nid sid]|] eqn:Ec.
  - apply bind_ok in H as (c2 & H2 & H). apply ok_inj in H. subst c1. destruct (Cs _ _ _ Hcur) as [K1 K2]. change (c_cur c2 = Some n) in K1. change (s = n_state (getN c2 n)) in K2.
    change (c_tt c2 = true) in F1. change (decided (out_trans a (ss_mode (getS c2 s))) (lpi_of c2 s)). destruct (Cs _ _ _ Ec) as [C1 C2].
    unfold continuous_post in H2. destruct (_ <=? _) in H2; [apply ok_inj in H2; subst c2; discriminate|]. rewrite F0 in H2.
    apply bind_ok in H2 as ([c3 ok] & H3 & H2). destruct (dag_intersect solve cf a _ _ _ _ _ _ D H3) as [D3 P3]. assert (X3 := ext_intersect solve a _ _ _ _ _ H3). assert (T3 := tts_intersect solve a _ _ _ _ _ H3). unfold tts in T3.
    destruct (negb ok) in H2; [apply ok_inj in H2; subst c2; discriminate|]. apply bind_ok in H2 as (s1 & Hs1 & H2). apply bind_ok in H2 as (c4 & H4 & H2).
    assert (Kp := keeps_set c3 sid s1 (f2_step _ _ _ _ Hs1)). destruct (m_a _) in H2; [|discriminate]. destruct (_ && _) in H2; apply ok_inj in H2; [subst c2; discriminate|]. subst c4.
    refine (Main c c2 nid sid V C1 C2 (setS c3 sid s1) _ _ _ _ H4 F1 n s K1 K2).
    + eapply ext_trans; [exact X3|apply ext_set2; apply (f2_step _ _ _ _ Hs1)].
    + change (c_cur c3 = c_cur c). apply P3.
    + eapply dag_k; [exact D3|exact Kp].
    + change (c_tt c3 = false). congruence.
  - assert (Hcu : c_cur c = None). { unfold cur_state in Ec. destruct (c_cur c) as [k|] eqn:En; [|auto]. destruct (li_cur _ _ _ V k En) as (_ & K & _). rewrite K in Ec. discriminate. }
    destruct (doing_replay c) eqn:Er.
    { apply tts_step_replay in H. unfold tts in H. congruence. }
    apply bind_ok in H as ([k|] & _ & H).
    { apply bind_ok in H as (c2 & H2 & H). apply tts_begin in H2. apply tts_step_replay in H. unfold tts in *. congruence. }
    apply bind_ok in H as (c2 & H2 & H). assert (T2 := tts_step_pop solve arnoldi cf a _ _ H2). unfold tts in T2.
    unfold doing_replay in Er. destruct (c_rep c) eqn:Erp; [discriminate|]. destruct (c_dwait c) eqn:Edw; [|discriminate].
    assert (V2 := linv_step_pop _ _ _ _ _ _ V Hcu Erp Edw H2).
    destruct (cur_state c2) as [[nid sid]|] eqn:Ec2; [|apply ok_inj in H; congruence]. destruct (cf_urgent cf); [|apply ok_inj in H; congruence].
    destruct (Cs _ _ _ Ec2) as [C1 C2]. destruct (Cs _ _ _ Hcur) as [K1 K2]. refine (Main c2 c1 nid sid V2 C1 C2 c2 _ eq_refl _ _ H F1 n s K1 K2).
    + apply ext_refl.
    + apply (ci_dag _ _ _ (li_cinv _ _ _ V2)).
    + congruence.
Qed.

(** C44, as far as it holds: at any point of a run where the flag is clear, if the next step raises it and leaves a state current, then that
    state itself made a time-triggered transition: it is at the boundary of the guard of a transition of its mode in the sense of C28; if
    its time bound is not reached, the step after that discards exactly this state and clears the flag.
    Missing, and false (C44_tt_flag_refuted): a flag raised in the last step before the time bound, or by a mode with zero dynamics, stays
    raised and discards whatever state comes next. *)
Theorem C44_flag_partial inits c c1 n s : reached solve arnoldi cf a inits c -> c_tt c = false -> do_step solve arnoldi cf a c = Ok c1 -> c_tt c1 = true ->
  cur_state c1 = Some (n, s) ->
  let eps := (2 * cf_step cf / inject_Z (Z.of_nat (cf_num cf)) / 1000)%Q in
  let st := ss_lpi (getS c1 s) in
  (exists t g rhs i r b ic, t < List.length (ha_trans a) /\ t_from (get_trans a t) = ss_mode (getS c1 s) /\ t_tt (get_trans a t) = true /\
     t_guard (get_trans a t) = Some (g, rhs) /\ nth_error (c_rows g) i = Some r /\ nth_error rhs i = Some b /\
     In ic (m_inv (get_mode a (ss_mode (getS c1 s)))) /\ (Qabs (lc_rhs ic + b) < eps)%Q /\ (forall p, reval r p == - reval (lc_row ic) p)%Q /\
     (forall p q, in_lp st p -> in_lp st q -> (Qabs (reval r p - reval r q) < eps)%Q) /\
     (forall p, in_lp st p -> (reval r p < b + eps)%Q)) /\
  (is_finished cf c1 = false -> ss_lo (getS c1 s) < cf_num cf ->
     exists c2, do_step solve arnoldi cf a c1 = Ok c2 /\ c_tt c2 = false /\ cur_state c2 = None /\ c_wait c2 = c_wait c1 /\ c_states c2 = c_states c1 /\
       n_ops (getN c2 n) = n_ops (getN c1 n) ++ [NLeft (ss_step (getS c1 s)) false]).
Proof.
  intros R F0 H F1 Hcur eps st. split.
  - destruct (flag_owner _ _ _ _ _ R F0 H F1 Hcur) as (t & l0 & l1 & I1 & I2 & I3 & [o Eo] & I5). apply out_trans_spec in I1 as [Lt I1].
    destruct (C28_tt_taken_means_at_boundary solve Hsolve a l0 t _ _ l1 WH Lt I5) as [_ (g & rhs & i & r & b & ic & G1 & G2 & G3 & G4 & G5 & G6 & G7 & G8)].
    assert (El : forall p, in_lp st p -> in_lp l0 p). { intros p Hp. unfold lpi_of in Eo. unfold st in Hp. rewrite Eo in Hp. exact (proj1 (in_lp_with_obj _ _ _) Hp). }
    exists t, g, rhs, i, r, b, ic. rewrite <- I1. auto 20.
  - intros Nf Hlt. assert (R1 := r_step _ _ _ _ _ _ _ R H). assert (V1 := linv_reached _ _ _ _ _ _ R1).
    unfold do_step. rewrite Nf, Hcur. unfold continuous_post. replace (cf_num cf <=? ss_lo (getS c1 s)) with false by (symmetry; apply Nat.leb_gt; exact Hlt). rewrite F1. cbn [bind].
    eexists. split; [reflexivity|]. split; [reflexivity|]. split; [reflexivity|]. split; [reflexivity|]. split; [reflexivity|].
    assert (Hn : n < nN c1). { unfold cur_state in Hcur. destruct (c_cur c1) as [k|] eqn:Ek; [|discriminate]. destruct (left_inv c1 k); [discriminate|]. injection Hcur as -> _. apply (ci_cur _ _ _ (li_cinv _ _ _ V1)). exact Ek. }
    change (n_ops (getN (push_op (with_tt c1 false) n (NLeft (ss_step (getS c1 s)) false)) n) = n_ops (getN c1 n) ++ [NLeft (ss_step (getS c1 s)) false]).
    rewrite getN_push by exact Hn. rewrite Nat.eqb_refl. reflexivity.
Qed.
End Flag.

(** * Witness: the automaton of Ex_TT.v, with the time bound after the transition *)
From Verif Require Import SetupHa Solver Ex_Core Ex_TT.
Open Scope nat_scope.
Definition exF_cf : cfg := mkCfg 4 1%Q false false true true false true true None.
Definition exF_a := getr exT (setup_ha exF_cf exT).
Definition exF_c0 := getr core0 (setup fm_solver exF_a [exT_s 0; exT_s 1]).
Notation stepF := (do_step fm_solver arn0 exF_cf exF_a).
Fixpoint exF (k : nat) : core := match k with 0 => exF_c0 | S k => getr core0 (stepF (exF k)) end.
Definition isok {A} (r : res A) : bool := match r with Ok _ => true | Err _ => false end.
Lemma isok_get {A} (d : A) (r : res A) : isok r = true -> r = Ok (getr d r).
Proof. destruct r; intro H; [reflexivity|discriminate]. Qed.
Lemma exF_reached k : k <= 3 -> reached fm_solver arn0 exF_cf exF_a [exT_s 0; exT_s 1] (exF k).
Proof.
  intro Hk. assert (S0 : reached fm_solver arn0 exF_cf exF_a [exT_s 0; exT_s 1] (exF 0)).
  { apply r_setup. apply isok_get. vm_compute. reflexivity. }
  assert (St : forall j, isok (stepF (exF j)) = true -> reached fm_solver arn0 exF_cf exF_a [exT_s 0; exT_s 1] (exF j) -> reached fm_solver arn0 exF_cf exF_a [exT_s 0; exT_s 1] (exF (S j))).
  { intros j Hj R. eapply r_step; [exact R|]. apply isok_get. exact Hj. }
  destruct k as [|k]; [exact S0|]. assert (S1 := St 0 (eq_refl : isok (stepF (exF 0)) = true) S0).
  destruct k as [|k]; [exact S1|]. assert (S2 : reached fm_solver arn0 exF_cf exF_a [exT_s 0; exT_s 1] (exF 2)) by (apply St; [vm_compute; reflexivity|exact S1]).
  destruct k as [|k]; [exact S2|]. assert (S3 : reached fm_solver arn0 exF_cf exF_a [exT_s 0; exT_s 1] (exF 3)) by (apply St; [vm_compute; reflexivity|exact S2]).
  destruct k as [|k]; [exact S3|lia].
Qed.
Example C44_flag_witness :
  wf_ha exF_a /\ reached fm_solver arn0 exF_cf exF_a [exT_s 0; exT_s 1] (exF 2) /\ c_tt (exF 2) = false /\ stepF (exF 2) = Ok (exF 3) /\ c_tt (exF 3) = true /\
  cur_state (exF 3) = Some (0, 0) /\ is_finished exF_cf (exF 3) = false /\ ss_lo (getS (exF 3) 0) < cf_num exF_cf.
Proof.
  split.
  { assert (Hs : setup_ha exF_cf exT = Ok exF_a) by (apply isok_get; vm_compute; reflexivity). destruct (setup_ha_ok exF_cf exT exF_a exT_wf Hs) as (_ & W & _). exact W. }
  split; [apply exF_reached; lia|]. split; [vm_compute; reflexivity|]. split; [apply isok_get; vm_compute; reflexivity|].
  split; [vm_compute; reflexivity|]. split; [vm_compute; reflexivity|]. split; [vm_compute; reflexivity|].
  assert (K : (ss_lo (getS (exF 3) 0) <? cf_num exF_cf) = true) by (vm_compute; reflexivity). apply Nat.ltb_lt in K. exact K.
Qed.
