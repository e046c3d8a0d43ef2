(** With deaggregation: names of the columns of concrete states, kept by the steps of the analysis (for C66). *)
From Verif Require Import Base BaseFacts LpModel LpSpec SetSpec LpUtil LpFacts LpWf SetFacts SetFacts2 MinkFacts OpsFacts OpsFacts2 OpsFacts3 OpsFacts4 AggFacts ChullFacts
  ApiSpec ApiFacts Automaton StateSet HybridSpec FlowFacts StateSpec StateFacts StateFacts2 StateFacts3 AutoFacts BuildFacts CoreModel HeapFacts CoreOps CoreGhost CoreHeap CoreInv CoreStep CoreCont CorePop CoreExt CoreDag CoreDag2 CoreDag3
  CoreSub CoreSubD CoreShape CoreShape2 Bounded Bounded2 Names CexSpec NameFacts Layout TraceLp TraceState TraceReset CoreTrace CexSetup CexD CexD2.
From Coq Require Import String Lia.
Open Scope list_scope.
Open Scope nat_scope.

Section K.
Variable solve : solver.
Variable arnoldi : nat -> option (list Q) -> csr -> option csr -> nat -> list (list Q).
Variable cf : cfg.
Variable a : ha.
Hypothesis WH : wf_ha a.
Hypothesis Hidx : index_ok a.
Notation dag := (dag cf a).
Notation pst c o := (getS c (o_post (getO c o))).
Notation grow := (grow a).
Notation kinv := (kinv a).
Notation sameg := (sameg a).
Notation err m := (is_error (get_mode a m)).

Lemma g_sid (c : core) i s s1 : s = getS c i -> grow s s1 -> sameg c (setS c i s1).
Proof. intros -> G. apply sg_set. exact G. Qed.
Lemma sg_err c sid t l c' : error_reached solve cf a c sid t l = Ok c' -> sameg c c'.
Proof. intro H. apply error_reached_ok in H as (ag & co & ce & -> & _). apply sg_eq; reflexivity. Qed.
Lemma nst_set mp c n s : dag mp c -> n < nN c -> nst (setS c (n_state (getN c n)) s) n = s.
Proof. intros D Hn. unfold nst. rewrite getN_setS. apply getS_set_eq. apply (d_parents _ _ _ _ D n Hn). Qed.

(** what the successor step leaves alone *)
Lemma add_nst mp c t l nid c' : dag mp c -> nid < nN c -> add_transition_successor solve cf a c t l (n_state (getN c nid)) nid = Ok c' -> n_state (getN c' nid) = n_state (getN c nid) /\ nst c' nid = nst c nid.
Proof.
  intros D Hn H. assert (Hi : n_state (getN c nid) < nS c) by apply (d_parents _ _ _ _ D nid Hn).
  assert (E1 : n_state (getN c' nid) = n_state (getN c nid)) by (apply (ex_node _ _ (ext_add _ _ _ _ _ _ _ _ _ H) nid Hn)). split; [exact E1|]. unfold nst. rewrite E1.
  unfold add_transition_successor in H. apply bind_ok in H as ([c1 o] & H1 & H).
  assert (K : getS c1 (n_state (getN c nid)) = getS c (n_state (getN c nid))).
  { unfold make_op_transition in H1. apply bind_ok in H1 as (p & _ & H1). destruct p as [[l1 ctr]|]; [|apply ok_inj in H1; injection H1 as <- _; auto].
    apply bind_ok in H1 as (l2 & _ & H1). apply bind_ok in H1 as (f & _ & H1). apply bind_ok in H1 as (u & _ & H1). apply bind_ok in H1 as (s & _ & H1). apply ok_inj in H1. injection H1 as <- _.
    unfold getS. cbn [c_states with_ops with_states push_op]. rewrite app_nth1 by exact Hi. reflexivity. }
  destruct o as [o|]; apply ok_inj in H; subst c'; exact K.
Qed.

Lemma kinv_guards mp nid ts : forall c c', dag mp c -> kinv c -> nid < nN c -> (forall t, In t ts -> t < List.length (ha_trans a) /\ t_from (get_trans a t) = nodemode c nid) ->
  check_guards_loop solve cf a c nid (n_state (getN c nid)) ts = Ok c' -> kinv c'.
Proof.
  induction ts as [|t ts IH]; intros c c' D K Hn Hts H; cbn [check_guards_loop] in H; [apply ok_inj in H; subst; exact K|].
  apply bind_ok in H as ([l1 ol] & Hg & H). cbn [fst snd] in H. destruct (Hts t (or_introl eq_refl)) as [Ht Hf].
  apply guard_names in Hg as [Nm1 Nm2]. set (c1 := setS c (n_state (getN c nid)) _) in *.
  assert (G1 : sameg c c1) by (apply sg_set, g_lpi; exact Nm1). assert (K1 := kinv_same cf a c c1 K G1).
  assert (D1 : dag mp c1) by (apply (dag_k _ _ _ c); [exact D|apply keeps_lpi]).
  assert (M1 : nodemode c1 nid = nodemode c nid) by (apply (sg_mode a); exact G1).
  assert (L1 : l_names (ss_lpi (nst c1 nid)) = l_names (ss_lpi (nst c nid))) by (unfold c1; rewrite (nst_set mp) by auto; exact Nm1).
  assert (Hts1 : forall t, In t ts -> t < List.length (ha_trans a) /\ t_from (get_trans a t) = nodemode c1 nid) by (intros t0 Q; rewrite M1; apply Hts; right; exact Q).
  assert (N1 : nid < nN c1) by exact Hn. change (n_state (getN c nid)) with (n_state (getN c1 nid)) in H.
  destruct ol as [l|]; [|exact (IH c1 c' D1 K1 N1 Hts1 H)]. specialize (Nm2 l eq_refl).
  apply bind_ok in H as (c2 & H2 & H). rewrite <- M1 in Hf.
  assert (E2 : exists ag co ce, c2 = with_flags c1 ag co ce).
  { destruct (is_error _) in H2; [apply error_reached_ok in H2 as (ag & co & ce & -> & _); eauto|apply ok_inj in H2; subst c2]. exists (c_aggerr c1), (c_concerr c1), (c_cex c1). destruct c1; reflexivity. }
  destruct E2 as (ag & co & ce & ->). set (c2 := with_flags c1 ag co ce) in *. assert (G2 : sameg c1 c2) by (apply sg_eq; reflexivity). assert (K2 := kinv_same cf a c1 c2 K1 G2).
  assert (D2 : dag mp c2) by (apply (dag_k _ _ _ c1); [exact D1|apply keeps_flags]).
  destruct (_ && _) in H; [apply ok_inj in H; subst c'; exact K2|]. apply bind_ok in H as (c3 & H3 & H). apply bind_ok in H as (c4 & H4 & H).
  change (n_state (getN c1 nid)) with (n_state (getN c2 nid)) in H3, H4, H.
  assert (K3 : kinv c3) by (apply (kinv_add solve cf a WH Hidx mp c2 t l nid c3 D2 K2 N1 Ht Hf); [change (l_names l = l_names (ss_lpi (nst c1 nid))); rewrite L1; exact Nm2|exact H3]).
  destruct (add_nst mp c2 t l nid c3 D2 N1 H3) as [E3 S3]. destruct (dag_add _ _ _ _ _ _ _ _ _ _ D2 N1 H3) as [D3 P3]. rewrite <- E3 in H4, H.
  assert (K4 : sameg c3 c4 /\ keeps c3 c4).
  { destruct (_ && _) in H4; [|apply ok_inj in H4; subst; split; [apply sg_refl|apply keeps_refl]]. apply bind_ok in H4 as ([l5 b] & Hw & H4). cbn [fst snd] in H4. apply taken_names in Hw. apply ok_inj in H4.
    set (c5 := setS c3 _ _) in H4. assert (G5 : sameg c3 c5) by (apply sg_set, g_lpi; exact Hw). assert (Q5 : keeps c3 c5) by apply keeps_lpi.
    destruct b; subst c4; [|auto]. split; [eapply sg_trans; [exact G5|apply sg_eq; reflexivity]|]. eapply keeps_trans; [exact Q5|apply keeps_tt]. }
  destruct K4 as [G4 Q4]. pose proof G4 as (_ & _ & E4 & E5). rewrite <- (proj2 (E5 nid)) in H.
  apply (IH c4 c'); auto.
  - apply (dag_k _ _ _ c3); auto.
  - apply (kinv_same cf a c3); auto.
  - rewrite E4, (pf_nN _ _ P3). exact N1.
  - intros t0 Q. rewrite (sg_mode a _ _ _ G4). unfold nodemode. fold (nst c3 nid). rewrite S3. exact (Hts1 t0 Q).
Qed.

Lemma sg_intersect c nid c' ok : intersect_state solve a c nid (n_state (getN c nid)) = Ok (c', ok) -> sameg c c'.
Proof.
  intro H. unfold intersect_state in H. apply bind_ok in H as ([[s1 ops] ok1] & H1 & H). apply ok_inj in H. injection H as <- _.
  eapply sg_trans; [apply (sg_set a c (n_state (getN c nid)) s1); eapply g_inv; exact H1|apply sg_push_ops].
Qed.
Lemma kinv_cont mp c n c' : dag mp c -> kinv c -> n < nN c -> continuous_post solve cf a c n (n_state (getN c n)) = Ok c' -> kinv c'.
Proof.
  intros D K Hn H. unfold continuous_post in H. destruct (_ <=? _) in H; [apply ok_inj in H; subst; apply (kinv_same cf a c); [exact K|apply sg_left]|].
  destruct (c_tt c); [apply ok_inj in H; subst; apply (kinv_same cf a c); [exact K|eapply sg_trans; [|apply sg_left]; apply sg_eq; reflexivity]|].
  apply bind_ok in H as ([c1 ok] & H1 & H). assert (G1 := sg_intersect c n c1 ok H1). assert (K1 := kinv_same cf a c c1 K G1). destruct (dag_intersect _ _ _ _ _ _ _ _ _ D H1) as [D1 P1].
  assert (E1 : n_state (getN c1 n) = n_state (getN c n)) by (apply G1).
  destruct (negb ok) in H; [apply ok_inj in H; subst; apply (kinv_same cf a c1); [exact K1|apply sg_left]|].
  apply bind_ok in H as (s1 & Hs & H). apply bind_ok in H as (c3 & Hg & H). rewrite <- E1 in Hs, Hg.
  assert (N1 : n < nN c1) by (rewrite (pf_nN _ _ P1); exact Hn). set (c2 := setS c1 (n_state (getN c1 n)) s1) in *.
  assert (G2 : sameg c1 c2) by (apply sg_set; eapply g_step; exact Hs). assert (K2 := kinv_same cf a c1 c2 K1 G2).
  assert (D2 : dag mp c2) by (apply (dag_k _ _ _ c1); [exact D1|apply keeps_set; eapply f2_step; exact Hs]).
  assert (K3 : kinv c3).
  { unfold check_guards in Hg. change (n_state (getN c1 n)) with (n_state (getN c2 n)) in Hg. apply (kinv_guards mp n _ c2 c3 D2 K2 N1) in Hg; [exact Hg|]. intros t Ht. apply out_trans_spec in Ht. exact Ht. }
  destruct (m_a _) in H; [|discriminate]. destruct (_ && _) in H; apply ok_inj in H; subst c'; [|exact K3]. apply (kinv_same cf a c3); [exact K3|apply sg_left].
Qed.

Lemma kinv_pop c c' n : cinv cf a c -> kinv c -> pop_waiting_list solve arnoldi cf a c = Ok (c', n) -> kinv c'.
Proof.
  intros V K H. assert (D := ci_dag _ _ _ V). unfold pop_waiting_list in H. apply bind_ok in H as (ops & Hops & H). apply bind_ok in H as (u & _ & H). apply bind_ok in H as (agg & _ & H). apply bind_ok in H as ([c1 n1] & Hm & H).
  apply ok_inj in H. injection H as <- <-. destruct (pop_ops_ptr cf a c ops _ D Hops) as (K1 & K2 & K3 & K4 & K5). set (w := filter (fun o => negb (mem o ops)) (c_wait c)) in *.
  apply (kinv_same cf a c1); [|apply sg_eq; reflexivity].
  assert (Hw : forall o, In o ops -> o < nO c /\ o_child (getO c o) = None) by (intros o Ho; apply K3 in Ho as [Ho _]; apply (d_wait _ _ _ _ D) in Ho; exact Ho).
  apply (kinv_make_node solve arnoldi cf a (rep_map c) (with_wait c w) ops agg (Some "full"%string) c1 n1); auto.
  - apply (dag_wait cf a _ c); auto; [apply NoDup_filter, D|]. intros o Ho. apply filter_In in Ho. tauto.
  - apply (kinv_same cf a c); [exact K|apply sg_eq; reflexivity].
  - intros o Ho. apply Hw. exact Ho.
  - intros o N Ho E. destruct (Hw o Ho) as [_ Q]. change (o_child (getO c o) = Some N) in E. congruence.
Qed.
Lemma kinv_step_pop c c' : cinv cf a c -> kinv c -> do_step_pop solve arnoldi cf a c = Ok c' -> kinv c'.
Proof.
  intros V K H. unfold do_step_pop in H. apply bind_ok in H as ([c1 n] & H1 & H). assert (K1 := kinv_pop c c1 n V K H1).
  destruct (is_error _) in H; [apply ok_inj in H; subst c'; apply (kinv_same cf a c1); [exact K1|apply sg_left]|].
  apply bind_ok in H as ([c2 ok] & H2 & H). assert (K2 := kinv_same cf a c1 c2 K1 (sg_intersect c1 n c2 ok H2)). destruct ok; apply ok_inj in H; subst c'; [exact K2|]. apply (kinv_same cf a c2); [exact K2|apply sg_left].
Qed.

(** ** replay *)
Lemma kinv_replay_op c mp ch x r p : dag mp c -> kinv c -> ch < nN c -> nodemode c ch = nodemode c p -> (forall o, x = NTr o -> o < nO c /\ o_parent (getO c o) = Some p) ->
  replay_op solve cf a c mp ch x = Ok r -> kinv (fst r).
Proof.
  intros D K Hch Hm Hx H. destruct x as [k i st|k b|o]; cbn [replay_op] in H.
  - apply bind_ok in H as (c1 & H1 & H). apply ok_inj in H. subst r. cbn [fst]. unfold replay_inv in H1. apply bind_ok in H1 as (s & Hs & H1). destruct (nth_error _ _) as [lc|] eqn:En in H1; [|discriminate].
    apply bind_ok in H1 as ([[s2 o] st'] & Hc & H1).
    assert (G1 : sameg c (setS c (n_state (getN c ch)) s2)) by (apply sg_set; eapply g_trans; [eapply g_step; exact Hs|eapply g_cond; exact Hc]).
    assert (K1 := kinv_same cf a _ _ K G1).
    destruct o as [[|]|].
    + apply bind_ok in H1 as (f & _ & H1). destruct f; apply ok_inj in H1; subst c1; (apply (kinv_same cf a _ _ K1)); [apply sg_push|eapply sg_trans; apply sg_push].
    + apply ok_inj in H1; subst c1. exact K1.
    + apply ok_inj in H1; subst c1. apply (kinv_same cf a _ _ K1). apply sg_push.
  - apply ok_inj in H. subst r. cbn [fst]. apply (kinv_same cf a _ _ K). apply sg_push.
  - destruct (Hx o eq_refl) as [Ho Hpar]. unfold replay_tr in H. apply bind_ok in H as (s & Hs & H). destruct (o_trans (getO c o)) as [t|] eqn:Et; [|discriminate]. apply bind_ok in H as ([l1 ol] & Hg & H). cbn [fst snd] in H.
    destruct (k_from a _ K o t p Ho Et Hpar) as (Ht & Hf). set (c1 := setS c (n_state (getN c ch)) s) in *.
    assert (G1 : sameg c c1) by (apply sg_set; eapply g_step; exact Hs).
    assert (D1 : dag mp c1) by (apply (dag_k _ _ _ c); [exact D|apply keeps_set; eapply f2_step; exact Hs]).
    change (n_state (getN c ch)) with (n_state (getN c1 ch)) in H, Hg. fold (nst c1 ch) in H, Hg. apply guard_names in Hg as [Nm1 Nm2].
    set (c2 := setS c1 (n_state (getN c1 ch)) (ss_with_lpi (nst c1 ch) l1)) in *.
    assert (G2 : sameg c c2) by (eapply sg_trans; [exact G1|apply sg_set, g_lpi; exact Nm1]). assert (K2 := kinv_same cf a _ _ K G2).
    assert (D2 : dag mp c2) by (apply (dag_k _ _ _ c1); [exact D1|apply keeps_lpi]).
    assert (L2 : l_names (ss_lpi (nst c2 ch)) = l_names (ss_lpi (nst c1 ch))) by (unfold c2; rewrite (nst_set mp) by auto; exact Nm1).
    destruct ol as [l|]; [|apply ok_inj in H; subst r; exact K2]. specialize (Nm2 l eq_refl). apply bind_ok in H as (c3 & H3 & H).
    assert (E3 : exists ag co ce, c3 = with_flags c2 ag co ce).
    { destruct (is_error _) in H3; [apply error_reached_ok in H3 as (ag & co & ce & -> & _); eauto|apply ok_inj in H3; subst c3]. exists (c_aggerr c2), (c_concerr c2), (c_cex c2). destruct c2; reflexivity. }
    destruct E3 as (ag & co & ce & ->). set (c3 := with_flags c2 ag co ce) in *. assert (G3 : sameg c2 c3) by (apply sg_eq; reflexivity). assert (K3 := kinv_same cf a _ _ K2 G3).
    assert (D3 : dag mp c3) by (apply (dag_k _ _ _ c2); [exact D2|apply keeps_flags]).
    apply bind_ok in H as ([c4 no] & H4 & H). change (n_state (getN c1 ch)) with (n_state (getN c3 ch)) in H4.
    assert (K4 : kinv c4).
    { apply (kinv_make_op solve cf a WH Hidx mp c3 t l ch c4 no D3 K3 Hch Ht); [|change (l_names l = l_names (ss_lpi (nst c2 ch))); congruence|exact H4]. rewrite Hf, <- Hm. symmetry. apply (sg_mode a). eapply sg_trans; [exact G2|exact G3]. }
    destruct no as [no|]; [|apply ok_inj in H; subst r; exact K4].
    assert (K5 := kinv_same cf a _ _ K4 (sg_push a c4 ch (NTr no))).
    destruct (o_child _); apply ok_inj in H; subst r; cbn [fst]; [exact K5|]. apply (kinv_same cf a _ _ K5). apply sg_eq; reflexivity.
Qed.

Lemma kinv_replay_children p x chs : forall c mp r, dag mp c -> kinv c -> p < nN c -> (forall ch, In ch chs -> ch < nN c /\ nodemode c ch = nodemode c p) -> (forall o, x = NTr o -> o < nO c /\ o_parent (getO c o) = Some p) ->
  replay_children solve cf a c mp chs x = Ok r -> kinv (fst r).
Proof.
  induction chs as [|ch chs IH]; intros c mp r D K Hp Hch Hx H; cbn [replay_children] in H; [apply ok_inj in H; subst; exact K|].
  apply bind_ok in H as (r1 & H1 & H). destruct (Hch ch (or_introl eq_refl)) as [Q1 Q2].
  assert (Z : dag (snd r1) (fst r1) /\ kinv (fst r1) /\ ext c (fst r1) /\ pf c (fst r1)).
  { destruct (left_inv c ch); [apply ok_inj in H1; subst; split; [exact D|split; [exact K|split; [apply ext_refl|apply pf_refl]]]|].
    destruct (dag_replay_op _ _ _ _ _ _ _ _ D Q1 (fun o Eo => proj1 (Hx o Eo)) H1) as [D1 P1]. split; [exact D1|]. split; [exact (kinv_replay_op c mp ch x r1 p D K Q1 Q2 Hx H1)|]. split; [eapply ext_replay_op; exact H1|exact P1]. }
  destruct Z as (D1 & K1 & X1 & P1). apply (IH (fst r1) (snd r1) r D1 K1); auto.
  - rewrite (pf_nN _ _ P1). exact Hp.
  - intros k Hk. rewrite (pf_nN _ _ P1). destruct (Hch k (or_intror Hk)) as [T1 T2]. split; [exact T1|]. exact (nm_eq cf a mp c _ _ _ D X1 T1 Hp T2).
  - intros o Eo. destruct (Hx o Eo) as [T1 T2]. pose proof (pf_nO _ _ P1). split; [lia|]. destruct (ex_op _ _ X1 o T1) as (_ & -> & _). exact T2.
Qed.
Lemma kinv_replay_loop p chs xs : forall c mp idx cur only pl c' mp' i' cu' pl', dag mp c -> kinv c -> p < nN c -> (forall ch, In ch chs -> ch < nN c /\ nodemode c ch = nodemode c p) ->
  (forall o, In (NTr o) xs -> o < nO c /\ o_parent (getO c o) = Some p) -> replay_loop solve cf a c mp chs idx cur only pl xs = Ok (c', mp', i', cu', pl') -> kinv c'.
Proof.
  induction xs as [|x xs IH]; intros c mp idx cur only pl c' mp' i' cu' pl' D K Hp Hch Hx H; cbn [replay_loop] in H; [apply ok_inj in H; injection H as <- _ _ _ _; exact K|].
  set (q := if (cur <? nop_step c x) && negb only then (S cur, true) else (cur, only)) in H. destruct q as [cur1 only1].
  destruct (negb _) in H; [apply ok_inj in H; injection H as <- _ _ _ _; exact K|].
  destruct (only1 && _); [apply ok_inj in H; injection H as <- _ _ _ _; exact K|]. apply bind_ok in H as (r1 & H1 & H).
  assert (Hx1 : forall o, x = NTr o -> o < nO c /\ o_parent (getO c o) = Some p) by (intros o ->; apply Hx; left; auto).
  assert (K1 := kinv_replay_children p x chs c mp r1 D K Hp Hch Hx1 H1).
  destruct (dag_replay_children _ _ _ x chs c mp r1 D (fun ch Hc => proj1 (Hch ch Hc)) (fun o Eo => proj1 (Hx1 o Eo)) H1) as [D1 P1].
  assert (X1 := ext_replay_children _ _ _ _ _ _ _ _ H1).
  eapply (IH _ _ _ _ _ _ _ _ _ _ _ D1 K1); [| | |exact H].
  - rewrite (pf_nN _ _ P1). exact Hp.
  - intros k Hk. rewrite (pf_nN _ _ P1). destruct (Hch k Hk) as [T1 T2]. split; [exact T1|]. exact (nm_eq cf a mp c _ _ _ D X1 T1 Hp T2).
  - intros o Eo. destruct (Hx o (or_intror Eo)) as [T1 T2]. pose proof (pf_nO _ _ P1). split; [lia|]. destruct (ex_op _ _ X1 o T1) as (_ & -> & _). exact T2.
Qed.
Lemma sg_advance k chs : forall c c', advance_children a c chs k = Ok c' -> sameg c c'.
Proof.
  induction chs as [|ch chs IH]; intros c c' H; cbn [advance_children] in H; [apply ok_inj in H; subst; apply sg_refl|]. apply bind_ok in H as (c1 & H1 & H). eapply sg_trans; [|exact (IH c1 c' H)].
  destruct (left_inv c ch); [apply ok_inj in H1; subst; apply sg_refl|]. apply bind_ok in H1 as (s & Hs & H1). apply ok_inj in H1. subst c1. apply sg_set. eapply g_step; exact Hs.
Qed.
Lemma kinv_finish_one mp c ch k os c1 n : dag (((ch, k), os) :: mp) c -> kinv c -> make_node solve arnoldi a c os (n_agg (getN c k)) (ss_agg (getS c (n_state (getN c k)))) = Ok (c1, n) -> kinv c1.
Proof.
  intros D K H. destruct (d_map _ _ _ _ D ch k os (or_introl eq_refl)) as (P1 & P2 & P3 & P4). pose proof (d_mapnd _ _ _ _ D) as ND. unfold pending in ND. cbn [map snd List.concat] in ND. apply NoDup_app_split in ND as (N1 & N2 & N3).
  assert (D0 : dag mp c). { constructor; try apply D; [exact N2|]. intros ch' k' os' Q. apply (d_map _ _ _ _ D). right; auto. }
  eapply (kinv_make_node solve arnoldi cf a mp c os); [exact D0|exact K|exact P1|intros o Ho; apply (P4 o Ho)| |exact H].
  intros o N Ho E. destruct (P4 o Ho) as (_ & Q & _). congruence.
Qed.
Lemma kinv_finish mp : forall c c', dag mp c -> kinv c -> finish_map solve arnoldi a c mp = Ok c' -> kinv c'.
Proof.
  induction mp as [|[[ch k] os] mp IH]; intros c c' D K H; cbn [finish_map] in H; [apply ok_inj in H; subst; exact K|]. apply bind_ok in H as ([c1 n] & H1 & H).
  pose proof (kinv_finish_one mp c ch k os c1 n D K H1) as K1. pose proof (finish_dag _ _ _ _ _ _ _ _ _ _ _ D H1) as D1. apply IH in H; [exact H| |].
  - apply (dag_wait cf a _ c1); auto; apply D1.
  - apply (kinv_same cf a c1); [exact K1|apply sg_eq; reflexivity].
Qed.
Lemma kinv_begin c n c' : dag [] c -> kinv c -> n < nN c -> (forall o, In o (n_parents (getN c n)) -> o_child (getO c o) = Some n) -> begin_replay solve arnoldi a c n = Ok c' -> kinv c'.
Proof.
  intros D K Hn Hch H. unfold begin_replay in H. apply bind_ok in H as (rm & _ & H). set (w := filter _ (c_wait c)) in H. set (c0 := with_wait c w) in *.
  assert (D0 : dag [] c0). { apply (dag_wait cf a _ c); auto; [apply NoDup_filter, D|]. intros o Ho. apply filter_In in Ho. tauto. }
  assert (K0 : kinv c0) by (apply (kinv_same cf a c); [exact K|apply sg_eq; reflexivity]).
  apply bind_ok in H as ([c2 chs] & H1 & H). apply ok_inj in H. subst c'. apply (kinv_same cf a c2); [|apply sg_eq; reflexivity]. unfold split_node in H1. apply bind_ok in H1 as ([] & Ha & H1). apply bind_ok in H1 as (str & _ & H1).
  apply bind_ok in H1 as ([c3 n0] & M0 & H1). apply bind_ok in H1 as ([c4 n1] & M1 & H1). cbn [fst snd] in *. apply ok_inj in H1. injection H1 as <- _.
  change (forall o, In o (n_parents (getN c0 n)) -> o_child (getO c0 o) = Some n) in Hch. change (n < nN c0) in Hn.
  set (ps := n_parents (getN c0 n)) in *.
  assert (Hl : 2 <= List.length ps). { unfold assert in Ha. destruct (1 <? List.length ps) eqn:E; [apply Nat.ltb_lt in E; lia|discriminate]. }
  destruct (d_parents _ _ _ _ D0 n Hn) as (P1 & P2 & P3 & P4 & P5). fold ps in P1, P2, P4, P5. set (mid := Nat.div (List.length ps) 2) in *.
  assert (Hmid : 1 <= mid /\ mid < List.length ps). { unfold mid. split; [apply Nat.div_le_lower_bound; lia|apply Nat.div_lt; lia]. }
  assert (L1 : List.length (firstn mid ps) = mid) by (rewrite firstn_length; lia).
  assert (L2 : List.length (skipn mid ps) = List.length ps - mid) by apply skipn_length.
  assert (X1 : forall o, In o (firstn mid ps) -> In o ps) by (intros o; apply in_firstn).
  assert (X2 : forall o, In o (skipn mid ps) -> In o ps) by (intros o; apply in_skipn).
  assert (E1 : firstn mid ps <> []) by (intro Q; rewrite Q in L1; cbn [List.length] in L1; lia).
  assert (E2 : skipn mid ps <> []) by (intro Q; rewrite Q in L2; cbn [List.length] in L2; lia).
  assert (Nw : forall o, In o ps -> ~ In o (c_wait c0)). { intros o Ho Q. apply (d_wait _ _ _ _ D0) in Q as [_ Q]. apply P5 in Ho as (_ & Ho & _). congruence. }
  assert (Mm : forall o, In o ps -> omode c0 o = nodemode c0 n) by (intros o Ho; apply P5; auto).
  assert (I1 : In (nth 0 (firstn mid ps) 0) ps) by (apply X1, nth_In; lia).
  assert (I2 : In (nth 0 (skipn mid ps) 0) ps) by (apply X2, nth_In; lia).
  assert (NC : ss_conc (nst c0 n) = false). { destruct (ss_conc (nst c0 n)) eqn:E; [|reflexivity]. destruct (k_node a _ K0 n Hn E) as (o & Q & _). fold ps in Q. rewrite Q in Hl. cbn in Hl. lia. }
  assert (D3 : dag [] c3).
  { eapply dag_make_node; [exact D0|exact E1|apply NoDup_firstn; exact P2| | | |exact M0].
    - intros o Ho. split; [apply P5; auto|]. split; [apply Nw; auto|]. split; [intros []|]. rewrite !Mm by auto. reflexivity.
    - intros _ o Ho. apply P5; auto.
    - intro HP. apply (same_path_sub _ ps); [auto|]. apply (d_path _ _ _ _ D0 HP n Hn). }
  assert (K3 : kinv c3).
  { eapply (kinv_make_node solve arnoldi cf a [] c0); [exact D0|exact K0|exact E1| | |exact M0]; [intros o Ho; apply P5; auto|]. intros o N Ho E _. rewrite (Hch o (X1 o Ho)) in E. injection E as <-. exact NC. }
  assert (HS := make_node_states solve arnoldi a _ _ _ _ _ _ E1 M0).
  apply make_node_ptr in M0 as (En0 & HN0 & HO0 & X0 & GN0 & Gp0 & _ & _ & Gf0 & C1 & C2 & Cu0 & Hw0 & Hd0 & Hr0 & _); [|exact E1|intros o Ho; apply P5; auto].
  assert (Om0 : forall o, In o ps -> omode c3 o = omode c0 o). { intros o Ho. unfold omode. destruct (Gf0 o) as (_ & _ & _ & ->). apply (ex_mode _ _ X0). apply (d_post _ _ _ _ D0). apply P5; auto. }
  eapply (kinv_make_node solve arnoldi cf a [] c3); [exact D3|exact K3|exact E2| | |exact M1]; [intros o Ho; rewrite HO0; apply P5; auto|].
  intros o N Ho E HN.
  assert (Hno : ~ In o (firstn mid ps)). { intro Q. rewrite <- (firstn_skipn mid ps) in P2. apply NoDup_app_split in P2 as (_ & _ & P2). exact (P2 o Q Ho). }
  rewrite C2 in E by exact Hno. rewrite (Hch o (X2 o Ho)) in E. injection E as <-. unfold nst. rewrite GN0 by exact Hn. rewrite (proj1 (proj2 (HS _ P3))). exact NC.
Qed.
End K.
