(** Step intervals, continued: popping, deaggregation, the whole run. *)
From Verif Require Import Base BaseFacts LpModel LpUtil Automaton StateSet StateFacts CoreModel HeapFacts CoreOps CorePop CoreExt CoreDag CoreDag2 CoreDag3 CoreLive CoreLive2 CoreIvl CoreIvl2.
Open Scope nat_scope.

Section Iv.
Variable solve : solver.
Variable cf : cfg.
Variable a : ha.
Notation dag := (dag cf a).
Notation cinv := (cinv cf a).
Notation linv := (linv cf a).
Variable arnoldi : nat -> option (list Q) -> csr -> option csr -> nat -> list (list Q).

Lemma iv_pop c c' nid : linv c -> iv c -> c_cur c = None -> c_rep c = None -> c_dwait c = [] -> pop_waiting_list solve arnoldi cf a c = Ok (c', nid) ->
  iv c' /\ oldlo c c' /\ c_cur c' = Some nid /\ exists ops, ops <> [] /\ (forall o, In o ops -> In o (c_wait c)) /\ c_wait c' = filter (fun o => negb (mem o ops)) (c_wait c) /\
    (forall o, In o ops -> ss_lo (pstate c o) = blo (pstate c o)) /\
    ss_lo (getS c' (n_state (getN c' nid))) = minl (map (fun o => blo (pstate c o)) ops).
Proof.
  intros V I Hc Hr Hd H. assert (D := ci_dag _ _ _ (li_cinv _ _ _ V)). unfold rep_map in D. rewrite Hr in D.
  destruct (linv_pop solve cf a arnoldi _ _ _ V Hc Hr Hd H) as [V1 C1]. assert (Dc := ci_dag _ _ _ (li_cinv _ _ _ V1)).
  unfold pop_waiting_list in H. apply bind_ok in H as (ops & Hops & H). apply bind_ok in H as (u & _ & H). apply bind_ok in H as (agg & _ & H). apply bind_ok in H as ([c1 n1] & Hm & H).
  apply ok_inj in H. assert (E1 := f_equal fst H). assert (E2 := f_equal snd H). cbn [fst snd] in E1, E2. subst n1. clear H.
  destruct (pop_ops_ptr cf a c ops _ D Hops) as (K1 & K2 & K3 & K4 & K5).
  set (w := filter (fun o => negb (mem o ops)) (c_wait c)) in *. set (c0 := with_wait c w) in *.
  assert (Hsub : forall o, In o w -> In o (c_wait c)) by (intros o Ho; apply filter_In in Ho; tauto).
  assert (D0 : dag [] c0) by (apply (dag_wait cf a _ c); auto; apply NoDup_filter, D).
  assert (M0 : mv c c0) by (apply mv_same2; reflexivity). assert (I0 := iv_mv _ _ _ _ _ D I M0).
  assert (Ho : forall o, In o ops -> o < nO c0 /\ o_child (getO c0 o) = None).
  { intros o Hi. destruct (K3 o Hi) as [Q _]. apply (proj2 (d_wait _ _ _ _ D) o Q). }
  destruct (iv_make_node solve cf a arnoldi _ _ _ _ _ _ _ D0 I0 K1 ltac:(intros o Q; destruct (Ho o Q); split; [auto|apply idle_none; auto]) Hm) as (I1 & O1 & A1 & A2).
  apply make_node_ptr in Hm as (En & HN & HO & E & GN & Gp & Go & _ & Gf & Gc & Gn & Gcu & Hw1 & Hd1 & Hr1 & _); [|auto|intros o Q; apply Ho; auto].
  assert (D1 : dag [] c1).
  { unfold rep_map in Dc. rewrite <- E1 in Dc. ccbn_in Dc. rewrite Hr1 in Dc. change (c_rep c0) with (c_rep c) in Dc. rewrite Hr in Dc. apply (dag_wait cf a _ (with_cur c1 (Some nid))); auto; apply Dc. }
  assert (M1 : mv c1 c') by (subst c'; apply mv_same2; reflexivity).
  split; [eapply iv_mv; [exact D1|exact I1|exact M1]|]. split; [eapply oldlo_trans; [eapply oldlo_mv; [exact D|exact I|exact M0]|]; eapply oldlo_trans; [exact O1|eapply oldlo_mv; [exact D1|exact I1|exact M1]]|]. split; [exact C1|]. exists ops. split; [exact K1|]. split; [intros o Q; apply K3; auto|]. split; [subst c'; ccbn; rewrite Hw1; reflexivity|]. split; [exact A1|].
  subst c'. exact A2.
Qed.

Lemma iv_step_pop c c' : linv c -> iv c -> c_cur c = None -> c_rep c = None -> c_dwait c = [] -> do_step_pop solve arnoldi cf a c = Ok c' ->
  iv c' /\ oldlo c c' /\ exists ops lo, ops <> [] /\ (forall o, In o ops -> In o (c_wait c)) /\ c_wait c' = filter (fun o => negb (mem o ops)) (c_wait c) /\
    (exists o, In o ops /\ lo = blo (pstate c o)) /\
    (c_cur c' = None \/ exists nid, c_cur c' = Some nid /\ ss_lo (getS c' (n_state (getN c' nid))) = lo).
Proof.
  intros V I Hc Hr Hd H. unfold do_step_pop in H. apply bind_ok in H as ([c1 nid] & H1 & H). destruct (linv_pop solve cf a arnoldi _ _ _ V Hc Hr Hd H1) as [V1 C1].
  destruct (iv_pop _ _ _ V I Hc Hr Hd H1) as (I1 & O1 & _ & ops & P1 & P2 & P3 & P4 & P5). assert (D1 := ci_dag _ _ _ (li_cinv _ _ _ V1)). destruct (li_cur _ _ _ V1 nid C1) as (Hl & Hlf & Hr1 & Hd1). assert (Hn : nid < nN c1) by (apply live_lt; auto).
  set (sid := n_state (getN c1 nid)) in *. assert (Hs : sid < nS c1) by (apply (d_parents _ _ _ _ D1); auto).
  assert (Mn : exists o, In o ops /\ minl (map (fun o => blo (pstate c o)) ops) = blo (pstate c o)).
  { assert (Q : forall (f : nat -> nat) l x, exists y, In y (x :: l) /\ fold_left Nat.min (map f l) (f x) = f y).
    { intros f l. induction l as [|y l IH]; intro x; cbn [map fold_left]; [exists x; split; [left; auto|auto]|]. destruct (Nat.min_dec (f x) (f y)) as [-> | ->]; [destruct (IH x) as (z & Z1 & Z2)|destruct (IH y) as (z & Z1 & Z2)]; exists z; split; auto; cbn [In] in *; tauto. }
    destruct ops as [|x l]; [congruence|]. cbn [map minl]. apply Q. }
  destruct Mn as (om & Hom & Emn).
  assert (R : forall c2, mv c1 c2 -> c_wait c2 = c_wait c1 -> (c_cur c2 = None \/ exists n, c_cur c2 = Some n /\ ss_lo (getS c2 (n_state (getN c2 n))) = ss_lo (getS c1 sid)) ->
     iv c2 /\ oldlo c c2 /\ exists ops lo, ops <> [] /\ (forall o, In o ops -> In o (c_wait c)) /\ c_wait c2 = filter (fun o => negb (mem o ops)) (c_wait c) /\ (exists o, In o ops /\ lo = blo (pstate c o)) /\
       (c_cur c2 = None \/ exists nid, c_cur c2 = Some nid /\ ss_lo (getS c2 (n_state (getN c2 nid))) = lo)).
  { intros c2 M W Q. split; [eapply iv_mv; [exact D1|exact I1|exact M]|]. split; [eapply oldlo_trans; [exact O1|eapply oldlo_mv; [exact D1|exact I1|exact M]]|]. exists ops, (ss_lo (getS c1 sid)). split; [auto|]. split; [auto|]. split; [congruence|]. split; [exists om; split; [auto|]; rewrite P5; exact Emn|exact Q]. }
  destruct (is_error _) in H.
  - apply ok_inj in H; subst c'. apply R; [apply mv_left|reflexivity|left; reflexivity].
  - apply bind_ok in H as ([c2 ok] & H2 & H). destruct (dag_intersect solve cf a _ _ _ _ _ _ D1 H2) as [D2 PP]. destruct (mv_intersect _ _ _ _ _ _ _ _ _ D1 H2) as (M2 & W2 & T2). destruct ok; apply ok_inj in H; subst c'.
    + apply R; [exact M2|exact W2|]. right. exists nid. split; [rewrite (pf_cur _ _ PP); exact C1|]. destruct (ex_node _ _ (mv_ext _ _ M2) nid Hn) as [-> _]. fold sid. apply T2.
    + apply R; [eapply mv_trans; [exact D1|exact M2|apply mv_left]|exact W2|left; reflexivity].
Qed.

Lemma iv_begin c n c' : linv c -> iv c -> c_rep c = None -> live c n -> begin_replay solve arnoldi a c n = Ok c' -> iv c'.
Proof.
  intros V I Hrep Ln H. assert (D := ci_dag _ _ _ (li_cinv _ _ _ V)). unfold rep_map in D. rewrite Hrep in D. destruct (cinv_begin solve arnoldi cf a c n c' (li_cinv _ _ _ V) Hrep H) as (CI & Hr' & _).
  unfold begin_replay in H. apply bind_ok in H as (rm & _ & H). set (w := filter _ (c_wait c)) in H. set (c0 := with_wait c w) in *.
  assert (D0 : dag [] c0). { apply (dag_wait cf a _ c); auto; [apply NoDup_filter, D|]. intros o Ho. apply filter_In in Ho. tauto. }
  apply bind_ok in H as ([c2 chs] & H1 & H). apply ok_inj in H. unfold split_node in H1. apply bind_ok in H1 as ([] & Ha & H1). apply bind_ok in H1 as (str & _ & H1).
  apply bind_ok in H1 as ([c3 n0] & M0 & H1). apply bind_ok in H1 as ([c4 n1] & M1 & H1). cbn [fst snd] in *. apply ok_inj in H1. injection H1 as E1c E2c. rewrite <- E1c in H. clear E1c E2c c2.
  set (ps := n_parents (getN c0 n)) in *.
  assert (Hl : 2 <= List.length ps). { unfold assert in Ha. destruct (1 <? List.length ps) eqn:E; [apply Nat.ltb_lt in E; lia|discriminate]. }
  assert (Hn : n < nN c0) by (change (n < nN c); apply live_lt; auto).
  destruct (d_parents _ _ _ _ D0 n Hn) as (P1 & P2 & P3 & P4 & P5). fold ps in P1, P2, P4, P5.
  set (mid := Nat.div (List.length ps) 2) in *.
  assert (Hmid : 1 <= mid /\ mid < List.length ps). { unfold mid. split; [apply Nat.div_le_lower_bound; lia|apply Nat.div_lt; lia]. }
  assert (L1 : List.length (firstn mid ps) = mid) by (rewrite firstn_length; lia).
  assert (L2 : List.length (skipn mid ps) = List.length ps - mid) by apply skipn_length.
  assert (X1 : forall o, In o (firstn mid ps) -> In o ps) by (intros o; apply in_firstn).
  assert (X2 : forall o, In o (skipn mid ps) -> In o ps) by (intros o; apply in_skipn).
  assert (E1 : firstn mid ps <> []) by (intro K; rewrite K in L1; cbn [List.length] in L1; lia).
  assert (E2 : skipn mid ps <> []) by (intro K; rewrite K in L2; cbn [List.length] in L2; lia).
  assert (X3 : forall o, In o (skipn mid ps) -> ~ In o (firstn mid ps)) by (intros o Q1 Q2; rewrite <- (firstn_skipn mid ps) in P2; apply NoDup_app_split in P2 as (_ & _ & P2); apply (P2 o Q2 Q1)).
  assert (Nw : forall o, In o ps -> ~ In o (c_wait c0)). { intros o Ho K. apply (d_wait _ _ _ _ D0) in K as [_ K]. apply P5 in Ho as (_ & Ho & _). congruence. }
  assert (Mm : forall o, In o ps -> omode c0 o = nodemode c0 n) by (intros o Ho; apply P5; auto).
  assert (I1 : In (nth 0 (firstn mid ps) 0) ps) by (apply X1, nth_In; lia).
  assert (D3 : dag [] c3).
  { eapply dag_make_node; [exact D0|exact E1|apply NoDup_firstn; exact P2| | | |exact M0].
    - intros o Ho. split; [apply P5; auto|]. split; [apply Nw; auto|]. split; [intros []|]. rewrite !Mm by auto. reflexivity.
    - intros _ o Ho. apply P5; auto.
    - intro HP. apply (same_path_sub _ ps); [auto|]. apply (d_path _ _ _ _ D0 HP n Hn). }
  assert (MV0 : mv c c0) by (apply mv_same2; reflexivity). assert (V0 := iv_mv _ _ _ _ _ D I MV0).
  assert (Pn : forall o, In o ps -> o_child (getO c0 o) = Some n) by (inversion Ln; subst; auto).
  assert (Id0 : forall o, In o ps -> idle c0 o) by (intros o Ho N HN; rewrite (Pn o Ho) in HN; injection HN as <-; exact Hl).
  destruct (iv_make_node solve cf a arnoldi _ _ _ _ _ _ _ D0 V0 E1 ltac:(intros o Q; split; [apply P5; auto|auto]) M0) as (V3 & _).
  apply make_node_ptr in M0 as (En0 & HN0 & HO0 & X0 & GN0 & Gp0 & _ & _ & Gf0 & Gc0 & Gx0 & Cu0 & Hw0 & Hd0 & Hr0 & _); [|exact E1|intros o Ho; apply P5; auto].
  destruct (iv_make_node solve cf a arnoldi _ _ _ _ _ _ _ D3 V3 E2 ltac:(intros o Q; split; [rewrite HO0; apply P5; auto|intros N HN; rewrite Gx0, Pn in HN by auto; injection HN as <-; rewrite GN0 by auto; exact Hl]) M1) as (V4 & _).
  assert (Hr4 : c_rep c4 = None). { rewrite <- H in Hr'. exact Hr'. }
  assert (D4 : dag [] c4). { assert (D5 := ci_dag _ _ _ CI). unfold rep_map in D5. rewrite Hr' in D5. rewrite <- H in D5. apply (dag_wait cf a _ (with_dwait c4 (c_dwait c4 ++ [(n, chs)]))); auto; apply D5. }
  rewrite <- H. eapply iv_mv; [exact D4|exact V4|apply mv_same2; reflexivity].
Qed.

Lemma iv_replay_op c mp ch x r : dag mp c -> iv c -> live c ch -> (forall o, x = NTr o -> o < nO c) -> replay_op solve cf a c mp ch x = Ok r -> iv (fst r).
Proof.
  intros D I Hch Hx H. assert (Hn := live_lt _ _ Hch). destruct x as [k i st|k b|o]; cbn [replay_op] in H.
  - apply bind_ok in H as (c1 & H1 & H). apply ok_inj in H. subst r. cbn [fst snd]. unfold replay_inv in H1. apply bind_ok in H1 as (s & Hs & H1). destruct (nth_error _ _) in H1; [|discriminate].
    apply bind_ok in H1 as ([[s2 o] st'] & Hc & H1).
    assert (M : mv c (setS c (n_state (getN c ch)) s2)) by (eapply mv_set_live; [exact D|exact Hch|eapply f2_trans; [eapply f2_step; exact Hs|eapply f2_cond; exact Hc]|eapply fr3_trans; [eapply fr3_step; exact Hs|apply same3_fr; eapply s3_cond; exact Hc]]).
    assert (K : keeps c (setS c (n_state (getN c ch)) s2)) by (apply keeps_set; eapply f2_trans; [eapply f2_step; exact Hs|eapply f2_cond; exact Hc]). set (c0 := setS c (n_state (getN c ch)) s2) in *.
    assert (D0 := dag_k _ _ _ _ _ D K). assert (I0 := iv_mv _ _ _ _ _ D I M).
    assert (G : forall c1, mv c0 c1 -> iv c1) by (intros c2 Q; eapply iv_mv; [exact D0|exact I0|exact Q]).
    destruct o as [[|]|].
    + apply bind_ok in H1 as (f & _ & H1). destruct f; apply ok_inj in H1; subst c1; apply G.
      * apply mv_push.
      * change (push_op (push_op c0 ch (NInv k i st')) ch (NLeft k false)) with (push_ops c0 ch [NInv k i st'; NLeft k false]). apply mv_push_ops.
    + apply ok_inj in H1; subst c1. exact I0.
    + apply ok_inj in H1; subst c1. apply G, mv_push.
  - apply ok_inj in H. subst r. cbn [fst snd]. eapply iv_mv; [exact D|exact I|apply mv_push].
  - specialize (Hx o eq_refl). unfold replay_tr in H. apply bind_ok in H as (s & Hs & H). destruct (o_trans (getO c o)) as [t|] eqn:Et; [|discriminate]. apply bind_ok in H as ([l1 ol] & _ & H). cbn [fst snd] in H.
    match type of H with context [Ok (?cc, mp)] => set (c2 := cc) in H end. set (sid := n_state (getN c ch)) in *.
    assert (K1 : keeps c (setS c sid s)) by (apply keeps_set; eapply f2_step; exact Hs). assert (M1 : mv c (setS c sid s)) by (eapply mv_step; [exact D|exact Hch|exact Hs]).
    assert (D1 := dag_k _ _ _ _ _ D K1). assert (I1 := iv_mv _ _ _ _ _ D I M1).
    assert (K2 : keeps (setS c sid s) c2) by apply keeps_lpi. assert (M2 : mv (setS c sid s) c2) by apply mv_lpi.
    assert (D2 := dag_k _ _ _ _ _ D1 K2). assert (I2 := iv_mv _ _ _ _ _ D1 I1 M2).
    destruct ol as [l|]; [|apply ok_inj in H; subst r; exact I2]. apply bind_ok in H as (c3 & H3 & H).
    assert (K3 : keeps c2 c3). { destruct (is_error _) in H3; [eapply keeps_err; eauto|apply ok_inj in H3; subst; apply keeps_refl]. }
    assert (M3 : mv c2 c3). { destruct (is_error _) in H3; [eapply mv_err; eauto|apply ok_inj in H3; subst; apply mv_refl]. }
    assert (D3 := dag_k _ _ _ _ _ D2 K3). assert (I3 := iv_mv _ _ _ _ _ D2 I2 M3).
    assert (N3 : ch < nN c3) by (rewrite (mv_nN _ _ M3), (mv_nN _ _ M2), (mv_nN _ _ M1); auto).
    assert (G3 : n_state (getN c3 ch) = sid) by (rewrite (getN_eq c c3); [reflexivity|rewrite (k_nodes _ _ K3), (k_nodes _ _ K2); apply K1]).
    apply bind_ok in H as ([c4 no] & H4 & H). apply make_op_ptr3 in H4 as [[-> ->]|[-> (s' & ctr & Hm & Hz & Hlo & Hhi & ->)]]; [apply ok_inj in H; subst r; exact I3|].
    set (x := mkOp (ss_step (getS c3 sid)) (Some ch) None (Some t) (nS c3) ctr) in *. rewrite <- G3 in Hlo, Hhi.
    assert (Ex : o_step x = ss_step (getS c3 (n_state (getN c3 ch)))) by (rewrite G3; reflexivity).
    assert (I5 := iv_new_op cf a mp c3 s' x ch t D3 I3 N3 eq_refl eq_refl eq_refl eq_refl Hm Hz Hlo Hhi Ex).
    destruct (dag_new_op cf a mp c3 s' x ch t D3 N3 eq_refl eq_refl eq_refl eq_refl Hm) as (D5 & _).
    match type of H with context [Ok (?cc, map_add _ _ _)] => change cc with (with_new_op c3 s' x ch) in H end.
    destruct (o_child (getO c o)) as [k|] eqn:Ek; apply ok_inj in H; subst r; cbn [fst snd]; [exact I5|].
    eapply iv_mv; [exact D5|exact I5|apply mv_same2; reflexivity].
Qed.
Lemma iv_replay_children x chs : forall c mp r, dag mp c -> lv mp c -> iv c -> (forall ch, In ch chs -> live c ch) -> (forall o, x = NTr o -> o < nO c) -> replay_children solve cf a c mp chs x = Ok r -> iv (fst r).
Proof.
  induction chs as [|ch chs IH]; intros c mp r D L I Hch Hx H; cbn [replay_children] in H; [apply ok_inj in H; subst; auto|].
  apply bind_ok in H as (r1 & H1 & H).
  assert (K : dag (snd r1) (fst r1) /\ pf c (fst r1) /\ lv (snd r1) (fst r1) /\ kc c (fst r1) /\ iv (fst r1)).
  { destruct (left_inv c ch); [apply ok_inj in H1; subst; split; [auto|split; [apply pf_refl|split; [auto|split; [apply kc_refl|auto]]]]|].
    destruct (dag_replay_op solve cf a c mp ch x r1 D (live_lt _ _ (Hch ch (or_introl eq_refl))) Hx H1). destruct (lv_replay_op solve cf a c mp ch x r1 D L (Hch ch (or_introl eq_refl)) Hx H1).
    assert (Q := iv_replay_op c mp ch x r1 D I (Hch ch (or_introl eq_refl)) Hx H1). auto. }
  destruct K as (D1 & P1 & L1 & K1 & I1). apply (IH _ _ r D1 L1 I1); auto.
  - intros k Hk. apply (live_kc cf a mp c); auto. apply Hch. right; auto.
  - intros o Ho. specialize (Hx o Ho). pose proof (pf_nO _ _ P1). lia.
Qed.
Lemma iv_replay_loop chs xs : forall c mp idx cur only pl c' mp' i' cu' pl', dag mp c -> lv mp c -> iv c -> (forall ch, In ch chs -> live c ch) -> (forall o, In (NTr o) xs -> o < nO c) ->
  replay_loop solve cf a c mp chs idx cur only pl xs = Ok (c', mp', i', cu', pl') -> iv c'.
Proof.
  induction xs as [|x xs IH]; intros c mp idx cur only pl c' mp' i' cu' pl' D L I Hch Hx H; cbn [replay_loop] in H; [apply ok_inj in H; injection H as <- _ _ _ _; auto|].
  set (p := if (cur <? nop_step c x) && negb only then (S cur, true) else (cur, only)) in H. destruct p as [cur1 only1].
  destruct (negb _) in H; [apply ok_inj in H; injection H as <- _ _ _ _; auto|].
  destruct (only1 && _); [apply ok_inj in H; injection H as <- _ _ _ _; auto|]. apply bind_ok in H as (r1 & H1 & H).
  assert (Hx1 : forall o, x = NTr o -> o < nO c) by (intros o ->; apply Hx; left; auto).
  destruct (dag_replay_children solve cf a x chs c mp r1 D (fun ch Q => live_lt _ _ (Hch ch Q)) Hx1 H1) as [D1 P1].
  destruct (lv_replay_children solve cf a x chs c mp r1 D L Hch Hx1 H1) as [L1 K1]. assert (I1 := iv_replay_children x chs c mp r1 D L I Hch Hx1 H1).
  apply IH in H; [exact H|exact D1|exact L1|exact I1| |].
  - intros k Hk. apply (live_kc cf a mp c); auto.
  - intros o Ho. pose proof (Hx o (or_intror Ho)). pose proof (pf_nO _ _ P1). lia.
Qed.
Lemma iv_advance mp k chs : forall c c', dag mp c -> iv c -> (forall ch, In ch chs -> live c ch) -> advance_children a c chs k = Ok c' -> iv c'.
Proof.
  induction chs as [|ch chs IH]; intros c c' D I Hl H; cbn [advance_children] in H; [apply ok_inj in H; subst; auto|]. apply bind_ok in H as (c1 & H1 & H).
  assert (K : keeps c c1 /\ mv c c1). { destruct (left_inv c ch); [apply ok_inj in H1; subst; split; [apply keeps_refl|apply mv_refl]|]. apply bind_ok in H1 as (s & Hs & H1). apply ok_inj in H1. subst c1. split; [apply keeps_set; eapply f2_step; exact Hs|eapply mv_step; [exact D|apply Hl; left; reflexivity|exact Hs]]. }
  destruct K as [K M]. eapply IH; [eapply dag_k; [exact D|exact K]|eapply iv_mv; [exact D|exact I|exact M]| |exact H]. intros k' Hk. apply (live_kc cf a mp c); auto; [apply kc_keeps; auto|apply Hl; right; auto].
Qed.
Lemma iv_finish mp : forall c c', dag mp c -> iv c -> finish_map solve arnoldi a c mp = Ok c' -> iv c'.
Proof.
  induction mp as [|[[ch k] os] mp IH]; intros c c' D I H; cbn [finish_map] in H; [apply ok_inj in H; subst; auto|]. apply bind_ok in H as ([c1 n] & H1 & H).
  destruct (d_map _ _ _ _ D ch k os (or_introl eq_refl)) as (P1 & P2 & P3 & P4). pose proof (d_mapnd _ _ _ _ D) as ND. unfold pending in ND. cbn [map snd List.concat] in ND.
  apply NoDup_app_split in ND as (N1 & N2 & N3).
  assert (D0 : dag mp c). { constructor; try apply D; [exact N2|]. intros ch' k' os' K. apply (d_map _ _ _ _ D). right; auto. }
  assert (H0 : In (nth 0 os 0) os) by (destruct os; [congruence|left; reflexivity]).
  assert (D1 : dag mp c1).
  { eapply dag_make_node; [exact D0|exact P1|exact N1| | | |exact H1].
    - intros o Ho. destruct (P4 o Ho) as (Q1 & Q2 & Q3 & Q4 & Q5 & _). destruct (P4 _ H0) as (_ & _ & _ & _ & Q6 & _). split; [auto|]. split; [auto|]. split; [exact (N3 o Ho)|congruence].
    - intros _ o Ho. destruct (P4 o Ho) as (_ & _ & -> & _). discriminate.
    - intros HP o o' Ho Ho'. destruct (P4 o Ho) as (_ & _ & -> & _ & _ & T1), (P4 o' Ho') as (_ & _ & -> & _ & _ & T2). split; [auto|].
      destruct (d_parents _ _ _ _ D k P3) as (Kn & _). destruct (n_parents (getN c k)) as [|q qs]; [congruence|]. rewrite <- (T1 HP q), <- (T2 HP q) by (left; auto). reflexivity. }
  assert (Ho2 : forall o, In o os -> o < nO c /\ idle c o) by (intros o Ho; destruct (P4 o Ho) as (Q1 & Q2 & _); split; [auto|apply idle_none; auto]).
  destruct (iv_make_node solve cf a arnoldi _ _ _ _ _ _ _ D0 I P1 Ho2 H1) as (I1 & _).
  apply IH in H; [exact H|apply (dag_wait cf a _ c1); auto; apply D1|]. eapply iv_mv; [exact D1|exact I1|apply mv_same2; reflexivity].
Qed.

Lemma iv_replay c c' : linv c -> iv c -> c_cur c = None -> do_step_replay solve arnoldi cf a c = Ok c' -> iv c'.
Proof.
  intros V I Hcu H. assert (CI := cinv_replay solve arnoldi cf a _ _ (li_cinv _ _ _ V) H). unfold do_step_replay in H. apply bind_ok in H as (c1 & H1 & H).
  assert (V1 : dag (rep_map c1) c1 /\ lv (rep_map c1) c1 /\ iv c1 /\ (forall r, c_rep c1 = Some r -> rp_parent r < nN c1 /\ forall ch, In ch (rp_children r) -> live c1 ch)).
  { assert (D := ci_dag _ _ _ (li_cinv _ _ _ V)). assert (L := li_lv _ _ _ V). destruct (c_rep c) as [r|] eqn:Er.
    - apply ok_inj in H1; subst c1. split; [exact D|]. split; [exact L|]. split; [exact I|]. rewrite Er. intros r' K. rewrite <- Er in K. destruct (ci_rep _ _ _ (li_cinv _ _ _ V) r' K) as [K1 K2]. split; [exact K1|]. intros ch Hch. exact (li_rep _ _ _ V r' ch K Hch).
    - destruct (c_dwait c) as [|[p chs] dw] eqn:Ed; [discriminate|]. assert (Hin0 : In (p, chs) (c_dwait c)) by (rewrite Ed; left; auto). apply ok_inj in H1. subst c1. unfold rep_map in *. rewrite Er in D, L. cbn [c_rep with_rep rp_map].
      set (c1 := with_rep (with_dwait c dw) (Some (mkRep p chs 0 []))). assert (K : kc c c1) by (apply kc_same; reflexivity).
      split; [apply (dag_wait cf a _ c); auto; apply D|]. split; [apply (lv_kc cf a [] c); auto|]. split; [eapply iv_mv; [exact D|exact I|apply mv_same2; reflexivity]|].
      intros r' [= <-]. cbn [rp_parent rp_children]. destruct (ci_dw _ _ _ (li_cinv _ _ _ V) p chs Hin0) as [Kp _]. split; [exact Kp|]. intros ch Hch. apply (live_kc cf a [] c); auto. exact (li_dw _ _ _ V p chs ch Hin0 Hch). }
  clear V I H1 Hcu. destruct V1 as (D1 & L1 & I1 & R). destruct (c_rep c1) as [rp|] eqn:Er; [|discriminate]. destruct (nth_error _ _) as [x0|] in H; [|discriminate]. apply bind_ok in H as ([[[[c2 mp] i2] k2] p2] & H2 & H).
  unfold rep_map in D1, L1. rewrite Er in D1, L1. destruct (R rp eq_refl) as [R1 R2].
  assert (Hxs : forall o, In (NTr o) (skipn (rp_idx rp) (n_ops (getN c1 (rp_parent rp)))) -> o < nO c1) by (intros o Ho; apply in_skipn in Ho; apply (d_ntr _ _ _ _ D1) in Ho; tauto).
  assert (DP := dag_replay_loop solve cf a _ _ _ _ _ _ _ _ _ _ _ _ _ D1 (fun ch Q => live_lt _ _ (R2 ch Q)) Hxs H2). destruct DP as [D2 P2].
  assert (I2 := iv_replay_loop _ _ _ _ _ _ _ _ _ _ _ _ _ D1 L1 I1 R2 Hxs H2).
  apply (lv_replay_loop solve cf a _ _ _ _ _ _ _ _ _ _ _ _ _ D1 L1 R2 Hxs) in H2 as [L2 C2].
  apply bind_ok in H as (c3 & H3 & H). assert (I3 : iv c3) by (eapply iv_advance; [exact D2|exact I2| |exact H3]; intros ch Hch; apply (live_kc cf a _ c1 _ _ D1 C2); auto).
  apply keeps_advance in H3. assert (D3 := dag_k _ _ _ _ _ D2 H3). apply bind_ok in H as (u & _ & H).
  destruct (_ || _) in H.
  - apply bind_ok in H as (c4 & H4 & H). assert (I4 := iv_finish _ _ _ D3 I3 H4). apply ok_inj in H. subst c'.
    assert (D5 := ci_dag _ _ _ CI). change (rep_map (with_rep c4 None)) with (@nil ((nat * nat) * list nat)) in D5. assert (D4 : dag [] c4) by (apply (dag_wait cf a _ (with_rep c4 None)); auto; apply D5).
    eapply iv_mv; [exact D4|exact I4|apply mv_same2; reflexivity].
  - apply ok_inj in H; subst c'. eapply iv_mv; [exact D3|exact I3|apply mv_same2; reflexivity].
Qed.

Lemma iv_step c c' : linv c -> iv c -> do_step solve arnoldi cf a c = Ok c' -> iv c'.
Proof.
  intros V I H. unfold do_step in H. destruct (is_finished cf c); [apply ok_inj in H; subst; auto|]. destruct (cur_state c) as [[nid sid]|] eqn:Ec.
  - apply bind_ok in H as (c1 & H1 & H). apply ok_inj in H. unfold cur_state in Ec. destruct (c_cur c) as [n|] eqn:En; [|discriminate]. destruct (left_inv c n); [discriminate|]. injection Ec as -> <-.
    assert (V1 := linv_cont solve cf a _ _ _ _ V En H1). destruct (iv_cont solve cf a _ _ _ V I En H1) as (I1 & _). subst c'. eapply iv_mv; [exact (ci_dag _ _ _ (li_cinv _ _ _ V1))|exact I1|apply mv_same2; reflexivity].
  - assert (Hcu : c_cur c = None). { unfold cur_state in Ec. destruct (c_cur c) as [n|] eqn:En; [|auto]. destruct (li_cur _ _ _ V n En) as (_ & K & _). rewrite K in Ec. discriminate. }
    unfold doing_replay in H. destruct (c_rep c) eqn:Er; [apply (iv_replay c); auto|]. destruct (c_dwait c) eqn:Ed; [|apply (iv_replay c); auto].
    apply bind_ok in H as ([n|] & Hdn & H).
    + apply bind_ok in H as (c1 & H1 & H). assert (Ln : live c n) by (eapply deagg_live; [apply V|exact Hdn]).
      assert (Cu1 : c_cur c1 = None) by (destruct (cinv_begin solve arnoldi cf a c n c1 (li_cinv _ _ _ V) Er H1) as (_ & _ & ->); auto).
      assert (I1 := iv_begin _ _ _ V I Er Ln H1). apply (linv_begin solve arnoldi cf a) in H1; auto. apply (iv_replay c1); auto.
    + apply bind_ok in H as (c1 & H1 & H). destruct (iv_step_pop _ _ V I Hcu Er Ed H1) as (I1 & _). apply (linv_step_pop solve cf a arnoldi) in H1; auto. destruct (cur_state c1) as [[nid sid]|] eqn:Ec1; [|apply ok_inj in H; subst; auto].
      destruct (cf_urgent cf); [|apply ok_inj in H; subst; auto]. unfold check_guards in H. unfold cur_state in Ec1. destruct (c_cur c1) as [m|] eqn:Em; [|discriminate]. destruct (left_inv c1 m) eqn:Elf; [discriminate|]. injection Ec1 as -> <-.
      destruct (li_cur _ _ _ H1 nid Em) as (A1 & A2 & A3 & A4). assert (D1 := ci_dag _ _ _ (li_cinv _ _ _ H1)).
      eapply (iv_guards solve cf a _ nid); [exact D1|exact I1|apply live_lt; auto|exact H].
Qed.

(** initial states that no time has passed for (StateSet's default cur_steps_since_start) *)
Definition start_ok (s : sset) : Prop := ss_step s = 0 /\ ss_lo s = 0 /\ ss_hi s = 0.
Lemma iv_setup ss c : (forall s, In s ss -> start_ok s) -> setup solve a ss = Ok c -> iv c.
Proof.
  intros Hs H. unfold setup in H. apply bind_ok in H as (u & _ & H). apply bind_ok in H as (c1 & H1 & H).
  assert (E : c1 = c) by (destruct (c_wait c1); [discriminate|apply ok_inj in H; auto]). subst c1. clear u H.
  assert (CI : cinit c) by (apply (cinit_setup solve a ss core0); [apply cinit0|exact H1]).
  assert (K : forall ss c0 c', (forall s, In s ss -> start_ok s) -> (forall i, i < nS c0 -> start_ok (getS c0 i)) -> setup_states solve a c0 ss = Ok c' -> forall i, i < nS c' -> start_ok (getS c' i)).
  { clear. induction ss as [|s ss IH]; intros c0 c' Hs H0 H; cbn [setup_states] in H; [apply ok_inj in H; subst; auto|]. apply bind_ok in H as (f & _ & H).
    assert (Hs' : forall s', In s' ss -> start_ok s') by (intros; apply Hs; right; auto). destruct f; [|eauto]. apply bind_ok in H as ([[s1 ops] ok] & H1 & H). unfold intersect_invariant in H1. apply s3_inv in H1.
    destruct ok; [|eauto]. eapply IH; [exact Hs'| |exact H]. intros i Hi. set (s2 := ss_with_rows s1 _) in *.
    assert (G : getS (add_init_state c0 s2) i = if i =? nS c0 then s2 else getS c0 i) by apply (getS_add c0 s2 i). rewrite G. destruct (Nat.eqb_spec i (nS c0)).
    - destruct (Hs s (or_introl eq_refl)) as (A1 & A2 & A3). destruct H1 as (B1 & B2 & B3). unfold s2, start_ok. cbn. lia.
    - apply H0. unfold add_init_state in Hi. ccbn_in Hi. rewrite app_length in Hi. cbn in Hi. lia. }
  assert (Z := K ss core0 c Hs ltac:(cbn; lia) H1). destruct CI. constructor.
  - intros i Hi. destruct (Z i Hi) as (A1 & A2 & A3). lia.
  - rewrite cs_nodes. cbn. lia.
  - intros o M Ho HM. destruct (cs_ops o Ho) as (E & _). congruence.
  - intros o Ho _. unfold pstate. destruct (cs_ops o Ho) as (_ & _ & _ & ->). apply Z. lia.
  - intros o Ho _. unfold pstate. destruct (cs_ops o Ho) as (_ & _ & _ & ->). destruct (Z o ltac:(lia)) as (A1 & A2 & A3). unfold blo, bhi. lia.
Qed.
Lemma iv_reached ss c : (forall s, In s ss -> start_ok s) -> reached solve arnoldi cf a ss c -> iv c.
Proof. intros Hs R. induction R as [c H|c c' R IH H]; [eapply iv_setup; eauto|eapply iv_step; [eapply linv_reached; eauto|auto|exact H]]. Qed.
End Iv.
