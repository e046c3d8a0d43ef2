(** [xinv] holds in every state of every analysis. *)
From Verif Require Import Base BaseFacts LpModel LpUtil Automaton StateSet BuildFacts StateFacts CoreModel HeapFacts CoreOps CorePop CoreExt CoreDag CoreDag2 CoreDag3 CoreSpec CoreShape.
Open Scope nat_scope.

Section Shape.
Variable solve : solver.
Variable arnoldi : nat -> option (list Q) -> csr -> option csr -> nat -> list (list Q).
Variable cf : cfg.
Variable a : ha.
Notation dag := (dag cf a).
Notation cinv := (cinv cf a).
Notation xinv := (xinv a).

Lemma make_op_x c t l sid nid c' r : make_op_transition solve cf a c t l sid nid = Ok (c', r) ->
  (r = None /\ c' = c) \/ (r = Some (nO c) /\ exists s ctr, ss_mode s = t_to (get_trans a t) /\ ss_conc s = ss_conc (getS c sid) /\
     c' = with_ops (with_states c (c_states c ++ [s])) (c_ops c ++ [mkOp (ss_step (getS c sid)) (Some nid) None (Some t) (nS c) ctr])).
Proof.
  unfold make_op_transition. intro H. apply bind_ok in H as (p & _ & H). destruct p as [[l1 ctr]|]; [|apply ok_inj in H; injection H as <- <-; left; auto].
  apply bind_ok in H as (l2 & _ & H). apply bind_ok in H as (f & _ & H). apply bind_ok in H as (u & _ & H). apply bind_ok in H as (s & Hs & H). apply ok_inj in H. injection H as <- <-.
  right. split; [reflexivity|]. exists s, ctr. apply new_stateset_mode in Hs as (_ & K & _ & _ & _ & K2 & _). auto.
Qed.
Lemma same3_lpi c i l : same3 c (setS c i (ss_with_lpi (getS c i) l)).
Proof. apply same3_set. repeat split. Qed.
Lemma same3_err c sid t l c' : error_reached solve cf a c sid t l = Ok c' -> same3 c c'.
Proof. intro H. apply error_reached_ok in H as (ag & co & ce & -> & _). apply same3_eq; reflexivity. Qed.

Lemma xinv_add mp c t l sid nid c' : dag mp c -> xinv c -> nid < nN c -> n_state (getN c nid) = sid -> add_transition_successor solve cf a c t l sid nid = Ok c' -> xinv c'.
Proof.
  intros D X Hn Hs H. unfold add_transition_successor in H. apply bind_ok in H as ([c1 o] & H1 & H). apply make_op_x in H1 as [[-> ->]|[-> (s & ctr & Hm & Hc & ->)]].
  - apply ok_inj in H. subst c'. exact X.
  - apply ok_inj in H. set (x := mkOp (ss_step (getS c sid)) (Some nid) None (Some t) (nS c) ctr) in *.
    change (with_wait (with_new_op c s x nid) (c_wait (with_new_op c s x nid) ++ [nO c]) = c') in H. subst c'. apply (xinv_same a (with_new_op c s x nid)); [|apply same3_eq; reflexivity].
    apply (xinv_new_op cf a mp); auto. rewrite Hs. exact Hc.
Qed.
Lemma xinv_guards mp nid sid ts : forall c c', dag mp c -> xinv c -> nid < nN c -> n_state (getN c nid) = sid -> check_guards_loop solve cf a c nid sid ts = Ok c' -> xinv c'.
Proof.
  induction ts as [|t ts IH]; intros c c' D X Hn Hs H; cbn [check_guards_loop] in H; [apply ok_inj in H; subst; exact X|].
  apply bind_ok in H as ([l1 ol] & _ & H). cbn [fst snd] in H. set (c1 := setS c sid _) in H.
  assert (K1 : keeps c c1) by apply keeps_lpi. assert (D1 := dag_k _ _ _ _ _ D K1). assert (X1 : xinv c1) by (apply (xinv_same a c); [exact X|apply same3_lpi]).
  destruct ol as [l|]; [|exact (IH c1 c' D1 X1 Hn Hs H)].
  apply bind_ok in H as (c2 & H2 & H).
  assert (K2 : keeps c1 c2 /\ same3 c1 c2). { destruct (is_error _) in H2; [split; [eapply keeps_err; eauto|eapply same3_err; eauto]|apply ok_inj in H2; subst; split; [apply keeps_refl|apply same3_refl]]. }
  destruct K2 as [K2 S2]. assert (D2 := dag_k _ _ _ _ _ D1 K2). assert (X2 : xinv c2) by (apply (xinv_same a c1); auto). assert (N2 : nid < nN c2) by (rewrite (k_nodes _ _ K2); exact Hn).
  assert (Hs2 : n_state (getN c2 nid) = sid) by (rewrite (getN_eq _ _ nid (k_nodes _ _ K2)); exact Hs).
  destruct (_ && _) in H; [apply ok_inj in H; subst c'; auto|]. apply bind_ok in H as (c3 & H3 & H). apply bind_ok in H as (c4 & H4 & H).
  pose proof (xinv_add _ _ _ _ _ _ _ D2 X2 N2 Hs2 H3) as X3. pose proof (ext_add _ _ _ _ _ _ _ _ _ H3) as E3. destruct (dag_add _ _ _ _ _ _ _ _ _ _ D2 N2 H3) as [D3 P3].
  assert (K4 : keeps c3 c4 /\ same3 c3 c4).
  { destruct (_ && _) in H4; [|apply ok_inj in H4; subst; split; [apply keeps_refl|apply same3_refl]]. apply bind_ok in H4 as (w & _ & H4). apply ok_inj in H4. subst c4.
    destruct (snd w); (split; [first [apply keeps_lpi|eapply keeps_trans; [apply keeps_lpi|apply keeps_tt]]|first [apply same3_lpi|eapply same3_trans; [apply same3_lpi|apply same3_eq; reflexivity]]]). }
  destruct K4 as [K4 S4]. apply (IH c4 c'); [exact (dag_k _ _ _ _ _ D3 K4)|apply (xinv_same a c3); auto|rewrite (k_nodes _ _ K4), (pf_nN _ _ P3); exact N2| |exact H].
  rewrite (getN_eq _ _ nid (k_nodes _ _ K4)). rewrite (proj1 (ex_node _ _ E3 nid N2)). exact Hs2.
Qed.
Lemma xinv_intersect c nid c' ok : xinv c -> intersect_state solve a c nid (n_state (getN c nid)) = Ok (c', ok) -> xinv c'.
Proof.
  intros X H. unfold intersect_state in H. apply bind_ok in H as ([[s1 ops] ok1] & H1 & H). apply ok_inj in H. injection H as <- _. unfold intersect_invariant in H1. pose proof (inv_idx _ _ _ _ _ _ _ H1) as HI. apply f3_inv in H1.
  set (sid := n_state (getN c nid)) in *. assert (X1 : xinv (setS c sid s1)) by (apply (xinv_same a c); [exact X|apply same3_set; exact H1]).
  apply xinv_push_ops; [exact X1| |].
  - intros o Ho. apply in_map_iff in Ho as (? & Ho & _). discriminate.
  - intros k i b Hin Hn. apply in_map_iff in Hin as (ib & Hib & Hin). injection Hib as _ <- _. specialize (HI ib Hin). cbn in HI.
    assert (E : nodemode (setS c sid s1) nid = ss_mode (getS c sid)). { unfold nodemode. rewrite getN_setS. fold sid. apply (q_st _ _ (same3_set c sid s1 H1)). }
    rewrite E. exact HI.
Qed.
Lemma xinv_cont c nid c' : cinv c -> xinv c -> c_cur c = Some nid -> continuous_post solve cf a c nid (n_state (getN c nid)) = Ok c' -> xinv c'.
Proof.
  intros V X Hc H. assert (Hn := ci_cur _ _ _ V nid Hc). assert (D := ci_dag _ _ _ V). unfold continuous_post in H. set (sid := n_state (getN c nid)) in *.
  destruct (_ <=? _) in H; [apply ok_inj in H; subst c'; apply xinv_left; exact X|].
  destruct (c_tt c); [apply ok_inj in H; subst c'; apply xinv_left; apply (xinv_same a c); [exact X|apply same3_eq; reflexivity]|].
  apply bind_ok in H as ([c1 ok] & H1 & H). destruct (dag_intersect _ _ _ _ _ _ _ _ _ D H1) as [D1 P1]. pose proof (ext_intersect _ _ _ _ _ _ _ H1) as E1. pose proof (xinv_intersect _ _ _ _ X H1) as X1.
  destruct (negb ok) in H; [apply ok_inj in H; subst c'; apply xinv_left; auto|].
  apply bind_ok in H as (s1 & Hs & H). apply bind_ok in H as (c2 & H2 & H). assert (K := keeps_set c1 sid s1 (f2_step _ _ _ _ Hs)). unfold check_guards in H2.
  assert (X2 : xinv c2).
  { eapply xinv_guards; [exact (dag_k _ _ _ _ _ D1 K)| | | |exact H2].
    - apply (xinv_same a c1); [exact X1|]. apply same3_set. eapply f3_step; exact Hs.
    - rewrite (k_nodes _ _ K), (pf_nN _ _ P1). exact Hn.
    - rewrite (getN_eq _ _ nid (k_nodes _ _ K)). apply (ex_node _ _ E1 nid Hn). }
  destruct (m_a _) in H; [|discriminate]. destruct (_ && _) in H; apply ok_inj in H; subst c'; [apply xinv_left; auto|exact X2].
Qed.
Lemma xinv_pop c c' nid : cinv c -> xinv c -> pop_waiting_list solve arnoldi cf a c = Ok (c', nid) -> xinv c'.
Proof.
  intros V X H. assert (D := ci_dag _ _ _ V). unfold pop_waiting_list in H. apply bind_ok in H as (ops & Hops & H). apply bind_ok in H as (u & _ & H). apply bind_ok in H as (agg & _ & H). apply bind_ok in H as ([c1 n1] & Hm & H).
  apply ok_inj in H. injection H as <- <-. destruct (pop_ops_ptr _ _ c ops _ D Hops) as (K1 & K2 & K3 & _). set (w := filter (fun o => negb (mem o ops)) (c_wait c)) in *.
  assert (D1 : dag (rep_map c) (with_wait c w)). { apply nd_wait; [exact D|apply NoDup_filter, D|]. intros o Ho. apply filter_In in Ho. tauto. }
  assert (X1 : xinv c1). { eapply (xinv_make_node solve arnoldi cf a _ (with_wait c w)); [exact D1| |exact K1| | |exact Hm]; [apply (xinv_same a c); [exact X|apply same3_eq; reflexivity]| |discriminate].
    intros o Ho. apply K3 in Ho as [Ho _]. apply (d_wait _ _ _ _ D) in Ho. apply Ho. }
  apply (xinv_same a c1); [exact X1|apply same3_eq; reflexivity].
Qed.
Lemma xinv_step_pop c c' : cinv c -> xinv c -> do_step_pop solve arnoldi cf a c = Ok c' -> xinv c'.
Proof.
  intros V X H. unfold do_step_pop in H. apply bind_ok in H as ([c1 nid] & H1 & H). pose proof (xinv_pop _ _ _ V X H1) as X1.
  destruct (is_error _) in H; [apply ok_inj in H; subst c'; apply xinv_left; auto|].
  apply bind_ok in H as ([c2 ok] & H2 & H). pose proof (xinv_intersect _ _ _ _ X1 H2) as X2. destruct ok; apply ok_inj in H; subst c'; [auto|apply xinv_left; auto].
Qed.
Lemma xinv_begin c n c' : cinv c -> xinv c -> c_rep c = None -> begin_replay solve arnoldi a c n = Ok c' -> xinv c'.
Proof.
  intros V X Hrep H. assert (D := ci_dag _ _ _ V). unfold rep_map in D. rewrite Hrep in D. unfold begin_replay in H. apply bind_ok in H as (rm & _ & H). set (w := filter _ (c_wait c)) in H. set (c0 := with_wait c w) in *.
  assert (D0 : dag [] c0). { apply (dag_wait cf a _ c); auto; [apply NoDup_filter, D|]. intros o Ho. apply filter_In in Ho. tauto. }
  assert (X0 : xinv c0) by (apply (xinv_same a c); [exact X|apply same3_eq; reflexivity]).
  apply bind_ok in H as ([c2 chs] & H1 & H). apply ok_inj in H. subst c'. unfold split_node in H1. apply bind_ok in H1 as ([] & Ha & H1). apply bind_ok in H1 as (str & _ & H1).
  apply bind_ok in H1 as ([c3 n0] & M0 & H1). apply bind_ok in H1 as ([c4 n1] & M1 & H1). cbn [fst snd] in *. apply ok_inj in H1. injection H1 as <- <-.
  set (ps := n_parents (getN c0 n)) in *.
  assert (Hl : 2 <= List.length ps). { unfold assert in Ha. destruct (1 <? List.length ps) eqn:E; [apply Nat.ltb_lt in E; lia|discriminate]. }
  assert (Hn : n < nN c0). { destruct (lt_dec n (nN c0)) as [|K]; [auto|]. exfalso. unfold ps, getN in Hl. rewrite nth_overflow in Hl by lia. cbn in Hl. lia. }
  destruct (d_parents _ _ _ _ D0 n Hn) as (P1 & P2 & P3 & P4 & P5). fold ps in P1, P2, P4, P5.
  set (mid := Nat.div (List.length ps) 2) in *.
  assert (Hmid : 1 <= mid /\ mid < List.length ps). { unfold mid. split; [apply Nat.div_le_lower_bound; lia|apply Nat.div_lt; lia]. }
  assert (L1 : List.length (firstn mid ps) = mid) by (rewrite firstn_length; lia).
  assert (L2 : List.length (skipn mid ps) = List.length ps - mid) by apply skipn_length.
  assert (X1 : forall o, In o (firstn mid ps) -> In o ps) by (intros o; apply in_firstn).
  assert (X2 : forall o, In o (skipn mid ps) -> In o ps) by (intros o; apply in_skipn).
  assert (E1 : firstn mid ps <> []) by (intro K; rewrite K in L1; cbn [List.length] in L1; lia).
  assert (E2 : skipn mid ps <> []) by (intro K; rewrite K in L2; cbn [List.length] in L2; lia).
  assert (Nw : forall o, In o ps -> ~ In o (c_wait c0)). { intros o Ho K. apply (d_wait _ _ _ _ D0) in K as [_ K]. apply P5 in Ho as (_ & Ho & _). congruence. }
  assert (Mm : forall o, In o ps -> omode c0 o = nodemode c0 n) by (intros o Ho; apply P5; auto).
  assert (I1 : In (nth 0 (firstn mid ps) 0) ps) by (apply X1, nth_In; lia).
  assert (D3 : dag [] c3).
  { eapply dag_make_node; [exact D0|exact E1|apply NoDup_firstn; exact P2| | | |exact M0].
    - intros o Ho. split; [apply P5; auto|]. split; [apply Nw; auto|]. split; [intros []|]. rewrite !Mm by auto. reflexivity.
    - intros _ o Ho. apply P5; auto.
    - intro HP. apply (same_path_sub _ ps); [auto|]. apply (d_path _ _ _ _ D0 HP n Hn). }
  assert (X3 : xinv c3) by (refine (xinv_make_node solve arnoldi cf a _ _ _ _ _ _ _ D0 X0 E1 _ _ M0); [intros o Ho; apply P5; auto|discriminate]).
  apply make_node_ptr in M0 as (_ & _ & HO0 & _); [|exact E1|intros o Ho; apply P5; auto].
  assert (X4 : xinv c4) by (refine (xinv_make_node solve arnoldi cf a _ _ _ _ _ _ _ D3 X3 E2 _ _ M1); [intros o Ho; rewrite HO0; apply P5; auto|discriminate]).
  apply (xinv_same a c4); [exact X4|apply same3_eq; reflexivity].
Qed.

Lemma nth_err_lt {A} (l : list A) i x : nth_error l i = Some x -> i < List.length l.
Proof. intro H. apply nth_error_Some. congruence. Qed.
Lemma xinv_replay_op c mp ch x r : dag mp c -> xinv c -> ch < nN c -> replay_op solve cf a c mp ch x = Ok r -> xinv (fst r).
Proof.
  intros D X Hch H. destruct x as [k i st|k b|o]; cbn [replay_op] in H.
  - apply bind_ok in H as (c1 & H1 & H). apply ok_inj in H. subst r. cbn [fst]. unfold replay_inv in H1. apply bind_ok in H1 as (s & Hs & H1). destruct (nth_error _ _) as [lc|] eqn:Elc in H1; [|discriminate].
    apply bind_ok in H1 as ([[s2 o] st'] & Hc & H1). set (sid := n_state (getN c ch)) in *.
    pose proof (f3_step _ _ _ _ Hs) as F1. assert (F : frame3 (getS c sid) s2) by (eapply f3_trans; [exact F1|eapply f3_cond; exact Hc]).
    assert (X1 : xinv (setS c sid s2)) by (apply (xinv_same a c); [exact X|apply same3_set; exact F]).
    assert (Xp : xinv (push_op (setS c sid s2) ch (NInv k i st'))).
    { apply xinv_push; [exact X1|discriminate|]. intros k0 i0 b0 Hq _. injection Hq as _ <- _.
      assert (E : nodemode (setS c sid s2) ch = ss_mode (getS c sid)). { unfold nodemode. rewrite getN_setS. fold sid. apply (q_st _ _ (same3_set c sid s2 F)). }
      rewrite E. rewrite <- (proj1 F1). eapply nth_err_lt; exact Elc. }
    assert (Pl : forall c b, xinv c -> xinv (push_op c ch (NLeft k b))) by (intros; apply xinv_push; [assumption|discriminate|discriminate]).
    destruct o as [[|]|].
    + apply bind_ok in H1 as (f & _ & H1). destruct f; apply ok_inj in H1; subst c1; [exact Xp|apply Pl; exact Xp].
    + apply ok_inj in H1; subst c1. exact X1.
    + apply ok_inj in H1; subst c1. apply Pl. exact X1.
  - apply ok_inj in H. subst r. cbn [fst]. apply xinv_push; [exact X|discriminate|discriminate].
  - unfold replay_tr in H. apply bind_ok in H as (s & Hs & H). destruct (o_trans (getO c o)) as [t|] eqn:Et; [|discriminate]. apply bind_ok in H as ([l1 ol] & _ & H). cbn [fst snd] in H.
    set (sid := n_state (getN c ch)) in *.
    match type of H with context [Ok (?cc, mp)] => set (c2 := cc) in H end.
    assert (K2 : keeps c c2) by (eapply keeps_trans; [apply keeps_set; eapply f2_step; exact Hs|apply keeps_lpi]).
    assert (S2 : same3 c c2) by (eapply same3_trans; [apply same3_set; eapply f3_step; exact Hs|apply same3_lpi]).
    assert (D2 := dag_k _ _ _ _ _ D K2). assert (X2 : xinv c2) by (apply (xinv_same a c); auto).
    destruct ol as [l|]; [|apply ok_inj in H; subst r; auto]. apply bind_ok in H as (c3 & H3 & H).
    assert (K3 : keeps c2 c3 /\ same3 c2 c3). { destruct (is_error _) in H3; [split; [eapply keeps_err; eauto|eapply same3_err; eauto]|apply ok_inj in H3; subst; split; [apply keeps_refl|apply same3_refl]]. }
    destruct K3 as [K3 S3]. assert (K03 := keeps_trans _ _ _ K2 K3). assert (D3 := dag_k _ _ _ _ _ D2 K3). assert (X3 : xinv c3) by (apply (xinv_same a c2); auto).
    apply bind_ok in H as ([c4 no] & H4 & H). apply make_op_x in H4 as [[-> ->]|[-> (s' & ctr & Hm & Hc & ->)]]; [apply ok_inj in H; subst r; auto|].
    set (x := mkOp (ss_step (getS c3 sid)) (Some ch) None (Some t) (nS c3) ctr) in *.
    assert (X5 : xinv (with_new_op c3 s' x ch)).
    { apply (xinv_new_op cf a mp); auto; [rewrite (k_nodes _ _ K03); exact Hch|]. rewrite (getN_eq _ _ ch (k_nodes _ _ K03)). exact Hc. }
    destruct (o_child (getO c o)) as [k|]; apply ok_inj in H; subst r; cbn [fst]; [exact X5|]. apply (xinv_same a (with_new_op c3 s' x ch)); [exact X5|apply same3_eq; reflexivity].
Qed.
Lemma xinv_replay_children x chs : forall c mp r, dag mp c -> xinv c -> (forall ch, In ch chs -> ch < nN c) -> (forall o, x = NTr o -> o < nO c) -> replay_children solve cf a c mp chs x = Ok r -> xinv (fst r).
Proof.
  induction chs as [|ch chs IH]; intros c mp r D X Hch Hx H; cbn [replay_children] in H; [apply ok_inj in H; subst; exact X|].
  apply bind_ok in H as (r1 & H1 & H).
  assert (K : dag (snd r1) (fst r1) /\ pf c (fst r1) /\ xinv (fst r1)).
  { destruct (left_inv c ch); [apply ok_inj in H1; subst; split; [auto|split; [apply pf_refl|exact X]]|]. assert (Hc : ch < nN c) by (apply Hch; left; auto). destruct (dag_replay_op _ _ _ _ _ _ _ _ D Hc Hx H1) as [D1 P1].
    split; [exact D1|split; [exact P1|]]. exact (xinv_replay_op _ _ _ _ _ D X Hc H1). }
  destruct K as (D1 & P1 & X1). apply (IH _ _ r D1 X1) in H; auto.
  - intros k Hk. rewrite (pf_nN _ _ P1). apply Hch. right; auto.
  - intros o Ho. specialize (Hx o Ho). pose proof (pf_nO _ _ P1). lia.
Qed.
Lemma xinv_replay_loop chs xs : forall c mp idx cur only pl c' mp' i' cu' pl', dag mp c -> xinv c -> (forall ch, In ch chs -> ch < nN c) -> (forall o, In (NTr o) xs -> o < nO c) ->
  replay_loop solve cf a c mp chs idx cur only pl xs = Ok (c', mp', i', cu', pl') -> xinv c'.
Proof.
  induction xs as [|x xs IH]; intros c mp idx cur only pl c' mp' i' cu' pl' D X Hch Hx H; cbn [replay_loop] in H; [apply ok_inj in H; injection H as <- _ _ _ _; auto|].
  set (p := if (cur <? nop_step c x) && negb only then (Datatypes.S cur, true) else (cur, only)) in H. destruct p as [cur1 only1].
  destruct (negb _) in H; [apply ok_inj in H; injection H as <- _ _ _ _; auto|].
  destruct (only1 && _); [apply ok_inj in H; injection H as <- _ _ _ _; auto|]. apply bind_ok in H as (r1 & H1 & H).
  assert (Hx1 : forall o, x = NTr o -> o < nO c) by (intros o ->; apply Hx; left; auto).
  destruct (dag_replay_children _ _ _ x chs c mp r1 D Hch Hx1 H1) as [D1 P1]. pose proof (xinv_replay_children x chs c mp r1 D X Hch Hx1 H1) as X1.
  apply IH in H; auto.
  - intros k Hk. rewrite (pf_nN _ _ P1). auto.
  - intros o Ho. pose proof (Hx o (or_intror Ho)). pose proof (pf_nO _ _ P1). lia.
Qed.
Lemma xinv_advance k chs : forall c c', xinv c -> advance_children a c chs k = Ok c' -> xinv c'.
Proof.
  induction chs as [|ch chs IH]; intros c c' X H; cbn [advance_children] in H; [apply ok_inj in H; subst; auto|]. apply bind_ok in H as (c1 & H1 & H).
  apply (IH c1); [|exact H]. destruct (left_inv c ch); [apply ok_inj in H1; subst; exact X|]. apply bind_ok in H1 as (s & Hs & H1). apply ok_inj in H1. subst c1. apply (xinv_same a c); [exact X|]. apply same3_set. eapply f3_step; exact Hs.
Qed.
(** taking the first node of the map *)
Lemma finish_dag mp c ch k os c1 n : dag (((ch, k), os) :: mp) c -> make_node solve arnoldi a c os (n_agg (getN c k)) (ss_agg (getS c (n_state (getN c k)))) = Ok (c1, n) -> dag mp c1.
Proof.
  intros D H1. destruct (d_map _ _ _ _ D ch k os (or_introl eq_refl)) as (P1 & P2 & P3 & P4). pose proof (d_mapnd _ _ _ _ D) as ND. unfold pending in ND. cbn [map snd List.concat] in ND.
  apply NoDup_app_split in ND as (N1 & N2 & N3).
  assert (D0 : dag mp c). { constructor; try apply D; [exact N2|]. intros ch' k' os' K. apply (d_map _ _ _ _ D). right; auto. }
  assert (H0 : In (nth 0 os 0) os) by (destruct os; [congruence|left; reflexivity]).
  eapply dag_make_node; [exact D0|exact P1|exact N1| | | |exact H1].
  - intros o Ho. destruct (P4 o Ho) as (Q1 & Q2 & Q3 & Q4 & Q5 & _). destruct (P4 _ H0) as (_ & _ & _ & _ & Q6 & _). split; [auto|]. split; [auto|]. split; [exact (N3 o Ho)|congruence].
  - intros _ o Ho. destruct (P4 o Ho) as (_ & _ & -> & _). discriminate.
  - intros HP o o' Ho Ho'. destruct (P4 o Ho) as (_ & _ & -> & _ & _ & T1), (P4 o' Ho') as (_ & _ & -> & _ & _ & T2). split; [auto|].
    destruct (d_parents _ _ _ _ D k P3) as (Kn & _). destruct (n_parents (getN c k)) as [|q qs]; [congruence|]. rewrite <- (T1 HP q), <- (T2 HP q) by (left; auto). reflexivity.
Qed.
Lemma xinv_finish mp : forall c c', dag mp c -> xinv c -> finish_map solve arnoldi a c mp = Ok c' -> xinv c'.
Proof.
  induction mp as [|[[ch k] os] mp IH]; intros c c' D X H; cbn [finish_map] in H; [apply ok_inj in H; subst; auto|]. apply bind_ok in H as ([c1 n] & H1 & H).
  pose proof (finish_dag _ _ _ _ _ _ _ D H1) as D1. destruct (d_map _ _ _ _ D ch k os (or_introl eq_refl)) as (P1 & P2 & P3 & P4).
  assert (X1 : xinv c1) by (eapply xinv_make_node; [exact D|exact X|exact P1|intros o Ho; apply P4; auto|apply (x_str _ _ X); exact P3|exact H1]).
  apply IH in H; auto.
  - apply (dag_wait cf a _ c1); auto; apply D1.
  - apply (xinv_same a c1); [exact X1|apply same3_eq; reflexivity].
Qed.
Lemma xinv_replay c c' : cinv c -> xinv c -> do_step_replay solve arnoldi cf a c = Ok c' -> xinv c'.
Proof.
  intros V X H. unfold do_step_replay in H. apply bind_ok in H as (c1 & H1 & H).
  assert (V1 : cinv c1 /\ xinv c1).
  { destruct (c_rep c) as [r|] eqn:Er; [apply ok_inj in H1; subst; auto|]. destruct (c_dwait c) as [|[p chs] dw] eqn:Ed; [discriminate|]. apply ok_inj in H1. subst c1.
    assert (D := ci_dag _ _ _ V). unfold rep_map in D. rewrite Er in D. split; [constructor|].
    - unfold rep_map. cbn [c_rep with_rep rp_map]. apply (dag_wait cf a _ c); auto; apply D.
    - apply (ci_cur _ _ _ V).
    - intros p' chs' K. apply (ci_dw _ _ _ V). rewrite Ed. right; exact K.
    - cbn [c_rep with_rep]. intros r [= <-]. cbn [rp_parent rp_children]. apply (ci_dw _ _ _ V). rewrite Ed. left; reflexivity.
    - apply (xinv_same a c); [exact X|apply same3_eq; reflexivity]. }
  clear V X H1. destruct V1 as [V1 X1]. destruct (c_rep c1) as [rp|] eqn:Er; [|discriminate]. destruct (nth_error _ _) as [x0|] in H; [|discriminate]. apply bind_ok in H as ([[[[c2 mp] i2] k2] p2] & H2 & H).
  assert (D1 := ci_dag _ _ _ V1). unfold rep_map in D1. rewrite Er in D1. destruct (ci_rep _ _ _ V1 rp Er) as [R1 R2].
  assert (Hx : forall o, In (NTr o) (skipn (rp_idx rp) (n_ops (getN c1 (rp_parent rp)))) -> o < nO c1) by (intros o Ho; apply in_skipn in Ho; apply (d_ntr _ _ _ _ D1) in Ho; tauto).
  pose proof (xinv_replay_loop _ _ _ _ _ _ _ _ _ _ _ _ _ D1 X1 R2 Hx H2) as X2. apply (dag_replay_loop solve cf a _ _ _ _ _ _ _ _ _ _ _ _ _ D1 R2 Hx) in H2 as [D2 P2].
  apply bind_ok in H as (c3 & H3 & H). pose proof (xinv_advance _ _ _ _ X2 H3) as X3. apply (dag_advance cf a _ _ _ _ _ D2) in H3 as [D3 P3]. apply bind_ok in H as (u & _ & H).
  destruct (_ || _) in H.
  - apply bind_ok in H as (c4 & H4 & H). pose proof (xinv_finish _ _ _ D3 X3 H4) as X4. apply ok_inj in H. subst c'. apply (xinv_same a c4); [exact X4|apply same3_eq; reflexivity].
  - apply ok_inj in H; subst c'. apply (xinv_same a c3); [exact X3|apply same3_eq; reflexivity].
Qed.

Lemma xinv_step c c' : cinv c -> xinv c -> do_step solve arnoldi cf a c = Ok c' -> xinv c'.
Proof.
  intros V X H. unfold do_step in H. destruct (is_finished cf c); [apply ok_inj in H; subst; auto|]. destruct (cur_state c) as [[nid sid]|] eqn:Ec.
  - apply bind_ok in H as (c1 & H1 & H). apply ok_inj in H. subst c'. unfold cur_state in Ec. destruct (c_cur c) as [n|] eqn:En; [|discriminate]. destruct (left_inv c n); [discriminate|]. injection Ec as -> <-.
    apply xinv_cont in H1; auto. apply (xinv_same a c1); [exact H1|apply same3_eq; reflexivity].
  - unfold doing_replay in H. destruct (c_rep c) eqn:Er; [apply (xinv_replay c); auto|]. destruct (c_dwait c) eqn:Ed; [|apply (xinv_replay c); auto].
    apply bind_ok in H as ([n|] & _ & H).
    + apply bind_ok in H as (c1 & H1 & H). pose proof (xinv_begin _ _ _ V X Er H1) as X1. apply cinv_begin with (cf := cf) in H1 as [V1 _]; auto. apply (xinv_replay c1); auto.
    + apply bind_ok in H as (c1 & H1 & H). pose proof (xinv_step_pop _ _ V X H1) as X1. apply cinv_step_pop in H1; auto. destruct (cur_state c1) as [[nid sid]|] eqn:Ec1; [|apply ok_inj in H; subst; auto].
      destruct (cf_urgent cf); [|apply ok_inj in H; subst; auto]. unfold check_guards in H. unfold cur_state in Ec1. destruct (c_cur c1) as [m|] eqn:Em; [|discriminate]. destruct (left_inv c1 m); [discriminate|]. injection Ec1 as -> <-.
      eapply xinv_guards; [exact (ci_dag _ _ _ H1)|exact X1|exact (ci_cur _ _ _ H1 _ Em)|reflexivity|exact H].
Qed.

Lemma xinv_cinit c : cinit c -> (forall i, i < nS c -> ss_conc (getS c i) = true) -> xinv c.
Proof.
  intros [H1 H2 H3 H4 H5 H6 H7 H8] Hc. constructor; rewrite ?H1; cbn [List.length]; try (intros; lia).
  - intros o p Ho Hp. destruct (H8 o Ho) as (K & _). congruence.
  - intros o Ho _. unfold pstate. destruct (H8 o Ho) as (_ & _ & _ & ->). apply Hc. lia.
Qed.
Lemma setup_conc ss : forall c c', Forall (fun s => ss_conc s = true) ss -> (forall i, i < nS c -> ss_conc (getS c i) = true) -> setup_states solve a c ss = Ok c' -> forall i, i < nS c' -> ss_conc (getS c' i) = true.
Proof.
  induction ss as [|s ss IH]; intros c c' HF Hc H; cbn [setup_states] in H; [apply ok_inj in H; subst; auto|]. inversion HF as [|? ? Hs HF']; subst. apply bind_ok in H as (f & _ & H). destruct f; [|eauto]. apply bind_ok in H as ([[s1 ops] ok] & Hi & H).
  destruct ok; [|eauto]. refine (IH _ c' HF' _ H). intros i Hi'. change (i < List.length (c_states c ++ [ss_with_rows s1 (repeat None (List.length (m_inv (get_mode a (ss_mode s1)))))])) in Hi'. rewrite app_length in Hi'. cbn [List.length] in Hi'.
  change (getS (add_init_state c (ss_with_rows s1 (repeat None (List.length (m_inv (get_mode a (ss_mode s1))))))) i) with (getS (with_states c (c_states c ++ [ss_with_rows s1 (repeat None (List.length (m_inv (get_mode a (ss_mode s1)))))])) i).
  rewrite getS_add. destruct (Nat.eqb_spec i (nS c)); [|apply Hc; lia]. cbn [ss_with_rows ss_conc]. unfold intersect_invariant in Hi. apply f3_inv in Hi as (_ & -> & _). exact Hs.
Qed.
Lemma xinv_setup ss c : Forall (init_ok solve a) ss -> setup solve a ss = Ok c -> xinv c.
Proof.
  intros HF H. unfold setup in H. apply bind_ok in H as (u & _ & H). apply bind_ok in H as (c1 & H1 & H). assert (c1 = c) as -> by (destruct (c_wait c1); [discriminate|]; apply ok_inj in H; exact H).
  apply xinv_cinit; [exact (cinit_setup _ _ ss core0 _ cinit0 H1)|]. apply (setup_conc ss core0 c); [|cbn; intros; lia|exact H1].
  eapply Forall_impl; [|exact HF]. intros s (l & m & _ & Hs & _). apply new_stateset_mode in Hs as (_ & _ & _ & _ & _ & K & _). exact K.
Qed.
End Shape.
