(** [dag] through deaggregation; the whole run. *)
From Verif Require Import Base BaseFacts LpModel LpUtil Automaton StateSet BuildFacts StateFacts CoreModel HeapFacts CoreOps CorePop CoreExt CoreDag CoreDag2.
Open Scope nat_scope.

Section Dag.
Variable solve : solver.
Variable arnoldi : nat -> option (list Q) -> csr -> option csr -> nat -> list (list Q).
Variable cf : cfg.
Variable a : ha.
Notation dag := (dag cf a).
Notation cinv := (cinv cf a).

Lemma same_path_sub c l l' : (forall o, In o l' -> In o l) -> same_path c l -> same_path c l'.
Proof. intros H P o o' Ho Ho'. apply P; auto. Qed.

(** pf without the equality of nN *)
Lemma cinv_begin c n c' : cinv c -> c_rep c = None -> begin_replay solve arnoldi a c n = Ok c' -> cinv c' /\ c_rep c' = None /\ c_cur c' = c_cur c.
Proof.
  intros V Hrep H. assert (D := ci_dag _ _ _ V). unfold rep_map in D. rewrite Hrep in D. unfold begin_replay in H. apply bind_ok in H as (rm & _ & H). set (w := filter _ (c_wait c)) in H. set (c0 := with_wait c w) in *.
  assert (D0 : dag [] c0). { apply (dag_wait cf a _ c); auto; [apply NoDup_filter, D|]. intros o Ho. apply filter_In in Ho. tauto. }
  apply bind_ok in H as ([c2 chs] & H1 & H). apply ok_inj in H. subst c'. unfold split_node in H1. apply bind_ok in H1 as ([] & Ha & H1). apply bind_ok in H1 as (str & _ & H1).
  apply bind_ok in H1 as ([c3 n0] & M0 & H1). apply bind_ok in H1 as ([c4 n1] & M1 & H1). cbn [fst snd] in *. apply ok_inj in H1. injection H1 as <- <-.
  set (ps := n_parents (getN c0 n)) in *.
  assert (Hl : 2 <= List.length ps). { unfold assert in Ha. destruct (1 <? List.length ps) eqn:E; [apply Nat.ltb_lt in E; lia|discriminate]. }
  assert (Hn : n < nN c0). { destruct (lt_dec n (nN c0)) as [|K]; [auto|]. exfalso. unfold ps, getN in Hl. rewrite nth_overflow in Hl by lia. cbn in Hl. lia. }
  destruct (d_parents _ _ _ _ D0 n Hn) as (P1 & P2 & P3 & P4 & P5). fold ps in P1, P2, P4, P5.
  set (mid := Nat.div (List.length ps) 2) in *.
  assert (Hmid : 1 <= mid /\ mid < List.length ps). { unfold mid. split; [apply Nat.div_le_lower_bound; lia|apply Nat.div_lt; lia]. }
  assert (L1 : List.length (firstn mid ps) = mid) by (rewrite firstn_length; lia).
  assert (L2 : List.length (skipn mid ps) = List.length ps - mid) by apply skipn_length.
  assert (X1 : forall o, In o (firstn mid ps) -> In o ps) by (intros o; apply in_firstn).
  assert (X2 : forall o, In o (skipn mid ps) -> In o ps) by (intros o; apply in_skipn).
  assert (E1 : firstn mid ps <> []) by (intro K; rewrite K in L1; cbn [List.length] in L1; lia).
  assert (E2 : skipn mid ps <> []) by (intro K; rewrite K in L2; cbn [List.length] in L2; lia).
  assert (Nw : forall o, In o ps -> ~ In o (c_wait c0)). { intros o Ho K. apply (d_wait _ _ _ _ D0) in K as [_ K]. apply P5 in Ho as (_ & Ho & _). congruence. }
  assert (Mm : forall o, In o ps -> omode c0 o = nodemode c0 n) by (intros o Ho; apply P5; auto).
  assert (I1 : In (nth 0 (firstn mid ps) 0) ps) by (apply X1, nth_In; lia).
  assert (I2 : In (nth 0 (skipn mid ps) 0) ps) by (apply X2, nth_In; lia).
  assert (D3 : dag [] c3).
  { eapply dag_make_node; [exact D0|exact E1|apply NoDup_firstn; exact P2| | | |exact M0].
    - intros o Ho. split; [apply P5; auto|]. split; [apply Nw; auto|]. split; [intros []|]. rewrite !Mm by auto. reflexivity.
    - intros _ o Ho. apply P5; auto.
    - intro HP. apply (same_path_sub _ ps); [auto|]. apply (d_path _ _ _ _ D0 HP n Hn). }
  apply make_node_ptr in M0 as (En0 & HN0 & HO0 & X0 & GN0 & _ & _ & _ & Gf0 & _ & _ & Cu0 & Hw0 & Hd0 & Hr0 & _); [|exact E1|intros o Ho; apply P5; auto].
  assert (Om0 : forall o, In o ps -> omode c3 o = omode c0 o). { intros o Ho. unfold omode. destruct (Gf0 o) as (_ & _ & _ & ->). apply (ex_mode _ _ X0). apply (d_post _ _ _ _ D0). apply P5; auto. }
  assert (D4 : dag [] c4).
  { eapply dag_make_node; [exact D3|exact E2|apply NoDup_skipn; exact P2| | | |exact M1].
    - intros o Ho. split; [rewrite HO0; apply P5; auto|]. split; [rewrite Hw0; apply Nw; auto|]. split; [intros []|]. rewrite !Om0, !Mm by auto. reflexivity.
    - intros _ o Ho. destruct (Gf0 o) as (_ & -> & _). apply P5; auto.
    - intros HP. apply (same_path_sub _ ps); [auto|]. intros o o' Ho Ho'. destruct (Gf0 o) as (_ & -> & -> & _), (Gf0 o') as (_ & -> & -> & _). apply (d_path _ _ _ _ D0 HP n Hn); auto. }
  apply make_node_ptr in M1 as (En1 & HN1 & HO1 & _ & _ & _ & _ & _ & _ & _ & _ & Cu1 & Hw1 & Hd1 & Hr1 & _); [|exact E2|intros o Ho; rewrite HO0; apply P5; auto].
  assert (Hr : c_rep c4 = None) by (rewrite Hr1, Hr0; exact Hrep). assert (HN : nN c4 = S (S (nN c))) by (rewrite HN1, HN0; reflexivity).
  assert (Hd : c_dwait c4 = c_dwait c) by (rewrite Hd1, Hd0; reflexivity).
  split; [|split; [exact Hr|ccbn; rewrite Cu1, Cu0; reflexivity]]. constructor.
  - unfold rep_map. ccbn. rewrite Hr. apply (dag_wait cf a _ c4); auto; apply D4.
  - ccbn. rewrite Cu1, Cu0. intros m Km. apply (ci_cur _ _ _ V) in Km. rewrite HN. lia.
  - ccbn. rewrite Hd, HN. intros p chs K. apply in_app_iff in K as [K|[[= <- <-]|[]]].
    + destruct (ci_dw _ _ _ V p chs K) as [A1 A2]. split; [lia|]. intros ch Hch. specialize (A2 ch Hch). lia.
    + change (nN c0) with (nN c) in *. split; [lia|]. intros ch [<-|[<-|[]]]; lia.
  - ccbn. rewrite Hr. discriminate.
Qed.

Lemma dag_replay_op c mp ch x r : dag mp c -> ch < nN c -> (forall o, x = NTr o -> o < nO c) -> replay_op solve cf a c mp ch x = Ok r -> dag (snd r) (fst r) /\ pf c (fst r).
Proof.
  intros D Hch Hx H. destruct x as [k i st|k b|o]; cbn [replay_op] in H.
  - apply bind_ok in H as (c1 & H1 & H). apply ok_inj in H. subst r. cbn [fst snd]. unfold replay_inv in H1. apply bind_ok in H1 as (s & Hs & H1). destruct (nth_error _ _) in H1; [|discriminate].
    apply bind_ok in H1 as ([[s2 o] st'] & Hc & H1).
    assert (K : keeps c (setS c (n_state (getN c ch)) s2)) by (apply keeps_set; eapply f2_trans; [eapply f2_step; exact Hs|eapply f2_cond; exact Hc]).
    assert (D1 := dag_k _ _ _ _ _ D K). assert (P1 := pf_keeps _ _ K).
    assert (Pu : forall c x, (forall o, x <> NTr o) -> dag mp c -> dag mp (push_op c ch x)) by (intros; apply dag_push; auto).
    destruct o as [[|]|].
    + apply bind_ok in H1 as (f & _ & H1). destruct f; apply ok_inj in H1; subst c1.
      * split; [apply Pu; [discriminate|auto]|eapply pf_trans; [exact P1|apply pf_push]].
      * split; [apply Pu; [discriminate|apply Pu; [discriminate|auto]]|eapply pf_trans; [exact P1|eapply pf_trans; apply pf_push]].
    + apply ok_inj in H1; subst c1. auto.
    + apply ok_inj in H1; subst c1. split; [apply Pu; [discriminate|auto]|eapply pf_trans; [exact P1|apply pf_push]].
  - apply ok_inj in H. subst r. cbn [fst snd]. split; [apply dag_push; [auto|discriminate]|apply pf_push].
  - specialize (Hx o eq_refl). unfold replay_tr in H. apply bind_ok in H as (s & Hs & H). destruct (o_trans (getO c o)) as [t|] eqn:Et; [|discriminate]. apply bind_ok in H as ([l1 ol] & _ & H). cbn [fst snd] in H.
    match type of H with context [Ok (?cc, mp)] => set (c2 := cc) in H end.
    assert (K2 : keeps c c2) by (eapply keeps_trans; [apply keeps_set; eapply f2_step; exact Hs|apply keeps_lpi]).
    assert (D2 := dag_k _ _ _ _ _ D K2). assert (P2 := pf_keeps _ _ K2).
    destruct ol as [l|]; [|apply ok_inj in H; subst r; auto]. apply bind_ok in H as (c3 & H3 & H).
    assert (K3 : keeps c2 c3). { destruct (is_error _) in H3; [eapply keeps_err; eauto|apply ok_inj in H3; subst; apply keeps_refl]. }
    assert (K03 := keeps_trans _ _ _ K2 K3). assert (D3 := dag_k _ _ _ _ _ D2 K3). assert (P3 := pf_keeps _ _ K03).
    apply bind_ok in H as ([c4 no] & H4 & H). apply make_op_ptr in H4 as [[-> ->]|[-> (s' & ctr & Hm & _ & _ & ->)]]; [apply ok_inj in H; subst r; auto|].
    set (x := mkOp (ss_step (getS c3 (n_state (getN c ch)))) (Some ch) None (Some t) (nS c3) ctr) in *.
    assert (N3 : nN c3 = nN c) by apply P3. assert (O3 : c_ops c3 = c_ops c) by apply K03.
    destruct (dag_new_op cf a mp c3 s' x ch t D3 ltac:(rewrite N3; auto) eq_refl eq_refl eq_refl eq_refl Hm) as (D5 & B1 & B2 & B3 & B4 & B5 & B6 & B7 & B8 & B9 & B10 & B11 & B12).
    match type of H with context [Ok (?cc, map_add _ _ _)] => change cc with (with_new_op c3 s' x ch) in H end.
    set (c5 := with_new_op c3 s' x ch) in *.
    assert (P5 : pf c c5) by (constructor; [rewrite B2; auto|rewrite B4; apply P3|rewrite B5; apply P3|rewrite B6; apply P3|rewrite B1, O3; lia]).
    destruct (o_child (getO c o)) as [k|] eqn:Ek; apply ok_inj in H; subst r; cbn [fst snd].
    + split; [|exact P5]. destruct (d_child _ _ _ _ D o k Hx Ek) as [Kn Ki]. destruct (d_parents _ _ _ _ D k Kn) as (_ & _ & _ & _ & Kp). destruct (Kp o Ki) as (_ & _ & Ko & _).
      assert (Hlt : nO c3 < nO c5) by lia. assert (Ok5 : o < nO c3) by (rewrite O3; auto).
      assert (Xc : ext c c5) by (eapply ext_trans; [apply K03|exact B8]).
      assert (E1 : omode c5 o = omode c o). { unfold omode. rewrite B12 by auto. rewrite (getO_eq c c3 o O3). apply (ex_mode _ _ Xc). apply (d_post _ _ _ _ D); auto. }
      assert (E2 : nodemode c5 k = nodemode c k). { unfold nodemode. destruct (ex_node _ _ Xc k Kn) as [-> _]. apply (ex_mode _ _ Xc). apply (d_parents _ _ _ _ D); auto. }
      assert (E3 : n_parents (getN c5 k) = n_parents (getN c k)) by (apply (ex_node _ _ Xc k Kn)).
      assert (E4 : forall o', o' < nO c -> o_trans (getO c5 o') = o_trans (getO c o')) by (intros o' Ho'; apply (ex_op _ _ Xc); auto).
      apply dag_map_add; [exact D5|exact Hlt|rewrite B7; reflexivity|rewrite B3; exact B10|exact B11|rewrite B7; reflexivity|rewrite B2, N3; exact Hch|rewrite B2, N3; exact Kn| |].
      * rewrite B9, E2, <- Ko. destruct (o_parent (getO c o)) as [M|] eqn:EM.
        -- destruct (d_par _ _ _ _ D o M Hx EM) as (_ & _ & t' & Q1 & ->). congruence.
        -- rewrite (d_init _ _ _ _ D o Hx EM) in Et. discriminate.
      * intros HP o' Ho'. rewrite E3 in Ho'. rewrite B7. cbn [o_trans x]. rewrite E4 by (apply Kp; auto). rewrite <- Et. apply (d_path _ _ _ _ D HP k Kn); auto.
    + split; [|constructor; apply P5]. apply dag_wait_add; [exact D5|lia|rewrite B7; reflexivity|rewrite B3; exact B10|exact B11].
Qed.

Lemma dag_replay_children x chs : forall c mp r, dag mp c -> (forall ch, In ch chs -> ch < nN c) -> (forall o, x = NTr o -> o < nO c) -> replay_children solve cf a c mp chs x = Ok r -> dag (snd r) (fst r) /\ pf c (fst r).
Proof.
  induction chs as [|ch chs IH]; intros c mp r D Hch Hx H; cbn [replay_children] in H; [apply ok_inj in H; subst; split; [auto|apply pf_refl]|].
  apply bind_ok in H as (r1 & H1 & H).
  assert (K : dag (snd r1) (fst r1) /\ pf c (fst r1)).
  { destruct (left_inv c ch); [apply ok_inj in H1; subst; split; [auto|apply pf_refl]|]. eapply dag_replay_op; eauto. apply Hch. left; auto. }
  destruct K as [D1 P1]. destruct (IH _ _ r D1) as [D2 P2]; auto.
  - intros k Hk. rewrite (pf_nN _ _ P1). apply Hch. right; auto.
  - intros o Ho. specialize (Hx o Ho). pose proof (pf_nO _ _ P1). lia.
  - split; [auto|eapply pf_trans; eauto].
Qed.
Lemma dag_replay_loop chs xs : forall c mp idx cur only pl c' mp' i' cu' pl', dag mp c -> (forall ch, In ch chs -> ch < nN c) -> (forall o, In (NTr o) xs -> o < nO c) ->
  replay_loop solve cf a c mp chs idx cur only pl xs = Ok (c', mp', i', cu', pl') -> dag mp' c' /\ pf c c'.
Proof.
  induction xs as [|x xs IH]; intros c mp idx cur only pl c' mp' i' cu' pl' D Hch Hx H; cbn [replay_loop] in H; [apply ok_inj in H; injection H as <- <- _ _ _; split; [auto|apply pf_refl]|].
  set (p := if (cur <? nop_step c x) && negb only then (S cur, true) else (cur, only)) in H. destruct p as [cur1 only1].
  destruct (negb _) in H; [apply ok_inj in H; injection H as <- <- _ _ _; split; [auto|apply pf_refl]|].
  destruct (only1 && _); [apply ok_inj in H; injection H as <- <- _ _ _; split; [auto|apply pf_refl]|]. apply bind_ok in H as (r1 & H1 & H).
  destruct (dag_replay_children x chs c mp r1 D Hch) as [D1 P1]; auto; [intros o ->; apply Hx; left; auto|].
  apply IH in H as [D2 P2]; [split; [exact D2|eapply pf_trans; eauto]|exact D1| |].
  - intros k Hk. rewrite (pf_nN _ _ P1). auto.
  - intros o Ho. pose proof (Hx o (or_intror Ho)). pose proof (pf_nO _ _ P1). lia.
Qed.
Lemma dag_advance mp k chs : forall c c', dag mp c -> advance_children a c chs k = Ok c' -> dag mp c' /\ pf c c'.
Proof.
  induction chs as [|ch chs IH]; intros c c' D H; cbn [advance_children] in H; [apply ok_inj in H; subst; split; [auto|apply pf_refl]|]. apply bind_ok in H as (c1 & H1 & H).
  assert (K : keeps c c1).
  { destruct (left_inv c ch); [apply ok_inj in H1; subst; apply keeps_refl|]. apply bind_ok in H1 as (s & Hs & H1). apply ok_inj in H1. subst c1. apply keeps_set. eapply f2_step; exact Hs. }
  destruct (IH c1 c' (dag_k _ _ _ _ _ D K) H) as [D2 P2]. split; [auto|]. eapply pf_trans; [apply pf_keeps; exact K|exact P2].
Qed.

Definition dw_ok (c : core) : Prop := forall p chs, In (p, chs) (c_dwait c) -> p < nN c /\ forall ch, In ch chs -> ch < nN c.
Lemma dag_finish mp : forall c c', dag mp c -> dw_ok c -> (forall n, c_cur c = Some n -> n < nN c) -> finish_map solve arnoldi a c mp = Ok c' ->
  dag [] c' /\ dw_ok c' /\ (forall n, c_cur c' = Some n -> n < nN c').
Proof.
  induction mp as [|[[ch k] os] mp IH]; intros c c' D Hd Hc H; cbn [finish_map] in H; [apply ok_inj in H; subst; auto|]. apply bind_ok in H as ([c1 n] & H1 & H).
  destruct (d_map _ _ _ _ D ch k os (or_introl eq_refl)) as (P1 & P2 & P3 & P4). pose proof (d_mapnd _ _ _ _ D) as ND. unfold pending in ND. cbn [map snd List.concat] in ND.
  apply NoDup_app_split in ND as (N1 & N2 & N3).
  assert (D0 : dag mp c). { constructor; try apply D; [exact N2|]. intros ch' k' os' K. apply (d_map _ _ _ _ D). right; auto. }
  assert (H0 : In (nth 0 os 0) os) by (destruct os; [congruence|left; reflexivity]).
  assert (D1 : dag mp c1).
  { eapply dag_make_node; [exact D0|exact P1|exact N1| | | |exact H1].
    - intros o Ho. destruct (P4 o Ho) as (Q1 & Q2 & Q3 & Q4 & Q5 & _). destruct (P4 _ H0) as (_ & _ & _ & _ & Q6 & _). split; [auto|]. split; [auto|]. split; [exact (N3 o Ho)|congruence].
    - intros _ o Ho. destruct (P4 o Ho) as (_ & _ & -> & _). discriminate.
    - intros HP o o' Ho Ho'. destruct (P4 o Ho) as (_ & _ & -> & _ & _ & T1), (P4 o' Ho') as (_ & _ & -> & _ & _ & T2). split; [auto|].
      destruct (d_parents _ _ _ _ D k P3) as (Kn & _). destruct (n_parents (getN c k)) as [|q qs]; [congruence|]. rewrite <- (T1 HP q), <- (T2 HP q) by (left; auto). reflexivity. }
  apply make_node_ptr in H1 as (En & HN & _ & _ & _ & _ & _ & _ & _ & _ & _ & Cu & _ & Hdw & _); [|exact P1|intros o Ho; apply P4; auto].
  apply IH in H; auto.
  - apply (dag_wait cf a _ c1); auto; apply D1.
  - intros p chs K. ccbn. ccbn_in K. rewrite Hdw in K. rewrite HN. apply in_app_iff in K as [K|[[= <- <-]|[]]].
    + destruct (Hd p chs K) as [A1 A2]. split; [lia|]. intros q Hq. specialize (A2 q Hq). lia.
    + split; [lia|]. intros q [<-|[]]. lia.
  - ccbn. rewrite Cu, HN. intros m Km. apply Hc in Km. lia.
Qed.

Lemma cinv_replay c c' : cinv c -> do_step_replay solve arnoldi cf a c = Ok c' -> cinv c'.
Proof.
  intros V H. unfold do_step_replay in H. apply bind_ok in H as (c1 & H1 & H).
  assert (V1 : cinv c1).
  { destruct (c_rep c) as [r|] eqn:Er; [apply ok_inj in H1; subst; auto|]. destruct (c_dwait c) as [|[p chs] dw] eqn:Ed; [discriminate|]. apply ok_inj in H1. subst c1.
    assert (D := ci_dag _ _ _ V). unfold rep_map in D. rewrite Er in D. constructor.
    - unfold rep_map. cbn [c_rep with_rep rp_map]. apply (dag_wait cf a _ c); auto; apply D.
    - apply (ci_cur _ _ _ V).
    - intros p' chs' K. apply (ci_dw _ _ _ V). rewrite Ed. right; exact K.
    - cbn [c_rep with_rep]. intros r [= <-]. cbn [rp_parent rp_children]. apply (ci_dw _ _ _ V). rewrite Ed. left; reflexivity. }
  clear V H1. destruct (c_rep c1) as [rp|] eqn:Er; [|discriminate]. destruct (nth_error _ _) as [x0|] in H; [|discriminate]. apply bind_ok in H as ([[[[c2 mp] i2] k2] p2] & H2 & H).
  assert (D1 := ci_dag _ _ _ V1). unfold rep_map in D1. rewrite Er in D1. destruct (ci_rep _ _ _ V1 rp Er) as [R1 R2].
  apply (dag_replay_loop _ _ _ _ _ _ _ _ _ _ _ _ _ D1 R2) in H2 as [D2 P2].
  2:{ intros o Ho. apply in_skipn in Ho. apply (d_ntr _ _ _ _ D1) in Ho; tauto. }
  apply bind_ok in H as (c3 & H3 & H). apply (dag_advance _ _ _ _ _ D2) in H3 as [D3 P3]. apply bind_ok in H as (u & _ & H). assert (P := pf_trans _ _ _ P2 P3).
  assert (W : dw_ok c3). { intros p chs K. rewrite (pf_dw _ _ P) in K. rewrite (pf_nN _ _ P). apply (ci_dw _ _ _ V1); auto. }
  assert (C : forall n, c_cur c3 = Some n -> n < nN c3). { intros n K. rewrite (pf_cur _ _ P) in K. rewrite (pf_nN _ _ P). apply (ci_cur _ _ _ V1); auto. }
  destruct (_ || _) in H.
  - apply bind_ok in H as (c4 & H4 & H). apply (dag_finish _ _ _ D3 W C) in H4 as (D4 & W4 & C4). apply ok_inj in H. subst c'. constructor.
    + unfold rep_map. cbn [c_rep with_rep]. apply (dag_wait cf a _ c4); auto; apply D4.
    + exact C4.
    + exact W4.
    + discriminate.
  - apply ok_inj in H; subst c'. constructor.
    + unfold rep_map. cbn [c_rep with_rep rp_map]. apply (dag_wait cf a _ c3); auto; apply D3.
    + exact C.
    + exact W.
    + cbn [c_rep with_rep]. intros r [= <-]. cbn [rp_parent rp_children]. ccbn. rewrite (pf_nN _ _ P). auto.
Qed.

Lemma cinv_step c c' : cinv c -> do_step solve arnoldi cf a c = Ok c' -> cinv c'.
Proof.
  intros V H. unfold do_step in H. destruct (is_finished cf c); [apply ok_inj in H; subst; auto|]. destruct (cur_state c) as [[nid sid]|] eqn:Ec.
  - apply bind_ok in H as (c1 & H1 & H). apply ok_inj in H. subst c'. unfold cur_state in Ec. destruct (c_cur c) as [n|] eqn:En; [|discriminate]. destruct (left_inv c n); [discriminate|]. injection Ec as -> _.
    apply cinv_cont in H1; auto. destruct H1 as [D1 C1 W1 R1]. constructor; auto. change (rep_map (with_csteps c1 (S (c_csteps c1)))) with (rep_map c1). apply (dag_wait cf a _ c1); auto; apply D1.
  - unfold doing_replay in H. destruct (c_rep c) eqn:Er; [apply (cinv_replay c); auto|]. destruct (c_dwait c) eqn:Ed; [|apply (cinv_replay c); auto].
    apply bind_ok in H as ([n|] & _ & H).
    + apply bind_ok in H as (c1 & H1 & H). apply cinv_begin in H1 as [V1 _]; auto. apply (cinv_replay c1); auto.
    + apply bind_ok in H as (c1 & H1 & H). apply cinv_step_pop in H1; auto. destruct (cur_state c1) as [[nid sid]|] eqn:Ec1; [|apply ok_inj in H; subst; auto].
      destruct (cf_urgent cf); [|apply ok_inj in H; subst; auto]. unfold check_guards in H. unfold cur_state in Ec1. destruct (c_cur c1) as [m|] eqn:Em; [|discriminate]. destruct (left_inv c1 m); [discriminate|]. injection Ec1 as -> _.
      apply (dag_guards _ _ _ _ _ _ _ _ _ (ci_dag _ _ _ H1) (ci_cur _ _ _ H1 _ Em)) in H as [D2 P2]. apply (cinv_pf _ _ c1); auto; [apply P2|apply P2|rewrite (pf_nN _ _ P2); auto|]. rewrite (pf_cur _ _ P2), (pf_nN _ _ P2). apply (ci_cur _ _ _ H1).
Qed.

(** ** setup *)
Record cinit (c : core) : Prop := {
  cs_nodes : c_nodes c = []; cs_rep : c_rep c = None; cs_dw : c_dwait c = []; cs_cur : c_cur c = None; cs_roots : c_roots c = []; cs_wait : c_wait c = seq 0 (nO c);
  cs_len : nO c = nS c; cs_ops : forall o, o < nO c -> o_parent (getO c o) = None /\ o_child (getO c o) = None /\ o_trans (getO c o) = None /\ o_post (getO c o) = o }.
Lemma cinit0 : cinit core0. Proof. constructor; auto. cbn. lia. Qed.
Lemma cinit_setup ss : forall c c', cinit c -> setup_states solve a c ss = Ok c' -> cinit c'.
Proof.
  induction ss as [|s ss IH]; intros c c' V H; cbn [setup_states] in H; [apply ok_inj in H; subst; auto|]. apply bind_ok in H as (f & _ & H). destruct f; [|eauto]. apply bind_ok in H as ([[s1 ops] ok] & _ & H).
  destruct ok; [|eauto]. apply IH in H; auto. destruct V. unfold add_init_state. constructor; ccbn; auto.
  - rewrite cs_wait0, app_length. cbn [List.length]. rewrite seq_app. reflexivity.
  - rewrite !app_length. cbn. lia.
  - rewrite app_length. cbn [List.length]. intros o Ho. unfold getO. ccbn. rewrite nth_snoc. destruct (Nat.eqb_spec o (nO c)) as [->|]; [cbn; auto|]. apply cs_ops0. lia.
Qed.
Lemma cinit_inv c : cinit c -> cinv c.
Proof.
  intros [H1 H2 H3 H4 H5 H6 H7 H8]. constructor.
  - unfold rep_map. rewrite H2. constructor; rewrite ?H1, ?H5; cbn [List.length].
    + intros o N Ho K. destruct (H8 o Ho) as (_ & E & _). congruence.
    + intros; lia.
    + intros o M Ho K. destruct (H8 o Ho) as (E & _). congruence.
    + intros o Ho _. apply H8; auto.
    + intros o Ho. destruct (H8 o Ho) as (_ & _ & _ & ->). lia.
    + intros o o' Ho Ho'. destruct (H8 o Ho) as (_ & _ & _ & ->), (H8 o' Ho') as (_ & _ & _ & ->). auto.
    + intros; lia.
    + intros; lia.
    + rewrite H6. split; [apply seq_NoDup|]. intros o Ho. apply in_seq in Ho. split; [lia|]. apply H8. lia.
    + constructor.
    + intros ch k os [].
    + intro N. split; [intros []|intros [K _]; lia].
    + constructor.
  - rewrite H4. discriminate.
  - rewrite H3. intros p chs [].
  - rewrite H2. discriminate.
Qed.
Lemma cinv_setup ss c : setup solve a ss = Ok c -> cinv c.
Proof.
  unfold setup. intro H. apply bind_ok in H as (u & _ & H). apply bind_ok in H as (c1 & H1 & H). apply cinit_inv. apply (cinit_setup ss core0); [apply cinit0|]. destruct (c_wait c1); [discriminate|]. apply ok_inj in H. subst c1. exact H1.
Qed.

(** ** every core state of every run *)
Inductive reached (ss : list sset) : core -> Prop :=
| r_setup c : setup solve a ss = Ok c -> reached ss c
| r_step c c' : reached ss c -> do_step solve arnoldi cf a c = Ok c' -> reached ss c'.
Lemma cinv_reached ss c : reached ss c -> cinv c.
Proof. induction 1; [eapply cinv_setup; eauto|eapply cinv_step; eauto]. Qed.
Lemma run_reached ss fuel : forall c r, reached ss c -> run_loop solve arnoldi cf a fuel c = Some (Ok r) -> reached ss r.
Proof.
  induction fuel as [|f IH]; intros c r R H; cbn [run_loop] in H; destruct (is_finished cf c); try (injection H as <-; auto); [discriminate|].
  destruct (do_step solve arnoldi cf a c) as [c1|] eqn:E; [|discriminate]. apply (IH c1); [|exact H]. eapply r_step; eauto.
Qed.

(** ** the recursive traversals of the graph end *)
Lemma ancestors_ok c mp : dag mp c -> forall fuel n, n < fuel -> n < nN c -> exists l, get_ancestors fuel c n = Ok l.
Proof.
  intros D. induction fuel as [|f IH]; intros n Hf Hn; [lia|]. cbn [get_ancestors]. destruct (d_parents _ _ _ _ D n Hn) as (K1 & _ & _ & _ & K). destruct (n_parents (getN c n)) as [|o ps]; [congruence|].
  destruct (K o (or_introl eq_refl)) as (Ko & _ & _ & KM & _). destruct (o_parent (getO c o)) as [M|] eqn:EM; [|eauto]. specialize (KM M eq_refl). destruct (IH M ltac:(lia) ltac:(lia)) as (l & ->). cbn [bind]. eauto.
Qed.
Lemma tr_ops_in d o : In o (tr_ops d) <-> In (NTr o) (n_ops d).
Proof.
  unfold tr_ops. rewrite in_flat_map. split.
  - intros (x & K1 & K2). destruct x; try destruct K2 as [<-|[]]; try (destruct K2). exact K1.
  - intro K. exists (NTr o). split; [exact K|left; reflexivity].
Qed.
Lemma dedup_in l : forall acc k, In k (fold_left dedup_add l acc) -> In k acc \/ In k l.
Proof.
  induction l as [|x l IH]; intros acc k H; cbn [fold_left] in H; [auto|]. apply IH in H as [H|H]; [|right; right; auto]. unfold dedup_add in H. destruct (in_nat _ _) in H; [auto|]. apply in_app_iff in H as [H|[<-|[]]]; [auto|right; left; auto].
Qed.
Lemma map_res_ok {A B} (f : A -> res B) l : (forall x, In x l -> exists y, f x = Ok y) -> exists r, map_res f l = Ok r.
Proof.
  induction l as [|x l IH]; intro H; cbn [map_res]; [eauto|]. destruct (H x (or_introl eq_refl)) as (y & ->). cbn [bind]. destruct IH as (r & ->); [intros z Hz; apply H; right; auto|]. cbn [bind]. eauto.
Qed.
Lemma leaf_ops_ok c mp : dag mp c -> forall fuel n, nN c - n < fuel -> n < nN c -> exists l, leaf_ops fuel c n = Ok l.
Proof.
  intros D. induction fuel as [|f IH]; intros n Hf Hn; [lia|]. cbn [leaf_ops]. match goal with |- context [map_res ?g ?l] => destruct (map_res_ok g l) as (r & ->) end; [|cbn [bind]; eauto].
  intros k Hk. apply dedup_in in Hk as [[]|Hk]. apply in_flat_map in Hk as (o & K1 & K2). apply tr_ops_in in K1. destruct (d_ntr _ _ _ _ D n o Hn K1) as [K3 K4].
  destruct (o_child (getO c o)) as [k'|] eqn:Ek; [|destruct K2]. destruct K2 as [<-|[]]. destruct (d_child _ _ _ _ D o k' K3 Ek) as [Q1 Q2]. destruct (d_parents _ _ _ _ D k' Q1) as (_ & _ & _ & _ & Q3). destruct (Q3 o Q2) as (_ & _ & _ & Q4 & _).
  specialize (Q4 n K4). apply IH; lia.
Qed.
End Dag.
