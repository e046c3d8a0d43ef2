(** Step intervals, continued: continuous steps, new nodes, deaggregation, the whole run. *)
From Verif Require Import Base BaseFacts LpModel LpUtil Automaton StateSet StateFacts CoreModel HeapFacts CoreOps CorePop CoreExt CoreDag CoreDag2 CoreDag3 CoreLive CoreLive2 CoreIvl.
Open Scope nat_scope.

Section Iv.
Variable solve : solver.
Variable cf : cfg.
Variable a : ha.
Notation dag := (dag cf a).
Notation cinv := (cinv cf a).
Notation linv := (linv cf a).

Lemma out_trans_len m : List.length (out_trans a m) <= List.length (ha_trans a).
Proof.
  unfold out_trans. assert (F : forall (f : nat -> bool) l, List.length (filter f l) <= List.length l) by (induction l as [|x l IH]; cbn [filter]; [auto|destruct (f x); cbn [List.length]; lia]).
  etransitivity; [apply F|]. rewrite seq_length. auto.
Qed.

Lemma mv_intersect mp c nid sid c' ok : dag mp c -> intersect_state solve a c nid sid = Ok (c', ok) ->
  mv c c' /\ c_wait c' = c_wait c /\ same3 (getS c sid) (getS c' sid).
Proof.
  intros D H. unfold intersect_state in H. apply bind_ok in H as ([[s1 ops] ok1] & H1 & H). apply ok_inj in H. injection H as <- _. unfold intersect_invariant in H1.
  assert (F2 := f2_inv _ _ _ _ _ _ _ H1). assert (S3 := s3_inv _ _ _ _ _ _ _ H1). set (xs := map _ ops).
  assert (M : mv c (setS c sid s1)) by (apply mv_set_same; auto). split; [|split].
  - eapply mv_trans; [exact D|exact M|apply mv_push_ops].
  - assert (W : forall c0, c_wait (push_ops c0 nid xs) = c_wait c0) by (unfold push_ops; induction xs as [|x xs IH]; intro c0; cbn [fold_left]; [auto|rewrite IH; reflexivity]). rewrite W. reflexivity.
  - assert (W : forall c0, c_states (push_ops c0 nid xs) = c_states c0) by (unfold push_ops; induction xs as [|x xs IH]; intro c0; cbn [fold_left]; [auto|rewrite IH; reflexivity]).
    unfold getS at 2. rewrite W. change (nth sid (c_states (setS c sid s1)) dsset) with (getS (setS c sid s1) sid).
    destruct (lt_dec sid (nS c)) as [Hi|Hi]; [rewrite getS_set, Nat.eqb_refl by auto; exact S3|rewrite setS_out by lia; apply same3_refl].
Qed.

Lemma iv_cont c nid c' : linv c -> iv c -> c_cur c = Some nid -> continuous_post solve cf a c nid (n_state (getN c nid)) = Ok c' ->
  iv c' /\ oldlo c c' /\
  ((c_cur c' = None /\ c_wait c' = c_wait c) \/
   (ss_lo (getS c (n_state (getN c nid))) < cf_num cf /\ grows c c' (S (ss_lo (getS c (n_state (getN c nid))))) (List.length (ha_trans a)) /\
    (c_cur c' = None \/ c_cur c' = Some nid /\ ss_lo (getS c' (n_state (getN c' nid))) = S (ss_lo (getS c (n_state (getN c nid))))))).
Proof.
  intros V I Hc H. destruct (li_cur _ _ _ V nid Hc) as (Hl & Hlf & Hr & Hd). assert (Hn : nid < nN c) by (apply live_lt; auto).
  assert (D := ci_dag _ _ _ (li_cinv _ _ _ V)). unfold continuous_post in H. set (sid := n_state (getN c nid)) in *. assert (Hs : sid < nS c) by (apply (d_parents _ _ _ _ D); auto).
  assert (LL : forall mp c1 b, dag mp c1 -> iv c1 -> iv (left_invariant c1 nid sid b)) by (intros mp c1 b D1 I1; eapply iv_mv; [exact D1|exact I1|apply mv_left]).
  destruct (_ <=? _) eqn:El in H; [apply ok_inj in H; subst c'; split; [eauto|]; split; [eapply oldlo_mv; [exact D|exact I|apply mv_left]|left; auto]|]. apply Nat.leb_gt in El.
  destruct (c_tt c).
  { apply ok_inj in H. subst c'. assert (M : mv c (with_tt c false)) by (apply mv_same2; reflexivity). assert (K : keeps c (with_tt c false)) by apply keeps_tt. split; [eapply LL; [eapply dag_k; [exact D|exact K]|eapply iv_mv; eauto]|].
    split; [|left; auto]. eapply oldlo_mv; [exact D|exact I|]. eapply mv_trans; [exact D|exact M|apply mv_left]. }
  apply bind_ok in H as ([c1 ok] & H1 & H). destruct (dag_intersect solve cf a _ _ _ _ _ _ D H1) as [D1 P1]. destruct (lv_intersect solve cf a _ _ _ _ _ _ D (li_lv _ _ _ V) Hn H1) as (L1 & C1 & I1').
  destruct (mv_intersect _ _ _ _ _ _ D H1) as (M1 & W1 & T1). assert (I1 := iv_mv _ _ _ _ _ D I M1).
  destruct (negb ok) in H.
  { apply ok_inj in H. subst c'. split; [eauto|]. split; [eapply oldlo_mv; [exact D|exact I|]; eapply mv_trans; [exact D|exact M1|apply mv_left]|]. left. auto. }
  apply bind_ok in H as (s1 & Hs1 & H). apply bind_ok in H as (c2 & H2 & H). assert (K := keeps_set c1 sid s1 (f2_step _ _ _ _ Hs1)). unfold check_guards in H2.
  assert (N1 : live c1 nid) by (eapply live_kc; [exact D|exact C1|exact Hl]). assert (G1 : n_state (getN c1 nid) = sid) by (apply (ex_node _ _ (mv_ext _ _ M1) nid Hn)).
  unfold ss_step1 in Hs1. assert (M2 : mv c1 (setS c1 sid s1)) by (rewrite <- G1; rewrite <- G1 in Hs1; eapply mv_step; [exact D1|exact N1|exact Hs1]).
  set (c1' := setS c1 sid s1) in *. assert (D2 := dag_k _ _ _ _ _ D1 K). assert (I2 := iv_mv _ _ _ _ _ D1 I1 M2).
  assert (Hs1' : sid < nS c1) by (rewrite (mv_nS _ _ M1); auto).
  assert (E2 : getS c1' sid = s1) by (unfold c1'; rewrite getS_set, Nat.eqb_refl by auto; reflexivity).
  assert (Elo : ss_lo s1 = S (ss_lo (getS c sid))). { destruct T1 as (Q1 & Q2 & Q3). apply fr3_step in Hs1 as ((d & A1 & A2 & A3) & A4). lia. }
  assert (N2 : nid < nN c1') by (change (nid < nN c1); apply live_lt; auto). change (n_state (getN c1 nid)) with (n_state (getN c1' nid)) in G1.
  rewrite <- G1 in H2 at 1. destruct (iv_guards solve cf a _ nid _ c1' c2 D2 I2 N2 H2) as (I3 & O3 & R3 & G3 & T3). destruct (dag_guards solve cf a _ _ _ _ _ _ D2 N2 H2) as [D3 P3]. rewrite G1, E2, Elo in *.
  assert (OO : oldlo c c2) by (eapply oldlo_trans; [|exact O3]; eapply oldlo_mv; [exact D|exact I|]; eapply mv_trans; [exact D|exact M1|exact M2]).
  assert (GG : grows c c2 (S (ss_lo (getS c sid))) (List.length (ha_trans a))).
  { apply (grows_le _ _ _ (0 + List.length (out_trans a (ss_mode s1)))); [apply out_trans_len|]. eapply grows_trans; [exact O3|apply grows_same; exact W1|exact R3]. }
  destruct (m_a _) in H; [|discriminate]. destruct (_ && _) in H; apply ok_inj in H; subst c'.
  - split; [eauto|]. assert (ML := mv_left c2 nid sid false). assert (OL := oldlo_mv _ _ _ _ _ D3 I3 ML). split; [eapply oldlo_trans; [exact OO|exact OL]|]. right. split; [exact El|]. split; [|left; reflexivity].
    rewrite <- (Nat.add_0_r (List.length (ha_trans a))). eapply grows_trans; [exact OL|exact GG|apply grows_same; reflexivity].
  - split; [exact I3|]. split; [exact OO|]. right. split; [exact El|]. split; [exact GG|]. right. split; [rewrite (pf_cur _ _ P3); change (c_cur c1' = Some nid); change (c_cur c1 = Some nid); rewrite (pf_cur _ _ P1); exact Hc|].
    rewrite G3. destruct T3 as (_ & Q & _). rewrite Q. exact Elo.
Qed.

(** ** new nodes *)
Variable arnoldi : nat -> option (list Q) -> csr -> option csr -> nat -> list (list Q).
Lemma make_node_s3 c ops agg str c' nid : ops <> [] -> make_node solve arnoldi a c ops agg str = Ok (c', nid) ->
  (forall i, i < nS c -> same3 (getS c i) (getS c' i)) /\ (2 <= List.length ops -> ss_step (getS c' (nS c)) = 0).
Proof.
  intros Hne H. unfold make_node in H. apply bind_ok in H as ([c1 sid] & H1 & H). apply ok_inj in H.
  assert (P : (forall i, i < nS c -> same3 (getS c i) (getS c1 i)) /\ nS c <= nS c1 /\ (2 <= List.length ops -> sid = nS c /\ sid < nS c1 /\ ss_step (getS c1 (nS c)) = 0)).
  { destruct ops as [|o [|o2 ops]]; [congruence| |].
    - apply ok_inj in H1. injection H1 as <- <-. split; [intros; apply same3_refl|]. split; [auto|cbn; lia].
    - apply bind_ok in H1 as ([c2 s] & H1 & E2). apply ok_inj in E2. injection E2 as <- <-.
      assert (Q : ss_step s = 0 /\ (forall i, same3 (getS c i) (getS c2 i)) /\ nS c2 = nS c).
      { unfold aggregate_states in H1. cbv zeta in H1. remember (map (fun o => o_post (getO c o)) (o :: o2 :: ops)) as sids eqn:Esids in H1. clear Esids. destruct agg as [[k b]|]; [|discriminate].
        assert (PL : forall sids ls c0, (forall i, same3 (getS c0 i) (getS (put_lps c0 sids ls) i)) /\ nS (put_lps c0 sids ls) = nS c0).
        { clear. induction sids as [|i sids IH]; intros [|l ls] c0; cbn [put_lps]; try (split; [intro; apply same3_refl|reflexivity]). destruct (IH ls (setS c0 i (ss_with_lpi (getS c0 i) l))) as [A B]. split; [|rewrite B; apply nS_setS].
          intro j. eapply same3_trans; [|apply A]. destruct (lt_dec i (nS c0)) as [Hi|Hi]; [rewrite getS_set by auto; destruct (Nat.eqb_spec j i) as [->|]; [repeat split|apply same3_refl]|rewrite setS_out by lia; apply same3_refl]. }
        destruct k.
        - destruct (m_a _) in H1; [|discriminate]. apply bind_ok in H1 as (dd & _ & H1). apply bind_ok in H1 as (r & _ & H1). apply bind_ok in H1 as (s' & Hs & H1). apply ok_inj in H1. injection H1 as <- <-. apply new_stateset_mode in Hs as (_ & _ & Hz & _). split; [exact Hz|]. apply PL.
        - destruct (m_a _) in H1; [|discriminate]. apply bind_ok in H1 as (dd & _ & H1). apply bind_ok in H1 as (r & _ & H1). apply bind_ok in H1 as (s' & Hs & H1). apply ok_inj in H1. injection H1 as <- <-. apply new_stateset_mode in Hs as (_ & _ & Hz & _). split; [exact Hz|]. apply PL.
        - apply bind_ok in H1 as (l & _ & H1). apply bind_ok in H1 as (s' & Hs & H1). apply ok_inj in H1. injection H1 as <- <-. apply new_stateset_mode in Hs as (_ & _ & Hz & _). split; [exact Hz|]. split; [intro; apply same3_refl|reflexivity]. }
      destruct Q as (Q1 & Q2 & Q3). ccbn. rewrite app_length. cbn [List.length]. split; [|split; [lia|]].
      + intros i Hi. rewrite getS_add. destruct (Nat.eqb_spec i (nS c2)); [lia|apply Q2].
      + intros _. split; [exact Q3|]. split; [lia|]. rewrite <- Q3, getS_add, Nat.eqb_refl. exact Q1. }
  destruct P as (P1 & P2 & P3). set (c2 := setS c1 sid _) in H.
  assert (S2 : forall i, same3 (getS c1 i) (getS c2 i)).
  { intro j. unfold c2. destruct (lt_dec sid (nS c1)) as [Hi|Hi]; [rewrite getS_set by auto; destruct (Nat.eqb_spec j sid) as [->|]; [repeat split|apply same3_refl]|rewrite setS_out by lia; apply same3_refl]. }
  pose proof (set_childs_spec ops (nN c2) c2) as Q. cbn zeta in Q. destruct Q as (E1 & _).
  assert (F : forall i, getS c' i = getS c2 i).
  { intro i. unfold getS. rewrite <- E1. destruct (existsb _ _) in H; injection H as <- _; reflexivity. }
  split.
  - intros i Hi. rewrite F. eapply same3_trans; [apply P1; auto|apply S2].
  - intro L. destruct (P3 L) as (_ & _ & Q). rewrite F. destruct (S2 (nS c)) as (-> & _). exact Q.
Qed.

Lemma idle_keep mp c o c' : dag mp c -> o < nO c -> o_child (getO c' o) = o_child (getO c o) -> (forall n, n < nN c -> n_parents (getN c' n) = n_parents (getN c n)) -> idle c o <-> idle c' o.
Proof.
  intros D Ho Ec Ep. unfold idle. rewrite Ec. split; intros H N HN; destruct (d_child _ _ _ _ D o N Ho HN) as [K _]; [rewrite Ep by auto; auto|rewrite <- Ep by auto; auto].
Qed.
Lemma iv_make_node mp c ops agg str c' nid : dag mp c -> iv c -> ops <> [] -> (forall o, In o ops -> o < nO c /\ idle c o) -> make_node solve arnoldi a c ops agg str = Ok (c', nid) ->
  iv c' /\ oldlo c c' /\ (forall o, In o ops -> ss_lo (pstate c o) = blo (pstate c o)) /\
  ss_lo (getS c' (n_state (getN c' nid))) = minl (map (fun o => blo (pstate c o)) ops).
Proof.
  intros D I Hne Ho H. destruct (make_node_s3 _ _ _ _ _ _ Hne H) as [S3 Sz]. apply make_node_ptr in H as (En & HN & HO & E & GN & Gp & Gq & _ & Gf & Gc & Gx & _ & _ & _ & _ & _ & Q1 & Q2); [|auto|intros o K; apply Ho; auto].
  assert (Hz : forall o, In o ops -> ss_step (pstate c o) = 0) by (intros o K; destruct (Ho o K); apply (iv_f _ I); auto).
  assert (Hb : forall o, In o ops -> ss_lo (pstate c o) = blo (pstate c o) /\ ss_hi (pstate c o) = bhi (pstate c o)) by (intros o K; unfold blo, bhi; rewrite (Hz o K); lia).
  assert (Gpost : forall o, o_post (getO c' o) = o_post (getO c o)) by (intro o; apply Gf).
  assert (Lc : List.length ops = 1 \/ 2 <= List.length ops) by (destruct ops as [|? [|? ?]]; [congruence|left; reflexivity|right; cbn; lia]).
  assert (Bs : forall i, i < nS c -> blo (getS c' i) = blo (getS c i) /\ bhi (getS c' i) = bhi (getS c i)) by (intros i Hi; destruct (S3 i Hi) as (A1 & A2 & A3); unfold blo, bhi; lia).
  assert (Bo : forall o, o < nO c -> blo (pstate c' o) = blo (pstate c o) /\ bhi (pstate c' o) = bhi (pstate c o)) by (intros o K; unfold pstate; rewrite Gpost; apply Bs, (d_post _ _ _ _ D); auto).
  assert (NS : nS c <= nS c') by apply (ex_nS _ _ E).
  assert (Nst : forall N, N < nN c -> n_state (getN c N) < nS c) by (intros N K; apply (d_parents _ _ _ _ D); auto).
  assert (E1 : map (fun o => ss_lo (pstate c o)) ops = map (fun o => blo (pstate c o)) ops) by (apply map_ext_in; intros o K; apply Hb; auto).
  assert (E2 : map (fun o => ss_hi (pstate c o)) ops = map (fun o => bhi (pstate c o)) ops) by (apply map_ext_in; intros o K; apply Hb; auto).
  assert (Hnil : forall o, In o (n_parents (getN c' nid)) -> In o ops) by (rewrite Gp; auto).
  assert (Gpar : forall n, n < nN c -> n_parents (getN c' n) = n_parents (getN c n)) by (intros n K; rewrite GN by auto; reflexivity).
  split; [|split; [|split]].
  - constructor; rewrite ?HN, ?HO.
    + intros i Hi. destruct (lt_dec i (nS c)) as [K|K].
      * destruct (S3 i K) as (A1 & A2 & A3). destruct (iv_s _ I i K). lia.
      * destruct Lc as [L|L]; [destruct (Q1 L); lia|]. destruct (Q2 L) as (_ & A2 & _ & A4 & A5 & _). assert (i = nS c) by lia. subst i. rewrite (Sz L), A4, A5, E1, E2. split; [lia|].
        assert (W : forall o, In o ops -> blo (pstate c o) <= bhi (pstate c o)) by (intros o Q; destruct (Ho o Q) as [Q0 _]; destruct (iv_s _ I (o_post (getO c o)) ltac:(apply (d_post _ _ _ _ D); auto)); unfold blo, bhi, pstate; lia).
        destruct ops as [|o os]; [congruence|]. cbn [map]. unfold minl, maxl. cbn [fold_left]. clear - W. 
        assert (A : forall (l : list nat) x, fold_left Nat.min l x <= x) by (induction l as [|y l IH]; intro x; cbn [fold_left]; [auto|specialize (IH (Nat.min x y)); lia]).
        assert (B : forall (l : list nat) x, x <= fold_left Nat.max l x) by (induction l as [|y l IH]; intro x; cbn [fold_left]; [auto|specialize (IH (Nat.max x y)); lia]).
        specialize (W o (or_introl eq_refl)). pose proof (A (map (fun o => blo (pstate c o)) os) (blo (pstate c o))). pose proof (B (map (fun o => bhi (pstate c o)) os) (Nat.max 0 (bhi (pstate c o)))). lia.
    + intros N K. destruct (Nat.eq_dec N nid) as [->|Hx].
      * rewrite Gp. intro L. destruct (Q2 L) as (-> & _ & _ & A4 & A5 & _). unfold blo at 1, bhi at 1. rewrite (Sz L), A4, A5, E1, E2, !Nat.sub_0_r. split; f_equal; apply map_ext_in; intros o Q; symmetry; apply Bo; apply Ho; auto.
      * rewrite GN by lia. intro L. destruct (Bs _ (Nst N ltac:(lia))) as [-> ->]. destruct (iv_n _ I N ltac:(lia) L) as [-> ->].
        assert (P : forall o, In o (n_parents (getN c N)) -> o < nO c) by (intros o Q; apply (d_parents _ _ _ _ D N ltac:(lia)); auto). split; f_equal; apply map_ext_in; intros o Q; symmetry; apply Bo; auto.
    + intros o M K KM. destruct (Gf o) as (Es & Ep & _). rewrite Ep in KM. rewrite Es. destruct (d_par _ _ _ _ D o M K KM) as (HM & _). rewrite GN by auto. destruct (Bo o K) as [-> ->], (Bs _ (Nst M HM)) as [-> ->]. apply (iv_o _ I); auto.
    + intros o K Hi. unfold pstate. rewrite Gpost. destruct (S3 (o_post (getO c o)) (d_post _ _ _ _ D o K)) as (-> & _). destruct (in_dec Nat.eq_dec o ops) as [Q|Q]; [apply Hz; auto|].
      apply (iv_f _ I); auto. apply (idle_keep mp c o c'); auto.
    + intros o K KM. destruct (Gf o) as (_ & Ep & _). rewrite Ep in KM. destruct (Bo o K) as [-> ->]. apply (iv_i _ I); auto.
  - split; [exact Bo|lia].
  - intros o K. apply Hb; auto.
  - destruct Lc as [L|L].
    + destruct (Q1 L) as [-> _]. destruct ops as [|o [|? ?]]; try (cbn in L; lia). cbn [nth map minl fold_left]. destruct (Hb o (or_introl eq_refl)) as [<- _]. destruct (Ho o (or_introl eq_refl)) as [Q _]. destruct (S3 _ (d_post _ _ _ _ D o Q)) as (_ & -> & _). reflexivity.
    + destruct (Q2 L) as (-> & _ & _ & -> & _). rewrite E1. reflexivity.
Qed.
Lemma idle_none c o : o_child (getO c o) = None -> idle c o.
Proof. intros H N HN. congruence. Qed.
End Iv.
