(** Step intervals (StateSet.cur_steps_since_start) along every run: the interval of a state when it was created is
    [blo, bhi]; nodes have the hull of their parents' intervals, successors that of their node shifted. *)
From Verif Require Import Base BaseFacts LpModel LpUtil Automaton StateSet StateFacts CoreModel HeapFacts CoreOps CorePop CoreExt CoreDag CoreDag2 CoreDag3 CoreLive CoreLive2.
Open Scope nat_scope.

Definition fr3 (s s' : sset) : Prop := exists d, ss_step s' = ss_step s + d /\ ss_lo s' = ss_lo s + d /\ ss_hi s' = ss_hi s + d.
Definition same3 (s s' : sset) : Prop := ss_step s' = ss_step s /\ ss_lo s' = ss_lo s /\ ss_hi s' = ss_hi s.
Lemma same3_refl s : same3 s s. Proof. repeat split. Qed.
Lemma same3_trans s1 s2 s3 : same3 s1 s2 -> same3 s2 s3 -> same3 s1 s3.
Proof. intros (A1 & A2 & A3) (B1 & B2 & B3). repeat split; congruence. Qed.
Lemma same3_fr s s' : same3 s s' -> fr3 s s'.
Proof. intros (A1 & A2 & A3). exists 0. lia. Qed.
Lemma fr3_trans s1 s2 s3 : fr3 s1 s2 -> fr3 s2 s3 -> fr3 s1 s3.
Proof. intros (d & A1 & A2 & A3) (e & B1 & B2 & B3). exists (d + e). lia. Qed.
Lemma fr3_step a s k s' : ss_step_to a s k = Ok s' -> fr3 s s' /\ ss_step s' = k.
Proof.
  unfold ss_step_to. intro H. apply bind_ok in H as (u & Hu & H). apply assert_ok in Hu. apply Nat.leb_le in Hu. destruct (_ =? _) eqn:E in H.
  - apply Nat.eqb_eq in E. apply ok_inj in H; subst. split; [exists 0; lia|lia].
  - destruct (m_a _) in H; [|discriminate]. apply bind_ok in H as (l & _ & H). apply bind_ok in H as (li & _ & H). apply ok_inj in H. subst. cbn [ss_step ss_lo ss_hi]. split; [exists (k - ss_step s); cbn [ss_step ss_lo ss_hi]; lia|reflexivity].
Qed.
Lemma s3_cond solve s i c s' o st : inv_cond solve s i c = Ok (s', o, st) -> same3 s s'.
Proof.
  unfold inv_cond. intro H. apply bind_ok in H as ([l1 r] & _ & H). cbn [fst snd] in H. destruct r as [[|]|].
  - match type of H with match ?z with _ => _ end = _ => destruct z as [old|] end.
    + apply bind_ok in H as ([[l j] sg] & _ & H). apply ok_inj in H. injection H as <- _ _. repeat split.
    + apply bind_ok in H as (li & _ & H). apply ok_inj in H. injection H as <- _ _. repeat split.
  - apply ok_inj in H. injection H as <- _ _. repeat split.
  - apply ok_inj in H. injection H as <- _ _. repeat split.
Qed.
Lemma s3_inv solve cs : forall s i s' ops ok, intersect_inv solve s i cs = Ok (s', ops, ok) -> same3 s s'.
Proof.
  induction cs as [|c cs IH]; intros s i s' ops ok H; cbn [intersect_inv] in H; [apply ok_inj in H; injection H as <- _ _; apply same3_refl|].
  apply bind_ok in H as ([[s1 o] st] & H1 & H). apply s3_cond in H1.
  assert (K : forall i, forall ops ok, intersect_inv solve s1 i cs = Ok (s', ops, ok) -> same3 s s') by (intros; eapply same3_trans; eauto).
  destruct o as [[|]|]; [|eauto|eauto]. apply bind_ok in H as (f & _ & H). destruct f; [|apply ok_inj in H; injection H as <- _ _; exact H1].
  apply bind_ok in H as ([[s2 ops2] ok2] & H2 & H). apply ok_inj in H. injection H as <- _ _. eauto.
Qed.

Definition blo (s : sset) : nat := ss_lo s - ss_step s.
Definition bhi (s : sset) : nat := ss_hi s - ss_step s.

(** the poststate of [o] has not been continued *)
Definition idle (c : core) (o : nat) : Prop := forall N, o_child (getO c o) = Some N -> 2 <= List.length (n_parents (getN c N)).

Record iv (c : core) : Prop := {
  iv_s : forall i, i < nS c -> ss_step (getS c i) <= ss_lo (getS c i) /\ ss_lo (getS c i) <= ss_hi (getS c i);
  iv_n : forall N, N < nN c -> 2 <= List.length (n_parents (getN c N)) ->
           blo (getS c (n_state (getN c N))) = minl (map (fun o => blo (pstate c o)) (n_parents (getN c N))) /\
           bhi (getS c (n_state (getN c N))) = maxl (map (fun o => bhi (pstate c o)) (n_parents (getN c N)));
  iv_o : forall o M, o < nO c -> o_parent (getO c o) = Some M ->
           blo (pstate c o) = blo (getS c (n_state (getN c M))) + o_step (getO c o) /\ bhi (pstate c o) = bhi (getS c (n_state (getN c M))) + o_step (getO c o);
  iv_f : forall o, o < nO c -> idle c o -> ss_step (pstate c o) = 0;
  iv_i : forall o, o < nO c -> o_parent (getO c o) = None -> blo (pstate c o) = 0 /\ bhi (pstate c o) = 0 }.

(** states move, nothing else *)
Record mv (c c' : core) : Prop := {
  mv_ext : ext c c'; mv_nS : nS c' = nS c; mv_nN : nN c' = nN c; mv_ops : c_ops c' = c_ops c;
  mv_st : forall i, i < nS c -> fr3 (getS c i) (getS c' i);
  mv_id : forall o, o < nO c -> idle c o -> ss_step (pstate c' o) = ss_step (pstate c o) }.

Section Iv.
Variable solve : solver.
Variable cf : cfg.
Variable a : ha.
Notation dag := (dag cf a).

Lemma mv_refl c : mv c c.
Proof. constructor; auto using ext_refl. intros i _. apply same3_fr, same3_refl. Qed.
Lemma idle_mv mp c c' o : dag mp c -> mv c c' -> o < nO c -> idle c o <-> idle c' o.
Proof.
  intros D M Ho. unfold idle. rewrite (getO_eq c c') by apply M. split; intros H N HN; destruct (d_child _ _ _ _ D o N Ho HN) as [K _]; destruct (ex_node _ _ (mv_ext _ _ M) N K) as [_ E]; [rewrite E; auto|rewrite <- E; auto].
Qed.
Lemma mv_trans mp c1 c2 c3 : dag mp c1 -> mv c1 c2 -> mv c2 c3 -> mv c1 c3.
Proof.
  intros D A B. constructor.
  - eapply ext_trans; [apply A|apply B].
  - rewrite (mv_nS _ _ B). apply A.
  - rewrite (mv_nN _ _ B). apply A.
  - rewrite (mv_ops _ _ B). apply A.
  - intros i Hi. eapply fr3_trans; [apply (mv_st _ _ A); auto|apply (mv_st _ _ B)]. rewrite (mv_nS _ _ A). auto.
  - intros o Ho Hi. rewrite (mv_id _ _ B o); [apply (mv_id _ _ A); auto|rewrite (mv_ops _ _ A); auto|]. apply (idle_mv _ _ _ _ D A Ho); auto.
Qed.
Lemma mv_same c c' : ext c c' -> c_states c' = c_states c -> c_ops c' = c_ops c -> nN c' = nN c -> mv c c'.
Proof.
  intros E H1 H2 H3. assert (G : forall i, getS c' i = getS c i) by (intro; unfold getS; rewrite H1; reflexivity). constructor; auto; [congruence| |].
  - intros i _. rewrite G. apply same3_fr, same3_refl.
  - intros o _ _. unfold pstate. rewrite G, (getO_eq c c') by auto. reflexivity.
Qed.
Lemma mv_same2 c c' : c_states c' = c_states c -> c_ops c' = c_ops c -> c_nodes c' = c_nodes c -> mv c c'.
Proof. intros H1 H2 H3. apply mv_same; auto; [apply ext_same; auto|congruence]. Qed.
Lemma mv_push c n x : mv c (push_op c n x).
Proof. apply mv_same; [apply ext_push|reflexivity|reflexivity|apply nN_push]. Qed.
Lemma mv_push_ops n xs : forall c, mv c (push_ops c n xs).
Proof.
  intro c. assert (K : forall c, ext c (push_ops c n xs) /\ c_states (push_ops c n xs) = c_states c /\ c_ops (push_ops c n xs) = c_ops c /\ nN (push_ops c n xs) = nN c).
  { unfold push_ops. induction xs as [|x xs IH]; intro c0; cbn [fold_left]; [split; [apply ext_refl|auto]|]. destruct (IH (push_op c0 n x)) as (A1 & A2 & A3 & A4). split; [eapply ext_trans; [apply ext_push|exact A1]|]. split; [exact A2|]. split; [exact A3|]. rewrite A4. apply nN_push. }
  destruct (K c) as (A1 & A2 & A3 & A4). apply mv_same; auto.
Qed.
Lemma mv_left c nid sid b : mv c (left_invariant c nid sid b).
Proof. apply mv_same; [apply ext_left|reflexivity|reflexivity|apply (nN_push c nid)]. Qed.
Lemma getS_set c i s j : i < nS c -> getS (setS c i s) j = if j =? i then s else getS c j.
Proof. intro H. unfold getS. ccbn. rewrite nth_upd. destruct (Nat.eqb_spec j i) as [->|Hn]; [|reflexivity]. destruct (Nat.ltb_spec i (nS c)); [reflexivity|lia]. Qed.
Lemma setS_out c i s : nS c <= i -> forall j, getS (setS c i s) j = getS c j.
Proof. intros H j. unfold getS. ccbn. rewrite nth_upd. destruct (Nat.ltb_spec i (nS c)); [lia|]. rewrite andb_false_r. reflexivity. Qed.
Lemma mv_set_same c i s : frame2 (getS c i) s -> same3 (getS c i) s -> mv c (setS c i s).
Proof.
  intros F H. assert (G : forall j, same3 (getS c j) (getS (setS c i s) j)).
  { intro j. destruct (lt_dec i (nS c)) as [Hi|Hi]; [rewrite getS_set by auto; destruct (Nat.eqb_spec j i) as [->|]; [exact H|apply same3_refl]|rewrite setS_out by lia; apply same3_refl]. }
  constructor; [apply ext_set2; auto|apply nS_setS|reflexivity|reflexivity| |].
  - intros j _. apply same3_fr, G.
  - intros o _ _. apply (G (o_post (getO c o))).
Qed.
Lemma mv_lpi c i l : mv c (setS c i (ss_with_lpi (getS c i) l)).
Proof. apply mv_set_same; repeat split. Qed.
Lemma mv_err c sid t l c' : error_reached solve cf a c sid t l = Ok c' -> mv c c'.
Proof. intro H. apply error_reached_ok in H as (ag & co & ce & -> & _). apply mv_same2; reflexivity. Qed.
Lemma mv_put sids : forall ls c mp, dag mp c -> mv c (put_lps c sids ls).
Proof.
  induction sids as [|i sids IH]; intros [|l ls] c mp D; cbn [put_lps]; try apply mv_refl. assert (K := keeps_lpi c i l). eapply mv_trans; [exact D|apply mv_lpi|]. eapply IH. eapply dag_k; [exact D|exact K].
Qed.
(** continuing the state of a node that has not been split *)
Lemma mv_set_live mp c N s : dag mp c -> live c N -> frame2 (getS c (n_state (getN c N))) s -> fr3 (getS c (n_state (getN c N))) s -> mv c (setS c (n_state (getN c N)) s).
Proof.
  intros D L F H. destruct L as [N HN L1 _]. destruct (d_parents _ _ _ _ D N HN) as (K1 & _ & K3 & K4 & K5). set (i := n_state (getN c N)) in *.
  constructor; [apply ext_set2; auto|apply nS_setS|reflexivity|reflexivity| |].
  - intros j _. rewrite getS_set by auto. destruct (Nat.eqb_spec j i) as [->|]; [exact H|apply same3_fr, same3_refl].
  - intros o Ho Hi. unfold pstate. change (getO (setS c i s) o) with (getO c o). rewrite getS_set by auto. destruct (Nat.eqb_spec (o_post (getO c o)) i) as [E|E]; [exfalso|reflexivity].
    destruct (n_parents (getN c N)) as [|p [|q ps]] eqn:Ep; [congruence| |apply (K4 ltac:(cbn; lia) o Ho E)].
    destruct (K5 p (or_introl eq_refl)) as (Q1 & _ & _ & _ & _ & Q6). assert (o = p) by (apply (d_inj _ _ _ _ D); auto; rewrite E; unfold i; apply Q6; reflexivity). subst o.
    specialize (Hi N (L1 p (or_introl eq_refl))). rewrite Ep in Hi. cbn in Hi. lia.
Qed.
Lemma mv_step mp c N k s : dag mp c -> live c N -> ss_step_to a (getS c (n_state (getN c N))) k = Ok s -> mv c (setS c (n_state (getN c N)) s).
Proof. intros D L H. eapply mv_set_live; eauto; [eapply f2_step; exact H|eapply fr3_step; exact H]. Qed.

Lemma blo_fr s s' : ss_step s <= ss_lo s -> ss_lo s <= ss_hi s -> fr3 s s' -> blo s' = blo s /\ bhi s' = bhi s /\ ss_step s' <= ss_lo s' /\ ss_lo s' <= ss_hi s'.
Proof. intros A B (d & E1 & E2 & E3). unfold blo, bhi. lia. Qed.
Lemma mv_blo c c' i : iv c -> mv c c' -> i < nS c -> blo (getS c' i) = blo (getS c i) /\ bhi (getS c' i) = bhi (getS c i).
Proof. intros I M Hi. destruct (iv_s _ I i Hi). destruct (blo_fr _ _ H H0 (mv_st _ _ M i Hi)) as (A & B & _). auto. Qed.
Lemma iv_mv mp c c' : dag mp c -> iv c -> mv c c' -> iv c'.
Proof.
  intros D I M. assert (Go : forall o, getO c' o = getO c o) by (intro; apply getO_eq; apply M).
  assert (B := fun i Hi => mv_blo c c' i I M Hi).
  assert (Bo : forall o, o < nO c -> blo (pstate c' o) = blo (pstate c o) /\ bhi (pstate c' o) = bhi (pstate c o)) by (intros o Ho; unfold pstate; rewrite Go; apply B, (d_post _ _ _ _ D); auto).
  assert (Bn : forall N, N < nN c -> blo (getS c' (n_state (getN c' N))) = blo (getS c (n_state (getN c N))) /\ bhi (getS c' (n_state (getN c' N))) = bhi (getS c (n_state (getN c N)))).
  { intros N HN. destruct (ex_node _ _ (mv_ext _ _ M) N HN) as [-> _]. apply B. apply (d_parents _ _ _ _ D); auto. }
  constructor; rewrite ?(mv_nS _ _ M), ?(mv_nN _ _ M), ?(mv_ops _ _ M).
  - intros i Hi. destruct (iv_s _ I i Hi). destruct (blo_fr _ _ H H0 (mv_st _ _ M i Hi)) as (_ & _ & K). exact K.
  - intros N HN. destruct (Bn N HN) as [-> ->]. destruct (ex_node _ _ (mv_ext _ _ M) N HN) as [_ ->]. intro L2. destruct (iv_n _ I N HN L2) as [-> ->].
    assert (P : forall o, In o (n_parents (getN c N)) -> o < nO c) by (intros o Ho; apply (d_parents _ _ _ _ D N HN); auto).
    split; f_equal; apply map_ext_in; intros o Ho; symmetry; apply Bo; auto.
  - intros o N Ho. rewrite Go. intro Hp. destruct (d_par _ _ _ _ D o N Ho Hp) as (HN & _). destruct (Bo o Ho) as [-> ->], (Bn N HN) as [-> ->]. apply (iv_o _ I); auto.
  - intros o Ho Hi. apply (idle_mv _ _ _ _ D M Ho) in Hi. rewrite (mv_id _ _ M) by auto. apply (iv_f _ I); auto.
  - intros o Ho. rewrite Go. destruct (Bo o Ho) as [-> ->]. apply (iv_i _ I); auto.
Qed.

(** a new successor of node [nid] *)
Lemma iv_new_op mp c s x nid t : dag mp c -> iv c -> nid < nN c -> o_parent x = Some nid -> o_child x = None -> o_trans x = Some t -> o_post x = nS c -> ss_mode s = t_to (get_trans a t) ->
  ss_step s = 0 -> ss_lo s = ss_lo (getS c (n_state (getN c nid))) -> ss_hi s = ss_hi (getS c (n_state (getN c nid))) -> o_step x = ss_step (getS c (n_state (getN c nid))) -> iv (with_new_op c s x nid).
Proof.
  intros D I Hn H1 H2 H3 H4 H5 Hs Hl Hh Ho.
  destruct (dag_new_op cf a mp c s x nid t D Hn H1 H2 H3 H4 H5) as (D1 & HO & HN & _ & _ & _ & _ & GN & E & _ & _ & _ & GO). set (c1 := with_new_op c s x nid) in *.
  assert (HS : nS c1 = S (nS c)) by (unfold c1, with_new_op; ccbn; rewrite app_length; cbn; lia).
  assert (Gs : forall i, getS c1 i = if i =? nS c then s else getS c i) by (intro i; apply (getS_add c s i)).
  assert (GsL : forall i, i < nS c -> getS c1 i = getS c i) by (intros i Hi; rewrite Gs; destruct (Nat.eqb_spec i (nS c)); [lia|reflexivity]).
  assert (GsN : getS c1 (nS c) = s) by (rewrite Gs, Nat.eqb_refl; reflexivity).
  assert (Ps : forall o, o < nO c -> pstate c1 o = pstate c o) by (intros o K; unfold pstate; rewrite GO, GsL; auto; apply (d_post _ _ _ _ D); auto).
  assert (PN : pstate c1 (nO c) = s) by (unfold pstate; rewrite GN, H4; exact GsN).
  assert (Ns : forall N, N < nN c -> getS c1 (n_state (getN c1 N)) = getS c (n_state (getN c N)) /\ n_parents (getN c1 N) = n_parents (getN c N)).
  { intros N K. destruct (ex_node _ _ E N K) as [-> ->]. split; [apply GsL, (d_parents _ _ _ _ D); auto|auto]. }
  assert (Kn := iv_s _ I (n_state (getN c nid)) ltac:(apply (d_parents _ _ _ _ D); auto)).
  constructor; rewrite ?HS, ?HO, ?HN.
  - intros i Hi. destruct (Nat.eq_dec i (nS c)) as [->|K]; [rewrite GsN; lia|rewrite GsL by lia; apply (iv_s _ I); lia].
  - intros N K. destruct (Ns N K) as [-> ->]. intro L2. destruct (iv_n _ I N K L2) as [-> ->].
    assert (P : forall o, In o (n_parents (getN c N)) -> o < nO c) by (intros o Q; apply (d_parents _ _ _ _ D N K); auto). split; f_equal; apply map_ext_in; intros o Q; rewrite Ps by auto; reflexivity.
  - intros o M K. destruct (Nat.eq_dec o (nO c)) as [->|Q].
    + rewrite PN, GN, H1. intros [= <-]. destruct (Ns nid Hn) as [-> _]. unfold blo, bhi. lia.
    + rewrite Ps, GO by lia. intro HM. destruct (d_par _ _ _ _ D o M ltac:(lia) HM) as (KM & _). destruct (Ns M KM) as [-> _]. apply (iv_o _ I); [lia|auto].
  - intros o K Hi. destruct (Nat.eq_dec o (nO c)) as [->|Q]; [rewrite PN; auto|]. rewrite Ps by lia. apply (iv_f _ I); [lia|]. intros N KN. rewrite <- (GO o) in KN by lia. specialize (Hi N KN).
    rewrite GO in KN by lia. destruct (d_child _ _ _ _ D o N ltac:(lia) KN) as [KK _]. destruct (Ns N KK) as [_ <-]. exact Hi.
  - intros o K. destruct (Nat.eq_dec o (nO c)) as [->|Q]; [rewrite GN, H1; discriminate|]. rewrite Ps, GO by lia. apply (iv_i _ I). lia.
Qed.

Lemma make_op_ptr3 c t l sid nid c' r : make_op_transition solve cf a c t l sid nid = Ok (c', r) ->
  (r = None /\ c' = c) \/ (r = Some (nO c) /\ exists s ctr, ss_mode s = t_to (get_trans a t) /\ ss_step s = 0 /\ ss_lo s = ss_lo (getS c sid) /\ ss_hi s = ss_hi (getS c sid) /\
     c' = with_ops (with_states c (c_states c ++ [s])) (c_ops c ++ [mkOp (ss_step (getS c sid)) (Some nid) None (Some t) (nS c) ctr])).
Proof.
  unfold make_op_transition. intro H. apply bind_ok in H as (p & _ & H). destruct p as [[l1 ctr]|]; [|apply ok_inj in H; injection H as <- <-; left; auto].
  apply bind_ok in H as (l2 & _ & H). apply bind_ok in H as (f & _ & H). apply bind_ok in H as (u & _ & H). apply bind_ok in H as (s & Hs & H). apply ok_inj in H. injection H as <- <-.
  right. split; [reflexivity|]. exists s, ctr. apply new_stateset_mode in Hs as (_ & K & K1 & K2 & K3 & _). auto 10.
Qed.

(** the waiting list grows by at most one successor with the interval of the current state *)
Definition grows (c c' : core) (lo k : nat) : Prop :=
  exists new, c_wait c' = c_wait c ++ new /\ List.length new <= k /\ forall o, In o new -> o < nO c' /\ blo (pstate c' o) = lo.
Definition oldlo (c c' : core) : Prop := (forall o, o < nO c -> blo (pstate c' o) = blo (pstate c o) /\ bhi (pstate c' o) = bhi (pstate c o)) /\ nO c <= nO c'.
Lemma oldlo_refl c : oldlo c c. Proof. split; auto. Qed.
Lemma oldlo_trans c1 c2 c3 : oldlo c1 c2 -> oldlo c2 c3 -> oldlo c1 c3.
Proof. intros [A1 A2] [B1 B2]. split; [|lia]. intros o Ho. destruct (A1 o Ho) as [<- <-]. apply B1. lia. Qed.
Lemma oldlo_mv mp c c' : dag mp c -> iv c -> mv c c' -> oldlo c c'.
Proof. intros D I M. split; [|rewrite (mv_ops _ _ M); auto]. intros o Ho. unfold pstate. rewrite (getO_eq c c') by apply M. apply mv_blo; auto. apply (d_post _ _ _ _ D); auto. Qed.
Lemma grows_trans c1 c2 c3 lo j k : oldlo c2 c3 -> grows c1 c2 lo j -> grows c2 c3 lo k -> grows c1 c3 lo (j + k).
Proof.
  intros [O1 O2] (n1 & A1 & A2 & A3) (n2 & B1 & B2 & B3). exists (n1 ++ n2). rewrite B1, A1, app_assoc, app_length. split; [auto|]. split; [lia|]. intros o Ho. apply in_app_iff in Ho as [Ho|Ho]; [|auto].
  destruct (A3 o Ho) as [Q1 Q2]. split; [lia|]. rewrite <- Q2. apply O1. auto.
Qed.
Lemma grows_same c c' lo : c_wait c' = c_wait c -> grows c c' lo 0.
Proof. intro E. exists []. rewrite app_nil_r. split; [auto|]. split; [auto|]. intros o []. Qed.
Lemma grows_le c c' lo j k : j <= k -> grows c c' lo j -> grows c c' lo k.
Proof. intros H (n & A1 & A2 & A3). exists n. split; [auto|]. split; [lia|auto]. Qed.

Lemma oldlo_new mp c s x nid t : dag mp c -> nid < nN c -> o_parent x = Some nid -> o_child x = None -> o_trans x = Some t -> o_post x = nS c -> ss_mode s = t_to (get_trans a t) ->
  oldlo c (with_new_op c s x nid) /\ pstate (with_new_op c s x nid) (nO c) = s /\ (forall i, i < nS c -> getS (with_new_op c s x nid) i = getS c i).
Proof.
  intros D Hn H1 H2 H3 H4 H5. destruct (dag_new_op cf a mp c s x nid t D Hn H1 H2 H3 H4 H5) as (D1 & HO & HN & _ & _ & _ & _ & GN & E & _ & _ & _ & GO). set (c1 := with_new_op c s x nid) in *.
  assert (Gs : forall i, getS c1 i = if i =? nS c then s else getS c i) by (intro i; apply (getS_add c s i)).
  assert (GsL : forall i, i < nS c -> getS c1 i = getS c i) by (intros i Hi; rewrite Gs; destruct (Nat.eqb_spec i (nS c)); [lia|reflexivity]). split; [|split; [|exact GsL]].
  - split; [|lia]. intros o Ho. unfold pstate. rewrite GO, GsL by (auto; apply (d_post _ _ _ _ D); auto). auto.
  - unfold pstate. rewrite GN, H4, Gs, Nat.eqb_refl. reflexivity.
Qed.

(** the state that produces successors does not move *)
Lemma iv_add mp c t l nid c' : dag mp c -> iv c -> nid < nN c -> add_transition_successor solve cf a c t l (n_state (getN c nid)) nid = Ok c' ->
  iv c' /\ oldlo c c' /\ grows c c' (ss_lo (getS c (n_state (getN c nid)))) 1 /\ n_state (getN c' nid) = n_state (getN c nid) /\ getS c' (n_state (getN c nid)) = getS c (n_state (getN c nid)).
Proof.
  intros D I Hn H. assert (D' := dag_add solve cf a _ _ _ _ _ _ _ D Hn H). unfold add_transition_successor in H. apply bind_ok in H as ([c1 o] & H1 & H). apply make_op_ptr3 in H1 as [[-> ->]|[-> (s & ctr & Hm & Hz & Hl & Hh & ->)]].
  - apply ok_inj in H. subst c'. split; [auto|]. split; [apply oldlo_refl|]. split; [apply (grows_le _ _ _ 0); [lia|apply grows_same; auto]|auto].
  - apply ok_inj in H. match type of H with with_wait (push_op (with_ops _ (_ ++ [?x])) _ _) _ = _ => set (y := x) in *; change (with_wait (with_new_op c s y nid) (c_wait (with_new_op c s y nid) ++ [nO c]) = c') in H end.
    destruct (dag_new_op cf a mp c s y nid t D Hn eq_refl eq_refl eq_refl eq_refl Hm) as (D1 & HO & HN & HW & _ & _ & _ & GN & E & _).
    destruct (oldlo_new mp c s y nid t D Hn eq_refl eq_refl eq_refl eq_refl Hm) as (O1 & O2 & O3).
    assert (I1 := iv_new_op mp c s y nid t D I Hn eq_refl eq_refl eq_refl eq_refl Hm Hz Hl Hh eq_refl). set (c1 := with_new_op c s y nid) in *.
    subst c'. set (c2 := with_wait c1 _). assert (M : mv c1 c2) by (apply mv_same2; reflexivity). split; [eapply iv_mv; eauto|]. split; [exact O1|].
    split; [|split; [apply (ex_node _ _ E nid Hn)|apply O3; apply (d_parents _ _ _ _ D); auto]].
    exists [nO c]. split; [unfold c2; ccbn; rewrite HW; reflexivity|]. split; [cbn; lia|]. intros o [<-|[]]. split; [change (nO c2) with (nO c1); lia|]. change (pstate c2 (nO c)) with (pstate c1 (nO c)). rewrite O2. unfold blo. lia.
Qed.

Lemma iv_guards mp nid ts : forall c c', dag mp c -> iv c -> nid < nN c -> check_guards_loop solve cf a c nid (n_state (getN c nid)) ts = Ok c' ->
  iv c' /\ oldlo c c' /\ grows c c' (ss_lo (getS c (n_state (getN c nid)))) (List.length ts) /\ n_state (getN c' nid) = n_state (getN c nid) /\ same3 (getS c (n_state (getN c nid))) (getS c' (n_state (getN c nid))).
Proof.
  induction ts as [|t ts IH]; intros c c' D I Hn H; cbn [check_guards_loop] in H; [apply ok_inj in H; subst; split; [auto|split; [apply oldlo_refl|split; [apply grows_same; auto|split; [auto|apply same3_refl]]]]|].
  apply bind_ok in H as ([l1 ol] & _ & H). cbn [fst snd] in H. set (sid := n_state (getN c nid)) in *. set (c1 := setS c sid _) in H.
  assert (Hs : sid < nS c) by (apply (d_parents _ _ _ _ D); auto).
  assert (K1 : keeps c c1) by apply keeps_lpi. assert (D1 := dag_k _ _ _ _ _ D K1). assert (M1 : mv c c1) by apply mv_lpi. assert (I1 := iv_mv _ _ _ D I M1). assert (O1 := oldlo_mv _ _ _ D I M1).
  assert (T1 : same3 (getS c sid) (getS c1 sid)) by (unfold c1; rewrite getS_set, Nat.eqb_refl by auto; repeat split).
  assert (N1 : nid < nN c1) by auto.
  destruct ol as [l|].
  2:{ destruct (IH _ _ D1 I1 N1 H) as (A & B & C & C2 & C3). change (n_state (getN c1 nid)) with sid in *. split; [auto|]. split; [eapply oldlo_trans; eauto|]. destruct T1 as (T1 & T2 & T3). rewrite T2 in C. split; [|split; [auto|eapply same3_trans; [|exact C3]; repeat split; auto]].
      apply (grows_le _ _ _ (0 + List.length ts)); [cbn; lia|]. eapply grows_trans; [exact B|apply grows_same; reflexivity|exact C]. }
  apply bind_ok in H as (c2 & H2 & H).
  assert (K2 : keeps c1 c2). { destruct (is_error _) in H2; [eapply keeps_err; eauto|apply ok_inj in H2; subst; apply keeps_refl]. }
  assert (M2 : mv c1 c2). { destruct (is_error _) in H2; [eapply mv_err; eauto|apply ok_inj in H2; subst; apply mv_refl]. }
  assert (T2 : getS c2 sid = getS c1 sid). { destruct (is_error _) in H2; [|apply ok_inj in H2; subst; auto]. apply error_reached_ok in H2 as (ag & co & ce & -> & _). reflexivity. }
  assert (D2 := dag_k _ _ _ _ _ D1 K2). assert (I2 := iv_mv _ _ _ D1 I1 M2). assert (O2 := oldlo_trans _ _ _ O1 (oldlo_mv _ _ _ D1 I1 M2)).
  assert (N2 : nid < nN c2) by (rewrite (k_nodes _ _ K2); auto). assert (W2 : c_wait c2 = c_wait c) by (rewrite (k_wait _ _ K2); reflexivity).
  assert (G2 : n_state (getN c2 nid) = sid) by (rewrite (getN_eq c1 c2); [reflexivity|apply K2]). rewrite <- T2 in T1.
  destruct (_ && _) in H.
  { apply ok_inj in H; subst c'. split; [auto|]. split; [auto|]. split; [apply (grows_le _ _ _ 0); [lia|apply grows_same; auto]|]. split; [exact G2|exact T1]. }
  apply bind_ok in H as (c3 & H3 & H). apply bind_ok in H as (c4 & H4 & H).
  destruct (dag_add solve cf a _ _ _ _ _ _ _ D2 N2 H3) as [D3 P3]. rewrite <- G2 in H3. destruct (iv_add _ _ _ _ _ _ D2 I2 N2 H3) as (I3 & O3 & R3 & G3 & T3). rewrite G2 in *.
  assert (K4 : keeps c3 c4 /\ mv c3 c4 /\ same3 (getS c3 sid) (getS c4 sid)).
  { destruct (_ && _) in H4; [|apply ok_inj in H4; subst; split; [apply keeps_refl|split; [apply mv_refl|apply same3_refl]]]. apply bind_ok in H4 as (w & _ & H4). apply ok_inj in H4. subst c4.
    assert (Hs3 : sid < nS c3) by (rewrite <- G3; apply (d_parents _ _ _ _ D3); rewrite (pf_nN _ _ P3); auto).
    assert (Q : same3 (getS c3 sid) (getS (setS c3 sid (ss_with_lpi (getS c3 sid) (fst w))) sid)) by (rewrite getS_set, Nat.eqb_refl by auto; repeat split).
    destruct (snd w); [|split; [apply keeps_lpi|split; [apply mv_lpi|exact Q]]]. split; [eapply keeps_trans; [apply keeps_lpi|apply keeps_tt]|]. split; [eapply mv_trans; [exact D3|apply mv_lpi|apply mv_same2; reflexivity]|exact Q]. }
  destruct K4 as (K4 & M4 & T4). assert (D4 := dag_k _ _ _ _ _ D3 K4). assert (I4 := iv_mv _ _ _ D3 I3 M4). assert (O34 := oldlo_mv _ _ _ D3 I3 M4). assert (O4 := oldlo_trans _ _ _ O2 (oldlo_trans _ _ _ O3 O34)).
  assert (G4 : n_state (getN c4 nid) = sid) by (rewrite (getN_eq c3 c4); [exact G3|apply K4]).
  assert (N4 : nid < nN c4) by (rewrite (k_nodes _ _ K4), (pf_nN _ _ P3); auto).
  rewrite <- G4 in H. destruct (IH c4 c' D4 I4 N4 H) as (I5 & O5 & R5 & G5 & T5). rewrite G4 in *.
  assert (T04 : same3 (getS c sid) (getS c4 sid)) by (eapply same3_trans; [exact T1|]; rewrite <- T3; exact T4).
  split; [auto|]. split; [eapply oldlo_trans; eauto|]. split; [|split; [exact G5|eapply same3_trans; [exact T04|exact T5]]].
  assert (E2 : ss_lo (getS c2 sid) = ss_lo (getS c sid)) by apply T1. assert (E4 : ss_lo (getS c4 sid) = ss_lo (getS c sid)) by apply T04. rewrite E2 in R3. rewrite E4 in R5.
  apply (grows_le _ _ _ (1 + List.length ts)); [cbn; lia|]. eapply grows_trans; [exact O5| |exact R5]. apply (grows_le _ _ _ (0 + (1 + 0))); [lia|].
  eapply grows_trans; [eapply oldlo_trans; [exact O3|exact O34]|apply grows_same; exact W2|]. eapply grows_trans; [exact O34|exact R3|apply grows_same; apply K4].
Qed.
End Iv.
