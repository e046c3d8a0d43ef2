(** Termination with deaggregation and with urgent guards: a lexicographic measure indexed by the depth in the aggregation DAG. *)
From Verif Require Import Base BaseFacts LpModel LpUtil Automaton StateSet StateFacts CoreModel HeapFacts CoreOps CorePop CoreExt CoreDag CoreDag2 CoreDag3 CoreLive CoreLive2 CoreIvl CoreIvl2 CoreIvl3 LexWf CoreDepth CoreDepth2 CoreCont.
Open Scope nat_scope.

(** the node [n] has not been split: its parents still point to it *)
Definition refd (c : core) (n : nat) : bool := forallb (fun o => onat_eqb (o_child (getO c o)) (Some n)) (n_parents (getN c n)).
(** how often [n] can still be split *)
Definition nw (c : core) (d n : nat) : nat := if (dp c n =? d) && refd c n then 2 * List.length (n_parents (getN c n)) - 2 else 0.
Definition nsum (c : core) (d : nat) : nat := lsum (nw c d) (seq 0 (nN c)).
(** nodes whose operations are (to be) replayed, with the position *)
Definition items (c : core) : list (nat * nat) :=
  match c_rep c with Some r => [(rp_parent r, rp_idx r)] | None => [] end ++ map (fun pc => (fst pc, 0)) (c_dwait c).
Definition iw (c : core) (d : nat) (pi : nat * nat) : nat := if dp c (fst pi) =? d then List.length (n_ops (getN c (fst pi))) - snd pi else 0.
Definition Am (mp : list ((nat * nat) * list nat)) (its : list (nat * nat)) (c : core) (d : nat) : nat :=
  2 * cnt (odp c) d (c_wait c ++ pending mp) + nsum c d + cnt (fun pi => dp c (fst pi)) d its.

Section TermD.
Variable solve : solver.
Variable arnoldi : nat -> option (list Q) -> csr -> option csr -> nat -> list (list Q).
Variable cf : cfg.
Variable a : ha.
Notation dag := (dag cf a).
Notation linv := (linv cf a).
Hypothesis HP : path_cf cf.
(** bounds on the depth: time, or a rank of the modes that every transition decreases *)
Variable rk : nat -> nat.
Variable R : nat.
Hypothesis Hrk : cf_urgent cf = true -> forall t, t < List.length (ha_trans a) -> rk (t_to (get_trans a t)) < rk (t_from (get_trans a t)).

Definition curw (c : core) (d : nat) : nat := match c_cur c with Some n => if dp c n =? d then S (cf_num cf - ss_lo (getS c (n_state (getN c n)))) else 0 | None => 0 end.
Definition Bm (its : list (nat * nat)) (c : core) (d : nat) : nat := lsum (iw c d) its + curw c d.
Definition mu (c : core) (i : nat) : nat := if Nat.even i then Am (rep_map c) (items c) c (Nat.div2 i) else Bm (items c) c (Nat.div2 i).
Definition Dm : nat := cf_num cf + R.
Definition mlt (c c' : core) : Prop := lexlt (2 * S Dm) (mu c) (mu c').

Lemma mlt_A c c' d : d <= Dm -> Am (rep_map c') (items c') c' d < Am (rep_map c) (items c) c d ->
  (forall d', d' < d -> Am (rep_map c') (items c') c' d' <= Am (rep_map c) (items c) c d' /\ Bm (items c') c' d' <= Bm (items c) c d') -> mlt c' c.
Proof.
  intros Hd H1 H2. exists (2 * d). split; [lia|]. split.
  - unfold mu. rewrite Nat.even_mul. cbn [Nat.even orb]. rewrite Nat.div2_double. exact H1.
  - intros j Hj. destruct (H2 (Nat.div2 j)) as [K1 K2]; [rewrite Nat.div2_div; apply Nat.div_lt_upper_bound; lia|]. unfold mu. destruct (Nat.even j); auto.
Qed.
Lemma mlt_B c c' d : d <= Dm -> Am (rep_map c') (items c') c' d <= Am (rep_map c) (items c) c d -> Bm (items c') c' d < Bm (items c) c d ->
  (forall d', d' < d -> Am (rep_map c') (items c') c' d' <= Am (rep_map c) (items c) c d' /\ Bm (items c') c' d' <= Bm (items c) c d') -> mlt c' c.
Proof.
  intros Hd H1 HB H2. exists (S (2 * d)). split; [lia|]. split.
  - unfold mu. rewrite Nat.even_succ, <- Nat.negb_even, Nat.even_mul. cbn [Nat.even orb negb]. rewrite Nat.div2_succ_double. exact HB.
  - intros j Hj. unfold mu. destruct (Nat.even j) eqn:E.
    + destruct (Nat.eq_dec (Nat.div2 j) d) as [->|Hn]; [exact H1|]. apply H2. assert (Nat.div2 j <= d) by (rewrite Nat.div2_div; apply Nat.div_le_upper_bound; lia). lia.
    + apply H2. assert (Hj2 : j < 2 * d). { destruct (Nat.eq_dec j (2 * d)) as [->|]; [|lia]. rewrite Nat.even_mul in E. discriminate. } rewrite Nat.div2_div. apply Nat.div_lt_upper_bound; lia.
Qed.

(** ** the invariant *)
Definition Gd (d k : nat) (ot : option nat) : Prop :=
  if cf_urgent cf then exists t, ot = Some t /\ S d + rk (t_to (get_trans a t)) <= R else S d <= cf_num cf /\ 1 <= k.
Definition okop (c : core) (o : nat) : Prop :=
  if cf_urgent cf then odp c o + rk (omode c o) <= R else odp c o <= cf_num cf /\ (o_parent (getO c o) <> None -> 1 <= o_step (getO c o)).
Record tv (c : core) : Prop := {
  tv_op : forall o, o < nO c -> okop c o;
  tv_dw : forall p chs, In (p, chs) (c_dwait c) -> ~ live c p /\ forall ch, In ch chs -> dp c ch = dp c p;
  tv_rep : forall r, c_rep c = Some r -> ~ live c (rp_parent r) /\ (forall ch, In ch (rp_children r) -> dp c ch = dp c (rp_parent r)) /\
             mpok (fun k => ~ live c k /\ dp c k = S (dp c (rp_parent r))) (rp_children r) (rp_map r) }.

Lemma ok_depth c o : okop c o -> odp c o <= Dm.
Proof. unfold okop, Dm. destruct (cf_urgent cf); lia. Qed.
Lemma omode_ext mp c c' o : dag mp c -> ext c c' -> o < nO c -> omode c' o = omode c o.
Proof. intros D E Ho. unfold omode. destruct (ex_op _ _ E o Ho) as (_ & _ & _ & ->). apply (ex_mode _ _ E). apply (d_post _ _ _ _ D o Ho). Qed.
Lemma ok_ext mp c c' o : dag mp c -> ext c c' -> o < nO c -> okop c o -> okop c' o.
Proof.
  intros D E Ho. unfold okop. rewrite (odp_ext cf a mp c c' o D E Ho), (omode_ext mp c c' o D E Ho). destruct (ex_op _ _ E o Ho) as (-> & -> & _). auto.
Qed.
Lemma new_depth L Q mp mp' c c' d o : dag mp c -> dag mp' c' -> fx L Q c c' -> (forall n, In n L -> n < nN c /\ dp c n = d) -> nO c <= o -> o < nO c' -> odp c' o = S d.
Proof.
  intros D D' F HL H1 H2. destruct (fx_new _ _ _ _ F o H1 H2) as (_ & n & K1 & K2). destruct (HL n K1) as [K3 K4]. unfold odp. rewrite K2. f_equal. rewrite (dp_ext cf a mp c c' n D (fx_ext _ _ _ _ F) K3). exact K4.
Qed.
Lemma ok_fx L mp mp' c c' d : dag mp c -> dag mp' c' -> fx L (GQ (Gd d)) c c' -> (forall n, In n L -> n < nN c /\ dp c n = d) -> (forall o, o < nO c -> okop c o) -> forall o, o < nO c' -> okop c' o.
Proof.
  intros D D' F HL H o Ho. destruct (lt_dec o (nO c)) as [Hc|Hc]; [apply (ok_ext mp c); auto; apply F|]. assert (E := new_depth L _ mp mp' c c' d o D D' F HL ltac:(lia) Ho).
  destruct (fx_new _ _ _ _ F o ltac:(lia) Ho) as (K & n & K1 & K2). unfold okop. rewrite E. unfold GQ, Gd in K. destruct (cf_urgent cf).
  - destruct K as (t & Et & K). destruct (d_par _ _ _ _ D' o n Ho K2) as (_ & _ & t' & Et' & ->). rewrite Et in Et'. injection Et' as <-. exact K.
  - destruct K. auto.
Qed.

(** ** sums over nodes *)
Lemma refd_kc mp c c' n : dag mp c -> kc c c' -> n < nN c -> refd c' n = refd c n.
Proof.
  intros D [E K] Hn. unfold refd. destruct (ex_node _ _ E n Hn) as [_ ->]. destruct (d_parents _ _ _ _ D n Hn) as (_ & _ & _ & _ & P).
  assert (P' : forall o, In o (n_parents (getN c n)) -> o < nO c /\ o_child (getO c o) <> None) by (intros o Ho; destruct (P o Ho); tauto). clear P.
  induction (n_parents (getN c n)) as [|o l IH]; [reflexivity|]. cbn [forallb]. destruct (P' o (or_introl eq_refl)) as (P1 & P2). rewrite (K o P1 P2), IH; [reflexivity|]. intros q Hq. apply P'. right; auto.
Qed.
Lemma nw_kc mp c c' d n : dag mp c -> kc c c' -> n < nN c -> nw c' d n = nw c d n.
Proof. intros D K Hn. unfold nw. rewrite (refd_kc mp c c' n D K Hn), (dp_ext cf a mp c c' n D (proj1 K) Hn). destruct (ex_node _ _ (proj1 K) n Hn) as [_ ->]. reflexivity. Qed.
Lemma nsum_kc mp c c' d : dag mp c -> kc c c' -> nsum c' d = nsum c d + lsum (nw c' d) (seq (nN c) (nN c' - nN c)).
Proof.
  intros D K. pose proof (ex_nN _ _ (proj1 K)). unfold nsum. replace (nN c') with (nN c + (nN c' - nN c)) at 1 by lia. rewrite seq_app, lsum_app. cbn [Nat.add]. f_equal.
  apply lsum_ext. intros n Hn. apply in_seq in Hn. apply (nw_kc mp); auto. lia.
Qed.
Lemma nsum_same mp c c' d : dag mp c -> kc c c' -> nN c' = nN c -> nsum c' d = nsum c d.
Proof. intros D K E. rewrite (nsum_kc mp c c' d D K), E, Nat.sub_diag. cbn. lia. Qed.
Lemma nd_ops mp c : dag mp c -> NoDup (c_wait c ++ pending mp).
Proof.
  intro D. destruct (d_wait _ _ _ _ D) as [N1 _]. assert (N2 := d_mapnd _ _ _ _ D).
  assert (X : forall o, In o (c_wait c) -> ~ In o (pending mp)) by (intros o Ho Hp; apply (pending_lt cf a mp c o D) in Hp; tauto).
  revert N1 X. generalize (c_wait c). induction l as [|x l IH]; intros N1 X; cbn [app]; [exact N2|]. inversion N1; subst. constructor; [|apply IH; auto; intros; apply X; right; auto]. rewrite in_app_iff. intros [K|K]; [auto|apply (X x (or_introl eq_refl) K)].
Qed.
Lemma ops_lt mp c o : dag mp c -> In o (c_wait c ++ pending mp) -> o < nO c.
Proof. intros D H. apply in_app_iff in H as [H|H]; [apply (d_wait _ _ _ _ D); auto|apply (pending_lt cf a mp c o D H)]. Qed.

Lemma A_fx L Q mp mp' c c' d its : dag mp c -> dag mp' c' -> fx L Q c c' -> mpnew c mp mp' -> (forall n, In n L -> n < nN c /\ dp c n = d) -> (forall pi, In pi its -> fst pi < nN c) ->
  forall d', d' <= d -> Am mp' its c' d' <= Am mp its c d'.
Proof.
  intros D D' F M HL HI d' Hd. unfold Am. rewrite (nsum_same mp c c' d' D (kc_fx _ _ _ _ F) (fx_nN _ _ _ _ F)).
  rewrite (cnt_ext (fun pi => dp c' (fst pi)) (fun pi => dp c (fst pi)) d' its) by (intros pi Hpi; apply (dp_ext cf a mp); [exact D|apply F|auto]).
  assert (K : cnt (odp c') d' (c_wait c' ++ pending mp') <= cnt (odp c) d' (c_wait c ++ pending mp)); [|lia].
  apply cnt_le; [apply nd_ops; auto|]. intros o Ho Ed. assert (Hlt := ops_lt _ _ _ D' Ho). destruct (lt_dec o (nO c)) as [Hc|Hc].
  - split; [|rewrite <- (odp_ext cf a mp c c' o D (fx_ext _ _ _ _ F) Hc); exact Ed]. apply in_app_iff in Ho as [Ho|Ho]; apply in_app_iff; [left; destruct (fx_wait _ _ _ _ F o Ho); [auto|lia]|right; destruct (M o Ho); [auto|lia]].
  - exfalso. assert (E := new_depth L Q mp mp' c c' d o D D' F HL ltac:(lia) Hlt). lia.
Qed.
Lemma iw_fx L Q mp c c' d its : dag mp c -> fx L Q c c' -> (forall pi, In pi its -> fst pi < nN c /\ ~ In (fst pi) L) -> lsum (iw c' d) its = lsum (iw c d) its.
Proof.
  intros D F HI. apply lsum_ext. intros pi Hpi. destruct (HI pi Hpi) as [H1 H2]. unfold iw. rewrite (dp_ext cf a mp c c' _ D (fx_ext _ _ _ _ F) H1), (fx_nops _ _ _ _ F _ H2). reflexivity.
Qed.

(** ** a step of the current state *)
Lemma node_ok mp c n : dag mp c -> (forall o, o < nO c -> okop c o) -> n < nN c -> dp c n <= Dm /\ (cf_urgent cf = true -> dp c n + rk (nodemode c n) <= R).
Proof.
  intros D H Hn. destruct (d_parents _ _ _ _ D n Hn) as (P1 & _ & _ & _ & P5). destruct (n_parents (getN c n)) as [|o ps] eqn:Ep; [congruence|]. assert (Ho : In o (n_parents (getN c n))) by (rewrite Ep; left; auto).
  destruct (P5 o (or_introl eq_refl)) as (Q1 & _ & Q3 & _). rewrite (dp_node cf a mp c n o HP D Hn Ho). specialize (H o Q1). split; [apply ok_depth; auto|]. intro E. unfold okop in H. rewrite E, Q3 in H. exact H.
Qed.
Lemma Gd_urgent mp c n t k : dag mp c -> (forall o, o < nO c -> okop c o) -> n < nN c -> cf_urgent cf = true -> In t (out_trans a (nodemode c n)) -> Gd (dp c n) k (Some t).
Proof.
  intros D H Hn E Ht. apply out_trans_spec in Ht as [H1 H2]. destruct (node_ok mp c n D H Hn) as [_ K]. specialize (K E). pose proof (Hrk E t H1) as K2. rewrite H2 in K2. unfold Gd. rewrite E. exists t. split; [auto|lia].
Qed.
Lemma Gd_cont c n t k : linv c -> iv c -> tv c -> n < nN c -> ss_lo (getS c (n_state (getN c n))) < cf_num cf -> 1 <= k -> In t (out_trans a (nodemode c n)) -> Gd (dp c n) k (Some t).
Proof.
  intros V I TV Hn Hlo Hk Ht. assert (D := ci_dag _ _ _ (li_cinv _ _ _ V)). assert (EE : cf_urgent cf = true \/ cf_urgent cf = false) by (destruct (cf_urgent cf); auto). destruct EE as [E|E]; [eapply Gd_urgent; eauto; apply TV|]. unfold Gd. rewrite E. split; [|exact Hk].
  assert (K := dp_blo cf a (rep_map c) c HP D I). assert (Z : forall o, o < nO c -> o_parent (getO c o) <> None -> 1 <= o_step (getO c o)) by (intros o Ho; assert (T := tv_op _ TV o Ho); unfold okop in T; rewrite E in T; apply T).
  specialize (K Z n Hn). unfold blo in K. lia.
Qed.

Lemma fx_cont c nid c' : linv c -> iv c -> tv c -> c_cur c = Some nid -> continuous_post solve cf a c nid (n_state (getN c nid)) = Ok c' -> fx [nid] (GQ (Gd (dp c nid))) c c'.
Proof.
  intros V I TV Hc H. destruct (li_cur _ _ _ V nid Hc) as (Hl & Hlf & Hr & Hd). assert (Hn : nid < nN c) by (apply live_lt; auto). assert (D := ci_dag _ _ _ (li_cinv _ _ _ V)).
  unfold continuous_post in H. set (sid := n_state (getN c nid)) in *. assert (Hs : sid < nS c) by (apply (d_parents _ _ _ _ D); auto). assert (Hin : In nid [nid]) by (left; auto).
  destruct (Nat.leb_spec (cf_num cf) (ss_lo (getS c sid))) as [Hlo|Hlo]; [apply ok_inj in H; subst; apply fx_left; auto|]. assert (HG := fun k t => Gd_cont c nid t k V I TV Hn Hlo).
  destruct (c_tt c); [apply ok_inj in H; subst; eapply fx_trans; [apply fx_keeps, (keeps_tt c false)|apply fx_left; auto]|]. apply bind_ok in H as ([c1 ok] & H1 & H).
  destruct (dag_intersect solve cf a _ _ _ _ _ _ D H1) as [D1 P1]. destruct (mv_intersect solve cf a _ _ _ _ _ _ D H1) as (M1 & W1 & S1). assert (F1 := fx_intersect solve a (Gd (dp c nid)) _ _ _ _ _ H1).
  destruct (negb ok) in H; [apply ok_inj in H; subst; eapply fx_trans; [exact F1|apply fx_left; auto]|].
  apply bind_ok in H as (s1 & Hs1 & H). apply bind_ok in H as (c3 & H2 & H). unfold check_guards in H2. assert (K := keeps_set c1 sid s1 (f2_step _ _ _ _ Hs1)). assert (D2 := dag_k _ _ _ _ _ D1 K).
  assert (Z1 : sid < nS c1) by (rewrite (mv_nS _ _ M1); auto). assert (Eg : getS (setS c1 sid s1) sid = s1) by (rewrite getS_set, Nat.eqb_refl by auto; reflexivity).
  assert (Em : ss_mode s1 = nodemode c nid). { destruct (f2_step _ _ _ _ Hs1) as [-> _]. destruct (ex_mode _ _ (mv_ext _ _ M1) sid Hs) as [-> _]. reflexivity. }
  assert (F3 : fx [nid] (GQ (Gd (dp c nid))) (setS c1 sid s1) c3).
  { apply (fx_guards solve cf a (Gd (dp c nid)) (rep_map c) nid sid (out_trans a (ss_mode (getS (setS c1 sid s1) sid)))); auto.
    - rewrite (k_nodes _ _ K), (mv_nN _ _ M1). exact Hn.
    - rewrite (k_nS _ _ K). exact Z1.
    - rewrite Eg, Em. intros t Ht. apply HG; auto. apply (fr3_step a) in Hs1 as [_ ->]. lia. }
  assert (F : fx [nid] (GQ (Gd (dp c nid))) c c3) by (eapply fx_trans; [exact F1|]; eapply fx_trans; [apply fx_keeps; exact K|exact F3]).
  destruct (m_a _) in H; [|discriminate]. destruct (_ && _) in H; apply ok_inj in H; subst c'; [eapply fx_trans; [exact F|apply fx_left; auto]|exact F].
Qed.

Lemma tv_fx0 L c c' d : linv c -> linv c' -> tv c -> fx L (GQ (Gd d)) c c' -> (forall n, In n L -> n < nN c /\ dp c n = d) -> c_rep c = None -> c_dwait c = [] -> tv c'.
Proof.
  intros V V' T F HL Hr Hd. constructor.
  - eapply ok_fx; [apply V|apply V'|exact F|exact HL|apply T].
  - rewrite (fx_dw _ _ _ _ F), Hd. intros p chs [].
  - rewrite (fx_rep _ _ _ _ F), Hr. discriminate.
Qed.
Lemma items_none c : c_rep c = None -> c_dwait c = [] -> items c = [].
Proof. unfold items. intros -> ->. reflexivity. Qed.

Lemma step_cont c nid c' k : linv c -> iv c -> tv c -> c_cur c = Some nid -> continuous_post solve cf a c nid (n_state (getN c nid)) = Ok c' -> linv (with_csteps c' k) -> tv (with_csteps c' k) /\ mlt (with_csteps c' k) c.
Proof.
  intros V I TV Hc H V'. destruct (li_cur _ _ _ V nid Hc) as (Hl & Hlf & Hr & Hd). assert (Hn : nid < nN c) by (apply live_lt; auto). assert (D := ci_dag _ _ _ (li_cinv _ _ _ V)). assert (D' := ci_dag _ _ _ (li_cinv _ _ _ V')).
  assert (F0 := fx_cont c nid c' V I TV Hc H). destruct (iv_cont solve cf a _ _ _ V I Hc H) as (_ & _ & Q). set (c2 := with_csteps c' k) in *.
  assert (F : fx [nid] (GQ (Gd (dp c nid))) c c2).
  { eapply fx_trans; [exact F0|]. constructor; auto; [apply ext_same; reflexivity|]. intros o A B. change (nO c2) with (nO c') in B. lia. }
  assert (HL : forall n, In n [nid] -> n < nN c /\ dp c n = dp c nid) by (intros n [<-|[]]; auto). assert (T' := tv_fx0 [nid] c c2 (dp c nid) V V' TV F HL Hr Hd). split; [exact T'|].
  assert (Hr' : c_rep c2 = None) by (rewrite (fx_rep _ _ _ _ F); auto). assert (Hd' : c_dwait c2 = []) by (rewrite (fx_dw _ _ _ _ F); auto).
  unfold rep_map in D, D'. rewrite Hr in D. rewrite Hr' in D'.
  assert (A : forall d', d' <= dp c nid -> Am (rep_map c2) (items c2) c2 d' <= Am (rep_map c) (items c) c d').
  { intros d' Hd0. unfold rep_map. rewrite Hr, Hr', (items_none c), (items_none c2) by auto. apply (A_fx [nid] (GQ (Gd (dp c nid))) [] [] c c2 (dp c nid)); auto; [intros q []|intros pi []]. }
  assert (B : forall d', curw c2 d' <= curw c d' /\ (d' = dp c nid -> curw c2 d' < curw c d')).
  { intro d'. unfold curw. rewrite Hc. assert (E1 : c_cur c2 = c_cur c') by reflexivity. rewrite E1. destruct Q as [[-> _]|(Hlo & _ & [->|[-> El]])].
    - split; [lia|]. intros ->. rewrite Nat.eqb_refl. lia.
    - split; [lia|]. intros ->. rewrite Nat.eqb_refl. lia.
    - rewrite (dp_ext cf a [] c c2 nid D (fx_ext _ _ _ _ F) Hn). change (getS c2 (n_state (getN c2 nid))) with (getS c' (n_state (getN c' nid))). rewrite El. split.
      + destruct (_ =? _); lia.
      + intros ->. rewrite Nat.eqb_refl. lia. }
  apply (mlt_B c c2 (dp c nid)); [apply (node_ok [] c nid D (tv_op _ TV) Hn)|auto| |].
  - unfold Bm. rewrite (items_none c), (items_none c2) by auto. destruct (B (dp c nid)) as [_ B2]. specialize (B2 eq_refl). cbn [lsum fold_right]. lia.
  - intros d' Hd0. split; [apply A; lia|]. unfold Bm. rewrite (items_none c), (items_none c2) by auto. destruct (B d') as [B2 _]. cbn [lsum fold_right]. lia.
Qed.

(** ** removing operations from the waiting list *)
Lemma step_pop c c1 c' : linv c -> tv c -> c_cur c = None -> c_rep c = None -> c_dwait c = [] -> do_step_pop solve arnoldi cf a c = Ok c1 ->
  match cur_state c1 with Some (nid, sid) => if cf_urgent cf then check_guards solve cf a c1 nid sid else Ok c1 | None => Ok c1 end = Ok c' -> linv c' -> tv c' /\ mlt c' c.
Proof.
  intros V TV Hc Hr Hd H HG V'. assert (D := ci_dag _ _ _ (li_cinv _ _ _ V)). unfold rep_map in D. rewrite Hr in D. unfold do_step_pop in H. apply bind_ok in H as ([cm nid] & Hpop & H).
  destruct (linv_pop solve cf a arnoldi _ _ _ V Hc Hr Hd Hpop) as [Vm Cm]. assert (Dm' := ci_dag _ _ _ (li_cinv _ _ _ Vm)). destruct (li_cur _ _ _ Vm nid Cm) as (Lm & _ & Hrm & Hdm). assert (Nm := live_lt _ _ Lm).
  unfold rep_map in Dm'. rewrite Hrm in Dm'. set (d := dp cm nid).
  (* the new node *)
  unfold pop_waiting_list in Hpop. apply bind_ok in Hpop as (ops & Hops & Hpop). apply bind_ok in Hpop as (u & _ & Hpop). apply bind_ok in Hpop as (agg & _ & Hpop). apply bind_ok in Hpop as ([c2 n2] & Hm & Hpop). apply ok_inj in Hpop. injection Hpop as <- <-.
  destruct (pop_ops_ptr cf a c ops _ D Hops) as (K1 & K2 & K3 & _ & _). set (w := filter (fun o => negb (mem o ops)) (c_wait c)) in *. set (c0 := with_wait c w) in *.
  assert (Ho : forall o, In o ops -> o < nO c0 /\ o_child (getO c0 o) = None) by (intros o Hi; destruct (K3 o Hi) as [Q _]; apply (proj2 (d_wait _ _ _ _ D) o Q)).
  assert (KC2 := kc_make_node solve a arnoldi c0 ops agg _ c2 n2 K1 Ho Hm). apply make_node_ptr in Hm as (En & HN & HO & _ & _ & Gp & _ & _ & _ & _ & _ & _ & Hw2 & _); [|auto|intros o Q; apply Ho; auto].
  change (nN c0) with (nN c) in *. change (nO c0) with (nO c) in *. set (cm := with_cur c2 (Some n2)) in *.
  assert (KC : kc c cm). { eapply kc_trans; [apply (kc_same c c0); reflexivity|]. eapply kc_trans; [exact KC2|]. apply kc_same; reflexivity. }
  assert (Wm : c_wait cm = w) by (change (c_wait cm) with (c_wait c2); rewrite Hw2; reflexivity). assert (Om : nO cm = nO c) by exact HO. assert (NNm : nN cm = S (nN c)) by exact HN.
  assert (Dops : forall o, In o ops -> In o (c_wait c) /\ odp c o = d).
  { intros o Hi. destruct (K3 o Hi) as [Q _]. split; [exact Q|]. destruct (proj2 (d_wait _ _ _ _ D) o Q) as [Ql _]. rewrite <- (odp_ext cf a [] c cm o D (proj1 KC) Ql). symmetry. apply (dp_node cf a [] cm n2 o HP Dm' Nm). change (getN cm n2) with (getN c2 n2). rewrite Gp. exact Hi. }
  assert (Tm : tv cm). { constructor; [|rewrite Hdm; intros p chs []|rewrite Hrm; discriminate]. intros o Hlt. rewrite Om in Hlt. apply (ok_ext [] c); auto; [apply KC|apply TV; auto]. }
  (* what follows *)
  assert (F : fx [n2] (GQ (Gd d)) cm c' /\ (c_cur c' = None \/ c_cur c' = Some n2)).
  { assert (F1 : fx [n2] (GQ (Gd d)) cm c1 /\ (c_cur c1 = None \/ c_cur c1 = Some n2 /\ dag [] c1)).
    { destruct (is_error _) in H; [apply ok_inj in H; subst c1; split; [apply fx_left; left; auto|left; auto]|]. apply bind_ok in H as ([c3 ok] & H3 & H). destruct (dag_intersect solve cf a _ _ _ _ _ _ Dm' H3) as [D3 P3].
      assert (F3 := fx_intersect solve a (Gd d) _ _ _ _ _ H3). destruct ok; apply ok_inj in H; subst c1; [split; [exact F3|right; split; [rewrite (pf_cur _ _ P3); exact Cm|exact D3]]|split; [eapply fx_trans; [exact F3|apply fx_left; left; auto]|left; reflexivity]]. }
    destruct F1 as [F1 C1]. destruct (cur_state c1) as [[x y]|] eqn:Ec.
    2:{ apply ok_inj in HG. subst c'. split; [exact F1|]. tauto. }
    unfold cur_state in Ec. destruct C1 as [C1|[C1 D1]]; [rewrite C1 in Ec; discriminate|]. rewrite C1 in Ec. destruct (left_inv c1 n2); [discriminate|]. injection Ec as <- <-.
    assert (EE : cf_urgent cf = true \/ cf_urgent cf = false) by (destruct (cf_urgent cf); auto). destruct EE as [E|E]; rewrite E in HG; [|apply ok_inj in HG; subst c'; auto].
    assert (N1 : n2 < nN c1) by (rewrite (fx_nN _ _ _ _ F1); exact Nm).
    assert (HL : forall n, In n [n2] -> n < nN cm /\ dp cm n = d) by (intros n [<-|[]]; auto).
    assert (OK1 := ok_fx [n2] [] [] cm c1 d Dm' D1 F1 HL (tv_op _ Tm)).
    assert (Ed : dp c1 n2 = d) by (apply (dp_ext cf a [] cm c1 n2 Dm' (fx_ext _ _ _ _ F1) Nm)).
    unfold check_guards in HG. destruct (dag_guards solve cf a _ _ _ _ _ _ D1 N1 HG) as [_ P2]. split; [|right; rewrite (pf_cur _ _ P2); exact C1].
    eapply fx_trans; [exact F1|]. eapply (fx_guards solve cf a (Gd d) [] n2); [exact D1|exact N1| | |exact HG].
    - apply (d_parents _ _ _ _ D1 n2 N1).
    - intros t Ht. rewrite <- Ed. apply (Gd_urgent [] c1 n2); auto. }
  destruct F as [F Cc]. assert (D' := ci_dag _ _ _ (li_cinv _ _ _ V')). assert (Hr' : c_rep c' = None) by (rewrite (fx_rep _ _ _ _ F); auto). assert (Hd' : c_dwait c' = []) by (rewrite (fx_dw _ _ _ _ F); auto). unfold rep_map in D'. rewrite Hr' in D'.
  assert (HL : forall n, In n [n2] -> n < nN cm /\ dp cm n = d) by (intros n [<-|[]]; auto). split; [apply (tv_fx0 [n2] cm c' d); auto|].
  assert (A1 : forall d', d' <= d -> Am [] [] c' d' <= Am [] [] cm d') by (apply (A_fx [n2] (GQ (Gd d)) [] [] cm c' d); auto; [intros q []|intros pi []]).
  assert (NS : forall d', nsum cm d' = nsum c d' + nw cm d' n2). { intro d'. rewrite (nsum_kc [] c cm d' D KC). rewrite NNm, En. replace (S (nN c) - nN c) with 1 by lia. cbn [seq lsum fold_right]. lia. }
  assert (Hsub : forall o, In o w -> In o (c_wait c) /\ ~ In o ops) by (intros o Hi; apply filter_In in Hi as [Q1 Q2]; split; [auto|]; intro Q3; apply mem_In in Q3; rewrite Q3 in Q2; discriminate).
  assert (NDw : NoDup (c_wait c)) by apply D. assert (NDw2 : NoDup w) by (apply NoDup_filter; exact NDw).
  assert (Ew : forall d', cnt (odp cm) d' w = cnt (odp c) d' w). { intro d'. apply cnt_ext. intros o Hi. apply (odp_ext cf a [] c cm o D (proj1 KC)). apply (proj2 (d_wait _ _ _ _ D) o). apply (Hsub o Hi). }
  assert (L1 : 1 <= List.length ops) by (destruct ops; [congruence|cbn; lia]).
  assert (A2 : Am [] [] cm d < Am [] [] c d).
  { unfold Am. rewrite Wm, NS. change (pending []) with (@nil nat). rewrite !app_nil_r, Ew. pose proof (cnt_take (odp c) d (c_wait c) ops NDw K2 Dops w NDw2 Hsub) as Q.
    assert (Z : nw cm d n2 <= 2 * List.length ops - 2). { unfold nw. change (getN cm n2) with (getN c2 n2). rewrite Gp. destruct (_ && _); lia. } unfold cnt at 2 4. cbn [filter List.length]. lia. }
  assert (A3 : forall d', d' < d -> Am [] [] cm d' <= Am [] [] c d').
  { intros d' Hlt. unfold Am. rewrite Wm, NS. change (pending []) with (@nil nat). rewrite !app_nil_r, Ew. assert (Z : nw cm d' n2 = 0). { unfold nw. fold d. destruct (Nat.eqb_spec d d'); [lia|reflexivity]. }
    assert (Q : cnt (odp c) d' w <= cnt (odp c) d' (c_wait c)) by (apply cnt_le; [auto|intros o Hi Eo; split; [apply (Hsub o Hi)|exact Eo]]). unfold cnt at 2 4. cbn [filter List.length]. lia. }
  apply (mlt_A c c' d).
  - apply (node_ok [] cm n2 Dm' (tv_op _ Tm) Nm).
  - unfold rep_map. rewrite Hr, Hr', (items_none c), (items_none c') by auto. specialize (A1 d ltac:(lia)). lia.
  - intros d' Hlt. unfold rep_map, Bm. rewrite Hr, Hr', (items_none c), (items_none c') by auto. specialize (A1 d' ltac:(lia)). specialize (A3 d' Hlt). split; [lia|]. cbn [lsum fold_right].
    assert (Z : curw c' d' = 0); [|lia]. unfold curw. destruct Cc as [-> | ->]; [reflexivity|]. rewrite (dp_ext cf a [] cm c' n2 Dm' (fx_ext _ _ _ _ F) Nm). fold d. destruct (Nat.eqb_spec d d'); [lia|reflexivity].
Qed.

(** ** splitting a node *)
Lemma refd_true c n : refd c n = true <-> forall o, In o (n_parents (getN c n)) -> o_child (getO c o) = Some n.
Proof.
  unfold refd. rewrite forallb_forall. split; intros H o Ho; specialize (H o Ho); [apply onat_eqb_eq in H; auto|rewrite H; cbn; apply Nat.eqb_refl].
Qed.
Lemma step_begin c n c' : linv c -> tv c -> c_rep c = None -> c_dwait c = [] -> c_cur c = None -> live c n -> begin_replay solve arnoldi a c n = Ok c' -> linv c' -> tv c' /\ mlt c' c.
Proof.
  intros V TV Hrep Hdw Hcur Ln H V'. destruct (cinv_begin solve arnoldi cf a c n c' (li_cinv _ _ _ V) Hrep H) as (_ & Hrep' & Hcur'). assert (D := ci_dag _ _ _ (li_cinv _ _ _ V)). unfold rep_map in D. rewrite Hrep in D.
  assert (D' := ci_dag _ _ _ (li_cinv _ _ _ V')). unfold rep_map in D'. rewrite Hrep' in D'.
  unfold begin_replay in H. apply bind_ok in H as (rm & _ & H). set (w := filter _ (c_wait c)) in H. set (c0 := with_wait c w) in *.
  apply bind_ok in H as ([c2 chs] & H1 & H). apply ok_inj in H. unfold split_node in H1. apply bind_ok in H1 as ([] & Ha & H1). apply bind_ok in H1 as (str & _ & H1).
  apply bind_ok in H1 as ([c3 n0] & M0 & H1). apply bind_ok in H1 as ([c4 n1] & M1 & H1). cbn [fst snd] in *. apply ok_inj in H1. injection H1 as <- <-.
  assert (Hn := live_lt _ _ Ln). change (getN c0 n) with (getN c n) in *. set (ps := n_parents (getN c n)) in *.
  assert (Hl : 2 <= List.length ps). { unfold assert in Ha. destruct (1 <? List.length ps) eqn:E; [apply Nat.ltb_lt in E; lia|discriminate]. }
  destruct (d_parents _ _ _ _ D n Hn) as (P1 & P2 & P3 & P4 & P5). fold ps in P1, P2, P4, P5.
  set (mid := Nat.div (List.length ps) 2) in *.
  assert (Hmid : 1 <= mid /\ mid < List.length ps). { unfold mid. split; [apply Nat.div_le_lower_bound; lia|apply Nat.div_lt; lia]. }
  assert (L1 : List.length (firstn mid ps) = mid) by (rewrite firstn_length; lia).
  assert (L2 : List.length (skipn mid ps) = List.length ps - mid) by apply skipn_length.
  assert (X1 : forall o, In o (firstn mid ps) -> In o ps) by (intros o; apply in_firstn).
  assert (X2 : forall o, In o (skipn mid ps) -> In o ps) by (intros o; apply in_skipn).
  assert (E1 : firstn mid ps <> []) by (intro K; rewrite K in L1; cbn [List.length] in L1; lia).
  assert (E2 : skipn mid ps <> []) by (intro K; rewrite K in L2; cbn [List.length] in L2; lia).
  assert (X3 : forall o, In o (firstn mid ps) -> ~ In o (skipn mid ps)) by (rewrite <- (firstn_skipn mid ps) in P2; apply NoDup_app_split in P2; apply P2).
  assert (X4 : forall o, In o ps -> In o (firstn mid ps) \/ In o (skipn mid ps)) by (intros o Ho; apply in_app_iff; rewrite firstn_skipn; auto).
  apply make_node_ptr in M0 as (En0 & HN0 & HO0 & X0 & GN0 & Gp0 & Gq0 & _ & Gf0 & Gc0 & Gx0 & Cu0 & Hw0 & Hd0 & Hr0 & _); [|exact E1|intros o Ho; apply P5; auto].
  apply make_node_ptr in M1 as (En1 & HN1 & HO1 & X1' & GN1 & Gp1 & Gq1 & _ & Gf1 & Gc1 & Gx1 & Cu1 & Hw1 & Hd1 & Hr1 & _); [|exact E2|intros o Ho; rewrite HO0; apply P5; auto].
  change (nN c0) with (nN c) in *. change (nO c0) with (nO c) in *.
  assert (Fc0 : forall o, ~ In o ps -> o_child (getO c4 o) = o_child (getO c o)) by (intros o Ho; rewrite Gx1, Gx0; auto).
  assert (Fc1 : forall o, In o (firstn mid ps) -> o_child (getO c4 o) = Some n0) by (intros o Ho; rewrite Gx1 by auto; auto).
  assert (Fc2 : forall o, In o (skipn mid ps) -> o_child (getO c4 o) = Some n1) by auto.
  assert (FN0 : n_parents (getN c4 n0) = firstn mid ps) by (rewrite GN1 by lia; exact Gp0).
  assert (E : ext c c4). { eapply ext_trans; [apply (ext_same c c0); reflexivity|]. eapply ext_trans; [exact X0|exact X1']. }
  assert (HN4 : nN c4 = S (S (nN c))) by lia. assert (Pn : forall o, In o ps -> o_child (getO c o) = Some n) by (inversion Ln; subst; auto).
  assert (HO4 : nO c4 = nO c) by lia. assert (Hd4 : c_dwait c4 = []) by (rewrite Hd1, Hd0; exact Hdw). assert (Hw4 : c_wait c4 = w) by (rewrite Hw1, Hw0; reflexivity).
  assert (Ec : ext c c'). { eapply ext_trans; [exact E|]. subst c'. apply ext_same; reflexivity. }
  assert (GN : forall m, getN c' m = getN c4 m) by (subst c'; reflexivity). assert (GO : forall o, getO c' o = getO c4 o) by (subst c'; reflexivity). assert (NN : nN c' = S (S (nN c))) by (subst c'; exact HN4). assert (NO : nO c' = nO c) by (subst c'; exact HO4). assert (W' : c_wait c' = w) by (subst c'; exact Hw4).
  assert (Dw' : c_dwait c' = [(n, [n0; n1])]) by (subst c'; ccbn; rewrite Hd4; reflexivity). clear H. set (d := dp c n).
  assert (dpn : dp c' n = d) by (apply (dp_ext cf a [] c c' n D Ec Hn)).
  assert (dps : forall o, In o ps -> odp c' o = d). { intros o Ho. rewrite (odp_ext cf a [] c c' o D Ec); [|apply P5; auto]. symmetry. apply (dp_node cf a [] c n o HP D Hn Ho). }
  assert (dp0 : dp c' n0 = d). { destruct (firstn mid ps) as [|o l] eqn:Ef; [congruence|]. rewrite (dp_node cf a [] c' n0 o HP D' ltac:(lia)); [apply dps, X1; left; auto|rewrite GN, FN0; left; auto]. }
  assert (dp1 : dp c' n1 = d). { destruct (skipn mid ps) as [|o l] eqn:Ef; [congruence|]. rewrite (dp_node cf a [] c' n1 o HP D' ltac:(lia)); [apply dps, X2; left; auto|rewrite GN, Gp1; left; auto]. }
  assert (nch : forall o, In o ps -> exists k, o_child (getO c' o) = Some k /\ nN c <= k). { intros o Ho. rewrite GO. destruct (X4 o Ho) as [K|K]; [exists n0; split; [auto|lia]|exists n1; split; [auto|lia]]. }
  assert (dead : ~ live c' n). { intro Q. inversion Q as [N' _ Q1 _]. subst N'. destruct (ex_node _ _ Ec n Hn) as [_ Ep]. rewrite Ep in Q1. fold ps in Q1. destruct ps as [|o l] eqn:Eps; [congruence|]. destruct (nch o (or_introl eq_refl)) as (k & K1 & K2). rewrite (Q1 o (or_introl eq_refl)) in K1. injection K1 as <-. lia. }
  assert (T' : tv c').
  { constructor.
    - intros o Ho. rewrite NO in Ho. apply (ok_ext [] c); auto. apply TV; auto.
    - rewrite Dw'. intros p chs [[= <- <-]|[]]. split; [exact dead|]. intros ch [<-|[<-|[]]]; congruence.
    - rewrite Hrep'. discriminate. }
  split; [exact T'|].
  (* the measure *)
  assert (NW : forall d' N, In N (seq 0 (nN c)) -> nw c' d' N <= nw c d' N).
  { intros d' N HN. apply in_seq in HN. unfold nw. rewrite (dp_ext cf a [] c c' N D Ec) by lia. destruct (ex_node _ _ Ec N ltac:(lia)) as [_ Ep]. rewrite Ep. destruct (dp c N =? d'); cbn [andb]; [|lia].
    destruct (refd c' N) eqn:Er; [|lia]. assert (Rc : refd c N = true); [|rewrite Rc; lia]. apply refd_true. intros o Ho. pose proof (proj1 (refd_true c' N) Er) as Q. rewrite Ep in Q. specialize (Q o Ho).
    rewrite <- Q, GO. symmetry. apply Fc0. intro Hi. destruct (nch o Hi) as (k & K1 & K2). rewrite Q in K1. injection K1 as <-. lia. }
  assert (Rn : nw c d n = 2 * List.length ps - 2). { unfold nw. fold d ps. rewrite Nat.eqb_refl. assert (Rc : refd c n = true) by (apply refd_true; exact Pn). rewrite Rc. reflexivity. }
  assert (Rn' : nw c' d n = 0). { unfold nw. destruct (ex_node _ _ Ec n Hn) as [_ Ep]. assert (Rc : refd c' n = false). { destruct (refd c' n) eqn:Q; [|reflexivity]. pose proof (proj1 (refd_true c' n) Q) as Q'. rewrite Ep in Q'. fold ps in Q'. destruct ps as [|o l] eqn:Eps; [congruence|]. destruct (nch o (or_introl eq_refl)) as (k & K1 & K2). rewrite (Q' o (or_introl eq_refl)) in K1. injection K1 as <-. lia. } rewrite Rc, andb_false_r. reflexivity. }
  assert (NSq : seq 0 (nN c') = seq 0 (nN c) ++ [n0; n1]). { rewrite NN. replace (S (S (nN c))) with (nN c + 2) by lia. rewrite seq_app. cbn [seq Nat.add]. rewrite En1, HN0, En0. reflexivity. }
  assert (N0 : forall d', nw c' d' n0 = if d =? d' then nw c' d n0 else 0). { intro d'. unfold nw. rewrite dp0, Nat.eqb_refl. destruct (d =? d'); reflexivity. }
  assert (N1 : forall d', nw c' d' n1 = if d =? d' then nw c' d n1 else 0). { intro d'. unfold nw. rewrite dp1, Nat.eqb_refl. destruct (d =? d'); reflexivity. }
  assert (N0' : nw c' d n0 <= 2 * mid - 2). { unfold nw. rewrite GN, FN0, L1. destruct (_ && _); lia. }
  assert (N1' : nw c' d n1 <= 2 * (List.length ps - mid) - 2). { unfold nw. rewrite GN, Gp1, L2. destruct (_ && _); lia. }
  assert (NSd : nsum c' d + 2 <= nsum c d). { unfold nsum. rewrite NSq, lsum_app. pose proof (lsum_drop (nw c' d) (nw c d) (seq 0 (nN c)) n ltac:(apply in_seq; lia) (NW d) Rn') as Q. cbn [lsum fold_right] in *. unfold lsum in *. lia. }
  assert (NSl : forall d', d' < d -> nsum c' d' <= nsum c d'). { intros d' Hlt. unfold nsum. rewrite NSq, lsum_app. pose proof (lsum_le (nw c' d') (nw c d') (seq 0 (nN c)) (NW d')) as Q. unfold lsum in *. cbn [fold_right]. rewrite N0, N1. destruct (Nat.eqb_spec d d'); lia. }
  assert (CW : forall d', cnt (odp c') d' w <= cnt (odp c) d' (c_wait c)). { intro d'. apply cnt_le; [apply NoDup_filter, D|]. intros o Ho Eo. apply filter_In in Ho as [Ho _]. split; [exact Ho|]. rewrite <- Eo. symmetry. apply (odp_ext cf a [] c c' o D Ec). apply (proj2 (d_wait _ _ _ _ D) o Ho). }
  assert (It : items c' = [(n, 0)]) by (unfold items; rewrite Hrep', Dw'; reflexivity).
  apply (mlt_A c c' d).
  - apply (node_ok [] c n D (tv_op _ TV) Hn).
  - unfold Am, rep_map. rewrite Hrep, Hrep', It, (items_none c) by auto. change (pending []) with (@nil nat). rewrite !app_nil_r, W'. specialize (CW d). unfold cnt at 2 4. cbn [filter fst]. rewrite dpn, Nat.eqb_refl. cbn [List.length]. lia.
  - intros d' Hlt. unfold Am, Bm, rep_map. rewrite Hrep, Hrep', It, (items_none c) by auto. change (pending []) with (@nil nat). rewrite !app_nil_r, W'. specialize (CW d'). specialize (NSl d' Hlt). unfold cnt at 2 4. cbn [filter fst].
    unfold curw. rewrite Hcur', Hcur. unfold lsum, iw. cbn [fold_right fst]. rewrite dpn. destruct (Nat.eqb_spec d d'); [lia|]. cbn [List.length]. lia.
Qed.

(** ** changes that touch neither nodes nor operations *)
Definition sm (c c' : core) : Prop := c_nodes c' = c_nodes c /\ c_ops c' = c_ops c /\ c_states c' = c_states c.
Lemma dpf_sm c c' f : sm c c' -> forall n, dpf f c' n = dpf f c n.
Proof. intros (E1 & E2 & _). induction f as [|f IH]; intro n; cbn [dpf]; [reflexivity|]. unfold getN, getO. rewrite E1, E2. destruct (n_parents _); [reflexivity|]. destruct (o_parent _); [|reflexivity]. rewrite IH. reflexivity. Qed.
Lemma dp_sm c c' n : sm c c' -> dp c' n = dp c n. Proof. intro H. apply dpf_sm; auto. Qed.
Lemma odp_sm c c' o : sm c c' -> odp c' o = odp c o. Proof. intro H. unfold odp, getO. rewrite (proj1 (proj2 H)). destruct (o_parent _); [rewrite (dp_sm c c') by auto|]; reflexivity. Qed.
Lemma iw_sm c c' d pi : sm c c' -> iw c' d pi = iw c d pi. Proof. intro H. unfold iw, getN. rewrite (dp_sm c c') by auto. rewrite (proj1 H). reflexivity. Qed.
Lemma Am_sm c c' mp its d : sm c c' -> c_wait c' = c_wait c -> Am mp its c' d = Am mp its c d.
Proof.
  intros H Hw. unfold Am. rewrite Hw. rewrite (cnt_ext (odp c') (odp c)) by (intros; apply odp_sm; auto). rewrite (cnt_ext (fun pi => dp c' (fst pi)) (fun pi => dp c (fst pi))) by (intros; apply dp_sm; auto).
  assert (E : nsum c' d = nsum c d); [|rewrite E; reflexivity]. unfold nsum. rewrite (proj1 H). apply lsum_ext. intros n _. unfold nw, refd. rewrite (dp_sm c c') by auto. unfold getN, getO. destruct H as (-> & -> & _). reflexivity.
Qed.
Lemma okop_sm c c' o : sm c c' -> okop c o -> okop c' o.
Proof. intros H. unfold okop, omode. rewrite (odp_sm c c') by auto. unfold getO, getS. destruct H as (_ & -> & ->). auto. Qed.

(** ** replaying *)
Record finx (mp : list ((nat * nat) * list nat)) (d : nat) (c c' : core) : Prop := {
  fi_kc : kc c c'; fi_nO : nO c' = nO c; fi_old : forall n, n < nN c -> getN c' n = getN c n;
  fi_new : forall n, nN c <= n -> n < nN c' -> dp c' n = S d;
  fi_wait : c_wait c' = c_wait c; fi_rep : c_rep c' = c_rep c; fi_cur : c_cur c' = c_cur c;
  fi_dw : exists its, c_dwait c' = c_dwait c ++ its /\ forall p chs, In (p, chs) its -> (exists ch os, In ((ch, p), os) mp) /\ forall ch, In ch chs -> dp c' ch = S d }.
Lemma fx_finish d mp : forall c c', dag mp c -> lv mp c -> (forall ch k os, In ((ch, k), os) mp -> dp c ch = d /\ dp c k = S d /\ ~ live c k) -> finish_map solve arnoldi a c mp = Ok c' -> finx mp d c c' /\ dag [] c'.
Proof.
  induction mp as [|[[ch k] os] mp IH]; intros c c' D L Hmp H; cbn [finish_map] in H.
  { apply ok_inj in H; subst. split; [|exact D]. constructor; auto; [apply kc_refl|intros; lia|]. exists []. split; [rewrite app_nil_r; reflexivity|intros p chs []]. }
  apply bind_ok in H as ([c1 n] & H1 & H). destruct (d_map _ _ _ _ D ch k os (or_introl eq_refl)) as (P1 & P2 & P3 & P4). pose proof (d_mapnd _ _ _ _ D) as ND. unfold pending in ND. cbn [map snd List.concat] in ND.
  apply NoDup_app_split in ND as (N1 & N2 & N3). destruct (Hmp ch k os (or_introl eq_refl)) as (M1 & M2 & M3).
  assert (D0 : dag mp c). { constructor; try apply D; [exact N2|]. intros ch' k' os' K. apply (d_map _ _ _ _ D). right; auto. }
  assert (H0 : In (nth 0 os 0) os) by (destruct os; [congruence|left; reflexivity]).
  assert (D1 : dag mp c1).
  { eapply dag_make_node; [exact D0|exact P1|exact N1| | | |exact H1].
    - intros o Ho. destruct (P4 o Ho) as (Q1 & Q2 & Q3 & Q4 & Q5 & _). destruct (P4 _ H0) as (_ & _ & _ & _ & Q6 & _). split; [auto|]. split; [auto|]. split; [exact (N3 o Ho)|congruence].
    - intros _ o Ho. destruct (P4 o Ho) as (_ & _ & -> & _). discriminate.
    - intros HP' o o' Ho Ho'. destruct (P4 o Ho) as (_ & _ & -> & _ & _ & T1), (P4 o' Ho') as (_ & _ & -> & _ & _ & T2). split; [auto|].
      destruct (d_parents _ _ _ _ D k P3) as (Kn & _). destruct (n_parents (getN c k)) as [|q qs]; [congruence|]. rewrite <- (T1 HP' q), <- (T2 HP' q) by (left; auto). reflexivity. }
  assert (Ho2 : forall o, In o os -> o < nO c /\ o_child (getO c o) = None) by (intros o Ho; destruct (P4 o Ho); tauto).
  assert (KC := kc_make_node solve a arnoldi c os _ _ c1 n P1 Ho2 H1).
  assert (L1 : lv mp c1). { eapply (lv_make_node solve cf a arnoldi (((ch, k), os) :: mp) mp); [exact D|exact L| |exact P1|exact Ho2|exact H1]. intros o Ho. unfold pending. cbn [map snd List.concat]. apply in_app_iff. right; auto. }
  apply make_node_ptr in H1 as (En & HN & HO & _ & GN & Gp & _ & _ & _ & _ & _ & Cu & Hw & Hdw & Hrep & _); [|exact P1|intros o Ho; apply P4; auto].
  assert (dpn : dp c1 n = S d). { rewrite (dp_node cf a mp c1 n (nth 0 os 0) HP D1 ltac:(lia)) by (rewrite Gp; exact H0). destruct (P4 _ H0) as (Q1 & _ & Q3 & _). rewrite (odp_ext cf a mp c c1 _ D0 (proj1 KC) Q1). unfold odp. rewrite Q3, M1. reflexivity. }
  set (c2 := with_dwait c1 (c_dwait c1 ++ [(k, [n])])) in *. assert (K2 : kc c1 c2) by (apply kc_same; reflexivity). assert (D2 : dag mp c2) by (apply (dag_wait cf a _ c1); auto; apply D1).
  assert (KC2 := kc_trans _ _ _ KC K2).
  assert (Dp : forall m, m < nN c -> dp c2 m = dp c m) by (intros m Hm; apply (dp_ext cf a mp c c2 m D0 (proj1 KC2) Hm)).
  assert (dpn2 : dp c2 n = S d) by (rewrite (dp_ext cf a mp c1 c2 n D1 (proj1 K2) ltac:(lia)); exact dpn).
  apply IH in H as (F & D'); [|exact D2|apply (lv_kc cf a mp c1); auto|].
  2:{ intros ch' k' os' Hi. destruct (Hmp ch' k' os' (or_intror Hi)) as (A1 & A2 & A3). destruct (d_map _ _ _ _ D0 ch' k' os' Hi) as (_ & B2 & B3 & _). rewrite !Dp by auto. split; [auto|]. split; [auto|]. intro Q. apply A3. apply (dead_kc cf a mp c c2 k' D0 KC2 Q B3). }
  split; [|exact D']. pose proof (ex_nN _ _ (proj1 (fi_kc _ _ _ _ F))) as NN. change (nN c2) with (nN c1) in NN. constructor.
  - eapply kc_trans; [exact KC2|apply F].
  - rewrite (fi_nO _ _ _ _ F). exact HO.
  - intros m Hm. rewrite (fi_old _ _ _ _ F) by (change (nN c2) with (nN c1); lia). change (getN c2 m) with (getN c1 m). apply GN; auto.
  - intros m H1' H2'. destruct (Nat.eq_dec m n) as [->|Hn]; [|apply (fi_new _ _ _ _ F); [change (nN c2) with (nN c1); lia|auto]]. rewrite (dp_ext cf a mp c2 c' n D2 (proj1 (fi_kc _ _ _ _ F)) ltac:(change (nN c2) with (nN c1); lia)). exact dpn2.
  - rewrite (fi_wait _ _ _ _ F). exact Hw.
  - rewrite (fi_rep _ _ _ _ F). exact Hrep.
  - rewrite (fi_cur _ _ _ _ F). exact Cu.
  - destruct (fi_dw _ _ _ _ F) as (its & Q1 & Q2). exists ((k, [n]) :: its). split; [rewrite Q1; unfold c2; ccbn; rewrite Hdw, <- app_assoc; reflexivity|]. intros p chs [[= <- <-]|Hi].
    + split; [exists ch, os; left; auto|]. intros q [<-|[]].
      rewrite (dp_ext cf a mp c2 c' n D2 (proj1 (fi_kc _ _ _ _ F)) ltac:(change (nN c2) with (nN c1); lia)). exact dpn2.
    + destruct (Q2 p chs Hi) as ((ch' & os' & B1) & B2). split; [exists ch', os'; right; auto|auto].
Qed.

Lemma replay_init c c1 : linv c -> tv c -> c_cur c = None ->
  match c_rep c, c_dwait c with Some _, _ => Ok c | None, (p, chs) :: dw => Ok (with_rep (with_dwait c dw) (Some (mkRep p chs 0 []))) | None, [] => Err EAssert end = Ok c1 ->
  linv c1 /\ tv c1 /\ c_cur c1 = None /\ forall d, Am (rep_map c1) (items c1) c1 d = Am (rep_map c) (items c) c d /\ Bm (items c1) c1 d = Bm (items c) c d.
Proof.
  intros V TV Hcu H. destruct (c_rep c) as [r|] eqn:Er; [apply ok_inj in H; subst c1; auto|]. destruct (c_dwait c) as [|[p chs] dw] eqn:Ed; [discriminate|]. apply ok_inj in H. subst c1.
  assert (D := ci_dag _ _ _ (li_cinv _ _ _ V)). unfold rep_map in D. rewrite Er in D. assert (Hin : forall x, In x dw -> In x (c_dwait c)) by (rewrite Ed; intros; right; auto). assert (Hp : In (p, chs) (c_dwait c)) by (rewrite Ed; left; auto).
  set (c1 := with_rep (with_dwait c dw) (Some (mkRep p chs 0 []))). assert (SM : sm c c1) by (split; [|split]; reflexivity). assert (K : kc c c1) by (apply kc_same; reflexivity). assert (D1 : dag [] c1) by (apply (dag_wait cf a _ c); auto; apply D).
  assert (LK : forall n, live c n -> live c1 n) by (intros n Q; apply (live_kc cf a [] c); auto). assert (DK : forall n, n < nN c -> ~ live c n -> ~ live c1 n) by (intros n Q1 Q2 Q3; apply Q2; apply (dead_kc cf a [] c c1 n D K Q3 Q1)).
  destruct (ci_dw _ _ _ (li_cinv _ _ _ V) p chs Hp) as [P1 P2]. split; [|split; [|split; [exact Hcu|]]].
  - constructor.
    + constructor; [exact D1|change (c_cur c1) with (c_cur c); rewrite Hcu; discriminate| |].
      * intros q qs Q. apply (ci_dw _ _ _ (li_cinv _ _ _ V) q qs (Hin _ Q)).
      * intros r [= <-]. cbn [rp_parent rp_children]. auto.
    + assert (L := li_lv _ _ _ V). unfold rep_map in L. rewrite Er in L. apply (lv_kc cf a [] c); auto.
    + change (c_cur c1) with (c_cur c). rewrite Hcu. discriminate.
    + intros q qs ch Q1 Q2. apply LK. apply (li_dw _ _ _ V q qs ch (Hin _ Q1) Q2).
    + intros r ch [= <-] Q2. cbn [rp_children] in Q2. apply LK. apply (li_dw _ _ _ V p chs ch Hp Q2).
  - constructor.
    + intros o Ho. apply (okop_sm c c1 o SM). apply TV. exact Ho.
    + intros q qs Q. destruct (tv_dw _ TV q qs (Hin _ Q)) as [T1 T2]. destruct (ci_dw _ _ _ (li_cinv _ _ _ V) q qs (Hin _ Q)) as [T3 _]. split; [apply DK; auto|]. intros ch Hch. rewrite !(dp_sm c c1) by exact SM. auto.
    + intros r [= <-]. cbn [rp_parent rp_children rp_map]. destruct (tv_dw _ TV p chs Hp) as [T1 T2]. split; [apply DK; auto|]. split; [intros ch Hch; rewrite !(dp_sm c c1) by exact SM; auto|]. intros ch k os [].
  - intro d. unfold rep_map, items. rewrite Er, Ed. change (c_rep c1) with (Some (mkRep p chs 0 [])). cbn [rp_map rp_parent rp_idx app map fst]. change (c_dwait c1) with dw. split; [apply Am_sm; auto|]. unfold Bm, curw. change (c_cur c1) with (c_cur c). rewrite Hcu. f_equal. apply lsum_ext. intros pi _. apply iw_sm. exact SM.
Qed.

Lemma step_replay c c' : linv c -> tv c -> c_cur c = None -> do_step_replay solve arnoldi cf a c = Ok c' -> linv c' -> tv c' /\ mlt c' c.
Proof.
  intros V TV Hcu H V'. unfold do_step_replay in H. apply bind_ok in H as (c1 & H1 & H). destruct (replay_init c c1 V TV Hcu H1) as (V1 & T1 & Cu1 & EqM). clear H1 V TV Hcu.
  destruct (c_rep c1) as [rp|] eqn:Er; [|discriminate]. destruct rp as [p chs idx mp0]. cbn [rp_parent rp_children rp_idx rp_map] in H. destruct (nth_error _ _) as [x0|] eqn:Ex in H; [|discriminate]. apply bind_ok in H as ([[[[c2 mp] i2] k2] p2] & H2 & H).
  assert (D1 := ci_dag _ _ _ (li_cinv _ _ _ V1)). assert (L1 := li_lv _ _ _ V1). unfold rep_map in D1, L1. rewrite Er in D1, L1. cbn [rp_map] in D1, L1.
  destruct (ci_rep _ _ _ (li_cinv _ _ _ V1) _ Er) as [Hp Hchs]. destruct (tv_rep _ T1 _ Er) as (Dead & Dch & Mp0). assert (Lch := fun ch => li_rep _ _ _ V1 _ ch Er). cbn [rp_parent rp_children rp_map] in *.
  set (d := dp c1 p) in *. set (KP := fun k => ~ live c1 k /\ dp c1 k = S d) in *.
  assert (Hlen : idx < List.length (n_ops (getN c1 p))) by (apply nth_error_Some; congruence).
  assert (Hx : forall x, In x (n_ops (getN c1 p)) -> xok (Gd d) KP c1 x).
  { intros x Hi o ->. destruct (d_ntr _ _ _ _ D1 p o Hp Hi) as [Q1 Q2]. split; [exact Q1|]. assert (Eo : odp c1 o = S d) by (unfold odp; rewrite Q2; reflexivity). split.
    - assert (T := tv_op _ T1 o Q1). unfold okop in T. rewrite Eo in T. unfold Gd. destruct (d_par _ _ _ _ D1 o p Q1 Q2) as (_ & _ & t & Et & Em). rewrite Em in T. rewrite Et. destruct (cf_urgent cf); [exists t; auto|]. split; [apply T|]. apply T. rewrite Q2. discriminate.
    - intros k Hk. destruct (d_child _ _ _ _ D1 o k Q1 Hk) as [Q3 Q4]. split; [|rewrite (dp_node cf a mp0 c1 k o HP D1 Q3 Q4); exact Eo]. intro Lk. apply Dead. inversion Lk; subst. eauto. }
  assert (Esk : skipn idx (n_ops (getN c1 p)) = x0 :: skipn (S idx) (n_ops (getN c1 p))).
  { clear - Ex. revert idx Ex. induction (n_ops (getN c1 p)) as [|y l IH]; intros [|i] Ex; cbn in *; try discriminate; [injection Ex as ->; reflexivity|apply IH; auto]. }
  rewrite Esk in H2. apply replay_loop_first in H2 as (r1 & H2a & H2b).
  assert (Hx0 := Hx x0 (nth_error_In _ _ Ex)). assert (Hxo : forall o, x0 = NTr o -> o < nO c1) by (intros o E; apply (Hx0 o E)).
  destruct (dag_replay_children solve cf a x0 chs c1 mp0 r1 D1 (fun ch Q => live_lt _ _ (Lch ch Q)) Hxo H2a) as [Da Pa].
  destruct (lv_replay_children solve cf a x0 chs c1 mp0 r1 D1 L1 Lch Hxo H2a) as [La Ka].
  destruct (fx_replay_children solve cf a (Gd d) KP chs x0 chs c1 mp0 r1 D1 L1 (fun ch Q => conj (Lch ch Q) Q) Hx0 Mp0 H2a) as (F1 & M1 & Mp1).
  assert (Hsk : forall o, In (NTr o) (skipn (S idx) (n_ops (getN c1 p))) -> o < nO (fst r1)) by (intros o Ho; apply in_skipn in Ho; apply (d_ntr _ _ _ _ D1) in Ho as [Ho _]; [|exact Hp]; pose proof (ex_nO _ _ (fx_ext _ _ _ _ F1)); lia).
  assert (DP := dag_replay_loop solve cf a _ _ _ _ _ _ _ _ _ _ _ _ _ Da (fun ch Q => Nat.lt_le_trans _ _ _ (live_lt _ _ (Lch ch Q)) (ex_nN _ _ (fx_ext _ _ _ _ F1))) Hsk H2b). destruct DP as [_ Pb].
  apply (fx_replay_loop solve cf a (Gd d) KP chs) in H2b as (F2 & M2 & Mp2 & I2 & D2 & L2); [|exact Da|exact La|intros k Hk; apply (live_kc cf a mp0 c1); auto|intros y Hy; eapply xok_fx; [exact F1|apply Hx; apply in_skipn in Hy; exact Hy]|exact Mp1].
  apply bind_ok in H as (c3 & H3 & H). apply keeps_advance in H3. assert (D3 := dag_k _ _ _ _ _ D2 H3). assert (L3 := lv_keeps _ _ _ _ _ D2 L2 H3). apply bind_ok in H as (u & _ & H).
  assert (F : fx chs (GQ (Gd d)) c1 c3) by (eapply fx_trans; [exact F1|]; eapply fx_trans; [exact F2|apply fx_keeps; exact H3]).
  assert (MN : mpnew c1 mp0 mp) by (eapply mpnew_trans; [|exact M1|exact M2]; apply (ex_nO _ _ (fx_ext _ _ _ _ F1))).
  assert (Cu3 : c_cur c3 = None) by (rewrite (k_cur _ _ H3), (pf_cur _ _ Pb), (pf_cur _ _ Pa); exact Cu1).
  assert (K3 := kc_fx _ _ _ _ F). assert (N3 := fx_nN _ _ _ _ F). assert (Dp3 : forall n, n < nN c1 -> dp c3 n = dp c1 n) by (intros n Hn; apply (dp_ext cf a mp0 c1 c3 n D1 (fx_ext _ _ _ _ F) Hn)).
  assert (HL : forall n, In n chs -> n < nN c1 /\ dp c1 n = d) by (intros n Hn; split; [apply live_lt; auto|auto]).
  assert (OK3 := ok_fx chs mp0 mp c1 c3 d D1 D3 F HL (tv_op _ T1)).
  assert (Dd3 : forall n, n < nN c1 -> ~ live c1 n -> ~ live c3 n) by (intros n Q1 Q2 Q3; apply Q2; apply (dead_kc cf a mp0 c1 c3 n D1 K3 Q3 Q1)).
  set (dw := map (fun pc => (fst pc, 0)) (c_dwait c1)).
  assert (Hdw : forall pi, In pi dw -> fst pi < nN c1 /\ ~ In (fst pi) chs).
  { intros pi Hi. apply in_map_iff in Hi as ([q qs] & <- & Hi). cbn [fst]. split; [apply (proj1 (ci_dw _ _ _ (li_cinv _ _ _ V1) q qs Hi))|]. intro Q. destruct (tv_dw _ T1 q qs Hi) as [Q1 _]. auto. }
  assert (Hpc : ~ In p chs) by (intro Q; auto).
  assert (It1 : items c1 = (p, idx) :: dw) by (unfold items; rewrite Er; reflexivity).
  assert (HdD : d <= Dm) by apply (node_ok mp0 c1 p D1 (tv_op _ T1) Hp).
  assert (Ops3 : n_ops (getN c3 p) = n_ops (getN c1 p)) by (apply (fx_nops _ _ _ _ F); auto).
  assert (A3 : forall its d', (forall pi, In pi its -> fst pi < nN c1) -> d' <= d -> Am mp its c3 d' <= Am mp0 its c1 d') by (intros its d' Q1 Q2; apply (A_fx chs (GQ (Gd d)) mp0 mp c1 c3 d its D1 D3 F MN HL Q1 d' Q2)).
  assert (B3 : forall d', lsum (iw c3 d') dw = lsum (iw c1 d') dw) by (intro d'; apply (iw_fx chs (GQ (Gd d)) mp0); auto).
  assert (Cw1 : forall d', curw c1 d' = 0) by (intro d'; unfold curw; rewrite Cu1; reflexivity).
  destruct (_ || _) in H.
  - (* all operations are replayed *)
    apply bind_ok in H as (c4 & H4 & H). apply ok_inj in H.
    assert (Hmp3 : forall ch k os, In ((ch, k), os) mp -> dp c3 ch = d /\ dp c3 k = S d /\ ~ live c3 k).
    { intros ch k os Hi. destruct (Mp2 ch k os Hi) as [Q1 [Q2 Q3]]. destruct (d_map _ _ _ _ D3 ch k os Hi) as (_ & Q4 & Q5 & _). rewrite N3 in Q4, Q5. rewrite !Dp3 by auto. split; [apply HL; auto|]. split; [auto|apply Dd3; auto]. }
    destruct (fx_finish d mp c3 c4 D3 L3 Hmp3 H4) as [FI D4]. destruct (fi_dw _ _ _ _ FI) as (its & E4 & Hits).
    assert (K4 := fi_kc _ _ _ _ FI). assert (Dp4 : forall n, n < nN c1 -> dp c4 n = dp c1 n) by (intros n Hn; rewrite <- (Dp3 n Hn); apply (dp_ext cf a mp c3 c4 n D3 (proj1 K4)); lia).
    assert (Dd4 : forall n, n < nN c1 -> ~ live c1 n -> ~ live c4 n) by (intros n Q1 Q2 Q3; apply (Dd3 n Q1 Q2); apply (dead_kc cf a mp c3 c4 n D3 K4 Q3); lia).
    assert (Hit4 : forall q qs, In (q, qs) its -> q < nN c1 /\ dp c4 q = S d /\ ~ live c4 q /\ forall ch, In ch qs -> dp c4 ch = S d).
    { intros q qs Hi. destruct (Hits q qs Hi) as ((ch & os & Q1) & Q2). destruct (Mp2 ch q os Q1) as [_ [Q3 Q4]]. destruct (d_map _ _ _ _ D3 ch q os Q1) as (_ & _ & Q5 & _). rewrite N3 in Q5. split; [auto|]. rewrite Dp4 by auto. split; [auto|]. split; [apply Dd4; auto|auto]. }
    assert (Edw : c_dwait c4 = c_dwait c1 ++ its) by (rewrite E4, (fx_dw _ _ _ _ F); reflexivity).
    assert (It' : items c' = dw ++ map (fun pc => (fst pc, 0)) its) by (subst c'; unfold items; ccbn; rewrite Edw, map_app; reflexivity).
    assert (Rm' : rep_map c' = []) by (subst c'; reflexivity).
    assert (SM : sm c4 c') by (subst c'; split; [|split]; reflexivity). assert (X : forall mp its d, Am mp its c' d = Am mp its c4 d) by (intros; apply Am_sm; [exact SM|subst c'; reflexivity]). assert (Y : forall d its, lsum (iw c' d) its = lsum (iw c4 d) its) by (intros; apply lsum_ext; intros; apply iw_sm; exact SM).
    split.
    { constructor.
      - intros o Ho. assert (Ho4 : o < nO c3) by (rewrite <- (fi_nO _ _ _ _ FI); subst c'; exact Ho). assert (Q := ok_ext mp c3 c4 o D3 (proj1 K4) Ho4 (OK3 o Ho4)). apply (okop_sm c4 c' o SM Q).
      - intros q qs Hi. assert (Hi' : In (q, qs) (c_dwait c1 ++ its)) by (rewrite <- Edw; subst c'; exact Hi). assert (Kc' : kc c4 c') by (subst c'; apply kc_same; reflexivity).
        assert (Z : q < nN c1 /\ ~ live c4 q /\ forall ch, In ch qs -> dp c4 ch = dp c4 q).
        { apply in_app_iff in Hi' as [Q|Q].
          - destruct (tv_dw _ T1 q qs Q) as [Q1 Q2]. destruct (ci_dw _ _ _ (li_cinv _ _ _ V1) q qs Q) as [Q3 Q4]. split; [auto|]. split; [auto|]. intros ch Hch. rewrite !Dp4 by auto. auto.
          - destruct (Hit4 q qs Q) as (Q1 & Q2 & Q3 & Q4). split; [auto|]. split; [auto|]. intros ch Hch. rewrite Q2. auto. }
        destruct Z as (Z1 & Z2 & Z3). split; [|intros ch Hch; rewrite !(dp_sm c4 c') by exact SM; exact (Z3 ch Hch)]. intro Q. apply Z2. apply (dead_kc cf a [] c4 c' q D4 Kc' Q). pose proof (ex_nN _ _ (proj1 K4)). lia.
      - subst c'. discriminate. }
    assert (P4 : forall d', d' <= d -> Am [] ((p, idx) :: dw) c4 d' <= Am mp ((p, idx) :: dw) c3 d').
    { intros d' Hd. unfold Am. rewrite (nsum_kc mp c3 c4 d' D3 K4), (lsum_0 (nw c4 d')).
      2:{ intros n Hn. apply in_seq in Hn. unfold nw. rewrite (fi_new _ _ _ _ FI) by lia. destruct (Nat.eqb_spec (S d) d'); [lia|reflexivity]. }
      rewrite (cnt_ext (fun pi => dp c4 (fst pi)) (fun pi => dp c3 (fst pi)) d' ((p, idx) :: dw)).
      2:{ intros pi [<-|Hi]; cbn [fst]; [|apply Hdw in Hi as [Hi _]]; rewrite Dp4, Dp3 by auto; reflexivity. }
      rewrite (fi_wait _ _ _ _ FI). change (pending []) with (@nil nat). rewrite cnt_app, (cnt_app _ _ _ (pending mp)).
      rewrite (cnt_ext (odp c4) (odp c3) d' (c_wait c3)). 2:{ intros o Ho. apply (odp_ext cf a mp c3 c4 o D3 (proj1 K4)). apply (proj2 (d_wait _ _ _ _ D3) o Ho). }
      unfold cnt at 2. cbn [filter List.length]. lia. }
    assert (CI : forall d', cnt (fun pi => dp c4 (fst pi)) d' ((p, idx) :: dw) = (if d =? d' then 1 else 0) + cnt (fun pi => dp c4 (fst pi)) d' dw).
    { intro d'. unfold cnt. cbn [filter fst]. rewrite Dp4 by auto. fold d. destruct (d =? d'); reflexivity. }
    assert (CJ : forall d', d' <= d -> cnt (fun pi => dp c4 (fst pi)) d' (dw ++ map (fun pc => (fst pc, 0)) its) = cnt (fun pi => dp c4 (fst pi)) d' dw).
    { intros d' Hd. rewrite cnt_app, (cnt_0 _ d' (map _ its)); [lia|]. intros pi Hi. apply in_map_iff in Hi as ([q qs] & <- & Hi). cbn [fst]. destruct (Hit4 q qs Hi) as (_ & -> & _). lia. }
    assert (AA : forall d', d' <= d -> Am (rep_map c') (items c') c' d' + (if d =? d' then 1 else 0) <= Am (rep_map c) (items c) c d').
    { intros d' Hd. destruct (EqM d') as [<- _]. rewrite X, Rm', It', It1. unfold rep_map. rewrite Er. cbn [rp_map]. specialize (P4 d' Hd). specialize (A3 ((p, idx) :: dw) d'). 
      assert (Q : forall pi, In pi ((p, idx) :: dw) -> fst pi < nN c1) by (intros pi [<-|Hi]; [auto|apply Hdw; auto]). specialize (A3 Q Hd). eapply Nat.le_trans; [|exact A3]. eapply Nat.le_trans; [|exact P4]. unfold Am. rewrite CI, CJ by auto. lia. }
    apply (mlt_A c c' d HdD).
    + specialize (AA d (le_n _)). rewrite Nat.eqb_refl in AA. lia.
    + intros d' Hd. specialize (AA d' ltac:(lia)). split; [lia|]. destruct (EqM d') as [_ <-]. unfold Bm. rewrite It', It1, Y, lsum_app.
      assert (Z : curw c' d' = 0) by (unfold curw; subst c'; ccbn; rewrite (fi_cur _ _ _ _ FI), Cu3; reflexivity). rewrite Z, Cw1.
      rewrite (lsum_0 (iw c4 d') (map _ its)). 2:{ intros pi Hi. apply in_map_iff in Hi as ([q qs] & <- & Hi). unfold iw. cbn [fst]. destruct (Hit4 q qs Hi) as (_ & -> & _). destruct (Nat.eqb_spec (S d) d'); [lia|reflexivity]. }
      rewrite (lsum_ext (iw c4 d') (iw c1 d') dw). 2:{ intros pi Hi. destruct (Hdw pi Hi) as [Q1 Q2]. unfold iw. rewrite Dp4 by auto. rewrite (fi_old _ _ _ _ FI) by lia. rewrite (fx_nops _ _ _ _ F) by auto. reflexivity. }
      change (lsum (iw c1 d') ((p, idx) :: dw)) with (iw c1 d' (p, idx) + lsum (iw c1 d') dw). lia.
  - (* some operations are left *)
    apply ok_inj in H. assert (Rm' : rep_map c' = mp) by (subst c'; reflexivity). assert (It' : items c' = (p, i2) :: dw) by (subst c'; unfold items; ccbn; rewrite (fx_dw _ _ _ _ F); reflexivity).
    assert (SM : sm c3 c') by (subst c'; split; [|split]; reflexivity). assert (Kc' : kc c3 c') by (subst c'; apply kc_same; reflexivity). assert (Dd' : forall n, n < nN c1 -> ~ live c1 n -> ~ live c' n) by (intros n Q1 Q2 Q3; apply (Dd3 n Q1 Q2); apply (dead_kc cf a mp c3 c' n D3 Kc' Q3); lia).
    assert (Dp' : forall n, n < nN c1 -> dp c' n = dp c1 n) by (intros n Hn; rewrite <- (Dp3 n Hn); apply dp_sm; exact SM).
    split.
    { constructor.
      - intros o Ho. assert (Q : okop c3 o) by (apply OK3; subst c'; exact Ho). apply (okop_sm c3 c' o SM Q).
      - intros q qs Hi. assert (Hi1 : In (q, qs) (c_dwait c1)) by (rewrite <- (fx_dw _ _ _ _ F); subst c'; exact Hi). destruct (tv_dw _ T1 q qs Hi1) as [Q1 Q2]. destruct (ci_dw _ _ _ (li_cinv _ _ _ V1) q qs Hi1) as [Q3 Q4]. split; [auto|]. intros ch Hch. rewrite !Dp' by auto. auto.
      - intros r Hr. assert (Er' : r = mkRep p chs i2 mp) by (subst c'; unfold with_rep in Hr; cbn [c_rep] in Hr; congruence). subst r. cbn [rp_parent rp_children rp_map]. split; [auto|]. split; [intros ch Hch; rewrite !Dp' by auto; apply HL; auto|].
        intros ch k os Hi. destruct (Mp2 ch k os Hi) as [Q1 [Q2 Q3]]. destruct (d_map _ _ _ _ D3 ch k os Hi) as (_ & Q4 & Q5 & _). rewrite N3 in Q4, Q5. split; [auto|]. split; [auto|]. rewrite !Dp' by auto. exact Q3. }
    assert (AA : forall d', d' <= d -> Am (rep_map c') (items c') c' d' <= Am (rep_map c) (items c) c d').
    { intros d' Hd. destruct (EqM d') as [<- _]. rewrite Rm', It', It1. unfold rep_map. rewrite Er. cbn [rp_map]. assert (Q : forall pi, In pi ((p, i2) :: dw) -> fst pi < nN c1) by (intros pi [<-|Hi]; [auto|apply Hdw; auto]). specialize (A3 ((p, i2) :: dw) d' Q Hd).
      assert (Z : Am mp ((p, i2) :: dw) c' d' = Am mp ((p, i2) :: dw) c3 d') by (apply Am_sm; [exact SM|subst c'; reflexivity]). rewrite Z. assert (Z5 : Am mp0 ((p, i2) :: dw) c1 d' = Am mp0 ((p, idx) :: dw) c1 d') by (unfold Am, cnt; cbn [filter fst]; destruct (dp c1 p =? d'); reflexivity). rewrite <- Z5. exact A3. }
    assert (BB : forall d', Bm (items c') c' d' + (if d =? d' then 1 else 0) <= Bm (items c) c d').
    { intro d'. destruct (EqM d') as [_ <-]. unfold Bm. rewrite It', It1. assert (Z : curw c' d' = 0) by (unfold curw; subst c'; ccbn; rewrite Cu3; reflexivity). rewrite Z, Cw1.
      assert (Z2 : lsum (iw c' d') dw = lsum (iw c3 d') dw) by (apply lsum_ext; intros; apply iw_sm; exact SM). specialize (B3 d'). unfold lsum in *. cbn [fold_right]. rewrite Z2, B3. assert (Z3 : iw c' d' (p, i2) + (if d =? d' then 1 else 0) <= iw c1 d' (p, idx)); [|lia].
      unfold iw. cbn [fst snd]. rewrite Dp' by auto. fold d. assert (Z4 : n_ops (getN c' p) = n_ops (getN c1 p)) by (rewrite <- Ops3; subst c'; reflexivity). rewrite Z4. destruct (d =? d'); lia. }
    apply (mlt_B c c' d HdD); [apply AA; lia|specialize (BB d); rewrite Nat.eqb_refl in BB; lia|]. intros d' Hd. split; [apply AA; lia|]. specialize (BB d'). lia.
Qed.

(** ** every step *)
Lemma mlt_trans c1 c2 c3 : mlt c1 c2 -> mlt c2 c3 -> mlt c1 c3.
Proof. apply lexlt_trans. Qed.
Lemma mu_step c c' : linv c -> iv c -> tv c -> is_finished cf c = false -> do_step solve arnoldi cf a c = Ok c' -> tv c' /\ mlt c' c.
Proof.
  intros V I TV Hf H. assert (V' := linv_step solve arnoldi cf a _ _ V H). unfold do_step in H. rewrite Hf in H. destruct (cur_state c) as [[nid sid]|] eqn:Ec.
  - apply bind_ok in H as (c1 & H1 & H). apply ok_inj in H. unfold cur_state in Ec. destruct (c_cur c) as [n|] eqn:En; [|discriminate]. destruct (left_inv c n); [discriminate|]. injection Ec as -> <-.
    subst c'. apply (step_cont c nid c1); auto.
  - assert (Hcu : c_cur c = None). { unfold cur_state in Ec. destruct (c_cur c) as [n|] eqn:En; [|auto]. destruct (li_cur _ _ _ V n En) as (_ & K & _). rewrite K in Ec. discriminate. }
    unfold doing_replay in H. destruct (c_rep c) eqn:Er; [apply (step_replay c); auto|]. destruct (c_dwait c) eqn:Ed; [|apply (step_replay c); auto].
    apply bind_ok in H as ([n|] & Hdn & H).
    + apply bind_ok in H as (c1 & H1 & H). assert (Ln : live c n) by (eapply deagg_live; [apply V|exact Hdn]).
      assert (Cu1 : c_cur c1 = None) by (destruct (cinv_begin solve arnoldi cf a c n c1 (li_cinv _ _ _ V) Er H1) as (_ & _ & ->); auto).
      assert (V1 := linv_begin solve arnoldi cf a c n c1 V Er Ed Hcu Ln H1). destruct (step_begin c n c1 V TV Er Ed Hcu Ln H1 V1) as [T1 M1]. destruct (step_replay c1 c' V1 T1 Cu1 H V') as [T2 M2]. split; [auto|]. eapply mlt_trans; eauto.
    + apply bind_ok in H as (c1 & H1 & H). apply (step_pop c c1 c'); auto.
Qed.
Lemma lex_loop ss : (forall s, In s ss -> start_ok s) -> forall c, reached solve arnoldi cf a ss c -> tv c -> exists fuel, run_loop solve arnoldi cf a fuel c <> None.
Proof.
  intros Hs c. assert (W := lexlt_wf (2 * S Dm) (mu c)). remember (mu c) as m eqn:Em. revert c Em. induction W as [m _ IH]. intros c -> Hr T.
  destruct (is_finished cf c) eqn:Ef; [exists 0; cbn [run_loop]; rewrite Ef; discriminate|]. destruct (do_step solve arnoldi cf a c) as [c1|e] eqn:E; [|exists 1; cbn [run_loop]; rewrite Ef, E; discriminate].
  destruct (mu_step c c1 (linv_reached _ _ _ _ _ _ Hr) (iv_reached solve cf a arnoldi ss c Hs Hr) T Ef E) as [T1 M1]. destruct (IH (mu c1) M1 c1 eq_refl (r_step _ _ _ _ _ _ _ Hr E) T1) as [f Hf].
  exists (S f). cbn [run_loop]. rewrite Ef, E. exact Hf.
Qed.
Lemma tv_setup ss c : setup solve a ss = Ok c -> (cf_urgent cf = true -> forall o, o < nO c -> rk (omode c o) <= R) -> tv c.
Proof.
  intros H HR. unfold setup in H. apply bind_ok in H as (u & _ & H). apply bind_ok in H as (c1 & H1 & H). assert (E : c1 = c) by (destruct (c_wait c1); [discriminate|apply ok_inj in H; auto]). subst c1. clear u H.
  assert (CI : cinit c) by (apply (cinit_setup solve a ss core0); [apply cinit0|exact H1]). destruct CI. constructor.
  - intros o Ho. destruct (cs_ops o Ho) as (P & _). unfold okop, odp. rewrite P. assert (EE : cf_urgent cf = true \/ cf_urgent cf = false) by (destruct (cf_urgent cf); auto). destruct EE as [E|E]; rewrite E; [apply HR; auto|]. split; [lia|congruence].
  - rewrite cs_dw. intros p chs [].
  - rewrite cs_rep. discriminate.
Qed.
End TermD.

(** the loop ends from the state made by setup *)
Lemma terminates_setup solve arnoldi cf a ss c : path_cf cf -> (forall s, In s ss -> start_ok s) ->
  (cf_urgent cf = true -> exists rk : nat -> nat, forall t, t < List.length (ha_trans a) -> rk (t_to (get_trans a t)) < rk (t_from (get_trans a t))) ->
  setup solve a ss = Ok c -> exists fuel, run_loop solve arnoldi cf a fuel c <> None.
Proof.
  intros HP Hs Hu H. assert (EE : cf_urgent cf = true \/ cf_urgent cf = false) by (destruct (cf_urgent cf); auto).
  assert (K : exists rk : nat -> nat, cf_urgent cf = true -> forall t, t < List.length (ha_trans a) -> rk (t_to (get_trans a t)) < rk (t_from (get_trans a t))).
  { destruct EE as [E|E]; [destruct (Hu E) as [rk K]; exists rk; auto|exists (fun _ => 0); rewrite E; discriminate]. }
  destruct K as [rk K]. set (R := list_max (map (fun o => rk (omode c o)) (seq 0 (nO c)))).
  apply (lex_loop solve arnoldi cf a HP rk R K ss Hs c); [apply r_setup; auto|]. apply (tv_setup solve cf a rk R K ss c H). intros _ o Ho.
  assert (Q : Forall (fun k => k <= R) (map (fun o => rk (omode c o)) (seq 0 (nO c)))) by (apply list_max_le; unfold R; lia). rewrite Forall_forall in Q. apply Q. apply in_map_iff. exists o. split; [auto|]. apply in_seq. lia.
Qed.
