(** Which nodes of the aggregation DAG are still referenced: either all parents of a node point to it, or none does (it has
    been split); everything the analysis still works on hangs below referenced nodes. *)
From Verif Require Import Base BaseFacts LpModel LpUtil Automaton StateSet BuildFacts StateFacts CoreModel HeapFacts CoreOps CorePop CoreExt CoreDag CoreDag2 CoreDag3.
Open Scope nat_scope.

(** [N] and all its ancestors are referenced by all their parents *)
Inductive live (c : core) : nat -> Prop :=
| live_i N : N < nN c -> (forall o, In o (n_parents (getN c N)) -> o_child (getO c o) = Some N) ->
             (forall o M, In o (n_parents (getN c N)) -> o_parent (getO c o) = Some M -> live c M) -> live c N.

Lemma live_lt c N : live c N -> N < nN c. Proof. destruct 1; auto. Qed.

Section Live.
Variable solve : solver.
Variable cf : cfg.
Variable a : ha.
Notation dag := (dag cf a).
Notation cinv := (cinv cf a).

(** child pointers that are set stay *)
Definition kc (c c' : core) : Prop := ext c c' /\ forall o, o < nO c -> o_child (getO c o) <> None -> o_child (getO c' o) = o_child (getO c o).
Lemma kc_refl c : kc c c. Proof. split; [apply ext_refl|auto]. Qed.
Lemma kc_trans c1 c2 c3 : kc c1 c2 -> kc c2 c3 -> kc c1 c3.
Proof.
  intros [E1 K1] [E2 K2]. split; [eapply ext_trans; eauto|]. intros o Ho Hn. pose proof (ex_nO _ _ E1). rewrite K2; [auto|lia|]. rewrite K1; auto.
Qed.
Lemma kc_keeps c c' : keeps c c' -> kc c c'.
Proof. intros K. split; [apply K|]. intros o Ho _. rewrite (getO_eq c c' o); [auto|apply K]. Qed.
Lemma kc_same c c' : c_states c' = c_states c -> c_ops c' = c_ops c -> c_nodes c' = c_nodes c -> kc c c'.
Proof. intros E1 E2 E3. split; [apply ext_same; auto|]. intros o Ho _. rewrite (getO_eq c c' o); auto. Qed.
Lemma kc_push c n x : kc c (push_op c n x).
Proof. split; [apply ext_push|]. auto. Qed.
Lemma kc_push_ops n xs : forall c, kc c (push_ops c n xs).
Proof. unfold push_ops. induction xs as [|x xs IH]; intro c; cbn [fold_left]; [apply kc_refl|]. eapply kc_trans; [apply kc_push|apply IH]. Qed.
Lemma kc_left c nid sid b : kc c (left_invariant c nid sid b).
Proof. split; [apply ext_left|]. auto. Qed.

Lemma live_kc mp c c' N : dag mp c -> kc c c' -> live c N -> live c' N.
Proof.
  intros D [E K]. induction 1 as [N HN H1 H2 IH]. destruct (ex_node _ _ E N HN) as [_ Ep]. pose proof (ex_nN _ _ E).
  assert (Hlt : forall o, In o (n_parents (getN c N)) -> o < nO c) by (intros o Ho; apply (d_parents _ _ _ _ D N HN); auto).
  constructor; [lia| |]; rewrite Ep.
  - intros o Ho. rewrite K; [auto|auto|]. rewrite H1 by auto. discriminate.
  - intros o M Ho HM. destruct (ex_op _ _ E o (Hlt o Ho)) as (_ & Eo & _). rewrite Eo in HM. eauto.
Qed.

Definition all_or_none (c : core) (N : nat) : Prop :=
  (forall o, In o (n_parents (getN c N)) -> o_child (getO c o) = Some N) \/ (forall o, In o (n_parents (getN c N)) -> o_child (getO c o) <> Some N).
Definition op_live (c : core) (o : nat) : Prop := forall M, o_parent (getO c o) = Some M -> live c M.
Record lv (mp : list ((nat * nat) * list nat)) (c : core) : Prop := {
  lv_all : forall N, N < nN c -> all_or_none c N;
  lv_wait : forall o, In o (c_wait c) -> op_live c o;
  lv_mp : forall o, In o (pending mp) -> op_live c o }.

Lemma aon_kc mp c c' N : dag mp c -> kc c c' -> N < nN c -> all_or_none c N -> all_or_none c' N.
Proof.
  intros D [E K] HN H. destruct (ex_node _ _ E N HN) as [_ Ep].
  assert (Hlt : forall o, In o (n_parents (getN c N)) -> o < nO c /\ o_child (getO c o) <> None) by (intros o Ho; destruct (d_parents _ _ _ _ D N HN) as (_ & _ & _ & _ & Q); destruct (Q o Ho); tauto).
  unfold all_or_none. rewrite Ep. destruct H as [H|H]; [left|right]; intros o Ho; destruct (Hlt o Ho); rewrite K; auto.
Qed.
Lemma op_live_kc mp c c' o : dag mp c -> kc c c' -> o < nO c -> op_live c o -> op_live c' o.
Proof. intros D K Ho H M HM. destruct (ex_op _ _ (proj1 K) o Ho) as (_ & E & _). rewrite E in HM. eapply live_kc; eauto. Qed.
Lemma pending_lt mp c o : dag mp c -> In o (pending mp) -> o < nO c /\ o_child (getO c o) = None /\ ~ In o (c_wait c).
Proof.
  intros D K. unfold pending in K. apply in_concat in K as (os & A1 & A2). apply in_map_iff in A1 as ([[ch k] os'] & A3 & A1). cbn [snd] in A3. subst os'. apply (d_map _ _ _ _ D) in A1 as (_ & _ & _ & A1). apply A1 in A2. tauto.
Qed.
(** no new node, waiting transitions among the old ones *)
Lemma lv_kc mp c c' : dag mp c -> lv mp c -> kc c c' -> nN c' = nN c -> (forall o, In o (c_wait c') -> In o (c_wait c)) -> lv mp c'.
Proof.
  intros D [L1 L2 L3] K HN Hw. constructor.
  - intros N H. rewrite HN in H. eapply aon_kc; eauto.
  - intros o Ho. apply Hw in Ho. eapply op_live_kc; eauto. apply (d_wait _ _ _ _ D); auto.
  - intros o Ho. eapply op_live_kc; eauto. eapply pending_lt; eauto.
Qed.
Lemma lv_keeps mp c c' : dag mp c -> lv mp c -> keeps c c' -> lv mp c'.
Proof. intros D L K. apply (lv_kc mp c); auto; [apply kc_keeps; auto|rewrite (k_nodes _ _ K); auto|rewrite (k_wait _ _ K); auto]. Qed.

Lemma kc_new_op mp c s x nid t : dag mp c -> nid < nN c -> o_parent x = Some nid -> o_child x = None -> o_trans x = Some t -> o_post x = nS c -> ss_mode s = t_to (get_trans a t) -> kc c (with_new_op c s x nid).
Proof.
  intros D Hn H1 H2 H3 H4 H5. destruct (dag_new_op cf a mp c s x nid t D Hn H1 H2 H3 H4 H5) as (_ & _ & _ & _ & _ & _ & _ & _ & E & _ & _ & _ & G). split; [exact E|]. intros o Ho _. rewrite G by auto. reflexivity.
Qed.

Lemma lv_add mp c t l sid nid c' : dag mp c -> lv mp c -> live c nid -> add_transition_successor solve cf a c t l sid nid = Ok c' -> lv mp c' /\ kc c c'.
Proof.
  intros D L Hl H. assert (Hn : nid < nN c) by (apply live_lt; auto). unfold add_transition_successor in H. apply bind_ok in H as ([c1 o] & H1 & H). apply make_op_ptr in H1 as [[-> ->]|[-> (s & ctr & Hm & _ & _ & ->)]].
  - apply ok_inj in H. subst c'. split; [auto|apply kc_refl].
  - apply ok_inj in H. match type of H with with_wait (push_op (with_ops _ (_ ++ [?x])) _ _) _ = _ => set (y := x) in *; change (with_wait (with_new_op c s y nid) (c_wait (with_new_op c s y nid) ++ [nO c]) = c') in H;
      destruct (dag_new_op cf a mp c s x nid t D Hn eq_refl eq_refl eq_refl eq_refl Hm) as (D1 & K1 & K2 & K3 & K4 & K5 & K6 & K7 & K8 & K9 & K10 & K11 & K12);
      assert (KC := kc_new_op mp c s x nid t D Hn eq_refl eq_refl eq_refl eq_refl Hm) end.
    fold y in D1, K1, K2, K3, K7, KC. set (c1 := with_new_op c s y nid) in *.
    assert (L1 : lv mp c1) by (apply (lv_kc mp c); auto; rewrite K3; auto).
    assert (KC2 : kc c c') by (subst c'; eapply kc_trans; [exact KC|apply kc_same; reflexivity]).
    split; [|exact KC2]. subst c'. assert (X : forall o, op_live c1 o -> op_live (with_wait c1 (c_wait c1 ++ [nO c])) o).
    { intros o Ho M HM. apply (live_kc mp c1); auto. apply kc_same; reflexivity. }
    constructor.
    + intros N HN. apply (aon_kc mp c1); auto; [apply kc_same; reflexivity|apply L1; auto].
    + ccbn. intros o Ho. apply in_app_iff in Ho as [Ho|[<-|[]]]; apply X; [apply (lv_wait _ _ L1); auto|]. intros M HM. rewrite K7 in HM. injection HM as <-. apply (live_kc mp c); auto.
    + intros o Ho. apply X, (lv_mp _ _ L1), Ho.
Qed.

Lemma lv_guards mp nid sid ts : forall c c', dag mp c -> lv mp c -> live c nid -> check_guards_loop solve cf a c nid sid ts = Ok c' -> lv mp c' /\ kc c c' /\ (left_inv c nid = false -> left_inv c' nid = false).
Proof.
  induction ts as [|t ts IH]; intros c c' D L Hl H; cbn [check_guards_loop] in H; [apply ok_inj in H; subst; split; [auto|split; [apply kc_refl|auto]]|].
  apply bind_ok in H as ([l1 ol] & _ & H). cbn [fst snd] in H. set (c1 := setS c sid _) in H.
  assert (K1 : keeps c c1) by apply keeps_lpi. assert (D1 := dag_k _ _ _ _ _ D K1). assert (L1 := lv_keeps _ _ _ D L K1). assert (N1 := live_kc _ _ _ _ D (kc_keeps _ _ K1) Hl).
  assert (I1 : left_inv c1 nid = left_inv c nid) by (apply left_inv_nodes; apply K1).
  destruct ol as [l|].
  2:{ destruct (IH _ _ D1 L1 N1 H) as (A & B & C). split; [auto|]. split; [eapply kc_trans; [apply kc_keeps; exact K1|exact B]|]. rewrite <- I1. exact C. }
  apply bind_ok in H as (c2 & H2 & H).
  assert (K2 : keeps c1 c2). { destruct (is_error _) in H2; [eapply keeps_err; eauto|apply ok_inj in H2; subst; apply keeps_refl]. }
  assert (K02 := keeps_trans _ _ _ K1 K2). assert (D2 := dag_k _ _ _ _ _ D1 K2). assert (L2 := lv_keeps _ _ _ D L K02). assert (N2 := live_kc _ _ _ _ D (kc_keeps _ _ K02) Hl).
  assert (I2 : left_inv c2 nid = left_inv c nid) by (apply left_inv_nodes; apply K02).
  destruct (_ && _) in H; [apply ok_inj in H; subst c'; split; [auto|split; [apply kc_keeps; auto|rewrite I2; auto]]|]. apply bind_ok in H as (c3 & H3 & H). apply bind_ok in H as (c4 & H4 & H).
  destruct (dag_add solve cf a _ _ _ _ _ _ _ D2 (live_lt _ _ N2) H3) as [D3 P3]. destruct (lv_add _ _ _ _ _ _ _ D2 L2 N2 H3) as [L3 C3].
  assert (I3 : left_inv c nid = false -> left_inv c3 nid = false).
  { intro HI. unfold add_transition_successor in H3. apply bind_ok in H3 as ([c5 o] & H5 & H3). apply make_op_ptr in H5 as [[-> ->]|[-> (s' & ctr & _ & _ & _ & ->)]]; apply ok_inj in H3; subst c3; [congruence|].
    match goal with |- left_inv (with_wait ?z _) _ = _ => change (left_inv z nid = false) end. rewrite left_inv_push by (ccbn; apply live_lt in N2; auto). rewrite Nat.eqb_refl. reflexivity. }
  assert (K4 : keeps c3 c4).
  { destruct (_ && _) in H4; [|apply ok_inj in H4; subst; apply keeps_refl]. apply bind_ok in H4 as (w & _ & H4). apply ok_inj in H4. subst c4. destruct (snd w); [eapply keeps_trans; [apply keeps_lpi|apply keeps_tt]|apply keeps_lpi]. }
  assert (D4 := dag_k _ _ _ _ _ D3 K4). assert (L4 := lv_keeps _ _ _ D3 L3 K4). assert (C4 : kc c c4) by (eapply kc_trans; [apply kc_keeps; exact K02|]; eapply kc_trans; [exact C3|]; apply kc_keeps; exact K4).
  destruct (IH c4 c' D4 L4 (live_kc _ _ _ _ D C4 Hl) H) as (L5 & C5 & I5). split; [auto|]. split; [eapply kc_trans; eauto|]. intro HI. apply I5. rewrite (left_inv_nodes c3 c4) by apply K4. auto.
Qed.

Lemma left_push_ops n xs : (forall k b, ~ In (NLeft k b) xs) -> forall c, n < nN c -> left_inv c n = false -> left_inv (push_ops c n xs) n = false.
Proof.
  unfold push_ops. induction xs as [|x xs IH]; intros Hx c Hn H; cbn [fold_left]; [exact H|]. apply IH; [intros k b K; apply (Hx k b); right; auto|rewrite nN_push; auto|].
  rewrite left_inv_push, Nat.eqb_refl by auto. destruct x; auto. exfalso. eapply Hx. left; reflexivity.
Qed.
Lemma push_ops_wait n xs o : forall c, In o (c_wait (push_ops c n xs)) -> In o (c_wait c).
Proof. unfold push_ops. induction xs as [|x xs IH]; intros c Ho; cbn [fold_left] in Ho; [auto|]. apply IH in Ho. exact Ho. Qed.
Lemma lv_intersect mp c nid sid c' ok : dag mp c -> lv mp c -> nid < nN c -> intersect_state solve a c nid sid = Ok (c', ok) -> lv mp c' /\ kc c c' /\ (left_inv c nid = false -> left_inv c' nid = false).
Proof.
  intros D L Hn H. assert (DP := dag_intersect solve cf a _ _ _ _ _ _ D H). unfold intersect_state in H. apply bind_ok in H as ([[s1 ops] ok1] & H1 & H). apply ok_inj in H. injection H as <- _. unfold intersect_invariant in H1. apply f2_inv in H1.
  assert (K := keeps_set c sid s1 H1). set (xs := map _ ops).
  assert (KC : kc c (push_ops (setS c sid s1) nid xs)) by (eapply kc_trans; [apply kc_keeps; exact K|apply kc_push_ops]).
  split; [|split; [exact KC|]].
  - apply (lv_kc mp c); auto; [apply (pf_nN _ _ (proj2 DP))|]. intro o. rewrite <- (k_wait _ _ K). apply push_ops_wait.
  - intro HI. apply left_push_ops; [|rewrite (k_nodes _ _ K); auto|rewrite (left_inv_nodes c _ nid); [auto|apply K]]. intros k b Ho. apply in_map_iff in Ho as (? & Ho & _). discriminate.
Qed.
Lemma lv_left mp c nid sid b : dag mp c -> lv mp c -> lv mp (left_invariant c nid sid b).
Proof. intros D L. apply (lv_kc mp c); auto; [apply kc_left|apply (nN_push c nid)]. Qed.

(** ** the invariant *)
Record linv (c : core) : Prop := {
  li_cinv : cinv c;
  li_lv : lv (rep_map c) c;
  li_cur : forall n, c_cur c = Some n -> live c n /\ left_inv c n = false /\ c_rep c = None /\ c_dwait c = [];
  li_dw : forall p chs ch, In (p, chs) (c_dwait c) -> In ch chs -> live c ch;
  li_rep : forall r ch, c_rep c = Some r -> In ch (rp_children r) -> live c ch }.

Lemma linv_none c c' : linv c -> c_cur c <> None -> cinv c' -> lv (rep_map c) c' -> c_rep c' = c_rep c -> c_dwait c' = c_dwait c -> (forall n, c_cur c' = Some n -> live c' n /\ left_inv c' n = false) -> linv c'.
Proof.
  intros V Hc CI L Er Ed Hn. destruct (c_cur c) as [m|] eqn:Em; [|congruence]. destruct (li_cur _ V m Em) as (_ & _ & R & W). constructor; auto.
  - unfold rep_map in *. rewrite Er. exact L.
  - intros n K. destruct (Hn n K). rewrite Er, Ed. auto.
  - rewrite Ed, W. intros p chs ch [].
  - rewrite Er, R. discriminate.
Qed.

Lemma linv_cont c nid sid c' : linv c -> c_cur c = Some nid -> continuous_post solve cf a c nid sid = Ok c' -> linv c'.
Proof.
  intros V Hc H. assert (CI := cinv_cont solve cf a c nid sid c' (li_cinv _ V) Hc H). destruct (li_cur _ V nid Hc) as (Hl & Hlf & Hr & Hd). assert (Hn : nid < nN c) by (apply live_lt; auto).
  assert (D := ci_dag _ _ _ (li_cinv _ V)). assert (L := li_lv _ V). unfold continuous_post in H.
  assert (LL : forall c1 b, dag (rep_map c) c1 -> lv (rep_map c) c1 -> pf c c1 -> c' = left_invariant c1 nid sid b -> linv c').
  { intros c1 b D1 L1 P1 ->. apply (linv_none c); auto; [congruence|apply lv_left; auto|apply P1|apply P1|discriminate]. }
  destruct (_ <=? _) in H; [apply ok_inj in H; eapply LL; eauto; apply pf_refl|].
  destruct (c_tt c); [apply ok_inj in H; eapply LL; [eapply dag_k; [exact D|apply keeps_tt]|eapply lv_keeps; [exact D|exact L|apply keeps_tt]|apply pf_keeps, keeps_tt|eauto]|].
  apply bind_ok in H as ([c1 ok] & H1 & H). destruct (dag_intersect solve cf a _ _ _ _ _ _ D H1) as [D1 P1]. destruct (lv_intersect _ _ _ _ _ _ D L Hn H1) as (L1 & C1 & I1). destruct (negb ok) in H; [apply ok_inj in H; eapply LL; eauto|].
  apply bind_ok in H as (s1 & Hs & H). apply bind_ok in H as (c2 & H2 & H). assert (K := keeps_set c1 sid s1 (f2_step _ _ _ _ Hs)). unfold check_guards in H2.
  assert (Q : pf c (setS c1 sid s1)) by (eapply pf_trans; [exact P1|apply pf_keeps; exact K]).
  assert (CQ : kc c (setS c1 sid s1)) by (eapply kc_trans; [exact C1|apply kc_keeps; exact K]).
  assert (DQ := dag_k _ _ _ _ _ D1 K). assert (LQ := lv_keeps _ _ _ D1 L1 K). assert (NQ := live_kc _ _ _ _ D CQ Hl).
  destruct (dag_guards solve cf a _ _ _ _ _ _ DQ (live_lt _ _ NQ) H2) as [D2 P2]. destruct (lv_guards _ _ _ _ _ _ DQ LQ NQ H2) as (L2 & C2 & I2). assert (Q2 := pf_trans _ _ _ Q P2). assert (CQ2 := kc_trans _ _ _ CQ C2).
  destruct (m_a _) in H; [|discriminate]. destruct (_ && _) in H; apply ok_inj in H; [eapply LL; eauto|]. subst c'.
  apply (linv_none c); auto; [congruence|apply Q2|apply Q2|]. intros n Kn. rewrite (pf_cur _ _ Q2), Hc in Kn. injection Kn as <-. split; [apply (live_kc _ _ _ _ D CQ2 Hl)|]. apply I2. rewrite (left_inv_nodes c1) by apply K. auto.
Qed.

(** ** a new node for transitions that have no child yet *)
Variable arnoldi : nat -> option (list Q) -> csr -> option csr -> nat -> list (list Q).
Lemma kc_make_node c ops agg str c' nid : ops <> [] -> (forall o, In o ops -> o < nO c /\ o_child (getO c o) = None) -> make_node solve arnoldi a c ops agg str = Ok (c', nid) -> kc c c'.
Proof.
  intros Hne Ho H. apply make_node_ptr in H as (_ & _ & _ & E & _ & _ & _ & _ & _ & _ & Gn & _); [|auto|intros o K; apply Ho; auto]. split; [exact E|]. intros o K1 K2. apply Gn. intro K3. apply K2, Ho, K3.
Qed.
Lemma live_make_node mp c ops agg str c' nid : dag mp c -> ops <> [] -> (forall o, In o ops -> o < nO c /\ o_child (getO c o) = None /\ op_live c o) -> make_node solve arnoldi a c ops agg str = Ok (c', nid) -> live c' nid.
Proof.
  intros D Hne Ho H. assert (K := kc_make_node c ops agg str c' nid Hne ltac:(intros o Q; destruct (Ho o Q); tauto) H).
  apply make_node_ptr in H as (En & HN & _ & E & _ & Gp & _ & _ & Gf & Gc & Gn & _); [|auto|intros o Q; apply Ho; auto]. constructor; [lia| |]; rewrite Gp.
  - exact Gc.
  - intros o M Hi HM. destruct (Gf o) as (_ & Eq & _). rewrite Eq in HM. apply (live_kc mp c); auto. apply (Ho o Hi). exact HM.
Qed.
(** [mp]: before, [mp']: after (without the transitions of the new node) *)
Lemma lv_make_node mp mp' c ops agg str c' nid : dag mp c -> lv mp c -> (forall o, In o (pending mp') -> In o (pending mp)) -> ops <> [] -> (forall o, In o ops -> o < nO c /\ o_child (getO c o) = None) ->
  make_node solve arnoldi a c ops agg str = Ok (c', nid) -> lv mp' c'.
Proof.
  intros D L Hmp Hne Ho H. assert (K := kc_make_node c ops agg str c' nid Hne Ho H).
  apply make_node_ptr in H as (En & HN & HO & E & _ & Gp & _ & _ & Gf & Gc & Gn & _ & Hw & _); [|auto|intros o Q; apply Ho; auto]. constructor.
  - intros N HNN. destruct (Nat.eq_dec N nid) as [->|Hn]; [left; rewrite Gp; exact Gc|]. apply (aon_kc mp c); auto; [lia|apply L; lia].
  - rewrite Hw. intros o Hi. apply (op_live_kc mp c); auto; [apply (d_wait _ _ _ _ D); auto|apply (lv_wait _ _ L); auto].
  - intros o Hi. apply Hmp in Hi. apply (op_live_kc mp c); auto; [eapply pending_lt; eauto|apply (lv_mp _ _ L); auto].
Qed.

Lemma linv_pop c c' nid : linv c -> c_cur c = None -> c_rep c = None -> c_dwait c = [] -> pop_waiting_list solve arnoldi cf a c = Ok (c', nid) -> linv c' /\ c_cur c' = Some nid.
Proof.
  intros V Hc Hr Hd H. destruct (cinv_pop solve arnoldi cf a _ _ _ (li_cinv _ V) H) as [CI C1]. split; [|exact C1]. assert (D := ci_dag _ _ _ (li_cinv _ V)). assert (L := li_lv _ V). unfold rep_map in D, L. rewrite Hr in D, L.
  unfold pop_waiting_list in H. apply bind_ok in H as (ops & Hops & H). apply bind_ok in H as (u & _ & H). apply bind_ok in H as (agg & _ & H). apply bind_ok in H as ([c1 n1] & Hm & H).
  apply ok_inj in H. injection H as <- <-. destruct (pop_ops_ptr cf a c ops _ D Hops) as (K1 & K2 & K3 & K4 & K5).
  set (w := filter (fun o => negb (mem o ops)) (c_wait c)) in *. set (c0 := with_wait c w) in *.
  assert (Hsub : forall o, In o w -> In o (c_wait c)) by (intros o Ho; apply filter_In in Ho; tauto).
  assert (D0 : dag [] c0) by (apply (dag_wait cf a _ c); auto; apply NoDup_filter, D).
  assert (L0 : lv [] c0) by (apply (lv_kc [] c); auto; apply kc_same; reflexivity).
  assert (Ho : forall o, In o ops -> o < nO c0 /\ o_child (getO c0 o) = None /\ op_live c0 o).
  { intros o Hi. destruct (K3 o Hi) as [Q _]. destruct (proj2 (d_wait _ _ _ _ D) o Q) as [Q1 Q2]. split; [exact Q1|]. split; [exact Q2|]. apply (op_live_kc [] c); auto; [apply kc_same; reflexivity|apply L; auto]. }
  assert (Ho2 : forall o, In o ops -> o < nO c0 /\ o_child (getO c0 o) = None) by (intros o Hi; destruct (Ho o Hi); tauto).
  assert (Lv := live_make_node [] c0 ops agg _ c1 n1 D0 K1 Ho Hm). assert (L1 := lv_make_node [] [] c0 ops agg _ c1 n1 D0 L0 ltac:(auto) K1 Ho2 Hm).
  assert (CIc1 : dag [] c1).
  { assert (Dc := ci_dag _ _ _ CI). apply make_node_ptr in Hm as (_ & _ & _ & _ & _ & _ & _ & _ & _ & _ & _ & _ & _ & _ & Hr1 & _); [|auto|intros o Q; apply Ho; auto].
    unfold rep_map in Dc. ccbn_in Dc. rewrite Hr1 in Dc. change (c_rep c0) with (c_rep c) in Dc. rewrite Hr in Dc. apply (dag_wait cf a _ (with_cur c1 (Some n1))); auto; apply Dc. }
  assert (KC : kc c1 (with_cur c1 (Some n1))) by (apply kc_same; reflexivity).
  apply make_node_ptr in Hm as (En & HN & HO & E & GN & Gp & Go & _ & Gf & Gc & Gn & _ & Hw1 & Hd1 & Hr1 & _); [|auto|intros o Q; apply Ho; auto].
  change (c_rep c0) with (c_rep c) in Hr1. change (c_dwait c0) with (c_dwait c) in Hd1. rewrite Hr in Hr1. rewrite Hd in Hd1.
  constructor; auto.
  - unfold rep_map. ccbn. rewrite Hr1. apply (lv_kc [] c1); auto.
  - ccbn. intros n [= <-]. split; [apply (live_kc [] c1); auto|]. split; [|auto]. unfold left_inv. change (getN (with_cur c1 (Some n1)) n1) with (getN c1 n1). rewrite Go. reflexivity.
  - ccbn. rewrite Hd1. intros p chs ch [].
  - ccbn. rewrite Hr1. discriminate.
Qed.
Lemma linv_step_pop c c' : linv c -> c_cur c = None -> c_rep c = None -> c_dwait c = [] -> do_step_pop solve arnoldi cf a c = Ok c' -> linv c'.
Proof.
  intros V Hc Hr Hd H. assert (CI := cinv_step_pop solve arnoldi cf a _ _ (li_cinv _ V) H). unfold do_step_pop in H. apply bind_ok in H as ([c1 nid] & H1 & H). destruct (linv_pop _ _ _ V Hc Hr Hd H1) as [V1 C1].
  assert (D1 := ci_dag _ _ _ (li_cinv _ V1)). assert (L1 := li_lv _ V1). destruct (li_cur _ V1 nid C1) as (Hl & Hlf & Hr1 & Hd1). assert (Hn : nid < nN c1) by (apply live_lt; auto).
  destruct (is_error _) in H.
  - apply ok_inj in H; subst c'. apply (linv_none c1); auto; [congruence|apply lv_left; auto|discriminate].
  - apply bind_ok in H as ([c2 ok] & H2 & H). destruct (dag_intersect solve cf a _ _ _ _ _ _ D1 H2) as [D2 P2]. destruct (lv_intersect _ _ _ _ _ _ D1 L1 Hn H2) as (L2 & C2 & I2). destruct ok; apply ok_inj in H; subst c'.
    + apply (linv_none c1); auto; [congruence|apply P2|apply P2|]. intros n Kn. rewrite (pf_cur _ _ P2), C1 in Kn. injection Kn as <-. split; [apply (live_kc _ _ _ _ D1 C2 Hl)|auto].
    + apply (linv_none c1); auto; [congruence|apply lv_left; auto|apply P2|apply P2|discriminate].
Qed.
End Live.
