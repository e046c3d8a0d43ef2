(** Working on an open node: time steps, guards, invariant. *)
From Coq Require Import Permutation.
From Verif Require Import Base BaseFacts LpModel LpSpec SetSpec LpUtil LpFacts ChullFacts ApiSpec ApiFacts Automaton StateSet HybridSpec FlowFacts StateSpec
  StateFacts StateFacts2 StateFacts3 BuildFacts CoreModel HeapFacts CoreOps CoreGhost CoreHeap CoreInv.
Open Scope nat_scope.

Section Step.
Variable solve : solver.
Hypothesis Hsolve : solver_ok solve.
Variable arnoldi : nat -> option (list Q) -> csr -> option csr -> nat -> list (list Q).
Variable cf : cfg.
Variable a : ha.
Hypothesis WH : wf_ha a.
Hypothesis Hinp : forall m, m < List.length (ha_modes a) -> m_b (get_mode a m) <> None -> m_inv (get_mode a m) = [].
Variable ru : rules.
Variable I0 : nat -> vec -> Prop.
Notation TN := (Tn a ru I0).
Notation TO := (To a ru I0).
Notation hok := (heap_ok solve a ru I0).
Notation enab := (enabled a ru I0).
Notation base := (base solve cf a ru I0).
Notation err := (err a).

Definition nst (c : core) (N : nat) : sset := getS c (n_state (getN c N)).

(** what changes when node N is worked on *)
Record frame (N : nat) (c c' : core) : Prop := {
  fr_ext : ext c c';
  fr_nN : nN c' = nN c;
  fr_ops : forall M, M <> N -> n_ops (getN c' M) = n_ops (getN c M);
  fr_st : forall M, M < nN c -> M <> N -> nst c' M = nst c M;
  fr_old : forall o, o < nO c -> getO c' o = getO c o;
  fr_cur : c_cur c' = c_cur c; fr_dw : c_dwait c' = c_dwait c; fr_rep : c_rep c' = c_rep c;
  fr_agg : c_aggerr c = true -> c_aggerr c' = true; fr_conc : c_concerr c = true -> c_concerr c' = true }.
Lemma frame_refl N c : frame N c c.
Proof. constructor; auto. apply ext_refl. Qed.
Lemma frame_trans N c1 c2 c3 : frame N c1 c2 -> frame N c2 c3 -> frame N c1 c3.
Proof.
  intros [A1 A2 A3 A4 A5 A6 A7 A8 A9 A10] [B1 B2 B3 B4 B5 B6 B7 B8 B9 B10]. constructor; try congruence; auto.
  - eapply ext_trans; eauto.
  - intros M HM. rewrite B3, A3; auto.
  - intros M HM HN. rewrite B4, A4; auto. lia.
  - intros o Ho. rewrite B5, A5; auto. pose proof (ex_nO _ _ A1). lia.
Qed.

Record active (c : core) (N : nat) (filt : Prop) : Prop := {
  ac_N : N < nN c;
  ac_err : err (nmode c N) = false;
  ac_ord : ordered c N;
  ac_ops : forall y, In y (n_ops (getN c N)) -> nop_step c y <= ss_step (nst c N) /\ is_left y = false /\
             (forall k i b, y = NInv k i b -> k < ss_step (nst c N) \/ filt);
  ac_cov : forall x n, TN c N (ss_step (nst c N)) x n -> (filt -> inv_ok 0 (get_mode a (nmode c N)) x) ->
             in_lp (ss_lpi (nst c N)) x /\ ss_lo (nst c N) <= n <= ss_hi (nst c N) }.

Lemma active_left c N filt : active c N filt -> left_inv c N = false.
Proof.
  intro A. unfold left_inv. destruct (rev (n_ops (getN c N))) as [|y l] eqn:E; [reflexivity|]. apply (ac_ops _ _ _ A y). apply in_rev. rewrite E. left; auto.
Qed.
Lemma active_weak c N (f f' : Prop) : (f -> f') -> active c N f -> active c N f'.
Proof.
  intros Hf [A1 A2 A3 A4 A5]. constructor; auto.
  intros y Hy. destruct (A4 y Hy) as (K1 & K2 & K3). split; [exact K1|]. split; [exact K2|]. intros k i b E. destruct (K3 k i b E); auto.
Qed.
Lemma active_ext c c' N filt : hok c -> ext c c' -> n_ops (getN c' N) = n_ops (getN c N) -> nst c' N = nst c N -> active c N filt -> active c' N filt.
Proof.
  intros H E E1 E2 [A1 A2 A3 A4 A5]. pose proof (heap_closed _ _ _ _ _ H) as HC. pose proof (ex_nN _ _ E). constructor.
  - lia.
  - rewrite (nmode_ext c c') by auto. exact A2.
  - apply (ordered_ext solve a ru I0 c c'); auto.
  - intros y Hy. rewrite E1 in Hy. rewrite E2. destruct (A4 y Hy) as (K1 & K2 & K3). split; [|split; [exact K2|exact K3]]. rewrite (nop_step_ext c c'); auto.
    intros o ->. apply (h_ntr _ _ _ _ _ H N o A1 Hy).
  - rewrite E2, (nmode_ext c c') by auto. intros x n HT. apply A5. revert HT. apply (Tn_ext a ru I0 c c'); auto.
Qed.
Lemma active_fresh c N : err (nmode c N) = false -> N < nN c -> fresh a ru I0 c N -> active c N False.
Proof.
  intros He HN (F1 & F2 & F3 & F4). fold (nst c N) in *. constructor; auto.
  - unfold ordered. rewrite F3. constructor.
  - rewrite F3. intros y [].
  - rewrite F1. intros x n HT _. apply F4; auto.
Qed.

Lemma nst_ok c N : hok c -> N < nN c -> err (nmode c N) = false -> exists x, st_ok solve a (nst c N) x.
Proof. intros H HN He. apply (h_good _ _ _ _ _ H (n_state (getN c N))); [apply (h_nstate _ _ _ _ _ H N HN)|exact He]. Qed.

(** ** replacing the state of an open node *)
Lemma open_set D X mo c N s' : base D X mo c -> X N -> good_state solve a s' -> ss_mode s' = nmode c N -> ss_conc s' = ss_conc (nst c N) ->
  let c' := setS c (n_state (getN c N)) s' in base D X mo c' /\ frame N c c' /\ nst c' N = s' /\ n_ops (getN c' N) = n_ops (getN c N) /\ c_wait c' = c_wait c /\ nO c' = nO c.
Proof.
  intros B HX HG HM HCc c'. pose proof (b_heap _ _ _ _ _ _ _ _ _ B) as H. destruct (b_X _ _ _ _ _ _ _ _ _ B N HX) as [HN _].
  destruct (heap_setS solve a ru I0 c N s' H HN HG HM HCc) as [H' E]. fold c' in H', E.
  assert (Hs : forall M, M < nN c -> M <> N -> getS c' (n_state (getN c M)) = getS c (n_state (getN c M))).
  { intros M HMn Hne. unfold c'. apply getS_set_ne. intro Eq. apply Hne. apply (h_ninj _ _ _ _ _ H); auto. }
  split; [|split; [|split; [|auto]]].
  - apply (base_upd solve cf a ru I0 D X mo c c'); auto.
    + intros M HMn Hne. apply Hs; auto. intros ->. auto.
  - constructor; auto.
  - unfold nst. change (getN c' N) with (getN c N). unfold c'. apply getS_set_eq. apply (h_nstate _ _ _ _ _ H N HN).
Qed.

(** recording operations of an open node *)
Lemma open_push D X mo c N x : base D X mo c -> X N -> (forall o, x <> NTr o) ->
  let c' := push_op c N x in base D X mo c' /\ frame N c c' /\ nst c' N = nst c N /\ n_ops (getN c' N) = n_ops (getN c N) ++ [x] /\ c_wait c' = c_wait c /\ nO c' = nO c.
Proof.
  intros B HX Hx c'. pose proof (b_heap _ _ _ _ _ _ _ _ _ B) as H. destruct (b_X _ _ _ _ _ _ _ _ _ B N HX) as [HN _].
  destruct (heap_push solve a ru I0 c N x H HN Hx) as [H' E]. fold c' in H', E.
  assert (Est : forall n, n_state (getN c' n) = n_state (getN c n)) by (intro; apply n_state_push).
  assert (Hst : forall M, nst c' M = nst c M) by (intro M; unfold nst; rewrite Est; reflexivity).
  split; [|split; [|split; [|split; [|auto]]]].
  - apply (base_upd solve cf a ru I0 D X mo c c'); auto.
    + apply nN_push.
    + intros M HM Hne. apply n_ops_push_ne. intros ->; auto.
  - constructor; auto. apply nN_push. intros M Hne. apply n_ops_push_ne; auto.
  - apply Hst.
  - apply n_ops_push_eq; auto.
Qed.

Lemma base_same D X mo c c' : base D X mo c -> c_states c' = c_states c -> c_ops c' = c_ops c -> c_nodes c' = c_nodes c -> c_wait c' = c_wait c -> c_dwait c' = c_dwait c ->
  (c_aggerr c = true -> c_aggerr c' = true) -> (c_concerr c = true -> c_concerr c' = true) -> base D X mo c'.
Proof.
  intros B E1 E2 E3 E4 E5 F1 F2. pose proof (b_heap _ _ _ _ _ _ _ _ _ B) as H.
  apply (base_upd solve cf a ru I0 D X mo c c'); auto.
  - apply (heap_same solve a ru I0 c c'); auto.
  - apply ext_same; auto.
  - rewrite E3; auto.
  - rewrite E2; auto.
  - intro o. unfold getO. rewrite E2. auto.
  - intros. unfold getN. rewrite E3. auto.
  - intros. unfold getS. rewrite E1. auto.
Qed.

(** ** stepping *)
Lemma flow_cond c N x : st_ok solve a (nst c N) x ->
  m_b (get_mode a (ss_mode (nst c N))) = None \/ forall j, ~ In (Some j) (ss_rows (nst c N)).
Proof.
  intro S. destruct (m_b (get_mode a (ss_mode (nst c N)))) as [b|] eqn:Eb; [right|left; auto]. intros j Hj.
  pose proof (st_rows _ _ _ _ S) as Hl. rewrite Hinp in Hl; [|apply (st_mode _ _ _ _ S)|congruence]. destruct (ss_rows (nst c N)); [destruct Hj|discriminate].
Qed.

Lemma open_step D X mo c N filt k s' : base D X mo c -> X N -> active c N filt -> ss_step_to a (nst c N) k = Ok s' ->
  let c' := setS c (n_state (getN c N)) s' in
  base D X mo c' /\ frame N c c' /\ active c' N (filt /\ k = ss_step (nst c N)) /\ nst c' N = s' /\ n_ops (getN c' N) = n_ops (getN c N) /\
  ss_step (nst c N) <= k /\ ss_step s' = k /\ c_wait c' = c_wait c /\ nO c' = nO c.
Proof.
  intros B HX A Hs c'. pose proof (b_heap _ _ _ _ _ _ _ _ _ B) as H. pose proof (heap_closed _ _ _ _ _ H) as HC. destruct (b_X _ _ _ _ _ _ _ _ _ B N HX) as [HN _].
  destruct (nst_ok c N H HN (ac_err _ _ _ A)) as (x & S).
  destruct (step_to_ok solve Hsolve a _ x k s' WH S Hs) as (S1 & S2 & S3 & S4 & S5 & S6 & S7 & S8 & S9 & S10 & S11).
  specialize (S11 (flow_cond c N x S)).
  destruct (open_set D X mo c N s' B HX (st_good solve Hsolve a s' x S1) S4 S7) as (B' & F & En & Eo & Ew & EO). fold c' in B', F, En, Eo, Ew, EO.
  split; [exact B'|]. split; [exact F|]. split; [|split; [exact En|]; split; [exact Eo|]; split; [exact S2|]; split; [exact S3|auto]].
  pose proof (fr_ext _ _ _ F) as E. destruct A as [A1 A2 A3 A4 A5].
  assert (EM : nmode c' N = nmode c N) by (apply nmode_ext; auto).
  constructor.
  - exact A1.
  - rewrite EM. exact A2.
  - apply (ordered_ext solve a ru I0 c c'); auto.
  - intros y Hy. rewrite Eo in Hy. rewrite En, S3. destruct (A4 y Hy) as (K1 & K2 & K3).
    rewrite (nop_step_ext c c') by (auto; intros o ->; apply (h_ntr _ _ _ _ _ H N o A1 Hy)). split; [lia|]. split; [exact K2|].
    intros k0 i b Ey. destruct (Nat.eq_dec k (ss_step (nst c N))) as [->|Hne]; [destruct (K3 k0 i b Ey); [left; lia|right; auto]|]. left. rewrite Ey in K1. cbn [nop_step] in K1. lia.
  - rewrite En, S3, EM. intros p n HT Hf. apply (Tn_ext a ru I0 c c') in HT; auto.
    replace k with (ss_step (nst c N) + (k - ss_step (nst c N))) in HT at 1 by lia.
    apply Tn_back in HT as (p0 & n0 & -> & HT & Hfl & Hj & H0).
    destruct (A5 p0 n0 HT) as [Hin Hb].
    { intro Hfi. destruct (Nat.eq_dec k (ss_step (nst c N))) as [Ek|Hne]; [|apply Hj; lia]. rewrite (H0 ltac:(lia)). apply Hf. auto. }
    split; [|rewrite S5, S6; lia]. apply S11. exists p0. split; [exact Hin|exact Hfl].
Qed.

(** ** guards *)
Lemma guard_wf_of t : t < List.length (ha_trans a) -> guard_wf a (get_trans a t).
Proof. intro Ht. apply (wft_guard _ _ (proj2 WH t Ht)). Qed.

Lemma open_guard D X mo c N filt t l1 o : base D X mo c -> X N -> active c N filt -> (filt -> ss_step (nst c N) = 0) -> t < List.length (ha_trans a) -> t_from (get_trans a t) = nmode c N ->
  get_guard_intersection solve (get_trans a t) (ss_lpi (nst c N)) = Ok (l1, o) ->
  let c1 := setS c (n_state (getN c N)) (ss_with_lpi (nst c N) l1) in
  base D X mo c1 /\ frame N c c1 /\ active c1 N filt /\ ss_step (nst c1 N) = ss_step (nst c N) /\ n_ops (getN c1 N) = n_ops (getN c N) /\ c_wait c1 = c_wait c /\ nO c1 = nO c /\
  ss_conc (nst c1 N) = ss_conc (nst c N) /\ (exists ob, nst c1 N = ss_with_lpi (nst c N) (with_obj (ss_lpi (nst c N)) ob)) /\
  match o with
  | None => ~ enab c1 N (ss_step (nst c1 N)) t
  | Some tl => api solve tl None /\ l_dims tl = m_dims (get_mode a (nmode c N)) /\ (forall p, in_lp tl p <-> in_lp (ss_lpi (nst c1 N)) p /\ guard_ok (get_trans a t) p) /\ exists p, in_lp tl p
  end.
Proof.
  intros B HX A Hf Ht Hfrom Hg c1. pose proof (b_heap _ _ _ _ _ _ _ _ _ B) as H. pose proof (heap_closed _ _ _ _ _ H) as HC. destruct (b_X _ _ _ _ _ _ _ _ _ B N HX) as [HN _].
  destruct (nst_ok c N H HN (ac_err _ _ _ A)) as (x & S).
  assert (Hd : l_dims (ss_lpi (nst c N)) = m_dims (get_mode a (nmode c N))). { rewrite (st_dims _ _ _ _ S). unfold m_dims, nmode. fold (nst c N). rewrite (st_a _ _ _ _ S). reflexivity. }
  destruct (st_api _ _ _ _ S) as (js & Hap & _).
  destruct (guard_intersection_ok solve Hsolve a _ _ _ l1 o (guard_wf_of t Ht) ltac:(rewrite Hfrom; exact Hd) Hap Hg) as ((ob & ->) & Ho).
  assert (HG : good_state solve a (ss_with_lpi (nst c N) (with_obj (ss_lpi (nst c N)) ob))).
  { apply good_obj; auto. eapply st_good; eauto. }
  destruct (open_set D X mo c N _ B HX HG eq_refl eq_refl) as (B' & F & En & Eo & Ew & EO). fold c1 in B', F, En, Eo, Ew, EO.
  pose proof (fr_ext _ _ _ F) as E. assert (EM : nmode c1 N = nmode c N) by (apply nmode_ext; auto).
  assert (A' : active c1 N filt).
  { destruct A as [A1 A2 A3 A4 A5]. constructor; [exact A1|..].
    - rewrite EM. exact A2.
    - apply (ordered_ext solve a ru I0 c c1); auto.
    - intros y Hy. rewrite Eo in Hy. rewrite En. apply (A4 y Hy).
    - rewrite En, EM. intros p n HT. apply (A5 p n). revert HT. apply (Tn_ext a ru I0 c c1); auto. }
  split; [exact B'|]. split; [exact F|]. split; [exact A'|]. rewrite En. split; [reflexivity|]. split; [exact Eo|]. split; [exact Ew|]. split; [exact EO|]. split; [reflexivity|]. split; [eauto|].
  destruct o as [tl|].
  - destruct Ho as (K1 & K2 & K3 & K4). split; [exact K1|]. split; [congruence|]. split; [exact K3|exact K4].
  - intros (p & n & HT & _ & _ & Hgd & Hmj). destruct (ac_cov _ _ _ A' p n) as [Hin _].
    + rewrite En. exact HT.
    + intro Hfi. destruct Hmj as [[Hmj|[_ Hmj]] _]; [|exact Hmj]. cbn [ss_with_lpi ss_step] in Hmj. rewrite (Hf Hfi) in Hmj. lia.
    + rewrite En in Hin. exact (Ho p Hin Hgd).
Qed.

Lemma open_add D X mo mo' c N filt t tl c3 r c5 : base D X mo c -> X N -> active c N filt -> (filt -> ss_step (nst c N) = 0) -> t < List.length (ha_trans a) -> t_from (get_trans a t) = nmode c N ->
  api solve tl None -> l_dims tl = m_dims (get_mode a (nmode c N)) -> (forall p, in_lp tl p <-> in_lp (ss_lpi (nst c N)) p /\ guard_ok (get_trans a t) p) -> (exists p, in_lp tl p) ->
  (err (t_to (get_trans a t)) = true -> (ss_conc (nst c N) = true -> c_concerr c = true) /\ (ss_conc (nst c N) = false -> c_aggerr c = true)) ->
  make_op_transition solve cf a c t tl (n_state (getN c N)) N = Ok (c3, r) ->
  let c4 := push_op c3 N (NTr (nO c)) in
  (c5 = with_wait c4 (c_wait c4 ++ [nO c]) /\ mo' = mo \/ c5 = c4 /\ Permutation (nO c :: mo) mo') ->
  r = Some (nO c) /\ base D X mo' c5 /\ frame N c c5 /\ active c5 N filt /\ nst c5 N = nst c N /\ n_ops (getN c5 N) = n_ops (getN c N) ++ [NTr (nO c)] /\ nO c5 = S (nO c) /\
  taken c5 N (ss_step (nst c N)) t /\ o_parent (getO c5 (nO c)) = Some N /\ o_trans (getO c5 (nO c)) = Some t /\ o_step (getO c5 (nO c)) = ss_step (nst c N) /\
  o_child (getO c5 (nO c)) = None /\ pmode c5 (nO c) = t_to (get_trans a t) /\ c_wait c5 = (if (match c_wait c5 with l => List.length l =? List.length (c_wait c) end) then c_wait c else c_wait c ++ [nO c]).
Proof.
  intros B HX A Hf Ht Hfrom Hap Hd Htl Hne Herr Hmk c4 H5. pose proof (b_heap _ _ _ _ _ _ _ _ _ B) as H. pose proof (heap_closed _ _ _ _ _ H) as HC. destruct (b_X _ _ _ _ _ _ _ _ _ B N HX) as [HN _].
  destruct (heap_add_op solve Hsolve cf a WH ru I0 c N t tl c3 r H HN Ht Hfrom Hap Hd Hne) as (-> & H4 & E4 & nS4 & nO4 & nN4 & gS & gO & Q1 & Q2 & Q3 & Q4 & Q5 & Q6 & Eop' & Eop & C1 & C2 & C3 & C4 & C5 & C6 & C7); auto.
  { intros p Hp Hg. apply Htl. auto. }
  { intros p n HT Hi. apply (ac_cov _ _ _ A p n HT). intro Hfi. apply Hi. apply (Hf Hfi). }
  fold c4 in H4, E4, nS4, nO4, nN4, gS, gO, Q1, Q2, Q3, Q4, Q5, Q6, Eop', Eop, C1, C2, C3, C4, C5, C6, C7.
  split; [reflexivity|].
  assert (E5 : c_states c5 = c_states c4 /\ c_ops c5 = c_ops c4 /\ c_nodes c5 = c_nodes c4 /\ c_cur c5 = c_cur c4 /\ c_dwait c5 = c_dwait c4 /\ c_rep c5 = c_rep c4 /\ c_tt c5 = c_tt c4 /\ c_aggerr c5 = c_aggerr c4 /\ c_concerr c5 = c_concerr c4).
  { destruct H5 as [[-> _]|[-> _]]; auto 12. }
  destruct E5 as (S1 & S2 & S3 & S4 & S5 & S6 & S7 & S8 & S9).
  assert (gS5 : forall i, getS c5 i = getS c4 i) by (intro; unfold getS; rewrite S1; auto).
  assert (gO5 : forall i, getO c5 i = getO c4 i) by (intro; unfold getO; rewrite S2; auto).
  assert (gN5 : forall i, getN c5 i = getN c4 i) by (intro; unfold getN; rewrite S3; auto).
  assert (E : ext c c5) by (eapply ext_trans; [exact E4|apply ext_same; auto]).
  assert (Hw : c_wait c5 = c_wait c ++ [nO c] /\ mo' = mo \/ c_wait c5 = c_wait c /\ Permutation (nO c :: mo) mo').
  { destruct H5 as [[-> ->]|[-> Hp]]; [left; ccbn; rewrite C2; auto|right; auto]. }
  assert (nSt : nst c5 N = nst c N).
  { unfold nst. rewrite gN5. destruct (ex_node _ _ E4 N HN) as [-> _]. rewrite gS5. apply gS. apply (h_nstate _ _ _ _ _ H N HN). }
  assert (EM : nmode c5 N = nmode c N) by (apply nmode_ext; auto).
  split; [|split; [|split; [|split; [exact nSt|]]]].
  - apply (base_add_op solve cf a ru I0 D X mo mo' c c5 N); auto.
    + apply (heap_same solve a ru I0 c4 c5); auto.
    + rewrite S3; auto.
    + rewrite S2; auto.
    + intros i Hi. rewrite gS5. auto.
    + intros i Hi. rewrite gO5. auto.
    + rewrite gO5. auto.
    + rewrite gO5. auto.
    + intros M HM. rewrite gN5. auto.
    + rewrite S5. auto.
    + rewrite S8, C6. auto.
    + rewrite S9, C7. auto.
    + unfold pmode, pstate in *. rewrite gO5, gS5, S8, S9, C6, C7. rewrite Q6, Q5. exact Herr.
    + change (ss_conc (pstate c5 (nO c)) = ss_conc (nst c5 N)). rewrite nSt. unfold pstate in *. rewrite gO5, gS5. exact Q5.
  - constructor; auto; try congruence.
    + intros M HM. rewrite gN5. auto.
    + intros M HM Hne'. unfold nst. rewrite gN5, gS5. destruct (ex_node _ _ E4 M HM) as [-> _]. apply gS. apply (h_nstate _ _ _ _ _ H M HM).
    + intros o Ho. rewrite gO5. auto.
  - destruct A as [A1 A2 A3 A4 A5]. constructor.
    + rewrite S3. lia.
    + rewrite EM. exact A2.
    + unfold ordered. rewrite gN5, Eop. apply FOP_snoc.
      * assert (Hord : ForallOrdPairs (ord_rel c) (n_ops (getN c N))) by exact A3.
        assert (Hl : forall o, In (NTr o) (n_ops (getN c N)) -> o < nO c) by (intros o Ho; apply (h_ntr _ _ _ _ _ H N o HN Ho)).
        revert Hl. clear -Hord gO5 gO. induction Hord as [|y l HF HO IH]; intro Hl; constructor.
        -- rewrite Forall_forall in *. intros z Hz. destruct (HF z Hz) as [R1 R2].
           assert (EE : forall y', In y' (y :: l) -> nop_step c5 y' = nop_step c y'). { intros [| |o] Hy; cbn [nop_step]; auto. rewrite gO5, gO; auto. }
           split; [rewrite !EE; [exact R1|right; auto|left; auto]|]. destruct y; auto. destruct z; auto. specialize (EE (NTr o) (or_intror Hz)). cbn [nop_step] in EE. rewrite EE. exact R2.
        -- apply IH. intros o Ho. apply Hl. right; auto.
      * intros y Hy. destruct (A4 y Hy) as (K1 & K2 & K3). split.
        -- cbn [nop_step]. rewrite gO5, Q1. rewrite (nop_step_ext c c5); auto. intros o ->. apply (h_ntr _ _ _ _ _ H N o HN Hy).
        -- destruct y as [k i b| |]; auto; [|discriminate]. rewrite gO5, Q1. fold (nst c N). destruct (K3 k i b eq_refl) as [K|K]; [left; exact K|].
           right. specialize (Hf K). cbn [nop_step] in K1. split; [lia|exact Hf].
    + intros y Hy. rewrite gN5, Eop in Hy. rewrite nSt. apply in_app_or in Hy as [Hy|[<-|[]]].
      * destruct (A4 y Hy) as (K1 & K2 & K3). split; [|split; auto]. rewrite (nop_step_ext c c5); auto. intros o ->. apply (h_ntr _ _ _ _ _ H N o HN Hy).
      * cbn [nop_step]. rewrite gO5, Q1. split; [unfold nst; lia|]. split; [reflexivity|discriminate].
    + rewrite nSt, EM. intros p n HT. apply (A5 p n). revert HT. apply (Tn_ext a ru I0 c c5); auto.
  - rewrite gN5. split; [exact Eop|]. split; [rewrite S2; exact nO4|]. rewrite gO5, Q1, Q2, Q3, Q4.
    split. { exists (nO c). rewrite gN5, gO5, Eop, Q1, Q4. split; [apply in_or_app; right; left; auto|auto]. }
    split; [reflexivity|]. split; [reflexivity|]. split; [reflexivity|]. split; [reflexivity|]. split; [unfold pmode in *; rewrite gO5, gS5; exact Q6|].
    destruct Hw as [[-> _]|[-> _]]; [rewrite app_length; cbn [List.length]; destruct (Nat.eqb_spec (List.length (c_wait c) + 1) (List.length (c_wait c))); [lia|reflexivity]|rewrite Nat.eqb_refl; reflexivity].
Qed.
(** ** the invariant *)
Lemma FOP_invs (c : core) k ops : ForallOrdPairs (ord_rel c) (inv_nops k ops).
Proof.
  unfold inv_nops. induction ops as [|[i b] ops IH]; cbn [map]; constructor; [|exact IH]. apply Forall_forall. intros y Hy. apply in_map_iff in Hy as ([i' b'] & <- & _).
  split; cbn [nop_step fst snd]; [lia|auto].
Qed.
Lemma FOP_app {A} (R : A -> A -> Prop) l1 l2 : ForallOrdPairs R l1 -> ForallOrdPairs R l2 -> (forall x y, In x l1 -> In y l2 -> R x y) -> ForallOrdPairs R (l1 ++ l2).
Proof.
  induction l1 as [|x l1 IH]; intros H1 H2 H; cbn [app]; [exact H2|]. inversion H1; subst. constructor.
  - apply Forall_app. split; [assumption|]. apply Forall_forall. intros y Hy. apply H; [left; auto|auto].
  - apply IH; auto. intros u v Hu Hv. apply H; [right; auto|auto].
Qed.

Lemma open_intersect D X mo c N filt c' ok : base D X mo c -> X N -> active c N filt -> intersect_state solve a c N (n_state (getN c N)) = Ok (c', ok) ->
  base D X mo c' /\ frame N c c' /\ active c' N True /\ ss_step (nst c' N) = ss_step (nst c N) /\ c_wait c' = c_wait c /\ nO c' = nO c /\
  (forall y, In y (n_ops (getN c N)) -> In y (n_ops (getN c' N))) /\ ss_conc (nst c' N) = ss_conc (nst c N) /\ ss_lo (nst c' N) = ss_lo (nst c N) /\
  (ok = false -> forall x n, TN c' N (ss_step (nst c' N)) x n -> ~ inv_ok 0 (get_mode a (nmode c' N)) x).
Proof.
  intros B HX A Hi. pose proof (b_heap _ _ _ _ _ _ _ _ _ B) as H. pose proof (heap_closed _ _ _ _ _ H) as HC. destruct (b_X _ _ _ _ _ _ _ _ _ B N HX) as [HN _].
  destruct (nst_ok c N H HN (ac_err _ _ _ A)) as (x & S).
  destruct (intersect_state_ok solve Hsolve a WH c N _ c' ok x S Hi) as (s' & ops & Ec & S1 & S2 & S3 & S4 & S5 & S6 & S7). fold (nst c N) in *.
  destruct S2 as (Q1 & Q2 & Q3 & Q4 & Q5 & Q6 & Q7 & Q8).
  destruct (open_set D X mo c N s' B HX (st_good solve Hsolve a s' x S1) ltac:(exact Q1) ltac:(auto)) as (B1 & F1 & En & Eo & Ew & EO).
  set (c1 := setS c (n_state (getN c N)) s') in *.
  assert (HN1 : N < nN c1) by exact HN.
  destruct (push_ops_spec (inv_nops (ss_step (nst c N)) ops) N c1 HN1) as (P1 & P2 & P3 & P4 & P5 & P6 & P7 & P8 & P9 & P10 & P11 & P12 & P13 & P14 & P15 & P16). rewrite <- Ec in *.
  pose proof (b_heap _ _ _ _ _ _ _ _ _ B1) as H1. pose proof (heap_closed _ _ _ _ _ H1) as HC1.
  destruct (heap_pushes solve a ru I0 (inv_nops (ss_step (nst c N)) ops) c1 N H1 HN1) as [H2 E2].
  { intros y o Hy ->. apply in_map_iff in Hy as ([i b] & Hy & _). discriminate. }
  rewrite <- Ec in H2, E2.
  assert (gS : forall i, getS c' i = getS c1 i) by (intro; unfold getS; rewrite P1; auto). assert (gO : forall i, getO c' i = getO c1 i) by (intro; unfold getO; rewrite P2; auto).
  assert (gst : forall M, nst c' M = nst c1 M) by (intro M; unfold nst; destruct (P14 M) as [-> _]; apply gS).
  assert (B2 : base D X mo c').
  { apply (base_upd solve cf a ru I0 D X mo c1 c' B1 H2 E2 P13); try congruence.
    intros M HM HMX. apply P15. intros ->; auto. }
  assert (F2 : frame N c1 c').
  { constructor; auto; congruence. }
  pose proof (frame_trans _ _ _ _ F1 F2) as F. pose proof (fr_ext _ _ _ F) as E.
  assert (EM : nmode c' N = nmode c N) by (apply nmode_ext; auto).
  assert (En' : nst c' N = s') by (rewrite gst; exact En).
  assert (Est : ss_step (nst c' N) = ss_step (nst c N)) by (rewrite En'; auto).
  assert (Hm : ss_mode s' = nmode c N) by exact Q1.
  split; [exact B2|]. split; [exact F|]. split; [|split; [exact Est|]].
  - destruct A as [A1 A2 A3 A4 A5]. constructor.
    + rewrite (fr_nN _ _ _ F). exact HN.
    + rewrite EM. exact A2.
    + unfold ordered. rewrite P16. apply FOP_app; [|apply FOP_invs|].
      * assert (K := ordered_ext solve a ru I0 c c1 N H (fr_ext _ _ _ F1) HN Eo A3). unfold ordered in K. rewrite Eo in *.
        assert (Hgn : n_ops (getN c1 N) = n_ops (getN c N)) by exact Eo.
        revert K. generalize (n_ops (getN c N)). intros l K. induction K as [|y l KF KO IH]; constructor; auto. rewrite Forall_forall in *. intros z Hz. destruct (KF z Hz) as [R1 R2].
        assert (EE : forall y', nop_step c' y' = nop_step c1 y') by (intros [| |o]; cbn [nop_step]; rewrite ?gO; auto).
        split; [rewrite !EE; exact R1|]. destruct y; auto. destruct z; auto. rewrite gO. exact R2.
      * intros y z Hy Hz. rewrite Eo in Hy. destruct (A4 y Hy) as (K1 & K2 & K3). apply in_map_iff in Hz as ([i b] & <- & _). cbn [fst snd]. split.
        -- cbn [nop_step]. assert (EE : nop_step c' y = nop_step c y) by (apply nop_step_ext; auto; intros o ->; apply (h_ntr _ _ _ _ _ H N o HN Hy)). rewrite EE. exact K1.
        -- destruct y; auto. discriminate.
    + intros y Hy. rewrite P16 in Hy. rewrite Est. apply in_app_or in Hy as [Hy|Hy].
      * rewrite Eo in Hy. destruct (A4 y Hy) as (K1 & K2 & K3).
        assert (EE : nop_step c' y = nop_step c y) by (apply nop_step_ext; auto; intros o ->; apply (h_ntr _ _ _ _ _ H N o HN Hy)). rewrite EE. split; [exact K1|]. split; [exact K2|]. auto.
      * apply in_map_iff in Hy as ([i b] & <- & _). cbn [nop_step is_left fst snd]. split; [lia|]. split; [reflexivity|]. auto.
    + rewrite Est, En', EM. intros p n HT Hinv. assert (HT' : TN c N (ss_step (nst c N)) p n) by (revert HT; apply (Tn_ext a ru I0 c c'); auto).
      destruct (A5 p n HT') as [K1 K2]; [intros _; auto|]. split; [apply S4; auto; rewrite Hm; auto|]. rewrite Q3, Q4. exact K2.
  - split; [congruence|]. split; [congruence|]. split; [intros y Hy; rewrite P16, Eo; apply in_or_app; auto|]. split; [rewrite En'; auto|]. split; [rewrite En'; auto|].
    intros -> p n HT Hinv. rewrite Est in HT. rewrite EM in Hinv. assert (HT' : TN c N (ss_step (nst c N)) p n) by (revert HT; apply (Tn_ext a ru I0 c c'); auto).
    destruct (ac_cov _ _ _ A p n HT') as [K1 K2]; [auto|]. apply (S6 eq_refl p). apply S4; auto. rewrite Hm. auto.
Qed.
End Step.
