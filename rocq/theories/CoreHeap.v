(** The heap invariant of the analysis and its preservation by the elementary updates. *)
From Verif Require Import Base BaseFacts LpModel LpSpec SetSpec LpUtil LpFacts ChullFacts ApiSpec ApiFacts Automaton StateSet HybridSpec FlowFacts StateSpec
  StateFacts StateFacts2 StateFacts3 CoreModel HeapFacts CoreOps CoreGhost.
Open Scope nat_scope.

Section Heap.
Variable solve : solver.
Hypothesis Hsolve : solver_ok solve.
Variable arnoldi : nat -> option (list Q) -> csr -> option csr -> nat -> list (list Q).
Variable cf : cfg.
Variable a : ha.
Hypothesis WH : wf_ha a.
Variable ru : rules.
Variable I0 : nat -> vec -> Prop.
Notation TN := (Tn a ru I0).
Notation TO := (To a ru I0).

(** the post state of o has not been made the state of a node *)
Definition unused (c : core) (o : nat) : Prop := forall N, o_child (getO c o) = Some N -> 2 <= List.length (n_parents (getN c N)).

Record pristine (c : core) (o : nat) : Prop := {
  pr_step : ss_step (pstate c o) = 0;
  pr_rows : no_rows (pstate c o);
  pr_ne : nonempty (ss_lpi (pstate c o));
  pr_cov : forall x n, TO c o x n -> in_lp (ss_lpi (pstate c o)) x /\ ss_lo (pstate c o) <= n <= ss_hi (pstate c o) }.

Definition op_ok (c : core) (o : nat) : Prop :=
  match o_parent (getO c o) with
  | None => o_trans (getO c o) = None
  | Some M => M < nN c /\ In (NTr o) (n_ops (getN c M)) /\
      exists t, o_trans (getO c o) = Some t /\ t < List.length (ha_trans a) /\ t_from (get_trans a t) = nmode c M /\ t_to (get_trans a t) = pmode c o
  end.
Definition parent_ok (c : core) (N o : nat) : Prop :=
  o < nO c /\ pmode c o = nmode c N /\ forall M, o_parent (getO c o) = Some M -> M < N.

Record heap_ok (c : core) : Prop := {
  h_good : forall i, i < nS c -> good_state solve a (getS c i);
  h_post : forall o, o < nO c -> o_post (getO c o) < nS c;
  h_op : forall o, o < nO c -> op_ok c o;
  h_child : forall o N, o < nO c -> o_child (getO c o) = Some N -> N < nN c /\ In o (n_parents (getN c N));
  h_nstate : forall N, N < nN c -> n_state (getN c N) < nS c;
  h_par : forall N, N < nN c -> n_parents (getN c N) <> [] /\ NoDup (n_parents (getN c N)) /\ forall o, In o (n_parents (getN c N)) -> parent_ok c N o;
  h_ntr : forall N o, N < nN c -> In (NTr o) (n_ops (getN c N)) -> o < nO c /\ o_parent (getO c o) = Some N;
  h_inj : forall o o', o < nO c -> o' < nO c -> o_post (getO c o) = o_post (getO c o') -> o = o';
  h_single : forall N o, N < nN c -> n_parents (getN c N) = [o] -> n_state (getN c N) = o_post (getO c o) /\ o_child (getO c o) = Some N;
  h_multi : forall N o, N < nN c -> 2 <= List.length (n_parents (getN c N)) -> o < nO c -> n_state (getN c N) <> o_post (getO c o);
  h_ninj : forall N N', N < nN c -> N' < nN c -> n_state (getN c N) = n_state (getN c N') -> N = N';
  h_prist : forall o, o < nO c -> unused c o -> pristine c o }.

Lemma heap_closed c : heap_ok c -> closed c.
Proof.
  intro H. split.
  - intros N HN. split; [apply (h_nstate _ H N HN)|]. intros o Ho. destruct (h_par _ H N HN) as (_ & _ & Hp). apply (Hp o Ho).
  - intros o M Ho Hp. pose proof (h_op _ H o Ho) as Hk. unfold op_ok in Hk. rewrite Hp in Hk. apply Hk.
Qed.

Lemma state_used c N o : heap_ok c -> N < nN c -> o < nO c -> n_state (getN c N) = o_post (getO c o) -> n_parents (getN c N) = [o] /\ o_child (getO c o) = Some N.
Proof.
  intros H HN Ho E. destruct (h_par _ H N HN) as (Hne & _ & Hp). destruct (n_parents (getN c N)) as [|o1 [|o2 l]] eqn:El; [congruence| |].
  - destruct (h_single _ H N o1 HN El) as [E1 E2]. assert (o1 = o). { apply (h_inj _ H); auto; [apply (Hp o1); left; auto|congruence]. } subst o1. auto.
  - exfalso. apply (h_multi _ H N o HN); auto. rewrite El. cbn. lia.
Qed.
Lemma state_unused c N o : heap_ok c -> N < nN c -> o < nO c -> unused c o -> o_post (getO c o) <> n_state (getN c N).
Proof.
  intros H HN Ho Hu E. symmetry in E. destruct (state_used c N o H HN Ho E) as [E1 E2]. specialize (Hu N E2). rewrite E1 in Hu. cbn in Hu. lia.
Qed.

(** changing the state of a node *)
Lemma heap_setS c N s' : heap_ok c -> N < nN c -> good_state solve a s' -> ss_mode s' = nmode c N -> ss_conc s' = ss_conc (getS c (n_state (getN c N))) ->
  heap_ok (setS c (n_state (getN c N)) s') /\ ext c (setS c (n_state (getN c N)) s').
Proof.
  intros H HN HG HM HCc. set (c' := setS c (n_state (getN c N)) s').
  assert (E : ext c c') by (apply ext_setS; auto). split; [|exact E].
  pose proof (heap_closed c H) as HC.
  assert (EO : forall o, getO c' o = getO c o) by reflexivity. assert (EN : forall n, getN c' n = getN c n) by reflexivity.
  assert (ES : nS c' = nS c) by apply nS_setS.
  assert (EM : forall n, n < nN c -> nmode c' n = nmode c n) by (intros; apply nmode_ext; auto).
  assert (EP : forall o, o < nO c -> pmode c' o = pmode c o) by (intros o Ho; apply pmode_ext; auto; apply (h_post _ H o Ho)).
  constructor; try rewrite ES; change (nO c') with (nO c); change (nN c') with (nN c); try solve [apply H].
  - intros i Hi. unfold c'. rewrite getS_setS by (apply (h_nstate _ H N HN)). destruct (i =? _); [exact HG|apply (h_good _ H i Hi)].
  - intros o Ho. pose proof (h_op _ H o Ho) as K. unfold op_ok in *. rewrite EO. destruct (o_parent (getO c o)) as [M|]; [|exact K].
    destruct K as (K1 & K2 & t & K3 & K4 & K5 & K6). split; [exact K1|]. split; [exact K2|]. exists t. rewrite EM, EP by auto. auto.
  - intros M HM'. destruct (h_par _ H M HM') as (K1 & K2 & K3). split; [exact K1|]. split; [exact K2|]. intros o Ho. destruct (K3 o Ho) as (J1 & J2 & J3).
    split; [exact J1|]. split; [rewrite EM, EP by auto; exact J2|exact J3].
  - intros o Ho Hu. assert (EE : pstate c' o = pstate c o).
    { unfold pstate. rewrite EO. unfold c'. apply getS_set_ne. apply (state_unused c N o H HN Ho Hu). }
    destruct (h_prist _ H o Ho Hu) as [P1 P2 P3 P4]. constructor; rewrite EE; auto. intros x n HT. apply P4. revert HT. apply (To_ext a ru I0 c c'); auto.
Qed.

(** recording an operation that is no transition *)
Lemma heap_push c N x : heap_ok c -> N < nN c -> (forall o, x <> NTr o) -> heap_ok (push_op c N x) /\ ext c (push_op c N x).
Proof.
  intros H HN Hx. assert (E := ext_push c N x). split; [|exact E]. set (c' := push_op c N x) in *. pose proof (heap_closed c H) as HC.
  assert (EO : forall o, getO c' o = getO c o) by reflexivity. assert (ES : forall n, getS c' n = getS c n) by reflexivity.
  assert (EL : nN c' = nN c) by apply nN_push.
  assert (Epar : forall n, n_parents (getN c' n) = n_parents (getN c n)) by (intro; apply n_parents_push).
  assert (Est : forall n, n_state (getN c' n) = n_state (getN c n)) by (intro; apply n_state_push).
  assert (EM : forall n, nmode c' n = nmode c n) by (intro n; unfold nmode; rewrite Est; reflexivity).
  assert (Eops : forall n o, n < nN c -> (In (NTr o) (n_ops (getN c' n)) <-> In (NTr o) (n_ops (getN c n)))).
  { intros n o Hn. unfold c'. destruct (Nat.eq_dec n N) as [->|Hne]; [|rewrite n_ops_push_ne by auto; reflexivity]. rewrite n_ops_push_eq by auto.
    rewrite in_app_iff. split; [|auto]. intros [K|[K|[]]]; [auto|exfalso; apply (Hx o); auto]. }
  assert (EU : forall o, unused c' o <-> unused c o) by (intro o; unfold unused; split; intros K M HM; specialize (K M HM); rewrite Epar in *; auto).
  constructor; try rewrite EL; change (nO c') with (nO c); change (nS c') with (nS c); try solve [apply H].
  - intros o Ho. pose proof (h_op _ H o Ho) as K. unfold op_ok in *. rewrite EO. destruct (o_parent (getO c o)) as [M|]; [|exact K].
    destruct K as (K1 & K2 & t & K3 & K4 & K5 & K6). rewrite EL, EM. split; [exact K1|]. split; [apply Eops; auto|]. exists t. auto.
  - intros o M Ho Hc. rewrite Epar. apply (h_child _ H o M Ho Hc).
  - intros M HM. rewrite Est. apply (h_nstate _ H M HM).
  - intros M HM. rewrite Epar. destruct (h_par _ H M HM) as (K1 & K2 & K3). split; [exact K1|]. split; [exact K2|]. intros o Ho. destruct (K3 o Ho) as (J1 & J2 & J3).
    split; [exact J1|]. split; [rewrite EM; exact J2|exact J3].
  - intros M o HM Ho. apply Eops in Ho; auto. apply (h_ntr _ H M o HM Ho).
  - intros M o HM. rewrite Epar, Est. apply (h_single _ H M o HM).
  - intros M o HM. rewrite Epar, Est. apply (h_multi _ H M o HM).
  - intros M M' HM HM'. rewrite !Est. apply (h_ninj _ H M M' HM HM').
  - intros o Ho Hu. apply EU in Hu. destruct (h_prist _ H o Ho Hu) as [P1 P2 P3 P4]. constructor; auto. intros x' n HT. apply P4. revert HT. apply (To_ext a ru I0 c c'); auto.
Qed.
Lemma heap_pushes xs : forall c N, heap_ok c -> N < nN c -> (forall x o, In x xs -> x <> NTr o) -> heap_ok (push_ops c N xs) /\ ext c (push_ops c N xs).
Proof.
  unfold push_ops. induction xs as [|x xs IH]; intros c N H HN Hx; cbn [fold_left]; [split; [exact H|apply ext_refl]|].
  destruct (heap_push c N x H HN) as [H1 E1]; [intro o; apply Hx; left; auto|].
  destruct (IH (push_op c N x) N H1) as [H2 E2]; [rewrite nN_push; auto|intros y o Hy; apply Hx; right; auto|]. split; [exact H2|eapply ext_trans; eauto].
Qed.

(** fields that are not the heap *)
Lemma heap_same c c' : c_states c' = c_states c -> c_ops c' = c_ops c -> c_nodes c' = c_nodes c -> heap_ok c -> heap_ok c'.
Proof.
  intros E1 E2 E3 H. assert (E := ext_same c c' E1 E2 E3). pose proof (heap_closed c H) as HC.
  assert (ES : forall i, getS c' i = getS c i) by (intro; unfold getS; rewrite E1; auto).
  assert (EO : forall i, getO c' i = getO c i) by (intro; unfold getO; rewrite E2; auto). assert (EN : forall i, getN c' i = getN c i) by (intro; unfold getN; rewrite E3; auto).
  assert (EM : forall n, nmode c' n = nmode c n) by (intro; unfold nmode; rewrite EN, ES; auto).
  assert (EP : forall n, pmode c' n = pmode c n) by (intro; unfold pmode; rewrite EO, ES; auto).
  assert (EPS : forall n, pstate c' n = pstate c n) by (intro; unfold pstate; rewrite EO, ES; auto).
  constructor; rewrite ?E1, ?E2, ?E3.
  - intros i Hi. rewrite ES. apply H; auto.
  - intros o Ho. rewrite EO. apply H; auto.
  - intros o Ho. pose proof (h_op _ H o Ho) as K. unfold op_ok in *. rewrite EO, E3. destruct (o_parent (getO c o)) as [M|]; [|exact K]. rewrite EN, EM, EP. exact K.
  - intros o N Ho. rewrite EO, EN. apply H; auto.
  - intros N HN. rewrite EN. apply H; auto.
  - intros N HN. rewrite EN. destruct (h_par _ H N HN) as (K1 & K2 & K3). split; [exact K1|]. split; [exact K2|]. intros o Ho. destruct (K3 o Ho) as (J1 & J2 & J3).
    unfold parent_ok. rewrite E2, EM, EP, EO. auto.
  - intros N o HN. rewrite EN, EO. apply H; auto.
  - intros o o' Ho Ho'. rewrite !EO. apply H; auto.
  - intros N o HN. rewrite EN, EO. apply H; auto.
  - intros N o HN. rewrite EN, EO. apply H; auto.
  - intros N N' HN HN'. rewrite !EN. apply H; auto.
  - intros o Ho Hu. assert (Hu' : unused c o) by (intros N HN; specialize (Hu N); rewrite EO, EN in Hu; auto).
    destruct (h_prist _ H o Ho Hu') as [P1 P2 P3 P4]. constructor; rewrite ?EPS; auto. intros x n HT. apply P4. revert HT. apply (To_ext a ru I0 c c'); auto.
Qed.

(** ** a new transition *)
(** the points that may jump from the current state of node N are in its set *)
Definition jump_cov (c : core) (N : nat) : Prop :=
  let s := getS c (n_state (getN c N)) in
  forall x n, TN c N (ss_step s) x n -> (ss_step s = 0 -> inv_ok 0 (get_mode a (nmode c N)) x) -> in_lp (ss_lpi s) x /\ ss_lo s <= n <= ss_hi s.

Record same_ctl (c c' : core) : Prop := {
  sc_cur : c_cur c' = c_cur c; sc_wait : c_wait c' = c_wait c; sc_dwait : c_dwait c' = c_dwait c; sc_rep : c_rep c' = c_rep c; sc_tt : c_tt c' = c_tt c;
  sc_agg : c_aggerr c' = c_aggerr c; sc_conc : c_concerr c' = c_concerr c }.

Lemma heap_add_op c N t tlp c1 r :
  heap_ok c -> N < nN c -> t < List.length (ha_trans a) -> t_from (get_trans a t) = nmode c N ->
  api solve tlp None -> l_dims tlp = m_dims (get_mode a (nmode c N)) -> (exists p, in_lp tlp p) ->
  (forall p, in_lp (ss_lpi (getS c (n_state (getN c N)))) p -> guard_ok (get_trans a t) p -> in_lp tlp p) ->
  jump_cov c N ->
  make_op_transition solve cf a c t tlp (n_state (getN c N)) N = Ok (c1, r) ->
  r = Some (nO c) /\
  let c2 := push_op c1 N (NTr (nO c)) in
  heap_ok c2 /\ ext c c2 /\ nS c2 = S (nS c) /\ nO c2 = S (nO c) /\ nN c2 = nN c /\
  (forall i, i < nS c -> getS c2 i = getS c i) /\ (forall o, o < nO c -> getO c2 o = getO c o) /\
  o_step (getO c2 (nO c)) = ss_step (getS c (n_state (getN c N))) /\ o_parent (getO c2 (nO c)) = Some N /\ o_child (getO c2 (nO c)) = None /\
  o_trans (getO c2 (nO c)) = Some t /\ ss_conc (pstate c2 (nO c)) = ss_conc (getS c (n_state (getN c N))) /\ pmode c2 (nO c) = t_to (get_trans a t) /\
  (forall M, M <> N -> n_ops (getN c2 M) = n_ops (getN c M)) /\ n_ops (getN c2 N) = n_ops (getN c N) ++ [NTr (nO c)] /\
  c_cur c2 = c_cur c /\ c_wait c2 = c_wait c /\ c_dwait c2 = c_dwait c /\ c_rep c2 = c_rep c /\ c_tt c2 = c_tt c /\ c_aggerr c2 = c_aggerr c /\ c_concerr c2 = c_concerr c.
Proof.
  intros H HN Ht Hfrom Hap Hd Hne Htl Hcov Hmk. pose proof (heap_closed c H) as HC.
  destruct (make_op_ok solve Hsolve cf a WH c t tlp _ N c1 r Ht Hap ltac:(rewrite Hfrom; exact Hd) Hne Hmk)
    as (s' & ctr & -> & Ec1 & M1 & M2 & M3 & M4 & M5 & M6 & M7 & M8 & M9 & M10 & M11).
  split; [reflexivity|]. set (sid := n_state (getN c N)) in *. set (s := getS c sid) in *. set (no := new_op c t sid N ctr) in *.
  assert (HN1 : N < nN c1) by (rewrite Ec1; exact HN).
  set (c2 := push_op c1 N (NTr (nO c))).
  assert (E1 : ext c c1). { rewrite Ec1. eapply ext_trans; [apply ext_addS|]. apply (ext_addO (with_states c (c_states c ++ [s']))). }
  assert (E : ext c c2) by (eapply ext_trans; [exact E1|apply ext_push]).
  assert (nS2 : nS c2 = S (nS c)) by (unfold c2; rewrite Ec1; ccbn; rewrite app_length; cbn; lia).
  assert (nO2 : nO c2 = S (nO c)) by (unfold c2; rewrite Ec1; ccbn; rewrite app_length; cbn; lia).
  assert (nN2 : nN c2 = nN c) by (unfold c2; rewrite nN_push, Ec1; reflexivity).
  assert (gS : forall i, getS c2 i = if i =? nS c then s' else getS c i).
  { intro i. unfold c2. rewrite getS_push, Ec1. unfold getS. ccbn. apply nth_snoc. }
  assert (gO : forall o, getO c2 o = if o =? nO c then no else getO c o).
  { intro i. unfold c2. rewrite getO_push, Ec1. unfold getO. ccbn. apply nth_snoc. }
  assert (gSold : forall i, i < nS c -> getS c2 i = getS c i) by (intros i Hi; rewrite gS; destruct (Nat.eqb_spec i (nS c)); [lia|auto]).
  assert (gOold : forall i, i < nO c -> getO c2 i = getO c i) by (intros i Hi; rewrite gO; destruct (Nat.eqb_spec i (nO c)); [lia|auto]).
  assert (gOnew : getO c2 (nO c) = no) by (rewrite gO, Nat.eqb_refl; auto).
  assert (gSnew : getS c2 (nS c) = s') by (rewrite gS, Nat.eqb_refl; auto).
  assert (gN1 : forall n, getN c1 n = getN c n) by (intro n; rewrite Ec1; reflexivity).
  assert (Epar : forall n, n_parents (getN c2 n) = n_parents (getN c n)) by (intro; unfold c2; rewrite n_parents_push, gN1; auto).
  assert (Est : forall n, n_state (getN c2 n) = n_state (getN c n)) by (intro; unfold c2; rewrite n_state_push, gN1; auto).
  assert (Eops : n_ops (getN c2 N) = n_ops (getN c N) ++ [NTr (nO c)]) by (unfold c2; rewrite n_ops_push_eq, gN1; auto).
  assert (Eops' : forall M, M <> N -> n_ops (getN c2 M) = n_ops (getN c M)) by (intros; unfold c2; rewrite n_ops_push_ne, gN1; auto).
  assert (EM : forall n, n < nN c -> nmode c2 n = nmode c n) by (intros n Hn; apply nmode_ext; auto).
  assert (EP : forall o, o < nO c -> pmode c2 o = pmode c o) by (intros o Ho; apply pmode_ext; auto; apply (h_post _ H o Ho)).
  assert (Epn : pstate c2 (nO c) = s') by (unfold pstate; rewrite gOnew; cbn [o_post no new_op]; exact gSnew).
  assert (EPn : pmode c2 (nO c) = t_to (get_trans a t)) by (unfold pmode; fold (pstate c2 (nO c)); rewrite Epn; exact M1).
  assert (Epo : forall o, o < nO c -> pstate c2 o = pstate c o) by (intros o Ho; unfold pstate; rewrite gOold by auto; apply gSold; apply (h_post _ H o Ho)).
  assert (Hsmall : forall o, o < S (nO c) -> o < nO c \/ o = nO c) by (intros; lia).
  assert (HOK : heap_ok c2).
  { constructor; rewrite ?nS2, ?nO2, ?nN2.
    - intros i Hi. rewrite gS. destruct (Nat.eqb_spec i (nS c)); [exact M7|apply (h_good _ H); lia].
    - intros o Ho. destruct (Hsmall o Ho) as [Ho'| ->]; [rewrite gOold by auto; pose proof (h_post _ H o Ho'); lia|]. rewrite gOnew. cbn [o_post no new_op]. lia.
    - intros o Ho. destruct (Hsmall o Ho) as [Ho'| ->].
      + pose proof (h_op _ H o Ho') as K. unfold op_ok in *. rewrite gOold by auto. destruct (o_parent (getO c o)) as [M|]; [|exact K].
        destruct K as (K1 & K2 & t0 & K3 & K4 & K5 & K6). split; [lia|]. split.
        { destruct (Nat.eq_dec M N) as [->|Hne']; [rewrite Eops; apply in_or_app; auto|rewrite Eops' by auto; auto]. }
        exists t0. rewrite EM, EP by auto. auto.
      + unfold op_ok. rewrite gOnew. cbn [o_parent no new_op o_trans]. rewrite nN2. split; [exact HN|]. split; [rewrite Eops; apply in_or_app; right; left; auto|].
        exists t. rewrite EM by auto. rewrite EPn. auto.
    - intros o M Ho Hc. destruct (Hsmall o Ho) as [Ho'| ->]; [rewrite gOold in Hc by auto; rewrite Epar; apply (h_child _ H o M Ho' Hc)|]. rewrite gOnew in Hc. discriminate.
    - intros M HM. rewrite Est. pose proof (h_nstate _ H M HM). lia.
    - intros M HM. rewrite Epar. destruct (h_par _ H M HM) as (K1 & K2 & K3). split; [exact K1|]. split; [exact K2|]. intros o Ho. destruct (K3 o Ho) as (J1 & J2 & J3).
      split; [lia|]. rewrite EM, EP by auto. split; [exact J2|]. rewrite gOold by auto. exact J3.
    - intros M o HM Ho. destruct (Nat.eq_dec M N) as [->|Hne'].
      + rewrite Eops in Ho. apply in_app_or in Ho as [Ho|[Ho|[]]]; [|injection Ho as <-; rewrite gOnew; split; [lia|reflexivity]].
        destruct (h_ntr _ H N o HN Ho) as [J1 J2]. rewrite gOold by auto. split; [lia|auto].
      + rewrite Eops' in Ho by auto. destruct (h_ntr _ H M o HM Ho) as [J1 J2]. rewrite gOold by auto. split; [lia|auto].
    - intros o o' Ho Ho' Eq. destruct (Hsmall o Ho) as [K| ->], (Hsmall o' Ho') as [K'| ->]; auto.
      + rewrite !gOold in Eq by auto. apply (h_inj _ H); auto.
      + rewrite gOnew, gOold in Eq by auto. cbn [o_post no new_op] in Eq. pose proof (h_post _ H o K). lia.
      + rewrite gOnew, gOold in Eq by auto. cbn [o_post no new_op] in Eq. pose proof (h_post _ H o' K'). lia.
    - intros M o HM Hp. rewrite Epar, Est in *. destruct (h_single _ H M o HM Hp) as [J1 J2].
      assert (Ho : o < nO c). { destruct (h_par _ H M HM) as (_ & _ & K3). apply (K3 o). rewrite Hp. left; auto. }
      rewrite gOold by auto. auto.
    - intros M o HM HL Ho. rewrite Epar, Est in *. destruct (Hsmall o Ho) as [K| ->]; [rewrite gOold by auto; apply (h_multi _ H); auto|].
      rewrite gOnew. cbn [o_post no new_op]. pose proof (h_nstate _ H M HM). lia.
    - intros M M' HM HM'. rewrite !Est. apply (h_ninj _ H); auto.
    - intros o Ho Hu. destruct (Hsmall o Ho) as [K| ->].
      + assert (Hu' : unused c o). { intros M HM. specialize (Hu M). rewrite gOold, Epar in Hu by auto. auto. }
        destruct (h_prist _ H o K Hu') as [P1 P2 P3 P4]. constructor; rewrite Epo by auto; auto. intros x n HT. apply P4. revert HT. apply (To_ext a ru I0 c c2); auto.
      + constructor; rewrite Epn; auto. intros x n HT. apply To_inv in HT as (_ & [(Q0 & _)|(M & t1 & y & Q2 & Q3 & Q4 & Q5 & Q6 & Q7)]); [rewrite gOnew in Q0; discriminate|].
        rewrite gOnew in *. cbn [o_parent o_trans o_step no new_op] in *. injection Q2 as <-. injection Q3 as <-.
        apply (Tn_ext a ru I0 c c2) in Q4; auto. rewrite EM in Q6 by auto.
        destruct (Hcov y n Q4) as [Hin Hb]. { intro E0. destruct Q6 as [[Q6|[_ Q6]] _]; [change (ss_step s = 0) in E0; change (0 < ss_step s) in Q6; lia|exact Q6]. }
        split; [|change (ss_lo s <= n <= ss_hi s) in Hb; rewrite M3, M4; exact Hb]. apply M10. exists y. split; [apply Htl; auto|exact Q7]. }
  split; [exact HOK|]. split; [exact E|]. split; [exact nS2|]. split; [exact nO2|]. split; [exact nN2|]. split; [exact gSold|]. split; [exact gOold|].
  rewrite gOnew. split; [reflexivity|]. split; [reflexivity|]. split; [reflexivity|]. split; [reflexivity|]. rewrite Epn. split; [exact M5|]. split; [exact EPn|].
  split; [exact Eops'|]. split; [exact Eops|]. unfold c2. rewrite Ec1. ccbn. auto 12.
Qed.

(** ** a new node *)
Definition fresh (c : core) (N : nat) : Prop :=
  let s := getS c (n_state (getN c N)) in
  ss_step s = 0 /\ no_rows s /\ n_ops (getN c N) = [] /\ forall x n, TN c N 0 x n -> in_lp (ss_lpi s) x /\ ss_lo s <= n <= ss_hi s.

Lemma good_agg s g : good_state solve a s -> good_state solve a (mkSset (ss_mode s) (ss_lpi s) (ss_step s) (ss_lo s) (ss_hi s) (ss_conc s) (ss_ops s) (ss_rows s) (ss_bm s) (ss_ies s) g).
Proof.
  intros (G1 & G2 & G3 & G4). split; [exact G1|]. split; [exact G2|]. split; [exact G3|]. intro Ee. destruct (G4 Ee) as (x & Sx). exists x.
  destruct Sx as [X1 X2 X3 X4 X5 X6 X7 X8]. constructor; assumption.
Qed.

Lemma heap_make_node c ops agg str c' nid :
  heap_ok c -> (forall o, In o ops -> o < nO c /\ unused c o) -> NoDup ops -> (forall o, In o ops -> pmode c o = pmode c (nth 0 ops 0)) ->
  make_node solve arnoldi a c ops agg str = Ok (c', nid) ->
  ops <> [] /\ nid = nN c /\ heap_ok c' /\ ext c c' /\ nN c' = S (nN c) /\ nO c' = nO c /\ n_parents (getN c' nid) = ops /\ fresh c' nid /\
  (forall n, n < nN c -> getN c' n = getN c n) /\
  (forall o, In o ops -> o_child (getO c' o) = Some nid) /\ (forall o, ~ In o ops -> o_child (getO c' o) = o_child (getO c o)) /\
  (forall o, o_parent (getO c' o) = o_parent (getO c o)) /\
  nmode c' nid = pmode c (nth 0 ops 0) /\
  (forall i, i < nS c -> (forall o, In o ops -> i <> o_post (getO c o)) -> getS c' i = getS c i \/ exists o, getS c' i = ss_with_lpi (getS c i) (with_obj (ss_lpi (getS c i)) o)) /\
  same_ctl c c'.
Proof.
  intros H HO HND HMd Hmk. pose proof (heap_closed c H) as HC.
  assert (HO' : forall o, In o ops -> o < nO c /\ o_post (getO c o) < nS c /\ good_state solve a (getS c (o_post (getO c o))) /\ nonempty (ss_lpi (getS c (o_post (getO c o))))).
  { intros o Ho. destruct (HO o Ho) as [K1 K2]. pose proof (h_post _ H o K1) as K3. split; [exact K1|]. split; [exact K3|]. split; [apply (h_good _ H _ K3)|apply (h_prist _ H o K1 K2)]. }
  destruct (make_node_ok solve Hsolve arnoldi a WH c ops agg str c' nid HO' HMd Hmk)
    as (Hne & Hnid & nN2 & nO2 & gN & Hops & Hpar & Hagg & gO & gch & gch' & K1 & K2 & K3 & K4 & K5 & K6 & K7 & K8 & Kroot & Hsid & Hgs & Hms & Hstr & Hcase).
  cbn zeta in *. set (sid := n_state (getN c' nid)) in *.
  assert (H0 : In (nth 0 ops 0) ops) by (destruct ops; [congruence|left; auto]).
  (* states *)
  assert (HS : nS c <= nS c' /\ (forall i, i < nS c -> getS c' i = getS c i \/ (i = sid /\ exists o g, ops = [o] /\ sid = o_post (getO c o) /\ getS c' i = 
       mkSset (ss_mode (getS c i)) (ss_lpi (getS c i)) (ss_step (getS c i)) (ss_lo (getS c i)) (ss_hi (getS c i)) (ss_conc (getS c i)) (ss_ops (getS c i)) (ss_rows (getS c i)) (ss_bm (getS c i)) (ss_ies (getS c i)) g)
     \/ (2 <= List.length ops /\ exists o, getS c' i = ss_with_lpi (getS c i) (with_obj (ss_lpi (getS c i)) o))) /\
     (2 <= List.length ops -> sid = nS c) /\ (nS c' <= S (nS c))).
  { destruct ops as [|o1 [|o2 ops]]; [congruence| |].
    - destruct Hcase as (Q1 & Q2 & Q3 & g & Q4). split; [lia|]. split; [|split; [cbn; lia|lia]]. intros i Hi. destruct (Nat.eq_dec i sid) as [->|Hi']; [|left; auto].
      right; left. split; [reflexivity|]. exists o1, g. split; [reflexivity|]. split; [exact Q1|exact Q4].
    - destruct Hcase as (Q1 & Q2 & Q3 & Q4). split; [lia|]. split; [|split; [auto|lia]]. intros i Hi. destruct (Q3 i Hi) as [->|Q]; [left; auto|]. right; right. split; [cbn; lia|exact Q]. }
  destruct HS as (nS2 & gS & Hsm & nS3).
  assert (E : ext c c').
  { constructor; try lia.
    - intros i Hi. destruct (gS i Hi) as [->|[(_ & o & g & _ & _ & ->)|(_ & o & ->)]]; auto.
    - intros o Ho. destruct (gO o) as (J1 & J2 & J3 & J4 & _). auto.
    - intros n Hn. rewrite gN by auto. auto.
    - intros n Hn. rewrite gN by auto. exists []. rewrite app_nil_r. auto. }
  assert (EM : forall n, n < nN c -> nmode c' n = nmode c n) by (intros n Hn; apply nmode_ext; auto).
  assert (EP : forall o, o < nO c -> pmode c' o = pmode c o) by (intros o Ho; apply pmode_ext; auto; apply (h_post _ H o Ho)).
  assert (Emn : nmode c' nid = pmode c (nth 0 ops 0)) by (unfold nmode; fold sid; rewrite Hms; reflexivity).
  assert (Epo : forall o, o_post (getO c' o) = o_post (getO c o)) by (intro o; apply (gO o)).
  assert (Epp : forall o, o_parent (getO c' o) = o_parent (getO c o)) by (intro o; apply (gO o)).
  assert (Ept : forall o, o_trans (getO c' o) = o_trans (getO c o)) by (intro o; apply (gO o)).
  assert (Hsn : forall n, n < S (nN c) -> n < nN c \/ n = nid) by (intros; lia).
  assert (Hgood : forall i, i < nS c' -> good_state solve a (getS c' i)).
  { intros i Hi. destruct (Nat.eq_dec i sid) as [->|Hi']; [exact Hgs|]. destruct (lt_dec i (nS c)) as [Hl|Hl].
    - destruct (gS i Hl) as [->|[(_ & o & g & _ & _ & ->)|(_ & o & ->)]]; [apply (h_good _ H i Hl)|apply good_agg; apply (h_good _ H i Hl)|apply good_obj; auto; apply (h_good _ H i Hl)].
    - exfalso. destruct ops as [|o1 [|o2 l]]; [congruence|destruct Hcase as (_ & Q & _); lia|]. rewrite Hsm in Hi' by (cbn; lia). lia. }
  (* the state of the new node against the others *)
  assert (Hnew : forall n, n < nN c -> n_state (getN c n) <> sid).
  { intros n Hn Eq. destruct ops as [|o1 [|o2 l]]; [congruence| |].
    - destruct Hcase as (Q1 & _). destruct (HO o1 (or_introl eq_refl)) as [L1 L2]. apply (state_unused c n o1 H Hn L1 L2). congruence.
    - rewrite Hsm in Eq by (cbn; lia). pose proof (h_nstate _ H n Hn). lia. }
  assert (Hun : forall o, o < nO c -> unused c' o -> unused c o).
  { intros o Ho Hu. destruct (in_dec Nat.eq_dec o ops) as [Hi|Hi]; [apply (HO o Hi)|]. intros n Hn. pose proof (h_child _ H o n Ho Hn) as [L1 _].
    specialize (Hu n). rewrite gch', gN in Hu by auto. auto. }
  assert (Hpr : forall o, o < nO c -> unused c' o -> getS c' (o_post (getO c o)) = pstate c o \/ exists ob, getS c' (o_post (getO c o)) = ss_with_lpi (pstate c o) (with_obj (ss_lpi (pstate c o)) ob)).
  { intros o Ho Hu. destruct (gS _ (h_post _ H o Ho)) as [->|[(Es & o1 & g & Eo & Es2 & _)|(_ & ob & ->)]]; [left; auto| |right; exists ob; auto].
    exfalso. assert (o = o1). { apply (h_inj _ H); auto; [|congruence]. apply (HO o1). rewrite Eo. left; auto. } subst o1.
    specialize (Hu nid (gch o ltac:(rewrite Eo; left; auto))). rewrite Hpar, Eo in Hu. cbn in Hu. lia. }
  assert (HOK : heap_ok c').
  { constructor; rewrite ?nN2, ?nO2.
    - exact Hgood.
    - intros o Ho. rewrite Epo. pose proof (h_post _ H o Ho). lia.
    - intros o Ho. pose proof (h_op _ H o Ho) as K. unfold op_ok in *. rewrite Epp, Ept. destruct (o_parent (getO c o)) as [M|]; [|exact K].
      destruct K as (J1 & J2 & t0 & J3 & J4 & J5 & J6). rewrite nN2. split; [lia|]. rewrite gN by auto. split; [exact J2|]. exists t0. rewrite EM, EP by auto. auto.
    - intros o N Ho Hc. destruct (in_dec Nat.eq_dec o ops) as [Hi|Hi].
      + rewrite (gch o Hi) in Hc. injection Hc as <-. split; [lia|]. rewrite Hpar. auto.
      + rewrite gch' in Hc by auto. destruct (h_child _ H o N Ho Hc) as [J1 J2]. split; [lia|]. rewrite gN by auto. exact J2.
    - intros N HN. destruct (Hsn N HN) as [HN'| ->]; [rewrite gN by auto; pose proof (h_nstate _ H N HN'); lia|exact Hsid].
    - intros N HN. destruct (Hsn N HN) as [HN'| ->].
      + rewrite gN by auto. destruct (h_par _ H N HN') as (J1 & J2 & J3). split; [exact J1|]. split; [exact J2|]. intros o Ho. destruct (J3 o Ho) as (L1 & L2 & L3).
        unfold parent_ok. rewrite nO2, EM, EP, Epp by auto. auto.
      + rewrite Hpar. split; [exact Hne|]. split; [exact HND|]. intros o Ho. destruct (HO o Ho) as [L1 L2]. unfold parent_ok. rewrite nO2, Emn, EP, Epp by auto. split; [exact L1|]. split; [apply HMd; auto|].
        intros M HM. rewrite Hnid. apply (proj2 HC o M L1 HM).
    - intros N o HN Ho. destruct (Hsn N HN) as [HN'| ->].
      + rewrite gN in Ho by auto. rewrite Epp. apply (h_ntr _ H N o HN' Ho).
      + rewrite Hops in Ho. destruct Ho.
    - intros o o' Ho Ho'. rewrite !Epo. apply (h_inj _ H); auto.
    - intros N o HN Hp. rewrite Epo. destruct (Hsn N HN) as [HN'| ->].
      + rewrite gN in * by auto. destruct (h_single _ H N o HN' Hp) as [J1 J2]. split; [exact J1|].
        rewrite gch'; [exact J2|]. intro Hi. destruct (HO o Hi) as [_ L2]. specialize (L2 N J2). rewrite Hp in L2. cbn in L2. lia.
      + rewrite Hpar in Hp. rewrite Hp in Hcase. destruct Hcase as (Q1 & _). split; [exact Q1|]. apply gch. rewrite Hp. left; auto.
    - intros N o HN HL Ho. rewrite Epo. destruct (Hsn N HN) as [HN'| ->]; [rewrite gN in * by auto; apply (h_multi _ H); auto|].
      rewrite Hpar in HL. fold sid. rewrite Hsm by auto. pose proof (h_post _ H o Ho). lia.
    - intros N N' HN HN' Eq. destruct (Hsn N HN) as [J| ->], (Hsn N' HN') as [J'| ->]; auto.
      + rewrite !gN in Eq by auto. apply (h_ninj _ H); auto.
      + rewrite gN in Eq by auto. exfalso. exact (Hnew N J Eq).
      + rewrite (gN N') in Eq by auto. exfalso. exact (Hnew N' J' (eq_sym Eq)).
    - intros o Ho Hu. destruct (h_prist _ H o Ho (Hun o Ho Hu)) as [P1 P2 P3 P4].
      assert (P4' : forall x n, TO c' o x n -> in_lp (ss_lpi (pstate c o)) x /\ ss_lo (pstate c o) <= n <= ss_hi (pstate c o)).
      { intros x n HT. apply P4. revert HT. apply (To_ext a ru I0 c c'); auto. }
      assert (EE : pstate c' o = getS c' (o_post (getO c o))) by (unfold pstate; rewrite Epo; auto).
      destruct (Hpr o Ho Hu) as [Q|(ob & Q)]; rewrite Q in EE; constructor; rewrite EE; cbn [ss_with_lpi ss_step ss_rows ss_lpi ss_lo ss_hi]; auto.
    }
  split; [exact Hne|]. split; [exact Hnid|]. split; [exact HOK|]. split; [exact E|]. split; [exact nN2|]. split; [exact nO2|]. split; [exact Hpar|].
  split.
  { assert (HTO : forall x n, TN c' nid 0 x n -> exists o, In o ops /\ TO c o x n).
    { intros x n HT. apply Tn_0 in HT as (o & Ho & HT). rewrite Hpar in Ho. exists o. split; [exact Ho|]. revert HT. apply (To_ext a ru I0 c c'); auto. apply (HO o Ho). }
    unfold fresh. fold sid. destruct ops as [|o1 [|o2 l]]; [congruence| |].
    - destruct Hcase as (Q1 & Q2 & Q3 & g & Q4). rewrite Q4. cbn [ss_step ss_rows ss_lpi ss_lo ss_hi]. destruct (HO o1 (or_introl eq_refl)) as [L1 L2].
      destruct (h_prist _ H o1 L1 L2) as [P1 P2 P3 P4]. unfold pstate in *. rewrite <- Q1 in *. split; [exact P1|]. split; [exact P2|]. split; [exact Hops|].
      intros x n HT. destruct (HTO x n HT) as (o & [<-|[]] & HT'). apply P4; auto.
    - destruct Hcase as (Q1 & Q2 & Q3 & Q4 & Q5 & Q6 & Q7 & Q8 & Q9 & Q10). split; [exact Q4|]. split; [exact Q6|]. split; [exact Hops|].
      intros x n HT. destruct (HTO x n HT) as (o & Ho & HT'). destruct (HO o Ho) as [L1 L2]. destruct (h_prist _ H o L1 L2) as [P1 P2 P3 P4].
      destruct (P4 x n HT') as [J1 J2]. split; [apply (Q10 o x Ho J1)|]. rewrite Q8, Q9.
      pose proof (minl_le (map (fun o => ss_lo (getS c (o_post (getO c o)))) (o1 :: o2 :: l)) _ (in_map (fun o => ss_lo (getS c (o_post (getO c o)))) _ o Ho)) as B1.
      pose proof (maxl_ge (map (fun o => ss_hi (getS c (o_post (getO c o)))) (o1 :: o2 :: l)) _ (in_map (fun o => ss_hi (getS c (o_post (getO c o)))) _ o Ho)) as B2.
      cbv beta in B1, B2. unfold pstate in J2. lia. }
  split; [exact gN|]. split; [exact gch|]. split; [exact gch'|]. split; [exact Epp|]. split; [exact Emn|]. split.
  { intros i Hi Hno. destruct (gS i Hi) as [Q|[(Es & o & g & Eo & Es2 & _)|(_ & Q)]]; [left; exact Q| |right; exact Q].
    exfalso. apply (Hno o); [rewrite Eo; left; auto|congruence]. }
  constructor; auto.
Qed.
End Heap.
