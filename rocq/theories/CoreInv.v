(** The invariant of the analysis: which nodes are finished, which transitions wait, which nodes are obsolete. *)
From Coq Require Import Permutation.
From Verif Require Import Base BaseFacts LpModel LpSpec SetSpec LpUtil LpFacts ChullFacts ApiSpec ApiFacts Automaton StateSet HybridSpec FlowFacts StateSpec
  StateFacts StateFacts2 StateFacts3 CoreModel HeapFacts CoreOps CoreGhost CoreHeap.
Open Scope nat_scope.

Lemma FOP_snoc {A} (R : A -> A -> Prop) l x : ForallOrdPairs R l -> (forall y, In y l -> R y x) -> ForallOrdPairs R (l ++ [x]).
Proof.
  induction l as [|y l IH]; intros H Hx; cbn [app]; [constructor; [constructor|constructor]|].
  inversion H; subst. constructor.
  - apply Forall_app. split; [assumption|]. constructor; [apply Hx; left; auto|constructor].
  - apply IH; auto. intros z Hz. apply Hx. right; auto.
Qed.
Lemma FOP_app_inv {A} (R : A -> A -> Prop) l1 l2 : ForallOrdPairs R (l1 ++ l2) -> ForallOrdPairs R l2 /\ forall x y, In x l1 -> In y l2 -> R x y.
Proof.
  induction l1 as [|x l1 IH]; cbn [app]; intro H; [split; [exact H|intros x y []]|]. inversion H as [|? ? HF HO]; subst. destruct (IH HO) as [K1 K2]. split; [exact K1|].
  intros z y [->|Hz] Hy; [|apply K2; auto]. rewrite Forall_forall in HF. apply HF. apply in_or_app; auto.
Qed.

Lemma cok_inj {A} (x y : A) : Ok x = Ok y -> x = y. Proof. congruence. Qed.
Section Inv.
Variable solve : solver.
Hypothesis Hsolve : solver_ok solve.
Variable cf : cfg.
Variable a : ha.
Hypothesis WH : wf_ha a.
Variable ru : rules.
Variable I0 : nat -> vec -> Prop.
Notation TN := (Tn a ru I0).
Notation TO := (To a ru I0).
Notation hok := (heap_ok solve a ru I0).
Notation enab := (enabled a ru I0).

(** deaggregation is on *)
Definition dg : bool := match cf_strat cf with Some g => ag_deagg g | None => false end.

(** the recorded operations of a node are in the order in which the analysis makes them *)
Definition ord_rel (c : core) (x y : nop) : Prop :=
  nop_step c x <= nop_step c y /\
  match x with
  | NLeft _ _ => False
  | NInv k _ _ => match y with NTr o => k < o_step (getO c o) \/ (k = 0 /\ o_step (getO c o) = 0) | _ => True end
  | NTr _ => True
  end.
Definition ordered (c : core) (N : nat) : Prop := ForallOrdPairs (ord_rel c) (n_ops (getN c N)).
Definition done (c : core) (N : nat) : Prop := left_inv c N = true /\ ordered c N /\ complete a ru I0 c N.
Definition refines (c : core) (ch P : nat) : Prop := forall k x n, TN c ch k x n -> TN c P k x n.
Definition err (m : nat) : bool := is_error (get_mode a m).
Definition pair_ok (D : nat -> Prop) (c : core) (P ch : nat) : Prop :=
  P < nN c /\ ch < nN c /\ D P /\ ~ D ch /\ done c P /\ err (nmode c P) = false /\ nmode c ch = nmode c P /\ fresh a ru I0 c ch /\ refines c ch P.
Definition dpend (c : core) : list nat := flat_map snd (c_dwait c).

(** a transition's set is concrete iff its node's set is; a node with a concrete set was made from one transition with a concrete set *)
Definition conc_ok (c : core) : Prop :=
  (forall o M, o < nO c -> o_parent (getO c o) = Some M -> ss_conc (pstate c o) = ss_conc (getS c (n_state (getN c M)))) /\
  (forall N, N < nN c -> ss_conc (getS c (n_state (getN c N))) = true -> exists o, n_parents (getN c N) = [o] /\ ss_conc (pstate c o) = true).
(** [D]: obsolete nodes; [X]: nodes being worked on; [mo]: transitions of a replay that will get a node when it ends *)
Record base (D X : nat -> Prop) (mo : list nat) (c : core) : Prop := {
  b_heap : hok c;
  b_X : forall N, X N -> N < nN c /\ ~ D N;
  b_wait : NoDup (c_wait c) /\ forall o, In o (c_wait c) -> o < nO c /\ o_child (getO c o) = None /\ forall M, o_parent (getO c o) = Some M -> ~ D M;
  b_mo : NoDup mo /\ forall o, In o mo -> o < nO c /\ o_child (getO c o) = None /\ ~ In o (c_wait c) /\ forall M, o_parent (getO c o) = Some M -> ~ D M;
  b_cov : forall o, o < nO c -> o_child (getO c o) = None -> (forall M, o_parent (getO c o) = Some M -> ~ D M) -> In o (c_wait c) \/ In o mo;
  b_d1 : forall o M N, o < nO c -> o_parent (getO c o) = Some M -> D M -> o_child (getO c o) = Some N -> D N;
  b_d2 : forall o N, o < nO c -> o_child (getO c o) = Some N -> D N -> exists M, o_parent (getO c o) = Some M /\ D M;
  b_d3 : forall N o, N < nN c -> ~ D N -> In o (n_parents (getN c N)) -> o_child (getO c o) = Some N;
  b_D : forall N, D N -> N < nN c;
  b_path : forall N, N < nN c -> (2 <= List.length (n_parents (getN c N)) -> forall o, In o (n_parents (getN c N)) -> o_parent (getO c o) <> None) /\
             (dg = true -> forall o o', In o (n_parents (getN c N)) -> In o' (n_parents (getN c N)) -> o_parent (getO c o) = o_parent (getO c o'));
  b_nodes : forall N, N < nN c -> ~ X N -> done c N \/ In N (dpend c);
  b_dw : NoDup (dpend c) /\ (forall N, In N (dpend c) -> ~ X N) /\ forall P chs ch, In (P, chs) (c_dwait c) -> In ch chs -> pair_ok D c P ch;
  b_dw2 : forall P chs, In (P, chs) (c_dwait c) -> D P /\ done c P /\ err (nmode c P) = false;
  b_err : forall o, o < nO c -> o_parent (getO c o) <> None -> err (pmode c o) = true ->
            (ss_conc (pstate c o) = true -> c_concerr c = true) /\ (ss_conc (pstate c o) = false -> c_aggerr c = true);
  b_errch : dg = true -> forall o M, o < nO c -> o_parent (getO c o) = Some M -> err (pmode c o) = true -> ss_conc (pstate c o) = false \/ D M -> o_child (getO c o) = None;
  b_conc : conc_ok c }.

Lemma nop_step_ext c c' x : ext c c' -> (forall o, x = NTr o -> o < nO c) -> nop_step c' x = nop_step c x.
Proof. intros E H. destruct x as [| |o]; cbn [nop_step]; auto. apply (ex_op _ _ E o (H o eq_refl)). Qed.
Lemma ordered_ext c c' N : hok c -> ext c c' -> N < nN c -> n_ops (getN c' N) = n_ops (getN c N) -> ordered c N -> ordered c' N.
Proof.
  intros H E HN Eo. unfold ordered. rewrite Eo. assert (Hl : forall o, In (NTr o) (n_ops (getN c N)) -> o < nO c) by (intros o Ho; apply (h_ntr _ _ _ _ _ H N o HN Ho)).
  revert Hl. generalize (n_ops (getN c N)). intros l Hl Ho. induction Ho as [|x l HF Ho IH]; constructor.
  - apply Forall_forall. intros y Hy. rewrite Forall_forall in HF. destruct (HF y Hy) as [R1 R2].
    assert (Ex : nop_step c' x = nop_step c x) by (apply nop_step_ext; auto; intros o ->; apply Hl; left; auto).
    assert (Ey : nop_step c' y = nop_step c y) by (apply nop_step_ext; auto; intros o ->; apply Hl; right; auto).
    split; [rewrite Ex, Ey; exact R1|]. destruct x; auto. destruct y; auto. cbn [nop_step] in Ey. rewrite Ey. exact R2.
  - apply IH. intros o Hi. apply Hl. right; auto.
Qed.
Lemma done_ext c c' N : hok c -> ext c c' -> N < nN c -> n_ops (getN c' N) = n_ops (getN c N) -> done c N -> done c' N.
Proof.
  intros H E HN Eo (D1 & D2 & D3). split; [|split].
  - unfold left_inv in *. rewrite Eo. exact D1.
  - apply (ordered_ext c c'); auto.
  - intros k t Ht. apply (enabled_ext a ru I0 c c') in Ht; auto; [|apply (heap_closed _ _ _ _ _ H)]. eapply taken_ext; [exact E|exact HN| |apply D3; exact Ht].
    intros o Ho. apply (h_ntr _ _ _ _ _ H N o HN Ho).
Qed.
Lemma fresh_ext c c' N : hok c -> ext c c' -> N < nN c -> n_ops (getN c' N) = n_ops (getN c N) -> getS c' (n_state (getN c N)) = getS c (n_state (getN c N)) \/
    (exists o, getS c' (n_state (getN c N)) = ss_with_lpi (getS c (n_state (getN c N))) (with_obj (ss_lpi (getS c (n_state (getN c N)))) o)) ->
  fresh a ru I0 c N -> fresh a ru I0 c' N.
Proof.
  intros H E HN Eo Es (F1 & F2 & F3 & F4). unfold fresh. destruct (ex_node _ _ E N HN) as [-> _]. rewrite Eo.
  assert (F4' : forall x n, TN c' N 0 x n -> in_lp (ss_lpi (getS c (n_state (getN c N)))) x /\ ss_lo (getS c (n_state (getN c N))) <= n <= ss_hi (getS c (n_state (getN c N)))).
  { intros x n HT. apply F4. revert HT. apply (Tn_ext a ru I0 c c'); auto. apply (heap_closed _ _ _ _ _ H). }
  destruct Es as [->|(o & ->)]; cbn [ss_with_lpi ss_step ss_rows ss_lpi ss_lo ss_hi]; (split; [exact F1|]); (split; [exact F2|]); (split; [exact F3|]); exact F4'.
Qed.
Lemma refines_ext c c' N P : hok c -> ext c c' -> N < nN c -> P < nN c -> refines c N P -> refines c' N P.
Proof.
  intros H E HN HP R k x n HT. pose proof (heap_closed _ _ _ _ _ H) as HC. apply (Tn_ext a ru I0 c c'); auto. apply R. revert HT. apply (Tn_ext a ru I0 c c'); auto.
Qed.
Lemma pair_ext (D D' : nat -> Prop) c c' P ch : hok c -> ext c c' -> n_ops (getN c' P) = n_ops (getN c P) -> n_ops (getN c' ch) = n_ops (getN c ch) ->
  getS c' (n_state (getN c ch)) = getS c (n_state (getN c ch)) \/
    (exists o, getS c' (n_state (getN c ch)) = ss_with_lpi (getS c (n_state (getN c ch))) (with_obj (ss_lpi (getS c (n_state (getN c ch)))) o)) ->
  (forall N, D N -> D' N) -> ~ D' ch -> pair_ok D c P ch -> pair_ok D' c' P ch.
Proof.
  intros H E E1 E2 E3 HD Hch (P1 & P2 & P3 & P4 & P5 & P6 & P7 & P8 & P9). pose proof (ex_nN _ _ E). pose proof (heap_closed _ _ _ _ _ H) as HC.
  split; [lia|]. split; [lia|]. split; [auto|]. split; [auto|]. split; [apply (done_ext c c'); auto|]. rewrite !(nmode_ext c c') by auto.
  split; [exact P6|]. split; [exact P7|]. split; [apply (fresh_ext c c'); auto|apply (refines_ext c c'); auto].
Qed.

Lemma nconc_ext c c' N : hok c -> ext c c' -> N < nN c -> ss_conc (getS c' (n_state (getN c' N))) = ss_conc (getS c (n_state (getN c N))).
Proof. intros H E HN. destruct (ex_node _ _ E N HN) as [-> _]. apply (ex_mode _ _ E). apply (h_nstate _ _ _ _ _ H N HN). Qed.
Lemma pconc_ext c c' o : hok c -> ext c c' -> o < nO c -> ss_conc (pstate c' o) = ss_conc (pstate c o).
Proof. intros H E Ho. unfold pstate. destruct (ex_op _ _ E o Ho) as (_&_&_& ->). apply (ex_mode _ _ E). apply (h_post _ _ _ _ _ H o Ho). Qed.
Lemma conc_old_o c c' o M : hok c -> ext c c' -> conc_ok c -> o < nO c -> o_parent (getO c' o) = Some M -> ss_conc (pstate c' o) = ss_conc (getS c' (n_state (getN c' M))).
Proof.
  intros H E [K1 _] Ho Hp. destruct (ex_op _ _ E o Ho) as (_ & Ep & _). rewrite Ep in Hp. pose proof (h_op _ _ _ _ _ H o Ho) as K. unfold op_ok in K. rewrite Hp in K.
  rewrite (pconc_ext c c' o), (nconc_ext c c' M) by (auto; apply K). apply K1; auto.
Qed.
Lemma conc_old_N c c' N : hok c -> ext c c' -> conc_ok c -> N < nN c -> ss_conc (getS c' (n_state (getN c' N))) = true -> exists o, n_parents (getN c' N) = [o] /\ ss_conc (pstate c' o) = true.
Proof.
  intros H E [_ K2] HN Hc. rewrite (nconc_ext c c' N) in Hc by auto. destruct (K2 N HN Hc) as (o & L1 & L2). exists o. destruct (ex_node _ _ E N HN) as [_ ->]. split; [exact L1|].
  rewrite (pconc_ext c c' o); auto. apply (proj1 (heap_closed _ _ _ _ _ H) N HN). rewrite L1. left; reflexivity.
Qed.

(** ** Updates that add no object: states, operations and transitions of open nodes, flags *)
Lemma base_upd D X mo c c' :
  base D X mo c -> hok c' -> ext c c' -> nN c' = nN c -> nO c' = nO c -> (forall o, o_child (getO c' o) = o_child (getO c o)) ->
  (forall N, N < nN c -> ~ X N -> n_ops (getN c' N) = n_ops (getN c N)) ->
  (forall N, N < nN c -> ~ X N -> getS c' (n_state (getN c N)) = getS c (n_state (getN c N))) ->
  c_wait c' = c_wait c -> c_dwait c' = c_dwait c ->
  (c_aggerr c = true -> c_aggerr c' = true) -> (c_concerr c = true -> c_concerr c' = true) ->
  base D X mo c'.
Proof.
  intros B H' E nN' nO' Ech Eops ES Ew Edw Fa Fc. pose proof (b_heap _ _ _ _ B) as H. pose proof (heap_closed _ _ _ _ _ H) as HC.
  assert (Epp : forall o, o < nO c -> o_parent (getO c' o) = o_parent (getO c o)) by (intros o Ho; apply (ex_op _ _ E o Ho)).
  assert (Epar : forall N, N < nN c -> n_parents (getN c' N) = n_parents (getN c N)) by (intros N HN; apply (ex_node _ _ E N HN)).
  assert (EP : forall o, o < nO c -> pmode c' o = pmode c o) by (intros o Ho; apply pmode_ext; auto; apply (h_post _ _ _ _ _ H o Ho)).
  assert (Ecc : forall o, o < nO c -> ss_conc (pstate c' o) = ss_conc (pstate c o)).
  { intros o Ho. unfold pstate. destruct (ex_op _ _ E o Ho) as (_&_&_& ->). apply (ex_mode _ _ E). apply (h_post _ _ _ _ _ H o Ho). }
  assert (Hpo : forall N o, N < nN c -> In o (n_parents (getN c N)) -> o < nO c) by (intros N o HN Ho; apply (proj1 HC N HN); auto).
  assert (Hdn : forall P, D P -> done c P -> done c' P).
  { intros P HP Hd. assert (HPn := b_D _ _ _ _ B P HP). apply (done_ext c c'); auto. apply Eops; auto. intro HX. apply (b_X _ _ _ _ B) in HX. tauto. }
  constructor; unfold dpend; rewrite ?nN', ?nO', ?Ew, ?Edw.
  - exact H'.
  - apply (b_X _ _ _ _ B).
  - destruct (b_wait _ _ _ _ B) as [K1 K2]. split; [exact K1|]. intros o Ho. destruct (K2 o Ho) as (L1 & L2 & L3). split; [exact L1|]. rewrite Ech, Epp by auto. auto.
  - destruct (b_mo _ _ _ _ B) as [K1 K2]. split; [exact K1|]. intros o Ho. destruct (K2 o Ho) as (L1 & L2 & L3 & L4). split; [exact L1|]. rewrite Ech, Epp by auto. auto.
  - intros o Ho. rewrite Ech, Epp by auto. apply (b_cov _ _ _ _ B o Ho).
  - intros o M N Ho. rewrite Ech, Epp by auto. apply (b_d1 _ _ _ _ B o M N Ho).
  - intros o N Ho. rewrite Ech, Epp by auto. apply (b_d2 _ _ _ _ B o N Ho).
  - intros N o HN. rewrite Ech, Epar by auto. apply (b_d3 _ _ _ _ B N o HN).
  - apply (b_D _ _ _ _ B).
  - intros N HN. rewrite Epar by auto. destruct (b_path _ _ _ _ B N HN) as [K1 K2]. split.
    + intros K o Ho. rewrite Epp by (apply (Hpo N); auto). apply K1; auto.
    + intros K o o' Ho Ho'. rewrite !Epp by (apply (Hpo N); auto). apply K2; auto.
  - intros N HN HX. destruct (b_nodes _ _ _ _ B N HN HX) as [K|K]; [|right; exact K]. left. apply (done_ext c c'); auto.
  - destruct (b_dw _ _ _ _ B) as (K1 & K2 & K3). split; [exact K1|]. split; [exact K2|]. intros P chs ch Hp Hc. specialize (K3 P chs ch Hp Hc).
    assert (HX : ~ X ch). { apply K2. apply in_flat_map. exists (P, chs). auto. }
    assert (K3' := K3). destruct K3' as (L1 & L2 & L3 & L4 & L5). apply (pair_ext D D c c'); auto.
    apply Eops; auto. intro HX'. apply (b_X _ _ _ _ B) in HX'. tauto.
  - intros P chs Hp. destruct (b_dw2 _ _ _ _ B P chs Hp) as (K1 & K2 & K3). split; [exact K1|]. split; [apply Hdn; auto|]. rewrite (nmode_ext c c') by (auto; apply (b_D _ _ _ _ B); auto). exact K3.
  - intros o Ho. rewrite EP, Ecc, Epp by auto. intros K1 K2. destruct (b_err _ _ _ _ B o Ho K1 K2) as [L1 L2]. auto.
  - intros Hd o M Ho. rewrite Ech, EP, Epp, Ecc by auto. apply (b_errch _ _ _ _ B Hd o M Ho).
  - split.
    + intros o M. rewrite nO'. intros Ho Hp. apply (conc_old_o c c'); auto. apply (b_conc _ _ _ _ B).
    + intros N. rewrite nN'. intros HN Hc. apply (conc_old_N c c'); auto. apply (b_conc _ _ _ _ B).
Qed.

(** ** a new transition of an open node *)
Lemma base_add_op D X mo mo' c c' N :
  base D X mo c -> X N -> hok c' -> ext c c' -> nN c' = nN c -> nO c' = S (nO c) ->
  (forall i, i < nS c -> getS c' i = getS c i) -> (forall o, o < nO c -> getO c' o = getO c o) ->
  o_child (getO c' (nO c)) = None -> o_parent (getO c' (nO c)) = Some N ->
  (forall M, M <> N -> n_ops (getN c' M) = n_ops (getN c M)) ->
  (c_wait c' = c_wait c ++ [nO c] /\ mo' = mo \/ c_wait c' = c_wait c /\ Permutation (nO c :: mo) mo') ->
  c_dwait c' = c_dwait c ->
  (c_aggerr c = true -> c_aggerr c' = true) -> (c_concerr c = true -> c_concerr c' = true) ->
  (err (pmode c' (nO c)) = true -> (ss_conc (pstate c' (nO c)) = true -> c_concerr c' = true) /\ (ss_conc (pstate c' (nO c)) = false -> c_aggerr c' = true)) ->
  ss_conc (pstate c' (nO c)) = ss_conc (getS c' (n_state (getN c' N))) ->
  base D X mo' c'.
Proof.
  intros B HXN H' E nN' nO' gS gO Hch Hpar Eops Hw Edw Fa Fc Herr Hcnc. pose proof (b_heap _ _ _ _ B) as H. pose proof (heap_closed _ _ _ _ _ H) as HC.
  assert (Epar : forall M, M < nN c -> n_parents (getN c' M) = n_parents (getN c M)) by (intros M HM; apply (ex_node _ _ E M HM)).
  assert (EP : forall o, o < nO c -> pmode c' o = pmode c o) by (intros o Ho; apply pmode_ext; auto; apply (h_post _ _ _ _ _ H o Ho)).
  assert (Epo : forall o, o < nO c -> pstate c' o = pstate c o) by (intros o Ho; unfold pstate; rewrite gO by auto; apply gS; apply (h_post _ _ _ _ _ H o Ho)).
  assert (Hpo : forall M o, M < nN c -> In o (n_parents (getN c M)) -> o < nO c) by (intros M o HM Ho; apply (proj1 HC M HM); auto).
  destruct (b_X _ _ _ _ B N HXN) as [HN HDN].
  assert (Hs : forall o, o < S (nO c) -> o < nO c \/ o = nO c) by (intros; lia).
  assert (HopsX : forall M, ~ X M -> n_ops (getN c' M) = n_ops (getN c M)) by (intros M HM; apply Eops; intros ->; auto).
  assert (HDX : forall M, D M -> ~ X M) by (intros M HM HX; apply (b_X _ _ _ _ B) in HX; tauto).
  destruct (b_wait _ _ _ _ B) as [W1 W2]. destruct (b_mo _ _ _ _ B) as [O1 O2].
  assert (Hnw : ~ In (nO c) (c_wait c)) by (intro K; apply W2 in K; lia). assert (Hnm : ~ In (nO c) mo) by (intro K; apply O2 in K; lia).
  assert (Wnew : forall o, In o (c_wait c') -> In o (c_wait c) \/ o = nO c).
  { intros o Ho. destruct Hw as [[Ew _]|[Ew _]]; rewrite Ew in Ho; [|auto]. apply in_app_or in Ho as [Ho|[Ho|[]]]; auto. }
  assert (Mnew : forall o, In o mo' -> In o mo \/ o = nO c).
  { intros o Ho. destruct Hw as [[_ ->]|[_ Hp]]; [auto|]. apply (Permutation_in _ (Permutation_sym Hp)) in Ho as [Ho|Ho]; auto. }
  constructor; unfold dpend; rewrite ?nN', ?nO', ?Edw.
  - exact H'.
  - apply (b_X _ _ _ _ B).
  - split.
    + destruct Hw as [[-> _]|[-> _]]; [|exact W1]. apply (Permutation_NoDup (Permutation_cons_append _ _)). constructor; auto.
    + intros o Ho. destruct (Wnew o Ho) as [K| ->].
      * destruct (W2 o K) as (L1 & L2 & L3). rewrite gO by auto. split; [lia|auto].
      * split; [lia|]. split; [exact Hch|]. intros M HM. rewrite Hpar in HM. injection HM as <-. exact HDN.
  - split.
    + destruct Hw as [[_ ->]|[_ Hp]]; [exact O1|]. apply (Permutation_NoDup Hp). constructor; auto.
    + intros o Ho. destruct (Mnew o Ho) as [K| ->].
      * destruct (O2 o K) as (L1 & L2 & L3 & L4). rewrite gO by auto. split; [lia|]. split; [exact L2|]. split; [|exact L4]. intro K'. destruct (Wnew o K') as [K2| ->]; [auto|lia].
      * split; [lia|]. split; [exact Hch|]. split; [|intros M HM; rewrite Hpar in HM; injection HM as <-; exact HDN].
        intro K. destruct Hw as [[_ Em]|[Ew _]]; [rewrite Em in Ho; auto|rewrite Ew in K; auto].
  - intros o Ho Hc Hd. destruct (Hs o Ho) as [K| ->].
    + rewrite gO in Hc, Hd by auto. destruct (b_cov _ _ _ _ B o K Hc Hd) as [L|L].
      * left. destruct Hw as [[-> _]|[-> _]]; [apply in_or_app; auto|auto].
      * right. destruct Hw as [[_ ->]|[_ Hp]]; [auto|]. apply (Permutation_in _ Hp). right; auto.
    + destruct Hw as [[-> _]|[_ Hp]]; [left; apply in_or_app; right; left; auto|right; apply (Permutation_in _ Hp); left; auto].
  - intros o M K Ho HM HD Hc. destruct (Hs o Ho) as [L| ->]; [rewrite gO in HM, Hc by auto; apply (b_d1 _ _ _ _ B o M K); auto|congruence].
  - intros o M Ho Hc HD. destruct (Hs o Ho) as [L| ->]; [rewrite gO in * by auto; apply (b_d2 _ _ _ _ B o M); auto|congruence].
  - intros M o HM HD Ho. rewrite Epar in Ho by auto. rewrite gO by (apply (Hpo M); auto). apply (b_d3 _ _ _ _ B M o HM HD Ho).
  - apply (b_D _ _ _ _ B).
  - intros M HM. rewrite Epar by auto. destruct (b_path _ _ _ _ B M HM) as [K1 K2]. split.
    + intros K o Ho. rewrite gO by (apply (Hpo M); auto). apply K1; auto.
    + intros K o o' Ho Ho'. rewrite !gO by (apply (Hpo M); auto). apply K2; auto.
  - intros M HM HX. destruct (b_nodes _ _ _ _ B M HM HX) as [K|K]; [|right; exact K]. left. apply (done_ext c c'); auto.
  - destruct (b_dw _ _ _ _ B) as (K1 & K2 & K3). split; [exact K1|]. split; [exact K2|]. intros P chs ch Hp Hc. specialize (K3 P chs ch Hp Hc).
    assert (HX : ~ X ch). { apply K2. apply in_flat_map. exists (P, chs). auto. }
    assert (K3' := K3). destruct K3' as (L1 & L2 & L3 & L4 & L5). apply (pair_ext D D c c'); auto. left. apply gS. apply (h_nstate _ _ _ _ _ H); auto.
  - intros P chs Hp. destruct (b_dw2 _ _ _ _ B P chs Hp) as (K1 & K2 & K3). assert (HP := b_D _ _ _ _ B P K1). split; [exact K1|]. split; [apply (done_ext c c'); auto|]. rewrite (nmode_ext c c') by auto. exact K3.
  - intros o Ho K1 K2. destruct (Hs o Ho) as [L| ->].
    + rewrite EP, Epo, gO in * by auto. destruct (b_err _ _ _ _ B o L K1 K2). auto.
    + apply Herr. exact K2.
  - intros Hd o M Ho K1 K2. destruct (Hs o Ho) as [L| ->]; [|intros _; exact Hch]. rewrite EP, Epo, gO in * by auto. apply (b_errch _ _ _ _ B Hd o M L); auto.
  - split.
    + intros o M. rewrite nO'. intros Ho Hp. destruct (Hs o Ho) as [L| ->]; [apply (conc_old_o c c'); auto; apply (b_conc _ _ _ _ B)|]. rewrite Hpar in Hp. injection Hp as <-. exact Hcnc.
    + intros M. rewrite nN'. intros HM Hc. apply (conc_old_N c c'); auto. apply (b_conc _ _ _ _ B).
Qed.

(** ** a new node for waiting transitions *)
Lemma hok_wait c w : hok c -> hok (with_wait c w).
Proof. apply heap_same; reflexivity. Qed.
Variable arnoldi : nat -> option (list Q) -> csr -> option csr -> nat -> list (list Q).
Lemma make_node_conc c ops agg str c' nid : ops <> [] -> (forall o, In o ops -> o_post (getO c o) < nS c) -> make_node solve arnoldi a c ops agg str = Ok (c', nid) ->
  ss_conc (getS c' (n_state (getN c' nid))) = true -> exists o, ops = [o] /\ ss_conc (pstate c o) = true.
Proof.
  intros Hne Hl H. unfold make_node in H. apply bind_ok in H as ([c1 sid] & H1 & H).
  match type of H with context [setS c1 sid ?s] => set (s0 := s) in H end. set (c2 := setS c1 sid s0) in *. cbn zeta in H.
  match type of H with context [fold_left ?f ops c2] => set (c3 := fold_left f ops c2) in H end.
  assert (Es : c_states c3 = c_states c2 /\ c_nodes c3 = c_nodes c2) by (destruct (set_childs_spec ops (List.length (c_nodes c2)) c2) as (K1 & K2 & _); split; [exact K1|exact K2]).
  assert (G : getN c' nid = mkNode [] sid ops agg /\ c_states c' = c_states c2).
  { apply cok_inj in H. apply pair_equal_spec in H as [<- <-]. destruct Es as [Es1 Es2]. split.
    - transitivity (nth (List.length (c_nodes c2)) (c_nodes c3 ++ [mkNode [] sid ops agg]) (mkNode [] 0 [] None)).
      + unfold getN. destruct (existsb _ ops); reflexivity.
      + rewrite Es2. rewrite app_nth2 by lia. rewrite Nat.sub_diag. reflexivity.
    - rewrite <- Es1. destruct (existsb _ ops); reflexivity. }
  destruct G as [G1 G2]. rewrite G1. ccbn. replace (getS c' sid) with (getS c2 sid) by (unfold getS; rewrite G2; reflexivity).
  assert (Hagg : aggregate_states solve arnoldi a c ops agg = aggregate_states solve arnoldi a c ops agg) by reflexivity.
  destruct ops as [|o [|o2 ops]]; [congruence| |].
  - apply cok_inj in H1. apply pair_equal_spec in H1 as [<- <-]. intro Hc. exists o. split; [reflexivity|]. unfold c2 in Hc. rewrite getS_set_eq in Hc by (apply Hl; left; reflexivity). exact Hc.
  - intro Hc. exfalso. apply bind_ok in H1 as ([c1' s] & H1 & H2). apply cok_inj in H2. apply pair_equal_spec in H2 as [<- <-].
    assert (K : ss_conc s = false).
    { unfold aggregate_states in H1. destruct agg as [[[] gd]|]; [| | |discriminate H1].
      1-2: destruct (m_a _) as [x|]; [|discriminate H1]; apply bind_ok in H1 as (d & _ & H1); apply bind_ok in H1 as (r & _ & H1).
      3: apply bind_ok in H1 as (l & _ & H1).
      all: apply bind_ok in H1 as (s1 & H1 & H3); apply cok_inj in H3; apply pair_equal_spec in H3 as [_ <-]; apply new_stateset_mode in H1; apply H1. }
    unfold c2 in Hc. rewrite getS_set_eq in Hc by (ccbn; rewrite app_length; cbn [List.length]; lia).
    assert (K2 : s0.(ss_conc) = false). { unfold s0. cbn [ss_conc]. rewrite getS_add, Nat.eqb_refl. exact K. }
    congruence.
Qed.
Lemma base_make_node D X mo mo' w' c ops agg str c' nid :
  base D X mo c -> make_node solve arnoldi a (with_wait c w') ops agg str = Ok (c', nid) ->
  (forall o, In o ops -> In o (c_wait c) \/ In o mo) -> NoDup ops -> (forall o, In o ops -> pmode c o = pmode c (nth 0 ops 0)) ->
  NoDup w' -> NoDup mo' -> (forall o, In o w' <-> In o (c_wait c) /\ ~ In o ops) -> (forall o, In o mo' <-> In o mo /\ ~ In o ops) ->
  (2 <= List.length ops -> forall o, In o ops -> o_parent (getO c o) <> None) ->
  (dg = true -> forall o o', In o ops -> In o' ops -> o_parent (getO c o) = o_parent (getO c o')) ->
  (dg = true -> forall o, In o ops -> o_parent (getO c o) <> None -> err (pmode c o) = true -> ss_conc (pstate c o) = true) ->
  ops <> [] /\ nid = nN c /\ base D (fun N => X N \/ N = nid) mo' c' /\ ext c c' /\ nN c' = S (nN c) /\ nO c' = nO c /\ n_parents (getN c' nid) = ops /\ fresh a ru I0 c' nid /\
  (forall n, n < nN c -> getN c' n = getN c n) /\ nmode c' nid = pmode c (nth 0 ops 0) /\
  (forall o, In o ops -> o_child (getO c' o) = Some nid) /\ (forall o, ~ In o ops -> o_child (getO c' o) = o_child (getO c o)) /\
  (forall N, N < nN c -> getS c' (n_state (getN c N)) = getS c (n_state (getN c N)) \/ exists o, getS c' (n_state (getN c N)) = ss_with_lpi (getS c (n_state (getN c N))) (with_obj (ss_lpi (getS c (n_state (getN c N)))) o)) /\
  same_ctl (with_wait c w') c'.
Proof.
  intros B Hmk Hin HND HMd HNw HNm Hw Hm Hp1 Hp2 Hp3. pose proof (b_heap _ _ _ _ B) as H. pose proof (heap_closed _ _ _ _ _ H) as HC.
  destruct (b_wait _ _ _ _ B) as [W1 W2]. destruct (b_mo _ _ _ _ B) as [O1 O2].
  assert (Hops : forall o, In o ops -> o < nO c /\ o_child (getO c o) = None /\ forall M, o_parent (getO c o) = Some M -> ~ D M).
  { intros o Ho. destruct (Hin o Ho) as [K|K]; [apply W2 in K; exact K|apply O2 in K as (K1 & K2 & _ & K4); auto]. }
  destruct (heap_make_node solve Hsolve arnoldi a WH ru I0 (with_wait c w') ops agg str c' nid (hok_wait c w' H)) as (Hne & Hnid & H' & E0 & nN' & nO' & Hpar & Hfr & gN & gch & gch' & gp & Hmn & gS & SC); auto.
  { intros o Ho. destruct (Hops o Ho) as (K1 & K2 & _). split; [exact K1|]. intros N HN. change (o_child (getO c o) = Some N) in HN. congruence. }
  assert (E : ext c c') by (eapply ext_trans; [apply (ext_same c (with_wait c w')); reflexivity|exact E0]).
  change (nN (with_wait c w')) with (nN c) in *. change (nO (with_wait c w')) with (nO c) in *. change (nS (with_wait c w')) with (nS c) in *.
  assert (gN' : forall n, n < nN c -> getN c' n = getN c n) by exact gN. clear gN.
  assert (gch2 : forall o, ~ In o ops -> o_child (getO c' o) = o_child (getO c o)) by exact gch'. clear gch'.
  assert (gp' : forall o, o_parent (getO c' o) = o_parent (getO c o)) by exact gp. clear gp.
  assert (EP : forall o, o < nO c -> pmode c' o = pmode c o) by (intros o Ho; apply pmode_ext; auto; apply (h_post _ _ _ _ _ H o Ho)).
  assert (Ecc : forall o, o < nO c -> ss_conc (pstate c' o) = ss_conc (pstate c o)).
  { intros o Ho. unfold pstate. destruct (ex_op _ _ E o Ho) as (_&_&_& ->). apply (ex_mode _ _ E). apply (h_post _ _ _ _ _ H o Ho). }
  assert (Hpo : forall M o, M < nN c -> In o (n_parents (getN c M)) -> o < nO c) by (intros M o HM Ho; apply (proj1 HC M HM); auto).
  assert (HnD : ~ D nid) by (intro K; apply (b_D _ _ _ _ B) in K; lia).
  assert (HSt : forall N, N < nN c -> getS c' (n_state (getN c N)) = getS c (n_state (getN c N)) \/ exists o, getS c' (n_state (getN c N)) = ss_with_lpi (getS c (n_state (getN c N))) (with_obj (ss_lpi (getS c (n_state (getN c N)))) o)).
  { intros N HN. apply (gS (n_state (getN c N))); [apply (h_nstate _ _ _ _ _ H N HN)|]. intros o Ho K. change (n_state (getN c N) = o_post (getO c o)) in K. destruct (Hops o Ho) as (K1 & K2 & _).
    destruct (state_used solve a ru I0 c N o H HN K1 K) as [_ K3]. congruence. }
  split; [exact Hne|]. split; [exact Hnid|]. split.
  { assert (Hwait : c_wait c' = w') by (apply (sc_wait _ _ SC)). assert (Hdw : c_dwait c' = c_dwait c) by (apply (sc_dwait _ _ SC)).
    constructor; unfold dpend; rewrite ?nN', ?nO', ?Hwait, ?Hdw.
    - exact H'.
    - intros N [HX| ->]; [destruct (b_X _ _ _ _ B N HX); split; [lia|auto]|split; [lia|exact HnD]].
    - split; [exact HNw|]. intros o Ho. apply Hw in Ho as [K1 K2]. destruct (W2 o K1) as (L1 & L2 & L3). rewrite gch2, gp' by auto. auto.
    - split; [exact HNm|]. intros o Ho. apply Hm in Ho as [K1 K2]. destruct (O2 o K1) as (L1 & L2 & L3 & L4). rewrite gch2, gp' by auto. split; [auto|]. split; [auto|]. split; [|auto].
      intro K. apply Hw in K. tauto.
    - intros o Ho Hc Hd. rewrite gp' in Hd. destruct (in_dec Nat.eq_dec o ops) as [Hi|Hi]; [rewrite (gch o Hi) in Hc; discriminate|]. rewrite gch2 in Hc by auto.
      destruct (b_cov _ _ _ _ B o Ho Hc Hd) as [K|K]; [left; apply Hw; auto|right; apply Hm; auto].
    - intros o M N Ho HM HD Hc. rewrite gp' in HM. destruct (in_dec Nat.eq_dec o ops) as [Hi|Hi]; [exfalso; destruct (Hops o Hi) as (_ & _ & K); exact (K M HM HD)|].
      rewrite gch2 in Hc by auto. apply (b_d1 _ _ _ _ B o M N); auto.
    - intros o N Ho Hc HD. rewrite gp'. destruct (in_dec Nat.eq_dec o ops) as [Hi|Hi]; [rewrite (gch o Hi) in Hc; injection Hc as <-; contradiction|].
      rewrite gch2 in Hc by auto. apply (b_d2 _ _ _ _ B o N); auto.
    - intros N o HN HD Ho. destruct (Nat.eq_dec N nid) as [->|Hne']; [rewrite Hpar in Ho; apply gch; auto|]. assert (HN' : N < nN c) by lia. rewrite gN' in Ho by auto.
      assert (K := b_d3 _ _ _ _ B N o HN' HD Ho). rewrite gch2; [exact K|]. intro Hi. destruct (Hops o Hi) as (_ & K2 & _). congruence.
    - intros N HD. apply (b_D _ _ _ _ B) in HD. lia.
    - intros N HN. destruct (Nat.eq_dec N nid) as [->|Hne'].
      + rewrite Hpar. split; [intros K o Ho; rewrite gp'; apply Hp1; auto|]. intros K o o' Ho Ho'. rewrite !gp'. apply Hp2; auto.
      + assert (HN' : N < nN c) by lia. rewrite gN' by auto. destruct (b_path _ _ _ _ B N HN') as [K1 K2]. split; [intros K o Ho; rewrite gp'; apply K1; auto|]. intros K o o' Ho Ho'. rewrite !gp'. apply K2; auto.
    - intros N HN HX. assert (HN' : N < nN c) by (destruct (Nat.eq_dec N nid) as [->|]; [exfalso; apply HX; auto|lia]).
      destruct (b_nodes _ _ _ _ B N HN') as [K|K]; [tauto| |right; exact K]. left. apply (done_ext c c'); auto. rewrite gN'; auto.
    - destruct (b_dw _ _ _ _ B) as (K1 & K2 & K3). split; [exact K1|]. split.
      + intros N HN [HX|HX]; [exact (K2 N HN HX)|]. apply in_flat_map in HN as ([P chs] & HPin & Hch). destruct (K3 P chs N HPin Hch) as (_ & L2 & _). lia.
      + intros P chs ch Hpin Hc. specialize (K3 P chs ch Hpin Hc). assert (K3' := K3). destruct K3' as (L1 & L2 & L3 & L4 & L5). apply (pair_ext D D c c'); auto; rewrite gN'; auto.
    - intros P chs Hp. destruct (b_dw2 _ _ _ _ B P chs Hp) as (K1 & K2 & K3). assert (HP := b_D _ _ _ _ B P K1). split; [exact K1|]. split; [apply (done_ext c c'); auto; rewrite gN'; auto|]. rewrite (nmode_ext c c') by auto. exact K3.
    - intros o Ho. rewrite EP, Ecc, gp' by auto. intros K1 K2. rewrite (sc_conc _ _ SC), (sc_agg _ _ SC). apply (b_err _ _ _ _ B o Ho K1 K2).
    - intros Hd o M Ho. rewrite EP, gp', Ecc by auto. intros K1 K2 K4. assert (K := b_errch _ _ _ _ B Hd o M Ho K1 K2 K4). destruct (in_dec Nat.eq_dec o ops) as [Hi|Hi]; [|rewrite gch2; auto].
      exfalso. assert (K3 := Hp3 Hd o Hi ltac:(congruence) K2). destruct K4 as [K4|K4]; [congruence|]. destruct (Hops o Hi) as (_ & _ & K5). exact (K5 M K1 K4).
    - split.
      + intros o M. rewrite nO'. intros Ho Hp. apply (conc_old_o c c'); auto. apply (b_conc _ _ _ _ B).
      + intros N. rewrite nN'. intros HN Hc. destruct (Nat.eq_dec N nid) as [->|Hne']; [|apply (conc_old_N c c'); auto; [apply (b_conc _ _ _ _ B)|lia]].
        rewrite Hpar. destruct (make_node_conc (with_wait c w') ops agg str c' nid Hne (fun o Ho => h_post _ _ _ _ _ H o (proj1 (Hops o Ho))) Hmk Hc) as (o & L1 & L2). exists o. split; [exact L1|].
        change (pstate (with_wait c w') o) with (pstate c o) in L2. rewrite Ecc; [exact L2|]. apply Hops. rewrite L1. left; reflexivity. }
  split; [exact E|]. split; [exact nN'|]. split; [exact nO'|]. split; [exact Hpar|]. split; [exact Hfr|]. split; [exact gN'|]. split; [exact Hmn|]. split; [exact gch|]. split; [exact gch2|]. split; [exact HSt|exact SC].
Qed.

(** ** an open node is finished *)
Lemma base_close (D X X' : nat -> Prop) mo c : base D X mo c -> (forall N, X' N -> X N) -> (forall N, N < nN c -> ~ X' N -> ~ X N \/ done c N) -> base D X' mo c.
Proof.
  intros B HX HC. constructor; try solve [apply B].
  - intros N HN. apply (b_X _ _ _ _ B). auto.
  - intros N HN HX'. destruct (HC N HN HX') as [K|K]; [apply (b_nodes _ _ _ _ B N HN K)|left; exact K].
  - destruct (b_dw _ _ _ _ B) as (K1 & K2 & K3). split; [exact K1|]. split; [|exact K3]. intros N HN HX'. apply (K2 N HN). auto.
Qed.
End Inv.
