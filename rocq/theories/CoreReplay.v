(** Replaying the operations of an obsolete node in the nodes that replace it. *)
From Coq Require Import Permutation.
From Verif Require Import Base BaseFacts LpModel LpSpec SetSpec LpUtil LpFacts ChullFacts ApiSpec ApiFacts Automaton StateSet HybridSpec FlowFacts StateSpec
  StateFacts StateFacts2 StateFacts3 BuildFacts CoreModel HeapFacts CoreOps CoreGhost CoreHeap CoreInv CoreStep CoreCont CorePop.
Open Scope nat_scope.

Section Replay.
Variable solve : solver.
Hypothesis Hsolve : solver_ok solve.
Variable cf : cfg.
Variable a : ha.
Hypothesis WH : wf_ha a.
Hypothesis Hinp : forall m, m < List.length (ha_modes a) -> m_b (get_mode a m) <> None -> m_inv (get_mode a m) = [].
Variable ru : rules.
Variable I0 : nat -> vec -> Prop.
Notation TN := (Tn a ru I0).
Notation TO := (To a ru I0).
Notation hok := (heap_ok solve a ru I0).
Notation enab := (enabled a ru I0).
Notation base := (base solve cf a ru I0).
Notation active := (active a ru I0).
Notation done := (done a ru I0).
Notation err := (err a).
Notation dg := (dg cf).
Notation refines := (refines a ru I0).

(** a child that takes part in the replay, [rest] being the operations still to be replayed *)
Record child_act (c : core) (ch : nat) (rest : list nop) (filt : Prop) : Prop := {
  ca_act : active c ch filt;
  ca_step : forall y, In y rest -> ss_step (nst c ch) <= nop_step c y;
  ca_filt : filt -> forall o, In (NTr o) rest -> ss_step (nst c ch) < o_step (getO c o) \/ ss_step (nst c ch) = 0;
  ca_enab : forall k t, enab c ch k t -> taken c ch k t \/ exists o, In (NTr o) rest /\ o_step (getO c o) = k /\ o_trans (getO c o) = Some t;
  ca_last : exists k b, In (NLeft k b) rest }.
Definition child_st (c : core) (ch : nat) (rest : list nop) : Prop := done c ch \/ exists filt, child_act c ch rest filt.
Record child_ok (c : core) (P : nat) (rest : list nop) (ch : nat) : Prop := {
  co_N : ch < nN c; co_mode : nmode c ch = nmode c P; co_ref : refines c ch P; co_st : child_st c ch rest }.

Definition rest_ok (c : core) (rest : list nop) : Prop := forall o, In (NTr o) rest -> o < nO c.

Lemma child_act_ext c c' ch rest filt : hok c -> ext c c' -> rest_ok c rest -> n_ops (getN c' ch) = n_ops (getN c ch) -> nst c' ch = nst c ch -> child_act c ch rest filt -> child_act c' ch rest filt.
Proof.
  intros H E Hr E1 E2 [A1 A2 A3 A4 A5]. pose proof (heap_closed _ _ _ _ _ H) as HC. assert (HN : ch < nN c) by apply A1.
  assert (EO : forall o, In (NTr o) rest -> o_step (getO c' o) = o_step (getO c o) /\ o_trans (getO c' o) = o_trans (getO c o)).
  { intros o Ho. destruct (ex_op _ _ E o (Hr o Ho)) as (K1 & _ & K3 & _). auto. }
  constructor; auto.
  - apply (active_ext solve a ru I0 c c'); auto.
  - intros y Hy. rewrite E2, (nop_step_ext c c'); auto. intros o ->. auto.
  - intros Hf o Ho. rewrite E2. destruct (EO o Ho) as [-> _]. auto.
  - intros k t He. apply (enabled_ext a ru I0 c c') in He; auto. destruct (A4 k t He) as [K|(o & K1 & K2 & K3)]; [left|right].
    + eapply taken_ext; eauto. intros o Ho. apply (h_ntr _ _ _ _ _ H ch o HN Ho).
    + exists o. destruct (EO o K1) as [-> ->]. auto.
Qed.
Lemma child_ok_ext c c' P ch rest : hok c -> ext c c' -> rest_ok c rest -> P < nN c -> n_ops (getN c' ch) = n_ops (getN c ch) -> nst c' ch = nst c ch -> child_ok c P rest ch -> child_ok c' P rest ch.
Proof.
  intros H E Hr HP E1 E2 [K1 K2 K3 K4]. pose proof (heap_closed _ _ _ _ _ H) as HC. pose proof (ex_nN _ _ E). constructor.
  - lia.
  - rewrite !(nmode_ext c c') by auto. exact K2.
  - apply (refines_ext solve a ru I0 c c'); auto.
  - destruct K4 as [K4|(filt & K4)]; [left|right; exists filt].
    + apply (done_ext solve a ru I0 c c'); auto.
    + apply (child_act_ext c c'); auto.
Qed.

(** ** leaving the invariant *)
(** nothing can happen after step k of a node whose set is empty inside the invariant *)
Lemma empty_no c ch s : (forall x n, TN c ch s x n -> ~ inv_ok 0 (get_mode a (nmode c ch)) x) ->
  forall k t, s < k \/ (s = 0 /\ k = 0) -> ~ enab c ch k t.
Proof.
  intros Hno k t Hk (x & n & HT & _ & _ & _ & Hj). destruct Hk as [Hk|[-> ->]].
  - replace k with (s + (k - s)) in HT by lia. apply Tn_back in HT as (x0 & n0 & _ & HT & _ & Hp & _). apply (Hno x0 n0 HT). apply Hp. lia.
  - destruct Hj as [[Hj|[_ Hj]] _]; [lia|]. exact (Hno x n HT Hj).
Qed.

Lemma child_leave D X mo c ch rest filt k b : base D X mo c -> X ch -> child_act c ch rest filt -> ss_step (nst c ch) <= k ->
  (forall o t, In (NTr o) rest -> o_trans (getO c o) = Some t -> ~ enab c ch (o_step (getO c o)) t) ->
  let c' := push_op c ch (NLeft k b) in base D X mo c' /\ frame ch c c' /\ done c' ch.
Proof.
  intros B HX A Hk Hno c'. pose proof (b_heap _ _ _ _ _ _ _ _ _ B) as H. pose proof (heap_closed _ _ _ _ _ H) as HC.
  destruct (open_push solve cf a ru I0 D X mo c ch (NLeft k b) B HX ltac:(discriminate)) as (B' & F & _ & Eo & _). fold c' in B', F, Eo.
  pose proof (ac_N _ _ _ _ _ _ (ca_act _ _ _ _ A)) as HN.
  split; [exact B'|]. split; [exact F|]. split; [|split].
  - unfold c'. rewrite left_inv_push, Nat.eqb_refl by auto. reflexivity.
  - unfold ordered. rewrite Eo. apply FOP_snoc; [apply (ac_ord _ _ _ _ _ _ (ca_act _ _ _ _ A))|]. intros y Hy. destruct (ac_ops _ _ _ _ _ _ (ca_act _ _ _ _ A) y Hy) as (K1 & K2 & _).
    split; [cbn [nop_step]; eapply Nat.le_trans; [exact K1|exact Hk]|]. destruct y; auto. discriminate.
  - intros k' t He. apply (enabled_ext a ru I0 c c') in He; auto; [|apply F]. eapply taken_ext; [apply F|exact HN|intros o Ho; apply (h_ntr _ _ _ _ _ H ch o HN Ho)|].
    destruct (ca_enab _ _ _ _ A k' t He) as [K|(o & K1 & K2 & K3)]; [exact K|]. exfalso. rewrite <- K2 in He. exact (Hno o t K1 K3 He).
Qed.

(** ** stepping a child *)
Lemma child_step D X mo c ch rest filt k s1 : base D X mo c -> X ch -> rest_ok c rest -> child_act c ch rest filt -> (forall y, In y rest -> k <= nop_step c y) -> ss_step_to a (nst c ch) k = Ok s1 ->
  let c' := setS c (n_state (getN c ch)) s1 in
  base D X mo c' /\ frame ch c c' /\ child_act c' ch rest (filt /\ k = ss_step (nst c ch)) /\ nst c' ch = s1 /\ ss_step s1 = k /\ nO c' = nO c /\ n_ops (getN c' ch) = n_ops (getN c ch).
Proof.
  intros B HX Hr A Hk Hs c'. destruct (open_step solve Hsolve cf a WH Hinp ru I0 D X mo c ch filt k s1 B HX (ca_act _ _ _ _ A) Hs) as (B' & F & A' & En & Eo & Hle & Es & Ew & EO). fold c' in B', F, A', En, Eo, Ew, EO.
  pose proof (b_heap _ _ _ _ _ _ _ _ _ B) as H. pose proof (heap_closed _ _ _ _ _ H) as HC. pose proof (ac_N _ _ _ _ _ _ (ca_act _ _ _ _ A)) as HN.
  assert (EOp : forall o, getO c' o = getO c o) by reflexivity.
  split; [exact B'|]. split; [exact F|]. split; [|auto]. constructor; auto.
  - intros y Hy. rewrite En, Es. rewrite (nop_step_ext c c'); auto; [apply F|intros o ->; auto].
  - intros [Hf Ek] o Ho. rewrite En, Es, EOp, Ek. apply (ca_filt _ _ _ _ A Hf o Ho).
  - intros k' t He. apply (enabled_ext a ru I0 c c') in He; auto; [|apply F]. destruct (ca_enab _ _ _ _ A k' t He) as [K|(o & K1 & K2 & K3)]; [left|right].
    + eapply taken_ext; [apply F|exact HN| |exact K]. intros o Ho. apply (h_ntr _ _ _ _ _ H ch o HN Ho).
    + exists o. rewrite EOp. auto.
  - apply A.
Qed.

(** ** a child intersected with an invariant condition *)
Lemma ord_tail c x rest : ForallOrdPairs (ord_rel c) (x :: rest) -> forall y, In y rest -> ord_rel c x y.
Proof. intros H y Hy. inversion H as [|? ? HF _]; subst. rewrite Forall_forall in HF. auto. Qed.
Lemma child_tail c ch x rest filt : child_act c ch (x :: rest) filt -> (forall o, x <> NTr o) -> is_left x = false -> child_act c ch rest filt.
Proof.
  intros [A1 A2 A3 A4 A5] Hx Hl. constructor; auto.
  - intros y Hy. apply A2. right; auto.
  - intros Hf o Ho. apply (A3 Hf). right; auto.
  - intros k t He. destruct (A4 k t He) as [K|(o & [K|K] & K')]; [auto|exfalso; exact (Hx o K)|right; eauto].
  - destruct A5 as (k & b & [K|K]); [rewrite K in Hl; discriminate|eauto].
Qed.

Lemma child_set D X mo c ch rest (filt filt' : Prop) s' : base D X mo c -> X ch -> rest_ok c rest -> child_act c ch rest filt -> good_state solve a s' -> same_frame (nst c ch) s' ->
  (filt -> filt') -> (forall p, in_lp (ss_lpi (nst c ch)) p -> (filt' -> inv_ok 0 (get_mode a (nmode c ch)) p) -> in_lp (ss_lpi s') p) ->
  (filt' -> forall o, In (NTr o) rest -> ss_step (nst c ch) < o_step (getO c o) \/ ss_step (nst c ch) = 0) ->
  let c' := setS c (n_state (getN c ch)) s' in
  base D X mo c' /\ frame ch c c' /\ child_act c' ch rest filt' /\ nst c' ch = s' /\ nO c' = nO c /\ n_ops (getN c' ch) = n_ops (getN c ch).
Proof.
  intros B HX Hr A HG SF Hff Hin Hft c'. destruct SF as (Q1 & Q2 & Q3 & Q4 & Q5 & Q6 & Q7 & Q8 & Q9).
  destruct (open_set solve cf a ru I0 D X mo c ch s' B HX HG ltac:(exact Q1) Q5) as (B' & F & En & Eo & Ew & EO). fold c' in B', F, En, Eo, Ew, EO.
  pose proof (b_heap _ _ _ _ _ _ _ _ _ B) as H. pose proof (heap_closed _ _ _ _ _ H) as HC. pose proof (ac_N _ _ _ _ _ _ (ca_act _ _ _ _ A)) as HN.
  assert (EM : nmode c' ch = nmode c ch) by (apply nmode_ext; auto; apply F).
  assert (EOp : forall o, getO c' o = getO c o) by reflexivity.
  split; [exact B'|]. split; [exact F|]. split; [|auto]. destruct A as [A0 A2 A3 A4 A5]. constructor.
  - apply (active_weak a ru I0 c ch filt filt' Hff) in A0 as A1. constructor.
    + exact HN.
    + rewrite EM. apply A0.
    + apply (ordered_ext solve a ru I0 c c'); auto; [apply F|apply A0].
    + intros y Hy. rewrite Eo in Hy. rewrite En, Q2. rewrite (nop_step_ext c c'); [apply (ac_ops _ _ _ _ _ _ A1 y Hy)|apply F|]. intros o ->. apply (h_ntr _ _ _ _ _ H ch o HN Hy).
    + rewrite En, Q2, EM, Q3, Q4. intros p n HT Hf. assert (HT' : TN c ch (ss_step (nst c ch)) p n) by (revert HT; apply (Tn_ext a ru I0 c c'); auto; apply F).
      destruct (ac_cov _ _ _ _ _ _ A0 p n HT') as [K1 K2]; [auto|]. auto.
  - intros y Hy. rewrite En, Q2. rewrite (nop_step_ext c c'); auto; [apply F|intros o ->; auto].
  - intros Hf o Ho. rewrite En, Q2, EOp. auto.
  - intros k t He. apply (enabled_ext a ru I0 c c') in He; auto; [|apply F]. destruct (A4 k t He) as [K|(o & K1 & K2 & K3)]; [left|right].
    + eapply taken_ext; [apply F|exact HN| |exact K]. intros o Ho. apply (h_ntr _ _ _ _ _ H ch o HN Ho).
    + exists o. rewrite EOp. auto.
  - exact A5.
Qed.
(** recording the invariant operation *)
Lemma child_push_inv D X mo c ch rest i st : base D X mo c -> X ch -> rest_ok c rest -> child_act c ch rest True ->
  let c' := push_op c ch (NInv (ss_step (nst c ch)) i st) in base D X mo c' /\ frame ch c c' /\ child_act c' ch rest True /\ nst c' ch = nst c ch /\ nO c' = nO c.
Proof.
  intros B HX Hr A c'. pose proof (b_heap _ _ _ _ _ _ _ _ _ B) as H. pose proof (heap_closed _ _ _ _ _ H) as HC. pose proof (ac_N _ _ _ _ _ _ (ca_act _ _ _ _ A)) as HN.
  destruct (open_push solve cf a ru I0 D X mo c ch (NInv (ss_step (nst c ch)) i st) B HX ltac:(discriminate)) as (B' & F & En & Eo & Ew & EO). fold c' in B', F, En, Eo, Ew, EO.
  assert (EM : nmode c' ch = nmode c ch) by (apply nmode_ext; auto; apply F). assert (EOp : forall o, getO c' o = getO c o) by reflexivity.
  assert (Enop : forall y, nop_step c' y = nop_step c y) by (intros [| |o]; reflexivity).
  split; [exact B'|]. split; [exact F|]. split; [|auto]. destruct A as [A0 A2 A3 A4 A5]. constructor.
  - constructor.
    + rewrite (fr_nN _ _ _ F). exact HN.
    + rewrite EM. apply A0.
    + unfold ordered. rewrite Eo. apply FOP_snoc.
      * exact (ac_ord _ _ _ _ _ _ A0).
      * intros y Hy. destruct (ac_ops _ _ _ _ _ _ A0 y Hy) as (K1 & K2 & _). split; [exact K1|]. destruct y; auto. discriminate.
    + intros y Hy. rewrite Eo in Hy. rewrite En, Enop. apply in_app_or in Hy as [Hy|[<-|[]]]; [|split; [reflexivity|]; split; [reflexivity|auto]].
      destruct (ac_ops _ _ _ _ _ _ A0 y Hy) as (K1 & K2 & K3). auto.
    + rewrite En, EM. intros p n HT. apply (ac_cov _ _ _ _ _ _ A0 p n). revert HT. apply (Tn_ext a ru I0 c c'); auto; apply F.
  - intros y Hy. rewrite En, Enop. auto.
  - intros Hf o Ho. rewrite En, EOp. auto.
  - intros k t He. apply (enabled_ext a ru I0 c c') in He; auto; [|apply F]. destruct (A4 k t He) as [K|(o & K1 & K2 & K3)]; [left|right].
    + eapply taken_ext; [apply F|exact HN| |exact K]. intros o Ho. apply (h_ntr _ _ _ _ _ H ch o HN Ho).
    + exists o. rewrite EOp. auto.
  - exact A5.
Qed.

Lemma replay_inv_ok D X mo c ch k i st rest filt c' :
  base D X mo c -> X ch -> rest_ok c (NInv k i st :: rest) -> ForallOrdPairs (ord_rel c) (NInv k i st :: rest) -> child_act c ch (NInv k i st :: rest) filt ->
  replay_inv solve a c ch k i = Ok c' -> base D X mo c' /\ frame ch c c' /\ child_st c' ch rest /\ nO c' = nO c.
Proof.
  intros B HX Hr Hord A Hi. unfold replay_inv in Hi. fold (nst c ch) in Hi. apply bind_ok in Hi as (s1 & Hs & Hi).
  assert (Hk : forall y, In y (NInv k i st :: rest) -> k <= nop_step c y). { intros y [<-|Hy]; [cbn; lia|]. apply (ord_tail _ _ _ Hord y Hy). }
  destruct (child_step D X mo c ch _ filt k s1 B HX Hr A Hk Hs) as (B1 & F1 & A1 & En1 & Es1 & O1 & Ops1). set (c1 := setS c (n_state (getN c ch)) s1) in *.
  apply child_tail in A1; [|discriminate|reflexivity].
  assert (Hr' : rest_ok c1 rest) by (intros o Ho; rewrite O1; apply Hr; right; auto).
  assert (HN1 : ch < nN c1) by (apply (ac_N _ _ _ _ _ _ (ca_act _ _ _ _ A1))).
  pose proof (b_heap _ _ _ _ _ _ _ _ _ B1) as H1. pose proof (heap_closed _ _ _ _ _ H1) as HC1.
  assert (He : err (nmode c1 ch) = false) by (apply (ac_err _ _ _ _ _ _ (ca_act _ _ _ _ A1))).
  assert (Em : nmode c1 ch = ss_mode s1) by (unfold nmode; fold (nst c1 ch); rewrite En1; auto).
  destruct (nst_ok solve a ru I0 c1 ch H1 HN1 He) as (x & S). rewrite En1 in S.
  destruct (nth_error (m_inv (get_mode a (ss_mode s1))) i) as [lc|] eqn:En; [|discriminate]. apply bind_ok in Hi as ([[s2 o] strong] & Hc & Hi).
  destruct (inv_cond_ok solve Hsolve a s1 x i lc s2 o strong WH S En Hc) as (S2 & SF & Ho). destruct SF as (Q1 & Q2 & Q3 & Q4 & Q5 & Q6 & Q7 & Q8 & Q9).
  assert (Eset : setS c (n_state (getN c ch)) s2 = setS c1 (n_state (getN c1 ch)) s2) by (symmetry; apply setS_twice).
  rewrite Eset in Hi.
  assert (Hfk : forall o, In (NTr o) rest -> ss_step (nst c1 ch) < o_step (getO c1 o) \/ (ss_step (nst c1 ch) = 0 /\ o_step (getO c1 o) = 0)).
  { intros o' Hoi. rewrite En1, Es1. apply (ord_tail _ _ _ Hord (NTr o') Hoi). }
  assert (Hin2 : forall p, in_lp (ss_lpi (nst c1 ch)) p -> (True -> inv_ok 0 (get_mode a (nmode c1 ch)) p) -> in_lp (ss_lpi s2) p).
  { rewrite En1, Em. intros p Hp Hinv. assert (Hlc : In lc (m_inv (get_mode a (ss_mode s1)))) by (eapply nth_error_In; eauto). destruct o as [[|]|].
    - apply Ho. split; [exact Hp|]. destruct (Hinv Logic.I lc Hlc) as [K|K]; lra.
    - destruct Ho as ((ob & ->) & _). exact Hp.
    - destruct Ho as ((ob & ->) & _). exact Hp. }
  assert (SF : same_frame (nst c1 ch) s2) by (rewrite En1; repeat (split; [assumption|]); assumption).
  assert (HG2 : good_state solve a s2) by (eapply st_good; eauto).
  (* leaving when the set is empty *)
  assert (Hleave : forall c2 f b, base D X mo c2 -> frame ch c c2 -> child_act c2 ch rest f -> ss_step (nst c2 ch) = k -> nO c2 = nO c -> (forall p, ~ in_lp (ss_lpi (nst c2 ch)) p) ->
     base D X mo (push_op c2 ch (NLeft k b)) /\ frame ch c (push_op c2 ch (NLeft k b)) /\ child_st (push_op c2 ch (NLeft k b)) ch rest /\ nO (push_op c2 ch (NLeft k b)) = nO c).
  { intros c2 f b B2 F2 A2 Es2 EO2 Hemp.
    destruct (child_leave D X mo c2 ch rest f k b B2 HX A2 ltac:(lia)) as (B3 & F3 & D3).
    - intros o' t Ho' Ht. apply (empty_no c2 ch k).
      + rewrite <- Es2. intros p n HT Hinv. destruct (ac_cov _ _ _ _ _ _ (ca_act _ _ _ _ A2) p n HT) as [K _]; [auto|]. exact (Hemp p K).
      + assert (Eg : getO c2 o' = getO c1 o') by (rewrite (fr_old _ _ _ F2) by (apply Hr; right; auto); reflexivity). rewrite Eg.
        destruct (Hfk o' Ho') as [K|[K1 K2]]; rewrite En1, Es1 in *; [left; exact K|right; auto].
    - split; [exact B3|]. split; [eapply frame_trans; eauto|]. split; [left; exact D3|]. exact EO2. }
  destruct o as [[|]|].
  - destruct (child_set D X mo c1 ch rest _ True s2 B1 HX Hr' A1 HG2 SF ltac:(auto) Hin2) as (B2 & F2 & A2 & En2 & O2 & Ops2).
    { intros _ o Hoi. destruct (Hfk o Hoi) as [K|[K _]]; auto. }
    set (c2 := setS c1 (n_state (getN c1 ch)) s2) in *.
    assert (Es2 : ss_step (nst c2 ch) = k) by (rewrite En2, Q2; exact Es1).
    destruct (child_push_inv D X mo c2 ch rest i strong B2 HX ltac:(intros o Hoi; rewrite O2; apply Hr'; auto) A2) as (B3 & F3 & A3 & En3 & O3). rewrite Es2 in *.
    set (c3 := push_op c2 ch (NInv k i strong)) in *.
    pose proof (frame_trans _ _ _ _ (frame_trans _ _ _ _ F1 F2) F3) as F.
    apply bind_ok in Hi as (f & Hf & Hi). destruct f; injection Hi as <-.
    + split; [exact B3|]. split; [exact F|]. split; [right; exists True; exact A3|congruence].
    + apply (Hleave c3 True false); auto; try congruence. rewrite En3, En2. intros p Hp.
      assert (K : false = true) by (apply (feas_in_lp solve Hsolve _ _ Hf); eauto). discriminate.
  - injection Hi as <-. destruct Ho as ((ob & Eob) & Erows & Hle).
    destruct (child_set D X mo c1 ch rest _ (filt /\ k = ss_step (nst c ch)) s2 B1 HX Hr' A1 HG2 SF ltac:(auto)) as (B2 & F2 & A2 & En2 & O2 & Ops2).
    { rewrite En1, Eob. intros p Hp _. exact Hp. }
    { apply (ca_filt _ _ _ _ A1). }
    split; [exact B2|]. split; [eapply frame_trans; eauto|]. split; [right; eexists; exact A2|congruence].
  - injection Hi as <-. destruct Ho as ((ob & Eob) & Erows & Hemp).
    destruct (child_set D X mo c1 ch rest _ (filt /\ k = ss_step (nst c ch)) s2 B1 HX Hr' A1 HG2 SF ltac:(auto)) as (B2 & F2 & A2 & En2 & O2 & Ops2).
    { rewrite En1, Eob. intros p Hp _. exact Hp. }
    { apply (ca_filt _ _ _ _ A1). }
    apply (Hleave _ _ false B2 (frame_trans _ _ _ _ F1 F2) A2); try congruence.
    rewrite En2, Eob. intros p Hp. exact (Hemp p Hp).
Qed.

(** ** the map of transitions that will get nodes *)
Record entry_ok (D : nat -> Prop) (chs : list nat) (c : core) (ch k : nat) (os : list nat) : Prop := {
  en_ch : In ch chs; en_k : k < nN c; en_D : D k; en_done : done c k; en_err : err (nmode c k) = false; en_ne : os <> [];
  en_os : forall no, In no os -> no < nO c /\ o_parent (getO c no) = Some ch /\ pmode c no = nmode c k /\
            exists o, In o (n_parents (getN c k)) /\ forall x n, TO c no x n -> TO c o x n }.
Definition map_ok (D : nat -> Prop) (chs : list nat) (c : core) (mp : list ((nat * nat) * list nat)) : Prop :=
  forall ch k os, In ((ch, k), os) mp -> entry_ok D chs c ch k os.

Lemma entry_ext (D : nat -> Prop) chs c c' ch k os : hok c -> ext c c' -> (forall N, D N -> N < nN c -> n_ops (getN c' N) = n_ops (getN c N)) -> entry_ok D chs c ch k os -> entry_ok D chs c' ch k os.
Proof.
  intros H E Ho [K1 K2 K3 K4 K5 K6 K7]. pose proof (heap_closed _ _ _ _ _ H) as HC. pose proof (ex_nN _ _ E). pose proof (ex_nO _ _ E). constructor; auto.
  - lia.
  - apply (done_ext solve a ru I0 c c'); auto.
  - rewrite (nmode_ext c c'); auto.
  - intros no Hn. destruct (K7 no Hn) as (L1 & L2 & L3 & o & L4 & L5). assert (Hlo : o < nO c) by (apply (proj1 HC k K2); auto).
    split; [lia|]. destruct (ex_op _ _ E no L1) as (_ & -> & _). split; [exact L2|].
    rewrite (nmode_ext c c'), (pmode_ext c c') by (auto; apply (h_post _ _ _ _ _ H no L1)). split; [exact L3|]. exists o. destruct (ex_node _ _ E k K2) as [_ ->]. split; [exact L4|].
    intros x n HT. apply (To_ext a ru I0 c c'); auto. apply L5. revert HT. apply (To_ext a ru I0 c c'); auto.
Qed.
Lemma map_ext (D : nat -> Prop) chs c c' mp : hok c -> ext c c' -> (forall N, D N -> N < nN c -> n_ops (getN c' N) = n_ops (getN c N)) -> map_ok D chs c mp -> map_ok D chs c' mp.
Proof. intros H E Ho Hm ch k os Hi. apply (entry_ext D chs c c'); auto. Qed.

Lemma map_add_perm mp k o : Permutation (o :: flat_map snd mp) (flat_map snd (map_add mp k o)).
Proof.
  induction mp as [|[k' os] mp IH]; cbn [map_add flat_map snd app]; [apply Permutation_refl|]. destruct (_ && _); cbn [flat_map snd].
  - rewrite <- app_assoc. cbn [app]. apply Permutation_middle.
  - eapply Permutation_trans; [|apply Permutation_app_head; exact IH]. apply Permutation_middle.
Qed.
Lemma map_add_ok (D : nat -> Prop) chs c mp ch k o : map_ok D chs c mp -> entry_ok D chs c ch k [o] -> map_ok D chs c (map_add mp (ch, k) o).
Proof.
  intros Hm He. induction mp as [|[[ch' k'] os'] mp IH]; cbn [map_add fst snd].
  - intros ch1 k1 os1 [K|[]]. injection K as <- <- <-. exact He.
  - destruct ((ch =? ch') && (k =? k')) eqn:E.
    + apply andb_true_iff in E as [E1 E2]. apply Nat.eqb_eq in E1, E2. subst ch' k'. intros ch1 k1 os1 [K|K]; [|apply Hm; right; auto]. injection K as <- <- <-.
      destruct (Hm ch k os' (or_introl eq_refl)) as [K1 K2 K3 K4 K5 K6 K7]. constructor; auto; [destruct os'; discriminate|].
      intros no Hn. apply in_app_or in Hn as [Hn|Hn]; [auto|apply (en_os _ _ _ _ _ _ He no Hn)].
    + intros ch1 k1 os1 [K|K]; [apply Hm; left; auto|]. apply IH; auto. intros ch2 k2 os2 K2. apply Hm. right; auto.
Qed.

(** ** a transition replayed in a child *)
Lemma replay_tr_ok (D X : nat -> Prop) chs mp c P ch o rest filt c' mp' :
  base D X (flat_map snd mp) c -> X ch -> D P -> dg = true -> In ch chs -> rest_ok c (NTr o :: rest) -> In (NTr o) (n_ops (getN c P)) ->
  (forall y, In y rest -> o_step (getO c o) <= nop_step c y) ->
  child_act c ch (NTr o :: rest) filt -> nmode c ch = nmode c P -> refines c ch P -> map_ok D chs c mp ->
  replay_tr solve cf a c mp ch o = Ok (c', mp') ->
  base D X (flat_map snd mp') c' /\ frame ch c c' /\ child_st c' ch rest /\ map_ok D chs c' mp'.
Proof.
  intros B HX HDP Hdg Hch Hr HoP Hord A HM HR Hmap Hrp. unfold replay_tr in Hrp. fold (nst c ch) in Hrp. apply bind_ok in Hrp as (s1 & Hs & Hrp).
  pose proof (b_heap _ _ _ _ _ _ _ _ _ B) as H. pose proof (heap_closed _ _ _ _ _ H) as HC. assert (HP : P < nN c) by (apply (b_D _ _ _ _ _ _ _ _ _ B); auto).
  destruct (h_ntr _ _ _ _ _ H P o HP HoP) as [Ho Hpo].
  pose proof (h_op _ _ _ _ _ H o Ho) as Kop. unfold op_ok in Kop. rewrite Hpo in Kop. destruct Kop as (_ & _ & t & Ht & Htl & Htf & Htt).
  rewrite Ht in Hrp. fold (nst c ch) in Hrp.
  assert (HDX : forall M, D M -> ~ X M) by (intros M HMd HMx; apply (b_X _ _ _ _ _ _ _ _ _ B) in HMx; tauto).
  set (k := o_step (getO c o)) in *.
  destruct (child_step D X _ c ch _ filt k s1 B HX Hr A) as (B1 & F1 & A1 & En1 & Es1 & O1 & Ops1); auto.
  { intros y [<-|Hy]; [cbn; unfold k; lia|auto]. }
  set (c1 := setS c (n_state (getN c ch)) s1) in *.
  assert (HN1 : ch < nN c1) by (apply (ac_N _ _ _ _ _ _ (ca_act _ _ _ _ A1))).
  pose proof (b_heap _ _ _ _ _ _ _ _ _ B1) as H1. pose proof (heap_closed _ _ _ _ _ H1) as HC1.
  assert (EM1 : nmode c1 ch = nmode c ch) by (apply nmode_ext; auto; apply F1).
  set (f := filt /\ k = ss_step (nst c ch)) in *.
  assert (Hf : f -> ss_step (nst c1 ch) = 0).
  { intro Hf'. destruct (ca_filt _ _ _ _ A1 Hf' o (or_introl eq_refl)) as [K|K]; [|exact K]. rewrite En1, Es1 in K. change (getO c1 o) with (getO c o) in K. unfold k in K. lia. }
  assert (Es : getS c1 (n_state (getN c ch)) = nst c1 ch) by reflexivity. rewrite Es in Hrp.
  apply bind_ok in Hrp as ([l1 r] & Hgi & Hrp). cbn [fst snd] in Hrp.
  destruct (open_guard solve Hsolve cf a WH ru I0 D X _ c1 ch f t l1 r B1 HX (ca_act _ _ _ _ A1) Hf Htl ltac:(congruence) Hgi) as (B2 & F2 & A2 & St2 & Ops2 & W2 & O2 & C2 & (ob & Eob) & Hres).
  change (n_state (getN c ch)) with (n_state (getN c1 ch)) in Hrp.
  set (c2 := setS c1 (n_state (getN c1 ch)) (ss_with_lpi (nst c1 ch) l1)) in *.
  assert (EM2 : nmode c2 ch = nmode c ch). { rewrite <- EM1. apply nmode_ext; auto. apply F2. }
  assert (Est2 : ss_step (nst c2 ch) = k) by (rewrite St2, En1; exact Es1).
  (* a child whose transitions at step k along t are accounted for *)
  assert (Fin : forall c5, hok c5 -> frame ch c c5 -> active c5 ch f -> ss_step (nst c5 ch) = k -> (enab c5 ch k t -> taken c5 ch k t) ->
     (forall k' t', taken c ch k' t' -> taken c5 ch k' t') -> child_st c5 ch rest).
  { intros c5 H5 F5 A5 Es5 He5 Ht5. right. exists f. pose proof (ac_N _ _ _ _ _ _ (ca_act _ _ _ _ A)) as HN.
    assert (EO : forall o', In (NTr o') rest -> getO c5 o' = getO c o') by (intros o' Ho'; apply F5; apply Hr; right; auto).
    constructor; auto.
    - intros y Hy. rewrite Es5. rewrite (nop_step_ext c c5); [apply Hord; auto|apply F5|intros o' ->; apply Hr; right; auto].
    - intros Hff o' Ho'. right. rewrite Es5. specialize (Hf Hff). rewrite En1, Es1 in Hf. exact Hf.
    - intros k' t' He. apply (enabled_ext a ru I0 c c5) in He as He'; auto; [|apply F5]. destruct (ca_enab _ _ _ _ A k' t' He') as [K|(o' & [K|K1] & K2 & K3)]; [left; auto| |right; exists o'; rewrite EO by auto; auto].
      injection K as <-. left. fold k in K2. subst k'. replace t' with t in * by congruence. apply He5; auto.
    - destruct (ca_last _ _ _ _ A) as (k1 & b1 & [K|K]); [discriminate|eauto]. }
  pose proof (frame_trans _ _ _ _ F1 F2) as F12.
  assert (Htk2 : forall k' t', taken c ch k' t' -> taken c2 ch k' t').
  { intros k' t' (o' & K1 & K2 & K3). exists o'. assert (Eo : n_ops (getN c2 ch) = n_ops (getN c ch)) by (rewrite Ops2; exact Ops1). rewrite Eo. auto. }
  assert (Hmapk : forall c5, frame ch c c5 -> map_ok D chs c5 mp).
  { intros c5 F5. apply (map_ext D chs c c5); auto; [apply F5|]. intros N HN _. apply F5. intros ->. exact (HDX ch HN HX). }
  destruct r as [tlp|].
  2:{ injection Hrp as <- <-. split; [exact B2|]. split; [exact F12|]. split; [|auto]. apply Fin; auto; [apply (b_heap _ _ _ _ _ _ _ _ _ B2)|].
      intro He. exfalso. apply Hres. rewrite Est2. exact He. }
  destruct Hres as (Hap & Hd & Htlp & Hne).
  apply bind_ok in Hrp as (c3 & Herr & Hrp).
  assert (E3 : exists ag co ce, c3 = with_flags c2 ag co ce /\ (c_aggerr c2 = true -> ag = true) /\ (c_concerr c2 = true -> co = true) /\
     (err (t_to (get_trans a t)) = true -> (ss_conc (nst c2 ch) = true -> co = true) /\ (ss_conc (nst c2 ch) = false -> ag = true))).
  { unfold CoreInv.err. destruct (is_error (get_mode a (t_to (get_trans a t)))).
    - apply error_reached_ok in Herr as (ag & co & ce & -> & R1 & R2 & R3 & R4 & _). exists ag, co, ce. split; [reflexivity|]. split; [auto|]. split; [auto|]. intros _. split; intro K; [apply R3; exact K|apply R4; exact K].
    - injection Herr as <-. exists (c_aggerr c2), (c_concerr c2), (c_cex c2). split; [destruct c2; reflexivity|]. split; [auto|]. split; [auto|]. discriminate. }
  destruct E3 as (ag & co & ce & E3 & Fa & Fc & Fe). clear Herr.
  assert (B3 : base D X (flat_map snd mp) c3). { rewrite E3. apply (base_same solve cf a ru I0 D X _ c2); auto. }
  assert (F3 : frame ch c2 c3). { rewrite E3. constructor; auto. apply ext_same; reflexivity. }
  assert (Est3 : nst c3 ch = nst c2 ch) by (rewrite E3; reflexivity).
  assert (A3 : active c3 ch f). { apply (active_ext solve a ru I0 c2 c3); auto; [apply (b_heap _ _ _ _ _ _ _ _ _ B2)|apply F3|rewrite E3; reflexivity]. }
  assert (EM3 : nmode c3 ch = nmode c ch). { rewrite <- EM2. rewrite E3. reflexivity. }
  apply bind_ok in Hrp as ([c4 r] & Hmk & Hrp).
  assert (Esid3 : n_state (getN c1 ch) = n_state (getN c3 ch)) by (rewrite E3; reflexivity). rewrite Esid3 in Hmk.
  destruct (make_op_ok solve Hsolve cf a WH c3 t tlp _ ch c4 r Htl Hap ltac:(rewrite Htf, <- HM, <- EM1; exact Hd) Hne Hmk) as (_ & _ & Er & _). subst r.
  set (c5 := push_op c4 ch (NTr (nO c3))) in *.
  assert (Hadd : forall mo' c6, (c6 = with_wait c5 (c_wait c5 ++ [nO c3]) /\ mo' = flat_map snd mp \/ c6 = c5 /\ Permutation (nO c3 :: flat_map snd mp) mo') ->
     base D X mo' c6 /\ frame ch c c6 /\ child_st c6 ch rest /\ nO c6 = S (nO c3) /\ o_parent (getO c6 (nO c3)) = Some ch /\ o_trans (getO c6 (nO c3)) = Some t /\ o_step (getO c6 (nO c3)) = k /\ pmode c6 (nO c3) = t_to (get_trans a t)).
  { intros mo' c6 H6. destruct (open_add solve Hsolve cf a WH ru I0 D X _ mo' c3 ch f t tlp c4 (Some (nO c3)) c6 B3 HX A3) as (_ & B6 & F6 & A6 & Est6 & Ops6 & O6 & Tk6 & Q1 & Q2 & Q3 & Q4 & Q5 & _); auto.
    - rewrite Est3, Est2. intro K. specialize (Hf K). rewrite En1, Es1 in Hf. exact Hf.
    - congruence.
    - rewrite EM3, <- EM1. exact Hd.
    - rewrite Est3. exact Htlp.
    - rewrite Est3, E3. ccbn. exact Fe.
    - pose proof (frame_trans _ _ _ _ (frame_trans _ _ _ _ F12 F3) F6) as F16. rewrite Est3, Est2 in *. split; [exact B6|]. split; [exact F16|]. split; [|auto 8].
      apply Fin; auto; [apply (b_heap _ _ _ _ _ _ _ _ _ B6)|rewrite Est6; exact Est2|].
      intros k' t' Hk'. apply Htk2 in Hk'. destruct Hk' as (o' & K1 & K2 & K3). assert (Ho2 : o' < nO c2) by (apply (h_ntr _ _ _ _ _ (b_heap _ _ _ _ _ _ _ _ _ B2) ch o'); auto; apply A2).
      exists o'. rewrite Ops6. rewrite (fr_old _ _ _ F6) by (rewrite E3; exact Ho2). rewrite E3. split; [apply in_or_app; left; exact K1|auto]. }
  destruct (o_child (getO c o)) as [kk|] eqn:Ech; injection Hrp as <- <-.
  - destruct (Hadd (flat_map snd (map_add mp (ch, kk) (nO c3))) c5) as (B6 & F6 & St6 & O6 & Q1 & Q2 & Q3 & Q4); [right; split; [reflexivity|apply map_add_perm]|].
    split; [exact B6|]. split; [exact F6|]. split; [exact St6|]. apply map_add_ok; [auto|].
    destruct (h_child _ _ _ _ _ H o kk Ho Ech) as [Hkk Hokk]. assert (HDk : D kk) by (apply (b_d1 _ _ _ _ _ _ _ _ _ B o P kk); auto).
    assert (Hm : pmode c o = nmode c kk) by (destruct (h_par _ _ _ _ _ H kk Hkk) as (_ & _ & K); apply (K o Hokk)).
    pose proof (ex_nN _ _ (fr_ext _ _ _ F6)). assert (EMk : nmode c5 kk = nmode c kk) by (apply nmode_ext; auto; apply F6).
    constructor; auto.
    + lia.
    + apply (done_ext solve a ru I0 c c5); auto; [apply F6|apply F6; intros ->; exact (HDX ch HDk HX)|].
      destruct (b_nodes _ _ _ _ _ _ _ _ _ B kk Hkk (HDX kk HDk)) as [K|K]; [exact K|]. exfalso. apply in_flat_map in K as ([P' chs'] & K1 & K2).
      destruct (b_dw _ _ _ _ _ _ _ _ _ B) as (_ & _ & K3). destruct (K3 P' chs' kk K1 K2) as (_ & _ & _ & K4 & _). contradiction.
    + rewrite EMk, <- Hm. destruct (err (pmode c o)) eqn:Ee; [|reflexivity]. assert (K := b_errch _ _ _ _ _ _ _ _ _ B Hdg o P Ho ltac:(congruence) Ee ltac:(right; auto)). congruence.
    + discriminate.
    + intros no [<-|[]]. split; [lia|]. split; [exact Q1|]. split; [rewrite EMk, <- Hm, Q4; exact Htt|]. exists o. destruct (ex_node _ _ (fr_ext _ _ _ F6) kk Hkk) as [_ ->]. split; [exact Hokk|].
      intros x n HT. apply To_inv in HT as (_ & [(K & _)|(M & t1 & y & K1 & K2 & K3 & K4 & K5 & K6)]); [congruence|]. rewrite Q1 in K1. injection K1 as <-. rewrite Q2 in K2. injection K2 as <-. rewrite Q3 in K3, K5.
      assert (EO : getO c5 o = getO c o) by (apply F6; auto).
      assert (Hch' : ch < nN c) by apply A.
      apply (To_jump a ru I0 c5 o P t y x n); rewrite ?EO; auto.
      * pose proof (ex_nO _ _ (fr_ext _ _ _ F6)). eapply Nat.lt_le_trans; [exact Ho|assumption].
      * fold k. apply (Tn_ext a ru I0 c c5); auto; [apply F6|]. apply HR. revert K3. apply (Tn_ext a ru I0 c c5); auto. apply F6.
      * fold k. replace (nmode c5 P) with (nmode c5 ch); [exact K5|]. rewrite !(nmode_ext c c5) by (auto; apply F6). exact HM.
  - destruct (Hadd (flat_map snd mp) (with_wait c5 (c_wait c5 ++ [nO c3]))) as (B6 & F6 & St6 & _); [left; auto|].
    split; [exact B6|]. split; [exact F6|]. split; [exact St6|]. auto.
Qed.

(** ** one operation replayed in one child *)
Lemma ops_rest D X mo c P pre rest : base D X mo c -> D P -> n_ops (getN c P) = pre ++ rest -> rest_ok c rest.
Proof.
  intros B HP E o Ho. apply (h_ntr _ _ _ _ _ (b_heap _ _ _ _ _ _ _ _ _ B) P o); [apply (b_D _ _ _ _ _ _ _ _ _ B); auto|]. rewrite E. apply in_or_app. auto.
Qed.
Lemma child_skip c P x rest ch : left_inv c ch = true -> child_ok c P (x :: rest) ch -> child_ok c P rest ch.
Proof.
  intros Hl [K1 K2 K3 K4]. constructor; auto. destruct K4 as [K4|(f & K4)]; [left; exact K4|]. rewrite (active_left _ _ _ _ _ _ (ca_act _ _ _ _ K4)) in Hl. discriminate.
Qed.
Lemma replay_op_ok (D X : nat -> Prop) chs mp c P ch pre x rest c' mp' :
  base D X (flat_map snd mp) c -> X ch -> D P -> dg = true -> In ch chs -> done c P -> n_ops (getN c P) = pre ++ x :: rest ->
  child_ok c P (x :: rest) ch -> left_inv c ch = false -> map_ok D chs c mp ->
  replay_op solve cf a c mp ch x = Ok (c', mp') ->
  base D X (flat_map snd mp') c' /\ frame ch c c' /\ child_ok c' P rest ch /\ map_ok D chs c' mp'.
Proof.
  intros B HX HP Hdg Hch HdP Eops [K1 K2 K3 K4] Hl Hm Hr. pose proof (b_heap _ _ _ _ _ _ _ _ _ B) as H. pose proof (heap_closed _ _ _ _ _ H) as HC.
  assert (HPn : P < nN c) by (apply (b_D _ _ _ _ _ _ _ _ _ B); auto).
  pose proof (ops_rest _ _ _ _ _ _ _ B HP Eops) as Hro.
  assert (Hord : ForallOrdPairs (ord_rel c) (x :: rest)). { destruct HdP as (_ & Ho & _). unfold ordered in Ho. rewrite Eops in Ho. apply FOP_app_inv in Ho. apply Ho. }
  destruct K4 as [(K4 & _)|(filt & A)]; [congruence|].
  assert (HDX : forall M, D M -> M <> ch) by (intros M HM ->; apply (b_X _ _ _ _ _ _ _ _ _ B) in HX; tauto).
  assert (Fin : forall c5, frame ch c c5 -> child_st c5 ch rest -> child_ok c5 P rest ch).
  { intros c5 F S5. constructor; auto.
    - rewrite (fr_nN _ _ _ F). exact K1.
    - rewrite !(nmode_ext c c5) by (auto; apply F). exact K2.
    - apply (refines_ext solve a ru I0 c c5); auto. apply F. }
  assert (Hmk : forall c5, frame ch c c5 -> map_ok D chs c5 mp).
  { intros c5 F. apply (map_ext D chs c c5); auto; [apply F|]. intros N HN _. apply F. auto. }
  destruct x as [k i st|k b|o]; cbn [replay_op] in Hr.
  - apply bind_ok in Hr as (c1 & Hr & E). apply ok_inj in E. injection E as <- <-.
    destruct (replay_inv_ok D X _ c ch k i st rest filt c1 B HX Hro Hord A Hr) as (B1 & F1 & S1 & _). auto.
  - apply ok_inj in Hr. injection Hr as <- <-.
    destruct (child_leave D X _ c ch _ filt k b B HX A) as (B1 & F1 & S1).
    { apply (ca_step _ _ _ _ A (NLeft k b)). left; auto. }
    { intros o t [K|K]; [discriminate|]. exfalso. destruct (ord_tail _ _ _ Hord (NTr o) K) as [_ []]. }
    split; [exact B1|]. split; [exact F1|]. split; [apply Fin; [exact F1|left; exact S1]|auto].
  - destruct (replay_tr_ok D X chs mp c P ch o rest filt c' mp' B HX HP Hdg Hch Hro) as (B1 & F1 & S1 & M1); auto.
    + rewrite Eops. apply in_or_app. right. left. auto.
    + intros y Hy. apply (ord_tail _ _ _ Hord y Hy).
Qed.

(** ** one operation replayed in every child *)
Record framel (L : list nat) (c c' : core) : Prop := {
  fl_ext : ext c c';
  fl_nN : nN c' = nN c;
  fl_ops : forall M, ~ In M L -> n_ops (getN c' M) = n_ops (getN c M);
  fl_st : forall M, M < nN c -> ~ In M L -> nst c' M = nst c M;
  fl_old : forall o, o < nO c -> getO c' o = getO c o;
  fl_cur : c_cur c' = c_cur c; fl_dw : c_dwait c' = c_dwait c; fl_rep : c_rep c' = c_rep c }.
Lemma framel_refl L c : framel L c c.
Proof. constructor; auto. apply ext_refl. Qed.
Lemma framel_trans L1 L2 L c1 c2 c3 : incl L1 L -> incl L2 L -> framel L1 c1 c2 -> framel L2 c2 c3 -> framel L c1 c3.
Proof.
  intros I1 I2 [A1 A2 A3 A4 A5 A6 A7 A8] [B1 B2 B3 B4 B5 B6 B7 B8]. constructor; try congruence.
  - eapply ext_trans; eauto.
  - intros M HM. rewrite B3, A3; auto.
  - intros M HM HN. rewrite B4, A4; auto. lia.
  - intros o Ho. rewrite B5, A5; auto. pose proof (ex_nO _ _ A1). lia.
Qed.
Lemma frame_l N c c' : frame N c c' -> framel [N] c c'.
Proof.
  intros [A1 A2 A3 A4 A5 A6 A7 A8 A9 A10]. constructor; auto.
  - intros M HM. apply A3. intros ->. apply HM. left; auto.
  - intros M HM HN. apply A4; auto. intros ->. apply HN. left; auto.
Qed.

Lemma replay_children_ok (D X : nat -> Prop) chs P pre x rest : dg = true -> D P -> (forall ch, In ch chs -> X ch) ->
  forall l c mp c' mp', incl l chs -> NoDup l ->
  base D X (flat_map snd mp) c -> done c P -> n_ops (getN c P) = pre ++ x :: rest -> (forall ch, In ch l -> child_ok c P (x :: rest) ch) -> map_ok D chs c mp ->
  replay_children solve cf a c mp l x = Ok (c', mp') ->
  base D X (flat_map snd mp') c' /\ framel l c c' /\ (forall ch, In ch l -> child_ok c' P rest ch) /\ map_ok D chs c' mp'.
Proof.
  intros Hdg HP HXc. induction l as [|ch l IH]; intros c mp c' mp' Hl HND B HdP Eops Hch Hm Hr; cbn [replay_children] in Hr.
  - apply ok_inj in Hr. injection Hr as <- <-. split; [exact B|]. split; [apply framel_refl|]. split; [intros ch []|exact Hm].
  - apply bind_ok in Hr as ([c1 mp1] & Hr1 & Hr). cbn [fst snd] in Hr. inversion HND as [|? ? Hni HND']; subst.
    assert (HXch : X ch) by (apply HXc; apply Hl; left; auto).
    assert (K : base D X (flat_map snd mp1) c1 /\ frame ch c c1 /\ child_ok c1 P rest ch /\ map_ok D chs c1 mp1).
    { destruct (left_inv c ch) eqn:El.
      - apply ok_inj in Hr1. injection Hr1 as <- <-. split; [exact B|]. split; [apply frame_refl|]. split; [|exact Hm]. apply (child_skip c P x); auto. apply Hch. left; auto.
      - apply (replay_op_ok D X chs mp c P ch pre x rest c1 mp1); auto; [apply Hl; left; auto|apply Hch; left; auto]. }
    destruct K as (B1 & F1 & C1 & M1). pose proof (b_heap _ _ _ _ _ _ _ _ _ B) as H. pose proof (b_heap _ _ _ _ _ _ _ _ _ B1) as H1.
    assert (HPn : P < nN c) by (apply (b_D _ _ _ _ _ _ _ _ _ B); auto).
    assert (HPch : P <> ch) by (intros ->; apply (b_X _ _ _ _ _ _ _ _ _ B) in HXch; tauto).
    assert (Eops1 : n_ops (getN c1 P) = pre ++ x :: rest) by (rewrite (fr_ops _ _ _ F1) by auto; exact Eops).
    destruct (IH c1 mp1 c' mp') as (B2 & F2 & C2 & M2); auto.
    { intros y Hy. apply Hl. right; auto. }
    { apply (done_ext solve a ru I0 c c1); auto; [apply F1|apply F1; auto]. }
    { intros ch' Hch'. assert (Hne : ch' <> ch) by (intros ->; auto). apply (child_ok_ext c c1); auto; [apply F1|apply (ops_rest _ _ _ _ _ _ _ B HP Eops)|apply F1; auto|apply F1; auto|apply Hch; right; auto].
      apply (Hch ch'). right; auto. }
    split; [exact B2|]. split; [apply (framel_trans [ch] l (ch :: l) c c1 c'); auto; [intros y [->|[]]; left; auto|intros y Hy; right; auto|apply frame_l; auto]|]. split; [|exact M2].
    intros ch' [<-|Hch']; [|auto]. apply (child_ok_ext c1 c'); auto; [apply F2| |rewrite (fr_nN _ _ _ F1); auto|apply F2; auto|apply F2; auto; apply C1].
    apply (ops_rest _ _ _ c1 P (pre ++ [x]) rest B1 HP). rewrite Eops1, <- app_assoc. reflexivity.
Qed.

(** ** the loop over the parent's operations *)
Record loop_inv (D X : nat -> Prop) (chs : list nat) (P : nat) (c : core) (mp : list ((nat * nat) * list nat)) (idx cur : nat) (rest : list nop) : Prop := {
  li_base : base D X (flat_map snd mp) c;
  li_done : done c P;
  li_ops : exists pre, n_ops (getN c P) = pre ++ rest /\ List.length pre = idx;
  li_ch : forall ch, In ch chs -> child_ok c P rest ch;
  li_map : map_ok D chs c mp;
  li_cur : forall y, In y rest -> cur <= nop_step c y }.

Lemma replay_loop_ok (D X : nat -> Prop) chs P : dg = true -> D P -> (forall ch, In ch chs -> X ch) -> NoDup chs ->
  forall xs c mp idx cur only pl c' mp' idx' cur' pl', loop_inv D X chs P c mp idx cur xs ->
  replay_loop solve cf a c mp chs idx cur only pl xs = Ok (c', mp', idx', cur', pl') ->
  framel chs c c' /\ exists rest, loop_inv D X chs P c' mp' idx' cur' rest.
Proof.
  intros Hdg HP HXc HND. induction xs as [|x xs IH]; intros c mp idx cur only pl c' mp' idx' cur' pl' L Hr; cbn [replay_loop] in Hr.
  - apply ok_inj in Hr. injection Hr as <- <- <- <- <-. split; [apply framel_refl|]. exists []. exact L.
  - set (p := if (cur <? nop_step c x) && negb only then (S cur, true) else (cur, only)) in Hr.
    assert (Hp : forall y, In y (x :: xs) -> fst p <= nop_step c y).
    { unfold p. intros y Hy. destruct ((cur <? nop_step c x) && negb only) eqn:E; cbn [fst]; [|apply (li_cur _ _ _ _ _ _ _ _ _ L y Hy)].
      apply andb_true_iff in E as [E _]. apply Nat.ltb_lt in E. destruct Hy as [<-|Hy]; [exact E|].
      destruct (li_ops _ _ _ _ _ _ _ _ _ L) as (pre & Eo & _). destruct (li_done _ _ _ _ _ _ _ _ _ L) as (_ & Ho & _). unfold ordered in Ho. rewrite Eo in Ho. apply FOP_app_inv in Ho as [Ho _].
      pose proof (proj1 (ord_tail _ _ _ Ho y Hy)). lia. }
    destruct p as [cur1 only1]. cbn [fst] in Hp.
    assert (L1 : loop_inv D X chs P c mp idx cur1 (x :: xs)) by (destruct L; constructor; auto).
    destruct (negb (nop_step c x =? cur1)) eqn:Es.
    { apply ok_inj in Hr. injection Hr as <- <- <- <- <-. split; [apply framel_refl|]. eauto. }
    apply negb_false_iff, Nat.eqb_eq in Es.
    destruct (only1 && _).
    { apply ok_inj in Hr. injection Hr as <- <- <- <- <-. split; [apply framel_refl|]. eauto. }
    apply bind_ok in Hr as ([c1 mp1] & Hc & Hr). cbn [fst snd] in Hr. destruct L1 as [B Hd (pre & Eo & Ei) Hch Hm Hcur].
    destruct (replay_children_ok D X chs P pre x xs Hdg HP HXc chs c mp c1 mp1 ltac:(intros y Hy; exact Hy) HND B Hd Eo Hch Hm Hc) as (B1 & F1 & C1 & M1).
    pose proof (b_heap _ _ _ _ _ _ _ _ _ B) as H. assert (HPn : P < nN c) by (apply (b_D _ _ _ _ _ _ _ _ _ B); auto).
    assert (HPch : ~ In P chs) by (intro K; apply HXc, (b_X _ _ _ _ _ _ _ _ _ B) in K; tauto).
    assert (Hro : rest_ok c (x :: xs)) by (apply (ops_rest _ _ _ _ _ _ _ B HP Eo)).
    destruct (IH c1 mp1 (S idx) cur1 only1 (pl || is_left x) c' mp' idx' cur' pl') as (F2 & rest & L2); [|exact Hr|].
    { constructor; auto.
      - apply (done_ext solve a ru I0 c c1); auto; [apply F1|apply F1; auto].
      - exists (pre ++ [x]). rewrite (fl_ops _ _ _ F1) by auto. rewrite <- app_assoc. split; [exact Eo|]. rewrite app_length. cbn. lia.
      - intros y Hy. rewrite (nop_step_ext c c1); [apply Hcur; right; auto|apply F1|]. intros o ->. apply Hro. right; auto. }
    split; [|eauto]. apply (framel_trans chs chs chs c c1 c'); auto; intros y Hy; exact Hy.
Qed.

(** ** stepping the children to the current step *)
Lemma advance_ok (D X : nat -> Prop) chs P mp idx cur rest : D P -> (forall ch, In ch chs -> X ch) ->
  forall l c c', incl l chs -> NoDup l -> loop_inv D X chs P c mp idx cur rest -> advance_children a c l cur = Ok c' ->
  framel l c c' /\ loop_inv D X chs P c' mp idx cur rest.
Proof.
  intros HP HXc. induction l as [|ch l IH]; intros c c' Hl HND L Hr; cbn [advance_children] in Hr.
  - apply ok_inj in Hr. subst c'. split; [apply framel_refl|exact L].
  - apply bind_ok in Hr as (c1 & Hr1 & Hr). inversion HND as [|? ? Hni HND']; subst.
    assert (HXch : X ch) by (apply HXc; apply Hl; left; auto).
    assert (K : frame ch c c1 /\ loop_inv D X chs P c1 mp idx cur rest).
    { destruct (left_inv c ch) eqn:El.
      - apply ok_inj in Hr1. subst c1. split; [apply frame_refl|exact L].
      - fold (nst c ch) in Hr1. apply bind_ok in Hr1 as (s & Hs & E). apply ok_inj in E. subst c1. destruct L as [B Hd (pre & Eo & Ei) Hch Hm Hcur].
        pose proof (b_heap _ _ _ _ _ _ _ _ _ B) as H. assert (HPn : P < nN c) by (apply (b_D _ _ _ _ _ _ _ _ _ B); auto).
        assert (HPch : P <> ch) by (intros ->; apply (b_X _ _ _ _ _ _ _ _ _ B) in HXch; tauto).
        assert (Hro : rest_ok c rest) by (apply (ops_rest _ _ _ _ _ _ _ B HP Eo)).
        destruct (co_st _ _ _ _ (Hch ch ltac:(apply Hl; left; auto))) as [(K & _)|(filt & A)]; [congruence|].
        destruct (child_step D X _ c ch rest filt cur s B HXch Hro A Hcur Hs) as (B1 & F1 & A1 & En & Es & EO & Eops). set (c1 := setS c (n_state (getN c ch)) s) in *.
        split; [exact F1|]. constructor; auto.
        + apply (done_ext solve a ru I0 c c1); auto. apply F1.
        + exists pre. auto.
        + intros ch' Hch'. destruct (Nat.eq_dec ch' ch) as [->|Hne].
          * destruct (Hch ch Hch') as [Q1 Q2 Q3 Q4]. pose proof (heap_closed _ _ _ _ _ H) as HC. constructor; auto.
            -- rewrite !(nmode_ext c c1) by (auto; apply F1). exact Q2.
            -- apply (refines_ext solve a ru I0 c c1); auto. apply F1.
            -- right. eexists. exact A1.
          * apply (child_ok_ext c c1); auto; [apply F1|apply F1; auto; apply (Hch ch'); auto].
        + apply (map_ext D chs c c1); auto. apply F1. }
    destruct K as (F1 & L1). destruct (IH c1 c' ltac:(intros y Hy; apply Hl; right; auto) HND' L1 Hr) as (F2 & L2). split; [|exact L2].
    apply (framel_trans [ch] l (ch :: l) c c1 c'); auto; [intros y [->|[]]; left; auto|intros y Hy; right; auto|apply frame_l; auto].
Qed.
End Replay.
