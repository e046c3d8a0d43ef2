(** Deaggregation: replacing an aggregated node by two nodes, and the end of a replay. *)
From Coq Require Import Permutation.
From Verif Require Import Base BaseFacts LpModel LpSpec SetSpec LpUtil LpFacts ChullFacts ApiSpec ApiFacts Automaton StateSet HybridSpec FlowFacts StateSpec
  StateFacts StateFacts2 StateFacts3 BuildFacts CoreModel HeapFacts CoreOps CoreGhost CoreHeap CoreInv CoreStep CoreCont CorePop CoreReplay.
Open Scope nat_scope.

Lemma nodup_app {A} (l1 l2 : list A) : NoDup l1 -> NoDup l2 -> (forall x, In x l1 -> ~ In x l2) -> NoDup (l1 ++ l2).
Proof.
  induction l1 as [|x l1 IH]; intros H1 H2 H; cbn [app]; [exact H2|]. inversion H1; subst. constructor.
  - intro K. apply in_app_or in K as [K|K]; [auto|]. apply (H x); auto. left; auto.
  - apply IH; auto. intros y Hy. apply H. right; auto.
Qed.
Lemma nodup_app_inv {A} (l1 l2 : list A) : NoDup (l1 ++ l2) -> NoDup l1 /\ NoDup l2 /\ forall x, In x l1 -> ~ In x l2.
Proof.
  induction l1 as [|x l1 IH]; cbn [app]; intro H; [split; [constructor|]; split; [exact H|intros x []]|]. inversion H as [|? ? K1 K2]; subst. destruct (IH K2) as (I1 & I2 & I3).
  split; [constructor; auto; intro K; apply K1; apply in_or_app; auto|]. split; [exact I2|]. intros y [<-|Hy]; [intro K; apply K1; apply in_or_app; auto|auto].
Qed.

Section Deagg.
Variable solve : solver.
Hypothesis Hsolve : solver_ok solve.
Variable arnoldi : nat -> option (list Q) -> csr -> option csr -> nat -> list (list Q).
Variable cf : cfg.
Variable a : ha.
Hypothesis WH : wf_ha a.
Variable ru : rules.
Variable I0 : nat -> vec -> Prop.
Notation TN := (Tn a ru I0).
Notation TO := (To a ru I0).
Notation hok := (heap_ok solve a ru I0).
Notation enab := (enabled a ru I0).
Notation base := (base solve cf a ru I0).
Notation active := (active a ru I0).
Notation done := (done a ru I0).
Notation err := (err a).
Notation dg := (dg cf).
Notation refines := (refines a ru I0).
Notation pair_ok := (pair_ok a ru I0).
Notation map_ok := (map_ok a ru I0).
Notation none := (fun _ : nat => False).

(** a node whose entry points are entry points of another one *)
Lemma refines_of c ch P : ch < nN c -> nmode c ch = nmode c P -> (forall x n, TN c ch 0 x n -> TN c P 0 x n) -> refines c ch P.
Proof.
  intros HN Em H0 k. induction k as [|k IH]; intros x n HT; [auto|].
  apply Tn_S in HT as (x0 & n0 & u & -> & HT & Hi & Hn & Hc & Hu & Ho). rewrite Em in *. eapply Tn_step; eauto.
Qed.

(** ** putting nodes on the list of pending replays, and taking them off *)
Lemma base_dwait (D X X' : nat -> Prop) mo c P chs : base D X mo c -> (forall N, X' N -> X N /\ ~ In N chs) -> (forall N, X N -> X' N \/ In N chs) ->
  NoDup chs -> (forall ch, In ch chs -> X ch /\ pair_ok D c P ch) -> D P -> done c P -> err (nmode c P) = false ->
  base D X' mo (with_dwait c (c_dwait c ++ [(P, chs)])).
Proof.
  intros B HX HX' HND Hch HP Hd He. set (c' := with_dwait c (c_dwait c ++ [(P, chs)])). assert (E : ext c c') by (apply ext_same; reflexivity).
  pose proof (b_heap _ _ _ _ _ _ _ _ _ B) as H. assert (H' : hok c') by (revert H; apply heap_same; reflexivity).
  assert (Edp : dpend c' = dpend c ++ chs) by (unfold dpend, c'; ccbn; rewrite flat_map_app; cbn [flat_map snd]; rewrite app_nil_r; reflexivity).
  constructor; try rewrite Edp; try solve [apply B | exact H'].
  - intros N HN. apply (b_X _ _ _ _ _ _ _ _ _ B). apply HX; auto.
  - intros N HN HnX. destruct (b_dw _ _ _ _ _ _ _ _ _ B) as (K1 & K2 & K3).
    destruct (in_dec Nat.eq_dec N chs) as [Hi|Hi]; [right; apply in_or_app; auto|].
    destruct (b_nodes _ _ _ _ _ _ _ _ _ B N HN) as [K|K]; [intro K; destruct (HX' N K); auto| |right; apply in_or_app; auto].
    left. apply (done_ext solve a ru I0 c c'); auto.
  - destruct (b_dw _ _ _ _ _ _ _ _ _ B) as (K1 & K2 & K3). split; [|split].
    + apply nodup_app; auto. intros N HN Hi. apply (K2 N HN). apply Hch; auto.
    + intros N HN HX1. apply HX in HX1 as [L1 L2]. apply in_app_or in HN as [HN|HN]; [exact (K2 N HN L1)|auto].
    + intros Q cs ch Hq Hc. unfold c' in Hq. cbn [c_dwait with_dwait] in Hq. apply in_app_or in Hq as [Hq|[Hq|[]]].
      * specialize (K3 Q cs ch Hq Hc). apply (pair_ext solve a ru I0 D D c c'); auto. apply K3.
      * injection Hq as <- <-. specialize (proj2 (Hch ch Hc)) as K. apply (pair_ext solve a ru I0 D D c c'); auto. apply K.
  - intros Q cs Hq. unfold c' in Hq. cbn [c_dwait with_dwait] in Hq. apply in_app_or in Hq as [Hq|[Hq|[]]].
    + destruct (b_dw2 _ _ _ _ _ _ _ _ _ B Q cs Hq) as (K1 & K2 & K3). split; [exact K1|]. split; [|exact K3]. apply (done_ext solve a ru I0 c c'); auto. apply (b_D _ _ _ _ _ _ _ _ _ B); auto.
    + injection Hq as <- <-. split; [exact HP|]. split; [|exact He]. apply (done_ext solve a ru I0 c c'); auto. apply (b_D _ _ _ _ _ _ _ _ _ B); auto.
Qed.

Lemma base_open (D : nat -> Prop) mo c P chs dw : base D none mo c -> c_dwait c = (P, chs) :: dw ->
  NoDup chs /\ base D (fun N => In N chs) mo (with_dwait c dw).
Proof.
  intros B Edw. set (c' := with_dwait c dw). assert (E : ext c c') by (apply ext_same; reflexivity).
  pose proof (b_heap _ _ _ _ _ _ _ _ _ B) as H. assert (H' : hok c') by (revert H; apply heap_same; reflexivity).
  destruct (b_dw _ _ _ _ _ _ _ _ _ B) as (K1 & K2 & K3).
  assert (Edp : dpend c = chs ++ dpend c') by (unfold dpend, c'; ccbn; rewrite Edw; reflexivity).
  rewrite Edp in K1. apply nodup_app_inv in K1 as (L1 & L2 & L3). split; [exact L1|].
  constructor; try solve [apply B | exact H'].
  - intros N HN. destruct (K3 P chs N) as (_ & M2 & _ & M4 & _); [rewrite Edw; left; auto|exact HN|auto].
  - intros N HN HnX. destruct (b_nodes _ _ _ _ _ _ _ _ _ B N HN) as [K|K]; [intros []|left; apply (done_ext solve a ru I0 c c'); auto|].
    rewrite Edp in K. apply in_app_or in K as [K|K]; [contradiction|auto].
  - split; [exact L2|]. split; [intros N HN Hi; exact (L3 N Hi HN)|]. intros Q cs ch Hq Hc. assert (Hq' : In (Q, cs) (c_dwait c)) by (rewrite Edw; right; exact Hq).
    specialize (K3 Q cs ch Hq' Hc). apply (pair_ext solve a ru I0 D D c c'); auto. apply K3.
  - intros Q cs Hq. assert (Hq' : In (Q, cs) (c_dwait c)) by (rewrite Edw; right; exact Hq). destruct (b_dw2 _ _ _ _ _ _ _ _ _ B Q cs Hq') as (Q1 & Q2 & Q3).
    split; [exact Q1|]. split; [|exact Q3]. apply (done_ext solve a ru I0 c c'); auto. apply (b_D _ _ _ _ _ _ _ _ _ B); auto.
Qed.

(** ** the nodes for the transitions of a replay *)
Lemma with_wait_id c : with_wait c (c_wait c) = c.
Proof. destruct c. reflexivity. Qed.
Lemma finish_map_ok (D : nat -> Prop) chs : forall mp c c', base D none (flat_map snd mp) c -> map_ok D chs c mp -> finish_map solve arnoldi a c mp = Ok c' ->
  base D none [] c' /\ c_cur c' = c_cur c.
Proof.
  induction mp as [|[[ch k] os] mp IH]; intros c c' B Hm Hf; cbn [finish_map] in Hf.
  - apply ok_inj in Hf. subst c'. cbn [flat_map] in B. auto.
  - apply bind_ok in Hf as ([c1 nid] & Hmk & Hf). cbn [flat_map snd] in B. pose proof (b_heap _ _ _ _ _ _ _ _ _ B) as H. pose proof (heap_closed _ _ _ _ _ H) as HC.
    destruct (Hm ch k os (or_introl eq_refl)) as [E1 E2 E3 E4 E5 E6 E7].
    rewrite <- (with_wait_id c) in Hmk at 1. destruct (b_mo _ _ _ _ _ _ _ _ _ B) as [O1 O2]. apply nodup_app_inv in O1 as (N1 & N2 & N3).
    assert (H0 : In (nth 0 os 0) os) by (destruct os; [congruence|left; auto]).
    destruct (base_make_node solve Hsolve cf a WH ru I0 arnoldi D none (os ++ flat_map snd mp) (flat_map snd mp) (c_wait c) c os _ _ c1 nid B Hmk)
      as (_ & Hnid & B1 & E & nN1 & nO1 & Hpar & Hfr & gN & Hmd & gch & gch' & gS & SC); auto.
    { intros o Ho. right. apply in_or_app; auto. }
    { intros o Ho. destruct (E7 o Ho) as (_ & _ & -> & _). destruct (E7 _ H0) as (_ & _ & -> & _). reflexivity. }
    { apply (b_wait _ _ _ _ _ _ _ _ _ B). }
    { intro o. split; [|tauto]. intro Ho. split; [exact Ho|]. intro Hi. destruct (O2 o) as (_ & _ & K & _); [apply in_or_app; auto|auto]. }
    { intro o. rewrite in_app_iff. split; [intro Ho; split; [auto|intro Hi; exact (N3 o Hi Ho)]|tauto]. }
    { intros _ o Ho. destruct (E7 o Ho) as (_ & -> & _). discriminate. }
    { intros _ o o' Ho Ho'. destruct (E7 o Ho) as (_ & -> & _). destruct (E7 o' Ho') as (_ & -> & _). reflexivity. }
    { intros _ o Ho _. destruct (E7 o Ho) as (_ & _ & -> & _). rewrite E5. discriminate. }
    assert (Hm1 : map_ok D chs c1 mp). { apply (map_ext solve a ru I0 D chs c c1); auto; [intros N _ HN; rewrite gN; auto|]. intros ch' k' os' Hi. apply Hm. right; auto. }
    assert (Hk1 : nmode c1 k = nmode c k) by (apply nmode_ext; auto).
    assert (Hdk : done c1 k) by (apply (done_ext solve a ru I0 c c1); auto; rewrite gN; auto).
    assert (HnD : ~ D nid) by (intro K; apply (b_D _ _ _ _ _ _ _ _ _ B) in K; lia).
    assert (Hmn : nmode c1 nid = nmode c1 k) by (rewrite Hmd, Hk1; apply (E7 _ H0)).
    assert (HP : pair_ok D c1 k nid).
    { split; [lia|]. split; [lia|]. split; [exact E3|]. split; [exact HnD|]. split; [exact Hdk|]. split; [rewrite Hk1; exact E5|]. split; [exact Hmn|]. split; [exact Hfr|].
      apply refines_of; auto; [lia|]. intros x n HT. apply Tn_0 in HT as (o & Ho & HT). rewrite Hpar in Ho. destruct (E7 o Ho) as (L1 & _ & _ & o' & L4 & L5).
      apply (Tn_in a ru I0 c1 k o'); [lia|rewrite gN; auto|]. apply (To_ext a ru I0 c c1); auto; [apply (proj1 HC k E2); auto|]. apply L5. revert HT. apply (To_ext a ru I0 c c1); auto. }
    apply (IH (with_dwait c1 (c_dwait c1 ++ [(k, [nid])])) c') in Hf as (B' & Ec).
    + split; [exact B'|]. rewrite Ec. apply (sc_cur _ _ SC).
    + apply (base_dwait D (fun N => False \/ N = nid) none).
      * exact B1.
      * intros N [].
      * intros N [[]|HN]. right. left. auto.
      * constructor; [intros []|constructor].
      * intros ch' [<-|[]]. auto.
      * exact E3.
      * exact Hdk.
      * rewrite Hk1. exact E5.
    + apply (map_ext solve a ru I0 D chs c1 _); auto; [apply (b_heap _ _ _ _ _ _ _ _ _ B1)|apply ext_same; reflexivity].
Qed.

(** ** one step of a replay *)
Hypothesis Hinp : forall m, m < List.length (ha_modes a) -> m_b (get_mode a m) <> None -> m_inv (get_mode a m) = [].
Notation loop_inv := (loop_inv solve cf a ru I0).

Lemma loop_same (D X : nat -> Prop) chs P c c' mp idx cur rest : D P -> loop_inv D X chs P c mp idx cur rest ->
  c_states c' = c_states c -> c_ops c' = c_ops c -> c_nodes c' = c_nodes c -> c_wait c' = c_wait c -> c_dwait c' = c_dwait c -> c_tt c' = c_tt c ->
  c_aggerr c' = c_aggerr c -> c_concerr c' = c_concerr c -> loop_inv D X chs P c' mp idx cur rest.
Proof.
  intros HP [B Hd (pre & Eo & Ei) Hch Hm Hcur] E1 E2 E3 E4 E5 E6 E7 E8. pose proof (b_heap _ _ _ _ _ _ _ _ _ B) as H.
  assert (E : ext c c') by (apply ext_same; auto). assert (HPn : P < nN c) by (apply (b_D _ _ _ _ _ _ _ _ _ B); auto).
  assert (En : forall N, getN c' N = getN c N) by (intro N; unfold getN; rewrite E3; reflexivity).
  assert (Es : forall i, getS c' i = getS c i) by (intro i; unfold getS; rewrite E1; reflexivity).
  assert (Hro : rest_ok c rest) by (apply (ops_rest solve cf a ru I0 _ _ _ _ _ _ _ B HP Eo)).
  constructor.
  - apply (base_same solve cf a ru I0 D X _ c); auto; try congruence.
  - apply (done_ext solve a ru I0 c c'); auto. rewrite En. reflexivity.
  - exists pre. rewrite En. auto.
  - intros ch Hc. apply (child_ok_ext solve a ru I0 c c'); auto; [rewrite En; reflexivity|]. unfold nst. rewrite En, Es. reflexivity.
  - apply (map_ext solve a ru I0 D chs c c'); auto. intros N _ _. rewrite En. reflexivity.
  - intros y Hy. rewrite (nop_step_ext c c'); auto. intros o ->. auto.
Qed.

Definition rep_ok (D : nat -> Prop) (c : core) (rp : replay) : Prop :=
  D (rp_parent rp) /\ NoDup (rp_children rp) /\ exists rest, loop_inv D (fun N => In N (rp_children rp)) (rp_children rp) (rp_parent rp) c (rp_map rp) (rp_idx rp) 0 rest.

Lemma left_last c N : left_inv c N = true -> exists k b, In (NLeft k b) (n_ops (getN c N)).
Proof.
  unfold left_inv. intro H. destruct (rev (n_ops (getN c N))) as [|y l] eqn:E; [discriminate|]. destruct y as [| k b|]; try discriminate. exists k, b. apply in_rev. rewrite E. left; auto.
Qed.

Lemma rep_start (D : nat -> Prop) c P chs dw : base D none [] c -> c_dwait c = (P, chs) :: dw -> rep_ok D (with_rep (with_dwait c dw) (Some (mkRep P chs 0 []))) (mkRep P chs 0 []).
Proof.
  intros B Edw. destruct (base_open D [] c P chs dw B Edw) as [HND B1]. set (c1 := with_dwait c dw) in *.
  destruct (b_dw2 _ _ _ _ _ _ _ _ _ B P chs) as (K1 & K2 & K3); [rewrite Edw; left; auto|].
  assert (E : ext c c1) by (apply ext_same; reflexivity). pose proof (b_heap _ _ _ _ _ _ _ _ _ B) as H. pose proof (b_heap _ _ _ _ _ _ _ _ _ B1) as H1. pose proof (heap_closed _ _ _ _ _ H) as HC.
  assert (HPn : P < nN c) by (apply (b_D _ _ _ _ _ _ _ _ _ B); auto).
  assert (Hd1 : done c1 P) by (apply (done_ext solve a ru I0 c c1); auto).
  split; [exact K1|]. split; [exact HND|]. exists (n_ops (getN c P)). cbn [rp_parent rp_children rp_map rp_idx].
  apply (loop_same D _ chs P c1); auto. constructor; auto.
  - exists []. auto.
  - intros ch Hch. destruct (b_dw _ _ _ _ _ _ _ _ _ B) as (_ & _ & L3). assert (Hp : pair_ok D c1 P ch).
    { apply (pair_ext solve a ru I0 D D c c1); auto; [|apply (L3 P chs ch); [rewrite Edw; left; auto|auto]]. destruct (L3 P chs ch) as (_ & _ & _ & M4 & _); [rewrite Edw; left; auto|auto|auto]. }
    destruct Hp as (M1 & M2 & M3 & M4 & M5 & M6 & M7 & M8 & M9). constructor; auto. right. exists False. constructor.
    + apply active_fresh; auto. rewrite M7. exact M6.
    + intros y Hy. unfold nst. rewrite (proj1 M8). apply Nat.le_0_l.
    + intros [].
    + intros k t (x & n & HT & Q). right. destruct (proj2 (proj2 M5) k t) as (o & Ho); [|exists o; exact Ho]. exists x, n. split; [apply M9; exact HT|]. rewrite M7 in Q. exact Q.
    + apply left_last. apply M5.
  - intros ch k os [].
  - intros y Hy. apply Nat.le_0_l.
Qed.

Lemma do_step_replay_ok (D : nat -> Prop) c c' : dg = true ->
  (c_rep c = None /\ base D none [] c) \/ (exists rp, c_rep c = Some rp /\ rep_ok D c rp) ->
  do_step_replay solve arnoldi cf a c = Ok c' ->
  c_cur c' = c_cur c /\ ((c_rep c' = None /\ base D none [] c') \/ (exists rp, c_rep c' = Some rp /\ rep_ok D c' rp)).
Proof.
  intros Hdg Hc Hs. unfold do_step_replay in Hs. apply bind_ok in Hs as (c1 & Hi & Hs).
  assert (K : c_cur c1 = c_cur c /\ exists rp, c_rep c1 = Some rp /\ rep_ok D c1 rp).
  { destruct Hc as [[Er B]|(rp & Er & R)]; rewrite Er in Hi.
    - destruct (c_dwait c) as [|[P chs] dw] eqn:Edw; [discriminate|]. apply ok_inj in Hi. subst c1. split; [reflexivity|]. eexists. split; [reflexivity|]. apply (rep_start D c P chs dw B Edw).
    - apply ok_inj in Hi. subst c1. split; [reflexivity|]. exists rp. auto. }
  clear Hc Hi. destruct K as (Ecur & [P chs idx mp] & Er & HP & HND & rest & L). rewrite <- Ecur. clear Ecur. rewrite Er in Hs. cbn [rp_parent rp_children rp_map rp_idx] in *.
  destruct (nth_error (n_ops (getN c1 P)) idx) as [x0|] eqn:En; [|discriminate].
  assert (Esk : skipn idx (n_ops (getN c1 P)) = rest). { destruct (li_ops _ _ _ _ _ _ _ _ _ _ _ _ _ _ L) as (pre & -> & <-). rewrite skipn_app, skipn_all, Nat.sub_diag. reflexivity. }
  rewrite Esk in Hs.
  assert (L0 : loop_inv D (fun N => In N chs) chs P c1 mp idx (nop_step c1 x0) rest).
  { destruct L as [B Hd (pre & Eo & Ei) Hch Hm Hcur]. constructor; auto; [exists pre; auto|].
    rewrite Eo in En. rewrite nth_error_app2 in En by lia. rewrite Ei, Nat.sub_diag in En. destruct rest as [|x1 rest]; [discriminate|]. injection En as ->.
    intros y [<-|Hy]; [lia|]. destruct Hd as (_ & Ho & _). unfold ordered in Ho. rewrite Eo in Ho. apply FOP_app_inv in Ho as [Ho _]. apply (ord_tail _ _ _ Ho y Hy). }
  apply bind_ok in Hs as ([[[[c2 mp2] idx2] cur2] pl2] & Hl & Hs).
  destruct (replay_loop_ok solve Hsolve cf a WH Hinp ru I0 D (fun N => In N chs) chs P Hdg HP ltac:(auto) HND rest c1 mp idx _ _ _ c2 mp2 idx2 cur2 pl2 L0 Hl) as (F2 & rest2 & L2).
  apply bind_ok in Hs as (c3 & Ha & Hs).
  destruct (advance_ok solve Hsolve cf a WH Hinp ru I0 D (fun N => In N chs) chs P mp2 idx2 cur2 rest2 HP ltac:(auto) chs c2 c3 ltac:(intros y Hy; exact Hy) HND L2 Ha) as (F3 & L3).
  assert (Ecur : c_cur c3 = c_cur c1) by (rewrite (fl_cur _ _ _ F3); apply F2). rewrite <- Ecur.
  apply bind_ok in Hs as ([] & _ & Hs).
  destruct ((List.length (n_ops (getN c3 P)) <=? idx2) || forallb (left_inv c3) chs) eqn:Efin.
  - apply bind_ok in Hs as (c4 & Hf & Hs). apply ok_inj in Hs. subst c'.
    assert (Hd : forall ch, In ch chs -> done c3 ch).
    { intros ch Hch. destruct (co_st _ _ _ _ _ _ _ (li_ch _ _ _ _ _ _ _ _ _ _ _ _ _ _ L3 ch Hch)) as [K|(f & A)]; [exact K|]. exfalso. apply orb_true_iff in Efin as [Efin|Efin].
      - apply Nat.leb_le in Efin. destruct (li_ops _ _ _ _ _ _ _ _ _ _ _ _ _ _ L3) as (pre & Eo & Ei). rewrite Eo, app_length, Ei in Efin. destruct rest2 as [|y r]; [|cbn in Efin; lia].
        destruct (ca_last _ _ _ _ _ _ _ A) as (k & b & []).
      - rewrite forallb_forall in Efin. specialize (Efin ch Hch). rewrite (active_left _ _ _ _ _ _ (ca_act _ _ _ _ _ _ _ A)) in Efin. discriminate. }
    assert (B3 : base D none (flat_map snd mp2) c3).
    { apply (base_close solve cf a ru I0 D (fun N => In N chs) none); [apply L3|intros N []|]. intros N HN _. destruct (in_dec Nat.eq_dec N chs); [right; auto|left; auto]. }
    destruct (finish_map_ok D chs mp2 c3 c4 B3 (li_map _ _ _ _ _ _ _ _ _ _ _ _ _ _ L3) Hf) as (B4 & Ec4). split; [exact Ec4|]. left. split; [reflexivity|].
    apply (base_same solve cf a ru I0 D none [] c4); auto.
  - apply ok_inj in Hs. subst c'. split; [reflexivity|]. right. eexists. split; [reflexivity|]. split; [exact HP|]. split; [exact HND|]. exists rest2. cbn [rp_parent rp_children rp_map rp_idx].
    apply (loop_same D _ chs P c3); auto. destruct L3; constructor; auto. intros y Hy. apply Nat.le_0_l.
Qed.
End Deagg.
