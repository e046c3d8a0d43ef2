(** Deaggregation does not fail on bounded sets: one step of a replay, and the nodes made at its end (for C66). *)
From Verif Require Import Base BaseFacts LpModel LpSpec SetSpec LpUtil LpFacts LpWf SetFacts SetFacts2 MinkFacts OpsFacts OpsFacts2 OpsFacts3 OpsFacts4 AggFacts ChullFacts
  ApiSpec ApiFacts Automaton StateSet HybridSpec FlowFacts StateSpec StateFacts StateFacts2 StateFacts3 AutoFacts BuildFacts CoreModel HeapFacts Prop_Sets CoreOps CorePop CoreExt CoreDag CoreDag2 CoreDag3
  CoreGhost CoreHeap CoreInv CoreStep CoreCont CoreReplay CoreDeagg CoreIvl CoreShape CoreShape2
  Bounded Bounded2 Bounded3 Bounded4 Bounded5 Bounded6 Bounded7 ChullTotal CoreTotal CoreTotal2 CoreTotal3 CoreTotalD CoreTotalD2 CexD2 CexD3 CexD4.
From Coq Require Import Lia Lqa Setoid QArith.Qabs Permutation.
Open Scope nat_scope.

Section WithSolver.
Variable solve : solver.
Hypothesis Hsolve : solver_ok solve.
Hypothesis Hcomp : solver_complete solve.
Variable arnoldi : nat -> option (list Q) -> csr -> option csr -> nat -> list (list Q).
Hypothesis Harn : forall k ctr am r n, Forall (fun row => List.length row = n) (arnoldi k ctr am r n).
Variable cf : cfg.
Variable a : ha.
Hypothesis WH : wf_ha a.
Hypothesis HF : fits a.
Hypothesis Hinp : forall m, m < List.length (ha_modes a) -> m_b (get_mode a m) <> None -> m_inv (get_mode a m) = [].
Hypothesis Hnum : 0 < cf_num cf.
Hypothesis Hce : cf_ce cf = true -> CexSetup.index_ok a.
Notation kq := (kq cf a).
Variable ru : rules.
Variable I0 : nat -> vec -> Prop.
Notation dag := (dag cf a).
Notation tinv := (tinv solve a).
Notation xinv := (xinv a).
Notation cinv := (cinv cf a).
Notation err m := (is_error (get_mode a m)).
Notation base := (base solve cf a ru I0).
Notation done := (done a ru I0).
Notation dg := (dg cf).
Notation map_ok := (map_ok a ru I0).
Notation loop_inv := (loop_inv solve cf a ru I0).
Notation rep_ok := (rep_ok solve cf a ru I0).
Notation none := (fun _ : nat => False).

Lemma finish_one (D : nat -> Prop) chs mp c ch k os c1 nid : base D none (os ++ flat_map snd mp) c -> map_ok D chs c (((ch, k), os) :: mp) ->
  make_node solve arnoldi a c os (n_agg (getN c k)) (ss_agg (getS c (n_state (getN c k)))) = Ok (c1, nid) ->
  let c2 := with_dwait c1 (c_dwait c1 ++ [(k, [nid])]) in
  base D none (flat_map snd mp) c2 /\ map_ok D chs c2 mp /\ nN c <= nN c1 /\ forall N, N < nN c -> getN c1 N = getN c N.
Proof.
  intros B Hm Hmk c2'. subst c2'. pose proof (b_heap _ _ _ _ _ _ _ _ _ B) as H. pose proof (heap_closed _ _ _ _ _ H) as HC.
  destruct (Hm ch k os (or_introl eq_refl)) as [E1 E2 E3 E4 E5 E6 E7].
  rewrite <- (with_wait_id c) in Hmk at 1. destruct (b_mo _ _ _ _ _ _ _ _ _ B) as [O1 O2]. apply nodup_app_inv in O1 as (N1 & N2 & N3).
  assert (H0 : In (nth 0 os 0) os) by (destruct os; [congruence|left; auto]).
  destruct (base_make_node solve Hsolve cf a WH ru I0 arnoldi D none (os ++ flat_map snd mp) (flat_map snd mp) (c_wait c) c os _ _ c1 nid B Hmk)
    as (_ & Hnid & B1 & E & nN1 & nO1 & Hpar & Hfr & gN & Hmd & gch & gch' & gS & SC); auto.
  { intros o Ho. right. apply in_or_app; auto. }
  { intros o Ho. destruct (E7 o Ho) as (_ & _ & -> & _). destruct (E7 _ H0) as (_ & _ & -> & _). reflexivity. }
  { apply (b_wait _ _ _ _ _ _ _ _ _ B). }
  { intro o. split; [|tauto]. intro Ho. split; [exact Ho|]. intro Hi. destruct (O2 o) as (_ & _ & K & _); [apply in_or_app; auto|auto]. }
  { intro o. rewrite in_app_iff. split; [intro Ho; split; [auto|intro Hi; exact (N3 o Hi Ho)]|tauto]. }
  { intros _ o Ho. destruct (E7 o Ho) as (_ & -> & _). discriminate. }
  { intros _ o o' Ho Ho'. destruct (E7 o Ho) as (_ & -> & _). destruct (E7 o' Ho') as (_ & -> & _). reflexivity. }
  { intros _ o Ho _. destruct (E7 o Ho) as (_ & _ & -> & _). rewrite E5. discriminate. }
  assert (Hm1 : map_ok D chs c1 mp). { apply (map_ext solve a ru I0 D chs c c1); auto; [intros N _ HN; rewrite gN; auto|]. intros ch' k' os' Hi. apply Hm. right; auto. }
  assert (Hk1 : nmode c1 k = nmode c k) by (apply nmode_ext; auto).
  assert (Hdk : done c1 k) by (apply (done_ext solve a ru I0 c c1); auto; rewrite gN; auto).
  assert (HnD : ~ D nid) by (intro K; apply (b_D _ _ _ _ _ _ _ _ _ B) in K; lia).
  assert (Hmn : nmode c1 nid = nmode c1 k) by (rewrite Hmd, Hk1; apply (E7 _ H0)).
  assert (HP : pair_ok a ru I0 D c1 k nid).
  { split; [lia|]. split; [lia|]. split; [exact E3|]. split; [exact HnD|]. split; [exact Hdk|]. split; [rewrite Hk1; exact E5|]. split; [exact Hmn|]. split; [exact Hfr|].
    apply refines_of; auto; [lia|]. intros x n HT. apply Tn_0 in HT as (o & Ho & HT). rewrite Hpar in Ho. destruct (E7 o Ho) as (L1 & _ & _ & o' & L4 & L5).
    apply (Tn_in a ru I0 c1 k o'); [lia|rewrite gN; auto|]. apply (To_ext a ru I0 c c1); auto; [apply (proj1 HC k E2); auto|]. apply L5. revert HT. apply (To_ext a ru I0 c c1); auto. }
  split; [|split; [|split; [lia|exact gN]]].
  - apply (base_dwait solve cf a ru I0 D (fun N => False \/ N = nid) none).
    + exact B1.
    + intros N [].
    + intros N [[]|HN]. right. left. auto.
    + constructor; [intros []|constructor].
    + intros ch' [<-|[]]. auto.
    + exact E3.
    + exact Hdk.
    + rewrite Hk1. exact E5.
  - apply (map_ext solve a ru I0 D chs c1 _); auto; [apply (b_heap _ _ _ _ _ _ _ _ _ B1)|apply ext_same; reflexivity].
Qed.

Lemma finish_map_total (D : nat -> Prop) chs : forall mp c, base D none (flat_map snd mp) c -> map_ok D chs c mp -> dag mp c -> tinv c ->
  (forall ch k os, In ((ch, k), os) mp -> 2 <= List.length os -> n_agg (getN c k) <> None) -> exists c', finish_map solve arnoldi a c mp = Ok c' /\ tinv c'.
Proof.
  induction mp as [|[[ch k] os] mp IH]; intros c B Hm Dg T Hag; cbn [finish_map]; [eauto|]. cbn [flat_map snd] in B.
  destruct (Hm ch k os (or_introl eq_refl)) as [E1 E2 E3 E4 E5 E6 E7]. destruct (d_map _ _ _ _ Dg ch k os (or_introl eq_refl)) as (P1 & P2 & P3 & P4).
  pose proof (b_heap _ _ _ _ _ _ _ _ _ B) as H.
  assert (D0 : dag mp c). { pose proof (d_mapnd _ _ _ _ Dg) as ND. unfold pending in ND. cbn [map snd List.concat] in ND. apply NoDup_app_split in ND as (N1 & N2 & N3). constructor; try apply Dg; [exact N2|]. intros ch' k' os' K. apply (d_map _ _ _ _ Dg). right; auto. }
  assert (H0 : In (nth 0 os 0) os) by (destruct os; [congruence|left; auto]).
  destruct (make_node_total solve Hsolve Hcomp arnoldi Harn cf a WH HF Hnum c mp os (n_agg (getN c k)) (ss_agg (getS c (n_state (getN c k)))) D0 T P1) as (c1 & nid & Emk & T1).
  { intros o Ho. apply (P4 o Ho). }
  { intro H2. specialize (Hag ch k os (or_introl eq_refl) H2). destruct (n_agg (getN c k)) as [[kind g]|]; [|congruence]. exists kind, g. split; [reflexivity|].
    assert (Em : forall o, In o os -> omode c o = nmode c k) by (intros o Ho; apply (E7 o Ho)). rewrite (Em _ H0). split; [exact E5|]. intros o Ho.
    destruct (E7 o Ho) as (K1 & K2 & K3 & _). split; [congruence|]. split; [apply Em; exact Ho|].
    apply (pr_ne _ _ _ _ _ (h_prist _ _ _ _ _ H o K1 ltac:(intros N HN; destruct (P4 o Ho) as (_ & K & _); congruence))). }
  rewrite Emk. cbn [bind]. destruct (finish_one D chs mp c ch k os c1 nid B Hm Emk) as (B2 & M2 & L2 & G2).
  apply IH; auto.
  - pose proof (finish_dag _ _ _ _ _ _ _ _ _ _ _ Dg Emk) as D1. apply (dag_wait cf a _ c1); auto; apply D1.
  - apply (tinv_same solve a c1); auto.
  - intros ch' k' os' Hi H2. change (n_agg (getN c1 k') <> None). destruct (Hm ch' k' os' (or_intror Hi)) as [_ Q2 _ _ _ _ _]. rewrite G2 by exact Q2. apply (Hag ch' k' os'); [right; exact Hi|exact H2].
Qed.

Lemma trl_in xs o : In o (trl xs) <-> In (NTr o) xs.
Proof.
  unfold trl. rewrite in_flat_map. split.
  - intros (x & Hx & Ho). destruct x as [k i b|k b|o']; [destruct Ho|destruct Ho|]. destruct Ho as [<-|[]]. exact Hx.
  - intro Hx. exists (NTr o). split; [exact Hx|left; reflexivity].
Qed.
Lemma cnt_parents mp c P i k : dag mp c -> xinv c -> P < nN c -> cnt c (firstn i (n_ops (getN c P))) k <= List.length (n_parents (getN c k)).
Proof.
  intros Dg X HP. unfold cnt. apply NoDup_incl_length.
  - apply NoDup_filter. pose proof (x_nd _ _ X P HP) as ND. change (tr_ops (getN c P)) with (trl (n_ops (getN c P))) in ND. rewrite <- (firstn_skipn i (n_ops (getN c P))) in ND. rewrite trl_app in ND. apply NoDup_app_split in ND. apply ND.
  - intros o Ho. apply filter_In in Ho as [Ho Hl]. apply trl_in in Ho. assert (Hi : In (NTr o) (n_ops (getN c P))) by (rewrite <- (firstn_skipn i (n_ops (getN c P))); apply in_or_app; left; exact Ho).
    destruct (d_ntr _ _ _ _ Dg P o HP Hi) as [Hlt _]. unfold leads in Hl. destruct (o_child (getO c o)) as [k'|] eqn:Ek; [|discriminate]. apply Nat.eqb_eq in Hl. subst k'. apply (d_child _ _ _ _ Dg o k Hlt Ek).
Qed.

(** what is kept between two steps of a replay *)
Definition repx (c : core) : Prop := forall rp, c_rep c = Some rp -> rp_idx rp < List.length (n_ops (getN c (rp_parent rp))) /\ mapb c (rp_map rp) (fun _ => firstn (rp_idx rp) (n_ops (getN c (rp_parent rp)))).

Lemma do_step_replay_total (D : nat -> Prop) c : dg = true ->
  (c_rep c = None /\ base D none [] c /\ c_dwait c <> []) \/ (exists rp, c_rep c = Some rp /\ rep_ok D c rp) ->
  cinv c -> tinv c -> kq c -> xinv c -> repx c -> exists c', do_step_replay solve arnoldi cf a c = Ok c' /\ tinv c' /\ repx c' /\ kq c'.
Proof.
  intros Hdg Hc V T KQ X Hrx. unfold do_step_replay.
  assert (K : exists c1, match c_rep c, c_dwait c with Some _, _ => Ok c | None, (p, chs) :: dw => Ok (with_rep (with_dwait c dw) (Some (mkRep p chs 0 []))) | None, [] => Err EAssert end = Ok c1 /\
     exists rp, c_rep c1 = Some rp /\ rep_ok D c1 rp /\ rp_idx rp < List.length (n_ops (getN c1 (rp_parent rp))) /\ mapb c1 (rp_map rp) (fun _ => firstn (rp_idx rp) (n_ops (getN c1 (rp_parent rp)))) /\
       tinv c1 /\ xinv c1 /\ dag (rp_map rp) c1 /\ kq c1).
  { destruct Hc as [(Er & B & Hdw)|(rp & Er & R)].
    - rewrite Er. destruct (c_dwait c) as [|[P chs] dw] eqn:Edw; [congruence|]. eexists. split; [reflexivity|]. eexists. split; [reflexivity|]. split; [apply (rep_start solve cf a ru I0 D c P chs dw B Edw)|].
      cbn [rp_idx rp_parent rp_map]. split; [|split; [intros ? ? ? []|split; [|split]]].
      + change (0 < List.length (n_ops (getN c P))). destruct (b_dw2 _ _ _ _ _ _ _ _ _ B P chs) as (_ & (Hl & _) & _); [rewrite Edw; left; auto|]. destruct (left_last c P Hl) as (k & b & Hi). destruct (n_ops (getN c P)); [destruct Hi|cbn; lia].
      + apply (tinv_same solve a c); auto.
      + apply (xinv_same a c); [exact X|]. apply same3_eq; reflexivity.
      + split; [pose proof (ci_dag _ _ _ V) as Dg; unfold rep_map in Dg; rewrite Er in Dg; apply (dag_wait cf a _ c); auto; apply Dg|]. intro Ec. apply (kinv_same cf a c); [exact (KQ Ec)|]. apply sg_eq; reflexivity.
    - rewrite Er. exists c. split; [reflexivity|]. exists rp. destruct (Hrx rp Er) as [Q1 Q2]. split; [exact Er|]. split; [exact R|]. split; [exact Q1|]. split; [exact Q2|]. split; [exact T|]. split; [exact X|].
      split; [|exact KQ]. pose proof (ci_dag _ _ _ V) as Dg. unfold rep_map in Dg. rewrite Er in Dg. exact Dg. }
  clear Hc Hrx T X V KQ. destruct K as (c1 & E1 & [P chs idx mp] & Er & (HP & HND & rest & L) & Hidx & HB & T & X & Dg & KQ). rewrite E1. clear E1. cbn [bind]. rewrite Er. cbn [rp_parent rp_children rp_map rp_idx] in *.
  destruct (nth_error (n_ops (getN c1 P)) idx) as [x0|] eqn:En; [|apply nth_error_None in En; lia].
  assert (Esk : skipn idx (n_ops (getN c1 P)) = rest). { destruct (li_ops _ _ _ _ _ _ _ _ _ _ _ _ _ _ L) as (pre & -> & <-). rewrite skipn_app, skipn_all, Nat.sub_diag. reflexivity. }
  rewrite Esk.
  assert (Hr0 : exists r0, rest = x0 :: r0).
  { destruct L as [B Hd (pre & Eo & Ei) Hch Hm Hcur]. rewrite Eo in En. rewrite nth_error_app2 in En by lia. rewrite Ei, Nat.sub_diag in En. destruct rest as [|x1 rest]; [discriminate|]. injection En as ->. eauto. }
  assert (L0 : loop_inv D (fun N => In N chs) chs P c1 mp idx (nop_step c1 x0) rest).
  { destruct Hr0 as (r0 & ->). destruct L as [B Hd (pre & Eo & Ei) Hch Hm Hcur]. constructor; auto; [exists pre; auto|].
    intros y [<-|Hy]; [lia|]. destruct Hd as (_ & Ho & _). unfold ordered in Ho. rewrite Eo in Ho. apply FOP_app_inv in Ho as [Ho _]. apply (ord_tail _ _ _ Ho y Hy). }
  pose proof (li_base _ _ _ _ _ _ _ _ _ _ _ _ _ _ L) as B. assert (HPn : P < nN c1) by (apply (b_D _ _ _ _ _ _ _ _ _ B); auto).
  assert (Hix : idx_ok a c1 P rest). { intros k i b Hi. apply (x_inv _ _ X P k i b HPn). rewrite <- (firstn_skipn idx (n_ops (getN c1 P))), Esk. apply in_or_app. right. exact Hi. }
  assert (Hle : forall ch, In ch chs -> le_step c1 (nop_step c1 x0) ch).
  { intros ch Hch. destruct (co_st _ _ _ _ _ _ _ (li_ch _ _ _ _ _ _ _ _ _ _ _ _ _ _ L ch Hch)) as [(K & _)|(f & A)]; [left; exact K|right]. destruct Hr0 as (r0 & ->). apply (ca_step _ _ _ _ _ _ _ A). left. reflexivity. }
  match goal with |- context [replay_loop _ _ _ _ _ _ _ _ ?o ?p _] => destruct (replay_loop_total solve Hsolve Hcomp cf a WH HF Hinp Hnum Hce ru I0 D (fun N => In N chs) chs P Hdg HP ltac:(auto) HND rest c1 mp idx (nop_step c1 x0) o p L0 Dg T KQ Hix Hle HB)
    as (c2 & mp2 & idx2 & cur2 & pl2 & Hl & T2 & S2 & B2m) end.
  rewrite Hl. cbn [bind].
  destruct (replay_loop_ok solve Hsolve cf a WH Hinp ru I0 D (fun N => In N chs) chs P Hdg HP ltac:(auto) HND rest c1 mp idx _ _ _ c2 mp2 idx2 cur2 pl2 L0 Hl) as (F2 & rest2 & L2).
  assert (Hcn : forall ch, In ch chs -> ch < nN c1) by (intros ch Hch; apply (co_N _ _ _ _ _ _ _ (li_ch _ _ _ _ _ _ _ _ _ _ _ _ _ _ L ch Hch))).
  assert (Hrn : forall o, In (NTr o) rest -> o < nO c1). { intros o Ho. apply (d_ntr _ _ _ _ Dg P o HPn). rewrite <- (firstn_skipn idx (n_ops (getN c1 P))), Esk. apply in_or_app. right. exact Ho. }
  destruct (dag_replay_loop solve cf a chs rest c1 mp idx _ _ _ c2 mp2 idx2 cur2 pl2 Dg Hcn Hrn Hl) as (Dg2 & _).
  pose proof (xinv_replay_loop solve cf a chs rest c1 mp idx _ _ _ c2 mp2 idx2 cur2 pl2 Dg X Hcn Hrn Hl) as X2.
  assert (KQ2 : kq c2).
  { intro Ec. refine (kinv_replay_loop solve cf a WH (Hce Ec) P chs rest c1 mp idx _ _ _ c2 mp2 idx2 cur2 pl2 Dg (KQ Ec) HPn _ _ Hl).
    - intros ch Q. destruct (li_ch _ _ _ _ _ _ _ _ _ _ _ _ _ _ L ch Q) as [Q1 Q2 _ _]. split; [exact Q1|exact Q2].
    - intros o Ho. apply (d_ntr _ _ _ _ Dg P o HPn). rewrite <- (firstn_skipn idx (n_ops (getN c1 P))), Esk. apply in_or_app. right. exact Ho. }
  destruct (advance_total solve Hsolve cf a WH HF Hinp Hnum ru I0 D (fun N => In N chs) chs P mp2 idx2 cur2 rest2 HP ltac:(auto) chs c2 ltac:(intros y Hy; exact Hy) HND L2 Dg2 T2 S2) as (c3 & Ha & T3 & S3).
  rewrite Ha. cbn [bind].
  destruct (advance_ok solve Hsolve cf a WH Hinp ru I0 D (fun N => In N chs) chs P mp2 idx2 cur2 rest2 HP ltac:(auto) chs c2 c3 ltac:(intros y Hy; exact Hy) HND L2 Ha) as (F3 & L3).
  destruct (dag_advance cf a mp2 cur2 chs c2 c3 Dg2 Ha) as [Dg3 _]. pose proof (xinv_advance a cur2 chs c2 c3 X2 Ha) as X3.
  assert (KQ3 : kq c3) by (intro Ec; apply (kinv_same cf a c2); [exact (KQ2 Ec)|]; eapply sg_advance; exact Ha).
  match goal with |- context [assert ?b] => replace b with true end.
  2:{ symmetry. apply orb_true_iff. right. apply forallb_forall. intros ch Hch. apply orb_true_iff. destruct (S3 ch Hch) as [Q|Q]; [left; exact Q|right; apply Nat.eqb_eq; exact Q]. }
  cbn [assert bind].
  assert (HPc : ~ In P chs) by (intro K; apply (b_X _ _ _ _ _ _ _ _ _ B) in K; tauto).
  assert (HP2 : P < nN c2) by (pose proof (b_D _ _ _ _ _ _ _ _ _ (li_base _ _ _ _ _ _ _ _ _ _ _ _ _ _ L2) P HP); lia).
  assert (HP3 : P < nN c3) by (pose proof (b_D _ _ _ _ _ _ _ _ _ (li_base _ _ _ _ _ _ _ _ _ _ _ _ _ _ L3) P HP); lia).
  assert (Eops : n_ops (getN c3 P) = n_ops (getN c2 P)) by (apply (fl_ops _ _ _ F3); exact HPc).
  assert (B3m : mapb c3 mp2 (fun _ => firstn idx2 (n_ops (getN c3 P)))).
  { apply (mapb_mono c2 c3 mp2 _ _ B2m). intros ch k. rewrite Eops. apply Nat.eq_le_incl. symmetry. apply cnt_ext. intros o Ho. apply (fl_old _ _ _ F3). apply (d_ntr _ _ _ _ Dg2 P o HP2). rewrite <- (firstn_skipn idx2 (n_ops (getN c2 P))). apply in_or_app. left. exact Ho. }
  destruct ((List.length (n_ops (getN c3 P)) <=? idx2) || forallb (left_inv c3) chs) eqn:Efin.
  - assert (Hd : forall ch, In ch chs -> done c3 ch).
    { intros ch Hch. destruct (co_st _ _ _ _ _ _ _ (li_ch _ _ _ _ _ _ _ _ _ _ _ _ _ _ L3 ch Hch)) as [K|(f & A)]; [exact K|]. exfalso. apply orb_true_iff in Efin as [Efin|Efin].
      - apply Nat.leb_le in Efin. destruct (li_ops _ _ _ _ _ _ _ _ _ _ _ _ _ _ L3) as (pre & Eo & Ei). rewrite Eo, app_length, Ei in Efin. destruct rest2 as [|y r]; [|cbn in Efin; lia].
        destruct (ca_last _ _ _ _ _ _ _ A) as (k & b & []).
      - rewrite forallb_forall in Efin. specialize (Efin ch Hch). rewrite (active_left _ _ _ _ _ _ (ca_act _ _ _ _ _ _ _ A)) in Efin. discriminate. }
    assert (B3 : base D none (flat_map snd mp2) c3).
    { apply (base_close solve cf a ru I0 D (fun N => In N chs) none); [apply L3|intros N []|]. intros N HN _. destruct (in_dec Nat.eq_dec N chs); [right; auto|left; auto]. }
    destruct (finish_map_total D chs mp2 c3 B3 (li_map _ _ _ _ _ _ _ _ _ _ _ _ _ _ L3) Dg3 T3) as (c4 & Hf & T4).
    { intros ch k os Hi H2. destruct (li_map _ _ _ _ _ _ _ _ _ _ _ _ _ _ L3 ch k os Hi) as [_ Q2 _ _ _ _ _]. apply (x_agg _ _ X3 k Q2). pose proof (B3m ch k os Hi). pose proof (cnt_parents _ c3 P idx2 k Dg3 X3 HP3). lia. }
    rewrite Hf. cbn [bind]. eexists. split; [reflexivity|]. split; [apply (tinv_same solve a c4); auto|]. split; [intros rp K; discriminate|]. intro Ec. apply (kinv_same cf a c4); [|apply sg_eq; reflexivity]. exact (kinv_finish solve arnoldi cf a mp2 c3 c4 Dg3 (KQ3 Ec) Hf).
  - eexists. split; [reflexivity|]. split; [apply (tinv_same solve a c3); auto|]. split; [|intro Ec; apply (kinv_same cf a c3); [exact (KQ3 Ec)|apply sg_eq; reflexivity]]. intros rp K. cbn [c_rep with_rep] in K. injection K as <-. cbn [rp_idx rp_parent rp_map].
    apply orb_false_iff in Efin as [Efin _]. apply Nat.leb_gt in Efin. split; [exact Efin|]. exact B3m.
Qed.
End WithSolver.
