(** Preparing the automaton (Core.setup_ha) does not fail and keeps what the analysis needs; bounded initial sets (for C66). *)
From Verif Require Import Base BaseFacts LpModel LpSpec SetSpec LpUtil LpFacts LpWf SetFacts SetFacts2 MinkFacts OpsFacts OpsFacts2 OpsFacts3 OpsFacts4 AggFacts ChullFacts
  ApiSpec ApiFacts Automaton StateSet HybridSpec FlowFacts StateSpec StateFacts StateFacts2 StateFacts3 AutoFacts BuildFacts CoreModel HeapFacts Prop_Sets CoreOps CorePop CoreExt CoreDag CoreDag2 CoreDag3 CoreStep CoreGhost CoreCont CoreSpec CoreSetup
  Bounded Bounded2 Bounded3 Bounded4 Bounded5 Bounded6 Bounded7 CoreTotal CoreTotal2 CoreTotal3 CoreTotal4 CoreTotal5 CoreSubD SetupHa SetupHaSub Prop_Core Prop_Core2
  CoreInv CoreSub Names CexSpec NameFacts Layout TraceLp TraceState TraceReset CoreTrace CexSetup Prop_Cex Prop_Flag.
From Coq Require Import Lia Lqa Setoid QArith.Qabs.
Open Scope nat_scope.

(** ** what setup_ha keeps *)
Lemma trans_fits_same a a' t t' : (forall i, get_mode a' i = get_mode a i) -> t_from t' = t_from t -> t_reset t' = t_reset t -> t_mink t' = t_mink t ->
  (forall g' rhs', t_guard t' = Some (g', rhs') -> exists g rhs, t_guard t = Some (g, rhs) /\ c_nc g' = c_nc g) -> trans_fits a t -> trans_fits a' t'.
Proof.
  intros EM E1 E2 E3 EG [F1 F2]. split.
  - intros g' rhs' H. destruct (EG g' rhs' H) as (g & rhs & Hg & Hc). rewrite EM, E1, Hc. exact (F1 g rhs Hg).
  - rewrite E3. unfold post_dims in *. rewrite E2, E1, EM. exact F2.
Qed.
Lemma detect_fits a h N a' : fits a -> detect_tt a h N = Ok a' -> fits a'.
Proof.
  intros [F1 F2] H. apply detect_tt_ok in H as (Em & El & HR). assert (EM : forall i, get_mode a' i = get_mode a i) by (intro; apply get_mode_eq; auto). split.
  - intros m Hm. rewrite EM. apply F1. rewrite <- Em. exact Hm.
  - intros t Ht. rewrite El in Ht. destruct (HR t Ht) as (_ & R1 & R2 & R3 & R4 & _ & R5). apply (trans_fits_same a a' (get_trans a t)); auto.
    intros g' rhs' Hg. rewrite Hg in R5. destruct (t_guard (get_trans a t)) as [[g rhs]|]; [|destruct R5]. destruct R5 as (-> & _). eauto.
Qed.
Lemma gs_fits a a' : wf_ha a -> fits a -> do_guard_strengthening a = Ok a' -> fits a'.
Proof.
  intros W [F1 F2] H. split.
  - intros m Hm. rewrite (gs_get_mode a a' H). apply F1. rewrite <- (gs_modes a a' H). exact Hm.
  - intros t Ht. rewrite (gs_len a a' H) in Ht. pose proof (Forall2_nth _ _ _ dtrans dtrans t (gs_trans_F2 a a' H) Ht) as Hs. fold (get_trans a t) in Hs. fold (get_trans a' t) in Hs.
    apply strengthen_trans_ok in Hs as ((_ & B2 & _ & B4 & B5 & _) & Hs). apply (trans_fits_same a a' (get_trans a t)); auto; [intro; apply (gs_get_mode a a' H)|].
    intros g' rhs' Hg. destruct Hs as [Hs|(g & rhs & add & Hg0 & _ & _ & _ & _ & Hg1)]; [rewrite Hs in Hg; eauto|]. rewrite Hg1 in Hg. injection Hg as <- _. exists g, rhs. split; [exact Hg0|reflexivity].
Qed.
Lemma setup_ha_fits cf a0 a : wf_ha a0 -> fits a0 -> setup_ha cf a0 = Ok a -> fits a.
Proof.
  intros W F H. unfold setup_ha in H. apply bind_ok in H as (a1 & H1 & H). apply bind_ok in H as (a2 & H2 & H). apply bind_ok in H as (? & _ & H). injection H as ->.
  assert (K : wf_ha a1 /\ fits a1). { destruct (cf_tt cf); [|injection H1 as <-; auto]. split; [eapply detect_wf; eauto|eapply detect_fits; eauto]. }
  destruct K as [K1 K2]. destruct (cf_gs cf); [eapply gs_fits; eauto|injection H2 as ->; exact K2].
Qed.
Lemma setup_ha_index cf a0 a : wf_ha a0 -> index_ok a0 -> setup_ha cf a0 = Ok a -> index_ok a.
Proof.
  intros W F H. unfold setup_ha in H. apply bind_ok in H as (a1 & H1 & H). apply bind_ok in H as (a2 & H2 & H). apply bind_ok in H as (? & _ & H). injection H as ->.
  assert (K : wf_ha a1 /\ index_ok a1).
  { destruct (cf_tt cf); [|injection H1 as <-; auto]. split; [eapply detect_wf; eauto|]. apply detect_tt_ok in H1 as (Em & El & HR). apply (index_same a0 a1 El); [|exact F]. intros t Ht. destruct (HR t Ht) as (_ & R1 & _ & _ & _ & R2 & _). auto. }
  destruct K as [K1 K2]. destruct (cf_gs cf); [|injection H2 as ->; exact K2]. apply (index_same a1 a (gs_len a1 a H2)); [|exact K2]. intros t Ht. destruct (gs_trans a1 a K1 H2 t Ht) as ((_ & B2 & _ & _ & _ & _ & B7) & _). auto.
Qed.

(** ** setup_ha does not fail *)
Lemma relax_total tv inv w eps rows : (forall c, In c inv -> lc_w c = w) -> forall rhs, exists r, relax_rows tv inv w eps rows rhs = Ok r.
Proof.
  intros Hi. induction rows as [|r rows IH]; intro rhs; [destruct rhs; cbn; eauto|]. destruct rhs as [|b rhs]; [cbn; eauto|]. cbn [relax_rows].
  assert (Ef : exists fo, (if row_only tv r then find_opposite (fun c => Qeq_bool c (-1 * b)) inv w r else Ok false) = Ok fo) by (destruct (row_only tv r); [apply find_opposite_total; exact Hi|eauto]).
  destruct Ef as (fo & ->). cbn [bind]. destruct (IH rhs) as (q & ->). cbn [bind]. eauto.
Qed.
Lemma detect_total a h N : wf_ha a -> fits a -> 0 < N -> exists a', detect_tt a h N = Ok a'.
Proof.
  intros W F HN. unfold detect_tt. destruct (Nat.eqb_spec N 0); [lia|]. cbv zeta.
  match goal with |- exists a', bind (map_res ?f ?l) _ = _ => assert (E : exists ts, map_res f l = Ok ts) end.
  { apply map_res_ok. intros tr Hin. apply (In_nth _ _ dtrans) in Hin as (t & Ht & Et). fold (get_trans a t) in Et. subst tr. pose proof (proj2 W t Ht) as WT. destruct (proj2 F t Ht) as [FG _].
    destruct (wft_from _ _ WT) as [W1 W2]. destruct (is_error _); [eauto|]. destruct (get_tt_vars _) as [|v tv]; [eauto|]. unfold check_and_relax. cbv zeta. destruct (forallb _ _); [|eauto].
    destruct (wft_guard _ _ WT) as (g & rhs & Eg & _). rewrite Eg. pose proof (FG g rhs Eg) as Hw.
    destruct (relax_total (v :: tv) (m_inv (get_mode a (t_from (get_trans a t)))) (c_nc g) (h / inject_Z (Z.of_nat N) / 1000)%Q (c_rows g)) with (rhs := rhs) as (r & Er).
    { intros c Hc. rewrite Hw. pose proof (proj1 W _ W1) as WM. unfold m_dims. destruct (m_a (get_mode a (t_from (get_trans a t)))) as [x|] eqn:Ex; [|rewrite WM in Hc; destruct Hc]. apply (wfm_inv _ _ WM c Hc). }
    rewrite Er. cbn [bind]. eauto. }
  destruct E as (ts & ->). cbn [bind]. eauto.
Qed.

(** the rows of a guard and of the invariant of the mode behind it that are compared by almost_equals (the bounds agree up to 1e-13)
    store the same number of coefficients *)
Definition rows_comparable (a : ha) : Prop := forall t g rhs i r b c, t < List.length (ha_trans a) -> t_from (get_trans a t) <> t_to (get_trans a t) -> t_reset (get_trans a t) = None ->
  t_guard (get_trans a t) = Some (g, rhs) -> nth_error (c_rows g) i = Some r -> nth_error rhs i = Some b -> In c (m_inv (get_mode a (t_to (get_trans a t)))) ->
  (Qabs (b - lc_rhs c) <= tol13)%Q -> List.length r = List.length (lc_row c).

Lemma data_close_total tol xs : forall ys, List.length xs = List.length ys -> exists b, data_close xs ys tol = Ok b.
Proof.
  induction xs as [|x xs IH]; intros ys H; [cbn; eauto|]. destruct ys as [|y ys]; [discriminate|]. cbn [data_close]. destruct (Qle_bool _ _); [|eauto]. apply IH. cbn in H. lia.
Qed.
Lemma almost_total r w b c : ((Qabs (b - lc_rhs c) <= tol13)%Q -> List.length r = List.length (lc_row c)) -> exists e, almost_equals (mkLc r w b) c tol13 = Ok e.
Proof.
  intro H. unfold almost_equals. cbn [lc_rhs lc_row lc_w]. destruct (Qle_bool _ _) eqn:Eq; cbn [negb]; [|eauto]. apply Qle_bool_iff in Eq. specialize (H Eq). destruct (w =? lc_w c); cbn [negb]; [|eauto].
  unfold np_eq_all. rewrite !map_length, H, Nat.eqb_refl. cbn [bind]. destruct (forallb _ _); cbn [negb]; [|eauto]. apply data_close_total. rewrite !map_length. exact H.
Qed.
Lemma in_guard_total w c rows : forall rhs, List.length rows = List.length rhs -> (forall i r b, nth_error rows i = Some r -> nth_error rhs i = Some b -> (Qabs (b - lc_rhs c) <= tol13)%Q -> List.length r = List.length (lc_row c)) ->
  exists e, in_guard rows rhs w c = Ok e.
Proof.
  induction rows as [|r rows IH]; intros rhs Hl H; [cbn; eauto|]. destruct rhs as [|b rhs]; [discriminate|]. cbn [in_guard].
  destruct (almost_total r w b c (H 0 r b eq_refl eq_refl)) as (e & ->). cbn [bind]. destruct e; [eauto|]. apply IH; [cbn in Hl; lia|]. intros i r' b' H1 H2. exact (H (Datatypes.S i) r' b' H1 H2).
Qed.
Lemma missing_total w rows rhs inv : (forall c, In c inv -> exists e, in_guard rows rhs w c = Ok e) -> exists add, missing_invs rows rhs w inv = Ok add.
Proof.
  induction inv as [|c inv IH]; intro H; [cbn; eauto|]. cbn [missing_invs]. destruct (H c (or_introl eq_refl)) as (e & ->). cbn [bind]. destruct IH as (more & ->); [intros; apply H; right; auto|]. cbn [bind]. eauto.
Qed.
Lemma gs_total a : wf_ha a -> fits a -> (forall t, t < List.length (ha_trans a) -> t_tt (get_trans a t) = false -> forall g rhs i r b c, t_from (get_trans a t) <> t_to (get_trans a t) -> t_reset (get_trans a t) = None ->
  t_guard (get_trans a t) = Some (g, rhs) -> nth_error (c_rows g) i = Some r -> nth_error rhs i = Some b -> In c (m_inv (get_mode a (t_to (get_trans a t)))) ->
  (Qabs (b - lc_rhs c) <= tol13)%Q -> List.length r = List.length (lc_row c)) -> exists a', do_guard_strengthening a = Ok a'.
Proof.
  intros W F H. unfold do_guard_strengthening. match goal with |- exists a', bind (map_res ?f ?l) _ = _ => assert (E : exists ts, map_res f l = Ok ts) end.
  { apply map_res_ok. intros tr Hin. apply (In_nth _ _ dtrans) in Hin as (t & Ht & Et). fold (get_trans a t) in Et. subst tr. pose proof (proj2 W t Ht) as WT. destruct (proj2 F t Ht) as [FG _].
    unfold strengthen_trans. destruct (_ || _ || _) eqn:Ec; [eauto|]. apply orb_false_iff in Ec as [Ec Er]. apply orb_false_iff in Ec as [Ec Ett]. apply Nat.eqb_neq in Ec.
    destruct (t_reset (get_trans a t)) eqn:Ere; [discriminate|]. destruct (m_inv _) as [|c0 inv0] eqn:Ei; [eauto|]. rewrite <- Ei. destruct (wft_guard _ _ WT) as (g & rhs & Eg & Hok & Hl & _). rewrite Eg.
    destruct (missing_total (c_nc g) (c_rows g) rhs (m_inv (get_mode a (t_to (get_trans a t))))) as (add & Ea).
    { intros c Hc. apply in_guard_total; [exact Hl|]. intros i r b H1 H2 H3. exact (H t Ht Ett g rhs i r b c Ec Ere Eg H1 H2 Hc H3). }
    rewrite Ea. cbn [bind]. destruct add as [|d ds]; [eauto|]. set (add := d :: ds) in *. rewrite forallb_rows; [cbn [bind]; eauto|]. apply Forall_app. split; [exact Hok|].
    apply Forall_forall. intros r Hr. apply in_map_iff in Hr as (c & <- & Hc). pose proof (missing_invs_In _ _ _ _ _ _ Ea Hc) as Hin. pose proof (wft_to _ _ WT) as W2.
    pose proof (proj1 W _ W2) as WM. rewrite (FG g rhs Eg). destruct (m_a (get_mode a (t_to (get_trans a t)))) as [x|] eqn:Ex; [|rewrite WM in Hin; destruct Hin].
    assert (Ed : m_dims (get_mode a (t_from (get_trans a t))) = c_nr x). { pose proof (wft_dims _ _ WT) as Wd. unfold is_error in Wd. rewrite Ex in Wd. specialize (Wd eq_refl). unfold post_dims in Wd. rewrite Ere in Wd. rewrite Wd. unfold m_dims. rewrite Ex. reflexivity. }
    rewrite Ed. apply (wfm_inv _ _ WM c Hin). }
  destruct E as (ts & ->). cbn [bind]. eauto.
Qed.
Lemma check_total a : wf_ha a -> check_transitions a = Ok tt.
Proof.
  intros W. apply check_transitions_spec. intros tr Hin. apply (In_nth _ _ dtrans) in Hin as (t & Ht & Et). fold (get_trans a t) in Et. subst tr. pose proof (proj2 W t Ht) as WT.
  split; [apply (wft_from _ _ WT)|]. split; [destruct (wft_guard _ _ WT) as (g & rhs & -> & _); discriminate|]. intro He. pose proof (wft_dims _ _ WT He) as Hd. unfold post_dims in Hd.
  destruct (t_reset (get_trans a t)); [right; discriminate|left; exact Hd].
Qed.
Lemma setup_ha_total cf a0 : wf_ha a0 -> fits a0 -> 0 < cf_num cf -> (cf_gs cf = true -> rows_comparable a0) -> exists a, setup_ha cf a0 = Ok a.
Proof.
  intros W F HN HG. unfold setup_ha.
  assert (K : exists a1, (if cf_tt cf then detect_tt a0 (cf_step cf) (cf_num cf) else Ok a0) = Ok a1 /\ wf_ha a1 /\ fits a1 /\
     (rows_comparable a0 -> exists a2, do_guard_strengthening a1 = Ok a2)).
  { destruct (cf_tt cf).
    - destruct (detect_total a0 (cf_step cf) (cf_num cf) W F HN) as (a1 & E1). exists a1. split; [exact E1|]. pose proof (detect_wf _ _ _ _ W E1) as W1. pose proof (detect_fits _ _ _ _ F E1) as F1. split; [exact W1|]. split; [exact F1|].
      intro RC. apply gs_total; [exact W1|exact F1|]. apply detect_tt_ok in E1 as (Em & El & HR). assert (EM : forall i, get_mode a1 i = get_mode a0 i) by (intro; apply get_mode_eq; auto).
      intros t Ht Htt g rhs i r b c. rewrite El in Ht. destruct (HR t Ht) as (_ & R1 & R2 & R3 & R4 & _ & R5). rewrite R1, R2, R3, EM. intros H1 H2 H3 H4 H5 H6 H7. rewrite H3 in R5.
      destruct (t_guard (get_trans a0 t)) as [[g0 rhs0]|] eqn:Eg0; [|destruct R5]. destruct R5 as (-> & L & R5).
      destruct (nth_error rhs0 i) as [b0|] eqn:Eb0; [|apply nth_error_None in Eb0; assert (nth_error rhs i <> None) as Hne by congruence; apply nth_error_Some in Hne; lia].
      destruct (R5 i b0 Eb0) as (b' & Eb' & [->|(_ & Ktt & _)]); [|congruence]. rewrite H5 in Eb'. injection Eb' as ->. exact (RC t g0 rhs0 i r b0 c Ht H1 H2 Eg0 H4 Eb0 H6 H7).
    - exists a0. split; [reflexivity|]. split; [exact W|]. split; [exact F|]. intro RC. apply gs_total; [exact W|exact F|]. intros t Ht _ g rhs i r b c. exact (RC t g rhs i r b c Ht). }
  destruct K as (a1 & E1 & W1 & F1 & KG). rewrite E1. cbn [bind].
  assert (K2 : exists a2, (if cf_gs cf then do_guard_strengthening a1 else Ok a1) = Ok a2 /\ wf_ha a2).
  { destruct (cf_gs cf); [|exists a1; auto]. destruct (KG (HG eq_refl)) as (a2 & E2). exists a2. split; [exact E2|]. eapply gs_wf; eauto. }
  destruct K2 as (a2 & E2 & W2). rewrite E2. cbn [bind]. rewrite (check_total a2 W2). cbn [bind]. eauto.
Qed.
