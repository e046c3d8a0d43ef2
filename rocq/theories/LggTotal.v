(** apply_approx_lgg does not fail on bounded state sets of modes without inputs (for C66). *)
From Verif Require Import Base BaseFacts LpModel LpSpec SetSpec LpUtil LpFacts LpWf SetFacts SetFacts2 MinkFacts OpsFacts OpsFacts2 OpsFacts3 OpsFacts4 AggFacts ChullFacts
  ApiSpec ApiFacts Automaton StateSet HybridSpec FlowFacts StateSpec StateFacts StateFacts2 StateFacts3 AutoFacts BuildFacts CoreModel HeapFacts Prop_Sets CoreOps CorePop CoreGhost CoreHeap CoreInv CoreStep CoreExt CoreDag CoreDag2 CoreDag3 CoreCont CoreSpec CoreSetup
  Bounded Bounded2 Bounded3 Bounded4 Bounded5 Bounded6 Bounded7 ChullTotal CoreTotal CoreTotal2 CoreTotal3 CoreTotal4 CoreSubD Prop_Core2 Approx ApproxFacts FreshFacts LggFacts CoreApprox ApproxInv CoreTotalA.
From Coq Require Import Lia Lqa Setoid QArith.Qabs.
Open Scope list_scope.
Open Scope nat_scope.

(** ** bloat *)
Lemma bloat_total l a BM nu IEs : wf_lp l BM nu IEs -> 0 < l_dims l -> (0 <= a)%Q -> exists l', bloat l a = Ok l'.
Proof.
  intros W Hd Ha. unfold bloat. rewrite (proj2 (Qle_bool_iff 0 a) Ha). cbn [assert bind]. unfold set_constraints_csc. cbn [cc_nr cc_cols fst snd].
  match goal with |- exists _, (if ?b then _ else _) = _ => replace b with false; [eauto|] end. symmetry. apply orb_false_iff. split; apply Nat.ltb_ge; unfold l_nr, l_nc, add_rows_le, add_cols; cbn [l_rows l_names with_rows with_names];
  rewrite ?app_length, ?map_length, ?repeat_length, ?seq_length; lia.
Qed.
Lemma bloat_obj l a l' : bloat l a = Ok l' -> l_obj l' = l_obj l /\ l_nc l' = l_nc l + l_dims l.
Proof.
  unfold bloat. intro H. apply bind_ok in H as (u & _ & H). cbv zeta in H. unfold set_constraints_csc in H. destruct (_ || _) in H; [discriminate H|]. injection H as <-. split; [reflexivity|].
  unfold l_nc, add_rows_le, add_cols; cbn [l_rows l_names with_rows with_names]. rewrite app_length, map_length, seq_length. reflexivity.
Qed.
Lemma bloat_lb l a l' BM nu IEs J : wf_lp l BM nu IEs -> 0 < l_dims l -> bloat l a = Ok l' -> cb l J -> lb l'.
Proof.
  intros W Hd Hb B c Hc. destruct (bloat_obj _ _ _ Hb) as [_ Enc]. destruct (bloat_ok l l' a BM nu IEs W Hd Hb) as (Ha & _ & Hold & Hnew & Hnr).
  assert (New : forall j, j < l_dims l -> bnd (lp_sat l') (fun x => x (l_nc l + j))).
  { intros j Hj. exists a. intros x Hx. rewrite lp_sat_nth in Hx.
    assert (E1 := Hx _ _ (Hnew (2 * j) ltac:(lia))). unfold row_sat in E1. cbn [r_ty r_co r_rhs] in E1. rewrite (bloat_val_up l BM nu IEs W Hd) in E1 by exact Hj.
    assert (E2 := Hx _ _ (Hnew (2 * j + 1) ltac:(lia))). unfold row_sat in E2. cbn [r_ty r_co r_rhs] in E2. rewrite (bloat_val_dn l BM nu IEs W Hd) in E2 by exact Hj.
    apply Qabs_Qle_condition. lra. }
  assert (Sub : forall x, lp_sat l' x -> core_exc l J x).
  { intros x Hx i r Hr _ Nb _. rewrite lp_sat_nth in Hx. assert (Hi : i < l_nr l) by (apply nth_error_Some; congruence). specialize (Hx _ _ (Hold _ _ Hr)). revert Hx. unfold set_co, row_sat. cbn [r_ty r_co r_rhs].
    match goal with |- context [reval (r_co r ++ ?e) x] => assert (E : (reval (r_co r ++ e) x == reval (r_co r) x)%Q) by (rewrite reval_app, (bloat_val_old l Hd) by auto; ring) end.
    destruct (r_ty r); rewrite E; auto. }
  assert (Core : forall d, d < l_cvo l \/ uoff l <= d < l_nc l -> bnd (lp_sat l') (fun x => x d)) by (intros d Hd'; exact (bnd_sub _ _ _ Sub (B d Hd'))).
  destruct (Nat.lt_ge_cases c (l_nc l)) as [Lc|Lc]; [|replace c with (l_nc l + (c - l_nc l)) by lia; apply New; lia].
  destruct (Nat.lt_ge_cases c (l_cvo l)) as [L|L]; [apply Core; left; exact L|]. destruct (Nat.le_gt_cases (uoff l) c) as [U|U]; [apply Core; right; lia|].
  assert (IE : forall i, i < l_dims l -> bnd (lp_sat l') (fun x => ti l x i)).
  { intros i Hi. pose proof (wf_ies _ _ _ _ W) as HI. unfold ti. destruct (l_ie l) as [[ier iec]|] eqn:Eie; [|exact (bnd_const _ 0%Q)]. destruct HI as (Hiec & Hle & Hnc & HF & HR). destruct (HR i Hi) as (co & Hn & Hv).
    assert (Eu : uoff l = iec + l_dims l) by (unfold uoff; rewrite Eie; reflexivity).
    apply (bnd_ext _ (ie_val nu IEs i (iec + l_dims l))).
    - intros x Hx. rewrite lp_sat_nth in Hx. assert (Hlt : ier + i < l_nr l) by (apply nth_error_Some; congruence). specialize (Hx _ _ (Hold _ _ Hn)). unfold set_co, row_sat in Hx. cbn [r_ty r_co r_rhs] in Hx.
      rewrite reval_app, (bloat_val_old l Hd) in Hx; [|exact Hlt|].
      + rewrite Hv in Hx. lra.
      + intro K. apply (is_bm_not_ie _ _ _ _ _ W) in K. apply K. unfold is_ie. rewrite Eie. lia.
    - apply bnd_ie_val with (n := l_dims l); [exact HF|exact Hi|]. intros d Hd'. apply Core. right. lia. }
  destruct (Nat.lt_ge_cases c (l_cvo l + l_dims l)) as [C|C].
  - set (i := c - l_cvo l). assert (Hi : i < l_dims l) by (unfold i; lia). destruct (wf_bmrows _ _ _ _ W i Hi) as (co & Hn & Hv).
    apply (bnd_ext _ (fun x => (ldot (mrow BM i) (snd (l_bm l)) x + (ti l x i + x (l_nc l + i)%nat))%Q)).
    + intros x Hx. rewrite lp_sat_nth in Hx. specialize (Hx _ _ (Hold _ _ Hn)). unfold set_co, row_sat in Hx. cbn [r_ty r_co r_rhs] in Hx.
      rewrite reval_app, (bloat_val_bm l BM nu IEs W Hd), Hv in Hx by exact Hi. replace c with (l_cvo l + i) by (unfold i; lia). lra.
    + apply bnd_add; [|apply bnd_add; [apply IE; exact Hi|apply New; exact Hi]]. apply bnd_ldot. intros d Hd'. rewrite (mat_dims_mrow _ _ _ _ (wf_bmdims _ _ _ _ W) Hi) in Hd'. pose proof (wf_bmc _ _ _ _ W). apply Core. left. lia.
  - pose proof (wf_ies _ _ _ _ W) as HI. destruct (l_ie l) as [[ier iec]|] eqn:Eie; [|unfold uoff in U; rewrite Eie in U; lia]. destruct HI as (Hiec & _). assert (Eu : uoff l = iec + l_dims l) by (unfold uoff; rewrite Eie; reflexivity).
    assert (Hi : c - iec < l_dims l) by lia. specialize (IE (c - iec) Hi). unfold ti in IE. rewrite Eie in IE. replace (iec + (c - iec)) with c in IE by lia. exact IE.
Qed.
Lemma bloat_clonable l a l' BM nu IEs : wf_lp l BM nu IEs -> 0 < l_dims l -> bloat l a = Ok l' -> clonable l -> clonable l'.
Proof.
  intros W Hd Hb (C1 & C2 & C3). destruct (bloat_obj _ _ _ Hb) as [_ Enc]. destruct (bloat_ok l l' a BM nu IEs W Hd Hb) as (_ & (D & E1 & E2 & E3) & _ & _ & Hnr). unfold clonable. rewrite ?D, ?E1, ?E3, Enc, Hnr.
  split; [lia|]. split; [lia|]. destruct (l_ie l) as [[r c]|]; [|exact Logic.I]. lia.
Qed.

Section R.
Variable solve : solver.
Hypothesis Hsolve : solver_ok solve.
Hypothesis Hcomp : solver_complete solve.

(** compute_radius_inf *)
Lemma radius_loop_total work : forall l acc, lp_fine l -> (exists x, lp_sat l x) -> exists r, radius_loop solve l work acc = Ok r /\ (work <> [] \/ acc <> None -> r <> None).
Proof.
  induction work as [|[n s] w IH]; intros l acc HF (x & Hx); cbn [radius_loop]; [exists acc; split; [reflexivity|tauto]|]. pose proof HF as ((C & V) & O & B).
  destruct (set_min_dir_total l (map (fun d => if Nat.eqb n d then s else 0%Q) (seq 0 (l_dims l))) V) as (l1 & E1 & O1 & o & Eo); [rewrite map_length, seq_length; lia|]. rewrite E1. cbn [bind]. subst l1.
  assert (HF1 : lp_fine (with_obj l o)) by (apply fine_obj; assumption). pose proof HF1 as ((C1 & V1) & _ & B1).
  destruct (minimize_total_sat solve Hsolve Hcomp (with_obj l o) None C1 O1 B1 ltac:(discriminate) (ex_intro _ x Hx)) as (vals & Ev). rewrite Ev. cbn [bind].
  destruct (IH (with_obj l o) (omax acc (Qabs (nth n vals 0%Q))) HF1 (ex_intro _ x Hx)) as (r & Er & Nr). exists r. split; [exact Er|]. intros _. apply Nr. right. unfold omax. destruct acc; [destruct (Qle_bool _ _)|]; discriminate.
Qed.
Lemma radius_total l : lp_fine l -> (exists x, lp_sat l x) -> 0 < l_dims l -> exists v, compute_radius_inf solve l = Ok (Some v).
Proof.
  intros HF HX Hd. destruct (radius_loop_total (flat_map (fun n => [(n, 1%Q); (n, (-1)%Q)]) (seq 0 (l_dims l))) l None HF HX) as (r & E & N). unfold compute_radius_inf. rewrite E. destruct r as [v|]; [eauto|]. exfalso. apply N; [|reflexivity].
  left. destruct (l_dims l); [lia|]. discriminate.
Qed.
End R.

Section T.
Variable solve : solver.
Hypothesis Hsolve : solver_ok solve.
Hypothesis Hcomp : solver_complete solve.
Variable cf : cfg.
Hypothesis Hnum : 0 < cf_num cf.
Variable a : ha.
Hypothesis WH : wf_ha a.
Hypothesis HF : fits a.
Hypothesis Hninv : forall m, m_inv (get_mode a m) = [].
Hypothesis Hni : forall m, m_b (get_mode a m) = None.
Variable qexp : Q -> Q.
Hypothesis Hexp : forall q, (1 + q <= qexp q)%Q.
Variable tau : Q.
Hypothesis Hrad : forall l r, compute_radius_inf solve l = Ok (Some r) -> (0 <= r)%Q.

Lemma lgg_total s : live solve a s -> ss_step s = 0 -> nonempty (ss_lpi s) -> exists l, apply_approx_lgg solve qexp tau a s = Ok (ss_with_lpi s l, None) /\ live solve a (ss_with_lpi s l).
Proof.
  intros L E0 Hne. pose proof L as (x & St & _ & _ & _). assert (HN : no_rows s) by (eapply st_norows; eauto).
  destruct (step_total solve Hsolve a s 1 WH (fun m Hm => proj1 (proj1 HF m Hm)) L ltac:(lia)) as (s1 & E1 & L1 & M1).
  set (md := get_mode a (ss_mode s)) in *. assert (Hm := st_mode _ _ _ _ St). assert (Hx := StateFacts.st_a _ _ _ _ St). fold md in Hx. assert (Eb : m_b md = None) by apply Hni.
  assert (C1 := live_chull_in solve Hsolve cf a Hnum s L Hne). fold md in C1. pose proof C1 as (Cl1 & G1 & F1 & D1 & X1).
  assert (Hpos : 0 < m_dims md). { rewrite (m_dims_eq _ _ Hx). pose proof (proj1 WH _ Hm) as W. fold md in W. rewrite Hx in W. apply (wfm_pos _ _ W). }
  assert (N1 : nonempty (ss_lpi s1)).
  { destruct (step_to_ok solve Hsolve a s x 1 s1 WH St E1) as (_ & _ & _ & _ & _ & _ & _ & _ & _ & _ & F). specialize (F (or_intror HN)). rewrite E0 in F. cbn [Nat.sub flow] in F.
    destruct Hne as (p & Hp). fold md in F. exists (mapply (m_bm md 1) p). apply F. exists p. split; [exact Hp|]. exists p, (fun _ => 0%Q). split; [intros j _; reflexivity|].
    split; [unfold input_ok; rewrite Eb; exact Logic.I|]. intros i Hi. rewrite Eb. ring. }
  assert (C2 := live_chull_in solve Hsolve cf a Hnum s1 L1 N1). rewrite M1 in C2. fold md in C2. pose proof C2 as (Cl2 & G2 & F2 & D2 & X2).
  assert (EB : exists one, set_basis_matrix (ss_lpi s) (m_bm md 1) = Ok one /\ ss_lpi s1 = one).
  { unfold ss_step_to in E1. fold md in E1. rewrite E0 in E1. cbn [Nat.leb assert bind Nat.sub Nat.eqb] in E1. rewrite Hx in E1. apply bind_ok in E1 as (b & Hb & E1). exists b. split; [exact Hb|].
    rewrite (st_ies _ _ _ _ St) in E1. fold md in E1. rewrite Eb in E1. cbn [bind fst snd] in E1. apply ok_inj in E1. rewrite <- E1. reflexivity. }
  destruct EB as (one & Hone & Eone). destruct (radius_total solve Hsolve Hcomp (ss_lpi s) F1 X1 ltac:(lia)) as (rx & Hr). pose proof (Hrad _ _ Hr) as R0.
  set (al := lgg_alpha qexp tau (norm_inf x) rx 0).
  assert (Al : (0 <= al)%Q).
  { unfold al, lgg_alpha. destruct (Qlt_le_dec _ _) as [K|K]; [lra|]. pose proof (Hexp (tau * norm_inf x)) as K2. assert (Z : (0 / norm_inf x == 0)%Q) by (unfold Qdiv; ring). apply Qmult_le_0_compat; [lra|rewrite Z; lra]. }
  assert (EM : exists l2, (if Qeq_bool al 0 then Ok one else bloat one al) = Ok l2 /\ chull_in (m_dims md) l2).
  { rewrite <- Eone. destruct (Qeq_bool al 0); [exists (ss_lpi s1); auto|]. pose proof L1 as (x1 & St1 & B1 & O1 & _). destruct (st_wf solve Hsolve _ _ _ St1) as [W1 _].
    destruct (live_api solve a s1 L1) as (k & Hk). destruct (bloat_total _ al _ _ _ W1 ltac:(lia) Al) as (l2 & H2). exists l2. split; [exact H2|].
    pose proof (api_bloat solve _ k al l2 Hk H2) as Ap2. assert (GG := api_good solve Hsolve _ _ Ap2). destruct (bloat_ok _ _ _ _ _ _ W1 ltac:(lia) H2) as (_ & SL & _). destruct (bloat_obj _ _ _ H2) as [Oo Enc].
    split; [eapply bloat_clonable; eauto; lia|]. split; [exact GG|]. split; [|split; [rewrite <- D2; apply SL|]].
    - split; [apply GG|]. split; [|eapply bloat_lb; eauto; lia]. unfold obj_ok, row_cols_lt in *. rewrite Oo, Enc. eapply Forall_impl; [|exact O1]. cbn. intros; lia.
    - destruct N1 as (q & Hq). assert (Hin : in_lp l2 q) by (apply (bloat_in _ _ _ _ _ _ W1 ltac:(lia) H2); exists q, (fun _ => 0%Q); split; [exact Hq|]; intros; split; [lra|]; split; [lra|ring]).
      destruct Hin as (z & Hz & _). exists z. exact Hz. }
  destruct EM as (l2 & H2 & C3).
  destruct (chull_total solve Hsolve Hcomp (m_dims md) Hpos 2 [ss_lpi s; l2] (ss_mode s) (has_inputs md)) as (l & El & Cl & R); [constructor; [exact C1|constructor; [exact C3|constructor]]|discriminate|cbn; lia|].
  rewrite chull_fuel in El by (first [apply C1|apply C3]). destruct (R ltac:(cbn; lia)) as (_ & _ & B & Hie). clear R.
  assert (EA : apply_approx_lgg solve qexp tau a s = Ok (ss_with_lpi s l, None)).
  { unfold apply_approx_lgg. fold md. rewrite Hx. cbn [bind]. rewrite (clonable_clone _ Cl1). cbn [bind]. rewrite Hone. cbn [bind]. rewrite Hr. cbn [bind]. rewrite Eb. cbn [bind].
    change (lgg_factor qexp tau (norm_inf x)) with (qexp (tau * norm_inf x) - 1 - tau * norm_inf x)%Q. fold (lgg_alpha qexp tau (norm_inf x) rx 0). fold al. rewrite H2. cbn [bind]. rewrite El. cbn [bind].
    replace (has_inputs md) with false by (unfold has_inputs; rewrite Eb; reflexivity). rewrite andb_false_r. reflexivity. }
  exists l. split; [exact EA|]. exists x. cbn [ss_with_lpi ss_lpi ss_mode].
  split; [eapply (lgg_st solve Hsolve a a s x _ l l2); eauto; [destruct C3 as (_ & _ & _ & K & _); rewrite K; apply m_dims_eq; exact Hx|apply C3|tauto]|].
  split; [apply (cb_mono _ _ (fun _ => False)); [intros j K; exact (HN j K)|exact B]|]. split; [apply Cl|]. intro Hb. fold md in Hb. congruence.
Qed.
End T.
