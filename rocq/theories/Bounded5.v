(** State sets with bounded LPs: construction, steps and invariant intersection do not fail (for C66). *)
From Verif Require Import Base BaseFacts LpModel LpSpec SetSpec LpFacts LpWf LpUtil SetFacts SetFacts2 MinkFacts OpsFacts OpsFacts2 OpsFacts3 OpsFacts4 AggFacts ApiSpec ApiFacts Automaton StateSet HybridSpec StateSpec FlowFacts StateFacts StateFacts2 Bounded Bounded2 Bounded3 Bounded4.
From Coq Require Import Lia Lqa Setoid QArith.Qabs.
Open Scope nat_scope.

Lemma ldot_delta d : forall off k, k < List.length d -> (ldot d off (fun c => if c =? off + k then 1 else 0) == nth k d 0)%Q.
Proof.
  assert (Z : forall d off j, j < off -> (ldot d off (fun c => if (c =? j)%nat then 1 else 0) == 0)%Q).
  { clear d. intro d. induction d as [|a d IH]; intros off j Hj; cbn [ldot]; [reflexivity|]. destruct (Nat.eqb_spec off j); [lia|]. rewrite IH by lia. ring. }
  induction d as [|a d IH]; intros off k Hk; [cbn in Hk; lia|]. destruct k as [|k]; cbn [ldot nth].
  - replace (off + 0) with off by lia. rewrite Nat.eqb_refl, Z by lia. ring.
  - destruct (Nat.eqb_spec off (off + S k)); [lia|]. replace (off + S k) with (S off + k) by lia. rewrite IH by (cbn in Hk; lia). ring.
Qed.
Lemma close_eq p q : (p == q)%Q -> close p q = true.
Proof.
  intro E. unfold close. apply Qle_bool_iff. assert (E0 : (Qabs (p - q) == 0)%Q) by (setoid_replace (p - q)%Q with 0%Q by (rewrite E; ring); reflexivity).
  rewrite E0. pose proof (Qabs_nonneg q). lra.
Qed.
Lemma row_close u : forall v, (forall k, k < List.length u -> k < List.length v -> (nth k u 0 == nth k v 0)%Q) -> forallb (fun ab => close (fst ab) (snd ab)) (combine u v) = true.
Proof.
  induction u as [|p u IH]; intros [|q v] H; cbn [combine forallb]; try reflexivity. apply andb_true_iff. split.
  - cbn [fst snd]. apply close_eq. apply (H 0); cbn; lia.
  - apply IH. intros k K1 K2. apply (H (S k)); cbn; lia.
Qed.
Lemma mat_close A : forall B, (forall i k, i < List.length A -> i < List.length B -> k < List.length (nth i A []) -> k < List.length (nth i B []) -> (nth k (nth i A []) 0 == nth k (nth i B []) 0)%Q) ->
  allclose A B = true.
Proof.
  unfold allclose. induction A as [|u A IH]; intros [|v B] H; cbn [combine forallb]; try reflexivity. apply andb_true_iff. split.
  - cbn [fst snd]. apply row_close. intros k K1 K2. apply (H 0 k); cbn; try lia; assumption.
  - apply IH. intros i k I1 I2 K1 K2. apply (H (S i) k); cbn; try lia; assumption.
Qed.

Lemma get_bm_total l BM nu IEs : wf_lp l BM nu IEs -> 0 < l_dims l -> exists M, get_basis_matrix l = Ok M.
Proof.
  intros W Hd. unfold get_basis_matrix, get_dense_constraints. pose proof (wf_bmc _ _ _ _ W). pose proof (wf_cvo _ _ _ _ W).
  rewrite (proj2 (Nat.leb_le (snd (l_bm l) + l_dims l) (l_nc l))) by lia. cbn [assert bind].
  destruct (wf_bmrows _ _ _ _ W (l_dims l - 1)) as (co & Hn & _); [lia|]. assert (fst (l_bm l) + (l_dims l - 1) < List.length (l_rows l)) by (apply nth_error_Some; congruence).
  rewrite (proj2 (Nat.leb_le (fst (l_bm l) + l_dims l) (l_nr l))) by (unfold l_nr; lia). cbn [assert bind]. eauto.
Qed.

(** StateSet.__init__ *)
Lemma new_stateset_total a l m lo hi ops conc x nu IEs : m_a (get_mode a m) = Some x -> wf_lp l (ident (l_dims l)) nu IEs -> 0 < l_dims l -> l_dims l = c_nr x ->
  exists s, new_stateset a l m lo hi ops conc = Ok s.
Proof.
  intros Hx W Hd Ed. unfold new_stateset. rewrite Hx. destruct (get_bm_total _ _ _ _ W Hd) as (M & EM). rewrite EM. cbn [bind].
  destruct (get_basis_matrix_sem _ _ _ _ _ W EM) as [[HM1 HM2] HM]. rewrite HM1, Ed, Nat.eqb_refl.
  assert (C : allclose M (ident (c_nr x)) = true).
  { apply mat_close. intros i k Hi1 Hi2 Hk1 Hk2. rewrite HM1 in Hi1. fold (mrow M i) in *. fold (mrow (ident (c_nr x)) i) in *. rewrite <- Ed in *.
    rewrite <- (ldot_delta (mrow M i) (snd (l_bm l)) k) by assumption. rewrite <- (ldot_delta (mrow (ident (l_dims l)) i) (snd (l_bm l)) k) by assumption. apply HM. exact Hi1. }
  rewrite C. cbn [bind]. eauto.
Qed.
Lemma new_stateset_err a l m lo hi ops conc : m_a (get_mode a m) = None -> exists s, new_stateset a l m lo hi ops conc = Ok s.
Proof. intro H. unfold new_stateset. rewrite H. cbn [bind]. eauto. Qed.

Definition inputs_bnd (m : mode) : Prop := match m_b m with Some (_, uc, ur) => poly_bnd uc ur | None => True end.
Definition rows_of (s : sset) : nat -> Prop := fun j => In (Some j) (ss_rows s).

Section WithSolver.
Variable solve : solver.
Hypothesis Hsolve : solver_ok solve.
Hypothesis Hcomp : solver_complete solve.

(** a state set of a non-error mode on which every operation succeeds *)
Definition live (a : ha) (s : sset) : Prop :=
  exists x, st_ok solve a s x /\ cb (ss_lpi s) (rows_of s) /\ obj_ok (ss_lpi s) /\ (m_b (get_mode a (ss_mode s)) <> None -> exists c, l_ie (ss_lpi s) = Some c).

Lemma live_fine a s : live a s -> lp_fine (ss_lpi s).
Proof.
  intros (x & S & B & O & _). destruct (st_wf solve Hsolve _ _ _ S) as [W _]. split; [exact (wf_lp_ok _ _ _ _ W)|]. split; [exact O|]. exact (cb_lb _ _ _ _ _ W B).
Qed.
Lemma live_obj a s o : live a s -> obj_ok (with_obj (ss_lpi s) o) -> live a (ss_with_lpi s (with_obj (ss_lpi s) o)).
Proof.
  intros (x & S & B & _ & I0) O. exists x. split; [apply st_with_obj; exact S|]. split; [exact B|]. split; [exact O|exact I0].
Qed.

Lemma live_wf a s : live a s -> exists BM nu IEs x, m_a (get_mode a (ss_mode s)) = Some x /\ wf_lp (ss_lpi s) BM nu IEs /\ l_dims (ss_lpi s) = c_nr x /\ 0 < c_nr x.
Proof.
  intros (x & S & _). destruct (st_wf solve Hsolve _ _ _ S) as [W Hd]. do 3 eexists. exists x. split; [exact (st_a _ _ _ _ S)|]. split; [exact W|]. split; [exact (st_dims _ _ _ _ S)|exact Hd].
Qed.

Lemma new_live a l m lo hi ops conc s x : wf_ha a -> m < List.length (ha_modes a) -> m_a (get_mode a m) = Some x -> api solve l (Some (ident (c_nr x), m_nu (get_mode a m), [], [])) -> l_dims l = c_nr x ->
  cb l (fun _ => False) -> obj_ok l -> (m_b (get_mode a m) <> None -> exists c, l_ie l = Some c) -> new_stateset a l m lo hi ops conc = Ok s -> live a s.
Proof.
  intros WH Hm Hx Hap Hd B O I0 H. destruct (new_stateset_ok solve Hsolve a l m lo hi ops conc s x _ WH Hm Hx Hap eq_refl Hd H) as (S & El & Em & _ & _ & _ & _ & _ & Er).
  exists x. split; [exact S|]. rewrite El, Em. split; [|split; [exact O|exact I0]].
  apply (cb_mono _ _ (fun _ => False)); [|exact B]. intros j Hj. unfold rows_of in Hj. rewrite Er in Hj. apply repeat_spec in Hj. discriminate.
Qed.

(** steps *)
Lemma add_inputs_total md x mid J count : forall l ies from BM js, wf_mode md x -> m_dims md = c_nr x -> inputs_bnd md -> m_b md <> None -> api solve l (Some (BM, m_nu md, ies, js)) -> l_dims l = c_nr x ->
  (exists c, l_ie l = Some c) -> cb l J -> obj_ok l -> (forall j, J j -> j < l_nr l) ->
  exists l' ies', add_inputs l md mid ies from count = Ok (l', ies') /\ cb l' J /\ obj_ok l'.
Proof.
  induction count as [|n IH]; intros l ies from BM js WM Em HU Hb Hap Hd Hie B O HJ; cbn [add_inputs]; [eauto|].
  destruct (m_b md) as [[[b uc] ur]|] eqn:Eb; [|congruence]. pose proof (wfm_ie _ _ WM) as WI. rewrite Eb in WI. destruct WI as (Huc & Hnr & _ & Hme & _).
  unfold inputs_bnd in HU. rewrite Eb in HU. assert (Hnu : m_nu md = c_nc uc) by (unfold m_nu; rewrite Eb; reflexivity).
  destruct (api_ok solve Hsolve _ _ Hap) as (_ & _ & Hpos & W & _).
  destruct (add_ie_total l BM (m_nu md) ies (m_ie md from) mid uc ur W Hie) as (l1 & E1 & O1); [rewrite Hd, Hnu; apply Hme|auto|exact Hnr|].
  rewrite Em, <- Hd, E1. cbn [bind].
  assert (B1 : cb l1 J) by (apply (add_ie_cb _ _ _ _ _ _ _ _ _ _ J W Hpos Huc (eq_sym Hnu) Hnr HU HJ E1 B)).
  destruct (add_input_effects_wf _ _ _ _ _ _ _ _ _ _ W Huc (eq_sym Hnu) Hnr E1) as (_ & (S1 & S2 & S3 & S4) & Hn & _ & _ & _ & _ & Hold).
  apply (IH l1 (ies ++ [m_ie md from]) (S from) BM js).
  - exact WM.
  - exact Em.
  - unfold inputs_bnd. rewrite Eb. exact HU.
  - exact Hb.
  - eapply api_inputs; eauto.
  - congruence.
  - rewrite S4. exact Hie.
  - exact B1.
  - exact (O1 O).
  - intros j Hj. specialize (HJ j Hj). assert (l_nr l <= l_nr l1); [|lia].
    unfold add_input_effects_matrix in E1. destruct Hie as ([ier iec] & Eie). rewrite Eie in E1. apply bind_ok in E1 as (? & _ & E1). apply bind_ok in E1 as (? & _ & E1). apply bind_ok in E1 as (? & _ & E1).
    unfold set_constraints_csc in E1. match type of E1 with (if ?b then _ else _) = _ => destruct b; [discriminate|] end. injection E1 as <-. unfold l_nr. cbn [l_rows with_rows with_names add_cols add_rows_le].
    match goal with |- _ <= List.length (set_cols ?c ?cols ?rs) => assert (Ln : List.length (set_cols c cols rs) = List.length rs) end.
    { rewrite <- (map_length r_ty (set_cols _ _ _)), set_cols_types, map_length. reflexivity. }
    rewrite Ln, app_length. lia.
Qed.

Lemma live_rows a s x : st_ok solve a s x -> forall j, rows_of s j -> up_core (ss_lpi s) j.
Proof.
  intros S j Hj. destruct (st_api _ _ _ _ S) as (js & Hap & Hin). apply (api_ok solve Hsolve) in Hap as (_ & _ & _ & _ & HF). rewrite Forall_forall in HF. apply HF, Hin, Hj.
Qed.
Lemma up_core_lt l j : up_core l j -> j < l_nr l.
Proof. intros (_ & _ & r & Hr & _). unfold l_nr. apply nth_error_Some. congruence. Qed.

Lemma step_total a s k : wf_ha a -> (forall m, m < List.length (ha_modes a) -> inputs_bnd (get_mode a m)) -> live a s -> ss_step s <= k ->
  exists s', ss_step_to a s k = Ok s' /\ live a s' /\ ss_mode s' = ss_mode s.
Proof.
  intros WH HU (x & S & B & O & I0) Hk.
  assert (T : exists s', ss_step_to a s k = Ok s' /\ cb (ss_lpi s') (rows_of s) /\ obj_ok (ss_lpi s') /\ (m_b (get_mode a (ss_mode s)) <> None -> exists c, l_ie (ss_lpi s') = Some c)).
  { unfold ss_step_to. rewrite (proj2 (Nat.leb_le _ _) Hk). cbn [assert bind]. destruct (_ =? 0) eqn:E0; [exists s; auto|].
    pose proof (st_a _ _ _ _ S) as Hx. pose proof (st_mode _ _ _ _ S) as Hm. pose proof (st_dims _ _ _ _ S) as Hd. rewrite Hx.
    set (md := get_mode a (ss_mode s)) in *. assert (WM : wf_mode md x). { destruct WH as [WH _]. specialize (WH _ Hm). fold md in WH. rewrite Hx in WH. exact WH. }
    destruct (st_wf solve Hsolve _ _ _ S) as [W Hpos]. fold md in W.
    destruct (set_basis_total (ss_lpi s) (m_bm md k)) as (l1 & E1); [rewrite Hd; apply (wfm_bm _ _ WM)|]. rewrite E1. cbn [bind].
    pose proof (set_basis_cb _ _ _ _ _ _ _ W E1 B) as B1. pose proof (set_basis_obj _ _ _ E1 O) as O1.
    destruct (set_basis_wf _ _ _ _ _ _ W E1) as (W1 & (S1 & S2 & S3 & S4) & _).
    rewrite (st_ies _ _ _ _ S). fold md.
    destruct (m_b md) as [bq|] eqn:Eb; cbn [bind fst snd].
    - destruct (st_api _ _ _ _ S) as (js & Hap & Hjs). fold md in Hap.
      assert (Hap1 : api solve l1 (Some (m_bm md k, m_nu md, ies_of md (ss_step s), js))) by (eapply api_basis; eauto).
      destruct (add_inputs_total md x (ss_mode s) (rows_of s) (k - ss_step s) l1 (ies_of md (ss_step s)) (Datatypes.S (ss_step s)) (m_bm md k) js) as (l2 & ies2 & E2 & B2 & O2).
      + exact WM.
      + apply m_dims_eq. exact Hx.
      + apply HU. exact Hm.
      + congruence.
      + exact Hap1.
      + congruence.
      + rewrite S4. apply I0. discriminate.
      + exact B1.
      + exact O1.
      + intros j Hj. assert (Hlt : j < l_nr (ss_lpi s)) by (apply up_core_lt; apply (live_rows _ _ _ S); exact Hj). replace (l_nr l1) with (l_nr (ss_lpi s)); [exact Hlt|].
        pose proof (set_basis_types _ _ _ E1) as Ty. unfold get_types in Ty. unfold l_nr. rewrite <- (map_length r_ty (l_rows l1)), Ty, map_length. reflexivity.
      + pose proof (add_inputs_ok solve Hsolve md x _ _ _ _ _ _ _ _ _ WM Hap1 E2) as (_ & _ & (T1 & T2 & T3 & T4) & _).
        rewrite E2. cbn [bind fst snd]. eexists. split; [reflexivity|]. cbn [ss_lpi]. split; [exact B2|]. split; [exact O2|]. intros _. rewrite T4, S4. apply I0. discriminate.
    - eexists. split; [reflexivity|]. cbn [ss_lpi]. split; [exact B1|]. split; [exact O1|]. congruence. }
  destruct T as (s' & E & B' & O' & I'). exists s'. split; [exact E|].
  destruct (step_to_ok solve Hsolve a s x k s' WH S E) as (S' & _ & _ & Em & _ & _ & _ & _ & Er & _). split; [|exact Em].
  exists x. split; [exact S'|]. rewrite Em. split; [|split; [exact O'|exact I']].
  apply (cb_mono _ _ (rows_of s)); [|exact B']. intros j. unfold rows_of. rewrite Er. auto.
Qed.

(** invariant intersection *)
Lemma inv_cond_total a s i c : wf_ha a -> live a s -> nth_error (m_inv (get_mode a (ss_mode s))) i = Some c ->
  exists s1 o strong, inv_cond solve s i c = Ok (s1, o, strong) /\ live a s1 /\ ss_mode s1 = ss_mode s.
Proof.
  intros WH L Hc. pose proof L as (x & S & B & O & I0). pose proof (st_a _ _ _ _ S) as Hx. pose proof (st_mode _ _ _ _ S) as Hm. pose proof (st_dims _ _ _ _ S) as Hd.
  destruct (st_wf solve Hsolve _ _ _ S) as [W Hpos].
  assert (WM : wf_mode (get_mode a (ss_mode s)) x). { destruct WH as [WH _]. specialize (WH _ Hm). rewrite Hx in WH. exact WH. }
  destruct (wfm_inv _ _ WM c (nth_error_In _ _ Hc)) as [Hw Hr].
  assert (T : exists s1 o strong, inv_cond solve s i c = Ok (s1, o, strong) /\ cb (ss_lpi s1) (rows_of s1) /\ obj_ok (ss_lpi s1) /\ l_ie (ss_lpi s1) = l_ie (ss_lpi s)).
  { unfold inv_cond. destruct (live_fine _ _ L) as ((C & V) & _ & Lb).
    destruct (check_intersection_total solve Hcomp (ss_lpi s) (lc_row (lc_negate c)) (lc_w (lc_negate c)) (lc_rhs (lc_negate c)) tol13 C V Lb) as (o & r & E & Oo).
    { unfold lc_negate. cbn [lc_w]. lia. }
    { unfold lc_negate. cbn [lc_w lc_row]. rewrite Hw. apply scale_row_cols. exact Hr. }
    rewrite E. cbn [bind fst snd]. set (s0 := ss_with_lpi s (with_obj (ss_lpi s) o)) in *.
    destruct (live_obj a s o L Oo) as (x0 & S0 & B0 & _ & _). fold s0 in S0, B0. assert (x0 = x) by (pose proof (st_a _ _ _ _ S0); change (ss_mode s0) with (ss_mode s) in *; congruence). subst x0.
    destruct (st_wf solve Hsolve _ _ _ S0) as [W0 _].
    destruct r as [[]|]; [|eexists; eexists; eexists; split; [reflexivity|]; split; [exact B0|]; split; [exact Oo|reflexivity]..].
    rewrite (st_bm _ _ _ _ S0).
    assert (Eies : match ss_ies s0 with None => [] | Some l0 => l0 end = ies_of (get_mode a (ss_mode s0)) (ss_step s0)).
    { rewrite (st_ies _ _ _ _ S0). unfold ies_of. destruct (m_b _); reflexivity. }
    rewrite Eies. assert (Hlv : List.length (dense_of (lc_row c) (lc_w c)) = l_dims (ss_lpi s0)) by (rewrite dense_of_length, Hw; symmetry; exact Hd).
    assert (Hp0 : 0 < l_dims (ss_lpi s0)) by (change (l_dims (ss_lpi s0)) with (l_dims (ss_lpi s)); lia).
    destruct (nth i (ss_rows s0) None) as [j|] eqn:Ej.
    - assert (Jj : rows_of s0 j).
      { unfold rows_of. rewrite <- Ej. apply nth_In. destruct (Nat.lt_ge_cases i (List.length (ss_rows s0))) as [G|G]; [exact G|]. rewrite nth_overflow in Ej by exact G. discriminate. }
      destruct (try_replace_total solve Hsolve Hcomp (ss_lpi s0) _ _ _ j (dense_of (lc_row c) (lc_w c)) (lc_rhs c) (rows_of s0) W0 Hp0 Hlv (live_rows _ _ _ S0 j Jj) Jj B0) as (l' & b & Et & Ot & Bt).
      rewrite Et. cbn [bind]. eexists. eexists. eexists. split; [reflexivity|]. split; [|split; [exact Ot|]].
      + apply (cb_mono _ _ (rows_of s0)); [|exact Bt]. intros k Hk. unfold rows_of in Hk. cbn [ss_rows ss_with_rows] in Hk. apply upd_nth_In in Hk as [Hk|Hk]; [injection Hk as ->; exact Jj|exact Hk].
      + destruct (live_rows _ _ _ S0 j Jj) as (Nb & Ni & old & Hold & Hup). destruct (try_replace_wf_in solve Hsolve _ _ _ _ _ _ _ _ _ _ _ _ W0 Hp0 Hold Hup Nb Ni eq_refl Et) as (_ & (_ & _ & _ & S4) & _). exact S4.
    - destruct (add_init_total (ss_lpi s0) _ _ _ (dense_of (lc_row c) (lc_w c)) (lc_rhs c) None W0 Hp0 Hlv) as (l' & i' & Et & Ot); [discriminate|].
      rewrite Et. cbn [bind fst snd]. eexists. eexists. eexists. split; [reflexivity|]. cbn [ss_lpi ss_with_rows ss_with_lpi]. split; [|split; [exact (Ot Oo)|]].
      + apply (cb_mono _ _ (fun k => rows_of s0 k \/ k = i')).
        * intros k Hk. unfold rows_of in Hk. cbn [ss_rows ss_with_rows] in Hk. apply upd_nth_In in Hk as [Hk|Hk]; [injection Hk as ->; right; reflexivity|left; exact Hk].
        * apply (add_init_cb _ _ _ _ _ _ None _ _ _ W0 Hp0 (fun j E => False_ind _ ltac:(discriminate E)) Et B0).
      + destruct (add_init_constraint_ok _ _ _ _ _ _ _ _ _ W0 Hp0 Et) as (_ & (_ & _ & _ & S4) & _). exact S4. }
  destruct T as (s1 & o & st & E & B1 & O1 & I1). exists s1, o, st. split; [exact E|].
  destruct (inv_cond_ok solve Hsolve a s x i c s1 o st WH S Hc E) as (S1 & Fr & _). destruct Fr as (Fm & _). split; [|exact Fm].
  exists x. split; [exact S1|]. split; [exact B1|]. split; [exact O1|]. rewrite Fm, I1. exact I0.
Qed.

Lemma intersect_inv_total a cs : wf_ha a -> forall i s, live a s -> (forall k c, nth_error cs k = Some c -> nth_error (m_inv (get_mode a (ss_mode s))) (i + k) = Some c) ->
  exists s' ops ok, intersect_inv solve s i cs = Ok (s', ops, ok) /\ live a s' /\ ss_mode s' = ss_mode s.
Proof.
  intro WH. induction cs as [|c cs IH]; intros i s L Hn; cbn [intersect_inv]; [do 3 eexists; split; [reflexivity|]; auto|].
  destruct (inv_cond_total a s i c WH L) as (s1 & o & st & E & L1 & Em); [replace i with (i + 0) by lia; apply Hn; reflexivity|]. rewrite E. cbn [bind].
  assert (Hn1 : forall k c0, nth_error cs k = Some c0 -> nth_error (m_inv (get_mode a (ss_mode s1))) (Datatypes.S i + k) = Some c0) by (intros k c0 Hk; rewrite Em; replace (Datatypes.S i + k) with (i + Datatypes.S k) by lia; apply Hn; exact Hk).
  destruct (IH (Datatypes.S i) s1 L1 Hn1) as (s2 & ops2 & ok2 & E2 & L2 & Em2).
  destruct o as [[]|].
  - destruct (fine_feasible solve Hcomp _ (live_fine _ _ L1)) as (f & Ef). rewrite Ef. cbn [bind]. destruct f; [|do 3 eexists; split; [reflexivity|]; auto].
    rewrite E2. cbn [bind]. do 3 eexists. split; [reflexivity|]. split; [exact L2|congruence].
  - rewrite E2. do 3 eexists. split; [reflexivity|]. split; [exact L2|congruence].
  - rewrite E2. do 3 eexists. split; [reflexivity|]. split; [exact L2|congruence].
Qed.
Lemma intersect_total a s : wf_ha a -> live a s -> exists s' ops ok, intersect_invariant solve a s = Ok (s', ops, ok) /\ live a s' /\ ss_mode s' = ss_mode s.
Proof. intros WH L. apply (intersect_inv_total a _ WH 0 s L). intros k c Hk. exact Hk. Qed.
End WithSolver.
