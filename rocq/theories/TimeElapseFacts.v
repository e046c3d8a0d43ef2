From Verif Require Import Base BaseFacts TimeElapse FlowSpec.
Open Scope nat_scope.

Lemma flow_ext n E k x y : mat_dims n n E -> veq n x y -> veq n (flow E k x) (flow E k y).
Proof.
  intros HE; induction k as [|k IH]; intro H; cbn [flow]; auto.
  intros i Hi. apply (mapply_ext n n); auto.
Qed.

Lemma flow_succ_r n E k x : mat_dims n n E -> veq n (flow E (S k) x) (flow E k (mapply E x)).
Proof.
  intro HE; induction k as [|k IH]; [apply veq_refl|].
  change (flow E (S (S k)) x) with (mapply E (flow E (S k) x)).
  change (flow E (S k) (mapply E x)) with (mapply E (flow E k (mapply E x))).
  intros i Hi. apply (mapply_ext n n); auto.
Qed.

Lemma flow_plus n E j k x : mat_dims n n E -> veq n (flow E (j + k) x) (flow E j (flow E k x)).
Proof.
  intro HE; induction j as [|j IH]; cbn [flow Nat.add]; [apply veq_refl|].
  intros i Hi. apply (mapply_ext n n); auto.
Qed.

Lemma shape_is_ok n m M : shape_is n m M = true <-> mat_dims n m M.
Proof.
  unfold shape_is, mat_dims. rewrite andb_true_iff, Nat.eqb_eq, forallb_forall, Forall_forall.
  split; intros [H1 H2]; split; auto; intros r Hr; apply Nat.eqb_eq; auto.
Qed.

Lemma hconcat_dims n a b A B : mat_dims n a A -> mat_dims n b B -> mat_dims n (a + b) (hconcat A B).
Proof.
  revert n B; induction A as [|r A IH]; intros n [|s B] [HA1 HA2] [HB1 HB2]; cbn in *; subst; try discriminate.
  - split; cbn; auto.
  - inversion HA2; inversion HB2; subst.
    destruct (IH (List.length A) B) as [H1' H2']; [split; auto | split; auto; congruence |].
    split; cbn; [lia|]. constructor; auto. rewrite app_length. reflexivity.
Qed.

Lemma cut_hconcat n a b A B : mat_dims n a A -> mat_dims n b B -> cut a (hconcat A B) = A.
Proof.
  revert n B; induction A as [|r A IH]; intros n [|s B] [HA1 HA2] [HB1 HB2]; cbn in *; subst; try discriminate; auto.
  inversion HA2; inversion HB2; subst. f_equal.
  - rewrite firstn_app, Nat.sub_diag, firstn_all. cbn. apply app_nil_r.
  - apply (IH (List.length A) B); split; auto; congruence.
Qed.

Section Te.
Variable md : te_mode.
Let n := te_n md.
Let E := te_expm md 1.
Hypothesis Hexp : expm_ok n (te_expm md).
Hypothesis Hb : match te_b1 md with Some b => 0 < te_inputs md /\ mat_dims n (te_inputs md) b | None => True end.
Hypothesis Hbh : mat_dims n (te_inputs md) (te_bh md).

Lemma E_dims : mat_dims n n E.
Proof. apply Hexp. Qed.

(** the value of get_basis_matrix(k) *)
Definition bm_ok (k : nat) (bm : mat) : Prop := mat_dims n n bm /\ represents n bm (flow E k).
Definition ie_ok (b : mat) (k : nat) (ie : option mat) : Prop :=
  match k, te_b1 md with
  | S j, Some _ => exists M, ie = Some M /\ mat_dims n (te_inputs md) M /\ represents n M (fun u => flow E j (mapply b u))
  | _, _ => ie = None
  end.

(** invariant of the object while lgg is off *)
Definition te_inv (s : te_state) : Prop :=
  t_lgg s = false /\ (t_init s = true -> t_one_ie s = te_b1 md) /\ (t_init s = false -> t_one_ie s = None) /\
  (t_cur s > 0 -> exists bm, t_bm s = Some bm /\ bm_ok (t_cur s) bm) /\
  match te_b1 md with
  | Some b => t_cur s > 0 -> ie_ok b (t_cur s) (t_ie s)
  | None => t_ie s = None
  end.

Lemma te_inv_new : te_inv te_new.
Proof.
  split; [reflexivity|]. split; [discriminate|]. split; [reflexivity|]. split; [cbn; lia|].
  destruct (te_b1 md); cbn; auto; lia.
Qed.

Lemma bm_ok_0 : bm_ok 0 (ident n).
Proof. split; [apply ident_dims|]. intros x i Hi. apply mapply_ident; auto. Qed.

Lemma bm_ok_1 : bm_ok 1 E.
Proof. split; [apply E_dims|]. intros x. apply veq_refl. Qed.

Lemma bm_ok_step k bm : bm_ok k bm -> bm_ok (S k) (mmul n bm E).
Proof.
  intros [H1 H2]. split; [eapply mmul_dims; eauto; apply E_dims|].
  intros x i Hi. rewrite (mmul_mapply n n n); auto; [|apply E_dims].
  rewrite (H2 _ i Hi). symmetry. apply (flow_succ_r n); auto. apply E_dims.
Qed.

Lemma ie_1 b : mat_dims n (te_inputs md) b -> represents n b (fun u => flow E 0 (mapply b u)).
Proof. intros _ x. apply veq_refl. Qed.

Lemma ie_step b j M : mat_dims n (te_inputs md) M -> represents n M (fun u => flow E j (mapply b u)) ->
  represents n (mmul (te_inputs md) E M) (fun u => flow E (S j) (mapply b u)).
Proof.
  intros HM H u i Hi. rewrite (mmul_mapply n n (te_inputs md)); auto; [|apply E_dims].
  cbn [flow]. apply (mapply_ext n n); [apply E_dims|exact Hi|]. exact (H u).
Qed.

Lemma ie_slow b j : mat_dims n (te_inputs md) b ->
  mat_dims n (te_inputs md) (mmul (te_inputs md) (te_expm md j) b) /\
  represents n (mmul (te_inputs md) (te_expm md j) b) (fun u => flow E j (mapply b u)).
Proof.
  intros Hb'. destruct (Hexp j) as [Hd Hr]. split; [eapply mmul_dims; eauto|].
  intros u i Hi. rewrite (mmul_mapply n n (te_inputs md)); auto. apply Hr; auto.
Qed.

Lemma assign_ok s k : te_inv s -> exists s' bm, assign_basis_matrix md s k = Ok s' /\ te_inv s' /\
   t_bm s' = Some bm /\ bm_ok k bm /\
   match te_b1 md with Some b => ie_ok b k (t_ie s') | None => t_ie s' = None end.
Proof.
  intros (Hl & Hi1 & Hi0 & Hbm & Hie).
  unfold assign_basis_matrix.
  set (s1 := init_matrices md s).
  assert (S1 : t_cur s1 = t_cur s /\ t_bm s1 = t_bm s /\ t_ie s1 = t_ie s /\ t_lgg s1 = false /\ t_init s1 = true /\ t_one_ie s1 = te_b1 md).
  { unfold s1, init_matrices. destruct (t_init s) eqn:Ei; cbn.
    - split; [auto|]. split; [auto|]. split; [auto|]. split; [auto|]. split; auto.
    - split; [auto|]. split; [auto|]. split; [auto|]. split; [auto|]. split; auto.
      rewrite (Hi0 eq_refl). destruct (te_b1 md); auto. }
  destruct S1 as (C1 & C2 & C3 & C4 & C5 & C6).
  rewrite C1, C2, C3, C4, C5, C6. fold n. fold E. clearbody s1.
  assert (fin : forall bm ie, bm_ok k bm -> match te_b1 md with Some b => ie_ok b k ie | None => ie = None end ->
     exists s' bm', Ok (mkTe k (Some bm) ie true (te_b1 md) false) = Ok s' /\ te_inv s' /\
       t_bm s' = Some bm' /\ bm_ok k bm' /\ match te_b1 md with Some b => ie_ok b k (t_ie s') | None => t_ie s' = None end).
  { intros bm ie Hk Hk2. eexists _, bm. split; [reflexivity|]. split; [|split; [reflexivity|split; [auto|cbn; auto]]].
    split; [reflexivity|]. split; [reflexivity|]. split; [discriminate|]. cbn. split; [intros _; eauto|].
    destruct (te_b1 md); auto. }
  destruct (Nat.eqb_spec k 0) as [->|K0].
  { apply fin; [apply bm_ok_0|]. destruct (te_b1 md) eqn:Eb; auto. reflexivity. }
  destruct (Nat.eqb_spec k 1) as [->|K1].
  { destruct (te_b1 md) as [b|] eqn:Eb.
    - apply fin; [apply bm_ok_1|]. unfold ie_ok. rewrite Eb. destruct Hb as [Hb1 Hb2]. cbn [widen].
      exists b. split; [reflexivity|]. split; [auto|]. apply ie_1; auto.
    - apply fin; [apply bm_ok_1|]. auto. }
  destruct (Nat.eqb_spec k (S (t_cur s))) as [K|K].
  - assert (Hc : t_cur s > 0) by lia. destruct (Hbm Hc) as (bm & Eq & Hok). rewrite Eq.
    assert (Hs : bm_ok k (mmul n bm E)) by (rewrite K; apply bm_ok_step; auto).
    destruct (te_b1 md) as [b|] eqn:Eb.
    + specialize (Hie Hc). unfold ie_ok in Hie. destruct (t_cur s) as [|j] eqn:Ec; [lia|]. rewrite Eb in Hie.
      destruct Hie as (M & EM & HM1 & HM2). rewrite EM. cbn [widen].
      apply fin; auto. unfold ie_ok. rewrite K, Eb. eexists. split; [reflexivity|].
      split; [eapply mmul_dims; [apply E_dims|auto]|]. apply ie_step; auto.
    + apply fin; auto.
  - assert (Hs : bm_ok k (mmul n (te_expm md (k - 1)) E)).
    { replace k with (S (k - 1)) at 1 by lia. apply bm_ok_step. split; [apply Hexp | exact (proj2 (Hexp (k - 1)))]. }
    destruct (te_b1 md) as [b|] eqn:Eb.
    + apply fin; auto. destruct k as [|j]; [lia|]. unfold ie_ok. rewrite Eb. replace (S j - 1) with j by lia.
      destruct Hb as [Hb1 Hb2]. destruct (ie_slow b j Hb2). eauto.
    + apply fin; auto.
Qed.

Lemma te_get_ok s k : (match s with Some s => te_inv s | None => True end) ->
  exists s' bm ie, te_get md s k = Ok (Some s', (bm, ie)) /\ te_inv s' /\ bm_ok k bm /\
    match te_b1 md with Some b => ie_ok b k ie | None => ie = None end.
Proof.
  intro H. unfold te_get.
  assert (Hi : te_inv match s with Some s => s | None => te_new end) by (destruct s; auto; apply te_inv_new).
  destruct (assign_ok _ k Hi) as (s' & bm & E1 & Hi' & E2 & Hbm & Hie). rewrite E1. cbn [bind]. rewrite E2.
  assert (Hsh : shape_is (te_n md) (te_n md) bm = true) by (apply shape_is_ok; apply Hbm). rewrite Hsh. cbn [assert bind].
  exists s', bm, (t_ie s'). split; [|auto].
  destruct (te_b1 md) as [b|] eqn:Eb.
  - destruct Hb as [Hb1 Hb2]. destruct (Nat.eqb_spec (te_inputs md) 0); [lia|]. cbn [orb].
    unfold ie_ok in Hie. destruct k as [|j]; cbn [Nat.eqb].
    + rewrite Hie. reflexivity.
    + rewrite Eb in Hie. destruct Hie as (M & EM & HM1 & HM2). rewrite EM.
      destruct Hi' as (Hl & _). rewrite Hl.
      assert (Hs2 : shape_is (te_n md) (te_inputs md) M = true) by (apply shape_is_ok; auto). rewrite Hs2. reflexivity.
  - cbn [Nat.eqb orb]. rewrite Hie. reflexivity.
Qed.

Lemma te_run_gets ks : forall s, (match s with Some s => te_inv s | None => True end) ->
  exists s', te_run md s (map TGet ks) = Ok s' /\ match s' with Some s => te_inv s | None => True end.
Proof.
  induction ks as [|k ks IH]; intros s H; cbn [map te_run]; [eauto|].
  destruct (te_get_ok s k H) as (s' & bm & ie & Eg & Hi & _). rewrite Eg. cbn [bind fst]. apply IH; auto.
Qed.

(** ** LGG mode: consecutive steps from 1 *)
Definition lgg_state (k : nat) (s : te_state) : Prop :=
  t_lgg s = true /\ t_init s = true /\ t_one_ie s = Some (te_bh md) /\ t_cur s = k /\
  (0 < k -> exists bm prev M, t_bm s = Some bm /\ bm_ok k bm /\ bm_ok (k - 1) prev /\
     t_ie s = Some (hconcat M prev) /\ mat_dims n (te_inputs md) M /\
     represents n M (fun u => flow E (k - 1) (mapply (te_bh md) u))).

Lemma lgg_get_1 b s : te_b1 md = Some b -> t_lgg s = true -> t_init s = true -> t_one_ie s = Some (te_bh md) ->
  exists s' r, te_get md (Some s) 1 = Ok (Some s', r) /\ lgg_state 1 s' /\ t_bm s' = Some (fst r) /\ t_ie s' = snd r.
Proof.
  intros Eb El Ei Eo. unfold te_get, assign_basis_matrix, init_matrices. rewrite Ei, Eb. cbn [Nat.eqb]. rewrite Eo, El, Ei.
  cbn [bind t_bm t_ie t_lgg widen].
  assert (Hs : shape_is (te_n md) (te_n md) (te_expm md 1) = true) by (apply shape_is_ok; apply Hexp). rewrite Hs. cbn [assert bind].
  rewrite Eb in Hb. destruct Hb as [Hb1 Hb2]. destruct (Nat.eqb_spec (te_inputs md) 0); [lia|]. cbn [orb].
  assert (Hs2 : shape_is (te_n md) (te_inputs md + te_n md) (hconcat (te_bh md) (ident (te_n md))) = true).
  { apply shape_is_ok. apply hconcat_dims; auto. apply ident_dims. }
  rewrite Hs2. cbn [assert bind]. eexists _, (_, _). split; [reflexivity|]. split; [|split; reflexivity].
  split; [reflexivity|]. split; [reflexivity|]. split; [reflexivity|]. split; [reflexivity|]. intros _.
  exists (te_expm md 1), (ident n), (te_bh md). split; [reflexivity|]. split; [apply bm_ok_1|]. split; [apply bm_ok_0|].
  split; [reflexivity|]. split; [auto|]. apply ie_1; auto.
Qed.

Lemma lgg_get_next b k s : te_b1 md = Some b -> 0 < k -> lgg_state k s ->
  exists s' r, te_get md (Some s) (S k) = Ok (Some s', r) /\ lgg_state (S k) s' /\ t_bm s' = Some (fst r) /\ t_ie s' = snd r.
Proof.
  intros Eb Hk (El & Ei & Eo & Ec & Hst). destruct (Hst Hk) as (bm & prev & M & E1 & H1 & H2 & E2 & HM & HR).
  unfold te_get, assign_basis_matrix, init_matrices. rewrite Ei, Eb.
  destruct (Nat.eqb_spec (S k) 0); [lia|]. destruct (Nat.eqb_spec (S k) 1); [lia|]. rewrite Ec, Nat.eqb_refl, E1, E2, Eo, El, Ei.
  cbn [bind t_bm t_ie t_lgg widen].
  assert (Hs : bm_ok (S k) (mmul n bm E)) by (apply bm_ok_step; auto).
  assert (Hs1 : shape_is (te_n md) (te_n md) (mmul (te_n md) bm (te_expm md 1)) = true) by (apply shape_is_ok; apply Hs).
  rewrite Hs1. cbn [assert bind].
  rewrite Eb in Hb. destruct Hb as [Hb1 Hb2]. destruct (Nat.eqb_spec (te_inputs md) 0); [lia|]. cbn [orb].
  assert (Hc : cut (te_inputs md) (hconcat M prev) = M) by (eapply cut_hconcat; eauto; apply H2). rewrite Hc.
  assert (Hd : mat_dims n (te_inputs md) (mmul (te_inputs md) E M)) by (eapply mmul_dims; [apply E_dims|auto]).
  assert (Hs2 : shape_is (te_n md) (te_inputs md + te_n md) (hconcat (mmul (te_inputs md) (te_expm md 1) M) bm) = true).
  { apply shape_is_ok. apply hconcat_dims; auto. apply H1. }
  rewrite Hs2. cbn [assert bind]. eexists _, (_, _). split; [reflexivity|]. split; [|split; reflexivity].
  split; [reflexivity|]. split; [reflexivity|]. split; [reflexivity|]. split; [reflexivity|]. intros _.
  replace (S k - 1) with k by lia.
  exists (mmul n bm E), bm, (mmul (te_inputs md) E M). split; [reflexivity|]. split; [auto|]. split; [auto|].
  split; [reflexivity|]. split; [auto|]. replace k with (S (k - 1)) by lia. apply ie_step; auto.
Qed.

Lemma te_run_app c1 c2 s : te_run md s (c1 ++ c2) = (do s' <- te_run md s c1; te_run md s' c2).
Proof.
  revert s; induction c1 as [|[k|] c1 IH]; intro s; cbn [app te_run bind]; auto.
  - destruct (te_get md s k) as [[s' r]|e]; cbn [bind fst]; auto.
  - destruct (te_use_lgg md s); cbn [bind]; auto.
Qed.

Lemma lgg_run b k s : te_b1 md = Some b -> t_lgg s = true -> t_init s = true -> t_one_ie s = Some (te_bh md) -> 0 < k ->
  exists s', te_run md (Some s) (map TGet (seq 1 k)) = Ok (Some s') /\ lgg_state k s'.
Proof.
  intros Eb El Ei Eo. induction k as [|k IH]; [lia|]. intros _.
  destruct k as [|k].
  - cbn [seq map te_run]. destruct (lgg_get_1 b s Eb El Ei Eo) as (s' & r & Eg & Hs & _). rewrite Eg. cbn [bind fst]. eauto.
  - destruct (IH ltac:(lia)) as (s1 & Er & Hs). rewrite seq_S, map_app, te_run_app, Er. cbn [bind map te_run].
    destruct (lgg_get_next b (S k) s1 Eb ltac:(lia) Hs) as (s2 & r & Eg & Hs2 & _). cbn [Nat.add]. rewrite Eg. cbn [bind fst]. eauto.
Qed.
End Te.
