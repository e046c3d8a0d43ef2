(** C18: time elapse objects. *)
From Verif Require Import Base BaseFacts TimeElapse FlowSpec TimeElapseFacts.
Open Scope nat_scope.
From Coq Require Import Qpower.

(** C18.  For every history [ks] of earlier calls (any step numbers in any order), get_basis_matrix(k) does not raise and
    returns a matrix mapping x to the k-step flow of x, together with None (k = 0 or no inputs) or the matrix mapping u to
    the (k-1)-step flow of B1 u. *)
Theorem C18_time_elapse_history_independent (md : te_mode) (ks : list nat) (k : nat) :
  expm_ok (te_n md) (te_expm md) ->
  (match te_b1 md with Some b => 0 < te_inputs md /\ mat_dims (te_n md) (te_inputs md) b | None => True end) ->
  exists s s' bm ie,
    te_run md None (map TGet ks) = Ok s /\ te_get md s k = Ok (s', (bm, ie)) /\
    mat_dims (te_n md) (te_n md) bm /\ (forall x, veq (te_n md) (mapply bm x) (flow (te_expm md 1) k x)) /\
    match k, te_b1 md with
    | S j, Some b => exists M, ie = Some M /\ mat_dims (te_n md) (te_inputs md) M /\
                     forall u, veq (te_n md) (mapply M u) (flow (te_expm md 1) j (mapply b u))
    | _, _ => ie = None
    end.
Proof.
  intros He Hb. destruct (te_run_gets md He Hb ks None I) as (s & Er & Hs).
  destruct (te_get_ok md He Hb s k Hs) as (s' & bm & ie & Eg & _ & [Hd Hr] & Hie).
  exists s, (Some s'), bm, ie. split; [auto|]. split; [auto|]. split; [auto|]. split; [exact Hr|].
  destruct (te_b1 md) as [b|] eqn:Eb; [|destruct k; auto].
  unfold ie_ok in Hie. rewrite Eb in Hie. exact Hie.
Qed.

(** C18, LGG variant as used by apply_approx_lgg: after any history containing at least one call, switching to LGG and asking
    for steps 1, 2, ..., k yields the k-step flow and the widened input matrix [E^(k-1) (B h) | E^(k-1)]. *)
Theorem C18_lgg_sequence (md : te_mode) (b : mat) (ks : list nat) (k : nat) :
  expm_ok (te_n md) (te_expm md) -> te_b1 md = Some b -> 0 < te_inputs md -> mat_dims (te_n md) (te_inputs md) b ->
  mat_dims (te_n md) (te_inputs md) (te_bh md) -> ks <> [] ->
  exists s s' bm M prev,
    te_run md None (map TGet ks ++ [TLgg] ++ map TGet (seq 1 k)) = Ok s /\
    te_get md s (S k) = Ok (s', (bm, Some (hconcat M prev))) /\
    (forall x, veq (te_n md) (mapply bm x) (flow (te_expm md 1) (S k) x)) /\
    (forall u, veq (te_n md) (mapply M u) (flow (te_expm md 1) k (mapply (te_bh md) u))) /\
    (forall x, veq (te_n md) (mapply prev x) (flow (te_expm md 1) k x)).
Proof.
  intros He Eb Hi Hd Hbh Hne.
  assert (Hb : match te_b1 md with Some b => 0 < te_inputs md /\ mat_dims (te_n md) (te_inputs md) b | None => True end)
    by (rewrite Eb; auto).
  destruct (exists_last Hne) as (ks' & k0 & ->).
  destruct (te_run_gets md He Hb ks' None I) as (s0 & Er & Hs).
  destruct (te_get_ok md He Hb s0 k0 Hs) as (s1 & bm1 & ie1 & Eg & Hs1 & _).
  assert (Hinit : t_init s1 = true).
  { unfold te_get in Eg. apply bind_ok in Eg as (s2 & Ea & Eg). destruct (t_bm s2); [|discriminate].
    apply bind_ok in Eg as (_ & _ & Eg). apply bind_ok in Eg as (_ & _ & Eg). injection Eg as <- _ _.
    unfold assign_basis_matrix in Ea. revert Ea.
    assert (Hx : t_init (init_matrices md match s0 with Some s => s | None => te_new end) = true).
    { generalize (match s0 with Some s => s | None => te_new end). intro z. unfold init_matrices. destruct (t_init z) eqn:Ex; auto. }
    rewrite Hx. destruct (k0 =? 0); [intro Ea; injection Ea as <-; auto|].
    destruct (k0 =? 1).
    { destruct (te_b1 md), (t_one_ie _); intro Ea; try discriminate; injection Ea as <-; auto. }
    destruct (k0 =? _).
    { destruct (t_bm _); [|discriminate]. destruct (te_b1 md); [destruct (t_ie _)|]; intro Ea; try discriminate; injection Ea as <-; auto. }
    destruct (te_b1 md); [|intro Ea; injection Ea as <-; auto].
    destruct (t_one_ie _); [|discriminate]. destruct (t_lgg _); intro Ea; try discriminate; injection Ea as <-; auto. }
  rewrite map_app, <- app_assoc, te_run_app, Er. cbn [bind map app te_run]. rewrite Eg. cbn [bind fst te_use_lgg]. rewrite Eb. cbn [bind].
  set (s2 := mkTe _ _ _ _ _ _).
  destruct k as [|k].
  - cbn [seq map te_run].
    destruct (lgg_get_1 md He Hb Hbh b s2 Eb eq_refl Hinit eq_refl) as (s3 & r & Eg3 & Hl & Eq1 & Eq2).
    destruct Hl as (_ & _ & _ & _ & Hl). destruct (Hl ltac:(lia)) as (bm & prev & M & E1 & H1 & H2 & E2 & HM & HR).
    exists (Some s2), (Some s3), bm, M, prev. split; [reflexivity|]. rewrite Eg3. destruct r as [r1 r2]. cbn [fst snd] in *.
    rewrite E1 in Eq1. injection Eq1 as ->. rewrite E2 in Eq2. subst r2.
    split; [reflexivity|]. split; [apply H1|]. split; [exact HR|]. apply H2.
  - destruct (lgg_run md He Hb Hbh b (S k) s2 Eb eq_refl Hinit eq_refl ltac:(lia)) as (s3 & Er3 & Hl3).
    exists (Some s3).
    destruct (lgg_get_next md He Hb b (S k) s3 Eb ltac:(lia) Hl3) as (s4 & r & Eg4 & Hl & Eq1 & Eq2).
    destruct Hl as (_ & _ & _ & _ & Hl). destruct (Hl ltac:(lia)) as (bm & prev & M & E1 & H1 & H2 & E2 & HM & HR).
    exists (Some s4), bm, M, prev. split; [exact Er3|]. rewrite Eg4. destruct r as [r1 r2]. cbn [fst snd] in *.
    rewrite E1 in Eq1. injection Eq1 as ->. rewrite E2 in Eq2. subst r2.
    replace (S (S k) - 1) with (S k) in * by lia.
    split; [reflexivity|]. split; [apply H1|]. split; [exact HR|]. apply H2.
Qed.

(** C18, failing part: with LGG switched on, a non-consecutive step number raises (np.concatenate of dense and sparse), and
    switching in the middle of a run makes the answer depend on the history. *)
Definition te_ex : te_mode :=
  mkTeMode 1 1 (fun k => [[Qpower 2 (Z.of_nat k)]]) (Some [[3%Q]]) [[1%Q]].

Lemma te_ex_expm_ok : expm_ok (te_n te_ex) (te_expm te_ex).
Proof.
  intro k. split; [split; [reflexivity|constructor; auto]|].
  intros x i Hi. assert (i = 0) by (cbn in Hi; lia). subst i. clear Hi.
  induction k as [|k IH].
  - cbn [flow]. cbn. ring.
  - change (flow (te_expm te_ex 1) (S k) x 0) with ((Qpower 2 1) * flow (te_expm te_ex 1) k x 0%nat + 0)%Q.
    rewrite <- IH. unfold mapply. cbn [te_expm te_ex mrow nth ldot].
    rewrite Nat2Z.inj_succ, <- Z.add_1_r. rewrite Qpower_plus by (intro; discriminate). ring.
Qed.

Theorem C18_lgg_slow_step_refuted :
  exists md s, expm_ok (te_n md) (te_expm md) /\ te_run md None [TGet 1; TLgg] = Ok s /\ te_get md s 3 = Err EValue.
Proof. exists te_ex. eexists. split; [exact te_ex_expm_ok|split; vm_compute; reflexivity]. Qed.

Theorem C18_lgg_switch_history_refuted :
  exists md s1 s2 r1 r2 a b,
    te_run md None [TGet 1; TGet 2; TLgg] = Ok s1 /\ te_run md None [TGet 1; TGet 2; TLgg; TGet 1; TGet 2] = Ok s2 /\
    te_get md s1 3 = Ok (a, r1) /\ te_get md s2 3 = Ok (b, r2) /\ r1 <> r2.
Proof.
  exists te_ex. do 6 eexists. split; [vm_compute; reflexivity|]. split; [vm_compute; reflexivity|].
  split; [vm_compute; reflexivity|]. split; [vm_compute; reflexivity|]. discriminate.
Qed.

(** The hypotheses are met by a concrete one-dimensional mode, and a scrambled history gives the expected values. *)
Example C18_witness :
  expm_ok (te_n te_ex) (te_expm te_ex) /\
  exists s', te_run te_ex None (map TGet [3; 1; 2; 3; 0; 5]) = Ok s' /\
  exists s2 bm ie, te_get te_ex s' 6 = Ok (s2, (bm, Some ie)) /\ (mapply bm (fun _ => 1%Q) 0%nat == 64)%Q /\ (mapply ie (fun _ => 1%Q) 0%nat == 96)%Q.
Proof.
  split; [exact te_ex_expm_ok|].
  eexists. split; [vm_compute; reflexivity|]. eexists _, _, _. split; [vm_compute; reflexivity|]. split; vm_compute; reflexivity.
Qed.
