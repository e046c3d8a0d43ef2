(* Linear algebra and loop invariants behind C59. *)
From Coq Require Import Reals List Lia Lra Arith.
Require Import Verif.DirSpec Verif.DirMat.
Import ListNotations.
Open Scope R_scope.

Lemma rsum_ext n f g : (forall i, (i < n)%nat -> f i = g i) -> rsum n f = rsum n g.
Proof.
  induction n as [|n IH]; intros H; cbn; [reflexivity|]. rewrite IH; [|intros; apply H; lia]. rewrite (H n); [reflexivity|lia].
Qed.
Lemma rsum_plus n f g : rsum n (fun i => f i + g i) = rsum n f + rsum n g.
Proof. induction n as [|n IH]; cbn; [lra|]. rewrite IH. lra. Qed.
Lemma rsum_minus n f g : rsum n (fun i => f i - g i) = rsum n f - rsum n g.
Proof. induction n as [|n IH]; cbn; [lra|]. rewrite IH. lra. Qed.
Lemma rsum_scal n c f : rsum n (fun i => c * f i) = c * rsum n f.
Proof. induction n as [|n IH]; cbn; [lra|]. rewrite IH. lra. Qed.
Lemma rsum_scal_r n c f : rsum n (fun i => f i * c) = rsum n f * c.
Proof. induction n as [|n IH]; cbn; [lra|]. rewrite IH. lra. Qed.
Lemma rsum_zero n f : (forall i, (i < n)%nat -> f i = 0) -> rsum n f = 0.
Proof. intros H. induction n as [|n IH]; cbn; [reflexivity|]. rewrite IH; [rewrite H; [lra|lia]|intros; apply H; lia]. Qed.
Lemma rsum_const n c : rsum n (fun _ => c) = INR n * c.
Proof. induction n as [|n IH]; [cbn; lra|]. cbn [rsum]. rewrite IH, S_INR. lra. Qed.
Lemma rsum_swap n m f : rsum n (fun i => rsum m (fun j => f i j)) = rsum m (fun j => rsum n (fun i => f i j)).
Proof.
  induction n as [|n IH]; cbn.
  - symmetry. apply rsum_zero. reflexivity.
  - rewrite IH, rsum_plus. reflexivity.
Qed.
Lemma rsum_nonneg n f : (forall i, (i < n)%nat -> 0 <= f i) -> 0 <= rsum n f.
Proof. induction n as [|n IH]; cbn; intros H; [lra|]. pose proof (H n ltac:(lia)). pose proof (IH ltac:(intros; apply H; lia)). lra. Qed.
Lemma rsum_le n f g : (forall i, (i < n)%nat -> f i <= g i) -> rsum n f <= rsum n g.
Proof. induction n as [|n IH]; cbn; intros H; [lra|]. pose proof (H n ltac:(lia)). pose proof (IH ltac:(intros; apply H; lia)). lra. Qed.
Lemma rsum_nonneg_zero n f : (forall i, (i < n)%nat -> 0 <= f i) -> rsum n f = 0 -> forall i, (i < n)%nat -> f i = 0.
Proof.
  induction n as [|n IH]; cbn; intros H E i Hi; [lia|].
  pose proof (H n ltac:(lia)). pose proof (rsum_nonneg n f ltac:(intros; apply H; lia)).
  destruct (Nat.eq_dec i n) as [->|Hn]; [lra|]. apply IH; [intros; apply H; lia|lra|lia].
Qed.
Lemma rsum_pick n f j : (j < n)%nat -> (forall i, (i < n)%nat -> i <> j -> f i = 0) -> rsum n f = f j.
Proof.
  induction n as [|n IH]; intros Hj H; [lia|]. cbn. destruct (Nat.eq_dec j n) as [->|Hn].
  - rewrite rsum_zero; [lra|]. intros i Hi. apply H; lia.
  - rewrite IH; [|lia|intros; apply H; lia]. rewrite (H n); [lra|lia|lia].
Qed.
Lemma rsum_S_l n f : rsum (S n) f = f 0%nat + rsum n (fun i => f (S i)).
Proof. induction n as [|n IH]; [cbn; lra|]. change (rsum (S (S n)) f) with (rsum (S n) f + f (S n)). rewrite IH. cbn. lra. Qed.

Lemma dot_comm n u v : dot n u v = dot n v u.
Proof. apply rsum_ext. intros. lra. Qed.
Lemma dot_ext n u v u' v' : (forall i, (i < n)%nat -> u i = u' i) -> (forall i, (i < n)%nat -> v i = v' i) -> dot n u v = dot n u' v'.
Proof. intros H1 H2. apply rsum_ext. intros i Hi. rewrite H1, H2; auto. Qed.
Lemma dot_sub_r n u v w : dot n u (fun i => v i - w i) = dot n u v - dot n u w.
Proof. unfold dot. rewrite <- rsum_minus. apply rsum_ext. intros. lra. Qed.
Lemma dot_scal_r n u v c : dot n u (fun i => v i * c) = dot n u v * c.
Proof. unfold dot. rewrite <- rsum_scal_r. apply rsum_ext. intros. lra. Qed.
Lemma dot_nonneg n u : 0 <= dot n u u.
Proof. apply rsum_nonneg. intros. nra. Qed.
Lemma dot_zero n u : dot n u u = 0 -> forall i, (i < n)%nat -> u i = 0.
Proof.
  intros H i Hi. pose proof (rsum_nonneg_zero n (fun i => u i * u i) ltac:(intros; cbn; nra) H i Hi) as K. cbn in K. nra.
Qed.
Lemma dot_rsum_r n m u f : dot n u (fun e => rsum m (fun i => f i e)) = rsum m (fun i => dot n u (f i)).
Proof.
  unfold dot. rewrite (rsum_ext n _ (fun e => rsum m (fun i => u e * f i e))).
  - apply rsum_swap.
  - intros. symmetry. apply rsum_scal.
Qed.
Lemma dot_unit n u d : (d < n)%nat -> dot n u (unitv d) = u d.
Proof.
  intros H. unfold dot, unitv. rewrite (rsum_pick n _ d H).
  - rewrite Nat.eqb_refl. lra.
  - intros i Hi Hn. apply Nat.eqb_neq in Hn. rewrite Hn. lra.
Qed.
Lemma norm_sq n u : norm n u * norm n u = dot n u u.
Proof. apply sqrt_sqrt, dot_nonneg. Qed.
Lemma norm_nonneg n u : 0 <= norm n u.
Proof. apply sqrt_pos. Qed.
Lemma norm_ext n u v : (forall i, (i < n)%nat -> u i = v i) -> norm n u = norm n v.
Proof. intros H. unfold norm. f_equal. apply dot_ext; auto. Qed.
Lemma norm_lt n u c : 0 < c -> dot n u u < c * c -> norm n u < c.
Proof.
  intros Hc H. apply Rnot_le_lt. intros K. pose proof (norm_sq n u). pose proof (norm_nonneg n u). nra.
Qed.
Lemma norm_le_sq n u c : 0 <= c -> c * c <= dot n u u -> c <= norm n u.
Proof. intros Hc H. apply Rnot_lt_le. intros K. pose proof (norm_sq n u). pose proof (norm_nonneg n u). nra. Qed.

Lemma small_true n v : small n v = true <-> norm n v < / 1000000.
Proof. unfold small. destruct Rlt_dec; intuition; try discriminate. Qed.
Lemma small_false n v : small n v = false <-> / 1000000 <= norm n v.
Proof. unfold small. destruct Rlt_dec; intuition; try discriminate; lra. Qed.
Lemma scale_unit n v : small n v = false -> dot n (scale n v) (scale n v) = 1.
Proof.
  intros H. apply small_false in H. assert (0 < norm n v) by lra.
  unfold scale. change (fun i => v i / norm n v) with (fun i => v i * / norm n v).
  rewrite dot_scal_r, dot_comm, dot_scal_r, <- norm_sq. field. lra.
Qed.
Lemma scale_orth n p v : dot n p v = 0 -> dot n p (scale n v) = 0.
Proof. intros H. unfold scale. change (fun i => v i / norm n v) with (fun i => v i * / norm n v). rewrite dot_scal_r, H. lra. Qed.

(* pairwise orthogonal rows, each of length one or zero *)
Definition near (n : nat) (M : list rvec) : Prop :=
  (forall i j, (i < length M)%nat -> (j < length M)%nat -> i <> j -> dot n (row M i) (row M j) = 0) /\
  (forall i, (i < length M)%nat -> dot n (row M i) (row M i) = 1 \/ dot n (row M i) (row M i) = 0).

Lemma near_ortho n M : orthonormal n M -> near n M.
Proof.
  intros H. split.
  - intros i j Hi Hj Hn. rewrite H; auto. destruct Nat.eq_dec; [contradiction|reflexivity].
  - intros i Hi. left. rewrite H; auto. destruct Nat.eq_dec; [reflexivity|congruence].
Qed.
Lemma near_full n M : near n M -> (forall i, (i < length M)%nat -> dot n (row M i) (row M i) = 1) -> orthonormal n M.
Proof.
  intros [H1 _] H i j Hi Hj. destruct (Nat.eq_dec i j) as [->|Hn]; [apply H; auto|apply H1; auto].
Qed.

Lemma project_outside n : forall rv x e, (forall i j, (i < length rv)%nat -> (j < length rv)%nat -> i <> j -> dot n (row rv i) (row rv j) = 0) ->
  project n rv x e = outside n rv x e.
Proof.
  induction rv as [|p l IH]; intros x e H.
  - unfold outside, comb. cbn. lra.
  - cbn [project]. rewrite IH.
    + unfold outside, comb. cbn [length]. rewrite rsum_S_l.
      assert (E : rsum (length l) (fun i => dot n (row l i) (fun i0 => x i0 - p i0 * dot n p x) * row l i e)
                = rsum (length l) (fun i => dot n (row (p :: l) (S i)) x * row (p :: l) (S i) e)).
      { apply rsum_ext. intros i Hi. change (row (p :: l) (S i)) with (row l i). rewrite dot_sub_r, dot_scal_r.
        pose proof (H (S i) 0%nat ltac:(cbn; lia) ltac:(cbn; lia) ltac:(lia)) as K. change (dot n (row l i) p = 0) in K. rewrite K. lra. }
      rewrite E. cbv beta. change (row (p :: l) 0) with p. lra.
    + intros i j Hi Hj Hn. apply (H (S i) (S j)); cbn; lia.
Qed.

Lemma dot_comb n M u c : dot n u (comb M c) = rsum (length M) (fun i => c i * dot n u (row M i)).
Proof.
  unfold comb. rewrite dot_rsum_r. apply rsum_ext. intros i _. unfold dot. rewrite <- rsum_scal. apply rsum_ext. intros. lra.
Qed.

Lemma outside_orth n M x j : near n M -> (j < length M)%nat -> dot n (row M j) (outside n M x) = 0.
Proof.
  intros [H1 H2] Hj. unfold outside. rewrite (dot_sub_r n (row M j) x), dot_comb.
  rewrite (rsum_pick _ _ j Hj).
  - destruct (H2 j Hj) as [E|E].
    + rewrite E. lra.
    + rewrite E. pose proof (dot_zero _ _ E) as K.
      rewrite (dot_ext n (row M j) x (fun _ => 0) x); auto. unfold dot. rewrite rsum_zero; [lra|]. intros; lra.
  - intros i Hi Hn. rewrite (H1 j i); auto. lra.
Qed.

Lemma outside_sq n M x : orthonormal n M -> dot n (outside n M x) (outside n M x) = dot n x x - rsum (length M) (fun i => dot n (row M i) x * dot n (row M i) x).
Proof.
  intros H. unfold outside at 2. rewrite (dot_sub_r n _ x), dot_comb.
  rewrite rsum_zero.
  - rewrite dot_comm. unfold outside. rewrite (dot_sub_r n x x), dot_comb. rewrite Rminus_0_r. f_equal. apply rsum_ext. intros i Hi.
    f_equal. apply dot_comm.
  - intros i Hi. rewrite (dot_comm n (outside n M x)), outside_orth; auto using near_ortho. lra.
Qed.

Lemma units_outside n M : orthonormal n M -> rsum n (fun d => dot n (outside n M (unitv d)) (outside n M (unitv d))) = INR n - INR (length M).
Proof.
  intros H. rewrite (rsum_ext n _ (fun d => 1 - rsum (length M) (fun i => row M i d * row M i d))).
  - rewrite (rsum_minus n (fun _ => 1)), rsum_const, rsum_swap. rewrite (rsum_ext (length M) _ (fun _ => 1)).
    + rewrite rsum_const. lra.
    + intros i Hi. pose proof (H i i Hi Hi) as K. destruct Nat.eq_dec; [exact K|congruence].
  - intros d Hd. rewrite outside_sq by auto. f_equal.
    + rewrite dot_unit by auto. unfold unitv. rewrite Nat.eqb_refl. reflexivity.
    + apply rsum_ext. intros i Hi. rewrite !dot_unit by auto. reflexivity.
Qed.

Lemma rsum_lt n f c : (0 < n)%nat -> (forall i, (i < n)%nat -> f i < c) -> rsum n f < INR n * c.
Proof.
  induction n as [|n IH]; intros Hn H; [lia|]. cbn [rsum]. rewrite S_INR. destruct n as [|n].
  - cbn. pose proof (H 0%nat ltac:(lia)). lra.
  - pose proof (H (S n) ltac:(lia)). pose proof (IH ltac:(lia) ltac:(intros; apply H; lia)). lra.
Qed.

Lemma good_unit n M : orthonormal n M -> (length M < n)%nat ->
  exists d, (d < n)%nat /\ / INR n <= dot n (outside n M (unitv d)) (outside n M (unitv d)).
Proof.
  intros H Hl. pose proof (units_outside n M H) as E.
  assert (Hn : 0 < INR n) by (apply (lt_INR 0); lia).
  assert (1 <= INR n - INR (length M)) by (rewrite <- minus_INR by lia; apply (le_INR 1); lia).
  set (f := fun d => dot n (outside n M (unitv d)) (outside n M (unitv d))) in *.
  assert (D : forall k, (k <= n)%nat -> (exists d, (d < k)%nat /\ / INR n <= f d) \/ (forall d, (d < k)%nat -> f d < / INR n)).
  { induction k as [|k IH]; intros Hk.
    - right. intros; lia.
    - destruct (IH ltac:(lia)) as [(d & K1 & K2)|K].
      + left. exists d. split; [lia|exact K2].
      + destruct (Rlt_le_dec (f k) (/ INR n)) as [L|L].
        * right. intros d Hd. destruct (Nat.eq_dec d k) as [->|]; [exact L|apply K; lia].
        * left. exists k. split; [lia|exact L]. }
  destruct (D n (le_n _)) as [(d & K1 & K2)|K]; [exists d; auto|].
  exfalso. pose proof (rsum_lt n f (/ INR n) ltac:(lia) K) as L. rewrite Rinv_r in L by lra. lra.
Qed.

Lemma square_complete n M : orthonormal n M -> length M = n ->
  forall x e, (e < n)%nat -> x e = comb M (fun i => dot n (row M i) x) e.
Proof.
  intros H Hl x e He.
  assert (E : forall d, (d < n)%nat -> forall k, (k < n)%nat -> outside n M (unitv d) k = 0).
  { intros d Hd. apply dot_zero.
    apply (rsum_nonneg_zero n (fun d => dot n (outside n M (unitv d)) (outside n M (unitv d)))); auto.
    - intros. apply dot_nonneg.
    - rewrite units_outside by auto. rewrite Hl. lra. }
  assert (F : forall d, (d < n)%nat -> unitv d e = rsum (length M) (fun i => row M i d * row M i e)).
  { intros d Hd. pose proof (E d Hd e He) as K. unfold outside, comb in K.
    rewrite (rsum_ext _ _ (fun i => row M i d * row M i e)) in K; [lra|]. intros i _. rewrite dot_unit by auto. reflexivity. }
  transitivity (rsum n (fun d => x d * unitv d e)).
  - rewrite (rsum_pick n _ e He).
    + unfold unitv. rewrite Nat.eqb_refl. lra.
    + intros i Hi Hn. unfold unitv. destruct (Nat.eqb_spec e i); [congruence|lra].
  - rewrite (rsum_ext n _ (fun d => rsum (length M) (fun i => x d * (row M i d * row M i e)))).
    + rewrite rsum_swap. unfold comb. apply rsum_ext. intros i _. unfold dot. rewrite <- rsum_scal_r. apply rsum_ext. intros. lra.
    + intros d Hd. rewrite (F d Hd), rsum_scal. reflexivity.
Qed.

Lemma ortho_independent n M : orthonormal n M -> independent n M.
Proof.
  intros H c Hc i Hi. assert (E : dot n (row M i) (comb M c) = 0).
  { rewrite (dot_ext n (row M i) (comb M c) (row M i) (fun _ => 0)); auto. unfold dot. apply rsum_zero. intros; lra. }
  rewrite dot_comb, (rsum_pick _ _ i Hi) in E.
  - pose proof (H i i Hi Hi) as K. destruct Nat.eq_dec; [|congruence]. rewrite K in E. lra.
  - intros j Hj Hn. rewrite H by auto. destruct Nat.eq_dec; [congruence|lra].
Qed.

Lemma row_app1 M v i : (i < length M)%nat -> row (M ++ [v]) i = row M i.
Proof. intros H. unfold row. apply app_nth1, H. Qed.
Lemma row_last M v : row (M ++ [v]) (length M) = v.
Proof. unfold row. rewrite app_nth2 by lia. rewrite Nat.sub_diag. reflexivity. Qed.

Lemma near_snoc n M v : near n M -> (forall i, (i < length M)%nat -> dot n (row M i) v = 0) -> dot n v v = 1 \/ dot n v v = 0 -> near n (M ++ [v]).
Proof.
  intros [H1 H2] Ho Hv. assert (L : length (M ++ [v]) = S (length M)) by (rewrite app_length; cbn; lia).
  split.
  - intros i j Hi Hj Hn. rewrite L in *. destruct (Nat.eq_dec i (length M)) as [->|Ni], (Nat.eq_dec j (length M)) as [->|Nj]; [lia| | |].
    + rewrite row_last, row_app1 by lia. rewrite dot_comm. apply Ho. lia.
    + rewrite row_last, row_app1 by lia. apply Ho. lia.
    + rewrite !row_app1 by lia. apply H1; lia.
  - intros i Hi. rewrite L in *. destruct (Nat.eq_dec i (length M)) as [->|Ni].
    + rewrite row_last. exact Hv.
    + rewrite row_app1 by lia. apply H2. lia.
Qed.
Lemma ortho_snoc n M v : orthonormal n M -> (forall i, (i < length M)%nat -> dot n (row M i) v = 0) -> dot n v v = 1 -> orthonormal n (M ++ [v]).
Proof.
  intros H Ho Hv. apply near_full.
  - apply near_snoc; auto using near_ortho.
  - intros i Hi. rewrite app_length in Hi. cbn in Hi. destruct (Nat.eq_dec i (length M)) as [->|Ni].
    + rewrite row_last. exact Hv.
    + rewrite row_app1 by lia. rewrite H by lia. destruct Nat.eq_dec; congruence.
Qed.

Lemma project_orth n M x i : near n M -> (i < length M)%nat -> dot n (row M i) (project n M x) = 0.
Proof.
  intros H Hi. rewrite (dot_ext n (row M i) _ (row M i) (outside n M x)); [apply outside_orth; auto|reflexivity|].
  intros e _. apply project_outside. apply H.
Qed.
