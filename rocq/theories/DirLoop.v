(* Loop invariants for C59: make_direction_matrix. *)
From Coq Require Import Reals List Lia Lra Arith.
Require Import Verif.DirSpec Verif.DirMat Verif.DirFacts.
Import ListNotations.
Open Scope R_scope.

Lemma all_zero_spec rv d : all_zero_at rv d = true <-> forall i, (i < length rv)%nat -> row rv i d = 0.
Proof.
  induction rv as [|v l IH]; cbn [all_zero_at].
  - split; [intros _ i Hi; cbn in Hi; lia|reflexivity].
  - destruct (Req_EM_T (v d) 0) as [E|E].
    + rewrite IH. split.
      * intros H [|i] Hi; [exact E|apply (H i); cbn in Hi; lia].
      * intros H i Hi. apply (H (S i)). cbn. lia.
    + split; [discriminate|]. intros H. exfalso. apply E. apply (H 0%nat). cbn. lia.
Qed.
Lemma free_from_spec rv : forall k d r, free_from rv d k = Some r ->
  (d <= r < d + k)%nat /\ (forall i, (i < length rv)%nat -> row rv i r = 0) /\
  (forall e, (d <= e < r)%nat -> exists i, (i < length rv)%nat /\ row rv i e <> 0).
Proof.
  induction k as [|k IH]; cbn; intros d r H; [discriminate|].
  destruct (all_zero_at rv d) eqn:E.
  - injection H as <-. split; [lia|]. split; [apply all_zero_spec; exact E|]. intros e He; lia.
  - destruct (IH _ _ H) as (H1 & H2 & H3). split; [lia|]. split; [exact H2|]. intros e He.
    destruct (Nat.eq_dec e d) as [->|]; [|apply H3; lia]. clear - E.
    induction rv as [|v l IHl]; cbn in E; [discriminate|]. destruct (Req_EM_T (v d) 0) as [Z|Z].
    + destruct (IHl E) as (i & Hi & K). exists (S i). split; [cbn; lia|exact K].
    + exists 0%nat. split; [cbn; lia|exact Z].
Qed.
Lemma free_from_none rv : forall k d, free_from rv d k = None -> forall e, (d <= e < d + k)%nat -> all_zero_at rv e = false.
Proof.
  induction k as [|k IH]; cbn; intros d H e He; [lia|]. destruct (all_zero_at rv d) eqn:E; [discriminate|].
  destruct (Nat.eq_dec e d) as [->|]; [exact E|]. apply (IH (S d)); [exact H|lia].
Qed.
Lemma free_dim_none n rv e : free_dim n rv = None -> (e < n)%nat -> ~ forall i, (i < length rv)%nat -> row rv i e = 0.
Proof.
  intros H He K. apply all_zero_spec in K. rewrite (free_from_none _ _ _ H e) in K by lia. discriminate.
Qed.

(* the unit vector of a free coordinate is already orthogonal to everything *)
Lemma project_free n rv d : near n rv -> (d < n)%nat -> (forall i, (i < length rv)%nat -> row rv i d = 0) -> forall e, project n rv (unitv d) e = unitv d e.
Proof.
  intros H Hd Hf e. rewrite project_outside by apply H. unfold outside, comb. rewrite rsum_zero; [lra|].
  intros i Hi. rewrite dot_unit by auto. rewrite Hf by auto. lra.
Qed.
Lemma norm_unit n d : (d < n)%nat -> norm n (unitv d) = 1.
Proof. intros H. unfold norm. rewrite dot_unit by auto. unfold unitv. rewrite Nat.eqb_refl. apply sqrt_1. Qed.

Definition dinv (n : nat) (A : nat -> rvec) (point : rvec) (s : dstate) : Prop :=
  orthonormal n (d_rv s) /\ (length (d_rv s) <= n)%nat /\
  (forall k, (k < length (d_rv s))%nat -> next_dir n A (firstn k (d_rv s)) (prev_of point (firstn k (d_rv s))) (row (d_rv s) k)) /\
  match d_cur s with
  | Some c => c = prev_of point (d_rv s)
  | None => norm n (outside n (d_rv s) (mulv n A (prev_of point (d_rv s)))) < / 1000000
  end.

Lemma last_snoc {T} (l : list T) v d : last (l ++ [v]) d = v.
Proof. induction l as [|x l IH]; [reflexivity|]. cbn. destruct (l ++ [v]) eqn:E; [destruct l; discriminate|]. rewrite <- E in *. exact IH. Qed.

Lemma norm_project n rv x : near n rv -> norm n (project n rv x) = norm n (outside n rv x).
Proof. intros H. apply norm_ext. intros. apply project_outside, H. Qed.

Lemma dinv_snoc n A point rv v k : orthonormal n rv -> (length rv < n)%nat ->
  (forall k, (k < length rv)%nat -> next_dir n A (firstn k rv) (prev_of point (firstn k rv)) (row rv k)) ->
  (forall i, (i < length rv)%nat -> dot n (row rv i) v = 0) -> dot n v v = 1 ->
  next_dir n A rv (prev_of point rv) v ->
  dinv n A point (mkD (rv ++ [v]) (Some v) k).
Proof.
  intros H Hl Hn Ho Hu Hv. unfold dinv. cbn [d_rv d_cur]. rewrite app_length. cbn [length].
  split; [apply ortho_snoc; auto|]. split; [lia|]. split.
  - intros j Hj. destruct (Nat.eq_dec j (length rv)) as [->|Nj].
    + rewrite row_last. rewrite firstn_app, Nat.sub_diag, firstn_all. cbn [firstn]. rewrite app_nil_r. exact Hv.
    + rewrite row_app1 by lia. rewrite firstn_app. replace (j - length rv)%nat with 0%nat by lia. cbn [firstn]. rewrite app_nil_r.
      apply Hn. lia.
  - unfold prev_of. rewrite last_snoc. reflexivity.
Qed.

Lemma dm_step_inv n A rand point s : dinv n A point s -> (length (d_rv s) < n)%nat -> dinv n A point (dm_step n A rand s).
Proof.
  intros (H1 & H2 & H3 & H4) Hl. unfold dm_step.
  destruct (d_cur s) as [c|] eqn:Ec.
  - set (r := project n (d_rv s) (mulv n A c)). destruct (small n r) eqn:Es.
    + unfold dinv. cbn [d_rv d_cur]. split; [exact H1|]. split; [lia|]. split; [exact H3|].
      apply small_true in Es. unfold r in Es. rewrite norm_project in Es by auto using near_ortho. rewrite <- H4. exact Es.
    + apply dinv_snoc; auto.
      * intros i Hi. apply scale_orth, project_orth; auto using near_ortho.
      * apply scale_unit, Es.
      * rewrite <- H4. split.
        -- intros _ e He. unfold scale, r. rewrite norm_project, project_outside; auto using near_ortho. apply near_ortho, H1.
        -- intros K. exfalso. apply small_false in Es. unfold r in Es. rewrite norm_project in Es by auto using near_ortho. lra.
  - destruct (free_dim n (d_rv s)) as [d|] eqn:Ef.
    + destruct (free_from_spec _ _ _ _ Ef) as (K1 & K2 & K3).
      assert (P : forall e, project n (d_rv s) (unitv d) e = unitv d e) by (apply project_free; auto using near_ortho; lia).
      assert (N : norm n (project n (d_rv s) (unitv d)) = 1) by (rewrite (norm_ext n _ (unitv d)) by auto; apply norm_unit; lia).
      set (r := project n (d_rv s) (unitv d)) in *. assert (Es : small n r = false) by (apply small_false; lra). rewrite Es.
      apply dinv_snoc; auto.
      * intros i Hi. apply scale_orth, project_orth; auto using near_ortho.
      * apply scale_unit, Es.
      * split; [intros; lra|]. intros _ d' Hd' F1 F2 e He. assert (d' = d).
        { destruct (Nat.lt_trichotomy d' d) as [L|[L|L]]; [|exact L|].
          - destruct (K3 d' ltac:(lia)) as (i & Hi & Hz). exfalso. apply Hz, F1, Hi.
          - destruct (F2 d L) as (i & Hi & Hz). exfalso. apply Hz, K2, Hi. }
        subst d'. unfold scale. rewrite N, P. unfold unitv. destruct (Nat.eqb_spec e d), Nat.eq_dec; try congruence; lra.
    + set (r := project n (d_rv s) (rand (d_draws s))). destruct (small n r) eqn:Es.
      * unfold dinv. cbn [d_rv d_cur]. split; [exact H1|]. split; [lia|]. split; [exact H3|]. exact H4.
      * apply dinv_snoc; auto.
        -- intros i Hi. apply scale_orth, project_orth; auto using near_ortho.
        -- apply scale_unit, Es.
        -- split; [intros; lra|]. intros _ d Hd F1 _. exfalso. exact (free_dim_none _ _ _ Ef Hd F1).
Qed.

Lemma dm_loop_inv n A rand point fuel : forall s r, dinv n A point s -> dm_loop fuel n A rand s = Some r -> dinv n A point r /\ length (d_rv r) = n.
Proof.
  induction fuel as [|f IH]; intros s r H E; cbn [dm_loop] in E; destruct (Nat.ltb_spec (length (d_rv s)) n) as [L|L]; try discriminate.
  - injection E as <-. split; [exact H|]. destruct H as (_ & K & _). lia.
  - apply (IH _ _ (dm_step_inv n A rand point s H L) E).
  - injection E as <-. split; [exact H|]. destruct H as (_ & K & _). lia.
Qed.

Lemma dinv_init n A point : dinv n A point (mkD [] (Some point) 0).
Proof.
  unfold dinv. cbn. split; [intros i j Hi; cbn in Hi; lia|]. split; [lia|]. split; [intros; lia|reflexivity].
Qed.

(* never stuck *)
Lemma dm_loop_mono n A rand fuel : forall s r g, dm_loop fuel n A rand s = Some r -> (fuel <= g)%nat -> dm_loop g n A rand s = Some r.
Proof.
  induction fuel as [|f IH]; intros s r g H Hg; destruct g as [|g]; cbn [dm_loop] in *; destruct (Nat.ltb (length (d_rv s)) n); try discriminate; auto; try lia.
  apply IH; auto; lia.
Qed.

Definition halfv (d : nat) : rvec := fun i => unitv d i * / 2.

Lemma outside_scal n M x c e : outside n M (fun i => x i * c) e = outside n M x e * c.
Proof.
  unfold outside, comb. rewrite Rmult_minus_distr_r, <- rsum_scal_r. f_equal. apply rsum_ext. intros i _. rewrite dot_scal_r. lra.
Qed.

Lemma good_draw n rv : orthonormal n rv -> (length rv < n)%nat -> INR n <= 100000000000 ->
  exists v, in_range v /\ small n (project n rv v) = false.
Proof.
  intros H Hl Hn. destruct (good_unit n rv H Hl) as (d & Hd & K). exists (halfv d). split.
  - intros e. unfold halfv, unitv. destruct (Nat.eqb e d); lra.
  - apply small_false. rewrite norm_project by auto using near_ortho. apply norm_le_sq; [lra|].
    assert (E : dot n (outside n rv (halfv d)) (outside n rv (halfv d)) = dot n (outside n rv (unitv d)) (outside n rv (unitv d)) * / 4).
    { rewrite (dot_ext n _ _ (fun i => outside n rv (unitv d) i * / 2) (fun i => outside n rv (unitv d) i * / 2)); try (intros; apply outside_scal).
      rewrite dot_scal_r, dot_comm, dot_scal_r. lra. }
    rewrite E. assert (0 < INR n) by (apply (lt_INR 0); lia).
    assert (/ 100000000000 <= / INR n) by (apply Rinv_le_contravar; auto). lra.
Qed.

Definition upd (rand : nat -> rvec) (k : nat) (v : rvec) : nat -> rvec := fun i => if Nat.eqb i k then v else rand i.

Lemma dm_step_rand n A rand rand' s : rand' (d_draws s) = rand (d_draws s) -> dm_step n A rand' s = dm_step n A rand s.
Proof. intros H. unfold dm_step. rewrite H. reflexivity. Qed.

Lemma dm_finish n A point N : INR n <= 100000000000 -> forall m s rand, dinv n A point s ->
  (2 * (N - d_draws s) + 2 * (n - length (d_rv s)) + (match d_cur s with None => 0 | Some _ => 1 end) <= m)%nat ->
  (forall i, (N <= i)%nat -> in_range (rand i)) ->
  exists rand', (forall i, (i < Nat.max N (d_draws s))%nat -> rand' i = rand i) /\ (forall i, (N <= i)%nat -> in_range (rand' i)) /\
    exists fuel r, dm_loop fuel n A rand' s = Some r.
Proof.
  intros HN. induction m as [|m IH]; intros s rand H Hm Hr.
  - exists rand. split; [auto|]. split; [auto|]. exists 0%nat, s. cbn [dm_loop]. destruct (Nat.ltb_spec (length (d_rv s)) n); [lia|reflexivity].
  - destruct (Nat.ltb_spec (length (d_rv s)) n) as [L|L].
    2:{ exists rand. split; [auto|]. split; [auto|]. exists 0%nat, s. cbn [dm_loop]. destruct (Nat.ltb_spec (length (d_rv s)) n); [lia|reflexivity]. }
    assert (W : forall rand1, (forall i, (i < Nat.max N (d_draws s))%nat -> rand1 i = rand i) -> (forall i, (N <= i)%nat -> in_range (rand1 i)) ->
        (2 * (N - d_draws (dm_step n A rand1 s)) + 2 * (n - length (d_rv (dm_step n A rand1 s))) + (match d_cur (dm_step n A rand1 s) with None => 0 | Some _ => 1 end) <= m)%nat ->
        (d_draws s <= d_draws (dm_step n A rand1 s))%nat ->
        (forall rand2, (forall i, (i < Nat.max N (d_draws (dm_step n A rand1 s)))%nat -> rand2 i = rand1 i) -> dm_step n A rand2 s = dm_step n A rand1 s) ->
        exists rand', (forall i, (i < Nat.max N (d_draws s))%nat -> rand' i = rand i) /\ (forall i, (N <= i)%nat -> in_range (rand' i)) /\
        exists fuel r, dm_loop fuel n A rand' s = Some r).
    { intros rand1 A1 A2 A3 A4 A5. destruct (IH (dm_step n A rand1 s) rand1 (dm_step_inv _ _ _ _ _ H L) A3 A2) as (rand2 & B1 & B2 & f & r & B3).
      exists rand2. split; [intros i Hi; rewrite B1 by lia; apply A1, Hi|]. split; [exact B2|]. exists (S f), r. cbn [dm_loop].
      destruct (Nat.ltb_spec (length (d_rv s)) n); [|lia]. rewrite (A5 rand2 B1). exact B3. }
    destruct H as (H1 & H2 & H3 & H4).
    destruct (d_cur s) as [c|] eqn:Ec.
    { apply (W rand); auto; unfold dm_step; rewrite Ec.
      - destruct (small n _); cbn; [|rewrite app_length; cbn]; lia.
      - destruct (small n _); cbn; lia.
      - intros rand2 _. reflexivity. }
    destruct (free_dim n (d_rv s)) as [d|] eqn:Ef.
    { destruct (free_from_spec _ _ _ _ Ef) as (K1 & K2 & K3).
      assert (Es : small n (project n (d_rv s) (unitv d)) = false).
      { apply small_false. rewrite (norm_ext n _ (unitv d)), norm_unit; try lra; try lia. intros. apply project_free; auto using near_ortho; lia. }
      apply (W rand); auto; unfold dm_step; rewrite Ec, Ef, Es; cbn; [rewrite app_length; cbn; lia|lia|auto]. }
    destruct (Nat.ltb_spec (d_draws s) N) as [D|D].
    + apply (W rand); auto.
      * unfold dm_step; rewrite Ec, Ef. destruct (small n _); cbn; [|rewrite app_length; cbn]; lia.
      * unfold dm_step; rewrite Ec, Ef. destruct (small n _); cbn; lia.
      * intros rand2 B. apply dm_step_rand, B. lia.
    + destruct (good_draw n (d_rv s) H1 L HN) as (v & V1 & V2).
      assert (U : upd rand (d_draws s) v (d_draws s) = v) by (unfold upd; rewrite Nat.eqb_refl; reflexivity).
      assert (St : dm_step n A (upd rand (d_draws s) v) s = mkD (d_rv s ++ [scale n (project n (d_rv s) v)]) (Some (scale n (project n (d_rv s) v))) (S (d_draws s))).
      { unfold dm_step. rewrite Ec, Ef, U, V2. reflexivity. }
      apply (W (upd rand (d_draws s) v)).
      * intros i Hi. unfold upd. destruct (Nat.eqb_spec i (d_draws s)); [lia|reflexivity].
      * intros i Hi. unfold upd. destruct (Nat.eqb i (d_draws s)); [exact V1|apply Hr, Hi].
      * rewrite St. cbn. rewrite app_length. cbn. lia.
      * rewrite St. cbn. lia.
      * intros rand2 B. apply dm_step_rand, B. rewrite St. cbn. lia.
Qed.
