(** add_init_constraint, try_replace_init_constraint, get_basis_matrix, check_intersection (lputil.py:303-445, 625). *)
From Verif Require Import Base BaseFacts LpModel LpSpec SetSpec LpFacts LpWf LpUtil SetFacts SetFacts2 OpsFacts.
Open Scope nat_scope.

Lemma vmul_ldot_off n v M off x :
  Forall (fun r => List.length r = n) M -> List.length v = List.length M ->
  (ldot (vmul n v M) off x == ldot v 0 (fun i => ldot (mrow M i) off x))%Q.
Proof.
  intros H1 H2. rewrite ldot_shift, vmul_ldot by auto. apply ldot_ext. intros i Hi. simpl. unfold mapply.
  rewrite (ldot_shift (mrow M i) off x). reflexivity.
Qed.

Lemma ie_entries_val nu v IEs off n x :
  Forall (mat_dims n nu) IEs -> List.length v = n ->
  (reval (ie_entries nu v IEs off) x == ldot v 0 (fun i => ie_val nu IEs i off x))%Q.
Proof.
  intros HF Hv. revert off. induction IEs as [|IE IEs IH]; intro off; simpl.
  - rewrite ldot_zero; [reflexivity|]. intros; reflexivity.
  - inversion HF as [|? ? [H1 H2] HF']; subst. rewrite reval_app, reval_dense, IH by auto.
    rewrite vmul_ldot_off by (auto; congruence). rewrite <- ldot_add. reflexivity.
Qed.

Lemma init_row_val l BM nu IEs v x : wf_lp l BM nu IEs -> List.length v = l_dims l ->
  (reval (dense_row (vmul (l_dims l) v BM) (snd (l_bm l)) ++ ie_entries nu v IEs (uoff l)) x == ldot v 0 (cur_of l BM nu IEs x))%Q.
Proof.
  intros W Hv. destruct (wf_bmdims _ _ _ _ W) as [HB1 HB2].
  rewrite reval_app, reval_dense, vmul_ldot_off by (auto; congruence).
  rewrite (ie_entries_val _ _ _ _ (l_dims l)) by (auto; apply (wf_IEs_dims _ _ _ _ W)).
  rewrite <- ldot_add. unfold cur_of. reflexivity.
Qed.

Lemma ie_entries_cols nu v IEs off n c a : Forall (mat_dims n nu) IEs ->
  In (c, a) (ie_entries nu v IEs off) -> off <= c < off + nu * List.length IEs.
Proof.
  intros HF. revert off. induction IEs as [|IE IEs IH]; intros off; simpl; [tauto|].
  inversion HF as [|? ? [H1 H2] HF']; subst. rewrite in_app_iff. intros [H|H].
  - assert (forall l o, In (c, a) (dense_row l o) -> o <= c < o + List.length l).
    { clear. induction l as [|v l IH]; intros o; simpl; [tauto|]. intros [E|E]; [inversion E; lia|]. apply IH in E. lia. }
    apply H0 in H. rewrite vmul_length in H by auto. lia.
  - apply IH in H; auto. lia.
Qed.

Lemma dense_row_cols l o c a : In (c, a) (dense_row l o) -> o <= c < o + List.length l.
Proof. revert o. induction l as [|v l IH]; intros o; simpl; [tauto|]. intros [E|E]; [inversion E; lia|]. apply IH in E. lia. Qed.

Lemma firstn_skipn_upd_nth {A} (rs : list A) i r j : i < List.length rs ->
  nth_error (firstn i rs ++ r :: skipn (S i) rs) j = if j =? i then Some r else nth_error rs j.
Proof.
  intro H. destruct (Nat.eqb_spec j i) as [->|Hne].
  - rewrite nth_error_app2 by (rewrite firstn_length; lia). rewrite firstn_length, Nat.min_l by lia. rewrite Nat.sub_diag. reflexivity.
  - destruct (Nat.lt_ge_cases j i).
    + rewrite nth_error_app1 by (rewrite firstn_length; lia). apply nth_error_firstn; auto.
    + rewrite nth_error_app2 by (rewrite firstn_length; lia). rewrite firstn_length, Nat.min_l by lia.
      destruct (j - i) as [|k] eqn:E; [lia|]. cbn [nth_error]. rewrite nth_error_skipn. f_equal; lia.
Qed.

Lemma set_rhs_at_nth i b rs j :
  nth_error (set_rhs_at i b rs) j =
  match nth_error rs j with None => None | Some r => Some (if j =? i then mkRow (r_ty r) (r_co r) b else r) end.
Proof.
  unfold set_rhs_at. destruct (nth_error rs i) as [r|] eqn:E.
  - assert (i < List.length rs) by (apply nth_error_Some; congruence).
    rewrite firstn_skipn_upd_nth by auto. destruct (Nat.eqb_spec j i) as [->|]; [rewrite E; reflexivity|].
    destruct (nth_error rs j); reflexivity.
  - destruct (nth_error rs j) as [r|] eqn:E2; auto. destruct (Nat.eqb_spec j i) as [->|]; [congruence|reflexivity].
Qed.

Lemma set_rhs_at_length i b rs : List.length (set_rhs_at i b rs) = List.length rs.
Proof.
  unfold set_rhs_at. destruct (nth_error rs i) as [r|] eqn:E; auto.
  assert (i < List.length rs) by (apply nth_error_Some; congruence).
  rewrite app_length, firstn_length. change (List.length (mkRow (r_ty r) (r_co r) b :: skipn (S i) rs)) with (S (List.length (skipn (S i) rs))). rewrite skipn_length. lia.
Qed.

(** The row written by add_init_constraint. *)
Definition init_co (l : lp) (BM : mat) (nu : nat) (IEs : list mat) (v : list Q) : srow :=
  dense_row (vmul (l_dims l) v BM) (snd (l_bm l)) ++ ie_entries nu v IEs (uoff l).

(** The arguments describe the LP: [BM'] and [ies] are the matrices the LP was built with. *)
Lemma add_init_constraint_ok l BM nu IEs v rhs ri l' i :
  wf_lp l BM nu IEs -> 0 < l_dims l ->
  add_init_constraint l v rhs (Some BM) IEs ri = Ok (l', i) ->
  List.length v = l_dims l /\ same_layout l l' /\ l_nc l' = l_nc l /\
  match ri with
  | None => i = l_nr l /\ l_rows l' = l_rows l ++ [mkRow UP (init_co l BM nu IEs v) rhs]
  | Some j => i = j /\ exists r, nth_error (l_rows l) j = Some r /\ l_nr l' = l_nr l /\
       forall k, nth_error (l_rows l') k = if k =? j then Some (mkRow (r_ty r) (init_co l BM nu IEs v) rhs) else nth_error (l_rows l) k
  end.
Proof.
  intros W Hd0. unfold add_init_constraint. intro H. inv_bind H. inversion H1; subst a; clear H1.
  destruct (wf_bmdims _ _ _ _ W) as [HB1 HB2].
  inv_bind H. destruct (Nat.eqb_spec (List.length v) (List.length BM)) as [Hv|]; [|discriminate]. clear H1 a.
  inv_bind H. destruct a as [l1 i1]. rename H1 into Hl1.
  inv_bind H. rename a into ents. rename H1 into Hents.
  inv_bind H. clear a H1. inv_bind H. rename a into l2. rename H1 into Hl2. inversion H; subst l2 i1; clear H.
  assert (S1 : same_layout l l1 /\ l_names l1 = l_names l).
  { destruct ri as [j|].
    - inv_bind Hl1. inversion Hl1; subst. unfold set_constraint_rhs in H1. inv_bind H1. inversion H1; subst. repeat split.
    - inversion Hl1; subst. repeat split. }
  destruct S1 as [S1 N1].
  assert (Hco : dense_row (vmul (List.length BM) v BM) (snd (l_bm l1)) ++ ents = init_co l BM nu IEs v).
  { unfold init_co. destruct S1 as (D1 & B1 & C1 & I1). rewrite B1, HB1. f_equal.
    destruct IEs as [|ie0 IEs'].
    - inversion Hents; reflexivity.
    - rewrite I1 in Hents. destruct (l_ie l) as [[ier iec]|] eqn:Eie; [|discriminate].
      inv_bind Hents. clear H1 a. inv_bind Hents. clear H1 a. inversion Hents; subst.
      pose proof (wf_IEs_dims _ _ _ _ W) as HF. inversion HF; subst.
      rewrite (mat_dims_mrow _ _ _ _ H1 Hd0). unfold uoff. rewrite Eie, HB1. reflexivity. }
  rewrite Hco in Hl2. apply set_constraints_csr_ok in Hl2 as [-> [Hb _]]. cbn [fst snd c_rows map] in *. rewrite shift_row_0.
  split; [congruence|]. split; [exact S1|]. split; [unfold l_nc; simpl; rewrite N1; auto|].
  destruct ri as [j|].
  - inv_bind Hl1. inversion Hl1; subst l1 i; clear Hl1. unfold set_constraint_rhs in H1. inv_bind H1. apply assert_ok, Nat.ltb_lt in H0.
    inversion H1; subst; clear H1. split; auto. unfold l_nr in H0.
    destruct (nth_error (l_rows l) j) as [r|] eqn:E; [|apply nth_error_None in E; lia].
    exists r. split; auto. cbn [l_rows with_rows]. split.
    { unfold l_nr. cbn [l_rows with_rows]. rewrite set_coefs_length. apply set_rhs_at_length. }
    intro k. rewrite set_coefs_nth by (rewrite set_rhs_at_length; lia).
    rewrite set_rhs_at_nth. destruct (Nat.eqb_spec k j) as [->|Hne].
    + rewrite E, Nat.leb_refl, Nat.sub_diag. simpl. reflexivity.
    + destruct (nth_error (l_rows l) k) as [rk|]; auto. destruct (Nat.leb_spec j k); auto.
      destruct (k - j) as [|m] eqn:E2; [lia|]. simpl. destruct m; reflexivity.
  - inversion Hl1; subst l1 i; clear Hl1. split; auto. cbn [l_rows with_rows add_rows_le map].
    unfold l_nr. rewrite set_coefs_end. reflexivity.
Qed.

Lemma init_co_cols l BM nu IEs v c a : wf_lp l BM nu IEs -> List.length v = l_dims l ->
  In (c, a) (init_co l BM nu IEs v) -> (c < l_cvo l \/ uoff l <= c) /\ c < l_nc l.
Proof.
  intros W Hv Hin. unfold init_co in Hin. destruct (wf_bmdims _ _ _ _ W) as [HB1 HB2].
  assert (C1 := wf_bmc _ _ _ _ W). assert (C2 := wf_cvo _ _ _ _ W).
  apply in_app_iff in Hin as [Hin|Hin].
  - apply dense_row_cols in Hin. rewrite vmul_length in Hin by auto. lia.
  - apply ie_entries_cols with (n := l_dims l) in Hin; [|apply (wf_IEs_dims _ _ _ _ W)]. split; [lia|].
    pose proof (wf_ies _ _ _ _ W) as HI. unfold uoff in Hin. destruct (l_ie l) as [[r c']|] eqn:Eie; [destruct HI as (_ & _ & -> & _); lia|].
    subst. simpl in Hin. lia.
Qed.

(** Adding a constraint row on non-current columns to a well-formed LP (replacing core row j or appending). *)
Lemma add_init_wf l BM nu IEs v rhs ri l' i :
  wf_lp l BM nu IEs -> 0 < l_dims l ->
  (match ri with None => True | Some j => ~ is_bm l j /\ ~ is_ie l j end) ->
  add_init_constraint l v rhs (Some BM) IEs ri = Ok (l', i) -> wf_lp l' BM nu IEs.
Proof.
  intros W Hd0 Hri H. destruct (add_init_constraint_ok _ _ _ _ _ _ _ _ _ W Hd0 H) as (Hv & S & Hnc & Hrows).
  assert (Hlook : forall k r, nth_error (l_rows l') k = Some r ->
     nth_error (l_rows l) k = Some r \/ (r_co r = init_co l BM nu IEs v)).
  { intros k r Hk. destruct ri as [j|].
    - destruct Hrows as (_ & r0 & _ & _ & Hn). rewrite Hn in Hk. destruct (k =? j); [inversion Hk; auto|auto].
    - destruct Hrows as (_ & Hr). rewrite Hr in Hk. destruct (Nat.lt_ge_cases k (List.length (l_rows l))).
      + rewrite nth_error_app1 in Hk by auto. auto.
      + rewrite nth_error_app2 in Hk by auto. destruct (k - List.length (l_rows l)) as [|m]; [inversion Hk; auto|destruct m; discriminate]. }
  assert (Hkeep : forall k r, nth_error (l_rows l) k = Some r -> is_bm l k \/ is_ie l k -> nth_error (l_rows l') k = Some r).
  { intros k r Hk Hb. destruct ri as [j|].
    - destruct Hrows as (_ & r0 & _ & _ & Hn). rewrite Hn. destruct (Nat.eqb_spec k j) as [->|]; auto. tauto.
    - destruct Hrows as (_ & Hr). rewrite Hr. rewrite nth_error_app1; auto. apply nth_error_Some. congruence. }
  destruct S as (D & B & C & I0).
  assert (S : same_layout l l') by (repeat split; auto).
  constructor.
  - apply lp_cols_nth. rewrite Hnc. intros k r Hk. apply Hlook in Hk as [Hk|Hk].
    + pose proof (wf_cols _ _ _ _ W) as Hc. rewrite lp_cols_nth in Hc. eauto.
    + unfold row_cols_lt. apply Forall_forall. intros [c a] Hin. rewrite Hk in Hin. eapply init_co_cols; eauto.
  - rewrite D. apply (wf_bmdims _ _ _ _ W).
  - rewrite B, D, C. apply (wf_bmc _ _ _ _ W).
  - rewrite D, C, Hnc. apply (wf_cvo _ _ _ _ W).
  - rewrite D, B, C. intros k Hk. destruct (wf_bmrows _ _ _ _ W k Hk) as (co & Hn & Hx). exists co. split.
    + apply Hkeep; auto. left. unfold is_bm. lia.
    + intro x. rewrite (same_layout_ti l l') by auto. apply Hx.
  - intros k r Hk Hb Hi c a Hin. rewrite (same_layout_uoff l l') by auto. rewrite C.
    rewrite (same_layout_is_bm l l') in Hb by auto. rewrite (same_layout_is_ie l l') in Hi by auto.
    apply Hlook in Hk as [Hk|Hk].
    + exact (wf_core _ _ _ _ W k r Hk Hb Hi c a Hin).
    + rewrite Hk in Hin. eapply init_co_cols; eauto.
  - rewrite I0, D, C, B, Hnc. pose proof (wf_ies _ _ _ _ W) as HI. destruct (l_ie l) as [[ier iec]|] eqn:Eie; auto.
    destruct HI as (A1 & A2 & A3 & A4 & A5). repeat split; auto. intros k Hk. destruct (A5 k Hk) as (co & Hn & Hx).
    exists co; split; auto. apply Hkeep; auto. right. unfold is_ie. rewrite Eie. lia.
Qed.

Lemma add_init_core_None l BM nu IEs v rhs l' i :
  wf_lp l BM nu IEs -> 0 < l_dims l ->
  add_init_constraint l v rhs (Some BM) IEs None = Ok (l', i) ->
  i = l_nr l /\ nth_error (l_rows l') i = Some (mkRow UP (init_co l BM nu IEs v) rhs) /\ ~ is_bm l i /\ ~ is_ie l i
  /\ (forall k r, nth_error (l_rows l) k = Some r -> nth_error (l_rows l') k = Some r)
  /\ forall x, core_sat l' x <-> core_sat l x /\ (ldot v 0 (cur_of l BM nu IEs x) <= rhs)%Q.
Proof.
  intros W Hd0 H. destruct (add_init_constraint_ok _ _ _ _ _ _ _ _ _ W Hd0 H) as (Hv & S & Hnc & -> & Hr).
  assert (Hb : ~ is_bm l (l_nr l)).
  { pose proof (wf_bmr_le _ _ _ _ W Hd0). unfold is_bm. lia. }
  assert (Hi : ~ is_ie l (l_nr l)).
  { unfold is_ie. pose proof (wf_ies _ _ _ _ W) as HI. destruct (l_ie l) as [[ier iec]|]; auto.
    destruct HI as (_ & _ & _ & _ & HR). intro Hb'. destruct (HR (l_nr l - ier) ltac:(lia)) as (co & Hn & _).
    replace (ier + (l_nr l - ier)) with (l_nr l) in Hn by lia. unfold l_nr in Hn.
    assert (List.length (l_rows l) < List.length (l_rows l)) by (apply nth_error_Some; congruence). lia. }
  split; auto. split; [|split; [auto|split; [auto|split]]].
  - rewrite Hr. unfold l_nr. rewrite nth_error_app2, Nat.sub_diag by lia. reflexivity.
  - intros k r Hk. rewrite Hr. rewrite nth_error_app1; auto. apply nth_error_Some. congruence.
  - intro x. unfold core_sat. rewrite Hr. split.
    + intro Hc. split.
      * intros k r Hk Hkb Hki. apply (Hc k r).
        -- rewrite nth_error_app1; auto. apply nth_error_Some. congruence.
        -- rewrite (same_layout_is_bm l l'); auto.
        -- rewrite (same_layout_is_ie l l'); auto.
      * rewrite <- init_row_val by auto. apply (Hc (l_nr l) (mkRow UP (init_co l BM nu IEs v) rhs)).
        -- unfold l_nr. rewrite nth_error_app2, Nat.sub_diag by lia. reflexivity.
        -- rewrite (same_layout_is_bm l l'); auto.
        -- rewrite (same_layout_is_ie l l'); auto.
    + intros [Hc Hle] k r Hk Hkb Hki. rewrite (same_layout_is_bm l l') in Hkb by auto. rewrite (same_layout_is_ie l l') in Hki by auto.
      destruct (Nat.lt_ge_cases k (List.length (l_rows l))).
      * rewrite nth_error_app1 in Hk by auto. eauto.
      * rewrite nth_error_app2 in Hk by auto. destruct (k - List.length (l_rows l)) as [|m]; [|destruct m; discriminate].
        inversion Hk; subst. unfold row_sat. cbn [r_ty r_co r_rhs]. unfold init_co. rewrite init_row_val by auto. exact Hle.
Qed.

Lemma ldot_cur l BM nu IEs v x p : List.length v = l_dims l ->
  (forall i, i < l_dims l -> (p i == cur_of l BM nu IEs x i)%Q) ->
  (ldot v 0 p == ldot v 0 (cur_of l BM nu IEs x))%Q.
Proof. intros Hv Hp. apply ldot_ext. intros i Hi. simpl. apply Hp. lia. Qed.

(** C10: the new set is the old one intersected with the half-space v.p <= rhs at the current time. *)
Lemma add_init_constraint_in l BM nu IEs v rhs l' i :
  wf_lp l BM nu IEs -> 0 < l_dims l ->
  add_init_constraint l v rhs (Some BM) IEs None = Ok (l', i) ->
  wf_lp l' BM nu IEs /\ same_layout l l' /\ forall p, in_lp l' p <-> in_lp l p /\ (ldot v 0 p <= rhs)%Q.
Proof.
  intros W Hd0 H. assert (W' := add_init_wf _ _ _ _ _ _ None _ _ W Hd0 I H).
  destruct (add_init_constraint_ok _ _ _ _ _ _ _ _ _ W Hd0 H) as (Hv & S & Hnc & _).
  destruct (add_init_core_None _ _ _ _ _ _ _ _ W Hd0 H) as (_ & _ & _ & _ & _ & Hc).
  split; auto. split; auto. intro p. rewrite (wf_in_lp _ _ _ _ _ W'), (wf_in_lp _ _ _ _ _ W).
  assert (D : l_dims l' = l_dims l) by apply S. split.
  - intros (x & Hx & Hp). apply Hc in Hx as [Hx Hle].
    assert (Hp' : forall j, j < l_dims l -> (p j == cur_of l BM nu IEs x j)%Q).
    { intros j Hj. rewrite Hp by lia. rewrite (same_layout_cur l l') by auto. reflexivity. }
    split; [exists x; auto|]. rewrite (ldot_cur l BM nu IEs v x p); auto.
  - intros [(x & Hx & Hp) Hle]. exists x. split.
    + apply Hc. split; auto. rewrite <- (ldot_cur l BM nu IEs v x p); auto.
    + intros j Hj. rewrite (same_layout_cur l l') by auto. apply Hp. lia.
Qed.

(** ** try_replace_init_constraint *)
Section WithSolver.
Variable solve : solver.
Hypothesis Hsolve : solver_ok solve.

Lemma reval_vals r n x vals : row_cols_lt n r -> vals = map x (seq 0 n) -> (reval r (of_list vals) == reval r x)%Q.
Proof.
  intros Hr ->. apply reval_ext. intros c a Hin. apply (row_cols_lt_In _ _ _ _ Hr) in Hin. unfold of_list.
  rewrite (nth_indep _ 0%Q (x 0)) by (rewrite map_length, seq_length; auto).
  rewrite map_nth, seq_nth by auto. reflexivity.
Qed.

(** satisfaction of all core rows except row j *)
Definition core_but (l : lp) (j : nat) (x : vec) : Prop :=
  forall k r, nth_error (l_rows l) k = Some r -> k <> j -> ~ is_bm l k -> ~ is_ie l k -> row_sat r x.

Lemma core_split l j r x : nth_error (l_rows l) j = Some r -> ~ is_bm l j -> ~ is_ie l j ->
  core_sat l x <-> core_but l j x /\ row_sat r x.
Proof.
  intros Hj Hb Hi. split.
  - intro H; split; [intros k rk Hk _ B I1; eauto|eauto].
  - intros [H1 H2] k rk Hk B I1. destruct (Nat.eq_dec k j) as [->|Hne]; [congruence|eauto].
Qed.

Lemma lp_sat_iff_core l BM nu IEs x : wf_lp l BM nu IEs -> lp_sat l x -> core_sat l x.
Proof. intros W H. apply (wf_sat _ _ _ _ _ W) in H. tauto. Qed.

(** replacing the objective changes nothing *)
Lemma wf_with_obj l BM nu IEs o : wf_lp l BM nu IEs -> wf_lp (with_obj l o) BM nu IEs.
Proof. intro W. destruct W. constructor; auto. Qed.

(** Two well-formed LPs with the same layout: a column assignment satisfying the core rows extends to a full solution. *)
Lemma core_to_sat l BM nu IEs x : wf_lp l BM nu IEs -> core_sat l x ->
  exists y, lp_sat l y /\ forall c, (c < l_cvo l \/ uoff l <= c) -> (y c == x c)%Q.
Proof.
  intros W Hc. set (n := l_dims l).
  set (x1 := upd x (l_cvo l) n (cur_of l BM nu IEs x)).
  set (x2 := match l_ie l with
             | Some (_, iec) => upd x1 iec n (fun i => ie_val nu IEs i (uoff l) x)
             | None => x1 end).
  assert (Huo := wf_uoff _ _ _ _ W). assert (Hbc := wf_bmc _ _ _ _ W).
  pose proof (wf_ies _ _ _ _ W) as HI.
  assert (Hsame : forall c, (c < l_cvo l \/ uoff l <= c) -> x2 c = x c).
  { intros c Hcc. unfold x2, x1, uoff in *. destruct (l_ie l) as [[ier iec]|].
    - destruct HI as (Hiec & _). rewrite upd_out by (unfold n; lia). apply upd_out. unfold n; lia.
    - apply upd_out. unfold n; lia. }
  assert (Hcur : forall i, i < n -> x2 (l_cvo l + i) = cur_of l BM nu IEs x i).
  { intros i Hi. unfold x2. destruct (l_ie l) as [[ier iec]|].
    - destruct HI as (Hiec & _). rewrite upd_out by (unfold n in *; lia). unfold x1. apply upd_in; auto.
    - unfold x1. apply upd_in; auto. }
  assert (Hval : forall i, i < n -> (ie_val nu IEs i (uoff l) x2 == ie_val nu IEs i (uoff l) x)%Q).
  { intros i Hi. eapply ie_val_ext; [apply (wf_IEs_dims _ _ _ _ W)|exact Hi|].
    intros c Hcc. rewrite Hsame by lia. reflexivity. }
  assert (Hcur2 : forall i, i < n -> (cur_of l BM nu IEs x2 i == cur_of l BM nu IEs x i)%Q).
  { intros i Hi. unfold cur_of. rewrite Hval by auto.
    apply Qplus_comp; [|reflexivity]. apply ldot_ext. intros j Hj.
    rewrite (mat_dims_mrow _ _ _ _ (wf_bmdims _ _ _ _ W) Hi) in Hj. rewrite Hsame by lia. reflexivity. }
  exists x2. split; [|intros c Hcc; rewrite Hsame by auto; reflexivity].
  apply (wf_sat _ _ _ _ _ W). split.
  - eapply core_sat_ext; [exact W| |exact Hc]. intros c _ Hcc. rewrite Hsame by auto. reflexivity.
  - intros i Hi. split.
    + rewrite Hcur by auto. symmetry. apply Hcur2; auto.
    + destruct (l_ie l) as [[ier iec]|] eqn:E; auto. rewrite Hval by auto. unfold x2. rewrite upd_in by auto. reflexivity.
Qed.

Lemma row_sat_congr t c1 c2 b x : (reval c1 x == reval c2 x)%Q -> row_sat (mkRow t c1 b) x -> row_sat (mkRow t c2 b) x.
Proof. unfold row_sat; cbn [r_ty r_co r_rhs]. intros E. destruct t; rewrite E; auto. Qed.

Lemma try_replace_wf_in l BM nu IEs j old v rhs bmo l' i strong :
  wf_lp l BM nu IEs -> 0 < l_dims l ->
  nth_error (l_rows l) j = Some old -> r_ty old = UP -> ~ is_bm l j -> ~ is_ie l j ->
  bmo = Some BM ->
  try_replace_init_constraint solve l j v rhs bmo IEs = Ok (l', i, strong) ->
  wf_lp l' BM nu IEs /\ same_layout l l' /\ l_nc l' = l_nc l /\ i = j
  /\ nth_error (l_rows l') j = Some (mkRow UP (init_co l BM nu IEs v) rhs)
  /\ (forall x, core_sat l' x <-> core_sat l x /\ (ldot v 0 (cur_of l BM nu IEs x) <= rhs)%Q)
  /\ (forall k r, k <> j -> nth_error (l_rows l) k = Some r -> nth_error (l_rows l') k = Some r).
Proof.
  intros W Hd0 Hj Hup Hb Hi -> H. unfold try_replace_init_constraint in H.
  inv_bind H. inversion H1; subst a; clear H1.
  inv_bind H. unfold get_row in H1. rewrite Hj in H1. inversion H1; subst a; clear H1.
  inv_bind H. unfold get_rhs_at in H1. rewrite Hj in H1. inversion H1; subst a; clear H1.
  unfold row_ub in H. rewrite Hup in H.
  inv_bind H. destruct a as [l1 i1]. rename H1 into Hadd.
  assert (W1 := add_init_wf _ _ _ _ _ _ (Some j) _ _ W Hd0 (conj Hb Hi) Hadd).
  destruct (add_init_constraint_ok _ _ _ _ _ _ _ _ _ W Hd0 Hadd) as (Hv & S1 & Hnc1 & -> & r0 & Hr0 & Hnr1 & Hn1).
  rewrite Hj in Hr0. inversion Hr0; subst r0; clear Hr0. rewrite Hup in Hn1.
  inv_bind H. rename a into l2. rename H1 into Hdir. unfold set_min_dir_csr in Hdir.
  inv_bind Hdir. inv_bind H1. inversion H1; subst a; clear H1. clear H0 a0.
  inv_bind Hdir. clear H1 a. inversion Hdir; subst l2; clear Hdir.
  set (l2 := with_obj l1 _) in *.
  assert (W2 : wf_lp l2 BM nu IEs) by (apply wf_with_obj; auto).
  assert (Hoc : row_cols_lt (l_nc l) (r_co old)).
  { pose proof (wf_cols _ _ _ _ W) as Hc. rewrite lp_cols_nth in Hc. eauto. }
  assert (Hnew : forall x, row_sat (mkRow UP (init_co l BM nu IEs v) rhs) x <-> (ldot v 0 (cur_of l BM nu IEs x) <= rhs)%Q).
  { intro x. unfold row_sat; cbn [r_ty r_co r_rhs]. unfold init_co. rewrite init_row_val by auto. reflexivity. }
  assert (Hj1 : nth_error (l_rows l1) j = Some (mkRow UP (init_co l BM nu IEs v) rhs)) by (rewrite Hn1, Nat.eqb_refl; auto).
  assert (Hb1 : ~ is_bm l1 j) by (rewrite (same_layout_is_bm l l1); auto).
  assert (Hi1 : ~ is_ie l1 j) by (rewrite (same_layout_is_ie l l1); auto).
  assert (Hbut : forall x, core_but l1 j x <-> core_but l j x).
  { intro x. unfold core_but. split; intros Hc k r Hk Hne Hkb Hki.
    - apply (Hc k r); auto; [rewrite Hn1; destruct (Nat.eqb_spec k j); congruence|rewrite (same_layout_is_bm l l1); auto|rewrite (same_layout_is_ie l l1); auto].
    - rewrite Hn1 in Hk. destruct (Nat.eqb_spec k j); [congruence|]. apply (Hc k r); auto.
      + rewrite (same_layout_is_bm l l1) in Hkb; auto.
      + rewrite (same_layout_is_ie l l1) in Hki; auto. }
  assert (Hcore1 : forall x, core_sat l1 x <-> core_but l j x /\ (ldot v 0 (cur_of l BM nu IEs x) <= rhs)%Q).
  { intro x. rewrite (core_split l1 j _ x Hj1 Hb1 Hi1), Hbut, Hnew. reflexivity. }
  assert (Hcore0 : forall x, core_sat l x <-> core_but l j x /\ (reval (r_co old) x <= r_rhs old)%Q).
  { intro x. rewrite (core_split l j _ x Hj Hb Hi). unfold row_sat. rewrite Hup. reflexivity. }
  inv_bind H. rename a into res0. rename H1 into Hmin. unfold minimize in Hmin.
  assert (Hs := Hsolve l2). destruct (solve l2) as [xs| |] eqn:Es; [| |discriminate].
  - (* optimal *)
    inv_bind Hmin. clear H1 a. inversion Hmin; subst res0; clear Hmin.
    destruct Hs as [Hsat Hopt].
    assert (Hval : (reval (r_co old) (of_list (map xs (seq 0 (l_nc l2)))) == reval (r_co old) xs)%Q).
    { apply (reval_vals _ (l_nc l2)); auto. unfold l2. change (row_cols_lt (l_nc l1) (r_co old)). rewrite Hnc1. auto. }
    destruct (Qle_bool (r_rhs old) (reval (r_co old) (of_list (map xs (seq 0 (l_nc l2)))))) eqn:Eq.
    + (* old constraint re-added *)
      inv_bind H. rename a into l3. apply set_constraints_csr_ok in H1 as [-> _]. inversion H; subst l' i strong; clear H.
      pose (rows2 := l_rows l1).
      assert (Er : set_coefs (l_nr (add_rows_le l2 [r_rhs old]) - 1) (map (shift_row 0) [r_co old]) (rows2 ++ [mkRow UP [] (r_rhs old)])
                 = rows2 ++ [mkRow UP (r_co old) (r_rhs old)]).
      { unfold l_nr. cbn [l_rows add_rows_le with_rows map]. change (l_rows l2) with rows2. rewrite app_length. simpl List.length.
        replace (List.length rows2 + 1 - 1) with (List.length rows2) by lia. rewrite set_coefs_end. simpl map. rewrite shift_row_0. reflexivity. }
      match goal with |- context[set_coefs ?b ?c ?d] => replace (set_coefs b c d) with (rows2 ++ [mkRow UP (r_co old) (r_rhs old)]) by (symmetry; exact Er) end.
      set (l3 := with_rows _ _).
      assert (S3 : same_layout l1 l3) by (repeat split).
      assert (S : same_layout l l3) by (eapply same_layout_trans; eauto).
      assert (Hnr3 : forall k r, nth_error (l_rows l3) k = Some r ->
          nth_error (l_rows l1) k = Some r \/ (k = List.length rows2 /\ r = mkRow UP (r_co old) (r_rhs old))).
      { intros k r Hk. cbn [l3 with_rows l_rows] in Hk. destruct (Nat.lt_ge_cases k (List.length rows2)).
        - rewrite nth_error_app1 in Hk by auto. left. exact Hk.
        - rewrite nth_error_app2 in Hk by auto. destruct (k - List.length rows2) as [|m] eqn:Ek; [|destruct m; discriminate].
          inversion Hk; subst. right. split; auto. lia. }
      assert (Hkeep : forall k r, nth_error (l_rows l1) k = Some r -> nth_error (l_rows l3) k = Some r).
      { intros k r Hk. cbn [l3 with_rows l_rows]. rewrite nth_error_app1; auto. apply nth_error_Some. change rows2 with (l_rows l1). congruence. }
      assert (Hlastb : ~ is_bm l (List.length rows2)).
      { pose proof (wf_bmr_le _ _ _ _ W Hd0). unfold is_bm. change rows2 with (l_rows l1). unfold l_nr in *. lia. }
      assert (Hlasti : ~ is_ie l (List.length rows2)).
      { unfold is_ie. pose proof (wf_ies _ _ _ _ W) as HI. destruct (l_ie l) as [[ier iec]|]; auto.
        destruct HI as (_ & _ & _ & _ & HR). intro Hb'. destruct (HR (List.length rows2 - ier) ltac:(lia)) as (co & Hn & _).
        replace (ier + (List.length rows2 - ier)) with (List.length rows2) in Hn by lia.
        assert (List.length rows2 < List.length (l_rows l)) by (apply nth_error_Some; congruence).
        change rows2 with (l_rows l1) in *. unfold l_nr in Hnr1. lia. }
      assert (W3 : wf_lp l3 BM nu IEs).
      { destruct S3 as (D & B & C & I0). constructor.
        - apply lp_cols_nth. intros k r Hk. change (l_nc l3) with (l_nc l1). apply Hnr3 in Hk as [Hk|[-> ->]].
          + pose proof (wf_cols _ _ _ _ W1) as Hc. rewrite lp_cols_nth in Hc. eauto.
          + cbn [r_co]. rewrite Hnc1. auto.
        - apply (wf_bmdims _ _ _ _ W1).
        - apply (wf_bmc _ _ _ _ W1).
        - apply (wf_cvo _ _ _ _ W1).
        - intros k Hk. destruct (wf_bmrows _ _ _ _ W1 k Hk) as (co & Hn & Hx). exists co. split; [apply Hkeep; exact Hn|exact Hx].
        - intros k r Hk Hkb Hki c a Hin. apply Hnr3 in Hk as [Hk|[-> ->]].
          + exact (wf_core _ _ _ _ W1 k r Hk Hkb Hki c a Hin).
          + rewrite (same_layout_uoff l l3) by auto. destruct S as (_ & _ & -> & _). cbn [r_co] in Hin.
            exact (wf_core _ _ _ _ W j old Hj Hb Hi c a Hin).
        - pose proof (wf_ies _ _ _ _ W1) as HI. rewrite I0, D, C, B. change (l_nc l3) with (l_nc l1).
          destruct (l_ie l1) as [[ier iec]|] eqn:Eie; auto.
          destruct HI as (A1 & A2 & A3 & A4 & A5). repeat split; auto. intros k Hk. destruct (A5 k Hk) as (co & Hn & Hx).
          exists co; split; auto. }
      split; [exact W3|]. split; [exact S|]. split; [auto|]. split; [auto|]. split; [ | split; [intro x; split; [intro H; split|] | ]].
      * apply Hkeep. exact Hj1.
      * apply Hcore0. split.
        -- assert (C1 : core_sat l1 x).
           { intros k r Hk Hkb Hki. apply (H k r); [apply Hkeep; auto|auto|auto]. }
           apply Hcore1 in C1. tauto.
        -- apply (H (List.length rows2) (mkRow UP (r_co old) (r_rhs old))).
           ++ cbn [l3 with_rows l_rows]. rewrite nth_error_app2, Nat.sub_diag by lia. reflexivity.
           ++ rewrite (same_layout_is_bm l l3); auto.
           ++ rewrite (same_layout_is_ie l l3); auto.
      * assert (C1 : core_sat l1 x).
        { intros k r Hk Hkb Hki. apply (H k r); [apply Hkeep; auto|auto|auto]. }
        apply Hcore1 in C1. tauto.
      * intros [H1 H2] k r Hk Hkb Hki. apply Hcore0 in H1 as [H1 H1'].
        assert (C1 : core_sat l1 x) by (apply Hcore1; auto).
        apply Hnr3 in Hk as [Hk|[-> ->]]; [exact (C1 k r Hk Hkb Hki)|exact H1'].
      * intros k r Hne Hk. apply Hkeep. rewrite Hn1. destruct (Nat.eqb_spec k j); [congruence|auto].
    + (* dropped: old constraint is implied *)
      inversion H; subst l' i strong; clear H.
      assert (Himp : forall x, core_sat l1 x -> (reval (r_co old) x <= r_rhs old)%Q).
      { intros x Hx. destruct (core_to_sat _ _ _ _ _ W1 Hx) as (y & Hy & Hyx).
        assert (Hoy : (reval (r_co old) y == reval (r_co old) x)%Q).
        { apply reval_ext. intros c a Hin. apply Hyx. rewrite (same_layout_uoff l l1) by auto.
          destruct S1 as (_ & _ & -> & _). exact (wf_core _ _ _ _ W j old Hj Hb Hi c a Hin). }
        assert (Hle := Hopt y Hy). unfold l2 in Hle. cbn [l_obj with_obj] in Hle. rewrite !shift_row_0, !reval_scale in Hle.
        assert (Hlt : ~ (r_rhs old <= reval (r_co old) (of_list (map xs (seq 0 (l_nc l2)))))%Q).
        { intro Hq. apply Qle_bool_iff in Hq. congruence. }
        rewrite Hval in Hlt. rewrite Hoy in Hle. apply Qnot_le_lt in Hlt. lra. }
      split; [exact (wf_with_obj _ _ _ _ _ W1)|]. split; [exact S1|]. split; [auto|]. split; [auto|]. split; [exact Hj1 | split; [intro x; split; [intro H; split|] | ]].
      * apply Hcore0. assert (Hx : core_sat l1 x) by exact H. split; [apply Hcore1 in Hx; tauto|auto].
      * assert (Hx : core_sat l1 x) by exact H. apply Hcore1 in Hx; tauto.
      * intros [H1 H2]. change (core_sat l1 x). apply Hcore1. split; auto. apply Hcore0 in H1. tauto.
      * intros k r Hne Hk. change (nth_error (l_rows l1) k = Some r). rewrite Hn1. destruct (Nat.eqb_spec k j); [congruence|auto].
  - (* infeasible: replaced *)
    simpl in Hmin. inversion Hmin; subst res0; clear Hmin. inversion H; subst l' i strong; clear H.
    assert (Hemp : forall x, ~ core_sat l1 x).
    { intros x Hx. destruct (core_to_sat _ _ _ _ _ W1 Hx) as (y & Hy & _). apply (Hs y). exact Hy. }
    split; [exact (wf_with_obj _ _ _ _ _ W1)|]. split; [exact S1|]. split; [auto|]. split; [auto|]. split; [exact Hj1 | split; [intro x; split; [intro H; split|] | ]].
    * exfalso. apply (Hemp x). exact H.
    * exfalso. apply (Hemp x). exact H.
    * intros [H1 H2]. exfalso. apply (Hemp x). apply Hcore1. split; auto. apply Hcore0 in H1. tauto.
    * intros k r Hne Hk. change (nth_error (l_rows l1) k = Some r). rewrite Hn1. destruct (Nat.eqb_spec k j); [congruence|auto].
Qed.

Lemma try_replace_len l BM nu IEs j v rhs r : wf_lp l BM nu IEs -> 0 < l_dims l ->
  try_replace_init_constraint solve l j v rhs (Some BM) IEs = Ok r -> List.length v = l_dims l.
Proof.
  intros W Hd H. unfold try_replace_init_constraint in H. apply bind_ok in H as (bm & Hbm & H). injection Hbm as <-.
  apply bind_ok in H as (? & _ & H). apply bind_ok in H as (? & _ & H). apply bind_ok in H as ([l1 i1] & Ha & _).
  eapply add_init_constraint_ok; eauto.
Qed.

Lemma core_eq_in_lp l l' BM nu IEs v rhs :
  wf_lp l BM nu IEs -> wf_lp l' BM nu IEs -> same_layout l l' -> List.length v = l_dims l ->
  (forall x, core_sat l' x <-> core_sat l x /\ (ldot v 0 (cur_of l BM nu IEs x) <= rhs)%Q) ->
  forall p, in_lp l' p <-> in_lp l p /\ (ldot v 0 p <= rhs)%Q.
Proof.
  intros W W' S Hv Hc p. rewrite (wf_in_lp _ _ _ _ _ W'), (wf_in_lp _ _ _ _ _ W).
  assert (D : l_dims l' = l_dims l) by apply S. split.
  - intros (x & Hx & Hp). apply Hc in Hx as [Hx Hle].
    assert (Hp' : forall j, j < l_dims l -> (p j == cur_of l BM nu IEs x j)%Q).
    { intros j Hj. rewrite Hp by lia. rewrite (same_layout_cur l l') by auto. reflexivity. }
    split; [exists x; auto|]. rewrite (ldot_cur l BM nu IEs v x p); auto.
  - intros [(x & Hx & Hp) Hle]. exists x. split.
    + apply Hc. split; auto. rewrite <- (ldot_cur l BM nu IEs v x p); auto.
    + intros j Hj. rewrite (same_layout_cur l l') by auto. apply Hp. lia.
Qed.

(** ** check_intersection *)
Lemma dot_vals_reval (dir : srow) off x :
  (fold_right Qplus 0 (map (fun av => fst av * snd av) (combine (map snd dir) (map x (map (fun e => (off + fst e)%nat) dir)))) ==
   reval (shift_row off dir) x)%Q.
Proof. induction dir as [|[c a] dir IH]; simpl; [reflexivity|]. rewrite IH. reflexivity. Qed.

Lemma check_intersection_spec l dir width rhs tol l' res0 :
  row_cols_lt width dir -> check_intersection solve l dir width rhs tol = Ok (l', res0) ->
  (exists o, l' = with_obj l o) /\ width <= l_dims l /\
  match res0 with
  | None => forall p, ~ in_lp l p
  | Some true => exists p, in_lp l p /\ (reval dir p + tol <= rhs)%Q
  | Some false => (forall p, in_lp l p -> (rhs < reval dir p + tol)%Q) /\ exists p, in_lp l p
  end.
Proof.
  intros Hw. unfold check_intersection. intro H. inv_bind H. rename a into l1. unfold set_min_dir_csr in H1.
  inv_bind H1. inv_bind H0. inversion H0; subst a; clear H0. apply assert_ok, Nat.leb_le in H2.
  inv_bind H1. inversion H1; subst l1; clear H1 H0. set (l1 := with_obj l _) in *.
  inv_bind H. unfold minimize in H1. assert (Hs := Hsolve l1). destruct (solve l1) as [xs| |]; [| |discriminate].
  - inv_bind H1. inversion H1; subst a1; clear H1. inversion H; subst l' res0; clear H. clear H0.
    split; [unfold l1; eauto|]. split; auto. destruct Hs as [Hsat Hopt].
    change (l_cvo l1) with (l_cvo l). rewrite map_map.
    assert (Hdot : forall x p, lp_sat l x -> (forall i, i < l_dims l -> (x (l_cvo l + i)%nat == p i)%Q) ->
       (reval (shift_row (l_cvo l) dir) x == reval dir p)%Q).
    { intros x p _ Hp. rewrite reval_shift. apply reval_ext. intros c v Hin. apply Hp. apply (row_cols_lt_In _ _ _ _ Hw) in Hin. lia. }
    assert (E : (fold_right Qplus 0 (map (fun av => fst av * snd av) (combine (map snd dir) (map (fun e => xs (l_cvo l + fst e)%nat) dir)))
              == reval (shift_row (l_cvo l) dir) xs)%Q).
    { rewrite <- dot_vals_reval. rewrite map_map. reflexivity. }
    destruct (Qle_bool _ rhs) eqn:Eq.
    + apply Qle_bool_iff in Eq. rewrite E in Eq. exists (fun i => xs (l_cvo l + i)). split.
      * exists xs. split; [exact Hsat|]. intros; reflexivity.
      * rewrite reval_shift in Eq. exact Eq.
    + split.
      * intros p (x & Hx & Hp). assert (Hle := Hopt x Hx). cbn [l1 l_obj with_obj] in Hle. rewrite (Hdot x p Hx Hp) in Hle.
        assert (Hn : ~ (reval (shift_row (l_cvo l) dir) xs + tol <= rhs)%Q).
        { intro Hq. rewrite <- E in Hq. apply Qle_bool_iff in Hq. congruence. }
        apply Qnot_le_lt in Hn. lra.
      * exists (fun i => xs (l_cvo l + i)). exists xs. split; [exact Hsat|]. intros; reflexivity.
  - cbn [bind] in H1. injection H1 as <-. injection H as <- <-. split; [unfold l1; eauto|]. split; auto.
    intros p (x & Hx & _). apply (Hs x). exact Hx.
Qed.

End WithSolver.

(** ** get_basis_matrix *)
Lemma window_row_val x0 w co x :
  (ldot (window_row x0 w co) x0 x == reval (filter (fun e => (x0 <=? fst e) && (fst e <? x0 + w)) co) x)%Q.
Proof.
  unfold window_row. rewrite ldot_shift, dense_of_eval.
  - induction co as [|[c a] co IH]; simpl; [reflexivity|].
    destruct (Nat.leb_spec x0 c); destruct (Nat.ltb_spec c (x0 + w)); simpl; auto.
    rewrite IH. replace (x0 + (c - x0)) with c by lia. reflexivity.
  - unfold row_cols_lt. apply Forall_map. apply Forall_forall. intros [c a] Hin. apply filter_In in Hin as [_ Hin]. simpl in *.
    apply andb_true_iff in Hin as [H1 H2]. apply Nat.leb_le in H1. apply Nat.ltb_lt in H2. lia.
Qed.

Lemma reval_restrict (P : nat -> bool) co x :
  (reval (filter (fun e => P (fst e)) co) x == reval co (fun c => if P c then x c else 0))%Q.
Proof. induction co as [|[c a] co IH]; simpl; [reflexivity|]. destruct (P c); simpl; rewrite IH; ring. Qed.

Lemma get_basis_matrix_sem l BM nu IEs M : wf_lp l BM nu IEs -> get_basis_matrix l = Ok M ->
  mat_dims (l_dims l) (l_dims l) M /\ forall i x, i < l_dims l -> (ldot (mrow M i) (snd (l_bm l)) x == ldot (mrow BM i) (snd (l_bm l)) x)%Q.
Proof.
  intros W H. unfold get_basis_matrix, get_dense_constraints in H. inv_bind H. inv_bind H. clear H1 a.
  apply assert_ok, Nat.leb_le in H0. inversion H; subst; clear H. split.
  - split.
    + rewrite map_length, firstn_length, skipn_length. unfold l_nr in H0. lia.
    + apply Forall_map, Forall_forall. intros r _. apply dense_of_length.
  - intros i x Hi. destruct (wf_bmrows _ _ _ _ W i Hi) as (co & Hn & Hv).
    assert (E : mrow (map (fun r => window_row (snd (l_bm l)) (l_dims l) (r_co r)) (firstn (l_dims l) (skipn (fst (l_bm l)) (l_rows l)))) i
              = window_row (snd (l_bm l)) (l_dims l) co).
    { unfold mrow. apply nth_error_nth. rewrite nth_error_map, nth_error_firstn by auto. rewrite nth_error_skipn, Hn. reflexivity. }
    rewrite E, window_row_val.
    rewrite (reval_restrict (fun c => (snd (l_bm l) <=? c) && (c <? snd (l_bm l) + l_dims l)) co x).
    rewrite Hv. assert (C1 := wf_bmc _ _ _ _ W). assert (C2 := wf_cvo _ _ _ _ W).
    rewrite (ldot_ext (mrow BM i) _ _ x).
    + destruct (Nat.leb_spec (snd (l_bm l)) (l_cvo l + i)); destruct (Nat.ltb_spec (l_cvo l + i) (snd (l_bm l) + l_dims l)); cbn [andb]; try lia.
      unfold ti. pose proof (wf_ies _ _ _ _ W) as HI. destruct (l_ie l) as [[ier iec]|]; [|ring].
      destruct HI as (-> & _). destruct (Nat.leb_spec (snd (l_bm l)) (l_cvo l + l_dims l + i)); destruct (Nat.ltb_spec (l_cvo l + l_dims l + i) (snd (l_bm l) + l_dims l)); cbn [andb]; try lia. ring.
    + intros k Hk. rewrite (mat_dims_mrow _ _ _ _ (wf_bmdims _ _ _ _ W) Hi) in Hk.
      rewrite (proj2 (Nat.leb_le _ _)) by lia. rewrite (proj2 (Nat.ltb_lt _ _)) by lia. reflexivity.
Qed.

(** Replacing the basis matrix by an equal one (semantically) keeps well-formedness. *)
Lemma wf_bm_equiv l BM BM' nu IEs : wf_lp l BM nu IEs -> mat_dims (l_dims l) (l_dims l) BM' ->
  (forall i x, i < l_dims l -> (ldot (mrow BM' i) (snd (l_bm l)) x == ldot (mrow BM i) (snd (l_bm l)) x)%Q) ->
  wf_lp l BM' nu IEs.
Proof.
  intros W HM HE. destruct W as [A1 A2 A3 A4 A5 A6 A7]. constructor; auto.
  intros i Hi. destruct (A5 i Hi) as (co & Hn & Hx). exists co. split; auto. intro x. rewrite Hx, HE by auto. reflexivity.
Qed.
