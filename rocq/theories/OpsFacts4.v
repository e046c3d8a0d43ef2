(** bloat, scale_with_bm, is_point_in_lpi, get_box_center, compute_radius_inf. *)
From Verif Require Import Base BaseFacts LpModel LpSpec SetSpec LpFacts LpWf LpUtil SetFacts SetFacts2 MinkFacts OpsFacts OpsFacts2 OpsFacts3.
Open Scope nat_scope.

(** ** bloat *)
Lemma unit_row_pointwise n j f off x : j < n -> (forall k, k < n -> (f k == if k =? j then 1 else 0)%Q) ->
  (ldot (map f (seq 0 n)) off x == x (off + j)%nat)%Q.
Proof.
  intros Hj Hf. rewrite <- (ldot_unit n j off x Hj). unfold unit_row. apply ldot_pointwise. intros c Hc. apply Hf. lia.
Qed.

Lemma ldot_map_zero n f off x : (forall k, k < n -> (f k == 0)%Q) -> (ldot (map f (seq 0 n)) off x == 0)%Q.
Proof.
  intro Hf.
  assert (G : forall s off, (forall k, s <= k < s + n -> (f k == 0)%Q) -> (ldot (map f (seq s n)) off x == 0)%Q).
  { clear Hf off. induction n as [|m IH]; intros s off Hf; simpl; [reflexivity|].
    rewrite (Hf s) by lia. rewrite IH; [ring|]. intros k Hk. apply Hf. lia. }
  apply G. intros k Hk. apply Hf. lia.
Qed.

Section Bloat.
Variables (l l' : lp) (a : Q) (BM : mat) (nu : nat) (IEs : list mat).
Hypothesis W : wf_lp l BM nu IEs.
Hypothesis Hd : 0 < l_dims l.
Hypothesis Hrun : bloat l a = Ok l'.

Let n := l_dims l.
Let pc := l_nc l.
Let pr := l_nr l.
Let col k := [(fst (l_bm l) + k, 1%Q); (pr + 2 * k, 1%Q); (pr + 2 * k + 1, (-1)%Q)].

Lemma bloat_ok : (0 <= a)%Q /\ same_layout l l' /\
  (forall i r, nth_error (l_rows l) i = Some r -> nth_error (l_rows l') i = Some (set_co r (r_co r ++ cols_entries pc i (map col (seq 0 n)))))
  /\ (forall j, j < 2 * n -> nth_error (l_rows l') (pr + j) = Some (mkRow UP (cols_entries pc (pr + j) (map col (seq 0 n))) a))
  /\ l_nr l' = pr + 2 * n.
Proof.
  pose proof Hrun as H. unfold bloat in H. inv_bind H. apply assert_ok, Qle_bool_iff in H1. split; auto.
  apply set_constraints_csc_ok in H as [-> _]. cbn [cc_cols fst snd]. rewrite map_shift_row_0.
  fold n pc pr. change (fun k => [(fst (l_bm l) + k, 1%Q); (pr + 2 * k, 1%Q); (pr + 2 * k + 1, (-1)%Q)]) with col.
  split; [repeat split|]. cbn [l_rows with_rows add_cols with_names add_rows_le]. split; [|split].
  - intros i r Hr. apply set_cols_nth.
    + intros c v Hin. pose proof (wf_cols _ _ _ _ W) as Hc. rewrite lp_cols_nth in Hc. exact (row_cols_lt_In _ _ _ _ (Hc _ _ Hr) Hin).
    + rewrite nth_error_app1; auto. apply nth_error_Some. congruence.
  - intros j Hj. rewrite (set_cols_nth _ _ _ _ (mkRow UP [] a)); [reflexivity|simpl; tauto|].
    rewrite nth_error_app2 by (unfold pr, l_nr; lia). unfold pr, l_nr. replace (List.length (l_rows l) + j - List.length (l_rows l)) with j by lia.
    rewrite nth_error_map. replace (nth_error (repeat a (2 * n)) j) with (Some a); [reflexivity|]. symmetry. apply nth_error_repeat. auto.
  - unfold l_nr. cbn [l_rows with_rows]. rewrite set_cols_length, app_length, map_length, repeat_length. reflexivity.
Qed.

Lemma bloat_val_bm j x : j < n -> (reval (cols_entries pc (fst (l_bm l) + j) (map col (seq 0 n))) x == x (pc + j)%nat)%Q.
Proof.
  intro Hj. rewrite reval_cols_entries, map_map. apply unit_row_pointwise; auto. intros k Hk.
  assert (Hb := wf_bmr_le _ _ _ _ W Hd). fold n pr in Hb. unfold col. cbn [ent_sum].
  destruct (Nat.eqb_spec (fst (l_bm l) + k) (fst (l_bm l) + j)); destruct (Nat.eqb_spec (pr + 2 * k) (fst (l_bm l) + j));
    destruct (Nat.eqb_spec (pr + 2 * k + 1) (fst (l_bm l) + j)); destruct (Nat.eqb_spec k j); try lia; ring.
Qed.

Lemma bloat_val_old i x : i < pr -> ~ is_bm l i -> (reval (cols_entries pc i (map col (seq 0 n))) x == 0)%Q.
Proof.
  intros Hi Hb. rewrite reval_cols_entries, map_map. apply ldot_map_zero. intros k Hk. unfold is_bm in Hb. fold n in Hb. unfold col. cbn [ent_sum].
  destruct (Nat.eqb_spec (fst (l_bm l) + k) i); destruct (Nat.eqb_spec (pr + 2 * k) i); destruct (Nat.eqb_spec (pr + 2 * k + 1) i); try lia; ring.
Qed.

Lemma bloat_val_up j x : j < n -> (reval (cols_entries pc (pr + 2 * j) (map col (seq 0 n))) x == x (pc + j)%nat)%Q.
Proof.
  intros Hj. rewrite reval_cols_entries, map_map. apply unit_row_pointwise; auto. intros k Hk.
  assert (Hb := wf_bmr_le _ _ _ _ W Hd). fold n pr in Hb. unfold col. cbn [ent_sum].
  destruct (Nat.eqb_spec (fst (l_bm l) + k) (pr + 2 * j)); destruct (Nat.eqb_spec (pr + 2 * k) (pr + 2 * j));
    destruct (Nat.eqb_spec (pr + 2 * k + 1) (pr + 2 * j)); destruct (Nat.eqb_spec k j); try lia; ring.
Qed.

Lemma bloat_val_dn j x : j < n -> (reval (cols_entries pc (pr + (2 * j + 1)) (map col (seq 0 n))) x == - x (pc + j)%nat)%Q.
Proof.
  intros Hj. rewrite reval_cols_entries, map_map.
  assert (E : (ldot (map (fun k => (-1) * ent_sum (pr + (2 * j + 1)) (col k)) (seq 0 n)) pc x == x (pc + j)%nat)%Q).
  { apply unit_row_pointwise; auto. intros k Hk.
    assert (Hb := wf_bmr_le _ _ _ _ W Hd). fold n pr in Hb. unfold col. cbn [ent_sum].
    destruct (Nat.eqb_spec (fst (l_bm l) + k) (pr + (2 * j + 1))); destruct (Nat.eqb_spec (pr + 2 * k) (pr + (2 * j + 1)));
      destruct (Nat.eqb_spec (pr + 2 * k + 1) (pr + (2 * j + 1))); destruct (Nat.eqb_spec k j); try lia; ring. }
  rewrite ldot_map_scale in E. rewrite <- E. ring.
Qed.

Theorem bloat_in p : in_lp l' p <->
  exists q b, in_lp l q /\ forall i, i < l_dims l -> (- a <= b i)%Q /\ (b i <= a)%Q /\ (p i == q i + b i)%Q.
Proof.
  destruct bloat_ok as (Ha & (D & B & C & I0) & Hold & Hnew & Hnr).
  assert (C1 := wf_bmc _ _ _ _ W). assert (C2 := wf_cvo _ _ _ _ W). fold n pc in C1, C2.
  unfold in_lp at 1. rewrite D, C. fold n. split.
  - intros (x & Hx & Hp). rewrite lp_sat_nth in Hx.
    exists (fun i => (x (l_cvo l + i)%nat - x (pc + i)%nat)%Q), (fun i => x (pc + i)). split.
    + apply (wf_in_lp _ _ _ _ _ W). exists x. split.
      * intros i r Hr Hb Hi. assert (Hi2 : i < pr) by (apply nth_error_Some; unfold not; congruence).
        specialize (Hx _ _ (Hold _ _ Hr)). revert Hx. unfold set_co, row_sat. cbn [r_ty r_co r_rhs].
        assert (E : (reval (r_co r ++ cols_entries pc i (map col (seq 0 n))) x == reval (r_co r) x)%Q)
          by (rewrite reval_app, bloat_val_old by auto; ring).
        destruct (r_ty r); rewrite E; auto.
      * intros i Hi. destruct (wf_bmrows _ _ _ _ W i Hi) as (co & Hn & Hv).
        assert (E1 := Hx _ _ (Hold _ _ Hn)). unfold set_co, row_sat in E1. cbn [r_ty r_co r_rhs] in E1.
        rewrite reval_app, bloat_val_bm, Hv in E1 by exact Hi. unfold ti in E1. unfold cur_of.
        pose proof (wf_ies _ _ _ _ W) as HI. destruct (l_ie l) as [[ier iec]|] eqn:Eie.
        -- destruct HI as (Hiec & Hle & Hnc & HF & HR). destruct (HR i Hi) as (co2 & Hn2 & Hv2).
           assert (Hi2 : ier + i < pr) by (apply nth_error_Some; unfold not; congruence).
           assert (E2 := Hx _ _ (Hold _ _ Hn2)). unfold set_co, row_sat in E2. cbn [r_ty r_co r_rhs] in E2.
           rewrite reval_app, bloat_val_old, Hv2 in E2; [|exact Hi2|].
           2:{ intro Hb. apply (is_bm_not_ie _ _ _ _ _ W) in Hb. apply Hb. unfold is_ie. rewrite Eie. fold n. lia. }
           unfold uoff. rewrite Eie. lra.
        -- subst IEs. simpl. lra.
    + intros i Hi. fold n in Hi.
      assert (E1 := Hx _ _ (Hnew (2 * i) ltac:(lia))). unfold row_sat in E1. cbn [r_ty r_co r_rhs] in E1. rewrite bloat_val_up in E1 by auto.
      assert (E2 := Hx _ _ (Hnew (2 * i + 1) ltac:(lia))). unfold row_sat in E2. cbn [r_ty r_co r_rhs] in E2. rewrite bloat_val_dn in E2 by auto.
      repeat split; [lra|lra|]. rewrite <- Hp by auto. lra.
  - intros (q & b & Hq & Hb). apply (wf_in_lp _ _ _ _ _ W) in Hq as (x0 & Hc0 & Hq).
    destruct (core_to_sat _ _ _ _ _ W Hc0) as (x & Hx & Hagree).
    assert (Hxs := proj1 (wf_sat _ _ _ _ _ W) Hx). destruct Hxs as [Hc Hcur].
    assert (Eq : forall i, i < n -> (x (l_cvo l + i)%nat == q i)%Q).
    { intros i Hi. destruct (Hcur i Hi) as [-> _]. rewrite Hq by auto. unfold cur_of. apply Qplus_comp.
      - apply ldot_ext. intros k Hk. rewrite (mat_dims_mrow _ _ _ _ (wf_bmdims _ _ _ _ W) Hi) in Hk. apply Hagree. left. fold n in Hk. lia.
      - eapply ie_val_ext; [apply (wf_IEs_dims _ _ _ _ W)|exact Hi|]. intros c Hcc. apply Hagree. lia. }
    set (Y := upd (upd x (l_cvo l) n p) pc n b).
    assert (Yc : forall i, i < n -> Y (l_cvo l + i) = p i).
    { intros i Hi. unfold Y. rewrite upd_out by lia. apply upd_in; auto. }
    assert (Yb : forall i, i < n -> Y (pc + i) = b i).
    { intros i Hi. unfold Y. apply upd_in; auto. }
    assert (Yx : forall c, c < pc -> (c < l_cvo l \/ l_cvo l + n <= c) -> Y c = x c).
    { intros c Hc1 Hc2. unfold Y. rewrite upd_out by lia. apply upd_out; auto. }
    exists Y. split; [|intros i Hi; rewrite Yc by auto; reflexivity].
    apply lp_sat_nth. intros i r Hr.
    assert (Hilt : i < pr + 2 * n) by (rewrite <- Hnr; apply nth_error_Some; unfold not; congruence).
    destruct (Nat.lt_ge_cases i pr) as [Hi|Hi].
    + destruct (nth_error (l_rows l) i) as [r0|] eqn:Er0; [|apply nth_error_None in Er0; unfold pr, l_nr in Hi; lia].
      rewrite (Hold _ _ Er0) in Hr. injection Hr as <-.
      destruct (is_bm_dec l i) as [Hbm|Hbm].
      * unfold is_bm in Hbm. destruct (wf_bmrows _ _ _ _ W (i - fst (l_bm l)) ltac:(lia)) as (co & Hn & Hv).
        replace (fst (l_bm l) + (i - fst (l_bm l))) with i in Hn by lia. rewrite Er0 in Hn. injection Hn as ->.
        unfold set_co, row_sat. cbn [r_ty r_co r_rhs]. rewrite reval_app, Hv.
        set (j := i - fst (l_bm l)) in *. assert (Hj : j < n) by (unfold j, n; lia).
        replace i with (fst (l_bm l) + j) by (unfold j; lia). rewrite bloat_val_bm by auto. rewrite Yb, Yc by auto.
        rewrite (ldot_ext (mrow BM j) _ Y x).
        2:{ intros k Hk. rewrite (mat_dims_mrow _ _ _ _ (wf_bmdims _ _ _ _ W) Hj) in Hk. fold n in Hk. rewrite Yx by lia. reflexivity. }
        assert (Et : (ti l Y j == ti l x j)%Q).
        { unfold ti. pose proof (wf_ies _ _ _ _ W) as HI. destruct (l_ie l) as [[ier iec]|]; [|reflexivity].
          destruct HI as (-> & _ & HI & _). fold n pc in HI. rewrite Yx; [reflexivity| |]; fold n; lia. }
        rewrite Et. rewrite lp_sat_nth in Hx. assert (E1 : (reval co x == 0)%Q) by exact (Hx _ _ Er0). rewrite Hv in E1.
        rewrite Eq in E1 by auto. destruct (Hb j Hj) as (_ & _ & Hpb). lra.
      * rewrite lp_sat_nth in Hx. assert (E1 := Hx _ _ Er0). revert E1. unfold set_co, row_sat. cbn [r_ty r_co r_rhs].
        destruct (is_ie_dec l i) as [Hie|Hie].
        { pose proof (wf_ies _ _ _ _ W) as HI. unfold is_ie in Hie. destruct (l_ie l) as [[ier iec]|] eqn:Eie; [|tauto].
          destruct HI as (Hiec & Hle & Hnc & HF & HR). destruct (HR (i - ier) ltac:(lia)) as (co2 & Hn2 & Hv2).
          replace (ier + (i - ier)) with i in Hn2 by lia. rewrite Er0 in Hn2. injection Hn2 as ->. cbn [r_ty r_co r_rhs].
          rewrite reval_app, bloat_val_old, !Hv2 by auto.
          rewrite (ie_val_ext nu IEs (i - ier) (iec + l_dims l) n Y x); [|exact HF|unfold n; lia|].
          - rewrite Yx; [intro E0; rewrite Qplus_0_r; exact E0| |]; unfold pc, n in *; lia.
          - intros c Hcc. rewrite Yx; [reflexivity| |]; unfold pc, n in *; lia. }
        assert (E : (reval (r_co r0 ++ cols_entries pc i (map col (seq 0 n))) Y == reval (r_co r0) x)%Q).
        { rewrite reval_app, bloat_val_old by auto. rewrite Qplus_0_r. apply reval_ext. intros c v Hin.
          assert (Hcl : c < pc).
          { pose proof (wf_cols _ _ _ _ W) as Hcc. rewrite lp_cols_nth in Hcc. exact (row_cols_lt_In _ _ _ _ (Hcc _ _ Er0) Hin). }
          destruct (wf_core _ _ _ _ W i r0 Er0 Hbm Hie c v Hin) as [H1|H1]; rewrite Yx; auto; try reflexivity.
          right. pose proof (wf_uoff _ _ _ _ W). fold n in H. lia. }
        destruct (r_ty r0); rewrite E; auto.
    + assert (Hj : i - pr < 2 * n) by lia.
      assert (Hn := Hnew (i - pr) Hj). replace (pr + (i - pr)) with i in Hn by lia. rewrite Hr in Hn. injection Hn as ->.
      unfold row_sat. cbn [r_ty r_co r_rhs]. destruct (Nat.Even_or_Odd (i - pr)) as [[k Hk]|[k Hk]].
      * replace i with (pr + 2 * k) by lia. rewrite bloat_val_up by lia. rewrite Yb by lia. apply Hb. fold n. lia.
      * replace i with (pr + (2 * k + 1)) by lia. rewrite bloat_val_dn by lia. rewrite Yb by lia. destruct (Hb k ltac:(fold n; lia)). lra.
Qed.
End Bloat.

(** ** scale_with_bm *)
Lemma mrow_map_scale a (M : mat) i : mrow (map (map (fun v => (a * v)%Q)) M) i = map (fun v => (a * v)%Q) (mrow M i).
Proof. unfold mrow. change ([] : list Q) with (map (fun v => (a * v)%Q) []) at 1. apply map_nth. Qed.
Lemma ldot_map_mul a (r : list Q) off x : (ldot (map (fun v => a * v) r) off x == a * ldot r off x)%Q.
Proof. revert off; induction r as [|v r IH]; intro off; simpl; [ring|]. rewrite IH. ring. Qed.

Lemma scale_with_bm_wf l a l' BM nu IEs : wf_lp l BM nu IEs -> scale_with_bm l a = Ok l' ->
  same_layout l l' /\ (forall x, core_sat l' x <-> core_sat l x) /\
  exists BM', wf_lp l' BM' nu IEs /\ forall i x, i < l_dims l -> (ldot (mrow BM' i) (snd (l_bm l)) x == a * ldot (mrow BM i) (snd (l_bm l)) x)%Q.
Proof.
  intros W H. unfold scale_with_bm in H. inv_bind H. rename a0 into M.
  destruct (get_basis_matrix_sem _ _ _ _ _ W H1) as [HM1 HM2].
  destruct (set_basis_wf _ _ _ _ _ _ W H) as (W' & S & _ & _ & Hc & _). split; auto. split; auto.
  eexists. split; [exact W'|]. intros i x Hi. rewrite mrow_map_scale, ldot_map_mul, HM2 by auto. reflexivity.
Qed.

Lemma scale_with_bm_in l a l' BM nu : wf_lp l BM nu [] -> scale_with_bm l a = Ok l' ->
  l_dims l' = l_dims l /\ forall p, in_lp l' p <-> exists q, in_lp l q /\ forall i, i < l_dims l -> (p i == a * q i)%Q.
Proof.
  intros W H. destruct (scale_with_bm_wf _ _ _ _ _ _ W H) as (S & Hc & BM' & W' & HB). split; [apply S|]. intro p.
  rewrite (wf_in_lp _ _ _ _ _ W').
  assert (D : l_dims l' = l_dims l) by apply S. assert (B : l_bm l' = l_bm l) by apply S.
  assert (E : forall x i, i < l_dims l -> (cur_of l' BM' nu [] x i == a * cur_of l BM nu [] x i)%Q).
  { intros x i Hi. unfold cur_of. cbn [ie_val]. rewrite B, HB by auto. ring. }
  split.
  - intros (x & Hx & Hp). exists (cur_of l BM nu [] x). split.
    + apply (wf_in_lp _ _ _ _ _ W). exists x. split; [apply Hc; auto|intros; reflexivity].
    + intros i Hi. rewrite Hp by lia. apply E; auto.
  - intros (q & Hq & Hp). apply (wf_in_lp _ _ _ _ _ W) in Hq as (x & Hx & Hq). exists x. split; [apply Hc; auto|].
    intros i Hi. rewrite D in Hi. rewrite E, Hp, Hq by auto. reflexivity.
Qed.

(** ** extreme values of a set *)
Section WithSolver.
Variable solve : solver.
Hypothesis Hsolve : solver_ok solve.

Lemma minimize_spec l cols fail r : minimize solve l cols fail = Ok r ->
  match r with
  | None => forall x, ~ lp_sat l x
  | Some vals => exists xs, vals = map xs (match cols with None => seq 0 (l_nc l) | Some c => c end) /\ lp_sat l xs
                 /\ forall y, lp_sat l y -> (reval (l_obj l) xs <= reval (l_obj l) y)%Q
  end.
Proof.
  unfold minimize. intro H. specialize (Hsolve l). destruct (solve l) as [xs| |]; [| |discriminate].
  - inv_bind H. inversion H; subst. exists xs. tauto.
  - destruct fail; [discriminate|]. inversion H; subst. exact Hsolve.
Qed.

Lemma minimize_unsat l cols fail r : minimize solve l cols fail = Ok r -> fail = true -> exists v, r = Some v.
Proof. unfold minimize. intros H ->. destruct (solve l); try discriminate. inv_bind H. inversion H; eauto. Qed.

Lemma set_min_dir_ok l d l1 : set_min_dir l d = Ok l1 -> List.length d <= l_dims l /\ l1 = with_obj l (dense_row d (l_cvo l)).
Proof. unfold set_min_dir. intro H. inv_bind H. apply assert_ok, Nat.leb_le in H1. inversion H; auto. Qed.

(** the optimum of a direction over the current-time variables *)
Lemma min_dir_spec l d l1 cols fail vals : set_min_dir l d = Ok l1 -> minimize solve l1 cols fail = Ok (Some vals) ->
  exists xs, vals = map xs (match cols with None => seq 0 (l_nc l) | Some c => c end) /\ lp_sat l xs
    /\ in_lp l (fun i => xs (l_cvo l + i)) /\ forall p, in_lp l p -> (ldot d 0 (fun i => xs (l_cvo l + i)%nat) <= ldot d 0 p)%Q.
Proof.
  intros H1 H2. apply set_min_dir_ok in H1 as [Hd ->]. apply minimize_spec in H2 as (xs & Hv & Hx & Ho).
  exists xs. split; [exact Hv|]. split; [exact Hx|]. split; [exists xs; split; [exact Hx|intros; reflexivity]|].
  intros p (y & Hy & Hp). specialize (Ho y Hy). cbn [l_obj with_obj] in Ho. rewrite !reval_dense in Ho.
  rewrite (ldot_shift d (l_cvo l) xs), (ldot_shift d (l_cvo l) y) in Ho. eapply Qle_trans; [exact Ho|]. apply Qle_lteq. right.
  apply ldot_ext. intros i Hi. apply Hp. lia.
Qed.

Lemma min_dir_none l d l1 cols fail : set_min_dir l d = Ok l1 -> minimize solve l1 cols fail = Ok None -> forall p, ~ in_lp l p.
Proof.
  intros H1 H2. apply set_min_dir_ok in H1 as [_ ->]. apply minimize_spec in H2. intros p (x & Hx & _). apply (H2 x). exact Hx.
Qed.

Lemma ldot_select n d (c : Q) (f : nat -> Q) off x : d < n -> (forall i, i < n -> (f i == if Nat.eqb i d then c else 0)%Q) ->
  (ldot (map f (seq 0 n)) off x == c * x (off + d)%nat)%Q.
Proof.
  intros Hd Hf. rewrite (ldot_pointwise f (fun i => c * (if Nat.eqb i d then 1 else 0))%Q).
  - rewrite ldot_map_scale. rewrite (unit_row_pointwise n d _ off x Hd); [reflexivity|]. intros; reflexivity.
  - intros i Hi. rewrite Hf by lia. destruct (i =? d); ring.
Qed.

(** ** get_box_center *)
Lemma with_obj_twice l a b : with_obj (with_obj l a) b = with_obj l b.
Proof. reflexivity. Qed.

Lemma box_center_loop_spec ds l l' r : (forall d, In d ds -> d < l_dims l) -> box_center_loop solve l ds = Ok (l', r) ->
  (exists o, l' = with_obj l o) /\
  match r with
  | None => forall p, ~ in_lp l p
  | Some c => Forall2 (fun d v => exists a b, is_min (in_lp l) (fun p => p d) a /\ is_max (in_lp l) (fun p => p d) b /\ (v == (a + b) / 2)%Q) ds c
  end.
Proof.
  revert l r. induction ds as [|d ds IH]; intros l r Hds H; cbn [box_center_loop] in H.
  - injection H as <- <-. split; [exists (l_obj l); destruct l; reflexivity|constructor].
  - assert (Hd : d < l_dims l) by (apply Hds; simpl; auto).
    inv_bind H. inv_bind H. inv_bind H. inv_bind H. rename a into l1, a0 into mn, a1 into l2, a2 into mx.
    rename H1 into E1, H0 into E2, H2 into E3, H3 into E4.
    assert (El1 := E1). apply set_min_dir_ok in El1 as [_ El1].
    assert (El2 := E3). apply set_min_dir_ok in El2 as [_ El2]. rewrite El1 in El2. rewrite with_obj_twice in El2.
    destruct mn as [vmn|].
    2:{ assert (Hemp := min_dir_none _ _ _ _ _ E1 E2). inversion H; subst. split; [eauto|exact Hemp]. }
    destruct (min_dir_spec _ _ _ _ _ _ E1 E2) as (xa & Ea & _ & Ia & Ma). cbn [map] in Ea. subst vmn.
    destruct mx as [vmx|].
    2:{ assert (Hemp := min_dir_none _ _ _ _ _ E3 E4). inversion H; subst. split; [eauto|]. intros p Hp. apply (Hemp p). exact Hp. }
    destruct (min_dir_spec _ _ _ _ _ _ E3 E4) as (xb & Eb & _ & Ib & Mb). cbn [map] in Eb. subst vmx.
    inv_bind H. destruct a as [l3 c0]. cbn [fst snd] in H. inversion H; subst l' r; clear H.
    assert (Hds' : forall d0, In d0 ds -> d0 < l_dims l2) by (rewrite El2; intros; apply Hds; simpl; auto).
    destruct (IH _ _ Hds' H1) as [(o & Ho) Hr]. split; [exists o; rewrite Ho, El2; reflexivity|].
    rewrite El1 in Ib, Mb. rewrite El2 in Hr. destruct c0 as [c|].
    + constructor.
      * exists (xa (l_cvo l + d)), (xb (l_cvo l + d)). split; [|split].
        -- split; [eexists; split; [exact Ia|reflexivity]|]. intros p Hp. specialize (Ma p Hp).
           rewrite !(ldot_select (l_dims l) d 1%Q) in Ma by (auto; intros; reflexivity). cbn [Nat.add] in Ma. lra.
        -- split; [eexists; split; [exact Ib|reflexivity]|]. intros p Hp. specialize (Mb p Hp).
           rewrite !(ldot_select (l_dims l) d (-1)%Q) in Mb by (auto; intros; reflexivity). cbn [Nat.add l_cvo with_obj] in Mb. lra.
        -- reflexivity.
      * exact Hr.
    + exact Hr.
Qed.

Lemma get_box_center_spec l l' r : get_box_center solve l = Ok (l', r) ->
  (exists o, l' = with_obj l o) /\
  match r with
  | None => forall p, ~ in_lp l p
  | Some c => List.length c = l_dims l /\
      forall d, d < l_dims l -> exists a b, is_min (in_lp l) (fun p => p d) a /\ is_max (in_lp l) (fun p => p d) b /\ (nth d c 0 == (a + b) / 2)%Q
  end.
Proof.
  intro H. unfold get_box_center in H. apply box_center_loop_spec in H as [Ho Hr].
  - split; auto. destruct r as [c|]; auto. assert (L : List.length (seq 0 (l_dims l)) = List.length c) by (clear - Hr; induction Hr; simpl; congruence). rewrite seq_length in L. split; auto.
    intros d Hd. assert (Hr2 := Hr). clear - Hr Hd L.
    assert (G : forall k ds cs, Forall2 (fun d v => exists a b, is_min (in_lp l) (fun p => p d) a /\ is_max (in_lp l) (fun p => p d) b /\ (v == (a + b) / 2)%Q) ds cs ->
       k < List.length ds -> exists a b, is_min (in_lp l) (fun p => p (nth k ds 0)) a /\ is_max (in_lp l) (fun p => p (nth k ds 0)) b /\ (nth k cs 0 == (a + b) / 2)%Q).
    { induction k as [|k IHk]; intros ds cs HF Hk; destruct HF; simpl in *; try lia; auto. apply IHk; auto. lia. }
    destruct (G d _ _ Hr) as (a & b & Ha & Hb & Hc); [rewrite seq_length; auto|]. rewrite seq_nth in Ha, Hb by auto. simpl in *. eauto.
  - intros d Hd. apply in_seq in Hd. lia.
Qed.

(** ** is_point_in_lpi *)
Lemma pt_poly pt p : poly (flat_map (fun i => [[(i, 1%Q)]; [(i, (-1)%Q)]]) (seq 0 (List.length pt))) (flat_map (fun x => [x; (- x)%Q]) pt) p
  <-> forall i, i < List.length pt -> (p i == nth i pt 0)%Q.
Proof.
  assert (G : forall s, poly (flat_map (fun i => [[(i, 1%Q)]; [(i, (-1)%Q)]]) (seq s (List.length pt))) (flat_map (fun x => [x; (- x)%Q]) pt) p
     <-> forall i, i < List.length pt -> (p (s + i)%nat == nth i pt 0)%Q).
  { induction pt as [|v pt IH]; intro s.
    - simpl. split; [lia|]. intros _ i r c A. destruct i; discriminate.
    - cbn [List.length seq flat_map app]. rewrite !poly_cons, (IH (S s)). cbn [reval]. split.
      + intros (A & B & C) i Hi. destruct i as [|i]; cbn [nth].
        * rewrite Nat.add_0_r. lra.
        * rewrite <- (C i) by lia. replace (s + S i) with (S s + i) by lia. reflexivity.
      + intros A. assert (A0 := A 0 ltac:(lia)). cbn [nth] in A0. rewrite Nat.add_0_r in A0. split; [lra|]. split; [lra|].
        intros i Hi. specialize (A (S i) ltac:(lia)). cbn [nth] in A. rewrite <- A. replace (s + S i) with (S s + i) by lia. reflexivity. }
  exact (G 0).
Qed.

Lemma flat_map_two_length {A B} (f g : A -> B) l : List.length (flat_map (fun i => [f i; g i]) l) = 2 * List.length l.
Proof. induction l; simpl; lia. Qed.

Lemma is_point_in_lpi_spec pt l b : is_point_in_lpi solve pt l = Ok b ->
  List.length pt <= l_dims l /\ (b = true <-> exists p, in_lp l p /\ forall i, i < List.length pt -> (p i == nth i pt 0)%Q).
Proof.
  intro H. unfold is_point_in_lpi in H. inv_bind H. apply assert_ok, Nat.leb_le in H1. split; auto.
  inv_bind H. apply clone_ok in H0. subst a0. inv_bind H. rename a0 into l2.
  apply (lp_is_feasible_spec solve Hsolve) in H. rewrite H.
  edestruct (add_curtime_in l) with (4 := H0) as [Hd Hin].
  { unfold csr_ok. cbn [c_rows c_nc]. apply Forall_flat_map, Forall_forall. intros i Hi. apply in_seq in Hi.
    repeat constructor; simpl; lia. }
  { exact H1. }
  { unfold c_nr; cbn [c_rows]; rewrite !flat_map_two_length, seq_length; reflexivity. }
  cbn [c_rows] in Hin. split.
  - intros (x & Hx). assert (Hp : in_lp l2 (fun i => x (l_cvo l2 + i))) by (exists x; split; [auto|intros; reflexivity]).
    apply Hin in Hp as [A B]. eexists. split; [exact A|]. apply pt_poly. exact B.
  - intros (p & Hp & Hq). assert (Hp2 : in_lp l2 p) by (apply Hin; split; [auto|apply pt_poly; auto]).
    destruct Hp2 as (x & Hx & _). eauto.
Qed.

Lemma is_point_full pt l b : List.length pt = l_dims l -> is_point_in_lpi solve pt l = Ok b -> (b = true <-> in_lp l (of_list pt)).
Proof.
  intros HL H. apply is_point_in_lpi_spec in H as [_ H]. rewrite H. split.
  - intros (p & Hp & Hq). eapply in_lp_ext; [|exact Hp]. intros i Hi. apply Hq. lia.
  - intro Hp. eexists. split; [exact Hp|]. intros i Hi. reflexivity.
Qed.

(** ** compute_radius_inf *)
Lemma omax_spec m v : exists r, omax m v = Some r /\ (v <= r)%Q /\ (forall a, m = Some a -> (a <= r)%Q) /\ (r = v \/ m = Some r).
Proof.
  unfold omax. destruct m as [a|].
  - destruct (Qle_bool a v) eqn:E.
    + apply Qle_bool_iff in E. exists v. repeat split; auto; [lra|]. intros b Hb. congruence.
    + exists a. assert (~ (a <= v)%Q) by (intro Hq; apply Qle_bool_iff in Hq; congruence). apply Qnot_le_lt in H.
      repeat split; auto; [lra|]. intros b Hb. injection Hb as <-. lra.
  - exists v. repeat split; auto; [lra|discriminate].
Qed.
Lemma omin_spec m v : exists r, omin m v = Some r /\ (r <= v)%Q /\ (forall a, m = Some a -> (r <= a)%Q) /\ (r = v \/ m = Some r).
Proof.
  unfold omin. destruct m as [a|].
  - destruct (Qle_bool a v) eqn:E.
    + apply Qle_bool_iff in E. exists a. repeat split; auto. intros b Hb. injection Hb as <-. lra.
    + exists v. assert (~ (a <= v)%Q) by (intro Hq; apply Qle_bool_iff in Hq; congruence). apply Qnot_le_lt in H.
      repeat split; auto; [lra|]. intros b Hb. injection Hb as <-. lra.
  - exists v. repeat split; auto; [lra|discriminate].
Qed.

Lemma radius_loop_spec l work acc r :
  (forall x n, lp_sat l x -> n < l_dims l -> (x n == x (l_cvo l + n)%nat)%Q) -> l_dims l <= l_nc l ->
  (forall n s, In (n, s) work -> n < l_dims l /\ (s == 1 \/ s == -1)%Q) ->
  radius_loop solve l work acc = Ok r ->
  (forall n s, In (n, s) work -> exists v, r = Some v /\ forall p, in_lp l p -> (- (s * p n) <= v)%Q)
  /\ (forall a, acc = Some a -> exists v, r = Some v /\ (a <= v)%Q)
  /\ (forall v, r = Some v -> acc = Some v \/ exists n s p, In (n, s) work /\ in_lp l p /\ (v == Qabs (p n))%Q).
Proof.
  intros Heq Hnc. revert l acc Heq Hnc. induction work as [|[n s] work IH]; intros l acc Heq Hnc Hw H; cbn [radius_loop] in H.
  - injection H as <-. split; [simpl; tauto|]. split; [|auto]. intros a ->. exists a. split; [auto|lra].
  - inv_bind H. inv_bind H. destruct (Hw n s ltac:(simpl; auto)) as [Hn Hs].
    assert (El := H1). apply set_min_dir_ok in El as [_ El].
    destruct a0 as [vals|]; [|discriminate]. destruct (min_dir_spec _ _ _ _ _ _ H1 H0) as (xs & Ev & Hx & Hi & Hm).
    rename a into l1. assert (Hv : (nth n vals 0 == xs (l_cvo l + n)%nat)%Q).
    { subst vals. rewrite (nth_indep _ 0%Q (xs 0)) by (rewrite map_length, seq_length; lia). rewrite map_nth, seq_nth by lia.
      simpl. apply Heq; auto. }
    destruct (omax_spec acc (Qabs (nth n vals 0%Q))) as (m & Em & Hm1 & Hm2 & Hm3). rewrite Em in H.
    apply IH in H.
    + destruct H as (A & B & C). destruct (B m eq_refl) as (v & -> & Hvm). split; [|split].
      * intros n0 s0 [E|Hin].
        -- injection E as <- <-. exists v. split; auto. intros p Hp. specialize (Hm p Hp).
           rewrite !(ldot_select (l_dims l) n s) in Hm by (auto; intros i Hi0; rewrite Nat.eqb_sym; reflexivity). cbn [Nat.add] in Hm.
           assert (Ha := Qle_Qabs (nth n vals 0%Q)). assert (Ha2 := Qle_Qabs (- nth n vals 0%Q)). rewrite Qabs_opp in Ha2. rewrite Hv in Ha, Ha2.
           rewrite Hv in Hm1. destruct Hs as [Hs|Hs]; rewrite Hs in Hm |- *; lra.
        -- destruct (A n0 s0 Hin) as (v' & E & Hp). exists v'. split; auto. intros p Hp0. apply Hp. rewrite El. exact Hp0.
      * intros a ->. exists v. split; auto. specialize (Hm2 a eq_refl). lra.
      * intros v0 E. destruct (C v0 E) as [E2|(n0 & s0 & p & Hin & Hp & Hpv)].
        -- injection E2 as <-. destruct Hm3 as [->|E3]; [|left; auto]. right. exists n, s, (fun i => xs (l_cvo l + i)).
           split; [simpl; auto|]. split; auto. rewrite Hv. reflexivity.
        -- right. exists n0, s0, p. split; [simpl; auto|]. split; auto. rewrite El in Hp. exact Hp.
    + intros x n0 Hx0 Hn0. rewrite El in Hx0, Hn0. rewrite El. apply Heq; auto.
    + rewrite El. exact Hnc.
    + intros n0 s0 Hin. rewrite El. apply Hw. simpl; auto.
Qed.

Lemma compute_radius_inf_spec l r :
  (forall x n, lp_sat l x -> n < l_dims l -> (x n == x (l_cvo l + n)%nat)%Q) -> l_dims l <= l_nc l -> 0 < l_dims l ->
  compute_radius_inf solve l = Ok r ->
  exists v, r = Some v /\ (exists p n, in_lp l p /\ n < l_dims l /\ (v == Qabs (p n))%Q)
     /\ forall p n, in_lp l p -> n < l_dims l -> (Qabs (p n) <= v)%Q.
Proof.
  intros Heq Hnc Hd H. unfold compute_radius_inf in H.
  assert (Hin : forall n s, In (n, s) (flat_map (fun n => [(n, 1%Q); (n, (-1)%Q)]) (seq 0 (l_dims l))) <-> n < l_dims l /\ (s = 1%Q \/ s = (-1)%Q)).
  { intros n s. rewrite in_flat_map. split.
    - intros (k & Hk & [E|[E|[]]]); injection E as <- <-; apply in_seq in Hk; split; auto; lia.
    - intros [Hn [-> | ->]]; exists n; (split; [apply in_seq; lia|simpl; auto]). }
  apply radius_loop_spec in H; auto.
  - destruct H as (A & _ & C). destruct (A 0 1%Q) as (v & -> & _); [apply Hin; auto|]. exists v. split; auto. split.
    + destruct (C v eq_refl) as [E|(n & s & p & Hi & Hp & Hv)]; [discriminate|]. exists p, n. split; auto. split; auto. apply Hin in Hi. tauto.
    + intros p n Hp Hn. destruct (A n 1%Q) as (v1 & E1 & H1); [apply Hin; auto|]. destruct (A n (-1)%Q) as (v2 & E2 & H2); [apply Hin; auto|].
      injection E1 as <-. injection E2 as <-. specialize (H1 p Hp). specialize (H2 p Hp). apply Qabs_Qle_condition. lra.
  - intros n s Hi. apply Hin in Hi as [Hn [-> | ->]]; split; auto; [left|right]; reflexivity.
Qed.

End WithSolver.
