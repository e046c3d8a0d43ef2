(** Operations on LPs: basis matrix, input effects, initial-time constraints (lputil.py:189-445). *)
From Verif Require Import Base BaseFacts LpModel LpSpec SetSpec LpFacts LpWf LpUtil SetFacts SetFacts2.
Open Scope nat_scope.

(** same variables layout *)
Definition same_layout (l l' : lp) : Prop :=
  l_dims l' = l_dims l /\ l_bm l' = l_bm l /\ l_cvo l' = l_cvo l /\ l_ie l' = l_ie l.

Lemma same_layout_is_bm l l' i : same_layout l l' -> is_bm l' i <-> is_bm l i.
Proof. intros (A & B & C & D). unfold is_bm. rewrite A, B. reflexivity. Qed.
Lemma same_layout_is_ie l l' i : same_layout l l' -> is_ie l' i <-> is_ie l i.
Proof. intros (A & B & C & D). unfold is_ie. rewrite A, D. reflexivity. Qed.
Lemma same_layout_uoff l l' : same_layout l l' -> uoff l' = uoff l.
Proof. intros (A & B & C & D). unfold uoff. rewrite A, C, D. reflexivity. Qed.
Lemma same_layout_ti l l' x i : same_layout l l' -> ti l' x i = ti l x i.
Proof. intros (A & B & C & D). unfold ti. rewrite D. reflexivity. Qed.
Lemma same_layout_cur l l' BM nu IEs x i : same_layout l l' -> cur_of l' BM nu IEs x i = cur_of l BM nu IEs x i.
Proof. intros S. unfold cur_of. rewrite (same_layout_uoff _ _ S). destruct S as (A & B & C & D). rewrite B. reflexivity. Qed.
Lemma same_layout_refl l : same_layout l l.
Proof. repeat split. Qed.
Lemma same_layout_trans a b c : same_layout a b -> same_layout b c -> same_layout a c.
Proof. intros (A & B & C & D) (E & F & G & H). repeat split; congruence. Qed.

Lemma is_bm_not_ie l BM nu IEs i : wf_lp l BM nu IEs -> is_bm l i -> ~ is_ie l i.
Proof.
  intros W Hb. unfold is_bm, is_ie in *. pose proof (wf_ies _ _ _ _ W) as HI. destruct (l_ie l) as [[r c]|]; [|tauto].
  destruct HI as (_ & H & _). lia.
Qed.

(** ** set_basis_matrix *)
Lemma forallb_len n (M : mat) : forallb (fun r => List.length r =? n) M = true <-> Forall (fun r => List.length r = n) M.
Proof.
  rewrite forallb_forall, Forall_forall. split; intros H r Hr; [apply Nat.eqb_eq|apply Nat.eqb_eq]; auto.
Qed.

Lemma reval_bm_row l bm i x :
  (reval (bm_row l bm i) x == ldot (mrow bm i) (snd (l_bm l)) x - x (l_cvo l + i)%nat + ti l x i)%Q.
Proof.
  unfold bm_row. rewrite !reval_app, reval_dense. unfold ti. destruct (l_ie l) as [[r c]|]; simpl; ring.
Qed.

Lemma set_basis_matrix_ok l BM l' : set_basis_matrix l BM = Ok l' ->
  mat_dims (l_dims l) (l_dims l) BM /\
  l' = with_rows l (set_coefs (fst (l_bm l)) (map (bm_row l BM) (seq 0 (l_dims l))) (l_rows l)).
Proof.
  unfold set_basis_matrix. intro H. inv_bind H. inv_bind H. apply assert_ok in H1. apply assert_ok, Nat.eqb_eq in H0.
  inversion H; subst. split; auto. split; auto. rewrite forallb_len in H1. rewrite <- H0. auto.
Qed.

Lemma wf_bmr_le l BM nu IEs : wf_lp l BM nu IEs -> 0 < l_dims l -> fst (l_bm l) + l_dims l <= l_nr l.
Proof.
  intros W Hd. destruct (wf_bmrows _ _ _ _ W (l_dims l - 1) ltac:(lia)) as (co & Hn & _).
  assert (fst (l_bm l) + (l_dims l - 1) < List.length (l_rows l)) by (apply nth_error_Some; congruence). unfold l_nr. lia.
Qed.

Lemma set_basis_wf l BM0 BM nu IEs l' : wf_lp l BM0 nu IEs -> set_basis_matrix l BM = Ok l' ->
  wf_lp l' BM nu IEs /\ same_layout l l' /\ l_nc l' = l_nc l /\ l_nr l' = l_nr l /\ (forall x, core_sat l' x <-> core_sat l x)
  /\ (forall i r, ~ is_bm l i -> nth_error (l_rows l') i = Some r <-> nth_error (l_rows l) i = Some r).
Proof.
  intros W H. apply set_basis_matrix_ok in H as [HBM ->].
  set (l' := with_rows l _).
  assert (S : same_layout l l') by (repeat split).
  destruct (Nat.eq_dec (l_dims l) 0) as [Hd0|Hd0].
  { (* no dimensions: nothing changes *)
    assert (El : l_rows l' = l_rows l).
    { unfold l'. cbn [l_rows with_rows]. rewrite Hd0. simpl. unfold set_coefs. simpl. destruct (skipn (fst (l_bm l)) (l_rows l)) eqn:E;
        simpl; rewrite <- E, firstn_skipn; reflexivity. }
    assert (Elp : l' = l) by (destruct l; unfold l', with_rows in *; simpl in *; rewrite El; reflexivity).
    rewrite Elp. split; [|repeat split; auto]. destruct W. constructor; auto. intros i Hi. lia. }
  assert (Hle := wf_bmr_le _ _ _ _ W ltac:(lia)).
  assert (Hnth : forall i, nth_error (l_rows l') i =
     match nth_error (l_rows l) i with None => None
     | Some r => Some (if (fst (l_bm l) <=? i) && (i <? fst (l_bm l) + l_dims l) then set_co r (bm_row l BM (i - fst (l_bm l))) else r) end).
  { intro i. unfold l'. cbn [l_rows with_rows]. rewrite set_coefs_nth by (unfold l_nr in Hle; lia).
    destruct (nth_error (l_rows l) i) as [r|]; auto. f_equal.
    destruct (Nat.leb_spec (fst (l_bm l)) i); simpl; auto.
    destruct (Nat.ltb_spec i (fst (l_bm l) + l_dims l)).
    - rewrite nth_error_map_seq by lia. reflexivity.
    - replace (nth_error _ _) with (@None srow); auto. symmetry. apply nth_error_None. rewrite map_length, seq_length. lia. }
  assert (Hnb : forall i r, ~ is_bm l i -> nth_error (l_rows l') i = Some r <-> nth_error (l_rows l) i = Some r).
  { intros i r Hb. rewrite Hnth. unfold is_bm in Hb. destruct (nth_error (l_rows l) i) as [r'|]; [|reflexivity].
    destruct (Nat.leb_spec (fst (l_bm l)) i); destruct (Nat.ltb_spec i (fst (l_bm l) + l_dims l)); simpl; try lia; reflexivity. }
  assert (Hbm : forall i, i < l_dims l -> nth_error (l_rows l') (fst (l_bm l) + i) = Some (mkRow FX (bm_row l BM i) 0%Q)).
  { intros i Hi. rewrite Hnth. destruct (wf_bmrows _ _ _ _ W i Hi) as (co & -> & _).
    rewrite (proj2 (Nat.leb_le _ _)) by lia. rewrite (proj2 (Nat.ltb_lt _ _)) by lia. simpl. unfold set_co. simpl.
    replace (fst (l_bm l) + i - fst (l_bm l)) with i by lia. reflexivity. }
  assert (Hnc : l_nc l' = l_nc l) by reflexivity.
  split; [|repeat split; auto].
  - constructor.
    + apply lp_cols_nth. rewrite Hnc. intros i r Hr. destruct (is_bm_dec l i) as [Hb|Hb].
      * unfold is_bm in Hb. replace i with (fst (l_bm l) + (i - fst (l_bm l))) in Hr by lia.
        rewrite Hbm in Hr by lia. inversion Hr; subst. cbn [r_co]. unfold bm_row.
        assert (C1 := wf_bmc _ _ _ _ W). assert (C2 := wf_cvo _ _ _ _ W).
        apply row_cols_lt_app; split; [|apply row_cols_lt_app; split].
        -- apply row_cols_lt_dense. rewrite (mat_dims_mrow _ _ _ _ HBM) by lia. lia.
        -- repeat constructor; simpl; lia.
        -- pose proof (wf_ies _ _ _ _ W) as HI. destruct (l_ie l) as [[r c]|]; [|constructor].
           destruct HI as (-> & _ & E & _). repeat constructor; simpl; lia.
      * apply Hnb in Hr; auto. pose proof (wf_cols _ _ _ _ W) as Hc. rewrite lp_cols_nth in Hc. eauto.
    + exact HBM.
    + apply (wf_bmc _ _ _ _ W).
    + apply (wf_cvo _ _ _ _ W).
    + intros i Hi. exists (bm_row l BM i). split; [apply Hbm; auto|]. intro x. exact (reval_bm_row l BM i x).
    + intros i r Hr Hb Hi. apply Hnb in Hr; auto. exact (wf_core _ _ _ _ W i r Hr Hb Hi).
    + pose proof (wf_ies _ _ _ _ W) as HI. cbn [l_ie l' with_rows l_dims l_cvo l_bm]. rewrite Hnc. destruct (l_ie l) as [[r c]|] eqn:E; auto.
      destruct HI as (A & B & C & D & F). repeat split; auto. intros i Hi. destruct (F i Hi) as (co & Hn & Hv).
      exists co. split; auto. apply Hnb; auto. intro Hb. apply (is_bm_not_ie _ _ _ _ _ W) in Hb. apply Hb. unfold is_ie. rewrite E. lia.
  - unfold l_nr, l'. cbn [l_rows with_rows]. apply set_coefs_length.
  - intros Hc i r Hr Hb Hi. apply (Hc i r); auto. apply Hnb; auto.
  - intros Hc i r Hr Hb Hi. apply (Hc i r); auto. apply Hnb in Hr; auto.
  - apply Hnb; auto.
  - apply Hnb; auto.
Qed.

(** ** add_input_effects_matrix *)
Lemma ent_sum_map_seq ier (f : nat -> Q) s n i :
  (ent_sum i (map (fun r => ((r + ier)%nat, f r)) (seq s n)) == if (s + ier <=? i) && (i <? s + ier + n) then f (i - ier)%nat else 0)%Q.
Proof.
  revert s; induction n as [|n IH]; intro s; simpl.
  - destruct (Nat.leb_spec (s + ier) i), (Nat.ltb_spec i (s + ier + 0)); simpl; try lia; reflexivity.
  - rewrite IH. destruct (Nat.eqb_spec (s + ier) i) as [E|E].
    + subst i. rewrite (proj2 (Nat.leb_gt (S s + ier) (s + ier))) by lia. rewrite Nat.leb_refl.
      destruct (Nat.ltb_spec (s + ier) (s + ier + S n)); [|lia]. simpl. replace (s + ier - ier) with s by lia. ring.
    + destruct (Nat.leb_spec (S s + ier) i), (Nat.leb_spec (s + ier) i), (Nat.ltb_spec i (S s + ier + n)), (Nat.ltb_spec i (s + ier + S n));
        simpl; try lia; ring.
Qed.

Definition dcoef (c : nat) (r : srow) : Q := fold_right (fun e acc => if Nat.eqb (fst e) c then (snd e + acc)%Q else acc) 0%Q r.

Lemma ent_sum_filter_col c i0 k r :
  (ent_sum k (map (fun e => (i0, snd e)) (filter (fun e => Nat.eqb (fst e) c) r)) == if i0 =? k then dcoef c r else 0)%Q.
Proof.
  induction r as [|[c' v] r IH]; simpl; [destruct (i0 =? k); reflexivity|].
  destruct (Nat.eqb_spec c' c); simpl; [|exact IH]. rewrite IH. destruct (i0 =? k); ring.
Qed.

Lemma ent_sum_csc_col c i0 rows k :
  (ent_sum k (csc_col c i0 rows) == if i0 <=? k then match nth_error rows (k - i0) with Some r => dcoef c r | None => 0 end else 0)%Q.
Proof.
  revert i0; induction rows as [|r rows IH]; intro i0; simpl.
  - destruct (i0 <=? k); [destruct (k - i0)|]; reflexivity.
  - rewrite ent_sum_app, IH.
    assert (E : (ent_sum k (map (fun e => (i0, snd e)) (filter (fun e => fst e =? c) r)) == if i0 =? k then dcoef c r else 0)%Q).
    { apply ent_sum_filter_col. }
    rewrite E; clear E. destruct (Nat.eqb_spec i0 k) as [Heq|Hne].
    + subst i0. rewrite Nat.leb_refl, Nat.sub_diag. rewrite (proj2 (Nat.leb_gt (S k) k)) by lia. simpl. ring.
    + destruct (Nat.leb_spec (S i0) k), (Nat.leb_spec i0 k); try lia; [|ring].
      replace (k - i0) with (S (k - S i0)) by lia. simpl. ring.
Qed.

Lemma ldot_dcoef r n off x : row_cols_lt n r -> (ldot (map (fun c => dcoef c r) (seq 0 n)) off x == reval r (fun i => x (off + i)%nat))%Q.
Proof. intro H. rewrite ldot_shift. change (map (fun c => dcoef c r) (seq 0 n)) with (dense_of r n). apply dense_of_eval; auto. Qed.

Lemma ldot_map_nth (row : list Q) n off x : List.length row = n -> (ldot (map (fun c => nth c row 0) (seq 0 n)) off x == ldot row off x)%Q.
Proof.
  intros <-. revert off. induction row as [|a row IH]; intro off; simpl; [reflexivity|].
  rewrite <- seq_shift, map_map. simpl. rewrite IH. reflexivity.
Qed.

Lemma ldot_pointwise f g s n off x : (forall c, s <= c < s + n -> (f c == g c)%Q) ->
  (ldot (map f (seq s n)) off x == ldot (map g (seq s n)) off x)%Q.
Proof.
  revert s off; induction n as [|n IH]; intros s off H; simpl; [reflexivity|].
  rewrite (H s) by lia. rewrite IH; [reflexivity|]. intros c Hc. apply H; lia.
Qed.

Lemma ie_val_app nu a b i off x : (ie_val nu (a ++ b) i off x == ie_val nu a i off x + ie_val nu b i (off + nu * List.length a) x)%Q.
Proof.
  revert off; induction a as [|m a IH]; intro off; simpl.
  - replace (off + nu * 0) with off by lia. ring.
  - rewrite IH. replace (off + nu + nu * List.length a) with (off + nu * S (List.length a)) by lia. ring.
Qed.

Lemma add_input_effects_wf l BM nu IEs ie mid nv uc ur l' :
  wf_lp l BM nu IEs -> csr_ok uc -> c_nc uc = nu -> c_nr uc = List.length ur ->
  add_input_effects_matrix l ie mid nv uc ur = Ok l' ->
  wf_lp l' BM nu (IEs ++ [ie]) /\ same_layout l l' /\ l_nc l' = l_nc l + nu /\ l_nr l <= l_nr l'
  /\ l_nc l = uoff l + nu * List.length IEs
  /\ (forall x, core_sat l' x <-> core_sat l x /\ poly (c_rows uc) ur (fun i => x (l_nc l + i)))
  /\ (exists c, l_ie l = Some c)
  /\ (forall i r, nth_error (l_rows l) i = Some r -> ~ is_ie l i ->
        exists co, nth_error (l_rows l') i = Some (set_co r co) /\ forall x, (reval co x == reval (r_co r) x)%Q).
Proof.
  intros W Hok Hnu Hnr. unfold add_input_effects_matrix. intro H.
  destruct (l_ie l) as [[ier iec]|] eqn:Eie; [|discriminate].
  inv_bind H. apply assert_ok in H1. apply forallb_len in H1.
  inv_bind H. apply assert_ok, Nat.eqb_eq in H0.
  inv_bind H. apply assert_ok, Nat.eqb_eq in H2.
  pose proof (wf_ies _ _ _ _ W) as HI. rewrite Eie in HI. destruct HI as (Hiec & Hier & Hncs & HF & HR).
  assert (Huo : uoff l = iec + l_dims l) by (unfold uoff; rewrite Eie; auto).
  apply set_constraints_csc_ok in H as [-> [Hb1 Hb2]].
  cbn [cc_cols fst snd] in *. set (n := l_dims l) in *.
  set (col := fun c => map (fun r => (r + ier, nth c (mrow ie r) 0%Q)) (seq 0 n)
                ++ shift_row (l_nr (add_cols l (names_of "I" mid 0 (c_nc uc)))) (csc_col c 0 (c_rows uc))) in *.
  assert (Hnr0 : l_nr (add_cols l (names_of "I" mid 0 (c_nc uc))) = l_nr l) by reflexivity.
  set (l' := with_rows _ _).
  assert (S : same_layout l l') by (repeat split).
  assert (Hnc' : l_nc l' = l_nc l + nu).
  { unfold l', l_nc. cbn [l_names with_rows add_rows_le add_cols with_names]. rewrite app_length, names_of_length. lia. }
  assert (Hie_lt : forall i, i < n -> ier + i < l_nr l).
  { intros i Hi. destruct (HR i Hi) as (co & Hn & _). unfold l_nr. apply nth_error_Some. congruence. }
  assert (HIE : mat_dims n nu ie). { split; [lia|]. rewrite <- Hnu; auto. }
  (* entries added to row i *)
  set (cols := map (shift_row 0) (map col (seq 0 (c_nc uc)))).
  assert (Hcols : cols = map col (seq 0 nu)) by (unfold cols; rewrite map_shift_row_0, Hnu; reflexivity).
  assert (Hent : forall i x, (reval (cols_entries (l_nc l) i cols) x ==
      if i <? l_nr l then (if (ier <=? i) && (i <? ier + n) then ldot (mrow ie (i - ier)) (l_nc l) x else 0)
      else match nth_error (c_rows uc) (i - l_nr l) with Some r => reval r (fun k => x (l_nc l + k)%nat) | None => 0 end)%Q).
  { intros i x. rewrite reval_cols_entries, Hcols, map_map.
    destruct (Nat.ltb_spec i (l_nr l)) as [Hi|Hi].
    - rewrite (ldot_pointwise _ (fun c => if (ier <=? i) && (i <? ier + n) then nth c (mrow ie (i - ier)) 0 else 0)%Q).
      + destruct ((ier <=? i) && (i <? ier + n)) eqn:Eb.
        * apply andb_true_iff in Eb as [Eb1 Eb2]. apply Nat.leb_le in Eb1. apply Nat.ltb_lt in Eb2.
          apply ldot_map_nth. apply (mat_dims_mrow _ _ _ _ HIE). lia.
        * rewrite (ldot_map_ext (fun _ => 0%Q) (fun c => 0 * 0)%Q) by (intro; ring).
          rewrite (ldot_map_scale 0 (fun _ => 0%Q)). ring.
      + intros c _. unfold col. rewrite ent_sum_app, ent_sum_shift_lt by (rewrite Hnr0; lia).
        rewrite (ent_sum_map_seq ier (fun r => nth c (mrow ie r) 0%Q) 0 n i). simpl.
        destruct ((ier <=? i) && (i <? ier + n)); ring.
    - rewrite (ldot_pointwise _ (fun c => match nth_error (c_rows uc) (i - l_nr l) with Some r => dcoef c r | None => 0 end)%Q).
      + destruct (nth_error (c_rows uc) (i - l_nr l)) as [r|] eqn:Er.
        * apply ldot_dcoef. unfold csr_ok in Hok. rewrite Forall_nth_error in Hok. rewrite <- Hnu. eauto.
        * rewrite (ldot_map_ext (fun _ => 0%Q) (fun c => 0 * 0)%Q) by (intro; ring).
          rewrite (ldot_map_scale 0 (fun _ => 0%Q)). ring.
      + intros c _. unfold col. rewrite ent_sum_app, ent_sum_shift by (rewrite Hnr0; lia). rewrite Hnr0.
        rewrite ent_sum_csc_col. simpl. rewrite Nat.sub_0_r.
        rewrite (ent_sum_map_seq ier (fun r => nth c (mrow ie r) 0%Q) 0 n i). simpl.
        destruct (Nat.leb_spec ier i); simpl; [|ring]. destruct (Nat.ltb_spec i (ier + n)); simpl; [|ring].
        assert (ier + (i - ier) < l_nr l) by (apply Hie_lt; lia). lia. }
  assert (Hold : forall i r, nth_error (l_rows l) i = Some r ->
     nth_error (l_rows l') i = Some (set_co r (r_co r ++ cols_entries (l_nc l) i cols))).
  { intros i r Hr. unfold l'. cbn [l_rows with_rows]. apply set_cols_nth.
    - intros c av Hin. pose proof (wf_cols _ _ _ _ W) as Hc. rewrite lp_cols_nth in Hc. eapply row_cols_lt_In; eauto.
    - cbn [l_rows add_rows_le with_rows add_cols with_names]. rewrite nth_error_app1; auto. apply nth_error_Some. congruence. }
  assert (Hnew : forall k b, nth_error ur k = Some b ->
     nth_error (l_rows l') (l_nr l + k) = Some (mkRow UP (cols_entries (l_nc l) (l_nr l + k) cols) b)).
  { intros k b Hk. unfold l'. cbn [l_rows with_rows].
    rewrite (set_cols_nth (l_nc l) cols _ _ (mkRow UP [] b)); [reflexivity|simpl; tauto|].
    cbn [l_rows add_rows_le with_rows add_cols with_names]. rewrite nth_error_app2 by (unfold l_nr; lia).
    unfold l_nr. replace (List.length (l_rows l) + k - List.length (l_rows l)) with k by lia. rewrite nth_error_map, Hk. reflexivity. }
  assert (Hlen : List.length (l_rows l') = l_nr l + List.length ur).
  { unfold l'. cbn [l_rows with_rows]. rewrite set_cols_length. cbn [l_rows add_rows_le with_rows add_cols with_names].
    rewrite app_length, map_length. reflexivity. }
  assert (Hinv : forall i r, nth_error (l_rows l') i = Some r ->
     (exists r0, i < l_nr l /\ nth_error (l_rows l) i = Some r0 /\ r = set_co r0 (r_co r0 ++ cols_entries (l_nc l) i cols))
     \/ (exists k b, i = l_nr l + k /\ k < List.length ur /\ nth_error ur k = Some b /\ r = mkRow UP (cols_entries (l_nc l) i cols) b)).
  { intros i r Hr. assert (Hi : i < l_nr l + List.length ur) by (rewrite <- Hlen; apply nth_error_Some; congruence).
    destruct (Nat.lt_ge_cases i (l_nr l)) as [Hlt|Hge].
    - left. destruct (nth_error (l_rows l) i) as [r0|] eqn:E0; [|apply nth_error_None in E0; unfold l_nr in Hlt; lia].
      exists r0. repeat split; auto. rewrite (Hold _ _ E0) in Hr. congruence.
    - right. exists (i - l_nr l). destruct (nth_error ur (i - l_nr l)) as [b|] eqn:E0; [|apply nth_error_None in E0; lia].
      exists b. repeat split; try lia. specialize (Hnew _ _ E0). replace (l_nr l + (i - l_nr l)) with i in Hnew by lia. congruence. }
  assert (Hcl : forall i c av, In (c, av) (cols_entries (l_nc l) i cols) -> l_nc l <= c < l_nc l + nu).
  { intros i c av Hin. apply cols_entries_cols in Hin. rewrite Hcols, map_length, seq_length in Hin. lia. }
  split; [|repeat split; auto].
  - constructor.
    + apply lp_cols_nth. rewrite Hnc'. intros i r Hr. unfold row_cols_lt. apply Forall_forall. intros [c v] Hin. simpl.
      apply Hinv in Hr as [(r0 & _ & Hr0 & ->)|(k & b & _ & _ & _ & ->)]; cbn [r_co set_co] in Hin.
      * apply in_app_iff in Hin as [Hin|Hin].
        -- pose proof (wf_cols _ _ _ _ W) as Hc. rewrite lp_cols_nth in Hc. assert (c < l_nc l) by (eapply row_cols_lt_In; eauto). lia.
        -- apply Hcl in Hin. lia.
      * apply Hcl in Hin. lia.
    + apply (wf_bmdims _ _ _ _ W).
    + apply (wf_bmc _ _ _ _ W).
    + rewrite Hnc'. pose proof (wf_cvo _ _ _ _ W). cbn. lia.
    + intros i Hi. destruct (wf_bmrows _ _ _ _ W i Hi) as (co & Hn & Hv).
      exists (co ++ cols_entries (l_nc l) (fst (l_bm l) + i) cols). split; [apply (Hold _ _ Hn)|].
      intro x. rewrite reval_app, Hv, Hent. rewrite (same_layout_ti l l') by auto. cbn [l_bm l_cvo l' with_rows].
      assert (Hin : fst (l_bm l) + i < l_nr l) by (unfold l_nr; apply nth_error_Some; congruence).
      rewrite (proj2 (Nat.ltb_lt _ _) Hin). rewrite (proj2 (Nat.leb_gt _ _)) by (unfold n in *; cbn in Hi; lia). simpl.
      cbn [add_rows_le with_rows add_cols with_names l_cvo l_bm]. ring.
    + intros i r Hr Hb Hi c v Hin. rewrite (same_layout_uoff l l') by auto. rewrite (same_layout_is_bm l l') in Hb by auto.
      rewrite (same_layout_is_ie l l') in Hi by auto. cbn [l_cvo l' with_rows].
      apply Hinv in Hr as [(r0 & _ & Hr0 & ->)|(k & b & _ & _ & _ & ->)]; cbn [r_co set_co] in Hin.
      * apply in_app_iff in Hin as [Hin|Hin]; [exact (wf_core _ _ _ _ W i r0 Hr0 Hb Hi c v Hin)|]. apply Hcl in Hin. right. lia.
      * apply Hcl in Hin. right. lia.
    + cbn [l_ie l' with_rows add_rows_le add_cols with_names l_dims l_cvo l_bm]. rewrite Eie. fold l'. repeat split; auto.
      * rewrite Hnc', app_length, Hncs. simpl. fold n. lia.
      * apply Forall_app. split; auto.
      * intros i Hi. destruct (HR i Hi) as (co & Hn & Hv). exists (co ++ cols_entries (l_nc l) (ier + i) cols).
        split; [apply (Hold _ _ Hn)|]. intro x. rewrite reval_app, Hv, Hent.
        rewrite (proj2 (Nat.ltb_lt _ _) (Hie_lt i Hi)). rewrite (proj2 (Nat.leb_le _ _)) by lia. rewrite (proj2 (Nat.ltb_lt _ _)) by lia.
        simpl. rewrite ie_val_app. simpl. replace (ier + i - ier) with i by lia. rewrite Hncs. fold n. ring.
  - unfold l_nr. rewrite Hlen. unfold l_nr. lia.
  - rewrite Hncs, Huo. fold n. lia.
  - intros i r Hr Hb Hi. assert (Hnb := fun H' => Hb (proj1 (same_layout_is_bm l l' i S) H')).
    assert (Hlt : i < l_nr l) by (unfold l_nr; apply nth_error_Some; congruence).
    assert (Hs := H i _ (Hold _ _ Hr) Hnb (fun H' => Hi (proj1 (same_layout_is_ie l l' i S) H'))).
    assert (E0 : (reval (r_co r ++ cols_entries (l_nc l) i cols) x == reval (r_co r) x)%Q).
    { rewrite reval_app, Hent. rewrite (proj2 (Nat.ltb_lt _ _) Hlt).
      destruct (Nat.leb_spec ier i); simpl; [|ring]. destruct (Nat.ltb_spec i (ier + n)); simpl; [|ring].
      exfalso. apply Hi. unfold is_ie. rewrite Eie. fold n. lia. }
    unfold row_sat in *. cbn [set_co r_ty r_co r_rhs] in Hs. destruct (r_ty r); rewrite E0 in Hs; auto.
  - intros k r b Hr Hb. assert (Hs := H (l_nr l + k) _ (Hnew _ _ Hb)).
    assert (Hlt : k < List.length ur) by (apply nth_error_Some; congruence).
    unfold row_sat in Hs. cbn [r_ty r_co r_rhs] in Hs. rewrite Hent in Hs.
    rewrite (proj2 (Nat.ltb_ge _ _)) in Hs by lia. replace (l_nr l + k - l_nr l) with k in Hs by lia. rewrite Hr in Hs.
    apply Hs.
    + rewrite (same_layout_is_bm l l') by auto. unfold is_bm. fold n. intro Hbm.
      destruct (Nat.eq_dec n 0); [lia|]. assert (Hle := wf_bmr_le _ _ _ _ W). fold n in Hle. lia.
    + rewrite (same_layout_is_ie l l') by auto. unfold is_ie. rewrite Eie. fold n. intro Hbm.
      assert (ier + (l_nr l + k - ier) < l_nr l) by (apply Hie_lt; lia). lia.
  - intros [H1' H2'] i r Hr Hb Hi. rewrite (same_layout_is_bm l l') in Hb by auto. rewrite (same_layout_is_ie l l') in Hi by auto.
    apply Hinv in Hr as [(r0 & Hlt & Hr0 & ->)|(k & b & -> & Hlt & Hk & ->)].
    + assert (Hs := H1' i r0 Hr0 Hb Hi).
      assert (E0 : (reval (r_co r0 ++ cols_entries (l_nc l) i cols) x == reval (r_co r0) x)%Q).
      { rewrite reval_app, Hent. rewrite (proj2 (Nat.ltb_lt _ _) Hlt).
        destruct (Nat.leb_spec ier i); simpl; [|ring]. destruct (Nat.ltb_spec i (ier + n)); simpl; [|ring].
        exfalso. apply Hi. unfold is_ie. rewrite Eie. fold n. lia. }
      unfold row_sat in *. cbn [set_co r_ty r_co r_rhs]. destruct (r_ty r0); rewrite E0; auto.
    + unfold row_sat. cbn [r_ty r_co r_rhs]. rewrite Hent. rewrite (proj2 (Nat.ltb_ge _ _)) by lia.
      replace (l_nr l + k - l_nr l) with k by lia. destruct (nth_error (c_rows uc) k) as [r|] eqn:Er.
      * eapply H2'; eauto.
      * apply nth_error_None in Er. unfold c_nr in Hnr. lia.
  - eauto.
  - intros i r Hr Hi. eexists. split; [apply (Hold _ _ Hr)|]. intro x. rewrite reval_app, Hent.
    assert (Hlt : i < l_nr l) by (unfold l_nr; apply nth_error_Some; congruence).
    rewrite (proj2 (Nat.ltb_lt _ _) Hlt).
    destruct (Nat.leb_spec ier i); simpl; [|ring]. destruct (Nat.ltb_spec i (ier + n)); simpl; [|ring].
    exfalso. apply Hi. unfold is_ie. rewrite Eie. fold n. lia.
Qed.
