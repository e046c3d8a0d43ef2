(** Facts about the base definitions. *)
From Verif Require Import Base.
Open Scope Q_scope.

Lemma reval_ext r x y : (forall c a, In (c, a) r -> x c == y c) -> reval r x == reval r y.
Proof.
  induction r as [|[c a] r IH]; simpl; intro H; [reflexivity|].
  rewrite (H c a) by auto. rewrite IH; [reflexivity|]. intros; eapply H; eauto.
Qed.

Lemma reval_app r1 r2 x : reval (r1 ++ r2) x == reval r1 x + reval r2 x.
Proof. induction r1 as [|[c a] r IH]; simpl; [ring|]. rewrite IH; ring. Qed.

Lemma reval_shift off r x : reval (shift_row off r) x == reval r (fun i => x (off + i)%nat).
Proof. induction r as [|[c a] r IH]; simpl; [reflexivity|]. rewrite IH; reflexivity. Qed.

Lemma reval_scale k r x : reval (scale_row k r) x == k * reval r x.
Proof. induction r as [|[c a] r IH]; simpl; [ring|]. rewrite IH; ring. Qed.

Lemma reval_dense l off x : reval (dense_row l off) x == ldot l off x.
Proof. revert off; induction l as [|a l IH]; intro off; simpl; [reflexivity|]. rewrite IH; reflexivity. Qed.

Lemma ldot_ext l off x y :
  (forall i, (i < List.length l)%nat -> x (off + i)%nat == y (off + i)%nat) -> ldot l off x == ldot l off y.
Proof.
  revert off; induction l as [|a l IH]; intros off H; simpl; [reflexivity|].
  assert (H0 := H 0%nat ltac:(simpl; lia)). rewrite Nat.add_0_r in H0.
  rewrite H0. rewrite IH; [reflexivity|].
  intros i Hi. specialize (H (S i) ltac:(simpl; lia)). rewrite Nat.add_succ_r in H. exact H.
Qed.

Lemma ldot_shift l off x : ldot l off x == ldot l 0 (fun i => x (off + i)%nat).
Proof.
  revert off x; induction l as [|a l IH]; intros off x; simpl; [reflexivity|].
  rewrite Nat.add_0_r. rewrite (IH (S off) x). rewrite (IH 1%nat (fun i => x (off + i)%nat)).
  apply Qplus_inj_l. apply ldot_ext; intros i _. cbn.
  replace (off + S i)%nat with (S (off + i)) by lia. reflexivity.
Qed.

Lemma ldot_add l off x y : ldot l off (fun i => x i + y i) == ldot l off x + ldot l off y.
Proof. revert off; induction l as [|a l IH]; intro off; simpl; [ring|]. rewrite IH; ring. Qed.

Lemma ldot_scale l off k x : ldot l off (fun i => k * x i) == k * ldot l off x.
Proof. revert off; induction l as [|a l IH]; intro off; simpl; [ring|]. rewrite IH; ring. Qed.

Lemma ldot_zero l off x : (forall i, (i < List.length l)%nat -> x (off + i)%nat == 0) -> ldot l off x == 0.
Proof.
  intro H. rewrite (ldot_ext l off x (fun _ => 0 * 0)).
  - rewrite (ldot_scale l off 0 (fun _ => 0)). ring.
  - intros i Hi. rewrite (H i Hi). ring.
Qed.

Lemma ladd_length a b n : List.length a = n -> List.length b = n -> List.length (ladd a b) = n.
Proof.
  revert b n; induction a as [|u a IH]; intros [|v b] n Ha Hb; simpl in *; subst; try lia.
  rewrite (IH b (List.length a)); auto.
Qed.

Lemma lscale_length k a : List.length (lscale k a) = List.length a.
Proof. apply map_length. Qed.

Lemma lzero_length n : List.length (lzero n) = n.
Proof. apply repeat_length. Qed.

Lemma ldot_ladd a b off x : List.length a = List.length b -> ldot (ladd a b) off x == ldot a off x + ldot b off x.
Proof.
  revert b off; induction a as [|u a IH]; intros [|v b] off; simpl; intros H; try discriminate; [ring|].
  rewrite IH by congruence. ring.
Qed.

Lemma ldot_lscale k a off x : ldot (lscale k a) off x == k * ldot a off x.
Proof.
  revert off; induction a as [|u a IH]; intro off; cbn [lscale map ldot]; [ring|].
  rewrite Qred_correct. fold (lscale k a). rewrite IH. ring.
Qed.

Lemma ldot_lzero n off x : ldot (lzero n) off x == 0.
Proof. revert off; induction n; intro off; simpl; [reflexivity|]. fold (lzero n). rewrite IHn. ring. Qed.

Lemma vmul_length n v M : Forall (fun r => List.length r = n) M -> List.length (vmul n v M) = n.
Proof.
  revert M; induction v as [|a v IH]; intros [|r M] H; simpl; try apply lzero_length.
  inversion H; subst. apply ladd_length; [rewrite lscale_length; auto | apply IH; auto].
Qed.

Lemma mapply_cons_S r M x i : mapply (r :: M) x (S i) = mapply M x i.
Proof. reflexivity. Qed.

(** (v M) x = v (M x) *)
Lemma vmul_ldot n v M x :
  Forall (fun r => List.length r = n) M -> List.length v = List.length M ->
  ldot (vmul n v M) 0 x == ldot v 0 (mapply M x).
Proof.
  revert M; induction v as [|a v IH]; intros [|r M] H Hl; simpl in *; try discriminate.
  - apply ldot_lzero.
  - inversion H; subst.
    rewrite ldot_ladd by (rewrite lscale_length, vmul_length; auto).
    rewrite ldot_lscale, IH by (auto; congruence).
    rewrite (ldot_shift v 1 (mapply (r :: M) x)).
    apply Qplus_comp; [reflexivity|]. apply ldot_ext. intros; reflexivity.
Qed.

Lemma mrow_In M i : (i < List.length M)%nat -> In (mrow M i) M.
Proof. intro H; apply nth_In; auto. Qed.

Lemma mat_dims_mrow n m M i : mat_dims n m M -> (i < n)%nat -> List.length (mrow M i) = m.
Proof. intros [H1 H2] Hi. rewrite Forall_forall in H2. apply H2, mrow_In. lia. Qed.

Lemma mmul_dims n k m A B : mat_dims n k A -> mat_dims k m B -> mat_dims n m (mmul m A B).
Proof.
  intros [HA1 HA2] [HB1 HB2]; split; unfold mmul; [rewrite map_length; auto|].
  apply Forall_forall; intros r Hr. apply in_map_iff in Hr as [a [<- Ha]]. apply vmul_length; auto.
Qed.

Lemma mmul_mapply n k m A B x i :
  mat_dims n k A -> mat_dims k m B -> (i < n)%nat -> mapply (mmul m A B) x i == mapply A (mapply B x) i.
Proof.
  intros HA HB Hi. unfold mapply at 1, mmul, mrow.
  rewrite nth_indep with (d' := vmul m [] B) by (rewrite map_length; destruct HA; lia).
  rewrite map_nth with (f := fun r => vmul m r B).
  fold (mrow A i). apply vmul_ldot; [apply HB | ]. rewrite (mat_dims_mrow _ _ _ _ HA Hi). symmetry; apply HB.
Qed.

Lemma ldot_unit_aux s n i off x :
  ldot (map (fun j => if Nat.eqb j i then 1 else 0) (seq s n)) off x ==
  (if (s <=? i)%nat && (i <? s + n)%nat then x (off + (i - s))%nat else 0).
Proof.
  revert s off; induction n as [|n IH]; intros s off; simpl.
  - destruct (Nat.leb_spec s i); simpl; [|reflexivity].
    destruct (Nat.ltb_spec i (s + 0)%nat); [lia|reflexivity].
  - rewrite IH. destruct (Nat.eqb_spec s i).
    + subst. rewrite Nat.leb_refl.
      destruct (Nat.leb_spec (S i) i); [lia|]. simpl.
      destruct (Nat.ltb_spec i (i + S n)%nat); [|lia]. rewrite Nat.sub_diag, Nat.add_0_r. ring.
    + destruct (Nat.leb_spec (S s) i); destruct (Nat.leb_spec s i); try lia; simpl;
        try destruct (Nat.ltb_spec i (S (s + n))); try destruct (Nat.ltb_spec i (s + S n)%nat); try lia; try ring.
      replace (S (off + (i - S s)))%nat with (off + (i - s))%nat by lia. ring.
Qed.

Lemma ldot_unit n i off x : (i < n)%nat -> ldot (unit_row n i) off x == x (off + i)%nat.
Proof.
  intro H. unfold unit_row. rewrite ldot_unit_aux. rewrite Nat.sub_0_r.
  simpl. destruct (Nat.ltb_spec i n); [reflexivity|lia].
Qed.

Lemma unit_row_length n i : List.length (unit_row n i) = n.
Proof. unfold unit_row. rewrite map_length. apply seq_length. Qed.

Lemma ident_dims n : mat_dims n n (ident n).
Proof.
  split; unfold ident; [rewrite map_length, seq_length; auto|].
  apply Forall_forall; intros r Hr. apply in_map_iff in Hr as [i [<- _]]. apply unit_row_length.
Qed.

Lemma mrow_ident n i : (i < n)%nat -> mrow (ident n) i = unit_row n i.
Proof.
  intro H. unfold mrow, ident. rewrite nth_indep with (d' := unit_row n 0%nat) by (rewrite map_length, seq_length; auto).
  rewrite map_nth. rewrite seq_nth by auto. reflexivity.
Qed.

Lemma mapply_ident n x i : (i < n)%nat -> mapply (ident n) x i == x i.
Proof. intro H. unfold mapply. rewrite mrow_ident by auto. rewrite ldot_unit by auto. reflexivity. Qed.

Lemma mapply_ext n m M x y i : mat_dims n m M -> (i < n)%nat -> veq m x y -> mapply M x i == mapply M y i.
Proof.
  intros HM Hi H. unfold mapply. apply ldot_ext. rewrite (mat_dims_mrow _ _ _ _ HM Hi). intros j Hj. apply H; auto.
Qed.

Lemma mapply_add M x y i : mapply M (fun j => x j + y j) i == mapply M x i + mapply M y i.
Proof. apply ldot_add. Qed.

Lemma mapply_scale M k x i : mapply M (fun j => k * x j) i == k * mapply M x i.
Proof. apply ldot_scale. Qed.

Lemma row_cols_ltb_ok n r : row_cols_ltb n r = true <-> row_cols_lt n r.
Proof.
  unfold row_cols_ltb, row_cols_lt. rewrite forallb_forall, Forall_forall.
  split; intros H x Hx; specialize (H x Hx); apply Nat.ltb_lt; auto.
Qed.

Lemma row_cols_lt_In n r c a : row_cols_lt n r -> In (c, a) r -> (c < n)%nat.
Proof. unfold row_cols_lt. rewrite Forall_forall. intros H Hin. apply (H _ Hin). Qed.

Lemma row_cols_lt_mono n m r : (n <= m)%nat -> row_cols_lt n r -> row_cols_lt m r.
Proof. intros H. apply Forall_impl. intros; lia. Qed.

Lemma row_cols_lt_app n a b : row_cols_lt n (a ++ b) <-> row_cols_lt n a /\ row_cols_lt n b.
Proof. apply Forall_app. Qed.

Lemma row_cols_lt_shift n off r : row_cols_lt n r -> row_cols_lt (off + n) (shift_row off r).
Proof. unfold row_cols_lt, shift_row. intros H. apply Forall_map. eapply Forall_impl; [|exact H]. cbn; intros; lia. Qed.

Lemma row_cols_lt_dense n l off : (off + List.length l <= n)%nat -> row_cols_lt n (dense_row l off).
Proof. revert off; induction l; intros off H; simpl in *; constructor; [simpl; lia|apply IHl; lia]. Qed.

Lemma reval_ext_lt n r x y : row_cols_lt n r -> veq n x y -> reval r x == reval r y.
Proof. intros Hr H. apply reval_ext. intros c a Hin. apply H. eapply row_cols_lt_In; eauto. Qed.

Lemma dense_of_length r n : List.length (dense_of r n) = n.
Proof. unfold dense_of. rewrite map_length, seq_length; auto. Qed.

Lemma ldot_map_add f g s n off x :
  ldot (map (fun c => f c + g c) (seq s n)) off x == ldot (map f (seq s n)) off x + ldot (map g (seq s n)) off x.
Proof. revert s off; induction n; intros s off; simpl; [ring|]. rewrite IHn. ring. Qed.

Lemma ldot_map_ext f g s n off x :
  (forall c, f c == g c) -> ldot (map f (seq s n)) off x == ldot (map g (seq s n)) off x.
Proof. intro H. revert s off; induction n; intros s off; simpl; [reflexivity|]. rewrite IHn, H. reflexivity. Qed.

Lemma ldot_map_scale k f s n off x :
  ldot (map (fun c => k * f c) (seq s n)) off x == k * ldot (map f (seq s n)) off x.
Proof. revert s off; induction n; intros s off; simpl; [ring|]. rewrite IHn. ring. Qed.

Lemma dense_of_eval r n x : row_cols_lt n r -> ldot (dense_of r n) 0 x == reval r x.
Proof.
  unfold dense_of. induction r as [|[c a] r IH]; intro H.
  - simpl. change (map (fun _ : nat => 0) (seq 0 n)) with (map (fun c : nat => (fun _ => 0) c) (seq 0 n)).
    apply (Qeq_trans _ (ldot (map (fun c : nat => 0 * 0) (seq 0 n)) 0 x)).
    + apply ldot_map_ext. intro; ring.
    + rewrite ldot_map_scale. ring.
  - inversion H as [|? ? Hc Hr]; subst. simpl in Hc. cbn [fold_right fst snd reval].
    rewrite <- (IH Hr).
    rewrite (ldot_map_ext _ (fun k => a * (if Nat.eqb k c then 1 else 0) +
      fold_right (fun e acc => if Nat.eqb (fst e) k then snd e + acc else acc) 0 r)).
    + rewrite (ldot_map_add (fun k => a * (if Nat.eqb k c then 1 else 0))).
      rewrite (ldot_map_scale a (fun k => if Nat.eqb k c then 1 else 0)).
      rewrite ldot_unit_aux. simpl. destruct (Nat.ltb_spec c n); [|lia]. rewrite Nat.sub_0_r. reflexivity.
    + intro k. rewrite (Nat.eqb_sym c k). destruct (Nat.eqb_spec k c); ring.
Qed.
