(** Boxes, zonotopes, input sets and Minkowski sums (lputil.py constructors). *)
From Verif Require Import Base BaseFacts LpModel LpSpec SetSpec LpFacts LpWf LpUtil SetFacts.
Open Scope nat_scope.

(** ** Specification of the sets *)
(** p lies in the box: every coordinate is between its bounds. *)
(** ** poly facts *)
Lemma poly_nil x : poly [] [] x.
Proof. intros i r c H. destruct i; discriminate. Qed.

Lemma poly_cons r A c b x : poly (r :: A) (c :: b) x <-> (reval r x <= c)%Q /\ poly A b x.
Proof.
  split.
  - intro H; split; [apply (H 0); auto|]. intros i r' c' H1 H2. apply (H (S i)); auto.
  - intros [H1 H2] [|i] r' c' E1 E2; simpl in *; [inversion E1; inversion E2; subst; auto|eapply H2; eauto].
Qed.

Lemma poly_app A1 A2 b1 b2 x : List.length A1 = List.length b1 ->
  poly (A1 ++ A2) (b1 ++ b2) x <-> poly A1 b1 x /\ poly A2 b2 x.
Proof.
  revert b1; induction A1 as [|r A1 IH]; intros [|c b1] H; simpl in *; try discriminate.
  - split; [intro; split; auto using poly_nil|tauto].
  - rewrite !poly_cons, IH by congruence. tauto.
Qed.

Lemma tpoly_nil ts b x : tpoly [] ts b x.
Proof. intros i r t c H. destruct i; discriminate. Qed.

Lemma tpoly_cons r A t ts c b x : tpoly (r :: A) (t :: ts) (c :: b) x <-> row_sat (mkRow t r c) x /\ tpoly A ts b x.
Proof.
  split.
  - intro H; split; [apply (H 0); auto|]. intros i r' t' c' H1 H2 H3. apply (H (S i)); auto.
  - intros [H1 H2] [|i] r' t' c' E1 E2 E3; simpl in *; [inversion E1; inversion E2; inversion E3; subst; auto|eapply H2; eauto].
Qed.

Lemma poly_shift off A b x : poly (map (shift_row off) A) b x <-> poly A b (fun i => x (off + i)).
Proof.
  unfold poly. split; intros H i r c H1 H2.
  - rewrite <- reval_shift. apply (H i (shift_row off r) c); auto. rewrite nth_error_map, H1; auto.
  - rewrite nth_error_map in H1. destruct (nth_error A i) as [r'|] eqn:E; inversion H1; subst.
    rewrite reval_shift. eapply H; eauto.
Qed.

(** ** from_box *)
Lemma box_rhs_length box : List.length (box_rhs box) = 2 * List.length box.
Proof. unfold box_rhs. induction box; simpl; auto. simpl in IHbox. lia. Qed.

Lemma box_poly_aux box s p :
  poly (flat_map (fun n => [[(n, (-1)%Q)]; [(n, 1%Q)]]) (seq s (List.length box))) (box_rhs box) p <->
  forall i lb ub, nth_error box i = Some (lb, ub) -> (lb <= p (s + i)%nat /\ p (s + i)%nat <= ub)%Q.
Proof.
  revert s; induction box as [|[lb ub] box IH]; intro s; simpl.
  - split; [intros _ i lb ub H; destruct i; discriminate|intro; apply poly_nil].
  - rewrite !poly_cons, IH. simpl. split.
    + intros (H1 & H2 & H3) [|i] lb' ub' E; simpl in E.
      * inversion E; subst. rewrite Nat.add_0_r. split; lra.
      * rewrite <- Nat.add_succ_comm. apply (H3 i); auto.
    + intro H. destruct (H 0 lb ub eq_refl) as [H1 H2]. rewrite Nat.add_0_r in *. repeat split; try lra.
      * specialize (H (S i) lb0 ub0 H0). rewrite <- Nat.add_succ_comm in H. apply H.
      * specialize (H (S i) lb0 ub0 H0). rewrite <- Nat.add_succ_comm in H. apply H.
Qed.

Lemma box_rows_ok n : csr_ok (mkCsr n (box_rows n)).
Proof.
  unfold csr_ok, box_rows; simpl. apply Forall_forall. intros r Hr. apply in_flat_map in Hr as [k [Hk Hr]].
  apply in_seq in Hk. simpl in Hr. destruct Hr as [<-|[<-|[]]]; repeat constructor; simpl; lia.
Qed.

Lemma box_rows_length n : List.length (box_rows n) = 2 * n.
Proof. unfold box_rows. generalize 0 at 1. induction n; intro s; simpl; auto. rewrite IHn. lia. Qed.

Section WithSolver.
Variable solve : solver.
Hypothesis Hsolve : solver_ok solve.

Lemma from_box_in box mid hi l : from_box solve box mid hi = Ok l ->
  l_dims l = List.length box /\ (forall p, in_lp l p <-> in_box box p)
  /\ forall i lb ub, nth_error box i = Some (lb, ub) -> (lb <= ub)%Q.
Proof.
  unfold from_box. intro H. inv_bind H. apply assert_ok in H1.
  apply from_constraints_in_full in H as [Hd H]; auto using box_rows_ok. simpl in *.
  split; auto. split.
  - intro p. rewrite H. unfold box_rows. rewrite box_poly_aux. simpl. reflexivity.
  - intros i lb ub Hi. rewrite forallb_forall in H1. specialize (H1 (lb, ub)). simpl in H1.
    apply Qle_bool_iff, H1. eapply nth_error_In; eauto.
Qed.

Lemma from_box_total box mid hi : solver_complete solve ->
  (forall i lb ub, nth_error box i = Some (lb, ub) -> (lb <= ub)%Q) -> exists l, from_box solve box mid hi = Ok l.
Proof.
  intros Hc Hb. unfold from_box. replace (forallb _ box) with true.
  - simpl. apply from_constraints_total; auto using box_rows_ok.
    + unfold c_nr. simpl. rewrite box_rows_length, box_rhs_length. auto.
    + simpl. exists (fun i => fst (nth i box (0, 0)%Q)). unfold box_rows. apply box_poly_aux.
      intros i lb ub Hi. rewrite (nth_error_nth _ _ _ Hi : nth (0 + i) box (0,0)%Q = (lb, ub)). simpl. split; [lra|eauto].
  - symmetry. apply forallb_forall. intros [lb ub] Hin. apply In_nth_error in Hin as [i Hi]. apply Qle_bool_iff. simpl. eauto.
Qed.

Lemma from_box_error box mid hi i lb ub :
  nth_error box i = Some (lb, ub) -> (ub < lb)%Q -> from_box solve box mid hi = Err EAssert.
Proof.
  intros Hi Hlt. unfold from_box. replace (forallb _ box) with false; [reflexivity|].
  symmetry. apply not_true_is_false. intro H. rewrite forallb_forall in H. specialize (H (lb, ub) (nth_error_In _ _ Hi)).
  apply Qle_bool_iff in H. simpl in H. lra.
Qed.

(** ** from_zonotope *)
Lemma ldot_unit_scaled (v : Q) s n i off x :
  (ldot (map (fun j => if Nat.eqb j i then v else 0%Q) (seq s n)) off x ==
   (if (s <=? i) && (i <? s + n) then v * x (off + (i - s))%nat else 0))%Q.
Proof.
  rewrite (ldot_map_ext _ (fun c => v * (if Nat.eqb c i then 1 else 0))%Q).
  - rewrite ldot_map_scale, ldot_unit_aux. destruct ((s <=? i) && (i <? s + n)); ring.
  - intro c. destruct (Nat.eqb c i); ring.
Qed.

Lemma ldot_app a b off x : (ldot (a ++ b) off x == ldot a off x + ldot b (off + List.length a) x)%Q.
Proof.
  revert off; induction a as [|v a IH]; intro off; simpl; [rewrite Nat.add_0_r; ring|].
  rewrite IH. rewrite <- Nat.add_succ_comm. ring.
Qed.

Lemma ldot_gens gens dim off x :
  (ldot (map (fun g => nth dim g 0) gens) off x == gen_sum gens (fun k => x (off + k)%nat) dim)%Q.
Proof.
  revert off; induction gens as [|g gens IH]; intro off; simpl; [reflexivity|].
  rewrite IH. rewrite Nat.add_0_r.
  assert (E : forall a b, (forall k, (a k == b k)%Q) -> (gen_sum gens a dim == gen_sum gens b dim)%Q).
  { clear. induction gens as [|g gens IH]; intros a b H; simpl; [reflexivity|]. rewrite H. rewrite (IH _ (fun k => b (S k))); [reflexivity|auto]. }
  rewrite (E (fun k => x (S off + k)%nat) (fun k => x (off + S k)%nat)); [ring|]. intro k.
  replace (S off + k) with (off + S k) by lia. reflexivity.
Qed.

Lemma gen_sum_ext gens a b dim : (forall k, k < List.length gens -> (a k == b k)%Q) -> (gen_sum gens a dim == gen_sum gens b dim)%Q.
Proof.
  revert a b; induction gens as [|g gens IH]; intros a b H; simpl; [reflexivity|].
  rewrite (H 0) by (simpl; lia). rewrite (IH _ (fun k => b (S k))); [reflexivity|]. intros k Hk. apply H. simpl; lia.
Qed.

Lemma reval_zono_dim_row center gens dim x : dim < List.length center ->
  (reval (dense_row (zono_dim_row center gens dim) 0) x ==
   - x dim + nth dim center 0 * x (List.length center) + gen_sum gens (fun k => x (List.length center + 1 + k)%nat) dim)%Q.
Proof.
  intro H. rewrite reval_dense. unfold zono_dim_row. rewrite !ldot_app, ldot_unit_scaled, ldot_gens.
  rewrite map_length, seq_length. cbn [Nat.leb andb]. simpl ((0 + _))%nat.
  destruct (Nat.ltb_spec dim (List.length center)); [|lia]. rewrite Nat.sub_0_r. simpl. ring.
Qed.

Lemma poly_flat_gen cdims dims gs s x : cdims + 1 + s + List.length gs <= dims ->
  poly (map (fun r => dense_row r 0) (flat_map (zono_gen_rows dims cdims) (seq s (List.length gs))))
       (flat_map (fun _ : list Q => [1%Q; 1%Q]) gs) x <->
  forall k, k < List.length gs -> (-1 <= x (cdims + 1 + s + k)%nat /\ x (cdims + 1 + s + k)%nat <= 1)%Q.
Proof.
  revert s; induction gs as [|g gs IH]; intros s Hs; simpl.
  - split; [intros; lia|intro; apply poly_nil].
  - simpl in Hs. rewrite !poly_cons, IH by lia. rewrite !reval_dense, !ldot_unit_scaled. simpl.
    destruct (Nat.ltb_spec (cdims + 1 + s) dims); [|lia]. rewrite !Nat.sub_0_r. split.
    + intros (H1 & H2 & H3) [|k] Hk.
      * rewrite Nat.add_0_r. lra.
      * replace (cdims + 1 + s + S k) with (cdims + 1 + S s + k) by lia. apply H3; lia.
    + intro H0. assert (H1 := H0 0 ltac:(lia)). rewrite Nat.add_0_r in H1. split; [lra|]. split; [lra|].
      intros k Hk. replace (cdims + 1 + S s + k) with (cdims + 1 + s + S k) by lia. apply H0; lia.
Qed.

Lemma ldot_map_neg l off x : (ldot (map (fun v => (-1 * v)%Q) l) off x == -1 * ldot l off x)%Q.
Proof. revert off; induction l as [|a l IH]; intro off; cbn [map ldot]; [ring|]. rewrite (IH (S off)). ring. Qed.

Lemma poly_flat_dim center gens ds (cl : list Q) x :
  (forall d, In d ds -> d < List.length center) -> List.length ds = List.length cl ->
  poly (map (fun r => dense_row r 0)
         (flat_map (fun dim => [zono_dim_row center gens dim; map (fun v => (-1 * v)%Q) (zono_dim_row center gens dim)]) ds))
       (flat_map (fun _ : Q => [0%Q; 0%Q]) cl) x <->
  forall d, In d ds -> (x d == nth d center 0 * x (List.length center) + gen_sum gens (fun k => x (List.length center + 1 + k)%nat) d)%Q.
Proof.
  revert cl; induction ds as [|d ds IH]; intros [|c cl] Hd Hl; simpl in *; try discriminate.
  - split; [tauto|intro; apply poly_nil].
  - rewrite !poly_cons, IH by auto.
    assert (E2 : (reval (dense_row (map (fun v => (-1 * v)%Q) (zono_dim_row center gens d)) 0) x ==
                  -1 * reval (dense_row (zono_dim_row center gens d) 0) x)%Q).
    { rewrite !reval_dense. apply ldot_map_neg. }
    rewrite E2. rewrite reval_zono_dim_row by auto. split.
    + intros (H1 & H2 & H3) d' [->|Hin]; [lra|auto].
    + intro H. assert (H0 := H d (or_introl eq_refl)). repeat split; try lra. intros d' Hin. apply H; auto.
Qed.

Lemma flat_map_const_length {A B} (c : list B) (l : list A) : List.length (flat_map (fun _ => c) l) = List.length c * List.length l.
Proof. induction l; simpl; [lia|]. rewrite app_length, IHl. lia. Qed.

Lemma flat_map_len {A B} (f : A -> list B) k l : (forall a, List.length (f a) = k) -> List.length (flat_map f l) = k * List.length l.
Proof. intro H. induction l; simpl; [lia|]. rewrite app_length, IHl, H. lia. Qed.

Lemma from_zonotope_in center gens mid hi l : from_zonotope solve center gens mid hi = Ok l ->
  l_dims l = List.length center /\ forall p, in_lp l p <-> in_zonotope center gens p.
Proof.
  unfold from_zonotope. intro H. inv_bind H. apply assert_ok in H1. rewrite forallb_forall in H1.
  set (cd := List.length center) in *. set (dims := cd + 1 + List.length gens) in *.
  match type of H with from_constraints _ ?m0 ?r0 _ _ _ _ = _ => set (M := m0) in *; set (R := r0) in * end.
  assert (Hok : csr_ok M).
  { unfold csr_ok, M. simpl. repeat constructor.
    1,2: apply row_cols_lt_dense; rewrite map_length, seq_length; lia.
    apply Forall_map, Forall_forall. intros r Hr. apply row_cols_lt_dense. rewrite !in_app_iff in Hr.
    destruct Hr as [Hr|Hr]; apply in_flat_map in Hr as [k [Hk Hr]]; apply in_seq in Hk.
    - unfold zono_gen_rows in Hr. simpl in Hr. destruct Hr as [<-|[<-|[]]]; rewrite map_length, seq_length; lia.
    - assert (L : List.length (zono_dim_row center gens k) = dims).
      { unfold zono_dim_row. rewrite !app_length, !map_length, seq_length. simpl. unfold dims, cd. lia. }
      simpl in Hr. destruct Hr as [<-|[<-|[]]]; rewrite ?map_length, L; lia. }
  pose proof (from_constraints_wf solve Hsolve _ _ _ _ None (Some cd) _ 0 Hok I H) as (_ & Hd & _).
  split; [exact Hd|]. intro p.
  rewrite (from_constraints_in solve Hsolve _ _ _ _ None (Some cd) _ Hok I H). rewrite Hd. simpl fc_dims.
  assert (HP : forall x, tpoly (c_rows M) (fc_types R None) R x <->
     (x cd == 1)%Q /\ (forall k, k < List.length gens -> (-1 <= x (cd + 1 + k)%nat /\ x (cd + 1 + k)%nat <= 1)%Q)
     /\ forall d, d < cd -> (x d == nth d center 0 * x cd + gen_sum gens (fun k => x (cd + 1 + k)%nat) d)%Q).
  { intro x. unfold fc_types. rewrite tpoly_UP by auto. unfold M, R. cbn [c_rows].
    rewrite map_app. rewrite poly_app by reflexivity.
    rewrite map_app. rewrite poly_app.
    2:{ rewrite map_length, (flat_map_len _ 2) by reflexivity. rewrite seq_length, flat_map_const_length. reflexivity. }
    simpl (map (fun r => dense_row r 0) [_; _]). rewrite !poly_cons, !reval_dense, !ldot_unit_scaled.
    simpl ((0 <=? cd)). cbn [andb]. destruct (Nat.ltb_spec cd (0 + dims)); [|unfold dims in *; lia].
    rewrite Nat.sub_0_r, Nat.add_0_l.
    rewrite (poly_flat_gen cd dims gens 0) by (unfold dims; lia).
    rewrite poly_flat_dim. 2: { intros d Hd'. apply in_seq in Hd'. unfold cd in *; lia. } 2: { rewrite seq_length; auto. }
    rewrite Nat.add_0_r. fold cd. split.
    - intros ((A & B & _) & C & D). split; [lra|]. split; auto. intros d Hdd. apply D. apply in_seq. lia.
    - intros (A & B & C). repeat split; try lra; auto using poly_nil; try (apply B; auto).
      intros d Hd'. apply C. apply in_seq in Hd'. lia. }
  split.
  - intros (x & Hx & Hp). apply HP in Hx as (H2 & H3 & H4). exists (fun k => x (cd + 1 + k)). split; auto.
    intros i Hi. rewrite <- (Hp i) by auto. rewrite (H4 i) by auto. rewrite H2. ring.
  - intros (a0 & Ha & Hp).
    exists (fun c => if c <? cd then p c else if c =? cd then 1%Q else a0 (c - cd - 1)). split.
    + apply HP. split; [rewrite Nat.ltb_irrefl, Nat.eqb_refl; reflexivity|].
      assert (E : forall k, (if cd + 1 + k <? cd then p (cd + 1 + k) else if cd + 1 + k =? cd then 1%Q else a0 (cd + 1 + k - cd - 1)) = a0 k).
      { intro k. destruct (Nat.ltb_spec (cd + 1 + k) cd); [lia|]. destruct (Nat.eqb_spec (cd + 1 + k) cd); [lia|]. f_equal; lia. }
      split.
      * intros k Hk. rewrite E. auto.
      * intros d Hdd. rewrite (proj2 (Nat.ltb_lt _ _) Hdd). rewrite Nat.ltb_irrefl, Nat.eqb_refl. rewrite (Hp d Hdd).
        apply Qplus_comp; [ring|]. symmetry. apply gen_sum_ext. intros k _. rewrite E. reflexivity.
    + intros i Hi. rewrite (proj2 (Nat.ltb_lt _ _) Hi). reflexivity.
Qed.

Lemma from_zonotope_error center gens mid hi g :
  In g gens -> List.length g <> List.length center -> from_zonotope solve center gens mid hi = Err EAssert.
Proof.
  intros Hg Hl. unfold from_zonotope. replace (forallb _ gens) with false; [reflexivity|].
  symmetry. apply not_true_is_false. intro H. rewrite forallb_forall in H. specialize (H g Hg). apply Nat.eqb_eq in H. auto.
Qed.

(** ** from_input_constraints *)
Lemma from_input_constraints_in B C d mid hi l :
  csr_ok B -> csr_ok C -> c_nc C = c_nc B -> c_nr C = List.length d ->
  from_input_constraints solve B C d mid hi = Ok l ->
  l_dims l = c_nr B /\ forall p, in_lp l p <-> in_input_set B C d p.
Proof.
  intros HB HC Hw Hr. unfold from_input_constraints. intro H.
  set (n := c_nr B) in *.
  match type of H with from_constraints _ ?m0 ?r0 _ _ (Some (?t0, ?n0)) _ = _ =>
    set (M := m0) in *; set (R := r0) in *; set (T := t0) in *; set (N := n0) in * end.
  assert (Hrows : forall i co, nth_error (c_rows M) i = Some co ->
     (i < n /\ exists r, nth_error (c_rows B) i = Some r /\ co = (i, (-1)%Q) :: shift_row n r)
     \/ (n <= i /\ exists r, nth_error (c_rows C) (i - n) = Some r /\ co = shift_row n r)).
  { intros i co Hi. unfold M in Hi. cbn [c_rows] in Hi.
    destruct (Nat.lt_ge_cases i n) as [Hl|Hl].
    - left. split; auto. rewrite nth_error_app1 in Hi by (rewrite map_length, combine_length, seq_length; unfold n, c_nr in *; lia).
      rewrite nth_error_map in Hi. destruct (nth_error (combine (seq 0 n) (c_rows B)) i) as [[k r]|] eqn:E; inversion Hi; subst.
      assert (Hk : nth_error (c_rows B) i = Some r /\ k = i).
      { assert (Hir : exists r', nth_error (c_rows B) i = Some r').
        { destruct (nth_error (c_rows B) i) eqn:E'; eauto. apply nth_error_None in E'. unfold n, c_nr in *; lia. }
        destruct Hir as [r' Hr']. rewrite (nth_error_nth' _ (0, [] : srow)) in E by (rewrite combine_length, seq_length; unfold n, c_nr in *; lia).
        rewrite combine_nth in E by (rewrite seq_length; reflexivity). rewrite seq_nth in E by auto. inversion E; subst.
        split; auto. rewrite (nth_error_nth _ _ _ Hr'). auto. }
      destruct Hk as [Hk ->]. exists r; auto.
    - right. split; auto. rewrite nth_error_app2 in Hi by (rewrite map_length, combine_length, seq_length; unfold n, c_nr in *; lia).
      rewrite map_length, combine_length, seq_length in Hi. replace (Nat.min n (List.length (c_rows B))) with n in Hi by (unfold n, c_nr; lia).
      rewrite nth_error_map in Hi. destruct (nth_error (c_rows C) (i - n)) as [r|]; inversion Hi; subst; eauto. }
  assert (HBn : forall i, i < n -> exists r, nth_error (c_rows B) i = Some r).
  { intros i Hi. destruct (nth_error (c_rows B) i) eqn:E'; eauto. apply nth_error_None in E'. unfold n, c_nr in *; lia. }
  assert (Hrows1 : forall i r, nth_error (c_rows B) i = Some r -> nth_error (c_rows M) i = Some ((i, (-1)%Q) :: shift_row n r)).
  { intros i r Hi. assert (i < n) by (unfold n, c_nr; apply nth_error_Some; congruence).
    unfold M. cbn [c_rows]. rewrite nth_error_app1 by (rewrite map_length, combine_length, seq_length; unfold n, c_nr in *; lia).
    rewrite nth_error_map. rewrite (nth_error_nth' _ (0, [] : srow)) by (rewrite combine_length, seq_length; unfold n, c_nr in *; lia).
    rewrite combine_nth by (rewrite seq_length; reflexivity). rewrite seq_nth by auto. rewrite (nth_error_nth _ _ _ Hi). reflexivity. }
  assert (Hrows2 : forall i r, nth_error (c_rows C) i = Some r -> nth_error (c_rows M) (n + i) = Some (shift_row n r)).
  { intros i r Hi. unfold M. cbn [c_rows]. rewrite nth_error_app2 by (rewrite map_length, combine_length, seq_length; unfold n, c_nr in *; lia).
    rewrite map_length, combine_length, seq_length. replace (Nat.min n (List.length (c_rows B))) with n by (unfold n, c_nr; lia).
    replace (n + i - n) with i by lia. rewrite nth_error_map, Hi. reflexivity. }
  assert (Hok : csr_ok M).
  { unfold csr_ok in *. apply Forall_nth_error. rewrite Forall_nth_error in HB, HC. unfold M at 2. cbn [c_nc]. intros i co Hi.
    apply Hrows in Hi as [(Hi & r & Hr' & ->)|(Hi & r & Hr' & ->)].
    - constructor; [simpl; lia|]. apply row_cols_lt_shift. eauto.
    - apply row_cols_lt_shift. rewrite <- Hw. eauto. }
  assert (HN : List.length N = c_nc M).
  { unfold N, M. simpl. rewrite app_length, !map_length, !seq_length. reflexivity. }
  pose proof (from_constraints_wf solve Hsolve _ _ _ _ (Some (T, N)) (Some n) _ 0 Hok HN H) as (_ & Hd & _).
  split; [exact Hd|]. intro p.
  rewrite (from_constraints_in solve Hsolve _ _ _ _ (Some (T, N)) (Some n) _ Hok HN H). rewrite Hd. simpl fc_dims. simpl fc_types.
  assert (HP : forall x, tpoly (c_rows M) T R x <-> (forall i r, nth_error (c_rows B) i = Some r -> (x i == reval r (fun k => x (n + k)%nat))%Q)
      /\ poly (c_rows C) d (fun k => x (n + k))).
  { intro x. unfold tpoly. split.
    - intro Hx. split.
      + intros i r Hi. assert (i < n) by (unfold n, c_nr; apply nth_error_Some; congruence).
        assert (S := Hx i _ FX 0%Q (Hrows1 _ _ Hi)). unfold row_sat in S. simpl in S. rewrite reval_shift in S.
        assert ((-1 * x i + reval r (fun k => x (n + k)%nat) == 0)%Q).
        { apply S; [unfold T|unfold R]; rewrite nth_error_app1 by (rewrite repeat_length; auto); apply nth_error_repeat; auto. }
        lra.
      + intros i r c Hi Hc. assert (S := Hx (n + i) _ UP c (Hrows2 _ _ Hi)). unfold row_sat in S. simpl in S. rewrite reval_shift in S.
        assert (i < c_nr C) by (unfold c_nr; apply nth_error_Some; congruence).
        apply S; [unfold T|unfold R]; rewrite nth_error_app2 by (rewrite repeat_length; lia); rewrite repeat_length; replace (n + i - n) with i by lia; auto.
        apply nth_error_repeat; auto.
    - intros [H1 H2] i co t c E1 E2 E3. apply Hrows in E1 as [(Hi & r & Hr' & ->)|(Hi & r & Hr' & ->)].
      + unfold T in E2. unfold R in E3. rewrite nth_error_app1 in E2, E3 by (rewrite repeat_length; auto).
        apply nth_error_repeat in E2 as [_ ->]. apply nth_error_repeat in E3 as [_ ->].
        unfold row_sat. simpl. rewrite reval_shift. rewrite (H1 i r Hr'). ring.
      + unfold T in E2. unfold R in E3. rewrite nth_error_app2 in E2, E3 by (rewrite repeat_length; auto).
        rewrite repeat_length in E2, E3.
        apply nth_error_repeat in E2 as [_ ->].
        unfold row_sat. simpl. rewrite reval_shift. eapply H2; eauto. }
  split.
  - intros (x & Hx & Hp). apply HP in Hx as [H1 H2]. exists (fun k => x (n + k)). split; auto.
    intros i r Hi. assert (i < n) by (unfold n, c_nr; apply nth_error_Some; congruence). rewrite <- (Hp i) by auto. auto.
  - intros (u & Hu & Hp). exists (fun c => if c <? n then p c else u (c - n)). split.
    + apply HP.
      assert (E : forall k, (if n + k <? n then p (n + k) else u (n + k - n)) = u k).
      { intro k. destruct (Nat.ltb_spec (n + k) n); [lia|]. f_equal; lia. }
      split.
      * intros i r Hi. assert (Hin : i < n) by (unfold n, c_nr; apply nth_error_Some; congruence).
        rewrite (proj2 (Nat.ltb_lt _ _) Hin). rewrite (Hp i r Hi). apply reval_ext. intros c a _. rewrite E. reflexivity.
      * eapply (poly_ext (c_rows C) d (c_nc C)); [exact HC| |exact Hu]. intros k _. rewrite E. reflexivity.
    + intros i Hi. rewrite (proj2 (Nat.ltb_lt _ _) Hi). reflexivity.
Qed.

End WithSolver.
