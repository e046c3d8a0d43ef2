(** lputil.aggregate_chull: disjunctive (homogenised) encoding of the convex hull. *)
From Verif Require Import Base BaseFacts LpModel LpSpec SetSpec LpFacts LpWf LpUtil SetFacts SetFacts2 MinkFacts OpsFacts OpsFacts2 OpsFacts3 OpsFacts4 AggFacts ApiSpec ApiFacts.
Open Scope nat_scope.

(** row with its right-hand side scaled by s *)
Definition row_hsat (r : row) (s : Q) (x : vec) : Prop :=
  match r_ty r with FX => (reval (r_co r) x == s * r_rhs r)%Q | _ => (reval (r_co r) x <= s * r_rhs r)%Q end.
Definition hsat (l : lp) (s : Q) (x : vec) : Prop := Forall (fun r => row_hsat r s x) (l_rows l).

Definition join (l : lp) (a b : vec) : vec :=
  fun c => if c <? l_cvo l then b c else if c <? l_cvo l + l_dims l then a (c - l_cvo l) else b (c - l_dims l).

Lemma reval_split l co a b : (reval (row_A l co) a + reval (row_L l co) b == reval co (join l a b))%Q.
Proof.
  unfold row_A, row_L. rewrite reval_app. induction co as [|[c v] co IH]; [simpl; ring|].
  cbn [filter fst]. unfold join at 1. cbn [reval]. fold (join l a b).
  destruct (Nat.leb_spec (l_cvo l) c), (Nat.ltb_spec c (l_cvo l + l_dims l)), (Nat.ltb_spec c (l_cvo l)), (Nat.leb_spec (l_cvo l + l_dims l) c);
    try lia; cbn [andb map reval fst snd]; rewrite <- IH;
    unfold join; destruct (Nat.ltb_spec c (l_cvo l)), (Nat.ltb_spec c (l_cvo l + l_dims l)); try lia; ring.
Qed.

Lemma reval_scale_vec k r x : (reval r (fun c => k * x c) == k * reval r x)%Q.
Proof. induction r as [|[c a] r IH]; simpl; [ring|]. rewrite IH. ring. Qed.
Lemma reval_add_vec r x y : (reval r (fun c => x c + y c) == reval r x + reval r y)%Q.
Proof. induction r as [|[c a] r IH]; simpl; [ring|]. rewrite IH. ring. Qed.

Lemma row_A_cols l co : row_cols_lt (l_dims l) (row_A l co).
Proof.
  unfold row_A, row_cols_lt. apply Forall_map. apply Forall_forall. intros [c v] H. apply filter_In in H as [_ H]. cbn [fst] in *.
  apply andb_true_iff in H as [H1 H2]. apply Nat.leb_le in H1. apply Nat.ltb_lt in H2. lia.
Qed.
Lemma row_L_cols l co : l_cvo l + l_dims l <= l_nc l -> row_cols_lt (l_nc l) co -> row_cols_lt (l_nc l - l_dims l) (row_L l co).
Proof.
  intros Hl H. unfold row_L. apply row_cols_lt_app. split.
  - apply Forall_forall. intros [c v] Hc. apply filter_In in Hc as [_ Hc]. cbn [fst] in *. apply Nat.ltb_lt in Hc. lia.
  - unfold row_cols_lt. apply Forall_map. apply Forall_forall. intros [c v] Hc. apply filter_In in Hc as [Hc H2]. cbn [fst] in *.
    apply Nat.leb_le in H2. eapply row_cols_lt_In in H; eauto. lia.
Qed.

(** ** The two-set encoding *)
Section Two.
Variables l1 l2 : lp.
Let dims := l_dims l1.
Let w1 := l_nc l1 - dims.
Let w2 := l_nc l2 - dims.
Let acol := 2 * dims + w1 + w2.
Let topco (r : row) : srow :=
  row_A l1 (r_co r) ++ shift_row dims (row_A l1 (r_co r)) ++ shift_row (2 * dims) (row_L l1 (r_co r)) ++ [(acol, row_ub r)].
Let botco (r : row) : srow :=
  shift_row dims (scale_row (-1)%Q (row_A l2 (r_co r))) ++ shift_row (2 * dims + w1) (row_L l2 (r_co r)) ++ [(acol, (- row_ub r)%Q)].

Lemma mk_rows_map {A} (f : A -> rty) (g : A -> srow) (h : A -> Q) (l : list A) :
  mk_rows (map f l) (map g l) (map h l) = map (fun a => mkRow (f a) (g a) (h a)) l.
Proof. induction l; simpl; f_equal; auto. Qed.
Lemma zip_rows_app t1 t2 b1 b2 : List.length t1 = List.length b1 -> zip_rows (t1 ++ t2) (b1 ++ b2) = zip_rows t1 b1 ++ zip_rows t2 b2.
Proof. revert b1; induction t1 as [|t t1 IH]; intros [|b b1] H; try discriminate; simpl; f_equal; auto. Qed.
Lemma repeat_map {A B} (b : B) (l : list A) : repeat b (List.length l) = map (fun _ => b) l.
Proof. induction l; simpl; f_equal; auto. Qed.

Lemma chull2_shape l : chull2 l1 l2 = Ok l ->
  l_dims l2 = dims /\ l_dims l = dims /\ l_cvo l = 0 /\ l_nc l = acol + 1 /\
  l_rows l = map (fun r => mkRow (r_ty r) (topco r) (row_ub r)) (l_rows l1) ++ map (fun r => mkRow (r_ty r) (botco r) 0%Q) (l_rows l2).
Proof.
  intro H. unfold chull2 in H. apply bind_ok in H as (u & Hu & H). apply assert_ok, Nat.eqb_eq in Hu.
  apply bind_ok in H as (la & Ha & H). apply bind_ok in H as (lb & Hb & H). apply bind_ok in H as (lc & Hc & H).
  injection H as <-. cbn [l_dims l_cvo l_rows]. split; auto. split; auto. split; auto.
  unfold add_rows_with_types in Ha. apply bind_ok in Ha as (u1 & _ & Ha). injection Ha as <-.
  apply set_constraints_csr_ok in Hb as (-> & Hb & _). apply set_constraints_csr_ok in Hc as (-> & Hc & _).
  cbn [l_names with_rows l_nc fst snd c_rows c_nc]. split.
  - unfold l_nc, add_cols. cbn [l_names with_rows with_names lp_new]. rewrite !app_length, !map_length, !seq_length. cbn [List.length]. unfold acol, w1, w2, dims, l_nc. lia.
  - cbn [l_rows with_rows add_cols with_names lp_new app]. rewrite !map_shift_row_0, set_coefs_0.
    rewrite zip_rows_app by (unfold get_types, get_rhs; rewrite !map_length; auto).
    rewrite overwrite_app by (unfold get_types, get_rhs; rewrite zip_rows_length; rewrite !map_length; auto).
    rewrite overwrite_zip_rows by (unfold get_types, get_rhs; rewrite !map_length; auto).
    unfold get_types, get_rhs at 1. rewrite mk_rows_map. unfold l_nr at 1.
    replace (List.length (l_rows l1)) with (List.length (map (fun r => mkRow (r_ty r) (topco r) (row_ub r)) (l_rows l1))) by apply map_length.
    rewrite set_coefs_end. f_equal.
    rewrite overwrite_zip_rows by (unfold get_types, l_nr; rewrite ?map_length, ?repeat_length; auto).
    unfold l_nr. rewrite repeat_map, mk_rows_map. reflexivity.
Qed.

Definition za (x : vec) : Q := x acol.
Definition z1 (x : vec) : vec := join l1 (fun i => x i + x (dims + i)%nat)%Q (fun c => x (2 * dims + c)).
Definition z2 (x : vec) : vec := join l2 (fun i => - x (dims + i)%nat)%Q (fun c => x (2 * dims + w1 + c)).

Lemma topco_val r x : (reval (topco r) x == reval (r_co r) (z1 x) + row_ub r * za x)%Q.
Proof.
  unfold topco, z1, za. rewrite !reval_app, !reval_shift, <- reval_split. cbn [reval].
  rewrite (reval_add_vec (row_A l1 (r_co r)) x (fun i => x (dims + i)%nat)). ring.
Qed.
Lemma botco_val r x : (reval (botco r) x == reval (r_co r) (z2 x) - row_ub r * za x)%Q.
Proof.
  unfold botco, z2, za. rewrite !reval_app, !reval_shift, <- reval_split, reval_scale. cbn [reval].
  assert (E : (reval (row_A l2 (r_co r)) (fun i => - x (dims + i)%nat) == - reval (row_A l2 (r_co r)) (fun i => x (dims + i)%nat))%Q).
  { clear. induction (row_A l2 (r_co r)) as [|[c a] co IH]; simpl; [ring|]. rewrite IH. ring. }
  rewrite E. ring.
Qed.

Lemma chull2_sat l x : no_lo l1 -> no_lo l2 -> chull2 l1 l2 = Ok l ->
  lp_sat l x <-> hsat l1 (1 - za x) (z1 x) /\ hsat l2 (za x) (z2 x).
Proof.
  intros N1 N2 H. apply chull2_shape in H as (_ & _ & _ & _ & Hr). unfold lp_sat, hsat. rewrite Hr, Forall_app, !Forall_map.
  unfold no_lo in N1, N2. rewrite !Forall_forall in *.
  assert (E1 : forall r, In r (l_rows l1) -> row_sat (mkRow (r_ty r) (topco r) (row_ub r)) x <-> row_hsat r (1 - za x) (z1 x)).
  { intros r Hin. specialize (N1 r Hin). unfold row_sat, row_hsat. cbn [r_ty r_co r_rhs]. pose proof (topco_val r x) as E.
    assert (U : row_ub r = r_rhs r) by (unfold row_ub; destruct (r_ty r); congruence). rewrite U in *.
    destruct (r_ty r); try congruence; rewrite E; split; intro; lra. }
  assert (E2 : forall r, In r (l_rows l2) -> row_sat (mkRow (r_ty r) (botco r) 0%Q) x <-> row_hsat r (za x) (z2 x)).
  { intros r Hin. specialize (N2 r Hin). unfold row_sat, row_hsat. cbn [r_ty r_co r_rhs]. pose proof (botco_val r x) as E.
    assert (U : row_ub r = r_rhs r) by (unfold row_ub; destruct (r_ty r); congruence). rewrite U in *.
    destruct (r_ty r); try congruence; rewrite E; split; intro; lra. }
  split; intros [A B]; split; intros r Hin; [apply E1|apply E2|apply E1|apply E2]; auto.
Qed.
End Two.

(** ** Homogenised satisfaction *)
Lemma qmul_le t a b : (0 <= t)%Q -> (a <= b)%Q -> (t * a <= t * b)%Q.
Proof. intros Ht H. rewrite !(Qmult_comm t). apply Qmult_le_compat_r; auto. Qed.

Lemma hsat_scale l s t x : (0 <= t)%Q -> hsat l s x -> hsat l (t * s) (fun c => t * x c)%Q.
Proof.
  intros Ht. apply Forall_impl. intros r H. unfold row_hsat in *. pose proof (reval_scale_vec t (r_co r) x) as E.
  destruct (r_ty r); rewrite E.
  - rewrite H. ring.
  - apply (qmul_le t) in H; auto. lra.
  - apply (qmul_le t) in H; auto. lra.
Qed.
Lemma hsat_add l s t x y : hsat l s x -> hsat l t y -> hsat l (s + t) (fun c => x c + y c)%Q.
Proof.
  unfold hsat. rewrite !Forall_forall. intros H1 H2 r Hr. specialize (H1 r Hr). specialize (H2 r Hr). unfold row_hsat in *.
  pose proof (reval_add_vec (r_co r) x y) as E. destruct (r_ty r); rewrite E; lra.
Qed.
Lemma hsat_ext l s t x y : lp_cols_ok l -> (s == t)%Q -> veq (l_nc l) x y -> hsat l s x -> hsat l t y.
Proof.
  intros Hc Hs Hv. unfold hsat, lp_cols_ok in *. rewrite !Forall_forall in *. intros H r Hr. specialize (H r Hr). specialize (Hc r Hr).
  unfold row_hsat in *. pose proof (reval_ext_lt _ _ _ _ Hc Hv) as E. destruct (r_ty r); rewrite <- E, <- Hs; exact H.
Qed.
Lemma hsat_1 l x : no_lo l -> hsat l 1 x <-> lp_sat l x.
Proof.
  unfold no_lo, hsat, lp_sat. rewrite !Forall_forall. intro N. split; intros H r Hr; specialize (H r Hr); specialize (N r Hr); unfold row_hsat, row_sat in *;
    destruct (r_ty r); try congruence; lra.
Qed.
Definition red (l : lp) : lp := add_rows_le l [1%Q].
Lemma hsat_red l s x : hsat (red l) s x <-> hsat l s x /\ (0 <= s)%Q.
Proof.
  unfold hsat, red, add_rows_le. cbn [l_rows with_rows map]. rewrite Forall_app. split; intros [H1 H2]; split; auto.
  - inversion H2 as [|? ? Hr _]; subst. unfold row_hsat in Hr. cbn in Hr. lra.
  - constructor; [|constructor]. unfold row_hsat. cbn. lra.
Qed.
Lemma red_lp_ok l : lp_ok l -> lp_ok (red l).
Proof.
  intros [H1 H2]. split; [|exact H2]. unfold lp_cols_ok, red, add_rows_le in *. cbn [l_rows with_rows map]. apply Forall_app. split; auto.
  constructor; constructor.
Qed.
Lemma red_no_lo l : no_lo l -> no_lo (red l).
Proof. unfold no_lo, red, add_rows_le. cbn [l_rows with_rows map]. rewrite Forall_app. split; auto. constructor; [discriminate|constructor]. Qed.

(** convexity and emptiness facts of a single set *)
Definition mix (a : Q) (p q : vec) : vec := fun i => ((1 - a) * p i + a * q i)%Q.

Lemma in_lp_convex l a p q : no_lo l -> (0 <= a)%Q -> (a <= 1)%Q -> in_lp l p -> in_lp l q -> in_lp l (mix a p q).
Proof.
  intros N H0 H1 (x & Hx & Ex) (y & Hy & Ey). exists (mix a x y). split.
  - apply (hsat_1 l _ N). apply (hsat_1 l x N) in Hx. apply (hsat_1 l y N) in Hy.
    assert (A := hsat_add _ _ _ _ _ (hsat_scale l 1 (1 - a) x ltac:(lra) Hx) (hsat_scale l 1 a y H0 Hy)).
    unfold hsat in *. eapply Forall_impl; [|exact A]. intros r Hr. unfold row_hsat, mix in *. destruct (r_ty r); lra.
  - intros i Hi. unfold mix. rewrite Ex, Ey by auto. reflexivity.
Qed.

(** ** Hull of two sets *)
Section Hull2.
Variables (l1 l2 l : lp).
Hypothesis (O1 : lp_ok l1) (O2 : lp_ok l2) (N1 : no_lo l1) (N2 : no_lo l2).
Hypothesis (Hrun : chull2 (red l1) (red l2) = Ok l).
Let n := l_dims l1.

Lemma hull2_dims : l_dims l2 = n /\ l_dims l = n /\ l_cvo l = 0.
Proof. apply chull2_shape in Hrun as (H1 & H2 & H3 & _). auto. Qed.

Definition unj (l : lp) (x : vec) : vec := fun c => if c <? l_cvo l then x c else x (c + l_dims l).

Lemma hull2_contains a p1 p2 p : (0 <= a)%Q -> (a <= 1)%Q -> in_lp l1 p1 -> in_lp l2 p2 -> veq n p (mix a p1 p2) -> in_lp l p.
Proof.
  intros Ha0 Ha1 (x1 & S1 & E1) (x2 & S2 & E2) Hp. destruct hull2_dims as (D2 & D & C). fold n in E1. rewrite D2 in E2.
  set (w1 := l_nc l1 - n). set (w2 := l_nc l2 - n).
  set (x := fun c => if c <? n then p c else if c <? 2 * n then (- (a * p2 (c - n)%nat))%Q
                     else if c <? 2 * n + w1 then ((1 - a) * unj l1 x1 (c - 2 * n)%nat)%Q
                     else if c <? 2 * n + w1 + w2 then (a * unj l2 x2 (c - (2 * n + w1))%nat)%Q else a).
  destruct O1 as [Oc1 Ov1]. destruct O2 as [Oc2 Ov2].
  exists x. rewrite D, C. split.
  - apply (chull2_sat (red l1) (red l2) l x (red_no_lo _ N1) (red_no_lo _ N2) Hrun).
    assert (Ea : za (red l1) (red l2) x = a).
    { unfold za, x. change (l_dims (red l1)) with n. change (l_nc (red l1)) with (l_nc l1). change (l_nc (red l2)) with (l_nc l2).
      fold w1 w2. destruct (Nat.ltb_spec (2 * n + w1 + w2) n), (Nat.ltb_spec (2 * n + w1 + w2) (2 * n)), (Nat.ltb_spec (2 * n + w1 + w2) (2 * n + w1)),
        (Nat.ltb_spec (2 * n + w1 + w2) (2 * n + w1 + w2)); try lia. reflexivity. }
    rewrite Ea. split; apply hsat_red; (split; [|lra]).
    + apply (hsat_ext l1 ((1 - a) * 1) (1 - a) (fun c => (1 - a) * x1 c)%Q); auto; [ring| |].
      * intros c Hc. unfold z1, join. change (l_dims (red l1)) with n. change (l_cvo (red l1)) with (l_cvo l1). unfold x.
        fold n in Ov1.
        destruct (Nat.ltb_spec c (l_cvo l1)).
        -- destruct (Nat.ltb_spec (2 * n + c) n), (Nat.ltb_spec (2 * n + c) (2 * n)), (Nat.ltb_spec (2 * n + c) (2 * n + w1)); try (unfold w1 in *; lia).
           unfold unj. replace (2 * n + c - 2 * n) with c by lia. destruct (Nat.ltb_spec c (l_cvo l1)); try lia. reflexivity.
        -- destruct (Nat.ltb_spec c (l_cvo l1 + n)).
           ++ destruct (Nat.ltb_spec (c - l_cvo l1) n), (Nat.ltb_spec (n + (c - l_cvo l1)) n), (Nat.ltb_spec (n + (c - l_cvo l1)) (2 * n)); try lia.
              rewrite (Hp (c - l_cvo l1)) by lia. unfold mix. replace (n + (c - l_cvo l1) - n) with (c - l_cvo l1) by lia.
              rewrite <- (E1 (c - l_cvo l1)) by lia. replace (l_cvo l1 + (c - l_cvo l1)) with c by lia. ring.
           ++ destruct (Nat.ltb_spec (2 * n + (c - n)) n), (Nat.ltb_spec (2 * n + (c - n)) (2 * n)), (Nat.ltb_spec (2 * n + (c - n)) (2 * n + w1)); try (unfold w1 in *; lia).
              unfold unj. fold n. replace (2 * n + (c - n) - 2 * n) with (c - n) by lia. destruct (Nat.ltb_spec (c - n) (l_cvo l1)); try lia.
              replace (c - n + n) with c by lia. reflexivity.
      * apply hsat_scale; [lra|]. apply hsat_1; auto.
    + apply (hsat_ext l2 (a * 1) a (fun c => a * x2 c)%Q); auto; [ring| |].
      * intros c Hc. unfold z2, join. change (l_dims (red l1)) with n. change (l_cvo (red l2)) with (l_cvo l2). change (l_dims (red l2)) with (l_dims l2).
        change (l_nc (red l1)) with (l_nc l1). rewrite D2 in *. fold w1. unfold x.
        destruct (Nat.ltb_spec c (l_cvo l2)).
        -- destruct (Nat.ltb_spec (2 * n + w1 + c) n), (Nat.ltb_spec (2 * n + w1 + c) (2 * n)), (Nat.ltb_spec (2 * n + w1 + c) (2 * n + w1)), (Nat.ltb_spec (2 * n + w1 + c) (2 * n + w1 + w2)); try (unfold w2 in *; lia).
           unfold unj. replace (2 * n + w1 + c - (2 * n + w1)) with c by lia. destruct (Nat.ltb_spec c (l_cvo l2)); try lia. reflexivity.
        -- destruct (Nat.ltb_spec c (l_cvo l2 + n)).
           ++ destruct (Nat.ltb_spec (n + (c - l_cvo l2)) n), (Nat.ltb_spec (n + (c - l_cvo l2)) (2 * n)); try lia.
              replace (n + (c - l_cvo l2) - n) with (c - l_cvo l2) by lia.
              rewrite <- (E2 (c - l_cvo l2)) by lia. replace (l_cvo l2 + (c - l_cvo l2)) with c by lia. ring.
           ++ destruct (Nat.ltb_spec (2 * n + w1 + (c - n)) n), (Nat.ltb_spec (2 * n + w1 + (c - n)) (2 * n)), (Nat.ltb_spec (2 * n + w1 + (c - n)) (2 * n + w1)), (Nat.ltb_spec (2 * n + w1 + (c - n)) (2 * n + w1 + w2)); try (unfold w2 in *; lia).
              unfold unj. rewrite D2. replace (2 * n + w1 + (c - n) - (2 * n + w1)) with (c - n) by lia. destruct (Nat.ltb_spec (c - n) (l_cvo l2)); try lia.
              replace (c - n + n) with c by lia. reflexivity.
      * apply hsat_scale; [lra|]. apply hsat_1; auto.
  - intros i Hi. unfold x. rewrite Nat.add_0_l. destruct (Nat.ltb_spec i n); try lia. reflexivity.
Qed.

(** recession directions of a non-empty bounded set vanish on the current variables *)
Lemma recession_zero l0 s z : lp_ok l0 -> no_lo l0 -> (exists p, in_lp l0 p) -> bounded l0 -> (s == 0)%Q -> hsat l0 s z -> forall i, i < l_dims l0 -> (z (l_cvo l0 + i)%nat == 0)%Q.
Proof.
  intros [Oc _] N (p & x & Hx & Ex) (M & HM) Hs Hz i Hi.
  destruct (Qeq_dec (z (l_cvo l0 + i)%nat) 0) as [E|E]; auto. exfalso.
  assert (Hp : (0 < Qabs (z (l_cvo l0 + i)%nat))%Q).
  { destruct (Q_dec (z (l_cvo l0 + i)%nat) 0) as [[G|G]|G]; [| |tauto].
    - rewrite Qabs_neg by lra. lra.
    - rewrite Qabs_pos by lra. exact G. }
  set (t := ((2 * M + 1) / Qabs (z (l_cvo l0 + i)%nat))%Q).
  assert (HM0 := HM p i (ex_intro _ x (conj Hx Ex)) Hi). pose proof (Qabs_nonneg (p i)) as Hp0.
  assert (Ht : (0 <= t)%Q). { unfold t. apply Qle_shift_div_l; auto. lra. }
  assert (Hin : in_lp l0 (fun k => x (l_cvo l0 + k)%nat + t * z (l_cvo l0 + k)%nat)%Q).
  { exists (fun c => x c + t * z c)%Q. split; [|intros; reflexivity]. apply hsat_1; auto.
    apply (hsat_ext l0 (1 + t * s) 1 (fun c => x c + t * z c)%Q); auto; [rewrite Hs; ring|apply veq_refl|].
    apply hsat_add; [apply hsat_1; auto|]. apply hsat_scale; auto. }
  specialize (HM _ i Hin Hi). cbn beta in HM. rewrite (Ex i Hi) in HM.
  assert (Ht2 : (Qabs (t * z (l_cvo l0 + i)%nat) == 2 * M + 1)%Q).
  { rewrite Qabs_Qmult, (Qabs_pos t Ht). unfold t. field. lra. }
  pose proof (Qabs_triangle (p i + t * z (l_cvo l0 + i)%nat) (- p i)) as T.
  assert (E3 : (p i + t * z (l_cvo l0 + i)%nat + - p i == t * z (l_cvo l0 + i)%nat)%Q) by ring.
  rewrite E3, Qabs_opp in T. lra.
Qed.

Lemma hull2_exact p : (exists q, in_lp l1 q) -> bounded l1 -> (exists q, in_lp l2 q) -> bounded l2 -> in_lp l p ->
  exists a p1 p2, (0 <= a)%Q /\ (a <= 1)%Q /\ in_lp l1 p1 /\ in_lp l2 p2 /\ veq n p (mix a p1 p2).
Proof.
  intros NE1 B1 NE2 B2 (x & Hx & Ex). destruct hull2_dims as (D2 & D & C). rewrite D, C in Ex.
  apply (chull2_sat (red l1) (red l2) l x (red_no_lo _ N1) (red_no_lo _ N2) Hrun) in Hx as [H1 H2].
  set (a := za (red l1) (red l2) x) in *. set (y1 := z1 (red l1) x) in *. set (y2 := z2 (red l1) (red l2) x) in *.
  apply hsat_red in H1 as [H1 Ha1]. apply hsat_red in H2 as [H2 Ha0].
  assert (Hsum : forall i, i < n -> (p i == y1 (l_cvo l1 + i)%nat + y2 (l_cvo l2 + i)%nat)%Q).
  { intros i Hi. rewrite <- (Ex i Hi). unfold y1, y2, z1, z2, join. change (l_dims (red l1)) with n. change (l_cvo (red l1)) with (l_cvo l1).
    change (l_cvo (red l2)) with (l_cvo l2). change (l_dims (red l2)) with (l_dims l2). rewrite D2.
    destruct (Nat.ltb_spec (l_cvo l1 + i) (l_cvo l1)), (Nat.ltb_spec (l_cvo l1 + i) (l_cvo l1 + n)); try lia.
    destruct (Nat.ltb_spec (l_cvo l2 + i) (l_cvo l2)), (Nat.ltb_spec (l_cvo l2 + i) (l_cvo l2 + n)); try lia.
    replace (l_cvo l1 + i - l_cvo l1) with i by lia. replace (l_cvo l2 + i - l_cvo l2) with i by lia. rewrite Nat.add_0_l. ring. }
  destruct O1 as [Oc1 Ov1]. destruct O2 as [Oc2 Ov2].
  destruct (Qeq_dec a 0) as [Ez|Ez].
  - (* a = 0 *)
    destruct NE2 as (q2 & Hq2). exists 0%Q, (fun i => y1 (l_cvo l1 + i)%nat), q2. split; [lra|]. split; [lra|]. split; [|split; auto].
    + exists y1. split; [|intros; reflexivity]. apply hsat_1; auto. eapply hsat_ext; [exact Oc1| |apply veq_refl|exact H1]. lra.
    + intros i Hi. unfold mix. assert (Z : (y2 (l_cvo l2 + i)%nat == 0)%Q) by (apply (recession_zero l2 a y2 (conj Oc2 Ov2) N2 (ex_intro _ q2 Hq2) B2 Ez H2); lia). rewrite (Hsum i Hi), Z. ring.
  - destruct (Qeq_dec a 1) as [Eo|Eo].
    + destruct NE1 as (q1 & Hq1). exists 1%Q, q1, (fun i => y2 (l_cvo l2 + i)%nat). split; [lra|]. split; [lra|]. split; [auto|]. split.
      * exists y2. split; [|intros; reflexivity]. apply hsat_1; auto. eapply hsat_ext; [exact Oc2|exact Eo|apply veq_refl|exact H2].
      * intros i Hi. unfold mix. assert (Z : (y1 (l_cvo l1 + i)%nat == 0)%Q) by (apply (recession_zero l1 (1 - a) y1 (conj Oc1 Ov1) N1 (ex_intro _ q1 Hq1) B1); auto; lra). rewrite (Hsum i Hi), Z. ring.
    + assert (A0 : (0 < a)%Q) by lra. assert (A1 : (0 < 1 - a)%Q) by lra.
      exists a, (fun i => / (1 - a) * y1 (l_cvo l1 + i)%nat)%Q, (fun i => / a * y2 (l_cvo l2 + i)%nat)%Q. split; [lra|]. split; [lra|]. split; [|split].
      * exists (fun c => / (1 - a) * y1 c)%Q. split; [|intros; reflexivity]. apply hsat_1; auto.
        eapply hsat_ext; [exact Oc1| |apply veq_refl|apply (hsat_scale l1 (1 - a) (/ (1 - a))); [apply Qlt_le_weak, Qinv_lt_0_compat; auto|exact H1]]. field. lra.
      * exists (fun c => / a * y2 c)%Q. split; [|intros; reflexivity]. apply hsat_1; auto.
        eapply hsat_ext; [exact Oc2| |apply veq_refl|apply (hsat_scale l2 a (/ a)); [apply Qlt_le_weak, Qinv_lt_0_compat; auto|exact H2]]. field. lra.
      * intros i Hi. unfold mix. rewrite (Hsum i Hi). field. split; lra.
Qed.
End Hull2.

(** ** Convex combinations of a list of sets *)
Lemma qsum_S f k : (qsum f (S k) == qsum f k + f k)%Q.
Proof.
  unfold qsum. rewrite seq_S, fold_right_app. cbn [fold_right]. rewrite Nat.add_0_l.
  generalize (f k + 0)%Q (f k) (Qplus_0_r (f k)). intros a b E. revert E. generalize (seq 0 k). intros s E.
  induction s as [|i s IH]; cbn [fold_right]; [lra|]. rewrite IH. ring.
Qed.
Lemma qsum_0 f : qsum f 0 = 0%Q. Proof. reflexivity. Qed.
Lemma qsum_ext f g k : (forall i, i < k -> (f i == g i)%Q) -> (qsum f k == qsum g k)%Q.
Proof. induction k as [|k IH]; intro H; [reflexivity|]. rewrite !qsum_S, IH, H; auto. reflexivity. Qed.
Lemma qsum_scale c f k : (qsum (fun i => c * f i) k == c * qsum f k)%Q.
Proof. induction k as [|k IH]; [rewrite !qsum_0; ring|]. rewrite !qsum_S, IH. ring. Qed.
Lemma qsum_add f j k : (qsum f (j + k) == qsum f j + qsum (fun i => f (j + i)%nat) k)%Q.
Proof.
  induction k as [|k IH]; [rewrite Nat.add_0_r, qsum_0; ring|].
  rewrite Nat.add_succ_r, !qsum_S, IH. ring.
Qed.
Lemma qsum_nonneg f k : (forall i, i < k -> (0 <= f i)%Q) -> (0 <= qsum f k)%Q.
Proof. induction k as [|k IH]; intro H; [rewrite qsum_0; lra|]. rewrite qsum_S. specialize (IH ltac:(auto)). specialize (H k ltac:(lia)). lra. Qed.
Lemma qsum_zero_all f k : (forall i, i < k -> (0 <= f i)%Q) -> (qsum f k == 0)%Q -> forall i, i < k -> (f i == 0)%Q.
Proof.
  induction k as [|k IH]; intros H E i Hi; [lia|]. rewrite qsum_S in E.
  assert (0 <= qsum f k)%Q by (apply qsum_nonneg; auto). assert (0 <= f k)%Q by auto.
  destruct (Nat.eq_dec i k) as [->|]; [lra|]. apply IH; auto; [lra|lia].
Qed.
Lemma qsum_zero f k : (forall i, i < k -> (f i == 0)%Q) -> (qsum f k == 0)%Q.
Proof. induction k as [|k IH]; intro H; [reflexivity|]. rewrite qsum_S, IH, H; auto. ring. Qed.
Lemma qsum_unit k (f : nat -> Q) : 0 < k -> (qsum (fun i => (if i =? 0 then 1 else 0) * f i) k == f 0%nat)%Q.
Proof.
  intro H. destruct k as [|k]; [lia|]. clear H. induction k as [|k IH]; rewrite qsum_S; [cbn [Nat.eqb]; rewrite qsum_0; ring|].
  rewrite IH. cbn [Nat.eqb]. ring.
Qed.

Lemma in_hull_ext n ls p q : veq n p q -> in_hull n ls p -> in_hull n ls q.
Proof. intros H (w & z & H1 & H2 & H3 & H4). exists w, z. split; [auto|split; [auto|split; [auto|]]]. intros d Hd. rewrite <- (H d Hd). auto. Qed.

Lemma in_hull_first n l ls z : (forall i s, nth_error (l :: ls) i = Some s -> in_lp s (z i)) -> in_hull n (l :: ls) (z 0).
Proof.
  intro H. exists (fun i => if i =? 0 then 1 else 0)%Q, z. split; [|split; [|split; auto]].
  - intros i _. destruct (i =? 0); lra.
  - rewrite <- (qsum_unit (List.length (l :: ls)) (fun _ => 1%Q)) by (simpl; lia). apply qsum_ext. intros; ring.
  - intros d _. symmetry. apply (qsum_unit (List.length (l :: ls)) (fun i => z i d)). simpl; lia.
Qed.

Lemma hull_norm n L w z : L <> [] -> (forall i, i < List.length L -> (0 <= w i)%Q) -> (forall i s, nth_error L i = Some s -> in_lp s (z i)) ->
  exists p, in_hull n L p /\ forall d, d < n -> (qsum (fun i => w i * z i d) (List.length L) == qsum w (List.length L) * p d)%Q.
Proof.
  intros HL Hw Hz. set (s := qsum w (List.length L)). destruct (Qeq_dec s 0) as [E|E].
  - exists (z 0). split; [destruct L; [congruence|apply in_hull_first; auto]|]. intros d _. rewrite E.
    rewrite qsum_zero; [ring|]. intros i Hi. rewrite (qsum_zero_all w (List.length L)); auto. ring.
  - assert (Hs : (0 < s)%Q). { assert (0 <= s)%Q by (apply qsum_nonneg; auto). destruct (Q_dec s 0) as [[?|?]|?]; lra. }
    exists (fun d => / s * qsum (fun i => w i * z i d) (List.length L))%Q. split.
    + exists (fun i => / s * w i)%Q, z. split; [|split; [|split; auto]].
      * intros i Hi. apply Qmult_le_0_compat; auto. apply Qlt_le_weak, Qinv_lt_0_compat; auto.
      * rewrite qsum_scale. fold s. field. lra.
      * intros d Hd. rewrite <- qsum_scale. apply qsum_ext. intros; ring.
    + intros d Hd. field. lra.
Qed.

Lemma hull_app n A B p : A <> [] -> B <> [] ->
  in_hull n (A ++ B) p <-> exists a pa pb, (0 <= a)%Q /\ (a <= 1)%Q /\ in_hull n A pa /\ in_hull n B pb /\ veq n p (mix a pa pb).
Proof.
  intros HA HB. split.
  - intros (w & z & H1 & H2 & H3 & H4). rewrite app_length in *.
    destruct (hull_norm n A w z HA) as (pa & Ha & Ea).
    { intros i Hi. apply H1. lia. }
    { intros i s Hs. apply H3. rewrite nth_error_app1; auto. apply nth_error_Some. congruence. }
    destruct (hull_norm n B (fun i => w (List.length A + i)) (fun i => z (List.length A + i)) HB) as (pb & Hb & Eb).
    { intros i Hi. apply H1. lia. }
    { intros i s Hs. apply H3. rewrite nth_error_app2 by lia. replace (List.length A + i - List.length A) with i by lia. auto. }
    rewrite qsum_add in H2. set (sa := qsum w (List.length A)) in *. set (sb := qsum (fun i => w (List.length A + i)) (List.length B)) in *.
    assert (0 <= sa)%Q by (apply qsum_nonneg; intros; apply H1; lia). assert (0 <= sb)%Q by (apply qsum_nonneg; intros; apply H1; lia).
    exists sb, pa, pb. repeat split; auto; try lra. intros d Hd. rewrite H4 by auto. rewrite qsum_add, Ea, Eb by auto. unfold mix.
    assert (E : (sa == 1 - sb)%Q) by lra. rewrite E. reflexivity.
  - intros (a & pa & pb & Ha0 & Ha1 & (wa & za0 & A1 & A2 & A3 & A4) & (wb & zb & B1 & B2 & B3 & B4) & Hp).
    exists (fun i => if i <? List.length A then (1 - a) * wa i else a * wb (i - List.length A)%nat)%Q,
           (fun i => if i <? List.length A then za0 i else zb (i - List.length A)).
    rewrite app_length.
    assert (Q1 : forall f g, (qsum (fun i => if i <? List.length A then f i else g (i - List.length A)%nat) (List.length A + List.length B) == qsum f (List.length A) + qsum g (List.length B))%Q).
    { intros f g. rewrite qsum_add. apply Qplus_comp; apply qsum_ext; intros i Hi.
      - destruct (Nat.ltb_spec i (List.length A)); [reflexivity|lia].
      - destruct (Nat.ltb_spec (List.length A + i) (List.length A)); [lia|]. replace (List.length A + i - List.length A) with i by lia. reflexivity. }
    split; [|split; [|split]].
    + intros i Hi. destruct (Nat.ltb_spec i (List.length A)); apply Qmult_le_0_compat; auto; try lra. apply B1. lia.
    + rewrite (Q1 (fun i => (1 - a) * wa i)%Q (fun i => a * wb i)%Q), !qsum_scale, A2, B2. ring.
    + intros i l Hl. destruct (Nat.ltb_spec i (List.length A)); [rewrite nth_error_app1 in Hl by auto|rewrite nth_error_app2 in Hl by auto]; auto.
    + intros d Hd. rewrite (Hp d Hd). unfold mix. rewrite A4, B4 by auto. rewrite <- !qsum_scale.
      rewrite <- (Q1 (fun i => (1 - a) * (wa i * za0 i d))%Q (fun i => a * (wb i * zb i d))%Q). apply qsum_ext. intros i _. destruct (i <? List.length A); ring.
Qed.

Lemma hull_single n l p : l_dims l = n -> in_hull n [l] p <-> in_lp l p.
Proof.
  intro Hd. split.
  - intros (w & z & _ & H2 & H3 & H4). apply (in_lp_ext l (z 0)); [|apply H3; auto]. intros i Hi.
    rewrite H4 by lia. cbn [List.length] in *. rewrite qsum_S, qsum_0 in *. assert (E : (w 0%nat == 1)%Q) by lra. rewrite E. ring.
  - intro H. apply (in_hull_first n l [] (fun _ => p)). intros [|i] s Hs; [injection Hs as <-; auto|destruct i; discriminate].
Qed.

Lemma hull_ext_sets n A B p : Forall2 (fun a b => forall q, in_lp a q <-> in_lp b q) A B -> in_hull n A p -> in_hull n B p.
Proof.
  intros H (w & z & H1 & H2 & H3 & H4). assert (L : List.length B = List.length A) by (clear - H; induction H; simpl; congruence).
  exists w, z. rewrite L. split; [auto|split; [auto|split; [|auto]]]. intros i l Hl. clear - H H3 Hl. revert i z H3 Hl. induction H as [|a b A B Hab H IH]; intros i z H3 Hl; [destruct i; discriminate|].
  destruct i as [|i]; simpl in Hl.
  - injection Hl as <-. apply (proj1 (Hab _)). apply (H3 0). reflexivity.
  - apply (IH i (fun k => z (S k))); [|exact Hl]. intros k s Hk. apply (H3 (S k)). exact Hk.
Qed.

Definition nonempty (l : lp) : Prop := exists p, in_lp l p.

Lemma hull_bounded n ls : Forall bounded ls -> Forall (fun l => l_dims l = n) ls -> exists M, forall p i, in_hull n ls p -> i < n -> (Qabs (p i) <= M)%Q.
Proof.
  intros HB HD. induction ls as [|l ls IH].
  - exists 0%Q. intros p i (w & z & _ & H & _). rewrite qsum_0 in H. exfalso. lra.
  - inversion HB as [|? ? (M1 & HM1) HB']; subst. inversion HD as [|? ? Hd HD']; subst. destruct (IH HB' HD') as (M2 & HM2).
    destruct ls as [|l2 ls].
    + exists M1. intros p i Hp Hi. apply hull_single in Hp; auto.
    + exists (if Qle_bool M1 M2 then M2 else M1). intros p i Hp Hi. change (l :: l2 :: ls) with ([l] ++ (l2 :: ls)) in Hp.
      apply hull_app in Hp as (a & pa & pb & Ha0 & Ha1 & Hpa & Hpb & Hm); [|discriminate|discriminate].
      apply hull_single in Hpa; auto. assert (X1 := HM1 pa i Hpa Hi). assert (X2 := HM2 pb i Hpb Hi).
      set (M := if Qle_bool M1 M2 then M2 else M1). assert (HM : (M1 <= M)%Q /\ (M2 <= M)%Q).
      { unfold M. destruct (Qle_bool M1 M2) eqn:E; [apply Qle_bool_iff in E; lra|]. assert (~ (M1 <= M2)%Q) by (intro Hq; apply Qle_bool_iff in Hq; congruence). lra. }
      rewrite (Hm i Hi). unfold mix. pose proof (Qabs_triangle ((1 - a) * pa i) (a * pb i)) as T. rewrite !Qabs_Qmult in T.
      rewrite (Qabs_pos (1 - a)) in T by lra. rewrite (Qabs_pos a) in T by lra.
      assert ((1 - a) * Qabs (pa i) <= (1 - a) * M)%Q by (apply qmul_le; lra). assert (a * Qabs (pb i) <= a * M)%Q by (apply qmul_le; lra). lra.
Qed.
Lemma hull_nonempty n ls : ls <> [] -> Forall nonempty ls -> exists p, in_hull n ls p.
Proof.
  intros Hn H. assert (Hz : exists z, forall i s, nth_error ls i = Some s -> in_lp s (z i)).
  { clear Hn. induction H as [|l ls (p & Hp) H (z & Hz)].
    - exists (fun _ => vzero). intros [|i] s; discriminate.
    - exists (fun i => match i with O => p | S k => z k end). intros [|i] s Hs; simpl in Hs; [injection Hs as <-; auto|auto]. }
  destruct Hz as (z & Hz). destruct ls; [congruence|]. exists (z 0). apply in_hull_first; auto.
Qed.

(** ** The recursive function *)
Definition left_cur (l : lp) : Prop := forall x i, lp_sat l x -> i < l_dims l -> (x i == x (l_cvo l + i)%nat)%Q.
Definition good (l : lp) : Prop := lp_ok l /\ no_lo l.

Section Rec.
Variable solve : solver.
Hypothesis Hsolve : solver_ok solve.

Lemma snapshot_in l mid hi l' : lp_cols_ok l -> no_lo l -> left_cur l ->
  from_constraints solve (get_full_constraints l) (get_rhs l) mid hi (Some (get_types l, l_names l)) (Some (l_dims l)) = Ok l' ->
  l_dims l' = l_dims l /\ good l' /\ left_cur l' /\ forall p, in_lp l' p <-> in_lp l p.
Proof.
  intros Hc Hn Hl H.
  assert (Hok : csr_ok (get_full_constraints l)).
  { unfold csr_ok, get_full_constraints, lp_cols_ok in *. cbn [c_nc c_rows]. apply Forall_map. exact Hc. }
  assert (Hns : List.length (l_names l) = c_nc (get_full_constraints l)) by reflexivity.
  destruct (from_constraints_wf solve Hsolve _ _ _ _ (Some (get_types l, l_names l)) (Some (l_dims l)) _ 0 Hok Hns H) as (W & HS).
  assert (Hd : l_dims l' = l_dims l) by (destruct (from_constraints_shape solve Hsolve _ _ _ _ _ _ _ H) as [-> _]; reflexivity).
  assert (Hb : snd (l_bm l') = 0) by (destruct (from_constraints_shape solve Hsolve _ _ _ _ _ _ _ H) as [-> _]; reflexivity).
  split; auto. split; [split; [apply (wf_lp_ok _ _ _ _ W)|]|split].
  - eapply (from_constraints_no_lo solve Hsolve _ _ _ _ (Some (get_types l, l_names l)) (Some (l_dims l))); [|exact H]. split; [exact Hns|]. unfold get_types. apply Forall_map. exact Hn.
  - intros x i Hx Hi. apply (wf_sat _ _ _ _ _ W) in Hx as [_ Hx]. destruct (Hx i Hi) as [E _]. rewrite E. unfold cur_of. cbn [ie_val].
    rewrite mrow_ident by auto. rewrite ldot_unit by auto. rewrite Hb. cbn [Nat.add]. ring.
  - intro p. rewrite (from_constraints_in solve Hsolve _ _ _ _ (Some (get_types l, l_names l)) (Some (l_dims l)) _ Hok Hns H p).
    rewrite Hd. cbn [fc_types].
    assert (HT : forall x, tpoly (c_rows (get_full_constraints l)) (get_types l) (get_rhs l) x <-> lp_sat l x).
    { intro x. pose proof (tpoly_rows 0 (l_rows l) x Hn) as T. unfold get_full_constraints, get_types, get_rhs. cbn [c_rows].
      rewrite <- (map_shift_row_0 (map r_co (l_rows l))), map_map. rewrite T. unfold lp_sat. cbn [Nat.add]. reflexivity. }
    split.
    + intros (x & Hx & Hv). apply HT in Hx. exists x. split; auto. intros i Hi. pose proof (Hl x i Hx Hi) as E. rewrite <- E. apply Hv; auto.
    + intros (x & Hx & Hp). exists x. split; [apply HT; auto|]. intros i Hi. pose proof (Hl x i Hx Hi) as E. rewrite E. apply Hp; auto.
Qed.

Lemma in_lp_red l p : in_lp (red l) p <-> in_lp l p.
Proof.
  unfold in_lp, red, add_rows_le, lp_sat. cbn [l_rows l_dims l_cvo with_rows map]. split; intros (x & Hx & Hp); exists x; split; auto.
  - apply Forall_app in Hx as [Hx _]. auto.
  - apply Forall_app. split; auto. constructor; [|constructor]. unfold row_sat. cbn. lra.
Qed.

Lemma go_ok ls : forall news, ((fix go (xs : list lp) : res (list lp) :=
                        match xs with
                        | [] => Ok []
                        | x :: xs' => do y <- clone x; do ys <- go xs'; Ok (add_rows_le y [1%Q] :: ys)
                        end) ls) = Ok news -> news = map red ls.
Proof.
  induction ls as [|l ls IH]; intros news H; [injection H as <-; reflexivity|].
  apply bind_ok in H as (y & Hy & H). apply bind_ok in H as (ys & Hys & H). injection H as <-. apply clone_ok in Hy as ->. apply IH in Hys as ->. reflexivity.
Qed.

Definition agg_post (ls : list lp) (l : lp) : Prop :=
  good l /\ Forall (fun s => l_dims s = l_dims l) ls /\ (2 <= List.length ls -> left_cur l) /\
  (forall p, in_hull (l_dims l) ls p -> in_lp l p) /\
  (Forall nonempty ls -> Forall bounded ls -> forall p, in_lp l p -> in_hull (l_dims l) ls p).

Lemma agg_post_bounded ls l : agg_post ls l -> ls <> [] -> Forall nonempty ls -> Forall bounded ls -> nonempty l /\ bounded l.
Proof.
  intros (_ & HD & _ & H1 & H2) Hls Hn Hb. split.
  - destruct (hull_nonempty (l_dims l) ls Hls Hn) as (p & Hp). exists p. auto.
  - destruct (hull_bounded (l_dims l) ls Hb HD) as (M & HM). exists M. intros p i Hp Hi. apply HM; auto.
Qed.

Lemma chull2_post l1 l2 l : good l1 -> good l2 -> chull2 (red l1) (red l2) = Ok l ->
  lp_cols_ok l /\ no_lo l /\ left_cur l /\ l_dims l1 = l_dims l /\ l_dims l2 = l_dims l /\
  (forall p, in_hull (l_dims l) [l1; l2] p -> in_lp l p) /\
  (Forall nonempty [l1; l2] -> Forall bounded [l1; l2] -> forall p, in_lp l p -> in_hull (l_dims l) [l1; l2] p).
Proof.
  intros [O1 N1] [O2 N2] H. destruct (hull2_dims l1 l2 l H) as (D2 & D & C).
  assert (HH : forall p, in_hull (l_dims l) [l1; l2] p <-> exists a p1 p2, (0 <= a)%Q /\ (a <= 1)%Q /\ in_lp l1 p1 /\ in_lp l2 p2 /\ veq (l_dims l1) p (mix a p1 p2)).
  { intro p. change [l1; l2] with ([l1] ++ [l2]). rewrite hull_app by discriminate. rewrite D.
    split; intros (a & pa & pb & A0 & A1 & Ha & Hb & Hm); exists a, pa, pb; repeat split; auto; try (apply hull_single in Ha; auto; fail);
      try (apply hull_single in Hb; [auto|congruence]; fail); apply hull_single; auto; congruence. }
  assert (Hshape := chull2_shape _ _ _ H). destruct Hshape as (_ & _ & _ & Hnc & Hr).
  split; [|split; [|split; [|split; [congruence|split; [congruence|split]]]]].
  - unfold lp_cols_ok. rewrite Hr, Hnc. destruct (red_lp_ok _ O1) as [P1 P2]. destruct (red_lp_ok _ O2) as [P3 P4].
    unfold lp_cols_ok in P1, P3. apply Forall_app. split; apply Forall_map.
    + eapply Forall_impl; [|exact P1]. intros r Hcr. cbn [r_co].
      pose proof (row_A_cols (red l1) (r_co r)) as QA. pose proof (row_L_cols (red l1) (r_co r) P2 Hcr) as QL.
      apply row_cols_lt_app. split; [eapply row_cols_lt_mono; [|exact QA]; lia|].
      apply row_cols_lt_app. split; [eapply row_cols_lt_mono; [|apply row_cols_lt_shift; exact QA]; lia|].
      apply row_cols_lt_app. split; [eapply row_cols_lt_mono; [|apply row_cols_lt_shift; exact QL]; lia|].
      repeat constructor. cbn [fst]. lia.
    + eapply Forall_impl; [|exact P3]. intros r Hcr. cbn [r_co].
      assert (QA : row_cols_lt (l_dims (red l1)) (scale_row (-1) (row_A (red l2) (r_co r)))).
      { pose proof (row_A_cols (red l2) (r_co r)) as QA. change (l_dims (red l2)) with (l_dims l2) in QA. rewrite D2 in QA.
        unfold row_cols_lt, scale_row in *. apply Forall_map. cbn [fst]. exact QA. }
      pose proof (row_L_cols (red l2) (r_co r) P4 Hcr) as QL.
      apply row_cols_lt_app. split; [eapply row_cols_lt_mono; [|apply row_cols_lt_shift; exact QA]; lia|].
      apply row_cols_lt_app. split; [|repeat constructor; cbn [fst]; lia].
      eapply row_cols_lt_mono; [|apply row_cols_lt_shift; exact QL]. change (l_dims (red l2)) with (l_dims l2). change (l_dims (red l1)) with (l_dims l1). rewrite D2. lia.
  - unfold no_lo. rewrite Hr. apply Forall_app. split; apply Forall_map; cbn [r_ty]; [apply red_no_lo in N1; exact N1|apply red_no_lo in N2; exact N2].
  - intros x i _ Hi. rewrite C. reflexivity.
  - intros p Hp. apply HH in Hp as (a & p1 & p2 & A0 & A1 & Ha & Hb & Hm). eapply (hull2_contains l1 l2 l O1 O2 N1 N2 H a); eauto.
  - intros Hn Hb p Hp. inversion Hn as [|? ? Q1 Hn']; subst. inversion Hn' as [|? ? Q2 _]; subst.
    inversion Hb as [|? ? Q3 Hb']; subst. inversion Hb' as [|? ? Q4 _]; subst. apply HH. eapply (hull2_exact l1 l2 l O1 O2 N1 N2 H); eauto.
Qed.

Lemma hull_red n ls p : in_hull n (map red ls) p <-> in_hull n ls p.
Proof.
  split; apply hull_ext_sets; induction ls; simpl; constructor; auto; intro q; [|symmetry]; apply in_lp_red.
Qed.

Lemma Forall_red (P : lp -> Prop) ls : (forall l, P l -> P (red l)) -> Forall P ls -> Forall P (map red ls).
Proof. intros H HF. apply Forall_map. eapply Forall_impl; [|exact HF]. auto. Qed.

Lemma aggregate_chull_post fuel : forall ls mid hi l, Forall good ls -> aggregate_chull solve fuel ls mid hi = Ok l -> ls <> [] /\ agg_post ls l.
Proof.
  induction fuel as [|fuel IH]; intros ls mid hi l HG H; [discriminate|]. cbn [aggregate_chull] in H.
  destruct ls as [|l1 [|l2 rest]]; [discriminate| |].
  - split; [discriminate|]. apply clone_ok in H as ->. inversion HG as [|? ? G1 _]; subst. split; auto. split; [repeat constructor|]. split; [simpl; lia|].
    split; [intros p Hp; apply hull_single in Hp; auto|intros _ _ p Hp; apply hull_single; auto].
  - split; [discriminate|]. remember (l1 :: l2 :: rest) as ls eqn:Els.
    apply bind_ok in H as (news & Hnews & H). apply bind_ok in H as (L & HL & H). apply (go_ok (l1 :: l2 :: rest)) in Hnews. rewrite <- Els in Hnews.
    assert (HP : lp_cols_ok L /\ no_lo L /\ left_cur L /\ Forall (fun s => l_dims s = l_dims L) ls /\
      (forall p, in_hull (l_dims L) ls p -> in_lp L p) /\
      (Forall nonempty ls -> Forall bounded ls -> forall p, in_lp L p -> in_hull (l_dims L) ls p)).
    { destruct rest as [|l3 rest].
      - subst ls news. cbn [map] in HL. inversion HG as [|? ? G1 HG']; subst. inversion HG' as [|? ? G2 _]; subst.
        destruct (chull2_post l1 l2 L G1 G2 HL) as (A & B & C & D1 & D2 & E & F). repeat split; auto.
      - assert (HL2 : (do a <- aggregate_chull solve fuel (firstn (Nat.div (List.length news) 2) news) mid hi;
                       do b <- aggregate_chull solve fuel (skipn (Nat.div (List.length news) 2) news) mid hi;
                       aggregate_chull solve fuel [a; b] mid hi) = Ok L).
        { subst ls news. exact HL. }
        clear HL. apply bind_ok in HL2 as (a & Ha & HL). apply bind_ok in HL as (b & Hb & HL).
        set (k := Nat.div (List.length news) 2) in *.
        assert (GN : Forall good news). { rewrite Hnews. apply Forall_red; auto. intros s [S1 S2]. split; [apply red_lp_ok|apply red_no_lo]; auto. }
        assert (Hsplit : firstn k news ++ skipn k news = news) by apply firstn_skipn.
        assert (GA : Forall good (firstn k news)) by (rewrite <- Hsplit in GN; apply Forall_app in GN; apply GN).
        assert (GB : Forall good (skipn k news)) by (rewrite <- Hsplit in GN; apply Forall_app in GN; apply GN).
        apply IH in Ha as [NA PA]; auto. apply IH in Hb as [NB PB]; auto.
        assert (Gab : Forall good [a; b]) by (constructor; [apply PA|constructor; [apply PB|constructor]]).
        apply IH in HL as [_ PL]; auto.
        destruct PL as ([OL NL] & HD & HC & HI & HE). assert (Da : l_dims a = l_dims L) by (inversion HD; auto).
        assert (Db : l_dims b = l_dims L) by (inversion HD as [|? ? _ HD']; inversion HD'; auto).
        assert (DN : Forall (fun s => l_dims s = l_dims L) news).
        { rewrite <- Hsplit. apply Forall_app. split; [eapply Forall_impl; [|apply PA]|eapply Forall_impl; [|apply PB]]; cbn beta; intros; congruence. }
        split; [apply OL|]. split; auto. split; [apply HC; simpl; lia|]. split.
        { rewrite Hnews in DN. apply Forall_map in DN. eapply Forall_impl; [|exact DN]. intros s Hs. exact Hs. }
        assert (HH : forall p, in_hull (l_dims L) ls p <-> exists t pa pb, (0 <= t)%Q /\ (t <= 1)%Q /\ in_hull (l_dims L) (firstn k news) pa /\ in_hull (l_dims L) (skipn k news) pb /\ veq (l_dims L) p (mix t pa pb)).
        { intro p. rewrite <- hull_red, <- Hnews. rewrite <- Hsplit at 1. apply hull_app; auto. }
        split.
        + intros p Hp. apply HH in Hp as (t & pa & pb & T0 & T1 & Hpa & Hpb & Hm). apply HI.
          change [a; b] with ([a] ++ [b]). apply hull_app; [discriminate|discriminate|]. exists t, pa, pb. repeat split; auto; apply hull_single; auto.
          * apply PA. rewrite Da. auto.
          * apply PB. rewrite Db. auto.
        + intros Hn Hbd p Hp.
          assert (NN : Forall nonempty news). { rewrite Hnews. apply Forall_red; auto. intros s (q & Hq). exists q. apply in_lp_red; auto. }
          assert (BN : Forall bounded news). { rewrite Hnews. apply Forall_red; auto. intros s (M & HM). exists M. intros q i Hq Hi. apply HM; auto. apply in_lp_red; auto. }
          rewrite <- Hsplit in NN, BN. apply Forall_app in NN as [NNA NNB]. apply Forall_app in BN as [BNA BNB].
          destruct (agg_post_bounded _ _ PA NA NNA BNA) as [na ba]. destruct (agg_post_bounded _ _ PB NB NNB BNB) as [nb bb].
          apply HE in Hp; [|repeat constructor; auto|repeat constructor; auto].
          change [a; b] with ([a] ++ [b]) in Hp. apply hull_app in Hp as (t & pa & pb & T0 & T1 & Hpa & Hpb & Hm); [|discriminate|discriminate].
          apply hull_single in Hpa; auto. apply hull_single in Hpb; auto. apply HH. exists t, pa, pb. repeat split; auto.
          * rewrite <- Da. apply PA; auto.
          * rewrite <- Db. apply PB; auto. }
    destruct HP as (P1 & P2 & P3 & P4 & P5 & P6). apply snapshot_in in H as (Hd & HG' & HC & HI); auto.
    split; auto. rewrite Hd. split; auto. split; auto. split.
    + intros p Hp. apply HI. auto.
    + intros Hn Hb p Hp. apply P6; auto. apply HI; auto.
Qed.
End Rec.
