(** C37 plotted vertices, C52 accuracy and termination of the plotted polygons. *)
From Coq Require Import Lqa Qminmax.
From Verif Require Import Base BaseFacts LpModel LpSpec SetSpec LpUtil LpFacts OpsFacts4 StateSet Plot PlotFacts.
Open Scope nat_scope.

(** * Specification *)
(** Contract of the hull oracle for points of the plane: facets have vertices, normals have length at most 1 in each coordinate, all points
    are on the inner side of every facet, and a facet that only uses old points after points were added was a facet before. *)
Record hull_ok (hull : list pt -> res hullres) : Prop := {
  hk_idx : forall vs h idx n r, hull vs = Ok h -> In (idx, n, r) (h_facets h) -> idx <> [];
  hk_normal : forall vs h idx n r, hull vs = Ok h -> In (idx, n, r) (h_facets h) ->
    List.length n = 2 /\ (Qabs (nth 0 n 0) <= 1)%Q /\ (Qabs (nth 1 n 0) <= 1)%Q;
  hk_side : forall vs h idx n r v, hull vs = Ok h -> In (idx, n, r) (h_facets h) -> In v vs ->
    (nth 0 n 0 * nth 0 v 0 + nth 1 n 0 * nth 1 v 0 <= r)%Q;
  hk_keep : forall vs new h h' idx n r, hull vs = Ok h -> hull (vs ++ new) = Ok h' -> In (idx, n, r) (h_facets h') ->
    (forall i, In i idx -> i < List.length vs) -> exists idx', In (idx', n, r) (h_facets h) }.
(** Contract of the decomposition in the plane: one non-zero vector has rank 1 and the direction returned is orthogonal to it; two vectors
    of rank at most 1 are parallel. *)
Record orth_ok (orth : list pt -> option pt * nat) : Prop := {
  ok_one : forall a b, ~ (a == 0 /\ b == 0)%Q -> exists n m, orth [[a; b]] = (Some [n; m], 1) /\ (n * a + m * b == 0)%Q /\ ~ (n == 0 /\ m == 0)%Q;
  ok_two : forall a b c d, snd (orth [[a; b]; [c; d]]) <= 1 -> (a * d == b * c)%Q }.

(** a list of points that ends where it begins *)
Definition closed (vs : list pt) : Prop := exists v r, vs = v :: r ++ [v].
(** consecutive points differ in one coordinate only *)
Fixpoint along_axes (vs : list pt) : Prop :=
  match vs with
  | v :: r => match r with
              | w :: _ => ((nth 0 v 0 == nth 0 w 0)%Q \/ (nth 1 v 0 == nth 1 w 0)%Q) /\ along_axes r
              | [] => True
              end
  | [] => True
  end.
(** the rectangle of the times t0..t1 and the values of f over the set S, up to 1e-9; mk puts time and value in the order of the axes *)
Definition time_rectangle (S : vec -> Prop) (f : vec -> Q) (t0 t1 : Q) (mk : Q -> Q -> pt) (vs : list pt) : Prop :=
  exists mn mx, is_min S f mn /\ is_max S f mx /\ closed vs /\ along_axes vs /\
    (forall v, In v vs -> exists t w, (t = t0 \/ t = t1) /\ (w = mn \/ w = mx) /\ v = mk t w) /\
    (forall t w, t = t0 \/ t = t1 -> w = mn \/ w = mx ->
       exists t' w', In (mk t' w') vs /\ (Qabs (t' - t) <= 1 # 1000000000)%Q /\ (Qabs (w' - w) <= 1 # 1000000000)%Q).

Section C37.
Variable solve : solver.
Hypothesis Hsolve : solver_ok solve.
Variable orth : list pt -> option pt * nat.
Variable hull : list pt -> res hullres.
Variable l : lp.
Notation get_verts := (get_verts solve orth hull l).

Lemma wrap_closed vs r : wrap vs = Ok r -> closed r /\ forall v, In v r -> In v vs.
Proof.
  unfold wrap. destruct vs as [|v vs]; [discriminate|]. intro H. apply ok_inj in H. subst r. split; [exists v, vs; reflexivity|].
  intros w Hw. apply in_app_or in Hw as [Hw|[<-|[]]]; [exact Hw|left; reflexivity].
Qed.

Lemma pick_in vs o r : pick_verts vs o = Ok r -> forall v, In v r -> exists w, In w vs /\ v = [nth 0 w 0%Q; nth 1 w 0%Q].
Proof.
  revert r. induction o as [|i o IH]; intros r H v Hv; cbn [pick_verts] in H; [apply ok_inj in H; subst r; destruct Hv|].
  destruct (nth_error vs i) as [w|] eqn:E; [|discriminate]. apply bind_ok in H as (r' & Hr & H). apply ok_inj in H. subst r.
  destruct Hv as [<-|Hv]; [exists w; split; [eapply nth_error_In; eauto|reflexivity]|eauto].
Qed.

(** Two dimensions: every vertex is the projection of a point of the set and the polygon is closed, whatever the hull and the
    decomposition answer. *)
Theorem C37_2d fuel x y t0 t1 vs : get_verts fuel (PDim x) (PDim y) t0 t1 = Ok (Some vs) ->
  closed vs /\ forall v, In v vs -> exists p, in_lp l p /\ v = [p x; p y].
Proof.
  unfold Plot.get_verts. intro H. apply bind_ok in H as (r & Hr & H). destruct r as [ws|]; [|discriminate].
  apply bind_ok in H as (vs' & Hw & H). apply ok_inj in H. injection H as ->. apply wrap_closed in Hw as [C Hin]. split; [exact C|].
  intros v Hv. apply Hin in Hv. clear Hin C. unfold verts_2d in Hr. apply bind_ok in Hr as (wx & Hwx & Hr). apply bind_ok in Hr as (wy & Hwy & Hr).
  apply bind_ok in Hr as (o & Ho & Hr). destruct o as [us|]; [|discriminate].
  assert (A : Forall (proj l x y) us).
  { eapply (kamenev_P orth hull (supp_point solve l x y)); [|exact Ho]. intros d p Hp. apply (supp_point_spec solve Hsolve) in Hp. tauto. }
  rewrite Forall_forall in A. destruct (2 <? _).
  - apply bind_ok in Hr as (h & _ & Hr). apply bind_ok in Hr as (ps & Hps & Hr). apply ok_inj in Hr. injection Hr as <-.
    destruct (pick_in _ _ _ Hps v Hv) as (w & Hw & ->). destruct (A w Hw) as (p & Hp & ->). exists p. auto.
  - apply ok_inj in Hr. injection Hr as <-. exact (A v Hv).
Qed.

Lemma pdot_map d (f : nat -> Q) n : List.length d = n -> (pdot d (map f (seq 0 n)) == ldot d 0 f)%Q.
Proof.
  intro E. unfold pdot. apply ldot_ext. intros i Hi. unfold of_list. rewrite Nat.add_0_l.
  rewrite (nth_indep _ 0%Q (f 0)) by (rewrite map_length, seq_length; lia). rewrite map_nth, seq_nth by lia. reflexivity.
Qed.

Lemma ldot_neg1 d : forall off x, (ldot (map (fun v => -1 * v)%Q d) off x == - ldot d off x)%Q.
Proof. induction d as [|a d IH]; intros; cbn [map ldot]; [reflexivity|]. rewrite IH. ring. Qed.

Lemma apart_true a b : apart a b = false -> (Qabs (a - b) <= 1 # 1000000000)%Q.
Proof. unfold apart. intro H. apply negb_false_iff, Qle_bool_iff in H. exact H. Qed.

Lemma abs0 a : (Qabs (a - a) <= 1 # 1000000000)%Q.
Proof. setoid_replace (a - a)%Q with 0%Q by ring. discriminate. Qed.

Lemma time_verts_spec d t0 t1 mk ws vs : (mk = (fun t v => [t; v]) \/ mk = fun t v => [v; t]) ->
  time_verts solve l d t0 t1 mk = Ok ws -> wrap ws = Ok vs -> time_rectangle (in_lp l) (fun p => ldot d 0 p) t0 t1 mk vs /\ List.length d = l_dims l.
Proof.
  intros Hmk H Hw. unfold time_verts in H. apply bind_ok in H as (r1 & H1 & H). apply bind_ok in H as (u & Hu & H). apply bind_ok in H as (r2 & H2 & H).
  destruct (min_cols_spec solve Hsolve l _ _ _ H1) as (x1 & -> & I1 & O1). destruct (min_cols_spec solve Hsolve l _ _ _ H2) as (x2 & -> & I2 & O2).
  unfold cur_cols in *. destruct (List.length d =? _) eqn:E in Hu; [|discriminate]. apply Nat.eqb_eq in E. rewrite !map_length, seq_length in E.
  rewrite !map_map in H. apply ok_inj in H. set (mn := pdot d (map (fun k => x1 (l_cvo l + k)) (seq 0 (l_dims l)))) in *.
  set (mx := pdot d (map (fun k => x2 (l_cvo l + k)) (seq 0 (l_dims l)))) in *.
  assert (Emn : (mn == ldot d 0 (fun k => x1 (l_cvo l + k)%nat))%Q) by (apply pdot_map; exact E).
  assert (Emx : (mx == ldot d 0 (fun k => x2 (l_cvo l + k)%nat))%Q) by (apply pdot_map; exact E).
  split; [|exact E]. exists mn, mx.
  split; [split; [exists (fun i => x1 (l_cvo l + i)); split; [exact I1|symmetry; exact Emn]|intros p Hp; rewrite Emn; auto]|].
  split; [split; [exists (fun i => x2 (l_cvo l + i)); split; [exact I2|symmetry; exact Emx]|]|].
  { intros p Hp. rewrite Emx. specialize (O2 p Hp). rewrite !ldot_neg1 in O2. lra. }
  assert (Cl := wrap_closed _ _ Hw). split; [apply Cl|]. destruct Cl as [_ Cl].
  clearbody mn mx. clear - H Hw Hmk Cl.
  split; [|split].
  - subst ws. unfold wrap in Hw. destruct (apart mn mx), (apart t0 t1); cbn [app] in Hw; apply ok_inj in Hw; subst vs;
      destruct Hmk as [-> | ->]; cbn [along_axes nth]; repeat split; auto using Qeq_refl.
  - intros v Hv. apply Cl in Hv. subst ws. apply in_app_or in Hv as [[<-|[]]|Hv]; [exists t0, mn; auto|].
    apply in_app_or in Hv as [Hv|Hv].
    + destruct (apart mn mx); [|destruct Hv]. destruct Hv as [<-|Hv]; [exists t0, mx; auto|]. destruct (apart t0 t1); [|destruct Hv].
      destruct Hv as [<-|[]]. exists t1, mx. auto.
    + destruct (apart t0 t1); [|destruct Hv]. destruct Hv as [<-|[]]. exists t1, mn. auto.
  - intros t w Ht Hwv. assert (Iw : forall v, In v ws -> In v vs).
    { clear - Hw. unfold wrap in Hw. destruct ws as [|a ws]; [discriminate|]. apply ok_inj in Hw. subst vs. intros. apply in_or_app; auto. }
    assert (Ap : forall a b, apart a b = apart b a) by (intros a b; unfold apart; rewrite Qabs_Qminus; reflexivity).
    exists (if apart t0 t1 then t else t0), (if apart mn mx then w else mn). split; [|split].
    + apply Iw. subst ws. destruct (apart mn mx), (apart t0 t1); cbn [app]; destruct Ht as [-> | ->], Hwv as [-> | ->]; cbn [In]; auto 6.
    + destruct (apart t0 t1) eqn:A; [apply abs0|]. destruct Ht as [-> | ->]; [apply abs0|apply apart_true; exact A].
    + destruct (apart mn mx) eqn:A; [apply abs0|]. destruct Hwv as [-> | ->]; [apply abs0|apply apart_true; exact A].
Qed.

Lemma rectangle_ext S f g t0 t1 mk vs : (forall p, (f p == g p)%Q) -> time_rectangle S f t0 t1 mk vs -> time_rectangle S g t0 t1 mk vs.
Proof.
  intros E (mn & mx & [(a & Ha & Fa) La] & [(b & Hb & Fb) Lb] & R). exists mn, mx. split; [|split; [|exact R]].
  - split; [exists a; rewrite <- E; auto|intros p Hp; rewrite <- E; auto].
  - split; [exists b; rewrite <- E; auto|intros p Hp; rewrite <- E; auto].
Qed.

Lemma time_dir_value d p : d < l_dims l -> (ldot (time_dir l d) 0 p == p d)%Q.
Proof.
  intro H. unfold time_dir. rewrite (ldot_select (l_dims l) d 1 _ 0 p H); [rewrite Nat.add_0_l; ring|]. intros i _. reflexivity.
Qed.

(** Plots over time: the polygon is the rectangle of the time interval and the exact range of the plotted value. *)
Theorem C37_time fuel d t0 t1 vs : d < l_dims l ->
  (get_verts fuel PTime (PDim d) t0 t1 = Ok (Some vs) -> time_rectangle (in_lp l) (fun p => p d) t0 t1 (fun t v => [t; v]) vs) /\
  (get_verts fuel (PDim d) PTime t0 t1 = Ok (Some vs) -> time_rectangle (in_lp l) (fun p => p d) t0 t1 (fun t v => [v; t]) vs).
Proof.
  intro Hd. unfold Plot.get_verts. split; intro H; apply bind_ok in H as (r & Hr & H); apply bind_ok in Hr as (ws & Hws & Hr); apply ok_inj in Hr; subst r;
    apply bind_ok in H as (vs' & Hw & H); apply ok_inj in H; injection H as ->;
    (eapply rectangle_ext; [intro p; apply time_dir_value; exact Hd|]); eapply time_verts_spec; eauto.
Qed.

(** The same for a direction. *)
Theorem C37_time_direction fuel d t0 t1 vs :
  (get_verts fuel PTime (PDir d) t0 t1 = Ok (Some vs) -> time_rectangle (in_lp l) (fun p => ldot d 0 p) t0 t1 (fun t v => [t; v]) vs) /\
  (get_verts fuel (PDir d) PTime t0 t1 = Ok (Some vs) -> time_rectangle (in_lp l) (fun p => ldot d 0 p) t0 t1 (fun t v => [v; t]) vs).
Proof.
  unfold Plot.get_verts. split; intro H; apply bind_ok in H as (r & Hr & H); apply bind_ok in Hr as (ws & Hws & Hr); apply ok_inj in Hr; subst r;
    apply bind_ok in H as (vs' & Hw & H); apply ok_inj in H; injection H as ->; eapply time_verts_spec; eauto.
Qed.

(** xdim = ydim = None, which the documentation allows, raises for every set and time. *)
Theorem C37_both_time_refuted fuel t0 t1 : forall vs, get_verts fuel PTime PTime t0 t1 <> Ok vs.
Proof. unfold Plot.get_verts. intros vs. destruct (Qle_bool _ _); discriminate. Qed.
End C37.

Section C52.
Variable solve : solver.
Hypothesis Hsolve : solver_ok solve.
Variable orth : list pt -> option pt * nat.
Variable hull : list pt -> res hullres.
Variable l : lp.
Notation get_verts := (get_verts solve orth hull l).

Lemma pdot2 n p : List.length n = 2 -> (pdot n p == nth 0 n 0 * nth 0 p 0 + nth 1 n 0 * nth 1 p 0)%Q.
Proof. destruct n as [|a [|b [|]]]; try discriminate. intros _. unfold pdot, of_list. cbn [ldot nth]. ring. Qed.
Lemma proj_len x y p : proj l x y p -> List.length p = 2.
Proof. intros (q & _ & ->). reflexivity. Qed.

Lemma bbox_width_spec d w : bbox_width solve l d = Ok w -> d < l_dims l ->
  exists mn mx, is_min (in_lp l) (fun p => p d) mn /\ is_max (in_lp l) (fun p => p d) mx /\ (w == Qmax (mx - mn) (1 # 100000))%Q.
Proof.
  unfold bbox_width. intros H Hd. apply bind_ok in H as (r1 & H1 & H). apply bind_ok in H as (r2 & H2 & H). apply ok_inj in H.
  destruct (min_cols_spec solve Hsolve l _ _ _ H1) as (x1 & -> & I1 & O1). destruct (min_cols_spec solve Hsolve l _ _ _ H2) as (x2 & -> & I2 & O2).
  cbn [map nth] in H. exists (x1 (l_cvo l + d)), (x2 (l_cvo l + d)). split; [|split].
  - split; [eexists; split; [exact I1|reflexivity]|]. intros p Hp. specialize (O1 p Hp).
    rewrite !(ldot_select (l_dims l) d 1 _ 0 _ Hd) in O1 by (intros; reflexivity). rewrite !Nat.add_0_l in O1. lra.
  - split; [eexists; split; [exact I2|reflexivity]|]. intros p Hp. specialize (O2 p Hp).
    rewrite !(ldot_select (l_dims l) d (-1) _ 0 _ Hd) in O2 by (intros; reflexivity). rewrite !Nat.add_0_l in O2. lra.
  - subst w. destruct (Qle_bool _ _) eqn:E.
    + apply Qle_bool_iff in E. symmetry. apply Q.max_l. exact E.
    + symmetry. apply Q.max_r. destruct (Qlt_le_dec (x2 (l_cvo l + d)%nat - x1 (l_cvo l + d)%nat) (1 # 100000)) as [L|L]; [lra|]. apply Qle_bool_iff in L. congruence.
Qed.

Lemma epsilon_spec wx wy : (plot_epsilon wx wy == Qmin wx wy / 1000)%Q.
Proof.
  unfold plot_epsilon. destruct (Qle_bool wx wy) eqn:E.
  - apply Qle_bool_iff in E. rewrite Q.min_l by exact E. reflexivity.
  - assert (wy <= wx)%Q by (destruct (Qlt_le_dec wy wx) as [L|L]; [lra|]; apply Qle_bool_iff in L; congruence). rewrite Q.min_r by auto. reflexivity.
Qed.

Lemma close_bound M n p s x y : (forall q, in_lp l q -> (Qabs (q x) <= M /\ Qabs (q y) <= M)%Q) ->
  List.length n = 2 -> (Qabs (nth 0 n 0) <= 1)%Q -> (Qabs (nth 1 n 0) <= 1)%Q -> proj l x y p -> proj l x y s -> pclose p s = true ->
  (pdot n s - pdot n p <= 2 * ((1 # 100000000) + (1 # 100000) * M))%Q.
Proof.
  intros HM Ln N0 N1 Hp Hs Hc. rewrite !pdot2 by eauto using proj_len. destruct Hp as (p' & _ & ->). destruct Hs as (s' & Hs & ->).
  destruct (HM s' Hs) as [Mx My]. unfold pclose in Hc. cbn [List.length seq forallb nth] in Hc. apply andb_prop in Hc as [C0 C1]. apply andb_prop in C1 as [C1 _].
  unfold close in C0, C1. apply Qle_bool_iff in C0, C1. cbn [nth].
  assert (G : forall a b c T, (Qabs a <= 1)%Q -> (Qabs (b - c) <= T)%Q -> (a * c - a * b <= T)%Q).
  { clear. intros a b c T Ha HT. apply Qabs_Qle_condition in Ha, HT. destruct Ha as [A1 A2], HT as [B1 B2]. assert (0 <= T)%Q by lra.
    destruct (Qlt_le_dec (b - c) 0).
    - assert (a * (c - b) <= 1 * (c - b))%Q by (apply Qmult_le_compat_r; lra). lra.
    - assert (- a * (b - c) <= 1 * (b - c))%Q by (apply Qmult_le_compat_r; lra). lra. }
  assert (G0 := G _ _ _ _ N0 C0). assert (G1 := G _ _ _ _ N1 C1). lra.
Qed.

(** Accuracy.  Either at most two points are plotted, or the plotted polygon is the convex hull of points of the set, and every facet moved
    outwards by the larger of a thousandth of the smaller side of the bounding box (at least 1e-8) and the tolerance of the
    comparison of points has the whole set behind it. *)
Theorem C52_accuracy fuel x y t0 t1 vs M : hull_ok hull -> x <> y ->
  (forall p, in_lp l p -> (Qabs (p x) <= M /\ Qabs (p y) <= M)%Q) ->
  get_verts fuel (PDim x) (PDim y) t0 t1 = Ok (Some vs) ->
  (exists a b, vs = [a; a] \/ vs = [a; b; a]) \/
  exists V h xmin xmax ymin ymax,
    is_min (in_lp l) (fun p => p x) xmin /\ is_max (in_lp l) (fun p => p x) xmax /\
    is_min (in_lp l) (fun p => p y) ymin /\ is_max (in_lp l) (fun p => p y) ymax /\
    (forall v, In v V -> exists p, in_lp l p /\ v = [p x; p y]) /\
    hull V = Ok h /\
    vs = map (fun i => nth i V []) (h_vertices h) ++ [nth (hd 0 (h_vertices h)) V []] /\
    forall idx n r, In (idx, n, r) (h_facets h) -> forall p, in_lp l p ->
      (nth 0 n 0 * p x + nth 1 n 0 * p y <=
         r + Qmax (Qmax (Qmin (xmax - xmin) (ymax - ymin)) (1 # 100000) / 1000) (2 * ((1 # 100000000) + (1 # 100000) * M)))%Q.
Proof.
  intros HK N HM H. unfold Plot.get_verts in H. apply bind_ok in H as (r & Hr & H). destruct r as [ws|]; [|discriminate].
  apply bind_ok in H as (vs' & Hw & H). apply ok_inj in H. injection H as ->. unfold verts_2d in Hr. apply bind_ok in Hr as (wx & Hwx & Hr).
  apply bind_ok in Hr as (wy & Hwy & Hr). apply bind_ok in Hr as (o & Ho & Hr). destruct o as [us|]; [|discriminate].
  assert (HP : forall d p, supp_point solve l x y d = Ok p -> proj l x y p) by (intros d p Hp; apply (supp_point_spec solve Hsolve) in Hp; tauto).
  assert (A := kamenev_P orth hull _ _ HP _ _ _ _ Ho). assert (A0 := A). rewrite Forall_forall in A.
  assert (Short : List.length us < 3 -> exists a b, vs = [a; a] \/ vs = [a; b; a]).
  { intro L. replace (2 <? List.length us) with false in Hr by (symmetry; apply Nat.ltb_ge; lia). apply ok_inj in Hr. injection Hr as <-.
    destruct us as [|a [|b [|c us]]]; cbn [wrap] in Hw; try discriminate; [| |cbn in L; lia]; apply ok_inj in Hw; subst vs; exists a.
    - exists a. left; reflexivity.
    - exists b. right; reflexivity. }
  destruct (Nat.lt_ge_cases (List.length us) 3) as [L|L]; [left; auto|]. right.
  replace (2 <? List.length us) with true in Hr by (symmetry; apply Nat.ltb_lt; lia).
  apply bind_ok in Hr as (h & Hh & Hr). apply bind_ok in Hr as (ps & Hps & Hr). apply ok_inj in Hr. injection Hr as <-.
  unfold kamenev_get_verts in Ho. apply bind_ok in Ho as (s & Hs & Ho). assert (As := simplex_P orth _ _ HP _ _ Hs).
  assert (Hdims : x < l_dims l /\ y < l_dims l).
  { unfold find_init_simplex in Hs. apply bind_ok in Hs as (s0 & Hs0 & _). cbn [find_two_points seq] in Hs0. apply bind_ok in Hs0 as (p1 & Hp1 & _).
    apply (supp_point_spec solve Hsolve) in Hp1. tauto. }
  destruct (bbox_width_spec _ _ Hwx (proj1 Hdims)) as (xmin & xmax & Hx1 & Hx2 & Ex). destruct (bbox_width_spec _ _ Hwy (proj2 Hdims)) as (ymin & ymax & Hy1 & Hy2 & Ey).
  exists us, h, xmin, xmax, ymin, ymax. split; [exact Hx1|split; [exact Hx2|split; [exact Hy1|split; [exact Hy2|split; [exact A|split; [exact Hh|]]]]]].
  split.
  { assert (E : ps = map (fun i => nth i us []) (h_vertices h) /\ (forall i, In i (h_vertices h) -> i < List.length us)).
    { clear Hw. revert ps Hps. induction (h_vertices h) as [|i o IH]; intros ps Hps; cbn [pick_verts] in Hps; [apply ok_inj in Hps; subst ps; split; [reflexivity|intros i Hi; destruct Hi]|].
      destruct (nth_error us i) as [w|] eqn:E; [|discriminate]. apply bind_ok in Hps as (r' & Hr' & Hps). apply ok_inj in Hps. subst ps. destruct (IH _ Hr') as [-> B].
      split; [|intros j [<-|Hj]; [apply nth_error_Some; congruence|auto]]. cbn [map]. f_equal. rewrite (nth_error_nth us i [] E).
      destruct (A w (nth_error_In _ _ E)) as (p & _ & ->). reflexivity. }
    destruct E as [-> B]. unfold wrap in Hw. destruct (h_vertices h) as [|i o]; [discriminate|]. cbn [map] in Hw. apply ok_inj in Hw. subst vs. reflexivity. }
  destruct (List.length s <? 3) eqn:E3.
  { apply Nat.ltb_lt in E3. apply ok_inj in Ho. injection Ho as <-. lia. }
  set (D := (2 * ((1 # 100000000) + (1 # 100000) * M))%Q) in *.
  assert (HM0 : forall p, in_lp l p -> (0 <= M)%Q) by (intros p Hp; destruct (HM p Hp) as [B _]; assert (C := Qabs_nonneg (p x)); lra).
  intros idx n r Hi p Hp. assert (M0 := HM0 p Hp). assert (D0 : (0 <= D)%Q) by (unfold D; lra).
  destruct (refine_cov hull (supp_point solve l x y) (proj l x y) HP) with (D := D) (good := fun n => List.length n = 2 /\ (Qabs (nth 0 n 0) <= 1)%Q /\ (Qabs (nth 1 n 0) <= 1)%Q)
    (fuel := fuel) (eps := plot_epsilon wx wy) (verts := @nil pt) (new := s) (vs := us) as (h' & Hh' & C); auto.
  - intros d s1 Hs1. apply (supp_point_spec solve Hsolve) in Hs1. apply Hs1; exact N.
  - intros n1 p1 s1 (G1 & G2 & G3) P1 S1 C1. eapply close_bound; eauto.
  - intros n1 p1 (G1 & _) P1. assert (Lp := proj_len _ _ _ P1). rewrite !pdot2 by auto. ring.
  - intros v0 h0 i0 n0 r0 E0 F0. exact (hk_normal _ HK _ _ _ _ _ E0 F0).
  - intros v0 h0 i0 n0 r0 v E0 F0 G0. rewrite pdot2 by (apply (hk_normal _ HK _ _ _ _ _ E0 F0)). exact (hk_side _ HK _ _ _ _ _ _ E0 F0 G0).
  - exact (hk_idx _ HK).
  - exact (hk_keep _ HK).
  - intros E; congruence.
  - intros E. subst us. cbn in L. lia.
  - rewrite Hh in Hh'. apply ok_inj in Hh'. subst h'. specialize (C idx n r Hi [p x; p y] (ex_intro _ p (conj Hp eq_refl))).
    rewrite pdot2 in C by (apply (hk_normal _ HK _ _ _ _ _ Hh Hi)). cbn [nth] in C.
    eapply Qle_trans; [exact C|]. apply Qplus_le_r.
    assert (Ee : (plot_epsilon wx wy == Qmax (Qmin (xmax - xmin) (ymax - ymin)) (1 # 100000) / 1000)%Q).
    { rewrite epsilon_spec, Ex, Ey, (Q.max_comm (xmax - xmin)), (Q.max_comm (ymax - ymin)), <- Q.max_min_distr, Q.max_comm. reflexivity. }
    destruct (Qle_bool _ D) eqn:Eb; [apply Q.le_max_r|]. rewrite <- Ee. apply Q.le_max_l.
Qed.

(** Termination.  When the solver answers the directions of the plot with points of a finite list (as the simplex method, whose answers are
    basic solutions, does), the refinement ends after at most as many rounds as the list is long. *)
Theorem C52_terminates fuel x y t0 t1 L : hull_ok hull ->
  (forall d xs, List.length d = l_dims l -> solve (with_obj l (dense_row d (l_cvo l))) = SOpt xs -> In [xs (l_cvo l + x); xs (l_cvo l + y)] L) ->
  List.length L < fuel -> get_verts fuel (PDim x) (PDim y) t0 t1 <> Ok None.
Proof.
  intros HK HL Hf H. unfold Plot.get_verts in H. apply bind_ok in H as (r & Hr & H). destruct r as [ws|].
  { apply bind_ok in H as (vs' & _ & H). discriminate. }
  clear H. unfold verts_2d in Hr. apply bind_ok in Hr as (wx & Hwx & Hr). apply bind_ok in Hr as (wy & Hwy & Hr).
  apply bind_ok in Hr as (o & Ho & Hr). destruct o as [us|].
  { destruct (2 <? _); [|discriminate]. apply bind_ok in Hr as (h & _ & Hr). apply bind_ok in Hr as (ps & _ & Hr). discriminate. }
  clear Hr. unfold kamenev_get_verts in Ho. apply bind_ok in Ho as (s & Hs & Ho). destruct (_ <? 3); [discriminate|].
  assert (HP : forall d p, supp_point solve l x y d = Ok p -> proj l x y p /\ In p L).
  { intros d p Hp. split; [apply (supp_point_spec solve Hsolve) in Hp; tauto|]. unfold supp_point in Hp. apply bind_ok in Hp as (u & _ & Hp).
    apply bind_ok in Hp as (d' & Hd' & Hp). apply bind_ok in Hp as (rr & Hrr & Hp). apply bind_ok in Hp as (a & Ha & Hp). apply bind_ok in Hp as (b & Hb & Hp).
    apply ok_inj in Hp. subst p. unfold min_cols in Hrr. apply bind_ok in Hrr as (l1 & H1 & Hrr). apply set_min_dir_ok in H1 as [_ ->].
    apply bind_ok in Hrr as (o & Ho' & Hrr). unfold minimize in Ho'. destruct (solve _) as [xs| |] eqn:E; [| |]; try discriminate.
    apply bind_ok in Ho' as (u' & _ & Ho'). apply ok_inj in Ho'. subst o. apply ok_inj in Hrr. subst rr. unfold cur_cols in Ha, Hb.
    apply get_at_map in Ha as [_ ->]. apply get_at_map in Hb as [_ ->]. refine (HL _ _ _ E). destruct d as [|a0 [|b0 d]]; cbn [set_dims] in Hd'.
    - apply ok_inj in Hd'. subst d'. apply lzero_length.
    - apply bind_ok in Hd' as (d1 & H1 & Hd'). apply set_at_nth in H1 as (_ & B1 & _). rewrite lzero_length in B1. apply ok_inj in Hd'. congruence.
    - apply bind_ok in Hd' as (d1 & H1 & Hd'). apply bind_ok in Hd' as (d2 & H2 & Hd'). apply set_at_nth in H1 as (_ & B1 & _). apply set_at_nth in H2 as (_ & B2 & _).
      rewrite lzero_length in B1. apply ok_inj in Hd'. congruence. }
  assert (Heps : (0 < plot_epsilon wx wy)%Q).
  { assert (W : forall d w, bbox_width solve l d = Ok w -> (1 # 100000 <= w)%Q).
    { clear. intros d w H. unfold bbox_width in H. apply bind_ok in H as (r1 & _ & H). apply bind_ok in H as (r2 & _ & H). apply ok_inj in H. subst w.
      destruct (Qle_bool _ _) eqn:E; [apply Qle_bool_iff; exact E|apply Qle_refl]. }
    apply W in Hwx, Hwy. unfold plot_epsilon. destruct (Qle_bool wx wy); apply Qlt_shift_div_l; lra. }
  refine (refine_term hull (supp_point solve l x y) (fun p => proj l x y p /\ In p L) HP (fun n => List.length n = 2) _ _ _ L fuel _ [] s Heps _ _ _ _ Ho).
  - intros n p G [P1 _]. assert (Lp := proj_len _ _ _ P1). rewrite !pdot2 by auto. ring.
  - intros v0 h0 i0 n0 r0 E0 F0. apply (hk_normal _ HK _ _ _ _ _ E0 F0).
  - intros v0 h0 i0 n0 r0 v E0 F0 G0. rewrite pdot2 by (apply (hk_normal _ HK _ _ _ _ _ E0 F0)). exact (hk_side _ HK _ _ _ _ _ _ E0 F0 G0).
  - tauto.
  - eapply simplex_P; [exact HP|exact Hs].
  - intros q _ F. destruct F.
  - assert (B := left_over_le L []). eapply Nat.le_lt_trans; [exact B|exact Hf].
Qed.

(** Segments.  When two different points are plotted that differ in both coordinates, the whole set lies on the segment between them
    (decomposition without rounding). *)
Theorem C52_segment fuel x y t0 t1 a b : orth_ok orth -> x <> y ->
  get_verts fuel (PDim x) (PDim y) t0 t1 = Ok (Some [a; b; a]) -> ~ (nth 0 a 0 == nth 0 b 0)%Q -> ~ (nth 1 a 0 == nth 1 b 0)%Q ->
  (forall vs h, hull vs = Ok h -> 2 < List.length (h_vertices h)) ->
  forall p, in_lp l p -> exists t, (0 <= t /\ t <= 1 /\ p x == nth 0 a 0 + t * (nth 0 b 0 - nth 0 a 0) /\ p y == nth 1 a 0 + t * (nth 1 b 0 - nth 1 a 0))%Q.
Proof.
  intros HO N H Nx Ny HH p Hp. unfold Plot.get_verts in H. apply bind_ok in H as (r & Hr & H). destruct r as [ws|]; [|discriminate].
  apply bind_ok in H as (vs' & Hw & H). apply ok_inj in H. injection H as ->. unfold verts_2d in Hr. apply bind_ok in Hr as (wx & Hwx & Hr).
  apply bind_ok in Hr as (wy & Hwy & Hr). apply bind_ok in Hr as (o & Ho & Hr). destruct o as [us|]; [|discriminate].
  assert (Ews : ws = [a; b]).
  { unfold wrap in Hw. destruct ws as [|c ws]; [discriminate|]. apply ok_inj in Hw. destruct ws as [|d [|e ws]]; cbn [app] in Hw; try congruence.
    injection Hw as _ _ _ Hw. destruct ws; discriminate. }
  subst ws. destruct (2 <? List.length us) eqn:E2.
  { exfalso. apply bind_ok in Hr as (h & Hh & Hr). apply bind_ok in Hr as (ps & Hps & Hr). apply ok_inj in Hr. injection Hr as ->.
    specialize (HH _ _ Hh). assert (El : forall o q, pick_verts us o = Ok q -> List.length q = List.length o).
    { clear. induction o as [|i o IH]; intros q H; cbn [pick_verts] in H; [apply ok_inj in H; subst q; reflexivity|]. destruct (nth_error us i); [|discriminate].
      apply bind_ok in H as (r & Hr & H). apply ok_inj in H. subst q. cbn [List.length]. f_equal. auto. }
    apply El in Hps. cbn in Hps. lia. }
  apply ok_inj in Hr. injection Hr as ->. unfold kamenev_get_verts in Ho. apply bind_ok in Ho as (s & Hs & Ho).
  assert (HP : forall d p, supp_point solve l x y d = Ok p -> proj l x y p) by (intros d q Hq; apply (supp_point_spec solve Hsolve) in Hq; tauto).
  assert (Es : s = [a; b]).
  { destruct (List.length s <? 3) eqn:E; [apply ok_inj in Ho; congruence|]. apply Nat.ltb_ge in E. exfalso.
    assert (G : forall fuel eps verts new vs, refine hull (supp_point solve l x y) fuel eps verts new = Ok (Some vs) -> List.length verts + List.length new <= List.length vs).
    { clear. induction fuel as [|fuel IH]; intros eps verts new vs H; destruct new as [|q new]; cbn [refine] in H; try discriminate; try (apply ok_inj in H; injection H as <-; cbn; lia).
      apply bind_ok in H as (h & _ & H). apply bind_ok in H as (nw & _ & H). apply IH in H. rewrite app_length in H. lia. }
    apply G in Ho. cbn in Ho. lia. }
  subst s. clear Ho Hw E2. unfold find_init_simplex in Hs. apply bind_ok in Hs as (s0 & Hs0 & Hs).
  assert (T : exists d, d < 2 /\ supp_point solve l x y (axis 2 d (-1)%Q) = Ok a /\ supp_point solve l x y (axis 2 d 1%Q) = Ok b /\ s0 = [a; b]).
  { assert (Es0 : forall c, s0 <> [c]) by (intros c ->; congruence).
    assert (Es1 : forall c d, s0 = [c; d] -> c = a /\ d = b).
    { intros c d ->. unfold grow_simplex in Hs. cbn [Nat.sub] in Hs. destruct (orth _) as [nd rk]. apply bind_ok in Hs as (v & _ & Hs). apply bind_ok in Hs as (q & _ & Hs).
      destruct (_ <? _); [discriminate|]. apply bind_ok in Hs as (q' & _ & Hs). destruct (_ <? _); [discriminate|]. apply ok_inj in Hs. injection Hs as -> ->. auto. }
    cbn [find_two_points seq] in Hs0. apply bind_ok in Hs0 as (p1 & H1 & Hs0). apply bind_ok in Hs0 as (u & _ & Hs0). apply bind_ok in Hs0 as (p2 & H2 & Hs0).
    destruct (pclose p1 p2).
    - apply bind_ok in Hs0 as (q1 & H1' & Hs0). apply bind_ok in Hs0 as (u' & _ & Hs0). apply bind_ok in Hs0 as (q2 & H2' & Hs0).
      destruct (pclose q1 q2); apply ok_inj in Hs0; subst s0; [exfalso; eapply Es0; reflexivity|]. destruct (Es1 _ _ eq_refl) as [-> ->]. exists 1. auto.
    - apply ok_inj in Hs0. subst s0. destruct (Es1 _ _ eq_refl) as [-> ->]. exists 0. auto. }
  clear Hs0. destruct T as (d & Hd & Ha & Hb & ->).
  destruct (HP _ _ Ha) as (pa & _ & Ea). destruct (HP _ _ Hb) as (pb & _ & Eb).
  apply (supp_point_spec solve Hsolve) in Ha as (_ & _ & _ & _ & Ma). apply (supp_point_spec solve Hsolve) in Hb as (_ & _ & _ & _ & Mb).
  assert (Pp : proj l x y [p x; p y]) by (exists p; auto). specialize (Ma N _ Pp). specialize (Mb N _ Pp).
  subst a b. cbn [nth] in *. set (ax := pa x) in *. set (ay := pa y) in *. set (bx := pb x) in *. set (by' := pb y) in *.
  change (2 - 1) with 1 in Hs. cbn [grow_simplex] in Hs. change (psub [bx; by'] [ax; ay]) with [(bx - ax)%Q; (by' - ay)%Q] in Hs.
  destruct (ok_one _ HO (bx - ax)%Q (by' - ay)%Q) as (n & m & Eo & Eperp & Nz); [intros [F _]; apply Nx; lra|]. unfold pt in *. rewrite Eo in Hs.
  apply bind_ok in Hs as (v & Hv & Hs). apply ok_inj in Hv. subst v. apply bind_ok in Hs as (q & Hq & Hs).
  destruct (HP _ _ Hq) as (pq & _ & Eq'). apply (supp_point_spec solve Hsolve) in Hq as (_ & _ & _ & _ & Mq). specialize (Mq N _ Pp). subst q.
  change (psub [pq x; pq y] [ax; ay]) with [(pq x - ax)%Q; (pq y - ay)%Q] in Hs. cbn [app] in Hs.
  destruct (1 <? snd _) eqn:L1; [discriminate|]. apply Nat.ltb_ge in L1. apply (ok_two _ HO) in L1.
  apply bind_ok in Hs as (q' & Hq' & Hs). destruct (HP _ _ Hq') as (pq' & _ & Eq''). apply (supp_point_spec solve Hsolve) in Hq' as (_ & _ & _ & _ & Mq'). specialize (Mq' N _ Pp). subst q'.
  change (psub [pq' x; pq' y] [ax; ay]) with [(pq' x - ax)%Q; (pq' y - ay)%Q] in Hs. cbn [app] in Hs.
  destruct (1 <? snd _) eqn:L2; [discriminate|]. apply Nat.ltb_ge in L2. apply (ok_two _ HO) in L2. clear Hs.
  unfold pdot, of_list in *. cbn [ldot nth map] in Mq, Mq'.
  set (vx := (bx - ax)%Q) in *. set (vy := (by' - ay)%Q) in *.
  assert (Nvx : ~ (vx == 0)%Q) by (intro F; apply Nx; unfold vx in F; lra). assert (Nvy : ~ (vy == 0)%Q) by (intro F; apply Ny; unfold vy in F; lra).
  assert (K : forall wx wy, (vx * wy == vy * wx)%Q -> (n * wx + m * wy == 0)%Q).
  { intros u w F. assert (Z : (vx * (n * u + m * w) == 0)%Q). { setoid_replace (vx * (n * u + m * w))%Q with (n * vx * u + m * (vx * w))%Q by ring. rewrite F. setoid_replace (n * vx * u + m * (vy * u))%Q with ((n * vx + m * vy) * u)%Q by ring. rewrite Eperp. ring. }
    apply Qmult_integral in Z as [Z|Z]; [contradiction|exact Z]. }
  apply K in L1, L2. assert (Q0 : (n * (p x - ax) + m * (p y - ay) == 0)%Q) by lra.
  assert (Nm : ~ (m == 0)%Q).
  { intro F. apply Nz. split; [|exact F]. rewrite F in Eperp. assert (Z : (n * vx == 0)%Q) by lra. apply Qmult_integral in Z as [Z|Z]; [exact Z|contradiction]. }
  assert (Par : (vx * (p y - ay) == vy * (p x - ax))%Q).
  { assert (Z : (m * (vx * (p y - ay) - vy * (p x - ax)) == 0)%Q).
    { setoid_replace (m * (vx * (p y - ay) - vy * (p x - ax)))%Q with (vx * (n * (p x - ax) + m * (p y - ay)) - (p x - ax) * (n * vx + m * vy))%Q by ring. rewrite Q0, Eperp. ring. }
    apply Qmult_integral in Z as [Z|Z]; [contradiction|lra]. }
  exists ((p x - ax) / vx)%Q. set (t := ((p x - ax) / vx)%Q).
  assert (Tx : (p x == ax + t * vx)%Q) by (unfold t; field; exact Nvx).
  assert (Ty : (p y == ay + t * vy)%Q).
  { assert (Z : (vx * (p y - ay - t * vy) == 0)%Q) by (setoid_replace (vx * (p y - ay - t * vy))%Q with (vx * (p y - ay) - vy * (t * vx))%Q by ring; rewrite Par; setoid_replace (t * vx)%Q with (p x - ax)%Q by lra; ring).
    apply Qmult_integral in Z as [Z|Z]; [contradiction|lra]. }
  assert (B : (0 <= t /\ t <= 1)%Q).
  { assert (B1 : forall w, (0 <= t * w)%Q -> (t * w <= w)%Q -> ~ (w == 0)%Q -> (0 <= t /\ t <= 1)%Q).
    { clear. intros w A1 A2 Nw. assert (0 < w)%Q by (destruct (Qlt_le_dec 0 w) as [|G]; [auto|]; exfalso; apply Nw; lra).
      split; [apply (Qmult_le_r _ _ w); [auto|lra]|apply (Qmult_le_r _ _ w); [auto|lra]]. }
    destruct d as [|[|d]]; [| |lia]; cbn [axis map seq Nat.eqb ldot nth] in Ma, Mb.
    - apply (B1 vx); [|unfold vx in *|exact Nvx]; lra.
    - apply (B1 vy); [|unfold vy in *|exact Nvy]; lra. }
  split; [apply B|split; [apply B|split; [exact Tx|exact Ty]]].
Qed.
End C52.

(** * Witnesses and refutations *)
From Verif Require Import Solver Ex_Core Ex_Approx Ex_Plot.
Open Scope nat_scope.

Lemma hull0_in vs h idx n r : hull0 vs = Ok h -> In (idx, n, r) (h_facets h) ->
  exists i j, idx = [i; j] /\ i < List.length vs /\ j < List.length vs /\ facet_ok vs (nth i vs []) (nth j vs []) = true /\ facet_of (nth i vs []) (nth j vs []) = (n, r).
Proof.
  unfold hull0. intros H Hin. assert (E : h_facets h = facets0 vs).
  { destruct (facets0 vs) as [|[[[|i [|j [|]]] n0] r0] fs]; try discriminate. destruct (2 <? _); [|discriminate]. apply ok_inj in H. subst h. reflexivity. }
  rewrite E in Hin. unfold facets0 in Hin. apply in_flat_map in Hin as (i & Hi & Hin). apply in_flat_map in Hin as (j & Hj & Hin). apply in_seq in Hi, Hj.
  destruct (facet_ok vs (nth i vs []) (nth j vs [])) eqn:F; [|destruct Hin]. destruct Hin as [Hin|[]].
  exists i, j. injection Hin as <- <- <-. repeat split; try lia; auto.
Qed.
(** the exact hull of Ex_Plot meets the contract *)
Lemma hull0_ok : hull_ok hull0.
Proof.
  constructor.
  - intros vs h idx n r H Hin. destruct (hull0_in _ _ _ _ _ H Hin) as (i & j & -> & _). discriminate.
  - intros vs h idx n r H Hin. destruct (hull0_in _ _ _ _ _ H Hin) as (i & j & _ & _ & _ & F & E). unfold facet_ok in F. rewrite E in F.
    apply andb_prop in F as [F _]. apply andb_prop in F as [F F2]. apply andb_prop in F as [_ F1]. apply Qle_bool_iff in F1, F2.
    split; [|auto]. unfold facet_of in E. injection E as <- _. reflexivity.
  - intros vs h idx n r v H Hin Hv. destruct (hull0_in _ _ _ _ _ H Hin) as (i & j & _ & _ & _ & F & E). unfold facet_ok in F. rewrite E in F.
    apply andb_prop in F as [_ F]. rewrite forallb_forall in F. specialize (F v Hv). apply Qle_bool_iff in F. exact F.
  - intros vs new h h' idx n r H H' Hin Hlt. destruct (hull0_in _ _ _ _ _ H' Hin) as (i & j & -> & Li & Lj & F & E).
    assert (Hi : i < List.length vs) by (apply Hlt; left; reflexivity). assert (Hj : j < List.length vs) by (apply Hlt; right; left; reflexivity).
    rewrite !app_nth1 in F, E by auto. exists [i; j].
    assert (Eh : h_facets h = facets0 vs).
    { unfold hull0 in H. destruct (facets0 vs) as [|[[[|i0 [|j0 [|]]] n0] r0] fs]; try discriminate. destruct (2 <? _); [|discriminate]. apply ok_inj in H. subst h. reflexivity. }
    rewrite Eh. unfold facets0. apply in_flat_map. exists i. split; [apply in_seq; lia|]. apply in_flat_map. exists j. split; [apply in_seq; lia|].
    assert (F' : facet_ok vs (nth i vs []) (nth j vs []) = true).
    { unfold facet_ok in *. rewrite E in F |- *. apply andb_prop in F as [F1 F2]. rewrite F1. rewrite forallb_app in F2. apply andb_prop in F2 as [-> _]. reflexivity. }
    rewrite F', E. left; reflexivity.
Qed.
Lemma hull0_size vs h : hull0 vs = Ok h -> 2 < List.length (h_vertices h).
Proof.
  unfold hull0. destruct (facets0 vs) as [|[[[|i [|j [|]]] n0] r0] fs]; try discriminate. cbv zeta. intro H. destruct (2 <? _) eqn:E; [|discriminate].
  apply Nat.ltb_lt in E. apply ok_inj in H. subst h. exact E.
Qed.
Lemma orth0_ok : orth_ok orth0.
Proof.
  constructor.
  - intros a b N. unfold orth0. cbn [nth]. destruct (Qeq_bool a 0 && Qeq_bool b 0) eqn:E.
    + exfalso. apply N. apply andb_prop in E as [A B]. apply Qeq_bool_iff in A, B. auto.
    + exists (- b)%Q, a. split; [reflexivity|]. split; [ring|]. intros [A B]. apply N. split; [exact B|lra].
  - intros a b c d H. unfold orth0 in H. cbn [nth snd] in H. destruct (Qeq_bool _ _) eqn:E; [apply Qeq_bool_iff; exact E|lia].
Qed.

(** The box [0,1] x [0,2]. *)
Example C37_2d_witness : get_verts fm_solver orth0 hull0 exP_box 10 (PDim 0) (PDim 1) 0 0 = Ok (Some [[0; 0]; [1; 0]; [1; 2]; [0; 2]; [0; 0]]%Q).
Proof. vm_compute. reflexivity. Qed.
Example C37_time_witness : 0 < l_dims exP_box /\
  get_verts fm_solver orth0 hull0 exP_box 10 PTime (PDim 1) 0 1 = Ok (Some [[0; 0]; [0; 2]; [1; 2]; [1; 0]; [0; 0]]%Q) /\
  get_verts fm_solver orth0 hull0 exP_box 10 PTime (PDir [1; 1]%Q) 3 3 = Ok (Some [[3; 0]; [3; 3]; [3; 0]]%Q).
Proof. split; [vm_compute; lia|split; vm_compute; reflexivity]. Qed.

Lemma exP_box_range p : in_lp exP_box p -> (0 <= p 0%nat /\ p 0%nat <= 1 /\ 0 <= p 1%nat /\ p 1%nat <= 2)%Q.
Proof.
  intros (xs & Hs & Hp). unfold lp_sat in Hs. rewrite Forall_forall in Hs. assert (H0 := Hp 0 ltac:(vm_compute; lia)). assert (H1 := Hp 1 ltac:(vm_compute; lia)).
  change (l_cvo exP_box) with 2 in H0, H1. cbn [Nat.add] in H0, H1.
  assert (R : forall k r, nth_error (l_rows exP_box) k = Some r -> row_sat r xs) by (intros k r E; apply Hs; eapply nth_error_In; exact E).
  assert (R0 := R 0 _ eq_refl). assert (R1 := R 1 _ eq_refl). assert (R2 := R 2 _ eq_refl). assert (R3 := R 3 _ eq_refl). assert (R4 := R 4 _ eq_refl). assert (R5 := R 5 _ eq_refl).
  unfold row_sat in *. cbn [r_ty r_co r_rhs reval] in *. lra.
Qed.
Example C52_accuracy_witness : hull_ok hull0 /\ 0 <> 1 /\ (forall p, in_lp exP_box p -> (Qabs (p 0%nat) <= 2 /\ Qabs (p 1%nat) <= 2)%Q) /\
  get_verts fm_solver orth0 hull0 exP_box 10 (PDim 0) (PDim 1) 0 0 = Ok (Some [[0; 0]; [1; 0]; [1; 2]; [0; 2]; [0; 0]]%Q).
Proof.
  split; [exact hull0_ok|split; [lia|split; [|vm_compute; reflexivity]]]. intros p Hp. apply exP_box_range in Hp.
  split; apply Qabs_Qle_condition; lra.
Qed.
(** a solver that answers with corners of the box *)
Example C52_terminates_witness : solver_ok (prefer corners) /\ hull_ok hull0 /\
  (forall d xs, List.length d = l_dims exP_box -> prefer corners (with_obj exP_box (dense_row d (l_cvo exP_box))) = SOpt xs ->
     In [xs (l_cvo exP_box + 0); xs (l_cvo exP_box + 1)] [[0; 0]; [0; 2]; [1; 0]; [1; 2]]%Q) /\
  get_verts (prefer corners) orth0 hull0 exP_box 5 (PDim 0) (PDim 1) 0 0 = Ok (Some [[0; 0]; [1; 0]; [1; 2]; [0; 2]; [0; 0]]%Q).
Proof.
  split; [apply prefer_ok|split; [exact hull0_ok|split; [|vm_compute; reflexivity]]].
  intros d xs Hd H. change (l_dims exP_box) with 2 in Hd. destruct d as [|a [|b [|]]]; try discriminate. clear Hd.
  change (l_cvo exP_box) with 2 in *. cbn [dense_row Nat.add] in *. unfold prefer in H.
  set (L := with_obj exP_box [(2, a); (3, b)]) in *. assert (F := fm_solver_ok L). destruct (fm_solver L) as [x| |]; try discriminate.
  destruct F as [F1 _]. assert (R := exP_box_range (fun i => x (2 + i))). destruct R as (R1 & R2 & R3 & R4).
  { exists x. split; [exact F1|]. intros i _. reflexivity. }
  cbn [Nat.add] in R1, R2, R3, R4.
  assert (S4 : forall c, In c (corners L) -> satb L c = true) by (intros c Hc; cbn [corners In] in Hc; destruct Hc as [<-|[<-|[<-|[<-|[]]]]]; vm_compute; reflexivity).
  destruct (find _ (corners L)) as [c|] eqn:E.
  - injection H as <-. apply find_some in E as [E _]. cbn [corners In] in E. destruct E as [<-|[<-|[<-|[<-|[]]]]]; unfold corner; cbn [Nat.even In]; auto.
  - exfalso. set (c := corner (if Qle_bool 0 a then 0 else 1) (if Qle_bool 0 b then 0 else 2)).
    assert (Hc : In c (corners L)) by (unfold c; cbn [corners In]; destruct (Qle_bool 0 a), (Qle_bool 0 b); auto).
    assert (E' := find_none _ _ E c Hc). cbv beta in E'. rewrite (S4 c Hc) in E'. cbn [andb] in E'.
    assert (Le : (reval (l_obj L) c <= reval (l_obj L) x)%Q); [|apply Qle_bool_iff in Le; congruence].
    unfold L, c, corner. cbn [l_obj with_obj reval Nat.even].
    assert (G : forall k v hi, (0 <= v <= hi)%Q -> (k * (if Qle_bool 0 k then 0 else hi) <= k * v)%Q).
    { clear. intros k v hi [V1 V2]. destruct (Qle_bool 0 k) eqn:E.
      - apply Qle_bool_iff in E. assert (0 <= k * v)%Q by (apply Qmult_le_0_compat; auto). lra.
      - assert (k <= 0)%Q by (destruct (Qlt_le_dec k 0) as [|G]; [lra|apply Qle_bool_iff in G; congruence]).
        assert (- k * v <= - k * hi)%Q by (rewrite !(Qmult_comm (- k)); apply Qmult_le_compat_r; lra). lra. }
    assert (G1 := G a (x 2) 1%Q ltac:(split; assumption)). assert (G2 := G b (x 3) 2%Q ltac:(split; assumption)). lra.
Qed.
Example C52_segment_witness : orth_ok orth0 /\ get_verts fm_solver orth0 hull0 exP_diag 10 (PDim 0) (PDim 1) 0 0 = Ok (Some [[0; -1]; [2; 3]; [0; -1]]%Q)
  /\ forall vs h, hull0 vs = Ok h -> 2 < List.length (h_vertices h).
Proof. split; [exact orth0_ok|split; [vm_compute; reflexivity|exact hull0_size]]. Qed.

(** The comparison of points is relative: the box [1000000, 1000001] x [1000000, 1000001] is plotted as a single point, although each of its
    sides is 1000 times the accuracy asked for. *)
Theorem C52_far_set_refuted : exists a vs, get_verts fm_solver orth0 hull0 exP_far 10 (PDim 0) (PDim 1) 0 0 = Ok (Some vs) /\ vs = [a; a] /\
  exists p q, in_lp exP_far p /\ in_lp exP_far q /\ (q 0%nat == p 0%nat + 1)%Q /\ (q 1%nat == p 1%nat + 1)%Q.
Proof.
  exists [1000000%Q; 1000000%Q], [[1000000%Q; 1000000%Q]; [1000000%Q; 1000000%Q]]. split; [vm_compute; reflexivity|split; [reflexivity|]].
  exists (fun _ => 1000000%Q), (fun _ => 1000001%Q). split; [|split; [|split; reflexivity]].
  - exists (fun _ => 1000000%Q). split; [apply satb_ok; vm_compute; reflexivity|intros; reflexivity].
  - exists (fun _ => 1000001%Q). split; [apply satb_ok; vm_compute; reflexivity|intros; reflexivity].
Qed.

(** Sets that are flat in the first coordinate: with a solver that breaks ties differently for two directions, {0} x [0,1] is plotted as the
    segment from (0, 1/4) to (0, 3/4). *)
Theorem C52_flat_set_refuted : exists solve, solver_ok solve /\
  get_verts solve orth0 hull0 exP_flat 10 (PDim 0) (PDim 1) 0 0 = Ok (Some [[0; 1 # 4]; [0; 3 # 4]; [0; 1 # 4]]%Q) /\
  exists p q, in_lp exP_flat p /\ in_lp exP_flat q /\ (p 1%nat == 0)%Q /\ (q 1%nat == 1)%Q.
Proof.
  exists (prefer inner). split; [apply prefer_ok|split; [vm_compute; reflexivity|]]. exists (corner 0 0), (corner 0 1). split; [|split; [|split; reflexivity]].
  - exists (corner 0 0). split; [apply satb_ok; vm_compute; reflexivity|]. intros i _. destruct i as [|[|i]]; reflexivity.
  - exists (corner 0 1). split; [apply satb_ok; vm_compute; reflexivity|]. intros i _. destruct i as [|[|i]]; reflexivity.
Qed.
