(** Facts about the model of plotting. *)
From Coq Require Import Lqa.
From Verif Require Import Base BaseFacts LpModel LpSpec SetSpec LpUtil LpFacts OpsFacts4 StateSet Plot.
Open Scope nat_scope.

Lemma ok_inj {A} (x y : A) : Ok x = Ok y -> x = y.
Proof. congruence. Qed.

Section F.
Variable solve : solver.
Hypothesis Hsolve : solver_ok solve.
Variable orth : list pt -> option pt * nat.
Variable hull : list pt -> res hullres.

(** ** Every point handled by Kamenev's method is a support point *)
Section Kam.
Variable supp : pt -> res pt.
Variable P : pt -> Prop.
Hypothesis HP : forall d p, supp d = Ok p -> P p.

Lemma two_points_P dims ds pts r : Forall P pts -> find_two_points supp dims ds pts = Ok r -> Forall P r.
Proof.
  revert pts. induction ds as [|d ds IH]; intros pts Hp H; cbn [find_two_points] in H; [apply ok_inj in H; subst; auto|].
  apply bind_ok in H as (p1 & H1 & H). apply bind_ok in H as (u & _ & H). apply bind_ok in H as (p2 & H2 & H).
  destruct (pclose p1 p2); [eapply IH; [|exact H]; eauto|apply ok_inj in H; subst r; eauto].
Qed.
Lemma grow_P k p0 s vecs r : Forall P s -> grow_simplex orth supp k p0 s vecs = Ok r -> Forall P r.
Proof.
  revert s vecs. induction k as [|k IH]; intros s vecs Hs H; cbn [grow_simplex] in H; [apply ok_inj in H; subst; auto|].
  destruct (orth vecs) as [nd rank]. apply bind_ok in H as (v & _ & H). apply bind_ok in H as (p & Hp & H).
  destruct (rank <? _); [eapply IH; [|exact H]; apply Forall_app; eauto|]. apply bind_ok in H as (p' & Hp' & H).
  destruct (rank <? _); [eapply IH; [|exact H]; apply Forall_app; eauto|]. eapply IH; eauto.
Qed.
Lemma simplex_P dims r : find_init_simplex orth supp dims = Ok r -> Forall P r.
Proof.
  unfold find_init_simplex. intro H. apply bind_ok in H as (s & Hs & H). apply two_points_P in Hs; [|constructor].
  destruct s as [|p0 [|p1 [|p2 s]]]; try (apply ok_inj in H; subst; exact Hs). eapply grow_P; eauto.
Qed.
Lemma scan_P eps first fs new r : Forall P new -> scan_facets supp eps first fs new = Ok r -> Forall P r.
Proof.
  revert new. induction fs as [|[[idx n] rhs] fs IH]; intros new Hn H; cbn [scan_facets] in H; [apply ok_inj in H; subst; auto|].
  destruct (existsb _ idx); [|eauto]. apply bind_ok in H as (s & Hs & H). destruct (Qle_bool _ _); [|eauto].
  destruct (existsb _ new); [eauto|]. eapply IH; [|exact H]. apply Forall_app; eauto.
Qed.
Lemma refine_P fuel eps verts new vs : Forall P verts -> Forall P new -> refine hull supp fuel eps verts new = Ok (Some vs) -> Forall P vs.
Proof.
  revert verts new. induction fuel as [|fuel IH]; intros verts new Hv Hn H; destruct new as [|q new]; cbn [refine] in H;
    try (apply ok_inj in H; injection H as <-; exact Hv); try discriminate.
  apply bind_ok in H as (h & Hh & H). apply bind_ok in H as (nw & Hw & H). eapply IH; [| |exact H].
  - apply Forall_app; auto.
  - eapply scan_P; [|exact Hw]. constructor.
Qed.
Lemma kamenev_P fuel dims eps vs : kamenev_get_verts orth hull supp fuel dims eps = Ok (Some vs) -> Forall P vs.
Proof.
  unfold kamenev_get_verts. intro H. apply bind_ok in H as (s & Hs & H). apply simplex_P in Hs. destruct (_ <? 3).
  - apply ok_inj in H. injection H as <-. exact Hs.
  - eapply refine_P; [| |exact H]; [constructor|exact Hs].
Qed.

(** ** Accuracy of the refinement *)
Hypothesis Hsup : forall d s, supp d = Ok s -> forall p, P p -> (pdot d p <= pdot d s)%Q.
Variable D : Q.
Hypothesis HD0 : (0 <= D)%Q.
Variable good : pt -> Prop.
Hypothesis HD : forall n p s, good n -> P p -> P s -> pclose p s = true -> (pdot n s - pdot n p <= D)%Q.
Hypothesis Hcomm : forall n p, good n -> P p -> (pdot p n == pdot n p)%Q.
Hypothesis Hgood : forall vs h idx n r, hull vs = Ok h -> In (idx, n, r) (h_facets h) -> good n.
Hypothesis Hside : forall vs h idx n r v, hull vs = Ok h -> In (idx, n, r) (h_facets h) -> In v vs -> (pdot n v <= r)%Q.
Hypothesis Hne : forall vs h idx n r, hull vs = Ok h -> In (idx, n, r) (h_facets h) -> idx <> [].
Hypothesis Hkeep : forall vs new h h' idx n r, hull vs = Ok h -> hull (vs ++ new) = Ok h' -> In (idx, n, r) (h_facets h') ->
  (forall i, In i idx -> i < List.length vs) -> exists idx', In (idx', n, r) (h_facets h).

(** what is known of a facet: accurate, or a point just found beyond it is about to be added *)
Definition cov (eps : Q) (new : list pt) (n : pt) (r : Q) : Prop :=
  (forall p, P p -> (pdot n p <= r + (if Qle_bool eps D then D else eps))%Q) \/
  exists q, In q new /\ forall p, P p -> (pdot n p <= pdot n q + D)%Q.

Lemma cov_incl eps new new' n r : (forall q, In q new -> In q new') -> cov eps new n r -> cov eps new' n r.
Proof. intros I [H|(q & Hq & H)]; [left; auto|right; exists q; auto]. Qed.

Lemma scan_incl eps first fs new r : scan_facets supp eps first fs new = Ok r -> forall q, In q new -> In q r.
Proof.
  revert new. induction fs as [|[[idx n] rhs] fs IH]; intros new H q Hq; cbn [scan_facets] in H; [apply ok_inj in H; subst; auto|].
  destruct (existsb _ idx); [|eauto]. apply bind_ok in H as (s & Hs & H). destruct (Qle_bool _ _); [|eauto].
  destruct (existsb _ new); [eauto|]. eapply IH; [exact H|]. apply in_or_app; auto.
Qed.

Lemma max_le_l eps : (eps <= if Qle_bool eps D then D else eps)%Q.
Proof. destruct (Qle_bool eps D) eqn:E; [apply Qle_bool_iff; exact E|apply Qle_refl]. Qed.
Lemma max_le_r eps : (D <= if Qle_bool eps D then D else eps)%Q.
Proof. destruct (Qle_bool eps D) eqn:E; [apply Qle_refl|]. destruct (Qlt_le_dec D eps) as [L|L]; [lra|]. apply Qle_bool_iff in L. congruence. Qed.

Lemma scan_cov eps first fs new r : (forall idx n rhs, In (idx, n, rhs) fs -> good n) -> Forall P new ->
  scan_facets supp eps first fs new = Ok r ->
  forall idx n rhs, In (idx, n, rhs) fs -> existsb (fun i => first <=? i) idx = true -> cov eps r n rhs.
Proof.
  intro Hg. revert new. induction fs as [|[[idx n] rhs] fs IH]; intros new Hn H idx' n' rhs' Hin Hnew; cbn [scan_facets] in H; [destruct Hin|].
  assert (Hg' : forall idx n rhs, In (idx, n, rhs) fs -> good n) by (intros; eapply Hg; right; eauto).
  destruct Hin as [E|Hin].
  - injection E as -> -> ->. rewrite Hnew in H. apply bind_ok in H as (s & Hs & H). assert (Ps := HP _ _ Hs).
    assert (Gn : good n') by (eapply Hg; left; reflexivity).
    destruct (Qle_bool eps _) eqn:E.
    + destruct (existsb (fun p => pclose p s) new) eqn:Ex.
      * apply existsb_exists in Ex as (q & Hq & Hc). right. exists q. split; [eapply scan_incl; eauto|]. intros p Hp.
        rewrite Forall_forall in Hn. specialize (HD n' q s Gn (Hn q Hq) Ps Hc). specialize (Hsup _ _ Hs p Hp). lra.
      * right. exists s. split; [eapply scan_incl; [exact H|]; apply in_or_app; right; left; reflexivity|]. intros p Hp.
        specialize (Hsup _ _ Hs p Hp). lra.
    + left. intros p Hp. specialize (Hsup _ _ Hs p Hp). specialize (Hcomm n' s Gn Ps). assert (M := max_le_l eps).
      assert (~ (eps <= pdot s n' - rhs')%Q) by (intro L; apply Qle_bool_iff in L; congruence). lra.
  - assert (Hrec : forall nw, Forall P nw -> scan_facets supp eps first fs nw = Ok r -> cov eps r n' rhs') by (intros nw Hnw Hx; eapply (IH Hg' nw); eauto).
    destruct (existsb _ idx); [|apply (Hrec new Hn H)]. apply bind_ok in H as (s & Hs & H). destruct (Qle_bool _ _); [|apply (Hrec new Hn H)].
    destruct (existsb _ new); [apply (Hrec new Hn H)|]. apply (Hrec (new ++ [s])); auto. apply Forall_app; eauto.
Qed.

Lemma refine_cov fuel eps verts new vs : Forall P verts -> Forall P new ->
  (verts <> [] -> exists h, hull verts = Ok h /\ forall idx n r, In (idx, n, r) (h_facets h) -> cov eps new n r) ->
  refine hull supp fuel eps verts new = Ok (Some vs) -> vs <> [] ->
  exists h, hull vs = Ok h /\ forall idx n r, In (idx, n, r) (h_facets h) ->
    forall p, P p -> (pdot n p <= r + (if Qle_bool eps D then D else eps))%Q.
Proof.
  revert verts new. induction fuel as [|fuel IH]; intros verts new Hv Hn Hc H Hvs; destruct new as [|q new]; cbn [refine] in H; try discriminate.
  1,2: apply ok_inj in H; injection H as <-; destruct (Hc Hvs) as (h & Hh & C); exists h; split; [exact Hh|]; intros idx n r Hi p Hp;
    destruct (C idx n r Hi) as [L|(z & [] & _)]; auto.
  apply bind_ok in H as (h & Hh & H). apply bind_ok in H as (nw & Hw & H).
  assert (Hall : Forall P (verts ++ q :: new)) by (apply Forall_app; auto).
  eapply (IH (verts ++ q :: new) nw); auto.
  - eapply scan_P; [|exact Hw]. constructor.
  - intros _. exists h. split; [exact Hh|]. intros idx n r Hi.
    destruct (existsb (fun i => List.length verts <=? i) idx) eqn:E.
    + eapply scan_cov; [|constructor|exact Hw|exact Hi|exact E]. intros; eapply Hgood; eauto.
    + assert (Hlt : forall i, In i idx -> i < List.length verts).
      { intros i Hii. destruct (Nat.lt_ge_cases i (List.length verts)) as [|G]; auto. apply Nat.leb_le in G.
        assert (existsb (fun i => List.length verts <=? i) idx = true) by (apply existsb_exists; eauto). congruence. }
      left. destruct verts as [|v0 verts'].
      * exfalso. assert (E0 : idx = []) by (destruct idx as [|i]; [reflexivity|exfalso; specialize (Hlt i (or_introl eq_refl)); cbn in Hlt; lia]).
        apply (Hne _ _ _ _ _ Hh Hi E0).
      * destruct Hc as (h0 & Hh0 & C); [discriminate|]. destruct (Hkeep _ _ _ _ _ _ _ Hh0 Hh Hi Hlt) as (idx' & Hi').
        assert (M := max_le_r eps). destruct (C _ _ _ Hi') as [L|(z & Hz & L)]; [exact L|]. intros p Hp. specialize (L p Hp).
        assert (pdot n z <= r)%Q by (eapply Hside; [exact Hh|exact Hi|]; apply in_or_app; auto). lra.
Qed.

(** ** Termination when the support points come from a finite list *)
Lemma scan_new eps first fs new r (verts : list pt) : (0 < eps)%Q ->
  (forall idx n rhs, In (idx, n, rhs) fs -> good n /\ forall v, In v verts -> (pdot n v <= rhs)%Q) ->
  (forall q, In q new -> ~ In q verts) -> scan_facets supp eps first fs new = Ok r -> forall q, In q r -> ~ In q verts.
Proof.
  intros He. revert new. induction fs as [|[[idx n] rhs] fs IH]; intros new Hf Hn H q Hq; cbn [scan_facets] in H; [apply ok_inj in H; subst; auto|].
  assert (Hf' : forall idx n rhs, In (idx, n, rhs) fs -> good n /\ forall v, In v verts -> (pdot n v <= rhs)%Q) by (intros; eapply Hf; right; eauto).
  assert (Hrec : forall nw, (forall q, In q nw -> ~ In q verts) -> scan_facets supp eps first fs nw = Ok r -> ~ In q verts) by (intros nw Hnw Hx; eapply (IH nw); eauto).
  destruct (existsb _ idx); [|eauto]. apply bind_ok in H as (s & Hs & H). destruct (Qle_bool _ _) eqn:E; [|eauto].
  destruct (existsb _ new); [eauto|]. apply (Hrec (new ++ [s])); auto. intros z Hz. apply in_app_or in Hz as [Hz|[<-|[]]]; [auto|].
  intro Hin. destruct (Hf idx n rhs (or_introl eq_refl)) as [Gn Hle]. specialize (Hle s Hin). specialize (Hcomm n s Gn (HP _ _ Hs)).
  apply Qle_bool_iff in E. lra.
Qed.

Lemma pt_dec : forall a b : pt, {a = b} + {a <> b}.
Proof. apply list_eq_dec. intros a b. destruct a as [n d], b as [n' d']. destruct (Z.eq_dec n n'); [|right; congruence]. destruct (Pos.eq_dec d d'); [left|right]; congruence. Qed.

Definition left_over (L verts : list pt) : nat := List.length (filter (fun p => if in_dec pt_dec p verts then false else true) L).
Lemma left_over_lt L verts new q : In q L -> In q new -> ~ In q verts -> left_over L (verts ++ new) < left_over L verts.
Proof.
  unfold left_over. intros HL Hq Hn.
  assert (W : forall K, List.length (filter (fun p => if in_dec pt_dec p (verts ++ new) then false else true) K)
                <= List.length (filter (fun p => if in_dec pt_dec p verts then false else true) K)).
  { induction K as [|x K IH]; cbn [filter]; [lia|]. destruct (in_dec pt_dec x (verts ++ new)) as [i|i], (in_dec pt_dec x verts) as [j|j]; cbn [List.length]; try lia.
    exfalso; apply i, in_or_app; auto. }
  induction L as [|x L IH]; [destruct HL|]. cbn [filter]. specialize (W L). destruct HL as [->|HL].
  - destruct (in_dec pt_dec q (verts ++ new)) as [i|i]; [|exfalso; apply i, in_or_app; auto]. destruct (in_dec pt_dec q verts); [contradiction|]. cbn [List.length]. lia.
  - specialize (IH HL). destruct (in_dec pt_dec x (verts ++ new)) as [i|i], (in_dec pt_dec x verts) as [j|j]; cbn [List.length]; try lia.
    exfalso; apply i, in_or_app; auto.
Qed.

Lemma refine_term L fuel eps verts new : (0 < eps)%Q -> (forall p, P p -> In p L) -> Forall P new -> (forall q, In q new -> ~ In q verts) ->
  left_over L verts < fuel -> refine hull supp fuel eps verts new <> Ok None.
Proof.
  intros He HL. revert verts new. induction fuel as [|fuel IH]; intros verts new Hn Hd Hlt; [lia|]. destruct new as [|q new]; cbn [refine]; [discriminate|].
  intro H. apply bind_ok in H as (h & Hh & H). apply bind_ok in H as (nw & Hw & H). revert H. apply IH.
  - eapply scan_P; [|exact Hw]. constructor.
  - eapply (scan_new eps (List.length verts) (h_facets h) [] nw); [exact He| |intros z Hz; destruct Hz|exact Hw]. intros idx n rhs Hi. split; [eapply Hgood; eauto|]. intros; eapply Hside; eauto.
  - assert (left_over L (verts ++ q :: new) < left_over L verts); [|lia]. apply (left_over_lt L verts (q :: new) q); [|left; reflexivity|apply Hd; left; reflexivity].
    apply HL. inversion Hn; auto.
Qed.
Lemma left_over_le L verts : left_over L verts <= List.length L.
Proof. unfold left_over. induction L as [|x L IH]; cbn [filter]; [cbn; lia|]. destruct (in_dec _ _ _); cbn [List.length]; lia. Qed.
End Kam.

(** ** Support points of the LP *)
Variable l : lp.
Lemma min_cols_spec d cols r : min_cols solve l d cols = Ok r ->
  exists xs, r = map xs cols /\ in_lp l (fun i => xs (l_cvo l + i)) /\ forall p, in_lp l p -> (ldot d 0 (fun i => xs (l_cvo l + i)%nat) <= ldot d 0 p)%Q.
Proof.
  unfold min_cols. intro H. apply bind_ok in H as (l1 & H1 & H). apply bind_ok in H as (o & H2 & H). destruct o as [v|]; [|discriminate].
  apply ok_inj in H. subst v. destruct (min_dir_spec solve Hsolve _ _ _ _ _ _ H1 H2) as (xs & E & _ & Hin & Ho). exists xs. auto.
Qed.

Lemma set_at_nth d i v d' : set_at d i v = Ok d' -> i < List.length d /\ List.length d' = List.length d /\ forall j, nth j d' 0%Q = if Nat.eqb j i then v else nth j d 0%Q.
Proof.
  revert i d'. induction d as [|x d IH]; intros [|i] d' H; cbn [set_at] in H; try discriminate.
  - apply ok_inj in H. subst d'. cbn [List.length]. split; [lia|split; [reflexivity|]]. intros [|j]; reflexivity.
  - apply bind_ok in H as (r & Hr & H). apply ok_inj in H. subst d'. destruct (IH _ _ Hr) as (A & B & C). cbn [List.length]. split; [lia|split; [lia|]].
    intros [|j]; [reflexivity|]. cbn [nth Nat.eqb]. apply C.
Qed.

Lemma ldot_nth d n (x : vec) : List.length d = n -> (ldot d 0 x == fold_right (fun i acc => nth i d 0 * x i + acc) 0 (seq 0 n))%Q.
Proof.
  intro E. assert (G : forall off k d, List.length d = k -> (ldot d off x == fold_right (fun i acc => nth (i - off) d 0 * x i + acc) 0 (seq off k))%Q).
  { clear. intros off k. revert off. induction k as [|k IH]; intros off [|a d] E; try discriminate; cbn [ldot seq fold_right]; [reflexivity|].
    rewrite Nat.sub_diag. cbn [nth]. rewrite (IH (S off) d) by (cbn in E; lia). apply Qplus_inj_l.
    clear. assert (H : forall m, S off <= m -> (fold_right (fun i acc => nth (i - S off) d 0 * x i + acc) 0 (seq m k) == fold_right (fun i acc => nth (i - off) (a :: d) 0 * x i + acc) 0 (seq m k))%Q); [|apply H; lia].
    induction k as [|k IHk]; intros m Hm; cbn [seq fold_right]; [reflexivity|]. rewrite IHk by lia. replace (m - off) with (S (m - S off)) by lia. reflexivity. }
  rewrite (G 0 n d E). clear. induction (seq 0 n) as [|i s IH]; cbn [fold_right]; [reflexivity|]. rewrite IH, Nat.sub_0_r. reflexivity.
Qed.

Lemma ldot_one d (x : vec) i c : i < List.length d -> (forall j, (nth j d 0 == if Nat.eqb j i then c else 0)%Q) -> (ldot d 0 x == c * x i)%Q.
Proof.
  intros Hi Hd. rewrite (ldot_nth d (List.length d)) by reflexivity. assert (G : forall m k, (fold_right (fun j acc => nth j d 0 * x j + acc) 0 (seq m k) == if (m <=? i) && (i <? m + k) then c * x i else 0)%Q).
  { clear Hi. intros m k. revert m. induction k as [|k IH]; intro m; cbn [seq fold_right].
    - destruct (m <=? i) eqn:A, (i <? m + 0) eqn:B; cbn [andb]; try reflexivity. apply Nat.leb_le in A. apply Nat.ltb_lt in B. lia.
    - rewrite IH, Hd. destruct (Nat.eqb_spec m i) as [->|N].
      + replace (S i <=? i) with false by (symmetry; apply Nat.leb_gt; lia). rewrite Nat.leb_refl. replace (i <? i + S k) with true by (symmetry; apply Nat.ltb_lt; lia). cbn [andb]. ring.
      + replace (S m <=? i) with (m <=? i); [replace (m + S k) with (S m + k) by lia; ring|]. destruct (Nat.leb_spec m i), (Nat.leb_spec (S m) i); auto; lia. }
  rewrite G. cbn [Nat.leb]. replace (i <? 0 + List.length d) with true by (symmetry; apply Nat.ltb_lt; lia). reflexivity.
Qed.

Lemma ldot_two d (x : vec) i j a b : i < List.length d -> j < List.length d -> i <> j ->
  (forall k, (nth k d 0 == if Nat.eqb k j then b else if Nat.eqb k i then a else 0)%Q) -> (ldot d 0 x == a * x i + b * x j)%Q.
Proof.
  intros Hi Hj N Hd. pose (d1 := map (fun k => if Nat.eqb k i then a else 0%Q) (seq 0 (List.length d))). pose (d2 := map (fun k => if Nat.eqb k j then b else 0%Q) (seq 0 (List.length d))).
  assert (L1 : List.length d1 = List.length d) by (unfold d1; rewrite map_length, seq_length; reflexivity).
  assert (L2 : List.length d2 = List.length d) by (unfold d2; rewrite map_length, seq_length; reflexivity).
  assert (N1 : forall f k, nth k (map f (seq 0 (List.length d))) 0%Q = if k <? List.length d then f k else 0%Q).
  { intros f k. destruct (Nat.ltb_spec k (List.length d)) as [L|L].
    - rewrite (nth_indep _ 0%Q (f 0)) by (rewrite map_length, seq_length; exact L). rewrite map_nth, seq_nth by exact L. reflexivity.
    - rewrite nth_overflow by (rewrite map_length, seq_length; exact L). reflexivity. }
  assert (E1 := ldot_one d1 x i a). assert (E2 := ldot_one d2 x j b). rewrite <- E1, <- E2; try lia.
  - rewrite (ldot_nth d (List.length d)), (ldot_nth d1 (List.length d)), (ldot_nth d2 (List.length d)) by auto. clear E1 E2.
    assert (G : forall s, (forall k, In k s -> k < List.length d) -> (fold_right (fun k acc => nth k d 0 * x k + acc) 0 s == fold_right (fun k acc => nth k d1 0 * x k + acc) 0 s + fold_right (fun k acc => nth k d2 0 * x k + acc) 0 s)%Q).
    { induction s as [|k s IH]; intro Hs; cbn [fold_right]; [ring|]. rewrite IH by (intros; apply Hs; right; auto). rewrite Hd. unfold d1, d2. rewrite !N1.
      assert (Hk : k < List.length d) by (apply Hs; left; reflexivity). apply Nat.ltb_lt in Hk. rewrite Hk.
      destruct (Nat.eqb_spec k j), (Nat.eqb_spec k i); try ring. lia. }
    apply G. intros k Hk. apply in_seq in Hk. lia.
  - intro k. unfold d2. rewrite N1. destruct (Nat.ltb_spec k (List.length d)); [reflexivity|]. destruct (Nat.eqb_spec k j); [lia|reflexivity].
  - intro k. unfold d1. rewrite N1. destruct (Nat.ltb_spec k (List.length d)); [reflexivity|]. destruct (Nat.eqb_spec k i); [lia|reflexivity].
Qed.

Lemma nth_lzero n j : nth j (lzero n) 0%Q = 0%Q.
Proof. unfold lzero. destruct (Nat.lt_ge_cases j n); [apply nth_repeat|apply nth_overflow; rewrite repeat_length; lia]. Qed.
Lemma lzero_length n : List.length (lzero n) = n.
Proof. apply repeat_length. Qed.

Lemma get_at_map (f : nat -> Q) (n i : nat) v : get_at (map f (map (fun k => l_cvo l + k) (seq 0 n))) i = Ok v -> i < n /\ v = f (l_cvo l + i).
Proof.
  unfold get_at. rewrite map_map. intro H. destruct (nth_error _ i) as [w|] eqn:E; [|discriminate]. apply ok_inj in H. subst w.
  assert (Hi : i < n) by (assert (A : nth_error (map (fun k => f (l_cvo l + k)) (seq 0 n)) i <> None) by congruence; apply nth_error_Some in A; rewrite map_length, seq_length in A; exact A).
  split; [exact Hi|]. rewrite nth_error_map in E. rewrite (nth_error_nth' _ 0) in E by (rewrite seq_length; exact Hi). rewrite seq_nth in E by exact Hi. cbn in E. congruence.
Qed.

(** the projection of the set on two coordinates *)
Definition proj (xd yd : nat) (v : pt) : Prop := exists p, in_lp l p /\ v = [p xd; p yd].

Lemma supp_point_spec xd yd vec s : supp_point solve l xd yd vec = Ok s ->
  proj xd yd s /\ xd < l_dims l /\ yd < l_dims l /\ List.length vec = 2 /\
  (xd <> yd -> forall p, proj xd yd p -> (pdot vec p <= pdot vec s)%Q).
Proof.
  unfold supp_point. intro H. apply bind_ok in H as (u & Hu & H). apply assert_ok, Nat.eqb_eq in Hu. apply bind_ok in H as (d & Hd & H).
  apply bind_ok in H as (r & Hr & H). apply bind_ok in H as (x & Hx & H). apply bind_ok in H as (y & Hy & H). apply ok_inj in H. subst s.
  destruct vec as [|a [|b [|c vec]]]; try discriminate. destruct (min_cols_spec _ _ _ Hr) as (xs & -> & Hin & Ho).
  unfold cur_cols in Hx, Hy. apply get_at_map in Hx as [Lx ->]. apply get_at_map in Hy as [Ly ->].
  split; [exists (fun i => xs (l_cvo l + i)); auto|]. split; [exact Lx|split; [exact Ly|split; [reflexivity|]]]. intros N p (q & Hq & ->).
  cbn [set_dims] in Hd. apply bind_ok in Hd as (d1 & H1 & Hd). apply bind_ok in Hd as (d2 & H2 & Hd). apply ok_inj in Hd. subst d2.
  destruct (set_at_nth _ _ _ _ H1) as (A1 & B1 & C1). destruct (set_at_nth _ _ _ _ H2) as (A2 & B2 & C2). rewrite lzero_length in *.
  assert (E : forall z, (ldot d 0 z == - a * z xd + - b * z yd)%Q).
  { intro z. apply ldot_two; try lia. intro k. rewrite C2, C1, nth_lzero. reflexivity. }
  specialize (Ho q Hq). rewrite !E in Ho. unfold pdot. cbn [ldot of_list nth]. lra.
Qed.
End F.
