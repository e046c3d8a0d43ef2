(** Properties C08 (guards), C12, C17, C27, C28, C40, C42: automata and state sets.
    Vocabulary: HybridSpec.v (executions, well-formed automata), StateSpec.v (state sets and automata built by public calls). *)
From Verif Require Import Base LpModel LpSpec SetSpec LpUtil ApiSpec Solver Automaton StateSet HybridSpec StateSpec.
From Verif Require Import BaseFacts LpFacts SetFacts SetFacts2 OpsFacts OpsFacts2 OpsFacts3 OpsFacts4 MinkFacts AggFacts ApiFacts FlowFacts StateFacts StateFacts2 StateFacts3 AutoFacts BuildFacts ApproxFacts Prop_Sets.
Open Scope nat_scope.

Section Props.
Variable solve : solver.
Hypothesis Hsolve : solver_ok solve.

Lemma run_st a s : wf_ha a -> sset_run solve a s -> exists x, st_ok solve a s x.
Proof.
  intros WH. induction 1 as [l m lo hi ops conc s x Hm Hx Ha Hd H|s k s' _ (x & S) H|s s' ops ok _ (x & S) H|s s' _ (x & S) E0 HN H].
  - exists x. eapply (new_stateset_ok solve) in H; eauto. apply H.
  - exists x. apply (step_to_ok solve Hsolve) with (x := x) in H; auto. apply H.
  - exists x. apply (intersect_invariant_ok solve Hsolve) with (x := x) in H; auto. apply H.
  - exists x. eapply approx_chull_st; eauto.
Qed.

(** ** C08: guard intersection.  The set passed in keeps its points, rows and columns (only the objective may change). *)
Theorem C08_guard_intersection_exact a t l k l1 o :
  wf_ha a -> t < List.length (ha_trans a) -> api solve l k -> l_dims l = m_dims (get_mode a (t_from (get_trans a t))) ->
  get_guard_intersection solve (get_trans a t) l = Ok (l1, o) ->
  (exists ob, l1 = with_obj l ob) /\ (forall p, in_lp l1 p <-> in_lp l p) /\
  (o = None <-> forall p, in_lp l p -> ~ guard_ok (get_trans a t) p) /\
  (forall tl, o = Some tl -> l_dims tl = l_dims l /\ forall p, in_lp tl p <-> in_lp l p /\ guard_ok (get_trans a t) p).
Proof.
  intros [_ WT] Ht Ha Hd H. specialize (WT t Ht). eapply (guard_intersection_ok solve Hsolve) in H as [(ob & ->) H]; eauto; [|exact (wft_guard _ _ WT)].
  split; [eauto|]. split; [intro p; apply in_lp_with_obj|]. destruct o as [tl|].
  - destruct H as (_ & D & I & (p & Hp)). split; [split; [discriminate|]|].
    + intro Hn. apply I in Hp as [P1 P2]. destruct (Hn p P1 P2).
    + intros tl' E. injection E as <-. auto.
  - split; [tauto|discriminate].
Qed.

(** ** C12 *)
Theorem C12_intersect_invariant_exact a s s' ops ok :
  wf_ha a -> sset_run solve a s -> intersect_invariant solve a s = Ok (s', ops, ok) ->
  let m := get_mode a (ss_mode s) in
  ss_mode s' = ss_mode s /\ ss_step s' = ss_step s /\ ss_lo s' = ss_lo s /\ ss_hi s' = ss_hi s /\ ss_conc s' = ss_conc s /\
  (forall p, in_lp (ss_lpi s') p -> in_lp (ss_lpi s) p) /\
  (forall p, in_lp (ss_lpi s) p -> (forall c, In c (m_inv m) -> (reval (lc_row c) p <= lc_rhs c)%Q) -> in_lp (ss_lpi s') p) /\
  (forall p c, ok = true -> in_lp (ss_lpi s') p -> In c (m_inv m) -> (reval (lc_row c) p < lc_rhs c + (1 # 10000000000000))%Q) /\
  (ok = false -> (forall p, ~ in_lp (ss_lpi s') p) /\ forall p, in_lp (ss_lpi s) p -> exists c, In c (m_inv m) /\ (lc_rhs c < reval (lc_row c) p)%Q) /\
  (ok = true -> (exists p, in_lp (ss_lpi s) p) -> exists p, in_lp (ss_lpi s') p).
Proof.
  intros WH HR H m. destruct (run_st a s WH HR) as (x & S).
  destruct (intersect_invariant_ok solve Hsolve a s x s' ops ok WH S H) as (_ & (F1 & F2 & F3 & F4 & F5 & _) & G1 & G2 & G3 & G4 & G5).
  assert (G2' : forall p, in_lp (ss_lpi s) p -> (forall c, In c (m_inv m) -> (reval (lc_row c) p <= lc_rhs c)%Q) -> in_lp (ss_lpi s') p).
  { intros p Hp Hc. apply G2; auto. intros c Hin. left. apply Hc; auto. }
  split; auto. split; auto. split; auto. split; auto. split; auto. split; auto. split; auto. split; [|split; auto].
  - intros p c Eo Hp Hc. specialize (G3 Eo p Hp c Hc). change (1 # 10000000000000)%Q with tol13. destruct G3 as [G|G]; [|exact G].
    assert (0 < tol13)%Q by reflexivity. lra.
  - intro Eo. split; [auto|]. intros p Hp.
    destruct (existsb (fun c => negb (Qle_bool (reval (lc_row c) p) (lc_rhs c))) (m_inv m)) eqn:E.
    + apply existsb_exists in E as (c & Hc & E). exists c. split; auto. apply negb_true_iff in E. apply Qnot_le_lt. intro Hle. apply Qle_bool_iff in Hle. congruence.
    + exfalso. apply (G4 Eo p). apply G2'; auto. intros c Hc. apply Qle_bool_iff. destruct (Qle_bool _ _) eqn:E2; auto. exfalso.
      apply not_true_iff_false in E. apply E. apply existsb_exists. exists c. split; auto. rewrite E2. reflexivity.
Qed.

(** ** C17 *)
(** one step *)
Theorem C17_step_exact a s s' :
  wf_ha a -> sset_run solve a s -> (m_b (get_mode a (ss_mode s)) = None \/ no_rows s) -> ss_step1 a s = Ok s' ->
  let m := get_mode a (ss_mode s) in
  ss_mode s' = ss_mode s /\ ss_step s' = S (ss_step s) /\ ss_lo s' = S (ss_lo s) /\ ss_hi s' = S (ss_hi s) /\ ss_conc s' = ss_conc s /\
  forall p', in_lp (ss_lpi s') p' <-> exists p u, in_lp (ss_lpi s) p /\ input_ok m u /\ one_step m p u p'.
Proof.
  intros WH HR Hin H m. destruct (run_st a s WH HR) as (x & S). unfold ss_step1 in H.
  destruct (step_to_ok solve Hsolve a s x _ s' WH S H) as (_ & _ & E1 & E2 & E3 & E4 & E5 & _ & _ & _ & E6).
  replace (Datatypes.S (ss_step s) - ss_step s) with 1 in * by lia.
  split; auto. split; auto. split; [lia|]. split; [lia|]. split; auto. intro p'. rewrite (E6 Hin p'). fold m. split.
  - intros (p & Hp & q & u & Hq & Hu & Ho). exists q, u. split; auto. cbn [flow] in Hq. eapply in_lp_ext; [|exact Hp].
    rewrite (st_dims _ _ _ _ S). rewrite (m_dims_eq m x (st_a _ _ _ _ S)) in Hq. exact Hq.
  - intros (p & u & Hp & Hu & Ho). exists p. split; auto. exists p, u. split; [apply veq_refl|auto].
Qed.

(** step(k): the image under k - current step many single steps *)
Theorem C17_step_many_exact a s k s' :
  wf_ha a -> sset_run solve a s -> (m_b (get_mode a (ss_mode s)) = None \/ no_rows s) -> ss_step_to a s k = Ok s' ->
  ss_step s <= k /\ ss_step s' = k /\ ss_lo s' = ss_lo s + (k - ss_step s) /\ ss_hi s' = ss_hi s + (k - ss_step s) /\
  forall p', in_lp (ss_lpi s') p' <-> exists p, in_lp (ss_lpi s) p /\ flow (get_mode a (ss_mode s)) (k - ss_step s) p p'.
Proof.
  intros WH HR Hin H. destruct (run_st a s WH HR) as (x & S).
  destruct (step_to_ok solve Hsolve a s x _ s' WH S H) as (_ & E0 & E1 & E2 & E3 & E4 & E5 & _ & _ & _ & E6). auto 6.
Qed.

(** jumping directly and going through an intermediate step give the same set *)
Theorem C17_step_split a s k j s1 s2 s3 :
  wf_ha a -> sset_run solve a s -> (m_b (get_mode a (ss_mode s)) = None \/ no_rows s) ->
  ss_step_to a s k = Ok s1 -> ss_step_to a s1 j = Ok s2 -> ss_step_to a s j = Ok s3 ->
  ss_step s2 = ss_step s3 /\ ss_lo s2 = ss_lo s3 /\ ss_hi s2 = ss_hi s3 /\ forall p, in_lp (ss_lpi s2) p <-> in_lp (ss_lpi s3) p.
Proof.
  intros WH HR Hin H1 H2 H3. destruct (run_st a s WH HR) as (x & S).
  destruct (step_to_ok solve Hsolve a s x _ s1 WH S H1) as (S1 & A0 & A1 & A2 & A3 & A4 & A5 & _ & A6 & _ & A7).
  destruct (step_to_ok solve Hsolve a s1 x _ s2 WH S1 H2) as (S2 & B0 & B1 & B2 & B3 & B4 & B5 & _ & B6 & _ & B7).
  destruct (step_to_ok solve Hsolve a s x _ s3 WH S H3) as (S3 & D0 & D1 & D2 & D3 & D4 & D5 & _ & D6 & _ & D7).
  rewrite A1 in *. split; [lia|]. split; [lia|]. split; [lia|]. intro p. rewrite (D7 Hin p). rewrite A2 in B7. rewrite A6 in B7. unfold no_rows in Hin. rewrite (B7 Hin p).
  set (m := get_mode a (ss_mode s)) in *. replace (j - ss_step s) with ((j - k) + (k - ss_step s)) by lia.
  assert (Hc : forall i q, (exists p0, in_lp (ss_lpi s1) p0 /\ flow m i p0 q) <-> exists p0, in_lp (ss_lpi s) p0 /\ flow m (i + (k - ss_step s)) p0 q).
  { induction i as [|i IH]; intro q; cbn [flow Nat.add].
    - rewrite <- (A7 Hin q). split.
      + intros (p0 & Hp & Hv). eapply in_lp_ext; [|exact Hp]. rewrite (st_dims _ _ _ _ S1). unfold m in Hv. rewrite (m_dims_eq _ x (st_a _ _ _ _ S)) in Hv. exact Hv.
      + intro Hp. exists q. split; auto. apply veq_refl.
    - split.
      + intros (p0 & Hp & q0 & u & Hf & Hu & Ho). destruct (proj1 (IH q0) (ex_intro _ p0 (conj Hp Hf))) as (p1 & Hp1 & Hf1). exists p1. split; auto. exists q0, u. auto.
      + intros (p0 & Hp & q0 & u & Hf & Hu & Ho). destruct (proj2 (IH q0) (ex_intro _ p0 (conj Hp Hf))) as (p1 & Hp1 & Hf1). exists p1. split; auto. exists q0, u. auto. }
  apply Hc.
Qed.

Theorem C17_step_back_raises a s k : k < ss_step s -> ss_step_to a s k = Err EAssert.
Proof. intro H. unfold ss_step_to. apply Nat.leb_gt in H. rewrite H. reflexivity. Qed.

(** ** C27 *)
Theorem C27_strengthening_preserves_reachability a a' ru init :
  wf_ha a -> do_guard_strengthening a = Ok a' ->
  ha_modes a' = ha_modes a /\ wf_ha a' /\
  (error_reachable 0 ru a' init <-> error_reachable 0 ru a init) /\
  (forall m p k n, 0 < k \/ inv_ok 0 (get_mode a m) p -> (reach 0 ru a' init m p k n <-> reach 0 ru a init m p k n)).
Proof.
  intros WH H. split; [apply gs_modes; auto|]. split; [eapply gs_wf; eauto|]. split.
  - split; [eapply gs_error_sub; eauto|eapply gs_error_sup; eauto].
  - intros m p k n Hk. split; [eapply gs_reach_sub; eauto|]. intro Hr. eapply gs_reach_sup; eauto.
Qed.
(** with any tolerance on the invariants, strengthening adds no execution *)
Theorem C27_strengthening_adds_nothing a a' lax ru init m p k n :
  wf_ha a -> do_guard_strengthening a = Ok a' -> reach lax ru a' init m p k n -> reach lax ru a init m p k n.
Proof. intros WH H. eapply gs_reach_sub; eauto. Qed.

(** ** C28 *)
(** a true answer of was_tt_taken: some guard row r <= b is, up to eps, opposite to an invariant condition of the mode, the
    set is flat in that direction up to eps and lies in the half space r < b + eps: all its states are at the guard's
    boundary, and every state with r p > b leaves the guard by less than eps *)
Theorem C28_tt_taken_means_at_boundary a l t h N l1 :
  wf_ha a -> t < List.length (ha_trans a) -> was_tt_taken solve a l (get_trans a t) h N = Ok (l1, true) ->
  let eps := (2 * h / inject_Z (Z.of_nat N) / 1000)%Q in
  (forall p, in_lp l1 p <-> in_lp l p) /\
  exists g rhs i r b c, t_guard (get_trans a t) = Some (g, rhs) /\ nth_error (c_rows g) i = Some r /\ nth_error rhs i = Some b /\
    In c (m_inv (get_mode a (t_from (get_trans a t)))) /\ (Qabs (lc_rhs c + b) < eps)%Q /\ (forall p, reval r p == - reval (lc_row c) p)%Q /\
    (forall p q, in_lp l p -> in_lp l q -> (Qabs (reval r p - reval r q) < eps)%Q) /\
    (forall p, in_lp l p -> (reval r p < b + eps)%Q).
Proof.
  intros WH Ht H eps. destruct (was_tt_taken_ok solve Hsolve a l _ h N l1 true WH (proj2 WH t Ht) H) as ((o & ->) & Hr).
  split; [intro p; apply in_lp_with_obj|]. destruct (wft_guard _ _ (proj2 WH t Ht)) as (g & rhs & Hg & _).
  destruct (Hr eq_refl g rhs Hg) as (i & r & b & c & R). exists g, rhs, i, r, b, c. auto.
Qed.

(** detect_tt_transitions only enlarges guards, by step/num_steps/1000, on rows opposite to an invariant condition *)
Theorem C28_relaxation a h N a' t :
  wf_ha a -> detect_tt a h N = Ok a' -> t < List.length (ha_trans a) ->
  let eps := (h / inject_Z (Z.of_nat N) / 1000)%Q in
  ha_modes a' = ha_modes a /\ t_from (get_trans a' t) = t_from (get_trans a t) /\ t_to (get_trans a' t) = t_to (get_trans a t) /\
  t_reset (get_trans a' t) = t_reset (get_trans a t) /\ t_mink (get_trans a' t) = t_mink (get_trans a t) /\
  exists g rhs rhs', t_guard (get_trans a t) = Some (g, rhs) /\ t_guard (get_trans a' t) = Some (g, rhs') /\ List.length rhs' = List.length rhs /\
    forall i b, nth_error rhs i = Some b -> exists b', nth_error rhs' i = Some b' /\
      (b' = b \/ b' = (b + eps)%Q /\ t_tt (get_trans a' t) = true /\
        exists r c, nth_error (c_rows g) i = Some r /\ In c (m_inv (get_mode a (t_from (get_trans a t)))) /\ (lc_rhs c == - b)%Q /\
                    forall p, (reval r p == - reval (lc_row c) p)%Q).
Proof.
  intros [WM WT] H Ht eps. apply detect_tt_ok in H as (H1 & _ & H2). destruct (H2 t Ht) as (_ & R1 & R2 & R3 & R4 & _ & R5).
  split; auto. split; auto. split; auto. split; auto. split; auto. specialize (WT t Ht). destruct (wft_guard _ _ WT) as (g & rhs & Hg & Hok & _).
  rewrite Hg in R5. destruct (t_guard (get_trans a' t)) as [[g' rhs']|]; [|destruct R5]. destruct R5 as (-> & L & R5).
  exists g, rhs, rhs'. split; auto. split; auto. split; auto. intros i b Hb. destruct (R5 i b Hb) as (b' & Hb' & [E|(E & F & r & c & E1 & E2 & E3 & E4)]); exists b'; split; auto.
  right. split; auto. split; auto. exists r, c. split; auto. split; auto. split; auto. apply E4.
  - apply nth_error_In in E1. unfold csr_ok in Hok. rewrite Forall_forall in Hok. auto.
  - destruct (wft_from _ _ WT) as [Hf Hne]. specialize (WM _ Hf). unfold is_error in Hne. destruct (m_a _) as [x|]; [|discriminate].
    destruct (wfm_inv _ _ WM c E2) as [W R]. rewrite W. exact R.
Qed.

(** ** C40 *)
Definition singleton (l : lp) (p : vec) : Prop := forall q, in_lp l q <-> veq (l_dims l) p q.

Lemma combine_nth_error {A B} (l1 : list A) : forall (l2 : list B) i a b,
  nth_error (combine l1 l2) i = Some (a, b) <-> nth_error l1 i = Some a /\ nth_error l2 i = Some b.
Proof.
  induction l1 as [|x l1 IH]; intros [|y l2] i a b; destruct i as [|i]; cbn [combine nth_error]; try (split; [discriminate|intros [? ?]; discriminate]).
  - split; [intro H; injection H as <- <-; auto|intros [H1 H2]; congruence].
  - apply IH.
Qed.
Lemma guard_true_iff t p g rhs : t_guard t = Some (g, rhs) -> (is_guard_true_for_point t p = Ok true <-> guard_ok t p).
Proof.
  intro Hg. unfold is_guard_true_for_point, guard_ok. rewrite Hg. unfold poly. split.
  - intros H i r c Hr Hc. injection H as H. rewrite forallb_forall in H. apply Qle_bool_iff.
    apply (H (r, c)). eapply nth_error_In. apply combine_nth_error. eauto.
  - intro H. f_equal. apply forallb_forall. intros [r c] Hin. apply Qle_bool_iff. apply In_nth_error in Hin as (i & Hi).
    apply combine_nth_error in Hi as [H1 H2]. eapply H; eauto.
Qed.

Theorem C40_guard_agrees a t l k p l1 o :
  wf_ha a -> t < List.length (ha_trans a) -> api solve l k -> l_dims l = m_dims (get_mode a (t_from (get_trans a t))) -> singleton l p ->
  get_guard_intersection solve (get_trans a t) l = Ok (l1, o) ->
  (is_guard_true_for_point (get_trans a t) p = Ok true <-> o <> None) /\ forall tl, o = Some tl -> singleton tl p.
Proof.
  intros WH Ht Ha Hd Hs H. destruct (C08_guard_intersection_exact a t l k l1 o WH Ht Ha Hd H) as (_ & _ & HN & HS).
  destruct (wft_guard _ _ (proj2 WH t Ht)) as (g & rhs & Hg & Hok & Hnr & Hcl). rewrite (guard_true_iff _ p g rhs Hg).
  assert (Hext : forall q, veq (l_dims l) p q -> guard_ok (get_trans a t) p -> guard_ok (get_trans a t) q).
  { intros q Hq Hgp. unfold guard_ok in *. rewrite Hg in *. intros i r c Hr Hc. rewrite <- (reval_ext_lt (l_dims l) r p q); [eapply Hgp; eauto| |exact Hq].
    rewrite Hd. rewrite Forall_forall in Hcl. apply Hcl. eapply nth_error_In; eauto. }
  assert (Hp : in_lp l p) by (apply Hs, veq_refl). split.
  - split.
    + intros Hgp E. apply (proj1 HN E p Hp Hgp).
    + intro Hne. destruct o as [tl|]; [|congruence]. destruct (HS tl eq_refl) as [D I].
      destruct (is_guard_true_for_point (get_trans a t) p) as [[|]|] eqn:E; [apply (guard_true_iff _ p g rhs Hg); auto| |unfold is_guard_true_for_point in E; rewrite Hg in E; discriminate].
      exfalso. assert (F : Some tl = None); [|discriminate]. apply HN. intros q Hq Hgq. apply Hs in Hq.
      assert (Hgp : guard_ok (get_trans a t) p).
      { unfold guard_ok in *. rewrite Hg in *. intros i r c Hr Hc. rewrite (reval_ext_lt (l_dims l) r p q); [eapply Hgq; eauto| |exact Hq].
        rewrite Hd. rewrite Forall_forall in Hcl. apply Hcl. eapply nth_error_In; eauto. }
      apply (guard_true_iff _ p g rhs Hg) in Hgp. congruence.
  - intros tl E. destruct (HS tl E) as [D I]. intro q. rewrite (I q), D, (Hs q). split; [tauto|]. intro Hq. split; auto.
    apply (Hext q Hq). destruct (Qlt_le_dec 0 1) as [_|]; [|exfalso; lra].
    destruct (is_guard_true_for_point (get_trans a t) p) as [[|]|] eqn:E2; [apply (guard_true_iff _ p g rhs Hg); auto| |unfold is_guard_true_for_point in E2; rewrite Hg in E2; discriminate].
    exfalso. assert (F : o = None); [|congruence]. apply HN. intros q' Hq' Hgq. apply Hs in Hq'.
    assert (Hgp : guard_ok (get_trans a t) p).
    { unfold guard_ok in *. rewrite Hg in *. intros i r c Hr Hc. rewrite (reval_ext_lt (l_dims l) r p q'); [eapply Hgq; eauto| |exact Hq'].
      rewrite Hd. rewrite Forall_forall in Hcl. apply Hcl. eapply nth_error_In; eauto. }
    apply (guard_true_iff _ p g rhs Hg) in Hgp. congruence.
Qed.

Theorem C40_reset_agrees a t l k p l' p' tm mid tix si :
  wf_ha a -> t < List.length (ha_trans a) -> api solve l k -> l_dims l = m_dims (get_mode a (t_from (get_trans a t))) -> singleton l p ->
  apply_reset_for_point (get_trans a t) p = Ok (p', tm) ->
  add_reset_variables l mid tix (t_reset (get_trans a t)) (t_mink (get_trans a t)) si = Ok l' ->
  tm = t_to (get_trans a t) /\ l_dims l' = post_dims a (get_trans a t) /\ singleton l' p'.
Proof.
  intros WH Ht Ha Hd Hs HP H. assert (WT := proj2 WH t Ht). destruct (wft_reset _ _ WT) as [R1 R2]. destruct (wft_mink _ _ WT) as [M1 _].
  unfold apply_reset_for_point in HP. apply bind_ok in HP as (u & Hm & HP). apply assert_ok in Hm. injection HP as <- <-. split; auto.
  assert (Hpos : 0 < l_dims l').
  { rewrite (reset_dims _ _ _ _ _ _ _ H). destruct (t_reset (get_trans a t)) as [r|]; [apply (R2 r eq_refl)|].
    unfold ident_csr, c_nr. cbn [c_rows]. rewrite map_length, seq_length. apply (api_ok solve Hsolve) in Ha as (_ & _ & Hp & _). exact Hp. }
  destruct (C07_reset_exact solve Hsolve l k mid tix _ _ si l' Ha R1 M1 H Hpos) as [D I].
  assert (D' : l_dims l' = post_dims a (get_trans a t)) by (unfold post_dims; rewrite D; destruct (t_reset _); auto).
  split; auto. intro q. rewrite (I q). destruct (t_mink (get_trans a t)); [discriminate|]. unfold reset_image. split.
  - intros (p0 & Hp0 & y & _ & Hq). apply Hs in Hp0. intros i Hi. rewrite (Hq i Hi).
    destruct (t_reset (get_trans a t)) as [r|].
    + rewrite (reval_ext_lt (l_dims l) _ p p0); [ring| |exact Hp0]. rewrite Hd. destruct (R2 r eq_refl) as [E _]. rewrite <- E.
      destruct (nth_in_or_default i (c_rows r) []) as [Hin| ->]; [|constructor]. cbn in R1. unfold csr_ok in R1. rewrite Forall_forall in R1. apply R1; auto.
    + rewrite (Hp0 i) by lia. ring.
  - intro Hq. exists p. split; [apply Hs, veq_refl|]. exists (fun _ => 0%Q). split; [exact Logic.I|]. intros i Hi. rewrite <- (Hq i Hi).
    destruct (t_reset (get_trans a t)); ring.
Qed.

(** exact on the side of accepted points; a rejected point may survive if it violates each condition by less than 1e-13 *)
Theorem C40_invariant_agrees a s s' ops ok p :
  wf_ha a -> sset_run solve a s -> singleton (ss_lpi s) p -> intersect_invariant solve a s = Ok (s', ops, ok) ->
  let m := get_mode a (ss_mode s) in
  (point_in_invariant m p = true -> ok = true /\ in_lp (ss_lpi s') p) /\
  (ok = true -> in_lp (ss_lpi s') p /\ forall c, In c (m_inv m) -> (reval (lc_row c) p < lc_rhs c + (1 # 10000000000000))%Q).
Proof.
  intros WH HR Hs H m. destruct (C12_intersect_invariant_exact a s s' ops ok WH HR H) as (_ & _ & _ & _ & _ & G1 & G2 & G3 & G4 & G5).
  assert (Hp : in_lp (ss_lpi s) p) by (apply Hs, veq_refl). split.
  - intro Hpi. unfold point_in_invariant in Hpi. rewrite forallb_forall in Hpi.
    assert (Hp' : in_lp (ss_lpi s') p). { apply G2; auto. intros c Hc. apply Qle_bool_iff. apply (Hpi c Hc). }
    split; auto. destruct ok; auto. exfalso. apply (proj1 (G4 eq_refl) p Hp').
  - intro Eo. destruct (G5 Eo (ex_intro _ p Hp)) as (q & Hq). assert (Hpq := proj1 (Hs q) (G1 q Hq)).
    destruct (run_st a s WH HR) as (x & S). destruct (intersect_invariant_ok solve Hsolve a s x s' ops ok WH S H) as (S' & (F1 & _) & _).
    assert (Hd : l_dims (ss_lpi s') = l_dims (ss_lpi s)) by (rewrite (st_dims _ _ _ _ S), (st_dims _ _ _ _ S'); reflexivity).
    assert (Hp' : in_lp (ss_lpi s') p). { eapply in_lp_ext; [|exact Hq]. rewrite Hd. intros i Hi. symmetry. apply (Hpq i Hi). }
    split; [exact Hp'|]. intros c Hc. apply (G3 p c Eo Hp' Hc).
Qed.

(** ** C42 *)
Hypothesis Hcomp : solver_complete solve.

Lemma feas_iff c rhs : csr_ok c -> List.length rhs = c_nr c -> (csr_feasible solve c rhs = Ok true <-> exists p, poly (c_rows c) rhs p).
Proof.
  intros Hc Hl. destruct (csr_feasible_total solve c rhs Hcomp Hc Hl) as (b & Hb). rewrite Hb. apply (csr_feasible_spec solve Hsolve) in Hb as [_ Hb].
  rewrite <- Hb. split; [intro H; injection H as ->; auto|intros ->; auto].
Qed.

Theorem C42_set_dynamics_accepts a i x : (exists a', set_dynamics a i x = Ok a') <-> c_nr x = c_nc x.
Proof.
  unfold set_dynamics. destruct (Nat.eqb_spec (c_nr x) (c_nc x)); cbn [assert bind]; split; intro H; eauto; [destruct H; discriminate|contradiction].
Qed.

Theorem C42_set_invariant_accepts a i c rhs : csr_ok c ->
  ((exists a', set_invariant solve a i c rhs = Ok a') <->
   is_error (get_mode a i) = false /\ c_nc c = m_dims (get_mode a i) /\ c_nr c = List.length rhs /\ exists p, poly (c_rows c) rhs p).
Proof.
  intro Hok. unfold set_invariant, is_error, m_dims. destruct (m_a (get_mode a i)) as [x|]; [|split; [intros (? & ?); discriminate|intros (? & _); discriminate]].
  split.
  - intros (a' & H). apply bind_ok in H as (u & H1 & H). apply bind_ok in H as (u2 & H2 & H). apply bind_ok in H as (f & H3 & H). apply bind_ok in H as (u3 & H4 & H).
    apply assert_ok, Nat.eqb_eq in H1, H2. apply assert_ok in H4. subst f. split; auto. split; auto. split; auto. apply feas_iff; auto.
  - intros (_ & H1 & H2 & H3). apply Nat.eqb_eq in H1. rewrite H1. cbn [assert bind]. pose proof (proj2 (Nat.eqb_eq _ _) H2) as E. rewrite E. cbn [assert bind].
    apply feas_iff in H3; auto. rewrite H3. cbn [assert bind]. eauto.
Qed.

Theorem C42_set_guard_accepts a i g rhs : csr_ok g ->
  ((exists a', set_guard solve a i g rhs = Ok a') <->
   let m := get_mode a (t_from (get_trans a i)) in
   is_error m = false /\ (0 < c_nr g -> c_nc g = m_dims m) /\ c_nr g = List.length rhs /\ exists p, poly (c_rows g) rhs p).
Proof.
  intro Hok. cbv zeta. split.
  - intros (a' & H). apply (set_guard_ok solve Hsolve) in H as (x & Hx & H1 & H2 & H3 & _). unfold is_error, m_dims. rewrite Hx. auto.
  - intros (H0 & H1 & H2 & H3). unfold set_guard, is_error, m_dims in *. destruct (m_a _) as [x|]; [|discriminate].
    assert (E : (if 0 <? c_nr g then assert (c_nc g =? c_nr x) else Ok tt) = Ok tt).
    { destruct (Nat.ltb_spec 0 (c_nr g)); auto. rewrite (proj2 (Nat.eqb_eq _ _) (H1 H)). reflexivity. }
    rewrite E. cbn [bind]. apply feas_iff in H3; auto. rewrite H3. cbn [assert bind]. rewrite (proj2 (Nat.eqb_eq _ _) (eq_sym H2)). cbn [assert bind]. eauto.
Qed.

Theorem C42_set_inputs_accepts a i b uc ur : csr_ok uc ->
  ((exists a', set_inputs solve a i b uc ur true = Ok a') <->
   is_error (get_mode a i) = false /\ c_nr uc = List.length ur /\ c_nc uc = c_nc b /\ c_nr b = m_dims (get_mode a i) /\ exists u, poly (c_rows uc) ur u).
Proof.
  intro Hok. unfold set_inputs, is_error, m_dims. destruct (m_a (get_mode a i)) as [x|]; [|split; [intros (? & ?); discriminate|intros (? & _); discriminate]].
  unfold check_inputs. cbn [negb andb]. split.
  - intros (a' & H). apply bind_ok in H as (u & H & _). apply bind_ok in H as (u1 & H1 & H). apply bind_ok in H as (u2 & H2 & H).
    apply bind_ok in H as (u3 & H3 & H). apply bind_ok in H as (f & H4 & H). apply bind_ok in H as (u4 & H5 & H).
    apply assert_ok, Nat.eqb_eq in H1, H2, H3. apply assert_ok in H5. subst f. split; auto. split; auto. split; auto. split; auto. apply feas_iff; auto.
  - intros (_ & H1 & H2 & H3 & H4). apply feas_iff in H4; auto. rewrite (proj2 (Nat.eqb_eq _ _) H1), (proj2 (Nat.eqb_eq _ _) H2), (proj2 (Nat.eqb_eq _ _) H3).
    cbn [assert bind]. rewrite H4. cbn [assert bind]. eauto.
Qed.

(** explicit reset matrix, optional uncertain part with its own matrix *)
Theorem C42_set_reset_accepts a i r mk c rhs : csr_ok c ->
  let m := get_mode a (t_from (get_trans a i)) in
  let d := if is_error (get_mode a (t_to (get_trans a i))) then m_dims m else m_dims (get_mode a (t_to (get_trans a i))) in
  ((exists a', set_reset solve a i (Some r) None None = Ok a') <-> is_error m = false /\ c_nc r = m_dims m /\ c_nr r = d) /\
  ((exists a', set_reset solve a i (Some r) (Some mk) (Some (c, rhs)) = Ok a') <->
     is_error m = false /\ c_nc r = m_dims m /\ c_nr r = d /\ c_nr c = List.length rhs /\ c_nr mk = d /\ c_nc mk = c_nc c /\ exists y, poly (c_rows c) rhs y).
Proof.
  intros Hok m d. unfold set_reset. fold m. unfold is_error, m_dims in *. destruct (m_a m) as [x|] eqn:Ex.
  2:{ split; (split; [intros (? & ?); discriminate|intros (? & _); discriminate]). }
  cbn [bind]. assert (Ed : c_nr match m_a (get_mode a (t_to (get_trans a i))) with Some y => y | None => x end = d).
  { unfold d. destruct (m_a (get_mode a (t_to (get_trans a i)))); reflexivity. }
  rewrite Ed. split.
  - split.
    + intros (a' & H). apply bind_ok in H as (u & H1 & H). apply bind_ok in H as (u2 & H2 & H). apply assert_ok, Nat.eqb_eq in H1, H2. auto.
    + intros (_ & H1 & H2). rewrite (proj2 (Nat.eqb_eq _ _) H1), (proj2 (Nat.eqb_eq _ _) H2). cbn [assert bind]. eauto.
  - split.
    + intros (a' & H). apply bind_ok in H as (u & H1 & H). apply bind_ok in H as (u2 & H2 & H). apply bind_ok in H as (k & H & _).
      apply bind_ok in H as (u3 & H3 & H). apply bind_ok in H as (u4 & H4 & H). apply bind_ok in H as (u5 & H5 & H). apply bind_ok in H as (f & H6 & H).
      apply bind_ok in H as (u6 & H7 & H). apply assert_ok, Nat.eqb_eq in H1, H2, H3, H4, H5. apply assert_ok in H7. subst f.
      split; auto. split; auto. split; auto. split; auto. split; auto. split; auto. apply feas_iff; auto.
    + intros (_ & H1 & H2 & H3 & H4 & H5 & H6). apply feas_iff in H6; auto.
      rewrite (proj2 (Nat.eqb_eq _ _) H1), (proj2 (Nat.eqb_eq _ _) H2), (proj2 (Nat.eqb_eq _ _) H3), (proj2 (Nat.eqb_eq _ _) H4), (proj2 (Nat.eqb_eq _ _) H5).
      cbn [assert bind]. rewrite H6. cbn [assert bind]. eauto.
Qed.

Theorem C42_check_transitions_accepts a : check_transitions a = Ok tt <->
  forall t, In t (ha_trans a) -> is_error (get_mode a (t_from t)) = false /\ t_guard t <> None /\
    (is_error (get_mode a (t_to t)) = false -> m_dims (get_mode a (t_from t)) = m_dims (get_mode a (t_to t)) \/ t_reset t <> None).
Proof. apply check_transitions_spec. Qed.

(** automata built by these functions, dynamics first, are well formed: the hypothesis of every theorem about runs *)
Theorem C42_accepted_automata_are_well_formed a :
  built solve a -> check_transitions a = Ok tt ->
  (forall i x, i < List.length (ha_modes a) -> m_a (get_mode a i) = Some x -> 0 < c_nr x /\ elapse_ok (get_mode a i) x) -> wf_ha a.
Proof. apply built_wf; auto. Qed.
End Props.

(** * Non-vacuity: a timer automaton.  Modes run (x' = a, a' = 0, x <= 3), next (same dynamics, x <= 4), error;
    run -> next when x >= 3, next -> error when x >= 5. *)
Open Scope Q_scope.
Definition exA_mat : csr := mkCsr 2 [[(1%nat, 1)]; []].
Definition exA_bm (k : nat) : mat := [[1; inject_Z (Z.of_nat k)]; [0; 1]].
Definition exA_le : csr := mkCsr 2 [[(0%nat, 1)]].
Definition exA_ge : csr := mkCsr 2 [[(0%nat, -(1))]].
Definition ha0 := mkHa [] [].
Definition exA1 := Eval vm_compute in get ha0 (new_mode ha0 "run").
Definition exA2 := Eval vm_compute in get ha0 (new_mode exA1 "next").
Definition exA3 := Eval vm_compute in get ha0 (new_mode exA2 "error").
Definition exA4 := Eval vm_compute in get ha0 (set_dynamics exA3 0 exA_mat).
Definition exA5 := Eval vm_compute in get ha0 (set_dynamics exA4 1 exA_mat).
Definition exA6 := Eval vm_compute in get ha0 (set_invariant fm_solver exA5 0 exA_le [3]).
Definition exA7 := Eval vm_compute in get ha0 (set_invariant fm_solver exA6 1 exA_le [4]).
Definition exA8 := Eval vm_compute in get ha0 (Ok (new_transition exA7 0 1 "go")).
Definition exA9 := Eval vm_compute in get ha0 (Ok (new_transition exA8 1 2 "err")).
Definition exA10 := Eval vm_compute in get ha0 (set_guard fm_solver exA9 0 exA_ge [-(3)]).
Definition exA11 := Eval vm_compute in get ha0 (set_guard fm_solver exA10 1 exA_ge [-(5)]).
Definition exA := with_mode (with_mode exA11 0 (m_with_elapse (get_mode exA11 0) exA_bm (fun _ => []))) 1 (m_with_elapse (get_mode exA11 1) exA_bm (fun _ => [])).
Lemma exA_csr1 : csr_ok exA_mat. Proof. repeat constructor. Qed.
Lemma exA_csr2 : csr_ok exA_le. Proof. repeat constructor. Qed.
Lemma exA_csr3 : csr_ok exA_ge. Proof. repeat constructor. Qed.
Lemma exA_built : built fm_solver exA.
Proof.
  assert (H := B_empty fm_solver).
  assert (H1 : built fm_solver exA1). { assert (E : new_mode ha0 "run" = Ok exA1) by (vm_compute; reflexivity). eapply B_mode with (a := ha0); [exact H|exact E]. } clear H; rename H1 into H.
  assert (H2 : built fm_solver exA2). { assert (E : new_mode exA1 "next" = Ok exA2) by (vm_compute; reflexivity). eapply B_mode with (a := exA1); [exact H|exact E]. } clear H; rename H2 into H.
  assert (H3 : built fm_solver exA3). { assert (E : new_mode exA2 "error" = Ok exA3) by (vm_compute; reflexivity). eapply B_mode with (a := exA2); [exact H|exact E]. } clear H; rename H3 into H.
  assert (H4 : built fm_solver exA4). { assert (E : set_dynamics exA3 0 exA_mat = Ok exA4) by (vm_compute; reflexivity). eapply B_dyn with (a := exA3); [exact H| | | |exact E]; [apply Nat.ltb_lt; vm_compute; reflexivity|split; [reflexivity|split; [reflexivity|intros t []]]|apply exA_csr1]. } clear H; rename H4 into H.
  assert (H5 : built fm_solver exA5). { assert (E : set_dynamics exA4 1 exA_mat = Ok exA5) by (vm_compute; reflexivity). eapply B_dyn with (a := exA4); [exact H| | | |exact E]; [apply Nat.ltb_lt; vm_compute; reflexivity|split; [reflexivity|split; [reflexivity|intros t []]]|apply exA_csr1]. } clear H; rename H5 into H.
  assert (H6 : built fm_solver exA6). { assert (E : set_invariant fm_solver exA5 0 exA_le [3] = Ok exA6) by (vm_compute; reflexivity). eapply B_inv with (a := exA5); [exact H| | |exact E]; [apply Nat.ltb_lt; vm_compute; reflexivity|apply exA_csr2]. } clear H; rename H6 into H.
  assert (H7 : built fm_solver exA7). { assert (E : set_invariant fm_solver exA6 1 exA_le [4] = Ok exA7) by (vm_compute; reflexivity). eapply B_inv with (a := exA6); [exact H| | |exact E]; [apply Nat.ltb_lt; vm_compute; reflexivity|apply exA_csr2]. } clear H; rename H7 into H.
  assert (H8 : built fm_solver exA8). { apply (B_trans fm_solver exA7); [exact H|apply Nat.ltb_lt; vm_compute; reflexivity|apply Nat.ltb_lt; vm_compute; reflexivity]. } clear H; rename H8 into H.
  assert (H9 : built fm_solver exA9). { apply (B_trans fm_solver exA8); [exact H|apply Nat.ltb_lt; vm_compute; reflexivity|apply Nat.ltb_lt; vm_compute; reflexivity]. } clear H; rename H9 into H.
  assert (H10 : built fm_solver exA10). { assert (E : set_guard fm_solver exA9 0 exA_ge [-(3)] = Ok exA10) by (vm_compute; reflexivity). eapply B_guard with (a := exA9); [exact H| | |exact E]; [apply Nat.ltb_lt; vm_compute; reflexivity|apply exA_csr3]. } clear H; rename H10 into H.
  assert (H11 : built fm_solver exA11). { assert (E : set_guard fm_solver exA10 1 exA_ge [-(5)] = Ok exA11) by (vm_compute; reflexivity). eapply B_guard with (a := exA10); [exact H| | |exact E]; [apply Nat.ltb_lt; vm_compute; reflexivity|apply exA_csr3]. } clear H; rename H11 into H.
  apply (B_elapse fm_solver (with_mode exA11 0 (m_with_elapse (get_mode exA11 0) exA_bm (fun _ => [])))); [|apply Nat.ltb_lt; vm_compute; reflexivity].
  apply (B_elapse fm_solver exA11); [exact H|apply Nat.ltb_lt; vm_compute; reflexivity].
Qed.
Lemma exA_bm_ok k p i : (i < 2)%nat -> (mapply (exA_bm k) p i == (match i with O => p 0%nat + inject_Z (Z.of_nat k) * p 1%nat | _ => p 1%nat end))%Q.
Proof. intro Hi. destruct i as [|[|i]]; [| |lia]; unfold mapply, mrow, exA_bm; cbn [nth ldot Nat.add]; ring. Qed.
Lemma exA_elapse m : m_bm m = exA_bm -> m_b m = None -> elapse_ok m exA_mat.
Proof.
  intros Hb Hn. unfold elapse_ok. rewrite Hb, Hn. change (c_nr exA_mat) with 2%nat. split; [|split; [|exact I]].
  - intro k. split; [split; [reflexivity|repeat constructor]|]. intros p i Hi. rewrite !exA_bm_ok by auto.
    destruct i as [|[|i]]; [| |lia]; rewrite ?exA_bm_ok by lia; [|reflexivity]. rewrite Nat2Z.inj_succ. unfold Z.succ. rewrite inject_Z_plus. change (inject_Z (Z.of_nat 1)) with 1. change (inject_Z 1) with 1. ring.
  - intros p i Hi. rewrite exA_bm_ok by auto. destruct i as [|[|i]]; [| |lia]; [change (inject_Z (Z.of_nat 0)) with 0; ring|reflexivity].
Qed.
Theorem exA_wf : wf_ha exA.
Proof.
  apply (C42_accepted_automata_are_well_formed fm_solver fm_solver_ok exA exA_built); [vm_compute; reflexivity|].
  intros i x Hi Hx. destruct i as [|[|[|i]]]; [| |discriminate|cbn in Hi; lia]; (injection Hx as <-; split; [cbn; lia|apply exA_elapse; reflexivity]).
Qed.
(** the initial set x in [0,1], a = 1, stepped three times and cut with the invariant *)
Definition exS0 := Eval vm_compute in get lp_new (from_box fm_solver [(0, 1); (1, 1)] 0 false).
Lemma exS0_api : api fm_solver exS0 (Some (ident 2, 0%nat, [], [])).
Proof.
  assert (H : from_box fm_solver [(0, 1); (1, 1)] 0 false = Ok exS0) by (vm_compute; reflexivity).
  unfold from_box in H. apply bind_ok in H as (? & _ & H).
  change (ident 2) with (ident (l_dims exS0)). eapply api_from_constraints; [| |exact H|cbn; lia]; [repeat constructor|exact I].
Qed.
Definition dss : sset := mkSset 0 lp_new 0 0 0 false None [] None None None.
Definition exS1 := get dss (new_stateset exA exS0 0 0 0 None true).
Definition exS2 := get dss (ss_step_to exA exS1 3).
Definition exS3 := get (dss, [], false) (intersect_invariant fm_solver exA exS2).
Lemma exS_run : sset_run fm_solver exA exS1 /\ sset_run fm_solver exA exS2 /\ sset_run fm_solver exA (fst (fst exS3)).
Proof.
  assert (H1 : sset_run fm_solver exA exS1). { eapply sr_new with (m := 0%nat) (x := exA_mat); [cbn; lia|reflexivity|exact exS0_api|reflexivity|vm_compute; reflexivity]. }
  assert (H2 : sset_run fm_solver exA exS2). { eapply sr_step with (k := 3%nat); [exact H1|vm_compute; reflexivity]. }
  split; [exact H1|]. split; [exact H2|]. eapply sr_inv; [exact H2|vm_compute; reflexivity].
Qed.
Example C17_witness : exists s1 s, ss_step_to exA exS1 2 = Ok s1 /\ ss_step1 exA s1 = Ok s /\ is_point_in_lpi fm_solver [4; 1] (ss_lpi s) = Ok true
  /\ is_point_in_lpi fm_solver [2; 1] (ss_lpi s) = Ok false /\ ss_hi s = 3%nat.
Proof. eexists. eexists. split; [vm_compute; reflexivity|]. split; [vm_compute; reflexivity|]. split; [vm_compute; reflexivity|]. split; vm_compute; reflexivity. Qed.
Example C12_witness : exists s ops, intersect_invariant fm_solver exA exS2 = Ok (s, ops, true) /\ is_point_in_lpi fm_solver [3; 1] (ss_lpi s) = Ok true
  /\ is_point_in_lpi fm_solver [4; 1] (ss_lpi s) = Ok false.
Proof. eexists. eexists. split; [vm_compute; reflexivity|]. split; vm_compute; reflexivity. Qed.
Example C08_guard_witness : exists l1 tl, get_guard_intersection fm_solver (get_trans exA 0) (ss_lpi exS2) = Ok (l1, Some tl)
  /\ is_point_in_lpi fm_solver [7#2; 1] tl = Ok true.
Proof. eexists. eexists. split; vm_compute; reflexivity. Qed.
Definition exA' := get exA (do_guard_strengthening exA).
Example C27_witness : do_guard_strengthening exA = Ok exA' /\ t_guard (get_trans exA' 0) = Some (mkCsr 2 [[(0%nat, -(1))]; [(0%nat, 1)]], [-(3); 4]).
Proof. split; vm_compute; reflexivity. Qed.
(** x = 3 exactly after three steps from x = 0 *)
Definition exP0 := Eval vm_compute in get lp_new (from_box fm_solver [(3, 3); (1, 1)] 0 false).
Lemma exP0_api : api fm_solver exP0 (Some (ident 2, 0%nat, [], [])).
Proof.
  assert (H : from_box fm_solver [(3, 3); (1, 1)] 0 false = Ok exP0) by (vm_compute; reflexivity).
  unfold from_box in H. apply bind_ok in H as (? & _ & H).
  change (ident 2) with (ident (l_dims exP0)). eapply api_from_constraints; [| |exact H|cbn; lia]; [repeat constructor|exact I].
Qed.
Example C28_witness : exists a' l1, detect_tt exA 1 10 = Ok a' /\ t_tt (get_trans a' 0) = true /\ was_tt_taken fm_solver exA exP0 (get_trans a' 0) 1 10 = Ok (l1, true).
Proof. eexists. eexists. split; [vm_compute; reflexivity|]. split; vm_compute; reflexivity. Qed.
Example C40_witness : singleton exP0 (of_list [3; 1]) /\ is_guard_true_for_point (get_trans exA 0) (of_list [3; 1]) = Ok true
  /\ exists l1 tl, get_guard_intersection fm_solver (get_trans exA 0) exP0 = Ok (l1, Some tl).
Proof.
  split; [|split; [vm_compute; reflexivity|eexists; eexists; vm_compute; reflexivity]].
  assert (H := C01_from_box_exact fm_solver fm_solver_ok [(3, 3); (1, 1)] 0 false). rewrite (eq_refl : from_box fm_solver [(3, 3); (1, 1)] 0 false = Ok exP0) in H.
  destruct H as [Hd Hp]. intro q. rewrite (Hp q). rewrite Hd. unfold in_box. split.
  - intros H i Hi. destruct i as [|[|i]]; [| |cbn in Hi; lia].
    + specialize (H 0%nat 3 3 eq_refl). cbn. lra.
    + specialize (H 1%nat 1 1 eq_refl). cbn. lra.
  - intros H i lb ub Hi. destruct i as [|[|i]]; [| |destruct i; discriminate]; injection Hi as <- <-.
    + assert (E := H 0%nat ltac:(cbn; lia)). cbn in E. lra.
    + assert (E := H 1%nat ltac:(cbn; lia)). cbn in E. lra.
Qed.
Example C40_witness2 : exists p', apply_reset_for_point (get_trans exA 0) (of_list [3; 1]) = Ok (p', 1%nat) /\ (p' 0%nat == 3)%Q.
Proof. eexists. split; [reflexivity|]. reflexivity. Qed.

(** C42 fails when set_dynamics comes after set_guard: both calls and check_transitions succeed, but the guard mentions a
    variable the mode does not have *)
Theorem C42_late_dynamics_refuted : exists a1 a2 a3,
  set_dynamics (new_transition exA3 0 2 "t") 0 exA_mat = Ok a1 /\
  set_guard fm_solver a1 0 (mkCsr 2 [[(1%nat, 1)]]) [0] = Ok a2 /\
  set_dynamics a2 0 (mkCsr 1 [[]]) = Ok a3 /\ check_transitions a3 = Ok tt /\ ~ wf_ha a3.
Proof.
  eexists. eexists. eexists. split; [vm_compute; reflexivity|]. split; [vm_compute; reflexivity|]. split; [vm_compute; reflexivity|]. split; [vm_compute; reflexivity|].
  intros [_ W]. specialize (W 0%nat ltac:(cbn; lia)). destruct (wft_guard _ _ W) as (g & rhs & E & _ & _ & F). injection E as <- <-.
  inversion F as [|? ? F1 _]; subst. inversion F1 as [|? ? F2 _]; subst. cbn in F2. lia.
Qed.
