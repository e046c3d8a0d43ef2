(** The steps under APPROX_LGG as steps of an automaton whose inputs are extended by the bloating variables. *)
From Verif Require Import Base BaseFacts LpModel LpSpec SetSpec LpUtil ApiSpec LpFacts LpWf SetFacts SetFacts2 OpsFacts3 Automaton StateSet HybridSpec StateSpec FlowFacts StateFacts BuildFacts TimeElapse TimeElapseFacts StateFacts2 SetFacts2 ChullFacts ApiFacts ApproxFacts FreshFacts Approx Lgg.
From Coq Require Import Lia Lqa.
Open Scope list_scope.
Open Scope nat_scope.

Definition bloat_rows (nu n : nat) : list srow := flat_map (fun v => [[(nu + v, 1%Q)]; [(nu + v, (-1)%Q)]]) (seq 0 n).
Definition ext_con (uc : csr) (n : nat) : csr := mkCsr (c_nc uc + n) (c_rows uc ++ bloat_rows (c_nc uc) n).
Definition ext_rhs (ur : list Q) (be : Q) (n : nat) : list Q := ur ++ repeat be (2 * n).

(** equal up to the column names *)
Definition simn (l l' : lp) : Prop := exists ns, List.length ns = l_nc l /\ l' = with_names l ns.
Lemma simn_refl l : simn l l.
Proof. exists (l_names l). split; [reflexivity|destruct l; reflexivity]. Qed.
Lemma simn_in l l' p : simn l l' -> in_lp l' p <-> in_lp l p.
Proof. intros (ns & _ & ->). reflexivity. Qed.
Lemma simn_bm l l' bm r : simn l l' -> set_basis_matrix l bm = Ok r -> exists r', set_basis_matrix l' bm = Ok r' /\ simn r r'.
Proof.
  intros (ns & L & ->) H. unfold set_basis_matrix in *. apply bind_ok in H as (u1 & H1 & H). apply bind_ok in H as (u2 & H2 & H). rewrite H1. cbn [bind].
  change (l_dims (with_names l ns)) with (l_dims l). rewrite H2. cbn [bind]. eexists. split; [reflexivity|]. injection H as <-. exists ns. split; [exact L|reflexivity].
Qed.
Lemma simn_csc l l' m off r : simn l l' -> set_constraints_csc l m off = Ok r -> exists r', set_constraints_csc l' m off = Ok r' /\ simn r r'.
Proof.
  intros (ns & L & ->) H. unfold set_constraints_csc in *. change (l_nr (with_names l ns)) with (l_nr l). assert (E : l_nc (with_names l ns) = l_nc l) by exact L. rewrite E.
  destruct (_ || _); [discriminate|]. injection H as <-. eexists. split; [reflexivity|]. exists ns. split; [exact L|reflexivity].
Qed.
Lemma simn_aie l l' ie mid nv uc ur r : simn l l' -> add_input_effects_matrix l ie mid nv uc ur = Ok r ->
  exists r', add_input_effects_matrix l' ie mid nv uc ur = Ok r' /\ simn r r'.
Proof.
  intros (ns & L & ->) H. unfold add_input_effects_matrix in *. change (l_ie (with_names l ns)) with (l_ie l). destruct (l_ie l) as [[ier iec]|]; [|discriminate].
  apply bind_ok in H as (u1 & H1 & H). apply bind_ok in H as (u2 & H2 & H). apply bind_ok in H as (u3 & H3 & H). rewrite H1, H2. cbn [bind]. change (l_dims (with_names l ns)) with (l_dims l). rewrite H3. cbn [bind].
  cbv zeta in *. assert (E : l_nc (with_names l ns) = l_nc l) by exact L. rewrite E.
  refine (simn_csc _ _ _ _ _ _ H). exists (ns ++ names_of "I" mid 0 (c_nc uc)). split; [|reflexivity].
  assert (E2 : l_names (add_rows_le (add_cols l (names_of "I" mid 0 (c_nc uc))) ur) = l_names l ++ names_of "I" mid 0 (c_nc uc)) by reflexivity.
  unfold l_nc in *. rewrite E2, !app_length. lia.
Qed.

(** the columns of the extended constraints *)
Lemma csc_col_app c rows rows' : forall i, csc_col c i (rows ++ rows') = csc_col c i rows ++ csc_col c (i + List.length rows) rows'.
Proof.
  induction rows as [|r rows IH]; intro i; cbn [app csc_col List.length]. { rewrite Nat.add_0_r. reflexivity. }
  rewrite IH, <- app_assoc. replace (S i + List.length rows) with (i + S (List.length rows)) by lia. reflexivity.
Qed.
Lemma csc_col_none c rows i : Forall (row_cols_lt c) rows -> csc_col c i rows = [].
Proof.
  intro H. revert i. induction H as [|r rows Hr _ IH]; intro i; cbn [csc_col]; [reflexivity|]. rewrite IH, app_nil_r.
  replace (filter (fun e => fst e =? c) r) with (@nil (nat * Q)); [reflexivity|]. symmetry. induction Hr as [|e r He Hr IHr]; [reflexivity|]. cbn [filter].
  destruct (Nat.eqb_spec (fst e) c) as [E|_]; [lia|exact IHr].
Qed.
Lemma csc_col_bloat nu n c i : forall s, csc_col c i (flat_map (fun v => [[(nu + v, 1%Q)]; [(nu + v, (-1)%Q)]]) (seq s n)) =
  if (nu + s <=? c) && (c <? nu + s + n) then [(i + 2 * (c - (nu + s)), 1%Q); (i + 2 * (c - (nu + s)) + 1, (-1)%Q)] else [].
Proof.
  revert i. induction n as [|n IH]; intros i s; cbn [seq flat_map].
  - cbn [csc_col]. destruct (Nat.leb_spec (nu + s) c); destruct (Nat.ltb_spec c (nu + s + 0)); cbn [andb]; try reflexivity. lia.
  - cbn [app csc_col filter map fst snd]. rewrite IH. destruct (Nat.eqb_spec (nu + s) c) as [E|E].
    + cbn [map app snd]. destruct (Nat.leb_spec (nu + s) c); [|lia]. destruct (Nat.ltb_spec c (nu + s + S n)); [|lia]. destruct (Nat.leb_spec (nu + S s) c); [lia|]. cbn [andb app].
      replace (c - (nu + s)) with 0 by lia. f_equal; [f_equal; lia|f_equal; f_equal; lia].
    + cbn [map app]. destruct (Nat.leb_spec (nu + S s) c); destruct (Nat.leb_spec (nu + s) c); try lia; cbn [andb]; [|reflexivity].
      destruct (Nat.ltb_spec c (nu + S s + n)); destruct (Nat.ltb_spec c (nu + s + S n)); try lia; [|reflexivity]. f_equal; [f_equal; lia|f_equal; f_equal; lia].
Qed.
Lemma add_rows_le_app l a b : add_rows_le (add_rows_le l a) b = add_rows_le l (a ++ b).
Proof. unfold add_rows_le. cbn [with_rows l_rows]. rewrite map_app, app_assoc. reflexivity. Qed.
Lemma bloat_rows_length nu n : List.length (bloat_rows nu n) = 2 * n.
Proof. unfold bloat_rows. generalize 0 at 1. induction n as [|n IH]; intro s; cbn [seq flat_map app List.length]; [lia|]. rewrite IH. lia. Qed.

Lemma map_plus_seq q n : forall s, map (fun v => q + v) (seq s n) = seq (q + s) n.
Proof. induction n as [|n IH]; intro s; cbn [seq map]; [reflexivity|]. rewrite IH. replace (q + S s) with (S (q + s)) by lia. reflexivity. Qed.
Lemma aie_beta be l ie mid nv uc ur r : csr_ok uc -> c_nr uc = List.length ur -> mat_dims nv (c_nc uc + nv) ie ->
  add_input_effects_beta (Some be) l ie mid nv uc ur = Ok r ->
  exists r', add_input_effects_matrix l ie mid nv (ext_con uc nv) (ext_rhs ur be nv) = Ok r' /\ simn r r'.
Proof.
  intros Huc Hlen [D1 D2] H. unfold add_input_effects_beta in H. unfold add_input_effects_matrix. destruct (l_ie l) as [[ier iec]|]; [|discriminate].
  apply bind_ok in H as (u1 & _ & H). apply bind_ok in H as (u2 & H2 & H). apply bind_ok in H as (u3 & H3 & H). apply bind_ok in H as (u4 & _ & H). cbv zeta in H.
  assert (Hn : l_dims l = nv) by (apply assert_ok in H3; apply Nat.eqb_eq in H3; exact H3).
  assert (A1 : forallb (fun r => List.length r =? c_nc (ext_con uc nv)) ie = true). { apply forallb_forall. intros x Hx. rewrite Forall_forall in D2. apply Nat.eqb_eq. apply D2. exact Hx. }
  rewrite A1. cbn [assert bind]. rewrite H2, H3. cbn [bind]. cbv zeta.
  assert (Ec : l_nr (add_cols l (names_of "I" mid 0 (c_nc (ext_con uc nv)))) = l_nr l) by reflexivity.
  rewrite add_rows_le_app in H. fold (ext_rhs ur be nv) in H.
  refine (simn_csc (add_rows_le (add_cols l (names_of "I" mid 0 (c_nc uc) ++ names_of "b" mid 0 nv)) (ext_rhs ur be nv)) _ _ _ _ _ _).
  - exists (l_names l ++ names_of "I" mid 0 (c_nc (ext_con uc nv))). split; [|reflexivity]. unfold l_nc. cbn [add_rows_le add_cols with_rows with_names l_names].
    rewrite !app_length. unfold names_of. rewrite !map_length, !seq_length. cbn [ext_con c_nc]. lia.
  - rewrite <- H. f_equal. f_equal.
    + unfold ext_rhs. rewrite app_length, repeat_length. change (l_nr (add_cols l ?x)) with (l_nr l). lia.
    + cbn [ext_con c_nc]. rewrite seq_app, map_app. f_equal.
      * apply map_ext_in. intros c Hc. apply in_seq in Hc. f_equal. cbn [ext_con c_rows]. rewrite csc_col_app. unfold bloat_rows. rewrite csc_col_bloat. destruct (Nat.leb_spec (c_nc uc + 0) c); [lia|]. cbn [andb]. rewrite app_nil_r. reflexivity.
      * replace (seq (0 + c_nc uc) nv) with (map (fun v => c_nc uc + v) (seq 0 nv)).
        2: { rewrite map_plus_seq, Nat.add_0_r. reflexivity. }
        rewrite map_map. apply map_ext_in. intros v Hv. apply in_seq in Hv. rewrite Hn. f_equal. cbn [ext_con c_rows]. rewrite csc_col_app.
        rewrite csc_col_none by (eapply Forall_impl; [|exact Huc]; intros q Hq; eapply Forall_impl; [|exact Hq]; intros e He; cbv beta in *; lia). unfold bloat_rows. rewrite csc_col_bloat.
        destruct (Nat.leb_spec (c_nc uc + 0) (c_nc uc + v)); [|lia]. destruct (Nat.ltb_spec (c_nc uc + v) (c_nc uc + 0 + nv)); [|lia]. cbn [andb app]. unfold shift_row. cbn [map fst snd].
        assert (L2 : l_nr (add_rows_le (add_cols l (names_of "I" mid 0 (c_nc uc) ++ names_of "b" mid 0 nv)) ur) = l_nr l + List.length ur).
        { unfold l_nr. cbn [add_rows_le add_cols with_rows with_names l_rows]. rewrite app_length, map_length. reflexivity. }
        rewrite L2. change (l_nr (add_cols l ?x)) with (l_nr l). unfold c_nr in Hlen. rewrite Hlen. f_equal; [f_equal; lia|f_equal; f_equal; lia].
Qed.

(** the automaton whose inputs are the inputs and the bloating variables *)
Definition vmode (tau be : Q) (m : mode) : mode :=
  mkMode (m_name m) (m_a m) (match m_b m with None => None | Some (b, uc, ur) => Some (mkCsr (c_nc uc + m_dims m) [], ext_con uc (m_dims m), ext_rhs ur be (m_dims m)) end) (m_inv m) (m_bm m) (lgg_ie tau m).
Definition vauto (tau be : Q) (a : ha) (i : nat) : ha := with_mode a i (vmode tau be (get_mode a i)).

Lemma prev_dims m x k : wf_mode m x -> c_nr x = m_dims m -> mat_dims (m_dims m) (m_dims m) (prev_bm m k).
Proof. intros W E. unfold prev_bm. destruct (k <=? 1); [apply ident_dims|]. rewrite <- E. apply (wfm_bm _ _ W). Qed.
Lemma scaled_dims tau w rows : mat_dims (List.length rows) w (mscale tau (dense w rows)).
Proof.
  split; unfold mscale, dense; [rewrite !map_length; reflexivity|]. apply Forall_forall. intros r Hr. rewrite map_map in Hr. apply in_map_iff in Hr as (q & <- & _). rewrite map_length. apply dense_of_length.
Qed.
Lemma ldot_scale t r : forall off x, (ldot (map (Qmult t) r) off x == t * ldot r off x)%Q.
Proof. induction r as [|c r IH]; intros off x; cbn [map ldot]; [ring|]. rewrite IH. ring. Qed.
Lemma scaled_apply tau w rows u i : Forall (row_cols_lt w) rows -> i < List.length rows -> (mapply (mscale tau (dense w rows)) u i == tau * reval (nth i rows []) u)%Q.
Proof.
  intros F Hi. unfold mapply, mrow, mscale, dense. rewrite map_map. rewrite (nth_indep _ _ (map (Qmult tau) (dense_of [] w))) by (rewrite map_length; exact Hi).
  rewrite (map_nth (fun r => map (Qmult tau) (dense_of r w))). rewrite ldot_scale, dense_of_eval; [reflexivity|]. rewrite Forall_forall in F. apply F. apply nth_In. exact Hi.
Qed.
Lemma mrow_hconcat n w1 w2 A B i : mat_dims n w1 A -> mat_dims n w2 B -> i < n -> mrow (hconcat A B) i = mrow A i ++ mrow B i.
Proof.
  intros [A1 _] [B1 _] Hi. unfold mrow. revert n i B A1 B1 Hi. induction A as [|r A IH]; intros n i B A1 B1 Hi; cbn [List.length] in A1; [lia|].
  destruct B as [|q B]; cbn [List.length] in B1; [lia|]. cbn [hconcat]. destruct i as [|i]; [reflexivity|]. cbn [nth]. apply (IH (n - 1)); lia.
Qed.

(** what the wide matrix does *)
Lemma lgg_ie_apply tau m x b uc ur k u i : wf_mode m x -> c_nr x = m_dims m -> m_b m = Some (b, uc, ur) -> csr_ok b -> c_nr b = m_dims m -> i < m_dims m ->
  (mapply (lgg_ie tau m k) u i == mapply (prev_bm m k) (fun r => tau * reval (nth r (c_rows b) []) u + u (c_nc b + r)%nat) i)%Q.
Proof.
  intros W E Eb Hb Hn Hi. unfold lgg_ie. rewrite Eb. assert (P := prev_dims m x k W E). assert (S1 := scaled_dims tau (c_nc b) (c_rows b)). fold (c_nr b) in S1. rewrite Hn in S1.
  assert (M := mmul_dims _ _ _ _ _ P S1). unfold mapply at 1. rewrite (mrow_hconcat _ _ _ _ _ _ M P Hi). rewrite ldot_app.
  rewrite (mat_dims_mrow _ _ _ _ M Hi). change (ldot (mrow (mmul (c_nc b) (prev_bm m k) (mscale tau (dense (c_nc b) (c_rows b)))) i) 0 u) with (mapply (mmul (c_nc b) (prev_bm m k) (mscale tau (dense (c_nc b) (c_rows b)))) u i).
  rewrite (mmul_mapply _ _ _ _ _ _ _ P S1 Hi). rewrite mapply_add. apply Qplus_comp.
  - apply (mapply_ext (m_dims m) (m_dims m)); [exact P|exact Hi|]. intros j Hj. apply scaled_apply; [exact Hb|]. unfold c_nr in Hn. lia.
  - unfold mapply. rewrite Nat.add_0_l. generalize (mrow (prev_bm m k) i). intro r. assert (G : forall r off, (ldot r (c_nc b + off) u == ldot r off (fun r0 => u (c_nc b + r0)%nat))%Q).
    { clear. induction r as [|c r IH]; intro off; cbn [ldot]; [reflexivity|]. rewrite <- Nat.add_succ_r, IH. reflexivity. }
    specialize (G r 0). rewrite Nat.add_0_r in G. exact G.
Qed.

Lemma ext_con_ok uc n : csr_ok uc -> csr_ok (ext_con uc n).
Proof.
  intro H. unfold csr_ok, ext_con. cbn [c_nc c_rows]. apply Forall_app. split.
  - eapply Forall_impl; [|exact H]. intros r Hr. eapply row_cols_lt_mono; [|exact Hr]. lia.
  - apply Forall_forall. intros r Hr. unfold bloat_rows in Hr. apply in_flat_map in Hr as (v & Hv & Hr). apply in_seq in Hv. destruct Hr as [<-|[<-|[]]]; (constructor; [cbn; lia|constructor]).
Qed.
Lemma ext_poly uc ur be n u : c_nr uc = List.length ur ->
  poly (c_rows (ext_con uc n)) (ext_rhs ur be n) u <-> poly (c_rows uc) ur u /\ forall i, i < n -> (- be <= u (c_nc uc + i)%nat <= be)%Q.
Proof.
  intro L. unfold ext_con, ext_rhs. cbn [c_rows]. rewrite poly_app by exact L. apply and_iff_compat_l. unfold bloat_rows.
  assert (G : forall s, poly (flat_map (fun v => [[(c_nc uc + v, 1%Q)]; [(c_nc uc + v, (-1)%Q)]]) (seq s n)) (repeat be (2 * n)) u <-> forall i, i < n -> (- be <= u (c_nc uc + (s + i))%nat <= be)%Q).
  2: { exact (G 0). }
  clear L. induction n as [|n IH]; intro s.
  - cbn. split; [intros _ i Hi; lia|intros _; apply poly_nil].
  - replace (2 * S n) with (S (S (2 * n))) by lia. cbn [seq flat_map app repeat]. rewrite !poly_cons, IH. cbn [reval fst snd]. split.
    + intros (H1 & H2 & H3) i Hi. destruct i as [|i]; [rewrite Nat.add_0_r; split; lra|]. replace (s + S i) with (S s + i) by lia. apply H3. lia.
    + intro H. split; [|split].
      * specialize (H 0 ltac:(lia)). rewrite Nat.add_0_r in H. lra.
      * specialize (H 0 ltac:(lia)). rewrite Nat.add_0_r in H. lra.
      * intros i Hi. replace (S s + i) with (s + S i) by lia. apply H. lia.
Qed.

Definition b_ok (m : mode) : Prop := match m_b m with Some (b, _, _) => csr_ok b /\ c_nr b = m_dims m | None => True end.

Lemma vmode_wf tau be m x : wf_mode m x -> m_a m = Some x -> b_ok m -> wf_mode (vmode tau be m) x.
Proof.
  intros W Ea Hb. assert (E : c_nr x = m_dims m) by (unfold m_dims; rewrite Ea; reflexivity). constructor; cbn [vmode m_inv m_bm m_b m_ie].
  - exact (wfm_pos _ _ W).
  - exact (wfm_inv _ _ W).
  - exact (wfm_bm _ _ W).
  - exact (wfm_bm0 _ _ W).
  - assert (WI := wfm_ie _ _ W). unfold b_ok in Hb. destruct (m_b m) as [[[b uc] ur]|] eqn:Eb; [|exact Logic.I]. destruct WI as (H1 & H2 & H3 & _). destruct Hb as [Hb Hn].
    split; [apply ext_con_ok; exact H1|]. split.
    { unfold c_nr, ext_con, ext_rhs. cbn [c_rows]. rewrite !app_length, bloat_rows_length, repeat_length. unfold c_nr in H2. lia. }
    split; [reflexivity|]. split.
    { intro k. unfold lgg_ie. rewrite Eb. cbn [ext_con c_nc]. rewrite E, H3. apply hconcat_dims; [|apply (prev_dims m x); assumption].
      eapply mmul_dims; [apply (prev_dims m x); assumption|]. assert (S1 := scaled_dims tau (c_nc b) (c_rows b)). fold (c_nr b) in S1. rewrite Hn in S1. exact S1. }
    intros k u i Hi. rewrite E in Hi. rewrite (lgg_ie_apply tau m x b uc ur _ u i W E Eb Hb Hn Hi).
    assert (P1 : mat_dims (m_dims m) (m_dims m) (m_bm m 1)) by (rewrite <- E; apply (wfm_bm _ _ W)).
    rewrite (mapply_ext (m_dims m) (m_dims m) _ _ _ i P1 Hi (fun j Hj => lgg_ie_apply tau m x b uc ur (S k) u j W E Eb Hb Hn Hj)).
    generalize (fun r : nat => (tau * reval (nth r (c_rows b) []) u + u (c_nc b + r)%nat)%Q). intro z.
    assert (Q1 : prev_bm m (S (S k)) = m_bm m (S k)) by reflexivity. rewrite Q1. unfold prev_bm. destruct (Nat.leb_spec (S k) 1).
    + replace k with 0 by lia. apply (mapply_ext (m_dims m) (m_dims m)); [exact P1|exact Hi|]. intros j Hj. symmetry. apply mapply_ident. exact Hj.
    + replace (S k - 1) with k by lia. apply (proj2 (wfm_bm _ _ W k) z i). rewrite E. exact Hi.
Qed.

Lemma vget tau be a i j : i < List.length (ha_modes a) -> get_mode (vauto tau be a i) j = if j =? i then vmode tau be (get_mode a i) else get_mode a j.
Proof. intro H. apply get_with_mode. exact H. Qed.
Lemma vauto_a tau be a i j : i < List.length (ha_modes a) -> m_a (get_mode (vauto tau be a i) j) = m_a (get_mode a j).
Proof. intro H. rewrite vget by exact H. destruct (Nat.eqb_spec j i) as [->|_]; reflexivity. Qed.
Lemma vauto_dims tau be a i j : i < List.length (ha_modes a) -> m_dims (get_mode (vauto tau be a i) j) = m_dims (get_mode a j).
Proof. intro H. unfold m_dims. rewrite vauto_a by exact H. reflexivity. Qed.
Lemma vauto_err tau be a i j : i < List.length (ha_modes a) -> is_error (get_mode (vauto tau be a i) j) = is_error (get_mode a j).
Proof. intro H. unfold is_error. rewrite vauto_a by exact H. reflexivity. Qed.
Lemma vauto_len tau be a i : List.length (ha_modes (vauto tau be a i)) = List.length (ha_modes a).
Proof. unfold vauto, with_mode. cbn [ha_modes]. apply upd_nth_length. Qed.
Lemma vauto_wf tau be a i : wf_ha a -> i < List.length (ha_modes a) -> b_ok (get_mode a i) -> wf_ha (vauto tau be a i).
Proof.
  intros [H1 H2] Hi Hb. split.
  - intros j Hj. rewrite vauto_len in Hj. specialize (H1 j Hj). rewrite vauto_a by exact Hi. rewrite vget by exact Hi. destruct (m_a (get_mode a j)) as [x|] eqn:Ea.
    + destruct (Nat.eqb_spec j i) as [->|_]; [apply vmode_wf; assumption|exact H1].
    + destruct (Nat.eqb_spec j i) as [->|_]; exact H1.
  - intros t Ht. specialize (H2 t Ht). change (get_trans (vauto tau be a i) t) with (get_trans a t). destruct H2 as [A1 A2 A3 A4 A5 A6]. constructor; rewrite ?vauto_len, ?vauto_dims, ?vauto_err by exact Hi; try assumption.
    unfold post_dims in *. rewrite vauto_dims by exact Hi. exact A6.
Qed.

(** equal up to the column names of the LP *)
Definition ssim (s s' : sset) : Prop := simn (ss_lpi s) (ss_lpi s') /\ s' = ss_with_lpi s (ss_lpi s').

Lemma add_inputs_sim be md vm mid b uc ur n x : m_b md = Some (b, uc, ur) -> m_dims md = n -> wf_mode vm x -> c_nr x = n ->
  m_b vm = Some (mkCsr (c_nc uc + n) [], ext_con uc n, ext_rhs ur be n) -> m_dims vm = n -> m_ie vm = m_ie md -> csr_ok uc -> c_nr uc = List.length ur ->
  forall count from l l' ies r, simn l l' -> add_inputs_beta (Some be) l md mid ies from count = Ok r -> exists r', add_inputs l' vm mid ies from count = Ok r' /\ simn (fst r) (fst r') /\ snd r = snd r'.
Proof.
  intros Eb En W Ex Eb' En' Ei Huc Hur. assert (WI := wfm_ie _ _ W). rewrite Eb' in WI. destruct WI as (_ & _ & _ & WI & _).
  induction count as [|count IH]; intros from l l' ies r S H.
  - cbn in H |- *. injection H as <-. eexists. split; [reflexivity|]. auto.
  - cbn [add_inputs_beta add_inputs] in *. rewrite Eb in H. rewrite Eb'. apply bind_ok in H as (l1 & H1 & H). rewrite En in H1.
    destruct (aie_beta be l (m_ie md from) mid n uc ur l1 Huc Hur) as (l2 & H2 & S2); [|exact H1|].
    { specialize (WI from). cbn [ext_con c_nc] in WI. rewrite Ex, Ei in WI. exact WI. }
    destruct (simn_aie l l' _ _ _ _ _ l2 S H2) as (l3 & H3 & S3). rewrite Ei, En', H3. cbn [bind]. apply (IH _ l1 l3); [|exact H].
    destruct S2 as (n2 & L2 & ->). destruct S3 as (n3 & L3 & ->). exists n3. split; [|reflexivity]. rewrite L3. exact L2.
Qed.

Lemma step_sim tau be a i s s' k r : wf_ha a -> i < List.length (ha_modes a) -> b_ok (get_mode a i) -> ss_mode s = i -> ssim s s' ->
  ss_step_beta (Some be) (use_lgg tau a i) s k = Ok r -> exists r', ss_step_to (vauto tau be a i) s' k = Ok r' /\ ssim r r'.
Proof.
  intros WH Hi Hb Em (Sl & Es) H. assert (WV := vauto_wf tau be a i WH Hi Hb). unfold ss_step_beta in H. unfold ss_step_to. rewrite Es. cbn [ss_with_lpi ss_mode ss_step ss_lpi ss_ies ss_lo ss_hi ss_conc ss_ops ss_rows ss_agg].
  rewrite Em in H |- *. apply bind_ok in H as (u & H0 & H). rewrite H0. cbn [bind]. unfold use_lgg in H. rewrite get_with_mode in H by exact Hi. rewrite vget by exact Hi. rewrite Nat.eqb_refl in *.
  cbn [m_a m_bm m_b vmode] in H |- *. destruct (k - ss_step s =? 0). { injection H as <-. eexists. split; [reflexivity|]. split; [exact Sl|reflexivity]. }
  destruct (m_a (get_mode a i)) as [x|] eqn:Ea; [|discriminate]. apply bind_ok in H as (l & Hl & H). apply bind_ok in H as (li & Hli & H).
  destruct (simn_bm _ _ _ l Sl Hl) as (l' & Hl' & Sl'). rewrite Hl'. cbn [bind]. injection H as <-.
  assert (Wv : wf_mode (vmode tau be (get_mode a i)) x). { apply vmode_wf; [|exact Ea|exact Hb]. destruct WH as [WH _]. specialize (WH i Hi). rewrite Ea in WH. exact WH. }
  assert (Wm : wf_mode (get_mode a i) x). { destruct WH as [WH _]. specialize (WH i Hi). rewrite Ea in WH. exact WH. }
  assert (WI := wfm_ie _ _ Wm). assert (En : m_dims (get_mode a i) = c_nr x) by (unfold m_dims; rewrite Ea; reflexivity).
  destruct (m_b (get_mode a i)) as [[[b uc] ur]|] eqn:Eb.
  - destruct (ss_ies s) as [ies|]; [|discriminate]. apply bind_ok in Hli as (r0 & Hr & Hli). injection Hli as <-. destruct WI as (W1 & W2 & _).
    assert (Q1 : m_b (vmode tau be (get_mode a i)) = Some (mkCsr (c_nc uc + c_nr x) [], ext_con uc (c_nr x), ext_rhs ur be (c_nr x))) by (unfold vmode; cbn [m_b]; rewrite Eb, En; reflexivity).
    match type of Hr with add_inputs_beta _ _ ?md _ _ _ _ = _ => assert (Q2 : m_b md = Some (b, uc, ur)) by exact Eb || reflexivity; assert (Q3 : m_dims md = c_nr x) by (unfold m_dims; cbn [m_a]; rewrite ?Ea; reflexivity);
      assert (Q4 : m_ie (vmode tau be (get_mode a i)) = m_ie md) by reflexivity;
      destruct (add_inputs_sim be md (vmode tau be (get_mode a i)) i b uc ur (c_nr x) x Q2 Q3 Wv eq_refl Q1 En Q4 W1 W2 _ _ l l' ies r0 Sl' Hr) as (r1 & Hr1 & S1 & S2) end.
    match goal with |- context[add_inputs ?l0 ?vm ?q ?w ?z ?y] => change (add_inputs l0 vm q w z y) with (add_inputs l' (vmode tau be (get_mode a i)) i ies (S (ss_step s)) (k - ss_step s)) end.
    rewrite Hr1. cbn [bind fst snd]. eexists. split; [reflexivity|]. split; [exact S1|]. unfold ss_with_lpi. cbn. rewrite S2. reflexivity.
  - injection Hli as <-. cbn [bind fst snd]. eexists. split; [reflexivity|]. split; [exact Sl'|reflexivity].
Qed.

(** ** the flow of the extended mode *)
(** p' is reached after j steps: each step applies the matrix exponential, adds tau times an admissible velocity and a vector of absolute values at most be *)
Fixpoint lgg_flow (m : mode) (tau be : Q) (j : nat) (p p' : vec) : Prop :=
  match j with
  | 0 => veq (m_dims m) p p'
  | S j' => exists q v w, lgg_flow m tau be j' p q /\ velocity m v /\ forall i, i < m_dims m -> (- be <= w i <= be)%Q /\ (p' i == mapply (m_bm m 1) q i + tau * v i + w i)%Q
  end.

Lemma nth_row (b : csr) i : i < c_nr b -> nth_error (c_rows b) i = Some (nth i (c_rows b) []).
Proof. intro H. destruct (nth_error (c_rows b) i) as [r|] eqn:E; [rewrite (nth_error_nth _ _ _ E); reflexivity|]. apply nth_error_None in E. unfold c_nr in H. lia. Qed.

Lemma vflow tau be m x b uc ur : wf_mode m x -> m_a m = Some x -> m_b m = Some (b, uc, ur) -> b_ok m -> forall j p z, flow (vmode tau be m) j p z <-> lgg_flow m tau be j p z.
Proof.
  intros W Ea Eb Hb. assert (E : c_nr x = m_dims m) by (unfold m_dims; rewrite Ea; reflexivity). unfold b_ok in Hb. rewrite Eb in Hb. destruct Hb as [Hb Hn].
  assert (WI := wfm_ie _ _ W). rewrite Eb in WI. destruct WI as (H1 & H2 & H3 & _).
  assert (Ev : m_b (vmode tau be m) = Some (mkCsr (c_nc uc + m_dims m) [], ext_con uc (m_dims m), ext_rhs ur be (m_dims m))) by (unfold vmode; cbn [m_b]; rewrite Eb; reflexivity).
  assert (A1 : forall u i, i < m_dims m -> (mapply (m_ie (vmode tau be m) 1) u i == tau * reval (nth i (c_rows b) []) u + u (c_nc b + i)%nat)%Q).
  { intros u i Hi. cbn [vmode m_ie]. rewrite (lgg_ie_apply tau m x b uc ur 1 u i W E Eb Hb Hn Hi). cbn [prev_bm Nat.leb]. rewrite (mapply_ident (m_dims m)) by exact Hi. reflexivity. }
  induction j as [|j IH]; intros p z; cbn [flow lgg_flow]; [reflexivity|]. split.
  - intros (q & u & F & Hu & Hs). unfold input_ok in Hu. rewrite Ev in Hu. apply ext_poly in Hu as [U1 U2]; [|exact H2]. unfold one_step in Hs. rewrite Ev in Hs.
    exists q, (fun i => reval (nth i (c_rows b) []) u), (fun i => u (c_nc b + i)). split; [apply IH; exact F|]. split.
    + unfold velocity. rewrite Eb. exists u. split; [exact U1|]. intros i r Hr. assert (K := nth_error_nth _ _ ([] : srow) Hr). unfold srow in *. rewrite K. reflexivity.
    + intros i Hi. split; [rewrite <- H3; apply U2; exact Hi|]. rewrite (Hs i Hi), (A1 u i Hi). change (m_bm (vmode tau be m)) with (m_bm m). ring.
  - intros (q & v & w & F & Hv & Hw). unfold velocity in Hv. rewrite Eb in Hv. destruct Hv as (u & U1 & U2).
    set (u' := fun c => if c <? c_nc uc then u c else w (c - c_nc uc)).
    assert (V1 : veq (c_nc uc) u u'). { intros c Hc. unfold u'. destruct (Nat.ltb_spec c (c_nc uc)); [reflexivity|lia]. }
    assert (V2 : forall i, u' (c_nc uc + i) = w i). { intro i. unfold u'. destruct (Nat.ltb_spec (c_nc uc + i) (c_nc uc)); [lia|]. f_equal. lia. }
    exists q, u'. split; [apply IH; exact F|]. split.
    + unfold input_ok. rewrite Ev. apply ext_poly; [exact H2|]. split; [eapply poly_ext_lt; [exact H1|exact V1|exact U1]|]. intros i Hi. rewrite V2. apply Hw. exact Hi.
    + intros i Hi. change (m_dims (vmode tau be m)) with (m_dims m) in Hi. rewrite Ev, (A1 u' i Hi). rewrite <- H3, V2. destruct (Hw i Hi) as [_ ->].
      assert (R : (reval (nth i (c_rows b) []) u' == v i)%Q).
      { assert (Hi' : i < c_nr b) by lia. rewrite (U2 i _ (nth_row b i Hi')). unfold csr_ok in Hb. rewrite Forall_forall in Hb. symmetry. eapply reval_ext_lt; [apply Hb; apply nth_In; exact Hi'|]. rewrite <- H3. exact V1. }
      rewrite R. cbn [vmode m_bm]. ring.
Qed.

Lemma flow_plus m x : wf_mode m x -> m_a m = Some x -> forall j i p r, flow m (i + j) p r <-> exists q, flow m i p q /\ flow m j q r.
Proof.
  intros W Ea. assert (E : m_dims m = c_nr x) by (unfold m_dims; rewrite Ea; reflexivity). induction j as [|j IH]; intros i p r.
  - rewrite Nat.add_0_r. cbn [flow]. split; [intro H; exists r; split; [exact H|intros c Hc; reflexivity]|]. intros (q & H & V). rewrite E in V. eapply (FlowFacts.flow_ext m x Ea W); [| |exact H]; [intros c Hc; reflexivity|exact V].
  - rewrite Nat.add_succ_r. cbn [flow]. split.
    + intros (q & u & F & Hu & Ho). apply IH in F as (q0 & F1 & F2). exists q0. split; [exact F1|]. exists q, u. auto.
    + intros (q0 & F1 & q & u & F2 & Hu & Ho). exists q, u. split; [apply IH; eauto|auto].
Qed.

(** ** steps after apply_approx_lgg *)
Inductive lgg_run (o : option Q) (a : ha) (s : sset) : sset -> Prop :=
| LR_start : lgg_run o a s s
| LR_step t k t' : lgg_run o a s t -> ss_step_beta o a t k = Ok t' -> lgg_run o a s t'.

(** without lgg_beta the matrices are too wide *)
Lemma no_beta tau a i s k x b uc ur : wf_ha a -> i < List.length (ha_modes a) -> ss_mode s = i -> m_a (get_mode a i) = Some x -> m_b (get_mode a i) = Some (b, uc, ur) -> b_ok (get_mode a i) -> l_dims (ss_lpi s) = c_nr x ->
  ss_ies s <> None -> ss_step s < k -> ss_step_beta None (use_lgg tau a i) s k = Err EAssert.
Proof.
  intros WH Hi Em Ea Eb Hb Hd Hs Hk. assert (WV := vauto_wf tau 0 a i WH Hi Hb). destruct WV as [WV _]. assert (Hi' : i < List.length (ha_modes (vauto tau 0 a i))) by (rewrite vauto_len; exact Hi).
  specialize (WV i Hi'). rewrite vauto_a, Ea, vget, Nat.eqb_refl in WV by exact Hi. assert (WI := wfm_ie _ _ WV). unfold vmode in WI. cbn [m_b m_ie] in WI. rewrite Eb in WI. destruct WI as (_ & _ & _ & WI & _). cbn [ext_con c_nc] in WI.
  assert (Dp : 0 < c_nr x) by exact (wfm_pos _ _ WV). assert (Dm : m_dims (get_mode a i) = c_nr x) by (unfold m_dims; rewrite Ea; reflexivity).
  unfold ss_step_beta. rewrite Em. unfold use_lgg. rewrite get_with_mode, Nat.eqb_refl by exact Hi. destruct (Nat.leb_spec (ss_step s) k); [|lia]. cbn [assert bind]. destruct (Nat.eqb_spec (k - ss_step s) 0) as [Z|_]; [lia|].
  cbn [m_a m_bm m_b]. rewrite Ea, Eb. assert (Bm : mat_dims (c_nr x) (c_nr x) (m_bm (get_mode a i) k)) by apply (wfm_bm _ _ WV k).
  unfold set_basis_matrix. destruct Bm as [B1 B2]. rewrite B1, Hd, Nat.eqb_refl. assert (FB : forallb (fun r => List.length r =? c_nr x) (m_bm (get_mode a i) k) = true) by (apply forallb_forall; intros r Hr; rewrite Forall_forall in B2; apply Nat.eqb_eq; apply B2; exact Hr).
  destruct (ss_ies s) as [ies|]; [|congruence]. destruct (k - ss_step s) as [|num] eqn:Ek; [lia|]. cbn [add_inputs_beta m_b add_input_effects_beta].
  assert (FW : forallb (fun r => List.length r =? c_nc uc) (lgg_ie tau (get_mode a i) (S (ss_step s))) = false).
  { destruct (WI (S (ss_step s))) as [L1 L2]. destruct (lgg_ie tau (get_mode a i) (S (ss_step s))) as [|r rs]; [cbn in L1; lia|]. inversion L2; subst. cbn [forallb]. destruct (Nat.eqb_spec (List.length r) (c_nc uc)); [lia|reflexivity]. }
  cbn [m_ie]. unfold add_input_effects_matrix. rewrite FW.
  repeat match goal with |- context[assert ?e] => destruct e; cbn [assert bind]; try reflexivity end; match goal with |- context[match l_ie ?q with _ => _ end] => destruct (l_ie q) as [[? ?]|]; reflexivity end.
Qed.

Section L.
Variable solve : solver.
Hypothesis Hsolve : solver_ok solve.
Variable qexp : Q -> Q.

Lemma lgg_st a a' s x s' lf l2 : st_ok solve a s x -> ss_step s = 0 -> no_rows s -> l_dims l2 = c_nr x -> good l2 ->
  List.length (ha_modes a') = List.length (ha_modes a) -> m_a (get_mode a' (ss_mode s)) = Some x -> m_inv (get_mode a' (ss_mode s)) = m_inv (get_mode a (ss_mode s)) ->
  (m_b (get_mode a' (ss_mode s)) = None <-> m_b (get_mode a (ss_mode s)) = None) ->
  aggregate_chull solve 1 [ss_lpi s; l2] (ss_mode s) (has_inputs (get_mode a (ss_mode s))) = Ok lf -> s' = ss_with_lpi s lf -> st_ok solve a' s' x.
Proof.
  intros S E0 HN D2 G2 Hlen Hma Hinv Hmb Hl ->. assert (Hm := st_mode _ _ _ _ S). assert (Hd := st_dims _ _ _ _ S). destruct (st_api _ _ _ _ S) as (js & Ap & _).
  assert (Hp : 0 < l_dims (ss_lpi s)) by (apply (api_ok solve Hsolve) in Ap as (_ & _ & K & _); exact K).
  set (vm := get_mode a' (ss_mode s)) in *.
  destruct (chull_two_api solve Hsolve _ _ _ _ lf (m_nu vm) (api_good solve Hsolve _ _ Ap) G2 Hl Hp) as (Apl & Dl & _).
  constructor; cbn [ss_with_lpi ss_mode ss_lpi ss_step ss_bm ss_ies ss_rows]; fold vm; rewrite ?E0.
  - rewrite Hlen. exact Hm.
  - exact Hma.
  - congruence.
  - exists []. split; [|intros j Hj; destruct (HN j Hj)]. unfold bm_of, ies_of. cbn [Nat.eqb seq map]. rewrite Dl, Hd in Apl. destruct (m_b vm); exact Apl.
  - assert (K := st_bm _ _ _ _ S). rewrite E0 in K. exact K.
  - assert (K := st_ies _ _ _ _ S). rewrite E0 in K. unfold ies_of in *. cbn [seq map] in *. destruct (m_b vm) as [q|]; destruct (m_b (get_mode a (ss_mode s))) as [q'|]; try exact K; [assert (Z := proj2 Hmb eq_refl)|assert (Z := proj1 Hmb eq_refl)]; discriminate Z.
  - rewrite Hinv. exact (st_rows _ _ _ _ S).
  - intros [c Hc] _. exists (core_sat lf). unfold hasC. destruct (m_b vm) eqn:Eb; [|tauto].
    assert (HI := api_ok solve Hsolve _ _ Apl). destruct HI as (_ & _ & _ & W & _). split.
    + intros y z Hyz Hy. eapply core_sat_ext; [exact W| |exact Hy]. intros c0 Hc0 Hor.
      assert (HW := wf_ies _ _ _ _ W). unfold uoff in Hor. rewrite Hc in *. destruct c as [ier iec]. destruct HW as (H2 & H3 & H4 & _). cbn [List.length] in H4. apply Hyz. lia.
    + intro y. split; [intro Hy; split; auto; intros j Hj; lia|tauto].
Qed.

Lemma add_inputs_none md mid : forall count from l ies, add_inputs_beta None l md mid ies from count = add_inputs l md mid ies from count.
Proof. induction count as [|count IH]; intros from l ies; [reflexivity|]. cbn [add_inputs_beta add_inputs]. destruct (m_b md) as [[[b uc] ur]|]; [|reflexivity]. cbn [add_input_effects_beta]. destruct (add_input_effects_matrix _ _ _ _ _ _) as [l1|e]; [cbn [bind]; apply IH|reflexivity]. Qed.
Lemma step_none a s k : ss_step_beta None a s k = ss_step_to a s k.
Proof. unfold ss_step_beta, ss_step_to. destruct (m_b (get_mode a (ss_mode s))) as [[[b uc] ur]|]; [|reflexivity]. destruct (ss_ies s) as [ies|]; [|reflexivity]. destruct (assert _); [|reflexivity]. cbn [bind]. destruct (_ =? 0); [reflexivity|]. destruct (m_a _); [|reflexivity]. destruct (set_basis_matrix _ _); [|reflexivity]. cbn [bind]. rewrite add_inputs_none. reflexivity. Qed.

Lemma plain_run a s x sk : wf_ha a -> ss_step s = 0 -> no_rows s -> st_ok solve a s x -> lgg_run None a s sk ->
  st_ok solve a sk x /\ no_rows sk /\ ss_mode sk = ss_mode s /\ ss_lo sk = ss_lo s + ss_step sk /\ ss_hi sk = ss_hi s + ss_step sk /\
    forall z, in_lp (ss_lpi sk) z <-> exists p, in_lp (ss_lpi s) p /\ flow (get_mode a (ss_mode s)) (ss_step sk) p z.
Proof.
  intros WH E0 HN S0 R. assert (Ea := st_a _ _ _ _ S0). set (vm := get_mode a (ss_mode s)) in *. assert (Hm := st_mode _ _ _ _ S0).
  assert (Wm : wf_mode vm x). { destruct WH as [WV _]. specialize (WV _ Hm). fold vm in WV. rewrite Ea in WV. exact WV. }
  assert (En : m_dims vm = c_nr x) by (unfold m_dims; rewrite Ea; reflexivity).
  induction R as [|t k t' R IH H].
  - split; [exact S0|]. split; [exact HN|]. split; [reflexivity|]. split; [lia|]. split; [lia|]. rewrite E0. intro z. cbn [flow]. split.
    + intro Hz. exists z. split; [exact Hz|intros i Hi; reflexivity].
    + intros (p & Hp & V). eapply in_lp_ext; [|exact Hp]. rewrite (st_dims _ _ _ _ S0), <- En. exact V.
  - destruct IH as (St & Nt & Mt & Lt & Ht & Ft). rewrite step_none in H.
    destruct (step_to_ok solve Hsolve a t x k t' WH St H) as (St' & Kk & Ks & Km & Kl & Kh & _ & _ & Kr & _ & Kf).
    split; [exact St'|]. assert (Nt' : no_rows t') by (unfold no_rows; rewrite Kr; exact Nt). split; [exact Nt'|]. split; [rewrite Km; exact Mt|]. split; [rewrite Kl, Lt, Ks; lia|]. split; [rewrite Kh, Ht, Ks; lia|].
    specialize (Kf (or_intror Nt)). rewrite Mt in Kf. fold vm in Kf. rewrite Ks. intro z. rewrite Kf.
    assert (FP : forall p, flow vm k p z <-> exists q, flow vm (ss_step t) p q /\ flow vm (k - ss_step t) q z). { intro p. rewrite <- (flow_plus vm x Wm Ea). replace (ss_step t + (k - ss_step t)) with k by lia. reflexivity. }
    split.
    + intros (q & Hq & F). apply Ft in Hq as (p & Hp & F0). exists p. split; [exact Hp|]. apply FP. exists q. auto.
    + intros (p & Hp & F). apply FP in F as (q & F1 & F2). exists q. split; [apply Ft; exists p; auto|exact F2].
Qed.

Lemma lgg_run_sim tau be a s x sk : wf_ha a -> ss_step s = 0 -> b_ok (get_mode a (ss_mode s)) -> ss_mode s < List.length (ha_modes a) -> no_rows s -> st_ok solve (vauto tau be a (ss_mode s)) s x ->
  lgg_run (Some be) (use_lgg tau a (ss_mode s)) s sk ->
  exists sv, ssim sk sv /\ st_ok solve (vauto tau be a (ss_mode s)) sv x /\ no_rows sv /\ ss_mode sv = ss_mode s /\ ss_lo sv = ss_lo s + ss_step sv /\ ss_hi sv = ss_hi s + ss_step sv /\
    forall z, in_lp (ss_lpi sv) z <-> exists p, in_lp (ss_lpi s) p /\ flow (vmode tau be (get_mode a (ss_mode s))) (ss_step sv) p z.
Proof.
  intros WH E0 Hb Hm HN S0 R. assert (WV := vauto_wf tau be a (ss_mode s) WH Hm Hb). set (va := vauto tau be a (ss_mode s)) in *. set (vm := vmode tau be (get_mode a (ss_mode s))) in *.
  assert (Eg : get_mode va (ss_mode s) = vm) by (unfold va; rewrite vget, Nat.eqb_refl by exact Hm; reflexivity).
  assert (Ea : m_a vm = Some x) by (rewrite <- Eg; exact (st_a _ _ _ _ S0)).
  assert (Wm : wf_mode vm x). { destruct WV as [WV _]. assert (Hm' : ss_mode s < List.length (ha_modes va)) by (unfold va; rewrite vauto_len; exact Hm). specialize (WV _ Hm'). rewrite Eg, Ea in WV. exact WV. }
  assert (En : m_dims vm = c_nr x) by (unfold m_dims; rewrite Ea; reflexivity).
  induction R as [|t k t' R IH H].
  - exists s. split; [split; [apply simn_refl|destruct s; reflexivity]|]. split; [exact S0|]. split; [exact HN|]. split; [reflexivity|]. split; [lia|]. split; [lia|]. rewrite E0. intro z. cbn [flow]. split.
    + intro Hz. exists z. split; [exact Hz|intros i Hi; reflexivity].
    + intros (p & Hp & V). eapply in_lp_ext; [|exact Hp]. rewrite (st_dims _ _ _ _ S0), <- En. exact V.
  - destruct IH as (tv & Ss & St & Nt & Mt & Lt & Ht & Ft). assert (Em : ss_mode t = ss_mode s). { destruct Ss as [_ K]. rewrite <- Mt, K. reflexivity. }
    destruct (step_sim tau be a (ss_mode s) t tv k t' WH Hm Hb Em Ss H) as (tv' & H' & Ss'). destruct (step_to_ok solve Hsolve va tv x k tv' WV St H') as (St' & Kk & Ks & Km & Kl & Kh & _ & _ & Kr & _ & Kf).
    exists tv'. split; [exact Ss'|]. split; [exact St'|]. assert (Nt' : no_rows tv') by (unfold no_rows; rewrite Kr; exact Nt). split; [exact Nt'|]. split; [rewrite Km; exact Mt|]. split; [rewrite Kl, Lt, Ks; lia|]. split; [rewrite Kh, Ht, Ks; lia|].
    specialize (Kf (or_intror Nt)). rewrite Mt, Eg in Kf. rewrite Ks. intro z. rewrite Kf.
    assert (FP : forall p, flow vm k p z <-> exists q, flow vm (ss_step tv) p q /\ flow vm (k - ss_step tv) q z). { intro p. rewrite <- (flow_plus vm x Wm Ea). replace (ss_step tv + (k - ss_step tv)) with k by lia. reflexivity. }
    split.
    + intros (q & Hq & F). apply Ft in Hq as (p & Hp & F0). exists p. split; [exact Hp|]. apply FP. exists q. auto.
    + intros (p & Hp & F). apply FP in F as (q & F1 & F2). exists q. split; [apply Ft; exists p; auto|exact F2].
Qed.
End L.
