(** With deaggregation: the names of the columns of a concrete state can always be read back as a counter-example (for C66). *)
From Verif Require Import Base BaseFacts LpModel LpSpec SetSpec LpUtil LpFacts LpWf SetFacts SetFacts2 OpsFacts OpsFacts2 OpsFacts3 OpsFacts4 ChullFacts
  ApiSpec ApiFacts Automaton StateSet HybridSpec FlowFacts StateSpec StateFacts StateFacts2 StateFacts3 AutoFacts BuildFacts CoreModel HeapFacts CoreOps CoreGhost CoreHeap CoreInv CoreStep CoreCont CorePop CoreExt CoreDag CoreDag2 CoreDag3
  CoreSubD CoreShape CoreShape2 Names CexSpec NameFacts Layout TraceLp TraceState TraceReset CoreTrace CexSetup.
From Coq Require Import String Lia.
Open Scope list_scope.
Open Scope nat_scope.

Section DN.
Variable a : ha.
Hypothesis WH : wf_ha a.
Hypothesis Hidx : index_ok a.

(** the columns called [names] are read back as [n] finished segments and a last one in mode [m], whatever the values *)
Definition DN (names : list string) (m n : nat) : Prop := forall ns vs, n < List.length ns -> List.length vs = List.length names ->
  exists H sg, ce_names a ns [] (combine names vs) = Ok (H ++ [sg]) /\ List.length H = n /\ sg_mode sg = m.

Lemma split_at {A} (l : list A) n m : List.length l = n + m -> l = firstn n l ++ skipn n l /\ List.length (firstn n l) = n /\ List.length (skipn n l) = m.
Proof. intro H. rewrite firstn_skipn, firstn_length, skipn_length. split; [reflexivity|]. lia. Qed.

Lemma run_inps ns m nu k : forall vs ce s, List.length vs = nu * k -> exists i, ce_names a ns (ce ++ [s]) (combine (inp_names m nu k) vs) = Ok (ce ++ [sg_with_inputs s i]).
Proof.
  assert (E0 : forall ce s, ce_names a ns (ce ++ [s]) [] = Ok (ce ++ [sg_with_inputs s (sg_inputs s)])) by (intros ce s; destruct s; reflexivity).
  destruct (Nat.eq_dec nu 0) as [->|Hn].
  { intros vs ce s _. rewrite inp_names_0. cbn [combine]. eauto. }
  induction k as [|k IH]; intros vs ce s Hv.
  - exists (sg_inputs s). apply E0.
  - change (inp_names m nu (S k)) with (names_of "I" m 0 nu ++ inp_names m nu k). destruct (split_at vs nu (nu * k)) as (E & L1 & L2); [lia|].
    rewrite E, combine_app by (rewrite names_of_length; auto). rewrite ce_names_app, run_inp by (auto; lia). cbn [bind]. destruct (IH _ ce (sg_with_inputs s (firstn nu vs :: sg_inputs s)) L2) as (i & Ei). rewrite Ei. exists i. reflexivity.
Qed.
Lemma DN_inp names m n m' nu k : DN names m n -> DN (names ++ inp_names m' nu k) m n.
Proof.
  intros H ns vs Hn Hv. rewrite app_length, inp_names_length in Hv. destruct (split_at vs _ _ Hv) as (E & L1 & L2). rewrite E, combine_app by auto. rewrite ce_names_app.
  destruct (H ns _ Hn L1) as (H0 & sg & E0 & E1 & E2). rewrite E0. cbn [bind]. destruct (run_inps ns m' nu k _ H0 sg L2) as (i & Ei). rewrite Ei. exists H0, (sg_with_inputs sg i). auto.
Qed.
Lemma DN_init l m : m < List.length (ha_modes a) -> 0 < l_dims l -> init_cols l m -> DN (l_names l) m 0.
Proof.
  intros Hm Hd (n & hi & En & Hle & _) ns vs Hns Hv. destruct n as [|n]; [lia|]. destruct ns as [|k ns]; [cbn in Hns; lia|]. rewrite En in *. clear En.
  rewrite !app_length, !names_of_length in Hv. set (w := List.length (if hi then names_of "ti" m 0 (l_dims l) else [])) in *.
  destruct vs as [|v vs]; [discriminate|]. cbn [List.length] in Hv. destruct (split_at vs n (l_dims l + w)) as (E & L1 & L2); [lia|]. destruct (split_at (skipn n vs) _ _ L2) as (E' & L3 & L4).
  rewrite E, E'. clear E E'. change (names_of "i" m 0 (S n)) with (nm "i" m 0 :: names_of "i" m 1 n). cbn [app combine ce_names]. rewrite (dec_first a (k :: ns) m v k eq_refl Hm). cbn [bind].
  rewrite combine_app by (rewrite names_of_length; auto). rewrite ce_names_app. change [mkSeg m [v] [] k None [] []] with ([] ++ [mkSeg m [v] [] k None [] []]). rewrite run_init by auto. cbn [bind].
  rewrite combine_app by (rewrite names_of_length; auto). rewrite ce_names_app, run_cur by auto. cbn [bind].
  assert (R : forall ce, ce_names a (k :: ns) ce (combine (if hi then names_of "ti" m 0 (l_dims l) else []) (skipn (l_dims l) (skipn n vs))) = Ok ce).
  { intro ce. unfold w in L4. destruct hi; [apply run_acc; rewrite names_of_length in L4; exact L4|reflexivity]. }
  rewrite R. eexists [], _. split; [reflexivity|]. split; reflexivity.
Qed.
Lemma DN_reset l t l2 m n : DN (l_names l) m n -> t < List.length (ha_trans a) -> t_from (get_trans a t) = m ->
  add_reset_variables l (t_to (get_trans a t)) (t_index (get_trans a t)) (t_reset (get_trans a t)) (t_mink (get_trans a t)) (has_inputs (get_mode a (t_to (get_trans a t)))) = Ok l2 ->
  DN (l_names l2) (t_to (get_trans a t)) (S n).
Proof.
  intros HD Ht Hfr Hres ns vs Hns Hv. destruct (reset_layout _ _ _ _ _ _ _ Hres) as (L1 & _).
  set (nd := match t_reset (get_trans a t) with None => l_dims l | Some r => c_nr r end) in *. set (mv := match t_mink (get_trans a t) with None => 0 | Some (m, _, _) => c_nc m end) in *. set (tr := get_trans a t) in *.
  set (si := has_inputs (get_mode a (t_to tr))) in *. set (w := List.length (if si then names_of "ti" (t_to tr) 0 nd else [])) in *.
  rewrite L1 in *. rewrite !app_length, map_length, seq_length, !names_of_length in Hv. cbn [List.length] in Hv. fold w in Hv.
  destruct (split_at vs _ _ Hv) as (E1 & A1 & B1). destruct (split_at (skipn (List.length (l_names l)) vs) _ _ B1) as (E2 & A2 & B2). rewrite E1, E2. clear E1 E2.
  set (v0 := firstn (List.length (l_names l)) vs) in *. set (v1 := firstn mv _) in *. set (r1 := skipn mv _) in *. clearbody v0 v1 r1. destruct r1 as [|v r1]; [discriminate|]. cbn [List.length] in B2.
  destruct (split_at r1 (nd - 1) (nd + w)) as (E3 & A3 & B3); [lia|]. destruct (split_at (skipn (nd - 1) r1) _ _ B3) as (E4 & A4 & B4). rewrite E3, E4. clear E3 E4.
  destruct (nth_error ns (S n)) as [k|] eqn:Ek; [|apply nth_error_None in Ek; lia].
  destruct (HD ns v0 ltac:(lia) A1) as (H & sg & H1 & H2 & H3).
  rewrite combine_app by auto. rewrite ce_names_app, H1. cbn [bind].
  rewrite combine_app by (rewrite map_length, seq_length; auto). rewrite ce_names_app, run_mink by auto. cbn [bind app combine ce_names].
  rewrite (dec_entry a ns (t_to tr) (t_index tr) v k H _ t); [|rewrite H2; exact Ek|apply (wft_to _ _ (proj2 WH t Ht))|cbn [sg_mink_add sg_mode]; rewrite H3, <- Hfr; apply Hidx; exact Ht].
  cbn [bind]. rewrite combine_app by (rewrite names_of_length; auto). rewrite ce_names_app, run_init by auto. cbn [bind].
  rewrite combine_app by (rewrite names_of_length; auto). rewrite ce_names_app, run_cur by auto. cbn [bind].
  assert (R : forall ce, ce_names a ns ce (combine (if si then names_of "ti" (t_to tr) 0 nd else []) (skipn nd (skipn (nd - 1) r1))) = Ok ce).
  { intro ce. unfold w in B4. destruct si; [apply run_acc; rewrite names_of_length in B4; exact B4|reflexivity]. }
  rewrite R. eexists _, _. split; [reflexivity|]. split; [rewrite app_length, H2; cbn; lia|reflexivity].
Qed.
End DN.

Section Grow.
Variable solve : solver.
Variable arnoldi : nat -> option (list Q) -> csr -> option csr -> nat -> list (list Q).
Variable cf : cfg.
Variable a : ha.
Hypothesis WH : wf_ha a.
Hypothesis Hidx : index_ok a.

(** ** what the operations on states do to the names *)
Definition gnames (s s' : sset) : Prop := exists k, l_names (ss_lpi s') = l_names (ss_lpi s) ++ inp_names (ss_mode s) (m_nu (get_mode a (ss_mode s))) k.
Definition grow (s s' : sset) : Prop := ss_mode s' = ss_mode s /\ ss_conc s' = ss_conc s /\ ss_ops s' = ss_ops s /\ gnames s s'.
Lemma gn_eq s s' : l_names (ss_lpi s') = l_names (ss_lpi s) -> gnames s s'.
Proof. intro H. exists 0. rewrite H. cbn. rewrite app_nil_r. reflexivity. Qed.
Lemma g_refl s : grow s s.
Proof. split; [reflexivity|]. split; [reflexivity|]. split; [reflexivity|]. apply gn_eq. reflexivity. Qed.
Lemma g_trans s1 s2 s3 : grow s1 s2 -> grow s2 s3 -> grow s1 s3.
Proof.
  intros (A1 & A2 & A3 & k & A4) (B1 & B2 & B3 & j & B4). split; [congruence|]. split; [congruence|]. split; [congruence|]. exists (k + j). rewrite B4, A4, A1, inp_names_add, app_assoc. reflexivity.
Qed.
Lemma g_lpi s l : l_names l = l_names (ss_lpi s) -> grow s (ss_with_lpi s l).
Proof. intro H. split; [reflexivity|]. split; [reflexivity|]. split; [reflexivity|]. apply gn_eq. exact H. Qed.
Lemma g_step s k s1 : ss_step_to a s k = Ok s1 -> grow s s1.
Proof.
  unfold ss_step_to. intro H. apply bind_ok in H as (u & _ & H). destruct (_ =? 0) in H; [apply ok_inj in H; subst; apply g_refl|]. destruct (m_a _) in H; [|discriminate].
  apply bind_ok in H as (l & Hl & H). apply bind_ok in H as (li & Hli & H). apply ok_inj in H. subst s1. apply basis_layout in Hl. split; [reflexivity|]. split; [reflexivity|]. split; [reflexivity|]. unfold gnames. cbn [ss_lpi].
  destruct (m_b _) as [bu|] eqn:Eb.
  - destruct (ss_ies s) as [ies|]; [|discriminate]. apply bind_ok in Hli as ([l3 i3] & Hadd & Hli). apply ok_inj in Hli. subst li. cbn [fst]. apply add_inputs_layout in Hadd. eexists. rewrite Hadd, Hl. reflexivity.
  - apply ok_inj in Hli. subst li. cbn [fst]. exists 0. cbn. rewrite app_nil_r. exact Hl.
Qed.
Lemma g_cond s i c s1 o st : inv_cond solve s i c = Ok (s1, o, st) -> grow s s1.
Proof.
  intro H. unfold inv_cond in H. apply bind_ok in H as ([l1 r1] & H1 & H). cbn [fst snd] in H.
  assert (N1 : l_names l1 = l_names (ss_lpi s)).
  { unfold check_intersection in H1. apply bind_ok in H1 as (l0 & H0 & H1). apply min_dir_csr_layout in H0. apply bind_ok in H1 as (r & _ & H1). destruct r; apply ok_inj in H1; injection H1 as <- _; exact H0. }
  assert (G1 := g_lpi s l1 N1). destruct r1 as [[|]|]; [|apply ok_inj in H; injection H as <- _ _; exact G1|apply ok_inj in H; injection H as <- _ _; exact G1].
  destruct (nth i (ss_rows _) None) as [old|].
  - apply bind_ok in H as ([[l j] strong] & Hr & H). apply ok_inj in H. injection H as <- _ _. apply replace_layout in Hr. cbn [ss_with_lpi ss_lpi] in Hr.
    split; [reflexivity|]. split; [reflexivity|]. split; [reflexivity|]. apply gn_eq. cbn [ss_with_rows ss_with_lpi ss_lpi]. congruence.
  - apply bind_ok in H as ([l j] & Hr & H). apply ok_inj in H. injection H as <- _ _. apply init_layout in Hr. cbn [ss_with_lpi ss_lpi] in Hr.
    split; [reflexivity|]. split; [reflexivity|]. split; [reflexivity|]. apply gn_eq. cbn [ss_with_rows ss_with_lpi ss_lpi fst]. congruence.
Qed.
Lemma g_inv s s1 ops ok : intersect_invariant solve a s = Ok (s1, ops, ok) -> grow s s1.
Proof.
  unfold intersect_invariant. generalize (m_inv (get_mode a (ss_mode s))). intro cs. generalize 0. revert s s1 ops ok. induction cs as [|c cs IH]; intros s s1 ops ok i H; cbn [intersect_inv] in H; [apply ok_inj in H; injection H as <- _ _; apply g_refl|].
  apply bind_ok in H as ([[s2 o] st] & H1 & H). apply g_cond in H1. destruct o as [[|]|]; [|eapply g_trans; [exact H1|eapply IH; exact H]|eapply g_trans; [exact H1|eapply IH; exact H]].
  apply bind_ok in H as (f & _ & H). destruct f.
  - apply bind_ok in H as ([[s3 ops3] ok3] & H3 & H). apply ok_inj in H. injection H as <- _ _. eapply g_trans; [exact H1|eapply IH; exact H3].
  - apply ok_inj in H. injection H as <- _ _. exact H1.
Qed.
Lemma g_obj s o : grow s (ss_with_lpi s (with_obj (ss_lpi s) o)).
Proof. apply g_lpi. reflexivity. Qed.

Lemma rows_sat_names w : forall rows rhs l l1 b, guard_rows_sat solve l w rows rhs = Ok (l1, b) -> l_names l1 = l_names l.
Proof.
  induction rows as [|r rows IH]; intros rhs l l1 b H; cbn [guard_rows_sat] in H; [apply ok_inj in H; injection H as <- _; reflexivity|].
  apply bind_ok in H as (l2 & H2 & H). apply min_dir_csr_layout in H2. apply bind_ok in H as (v & _ & H). destruct v as [vals|]; [|apply ok_inj in H; injection H as <- _; exact H2].
  destruct rhs as [|b0 rhs]; [discriminate|]. destruct (Qle_bool _ _); [apply IH in H; congruence|apply ok_inj in H; injection H as <- _; exact H2].
Qed.
Lemma guard_names t l l1 ol : get_guard_intersection solve t l = Ok (l1, ol) -> l_names l1 = l_names l /\ forall tl, ol = Some tl -> l_names tl = l_names l.
Proof.
  unfold get_guard_intersection. intro H. destruct (t_guard t) as [[g rhs]|]; [|discriminate]. apply bind_ok in H as ([l2 b] & H1 & H). apply rows_sat_names in H1. destruct b.
  - apply bind_ok in H as (t1 & Hc & H). apply bind_ok in H as (t2 & Ha & H). apply bind_ok in H as (f & _ & H). apply ok_inj in H. injection H as <- <-. split; [exact H1|]. intros tl E. destruct f; [|discriminate]. injection E as <-.
    apply clone_ok in Hc as ->. apply curtime_layout in Ha. congruence.
  - apply ok_inj in H. injection H as <- <-. split; [exact H1|]. discriminate.
Qed.
Lemma affine_names vars : forall l eps l1 b, affine_check solve l vars eps = Ok (l1, b) -> l_names l1 = l_names l.
Proof. intros l eps l1 b H. apply affine_check_obj in H as (o & ->). reflexivity. Qed.
Lemma tt_names m tv w eps : forall rows rhs l rv l1 b, tt_rows solve m tv l w eps rows rhs rv = Ok (l1, b) -> l_names l1 = l_names l.
Proof.
  induction rows as [|r rows IH]; intros rhs l rv l1 b H; cbn [tt_rows] in H; [apply ok_inj in H; injection H as <- _; reflexivity|].
  destruct rhs as [|b0 rhs]; [apply ok_inj in H; injection H as <- _; reflexivity|].
  apply bind_ok in H as (found & _ & H). destruct (negb found); [exact (IH _ _ _ _ _ H)|].
  apply bind_ok in H as ([l2 ok] & Hac & H). apply affine_names in Hac. destruct ok; [|apply IH in H; congruence].
  apply bind_ok in H as (l3 & H3 & H). apply bind_ok in H as (mn & _ & H). apply bind_ok in H as (l4 & H4 & H). apply bind_ok in H as (mx & _ & H).
  apply set_min_dir_obj in H3 as (o3 & ->). apply set_min_dir_obj in H4 as (o4 & ->).
  destruct mn as [mn|]; [|discriminate]. destruct mx as [mx|]; [|discriminate]. destruct (negb _) in H; [discriminate|]. apply IH in H. rewrite H. exact Hac.
Qed.
Lemma taken_names t l sz n l1 b : was_tt_taken solve a l t sz n = Ok (l1, b) -> l_names l1 = l_names l.
Proof. unfold was_tt_taken. destruct (n =? 0); [discriminate|]. cbv zeta. destruct (t_guard t) as [[g rhs]|]; [|discriminate]. apply tt_names. Qed.

Lemma center_names ds : forall l r, box_center_loop solve l ds = Ok r -> l_names (fst r) = l_names l.
Proof.
  induction ds as [|d ds IH]; intros l r H; cbn [box_center_loop] in H; [apply ok_inj in H; subst r; reflexivity|].
  apply bind_ok in H as (l3 & H3 & H). apply bind_ok in H as (mn & _ & H). apply bind_ok in H as (l4 & H4 & H). apply bind_ok in H as (mx & _ & H).
  apply set_min_dir_obj in H3 as (o3 & ->). apply set_min_dir_obj in H4 as (o4 & ->). set (l2 := with_obj _ o4) in *. assert (E : l_names l2 = l_names l) by reflexivity. clearbody l2.
  assert (R : Ok (l2, @None (list Q)) = Ok r -> l_names (fst r) = l_names l) by (intro K; apply ok_inj in K; subst r; exact E).
  destruct mn as [[|q [|]]|]; [exact (R H)| |exact (R H)|exact (R H)]. destruct mx as [[|q' [|]]|]; [exact (R H)| |exact (R H)|exact (R H)].
  apply bind_ok in H as (r1 & H1 & H). apply ok_inj in H. subst r. cbn [fst]. apply IH in H1. congruence.
Qed.
Lemma pre_names l l1 ctr : pretransition solve cf l = Ok (Some (l1, ctr)) -> l_names l1 = l_names l.
Proof.
  unfold pretransition. assert (R : Ok (Some (l, @None (list Q))) = Ok (Some (l1, ctr)) -> l_names l1 = l_names l) by (intro K; apply ok_inj in K; injection K as <- _; reflexivity).
  destruct (cf_strat cf) as [g|]; [|exact R]. destruct (ag_kind g); try exact R. intro H. apply bind_ok in H as (r & Hr & H). apply center_names in Hr. destruct (snd r); [|discriminate]. apply ok_inj in H. injection H as <- _. exact Hr.
Qed.
End Grow.
