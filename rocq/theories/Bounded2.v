(** The operations of lputil keep LPs bounded and do not fail on well-formed arguments (for C66). *)
From Verif Require Import Base BaseFacts LpModel LpSpec SetSpec LpFacts LpWf LpUtil SetFacts SetFacts2 MinkFacts OpsFacts OpsFacts2 OpsFacts3 OpsFacts4 AggFacts ApiSpec ApiFacts Bounded.
From Coq Require Import Lia Lqa Setoid QArith.Qabs.
Open Scope nat_scope.

Lemma wf_ie_rows l BM nu IEs r c : wf_lp l BM nu IEs -> 0 < l_dims l -> l_ie l = Some (r, c) -> r + l_dims l <= l_nr l /\ c + l_dims l <= l_nc l.
Proof.
  intros W Hd E. pose proof (wf_ies _ _ _ _ W) as HI. rewrite E in HI. destruct HI as (H1 & H2 & H3 & _ & H4). split; [|lia].
  destruct (H4 (l_dims l - 1) ltac:(lia)) as (co & Hn & _). assert (r + (l_dims l - 1) < List.length (l_rows l)) by (apply nth_error_Some; congruence). unfold l_nr. lia.
Qed.
Lemma clone_total l BM nu IEs : wf_lp l BM nu IEs -> 0 < l_dims l -> clone l = Ok l.
Proof.
  intros W Hd. unfold clone, set_reach_vars. cbn [l_rows l_names l_nr l_nc].
  pose proof (wf_bmr_le _ _ _ _ W Hd) as H1. pose proof (wf_bmc _ _ _ _ W) as H2. pose proof (wf_cvo _ _ _ _ W) as H3. unfold l_nr, l_nc in *. cbn [l_rows l_names].
  rewrite (proj2 (Nat.leb_le _ _) H1). cbn [assert bind]. rewrite (proj2 (Nat.leb_le (snd (l_bm l) + 2 * l_dims l) _)) by lia. cbn [assert bind].
  destruct (l_ie l) as [[r c]|] eqn:E.
  - destruct (wf_ie_rows _ _ _ _ _ _ W Hd E) as [A B]. unfold l_nr, l_nc in *. rewrite (proj2 (Nat.leb_le _ _) A). cbn [assert bind]. rewrite (proj2 (Nat.leb_le _ _) B). cbn [assert bind]. rewrite <- E. destruct l; reflexivity.
  - cbn [bind]. rewrite <- E. destruct l; reflexivity.
Qed.
(** an lp whose solutions bound the core columns *)
Lemma cb_of_sat l BM nu IEs : wf_lp l BM nu IEs -> (forall c, c < l_cvo l \/ uoff l <= c < l_nc l -> bnd (lp_sat l) (fun x => x c)) -> cb l (fun _ => False).
Proof.
  intros W H c Hc. destruct (H c Hc) as (M & HM). exists M. intros x Hx.
  assert (Cx : core_sat l x) by (intros i r Hr; apply (Hx i r Hr); intros []).
  destruct (core_to_sat _ _ _ _ _ W Cx) as (y & Hy & E). rewrite <- (E c) by lia. exact (HM y Hy).
Qed.

(** set_basis_matrix *)
Lemma set_basis_total l BM : mat_dims (l_dims l) (l_dims l) BM -> exists l', set_basis_matrix l BM = Ok l'.
Proof.
  intros [H1 H2]. unfold set_basis_matrix. rewrite H1, (proj2 (forallb_len _ _) H2). cbn [assert bind]. rewrite Nat.eqb_refl. cbn [assert bind]. eauto.
Qed.
Lemma set_basis_cb l BM0 BM nu IEs l' (J : nat -> Prop) : wf_lp l BM0 nu IEs -> set_basis_matrix l BM = Ok l' -> cb l J -> cb l' J.
Proof.
  intros W H B. destruct (set_basis_wf _ _ _ _ _ _ W H) as (_ & S & Hn & _ & _ & Hr). intros c Hc. destruct S as (S1 & S2 & S3 & S4). assert (S : same_layout l l') by (repeat split; assumption).
  rewrite (same_layout_uoff _ _ S), S3, Hn in Hc. apply (bnd_sub (core_exc l J)); [|exact (B c Hc)].
  intros x Hx k r Hk NJ Nb Ni. apply (Hx k r); auto; [apply (Hr k r Nb); exact Hk|rewrite (same_layout_is_bm _ _ _ S); exact Nb|rewrite (same_layout_is_ie _ _ _ S); exact Ni].
Qed.
Lemma set_basis_obj l BM l' : set_basis_matrix l BM = Ok l' -> obj_ok l -> obj_ok l'.
Proof. intros H O. apply set_basis_matrix_ok in H as [_ ->]. exact O. Qed.

(** add_input_effects_matrix *)
Lemma add_ie_total l BM nu IEs ie mid uc ur : wf_lp l BM nu IEs -> (exists c, l_ie l = Some c) -> mat_dims (l_dims l) nu ie -> c_nc uc = nu -> c_nr uc = List.length ur ->
  exists l', add_input_effects_matrix l ie mid (l_dims l) uc ur = Ok l' /\ (obj_ok l -> obj_ok l').
Proof.
  intros W ([ier iec] & E) [H1 H2] Hu Hr. unfold add_input_effects_matrix. rewrite E. subst nu. rewrite (proj2 (forallb_len _ _) H2). cbn [assert bind]. rewrite H1, Nat.eqb_refl. cbn [assert bind].
  unfold set_constraints_csc. cbn [cc_nr cc_cols fst snd]. rewrite map_length, seq_length. unfold l_nr, l_nc. cbn [l_rows l_names add_rows_le add_cols with_rows with_names]. rewrite !app_length, !map_length, names_of_length.
  rewrite (proj2 (Nat.ltb_ge _ _)) by lia. rewrite (proj2 (Nat.ltb_ge _ _)) by lia. cbn [orb]. eexists. split; [reflexivity|].
  intro O. unfold obj_ok, l_nc in *. cbn [l_obj l_names with_rows with_names add_rows_le add_cols]. rewrite app_length. unfold row_cols_lt in *. rewrite Forall_forall in *. intros e He. specialize (O e He). lia.
Qed.
Lemma add_ie_new_rows l BM nu IEs ie mid nv uc ur l' k b r : wf_lp l BM nu IEs -> 0 < l_dims l -> csr_ok uc -> c_nc uc = nu -> c_nr uc = List.length ur ->
  add_input_effects_matrix l ie mid nv uc ur = Ok l' -> nth_error ur k = Some b -> nth_error (c_rows uc) k = Some r ->
  exists co, nth_error (l_rows l') (l_nr l + k) = Some (mkRow UP co b) /\ forall x, (reval co x == reval r (fun i => x (l_nc l + i)%nat))%Q.
Proof.
  intros W Hd Hok Hnu Hnr H Hb Hr. unfold add_input_effects_matrix in H. destruct (l_ie l) as [[ier iec]|] eqn:Eie; [|discriminate].
  apply bind_ok in H as (u1 & _ & H). apply bind_ok in H as (u2 & _ & H). apply bind_ok in H as (u3 & _ & H).
  destruct (wf_ie_rows _ _ _ _ _ _ W Hd Eie) as [Hier _].
  apply set_constraints_csc_ok in H as [-> _]. cbn [cc_cols fst snd]. set (n := l_dims l) in *.
  set (col := fun c => map (fun r => (r + ier, nth c (mrow ie r) 0%Q)) (seq 0 n) ++ shift_row (l_nr (add_cols l (names_of "I" mid 0 (c_nc uc)))) (csc_col c 0 (c_rows uc))).
  assert (Hnr0 : l_nr (add_cols l (names_of "I" mid 0 (c_nc uc))) = l_nr l) by reflexivity.
  exists (cols_entries (l_nc l) (l_nr l + k) (map (shift_row 0) (map col (seq 0 (c_nc uc))))). split.
  - cbn [l_rows with_rows]. rewrite (set_cols_nth (l_nc l) _ _ _ (mkRow UP [] b)); [reflexivity|simpl; tauto|].
    cbn [l_rows add_rows_le with_rows add_cols with_names]. rewrite nth_error_app2 by (unfold l_nr; lia).
    unfold l_nr. replace (List.length (l_rows l) + k - List.length (l_rows l)) with k by lia. rewrite nth_error_map, Hb. reflexivity.
  - intro x. rewrite reval_cols_entries, map_shift_row_0, map_map.
    rewrite (ldot_pointwise _ (fun c => dcoef c r)).
    + apply ldot_dcoef. unfold csr_ok in Hok. rewrite Forall_nth_error in Hok. eauto.
    + intros c _. unfold col. rewrite ent_sum_app, ent_sum_shift by (rewrite Hnr0; lia). rewrite Hnr0.
      rewrite ent_sum_csc_col. simpl. rewrite Nat.sub_0_r. replace (l_nr l + k - l_nr l) with k by lia. rewrite Hr.
      rewrite (ent_sum_map_seq ier (fun r => nth c (mrow ie r) 0%Q) 0 n (l_nr l + k)). simpl.
      destruct (Nat.leb_spec ier (l_nr l + k)); simpl; [|ring]. destruct (Nat.ltb_spec (l_nr l + k) (ier + n)); simpl; [|ring]. lia.
Qed.
(** the polyhedron A u <= b is bounded *)
Definition poly_bnd (m : csr) (rhs : list Q) : Prop := forall c, c < c_nc m -> bnd (poly (c_rows m) rhs) (fun x => x c).
Lemma bnd_shift (P : vec -> Prop) (Q' : vec -> Prop) off c : (forall x, P x -> Q' (fun i => x (off + i))) -> bnd Q' (fun u => u c) -> bnd P (fun x => x (off + c)).
Proof. intros H (M & HM). exists M. intros x Hx. exact (HM _ (H x Hx)). Qed.
Lemma add_ie_cb l BM nu IEs ie mid nv uc ur l' (J : nat -> Prop) : wf_lp l BM nu IEs -> 0 < l_dims l -> csr_ok uc -> c_nc uc = nu -> c_nr uc = List.length ur -> poly_bnd uc ur ->
  (forall j, J j -> j < l_nr l) -> add_input_effects_matrix l ie mid nv uc ur = Ok l' -> cb l J -> cb l' J.
Proof.
  intros W Hd Hok Hnu Hnr HU HJ H B. destruct (add_input_effects_wf _ _ _ _ _ _ _ _ _ _ W Hok Hnu Hnr H) as (W' & S & Hn & _ & Hu & _ & _ & Hold).
  assert (Sub : forall x, core_exc l' J x -> core_exc l J x).
  { intros x Hx k r Hk NJ Nb Ni. destruct (Hold k r Hk Ni) as (co & Hk' & E).
    assert (K : row_sat (set_co r co) x) by (apply (Hx k); [exact Hk'|exact NJ|rewrite (same_layout_is_bm _ _ _ S); exact Nb|rewrite (same_layout_is_ie _ _ _ S); exact Ni]).
    destruct r as [t co0 b0]. unfold set_co in K. cbn [r_ty r_co r_rhs] in *. revert K. apply row_sat_congr. apply E. }
  assert (SubU : forall x, core_exc l' J x -> poly (c_rows uc) ur (fun i => x (l_nc l + i))).
  { intros x Hx k r b Hr Hb. destruct (add_ie_new_rows _ _ _ _ _ _ _ _ _ _ _ _ _ W Hd Hok Hnu Hnr H Hb Hr) as (co & Hk & E).
    assert (K : row_sat (mkRow UP co b) x).
    { apply (Hx (l_nr l + k)); [exact Hk|intro K; specialize (HJ _ K); lia| |].
      - rewrite (same_layout_is_bm _ _ _ S). unfold is_bm. pose proof (wf_bmr_le _ _ _ _ W Hd). lia.
      - rewrite (same_layout_is_ie _ _ _ S). unfold is_ie. destruct (l_ie l) as [[r0 c0]|] eqn:Ei; [|tauto]. destruct (wf_ie_rows _ _ _ _ _ _ W Hd Ei). lia. }
    unfold row_sat in K. cbn [r_ty r_co r_rhs] in K. rewrite E in K. exact K. }
  intros c Hc. destruct S as (S1 & S2 & S3 & S4). rewrite (same_layout_uoff l l') in Hc by (repeat split; assumption). rewrite S3, Hn in Hc.
  destruct (Nat.lt_ge_cases c (l_nc l)) as [L|L].
  - apply (bnd_sub (core_exc l J)); [exact Sub|]. apply B. lia.
  - replace c with (l_nc l + (c - l_nc l)) by lia. apply (bnd_shift _ (poly (c_rows uc) ur)); [exact SubU|]. apply HU. rewrite Hnu. pose proof (wf_cvo _ _ _ _ W). lia.
Qed.

(** add_init_constraint *)
Lemma ie_ents_total l BM nu IEs v : wf_lp l BM nu IEs -> 0 < l_dims l ->
  (match IEs with
   | [] => Ok []
   | ie0 :: _ =>
       match l_ie l with
       | None => Err EType
       | Some (_, iec) =>
           let num_inputs := List.length (mrow ie0 0) in
           do _ <- assert (forallb (fun ie => forallb (fun r => List.length r =? num_inputs) ie) IEs);
           do _ <- (if forallb (fun ie => List.length ie =? l_dims l) IEs then Ok tt else Err EValue);
           Ok (ie_entries num_inputs v IEs (iec + l_dims l))
       end
   end) = Ok (ie_entries nu v IEs (uoff l)).
Proof.
  intros W Hd. destruct IEs as [|ie0 IEs]; [reflexivity|]. pose proof (wf_ies _ _ _ _ W) as HI. destruct (l_ie l) as [[ier iec]|] eqn:E; [|discriminate].
  destruct HI as (_ & _ & _ & HF & _). pose proof (proj1 (Forall_forall _ _) HF) as HF'. cbv zeta. assert (E0 : List.length (mrow ie0 0) = nu) by (apply (mat_dims_mrow (l_dims l)); [apply HF'; left; reflexivity|exact Hd]). rewrite E0.
  replace (forallb (fun ie => forallb (fun r => List.length r =? nu) ie) (ie0 :: IEs)) with true.
  2:{ symmetry. apply forallb_forall. intros M HM. apply forallb_len. apply (HF' M HM). }
  cbn [assert bind]. replace (forallb (fun ie => List.length ie =? l_dims l) (ie0 :: IEs)) with true.
  2:{ symmetry. apply forallb_forall. intros M HM. apply Nat.eqb_eq. apply (HF' M HM). }
  cbn [bind]. unfold uoff. rewrite E. reflexivity.
Qed.
Lemma add_init_total l BM nu IEs v rhs ri : wf_lp l BM nu IEs -> 0 < l_dims l -> List.length v = l_dims l -> (forall j, ri = Some j -> j < l_nr l) ->
  exists l' i, add_init_constraint l v rhs (Some BM) IEs ri = Ok (l', i) /\ (obj_ok l -> obj_ok l').
Proof.
  intros W Hd Hv Hj. unfold add_init_constraint. cbn [bind]. destruct (wf_bmdims _ _ _ _ W) as [HB _]. rewrite HB, Hv, Nat.eqb_refl. cbn [bind].
  set (l1 := match ri with None => add_rows_le l [rhs] | Some j => with_rows l (set_rhs_at j rhs (l_rows l)) end).
  set (i := match ri with None => l_nr l | Some j => j end).
  assert (E1 : match ri with None => Ok (add_rows_le l [rhs], l_nr l) | Some i => do l' <- set_constraint_rhs l i rhs; Ok (l', i) end = Ok (l1, i)).
  { unfold l1, i. destruct ri as [j|]; [|reflexivity]. unfold set_constraint_rhs. rewrite (proj2 (Nat.ltb_lt _ _) (Hj j eq_refl)). reflexivity. }
  rewrite E1. cbn [bind].
  assert (A : l_ie l1 = l_ie l /\ l_bm l1 = l_bm l /\ l_nc l1 = l_nc l /\ l_obj l1 = l_obj l /\ i + 1 <= l_nr l1).
  { unfold l1, i. destruct ri as [j|]; [|unfold l_nr; cbn [l_rows add_rows_le with_rows map]; rewrite app_length; cbn; repeat split; lia]. repeat split. unfold l_nr. cbn [l_rows with_rows]. rewrite set_rhs_at_length. specialize (Hj j eq_refl). unfold l_nr in Hj. lia. }
  destruct A as (A1 & A2 & A3 & A4 & A5). 
  match goal with |- exists l' i, bind ?T ?f = Ok (l', i) /\ _ => assert (ET : T = Ok (ie_entries nu v IEs (uoff l))) by (rewrite A1; exact (ie_ents_total _ _ _ _ v W Hd)); rewrite ET end.
  rewrite A2. cbn [bind]. fold (init_co l BM nu IEs v).
  assert (R : row_cols_ltb (l_nc l) (init_co l BM nu IEs v) = true).
  { apply row_cols_ltb_ok. unfold row_cols_lt. apply Forall_forall. intros [c q] Hin. apply (init_co_cols _ _ _ _ _ _ _ W Hv Hin). }
  rewrite R. cbn [bind]. unfold set_constraints_csr. cbn [c_nr c_nc c_rows fst snd List.length]. change (c_nr (mkCsr (l_nc l) [init_co l BM nu IEs v])) with 1.
  rewrite A3, (proj2 (Nat.ltb_ge _ _) A5), (proj2 (Nat.ltb_ge (l_nc l) (0 + l_nc l))) by lia. cbn [orb bind]. eexists. eexists. split; [reflexivity|].
  intro O. unfold obj_ok, l_nc in *. cbn [l_obj l_names with_rows]. rewrite A4, A3. exact O.
Qed.
Lemma add_init_cb l BM nu IEs v rhs ri l' i (J : nat -> Prop) : wf_lp l BM nu IEs -> 0 < l_dims l -> (forall j, ri = Some j -> J j) ->
  add_init_constraint l v rhs (Some BM) IEs ri = Ok (l', i) -> cb l J -> cb l' (fun j => J j \/ j = i).
Proof.
  intros W Hd Hj H B. destruct (add_init_constraint_ok _ _ _ _ _ _ _ _ _ W Hd H) as (_ & S & Hn & Hr). intros c Hc. destruct S as (S1 & S2 & S3 & S4). assert (S : same_layout l l') by (repeat split; assumption).
  rewrite (same_layout_uoff _ _ S), S3, Hn in Hc. apply (bnd_sub (core_exc l J)); [|exact (B c Hc)].
  intros x Hx k r Hk NJ Nb Ni. apply (Hx k r).
  - destruct ri as [j|]; [destruct Hr as (_ & r0 & _ & _ & Hr); rewrite Hr; destruct (Nat.eqb_spec k j) as [->|]; [exfalso; apply NJ; apply Hj; reflexivity|exact Hk]|].
    destruct Hr as (_ & Hr). rewrite Hr, nth_error_app1; [exact Hk|]. apply nth_error_Some. congruence.
  - intros [K| ->]; [exact (NJ K)|]. destruct ri as [j|]; [destruct Hr as (-> & _); exact (NJ (Hj j eq_refl))|]. destruct Hr as (-> & _). assert (l_nr l < List.length (l_rows l)) by (apply nth_error_Some; congruence). unfold l_nr in *. lia.
  - rewrite (same_layout_is_bm _ _ _ S); exact Nb.
  - rewrite (same_layout_is_ie _ _ _ S); exact Ni.
Qed.

Section WithSolver.
Variable solve : solver.
Hypothesis Hsolve : solver_ok solve.
Hypothesis Hcomp : solver_complete solve.

Lemma check_intersection_total l dir width rhs tol : lp_cols_ok l -> l_cvo l + l_dims l <= l_nc l -> lb l -> width <= l_dims l -> row_cols_lt width dir ->
  exists o r, check_intersection solve l dir width rhs tol = Ok (with_obj l o, r) /\ obj_ok (with_obj l o).
Proof.
  intros C V B Hw Hr. unfold check_intersection. destruct (set_min_dir_csr_total l dir width None (conj V Hw) Hr) as (l' & E & O & o & ->). rewrite E. cbn [bind].
  destruct (minimize_total solve Hcomp (with_obj l o) (Some (map (fun e => l_cvo (with_obj l o) + fst e) dir))) as (r & Er); [exact C|exact O|exact B| |].
  { intros cs Ecs c Hc. injection Ecs as <-. apply in_map_iff in Hc as (e & <- & He). unfold row_cols_lt in Hr. rewrite Forall_forall in Hr. specialize (Hr e He). unfold l_nc in *. cbn [l_cvo l_names with_obj]. lia. }
  rewrite Er. cbn [bind]. destruct r; eauto.
Qed.

(** try_replace_init_constraint *)
Lemma try_replace_total l BM nu IEs j v rhs (J : nat -> Prop) : wf_lp l BM nu IEs -> 0 < l_dims l -> List.length v = l_dims l -> up_core l j -> J j -> cb l J ->
  exists l' b, try_replace_init_constraint solve l j v rhs (Some BM) IEs = Ok (l', j, b) /\ obj_ok l' /\ cb l' J.
Proof.
  intros W Hd Hv (Nb & Ni & old & Hj & Hup) Jj B. assert (Hlt : j < l_nr l) by (unfold l_nr; apply nth_error_Some; congruence).
  assert (Tot : exists l' b, try_replace_init_constraint solve l j v rhs (Some BM) IEs = Ok (l', j, b) /\ obj_ok l').
  { unfold try_replace_init_constraint. cbn [bind]. unfold get_row, get_rhs_at. rewrite Hj. cbn [bind].
    destruct (add_init_total l BM nu IEs v rhs (Some j) W Hd Hv) as (l1 & i1 & E1 & O1); [intros j' E; injection E as <-; exact Hlt|]. rewrite E1. cbn [bind].
    destruct (add_init_constraint_ok _ _ _ _ _ _ _ _ _ W Hd E1) as (_ & S & Hn & -> & _).
    pose proof (add_init_wf _ _ _ _ _ _ (Some j) _ _ W Hd (conj Nb Ni) E1) as W1.
    assert (B1 : cb l1 J). { apply (cb_mono _ _ (fun k => J k \/ k = j)); [auto|]. apply (add_init_cb _ _ _ _ _ _ (Some j) _ _ _ W Hd (fun j' E => eq_ind j J Jj j' ltac:(injection E as <-; reflexivity)) E1 B). }
    assert (Rc : row_cols_lt (l_nc l1) (scale_row (-1)%Q (r_co old))).
    { rewrite Hn. pose proof (wf_cols _ _ _ _ W) as HC. rewrite lp_cols_nth in HC. specialize (HC j old Hj). unfold row_cols_lt in *. rewrite Forall_forall in *. intros [c q] Hin. unfold scale_row in Hin. apply in_map_iff in Hin as ([c' q'] & E & Hin). injection E as <- _. exact (HC _ Hin). }
    destruct (set_min_dir_csr_total l1 (scale_row (-1)%Q (r_co old)) (l_nc l1) (Some 0)) as (l2 & E2 & O2 & o & ->); [lia|exact Rc|]. rewrite E2. cbn [bind].
    destruct (minimize_total solve Hcomp (with_obj l1 o) None) as (r & Er); [apply (wf_cols _ _ _ _ W1)|exact O2|apply lb_obj; exact (cb_lb _ _ _ _ _ W1 B1)|discriminate|]. rewrite Er. cbn [bind].
    destruct r as [vals|]; [|eauto]. destruct (Qle_bool _ _); [|eauto].
    unfold set_constraints_csr. match goal with |- context [if ?b then _ else _] => replace b with false end; [cbn [bind]; eexists; eexists; split; [reflexivity|exact O2]|].
    symmetry. apply orb_false_iff. cbn [fst snd c_nr c_nc c_rows List.length]. unfold l_nr, l_nc. cbn [l_rows l_names add_rows_le with_rows with_obj map]. rewrite app_length. cbn [List.length c_nc]. split; apply Nat.ltb_ge; unfold c_nr; cbn [c_rows List.length]; lia. }
  destruct Tot as (l' & b & E & O). exists l', b. split; [exact E|]. split; [exact O|].
  destruct (try_replace_wf_in solve Hsolve _ _ _ _ _ _ _ _ _ _ _ _ W Hd Hj Hup Nb Ni eq_refl E) as (_ & S & Hn & _ & _ & _ & Hold). intros c Hc.
  destruct S as (S1 & S2 & S3 & S4). assert (S : same_layout l l') by (repeat split; assumption). rewrite (same_layout_uoff _ _ S), S3, Hn in Hc. apply (bnd_sub (core_exc l J)); [|exact (B c Hc)].
  intros x Hx k r Hk NJ Nb' Ni'. apply (Hx k r); auto; [apply Hold; [intros ->; contradiction|exact Hk]|rewrite (same_layout_is_bm _ _ _ S); exact Nb'|rewrite (same_layout_is_ie _ _ _ S); exact Ni'].
Qed.
End WithSolver.
