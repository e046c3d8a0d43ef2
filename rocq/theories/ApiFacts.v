(** Every LP obtained through the API is well-formed. *)
From Verif Require Import Base BaseFacts LpModel LpSpec SetSpec LpFacts LpWf LpUtil SetFacts SetFacts2 MinkFacts OpsFacts OpsFacts2 OpsFacts3 OpsFacts4 AggFacts ApiSpec.
Open Scope nat_scope.

Lemma wf_lp_ok l BM nu IEs : wf_lp l BM nu IEs -> lp_ok l.
Proof. intro W. split; [apply (wf_cols _ _ _ _ W)|apply (wf_cvo _ _ _ _ W)]. Qed.

Definition up_core (l : lp) (j : nat) : Prop :=
  ~ is_bm l j /\ ~ is_ie l j /\ exists r, nth_error (l_rows l) j = Some r /\ r_ty r = UP.

Section WithSolver.
Variable solve : solver.
Hypothesis Hsolve : solver_ok solve.

Definition api_inv (l : lp) (o : option known) : Prop :=
  lp_ok l /\ no_lo l /\ 0 < l_dims l /\
  match o with
  | None => True
  | Some (BM, nu, IEs, js) => wf_lp l BM nu IEs /\ Forall (up_core l) js
  end.

Lemma no_lo_nth l : no_lo l <-> forall i r, nth_error (l_rows l) i = Some r -> r_ty r <> LO.
Proof. unfold no_lo. apply Forall_nth_error. Qed.

Lemma set_basis_types l bm l' : set_basis_matrix l bm = Ok l' -> get_types l' = get_types l.
Proof.
  intro H. apply set_basis_matrix_ok in H as [_ ->]. unfold get_types. cbn [l_rows with_rows]. unfold set_coefs.
  rewrite map_app. rewrite <- (firstn_skipn (fst (l_bm l)) (l_rows l)) at 3. rewrite map_app. f_equal.
  generalize (skipn (fst (l_bm l)) (l_rows l)) as rs. generalize (map (bm_row l bm) (seq 0 (l_dims l))) as new.
  induction new as [|n new IH]; intros [|r rs]; simpl; auto. f_equal. apply IH.
Qed.

Lemma overwrite_types nw rr : map r_ty (overwrite nw rr) = map r_ty rr.
Proof. revert rr; induction nw as [|x nw IHn]; intros [|y q]; simpl; auto. f_equal. apply IHn. Qed.
Lemma set_coefs_types off nw rr : map r_ty (set_coefs off nw rr) = map r_ty rr.
Proof. unfold set_coefs. rewrite map_app, overwrite_types, <- map_app, firstn_skipn. reflexivity. Qed.

Lemma no_lo_types l l' : get_types l' = get_types l -> no_lo l -> no_lo l'.
Proof.
  unfold get_types, no_lo. intros E H. rewrite Forall_forall in *. intros r Hr.
  assert (In (r_ty r) (map r_ty (l_rows l))) by (rewrite <- E; apply in_map; auto).
  apply in_map_iff in H0 as (r0 & <- & H0). auto.
Qed.

Lemma set_col_types c ents i rs : map r_ty (set_col c ents i rs) = map r_ty rs.
Proof. revert i; induction rs as [|r rs IH]; intro i; simpl; [auto|]. f_equal. apply IH. Qed.
Lemma set_cols_types c cols rs : map r_ty (set_cols c cols rs) = map r_ty rs.
Proof. revert c rs; induction cols as [|e cols IH]; intros c rs; simpl; [auto|]. rewrite IH, set_col_types. reflexivity. Qed.

Lemma from_constraints_no_lo m rhs mid hi tn dopt l :
  (match tn with None => True | Some (ts, ns) => List.length ns = c_nc m /\ Forall (fun t => t <> LO) ts end) ->
  from_constraints solve m rhs mid hi tn dopt = Ok l -> no_lo l.
Proof.
  intros Htn H. destruct (from_constraints_shape solve Hsolve _ _ _ _ _ _ _ H) as (-> & _). apply no_lo_nth. cbn [l_rows]. intros i r Hr Hlo.
  unfold fc_rows in Hr. apply nth_error_In in Hr. rewrite !in_app_iff in Hr. destruct Hr as [Hr|[Hr|Hr]].
  - apply In_nth_error in Hr as [k Hr]. apply mk_rows_nth in Hr as (t & co & b & A & _ & _ & ->). apply nth_error_repeat in A as [_ ->]. discriminate.
  - apply In_nth_error in Hr as [k Hr]. apply mk_rows_nth in Hr as (t & co & b & A & _ & _ & ->). cbn [r_ty] in Hlo. subst t.
    destruct tn as [[ts ns]|]; cbn [fc_types] in A.
    + destruct Htn as [_ Htn]. rewrite Forall_forall in Htn. apply (Htn LO); auto. eapply nth_error_In; eauto.
    + apply nth_error_repeat in A as [_ A]. discriminate.
  - destruct hi; [|contradiction]. apply In_nth_error in Hr as [k Hr]. apply mk_rows_nth in Hr as (t & co & b & A & _ & _ & ->).
    apply nth_error_repeat in A as [_ ->]. discriminate.
Qed.

Lemma up_core_keep l l' j : same_layout l l' -> (forall r, nth_error (l_rows l) j = Some r -> exists r', nth_error (l_rows l') j = Some r' /\ r_ty r' = r_ty r) ->
  up_core l j -> up_core l' j.
Proof.
  intros S H (A & B & r & C & D). unfold up_core. rewrite (same_layout_is_bm l l'), (same_layout_is_ie l l') by auto. split; auto. split; auto.
  destruct (H r C) as (r' & E & F). exists r'. split; auto. congruence.
Qed.

Lemma api_ok l o : api solve l o -> api_inv l o.
Proof.
  induction 1 as [m rhs mid hi tn dopt l nu Hok Htn Hrun Hd
                 |l o mid tix reset mink si l' nu Hap IH HR HM Hrun Hd
                 |l BM nu IEs js BM' l' Hap IH Hrun
                 |l BM nu IEs js ie mid nv uc ur l' Hap IH Hok Hnc Hnr Hrun
                 |l BM nu IEs js v rhs l' i Hap IH Hrun
                 |l BM nu IEs js j v rhs l' i b Hap IH Hj Hrun
                 |l o obj Hap IH
                 |l o m rhs l' Hap IH Hok Hd Hnr Hrun
                 |l [[[BM nu] IEs] js] a l' Hap IH Hrun
                 |l k Hap IH].
  - assert (Htn' : match tn with None => True | Some (_, ns) => List.length ns = c_nc m end).
    { destruct tn as [[ts ns]|]; tauto. }
    destruct (from_constraints_wf solve Hsolve _ _ _ _ _ _ _ nu Hok Htn' Hrun) as (W & _).
    split; [apply (wf_lp_ok _ _ _ _ W)|]. split; [eapply from_constraints_no_lo; eauto|]. split; auto.
  - destruct IH as (Hlp & Hlo & Hd0 & _).
    assert (Hnd : 0 < c_nr (match reset with None => ident_csr (l_dims l) | Some r => r end)).
    { unfold add_reset_variables in Hrun.
      destruct (match mink with None => (mkCsr 0 [], mkCsr 0 [], []) | Some t => t end) as [[mk mc] mrhs].
      inv_bind Hrun. inv_bind Hrun. inv_bind Hrun. inv_bind Hrun. apply set_reach_vars_ok in Hrun as (-> & _). exact Hd. }
    assert (W := reset_wf _ _ _ _ _ _ _ Hlp HR HM Hrun Hnd nu).
    destruct (reset_shape _ _ _ _ _ _ _ HM Hrun Hnd) as (_ & _ & _ & _ & _ & Hdims & _).
    rewrite Hdims. split; [apply (wf_lp_ok _ _ _ _ W)|]. split; [|split; [lia|split; [exact W|constructor]]].
    eapply reset_no_lo; eauto.
  - destruct IH as (Hlp & Hlo & Hd0 & W & HF). destruct (set_basis_wf _ _ _ _ _ _ W Hrun) as (W' & S & _ & _ & _ & Hk).
    split; [apply (wf_lp_ok _ _ _ _ W')|]. split; [eapply no_lo_types; [eapply set_basis_types; eauto|auto]|].
    split; [destruct S as (-> & _); auto|]. split; auto. eapply Forall_impl; [|exact HF]. intros j Hj.
    apply (up_core_keep l); auto. intros r Hr. exists r. split; auto. apply Hk; auto. apply Hj.
  - destruct IH as (Hlp & Hlo & Hd0 & W & HF). destruct (add_input_effects_wf _ _ _ _ _ _ _ _ _ _ W Hok Hnc Hnr Hrun) as (W' & S & _ & _ & _ & _ & _ & Hk).
    split; [apply (wf_lp_ok _ _ _ _ W')|]. split; [|split; [destruct S as (-> & _); auto|split; auto]].
    + unfold add_input_effects_matrix in Hrun. destruct (l_ie l) as [[ier iec]|]; [|discriminate].
      inv_bind Hrun. inv_bind Hrun. inv_bind Hrun. apply set_constraints_csc_ok in Hrun as [-> _].
      unfold no_lo. apply Forall_forall. intros r Hr Hlo'. cbn [l_rows with_rows] in Hr.
      assert (Hi : In (r_ty r) (map r_ty (set_cols (snd (0, l_nc l)) (map (shift_row (fst (0, l_nc l)))
          (cc_cols (mkCsc (l_nr (add_cols l (names_of "I" mid 0 (c_nc uc))) + List.length ur)
             (map (fun c => map (fun r => (r + ier, nth c (mrow ie r) 0%Q)) (seq 0 (l_dims l)) ++
                shift_row (l_nr (add_cols l (names_of "I" mid 0 (c_nc uc)))) (csc_col c 0 (c_rows uc))) (seq 0 (c_nc uc))))))
          (l_rows (add_rows_le (add_cols l (names_of "I" mid 0 (c_nc uc))) ur))))) by (apply in_map; exact Hr).
      rewrite set_cols_types in Hi. cbn [l_rows add_rows_le with_rows add_cols with_names] in Hi. rewrite map_app, in_app_iff in Hi. destruct Hi as [Hi|Hi].
      * apply in_map_iff in Hi as (r0 & E & Hi). unfold no_lo in Hlo. rewrite Forall_forall in Hlo. apply (Hlo r0 Hi). congruence.
      * apply in_map_iff in Hi as (r0 & E & Hi). apply in_map_iff in Hi as (q & <- & _). cbn [r_ty] in E. congruence.
    + eapply Forall_impl; [|exact HF]. intros j Hj. apply (up_core_keep l); auto. intros r Hr.
      destruct (Hk j r Hr ltac:(apply Hj)) as (co & E & _). eexists. split; [exact E|reflexivity].
  - destruct IH as (Hlp & Hlo & Hd0 & W & HF). assert (W' := add_init_wf _ _ _ _ _ _ None _ _ W Hd0 I Hrun).
    destruct (add_init_constraint_ok _ _ _ _ _ _ _ _ _ W Hd0 Hrun) as (Hv & S & _ & Hi & Hr).
    destruct (add_init_core_None _ _ _ _ _ _ _ _ W Hd0 Hrun) as (_ & Hnew & Hb & Hie & Hk & _).
    split; [apply (wf_lp_ok _ _ _ _ W')|]. split; [|split; [destruct S as (-> & _); auto|split; auto]].
    + unfold no_lo. rewrite Hr. apply Forall_app. split; auto. repeat constructor. discriminate.
    + constructor.
      * unfold up_core. rewrite (same_layout_is_bm l l'), (same_layout_is_ie l l') by auto. repeat split; auto. eexists. split; [exact Hnew|reflexivity].
      * eapply Forall_impl; [|exact HF]. intros j Hj. apply (up_core_keep l); auto. intros r Hr0. exists r. split; auto.
  - destruct IH as (Hlp & Hlo & Hd0 & W & HF). assert (HJ : up_core l j) by (rewrite Forall_forall in HF; auto).
    destruct HJ as (Hb & Hie & old & Hold & Hup).
    destruct (try_replace_wf_in solve Hsolve _ _ _ _ _ _ _ _ _ _ _ _ W Hd0 Hold Hup Hb Hie eq_refl Hrun) as (W' & S & _ & Hij & Hnew & _ & Hk).
    split; [apply (wf_lp_ok _ _ _ _ W')|]. split; [|split; [destruct S as (-> & _); auto|split; auto]].
    + (* no LO rows *)
      apply no_lo_nth. intros k r Hr Hlo'. rewrite no_lo_nth in Hlo.
      unfold try_replace_init_constraint in Hrun.
      apply bind_ok in Hrun as (bm0 & Q0 & Hrun). injection Q0 as <-.
      apply bind_ok in Hrun as (oco & Q1 & Hrun). apply bind_ok in Hrun as (orhs & Q2 & Hrun).
      apply bind_ok in Hrun as ([l1 i1] & Q3 & Hrun).
      destruct (add_init_constraint_ok _ _ _ _ _ _ _ _ _ W Hd0 Q3) as (_ & _ & _ & _ & r0 & E0 & _ & Hn).
      assert (H1lo : forall k r, nth_error (l_rows l1) k = Some r -> r_ty r <> LO).
      { intros k0 r1 Hk0. rewrite Hn in Hk0. destruct (k0 =? j); [injection Hk0 as <-; cbn [r_ty]; congruence|eauto]. }
      apply bind_ok in Hrun as (l2 & Q4 & Hrun). assert (E2 : l_rows l2 = l_rows l1).
      { unfold set_min_dir_csr in Q4. inv_bind Q4. inv_bind Q4. injection Q4 as <-. reflexivity. }
      apply bind_ok in Hrun as (ov & Q5 & Hrun). destruct ov as [vals|].
      * destruct (Qle_bool _ _).
        -- apply bind_ok in Hrun as (l3 & Q6 & Hrun). injection Hrun as <- _ _. apply set_constraints_csr_ok in Q6 as [-> _]. cbn [l_rows with_rows fst snd] in Hr.
           apply nth_error_In in Hr.
           match type of Hr with In r (set_coefs ?o ?n ?rs) => assert (Hr2 : In (r_ty r) (map r_ty rs)) end.
           { apply (in_map r_ty) in Hr. rewrite set_coefs_types in Hr. exact Hr. }
           cbn [l_rows add_rows_le with_rows] in Hr2. rewrite map_app, in_app_iff in Hr2. destruct Hr2 as [Hr2|Hr2].
           ++ rewrite E2 in Hr2. apply in_map_iff in Hr2 as (r1 & E3 & Hr2). apply In_nth_error in Hr2 as [k1 Hr2]. apply (H1lo _ _ Hr2). congruence.
           ++ simpl in Hr2. destruct Hr2 as [Hr2|[]]. congruence.
        -- injection Hrun as <- _ _. rewrite E2 in Hr. exact (H1lo _ _ Hr Hlo').
      * injection Hrun as <- _ _. rewrite E2 in Hr. exact (H1lo _ _ Hr Hlo').
    + eapply Forall_impl; [|exact HF]. intros j0 Hj0. apply (up_core_keep l); auto. intros r Hr.
      destruct (Nat.eq_dec j0 j) as [->|Hne].
      * eexists. split; [exact Hnew|]. cbn [r_ty]. congruence.
      * exists r. split; auto.
  - destruct IH as (Hlp & Hlo & Hd0 & Hm). split; [exact Hlp|]. split; [exact Hlo|]. split; [exact Hd0|].
    destruct o as [[[[BM nu] IEs] js]|]; auto. destruct Hm as [W HF]. split; [apply wf_with_obj; auto|exact HF].
  - destruct IH as (Hlp & Hlo & Hd0 & Hm). split; [eapply add_curtime_lp_ok; eauto|]. split; [eapply add_curtime_no_lo; eauto|].
    split; auto. apply add_curtime_ok in Hrun as [-> _]; auto.
  - destruct IH as (Hlp & Hlo & Hd0 & W & HF).
    assert (Hlo' : no_lo l' /\ l_dims l' = l_dims l).
    { unfold bloat in Hrun. inv_bind Hrun. apply set_constraints_csc_ok in Hrun as [-> _]. split; [|reflexivity].
      unfold no_lo. apply Forall_forall. intros r Hr Hl. cbn [l_rows with_rows fst snd cc_cols] in Hr. apply (in_map r_ty) in Hr. rewrite set_cols_types in Hr.
      cbn [l_rows add_rows_le with_rows add_cols with_names] in Hr. rewrite map_app, in_app_iff in Hr. destruct Hr as [Hi|Hi].
      * apply in_map_iff in Hi as (r0 & E & Hi). unfold no_lo in Hlo. rewrite Forall_forall in Hlo. apply (Hlo r0 Hi). congruence.
      * apply in_map_iff in Hi as (r0 & E & Hi). apply in_map_iff in Hi as (q & <- & _). cbn [r_ty] in E. congruence. }
    destruct Hlo' as [Hlo' D]. split; [|split; [auto|split; [lia|exact I]]].
    destruct (bloat_ok _ _ _ _ _ _ W Hd0 Hrun) as (_ & S & Hold & Hnew & Hnr).
    assert (Hnc : l_nc l' = l_nc l + l_dims l).
    { unfold bloat in Hrun. inv_bind Hrun. apply set_constraints_csc_ok in Hrun as [-> _]. unfold l_nc.
      cbn [l_names with_rows add_cols with_names add_rows_le]. rewrite app_length, map_length, seq_length. reflexivity. }
    split.
    + apply lp_cols_nth. intros k r Hr. rewrite Hnc. apply Forall_forall. intros [c v] Hin. cbn [fst].
      assert (Hce : forall k, In (c, v) (cols_entries (l_nc l) k (map (fun k => [(fst (l_bm l) + k, 1%Q); (l_nr l + 2 * k, 1%Q); (l_nr l + 2 * k + 1, (-1)%Q)]) (seq 0 (l_dims l)))) -> c < l_nc l + l_dims l).
      { intros k0 Hk0. apply cols_entries_cols in Hk0. rewrite map_length, seq_length in Hk0. lia. }
      destruct (Nat.lt_ge_cases k (l_nr l)) as [Hk|Hk].
      * destruct (nth_error (l_rows l) k) as [r0|] eqn:E; [|apply nth_error_None in E; unfold l_nr in Hk; lia].
        rewrite (Hold _ _ E) in Hr. injection Hr as <-. cbn [set_co r_co] in Hin. apply in_app_iff in Hin as [Hin|Hin]; [|eauto].
        destruct Hlp as [Hc _]. rewrite lp_cols_nth in Hc. apply (row_cols_lt_In _ _ _ _ (Hc _ _ E)) in Hin. lia.
      * assert (Hlt : k < l_nr l') by (apply nth_error_Some; unfold not; congruence). rewrite Hnr in Hlt.
        assert (Hn := Hnew (k - l_nr l) ltac:(lia)). replace (l_nr l + (k - l_nr l)) with k in Hn by lia. rewrite Hr in Hn. injection Hn as ->.
        cbn [r_co] in Hin. eauto.
    + destruct S as (-> & _ & -> & _). rewrite Hnc. destruct Hlp as [_ Hc]. lia.
  - destruct IH as (Hlp & Hlo & Hd0 & _). repeat split; auto; apply Hlp.
Qed.
End WithSolver.
