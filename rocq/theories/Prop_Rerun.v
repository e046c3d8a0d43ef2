(** C62: analysing the same automaton object again.  Core.run leaves its changes in the automaton: [setup_ha cf a0 = Ok a1] is both the automaton the
    first analysis uses and the one a second analysis starts from. *)
From Verif Require Import Base BaseFacts LpModel LpSpec SetSpec LpUtil ApiSpec ApiFacts Automaton StateSet HybridSpec StateSpec AutoFacts CoreModel CoreSpec CoreTT SetupHa SetupHaSub Prop_Core Prop_Core2 Prop_TT Prop_Detect.
Open Scope nat_scope.

(** what set_guard checks for guards with rows, and set_guard_true provides for guards without *)
Definition guard_widths (a : ha) : Prop := forall t g rhs, t < List.length (ha_trans a) -> t_guard (get_trans a t) = Some (g, rhs) -> c_nc g = m_dims (get_mode a (t_from (get_trans a t))).

Lemma in_guard_true rows2 rhs2 w c : forall rows rhs, in_guard rows rhs w c = Ok true -> in_guard (rows ++ rows2) (rhs ++ rhs2) w c = Ok true.
Proof.
  induction rows as [|r rows IH]; intros [|b rhs] H; cbn [in_guard app] in *; try discriminate. destruct (almost_equals _ _ _) as [[|]|]; cbn [bind] in *; auto.
Qed.
Lemma in_guard_false rows2 rhs2 w c : forall rows rhs, List.length rows = List.length rhs -> in_guard rows rhs w c = Ok false -> in_guard (rows ++ rows2) (rhs ++ rhs2) w c = in_guard rows2 rhs2 w c.
Proof.
  induction rows as [|r rows IH]; intros [|b rhs] HL H; cbn [in_guard app List.length] in *; try discriminate; auto. destruct (almost_equals _ _ _) as [[|]|]; cbn [bind] in *; try discriminate. apply IH; [lia|exact H].
Qed.
Lemma data_close_refl tol : (0 <= tol)%Q -> forall l, data_close l l tol = Ok true.
Proof.
  intro Ht. induction l as [|x l IH]; cbn [data_close]; auto. replace (Qle_bool (Qabs (x - x)) tol) with true; [exact IH|]. symmetry. apply Qle_bool_iff. setoid_replace (x - x)%Q with 0%Q by ring. exact Ht.
Qed.
Lemma almost_equals_refl c : almost_equals c c tol13 = Ok true.
Proof.
  unfold almost_equals. replace (Qle_bool (Qabs (lc_rhs c - lc_rhs c)) tol13) with true by (symmetry; apply Qle_bool_iff; setoid_replace (lc_rhs c - lc_rhs c)%Q with 0%Q by ring; discriminate). cbn [negb].
  rewrite Nat.eqb_refl. cbn [negb]. unfold np_eq_all. rewrite Nat.eqb_refl. cbn [bind]. replace (forallb _ _) with true.
  - cbn [negb]. apply data_close_refl. discriminate.
  - symmetry. induction (map fst (lc_row c)) as [|x l IH]; cbn; auto. rewrite Nat.eqb_refl. exact IH.
Qed.
Lemma in_guard_self w : forall add c e, (forall d, In d add -> lc_w d = w) -> In c add -> in_guard (map lc_row add) (map lc_rhs add) w c = Ok e -> e = true.
Proof.
  induction add as [|d add IH]; intros c e Hw Hc H; [destruct Hc|]. cbn [map in_guard] in H. destruct Hc as [->|Hc].
  - replace (mkLc (lc_row c) w (lc_rhs c)) with c in H by (rewrite <- (Hw c (or_introl eq_refl)); destruct c; reflexivity). rewrite almost_equals_refl in H. cbn [bind] in H. injection H as <-. reflexivity.
  - destruct (almost_equals _ _ _) as [[|]|]; cbn [bind] in H; [injection H as <-; reflexivity| |discriminate]. apply (IH c e); auto. intros x Hx. apply Hw. right. exact Hx.
Qed.
Lemma missing_in rows rhs w : forall inv add, missing_invs rows rhs w inv = Ok add -> forall c, In c inv -> exists e, in_guard rows rhs w c = Ok e /\ (e = false -> In c add).
Proof.
  induction inv as [|d inv IH]; intros add H c Hc; [destruct Hc|]. cbn [missing_invs] in H. apply bind_ok in H as (e & He & H). apply bind_ok in H as (more & Hm & H). injection H as <-. destruct Hc as [->|Hc].
  - exists e. split; [exact He|]. intros ->. left. reflexivity.
  - destruct (IH more Hm c Hc) as (e' & H1 & H2). exists e'. split; [exact H1|]. intro K. destruct e; [auto|right; auto].
Qed.
Lemma missing_sub rows rhs w : forall inv add c, missing_invs rows rhs w inv = Ok add -> In c add -> In c inv.
Proof.
  induction inv as [|d inv IH]; intros add c H Hc; cbn [missing_invs] in H; [injection H as <-; destruct Hc|]. apply bind_ok in H as (e & He & H). apply bind_ok in H as (more & Hm & H). injection H as <-.
  destruct e; [right; eapply IH; eauto|]. destruct Hc as [->|Hc]; [left; reflexivity|right; eapply IH; eauto].
Qed.
Lemma missing_none rows rhs w : forall inv add, (forall c e, In c inv -> in_guard rows rhs w c = Ok e -> e = true) -> missing_invs rows rhs w inv = Ok add -> add = [].
Proof.
  induction inv as [|d inv IH]; intros add K H; cbn [missing_invs] in H; [injection H as <-; reflexivity|]. apply bind_ok in H as (e & He & H). apply bind_ok in H as (more & Hm & H). injection H as <-.
  rewrite (K d e (or_introl eq_refl) He). apply (IH more); auto. intros c e' Hc. apply K. right. exact Hc.
Qed.

Lemma strengthen_again a a' t t1 t2 : ha_modes a' = ha_modes a -> wf_ha a -> wf_trans a t -> (forall g rhs, t_guard t = Some (g, rhs) -> c_nc g = m_dims (get_mode a (t_from t))) ->
  strengthen_trans a t = Ok t1 -> strengthen_trans a' t1 = Ok t2 -> t2 = t1.
Proof.
  intros Em W WT Hg H1 H2. assert (EM : forall m, get_mode a' m = get_mode a m) by (intro m; apply get_mode_eq; exact Em). unfold strengthen_trans in H1.
  destruct ((t_from t =? t_to t) || t_tt t || match t_reset t with None => false | Some _ => true end) eqn:E.
  - injection H1 as <-. unfold strengthen_trans in H2. rewrite E in H2. injection H2 as <-. reflexivity.
  - destruct (m_inv (get_mode a (t_to t))) as [|c0 inv0] eqn:Ei; [injection H1 as <-; unfold strengthen_trans in H2; rewrite E, EM, Ei in H2; injection H2 as <-; reflexivity|].
    destruct (t_guard t) as [[g rhs]|] eqn:Eg; [|discriminate]. apply bind_ok in H1 as (add & Ha & H1).
    assert (HL : List.length (c_rows g) = List.length rhs) by (destruct (wft_guard _ _ WT) as (g' & rhs' & K1 & _ & K3 & _); rewrite Eg in K1; injection K1 as <- <-; exact K3).
    destruct add as [|d add].
    + injection H1 as <-. unfold strengthen_trans in H2. rewrite E, EM, Ei, Eg, Ha in H2. cbn [bind] in H2. injection H2 as <-. reflexivity.
    + set (ad := d :: add) in *. apply bind_ok in H1 as (_ & _ & H1). injection H1 as <-. unfold strengthen_trans in H2. cbn [t_from t_to t_tt t_reset t_with_guard t_guard] in H2. rewrite E, EM, Ei in H2. cbn [c_rows c_nc] in H2. apply bind_ok in H2 as (add2 & Ha2 & H2).
      assert (Hw : forall c, In c (c0 :: inv0) -> lc_w c = c_nc g).
      { intros c Hc. rewrite <- Ei in Hc. pose proof (proj1 W _ (wft_to _ _ WT)) as WM. destruct (m_a (get_mode a (t_to t))) as [x|] eqn:Ex; [|rewrite WM in Hc; destruct Hc].
        destruct (wfm_inv _ _ WM c Hc) as [-> _]. rewrite (Hg g rhs eq_refl). assert (Hd := wft_dims _ _ WT). unfold is_error in Hd. rewrite Ex in Hd. specialize (Hd eq_refl).
        unfold post_dims in Hd. apply orb_false_iff in E as [_ E]. destruct (t_reset t); [discriminate|]. transitivity (m_dims (get_mode a (t_to t))); [unfold m_dims; rewrite Ex; reflexivity|symmetry; exact Hd]. }
      assert (Hn : add2 = []).
      { eapply missing_none; [|exact Ha2]. intros c e Hc He. destruct (missing_in _ _ _ _ _ Ha c Hc) as (e1 & K1 & K2). destruct e1.
        - rewrite (in_guard_true _ _ _ _ _ _ K1) in He. injection He as <-. reflexivity.
        - rewrite (in_guard_false _ _ _ _ _ _ HL K1) in He. eapply in_guard_self; [|apply K2; reflexivity|exact He]. intros x Hx. apply Hw. exact (missing_sub _ _ _ _ _ x Ha Hx). }
      subst add2. injection H2 as <-. reflexivity.
Qed.
Lemma strengthen_twice a a1 a2 : wf_ha a -> guard_widths a -> do_guard_strengthening a = Ok a1 -> do_guard_strengthening a1 = Ok a2 -> a2 = a1.
Proof.
  intros W G H1 H2. pose proof (gs_modes a a1 H1) as Em. pose proof (gs_modes a1 a2 H2) as Em2. pose proof (gs_trans_F2 a a1 H1) as F1. pose proof (gs_trans_F2 a1 a2 H2) as F2.
  destruct a1 as [m1 ts1], a2 as [m2 ts2]. cbn [ha_modes ha_trans] in *. subst m2. f_equal. 
  assert (L1 := Forall2_len _ _ _ F1). assert (L2 := Forall2_len _ _ _ F2). apply nth_ext with (d := dtrans) (d' := dtrans); [exact L2|]. intros t Ht.
  assert (Ht1 : t < List.length ts1) by lia. assert (Ht0 : t < List.length (ha_trans a)) by lia.
  assert (K1 := Forall2_nth _ _ _ dtrans dtrans t F1 Ht0). assert (K2 := Forall2_nth _ _ _ dtrans dtrans t F2 Ht1). cbn beta in K1, K2.
  apply (strengthen_again a (mkHa m1 ts1) (nth t (ha_trans a) dtrans) (nth t ts1 dtrans) (nth t ts2 dtrans) Em W (proj2 W t Ht0) (fun g rhs Hg => G t g rhs Ht0 Hg) K1 K2).
Qed.

(** Without the time-triggered optimisation, an analysis with the same settings of the automaton an earlier analysis left behind either raises an
    exception while preparing the automaton, or computes exactly what an analysis of the original automaton computes. *)
Theorem C62_second_analysis_same solve arnoldi cf a0 a1 inits fuel c : wf_ha a0 -> guard_widths a0 -> cf_tt cf = false -> setup_ha cf a0 = Ok a1 ->
  run solve arnoldi cf a1 inits fuel = Some (Ok c) -> run solve arnoldi cf a0 inits fuel = Some (Ok c).
Proof.
  intros W G Ht H1 Hr. unfold run in *. destruct (negb (List.length inits =? 0)); cbn [assert bind] in *; [|discriminate]. rewrite H1.
  destruct (setup_ha cf a1) as [a2|] eqn:H2; [|discriminate]. replace a2 with a1 in Hr; [exact Hr|]. unfold setup_ha in H1, H2. rewrite Ht in H1, H2. cbn [bind] in H1, H2.
  destruct (cf_gs cf); cbn [bind] in *.
  - apply bind_ok in H1 as (b1 & K1 & H1). apply bind_ok in H1 as (? & _ & H1). injection H1 as <-. apply bind_ok in H2 as (b2 & K2 & H2). apply bind_ok in H2 as (? & _ & H2). injection H2 as <-. symmetry. eapply strengthen_twice; eauto.
  - apply bind_ok in H1 as (? & _ & H1). injection H1 as <-. apply bind_ok in H2 as (? & _ & H2). injection H2 as <-. reflexivity.
Qed.

(** whatever the settings of the earlier analysis (time step >= 0), it removes no execution into an error mode *)
Lemma setup_sup cf a0 a1 ru init : wf_ha a0 -> (0 <= cf_step cf)%Q -> setup_ha cf a0 = Ok a1 -> error_reachable 0 ru a0 init -> error_reachable 0 ru a1 init.
Proof.
  intros W Hh H HE. unfold setup_ha in H. apply bind_ok in H as (b1 & H1 & H). apply bind_ok in H as (b2 & H2 & H). apply bind_ok in H as (? & _ & H). injection H as ->.
  assert (W1 : wf_ha b1) by (destruct (cf_tt cf); [eapply detect_wf; eauto|injection H1 as <-; exact W]).
  assert (E1 : error_reachable 0 ru b1 init) by (destruct (cf_tt cf); [eapply detect_sup; eauto|injection H1 as <-; exact HE]).
  destruct (cf_gs cf); [apply (gs_error_sup b1 a1 W1 H2); exact E1|injection H2 as <-; exact E1].
Qed.

(** A safe verdict of the second analysis (any settings cf2, initial sets of its own) is about the automaton as the user built it, *)
Theorem C62_second_analysis_safe solve arnoldi cf1 cf2 a0 a1 a2 inits fuel c : solver_ok solve ->
  wf_ha a0 -> inputs_plain a0 -> (0 <= cf_step cf1)%Q -> setup_ha cf1 a0 = Ok a1 ->
  zero_plain cf2 a0 -> path_ok cf2 -> setup_ha cf2 a1 = Ok a2 -> no_tt cf2 a2 -> Forall (init_ok solve a0) inits ->
  run solve arnoldi cf2 a1 inits fuel = Some (Ok c) -> c_aggerr c = false -> c_concerr c = false ->
  ~ error_reachable 0 (rules_of cf2) a0 (init_of_list inits).
Proof.
  intros Hsv W Hinp Hh H1 HZ Hp H2 Htt Hi Hr Fa Fc HE. destruct (setup_ha_ok cf1 a0 a1 W H1) as (Em & W1 & _). apply (setup_sup cf1 a0 a1 _ _ W Hh H1) in HE. revert HE.
  apply (C19_safe_verdict_sound solve Hsv arnoldi cf2 a1 a2 inits fuel c); auto.
  - intros m Hm. rewrite !(get_mode_eq a0 a1 m Em). rewrite Em in Hm. apply Hinp. exact Hm.
  - intros Hs m x Hm. rewrite !(get_mode_eq a0 a1 m Em). rewrite Em in Hm. apply (HZ Hs m x Hm).
  - eapply Forall_impl; [|exact Hi]. intros s. apply init_ok_modes. exact Em.
Qed.
(** and so is an error it reports as concrete, if the earlier analysis marked no time-triggered transition. *)
Theorem C62_second_analysis_concrete_partial solve arnoldi cf1 cf2 a0 a1 a2 inits fuel c : solver_ok solve ->
  wf_ha a0 -> inputs_plain a0 -> setup_ha cf1 a0 = Ok a1 -> no_tt cf1 a1 ->
  no_deagg cf2 -> setup_ha cf2 a1 = Ok a2 -> no_tt cf2 a2 -> Forall (init_ok solve a0) inits ->
  run solve arnoldi cf2 a1 inits fuel = Some (Ok c) -> c_concerr c = true ->
  error_reachable tol13 (rules_of cf2) a0 (init_of_list inits).
Proof.
  intros Hsv W Hinp H1 Ht1 Hnd H2 Htt Hi Hr Fc. destruct (setup_ha_ok cf1 a0 a1 W H1) as (Em & W1 & _). apply (setup_ha_sub cf1 a0 a1 tol13 W H1 Ht1).
  apply (C20_concrete_error_real solve Hsv arnoldi cf2 a1 a2 inits fuel c); auto.
  - intros m Hm. rewrite !(get_mode_eq a0 a1 m Em). rewrite Em in Hm. apply Hinp. exact Hm.
  - eapply Forall_impl; [|exact Hi]. intros s. apply init_ok_modes. exact Em.
Qed.

From Verif Require Import Solver Ex_Core Ex_TT Ex_TT2 Ex_Rerun.
Open Scope nat_scope.
Lemma exU_tt : no_tt (exU_cf true true) exU_a.
Proof. intros _ t Ht. vm_compute in Ht. destruct t as [|[|t]]; [vm_compute; reflexivity|vm_compute; reflexivity|lia]. Qed.
Lemma exU_plain : inputs_plain exU.
Proof. intros [|[|[|m]]] Hm; cbn in *; try congruence; lia. Qed.
(** With the default optimize_tt_transitions = True (and process_urgent_guards = True) the invariants that guard strengthening put into a guard make it
    time-triggered in the second analysis, which then says "safe"; the first reports, rightly, a concrete error.  Same settings, fresh initial sets. *)
Theorem C62_strengthened_guard_refuted : exists cf a0 a1 inits c c', wf_ha a0 /\ guard_widths a0 /\ inputs_plain a0 /\ setup_ha cf a0 = Ok a1 /\ no_tt cf a1 /\ Forall (init_ok fm_solver a0) inits /\ cf_tt cf = true /\ cf_gs cf = true /\
  run fm_solver arn0 cf a0 inits 100 = Some (Ok c) /\ c_concerr c = true /\ error_reachable tol13 (rules_of cf) a0 (init_of_list inits) /\
  run fm_solver arn0 cf a1 inits 100 = Some (Ok c') /\ c_concerr c' = false /\ c_aggerr c' = false.
Proof.
  exists (exU_cf true true), exU, exU_a, [exU_s], (getc (run fm_solver arn0 (exU_cf true true) exU [exU_s] 100)), (getc (run fm_solver arn0 (exU_cf true true) exU_a [exU_s] 100)).
  assert (Hr : run fm_solver arn0 (exU_cf true true) exU [exU_s] 100 = Some (Ok (getc (run fm_solver arn0 (exU_cf true true) exU [exU_s] 100)))) by (apply getc_ok; vm_compute; reflexivity).
  assert (Hc : c_concerr (getc (run fm_solver arn0 (exU_cf true true) exU [exU_s] 100)) = true) by (vm_compute; reflexivity).
  assert (Hs : setup_ha (exU_cf true true) exU = Ok exU_a) by (vm_compute; reflexivity).
  split; [exact exU_wf|]. split; [intros [|[|t]] g rhs Ht Hg; [injection Hg as <- <-; reflexivity|injection Hg as <- <-; reflexivity|cbn in Ht; lia]|]. split; [exact exU_plain|]. split; [exact Hs|]. split; [exact exU_tt|]. split; [exact exU_init|]. split; [reflexivity|]. split; [reflexivity|].
  split; [exact Hr|]. split; [exact Hc|]. split.
  - refine (C20_concrete_error_real fm_solver fm_solver_ok arn0 (exU_cf true true) exU exU_a [exU_s] 100 _ exU_wf exU_plain _ Hs exU_tt exU_init Hr Hc). intros g Hg. discriminate Hg.
  - split; [apply getc_ok; vm_compute; reflexivity|]. split; vm_compute; reflexivity.
Qed.
(** A second analysis, time-triggered optimisation now off, still uses the guards the first one relaxed: it reports a concrete error that the automaton does not have. *)
Theorem C62_relaxed_guard_kept_refuted : exists cf1 cf2 a0 a1 inits c, wf_ha a0 /\ inputs_plain a0 /\ setup_ha cf1 a0 = Ok a1 /\ no_deagg cf2 /\ cf_tt cf2 = false /\ Forall (init_ok fm_solver a0) inits /\
  run fm_solver arn0 cf2 a1 inits 100 = Some (Ok c) /\ c_concerr c = true /\ ~ error_reachable tol13 (rules_of cf2) a0 (init_of_list inits).
Proof.
  pose (cf2 := mkCfg 2 1 false true false true false true true None). pose (a1 := getr (mkHa [] []) (setup_ha exR_cf (exS 0 2%Q))).
  exists exR_cf, cf2, (exS 0 2%Q), a1, [exR_s], (getc (run fm_solver arn0 cf2 a1 [exR_s] 100)). split; [apply exS_wf; lia|]. split; [intros [|[|[|m]]] Hm; cbn in *; try congruence; lia|]. split; [vm_compute; reflexivity|].
  split; [intros g Hg; discriminate Hg|]. split; [reflexivity|]. split; [apply exR_init|]. split; [apply getc_ok; vm_compute; reflexivity|]. split; [vm_compute; reflexivity|]. apply exR_safe.
Qed.
(** Guard strengthening compares constraints with (indices == indices).all(), which raises for different numbers of entries: an automaton that could be analysed once cannot be analysed again. *)
Theorem C62_raises_refuted : exists cf a0 a1 e, wf_ha a0 /\ guard_widths a0 /\ cf_tt cf = false /\ setup_ha cf a0 = Ok a1 /\ setup_ha cf a1 = Err e.
Proof.
  exists (exU_cf false false), exV, exV_a, EType. split; [exact exV_wf|]. split; [intros [|t] g rhs Ht Hg; [injection Hg as <- <-; reflexivity|cbn in Ht; lia]|]. split; [reflexivity|]. split; vm_compute; reflexivity.
Qed.
(** The run also changes the StateSet objects it is given (the nodes of the computation hold these very objects).  Passing the same list to a second
    analysis of the same automaton: the first reports a concrete error, the second "safe". *)
Theorem C62_same_initial_sets_refuted : exists cf a0 a1 s c c', wf_ha a0 /\ Forall (init_ok fm_solver a0) [s] /\ setup_ha cf a0 = Ok a1 /\
  run fm_solver arn0 cf a0 [s] 100 = Some (Ok c) /\ c_concerr c = true /\
  run fm_solver arn0 cf a1 [getS c 0] 100 = Some (Ok c') /\ c_concerr c' = false /\ c_aggerr c' = false.
Proof.
  exists (exU_cf true false), exX, exX, exX_s, exX_c, (getc (run fm_solver arn0 (exU_cf true false) exX [getS exX_c 0] 100)). split; [exact exX_wf|]. split; [exact exX_init|]. split; [vm_compute; reflexivity|].
  split; [unfold exX_c; assert (H : match run fm_solver arn0 (exU_cf true false) exX [exX_s] 100 with Some (Ok c) => true | _ => false end = true) by (vm_compute; reflexivity); destruct (run fm_solver arn0 (exU_cf true false) exX [exX_s] 100) as [[c|]|]; [reflexivity|discriminate H|discriminate H]|].
  split; [vm_compute; reflexivity|]. split; [apply getc_ok; vm_compute; reflexivity|]. split; vm_compute; reflexivity.
Qed.

(** Non-vacuity: guard strengthening adds the invariant of "b" to t0; the second analysis runs and finds the same error *)
Example C62_witness : exists a1 c, wf_ha exU /\ guard_widths exU /\ inputs_plain exU /\ setup_ha (exU_cf false true) exU = Ok a1 /\ ha_trans a1 <> ha_trans exU /\ no_tt (exU_cf false true) a1 /\ Forall (init_ok fm_solver exU) [exU_s] /\
  run fm_solver arn0 (exU_cf false true) a1 [exU_s] 100 = Some (Ok c) /\ c_concerr c = true.
Proof.
  pose (a1 := getr (mkHa [] []) (setup_ha (exU_cf false true) exU)). exists a1, (getc (run fm_solver arn0 (exU_cf false true) a1 [exU_s] 100)).
  split; [exact exU_wf|]. split; [intros [|[|t]] g rhs Ht Hg; [injection Hg as <- <-; reflexivity|injection Hg as <- <-; reflexivity|cbn in Ht; lia]|]. split; [exact exU_plain|]. split; [vm_compute; reflexivity|].
  split; [assert (K : match ha_trans a1 with t :: _ => match t_guard t with Some (g, _) => c_nr g | None => 0 end | [] => 0 end = 1) by (vm_compute; reflexivity); intro E; rewrite E in K; vm_compute in K; discriminate K|].
  split; [intro K; discriminate K|]. split; [exact exU_init|]. split; [apply getc_ok; vm_compute; reflexivity|vm_compute; reflexivity].
Qed.
(** and a safe verdict in the second analysis: the initial set x = 2, v = 1 *)
Example C62_witness_safe : exists a1 a2 c, setup_ha (exS_cf true) (exS 1 5%Q) = Ok a1 /\ (exists t, t_tt (get_trans a1 t) = true) /\ zero_plain (exS_cf false) (exS 1 5%Q) /\ path_ok (exS_cf false) /\ setup_ha (exS_cf false) a1 = Ok a2 /\ no_tt (exS_cf false) a2 /\
  Forall (init_ok fm_solver (exS 1 5%Q)) [exS_s] /\ run fm_solver arn0 (exS_cf false) a1 [exS_s] 100 = Some (Ok c) /\ c_aggerr c = false /\ c_concerr c = false.
Proof.
  pose (a1 := getr (mkHa [] []) (setup_ha (exS_cf true) (exS 1 5%Q))). pose (a2 := getr (mkHa [] []) (setup_ha (exS_cf false) a1)). exists a1, a2, (getc (run fm_solver arn0 (exS_cf false) a1 [exS_s] 100)).
  split; [vm_compute; reflexivity|]. split; [exists 0; vm_compute; reflexivity|]. split; [intros _ m x Hm Hx Hz; destruct m as [|[|[|m]]]; [| |discriminate Hx|cbn in Hm; lia]; (cbn in Hx; injection Hx as <-; discriminate Hz)|].
  split; [intros g Hg; discriminate Hg|]. split; [vm_compute; reflexivity|]. split; [intro K; discriminate K|]. split; [apply exS_init|]. split; [apply getc_ok; vm_compute; reflexivity|]. split; vm_compute; reflexivity.
Qed.

(** C44: with process_urgent_guards = True a time-triggered transition taken on entering a mode drops the rest of the mode although the clock moves away
    from the guard; verdict "safe", while the error mode is reachable and reported without the optimisation. *)
Theorem C44_tt_urgent_refuted : exists a0 c c', wf_ha a0 /\ Forall (init_ok fm_solver a0) [exU_s] /\
  run fm_solver arn0 (exU_cf true true) a0 [exU_s] 100 = Some (Ok c) /\ c_concerr c = false /\ c_aggerr c = false /\
  run fm_solver arn0 (exU_cf false true) a0 [exU_s] 100 = Some (Ok c') /\ c_concerr c' = true /\ error_reachable tol13 (rules_of (exU_cf true true)) a0 (init_of_list [exU_s]).
Proof.
  exists exU_a, (getc (run fm_solver arn0 (exU_cf true true) exU_a [exU_s] 100)), (getc (run fm_solver arn0 (exU_cf false true) exU_a [exU_s] 100)).
  destruct (setup_ha_ok (exU_cf true true) exU exU_a exU_wf ltac:(vm_compute; reflexivity)) as (Em & W & _).
  assert (Hi : Forall (init_ok fm_solver exU_a) [exU_s]) by (eapply Forall_impl; [|exact exU_init]; intros s; apply init_ok_modes; exact Em).
  assert (Hr : run fm_solver arn0 (exU_cf false true) exU_a [exU_s] 100 = Some (Ok (getc (run fm_solver arn0 (exU_cf false true) exU_a [exU_s] 100)))) by (apply getc_ok; vm_compute; reflexivity).
  assert (Hc : c_concerr (getc (run fm_solver arn0 (exU_cf false true) exU_a [exU_s] 100)) = true) by (vm_compute; reflexivity).
  assert (Hp : inputs_plain exU_a) by (intros m Hm; rewrite !(get_mode_eq exU exU_a m Em); rewrite Em in Hm; apply exU_plain; exact Hm).
  split; [exact W|]. split; [exact Hi|]. split; [apply getc_ok; vm_compute; reflexivity|]. split; [vm_compute; reflexivity|]. split; [vm_compute; reflexivity|]. split; [exact Hr|]. split; [exact Hc|].
  refine (C20_concrete_error_real fm_solver fm_solver_ok arn0 (exU_cf false true) exU_a (getr (mkHa [] []) (setup_ha (exU_cf false true) exU_a)) [exU_s] 100 _ W Hp _ _ _ Hi Hr Hc).
  - intros g Hg. discriminate Hg.
  - vm_compute. reflexivity.
  - intro K. discriminate K.
Qed.
(** C27: guard strengthening raises although guard and invariant are both accepted (x + y <= 1 and x + y + z <= 1) *)
Theorem C27_strengthening_raises_refuted : exists a e, wf_ha a /\ check_transitions a = Ok tt /\ do_guard_strengthening a = Err e.
Proof. exists exV_a, EType. split; [apply (setup_ha_ok (exU_cf false false) exV exV_a exV_wf ltac:(vm_compute; reflexivity))|]. split; vm_compute; reflexivity. Qed.
