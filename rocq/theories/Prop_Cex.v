(** C22: reported counter-examples are executions. *)
From Verif Require Import Base BaseFacts LpModel LpSpec SetSpec LpUtil LpFacts ChullFacts ApiSpec ApiFacts Automaton StateSet HybridSpec FlowFacts StateSpec
  StateFacts StateFacts2 StateFacts3 AutoFacts CoreModel HeapFacts CoreOps CoreGhost CoreHeap CoreInv CoreSpec CoreSetup CoreExt SetupHa CoreSub SetupHaSub Prop_Core Prop_Core2
  SkipZero Names CexSpec TraceState CoreTrace CexSetup.
From Coq Require Import String.
Open Scope list_scope.
Open Scope nat_scope.

(** ** the specification is adequate: a counter-example proves that an error mode can be entered *)
Section Adequate.
Variables (lax : Q) (ru : rules) (a : ha) (init : nat -> vec -> Prop).
Hypothesis WH : wf_ha a.
Hypothesis Hcap : forall m, ru_cap ru m = false.
Hypothesis Hns : ru_strict ru = false.
Hypothesis Hinit : forall m p q, init m p -> m < List.length (ha_modes a) -> is_error (get_mode a m) = false -> veq (m_dims (get_mode a m)) p q -> init m q.

(** points of a mode are vectors of its dimension *)
Lemma reach_ext m p k n : reach lax ru a init m p k n -> m < List.length (ha_modes a) -> is_error (get_mode a m) = false -> forall q, veq (m_dims (get_mode a m)) p q -> reach lax ru a init m q k n.
Proof.
  intro R. induction R as [m p Hi Hv|m p k n u p' R IH Hv Hn Hc Hu Ho|t p p' k n Ht R IH Hg Hj Hr]; intros Hm He q Hq.
  - apply R_init; [eapply Hinit; eauto|]. eapply (inv_ok_ext a WH); eauto.
  - assert (HX : exists x, m_a (get_mode a m) = Some x) by (unfold is_error in He; destruct (m_a (get_mode a m)); [eauto|discriminate]). destruct HX as (x & Hx).
    assert (W : wf_mode (get_mode a m) x). { destruct WH as [WM _]. specialize (WM m Hm). rewrite Hx in WM. exact WM. }
    assert (Hdm : m_dims (get_mode a m) = c_nr x) by (unfold m_dims; rewrite Hx; reflexivity).
    apply R_step with p u; auto. rewrite Hdm in Hq. eapply (one_step_ext _ x Hx W); [apply veq_refl|exact Hq|exact Ho].
  - apply R_jump with p k; auto. pose proof (wft_dims _ _ (proj2 WH t Ht) He) as Hd. destruct Hr as (y & Hy1 & Hy2). exists y. split; [exact Hy1|]. intros i Hi. rewrite <- (Hy2 i Hi). symmetry. apply Hq.
    rewrite <- Hd. exact Hi.
Qed.
Lemma moves_reach s n : seg_moves lax a s -> sg_mode s < List.length (ha_modes a) -> is_error (get_mode a (sg_mode s)) = false -> n + sg_steps s <= ru_bound ru ->
  reach lax ru a init (sg_mode s) (of_list (sg_start s)) 0 n -> reach lax ru a init (sg_mode s) (of_list (sg_end s)) (sg_steps s) (n + sg_steps s).
Proof.
  intros (_ & traj & T0 & TK & TS) Hm He Hb R.
  assert (K : forall j, j <= sg_steps s -> reach lax ru a init (sg_mode s) (traj j) j (n + j)).
  { induction j as [|j IH]; intro Hj.
    - rewrite Nat.add_0_r. eapply reach_ext; [exact R|exact Hm|exact He|]. apply veq_sym. exact T0.
    - destruct (TS j ltac:(lia)) as (I1 & I2 & I3). rewrite Nat.add_succ_r. eapply R_step; [apply IH; lia|exact I1|lia|rewrite Hcap; discriminate|exact I2|exact I3]. }
  eapply reach_ext; [apply (K (sg_steps s)); lia|exact Hm|exact He|exact TK].
Qed.
Lemma chain_error ce : cex_chain lax (ru_urgent ru) a ce -> forall s r n, ce = s :: r -> reach lax ru a init (sg_mode s) (of_list (sg_start s)) 0 n -> n + total_steps ce <= ru_bound ru -> error_reachable lax ru a init.
Proof.
  induction 1 as [s t L E|s t s' ce L Em RW C IH]; intros s0 r n Eq R Hb; injection Eq as <- <-; destruct L as (L1 & L2 & L3 & L4 & L5 & L6 & L7);
    (assert (He : is_error (get_mode a (sg_mode s)) = false) by (rewrite <- L5; apply (wft_from _ _ (proj2 WH t L4)))); unfold total_steps in Hb; cbn [map list_sum fold_right] in Hb.
  - pose proof (moves_reach s n L2 L1 He ltac:(lia) R) as R1. exists t, (of_list (sg_end s)), (sg_steps s), (n + sg_steps s). split; [exact L4|]. split; [exact E|]. rewrite L5. split; [exact R1|]. split; [exact L6|]. split; [exact L7|]. rewrite Hns. discriminate.
  - pose proof (moves_reach s n L2 L1 He ltac:(lia) R) as R1. apply (IH s' ce (n + sg_steps s) eq_refl).
    + rewrite Em. rewrite <- L5 in R1. eapply R_jump; [exact L4|exact R1|exact L6|rewrite L5; split; [exact L7|rewrite Hns; discriminate]|]. exists (of_list (sg_mink s)). exact RW.
    + unfold total_steps. cbn [map list_sum fold_right]. lia.
Qed.
Lemma cex_error ce : is_counterexample lax (ru_urgent ru) (ru_bound ru) a init ce -> error_reachable lax ru a init.
Proof. intros (C & Hb & s & r & -> & H1 & H2). eapply chain_error; [exact C|reflexivity|apply R_init; auto|exact Hb]. Qed.
End Adequate.

(** ** C22 *)
Section Cex.
Variable solve : solver.
Hypothesis Hsolve : solver_ok solve.
Variable arnoldi : nat -> option (list Q) -> csr -> option csr -> nat -> list (list Q).

(** the initial sets are made by from_box, from_zonotope or from_constraints (without custom names) for their mode *)
Definition plain_init (s : sset) : Prop := exists cs rhs hi dims, from_constraints solve cs rhs (ss_mode s) hi None dims = Ok (ss_lpi s).
Lemma plain_box s box hi : from_box solve box (ss_mode s) hi = Ok (ss_lpi s) -> plain_init s.
Proof. unfold from_box. intro H. apply bind_ok in H as (? & _ & H). unfold plain_init. eauto. Qed.
Lemma plain_zonotope s c g hi : from_zonotope solve c g (ss_mode s) hi = Ok (ss_lpi s) -> plain_init s.
Proof. unfold from_zonotope. cbv zeta. intro H. apply bind_ok in H as (? & _ & H). unfold plain_init. eauto. Qed.

(** When Core.run ends, the counter-example in the result, if there is one, is an execution of the automaton: it starts in an
    initial point, every segment stays in its mode for the listed number of steps with the listed inputs, which are admissible,
    and satisfies the invariant (up to 1e-13) before every step, every segment ends in the guard of the listed transition, the next one
    starts at the image of its end under the reset with the listed Minkowski values, and the last transition enters an error mode, after at
    most num_steps steps in total.  There is one whenever make_counterexample is set and a concrete error was found. *)
Theorem C22_counterexample_valid cf a0 a inits fuel c :
  wf_ha a0 -> index_ok a0 -> inputs_plain a0 -> no_deagg cf -> setup_ha cf a0 = Ok a -> no_tt cf a -> Forall (init_ok solve a0) inits -> Forall plain_init inits ->
  run solve arnoldi cf a0 inits fuel = Some (Ok c) ->
  (c_cex c <> [] -> is_counterexample tol13 (cf_urgent cf) (cf_num cf) a0 (init_of_list inits) (c_cex c)) /\
  (cf_ce cf = true -> c_concerr c = true -> c_cex c <> []).
Proof.
  intros W0 HI Hinp Hnd Hs Htt Hinit Hpl Hrun. destruct (setup_ha_ok cf a0 a W0 Hs) as (Em & W & _).
  unfold run in Hrun. assert (E0 : (do _ <- assert (negb (List.length inits =? 0)); setup_ha cf a0) = Ok a).
  { destruct (assert _) as [u|e] eqn:Ea; cbn [bind] in *; [exact Hs|]. discriminate. }
  rewrite E0 in Hrun. destruct (setup solve a inits) as [c0|e] eqn:Esu; [|discriminate].
  assert (Hinit' : Forall (init_ok solve a) inits) by (eapply Forall_impl; [|exact Hinit]; intros s Hsx; eapply init_ok_modes; eauto).
  assert (Hinp' : inputs_plain a). { intros m Hm. rewrite (get_mode_eq a0 a m Em). apply Hinp. rewrite <- Em. exact Hm. }
  destruct (pre_gi solve Hsolve cf a (rules_of cf) inits c0 W Hinp' Hinit' Esu eq_refl) as [G0 C0]. pose proof (setup_refines cf a0 a W0 Hs Htt) as RF.
  assert (T0 : ti cf a (init_of_list inits) c0).
  { apply (setup_ti solve Hsolve cf a W Hinp' inits c0 Hinit'); [|exact Esu]. intros s Hin _. pose proof (proj1 (Forall_forall _ _) Hpl s Hin) as (cs & rhs & hi & dims & Hc). eapply init_cols_fc; exact Hc. }
  pose proof (ti_run solve Hsolve arnoldi cf a W Hinp' (refines_index _ _ RF HI) (rules_of cf) (init_of_list inits) (init_list_ext solve a inits Hinit') eq_refl eq_refl (fun _ => eq_refl) eq_refl Hnd fuel c0 c G0 C0 T0 Hrun) as T.
  destruct (ti_cex _ _ _ _ T) as [T1 T2]. split; [|exact T2]. intro K. apply (refines_cex _ _ _ _ a _ _ RF). apply T1. exact K.
Qed.

(** what a counter-example shows: an error mode can be entered *)
Theorem C22_counterexample_error cf a0 inits ce : wf_ha a0 -> Forall (init_ok solve a0) inits ->
  is_counterexample tol13 (cf_urgent cf) (cf_num cf) a0 (init_of_list inits) ce -> error_reachable tol13 (rules_of cf) a0 (init_of_list inits).
Proof. intros W HF H. apply (cex_error tol13 (rules_of cf) a0 (init_of_list inits) W (fun _ => eq_refl) eq_refl (init_list_ext solve a0 inits HF) ce). exact H. Qed.

(** automata made with the construction functions number the transitions as Names.v assumes *)
Theorem C22_built_indices a0 : built solve a0 -> index_ok a0.
Proof. apply built_index. Qed.
End Cex.

(** ** a concrete case, with inputs, a reset and Minkowski values *)
From Verif Require Import Solver Ex_Core Ex_Zero Ex_Cex.
Open Scope nat_scope.
Definition exR_cf : cfg := exZ_cf false.
Example C22_witness : exists c, run fm_solver arn0 exR_cf exR [exZ_s true] 100 = Some (Ok c) /\
  (exists s1 s2, c_cex c = [s1; s2] /\ sg_steps s1 = 2 /\ sg_steps s2 = 1 /\ List.length (sg_inputs s1) = 2 /\ List.length (sg_mink s1) = 1) /\
  is_counterexample tol13 false 5 exR (init_of_list [exZ_s true]) (c_cex c).
Proof.
  pose (o := run fm_solver arn0 exR_cf exR [exZ_s true] 100).
  assert (H : o = Some (Ok (getc o))) by (apply getc_ok; vm_compute; reflexivity). exists (getc o). split; [exact H|].
  assert (H1 : c_cex (getc o) <> []) by (intro K; vm_compute in K; inversion K).
  split; [eexists; eexists; vm_compute; repeat (split; try reflexivity)|].
  destruct (setup_ha exR_cf exR) as [a|e] eqn:Ea; [|vm_compute in Ea; inversion Ea].
  refine (proj1 (C22_counterexample_valid fm_solver fm_solver_ok arn0 exR_cf exR a [exZ_s true] 100 (getc o) exR_wf _ _ _ Ea _ exR_init _ H) H1).
  - intros t Ht. destruct t as [|[|t]]; [reflexivity|reflexivity|cbn in Ht; lia].
  - intros m Hm. destruct m as [|[|[|m]]]; cbn; try congruence. cbn in Hm. lia.
  - intros g K. inversion K.
  - intro K. inversion K.
  - constructor; [|constructor]. apply (plain_box fm_solver _ [(0, 0)%Q] true). vm_compute. reflexivity.
Qed.

(** Without the condition on the names of the initial columns it fails: with the same initial set made by minkowski_sum, the
    analysis that finds the error raises UnboundLocalError while it makes the counter-example, instead of reporting it. *)
Theorem C22_minkowski_init_refuted :
  wf_ha exR /\ index_ok exR /\ inputs_plain exR /\ no_deagg exR_cf /\ Forall (init_ok fm_solver exR) [exM_s] /\
  minkowski_sum fm_solver [exZ_l false; exZ_l false] 0 true = Ok (ss_lpi exM_s) /\
  run fm_solver arn0 exR_cf exR [exM_s] 100 = Some (Err EUnbound).
Proof.
  split; [apply exR_wf|]. split; [|split; [|split; [|split; [apply exM_init|split; vm_compute; reflexivity]]]].
  - intros t Ht. destruct t as [|[|t]]; [reflexivity|reflexivity|cbn in Ht; lia].
  - intros m Hm. destruct m as [|[|[|m]]]; cbn; try congruence. cbn in Hm. lia.
  - intros g K. inversion K.
Qed.
