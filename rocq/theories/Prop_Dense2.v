(** C61, two further refutations: deaggregation, and errors reported as concrete. *)
From Verif Require Import Base BaseFacts LpModel LpSpec SetSpec LpUtil ApiSpec Automaton StateSet HybridSpec StateSpec CoreModel CoreOps CoreGhost CoreSpec CoreSetup SetupHa Approx CoreApprox Prop_Approx Prop_Core Prop_Dense Solver Ex_Core Ex_Approx Ex_Dense.
From Verif Require Prop_Sets.
Open Scope nat_scope.

Lemma exH_free : inv_free exH.
Proof. intros [|[|[|m]]]; [reflexivity|reflexivity|reflexivity|]. unfold get_mode. cbn. destruct m; reflexivity. Qed.
Lemma exH_zero d : zero_plain (exH_cf d) exH.
Proof. intros _ m x Hm Hx Hz. destruct m as [|[|[|m]]]; [| |discriminate|cbn in Hm; lia]; (cbn in Hx; injection Hx as <-; discriminate). Qed.
Lemma exH_tt d : no_tt (exH_cf d) exH.
Proof. intros _ t Ht. destruct t as [|[|t]]; [reflexivity|reflexivity|cbn in Ht; lia]. Qed.

(** two runs of one step each: from 1 to 2 in mode 0, from 2 to 4 in mode 1 *)
Lemma exH_run_of m q : m < 2 -> run_of (get_mode exH m) 1 (fun k _ => (q * pow2 k)%Q) (fun _ _ => 0%Q).
Proof.
  intros Hm k Hk. destruct m as [|[|m]]; [| |lia]; (split; [intros r []|]; split; [exact Logic.I|]; intros i Hi; change (m_dims (get_mode exH _)) with 1 in Hi; change (m_bm (get_mode exH _) 1) with [[pow2 1]];
   rewrite exL_app by exact Hi; change (m_b (get_mode exH _)) with (@None (csr * csr * list Q)); cbv match; change (pow2 (S k)) with (Qred (2 * pow2 k)); rewrite Qred_correct; change (pow2 1) with 2%Q; ring).
Qed.
Lemma exH_dense : dense_error exH (init_of_list [exH_s]) 3 true.
Proof.
  exists 2, (fun _ => (5 # 2)%Q), (0 + inject_Z (Z.of_nat 0) + 1 + inject_Z (Z.of_nat 0) + (1 # 4))%Q. split; [|reflexivity].
  apply (dn_jump exH _ 3 true 1 (fun k _ => (2 * pow2 k)%Q) (fun _ _ => 0%Q) (0 + inject_Z (Z.of_nat 0) + 1)%Q 0 (1 # 4) 1).
  - apply (dn_jump exH _ 3 true 0 (fun k _ => (1 * pow2 k)%Q) (fun _ _ => 0%Q) 0 0 1 0).
    + apply dn_init. exists exH_s. split; [left; reflexivity|]. split; [vm_compute; reflexivity|].
      exists (fun i => 1%Q). split; [apply satb_ok; vm_compute; reflexivity|intros i Hi; vm_compute in Hi; destruct i; [reflexivity|lia]].
    + reflexivity.
    + apply exH_run_of. lia.
    + split; discriminate.
    + discriminate.
    + reflexivity.
    + cbn; lia.
    + reflexivity.
    + intros [|[|i]] r b Hr0 Hb0; [| |destruct i; discriminate]; (injection Hr0 as <-; injection Hb0 as <-; vm_compute; discriminate).
    + exists (fun _ => 0%Q). vm_compute. split; [exact Logic.I|]. intros [|i] Hi; [reflexivity|lia].
  - reflexivity.
  - apply exH_run_of. lia.
  - split; discriminate.
  - discriminate.
  - reflexivity.
  - cbn; lia.
  - reflexivity.
  - intros [|[|i]] r b Hr0 Hb0; [| |destruct i; discriminate]; (injection Hr0 as <-; injection Hb0 as <-; vm_compute; discriminate).
  - exists (fun _ => 0%Q). vm_compute. split; [exact Logic.I|]. intros [|i] Hi; [reflexivity|lia].
Qed.
(** With deaggregation the split state sets are replayed without the approximation model: the run ends having "refuted" the aggregated error (no
    concrete error is reported; C21 would make this a proof of safety for the sampled executions) although an execution in dense time, with urgent guards,
    enters the error mode. *)
Theorem C61_deaggregation_refuted : exists cf a0 inits fuel c g, wf_ha a0 /\ inv_free a0 /\ zero_plain cf a0 /\ no_tt cf a0 /\ Forall (init_ok fm_solver a0) inits /\
  (forall s, In s inits -> is_error (get_mode a0 (ss_mode s)) = false) /\ cf_urgent cf = true /\ cf_strat cf = Some g /\ ag_deagg g = true /\
  run_ap fm_solver arn0 (fun q => q) ApChull cf a0 inits fuel = Some (Ok c) /\ is_finished cf c = true /\ c_concerr c = false /\
  dense_error a0 (init_of_list inits) (cf_num cf) (cf_urgent cf).
Proof.
  destruct exH_ok as (c & Hr & F1 & F2).
  exists (exH_cf true), exH, [exH_s], 40, c, (mkAgg ABox PAvg false true true DMost).
  split; [apply exH_wf|]. split; [apply exH_free|]. split; [apply exH_zero|]. split; [apply exH_tt|]. split; [apply exH_init|].
  split; [intros s [<-|[]]; vm_compute; reflexivity|]. split; [reflexivity|]. split; [reflexivity|]. split; [reflexivity|]. split; [exact Hr|]. split; [|split; [exact F2|exact exH_dense]].
  assert (G : match exH_run true with Some (Ok c) => is_finished (exH_cf true) c | _ => false end = true) by (vm_compute; reflexivity).
  unfold exH_run in G. rewrite Hr in G. exact G.
Qed.

Lemma exK_free : inv_free exK.
Proof. intros [|[|m]]; [reflexivity|reflexivity|]. unfold get_mode. cbn. destruct m; reflexivity. Qed.
Lemma exK_zero : zero_plain exK_cf exK.
Proof. intros _ m x Hm Hx Hz. destruct m as [|[|m]]; [|discriminate|cbn in Hm; lia]; (cbn in Hx; injection Hx as <-; discriminate). Qed.
Lemma exK_tt : no_tt exK_cf exK.
Proof. intros _ t Ht. destruct t as [|t]; [reflexivity|cbn in Ht; lia]. Qed.
Lemma exK_step p u q i : one_step (get_mode exK 0) p u q -> i < 3 -> (q i == (if (i =? 2)%nat then 2 else - 1) * p i)%Q.
Proof.
  intros H Hi. rewrite (H i Hi). change (m_b (get_mode exK 0)) with (@None (csr * csr * list Q)). cbv match. change (m_bm (get_mode exK 0) 1) with (exK_bm 1). rewrite exK_bm_ok by exact Hi. change (pow2 1) with 2%Q. cbn [sgn]. destruct (i =? 2)%nat; ring.
Qed.
Lemma exK_start p : init_of_list [exK_s] 0 p -> (-1 <= p 0%nat <= 1 /\ p 2%nat == 1)%Q.
Proof.
  intros (s & [<-|[]] & _ & H). assert (E : from_box fm_solver [(-1, 1); (0, 0); (1, 1)]%Q 0 false = Ok (ss_lpi exK_s)) by (vm_compute; reflexivity).
  pose proof (Prop_Sets.C01_from_box_exact fm_solver fm_solver_ok [(-1, 1); (0, 0); (1, 1)]%Q 0 false) as K. rewrite E in K. destruct K as [_ K]. apply K in H.
  pose proof (H 0 _ _ eq_refl) as H0. pose proof (H 2 _ _ eq_refl) as H2. lra.
Qed.
Lemma exK_safe : ~ dense_error exK (init_of_list [exK_s]) 2 true.
Proof.
  assert (I0 : forall m p, init_of_list [exK_s] m p -> m = 0).
  { intros m p (s & [<-|[]] & <- & _). vm_compute. reflexivity. }
  assert (D0 : forall m p T, dense exK (init_of_list [exK_s]) 2 true m p T -> m = 0 -> init_of_list [exK_s] 0 p).
  { intros m p T H. destruct H as [m p H|m x u T k s t p' H _ _ _ _ _ Ht _ _ _]; intros E; [subst; exact H|]. destruct t as [|t]; [discriminate E|cbn in Ht; lia]. }
  intros (m & p & T & H & He). destruct H as [m p H|m x u T k s t p' H Hne HR Hs Hb Hu Ht Hf Hg Hr].
  - apply I0 in H. subst m. discriminate He.
  - destruct t as [|t]; [|cbn in Ht; lia]. cbn in Hf. subst m. apply D0 in H; [|reflexivity]. apply exK_start in H as [Hx Hy].
    assert (Y : forall j, j <= k -> (pow2 j <= x j 2%nat)%Q).
    { induction j as [|j IH]; intro Hj; [change (pow2 0) with 1%Q; lra|]. destruct (HR j ltac:(lia)) as (_ & _ & O). pose proof (exK_step _ _ _ 2 O ltac:(lia)) as E. cbn [Nat.eqb] in E. rewrite E. cbn [pow2]. rewrite Qred_correct. specialize (IH ltac:(lia)). lra. }
    assert (P : forall j, (1 <= pow2 j)%Q) by (induction j as [|j IH]; [discriminate|cbn [pow2]; rewrite Qred_correct; lra]).
    pose proof (Hg 0 _ _ eq_refl eq_refl) as G0. pose proof (Hg 1 _ _ eq_refl eq_refl) as G1. pose proof (Hg 2 _ _ eq_refl eq_refl) as G2.
    destruct (HR k ltac:(lia)) as (_ & _ & O). pose proof (exK_step _ _ _ 0 O ltac:(lia)) as E0. pose proof (exK_step _ _ _ 2 O ltac:(lia)) as E2. cbn [Nat.eqb] in E0, E2.
    unfold between in G0, G1, G2. cbn -[Qmult Qplus Qle] in G0, G1, G2.
    rewrite E0 in G0. rewrite E2 in G1, G2.
    destruct k as [|k].
    + rewrite Hy in G1, G2. assert (S1 : (3 # 8 <= s)%Q) by lra. assert (S2 : (s <= 5 # 8)%Q) by lra. nra.
    + specialize (Y (S k) (Nat.le_refl _)). cbn [pow2] in Y. rewrite Qred_correct in Y. specialize (P k). nra.
Qed.
(** The hull contains states that lie on no trajectory: an error reached only there is reported as concrete. *)
Theorem C61_concrete_error_refuted : exists cf a0 inits fuel c, wf_ha a0 /\ inv_free a0 /\ zero_plain cf a0 /\ no_deagg cf /\ no_tt cf a0 /\ Forall (init_ok fm_solver a0) inits /\
  cf_urgent cf = true /\ run_ap fm_solver arn0 (fun q => q) ApChull cf a0 inits fuel = Some (Ok c) /\ c_concerr c = true /\
  ~ dense_error a0 (init_of_list inits) (cf_num cf) (cf_urgent cf).
Proof.
  destruct exK_ok as (c & Hr & F). exists exK_cf, exK, [exK_s], 40, c.
  split; [apply exK_wf|]. split; [apply exK_free|]. split; [apply exK_zero|]. split; [intros g Hg; discriminate Hg|]. split; [apply exK_tt|]. split; [apply exK_init|].
  split; [reflexivity|]. split; [exact Hr|]. split; [exact F|exact exK_safe].
Qed.
