(** C22, with deaggregation and invariants: a reported counter-example need not be an execution. *)
From Verif Require Import Base BaseFacts LpModel LpSpec SetSpec LpUtil LpFacts ApiSpec Automaton StateSet HybridSpec FlowFacts StateSpec CoreModel CoreSpec SetupHa SkipZero Prop_Core Prop_Core2
  CexSpec CexSetup Prop_Cex Solver Ex_Core Ex_Deagg Prop_Core7.
From Coq Require Import Lia Lqa String.
Open Scope list_scope.
Open Scope nat_scope.

(** the settings of C20_deagg_invariant_refuted, with make_counterexample (the default) *)
Definition exD_ce : cfg := mkCfg (cf_num exD_cf) (cf_step exD_cf) (cf_urgent exD_cf) (cf_gs exD_cf) (cf_tt exD_cf) (cf_skip0 exD_cf) (cf_stop_agg exD_cf) (cf_stop_conc exD_cf) true (cf_strat exD_cf).
Definition cex_run (cf : cfg) (a : ha) (s : sset) : bool := match run fm_solver arn0 cf a [s] 100 with Some (Ok c) => negb (List.length (c_cex c) =? 0) | _ => false end.
Lemma cex_run_ok cf a s : cex_run cf a s = true -> exists c, run fm_solver arn0 cf a [s] 100 = Some (Ok c) /\ c_cex c <> [].
Proof. unfold cex_run. destruct (run fm_solver arn0 cf a [s] 100) as [[c|e]|]; try discriminate. intro H. exists c. split; [reflexivity|]. intro K. rewrite K in H. discriminate H. Qed.

(** With deaggregation and invariants a counter-example is reported that is not an execution, however many time steps one allows and even
    when invariant conditions may be violated by 10^-13 (the reason is that of C20_deagg_invariant_refuted). *)
Theorem C22_deagg_invariant_refuted : exists cf a0 inits fuel c,
  wf_ha a0 /\ index_ok a0 /\ inputs_plain a0 /\ path_ok cf /\ setup_ha cf a0 = Ok a0 /\ no_tt cf a0 /\ Forall (init_ok fm_solver a0) inits /\ Forall (plain_init fm_solver) inits /\
  run fm_solver arn0 cf a0 inits fuel = Some (Ok c) /\ c_cex c <> [] /\
  forall bound, ~ is_counterexample tol13 (cf_urgent cf) bound a0 (init_of_list inits) (c_cex c).
Proof.
  assert (H : cex_run exD_ce exD exD_s = true) by (vm_compute; reflexivity). apply cex_run_ok in H. destruct H as (c & H & Hc). exists exD_ce, exD, [exD_s], 100, c.
  split; [exact exD_wf|]. split; [intros t Ht; destruct t as [|[|t]]; [reflexivity|reflexivity|cbn in Ht; lia]|]. split; [apply exD_pre|]. split; [exact (proj2 (proj2 exD_pre))|].
  split; [reflexivity|]. split; [intro K; discriminate K|]. split; [exact exD_init|]. split.
  { constructor; [|constructor]. apply (plain_box fm_solver _ exD_box false). vm_compute. reflexivity. }
  split; [exact H|]. split; [exact Hc|]. intros B K.
  apply (cex_error tol13 (mkRules false B (fun _ => false) false) exD (init_of_list [exD_s]) exD_wf (fun _ => eq_refl) eq_refl (init_list_ext fm_solver exD [exD_s] exD_init)) in K. exact (exD_safe _ _ K).
Qed.
