(** C21 without require_same_path. *)
From Verif Require Import Base LpModel LpSpec LpUtil Solver ApiSpec Automaton StateSet HybridSpec CoreModel CoreSpec SetupHa Prop_Core Ex_Core Ex_Path.
Open Scope nat_scope.

(** ** C21 *)
(** With deaggregation but require_same_path=False, a finished run without concrete error proves nothing: splitting a node removes the
    successors of all its descendants from the waiting list, also what entered a descendant from another node, and the replay only
    restores the part that came through the node.  Here mode "d" is entered from "b" and from "c", only the part from "c" reaches the
    error, and splitting "b" loses it: "System is safe" is printed (after the aggregated error), while the error is reachable.  All
    hypotheses of C21_deaggregation_decides except path_ok hold. *)
Theorem C21_require_same_path_refuted : exists c a,
  wf_ha exP /\ inputs_plain exP /\ zero_plain (exP_cf false) exP /\ setup_ha (exP_cf false) exP = Ok a /\ no_tt (exP_cf false) a /\
  Forall (init_ok fm_solver exP) exP_inits /\ (exists g, cf_strat (exP_cf false) = Some g /\ ag_deagg g = true) /\ cf_stop_agg (exP_cf false) = false /\
  run fm_solver arn0 (exP_cf false) exP exP_inits 200 = Some (Ok c) /\ c_concerr c = false /\ printed_verdict c = VSafeAgg /\
  error_reachable 0 (rules_of (exP_cf false)) exP (init_of_list exP_inits).
Proof.
  pose (o := run fm_solver arn0 (exP_cf false) exP exP_inits 200). exists (getc o), (getr exP (setup_ha (exP_cf false) exP)).
  split; [exact exP_wf|]. split.
  { intros m Hm Hb. destruct m as [|[|[|[|[|[|m]]]]]]; try (exfalso; apply Hb; reflexivity). cbn in Hm. lia. }
  split. { intros _ m x Hm Hx Hz. destruct m as [|[|[|[|[|[|m]]]]]]; try (injection Hx as <-; discriminate); [discriminate|cbn in Hm; lia]. }
  split; [vm_compute; reflexivity|]. split; [discriminate|]. split; [exact exP_init|]. split; [eexists; split; reflexivity|]. split; [reflexivity|].
  split; [apply getc_ok; vm_compute; reflexivity|]. split; [vm_compute; reflexivity|]. split; [vm_compute; reflexivity|]. exact exP_reach.
Qed.
(** with require_same_path the same system is reported unsafe *)
Example C21_require_same_path_witness : exists c, run fm_solver arn0 (exP_cf true) exP exP_inits 200 = Some (Ok c) /\ printed_verdict c = VUnsafe.
Proof.
  pose (o := run fm_solver arn0 (exP_cf true) exP exP_inits 200). exists (getc o). split; [apply getc_ok; vm_compute; reflexivity|vm_compute; reflexivity].
Qed.

(** ** C53: initial sets in an error mode *)
(** The claim "an initial set inside an error mode is reported as an error" is false for every automaton and every setting: such a set is
    popped and skipped; an error is only reported when a transition into the error mode is taken.  If all initial sets are in error modes
    the run ends with "System is safe". *)
From Verif Require Import StateFacts2 HeapFacts CorePop CoreExt.
Section Init.
Variable solve : solver.
Variable arnoldi : nat -> option (list Q) -> csr -> option csr -> nat -> list (list Q).
Variable cf : cfg.
Variable a : ha.
Record allerr (c : core) : Prop := {
  ae_ag : c_aggerr c = false; ae_co : c_concerr c = false; ae_rep : c_rep c = None; ae_dw : c_dwait c = []; ae_cur : c_cur c = None;
  ae_nO : forall o, In o (c_wait c) -> o < List.length (c_ops c) /\ o_post (getO c o) < List.length (c_states c);
  ae_w : forall o, In o (c_wait c) -> is_error (get_mode a (ss_mode (pstate c o))) = true /\ ss_conc (pstate c o) = true }.

Lemma allerr_setup ss : forall c c', allerr c -> (forall s, In s ss -> is_error (get_mode a (ss_mode s)) = true /\ ss_conc s = true) -> setup_states solve a c ss = Ok c' -> allerr c'.
Proof.
  induction ss as [|s ss IH]; intros c c' J Hs H; cbn [setup_states] in H; [apply ok_inj in H; subst; exact J|].
  apply bind_ok in H as (f & _ & H). assert (Hs' : forall x, In x ss -> is_error (get_mode a (ss_mode x)) = true /\ ss_conc x = true) by (intros; apply Hs; right; auto).
  destruct f; [|eauto]. apply bind_ok in H as ([[s1 ops] ok] & Hi & H). destruct ok; [|eauto]. apply IH in H; auto.
  unfold intersect_invariant in Hi. assert (F : frame2 s s1) by (apply f2_inv in Hi; exact Hi). destruct F as [F1 F2].
  destruct (Hs s (or_introl eq_refl)) as [E1 E2]. destruct J as [J1 J2 J3 J4 J5 J6 J7]. unfold add_init_state. constructor; cbn; auto.
  - intros o Ho. rewrite !app_length. cbn. apply in_app_iff in Ho as [Ho|[<-|[]]].
    + destruct (J6 o Ho) as [K1 K2]. split; [lia|]. unfold getO in *. cbn. rewrite app_nth1 by auto. lia.
    + split; [lia|]. unfold getO. cbn. rewrite app_nth2, Nat.sub_diag by lia. cbn. lia.
  - intros o Ho. unfold pstate, getS, getO in *. cbn. apply in_app_iff in Ho as [Ho|[<-|[]]].
    + destruct (J6 o Ho) as [K1 K2]. rewrite (app_nth1 (c_ops c)) by auto. rewrite app_nth1 by auto. auto.
    + rewrite (app_nth2 (c_ops c)) by lia. rewrite Nat.sub_diag. cbn. rewrite app_nth2 by lia. rewrite Nat.sub_diag. cbn. rewrite F1, F2. auto.
Qed.

Lemma strat_pop_in c ops o : strat_pop cf a c = Ok ops -> In o ops -> In o (c_wait c).
Proof.
  unfold strat_pop. destruct (c_wait c) as [|w0 w]; [discriminate|]. destruct (cf_strat cf) as [g|]; intros H Ho; apply ok_inj in H; subst ops.
  - apply filter_In in Ho as [Ho _]. exact Ho.
  - destruct Ho as [<-|[]]. left; reflexivity.
Qed.
Lemma allerr_scan c : (forall o, In o (c_wait c) -> ss_conc (pstate c o) = true) -> get_deagg_node cf a c = Ok None.
Proof.
  intro H. unfold get_deagg_node. destruct (cf_strat cf) as [g|]; [|reflexivity]. destruct (negb _); [reflexivity|].
  assert (K : forall w seen, (forall o, In o w -> ss_conc (pstate c o) = true) -> deagg_scan a c w seen None = Ok None).
  { induction w as [|o w IH]; intros seen Hw; [reflexivity|]. cbn [deagg_scan]. rewrite (Hw o (or_introl eq_refl)). apply IH. intros; apply Hw; right; auto. }
  rewrite K by exact H. reflexivity.
Qed.
Lemma allerr_step c c' : allerr c -> do_step solve arnoldi cf a c = Ok c' -> allerr c'.
Proof.
  intros J H. unfold do_step in H. destruct (is_finished cf c); [apply ok_inj in H; subst; exact J|].
  assert (Hc : cur_state c = None) by (unfold cur_state; rewrite (ae_cur _ J); reflexivity). rewrite Hc in H.
  unfold doing_replay in H. rewrite (ae_rep _ J), (ae_dw _ J) in H. rewrite allerr_scan in H by (intros; apply (ae_w _ J); auto). cbn [bind] in H.
  apply bind_ok in H as (c2 & H2 & H). unfold do_step_pop in H2. apply bind_ok in H2 as ([c3 nid] & H3 & H2).
  unfold pop_waiting_list in H3. apply bind_ok in H3 as (ops & Hops & H3). apply bind_ok in H3 as (u & _ & H3).
  assert (K : exists o, ops = [o] /\ In o (c_wait c)).
  { unfold pop_ops in Hops. apply bind_ok in Hops as (os & Hos & Hops). destruct os as [|o0 os]; [discriminate|]. assert (I0 := strat_pop_in _ _ o0 Hos (or_introl eq_refl)).
    destruct (ae_w _ J o0 I0) as [E _]. rewrite E in Hops. cbn [filter] in Hops. apply ok_inj in Hops. exists o0. split; [|exact I0]. destruct (is_init_op c o0); symmetry; exact Hops. }
  destruct K as (o & -> & Io). cbn [List.length Nat.ltb Nat.leb] in H3. cbn [bind] in H3. apply bind_ok in H3 as ([c4 n4] & H4 & H3). apply ok_inj in H3. injection H3 as <- <-.
  set (w := filter (fun o' => negb (mem o' [o])) (c_wait c)) in *. destruct J as [J1 J2 J3 J4 J5 J6 J7].
  destruct (J6 o Io) as [B1 B2]. destruct (J7 o Io) as [E1 E2].
  unfold make_node in H4. cbn [bind] in H4. apply ok_inj in H4. injection H4 as <- <-.
  set (c5 := setS _ _ _) in H2. cbn [fold_left existsb] in H2. set (nid := List.length (c_nodes c5)) in *.
  assert (Ew : c_wait c5 = w) by reflexivity. assert (Eo : c_ops c5 = c_ops c) by reflexivity. assert (En : c_nodes c5 = c_nodes c) by reflexivity.
  assert (Es : forall i, i < List.length (c_states c) -> ss_mode (getS c5 i) = ss_mode (getS c i) /\ ss_conc (getS c5 i) = ss_conc (getS c i)).
  { intros i Hi. unfold c5. rewrite getS_setS by exact B2. destruct (Nat.eqb_spec i (o_post (getO (with_wait c w) o))) as [->|]; split; reflexivity. }
  assert (Esl : List.length (c_states c5) = List.length (c_states c)) by (unfold c5; rewrite nS_setS; reflexivity).
  (* the state that results *)
  assert (Main : forall b, let c6 := with_nodes (set_child c5 o nid) (c_nodes (set_child c5 o nid) ++ [mkNode [] (o_post (getO (with_wait c w) o)) [o] None]) in
    let c7 := with_cur (if (b : bool) then with_roots c6 (c_roots c6 ++ [nid]) else c6) (Some nid) in
    (let sid := n_state (getN c7 nid) in if is_error (get_mode a (ss_mode (getS c7 sid))) then Ok (left_invariant c7 nid sid false) else do r <- intersect_state solve a c7 nid sid; let '(c8, ok) := r in if (ok : bool) then Ok c8 else Ok (left_invariant c8 nid sid false)) = Ok c2 ->
    allerr c2).
  { intros b c6 c7. assert (G : getN c7 nid = mkNode [] (o_post (getO c o)) [o] None).
    { unfold c7. destruct b; unfold getN; cbn [c_nodes with_cur with_roots c6 with_nodes]; unfold nid; change (c_nodes c5) with (c_nodes c); rewrite app_nth2 by (change (List.length (c_nodes c) >= List.length (c_nodes c)); lia); change (nth (List.length (c_nodes c) - List.length (c_nodes c)) [mkNode [] (o_post (getO c o)) [o] None] dnode = mkNode [] (o_post (getO c o)) [o] None); rewrite Nat.sub_diag; reflexivity. }
    cbv zeta. rewrite G. cbn [n_state]. assert (Gs : forall i, getS c7 i = getS c5 i) by (intro i; unfold c7; destruct b; reflexivity).
    rewrite Gs. destruct (Es _ B2) as [-> _]. unfold pstate in E1. rewrite E1. intro Hk. apply ok_inj in Hk. subst c2.
    unfold left_invariant. constructor.
    - unfold c7; destruct b; exact J1.
    - unfold c7; destruct b; exact J2.
    - unfold c7; destruct b; exact J3.
    - unfold c7; destruct b; exact J4.
    - reflexivity.
    - intros x Hx. assert (Ix : In x (c_wait c)) by (unfold c7 in Hx; destruct b; cbn in Hx; apply filter_In in Hx as [Hx _]; exact Hx). destruct (J6 x Ix) as [K1 K2].
      destruct (set_child_fields c5 o nid x) as (_ & _ & _ & F & _).
      split; [unfold c7; destruct b; cbn; rewrite upd_nth_length; exact K1|].
      assert (Q1 : getO (push_op c7 nid (NLeft (ss_step (getS c7 (o_post (getO c o)))) false)) x = getO (set_child c5 o nid) x) by (unfold c7; destruct b; reflexivity).
      change (o_post (getO (push_op c7 nid (NLeft (ss_step (getS c7 (o_post (getO c o)))) false)) x) < List.length (c_states c7)). rewrite Q1, F.
      replace (List.length (c_states c7)) with (List.length (c_states c5)) by (unfold c7; destruct b; reflexivity). rewrite Esl. exact K2.
    - intros x Hx. assert (Ix : In x (c_wait c)) by (unfold c7 in Hx; destruct b; cbn in Hx; apply filter_In in Hx as [Hx _]; exact Hx). destruct (J6 x Ix) as [K1 K2].
      destruct (set_child_fields c5 o nid x) as (_ & _ & _ & F & _).
      assert (Q1 : pstate (with_cur (push_op c7 nid (NLeft (ss_step (getS c7 (o_post (getO c o)))) false)) None) x = getS c5 (o_post (getO (set_child c5 o nid) x))) by (unfold c7; destruct b; reflexivity).
      rewrite Q1, F. change (getO c5 x) with (getO c x). destruct (Es _ K2) as [-> ->]. apply (J7 x Ix). }
  assert (J2' : allerr c2) by (destruct (o_parent (getO c5 o)) in H2; [exact (Main false H2)|exact (Main true H2)]).
  assert (Hc2 : cur_state c2 = None) by (unfold cur_state; rewrite (ae_cur _ J2'); reflexivity). rewrite Hc2 in H. apply ok_inj in H. subst c2. exact J2'.
Qed.
Lemma allerr_run fuel : forall c r, allerr c -> run_loop solve arnoldi cf a fuel c = Some (Ok r) -> allerr r.
Proof.
  induction fuel as [|f IH]; intros c r J H; cbn [run_loop] in H; destruct (is_finished cf c); try (injection H as <-; exact J); [discriminate|].
  destruct (do_step solve arnoldi cf a c) as [c1|e] eqn:E; [|discriminate]. eapply IH; [|exact H]. eapply allerr_step; eauto.
Qed.
End Init.

Theorem C53_initial_error_mode_refuted solve arnoldi cf a0 inits fuel c : wf_ha a0 ->
  (forall s, In s inits -> is_error (get_mode a0 (ss_mode s)) = true /\ ss_conc s = true) ->
  run solve arnoldi cf a0 inits fuel = Some (Ok c) -> printed_verdict c = VSafe.
Proof.
  intros W0 Hs H. unfold run in H. destruct (do _ <- _; setup_ha cf a0) as [a|e] eqn:Ea; [|discriminate]. apply bind_ok in Ea as (u & _ & Ea).
  assert (Em : ha_modes a = ha_modes a0) by (apply (setup_ha_ok cf a0 a W0 Ea)).
  destruct (setup solve a inits) as [c0|e] eqn:E0; [|discriminate]. unfold setup in E0. apply bind_ok in E0 as (v & _ & E0). apply bind_ok in E0 as (c1 & E1 & E0).
  assert (J : allerr a c1). { eapply allerr_setup; [|intros s Hi; rewrite (get_mode_eq a0 a _ Em); exact (Hs s Hi)|exact E1]. constructor; try reflexivity; intros o []. }
  destruct (c_wait c1); [discriminate|]. apply ok_inj in E0. subst c0. assert (J' := allerr_run _ _ _ _ _ _ _ J H).
  unfold printed_verdict. rewrite (ae_co _ _ J'), (ae_ag _ _ J'). reflexivity.
Qed.
(** the mode "err" of Ex_Path.v, x = 0, v = 1: the run finishes and prints "System is safe" *)
Definition exP_es := getr dss0 (new_stateset exP (getr lp_new (from_box fm_solver (exP_box 1) 5 false)) 5 0 0 None true).
Example C53_witness : exists c, wf_ha exP /\ is_error (get_mode exP (ss_mode exP_es)) = true /\ ss_conc exP_es = true /\
  in_lp (ss_lpi exP_es) (of_list [0%Q; 1%Q]) /\
  run fm_solver arn0 (exP_cf true) exP [exP_es] 10 = Some (Ok c) /\ printed_verdict c = VSafe.
Proof.
  pose (o := run fm_solver arn0 (exP_cf true) exP [exP_es] 10). exists (getc o). split; [exact exP_wf|]. split; [vm_compute; reflexivity|]. split; [vm_compute; reflexivity|].
  split.
  { assert (H : from_box fm_solver (exP_box 1) 5 false = Ok (getr lp_new (from_box fm_solver (exP_box 1) 5 false))) by (vm_compute; reflexivity).
    replace (ss_lpi exP_es) with (getr lp_new (from_box fm_solver (exP_box 1) 5 false)) by (vm_compute; reflexivity).
    destruct (SetFacts2.from_box_in fm_solver fm_solver_ok _ _ _ _ H) as (_ & Hb & _). apply Hb.
    intros i lb ub Hn. destruct i as [|[|i]]; cbn in Hn; [| |destruct i; discriminate]; injection Hn as <- <-; cbn; lra. }
  split; [apply getc_ok; vm_compute; reflexivity|vm_compute; reflexivity].
Qed.
