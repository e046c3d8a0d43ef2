(** With the convex-hull approximation model, make_counterexample = True does not change an analysis unless it raises (for C66). *)
From Verif Require Import Base BaseFacts LpModel LpSpec LpUtil LpFacts LpWf OpsFacts Automaton StateSet StateFacts CoreModel HeapFacts CoreOps CorePop CoreExt CoreDag CoreDag2 CoreDag3 CoreLive CoreLive2 CoreIvl CoreIvl2 CoreIvl3 CoreSubD Names CexSpec NameFacts Layout TraceLp CexD Approx CoreApprox Prop_Core2 CoreTermA CoreNoCex.
From Coq Require Import String Lia.
Open Scope list_scope.
Open Scope nat_scope.

(** the same settings with make_counterexample = False *)
Definition no_ce (cf : cfg) : cfg :=
  mkCfg (cf_num cf) (cf_step cf) (cf_urgent cf) (cf_gs cf) (cf_tt cf) (cf_skip0 cf) (cf_stop_agg cf) (cf_stop_conc cf) false (cf_strat cf).

Section NC2.
Variable solve : solver.
Variable arnoldi : nat -> option (list Q) -> csr -> option csr -> nat -> list (list Q).
Variable cf : cfg.
Variable a : ha.
Variable ap : sset -> res sset.
Hypothesis Hap : forall s s', ap s = Ok s' -> nxs (ss_lpi s').
Hypothesis Hset : forall s s', ap s = Ok s' -> exists l, s' = ss_with_lpi s l.
Hypothesis Hce : cf_ce cf = true.
Hypothesis Hnd : no_deagg cf.
Notation cf' := (no_ce cf).

Lemma err_ce c sid t tl c' : clean c -> nxs tl -> error_reached solve cf a c sid t tl = Ok c' -> error_reached solve cf' a c sid t tl = Ok c'.
Proof.
  intros Hc Hn H. destruct (clean_error solve cf a Hce c sid t tl c' Hc Hn H) as [[C' _] _]. destruct Hc as [E1 E2]. destruct (error_reached_ok solve cf a c sid t tl c' H) as (ag & co & ce & E & _ & _ & K1 & _ & _).
  destruct (ss_conc (getS c sid)) eqn:Ec.
  - destruct (K1 eq_refl) as [-> _]. subst c'. discriminate C'.
  - revert H. unfold error_reached. rewrite Ec. rewrite !andb_false_r. exact (fun H => H).
Qed.
Lemma guards_ce nid sid ts : forall c c', sid < nS c -> clean c -> nxs (ss_lpi (getS c sid)) -> check_guards_loop solve cf a c nid sid ts = Ok c' -> check_guards_loop solve cf' a c nid sid ts = Ok c'.
Proof.
  induction ts as [|t ts IH]; intros c c' Hs Hc Hn H; cbn [check_guards_loop] in H |- *; [exact H|].
  apply bind_ok in H as ([l1 ol] & Hg & H). rewrite Hg. cbn [bind]. cbn [fst snd] in H |- *. apply guard_names in Hg as [N1 N2]. set (c1 := setS c sid _) in *.
  assert (S1 : sid < nS c1) by (unfold c1; rewrite nS_setS; exact Hs). assert (C1 : clean c1) by exact Hc.
  assert (X1 : nxs (ss_lpi (getS c1 sid))) by (unfold c1; rewrite getS_set_eq by exact Hs; unfold nxs; cbn [ss_with_lpi ss_lpi]; rewrite N1; exact Hn).
  destruct ol as [tl|]; [|exact (IH _ _ S1 C1 X1 H)].
  assert (Xt : nxs tl) by (unfold nxs; rewrite (N2 tl eq_refl); exact Hn).
  apply bind_ok in H as (c2 & H2 & H).
  assert (Q2 : clean c2 /\ getS c2 sid = getS c1 sid /\ nS c2 = nS c1 /\ (if is_error (get_mode a (t_to (get_trans a t))) then error_reached solve cf' a c1 sid t tl else Ok c1) = Ok c2).
  { destruct (is_error _) in H2 |- *; [|apply ok_inj in H2; subst c2; repeat split; auto; apply C1]. pose proof (err_ce _ _ _ _ _ C1 Xt H2) as K2. destruct (clean_error solve cf a Hce _ _ _ _ _ C1 Xt H2) as (K & ag & co & ce & ->). repeat split; auto; apply K. }
  destruct Q2 as (C2 & G2 & S2 & K2). rewrite K2. cbn [bind]. clear K2 H2. change (cf_stop_agg cf') with (cf_stop_agg cf). change (cf_stop_conc cf') with (cf_stop_conc cf).
  destruct (_ && _) in H |- *; [exact H|]. apply bind_ok in H as (c3 & H3 & H). change (add_transition_successor solve cf' a c2 t tl sid nid) with (add_transition_successor solve cf a c2 t tl sid nid). rewrite H3. cbn [bind].
  apply bind_ok in H as (c4 & H4 & H). change (cf_tt cf') with (cf_tt cf). change (cf_step cf') with (cf_step cf). change (cf_num cf') with (cf_num cf). rewrite H4. cbn [bind].
  destruct (add_clean solve cf a _ _ _ _ _ _ ltac:(rewrite S2; exact S1) C2 H3) as (C3 & G3 & _ & _ & _ & L3 & _).
  assert (S3 : sid < nS c3) by lia. assert (X3 : nxs (ss_lpi (getS c3 sid))) by (rewrite G3, G2; exact X1).
  assert (Q4 : clean c4 /\ nxs (ss_lpi (getS c4 sid)) /\ sid < nS c4).
  { destruct (_ && _) in H4; [|apply ok_inj in H4; subst c4; auto]. apply bind_ok in H4 as ([lw bw] & Hw & H4). cbn [fst snd] in H4. apply taken_names in Hw. apply ok_inj in H4. subst c4.
    assert (XX : nxs (ss_lpi (getS (setS c3 sid (ss_with_lpi (getS c3 sid) lw)) sid))) by (rewrite getS_set_eq by exact S3; unfold nxs; cbn [ss_with_lpi ss_lpi]; rewrite Hw; exact X3).
    assert (XS : sid < nS (setS c3 sid (ss_with_lpi (getS c3 sid) lw))) by (rewrite nS_setS; exact S3). destruct bw; (split; [exact C3|]; split; [exact XX|exact XS]). }
  destruct Q4 as (C4 & X4 & S4). exact (IH c4 c' S4 C4 X4 H).
Qed.
Lemma cont_ce c nid c' : Z cf a c -> c_cur c = Some nid -> continuous_post solve cf a c nid (n_state (getN c nid)) = Ok c' -> continuous_post solve cf' a c nid (n_state (getN c nid)) = Ok c'.
Proof.
  intros [V I C R W X] Ec H. assert (Hs := cur_lt cf a c nid V Ec). specialize (X nid Ec). set (sid := n_state (getN c nid)) in *. unfold continuous_post in H |- *. change (cf_num cf') with (cf_num cf). change (cf_skip0 cf') with (cf_skip0 cf).
  destruct (_ <=? _) in H |- *; [exact H|]. destruct (c_tt c); [exact H|].
  apply bind_ok in H as ([c1 ok] & H1 & H). rewrite H1. cbn [bind]. destruct (inter_z solve a _ _ _ _ _ Hs H1) as (F1 & S1 & E1 & M1 & N1). specialize (N1 X). assert (C1 := fr_clean _ _ F1 C).
  destruct ok; cbn [negb] in H |- *; [|exact H]. apply bind_ok in H as (s1 & Hs1 & H). rewrite Hs1. cbn [bind]. apply step1_names in Hs1; [|exact N1]. set (c2 := setS c1 sid s1) in *.
  apply bind_ok in H as (c3 & H3 & H). unfold check_guards in H3 |- *.
  assert (S2 : sid < nS c2) by (unfold c2; rewrite nS_setS, S1; exact Hs).
  rewrite (guards_ce nid sid _ c2 c3 S2 C1 ltac:(unfold c2; rewrite getS_set_eq by (rewrite S1; exact Hs); exact Hs1) H3). exact H.
Qed.
Lemma step_ce c c' : Z cf a c -> do_step_ap solve arnoldi cf a ap c = Ok c' -> do_step_ap solve arnoldi cf' a ap c = Ok c'.
Proof.
  intros HZ H. pose proof HZ as [V I C R W X]. unfold do_step_ap in H |- *. change (is_finished cf' c) with (is_finished cf c). destruct (is_finished cf c); [exact H|]. destruct (cur_state c) as [[nid sid]|] eqn:Ec.
  - apply bind_ok in H as (c1 & H1 & H). unfold cur_state in Ec. destruct (c_cur c) as [n|] eqn:En; [|discriminate]. destruct (left_inv c n); [discriminate|]. injection Ec as -> <-.
    rewrite (cont_ce c nid c1 HZ En H1). exact H.
  - assert (Hcu := cur_none cf a c V Ec). unfold doing_replay in H |- *. rewrite R, W in H |- *. change (get_deagg_node cf' a c) with (get_deagg_node cf a c). rewrite (deagg_none cf a Hnd c) in H |- *. cbn [bind] in H |- *.
    change (do_step_pop_ap solve arnoldi cf' a ap c) with (do_step_pop_ap solve arnoldi cf a ap c). apply bind_ok in H as (c1 & H1 & H). rewrite H1. cbn [bind]. destruct (pop_z solve arnoldi cf a ap Hap c c1 HZ Hcu H1) as (C1 & R1 & W1 & X1).
    destruct (li_pop_ap solve arnoldi cf a ap Hset c c1 V I Hcu R W H1) as [V1 _]. change (cf_urgent cf') with (cf_urgent cf).
    destruct (cur_state c1) as [[nid sid]|] eqn:Ec1; [|exact H]. destruct (cf_urgent cf); [|exact H].
    unfold cur_state in Ec1. destruct (c_cur c1) as [n|] eqn:En; [|discriminate]. destruct (left_inv c1 n); [discriminate|]. injection Ec1 as -> <-. unfold check_guards in H |- *.
    exact (guards_ce nid _ _ c1 c' (cur_lt cf a c1 nid V1 En) C1 (X1 nid eq_refl) H).
Qed.
Lemma loop_ce fuel : forall c, Z cf a c -> (forall e, run_loop_ap solve arnoldi cf a ap fuel c <> Some (Err e)) -> run_loop_ap solve arnoldi cf' a ap fuel c = run_loop_ap solve arnoldi cf a ap fuel c.
Proof.
  induction fuel as [|f IH]; intros c HZ H; cbn [run_loop_ap] in H |- *; change (is_finished cf' c) with (is_finished cf c); (destruct (is_finished cf c); [reflexivity|]); [reflexivity|].
  destruct (do_step_ap solve arnoldi cf a ap c) as [c1|e] eqn:E; [|exfalso; exact (H e eq_refl)]. rewrite (step_ce c c1 HZ E). apply IH; [eapply z_step; eauto|exact H].
Qed.
End NC2.
