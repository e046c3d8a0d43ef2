(** The analysis with the Unaggregated strategy (aggstrat.py:17-72) only ever holds concrete state sets. *)
From Verif Require Import Base BaseFacts LpModel LpUtil Automaton StateSet CoreModel HeapFacts CoreOps CoreGhost CoreHeap CoreExt CorePop CoreDag CoreDag2 CoreDag3 CoreSetup CoreSubD.
From Coq Require Import Lia.
Open Scope nat_scope.

Section Conc.
Variable solve : solver.
Variable arnoldi : nat -> option (list Q) -> csr -> option csr -> nat -> list (list Q).
Variable cf : cfg.
Variable a : ha.

(** every state set is concrete, no error of an aggregated set was noted *)
Definition ua (c : core) : Prop := (forall i, i < nS c -> ss_conc (getS c i) = true) /\ c_aggerr c = false.

Lemma ua_same c c' : c_states c' = c_states c -> c_aggerr c' = c_aggerr c -> ua c -> ua c'.
Proof. intros E1 E2 [H1 H2]. split; [|congruence]. unfold getS. rewrite E1. exact H1. Qed.
Lemma ua_set c i s : frame2 (getS c i) s -> ua c -> ua (setS c i s).
Proof.
  intros [_ F] [H1 H2]. split; [|exact H2]. intros j Hj. assert (Hn : nS (setS c i s) = nS c) by apply nS_setS. rewrite Hn in Hj.
  destruct (Nat.eq_dec j i) as [->|Hne]; [|rewrite getS_set_ne by auto; apply H1; auto]. rewrite getS_set_eq by auto. rewrite F. auto.
Qed.
Lemma ua_add c s : ss_conc s = true -> ua c -> ua (with_states c (c_states c ++ [s])).
Proof.
  intros Hs [H1 H2]. split; [|exact H2]. intros j Hj. rewrite getS_add. destruct (Nat.eqb_spec j (nS c)); [exact Hs|]. apply H1. cbn [with_states c_states] in Hj. rewrite app_length in Hj. cbn in Hj. lia.
Qed.
Lemma ua_push_ops n xs : forall c, ua c -> ua (push_ops c n xs).
Proof. unfold push_ops. induction xs as [|x xs IH]; intros c H; cbn [fold_left]; [exact H|]. apply IH. apply (ua_same c); auto. Qed.
Lemma ua_left c n s b : ua c -> ua (left_invariant c n s b).
Proof. apply ua_same; reflexivity. Qed.

Lemma ua_error c sid t l c' : sid < nS c -> ua c -> error_reached solve cf a c sid t l = Ok c' -> ua c' /\ c_concerr c' = true.
Proof.
  intros Hs [H1 H2] H. apply error_reached_ok in H as (ag & co & ce & -> & _ & _ & K & _). destruct (K (H1 _ Hs)) as [-> ->].
  split; [|reflexivity]. split; [exact H1|exact H2].
Qed.
Lemma ua_make_op c t l sid nid c' r : sid < nS c -> ua c -> make_op_transition solve cf a c t l sid nid = Ok (c', r) -> ua c'.
Proof.
  intros Hs H0 H. unfold make_op_transition in H. apply bind_ok in H as (p & _ & H). destruct p as [[l1 ctr]|]; [|apply ok_inj in H; injection H as <- _; exact H0].
  apply bind_ok in H as (l2 & _ & H). apply bind_ok in H as (f & _ & H). apply bind_ok in H as (u & _ & H). apply bind_ok in H as (s & E & H). apply ok_inj in H. injection H as <- _.
  apply new_stateset_mode in E as (_ & _ & _ & _ & _ & E & _).
  apply (ua_same (with_states c (c_states c ++ [s]))); [reflexivity|reflexivity|]. apply ua_add; [|exact H0]. rewrite E. apply H0. exact Hs.
Qed.
Lemma ua_succ c t l sid nid c' : sid < nS c -> ua c -> add_transition_successor solve cf a c t l sid nid = Ok c' -> ua c'.
Proof.
  intros Hs H0 H. unfold add_transition_successor in H. apply bind_ok in H as ([c1 o] & H1 & H). apply ua_make_op in H1; auto.
  destruct o as [o|]; apply ok_inj in H; subst c'; [|exact H1]. apply (ua_same c1); auto.
Qed.
Lemma ext_nS c c' : ext c c' -> nS c <= nS c'. Proof. intros [E _]. lia. Qed.

Lemma ua_guards nid sid ts : forall c c', sid < nS c -> ua c -> check_guards_loop solve cf a c nid sid ts = Ok c' -> ua c'.
Proof.
  induction ts as [|t ts IH]; intros c c' Hs H0 H; cbn [check_guards_loop] in H; [apply ok_inj in H; subst; exact H0|].
  apply bind_ok in H as (r & _ & H). set (c1 := setS c sid _) in H.
  assert (M1 : ua c1) by (apply ua_set; [split; reflexivity|exact H0]). assert (S1 : sid < nS c1) by (unfold c1; rewrite nS_setS; exact Hs).
  clearbody c1. destruct (snd r) as [l|]; [|eapply IH; eauto].
  apply bind_ok in H as (c2 & H2 & H).
  assert (M2 : ua c2 /\ sid < nS c2).
  { destruct (is_error _) in H2; [|apply ok_inj in H2; subst; auto]. pose proof (ext_nS _ _ (ext_error_reached _ _ _ _ _ _ _ _ H2)). apply ua_error in H2 as [K _]; auto. split; [exact K|lia]. }
  destruct M2 as [M2 S2]. destruct (_ && _) in H; [apply ok_inj in H; subst; exact M2|].
  apply bind_ok in H as (c3 & H3 & H). pose proof (ext_nS _ _ (ext_add _ _ _ _ _ _ _ _ _ H3)). apply ua_succ in H3; auto. apply bind_ok in H as (c4 & H4 & H).
  assert (M4 : ua c4 /\ nS c4 = nS c3).
  { destruct (_ && _) in H4; [|apply ok_inj in H4; subst; auto]. apply bind_ok in H4 as (w & _ & H4). apply ok_inj in H4.
    assert (M : ua (setS c3 sid (ss_with_lpi (getS c3 sid) (fst w)))) by (apply ua_set; [split; reflexivity|exact H3]).
    destruct (snd w); subst c4; (split; [|apply nS_setS]); [|exact M]. apply (ua_same (setS c3 sid (ss_with_lpi (getS c3 sid) (fst w)))); auto. }
  destruct M4 as [M4 E4]. apply (IH c4 c'); auto. lia.
Qed.
Lemma ua_intersect c nid sid c' ok : ua c -> intersect_state solve a c nid sid = Ok (c', ok) -> ua c'.
Proof.
  intro H0. unfold intersect_state, intersect_invariant. intro H. apply bind_ok in H as ([[s1 ops] ok1] & H1 & H). apply ok_inj in H. injection H as <- _.
  apply ua_push_ops. apply ua_set; [eapply f2_inv; eauto|exact H0].
Qed.
Lemma ua_cont c nid sid c' : sid < nS c -> ua c -> continuous_post solve cf a c nid sid = Ok c' -> ua c'.
Proof.
  intros Hs H0 H. unfold continuous_post in H. destruct (_ <=? _) in H; [apply ok_inj in H; subst; apply ua_left; exact H0|].
  destruct (c_tt c); [apply ok_inj in H; subst; apply ua_left; apply (ua_same c); auto|].
  apply bind_ok in H as ([c1 ok] & H1 & H). pose proof (ext_nS _ _ (ext_intersect _ _ _ _ _ _ _ H1)) as Hle. apply ua_intersect in H1; [|exact H0].
  destruct (negb ok) in H; [apply ok_inj in H; subst; apply ua_left; exact H1|].
  apply bind_ok in H as (s1 & Hs1 & H). apply bind_ok in H as (c2 & H2 & H). unfold check_guards in H2. apply ua_guards in H2.
  - destruct (m_a _) in H; [|discriminate]. destruct (_ && _) in H; apply ok_inj in H; subst c'; [apply ua_left|]; exact H2.
  - rewrite nS_setS. lia.
  - apply ua_set; [eapply f2_step; exact Hs1|exact H1].
Qed.
Hypothesis Hun : cf_strat cf = None.
Lemma pop_single c ops : pop_ops cf a c = Ok ops -> exists o, ops = [o].
Proof.
  unfold pop_ops, strat_pop. destruct (c_wait c) as [|w w']; [discriminate|]. rewrite Hun. cbn [bind]. intro H. apply ok_inj in H. subst ops.
  destruct (is_error _); cbn [filter]; destruct (is_init_op c w); eauto.
Qed.
Lemma ua_pop c c' n : ua c -> pop_waiting_list solve arnoldi cf a c = Ok (c', n) -> ua c'.
Proof.
  intros H0 H. unfold pop_waiting_list in H. apply bind_ok in H as (ops & Ho & H). apply pop_single in Ho as (o & ->). apply bind_ok in H as (u & _ & H). apply bind_ok in H as (g & _ & H).
  apply bind_ok in H as ([c1 nid] & H1 & H). apply ok_inj in H. injection H as <- _. unfold make_node in H1. cbn [bind] in H1. apply ok_inj in H1. injection H1 as <- _.
  set (c0 := with_wait c _) in *. assert (U0 : ua c0) by (apply (ua_same c); auto). clearbody c0.
  match goal with |- context [setS c0 ?i ?s] => assert (U1 : ua (setS c0 i s)) by (apply ua_set; [split; reflexivity|exact U0]); set (c2 := setS c0 i s) in *; clearbody c2 end.
  match goal with |- context [if ?b then _ else _] => destruct b end; apply (ua_same c2); auto.
Qed.
Lemma ua_step_pop c c' : ua c -> do_step_pop solve arnoldi cf a c = Ok c' -> ua c'.
Proof.
  intros H0 H. unfold do_step_pop in H. apply bind_ok in H as ([c1 nid] & H1 & H). apply ua_pop in H1; auto. destruct (is_error _) in H; [apply ok_inj in H; subst; apply ua_left; exact H1|].
  apply bind_ok in H as ([c2 ok] & H2 & H). apply ua_intersect in H2; auto. destruct ok; apply ok_inj in H; subst c'; [exact H2|]. apply ua_left; exact H2.
Qed.
Definition una (c : core) : Prop := ua c /\ c_rep c = None /\ c_dwait c = [].
Lemma una_step c c' : cinv cf a c -> una c -> do_step solve arnoldi cf a c = Ok c' -> una c'.
Proof.
  intros V (U & R & W) H. assert (D := ci_dag _ _ _ V). unfold do_step in H. destruct (is_finished cf c); [apply ok_inj in H; subst; repeat split; auto; apply U|].
  destruct (cur_state c) as [[nid sid]|] eqn:Ec.
  - apply bind_ok in H as (c1 & H1 & H). apply ok_inj in H. unfold cur_state in Ec. destruct (c_cur c) as [n|] eqn:En; [|discriminate]. destruct (left_inv c n); [discriminate|]. injection Ec as -> <-.
    pose proof (ci_cur _ _ _ V _ En) as Hn. destruct (dw_cont solve cf a c nid _ c1 V Hn H1) as [E1 E2]. apply ua_cont in H1; [|apply (d_parents _ _ _ _ D _ Hn)|exact U].
    subst c'. split; [apply (ua_same c1); auto|]. split; cbn [with_csteps c_rep c_dwait]; congruence.
  - unfold doing_replay in H. rewrite R, W in H. unfold get_deagg_node in H. rewrite Hun in H. cbn [bind] in H.
    apply bind_ok in H as (c1 & H1 & H). destruct (dw_step_pop solve arnoldi cf a c c1 V H1) as [E1 E2]. assert (V1 := cinv_step_pop _ _ _ _ _ _ V H1). apply ua_step_pop in H1; [|exact U].
    assert (U1 : una c1) by (split; [exact H1|split; congruence]).
    destruct (cur_state c1) as [[nid sid]|] eqn:Ec1; [|apply ok_inj in H; subst; exact U1]. destruct (cf_urgent cf) eqn:Eu; [|apply ok_inj in H; subst; exact U1].
    unfold check_guards in H. unfold cur_state in Ec1. destruct (c_cur c1) as [m|] eqn:Em; [|discriminate]. destruct (left_inv c1 m); [discriminate|]. injection Ec1 as -> <-.
    pose proof (ci_cur _ _ _ V1 _ Em) as Hn. destruct (dag_guards _ _ _ _ _ _ _ _ _ (ci_dag _ _ _ V1) Hn H) as [_ P2]. apply ua_guards in H; [|apply (d_parents _ _ _ _ (ci_dag _ _ _ V1) _ Hn)|exact H1].
    split; [exact H|]. rewrite (pf_rep _ _ P2), (pf_dw _ _ P2). apply U1.
Qed.
Lemma una_reached ss c : (forall c0, setup solve a ss = Ok c0 -> una c0) -> reached solve arnoldi cf a ss c -> una c.
Proof. intros H0 R. induction R as [c Hs|c c' R IH Hs]; [auto|]. apply (una_step c c' (cinv_reached _ _ _ _ _ _ R) IH Hs). Qed.
End Conc.
