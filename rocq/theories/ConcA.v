(** The analysis with an approximation model and the Unaggregated strategy only ever holds concrete state sets (for C61, C66). *)
From Verif Require Import Base BaseFacts LpModel LpUtil Automaton StateSet CoreModel HeapFacts CoreOps CoreGhost CoreHeap CoreExt CorePop CoreDag CoreDag2 CoreDag3 CoreLive CoreLive2 CoreIvl CoreIvl2 CoreIvl3 CoreSetup CoreSubD CoreConc Approx CoreApprox CoreTermA.
From Coq Require Import Lia.
Open Scope nat_scope.

Section ConcA.
Variable solve : solver.
Variable arnoldi : nat -> option (list Q) -> csr -> option csr -> nat -> list (list Q).
Variable cf : cfg.
Variable a : ha.
Variable ap : sset -> res sset.
Hypothesis Hset : forall s s', ap s = Ok s' -> exists l, s' = ss_with_lpi s l.
Hypothesis Hun : cf_strat cf = None.

Lemma una_step_ap c c' : linv cf a c -> iv c -> una c -> do_step_ap solve arnoldi cf a ap c = Ok c' -> una c'.
Proof.
  intros V I U H. destruct (step_ap_split solve arnoldi cf a ap c c' H) as [H1|(_ & Ec & Er & Ed & c1 & H1 & H2)].
  - apply (una_step solve arnoldi cf a Hun c c' (li_cinv _ _ _ V) U H1).
  - clear H. rename H2 into H. assert (Hcu := cur_none cf a c V Ec). destruct (li_pop_ap solve arnoldi cf a ap Hset c c1 V I Hcu Er Ed H1) as [V1 _].
    assert (U1 : una c1).
    { destruct (pop_ap_split solve arnoldi cf a ap Hset c c1 H1) as (c2 & K & Q). destruct (dw_step_pop solve arnoldi cf a c c2 (li_cinv _ _ _ V) K) as [E1 E2]. destruct U as (U & R & W). apply (ua_step_pop solve arnoldi cf a Hun) in K; [|exact U].
      destruct Q as [->|(i & l & ->)]; (split; [|split; [congruence|congruence] || (split; [change (c_rep c2 = None); congruence|change (c_dwait c2 = []); congruence])]); [exact K|]. apply ua_set; [split; reflexivity|exact K]. }
    destruct (cur_state c1) as [[nid sid]|] eqn:Ec1; [|apply ok_inj in H; subst; exact U1]. destruct (cf_urgent cf); [|apply ok_inj in H; subst; exact U1].
    unfold check_guards in H. unfold cur_state in Ec1. destruct (c_cur c1) as [m|] eqn:Em; [|discriminate]. destruct (left_inv c1 m); [discriminate|]. injection Ec1 as -> <-.
    pose proof (ci_cur _ _ _ (li_cinv _ _ _ V1) _ Em) as Hn. pose proof (ci_dag _ _ _ (li_cinv _ _ _ V1)) as D1. destruct (dag_guards _ _ _ _ _ _ _ _ _ D1 Hn H) as [_ P2].
    destruct U1 as (U1 & R1 & W1). apply (ua_guards solve cf a) in H; [|apply (d_parents _ _ _ _ D1 _ Hn)|exact U1].
    split; [exact H|]. rewrite (pf_rep _ _ P2), (pf_dw _ _ P2). auto.
Qed.
Lemma una_loop_ap fuel : forall c r, linv cf a c -> iv c -> una c -> run_loop_ap solve arnoldi cf a ap fuel c = Some (Ok r) -> una r.
Proof.
  induction fuel as [|f IH]; intros c r V I U H; cbn [run_loop_ap] in H; (destruct (is_finished cf c); [injection H as <-; exact U|]); [discriminate H|].
  destruct (do_step_ap solve arnoldi cf a ap c) as [c1|e] eqn:E; [|discriminate H]. destruct (li_step_ap solve arnoldi cf a ap Hset c c1 V I E) as [V1 I1]. apply (IH c1 r V1 I1); [exact (una_step_ap c c1 V I U E)|exact H].
Qed.
End ConcA.
