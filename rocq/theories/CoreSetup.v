(** Core.setup establishes the invariant. *)
From Verif Require Import Base BaseFacts LpModel LpSpec SetSpec LpUtil LpFacts LpWf ChullFacts ApiSpec ApiFacts Automaton StateSet HybridSpec FlowFacts StateSpec
  StateFacts StateFacts2 StateFacts3 AutoFacts CoreModel HeapFacts CoreOps CoreGhost CoreHeap CoreInv CoreStep CoreCont CorePop CoreReplay CoreDeagg CoreSplit CoreMono CoreFinal CoreSpec.
Open Scope nat_scope.

Section Setup.
Variable solve : solver.
Hypothesis Hsolve : solver_ok solve.
Variable cf : cfg.
Variable a : ha.
Hypothesis WH : wf_ha a.
Hypothesis Hinp : forall m, m < List.length (ha_modes a) -> m_b (get_mode a m) <> None -> m_inv (get_mode a m) = [].

Definition init_good (s : sset) : Prop :=
  good_state solve a s /\ ss_step s = 0 /\ no_rows s /\ nonempty (ss_lpi s) /\ ss_lo s = 0 /\ ss_hi s = 0 /\ ss_conc s = true /\ ss_ops s = None.

Lemma init_state s s1 ops : init_ok solve a s -> lp_is_feasible solve (ss_lpi s) = Ok true -> intersect_invariant solve a s = Ok (s1, ops, true) ->
  let s2 := ss_with_rows s1 (repeat None (List.length (m_inv (get_mode a (ss_mode s1))))) in
  init_good s2 /\ ss_mode s2 = ss_mode s /\ (forall p, in_lp (ss_lpi s2) p -> in_lp (ss_lpi s) p /\ inv_ok tol13 (get_mode a (ss_mode s)) p) /\
  (forall p, in_lp (ss_lpi s) p -> inv_ok 0 (get_mode a (ss_mode s)) p -> in_lp (ss_lpi s2) p).
Proof.
  intros (l & m & Hm & Hn & HA) Hf Hi s2. pose proof (proj1 WH m Hm) as WM. apply (feas_in_lp solve Hsolve) in Hf. assert (Hne : exists p, in_lp (ss_lpi s) p) by (apply Hf; reflexivity).
  assert (Hnr : forall n, forall j, ~ In (Some j) (repeat (@None nat) n)) by (intros n j Hj; apply repeat_spec in Hj; discriminate).
  destruct (m_a (get_mode a m)) as [x|] eqn:Ex.
  - destruct HA as [HA Hd]. destruct (new_stateset_ok solve Hsolve a l m 0 0 None true s x _ WH Hm Ex HA eq_refl Hd Hn) as (S0 & E1 & E2 & E3 & E4 & E5 & E6 & E7 & E8).
    destruct (intersect_invariant_ok solve Hsolve a s x s1 ops true WH S0 Hi) as (S1 & SF & H1 & H2 & H3 & _ & H5). destruct SF as (F1 & F2 & F3 & F4 & F5 & F6 & F7 & F8 & F9).
    assert (Sk : st_ok solve a s2 x).
    { assert (Hx0 := st_wf solve Hsolve a s1 x S1). constructor; unfold s2; cbn [ss_mode ss_lpi ss_step ss_bm ss_ies ss_rows ss_with_rows].
      - apply (st_mode _ _ _ _ S1).
      - apply (st_a _ _ _ _ S1).
      - apply (st_dims _ _ _ _ S1).
      - destruct (st_api _ _ _ _ S1) as (js & K & _). exists js. split; [exact K|]. intros j Hj. exfalso. eapply Hnr; eauto.
      - apply (st_bm _ _ _ _ S1).
      - apply (st_ies _ _ _ _ S1).
      - apply repeat_length.
      - intros K _. destruct (m_b (get_mode a (ss_mode s1))) as [bu|] eqn:Eb.
        + assert (Einv : m_inv (get_mode a (ss_mode s)) = []). { apply Hinp; [rewrite E2; exact Hm|]. rewrite <- F1, Eb. discriminate. }
          rewrite (intersect_invariant_nil solve a s Einv) in Hi. injection Hi as <- _. apply (st_prod _ _ _ _ S0); auto. rewrite E8. apply Hnr.
        + exists (core_sat (ss_lpi s1)). unfold hasC. rewrite Eb. tauto. }
    split.
    { split.
      - split; [apply (st_mode _ _ _ _ Sk)|]. split; [destruct (st_api _ _ _ _ Sk) as (js & K & _); eauto|]. split; [|eauto].
        rewrite (st_dims _ _ _ _ Sk). apply (wfm_pos _ _ WM).
      - unfold s2. cbn [ss_step ss_lpi ss_lo ss_hi ss_conc ss_ops ss_with_rows]. rewrite F2, F3, F4, F5, F6. split; [exact E3|]. split; [unfold no_rows; cbn [ss_rows ss_with_rows]; apply Hnr|]. split; [apply H5; auto|]. auto. }
    split; [exact F1|]. split; [|exact H2]. intros p Hp. split; [apply H1; exact Hp|]. apply H3; auto.
  - destruct HA as [(k & HA) Hd]. unfold new_stateset in Hn. rewrite Ex in Hn. cbn [bind] in Hn. injection Hn as <-. cbn [ss_mode ss_lpi] in *.
    assert (Einv : m_inv (get_mode a m) = []) by exact WM.
    rewrite intersect_invariant_nil in Hi by exact Einv. injection Hi as <- _.
    split.
    { unfold s2. cbn [ss_step ss_lpi ss_lo ss_hi ss_conc ss_ops ss_with_rows ss_mode]. split; [|split; [reflexivity|]; split; [unfold no_rows; cbn [ss_rows ss_with_rows]; apply Hnr|]; split; [exact Hne|]; auto].
      unfold good_state. cbn [ss_mode ss_lpi]. split; [exact Hm|]. split; [eauto|]. split; [exact Hd|]. cbn [ss_with_rows ss_mode]. unfold is_error. intro K. rewrite Ex in K. discriminate. }
    split; [reflexivity|]. split; [|intros p Hp _; exact Hp]. intros p Hp. split; [exact Hp|]. intros c Hc. cbn [ss_mode] in Hc. rewrite Einv in Hc. destruct Hc.
Qed.

Record pre (c : core) : Prop := {
  p_nodes : c_nodes c = []; p_cur : c_cur c = None; p_rep : c_rep c = None; p_dw : c_dwait c = []; p_tt : c_tt c = false;
  p_ag : c_aggerr c = false; p_co : c_concerr c = false; p_ce : c_cex c = []; p_roots : c_roots c = []; p_cs : c_csteps c = 0;
  p_n : nS c = nO c; p_w : c_wait c = seq 0 (nO c);
  p_op : forall o, o < nO c -> getO c o = mkOp 0 None None None o None;
  p_st : forall o, o < nO c -> init_good (getS c o) }.

Lemma pre_add c s : pre c -> init_good s -> pre (add_init_state c s) /\ nO (add_init_state c s) = S (nO c) /\
  (forall o, o < nO c -> getS (add_init_state c s) o = getS c o) /\ getS (add_init_state c s) (nO c) = s.
Proof.
  intros P Hs. pose proof (p_n _ P) as En. unfold add_init_state, getS. cbn [c_states c_ops with_wait with_ops with_states].
  assert (E1 : forall o, o < List.length (c_ops c) -> nth o (c_states c ++ [s]) dsset = nth o (c_states c) dsset) by (intros o Ho; apply app_nth1; lia).
  assert (E2 : nth (List.length (c_ops c)) (c_states c ++ [s]) dsset = s) by (rewrite <- En; rewrite app_nth2 by lia; rewrite Nat.sub_diag; reflexivity).
  split; [|split; [rewrite app_length; cbn [List.length]; lia|split; [exact E1|exact E2]]].
  constructor; cbn [c_nodes c_cur c_rep c_dwait c_tt c_aggerr c_concerr c_cex c_roots c_csteps c_wait with_wait with_ops with_states]; try apply P.
  - cbn [c_states c_ops with_wait with_ops with_states]. rewrite !app_length. cbn [List.length]. lia.
  - cbn [c_ops with_wait with_ops with_states]. rewrite app_length. cbn [List.length]. rewrite Nat.add_1_r, seq_S. rewrite (p_w _ P). reflexivity.
  - unfold getO. cbn [c_ops with_wait with_ops with_states]. rewrite app_length. cbn [List.length]. intros o Ho. destruct (Nat.eq_dec o (List.length (c_ops c))) as [->|].
    + rewrite app_nth2 by lia. rewrite Nat.sub_diag. cbn [nth]. rewrite En. reflexivity.
    + rewrite app_nth1 by lia. apply (p_op _ P). lia.
  - unfold getS. cbn [c_ops c_states with_wait with_ops with_states]. rewrite app_length. cbn [List.length]. intros o Ho. destruct (Nat.eq_dec o (List.length (c_ops c))) as [->|].
    + rewrite E2. exact Hs.
    + rewrite E1 by lia. apply (p_st _ P). lia.
Qed.

Lemma setup_states_ok : forall ss c c', pre c -> Forall (init_ok solve a) ss -> setup_states solve a c ss = Ok c' ->
  pre c' /\ nO c <= nO c' /\ (forall o, o < nO c -> getS c' o = getS c o) /\
  (forall s p, In s ss -> in_lp (ss_lpi s) p -> inv_ok 0 (get_mode a (ss_mode s)) p -> exists o, o < nO c' /\ ss_mode (getS c' o) = ss_mode s /\ in_lp (ss_lpi (getS c' o)) p) /\
  (forall o, nO c <= o < nO c' -> exists s, In s ss /\ ss_mode (getS c' o) = ss_mode s /\ forall p, in_lp (ss_lpi (getS c' o)) p -> in_lp (ss_lpi s) p /\ inv_ok tol13 (get_mode a (ss_mode s)) p).
Proof.
  induction ss as [|s ss IH]; intros c c' P HF H; cbn [setup_states] in H.
  { apply ok_inj in H. subst. split; [exact P|]. split; [lia|]. split; [auto|]. split; [intros s p []|]. intros o Ho. lia. }
  inversion HF as [|? ? Hs HF']; subst. apply bind_ok in H as (f & Hf & H).
  assert (Skip : setup_states solve a c ss = Ok c' -> (forall p, in_lp (ss_lpi s) p -> inv_ok 0 (get_mode a (ss_mode s)) p -> False) ->
    pre c' /\ nO c <= nO c' /\ (forall o, o < nO c -> getS c' o = getS c o) /\
    (forall s0 p, In s0 (s :: ss) -> in_lp (ss_lpi s0) p -> inv_ok 0 (get_mode a (ss_mode s0)) p -> exists o, o < nO c' /\ ss_mode (getS c' o) = ss_mode s0 /\ in_lp (ss_lpi (getS c' o)) p) /\
    (forall o, nO c <= o < nO c' -> exists s0, In s0 (s :: ss) /\ ss_mode (getS c' o) = ss_mode s0 /\ forall p, in_lp (ss_lpi (getS c' o)) p -> in_lp (ss_lpi s0) p /\ inv_ok tol13 (get_mode a (ss_mode s0)) p)).
  { intros K Hno. destruct (IH c c' P HF' K) as (K1 & K2 & K3 & K4 & K5). split; [exact K1|]. split; [exact K2|]. split; [exact K3|]. split.
    - intros s0 p [<-|Hin] Hp Hv; [exfalso; eauto|eauto].
    - intros o Ho. destruct (K5 o Ho) as (s0 & L1 & L2). exists s0. split; [right; exact L1|exact L2]. }
  destruct f.
  2:{ apply Skip; [exact H|]. intros p Hp _. apply (feas_in_lp solve Hsolve) in Hf. assert (false = true) by (apply Hf; eauto). discriminate. }
  apply bind_ok in H as ([[s1 ops] ok] & Hi & H). cbn beta iota in H. destruct ok.
  - destruct (init_state s s1 ops Hs Hf Hi) as (G1 & G2 & G3 & G4). set (s2 := ss_with_rows s1 _) in *.
    destruct (pre_add c s2 P G1) as (P2 & N2 & O2 & L2). destruct (IH _ c' P2 HF' H) as (K1 & K2 & K3 & K4 & K5).
    split; [exact K1|]. split; [lia|]. split; [intros o Ho; rewrite K3 by lia; apply O2; auto|]. split.
    + intros s0 p [<-|Hin] Hp Hv; [|eauto]. exists (nO c). split; [lia|]. rewrite K3 by lia. rewrite L2. split; [exact G2|]. apply G4; auto.
    + intros o Ho. destruct (Nat.eq_dec o (nO c)) as [->|].
      * exists s. split; [left; reflexivity|]. rewrite K3 by lia. rewrite L2. split; [exact G2|exact G3].
      * destruct (K5 o) as (s0 & M1 & M2); [lia|]. exists s0. split; [right; exact M1|exact M2].
  - apply Skip; [exact H|]. intros p Hp Hv. destruct Hs as (l & m & Hm & Hn & HA). pose proof (proj1 WH m Hm) as WM. destruct (m_a (get_mode a m)) as [x|] eqn:Ex.
    + destruct HA as [HA Hd]. destruct (new_stateset_ok solve Hsolve a l m 0 0 None true s x _ WH Hm Ex HA eq_refl Hd Hn) as (S0 & _).
      destruct (intersect_invariant_ok solve Hsolve a s x s1 ops false WH S0 Hi) as (_ & _ & _ & H2 & _ & H4 & _). apply (H4 eq_refl p). apply H2; auto.
    + unfold new_stateset in Hn. rewrite Ex in Hn. cbn [bind] in Hn. injection Hn as <-. rewrite intersect_invariant_nil in Hi by exact WM. discriminate.
Qed.

Lemma pre_core0 : pre core0.
Proof. constructor; try reflexivity; intros o Ho; cbn in Ho; lia. Qed.

Variable ru : rules.
Definition I0_of (c : core) (o : nat) (x : vec) : Prop := o < nO c /\ in_lp (ss_lpi (getS c o)) x.

Lemma pre_heap c : pre c -> heap_ok solve a ru (I0_of c) c.
Proof.
  intro P. pose proof (p_n _ P) as En. assert (HnN : forall N, N < nN c -> False) by (intros N HN; rewrite (p_nodes _ P) in HN; cbn in HN; lia).
  constructor; try (intros; exfalso; eapply HnN; eassumption).
  - intros i Hi. apply (p_st _ P). lia.
  - intros o Ho. rewrite (p_op _ P o Ho). cbn [o_post]. lia.
  - intros o Ho. unfold op_ok. rewrite (p_op _ P o Ho). reflexivity.
  - intros o N Ho Hc. rewrite (p_op _ P o Ho) in Hc. discriminate.
  - intros o o' Ho Ho' E. rewrite (p_op _ P o Ho), (p_op _ P o' Ho') in E. exact E.
  - intros o Ho _. assert (Ep : pstate c o = getS c o) by (unfold pstate; rewrite (p_op _ P o Ho); reflexivity).
    destruct (p_st _ P o Ho) as (_ & G1 & G2 & G3 & G4 & G5 & _). constructor; rewrite ?Ep; auto.
    intros x n HT. apply To_inv in HT as (_ & [(_ & [_ HI] & ->)|(M & t & y & HM & _)]).
    + split; [exact HI|]. lia.
    + rewrite (p_op _ P o Ho) in HM. discriminate.
Qed.
Lemma pre_base c : pre c -> base solve cf a ru (I0_of c) (fun _ => False) (fun _ => False) [] c.
Proof.
  intro P. assert (HnN : forall N, N < nN c -> False) by (intros N HN; rewrite (p_nodes _ P) in HN; cbn in HN; lia).
  assert (Hp : forall o, o < nO c -> o_parent (getO c o) = None) by (intros o Ho; rewrite (p_op _ P o Ho); reflexivity).
  constructor; unfold dpend; rewrite ?(p_dw _ P); try (intros; exfalso; eapply HnN; eassumption).
  - apply pre_heap; exact P.
  - intros N [].
  - rewrite (p_w _ P). split; [apply seq_NoDup|]. intros o Ho. apply in_seq in Ho. assert (Ho' : o < nO c) by lia. rewrite (p_op _ P o Ho'). split; [exact Ho'|]. split; [reflexivity|]. discriminate.
  - split; [constructor|]. intros o [].
  - intros o Ho _ _. left. rewrite (p_w _ P). apply in_seq. lia.
  - intros o M N Ho K. rewrite (Hp o Ho) in K. discriminate.
  - intros o N Ho K. rewrite (p_op _ P o Ho) in K. discriminate.
  - intros N [].
  - split; [constructor|]. split; [intros N []|]. intros P0 chs ch [].
  - intros P0 chs [].
  - intros o Ho K. exfalso. apply K. auto.
  - intros _ o M Ho K. rewrite (Hp o Ho) in K. discriminate.
  - split; [intros o M Ho K; rewrite (Hp o Ho) in K; discriminate|intros N HN; exfalso; eapply HnN; eassumption].
Qed.
Lemma pre_INV c : pre c -> INV solve cf a ru (I0_of c) c.
Proof.
  intro P. exists (fun _ => False). left. split; [apply (p_cur _ P)|]. split; [apply (p_rep _ P)|]. split; [apply pre_base; exact P|]. intro K. exfalso. apply K. apply (p_dw _ P).
Qed.

Lemma setup_ok ss c : Forall (init_ok solve a) ss -> setup solve a ss = Ok c ->
  pre c /\
  (forall m p, init_of_list ss m p -> inv_ok 0 (get_mode a m) p -> exists o, o < nO c /\ o_parent (getO c o) = None /\ pmode c o = m /\ I0_of c o p) /\
  (forall o p, I0_of c o p -> init_of_list ss (pmode c o) p /\ inv_ok tol13 (get_mode a (pmode c o)) p).
Proof.
  intros HF H. unfold setup in H. apply bind_ok in H as (? & _ & H). apply bind_ok in H as (c1 & H1 & H).
  destruct (setup_states_ok ss core0 c1 pre_core0 HF H1) as (P & _ & _ & K4 & K5). assert (c1 = c) by (destruct (c_wait c1); [discriminate|apply ok_inj in H; auto]). subst c1.
  assert (Em : forall o, o < nO c -> pmode c o = ss_mode (getS c o)) by (intros o Ho; unfold pmode; rewrite (p_op _ P o Ho); reflexivity).
  split; [exact P|]. split.
  - intros m p (s & Hs & <- & Hp) Hv. destruct (K4 s p Hs Hp Hv) as (o & Ho & E & Hi). exists o. rewrite (Em o Ho). split; [exact Ho|]. split; [rewrite (p_op _ P o Ho); reflexivity|]. split; [exact E|]. split; auto.
  - intros o p [Ho Hi]. rewrite (Em o Ho). destruct (K5 o) as (s & Hs & E & K); [cbn; lia|]. destruct (K p Hi) as [L1 L2]. split; [exists s; auto|]. rewrite E. exact L2.
Qed.
End Setup.
