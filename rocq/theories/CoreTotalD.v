(** Deaggregation does not fail on bounded sets: replaying the operations of a deaggregated node (for C66). *)
From Verif Require Import Base BaseFacts LpModel LpSpec SetSpec LpUtil LpFacts LpWf SetFacts SetFacts2 MinkFacts OpsFacts OpsFacts2 OpsFacts3 OpsFacts4 AggFacts ChullFacts
  ApiSpec ApiFacts Automaton StateSet HybridSpec FlowFacts StateSpec StateFacts StateFacts2 StateFacts3 AutoFacts BuildFacts CoreModel HeapFacts Prop_Sets CoreOps CorePop CoreExt CoreDag CoreDag2 CoreDag3
  CoreGhost CoreHeap CoreInv CoreStep CoreCont CoreReplay CoreIvl CoreShape CoreShape2
  Bounded Bounded2 Bounded3 Bounded4 Bounded5 Bounded6 Bounded7 ChullTotal CoreTotal CoreTotal2 CoreTotal3 CexD CexD2 CexD3 CexD4.
From Coq Require Import Lia Lqa Setoid QArith.Qabs.
Open Scope nat_scope.

(** [cnt]: how many of the replayed transitions lead to the node [k] *)
Definition trl (xs : list nop) : list nat := flat_map (fun x => match x with NTr o => [o] | _ => [] end) xs.
Definition leads (c : core) (k o : nat) : bool := match o_child (getO c o) with Some k' => k' =? k | None => false end.
Definition cnt (c : core) (xs : list nop) (k : nat) : nat := List.length (filter (leads c k) (trl xs)).
Lemma trl_app xs ys : trl (xs ++ ys) = trl xs ++ trl ys.
Proof. unfold trl. apply flat_map_app. Qed.
Lemma cnt_app c xs ys k : cnt c (xs ++ ys) k = cnt c xs k + cnt c ys k.
Proof. unfold cnt. rewrite trl_app, filter_app, app_length. reflexivity. Qed.
Lemma cnt_ext c c' xs k : (forall o, In (NTr o) xs -> getO c' o = getO c o) -> cnt c' xs k = cnt c xs k.
Proof.
  intro H. induction xs as [|x xs IH]; [reflexivity|]. change (x :: xs) with ([x] ++ xs). rewrite !cnt_app, IH by (intros o Ho; apply H; right; exact Ho). f_equal.
  destruct x as [k1 i b|k1 b|o]; [reflexivity|reflexivity|]. unfold cnt, trl. cbn [flat_map app filter]. unfold leads. rewrite (H o (or_introl eq_refl)). reflexivity.
Qed.
(** [mapb]: a node that will be made for the child [ch] and the node [k] gets at most as many transitions as lead to [k] in what [ch] replayed *)
Definition mapb (c : core) (mp : list ((nat * nat) * list nat)) (pre : nat -> list nop) : Prop := forall ch k os, In ((ch, k), os) mp -> List.length os <= cnt c (pre ch) k.
Lemma mapb_mono c c' mp pre pre' : mapb c mp pre -> (forall ch k, cnt c (pre ch) k <= cnt c' (pre' ch) k) -> mapb c' mp pre'.
Proof. intros H Hc ch k os Hi. specialize (H ch k os Hi). specialize (Hc ch k). lia. Qed.
Lemma mapb_add c mp pre pre' ch k o : mapb c mp pre -> (forall ch k, cnt c (pre ch) k <= cnt c (pre' ch) k) -> cnt c (pre ch) k + 1 <= cnt c (pre' ch) k -> mapb c (map_add mp (ch, k) o) pre'.
Proof.
  intros H Hm Hp. induction mp as [|[[ch' k'] os'] mp IH]; cbn [map_add fst snd].
  - intros c1 k1 os1 [E|[]]. injection E as <- <- <-. cbn. lia.
  - assert (H' : mapb c mp pre) by (intros c1 k1 os1 Hi; apply H; right; exact Hi). pose proof (H ch' k' os' (or_introl eq_refl)) as H0.
    destruct ((ch =? ch') && (k =? k')) eqn:E.
    + apply andb_true_iff in E as [E1 E2]. apply Nat.eqb_eq in E1, E2. subst ch' k'. intros c1 k1 os1 [E|Hi].
      * injection E as <- <- <-. rewrite app_length. cbn. lia.
      * specialize (H' c1 k1 os1 Hi). specialize (Hm c1 k1). lia.
    + intros c1 k1 os1 [E1|Hi]; [|exact (IH H' c1 k1 os1 Hi)]. injection E1 as <- <- <-. specialize (Hm ch' k'). lia.
Qed.

Section WithSolver.
Variable solve : solver.
Hypothesis Hsolve : solver_ok solve.
Hypothesis Hcomp : solver_complete solve.
Variable cf : cfg.
Variable a : ha.
Hypothesis WH : wf_ha a.
Hypothesis HF : fits a.
Hypothesis Hinp : forall m, m < List.length (ha_modes a) -> m_b (get_mode a m) <> None -> m_inv (get_mode a m) = [].
Hypothesis Hnum : 0 < cf_num cf.
Notation dag := (dag cf a).
Notation tinv := (tinv solve a).
Notation err m := (is_error (get_mode a m)).

(** [kq]: if a counter-example is to be built, concrete states have the columns it needs *)
Notation kq := (kq cf a).
Lemma tinv_sub c c' : tinv c -> c_states c' = c_states c -> c_ops c' = c_ops c -> incl (c_wait c') (c_wait c) -> (forall n, n_state (getN c' n) = n_state (getN c n)) -> tinv c'.
Proof.
  intros T H1 H2 H3 H4. assert (G : forall i, getS c' i = getS c i) by (intro; unfold getS; rewrite H1; reflexivity). assert (GO : forall i, getO c' i = getO c i) by (intro; unfold getO; rewrite H2; reflexivity).
  constructor.
  - rewrite H1. intros i Hi. rewrite G. apply (t_live _ _ _ T). exact Hi.
  - intros o Ho. unfold pstate. rewrite GO, G. apply (t_wait _ _ _ T). apply H3. exact Ho.
  - rewrite H2. intros o p t. rewrite GO. unfold nodemode. rewrite H4, G. apply (t_from0 _ _ _ T).
Qed.

Lemma step_at c mp ch k : dag mp c -> tinv c -> ch < nN c -> err (nodemode c ch) = false -> ss_step (nst c ch) <= k ->
  exists s1, ss_step_to a (nst c ch) k = Ok s1 /\ live solve a s1 /\ ss_mode s1 = nodemode c ch /\ ss_step s1 = k /\ tinv (setS c (n_state (getN c ch)) s1) /\ dag mp (setS c (n_state (getN c ch)) s1).
Proof.
  intros D T Hn He Hk. assert (Hlt : n_state (getN c ch) < nS c) by (destruct (d_parents _ _ _ _ D ch Hn) as (_ & _ & P3 & _); exact P3).
  destruct (step_total solve Hsolve a (nst c ch) k WH (fun m Hm => proj1 (proj1 HF m Hm)) (t_live _ _ _ T _ Hlt He) Hk) as (s1 & E1 & L1 & M1).
  exists s1. split; [exact E1|]. split; [exact L1|]. split; [exact M1|]. split; [apply (fr3_step _ _ _ _ E1)|]. split.
  - apply (tinv_set solve cf a Hnum c _ _ mp); auto. apply (away cf a Hnum c mp ch D Hn).
  - apply (dag_k _ _ _ c); [exact D|]. apply keeps_set. eapply f2_step. exact E1.
Qed.

Lemma replay_inv_total c mp ch k i : dag mp c -> tinv c -> ch < nN c -> err (nodemode c ch) = false -> ss_step (nst c ch) <= k -> i < List.length (m_inv (get_mode a (nodemode c ch))) ->
  exists c', replay_inv solve a c ch k i = Ok c' /\ tinv c' /\ (left_inv c' ch = true \/ ss_step (nst c' ch) = k).
Proof.
  intros D T Hn He Hk Hi. assert (Hlt : n_state (getN c ch) < nS c) by (destruct (d_parents _ _ _ _ D ch Hn) as (_ & _ & P3 & _); exact P3).
  destruct (step_at c mp ch k D T Hn He Hk) as (s1 & E1 & L1 & M1 & S1 & _ & _). unfold replay_inv. cbv zeta. fold (nst c ch). rewrite E1. cbn [bind]. rewrite M1.
  destruct (nth_error (m_inv (get_mode a (nodemode c ch))) i) as [lc|] eqn:En; [|apply nth_error_None in En; lia].
  destruct (inv_cond_total solve Hsolve Hcomp a s1 i lc WH L1) as (s2 & o & strong & E2 & L2 & M2); [rewrite M1; exact En|]. rewrite E2. cbn [bind].
  assert (T2 : tinv (setS c (n_state (getN c ch)) s2)). { apply (tinv_set solve cf a Hnum c _ _ mp); auto; [rewrite M2, M1; reflexivity|]. apply (away cf a Hnum c mp ch D Hn). }
  assert (S2 : ss_step s2 = k). { destruct (CoreIvl.s3_cond _ _ _ _ _ _ _ E2) as (E & _). congruence. }
  assert (G : forall x, nst (push_op (setS c (n_state (getN c ch)) s2) ch x) ch = s2).
  { intro x. unfold nst. rewrite n_state_push. change (getS (setS c (n_state (getN c ch)) s2) (n_state (getN c ch)) = s2). apply getS_set_eq. exact Hlt. }
  assert (Hlp : forall c1 x b, nN c1 = nN c -> x = NLeft k b -> left_inv (push_op c1 ch x) ch = true) by (intros c1 x b Hc1 ->; rewrite left_inv_push by lia; rewrite Nat.eqb_refl; reflexivity).
  destruct o as [[|]|].
  - destruct (fine_feasible solve Hcomp _ (live_fine solve Hsolve a _ L2)) as (f & Ef). rewrite Ef. cbn [bind]. eexists. split; [reflexivity|]. destruct f.
    + split; [apply tinv_push; exact T2|]. right. rewrite G. exact S2.
    + split; [apply tinv_push, tinv_push; exact T2|]. left. eapply Hlp; [|reflexivity]. rewrite nN_push. reflexivity.
  - eexists. split; [reflexivity|]. split; [exact T2|]. right. unfold nst. rewrite getN_setS, getS_set_eq by exact Hlt. exact S2.
  - eexists. split; [reflexivity|]. split; [apply tinv_push; exact T2|]. left. eapply Hlp; reflexivity.
Qed.

Lemma replay_tr_total c mp ch oid P pre pre' : dag mp c -> tinv c -> kq c -> ch < nN c -> oid < nO c -> o_parent (getO c oid) = Some P -> nodemode c ch = nodemode c P -> err (nodemode c ch) = false -> ss_step (nst c ch) <= o_step (getO c oid) ->
  mapb c mp pre -> (forall ch k, cnt c (pre ch) k <= cnt c (pre' ch) k) -> (forall k, o_child (getO c oid) = Some k -> cnt c (pre ch) k + 1 <= cnt c (pre' ch) k) ->
  exists c' mp', replay_tr solve cf a c mp ch oid = Ok (c', mp') /\ tinv c' /\ ss_step (nst c' ch) = o_step (getO c oid) /\ mapb c mp' pre'.
Proof.
  intros D T KQ Hn Ho Hpar Hmode He Hk HB Hmono Hnew. assert (Hlt : n_state (getN c ch) < nS c) by (destruct (d_parents _ _ _ _ D ch Hn) as (_ & _ & P3 & _); exact P3).
  assert (HB' : mapb c mp pre') by (apply (mapb_mono c c mp pre); auto).
  destruct (step_at c mp ch _ D T Hn He Hk) as (s1 & E1 & L1 & M1 & S1 & T1 & D1). unfold replay_tr. cbv zeta. fold (nst c ch). rewrite E1. cbn [bind].
  destruct (d_par _ _ _ _ D oid P Ho Hpar) as (HP & _ & t & Et & Em). rewrite Et.
  destruct (t_from0 _ _ _ T oid P t Ho Hpar Et) as [Ht Hfr]. set (sid := n_state (getN c ch)) in *. set (c1 := setS c sid s1) in *.
  assert (G1 : getS c1 sid = s1) by (apply getS_set_eq; exact Hlt). rewrite G1.
  pose proof (proj2 WH t Ht) as WT. destruct (proj2 HF t Ht) as [FG _]. assert (Hf : t_from (get_trans a t) = ss_mode s1) by congruence.
  destruct (live_wf solve Hsolve a _ L1) as (BM & nu & IEs & x & Hx & W & Hd & Hp). pose proof (live_fine solve Hsolve a _ L1) as F. pose proof (live_dims solve Hsolve a _ L1) as Hd2.
  destruct (wft_guard _ _ WT) as (g & rhs & Eg & Hg & Hr & _). pose proof (FG g rhs Eg) as Hw. rewrite Hf in Hw.
  assert (GW : guard_wf a (get_trans a t)) by (apply wft_guard; exact WT).
  destruct (guard_total solve Hsolve Hcomp (get_trans a t) (ss_lpi s1) g rhs BM nu IEs W) as (o & r & Er & F1 & Htl); [lia|exact F|exact Eg|exact Hg|lia|exact Hr|].
  rewrite Er. cbn [bind fst snd]. set (c2 := setS c1 sid (ss_with_lpi s1 (with_obj (ss_lpi s1) o))).
  assert (Hlt1 : sid < nS c1) by (unfold c1; rewrite nS_setS; exact Hlt).
  assert (L2 : live solve a (ss_with_lpi s1 (with_obj (ss_lpi s1) o))) by (apply live_obj; [exact L1|exact (proj1 (proj2 F1))]).
  assert (D2 : dag mp c2). { apply (dag_k _ _ _ c1); [exact D1|]. unfold c2. rewrite <- G1. apply keeps_lpi. }
  assert (G2 : getS c2 sid = ss_with_lpi s1 (with_obj (ss_lpi s1) o)) by (apply getS_set_eq; exact Hlt1).
  assert (T2 : tinv c2). { apply (tinv_set solve cf a Hnum c1 _ _ mp); auto; [rewrite G1; reflexivity|]. apply (away cf a Hnum c1 mp ch D1 Hn). }
  assert (N2 : n_state (getN c2 ch) = sid) by reflexivity.
  assert (S2 : ss_step (nst c2 ch) = o_step (getO c oid)) by (unfold nst; rewrite N2, G2; exact S1).
  destruct r as [tlp|]; [|exists c2, mp; auto].
  destruct (Htl tlp eq_refl) as (Ft & Hdt & _). destruct (live_api solve a _ L1) as (kk & Hap).
  assert (Hd3 : l_dims (ss_lpi s1) = m_dims (get_mode a (t_from (get_trans a t)))) by (rewrite Hf; exact Hd2).
  destruct (guard_intersection_ok solve Hsolve a _ _ _ _ _ GW Hd3 Hap Er) as (_ & Hapt & _ & Ht1 & Ht2).
  assert (E2 : exists c3, (if err (t_to (get_trans a t)) then error_reached solve cf a c2 sid t tlp else Ok c2) = Ok c3 /\ keeps c2 c3 /\ c_states c3 = c_states c2).
  { destruct (err (t_to (get_trans a t))) eqn:eqerr; [|exists c2; split; [reflexivity|split; [apply keeps_refl|reflexivity]]]. 
    assert (KQ1 : kq c1) by (intro Ec; apply (kinv_same cf a c); [exact (KQ Ec)|]; apply sg_set; eapply g_step; exact E1).
    destruct (err_guard_q solve Hsolve Hcomp cf a mp c1 ch t (with_obj (ss_lpi s1) o) tlp D1 KQ1 Hn) as (c3 & E2); [unfold nodemode; change (err (ss_mode (getS c1 sid)) = false); rewrite G1, M1; exact He|change (nst c1 ch) with (getS c1 sid); rewrite G1; exact Er|exact Ft|].
    change (n_state (getN c1 ch)) with sid in E2. change (nst c1 ch) with (getS c1 sid) in E2. rewrite G1 in E2. fold c2 in E2. exists c3. split; [exact E2|]. split; [eapply keeps_err; exact E2|].
    apply error_reached_ok in E2 as (ag & co & ce & -> & _). reflexivity. }
  destruct E2 as (c3 & E2 & K2 & ES2). rewrite E2. cbn [bind]. assert (D3 : dag mp c3) by (apply (dag_k _ _ _ c2); assumption).
  assert (G3 : forall i, getS c3 i = getS c2 i) by (intro i; unfold getS; rewrite ES2; reflexivity).
  assert (N3 : forall n, getN c3 n = getN c2 n) by (intro n; apply getN_eq; apply K2).
  assert (T3 : tinv c3). { apply (tinv_sub c2); auto; [apply K2|rewrite (k_wait _ _ K2); apply incl_refl|]. intro n. rewrite N3. reflexivity. }
  assert (H3 : ch < nN c3) by (rewrite (k_nodes _ _ K2); exact Hn).
  assert (M3 : t_from (get_trans a t) = ss_mode (getS c3 sid)) by (rewrite G3, G2; exact Hf).
  assert (NS3 : n_state (getN c3 ch) = sid) by (rewrite N3; reflexivity).
  destruct (add_total solve Hsolve Hcomp cf a WH HF Hnum c3 mp t tlp sid ch D3 T3 H3 NS3 Ht M3 Hapt Ft) as (c5 & E5 & T5 & G5); [lia|exact Ht2|].
  unfold add_transition_successor in E5. destruct (make_op_transition solve cf a c3 t tlp sid ch) as [[c4 no]|e] eqn:E4; cbn [bind] in E5 |- *; [|discriminate].
  assert (S3 : ss_step (nst c3 ch) = o_step (getO c oid)) by (unfold nst; rewrite NS3, G3, <- N2; exact S2).
  assert (Hlt3 : sid < nS c3) by (rewrite ES2; unfold c2; rewrite nS_setS; exact Hlt1).
  destruct no as [no|].
  - apply ok_inj in E5.
    assert (S5 : forall c6, c_states c6 = c_states c5 -> n_state (getN c6 ch) = sid -> ss_step (nst c6 ch) = o_step (getO c oid)).
    { intros c6 Q1 Q2. unfold nst. rewrite Q2. unfold getS at 1. rewrite Q1. change (ss_step (getS c5 sid) = o_step (getO c oid)). rewrite G5 by exact Hlt3. rewrite <- NS3. exact S3. }
    assert (N4 : n_state (getN c4 ch) = sid). { apply make_op_x in E4 as [[Q1 Q2]|[Q1 (s & ctr & _ & _ & Q2)]]; rewrite Q2; exact NS3. }
    assert (N5 : n_state (getN (push_op c4 ch (NTr no)) ch) = sid) by (rewrite n_state_push; exact N4).
    destruct (o_child (getO c oid)) as [k|] eqn:Ek.
    + eexists. eexists. split; [reflexivity|]. split; [|split].
      * apply (tinv_sub c5); [exact T5|rewrite <- E5; reflexivity|rewrite <- E5; reflexivity|rewrite <- E5|intro n; rewrite <- E5; reflexivity]. intros z Hz. apply in_or_app. left. exact Hz.
      * apply S5; [rewrite <- E5; reflexivity|exact N5].
      * apply (mapb_add c mp pre); auto.
    + eexists. eexists. split; [reflexivity|]. split; [|split; [|exact HB']].
      * apply (tinv_sub c5); [exact T5|rewrite <- E5; reflexivity|rewrite <- E5; reflexivity|rewrite <- E5; apply incl_refl|intro n; rewrite <- E5; reflexivity].
      * apply S5; [rewrite <- E5; reflexivity|exact N5].
  - apply ok_inj in E5. subst c4. exists c5, mp. split; [reflexivity|]. split; [exact T5|]. split; [|exact HB'].
    apply make_op_x in E4 as [[_ Q2]|[Q1 _]]; [|discriminate]. subst c5. exact S3.
Qed.
End WithSolver.
