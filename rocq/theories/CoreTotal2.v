(** The steps of the computation do not fail on bounded sets: guards, invariants, continuous steps (for C66). *)
From Verif Require Import Base BaseFacts LpModel LpSpec SetSpec LpUtil LpFacts LpWf SetFacts SetFacts2 MinkFacts OpsFacts OpsFacts2 OpsFacts3 OpsFacts4 AggFacts ChullFacts
  ApiSpec ApiFacts Automaton StateSet HybridSpec FlowFacts StateSpec StateFacts StateFacts2 StateFacts3 AutoFacts BuildFacts CoreModel HeapFacts Prop_Sets CoreOps CorePop CoreExt CoreDag CoreDag2 CoreDag3 CoreCont
  Bounded Bounded2 Bounded3 Bounded4 Bounded5 Bounded6 Bounded7 CoreTotal.
From Coq Require Import Lia Lqa Setoid QArith.Qabs.
Open Scope nat_scope.

Section WithSolver.
Variable solve : solver.
Hypothesis Hsolve : solver_ok solve.
Hypothesis Hcomp : solver_complete solve.
Variable arnoldi : nat -> option (list Q) -> csr -> option csr -> nat -> list (list Q).
Variable cf : cfg.
Variable a : ha.
Hypothesis WH : wf_ha a.
Hypothesis HF : fits a.
Hypothesis Hnum : 0 < cf_num cf.
Notation dag := (dag cf a).
Notation err m := (is_error (get_mode a m)).

(** what every step keeps *)
Record tinv (c : core) : Prop := {
  t_live : forall i, i < nS c -> err (ss_mode (getS c i)) = false -> live solve a (getS c i);
  t_wait : forall o, In o (c_wait c) -> exists p, in_lp (ss_lpi (pstate c o)) p;
  t_from0 : forall o p t, o < nO c -> o_parent (getO c o) = Some p -> o_trans (getO c o) = Some t -> t < List.length (ha_trans a) /\ nodemode c p = t_from (get_trans a t) }.

(** error_reached succeeds when no counter-example is built; with counter-examples this is C22's business *)
(** [J]: what is known of the computation when the guards of a node are checked, enough for the counterexample to be built *)
Variable J : nat -> core -> Prop.
Hypothesis Jerr : forall c nid t l1 tl, J nid c -> t < List.length (ha_trans a) -> t_from (get_trans a t) = ss_mode (getS c (n_state (getN c nid))) -> err (t_to (get_trans a t)) = true ->
  get_guard_intersection solve (get_trans a t) (ss_lpi (getS c (n_state (getN c nid)))) = Ok (l1, Some tl) -> lp_fine tl ->
  exists c', error_reached solve cf a (setS c (n_state (getN c nid)) (ss_with_lpi (getS c (n_state (getN c nid))) l1)) (n_state (getN c nid)) t tl = Ok c'.
Hypothesis Jstep : forall c nid t c', J nid c -> t < List.length (ha_trans a) -> t_from (get_trans a t) = ss_mode (getS c (n_state (getN c nid))) ->
  check_guards_loop solve cf a c nid (n_state (getN c nid)) [t] = Ok c' -> J nid c'.

Lemma away c mp N : dag mp c -> N < nN c -> forall o, In o (c_wait c) -> o_post (getO c o) <> n_state (getN c N).
Proof.
  intros D HN o Ho. destruct (proj2 (d_wait _ _ _ _ D) o Ho) as [Ho1 Ho2]. destruct (d_parents _ _ _ _ D N HN) as (P1 & P2 & P3 & P4 & P5).
  destruct (n_parents (getN c N)) as [|q [|q2 ps]] eqn:Ep; [congruence| |].
  - destruct (P5 q (or_introl eq_refl)) as (Q1 & Q2 & _ & _ & _ & Q3). rewrite (Q3 eq_refl). intro K. apply (d_inj _ _ _ _ D) in K; auto. subst. congruence.
  - apply P4; [cbn; lia|exact Ho1].
Qed.

Lemma tinv_set c i s mp : dag mp c -> tinv c -> ss_mode s = ss_mode (getS c i) -> (err (ss_mode s) = false -> live solve a s) -> (forall o, In o (c_wait c) -> o_post (getO c o) <> i) -> tinv (setS c i s).
Proof.
  intros D T Hm Hl Hw. constructor.
  - intros j Hj. rewrite nS_setS in Hj. destruct (Nat.eq_dec j i) as [->|N]; [rewrite getS_set_eq by exact Hj; exact Hl|rewrite getS_set_ne by exact N; apply (t_live _ T); exact Hj].
  - intros o Ho. unfold pstate. rewrite getO_setS, getS_set_ne by (apply Hw; exact Ho). apply (t_wait _ T). exact Ho.
  - intros o p t Ho Hp Ht. rewrite getO_setS in Hp, Ht. destruct (t_from0 _ T o p t Ho Hp Ht) as [K1 K2]. split; [exact K1|]. unfold nodemode in *. rewrite getN_setS.
    destruct (Nat.lt_ge_cases i (nS c)) as [Hi|Hi].
    + rewrite getS_setS by exact Hi. destruct (Nat.eqb_spec (n_state (getN c p)) i) as [E|_]; [rewrite Hm, <- E; exact K2|exact K2].
    + assert (E : n_state (getN c p) <> i). { destruct (d_par _ _ _ _ D o p Ho Hp) as (HN & _). destruct (d_parents _ _ _ _ D p HN) as (_ & _ & P3 & _). lia. } rewrite getS_set_ne by exact E. exact K2.
Qed.
Lemma tinv_same c c' : tinv c -> c_states c' = c_states c -> c_ops c' = c_ops c -> c_wait c' = c_wait c -> (forall n, n_state (getN c' n) = n_state (getN c n)) -> tinv c'.
Proof.
  intros T H1 H2 H3 H4. assert (G : forall i, getS c' i = getS c i) by (intro; unfold getS; rewrite H1; reflexivity). assert (GO : forall i, getO c' i = getO c i) by (intro; unfold getO; rewrite H2; reflexivity).
  constructor.
  - rewrite H1. intros i Hi. rewrite G. apply (t_live _ T). exact Hi.
  - rewrite H3. intros o Ho. unfold pstate. rewrite GO, G. apply (t_wait _ T). exact Ho.
  - rewrite H2. intros o p t. rewrite GO. unfold nodemode. rewrite H4, G. apply (t_from0 _ T).
Qed.
Lemma tinv_push c n x : tinv c -> tinv (push_op c n x).
Proof. intro T. apply (tinv_same c); auto; try reflexivity. intro m. apply n_state_push. Qed.
Lemma tinv_push_ops n xs : forall c, tinv c -> tinv (push_ops c n xs).
Proof. unfold push_ops. induction xs as [|x xs IH]; intros c T; cbn [fold_left]; [exact T|]. apply IH, tinv_push, T. Qed.
Lemma tinv_left c nid sid b : tinv c -> tinv (left_invariant c nid sid b).
Proof. intro T. unfold left_invariant. apply (tinv_same (push_op c nid (NLeft (ss_step (getS c sid)) b))); try reflexivity. apply tinv_push, T. Qed.

Lemma add_total c mp t tlp sid nid : dag mp c -> tinv c -> nid < nN c -> n_state (getN c nid) = sid -> t < List.length (ha_trans a) -> t_from (get_trans a t) = ss_mode (getS c sid) ->
  api solve tlp None -> lp_fine tlp -> l_dims tlp = m_dims (get_mode a (t_from (get_trans a t))) -> (exists p, in_lp tlp p) ->
  exists c', add_transition_successor solve cf a c t tlp sid nid = Ok c' /\ tinv c' /\ (forall i, i < nS c -> getS c' i = getS c i).
Proof.
  intros D T Hn Hsid Ht Hm Hap F Hd X. unfold add_transition_successor.
  destruct (make_op_total solve Hsolve Hcomp cf a WH HF c t tlp sid nid Ht Hap F Hd X) as (s' & ctr & E & Em & L & Xs & _). rewrite E. cbn [bind]. eexists. split; [reflexivity|].
  set (c1 := with_ops (with_states c (c_states c ++ [s'])) (c_ops c ++ [new_op c t sid nid ctr])).
  assert (GS : forall i, getS c1 i = if i =? nS c then s' else getS c i) by (intro i; exact (getS_add c s' i)).
  assert (GO : forall o, getO c1 o = if o =? nO c then new_op c t sid nid ctr else getO c o) by (intro o; exact (getO_add c (new_op c t sid nid ctr) o)).
  split.
  - constructor.
    + change (c_states (with_wait (push_op c1 nid (NTr (nO c))) (c_wait (push_op c1 nid (NTr (nO c))) ++ [nO c]))) with (c_states c ++ [s']). rewrite app_length. cbn [List.length]. intros i Hi.
      match goal with |- context [getS ?X i] => change (getS X i) with (getS c1 i) end. rewrite GS. destruct (Nat.eqb_spec i (nS c)) as [->|N]; [exact L|]. apply (t_live _ T). lia.
    + intros o Ho. change (In o (c_wait c ++ [nO c])) in Ho. unfold pstate.
      match goal with |- context [getS ?X (o_post (getO ?Y o))] => change (getS X (o_post (getO Y o))) with (getS c1 (o_post (getO c1 o))) end. rewrite GO, GS.
      apply in_app_or in Ho as [Ho|[<-|[]]].
      * destruct (proj2 (d_wait _ _ _ _ D) o Ho) as [K1 _]. pose proof (d_post _ _ _ _ D o K1). destruct (Nat.eqb_spec o (nO c)); [lia|]. destruct (Nat.eqb_spec (o_post (getO c o)) (nS c)); [lia|]. exact (t_wait _ T o Ho).
      * rewrite Nat.eqb_refl. cbn [new_op o_post]. rewrite Nat.eqb_refl. exact Xs.
    + intros o p t'. change (o < List.length (c_ops c ++ [new_op c t sid nid ctr]) -> o_parent (getO c1 o) = Some p -> o_trans (getO c1 o) = Some t' -> t' < List.length (ha_trans a) /\
        ss_mode (getS c1 (n_state (getN (push_op c1 nid (NTr (nO c))) p))) = t_from (get_trans a t')).
      rewrite app_length. cbn [List.length]. rewrite n_state_push, GO, GS. change (getN c1 p) with (getN c p). intros Ho Hp Htr.
      destruct (Nat.eqb_spec o (nO c)) as [->|N].
      * cbn [new_op o_parent o_trans] in Hp, Htr. injection Hp as <-. injection Htr as <-. split; [exact Ht|]. destruct (d_parents _ _ _ _ D nid Hn) as (_ & _ & P3 & _). destruct (Nat.eqb_spec (n_state (getN c nid)) (nS c)); [lia|]. rewrite Hsid. symmetry. exact Hm.
      * assert (Ho' : o < nO c) by lia. destruct (t_from0 _ T o p t' Ho' Hp Htr) as [K1 K2]. split; [exact K1|]. destruct (d_par _ _ _ _ D o p Ho' Hp) as (HN & _). destruct (d_parents _ _ _ _ D p HN) as (_ & _ & P3 & _).
        destruct (Nat.eqb_spec (n_state (getN c p)) (nS c)); [lia|]. exact K2.
  - intros i Hi. match goal with |- context [getS ?X i] => change (getS X i) with (getS c1 i) end. rewrite GS. destruct (Nat.eqb_spec i (nS c)); [lia|reflexivity].
Qed.

Lemma live_dims s : live solve a s -> l_dims (ss_lpi s) = m_dims (get_mode a (ss_mode s)).
Proof. intro L. destruct (live_wf solve Hsolve a s L) as (BM & nu & IEs & x & Hx & _ & Hd & _). rewrite (m_dims_eq _ _ Hx). exact Hd. Qed.
Lemma live_agg s : live solve a s -> (exists p, in_lp (ss_lpi s) p) -> agg_in (m_dims (get_mode a (ss_mode s))) (ss_lpi s).
Proof. intros L (p & x & Hx & _). split; [exact (live_fine solve Hsolve a s L)|]. split; [exact (live_dims s L)|]. exists x. exact Hx. Qed.
Lemma live_api s : live solve a s -> exists k, api solve (ss_lpi s) (Some k).
Proof. intros (x & S0 & _). destruct (st_api _ _ _ _ S0) as (js & K & _). eauto. Qed.

Lemma guard_one_total nid sid t c mp : dag mp c -> tinv c -> J nid c -> nid < nN c -> n_state (getN c nid) = sid -> err (ss_mode (getS c sid)) = false ->
  t < List.length (ha_trans a) -> t_from (get_trans a t) = ss_mode (getS c sid) -> exists c', check_guards_loop solve cf a c nid sid [t] = Ok c' /\ tinv c'.
Proof.
  intros D T HJ Hn Hsid He Ht Hf. cbn [check_guards_loop]. pose proof (proj2 WH t Ht) as WT. destruct (proj2 HF t Ht) as [FG _].
  assert (Hlt : sid < nS c) by (destruct (d_parents _ _ _ _ D nid Hn) as (_ & _ & P3 & _); lia).
  pose proof (t_live _ T sid Hlt He) as L. destruct (live_wf solve Hsolve a _ L) as (BM & nu & IEs & x & Hx & W & Hd & Hp). pose proof (live_fine solve Hsolve a _ L) as F. pose proof (live_dims _ L) as Hd2.
  destruct (wft_guard _ _ WT) as (g & rhs & Eg & Hg & Hr & _). pose proof (FG g rhs Eg) as Hw. rewrite Hf in Hw.
  assert (GW : guard_wf a (get_trans a t)) by (apply wft_guard; exact WT).
  destruct (guard_total solve Hsolve Hcomp (get_trans a t) (ss_lpi (getS c sid)) g rhs BM nu IEs W) as (o & r & Er & F1 & Htl); [lia|exact F|exact Eg|exact Hg|lia|exact Hr|].
  rewrite Er. cbn [bind fst snd]. set (c1 := setS c sid (ss_with_lpi (getS c sid) (with_obj (ss_lpi (getS c sid)) o))).
  assert (K1 : keeps c c1) by apply keeps_lpi. assert (D1 : dag mp c1) by (apply (dag_k _ _ _ c); assumption).
  assert (Eg1 : getS c1 sid = ss_with_lpi (getS c sid) (with_obj (ss_lpi (getS c sid)) o)) by (apply getS_set_eq; exact Hlt).
  assert (L1 : live solve a (getS c1 sid)) by (rewrite Eg1; apply live_obj; [exact L|exact (proj1 (proj2 F1))]).
  assert (T1 : tinv c1). { apply (tinv_set c sid _ mp); auto; [intros _; rewrite <- Eg1; exact L1|]. rewrite <- Hsid. apply (away c mp nid D Hn). }
  assert (M1 : ss_mode (getS c1 sid) = ss_mode (getS c sid)) by (rewrite Eg1; reflexivity).
  assert (N1 : n_state (getN c1 nid) = sid) by exact Hsid. assert (H1 : nid < nN c1) by exact Hn.
  assert (S1 : sid < nS c1) by (unfold c1; rewrite nS_setS; exact Hlt).
  destruct r as [tlp|]; [|eauto].
  destruct (Htl tlp eq_refl) as (Ft & Hdt & _).
  destruct (live_api _ L) as (kk & Hap). assert (Hd3 : l_dims (ss_lpi (getS c sid)) = m_dims (get_mode a (t_from (get_trans a t)))) by (rewrite Hf; exact Hd2).
  destruct (guard_intersection_ok solve Hsolve a _ _ _ _ _ GW Hd3 Hap Er) as (_ & Hapt & _ & Ht1 & Ht2).
  assert (E2 : exists c2, (if err (t_to (get_trans a t)) then error_reached solve cf a c1 sid t tlp else Ok c1) = Ok c2 /\ keeps c1 c2 /\ c_states c2 = c_states c1).
  { destruct (err (t_to (get_trans a t))) eqn:eqerr; [|exists c1; split; [reflexivity|split; [apply keeps_refl|reflexivity]]]. rewrite <- Hsid in Er, Hf. destruct (Jerr c nid t _ tlp HJ Ht Hf eqerr Er Ft) as (c2 & E2). rewrite Hsid in E2. fold c1 in E2. exists c2. split; [exact E2|]. split; [eapply keeps_err; exact E2|].
    apply error_reached_ok in E2 as (ag & co & ce & -> & _). reflexivity. }
  destruct E2 as (c2 & E2 & K2 & ES2). rewrite E2. cbn [bind].
  assert (D2 : dag mp c2) by (apply (dag_k _ _ _ c1); assumption).
  assert (G2 : forall i, getS c2 i = getS c1 i) by (intro i; unfold getS; rewrite ES2; reflexivity).
  assert (T2 : tinv c2). { apply (tinv_same c1); auto; [apply K2|apply K2|]. intro n. rewrite (getN_eq _ _ n (k_nodes _ _ K2)). reflexivity. }
  assert (H2 : nid < nN c2) by (rewrite (k_nodes _ _ K2); exact H1). assert (N2 : n_state (getN c2 nid) = sid) by (rewrite (getN_eq _ _ nid (k_nodes _ _ K2)); exact N1).
  match goal with |- context [if ?b then Ok c2 else _] => destruct b end; [eauto|].
  assert (Hm2 : t_from (get_trans a t) = ss_mode (getS c2 sid)) by (rewrite G2, M1; exact Hf).
  destruct (add_total c2 mp t tlp sid nid D2 T2 H2 N2 Ht Hm2 Hapt Ft) as (c3 & E3 & T3 & G3); [lia|exact Ht2|]. rewrite E3. cbn [bind].
  destruct (dag_add _ _ _ _ _ _ _ _ _ _ D2 H2 E3) as [D3 P3].
  assert (X3 : ext c2 c3) by (eapply ext_add; exact E3).
  assert (S2 : sid < nS c2) by (rewrite ES2; exact S1).
  assert (H3 : nid < nN c3) by (rewrite (pf_nN _ _ P3); exact H2). assert (N3 : n_state (getN c3 nid) = sid) by (rewrite (proj1 (ex_node _ _ X3 nid H2)); exact N2).
  assert (Q3 : getS c3 sid = getS c1 sid) by (rewrite G3 by exact S2; apply G2).
  destruct (cf_tt cf && t_tt (get_trans a t)); [|cbn [bind]; eauto].
  assert (NE : exists p, in_lp (ss_lpi (getS c3 sid)) p).
  { rewrite Q3, Eg1. cbn [ss_with_lpi ss_lpi]. destruct Ht2 as (p & Hp2). exists p. apply in_lp_with_obj. apply Ht1. exact Hp2. }
  assert (A3 : agg_in (m_dims (get_mode a (t_from (get_trans a t)))) (ss_lpi (getS c3 sid))). { rewrite Hf, <- M1, <- Q3. apply live_agg; [rewrite Q3; exact L1|exact NE]. }
  destruct (was_tt_total solve Hsolve Hcomp cf a WH HF Hnum t _ Ht A3) as (ow & bw & Ew & Ow). rewrite Ew. cbn [bind fst snd].
  set (c4 := setS c3 sid (ss_with_lpi (getS c3 sid) (with_obj (ss_lpi (getS c3 sid)) ow))).
  assert (K4 : keeps c3 c4) by apply keeps_lpi. assert (D4 : dag mp c4) by (apply (dag_k _ _ _ c3); assumption).
  assert (S3 : sid < nS c3) by (pose proof (ex_nS _ _ X3); lia).
  assert (Eg4 : getS c4 sid = ss_with_lpi (getS c3 sid) (with_obj (ss_lpi (getS c3 sid)) ow)) by (apply getS_set_eq; exact S3).
  assert (T4 : tinv c4). { apply (tinv_set c3 sid _ mp); auto; [|rewrite <- N3; apply (away c3 mp nid D3 H3)]. intros _. apply live_obj; [rewrite Q3; exact L1|exact Ow]. }
  assert (M4 : ss_mode (getS c4 sid) = ss_mode (getS c sid)) by (rewrite Eg4; cbn [ss_with_lpi ss_mode]; rewrite Q3; exact M1).
  assert (N4 : n_state (getN c4 nid) = sid) by exact N3. assert (H4 : nid < nN c4) by exact H3.
  destruct bw; [|eauto]. eexists. split; [reflexivity|]. apply (tinv_same c4); auto.
Qed.

Lemma loop_cons c nid sid t ts c1 : check_guards_loop solve cf a c nid sid [t] = Ok c1 ->
  check_guards_loop solve cf a c nid sid (t :: ts) = check_guards_loop solve cf a c1 nid sid ts \/ check_guards_loop solve cf a c nid sid (t :: ts) = Ok c1.
Proof.
  cbn [check_guards_loop]. destruct (get_guard_intersection _ _ _) as [[l1 r]|e]; cbn [bind fst snd]; [|discriminate].
  destruct r as [tlp|]; [|intro H; apply ok_inj in H; subst c1; left; reflexivity].
  match goal with |- (bind ?X _ = _ -> _) => destruct X as [c2|e2]; cbn [bind]; [|discriminate] end.
  match goal with |- ((if ?b then _ else _) = _ -> _) => destruct b end; [auto|].
  match goal with |- (bind ?X _ = _ -> _) => destruct X as [c3|e3]; cbn [bind]; [|discriminate] end.
  match goal with |- (bind ?X _ = _ -> _) => destruct X as [c4|e4]; cbn [bind]; [|discriminate] end.
  intro H. apply ok_inj in H. subst c1. left. reflexivity.
Qed.

Lemma guards_total nid sid ts : forall c mp, dag mp c -> tinv c -> J nid c -> nid < nN c -> n_state (getN c nid) = sid -> err (ss_mode (getS c sid)) = false ->
  (forall t, In t ts -> t < List.length (ha_trans a) /\ t_from (get_trans a t) = ss_mode (getS c sid)) -> exists c', check_guards_loop solve cf a c nid sid ts = Ok c' /\ tinv c'.
Proof.
  induction ts as [|t ts IH]; intros c mp D T HJ Hn Hsid He Hts; [cbn [check_guards_loop]; eauto|].
  destruct (Hts t (or_introl eq_refl)) as [Ht Hf]. destruct (guard_one_total nid sid t c mp D T HJ Hn Hsid He Ht Hf) as (c1 & E1 & T1).
  destruct (loop_cons c nid sid t ts c1 E1) as [E|E]; rewrite E; [|eauto].
  assert (Hlt : sid < nS c) by (destruct (d_parents _ _ _ _ D nid Hn) as (_ & _ & P3 & _); lia).
  destruct (dag_guards _ _ _ mp _ _ _ _ _ D Hn E1) as [D1 P1]. pose proof (ext_guards _ _ _ _ _ _ _ _ E1) as X1.
  assert (M1 : ss_mode (getS c1 sid) = ss_mode (getS c sid)) by (apply (ex_mode _ _ X1); exact Hlt).
  assert (N1 : n_state (getN c1 nid) = sid) by (rewrite (proj1 (ex_node _ _ X1 nid Hn)); exact Hsid).
  apply (IH c1 mp); auto.
  - rewrite <- Hsid in Hf, E1. exact (Jstep c nid t c1 HJ Ht Hf E1).
  - rewrite (pf_nN _ _ P1). exact Hn.
  - rewrite M1. exact He.
  - intros t' Ht'. rewrite M1. apply Hts. right. exact Ht'.
Qed.

Lemma out_ok m t : In t (out_trans a m) -> t < List.length (ha_trans a) /\ t_from (get_trans a t) = m.
Proof. intro H. apply out_trans_spec in H. exact H. Qed.

Lemma intersect_state_total c mp nid : dag mp c -> tinv c -> nid < nN c -> err (ss_mode (getS c (n_state (getN c nid)))) = false ->
  exists c' ok, intersect_state solve a c nid (n_state (getN c nid)) = Ok (c', ok) /\ tinv c'.
Proof.
  intros D T Hn He. set (sid := n_state (getN c nid)) in *. assert (Hlt : sid < nS c) by (destruct (d_parents _ _ _ _ D nid Hn) as (_ & _ & P3 & _); exact P3).
  unfold intersect_state. destruct (intersect_total solve Hsolve Hcomp a (getS c sid) WH (t_live _ T sid Hlt He)) as (s' & ops & ok & E & L & M). rewrite E. cbn [bind]. eexists. exists ok. split; [reflexivity|].
  apply tinv_push_ops. apply (tinv_set c sid _ mp); auto. apply (away c mp nid D Hn).
Qed.

Lemma cont_total c nid : dag (rep_map c) c -> tinv c -> (forall c1 s1, ss_lo (getS c (n_state (getN c nid))) < cf_num cf -> intersect_state solve a c nid (n_state (getN c nid)) = Ok (c1, true) ->
    ss_step1 a (getS c1 (n_state (getN c nid))) = Ok s1 -> J nid (setS c1 (n_state (getN c nid)) s1)) -> nid < nN c -> err (ss_mode (getS c (n_state (getN c nid)))) = false -> exists c', continuous_post solve cf a c nid (n_state (getN c nid)) = Ok c' /\ tinv c'.
Proof.
  intros D T HJ Hn He. set (sid := n_state (getN c nid)) in *. unfold continuous_post.
  destruct (Nat.leb_spec (cf_num cf) (ss_lo (getS c sid))) as [Hl|Hl]; [eexists; split; [reflexivity|apply tinv_left; exact T]|].
  destruct (c_tt c); [eexists; split; [reflexivity|apply tinv_left; apply (tinv_same c); auto]|].
  destruct (intersect_state_total c _ nid D T Hn He) as (c1 & ok & E1 & T1). fold sid in E1. rewrite E1. cbn [bind].
  destruct ok; cbn [negb]; [|eexists; split; [reflexivity|apply tinv_left; exact T1]].
  destruct (dag_intersect _ _ _ _ _ _ _ _ _ D E1) as [D1 P1]. pose proof (ext_intersect _ _ _ _ _ _ _ E1) as X1.
  assert (Hlt : sid < nS c) by (destruct (d_parents _ _ _ _ D nid Hn) as (_ & _ & P3 & _); exact P3). pose proof (ex_nS _ _ X1) as Hns.
  assert (M1 : ss_mode (getS c1 sid) = ss_mode (getS c sid)) by (apply (ex_mode _ _ X1); exact Hlt).
  assert (N1 : n_state (getN c1 nid) = sid) by (apply (ex_node _ _ X1); exact Hn). assert (H1 : nid < nN c1) by (rewrite (pf_nN _ _ P1); exact Hn).
  assert (L1 : live solve a (getS c1 sid)) by (apply (t_live _ T1); [lia|rewrite M1; exact He]).
  destruct (step_total solve Hsolve a (getS c1 sid) (Datatypes.S (ss_step (getS c1 sid))) WH (fun m Hm => proj1 (proj1 HF m Hm)) L1) as (s2 & E2 & L2 & M2); [lia|].
  change (ss_step1 a (getS c1 sid) = Ok s2) in E2. rewrite E2. cbn [bind]. set (c2 := setS c1 sid s2). assert (F2 : frame2 (getS c1 sid) s2) by (eapply f2_step; exact E2).
  assert (K2 : keeps c1 c2) by (apply keeps_set; exact F2). assert (D2 : dag (rep_map c) c2) by (apply (dag_k _ _ _ c1); assumption).
  assert (T2 : tinv c2). { apply (tinv_set c1 sid _ (rep_map c)); auto. rewrite <- N1. apply (away c1 _ nid D1 H1). }
  assert (G2 : getS c2 sid = s2) by (apply getS_set_eq; lia).
  unfold check_guards. destruct (guards_total nid sid (out_trans a (ss_mode (getS c2 sid))) c2 (rep_map c) D2 T2) as (c3 & E3 & T3); [exact (HJ c1 s2 Hl E1 E2)|exact H1|exact N1|rewrite G2, M2, M1; exact He|intros t Ht; apply out_ok; exact Ht|].
  rewrite E3. cbn [bind]. destruct (is_error_a _ He) as (x & Hx). rewrite Hx. destruct (_ && _); eexists; (split; [reflexivity|]); [apply tinv_left|]; exact T3.
Qed.
End WithSolver.
