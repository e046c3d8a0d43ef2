(** The invariant of Core.do_step, and what it says when the computation is finished. *)
From Verif Require Import Base BaseFacts LpModel LpSpec SetSpec LpUtil LpFacts ChullFacts ApiSpec ApiFacts Automaton StateSet HybridSpec FlowFacts StateSpec
  StateFacts StateFacts2 StateFacts3 AutoFacts CoreModel HeapFacts CoreOps CoreGhost CoreHeap CoreInv CoreStep CoreCont CorePop CoreReplay CoreDeagg CoreSplit CoreMono CoreFlag CoreExt.
Open Scope nat_scope.

Section Final.
Variable solve : solver.
Hypothesis Hsolve : solver_ok solve.
Variable arnoldi : nat -> option (list Q) -> csr -> option csr -> nat -> list (list Q).
Variable cf : cfg.
Variable a : ha.
Hypothesis WH : wf_ha a.
Variable ru : rules.
Variable I0 : nat -> vec -> Prop.
Notation base := (base solve cf a ru I0).
Notation none := (fun _ : nat => False).

Definition inv_a (D : nat -> Prop) (c : core) : Prop :=
  c_cur c = None /\ c_rep c = None /\ base D none [] c /\ (c_dwait c <> [] -> dg cf = true).
Definition inv_b (D : nat -> Prop) (c : core) : Prop :=
  exists N, c_cur c = Some N /\ c_rep c = None /\ c_dwait c = [] /\ base D (eq N) [] c /\ curr a ru I0 c N.
Definition inv_c (D : nat -> Prop) (c : core) : Prop :=
  c_cur c = None /\ dg cf = true /\ exists rp, c_rep c = Some rp /\ rep_ok solve cf a ru I0 D c rp.
Definition INV (c : core) : Prop := exists D, inv_a D c \/ inv_b D c \/ inv_c D c.

Lemma curr_same c c' N : heap_ok solve a ru I0 c -> c_states c' = c_states c -> c_ops c' = c_ops c -> c_nodes c' = c_nodes c -> c_tt c' = c_tt c -> curr a ru I0 c N -> curr a ru I0 c' N.
Proof.
  intros H Es Eo En Et [K1 K2 K3 K4]. pose proof (heap_closed _ _ _ _ _ H) as HC. assert (E : ext c c') by (apply ext_same; auto).
  assert (EN : nst c' N = nst c N) by (unfold nst, getS, getN; rewrite Es, En; reflexivity).
  assert (HN := ac_N _ _ _ _ _ _ K1).
  assert (Eops : n_ops (getN c' N) = n_ops (getN c N)) by (unfold getN; rewrite En; reflexivity).
  constructor; rewrite ?EN.
  - apply (active_ext solve a ru I0 c c'); auto.
  - intros k t Hk Ht. apply (enabled_ext a ru I0 c c') in Ht; auto. apply (taken_ext c c'); auto. intros o Ho. apply (h_ntr _ _ _ _ _ H N o HN Ho).
  - rewrite (nmode_ext c c' N HC E HN). exact K3.
  - rewrite Et. intro K. apply (dead_ext a ru I0 c c'); auto. rewrite EN. reflexivity.
Qed.

(** ** which node is deaggregated *)
Lemma deagg_scan_some c : forall w seen rv n, deagg_scan a c w seen rv = Ok (Some n) ->
  rv = Some n \/ exists o, In o w /\ o_parent (getO c o) = Some n.
Proof.
  induction w as [|o w IH]; intros seen rv n H; cbn [deagg_scan] in H; [left; apply ok_inj in H; exact H|].
  destruct (ss_conc (pstate c o)); [destruct (IH _ _ _ H) as [K|(o' & K1 & K2)]; [auto|right; exists o'; split; [right; exact K1|exact K2]]|].
  destruct (o_parent (getO c o)) as [p|] eqn:Ep; [|discriminate].
  assert (G : forall seen rv1, (rv1 = rv \/ rv1 = Some p) -> deagg_scan a c w seen rv1 = Ok (Some n) -> rv = Some n \/ exists o', In o' (o :: w) /\ o_parent (getO c o') = Some n).
  { intros seen' rv1 Hr K. destruct (IH _ _ _ K) as [L|(o' & L1 & L2)].
    - destruct Hr as [->| ->]; [auto|]. right. exists o. split; [left; reflexivity|]. congruence.
    - right. exists o'. split; [right; exact L1|exact L2]. }
  destruct (find _ seen) as [[? t]|].
  - eapply G; [|exact H]. destruct (onat_eqb _ _); [|auto]. destruct (is_error _); auto.
  - apply bind_ok in H as (? & _ & H). eapply G; [|exact H]. destruct (is_error _); auto.
Qed.
Lemma deagg_scan_none c : forall w seen rv, deagg_scan a c w seen rv = Ok None ->
  rv = None /\ forall o, In o w -> ss_conc (pstate c o) = false -> err a (pmode c o) = false.
Proof.
  induction w as [|o w IH]; intros seen rv H; cbn [deagg_scan] in H; [apply ok_inj in H; split; [exact H|intros o []]|].
  destruct (ss_conc (pstate c o)) eqn:Ec.
  { destruct (IH _ _ H) as [K1 K2]. split; [exact K1|]. intros o' [<-|Ho] Hc; [congruence|auto]. }
  destruct (o_parent (getO c o)) as [p|] eqn:Ep; [|discriminate].
  set (rv1 := if is_error (get_mode a (ss_mode (pstate c o))) then Some p else rv) in *.
  assert (G : rv1 = None -> (forall o, In o w -> ss_conc (pstate c o) = false -> err a (pmode c o) = false) ->
     rv = None /\ forall o', In o' (o :: w) -> ss_conc (pstate c o') = false -> err a (pmode c o') = false).
  { intros K1 K2. subst rv1. change (ss_mode (pstate c o)) with (pmode c o) in K1. change (is_error (get_mode a (pmode c o))) with (err a (pmode c o)) in K1.
    destruct (err a (pmode c o)) eqn:E1; [discriminate|]. split; [exact K1|]. intros o' [<-|Ho] Hc; auto. }
  destruct (find _ seen) as [[? t]|].
  - destruct (onat_eqb _ _); [|destruct (IH _ _ H) as [K _]; discriminate]. destruct (IH _ _ H) as [K1 K2]. auto.
  - apply bind_ok in H as (? & _ & H). destruct (IH _ _ H) as [K1 K2]. auto.
Qed.
Lemma ins_stable_in c x l y : In y (ins_stable c x l) -> y = x \/ In y l.
Proof.
  induction l as [|z l IH]; cbn [ins_stable]; [intros [<-|[]]; auto|]. destruct (_ <=? _).
  - intros [<-|H]; [right; left; auto|]. destruct (IH H); [auto|right; right; auto].
  - intros [<-|H]; auto.
Qed.
Lemma sort_in c l y : In y (sort_nodes c l) -> In y l.
Proof.
  unfold sort_nodes. assert (G : forall l0 acc, In y (fold_left (fun acc x => ins_stable c x acc) l0 acc) -> In y acc \/ In y l0).
  { induction l0 as [|x l' IH]; intros acc H; [auto|]. cbn [fold_left] in H. destruct (IH _ H) as [K|K]; [apply ins_stable_in in K as [->|K]; [right; left; auto|auto]|right; right; auto]. }
  intro H. destruct (G _ _ H) as [[]|]; auto.
Qed.
(** error modes have no outgoing transitions *)
Lemma op_noerr c o M : heap_ok solve a ru I0 c -> o < nO c -> o_parent (getO c o) = Some M -> err a (nmode c M) = false.
Proof.
  intros H Ho Hp. pose proof (h_op _ _ _ _ _ H o Ho) as K. unfold op_ok in K. rewrite Hp in K. destruct K as (_ & _ & t & _ & Ht & Hf & _).
  destruct (wft_from _ _ (proj2 WH t Ht)) as [_ K]. unfold err. rewrite <- Hf. exact K.
Qed.
Lemma ancestors_noerr D c : base D none [] c -> forall fuel n l, n < nN c -> err a (nmode c n) = false -> get_ancestors fuel c n = Ok l -> forall M, In M l -> err a (nmode c M) = false.
Proof.
  intro B. pose proof (b_heap _ _ _ _ _ _ _ _ _ B) as HH. destruct (heap_closed _ _ _ _ _ HH) as [HC1 HC2].
  induction fuel as [|f IH]; intros n l HN He H M HM; cbn [get_ancestors] in H; [discriminate|].
  destruct (n_parents (getN c n)) as [|o ps] eqn:Ep; [discriminate|]. destruct (o_parent (getO c o)) as [p|] eqn:Eo.
  - apply bind_ok in H as (r & Hr & H). apply ok_inj in H. subst l. assert (Ho : o < nO c) by (apply (HC1 n HN); rewrite Ep; left; auto).
    apply in_app_or in HM as [HM|[<-|[]]]; [|exact He]. apply (IH p r); auto; [apply (HC2 o p Ho Eo)|apply (op_noerr c o p HH Ho Eo)].
  - apply ok_inj in H. subst l. destruct HM as [<-|[]]. exact He.
Qed.
Lemma deagg_node_some D c n : base D none [] c -> get_deagg_node cf a c = Ok (Some n) -> dg cf = true /\ n < nN c /\ ~ D n /\ err a (nmode c n) = false.
Proof.
  intros B H. unfold get_deagg_node in H. unfold dg. destruct (cf_strat cf) as [g|]; [|discriminate]. destruct (ag_deagg g) eqn:Ed; [|discriminate]. cbn [negb] in H.
  split; [reflexivity|]. apply bind_ok in H as (rv & Hrv & H). destruct rv as [p|]; [|discriminate]. apply bind_ok in H as (anc & Hanc & H).
  destruct (deagg_scan_some _ _ _ _ _ Hrv) as [K|(o & Ho & Hp)]; [discriminate|].
  destruct (proj2 (b_wait _ _ _ _ _ _ _ _ _ B) o Ho) as (Ho1 & _ & Ho3).
  assert (Hpn : p < nN c) by (apply (proj2 (heap_closed _ _ _ _ _ (b_heap _ _ _ _ _ _ _ _ _ B)) o p Ho1 Hp)).
  match type of H with match ?l with [] => _ | _ => _ end = _ => destruct l as [|m l'] eqn:El; [discriminate|] end.
  apply ok_inj in H. injection H as <-. assert (Hm : In m (m :: l')) by (left; auto). rewrite <- El in Hm. apply filter_In in Hm as [Hm _].
  assert (Hm' : In m anc) by (destruct (ag_pref g); [apply in_rev; auto|auto|]; apply (sort_in c); apply in_rev; auto).
  destruct (ancestors_live solve cf a ru I0 D none [] c B _ p anc Hpn (Ho3 p Hp) Hanc m Hm') as [Q1 Q2]. split; [exact Q1|]. split; [exact Q2|].
  apply (ancestors_noerr D c B _ p anc Hpn) with (2 := Hanc); auto. apply (op_noerr c o p); auto. apply (b_heap _ _ _ _ _ _ _ _ _ B).
Qed.
Lemma deagg_node_none c : get_deagg_node cf a c = Ok None -> dg cf = true -> forall o, In o (c_wait c) -> ss_conc (pstate c o) = false -> err a (pmode c o) = false.
Proof.
  intros H Hd. unfold get_deagg_node in H. unfold dg in Hd. destruct (cf_strat cf) as [g|]; [|discriminate]. rewrite Hd in H. cbn [negb] in H.
  apply bind_ok in H as (rv & Hrv & H). destruct rv as [p|].
  - apply bind_ok in H as (anc & Hanc & H). match type of H with match ?l with [] => _ | _ => _ end = _ => destruct l; discriminate end.
  - apply (deagg_scan_none c _ _ _ Hrv).
Qed.

Hypothesis Hinp : forall m, m < List.length (ha_modes a) -> m_b (get_mode a m) <> None -> m_inv (get_mode a m) = [].
Variable Cz : core.
Hypothesis Hstuck : forall c N t l g rhs k x n u x', heap_ok solve a ru I0 c -> ext Cz c -> t < List.length (ha_trans a) -> cf_tt cf && t_tt (get_trans a t) = true -> t_from (get_trans a t) = nmode c N -> t_guard (get_trans a t) = Some (g, rhs) ->
  tt_row (get_mode a (nmode c N)) l (2 * cf_step cf / inject_Z (Z.of_nat (cf_num cf)) / 1000) (c_rows g) rhs -> in_lp l x -> Tn a ru I0 c N k x n ->
  inv_ok 0 (get_mode a (nmode c N)) x -> input_ok (get_mode a (nmode c N)) u -> one_step (get_mode a (nmode c N)) x u x' -> stuck a ru (nmode c N) x'.
Hypothesis Hpath : forall g, cf_strat cf = Some g -> ag_deagg g = true -> ag_path g = true.
Hypothesis Hbound : ru_bound ru = cf_num cf.
Hypothesis Hurg : ru_urgent ru = cf_urgent cf.
Hypothesis Hcap : forall m x, m_a (get_mode a m) = Some x -> ru_cap ru m = (nnz x =? 0) && cf_skip0 cf.

Lemma do_step_ok c c' : ext Cz c -> INV c -> (c_cur c = None -> c_tt c = false) -> ~ bad cf c -> do_step solve arnoldi cf a c = Ok c' -> bad cf c' \/ INV c'.
Proof.
  intros Hz (D & HI) Hct Hb H. unfold do_step in H. destruct (is_finished cf c) eqn:Ef; [apply ok_inj in H; subst; right; exists D; exact HI|].
  assert (Hrep : forall D c, dg cf = true -> c_cur c = None -> (c_rep c = None /\ base D none [] c \/ exists rp, c_rep c = Some rp /\ rep_ok solve cf a ru I0 D c rp) ->
            do_step_replay solve arnoldi cf a c = Ok c' -> INV c').
  { intros D1 c1 Hd Hc K1 K2. destruct (do_step_replay_ok solve Hsolve arnoldi cf a WH ru I0 Hinp D1 c1 c' Hd K1 K2) as [L1 [[L2 L3]|L2]].
    - exists D1. left. split; [congruence|]. split; [exact L2|]. split; [exact L3|auto].
    - exists D1. right. right. split; [congruence|]. split; [exact Hd|exact L2]. }
  destruct HI as [(Hc & Hr & B & Hd)|[(N & Hc & Hr & Hdw & B & Hcu)|(Hc & Hd & rp & Hr & HR)]].
  - unfold cur_state in H at 1. rewrite Hc in H. unfold doing_replay in H. rewrite Hr in H. destruct (c_dwait c) as [|p dw] eqn:Edw.
    2:{ right. apply (Hrep D c); auto. apply Hd. discriminate. }
    apply bind_ok in H as (dn & Hdn & H). destruct dn as [n|].
    + apply bind_ok in H as (c1 & H1 & H). destruct (deagg_node_some D c n B Hdn) as (K1 & K2 & K3 & K4).
      destruct (begin_replay_ok solve Hsolve arnoldi cf a WH ru I0 D c n c1 K1 B Edw K2 K3 K4 H1) as (L1 & L2 & D' & L3).
      right. apply (Hrep D' c1); auto; [congruence|]. left. split; [congruence|exact L3].
    + apply bind_ok in H as (c1 & H1 & H).
      assert (PC : pop_cond cf a c).
      { intros Hdg o Ho Hp He. destruct (ss_conc (pstate c o)) eqn:Ec; [reflexivity|]. rewrite (deagg_node_none c Hdn Hdg o Ho Ec) in He. discriminate. }
      destruct (pop_step_ok solve Hsolve arnoldi cf a WH Hpath ru I0 Cz Hstuck Hbound Hurg D c c1 c' (ext_trans _ _ _ Hz (ext_step_pop solve arnoldi cf a _ _ H1)) B PC ltac:(rewrite (tts_step_pop _ _ _ _ _ _ H1); auto) H1 H) as [K|(K1 & K2 & [(N & L1 & L2 & L3)|(L1 & L2)])]; [left; exact K| |].
      * right. exists D. right. left. exists N. split; [exact L1|]. split; [congruence|]. split; [congruence|]. auto.
      * right. exists D. left. split; [exact L1|]. split; [congruence|]. split; [exact L2|]. intro K. exfalso. apply K. congruence.
  - rewrite (cur_ops_state c N Hc (active_left _ _ _ _ _ _ (cu_act _ _ _ _ _ Hcu))) in H.
    apply bind_ok in H as (c1 & H1 & H). apply ok_inj in H. subst c'.
    destruct (continuous_post_ok solve Hsolve cf a WH Hinp ru I0 Cz Hstuck Hbound Hcap D [] c N c1 Hz B Hc Hcu H1) as [K|(K1 & K2 & [(L1 & L2 & L3)|(L1 & L2 & L3)])]; [left; exact K| |].
    + right. exists D. right. left. exists N. split; [exact L1|]. split; [cbn [c_rep with_csteps]; congruence|]. split; [cbn [c_dwait with_csteps]; congruence|]. split.
      * apply (base_same _ _ _ _ _ D (eq N) [] c1); auto.
      * apply (curr_same c1); auto. apply (b_heap _ _ _ _ _ _ _ _ _ L2).
    + right. exists D. left. split; [exact L1|]. split; [cbn [c_rep with_csteps]; congruence|]. split.
      * apply (base_same _ _ _ _ _ D none [] c1); auto.
      * intro K. exfalso. apply K. cbn [c_dwait with_csteps]. congruence.
  - unfold cur_state in H at 1. rewrite Hc in H. unfold doing_replay in H. rewrite Hr in H. right. apply (Hrep D c); auto. right. eauto.
Qed.

Lemma bad_mono c c' : mono c c' -> bad cf c -> bad cf c'.
Proof. intros [K1 K2] [[H0 H]|[H1 H2]]; [left; auto|right; auto]. Qed.

(** [P]: a property of all states of the run that excludes a raised flag without a current node *)
Variable P : core -> Prop.
Hypothesis HPs : forall c c', P c -> do_step solve arnoldi cf a c = Ok c' -> P c'.
Hypothesis HPz : forall c, P c -> ext Cz c.
Hypothesis HPc : forall c, P c -> c_cur c = None -> c_tt c = false.
Lemma run_loop_ok fuel : forall c r, INV c -> P c -> ~ bad cf r -> run_loop solve arnoldi cf a fuel c = Some (Ok r) -> INV r /\ is_finished cf r = true.
Proof.
  induction fuel as [|f IH]; intros c r HI HP Hb H; pose proof (mono_run _ _ _ _ _ _ _ H) as HM; cbn [run_loop] in H; destruct (is_finished cf c) eqn:Ef.
  - injection H as <-. auto.
  - discriminate.
  - injection H as <-. auto.
  - destruct (do_step solve arnoldi cf a c) as [c1|e] eqn:E1; [|discriminate]. apply (IH c1 r); auto; [|eapply HPs; eauto].
    destruct (do_step_ok c c1 (HPz c HP) HI (HPc c HP)) as [K|K]; auto; [intro K; apply Hb; apply (bad_mono c); auto|].
    exfalso. apply Hb. apply (bad_mono c1); auto. apply (mono_run _ _ _ _ _ _ _ H).
Qed.

Lemma finished_done r : INV r -> ~ bad cf r -> is_finished cf r = true ->
  exists D, base D none [] r /\ c_wait r = [] /\ c_dwait r = [] /\ (forall N, N < nN r -> done a ru I0 r N).
Proof.
  intros (D & HI) Hb Hf. unfold is_finished in Hf.
  destruct (cf_stop_agg cf && c_aggerr r) eqn:E1; [apply andb_true_iff in E1; exfalso; apply Hb; right; tauto|].
  destruct (cf_stop_conc cf && c_concerr r) eqn:E2; [apply andb_true_iff in E2; exfalso; apply Hb; left; tauto|].
  destruct HI as [(Hc & Hr & B & Hd)|[(N & Hc & Hr & Hdw & B & Hcu)|(Hc & Hd & rp & Hr & HR)]].
  - unfold cur_state in Hf. rewrite Hc in Hf. apply andb_true_iff in Hf as [Hw Hf]. unfold doing_replay in Hf. rewrite Hr in Hf. destruct (c_dwait r) eqn:Edw; [|discriminate].
    apply Nat.eqb_eq in Hw. exists D. split; [exact B|]. split; [destruct (c_wait r); [reflexivity|discriminate]|]. split; [reflexivity|].
    intros N HN. destruct (b_nodes _ _ _ _ _ _ _ _ _ B N HN) as [K|K]; auto. unfold dpend in K. rewrite Edw in K. destruct K.
  - rewrite (cur_ops_state r N Hc (active_left _ _ _ _ _ _ (cu_act _ _ _ _ _ Hcu))) in Hf. discriminate.
  - unfold cur_state in Hf. rewrite Hc in Hf. apply andb_true_iff in Hf as [_ Hf]. unfold doing_replay in Hf. rewrite Hr in Hf. discriminate.
Qed.

(** ** every execution is covered *)
Variable init : nat -> vec -> Prop.
Section Cover.
Variable r : core.
Variable D : nat -> Prop.
Hypothesis B : base D none [] r.
Hypothesis Hw : c_wait r = [].
Hypothesis Hdone : forall N, N < nN r -> done a ru I0 r N.
Hypothesis Hinit : forall m x, err a m = false -> init m x -> inv_ok 0 (get_mode a m) x -> exists o, o < nO r /\ o_parent (getO r o) = None /\ pmode r o = m /\ I0 o x.

Lemma child_of o : o < nO r -> (forall M, o_parent (getO r o) = Some M -> ~ D M) -> exists N, o_child (getO r o) = Some N /\ N < nN r /\ ~ D N /\ In o (n_parents (getN r N)) /\ nmode r N = pmode r o.
Proof.
  intros Ho Hp. destruct (o_child (getO r o)) as [N|] eqn:Ec.
  - destruct (h_child _ _ _ _ _ (b_heap _ _ _ _ _ _ _ _ _ B) o N Ho Ec) as [HN Hi]. exists N. split; [reflexivity|]. split; [exact HN|]. split.
    + intro HD. destruct (b_d2 _ _ _ _ _ _ _ _ _ B o N Ho Ec HD) as (M & HM & K). exact (Hp M HM K).
    + split; [exact Hi|]. destruct (h_par _ _ _ _ _ (b_heap _ _ _ _ _ _ _ _ _ B) N HN) as (_ & _ & K). destruct (K o Hi) as (_ & K2 & _). auto.
  - destruct (b_cov _ _ _ _ _ _ _ _ _ B o Ho Ec Hp) as [K|[]]. rewrite Hw in K. destruct K.
Qed.

Lemma cover m x k n : reach 0 ru a init m x k n -> err a m = false -> exists N, N < nN r /\ ~ D N /\ nmode r N = m /\ Tn a ru I0 r N k x n.
Proof.
  intro H. induction H as [m p Hi Hv|m p k n u p' H IH Hv Hn Hc Hu Ho|t p p' k n Ht H IH Hg Hj Hr]; intro He.
  - destruct (Hinit m p He Hi Hv) as (o & Ho & Hp & Hm & HI). destruct (child_of o Ho) as (N & _ & HN & HD & Hin & HmN); [intros M HM; congruence|].
    exists N. split; [exact HN|]. split; [exact HD|]. split; [congruence|]. apply Tn_in with o; auto. apply To_init; auto.
  - destruct (IH He) as (N & HN & HD & HmN & HT). exists N. split; [exact HN|]. split; [exact HD|]. split; [exact HmN|].
    subst m. eapply Tn_step; eauto.
  - destruct (IH (proj2 (wft_from _ _ (proj2 WH t Ht)))) as (N & HN & HD & HmN & HT).
    destruct (Hdone N HN) as (_ & _ & HC). destruct (HC k t) as (o & Ho & Hk & Hto).
    { exists p, n. split; [exact HT|]. split; [exact Ht|]. split; [congruence|]. split; [exact Hg|]. rewrite HmN. exact Hj. }
    destruct (h_ntr _ _ _ _ _ (b_heap _ _ _ _ _ _ _ _ _ B) N o HN Ho) as [Ho1 Ho2].
    destruct (child_of o Ho1) as (N' & Hc & HN' & HD' & Hin & HmN'); [intros M HM; congruence|].
    exists N'. split; [exact HN'|]. split; [exact HD'|]. split.
    + rewrite HmN'. pose proof (h_op _ _ _ _ _ (b_heap _ _ _ _ _ _ _ _ _ B) o Ho1) as K. unfold op_ok in K. rewrite Ho2, Hto in K. destruct K as (_ & _ & t' & K1 & _ & _ & K2). injection K1 as <-. auto.
    + apply Tn_in with o; auto. apply To_jump with N t p; auto; rewrite Hk; [exact HT|]. rewrite HmN. exact Hj.
Qed.

Lemma error_op : error_reachable 0 ru a init -> exists o N, N < nN r /\ ~ D N /\ o < nO r /\ o_parent (getO r o) = Some N /\ err a (pmode r o) = true.
Proof.
  intros (t & p & k & n & Ht & He & HR & Hg & Hj). destruct (cover _ _ _ _ HR (proj2 (wft_from _ _ (proj2 WH t Ht)))) as (N & HN & HD & HmN & HT).
  destruct (Hdone N HN) as (_ & _ & HC). destruct (HC k t) as (o & Ho & Hk & Hto).
  { exists p, n. split; [exact HT|]. split; [exact Ht|]. split; [congruence|]. split; [exact Hg|]. rewrite HmN. exact Hj. }
  destruct (h_ntr _ _ _ _ _ (b_heap _ _ _ _ _ _ _ _ _ B) N o HN Ho) as [Ho1 Ho2].
  exists o, N. split; [exact HN|]. split; [exact HD|]. split; [exact Ho1|]. split; [exact Ho2|].
  pose proof (h_op _ _ _ _ _ (b_heap _ _ _ _ _ _ _ _ _ B) o Ho1) as K. unfold op_ok in K. rewrite Ho2, Hto in K. unfold err. destruct K as (_ & _ & t' & K1 & _ & _ & K2). injection K1 as <-. rewrite <- K2. exact He.
Qed.

(** no error found: no error mode is reachable *)
Lemma safe_sound : c_aggerr r = false -> c_concerr r = false -> ~ error_reachable 0 ru a init.
Proof.
  intros H1 H2 HE. destruct (error_op HE) as (o & N & HN & HD & Ho & Hp & He).
  destruct (b_err _ _ _ _ _ _ _ _ _ B o Ho) as [K1 K2]; [congruence|exact He|]. destruct (ss_conc (pstate r o)); [rewrite K1 in H2|rewrite K2 in H1]; auto; discriminate.
Qed.
(** with deaggregation no concrete error suffices *)
Lemma safe_deagg : dg cf = true -> c_concerr r = false -> ~ error_reachable 0 ru a init.
Proof.
  intros Hd Hcc HE. destruct (error_op HE) as (o & N & HN & HD & Ho & Hp & He).
  assert (K : o_child (getO r o) = None).
  { apply (b_errch _ _ _ _ _ _ _ _ _ B Hd o N Ho Hp He). left. destruct (ss_conc (pstate r o)) eqn:Ec; [|reflexivity].
    assert (K := proj1 (b_err _ _ _ _ _ _ _ _ _ B o Ho ltac:(congruence) He) Ec). congruence. } destruct (child_of o Ho) as (N' & Hc & _); [intros M HM; congruence|]. congruence.
Qed.
End Cover.
End Final.
