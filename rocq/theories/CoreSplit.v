(** Deaggregation: the start of a replay (the aggregated node and its descendants become obsolete). *)
From Coq Require Import Permutation.
From Verif Require Import Base BaseFacts LpModel LpSpec SetSpec LpUtil LpFacts ChullFacts ApiSpec ApiFacts Automaton StateSet HybridSpec FlowFacts StateSpec
  StateFacts StateFacts2 StateFacts3 AutoFacts BuildFacts CoreModel HeapFacts CoreOps CoreGhost CoreHeap CoreInv CoreStep CoreCont CorePop CoreReplay CoreDeagg.
Open Scope nat_scope.

(** [sub c n M]: M is n or a descendant of n *)
Inductive sub (c : core) : nat -> nat -> Prop :=
| sub_refl n : sub c n n
| sub_cons n o k M : In (NTr o) (n_ops (getN c n)) -> o_child (getO c o) = Some k -> sub c k M -> sub c n M.
Lemma sub_snoc c n M o k : sub c n M -> In (NTr o) (n_ops (getN c M)) -> o_child (getO c o) = Some k -> sub c n k.
Proof. intro H. induction H as [n|n o' k' M H1 H2 H3 IH]; intros H4 H5; [eapply sub_cons; eauto; constructor|eapply sub_cons; eauto]. Qed.
Lemma sub_last c n k : sub c n k -> k = n \/ exists M o, sub c n M /\ In (NTr o) (n_ops (getN c M)) /\ o_child (getO c o) = Some k.
Proof.
  intro H. induction H as [n|n o k M H1 H2 H3 IH]; [auto|]. right. destruct IH as [->|(M' & o' & K1 & K2 & K3)].
  - exists n, o. split; [constructor|auto].
  - exists M', o'. split; [eapply sub_cons; eauto|auto].
Qed.

Lemma in_nat_In x l : in_nat x l = true <-> In x l.
Proof. unfold in_nat. rewrite existsb_exists. split; [intros (y & Hy & E); apply Nat.eqb_eq in E; subst; auto|intro H; exists x; split; [auto|apply Nat.eqb_refl]]. Qed.
Lemma dedup_in l : forall acc x, In x (fold_left dedup_add l acc) <-> In x acc \/ In x l.
Proof.
  induction l as [|y l IH]; intros acc x; cbn [fold_left]; [cbn; tauto|]. rewrite IH. unfold dedup_add. destruct (in_nat y acc) eqn:E.
  - apply in_nat_In in E. cbn. split; [tauto|]. intros [K|[<-|K]]; auto.
  - rewrite in_app_iff. cbn. tauto.
Qed.
Lemma tr_ops_in d o : In o (tr_ops d) <-> In (NTr o) (n_ops d).
Proof.
  unfold tr_ops. rewrite in_flat_map. split.
  - intros ([| |o'] & H1 & H2); try destruct H2 as []; [subst o'; exact H1|contradiction].
  - intro H. exists (NTr o). split; [exact H|left; auto].
Qed.

Lemma kids_in c n k : In k (fold_left dedup_add (flat_map (fun o => match o_child (getO c o) with None => [] | Some k => [k] end) (tr_ops (getN c n))) []) <->
  exists o, In (NTr o) (n_ops (getN c n)) /\ o_child (getO c o) = Some k.
Proof.
  rewrite dedup_in, in_flat_map. split.
  - intros [[]|(o & H1 & H2)]. exists o. apply tr_ops_in in H1. split; [exact H1|]. destruct (o_child (getO c o)); [destruct H2 as [->|[]]; reflexivity|destruct H2].
  - intros (o & H1 & H2). right. exists o. split; [apply tr_ops_in; auto|]. rewrite H2. left; auto.
Qed.
Lemma leaves_in c n o : In o (filter (fun o => match o_child (getO c o) with None => true | Some _ => false end) (tr_ops (getN c n))) <->
  In (NTr o) (n_ops (getN c n)) /\ o_child (getO c o) = None.
Proof. rewrite filter_In, tr_ops_in. destruct (o_child (getO c o)); split; intros [H1 H2]; split; auto; discriminate. Qed.
Lemma F2_concat_in {A B} (f : A -> res (list B)) l ls o : Forall2 (fun x y => f x = Ok y) l ls -> In o (List.concat ls) -> exists x y, In x l /\ f x = Ok y /\ In o y.
Proof.
  induction 1 as [|x y l ls H1 H2 IH]; cbn [List.concat]; [intros []|]. intro H. apply in_app_or in H as [H|H]; [exists x, y; split; [left; auto|auto]|].
  destruct (IH H) as (x' & y' & K1 & K2). exists x', y'. split; [right; auto|auto].
Qed.
Lemma F2_concat_in2 {A B} (f : A -> res (list B)) l ls o x : Forall2 (fun x y => f x = Ok y) l ls -> In x l -> (forall y, f x = Ok y -> In o y) -> In o (List.concat ls).
Proof.
  induction 1 as [|x' y l ls H1 H2 IH]; cbn [List.concat]; [intros []|]; intros [H|H] Hy.
  - subst x'. apply in_or_app. left. auto.
  - apply in_or_app. right. auto.
Qed.
Lemma leaf_sound c fuel : forall n l, leaf_ops fuel c n = Ok l -> forall o, In o l -> exists M, sub c n M /\ In (NTr o) (n_ops (getN c M)) /\ o_child (getO c o) = None.
Proof.
  induction fuel as [|f IH]; intros n l H o Ho; cbn [leaf_ops] in H; [discriminate|]. apply bind_ok in H as (ls & Hm & H). apply ok_inj in H. subst l. apply in_app_or in Ho as [Ho|Ho].
  - apply leaves_in in Ho. exists n. split; [constructor|exact Ho].
  - apply map_res_Forall2 in Hm. destruct (F2_concat_in _ _ _ _ Hm Ho) as (k & y & K1 & K2 & K3). apply kids_in in K1 as (o' & K4 & K5).
    destruct (IH k y K2 o K3) as (M & L1 & L2). exists M. split; [eapply sub_cons; eauto|exact L2].
Qed.
Lemma leaf_complete c n M o : sub c n M -> In (NTr o) (n_ops (getN c M)) -> o_child (getO c o) = None -> forall fuel l, leaf_ops fuel c n = Ok l -> In o l.
Proof.
  intros H Ho Hc. induction H as [n|n o' k M H1 H2 H3 IH]; intros [|f] l Hl; cbn [leaf_ops] in Hl; try discriminate; apply bind_ok in Hl as (ls & Hm & Hl); apply ok_inj in Hl; subst l; apply in_or_app.
  - left. apply leaves_in. auto.
  - right. apply map_res_Forall2 in Hm. apply (F2_concat_in2 _ _ _ o k Hm); [apply kids_in; eauto|]. intros y Hy. eapply IH; eauto.
Qed.

Section Split.
Variable solve : solver.
Hypothesis Hsolve : solver_ok solve.
Variable arnoldi : nat -> option (list Q) -> csr -> option csr -> nat -> list (list Q).
Variable cf : cfg.
Variable a : ha.
Hypothesis WH : wf_ha a.
Variable ru : rules.
Variable I0 : nat -> vec -> Prop.
Notation TN := (Tn a ru I0).
Notation TO := (To a ru I0).
Notation hok := (heap_ok solve a ru I0).
Notation base := (base solve cf a ru I0).
Notation done := (done a ru I0).
Notation err := (err a).
Notation dg := (dg cf).
Notation refines := (refines a ru I0).
Notation pair_ok := (pair_ok a ru I0).
Notation none := (fun _ : nat => False).

Lemma sub_ge c n M : hok c -> n < nN c -> sub c n M -> n <= M < nN c.
Proof.
  intros H HN HS. revert HN. induction HS as [n|n o k M H1 H2 H3 IH]; intro HN; [lia|].
  destruct (h_ntr _ _ _ _ _ H n o HN H1) as [K1 K2]. destruct (h_child _ _ _ _ _ H o k K1 H2) as [K3 K4].
  destruct (h_par _ _ _ _ _ H k K3) as (_ & _ & K5). destruct (K5 o K4) as (_ & _ & K6). specialize (K6 n K2). specialize (IH K3). lia.
Qed.

(** ancestors of a live node are live *)
Lemma live_parent (D : nat -> Prop) X mo c N o M : base D X mo c -> N < nN c -> ~ D N -> In o (n_parents (getN c N)) -> o_parent (getO c o) = Some M -> M < nN c /\ ~ D M.
Proof.
  intros B HN HD Ho Hp. pose proof (b_heap _ _ _ _ _ _ _ _ _ B) as H. destruct (heap_closed _ _ _ _ _ H) as [HC1 HC2].
  assert (Hol : o < nO c) by (apply (HC1 N HN); auto). split; [apply (HC2 o M Hol Hp)|]. intro K. apply HD. apply (b_d1 _ _ _ _ _ _ _ _ _ B o M N); auto. apply (b_d3 _ _ _ _ _ _ _ _ _ B N o HN HD Ho).
Qed.
Lemma ancestors_live (D : nat -> Prop) X mo c : base D X mo c -> forall fuel n l, n < nN c -> ~ D n -> get_ancestors fuel c n = Ok l -> forall M, In M l -> M < nN c /\ ~ D M.
Proof.
  intro B. induction fuel as [|f IH]; intros n l HN HD H M HM; cbn [get_ancestors] in H; [discriminate|].
  destruct (n_parents (getN c n)) as [|o ps] eqn:Ep; [discriminate|]. destruct (o_parent (getO c o)) as [p|] eqn:Eo.
  - apply bind_ok in H as (r & Hr & H). apply ok_inj in H. subst l. destruct (live_parent D X mo c n o p B HN HD) as [K1 K2]; [rewrite Ep; left; auto|exact Eo|].
    apply in_app_or in HM as [HM|[<-|[]]]; [apply (IH p r K1 K2 Hr M HM)|auto].
  - apply ok_inj in H. subst l. destruct HM as [<-|[]]. auto.
Qed.

(** below a node with a non-concrete set there are only non-concrete sets *)
Lemma nconc_sub (D : nat -> Prop) X mo c n M : base D X mo c -> sub c n M -> n < nN c -> ss_conc (getS c (n_state (getN c n))) = false -> ss_conc (getS c (n_state (getN c M))) = false.
Proof.
  intros B HS. pose proof (b_heap _ _ _ _ _ _ _ _ _ B) as H. induction HS as [n|n o k M H1 H2 H3 IH]; intros HN Kn; [exact Kn|].
  destruct (h_ntr _ _ _ _ _ H n o HN H1) as [K1 K2]. destruct (h_child _ _ _ _ _ H o k K1 H2) as [K3 K4]. apply IH; [exact K3|].
  destruct (ss_conc (getS c (n_state (getN c k)))) eqn:Ec; [|reflexivity]. exfalso. destruct (b_conc _ _ _ _ _ _ _ _ _ B) as [L1 L2]. destruct (L2 k K3 Ec) as (o' & L3 & L4).
  rewrite L3 in K4. destruct K4 as [->|[]]. rewrite (L1 o n K1 K2) in L4. congruence.
Qed.

Lemma begin_replay_ok (D : nat -> Prop) c n c' : dg = true -> base D none [] c -> c_dwait c = [] -> n < nN c -> ~ D n -> err (nmode c n) = false ->
  begin_replay solve arnoldi a c n = Ok c' -> c_cur c' = c_cur c /\ c_rep c' = c_rep c /\ exists D', base D' none [] c'.
Proof.
  intros Hdg B Edw HN HD Herr Hb. unfold begin_replay in Hb. apply bind_ok in Hb as (rm & Hrm & Hb).
  set (w := filter (fun o => negb (mem o rm)) (c_wait c)) in *. set (c1 := with_wait c w) in *.
  apply bind_ok in Hb as ([c3 chs] & Hs & Hb). apply ok_inj in Hb. cbn [fst snd] in Hb. subst c'.
  unfold split_node in Hs. change (getN c1 n) with (getN c n) in Hs. set (ops := n_parents (getN c n)) in *.
  apply bind_ok in Hs as ([] & Hlen & Hs). apply bind_ok in Hs as (bs & _ & Hs).
  assert (Hlen' : 2 <= List.length ops). { unfold assert in Hlen. destruct (1 <? List.length ops) eqn:E; [apply Nat.ltb_lt in E; lia|discriminate]. } clear Hlen.
  set (mid := Nat.div (List.length ops) 2) in *. set (l0 := firstn mid ops) in *. set (l1 := skipn mid ops) in *.
  apply bind_ok in Hs as ([c2 n0] & Hm0 & Hs). apply bind_ok in Hs as ([c3' n1] & Hm1 & Hs). cbn [fst snd] in Hm1, Hs. apply ok_inj in Hs. injection Hs as -> <-.
  pose proof (b_heap _ _ _ _ _ _ _ _ _ B) as H. pose proof (heap_closed _ _ _ _ _ H) as HC.
  assert (Eops : l0 ++ l1 = ops) by apply firstn_skipn.
  destruct (h_par _ _ _ _ _ H n HN) as (Hne & HND & Hpar). fold ops in Hne, HND, Hpar.
  assert (HND' : NoDup (l0 ++ l1)) by (rewrite Eops; exact HND). apply nodup_app_inv in HND' as (ND0 & ND1 & Hdis).
  assert (Hin : forall o, In o ops <-> In o l0 \/ In o l1) by (intro o; rewrite <- Eops; apply in_app_iff).
  assert (Hch : forall o, In o ops -> o_child (getO c o) = Some n) by (intros o Ho; apply (b_d3 _ _ _ _ _ _ _ _ _ B n o HN HD Ho)).
  assert (Hopl : forall o, In o ops -> o < nO c /\ pmode c o = nmode c n) by (intros o Ho; destruct (Hpar o Ho) as (K1 & K2 & _); auto).
  assert (Hun : forall o, In o ops -> unused c o) by (intros o Ho N HoN; rewrite (Hch o Ho) in HoN; injection HoN as <-; exact Hlen').
  assert (H1 : hok c1) by (revert H; apply heap_same; reflexivity).
  assert (Emode : forall l o, incl l ops -> In o l -> pmode c o = pmode c (nth 0 l 0)).
  { intros l o Hl Ho. destruct (Hopl o (Hl o Ho)) as [_ ->]. destruct (Hopl (nth 0 l 0)) as [_ K]; [|congruence]. apply Hl. destruct l; [contradiction|left; auto]. }
  assert (I0l : incl l0 ops) by (intros o Ho; apply Hin; auto). assert (I1l : incl l1 ops) by (intros o Ho; apply Hin; auto).
  destruct (heap_make_node solve Hsolve arnoldi a WH ru I0 c1 l0 (n_agg (getN c n)) (Some (bs ++ "0")%string) c2 n0 H1) as (Ne0 & En0 & H2 & E2 & nN2 & nO2 & Par0 & Fr0 & gN2 & gc2 & gc2' & gp2 & Md0 & gS2 & SC2); auto.
  { intros o Ho. split; [apply Hopl; auto|apply Hun; auto]. }
  { intros o Ho. apply (Emode l0 o I0l Ho). }
  change (nN c1) with (nN c) in *. change (nO c1) with (nO c) in *. change (nS c1) with (nS c) in *.
  assert (E02 : ext c c2) by (eapply ext_trans; [apply (ext_same c c1); reflexivity|exact E2]).
  assert (gN2' : forall N, N < nN c -> getN c2 N = getN c N) by exact gN2. clear gN2.
  assert (gc2'' : forall o, ~ In o l0 -> o_child (getO c2 o) = o_child (getO c o)) by exact gc2'. clear gc2'.
  assert (gp2' : forall o, o_parent (getO c2 o) = o_parent (getO c o)) by exact gp2. clear gp2.
  assert (EP2 : forall o, o < nO c -> pmode c2 o = pmode c o) by (intros o Ho; apply pmode_ext; auto; apply (h_post _ _ _ _ _ H o Ho)).
  destruct (heap_make_node solve Hsolve arnoldi a WH ru I0 c2 l1 (n_agg (getN c n)) (Some (bs ++ "1")%string) c3 n1 H2) as (Ne1 & En1 & H3 & E3 & nN3 & nO3 & Par1 & Fr1 & gN3 & gc3 & gc3' & gp3 & Md1 & gS3 & SC3).
  { intros o Ho. split; [rewrite nO2; apply Hopl; auto|]. intros N HoN. rewrite gc2'' in HoN by (intro K; exact (Hdis o K Ho)). rewrite (Hch o (I1l o Ho)) in HoN. injection HoN as <-. rewrite gN2' by auto. exact Hlen'. }
  { exact ND1. }
  { intros o Ho. rewrite !EP2; [apply (Emode l1 o I1l Ho)| |apply Hopl; auto]. apply Hopl. apply I1l. destruct l1; [contradiction|left; auto]. }
  { exact Hm1. }
  assert (E : ext c c3) by (eapply ext_trans; eauto).
  assert (gN : forall N, N < nN c -> getN c3 N = getN c N) by (intros N HN'; rewrite gN3 by lia; auto).
  assert (gp : forall o, o_parent (getO c3 o) = o_parent (getO c o)) by (intro o; rewrite gp3; auto).
  assert (gch0 : forall o, In o l0 -> o_child (getO c3 o) = Some n0) by (intros o Ho; rewrite gc3' by (apply Hdis; auto); auto).
  assert (gch : forall o, ~ In o ops -> o_child (getO c3 o) = o_child (getO c o)) by (intros o Ho; rewrite gc3', gc2''; auto).
  assert (gchs : forall o N, o_child (getO c3 o) = Some N -> (In o ops /\ (N = n0 \/ N = n1)) \/ (~ In o ops /\ o_child (getO c o) = Some N)).
  { intros o N Ho. destruct (in_dec Nat.eq_dec o ops) as [Hi|Hi]; [left|right; rewrite gch in Ho; auto]. split; [exact Hi|]. apply Hin in Hi as [Hi|Hi]; [rewrite gch0 in Ho by auto|rewrite gc3 in Ho by auto]; injection Ho as <-; auto. }
  assert (EP : forall o, o < nO c -> pmode c3 o = pmode c o) by (intros o Ho; apply pmode_ext; auto; apply (h_post _ _ _ _ _ H o Ho)).
  assert (Ecc : forall o, o < nO c -> ss_conc (pstate c3 o) = ss_conc (pstate c o)).
  { intros o Ho. unfold pstate. destruct (ex_op _ _ E o Ho) as (_&_&_& ->). apply (ex_mode _ _ E). apply (h_post _ _ _ _ _ H o Ho). }
  assert (Ewait : c_wait c3 = w) by (rewrite (sc_wait _ _ SC3), (sc_wait _ _ SC2); reflexivity).
  assert (Edw3 : c_dwait c3 = []) by (rewrite (sc_dwait _ _ SC3), (sc_dwait _ _ SC2); exact Edw).
  assert (Ecur : c_cur c3 = c_cur c) by (rewrite (sc_cur _ _ SC3), (sc_cur _ _ SC2); reflexivity).
  assert (Erep : c_rep c3 = c_rep c) by (rewrite (sc_rep _ _ SC3), (sc_rep _ _ SC2); reflexivity).
  split; [exact Ecur|]. split; [exact Erep|].
  set (D' := fun M => D M \/ sub c n M). exists D'.
  assert (HD' : forall M, D' M -> M < nN c) by (intros M [K|K]; [apply (b_D _ _ _ _ _ _ _ _ _ B); auto|apply (sub_ge c n M H HN) in K; lia]).
  assert (nn0 : n0 < nN c3 /\ ~ D' n0) by (split; [lia|intro K; apply HD' in K; lia]).
  assert (nn1 : n1 < nN c3 /\ ~ D' n1) by (split; [lia|intro K; apply HD' in K; lia]).
  (* parents of the parents of n are live *)
  assert (Hpp : forall o M, In o ops -> o_parent (getO c o) = Some M -> ~ D' M).
  { intros o M Ho Hp [K|K]; [apply (live_parent D none [] c n o M B HN HD Ho Hp); exact K|]. apply (sub_ge c n M H HN) in K. destruct (Hpar o Ho) as (_ & _ & L). specialize (L M Hp). lia. }
  assert (Hpn : forall o, In o ops -> o_parent (getO c o) <> None) by (intros o Ho; apply (proj1 (b_path _ _ _ _ _ _ _ _ _ B n HN) Hlen' o Ho)).
  (* the nodes below n are not concrete *)
  assert (Hnc : forall M, sub c n M -> ss_conc (getS c (n_state (getN c M))) = false).
  { assert (Kn : ss_conc (getS c (n_state (getN c n))) = false).
    { destruct (ss_conc (getS c (n_state (getN c n)))) eqn:Ec; [|reflexivity]. exfalso. destruct (proj2 (b_conc _ _ _ _ _ _ _ _ _ B) n HN Ec) as (o & Lo & _). unfold ops in Hlen'. rewrite Lo in Hlen'. cbn in Hlen'. lia. }
    intros M HM. apply (nconc_sub D none [] c n M B HM HN Kn). }
  assert (Hdone : forall N, N < nN c -> done c3 N).
  { intros N HN'. apply (done_ext solve a ru I0 c c3); auto; [rewrite gN; auto|]. destruct (b_nodes _ _ _ _ _ _ _ _ _ B N HN') as [K|K]; [intros []|exact K|]. unfold dpend in K. rewrite Edw in K. destruct K. }
  assert (Hrm1 : forall o, In o rm -> exists M, sub c n M /\ o_parent (getO c o) = Some M).
  { intros o Ho. destruct (leaf_sound c _ n rm Hrm o Ho) as (M & K1 & K2 & _). exists M. split; [exact K1|]. apply (h_ntr _ _ _ _ _ H M o); auto. apply (sub_ge c n M H HN) in K1. lia. }
  assert (Hrm2 : forall o M, o < nO c -> sub c n M -> o_parent (getO c o) = Some M -> o_child (getO c o) = None -> In o rm).
  { intros o M Ho K1 K2 K3. apply (leaf_complete c n M o K1) with (fuel := S (List.length (c_nodes c))); auto. pose proof (h_op _ _ _ _ _ H o Ho) as K. unfold op_ok in K. rewrite K2 in K. apply K. }
  assert (Hw : forall o, In o w <-> In o (c_wait c) /\ ~ In o rm).
  { intro o. unfold w. rewrite filter_In, negb_true_iff. split; intros [K1 K2]; (split; [exact K1|]); [intro K; apply mem_In in K; congruence|destruct (mem o rm) eqn:Em; [apply mem_In in Em; contradiction|auto]]. }
  destruct (b_wait _ _ _ _ _ _ _ _ _ B) as [W1 W2].
  assert (Bn : base D' (fun N => N = n0 \/ N = n1) [] c3).
  { constructor; unfold dpend; rewrite ?nN3, ?nN2, ?nO3, ?nO2, ?Ewait, ?Edw3.
    - exact H3.
    - intros N [->| ->]; (split; [lia|tauto]).
    - split; [apply NoDup_filter; exact W1|]. intros o Ho. apply Hw in Ho as [K1 K2]. destruct (W2 o K1) as (L1 & L2 & L3). split; [exact L1|].
      rewrite gch, gp by (intro K; rewrite (Hch o K) in L2; discriminate). split; [exact L2|]. intros M HM [K|K]; [exact (L3 M HM K)|]. apply K2. apply (Hrm2 o M); auto.
    - split; [constructor|intros o []].
    - intros o Ho Hc Hp. rewrite gp in Hp. left. destruct (in_dec Nat.eq_dec o ops) as [Hi|Hi]; [exfalso; apply Hin in Hi as [Hi|Hi]; [rewrite gch0 in Hc by auto|rewrite gc3 in Hc by auto]; discriminate|].
      rewrite gch in Hc by auto. apply Hw. destruct (b_cov _ _ _ _ _ _ _ _ _ B o Ho Hc) as [K|[]].
      + intros M HM K. apply (Hp M HM). left; exact K.
      + split; [exact K|]. intro L. destruct (Hrm1 o L) as (M & L1 & L2). apply (Hp M L2). right. exact L1.
    - intros o M N Ho Hp HDM Hc. rewrite gp in Hp. destruct (gchs o N Hc) as [[K1 _]|[K1 K2]]; [exfalso; exact (Hpp o M K1 Hp HDM)|]. destruct HDM as [K|K].
      + left. apply (b_d1 _ _ _ _ _ _ _ _ _ B o M N); auto.
      + right. apply (sub_snoc c n M o N K); auto. pose proof (h_op _ _ _ _ _ H o Ho) as L. unfold op_ok in L. rewrite Hp in L. apply L.
    - intros o N Ho Hc HDN. rewrite gp. destruct (gchs o N Hc) as [[K1 [->| ->]]|[K1 K2]]; [tauto|tauto|]. destruct HDN as [K|K].
      + destruct (b_d2 _ _ _ _ _ _ _ _ _ B o N Ho K2 K) as (M & L1 & L2). exists M. split; [exact L1|left; exact L2].
      + destruct (sub_last c n N K) as [->|(M & o' & L1 & L2 & L3)]; [exfalso; apply K1; apply (h_child _ _ _ _ _ H o n Ho K2)|].
        assert (HM := sub_ge c n M H HN L1). destruct (h_ntr _ _ _ _ _ H M o' ltac:(lia) L2) as [L4 L5]. exists M. split; [|right; exact L1].
        destruct (h_child _ _ _ _ _ H o N Ho K2) as [L6 L7]. destruct (h_child _ _ _ _ _ H o' N L4 L3) as [_ L8]. rewrite <- L5. apply (proj2 (b_path _ _ _ _ _ _ _ _ _ B N L6) Hdg); auto.
    - intros N o HN' HDN Ho. destruct (Nat.eq_dec N n1) as [->|Hn1]; [rewrite Par1 in Ho; auto|]. destruct (Nat.eq_dec N n0) as [->|Hn0].
      { rewrite gN3 in Ho by lia. rewrite Par0 in Ho. auto. }
      assert (HNc : N < nN c) by lia. rewrite gN in Ho by auto. assert (K : o_child (getO c o) = Some N). { apply (b_d3 _ _ _ _ _ _ _ _ _ B N o HNc); auto. intro K. apply HDN. left; exact K. }
      rewrite gch; [exact K|]. intro L. rewrite (Hch o L) in K. injection K as <-. apply HDN. right. constructor.
    - intros N K. apply HD' in K. lia.
    - assert (Kp : forall l, incl l ops -> (2 <= List.length l -> forall o, In o l -> o_parent (getO c3 o) <> None) /\ (dg = true -> forall o o', In o l -> In o' l -> o_parent (getO c3 o) = o_parent (getO c3 o'))).
      { intros l Hl. split; [intros _ o Ho; rewrite gp; auto|]. intros _ o o' Ho Ho'. rewrite !gp. apply (proj2 (b_path _ _ _ _ _ _ _ _ _ B n HN) Hdg); apply Hl; auto. }
      intros N HN'. destruct (Nat.eq_dec N n1) as [->|Hn1]; [rewrite Par1; auto|]. destruct (Nat.eq_dec N n0) as [->|Hn0]; [rewrite gN3 by lia; rewrite Par0; auto|].
      assert (HNc : N < nN c) by lia. rewrite gN by auto. destruct (b_path _ _ _ _ _ _ _ _ _ B N HNc) as [K1 K2]. split; [intros K o Ho; rewrite gp; auto|]. intros K o o' Ho Ho'. rewrite !gp. auto.
    - intros N HN' HX. left. apply Hdone. destruct (Nat.eq_dec N n1) as [->|Hn1]; [exfalso; apply HX; auto|]. destruct (Nat.eq_dec N n0) as [->|Hn0]; [exfalso; apply HX; auto|]. lia.
    - cbn. split; [constructor|]. split; [intros N []|intros P chs ch []].
    - cbn. intros P chs [].
    - intros o Ho. rewrite gp, EP, Ecc by auto. rewrite (sc_conc _ _ SC3), (sc_agg _ _ SC3), (sc_conc _ _ SC2), (sc_agg _ _ SC2). apply (b_err _ _ _ _ _ _ _ _ _ B o Ho).
    - intros _ o M Ho. rewrite gp, EP, Ecc by auto. intros K1 K2 K3. assert (K : o_child (getO c o) = None).
      { apply (b_errch _ _ _ _ _ _ _ _ _ B Hdg o M Ho K1 K2). destruct K3 as [K3|[K3|K3]]; auto. left. rewrite (proj1 (b_conc _ _ _ _ _ _ _ _ _ B) o M Ho K1). auto. }
      rewrite gch; [exact K|]. intro L. rewrite (Hch o L) in K. discriminate.
    - split.
      + intros o M Ho Hp. apply (conc_old_o solve a ru I0 c c3); auto; [apply (b_conc _ _ _ _ _ _ _ _ _ B)|lia].
      + intros N HN' Hc. destruct (Nat.eq_dec N n1) as [->|Hn1]; [|destruct (Nat.eq_dec N n0) as [->|Hn0]].
        * assert (Kp1 : forall o, In o l1 -> o_post (getO c2 o) < nS c2) by (intros o Ho; apply (h_post _ _ _ _ _ H2); rewrite nO2; apply Hopl; auto).
          destruct (make_node_conc solve a arnoldi c2 l1 _ _ c3 n1 Ne1 Kp1 Hm1 Hc) as (o & L1 & L2).
          exists o. rewrite Par1. split; [exact L1|]. rewrite (pconc_ext solve a ru I0 c2 c3); auto. rewrite nO2. apply Hopl. apply I1l. rewrite L1. left; reflexivity.
        * rewrite (nconc_ext solve a ru I0 c2 c3) in Hc by (auto; lia). assert (Kp0 : forall o, In o l0 -> o_post (getO c1 o) < nS c1) by (intros o Ho; apply (h_post _ _ _ _ _ H1); apply Hopl; auto).
          destruct (make_node_conc solve a arnoldi c1 l0 _ _ c2 n0 Ne0 Kp0 Hm0 Hc) as (o & L1 & L2).
          exists o. rewrite gN3 by lia. rewrite Par0. split; [exact L1|]. rewrite (pconc_ext solve a ru I0 c1 c3); [exact L2|exact H1|eapply ext_trans; eauto|]. apply Hopl. apply I0l. rewrite L1. left; reflexivity.
        * apply (conc_old_N solve a ru I0 c c3); auto; [apply (b_conc _ _ _ _ _ _ _ _ _ B)|lia]. }
  assert (Enm : nmode c3 n = nmode c n) by (apply nmode_ext; auto).
  assert (Href : forall N l, N < nN c3 -> n_parents (getN c3 N) = l -> incl l ops -> nmode c3 N = nmode c3 n -> refines c3 N n).
  { intros N l HN' El Hl Em. apply refines_of; auto. intros x k HT. apply Tn_0 in HT as (o & Ho & HT). rewrite El in Ho. apply (Tn_in a ru I0 c3 n o); [lia|rewrite gN by auto; apply Hl; auto|exact HT]. }
  assert (P0 : pair_ok D' c3 n n0).
  { split; [lia|]. split; [apply nn0|]. split; [right; constructor|]. split; [apply nn0|]. split; [auto|]. split; [rewrite Enm; exact Herr|].
    assert (Em : nmode c3 n0 = nmode c3 n).
    { rewrite Enm. rewrite (nmode_ext c2 c3); [|apply (heap_closed _ _ _ _ _ H2)|exact E3|lia]. rewrite Md0. apply Hopl. apply I0l. destruct l0; [congruence|left; auto]. }
    split; [exact Em|]. split; [|apply (Href n0 l0); auto; [apply nn0|rewrite gN3 by lia; exact Par0]].
    apply (fresh_ext solve a ru I0 c2 c3); auto; [lia|rewrite gN3 by lia; reflexivity|]. apply gS3; [apply (h_nstate _ _ _ _ _ H2); lia|].
    intros o Ho K. destruct (state_used solve a ru I0 c2 n0 o H2 ltac:(lia)) as [K1 _]; [rewrite nO2; apply Hopl; auto|exact K|]. rewrite Par0 in K1. apply (Hdis o); [rewrite K1; left; auto|exact Ho]. }
  assert (P1 : pair_ok D' c3 n n1).
  { split; [lia|]. split; [apply nn1|]. split; [right; constructor|]. split; [apply nn1|]. split; [auto|]. split; [rewrite Enm; exact Herr|].
    assert (Em : nmode c3 n1 = nmode c3 n). { rewrite Enm, Md1. assert (Hi : In (nth 0 l1 0) ops) by (apply I1l; destruct l1; [congruence|left; auto]). rewrite EP2 by (apply Hopl; auto). apply Hopl. exact Hi. }
    split; [exact Em|]. split; [exact Fr1|]. apply (Href n1 l1); auto. apply nn1. }
  apply (base_dwait solve cf a ru I0 D' (fun N => N = n0 \/ N = n1) none [] c3 n [n0; n1]).
  - exact Bn.
  - intros N [].
  - intros N [->| ->]; right; [left|right; left]; auto.
  - constructor; [intros [K|[]]; lia|]. constructor; [intros []|constructor].
  - intros ch [<-|[<-|[]]]; auto.
  - right. constructor.
  - auto.
  - rewrite Enm. exact Herr.
Qed.
End Split.
