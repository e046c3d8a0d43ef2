(** Deaggregation does not fail on bounded sets: choosing the node to be deaggregated, and splitting it (for C66). *)
From Verif Require Import Base BaseFacts LpModel LpSpec SetSpec LpUtil LpFacts LpWf SetFacts SetFacts2 MinkFacts OpsFacts OpsFacts2 OpsFacts3 OpsFacts4 AggFacts ChullFacts
  ApiSpec ApiFacts Automaton StateSet HybridSpec FlowFacts StateSpec StateFacts StateFacts2 StateFacts3 AutoFacts BuildFacts CoreModel HeapFacts Prop_Sets CoreOps CorePop CoreExt CoreDag CoreDag2 CoreDag3
  CoreGhost CoreHeap CoreInv CoreStep CoreCont CoreReplay CoreDeagg CoreSplit CoreFinal CoreIvl CoreShape CoreShape2
  Bounded Bounded2 Bounded3 Bounded4 Bounded5 Bounded6 Bounded7 ChullTotal CoreTotal CoreTotal2 CoreTotal3 CoreTotalD CoreTotalD2 CoreTotalD3.
From Coq Require Import Lia Lqa Setoid QArith.Qabs Permutation.
Open Scope nat_scope.

Section WithSolver.
Variable solve : solver.
Hypothesis Hsolve : solver_ok solve.
Hypothesis Hcomp : solver_complete solve.
Variable arnoldi : nat -> option (list Q) -> csr -> option csr -> nat -> list (list Q).
Hypothesis Harn : forall k ctr am r n, Forall (fun row => List.length row = n) (arnoldi k ctr am r n).
Variable cf : cfg.
Variable a : ha.
Hypothesis WH : wf_ha a.
Hypothesis HF : fits a.
Hypothesis Hinp : forall m, m < List.length (ha_modes a) -> m_b (get_mode a m) <> None -> m_inv (get_mode a m) = [].
Hypothesis Hnum : 0 < cf_num cf.
Variable ru : rules.
Variable I0 : nat -> vec -> Prop.
Notation dag := (dag cf a).
Notation tinv := (tinv solve a).
Notation xinv := (xinv a).
Notation cinv := (cinv cf a).
Notation err m := (is_error (get_mode a m)).
Notation base := (base solve cf a ru I0).
Notation done := (done a ru I0).
Notation dg := (dg cf).
Notation map_ok := (map_ok a ru I0).
Notation loop_inv := (loop_inv solve cf a ru I0).
Notation rep_ok := (rep_ok solve cf a ru I0).
Notation none := (fun _ : nat => False).

Lemma half_split (ps : list nat) : 2 <= List.length ps -> firstn (Nat.div (List.length ps) 2) ps <> [] /\ skipn (Nat.div (List.length ps) 2) ps <> [].
Proof.
  intro Hl. set (mid := Nat.div (List.length ps) 2). assert (Hmid : 1 <= mid /\ mid < List.length ps) by (unfold mid; split; [apply Nat.div_le_lower_bound; lia|apply Nat.div_lt; lia]).
  assert (L1 : List.length (firstn mid ps) = mid) by (rewrite firstn_length; lia). assert (L2 : List.length (skipn mid ps) = List.length ps - mid) by apply skipn_length.
  split; intro K; rewrite K in *; cbn [List.length] in *; lia.
Qed.

Lemma begin_replay_total (D : nat -> Prop) c n : dg = true -> base D none [] c -> n < nN c -> ~ D n -> err (nmode c n) = false -> 2 <= List.length (n_parents (getN c n)) ->
  dag [] c -> tinv c -> xinv c -> exists c1, begin_replay solve arnoldi a c n = Ok c1 /\ tinv c1 /\ c_dwait c1 <> [].
Proof.
  intros Hdg B HN HD Herr Hlen Dg T X. unfold begin_replay.
  destruct (leaf_ops_ok cf a c [] Dg (Datatypes.S (List.length (c_nodes c))) n ltac:(unfold nN; lia) HN) as (rm & ->). cbn [bind].
  set (w := filter (fun o => negb (mem o rm)) (c_wait c)) in *. set (c0 := with_wait c w) in *. unfold split_node. change (getN c0 n) with (getN c n). set (ops := n_parents (getN c n)) in *.
  replace (1 <? List.length ops) with true by (symmetry; apply Nat.ltb_lt; lia). cbn [assert bind].
  change (getS c0 (n_state (getN c n))) with (getS c (n_state (getN c n))). pose proof (x_str _ _ X n HN) as Hstr. destruct (ss_agg (getS c (n_state (getN c n)))) as [str|]; [|congruence]. cbn [bind]. clear Hstr.
  set (bs := if String.eqb str "full" then EmptyString else str). destruct (half_split ops Hlen) as [Hl0 Hl1].
  set (mid := Nat.div (List.length ops) 2) in *. set (l0 := firstn mid ops) in *. set (l1 := skipn mid ops) in *.
  pose proof (x_agg _ _ X n HN Hlen) as Hag. destruct (n_agg (getN c n)) as [[kind g]|] eqn:Eag; [|congruence]. clear Hag.
  pose proof (b_heap _ _ _ _ _ _ _ _ _ B) as H.
  assert (Eops : l0 ++ l1 = ops) by apply firstn_skipn.
  destruct (d_parents _ _ _ _ Dg n HN) as (P1 & P2 & P3 & P4 & P5). fold ops in P1, P2, P4, P5.
  assert (HND' : NoDup (l0 ++ l1)) by (rewrite Eops; exact P2). apply nodup_app_inv in HND' as (ND0 & ND1 & Hdis).
  assert (I0l : incl l0 ops) by (intros o Ho; rewrite <- Eops; apply in_or_app; auto). assert (I1l : incl l1 ops) by (intros o Ho; rewrite <- Eops; apply in_or_app; auto).
  assert (Hch : forall o, In o ops -> o_child (getO c o) = Some n) by (intros o Ho; apply (b_d3 _ _ _ _ _ _ _ _ _ B n o HN HD Ho)).
  assert (Hpn : forall o, In o ops -> o_parent (getO c o) <> None) by (intros o Ho; apply (P5 o Ho); exact Hlen).
  assert (Em : forall o, In o ops -> omode c o = nodemode c n) by (intros o Ho; apply (P5 o Ho)).
  assert (Hun : forall o, In o ops -> unused c o) by (intros o Ho N HoN; rewrite (Hch o Ho) in HoN; injection HoN as <-; exact Hlen).
  change (err (nodemode c n) = false) in Herr.
  assert (Z0 : In (nth 0 l0 0) l0) by (destruct l0; [congruence|left; reflexivity]). assert (Z1 : In (nth 0 l1 0) l1) by (destruct l1; [congruence|left; reflexivity]).
  assert (D0 : dag [] c0). { apply (dag_wait cf a _ c); auto; [apply NoDup_filter, Dg|]. intros o Ho. apply filter_In in Ho. tauto. }
  assert (T0 : tinv c0). { apply (tinv_sub solve a c); auto. intros o Ho. apply filter_In in Ho. tauto. }
  assert (Nw : forall o, In o ops -> ~ In o (c_wait c0)). { intros o Ho K. apply (d_wait _ _ _ _ D0) in K as [_ K]. change (o_child (getO c o) = None) in K. rewrite (Hch o Ho) in K. discriminate. }
  destruct (make_node_total solve Hsolve Hcomp arnoldi Harn cf a WH HF Hnum c0 [] l0 (Some (kind, g)) (Some (bs ++ "0")%string) D0 T0 Hl0) as (c2 & n0 & M0 & T2).
  { intros o Ho. apply (P5 o); auto. }
  { intros _. exists kind, g. split; [reflexivity|]. split; [change (err (omode c (nth 0 l0 0)) = false); rewrite Em by auto; exact Herr|]. intros o Ho. change (o_parent (getO c o) <> None /\ omode c o = omode c (nth 0 l0 0) /\ exists p, in_lp (ss_lpi (pstate c o)) p).
    split; [auto|]. split; [rewrite !Em by auto; reflexivity|]. apply (pr_ne _ _ _ _ _ (h_prist _ _ _ _ _ H o (proj1 (P5 o (I0l o Ho))) (Hun o (I0l o Ho)))). }
  rewrite M0. cbn [bind fst snd].
  assert (H1 : heap_ok solve a ru I0 c0) by (revert H; apply heap_same; reflexivity).
  destruct (heap_make_node solve Hsolve arnoldi a WH ru I0 c0 l0 (Some (kind, g)) (Some (bs ++ "0")%string) c2 n0 H1) as (_ & En0 & H2 & E2 & nN2 & nO2 & Par0 & Fr0 & gN2 & gc2 & gc2' & gp2 & Md0 & gS2 & SC2); auto.
  { intros o Ho. split; [apply (P5 o); auto|apply Hun; auto]. }
  { intros o Ho. change (omode c o = omode c (nth 0 l0 0)). rewrite !Em by auto. reflexivity. }
  assert (D3 : dag [] c2).
  { eapply dag_make_node; [exact D0|exact Hl0|exact ND0| | | |exact M0].
    - intros o Ho. split; [apply (P5 o); auto|]. split; [apply Nw; auto|]. split; [intros []|]. change (omode c o = omode c (nth 0 l0 0)). rewrite !Em by auto. reflexivity.
    - intros _ o Ho. apply Hpn. auto.
    - intro HP. apply (same_path_sub _ ops); [auto|]. apply (d_path _ _ _ _ D0 HP n HN). }
  assert (E2p : forall o, In o ops -> omode c2 o = omode c o).
  { intros o Ho. apply (pmode_ext c0 c2 o E2 (proj1 (P5 o Ho))). apply (d_post _ _ _ _ D0). apply (P5 o Ho). }
  destruct (make_node_total solve Hsolve Hcomp arnoldi Harn cf a WH HF Hnum c2 [] l1 (Some (kind, g)) (Some (bs ++ "1")%string) D3 T2 Hl1) as (c3 & n1 & M1 & T3).
  { intros o Ho. rewrite nO2. apply (P5 o). auto. }
  { intros _. exists kind, g. split; [reflexivity|]. split; [rewrite E2p, Em by auto; exact Herr|]. intros o Ho. rewrite gp2. split; [apply Hpn; auto|]. split; [rewrite !E2p, !Em by auto; reflexivity|].
    assert (Hu2 : unused c2 o). { intros N HoN. rewrite gc2' in HoN by (intro K; exact (Hdis o K Ho)). change (o_child (getO c o) = Some N) in HoN. rewrite (Hch o (I1l o Ho)) in HoN. injection HoN as <-. rewrite (gN2 n HN). exact Hlen. }
    apply (pr_ne _ _ _ _ _ (h_prist _ _ _ _ _ H2 o ltac:(rewrite nO2; apply (P5 o (I1l o Ho))) Hu2)). }
  rewrite M1. cbn [bind fst snd]. eexists. split; [reflexivity|]. split; [apply (tinv_same solve a c3); auto|]. cbn [c_dwait with_dwait]. intro K. apply app_eq_nil in K as [_ K]. discriminate.
Qed.

Lemma scan_total (D : nat -> Prop) c : base D none [] c -> c_dwait c = [] -> xinv c -> forall w seen rv, incl w (c_wait c) ->
  exists r, deagg_scan a c w seen rv = Ok r /\ (forall n, r = Some n -> rv = Some n \/ exists o, In o w /\ o_parent (getO c o) = Some n /\ ss_conc (pstate c o) = false).
Proof.
  intros B Edw X. induction w as [|o w IH]; intros seen rv Hw; cbn [deagg_scan]; [exists rv; auto|].
  assert (Hw' : incl w (c_wait c)) by (intros y Hy; apply Hw; right; exact Hy).
  destruct (ss_conc (pstate c o)) eqn:Ec.
  { destruct (IH seen rv Hw') as (r & E & K). exists r. split; [exact E|]. intros n Hr. destruct (K n Hr) as [Q|(o' & Q1 & Q2)]; [auto|right; exists o'; split; [right; exact Q1|exact Q2]]. }
  destruct (proj2 (b_wait _ _ _ _ _ _ _ _ _ B) o (Hw o (or_introl eq_refl))) as (Ho1 & Ho2 & Ho3).
  destruct (o_parent (getO c o)) as [p|] eqn:Ep; [|rewrite (x_conc0 _ _ X o Ho1 Ep) in Ec; discriminate].
  assert (G : forall seen rv1, (rv1 = rv \/ rv1 = Some p) -> exists r, deagg_scan a c w seen rv1 = Ok r /\ (forall n, r = Some n -> rv = Some n \/ exists o', In o' (o :: w) /\ o_parent (getO c o') = Some n /\ ss_conc (pstate c o') = false)).
  { intros seen' rv1 Hr. destruct (IH seen' rv1 Hw') as (r & E & K). exists r. split; [exact E|]. intros n Hn. destruct (K n Hn) as [L|(o' & L1 & L2)].
    - destruct Hr as [->| ->]; [auto|]. right. exists o. split; [left; reflexivity|]. split; [congruence|exact Ec].
    - right. exists o'. split; [right; exact L1|exact L2]. }
  destruct (find _ seen) as [[q t]|].
  - apply G. destruct (onat_eqb _ _); [|auto]. destruct (is_error _); auto.
  - assert (Hp : p < nN c) by (apply (proj2 (heap_closed _ _ _ _ _ (b_heap _ _ _ _ _ _ _ _ _ B)) o p Ho1 Ep)).
    assert (Hl : left_inv c p = true). { destruct (b_nodes _ _ _ _ _ _ _ _ _ B p Hp (fun K => K)) as [K|K]; [apply K|]. unfold dpend in K. rewrite Edw in K. destruct K. }
    rewrite Hl. cbn [assert bind]. apply G. destruct (is_error _); auto.
Qed.

Lemma ancestors_many mp c : dag mp c -> xinv c -> forall fuel n anc, n < nN c -> ss_conc (getS c (n_state (getN c n))) = false -> get_ancestors fuel c n = Ok anc -> exists m, In m anc /\ 2 <= nparents c m.
Proof.
  intros Dg X. induction fuel as [|f IH]; intros n anc Hn Hc H; cbn [get_ancestors] in H; [discriminate|].
  destruct (d_parents _ _ _ _ Dg n Hn) as (P1 & P2 & P3 & P4 & P5).
  destruct (n_parents (getN c n)) as [|o l] eqn:Eo; [discriminate|]. destruct (P5 o (or_introl eq_refl)) as (Q1 & _ & _ & Q4 & _ & Q6).
  destruct l as [|o2 l].
  - specialize (Q6 eq_refl). assert (Hco : ss_conc (pstate c o) = false) by (unfold pstate; rewrite <- Q6; exact Hc).
    destruct (o_parent (getO c o)) as [p|] eqn:Ep; [|rewrite (x_conc0 _ _ X o Q1 Ep) in Hco; discriminate].
    apply bind_ok in H as (r & Hr & H). apply ok_inj in H. subst anc. assert (Hp : p < nN c) by (specialize (Q4 p eq_refl); lia).
    destruct (IH p r Hp ltac:(rewrite <- (x_conc1 _ _ X o p Q1 Ep); exact Hco) Hr) as (m & M1 & M2). exists m. split; [apply in_or_app; left; exact M1|exact M2].
  - exists n. split; [|unfold nparents; rewrite Eo; cbn; lia]. destruct (o_parent (getO c o)) as [p|]; [apply bind_ok in H as (r & Hr & H); apply ok_inj in H; subst anc; apply in_or_app; right; left; reflexivity|apply ok_inj in H; subst anc; left; reflexivity].
Qed.

Lemma ins_in c x l y : y = x \/ In y l -> In y (ins_stable c x l).
Proof.
  induction l as [|z l IH]; cbn [ins_stable]; [intros [->|[]]; left; reflexivity|]. intro H. destruct (_ <=? _); cbn [In] in *; [destruct H as [H|[H|H]]; auto|destruct H as [->|H]; auto].
Qed.
Lemma in_sort c l y : In y l -> In y (sort_nodes c l).
Proof.
  unfold sort_nodes. assert (G : forall l0 acc, In y acc \/ In y l0 -> In y (fold_left (fun acc x => ins_stable c x acc) l0 acc)).
  { induction l0 as [|x l' IH]; intros acc H; cbn [fold_left]; [destruct H as [H|[]]; exact H|]. apply IH. destruct H as [H|[<-|H]]; [left; apply ins_in; auto|left; apply ins_in; auto|auto]. }
  intro H. apply G. auto.
Qed.

Lemma deagg_node_total (D : nat -> Prop) c : base D none [] c -> c_dwait c = [] -> dag [] c -> xinv c ->
  exists r, get_deagg_node cf a c = Ok r /\ forall n, r = Some n -> 2 <= List.length (n_parents (getN c n)).
Proof.
  intros B Edw Dg X. unfold get_deagg_node. destruct (cf_strat cf) as [g|]; [|exists None; split; [reflexivity|discriminate]]. destruct (ag_deagg g); cbn [negb]; [|exists None; split; [reflexivity|discriminate]].
  destruct (scan_total D c B Edw X (c_wait c) [] None (incl_refl _)) as (r & -> & Hr). cbn [bind]. destruct r as [n|]; [|exists None; split; [reflexivity|discriminate]].
  destruct (Hr n eq_refl) as [K|(o & Ho & Hp & Hc)]; [discriminate|]. destruct (proj2 (b_wait _ _ _ _ _ _ _ _ _ B) o Ho) as (Ho1 & _).
  assert (Hn : n < nN c) by (apply (proj2 (heap_closed _ _ _ _ _ (b_heap _ _ _ _ _ _ _ _ _ B)) o n Ho1 Hp)).
  destruct (ancestors_ok cf a c [] Dg (Datatypes.S (List.length (c_nodes c))) n ltac:(unfold nN in *; lia) Hn) as (anc & Hanc). rewrite Hanc. cbn [bind].
  destruct (ancestors_many [] c Dg X _ n anc Hn ltac:(rewrite <- (x_conc1 _ _ X o n Ho1 Hp); exact Hc) Hanc) as (m & M1 & M2).
  set (anc' := match ag_pref g with DLeaves => rev anc | DRoot => anc | DMost => rev (sort_nodes c anc) end).
  assert (Hm : In m anc') by (unfold anc'; destruct (ag_pref g); [apply -> in_rev; exact M1|exact M1|apply -> in_rev; apply in_sort; exact M1]).
  assert (Hf : In m (filter (fun m => 1 <? nparents c m) anc')) by (apply filter_In; split; [exact Hm|apply Nat.ltb_lt; lia]).
  destruct (filter (fun m => 1 <? nparents c m) anc') as [|m' l] eqn:El; [destruct Hf|]. exists (Some m'). split; [reflexivity|]. intros q K. injection K as <-.
  assert (Hi : In m' (filter (fun m => 1 <? nparents c m) anc')) by (rewrite El; left; reflexivity). apply filter_In in Hi as [_ Hi]. apply Nat.ltb_lt in Hi. exact Hi.
Qed.
End WithSolver.
