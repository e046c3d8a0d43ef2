(** Termination of the analysis with an approximation model that only replaces the state's set (APPROX_NONE, APPROX_CHULL). *)
From Verif Require Import Base BaseFacts LpModel LpUtil Automaton StateSet StateFacts CoreModel HeapFacts CoreOps CorePop CoreExt CoreDag CoreDag2 CoreDag3 CoreLive CoreLive2 CoreIvl CoreIvl2 CoreIvl3 LexWf CoreDepth CoreDepth2 CoreCont CoreTermD Approx CoreApprox.
Open Scope nat_scope.

Section TermA.
Variable solve : solver.
Variable arnoldi : nat -> option (list Q) -> csr -> option csr -> nat -> list (list Q).
Variable cf : cfg.
Variable a : ha.
Variable ap : sset -> res sset.
Hypothesis Hset : forall s s', ap s = Ok s' -> exists l, s' = ss_with_lpi s l.
Notation dag := (dag cf a).
Notation linv := (linv cf a).

Lemma pop_ap_split c c' : do_step_pop_ap solve arnoldi cf a ap c = Ok c' -> exists c1, do_step_pop solve arnoldi cf a c = Ok c1 /\ (c' = c1 \/ exists i l, c' = setS c1 i (ss_with_lpi (getS c1 i) l)).
Proof.
  unfold do_step_pop_ap, do_step_pop. intro H. apply bind_ok in H as ([c1 nid] & H1 & H). rewrite H1. cbn [bind]. destruct (is_error _); [apply ok_inj in H; subst c'; eauto|].
  apply bind_ok in H as ([c2 ok] & H2 & H). rewrite H2. cbn [bind]. destruct ok.
  - apply bind_ok in H as (s & Hs & H). apply ok_inj in H. subst c'. destruct (Hset _ _ Hs) as (l & ->). exists c2. split; [reflexivity|]. right. eauto.
  - apply ok_inj in H. subst c'. eauto.
Qed.
Lemma step_ap_split c c' : do_step_ap solve arnoldi cf a ap c = Ok c' -> do_step solve arnoldi cf a c = Ok c' \/
  (is_finished cf c = false /\ cur_state c = None /\ c_rep c = None /\ c_dwait c = [] /\ exists c1, do_step_pop_ap solve arnoldi cf a ap c = Ok c1 /\
   match cur_state c1 with Some (nid, sid) => if cf_urgent cf then check_guards solve cf a c1 nid sid else Ok c1 | None => Ok c1 end = Ok c').
Proof.
  unfold do_step_ap, do_step. destruct (is_finished cf c); [auto|]. destruct (cur_state c) as [[nid sid]|]; [auto|]. unfold doing_replay. destruct (c_rep c); [auto|]. destruct (c_dwait c); [|auto].
  intro H. apply bind_ok in H as ([n|] & Hdn & H); rewrite Hdn; cbn [bind]; [auto|]. right. repeat (split; [reflexivity|]). apply bind_ok in H as (c1 & H1 & H). eauto.
Qed.
Lemma linv_lpi c i l : linv c -> linv (setS c i (ss_with_lpi (getS c i) l)).
Proof.
  intro V. assert (D := ci_dag _ _ _ (li_cinv _ _ _ V)). set (c' := setS c i _). assert (K : keeps c c') by apply keeps_lpi. assert (KC : kc c c') by (apply kc_keeps; exact K). constructor.
  - apply (cinv_pf cf a c); [apply V|apply (dag_k _ _ _ c); [exact D|exact K]|reflexivity|reflexivity|reflexivity|]. intros n Hn. exact (ci_cur _ _ _ (li_cinv _ _ _ V) n Hn).
  - change (rep_map c') with (rep_map c). apply (lv_keeps cf a _ c); auto. apply V.
  - intros n Hn. destruct (li_cur _ _ _ V n Hn) as (A1 & A2 & A3 & A4). split; [apply (live_kc cf a _ c _ _ D KC A1)|]. auto.
  - intros p chs ch K1 K2. apply (live_kc cf a _ c _ _ D KC). eapply (li_dw _ _ _ V); eauto.
  - intros r ch K1 K2. apply (live_kc cf a _ c _ _ D KC). eapply (li_rep _ _ _ V); eauto.
Qed.
Lemma cur_none c : linv c -> cur_state c = None -> c_cur c = None.
Proof. intros V Ec. unfold cur_state in Ec. destruct (c_cur c) as [n|] eqn:En; [|auto]. destruct (li_cur _ _ _ V n En) as (_ & K & _). rewrite K in Ec. discriminate. Qed.

Lemma li_pop_ap c c1 : linv c -> iv c -> c_cur c = None -> c_rep c = None -> c_dwait c = [] -> do_step_pop_ap solve arnoldi cf a ap c = Ok c1 -> linv c1 /\ iv c1.
Proof.
  intros V I Hc Hr Hd H. destruct (pop_ap_split _ _ H) as (c2 & H2 & H3). assert (V2 := linv_step_pop solve cf a arnoldi _ _ V Hc Hr Hd H2). destruct (iv_step_pop solve cf a arnoldi _ _ V I Hc Hr Hd H2) as (I2 & _).
  destruct H3 as [->|(i & l & ->)]; [auto|]. split; [apply linv_lpi; exact V2|]. exact (iv_mv cf a _ _ _ (ci_dag _ _ _ (li_cinv _ _ _ V2)) I2 (mv_lpi _ _ _)).
Qed.
Lemma li_step_ap c c' : linv c -> iv c -> do_step_ap solve arnoldi cf a ap c = Ok c' -> linv c' /\ iv c'.
Proof.
  intros V I H. destruct (step_ap_split _ _ H) as [H1|(_ & Ec & Er & Ed & c1 & H1 & H2)]; [split; [eapply linv_step; eauto|eapply iv_step; eauto]|]. clear H. rename H2 into H.
  assert (Hcu := cur_none c V Ec). destruct (li_pop_ap _ _ V I Hcu Er Ed H1) as [V1 I1].
  destruct (cur_state c1) as [[nid sid]|] eqn:Ec1; [|apply ok_inj in H; subst; auto]. destruct (cf_urgent cf); [|apply ok_inj in H; subst; auto].
  unfold check_guards in H. unfold cur_state in Ec1. destruct (c_cur c1) as [m|] eqn:Em; [|discriminate]. destruct (left_inv c1 m) eqn:Elf; [discriminate|]. injection Ec1 as -> <-.
  destruct (li_cur _ _ _ V1 nid Em) as (A1 & A2 & A3 & A4). assert (D1 := ci_dag _ _ _ (li_cinv _ _ _ V1)).
  assert (P2 := proj2 (dag_guards solve cf a _ _ _ _ _ _ D1 (live_lt _ _ A1) H)). assert (D2 := proj1 (dag_guards solve cf a _ _ _ _ _ _ D1 (live_lt _ _ A1) H)).
  destruct (lv_guards solve cf a _ _ _ _ _ _ D1 (li_lv _ _ _ V1) A1 H) as (L2 & C2 & I2). split.
  - apply (linv_none _ _ c1); auto; [congruence| |apply P2|apply P2|].
    + apply (cinv_pf cf a c1); [apply V1|exact D2|apply P2|apply P2|rewrite (pf_nN _ _ P2); auto|]. intros n Hn. rewrite (pf_cur _ _ P2) in Hn. rewrite (pf_nN _ _ P2). exact (ci_cur _ _ _ (li_cinv _ _ _ V1) n Hn).
    + intros n Kn. rewrite (pf_cur _ _ P2), Em in Kn. injection Kn as <-. split; [apply (live_kc cf a _ _ _ _ D1 C2 A1)|auto].
  - eapply (iv_guards solve cf a _ nid); [exact D1|exact I1|apply live_lt; auto|exact H].
Qed.

(** ** the measure of CoreTermD.v *)
Hypothesis HP : path_cf cf.
Variable rk : nat -> nat.
Variable R : nat.
Hypothesis Hrk : cf_urgent cf = true -> forall t, t < List.length (ha_trans a) -> rk (t_to (get_trans a t)) < rk (t_from (get_trans a t)).
Notation tv := (tv cf rk R).
Notation mlt := (mlt cf R).
Notation okop := (okop cf rk R).
Notation Gd := (Gd cf a rk R).
Lemma step_pop_ap c c1 c' : linv c -> tv c -> c_cur c = None -> c_rep c = None -> c_dwait c = [] -> do_step_pop_ap solve arnoldi cf a ap c = Ok c1 ->
  match cur_state c1 with Some (nid, sid) => if cf_urgent cf then check_guards solve cf a c1 nid sid else Ok c1 | None => Ok c1 end = Ok c' -> linv c' -> tv c' /\ mlt c' c.
Proof.
  intros V TV Hc Hr Hd H HG V'. assert (D := ci_dag _ _ _ (li_cinv _ _ _ V)). unfold rep_map in D. rewrite Hr in D. unfold do_step_pop_ap in H. apply bind_ok in H as ([cm nid] & Hpop & H).
  destruct (linv_pop solve cf a arnoldi _ _ _ V Hc Hr Hd Hpop) as [Vm Cm]. assert (Dm' := ci_dag _ _ _ (li_cinv _ _ _ Vm)). destruct (li_cur _ _ _ Vm nid Cm) as (Lm & _ & Hrm & Hdm). assert (Nm := live_lt _ _ Lm).
  unfold rep_map in Dm'. rewrite Hrm in Dm'. set (d := dp cm nid).
  (* the new node *)
  unfold pop_waiting_list in Hpop. apply bind_ok in Hpop as (ops & Hops & Hpop). apply bind_ok in Hpop as (u & _ & Hpop). apply bind_ok in Hpop as (agg & _ & Hpop). apply bind_ok in Hpop as ([c2 n2] & Hm & Hpop). apply ok_inj in Hpop. injection Hpop as <- <-.
  destruct (pop_ops_ptr cf a c ops _ D Hops) as (K1 & K2 & K3 & _ & _). set (w := filter (fun o => negb (mem o ops)) (c_wait c)) in *. set (c0 := with_wait c w) in *.
  assert (Ho : forall o, In o ops -> o < nO c0 /\ o_child (getO c0 o) = None) by (intros o Hi; destruct (K3 o Hi) as [Q _]; apply (proj2 (d_wait _ _ _ _ D) o Q)).
  assert (KC2 := kc_make_node solve a arnoldi c0 ops agg _ c2 n2 K1 Ho Hm). apply make_node_ptr in Hm as (En & HN & HO & _ & _ & Gp & _ & _ & _ & _ & _ & _ & Hw2 & _); [|auto|intros o Q; apply Ho; auto].
  change (nN c0) with (nN c) in *. change (nO c0) with (nO c) in *. set (cm := with_cur c2 (Some n2)) in *.
  assert (KC : kc c cm). { eapply kc_trans; [apply (kc_same c c0); reflexivity|]. eapply kc_trans; [exact KC2|]. apply kc_same; reflexivity. }
  assert (Wm : c_wait cm = w) by (change (c_wait cm) with (c_wait c2); rewrite Hw2; reflexivity). assert (Om : nO cm = nO c) by exact HO. assert (NNm : nN cm = S (nN c)) by exact HN.
  assert (Dops : forall o, In o ops -> In o (c_wait c) /\ odp c o = d).
  { intros o Hi. destruct (K3 o Hi) as [Q _]. split; [exact Q|]. destruct (proj2 (d_wait _ _ _ _ D) o Q) as [Ql _]. rewrite <- (odp_ext cf a [] c cm o D (proj1 KC) Ql). symmetry. apply (dp_node cf a [] cm n2 o HP Dm' Nm). change (getN cm n2) with (getN c2 n2). rewrite Gp. exact Hi. }
  assert (Tm : tv cm). { constructor; [|rewrite Hdm; intros p chs []|rewrite Hrm; discriminate]. intros o Hlt. rewrite Om in Hlt. apply (ok_ext cf a rk R [] c); auto; [apply KC|apply TV; auto]. }
  (* what follows *)
  assert (F : fx [n2] (GQ (Gd d)) cm c' /\ (c_cur c' = None \/ c_cur c' = Some n2)).
  { assert (F1 : fx [n2] (GQ (Gd d)) cm c1 /\ (c_cur c1 = None \/ c_cur c1 = Some n2 /\ dag [] c1)).
    { destruct (is_error _) in H; [apply ok_inj in H; subst c1; split; [apply fx_left; left; auto|left; auto]|]. apply bind_ok in H as ([c3 ok] & H3 & H). destruct (dag_intersect solve cf a _ _ _ _ _ _ Dm' H3) as [D3 P3].
      assert (F3 := fx_intersect solve a (Gd d) _ _ _ _ _ H3). destruct ok.
      - apply bind_ok in H as (s & Hs & H). apply ok_inj in H. subst c1. destruct (Hset _ _ Hs) as (l & ->). assert (KL := keeps_lpi c3 (n_state (getN cm n2)) l).
        split; [eapply fx_trans; [exact F3|apply fx_keeps; exact KL]|right; split; [change (c_cur c3 = Some n2); rewrite (pf_cur _ _ P3); exact Cm|apply (dag_k _ _ _ c3); [exact D3|exact KL]]].
      - apply ok_inj in H. subst c1. split; [eapply fx_trans; [exact F3|apply fx_left; left; auto]|left; reflexivity]. }
    destruct F1 as [F1 C1]. destruct (cur_state c1) as [[x y]|] eqn:Ec.
    2:{ apply ok_inj in HG. subst c'. split; [exact F1|]. tauto. }
    unfold cur_state in Ec. destruct C1 as [C1|[C1 D1]]; [rewrite C1 in Ec; discriminate|]. rewrite C1 in Ec. destruct (left_inv c1 n2); [discriminate|]. injection Ec as <- <-.
    assert (EE : cf_urgent cf = true \/ cf_urgent cf = false) by (destruct (cf_urgent cf); auto). destruct EE as [E|E]; rewrite E in HG; [|apply ok_inj in HG; subst c'; auto].
    assert (N1 : n2 < nN c1) by (rewrite (fx_nN _ _ _ _ F1); exact Nm).
    assert (HL : forall n, In n [n2] -> n < nN cm /\ dp cm n = d) by (intros n [<-|[]]; auto).
    assert (OK1 := ok_fx cf a rk R Hrk [n2] [] [] cm c1 d Dm' D1 F1 HL (tv_op cf rk R _ Tm)).
    assert (Ed : dp c1 n2 = d) by (apply (dp_ext cf a [] cm c1 n2 Dm' (fx_ext _ _ _ _ F1) Nm)).
    unfold check_guards in HG. destruct (dag_guards solve cf a _ _ _ _ _ _ D1 N1 HG) as [_ P2]. split; [|right; rewrite (pf_cur _ _ P2); exact C1].
    eapply fx_trans; [exact F1|]. eapply (fx_guards solve cf a (Gd d) [] n2); [exact D1|exact N1| | |exact HG].
    - apply (d_parents _ _ _ _ D1 n2 N1).
    - intros t Ht. rewrite <- Ed. apply (Gd_urgent cf a HP rk R Hrk [] c1 n2); auto. }
  destruct F as [F Cc]. assert (D' := ci_dag _ _ _ (li_cinv _ _ _ V')). assert (Hr' : c_rep c' = None) by (rewrite (fx_rep _ _ _ _ F); auto). assert (Hd' : c_dwait c' = []) by (rewrite (fx_dw _ _ _ _ F); auto). unfold rep_map in D'. rewrite Hr' in D'.
  assert (HL : forall n, In n [n2] -> n < nN cm /\ dp cm n = d) by (intros n [<-|[]]; auto). split; [apply (tv_fx0 cf a rk R Hrk [n2] cm c' d); auto|].
  assert (A1 : forall d', d' <= d -> Am [] [] c' d' <= Am [] [] cm d') by (apply (A_fx arnoldi cf a R [n2] (GQ (Gd d)) [] [] cm c' d); auto; [intros q []|intros pi []]).
  assert (NS : forall d', nsum cm d' = nsum c d' + nw cm d' n2). { intro d'. rewrite (nsum_kc arnoldi cf a R [] c cm d' D KC). rewrite NNm, En. replace (S (nN c) - nN c) with 1 by lia. cbn [seq lsum fold_right]. lia. }
  assert (Hsub : forall o, In o w -> In o (c_wait c) /\ ~ In o ops) by (intros o Hi; apply filter_In in Hi as [Q1 Q2]; split; [auto|]; intro Q3; apply mem_In in Q3; rewrite Q3 in Q2; discriminate).
  assert (NDw : NoDup (c_wait c)) by apply D. assert (NDw2 : NoDup w) by (apply NoDup_filter; exact NDw).
  assert (Ew : forall d', cnt (odp cm) d' w = cnt (odp c) d' w). { intro d'. apply cnt_ext. intros o Hi. apply (odp_ext cf a [] c cm o D (proj1 KC)). apply (proj2 (d_wait _ _ _ _ D) o). apply (Hsub o Hi). }
  assert (L1 : 1 <= List.length ops) by (destruct ops; [congruence|cbn; lia]).
  assert (A2 : Am [] [] cm d < Am [] [] c d).
  { unfold Am. rewrite Wm, NS. change (pending []) with (@nil nat). rewrite !app_nil_r, Ew. pose proof (cnt_take (odp c) d (c_wait c) ops NDw K2 Dops w NDw2 Hsub) as Q.
    assert (Z : nw cm d n2 <= 2 * List.length ops - 2). { unfold nw. change (getN cm n2) with (getN c2 n2). rewrite Gp. destruct (_ && _); lia. } unfold cnt at 2 4. cbn [filter List.length]. lia. }
  assert (A3 : forall d', d' < d -> Am [] [] cm d' <= Am [] [] c d').
  { intros d' Hlt. unfold Am. rewrite Wm, NS. change (pending []) with (@nil nat). rewrite !app_nil_r, Ew. assert (Z : nw cm d' n2 = 0). { unfold nw. fold d. destruct (Nat.eqb_spec d d'); [lia|reflexivity]. }
    assert (Q : cnt (odp c) d' w <= cnt (odp c) d' (c_wait c)) by (apply cnt_le; [auto|intros o Hi Eo; split; [apply (Hsub o Hi)|exact Eo]]). unfold cnt at 2 4. cbn [filter List.length]. lia. }
  apply (mlt_A cf R c c' d).
  - apply (node_ok cf a HP rk R Hrk [] cm n2 Dm' (tv_op cf rk R _ Tm) Nm).
  - unfold rep_map. rewrite Hr, Hr', (items_none c), (items_none c') by auto. specialize (A1 d ltac:(lia)). lia.
  - intros d' Hlt. unfold rep_map, Bm. rewrite Hr, Hr', (items_none c), (items_none c') by auto. specialize (A1 d' ltac:(lia)). specialize (A3 d' Hlt). split; [lia|]. cbn [lsum fold_right].
    assert (Z : curw cf c' d' = 0); [|lia]. unfold curw. destruct Cc as [-> | ->]; [reflexivity|]. rewrite (dp_ext cf a [] cm c' n2 Dm' (fx_ext _ _ _ _ F) Nm). fold d. destruct (Nat.eqb_spec d d'); [lia|reflexivity].
Qed.


Lemma mu_step_ap c c' : linv c -> iv c -> tv c -> is_finished cf c = false -> do_step_ap solve arnoldi cf a ap c = Ok c' -> tv c' /\ mlt c' c.
Proof.
  intros V I TV Hf H. destruct (li_step_ap c c' V I H) as [V' _]. destruct (step_ap_split _ _ H) as [H1|(_ & Ec & Er & Ed & c1 & H1 & H2)].
  - apply (mu_step solve arnoldi cf a HP rk R Hrk c c'); auto.
  - apply (step_pop_ap c c1 c'); auto. apply cur_none; auto.
Qed.
Lemma lex_loop_ap c : linv c -> iv c -> tv c -> exists fuel, run_loop_ap solve arnoldi cf a ap fuel c <> None.
Proof.
  assert (W := lexlt_wf (2 * S (Dm cf R)) (mu cf c)). remember (mu cf c) as m eqn:Em. revert c Em. induction W as [m _ IH]. intros c -> V I T.
  destruct (is_finished cf c) eqn:Ef; [exists 0; cbn [run_loop_ap]; rewrite Ef; discriminate|]. destruct (do_step_ap solve arnoldi cf a ap c) as [c1|e] eqn:E; [|exists 1; cbn [run_loop_ap]; rewrite Ef, E; discriminate].
  destruct (mu_step_ap c c1 V I T Ef E) as [T1 M1]. destruct (li_step_ap c c1 V I E) as [V1 I1]. destruct (IH (mu cf c1) M1 c1 eq_refl V1 I1 T1) as [f Hf].
  exists (S f). cbn [run_loop_ap]. rewrite Ef, E. exact Hf.
Qed.
End TermA.

Lemma terminates_setup_ap solve arnoldi cf a ap ss c : (forall s s', ap s = Ok s' -> exists l, s' = ss_with_lpi s l) -> path_cf cf -> (forall s, In s ss -> start_ok s) ->
  (cf_urgent cf = true -> exists rk : nat -> nat, forall t, t < List.length (ha_trans a) -> rk (t_to (get_trans a t)) < rk (t_from (get_trans a t))) ->
  setup solve a ss = Ok c -> exists fuel, run_loop_ap solve arnoldi cf a ap fuel c <> None.
Proof.
  intros Hset HP Hs Hu H. assert (EE : cf_urgent cf = true \/ cf_urgent cf = false) by (destruct (cf_urgent cf); auto).
  assert (K : exists rk : nat -> nat, cf_urgent cf = true -> forall t, t < List.length (ha_trans a) -> rk (t_to (get_trans a t)) < rk (t_from (get_trans a t))).
  { destruct EE as [E|E]; [destruct (Hu E) as [rk K]; exists rk; auto|exists (fun _ => 0); rewrite E; discriminate]. }
  destruct K as [rk K]. set (R := list_max (map (fun o => rk (omode c o)) (seq 0 (nO c)))).
  apply (lex_loop_ap solve arnoldi cf a ap Hset HP rk R K c); [eapply linv_setup; exact H|eapply iv_setup; eauto|]. apply (tv_setup solve cf a rk R K ss c H). intros _ o Ho.
  assert (Q : Forall (fun k => k <= R) (map (fun o => rk (omode c o)) (seq 0 (nO c)))) by (apply list_max_le; unfold R; lia). rewrite Forall_forall in Q. apply Q. apply in_map_iff. exists o. split; [auto|]. apply in_seq. lia.
Qed.
