(** [linv] through deaggregation; the whole run. *)
From Verif Require Import Base BaseFacts LpModel LpUtil Automaton StateSet BuildFacts StateFacts CoreModel HeapFacts CoreOps CorePop CoreExt CoreDag CoreDag2 CoreDag3 CoreLive.
Open Scope nat_scope.

(** [n] is [N] or one of its ancestors *)
Inductive below (c : core) (n : nat) : nat -> Prop :=
| below_refl : below c n n
| below_step N o M : In o (n_parents (getN c N)) -> o_parent (getO c o) = Some M -> below c n M -> below c n N.

Lemma ex_or_all {A} (P Q : A -> Prop) l : (forall x, In x l -> P x \/ Q x) -> (exists x, In x l /\ P x) \/ (forall x, In x l -> Q x).
Proof.
  induction l as [|x l IH]; intro H; [right; intros x []|]. destruct (H x (or_introl eq_refl)) as [K|K]; [left; exists x; split; [left; auto|auto]|].
  destruct IH as [(y & K1 & K2)|K2]; [intros y Hy; apply H; right; auto|left; exists y; split; [right; auto|auto]|]. right. intros y [<-|Hy]; auto.
Qed.
Lemma map_res_get {A B} (f : A -> res B) l : forall r x, map_res f l = Ok r -> In x l -> exists y, f x = Ok y /\ In y r.
Proof.
  induction l as [|z l IH]; intros r x H Hx; [destruct Hx|]. cbn [map_res] in H. apply bind_ok in H as (y & Hy & H). apply bind_ok in H as (ys & Hys & H). apply ok_inj in H. subst r.
  destruct Hx as [<-|Hx]; [exists y; split; [auto|left; auto]|]. destruct (IH ys x Hys Hx) as (w & K1 & K2). exists w. split; [auto|right; auto].
Qed.
Lemma dedup_keep l : forall acc k, In k acc \/ In k l -> In k (fold_left dedup_add l acc).
Proof.
  induction l as [|x l IH]; intros acc k H; cbn [fold_left]; [destruct H as [H|[]]; auto|]. apply IH. destruct H as [H|[<-|H]]; [| |right; auto]; left; unfold dedup_add.
  - destruct (in_nat x acc); [auto|apply in_app_iff; auto].
  - destruct (in_nat x acc) eqn:E; [|apply in_app_iff; right; left; auto]. unfold in_nat in E. apply existsb_exists in E as (y & K1 & K2). apply Nat.eqb_eq in K2. subst y. exact K1.
Qed.

Section Live.
Variable solve : solver.
Variable arnoldi : nat -> option (list Q) -> csr -> option csr -> nat -> list (list Q).
Variable cf : cfg.
Variable a : ha.
Notation dag := (dag cf a).
Notation cinv := (cinv cf a).
Notation linv := (linv cf a).

Lemma below_le mp c n N : dag mp c -> below c n N -> live c N -> n <= N.
Proof.
  intros D. induction 1 as [|N o M H1 H2 H3 IH]; intro L; [auto|]. inversion L as [N' HN K1 K2]. subst N'. specialize (K2 o M H1 H2). specialize (IH K2).
  destruct (d_parents _ _ _ _ D N HN) as (_ & _ & _ & _ & Q). destruct (Q o H1) as (_ & _ & _ & Q4 & _). specialize (Q4 M H2). lia.
Qed.
Lemma below_leaves mp c n N : dag mp c -> below c n N -> live c N -> forall fuel l, leaf_ops fuel c n = Ok l -> exists f' l', leaf_ops f' c N = Ok l' /\ forall o, In o l' -> In o l.
Proof.
  intros D. induction 1 as [|N o M H1 H2 H3 IH]; intros L fuel l HL; [exists fuel, l; auto|]. inversion L as [N' HN K1 K2]. subst N'. specialize (K2 o M H1 H2).
  destruct (IH K2 fuel l HL) as (f1 & l1 & E1 & S1). destruct f1 as [|f1]; [discriminate|]. cbn [leaf_ops] in E1. apply bind_ok in E1 as (ls & E1 & E2). apply ok_inj in E2.
  assert (Hin : In N (fold_left dedup_add (flat_map (fun o => match o_child (getO c o) with None => [] | Some k => [k] end) (tr_ops (getN c M))) [])).
  { apply dedup_keep. right. apply in_flat_map. exists o. split; [|rewrite (K1 o H1); left; auto]. apply tr_ops_in. destruct (d_parents _ _ _ _ D N HN) as (_ & _ & _ & _ & Q). destruct (Q o H1) as (Q1 & _). apply (d_par _ _ _ _ D o M Q1 H2). }
  destruct (map_res_get _ _ _ _ E1 Hin) as (l2 & E3 & E4). exists f1, l2. split; [exact E3|]. intros q Hq. apply S1. subst l1. apply in_app_iff. right. apply in_concat. exists l2. auto.
Qed.
Lemma leaf_in c fuel N l o : leaf_ops fuel c N = Ok l -> In (NTr o) (n_ops (getN c N)) -> o_child (getO c o) = None -> In o l.
Proof.
  destruct fuel as [|f]; cbn [leaf_ops]; [discriminate|]. intros H Ho Hc. apply bind_ok in H as (ls & _ & H). apply ok_inj in H. subst l. apply in_app_iff. left. apply filter_In. split; [apply tr_ops_in; auto|rewrite Hc; auto].
Qed.

Lemma ancestors_live c : forall fuel n l, live c n -> get_ancestors fuel c n = Ok l -> forall m, In m l -> live c m.
Proof.
  induction fuel as [|f IH]; intros n l L H m Hm; cbn [get_ancestors] in H; [discriminate|]. inversion L as [N' HN K1 K2]. subst N'. destruct (n_parents (getN c n)) as [|o ps]; [discriminate|].
  destruct (o_parent (getO c o)) as [p|] eqn:E.
  - apply bind_ok in H as (r & Hr & H). apply ok_inj in H. subst l. apply in_app_iff in Hm as [Hm|[<-|[]]]; [|exact L]. eapply IH; [|exact Hr|exact Hm]. apply (K2 o p); [left; auto|auto].
  - apply ok_inj in H. subst l. destruct Hm as [<-|[]]. exact L.
Qed.
Lemma scan_some c : forall w seen rv n, deagg_scan a c w seen rv = Ok (Some n) -> rv = Some n \/ exists o, In o w /\ o_parent (getO c o) = Some n.
Proof.
  induction w as [|o w IH]; intros seen rv n H; cbn [deagg_scan] in H; [apply ok_inj in H; auto|]. destruct (ss_conc _) in H; [apply IH in H as [H|(q & H1 & H2)]; [auto|right; exists q; split; [right; auto|auto]]|].
  destruct (o_parent (getO c o)) as [p|] eqn:Ep; [|discriminate].
  assert (R : forall rv', (rv' = (if is_error (get_mode a (ss_mode (pstate c o))) then Some p else rv) \/ rv' = Some p) -> rv' = Some n \/ (exists q, In q w /\ o_parent (getO c q) = Some n) -> rv = Some n \/ exists q, In q (o :: w) /\ o_parent (getO c q) = Some n).
  { intros rv' Hrv [H'|(q & K1 & K2)]; [|right; exists q; split; [right; auto|auto]]. destruct Hrv as [->| ->].
    - destruct (is_error _); [|auto]. right. exists o. split; [left; auto|congruence].
    - right. exists o. split; [left; auto|congruence]. }
  destruct (find _ _) as [[p' t]|].
  - apply IH in H. destruct (onat_eqb _ _) in H; [apply (R _ (or_introl eq_refl) H)|apply (R _ (or_intror eq_refl) H)].
  - apply bind_ok in H as (u & _ & H). apply IH in H. apply (R _ (or_introl eq_refl) H).
Qed.
Lemma ins_in c x l y : In y (ins_stable c x l) -> y = x \/ In y l.
Proof. induction l as [|z l IH]; cbn [ins_stable]; [intros [H|[]]; auto|]. destruct (_ <=? _); intros [H|H]; [right; left; auto|apply IH in H as [H|H]; [auto|right; right; auto]|auto|right; auto]. Qed.
Lemma sort_in' c l y : In y (sort_nodes c l) -> In y l.
Proof.
  unfold sort_nodes. assert (H : forall l acc, In y (fold_left (fun acc x => ins_stable c x acc) l acc) -> In y acc \/ In y l).
  { clear. induction l as [|x l IH]; intros acc H; cbn [fold_left] in H; [auto|]. apply IH in H as [H|H]; [|right; right; auto]. apply ins_in in H as [->|H]; [right; left; auto|auto]. }
  intro K. apply H in K as [[]|K]. exact K.
Qed.
Lemma deagg_live mp c n : lv mp c -> get_deagg_node cf a c = Ok (Some n) -> live c n.
Proof.
  intros L H. unfold get_deagg_node in H. destruct (cf_strat cf) as [g|]; [|discriminate]. destruct (negb _) in H; [discriminate|]. apply bind_ok in H as (rv & Hs & H). destruct rv as [m|]; [|discriminate].
  apply scan_some in Hs as [Hs|(o & H1 & H2)]; [discriminate|]. assert (Lm : live c m) by (apply (lv_wait _ _ L o); auto). apply bind_ok in H as (anc & Ha & H).
  assert (K : forall q, In q (match ag_pref g with DLeaves => rev anc | DRoot => anc | DMost => rev (sort_nodes c anc) end) -> live c q).
  { intros q Hq. apply (ancestors_live c _ m anc Lm Ha). destruct (ag_pref g); [apply in_rev in Hq; auto|auto|apply in_rev in Hq; apply sort_in' in Hq; auto]. }
  destruct (filter _ _) as [|q qs] eqn:Ef in H; [discriminate|]. apply ok_inj in H. injection H as <-. apply K. eapply (proj1 (filter_In _ _ _)). rewrite Ef. left. reflexivity.
Qed.

Lemma linv_begin c n c' : linv c -> c_rep c = None -> c_dwait c = [] -> c_cur c = None -> live c n -> begin_replay solve arnoldi a c n = Ok c' -> linv c'.
Proof.
  intros V Hrep Hdw Hcur Ln H. destruct (cinv_begin solve arnoldi cf a c n c' (li_cinv _ _ _ V) Hrep H) as (CI & Hrep' & Hcur'). assert (D := ci_dag _ _ _ (li_cinv _ _ _ V)). assert (L := li_lv _ _ _ V). unfold rep_map in D, L. rewrite Hrep in D, L.
  unfold begin_replay in H. apply bind_ok in H as (rm & Hrm & H). set (w := filter _ (c_wait c)) in H. set (c0 := with_wait c w) in *.
  apply bind_ok in H as ([c2 chs] & H1 & H). apply ok_inj in H. subst c'. unfold split_node in H1. apply bind_ok in H1 as ([] & Ha & H1). apply bind_ok in H1 as (str & _ & H1).
  apply bind_ok in H1 as ([c3 n0] & M0 & H1). apply bind_ok in H1 as ([c4 n1] & M1 & H1). cbn [fst snd] in *. apply ok_inj in H1. injection H1 as <- <-.
  assert (Hn := live_lt _ _ Ln). change (getN c0 n) with (getN c n) in *. set (ps := n_parents (getN c n)) in *.
  assert (Hl : 2 <= List.length ps). { unfold assert in Ha. destruct (1 <? List.length ps) eqn:E; [apply Nat.ltb_lt in E; lia|discriminate]. }
  destruct (d_parents _ _ _ _ D n Hn) as (P1 & P2 & P3 & P4 & P5). fold ps in P1, P2, P4, P5.
  set (mid := Nat.div (List.length ps) 2) in *.
  assert (Hmid : 1 <= mid /\ mid < List.length ps). { unfold mid. split; [apply Nat.div_le_lower_bound; lia|apply Nat.div_lt; lia]. }
  assert (L1 : List.length (firstn mid ps) = mid) by (rewrite firstn_length; lia).
  assert (L2 : List.length (skipn mid ps) = List.length ps - mid) by apply skipn_length.
  assert (X1 : forall o, In o (firstn mid ps) -> In o ps) by (intros o; apply in_firstn).
  assert (X2 : forall o, In o (skipn mid ps) -> In o ps) by (intros o; apply in_skipn).
  assert (E1 : firstn mid ps <> []) by (intro K; rewrite K in L1; cbn [List.length] in L1; lia).
  assert (E2 : skipn mid ps <> []) by (intro K; rewrite K in L2; cbn [List.length] in L2; lia).
  assert (X3 : forall o, In o (firstn mid ps) -> ~ In o (skipn mid ps)) by (rewrite <- (firstn_skipn mid ps) in P2; apply NoDup_app_split in P2; apply P2).
  assert (X4 : forall o, In o ps -> In o (firstn mid ps) \/ In o (skipn mid ps)) by (intros o Ho; apply in_app_iff; rewrite firstn_skipn; auto).
  apply make_node_ptr in M0 as (En0 & HN0 & HO0 & X0 & GN0 & Gp0 & Gq0 & _ & Gf0 & Gc0 & Gx0 & Cu0 & Hw0 & Hd0 & Hr0 & _); [|exact E1|intros o Ho; apply P5; auto].
  apply make_node_ptr in M1 as (En1 & HN1 & HO1 & X1' & GN1 & Gp1 & Gq1 & _ & Gf1 & Gc1 & Gx1 & Cu1 & Hw1 & Hd1 & Hr1 & _); [|exact E2|intros o Ho; rewrite HO0; apply P5; auto].
  change (nN c0) with (nN c) in *. change (nO c0) with (nO c) in *.
  assert (Fp : forall o, o_parent (getO c4 o) = o_parent (getO c o)) by (intro o; destruct (Gf1 o) as (_ & -> & _), (Gf0 o) as (_ & -> & _); reflexivity).
  assert (Fc0 : forall o, ~ In o ps -> o_child (getO c4 o) = o_child (getO c o)) by (intros o Ho; rewrite Gx1, Gx0; auto).
  assert (Fc1 : forall o, In o (firstn mid ps) -> o_child (getO c4 o) = Some n0) by (intros o Ho; rewrite Gx1 by auto; auto).
  assert (Fc2 : forall o, In o (skipn mid ps) -> o_child (getO c4 o) = Some n1) by auto.
  assert (FN : forall N, N < nN c -> n_parents (getN c4 N) = n_parents (getN c N)) by (intros N HN; rewrite GN1, GN0 by lia; reflexivity).
  assert (FN0 : n_parents (getN c4 n0) = firstn mid ps) by (rewrite GN1 by lia; exact Gp0).
  assert (HN4 : nN c4 = S (S (nN c))) by lia.
  assert (Pn : forall o, In o ps -> o_child (getO c o) = Some n) by (inversion Ln; subst; auto).
  (* nodes not below n stay live *)
  assert (LK : forall N, live c N -> below c n N \/ live c4 N).
  { induction 1 as [N HN K1 K2 IH]. destruct (Nat.eq_dec N n) as [->|Hne]; [left; constructor|].
    assert (Hno : forall o, In o (n_parents (getN c N)) -> ~ In o ps) by (intros o Ho Hi; specialize (K1 o Ho); specialize (Pn o Hi); congruence).
    assert (IH' : forall o, In o (n_parents (getN c N)) -> (exists M, o_parent (getO c o) = Some M /\ below c n M) \/ (forall M, o_parent (getO c o) = Some M -> live c4 M)).
    { intros o Ho. destruct (o_parent (getO c o)) as [M|] eqn:EM; [|right; discriminate]. destruct (IH o M Ho EM) as [K|K]; [left; eauto|right; intros M' [= <-]; auto]. }
    destruct (ex_or_all _ _ _ IH') as [(o & Ho & M & HM & HB)|HA]; [left; eapply below_step; eauto|]. right. constructor; [lia| |]; rewrite FN by auto.
    - intros o Ho. rewrite Fc0 by auto. auto.
    - intros o M Ho HM. rewrite Fp in HM. eauto. }
  assert (Hpar : forall o M, In o ps -> o_parent (getO c o) = Some M -> live c4 M).
  { intros o M Ho HM. assert (LM : live c M) by (inversion Ln; subst; eauto). destruct (LK M LM) as [K|K]; [|exact K]. exfalso. apply (below_le _ _ _ _ D) in K; [|exact LM]. destruct (P5 o Ho) as (_ & _ & _ & Q & _). specialize (Q M HM). lia. }
  assert (Ln0 : live c4 n0). { constructor; [lia| |]; rewrite FN0; [exact Fc1|]. intros o M Ho HM. rewrite Fp in HM. eauto. }
  assert (Ln1 : live c4 n1). { constructor; [lia| |]; rewrite Gp1; [exact Fc2|]. intros o M Ho HM. rewrite Fp in HM. eauto. }
  assert (Hr4 : c_rep c4 = None) by (rewrite Hr1, Hr0; exact Hrep). assert (Hd4 : c_dwait c4 = []) by (rewrite Hd1, Hd0; exact Hdw).
  set (c5 := with_dwait c4 (c_dwait c4 ++ [(n, [n0; n1])])) in *.
  assert (D4 : dag [] c4). { assert (D5 := ci_dag _ _ _ CI). unfold rep_map in D5. rewrite Hrep' in D5. apply (dag_wait cf a _ c5); auto; apply D5. }
  assert (KC : kc c4 c5) by (apply kc_same; reflexivity).
  constructor; auto.
  - unfold rep_map. rewrite Hrep'. constructor.
    + intros N HN. change (nN c5) with (nN c4) in HN. apply (aon_kc cf a [] c4); auto. destruct (Nat.eq_dec N n1) as [->|H1]; [left; rewrite Gp1; auto|]. destruct (Nat.eq_dec N n0) as [->|H0]; [left; rewrite FN0; auto|].
      unfold all_or_none. rewrite FN by lia. destruct (Nat.eq_dec N n) as [->|Hne].
      * right. intros o Ho. destruct (X4 o Ho) as [K|K]; [rewrite Fc1 by auto|rewrite Fc2 by auto]; intros [=]; lia.
      * destruct (lv_all _ _ L N ltac:(lia)) as [K|K]; [left|right]; intros o Ho.
        -- rewrite Fc0; [auto|]. intro Hi. specialize (K o Ho). specialize (Pn o Hi). congruence.
        -- destruct (in_dec Nat.eq_dec o ps) as [Hi|Hi]; [|rewrite Fc0 by auto; auto]. destruct (X4 o Hi) as [Q|Q]; [rewrite Fc1 by auto|rewrite Fc2 by auto]; intros [=]; lia.
    + change (c_wait c5) with (c_wait c4). rewrite Hw1, Hw0. change (c_wait c0) with w. intros o Ho. apply filter_In in Ho as [Ho Hb]. apply (op_live_kc cf a [] c4); auto; [destruct (proj2 (d_wait _ _ _ _ D) o Ho); lia|].
      intros M HM. rewrite Fp in HM. assert (LM : live c M) by (apply (lv_wait _ _ L o); auto). destruct (LK M LM) as [K|K]; [|exact K]. exfalso. apply negb_true_iff in Hb. apply Bool.not_true_iff_false in Hb. apply Hb. apply mem_In.
      destruct (below_leaves _ _ _ _ D K LM _ _ Hrm) as (f' & l' & Q1 & Q2). apply Q2. destruct (proj2 (d_wait _ _ _ _ D) o Ho) as [W1 W2]. eapply leaf_in; [exact Q1| |exact W2]. apply (d_par _ _ _ _ D o M W1 HM).
    + intros o [].
  - rewrite Hcur', Hcur. discriminate.
  - intros p chs ch Hi Hj. change (c_dwait c5) with (c_dwait c4 ++ [(n, [n0; n1])]) in Hi. rewrite Hd4 in Hi. destruct Hi as [[= <- <-]|[]]. apply (live_kc cf a [] c4); auto. destruct Hj as [<-|[<-|[]]]; auto.
  - rewrite Hrep'. discriminate.
Qed.

Lemma pending_add_in mp k o q : In q (pending (map_add mp k o)) -> q = o \/ In q (pending mp).
Proof. destruct (pending_add mp k o) as (l1 & l2 & -> & ->). rewrite !in_app_iff. intros [K|[<-|K]]; auto. Qed.

Lemma lv_replay_op c mp ch x r : dag mp c -> lv mp c -> live c ch -> (forall o, x = NTr o -> o < nO c) -> replay_op solve cf a c mp ch x = Ok r -> lv (snd r) (fst r) /\ kc c (fst r).
Proof.
  intros D L Hch Hx H. assert (Hn := live_lt _ _ Hch). destruct x as [k i st|k b|o]; cbn [replay_op] in H.
  - apply bind_ok in H as (c1 & H1 & H). apply ok_inj in H. subst r. cbn [fst snd]. unfold replay_inv in H1. apply bind_ok in H1 as (s & Hs & H1). destruct (nth_error _ _) in H1; [|discriminate].
    apply bind_ok in H1 as ([[s2 o] st'] & Hc & H1).
    assert (K : keeps c (setS c (n_state (getN c ch)) s2)) by (apply keeps_set; eapply f2_trans; [eapply f2_step; exact Hs|eapply f2_cond; exact Hc]). set (c0 := setS c (n_state (getN c ch)) s2) in *.
    assert (N0 : nN c0 = nN c) by (rewrite (k_nodes _ _ K); auto). assert (W0 : c_wait c0 = c_wait c) by apply K. assert (K0 := kc_keeps _ _ K).
    assert (G : forall c1, kc c0 c1 -> nN c1 = nN c0 -> c_wait c1 = c_wait c0 -> lv mp c1 /\ kc c c1).
    { intros c2 Q1 Q2 Q3. assert (KK : kc c c2) by (eapply kc_trans; eauto). split; [|auto]. apply (lv_kc cf a mp c c2 D L KK); [congruence|rewrite Q3, W0; auto]. }
    destruct o as [[|]|].
    + apply bind_ok in H1 as (f & _ & H1). destruct f; apply ok_inj in H1; subst c1.
      * apply G; [apply kc_push|apply nN_push|reflexivity].
      * apply G; [eapply kc_trans; apply kc_push|rewrite !nN_push; auto|reflexivity].
    + apply ok_inj in H1; subst c1. apply G; [apply kc_refl|auto|auto].
    + apply ok_inj in H1; subst c1. apply G; [apply kc_push|apply nN_push|reflexivity].
  - apply ok_inj in H. subst r. cbn [fst snd]. split; [|apply kc_push]. apply (lv_kc cf a mp c); auto; [apply kc_push|apply nN_push].
  - specialize (Hx o eq_refl). unfold replay_tr in H. apply bind_ok in H as (s & Hs & H). destruct (o_trans (getO c o)) as [t|] eqn:Et; [|discriminate]. apply bind_ok in H as ([l1 ol] & _ & H). cbn [fst snd] in H.
    match type of H with context [Ok (?cc, mp)] => set (c2 := cc) in H end.
    assert (K2 : keeps c c2) by (eapply keeps_trans; [apply keeps_set; eapply f2_step; exact Hs|apply keeps_lpi]).
    assert (L2 := lv_keeps _ _ _ _ _ D L K2). assert (D2 := dag_k _ _ _ _ _ D K2).
    destruct ol as [l|]; [|apply ok_inj in H; subst r; split; [auto|apply kc_keeps; auto]]. apply bind_ok in H as (c3 & H3 & H).
    assert (K3 : keeps c2 c3). { destruct (is_error _) in H3; [eapply keeps_err; eauto|apply ok_inj in H3; subst; apply keeps_refl]. }
    assert (K03 := keeps_trans _ _ _ K2 K3). assert (D3 := dag_k _ _ _ _ _ D2 K3). assert (L3 := lv_keeps _ _ _ _ _ D L K03). assert (C3 := kc_keeps _ _ K03). assert (N3 := live_kc _ _ _ _ _ _ D C3 Hch).
    apply bind_ok in H as ([c4 no] & H4 & H). apply make_op_ptr in H4 as [[-> ->]|[-> (s' & ctr & Hm & _ & _ & ->)]]; [apply ok_inj in H; subst r; auto|].
    set (x := mkOp (ss_step (getS c3 (n_state (getN c ch)))) (Some ch) None (Some t) (nS c3) ctr) in *.
    destruct (dag_new_op cf a mp c3 s' x ch t D3 (live_lt _ _ N3) eq_refl eq_refl eq_refl eq_refl Hm) as (D5 & B1 & B2 & B3 & B4 & B5 & B6 & B7 & B8 & B9 & B10 & B11 & B12).
    assert (KC := kc_new_op cf a mp c3 s' x ch t D3 (live_lt _ _ N3) eq_refl eq_refl eq_refl eq_refl Hm).
    match type of H with context [Ok (?cc, map_add _ _ _)] => change cc with (with_new_op c3 s' x ch) in H end.
    set (c5 := with_new_op c3 s' x ch) in *. assert (L5 : lv mp c5) by (apply (lv_kc cf a mp c3); auto; rewrite B3; auto). assert (C5 := kc_trans _ _ _ C3 KC).
    assert (Lo : op_live c5 (nO c3)) by (intros M HM; rewrite B7 in HM; injection HM as <-; apply (live_kc cf a mp c3); auto).
    destruct (o_child (getO c o)) as [k|] eqn:Ek; apply ok_inj in H; subst r; cbn [fst snd].
    + split; [|exact C5]. constructor; try apply L5. intros q Hq. apply pending_add_in in Hq as [->|Hq]; [exact Lo|apply (lv_mp _ _ L5); auto].
    + split; [|eapply kc_trans; [exact C5|apply kc_same; reflexivity]].
      assert (X : forall q, op_live c5 q -> op_live (with_wait c5 (c_wait c5 ++ [nO c3])) q) by (intros q Hq M HM; apply (live_kc cf a mp c5); auto; apply kc_same; reflexivity).
      constructor.
      * intros N HN. apply (aon_kc cf a mp c5); auto; [apply kc_same; reflexivity|apply (lv_all _ _ L5); auto].
      * ccbn. intros q Hq. apply in_app_iff in Hq as [Hq|[<-|[]]]; apply X; [apply (lv_wait _ _ L5); auto|exact Lo].
      * intros q Hq. apply X, (lv_mp _ _ L5), Hq.
Qed.

Lemma lv_replay_children x chs : forall c mp r, dag mp c -> lv mp c -> (forall ch, In ch chs -> live c ch) -> (forall o, x = NTr o -> o < nO c) -> replay_children solve cf a c mp chs x = Ok r -> lv (snd r) (fst r) /\ kc c (fst r).
Proof.
  induction chs as [|ch chs IH]; intros c mp r D L Hch Hx H; cbn [replay_children] in H; [apply ok_inj in H; subst; split; [auto|apply kc_refl]|].
  apply bind_ok in H as (r1 & H1 & H).
  assert (K : dag (snd r1) (fst r1) /\ pf c (fst r1) /\ lv (snd r1) (fst r1) /\ kc c (fst r1)).
  { destruct (left_inv c ch); [apply ok_inj in H1; subst; split; [auto|split; [apply pf_refl|split; [auto|apply kc_refl]]]|].
    destruct (dag_replay_op solve cf a c mp ch x r1 D (live_lt _ _ (Hch ch (or_introl eq_refl))) Hx H1). destruct (lv_replay_op c mp ch x r1 D L (Hch ch (or_introl eq_refl)) Hx H1). auto. }
  destruct K as (D1 & P1 & L1 & K1). destruct (IH _ _ r D1 L1) as [L2 K2]; auto.
  - intros k Hk. apply (live_kc cf a mp c); auto. apply Hch. right; auto.
  - intros o Ho. specialize (Hx o Ho). pose proof (pf_nO _ _ P1). lia.
  - split; [auto|eapply kc_trans; eauto].
Qed.
Lemma lv_replay_loop chs xs : forall c mp idx cur only pl c' mp' i' cu' pl', dag mp c -> lv mp c -> (forall ch, In ch chs -> live c ch) -> (forall o, In (NTr o) xs -> o < nO c) ->
  replay_loop solve cf a c mp chs idx cur only pl xs = Ok (c', mp', i', cu', pl') -> lv mp' c' /\ kc c c'.
Proof.
  induction xs as [|x xs IH]; intros c mp idx cur only pl c' mp' i' cu' pl' D L Hch Hx H; cbn [replay_loop] in H; [apply ok_inj in H; injection H as <- <- _ _ _; split; [auto|apply kc_refl]|].
  set (p := if (cur <? nop_step c x) && negb only then (S cur, true) else (cur, only)) in H. destruct p as [cur1 only1].
  destruct (negb _) in H; [apply ok_inj in H; injection H as <- <- _ _ _; split; [auto|apply kc_refl]|].
  destruct (only1 && _); [apply ok_inj in H; injection H as <- <- _ _ _; split; [auto|apply kc_refl]|]. apply bind_ok in H as (r1 & H1 & H).
  assert (Hx1 : forall o, x = NTr o -> o < nO c) by (intros o ->; apply Hx; left; auto).
  destruct (dag_replay_children solve cf a x chs c mp r1 D (fun ch Q => live_lt _ _ (Hch ch Q)) Hx1 H1) as [D1 P1].
  destruct (lv_replay_children x chs c mp r1 D L Hch Hx1 H1) as [L1 K1].
  apply IH in H as [L2 K2]; [split; [exact L2|eapply kc_trans; eauto]|exact D1|exact L1| |].
  - intros k Hk. apply (live_kc cf a mp c); auto.
  - intros o Ho. pose proof (Hx o (or_intror Ho)). pose proof (pf_nO _ _ P1). lia.
Qed.
Lemma keeps_advance k chs : forall c c', advance_children a c chs k = Ok c' -> keeps c c'.
Proof.
  induction chs as [|ch chs IH]; intros c c' H; cbn [advance_children] in H; [apply ok_inj in H; subst; apply keeps_refl|]. apply bind_ok in H as (c1 & H1 & H).
  eapply keeps_trans; [|eapply IH; eauto]. destruct (left_inv c ch); [apply ok_inj in H1; subst; apply keeps_refl|]. apply bind_ok in H1 as (s & Hs & H1). apply ok_inj in H1. subst c1. apply keeps_set. eapply f2_step; exact Hs.
Qed.

Definition dw_live (c : core) : Prop := forall p chs ch, In (p, chs) (c_dwait c) -> In ch chs -> live c ch.
Lemma lv_finish mp : forall c c', dag mp c -> lv mp c -> dw_live c -> finish_map solve arnoldi a c mp = Ok c' -> lv [] c' /\ dw_live c' /\ c_cur c' = c_cur c /\ kc c c'.
Proof.
  induction mp as [|[[ch k] os] mp IH]; intros c c' D L Hd H; cbn [finish_map] in H; [apply ok_inj in H; subst; split; [auto|split; [auto|split; [auto|apply kc_refl]]]|]. apply bind_ok in H as ([c1 n] & H1 & H).
  destruct (d_map _ _ _ _ D ch k os (or_introl eq_refl)) as (P1 & P2 & P3 & P4). pose proof (d_mapnd _ _ _ _ D) as ND. unfold pending in ND. cbn [map snd List.concat] in ND.
  apply NoDup_app_split in ND as (N1 & N2 & N3).
  assert (D0 : dag mp c). { constructor; try apply D; [exact N2|]. intros ch' k' os' K. apply (d_map _ _ _ _ D). right; auto. }
  assert (H0 : In (nth 0 os 0) os) by (destruct os; [congruence|left; reflexivity]).
  assert (D1 : dag mp c1).
  { eapply dag_make_node; [exact D0|exact P1|exact N1| | | |exact H1].
    - intros o Ho. destruct (P4 o Ho) as (Q1 & Q2 & Q3 & Q4 & Q5 & _). destruct (P4 _ H0) as (_ & _ & _ & _ & Q6 & _). split; [auto|]. split; [auto|]. split; [exact (N3 o Ho)|congruence].
    - intros _ o Ho. destruct (P4 o Ho) as (_ & _ & -> & _). discriminate.
    - intros HP o o' Ho Ho'. destruct (P4 o Ho) as (_ & _ & -> & _ & _ & T1), (P4 o' Ho') as (_ & _ & -> & _ & _ & T2). split; [auto|].
      destruct (d_parents _ _ _ _ D k P3) as (Kn & _). destruct (n_parents (getN c k)) as [|q qs]; [congruence|]. rewrite <- (T1 HP q), <- (T2 HP q) by (left; auto). reflexivity. }
  assert (Ho2 : forall o, In o os -> o < nO c /\ o_child (getO c o) = None) by (intros o Ho; destruct (P4 o Ho); tauto).
  assert (Ho3 : forall o, In o os -> o < nO c /\ o_child (getO c o) = None /\ op_live c o).
  { intros o Ho. destruct (Ho2 o Ho). split; [auto|]. split; [auto|]. apply (lv_mp _ _ L). unfold pending. cbn [map snd List.concat]. apply in_app_iff. left; auto. }
  assert (KC := kc_make_node solve a arnoldi c os _ _ c1 n P1 Ho2 H1). assert (Ln := live_make_node solve cf a arnoldi _ c os _ _ c1 n D P1 Ho3 H1).
  assert (L1 : lv mp c1). { eapply (lv_make_node solve cf a arnoldi (((ch, k), os) :: mp) mp); [exact D|exact L| |exact P1|exact Ho2|exact H1]. intros o Ho. unfold pending. cbn [map snd List.concat]. apply in_app_iff. right; auto. }
  apply make_node_ptr in H1 as (En & HN & _ & _ & _ & _ & _ & _ & _ & _ & _ & Cu & _ & Hdw & _); [|exact P1|intros o Ho; apply P4; auto].
  set (c2 := with_dwait c1 (c_dwait c1 ++ [(k, [n])])) in *. assert (K2 : kc c1 c2) by (apply kc_same; reflexivity).
  apply IH in H as (A1 & A2 & A3 & A4).
  - split; [auto|]. split; [auto|]. split; [rewrite A3; exact Cu|]. eapply kc_trans; [exact KC|]. eapply kc_trans; [exact K2|exact A4].
  - apply (dag_wait cf a _ c1); auto; apply D1.
  - apply (lv_kc cf a mp c1); auto.
  - intros p chs q Kq Hq. unfold c2 in Kq. ccbn_in Kq. rewrite Hdw in Kq. apply (live_kc cf a mp c1); auto. apply in_app_iff in Kq as [Kq|[[= <- <-]|[]]]; [apply (live_kc cf a _ c _ _ D KC); eapply Hd; eauto|]. destruct Hq as [<-|[]]. exact Ln.
Qed.

Lemma linv_replay c c' : linv c -> c_cur c = None -> do_step_replay solve arnoldi cf a c = Ok c' -> linv c' /\ c_cur c' = None.
Proof.
  intros V Hcu H. assert (CI := cinv_replay solve arnoldi cf a _ _ (li_cinv _ _ _ V) H). unfold do_step_replay in H. apply bind_ok in H as (c1 & H1 & H).
  assert (V1 : dag (rep_map c1) c1 /\ lv (rep_map c1) c1 /\ c_cur c1 = None /\ dw_live c1 /\ (forall r, c_rep c1 = Some r -> rp_parent r < nN c1 /\ forall ch, In ch (rp_children r) -> live c1 ch)).
  { assert (D := ci_dag _ _ _ (li_cinv _ _ _ V)). assert (L := li_lv _ _ _ V). destruct (c_rep c) as [r|] eqn:Er.
    - apply ok_inj in H1; subst c1. split; [exact D|]. split; [exact L|]. split; [exact Hcu|]. split; [exact (li_dw _ _ _ V)|]. rewrite Er. intros r' K. rewrite <- Er in K. destruct (ci_rep _ _ _ (li_cinv _ _ _ V) r' K) as [K1 K2]. split; [exact K1|]. intros ch Hch. exact (li_rep _ _ _ V r' ch K Hch).
    - destruct (c_dwait c) as [|[p chs] dw] eqn:Ed; [discriminate|]. assert (Hin0 : In (p, chs) (c_dwait c)) by (rewrite Ed; left; auto). apply ok_inj in H1. subst c1. unfold rep_map in *. rewrite Er in D, L. cbn [c_rep with_rep rp_map].
      set (c1 := with_rep (with_dwait c dw) (Some (mkRep p chs 0 []))). assert (K : kc c c1) by (apply kc_same; reflexivity).
      split; [apply (dag_wait cf a _ c); auto; apply D|]. split; [apply (lv_kc cf a [] c); auto|]. split; [auto|]. split.
      + intros p' chs' ch K1 K2. apply (live_kc cf a [] c); auto. apply (li_dw _ _ _ V p' chs'); auto. rewrite Ed. right; auto.
      + intros r' [= <-]. cbn [rp_parent rp_children]. destruct (ci_dw _ _ _ (li_cinv _ _ _ V) p chs Hin0) as [Kp _]. split; [exact Kp|]. intros ch Hch. apply (live_kc cf a [] c); auto. exact (li_dw _ _ _ V p chs ch Hin0 Hch). }
  clear V H1 Hcu. destruct V1 as (D1 & L1 & Hcu & W1 & R). destruct (c_rep c1) as [rp|] eqn:Er; [|discriminate]. destruct (nth_error _ _) as [x0|] in H; [|discriminate]. apply bind_ok in H as ([[[[c2 mp] i2] k2] p2] & H2 & H).
  unfold rep_map in D1, L1. rewrite Er in D1, L1. destruct (R rp eq_refl) as [R1 R2].
  assert (Hxs : forall o, In (NTr o) (skipn (rp_idx rp) (n_ops (getN c1 (rp_parent rp)))) -> o < nO c1) by (intros o Ho; apply in_skipn in Ho; apply (d_ntr _ _ _ _ D1) in Ho; tauto).
  assert (DP := dag_replay_loop solve cf a _ _ _ _ _ _ _ _ _ _ _ _ _ D1 (fun ch Q => live_lt _ _ (R2 ch Q)) Hxs H2). destruct DP as [D2 P2].
  apply (lv_replay_loop _ _ _ _ _ _ _ _ _ _ _ _ _ D1 L1 R2 Hxs) in H2 as [L2 C2].
  apply bind_ok in H as (c3 & H3 & H). apply keeps_advance in H3. assert (D3 := dag_k _ _ _ _ _ D2 H3). assert (L3 := lv_keeps _ _ _ _ _ D2 L2 H3). assert (C3 := kc_trans _ _ _ C2 (kc_keeps _ _ H3)). apply bind_ok in H as (u & _ & H).
  assert (P3 := pf_trans _ _ _ P2 (pf_keeps _ _ H3)).
  assert (W3 : dw_live c3) by (intros p chs ch K1 K2; rewrite (pf_dw _ _ P3) in K1; apply (live_kc cf a _ c1 _ _ D1 C3); eapply W1; eauto).
  destruct (_ || _) in H.
  - apply bind_ok in H as (c4 & H4 & H). destruct (lv_finish _ _ _ D3 L3 W3 H4) as (L4 & W4 & Cu4 & C4). apply ok_inj in H. subst c'.
    assert (Cn : c_cur (with_rep c4 None) = None) by (ccbn; rewrite Cu4, (pf_cur _ _ P3); exact Hcu). split; [|exact Cn].
    assert (D5 := ci_dag _ _ _ CI). change (rep_map (with_rep c4 None)) with (@nil ((nat * nat) * list nat)) in D5. assert (D4 : dag [] c4) by (apply (dag_wait cf a _ (with_rep c4 None)); auto; apply D5).
    assert (K5 : kc c4 (with_rep c4 None)) by (apply kc_same; reflexivity). constructor; auto.
    + apply (lv_kc cf a [] c4); auto.
    + rewrite Cn. discriminate.
    + intros p chs ch K1 K2. apply (live_kc cf a [] c4); auto. eapply W4; eauto.
    + discriminate.
  - apply ok_inj in H; subst c'. assert (Cn : c_cur (with_rep c3 (Some (mkRep (rp_parent rp) (rp_children rp) i2 mp))) = None) by (ccbn; rewrite (pf_cur _ _ P3); exact Hcu). split; [|exact Cn].
    set (c5 := with_rep c3 _) in *. assert (K5 : kc c3 c5) by (apply kc_same; reflexivity). constructor; auto.
    + change (rep_map c5) with mp. apply (lv_kc cf a mp c3); auto.
    + rewrite Cn. discriminate.
    + intros p chs ch K1 K2. apply (live_kc cf a mp c3); auto. eapply W3; eauto.
    + intros r ch [= <-] K2. cbn [rp_children] in K2. apply (live_kc cf a mp c3); auto. apply (live_kc cf a _ c1 _ _ D1 C3). auto.
Qed.

Lemma linv_step c c' : linv c -> do_step solve arnoldi cf a c = Ok c' -> linv c'.
Proof.
  intros V H. assert (CI := cinv_step solve arnoldi cf a _ _ (li_cinv _ _ _ V) H). unfold do_step in H. destruct (is_finished cf c); [apply ok_inj in H; subst; auto|]. destruct (cur_state c) as [[nid sid]|] eqn:Ec.
  - apply bind_ok in H as (c1 & H1 & H). apply ok_inj in H. subst c'. unfold cur_state in Ec. destruct (c_cur c) as [n|] eqn:En; [|discriminate]. destruct (left_inv c n); [discriminate|]. injection Ec as -> _.
    apply linv_cont in H1; auto. set (c2 := with_csteps c1 _) in *. assert (K : kc c1 c2) by (apply kc_same; reflexivity). assert (D1 := ci_dag _ _ _ (li_cinv _ _ _ H1)). constructor; auto.
    + change (rep_map c2) with (rep_map c1). apply (lv_kc cf a _ c1); auto. apply H1.
    + intros m Hm. destruct (li_cur _ _ _ H1 m Hm) as (A1 & A2 & A3 & A4). split; [apply (live_kc cf a _ c1 _ _ D1 K A1)|]. auto.
    + intros p chs ch K1 K2. apply (live_kc cf a _ c1 _ _ D1 K). eapply (li_dw _ _ _ H1); eauto.
    + intros r ch K1 K2. apply (live_kc cf a _ c1 _ _ D1 K). eapply (li_rep _ _ _ H1); eauto.
  - assert (Hcu : c_cur c = None). { unfold cur_state in Ec. destruct (c_cur c) as [n|] eqn:En; [|auto]. destruct (li_cur _ _ _ V n En) as (_ & K & _). rewrite K in Ec. discriminate. }
    unfold doing_replay in H. destruct (c_rep c) eqn:Er; [apply (linv_replay c); auto|]. destruct (c_dwait c) eqn:Ed; [|apply (linv_replay c); auto].
    apply bind_ok in H as ([n|] & Hdn & H).
    + apply bind_ok in H as (c1 & H1 & H). assert (Ln : live c n) by (eapply deagg_live; [apply V|exact Hdn]).
      assert (Cu1 : c_cur c1 = None) by (destruct (cinv_begin solve arnoldi cf a c n c1 (li_cinv _ _ _ V) Er H1) as (_ & _ & ->); auto).
      apply linv_begin in H1; auto. apply (linv_replay c1); auto.
    + apply bind_ok in H as (c1 & H1 & H). apply linv_step_pop in H1; auto. destruct (cur_state c1) as [[nid sid]|] eqn:Ec1; [|apply ok_inj in H; subst; auto].
      destruct (cf_urgent cf); [|apply ok_inj in H; subst; auto]. unfold check_guards in H. unfold cur_state in Ec1. destruct (c_cur c1) as [m|] eqn:Em; [|discriminate]. destruct (left_inv c1 m) eqn:Elf; [discriminate|]. injection Ec1 as -> _.
      destruct (li_cur _ _ _ H1 nid Em) as (A1 & A2 & A3 & A4). assert (D1 := ci_dag _ _ _ (li_cinv _ _ _ H1)).
      assert (P2 := proj2 (dag_guards solve cf a _ _ _ _ _ _ D1 (live_lt _ _ A1) H)).
      destruct (lv_guards solve cf a _ _ _ _ _ _ D1 (li_lv _ _ _ H1) A1 H) as (L2 & C2 & I2). apply (linv_none _ _ c1); auto; [congruence|apply P2|apply P2|].
      intros n Kn. rewrite (pf_cur _ _ P2), Em in Kn. injection Kn as <-. split; [apply (live_kc cf a _ c1 _ _ D1 C2 A1)|auto].
Qed.

Lemma linv_setup ss c : setup solve a ss = Ok c -> linv c.
Proof.
  intro H. assert (CI := cinv_setup solve cf a ss c H). unfold setup in H. apply bind_ok in H as (u & _ & H). apply bind_ok in H as (c1 & H1 & H).
  assert (I : cinit c) by (apply (cinit_setup solve a ss core0); [apply cinit0|]; destruct (c_wait c1); [discriminate|]; apply ok_inj in H; subst c1; exact H1). destruct I. constructor; auto.
  - unfold rep_map. rewrite cs_rep. constructor.
    + rewrite cs_nodes. cbn. lia.
    + intros o Ho M HM. rewrite cs_wait in Ho. apply in_seq in Ho. destruct (cs_ops o ltac:(lia)) as (E & _). congruence.
    + intros o [].
  - rewrite cs_cur. discriminate.
  - rewrite cs_dw. intros p chs ch [].
  - rewrite cs_rep. discriminate.
Qed.
Lemma linv_reached ss c : reached solve arnoldi cf a ss c -> linv c.
Proof. induction 1; [eapply linv_setup; eauto|eapply linv_step; eauto]. Qed.
End Live.
