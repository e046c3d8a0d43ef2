(** Deaggregation does not fail on bounded sets: one replay step (for C66). *)
From Verif Require Import Base BaseFacts LpModel LpSpec SetSpec LpUtil LpFacts LpWf SetFacts SetFacts2 MinkFacts OpsFacts OpsFacts2 OpsFacts3 OpsFacts4 AggFacts ChullFacts
  ApiSpec ApiFacts Automaton StateSet HybridSpec FlowFacts StateSpec StateFacts StateFacts2 StateFacts3 AutoFacts BuildFacts CoreModel HeapFacts Prop_Sets CoreOps CorePop CoreExt CoreDag CoreDag2 CoreDag3
  CoreGhost CoreHeap CoreInv CoreStep CoreCont CoreReplay CoreDeagg CoreIvl CoreShape CoreShape2
  Bounded Bounded2 Bounded3 Bounded4 Bounded5 Bounded6 Bounded7 ChullTotal CoreTotal CoreTotal2 CoreTotal3 CoreTotalD CexD2 CexD3 CexD4.
From Coq Require Import Lia Lqa Setoid QArith.Qabs.
Open Scope nat_scope.

Section WithSolver.
Variable solve : solver.
Hypothesis Hsolve : solver_ok solve.
Hypothesis Hcomp : solver_complete solve.
Variable cf : cfg.
Variable a : ha.
Hypothesis WH : wf_ha a.
Hypothesis HF : fits a.
Hypothesis Hinp : forall m, m < List.length (ha_modes a) -> m_b (get_mode a m) <> None -> m_inv (get_mode a m) = [].
Hypothesis Hnum : 0 < cf_num cf.
Hypothesis Hce : cf_ce cf = true -> CexSetup.index_ok a.
Notation kq := (kq cf a).
Variable ru : rules.
Variable I0 : nat -> vec -> Prop.
Notation dag := (dag cf a).
Notation tinv := (tinv solve a).
Notation err m := (is_error (get_mode a m)).
Notation base := (base solve cf a ru I0).
Notation done := (done a ru I0).
Notation dg := (dg cf).
Notation child_ok := (child_ok a ru I0).
Notation map_ok := (map_ok a ru I0).
Notation loop_inv := (loop_inv solve cf a ru I0).

(** the conditions of a recorded invariant operation exist *)
Definition idx_ok (c : core) (P : nat) (xs : list nop) : Prop := forall k i b, In (NInv k i b) xs -> i < List.length (m_inv (get_mode a (nodemode c P))).
Definition at_step (c : core) (k ch : nat) : Prop := left_inv c ch = true \/ ss_step (nst c ch) = k.
Definition le_step (c : core) (k ch : nat) : Prop := left_inv c ch = true \/ ss_step (nst c ch) <= k.
Definition part (l : list nat) (pre : list nop) (x : nop) (ch : nat) : list nop := if in_dec Nat.eq_dec ch l then pre else pre ++ [x].

Lemma idx_ext c c' P xs : ext c c' -> P < nN c -> n_state (getN c P) < nS c -> idx_ok c P xs -> idx_ok c' P xs.
Proof.
  intros X HP Hs H k i b Hi. unfold nodemode. rewrite (proj1 (ex_node _ _ X P HP)), (proj1 (ex_mode _ _ X _ Hs)). exact (H k i b Hi).
Qed.

Lemma replay_op_total (D X : nat -> Prop) mp c P ch pre x rest pf pf' :
  base D X (flat_map snd mp) c -> X ch -> D P -> done c P -> n_ops (getN c P) = pre ++ x :: rest -> child_ok c P (x :: rest) ch -> left_inv c ch = false ->
  dag mp c -> tinv c -> kq c -> idx_ok c P [x] -> mapb c mp pf -> (forall ch k, cnt c (pf ch) k <= cnt c (pf' ch) k) -> (forall k, cnt c (pf ch) k + cnt c [x] k <= cnt c (pf' ch) k) ->
  exists c' mp', replay_op solve cf a c mp ch x = Ok (c', mp') /\ tinv c' /\ at_step c' (nop_step c x) ch /\ mapb c mp' pf'.
Proof.
  intros B HX HP HdP Eops [K1 K2 K3 K4] Hl Dg T KQ Hidx HB Hmono Hnew.
  assert (HPn : P < nN c) by (apply (b_D _ _ _ _ _ _ _ _ _ B); auto).
  destruct K4 as [(K4 & _)|(filt & A)]; [congruence|]. pose proof (ac_err _ _ _ _ _ _ (ca_act _ _ _ _ _ _ _ A)) as He.
  change (is_error (get_mode a (nodemode c ch)) = false) in He.
  assert (Hs : ss_step (nst c ch) <= nop_step c x) by (apply (ca_step _ _ _ _ _ _ _ A); left; reflexivity).
  assert (HB' : mapb c mp pf') by (apply (mapb_mono c c mp pf); auto).
  destruct x as [k i b|k b|o]; cbn [replay_op nop_step] in *.
  - destruct (replay_inv_total solve Hsolve Hcomp cf a WH HF Hnum c mp ch k i Dg T K1 He Hs) as (c' & E & T' & S').
    { change (nodemode c ch) with (nmode c ch). rewrite K2. exact (Hidx k i b (or_introl eq_refl)). }
    rewrite E. cbn [bind]. exists c', mp. auto.
  - eexists. eexists. split; [reflexivity|]. split; [apply tinv_push; exact T|]. split; [|exact HB']. left. rewrite left_inv_push by exact K1. rewrite Nat.eqb_refl. reflexivity.
  - assert (Hin : In (NTr o) (n_ops (getN c P))) by (rewrite Eops; apply in_or_app; right; left; reflexivity).
    destruct (d_ntr _ _ _ _ Dg P o HPn Hin) as [Ho Hpar].
    destruct (replay_tr_total solve Hsolve Hcomp cf a WH HF Hnum c mp ch o P pf pf' Dg T KQ K1 Ho Hpar K2 He Hs HB Hmono) as (c' & mp' & E & T' & S' & B').
    { intros k Hk. specialize (Hnew k). unfold cnt at 2 in Hnew. unfold trl in Hnew. cbn [flat_map app filter] in Hnew. unfold leads in Hnew. rewrite Hk, Nat.eqb_refl in Hnew. cbn [List.length] in Hnew. exact Hnew. }
    exists c', mp'. split; [exact E|]. split; [exact T'|]. split; [right; exact S'|exact B'].
Qed.

Lemma replay_children_total (D X : nat -> Prop) chs P pre x rest : dg = true -> D P -> (forall ch, In ch chs -> X ch) ->
  forall l c mp, incl l chs -> NoDup l ->
  base D X (flat_map snd mp) c -> done c P -> n_ops (getN c P) = pre ++ x :: rest -> (forall ch, In ch l -> child_ok c P (x :: rest) ch) -> map_ok D chs c mp ->
  dag mp c -> tinv c -> kq c -> idx_ok c P [x] -> mapb c mp (part l pre x) ->
  exists c' mp', replay_children solve cf a c mp l x = Ok (c', mp') /\ tinv c' /\ (forall ch, In ch l -> at_step c' (nop_step c x) ch) /\ mapb c' mp' (fun _ => pre ++ [x]).
Proof.
  intros Hdg HP HXc. induction l as [|ch l IH]; intros c mp Hl HND B HdP Eops Hch Hm Dg T KQ Hidx HB.
  - exists c, mp. split; [reflexivity|]. split; [exact T|]. split; [intros ch []|]. exact HB.
  - inversion HND as [|? ? Hni HND']; subst. assert (HXch : X ch) by (apply HXc; apply Hl; left; auto).
    assert (HPn : P < nN c) by (apply (b_D _ _ _ _ _ _ _ _ _ B); auto).
    assert (HPch : P <> ch) by (intros ->; apply (b_X _ _ _ _ _ _ _ _ _ B) in HXch; tauto).
    assert (Hmono : forall ch' k, cnt c (part (ch :: l) pre x ch') k <= cnt c (part l pre x ch') k).
    { intros ch' k. unfold part. destruct (in_dec Nat.eq_dec ch' (ch :: l)) as [i|n], (in_dec Nat.eq_dec ch' l) as [i'|n']; try lia; [rewrite cnt_app; lia|]. exfalso. apply n. right. exact i'. }
    assert (Hnew : forall k, cnt c (part (ch :: l) pre x ch) k + cnt c [x] k <= cnt c (part l pre x ch) k).
    { intro k. unfold part. destruct (in_dec Nat.eq_dec ch (ch :: l)) as [i|n], (in_dec Nat.eq_dec ch l) as [i'|n']; try contradiction; [rewrite cnt_app; lia|]. exfalso. apply n. left. reflexivity. }
    assert (K : exists c1 mp1, (if left_inv c ch then Ok (c, mp) else replay_op solve cf a c mp ch x) = Ok (c1, mp1) /\ tinv c1 /\ at_step c1 (nop_step c x) ch /\ mapb c mp1 (part l pre x)).
    { destruct (left_inv c ch) eqn:El.
      - exists c, mp. split; [reflexivity|]. split; [exact T|]. split; [left; exact El|]. apply (mapb_mono c c mp _ _ HB Hmono).
      - exact (replay_op_total D X mp c P ch pre x rest _ _ B HXch HP HdP Eops (Hch ch (or_introl eq_refl)) El Dg T KQ Hidx HB Hmono Hnew). }
    destruct K as (c1 & mp1 & Hr1 & T1 & S1 & B1m). cbn [replay_children]. rewrite Hr1. cbn [bind fst snd].
    assert (HK : base D X (flat_map snd mp1) c1 /\ frame ch c c1 /\ map_ok D chs c1 mp1).
    { destruct (left_inv c ch) eqn:El.
      - apply ok_inj in Hr1. injection Hr1 as <- <-. split; [exact B|]. split; [apply frame_refl|]. exact Hm.
      - destruct (replay_op_ok solve Hsolve cf a WH Hinp ru I0 D X chs mp c P ch pre x rest c1 mp1) as (Q1 & Q2 & _ & Q4); auto; [apply Hl; left; auto|apply Hch; left; auto]. }
    destruct HK as (B1 & F1 & M1). pose proof (b_heap _ _ _ _ _ _ _ _ _ B) as H. pose proof (b_heap _ _ _ _ _ _ _ _ _ B1) as H1.
    assert (Hx : forall o, x = NTr o -> o < nO c).
    { intros o ->. apply (h_ntr _ _ _ _ _ H P o HPn). rewrite Eops. apply in_or_app. right. left. reflexivity. }
    assert (Dg1 : dag mp1 c1).
    { destruct (left_inv c ch) eqn:El; [apply ok_inj in Hr1; injection Hr1 as <- <-; exact Dg|]. apply (dag_replay_op _ _ _ _ _ _ _ _ Dg (co_N _ _ _ _ _ _ _ (Hch ch (or_introl eq_refl))) Hx Hr1). }
    assert (KQ1 : kq c1).
    { intro Ec. destruct (left_inv c ch); [apply ok_inj in Hr1; injection Hr1 as <- <-; exact (KQ Ec)|].
      refine (kinv_replay_op solve cf a WH (Hce Ec) c mp ch x (c1, mp1) P Dg (KQ Ec) (co_N _ _ _ _ _ _ _ (Hch ch (or_introl eq_refl))) (co_mode _ _ _ _ _ _ _ (Hch ch (or_introl eq_refl))) _ Hr1).
      intros o ->. apply (d_ntr _ _ _ _ Dg P o HPn). rewrite Eops. apply in_or_app. right. left. reflexivity. }
    assert (Eops1 : n_ops (getN c1 P) = pre ++ x :: rest) by (rewrite (fr_ops _ _ _ F1) by auto; exact Eops).
    assert (Hro : rest_ok c (x :: rest)) by (apply (ops_rest solve cf a ru I0 _ _ _ _ _ _ _ B HP Eops)).
    assert (Hd1 : done c1 P) by (apply (done_ext solve a ru I0 c c1); auto; [apply F1|apply F1; auto]).
    assert (Hch1 : forall ch', In ch' l -> child_ok c1 P (x :: rest) ch').
    { intros ch' Hch'. assert (Hne : ch' <> ch) by (intros ->; auto). apply (child_ok_ext solve a ru I0 c c1); auto; [apply F1|apply F1; auto|apply F1; auto|apply Hch; right; auto].
      apply (co_N _ _ _ _ _ _ _ (Hch ch' (or_intror Hch'))). }
    assert (Hidx1 : idx_ok c1 P [x]) by (apply (idx_ext c); auto; [apply F1|apply (h_nstate _ _ _ _ _ H P HPn)]).
    assert (Hcnt : forall o, In (NTr o) (pre ++ [x]) -> getO c1 o = getO c o).
    { intros o Ho. apply (fr_old _ _ _ F1). apply (h_ntr _ _ _ _ _ H P o HPn). rewrite Eops. apply in_app_iff in Ho as [Ho|[<-|[]]]; apply in_or_app; [left; exact Ho|right; left; reflexivity]. }
    assert (HB1 : mapb c1 mp1 (part l pre x)).
    { apply (mapb_mono c c1 mp1 (part l pre x)); [exact B1m|]. intros ch' k. apply Nat.eq_le_incl. symmetry. apply cnt_ext. intros o Ho. apply Hcnt. unfold part in Ho. destruct (in_dec _ _ _); [apply in_or_app; left; exact Ho|exact Ho]. }
    destruct (IH c1 mp1 ltac:(intros y Hy; apply Hl; right; auto) HND' B1 Hd1 Eops1 Hch1 M1 Dg1 T1 KQ1 Hidx1 HB1) as (c' & mp' & E & T' & S' & B'). exists c', mp'. split; [exact E|]. split; [exact T'|].
    destruct (replay_children_ok solve Hsolve cf a WH Hinp ru I0 D X chs P pre x rest Hdg HP HXc l c1 mp1 c' mp' ltac:(intros y Hy; apply Hl; right; auto) HND' B1 Hd1 Eops1 Hch1 M1 E) as (_ & F2 & _ & _).
    assert (Es : nop_step c1 x = nop_step c x) by (apply nop_step_ext; auto; apply F1). rewrite Es in S'. split; [|exact B'].
    intros ch' [<-|Hch']; [|auto]. unfold at_step, left_inv in *. rewrite (fl_ops _ _ _ F2) by exact Hni. rewrite (fl_st _ _ _ F2); [exact S1| |exact Hni].
    rewrite (fr_nN _ _ _ F1). apply (co_N _ _ _ _ _ _ _ (Hch ch (or_introl eq_refl))).
Qed.

Lemma replay_loop_total (D X : nat -> Prop) chs P : dg = true -> D P -> (forall ch, In ch chs -> X ch) -> NoDup chs ->
  forall xs c mp idx cur only pl, loop_inv D X chs P c mp idx cur xs -> dag mp c -> tinv c -> kq c -> idx_ok c P xs -> (forall ch, In ch chs -> le_step c cur ch) ->
  mapb c mp (fun _ => firstn idx (n_ops (getN c P))) ->
  exists c' mp' idx' cur' pl', replay_loop solve cf a c mp chs idx cur only pl xs = Ok (c', mp', idx', cur', pl') /\ tinv c' /\ (forall ch, In ch chs -> le_step c' cur' ch) /\
    mapb c' mp' (fun _ => firstn idx' (n_ops (getN c' P))).
Proof.
  intros Hdg HP HXc HND. induction xs as [|x xs IH]; intros c mp idx cur only pl L Dg T KQ Hidx HS HB; cbn [replay_loop]; [do 5 eexists; split; [reflexivity|auto]|].
  set (p := if (cur <? nop_step c x) && negb only then (S cur, true) else (cur, only)).
  assert (Hp : (forall y, In y (x :: xs) -> fst p <= nop_step c y) /\ cur <= fst p).
  { unfold p. destruct ((cur <? nop_step c x) && negb only) eqn:E; cbn [fst]; [|split; [intros y Hy; apply (li_cur _ _ _ _ _ _ _ _ _ _ _ _ _ _ L y Hy)|lia]]. split; [|lia]. intros y Hy.
    apply andb_true_iff in E as [E _]. apply Nat.ltb_lt in E. destruct Hy as [<-|Hy]; [exact E|].
    destruct (li_ops _ _ _ _ _ _ _ _ _ _ _ _ _ _ L) as (pre & Eo & _). destruct (li_done _ _ _ _ _ _ _ _ _ _ _ _ _ _ L) as (_ & Ho & _). unfold ordered in Ho. rewrite Eo in Ho. apply FOP_app_inv in Ho as [Ho _].
    pose proof (proj1 (ord_tail _ _ _ Ho y Hy)). lia. }
  destruct p as [cur1 only1]. cbn [fst] in Hp. destruct Hp as [Hp Hp2].
  assert (HS1 : forall ch, In ch chs -> le_step c cur1 ch) by (intros ch Hch; destruct (HS ch Hch) as [K|K]; [left; exact K|right; lia]).
  destruct (negb (nop_step c x =? cur1)) eqn:Es; [do 5 eexists; split; [reflexivity|auto]|].
  apply negb_false_iff, Nat.eqb_eq in Es.
  match goal with |- context [if ?b then Ok _ else _] => destruct b end; [do 5 eexists; split; [reflexivity|auto]|].
  destruct L as [B Hd (pre & Eo & Ei) Hch Hm Hcur]. pose proof (b_heap _ _ _ _ _ _ _ _ _ B) as H. assert (HPn : P < nN c) by (apply (b_D _ _ _ _ _ _ _ _ _ B); auto).
  assert (HPch : ~ In P chs) by (intro K; apply HXc, (b_X _ _ _ _ _ _ _ _ _ B) in K; tauto).
  assert (Hro : rest_ok c (x :: xs)) by (apply (ops_rest solve cf a ru I0 _ _ _ _ _ _ _ B HP Eo)).
  assert (Efn : firstn idx (n_ops (getN c P)) = pre) by (rewrite Eo, <- Ei, firstn_app, firstn_all, Nat.sub_diag; cbn [firstn]; apply app_nil_r).
  destruct (replay_children_total D X chs P pre x xs Hdg HP HXc chs c mp ltac:(intros y Hy; exact Hy) HND B Hd Eo Hch Hm Dg T KQ) as (c1 & mp1 & Hc & T1 & S1 & B1m).
  { intros k i b [E|[]]. apply (Hidx k i b). left. exact E. }
  { apply (mapb_mono c c mp _ _ HB). intros ch k. rewrite Efn. unfold part. destruct (in_dec _ _ _); [lia|rewrite cnt_app; lia]. }
  rewrite Hc. cbn [bind fst snd].
  destruct (replay_children_ok solve Hsolve cf a WH Hinp ru I0 D X chs P pre x xs Hdg HP HXc chs c mp c1 mp1 ltac:(intros y Hy; exact Hy) HND B Hd Eo Hch Hm Hc) as (B1 & F1 & C1 & M1).
  destruct (dag_replay_children _ _ _ _ _ _ _ _ Dg (fun ch K => co_N _ _ _ _ _ _ _ (Hch ch K)) (fun o E => Hro o (or_introl E)) Hc) as [Dg1 _]. cbn [fst snd] in Dg1.
  assert (KQ1 : kq c1).
  { intro Ec. refine (kinv_replay_children solve cf a WH (Hce Ec) P x chs c mp (c1, mp1) Dg (KQ Ec) HPn _ _ Hc).
    - intros ch Q. destruct (Hch ch Q) as [Q1 Q2 _ _]. split; [exact Q1|exact Q2].
    - intros o ->. apply (d_ntr _ _ _ _ Dg P o HPn). rewrite Eo. apply in_or_app. right. left. reflexivity. }
  assert (Eo1 : n_ops (getN c1 P) = (pre ++ [x]) ++ xs) by (rewrite (fl_ops _ _ _ F1) by auto; rewrite <- app_assoc; exact Eo).
  apply (IH c1 mp1 (S idx) cur1 only1 (pl || is_left x)); auto.
  - constructor; auto.
    + apply (done_ext solve a ru I0 c c1); auto; [apply F1|apply F1; auto].
    + exists (pre ++ [x]). split; [exact Eo1|]. rewrite app_length. cbn. lia.
    + intros y Hy. rewrite (nop_step_ext c c1); [apply Hp; right; auto|apply F1|]. intros o ->. apply Hro. right; auto.
  - apply (idx_ext c); [apply F1|exact HPn|apply (h_nstate _ _ _ _ _ H P HPn)|]. intros k i b K. apply (Hidx k i b). right. exact K.
  - intros ch K. destruct (S1 ch K) as [Q|Q]; [left; exact Q|right; lia].
  - apply (mapb_mono c1 c1 mp1 _ _ B1m). intros ch k. rewrite Eo1. replace (S idx) with (List.length (pre ++ [x])) by (rewrite app_length; cbn; lia). rewrite firstn_app, firstn_all, Nat.sub_diag. cbn [firstn]. rewrite app_nil_r. lia.
Qed.

Lemma advance_total (D X : nat -> Prop) chs P mp idx cur rest : D P -> (forall ch, In ch chs -> X ch) ->
  forall l c, incl l chs -> NoDup l -> loop_inv D X chs P c mp idx cur rest -> dag mp c -> tinv c -> (forall ch, In ch l -> le_step c cur ch) ->
  exists c', advance_children a c l cur = Ok c' /\ tinv c' /\ (forall ch, In ch l -> at_step c' cur ch).
Proof.
  intros HP HXc. induction l as [|ch l IH]; intros c Hl HND L Dg T HS; cbn [advance_children]; [exists c; split; [reflexivity|]; split; [exact T|intros ch []]|].
  inversion HND as [|? ? Hni HND']; subst.
  assert (K : exists c1, (if left_inv c ch then Ok c else do s <- ss_step_to a (nst c ch) cur; Ok (setS c (n_state (getN c ch)) s)) = Ok c1 /\ tinv c1 /\ at_step c1 cur ch).
  { destruct (left_inv c ch) eqn:El; [exists c; split; [reflexivity|]; split; [exact T|left; exact El]|].
    destruct (li_ch _ _ _ _ _ _ _ _ _ _ _ _ _ _ L ch (Hl ch (or_introl eq_refl))) as [K1 K2 K3 K4]. destruct K4 as [(K4 & _)|(filt & A)]; [congruence|].
    pose proof (ac_err _ _ _ _ _ _ (ca_act _ _ _ _ _ _ _ A)) as He. destruct (HS ch (or_introl eq_refl)) as [Q|Q]; [congruence|].
    destruct (step_at solve Hsolve cf a WH HF Hnum c mp ch cur Dg T K1 He Q) as (s1 & E1 & _ & _ & S1 & T1 & _). rewrite E1. cbn [bind]. eexists. split; [reflexivity|]. split; [exact T1|]. right.
    unfold nst. rewrite getN_setS, getS_set_eq; [exact S1|]. apply (d_parents _ _ _ _ Dg ch K1). }
  destruct K as (c1 & E1 & T1 & S1). unfold nst in E1. rewrite E1. cbn [bind].
  assert (E1' : advance_children a c [ch] cur = Ok c1) by (cbn [advance_children]; rewrite E1; reflexivity).
  assert (N1 : NoDup [ch]) by (constructor; [intros []|constructor]).
  destruct (advance_ok solve Hsolve cf a WH Hinp ru I0 D X chs P mp idx cur rest HP HXc [ch] c c1 ltac:(intros y [<-|[]]; apply Hl; left; auto) N1 L E1') as (F1 & L1).
  destruct (dag_advance cf a mp cur [ch] c c1 Dg E1') as [Dg1 _].
  destruct (IH c1 ltac:(intros y Hy; apply Hl; right; auto) HND' L1 Dg1 T1) as (c' & E & T' & S').
  { intros ch' K. assert (Hne : ~ In ch' [ch]) by (intros [<-|[]]; auto). assert (HN : ch' < nN c) by (apply (li_ch _ _ _ _ _ _ _ _ _ _ _ _ _ _ L ch'); apply Hl; right; exact K).
    unfold le_step, left_inv. rewrite (fl_ops _ _ _ F1) by exact Hne. rewrite (fl_st _ _ _ F1) by auto. apply HS. right. exact K. }
  exists c'. split; [exact E|]. split; [exact T'|]. intros ch' [<-|K]; [|auto].
  destruct (advance_ok solve Hsolve cf a WH Hinp ru I0 D X chs P mp idx cur rest HP HXc l c1 c' ltac:(intros y Hy; apply Hl; right; auto) HND' L1 E) as (F2 & _).
  assert (HN : ch < nN c) by (apply (li_ch _ _ _ _ _ _ _ _ _ _ _ _ _ _ L ch); apply Hl; left; auto).
  unfold at_step, left_inv in *. rewrite (fl_ops _ _ _ F2) by exact Hni. rewrite (fl_st _ _ _ F2); [exact S1|rewrite (fl_nN _ _ _ F1); exact HN|exact Hni].
Qed.
End WithSolver.
