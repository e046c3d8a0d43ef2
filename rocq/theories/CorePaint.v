(** Plotting a state set only changes the objective of its LP; the invariants of the analysis do not see that. *)
From Coq Require Import Permutation.
From Verif Require Import Base BaseFacts LpModel LpSpec SetSpec LpUtil LpFacts ChullFacts ApiSpec ApiFacts Automaton StateSet HybridSpec FlowFacts StateSpec
  StateFacts StateFacts2 StateFacts3 AutoFacts CoreModel HeapFacts CoreOps CoreGhost CoreHeap CoreInv CoreStep CoreCont CorePop CoreReplay CoreDeagg CoreSplit CoreMono CoreFlag CoreExt CoreFinal CoreSub.
Open Scope nat_scope.

Definition same_obj (s s' : sset) : Prop := s' = s \/ exists o, s' = ss_with_lpi s (with_obj (ss_lpi s) o).
Record painted (c c' : core) : Prop := {
  pa_n : nS c' = nS c;
  pa_s : forall i, same_obj (getS c i) (getS c' i);
  pa_e : c' = with_states c (c_states c') }.

Lemma same_obj_trans s1 s2 s3 : same_obj s1 s2 -> same_obj s2 s3 -> same_obj s1 s3.
Proof. intros [->|(o & ->)] [->|(o' & ->)]; [left; reflexivity|right; eauto|right; eauto|right; exists o'; reflexivity]. Qed.
Lemma painted_refl c : painted c c.
Proof. constructor; [reflexivity|intro; left; reflexivity|destruct c; reflexivity]. Qed.
Lemma painted_trans c1 c2 c3 : painted c1 c2 -> painted c2 c3 -> painted c1 c3.
Proof.
  intros [A1 A2 A3] [B1 B2 B3]. constructor; [congruence|intro i; eapply same_obj_trans; eauto|]. rewrite B3 at 1. rewrite A3. reflexivity.
Qed.
Lemma painted_set c i o : painted c (setS c i (ss_with_lpi (getS c i) (with_obj (ss_lpi (getS c i)) o))).
Proof.
  constructor; [apply nS_setS| |reflexivity]. intro j. destruct (lt_dec i (nS c)) as [L|L].
  - rewrite getS_setS by auto. destruct (Nat.eqb_spec j i) as [->|]; [right; exists o; reflexivity|left; reflexivity].
  - left. unfold getS at 1. ccbn. rewrite nth_upd. replace (i <? nS c) with false by (symmetry; apply Nat.ltb_ge; lia). rewrite andb_false_r. reflexivity.
Qed.

Lemma so_mode s s' : same_obj s s' -> ss_mode s' = ss_mode s. Proof. intros [->|(o & ->)]; reflexivity. Qed.
Lemma so_conc s s' : same_obj s s' -> ss_conc s' = ss_conc s. Proof. intros [->|(o & ->)]; reflexivity. Qed.
Lemma so_step s s' : same_obj s s' -> ss_step s' = ss_step s. Proof. intros [->|(o & ->)]; reflexivity. Qed.
Lemma so_rows s s' : same_obj s s' -> ss_rows s' = ss_rows s. Proof. intros [->|(o & ->)]; reflexivity. Qed.
Lemma so_lo s s' : same_obj s s' -> ss_lo s' = ss_lo s. Proof. intros [->|(o & ->)]; reflexivity. Qed.
Lemma so_hi s s' : same_obj s s' -> ss_hi s' = ss_hi s. Proof. intros [->|(o & ->)]; reflexivity. Qed.
Lemma so_in s s' p : same_obj s s' -> (in_lp (ss_lpi s') p <-> in_lp (ss_lpi s) p).
Proof. intros [->|(o & ->)]; [tauto|]. cbn [ss_with_lpi ss_lpi]. apply in_lp_with_obj. Qed.
Lemma so_ne s s' : same_obj s s' -> nonempty (ss_lpi s) -> nonempty (ss_lpi s').
Proof. intros H (p & Hp). exists p. apply (so_in s s' p H). exact Hp. Qed.

Section Paint.
Variable solve : solver.
Hypothesis Hsolve : solver_ok solve.
Variable cf : cfg.
Variable a : ha.
Hypothesis WH : wf_ha a.
Variable ru : rules.
Variable I0 : nat -> vec -> Prop.
Notation hok := (heap_ok solve a ru I0).
Notation base := (base solve cf a ru I0).

Lemma so_good s s' : same_obj s s' -> good_state solve a s -> good_state solve a s'.
Proof. intros [->|(o & ->)] H; [exact H|apply good_obj; exact H]. Qed.

Section One.
Variables c c' : core.
Hypothesis PA : painted c c'.
Let EO : forall o, getO c' o = getO c o. Proof. intro o. rewrite (pa_e _ _ PA). reflexivity. Qed.
Let EN : forall o, getN c' o = getN c o. Proof. intro o. rewrite (pa_e _ _ PA). reflexivity. Qed.
Let nOe : nO c' = nO c. Proof. rewrite (pa_e _ _ PA). reflexivity. Qed.
Let nNe : nN c' = nN c. Proof. rewrite (pa_e _ _ PA). reflexivity. Qed.
Let Ew : c_wait c' = c_wait c. Proof. rewrite (pa_e _ _ PA). reflexivity. Qed.
Let Edw : c_dwait c' = c_dwait c. Proof. rewrite (pa_e _ _ PA). reflexivity. Qed.
Let Eag : c_aggerr c' = c_aggerr c. Proof. rewrite (pa_e _ _ PA). reflexivity. Qed.
Let Eco : c_concerr c' = c_concerr c. Proof. rewrite (pa_e _ _ PA). reflexivity. Qed.
Let Ett : c_tt c' = c_tt c. Proof. rewrite (pa_e _ _ PA). reflexivity. Qed.
Let Ecur : c_cur c' = c_cur c. Proof. rewrite (pa_e _ _ PA). reflexivity. Qed.
Let Erep : c_rep c' = c_rep c. Proof. rewrite (pa_e _ _ PA). reflexivity. Qed.

Lemma painted_ext : ext c c'.
Proof.
  constructor; rewrite ?nOe, ?nNe, ?(pa_n _ _ PA); auto.
  - intros i _. pose proof (pa_s _ _ PA i) as S. split; [apply so_mode; exact S|apply so_conc; exact S].
  - intros o _. rewrite EO. auto.
  - intros o _. rewrite EN. auto.
  - intros n _. exists []. rewrite EN, app_nil_r. reflexivity.
Qed.
Let E := painted_ext.
Let ES : forall i, same_obj (getS c i) (getS c' i) := pa_s _ _ PA.

Lemma painted_heap : hok c -> hok c'.
Proof.
  intro H. pose proof (heap_closed _ _ _ _ _ H) as HC.
  assert (EM : forall n, n < nN c -> nmode c' n = nmode c n) by (intros; apply nmode_ext; auto).
  assert (EP : forall o, o < nO c -> pmode c' o = pmode c o) by (intros o Ho; apply pmode_ext; auto; apply (h_post _ _ _ _ _ H o Ho)).
  constructor; rewrite ?nOe, ?nNe, ?(pa_n _ _ PA).
  - intros i Hi. apply (so_good (getS c i)); [apply ES|apply (h_good _ _ _ _ _ H i Hi)].
  - intros o Ho. rewrite EO. apply (h_post _ _ _ _ _ H o Ho).
  - intros o Ho. pose proof (h_op _ _ _ _ _ H o Ho) as K. unfold op_ok in *. rewrite EO. destruct (o_parent (getO c o)) as [M|]; [|exact K].
    destruct K as (K1 & K2 & t & K3 & K4 & K5 & K6). rewrite nNe, EN. split; [exact K1|]. split; [exact K2|]. exists t. rewrite EM, EP by auto. auto.
  - intros o N Ho. rewrite EO, EN. apply (h_child _ _ _ _ _ H o N Ho).
  - intros N HN. rewrite EN. apply (h_nstate _ _ _ _ _ H N HN).
  - intros M HM'. rewrite EN. destruct (h_par _ _ _ _ _ H M HM') as (K1 & K2 & K3). split; [exact K1|]. split; [exact K2|]. intros o Ho. destruct (K3 o Ho) as (J1 & J2 & J3).
    unfold parent_ok. rewrite nOe, EO. split; [exact J1|]. split; [rewrite EM, EP by auto; exact J2|exact J3].
  - intros N o HN. rewrite EN, EO. apply (h_ntr _ _ _ _ _ H N o HN).
  - intros o o' Ho Ho'. rewrite !EO. apply (h_inj _ _ _ _ _ H o o' Ho Ho').
  - intros N o HN. rewrite EN, EO. apply (h_single _ _ _ _ _ H N o HN).
  - intros N o HN. rewrite EN, EO. apply (h_multi _ _ _ _ _ H N o HN).
  - intros N N' HN HN'. rewrite !EN. apply (h_ninj _ _ _ _ _ H N N' HN HN').
  - intros o Ho Hu. assert (Hu' : unused c o) by (intros N HN; specialize (Hu N); rewrite EO, EN in Hu; apply Hu; exact HN).
    destruct (h_prist _ _ _ _ _ H o Ho Hu') as [P1 P2 P3 P4].
    assert (S : same_obj (pstate c o) (pstate c' o)) by (unfold pstate; rewrite EO; apply ES).
    constructor.
    + rewrite (so_step _ _ S). exact P1.
    + unfold no_rows in *. rewrite (so_rows _ _ S). exact P2.
    + apply (so_ne _ _ S P3).
    + intros x n HT. rewrite (so_in _ _ _ S), (so_lo _ _ S), (so_hi _ _ S). apply P4. revert HT. apply (To_ext a ru I0 c c'); auto.
Qed.

Lemma painted_base D X mo : base D X mo c -> base D X mo c'.
Proof.
  intro B. pose proof (b_heap _ _ _ _ _ _ _ _ _ B) as H. pose proof (heap_closed _ _ _ _ _ H) as HC.
  assert (EP : forall o, o < nO c -> pmode c' o = pmode c o) by (intros o Ho; apply pmode_ext; auto; apply (h_post _ _ _ _ _ H o Ho)).
  assert (Ecc : forall o, ss_conc (pstate c' o) = ss_conc (pstate c o)) by (intro o; unfold pstate; rewrite EO; apply so_conc; apply ES).
  constructor; unfold dpend; rewrite ?nOe, ?nNe, ?Ew, ?Edw.
  - apply painted_heap. exact H.
  - apply (b_X _ _ _ _ _ _ _ _ _ B).
  - destruct (b_wait _ _ _ _ _ _ _ _ _ B) as [K1 K2]. split; [exact K1|]. intros o Ho. rewrite EO. apply (K2 o Ho).
  - destruct (b_mo _ _ _ _ _ _ _ _ _ B) as [K1 K2]. split; [exact K1|]. intros o Ho. rewrite EO. apply (K2 o Ho).
  - intros o Ho. rewrite EO. apply (b_cov _ _ _ _ _ _ _ _ _ B o Ho).
  - intros o M N Ho. rewrite EO. apply (b_d1 _ _ _ _ _ _ _ _ _ B o M N Ho).
  - intros o N Ho. rewrite EO. apply (b_d2 _ _ _ _ _ _ _ _ _ B o N Ho).
  - intros N o HN. rewrite EO, EN. apply (b_d3 _ _ _ _ _ _ _ _ _ B N o HN).
  - apply (b_D _ _ _ _ _ _ _ _ _ B).
  - intros N HN. rewrite EN. destruct (b_path _ _ _ _ _ _ _ _ _ B N HN) as [K1 K2]. split.
    + intros K o Ho. rewrite EO. apply K1; auto.
    + intros K o o' Ho Ho'. rewrite !EO. apply K2; auto.
  - intros N HN HX. destruct (b_nodes _ _ _ _ _ _ _ _ _ B N HN HX) as [K|K]; [|right; exact K]. left. apply (done_ext solve a ru I0 c c'); auto. rewrite EN. reflexivity.
  - destruct (b_dw _ _ _ _ _ _ _ _ _ B) as (K1 & K2 & K3). split; [exact K1|]. split; [exact K2|]. intros P chs ch Hp Hc. specialize (K3 P chs ch Hp Hc).
    assert (K3' := K3). destruct K3' as (L1 & L2 & L3 & L4 & L5). apply (pair_ext solve a ru I0 D D c c'); auto; [rewrite EN; reflexivity|rewrite EN; reflexivity|].
    apply ES.
  - intros P chs Hp. destruct (b_dw2 _ _ _ _ _ _ _ _ _ B P chs Hp) as (K1 & K2 & K3). split; [exact K1|]. split; [apply (done_ext solve a ru I0 c c'); auto; [apply (b_D _ _ _ _ _ _ _ _ _ B); auto|rewrite EN; reflexivity]|].
    rewrite (nmode_ext c c') by (auto; apply (b_D _ _ _ _ _ _ _ _ _ B); auto). exact K3.
  - intros o Ho. rewrite EP, Ecc, EO, Eag, Eco by auto. apply (b_err _ _ _ _ _ _ _ _ _ B o Ho).
  - intros Hd o M Ho. rewrite EO, EP, Ecc by auto. apply (b_errch _ _ _ _ _ _ _ _ _ B Hd o M Ho).
  - assert (Ecn : forall M, ss_conc (getS c' (n_state (getN c' M))) = ss_conc (getS c (n_state (getN c M)))) by (intro M; rewrite EN; apply so_conc; apply ES).
    destruct (b_conc _ _ _ _ _ _ _ _ _ B) as [K1 K2]. split.
    + intros o M Ho. rewrite EO, Ecc, Ecn. apply K1. rewrite <- nOe. exact Ho.
    + intros M HM. rewrite Ecn, EN. intro Hc. destruct (K2 M ltac:(rewrite <- nNe; exact HM) Hc) as (o & L1 & L2). exists o. rewrite Ecc. auto.
Qed.

Let Snst N : same_obj (nst c N) (nst c' N). Proof. unfold nst. rewrite EN. apply ES. Qed.

Lemma painted_active N filt : hok c -> active a ru I0 c N filt -> active a ru I0 c' N filt.
Proof.
  intros H [A1 A2 A3 A4 A5]. pose proof (heap_closed _ _ _ _ _ H) as HC. pose proof (Snst N) as S. constructor.
  - rewrite nNe. exact A1.
  - rewrite (nmode_ext c c') by auto. exact A2.
  - apply (ordered_ext solve a ru I0 c c'); auto. rewrite EN. reflexivity.
  - intros y Hy. rewrite EN in Hy. rewrite (so_step _ _ S). destruct (A4 y Hy) as (K1 & K2 & K3). split; [|split; [exact K2|exact K3]]. rewrite (nop_step_ext c c'); auto.
    intros o ->. apply (h_ntr _ _ _ _ _ H N o A1 Hy).
  - rewrite (so_step _ _ S), (nmode_ext c c') by auto. intros x n HT Hf. rewrite (so_in _ _ _ S), (so_lo _ _ S), (so_hi _ _ S). apply A5; [|exact Hf]. revert HT. apply (Tn_ext a ru I0 c c'); auto.
Qed.

Lemma painted_curr N : hok c -> curr a ru I0 c N -> curr a ru I0 c' N.
Proof.
  intros H [K1 K2 K3 K4]. pose proof (heap_closed _ _ _ _ _ H) as HC. pose proof (Snst N) as S. assert (HN := ac_N _ _ _ _ _ _ K1).
  constructor; rewrite ?(so_step _ _ S).
  - apply painted_active; auto.
  - intros k t Hk Ht. apply (enabled_ext a ru I0 c c') in Ht; auto. apply (taken_ext c c'); auto. intros o Ho. apply (h_ntr _ _ _ _ _ H N o HN Ho).
  - rewrite (nmode_ext c c' N HC E HN). exact K3.
  - rewrite Ett. intro K. apply (dead_ext a ru I0 c c'); auto. apply so_step. exact S.
Qed.

Lemma painted_child P ch rest : hok c -> rest_ok c rest -> P < nN c -> child_ok a ru I0 c P rest ch -> child_ok a ru I0 c' P rest ch.
Proof.
  intros H Hr HP [K1 K2 K3 K4]. pose proof (heap_closed _ _ _ _ _ H) as HC. pose proof (Snst ch) as S. constructor.
  - rewrite nNe. exact K1.
  - rewrite !(nmode_ext c c') by auto. exact K2.
  - apply (refines_ext solve a ru I0 c c'); auto.
  - destruct K4 as [K4|(filt & [A1 A2 A3 A4 A5])]; [left|right; exists filt].
    + apply (done_ext solve a ru I0 c c'); auto. rewrite EN. reflexivity.
    + constructor; rewrite ?(so_step _ _ S).
      * apply painted_active; auto.
      * intros y Hy. rewrite (nop_step_ext c c'); auto. intros o ->. auto.
      * intros Hf o Ho. rewrite EO. auto.
      * intros k t He. apply (enabled_ext a ru I0 c c') in He; auto. destruct (A4 k t He) as [K|(o & L1 & L2 & L3)]; [left|right].
        -- eapply taken_ext; eauto. intros o Ho. apply (h_ntr _ _ _ _ _ H ch o K1 Ho).
        -- exists o. rewrite EO. auto.
      * exact A5.
Qed.

Lemma painted_loop (D X : nat -> Prop) chs P mp idx cur rest : D P -> loop_inv solve cf a ru I0 D X chs P c mp idx cur rest -> loop_inv solve cf a ru I0 D X chs P c' mp idx cur rest.
Proof.
  intros HP [B Hd (pre & Eo & Ei) Hch Hm Hcur]. pose proof (b_heap _ _ _ _ _ _ _ _ _ B) as H. assert (HPn : P < nN c) by (apply (b_D _ _ _ _ _ _ _ _ _ B); auto).
  assert (Hro : rest_ok c rest) by (apply (ops_rest solve cf a ru I0 _ _ _ _ _ _ _ B HP Eo)).
  constructor.
  - apply painted_base. exact B.
  - apply (done_ext solve a ru I0 c c'); auto. rewrite EN. reflexivity.
  - exists pre. rewrite EN. auto.
  - intros ch Hc. apply painted_child; auto.
  - apply (map_ext solve a ru I0 D chs c c'); auto. intros N _ _. rewrite EN. reflexivity.
  - intros y Hy. rewrite (nop_step_ext c c'); auto. intros o ->. auto.
Qed.

Lemma painted_INV : INV solve cf a ru I0 c -> INV solve cf a ru I0 c'.
Proof.
  intros (D & HI). exists D. destruct HI as [(Hc & Hr & B & Hd)|[(N & Hc & Hr & Hdw & B & Hcu)|(Hc & Hd & rp & Hr & HR)]].
  - left. unfold inv_a. rewrite Ecur, Erep, Edw. split; [exact Hc|]. split; [exact Hr|]. split; [apply painted_base; exact B|exact Hd].
  - right. left. exists N. rewrite Ecur, Erep, Edw. split; [exact Hc|]. split; [exact Hr|]. split; [exact Hdw|]. split; [apply painted_base; exact B|].
    apply painted_curr; [apply (b_heap _ _ _ _ _ _ _ _ _ B)|exact Hcu].
  - right. right. unfold inv_c. rewrite Ecur, Erep. split; [exact Hc|]. split; [exact Hd|]. exists rp. split; [exact Hr|].
    destruct HR as (R1 & R2 & rest & R3). split; [exact R1|]. split; [exact R2|]. exists rest. apply painted_loop; assumption.
Qed.

(** the invariant behind the concrete errors (CoreSub.v) *)
Lemma painted_gi init : gi solve a ru init c -> gi solve a ru init c'.
Proof.
  intros [G1 G2 G3 G4 G5 G6 G7 G8 G9 G10]. constructor; rewrite ?nOe, ?nNe, ?(pa_n _ _ PA), ?Ew, ?Edw, ?Erep, ?Eco; auto.
  - intros i Hi. apply (so_good (getS c i)); [apply ES|auto].
  - intros i Hi. destruct (ES i) as [->|(o & ->)]; [auto|apply sub_obj; auto].
  - intros o Ho. rewrite EO. auto.
  - intros o o' Ho Ho'. rewrite !EO. auto.
  - intros n Hn. rewrite EN. auto.
  - intros o Ho. rewrite EO. destruct (G7 o Ho) as (K1 & K2 & K3). split; [exact K1|]. split; [apply (so_ne _ _ (ES _) K2)|]. intros n Hn. rewrite EN. auto.
Qed.
Lemma painted_gcur : gcur a c -> gcur a c'.
Proof.
  intros G n. rewrite Ecur. unfold left_inv. rewrite EN. intros Hn Hl. destruct (G n Hn Hl) as [K1 K2]. split; [rewrite nNe; exact K1|].
  unfold nmode. rewrite EN, (so_mode _ _ (ES _)). exact K2.
Qed.
Lemma painted_finished : is_finished cf c' = is_finished cf c.
Proof. unfold is_finished, cur_state, left_inv, doing_replay. rewrite Eag, Eco, Ecur, Erep, Edw, Ew. destruct (c_cur c) as [n|]; [rewrite EN|]; reflexivity. Qed.
Lemma painted_tt : c_tt c' = c_tt c. Proof. exact Ett. Qed.
Lemma painted_flags : c_aggerr c' = c_aggerr c /\ c_concerr c' = c_concerr c. Proof. auto. Qed.
End One.
End Paint.
