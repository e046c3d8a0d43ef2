(** The current node: guards, one continuous step, leaving the invariant. *)
From Coq Require Import Permutation.
From Verif Require Import Base BaseFacts LpModel LpSpec SetSpec LpUtil LpFacts ChullFacts ApiSpec ApiFacts Automaton StateSet HybridSpec FlowFacts StateSpec
  StateFacts StateFacts2 StateFacts3 AutoFacts BuildFacts CoreModel HeapFacts CoreOps CoreGhost CoreHeap CoreInv CoreStep.
Open Scope nat_scope.

Section Cont.
Variable solve : solver.
Hypothesis Hsolve : solver_ok solve.
Variable cf : cfg.
Variable a : ha.
Hypothesis WH : wf_ha a.
Hypothesis Hinp : forall m, m < List.length (ha_modes a) -> m_b (get_mode a m) <> None -> m_inv (get_mode a m) = [].
Variable ru : rules.
Variable I0 : nat -> vec -> Prop.
(** nothing can be done in mode m at x: no time step, no transition *)
Definition stuck (m : nat) (x : vec) : Prop := ~ inv_ok 0 (get_mode a m) x /\ forall t k, t < List.length (ha_trans a) -> t_from (get_trans a t) = m -> guard_ok (get_trans a t) x -> ~ may_jump 0 ru (get_mode a m) x k.
(** what must hold of the time-triggered transitions: when one is found taken for a set (tt_row: the set lies at the boundary), executions in that set can make no further step *)
(** Cz: a state of the run all others extend *)
Variable Cz : core.
Hypothesis Hstuck : forall c N t l g rhs k x n u x', heap_ok solve a ru I0 c -> ext Cz c -> t < List.length (ha_trans a) -> cf_tt cf && t_tt (get_trans a t) = true -> t_from (get_trans a t) = nmode c N -> t_guard (get_trans a t) = Some (g, rhs) ->
  tt_row (get_mode a (nmode c N)) l (2 * cf_step cf / inject_Z (Z.of_nat (cf_num cf)) / 1000) (c_rows g) rhs -> in_lp l x -> Tn a ru I0 c N k x n ->
  inv_ok 0 (get_mode a (nmode c N)) x -> input_ok (get_mode a (nmode c N)) u -> one_step (get_mode a (nmode c N)) x u x' -> stuck (nmode c N) x'.
Notation TN := (Tn a ru I0).
Notation TO := (To a ru I0).
Notation hok := (heap_ok solve a ru I0).
Notation enab := (enabled a ru I0).
Notation base := (base solve cf a ru I0).
Notation active := (active a ru I0).
Notation done := (done a ru I0).
Notation err := (err a).

(** results of the analysis that stop it before it is complete *)
Definition bad (c : core) : Prop := ((cf_stop_conc cf = true \/ cf_stop_agg cf = true) /\ c_concerr c = true) \/ (cf_stop_agg cf = true /\ c_aggerr c = true).

(** ** the node is finished *)
Lemma active_done c N filt b : hok c -> active c N filt -> complete a ru I0 c N -> done (push_op c N (NLeft (ss_step (nst c N)) b)) N.
Proof.
  intros H A HC'. pose proof (ac_N _ _ _ _ _ _ A) as HN. destruct (heap_push solve a ru I0 c N (NLeft (ss_step (nst c N)) b) H HN ltac:(discriminate)) as [H' E].
  pose proof (heap_closed _ _ _ _ _ H) as HC. split; [|split].
  - rewrite left_inv_push, Nat.eqb_refl by auto. reflexivity.
  - unfold ordered. rewrite n_ops_push_eq by auto. apply FOP_snoc; [apply (ac_ord _ _ _ _ _ _ A)|]. intros y Hy. destruct (ac_ops _ _ _ _ _ _ A y Hy) as (K1 & K2 & _). split; [exact K1|].
    destruct y; auto. discriminate.
  - intros k t He. apply (enabled_ext a ru I0 c) in He; auto. eapply taken_ext; [exact E|exact HN| |apply HC'; exact He]. intros o Ho. apply (h_ntr _ _ _ _ _ H N o HN Ho).
Qed.
Lemma open_finish (D X X' : nat -> Prop) mo c N filt b : base D X mo c -> X N -> active c N filt -> complete a ru I0 c N -> (forall M, X' M <-> X M /\ M <> N) ->
  let c' := push_op c N (NLeft (ss_step (nst c N)) b) in base D X' mo c' /\ done c' N /\ frame N c c'.
Proof.
  intros B HX A HCm HX' c'. destruct (open_push solve cf a ru I0 D X mo c N (NLeft (ss_step (nst c N)) b) B HX ltac:(discriminate)) as (B' & F & _). fold c' in B', F.
  assert (Hd : done c' N) by (apply (active_done c N filt b); auto; apply (b_heap _ _ _ _ _ _ _ _ _ B)).
  split; [|split; auto]. apply (base_close solve cf a ru I0 D X X'); auto.
  - intros M HM. apply HX' in HM. apply HM.
  - intros M HM HnX. destruct (Nat.eq_dec M N) as [->|Hne]; [right; auto|left]. intro K. apply HnX. apply HX'. auto.
Qed.

(** executions at the current step of node N can make no further step *)
Definition dead (c : core) (N : nat) : Prop := forall x n u x', TN c N (ss_step (nst c N)) x n -> inv_ok 0 (get_mode a (nmode c N)) x -> input_ok (get_mode a (nmode c N)) u ->
  one_step (get_mode a (nmode c N)) x u x' -> stuck (nmode c N) x'.
Lemma dead_ext c c' N : closed c -> ext c c' -> N < nN c -> ss_step (nst c' N) = ss_step (nst c N) -> dead c N -> dead c' N.
Proof.
  intros HC E HN Es Hd x n u x'. rewrite Es, (nmode_ext c c') by auto. intros HT. apply (Hd x n u x'). revert HT. apply (Tn_ext a ru I0 c c'); auto.
Qed.
Lemma add_tt c t l sid nid c' : add_transition_successor solve cf a c t l sid nid = Ok c' -> c_tt c' = c_tt c.
Proof.
  unfold add_transition_successor, make_op_transition. intro H. apply bind_ok in H as ([c1 o] & H1 & H). assert (K : c_tt c1 = c_tt c).
  { apply bind_ok in H1 as (p & _ & H1). destruct p as [[l1 ctr]|]; [|injection H1 as <- _; reflexivity].
    apply bind_ok in H1 as (l2 & _ & H1). apply bind_ok in H1 as (f & _ & H1). apply bind_ok in H1 as (u & _ & H1). apply bind_ok in H1 as (s & _ & H1). injection H1 as <- _. reflexivity. }
  destruct o; injection H as <-; exact K.
Qed.

(** ** guards *)
Lemma guards_ok D X mo N filt ts : forall c c', ext Cz c -> base D X mo c -> X N -> active c N filt -> (filt -> ss_step (nst c N) = 0) ->
  (forall t, In t ts -> t < List.length (ha_trans a) /\ t_from (get_trans a t) = nmode c N) -> (c_tt c = true -> dead c N) ->
  check_guards_loop solve cf a c N (n_state (getN c N)) ts = Ok c' ->
  bad c' \/ (base D X mo c' /\ frame N c c' /\ active c' N filt /\ ss_step (nst c' N) = ss_step (nst c N) /\
             (forall k t, taken c N k t -> taken c' N k t) /\ (c_tt c' = true -> dead c' N) /\ forall t, In t ts -> enab c' N (ss_step (nst c' N)) t -> taken c' N (ss_step (nst c' N)) t).
Proof.
  induction ts as [|t ts IH]; intros c c' Hz B HX A Hf Hts Hdd Hg.
  - cbn [check_guards_loop] in Hg. injection Hg as <-. right. split; [exact B|]. split; [apply frame_refl|]. split; [exact A|]. split; [reflexivity|]. split; [auto|]. split; [exact Hdd|]. intros t [].
  - cbn [check_guards_loop] in Hg. apply bind_ok in Hg as ([l1 o] & Hgi & Hg). cbn [fst snd] in Hg. fold (nst c N) in Hg, Hgi.
    destruct (Hts t (or_introl eq_refl)) as [Ht Hfr].
    destruct (open_guard solve Hsolve cf a WH ru I0 D X mo c N filt t l1 o B HX A Hf Ht Hfr Hgi) as (B1 & F1 & A1 & St1 & Ops1 & W1 & O1 & C1 & _ & Ho).
    set (c1 := setS c (n_state (getN c N)) (ss_with_lpi (nst c N) l1)) in *.
    assert (Esid : n_state (getN c1 N) = n_state (getN c N)) by reflexivity.
    assert (HN : N < nN c) by apply A. pose proof (b_heap _ _ _ _ _ _ _ _ _ B) as H. pose proof (heap_closed _ _ _ _ _ H) as HC.
    assert (EM1 : nmode c1 N = nmode c N) by (apply nmode_ext; auto; apply F1).
    assert (Htk1 : forall k t', taken c N k t' -> taken c1 N k t').
    { intros k t' Hk. eapply taken_ext; [apply F1|exact HN| |exact Hk]. intros o' Ho'. apply (h_ntr _ _ _ _ _ H N o' HN Ho'). }
    destruct o as [tlp|].
    + destruct Ho as (Hap & Hd & Htl & Hne).
      apply bind_ok in Hg as (c2 & Herr & Hg).
      assert (E2 : exists ag co ce, c2 = with_flags c1 ag co ce /\ (c_aggerr c1 = true -> ag = true) /\ (c_concerr c1 = true -> co = true) /\
         (err (t_to (get_trans a t)) = true -> (ss_conc (nst c1 N) = true -> co = true) /\ (ss_conc (nst c1 N) = false -> ag = true))).
      { unfold CoreInv.err. destruct (is_error (get_mode a (t_to (get_trans a t)))).
        - apply error_reached_ok in Herr as (ag & co & ce & -> & R1 & R2 & R3 & R4 & _). exists ag, co, ce. split; [reflexivity|]. split; [auto|]. split; [auto|]. intros _. split; intro K; [apply R3; exact K|apply R4; exact K].
        - injection Herr as <-. exists (c_aggerr c1), (c_concerr c1), (c_cex c1). split; [destruct c1; reflexivity|]. split; [auto|]. split; [auto|]. discriminate. }
      destruct E2 as (ag & co & ce & E2 & Fa & Fc & Fe). clear Herr.
      assert (B2 : base D X mo c2). { rewrite E2. apply (base_same solve cf a ru I0 D X mo c1); auto. }
      assert (F2 : frame N c1 c2). { rewrite E2. constructor; auto. apply ext_same; reflexivity. }
      assert (Est2 : nst c2 N = nst c1 N) by (rewrite E2; reflexivity).
      assert (A2 : active c2 N filt). { apply (active_ext solve a ru I0 c1 c2); auto; [apply (b_heap _ _ _ _ _ _ _ _ _ B1)|apply F2|rewrite E2; reflexivity]. }
      destruct (is_error (get_mode a (t_to (get_trans a t))) && (cf_stop_agg cf || ss_conc (getS c2 (n_state (getN c N))) && cf_stop_conc cf)) eqn:Ebrk.
      * injection Hg as <-. left. apply andb_true_iff in Ebrk as [K1 K2]. specialize (Fe K1).
        assert (Esc : getS c2 (n_state (getN c N)) = nst c1 N) by (rewrite E2; reflexivity). rewrite Esc in K2.
        destruct (ss_conc (nst c1 N)) eqn:Ec; [left; split; [apply orb_true_iff in K2 as [K2|K2]; auto|rewrite E2; apply Fe; auto]|right].
        rewrite andb_false_l, orb_false_r in K2. split; [exact K2|]. rewrite E2. apply Fe; auto.
      * apply bind_ok in Hg as (c4 & Hadd & Hg). assert (Tt4 : c_tt c4 = c_tt c) by (rewrite (add_tt _ _ _ _ _ _ Hadd), E2; reflexivity).
        unfold add_transition_successor in Hadd. apply bind_ok in Hadd as ([c3 r] & Hmk & Hadd).
        assert (Esid2 : n_state (getN c2 N) = n_state (getN c N)) by (rewrite E2; reflexivity). rewrite <- Esid2 in Hmk.
        assert (EM2 : nmode c2 N = nmode c1 N) by (apply nmode_ext; [|apply F2|apply A1]; apply (heap_closed _ _ _ _ _ (b_heap _ _ _ _ _ _ _ _ _ B1))).
        destruct (open_add solve Hsolve cf a WH ru I0 D X mo mo c2 N filt t tlp c3 r c4 B2 HX A2) as (Er & B4 & F4 & A4 & Est4 & Ops4 & O4 & Tk4 & _); auto.
        { rewrite Est2, St1. auto. }
        { rewrite EM2, EM1. exact Hfr. }
        { rewrite EM2, EM1. exact Hd. }
        { rewrite Est2. exact Htl. }
        { intro K. rewrite Est2, E2. ccbn. apply Fe. exact K. }
        { left. split; [|reflexivity].
          destruct (make_op_ok solve Hsolve cf a WH c2 t tlp _ N c3 r Ht Hap ltac:(rewrite Hfr; exact Hd) Hne Hmk) as (_ & _ & -> & _). congruence. }
        assert (Esid4 : n_state (getN c4 N) = n_state (getN c N)). { destruct (ex_node _ _ (fr_ext _ _ _ F4) N ltac:(apply A2)) as [-> _]. exact Esid2. }
        rewrite <- Esid4 in Hg.
        pose proof (frame_trans _ _ _ _ (frame_trans _ _ _ _ F1 F2) F4) as F14.
        assert (EM4 : nmode c4 N = nmode c N) by (apply nmode_ext; auto; apply F14).
        assert (HT4 : forall t', In t' ts -> t' < List.length (ha_trans a) /\ t_from (get_trans a t') = nmode c4 N) by (intros t' K; rewrite EM4; apply Hts; right; auto).
        pose proof (b_heap _ _ _ _ _ _ _ _ _ B4) as H4. pose proof (heap_closed _ _ _ _ _ H4) as HC4. assert (HN4 : N < nN c4) by apply A4.
        assert (St4 : ss_step (nst c4 N) = ss_step (nst c N)) by (rewrite Est4, Est2, St1; reflexivity).
        assert (Dd4 : c_tt c4 = true -> dead c4 N). { intro K. rewrite Tt4 in K. apply (dead_ext c c4); auto. apply F14. }
        apply bind_ok in Hg as (c5 & Htt & Hg).
        assert (Z : base D X mo c5 /\ frame N c4 c5 /\ active c5 N filt /\ ss_step (nst c5 N) = ss_step (nst c4 N) /\ n_state (getN c5 N) = n_state (getN c4 N) /\ (c_tt c5 = true -> dead c5 N)).
        { destruct (cf_tt cf && t_tt (get_trans a t)) eqn:Ett; [|injection Htt as <-; split; [exact B4|split; [apply frame_refl|split; [exact A4|auto]]]].
          apply bind_ok in Htt as ([l5 b5] & Hw & Htt). cbn [fst snd] in Htt. fold (nst c4 N) in Hw, Htt. assert (WT := proj2 WH t Ht).
          destruct (was_tt_taken_ok solve Hsolve a _ _ _ _ _ _ WH WT Hw) as [(ob & E5) Hrow]. subst l5.
          destruct (nst_ok solve a ru I0 c4 N H4 HN4 (ac_err _ _ _ _ _ _ A4)) as (x4 & S4).
          assert (HG : good_state solve a (ss_with_lpi (nst c4 N) (with_obj (ss_lpi (nst c4 N)) ob))) by (apply good_obj; auto; eapply st_good; eauto).
          destruct (open_set solve cf a ru I0 D X mo c4 N _ B4 HX HG eq_refl eq_refl) as (B6 & F6 & En6 & Eo6 & _).
          set (c6 := setS c4 (n_state (getN c4 N)) (ss_with_lpi (nst c4 N) (with_obj (ss_lpi (nst c4 N)) ob))) in *.
          assert (EM6 : nmode c6 N = nmode c4 N) by (apply nmode_ext; auto; apply F6).
          assert (A6 : active c6 N filt).
          { destruct A4 as [Q1 Q2 Q3 Q4 Q5]. constructor; [exact Q1|..].
            - rewrite EM6. exact Q2.
            - apply (ordered_ext solve a ru I0 c4 c6); auto. apply F6.
            - intros y Hy. rewrite Eo6 in Hy. rewrite En6. apply (Q4 y Hy).
            - rewrite En6, EM6. intros p n HT. apply (Q5 p n). revert HT. apply (Tn_ext a ru I0 c4 c6); auto. apply F6. }
          assert (Dd6 : c_tt c4 = true -> dead c6 N) by (intro K; apply (dead_ext c4 c6); auto; [apply F6|rewrite En6; reflexivity]).
          assert (G : b5 = true -> dead c6 N).
          { intros Eb x n u x' HT Hx Hu Ho'. rewrite En6 in HT. cbn [ss_with_lpi ss_step] in HT. rewrite EM6 in *. apply (Tn_ext a ru I0 c4 c6) in HT; [|exact HC4|apply F6|exact HN4].
            destruct (wft_guard _ _ WT) as (g & rhs & Hgd & _). specialize (Hrow Eb g rhs Hgd). rewrite Hfr, <- EM4 in Hrow.
            apply (Hstuck c4 N t (ss_lpi (nst c4 N)) g rhs (ss_step (nst c4 N)) x n u x'); auto; [eapply ext_trans; [exact Hz|apply F14]|..]; [rewrite EM4; exact Hfr|]. apply (ac_cov _ _ _ _ _ _ A4 x n HT). intros _. exact Hx. }
          destruct b5; injection Htt as <-.
          - assert (E7 : ext c6 (with_tt c6 true)) by (apply ext_same; reflexivity).
            split; [apply (base_same solve cf a ru I0 D X mo c6); auto|]. split; [apply (frame_trans N c4 c6); [exact F6|]; constructor; auto|].
            split; [apply (active_ext solve a ru I0 c6); auto; apply (b_heap _ _ _ _ _ _ _ _ _ B6)|]. split; [change (nst (with_tt c6 true) N) with (nst c6 N); rewrite En6; reflexivity|]. split; [reflexivity|].
            intros _. apply (dead_ext c6); auto. apply (heap_closed _ _ _ _ _ (b_heap _ _ _ _ _ _ _ _ _ B6)).
          - split; [exact B6|]. split; [exact F6|]. split; [exact A6|]. split; [rewrite En6; reflexivity|]. split; [reflexivity|exact Dd6]. }
        clear Htt. destruct Z as (B5 & F5 & A5 & St5 & Esid5 & Dd5). rewrite <- Esid5 in Hg.
        assert (EM5 : nmode c5 N = nmode c N) by (rewrite <- EM4; apply nmode_ext; auto; apply F5).
        assert (HT5 : forall t', In t' ts -> t' < List.length (ha_trans a) /\ t_from (get_trans a t') = nmode c5 N) by (intros t' K; rewrite EM5; apply Hts; right; auto).
        assert (F15 := frame_trans _ _ _ _ F14 F5).
        destruct (IH c5 c' (ext_trans _ _ _ Hz (fr_ext _ _ _ F15)) B5 HX A5 ltac:(rewrite St5, St4; auto) HT5 Dd5 Hg) as [K|(B' & F' & A' & St' & Tk' & Dd' & En')]; [left; exact K|]. right.
        split; [exact B'|]. split; [eapply frame_trans; eauto|]. split; [exact A'|]. split; [rewrite St', St5, St4; reflexivity|].
        split.
        { intros k t' Hk. apply Tk'. eapply taken_ext; [apply F15|exact HN| |exact Hk]. intros o' Ho'. apply (h_ntr _ _ _ _ _ H N o' HN Ho'). }
        split; [exact Dd'|]. intros t' [<-|Ht'] He; [|apply En'; auto]. apply Tk'. rewrite St', St5, Est4. eapply taken_ext; [apply F5|exact HN4| |exact Tk4]. intros o' Ho'. apply (h_ntr _ _ _ _ _ H4 N o' HN4 Ho').
    + assert (HT1 : forall t', In t' ts -> t' < List.length (ha_trans a) /\ t_from (get_trans a t') = nmode c1 N) by (intros t' K; rewrite EM1; apply Hts; right; auto).
      rewrite <- Esid in Hg.
      destruct (IH c1 c' (ext_trans _ _ _ Hz (fr_ext _ _ _ F1)) B1 HX A1 ltac:(rewrite St1; auto) HT1 ltac:(intro K; apply (dead_ext c c1); auto; apply F1) Hg) as [K|(B' & F' & A' & St' & Tk' & Dd' & En')]; [left; exact K|]. right.
      split; [exact B'|]. split; [eapply frame_trans; eauto|]. split; [exact A'|]. split; [rewrite St', St1; reflexivity|]. split; [auto|]. split; [exact Dd'|].
      intros t' [<-|Ht'] He; [|apply En'; auto]. exfalso. apply Ho. rewrite <- St'. revert He.
      apply (enabled_ext a ru I0 c1 c'); [apply (heap_closed _ _ _ _ _ (b_heap _ _ _ _ _ _ _ _ _ B1))|apply F'|apply A1].
Qed.

Lemma out_trans_spec m t : In t (out_trans a m) <-> t < List.length (ha_trans a) /\ t_from (get_trans a t) = m.
Proof. unfold out_trans. rewrite filter_In, in_seq, Nat.eqb_eq. split; intros []; split; auto; lia. Qed.

Lemma intersect_tt c nid sid c' ok : intersect_state solve a c nid sid = Ok (c', ok) -> c_tt c' = c_tt c.
Proof.
  unfold intersect_state. intro H. apply bind_ok in H as ([[s1 ops] ok1] & _ & H). injection H as <- _. unfold push_ops.
  generalize (setS c sid s1) (eq_refl : c_tt (setS c sid s1) = c_tt c). induction (map _ _) as [|y l IH]; intros c0 E; cbn [fold_left]; [exact E|]. apply IH. exact E.
Qed.
Lemma complete_at c N s : (forall k t, k <= s -> enab c N k t -> taken c N k t) -> (forall x n, ~ TN c N (S s) x n) -> complete a ru I0 c N.
Proof.
  intros H1 H2 k t He. destruct (le_lt_dec k s) as [Hk|Hk]; [auto|]. exfalso. destruct He as (x & n & HT & _).
  replace k with (S s + (k - S s)) in HT by lia. apply Tn_back in HT as (x' & n' & _ & HT & _). exact (H2 x' n' HT).
Qed.

Hypothesis Hbound : ru_bound ru = cf_num cf.
Hypothesis Hurg : ru_urgent ru = cf_urgent cf.
Hypothesis Hcap : forall m x, m_a (get_mode a m) = Some x -> ru_cap ru m = (nnz x =? 0) && cf_skip0 cf.

(** what is known of the current node *)
Record curr (c : core) (N : nat) : Prop := {
  cu_act : active c N (ss_step (nst c N) = 0);
  cu_tk : forall k t, k <= ss_step (nst c N) -> enab c N k t -> taken c N k t;
  cu_cap : ru_cap ru (nmode c N) = true -> ss_step (nst c N) = 0;
  cu_tt : c_tt c = true -> dead c N }.

(** the result of one action on the current node *)
Definition cur_res (D : nat -> Prop) (mo : list nat) (c : core) (N : nat) (c' : core) : Prop :=
  c_dwait c' = c_dwait c /\ c_rep c' = c_rep c /\
  ((c_cur c' = Some N /\ base D (eq N) mo c' /\ curr c' N) \/ (c_cur c' = None /\ base D (fun _ => False) mo c' /\ done c' N)).

Lemma left_invariant_ok D mo c N filt b : base D (eq N) mo c -> active c N filt -> complete a ru I0 c N ->
  let c' := left_invariant c N (n_state (getN c N)) b in
  c_dwait c' = c_dwait c /\ c_rep c' = c_rep c /\ c_cur c' = None /\ base D (fun _ => False) mo c' /\ done c' N.
Proof.
  intros B A HCm c'. destruct (open_finish D (eq N) (fun _ => False) mo c N filt b B eq_refl A HCm) as (B' & Hd & F); [intro M; split; [tauto|intros [K1 K2]; apply K2; auto]|].
  split; [reflexivity|]. split; [reflexivity|]. split; [reflexivity|]. split.
  - apply (base_same solve cf a ru I0 D _ mo (push_op c N (NLeft (ss_step (nst c N)) b))); auto.
  - apply (done_ext solve a ru I0 (push_op c N (NLeft (ss_step (nst c N)) b)) c' N); auto; [apply (b_heap _ _ _ _ _ _ _ _ _ B')|apply ext_same; reflexivity|rewrite nN_push; apply A].
Qed.

Lemma continuous_post_ok D mo c N c' : ext Cz c -> base D (eq N) mo c -> c_cur c = Some N -> curr c N ->
  continuous_post solve cf a c N (n_state (getN c N)) = Ok c' -> bad c' \/ cur_res D mo c N c'.
Proof.
  intros Hz B Hcur [A Tk Cp Dd] Hp. unfold continuous_post in Hp. fold (nst c N) in Hp.
  pose proof (b_heap _ _ _ _ _ _ _ _ _ B) as H. pose proof (heap_closed _ _ _ _ _ H) as HC. assert (HN : N < nN c) by apply A.
  destruct (Nat.leb_spec (cf_num cf) (ss_lo (nst c N))) as [Hlo|Hlo].
  { injection Hp as <-. right.
    assert (HCm : complete a ru I0 c N).
    { apply (complete_at c N (ss_step (nst c N))); auto. intros x n HT. apply Tn_S in HT as (x0 & n0 & u & -> & HT & Hi & Hn & _).
      destruct (ac_cov _ _ _ _ _ _ A x0 n0 HT) as [_ K]; [auto|]. lia. }
    destruct (left_invariant_ok D mo c N _ true B A HCm) as (K1 & K2 & K3 & K4 & K5). split; [exact K1|]. split; [exact K2|]. right. auto. }
  destruct (c_tt c) eqn:Ett.
  { injection Hp as <-. right. specialize (Dd eq_refl). set (c1 := with_tt c false). assert (E1 : ext c c1) by (apply ext_same; reflexivity).
    assert (B1 : base D (eq N) mo c1) by (apply (base_same solve cf a ru I0 D (eq N) mo c); auto). assert (A1 : active c1 N (ss_step (nst c N) = 0)) by (apply (active_ext solve a ru I0 c); auto).
    assert (HCm : complete a ru I0 c1 N).
    { intros k t He. apply (enabled_ext a ru I0 c c1) in He; auto. apply (taken_ext c); auto; [intros o Ho; apply (h_ntr _ _ _ _ _ H N o HN Ho)|]. destruct (le_lt_dec k (ss_step (nst c N))) as [Hk|Hk]; [auto|]. exfalso.
      destruct He as (x & n & HT & Ht & Hfr & Hg & Hmj). replace k with (S (ss_step (nst c N)) + (k - S (ss_step (nst c N)))) in HT by lia. apply Tn_back in HT as (x1 & n1 & _ & HT & _ & Hj & H0).
      apply Tn_S in HT as (x0 & n0 & u & -> & HT & Hi & _ & _ & Hu & Ho). destruct (Dd x0 n0 u x1 HT Hi Hu Ho) as [S1 S2]. destruct (k - S (ss_step (nst c N))) as [|j]; [rewrite <- (H0 eq_refl) in Hg, Hmj; exact (S2 t _ Ht Hfr Hg Hmj)|]. apply S1. apply Hj. lia. }
    destruct (left_invariant_ok D mo c1 N _ false B1 A1 HCm) as (K1 & K2 & K3 & K4 & K5). split; [exact K1|]. split; [exact K2|]. right. auto. }
  apply bind_ok in Hp as ([c1 ok] & Hi & Hp).
  destruct (open_intersect solve Hsolve cf a WH ru I0 D (eq N) mo c N _ c1 ok B eq_refl A Hi) as (B1 & F1 & A1 & St1 & W1 & O1 & Ops1 & Cc1 & Lo1 & Hno).
  assert (EM1 : nmode c1 N = nmode c N) by (apply nmode_ext; auto; apply F1).
  assert (Tk1 : forall k t, k <= ss_step (nst c1 N) -> enab c1 N k t -> taken c1 N k t).
  { intros k t Hk He. rewrite St1 in Hk. apply (enabled_ext a ru I0 c c1) in He; auto; [|apply F1]. eapply taken_ext; [apply F1|exact HN| |apply Tk; auto].
    intros o Ho. apply (h_ntr _ _ _ _ _ H N o HN Ho). }
  assert (Esid1 : n_state (getN c1 N) = n_state (getN c N)) by (apply (ex_node _ _ (fr_ext _ _ _ F1) N HN)).
  destruct ok; cbn [negb] in Hp.
  2:{ injection Hp as <-. right. rewrite <- Esid1.
      assert (HCm : complete a ru I0 c1 N).
      { apply (complete_at c1 N (ss_step (nst c1 N))); auto. intros x n HT. apply Tn_S in HT as (x0 & n0 & u & -> & HT & Hi' & _). exact (Hno eq_refl x0 n0 HT Hi'). }
      destruct (left_invariant_ok D mo c1 N _ false B1 A1 HCm) as (K1 & K2 & K3 & K4 & K5).
      split; [rewrite K1; apply F1|]. split; [rewrite K2; apply F1|]. right. auto. }
  apply bind_ok in Hp as (s1 & Hs & Hp). unfold ss_step1 in Hs. rewrite <- Esid1 in Hs, Hp. fold (nst c1 N) in Hs.
  destruct (open_step solve Hsolve cf a WH Hinp ru I0 D (eq N) mo c1 N True (S (ss_step (nst c1 N))) s1 B1 eq_refl A1 Hs) as (B2 & F2 & A2 & En2 & Ops2 & _ & St2 & W2 & O2).
  set (c2 := setS c1 (n_state (getN c1 N)) s1) in *.
  apply bind_ok in Hp as (c3 & Hg & Hp).
  assert (Esid2 : n_state (getN c2 N) = n_state (getN c1 N)) by reflexivity.
  assert (Hm2 : ss_mode (getS c2 (n_state (getN c1 N))) = nmode c2 N) by reflexivity.
  unfold check_guards in Hg. rewrite Hm2 in Hg. rewrite <- Esid2 in Hg.
  assert (HN2 : N < nN c2) by apply A2.
  destruct (guards_ok D (eq N) mo N _ (out_trans a (nmode c2 N)) c2 c3 (ext_trans _ _ _ Hz (ext_trans _ _ _ (fr_ext _ _ _ F1) (fr_ext _ _ _ F2))) B2 eq_refl A2) as [K|(B3 & F3 & A3 & St3 & Tk3 & Dd3 & En3)]; auto.
  { intros [_ K]. lia. }
  { intros t Ht. apply out_trans_spec in Ht. exact Ht. }
  { intro K. exfalso. change (c_tt c2) with (c_tt c1) in K. rewrite (intersect_tt _ _ _ _ _ Hi) in K. congruence. }
  { (* the analysis stops *) left. destruct (m_a (get_mode a (ss_mode (nst c N)))) as [x|]; [|discriminate]. destruct ((nnz x =? 0) && cf_skip0 cf); injection Hp as <-; exact K. }
  right. pose proof (frame_trans _ _ _ _ (frame_trans _ _ _ _ F1 F2) F3) as F.
  assert (Est3 : ss_step (nst c3 N) = S (ss_step (nst c1 N))) by (rewrite St3, En2; exact St2).
  assert (EM3 : nmode c3 N = nmode c N) by (apply nmode_ext; auto; apply F).
  assert (Tk3' : forall k t, k <= ss_step (nst c3 N) -> enab c3 N k t -> taken c3 N k t).
  { intros k t Hk He. rewrite Est3 in Hk. apply Nat.le_succ_r in Hk as [Hk| ->].
    - assert (E13 := frame_trans _ _ _ _ F2 F3). pose proof (b_heap _ _ _ _ _ _ _ _ _ B1) as H1. eapply taken_ext; [apply E13|apply A1| |apply Tk1; [exact Hk|]].
      + intros o Ho. apply (h_ntr _ _ _ _ _ H1 N o ltac:(apply A1) Ho).
      + revert He. apply (enabled_ext a ru I0 c1 c3); [apply (heap_closed _ _ _ _ _ H1)|apply E13|apply A1].
    - rewrite <- Est3 in He |- *. apply En3; [|exact He]. apply out_trans_spec. destruct He as (x & n & _ & K1 & K2 & _). split; [exact K1|]. rewrite K2, EM3. symmetry. apply nmode_ext; auto. apply (frame_trans _ _ _ _ F1 F2). }
  destruct (m_a (get_mode a (ss_mode (nst c N)))) as [x|] eqn:Ea; [|discriminate].
  assert (Ecap : ru_cap ru (nmode c N) = (nnz x =? 0) && cf_skip0 cf) by (apply Hcap; exact Ea).
  assert (Esid3 : n_state (getN c3 N) = n_state (getN c1 N)). { destruct (ex_node _ _ (fr_ext _ _ _ F3) N HN2) as [-> _]. reflexivity. }
  destruct ((nnz x =? 0) && cf_skip0 cf); injection Hp as <-.
  - rewrite <- Esid3.
    assert (HCm : complete a ru I0 c3 N).
    { apply (complete_at c3 N (ss_step (nst c3 N))); auto. intros y n HT. apply Tn_S in HT as (x0 & n0 & u & -> & HT & _ & _ & Hc & _). rewrite EM3 in Hc. specialize (Hc Ecap). lia. }
    destruct (left_invariant_ok D mo c3 N _ false B3 A3 HCm) as (K1 & K2 & K3 & K4 & K5).
    split; [rewrite K1; apply F|]. split; [rewrite K2; apply F|]. right. auto.
  - split; [apply F|]. split; [apply F|]. left. split; [rewrite (fr_cur _ _ _ F); exact Hcur|]. split; [exact B3|]. constructor; auto.
    + revert A3. apply active_weak. intros [_ K]. lia.
    + rewrite EM3, Ecap. discriminate.
Qed.
End Cont.
Lemma bad_dec cf c : {bad cf c} + {~ bad cf c}.
Proof.
  unfold bad. destruct (cf_stop_agg cf).
  - destruct (c_concerr c); [left; left; auto|]. destruct (c_aggerr c); [left; right; auto|right; intros [[_ K]|[_ K]]; discriminate].
  - destruct (cf_stop_conc cf), (c_concerr c); try (left; left; auto; fail); right; intros [[[K|K] K']|[K _]]; discriminate.
Qed.
