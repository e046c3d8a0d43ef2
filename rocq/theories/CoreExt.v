(** Objects of the aggregation DAG persist: no step of the analysis removes a state, transition or node, or changes its
    immutable fields; operation lists only grow at their end. *)
From Verif Require Import Base BaseFacts LpModel LpUtil Automaton StateSet BuildFacts StateFacts CoreModel HeapFacts CoreOps CorePop.
Open Scope nat_scope.

Definition frame2 (s s' : sset) : Prop := ss_mode s' = ss_mode s /\ ss_conc s' = ss_conc s.
Lemma f2_refl s : frame2 s s. Proof. split; reflexivity. Qed.
Lemma f2_trans s1 s2 s3 : frame2 s1 s2 -> frame2 s2 s3 -> frame2 s1 s3.
Proof. intros [A1 A2] [B1 B2]. split; congruence. Qed.
Lemma f2_step a s k s' : ss_step_to a s k = Ok s' -> frame2 s s'.
Proof.
  unfold ss_step_to. intro H. apply bind_ok in H as (u & _ & H). destruct (_ =? _) in H; [apply ok_inj in H; subst; apply f2_refl|]. destruct (m_a _) in H; [|discriminate].
  apply bind_ok in H as (l & _ & H). apply bind_ok in H as (li & _ & H). apply ok_inj in H. subst. split; reflexivity.
Qed.
Lemma f2_cond solve s i c s' o st : inv_cond solve s i c = Ok (s', o, st) -> frame2 s s'.
Proof.
  unfold inv_cond. intro H. apply bind_ok in H as ([l1 r] & _ & H). cbn [fst snd] in H. destruct r as [[|]|].
  - match type of H with match ?z with _ => _ end = _ => destruct z as [old|] end.
    + apply bind_ok in H as ([[l j] sg] & _ & H). apply ok_inj in H. injection H as <- _ _. split; reflexivity.
    + apply bind_ok in H as (li & _ & H). apply ok_inj in H. injection H as <- _ _. split; reflexivity.
  - apply ok_inj in H. injection H as <- _ _. split; reflexivity.
  - apply ok_inj in H. injection H as <- _ _. split; reflexivity.
Qed.
Lemma f2_inv solve cs : forall s i s' ops ok, intersect_inv solve s i cs = Ok (s', ops, ok) -> frame2 s s'.
Proof.
  induction cs as [|c cs IH]; intros s i s' ops ok H; cbn [intersect_inv] in H; [apply ok_inj in H; injection H as <- _ _; apply f2_refl|].
  apply bind_ok in H as ([[s1 o] st] & H1 & H). apply f2_cond in H1.
  assert (K : forall i, forall ops ok, intersect_inv solve s1 i cs = Ok (s', ops, ok) -> frame2 s s') by (intros; eapply f2_trans; eauto).
  destruct o as [[|]|]; [|eauto|eauto]. apply bind_ok in H as (f & _ & H). destruct f; [|apply ok_inj in H; injection H as <- _ _; exact H1].
  apply bind_ok in H as ([[s2 ops2] ok2] & H2 & H). apply ok_inj in H. injection H as <- _ _. eauto.
Qed.

Section Ext.
Variable solve : solver.
Variable arnoldi : nat -> option (list Q) -> csr -> option csr -> nat -> list (list Q).
Variable cf : cfg.
Variable a : ha.

Lemma ext_set2 c i s : frame2 (getS c i) s -> ext c (setS c i s).
Proof. intros [E1 E2]. apply ext_setS; assumption. Qed.
Lemma ext_lpi c i l : ext c (setS c i (ss_with_lpi (getS c i) l)).
Proof. apply ext_set2. split; reflexivity. Qed.
Lemma ext_eq2 c c1 c' : ext c c1 -> c_states c' = c_states c1 -> c_ops c' = c_ops c1 -> c_nodes c' = c_nodes c1 -> ext c c'.
Proof. intros E E1 E2 E3. eapply ext_trans; [exact E|apply ext_same; auto]. Qed.

Lemma ext_error_reached c sid t l c' : error_reached solve cf a c sid t l = Ok c' -> ext c c'.
Proof. intro H. apply error_reached_ok in H as (ag & co & ce & -> & _). apply ext_same; reflexivity. Qed.
Lemma ext_make_op c t l sid nid c' r : make_op_transition solve cf a c t l sid nid = Ok (c', r) -> ext c c'.
Proof.
  unfold make_op_transition. intro H. apply bind_ok in H as (p & _ & H). destruct p as [[l1 ctr]|]; [|apply ok_inj in H; injection H as <- _; apply ext_refl].
  apply bind_ok in H as (l2 & _ & H). apply bind_ok in H as (f & _ & H). apply bind_ok in H as (u & _ & H). apply bind_ok in H as (s & _ & H). apply ok_inj in H. injection H as <- _.
  exact (ext_trans _ _ _ (ext_addS c s) (ext_addO (with_states c (c_states c ++ [s])) (mkOp (ss_step (getS c sid)) (Some nid) None (Some t) (List.length (c_states c)) ctr))).
Qed.
Lemma ext_add c t l sid nid c' : add_transition_successor solve cf a c t l sid nid = Ok c' -> ext c c'.
Proof.
  unfold add_transition_successor. intro H. apply bind_ok in H as ([c1 o] & H1 & H). apply ext_make_op in H1. destruct o as [o|]; apply ok_inj in H; subst c'; [|exact H1].
  eapply ext_trans; [exact H1|]. eapply ext_eq2; [apply (ext_push c1 nid (NTr o))|reflexivity|reflexivity|reflexivity].
Qed.
Lemma ext_guards nid sid ts : forall c c', check_guards_loop solve cf a c nid sid ts = Ok c' -> ext c c'.
Proof.
  induction ts as [|t ts IH]; intros c c' H; cbn [check_guards_loop] in H; [apply ok_inj in H; subst; apply ext_refl|].
  apply bind_ok in H as (r & _ & H). set (c1 := setS c sid _) in H. assert (M1 : ext c c1) by apply ext_lpi. destruct (snd r) as [l|]; [|eapply ext_trans; eauto].
  apply bind_ok in H as (c2 & H2 & H).
  assert (M2 : ext c1 c2). { destruct (is_error _) in H2; [eapply ext_error_reached; eauto|apply ok_inj in H2; subst; apply ext_refl]. }
  assert (M02 := ext_trans _ _ _ M1 M2). destruct (_ && _) in H; [apply ok_inj in H; subst; exact M02|].
  apply bind_ok in H as (c3 & H3 & H). apply ext_add in H3. apply bind_ok in H as (c4 & H4 & H).
  assert (M4 : ext c3 c4). { destruct (_ && _) in H4; [|apply ok_inj in H4; subst; apply ext_refl]. apply bind_ok in H4 as (w & _ & H4). apply ok_inj in H4. destruct (snd w); subst c4; [|apply ext_lpi].
    eapply ext_eq2; [apply ext_lpi|reflexivity|reflexivity|reflexivity]. }
  eapply ext_trans; [exact M02|]. eapply ext_trans; [exact H3|]. eapply ext_trans; [exact M4|]. eapply IH; eauto.
Qed.
Lemma ext_push_ops n xs : forall c, ext c (push_ops c n xs).
Proof. unfold push_ops. induction xs as [|x xs IH]; intro c; cbn [fold_left]; [apply ext_refl|]. eapply ext_trans; [apply ext_push|apply IH]. Qed.
Lemma ext_intersect c nid sid c' ok : intersect_state solve a c nid sid = Ok (c', ok) -> ext c c'.
Proof.
  unfold intersect_state, intersect_invariant. intro H. apply bind_ok in H as ([[s1 ops] ok1] & H1 & H). apply ok_inj in H. injection H as <- _.
  eapply ext_trans; [|apply ext_push_ops]. apply ext_set2. eapply f2_inv; eauto.
Qed.
Lemma ext_left c nid sid b : ext c (left_invariant c nid sid b).
Proof. unfold left_invariant. eapply ext_eq2; [apply ext_push|reflexivity|reflexivity|reflexivity]. Qed.
Lemma ext_cont c nid sid c' : continuous_post solve cf a c nid sid = Ok c' -> ext c c'.
Proof.
  unfold continuous_post. intro H. destruct (_ <=? _) in H; [apply ok_inj in H; subst; apply ext_left|].
  destruct (c_tt c); [apply ok_inj in H; subst; eapply ext_trans; [apply (ext_same c (with_tt c false)); reflexivity|apply ext_left]|].
  apply bind_ok in H as ([c1 ok] & H1 & H). apply ext_intersect in H1. destruct (negb ok) in H; [apply ok_inj in H; subst; eapply ext_trans; [exact H1|apply ext_left]|].
  apply bind_ok in H as (s1 & Hs & H). apply bind_ok in H as (c2 & H2 & H). unfold check_guards in H2. apply ext_guards in H2.
  assert (M : ext c c2). { eapply ext_trans; [exact H1|]. eapply ext_trans; [|exact H2]. apply ext_set2. eapply f2_step; exact Hs. }
  destruct (m_a _) in H; [|discriminate]. destruct (_ && _) in H; apply ok_inj in H; subst c'; [|exact M]. eapply ext_trans; [exact M|apply ext_left].
Qed.
Lemma ext_put_lps sids : forall ls c, ext c (put_lps c sids ls).
Proof. induction sids as [|i sids IH]; intros [|l ls] c; cbn [put_lps]; try apply ext_refl. eapply ext_trans; [apply ext_lpi|apply IH]. Qed.
Lemma ext_make_node c ops agg str c' nid : make_node solve arnoldi a c ops agg str = Ok (c', nid) -> ext c c'.
Proof.
  unfold make_node. intro H. apply bind_ok in H as ([c1 sid] & H1 & H).
  assert (M1 : ext c c1).
  { assert (K : forall r, aggregate_states solve arnoldi a c ops agg = Ok r -> ext c (fst r)).
    { intros [c2 s] K. unfold aggregate_states in K. destruct agg as [[[] g]|]; try discriminate.
      - destruct (m_a _) in K; [|discriminate]. apply bind_ok in K as (d & _ & K). apply bind_ok in K as (r & _ & K). apply bind_ok in K as (s' & _ & K). apply ok_inj in K. injection K as <- _. apply ext_put_lps.
      - destruct (m_a _) in K; [|discriminate]. apply bind_ok in K as (d & _ & K). apply bind_ok in K as (r & _ & K). apply bind_ok in K as (s' & _ & K). apply ok_inj in K. injection K as <- _. apply ext_put_lps.
      - apply bind_ok in K as (d & _ & K). apply bind_ok in K as (s' & _ & K). apply ok_inj in K. injection K as <- _. apply ext_refl. }
    destruct ops as [|o [|o2 ops]].
    - apply bind_ok in H1 as ([c2 s] & H1 & E). apply ok_inj in E. injection E as <- _. eapply ext_trans; [apply (K _ H1)|apply ext_addS].
    - apply ok_inj in H1. injection H1 as <- _. apply ext_refl.
    - apply bind_ok in H1 as ([c2 s] & H1 & E). apply ok_inj in E. injection E as <- _. eapply ext_trans; [apply (K _ H1)|apply ext_addS]. }
  apply ok_inj in H. injection H as <- _. eapply ext_trans; [exact M1|].
  match goal with |- context [fold_left (fun c o => set_child c o ?nn) ops ?c2] =>
    assert (M2 : ext c1 c2) by (apply ext_set2; split; reflexivity); pose proof (ext_set_childs c2 ops nn) as M3;
    pose proof (ext_addN (fold_left (fun c o => set_child c o nn) ops c2) (mkNode [] sid ops agg)) as M4 end.
  pose proof (ext_trans _ _ _ (ext_trans _ _ _ M2 M3) M4) as M5. destruct (existsb _ _); [|exact M5]. eapply ext_eq2; [exact M5|reflexivity|reflexivity|reflexivity].
Qed.
Lemma ext_pop c c' n : pop_waiting_list solve arnoldi cf a c = Ok (c', n) -> ext c c'.
Proof.
  unfold pop_waiting_list. intro H. apply bind_ok in H as (ops & _ & H). apply bind_ok in H as (u & _ & H). apply bind_ok in H as (g & _ & H). apply bind_ok in H as ([c1 nid] & H1 & H).
  apply ok_inj in H. injection H as <- _. apply ext_make_node in H1. eapply ext_trans; [|eapply ext_eq2; [exact H1|reflexivity|reflexivity|reflexivity]]. apply ext_same; reflexivity.
Qed.
Lemma ext_step_pop c c' : do_step_pop solve arnoldi cf a c = Ok c' -> ext c c'.
Proof.
  unfold do_step_pop. intro H. apply bind_ok in H as ([c1 nid] & H1 & H). apply ext_pop in H1. destruct (is_error _) in H; [apply ok_inj in H; subst; eapply ext_trans; [exact H1|apply ext_left]|].
  apply bind_ok in H as ([c2 ok] & H2 & H). apply ext_intersect in H2. assert (M := ext_trans _ _ _ H1 H2). destruct ok; apply ok_inj in H; subst c'; [exact M|]. eapply ext_trans; [exact M|apply ext_left].
Qed.
Lemma ext_begin c n c' : begin_replay solve arnoldi a c n = Ok c' -> ext c c'.
Proof.
  unfold begin_replay, split_node. intro H. apply bind_ok in H as (rm & _ & H). apply bind_ok in H as ([c1 l] & H1 & H). apply ok_inj in H. subst c'. cbn [fst snd].
  apply bind_ok in H1 as (u & _ & H1). apply bind_ok in H1 as (s & _ & H1). apply bind_ok in H1 as ([c2 n0] & Ha & H1). apply bind_ok in H1 as ([c3 n1] & Hb & H1). cbn [fst snd] in *.
  apply ok_inj in H1. injection H1 as <- _. apply ext_make_node in Ha, Hb.
  eapply ext_trans; [|eapply ext_eq2; [exact (ext_trans _ _ _ Ha Hb)|reflexivity|reflexivity|reflexivity]]. apply ext_same; reflexivity.
Qed.
Lemma ext_replay_op c mp ch x r : replay_op solve cf a c mp ch x = Ok r -> ext c (fst r).
Proof.
  destruct x as [k i st|k b|o]; cbn [replay_op]; intro H.
  - apply bind_ok in H as (c1 & H1 & H). apply ok_inj in H. subst r. cbn [fst]. unfold replay_inv in H1. apply bind_ok in H1 as (s & Hs & H1). destruct (nth_error _ _) in H1; [|discriminate].
    apply bind_ok in H1 as ([[s2 o] st'] & Hc & H1).
    assert (M : ext c (setS c (n_state (getN c ch)) s2)) by (apply ext_set2; eapply f2_trans; [eapply f2_step; exact Hs|eapply f2_cond; exact Hc]). destruct o as [[|]|].
    + apply bind_ok in H1 as (f & _ & H1). destruct f; apply ok_inj in H1; subst c1; repeat (eapply ext_trans; [|apply ext_push]); exact M.
    + apply ok_inj in H1; subst c1; exact M.
    + apply ok_inj in H1; subst c1; eapply ext_trans; [exact M|apply ext_push].
  - apply ok_inj in H. subst r. apply ext_push.
  - unfold replay_tr in H. apply bind_ok in H as (s & Hs & H). destruct (o_trans _) in H; [|discriminate]. apply bind_ok in H as ([l1 ol] & _ & H). cbn [fst snd] in H.
    match type of H with context [Ok (?cc, mp)] => set (c2 := cc) in H end.
    assert (M2 : ext c c2) by (eapply ext_trans; [|apply ext_lpi]; apply ext_set2; eapply f2_step; exact Hs).
    destruct ol as [l|]; [|apply ok_inj in H; subst r; exact M2]. apply bind_ok in H as (c3 & H3 & H).
    assert (M3 : ext c2 c3). { destruct (is_error _) in H3; [eapply ext_error_reached; eauto|apply ok_inj in H3; subst; apply ext_refl]. }
    apply bind_ok in H as ([c4 no] & H4 & H). apply ext_make_op in H4. assert (M4 := ext_trans _ _ _ (ext_trans _ _ _ M2 M3) H4).
    destruct no as [no|]; [|apply ok_inj in H; subst r; exact M4]. assert (M5 := ext_trans _ _ _ M4 (ext_push c4 ch (NTr no))).
    destruct (o_child _) in H; apply ok_inj in H; subst r; [exact M5|]. eapply ext_eq2; [exact M5|reflexivity|reflexivity|reflexivity].
Qed.
Lemma ext_replay_children x chs : forall c mp r, replay_children solve cf a c mp chs x = Ok r -> ext c (fst r).
Proof.
  induction chs as [|ch chs IH]; intros c mp r H; cbn [replay_children] in H; [apply ok_inj in H; subst; apply ext_refl|].
  apply bind_ok in H as (r1 & H1 & H). eapply ext_trans; [|eapply IH; eauto]. destruct (left_inv c ch); [apply ok_inj in H1; subst; apply ext_refl|eapply ext_replay_op; eauto].
Qed.
Lemma ext_replay_loop chs xs : forall c mp idx cur only pl c' mp' i' cu' pl', replay_loop solve cf a c mp chs idx cur only pl xs = Ok (c', mp', i', cu', pl') -> ext c c'.
Proof.
  induction xs as [|x xs IH]; intros c mp idx cur only pl c' mp' i' cu' pl' H; cbn [replay_loop] in H; [apply ok_inj in H; injection H as <- _ _ _ _; apply ext_refl|].
  set (p := if (cur <? nop_step c x) && negb only then (S cur, true) else (cur, only)) in H. destruct p as [cur1 only1]. destruct (negb _) in H; [apply ok_inj in H; injection H as <- _ _ _ _; apply ext_refl|].
  destruct (only1 && _); [apply ok_inj in H; injection H as <- _ _ _ _; apply ext_refl|]. apply bind_ok in H as (r1 & H1 & H). eapply ext_trans; [eapply ext_replay_children; eauto|eapply IH; eauto].
Qed.
Lemma ext_advance k chs : forall c c', advance_children a c chs k = Ok c' -> ext c c'.
Proof.
  induction chs as [|ch chs IH]; intros c c' H; cbn [advance_children] in H; [apply ok_inj in H; subst; apply ext_refl|]. apply bind_ok in H as (c1 & H1 & H). eapply ext_trans; [|eapply IH; eauto].
  destruct (left_inv c ch); [apply ok_inj in H1; subst; apply ext_refl|]. apply bind_ok in H1 as (s & Hs & H1). apply ok_inj in H1. subst c1. apply ext_set2. eapply f2_step; exact Hs.
Qed.
Lemma ext_finish mp : forall c c', finish_map solve arnoldi a c mp = Ok c' -> ext c c'.
Proof.
  induction mp as [|[[ch k] os] mp IH]; intros c c' H; cbn [finish_map] in H; [apply ok_inj in H; subst; apply ext_refl|]. apply bind_ok in H as ([c1 n] & H1 & H). apply ext_make_node in H1.
  eapply ext_trans; [exact H1|]. apply IH in H. eapply ext_trans; [|exact H]. apply ext_same; reflexivity.
Qed.
Lemma ext_step_replay c c' : do_step_replay solve arnoldi cf a c = Ok c' -> ext c c'.
Proof.
  unfold do_step_replay. intro H. apply bind_ok in H as (c1 & H1 & H).
  assert (M1 : ext c c1). { destruct (c_rep c); [apply ok_inj in H1; subst; apply ext_refl|]. destruct (c_dwait c) as [|[p chs] dw]; [discriminate|]. apply ok_inj in H1. subst c1. apply ext_same; reflexivity. }
  destruct (c_rep c1) as [rp|]; [|discriminate]. destruct (nth_error _ _) in H; [|discriminate]. apply bind_ok in H as ([[[[c2 mp] i2] k2] p2] & H2 & H). apply ext_replay_loop in H2.
  apply bind_ok in H as (c3 & H3 & H). apply ext_advance in H3. apply bind_ok in H as (u & _ & H). assert (M3 := ext_trans _ _ _ (ext_trans _ _ _ M1 H2) H3).
  destruct (_ || _) in H.
  - apply bind_ok in H as (c4 & H4 & H). apply ext_finish in H4. apply ok_inj in H. subst c'. eapply ext_eq2; [exact (ext_trans _ _ _ M3 H4)|reflexivity|reflexivity|reflexivity].
  - apply ok_inj in H; subst c'. eapply ext_eq2; [exact M3|reflexivity|reflexivity|reflexivity].
Qed.
Lemma ext_step c c' : do_step solve arnoldi cf a c = Ok c' -> ext c c'.
Proof.
  unfold do_step. intro H. destruct (is_finished cf c); [apply ok_inj in H; subst; apply ext_refl|]. destruct (cur_state c) as [[nid sid]|].
  - apply bind_ok in H as (c1 & H1 & H). apply ok_inj in H. subst c'. apply ext_cont in H1. eapply ext_eq2; [exact H1|reflexivity|reflexivity|reflexivity].
  - destruct (doing_replay c); [apply ext_step_replay; auto|]. apply bind_ok in H as ([n|] & _ & H).
    + apply bind_ok in H as (c1 & H1 & H). eapply ext_trans; [eapply ext_begin; eauto|apply ext_step_replay; auto].
    + apply bind_ok in H as (c1 & H1 & H). apply ext_step_pop in H1. eapply ext_trans; [exact H1|]. destruct (cur_state c1) as [[nid sid]|]; [|apply ok_inj in H; subst; apply ext_refl].
      destruct (cf_urgent cf); [|apply ok_inj in H; subst; apply ext_refl]. unfold check_guards in H. apply ext_guards in H. exact H.
Qed.
Lemma ext_run fuel : forall c r, run_loop solve arnoldi cf a fuel c = Some (Ok r) -> ext c r.
Proof.
  induction fuel as [|f IH]; intros c r H; cbn [run_loop] in H; destruct (is_finished cf c); try (injection H as <-; apply ext_refl); [discriminate|].
  destruct (do_step solve arnoldi cf a c) as [c1|] eqn:E; [|discriminate]. eapply ext_trans; [apply ext_step; exact E|apply IH; exact H].
Qed.
End Ext.
