(** The flag took_tt_transition is changed by nothing but the guard check of the current state and the step that consumes it. *)
From Verif Require Import Base BaseFacts LpModel LpUtil Automaton StateSet BuildFacts StateFacts CoreModel HeapFacts CoreOps CorePop.
Open Scope nat_scope.

Definition tts (c c' : core) : Prop := c_tt c' = c_tt c.
Lemma tts_refl c : tts c c. Proof. reflexivity. Qed.
Lemma tts_trans c1 c2 c3 : tts c1 c2 -> tts c2 c3 -> tts c1 c3.
Proof. unfold tts. congruence. Qed.
Lemma tts_eq c c' : c_tt c' = c_tt c -> c_tt c' = c_tt c -> tts c c'.
Proof. auto. Qed.

Section Mono.
Variable solve : solver.
Variable arnoldi : nat -> option (list Q) -> csr -> option csr -> nat -> list (list Q).
Variable cf : cfg.
Variable a : ha.

Lemma tts_error_reached c sid t l c' : error_reached solve cf a c sid t l = Ok c' -> tts c c'.
Proof. intro H. apply error_reached_ok in H as (ag & co & ce & -> & _). reflexivity. Qed.
Lemma tts_make_op c t l sid nid c' r : make_op_transition solve cf a c t l sid nid = Ok (c', r) -> tts c c'.
Proof.
  unfold make_op_transition. intro H. apply bind_ok in H as (p & _ & H). destruct p as [[l1 ctr]|]; [|apply ok_inj in H; injection H as <- _; apply tts_refl].
  apply bind_ok in H as (l2 & _ & H). apply bind_ok in H as (f & _ & H). apply bind_ok in H as (u & _ & H). apply bind_ok in H as (s & _ & H). apply ok_inj in H. injection H as <- _. apply tts_eq; reflexivity.
Qed.
Lemma tts_add c t l sid nid c' : add_transition_successor solve cf a c t l sid nid = Ok c' -> tts c c'.
Proof.
  unfold add_transition_successor. intro H. apply bind_ok in H as ([c1 o] & H1 & H). apply tts_make_op in H1. destruct o; apply ok_inj in H; subst c'; [|exact H1].
  eapply tts_trans; [exact H1|]. apply tts_eq; reflexivity.
Qed.
Lemma push_ops_flags n xs : forall c, c_tt (push_ops c n xs) = c_tt c /\ c_tt (push_ops c n xs) = c_tt c.
Proof. unfold push_ops. induction xs as [|x xs IH]; intro c; cbn [fold_left]; [auto|]. apply (IH (push_op c n x)). Qed.
Lemma tts_intersect c nid sid c' ok : intersect_state solve a c nid sid = Ok (c', ok) -> tts c c'.
Proof.
  unfold intersect_state. intro H. apply bind_ok in H as ([[s1 ops] ok1] & _ & H). apply ok_inj in H. injection H as <- _.
  destruct (push_ops_flags nid (map (fun ib => NInv (ss_step (getS c sid)) (fst ib) (snd ib)) ops) (setS c sid s1)) as [K1 K2]. apply tts_eq; [rewrite K1|rewrite K2]; reflexivity.
Qed.
Lemma tts_put_lps sids : forall ls c, c_tt (put_lps c sids ls) = c_tt c /\ c_tt (put_lps c sids ls) = c_tt c.
Proof. induction sids as [|i sids IH]; intros [|l ls] c; cbn [put_lps]; auto. apply (IH ls (setS c i (ss_with_lpi (getS c i) l))). Qed.
Lemma set_childs_flags ops n : forall c, c_tt (fold_left (fun c o => set_child c o n) ops c) = c_tt c /\ c_tt (fold_left (fun c o => set_child c o n) ops c) = c_tt c.
Proof. induction ops as [|o ops IH]; intro c; cbn [fold_left]; [auto|]. apply (IH (set_child c o n)). Qed.
Lemma tts_make_node c ops agg str c' nid : make_node solve arnoldi a c ops agg str = Ok (c', nid) -> tts c c'.
Proof.
  unfold make_node. intro H. apply bind_ok in H as ([c1 sid] & H1 & H).
  assert (M1 : tts c c1).
  { assert (K : forall r, aggregate_states solve arnoldi a c ops agg = Ok r -> tts c (fst r)).
    { intros [c2 s] K. unfold aggregate_states in K. destruct agg as [[[] g]|]; try discriminate.
      - destruct (m_a _) in K; [|discriminate]. apply bind_ok in K as (d & _ & K). apply bind_ok in K as (r & _ & K). apply bind_ok in K as (s' & _ & K). apply ok_inj in K. injection K as <- _.
        destruct (tts_put_lps (map (fun o => o_post (getO c o)) ops) (fst r) c) as [E1 E2]. apply tts_eq; assumption.
      - destruct (m_a _) in K; [|discriminate]. apply bind_ok in K as (d & _ & K). apply bind_ok in K as (r & _ & K). apply bind_ok in K as (s' & _ & K). apply ok_inj in K. injection K as <- _.
        destruct (tts_put_lps (map (fun o => o_post (getO c o)) ops) (fst r) c) as [E1 E2]. apply tts_eq; assumption.
      - apply bind_ok in K as (d & _ & K). apply bind_ok in K as (s' & _ & K). apply ok_inj in K. injection K as <- _. apply tts_refl. }
    destruct ops as [|o [|o2 ops]].
    - apply bind_ok in H1 as ([c2 s] & H1 & E). apply ok_inj in E. injection E as <- _. apply (K _ H1).
    - apply ok_inj in H1. injection H1 as <- _. apply tts_refl.
    - apply bind_ok in H1 as ([c2 s] & H1 & E). apply ok_inj in E. injection E as <- _. apply (K _ H1). }
  apply ok_inj in H. injection H as <- _. eapply tts_trans; [exact M1|].
  match goal with |- context [fold_left (fun c o => set_child c o ?nn) ops ?c2] => pose proof (set_childs_flags ops nn c2) as K end.
  destruct K as [K1 K2]. destruct (existsb _ _); apply tts_eq; ccbn; [exact K1|exact K2|exact K1|exact K2].
Qed.
Lemma tts_pop c c' n : pop_waiting_list solve arnoldi cf a c = Ok (c', n) -> tts c c'.
Proof.
  unfold pop_waiting_list. intro H. apply bind_ok in H as (ops & _ & H). apply bind_ok in H as (u & _ & H). apply bind_ok in H as (g & _ & H). apply bind_ok in H as ([c1 nid] & H1 & H).
  apply ok_inj in H. injection H as <- _. apply tts_make_node in H1. exact H1.
Qed.
Lemma tts_step_pop c c' : do_step_pop solve arnoldi cf a c = Ok c' -> tts c c'.
Proof.
  unfold do_step_pop. intro H. apply bind_ok in H as ([c1 nid] & H1 & H). apply tts_pop in H1. destruct (is_error _) in H; [apply ok_inj in H; subst; exact H1|].
  apply bind_ok in H as ([c2 ok] & H2 & H). apply tts_intersect in H2. assert (M := tts_trans _ _ _ H1 H2). destruct ok; apply ok_inj in H; subst c'; exact M.
Qed.
Lemma tts_begin c n c' : begin_replay solve arnoldi a c n = Ok c' -> tts c c'.
Proof.
  unfold begin_replay, split_node. intro H. apply bind_ok in H as (rm & _ & H). apply bind_ok in H as ([c1 l] & H1 & H). apply ok_inj in H. subst c'. cbn [fst snd].
  apply bind_ok in H1 as (u & _ & H1). apply bind_ok in H1 as (s & _ & H1). apply bind_ok in H1 as ([c2 n0] & Ha & H1). apply bind_ok in H1 as ([c3 n1] & Hb & H1). cbn [fst snd] in *.
  apply ok_inj in H1. injection H1 as <- _. apply tts_make_node in Ha, Hb. apply (tts_trans _ c2); [exact Ha|exact Hb].
Qed.
Lemma tts_replay_op c mp ch x r : replay_op solve cf a c mp ch x = Ok r -> tts c (fst r).
Proof.
  destruct x as [k i st|k b|o]; cbn [replay_op]; intro H.
  - apply bind_ok in H as (c1 & H1 & H). apply ok_inj in H. subst r. cbn [fst]. unfold replay_inv in H1. apply bind_ok in H1 as (s & _ & H1). destruct (nth_error _ _) in H1; [|discriminate].
    apply bind_ok in H1 as ([[s2 o] st'] & _ & H1). destruct o as [[|]|].
    + apply bind_ok in H1 as (f & _ & H1). destruct f; apply ok_inj in H1; subst c1; apply tts_eq; reflexivity.
    + apply ok_inj in H1; subst c1; apply tts_eq; reflexivity.
    + apply ok_inj in H1; subst c1; apply tts_eq; reflexivity.
  - apply ok_inj in H. subst r. apply tts_eq; reflexivity.
  - unfold replay_tr in H. apply bind_ok in H as (s & _ & H). destruct (o_trans _) in H; [|discriminate]. apply bind_ok in H as ([l1 ol] & _ & H). cbn [fst snd] in H.
    match type of H with context [Ok (?cc, mp)] => set (c2 := cc) in H end. assert (M2 : tts c c2) by (apply tts_eq; reflexivity).
    destruct ol as [l|]; [|apply ok_inj in H; subst r; exact M2]. apply bind_ok in H as (c3 & H3 & H).
    assert (M3 : tts c2 c3). { destruct (is_error _) in H3; [eapply tts_error_reached; eauto|apply ok_inj in H3; subst; apply tts_refl]. }
    apply bind_ok in H as ([c4 no] & H4 & H). apply tts_make_op in H4. assert (M4 := tts_trans _ _ _ (tts_trans _ _ _ M2 M3) H4).
    destruct no; [|apply ok_inj in H; subst r; exact M4]. destruct (o_child _) in H; apply ok_inj in H; subst r; exact M4.
Qed.
Lemma tts_replay_children x chs : forall c mp r, replay_children solve cf a c mp chs x = Ok r -> tts c (fst r).
Proof.
  induction chs as [|ch chs IH]; intros c mp r H; cbn [replay_children] in H; [apply ok_inj in H; subst; apply tts_refl|].
  apply bind_ok in H as (r1 & H1 & H). eapply tts_trans; [|eapply IH; eauto]. destruct (left_inv c ch); [apply ok_inj in H1; subst; apply tts_refl|eapply tts_replay_op; eauto].
Qed.
Lemma tts_replay_loop chs xs : forall c mp idx cur only pl c' mp' i' cu' pl', replay_loop solve cf a c mp chs idx cur only pl xs = Ok (c', mp', i', cu', pl') -> tts c c'.
Proof.
  induction xs as [|x xs IH]; intros c mp idx cur only pl c' mp' i' cu' pl' H; cbn [replay_loop] in H; [apply ok_inj in H; injection H as <- _ _ _ _; apply tts_refl|].
  set (p := if (cur <? nop_step c x) && negb only then (S cur, true) else (cur, only)) in H. destruct p as [cur1 only1]. destruct (negb _) in H; [apply ok_inj in H; injection H as <- _ _ _ _; apply tts_refl|].
  destruct (only1 && _); [apply ok_inj in H; injection H as <- _ _ _ _; apply tts_refl|]. apply bind_ok in H as (r1 & H1 & H). eapply tts_trans; [eapply tts_replay_children; eauto|eapply IH; eauto].
Qed.
Lemma tts_advance k chs : forall c c', advance_children a c chs k = Ok c' -> tts c c'.
Proof.
  induction chs as [|ch chs IH]; intros c c' H; cbn [advance_children] in H; [apply ok_inj in H; subst; apply tts_refl|]. apply bind_ok in H as (c1 & H1 & H). eapply tts_trans; [|eapply IH; eauto].
  destruct (left_inv c ch); [apply ok_inj in H1; subst; apply tts_refl|]. apply bind_ok in H1 as (s & _ & H1). apply ok_inj in H1. subst c1. apply tts_eq; reflexivity.
Qed.
Lemma tts_finish mp : forall c c', finish_map solve arnoldi a c mp = Ok c' -> tts c c'.
Proof.
  induction mp as [|[[ch k] os] mp IH]; intros c c' H; cbn [finish_map] in H; [apply ok_inj in H; subst; apply tts_refl|]. apply bind_ok in H as ([c1 n] & H1 & H). apply tts_make_node in H1.
  eapply tts_trans; [exact H1|]. apply IH in H. exact H.
Qed.
Lemma tts_step_replay c c' : do_step_replay solve arnoldi cf a c = Ok c' -> tts c c'.
Proof.
  unfold do_step_replay. intro H. apply bind_ok in H as (c1 & H1 & H).
  assert (M1 : tts c c1). { destruct (c_rep c); [apply ok_inj in H1; subst; apply tts_refl|]. destruct (c_dwait c) as [|[p chs] dw]; [discriminate|]. apply ok_inj in H1. subst c1. apply tts_eq; reflexivity. }
  destruct (c_rep c1) as [rp|]; [|discriminate]. destruct (nth_error _ _) in H; [|discriminate]. apply bind_ok in H as ([[[[c2 mp] i2] k2] p2] & H2 & H). apply tts_replay_loop in H2.
  apply bind_ok in H as (c3 & H3 & H). apply tts_advance in H3. apply bind_ok in H as (u & _ & H). assert (M3 := tts_trans _ _ _ (tts_trans _ _ _ M1 H2) H3).
  destruct (_ || _) in H; [|apply ok_inj in H; subst c'; exact M3]. apply bind_ok in H as (c4 & H4 & H). apply tts_finish in H4. apply ok_inj in H. subst c'. exact (tts_trans _ _ _ M3 H4).
Qed.

(** without time-triggered transitions nothing raises the flag *)
Hypothesis Hno : forall t, cf_tt cf && t_tt (get_trans a t) = false.
Lemma tts_guards nid sid ts : forall c c', check_guards_loop solve cf a c nid sid ts = Ok c' -> tts c c'.
Proof.
  induction ts as [|t ts IH]; intros c c' H; cbn [check_guards_loop] in H; [apply ok_inj in H; subst; apply tts_refl|].
  apply bind_ok in H as (r & _ & H). destruct (snd r) as [l|]; [|apply IH in H; exact H]. apply bind_ok in H as (c2 & H2 & H).
  assert (T2 : tts c c2). { destruct (is_error _) in H2; [apply tts_error_reached in H2; exact H2|apply ok_inj in H2; subst; reflexivity]. }
  destruct (_ && _) in H; [apply ok_inj in H; subst; exact T2|]. apply bind_ok in H as (c3 & H3 & H). apply tts_add in H3. apply bind_ok in H as (c4 & H4 & H). rewrite Hno in H4. apply ok_inj in H4. subst c4.
  apply IH in H. exact (tts_trans _ _ _ T2 (tts_trans _ _ _ H3 H)).
Qed.
Lemma tts_step c c' : do_step solve arnoldi cf a c = Ok c' -> c_tt c = false -> c_tt c' = false.
Proof.
  unfold do_step. intros H F. destruct (is_finished cf c); [apply ok_inj in H; subst; exact F|]. destruct (cur_state c) as [[nid sid]|].
  - apply bind_ok in H as (c1 & H1 & H). apply ok_inj in H. subst c'. change (c_tt c1 = false). unfold continuous_post in H1. destruct (_ <=? _) in H1; [apply ok_inj in H1; subst c1; exact F|].
    rewrite F in H1. apply bind_ok in H1 as ([c2 ok] & H2 & H1). apply tts_intersect in H2. unfold tts in H2. destruct (negb ok) in H1; [apply ok_inj in H1; subst c1; cbn; congruence|].
    apply bind_ok in H1 as (s1 & _ & H1). apply bind_ok in H1 as (c3 & H3 & H1). unfold check_guards in H3. apply tts_guards in H3. unfold tts in H3. cbn in H3.
    destruct (m_a _) in H1; [|discriminate]. destruct (_ && _) in H1; apply ok_inj in H1; subst c1; cbn; congruence.
  - destruct (doing_replay c); [apply tts_step_replay in H; unfold tts in H; congruence|]. apply bind_ok in H as ([k|] & _ & H).
    + apply bind_ok in H as (c2 & H2 & H). apply tts_begin in H2. apply tts_step_replay in H. unfold tts in *. congruence.
    + apply bind_ok in H as (c2 & H2 & H). apply tts_step_pop in H2. unfold tts in H2. destruct (cur_state c2) as [[nid sid]|]; [|apply ok_inj in H; congruence]. destruct (cf_urgent cf); [|apply ok_inj in H; congruence].
      unfold check_guards in H. apply tts_guards in H. unfold tts in H. congruence.
Qed.
End Mono.
