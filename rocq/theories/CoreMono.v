(** The error flags of the result are never cleared. *)
From Verif Require Import Base BaseFacts LpModel LpUtil Automaton StateSet BuildFacts StateFacts CoreModel HeapFacts CoreOps CorePop.
Open Scope nat_scope.

Definition mono (c c' : core) : Prop := (c_aggerr c = true -> c_aggerr c' = true) /\ (c_concerr c = true -> c_concerr c' = true).
Lemma mono_refl c : mono c c. Proof. split; auto. Qed.
Lemma mono_trans c1 c2 c3 : mono c1 c2 -> mono c2 c3 -> mono c1 c3.
Proof. intros [A1 A2] [B1 B2]. split; auto. Qed.
Lemma mono_eq c c' : c_aggerr c' = c_aggerr c -> c_concerr c' = c_concerr c -> mono c c'.
Proof. intros E1 E2. split; congruence. Qed.

Section Mono.
Variable solve : solver.
Variable arnoldi : nat -> option (list Q) -> csr -> option csr -> nat -> list (list Q).
Variable cf : cfg.
Variable a : ha.

Lemma mono_error_reached c sid t l c' : error_reached solve cf a c sid t l = Ok c' -> mono c c'.
Proof.
  intro H. apply error_reached_ok in H as (ag & co & ce & -> & R1 & R2 & _). split; auto.
Qed.
Lemma mono_make_op c t l sid nid c' r : make_op_transition solve cf a c t l sid nid = Ok (c', r) -> mono c c'.
Proof.
  unfold make_op_transition. intro H. apply bind_ok in H as (p & _ & H). destruct p as [[l1 ctr]|]; [|apply ok_inj in H; injection H as <- _; apply mono_refl].
  apply bind_ok in H as (l2 & _ & H). apply bind_ok in H as (f & _ & H). apply bind_ok in H as (u & _ & H). apply bind_ok in H as (s & _ & H). apply ok_inj in H. injection H as <- _. apply mono_eq; reflexivity.
Qed.
Lemma mono_add c t l sid nid c' : add_transition_successor solve cf a c t l sid nid = Ok c' -> mono c c'.
Proof.
  unfold add_transition_successor. intro H. apply bind_ok in H as ([c1 o] & H1 & H). apply mono_make_op in H1. destruct o; apply ok_inj in H; subst c'; [|exact H1].
  eapply mono_trans; [exact H1|]. apply mono_eq; reflexivity.
Qed.
Lemma mono_guards nid sid ts : forall c c', check_guards_loop solve cf a c nid sid ts = Ok c' -> mono c c'.
Proof.
  induction ts as [|t ts IH]; intros c c' H; cbn [check_guards_loop] in H; [apply ok_inj in H; subst; apply mono_refl|].
  apply bind_ok in H as (r & _ & H). set (c1 := setS c sid _) in H. assert (M1 : mono c c1) by (apply mono_eq; reflexivity). destruct (snd r) as [l|]; [|eapply mono_trans; eauto].
  apply bind_ok in H as (c2 & H2 & H).
  assert (M2 : mono c1 c2). { destruct (is_error _) in H2; [eapply mono_error_reached; eauto|apply ok_inj in H2; subst; apply mono_refl]. }
  assert (M02 := mono_trans _ _ _ M1 M2). destruct (_ && _) in H; [apply ok_inj in H; subst; exact M02|].
  apply bind_ok in H as (c3 & H3 & H). apply mono_add in H3. apply bind_ok in H as (c4 & H4 & H).
  assert (M4 : mono c3 c4). { destruct (_ && _) in H4; [|apply ok_inj in H4; subst; apply mono_refl]. apply bind_ok in H4 as (w & _ & H4). apply ok_inj in H4. destruct (snd w); subst c4; apply mono_eq; reflexivity. }
  eapply mono_trans; [exact M02|]. eapply mono_trans; [exact H3|]. eapply mono_trans; [exact M4|]. eapply IH; eauto.
Qed.
Lemma push_ops_flags n xs : forall c, c_aggerr (push_ops c n xs) = c_aggerr c /\ c_concerr (push_ops c n xs) = c_concerr c.
Proof. unfold push_ops. induction xs as [|x xs IH]; intro c; cbn [fold_left]; [auto|]. destruct (IH (push_op c n x)) as [-> ->]. auto. Qed.
Lemma mono_intersect c nid sid c' ok : intersect_state solve a c nid sid = Ok (c', ok) -> mono c c'.
Proof.
  unfold intersect_state. intro H. apply bind_ok in H as ([[s1 ops] ok1] & _ & H). apply ok_inj in H. injection H as <- _.
  destruct (push_ops_flags nid (map (fun ib => NInv (ss_step (getS c sid)) (fst ib) (snd ib)) ops) (setS c sid s1)) as [K1 K2]. apply mono_eq; [rewrite K1|rewrite K2]; reflexivity.
Qed.
Lemma mono_cont c nid sid c' : continuous_post solve cf a c nid sid = Ok c' -> mono c c'.
Proof.
  unfold continuous_post. intro H. destruct (_ <=? _) in H; [apply ok_inj in H; subst; apply mono_eq; reflexivity|]. destruct (c_tt c); [apply ok_inj in H; subst; apply mono_eq; reflexivity|].
  apply bind_ok in H as ([c1 ok] & H1 & H). apply mono_intersect in H1. destruct (negb ok) in H; [apply ok_inj in H; subst; exact H1|].
  apply bind_ok in H as (s1 & _ & H). apply bind_ok in H as (c2 & H2 & H). unfold check_guards in H2. apply mono_guards in H2.
  assert (M : mono c c2) by (eapply mono_trans; [exact H1|]; exact H2). destruct (m_a _) in H; [|discriminate]. destruct (_ && _) in H; apply ok_inj in H; subst c'; exact M.
Qed.
Lemma mono_put_lps sids : forall ls c, c_aggerr (put_lps c sids ls) = c_aggerr c /\ c_concerr (put_lps c sids ls) = c_concerr c.
Proof. induction sids as [|i sids IH]; intros [|l ls] c; cbn [put_lps]; auto. destruct (IH ls (setS c i (ss_with_lpi (getS c i) l))) as [-> ->]. auto. Qed.
Lemma set_childs_flags ops n : forall c, c_aggerr (fold_left (fun c o => set_child c o n) ops c) = c_aggerr c /\ c_concerr (fold_left (fun c o => set_child c o n) ops c) = c_concerr c.
Proof. induction ops as [|o ops IH]; intro c; cbn [fold_left]; [auto|]. destruct (IH (set_child c o n)) as [-> ->]. auto. Qed.
Lemma mono_make_node c ops agg str c' nid : make_node solve arnoldi a c ops agg str = Ok (c', nid) -> mono c c'.
Proof.
  unfold make_node. intro H. apply bind_ok in H as ([c1 sid] & H1 & H).
  assert (M1 : mono c c1).
  { assert (K : forall r, aggregate_states solve arnoldi a c ops agg = Ok r -> mono c (fst r)).
    { intros [c2 s] K. unfold aggregate_states in K. destruct agg as [[[] g]|]; try discriminate.
      - destruct (m_a _) in K; [|discriminate]. apply bind_ok in K as (d & _ & K). apply bind_ok in K as (r & _ & K). apply bind_ok in K as (s' & _ & K). apply ok_inj in K. injection K as <- _.
        destruct (mono_put_lps (map (fun o => o_post (getO c o)) ops) (fst r) c) as [E1 E2]. apply mono_eq; assumption.
      - destruct (m_a _) in K; [|discriminate]. apply bind_ok in K as (d & _ & K). apply bind_ok in K as (r & _ & K). apply bind_ok in K as (s' & _ & K). apply ok_inj in K. injection K as <- _.
        destruct (mono_put_lps (map (fun o => o_post (getO c o)) ops) (fst r) c) as [E1 E2]. apply mono_eq; assumption.
      - apply bind_ok in K as (d & _ & K). apply bind_ok in K as (s' & _ & K). apply ok_inj in K. injection K as <- _. apply mono_refl. }
    destruct ops as [|o [|o2 ops]].
    - apply bind_ok in H1 as ([c2 s] & H1 & E). apply ok_inj in E. injection E as <- _. apply (K _ H1).
    - apply ok_inj in H1. injection H1 as <- _. apply mono_refl.
    - apply bind_ok in H1 as ([c2 s] & H1 & E). apply ok_inj in E. injection E as <- _. apply (K _ H1). }
  apply ok_inj in H. injection H as <- _. eapply mono_trans; [exact M1|].
  match goal with |- context [fold_left (fun c o => set_child c o ?nn) ops ?c2] => pose proof (set_childs_flags ops nn c2) as K end.
  destruct K as [K1 K2]. destruct (existsb _ _); apply mono_eq; ccbn; [exact K1|exact K2|exact K1|exact K2].
Qed.
Lemma mono_pop c c' n : pop_waiting_list solve arnoldi cf a c = Ok (c', n) -> mono c c'.
Proof.
  unfold pop_waiting_list. intro H. apply bind_ok in H as (ops & _ & H). apply bind_ok in H as (u & _ & H). apply bind_ok in H as (g & _ & H). apply bind_ok in H as ([c1 nid] & H1 & H).
  apply ok_inj in H. injection H as <- _. apply mono_make_node in H1. exact H1.
Qed.
Lemma mono_step_pop c c' : do_step_pop solve arnoldi cf a c = Ok c' -> mono c c'.
Proof.
  unfold do_step_pop. intro H. apply bind_ok in H as ([c1 nid] & H1 & H). apply mono_pop in H1. destruct (is_error _) in H; [apply ok_inj in H; subst; exact H1|].
  apply bind_ok in H as ([c2 ok] & H2 & H). apply mono_intersect in H2. assert (M := mono_trans _ _ _ H1 H2). destruct ok; apply ok_inj in H; subst c'; exact M.
Qed.
Lemma mono_begin c n c' : begin_replay solve arnoldi a c n = Ok c' -> mono c c'.
Proof.
  unfold begin_replay, split_node. intro H. apply bind_ok in H as (rm & _ & H). apply bind_ok in H as ([c1 l] & H1 & H). apply ok_inj in H. subst c'. cbn [fst snd].
  apply bind_ok in H1 as (u & _ & H1). apply bind_ok in H1 as (s & _ & H1). apply bind_ok in H1 as ([c2 n0] & Ha & H1). apply bind_ok in H1 as ([c3 n1] & Hb & H1). cbn [fst snd] in *.
  apply ok_inj in H1. injection H1 as <- _. apply mono_make_node in Ha, Hb. apply (mono_trans _ c2); [exact Ha|exact Hb].
Qed.
Lemma mono_replay_op c mp ch x r : replay_op solve cf a c mp ch x = Ok r -> mono c (fst r).
Proof.
  destruct x as [k i st|k b|o]; cbn [replay_op]; intro H.
  - apply bind_ok in H as (c1 & H1 & H). apply ok_inj in H. subst r. cbn [fst]. unfold replay_inv in H1. apply bind_ok in H1 as (s & _ & H1). destruct (nth_error _ _) in H1; [|discriminate].
    apply bind_ok in H1 as ([[s2 o] st'] & _ & H1). destruct o as [[|]|].
    + apply bind_ok in H1 as (f & _ & H1). destruct f; apply ok_inj in H1; subst c1; apply mono_eq; reflexivity.
    + apply ok_inj in H1; subst c1; apply mono_eq; reflexivity.
    + apply ok_inj in H1; subst c1; apply mono_eq; reflexivity.
  - apply ok_inj in H. subst r. apply mono_eq; reflexivity.
  - unfold replay_tr in H. apply bind_ok in H as (s & _ & H). destruct (o_trans _) in H; [|discriminate]. apply bind_ok in H as ([l1 ol] & _ & H). cbn [fst snd] in H.
    match type of H with context [Ok (?cc, mp)] => set (c2 := cc) in H end. assert (M2 : mono c c2) by (apply mono_eq; reflexivity).
    destruct ol as [l|]; [|apply ok_inj in H; subst r; exact M2]. apply bind_ok in H as (c3 & H3 & H).
    assert (M3 : mono c2 c3). { destruct (is_error _) in H3; [eapply mono_error_reached; eauto|apply ok_inj in H3; subst; apply mono_refl]. }
    apply bind_ok in H as ([c4 no] & H4 & H). apply mono_make_op in H4. assert (M4 := mono_trans _ _ _ (mono_trans _ _ _ M2 M3) H4).
    destruct no; [|apply ok_inj in H; subst r; exact M4]. destruct (o_child _) in H; apply ok_inj in H; subst r; exact M4.
Qed.
Lemma mono_replay_children x chs : forall c mp r, replay_children solve cf a c mp chs x = Ok r -> mono c (fst r).
Proof.
  induction chs as [|ch chs IH]; intros c mp r H; cbn [replay_children] in H; [apply ok_inj in H; subst; apply mono_refl|].
  apply bind_ok in H as (r1 & H1 & H). eapply mono_trans; [|eapply IH; eauto]. destruct (left_inv c ch); [apply ok_inj in H1; subst; apply mono_refl|eapply mono_replay_op; eauto].
Qed.
Lemma mono_replay_loop chs xs : forall c mp idx cur only pl c' mp' i' cu' pl', replay_loop solve cf a c mp chs idx cur only pl xs = Ok (c', mp', i', cu', pl') -> mono c c'.
Proof.
  induction xs as [|x xs IH]; intros c mp idx cur only pl c' mp' i' cu' pl' H; cbn [replay_loop] in H; [apply ok_inj in H; injection H as <- _ _ _ _; apply mono_refl|].
  set (p := if (cur <? nop_step c x) && negb only then (S cur, true) else (cur, only)) in H. destruct p as [cur1 only1]. destruct (negb _) in H; [apply ok_inj in H; injection H as <- _ _ _ _; apply mono_refl|].
  destruct (only1 && _); [apply ok_inj in H; injection H as <- _ _ _ _; apply mono_refl|]. apply bind_ok in H as (r1 & H1 & H). eapply mono_trans; [eapply mono_replay_children; eauto|eapply IH; eauto].
Qed.
Lemma mono_advance k chs : forall c c', advance_children a c chs k = Ok c' -> mono c c'.
Proof.
  induction chs as [|ch chs IH]; intros c c' H; cbn [advance_children] in H; [apply ok_inj in H; subst; apply mono_refl|]. apply bind_ok in H as (c1 & H1 & H). eapply mono_trans; [|eapply IH; eauto].
  destruct (left_inv c ch); [apply ok_inj in H1; subst; apply mono_refl|]. apply bind_ok in H1 as (s & _ & H1). apply ok_inj in H1. subst c1. apply mono_eq; reflexivity.
Qed.
Lemma mono_finish mp : forall c c', finish_map solve arnoldi a c mp = Ok c' -> mono c c'.
Proof.
  induction mp as [|[[ch k] os] mp IH]; intros c c' H; cbn [finish_map] in H; [apply ok_inj in H; subst; apply mono_refl|]. apply bind_ok in H as ([c1 n] & H1 & H). apply mono_make_node in H1.
  eapply mono_trans; [exact H1|]. apply IH in H. exact H.
Qed.
Lemma mono_step_replay c c' : do_step_replay solve arnoldi cf a c = Ok c' -> mono c c'.
Proof.
  unfold do_step_replay. intro H. apply bind_ok in H as (c1 & H1 & H).
  assert (M1 : mono c c1). { destruct (c_rep c); [apply ok_inj in H1; subst; apply mono_refl|]. destruct (c_dwait c) as [|[p chs] dw]; [discriminate|]. apply ok_inj in H1. subst c1. apply mono_eq; reflexivity. }
  destruct (c_rep c1) as [rp|]; [|discriminate]. destruct (nth_error _ _) in H; [|discriminate]. apply bind_ok in H as ([[[[c2 mp] i2] k2] p2] & H2 & H). apply mono_replay_loop in H2.
  apply bind_ok in H as (c3 & H3 & H). apply mono_advance in H3. apply bind_ok in H as (u & _ & H). assert (M3 := mono_trans _ _ _ (mono_trans _ _ _ M1 H2) H3).
  destruct (_ || _) in H; [|apply ok_inj in H; subst c'; exact M3]. apply bind_ok in H as (c4 & H4 & H). apply mono_finish in H4. apply ok_inj in H. subst c'. exact (mono_trans _ _ _ M3 H4).
Qed.
Lemma mono_step c c' : do_step solve arnoldi cf a c = Ok c' -> mono c c'.
Proof.
  unfold do_step. intro H. destruct (is_finished cf c); [apply ok_inj in H; subst; apply mono_refl|]. destruct (cur_state c) as [[nid sid]|].
  - apply bind_ok in H as (c1 & H1 & H). apply ok_inj in H. subst c'. apply mono_cont in H1. exact H1.
  - destruct (doing_replay c); [apply mono_step_replay; auto|]. apply bind_ok in H as ([n|] & _ & H).
    + apply bind_ok in H as (c1 & H1 & H). eapply mono_trans; [eapply mono_begin; eauto|apply mono_step_replay; auto].
    + apply bind_ok in H as (c1 & H1 & H). apply mono_step_pop in H1. eapply mono_trans; [exact H1|]. destruct (cur_state c1) as [[nid sid]|]; [|apply ok_inj in H; subst; apply mono_refl].
      destruct (cf_urgent cf); [|apply ok_inj in H; subst; apply mono_refl]. unfold check_guards in H. apply mono_guards in H. exact H.
Qed.
Lemma mono_run fuel : forall c r, run_loop solve arnoldi cf a fuel c = Some (Ok r) -> mono c r.
Proof.
  induction fuel as [|f IH]; intros c r H; cbn [run_loop] in H; destruct (is_finished cf c); try (injection H as <-; apply mono_refl); [discriminate|].
  destruct (do_step solve arnoldi cf a c) as [c1|] eqn:E; [|discriminate]. eapply mono_trans; [apply mono_step; exact E|apply IH; exact H].
Qed.
End Mono.
