(** What a replay step and the nodes made at its end add to the aggregation DAG. *)
From Verif Require Import Base BaseFacts LpModel LpUtil Automaton StateSet StateFacts CoreModel HeapFacts CoreOps CorePop CoreExt CoreDag CoreDag2 CoreDag3 CoreLive CoreLive2 CoreIvl CoreIvl2 CoreIvl3 LexWf CoreDepth.
Open Scope nat_scope.

Section Depth.
Variable solve : solver.
Variable cf : cfg.
Variable a : ha.
Notation dag := (dag cf a).
Variable G : nat -> option nat -> Prop.
Variable KP : nat -> Prop.
Notation GQ := (GQ G).

(** what is known about the operations that are replayed *)
Definition xok (c : core) (x : nop) : Prop := forall o, x = NTr o -> o < nO c /\ G (o_step (getO c o)) (o_trans (getO c o)) /\ forall k, o_child (getO c o) = Some k -> KP k.
(** the dictionary of the replay *)
Definition mpok (chs : list nat) (mp : list ((nat * nat) * list nat)) : Prop := forall ch k os, In ((ch, k), os) mp -> In ch chs /\ KP k.
Definition mpnew (c : core) (mp mp' : list ((nat * nat) * list nat)) : Prop := forall q, In q (pending mp') -> In q (pending mp) \/ nO c <= q.

Lemma xok_fx L Q c c' x : fx L Q c c' -> xok c x -> xok c' x.
Proof. intros F X o E. destruct (X o E) as (A1 & A2 & A3). rewrite (fx_old _ _ _ _ F) by auto. pose proof (ex_nO _ _ (fx_ext _ _ _ _ F)). split; [lia|auto]. Qed.
Lemma fx_replay_op chs c mp ch x r : dag mp c -> live c ch -> In ch chs -> xok c x -> mpok chs mp -> replay_op solve cf a c mp ch x = Ok r -> fx chs GQ c (fst r) /\ mpnew c mp (snd r) /\ mpok chs (snd r).
Proof.
  intros D Hl Hch Hx Hmp H. assert (Hn := live_lt _ _ Hl). assert (MN : mpnew c mp mp) by (intros q Hq; auto). destruct x as [k i st|k b|o]; cbn [replay_op] in H.
  - apply bind_ok in H as (c1 & H1 & H). apply ok_inj in H. subst r. cbn [fst snd]. split; [|auto]. unfold replay_inv in H1. apply bind_ok in H1 as (s & Hs & H1). destruct (nth_error _ _) in H1; [|discriminate].
    apply bind_ok in H1 as ([[s2 o] st'] & Hc & H1).
    assert (K : keeps c (setS c (n_state (getN c ch)) s2)) by (apply keeps_set; eapply f2_trans; [eapply f2_step; exact Hs|eapply f2_cond; exact Hc]). set (c0 := setS c (n_state (getN c ch)) s2) in *.
    assert (K0 : fx chs GQ c c0) by (apply fx_keeps; exact K).
    destruct o as [[|]|].
    + apply bind_ok in H1 as (f & _ & H1). destruct f; apply ok_inj in H1; subst c1; (eapply fx_trans; [exact K0|]).
      * apply fx_push; exact Hch.
      * eapply fx_trans; apply fx_push; exact Hch.
    + apply ok_inj in H1; subst c1. exact K0.
    + apply ok_inj in H1; subst c1. eapply fx_trans; [exact K0|apply fx_push; exact Hch].
  - apply ok_inj in H. subst r. cbn [fst snd]. split; [apply fx_push; exact Hch|auto].
  - destruct (Hx o eq_refl) as (Ho & HG & HK). unfold replay_tr in H. apply bind_ok in H as (s & Hs & H). destruct (o_trans (getO c o)) as [t|] eqn:Et; [|discriminate]. apply bind_ok in H as ([l1 ol] & _ & H). cbn [fst snd] in H.
    match type of H with context [Ok (?cc, mp)] => set (c2 := cc) in H end. set (sid := n_state (getN c ch)) in *. assert (Hsid : sid < nS c) by (apply (d_parents _ _ _ _ D ch Hn)).
    assert (K1 : keeps c (setS c sid s)) by (apply keeps_set; eapply f2_step; exact Hs). assert (D1 := dag_k _ _ _ _ _ D K1).
    assert (S1 : getS (setS c sid s) sid = s) by (rewrite getS_set, Nat.eqb_refl by auto; reflexivity).
    assert (K2 : keeps (setS c sid s) c2) by apply keeps_lpi. assert (D2 := dag_k _ _ _ _ _ D1 K2). assert (Z1 : sid < nS (setS c sid s)) by (rewrite (k_nS _ _ K1); auto).
    assert (S2 : ss_step (getS c2 sid) = ss_step s). { unfold c2. rewrite getS_set, Nat.eqb_refl by auto. rewrite S1. reflexivity. }
    assert (K02 := keeps_trans _ _ _ K1 K2). assert (F2 : fx chs GQ c c2) by (apply fx_keeps; exact K02).
    destruct ol as [l|]; [|apply ok_inj in H; subst r; cbn [fst snd]; auto]. apply bind_ok in H as (c3 & H3 & H).
    assert (K3 : keeps c2 c3 /\ c_states c3 = c_states c2). { destruct (is_error _) in H3; [split; [eapply keeps_err; eauto|]; apply error_reached_ok in H3 as (ag & co & ce & -> & _); reflexivity|apply ok_inj in H3; subst; split; [apply keeps_refl|reflexivity]]. }
    destruct K3 as [K3 E3]. assert (D3 := dag_k _ _ _ _ _ D2 K3). assert (F3 : fx chs GQ c c3) by (eapply fx_trans; [exact F2|apply fx_keeps; exact K3]).
    assert (S3 : ss_step (getS c3 sid) = o_step (getO c o)). { unfold getS in *. rewrite E3, S2. apply (fr3_step a) in Hs as [_ Hs]. exact Hs. }
    assert (N3 : ch < nN c3) by (rewrite (fx_nN _ _ _ _ F3); auto). assert (O3 : nO c3 = nO c) by (rewrite (k_ops _ _ K3), (k_ops _ _ K02); reflexivity).
    apply bind_ok in H as ([c4 no] & H4 & H). apply make_op_ptr in H4 as [[-> ->]|[-> (s' & ctr & Hm & _ & _ & ->)]]; [apply ok_inj in H; subst r; cbn [fst snd]; auto|].
    set (x := mkOp (ss_step (getS c3 sid)) (Some ch) None (Some t) (nS c3) ctr) in *.
    assert (HGx : GQ x) by (change (G (ss_step (getS c3 sid)) (Some t)); rewrite S3; exact HG).
    assert (F5 : fx chs GQ c (with_new_op c3 s' x ch)) by (eapply fx_trans; [exact F3|apply (fx_new_op cf a G chs mp c3 s' x ch t D3 N3 Hch eq_refl eq_refl eq_refl eq_refl Hm HGx)]).
    match type of H with context [Ok (?cc, map_add _ _ _)] => change cc with (with_new_op c3 s' x ch) in H end.
    destruct (o_child (getO c o)) as [k|] eqn:Ek; apply ok_inj in H; subst r; cbn [fst snd].
    + split; [exact F5|]. split.
      * intros q Hq. apply pending_add_in in Hq as [-> |Hq]; [right; lia|auto].
      * intros ch' k' os Hi. destruct (map_add_in _ _ _ _ _ Hi) as [K|[[= -> ->] _]]; [apply (Hmp ch' k' os K)|]. split; [exact Hch|apply HK; reflexivity].
    + split; [|auto]. apply (fx_wait_new chs GQ c (with_new_op c3 s' x ch) (nO c3)); [exact F5|lia].
Qed.
Lemma mpnew_trans c c1 mp mp1 mp2 : nO c <= nO c1 -> mpnew c mp mp1 -> mpnew c1 mp1 mp2 -> mpnew c mp mp2.
Proof. intros H A B q Hq. apply B in Hq as [Hq|Hq]; [apply A; auto|right; lia]. Qed.
Lemma fx_replay_children chs0 x chs : forall c mp r, dag mp c -> lv mp c -> (forall ch, In ch chs -> live c ch /\ In ch chs0) -> xok c x -> mpok chs0 mp -> replay_children solve cf a c mp chs x = Ok r ->
  fx chs0 GQ c (fst r) /\ mpnew c mp (snd r) /\ mpok chs0 (snd r).
Proof.
  induction chs as [|ch chs IH]; intros c mp r D L Hch Hx Hmp H; cbn [replay_children] in H; [apply ok_inj in H; subst; cbn [fst snd]; split; [apply fx_refl|split; [intros q Hq; auto|auto]]|].
  apply bind_ok in H as (r1 & H1 & H). destruct (Hch ch (or_introl eq_refl)) as [Hl Hi]. assert (Hxo : forall o, x = NTr o -> o < nO c) by (intros o E; apply (Hx o E)).
  assert (K : dag (snd r1) (fst r1) /\ lv (snd r1) (fst r1) /\ fx chs0 GQ c (fst r1) /\ mpnew c mp (snd r1) /\ mpok chs0 (snd r1)).
  { destruct (left_inv c ch); [apply ok_inj in H1; subst; cbn [fst snd]; split; [auto|split; [auto|split; [apply fx_refl|split; [intros q Hq; auto|auto]]]]|].
    destruct (dag_replay_op solve cf a c mp ch x r1 D (live_lt _ _ Hl) Hxo H1). destruct (lv_replay_op solve cf a c mp ch x r1 D L Hl Hxo H1). split; [auto|]. split; [auto|]. apply (fx_replay_op chs0 c mp ch x); auto. }
  destruct K as (D1 & L1 & F1 & M1 & P1). destruct (IH _ _ r D1 L1) as (F2 & M2 & P2); auto.
  - intros k Hk. destruct (Hch k (or_intror Hk)) as [A1 A2]. split; [|exact A2]. apply (live_kc cf a mp c); auto. eapply kc_fx; exact F1.
  - eapply xok_fx; eauto.
  - split; [eapply fx_trans; eauto|]. split; [|auto]. eapply mpnew_trans; [|exact M1|exact M2]. apply (ex_nO _ _ (fx_ext _ _ _ _ F1)).
Qed.
Lemma fx_replay_loop chs xs : forall c mp idx cur only pl c' mp' i' cu' pl', dag mp c -> lv mp c -> (forall ch, In ch chs -> live c ch) -> (forall x, In x xs -> xok c x) -> mpok chs mp ->
  replay_loop solve cf a c mp chs idx cur only pl xs = Ok (c', mp', i', cu', pl') -> fx chs GQ c c' /\ mpnew c mp mp' /\ mpok chs mp' /\ idx <= i' /\ dag mp' c' /\ lv mp' c'.
Proof.
  induction xs as [|x xs IH]; intros c mp idx cur only pl c' mp' i' cu' pl' D L Hch Hx Hmp H; cbn [replay_loop] in H.
  { apply ok_inj in H; injection H as <- <- <- _ _. split; [apply fx_refl|]. split; [intros q Hq; auto|auto]. }
  set (p := if (cur <? nop_step c x) && negb only then (S cur, true) else (cur, only)) in H. destruct p as [cur1 only1].
  assert (Z : fx chs GQ c c /\ mpnew c mp mp /\ mpok chs mp /\ idx <= idx /\ dag mp c /\ lv mp c) by (split; [apply fx_refl|]; split; [intros q Hq; auto|auto]).
  destruct (negb _) in H; [apply ok_inj in H; injection H as <- <- <- _ _; exact Z|].
  destruct (only1 && _); [apply ok_inj in H; injection H as <- <- <- _ _; exact Z|]. apply bind_ok in H as (r1 & H1 & H).
  assert (Hx1 := Hx x (or_introl eq_refl)). assert (Hxo : forall o, x = NTr o -> o < nO c) by (intros o E; apply (Hx1 o E)).
  destruct (dag_replay_children solve cf a x chs c mp r1 D (fun ch Q => live_lt _ _ (Hch ch Q)) Hxo H1) as [D1 P1].
  destruct (lv_replay_children solve cf a x chs c mp r1 D L Hch Hxo H1) as [L1 K1].
  destruct (fx_replay_children chs x chs c mp r1 D L (fun ch Q => conj (Hch ch Q) Q) Hx1 Hmp H1) as (F1 & M1 & Mp1).
  apply IH in H as (F2 & M2 & P2 & I2 & D2 & L2).
  - split; [eapply fx_trans; eauto|]. split; [eapply mpnew_trans; [|exact M1|exact M2]; apply (ex_nO _ _ (fx_ext _ _ _ _ F1))|]. split; [auto|]. split; [lia|auto].
  - exact D1.
  - exact L1.
  - intros k Hk. apply (live_kc cf a mp c); auto.
  - intros y Hy. eapply xok_fx; [exact F1|apply Hx; right; auto].
  - exact Mp1.
Qed.
(** the operation at the replay position is replayed *)
Lemma replay_loop_first chs x0 xs c mp idx c' mp' i' cu' pl' : replay_loop solve cf a c mp chs idx (nop_step c x0) (match x0 with NTr _ => true | _ => false end) false (x0 :: xs) = Ok (c', mp', i', cu', pl') ->
  exists r1, replay_children solve cf a c mp chs x0 = Ok r1 /\ replay_loop solve cf a (fst r1) (snd r1) chs (S idx) (nop_step c x0) (match x0 with NTr _ => true | _ => false end) (is_left x0) xs = Ok (c', mp', i', cu', pl').
Proof.
  cbn [replay_loop]. rewrite Nat.ltb_irrefl. cbn [andb]. rewrite Nat.eqb_refl. cbn [negb]. intro H. destruct x0 as [k i st|k b|o]; cbn [negb andb orb] in H; apply bind_ok in H as (r1 & H1 & H); exists r1; auto.
Qed.
End Depth.
