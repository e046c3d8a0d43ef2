(** Counter-examples: the initial states, and from the automaton after setup back to the given one. *)
From Verif Require Import Base BaseFacts LpModel LpSpec SetSpec LpUtil LpFacts LpWf SetFacts SetFacts2 MinkFacts OpsFacts OpsFacts2 OpsFacts3 OpsFacts4 ChullFacts
  ApiSpec ApiFacts Automaton StateSet HybridSpec FlowFacts StateSpec StateFacts StateFacts2 StateFacts3 AutoFacts BuildFacts CoreModel HeapFacts CoreOps CoreGhost CoreHeap
  CoreInv CoreStep CoreCont CorePop CoreSpec CoreSetup SetupHa SetupHaSub CoreSub Names CexSpec NameFacts Layout TraceLp TraceState TraceReset CoreTrace.
From Coq Require Import String.
Open Scope list_scope.
Open Scope nat_scope.

(** the columns of an initial state: initial-time variables, current-time variables, accumulated inputs *)
Definition init_cols (l : lp) (m : nat) : Prop := exists (n : nat) (hi : bool),
  l_names l = names_of "i" m 0 n ++ names_of "c" m 0 (l_dims l) ++ (if hi then names_of "ti" m 0 (l_dims l) else []) /\
  l_dims l <= n /\ snd (l_bm l) = 0 /\ l_cvo l = n /\ exists r, l_ie l = if hi then Some (r, n + l_dims l) else None.
Lemma init_cols_fc solve cs rhs m hi dims l : from_constraints solve cs rhs m hi None dims = Ok l -> init_cols l m.
Proof.
  intro H. apply from_constraints_layout in H as (H1 & H2 & H3 & H4 & H5 & H6). exists (c_nc cs), hi. rewrite H2. auto.
Qed.
Lemma init_cols_sub l l' m : sub_lp l l' -> init_cols l m -> init_cols l' m.
Proof.
  intros (S1 & (D1 & D2 & D3 & D4) & _) (n & hi & H1 & H2 & H3 & H4 & r & H5). exists n, hi. rewrite S1, D1, D2, D3. split; [exact H1|]. split; [exact H2|]. split; [exact H3|]. split; [exact H4|].
  exists r. rewrite D4. exact H5.
Qed.

Section I.
Variable solve : solver.
Hypothesis Hsolve : solver_ok solve.
Variable a : ha.
Hypothesis WH : wf_ha a.
Hypothesis Hinp : forall m, m < List.length (ha_modes a) -> m_b (get_mode a m) <> None -> m_inv (get_mode a m) = [].
Variable urgent : bool.
Variable init : nat -> vec -> Prop.

Lemma TR_init s x : st_ok solve a s x -> ss_step s = 0 -> ss_lo s = 0 -> init_cols (ss_lpi s) (ss_mode s) ->
  (forall p, in_lp (ss_lpi s) p -> init (ss_mode s) p /\ inv_ok tol13 (get_mode a (ss_mode s)) p) -> TR a urgent init s [].
Proof.
  intros S E0 El (n & hi & N1 & N2 & N3 & N4 & r & N5) HI. assert (Hm := st_mode _ _ _ _ S). assert (Ha := st_a _ _ _ _ S). assert (Hd := st_dims _ _ _ _ S).
  assert (W : wf_mode (get_mode a (ss_mode s)) x). { destruct WH as [WH' _]. specialize (WH' _ Hm). rewrite Ha in WH'. exact WH'. }
  assert (Hpos := wfm_pos _ _ W). set (l := ss_lpi s) in *. set (d := l_dims l) in *.
  assert (Hu : uoff l = 1 + ((n - 1) + (d + (if hi then d else 0)))).
  { unfold uoff. rewrite N5, N4. fold d. destruct hi; lia. }
  constructor.
  - exact Hm.
  - fold l d. rewrite N3, N4. lia.
  - fold l. exists (l_names l). rewrite E0. split; [|split].
    + rewrite N1, Hu, !app_length, !names_of_length. destruct hi; rewrite ?names_of_length; cbn [List.length]; lia.
    + cbn. rewrite app_nil_r. reflexivity.
    + intros y Hy. exists []. split; [|split; [|reflexivity]].
      * intros k rest. cbn [app]. rewrite N1, Hu. replace n with (1 + (n - 1)) at 1 by lia. unfold names_of at 1. rewrite seq_app, map_app, <- app_assoc.
        rewrite !vals_app. cbn [Nat.add seq map]. rewrite combine_app by reflexivity. rewrite ce_names_app. change (vals y 0 1) with [y 0]. cbn [combine ce_names].
        rewrite (dec_first a (k :: rest) (ss_mode s) (y 0) k eq_refl Hm). cbn [bind].
        rewrite combine_app by (rewrite map_length, seq_length, vals_length; reflexivity). rewrite ce_names_app.
        pose proof (run_init a (k :: rest) (ss_mode s) (n - 1) (vals y 1 (n - 1)) 0 [] (mkSeg (ss_mode s) [y 0] [] k None [] [])) as Q1. unfold names_of at 1 in Q1. cbn [app] in Q1. rewrite Q1 by apply vals_length. cbn [bind].
        rewrite combine_app by (rewrite names_of_length, vals_length; reflexivity). rewrite ce_names_app.
        pose proof (fun s0 => run_cur a (k :: rest) (ss_mode s) d (vals y (1 + (n - 1)) d) 0 [] s0) as Q2. cbn [app] in Q2. cbn [Nat.add] in Q2. rewrite Q2 by apply vals_length. cbn [bind].
        assert (Eacc : forall o ce, ce_names a (k :: rest) ce (combine (if hi then names_of "ti" (ss_mode s) 0 d else []) (vals y o (if hi then d else 0))) = Ok ce).
        { intros o ce. destruct hi; [apply run_acc; apply vals_length|reflexivity]. }
        rewrite Eacc. unfold sg_start_add, sg_end_add, start_of, end_of. cbn [sg_mode sg_start sg_end sg_steps sg_trans sg_mink sg_inputs app]. fold d. rewrite N3, N4.
        f_equal. f_equal. f_equal.
        -- replace (n - 0) with (1 + (n - 1)) by lia. rewrite vals_app. reflexivity.
        -- f_equal. lia.
      * assert (Hp : in_lp l (x0_of l y)).
        { destruct (st_wf solve Hsolve _ _ _ S) as [WL _]. destruct (core_to_sat_eq _ _ _ _ _ WL Hy) as (z & Hz & He). exists z. split; [exact Hz|]. fold d. intros i Hi.
          pose proof (cur_dval solve Hsolve a s x z S Hz) as HD. rewrite Hd in Hi. specialize (HD i Hi). rewrite E0 in HD. unfold dval, bm_of in HD. cbn [Nat.eqb isum] in HD.
          rewrite (mapply_ident _ _ _ Hi) in HD. fold l in HD. unfold x0_of. unfold x0_of in HD. rewrite <- (He (snd (l_bm l) + i)) by (left; change (snd (l_bm l) + i < l_cvo l); rewrite N3, N4; lia). symmetry. rewrite HD. destruct (m_b (get_mode a (ss_mode s))); ring. }
        destruct (HI _ Hp). apply P_init; auto.
  - intros _ y _ j Hj. lia.
  - intros y _ j Hj. lia.
  - rewrite E0, El. reflexivity.
Qed.
End I.

Lemma setup_states_src solve a : forall ss c c', setup_states solve a c ss = Ok c' -> nS c <= nS c' /\ (forall i, i < nS c -> getS c' i = getS c i) /\
  forall i, nS c <= i < nS c' -> exists s s1 ops, In s ss /\ lp_is_feasible solve (ss_lpi s) = Ok true /\ intersect_invariant solve a s = Ok (s1, ops, true) /\
    getS c' i = ss_with_rows s1 (repeat None (List.length (m_inv (get_mode a (ss_mode s1))))).
Proof.
  induction ss as [|s ss IH]; intros c c' H; cbn [setup_states] in H.
  { apply ok_inj in H. subst. split; [lia|]. split; [auto|]. intros i Hi. lia. }
  assert (Skip : setup_states solve a c ss = Ok c' -> nS c <= nS c' /\ (forall i, i < nS c -> getS c' i = getS c i) /\
    forall i, nS c <= i < nS c' -> exists s0 s1 ops, In s0 (s :: ss) /\ lp_is_feasible solve (ss_lpi s0) = Ok true /\ intersect_invariant solve a s0 = Ok (s1, ops, true) /\
    getS c' i = ss_with_rows s1 (repeat None (List.length (m_inv (get_mode a (ss_mode s1)))))).
  { intro K. destruct (IH _ _ K) as (K1 & K2 & K3). split; [exact K1|]. split; [exact K2|]. intros i Hi. destruct (K3 i Hi) as (s0 & s1 & ops & L1 & L2). exists s0, s1, ops. split; [right; exact L1|exact L2]. }
  apply bind_ok in H as (f & Hf & H). destruct f; [|apply Skip; exact H]. apply bind_ok in H as ([[s1 ops] ok] & Hi & H). cbn beta iota in H. destruct ok; [|apply Skip; exact H].
  destruct (IH _ _ H) as (K1 & K2 & K3). unfold add_init_state in K1, K2, K3. cbn [c_states with_wait with_ops with_states] in K1, K2, K3. rewrite app_length in K1, K2, K3. cbn [List.length] in K1, K2, K3.
  split; [lia|]. split.
  - intros i Hlt. rewrite K2 by lia. unfold getS. cbn [c_states with_wait with_ops with_states]. apply app_nth1. exact Hlt.
  - intros i Hlt. destruct (Nat.eq_dec i (nS c)) as [->|Hne].
    + exists s, s1, ops. split; [left; reflexivity|]. split; [exact Hf|]. split; [exact Hi|]. rewrite K2 by lia. unfold getS. cbn [c_states with_wait with_ops with_states]. rewrite app_nth2 by lia. rewrite Nat.sub_diag. reflexivity.
    + destruct (K3 i) as (s0 & s2 & ops2 & L1 & L2); [lia|]. exists s0, s2, ops2. split; [right; exact L1|exact L2].
Qed.

Section J.
Variable solve : solver.
Hypothesis Hsolve : solver_ok solve.
Variable cf : cfg.
Variable a : ha.
Hypothesis WH : wf_ha a.
Hypothesis Hinp : forall m, m < List.length (ha_modes a) -> m_b (get_mode a m) <> None -> m_inv (get_mode a m) = [].

Lemma setup_ti ss c : Forall (init_ok solve a) ss -> (forall s, In s ss -> is_error (get_mode a (ss_mode s)) = false -> init_cols (ss_lpi s) (ss_mode s)) -> setup solve a ss = Ok c ->
  ti cf a (init_of_list ss) c.
Proof.
  intros HF HN H. destruct (setup_ok solve Hsolve a WH Hinp ss c HF H) as (P & _ & _). unfold setup in H. apply bind_ok in H as (? & _ & H). apply bind_ok in H as (c1 & H1 & H).
  assert (c1 = c) by (destruct (c_wait c1); [discriminate|apply ok_inj in H; auto]). subst c1. clear H. destruct (setup_states_src _ _ _ _ _ H1) as (_ & _ & K).
  assert (HnN : forall N, N < nN c -> False) by (intros N HN'; rewrite (p_nodes _ _ _ P) in HN'; cbn in HN'; lia).
  constructor.
  - intros o Ho _. rewrite (p_op _ _ _ P o Ho). cbn [o_post o_parent]. destruct (p_st _ _ _ P o Ho) as (G & G1 & _ & _ & G2 & _ & _ & G3).
    split; [exact G3|]. exists []. split; [apply O_init; [exact Ho|rewrite (p_op _ _ _ P o Ho); reflexivity]|]. intro He.
    destruct G as (_ & _ & _ & Gx). destruct (Gx He) as (x0 & Sx).
    destruct (K o) as (s & s1 & ops & L1 & L2 & L3 & L4); [rewrite (p_n _ _ _ P); cbn; lia|].
    pose proof (proj1 (Forall_forall _ _) HF s L1) as Hs. destruct (init_state solve Hsolve a WH Hinp s s1 ops Hs L2 L3) as (_ & E2 & E3 & _). rewrite <- L4 in E2, E3. cbv zeta in E3.
    assert (Hes : is_error (get_mode a (ss_mode s)) = false) by (rewrite <- E2; exact He).
    apply (TR_init solve Hsolve a WH _ _ _ x0); auto.
    + rewrite E2. apply (init_cols_sub (ss_lpi s)); [|apply HN; auto]. rewrite L4. cbn [ss_lpi ss_with_rows].
      destruct Hs as (l & m & Hm & Hn & HA). destruct (m_a (get_mode a m)) as [x'|] eqn:Ex.
      * destruct HA as [HA Hd]. destruct (new_stateset_ok solve Hsolve a l m 0 0 None true s x' _ WH Hm Ex HA eq_refl Hd Hn) as (S0 & _). apply (intersect_sub solve Hsolve a WH s x' s1 ops true S0 L3).
      * exfalso. unfold new_stateset in Hn. rewrite Ex in Hn. cbn [bind] in Hn. injection Hn as <-. cbn [ss_mode] in Hes. unfold is_error in Hes. rewrite Ex in Hes. discriminate.
    + intros p Hp. rewrite E2. destruct (E3 p Hp) as [Q1 Q2]. split; [exists s; auto|exact Q2].
  - intros n Hn. exfalso. eauto.
  - split; [intro K'; exfalso; apply K'; apply (p_ce _ _ _ P)|]. intros _ K'. rewrite (p_co _ _ _ P) in K'. discriminate K'.
Qed.
End J.

Lemma init_list_ext solve a ss : Forall (init_ok solve a) ss ->
  forall m p q, init_of_list ss m p -> m < List.length (ha_modes a) -> is_error (get_mode a m) = false -> veq (m_dims (get_mode a m)) p q -> init_of_list ss m q.
Proof.
  intros HF m p q (s & Hs & <- & Hp) Hm He Hv. exists s. split; [exact Hs|]. split; [reflexivity|]. eapply in_lp_ext; [|exact Hp].
  pose proof (proj1 (Forall_forall _ _) HF s Hs) as (l & m' & Hm' & Hn & HA). unfold new_stateset in Hn. unfold m_dims in Hv. unfold is_error in He. destruct (m_a (get_mode a m')) as [x|] eqn:Ex.
  - apply bind_ok in Hn as (b & _ & Hn). injection Hn as <-. cbn [ss_mode ss_lpi] in *. rewrite Ex in Hv. rewrite (proj2 HA). exact Hv.
  - apply bind_ok in Hn as (b & _ & Hn). injection Hn as <-. cbn [ss_mode] in *. rewrite Ex in He. discriminate.
Qed.

(** ** indices of transitions *)
Definition index_ok (a : ha) : Prop := forall t, t < List.length (ha_trans a) -> nth_error (out_trans a (t_from (get_trans a t))) (t_index (get_trans a t)) = Some t.
Lemma out_trans_same a a' : List.length (ha_trans a') = List.length (ha_trans a) -> (forall t, t < List.length (ha_trans a) -> t_from (get_trans a' t) = t_from (get_trans a t)) ->
  forall m, out_trans a' m = out_trans a m.
Proof.
  intros El Hf m. unfold out_trans. rewrite El. apply filter_ext_in. intros t Ht. apply in_seq in Ht. rewrite Hf by lia. reflexivity.
Qed.
Lemma index_same a a' : List.length (ha_trans a') = List.length (ha_trans a) ->
  (forall t, t < List.length (ha_trans a) -> t_from (get_trans a' t) = t_from (get_trans a t) /\ t_index (get_trans a' t) = t_index (get_trans a t)) -> index_ok a -> index_ok a'.
Proof.
  intros El Hf H t Ht. rewrite El in Ht. destruct (Hf t Ht) as [-> ->]. rewrite (out_trans_same a a' El); [apply H; exact Ht|]. intros t' Ht'. apply Hf; exact Ht'.
Qed.
Lemma index_trans a i f : i < List.length (ha_trans a) -> t_from f = t_from (get_trans a i) -> t_index f = t_index (get_trans a i) -> index_ok a -> index_ok (with_trans a i f).
Proof.
  intros Hi E1 E2. apply index_same.
  - unfold with_trans. cbn [ha_trans]. apply upd_nth_length; exact Hi.
  - intros t Ht. rewrite get_with_trans by exact Hi. destruct (Nat.eqb_spec t i) as [->|]; auto.
Qed.
Lemma index_eq a a' : ha_trans a' = ha_trans a -> index_ok a -> index_ok a'.
Proof. intros E. apply index_same; [rewrite E; reflexivity|]. intros t _. unfold get_trans. rewrite E. auto. Qed.
(** every automaton made with the construction functions numbers the transitions of a mode in order *)
Lemma built_index solve a : built solve a -> index_ok a.
Proof.
  induction 1 as [|a n a' B IH H|a f t n B IH Hf Ht|a i x a' B IH Hi U Hx H|a i c rhs a' B IH Hi Hc H|a i b uc ur al a' B IH Hi Hb Hu H|a i g rhs a' B IH Hi Hg H|a i a' B IH Hi H|a i r mk mc a' B IH Hi Hr Hm Hc H|a i bm ie B IH Hi].
  - intros t Ht. cbn in Ht. lia.
  - unfold new_mode in H. repeat (apply bind_ok in H as (? & _ & H)). apply ok_inj in H. subst a'. exact IH.
  - intros t0 Ht0. unfold new_transition in *. cbn [ha_trans] in Ht0. rewrite app_length in Ht0. cbn [List.length] in Ht0.
    set (nt := mkTrans n f t None None None false (List.length (out_trans a f))) in *. set (a' := mkHa (ha_modes a) (ha_trans a ++ [nt])).
    assert (Eg : forall t1, t1 < List.length (ha_trans a) -> get_trans a' t1 = get_trans a t1) by (intros t1 H1; unfold get_trans, a'; cbn [ha_trans]; apply app_nth1; exact H1).
    assert (En : get_trans a' (List.length (ha_trans a)) = nt) by (unfold get_trans, a'; cbn [ha_trans]; rewrite app_nth2 by lia; rewrite Nat.sub_diag; reflexivity).
    assert (Eo : forall m, out_trans a' m = out_trans a m ++ (if f =? m then [List.length (ha_trans a)] else [])).
    { intro m. unfold out_trans. unfold a' at 2. cbn [ha_trans]. rewrite app_length. cbn [List.length]. rewrite Nat.add_1_r, seq_S, filter_app. f_equal.
      - apply filter_ext_in. intros t1 H1. apply in_seq in H1. rewrite Eg by lia. reflexivity.
      - cbn [Nat.add filter]. rewrite En. cbn [nt t_from]. destruct (f =? m); reflexivity. }
    rewrite Eo. destruct (Nat.eq_dec t0 (List.length (ha_trans a))) as [->|Hne].
    + rewrite En. cbn [nt t_from t_index]. rewrite Nat.eqb_refl, nth_error_app2 by lia. rewrite Nat.sub_diag. reflexivity.
    + rewrite Eg by lia. pose proof (IH t0 ltac:(lia)) as K. rewrite nth_error_app1; [exact K|]. apply nth_error_Some. congruence.
  - unfold set_dynamics in H. apply bind_ok in H as (? & _ & H). apply ok_inj in H. subst a'. exact IH.
  - apply index_eq with a; [|exact IH]. unfold set_invariant in H. destruct (m_a (get_mode a i)); [|discriminate H]. repeat (apply bind_ok in H as (? & _ & H)). apply ok_inj in H. subst a'. reflexivity.
  - apply index_eq with a; [|exact IH]. unfold set_inputs in H. destruct (m_a (get_mode a i)); [|discriminate H]. repeat (apply bind_ok in H as (? & _ & H)). apply ok_inj in H. subst a'. reflexivity.
  - unfold set_guard in H. destruct (m_a (get_mode a (t_from (get_trans a i)))); [|discriminate H]. repeat (apply bind_ok in H as (? & _ & H)). apply ok_inj in H. subst a'. apply index_trans; auto.
  - unfold set_guard_true, set_guard in H. destruct (m_a (get_mode a (t_from (get_trans a i)))); [|discriminate H]. repeat (apply bind_ok in H as (? & _ & H)). apply ok_inj in H. subst a'. apply index_trans; auto.
  - unfold set_reset in H. destruct (m_a (get_mode a (t_from (get_trans a i)))); [|discriminate H]. repeat (apply bind_ok in H as (? & _ & H)). apply ok_inj in H. subst a'. apply index_trans; auto.
  - exact IH.
Qed.

(** ** back to the automaton before setup *)
Definition refines (a a' : ha) : Prop := ha_modes a' = ha_modes a /\ List.length (ha_trans a') = List.length (ha_trans a) /\
  forall t, t < List.length (ha_trans a) -> t_from (get_trans a' t) = t_from (get_trans a t) /\ t_to (get_trans a' t) = t_to (get_trans a t) /\ t_reset (get_trans a' t) = t_reset (get_trans a t) /\
    t_mink (get_trans a' t) = t_mink (get_trans a t) /\ t_index (get_trans a' t) = t_index (get_trans a t) /\ forall p, guard_ok (get_trans a' t) p -> guard_ok (get_trans a t) p.
Lemma refines_refl a : refines a a.
Proof. split; [reflexivity|]. split; [reflexivity|]. intros t _. auto 10. Qed.
Lemma refines_trans a b c : refines a b -> refines b c -> refines a c.
Proof.
  intros (A1 & A2 & A3) (B1 & B2 & B3). split; [congruence|]. split; [congruence|]. intros t Ht. destruct (A3 t Ht) as (C1 & C2 & C3 & C4 & C5 & C6). rewrite <- A2 in Ht. destruct (B3 t Ht) as (D1 & D2 & D3 & D4 & D5 & D6).
  split; [congruence|]. split; [congruence|]. split; [congruence|]. split; [congruence|]. split; [congruence|]. auto.
Qed.
Lemma setup_refines cf a0 a : wf_ha a0 -> setup_ha cf a0 = Ok a -> no_tt cf a -> refines a0 a.
Proof.
  intros W H Hn. unfold setup_ha in H. apply bind_ok in H as (a1 & H1 & H). apply bind_ok in H as (a2 & H2 & H). apply bind_ok in H as (? & _ & H). injection H as ->.
  assert (W1 : wf_ha a1) by (destruct (cf_tt cf); [eapply detect_wf; eauto|injection H1 as <-; exact W]).
  assert (R2 : refines a1 a /\ (cf_tt cf = true -> forall t, t < List.length (ha_trans a1) -> t_tt (get_trans a1 t) = false)).
  { destruct (cf_gs cf); [|injection H2 as ->; split; [apply refines_refl|auto]]. split.
    - split; [unfold do_guard_strengthening in H2; apply bind_ok in H2 as (ts & _ & H2); injection H2 as <-; reflexivity|]. split; [apply (gs_len a1 a H2)|].
      intros t Hlt. destruct (gs_trans a1 a W1 H2 t Hlt) as ((B1 & B2 & B3 & B4 & B5 & B6 & B7) & B8 & _). auto 10.
    - intros Ht t Hlt. destruct (gs_trans a1 a W1 H2 t Hlt) as ((B1 & B2 & B3 & B4 & B5 & B6 & B7) & _). rewrite <- B6. apply Hn; [exact Ht|]. rewrite (gs_len a1 a H2). exact Hlt. }
  destruct R2 as [R2 Hn1]. destruct (cf_tt cf); [|injection H1 as ->; exact R2]. apply refines_trans with a1; [|exact R2].
  apply detect_tt_ok in H1 as (Em & El & HX). split; [exact Em|]. split; [exact El|]. intros t Ht. pose proof (HX t Ht) as (_ & R3 & R4 & R5 & R6 & R7 & _).
  split; [exact R3|]. split; [exact R4|]. split; [exact R5|]. split; [exact R6|]. split; [exact R7|]. intros p Hp. apply (relaxed_guard_back _ _ _ _ _ (HX t Ht)); [apply Hn1; [reflexivity|lia]|exact Hp].
Qed.
Lemma refines_index a a' : refines a a' -> index_ok a -> index_ok a'.
Proof. intros (_ & E & H). apply index_same; [exact E|]. intros t Ht. destruct (H t Ht) as (H1 & _ & _ & _ & H2 & _). auto. Qed.
Lemma refines_leaves lax urgent a a' s t : refines a a' -> seg_leaves lax urgent a' s t -> seg_leaves lax urgent a s t.
Proof.
  intros (Em & El & HR) (L1 & L2 & L3 & L4 & L5 & L6 & L7). rewrite El in L4. destruct (HR t L4) as (R1 & R2 & R3 & R4 & R5 & R6). assert (EM : forall i, get_mode a' i = get_mode a i) by (intro; apply get_mode_eq; auto).
  unfold seg_leaves. unfold seg_moves in *. rewrite Em in L1. rewrite !EM in *. split; [exact L1|]. split; [exact L2|]. split; [exact L3|]. split; [exact L4|]. split; [congruence|]. split; [apply R6; exact L6|exact L7].
Qed.
Lemma refines_cex lax urgent n a a' init ce : refines a a' -> is_counterexample lax urgent n a' init ce -> is_counterexample lax urgent n a init ce.
Proof.
  intros R (H1 & H2 & s & r & H3 & H4 & H5). assert (EM : forall i, get_mode a' i = get_mode a i) by (intro; apply get_mode_eq; apply (proj1 R)). rewrite EM in H5.
  split; [|split; [exact H2|exists s, r; auto]]. clear -R H1 EM. induction H1 as [s t L E|s t s' ce L E RW C IH].
  - pose proof (refines_leaves _ _ _ _ _ _ R L) as L'. apply CC_last with t; [exact L'|]. destruct L' as (_ & _ & _ & Ht & _). destruct R as (_ & _ & HR). destruct (HR t Ht) as (_ & R2 & _). rewrite <- R2, <- EM. exact E.
  - pose proof (refines_leaves _ _ _ _ _ _ R L) as L'. pose proof L' as (_ & _ & _ & Ht & _). destruct R as (_ & _ & HR). destruct (HR t Ht) as (R1 & R2 & R3 & R4 & _).
    apply CC_cons with t; [exact L'|congruence| |exact IH]. unfold reset_with, post_dims in *. rewrite R1, R3, R4, EM in RW. exact RW.
Qed.
