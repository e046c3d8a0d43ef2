(** Contracts of the functions of CoreModel.v that work on one state. *)
From Verif Require Import Base BaseFacts LpModel LpSpec SetSpec LpUtil LpFacts LpWf SetFacts SetFacts2 OpsFacts OpsFacts2 OpsFacts3 OpsFacts4 AggFacts ChullFacts
  ApiSpec ApiFacts Automaton StateSet HybridSpec FlowFacts StateSpec StateFacts StateFacts2 StateFacts3 AutoFacts BuildFacts CoreModel HeapFacts Prop_Sets.
Open Scope nat_scope.

Lemma qsum_zero_if n f j : n <= j -> (qsum (fun i => if i =? j then f i else 0) n == 0)%Q.
Proof.
  intro H. apply qsum_zero. intros i Hi. destruct (Nat.eqb_spec i j); [lia|reflexivity].
Qed.
Lemma qsum_snoc f n : (qsum f (S n) == qsum f n + f n)%Q.
Proof. apply qsum_S. Qed.
Lemma qsum_pick n f j : j < n -> (qsum (fun i => if i =? j then f i else 0) n == f j)%Q.
Proof.
  induction n as [|n IH]; intro H; [lia|]. rewrite qsum_snoc. destruct (Nat.eqb_spec n j) as [->|Hn].
  - rewrite qsum_zero_if by lia. ring.
  - rewrite IH by lia. ring.
Qed.
Lemma hull_contains_part n ls l p : Forall nonempty ls -> In l ls -> in_lp l p -> in_hull n ls p.
Proof.
  intros HN Hi Hp. assert (Hz : exists z, forall i s, nth_error ls i = Some s -> in_lp s (z i)).
  { clear Hi Hp. induction HN as [|l0 ls (q & Hq) H (z & Hz)].
    - exists (fun _ => vzero). intros [|i] s; discriminate.
    - exists (fun i => match i with 0 => q | S j => z j end). intros [|i] s Hs; [injection Hs as <-; exact Hq|apply Hz; exact Hs]. }
  destruct Hz as (z & Hz). apply In_nth_error in Hi as (j & Hj).
  assert (Hl : j < List.length ls) by (apply nth_error_Some; congruence).
  exists (fun i => if i =? j then 1 else 0)%Q, (fun i => if i =? j then p else z i). split; [|split; [|split]].
  - intros i _. destruct (i =? j); lra.
  - rewrite <- (qsum_pick (List.length ls) (fun _ => 1%Q) j Hl). apply qsum_ext. intros; destruct (i =? j); ring.
  - intros i s Hs. destruct (Nat.eqb_spec i j) as [->|Hn]; [congruence|apply Hz; auto].
  - intros d _. symmetry. rewrite <- (qsum_pick (List.length ls) (fun i => p d) j Hl). apply qsum_ext. intros i _. destruct (i =? j); ring.
Qed.

Section WithSolver.
Variable solve : solver.
Hypothesis Hsolve : solver_ok solve.
Variable arnoldi : nat -> option (list Q) -> csr -> option csr -> nat -> list (list Q).
Variable cf : cfg.
Variable a : ha.
Hypothesis WH : wf_ha a.

(** every state of the heap *)
Definition good_state (s : sset) : Prop :=
  ss_mode s < List.length (ha_modes a) /\ (exists k, api solve (ss_lpi s) k) /\ 0 < l_dims (ss_lpi s) /\
  (is_error (get_mode a (ss_mode s)) = false -> exists x, st_ok solve a s x).

Lemma st_good s x : st_ok solve a s x -> good_state s.
Proof.
  intro S. split; [apply (st_mode _ _ _ _ S)|]. split; [destruct (st_api _ _ _ _ S) as (js & H & _); eauto|].
  split; [|intros _; exists x; auto]. destruct (st_wf solve Hsolve _ _ _ S) as [_ H]. rewrite (st_dims _ _ _ _ S). exact H.
Qed.
Lemma good_obj s o : good_state s -> good_state (ss_with_lpi s (with_obj (ss_lpi s) o)).
Proof.
  intros (H1 & (k & H2) & H3 & H4). split; [exact H1|]. split; [exists k; apply api_objective; exact H2|]. split; [exact H3|].
  intro E. destruct (H4 E) as (x & Hx). exists x. apply st_with_obj; auto.
Qed.
Lemma is_error_a m : is_error m = false -> exists x, m_a m = Some x.
Proof. unfold is_error. destruct (m_a m); [eauto|discriminate]. Qed.

(** ** error_reached only sets flags *)
Lemma error_reached_ok c sid t tlp c' : error_reached solve cf a c sid t tlp = Ok c' ->
  exists ag co ce, c' = with_flags c ag co ce /\
    (c_aggerr c = true -> ag = true) /\ (c_concerr c = true -> co = true) /\
    (ss_conc (getS c sid) = true -> co = true /\ ag = c_aggerr c) /\ (ss_conc (getS c sid) = false -> ag = true /\ co = c_concerr c /\ ce = c_cex c) /\
    (c_concerr c = true -> ce = c_cex c).
Proof.
  unfold error_reached. intro H.
  destruct c as [st ops nd cu wa ro dw re tt0 ag co ce cs]. cbn [c_aggerr c_concerr c_cex with_flags getS c_states] in *.
  destruct ag, (ss_conc _) eqn:Ec, co; cbn [negb andb with_flags c_aggerr c_concerr c_cex] in H;
    try (injection H as <-; eexists _, _, _; split; [reflexivity|]; repeat (split; [try congruence; auto|]); auto; congruence).
  - destruct (cf_ce cf && _) eqn:E; [apply bind_ok in H as (ce' & _ & H)|]; injection H as <-; eexists _, _, _; (split; [reflexivity|]); repeat (split; [try congruence; auto|]); auto; congruence.
  - destruct (cf_ce cf && _) eqn:E; [apply bind_ok in H as (ce' & _ & H)|]; injection H as <-; eexists _, _, _; (split; [reflexivity|]); repeat (split; [try congruence; auto|]); auto; congruence.
Qed.

(** ** Taking a transition *)
Definition new_op (c : core) (t sid nid : nat) (ctr : option (list Q)) : op := mkOp (ss_step (getS c sid)) (Some nid) None (Some t) (nS c) ctr.

Lemma new_stateset_mode b l m lo hi ops conc s : new_stateset b l m lo hi ops conc = Ok s ->
  ss_lpi s = l /\ ss_mode s = m /\ ss_step s = 0 /\ ss_lo s = lo /\ ss_hi s = hi /\ ss_conc s = conc /\ ss_ops s = ops /\ ss_agg s = None.
Proof.
  unfold new_stateset. intro H. apply bind_ok in H as (bm & _ & H). injection H as <-. cbn. auto 10.
Qed.

Lemma make_op_ok c t tlp sid nid c' r :
  t < List.length (ha_trans a) -> api solve tlp None -> l_dims tlp = m_dims (get_mode a (t_from (get_trans a t))) -> (exists p, in_lp tlp p) ->
  make_op_transition solve cf a c t tlp sid nid = Ok (c', r) ->
  exists s' ctr, r = Some (nO c) /\
    c' = with_ops (with_states c (c_states c ++ [s'])) (c_ops c ++ [new_op c t sid nid ctr]) /\
    ss_mode s' = t_to (get_trans a t) /\ ss_step s' = 0 /\ ss_lo s' = ss_lo (getS c sid) /\ ss_hi s' = ss_hi (getS c sid) /\
    ss_conc s' = ss_conc (getS c sid) /\ ss_ops s' = Some [nO c] /\ good_state s' /\ no_rows s' /\
    l_dims (ss_lpi s') = post_dims a (get_trans a t) /\
    (forall x, in_lp (ss_lpi s') x <-> exists p, in_lp tlp p /\ reset_ok a (get_trans a t) p x) /\ (exists x, in_lp (ss_lpi s') x).
Proof.
  intros Ht Ha Hd Hne H. unfold make_op_transition in H. apply bind_ok in H as (p & Hp & H).
  pose proof (proj2 WH t Ht) as WT. set (tr := get_trans a t) in *.
  assert (Hp' : exists o ctr, p = Some (with_obj tlp o, ctr)).
  { unfold pretransition in Hp. assert (E0 : Ok (Some (tlp, @None (list Q))) = Ok p -> exists o ctr, p = Some (with_obj tlp o, ctr)).
    { intro E. injection E as <-. exists (l_obj tlp), None. unfold with_obj. destruct tlp; reflexivity. }
    destruct (cf_strat cf) as [g|]; [|auto]. destruct (ag_kind g); auto.
    apply bind_ok in Hp as ([l1 ctr] & Hb & Hp). apply get_box_center_spec in Hb as ((o & ->) & Hc); [|auto]. cbn [fst snd] in Hp. destruct ctr as [ctr|].
    - injection Hp as <-. eauto.
    - destruct Hne as (q & Hq). exfalso. exact (Hc q Hq). }
  destruct Hp' as (o & ctr & ->). apply bind_ok in H as (tl2 & Hr & H). apply bind_ok in H as (f & Hf & H). apply bind_ok in H as (u & Hu & H).
  apply bind_ok in H as (s' & Hs & H). injection H as <- <-.
  destruct (wft_reset _ _ WT) as [HR HR2]. destruct (wft_mink _ _ WT) as [HM _].
  assert (Ha2 : api solve (with_obj tlp o) None) by (apply api_objective; auto).
  assert (Hpd : l_dims tl2 = post_dims a tr).
  { rewrite (reset_dims _ _ _ _ _ _ _ Hr). unfold post_dims. destruct (t_reset tr) as [R|] eqn:ER; [reflexivity|]. cbn [with_obj l_dims].
    rewrite Hd. unfold c_nr, ident_csr. cbn [c_rows]. rewrite map_length, seq_length. reflexivity. }
  assert (Hpos : 0 < l_dims tl2).
  { rewrite Hpd. unfold post_dims. destruct (t_reset tr) as [R|] eqn:ER; [apply HR2; auto|].
    destruct (wft_from _ _ WT) as [F1 F2]. destruct (is_error_a _ F2) as (x & Hx). unfold m_dims. fold tr. rewrite Hx. pose proof (proj1 WH _ F1) as W. rewrite Hx in W.
    apply (wfm_pos _ _ W). }
  assert (Hex : forall x, in_lp tl2 x <-> exists p, in_lp tlp p /\ reset_ok a tr p x).
  { intro x. destruct (C07_reset_exact solve Hsolve _ _ _ _ _ _ _ _ Ha2 HR HM Hr Hpos) as [_ He]. rewrite He. unfold reset_ok. rewrite <- Hpd.
    split; intros (q & Hq & Hi); exists q; (split; [|exact Hi]); revert Hq; apply in_lp_with_obj. }
  assert (Hap : forall nu, api solve tl2 (Some (ident (l_dims tl2), nu, [], []))) by (intro nu; eapply api_reset; eauto).
  destruct (new_stateset_mode _ _ _ _ _ _ _ _ Hs) as (E1 & E2 & E3 & E4 & E5 & E6 & E7 & _).
  exists s', ctr. split; [reflexivity|]. split; [reflexivity|]. split; [exact E2|]. split; [exact E3|]. split; [exact E4|]. split; [exact E5|]. split; [exact E6|].
  split; [exact E7|]. split; [|split; [|split]].
  - split; [rewrite E2; apply (wft_to _ _ WT)|]. rewrite E1. split; [eexists; apply (Hap 0)|]. split; [exact Hpos|]. rewrite E2. intro Ee.
    destruct (is_error_a _ Ee) as (x & Hx). exists x. assert (Hdx : l_dims tl2 = c_nr x).
    { rewrite Hpd, (wft_dims _ _ WT Ee). unfold m_dims. fold tr. rewrite Hx. reflexivity. }
    specialize (Hap (m_nu (get_mode a (t_to tr)))). rewrite Hdx in Hap.
    eapply new_stateset_ok; eauto. apply (wft_to _ _ WT).
  - unfold new_stateset in Hs. apply bind_ok in Hs as (bm & _ & Hs). injection Hs as <-. intros j Hj. cbn [ss_rows] in Hj. apply repeat_spec in Hj. discriminate.
  - rewrite E1. exact Hpd.
  - rewrite E1. split; [exact Hex|]. destruct f; [|discriminate]. apply (feas_in_lp solve Hsolve) in Hf. apply Hf. reflexivity.
Qed.

(** ** Intersecting the current state with the invariant *)
Lemma push_ops_spec xs n : forall c, n < nN c -> let c' := push_ops c n xs in
  c_states c' = c_states c /\ c_ops c' = c_ops c /\ c_cur c' = c_cur c /\ c_wait c' = c_wait c /\ c_roots c' = c_roots c /\ c_dwait c' = c_dwait c /\
  c_rep c' = c_rep c /\ c_tt c' = c_tt c /\ c_aggerr c' = c_aggerr c /\ c_concerr c' = c_concerr c /\ c_cex c' = c_cex c /\ c_csteps c' = c_csteps c /\
  nN c' = nN c /\
  (forall m, n_state (getN c' m) = n_state (getN c m) /\ n_parents (getN c' m) = n_parents (getN c m) /\ n_agg (getN c' m) = n_agg (getN c m)) /\
  (forall m, m <> n -> n_ops (getN c' m) = n_ops (getN c m)) /\ n_ops (getN c' n) = n_ops (getN c n) ++ xs.
Proof.
  unfold push_ops. induction xs as [|x xs IH]; intros c Hn; cbn zeta; cbn [fold_left].
  - repeat (split; [reflexivity|]). split; [auto|]. split; [auto|]. rewrite app_nil_r. reflexivity.
  - specialize (IH (push_op c n x)). rewrite nN_push in IH. specialize (IH Hn). cbn zeta in IH. destruct IH as (E1&E2&E3&E4&E5&E6&E7&E8&E9&E10&E11&E12&E13&E14&E15&E16).
    rewrite E1,E2,E3,E4,E5,E6,E7,E8,E9,E10,E11,E12,E13. repeat (split; [reflexivity|]).
    split; [|split].
    + intro m. destruct (E14 m) as (H1&H2&H3). rewrite H1,H2,H3,n_state_push,n_parents_push,n_agg_push. auto.
    + intros m Hm. rewrite E15 by auto. apply n_ops_push_ne; auto.
    + rewrite E16, n_ops_push_eq by auto. rewrite <- app_assoc. reflexivity.
Qed.

Definition inv_nops (k : nat) (ops : list (nat * bool)) : list nop := map (fun ib => NInv k (fst ib) (snd ib)) ops.

Lemma intersect_state_ok c nid sid c' ok x :
  st_ok solve a (getS c sid) x -> intersect_state solve a c nid sid = Ok (c', ok) ->
  exists s' ops, c' = push_ops (setS c sid s') nid (inv_nops (ss_step (getS c sid)) ops) /\
    st_ok solve a s' x /\ same_frame (getS c sid) s' /\
    (forall p, in_lp (ss_lpi s') p -> in_lp (ss_lpi (getS c sid)) p) /\
    (forall p, in_lp (ss_lpi (getS c sid)) p -> inv_ok 0 (get_mode a (ss_mode s')) p -> in_lp (ss_lpi s') p) /\
    (ok = true -> forall p, in_lp (ss_lpi s') p -> inv_ok tol13 (get_mode a (ss_mode s')) p) /\
    (ok = false -> forall p, ~ in_lp (ss_lpi s') p) /\
    (m_inv (get_mode a (ss_mode s')) = [] -> s' = getS c sid).
Proof.
  intros S H. unfold intersect_state in H. apply bind_ok in H as ([[s1 ops] b] & Hi & H). injection H as <- <-.
  pose proof (intersect_invariant_ok solve Hsolve _ _ _ _ _ _ WH S Hi) as (H1 & H2 & H3 & H4 & H5 & H6 & _).
  exists s1, ops. destruct H2 as (HM & H2). rewrite HM. split; [reflexivity|]. split; [exact H1|]. split; [split; [exact HM|exact H2]|]. split; [exact H3|]. split; [exact H4|]. split; [exact H5|]. split; [exact H6|].
  intro E. rewrite (intersect_invariant_nil solve a _ E) in Hi. injection Hi as <- _ _. reflexivity.
Qed.

(** ** Aggregation *)
Lemma minl_le l x : In x l -> minl l <= x.
Proof.
  destruct l as [|y l]; [intros []|]. cbn [minl].
  assert (H : forall l y, fold_left Nat.min l y <= y /\ forall x, In x l -> fold_left Nat.min l y <= x).
  { clear. induction l as [|z l IH]; intros y; cbn [fold_left]; [split; [lia|intros x []]|]. destruct (IH (Nat.min y z)) as [A B]. split; [lia|]. intros x [->|Hx]; [lia|auto]. }
  destruct (H l y) as [A B]. intros [->|Hx]; auto.
Qed.
Lemma maxl_ge l x : In x l -> x <= maxl l.
Proof.
  unfold maxl. assert (H : forall l y, y <= fold_left Nat.max l y /\ forall x, In x l -> x <= fold_left Nat.max l y).
  { clear. induction l as [|z l IH]; intros y; cbn [fold_left]; [split; [lia|intros x []]|]. destruct (IH (Nat.max y z)) as [A B]. split; [lia|]. intros x [->|Hx]; [lia|auto]. }
  destruct (H l 0) as [A B]. auto.
Qed.

(** put_lps after aggregate: only objectives change *)
Lemma put_lps_obj sids : forall c ls, Forall2 (fun i l => exists o, l = with_obj (ss_lpi (getS c i)) o) sids ls ->
  forall i, getS (put_lps c sids ls) i = getS c i \/ exists o, getS (put_lps c sids ls) i = ss_with_lpi (getS c i) (with_obj (ss_lpi (getS c i)) o).
Proof.
  induction sids as [|j sids IH]; intros c ls HF i; inversion HF as [|? l ? ls' Hl HF' E1 E2]; subst; cbn [put_lps]; [left; reflexivity|].
  destruct Hl as (o & ->). set (c1 := setS c j _).
  assert (Hc1 : forall i, getS c1 i = getS c i \/ exists o', getS c1 i = ss_with_lpi (getS c i) (with_obj (ss_lpi (getS c i)) o')).
  { intro i0. destruct (Nat.eq_dec i0 j) as [->|Hne]; [|left; apply getS_set_ne; auto].
    destruct (lt_dec j (nS c)); [right; exists o; unfold c1; rewrite getS_set_eq by auto; reflexivity|].
    left. unfold c1, getS. ccbn. rewrite nth_upd. destruct (Nat.ltb_spec j (nS c)); [lia|]. rewrite andb_false_r. reflexivity. }
  assert (HF2 : Forall2 (fun i l => exists o, l = with_obj (ss_lpi (getS c1 i)) o) sids ls').
  { clear -HF' Hc1. induction HF' as [|i9 l is' ls' (o9 & ->) HF' IH]; constructor; auto. destruct (Hc1 i9) as [->|(o' & ->)]; [eauto|].
    exists o9. cbn [ss_with_lpi ss_lpi]. rewrite with_obj_twice. reflexivity. }
  destruct (IH c1 ls' HF2 i) as [->|(o1 & ->)]; [apply Hc1|]. destruct (Hc1 i) as [->|(o2 & ->)]; [right; eauto|].
  right. exists o1. cbn [ss_with_lpi ss_lpi]. rewrite with_obj_twice. reflexivity.
Qed.

Lemma aggregate_states_ok c ops agg c' s' :
  (forall o, In o ops -> good_state (getS c (o_post (getO c o)))) ->
  (forall o, In o ops -> nonempty (ss_lpi (getS c (o_post (getO c o))))) -> 2 <= List.length ops ->
  (forall o, In o ops -> ss_mode (getS c (o_post (getO c o))) = ss_mode (getS c (o_post (getO c (nth 0 ops 0))))) ->
  aggregate_states solve arnoldi a c ops agg = Ok (c', s') ->
  let m := ss_mode (getS c (o_post (getO c (nth 0 ops 0)))) in
  c' = with_states c (c_states c') /\ nS c' = nS c /\
  (forall i, getS c' i = getS c i \/ exists o, getS c' i = ss_with_lpi (getS c i) (with_obj (ss_lpi (getS c i)) o)) /\
  ss_mode s' = m /\ ss_step s' = 0 /\ ss_conc s' = false /\ ss_ops s' = Some ops /\ good_state s' /\ no_rows s' /\
  ss_lo s' = minl (map (fun o => ss_lo (getS c (o_post (getO c o)))) ops) /\
  ss_hi s' = maxl (map (fun o => ss_hi (getS c (o_post (getO c o)))) ops) /\
  (forall o p, In o ops -> in_lp (ss_lpi (getS c (o_post (getO c o)))) p -> in_lp (ss_lpi s') p).
Proof.
  intros HG HNE H2 HMd H m. unfold aggregate_states in H.
  assert (E0 : nth 0 (map (fun o => o_post (getO c o)) ops) 0 = o_post (getO c (nth 0 ops 0))).
  { destruct ops; [cbn in H2; lia|reflexivity]. }
  rewrite E0 in H. fold m in H. set (ss := map (getS c) (map (fun o => o_post (getO c o)) ops)) in *.
  assert (Hss : ss = map (fun o => getS c (o_post (getO c o))) ops) by (unfold ss; rewrite map_map; reflexivity).
  assert (Hlo : map ss_lo ss = map (fun o => ss_lo (getS c (o_post (getO c o)))) ops) by (rewrite Hss, map_map; reflexivity).
  assert (Hhi : map ss_hi ss = map (fun o => ss_hi (getS c (o_post (getO c o)))) ops) by (rewrite Hss, map_map; reflexivity).
  rewrite Hlo, Hhi in H.
  assert (Hno : In (nth 0 ops 0) ops) by (apply nth_In; lia).
  assert (Hm : m < List.length (ha_modes a)) by (apply (HG _ Hno)).
  assert (Hgood : Forall good (map ss_lpi ss)).
  { eapply (Forall_good_api solve Hsolve). apply Forall_forall. intros l Hl. rewrite Hss, map_map in Hl. apply in_map_iff in Hl as (o & <- & Ho). apply (HG o Ho). }
  assert (Hdims : forall x o, m_a (get_mode a m) = Some x -> In o ops -> l_dims (ss_lpi (getS c (o_post (getO c o)))) = c_nr x).
  { intros x o Hx Ho. destruct (HG o Ho) as (_ & _ & _ & Hst). rewrite (HMd o Ho) in Hst. fold m in Hst.
    destruct Hst as (x' & Hst); [unfold is_error; rewrite Hx; reflexivity|]. pose proof (st_a _ _ _ _ Hst) as Hx'. rewrite (HMd o Ho) in Hx'. fold m in Hx'. rewrite (st_dims _ _ _ _ Hst). congruence. }
  assert (Hnr : forall l s, new_stateset a l m (minl (map (fun o => ss_lo (getS c (o_post (getO c o)))) ops)) (maxl (map (fun o => ss_hi (getS c (o_post (getO c o)))) ops)) (Some ops) false = Ok s -> no_rows s).
  { intros l s Hs. unfold new_stateset in Hs. apply bind_ok in Hs as (bm & _ & Hs). injection Hs as <-. intros j Hj. cbn [ss_rows] in Hj. apply repeat_spec in Hj. discriminate. }
  assert (Hend : forall l s, (forall nu, api solve l (Some (ident (l_dims l), nu, [], []))) -> 0 < l_dims l ->
            (forall x, m_a (get_mode a m) = Some x -> l_dims l = c_nr x) -> (forall o p, In o ops -> in_lp (ss_lpi (getS c (o_post (getO c o)))) p -> in_lp l p) ->
            new_stateset a l m (minl (map (fun o => ss_lo (getS c (o_post (getO c o)))) ops)) (maxl (map (fun o => ss_hi (getS c (o_post (getO c o)))) ops)) (Some ops) false = Ok s ->
            ss_mode s = m /\ ss_step s = 0 /\ ss_conc s = false /\ ss_ops s = Some ops /\ good_state s /\ no_rows s /\
            ss_lo s = minl (map (fun o => ss_lo (getS c (o_post (getO c o)))) ops) /\ ss_hi s = maxl (map (fun o => ss_hi (getS c (o_post (getO c o)))) ops) /\
            forall o p, In o ops -> in_lp (ss_lpi (getS c (o_post (getO c o)))) p -> in_lp (ss_lpi s) p).
  { intros l s Hap Hpos Hdx Hov Hs. pose proof (Hnr _ _ Hs) as Hno_rows. destruct (new_stateset_mode _ _ _ _ _ _ _ _ Hs) as (F1 & F2 & F3 & F4 & F5 & F6 & F7 & _).
    split; [exact F2|]. split; [exact F3|]. split; [exact F6|]. split; [exact F7|]. split; [|split; [exact Hno_rows|split; [exact F4|split; [exact F5|rewrite F1; exact Hov]]]].
    split; [rewrite F2; exact Hm|]. rewrite F1. split; [eexists; apply (Hap 0)|]. split; [exact Hpos|]. rewrite F2. intro Ee.
    destruct (is_error_a _ Ee) as (x & Hx). exists x. specialize (Hap (m_nu (get_mode a m))). rewrite (Hdx x Hx) in Hap.
    eapply new_stateset_ok; eauto. }
  assert (Hbox : forall kind gd, match m_a (get_mode a m) with
      | None => Err EType
      | Some x =>
          do dirs <- agg_dir_mat arnoldi a c kind gd (c_nr x) (nth (Nat.div (List.length ops) 2) ops 0);
          do r <- aggregate solve (map ss_lpi ss) dirs (c_nr x) m (has_inputs (get_mode a m));
          do s <- new_stateset a (snd r) m (minl (map (fun o => ss_lo (getS c (o_post (getO c o)))) ops)) (maxl (map (fun o => ss_hi (getS c (o_post (getO c o)))) ops)) (Some ops) false;
          Ok (put_lps c (map (fun o => o_post (getO c o)) ops) (fst r), s)
      end = Ok (c', s') -> 
      c' = with_states c (c_states c') /\ nS c' = nS c /\
      (forall i, getS c' i = getS c i \/ exists o, getS c' i = ss_with_lpi (getS c i) (with_obj (ss_lpi (getS c i)) o)) /\
      ss_mode s' = m /\ ss_step s' = 0 /\ ss_conc s' = false /\ ss_ops s' = Some ops /\ good_state s' /\ no_rows s' /\
      ss_lo s' = minl (map (fun o => ss_lo (getS c (o_post (getO c o)))) ops) /\
      ss_hi s' = maxl (map (fun o => ss_hi (getS c (o_post (getO c o)))) ops) /\
      (forall o p, In o ops -> in_lp (ss_lpi (getS c (o_post (getO c o)))) p -> in_lp (ss_lpi s') p)).
  { intros kind gd Hb. destruct (m_a (get_mode a m)) as [x|] eqn:Hx; [|discriminate]. apply bind_ok in Hb as (dirs & _ & Hb). apply bind_ok in Hb as ([ls' l] & Hag & Hb).
    apply bind_ok in Hb as (s & Hs & Hb). cbn [fst snd] in *. injection Hb as <- <-.
    pose proof (aggregate_in solve Hsolve _ _ _ _ _ _ _ Hag) as (HF & Hdl & _).
    assert (Hxp : 0 < c_nr x). { pose proof (proj1 WH m Hm) as W. rewrite Hx in W. apply (wfm_pos _ _ W). }
    destruct (put_lps_spec (map (fun o => o_post (getO c o)) ops) c ls') as (P1&P2&P3&P4&P5&P6&P7&P8&P9&P10&P11&P12&P13).
    split. { destruct (put_lps _ _ _), c; cbn in *; subst; reflexivity. } split; [exact P13|].
    split. { apply put_lps_obj. clear -HF Hss. unfold ss in HF. remember (map (fun o => o_post (getO c o)) ops) as sids. clear Heqsids Hss.
      revert ls' HF. induction sids as [|i sids IH]; intros ls' HF; inversion HF; subst; constructor; auto. }
    apply (Hend l); auto.
    - intro nu. rewrite Hdl. eapply aggregate_api; eauto.
    - rewrite Hdl. exact Hxp.
    - intros x0 E. injection E as <-. exact Hdl.
    - intros o p Ho Hp. eapply (aggregate_over solve Hsolve); [exact Hag| |exact Hp]. rewrite Hss, map_map. apply in_map_iff. eauto. }
  destruct agg as [[[] gd]|]; [apply (Hbox ABox gd H)|apply (Hbox AArnoldi gd H)| |discriminate].
  apply bind_ok in H as (l & Hch & H). apply bind_ok in H as (s & Hs & H). injection H as <- <-.
  destruct (aggregate_chull_post solve Hsolve _ _ _ _ _ Hgood Hch) as (Hnn & Hpost).
  assert (Hdl : forall o, In o ops -> l_dims (ss_lpi (getS c (o_post (getO c o)))) = l_dims l).
  { intros o Ho. destruct Hpost as (_ & HD & _). rewrite Forall_forall in HD. apply HD. rewrite Hss, map_map. apply in_map_iff. eauto. }
  split; [destruct c; reflexivity|]. split; [reflexivity|]. split; [auto|].
  apply (Hend l); auto.
  - intro nu. eapply (aggregate_chull_api solve Hsolve); [exact Hgood| |rewrite Hss, !map_length; exact H2|exact Hch].
    intros s0 Hs0. rewrite Hss, map_map in Hs0. apply in_map_iff in Hs0 as (o & <- & Ho). apply (HG o Ho).
  - rewrite <- (Hdl _ Hno). apply (HG _ Hno).
  - intros x Hx. rewrite <- (Hdl _ Hno). apply Hdims; auto.
  - intros o p Ho Hp. destruct Hpost as (_ & HD & _ & Hov & _). apply Hov. apply hull_contains_part with (l := ss_lpi (getS c (o_post (getO c o)))); auto; [apply Forall_forall; intros l9 Hl9; rewrite Hss, map_map in Hl9; apply in_map_iff in Hl9 as (o9 & <- & Ho9); apply HNE; auto|]. rewrite Hss, map_map. apply in_map_iff. eauto.
Qed.

(** ** make_node *)
Lemma make_node_ok c ops agg str c' nid :
  (forall o, In o ops -> o < nO c /\ o_post (getO c o) < nS c /\ good_state (getS c (o_post (getO c o))) /\ nonempty (ss_lpi (getS c (o_post (getO c o))))) ->
  (forall o, In o ops -> ss_mode (getS c (o_post (getO c o))) = ss_mode (getS c (o_post (getO c (nth 0 ops 0))))) ->
  make_node solve arnoldi a c ops agg str = Ok (c', nid) ->
  ops <> [] /\ nid = nN c /\ nN c' = S (nN c) /\ nO c' = nO c /\
  (forall n, n < nN c -> getN c' n = getN c n) /\ n_ops (getN c' nid) = [] /\ n_parents (getN c' nid) = ops /\ n_agg (getN c' nid) = agg /\
  (forall o, o_step (getO c' o) = o_step (getO c o) /\ o_parent (getO c' o) = o_parent (getO c o) /\ o_trans (getO c' o) = o_trans (getO c o) /\
             o_post (getO c' o) = o_post (getO c o) /\ o_center (getO c' o) = o_center (getO c o)) /\
  (forall o, In o ops -> o_child (getO c' o) = Some nid) /\ (forall o, ~ In o ops -> o_child (getO c' o) = o_child (getO c o)) /\
  c_cur c' = c_cur c /\ c_wait c' = c_wait c /\ c_dwait c' = c_dwait c /\ c_rep c' = c_rep c /\ c_tt c' = c_tt c /\ c_aggerr c' = c_aggerr c /\
  c_concerr c' = c_concerr c /\ c_cex c' = c_cex c /\
  c_roots c' = c_roots c ++ (if existsb (is_init_op c) ops then [nid] else []) /\
  let sid := n_state (getN c' nid) in let s := getS c' sid in
  sid < nS c' /\ good_state s /\ ss_mode s = ss_mode (getS c (o_post (getO c (nth 0 ops 0)))) /\ ss_agg s = str /\
  match ops with
  | [o] => sid = o_post (getO c o) /\ nS c' = nS c /\ (forall i, i <> sid -> getS c' i = getS c i) /\
           exists g, s = mkSset (ss_mode (getS c sid)) (ss_lpi (getS c sid)) (ss_step (getS c sid)) (ss_lo (getS c sid)) (ss_hi (getS c sid)) (ss_conc (getS c sid)) (ss_ops (getS c sid)) (ss_rows (getS c sid)) (ss_bm (getS c sid)) (ss_ies (getS c sid)) g
  | _ => sid = nS c /\ nS c' = S (nS c) /\
         (forall i, i < nS c -> getS c' i = getS c i \/ exists o, getS c' i = ss_with_lpi (getS c i) (with_obj (ss_lpi (getS c i)) o)) /\
         ss_step s = 0 /\ ss_conc s = false /\ no_rows s /\ ss_ops s = Some ops /\
         ss_lo s = minl (map (fun o => ss_lo (getS c (o_post (getO c o)))) ops) /\ ss_hi s = maxl (map (fun o => ss_hi (getS c (o_post (getO c o)))) ops) /\
         (forall o p, In o ops -> in_lp (ss_lpi (getS c (o_post (getO c o)))) p -> in_lp (ss_lpi s) p)
  end.
Proof.
  intros HO HM H. unfold make_node in H. apply bind_ok in H as ([c1 sid] & Hcs & H).
  set (s := getS c1 sid) in *. set (s2 := mkSset _ _ _ _ _ _ _ _ _ _ str) in *. set (c2 := setS c1 sid s2) in *.
  destruct (set_childs_spec ops (nN c2) c2) as (E1&E2&E3&E4&E5&E6&E7&E8&E9&E10&E11&E12&E13&E14&E15&E16).
  set (c3 := fold_left _ ops c2) in *. set (c4 := with_nodes c3 _) in *.
  assert (Hfst : (c', nid) = (if existsb (fun o => match o_parent (getO c2 o) with None => true | Some _ => false end) ops then with_roots c4 (c_roots c4 ++ [nN c2]) else c4, nN c2)).
  { injection H as <- <-. reflexivity. }
  assert (HB : (exists o, ops = [o] /\ c1 = c /\ sid = o_post (getO c o)) \/
               (2 <= List.length ops /\ exists c0 s', aggregate_states solve arnoldi a c ops agg = Ok (c0, s') /\ c1 = with_states c0 (c_states c0 ++ [s']) /\ sid = nS c0)).
  { destruct ops as [|o [|o2 ops]].
    - apply bind_ok in Hcs as ([c0 s'] & Hag & _). exfalso. unfold aggregate_states in Hag. destruct agg as [[[] gd]|]; [| |discriminate|discriminate].
      + destruct (m_a _); [|discriminate]. apply bind_ok in Hag as (d & _ & Hag). apply bind_ok in Hag as (r & Hr & _). unfold aggregate in Hr. apply bind_ok in Hr as (u & _ & Hr). apply bind_ok in Hr as (u2 & Hr2 & _). discriminate.
      + destruct (m_a _); [|discriminate]. apply bind_ok in Hag as (d & _ & Hag). apply bind_ok in Hag as (r & Hr & _). unfold aggregate in Hr. apply bind_ok in Hr as (u & _ & Hr). apply bind_ok in Hr as (u2 & Hr2 & _). discriminate.
    - left. injection Hcs as <- <-. eauto.
    - right. apply bind_ok in Hcs as ([c0 s'] & Hag & Hcs). injection Hcs as <- <-. split; [cbn; lia|]. eauto. }
  assert (HC1 : c1 = with_states c (c_states c1) /\ sid < nS c1).
  { destruct HB as [(o & Eo & -> & ->)|(H2 & c0 & s' & Hag & -> & ->)].
    - split; [destruct c; reflexivity|]. apply (HO o). rewrite Eo; left; auto.
    - apply aggregate_states_ok in Hag as (K1 & K2 & _); auto; [|intros o Ho; apply (HO o Ho)..]. split; [rewrite K1; reflexivity|]. ccbn. rewrite app_length. cbn. lia. }
  destruct HC1 as [HC1 Hsid].
  assert (Eop1 : c_ops c1 = c_ops c) by (rewrite HC1; reflexivity). assert (End1 : c_nodes c1 = c_nodes c) by (rewrite HC1; reflexivity).
  assert (HnN : nN c2 = nN c) by (unfold c2; ccbn; rewrite End1; reflexivity).
  assert (Eroot : existsb (fun o => match o_parent (getO c2 o) with None => true | Some _ => false end) ops = existsb (is_init_op c) ops).
  { assert (E : getO c2 = getO c) by (unfold c2, getO; ccbn; rewrite Eop1; reflexivity). rewrite E. reflexivity. }
  rewrite Eroot in Hfst. clear Eroot.
  injection Hfst as Hc' Hnid. assert (HnN1 : nN c1 = nN c) by (rewrite End1; reflexivity). rewrite HnN1 in Hnid, Hc'.
  assert (HSt : c_states c' = c_states c2). { rewrite Hc'. destruct (existsb (is_init_op c) ops); unfold c4; ccbn; exact E1. }
  assert (HNd : c_nodes c' = c_nodes c ++ [mkNode [] sid ops agg]).
  { rewrite Hc'. destruct (existsb (is_init_op c) ops); unfold c4; ccbn; rewrite E2; unfold c2; ccbn; rewrite End1; reflexivity. }
  assert (HOp : c_ops c' = c_ops c3). { rewrite Hc'. destruct (existsb (is_init_op c) ops); unfold c4; ccbn; reflexivity. }
  assert (Hoth : c_cur c' = c_cur c /\ c_wait c' = c_wait c /\ c_dwait c' = c_dwait c /\ c_rep c' = c_rep c /\ c_tt c' = c_tt c /\ c_aggerr c' = c_aggerr c /\
     c_concerr c' = c_concerr c /\ c_cex c' = c_cex c /\ c_roots c' = c_roots c ++ (if existsb (is_init_op c) ops then [nN c] else [])).
  { assert (HX : forall {T} (f : core -> T), (forall l, f (with_states c l) = f c) -> f c1 = f c) by (intros T f Hf; rewrite HC1; apply Hf).
    assert (X1 := HX _ c_cur ltac:(reflexivity)). assert (X2 := HX _ c_wait ltac:(reflexivity)). assert (X3 := HX _ c_dwait ltac:(reflexivity)).
    assert (X4 := HX _ c_rep ltac:(reflexivity)). assert (X5 := HX _ c_tt ltac:(reflexivity)). assert (X6 := HX _ c_aggerr ltac:(reflexivity)).
    assert (X7 := HX _ c_concerr ltac:(reflexivity)). assert (X8 := HX _ c_cex ltac:(reflexivity)). assert (X9 := HX _ c_roots ltac:(reflexivity)).
    rewrite Hc'. destruct (existsb (is_init_op c) ops); unfold c4; ccbn; rewrite ?E3, ?E4, ?E5, ?E6, ?E7, ?E8, ?E9, ?E10, ?E11; unfold c2; ccbn;
      rewrite ?X1, ?X2, ?X3, ?X4, ?X5, ?X6, ?X7, ?X8, ?X9, ?app_nil_r; auto 20. }
  destruct Hoth as (O1&O2&O3&O4&O5&O6&O7&O8&O9).
  assert (HgS : forall i, getS c' i = if i =? sid then s2 else getS c1 i).
  { intro i. unfold getS. rewrite HSt. fold (getS c2 i). unfold c2. rewrite getS_setS by auto. reflexivity. }
  assert (HgN : forall n, getN c' n = if n =? nN c then mkNode [] sid ops agg else getN c n).
  { intro n. unfold getN. rewrite HNd, nth_snoc. reflexivity. }
  assert (HgO : forall o, getO c' o = getO c3 o) by (intro o; unfold getO; rewrite HOp; reflexivity).
  assert (HgO2 : forall o, getO c2 o = getO c o) by (intro o; unfold c2, getO; ccbn; rewrite Eop1; reflexivity).
  assert (HnO : nO c' = nO c). { rewrite HOp, E13. unfold c2. ccbn. rewrite Eop1. reflexivity. }
  split. { destruct HB as [(o & Eo & _)|(H2 & _)]; [rewrite Eo; discriminate|]. intro Eq. subst ops. cbn in H2. lia. }
  split; [exact Hnid|]. split; [rewrite HNd, app_length; cbn; lia|]. split; [exact HnO|].
  split. { intros n Hn. rewrite HgN. destruct (Nat.eqb_spec n (nN c)); [lia|reflexivity]. }
  rewrite Hnid. rewrite HgN, Nat.eqb_refl. ccbn. split; [reflexivity|]. split; [reflexivity|]. split; [reflexivity|].
  split. { intro o. rewrite HgO. destruct (E14 o) as (J1&J2&J3&J4&J5). rewrite J1,J2,J3,J4,J5,HgO2. auto 10. }
  split. { intros o Ho. rewrite HgO. rewrite <- HnN. apply E16; auto. unfold c2; ccbn. rewrite Eop1. apply (HO o Ho). }
  split. { intros o Ho. rewrite HgO, E15, HgO2; auto. }
  split; [exact O1|]. split; [exact O2|]. split; [exact O3|]. split; [exact O4|]. split; [exact O5|]. split; [exact O6|]. split; [exact O7|]. split; [exact O8|]. split; [exact O9|].
  assert (HnS : nS c' = nS c1) by (rewrite HSt; unfold c2; apply nS_setS).
  rewrite HgS, Nat.eqb_refl. unfold s2 at 2 3 4 5. cbn [ss_mode ss_agg].
  split; [lia|].
  destruct HB as [(o & Eo & -> & Esid)|(H2 & c0 & s' & Hag & Ec1 & Esid)].
  - subst ops. cbn [nth] in *. destruct (HO o (or_introl eq_refl)) as (L1 & L2 & L3 & _). unfold s2, s. rewrite Esid in *.
    split. { destruct L3 as (G1 & G2 & G3 & G4). split; [exact G1|]. split; [exact G2|]. split; [exact G3|]. intro Ee. destruct (G4 Ee) as (x & Sx). exists x.
      destruct Sx as [X1 X2 X3 X4 X5 X6 X7 X8]. constructor; assumption. }
    split; [reflexivity|]. split; [reflexivity|]. split; [reflexivity|]. split; [exact HnS|]. split; [|eexists; reflexivity].
    intros i Hi. rewrite HgS. destruct (Nat.eqb_spec i (o_post (getO c o))); [contradiction|reflexivity].
  - destruct (aggregate_states_ok c ops agg c0 s') as (K1 & K2 & K3 & K4 & K5 & K6 & K7 & K8 & K9 & K10 & K11 & K12); auto; [intros o Ho; apply (HO o Ho)..|].
    assert (Es : s = s'). { unfold s. rewrite Ec1, getS_add, Esid, Nat.eqb_refl. reflexivity. }
    unfold s2. rewrite Es.
    split. { destruct K8 as (G1 & G2 & G3 & G4). split; [exact G1|]. split; [exact G2|]. split; [exact G3|]. intro Ee. destruct (G4 Ee) as (x & Sx). exists x.
      destruct Sx as [X1 X2 X3 X4 X5 X6 X7 X8]. constructor; assumption. }
    split; [exact K4|]. split; [reflexivity|].
    destruct ops as [|o1 [|o2 ops]]; [cbn in H2; lia|cbn in H2; lia|]. rewrite Esid, K2.
    split; [reflexivity|]. split. { rewrite HnS, Ec1. ccbn. rewrite app_length. cbn. lia. }
    split. { intros i Hi. rewrite HgS. destruct (Nat.eqb_spec i sid); [lia|]. rewrite Ec1, getS_add. destruct (Nat.eqb_spec i (nS c0)); [lia|]. apply K3. }
    cbn [ss_step ss_conc ss_lo ss_hi ss_lpi ss_ops]. split; [exact K5|]. split; [exact K6|]. split; [exact K9|]. split; [exact K7|]. split; [exact K10|]. split; [exact K11|]. exact K12.
Qed.
End WithSolver.
