(** Without deaggregation and without invariants, the analysis with an approximation model covers every execution that starts in the
    approximated sets. *)
From Verif Require Import Base BaseFacts LpModel LpSpec SetSpec LpUtil LpFacts LpWf ChullFacts ApiSpec ApiFacts Automaton StateSet HybridSpec FlowFacts StateSpec
  StateFacts StateFacts2 StateFacts3 AutoFacts BuildFacts CoreModel HeapFacts CoreOps CoreGhost CoreHeap CoreInv CoreStep CoreCont CorePop CoreSub CoreApprox.
Open Scope nat_scope.

Section Cover.
Variable solve : solver.
Hypothesis Hsolve : solver_ok solve.
Variable arnoldi : nat -> option (list Q) -> csr -> option csr -> nat -> list (list Q).
Variable cf : cfg.
Variable a : ha.
Hypothesis WH : wf_ha a.
Hypothesis Hninv : forall m, m_inv (get_mode a m) = [].
Hypothesis Hntt : cf_tt cf = true -> forall t, t < List.length (ha_trans a) -> t_tt (get_trans a t) = false.
Hypothesis Hnd : forall g, cf_strat cf = Some g -> ag_deagg g = false.
Variable init : nat -> vec -> Prop.
(** [blur m p b]: a state that enters mode m at p is also treated as if it had entered at b *)
Variable blur : nat -> vec -> vec -> Prop.
Variable ap : sset -> res sset.
Hypothesis Hap : forall s x s', st_ok solve a s x -> ss_step s = 0 -> no_rows s -> ap s = Ok s' ->
  st_ok solve a s' x /\ ss_mode s' = ss_mode s /\ ss_step s' = 0 /\ ss_lo s' = ss_lo s /\ forall p b, in_lp (ss_lpi s) p -> blur (ss_mode s) p b -> in_lp (ss_lpi s') b.

Definition zero_mode (m : nat) : bool := match m_a (get_mode a m) with Some x => (nnz x =? 0) && cf_skip0 cf | None => false end.
(** transition t leads from the entry (m, p, n) to an entry (m', p', n + k), after k time steps *)
Definition succ (m : nat) (p : vec) (n k t : nat) (p' : vec) : Prop :=
  is_error (get_mode a m) = false /\ n + k <= cf_num cf /\ (k = 0 -> cf_urgent cf = true) /\ (zero_mode m = true -> k <= 1) /\
  t < List.length (ha_trans a) /\ t_from (get_trans a t) = m /\
  exists b z, blur m p b /\ flow (get_mode a m) k b z /\ guard_ok (get_trans a t) z /\ reset_ok a (get_trans a t) z p'.

Record av (c : core) : Prop := {
  av_good : forall i, i < nS c -> good_state solve a (getS c i);
  av_post : forall o, o < nO c -> o_post (getO c o) < nS c;
  av_inj : forall o o', o < nO c -> o' < nO c -> o_post (getO c o) = o_post (getO c o') -> o = o';
  av_nst : forall n, n < nN c -> n_state (getN c n) < nS c;
  av_nd : NoDup (c_wait c);
  av_wait : forall o, In o (c_wait c) -> o < nO c /\ nonempty (ss_lpi (getS c (o_post (getO c o)))) /\ ss_step (getS c (o_post (getO c o))) = 0 /\ forall n, n < nN c -> n_state (getN c n) <> o_post (getO c o);
  av_dw : c_dwait c = []; av_rep : c_rep c = None; av_tt : c_tt c = false }.

Definition flagged (c : core) : bool := c_aggerr c || c_concerr c.
Definition waits (c : core) (m : nat) (p : vec) (n : nat) : Prop :=
  exists o, In o (c_wait c) /\ pmode c o = m /\ in_lp (ss_lpi (pstate c o)) p /\ ss_lo (pstate c o) <= n.
Definition ent_set := nat -> vec -> nat -> Prop.
(** [Pr]: entries that were removed from the waiting list; [Pend]: their steps and transitions that are still to be done *)
Definition cov (c : core) (Pr : ent_set) (Pend : nat -> vec -> nat -> nat -> nat -> Prop) : Prop := flagged c = false ->
  (forall m p, init m p -> waits c m p 0 \/ Pr m p 0) /\
  (forall m p n k t p', Pr m p n -> succ m p n k t p' -> Pend m p n k t \/ (is_error (get_mode a (t_to (get_trans a t))) = false /\ (waits c (t_to (get_trans a t)) p' (n + k) \/ Pr (t_to (get_trans a t)) p' (n + k)))).
(** the current state contains what the entries [E] become *)
Definition cure (c : core) (n : nat) (E : ent_set) : Prop :=
  forall m p i, E m p i -> m = nmode c n /\ ss_lo (nst c n) <= i + ss_step (nst c n) /\ forall b z, blur m p b -> flow (get_mode a m) (ss_step (nst c n)) b z -> in_lp (ss_lpi (nst c n)) z.
Definition pendl (E : ent_set) (k0 : nat) (ts : list nat) (m : nat) (p : vec) (n k t : nat) : Prop := E m p n /\ (k0 < k \/ (k = k0 /\ In t ts)).

Notation at_node := (at_node a).

Lemma av_st c n : av c -> at_node c n -> exists x, st_ok solve a (nst c n) x.
Proof. intros G [H1 H2]. destruct (av_good _ G _ (av_nst _ G n H1)) as (_ & _ & _ & K). apply K. exact H2. Qed.
Lemma st_norows s x : st_ok solve a s x -> no_rows s.
Proof. intros St j Hj. pose proof (st_rows _ _ _ _ St) as Hl. rewrite Hninv in Hl. destruct (ss_rows s); [destruct Hj|discriminate]. Qed.

(** ** small updates *)
Lemma av_set c n s' : av c -> n < nN c -> good_state solve a s' -> av (setS c (n_state (getN c n)) s').
Proof.
  intros G Hn Hg. pose proof (av_nst _ G n Hn) as Hi. set (i := n_state (getN c n)) in *.
  constructor; rewrite ?nS_setS; try apply G.
  - intros j Hj. rewrite getS_setS by auto. destruct (j =? i); [exact Hg|apply G; auto].
  - intros o Ho. destruct (av_wait _ G o Ho) as (W1 & W2 & W2' & W3). split; [exact W1|]. assert (E : getS (setS c i s') (o_post (getO (setS c i s') o)) = getS c (o_post (getO c o))) by (rewrite getO_setS, getS_set_ne; [reflexivity|intro K; apply (W3 n Hn); symmetry; exact K]).
    rewrite E. split; [exact W2|]. split; [exact W2'|exact W3].
Qed.
Lemma av_push c n x : av c -> av (push_op c n x).
Proof.
  intro G. constructor; rewrite ?nN_push; try apply G.
  - intros m Hm. rewrite n_state_push. apply (av_nst _ G m Hm).
  - intros o Ho. destruct (av_wait _ G o Ho) as (W1 & W2 & W2' & W3). split; [exact W1|]. split; [exact W2|]. split; [exact W2'|]. intros m Hm. rewrite n_state_push. apply W3; exact Hm.
Qed.
Lemma av_same c c' : av c -> c_states c' = c_states c -> c_ops c' = c_ops c -> c_nodes c' = c_nodes c -> c_wait c' = c_wait c -> c_dwait c' = c_dwait c -> c_rep c' = c_rep c -> c_tt c' = c_tt c -> av c'.
Proof.
  intros G E1 E2 E3 E4 E5 E6 E7. constructor; unfold getS, getO, getN; rewrite ?E1, ?E2, ?E3, ?E4, ?E5, ?E6, ?E7; try apply G.
Qed.
Lemma at_set' c n s' : av c -> at_node c n -> ss_mode s' = nmode c n -> at_node (setS c (n_state (getN c n)) s') n.
Proof. intros G [H1 H2] E. split; [exact H1|]. unfold nmode. rewrite getN_setS, getS_set_eq by (apply (av_nst _ G n H1)). rewrite E. exact H2. Qed.
Lemma nst_set c n s' : av c -> n < nN c -> nst (setS c (n_state (getN c n)) s') n = s'.
Proof. intros G Hn. unfold nst. rewrite getN_setS, getS_set_eq; [reflexivity|apply (av_nst _ G n Hn)]. Qed.

(** waiting entries survive an update that keeps the waiting states *)
Lemma waits_mono c c' m p i : (forall o, In o (c_wait c) -> In o (c_wait c') /\ pstate c' o = pstate c o) -> waits c m p i -> waits c' m p i.
Proof. intros H (o & H1 & H2 & H3 & H4). destruct (H o H1) as [H5 H6]. exists o. unfold pmode in *. fold (pstate c' o). fold (pstate c o) in H2. rewrite H6. auto. Qed.
Lemma pstate_set c n s' o : av c -> n < nN c -> In o (c_wait c) -> pstate (setS c (n_state (getN c n)) s') o = pstate c o.
Proof. intros G Hn Ho. unfold pstate. rewrite getO_setS, getS_set_ne; [reflexivity|]. intro K. apply (proj2 (proj2 (proj2 (av_wait _ G o Ho))) n Hn). symmetry. exact K. Qed.
Lemma cov_mono c c' Pr Pend : (forall o, In o (c_wait c) -> In o (c_wait c') /\ pstate c' o = pstate c o) -> (flagged c = true -> flagged c' = true) -> cov c Pr Pend -> cov c' Pr Pend.
Proof.
  intros H1 H2 K Hf. assert (Hf' : flagged c = false) by (destruct (flagged c); [rewrite (H2 eq_refl) in Hf; discriminate|reflexivity]). destruct (K Hf') as [K1 K2]. split.
  - intros m p Hm. destruct (K1 m p Hm) as [L|L]; [left; eapply waits_mono; eauto|right; exact L].
  - intros m p n k t p' L1 L2. destruct (K2 _ _ _ _ _ _ L1 L2) as [L|[L3 [L|L]]]; [left; exact L|right|right]; (split; [exact L3|]); [left; eapply waits_mono; eauto|right; exact L].
Qed.
Lemma cov_pend c (Pr : ent_set) (Pend Pend' : nat -> vec -> nat -> nat -> nat -> Prop) : (forall m p n k t p', Pr m p n -> succ m p n k t p' -> Pend m p n k t -> Pend' m p n k t) -> cov c Pr Pend -> cov c Pr Pend'.
Proof. intros H K Hf. destruct (K Hf) as [K1 K2]. split; [exact K1|]. intros m p n k t p' L1 L2. destruct (K2 _ _ _ _ _ _ L1 L2) as [L|L]; [left; eauto|right; exact L]. Qed.

Lemma left_push c n x : n < nN c -> is_left x = false -> left_inv c n = false -> left_inv (push_op c n x) n = false.
Proof. intros Hn Hx _. unfold left_inv. rewrite n_ops_push_eq by exact Hn. rewrite rev_app_distr. exact Hx. Qed.
Lemma guard_wf_of'' t : t < List.length (ha_trans a) -> guard_wf a (get_trans a t).
Proof. intro H. destruct (wft_guard _ _ (proj2 WH t H)) as (g & rhs & K). exists g, rhs. exact K. Qed.

Lemma av_lpi c n o : av c -> at_node c n -> let c' := setS c (n_state (getN c n)) (ss_with_lpi (nst c n) (with_obj (ss_lpi (nst c n)) o)) in
  av c' /\ at_node c' n /\ nst c' n = ss_with_lpi (nst c n) (with_obj (ss_lpi (nst c n)) o).
Proof.
  intros G A c'. pose proof (av_nst _ G n (proj1 A)) as Hi.
  split; [apply av_set; [exact G|apply A|apply good_obj; apply (av_good _ G _ Hi)]|]. split; [apply at_set'; auto|]. apply nst_set; [exact G|apply A].
Qed.
Lemma cure_obj c c' n E o : nst c' n = ss_with_lpi (nst c n) (with_obj (ss_lpi (nst c n)) o) -> cure c n E -> cure c' n E.
Proof.
  intros En K m p i HE. destruct (K m p i HE) as (K1 & K2 & K3). unfold nmode. fold (nst c' n). rewrite En. cbn [ss_with_lpi ss_mode ss_lo ss_step ss_lpi]. split; [exact K1|]. split; [exact K2|].
  intros b z Hb Hz. apply in_lp_with_obj. apply K3 with b; assumption.
Qed.
Lemma cure_same c c' n E : nst c' n = nst c n -> cure c n E -> cure c' n E.
Proof. intros En K m p i HE. destruct (K m p i HE) as (K1 & K2 & K3). unfold nmode. fold (nst c' n). rewrite En. auto. Qed.

Lemma av_add c n t tlp c' : av c -> at_node c n -> left_inv c n = false -> t < List.length (ha_trans a) -> t_from (get_trans a t) = nmode c n ->
  api solve tlp None -> l_dims tlp = m_dims (get_mode a (t_from (get_trans a t))) -> (exists p, in_lp tlp p) ->
  add_transition_successor solve cf a c t tlp (n_state (getN c n)) n = Ok c' ->
  av c' /\ at_node c' n /\ left_inv c' n = false /\ n_state (getN c' n) = n_state (getN c n) /\ c_cur c' = c_cur c /\ nst c' n = nst c n /\ flagged c' = flagged c /\
  (forall o, In o (c_wait c) -> In o (c_wait c') /\ pstate c' o = pstate c o) /\
  (forall p p' i, in_lp tlp p -> reset_ok a (get_trans a t) p p' -> ss_lo (nst c n) <= i -> waits c' (t_to (get_trans a t)) p' i).
Proof.
  intros G A HL Ht Hfr Hapi Hd Hne H. unfold add_transition_successor in H. apply bind_ok in H as ([c1 r] & H1 & H).
  destruct (make_op_ok solve Hsolve cf a WH c t tlp _ n c1 r Ht Hapi Hd Hne H1) as (s' & ctr & -> & -> & E1 & E2 & E3 & E4 & E5 & E6 & Hg & Hnr & Hpd & Hin & Hne').
  apply ok_inj in H. subst c'. fold (nst c n) in *.
  set (c1 := with_ops (with_states c (c_states c ++ [s'])) (c_ops c ++ [new_op c t (n_state (getN c n)) n ctr])) in *.
  pose proof (av_nst _ G n (proj1 A)) as Hi.
  assert (ES : forall j, getS c1 j = if j =? nS c then s' else getS c j) by (intro j; unfold c1, getS; ccbn; apply nth_snoc).
  assert (EO : forall j, getO c1 j = if j =? nO c then new_op c t (n_state (getN c n)) n ctr else getO c j) by (intro j; unfold c1, getO; ccbn; apply nth_snoc).
  assert (LS : nS c1 = S (nS c)) by (unfold c1; ccbn; rewrite app_length; cbn; lia).
  assert (LO : nO c1 = S (nO c)) by (unfold c1; ccbn; rewrite app_length; cbn; lia).
  assert (EP : o_post (new_op c t (n_state (getN c n)) n ctr) = nS c) by reflexivity.
  assert (EW : forall o, o < nO c -> pstate c1 o = pstate c o).
  { intros o Ho. unfold pstate. rewrite EO. destruct (Nat.eqb_spec o (nO c)); [lia|]. rewrite ES. pose proof (av_post _ G o Ho). destruct (Nat.eqb_spec (o_post (getO c o)) (nS c)); [lia|reflexivity]. }
  assert (EN : pstate c1 (nO c) = s') by (unfold pstate; rewrite EO, Nat.eqb_refl, EP, ES, Nat.eqb_refl; reflexivity).
  assert (G1 : av c1).
  { constructor; rewrite ?LS, ?LO; try apply G.
    - intros j Hj. rewrite ES. destruct (Nat.eqb_spec j (nS c)); [exact Hg|apply G; lia].
    - intros o Ho. rewrite EO. destruct (Nat.eqb_spec o (nO c)); [rewrite EP; lia|]. pose proof (av_post _ G o ltac:(lia)). lia.
    - intros o o' Ho Ho'. rewrite !EO. destruct (Nat.eqb_spec o (nO c)) as [->|N1], (Nat.eqb_spec o' (nO c)) as [->|N2]; rewrite ?EP; auto.
      + intro K. pose proof (av_post _ G o' ltac:(lia)). lia.
      + intro K. pose proof (av_post _ G o ltac:(lia)). lia.
      + apply (av_inj _ G); lia.
    - intros m Hm. pose proof (av_nst _ G m Hm). change (n_state (getN c m) < S (nS c)). lia.
    - intros o Ho. destruct (av_wait _ G o Ho) as (W1 & W2 & W2' & W3). split; [lia|]. pose proof (EW o W1) as Eo. unfold pstate in Eo. rewrite Eo. split; [exact W2|]. split; [exact W2'|].
      intros m Hm. rewrite EO. destruct (Nat.eqb_spec o (nO c)); [lia|]. apply (W3 m Hm). }
  assert (A1 : at_node c1 n). { split; [apply A|]. unfold nmode. change (getN c1 n) with (getN c n). rewrite ES. destruct (Nat.eqb_spec (n_state (getN c n)) (nS c)); [lia|]. apply A. }
  set (c2 := push_op c1 n (NTr (nO c))) in *. assert (G2 : av c2) by (apply av_push; exact G1).
  assert (A2 : at_node c2 n) by (apply at_push; exact A1).
  assert (Hnw : ~ In (nO c) (c_wait c)) by (intro K; destruct (av_wait _ G _ K); lia).
  assert (EW2 : forall o, pstate (with_wait c2 (c_wait c2 ++ [nO c])) o = pstate c1 o) by reflexivity.
  split; [|split; [|split; [|split; [|split; [|split; [|split; [|split]]]]]]].
  - constructor; try apply G2.
    + change (c_wait (with_wait c2 (c_wait c2 ++ [nO c]))) with (c_wait c ++ [nO c]). apply nd_snoc; [apply G|exact Hnw].
    + intros o Ho. change (c_wait (with_wait c2 (c_wait c2 ++ [nO c]))) with (c_wait c ++ [nO c]) in Ho. apply in_app_iff in Ho as [Ho|[<-|[]]]; [apply (av_wait _ G2 o Ho)|].
      change (nO (with_wait c2 (c_wait c2 ++ [nO c]))) with (nO c1). rewrite LO. split; [lia|]. fold (pstate (with_wait c2 (c_wait c2 ++ [nO c])) (nO c)). rewrite EW2, EN. split; [exact Hne'|]. split; [exact E2|].
      change (getO (with_wait c2 (c_wait c2 ++ [nO c])) (nO c)) with (getO c1 (nO c)). rewrite EO, Nat.eqb_refl, EP.
      intros m Hm. change (getN (with_wait c2 (c_wait c2 ++ [nO c])) m) with (getN c2 m). unfold c2. rewrite n_state_push. change (nN (with_wait c2 (c_wait c2 ++ [nO c]))) with (nN c2) in Hm. unfold c2 in Hm. rewrite nN_push in Hm.
      change (getN c1 m) with (getN c m). pose proof (av_nst _ G m Hm). lia.
  - exact A2.
  - change (left_inv c2 n = false). apply left_push; [apply A1|reflexivity|exact HL].
  - change (n_state (getN c2 n) = n_state (getN c n)). unfold c2. rewrite n_state_push. reflexivity.
  - reflexivity.
  - change (nst c2 n = nst c n). unfold c2, nst. rewrite n_state_push, getS_push. change (getN c1 n) with (getN c n). rewrite ES. destruct (Nat.eqb_spec (n_state (getN c n)) (nS c)); [lia|reflexivity].
  - reflexivity.
  - intros o Ho. split; [apply in_or_app; left; exact Ho|]. rewrite EW2. apply EW. apply (av_wait _ G o Ho).
  - intros p p' i Hp Hr Hl. exists (nO c). split; [apply in_or_app; right; left; reflexivity|]. unfold pmode. fold (pstate (with_wait c2 (c_wait c2 ++ [nO c])) (nO c)). rewrite EW2, EN.
    split; [exact E1|]. split; [apply Hin; exists p; auto|]. rewrite E3. exact Hl.
Qed.

Lemma av_guards n (Pr E : ent_set) k0 ts : forall c c', av c -> at_node c n -> left_inv c n = false -> cure c n E -> (forall m p i, E m p i -> Pr m p i) -> k0 = ss_step (nst c n) ->
  (forall t, In t ts -> t < List.length (ha_trans a) /\ t_from (get_trans a t) = nmode c n) -> cov c Pr (pendl E k0 ts) ->
  check_guards_loop solve cf a c n (n_state (getN c n)) ts = Ok c' ->
  av c' /\ at_node c' n /\ left_inv c' n = false /\ n_state (getN c' n) = n_state (getN c n) /\ c_cur c' = c_cur c /\ cure c' n E /\ k0 = ss_step (nst c' n) /\ ss_lo (nst c' n) = ss_lo (nst c n) /\ nmode c' n = nmode c n /\ cov c' Pr (pendl E k0 []).
Proof.
  induction ts as [|t ts IH]; intros c c' G A HL HE HP Hk Hts HC H; cbn [check_guards_loop] in H.
  { apply ok_inj in H. subst. repeat (split; [first [assumption|reflexivity]|]). assumption. }
  apply bind_ok in H as ([l1 o] & Hgi & H). cbn [fst snd] in H. fold (nst c n) in H, Hgi.
  destruct (Hts t (or_introl eq_refl)) as [Ht Hfr]. pose proof (av_nst _ G n (proj1 A)) as Hi. destruct (av_st c n G A) as (x & St).
  destruct (av_good _ G _ Hi) as (_ & (k & Hapi) & _ & _). fold (nst c n) in Hapi.
  assert (Hdm : l_dims (ss_lpi (nst c n)) = m_dims (get_mode a (t_from (get_trans a t)))).
  { rewrite Hfr. rewrite (st_dims _ _ _ _ St). unfold m_dims. change (nmode c n) with (ss_mode (nst c n)). rewrite (st_a _ _ _ _ St). reflexivity. }
  destruct (guard_intersection_ok solve Hsolve a _ _ k l1 o (guard_wf_of'' t Ht) Hdm Hapi Hgi) as ((ob & ->) & Ho).
  destruct (av_lpi c n ob G A) as (G1 & A1 & En1). set (c1 := setS c (n_state (getN c n)) _) in *.
  assert (HE1 : cure c1 n E) by (eapply cure_obj; eauto).
  assert (W1 : forall o, In o (c_wait c) -> In o (c_wait c1) /\ pstate c1 o = pstate c o) by (intros o0 Ho0; split; [exact Ho0|apply pstate_set; [exact G|apply A|exact Ho0]]).
  assert (HC1 : cov c1 Pr (pendl E k0 (t :: ts))) by (eapply cov_mono; [exact W1|auto|exact HC]).
  assert (Em1 : nmode c1 n = nmode c n) by (change (ss_mode (nst c1 n) = nmode c n); rewrite En1; reflexivity).
  assert (Es1 : n_state (getN c1 n) = n_state (getN c n)) by reflexivity. assert (Ec1 : c_cur c1 = c_cur c) by reflexivity.
  assert (Hk1 : k0 = ss_step (nst c1 n)) by (rewrite En1; exact Hk). assert (Hl1 : ss_lo (nst c1 n) = ss_lo (nst c n)) by (rewrite En1; reflexivity).
  assert (Hts1 : forall t0, In t0 ts -> t0 < List.length (ha_trans a) /\ t_from (get_trans a t0) = nmode c1 n) by (intros t0 K; rewrite Em1; apply Hts; right; exact K).
  assert (HL1 : left_inv c1 n = false) by exact HL.
  destruct o as [tl|].
  2:{ assert (HC2 : cov c1 Pr (pendl E k0 ts)).
      { revert HC1. apply cov_pend. intros m p i kk tt0 p' _ (_ & _ & _ & _ & _ & Hf & b & z & Hb & Hz & Hg & _) (K1 & [K2|[K2 [<-|K3]]]); [split; [exact K1|left; exact K2]| |split; [exact K1|right; auto]].
        exfalso. destruct (HE m p i K1) as (L1 & _ & L3). subst kk. apply (Ho z); [|exact Hg]. apply L3 with b; [exact Hb|]. rewrite <- Hk. exact Hz. }
      destruct (IH c1 c' G1 A1 HL1 HE1 HP Hk1 Hts1 HC2 H) as (K1 & K2 & K3 & K4 & K5 & K6 & K7 & K8 & K9 & K10).
      rewrite K4, K5, K8, K9, Em1, Hl1. repeat (split; [first [assumption|reflexivity]|]). assumption. }
  destruct Ho as (P1 & P2 & P3 & P4). apply bind_ok in H as (c2 & Herr & H).
  assert (E2 : exists ag co ce, c2 = with_flags c1 ag co ce /\ (flagged c1 = true -> flagged c2 = true) /\ (is_error (get_mode a (t_to (get_trans a t))) = true -> flagged c2 = true)).
  { destruct (is_error (get_mode a (t_to (get_trans a t)))) eqn:Eerr.
    - apply error_reached_ok in Herr as (ag & co & ce & -> & B0 & B0' & B1 & B2 & _). exists ag, co, ce. split; [reflexivity|].
      assert (KK : flagged (with_flags c1 ag co ce) = true); [|split; auto]. unfold flagged. cbn [with_flags c_aggerr c_concerr].
      destruct (ss_conc (getS c1 (n_state (getN c n)))) eqn:Ecc; [destruct (B1 eq_refl) as [-> _]; apply orb_true_r|destruct (B2 eq_refl) as [-> _]; reflexivity].
    - apply ok_inj in Herr. subst c2. exists (c_aggerr c1), (c_concerr c1), (c_cex c1). split; [destruct c1; reflexivity|]. split; [auto|discriminate]. }
  destruct E2 as (ag & co & ce & Ec2 & Hf12 & Hf2). assert (G2 : av c2) by (subst c2; apply (av_same c1); auto). assert (A2 : at_node c2 n) by (subst c2; exact A1).
  assert (W2 : forall o, In o (c_wait c1) -> In o (c_wait c2) /\ pstate c2 o = pstate c1 o) by (subst c2; auto).
  assert (HC2 : cov c2 Pr (pendl E k0 (t :: ts))) by (eapply cov_mono; [exact W2|exact Hf12|exact HC1]).
  assert (En2 : nst c2 n = nst c1 n) by (subst c2; reflexivity). assert (HE2 : cure c2 n E) by (eapply cure_same; eauto). assert (HL2 : left_inv c2 n = false) by (subst c2; exact HL1).
  assert (Es2 : n_state (getN c2 n) = n_state (getN c n)) by (subst c2; reflexivity). assert (Ecur2 : c_cur c2 = c_cur c) by (subst c2; reflexivity).
  assert (Em2 : nmode c2 n = nmode c n) by (subst c2; exact Em1). clear Ec2.
  destruct (is_error _ && _) eqn:Eb in H.
  { apply ok_inj in H. subst c'. rewrite Es2, Ecur2, En2, Hl1, Em2. repeat (split; [first [assumption|reflexivity]|]). apply andb_true_iff in Eb as [Eb _]. intro Hf. rewrite (Hf2 Eb) in Hf. discriminate. }
  apply bind_ok in H as (c3 & Hadd & H). rewrite <- Es2 in Hadd.
  destruct (av_add c2 n t tl c3 G2 A2 HL2 Ht) as (G3 & A3 & HL3 & Es3 & Ec3 & En3 & Ef3 & W3 & Hnew); auto.
  { rewrite Em2. exact Hfr. } { rewrite P2. exact Hdm. }
  assert (HE3 : cure c3 n E) by (eapply cure_same; eauto).
  assert (Em3 : nmode c3 n = nmode c2 n) by (change (ss_mode (nst c3 n) = ss_mode (nst c2 n)); rewrite En3; reflexivity).
  assert (HC3 : cov c3 Pr (pendl E k0 ts)).
  { assert (HC3 : cov c3 Pr (pendl E k0 (t :: ts))) by (eapply cov_mono; [exact W3|rewrite Ef3; auto|exact HC2]).
    intro Hf. destruct (HC3 Hf) as [V1 V2]. split; [exact V1|]. intros m p i kk tt0 p' L1 L2. destruct (V2 _ _ _ _ _ _ L1 L2) as [(K1 & [K2|[K2 [<-|K3]]])|K]; [left; split; [exact K1|left; exact K2]| |left; split; [exact K1|right; auto]|right; exact K].
    right. split; [destruct (is_error (get_mode a (t_to (get_trans a t)))); [rewrite Ef3, (Hf2 eq_refl) in Hf; discriminate|reflexivity]|]. left.
    destruct L2 as (_ & _ & _ & _ & _ & Hfm & b & z & Hb & Hz & Hg & Hr). destruct (HE m p i K1) as (M1 & M2 & M3). subst kk. apply (Hnew z); [|exact Hr|].
    - apply P3. split; [|exact Hg]. apply M3 with b; [exact Hb|]. rewrite <- Hk. exact Hz.
    - rewrite En2, Hl1. rewrite Hk. exact M2. }
  assert (E4 : cf_tt cf && t_tt (get_trans a t) = false) by (destruct (cf_tt cf) eqn:Ett; [rewrite (Hntt eq_refl t Ht); reflexivity|reflexivity]).
  rewrite E4 in H. cbn [bind] in H. rewrite <- Es2, <- Es3 in H.
  destruct (IH c3 c' G3 A3 HL3 HE3 HP) as (K1 & K2 & K3 & K4 & K5 & K6 & K7 & K8 & K9 & K10); auto.
  { rewrite En3, En2. exact Hk1. } { intros t0 K. rewrite Em3, Em2, <- Em1. apply Hts1. exact K. }
  rewrite K4, K5, K8, K9, Es3, Es2, Ec3, Ecur2, En3, En2, Hl1, Em3, Em2. repeat (split; [first [assumption|reflexivity]|]). assumption.
Qed.

(** the state between two iterations of the main loop *)
Definition minv (c : core) : Prop := av c /\ exists Pr : ent_set,
  (c_cur c = None /\ cov c Pr (fun _ _ _ _ _ => False)) \/
  (exists n E, c_cur c = Some n /\ at_node c n /\ left_inv c n = false /\ cure c n E /\ (forall m p i, E m p i -> Pr m p i) /\ cov c Pr (pendl E (ss_step (nst c n)) [])).

Lemma av_left c n sid b : av c -> av (left_invariant c n sid b).
Proof. intro G. apply (av_same (push_op c n (NLeft (ss_step (getS c sid)) b))); try reflexivity. apply av_push. exact G. Qed.
Lemma leave c n sid b (Pr : ent_set) Pend : av c -> cov c Pr Pend -> (forall m p i k t p', Pr m p i -> succ m p i k t p' -> ~ Pend m p i k t) -> minv (left_invariant c n sid b).
Proof.
  intros G HC HN. split; [apply av_left; exact G|]. exists Pr. left. split; [reflexivity|]. apply (cov_mono c); auto.
  revert HC. apply cov_pend. intros m p i k t p' K1 K2 K3. apply (HN m p i k t p' K1 K2 K3).
Qed.
Lemma setS_same c i : setS c i (getS c i) = c.
Proof.
  destruct c. unfold setS, getS, with_states. cbn. f_equal. revert i. induction c_states as [|x l IH]; intros [|i]; cbn; auto. f_equal. apply IH.
Qed.
Lemma intersect_nil c n sid : intersect_state solve a c n sid = Ok (c, true).
Proof. unfold intersect_state. rewrite (intersect_invariant_nil solve a _ (Hninv _)). cbn [bind map push_ops fold_left]. rewrite setS_same. reflexivity. Qed.

Lemma minv_cont c n (Pr E : ent_set) c' : av c -> at_node c n -> left_inv c n = false -> c_cur c = Some n -> cure c n E -> (forall m p i, E m p i -> Pr m p i) -> cov c Pr (pendl E (ss_step (nst c n)) []) ->
  continuous_post solve cf a c n (n_state (getN c n)) = Ok c' -> minv c'.
Proof.
  intros G A HL Hc HE HP HC H. unfold continuous_post in H. fold (nst c n) in H. destruct (Nat.leb_spec (cf_num cf) (ss_lo (nst c n))) as [Hl|Hl].
  { apply ok_inj in H. subst. eapply leave; [exact G|exact HC|]. intros m p i k t p' _ (_ & K2 & _) [K3 [K4|[_ []]]]. destruct (HE m p i K3) as (_ & K5 & _). lia. }
  rewrite (av_tt _ G) in H. rewrite intersect_nil in H. cbn [bind negb] in H.
  apply bind_ok in H as (s1 & Hs & H). apply bind_ok in H as (c3 & Hg & H). fold (nst c n) in Hs. unfold ss_step1 in Hs.
  destruct (av_st c n G A) as (x & St). destruct (step_to_ok solve Hsolve a _ x _ s1 WH St Hs) as (S' & _ & E1 & E2 & E3 & _ & _ & _ & _ & _ & K).
  specialize (K (or_intror (st_norows _ _ St))). replace (S (ss_step (nst c n)) - ss_step (nst c n)) with 1 in * by lia.
  set (c2 := setS c (n_state (getN c n)) s1) in *.
  assert (G2 : av c2) by (apply av_set; [exact G|apply A|eapply st_good; eauto]). assert (A2 : at_node c2 n) by (apply at_set'; auto).
  assert (En2 : nst c2 n = s1) by (apply nst_set; [exact G|apply A]).
  assert (HE2 : cure c2 n E).
  { intros m p i Hm. destruct (HE m p i Hm) as (M1 & M2 & M3). unfold nmode. fold (nst c2 n). rewrite En2, E1, E2, E3. split; [exact M1|]. split; [lia|]. intros b z Hb (q & u & Hq & Hu & Ho).
    apply K. exists q. split; [apply M3 with b; assumption|]. exists q, u. split; [intros j _; reflexivity|]. subst m. split; assumption. }
  assert (HC2 : cov c2 Pr (pendl E (ss_step (nst c2 n)) (out_trans a (ss_mode (nst c2 n))))).
  { assert (HC2 : cov c2 Pr (pendl E (ss_step (nst c n)) [])).
    { apply (cov_mono c); [intros o Ho; split; [exact Ho|apply pstate_set; [exact G|apply A|exact Ho]]|auto|exact HC]. }
    revert HC2. apply cov_pend. intros m p i k t p' K1 K2 [K3 [K4|[_ []]]]. split; [exact K3|]. rewrite En2, E1. destruct (Nat.eq_dec k (S (ss_step (nst c n)))) as [->|]; [right|left; lia]. split; [reflexivity|].
    apply out_trans_spec. destruct K2 as (_ & _ & _ & _ & Q1 & Q2 & _). split; [exact Q1|]. rewrite E2. rewrite Q2. apply (HE m p i K3). }
  unfold check_guards in Hg. change (n_state (getN c n)) with (n_state (getN c2 n)) in Hg. fold (nst c2 n) in Hg.
  destruct (av_guards n Pr E _ _ c2 c3 G2 A2 HL HE2 HP eq_refl (fun t Ht => proj1 (out_trans_spec a _ t) Ht) HC2 Hg) as (G3 & A3 & HL3 & Es3 & Ec3 & HE3 & Hk3 & _ & Em3 & HC3).
  destruct (m_a _) as [y|] eqn:Ey in H; [|discriminate]. destruct (_ && _) eqn:Ez in H; apply ok_inj in H; subst c'.
  - eapply leave; [exact G3|exact HC3|]. intros m p i k t p' _ (_ & _ & _ & K2 & _) [K3 [K4|[_ []]]]. destruct (HE m p i K3) as (K5 & _). unfold zero_mode in K2. rewrite K5 in K2. change (nmode c n) with (ss_mode (nst c n)) in K2. rewrite Ey in K2. specialize (K2 Ez).
    rewrite En2, E1 in K4. lia.
  - split; [exact G3|]. exists Pr. right. exists n, E. rewrite Ec3, <- Hk3. repeat (split; [first [assumption|reflexivity]|]). assumption.
Qed.

(** ** popping *)
Lemma av_pop c c' n (Pr : ent_set) : av c -> cov c Pr (fun _ _ _ _ _ => False) -> pop_waiting_list solve arnoldi cf a c = Ok (c', n) ->
  av c' /\ n < nN c' /\ c_cur c' = Some n /\ left_inv c' n = false /\ ss_step (nst c' n) = 0 /\ nonempty (ss_lpi (nst c' n)) /\
  exists E : ent_set, (forall m p i, E m p i -> m = nmode c' n /\ in_lp (ss_lpi (nst c' n)) p /\ ss_lo (nst c' n) <= i) /\
    cov c' (fun m p i => Pr m p i \/ E m p i) (fun m p i _ _ => E m p i).
Proof.
  intros G HC H. unfold pop_waiting_list in H. apply bind_ok in H as (ops & Hops & H). apply bind_ok in H as (? & _ & H). apply bind_ok in H as (agg & _ & H). apply bind_ok in H as ([c1 nid] & Hm & H).
  apply ok_inj in H. injection H as <- <-.
  assert (Hpath : forall g, cf_strat cf = Some g -> ag_deagg g = true -> ag_path g = true) by (intros g Hg Kd; rewrite (Hnd g Hg) in Kd; discriminate).
  destruct (pop_ops_ok cf a Hpath (mkRules (cf_urgent cf) (cf_num cf) (fun _ => false) false) eq_refl c ops) as (K1 & K2 & K3 & K4 & _); auto; try apply G.
  { intros o o' Ho Ho' E. apply (av_inj _ G); auto; apply (av_wait _ G); auto. }
  set (w := filter _ (c_wait c)) in *. set (c0 := with_wait c w) in *.
  assert (Hw : forall o, In o (c_wait c) -> In o ops \/ In o w).
  { intros o Ho. destruct (mem o ops) eqn:Em; [left; apply mem_In; exact Em|right; apply filter_In; split; [exact Ho|rewrite Em; reflexivity]]. }
  assert (Hnw : forall o, In o w -> In o (c_wait c) /\ ~ In o ops).
  { intros o Ho. apply filter_In in Ho as [Ho Hn]. split; [exact Ho|]. intro K. apply mem_In in K. rewrite K in Hn. discriminate. }
  destruct (make_node_ok solve Hsolve arnoldi a WH c0 ops agg (Some "full"%string) c1 nid) as (M1 & M2 & M3 & M4 & M5 & M6 & M7 & M8 & M9 & M10 & M11 & M12 & M13 & M14 & M15 & M16 & M17 & M18 & M19 & M20 & MS); auto.
  { intros o Ho. destruct (av_wait _ G o (K3 o Ho)) as (W1 & W2 & _). split; [exact W1|]. split; [apply (av_post _ G o W1)|]. split; [apply (av_good _ G); apply (av_post _ G o W1)|exact W2]. }
  { intros o Ho. assert (In (nth 0 ops 0) ops) by (destruct ops; [congruence|left; reflexivity]). apply (K4 o _ Ho H). }
  cbn zeta in MS. destruct MS as (S1 & S2 & S3 & S4 & S5). set (sid := n_state (getN c1 nid)) in *.
  assert (Hpost : forall o, o_post (getO c1 o) = o_post (getO c o)) by (intro o; apply M9).
  assert (HS : nS c <= nS c1 /\ (forall i, i < nS c1 -> good_state solve a (getS c1 i)) /\ (forall o, In o w -> sid <> o_post (getO c o)) /\ ss_step (getS c1 sid) = 0 /\
            (forall i, i < nS c -> i <> sid -> getS c1 i = getS c i \/ exists o, getS c1 i = ss_with_lpi (getS c i) (with_obj (ss_lpi (getS c i)) o)) /\
            (forall o p, In o ops -> in_lp (ss_lpi (pstate c o)) p -> in_lp (ss_lpi (getS c1 sid)) p) /\ (forall o, In o ops -> ss_lo (getS c1 sid) <= ss_lo (pstate c o))).
  { destruct ops as [|o1 [|o2 ops']].
    - congruence.
    - destruct S5 as (T1 & T2 & T3 & g & T4). change (nS c1 = nS c) in T2. change (sid = o_post (getO c o1)) in T1. split; [lia|].
      assert (Hi : sid < nS c) by lia. change (getS c0) with (getS c) in *. change (getS c (o_post (getO c0 (nth 0 [o1] 0)))) with (pstate c o1) in *.
      split; [|split; [|split; [|split; [|split]]]].
      + intros i Hi'. destruct (Nat.eq_dec i sid) as [->|Hne]; [exact S2|]. rewrite T3 by auto. apply (av_good _ G). lia.
      + intros o Ho. destruct (Hnw o Ho) as [Q1 Q2]. intro K. apply Q2. left. apply (av_inj _ G); [apply (av_wait _ G); apply K3; left; auto|apply (av_wait _ G); auto|congruence].
      + rewrite T4. cbn [ss_step]. rewrite T1. apply (av_wait _ G o1). apply K3. left. reflexivity.
      + intros i Hi' Hne. left. apply T3. exact Hne.
      + intros o p [<-|[]] Hp. rewrite T4. cbn [ss_lpi]. rewrite T1. exact Hp.
      + intros o [<-|[]]. rewrite T4. cbn [ss_lo]. rewrite T1. apply le_n.
    - destruct S5 as (T1 & T2 & T3 & T4 & T5 & T6 & T7 & T8 & T9 & T10). change (nS c1 = S (nS c)) in T2. change (sid = nS c) in T1. change (forall i, i < nS c -> getS c1 i = getS c i \/ exists o, getS c1 i = ss_with_lpi (getS c i) (with_obj (ss_lpi (getS c i)) o)) in T3. split; [lia|].
      split; [|split; [|split; [|split; [|split]]]].
      + intros i Hi'. destruct (Nat.eq_dec i sid) as [->|Hne]; [exact S2|]. destruct (T3 i ltac:(lia)) as [->|(o & ->)]; [|apply good_obj]; apply (av_good _ G); lia.
      + intros o Ho. destruct (Hnw o Ho) as [Q1 Q2]. pose proof (av_post _ G o (proj1 (av_wait _ G o Q1))). lia.
      + exact T4.
      + intros i Hi' _. apply T3. exact Hi'.
      + intros o p Ho Hp. apply (T10 o p Ho Hp).
      + intros o Ho. rewrite T8. apply minl_le. apply (in_map (fun o => ss_lo (getS c0 (o_post (getO c0 o)))) _ _ Ho). }
  destruct HS as (H1 & H2 & H3 & H4 & H5 & H6 & H7).
  assert (HP : forall o, In o w -> pstate c1 o = pstate c o \/ exists ob, pstate c1 o = ss_with_lpi (pstate c o) (with_obj (ss_lpi (pstate c o)) ob)).
  { intros o Ho. unfold pstate. rewrite Hpost. apply H5; [apply (av_post _ G); apply (av_wait _ G); apply Hnw; exact Ho|]. intro K. apply (H3 o Ho). symmetry. exact K. }
  assert (G1 : av c1).
  { constructor; auto.
    - intros o Ho. rewrite Hpost. rewrite M4 in Ho. pose proof (av_post _ G o Ho). lia.
    - intros o o' Ho Ho'. rewrite !Hpost. rewrite M4 in Ho, Ho'. apply (av_inj _ G); auto.
    - intros m Hm'. rewrite M3 in Hm'. destruct (Nat.eq_dec m nid) as [->|Hne]; [exact S1|]. rewrite M5 by lia. pose proof (av_nst _ G m). change (nN c0) with (nN c) in *. specialize (H ltac:(lia)). change (n_state (getN c m) < nS c1). lia.
    - rewrite M13. apply NoDup_filter. apply G.
    - intros o Ho. rewrite M13 in Ho. change (In o w) in Ho. destruct (av_wait _ G o (proj1 (Hnw o Ho))) as (W1 & W2 & W2' & W3). split; [rewrite M4; exact W1|]. fold (pstate c1 o).
      fold (pstate c o) in W2, W2'. split; [destruct (HP o Ho) as [->|(ob & ->)]; [exact W2|apply nonempty_obj; exact W2]|]. split; [destruct (HP o Ho) as [->|(ob & ->)]; exact W2'|].
      intros m Hm'. rewrite Hpost. rewrite M3 in Hm'. destruct (Nat.eq_dec m nid) as [->|Hne]; [apply H3; exact Ho|]. rewrite M5 by lia. apply W3. change (nN c0) with (nN c) in *. lia.
    - rewrite M14. apply G.
    - rewrite M15. apply G.
    - rewrite M16. apply G. }
  split; [apply (av_same c1); auto|]. split; [change (nid < nN c1); rewrite M3; lia|]. split; [reflexivity|]. split; [unfold left_inv; change (getN (with_cur c1 (Some nid)) nid) with (getN c1 nid); rewrite M6; reflexivity|]. split; [exact H4|]. split.
  { destruct ops as [|o1 ops']; [congruence|]. destruct (av_wait _ G o1 (K3 o1 (or_introl eq_refl))) as (_ & (p & Hp) & _). exists p. apply (H6 o1 p (or_introl eq_refl) Hp). }
  exists (fun m p i => exists o, In o ops /\ pmode c o = m /\ in_lp (ss_lpi (pstate c o)) p /\ ss_lo (pstate c o) <= i). split.
  { intros m p i (o & O1 & O2 & O3 & O4). split; [|split].
    - change (m = ss_mode (getS c1 sid)). rewrite S3. rewrite <- O2. apply (K4 o _ O1). destruct ops; [congruence|left; reflexivity].
    - apply (H6 o p O1 O3).
    - pose proof (H7 o O1). change (ss_lo (getS c1 sid) <= i). lia. }
  assert (HW : forall m p i, waits c m p i -> waits (with_cur c1 (Some nid)) m p i \/ exists o, In o ops /\ pmode c o = m /\ in_lp (ss_lpi (pstate c o)) p /\ ss_lo (pstate c o) <= i).
  { intros m p i (o & O1 & O2 & O3 & O4). destruct (Hw o O1) as [Ho|Ho]; [right; exists o; auto|left]. exists o. change (c_wait (with_cur c1 (Some nid))) with (c_wait c1). rewrite M13. split; [exact Ho|]. unfold pmode. fold (pstate (with_cur c1 (Some nid)) o).
    change (pstate (with_cur c1 (Some nid)) o) with (pstate c1 o). unfold pmode in O2. fold (pstate c o) in O2. destruct (HP o Ho) as [->|(ob & ->)]; [auto|]. cbn [ss_with_lpi ss_mode ss_lpi ss_lo]. split; [exact O2|]. split; [apply in_lp_with_obj; exact O3|exact O4]. }
  intro Hf. assert (Hf' : flagged c = false) by (unfold flagged in *; change (c_aggerr c1 || c_concerr c1 = false) in Hf; rewrite M17, M18 in Hf; exact Hf). destruct (HC Hf') as [V1 V2]. split.
  - intros m p Hm'. destruct (V1 m p Hm') as [V|V]; [destruct (HW _ _ _ V) as [V'|V']; auto|auto].
  - intros m p i k t p' [L1|L1] L2; [|left; exact L1]. destruct (V2 _ _ _ _ _ _ L1 L2) as [[]|[V3 [V|V]]]; right; (split; [exact V3|]); [destruct (HW _ _ _ V) as [V'|V']; auto|auto].
Qed.

Lemma minv_step_pop c c' (Pr : ent_set) : av c -> cov c Pr (fun _ _ _ _ _ => False) -> do_step_pop_ap solve arnoldi cf a ap c = Ok c' ->
  (minv c' /\ c_cur c' = None) \/
  (av c' /\ exists n (Pr' E : ent_set), c_cur c' = Some n /\ at_node c' n /\ left_inv c' n = false /\ cure c' n E /\ (forall m p i, E m p i -> Pr' m p i) /\ ss_step (nst c' n) = 0 /\
     cov c' Pr' (fun m p i _ _ => E m p i)).
Proof.
  intros G HC H. unfold do_step_pop_ap in H. apply bind_ok in H as ([c1 n] & Hp & H). destruct (av_pop c c1 n Pr G HC Hp) as (G1 & Hn & Ec & HL & E0 & _ & E & HE & HC1).
  destruct (is_error _) eqn:Ee in H.
  { apply ok_inj in H. subst. left. split; [|reflexivity]. eapply leave; [exact G1|exact HC1|]. intros m p i k t p' _ (K1 & _) K2. destruct (HE m p i K2) as (-> & _). unfold nmode in K1. congruence. }
  assert (A1 : at_node c1 n) by (split; assumption). rewrite intersect_nil in H. cbn [bind] in H. apply bind_ok in H as (s & Hs & H). apply ok_inj in H. subst c'. right. fold (nst c1 n) in Hs.
  destruct (av_st c1 n G1 A1) as (x & St). destruct (Hap _ x s St E0 (st_norows _ _ St) Hs) as (St' & F1 & F2 & F3 & F4).
  split; [apply av_set; [exact G1|exact Hn|eapply st_good; eauto]|]. exists n, (fun m p i => Pr m p i \/ E m p i), E. split; [exact Ec|]. split; [apply at_set'; [exact G1|exact A1|exact F1]|]. split; [exact HL|].
  assert (En : nst (setS c1 (n_state (getN c1 n)) s) n = s) by (apply nst_set; assumption). split; [|split; [|split]].
  - intros m p i K. destruct (HE m p i K) as (K1 & K2 & K3). unfold nmode. fold (nst (setS c1 (n_state (getN c1 n)) s) n). rewrite En, F1, F2, F3. split; [exact K1|]. split; [lia|]. intros b z Hb Hz. cbn [flow] in Hz.
    apply (in_lp_ext _ b); [|apply (F4 p b K2); rewrite K1 in Hb; exact Hb]. rewrite (st_dims _ _ _ _ St'). intros j Hj. apply Hz. rewrite K1. change (nmode c1 n) with (ss_mode (nst c1 n)). unfold m_dims. rewrite (st_a _ _ _ _ St). exact Hj.
  - auto.
  - rewrite En. exact F2.
  - apply (cov_mono c1); [|auto|exact HC1]. intros o Ho. split; [exact Ho|]. apply pstate_set; assumption.
Qed.

Lemma minv_step c c' : minv c -> do_step_ap solve arnoldi cf a ap c = Ok c' -> minv c'.
Proof.
  intros (G & Pr & M) H. unfold do_step_ap in H. destruct (is_finished cf c); [apply ok_inj in H; subst; split; [exact G|exists Pr; exact M]|].
  destruct M as [(Ec & HC)|(n & E & Ec & A & HL & HE & HP & HC)].
  2:{ unfold cur_state in H. rewrite Ec, HL in H. apply bind_ok in H as (c1 & H1 & H). apply ok_inj in H. subst c'.
      destruct (minv_cont c n Pr E c1 G A HL Ec HE HP HC H1) as (G1 & Pr1 & M1). split; [apply (av_same c1); auto|]. exists Pr1. exact M1. }
  unfold cur_state at 1 in H. rewrite Ec in H.
  assert (Er : doing_replay c = false) by (unfold doing_replay; rewrite (av_rep _ G), (av_dw _ G); reflexivity). rewrite Er in H.
  assert (Ed : get_deagg_node cf a c = Ok None). { unfold get_deagg_node. destruct (cf_strat cf) as [g|] eqn:Eg; [|reflexivity]. rewrite (Hnd g eq_refl). reflexivity. }
  rewrite Ed in H. cbn [bind] in H. apply bind_ok in H as (c1 & H1 & H). destruct (minv_step_pop c c1 Pr G HC H1) as [(M1 & Ec1)|(G1 & n & Pr' & E & Ec1 & A1 & HL1 & HE1 & HP1 & E0 & HC1)]; unfold cur_state in H; rewrite Ec1 in H.
  { apply ok_inj in H. subst. exact M1. }
  rewrite HL1 in H. destruct (cf_urgent cf) eqn:Eu in H.
  - unfold check_guards in H. fold (nst c1 n) in H.
    assert (HC2 : cov c1 Pr' (pendl E (ss_step (nst c1 n)) (out_trans a (ss_mode (nst c1 n))))).
    { revert HC1. apply cov_pend. intros m p i k t p' _ K2 K3. split; [exact K3|]. rewrite E0. destruct k as [|k]; [right|left; lia]. split; [reflexivity|]. apply out_trans_spec.
      destruct K2 as (_ & _ & _ & _ & Q1 & Q2 & _). split; [exact Q1|]. rewrite Q2. apply (HE1 m p i K3). }
    destruct (av_guards n Pr' E _ _ c1 c' G1 A1 HL1 HE1 HP1 eq_refl (fun t Ht => proj1 (out_trans_spec a _ t) Ht) HC2 H) as (G3 & A3 & HL3 & Es3 & Ec3 & HE3 & Hk3 & _ & Em3 & HC3).
    split; [exact G3|]. exists Pr'. right. exists n, E. rewrite Ec3, <- Hk3. repeat (split; [first [assumption|reflexivity]|]). assumption.
  - apply ok_inj in H. subst c'. split; [exact G1|]. exists Pr'. right. exists n, E. repeat (split; [first [assumption|reflexivity]|]). revert HC1. apply cov_pend.
    intros m p i k t p' _ (_ & _ & K2 & _) K3. split; [exact K3|]. left. rewrite E0. destruct k as [|k]; [specialize (K2 eq_refl); congruence|lia].
Qed.
Lemma minv_run fuel : forall c r, minv c -> run_loop_ap solve arnoldi cf a ap fuel c = Some (Ok r) -> minv r /\ is_finished cf r = true.
Proof.
  induction fuel as [|f IH]; intros c r M H; cbn [run_loop_ap] in H; (destruct (is_finished cf c) eqn:Ef; [injection H as <-; auto|]); [discriminate|].
  destruct (do_step_ap solve arnoldi cf a ap c) as [c1|e] eqn:Es; [|discriminate]. apply (IH c1 r); [eapply minv_step; eauto|exact H].
Qed.

(** entries of executions *)
Inductive ent : nat -> vec -> nat -> Prop :=
| ent_init m p : init m p -> ent m p 0
| ent_jump m p n k t p' : ent m p n -> succ m p n k t p' -> ent (t_to (get_trans a t)) p' (n + k).

Lemma ent_covered c : minv c -> is_finished cf c = true -> flagged c = false -> forall m p n k t p', ent m p n -> succ m p n k t p' -> is_error (get_mode a (t_to (get_trans a t))) = false.
Proof.
  intros (G & Pr & M) Hfin Hf. assert (HC : cov c Pr (fun _ _ _ _ _ => False) /\ c_wait c = []).
  { unfold is_finished in Hfin. unfold flagged in Hf. apply orb_false_iff in Hf as [F1 F2]. rewrite F1, F2, !andb_false_r in Hfin. destruct M as [(Ec & HC)|(n & E & Ec & A & HL & _)].
    - split; [exact HC|]. unfold cur_state in Hfin. rewrite Ec in Hfin. apply andb_true_iff in Hfin as [Hfin _]. apply Nat.eqb_eq in Hfin. destruct (c_wait c); [reflexivity|discriminate].
    - unfold cur_state in Hfin. rewrite Ec, HL in Hfin. discriminate. }
  destruct HC as [HC Hw]. destruct (HC Hf) as [V1 V2]. assert (NW : forall m p i, ~ waits c m p i) by (intros m p i (o & K & _); rewrite Hw in K; destruct K).
  assert (HP : forall m p n, ent m p n -> Pr m p n).
  { intros m p n He. induction He as [m p Hi|m p n k t p' He IH Hs].
    - destruct (V1 m p Hi) as [K|K]; [destruct (NW _ _ _ K)|exact K].
    - destruct (V2 _ _ _ _ _ _ IH Hs) as [[]|[_ [K|K]]]; [destruct (NW _ _ _ K)|exact K]. }
  intros m p n k t p' He Hs. destruct (V2 _ _ _ _ _ _ (HP _ _ _ He) Hs) as [[]|[K _]]. exact K.
Qed.
End Cover.
