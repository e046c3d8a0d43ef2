(** Without deaggregation, every state marked concrete contains only reached points. *)
From Verif Require Import Base BaseFacts LpModel LpSpec SetSpec LpUtil LpFacts LpWf ChullFacts ApiSpec ApiFacts Automaton StateSet HybridSpec FlowFacts StateSpec
  StateFacts StateFacts2 StateFacts3 AutoFacts BuildFacts CoreModel HeapFacts CoreOps CoreGhost CoreHeap CoreInv CoreStep CoreCont CorePop.
Open Scope nat_scope.

Lemma nd_snoc {A} (l : list A) x : NoDup l -> ~ In x l -> NoDup (l ++ [x]).
Proof.
  intros H Hx. induction H as [|y l Hy H IH]; cbn [app]; constructor.
  - intros [].
  - constructor.
  - rewrite in_app_iff. intros [K|[->|[]]]; [auto|]. apply Hx. left; reflexivity.
  - apply IH. intro K. apply Hx. right; exact K.
Qed.

Section Sub.
Variable solve : solver.
Hypothesis Hsolve : solver_ok solve.
Variable arnoldi : nat -> option (list Q) -> csr -> option csr -> nat -> list (list Q).
Variable cf : cfg.
Variable a : ha.
Hypothesis WH : wf_ha a.
Hypothesis Hinp : forall m, m < List.length (ha_modes a) -> m_b (get_mode a m) <> None -> m_inv (get_mode a m) = [].
Variable ru : rules.
Variable init : nat -> vec -> Prop.
Hypothesis Hbound : ru_bound ru = cf_num cf.
Hypothesis Hurg : ru_urgent ru = cf_urgent cf.
Hypothesis Hcap : forall m, ru_cap ru m = false.
Hypothesis Hns : ru_strict ru = false.
Hypothesis Hnd : forall g, cf_strat cf = Some g -> ag_deagg g = false.

Definition sub_state (s : sset) : Prop :=
  ss_conc s = true -> ss_lo s = ss_hi s /\ forall p, in_lp (ss_lpi s) p -> reach tol13 ru a init (ss_mode s) p (ss_step s) (ss_lo s).

Record gi (c : core) : Prop := {
  gi_good : forall i, i < nS c -> good_state solve a (getS c i);
  gi_sub : forall i, i < nS c -> sub_state (getS c i);
  gi_post : forall o, o < nO c -> o_post (getO c o) < nS c;
  gi_inj : forall o o', o < nO c -> o' < nO c -> o_post (getO c o) = o_post (getO c o') -> o = o';
  gi_nst : forall n, n < nN c -> n_state (getN c n) < nS c;
  gi_nd : NoDup (c_wait c);
  gi_wait : forall o, In o (c_wait c) -> o < nO c /\ nonempty (ss_lpi (getS c (o_post (getO c o)))) /\ forall n, n < nN c -> n_state (getN c n) <> o_post (getO c o);
  gi_dw : c_dwait c = []; gi_rep : c_rep c = None;
  gi_err : c_concerr c = true -> error_reachable tol13 ru a init }.
(** the current node, ready to be advanced *)
Definition at_node (c : core) (n : nat) : Prop := n < nN c /\ is_error (get_mode a (nmode c n)) = false.
Definition gcur (c : core) : Prop := forall n, c_cur c = Some n -> left_inv c n = false -> at_node c n.

Lemma good_same s s' : ss_mode s' = ss_mode s -> ss_lpi s' = ss_lpi s -> ss_step s' = ss_step s -> ss_rows s' = ss_rows s -> ss_bm s' = ss_bm s -> ss_ies s' = ss_ies s ->
  good_state solve a s -> good_state solve a s'.
Proof.
  intros E1 E2 E3 E4 E5 E6 (H1 & H2 & H3 & H4). split; [congruence|]. split; [rewrite E2; exact H2|]. split; [rewrite E2; exact H3|].
  rewrite E1. intro E. destruct (H4 E) as (x & [S1 S2 S3 S4 S5 S6 S7 S8]). exists x. constructor; rewrite ?E1, ?E2, ?E3, ?E4, ?E5, ?E6; auto.
Qed.
Lemma sub_obj s o : sub_state s -> sub_state (ss_with_lpi s (with_obj (ss_lpi s) o)).
Proof. intros H Hc. destruct (H Hc) as [E K]. split; [exact E|]. intros p Hp. apply K. revert Hp. apply in_lp_with_obj. Qed.
Lemma nonempty_obj l o : nonempty l -> nonempty (with_obj l o).
Proof. intros (p & Hp). exists p. apply in_lp_with_obj. exact Hp. Qed.

(** ** small updates *)
Lemma gi_set c n s' : gi c -> n < nN c -> good_state solve a s' -> sub_state s' -> gi (setS c (n_state (getN c n)) s').
Proof.
  intros G Hn Hg Hs. pose proof (gi_nst _ G n Hn) as Hi. set (i := n_state (getN c n)) in *.
  constructor; rewrite ?nS_setS; try apply G.
  - intros j Hj. rewrite getS_setS by auto. destruct (j =? i); [exact Hg|apply G; auto].
  - intros j Hj. rewrite getS_setS by auto. destruct (j =? i); [exact Hs|apply G; auto].
  - intros o Ho. destruct (gi_wait _ G o Ho) as (W1 & W2 & W3). split; [exact W1|]. split; [|exact W3]. rewrite getO_setS, getS_set_ne; [exact W2|]. intro K. apply (W3 n Hn). symmetry. exact K.
Qed.
Lemma gi_push c n x : gi c -> gi (push_op c n x).
Proof.
  intro G. constructor; rewrite ?nN_push; try apply G.
  - intros m Hm. rewrite n_state_push. apply (gi_nst _ G m Hm).
  - intros o Ho. destruct (gi_wait _ G o Ho) as (W1 & W2 & W3). split; [exact W1|]. split; [exact W2|]. intros m Hm. rewrite n_state_push. apply W3; exact Hm.
Qed.
Lemma gi_push_ops n xs : forall c, gi c -> gi (push_ops c n xs).
Proof. unfold push_ops. induction xs as [|x xs IH]; intros c G; cbn [fold_left]; [exact G|]. apply IH. apply gi_push. exact G. Qed.
Lemma gi_same c c' : gi c -> c_states c' = c_states c -> c_ops c' = c_ops c -> c_nodes c' = c_nodes c -> c_wait c' = c_wait c -> c_dwait c' = c_dwait c -> c_rep c' = c_rep c ->
  c_concerr c' = c_concerr c -> gi c'.
Proof.
  intros G E1 E2 E3 E4 E5 E6 E7. constructor; unfold getS, getO, getN; rewrite ?E1, ?E2, ?E3, ?E4, ?E5, ?E6, ?E7; try apply G.
Qed.
Lemma at_push c n m x : at_node c n -> at_node (push_op c m x) n.
Proof. intros [H1 H2]. split; [rewrite nN_push; exact H1|]. unfold nmode in *. rewrite n_state_push, getS_push. exact H2. Qed.
Lemma at_set c n s' : gi c -> at_node c n -> ss_mode s' = nmode c n -> at_node (setS c (n_state (getN c n)) s') n.
Proof. intros G [H1 H2] E. split; [exact H1|]. unfold nmode. rewrite getN_setS, getS_set_eq by (apply (gi_nst _ G n H1)). rewrite E. exact H2. Qed.
Lemma at_push_ops n xs m : forall c, at_node c n -> at_node (push_ops c m xs) n.
Proof. unfold push_ops. induction xs as [|x xs IH]; intros c G; cbn [fold_left]; [exact G|]. apply IH. apply at_push. exact G. Qed.

Lemma at_st c n : gi c -> at_node c n -> exists x, st_ok solve a (nst c n) x.
Proof. intros G [H1 H2]. destruct (gi_good _ G _ (gi_nst _ G n H1)) as (_ & _ & _ & K). apply K. exact H2. Qed.

(** ** intersection with the invariant *)
Lemma gi_intersect c n c' ok : gi c -> at_node c n -> intersect_state solve a c n (n_state (getN c n)) = Ok (c', ok) ->
  gi c' /\ at_node c' n /\ n_state (getN c' n) = n_state (getN c n) /\ c_cur c' = c_cur c /\ ss_lo (nst c' n) = ss_lo (nst c n) /\ ss_step (nst c' n) = ss_step (nst c n) /\ nmode c' n = nmode c n /\
  (ok = true -> forall p, in_lp (ss_lpi (nst c' n)) p -> inv_ok tol13 (get_mode a (nmode c' n)) p).
Proof.
  intros G A H. destruct (at_st c n G A) as (x & S). destruct (intersect_state_ok solve Hsolve a WH _ _ _ _ _ x S H) as (s' & ops & -> & S' & SF & K1 & _ & K3 & _).
  fold (nst c n) in *. destruct SF as (F1 & F2 & F3 & F4 & F5 & F6 & F7 & F8 & F9).
  pose proof (gi_nst _ G n (proj1 A)) as Hi.
  assert (Hs' : sub_state s').
  { intro Hc. rewrite F5 in Hc. destruct (gi_sub _ G _ Hi Hc) as [E K]. fold (nst c n) in *. split; [congruence|]. rewrite F1, F2, F3. intros p Hp. apply K. apply K1. exact Hp. }
  assert (G1 : gi (setS c (n_state (getN c n)) s')) by (apply gi_set; auto; [apply A|eapply st_good; eauto]).
  assert (A1 : at_node (setS c (n_state (getN c n)) s') n) by (apply at_set; auto).
  set (c1 := setS c (n_state (getN c n)) s') in *. set (xs := inv_nops _ ops).
  destruct (push_ops_spec xs n c1 (proj1 A1)) as (E1&E2&E3&E4&E5&E6&E7&E8&E9&E10&E11&E12&E13&E14&E15&E16). destruct (E14 n) as (P1 & _).
  assert (En : nst (push_ops c1 n xs) n = s'). { unfold nst, getS. rewrite E1, P1. change (getS c1 (n_state (getN c n)) = s'). unfold c1. apply getS_set_eq; auto. }
  assert (Em : nmode (push_ops c1 n xs) n = ss_mode s') by (change (ss_mode (nst (push_ops c1 n xs) n) = ss_mode s'); rewrite En; reflexivity).
  rewrite En, Em. split; [apply gi_push_ops; exact G1|]. split; [apply at_push_ops; exact A1|]. split; [exact P1|]. split; [exact E3|]. split; [exact F3|]. split; [exact F2|]. split; [exact F1|]. exact K3.
Qed.

(** ** one time step *)
Lemma gi_step1 c n s' : gi c -> at_node c n -> (forall p, in_lp (ss_lpi (nst c n)) p -> inv_ok tol13 (get_mode a (nmode c n)) p) -> ss_lo (nst c n) < cf_num cf ->
  ss_step1 a (nst c n) = Ok s' ->
  gi (setS c (n_state (getN c n)) s') /\ at_node (setS c (n_state (getN c n)) s') n /\ ss_step s' = S (ss_step (nst c n)).
Proof.
  intros G A HI Hlt H. destruct (at_st c n G A) as (x & St). unfold ss_step1 in H.
  destruct (step_to_ok solve Hsolve a _ x _ s' WH St H) as (S' & _ & E1 & E2 & E3 & E4 & E5 & _ & _ & _ & K).
  pose proof (flow_cond solve a Hinp c n x St) as Hfc. specialize (K Hfc). replace (S (ss_step (nst c n)) - ss_step (nst c n)) with 1 in * by lia.
  split; [|split; [apply at_set; auto|exact E1]]. apply gi_set; auto; [apply A|eapply st_good; eauto|].
  intro Hc. rewrite E5 in Hc. destruct (gi_sub _ G _ (gi_nst _ G n (proj1 A)) Hc) as [E KR]. fold (nst c n) in E, KR. split; [congruence|].
  intros p' Hp'. apply K in Hp' as (p & Hp & q & u & Hq & Hu & Ho). cbn [flow] in Hq.
  assert (Hqi : in_lp (ss_lpi (nst c n)) q).
  { eapply in_lp_ext; [|exact Hp]. rewrite (st_dims _ _ _ _ St). unfold m_dims in Hq. rewrite (st_a _ _ _ _ St) in Hq. exact Hq. }
  rewrite E1, E2, E3. replace (ss_lo (nst c n) + 1) with (S (ss_lo (nst c n))) by lia.
  apply R_step with q u; [apply KR; exact Hqi|exact (HI q Hqi)|rewrite Hbound; exact Hlt|intro Kc; rewrite Hcap in Kc; discriminate|exact Hu|exact Ho].
Qed.

(** ** guards *)
Lemma guard_wf_of' t : t < List.length (ha_trans a) -> guard_wf a (get_trans a t).
Proof. intro H. destruct (wft_guard _ _ (proj2 WH t H)) as (g & rhs & K). exists g, rhs. exact K. Qed.

Definition jump_ok (c : core) (n : nat) : Prop :=
  0 < ss_step (nst c n) \/ (cf_urgent cf = true /\ forall p, in_lp (ss_lpi (nst c n)) p -> inv_ok tol13 (get_mode a (nmode c n)) p).

Lemma gi_lpi c n o : gi c -> at_node c n -> let c' := setS c (n_state (getN c n)) (ss_with_lpi (nst c n) (with_obj (ss_lpi (nst c n)) o)) in
  gi c' /\ at_node c' n /\ nst c' n = ss_with_lpi (nst c n) (with_obj (ss_lpi (nst c n)) o) /\ (jump_ok c n -> jump_ok c' n).
Proof.
  intros G A c'. pose proof (gi_nst _ G n (proj1 A)) as Hi.
  assert (En : nst c' n = ss_with_lpi (nst c n) (with_obj (ss_lpi (nst c n)) o)) by (unfold nst at 1, c'; rewrite getN_setS, getS_set_eq by auto; reflexivity).
  split; [apply gi_set; [exact G|apply A|apply good_obj; apply (gi_good _ G _ Hi)|apply sub_obj; apply (gi_sub _ G _ Hi)]|]. split; [apply at_set; auto|]. split; [exact En|].
  intros [K|[K1 K2]]; unfold jump_ok; rewrite En; [left; exact K|right]. split; [exact K1|]. intros p Hp.
  change (nmode c' n) with (ss_mode (nst c' n)). rewrite En. apply K2. revert Hp. apply in_lp_with_obj.
Qed.

Lemma gi_add c n t tlp c' : gi c -> at_node c n -> jump_ok c n -> t < List.length (ha_trans a) -> t_from (get_trans a t) = nmode c n ->
  api solve tlp None -> l_dims tlp = m_dims (get_mode a (t_from (get_trans a t))) -> (exists p, in_lp tlp p) ->
  (forall p, in_lp tlp p -> in_lp (ss_lpi (nst c n)) p /\ guard_ok (get_trans a t) p) ->
  add_transition_successor solve cf a c t tlp (n_state (getN c n)) n = Ok c' ->
  gi c' /\ at_node c' n /\ n_state (getN c' n) = n_state (getN c n) /\ c_cur c' = c_cur c /\ nst c' n = nst c n.
Proof.
  intros G A HJ Ht Hfr Hap Hd Hne Hsub H. unfold add_transition_successor in H. apply bind_ok in H as ([c1 r] & H1 & H).
  destruct (make_op_ok solve Hsolve cf a WH c t tlp _ n c1 r Ht Hap Hd Hne H1) as (s' & ctr & -> & -> & E1 & E2 & E3 & E4 & E5 & E6 & Hg & Hnr & Hpd & Hin & Hne').
  apply ok_inj in H. subst c'. fold (nst c n) in *.
  set (c1 := with_ops (with_states c (c_states c ++ [s'])) (c_ops c ++ [new_op c t (n_state (getN c n)) n ctr])) in *.
  pose proof (gi_nst _ G n (proj1 A)) as Hi.
  assert (ES : forall j, getS c1 j = if j =? nS c then s' else getS c j) by (intro j; unfold c1, getS; ccbn; apply nth_snoc).
  assert (EO : forall j, getO c1 j = if j =? nO c then new_op c t (n_state (getN c n)) n ctr else getO c j) by (intro j; unfold c1, getO; ccbn; apply nth_snoc).
  assert (LS : nS c1 = S (nS c)) by (unfold c1; ccbn; rewrite app_length; cbn; lia).
  assert (LO : nO c1 = S (nO c)) by (unfold c1; ccbn; rewrite app_length; cbn; lia).
  assert (EP : o_post (new_op c t (n_state (getN c n)) n ctr) = nS c) by reflexivity.
  assert (Hs' : sub_state s').
  { intro Hc. rewrite E5 in Hc. destruct (gi_sub _ G _ Hi Hc) as [E K]. fold (nst c n) in E, K. split; [congruence|]. rewrite E1, E2, E3. intros x Hx. apply Hin in Hx as (p & Hp & Hr). destruct (Hsub p Hp) as [Hp1 Hp2].
    apply R_jump with p (ss_step (nst c n)); auto.
    - rewrite Hfr. apply K. exact Hp1.
    - rewrite Hfr. split; [|rewrite Hns; discriminate]. destruct HJ as [J|[J1 J2]]; [left; exact J|right; split; [congruence|apply J2; exact Hp1]]. }
  assert (G1 : gi c1).
  { constructor; rewrite ?LS, ?LO; try apply G.
    - intros j Hj. rewrite ES. destruct (Nat.eqb_spec j (nS c)); [exact Hg|apply G; lia].
    - intros j Hj. rewrite ES. destruct (Nat.eqb_spec j (nS c)); [exact Hs'|apply G; lia].
    - intros o Ho. rewrite EO. destruct (Nat.eqb_spec o (nO c)); [rewrite EP; lia|]. pose proof (gi_post _ G o ltac:(lia)). lia.
    - intros o o' Ho Ho'. rewrite !EO. destruct (Nat.eqb_spec o (nO c)) as [->|N1], (Nat.eqb_spec o' (nO c)) as [->|N2]; rewrite ?EP; auto.
      + intro K. pose proof (gi_post _ G o' ltac:(lia)). lia.
      + intro K. pose proof (gi_post _ G o ltac:(lia)). lia.
      + apply (gi_inj _ G); lia.
    - intros m Hm. pose proof (gi_nst _ G m Hm). change (n_state (getN c m) < S (nS c)). lia.
    - intros o Ho. destruct (gi_wait _ G o Ho) as (W1 & W2 & W3). split; [lia|]. rewrite EO. destruct (Nat.eqb_spec o (nO c)); [lia|]. pose proof (gi_post _ G o W1). rewrite ES.
      destruct (Nat.eqb_spec (o_post (getO c o)) (nS c)); [lia|]. split; [exact W2|exact W3]. }
  assert (A1 : at_node c1 n). { split; [apply A|]. unfold nmode. change (getN c1 n) with (getN c n). rewrite ES. destruct (Nat.eqb_spec (n_state (getN c n)) (nS c)); [lia|]. apply A. }
  set (c2 := push_op c1 n (NTr (nO c))) in *. assert (G2 : gi c2) by (apply gi_push; exact G1).
  assert (A2 : at_node c2 n) by (apply at_push; exact A1).
  assert (Hnw : ~ In (nO c) (c_wait c)) by (intro K; destruct (gi_wait _ G _ K); lia).
  split; [|split; [|split; [|split]]].
  - constructor; try apply G2.
    + change (c_wait (with_wait c2 (c_wait c2 ++ [nO c]))) with (c_wait c ++ [nO c]). apply nd_snoc; [apply G|exact Hnw].
    + intros o Ho. change (c_wait (with_wait c2 (c_wait c2 ++ [nO c]))) with (c_wait c ++ [nO c]) in Ho. apply in_app_iff in Ho as [Ho|[<-|[]]]; [apply (gi_wait _ G2 o Ho)|].
      change (nO (with_wait c2 (c_wait c2 ++ [nO c]))) with (nO c1). rewrite LO. split; [lia|].
      change (getO (with_wait c2 (c_wait c2 ++ [nO c])) (nO c)) with (getO c1 (nO c)). rewrite EO, Nat.eqb_refl, EP.
      change (getS (with_wait c2 (c_wait c2 ++ [nO c])) (nS c)) with (getS c1 (nS c)). rewrite ES, Nat.eqb_refl. split; [exact Hne'|].
      intros m Hm. change (getN (with_wait c2 (c_wait c2 ++ [nO c])) m) with (getN c2 m). unfold c2. rewrite n_state_push. change (nN (with_wait c2 (c_wait c2 ++ [nO c]))) with (nN c2) in Hm. unfold c2 in Hm. rewrite nN_push in Hm.
      change (getN c1 m) with (getN c m). pose proof (gi_nst _ G m Hm). lia.
  - exact A2.
  - change (n_state (getN c2 n) = n_state (getN c n)). unfold c2. rewrite n_state_push. reflexivity.
  - reflexivity.
  - change (nst c2 n = nst c n). unfold c2, nst. rewrite n_state_push, getS_push. change (getN c1 n) with (getN c n). rewrite ES. destruct (Nat.eqb_spec (n_state (getN c n)) (nS c)); [lia|reflexivity].
Qed.

Lemma gi_guards n ts : forall c c', gi c -> at_node c n -> jump_ok c n -> (forall t, In t ts -> t < List.length (ha_trans a) /\ t_from (get_trans a t) = nmode c n) ->
  check_guards_loop solve cf a c n (n_state (getN c n)) ts = Ok c' -> gi c' /\ at_node c' n /\ n_state (getN c' n) = n_state (getN c n) /\ c_cur c' = c_cur c.
Proof.
  induction ts as [|t ts IH]; intros c c' G A HJ Hts H; cbn [check_guards_loop] in H.
  { apply ok_inj in H. subst. auto. }
  apply bind_ok in H as ([l1 o] & Hgi & H). cbn [fst snd] in H. fold (nst c n) in H, Hgi.
  destruct (Hts t (or_introl eq_refl)) as [Ht Hfr]. pose proof (gi_nst _ G n (proj1 A)) as Hi. destruct (at_st c n G A) as (x & St).
  destruct (gi_good _ G _ Hi) as (_ & (k & Hapi) & _ & _). fold (nst c n) in Hapi.
  assert (Hdm : l_dims (ss_lpi (nst c n)) = m_dims (get_mode a (t_from (get_trans a t)))).
  { rewrite Hfr. rewrite (st_dims _ _ _ _ St). unfold m_dims. change (nmode c n) with (ss_mode (nst c n)). rewrite (st_a _ _ _ _ St). reflexivity. }
  destruct (guard_intersection_ok solve Hsolve a _ _ k l1 o (guard_wf_of' t Ht) Hdm Hapi Hgi) as ((ob & ->) & Ho).
  destruct (gi_lpi c n ob G A) as (G1 & A1 & En1 & J1). specialize (J1 HJ). set (c1 := setS c (n_state (getN c n)) _) in *.
  assert (Em1 : nmode c1 n = nmode c n) by (change (ss_mode (nst c1 n) = nmode c n); rewrite En1; reflexivity).
  assert (Es1 : n_state (getN c1 n) = n_state (getN c n)) by reflexivity. assert (Ec1 : c_cur c1 = c_cur c) by reflexivity.
  assert (Hts1 : forall t0, In t0 ts -> t0 < List.length (ha_trans a) /\ t_from (get_trans a t0) = nmode c1 n) by (intros t0 K; rewrite Em1; apply Hts; right; exact K).
  destruct o as [tl|].
  2:{ destruct (IH c1 c' G1 A1 J1 Hts1 H) as (K1 & K2 & K3 & K4). rewrite K3, K4. auto. }
  destruct Ho as (P1 & P2 & P3 & P4). apply bind_ok in H as (c2 & Herr & H).
  assert (E2 : exists ag co ce, c2 = with_flags c1 ag co ce /\ (co = true -> error_reachable tol13 ru a init)).
  { destruct (is_error _) eqn:Eerr.
    - apply error_reached_ok in Herr as (ag & co & ce & -> & _ & _ & B1 & B2 & _). exists ag, co, ce. split; [reflexivity|]. intro Hco.
      destruct (ss_conc (getS c1 (n_state (getN c n)))) eqn:Ecc.
      + destruct P4 as (p & Hp). apply P3 in Hp as [Hp Hgp]. change (ss_conc (nst c1 n) = true) in Ecc. rewrite En1 in Ecc. destruct (gi_sub _ G _ Hi Ecc) as [_ KR].
        exists t, p, (ss_step (nst c n)), (ss_lo (nst c n)). rewrite Hfr. split; [exact Ht|]. split; [exact Eerr|]. split; [apply KR; exact Hp|]. split; [exact Hgp|].
        split; [|rewrite Hns; discriminate]. destruct HJ as [J|[J2 J3]]; [left; exact J|right; split; [congruence|apply J3; exact Hp]].
      + destruct (B2 eq_refl) as (_ & Eco & _). apply (gi_err _ G1). congruence.
    - apply ok_inj in Herr. subst c2. exists (c_aggerr c1), (c_concerr c1), (c_cex c1). split; [destruct c1; reflexivity|]. apply (gi_err _ G1). }
  destruct E2 as (ag & co & ce & -> & Hco). set (c2 := with_flags c1 ag co ce) in *.
  assert (G2 : gi c2) by (constructor; try apply G1; exact Hco). assert (A2 : at_node c2 n) by exact A1. assert (J2 : jump_ok c2 n) by exact J1.
  destruct (is_error _ && _) in H.
  { apply ok_inj in H. subst c'. auto. }
  apply bind_ok in H as (c3 & Hadd & H).
  destruct (gi_add c2 n t tl c3 G2 A2 J2 Ht) as (G3 & A3 & Es3 & Ec3 & En3); auto.
  { rewrite Hfr. exact (eq_sym Em1). } { rewrite P2. exact Hdm. }
  { intros p Hp. apply P3 in Hp as [Hp1 Hp2]. split; [|exact Hp2]. change (nst c2 n) with (nst c1 n). rewrite En1. apply in_lp_with_obj. exact Hp1. }
  assert (J3 : jump_ok c3 n). { unfold jump_ok. change (nmode c3 n) with (ss_mode (nst c3 n)). rewrite En3. exact J2. }
  assert (Em3 : nmode c3 n = nmode c1 n) by (change (ss_mode (nst c3 n) = ss_mode (nst c2 n)); rewrite En3; reflexivity).
  apply bind_ok in H as (c4 & Htt & H).
  assert (E4 : gi c4 /\ at_node c4 n /\ n_state (getN c4 n) = n_state (getN c n) /\ c_cur c4 = c_cur c /\ jump_ok c4 n /\ nmode c4 n = nmode c1 n).
  { destruct (cf_tt cf && _) in Htt.
    - apply bind_ok in Htt as ([l5 b] & Hw & Htt). cbn [fst snd] in Htt. change (n_state (getN c n)) with (n_state (getN c2 n)) in Hw, Htt. rewrite <- Es3 in Hw, Htt. fold (nst c3 n) in Hw, Htt.
      destruct (was_tt_taken_ok solve Hsolve a _ _ _ _ _ _ WH (proj2 WH t Ht) Hw) as ((o5 & ->) & _).
      destruct (gi_lpi c3 n o5 G3 A3) as (G5 & A5 & En5 & J5). set (c5 := setS c3 (n_state (getN c3 n)) _) in *. apply ok_inj in Htt.
      assert (Em5 : nmode c5 n = nmode c3 n) by (change (ss_mode (nst c5 n) = nmode c3 n); rewrite En5; reflexivity).
      destruct b; subst c4.
      + split; [apply (gi_same c5); auto|]. split; [exact A5|]. split; [change (n_state (getN c3 n) = n_state (getN c n)); rewrite Es3; reflexivity|]. split; [change (c_cur c3 = c_cur c); rewrite Ec3; reflexivity|]. split; [exact (J5 J3)|]. change (nmode c5 n = nmode c1 n). congruence.
      + split; [exact G5|]. split; [exact A5|]. split; [change (n_state (getN c3 n) = n_state (getN c n)); rewrite Es3; reflexivity|]. split; [change (c_cur c3 = c_cur c); rewrite Ec3; reflexivity|]. split; [exact (J5 J3)|]. congruence.
    - apply ok_inj in Htt. subst c4. split; [exact G3|]. split; [exact A3|]. split; [rewrite Es3; reflexivity|]. split; [rewrite Ec3; reflexivity|]. split; [exact J3|exact Em3]. }
  destruct E4 as (G4 & A4 & Es4 & Ec4 & J4 & Em4). rewrite <- Es4 in H.
  destruct (IH c4 c' G4 A4 J4) as (K1 & K2 & K3 & K4); auto.
  { intros t0 K. rewrite Em4. apply Hts1. exact K. }
  rewrite K3, K4. auto.
Qed.

Lemma gi_left c n sid b : gi c -> gi (left_invariant c n sid b).
Proof. intro G. apply (gi_same (push_op c n (NLeft (ss_step (getS c sid)) b))); try reflexivity. apply gi_push. exact G. Qed.
Lemma gcur_none c : c_cur c = None -> gcur c.
Proof. intros E n K. congruence. Qed.

Lemma gi_cont c n c' : gi c -> at_node c n -> c_cur c = Some n -> continuous_post solve cf a c n (n_state (getN c n)) = Ok c' -> gi c' /\ gcur c'.
Proof.
  intros G A Hc H. unfold continuous_post in H. fold (nst c n) in H. destruct (Nat.leb_spec (cf_num cf) (ss_lo (nst c n))) as [Hl|Hl].
  { apply ok_inj in H. subst. split; [apply gi_left; exact G|apply gcur_none; reflexivity]. }
  destruct (c_tt c).
  { apply ok_inj in H. subst. split; [apply gi_left; apply (gi_same c); auto|apply gcur_none; reflexivity]. }
  apply bind_ok in H as ([c1 ok] & H1 & H). destruct (gi_intersect c n c1 ok G A H1) as (G1 & A1 & E1 & E2 & E3 & E4 & E5 & Hok).
  destruct ok; cbn [negb] in H.
  2:{ apply ok_inj in H. subst. split; [apply gi_left; exact G1|apply gcur_none; reflexivity]. }
  apply bind_ok in H as (s1 & Hs & H). apply bind_ok in H as (c3 & Hg & H).
  rewrite <- E1 in Hs, Hg, H. fold (nst c1 n) in Hs. destruct (gi_step1 c1 n s1 G1 A1 (Hok eq_refl) ltac:(lia) Hs) as (G2 & A2 & Es). set (c2 := setS c1 (n_state (getN c1 n)) s1) in *.
  assert (En2 : nst c2 n = s1) by (unfold nst, c2; rewrite getN_setS, getS_set_eq; [reflexivity|apply (gi_nst _ G1 n (proj1 A1))]).
  assert (J2 : jump_ok c2 n) by (left; rewrite En2, Es; lia).
  unfold check_guards in Hg. change (n_state (getN c1 n)) with (n_state (getN c2 n)) in Hg.
  destruct (gi_guards n _ c2 c3 G2 A2 J2 (fun t Ht => proj1 (out_trans_spec a _ t) Ht) Hg) as (G3 & A3 & Es3 & Ec3).
  destruct (m_a _) as [x|] in H; [|discriminate]. destruct (_ && _) in H; apply ok_inj in H; subst c'.
  - split; [apply gi_left; exact G3|apply gcur_none; reflexivity].
  - split; [exact G3|]. intros m Hm _. rewrite Ec3 in Hm. change (c_cur c1 = Some m) in Hm. assert (Emn : m = n) by congruence. rewrite Emn. exact A3.
Qed.

(** ** popping *)
Lemma gi_pop c c' n : gi c -> pop_waiting_list solve arnoldi cf a c = Ok (c', n) -> gi c' /\ n < nN c' /\ c_cur c' = Some n.
Proof.
  intros G H. unfold pop_waiting_list in H. apply bind_ok in H as (ops & Hops & H). apply bind_ok in H as (? & _ & H). apply bind_ok in H as (agg & _ & H). apply bind_ok in H as ([c1 nid] & Hm & H).
  apply ok_inj in H. injection H as <- <-.
  assert (Hpath : forall g, cf_strat cf = Some g -> ag_deagg g = true -> ag_path g = true) by (intros g Hg Kd; rewrite (Hnd g Hg) in Kd; discriminate).
  destruct (pop_ops_ok cf a Hpath ru Hbound c ops) as (K1 & K2 & K3 & K4 & _); auto; try apply G.
  { intros o o' Ho Ho' E. apply (gi_inj _ G); auto; apply (gi_wait _ G); auto. }
  set (w := filter _ (c_wait c)) in *. set (c0 := with_wait c w) in *.
  assert (G0 : gi c0).
  { constructor; try apply G.
    - apply NoDup_filter. apply G.
    - intros o Ho. change (In o w) in Ho. apply filter_In in Ho as [Ho _]. apply (gi_wait _ G o Ho). }
  destruct (make_node_ok solve Hsolve arnoldi a WH c0 ops agg (Some "full"%string) c1 nid) as (M1 & M2 & M3 & M4 & M5 & M6 & M7 & M8 & M9 & M10 & M11 & M12 & M13 & M14 & M15 & M16 & M17 & M18 & M19 & M20 & MS); auto.
  { intros o Ho. destruct (gi_wait _ G o (K3 o Ho)) as (W1 & W2 & _). split; [exact W1|]. split; [apply (gi_post _ G o W1)|]. split; [apply (gi_good _ G); apply (gi_post _ G o W1)|exact W2]. }
  { intros o Ho. assert (In (nth 0 ops 0) ops) by (destruct ops; [congruence|left; reflexivity]). apply (K4 o _ Ho H). }
  cbn zeta in MS. destruct MS as (S1 & S2 & S3 & S4 & S5). set (sid := n_state (getN c1 nid)) in *.
  assert (Hpost : forall o, o_post (getO c1 o) = o_post (getO c o)) by (intro o; apply M9).
  assert (HS : nS c <= nS c1 /\ (forall i, i < nS c1 -> good_state solve a (getS c1 i)) /\ (forall i, i < nS c1 -> sub_state (getS c1 i)) /\
            (forall i, i < nS c -> nonempty (ss_lpi (getS c i)) -> nonempty (ss_lpi (getS c1 i))) /\ (forall o, In o w -> sid <> o_post (getO c o))).
  { assert (Hnw : forall o, In o w -> In o (c_wait c) /\ ~ In o ops).
    { intros o Ho. apply filter_In in Ho as [Ho Hn]. split; [exact Ho|]. intro K. apply mem_In in K. rewrite K in Hn. discriminate. }
    destruct ops as [|o1 [|o2 ops']].
    - congruence.
    - destruct S5 as (T1 & T2 & T3 & g & T4). change (nS c1 = nS c) in T2. change (sid = o_post (getO c o1)) in T1. split; [lia|].
      assert (Hi : sid < nS c) by lia. change (getS c0) with (getS c) in *.
      split; [|split; [|split]].
      + intros i Hi'. destruct (Nat.eq_dec i sid) as [->|Hne]; [exact S2|]. rewrite T3 by auto. apply (gi_good _ G). lia.
      + intros i Hi'. destruct (Nat.eq_dec i sid) as [->|Hne]; [|rewrite T3 by auto; apply (gi_sub _ G); lia]. rewrite T4. apply (gi_sub _ G sid Hi).
      + intros i Hi' Hne'. destruct (Nat.eq_dec i sid) as [->|Hne]; [rewrite T4; exact Hne'|rewrite T3 by auto; exact Hne'].
      + intros o Ho. destruct (Hnw o Ho) as [Q1 Q2]. intro K. apply Q2. left. apply (gi_inj _ G); [apply (gi_wait _ G); apply K3; left; auto|apply (gi_wait _ G); auto|congruence].
    - destruct S5 as (T1 & T2 & T3 & T4 & T5 & _). change (nS c1 = S (nS c)) in T2. change (sid = nS c) in T1. change (forall i, i < nS c -> getS c1 i = getS c i \/ exists o, getS c1 i = ss_with_lpi (getS c i) (with_obj (ss_lpi (getS c i)) o)) in T3. split; [lia|].
      split; [|split; [|split]].
      + intros i Hi'. destruct (Nat.eq_dec i sid) as [->|Hne]; [exact S2|]. destruct (T3 i ltac:(lia)) as [->|(o & ->)]; [|apply good_obj]; apply (gi_good _ G); lia.
      + intros i Hi'. destruct (Nat.eq_dec i sid) as [->|Hne]; [intro K; congruence|]. destruct (T3 i ltac:(lia)) as [->|(o & ->)]; [|apply sub_obj]; apply (gi_sub _ G); lia.
      + intros i Hi' Hne'. destruct (T3 i Hi') as [->|(o & ->)]; [exact Hne'|apply nonempty_obj; exact Hne'].
      + intros o Ho. destruct (Hnw o Ho) as [Q1 Q2]. pose proof (gi_post _ G o (proj1 (gi_wait _ G o Q1))). lia. }
  destruct HS as (H1 & H2 & H3 & H4 & H5).
  split; [|split; [change (nid < nN c1); rewrite M3; lia|reflexivity]].
  apply (gi_same c1); try reflexivity. constructor; auto.
  - intros o Ho. rewrite Hpost. rewrite M4 in Ho. pose proof (gi_post _ G o Ho). lia.
  - intros o o' Ho Ho'. rewrite !Hpost. rewrite M4 in Ho, Ho'. apply (gi_inj _ G); auto.
  - intros m Hm'. rewrite M3 in Hm'. destruct (Nat.eq_dec m nid) as [->|Hne]; [exact S1|]. rewrite M5 by lia. pose proof (gi_nst _ G m). change (nN c0) with (nN c) in *. specialize (H ltac:(lia)). change (n_state (getN c m) < nS c1). lia.
  - rewrite M13. apply G0.
  - intros o Ho. rewrite M13 in Ho. change (In o w) in Ho. destruct (gi_wait _ G0 o Ho) as (W1 & W2 & W3). rewrite Hpost. split; [rewrite M4; exact W1|]. split; [apply H4; [apply (gi_post _ G o W1)|exact W2]|].
    intros m Hm'. rewrite M3 in Hm'. destruct (Nat.eq_dec m nid) as [->|Hne]; [apply H5; exact Ho|]. rewrite M5 by lia. apply W3. lia.
  - rewrite M14. apply G.
  - rewrite M15. apply G.
  - rewrite M18. apply G.
Qed.

Lemma gi_step_pop c c' : gi c -> do_step_pop solve arnoldi cf a c = Ok c' -> gi c' /\ gcur c' /\
  (forall n, c_cur c' = Some n -> forall p, in_lp (ss_lpi (nst c' n)) p -> inv_ok tol13 (get_mode a (nmode c' n)) p).
Proof.
  intros G H. unfold do_step_pop in H. apply bind_ok in H as ([c1 n] & Hp & H). destruct (gi_pop c c1 n G Hp) as (G1 & Hn & Ec).
  destruct (is_error _) eqn:Ee in H.
  { apply ok_inj in H. subst. split; [apply gi_left; exact G1|]. split; [apply gcur_none; reflexivity|]. intros m K. discriminate. }
  assert (A1 : at_node c1 n) by (split; assumption). apply bind_ok in H as ([c2 ok] & Hi & H). destruct (gi_intersect c1 n c2 ok G1 A1 Hi) as (G2 & A2 & E1 & E2 & E3 & E4 & E5 & Hok).
  destruct ok; apply ok_inj in H; subst c'.
  - split; [exact G2|]. split.
    + intros m Hm _. assert (m = n) by congruence. subst. exact A2.
    + intros m Hm. assert (m = n) by congruence. subst. apply Hok. reflexivity.
  - split; [apply gi_left; exact G2|]. split; [apply gcur_none; reflexivity|]. intros m K. discriminate.
Qed.

Lemma cur_state_inv c n sid : cur_state c = Some (n, sid) -> c_cur c = Some n /\ left_inv c n = false /\ sid = n_state (getN c n).
Proof. unfold cur_state. destruct (c_cur c) as [m|]; [|discriminate]. destruct (left_inv c m) eqn:E; [discriminate|]. intro H. injection H as <- <-. auto. Qed.

Lemma gi_do_step c c' : gi c -> gcur c -> do_step solve arnoldi cf a c = Ok c' -> gi c' /\ gcur c'.
Proof.
  intros G GC H. unfold do_step in H. destruct (is_finished cf c); [apply ok_inj in H; subst; auto|].
  destruct (cur_state c) as [[n sid]|] eqn:Ecs.
  { apply cur_state_inv in Ecs as (K1 & K2 & ->). apply bind_ok in H as (c1 & H1 & H). apply ok_inj in H. destruct (gi_cont c n c1 G (GC n K1 K2) K1 H1) as [G1 C1]. subst c'. split; [apply (gi_same c1); auto|exact C1]. }
  assert (Er : doing_replay c = false) by (unfold doing_replay; rewrite (gi_rep _ G), (gi_dw _ G); reflexivity). rewrite Er in H.
  assert (Ed : get_deagg_node cf a c = Ok None). { unfold get_deagg_node. destruct (cf_strat cf) as [g|] eqn:Eg; [|reflexivity]. rewrite (Hnd g eq_refl). reflexivity. }
  rewrite Ed in H. cbn [bind] in H. apply bind_ok in H as (c1 & H1 & H). destruct (gi_step_pop c c1 G H1) as (G1 & C1 & I1).
  destruct (cur_state c1) as [[n sid]|] eqn:Ecs1; [|apply ok_inj in H; subst; auto]. destruct (cf_urgent cf) eqn:Eu in H; [|apply ok_inj in H; subst; auto].
  apply cur_state_inv in Ecs1 as (K1 & K2 & ->). pose proof (C1 n K1 K2) as A1. unfold check_guards in H.
  assert (J1 : jump_ok c1 n) by (right; split; [exact Eu|apply I1; exact K1]).
  destruct (gi_guards n _ c1 c' G1 A1 J1 (fun t Ht => proj1 (out_trans_spec a _ t) Ht) H) as (G2 & A2 & _ & Ec2). split; [exact G2|]. intros m Hm _. assert (m = n) by congruence. subst. exact A2.
Qed.
Lemma gi_run fuel : forall c r, gi c -> gcur c -> run_loop solve arnoldi cf a fuel c = Some (Ok r) -> gi r.
Proof.
  induction fuel as [|f IH]; intros c r G C H; cbn [run_loop] in H; (destruct (is_finished cf c); [injection H as <-; exact G|]); [discriminate|].
  destruct (do_step solve arnoldi cf a c) as [c1|e] eqn:Es; [|discriminate]. destruct (gi_do_step c c1 G C Es). eauto.
Qed.
End Sub.
