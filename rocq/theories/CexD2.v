(** With deaggregation: names of the columns of concrete states, kept by the operations on the heap (for C66). *)
From Verif Require Import Base BaseFacts LpModel LpSpec SetSpec LpUtil LpFacts LpWf SetFacts SetFacts2 OpsFacts OpsFacts2 OpsFacts3 OpsFacts4 ChullFacts
  ApiSpec ApiFacts Automaton StateSet HybridSpec FlowFacts StateSpec StateFacts StateFacts2 StateFacts3 AutoFacts BuildFacts CoreModel HeapFacts CoreOps CoreGhost CoreHeap CoreInv CoreStep CoreCont CorePop CoreExt CoreDag CoreDag2 CoreDag3
  CoreSub CoreSubD CoreShape CoreShape2 Names CexSpec NameFacts Layout TraceLp TraceState TraceReset CoreTrace CexSetup CexD.
From Coq Require Import String Lia.
Open Scope list_scope.
Open Scope nat_scope.

Section K.
Variable solve : solver.
Variable arnoldi : nat -> option (list Q) -> csr -> option csr -> nat -> list (list Q).
Variable cf : cfg.
Variable a : ha.
Hypothesis WH : wf_ha a.
Hypothesis Hidx : index_ok a.
Notation dag := (dag cf a).
Notation pst c o := (getS c (o_post (getO c o))).
Notation grow := (grow a).
Notation err m := (is_error (get_mode a m)).

Lemma opre_f c c' o l : fr c c' -> opre c o l -> opre c' o l.
Proof. exact (opre_fr cf (mkRules false (cf_num cf) (fun _ => false) false) eq_refl c c' o l). Qed.

Record kinv (c : core) : Prop := {
  k_op : forall o, o < nO c -> ss_conc (pst c o) = true -> ss_ops (pst c o) = (match o_parent (getO c o) with None => None | Some _ => Some [o] end) /\
     exists pre, opre c o pre /\ (err (ss_mode (pst c o)) = false -> DN a (l_names (ss_lpi (pst c o))) (ss_mode (pst c o)) (List.length pre));
  k_from : forall o t M, o < nO c -> o_trans (getO c o) = Some t -> o_parent (getO c o) = Some M -> t < List.length (ha_trans a) /\ t_from (get_trans a t) = nodemode c M;
  k_node : forall N, N < nN c -> ss_conc (nst c N) = true -> exists o, n_parents (getN c N) = [o] /\ o_child (getO c o) = Some N }.

Definition sameg (c c' : core) : Prop := (forall i, grow (getS c i) (getS c' i)) /\ c_ops c' = c_ops c /\ nN c' = nN c /\
  forall n, n_parents (getN c' n) = n_parents (getN c n) /\ n_state (getN c' n) = n_state (getN c n).
Lemma sg_refl c : sameg c c.
Proof. split; [intro i; apply g_refl|]. auto. Qed.
Lemma sg_trans c1 c2 c3 : sameg c1 c2 -> sameg c2 c3 -> sameg c1 c3.
Proof.
  intros (A1 & A2 & A3 & A4) (B1 & B2 & B3 & B4). split; [intro i; eapply g_trans; eauto|]. split; [congruence|]. split; [congruence|]. intro n. destruct (A4 n) as [P1 P2], (B4 n) as [Q1 Q2]. split; congruence.
Qed.
Lemma sg_eq c c' : c_states c' = c_states c -> c_ops c' = c_ops c -> c_nodes c' = c_nodes c -> sameg c c'.
Proof. intros E1 E2 E3. split; [intro i; unfold getS; rewrite E1; apply g_refl|]. split; [exact E2|]. split; [rewrite E3; reflexivity|]. intro n. unfold getN. rewrite E3. auto. Qed.
Lemma sg_set c i s : grow (getS c i) s -> sameg c (setS c i s).
Proof.
  intro H. split; [|auto]. intro j. destruct (Nat.lt_ge_cases i (nS c)) as [Hi|Hi].
  - rewrite getS_setS by exact Hi. destruct (Nat.eqb_spec j i) as [->|_]; [exact H|apply g_refl].
  - assert (E : getS (setS c i s) j = getS c j). { unfold getS. ccbn. rewrite nth_upd. destruct (Nat.ltb_spec i (nS c)); [lia|]. rewrite andb_false_r. reflexivity. } rewrite E. apply g_refl.
Qed.
Lemma sg_push c n x : sameg c (push_op c n x).
Proof. split; [intro i; apply g_refl|]. split; [reflexivity|]. split; [apply nN_push|]. intro m. rewrite n_parents_push, n_state_push. auto. Qed.
Lemma sg_push_ops n xs : forall c, sameg c (push_ops c n xs).
Proof. unfold push_ops. induction xs as [|x xs IH]; intro c; cbn [fold_left]; [apply sg_refl|]. eapply sg_trans; [apply sg_push|apply IH]. Qed.
Lemma sg_left c nid sid b : sameg c (left_invariant c nid sid b).
Proof. unfold left_invariant. eapply sg_trans; [apply (sg_push c nid (NLeft (ss_step (getS c sid)) b))|]. apply sg_eq; reflexivity. Qed.
Lemma sg_put sids : forall ls c, Forall2 (fun i l => exists o, l = with_obj (ss_lpi (getS c i)) o) sids ls -> sameg c (put_lps c sids ls).
Proof.
  intros ls c H. pose proof (put_lps_obj sids c ls H) as P. clear H. assert (Q : c_ops (put_lps c sids ls) = c_ops c /\ c_nodes (put_lps c sids ls) = c_nodes c).
  { clear P. revert ls c. induction sids as [|i sids IH]; intros [|l ls] c; cbn [put_lps]; auto. destruct (IH ls (setS c i (ss_with_lpi (getS c i) l))) as [-> ->]. auto. }
  destruct Q as [Q1 Q2]. split; [|split; [exact Q1|split; [rewrite Q2; reflexivity|intro n; unfold getN; rewrite Q2; auto]]].
  intro i. destruct (P i) as [->|(o & ->)]; [apply g_refl|apply g_obj].
Qed.
Lemma sg_fr c c' : sameg c c' -> fr c c'.
Proof. intros (_ & A2 & A3 & A4). split; [rewrite A2; lia|]. split; [lia|]. split; [intros o _; unfold getO; rewrite A2; auto|intros n _; apply A4]. Qed.
Lemma sg_mode c c' n : sameg c c' -> nodemode c' n = nodemode c n.
Proof. intros (A1 & _ & _ & A4). unfold nodemode. destruct (A4 n) as [_ ->]. exact (proj1 (A1 _)). Qed.
Lemma sg_concn c c' n : sameg c c' -> ss_conc (nst c' n) = ss_conc (nst c n).
Proof. intros (A1 & _ & _ & A4). unfold nst. destruct (A4 n) as [_ ->]. exact (proj1 (proj2 (A1 _))). Qed.
Lemma kinv_same c c' : kinv c -> sameg c c' -> kinv c'.
Proof.
  intros K E. pose proof (sg_fr _ _ E) as F. pose proof E as (A1 & A2 & A3 & A4). assert (GO : forall o, getO c' o = getO c o) by (intro o; unfold getO; rewrite A2; reflexivity).
  constructor.
  - intros o Ho. rewrite A2 in Ho. rewrite GO. destruct (A1 (o_post (getO c o))) as (G1 & G2 & G3 & k & G4). rewrite G1, G2, G3. intro Hc. destruct (k_op _ K o Ho Hc) as (K1 & pre & K2 & K3). split; [exact K1|].
    exists pre. split; [exact (opre_f _ _ _ _ F K2)|]. intro He. rewrite G4. apply DN_inp. exact (K3 He).
  - intros o t M Ho. rewrite A2 in Ho. rewrite GO. rewrite (sg_mode _ _ M E). exact (k_from _ K o t M Ho).
  - intros N HN. rewrite (sg_concn _ _ N E). rewrite A3 in HN. intro Hc. destruct (k_node _ K N HN Hc) as (o & K1 & K2). exists o. destruct (A4 N) as [-> _]. rewrite GO. auto.
Qed.

(** the operation whose state is a concrete node *)
Lemma node_op mp c N : dag mp c -> kinv c -> N < nN c -> ss_conc (nst c N) = true -> exists o, o < nO c /\ n_parents (getN c N) = [o] /\ o_child (getO c o) = Some N /\ n_state (getN c N) = o_post (getO c o) /\ pst c o = nst c N.
Proof.
  intros D K HN Hc. destruct (k_node _ K N HN Hc) as (o & K1 & K2). exists o. destruct (d_parents _ _ _ _ D N HN) as (_ & _ & _ & _ & P). destruct (P o) as (P1 & _ & _ & _ & _ & P2); [rewrite K1; left; reflexivity|].
  rewrite K1 in P2. specialize (P2 eq_refl). unfold nst. rewrite P2. auto.
Qed.

Lemma kinv_make_op mp c t l nid c' r : dag mp c -> kinv c -> nid < nN c -> t < List.length (ha_trans a) -> t_from (get_trans a t) = nodemode c nid -> l_names l = l_names (ss_lpi (nst c nid)) ->
  make_op_transition solve cf a c t l (n_state (getN c nid)) nid = Ok (c', r) -> kinv c'.
Proof.
  intros D K Hn Ht Hf Hl H. pose proof (ext_make_op _ _ _ _ _ _ _ _ _ _ H) as EX. unfold make_op_transition in H. fold (nst c nid) in H. apply bind_ok in H as (p & Hp & H).
  destruct p as [[l1 ctr]|]; [|apply ok_inj in H; injection H as <- _; exact K]. apply pre_names in Hp.
  apply bind_ok in H as (l2 & Hr & H). apply bind_ok in H as (f & _ & H). apply bind_ok in H as (u & _ & H). apply bind_ok in H as (s & Hs & H). apply ok_inj in H. injection H as H _.
  apply new_stateset_mode in Hs as (N1 & N2 & _ & _ & _ & N6 & N7 & _).
  assert (ES : forall j, getS c' j = if j =? nS c then s else getS c j) by (intro j; rewrite <- H; unfold getS; ccbn; apply nth_snoc).
  assert (EO : forall j, getO c' j = if j =? nO c then mkOp (ss_step (nst c nid)) (Some nid) None (Some t) (nS c) ctr else getO c j) by (intro j; rewrite <- H; unfold getO; ccbn; apply nth_snoc).
  assert (LO : nO c' = S (nO c)) by (rewrite <- H; ccbn; rewrite app_length; cbn; lia).
  assert (EN : forall m, getN c' m = getN c m) by (intro m; rewrite <- H; reflexivity). assert (LN : nN c' = nN c) by (rewrite <- H; reflexivity). clear H.
  assert (F : fr c c'). { split; [lia|]. split; [lia|]. split; [|intros n _; rewrite EN; reflexivity]. intros o Ho. rewrite EO. destruct (Nat.eqb_spec o (nO c)); [lia|auto]. }
  assert (NM : forall N, N < nN c -> nodemode c' N = nodemode c N) by (intros N HN; apply (nodemode_ext cf a mp); auto).
  constructor.
  - intros o Ho. rewrite EO. destruct (Nat.eqb_spec o (nO c)) as [->|Hne].
    + cbn [o_post o_parent]. rewrite ES, Nat.eqb_refl. rewrite N6, N7. intro Hc. split; [reflexivity|]. destruct (node_op mp c nid D K Hn Hc) as (o' & Q1 & Q2 & Q3 & Q4 & Q5).
      destruct (k_op _ K o' Q1) as (_ & pre & K2 & K3); [rewrite Q5; exact Hc|]. rewrite Q5 in K3. exists (pre ++ [o_step (getO c' (nO c))]). split.
      * apply O_next with nid o'; [lia|rewrite EO, Nat.eqb_refl; reflexivity|lia|rewrite EN; exact Q2|exact (opre_f _ _ _ _ F K2)].
      * intros _. rewrite N1, N2, app_length. cbn [List.length]. rewrite Nat.add_1_r. refine (DN_reset a WH Hidx l1 t l2 _ _ _ Ht Hf Hr). rewrite Hp, Hl. apply K3.
        change (err (nodemode c nid) = false). rewrite <- Hf. apply (wft_from _ _ (proj2 WH t Ht)).
    + assert (Ho' : o < nO c) by lia. pose proof (d_post _ _ _ _ D o Ho') as Hpost. rewrite ES. destruct (Nat.eqb_spec (o_post (getO c o)) (nS c)); [lia|]. intro Hc.
      destruct (k_op _ K o Ho' Hc) as (K1 & pre & K2 & K3). split; [exact K1|]. exists pre. split; [exact (opre_f _ _ _ _ F K2)|exact K3].
  - intros o t0 M Ho. rewrite EO. destruct (Nat.eqb_spec o (nO c)) as [->|Hne].
    + cbn [o_trans o_parent]. intros E1 E2. injection E1 as <-. injection E2 as <-. rewrite NM by exact Hn. auto.
    + intros E1 E2. assert (Ho' : o < nO c) by lia. rewrite NM; [exact (k_from _ K o t0 M Ho' E1 E2)|]. apply (d_par _ _ _ _ D o M Ho' E2).
  - intros N HN. rewrite LN in HN. unfold nst. rewrite EN, ES. destruct (d_parents _ _ _ _ D N HN) as (_ & _ & Q3 & _). destruct (Nat.eqb_spec (n_state (getN c N)) (nS c)); [lia|]. intro Hc.
    destruct (node_op mp c N D K HN Hc) as (o & Q1 & Q2 & Q4 & _). exists o. split; [exact Q2|]. rewrite EO. destruct (Nat.eqb_spec o (nO c)); [lia|exact Q4].
Qed.
Lemma kinv_add mp c t l nid c' : dag mp c -> kinv c -> nid < nN c -> t < List.length (ha_trans a) -> t_from (get_trans a t) = nodemode c nid -> l_names l = l_names (ss_lpi (nst c nid)) ->
  add_transition_successor solve cf a c t l (n_state (getN c nid)) nid = Ok c' -> kinv c'.
Proof.
  intros D K Hn Ht Hf Hl H. unfold add_transition_successor in H. apply bind_ok in H as ([c1 o] & H1 & H). assert (K1 := kinv_make_op mp c t l nid c1 o D K Hn Ht Hf Hl H1).
  destruct o as [o|]; apply ok_inj in H; subst c'; [|exact K1]. apply (kinv_same c1 _ K1). eapply sg_trans; [apply (sg_push c1 nid (NTr o))|]. apply sg_eq; reflexivity.
Qed.

(** ** making a node *)
Lemma sg_agg c ops agg c1 s : aggregate_states solve arnoldi a c ops agg = Ok (c1, s) -> sameg c c1 /\ ss_conc s = false.
Proof.
  intro K. unfold aggregate_states in K. destruct agg as [[kd g]|]; [|discriminate].
  assert (Q : forall m x sids, (do dirs <- agg_dir_mat arnoldi a c kd g (c_nr x) (nth (Nat.div (List.length ops) 2) ops 0);
          do r <- aggregate solve (map ss_lpi (map (getS c) sids)) dirs (c_nr x) m (has_inputs (get_mode a m));
          do s <- new_stateset a (snd r) m (minl (map ss_lo (map (getS c) sids))) (maxl (map ss_hi (map (getS c) sids))) (Some ops) false;
          Ok (put_lps c sids (fst r), s)) = Ok (c1, s) -> sameg c c1 /\ ss_conc s = false).
  { intros m x sids Hq. apply bind_ok in Hq as (dirs & _ & Hq). apply bind_ok in Hq as (r & Hr & Hq). apply bind_ok in Hq as (s' & Hs & Hq). apply ok_inj in Hq. injection Hq as <- <-.
    apply new_stateset_mode in Hs as (_ & _ & _ & _ & _ & Hs & _). split; [|exact Hs]. apply sg_put, objs_put. unfold aggregate in Hr. apply bind_ok in Hr as (? & _ & Hr). apply bind_ok in Hr as (? & _ & Hr). apply bind_ok in Hr as (? & _ & Hr).
    apply bind_ok in Hr as ([[ls' rows] rhs] & Hd & Hr). apply bind_ok in Hr as (l & _ & Hr). apply ok_inj in Hr. subst r. cbn [fst]. apply agg_dirs_objs in Hd. exact Hd. }
  destruct kd.
  - destruct (m_a _) as [x|] in K; [|discriminate]. exact (Q _ _ _ K).
  - destruct (m_a _) as [x|] in K; [|discriminate]. exact (Q _ _ _ K).
  - apply bind_ok in K as (l & _ & K). apply bind_ok in K as (s' & Hs & K). apply ok_inj in K. injection K as <- <-. apply new_stateset_mode in Hs as (_ & _ & _ & _ & _ & Hs & _). split; [apply sg_refl|exact Hs].
Qed.
Lemma g_agg s g : grow s (mkSset (ss_mode s) (ss_lpi s) (ss_step s) (ss_lo s) (ss_hi s) (ss_conc s) (ss_ops s) (ss_rows s) (ss_bm s) (ss_ies s) g).
Proof. split; [reflexivity|]. split; [reflexivity|]. split; [reflexivity|]. apply gn_eq. reflexivity. Qed.
Lemma make_node_states c ops agg str c' nid : ops <> [] -> make_node solve arnoldi a c ops agg str = Ok (c', nid) -> forall i, i < nS c -> grow (getS c i) (getS c' i).
Proof.
  intros Hne H. unfold make_node in H. apply bind_ok in H as ([c1 sid] & H1 & H). apply ok_inj in H.
  assert (P : forall i, i < nS c -> grow (getS c i) (getS c1 i)).
  { assert (Q : forall os, os <> [] -> (do r <- aggregate_states solve arnoldi a c os agg; let '(c3, s) := r in Ok (with_states c3 (c_states c3 ++ [s]), List.length (c_states c3))) = Ok (c1, sid) -> forall i, i < nS c -> grow (getS c i) (getS c1 i)).
    { intros os Hos Hq i Hi. apply bind_ok in Hq as ([c3 s] & Hq1 & Hq). apply ok_inj in Hq. injection Hq as <- _. pose proof (agg_ptr _ _ _ _ _ _ _ _ Hos Hq1) as (X & _). apply sg_agg in Hq1 as [(Q1 & _) _].
      rewrite getS_add. destruct (Nat.eqb_spec i (nS c3)) as [->|_]; [pose proof (k_nS _ _ X); lia|apply Q1]. }
    destruct ops as [|o [|o2 ops]]; [congruence| |apply (Q (o :: o2 :: ops)); [discriminate|exact H1]]. apply ok_inj in H1. injection H1 as <- _. intros i _. apply g_refl. }
  intros i Hi. eapply g_trans; [exact (P i Hi)|]. set (c2 := setS c1 sid _) in H. assert (S2 : sameg c1 c2) by (apply sg_set, g_agg).
  pose proof (set_childs_spec ops (nN c2) c2) as T. cbn zeta in T. destruct T as (T & _).
  assert (E : c_states c' = c_states c2) by (destruct (existsb _ _) in H; injection H as <- _; ccbn; exact T). unfold getS at 2. rewrite E. apply S2.
Qed.
Lemma kinv_make_node mp c ops agg str c' nid : dag mp c -> kinv c -> ops <> [] -> (forall o, In o ops -> o < nO c) ->
  (forall o N, In o ops -> o_child (getO c o) = Some N -> N < nN c -> ss_conc (nst c N) = false) ->
  make_node solve arnoldi a c ops agg str = Ok (c', nid) -> kinv c'.
Proof.
  intros D K Hne Hlt Hch H. pose proof (make_node_states _ _ _ _ _ _ Hne H) as HS.
  apply make_node_ptr in H as (E1 & LN & LO & EX & GN & GP & _ & _ & GO & C1 & C2 & _ & _ & _ & _ & _ & S1 & S2); auto. subst nid.
  assert (F : fr c c'). { split; [lia|]. split; [lia|]. split; [|intros n Hn; rewrite GN by exact Hn; reflexivity]. intros o _. destruct (GO o) as (Q1 & Q2 & _). auto. }
  assert (NM : forall N, N < nN c -> nodemode c' N = nodemode c N) by (intros N HN; apply (nodemode_ext cf a mp); auto).
  constructor.
  - intros o Ho. rewrite LO in Ho. destruct (GO o) as (_ & Q2 & _ & Q4). rewrite Q2, Q4. destruct (HS _ (d_post _ _ _ _ D o Ho)) as (G1 & G2 & G3 & k & G4). rewrite G1, G2, G3. intro Hc.
    destruct (k_op _ K o Ho Hc) as (K1 & pre & K2 & K3). split; [exact K1|]. exists pre. split; [exact (opre_f _ _ _ _ F K2)|]. intro He. rewrite G4. apply DN_inp. exact (K3 He).
  - intros o t M Ho Et EM. rewrite LO in Ho. destruct (GO o) as (_ & Q2 & Q3 & _). rewrite Q3 in Et. rewrite Q2 in EM. rewrite NM; [exact (k_from _ K o t M Ho Et EM)|]. apply (d_par _ _ _ _ D o M Ho EM).
  - intros N HN Hc. rewrite LN in HN. destruct (Nat.eq_dec N (nN c)) as [->|Hn].
    + rewrite GP. destruct ops as [|o [|o2 ops]]; [congruence| |].
      * exists o. split; [reflexivity|]. apply C1. left; reflexivity.
      * exfalso. destruct S2 as (Z1 & Z2 & _ & _ & _ & Z3 & _); [cbn; lia|]. unfold nst in Hc. rewrite Z1 in Hc. congruence.
    + assert (HN' : N < nN c) by lia. unfold nst in Hc. rewrite GN in Hc by exact HN'. destruct (d_parents _ _ _ _ D N HN') as (_ & _ & Q3 & _). destruct (HS _ Q3) as (_ & G2 & _). rewrite G2 in Hc.
      destruct (node_op mp c N D K HN' Hc) as (o & Q1 & Q2 & Q4 & _). exists o. rewrite GN by exact HN'. split; [exact Q2|]. rewrite C2; [exact Q4|]. intro Hi. specialize (Hch o N Hi Q4 HN'). unfold nst in Hch. congruence.
Qed.
End K.
