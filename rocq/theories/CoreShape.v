(** Further facts about the aggregation DAG that hold in every state of every analysis (used for C66 with deaggregation):
    the recorded invariant operations refer to existing conditions, nodes with several parents know how to aggregate,
    every node's state has its aggregation string, no transition is recorded twice in a node, and a transition's post state is
    concrete exactly if the state of the node it leaves is. *)
From Verif Require Import Base BaseFacts LpModel LpUtil Automaton StateSet BuildFacts StateFacts CoreModel HeapFacts CoreOps CorePop CoreExt CoreDag CoreDag2 CoreDag3 CoreSpec.
Open Scope nat_scope.

Definition frame3 (s s' : sset) : Prop := ss_mode s' = ss_mode s /\ ss_conc s' = ss_conc s /\ ss_agg s' = ss_agg s.
Lemma f3_refl s : frame3 s s. Proof. repeat split. Qed.
Lemma f3_trans s1 s2 s3 : frame3 s1 s2 -> frame3 s2 s3 -> frame3 s1 s3.
Proof. intros (A1 & A2 & A3) (B1 & B2 & B3). repeat split; congruence. Qed.
Lemma f3_step a s k s' : ss_step_to a s k = Ok s' -> frame3 s s'.
Proof.
  unfold ss_step_to. intro H. apply bind_ok in H as (u & _ & H). destruct (_ =? _) in H; [apply ok_inj in H; subst; apply f3_refl|]. destruct (m_a _) in H; [|discriminate].
  apply bind_ok in H as (l & _ & H). apply bind_ok in H as (li & _ & H). apply ok_inj in H. subst. repeat split.
Qed.
Lemma f3_cond solve s i c s' o st : inv_cond solve s i c = Ok (s', o, st) -> frame3 s s'.
Proof.
  unfold inv_cond. intro H. apply bind_ok in H as ([l1 r] & _ & H). cbn [fst snd] in H. destruct r as [[|]|].
  - match type of H with match ?z with _ => _ end = _ => destruct z as [old|] end.
    + apply bind_ok in H as ([[l j] sg] & _ & H). apply ok_inj in H. injection H as <- _ _. repeat split.
    + apply bind_ok in H as (li & _ & H). apply ok_inj in H. injection H as <- _ _. repeat split.
  - apply ok_inj in H. injection H as <- _ _. repeat split.
  - apply ok_inj in H. injection H as <- _ _. repeat split.
Qed.
Lemma f3_inv solve cs : forall s i s' ops ok, intersect_inv solve s i cs = Ok (s', ops, ok) -> frame3 s s'.
Proof.
  induction cs as [|c cs IH]; intros s i s' ops ok H; cbn [intersect_inv] in H; [apply ok_inj in H; injection H as <- _ _; apply f3_refl|].
  apply bind_ok in H as ([[s1 o] st] & H1 & H). apply f3_cond in H1.
  assert (K : forall i, forall ops ok, intersect_inv solve s1 i cs = Ok (s', ops, ok) -> frame3 s s') by (intros; eapply f3_trans; eauto).
  destruct o as [[|]|]; [|eauto|eauto]. apply bind_ok in H as (f & _ & H). destruct f; [|apply ok_inj in H; injection H as <- _ _; exact H1].
  apply bind_ok in H as ([[s2 ops2] ok2] & H2 & H). apply ok_inj in H. injection H as <- _ _. eauto.
Qed.
Lemma inv_idx solve cs : forall s i s' ops ok, intersect_inv solve s i cs = Ok (s', ops, ok) -> forall ib, In ib ops -> fst ib < i + List.length cs.
Proof.
  induction cs as [|c cs IH]; intros s i s' ops ok H ib Hib; cbn [intersect_inv] in H; [apply ok_inj in H; injection H as _ <- _; destruct Hib|].
  apply bind_ok in H as ([[s1 o] st] & H1 & H). cbn [List.length].
  assert (K : forall ops ok, intersect_inv solve s1 (Datatypes.S i) cs = Ok (s', ops, ok) -> In ib ops -> fst ib < i + Datatypes.S (List.length cs)).
  { intros ops' ok' Hx Hin. pose proof (IH _ _ _ _ _ Hx ib Hin). lia. }
  destruct o as [[|]|]; [|eauto|eauto]. apply bind_ok in H as (f & _ & H). destruct f; [|apply ok_inj in H; injection H as _ <- _; destruct Hib as [<-|[]]; cbn [fst]; lia].
  apply bind_ok in H as ([[s2 ops2] ok2] & H2 & H). apply ok_inj in H. injection H as -> <- _. destruct Hib as [<-|Hib]; [cbn [fst]; lia|]. eauto.
Qed.
Lemma tr_ops_app (d : node) x s p g : tr_ops (mkNode (n_ops d ++ [x]) s p g) = tr_ops d ++ match x with NTr o => [o] | _ => [] end.
Proof. unfold tr_ops. cbn [n_ops]. rewrite flat_map_app. cbn [flat_map]. rewrite app_nil_r. reflexivity. Qed.

Lemma tr_ops_eq d d' : n_ops d = n_ops d' -> tr_ops d = tr_ops d'.
Proof. unfold tr_ops. intros ->. reflexivity. Qed.

Section Shape.
Variable solve : solver.
Variable arnoldi : nat -> option (list Q) -> csr -> option csr -> nat -> list (list Q).
Variable cf : cfg.
Variable a : ha.
Notation dag := (dag cf a).
Notation cinv := (cinv cf a).

Record xinv (c : core) : Prop := {
  x_inv : forall N k i b, N < nN c -> In (NInv k i b) (n_ops (getN c N)) -> i < List.length (m_inv (get_mode a (nodemode c N)));
  x_agg : forall N, N < nN c -> 2 <= List.length (n_parents (getN c N)) -> n_agg (getN c N) <> None;
  x_str : forall N, N < nN c -> ss_agg (getS c (n_state (getN c N))) <> None;
  x_nd : forall N, N < nN c -> NoDup (tr_ops (getN c N));
  x_many : forall N, N < nN c -> 2 <= List.length (n_parents (getN c N)) -> ss_conc (getS c (n_state (getN c N))) = false;
  x_conc1 : forall o p, o < nO c -> o_parent (getO c o) = Some p -> ss_conc (pstate c o) = ss_conc (getS c (n_state (getN c p)));
  x_conc0 : forall o, o < nO c -> o_parent (getO c o) = None -> ss_conc (pstate c o) = true }.

Record same3 (c c' : core) : Prop := {
  q_st : forall i, frame3 (getS c i) (getS c' i); q_ops : c_ops c' = c_ops c; q_nodes : c_nodes c' = c_nodes c }.
Lemma same3_eq c c' : c_states c' = c_states c -> c_ops c' = c_ops c -> c_nodes c' = c_nodes c -> same3 c c'.
Proof. intros H1 H2 H3. constructor; auto. intro i. unfold getS. rewrite H1. apply f3_refl. Qed.
Lemma same3_set c i s : frame3 (getS c i) s -> same3 c (setS c i s).
Proof.
  intro H. constructor; try reflexivity. intro j. destruct (Nat.lt_ge_cases i (nS c)) as [Hi|Hi].
  - rewrite getS_setS by exact Hi. destruct (Nat.eqb_spec j i) as [->|_]; [exact H|apply f3_refl].
  - assert (E : getS (setS c i s) j = getS c j). { unfold getS. ccbn. rewrite nth_upd. destruct (Nat.ltb_spec i (nS c)); [lia|]. rewrite andb_false_r. reflexivity. } rewrite E. apply f3_refl.
Qed.
Lemma same3_trans c1 c2 c3 : same3 c1 c2 -> same3 c2 c3 -> same3 c1 c3.
Proof. intros [A1 A2 A3] [B1 B2 B3]. constructor; try congruence. intro i. eapply f3_trans; eauto. Qed.
Lemma same3_refl c : same3 c c. Proof. apply same3_eq; reflexivity. Qed.
Lemma same3_put sids : forall ls c, same3 c (put_lps c sids ls).
Proof. induction sids as [|i sids IH]; intros [|l ls] c; cbn [put_lps]; try apply same3_refl. eapply same3_trans; [|apply IH]. apply same3_set. repeat split. Qed.
Lemma xinv_same c c' : xinv c -> same3 c c' -> xinv c'.
Proof.
  intros [X1 X2 X3 X4 X5 X6 X7] [S1 S2 S3]. assert (GO : forall o, getO c' o = getO c o) by (intro; apply getO_eq; auto). assert (GN : forall o, getN c' o = getN c o) by (intro; apply getN_eq; auto).
  constructor; rewrite ?S2, ?S3; unfold nodemode, pstate in *; try setoid_rewrite GO; try setoid_rewrite GN; auto.
  - intros N k i b HN Hin. destruct (S1 (n_state (getN c N))) as (-> & _). eauto.
  - intros N HN. destruct (S1 (n_state (getN c N))) as (_ & _ & ->). auto.
  - intros N HN H2. destruct (S1 (n_state (getN c N))) as (_ & -> & _). auto.
  - intros o p Ho Hp. destruct (S1 (o_post (getO c o))) as (_ & -> & _), (S1 (n_state (getN c p))) as (_ & -> & _). auto.
  - intros o Ho Hp. destruct (S1 (o_post (getO c o))) as (_ & -> & _). auto.
Qed.
Lemma xinv_push c n x : xinv c -> (forall o, x <> NTr o) -> (forall k i b, x = NInv k i b -> n < nN c -> i < List.length (m_inv (get_mode a (nodemode c n)))) -> xinv (push_op c n x).
Proof.
  intros [X1 X2 X3 X4 X5 X6 X7] Hx Hi.
  constructor; rewrite ?nN_push; unfold nodemode, pstate in *; try setoid_rewrite n_parents_push; try setoid_rewrite n_state_push; try setoid_rewrite n_agg_push; auto.
  - intros N k i b HN. destruct (Nat.eq_dec N n) as [->|Hne]; [|rewrite n_ops_push_ne by auto; apply X1; auto]. rewrite n_ops_push_eq by auto. rewrite in_app_iff.
    intros [H|[H|[]]]; [exact (X1 n k i b HN H)|]. exact (Hi k i b H HN).
  - intros N HN. destruct (Nat.eq_dec N n) as [->|Hne].
    + rewrite getN_push, Nat.eqb_refl by auto. rewrite tr_ops_app. destruct x as [k i b|k b|o]; [rewrite app_nil_r; auto|rewrite app_nil_r; auto|exfalso; eapply Hx; eauto].
    + rewrite (tr_ops_eq _ (getN c N)) by (apply n_ops_push_ne; auto). auto.
Qed.
Lemma xinv_push_ops n xs : forall c, xinv c -> (forall o, ~ In (NTr o) xs) -> (forall k i b, In (NInv k i b) xs -> n < nN c -> i < List.length (m_inv (get_mode a (nodemode c n)))) -> xinv (push_ops c n xs).
Proof.
  unfold push_ops. induction xs as [|x xs IH]; intros c X Hx Hi; [exact X|]. cbn [fold_left]. apply IH.
  - apply xinv_push; [exact X| |]; [intros o ->; apply (Hx o); left; reflexivity|]. intros k i b ->. apply (Hi k i b). left. reflexivity.
  - intros o Ho. apply (Hx o). right. exact Ho.
  - rewrite nN_push. unfold nodemode. rewrite n_state_push. intros k i b Hin. apply (Hi k i b). right. exact Hin.
Qed.
Lemma xinv_left c nid sid b : xinv c -> xinv (left_invariant c nid sid b).
Proof. intro X. unfold left_invariant. apply (xinv_same (push_op c nid (NLeft (ss_step (getS c sid)) b))); [|apply same3_eq; reflexivity]. apply xinv_push; [exact X|discriminate|discriminate]. Qed.

Lemma xinv_new_op mp c s x nid : dag mp c -> xinv c -> nid < nN c -> o_parent x = Some nid -> o_post x = nS c -> ss_conc s = ss_conc (getS c (n_state (getN c nid))) -> xinv (with_new_op c s x nid).
Proof.
  intros D [X1 X2 X3 X4 X5 X6 X7] Hn Hp Hpo Hc. set (c1 := with_new_op c s x nid).
  assert (Go : forall o, getO c1 o = if o =? nO c then x else getO c o) by (intro o; apply (getO_add c x o)).
  assert (Gs : forall i, getS c1 i = if i =? nS c then s else getS c i) by (intro i; apply (getS_add c s i)).
  assert (HO : nO c1 = Datatypes.S (nO c)) by (unfold c1, with_new_op; ccbn; rewrite app_length; cbn; lia).
  assert (HN : nN c1 = nN c) by (unfold c1, with_new_op; rewrite nN_push; reflexivity).
  assert (Np : forall N, n_parents (getN c1 N) = n_parents (getN c N)) by (intro N; unfold c1, with_new_op; rewrite n_parents_push; reflexivity).
  assert (Na : forall N, n_agg (getN c1 N) = n_agg (getN c N)) by (intro N; unfold c1, with_new_op; rewrite n_agg_push; reflexivity).
  assert (Ns : forall N, n_state (getN c1 N) = n_state (getN c N)) by (intro N; unfold c1, with_new_op; rewrite n_state_push; reflexivity).
  assert (GsN : forall N, N < nN c -> getS c1 (n_state (getN c N)) = getS c (n_state (getN c N))).
  { intros N HNN. rewrite Gs. destruct (d_parents _ _ _ _ D N HNN) as (_ & _ & P3 & _). destruct (Nat.eqb_spec (n_state (getN c N)) (nS c)); [lia|reflexivity]. }
  constructor; rewrite ?HN, ?HO; unfold nodemode, pstate in *; try setoid_rewrite Np; try setoid_rewrite Ns; try setoid_rewrite Na; auto.
  - intros N k i b HNN. rewrite GsN by exact HNN. unfold c1, with_new_op. destruct (Nat.eq_dec N nid) as [->|Hne].
    + rewrite n_ops_push_eq by exact Hn. rewrite in_app_iff. intros [H|[H|[]]]; [|discriminate]. exact (X1 nid k i b Hn H).
    + rewrite n_ops_push_ne by exact Hne. apply X1. exact HNN.
  - intros N HNN. rewrite GsN by exact HNN. auto.
  - intros N HNN. unfold c1, with_new_op. destruct (Nat.eq_dec N nid) as [->|Hne].
    + rewrite getN_push, Nat.eqb_refl by exact Hn. rewrite tr_ops_app. apply NoDup_snoc; [exact (X4 nid Hn)|]. intro K. apply tr_ops_in in K. apply (d_ntr _ _ _ _ D nid _ Hn) in K. lia.
    + rewrite (tr_ops_eq _ (getN c N)) by (rewrite n_ops_push_ne by exact Hne; reflexivity). auto.
  - intros N HNN H2. rewrite GsN by exact HNN. auto.
  - intros o p Ho. rewrite Go. destruct (Nat.eqb_spec o (nO c)) as [->|N].
    + rewrite Hp, Hpo. intros [= <-]. rewrite GsN by exact Hn. rewrite Gs, Nat.eqb_refl. exact Hc.
    + intro Hq. assert (Ho' : o < nO c) by lia. destruct (d_par _ _ _ _ D o p Ho' Hq) as (HNp & _). rewrite GsN by exact HNp. pose proof (d_post _ _ _ _ D o Ho'). rewrite Gs. destruct (Nat.eqb_spec (o_post (getO c o)) (nS c)); [lia|]. auto.
  - intros o Ho. rewrite Go. destruct (Nat.eqb_spec o (nO c)) as [->|N]; [rewrite Hp; discriminate|]. intro Hq. assert (Ho' : o < nO c) by lia. pose proof (d_post _ _ _ _ D o Ho'). rewrite Gs. destruct (Nat.eqb_spec (o_post (getO c o)) (nS c)); [lia|]. auto.
Qed.

Lemma agg_states_x c ops agg c1 s : aggregate_states solve arnoldi a c ops agg = Ok (c1, s) -> same3 c c1 /\ agg <> None.
Proof.
  intro H. unfold aggregate_states in H. destruct agg as [[[] g]|]; try discriminate; (split; [|discriminate]).
  - destruct (m_a _) in H; [|discriminate]. apply bind_ok in H as (d & _ & H). apply bind_ok in H as (r & _ & H). apply bind_ok in H as (s' & _ & H). apply ok_inj in H. injection H as <- _. apply same3_put.
  - destruct (m_a _) in H; [|discriminate]. apply bind_ok in H as (d & _ & H). apply bind_ok in H as (r & _ & H). apply bind_ok in H as (s' & _ & H). apply ok_inj in H. injection H as <- _. apply same3_put.
  - apply bind_ok in H as (l & _ & H). apply bind_ok in H as (s' & _ & H). apply ok_inj in H. injection H as <- _. apply same3_refl.
Qed.
(** the aggregation strings after making a node *)
Lemma make_node_x c ops agg str c' nid : ops <> [] -> (forall o, In o ops -> o < nO c) -> make_node solve arnoldi a c ops agg str = Ok (c', nid) ->
  (2 <= List.length ops -> agg <> None) /\ (forall i, i < nS c -> ss_agg (getS c i) <> None -> str <> None -> ss_agg (getS c' i) <> None) /\
  (n_state (getN c' nid) < nS c' -> ss_agg (getS c' (n_state (getN c' nid))) = str).
Proof.
  intros Hne Hl H. pose proof H as H0. unfold make_node in H. apply bind_ok in H as ([c1 sid] & H1 & H). apply ok_inj in H.
  assert (P : (2 <= List.length ops -> agg <> None) /\ (forall i, i < nS c -> ss_agg (getS c1 i) = ss_agg (getS c i)) /\ c_nodes c1 = c_nodes c).
  { destruct ops as [|o [|o2 ops]]; [congruence| |].
    - apply ok_inj in H1. injection H1 as <- <-. split; [cbn; lia|]. split; [reflexivity|reflexivity].
    - apply bind_ok in H1 as ([c2 s] & H1 & E2). apply ok_inj in E2. injection E2 as <- <-. pose proof (agg_ptr _ _ _ _ _ _ _ _ Hne H1) as (K & _). apply agg_states_x in H1 as [S3 Ha]. split; [intros _; exact Ha|]. split; [|apply S3].
      intros i Hi. rewrite getS_add. rewrite (k_nS _ _ K). destruct (Nat.eqb_spec i (nS c)); [lia|]. apply (q_st _ _ S3). }
  destruct P as (P1 & P2 & P3). split; [exact P1|].
  set (c2 := setS c1 sid _) in H. pose proof (set_childs_spec ops (nN c2) c2) as Q. cbn zeta in Q. destruct Q as (E1 & E2 & _).
  set (c3 := fold_left (fun c o => set_child c o (nN c2)) ops c2) in *. set (c4 := with_nodes c3 (c_nodes c3 ++ [mkNode [] sid ops agg])) in H.
  assert (F : c_states c' = c_states c2 /\ c_nodes c' = c_nodes c1 ++ [mkNode [] sid ops agg] /\ nid = nN c1).
  { destruct (existsb _ ops) in H; injection H as <- <-; unfold c4; ccbn; rewrite E1, E2; auto. }
  destruct F as (F1 & F2 & F3).
  assert (GS : forall i, getS c' i = getS c2 i) by (intro i; unfold getS; rewrite F1; reflexivity).
  assert (GA : forall i, ss_agg (getS c2 i) = if (i =? sid) && (sid <? nS c1) then str else ss_agg (getS c1 i)).
  { intro i. unfold c2, getS. ccbn. rewrite nth_upd. destruct (_ && _); reflexivity. }
  split.
  - intros i Hi Ha Hs. rewrite GS, GA, P2 by exact Hi. destruct (_ && _); assumption.
  - assert (En : n_state (getN c' nid) = sid). { unfold getN. rewrite F2, F3, nth_snoc, Nat.eqb_refl. reflexivity. } rewrite En.
    assert (Hn : nS c' = nS c1) by (rewrite F1; unfold c2; apply nS_setS). rewrite Hn. intro Hs. rewrite GS, GA, Nat.eqb_refl. destruct (Nat.ltb_spec sid (nS c1)); [reflexivity|lia].
Qed.
Lemma xinv_make_node mp c ops agg str c' nid : dag mp c -> xinv c -> ops <> [] -> (forall o, In o ops -> o < nO c) -> str <> None -> make_node solve arnoldi a c ops agg str = Ok (c', nid) -> xinv c'.
Proof.
  intros D [X1 X2 X3 X4 X5 X6 X7] Hne Hl Hs H. pose proof (make_node_x _ _ _ _ _ _ Hne Hl H) as (M1 & M2 & M3).
  pose proof (make_node_ptr _ _ _ _ _ _ _ _ _ Hne Hl H) as (En & HN & HO & X & GN & Np & No & Na & GO & _ & _ & _ & _ & _ & _ & _ & R1 & R2).
  assert (Hst : n_state (getN c' nid) < nS c').
  { destruct (Nat.lt_ge_cases (List.length ops) 2) as [Hlt|Hge].
    - assert (L1 : List.length ops = 1) by (destruct ops as [|? [|? ?]]; [congruence|reflexivity|cbn in Hlt; lia]). destruct (R1 L1) as [-> ->]. apply (d_post _ _ _ _ D). apply Hl. apply nth_In. lia.
    - destruct (R2 Hge) as (-> & -> & _). lia. }
  assert (GsM : forall N, N < nN c -> ss_mode (getS c' (n_state (getN c N))) = ss_mode (getS c (n_state (getN c N))) /\ ss_conc (getS c' (n_state (getN c N))) = ss_conc (getS c (n_state (getN c N)))).
  { intros N HNN. apply (ex_mode _ _ X). apply (d_parents _ _ _ _ D N HNN). }
  constructor; rewrite ?HN, ?HO; unfold nodemode, pstate in *.
  - intros N k i b HNN. destruct (Nat.eq_dec N nid) as [->|Hd]; [rewrite No; intros []|]. assert (HN2 : N < nN c) by lia. rewrite GN by exact HN2. rewrite (proj1 (GsM N HN2)). apply X1. exact HN2.
  - intros N HNN. destruct (Nat.eq_dec N nid) as [->|Hd]; [rewrite Np, Na; exact M1|]. assert (HN2 : N < nN c) by lia. rewrite GN by exact HN2. auto.
  - intros N HNN. destruct (Nat.eq_dec N nid) as [->|Hd]; [rewrite M3 by exact Hst; exact Hs|]. assert (HN2 : N < nN c) by lia. rewrite GN by exact HN2. apply M2; auto. apply (d_parents _ _ _ _ D N HN2).
  - intros N HNN. destruct (Nat.eq_dec N nid) as [->|Hd]; [unfold tr_ops; rewrite No; constructor|]. assert (HN2 : N < nN c) by lia. rewrite GN by exact HN2. auto.
  - intros N HNN. destruct (Nat.eq_dec N nid) as [->|Hd].
    + rewrite Np. intro H2. destruct (R2 H2) as (-> & _ & _ & _ & _ & K & _). exact K.
    + assert (HN2 : N < nN c) by lia. rewrite GN by exact HN2. intro H2. rewrite (proj2 (GsM N HN2)). auto.
  - intros o p Ho Hp. destruct (GO o) as (_ & G1 & _ & G2). rewrite G1 in Hp. rewrite G2. destruct (d_par _ _ _ _ D o p Ho Hp) as (HNp & _). rewrite GN by exact HNp. rewrite (proj2 (GsM p HNp)).
    rewrite (proj2 (ex_mode _ _ X _ (d_post _ _ _ _ D o Ho))). auto.
  - intros o Ho Hp. destruct (GO o) as (_ & G1 & _ & G2). rewrite G1 in Hp. rewrite G2. rewrite (proj2 (ex_mode _ _ X _ (d_post _ _ _ _ D o Ho))). auto.
Qed.
End Shape.
