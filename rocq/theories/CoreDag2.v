(** The pointer invariant [dag] is kept by every step of the analysis. *)
From Verif Require Import Base BaseFacts LpModel LpUtil Automaton StateSet BuildFacts StateFacts CoreModel HeapFacts CoreOps CorePop CoreExt CoreDag.
Open Scope nat_scope.

Lemma in_firstn {A} (x : A) n l : In x (firstn n l) -> In x l.
Proof. intro H. rewrite <- (firstn_skipn n l). apply in_app_iff. auto. Qed.
Lemma in_skipn {A} (x : A) n l : In x (skipn n l) -> In x l.
Proof. intro H. rewrite <- (firstn_skipn n l). apply in_app_iff. auto. Qed.
Lemma NoDup_app_split {A} (l1 l2 : list A) : NoDup (l1 ++ l2) -> NoDup l1 /\ NoDup l2 /\ forall x, In x l1 -> ~ In x l2.
Proof.
  induction l1 as [|x l1 IH]; cbn [app]; intro H; [split; [constructor|auto]|]. inversion H as [|? ? H1 H2]; subst. destruct (IH H2) as (K1 & K2 & K3). rewrite in_app_iff in H1.
  split; [constructor; [intro K; apply H1; auto|auto]|]. split; [auto|]. intros y [<-|K]; [intro K4; apply H1; auto|auto].
Qed.
Lemma NoDup_firstn {A} n (l : list A) : NoDup l -> NoDup (firstn n l).
Proof. intro H. rewrite <- (firstn_skipn n l) in H. apply NoDup_app_split in H as (H & _ & _). exact H. Qed.
Lemma NoDup_skipn {A} n (l : list A) : NoDup l -> NoDup (skipn n l).
Proof. intro H. rewrite <- (firstn_skipn n l) in H. apply NoDup_app_split in H as (_ & H & _). exact H. Qed.

Section Dag.
Variable solve : solver.
Variable arnoldi : nat -> option (list Q) -> csr -> option csr -> nat -> list (list Q).
Variable cf : cfg.
Variable a : ha.
Notation dag := (dag cf a).

Record pf (c c' : core) : Prop := { pf_nN : nN c' = nN c; pf_dw : c_dwait c' = c_dwait c; pf_rep : c_rep c' = c_rep c; pf_cur : c_cur c' = c_cur c; pf_nO : nO c <= nO c' }.
Lemma pf_refl c : pf c c. Proof. constructor; auto. Qed.
Lemma pf_trans c1 c2 c3 : pf c1 c2 -> pf c2 c3 -> pf c1 c3.
Proof. intros [] []. constructor; try congruence. lia. Qed.
Lemma pf_keeps c c' : keeps c c' -> pf c c'.
Proof. intros []. constructor; try congruence. rewrite k_ops. auto. Qed.
Lemma pf_push c n x : pf c (push_op c n x).
Proof. constructor; try reflexivity. apply nN_push. Qed.
Lemma pf_push_ops n xs : forall c, pf c (push_ops c n xs).
Proof. unfold push_ops. induction xs as [|x xs IH]; intro c; cbn [fold_left]; [apply pf_refl|]. eapply pf_trans; [apply pf_push|apply IH]. Qed.

Lemma make_op_ptr c t l sid nid c' r : make_op_transition solve cf a c t l sid nid = Ok (c', r) ->
  (r = None /\ c' = c) \/ (r = Some (nO c) /\ exists s ctr, ss_mode s = t_to (get_trans a t) /\ ss_lo s = ss_lo (getS c sid) /\ ss_hi s = ss_hi (getS c sid) /\
     c' = with_ops (with_states c (c_states c ++ [s])) (c_ops c ++ [mkOp (ss_step (getS c sid)) (Some nid) None (Some t) (nS c) ctr])).
Proof.
  unfold make_op_transition. intro H. apply bind_ok in H as (p & _ & H). destruct p as [[l1 ctr]|]; [|apply ok_inj in H; injection H as <- <-; left; auto].
  apply bind_ok in H as (l2 & _ & H). apply bind_ok in H as (f & _ & H). apply bind_ok in H as (u & _ & H). apply bind_ok in H as (s & Hs & H). apply ok_inj in H. injection H as <- <-.
  right. split; [reflexivity|]. exists s, ctr. apply new_stateset_mode in Hs as (_ & K & _ & K2 & K3 & _). auto.
Qed.

Lemma dag_add mp c t l sid nid c' : dag mp c -> nid < nN c -> add_transition_successor solve cf a c t l sid nid = Ok c' -> dag mp c' /\ pf c c'.
Proof.
  intros D Hn H. unfold add_transition_successor in H. apply bind_ok in H as ([c1 o] & H1 & H). apply make_op_ptr in H1 as [[-> ->]|[-> (s & ctr & Hm & _ & _ & ->)]].
  - apply ok_inj in H. subst c'. split; [auto|apply pf_refl].
  - apply ok_inj in H. match type of H with with_wait (push_op (with_ops _ (_ ++ [?x])) _ _) _ = _ => change (with_wait (with_new_op c s x nid) (c_wait (with_new_op c s x nid) ++ [nO c]) = c') in H;
      destruct (dag_new_op cf a mp c s x nid t D Hn eq_refl eq_refl eq_refl eq_refl Hm) as (D1 & K1 & K2 & K3 & K4 & K5 & K6 & K7 & K8 & K9 & K10 & K11 & K12) end.
    subst c'. split; [apply dag_wait_add; [exact D1|lia|rewrite K7; reflexivity|rewrite K3; exact K10|exact K11]|]. constructor; ccbn; auto. change (nO c <= nO (with_new_op c s (mkOp (ss_step (getS c sid)) (Some nid) None (Some t) (nS c) ctr) nid)). lia.
Qed.

Lemma dag_guards mp nid sid ts : forall c c', dag mp c -> nid < nN c -> check_guards_loop solve cf a c nid sid ts = Ok c' -> dag mp c' /\ pf c c'.
Proof.
  induction ts as [|t ts IH]; intros c c' D Hn H; cbn [check_guards_loop] in H; [apply ok_inj in H; subst; split; [auto|apply pf_refl]|].
  apply bind_ok in H as ([l1 ol] & _ & H). cbn [fst snd] in H. set (c1 := setS c sid _) in H.
  assert (K1 : keeps c c1) by apply keeps_lpi. assert (D1 := dag_k _ _ _ _ _ D K1). assert (N1 : nid < nN c1) by (rewrite (k_nodes _ _ K1); auto).
  destruct ol as [l|]; [|destruct (IH _ _ D1 N1 H) as [A B]; split; [auto|eapply pf_trans; [apply pf_keeps; exact K1|exact B]]].
  apply bind_ok in H as (c2 & H2 & H).
  assert (K2 : keeps c1 c2). { destruct (is_error _) in H2; [eapply keeps_err; eauto|apply ok_inj in H2; subst; apply keeps_refl]. }
  assert (D2 := dag_k _ _ _ _ _ D1 K2). assert (N2 : nid < nN c2) by (rewrite (k_nodes _ _ K2); auto).
  assert (P2 : pf c c2) by (eapply pf_trans; [apply pf_keeps; exact K1|apply pf_keeps; exact K2]).
  destruct (_ && _) in H; [apply ok_inj in H; subst c'; auto|]. apply bind_ok in H as (c3 & H3 & H). apply bind_ok in H as (c4 & H4 & H).
  destruct (dag_add _ _ _ _ _ _ _ D2 N2 H3) as [D3 P3].
  assert (K4 : keeps c3 c4).
  { destruct (_ && _) in H4; [|apply ok_inj in H4; subst; apply keeps_refl]. apply bind_ok in H4 as (w & _ & H4). apply ok_inj in H4. subst c4. destruct (snd w); [eapply keeps_trans; [apply keeps_lpi|apply keeps_tt]|apply keeps_lpi]. }
  assert (D4 := dag_k _ _ _ _ _ D3 K4). assert (P4 : pf c c4) by (eapply pf_trans; [exact P2|]; eapply pf_trans; [exact P3|]; apply pf_keeps; exact K4).
  destruct (IH c4 c' D4 ltac:(rewrite (pf_nN _ _ P4); auto) H) as [D5 P5]. split; [auto|]. eapply pf_trans; eauto.
Qed.

Lemma dag_intersect mp c nid sid c' ok : dag mp c -> intersect_state solve a c nid sid = Ok (c', ok) -> dag mp c' /\ pf c c'.
Proof.
  intros D H. unfold intersect_state in H. apply bind_ok in H as ([[s1 ops] ok1] & H1 & H). apply ok_inj in H. injection H as <- _. unfold intersect_invariant in H1. apply f2_inv in H1.
  assert (K := keeps_set c sid s1 H1). split; [|eapply pf_trans; [apply pf_keeps; exact K|apply pf_push_ops]]. apply dag_push_ops; [exact (dag_k cf a _ _ _ D K)|]. intros o Ho. apply in_map_iff in Ho as (? & Ho & _). discriminate.
Qed.
Lemma dag_cur mp c n : dag mp c -> dag mp (with_cur c n).
Proof. intro D. apply (dag_wait cf a mp c); auto; apply D. Qed.
Lemma dag_left mp c nid sid b : dag mp c -> dag mp (left_invariant c nid sid b) /\ nN (left_invariant c nid sid b) = nN c.
Proof. intro D. split; [apply dag_cur, dag_push; [auto|discriminate]|]. apply (nN_push c nid). Qed.

(** the invariant of the main loop *)
Definition rep_map (c : core) : list ((nat * nat) * list nat) := match c_rep c with Some r => rp_map r | None => [] end.
Record cinv (c : core) : Prop := {
  ci_dag : dag (rep_map c) c;
  ci_cur : forall n, c_cur c = Some n -> n < nN c;
  ci_dw : forall p chs, In (p, chs) (c_dwait c) -> p < nN c /\ forall ch, In ch chs -> ch < nN c;
  ci_rep : forall r, c_rep c = Some r -> rp_parent r < nN c /\ forall ch, In ch (rp_children r) -> ch < nN c }.

Lemma cinv_pf c c' : cinv c -> dag (rep_map c) c' -> c_dwait c' = c_dwait c -> c_rep c' = c_rep c -> nN c <= nN c' -> (forall n, c_cur c' = Some n -> n < nN c') -> cinv c'.
Proof.
  intros V D Ed Er Hn Hc. constructor.
  - unfold rep_map in *. rewrite Er. exact D.
  - exact Hc.
  - intros p chs K. rewrite Ed in K. destruct (ci_dw _ V p chs K) as [K1 K2]. split; [lia|]. intros ch Hch. specialize (K2 ch Hch). lia.
  - intros r K. rewrite Er in K. destruct (ci_rep _ V r K) as [K1 K2]. split; [lia|]. intros ch Hch. specialize (K2 ch Hch). lia.
Qed.

Lemma cinv_cont c nid sid c' : cinv c -> c_cur c = Some nid -> continuous_post solve cf a c nid sid = Ok c' -> cinv c'.
Proof.
  intros V Hc H. assert (Hn := ci_cur _ V nid Hc). assert (D := ci_dag _ V). unfold continuous_post in H.
  assert (L : forall c1 b, dag (rep_map c) c1 -> pf c c1 -> cinv (left_invariant c1 nid sid b)).
  { intros c1 b D1 P1. destruct (dag_left _ c1 nid sid b D1) as [D2 N2]. apply (cinv_pf c); auto; [apply P1|apply P1|rewrite N2, (pf_nN _ _ P1); auto|discriminate]. }
  destruct (_ <=? _) in H; [apply ok_inj in H; subst c'; apply L; [auto|apply pf_refl]|].
  destruct (c_tt c); [apply ok_inj in H; subst c'; apply L; [eapply dag_k; [exact D|apply keeps_tt]|apply pf_keeps, keeps_tt]|].
  apply bind_ok in H as ([c1 ok] & H1 & H). destruct (dag_intersect _ _ _ _ _ _ D H1) as [D1 P1]. destruct (negb ok) in H; [apply ok_inj in H; subst c'; apply L; auto|].
  apply bind_ok in H as (s1 & Hs & H). apply bind_ok in H as (c2 & H2 & H). assert (K := keeps_set c1 sid s1 (f2_step _ _ _ _ Hs)). unfold check_guards in H2.
  assert (Q : pf c (setS c1 sid s1)) by (eapply pf_trans; [exact P1|apply pf_keeps; exact K]).
  assert (Hn2 : nid < nN (setS c1 sid s1)) by (rewrite (pf_nN _ _ Q); auto).
  destruct (dag_guards _ _ _ _ _ _ (dag_k _ _ _ _ _ D1 K) Hn2 H2) as [D2 P2]. assert (Q2 := pf_trans _ _ _ Q P2).
  destruct (m_a _) in H; [|discriminate]. destruct (_ && _) in H; apply ok_inj in H; subst c'; [apply L; auto|].
  apply (cinv_pf c); auto; [apply Q2|apply Q2|rewrite (pf_nN _ _ Q2); auto|]. intros n Kn. rewrite (pf_cur _ _ Q2) in Kn. rewrite (pf_nN _ _ Q2). apply (ci_cur _ V); auto.
Qed.

Lemma nd_wait c w : dag (rep_map c) c -> NoDup w -> (forall o, In o w -> In o (c_wait c)) -> dag (rep_map c) (with_wait c w).
Proof. intros D H1 H2. apply (dag_wait cf a _ c); auto. Qed.

(** popping *)
Lemma pop_ops_ptr c ops mp : dag mp c -> pop_ops cf a c = Ok ops ->
  ops <> [] /\ NoDup ops /\ (forall o, In o ops -> In o (c_wait c) /\ omode c o = omode c (nth 0 ops 0)) /\
  (2 <= List.length ops -> forall o, In o ops -> o_parent (getO c o) <> None) /\ (path_cf cf -> same_path c ops).
Proof.
  intros D Hp. unfold pop_ops in Hp. apply bind_ok in Hp as (ops0 & Hs & Hp). destruct ops0 as [|o0 l0]; [discriminate|]. apply ok_inj in Hp.
  set (ops0 := o0 :: l0) in *.
  assert (P : NoDup ops0 /\ (forall o, In o ops0 -> In o (c_wait c)) /\ (forall o o', In o ops0 -> In o' ops0 -> omode c o = omode c o') /\ (path_cf cf -> same_path c ops0)).
  { unfold strat_pop in Hs. unfold path_cf. destruct (c_wait c) as [|w0 w] eqn:Ew; [discriminate|]. destruct (cf_strat cf) as [g|] eqn:Eg.
    - apply ok_inj in Hs. set (b := best_op a c (ag_pop g) w0 (w0 :: w)) in *.
      assert (Hb : In b (w0 :: w)) by (destruct (best_op_in a c (ag_pop g) (w0 :: w) w0) as [K|K]; [fold b in K; rewrite K; left; auto|exact K]).
      assert (Hin : forall o, In o ops0 -> In o (w0 :: w) /\ same_group c g b o = true). { intros o Ho. rewrite <- Hs in Ho. apply filter_In in Ho. exact Ho. }
      assert (Hg : forall o, In o ops0 -> omode c o = omode c b /\ (ag_path g = true -> o_parent (getO c o) = o_parent (getO c b) /\ o_trans (getO c o) = o_trans (getO c b))).
      { intros o Ho. destruct (Hin o Ho) as [K1 K2]. unfold same_group in K2. apply orb_true_iff in K2 as [K2|K2].
        - apply Nat.eqb_eq in K2. assert (o = b). { apply (d_inj _ _ _ _ D); auto; apply (d_wait _ _ _ _ D); rewrite Ew; auto. } subst o. auto.
        - apply andb_true_iff in K2 as [K2 K3]. apply Nat.eqb_eq in K2. split; [exact K2|]. intro Kp. rewrite Kp in K3. cbn [negb orb] in K3. apply andb_true_iff in K3 as [K4 K3]. apply onat_eqb_eq in K3, K4. auto. }
      split; [rewrite <- Hs, <- Ew; apply NoDup_filter, D|]. split; [intros o Ho; apply Hin; auto|]. split.
      + intros o o' Ho Ho'. destruct (Hg o Ho) as [-> _], (Hg o' Ho') as [-> _]. reflexivity.
      + intros Hd o o' Ho Ho'. destruct (proj2 (Hg o Ho) Hd) as [-> ->], (proj2 (Hg o' Ho') Hd) as [-> ->]. auto.
    - apply ok_inj in Hs. injection Hs as <- <-. split; [constructor; [intros []|constructor]|]. split; [intros o [<-|[]]; left; auto|]. split; [intros o o' [<-|[]] [<-|[]]; auto|intros _ o o' [<-|[]] [<-|[]]; auto]. }
  destruct P as (P1 & P2 & P3 & P4).
  set (ops1 := if is_error (get_mode a (ss_mode (pstate c o0))) then [o0] else ops0) in *.
  assert (Q : ops1 <> [] /\ NoDup ops1 /\ (forall o, In o ops1 -> In o ops0)).
  { unfold ops1. destruct (is_error _); [|split; [discriminate|]; auto].
    split; [discriminate|]. split; [constructor; [intros []|constructor]|]. intros o [<-|[]]; left; auto. }
  destruct Q as (Q1 & Q2 & Q3).
  assert (R : ops <> [] /\ NoDup ops /\ (forall o, In o ops -> In o ops1) /\ (2 <= List.length ops -> forall o, In o ops -> o_parent (getO c o) <> None)).
  { destruct (filter (is_init_op c) ops1) as [|o l] eqn:Ef; subst ops.
    - split; [exact Q1|]. split; [exact Q2|]. split; [auto|]. intros _ o Ho Hn. assert (K : In o (filter (is_init_op c) ops1)) by (apply filter_In; split; [auto|unfold is_init_op; rewrite Hn; auto]). rewrite Ef in K. destruct K.
    - assert (Ho : In o ops1) by (apply (filter_In (is_init_op c)); rewrite Ef; left; auto). split; [discriminate|]. split; [constructor; [intros []|constructor]|]. split; [intros o' [<-|[]]; auto|]. cbn. lia. }
  destruct R as (R1 & R2 & R3 & R5).
  assert (H0 : In (nth 0 ops 0) ops) by (destruct ops; [congruence|left; reflexivity]).
  split; [exact R1|]. split; [exact R2|]. split; [intros o Ho; split; auto|]. split; [exact R5|]. intros HP o o' Ho Ho'. apply (P4 HP); auto.
Qed.

Lemma cinv_pop c c' nid : cinv c -> pop_waiting_list solve arnoldi cf a c = Ok (c', nid) -> cinv c' /\ c_cur c' = Some nid.
Proof.
  intros V H. assert (D := ci_dag _ V). unfold pop_waiting_list in H. apply bind_ok in H as (ops & Hops & H). apply bind_ok in H as (u & _ & H). apply bind_ok in H as (agg & _ & H). apply bind_ok in H as ([c1 n1] & Hm & H).
  apply ok_inj in H. injection H as <- <-. destruct (pop_ops_ptr c ops _ D Hops) as (K1 & K2 & K3 & K4 & K5).
  set (w := filter (fun o => negb (mem o ops)) (c_wait c)) in *.
  assert (D1 : dag (rep_map c) (with_wait c w)). { apply nd_wait; [exact D|apply NoDup_filter, D|]. intros o Ho. apply filter_In in Ho. tauto. }
  assert (Hlt : forall o, In o ops -> o < nO (with_wait c w)) by (intros o Ho; apply K3 in Ho as [Ho _]; apply (d_wait _ _ _ _ D) in Ho; apply Ho).
  assert (D2 : dag (rep_map c) c1).
  { eapply dag_make_node; [exact D1|exact K1|exact K2| |exact K4|exact K5|exact Hm]. intros o Ho. split; [auto|]. destruct (K3 o Ho) as [Q1 Q2]. split; [|split; [|exact Q2]].
    - ccbn. intro K. apply filter_In in K as [_ K]. apply negb_true_iff in K. assert (mem o ops = true) by (apply mem_In; auto). congruence.
    - intro K. unfold pending in K. apply in_concat in K as (os & A1 & A2). apply in_map_iff in A1 as ([[ch k] os'] & A3 & A1). cbn [snd] in A3. subst os'. apply (d_map _ _ _ _ D) in A1 as (_ & _ & _ & A1). apply A1 in A2. tauto. }
  apply make_node_ptr in Hm as (Enid & HN & _ & _ & _ & _ & _ & _ & _ & _ & _ & _ & _ & Hd & Hr & _); [|exact K1|exact Hlt].
  split; [|reflexivity]. change (nN (with_wait c w)) with (nN c) in *. apply (cinv_pf c); auto; [apply dag_cur; auto|ccbn; lia|]. ccbn. intros n [= <-]. lia.
Qed.

Lemma cinv_step_pop c c' : cinv c -> do_step_pop solve arnoldi cf a c = Ok c' -> cinv c'.
Proof.
  intros V H. unfold do_step_pop in H. apply bind_ok in H as ([c1 nid] & H1 & H). destruct (cinv_pop _ _ _ V H1) as [V1 C1]. assert (D1 := ci_dag _ V1).
  assert (L : forall c2 sid b, dag (rep_map c1) c2 -> pf c1 c2 -> cinv (left_invariant c2 nid sid b)).
  { intros c2 sid b D2 P2. destruct (dag_left _ c2 nid sid b D2) as [D3 N3]. apply (cinv_pf c1); auto; [apply P2|apply P2|rewrite N3, (pf_nN _ _ P2); auto|discriminate]. }
  destruct (is_error _) in H; [apply ok_inj in H; subst c'; apply L; [auto|apply pf_refl]|].
  apply bind_ok in H as ([c2 ok] & H2 & H). destruct (dag_intersect _ _ _ _ _ _ D1 H2) as [D2 P2]. destruct ok; apply ok_inj in H; subst c'; [|apply L; auto].
  apply (cinv_pf c1); auto; [apply P2|apply P2|rewrite (pf_nN _ _ P2); auto|]. intros n Kn. rewrite (pf_cur _ _ P2) in Kn. rewrite (pf_nN _ _ P2). apply (ci_cur _ V1); auto.
Qed.
End Dag.
