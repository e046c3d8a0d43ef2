(** Pointers of the aggregation DAG (aggdag.py AggDag / AggDagNode, deaggregation.py OpTransition): an invariant of every
    run, with no hypothesis on the automaton, the initial states, the solver or the settings. *)
From Verif Require Import Base BaseFacts LpModel LpUtil Automaton StateSet BuildFacts StateFacts CoreModel HeapFacts CoreOps CorePop CoreExt.
Open Scope nat_scope.

Lemma qlen1 {A} (l : list A) : (1 <? List.length l) = true -> 2 <= List.length l.
Proof. intro H. apply Nat.ltb_lt in H. lia. Qed.

Lemma NoDup_snoc {A} (l : list A) x : NoDup l -> ~ In x l -> NoDup (l ++ [x]).
Proof. intros H1 H2. apply NoDup_Add with (a := x) (l := l); [|auto]. rewrite <- (app_nil_r l) at 1. apply Add_app. Qed.

Section Dag.
Variable solve : solver.
Variable cf : cfg.
Variable a : ha.

(** the mode of the poststate of a transition, of the state of a node *)
Definition omode (c : core) (o : nat) : nat := ss_mode (getS c (o_post (getO c o))).
Definition nodemode (c : core) (n : nat) : nat := ss_mode (getS c (n_state (getN c n))).

(** require_same_path, or nothing is ever aggregated *)
Definition path_cf : Prop := match cf_strat cf with Some g => ag_path g = true | None => True end.

Definition same_path (c : core) (os : list nat) : Prop :=
  forall o o', In o os -> In o' os -> o_parent (getO c o) = o_parent (getO c o') /\ o_trans (getO c o) = o_trans (getO c o').

(** [mp]: the transitions of the current replay that do not have their child node yet *)
Definition pending (mp : list ((nat * nat) * list nat)) : list nat := List.concat (map snd mp).

Record dag (mp : list ((nat * nat) * list nat)) (c : core) : Prop := {
  d_child : forall o N, o < nO c -> o_child (getO c o) = Some N -> N < nN c /\ In o (n_parents (getN c N));
  d_ntr : forall N o, N < nN c -> In (NTr o) (n_ops (getN c N)) -> o < nO c /\ o_parent (getO c o) = Some N;
  d_par : forall o M, o < nO c -> o_parent (getO c o) = Some M ->
            M < nN c /\ In (NTr o) (n_ops (getN c M)) /\ exists t, o_trans (getO c o) = Some t /\ omode c o = t_to (get_trans a t);
  d_init : forall o, o < nO c -> o_parent (getO c o) = None -> o_trans (getO c o) = None;
  d_post : forall o, o < nO c -> o_post (getO c o) < nS c;
  d_inj : forall o o', o < nO c -> o' < nO c -> o_post (getO c o) = o_post (getO c o') -> o = o';
  d_parents : forall N, N < nN c -> n_parents (getN c N) <> [] /\ NoDup (n_parents (getN c N)) /\ n_state (getN c N) < nS c /\
      (2 <= List.length (n_parents (getN c N)) -> forall o, o < nO c -> o_post (getO c o) <> n_state (getN c N)) /\
      forall o, In o (n_parents (getN c N)) -> o < nO c /\ o_child (getO c o) <> None /\ omode c o = nodemode c N /\
        (forall M, o_parent (getO c o) = Some M -> M < N) /\
        (2 <= List.length (n_parents (getN c N)) -> o_parent (getO c o) <> None) /\
        (List.length (n_parents (getN c N)) = 1 -> n_state (getN c N) = o_post (getO c o));
  d_path : path_cf -> forall N, N < nN c -> same_path c (n_parents (getN c N));
  d_wait : NoDup (c_wait c) /\ forall o, In o (c_wait c) -> o < nO c /\ o_child (getO c o) = None;
  d_mapnd : NoDup (pending mp);
  d_map : forall ch k os, In ((ch, k), os) mp -> os <> [] /\ ch < nN c /\ k < nN c /\
      forall o, In o os -> o < nO c /\ o_child (getO c o) = None /\ o_parent (getO c o) = Some ch /\ ~ In o (c_wait c) /\ omode c o = nodemode c k /\
        (path_cf -> forall o', In o' (n_parents (getN c k)) -> o_trans (getO c o') = o_trans (getO c o));
  d_roots : forall N, In N (c_roots c) <-> N < nN c /\ exists o, In o (n_parents (getN c N)) /\ o_parent (getO c o) = None;
  d_rootsnd : NoDup (c_roots c) }.

(** ** changes that keep the pointers *)
Record keeps (c c' : core) : Prop := {
  k_ext : ext c c'; k_nS : nS c' = nS c; k_ops : c_ops c' = c_ops c; k_nodes : c_nodes c' = c_nodes c; k_wait : c_wait c' = c_wait c; k_roots : c_roots c' = c_roots c;
  k_dw : c_dwait c' = c_dwait c; k_rep : c_rep c' = c_rep c; k_cur : c_cur c' = c_cur c }.
Lemma keeps_refl c : keeps c c. Proof. constructor; auto using ext_refl. Qed.
Lemma keeps_trans c1 c2 c3 : keeps c1 c2 -> keeps c2 c3 -> keeps c1 c3.
Proof. intros [] []. constructor; try congruence. eapply ext_trans; eauto. Qed.
Lemma keeps_set c i s : frame2 (getS c i) s -> keeps c (setS c i s).
Proof. intro H. constructor; try reflexivity; [apply ext_set2; auto|apply nS_setS]. Qed.
Lemma keeps_lpi c i l : keeps c (setS c i (ss_with_lpi (getS c i) l)).
Proof. apply keeps_set. split; reflexivity. Qed.
Lemma keeps_flags c x y z : keeps c (with_flags c x y z).
Proof. constructor; try reflexivity. apply ext_same; reflexivity. Qed.
Lemma keeps_tt c x : keeps c (with_tt c x).
Proof. constructor; try reflexivity. apply ext_same; reflexivity. Qed.
Lemma keeps_err c sid t l c' : error_reached solve cf a c sid t l = Ok c' -> keeps c c'.
Proof. intro H. apply error_reached_ok in H as (ag & co & ce & -> & _). apply keeps_flags. Qed.
Lemma keeps_put sids : forall ls c, keeps c (put_lps c sids ls).
Proof. induction sids as [|i sids IH]; intros [|l ls] c; cbn [put_lps]; try apply keeps_refl. eapply keeps_trans; [apply keeps_lpi|apply IH]. Qed.

Lemma getO_eq c c' o : c_ops c' = c_ops c -> getO c' o = getO c o. Proof. unfold getO. intros ->. reflexivity. Qed.
Lemma getN_eq c c' o : c_nodes c' = c_nodes c -> getN c' o = getN c o. Proof. unfold getN. intros ->. reflexivity. Qed.

Lemma dag_keeps mp c c' : dag mp c -> ext c c' -> nS c <= nS c' -> c_ops c' = c_ops c -> c_nodes c' = c_nodes c -> c_wait c' = c_wait c -> c_roots c' = c_roots c -> dag mp c'.
Proof.
  intros D E HS EO EN EW ER.
  assert (Go : forall o, getO c' o = getO c o) by (intro; apply getO_eq; auto).
  assert (Gn : forall o, getN c' o = getN c o) by (intro; apply getN_eq; auto).
  assert (Om : forall o, o < nO c -> omode c' o = omode c o) by (intros o Ho; unfold omode; rewrite Go; apply (ex_mode _ _ E); apply (d_post _ _ D); auto).
  assert (Nm : forall n, n < nN c -> nodemode c' n = nodemode c n) by (intros n Hn; unfold nodemode; rewrite Gn; apply (ex_mode _ _ E); apply (d_parents _ _ D); auto).
  constructor; rewrite ?EO, ?EN, ?EW, ?ER; try setoid_rewrite Go; try setoid_rewrite Gn.
  - apply D.
  - apply D.
  - intros o M Ho HM. destruct (d_par _ _ D o M Ho HM) as (K1 & K2 & t & K3 & K4). split; [auto|]. split; [auto|]. exists t. split; [auto|]. rewrite Om; auto.
  - apply D.
  - intros o Ho. pose proof (d_post _ _ D o Ho). lia.
  - apply D.
  - intros N HN. destruct (d_parents _ _ D N HN) as (K1 & K2 & K3 & K4 & K5). split; [auto|]. split; [auto|]. split; [lia|]. split; [auto|]. intros o Ho.
    destruct (K5 o Ho) as (Q1 & Q2 & Q3 & Q4). rewrite Om, Nm by auto. auto.
  - intros HP N HN. unfold same_path. setoid_rewrite Go. apply (d_path _ _ D HP N HN).
  - apply D.
  - apply D.
  - intros ch k os Hin. destruct (d_map _ _ D ch k os Hin) as (K1 & K2 & K3 & K4). split; [auto|]. split; [auto|]. split; [auto|]. intros o Ho. destruct (K4 o Ho) as (Q1 & Q2 & Q3 & Q4 & Q5 & Q6).
    rewrite Om, Nm by auto. auto 10.
  - apply D.
  - apply D.
Qed.
Lemma dag_k mp c c' : dag mp c -> keeps c c' -> dag mp c'.
Proof. intros D []. eapply dag_keeps; eauto. lia. Qed.
(** removing transitions from the waiting list, or any change of the other fields *)
Lemma dag_wait mp c c' : dag mp c -> c_states c' = c_states c -> c_ops c' = c_ops c -> c_nodes c' = c_nodes c -> c_roots c' = c_roots c ->
  NoDup (c_wait c') -> (forall o, In o (c_wait c') -> In o (c_wait c)) -> dag mp c'.
Proof.
  intros D ES EO EN ER W1 W2. assert (D1 : dag mp (with_wait c' (c_wait c))) by (apply (dag_keeps mp c); auto; [apply ext_same; auto|ccbn; rewrite ES; lia]).
  constructor; try apply D1.
  - split; [auto|]. intros o Ho. apply (d_wait _ _ D1). auto.
  - intros ch k os Hin. destruct (d_map _ _ D1 ch k os Hin) as (K1 & K2 & K3 & K4). split; [auto|]. split; [auto|]. split; [auto|]. intros o Ho.
    destruct (K4 o Ho) as (Q1 & Q2 & Q3 & Q4 & Q5 & Q6). split; [exact Q1|]. split; [exact Q2|]. split; [exact Q3|]. split; [|split; [exact Q5|exact Q6]]. intro K. apply Q4. ccbn. auto.
Qed.

(** recording an operation that is not a transition *)
Lemma dag_push mp c n x : dag mp c -> (forall o, x <> NTr o) -> dag mp (push_op c n x).
Proof.
  intros D Hx.
  assert (Hops : forall N o, In (NTr o) (n_ops (getN (push_op c n x) N)) <-> In (NTr o) (n_ops (getN c N))).
  { intros N o. destruct (Nat.eq_dec N n) as [->|Hne]; [|rewrite n_ops_push_ne by auto; tauto]. destruct (lt_dec n (nN c)) as [Hl|Hl].
    - rewrite n_ops_push_eq by auto. rewrite in_app_iff. split; [intros [H|[H|[]]]; [auto|exfalso; eapply Hx; eauto]|auto].
    - unfold getN. ccbn. rewrite nth_upd. destruct (Nat.ltb_spec n (nN c)); [lia|]. rewrite andb_false_r. tauto. }
  assert (Nm : forall N, nodemode (push_op c n x) N = nodemode c N) by (intro N; unfold nodemode; rewrite n_state_push; reflexivity).
  constructor; rewrite ?nN_push; try setoid_rewrite n_parents_push; try setoid_rewrite n_state_push; try setoid_rewrite Hops; try setoid_rewrite Nm; try apply D.
Qed.
Lemma dag_push_ops mp n xs : forall c, dag mp c -> (forall o, ~ In (NTr o) xs) -> dag mp (push_ops c n xs).
Proof.
  unfold push_ops. induction xs as [|x xs IH]; intros c D Hx; [exact D|]. cbn [fold_left]. apply IH; [apply dag_push; [exact D|]|].
  - intros o ->. apply (Hx o). left. reflexivity.
  - intros o Ho. apply (Hx o). right. exact Ho.
Qed.

(** ** a new transition *)
Definition with_new_op (c : core) (s : sset) (x : op) (nid : nat) : core :=
  push_op (with_ops (with_states c (c_states c ++ [s])) (c_ops c ++ [x])) nid (NTr (nO c)).
Lemma dag_new_op mp c s x nid t : dag mp c -> nid < nN c -> o_parent x = Some nid -> o_child x = None -> o_trans x = Some t -> o_post x = nS c -> ss_mode s = t_to (get_trans a t) ->
  let c1 := with_new_op c s x nid in
  dag mp c1 /\ nO c1 = S (nO c) /\ nN c1 = nN c /\ c_wait c1 = c_wait c /\ c_dwait c1 = c_dwait c /\ c_rep c1 = c_rep c /\ c_cur c1 = c_cur c /\ getO c1 (nO c) = x /\ ext c c1 /\
  omode c1 (nO c) = t_to (get_trans a t) /\ ~ In (nO c) (c_wait c) /\ ~ In (nO c) (pending mp) /\ (forall o, o < nO c -> getO c1 o = getO c o).
Proof.
  intros D Hn Hp Hc Ht Hpo Hm. cbn zeta. set (c1 := with_new_op c s x nid).
  assert (E : ext c c1).
  { eapply ext_trans; [apply (ext_addS c s)|]. eapply ext_trans; [apply (ext_addO (with_states c (c_states c ++ [s])) x)|]. apply ext_push. }
  assert (Go : forall o, getO c1 o = if o =? nO c then x else getO c o) by (intro o; apply (getO_add c x o)).
  assert (GoL : forall o, o < nO c -> getO c1 o = getO c o) by (intros o Ho; rewrite Go; destruct (Nat.eqb_spec o (nO c)); [lia|reflexivity]).
  assert (GoN : getO c1 (nO c) = x) by (rewrite Go, Nat.eqb_refl; reflexivity).
  assert (Gs : forall i, getS c1 i = if i =? nS c then s else getS c i) by (intro i; apply (getS_add c s i)).
  assert (GsL : forall i, i < nS c -> getS c1 i = getS c i) by (intros o Ho; rewrite Gs; destruct (Nat.eqb_spec o (nS c)); [lia|reflexivity]).
  assert (HO : nO c1 = S (nO c)) by (unfold c1, with_new_op; ccbn; rewrite app_length; cbn; lia).
  assert (HS : nS c1 = S (nS c)) by (unfold c1, with_new_op; ccbn; rewrite app_length; cbn; lia).
  assert (HN : nN c1 = nN c) by (unfold c1, with_new_op; rewrite nN_push; reflexivity).
  assert (Np : forall N, n_parents (getN c1 N) = n_parents (getN c N)) by (intro N; unfold c1, with_new_op; rewrite n_parents_push; reflexivity).
  assert (Ns : forall N, n_state (getN c1 N) = n_state (getN c N)) by (intro N; unfold c1, with_new_op; rewrite n_state_push; reflexivity).
  assert (No : forall N o, In (NTr o) (n_ops (getN c1 N)) <-> In (NTr o) (n_ops (getN c N)) \/ (N = nid /\ o = nO c)).
  { intros N o. unfold c1, with_new_op. destruct (Nat.eq_dec N nid) as [->|Hne].
    - rewrite n_ops_push_eq by (ccbn; auto). rewrite in_app_iff. cbn [In]. split; [intros [K|[K|[]]]; [left; exact K|right; split; [reflexivity|injection K; auto]]|intros [K|[_ K]]; [left; exact K|right; left; rewrite K; reflexivity]].
    - rewrite n_ops_push_ne by auto. split; [intro K; left; exact K|intros [K|[K _]]; [exact K|congruence]]. }
  assert (Om : forall o, o < nO c -> omode c1 o = omode c o) by (intros o Ho; unfold omode; rewrite GoL, GsL; auto; apply (d_post _ _ D); auto).
  assert (OmN : omode c1 (nO c) = t_to (get_trans a t)) by (unfold omode; rewrite GoN, Hpo, Gs, Nat.eqb_refl; exact Hm).
  assert (Nm : forall N, N < nN c -> nodemode c1 N = nodemode c N) by (intros N HNN; unfold nodemode; rewrite Ns, GsL; auto; apply (d_parents _ _ D); auto).
  assert (Hw : ~ In (nO c) (c_wait c)) by (intro K; apply (d_wait _ _ D) in K; lia).
  assert (Hpe : ~ In (nO c) (pending mp)).
  { intro K. unfold pending in K. apply in_concat in K as (os & K1 & K2). apply in_map_iff in K1 as ([[ch k] os'] & K3 & K1). cbn [snd] in K3. subst os'. apply (d_map _ _ D) in K1 as (_ & _ & _ & K1). apply K1 in K2. lia. }
  assert (PL : forall N o, N < nN c -> In o (n_parents (getN c N)) -> o < nO c) by (intros N o K1 K2; apply (d_parents _ _ D N K1); auto).
  split; [|repeat (split; [first [assumption|reflexivity]|]); auto].
  constructor; rewrite ?HN, ?HO, ?HS; try setoid_rewrite Np; try setoid_rewrite Ns; try setoid_rewrite No.
  - intros o N Ho. destruct (Nat.eq_dec o (nO c)) as [->|Hne]; [rewrite GoN, Hc; discriminate|]. rewrite GoL by lia. apply (d_child _ _ D). lia.
  - intros N o HNN [K|[-> ->]]; [|rewrite GoN; auto]. destruct (d_ntr _ _ D N o HNN K) as [K1 K2]. rewrite GoL by auto. auto.
  - intros o M Ho. destruct (Nat.eq_dec o (nO c)) as [->|Hne].
    + rewrite GoN, Hp. intros [= <-]. split; [auto|]. split; [auto|]. exists t. auto.
    + rewrite GoL, Om by lia. intro K. destruct (d_par _ _ D o M ltac:(lia) K) as (K1 & K2 & K3). auto.
  - intros o Ho. destruct (Nat.eq_dec o (nO c)) as [->|Hne]; [rewrite GoN, Hp; discriminate|]. rewrite GoL by lia. apply (d_init _ _ D). lia.
  - intros o Ho. destruct (Nat.eq_dec o (nO c)) as [->|Hne]; [rewrite GoN, Hpo; lia|]. rewrite GoL by lia. pose proof (d_post _ _ D o). lia.
  - intros o o' Ho Ho'. destruct (Nat.eq_dec o (nO c)) as [->|Hne], (Nat.eq_dec o' (nO c)) as [->|Hne']; [auto| | |].
    + rewrite GoN, Hpo, GoL by lia. pose proof (d_post _ _ D o'). lia.
    + rewrite GoN, Hpo, GoL by lia. pose proof (d_post _ _ D o). lia.
    + rewrite !GoL by lia. apply (d_inj _ _ D); lia.
  - intros N HNN. destruct (d_parents _ _ D N HNN) as (K1 & K2 & K3 & K4 & K5). split; [auto|]. split; [auto|]. split; [lia|]. split.
    + intros Hl o Ho. destruct (Nat.eq_dec o (nO c)) as [->|Hne]; [rewrite GoN, Hpo; lia|]. rewrite GoL by lia. apply K4; [auto|lia].
    + intros o Ho. destruct (K5 o Ho) as (Q1 & Q2 & Q3 & Q4 & Q5 & Q6). rewrite GoL, Om, Nm by auto. auto 10.
  - intros HP N HNN o o' Ho Ho'. rewrite !GoL by (eapply PL; eauto). apply (d_path _ _ D HP N HNN); auto.
  - split; [apply D|]. intros o Ho. apply (d_wait _ _ D) in Ho as [K1 K2]. rewrite GoL by auto. auto.
  - apply D.
  - intros ch k os Hin. destruct (d_map _ _ D ch k os Hin) as (K1 & K2 & K3 & K4). split; [auto|]. split; [auto|]. split; [auto|]. intros o Ho. destruct (K4 o Ho) as (Q1 & Q2 & Q3 & Q4 & Q5 & Q6).
    rewrite GoL, Om, Nm by auto. split; [lia|]. split; [auto|]. split; [auto|]. split; [exact Q4|]. split; [auto|]. intros HP o' Ho'. rewrite GoL by (eapply PL; eauto). auto.
  - intro N. change (c_roots c1) with (c_roots c). rewrite (d_roots _ _ D). split; intros (K1 & o & K2 & K3); (split; [auto|]); exists o; (split; [auto|]); [rewrite GoL by (eapply PL; eauto); auto|rewrite GoL in K3 by (eapply PL; eauto); auto].
  - apply D.
Qed.
Lemma dag_wait_add mp c o : dag mp c -> o < nO c -> o_child (getO c o) = None -> ~ In o (c_wait c) -> ~ In o (pending mp) -> dag mp (with_wait c (c_wait c ++ [o])).
Proof.
  intros D Ho Hc Hw Hp. constructor; try apply D; ccbn.
  - split; [apply NoDup_snoc; [apply D|exact Hw]|]. intros o' Ho'. apply in_app_iff in Ho' as [K|[<-|[]]]; [apply (d_wait _ _ D); auto|auto].
  - intros ch k os Hin. destruct (d_map _ _ D ch k os Hin) as (K1 & K2 & K3 & K4). split; [auto|]. split; [auto|]. split; [auto|]. intros o' Ho'. destruct (K4 o' Ho') as (Q1 & Q2 & Q3 & Q4 & Q5 & Q6).
    split; [exact Q1|]. split; [exact Q2|]. split; [exact Q3|]. split; [|split; [exact Q5|exact Q6]]. rewrite in_app_iff. intros [K|[<-|[]]]; [auto|]. apply Hp. unfold pending. apply in_concat. exists os. split; [|exact Ho'].
    apply in_map_iff. exists (ch, k, os). auto.
Qed.
Lemma pending_add mp k o : exists l1 l2, pending (map_add mp k o) = l1 ++ o :: l2 /\ pending mp = l1 ++ l2.
Proof.
  induction mp as [|[k' os] mp IH]; cbn [map_add]; [exists [], []; auto|]. destruct (_ && _).
  - exists os, (pending mp). unfold pending. cbn [map snd List.concat]. rewrite <- app_assoc. auto.
  - destruct IH as (l1 & l2 & E1 & E2). exists (os ++ l1), l2. unfold pending in *. cbn [map snd List.concat]. rewrite E1, E2, <- !app_assoc. auto.
Qed.
Lemma map_add_in mp k o : forall k' os, In (k', os) (map_add mp k o) -> In (k', os) mp \/ (k' = k /\ (os = [o] \/ exists os0, In (k, os0) mp /\ os = os0 ++ [o])).
Proof.
  induction mp as [|[k1 os1] mp IH]; intros k' os; cbn [map_add].
  - intros [[= <- <-]|[]]. right. auto.
  - destruct ((fst k =? fst k1) && (snd k =? snd k1)) eqn:E.
    + apply andb_true_iff in E as [E1 E2]. apply Nat.eqb_eq in E1, E2. assert (k = k1) by (destruct k, k1; cbn in *; congruence). subst k1.
      intros [[= <- <-]|K]; [|left; right; auto]. right. split; [auto|]. right. exists os1. split; [left; auto|auto].
    + intros [[= <- <-]|K]; [left; left; auto|]. destruct (IH _ _ K) as [K1|[K1 [K2|(os0 & K2 & K3)]]]; [left; right; auto|right; auto|]. right. split; [auto|]. right. exists os0. split; [right; auto|auto].
Qed.
Lemma dag_map_add mp c o ch k : dag mp c -> o < nO c -> o_child (getO c o) = None -> ~ In o (c_wait c) -> ~ In o (pending mp) -> o_parent (getO c o) = Some ch -> ch < nN c -> k < nN c ->
  omode c o = nodemode c k -> (path_cf -> forall o', In o' (n_parents (getN c k)) -> o_trans (getO c o') = o_trans (getO c o)) -> dag (map_add mp (ch, k) o) c.
Proof.
  intros D Ho Hc Hw Hp Hpa Hch Hk Hm Ht. constructor; try apply D.
  - destruct (pending_add mp (ch, k) o) as (l1 & l2 & E1 & E2). rewrite E1. apply NoDup_Add with (a := o) (l := l1 ++ l2); [apply Add_app|]. rewrite <- E2. split; [apply D|exact Hp].
  - intros ch' k' os Hin. destruct (map_add_in _ _ _ _ _ Hin) as [K|[[= -> ->] [->|(os0 & K & ->)]]].
    + apply (d_map _ _ D _ _ _ K).
    + split; [discriminate|]. split; [auto|]. split; [auto|]. intros o' [<-|[]]. auto 10.
    + destruct (d_map _ _ D _ _ _ K) as (K1 & K2 & K3 & K4). split; [destruct os0; discriminate|]. split; [auto|]. split; [auto|]. intros o' Ho'. apply in_app_iff in Ho' as [Ho'|[<-|[]]]; [apply K4; auto|auto 10].
Qed.

(** ** a new node *)
Variable arnoldi : nat -> option (list Q) -> csr -> option csr -> nat -> list (list Q).
Lemma agg_ptr c ops agg c1 s : ops <> [] -> aggregate_states solve arnoldi a c ops agg = Ok (c1, s) ->
  keeps c c1 /\ ss_mode s = omode c (nth 0 ops 0) /\ ss_lo s = minl (map (fun o => ss_lo (pstate c o)) ops) /\ ss_hi s = maxl (map (fun o => ss_hi (pstate c o)) ops) /\
  ss_conc s = false /\ ss_ops s = Some ops /\ ss_step s = 0.
Proof.
  intros Hne H. unfold aggregate_states in H.
  assert (Em : ops <> [] -> ss_mode (getS c (nth 0 (map (fun o => o_post (getO c o)) ops) 0)) = omode c (nth 0 ops 0)) by (destruct ops; [congruence|reflexivity]).
  assert (El : map ss_lo (map (getS c) (map (fun o => o_post (getO c o)) ops)) = map (fun o => ss_lo (pstate c o)) ops) by (rewrite !map_map; reflexivity).
  assert (Eh : map ss_hi (map (getS c) (map (fun o => o_post (getO c o)) ops)) = map (fun o => ss_hi (pstate c o)) ops) by (rewrite !map_map; reflexivity).
  rewrite El, Eh in H.
  rewrite (Em Hne) in H.
  destruct agg as [[[] g]|]; try discriminate.
  - destruct (m_a _) in H; [|discriminate]. apply bind_ok in H as (d & _ & H). apply bind_ok in H as (r & _ & H). apply bind_ok in H as (s' & K & H). apply ok_inj in H. injection H as <- <-.
    apply new_stateset_mode in K as (_ & K1 & K2 & K3 & K4 & K5 & K6 & _). split; [apply keeps_put|]. auto 10.
  - destruct (m_a _) in H; [|discriminate]. apply bind_ok in H as (d & _ & H). apply bind_ok in H as (r & _ & H). apply bind_ok in H as (s' & K & H). apply ok_inj in H. injection H as <- <-.
    apply new_stateset_mode in K as (_ & K1 & K2 & K3 & K4 & K5 & K6 & _). split; [apply keeps_put|]. auto 10.
  - apply bind_ok in H as (l & _ & H). apply bind_ok in H as (s' & K & H). apply ok_inj in H. injection H as <- <-.
    apply new_stateset_mode in K as (_ & K1 & K2 & K3 & K4 & K5 & K6 & _). split; [apply keeps_refl|]. auto 10.
Qed.

Lemma make_node_ptr c ops agg str c' nid : ops <> [] -> (forall o, In o ops -> o < nO c) -> make_node solve arnoldi a c ops agg str = Ok (c', nid) ->
  nid = nN c /\ nN c' = S (nN c) /\ nO c' = nO c /\ ext c c' /\ (forall n, n < nN c -> getN c' n = getN c n) /\
  n_parents (getN c' nid) = ops /\ n_ops (getN c' nid) = [] /\ n_agg (getN c' nid) = agg /\
  (forall o, o_step (getO c' o) = o_step (getO c o) /\ o_parent (getO c' o) = o_parent (getO c o) /\ o_trans (getO c' o) = o_trans (getO c o) /\ o_post (getO c' o) = o_post (getO c o)) /\
  (forall o, In o ops -> o_child (getO c' o) = Some nid) /\ (forall o, ~ In o ops -> o_child (getO c' o) = o_child (getO c o)) /\
  c_cur c' = c_cur c /\ c_wait c' = c_wait c /\ c_dwait c' = c_dwait c /\ c_rep c' = c_rep c /\
  c_roots c' = c_roots c ++ (if existsb (is_init_op c) ops then [nid] else []) /\
  (List.length ops = 1 -> n_state (getN c' nid) = o_post (getO c (nth 0 ops 0)) /\ nS c' = nS c) /\
  (2 <= List.length ops -> n_state (getN c' nid) = nS c /\ nS c' = S (nS c) /\ ss_mode (getS c' (nS c)) = omode c (nth 0 ops 0) /\
     ss_lo (getS c' (nS c)) = minl (map (fun o => ss_lo (pstate c o)) ops) /\ ss_hi (getS c' (nS c)) = maxl (map (fun o => ss_hi (pstate c o)) ops) /\
     ss_conc (getS c' (nS c)) = false /\ ss_ops (getS c' (nS c)) = Some ops).
Proof.
  intros Hne Hl H. assert (E := ext_make_node _ _ _ _ _ _ _ _ _ H). unfold make_node in H. apply bind_ok in H as ([c1 sid] & H1 & H). apply ok_inj in H.
  assert (P : c_ops c1 = c_ops c /\ c_nodes c1 = c_nodes c /\ c_wait c1 = c_wait c /\ c_roots c1 = c_roots c /\ c_dwait c1 = c_dwait c /\ c_rep c1 = c_rep c /\ c_cur c1 = c_cur c /\
    (List.length ops = 1 -> sid = o_post (getO c (nth 0 ops 0)) /\ nS c1 = nS c) /\
    (2 <= List.length ops -> sid = nS c /\ nS c1 = S (nS c) /\ ss_mode (getS c1 (nS c)) = omode c (nth 0 ops 0) /\
       ss_lo (getS c1 (nS c)) = minl (map (fun o => ss_lo (pstate c o)) ops) /\ ss_hi (getS c1 (nS c)) = maxl (map (fun o => ss_hi (pstate c o)) ops) /\ ss_conc (getS c1 (nS c)) = false /\ ss_ops (getS c1 (nS c)) = Some ops)).
  { destruct ops as [|o [|o2 ops]]; [congruence| |].
    - apply ok_inj in H1. injection H1 as <- <-. repeat (split; [reflexivity|]). split; [auto|]. cbn. lia.
    - apply bind_ok in H1 as ([c2 s] & H1 & E2). apply ok_inj in E2. injection E2 as <- <-. apply agg_ptr in H1 as (K & K1 & K2 & K3 & K4 & K5 & K6); [|discriminate]. destruct K as [_ Q1 Q2 Q3 Q4 Q5 Q6 Q7 Q8].
      ccbn. repeat (split; [assumption|]). split; [cbn; lia|]. intros _. split; [exact Q1|]. split; [rewrite app_length; cbn; lia|]. rewrite <- Q1, getS_add, Nat.eqb_refl. auto 10. }
  destruct P as (P1 & P2 & P3 & P4 & P5 & P6 & P7 & P8 & P9).
  set (c2 := setS c1 sid _) in H. pose proof (set_childs_spec ops (nN c2) c2) as Q. cbn zeta in Q. destruct Q as (E1&E2&E3&E4&E5&E6&E7&E8&E9&E10&E11&E12&E13&E14&E15&E16).
  set (c3 := fold_left (fun c o => set_child c o (nN c2)) ops c2) in *. set (c4 := with_nodes c3 (c_nodes c3 ++ [mkNode [] sid ops agg])) in H.
  assert (Er : existsb (fun o => match o_parent (getO c2 o) with None => true | Some _ => false end) ops = existsb (is_init_op c) ops).
  { clear - P1. induction ops as [|o ops IH]; cbn [existsb]; [reflexivity|]. rewrite IH. f_equal. unfold is_init_op. rewrite (getO_eq c c2 o); [reflexivity|exact P1]. }
  rewrite Er in H.
  assert (Enid : nid = nN c) by (injection H as _ <-; unfold c2; ccbn; rewrite P2; reflexivity).
  assert (F : c_states c' = c_states c3 /\ c_ops c' = c_ops c3 /\ c_nodes c' = c_nodes c3 ++ [mkNode [] sid ops agg] /\ c_wait c' = c_wait c /\ c_dwait c' = c_dwait c /\ c_rep c' = c_rep c /\ c_cur c' = c_cur c /\
     c_roots c' = c_roots c ++ (if existsb (is_init_op c) ops then [nid] else [])).
  { assert (T : c_wait c3 = c_wait c /\ c_dwait c3 = c_dwait c /\ c_rep c3 = c_rep c /\ c_cur c3 = c_cur c /\ c_roots c3 = c_roots c) by (rewrite E3, E4, E5, E6, E7; unfold c2; ccbn; rewrite P3, P4, P5, P6, P7; auto).
    destruct T as (T1 & T2 & T3 & T4 & T5). replace (nN c2) with nid in H by (rewrite Enid; unfold c2; ccbn; rewrite P2; reflexivity).
    destruct (existsb (is_init_op c) ops); injection H as <-; unfold c4; ccbn; rewrite ?T5, ?app_nil_r; auto 10. }
  destruct F as (F1 & F2 & F3 & F4 & F5 & F6 & F7 & F8).
  assert (N3 : c_nodes c3 = c_nodes c) by (rewrite E2; unfold c2; ccbn; exact P2).
  rewrite N3 in F3.
  assert (GN : forall n, getN c' n = if n =? nN c then mkNode [] sid ops agg else getN c n).
  { intro n. unfold getN. rewrite F3. apply nth_snoc. }
  assert (GNn : getN c' nid = mkNode [] sid ops agg) by (rewrite GN, Enid, Nat.eqb_refl; reflexivity).
  assert (Go : forall o, getO c' o = getO c3 o) by (intro o; unfold getO; rewrite F2; reflexivity).
  assert (Go2 : forall o, getO c2 o = getO c o) by (intro o; unfold getO, c2; ccbn; rewrite P1; reflexivity).
  assert (N2 : nN c2 = nid) by (rewrite Enid; unfold c2; ccbn; rewrite P2; reflexivity).
  split; [exact Enid|]. split; [rewrite F3, app_length; cbn; lia|]. split; [rewrite F2, E13; unfold c2; ccbn; rewrite P1; reflexivity|]. split; [exact E|].
  split; [intros n Hn; rewrite GN; destruct (Nat.eqb_spec n (nN c)); [lia|reflexivity]|]. rewrite GNn. cbn [n_parents n_ops n_agg n_state].
  split; [reflexivity|]. split; [reflexivity|]. split; [reflexivity|].
  split; [intro o; rewrite Go; destruct (E14 o) as (A1 & A2 & A3 & A4 & _); rewrite A1, A2, A3, A4, Go2; auto|].
  split; [intros o Ho; rewrite Go, <- N2; apply E16; [exact Ho|]; unfold c2; ccbn; rewrite P1; auto|].
  split; [intros o Ho; rewrite Go, E15, Go2 by auto; reflexivity|].
  split; [exact F7|]. split; [exact F4|]. split; [exact F5|]. split; [exact F6|]. split; [exact F8|].
  assert (S' : nS c' = nS c1) by (rewrite F1, E1; unfold c2; apply nS_setS).
  rewrite S'. split; [exact P8|]. intro Hl2. destruct (P9 Hl2) as (A1 & A2 & A3 & A4 & A5 & A6 & A7). split; [exact A1|]. split; [exact A2|].
  assert (Gs : getS c' (nS c) = getS c2 (nS c)) by (unfold getS; rewrite F1, E1; reflexivity).
  rewrite Gs. unfold c2. rewrite <- A1 in *. rewrite getS_set_eq by lia. cbn [ss_mode ss_lo ss_hi ss_conc ss_ops]. auto 10.
Qed.

Lemma dag_make_node mp c ops agg str c' nid : dag mp c -> ops <> [] -> NoDup ops ->
  (forall o, In o ops -> o < nO c /\ ~ In o (c_wait c) /\ ~ In o (pending mp) /\ omode c o = omode c (nth 0 ops 0)) ->
  (2 <= List.length ops -> forall o, In o ops -> o_parent (getO c o) <> None) -> (path_cf -> same_path c ops) ->
  make_node solve arnoldi a c ops agg str = Ok (c', nid) -> dag mp c'.
Proof.
  intros D Hne Hnd Ho Hin Hpa H. apply make_node_ptr in H as (Enid & HN & HO & E & GN & Gp & Go' & Ga & Gf & Gc & Gn & Hcu & Hw & Hd & Hr & Hro & H1 & H2); [|auto|intros o K; apply Ho; auto].
  assert (HS : nS c <= nS c') by (apply (ex_nS _ _ E)).
  assert (G1 : forall o, o_parent (getO c' o) = o_parent (getO c o)) by (intro o; apply Gf).
  assert (G2 : forall o, o_trans (getO c' o) = o_trans (getO c o)) by (intro o; apply Gf).
  assert (G3 : forall o, o_post (getO c' o) = o_post (getO c o)) by (intro o; apply Gf).
  assert (Om : forall o, o < nO c -> omode c' o = omode c o) by (intros o K; unfold omode; rewrite G3; apply (ex_mode _ _ E); apply (d_post _ _ D); auto).
  assert (Nm : forall N, N < nN c -> nodemode c' N = nodemode c N) by (intros N K; unfold nodemode; rewrite GN by auto; apply (ex_mode _ _ E); apply (d_parents _ _ D); auto).
  assert (H0 : In (nth 0 ops 0) ops) by (destruct ops; [congruence|left; reflexivity]).
  assert (Lc : List.length ops = 1 \/ 2 <= List.length ops) by (destruct ops as [|? [|? ?]]; [congruence|left; reflexivity|right; cbn; lia]).
  assert (NmN : nodemode c' nid = omode c (nth 0 ops 0)).
  { unfold nodemode. destruct Lc as [L|L].
    - destruct (H1 L) as [-> _]. fold (omode c (nth 0 ops 0)). rewrite <- (Om (nth 0 ops 0)) by (apply Ho; auto). unfold omode. rewrite G3. reflexivity.
    - destruct (H2 L) as (-> & _ & K & _). exact K. }
  assert (Gch : forall o, o_child (getO c' o) = if in_dec Nat.eq_dec o ops then Some nid else o_child (getO c o)) by (intro o; destruct (in_dec _ _ _); auto).
  constructor; rewrite ?HN, ?HO, ?Hw; try setoid_rewrite G1; try setoid_rewrite G2; try setoid_rewrite G3.
  - intros o N K. rewrite Gch. destruct (in_dec _ _ _) as [Ki|Ki].
    + intros [= <-]. split; [lia|]. rewrite Gp. exact Ki.
    + intro K2. destruct (d_child _ _ D o N K K2) as [K3 K4]. split; [lia|]. rewrite GN by auto. exact K4.
  - intros N o K. destruct (Nat.eq_dec N nid) as [->|Hn]; [rewrite Go'; intros []|]. rewrite GN by lia. intro K2. apply (d_ntr _ _ D); [lia|auto].
  - intros o M K K2. destruct (d_par _ _ D o M K K2) as (K3 & K4 & t & K5 & K6). split; [lia|]. rewrite GN, Om by auto. split; [auto|]. exists t. auto.
  - apply (d_init _ _ D).
  - intros o K. pose proof (d_post _ _ D o K). lia.
  - apply (d_inj _ _ D).
  - intros N K. destruct (Nat.eq_dec N nid) as [->|Hn].
    + rewrite Gp. split; [exact Hne|]. split; [exact Hnd|]. split.
      { destruct Lc as [L|L]; [destruct (H1 L) as [-> ->]; apply (d_post _ _ D), Ho; auto|destruct (H2 L) as (-> & -> & _); lia]. }
      split; [intros L o Ko; destruct (H2 L) as (-> & _); pose proof (d_post _ _ D o Ko); lia|].
      intros o Ki. destruct (Ho o Ki) as (K1 & K2 & K3 & K4). split; [auto|]. split; [rewrite Gc by auto; discriminate|]. split; [rewrite Om, NmN by auto; auto|].
      split; [intros M KM; apply (d_par _ _ D) in KM as (KM & _); [lia|auto]|]. split; [auto|]. intro L. destruct (H1 L) as [-> _]. f_equal. f_equal. destruct ops as [|? [|? ?]]; cbn in *; try lia.
    + rewrite GN by lia. destruct (d_parents _ _ D N ltac:(lia)) as (K1 & K2 & K3 & K4 & K5). split; [auto|]. split; [auto|]. split; [lia|]. split; [auto|]. intros o Ki.
      destruct (K5 o Ki) as (Q1 & Q2 & Q3 & Q4 & Q5 & Q6). rewrite Om, Nm by (auto; lia). split; [auto|]. split; [rewrite Gch; destruct (in_dec _ _ _); [discriminate|auto]|]. auto.
  - intros HP N K o o' Ki Ki'. rewrite !G1, !G2. destruct (Nat.eq_dec N nid) as [->|Hn]; [rewrite Gp in *; apply (Hpa HP); auto|]. rewrite GN in * by lia. apply (d_path _ _ D HP N); auto; lia.
  - split; [apply D|]. intros o K. destruct (proj2 (d_wait _ _ D) o K) as [K1 K2]. split; [auto|]. rewrite Gn; [auto|]. intro Ki. apply Ho in Ki as (_ & Ki & _). auto.
  - apply (d_mapnd _ _ D).
  - intros ch k os Ki. destruct (d_map _ _ D ch k os Ki) as (K1 & K2 & K3 & K4). split; [auto|]. split; [lia|]. split; [lia|]. intros o Kj. destruct (K4 o Kj) as (Q1 & Q2 & Q3 & Q4 & Q5 & Q6).
    rewrite Om, Nm, GN by auto. split; [auto|]. split; [|auto 10]. rewrite Gn; [auto|]. intro Kk. apply Ho in Kk as (_ & _ & Kk & _). apply Kk. unfold pending. apply in_concat. exists os. split; [|auto]. apply in_map_iff. exists (ch, k, os). auto.
  - intro N. rewrite Hro, in_app_iff, (d_roots _ _ D). split.
    + intros [(K1 & o & K2 & K3)|K].
      * split; [lia|]. rewrite GN by auto. eauto.
      * destruct (existsb _ _) eqn:Ee; [|destruct K]. destruct K as [<-|[]]. split; [lia|]. rewrite Gp. apply existsb_exists in Ee as (o & K1 & K2). exists o. split; [auto|]. unfold is_init_op in K2. destruct (o_parent (getO c o)); [discriminate|reflexivity].
    + intros (K1 & o & K2 & K3). destruct (Nat.eq_dec N nid) as [->|Hn].
      * right. rewrite Gp in K2. replace (existsb (is_init_op c) ops) with true; [left; reflexivity|]. symmetry. apply existsb_exists. exists o. split; [auto|]. unfold is_init_op. rewrite K3. reflexivity.
      * left. rewrite GN in K2 by lia. split; [lia|]. eauto.
  - rewrite Hro. destruct (existsb _ _); [|rewrite app_nil_r; apply D]. apply NoDup_snoc; [apply D|]. intro K. apply (d_roots _ _ D) in K as [K _]. lia.
Qed.
End Dag.
