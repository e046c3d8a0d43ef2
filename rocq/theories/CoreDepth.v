(** Depth of a node in the aggregation DAG (number of transitions from an initial node), and what the elementary steps of
    the analysis add to the DAG. *)
From Verif Require Import Base BaseFacts LpModel LpUtil Automaton StateSet StateFacts CoreModel HeapFacts CoreOps CorePop CoreExt CoreDag CoreDag2 CoreDag3 CoreLive CoreLive2 CoreIvl CoreIvl2 CoreIvl3 LexWf.
Open Scope nat_scope.

Fixpoint dpf (f : nat) (c : core) (n : nat) : nat :=
  match f with
  | 0 => 0
  | S f => match n_parents (getN c n) with
           | [] => 0
           | o :: _ => match o_parent (getO c o) with None => 0 | Some M => S (dpf f c M) end
           end
  end.
Definition dp (c : core) (n : nat) : nat := dpf (S n) c n.
Definition odp (c : core) (o : nat) : nat := match o_parent (getO c o) with None => 0 | Some M => S (dp c M) end.

(** [c'] extends [c]: operations are added to nodes in [L] only, new transitions start in [L] and satisfy [Q] *)
Record fx (L : list nat) (Q : op -> Prop) (c c' : core) : Prop := {
  fx_ext : ext c c'; fx_nN : nN c' = nN c; fx_dw : c_dwait c' = c_dwait c; fx_rep : c_rep c' = c_rep c;
  fx_old : forall o, o < nO c -> getO c' o = getO c o;
  fx_new : forall o, nO c <= o -> o < nO c' -> Q (getO c' o) /\ exists n, In n L /\ o_parent (getO c' o) = Some n;
  fx_nops : forall n, ~ In n L -> n_ops (getN c' n) = n_ops (getN c n);
  fx_wait : forall o, In o (c_wait c') -> In o (c_wait c) \/ nO c <= o }.

Lemma fx_refl L Q c : fx L Q c c.
Proof. constructor; auto using ext_refl. intros; lia. Qed.
Lemma fx_trans L Q c1 c2 c3 : fx L Q c1 c2 -> fx L Q c2 c3 -> fx L Q c1 c3.
Proof.
  intros A B. pose proof (ex_nO _ _ (fx_ext _ _ _ _ A)). pose proof (ex_nO _ _ (fx_ext _ _ _ _ B)). constructor.
  - eapply ext_trans; [apply A|apply B].
  - rewrite (fx_nN _ _ _ _ B). apply A.
  - rewrite (fx_dw _ _ _ _ B). apply A.
  - rewrite (fx_rep _ _ _ _ B). apply A.
  - intros o Ho. rewrite (fx_old _ _ _ _ B) by lia. apply (fx_old _ _ _ _ A); auto.
  - intros o H1 H2. destruct (lt_dec o (nO c2)) as [K|K]; [|apply (fx_new _ _ _ _ B); lia]. rewrite (fx_old _ _ _ _ B) by auto. apply (fx_new _ _ _ _ A); auto.
  - intros n Hn. rewrite (fx_nops _ _ _ _ B) by auto. apply (fx_nops _ _ _ _ A); auto.
  - intros o Ho. apply (fx_wait _ _ _ _ B) in Ho as [Ho|Ho]; [apply (fx_wait _ _ _ _ A) in Ho; auto|right; lia].
Qed.
Lemma fx_incl L L' (Q : op -> Prop) c c' : (forall n, In n L -> In n L') -> fx L Q c c' -> fx L' Q c c'.
Proof.
  intros I A. constructor; try apply A.
  - intros o H1 H2. destruct (fx_new _ _ _ _ A o H1 H2) as (K & n & K1 & K2). split; [auto|]. exists n. auto.
  - intros n Hn. apply (fx_nops _ _ _ _ A). auto.
Qed.
Lemma fx_keeps L Q c c' : keeps c c' -> fx L Q c c'.
Proof.
  intro K. constructor; try apply K.
  - rewrite (k_nodes _ _ K). reflexivity.
  - intros o _. apply getO_eq, K.
  - rewrite (k_ops _ _ K). intros; lia.
  - intros n _. rewrite (getN_eq c c' n); [reflexivity|apply K].
  - rewrite (k_wait _ _ K). auto.
Qed.
Lemma fx_cur L Q c n : fx L Q c (with_cur c n).
Proof. constructor; auto; [apply ext_same; reflexivity|intros o; ccbn; lia]. Qed.
Lemma getN_push c n x m : m <> n -> getN (push_op c n x) m = getN c m.
Proof. intro H. unfold push_op, getN. ccbn. rewrite nth_upd. destruct (Nat.eqb_spec m n); [congruence|]. reflexivity. Qed.
Lemma fx_push L Q c n x : In n L -> fx L Q c (push_op c n x).
Proof.
  intro Hn. constructor; auto; [apply ext_push|apply nN_push| |].
  - intros o H1 H2. ccbn_in H2. lia.
  - intros m Hm. rewrite getN_push by congruence. reflexivity.
Qed.
Lemma fx_push_ops L Q n xs : In n L -> forall c, fx L Q c (push_ops c n xs).
Proof. intro Hn. unfold push_ops. induction xs as [|x xs IH]; intro c; cbn [fold_left]; [apply fx_refl|]. eapply fx_trans; [apply (fx_push L Q c n x Hn)|apply IH]. Qed.
Lemma fx_left L Q c nid sid b : In nid L -> fx L Q c (left_invariant c nid sid b).
Proof. intro H. unfold left_invariant. eapply fx_trans; [apply fx_push; exact H|apply fx_cur]. Qed.

Section Depth.
Variable solve : solver.
Variable cf : cfg.
Variable a : ha.
Notation dag := (dag cf a).

Lemma dpf_ext mp c c' : dag mp c -> ext c c' -> forall f n, n < nN c -> dpf f c' n = dpf f c n.
Proof.
  intros D E. induction f as [|f IH]; intros n Hn; cbn [dpf]; [reflexivity|]. destruct (ex_node _ _ E n Hn) as [_ ->]. destruct (d_parents _ _ _ _ D n Hn) as (_ & _ & _ & _ & P).
  destruct (n_parents (getN c n)) as [|o ps]; [reflexivity|]. destruct (P o (or_introl eq_refl)) as (P1 & _ & _ & P4 & _). destruct (ex_op _ _ E o P1) as (_ & -> & _). destruct (o_parent (getO c o)) as [M|]; [|reflexivity]. f_equal. apply IH. specialize (P4 M eq_refl). lia.
Qed.
Lemma dp_ext mp c c' n : dag mp c -> ext c c' -> n < nN c -> dp c' n = dp c n.
Proof. intros D E Hn. apply (dpf_ext mp); auto. Qed.
Lemma odp_ext mp c c' o : dag mp c -> ext c c' -> o < nO c -> odp c' o = odp c o.
Proof.
  intros D E Ho. unfold odp. destruct (ex_op _ _ E o Ho) as (_ & -> & _). destruct (o_parent (getO c o)) as [M|] eqn:EM; [|reflexivity]. f_equal. apply (dp_ext mp); auto. apply (d_par _ _ _ _ D o M); auto.
Qed.
Lemma dpf_fuel mp c : dag mp c -> forall F f n, f <= F -> n < f -> n < nN c -> dpf f c n = dpf (S n) c n.
Proof.
  intro D. induction F as [|F IH]; intros f n HF Hf Hn; [lia|]. destruct f as [|f]; [lia|]. cbn [dpf]. destruct (d_parents _ _ _ _ D n Hn) as (_ & _ & _ & _ & P).
  destruct (n_parents (getN c n)) as [|o ps]; [reflexivity|]. destruct (P o (or_introl eq_refl)) as (P1 & _ & _ & P4 & _). destruct (o_parent (getO c o)) as [M|]; [|reflexivity]. specialize (P4 M eq_refl). f_equal.
  rewrite (IH f M) by lia. destruct n as [|n]; [lia|]. rewrite (IH (S n) M) by lia. reflexivity.
Qed.
Lemma dp_node mp c n o : path_cf cf -> dag mp c -> n < nN c -> In o (n_parents (getN c n)) -> dp c n = odp c o.
Proof.
  intros HP D Hn Ho. unfold dp, odp. cbn [dpf]. destruct (d_parents _ _ _ _ D n Hn) as (_ & _ & _ & _ & P). assert (SP := d_path _ _ _ _ D HP n Hn).
  destruct (n_parents (getN c n)) as [|p ps]; [destruct Ho|]. destruct (SP o p Ho (or_introl eq_refl)) as [E _]. rewrite E. destruct (P p (or_introl eq_refl)) as (P1 & _ & _ & P4 & _). destruct (o_parent (getO c p)) as [M|]; [|reflexivity]. specialize (P4 M eq_refl).
  f_equal. apply (dpf_fuel mp c D n); lia.
Qed.
Lemma dead_kc mp c c' N : dag mp c -> kc c c' -> live c' N -> N < nN c -> live c N.
Proof.
  intros D [E K]. induction 1 as [N HN H1 H2 IH]. intro HNc. destruct (ex_node _ _ E N HNc) as [_ Ep]. rewrite Ep in *. destruct (d_parents _ _ _ _ D N HNc) as (_ & _ & _ & _ & P). constructor; [auto| |].
  - intros o Ho. destruct (P o Ho) as (P1 & P2 & _). rewrite <- K; auto.
  - intros o M Ho HM. destruct (P o Ho) as (P1 & _ & _ & P4 & _). destruct (ex_op _ _ E o P1) as (_ & Eo & _). rewrite <- Eo in HM. apply (IH o M Ho HM). rewrite Eo in HM. specialize (P4 M HM). lia.
Qed.
Lemma kc_fx L Q c c' : fx L Q c c' -> kc c c'.
Proof. intro F. split; [apply F|]. intros o Ho _. rewrite (fx_old _ _ _ _ F) by auto. reflexivity. Qed.

(** depth is at most the base of the step interval when every transition takes a step *)
Lemma minl_ge l d : l <> [] -> (forall x, In x l -> d <= x) -> d <= minl l.
Proof.
  destruct l as [|x l]; [congruence|]. intros _ H. unfold minl. assert (K : forall l y, d <= y -> (forall x, In x l -> d <= x) -> d <= fold_left Nat.min l y).
  { clear. induction l as [|z l IH]; intros y Hy H; cbn [fold_left]; [auto|]. apply IH; [specialize (H z (or_introl eq_refl)); lia|intros; apply H; right; auto]. }
  apply K; [apply H; left; auto|intros; apply H; right; auto].
Qed.
Lemma dp_blo mp c : path_cf cf -> dag mp c -> iv c -> (forall o, o < nO c -> o_parent (getO c o) <> None -> 1 <= o_step (getO c o)) -> forall n, n < nN c -> dp c n <= blo (getS c (n_state (getN c n))).
Proof.
  intros HP D I H. induction n as [n IH] using lt_wf_ind. intro Hn. destruct (d_parents _ _ _ _ D n Hn) as (P1 & _ & _ & _ & P5).
  assert (K : forall o, In o (n_parents (getN c n)) -> dp c n <= blo (pstate c o)).
  { intros o Ho. rewrite (dp_node mp c n o HP D Hn Ho). destruct (P5 o Ho) as (Q1 & _ & _ & Q4 & _). unfold odp. destruct (o_parent (getO c o)) as [M|] eqn:EM; [|lia]. specialize (Q4 M eq_refl). specialize (IH M Q4 ltac:(lia)).
    destruct (iv_o _ I o M Q1 EM) as [-> _]. specialize (H o Q1). rewrite EM in H. specialize (H ltac:(discriminate)). lia. }
  destruct (n_parents (getN c n)) as [|o [|o2 ps]] eqn:Ep; [congruence| |].
  - destruct (P5 o (or_introl eq_refl)) as (_ & _ & _ & _ & _ & Q). rewrite (Q eq_refl). apply K. left; reflexivity.
  - destruct (iv_n _ I n Hn) as [-> _]; [rewrite Ep; cbn; lia|]. rewrite Ep. apply minl_ge; [discriminate|]. intros x Hx. apply in_map_iff in Hx as (q & <- & Hq). auto.
Qed.

(** ** the elementary steps *)
Variable G : nat -> option nat -> Prop.
Definition GQ (x : op) : Prop := G (o_step x) (o_trans x).
Lemma fx_new_op L mp c s x nid t : dag mp c -> nid < nN c -> In nid L -> o_parent x = Some nid -> o_child x = None -> o_trans x = Some t -> o_post x = nS c -> ss_mode s = t_to (get_trans a t) -> GQ x -> fx L GQ c (with_new_op c s x nid).
Proof.
  intros D Hn HL H1 H2 H3 H4 H5 HG. destruct (dag_new_op cf a mp c s x nid t D Hn H1 H2 H3 H4 H5) as (_ & K1 & K2 & K3 & K4 & K5 & _ & K7 & E & _ & _ & _ & K12). constructor; auto.
  - intros o A B. rewrite K1 in B. replace o with (nO c) by lia. rewrite K7. split; [exact HG|]. exists nid. auto.
  - intros m Hm. unfold with_new_op. rewrite getN_push by congruence. reflexivity.
Qed.
Lemma fx_wait_new L Q c c' o : fx L Q c c' -> nO c <= o -> fx L Q c (with_wait c' (c_wait c' ++ [o])).
Proof.
  intros F Ho. constructor; try apply F.
  - eapply ext_trans; [apply F|apply ext_same; reflexivity].
  - ccbn. intros q Hq. apply in_app_iff in Hq as [Hq|[<-|[]]]; [apply (fx_wait _ _ _ _ F); auto|auto].
Qed.
Lemma fx_add mp c t l sid nid c' : dag mp c -> nid < nN c -> G (ss_step (getS c sid)) (Some t) -> sid < nS c -> add_transition_successor solve cf a c t l sid nid = Ok c' -> fx [nid] GQ c c' /\ ss_step (getS c' sid) = ss_step (getS c sid).
Proof.
  intros D Hn HG Hs H. unfold add_transition_successor in H. apply bind_ok in H as ([c1 o] & H1 & H). apply make_op_ptr in H1 as [[-> ->]|[-> (s & ctr & Hm & _ & _ & ->)]]; apply ok_inj in H.
  - subst c'. split; [apply fx_refl|reflexivity].
  - subst c'. split.
    + match goal with |- fx _ _ _ (with_wait ?z ?w) => change (fx [nid] GQ c (with_wait z (c_wait z ++ [nO c]))) end. apply fx_wait_new; [|auto].
      match goal with |- fx _ _ _ (push_op (with_ops _ (_ ++ [?x])) _ _) => apply (fx_new_op [nid] mp c s x nid t D Hn (or_introl eq_refl) eq_refl eq_refl eq_refl eq_refl Hm HG) end.
    + unfold getS. ccbn. rewrite app_nth1 by auto. reflexivity.
Qed.
Lemma fx_guards mp nid sid ts : forall c c', dag mp c -> nid < nN c -> sid < nS c -> (forall t, In t ts -> G (ss_step (getS c sid)) (Some t)) -> check_guards_loop solve cf a c nid sid ts = Ok c' -> fx [nid] GQ c c'.
Proof.
  induction ts as [|t ts IH]; intros c c' D Hn Hs HG H; cbn [check_guards_loop] in H; [apply ok_inj in H; subst; apply fx_refl|].
  apply bind_ok in H as ([l1 ol] & _ & H). cbn [fst snd] in H. set (c1 := setS c sid _) in H.
  assert (SL : forall c l, sid < nS c -> ss_step (getS (setS c sid (ss_with_lpi (getS c sid) l)) sid) = ss_step (getS c sid)) by (intros c0 l0 H0; rewrite getS_set, Nat.eqb_refl by auto; reflexivity).
  assert (K1 : keeps c c1) by apply keeps_lpi. assert (D1 := dag_k _ _ _ _ _ D K1). assert (S1 : ss_step (getS c1 sid) = ss_step (getS c sid)) by (apply SL; auto). assert (N1 : nid < nN c1) by (rewrite (k_nodes _ _ K1); auto). assert (Z1 : sid < nS c1) by (rewrite (k_nS _ _ K1); auto).
  destruct ol as [l|].
  2:{ eapply fx_trans; [apply fx_keeps; exact K1|]. apply (IH c1 c'); auto. rewrite S1. intros; apply HG; right; auto. }
  apply bind_ok in H as (c2 & H2 & H).
  assert (K2 : keeps c1 c2 /\ c_states c2 = c_states c1). { destruct (is_error _) in H2; [split; [eapply keeps_err; eauto|]; apply error_reached_ok in H2 as (ag & co & ce & -> & _); reflexivity|apply ok_inj in H2; subst; split; [apply keeps_refl|reflexivity]]. }
  destruct K2 as [K2 E2]. assert (S2 : getS c2 sid = getS c1 sid) by (unfold getS; rewrite E2; reflexivity).
  assert (K02 := keeps_trans _ _ _ K1 K2). assert (D2 := dag_k _ _ _ _ _ D1 K2). assert (N2 : nid < nN c2) by (rewrite (k_nodes _ _ K02); auto). assert (Z2 : sid < nS c2) by (rewrite (k_nS _ _ K02); auto).
  destruct (_ && _) in H; [apply ok_inj in H; subst c'; apply fx_keeps; auto|]. apply bind_ok in H as (c3 & H3 & H). apply bind_ok in H as (c4 & H4 & H).
  destruct (dag_add solve cf a _ _ _ _ _ _ _ D2 N2 H3) as [D3 P3]. assert (HG2 : G (ss_step (getS c2 sid)) (Some t)) by (rewrite S2, S1; apply HG; left; auto). destruct (fx_add _ _ _ _ _ _ _ D2 N2 HG2 Z2 H3) as [F3 S3].
  assert (Z3 : sid < nS c3) by (pose proof (ex_nS _ _ (fx_ext _ _ _ _ F3)); lia).
  assert (K4 : keeps c3 c4 /\ ss_step (getS c4 sid) = ss_step (getS c3 sid)).
  { destruct (_ && _) in H4; [|apply ok_inj in H4; subst; split; [apply keeps_refl|reflexivity]]. apply bind_ok in H4 as (w & _ & H4). apply ok_inj in H4. subst c4. destruct (snd w); (split; [|apply SL; auto]); [eapply keeps_trans; [apply keeps_lpi|apply keeps_tt]|apply keeps_lpi]. }
  destruct K4 as [K4 S4]. assert (D4 := dag_k _ _ _ _ _ D3 K4). eapply fx_trans; [apply fx_keeps; exact K02|]. eapply fx_trans; [exact F3|]. eapply fx_trans; [apply fx_keeps; exact K4|]. apply (IH c4 c' D4).
  - rewrite (k_nodes _ _ K4), (fx_nN _ _ _ _ F3). exact N2.
  - rewrite (k_nS _ _ K4). exact Z3.
  - intros t' Ht'. rewrite S4, S3, S2, S1. apply HG. right; auto.
  - exact H.
Qed.
Lemma fx_intersect c nid sid c' ok : intersect_state solve a c nid sid = Ok (c', ok) -> fx [nid] GQ c c'.
Proof.
  intro H. unfold intersect_state in H. apply bind_ok in H as ([[s1 ops] ok1] & H1 & H). apply ok_inj in H. injection H as <- _. unfold intersect_invariant in H1. apply f2_inv in H1.
  eapply fx_trans; [apply fx_keeps; apply (keeps_set c sid s1 H1)|apply fx_push_ops; left; auto].
Qed.
End Depth.
