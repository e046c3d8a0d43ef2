(** A potential that decreases with every step of an analysis without deaggregation and urgent guards. *)
From Verif Require Import Base BaseFacts LpModel LpUtil Automaton StateSet StateFacts CoreModel HeapFacts CoreOps CorePop CoreExt CoreDag CoreDag2 CoreDag3 CoreLive CoreLive2 CoreIvl CoreIvl2 CoreIvl3 AutoFacts.
Open Scope nat_scope.

Section Term.
Variable solve : solver.
Variable cf : cfg.
Variable a : ha.
Variable arnoldi : nat -> option (list Q) -> csr -> option csr -> nat -> list (list Q).
Hypothesis Hnd : forall g, cf_strat cf = Some g -> ag_deagg g = false.
Hypothesis Hur : cf_urgent cf = false.
Let T := List.length (ha_trans a).

Fixpoint w (k : nat) : nat := match k with 0 => 1 | S j => (w j + 1) * (T + 1) end.
Definition wn (l : nat) : nat := w (cf_num cf - l).
Definition wo (l : nat) : nat := S (wn l).
Definition wsum (c : core) (l : list nat) : nat := fold_right (fun o acc => wo (blo (pstate c o)) + acc) 0 l.
Definition phi (c : core) : nat := match c_cur c with Some n => wn (ss_lo (getS c (n_state (getN c n)))) | None => 0 end + wsum c (c_wait c).
Lemma w_pos k : 1 <= w k. Proof. induction k; cbn [w]; nia. Qed.
Lemma w_bound k : w k + 1 <= 2 * (T + 2) ^ k.
Proof. induction k as [|k IH]; cbn [w Nat.pow]; [lia|]. nia. Qed.
Lemma wn_step l : l < cf_num cf -> T * wo (S l) + wn (S l) < wn l.
Proof. intro H. unfold wo, wn. replace (cf_num cf - l) with (S (cf_num cf - S l)) by lia. cbn [w]. nia. Qed.
Lemma wsum_app c l l' : wsum c (l ++ l') = wsum c l + wsum c l'.
Proof. unfold wsum. induction l as [|o l IH]; cbn [app fold_right]; lia. Qed.
Lemma wsum_old c c' l : oldlo c c' -> (forall o, In o l -> o < nO c) -> wsum c' l = wsum c l.
Proof.
  intros O. induction l as [|o l IH]; intro H; [reflexivity|]. unfold wsum in *. cbn [fold_right]. rewrite IH by (intros; apply H; right; auto). destruct O as [O _]. destruct (O o (H o (or_introl eq_refl))) as [-> _]. reflexivity.
Qed.
Lemma wsum_new c l lo : (forall o, In o l -> blo (pstate c o) = lo) -> wsum c l = List.length l * wo lo.
Proof. intro H. unfold wsum. induction l as [|o l IH]; cbn [fold_right List.length]; [lia|]. rewrite IH by (intros; apply H; right; auto). rewrite (H o (or_introl eq_refl)). lia. Qed.
Lemma wsum_filter c ops l o : In o l -> In o ops -> wsum c (filter (fun o => negb (mem o ops)) l) + wo (blo (pstate c o)) <= wsum c l.
Proof.
  assert (F : forall l, wsum c (filter (fun o => negb (mem o ops)) l) <= wsum c l).
  { induction l0 as [|x l0 IH]; [auto|]. unfold wsum in *. cbn [filter fold_right]. destruct (negb _); cbn [fold_right]; lia. }
  intros Hl Ho. induction l as [|x l IH]; [destruct Hl|]. unfold wsum in *. cbn [filter fold_right]. destruct Hl as [->|Hl].
  - assert (E : mem o ops = true) by (apply mem_In; auto). rewrite E. cbn [negb]. specialize (F l). unfold wsum in F. lia.
  - specialize (IH Hl). destruct (negb _); cbn [fold_right]; lia.
Qed.

Lemma nodeagg c : get_deagg_node cf a c = Ok None.
Proof. unfold get_deagg_node. destruct (cf_strat cf) as [g|] eqn:E; [|reflexivity]. rewrite (Hnd g eq_refl). reflexivity. Qed.

Lemma phi_step c c' : linv cf a c -> iv c -> c_rep c = None -> c_dwait c = [] -> is_finished cf c = false -> do_step solve arnoldi cf a c = Ok c' -> phi c' < phi c /\ c_rep c' = None /\ c_dwait c' = [].
Proof.
  intros V I Hr Hd Hf H. assert (D := ci_dag _ _ _ (li_cinv _ _ _ V)). unfold do_step in H. rewrite Hf in H. destruct (cur_state c) as [[nid sid]|] eqn:Ec.
  - apply bind_ok in H as (c1 & H1 & H). apply ok_inj in H. unfold cur_state in Ec. destruct (c_cur c) as [n|] eqn:En; [|discriminate]. destruct (left_inv c n); [discriminate|]. injection Ec as -> <-.
    destruct (iv_cont solve cf a _ _ _ V I En H1) as (I1 & O1 & Q).
    assert (W0 : forall o, In o (c_wait c) -> o < nO c) by (intros o Ho; apply (d_wait _ _ _ _ D); auto).
    assert (Rp : c_rep c1 = None /\ c_dwait c1 = []).
    { assert (P := H1). unfold continuous_post in P. destruct (_ <=? _) in P; [apply ok_inj in P; subst; auto|]. destruct (c_tt c); [apply ok_inj in P; subst; auto|].
      apply bind_ok in P as ([c2 ok] & P1 & P). destruct (dag_intersect solve cf a _ _ _ _ _ _ D P1) as [D2 PF2]. destruct (negb ok) in P; [apply ok_inj in P; subst c1; split; [change (c_rep c2 = None); rewrite (pf_rep _ _ PF2)|change (c_dwait c2 = []); rewrite (pf_dw _ _ PF2)]; auto|].
      apply bind_ok in P as (s1 & Hs1 & P). apply bind_ok in P as (c3 & P2 & P). unfold check_guards in P2. assert (K := keeps_set c2 (n_state (getN c nid)) s1 (f2_step _ _ _ _ Hs1)). assert (D3 := dag_k _ _ _ _ _ D2 K).
      assert (N3 : nid < nN (setS c2 (n_state (getN c nid)) s1)). { rewrite (k_nodes _ _ K). pose proof (pf_nN _ _ PF2). assert (nid < nN c) by (apply live_lt; apply (li_cur _ _ _ V nid En)). lia. }
      destruct (dag_guards solve cf a _ _ _ _ _ _ D3 N3 P2) as [_ PF3]. assert (E3 : c_rep c3 = None /\ c_dwait c3 = []) by (rewrite (pf_rep _ _ PF3), (pf_dw _ _ PF3), (k_rep _ _ K), (k_dw _ _ K), (pf_rep _ _ PF2), (pf_dw _ _ PF2); auto).
      destruct (m_a _) in P; [|discriminate]. destruct (_ && _) in P; apply ok_inj in P; subst c1; auto. }
    assert (Ph : phi c' = phi c1) by (subst c'; reflexivity). split; [|subst c'; exact Rp]. rewrite Ph. unfold phi. rewrite En. destruct Q as [[Q1 Q2]|(Q1 & (new & Q2 & Q3 & Q4) & Q5)].
    + rewrite Q1, Q2, (wsum_old c c1) by auto. assert (1 <= wn (ss_lo (getS c (n_state (getN c nid))))) by apply w_pos. lia.
    + rewrite Q2, wsum_app, (wsum_old c c1 (c_wait c)) by auto. rewrite (wsum_new c1 new (S (ss_lo (getS c (n_state (getN c nid)))))) by (intros o Ho; apply Q4; auto).
      assert (K := wn_step _ Q1). fold T in Q3. set (l := ss_lo (getS c (n_state (getN c nid)))) in *. assert (List.length new * wo (S l) <= T * wo (S l)) by (apply Nat.mul_le_mono_r; auto).
      destruct Q5 as [-> | [-> ->]]; lia.
  - assert (Hcu : c_cur c = None). { unfold cur_state in Ec. destruct (c_cur c) as [n|] eqn:En; [|auto]. destruct (li_cur _ _ _ V n En) as (_ & K & _). rewrite K in Ec. discriminate. }
    unfold doing_replay in H. rewrite Hr, Hd in H. rewrite nodeagg in H. cbn [bind] in H. apply bind_ok in H as (c1 & H1 & H). rewrite Hur in H. assert (E : c1 = c') by (destruct (cur_state c1) as [[? ?]|]; apply ok_inj in H; auto). subst c1. clear H.
    assert (V1 := linv_step_pop solve cf a arnoldi _ _ V Hcu Hr Hd H1). destruct (iv_step_pop solve cf a arnoldi _ _ V I Hcu Hr Hd H1) as (I1 & O1 & ops & lo & P1 & P2 & P3 & (o & P4 & P5) & P6).
    assert (W0 : forall o, In o (c_wait c) -> o < nO c) by (intros o' Ho; apply (d_wait _ _ _ _ D); auto).
    split.
    + unfold phi. rewrite Hcu, P3, (wsum_old c c') by (auto; intros o' Ho; apply filter_In in Ho as [Ho _]; auto). pose proof (wsum_filter c ops (c_wait c) o (P2 o P4) P4) as F. rewrite <- P5 in F. unfold wo in F.
      destruct P6 as [-> | (n & -> & ->)]; lia.
    + unfold do_step_pop in H1. apply bind_ok in H1 as ([c2 n] & H2 & H1). destruct (linv_pop solve cf a arnoldi _ _ _ V Hcu Hr Hd H2) as [V2 C2]. destruct (li_cur _ _ _ V2 n C2) as (_ & _ & A1 & A2).
      destruct (is_error _) in H1; [apply ok_inj in H1; subst c'; auto|]. apply bind_ok in H1 as ([c3 ok] & H3 & H1). destruct (dag_intersect solve cf a _ _ _ _ _ _ (ci_dag _ _ _ (li_cinv _ _ _ V2)) H3) as [_ PF].
      assert (c_rep c3 = None /\ c_dwait c3 = []) by (rewrite (pf_rep _ _ PF), (pf_dw _ _ PF); auto). destruct ok; apply ok_inj in H1; subst c'; auto.
Qed.

Lemma loop_terminates ss : (forall s, In s ss -> start_ok s) -> forall fuel c, reached solve arnoldi cf a ss c -> c_rep c = None -> c_dwait c = [] -> phi c <= fuel -> run_loop solve arnoldi cf a fuel c <> None.
Proof.
  intro Hs. induction fuel as [|f IH]; intros c R Hr Hd Hp; cbn [run_loop]; destruct (is_finished cf c) eqn:Ef; try discriminate.
  - assert (Z : phi c = 0) by lia. unfold phi in Z. unfold is_finished in Ef. destruct (_ && _) in Ef; [discriminate|]. destruct (_ && _) in Ef; [discriminate|]. unfold cur_state in Ef.
    destruct (c_cur c) as [n|] eqn:En; [pose proof (w_pos (cf_num cf - ss_lo (getS c (n_state (getN c n))))); unfold wn in Z; lia|].
    destruct (c_wait c) as [|o l]; [|unfold wsum in Z; cbn [fold_right] in Z; unfold wo in Z; lia]. cbn in Ef. unfold doing_replay in Ef. rewrite Hr, Hd in Ef. discriminate.
  - destruct (do_step solve arnoldi cf a c) as [c1|e] eqn:E; [|discriminate]. destruct (phi_step c c1 (linv_reached _ _ _ _ _ _ R) (iv_reached solve cf a arnoldi ss c Hs R) Hr Hd Ef E) as (P & Hr1 & Hd1).
    apply IH; auto; [eapply r_step; eauto|lia].
Qed.
Lemma setup_phi ss c : (forall s, In s ss -> start_ok s) -> setup solve a ss = Ok c -> c_rep c = None /\ c_dwait c = [] /\ phi c <= List.length ss * (2 * (T + 2) ^ cf_num cf).
Proof.
  intros Hs H. assert (I := iv_setup solve a ss c Hs H). unfold setup in H. apply bind_ok in H as (u & _ & H). apply bind_ok in H as (c1 & H1 & H).
  assert (E : c1 = c) by (destruct (c_wait c1); [discriminate|apply ok_inj in H; auto]). subst c1. clear u H.
  assert (CI : cinit c) by (apply (cinit_setup solve a ss core0); [apply cinit0|exact H1]).
  assert (L : forall ss c0 c', setup_states solve a c0 ss = Ok c' -> List.length (c_wait c') <= List.length (c_wait c0) + List.length ss).
  { clear. induction ss as [|s ss IH]; intros c0 c' H; cbn [setup_states] in H; [apply ok_inj in H; subst; cbn; lia|]. apply bind_ok in H as (f & _ & H). cbn [List.length].
    destruct f; [|apply IH in H; lia]. apply bind_ok in H as ([[s1 ops] ok] & _ & H). destruct ok; [|apply IH in H; lia]. apply IH in H. unfold add_init_state in H. ccbn_in H. rewrite app_length in H. cbn in H. lia. }
  specialize (L ss core0 c H1). cbn [List.length c_wait core0] in L. destruct CI. split; [auto|]. split; [auto|]. unfold phi. rewrite cs_cur. cbn [Nat.add].
  rewrite (wsum_new c (c_wait c) 0).
  - unfold wo, wn. rewrite Nat.sub_0_r. pose proof (w_bound (cf_num cf)). apply Nat.mul_le_mono; lia.
  - intros o Ho. rewrite cs_wait in Ho. apply in_seq in Ho. apply (iv_i _ I); [lia|]. apply cs_ops. lia.
Qed.
End Term.

Lemma setup_ha_count cf a0 a : setup_ha cf a0 = Ok a -> List.length (ha_trans a) = List.length (ha_trans a0).
Proof.
  unfold setup_ha. intro H. apply bind_ok in H as (a1 & H1 & H). apply bind_ok in H as (a2 & H2 & H). apply bind_ok in H as (u & _ & H). apply ok_inj in H. subst a2.
  transitivity (List.length (ha_trans a1)).
  - destruct (cf_gs cf); [|apply ok_inj in H2; subst; auto]. eapply gs_len; exact H2.
  - destruct (cf_tt cf); [|apply ok_inj in H1; subst; auto]. apply detect_tt_ok in H1. apply H1.
Qed.
