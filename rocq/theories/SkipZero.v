(** Making at most one time step in the modes whose dynamics is the identity loses no reachable error. *)
From Verif Require Import Base BaseFacts LpModel LpSpec SetSpec LpFacts SetFacts OpsFacts3 Automaton HybridSpec FlowFacts.
Open Scope nat_scope.

Section Skip.
Variable a : ha.
Hypothesis WH : wf_ha a.
Variable ru ru' : rules.
Variable init : nat -> vec -> Prop.
Hypothesis Hu : ru_urgent ru' = ru_urgent ru.
Hypothesis Hb : ru_bound ru' = ru_bound ru.
Hypothesis Hst : ru_strict ru' = ru_strict ru.
Hypothesis Hid : forall m p u p', m < List.length (ha_modes a) -> is_error (get_mode a m) = false ->
  ru_cap ru' m = true -> input_ok (get_mode a m) u -> one_step (get_mode a m) p u p' -> veq (m_dims (get_mode a m)) p p'.
Hypothesis Hinit : forall m p, init m p -> m < List.length (ha_modes a).

Lemma mode_wf m : m < List.length (ha_modes a) -> is_error (get_mode a m) = false -> exists x, m_a (get_mode a m) = Some x /\ wf_mode (get_mode a m) x /\ m_dims (get_mode a m) = c_nr x.
Proof.
  intros Hm He. pose proof (proj1 WH m Hm) as W. unfold is_error in He. unfold m_dims. destruct (m_a (get_mode a m)) as [x|]; [|discriminate]. eauto.
Qed.
Lemma inv_ok_ext lax m p q : m < List.length (ha_modes a) -> is_error (get_mode a m) = false -> veq (m_dims (get_mode a m)) p q -> inv_ok lax (get_mode a m) p -> inv_ok lax (get_mode a m) q.
Proof.
  intros Hm He E H c Hc. destruct (mode_wf m Hm He) as (x & _ & W & Ed). destruct (wfm_inv _ _ W c Hc) as [_ R]. rewrite Ed in E.
  assert (K := reval_ext_lt _ _ _ _ R E). destruct (H c Hc) as [L|L]; rewrite K in L; auto.
Qed.
Lemma guard_ok_ext t p q : t < List.length (ha_trans a) -> veq (m_dims (get_mode a (t_from (get_trans a t)))) p q -> guard_ok (get_trans a t) p -> guard_ok (get_trans a t) q.
Proof.
  intros Ht E. destruct (wft_guard _ _ (proj2 WH t Ht)) as (g & rhs & Hg & _ & _ & HF). unfold guard_ok. rewrite Hg. apply (poly_ext _ _ _ _ _ HF E).
Qed.
Lemma reset_ok_ext t p q p' : t < List.length (ha_trans a) -> veq (m_dims (get_mode a (t_from (get_trans a t)))) p q -> reset_ok a (get_trans a t) p p' -> reset_ok a (get_trans a t) q p'.
Proof.
  intros Ht E (y & Hy & H). exists y. split; [exact Hy|]. intros i Hi. rewrite (H i Hi). destruct (wft_reset _ _ (proj2 WH t Ht)) as [Hc Hr]. unfold post_dims in Hi.
  apply Qplus_comp; [|reflexivity]. destruct (t_reset (get_trans a t)) as [rc|].
  - destruct (Hr rc eq_refl) as [Hn _]. apply (reval_ext_lt (c_nc rc)); [|rewrite Hn; exact E]. unfold opt_csr_ok, csr_ok in Hc. rewrite Forall_forall in Hc.
    destruct (Nat.lt_ge_cases i (List.length (c_rows rc))) as [L|L]; [apply Hc; apply nth_In; auto|]. rewrite nth_overflow by auto. constructor.
  - apply E. exact Hi.
Qed.

Lemma skip_reach lax m p k n : reach lax ru a init m p k n -> is_error (get_mode a m) = false ->
  exists q k' n', reach lax ru' a init m q k' n' /\ m < List.length (ha_modes a) /\ veq (m_dims (get_mode a m)) p q /\ n' <= n /\ (k = 0 <-> k' = 0).
Proof.
  induction 1 as [m p Hi Hv|m p k n u p' H IH Hv Hn Hc Hiu Ho|t p p' k n Ht H IH Hg Hj Hr]; intro He.
  - exists p, 0, 0. split; [apply R_init; auto|]. split; [eauto|]. split; [apply veq_refl|]. split; [lia|]. tauto.
  - destruct (IH He) as (q & k' & n' & HR & Hm & E & Hle & Hk). destruct (mode_wf m Hm He) as (x & Hx & W & Ed).
    destruct (andb (ru_cap ru' m) (negb (k =? 0))) eqn:Ec.
    + apply andb_true_iff in Ec as [Ec Ek]. apply negb_true_iff, Nat.eqb_neq in Ek. exists q, k', n'. split; [exact HR|]. split; [exact Hm|]. split.
      * apply veq_trans with p; [|exact E]. apply veq_sym. apply (Hid m p u p'); auto.
      * split; [lia|]. lia.
    + exists p', (S k'), (S n'). split.
      * apply R_step with q u; auto.
        -- apply (inv_ok_ext lax m p q); auto.
        -- rewrite Hb. lia.
        -- intro K. rewrite K in Ec. cbn [andb] in Ec. apply negb_false_iff, Nat.eqb_eq in Ec. tauto.
        -- rewrite Ed in E. apply (one_step_ext _ _ Hx W p u p' q p'); auto. apply veq_refl.
      * split; [exact Hm|]. split; [apply veq_refl|]. split; lia.
  - destruct (wft_from _ _ (proj2 WH t Ht)) as [Hf Hfe]. destruct (IH Hfe) as (q & k' & n' & HR & Hm & E & Hle & Hk).
    exists p', 0, n'. split.
    + apply R_jump with q k'; auto.
      * apply (guard_ok_ext t p q); auto.
      * destruct Hj as [Hj Hjs]. split; [|rewrite Hst; intro K; apply (inv_ok_ext lax _ p q); auto]. destruct Hj as [Hj|[Hj1 Hj2]]; [left; lia|]. destruct (Nat.eq_dec k' 0); [|left; lia]. right. split; [congruence|]. apply (inv_ok_ext lax _ p q); auto.
      * apply (reset_ok_ext t p q); auto.
    + split; [apply (wft_to _ _ (proj2 WH t Ht))|]. split; [apply veq_refl|]. split; [lia|tauto].
Qed.
Lemma skip_error lax : error_reachable lax ru a init -> error_reachable lax ru' a init.
Proof.
  intros (t & p & k & n & Ht & He & HR & Hg & Hj). destruct (wft_from _ _ (proj2 WH t Ht)) as [Hf Hfe].
  destruct (skip_reach lax _ _ _ _ HR Hfe) as (q & k' & n' & HR' & Hm & E & Hle & Hk). exists t, q, k', n'. split; [exact Ht|]. split; [exact He|]. split; [exact HR'|]. split; [apply (guard_ok_ext t p q); auto|].
  destruct Hj as [Hj Hjs]. split; [|rewrite Hst; intro K; apply (inv_ok_ext lax _ p q); auto]. destruct Hj as [Hj|[Hj1 Hj2]]; [left; lia|]. destruct (Nat.eq_dec k' 0); [|left; lia]. right. split; [congruence|]. apply (inv_ok_ext lax _ p q); auto.
Qed.
End Skip.
