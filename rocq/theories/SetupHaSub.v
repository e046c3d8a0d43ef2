(** Executions of the automaton after setup_ha are executions of the given automaton (no time-triggered transition). *)
From Verif Require Import Base BaseFacts LpModel LpSpec SetSpec LpUtil Automaton StateSet HybridSpec AutoFacts ApiSpec CoreModel CoreSpec SetupHa.
Open Scope nat_scope.

Lemma relaxed_guard_back inv eps t t' p : relaxed inv eps t t' -> t_tt t' = false -> guard_ok t' p -> guard_ok t p.
Proof.
  intros (_ & _ & _ & _ & _ & _ & R) Hf. unfold guard_ok. destruct (t_guard t) as [[g rhs]|], (t_guard t') as [[g' rhs']|]; try tauto. destruct R as (-> & L & R).
  assert (E : rhs' = rhs).
  { apply nth_ext with (d := 0%Q) (d' := 0%Q); [exact L|]. intros i Hi. assert (Hi2 : i < List.length rhs) by lia. destruct (nth_error rhs i) as [b|] eqn:Eb; [|apply nth_error_None in Eb; lia].
    destruct (R i b Eb) as (b' & Hb' & [->|(_ & K & _)]); [|congruence]. rewrite (nth_error_nth _ _ _ Eb), (nth_error_nth _ _ _ Hb'). reflexivity. }
  rewrite E. auto.
Qed.
Lemma detect_reach_back a h N a' ru init lax : detect_tt a h N = Ok a' -> (forall t, t < List.length (ha_trans a') -> t_tt (get_trans a' t) = false) ->
  forall m p k n, reach lax ru a' init m p k n -> reach lax ru a init m p k n.
Proof.
  intros H Hf. apply detect_tt_ok in H as (Em & El & HR). assert (EM : forall i, get_mode a' i = get_mode a i) by (intro; apply get_mode_eq; auto).
  induction 1 as [m p Hi Hv|m p k n u p' H IH Hv Hn Hc Hu Ho|t p p' k n Ht H IH Hg Hj Hr].
  - apply R_init; rewrite <- ?EM; auto.
  - apply R_step with p u; rewrite <- ?EM; auto.
  - pose proof Ht as Ht'. rewrite El in Ht. destruct (HR t Ht) as (_ & R1 & R2 & R3 & R4 & R5). rewrite R2. rewrite R1 in IH, Hj. rewrite EM in Hj. apply R_jump with p k; auto.
    + apply (relaxed_guard_back _ _ _ _ _ (HR t Ht)); [apply Hf; exact Ht'|exact Hg].
    + unfold reset_ok, post_dims in *. rewrite R1, R3, R4, EM in Hr. exact Hr.
Qed.
Lemma detect_error_back a h N a' ru init lax : detect_tt a h N = Ok a' -> (forall t, t < List.length (ha_trans a') -> t_tt (get_trans a' t) = false) ->
  error_reachable lax ru a' init -> error_reachable lax ru a init.
Proof.
  intros H Hf (t & p & k & n & Ht & He & HR & Hg & Hj). pose proof (detect_reach_back a h N a' ru init lax H Hf _ _ _ _ HR) as HR'. pose proof Ht as Ht'.
  apply detect_tt_ok in H as (Em & El & HX). assert (EM : forall i, get_mode a' i = get_mode a i) by (intro; apply get_mode_eq; auto). rewrite El in Ht.
  destruct (HX t Ht) as (_ & R1 & R2 & R3 & R4 & R5). rewrite R1, ?R2, ?EM in *. exists t, p, k, n. split; auto. split; auto. split; auto. split; auto.
  apply (relaxed_guard_back _ _ _ _ _ (HX t Ht)); [apply Hf; exact Ht'|exact Hg].
Qed.
Lemma setup_ha_sub cf a0 a lax : wf_ha a0 -> setup_ha cf a0 = Ok a -> no_tt cf a -> forall ru init, error_reachable lax ru a init -> error_reachable lax ru a0 init.
Proof.
  intros W H Hn ru init HE. unfold setup_ha in H. apply bind_ok in H as (a1 & H1 & H). apply bind_ok in H as (a2 & H2 & H). apply bind_ok in H as (? & _ & H). injection H as ->.
  assert (W1 : wf_ha a1) by (destruct (cf_tt cf); [eapply detect_wf; eauto|injection H1 as <-; exact W]).
  assert (HE1 : error_reachable lax ru a1 init /\ (cf_tt cf = true -> forall t, t < List.length (ha_trans a1) -> t_tt (get_trans a1 t) = false)).
  { destruct (cf_gs cf); [|injection H2 as ->; auto]. split; [apply (gs_error_sub a1 a W1 H2); exact HE|].
    intros Ht t Hlt. destruct (gs_trans a1 a W1 H2 t Hlt) as ((B1 & B2 & B3 & B4 & B5 & B6 & B7) & _). rewrite <- B6. apply Hn; [exact Ht|]. rewrite (gs_len a1 a H2). exact Hlt. }
  destruct HE1 as [HE1 Hn1]. destruct (cf_tt cf); [|injection H1 as ->; exact HE1]. eapply detect_error_back; eauto.
Qed.
