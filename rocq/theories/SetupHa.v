(** Core.setup_ha keeps the reachable errors (when no transition is time-triggered). *)
From Verif Require Import Base BaseFacts LpModel LpSpec SetSpec LpUtil Automaton StateSet HybridSpec AutoFacts ApiSpec CoreModel CoreSpec.
Open Scope nat_scope.

Definition no_tt (cf : cfg) (a : ha) : Prop := cf_tt cf = true -> forall t, t < List.length (ha_trans a) -> t_tt (get_trans a t) = false.

Lemma get_mode_eq a a' i : ha_modes a' = ha_modes a -> get_mode a' i = get_mode a i.
Proof. unfold get_mode. intros ->. reflexivity. Qed.

Lemma detect_wf a h N a' : wf_ha a -> detect_tt a h N = Ok a' -> wf_ha a'.
Proof.
  intros [W1 W2] H. apply detect_tt_ok in H as (Em & El & HR). assert (EM : forall i, get_mode a' i = get_mode a i) by (intro; apply get_mode_eq; auto). split.
  - intros i Hi. rewrite EM. apply W1. congruence.
  - intros t Ht. rewrite El in Ht. destruct (HR t Ht) as (_ & R1 & R2 & R3 & R4 & _ & R5). destruct (W2 t Ht) as [F1 F2 (g & rhs & Hg & G1 & G2 & G3) F4 F5 F6].
    rewrite Hg in R5. destruct (t_guard (get_trans a' t)) as [[g' rhs']|] eqn:Eg; [|destruct R5]. destruct R5 as (-> & L & _).
    constructor; rewrite ?Em, ?EM, ?R1, ?R2, ?R3, ?R4; auto.
    + exists g, rhs'. split; auto. split; auto. split; [congruence|auto].
    + unfold post_dims in *. rewrite R3. rewrite ?EM. rewrite R1. exact F6.
Qed.

Lemma relaxed_guard inv eps t t' p : relaxed inv eps t t' -> t_tt t' = false -> guard_ok t p -> guard_ok t' p.
Proof.
  intros (_ & _ & _ & _ & _ & _ & R) Hf. unfold guard_ok. destruct (t_guard t) as [[g rhs]|], (t_guard t') as [[g' rhs']|]; try tauto. destruct R as (-> & L & R).
  assert (E : rhs' = rhs).
  { apply nth_ext with (d := 0%Q) (d' := 0%Q); [exact L|]. intros i Hi. assert (Hi2 : i < List.length rhs) by lia. destruct (nth_error rhs i) as [b|] eqn:Eb; [|apply nth_error_None in Eb; lia].
    destruct (R i b Eb) as (b' & Hb' & [->|(_ & K & _)]); [|congruence]. rewrite (nth_error_nth _ _ _ Eb), (nth_error_nth _ _ _ Hb'). reflexivity. }
  rewrite E. auto.
Qed.

Lemma detect_reach a h N a' ru init lax : detect_tt a h N = Ok a' -> (forall t, t < List.length (ha_trans a') -> t_tt (get_trans a' t) = false) ->
  forall m p k n, reach lax ru a init m p k n -> reach lax ru a' init m p k n.
Proof.
  intros H Hf. apply detect_tt_ok in H as (Em & El & HR). assert (EM : forall i, get_mode a' i = get_mode a i) by (intro; apply get_mode_eq; auto).
  induction 1 as [m p Hi Hv|m p k n u p' H IH Hv Hn Hc Hu Ho|t p p' k n Ht H IH Hg Hj Hr].
  - apply R_init; rewrite ?EM; auto.
  - apply R_step with p u; rewrite ?EM; auto.
  - destruct (HR t Ht) as (_ & R1 & R2 & R3 & R4 & R5). rewrite <- R2. apply R_jump with p k; rewrite ?El, ?R1, ?EM; auto.
    + apply (relaxed_guard _ _ _ _ _ (HR t Ht)); [apply Hf; congruence|exact Hg].
    + unfold reset_ok, post_dims in *. rewrite R1, R3, R4, EM. exact Hr.
Qed.
Lemma detect_error a h N a' ru init lax : detect_tt a h N = Ok a' -> (forall t, t < List.length (ha_trans a') -> t_tt (get_trans a' t) = false) ->
  error_reachable lax ru a init -> error_reachable lax ru a' init.
Proof.
  intros H Hf (t & p & k & n & Ht & He & HR & Hg & Hj). pose proof (detect_reach a h N a' ru init lax H Hf _ _ _ _ HR) as HR'.
  apply detect_tt_ok in H as (Em & El & HX). assert (EM : forall i, get_mode a' i = get_mode a i) by (intro; apply get_mode_eq; auto).
  destruct (HX t Ht) as (_ & R1 & R2 & R3 & R4 & R5). exists t, p, k, n. rewrite El, R1, R2, !EM. split; auto. split; auto. split; auto. split; auto.
  apply (relaxed_guard _ _ _ _ _ (HX t Ht)); [apply Hf; congruence|exact Hg].
Qed.

Lemma setup_ha_ok cf a0 a : wf_ha a0 -> setup_ha cf a0 = Ok a -> ha_modes a = ha_modes a0 /\ wf_ha a /\
  (no_tt cf a -> forall ru init, error_reachable 0 ru a0 init -> error_reachable 0 ru a init).
Proof.
  intros W H. unfold setup_ha in H. apply bind_ok in H as (a1 & H1 & H). apply bind_ok in H as (a2 & H2 & H). apply bind_ok in H as (? & _ & H). injection H as <-.
  assert (A : ha_modes a1 = ha_modes a0 /\ wf_ha a1 /\ ((cf_tt cf = true -> forall t, t < List.length (ha_trans a1) -> t_tt (get_trans a1 t) = false) -> forall ru init, error_reachable 0 ru a0 init -> error_reachable 0 ru a1 init)).
  { destruct (cf_tt cf); [|injection H1 as <-; auto]. split; [apply detect_tt_ok in H1; apply H1|]. split; [eapply detect_wf; eauto|]. intros Hf ru init. eapply detect_error; eauto. }
  destruct A as (A1 & A2 & A3). destruct (cf_gs cf); [|injection H2 as <-; auto].
  split; [rewrite (gs_modes a1 a2 H2); exact A1|]. split; [eapply gs_wf; eauto|]. intros Hf ru init HE. apply (gs_error_sup a1 a2 A2 H2). apply A3; [|exact HE].
  intros Ht t Hlt. destruct (gs_trans a1 a2 A2 H2 t Hlt) as ((B1 & B2 & B3 & B4 & B5 & B6 & B7) & _). rewrite <- B6. apply Hf; [exact Ht|]. rewrite (gs_len a1 a2 H2). exact Hlt.
Qed.

Lemma init_ok_modes solve a0 a s : ha_modes a = ha_modes a0 -> init_ok solve a0 s -> init_ok solve a s.
Proof.
  intros E (l & m & Hm & Hn & HA). exists l, m. rewrite E. unfold new_stateset. rewrite (get_mode_eq a0 a m E). auto.
Qed.
Lemma init_of_list_mode solve a ss m p : Forall (init_ok solve a) ss -> init_of_list ss m p -> m < List.length (ha_modes a).
Proof.
  intros HF (s & Hs & <- & _). rewrite Forall_forall in HF. destruct (HF s Hs) as (l & m & Hm & Hn & _). unfold new_stateset in Hn. apply bind_ok in Hn as (bm & _ & Hn). injection Hn as <-. exact Hm.
Qed.
