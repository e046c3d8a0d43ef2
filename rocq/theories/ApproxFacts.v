(** Lemmas for C46: the convex hull approximation. *)
From Verif Require Import Base BaseFacts LpModel LpSpec SetSpec LpUtil ApiSpec LpFacts LpWf SetFacts SetFacts2 MinkFacts ChullFacts ApiFacts Automaton StateSet Approx HybridSpec StateSpec FlowFacts StateFacts.
Open Scope nat_scope.

Section S.
Variable solve : solver.
Hypothesis Hsolve : solver_ok solve.

Lemma api_good l k : api solve l k -> good l.
Proof. intro H. apply (api_ok solve Hsolve) in H. split; apply H. Qed.
Lemma chull_two_api l1 l2 mid hi l nu : good l1 -> good l2 -> aggregate_chull solve 1 [l1; l2] mid hi = Ok l -> 0 < l_dims l1 ->
  api solve l (Some (ident (l_dims l), nu, [], [])) /\ l_dims l = l_dims l1 /\ l_dims l2 = l_dims l1.
Proof.
  intros G1 G2 H Hd. assert (HP := proj2 (aggregate_chull_post solve Hsolve 1 [l1; l2] mid hi l (Forall_cons _ G1 (Forall_cons _ G2 (Forall_nil _))) H)).
  destruct HP as (_ & HD & _). inversion HD as [|? ? D1 HD']; subst. inversion HD' as [|? ? D2 _]; subst.
  split; [|split; congruence]. cbn [aggregate_chull] in H. apply bind_ok in H as (news & Hnews & H). apply bind_ok in H as (L & HL & H).
  apply (go_ok [l1; l2]) in Hnews. subst news. cbn [map] in HL. destruct (chull2_post l1 l2 L G1 G2 HL) as (A & B & _).
  eapply api_from_constraints; [| |exact H|lia].
  - unfold csr_ok, get_full_constraints. cbn. apply Forall_map. exact A.
  - split; [reflexivity|]. unfold get_types. apply Forall_map. exact B.
Qed.

Variable a : ha.
Hypothesis WH : wf_ha a.

(** the second set of the hull is what a step gives *)
Lemma approx_chull_shape s x s' : st_ok solve a s x -> ss_step s = 0 -> apply_approx_chull solve a s = Ok s' ->
  exists s1 l, ss_step1 a s = Ok s1 /\ aggregate_chull solve 1 [ss_lpi s; ss_lpi s1] (ss_mode s) (has_inputs (get_mode a (ss_mode s))) = Ok l /\ s' = ss_with_lpi s l.
Proof.
  intros S E0 H. unfold apply_approx_chull in H. apply bind_ok in H as (c & Hc & H). apply clone_ok in Hc. subst c. apply bind_ok in H as (b & Hb & H). apply bind_ok in H as (o & Ho & H). apply bind_ok in H as (l & Hl & H).
  injection H as <-. assert (Hx := st_a _ _ _ _ S). assert (Hi := st_ies _ _ _ _ S). unfold ss_step1, ss_step_to. rewrite E0. cbn [Nat.leb assert bind Nat.sub Nat.eqb]. rewrite Hx. rewrite Hb. cbn [bind].
  destruct (m_b (get_mode a (ss_mode s))) as [[[b0 uc] ur]|] eqn:Eb.
  - rewrite Hi. cbn [add_inputs]. rewrite Eb, Ho. cbn [bind fst snd]. eexists. exists l. split; [reflexivity|]. cbn [ss_lpi]. split; [exact Hl|reflexivity].
  - rewrite Hi. cbn [bind fst snd]. injection Ho as <-. eexists. exists l. split; [reflexivity|]. cbn [ss_lpi]. split; [exact Hl|reflexivity].
Qed.

Lemma approx_chull_st s x s' : st_ok solve a s x -> ss_step s = 0 -> no_rows s -> apply_approx_chull solve a s = Ok s' -> st_ok solve a s' x.
Proof.
  intros S E0 HN H. destruct (approx_chull_shape s x s' S E0 H) as (s1 & l & H1 & Hl & ->). assert (Hd := st_dims _ _ _ _ S).
  destruct (step_to_ok solve Hsolve a s x _ s1 WH S H1) as (S1 & _). destruct (st_api _ _ _ _ S) as (js & Ap & _). destruct (st_api _ _ _ _ S1) as (js1 & Ap1 & _).
  assert (Hp : 0 < l_dims (ss_lpi s)) by (apply (api_ok solve Hsolve) in Ap as (_ & _ & K & _); exact K).
  destruct (chull_two_api _ _ _ _ l (m_nu (get_mode a (ss_mode s))) (api_good _ _ Ap) (api_good _ _ Ap1) Hl Hp) as (Apl & Dl & _).
  constructor; cbn [ss_with_lpi ss_mode ss_lpi ss_step ss_bm ss_ies ss_rows].
  - exact (st_mode _ _ _ _ S).
  - exact (st_a _ _ _ _ S).
  - congruence.
  - exists []. split; [|intros j Hj; destruct (HN j Hj)]. rewrite E0. unfold bm_of, ies_of. cbn [Nat.eqb seq map]. rewrite Dl, Hd in Apl. destruct (m_b _); exact Apl.
  - exact (st_bm _ _ _ _ S).
  - exact (st_ies _ _ _ _ S).
  - exact (st_rows _ _ _ _ S).
  - intros [c Hc] _. rewrite E0. exists (core_sat l). unfold hasC. destruct (m_b (get_mode a (ss_mode s))) eqn:Eb; [|tauto].
    assert (HI := api_ok solve Hsolve _ _ Apl). destruct HI as (_ & _ & _ & W & _). split.
    + intros y z Hyz Hy. eapply core_sat_ext; [exact W| |exact Hy]. intros c0 Hc0 Hor.
      assert (HW := wf_ies _ _ _ _ W). unfold uoff in Hor. rewrite Hc in *. destruct c as [ier iec]. destruct HW as (H2 & H3 & H4 & _). cbn [List.length] in H4. apply Hyz. lia.
    + intro y. split; [intro Hy; split; auto; intros j Hj; lia|tauto].
Qed.

(** the hull of the set and its successors *)
Lemma approx_chull_set s x s' : st_ok solve a s x -> ss_step s = 0 -> (m_b (get_mode a (ss_mode s)) = None \/ no_rows s) -> apply_approx_chull solve a s = Ok s' ->
  let m := get_mode a (ss_mode s) in
  exists s1, l_dims (ss_lpi s1) = m_dims m /\ (forall q, in_lp (ss_lpi s1) q <-> exists p u, in_lp (ss_lpi s) p /\ input_ok m u /\ one_step m p u q) /\
    (forall t p q z, (0 <= t <= 1)%Q -> in_lp (ss_lpi s) p -> in_lp (ss_lpi s1) q -> veq (m_dims m) z (mix t p q) -> in_lp (ss_lpi s') z) /\
    (bounded (ss_lpi s) -> bounded (ss_lpi s1) -> (exists p, in_lp (ss_lpi s) p) -> (exists p, in_lp (ss_lpi s1) p) -> forall z, in_lp (ss_lpi s') z ->
       exists t p q, (0 <= t <= 1)%Q /\ in_lp (ss_lpi s) p /\ in_lp (ss_lpi s1) q /\ veq (m_dims m) z (mix t p q)).
Proof.
  intros S E0 HN H m. destruct (approx_chull_shape s x s' S E0 H) as (s1 & l & H1 & Hl & ->). exists s1.
  destruct (step_to_ok solve Hsolve a s x _ s1 WH S H1) as (S1 & _ & _ & M1 & _ & _ & _ & _ & _ & _ & F). destruct (st_api _ _ _ _ S) as (js & Ap & _). destruct (st_api _ _ _ _ S1) as (js1 & Ap1 & _).
  assert (G1 := api_good _ _ Ap). assert (G2 := api_good _ _ Ap1).
  assert (HG : Forall good [ss_lpi s; ss_lpi s1]) by (constructor; [exact G1|constructor; [exact G2|constructor]]).
  destruct (aggregate_chull_post solve Hsolve 1 _ _ _ _ HG Hl) as (_ & HP & HD & _ & I1 & I2).
  inversion HD as [|? ? D1 HD']; subst. inversion HD' as [|? ? D2 _]; subst.
  assert (Dm : m_dims m = l_dims l) by (rewrite <- D1, (st_dims _ _ _ _ S); apply m_dims_eq; apply (st_a _ _ _ _ S)).
  assert (HH : forall z, in_hull (l_dims l) [ss_lpi s; ss_lpi s1] z <-> exists t p q, (0 <= t <= 1)%Q /\ in_lp (ss_lpi s) p /\ in_lp (ss_lpi s1) q /\ veq (m_dims m) z (mix t p q)).
  { intro z. change [ss_lpi s; ss_lpi s1] with ([ss_lpi s] ++ [ss_lpi s1]). rewrite hull_app by discriminate. rewrite Dm. split.
    - intros (t & p & q & T0 & T1 & P1 & P2 & V). exists t, p, q. apply hull_single in P1; [|exact D1]. apply hull_single in P2; [|exact D2]. auto.
    - intros (t & p & q & [T0 T1] & P1 & P2 & V). exists t, p, q. split; [exact T0|]. split; [exact T1|]. split; [apply hull_single; auto|]. split; [apply hull_single; auto|exact V]. }
  assert (Ex : m_dims m = c_nr x) by (apply m_dims_eq; apply (st_a _ _ _ _ S)).
  assert (Wm : wf_mode m x). { destruct WH as [WM _]. specialize (WM _ (st_mode _ _ _ _ S)). fold m in WM. unfold m in WM. rewrite (st_a _ _ _ _ S) in WM. exact WM. }
  split; [congruence|]. split; [|split].
  - intro q. rewrite (F HN). rewrite E0. cbn [Nat.sub flow]. fold m. split.
    + intros (p & P1 & r & u & V & U & O). exists p, u. split; [exact P1|]. split; [exact U|]. intros i Hi. rewrite (O i Hi). apply Qplus_comp; [|reflexivity]. symmetry. eapply mapply_ext; [apply (wfm_bm _ _ Wm)| |]; rewrite <- Ex; [exact Hi|exact V].
    + intros (p & u & P1 & U & O). exists p. split; [exact P1|]. exists p, u. split; [intros i _; reflexivity|]. auto.
  - intros t p q z T P1 P2 V. cbn [ss_with_lpi ss_lpi]. apply I1. apply HH. eauto 8.
  - intros B1 B2 N1 N2 z Hz. cbn [ss_with_lpi ss_lpi] in Hz. apply I2 in Hz; [apply HH; exact Hz| |]; (constructor; [assumption|constructor; [assumption|constructor]]).
Qed.
End S.
