(** Complete solutions of the LP of a state: what stepping and invariant intersection do to them. *)
From Verif Require Import Base BaseFacts LpModel LpSpec SetSpec LpUtil LpFacts LpWf SetFacts SetFacts2 OpsFacts OpsFacts2 OpsFacts3 OpsFacts4
  ApiSpec ApiFacts Automaton StateSet HybridSpec FlowFacts StateFacts StateFacts2 StateFacts3 CoreModel Names CexSpec NameFacts Layout.
From Coq Require Import String.
Open Scope list_scope.
Open Scope nat_scope.

Definition sub_lp (l l' : lp) : Prop := l_names l' = l_names l /\ same_layout l l' /\ forall y, core_sat l' y -> core_sat l y.
Lemma sub_refl l : sub_lp l l.
Proof. split; [reflexivity|]. split; [apply same_layout_refl|auto]. Qed.
Lemma sub_trans l1 l2 l3 : sub_lp l1 l2 -> sub_lp l2 l3 -> sub_lp l1 l3.
Proof. intros (A1 & A2 & A3) (B1 & B2 & B3). split; [congruence|]. split; [eapply same_layout_trans; eauto|auto]. Qed.
Lemma sub_obj_lp l o : sub_lp l (with_obj l o).
Proof. split; [reflexivity|]. split; [repeat split|]. intros y H. exact H. Qed.

Lemma init_layout l v rhs bm ies ri l' i : add_init_constraint l v rhs bm ies ri = Ok (l', i) -> l_names l' = l_names l.
Proof.
  unfold add_init_constraint. intro H. apply bind_ok in H as (b & _ & H). apply bind_ok in H as (u & _ & H). apply bind_ok in H as ([l1 i1] & H1 & H).
  assert (E : l_names l1 = l_names l).
  { destruct ri as [j|]; [|injection H1 as <- <-; reflexivity]. apply bind_ok in H1 as (l2 & H2 & H1). injection H1 as <- <-. unfold set_constraint_rhs in H2. apply bind_ok in H2 as (u2 & _ & H2). injection H2 as <-. reflexivity. }
  apply bind_ok in H as (en & _ & H). apply bind_ok in H as (u2 & _ & H). apply bind_ok in H as (l3 & H3 & H). injection H as <- _. apply names_csr in H3. congruence.
Qed.
Lemma min_dir_csr_layout l r w o l' : set_min_dir_csr l r w o = Ok l' -> l_names l' = l_names l.
Proof. unfold set_min_dir_csr. intro H. apply bind_ok in H as (off & _ & H). apply bind_ok in H as (u & _ & H). injection H as <-. reflexivity. Qed.
Lemma replace_layout solve l old v rhs bm ies l' i st : try_replace_init_constraint solve l old v rhs bm ies = Ok (l', i, st) -> l_names l' = l_names l.
Proof.
  unfold try_replace_init_constraint. intro H. apply bind_ok in H as (b & _ & H). apply bind_ok in H as (oc & _ & H). apply bind_ok in H as (orhs & _ & H). apply bind_ok in H as ([l1 i1] & H1 & H).
  apply init_layout in H1. apply bind_ok in H as (l2 & H2 & H). apply min_dir_csr_layout in H2. apply bind_ok in H as (r & _ & H). destruct r as [vs|].
  - destruct (Qle_bool _ _).
    + apply bind_ok in H as (l3 & H3 & H). injection H as <- _ _. apply names_csr in H3. rewrite H3, names_le. congruence.
    + injection H as <- _ _. congruence.
  - injection H as <- _ _. congruence.
Qed.

Lemma core_to_sat_eq l BM nu IEs x : wf_lp l BM nu IEs -> core_sat l x ->
  exists y, lp_sat l y /\ forall c, (c < l_cvo l \/ uoff l <= c) -> y c = x c.
Proof.
  intros W Hc. destruct (core_to_sat l BM nu IEs x W Hc) as (y & Hy & Hs).
  exists (fun c => if (c <? l_cvo l) || (uoff l <=? c) then x c else y c). split.
  - apply (lp_sat_ext l y); [apply (wf_cols _ _ _ _ W)| |exact Hy]. intros c _. destruct (Nat.ltb_spec c (l_cvo l)), (Nat.leb_spec (uoff l) c); cbn [orb]; try reflexivity; apply Hs; auto.
  - intros c Hcc. destruct (Nat.ltb_spec c (l_cvo l)), (Nat.leb_spec (uoff l) c); cbn [orb]; try reflexivity. lia.
Qed.

Section WithSolver.
Variable solve : solver.
Hypothesis Hsolve : solver_ok solve.
Variable a : ha.
Hypothesis WH : wf_ha a.

Lemma inv_cond_core s x i c s1 o strong : st_ok solve a s x -> nth_error (m_inv (get_mode a (ss_mode s))) i = Some c ->
  inv_cond solve s i c = Ok (s1, o, strong) -> sub_lp (ss_lpi s) (ss_lpi s1).
Proof.
  intros S Hc H. assert (Hx := st_a _ _ _ _ S). assert (Hm := st_mode _ _ _ _ S).
  assert (W : wf_mode (get_mode a (ss_mode s)) x). { destruct WH as [WH' _]. specialize (WH' _ Hm). rewrite Hx in WH'. exact WH'. }
  destruct (wfm_inv _ _ W c (nth_error_In _ _ Hc)) as [Hw Hcols].
  unfold inv_cond in H. apply bind_ok in H as ([l1 r1] & Hci & H). cbn [fst snd] in H.
  assert (Hneg : row_cols_lt (lc_w (lc_negate c)) (lc_row (lc_negate c))).
  { cbn [lc_negate lc_w lc_row]. apply scale_row_cols. rewrite Hw. exact Hcols. }
  destruct (check_intersection_spec solve Hsolve _ _ _ _ _ _ _ Hneg Hci) as ((ob & ->) & _ & _).
  assert (S1 := st_with_obj solve a s x ob S). set (s0 := ss_with_lpi s (with_obj (ss_lpi s) ob)) in *.
  assert (Hsub0 : sub_lp (ss_lpi s) (ss_lpi s0)) by apply sub_obj_lp.
  destruct r1 as [[|]|].
  2:{ injection H as <- <- <-. exact Hsub0. }
  2:{ injection H as <- <- <-. exact Hsub0. }
  destruct (st_wf solve Hsolve _ _ _ S1) as [WL Hpos].
  destruct (st_api _ _ _ _ S1) as (js & Hap & Hjs).
  assert (Hies : match ss_ies s0 with None => [] | Some l => l end = ies_of (get_mode a (ss_mode s0)) (ss_step s0)).
  { rewrite (st_ies _ _ _ _ S1). unfold ies_of. destruct (m_b _); reflexivity. }
  rewrite Hies in H. rewrite (st_bm _ _ _ _ S1) in H.
  assert (Hi : i < List.length (ss_rows s0)).
  { rewrite (st_rows _ _ _ _ S1). apply nth_error_Some. change (ss_mode s0) with (ss_mode s). congruence. }
  eapply sub_trans; [exact Hsub0|].
  destruct (nth i (ss_rows s0) None) as [old|] eqn:Eold.
  - apply bind_ok in H as ([[l2 j] st] & Htr & H). injection H as <- <- <-.
    assert (Hin : In old js). { apply Hjs. rewrite <- Eold. apply nth_In. auto. }
    assert (HI := api_ok solve Hsolve _ _ Hap). destruct HI as (_ & _ & Hdp & _ & HF). rewrite Forall_forall in HF.
    destruct (HF _ Hin) as (Hb & Hie & orow & Hold & Hup).
    destruct (try_replace_wf_in solve Hsolve _ _ _ _ _ _ _ _ _ _ _ _ WL Hdp Hold Hup Hb Hie eq_refl Htr) as (WL2 & SL & Hnc & Ej & Hnew & Hcore & _).
    split; [apply replace_layout in Htr; exact Htr|]. split; [exact SL|]. intros y Hy. apply Hcore in Hy as [Hy _]. exact Hy.
  - apply bind_ok in H as ([l2 j] & Htr & H). injection H as <- <- <-. cbn [fst snd].
    assert (HI := api_ok solve Hsolve _ _ Hap). destruct HI as (_ & _ & Hdp & _ & _).
    destruct (add_init_constraint_in _ _ _ _ _ _ _ _ WL Hdp Htr) as (WL2 & SL & _).
    destruct (add_init_core_None _ _ _ _ _ _ _ _ WL Hdp Htr) as (_ & _ & _ & _ & _ & Hcore).
    split; [apply init_layout in Htr; exact Htr|]. split; [exact SL|]. intros y Hy. apply Hcore in Hy as [Hy _]. exact Hy.
Qed.
Lemma intersect_core cs : forall i s x s' ops ok, st_ok solve a s x ->
  (forall j c, nth_error cs j = Some c -> nth_error (m_inv (get_mode a (ss_mode s))) (i + j) = Some c) ->
  intersect_inv solve s i cs = Ok (s', ops, ok) -> sub_lp (ss_lpi s) (ss_lpi s').
Proof.
  induction cs as [|c cs IH]; intros i s x s' ops ok S Hcs H; cbn [intersect_inv] in H.
  - injection H as <- <- <-. apply sub_refl.
  - apply bind_ok in H as ([[s1 o] st] & H1 & H).
    assert (Hc : nth_error (m_inv (get_mode a (ss_mode s))) i = Some c) by (rewrite <- (Nat.add_0_r i); apply Hcs; auto).
    destruct (inv_cond_ok solve Hsolve _ _ _ _ _ _ _ _ WH S Hc H1) as (S1 & F1 & _). pose proof (inv_cond_core _ _ _ _ _ _ _ S Hc H1) as K.
    assert (Hcs1 : forall j c0, nth_error cs j = Some c0 -> nth_error (m_inv (get_mode a (ss_mode s1))) (Datatypes.S i + j) = Some c0).
    { intros j c0 Hj. destruct F1 as (-> & _). rewrite Nat.add_succ_comm. apply Hcs. exact Hj. }
    assert (K2 : forall s2 o2 k2, intersect_inv solve s1 (Datatypes.S i) cs = Ok (s2, o2, k2) -> sub_lp (ss_lpi s) (ss_lpi s2)).
    { intros s2 o2 k2 H2. eapply sub_trans; [exact K|]. eapply IH; eauto. }
    destruct o as [[|]|]; [|eapply K2; exact H|eapply K2; exact H].
    apply bind_ok in H as (f & Hf & H). destruct f.
    + apply bind_ok in H as ([[s2 ops2] ok2] & H2 & H). injection H as <- <- <-. eapply K2; exact H2.
    + injection H as <- <- <-. exact K.
Qed.
Lemma intersect_sub s x s' ops ok : st_ok solve a s x -> intersect_invariant solve a s = Ok (s', ops, ok) -> sub_lp (ss_lpi s) (ss_lpi s').
Proof. intros S H. unfold intersect_invariant in H. eapply intersect_core; [exact S| |exact H]. intros j c Hj. exact Hj. Qed.

Lemma step_core s x k s' : st_ok solve a s x -> ss_step_to a s k = Ok s' -> ss_step s < k ->
  l_names (ss_lpi s') = l_names (ss_lpi s) ++ inp_names (ss_mode s) (m_nu (get_mode a (ss_mode s))) (k - ss_step s) /\ same_layout (ss_lpi s) (ss_lpi s') /\
  forall y, core_sat (ss_lpi s') y -> core_sat (ss_lpi s) y /\
    forall j, ss_step s <= j < k -> input_ok (get_mode a (ss_mode s)) (fun i => y (uoff (ss_lpi s) + m_nu (get_mode a (ss_mode s)) * j + i)%nat).
Proof.
  intros S H Hlt. assert (Hm := st_mode _ _ _ _ S). assert (Hx := st_a _ _ _ _ S). assert (Hd := st_dims _ _ _ _ S).
  set (m := get_mode a (ss_mode s)) in *.
  assert (W : wf_mode m x). { destruct WH as [WH' _]. specialize (WH' _ Hm). fold m in WH'. rewrite Hx in WH'. exact WH'. }
  unfold ss_step_to in H. fold m in H. apply bind_ok in H as (u & _ & H). destruct (Nat.eqb_spec (k - ss_step s) 0) as [E0|E0]; [lia|].
  rewrite Hx in H. apply bind_ok in H as (l & Hl & H). apply bind_ok in H as ([l2 o2] & Hli & H). injection H as <-. cbn [fst snd ss_lpi] in *.
  destruct (st_api _ _ _ _ S) as (js & Hap & Hjs). fold m in Hap.
  destruct (api_ok solve Hsolve _ _ Hap) as (_ & _ & Hdpos & WL & _).
  assert (Ek : bm_of m (c_nr x) k = m_bm m k). { unfold bm_of. destruct (Nat.eqb_spec k 0); [lia|auto]. }
  assert (Hap1 : api solve l (Some (m_bm m k, m_nu m, ies_of m (ss_step s), js))) by (eapply api_basis; eauto).
  destruct (set_basis_wf _ _ _ _ _ _ WL Hl) as (WL1 & SL1 & _ & _ & Hc1 & _). apply basis_layout in Hl.
  assert (Hst := st_ies _ _ _ _ S). fold m in Hst.
  destruct (m_b m) as [bu|] eqn:Eb.
  - rewrite Hst in Hli. apply bind_ok in Hli as ([l3 i3] & Hadd & Hli). injection Hli as <- <-. cbn [fst snd].
    destruct (add_inputs_ok solve Hsolve m x _ _ _ _ _ _ _ _ _ W Hap1 Hadd) as (G1 & G2 & G3 & G4 & G5).
    apply add_inputs_layout in Hadd. split; [rewrite Hadd, Hl; reflexivity|]. split; [eapply same_layout_trans; eauto|].
    assert (Hlen : List.length (ies_of m (ss_step s)) = ss_step s) by (apply ies_of_length; congruence).
    intros y Hy. apply G5 in Hy as [Hy Hu]. split; [apply Hc1; exact Hy|]. intros j Hj. rewrite <- (same_layout_uoff _ _ SL1). apply Hu. lia.
  - injection Hli as <- <-. split; [rewrite Hl|split; [exact SL1|]].
    + unfold m_nu. rewrite Eb. unfold inp_names. assert (E : forall n, List.concat (repeat (names_of "I" (ss_mode s) 0 0) n) = []) by (induction n; auto). rewrite E, app_nil_r. reflexivity.
    + intros y Hy. split; [apply Hc1; exact Hy|]. intros j _. unfold input_ok. rewrite Eb. exact Logic.I.
Qed.
End WithSolver.
