(** Automata accepted by the construction functions are well formed. *)
From Verif Require Import Base BaseFacts LpModel LpSpec SetSpec LpUtil LpFacts SetFacts SetFacts2 OpsFacts Automaton StateSet HybridSpec StateSpec
  StateFacts2 AutoFacts.
Open Scope nat_scope.

Lemma nth_upd_nth {A} i j (v d : A) l : i < List.length l -> nth j (upd_nth i v l) d = if j =? i then v else nth j l d.
Proof.
  revert i j; induction l as [|x l IH]; intros i j H; [cbn in H; lia|]. destruct i as [|i].
  - unfold upd_nth. cbn [firstn skipn app]. destruct j; reflexivity.
  - unfold upd_nth in *. cbn [firstn skipn app]. destruct j as [|j]; [reflexivity|]. cbn [nth]. cbn in H. rewrite IH by lia. reflexivity.
Qed.

Lemma get_with_mode a i m j : i < List.length (ha_modes a) -> get_mode (with_mode a i m) j = if j =? i then m else get_mode a j.
Proof. intro H. unfold get_mode, with_mode. cbn [ha_modes]. apply nth_upd_nth; auto. Qed.
Lemma get_with_trans a i m j : i < List.length (ha_trans a) -> get_trans (with_trans a i m) j = if j =? i then m else get_trans a j.
Proof. intro H. unfold get_trans, with_trans. cbn [ha_trans]. apply nth_upd_nth; auto. Qed.

Lemma ident_csr_ok n : csr_ok (ident_csr n).
Proof.
  unfold csr_ok, ident_csr. cbn [c_rows c_nc]. apply Forall_map, Forall_forall. intros i Hi. apply in_seq in Hi. constructor; [cbn; lia|constructor].
Qed.

Definition mode_shape (m : mode) : Prop :=
  match m_a m with
  | None => m_inv m = [] /\ m_b m = None
  | Some x => (forall c, In c (m_inv m) -> lc_w c = c_nr x /\ row_cols_lt (c_nr x) (lc_row c)) /\
      match m_b m with
      | None => True
      | Some (b, uc, ur) => csr_ok uc /\ c_nr uc = List.length ur /\ c_nc uc = c_nc b
      end
  end.
Definition trans_shape (a : ha) (t : trans) : Prop :=
  t_from t < List.length (ha_modes a) /\ t_to t < List.length (ha_modes a) /\
  (forall g rhs, t_guard t = Some (g, rhs) -> csr_ok g /\ c_nr g = List.length rhs /\
      Forall (row_cols_lt (m_dims (get_mode a (t_from t)))) (c_rows g)) /\
  (forall r, t_reset t = Some r -> csr_ok r /\ c_nc r = m_dims (get_mode a (t_from t)) /\
      c_nr r = (if is_error (get_mode a (t_to t)) then m_dims (get_mode a (t_from t)) else m_dims (get_mode a (t_to t)))) /\
  mink_ok (t_mink t) /\ (t_reset t = None -> t_mink t = None).
Definition shape (a : ha) : Prop :=
  (forall i, i < List.length (ha_modes a) -> mode_shape (get_mode a i)) /\
  (forall t, t < List.length (ha_trans a) -> trans_shape a (get_trans a t)).

(** replacing a mode by one with the same dynamics *)
Lemma shape_with_mode a i m : i < List.length (ha_modes a) -> shape a -> m_a m = m_a (get_mode a i) -> mode_shape m -> shape (with_mode a i m).
Proof.
  intros Hi [S1 S2] Ha Hm.
  assert (Hg : forall j, m_a (get_mode (with_mode a i m) j) = m_a (get_mode a j)).
  { intro j. rewrite get_with_mode by auto. destruct (Nat.eqb_spec j i); subst; auto. }
  assert (Hd : forall j, m_dims (get_mode (with_mode a i m) j) = m_dims (get_mode a j)) by (intro j; unfold m_dims; rewrite Hg; auto).
  assert (He : forall j, is_error (get_mode (with_mode a i m) j) = is_error (get_mode a j)) by (intro j; unfold is_error; rewrite Hg; auto).
  split.
  - intros j Hj. unfold with_mode in Hj. cbn [ha_modes] in Hj. rewrite upd_nth_length in Hj. rewrite get_with_mode by auto.
    destruct (j =? i); auto.
  - intros t Ht. specialize (S2 t Ht). unfold trans_shape in *. change (get_trans (with_mode a i m) t) with (get_trans a t).
    rewrite !Hd, !He. unfold with_mode at 1 2. cbn [ha_modes]. rewrite upd_nth_length. exact S2.
Qed.
Lemma shape_with_trans a i t : i < List.length (ha_trans a) -> shape a -> trans_shape a t -> shape (with_trans a i t).
Proof.
  intros Hi [S1 S2] Ht. split; [exact S1|]. intros j Hj. unfold with_trans in Hj. cbn [ha_trans] in Hj. rewrite upd_nth_length in Hj.
  rewrite get_with_trans by auto. destruct (j =? i); [exact Ht|apply S2; exact Hj].
Qed.

Section WithSolver.
Variable solve : solver.
Hypothesis Hsolve : solver_ok solve.

Lemma set_guard_ok a i g rhs a' : set_guard solve a i g rhs = Ok a' ->
  exists x, m_a (get_mode a (t_from (get_trans a i))) = Some x /\ (0 < c_nr g -> c_nc g = c_nr x) /\ List.length rhs = c_nr g /\
    (exists p, poly (c_rows g) rhs p) /\ a' = with_trans a i (t_with_guard (get_trans a i) (Some (g, rhs))).
Proof.
  unfold set_guard. destruct (m_a _) as [x|]; [|discriminate]. intro H. apply bind_ok in H as (u & H1 & H). apply bind_ok in H as (f & H2 & H).
  apply bind_ok in H as (u2 & H3 & H). apply bind_ok in H as (u3 & H4 & H). injection H as <-. apply assert_ok in H3, H4. subst f.
  apply (csr_feasible_spec solve Hsolve) in H2 as [H2 H5]. exists x. split; auto. split; [|split; auto; split; auto; apply H5; auto].
  intro Hp. apply Nat.ltb_lt in Hp. rewrite Hp in H1. apply assert_ok, Nat.eqb_eq in H1. exact H1.
Qed.
Lemma set_guard_shape a i g rhs a' : shape a -> i < List.length (ha_trans a) -> csr_ok g -> set_guard solve a i g rhs = Ok a' -> shape a'.
Proof.
  intros S Hi Hok H. apply set_guard_ok in H as (x & Hx & Hc & Hl & _ & ->). apply shape_with_trans; auto.
  destruct (proj2 S i Hi) as (T1 & T2 & T3 & T4 & T5 & T6). split; [exact T1|]. split; [exact T2|]. split; [|split; [exact T4|split; [exact T5|exact T6]]].
  intros g' rhs' E. cbn [t_with_guard t_guard t_from] in *. injection E as <- <-. split; auto. split; [lia|].
  unfold m_dims. rewrite Hx. destruct (c_rows g) as [|r rs] eqn:Eg; [constructor|]. rewrite <- Hc by (unfold c_nr; rewrite Eg; cbn; lia). rewrite <- Eg. exact Hok.
Qed.

Lemma built_shape a : built solve a -> shape a.
Proof.
  induction 1 as [|a n a' _ IH H|a f t n _ IH Hf Ht|a i x a' _ IH Hi Hun Hx H|a i c rhs a' _ IH Hi Hc H|a i b uc ur al a' _ IH Hi Hb Huc H
                 |a i g rhs a' _ IH Hi Hg H|a i a' _ IH Hi H|a i r mk mc a' _ IH Hi Hr Hmk Hmc H|a i bm ie _ IH Hi].
  - split; intros j Hj; cbn in Hj; lia.
  - unfold new_mode in H. apply bind_ok in H as (u & _ & H). injection H as <-. destruct IH as [S1 S2].
    assert (Hnth : forall j d, get_mode (mkHa (ha_modes a ++ [d]) (ha_trans a)) j = if j <? List.length (ha_modes a) then get_mode a j else if j =? List.length (ha_modes a) then d else dmode).
    { intros j d. unfold get_mode. cbn [ha_modes]. destruct (Nat.ltb_spec j (List.length (ha_modes a))); [apply app_nth1; auto|].
      rewrite app_nth2 by lia. destruct (Nat.eqb_spec j (List.length (ha_modes a))) as [->|]; [rewrite Nat.sub_diag; reflexivity|].
      apply nth_overflow. cbn. lia. }
    split.
    + intros j Hj. rewrite Hnth. destruct (Nat.ltb_spec j (List.length (ha_modes a))); [apply S1; auto|].
      destruct (_ =? _); split; reflexivity.
    + intros t Ht. destruct (S2 t Ht) as (T1 & T2 & T3 & T4 & T5 & T6). unfold trans_shape. cbn [ha_modes]. rewrite app_length.
      change (get_trans (mkHa _ (ha_trans a)) t) with (get_trans a t). rewrite !Hnth.
      apply Nat.ltb_lt in T1, T2. rewrite T1, T2. apply Nat.ltb_lt in T1, T2. split; [cbn; lia|split; [cbn; lia|]]. auto.
  - destruct IH as [S1 S2]. split; [exact S1|]. intros j Hj. unfold new_transition in *. cbn [ha_trans] in Hj. rewrite app_length in Hj. cbn in Hj.
    unfold get_trans. cbn [ha_trans]. destruct (Nat.ltb_spec j (List.length (ha_trans a))).
    + rewrite app_nth1 by auto. apply (S2 j); auto.
    + rewrite app_nth2 by lia. replace (j - List.length (ha_trans a)) with 0 by lia. cbn [nth].
      split; [exact Hf|]. split; [exact Ht|]. cbn. split; [discriminate|]. split; [discriminate|]. split; [exact I|auto].
  - unfold set_dynamics in H. apply bind_ok in H as (u & _ & H). injection H as <-. destruct IH as [S1 S2]. destruct Hun as (U1 & U2 & U3).
    split.
    + intros j Hj. unfold with_mode in Hj. cbn [ha_modes] in Hj. rewrite upd_nth_length in Hj. rewrite get_with_mode by auto.
      destruct (j =? i); [|apply S1; auto]. unfold mode_shape, m_with_a. cbn [m_a m_inv m_b]. rewrite U1, U2. split; [intros c []|exact I].
    + intros t Ht. specialize (S2 t Ht). unfold trans_shape in *. change (get_trans (with_mode a i _) t) with (get_trans a t).
      destruct (U3 (get_trans a t)) as [V1 V2]. { unfold get_trans. apply nth_In. exact Ht. }
      rewrite !get_with_mode by auto. apply Nat.eqb_neq in V1, V2. rewrite V1, V2. unfold with_mode. cbn [ha_modes]. rewrite upd_nth_length. exact S2.
  - unfold set_invariant in H. destruct (m_a (get_mode a i)) as [x|] eqn:Ex; [|discriminate]. apply bind_ok in H as (u & H1 & H).
    apply bind_ok in H as (u2 & H2 & H). apply bind_ok in H as (f & H3 & H). apply bind_ok in H as (u3 & H4 & H). injection H as <-.
    apply assert_ok, Nat.eqb_eq in H1. apply shape_with_mode; auto.
    assert (M := proj1 IH i Hi). unfold mode_shape in *. cbn [m_with_inv m_a m_inv m_b]. rewrite Ex in *. destruct M as [M1 M2]. split; [|exact M2].
    intros d Hd. apply in_app_or in Hd as [Hd|Hd]; [apply M1; auto|]. apply in_map_iff in Hd as ([r b] & <- & Hd). cbn [lc_w lc_row fst].
    split; auto. rewrite <- H1. apply in_combine_l in Hd. unfold csr_ok in Hc. rewrite Forall_forall in Hc. apply Hc; auto.
  - unfold set_inputs in H. destruct (m_a (get_mode a i)) as [x|] eqn:Ex; [|discriminate]. apply bind_ok in H as (u & H1 & H). injection H as <-.
    unfold check_inputs in H1. apply bind_ok in H1 as (u2 & H2 & H1). apply bind_ok in H1 as (u3 & H3 & H1). apply assert_ok, Nat.eqb_eq in H2, H3.
    apply shape_with_mode; auto. assert (M := proj1 IH i Hi). unfold mode_shape in *. cbn [m_with_b m_a m_inv m_b]. rewrite Ex in *. destruct M as [M1 M2].
    split; auto.
  - eapply set_guard_shape; eauto.
  - unfold set_guard_true in H. destruct (m_a _) as [x|]; [|discriminate]. eapply set_guard_shape; [exact IH|exact Hi| |exact H]. constructor.
  - unfold set_reset in H. destruct (m_a (get_mode a (t_from (get_trans a i)))) as [x|] eqn:Ex; [|discriminate].
    apply bind_ok in H as (R & H1 & H). apply bind_ok in H as (u & H2 & H). apply bind_ok in H as (u2 & H3 & H). apply bind_ok in H as (k & H4 & H).
    injection H as <-. apply assert_ok, Nat.eqb_eq in H2, H3. apply shape_with_trans; auto.
    destruct (proj2 IH i Hi) as (T1 & T2 & T3 & T4 & T5 & T6).
    assert (HR : csr_ok R).
    { destruct r as [r|]; [injection H1 as <-; exact Hr|]. apply bind_ok in H1 as (? & _ & H1). injection H1 as <-. apply ident_csr_ok. }
    unfold trans_shape. cbn [t_with_reset t_from t_to t_guard t_reset t_mink]. split; [exact T1|]. split; [exact T2|]. split; [exact T3|].
    split; [|split; [|discriminate]].
    + intros r' E. injection E as <-. split; [exact HR|]. unfold m_dims, is_error. rewrite Ex. split; [exact H2|].
      destruct (m_a (get_mode a (t_to (get_trans a i)))) as [y|]; exact H3.
    + destruct mc as [[c rhs]|]; [|injection H4 as <-; exact I]. apply bind_ok in H4 as (? & _ & H4). apply bind_ok in H4 as (? & _ & H4).
      apply bind_ok in H4 as (? & H5 & H4). apply assert_ok, Nat.eqb_eq in H5. apply bind_ok in H4 as (? & _ & H4). apply bind_ok in H4 as (? & _ & H4).
      injection H4 as <-. cbn [mink_ok]. split; [|split; [exact Hmc|auto]]. destruct mk as [mk|]; [exact Hmk|apply ident_csr_ok].
  - apply shape_with_mode; auto. assert (M := proj1 IH i Hi). exact M.
Qed.

Lemma check_transitions_spec a : check_transitions a = Ok tt <->
  forall t, In t (ha_trans a) -> is_error (get_mode a (t_from t)) = false /\ t_guard t <> None /\
    (is_error (get_mode a (t_to t)) = false -> m_dims (get_mode a (t_from t)) = m_dims (get_mode a (t_to t)) \/ t_reset t <> None).
Proof.
  unfold check_transitions. induction (ha_trans a) as [|t ts IH]; [split; [intros _ t []|reflexivity]|].
  cbn [check_trans_list]. unfold is_error, m_dims in *. split.
  - intro H. destruct (m_a (get_mode a (t_from t))) as [x|] eqn:Ex; [|discriminate]. apply bind_ok in H as (u1 & H1 & H).
    apply bind_ok in H as (u2 & H2 & H). apply assert_ok in H1. intros t' [<-|Ht']; [|apply (proj1 IH H t' Ht')].
    rewrite Ex. split; auto. split; [destruct (t_guard t); congruence|]. intro He. destruct (m_a (get_mode a (t_to t))) as [y|]; [|discriminate].
    apply assert_ok in H2. apply orb_true_iff in H2 as [H2|H2]; [left; apply Nat.eqb_eq; auto|right; destruct (t_reset t); congruence].
  - intro H. destruct (H t (or_introl eq_refl)) as (A1 & A2 & A3). destruct (m_a (get_mode a (t_from t))) as [x|] eqn:Ex; [|discriminate].
    destruct (t_guard t) eqn:Eg; [|congruence]. cbn [assert bind].
    assert (IHH : check_trans_list a ts = Ok tt) by (apply IH; intros t' Ht'; apply H; right; auto).
    destruct (m_a (get_mode a (t_to t))) as [y|]; [|exact IHH]. destruct (A3 eq_refl) as [A|A].
    + apply Nat.eqb_eq in A. rewrite A. exact IHH.
    + destruct (t_reset t); [|congruence]. rewrite orb_true_r. exact IHH.
Qed.

Lemma built_wf a : built solve a -> check_transitions a = Ok tt ->
  (forall i x, i < List.length (ha_modes a) -> m_a (get_mode a i) = Some x -> 0 < c_nr x /\ elapse_ok (get_mode a i) x) -> wf_ha a.
Proof.
  intros HB HC HE. apply built_shape in HB as [S1 S2]. rewrite check_transitions_spec in HC. split.
  - intros i Hi. specialize (S1 i Hi). unfold mode_shape in S1. destruct (m_a (get_mode a i)) as [x|] eqn:Ex; [|apply S1].
    destruct (HE i x Hi Ex) as (P & E1 & E2 & E3). destruct S1 as [M1 M2]. constructor; auto.
    destruct (m_b (get_mode a i)) as [[[b uc] ur]|]; [|exact I]. destruct M2 as (? & ? & ?). destruct E3. auto.
  - intros t Ht. destruct (S2 t Ht) as (T1 & T2 & T3 & T4 & T5 & T6). destruct (HC (get_trans a t)) as (C1 & C2 & C3); [apply nth_In; exact Ht|].
    assert (HP : forall i, i < List.length (ha_modes a) -> is_error (get_mode a i) = false -> 0 < m_dims (get_mode a i)).
    { intros i Hi He. unfold is_error, m_dims in *. destruct (m_a (get_mode a i)) as [x|] eqn:Ex; [|discriminate]. apply (HE i x Hi Ex). }
    constructor; auto.
    + destruct (t_guard (get_trans a t)) as [[g rhs]|] eqn:Eg; [|congruence]. exists g, rhs. split; auto.
    + split.
      * destruct (t_reset (get_trans a t)) as [r|] eqn:Er; [|exact I]. apply (T4 r eq_refl).
      * intros r Er. destruct (T4 r Er) as (R1 & R2 & R3). split; auto. rewrite R3. destruct (is_error (get_mode a (t_to (get_trans a t)))) eqn:Ee; apply HP; auto.
    + intro He. unfold post_dims. destruct (t_reset (get_trans a t)) as [r|] eqn:Er.
      * destruct (T4 r eq_refl) as (R1 & R2 & R3). rewrite He in R3. exact R3.
      * destruct (C3 He) as [C|C]; [exact C|congruence].
Qed.
End WithSolver.
