(** Facts about guard strengthening and the time-triggered test. *)
From Verif Require Import Base BaseFacts LpModel LpSpec SetSpec LpUtil LpFacts LpWf SetFacts SetFacts2 MinkFacts OpsFacts OpsFacts2 OpsFacts3 OpsFacts4
  AggFacts ApiSpec ApiFacts Automaton StateSet HybridSpec FlowFacts StateFacts StateFacts2 StateFacts3.
Open Scope nat_scope.

Lemma map_res_Forall2 {A B} (f : A -> res B) l l' : map_res f l = Ok l' -> Forall2 (fun x y => f x = Ok y) l l'.
Proof.
  revert l'; induction l as [|x l IH]; intros l' H; cbn [map_res] in H.
  - injection H as <-. constructor.
  - apply bind_ok in H as (y & Hy & H). apply bind_ok in H as (ys & Hys & H). injection H as <-. constructor; auto.
Qed.

Lemma Forall2_nth {A B} (R : A -> B -> Prop) l l' da db i : Forall2 R l l' -> i < List.length l -> R (nth i l da) (nth i l' db).
Proof. intro H. revert i; induction H; intros [|i] Hi; cbn in *; try lia; auto. apply IHForall2. lia. Qed.
Lemma Forall2_len {A B} (R : A -> B -> Prop) l l' : Forall2 R l l' -> List.length l' = List.length l.
Proof. induction 1; cbn; auto. Qed.

(** ** guard strengthening *)
Definition same_but_guard (t t' : trans) : Prop :=
  t_name t' = t_name t /\ t_from t' = t_from t /\ t_to t' = t_to t /\ t_reset t' = t_reset t /\ t_mink t' = t_mink t /\ t_tt t' = t_tt t /\ t_index t' = t_index t.

Lemma missing_invs_In rows rhs w inv add c : missing_invs rows rhs w inv = Ok add -> In c add -> In c inv.
Proof.
  revert add; induction inv as [|d inv IH]; intros add H Hc; cbn [missing_invs] in H; [injection H as <-; auto|].
  apply bind_ok in H as (e & He & H). apply bind_ok in H as (more & Hm & H). injection H as <-.
  destruct e; [right; eauto|]. destruct Hc as [->|Hc]; [left; auto|right; eauto].
Qed.

Lemma strengthen_trans_ok a t t' : strengthen_trans a t = Ok t' -> 
  same_but_guard t t' /\
  (t' = t \/ exists g rhs add, t_guard t = Some (g, rhs) /\ t_reset t = None /\ t_from t <> t_to t /\ (forall c, In c add -> In c (m_inv (get_mode a (t_to t)))) /\
     Forall (row_cols_lt (c_nc g)) (map lc_row add) /\
     t_guard t' = Some (mkCsr (c_nc g) (c_rows g ++ map lc_row add), rhs ++ map lc_rhs add)).
Proof.
  unfold strengthen_trans. intro H. assert (Hrefl : same_but_guard t t) by (unfold same_but_guard; intuition).
  destruct (_ || _ || _) eqn:Ec; [injection H as <-; auto|].
  apply orb_false_iff in Ec as [Ec Er]. apply orb_false_iff in Ec as [En Et]. apply Nat.eqb_neq in En.
  destruct (m_inv (get_mode a (t_to t))) as [|c0 cs] eqn:Ei; [injection H as <-; auto|].
  destruct (t_guard t) as [[g rhs]|] eqn:Eg; [|discriminate]. apply bind_ok in H as (add & Hadd & H).
  destruct add as [|d add]; [injection H as <-; auto|]. apply bind_ok in H as (u & Hf & H). injection H as <-.
  split; [unfold same_but_guard, t_with_guard; cbn; intuition|]. right. exists g, rhs, (d :: add). split; auto.
  split; [destruct (t_reset t); [discriminate|auto]|]. split; auto. split; [intros c Hc; eapply missing_invs_In; eauto|].
  split; [|reflexivity]. destruct (forallb _ _) eqn:Ef in Hf; [|discriminate]. rewrite forallb_app in Ef. apply andb_true_iff in Ef as [_ Ef].
  apply Forall_forall. intros r Hr. rewrite forallb_forall in Ef. apply row_cols_ltb_ok. auto.
Qed.

Lemma poly_map_add (add : list lincon) p : poly (map lc_row add) (map lc_rhs add) p <-> forall c, In c add -> (reval (lc_row c) p <= lc_rhs c)%Q.
Proof.
  induction add as [|d add IH]; cbn [map]; [split; [intros _ c []|intros; apply poly_nil]|]. rewrite poly_cons, IH. split.
  - intros [A B] c [<-|Hc]; auto.
  - intro H. split; [apply H; left; auto|]. intros; apply H; right; auto.
Qed.

Section Strengthen.
Variables (a a' : ha).
Hypothesis WH : wf_ha a.
Hypothesis HS : do_guard_strengthening a = Ok a'.

Lemma gs_modes : ha_modes a' = ha_modes a.
Proof. unfold do_guard_strengthening in HS. apply bind_ok in HS as (ts & _ & H). injection H as <-. reflexivity. Qed.
Lemma gs_get_mode i : get_mode a' i = get_mode a i.
Proof. unfold get_mode. rewrite gs_modes. reflexivity. Qed.
Lemma gs_trans_F2 : Forall2 (fun x y => strengthen_trans a x = Ok y) (ha_trans a) (ha_trans a').
Proof. unfold do_guard_strengthening in HS. apply bind_ok in HS as (ts & H1 & H). injection H as <-. apply map_res_Forall2; auto. Qed.
Lemma gs_len : List.length (ha_trans a') = List.length (ha_trans a).
Proof. eapply Forall2_len. apply gs_trans_F2. Qed.

Lemma gs_trans t : t < List.length (ha_trans a) ->
  same_but_guard (get_trans a t) (get_trans a' t) /\
  (forall p, guard_ok (get_trans a' t) p -> guard_ok (get_trans a t) p) /\
  (forall p p', guard_ok (get_trans a t) p -> reset_ok a (get_trans a t) p p' -> inv_ok 0 (get_mode a (t_to (get_trans a t))) p' -> guard_ok (get_trans a' t) p) /\
  wf_trans a (get_trans a' t).
Proof.
  intro Ht. assert (H := Forall2_nth _ _ _ dtrans dtrans t gs_trans_F2 Ht). fold (get_trans a t) in H. fold (get_trans a' t) in H.
  destruct WH as [WM WT]. specialize (WT t Ht). set (tr := get_trans a t) in *. set (tr' := get_trans a' t) in *.
  apply strengthen_trans_ok in H as [HB Hcase]. split; auto.
  destruct Hcase as [->|(g & rhs & add & Hg & Hr & Hne & Hadd & Hcols & Hg')]; [split; [auto|split; [auto|exact WT]]|].
  destruct (wft_guard _ _ WT) as (g0 & rhs0 & E0 & Hok & Hnr & Hnc). rewrite Hg in E0. injection E0 as <- <-.
  assert (Hrows : List.length (c_rows g) = List.length rhs) by exact Hnr.
  assert (HG : forall p, guard_ok tr' p <-> guard_ok tr p /\ forall c, In c add -> (reval (lc_row c) p <= lc_rhs c)%Q).
  { intro p. unfold guard_ok. rewrite Hg, Hg'. cbn [c_rows]. rewrite poly_app by exact Hrows. rewrite poly_map_add. tauto. }
  split; [intros p Hp; apply HG; auto|]. split.
  - intros p p' Hgp Hres Hinv. apply HG. split; auto. intros c Hc. apply Hadd in Hc.
    assert (Hto := wft_to _ _ WT). specialize (WM _ Hto). destruct (m_a (get_mode a (t_to tr))) as [x|] eqn:Ex.
    + assert (Hd := wft_dims _ _ WT). unfold is_error in Hd. rewrite Ex in Hd. specialize (Hd eq_refl).
      destruct (wfm_inv _ _ WM c Hc) as [_ Hcl].
      assert (Hv : (reval (lc_row c) p' <= lc_rhs c)%Q) by (destruct (Hinv c Hc); lra).
      destruct Hres as (y & _ & Hp). destruct (wft_mink _ _ WT) as [_ Hmk]. rewrite (Hmk Hr) in Hp. rewrite Hr in Hp.
      rewrite (reval_ext_lt (c_nr x) _ p p'); auto. intros i Hi. unfold m_dims in Hd. rewrite Ex in Hd. rewrite (Hp i) by (rewrite Hd; exact Hi). ring.
    + rewrite WM in Hc. destruct Hc.
  - assert (Hf : same_but_guard tr tr') by exact HB. destruct HB as (B1 & B2 & B3 & B4 & B5 & B6 & B7).
    constructor; rewrite ?B2, ?B3, ?B4, ?B5.
    + apply (wft_from _ _ WT).
    + apply (wft_to _ _ WT).
    + eexists. eexists. split; [exact Hg'|]. split; [|split].
      * unfold csr_ok. cbn [c_rows c_nc]. apply Forall_app. split; auto.
      * unfold c_nr. cbn [c_rows]. rewrite !app_length, !map_length. lia.
      * cbn [c_rows]. apply Forall_app. split; auto. apply Forall_map. apply Forall_forall. intros c Hc. apply Hadd in Hc.
        assert (Hto := wft_to _ _ WT). specialize (WM _ Hto). destruct (m_a (get_mode a (t_to tr))) as [x|] eqn:Ex; [|rewrite WM in Hc; destruct Hc].
        assert (Hd := wft_dims _ _ WT). unfold is_error in Hd. rewrite Ex in Hd. specialize (Hd eq_refl).
        destruct (wfm_inv _ _ WM c Hc) as [_ Hcl]. unfold post_dims in Hd. rewrite Hr in Hd. rewrite Hd. unfold m_dims. rewrite Ex. exact Hcl.
    + apply (wft_reset _ _ WT).
    + apply (wft_mink _ _ WT).
    + intro He. unfold post_dims. rewrite B4, B2. apply (wft_dims _ _ WT He).
Qed.

Lemma gs_wf : wf_ha a'.
Proof.
  split.
  - intros i Hi. rewrite gs_get_mode. rewrite gs_modes in Hi. apply (proj1 WH); auto.
  - intros t Ht. rewrite gs_len in Ht. destruct (gs_trans t Ht) as (_ & _ & _ & W).
    destruct W as [W1 W2 W3 W4 W5 W6]. constructor; rewrite ?gs_get_mode, ?gs_modes; auto. unfold post_dims in *. rewrite !gs_get_mode. exact W6.
Qed.

(** executions of the strengthened automaton are executions of the original one *)
Lemma gs_reach_sub lax ru init m p k n : reach lax ru a' init m p k n -> reach lax ru a init m p k n.
Proof.
  induction 1 as [m p Hi Hv|m p k n u p' Hr IH Hv Hn Hc Hu Hs|t p p' k n Ht Hr IH Hg Hj Hres].
  - apply R_init; auto. rewrite gs_get_mode in Hv. exact Hv.
  - rewrite gs_get_mode in *. eapply R_step; eauto.
  - rewrite gs_len in Ht. destruct (gs_trans t Ht) as ((B1 & B2 & B3 & B4 & B5 & _) & G1 & _). rewrite gs_get_mode in Hj.
    rewrite B2 in *. rewrite B3. apply R_jump with (p := p) (k := k); auto.
    unfold reset_ok, post_dims in *. rewrite B4, B5, B2, gs_get_mode in Hres. exact Hres.
Qed.

(** conversely every execution of the original whose last state can continue is an execution of the strengthened one *)
Lemma gs_reach_sup ru init m p k n : reach 0 ru a init m p k n -> (0 < k \/ inv_ok 0 (get_mode a m) p) -> reach 0 ru a' init m p k n.
Proof.
  induction 1 as [m p Hi Hv|m p k n u p' Hr IH Hv Hn Hc Hu Hs|t p p' k n Ht Hr IH Hg Hj Hres]; intro Hcond.
  - apply R_init; auto. rewrite gs_get_mode. exact Hv.
  - apply R_step with (p := p) (u := u); rewrite ?gs_get_mode; auto.
  - destruct (gs_trans t Ht) as ((B1 & B2 & B3 & B4 & B5 & _) & _ & G2 & _). destruct Hcond as [Hcond|Hcond]; [lia|].
    rewrite <- B3. apply R_jump with (p := p) (k := k); rewrite ?gs_len, ?gs_get_mode, ?B2; auto.
    + apply IH. destruct Hj as [[Hj|[_ Hj]] _]; auto.
    + eapply G2; eauto.
    + unfold reset_ok, post_dims. rewrite B4, B5, B2, gs_get_mode. exact Hres.
Qed.

Lemma gs_error_sub lax ru init : error_reachable lax ru a' init -> error_reachable lax ru a init.
Proof.
  intros (t & p & k & n & Ht & He & Hr & Hg & Hj). rewrite gs_len in Ht. destruct (gs_trans t Ht) as ((B1 & B2 & B3 & _) & G1 & _).
  rewrite B2 in Hr, Hj. rewrite gs_get_mode in Hj. rewrite B3, gs_get_mode in He. exists t, p, k, n. split; auto. split; auto. split; [apply gs_reach_sub; auto|]. auto.
Qed.

Lemma gs_error_sup ru init : error_reachable 0 ru a init -> error_reachable 0 ru a' init.
Proof.
  intros (t & p & k & n & Ht & He & Hr & Hg & Hj). destruct (gs_trans t Ht) as ((B1 & B2 & B3 & B4 & _) & _ & G2 & _).
  exists t, p, k, n. rewrite gs_len, B2, B3, !gs_get_mode. split; auto. split; auto. split; [apply gs_reach_sup; auto; destruct Hj as [[Hj|[_ Hj]] _]; auto|].
  split; auto.
  (* error modes have no invariant, so their guards are not strengthened *)
  assert (H := Forall2_nth _ _ _ dtrans dtrans t gs_trans_F2 Ht). fold (get_trans a t) in H. fold (get_trans a' t) in H.
  apply strengthen_trans_ok in H as [_ [->|(g & rhs & add & Hg1 & Hr1 & Hne & Hadd & Hcols & Hg')]]; auto.
  destruct WH as [WM WT]. specialize (WM _ (wft_to _ _ (WT t Ht))). unfold is_error in He. destruct (m_a _); [discriminate|].
  unfold guard_ok in *. rewrite Hg'. rewrite Hg1 in Hg. destruct add as [|c add]; [cbn [map c_rows]; rewrite !app_nil_r; exact Hg|].
  specialize (Hadd c ltac:(left; auto)). rewrite WM in Hadd. destruct Hadd.
Qed.
End Strengthen.

(** ** was_tt_taken *)
Lemma find_opposite_ok test inv w r : find_opposite test inv w r = Ok true ->
  exists c, In c inv /\ test (lc_rhs c) = true /\ lc_w c = w /\
    forall i, i < w -> (nth i (dense_of r w) 0 == nth i (dense_of (scale_row (-1) (lc_row c)) w) 0)%Q.
Proof.
  induction inv as [|c inv IH]; [discriminate|]. cbn [find_opposite]. intro H. destruct (test (lc_rhs c)) eqn:Et.
  - apply bind_ok in H as (o & Ho & H). unfold opposite in Ho. destruct (lc_w c =? w) eqn:Ew; cbn [negb] in Ho; [|discriminate].
    injection Ho as Ho. destruct o.
    + exists c. split; [left; auto|]. split; [exact Et|]. split; [apply Nat.eqb_eq; auto|]. intros i Hi.
      rewrite forallb_forall in Ho. symmetry.
      assert (L1 : List.length (dense_of r w) = w) by (unfold dense_of; rewrite map_length, seq_length; auto).
      assert (L2 : List.length (dense_of (scale_row (-1) (lc_row c)) w) = w) by (unfold dense_of; rewrite map_length, seq_length; auto).
      specialize (Ho (nth i (dense_of (scale_row (-1) (lc_row c)) w) 0%Q, nth i (dense_of r w) 0%Q)).
      apply Qeq_bool_iff. apply Ho. rewrite <- combine_nth by congruence. apply nth_In. rewrite combine_length. lia.
    + destruct (IH H) as (c' & Hc' & R). exists c'. split; [right; auto|auto].
  - destruct (IH H) as (c' & Hc' & R). exists c'. split; [right; auto|auto].
Qed.

Lemma relax_rows_ok tv inv w eps : forall rows rhs rhs' f, relax_rows tv inv w eps rows rhs = Ok (rhs', f) ->
  List.length rhs' = List.length rhs /\
  (forall i b, nth_error rhs i = Some b -> exists b', nth_error rhs' i = Some b' /\
     (b' = b \/ b' = (b + eps)%Q /\ f = true /\ exists r c, nth_error rows i = Some r /\ In c inv /\ (lc_rhs c == - b)%Q /\ lc_w c = w /\
        forall j, j < w -> (nth j (dense_of r w) 0 == nth j (dense_of (scale_row (-1) (lc_row c)) w) 0)%Q)) /\
  (f = false -> rhs' = rhs).
Proof.
  induction rows as [|r rows IH]; intros rhs rhs' f H; cbn [relax_rows] in H.
  - injection H as <- <-. split; auto. split; auto. intros i b Hb. exists b. auto.
  - destruct rhs as [|b rhs]; [injection H as <- <-; split; auto; split; auto; intros i b Hb; destruct i; discriminate|].
    apply bind_ok in H as (found & Hf & H). apply bind_ok in H as ([rs f1] & Hr & H). injection H as <- <-. apply IH in Hr as (L & P & Q0).
    cbn [fst snd List.length]. split; [lia|]. split.
    + intros [|i] b0 Hb; cbn [nth_error] in *.
      * injection Hb as <-. eexists. split; [reflexivity|]. destruct found; [|left; reflexivity]. right. split; [reflexivity|]. split; [reflexivity|].
        destruct (row_only tv r); [|discriminate]. apply find_opposite_ok in Hf as (c & Hc & Ht & Hw & Ho). exists r, c. split; [reflexivity|].
        split; [exact Hc|]. split; [apply Qeq_bool_iff in Ht; rewrite Ht; ring|auto].
      * destruct (P i b0 Hb) as (b' & Hb' & Hc). exists b'. split; auto. destruct Hc as [Hc|(E & F & R)]; [auto|right]. split; auto. split; [subst f1; apply orb_true_r|exact R].
    + intro F. apply orb_false_iff in F as [-> ->]. rewrite Q0 by auto. reflexivity.
Qed.

(** detect_tt_transitions changes nothing but right-hand sides (by eps, on rows opposite to an invariant) and the flag *)
Definition relaxed (inv : list lincon) (eps : Q) (t t' : trans) : Prop :=
  t_name t' = t_name t /\ t_from t' = t_from t /\ t_to t' = t_to t /\ t_reset t' = t_reset t /\ t_mink t' = t_mink t /\ t_index t' = t_index t /\
  match t_guard t, t_guard t' with
  | Some (g, rhs), Some (g', rhs') => g' = g /\ List.length rhs' = List.length rhs /\
      forall i b, nth_error rhs i = Some b -> exists b', nth_error rhs' i = Some b' /\
       (b' = b \/ b' = (b + eps)%Q /\ t_tt t' = true /\ exists r c, nth_error (c_rows g) i = Some r /\ In c inv /\ (lc_rhs c == - b)%Q /\
          (row_cols_lt (c_nc g) r -> row_cols_lt (lc_w c) (lc_row c) -> forall p, (reval r p == - reval (lc_row c) p)%Q))
  | None, None => True
  | _, _ => False
  end.
Lemma relaxed_refl inv eps t : relaxed inv eps t t.
Proof. unfold relaxed. repeat (split; [reflexivity|]). destruct (t_guard t) as [[g rhs]|]; auto. split; auto. split; auto. intros i b H. exists b. auto. Qed.

Lemma ldot_nth_ext d1 : forall d2 x, List.length d1 = List.length d2 ->
  (forall i, i < List.length d1 -> (nth i d1 0 == nth i d2 0)%Q) -> (ldot d1 0 x == ldot d2 0 x)%Q.
Proof.
  intros d2 x HL. assert (HG : forall off, (forall i, i < List.length d1 -> (nth i d1 0 == nth i d2 0)%Q) -> (ldot d1 off x == ldot d2 off x)%Q); [|apply HG].
  revert d2 HL. induction d1 as [|a d1 IH]; intros [|b d2] HL off HE; try discriminate; [reflexivity|].
  cbn [ldot]. apply Qplus_comp.
  - apply Qmult_comp; [|reflexivity]. apply (HE 0). cbn. lia.
  - apply IH; [cbn in HL; lia|]. intros i Hi. apply (HE (S i)). cbn. lia.
Qed.

Lemma check_and_relax_ok a t tv eps t' : check_and_relax a t tv eps = Ok t' -> relaxed (m_inv (get_mode a (t_from t))) eps t t'.
Proof.
  unfold check_and_relax. destruct (forallb _ _); [|intro H; injection H as <-; apply relaxed_refl].
  destruct (t_guard t) as [[g rhs]|] eqn:Eg; [|discriminate]. intro H. apply bind_ok in H as ([rhs' f] & Hr & H). cbn [fst snd] in H. injection H as <-.
  apply relax_rows_ok in Hr as (L & P & _). unfold relaxed. rewrite Eg. destruct f; cbn; repeat (split; [reflexivity|]); (split; [exact L|]).
  - intros i b Hb. destruct (P i b Hb) as (b' & Hb' & [E|(E & _ & r & c & E1 & E2 & E3 & E4 & E5)]); exists b'; split; auto. right. split; auto. split; auto.
    exists r, c. split; auto. split; auto. split; auto. intros R1 R2 p. rewrite <- (dense_of_eval r (c_nc g)) by exact R1.
    rewrite (ldot_nth_ext _ (dense_of (scale_row (-1) (lc_row c)) (c_nc g))).
    + rewrite dense_of_eval; [rewrite reval_scale; ring|]. apply scale_row_cols. rewrite <- E4. exact R2.
    + rewrite !dense_of_length. reflexivity.
    + intros j Hj. rewrite dense_of_length in Hj. apply E5; auto.
  - intros i b Hb. destruct (P i b Hb) as (b' & Hb' & [E|(_ & F & _)]); [|discriminate]. exists b'; split; auto.
Qed.

Lemma detect_tt_ok a h N a' : detect_tt a h N = Ok a' -> ha_modes a' = ha_modes a /\ List.length (ha_trans a') = List.length (ha_trans a) /\
  forall t, t < List.length (ha_trans a) ->
    relaxed (m_inv (get_mode a (t_from (get_trans a t)))) (h / inject_Z (Z.of_nat N) / 1000)%Q (get_trans a t) (get_trans a' t).
Proof.
  unfold detect_tt. destruct (N =? 0); [discriminate|]. intro H. apply bind_ok in H as (ts & Ht & H). injection H as <-. cbn [ha_modes ha_trans].
  apply map_res_Forall2 in Ht. split; auto. split; [eapply Forall2_len; exact Ht|]. intros t Hlt. assert (HF := Forall2_nth _ _ _ dtrans dtrans t Ht Hlt). cbn beta in HF.
  fold (get_trans a t) in HF. change (nth t ts dtrans) with (get_trans (mkHa (ha_modes a) ts) t) in HF.
  destruct (is_error _); [injection HF as <-; apply relaxed_refl|]. destruct (get_tt_vars _) as [|v tv]; [injection HF as <-; apply relaxed_refl|].
  apply check_and_relax_ok in HF. exact HF.
Qed.

Section TtFacts.
Variable solve : solver.
Hypothesis Hsolve : solver_ok solve.

Lemma affine_check_obj vars : forall l eps l1 b, affine_check solve l vars eps = Ok (l1, b) -> exists o, l1 = with_obj l o.
Proof.
  induction vars as [|v vars IH]; intros l eps l1 b H; cbn [affine_check] in H.
  - injection H as <- <-. exists (l_obj l). destruct l; reflexivity.
  - apply bind_ok in H as (l2 & H2 & H). apply bind_ok in H as (mn & _ & H). apply bind_ok in H as (l3 & H3 & H). apply bind_ok in H as (mx & _ & H).
    apply set_min_dir_ok in H2 as [_ ->]. apply set_min_dir_ok in H3 as [_ ->]. rewrite with_obj_twice in H.
    destruct mn as [[|mn mns]|]; try discriminate. destruct mx as [[|mx mxs]|]; try discriminate.
    destruct (_ || _) in H; [injection H as <- <-; eexists; reflexivity|].
    apply IH in H as (o & ->). rewrite with_obj_twice. eexists; reflexivity.
Qed.

(** what a true answer means for one row of the guard *)
Definition tt_row (m : mode) (l : lp) (eps : Q) (rows : list srow) (rhs : list Q) : Prop :=
  exists i r b c, nth_error rows i = Some r /\ nth_error rhs i = Some b /\ In c (m_inv m) /\
    (Qabs (lc_rhs c + b) < eps)%Q /\ (forall p, (reval r p == - reval (lc_row c) p)%Q) /\
    (forall p q, in_lp l p -> in_lp l q -> (Qabs (reval r p - reval r q) < eps)%Q) /\
    (forall p, in_lp l p -> (reval r p < b + eps)%Q).


Lemma tt_rows_ok m tv w eps : (forall c, In c (m_inv m) -> row_cols_lt (lc_w c) (lc_row c)) ->
  forall rows l rhs rv l1 b, Forall (row_cols_lt w) rows ->
  tt_rows solve m tv l w eps rows rhs rv = Ok (l1, b) ->
  (exists o, l1 = with_obj l o) /\ (b = true -> rv = true \/ tt_row m l eps rows rhs).
Proof.
  intro HI. induction rows as [|r rows IH]; intros l rhs rv l1 b HF H; cbn [tt_rows] in H.
  - injection H as <- <-. split; [exists (l_obj l); destruct l; reflexivity|auto].
  - destruct rhs as [|c rhs]; [injection H as <- <-; split; [exists (l_obj l); destruct l; reflexivity|auto]|].
    apply bind_ok in H as (found & Hf & H). inversion HF as [|? ? Hr HF']; subst.
    assert (Hshift : forall l o, tt_row m (with_obj l o) eps rows rhs -> tt_row m l eps (r :: rows) (c :: rhs)).
    { intros l' o (i & r' & b' & c' & E1 & E2 & E3 & E4 & E5 & E6 & E7). exists (S i), r', b', c'.
      split; [exact E1|split; [exact E2|split; [exact E3|split; [exact E4|split; [exact E5|split]]]]].
      - intros p q Hp Hq. apply E6; apply in_lp_with_obj; auto.
      - intros p Hp. apply E7; apply in_lp_with_obj; auto. }
    destruct found; cbn [negb] in H.
    + apply bind_ok in H as ([l2 ok] & Hac & H). apply affine_check_obj in Hac as (o2 & ->). destruct ok.
      * apply bind_ok in H as (l3 & H3 & H). apply bind_ok in H as (mn & Hmn & H). apply bind_ok in H as (l4 & H4 & H). apply bind_ok in H as (mx & Hmx & H).
        destruct mn as [mn|]; [|discriminate]. destruct mx as [mx|]; [|discriminate].
        destruct (w =? l_dims _) eqn:Ew in H; cbn [negb] in H; [|discriminate]. apply Nat.eqb_eq in Ew. cbn [with_obj l_dims l_cvo] in Ew.
        assert (S3 := H3). assert (S4 := H4). apply set_min_dir_ok in H3 as [_ E3]. apply set_min_dir_ok in H4 as [_ E4].
        assert (M1 := min_dir_spec solve Hsolve _ _ _ _ _ _ S3 Hmn). assert (M2 := min_dir_spec solve Hsolve _ _ _ _ _ _ S4 Hmx).
        subst l3 l4. cbn [with_obj l_cvo l_dims] in M1, M2, H. rewrite !with_obj_twice in H.
        apply IH in H as [(o & ->) Hb]; [|exact HF']. rewrite with_obj_twice. split; [eexists; reflexivity|].
        intro Eb. specialize (Hb Eb). destruct Hb as [Hb|Hb]; [|right; eapply Hshift; exact Hb].
        destruct (_ && _) eqn:Ec in Hb; [|left; exact Hb]. right. apply andb_true_iff in Ec as [Ec1 Ec2].
        destruct M1 as (x1 & V1 & _ & I1 & O1). destruct M2 as (x2 & V2 & _ & I2 & O2).
        assert (Hdv : forall xs : vec, (dot_vals (dense_of r w) (map xs (seq (l_cvo l) (l_dims l))) == reval r (fun i => xs (l_cvo l + i)%nat))%Q).
        { intro xs. rewrite <- (dense_of_eval r w) by exact Hr. rewrite <- Ew. clear.
          assert (HG : forall d k, (dot_vals d (map xs (seq (l_cvo l + k) (List.length d))) == ldot d k (fun i => xs (l_cvo l + i)%nat))%Q).
          { induction d as [|a d IHd]; intro k; [reflexivity|]. cbn [List.length seq map dot_vals ldot combine fold_right]. unfold dot_vals in *. cbn [combine fold_right].
            specialize (IHd (S k)). replace (l_cvo l + S k) with (S (l_cvo l + k)) in IHd by lia. rewrite IHd. cbn [fst snd]. ring. }
          specialize (HG (dense_of r w) 0). rewrite dense_of_length, Nat.add_0_r in HG. exact HG. }
        rewrite V1, V2 in Ec1. rewrite V1 in Ec2. apply Qle_bool_iff in Ec2. rewrite (Hdv x1) in Ec2.
        assert (Ec3 : (Qabs (dot_vals (dense_of r w) (map x2 (seq (l_cvo l) (l_dims l))) - dot_vals (dense_of r w) (map x1 (seq (l_cvo l) (l_dims l)))) < eps)%Q).
        { apply negb_true_iff in Ec1. apply Qnot_le_lt. intro Hc. apply Qle_bool_iff in Hc. congruence. }
        rewrite (Hdv x1), (Hdv x2) in Ec3. clear Ec1.
        assert (HO1 : forall p, in_lp l p -> (reval r (fun i => x1 (l_cvo l + i)%nat) <= reval r p)%Q).
        { intros p Hp. rewrite <- !(dense_of_eval r w) by exact Hr. apply O1. apply in_lp_with_obj. exact Hp. }
        assert (HO2 : forall p, in_lp l p -> (reval r p <= reval r (fun i => x2 (l_cvo l + i)%nat))%Q).
        { intros p Hp. rewrite <- !(dense_of_eval r w) by exact Hr. specialize (O2 p ltac:(apply in_lp_with_obj; apply in_lp_with_obj; exact Hp)).
          rewrite !ldot_map_neg in O2. lra. }
        apply Qabs_Qlt_condition in Ec3 as [Ea Ec].
        destruct (row_only tv r); [|discriminate]. apply find_opposite_ok in Hf as (d & Hd & Ht & Hw & Hopp).
        exists 0, r, c, d. split; [reflexivity|]. split; [reflexivity|]. split; [exact Hd|]. split.
        { apply negb_true_iff in Ht. apply Qnot_le_lt. intro Hc. apply Bool.not_true_iff_false in Ht. apply Ht. apply Qle_bool_iff.
          eapply Qle_trans; [exact Hc|]. apply Qle_lteq. right. apply Qabs_wd. ring. }
        split.
        { intro p. rewrite <- (dense_of_eval r w) by exact Hr. rewrite (ldot_nth_ext _ (dense_of (scale_row (-1) (lc_row d)) w)).
          - rewrite dense_of_eval; [rewrite reval_scale; ring|]. apply scale_row_cols. rewrite <- Hw. apply HI; exact Hd.
          - rewrite !dense_of_length. reflexivity.
          - intros i Hi. rewrite dense_of_length in Hi. apply Hopp; auto. }
        split.
        { intros p q Hp Hq. assert (A1 := HO1 p Hp). assert (A2 := HO1 q Hq). assert (A3 := HO2 p Hp). assert (A4 := HO2 q Hq).
          apply Qabs_Qlt_condition. split; lra. }
        { intros p Hp. assert (A1 := HO1 p Hp). assert (A3 := HO2 p Hp). lra. }
      * apply IH in H as [(o & ->) Hb]; [|exact HF']. rewrite with_obj_twice. split; [eexists; reflexivity|]. intro Eb.
        destruct (Hb Eb) as [Hb'|Hb']; [auto|right; eapply Hshift; exact Hb'].
    + apply IH in H as [(o & ->) Hb]; [|exact HF']. split; [eexists; reflexivity|]. intro Eb.
      destruct (Hb Eb) as [Hb'|Hb']; [auto|right]. apply (Hshift l (l_obj l)). destruct l; exact Hb'.
Qed.

Lemma was_tt_taken_ok a l t h N l1 b : wf_ha a -> wf_trans a t -> was_tt_taken solve a l t h N = Ok (l1, b) ->
  (exists o, l1 = with_obj l o) /\
  (b = true -> forall g rhs, t_guard t = Some (g, rhs) -> tt_row (get_mode a (t_from t)) l (2 * h / inject_Z (Z.of_nat N) / 1000) (c_rows g) rhs).
Proof.
  intros [WM _] W H. unfold was_tt_taken in H. destruct (N =? 0); [discriminate|].
  destruct (wft_guard _ _ W) as (g & rhs & Hg & Hok & _). rewrite Hg in H. destruct (wft_from _ _ W) as [Hfrom Hne].
  apply tt_rows_ok in H; [|intros c Hc|exact Hok].
  - destruct H as [H1 H2]. split; [exact H1|]. intros Eb g' rhs' E. rewrite Hg in E. injection E as <- <-. destruct (H2 Eb) as [Hx|Hx]; [discriminate|exact Hx].
  - specialize (WM _ Hfrom). unfold is_error in Hne. destruct (m_a _) as [x|]; [|discriminate]. destruct (wfm_inv _ _ WM c Hc) as [E R]. rewrite E. exact R.
Qed.
End TtFacts.
