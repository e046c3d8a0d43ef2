(** Contracts of the invariant intersection. *)
From Verif Require Import Base BaseFacts LpModel LpSpec SetSpec LpUtil LpFacts LpWf SetFacts SetFacts2 OpsFacts OpsFacts2 OpsFacts3 OpsFacts4
  ApiSpec ApiFacts Automaton StateSet HybridSpec FlowFacts StateFacts.
Open Scope nat_scope.

Lemma upd_nth_length {A} i (v : A) l : List.length (upd_nth i v l) = List.length l.
Proof.
  unfold upd_nth. rewrite app_length. assert (H := firstn_skipn i l). apply (f_equal (@List.length A)) in H. rewrite app_length in H.
  destruct (skipn i l); cbn [List.length] in *; lia.
Qed.
Lemma upd_nth_In {A} i (v w : A) l : In w (upd_nth i v l) -> w = v \/ In w l.
Proof.
  unfold upd_nth. rewrite in_app_iff. intros [H|H].
  - right. rewrite <- (firstn_skipn i l), in_app_iff. auto.
  - destruct (skipn i l) eqn:E; [contradiction|]. destruct H as [H|H]; [auto|]. right. rewrite <- (firstn_skipn i l), in_app_iff, E. right. right. auto.
Qed.
Lemma upd_nth_In_new {A} i (v : A) l : i < List.length l -> In v (upd_nth i v l).
Proof.
  intro H. unfold upd_nth. rewrite in_app_iff. right. destruct (skipn i l) eqn:E; [|left; auto].
  apply (f_equal (@List.length A)) in E. rewrite skipn_length in E. cbn in E. lia.
Qed.
Lemma upd_nth_nth_error {A} i (v : A) l j : nth_error (upd_nth i v l) j = if (j =? i) && (i <? List.length l) then Some v else nth_error l j.
Proof.
  unfold upd_nth. destruct (Nat.ltb_spec i (List.length l)) as [Hi|Hi].
  - rewrite andb_true_r. destruct (skipn i l) as [|y r] eqn:E.
    { apply (f_equal (@List.length A)) in E. rewrite skipn_length in E. cbn in E. lia. }
    assert (Hl : List.length (firstn i l) = i) by (rewrite firstn_length; lia).
    assert (Hsplit : l = firstn i l ++ y :: r) by (rewrite <- E, firstn_skipn; auto).
    destruct (Nat.eqb_spec j i) as [->|Hne].
    + rewrite nth_error_app2 by lia. rewrite Hl, Nat.sub_diag. reflexivity.
    + rewrite Hsplit at 2. destruct (Nat.lt_ge_cases j i).
      * rewrite !nth_error_app1 by lia. reflexivity.
      * rewrite !nth_error_app2 by lia. rewrite Hl. destruct (j - i) eqn:Ej; [lia|]. reflexivity.
  - rewrite andb_false_r. rewrite skipn_all2 by lia. rewrite app_nil_r, firstn_all2 by lia. reflexivity.
Qed.

Section WithSolver.
Variable solve : solver.
Hypothesis Hsolve : solver_ok solve.

(** the fields that invariant intersection leaves alone *)
Definition same_frame (s s' : sset) : Prop :=
  ss_mode s' = ss_mode s /\ ss_step s' = ss_step s /\ ss_lo s' = ss_lo s /\ ss_hi s' = ss_hi s /\ ss_conc s' = ss_conc s /\
  ss_ops s' = ss_ops s /\ ss_bm s' = ss_bm s /\ ss_ies s' = ss_ies s /\ ss_agg s' = ss_agg s.
Lemma same_frame_refl s : same_frame s s.
Proof. unfold same_frame. intuition. Qed.
Lemma same_frame_trans a b c : same_frame a b -> same_frame b c -> same_frame a c.
Proof. unfold same_frame. intuition congruence. Qed.

Lemma st_with_obj a s x o : st_ok solve a s x -> st_ok solve a (ss_with_lpi s (with_obj (ss_lpi s) o)) x.
Proof.
  intro S. constructor; cbn [ss_with_lpi ss_mode ss_lpi ss_step ss_bm ss_ies ss_rows].
  - apply (st_mode _ _ _ _ S).
  - apply (st_a _ _ _ _ S).
  - apply (st_dims _ _ _ _ S).
  - destruct (st_api _ _ _ _ S) as (js & H & H'). exists js. split; auto. apply api_objective. exact H.
  - apply (st_bm _ _ _ _ S).
  - apply (st_ies _ _ _ _ S).
  - apply (st_rows _ _ _ _ S).
  - apply (st_prod _ _ _ _ S).
Qed.

Lemma lc_negate_val c p : (reval (lc_row (lc_negate c)) p == - reval (lc_row c) p)%Q.
Proof. unfold lc_negate. cbn [lc_row]. rewrite reval_scale. ring. Qed.

Lemma scale_row_cols k n r : row_cols_lt n r -> row_cols_lt n (scale_row k r).
Proof. unfold row_cols_lt, scale_row. intro H. apply Forall_map. exact H. Qed.

Lemma inv_cond_ok a s x i c s1 o strong :
  wf_ha a -> st_ok solve a s x -> nth_error (m_inv (get_mode a (ss_mode s))) i = Some c ->
  inv_cond solve s i c = Ok (s1, o, strong) ->
  st_ok solve a s1 x /\ same_frame s s1 /\
  match o with
  | Some true => (forall p, in_lp (ss_lpi s1) p <-> in_lp (ss_lpi s) p /\ (reval (lc_row c) p <= lc_rhs c)%Q) /\
                 (exists p, in_lp (ss_lpi s) p /\ (lc_rhs c + tol13 <= reval (lc_row c) p)%Q)
  | Some false => (exists ob, ss_lpi s1 = with_obj (ss_lpi s) ob) /\ ss_rows s1 = ss_rows s /\
                  (forall p, in_lp (ss_lpi s) p -> (reval (lc_row c) p < lc_rhs c + tol13)%Q)
  | None => (exists ob, ss_lpi s1 = with_obj (ss_lpi s) ob) /\ ss_rows s1 = ss_rows s /\ forall p, ~ in_lp (ss_lpi s) p
  end.
Proof.
  intros WH S Hc H. assert (Hx := st_a _ _ _ _ S). assert (Hm := st_mode _ _ _ _ S).
  assert (W : wf_mode (get_mode a (ss_mode s)) x). { destruct WH as [WH _]. specialize (WH _ Hm). rewrite Hx in WH. exact WH. }
  destruct (wfm_inv _ _ W c (nth_error_In _ _ Hc)) as [Hw Hcols].
  unfold inv_cond in H. apply bind_ok in H as ([l1 r1] & Hci & H). cbn [fst snd] in H.
  assert (Hneg : row_cols_lt (lc_w (lc_negate c)) (lc_row (lc_negate c))).
  { cbn [lc_negate lc_w lc_row]. apply scale_row_cols. rewrite Hw. exact Hcols. }
  destruct (check_intersection_spec solve Hsolve _ _ _ _ _ _ _ Hneg Hci)
    as ((ob & ->) & _ & Hspec).
  assert (S1 := st_with_obj a s x ob S). set (s0 := ss_with_lpi s (with_obj (ss_lpi s) ob)) in *.
  assert (Hfr0 : same_frame s s0) by (unfold same_frame; cbn; intuition).
  destruct r1 as [[|]|].
  2:{ injection H as <- <- <-. split; auto. split; auto. split; [exists ob; reflexivity|]. split; [reflexivity|]. destruct Hspec as [Hs _]. intros p Hp. specialize (Hs p Hp).
      rewrite lc_negate_val in Hs. cbn [lc_negate lc_rhs] in Hs. lra. }
  2:{ injection H as <- <- <-. split; auto. split; auto. split; [exists ob; reflexivity|]. split; [reflexivity|]. exact Hspec. }
  destruct Hspec as (q & Hq & Hq2). rewrite lc_negate_val in Hq2. cbn [lc_negate lc_rhs] in Hq2.
  assert (Hex : exists p, in_lp (ss_lpi s) p /\ (lc_rhs c + tol13 <= reval (lc_row c) p)%Q) by (exists q; split; auto; lra).
  destruct (st_wf solve Hsolve _ _ _ S1) as [WL Hpos].
  destruct (st_api _ _ _ _ S1) as (js & Hap & Hjs).
  assert (Hd1 : l_dims (ss_lpi s0) = c_nr x) by apply (st_dims _ _ _ _ S1).
  assert (Hies : match ss_ies s0 with None => [] | Some l => l end = ies_of (get_mode a (ss_mode s0)) (ss_step s0)).
  { rewrite (st_ies _ _ _ _ S1). unfold ies_of. destruct (m_b _); reflexivity. }
  rewrite Hies in H. rewrite (st_bm _ _ _ _ S1) in H.
  assert (Hi : i < List.length (ss_rows s0)).
  { rewrite (st_rows _ _ _ _ S1). apply nth_error_Some. change (ss_mode s0) with (ss_mode s). congruence. }
  assert (Heq : forall p, in_lp (ss_lpi s0) p <-> in_lp (ss_lpi s) p) by (intro p; apply in_lp_with_obj).
  assert (Hval : forall p, (ldot (dense_of (lc_row c) (lc_w c)) 0 p == reval (lc_row c) p)%Q).
  { intro p. apply dense_of_eval. rewrite Hw. exact Hcols. }
  destruct (nth i (ss_rows s0) None) as [old|] eqn:Eold.
  - apply bind_ok in H as ([[l2 j] st] & Htr & H). injection H as <- <- <-.
    assert (Hin : In old js). { apply Hjs. rewrite <- Eold. apply nth_In. auto. }
    assert (HI := api_ok solve Hsolve _ _ Hap). destruct HI as (_ & _ & Hdp & _ & HF). rewrite Forall_forall in HF.
    destruct (HF _ Hin) as (Hb & Hie & orow & Hold & Hup).
    destruct (try_replace_wf_in solve Hsolve _ _ _ _ _ _ _ _ _ _ _ _ WL Hdp Hold Hup Hb Hie eq_refl Htr) as (WL2 & SL & Hnc & Ej & Hnew & Hcore & _).
    assert (Hlen := try_replace_len solve _ _ _ _ _ _ _ _ WL Hdp Htr).
    assert (Hin2 := core_eq_in_lp _ _ _ _ _ _ _ WL WL2 SL Hlen Hcore).
    assert (Hap2 := api_replace solve _ _ _ _ _ _ _ _ _ _ _ Hap Hin Htr). subst j.
    split; [|split].
    + constructor; cbn [ss_with_lpi ss_with_rows ss_mode ss_lpi ss_step ss_bm ss_ies ss_rows].
      * exact Hm.
      * exact Hx.
      * destruct SL as (-> & _). exact Hd1.
      * exists js. split; [exact Hap2|]. intros j Hj. apply upd_nth_In in Hj as [Hj|Hj]; [injection Hj as ->; auto|auto].
      * apply (st_bm _ _ _ _ S1).
      * apply (st_ies _ _ _ _ S1).
      * rewrite upd_nth_length. apply (st_rows _ _ _ _ S1).
      * intros _ Hno. exfalso. apply (Hno old). apply upd_nth_In_new. exact Hi.
    + exact Hfr0.
    + split; [|exact Hex]. intro p. cbn [ss_with_lpi ss_with_rows ss_lpi]. rewrite Hin2, Heq, Hval. reflexivity.
  - apply bind_ok in H as ([l2 j] & Htr & H). injection H as <- <- <-. cbn [fst snd].
    assert (HI := api_ok solve Hsolve _ _ Hap). destruct HI as (_ & _ & Hdp & _ & _).
    destruct (add_init_constraint_in _ _ _ _ _ _ _ _ WL Hdp Htr) as (WL2 & SL & Hin2).
    assert (Hap2 := api_init solve _ _ _ _ _ _ _ _ _ Hap Htr).
    split; [|split].
    + constructor; cbn [ss_with_lpi ss_with_rows ss_mode ss_lpi ss_step ss_bm ss_ies ss_rows].
      * exact Hm.
      * exact Hx.
      * destruct SL as (-> & _). exact Hd1.
      * exists (j :: js). split; [exact Hap2|]. intros j' Hj. apply upd_nth_In in Hj as [Hj|Hj]; [injection Hj as ->; left; auto|right; auto].
      * apply (st_bm _ _ _ _ S1).
      * apply (st_ies _ _ _ _ S1).
      * rewrite upd_nth_length. apply (st_rows _ _ _ _ S1).
      * intros _ Hno. exfalso. apply (Hno j). apply upd_nth_In_new. exact Hi.
    + exact Hfr0.
    + split; [|exact Hex]. intro p. cbn [ss_with_lpi ss_with_rows ss_lpi]. rewrite Hin2, Heq, Hval. reflexivity.
Qed.

Definition lax_ok (c : lincon) (p : vec) : Prop := (reval (lc_row c) p <= lc_rhs c \/ reval (lc_row c) p < lc_rhs c + tol13)%Q.

Lemma feas_in_lp l b : lp_is_feasible solve l = Ok b -> (b = true <-> exists p, in_lp l p).
Proof.
  intro H. rewrite (lp_is_feasible_spec solve Hsolve _ _ H). split.
  - intros (y & Hy). exists (fun i => y (l_cvo l + i)). exists y. split; auto. intros; reflexivity.
  - intros (p & y & Hy & _). exists y. exact Hy.
Qed.

Lemma intersect_inv_ok a : wf_ha a -> forall cs i s x s' ops ok,
  st_ok solve a s x -> (forall j c, nth_error cs j = Some c -> nth_error (m_inv (get_mode a (ss_mode s))) (i + j) = Some c) ->
  intersect_inv solve s i cs = Ok (s', ops, ok) ->
  st_ok solve a s' x /\ same_frame s s' /\
  (forall p, in_lp (ss_lpi s') p -> in_lp (ss_lpi s) p) /\
  (forall p, in_lp (ss_lpi s) p -> (forall c, In c cs -> (reval (lc_row c) p <= lc_rhs c)%Q) -> in_lp (ss_lpi s') p) /\
  (ok = true -> forall p c, in_lp (ss_lpi s') p -> In c cs -> lax_ok c p) /\
  (ok = false -> forall p, ~ in_lp (ss_lpi s') p) /\
  (ok = true -> (exists p, in_lp (ss_lpi s) p) -> exists p, in_lp (ss_lpi s') p) /\
  (forall j b, In (j, b) ops -> i <= j < i + List.length cs).
Proof.
  intro WH. induction cs as [|c cs IH]; intros i s x s' ops ok S Hcs H.
  - injection H as <- <- <-. split; auto. split; [apply same_frame_refl|]. split; auto. split; auto.
    split; [intros _ p c0 _ []|]. split; [discriminate|]. split; auto. intros j b [].
  - cbn [intersect_inv] in H. apply bind_ok in H as ([[s1 o] st] & H1 & H).
    assert (Hc : nth_error (m_inv (get_mode a (ss_mode s))) i = Some c) by (rewrite <- (Nat.add_0_r i); apply Hcs; auto).
    destruct (inv_cond_ok _ _ _ _ _ _ _ _ WH S Hc H1) as (S1 & F1 & Hspec).
    assert (Hcs1 : forall j c0, nth_error cs j = Some c0 -> nth_error (m_inv (get_mode a (ss_mode s1))) (Datatypes.S i + j) = Some c0).
    { intros j c0 Hj. destruct F1 as (-> & _). rewrite Nat.add_succ_comm. apply Hcs. exact Hj. }
    destruct o as [[|]|].
    + destruct Hspec as [Heq Hex]. apply bind_ok in H as (f & Hf & H). apply feas_in_lp in Hf. destruct f.
      * apply bind_ok in H as ([[s2 ops2] ok2] & H2 & H). injection H as <- <- <-.
        destruct (IH _ _ _ _ _ _ S1 Hcs1 H2) as (G1 & G2 & G3 & G4 & G5 & G6 & G7 & G8).
        split; auto. split; [eapply same_frame_trans; eauto|]. split; [intros p Hp; apply Heq, G3; auto|].
        split; [|split; [|split; [auto|split]]].
        -- intros p Hp Hall. apply G4; [|intros; apply Hall; right; auto]. apply Heq. split; auto. apply Hall. left; auto.
        -- intros Hok p c0 Hp [->|Hin]; [|eapply G5; eauto]. left. apply G3 in Hp. apply Heq in Hp. apply Hp.
        -- intros Hok _. apply G7; auto. apply Hf. reflexivity.
        -- intros j b [E|Hin]; [injection E as <- <-; cbn; lia|]. apply G8 in Hin. cbn. lia.
      * injection H as <- <- <-. split; auto. split; auto. split; [intros p Hp; apply Heq; auto|]. split; [|split; [discriminate|split; [|split; [discriminate|]]]].
        -- intros p Hp Hall. apply Heq. split; auto. apply Hall. left; auto.
        -- intros _ p Hp. assert (false = true) by (apply Hf; eauto). discriminate.
        -- intros j b [E|[]]. injection E as <- <-. cbn; lia.
    + destruct Hspec as ((ob & El) & Er & Hlax). destruct (IH _ _ _ _ _ _ S1 Hcs1 H) as (G1 & G2 & G3 & G4 & G5 & G6 & G7 & G8).
      assert (Heq : forall p, in_lp (ss_lpi s1) p <-> in_lp (ss_lpi s) p) by (intro p; rewrite El; apply in_lp_with_obj).
      split; auto. split; [eapply same_frame_trans; eauto|]. split; [intros p Hp; apply Heq, G3; auto|].
      split; [|split; [|split; [auto|split]]].
      -- intros p Hp Hall. apply G4; [apply Heq; auto|intros; apply Hall; right; auto].
      -- intros Hok p c0 Hp [->|Hin]; [|eapply G5; eauto]. right. apply Hlax. apply Heq, G3; auto.
      -- intros Hok [p Hp]. apply G7; auto. exists p. apply Heq; auto.
      -- intros j b Hin. apply G8 in Hin. cbn. lia.
    + destruct Hspec as ((ob & El) & Er & Hemp). destruct (IH _ _ _ _ _ _ S1 Hcs1 H) as (G1 & G2 & G3 & G4 & G5 & G6 & G7 & G8).
      assert (Heq : forall p, in_lp (ss_lpi s1) p <-> in_lp (ss_lpi s) p) by (intro p; rewrite El; apply in_lp_with_obj).
      split; auto. split; [eapply same_frame_trans; eauto|]. split; [intros p Hp; apply Heq, G3; auto|].
      split; [|split; [|split; [auto|split]]].
      -- intros p Hp _. destruct (Hemp p Hp).
      -- intros Hok p c0 Hp _. destruct (Hemp p). apply Heq, G3; auto.
      -- intros Hok [p Hp]. destruct (Hemp p Hp).
      -- intros j b Hin. apply G8 in Hin. cbn. lia.
Qed.

(** a mode without invariant: nothing happens *)
Lemma intersect_invariant_nil a s : m_inv (get_mode a (ss_mode s)) = [] -> intersect_invariant solve a s = Ok (s, [], true).
Proof. intro H. unfold intersect_invariant. rewrite H. reflexivity. Qed.

Lemma intersect_invariant_ok a s x s' ops ok : wf_ha a -> st_ok solve a s x -> intersect_invariant solve a s = Ok (s', ops, ok) ->
  st_ok solve a s' x /\ same_frame s s' /\
  (forall p, in_lp (ss_lpi s') p -> in_lp (ss_lpi s) p) /\
  (forall p, in_lp (ss_lpi s) p -> inv_ok 0 (get_mode a (ss_mode s)) p -> in_lp (ss_lpi s') p) /\
  (ok = true -> forall p, in_lp (ss_lpi s') p -> inv_ok tol13 (get_mode a (ss_mode s)) p) /\
  (ok = false -> forall p, ~ in_lp (ss_lpi s') p) /\
  (ok = true -> (exists p, in_lp (ss_lpi s) p) -> exists p, in_lp (ss_lpi s') p).
Proof.
  intros WH S H. unfold intersect_invariant in H.
  destruct (intersect_inv_ok a WH _ 0 s x s' ops ok S (fun j c Hj => Hj) H) as (G1 & G2 & G3 & G4 & G5 & G6 & G7 & _).
  split; auto. split; auto. split; auto. split; [|split; [|split; auto]].
  - intros p Hp Hi. apply G4; auto. intros c Hc. destruct (Hi c Hc) as [Hi'|Hi']; [auto|lra].
  - intros Hok p Hp c Hc. apply (G5 Hok p c Hp Hc).
Qed.
End WithSolver.
