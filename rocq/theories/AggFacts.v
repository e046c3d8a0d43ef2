(** lputil.aggregate: template hull of a list of sets. *)
From Verif Require Import Base BaseFacts LpModel LpSpec SetSpec LpFacts LpWf LpUtil SetFacts SetFacts2 MinkFacts OpsFacts OpsFacts2 OpsFacts3 OpsFacts4.
Open Scope nat_scope.

(** Union of the sets of a list of LPs. *)
(** equal up to the objective *)
Definition same_but_obj (l l' : lp) : Prop := exists o, l' = with_obj l o.

Lemma same_but_obj_in l l' p : same_but_obj l l' -> in_lp l' p <-> in_lp l p.
Proof. intros (o & ->). apply in_lp_with_obj. Qed.

Lemma same_but_obj_any ls ls' p : Forall2 same_but_obj ls ls' -> in_any ls' p <-> in_any ls p.
Proof.
  unfold in_any. intro H. induction H as [|a b ls ls' Hab H IH]; [reflexivity|].
  split; intros (l & [<-|Hl] & Hp).
  - exists a. split; [simpl; auto|]. apply (same_but_obj_in a b); auto.
  - destruct (proj1 IH) as (l2 & Hl2 & Hp2); [eauto|]. exists l2. simpl; auto.
  - exists b. split; [simpl; auto|]. apply (same_but_obj_in a b); auto.
  - destruct (proj2 IH) as (l2 & Hl2 & Hp2); [eauto|]. exists l2. simpl; auto.
Qed.

Lemma reval_nonzero_row d i x : (reval (nonzero_row d i) x == ldot d i x)%Q.
Proof.
  revert i; induction d as [|a d IH]; intro i; simpl; [reflexivity|].
  destruct (Qeq_bool a 0) eqn:E; simpl; rewrite IH; [|reflexivity]. apply Qeq_bool_iff in E. rewrite E. ring.
Qed.

Lemma nonzero_row_cols d i c a : In (c, a) (nonzero_row d i) -> i <= c < i + List.length d.
Proof.
  revert i; induction d as [|v d IH]; intro i; simpl; [tauto|]. destruct (Qeq_bool v 0).
  - intro H. apply IH in H. lia.
  - intros [E|H]; [injection E as <- <-; lia|]. apply IH in H. lia.
Qed.

Lemma dot_vals_eq d k cvo xs :
  (dot_vals (map snd (nonzero_row d k)) (map xs (map (fun e => (fst e + cvo)%nat) (nonzero_row d k))) == ldot d k (fun i => xs (cvo + i)%nat))%Q.
Proof.
  rewrite <- reval_nonzero_row. generalize (nonzero_row d k) as r. induction r as [|[c a] r IH]; unfold dot_vals in *; simpl; [reflexivity|].
  rewrite IH. rewrite (Nat.add_comm c cvo). ring.
Qed.

Lemma ldot_opp d off x : (ldot (map Qopp d) off x == - ldot d off x)%Q.
Proof. revert off; induction d as [|a d IH]; intro off; simpl; [reflexivity|]. rewrite IH. ring. Qed.

Section WithSolver.
Variable solve : solver.
Hypothesis Hsolve : solver_ok solve.

Lemma agg_dir_spec ls width d mx mn ls' mx' mn' :
  agg_dir solve ls width d mx mn = Ok (ls', mx', mn') ->
  Forall2 same_but_obj ls ls' /\ (forall l, In l ls -> l_dims l = width /\ exists p, in_lp l p)
  /\ (forall p, in_any ls p -> exists a, mx' = Some a /\ (ldot d 0 p <= a)%Q)
  /\ (forall p, in_any ls p -> exists a, mn' = Some a /\ (a <= ldot d 0 p)%Q)
  /\ (forall a, mx = Some a -> exists b, mx' = Some b /\ (a <= b)%Q)
  /\ (forall a, mn = Some a -> exists b, mn' = Some b /\ (b <= a)%Q)
  /\ (forall a, mx' = Some a -> mx = Some a \/ exists p, in_any ls p /\ (ldot d 0 p == a)%Q)
  /\ (forall a, mn' = Some a -> mn = Some a \/ exists p, in_any ls p /\ (ldot d 0 p == a)%Q).
Proof.
  revert mx mn ls' mx' mn'. induction ls as [|l ls IH]; intros mx mn ls' mx' mn' H; cbn [agg_dir] in H.
  - injection H as <- <- <-. split; [constructor|]. split; [simpl; tauto|].
    split; [intros p (l & [] & _)|]. split; [intros p (l & [] & _)|].
    split; [intros a ->; exists a; split; [auto|lra]|]. split; [intros a ->; exists a; split; [auto|lra]|]. split; auto.
  - inv_bind H. apply assert_ok, Nat.eqb_eq in H1. inv_bind H. inv_bind H. inv_bind H. inv_bind H.
    rename a0 into l1, a1 into v1, a2 into l2, a3 into v2. rename H0 into E1, H2 into E2, H3 into E3, H4 into E4.
    destruct v1 as [v1|]; [|discriminate]. destruct v2 as [v2|]; [|discriminate].
    inv_bind H. destruct a0 as [[ls2 a1] b1]. injection H as <- <- <-. rename H0 into Hrec.
    assert (El1 := E1). apply set_min_dir_ok in El1 as [_ El1]. assert (El2 := E3). apply set_min_dir_ok in El2 as [_ El2].
    destruct (min_dir_spec solve Hsolve _ _ _ _ _ _ E1 E2) as (xa & Ea & _ & Ia & Ma).
    destruct (min_dir_spec solve Hsolve _ _ _ _ _ _ E3 E4) as (xb & Eb & _ & Ib & Mb).
    rewrite El1 in Ib, Mb. cbn [l_cvo with_obj] in Ib, Mb. change (forall p, in_lp l p -> (ldot d 0 (fun i => xb (l_cvo l + i)%nat) <= ldot d 0 p)%Q) in Mb.
    change (in_lp l (fun i => xb (l_cvo l + i))) in Ib.
    assert (Va : (dot_vals (map snd (nonzero_row d 0)) v1 == ldot d 0 (fun i => xa (l_cvo l + i)%nat))%Q).
    { rewrite Ea. apply dot_vals_eq. }
    assert (Vb : (dot_vals (map snd (nonzero_row d 0)) v2 == ldot d 0 (fun i => xb (l_cvo l + i)%nat))%Q).
    { rewrite Eb. apply dot_vals_eq. }
    destruct (omax_spec mx (dot_vals (map snd (nonzero_row d 0)) v1)) as (ma & Ema & Hma1 & Hma2 & Hma3).
    destruct (omin_spec mn (dot_vals (map snd (nonzero_row d 0)) v2)) as (mb & Emb & Hmb1 & Hmb2 & Hmb3).
    rewrite Ema, Emb in Hrec. apply IH in Hrec as (F & N & A1 & A2 & B1 & B2 & C1 & C2).
    destruct (B1 ma eq_refl) as (fa & Efa & Hfa). destruct (B2 mb eq_refl) as (fb & Efb & Hfb). rewrite Efa, Efb in *.
    split; [|split; [|split; [|split; [|split; [|split; [|split]]]]]].
    + constructor; auto. exists (dense_row d (l_cvo l)). rewrite El2, El1. reflexivity.
    + intros l0 [<-|Hl]; auto. split; [auto|]. eexists; exact Ia.
    + intros p (l0 & [<-|Hl] & Hp).
      * exists fa. split; auto. specialize (Ma p Hp). rewrite !ldot_opp in Ma. rewrite Va in Hma1. lra.
      * destruct (A1 p) as (a0 & E & Ha); [exists l0; auto|]. exists a0. auto.
    + intros p (l0 & [<-|Hl] & Hp).
      * exists fb. split; auto. specialize (Mb p Hp). rewrite Vb in Hmb1. lra.
      * destruct (A2 p) as (a0 & E & Ha); [exists l0; auto|]. exists a0. auto.
    + intros a0 ->. exists fa. split; auto. specialize (Hma2 a0 eq_refl). lra.
    + intros a0 ->. exists fb. split; auto. specialize (Hmb2 a0 eq_refl). lra.
    + intros a0 E. injection E as <-. destruct (C1 fa eq_refl) as [E|(p & (l0 & Hl & Hp) & Hpe)].
      * injection E as ->. destruct Hma3 as [->|E]; auto. right. eexists. split; [exists l; split; [simpl; auto|exact Ia]|]. symmetry; exact Va.
      * right. exists p. split; auto. exists l0. simpl; auto.
    + intros a0 E. injection E as <-. destruct (C2 fb eq_refl) as [E|(p & (l0 & Hl & Hp) & Hpe)].
      * injection E as ->. destruct Hmb3 as [->|E]; auto. right. eexists. split; [exists l; split; [simpl; auto|exact Ib]|]. symmetry; exact Vb.
      * right. exists p. split; auto. exists l0. simpl; auto.
Qed.

(** p is between extreme points of the set in every used direction *)
Lemma between_ext (S1 S2 : vec -> Prop) d p : (forall q, S1 q <-> S2 q) -> between S1 d p <-> between S2 d p.
Proof. intro H. unfold between. split; intros [(q & A & B) (q' & C & D)]; split; [exists q|exists q'|exists q|exists q']; split; auto; apply H; auto. Qed.

Lemma same_but_obj_refl l : same_but_obj l l.
Proof. exists (l_obj l). destruct l; reflexivity. Qed.

Lemma Forall2_refl_obj ls : Forall2 same_but_obj ls ls.
Proof. induction ls; constructor; auto using same_but_obj_refl. Qed.

Lemma Forall2_trans_obj a b c : Forall2 same_but_obj a b -> Forall2 same_but_obj b c -> Forall2 same_but_obj a c.
Proof.
  intro H. revert c. induction H as [|x y a b (o & ->) H IH]; intros c Hc; inversion Hc as [|? z ? c' Hz Hc']; subst; constructor; auto.
Qed.

Lemma agg_dirs_spec dirs : forall ls width ls' rows rhs,
  agg_dirs solve ls width dirs = Ok (ls', rows, rhs) ->
  Forall2 same_but_obj ls ls' /\
  (forall p, poly rows rhs p <-> forall d, In d dirs -> dir_used d = true -> between (in_any ls) d p) /\
  List.length rows = List.length rhs /\
  (forall r, In r rows -> exists d, In d dirs /\ forall c a, In (c, a) r -> c < List.length d) /\
  ((exists d, In d dirs /\ dir_used d = true) -> forall l, In l ls -> l_dims l = width /\ exists p, in_lp l p).
Proof.
  induction dirs as [|d dirs IH]; intros ls width ls' rows rhs H; cbn [agg_dirs] in H.
  - injection H as <- <- <-. split; [apply Forall2_refl_obj|]. split.
    + intro p. split; [simpl; tauto|]. intros _ i r c A. destruct i; discriminate.
    + split; [reflexivity|]. split; [intros r []|]. intros (d & [] & _).
  - destruct (dir_used d) eqn:Eu.
    + inv_bind H. destruct a as [[ls1 mx] mn]. destruct mx as [a|]; [|discriminate]. destruct mn as [b|]; [|discriminate].
      inv_bind H. destruct a0 as [[ls2 rows2] rhs2]. injection H as <- <- <-. rename H1 into Hd, H0 into Hrec.
      apply agg_dir_spec in Hd as (F & N & A1 & A2 & _ & _ & C1 & C2).
      apply IH in Hrec as (F2 & P & L & Cc & N2). split; [eapply Forall2_trans_obj; eauto|]. split; [|split; [|split]].
      * intro p. rewrite !poly_cons, P. rewrite reval_scale, reval_nonzero_row.
        assert (B : (ldot d 0 p <= a)%Q /\ (-1 * ldot d 0 p <= - b)%Q <-> between (in_any ls) d p).
        { unfold between. split.
          - intros [Ha Hb]. destruct (C1 a eq_refl) as [E|(q & Hq & Eq)]; [discriminate|]. destruct (C2 b eq_refl) as [E|(q2 & Hq2 & Eq2)]; [discriminate|].
            split; [exists q|exists q2]; split; auto; lra.
          - intros [(q & Hq & Ha) (q2 & Hq2 & Hb)]. destruct (A1 q Hq) as (a' & E & Hle). injection E as <-.
            destruct (A2 q2 Hq2) as (b' & E & Hle2). injection E as <-. lra. }
        split.
        -- intros (Ha & Hb & Hr) d0 [<-|Hin] Hu; [apply B; auto|]. rewrite <- (between_ext (in_any ls1)) by (intro; apply same_but_obj_any; auto). auto.
        -- intros Hall. destruct (proj2 B) as [Ha Hb]; [apply Hall; simpl; auto|]. split; auto. split; auto.
           intros d0 Hin Hu. rewrite (between_ext (in_any ls1) (in_any ls)) by (intro; apply same_but_obj_any; auto). apply Hall; simpl; auto.
      * simpl. congruence.
      * intros r [<-|[<-|Hr]].
        -- exists d. split; [simpl; auto|]. intros c v Hin. apply nonzero_row_cols in Hin. lia.
        -- exists d. split; [simpl; auto|]. intros c v Hin. unfold scale_row in Hin. apply in_map_iff in Hin as ([c' v'] & E & Hin).
           injection E as <- <-. apply nonzero_row_cols in Hin. simpl. lia.
        -- destruct (Cc r Hr) as (d0 & Hd0 & Hc). exists d0. simpl; auto.
      * intros _. exact N.
    + apply IH in H as (F & P & L & Cc & N). split; auto. split; [|split; [|split]].
      * intro p. rewrite P. split; [intros Hall d0 [<-|Hin] Hu; [congruence|auto]|intros Hall d0 Hin Hu; apply Hall; simpl; auto].
      * auto.
      * intros r Hr. destruct (Cc r Hr) as (d0 & Hd0 & Hc). exists d0. simpl; auto.
      * intros (d0 & [<-|Hin] & Hu); [congruence|]. apply N. eauto.
Qed.

Theorem aggregate_in ls dirs width mid hi ls' l : aggregate solve ls dirs width mid hi = Ok (ls', l) ->
  Forall2 same_but_obj ls ls' /\ l_dims l = width /\
  forall p, in_lp l p <-> forall d, In d dirs -> dir_used d = true -> between (in_any ls) d p.
Proof.
  intro H. unfold aggregate in H. inv_bind H. inv_bind H. inv_bind H. destruct (forallb _ dirs) eqn:Eb in H2; [|discriminate].
  inv_bind H. destruct a2 as [[ls2 rows] rhs]. inv_bind H. injection H as <- <-.
  apply agg_dirs_spec in H3 as (F & P & L & Cc & N). split; auto.
  assert (Hok : csr_ok (mkCsr width rows)).
  { unfold csr_ok. cbn [c_rows c_nc]. apply Forall_forall. intros r Hr. apply Forall_forall. intros [c v] Hin. cbn [fst].
    destruct (Cc r Hr) as (d & Hd & Hc). specialize (Hc c v Hin). rewrite forallb_forall in Eb. specialize (Eb d Hd).
    apply Nat.eqb_eq in Eb. lia. }
  destruct (from_constraints_in_full solve Hsolve _ _ _ _ _ Hok H4) as [Hd Hin]. split; auto.
  intro p. rewrite Hin. apply P.
Qed.

(** over-approximation *)
Lemma aggregate_over ls dirs width mid hi ls' l : aggregate solve ls dirs width mid hi = Ok (ls', l) ->
  forall s p, In s ls -> in_lp s p -> in_lp l p.
Proof.
  intros H s p Hs Hp. apply aggregate_in in H as (_ & _ & Hin). apply Hin. intros d _ _.
  split; exists p; (split; [exists s; auto|lra]).
Qed.

End WithSolver.
