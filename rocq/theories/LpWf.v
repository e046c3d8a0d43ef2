(** Structural invariant of the LPs built by lputil, and the meaning of such LPs. *)
From Verif Require Import Base BaseFacts LpModel LpSpec LpFacts.
Open Scope nat_scope.

Definition is_bm (l : lp) (i : nat) : Prop := fst (l_bm l) <= i < fst (l_bm l) + l_dims l.
Definition is_ie (l : lp) (i : nat) : Prop :=
  match l_ie l with Some (r, _) => r <= i < r + l_dims l | None => False end.

Lemma is_bm_dec l i : is_bm l i \/ ~ is_bm l i.
Proof. unfold is_bm. lia. Qed.
Lemma is_ie_dec l i : is_ie l i \/ ~ is_ie l i.
Proof. unfold is_ie. destruct (l_ie l) as [[r c]|]; [lia|tauto]. Qed.

(** all rows except the basis-matrix rows and the input-effect rows *)
Definition core_sat (l : lp) (x : vec) : Prop :=
  forall i r, nth_error (l_rows l) i = Some r -> ~ is_bm l i -> ~ is_ie l i -> row_sat r x.

(** accumulated-input column of dimension i *)
Definition ti (l : lp) (x : vec) (i : nat) : Q := match l_ie l with Some (_, c) => x (c + i) | None => 0%Q end.

(** first column after the current (and accumulated-input) columns *)
Definition uoff (l : lp) : nat := match l_ie l with Some (_, c) => c + l_dims l | None => l_cvo l + l_dims l end.

Fixpoint ie_val (nu : nat) (IEs : list mat) (i off : nat) (x : vec) : Q :=
  match IEs with
  | [] => 0
  | IE :: r => (ldot (mrow IE i) off x + ie_val nu r i (off + nu) x)%Q
  end.

Record wf_lp (l : lp) (BM : mat) (nu : nat) (IEs : list mat) : Prop := {
  wf_cols : lp_cols_ok l;
  wf_bmdims : mat_dims (l_dims l) (l_dims l) BM;
  wf_bmc : snd (l_bm l) + l_dims l <= l_cvo l;
  wf_cvo : l_cvo l + l_dims l <= l_nc l;
  wf_bmrows : forall i, i < l_dims l -> exists co,
      nth_error (l_rows l) (fst (l_bm l) + i) = Some (mkRow FX co 0%Q)
      /\ forall x, (reval co x == ldot (mrow BM i) (snd (l_bm l)) x - x (l_cvo l + i)%nat + ti l x i)%Q;
  wf_core : forall i r, nth_error (l_rows l) i = Some r -> ~ is_bm l i -> ~ is_ie l i ->
      forall c a, In (c, a) (r_co r) -> c < l_cvo l \/ uoff l <= c;
  wf_ies : match l_ie l with
           | None => IEs = []
           | Some (ier, iec) =>
               iec = l_cvo l + l_dims l /\ fst (l_bm l) + l_dims l <= ier
               /\ l_nc l = iec + l_dims l + nu * List.length IEs
               /\ Forall (mat_dims (l_dims l) nu) IEs
               /\ forall i, i < l_dims l -> exists co,
                    nth_error (l_rows l) (ier + i) = Some (mkRow FX co 0%Q)
                    /\ forall x, (reval co x == - x (iec + i)%nat + ie_val nu IEs i (iec + l_dims l) x)%Q
           end }.

(** The point computed from the initial-time and input columns. *)
Definition cur_of (l : lp) (BM : mat) (nu : nat) (IEs : list mat) (x : vec) : vec :=
  fun i => (ldot (mrow BM i) (snd (l_bm l)) x + ie_val nu IEs i (uoff l) x)%Q.

Lemma ie_val_ext nu IEs i off n x y :
  Forall (mat_dims n nu) IEs -> i < n ->
  (forall c, off <= c < off + nu * List.length IEs -> (x c == y c)%Q) ->
  (ie_val nu IEs i off x == ie_val nu IEs i off y)%Q.
Proof.
  intros HF Hi. revert off. induction IEs as [|IE IEs IH]; intros off H; simpl; [reflexivity|].
  inversion HF as [|? ? HIE HF']; subst.
  rewrite (ldot_ext _ _ x y).
  - rewrite (IH HF' (off + nu)); [reflexivity|]. intros c Hc. apply H. simpl. lia.
  - intros j Hj. rewrite (mat_dims_mrow _ _ _ _ HIE Hi) in Hj. apply H. simpl. lia.
Qed.

Lemma wf_uoff l BM nu IEs : wf_lp l BM nu IEs -> l_cvo l + l_dims l <= uoff l.
Proof.
  intro W. unfold uoff. pose proof (wf_ies _ _ _ _ W) as H. destruct (l_ie l) as [[r c]|]; [|lia].
  destruct H as (H & _). lia.
Qed.

Lemma wf_IEs_None l BM nu IEs : wf_lp l BM nu IEs -> l_ie l = None -> IEs = [].
Proof. intros W H. pose proof (wf_ies _ _ _ _ W) as H'. rewrite H in H'. exact H'. Qed.

Lemma wf_IEs_dims l BM nu IEs : wf_lp l BM nu IEs -> Forall (mat_dims (l_dims l) nu) IEs.
Proof.
  intro W. pose proof (wf_ies _ _ _ _ W) as H'. destruct (l_ie l) as [[r c]|].
  - apply H'.
  - subst; constructor.
Qed.

(** Splitting satisfaction into the three groups of rows. *)
Lemma wf_sat l BM nu IEs x : wf_lp l BM nu IEs ->
  lp_sat l x <-> core_sat l x /\ forall i, i < l_dims l -> (x (l_cvo l + i)%nat == cur_of l BM nu IEs x i)%Q
                                    /\ match l_ie l with
                                       | Some (_, iec) => (x (iec + i)%nat == ie_val nu IEs i (uoff l) x)%Q
                                       | None => True end.
Proof.
  intro W. rewrite lp_sat_nth. split.
  - intro H. split.
    + intros i r Hr _ _. eauto.
    + intros i Hi. destruct (wf_bmrows _ _ _ _ W i Hi) as (co & Hn & Hv).
      assert (H1 : (reval co x == 0)%Q) by (exact (H _ _ Hn)). rewrite Hv in H1. unfold ti in H1. unfold cur_of.
      pose proof (wf_ies _ _ _ _ W) as HI. destruct (l_ie l) as [[ier iec]|] eqn:E.
      * destruct HI as (Hiec & Hle & Hnc & HF & HR). destruct (HR i Hi) as (co2 & Hn2 & Hv2).
        assert (H2 : (reval co2 x == 0)%Q) by (exact (H _ _ Hn2)). rewrite Hv2 in H2.
        unfold uoff. rewrite E. split; lra.
      * subst IEs. simpl. split; auto. lra.
  - intros [Hc He] i r Hr.
    destruct (is_bm_dec l i) as [Hb|Hb].
    { unfold is_bm in Hb. destruct (wf_bmrows _ _ _ _ W (i - fst (l_bm l)) ltac:(lia)) as (co & Hn & Hv).
      replace (fst (l_bm l) + (i - fst (l_bm l))) with i in Hn by lia.
      rewrite Hr in Hn; inversion Hn; subst. apply row_sat_FX0. rewrite Hv.
      destruct (He (i - fst (l_bm l)) ltac:(lia)) as [E1 E2]. rewrite E1. unfold cur_of, ti.
      pose proof (wf_ies _ _ _ _ W) as HI.
      destruct (l_ie l) as [[ier iec]|] eqn:E; [rewrite E2; lra|]. subst IEs. simpl. lra. }
    destruct (is_ie_dec l i) as [Hi|Hi].
    { pose proof (wf_ies _ _ _ _ W) as HI. unfold is_ie in Hi.
      destruct (l_ie l) as [[ier iec]|] eqn:E; [|tauto].
      destruct HI as (Hiec & Hle & Hnc & HF & HR). destruct (HR (i - ier) ltac:(lia)) as (co2 & Hn2 & Hv2).
      replace (ier + (i - ier)) with i in Hn2 by lia. rewrite Hr in Hn2; inversion Hn2; subst r.
      apply row_sat_FX0. rewrite Hv2. destruct (He (i - ier) ltac:(lia)) as [E1 E2].
      unfold uoff in E2. rewrite E in E2. rewrite E2. lra. }
    eapply Hc; eauto.
Qed.

Lemma core_sat_ext l BM nu IEs x y : wf_lp l BM nu IEs ->
  (forall c, c < l_nc l -> (c < l_cvo l \/ uoff l <= c) -> (x c == y c)%Q) -> core_sat l x -> core_sat l y.
Proof.
  intros W H Hx i r Hr Hb Hi. apply (row_sat_ext r x y); [|eapply Hx; eauto].
  intros c a Hin. apply H.
  - pose proof (wf_cols _ _ _ _ W) as Hc. rewrite lp_cols_nth in Hc. eapply row_cols_lt_In; eauto.
  - eapply wf_core; eauto.
Qed.

(** The set of a well-formed LP: all points computed from columns satisfying the core rows. *)
Lemma wf_in_lp l BM nu IEs p : wf_lp l BM nu IEs ->
  in_lp l p <-> exists x, core_sat l x /\ forall i, i < l_dims l -> (p i == cur_of l BM nu IEs x i)%Q.
Proof.
  intro W. split.
  - intros (x & Hx & Hp). apply (wf_sat _ _ _ _ _ W) in Hx as [Hc He]. exists x; split; auto.
    intros i Hi. rewrite <- Hp by auto. apply He; auto.
  - intros (x & Hc & Hp).
    set (n := l_dims l).
    set (x1 := upd x (l_cvo l) n (cur_of l BM nu IEs x)).
    set (x2 := match l_ie l with
               | Some (_, iec) => upd x1 iec n (fun i => ie_val nu IEs i (uoff l) x)
               | None => x1 end).
    assert (Huo := wf_uoff _ _ _ _ W). assert (Hbc := wf_bmc _ _ _ _ W).
    pose proof (wf_ies _ _ _ _ W) as HI.
    assert (Hsame : forall c, (c < l_cvo l \/ uoff l <= c) -> x2 c = x c).
    { intros c Hcc. unfold x2, x1, uoff in *. destruct (l_ie l) as [[ier iec]|].
      - destruct HI as (Hiec & _). rewrite upd_out by (unfold n; lia). apply upd_out. unfold n; lia.
      - apply upd_out. unfold n; lia. }
    assert (Hcur : forall i, i < n -> x2 (l_cvo l + i) = cur_of l BM nu IEs x i).
    { intros i Hi. unfold x2. destruct (l_ie l) as [[ier iec]|].
      - destruct HI as (Hiec & _). rewrite upd_out by (unfold n in *; lia). unfold x1. apply upd_in; auto.
      - unfold x1. apply upd_in; auto. }
    assert (Hval : forall i, i < n -> (ie_val nu IEs i (uoff l) x2 == ie_val nu IEs i (uoff l) x)%Q).
    { intros i Hi. eapply ie_val_ext; [apply (wf_IEs_dims _ _ _ _ W)|exact Hi|].
      intros c Hcc. rewrite Hsame by lia. reflexivity. }
    assert (Hcur2 : forall i, i < n -> (cur_of l BM nu IEs x2 i == cur_of l BM nu IEs x i)%Q).
    { intros i Hi. unfold cur_of. rewrite Hval by auto.
      apply Qplus_comp; [|reflexivity]. apply ldot_ext. intros j Hj.
      rewrite (mat_dims_mrow _ _ _ _ (wf_bmdims _ _ _ _ W) Hi) in Hj. rewrite Hsame by lia. reflexivity. }
    exists x2. split.
    + apply (wf_sat _ _ _ _ _ W). split.
      * eapply core_sat_ext; [exact W| |exact Hc]. intros c _ Hcc. rewrite Hsame by auto. reflexivity.
      * intros i Hi. split.
        -- rewrite Hcur by auto. symmetry. apply Hcur2; auto.
        -- destruct (l_ie l) as [[ier iec]|] eqn:E; auto. rewrite Hval by auto. unfold x2. rewrite upd_in by auto. reflexivity.
    + intros i Hi. rewrite Hcur by auto. symmetry. apply Hp; auto.
Qed.
