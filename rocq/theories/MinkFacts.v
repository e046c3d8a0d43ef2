(** Minkowski sums (lputil.py:1079-1140). *)
From Verif Require Import Base BaseFacts LpModel LpSpec SetSpec LpFacts LpWf LpUtil SetFacts SetFacts2.
Open Scope nat_scope.

(** No '>=' rows: true of every LP the code builds (get_rhs would return +DBL_MAX for them, see lpinstance.py:811). *)
Definition no_lo (l : lp) : Prop := Forall (fun r => r_ty r <> LO) (l_rows l).
(** rows within the columns, current-time columns exist *)
Definition lp_ok (l : lp) : Prop := lp_cols_ok l /\ l_cvo l + l_dims l <= l_nc l.

Fixpoint mink_sat (off : nat) (ls : list lp) (x : vec) : Prop :=
  match ls with
  | [] => True
  | l :: ls' => lp_sat l (fun c => x (off + c)) /\ mink_sat (off + l_nc l) ls' x
  end.

Lemma row_ub_nolo r : r_ty r <> LO -> row_ub r = r_rhs r.
Proof. unfold row_ub. destruct (r_ty r); congruence. Qed.

Lemma tpoly_rows off rs x : Forall (fun r => r_ty r <> LO) rs ->
  tpoly (map (fun r => shift_row off (r_co r)) rs) (map r_ty rs) (map row_ub rs) x <-> Forall (fun r => row_sat r (fun c => x (off + c))) rs.
Proof.
  induction rs as [|r rs IH]; intro H; simpl.
  - split; [constructor|intro; apply tpoly_nil].
  - inversion H; subst. rewrite tpoly_cons, IH by auto. rewrite Forall_cons_iff.
    assert (E : row_sat (mkRow (r_ty r) (shift_row off (r_co r)) (row_ub r)) x <-> row_sat r (fun c => x (off + c))).
    { unfold row_sat. simpl. rewrite row_ub_nolo by auto. destruct (r_ty r); rewrite reval_shift; reflexivity. }
    rewrite E. reflexivity.
Qed.

Lemma mink_rows_sat off ls x : Forall no_lo ls ->
  tpoly (mink_rows off ls) (flat_map get_types ls) (flat_map get_rhs ls) x <-> mink_sat off ls x.
Proof.
  revert off; induction ls as [|l ls IH]; intros off H; simpl.
  - split; auto using tpoly_nil.
  - inversion H; subst. rewrite tpoly_app; unfold get_types, get_rhs; rewrite ?map_length; auto.
    rewrite tpoly_rows by auto. fold (get_types). rewrite IH by auto. reflexivity.
Qed.

Lemma mink_cur_cols off d ls c a : Forall lp_ok ls -> (forall l, In l ls -> d < l_dims l) ->
  In (c, a) (mink_cur_entries off d ls) -> off <= c < off + list_sum (map l_nc ls).
Proof.
  revert off; induction ls as [|l ls IH]; intros off H Hd; simpl; [tauto|].
  inversion H as [|? ? [_ Hl] Hf]; subst. intros [E|Hin].
  - inversion E; subst. specialize (Hd l (or_introl eq_refl)). lia.
  - apply IH in Hin; auto; [lia|]. intros l' Hl'; apply Hd; right; auto.
Qed.

Lemma mink_sat_ext off ls x y : Forall lp_ok ls -> (forall c, off <= c -> (x c == y c)%Q) -> mink_sat off ls x -> mink_sat off ls y.
Proof.
  revert off; induction ls as [|l ls IH]; intros off H Hxy; simpl; auto.
  inversion H as [|? ? [Hc Hl] Hf]; subst. intros [H1 H2]. split.
  - eapply lp_sat_ext; [exact Hc| |exact H1]. intros i Hi. apply Hxy. lia.
  - eapply IH; eauto. intros c Hcc. apply Hxy. lia.
Qed.

Lemma mink_build n ls off r : Forall lp_ok ls -> (forall l, In l ls -> l_dims l = n) -> in_sum n ls r ->
  exists x, mink_sat off ls x /\ forall d, d < n -> (reval (mink_cur_entries off d ls) x == - r d)%Q.
Proof.
  revert off r; induction ls as [|l ls IH]; intros off r H Hd Hs; simpl in *.
  - exists vzero. split; auto. intros d Hd'. rewrite Hs by auto. reflexivity.
  - destruct Hs as (q & r' & Hq & Hr' & E). inversion H as [|? ? [Hc Hl] Hf]; subst.
    destruct (IH (off + l_nc l) r' Hf ltac:(auto) Hr') as (x' & Hx' & Hrx').
    destruct Hq as (y & Hy & Hyq). assert (Hdl : l_dims l = n) by auto.
    exists (upd x' off (l_nc l) y). split; [split|].
    + eapply lp_sat_ext; [exact Hc| |exact Hy]. intros i Hi. rewrite upd_in by auto. reflexivity.
    + eapply mink_sat_ext; [exact Hf| |exact Hx']. intros c Hcc. rewrite upd_out by lia. reflexivity.
    + intros d Hdn. rewrite <- Nat.add_assoc. rewrite upd_in by lia.
      rewrite (reval_ext (mink_cur_entries (off + l_nc l) d ls) _ x').
      * rewrite Hrx' by auto. rewrite Hyq by lia. rewrite E by auto. ring.
      * intros c a Hin. apply mink_cur_cols in Hin; auto; [rewrite upd_out by lia; reflexivity|].
        intros l' Hl'. rewrite Hd; auto.
Qed.

Lemma mink_split n ls off x : (forall l, In l ls -> l_dims l = n) -> mink_sat off ls x ->
  in_sum n ls (fun d => - reval (mink_cur_entries off d ls) x)%Q.
Proof.
  revert off; induction ls as [|l ls IH]; intros off Hd Hs; simpl in *.
  - intros; reflexivity.
  - destruct Hs as [H1 H2]. exists (fun i => x (off + (l_cvo l + i))), (fun d => - reval (mink_cur_entries (off + l_nc l) d ls) x)%Q.
    split; [|split].
    + exists (fun c => x (off + c)). split; auto. intros; reflexivity.
    + apply IH; auto.
    + intros i Hi. rewrite Nat.add_assoc. ring.
Qed.

Lemma in_sum_ext n ls p q : (forall i, i < n -> (p i == q i)%Q) -> in_sum n ls p -> in_sum n ls q.
Proof.
  destruct ls as [|l ls]; simpl; intros H.
  - intros Hp i Hi. rewrite <- H by auto. auto.
  - intros (a & b & H1 & H2 & H3). exists a, b. repeat split; auto. intros i Hi. rewrite <- H by auto. auto.
Qed.

Section WithSolver.
Variable solve : solver.
Hypothesis Hsolve : solver_ok solve.

Lemma mink_rows_cols off ls co : Forall lp_ok ls -> In co (mink_rows off ls) -> row_cols_lt (off + list_sum (map l_nc ls)) co.
Proof.
  revert off; induction ls as [|l ls IH]; intros off H; simpl; [tauto|]. inversion H as [|? ? [Hc Hl] Hf]; subst.
  rewrite in_app_iff, in_map_iff. intros [(r & <- & Hr)|Hin].
  - eapply row_cols_lt_mono; [|apply row_cols_lt_shift]; [|unfold lp_cols_ok in Hc; rewrite Forall_forall in Hc; apply Hc; auto]. lia.
  - apply IH in Hin; auto. eapply row_cols_lt_mono; [|exact Hin]. lia.
Qed.

Lemma mink_names_length i ls : List.length (mink_names i ls) = list_sum (map l_nc ls).
Proof. revert i; induction ls; intro i; simpl; auto. rewrite app_length, map_length, seq_length, IHls. reflexivity. Qed.

Lemma minkowski_sum_in ls mid hi l :
  Forall lp_ok ls -> Forall no_lo ls -> minkowski_sum solve ls mid hi = Ok l ->
  (forall s, In s ls -> l_dims s = l_dims l) /\ forall p, in_lp l p <-> in_sum (l_dims l) ls p.
Proof.
  intros Hok Hlo. unfold minkowski_sum. destruct ls as [|l0 ls']; [discriminate|]. set (ls := l0 :: ls') in *. intro H.
  inv_bind H. apply assert_ok in H1. rewrite forallb_forall in H1. set (n := l_dims l0) in *.
  assert (Hdim : forall s, In s ls -> l_dims s = n) by (intros s Hs; apply Nat.eqb_eq, H1; auto).
  match type of H with from_constraints _ ?m0 ?r0 _ _ (Some (?t0, ?n0)) _ = _ =>
    set (M := m0) in *; set (R := r0) in *; set (T := t0) in *; set (N := n0) in * end.
  assert (HokM : csr_ok M).
  { unfold csr_ok, M. cbn [c_nc c_rows]. apply Forall_app. split.
    - apply Forall_forall. intros r Hr. apply in_map_iff in Hr as [d [<- Hd]]. apply in_seq in Hd.
      constructor; [simpl; lia|]. apply Forall_forall. intros [c v] Hin.
      apply mink_cur_cols in Hin; auto; [exact (proj2 Hin)|]. intros s Hs. rewrite Hdim; auto; lia.
    - apply Forall_forall. intros r Hr. apply mink_rows_cols; auto. }
  assert (HN : List.length N = c_nc M).
  { unfold N, M. cbn [c_nc]. rewrite app_length, mink_names_length, map_length, seq_length. reflexivity. }
  pose proof (from_constraints_wf solve Hsolve _ _ _ _ (Some (T, N)) (Some n) _ 0 HokM HN H) as (_ & Hd & _).
  simpl in Hd. split; [rewrite Hd; auto|]. intro p.
  rewrite (from_constraints_in solve Hsolve _ _ _ _ (Some (T, N)) (Some n) _ HokM HN H). rewrite Hd. simpl fc_types.
  assert (HP : forall x, tpoly (c_rows M) T R x <-> (forall d, d < n -> (x d == - reval (mink_cur_entries n d ls) x)%Q) /\ mink_sat n ls x).
  { intro x. unfold M, T, R. cbn [c_rows]. rewrite tpoly_app by (rewrite ?map_length, ?seq_length, ?repeat_length; auto).
    rewrite mink_rows_sat by auto. apply and_iff_compat_r. unfold tpoly. split.
    - intros Hx d Hdn. assert (S : row_sat (mkRow FX ((d, 1%Q) :: mink_cur_entries n d ls) 0%Q) x).
      { apply (Hx d); [rewrite nth_error_map_seq by auto; reflexivity|apply nth_error_repeat; auto|apply nth_error_repeat; auto]. }
      unfold row_sat in S; cbn [r_ty r_co r_rhs reval] in S. lra.
    - intros Hx i r t c E1 E2 E3. apply nth_error_map_seq_inv in E1 as [Hi ->]. apply nth_error_repeat in E2 as [_ ->].
      apply nth_error_repeat in E3 as [_ ->]. unfold row_sat; cbn [r_ty r_co r_rhs reval]. rewrite Nat.add_0_l. rewrite (Hx i) by auto. ring. }
  split.
  - intros (x & Hx & Hp). apply HP in Hx as [Hc Hs]. eapply in_sum_ext; [|eapply mink_split; eauto].
    intros i Hi. cbv beta. rewrite <- (Hc i Hi). apply Hp; auto.
  - intro Hs. destruct (mink_build n ls n p Hok Hdim Hs) as (x & Hx & Hr).
    exists (upd x 0 n p). split.
    + apply HP. split.
      * intros d Hdn. assert (E : upd x 0 n p d = p d) by (apply (upd_in x 0 n p d); auto). rewrite E.
        rewrite (reval_ext (mink_cur_entries n d ls) _ x).
        -- rewrite Hr by auto. ring.
        -- intros c v Hin. apply mink_cur_cols in Hin; auto; [rewrite upd_out by lia; reflexivity|]. intros s Hss. rewrite Hdim; auto.
      * eapply mink_sat_ext; [exact Hok| |exact Hx]. intros c Hcc. rewrite upd_out by lia. reflexivity.
    + intros i Hi. assert (E : upd x 0 n p i = p i) by (apply (upd_in x 0 n p i); auto). rewrite E. reflexivity.
Qed.

Lemma minkowski_sum_empty mid hi : minkowski_sum solve [] mid hi = Err EIndex.
Proof. reflexivity. Qed.

End WithSolver.
