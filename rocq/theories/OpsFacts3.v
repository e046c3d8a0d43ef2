(** Operations on LPs: resets, current-time constraints, membership, box centre (lputil.py:680-873, 1024-1058). *)
From Verif Require Import Base BaseFacts LpModel LpSpec SetSpec LpFacts LpWf LpUtil SetFacts SetFacts2 MinkFacts OpsFacts OpsFacts2.
Open Scope nat_scope.

(** ** add_curtime_constraints *)
Lemma add_curtime_ok l m rhs l' : c_nr m = List.length rhs -> add_curtime_constraints l m rhs = Ok l' ->
  l' = with_rows l (l_rows l ++ mk_rows (repeat UP (List.length rhs)) (map (shift_row (l_cvo l)) (c_rows m)) rhs)
  /\ l_cvo l + c_nc m <= l_nc l.
Proof.
  intros Hnr H. unfold add_curtime_constraints in H. apply set_constraints_csr_ok in H as [-> [_ H2]].
  split; [|exact H2]. unfold add_rows_le, with_rows. cbn [l_rows l_names l_dims l_bm l_cvo l_ie l_obj fst snd]. f_equal.
  unfold l_nr. rewrite set_coefs_end. f_equal. rewrite zip_rows_UP. apply overwrite_zip_rows.
  - apply repeat_length.
  - rewrite map_length. exact Hnr.
Qed.

Lemma add_curtime_sat l m rhs l' x : c_nr m = List.length rhs -> add_curtime_constraints l m rhs = Ok l' ->
  lp_sat l' x <-> lp_sat l x /\ poly (c_rows m) rhs (fun i => x (l_cvo l + i)).
Proof.
  intros Hnr H. apply add_curtime_ok in H as [-> _]; auto. unfold lp_sat. cbn [l_rows with_rows].
  rewrite Forall_app, mk_rows_sat, tpoly_UP by lia. unfold poly. split; intros [H1 H2]; split; auto.
  - intros i r c Hr Hc. rewrite <- reval_shift. apply (H2 i); auto. rewrite nth_error_map, Hr. reflexivity.
  - intros i r c Hr Hc. rewrite nth_error_map in Hr. destruct (nth_error (c_rows m) i) as [r0|] eqn:E; inversion Hr; subst.
    rewrite reval_shift. apply (H2 i); auto.
Qed.

Lemma csr_ok_nth m i r : csr_ok m -> nth_error (c_rows m) i = Some r -> row_cols_lt (c_nc m) r.
Proof. intros H Hn. unfold csr_ok in H. rewrite Forall_forall in H. apply H. eapply nth_error_In; eauto. Qed.

Lemma poly_ext_lt m b p q : csr_ok m -> veq (c_nc m) p q -> poly (c_rows m) b p -> poly (c_rows m) b q.
Proof.
  intros Hok Hv H i r c Hr Hc. rewrite <- (reval_ext_lt (c_nc m) r p q); auto. eapply H; eauto. eapply csr_ok_nth; eauto.
Qed.

Lemma add_curtime_in l m rhs l' : csr_ok m -> c_nc m <= l_dims l -> c_nr m = List.length rhs ->
  add_curtime_constraints l m rhs = Ok l' ->
  l_dims l' = l_dims l /\ forall p, in_lp l' p <-> in_lp l p /\ poly (c_rows m) rhs p.
Proof.
  intros Hok Hd Hnr H. assert (Hs := fun x => add_curtime_sat l m rhs l' x Hnr H).
  apply add_curtime_ok in H as [-> _]; auto. split; [reflexivity|]. intro p. unfold in_lp. cbn [l_dims l_cvo with_rows] in *. split.
  - intros (x & Hx & Hp). apply Hs in Hx as [H1 H2]. split; [eauto|].
    eapply poly_ext_lt; [exact Hok| |exact H2]. intros i Hi. apply Hp. lia.
  - intros [(x & Hx & Hp) H2]. exists x. split; auto. apply Hs. split; auto.
    eapply poly_ext_lt; [exact Hok| |exact H2]. intros i Hi. symmetry. apply Hp. lia.
Qed.

Lemma add_curtime_lp_ok l m rhs l' : lp_ok l -> csr_ok m -> c_nr m = List.length rhs -> add_curtime_constraints l m rhs = Ok l' -> lp_ok l'.
Proof.
  intros [H1 H2] Hok Hnr H. apply add_curtime_ok in H as [-> Hc]; auto. split; [|exact H2].
  unfold lp_cols_ok. cbn [l_rows with_rows]. apply Forall_app. split; [exact H1|].
  apply Forall_nth_error. intros i r Hr. apply mk_rows_nth in Hr as (t & co & b & _ & Hco & _ & ->). cbn [r_co].
  rewrite nth_error_map in Hco. destruct (nth_error (c_rows m) i) as [r0|] eqn:E; inversion Hco; subst.
  eapply row_cols_lt_mono; [|apply row_cols_lt_shift; eapply csr_ok_nth; eauto]. exact Hc.
Qed.

Lemma add_curtime_no_lo l m rhs l' : no_lo l -> c_nr m = List.length rhs -> add_curtime_constraints l m rhs = Ok l' -> no_lo l'.
Proof.
  intros H1 Hnr H. apply add_curtime_ok in H as [-> Hc]; auto. unfold no_lo. cbn [l_rows with_rows]. apply Forall_app. split; [exact H1|].
  apply Forall_nth_error. intros i r Hr. apply mk_rows_nth in Hr as (t & co & b & Ht & Hco & _ & ->). cbn [r_ty].
  apply nth_error_repeat in Ht as [_ ->]. discriminate.
Qed.

(** The whole operation succeeds when the matrix fits. *)
Lemma add_curtime_total l m rhs : l_cvo l + c_nc m <= l_nc l -> c_nr m = List.length rhs ->
  exists l', add_curtime_constraints l m rhs = Ok l'.
Proof.
  intros H1 H2. unfold add_curtime_constraints. eexists. apply set_constraints_csr_in.
  - unfold l_nr, add_rows_le. cbn [fst l_rows with_rows]. rewrite app_length, map_length. lia.
  - exact H1.
Qed.

(** ** add_reset_variables *)
(** p' = R p + M y for some y with C y <= d (identity R, no y when absent) *)
Lemma overwrite_app2 n1 n2 a b : List.length n1 = List.length a -> overwrite (n1 ++ n2) (a ++ b) = overwrite n1 a ++ overwrite n2 b.
Proof. revert a; induction n1 as [|x n1 IH]; intros [|y a] H; simpl in *; try discriminate; auto. f_equal. apply IH. lia. Qed.

Lemma overwrite_seq_FX f s n : overwrite (map f (seq s n)) (repeat (mkRow FX [] 0%Q) n) = map (fun d => mkRow FX (f d) 0%Q) (seq s n).
Proof. revert s; induction n as [|n IH]; intro s; simpl; auto. f_equal. apply IH. Qed.

Lemma nth_csr_row m i : csr_ok m -> row_cols_lt (c_nc m) (nth i (c_rows m) []).
Proof.
  intro H. destruct (nth_in_or_default i (c_rows m) []) as [Hin|E].
  - unfold csr_ok in H. rewrite Forall_forall in H. apply H; auto.
  - rewrite E. constructor.
Qed.

Lemma Forall_seq_rows (f : nat -> row) n (P : row -> Prop) : Forall P (map f (seq 0 n)) <-> forall i, i < n -> P (f i).
Proof.
  rewrite Forall_map, Forall_forall. split; intros H i Hi; apply H; rewrite in_seq in *; lia.
Qed.

Section Reset.
Variables (l : lp) (mid ti0 : nat) (reset : option csr) (mink : option (csr * csr * list Q)) (si : bool) (l' : lp).
Hypothesis Hok : lp_ok l.
Hypothesis HR : opt_csr_ok reset.
Hypothesis HM : mink_ok mink.
Hypothesis Hrun : add_reset_variables l mid ti0 reset mink si = Ok l'.

Let rc := match reset with None => ident_csr (l_dims l) | Some r => r end.
Let mk := match mink with None => mkCsr 0 [] | Some (m, _, _) => m end.
Let mc := match mink with None => mkCsr 0 [] | Some (_, c, _) => c end.
Let mrhs := match mink with None => [] | Some (_, _, d) => d end.
Let nd := c_nr rc.
Hypothesis Hnd : 0 < nd.
Let mv := c_nc mk.
Let cols := l_nc l.
Let rows := l_nr l.
Let f1 := fun dim => shift_row (l_cvo l) (nth dim (c_rows rc) [])
                               ++ (if 0 <? mv then shift_row cols (nth dim (c_rows mk) []) else [])
                               ++ [(cols + mv + dim, (-1)%Q)].
Let f2 := fun dim => [(cols + mv + dim, 1%Q); (cols + mv + nd + dim, (-1)%Q)]
                               ++ (if si then [(cols + mv + 2 * nd + dim, 1%Q)] else []).
Let f4 := fun dim : nat => [(cols + mv + 2 * nd + dim, (-1)%Q)].
Let R1 := map (fun d => mkRow FX (f1 d) 0%Q) (seq 0 nd).
Let R2 := map (fun d => mkRow FX (f2 d) 0%Q) (seq 0 nd).
Let R3 := mk_rows (repeat UP (List.length mrhs)) (map (shift_row cols) (c_rows mc)) mrhs.
Let R4 := if si then map (fun d => mkRow FX (f4 d) 0%Q) (seq 0 nd) else [].

Lemma reset_shape :
  l_dims l = c_nc rc /\ c_nr mc = List.length mrhs /\ (mv = 0 \/ nd <= c_nr mk) /\
  l_rows l' = l_rows l ++ R1 ++ R2 ++ R3 ++ R4 /\
  l_nc l' = cols + mv + 2 * nd + (if si then nd else 0) /\
  l_dims l' = nd /\ l_bm l' = (rows + nd, cols + mv) /\ l_cvo l' = cols + mv + nd /\
  l_ie l' = (if si then Some (rows + 2 * nd + List.length mrhs, cols + mv + 2 * nd) else None).
Proof.
  pose proof Hrun as H. unfold add_reset_variables in H. fold rc in H.
  assert (Em : match mink with None => (mkCsr 0 [], mkCsr 0 [], []) | Some t => t end = (mk, mc, mrhs)).
  { unfold mk, mc, mrhs. destruct mink as [[[a b] c]|]; reflexivity. }
  rewrite Em in H. cbn [fst snd] in H. fold nd mv cols rows in H.
  inv_bind H. apply assert_ok, Nat.eqb_eq in H1. inv_bind H. rename H0 into Hmk.
  inv_bind H. rename H0 into Hfmt. inv_bind H. rename a2 into l4. rename H0 into Hcs.
  apply set_reach_vars_ok in H as (-> & _ & H3 & _).
  cbn [l_rows l_names l_dims l_bm l_cvo l_ie].
  destruct ((c_nr _ =? _) && _) eqn:Ef in Hfmt; [|discriminate]. apply andb_true_iff in Ef as [Eh _]. apply Nat.eqb_eq in Eh.
  unfold c_nr in Eh. cbn [c_rows] in Eh. rewrite !app_length, !map_length, !seq_length in Eh.
  assert (Hmc : c_nr mc = List.length mrhs).
  { unfold c_nr. destruct si; rewrite ?map_length, ?seq_length in Eh; simpl List.length in Eh; lia. }
  split; [exact H1|]. split; [exact Hmc|]. split.
  { destruct (Nat.eqb_spec mv 0); [auto|]. destruct (Nat.leb_spec nd (c_nr mk)); [auto|]. discriminate. }
  apply set_constraints_csr_ok in Hcs as [-> _]. cbn [fst snd c_rows]. rewrite map_shift_row_0.
  set (names := map _ (seq 0 mv) ++ _) in *.
  set (newrows := repeat (mkRow FX [] 0%Q) nd ++ repeat (mkRow FX [] 0%Q) nd ++ map (fun b => mkRow UP [] b) mrhs
                  ++ (if si then repeat (mkRow FX [] 0%Q) nd else [])).
  assert (Erows : l_rows (if si then add_rows_eq0 (add_rows_le (add_rows_eq0 (add_cols l names) (2 * nd)) mrhs) nd
                   else add_rows_le (add_rows_eq0 (add_cols l names) (2 * nd)) mrhs) = l_rows l ++ newrows).
  { unfold newrows. replace (2 * nd) with (nd + nd) by lia.
    destruct si; cbn [l_rows add_rows_eq0 add_rows_le add_cols with_rows with_names]; rewrite repeat_app, <- !app_assoc; [reflexivity|].
    rewrite app_nil_r. reflexivity. }
  repeat split; try reflexivity.
  - cbn [l_rows with_rows]. rewrite Erows. unfold rows, l_nr. rewrite set_coefs_end. f_equal.
    unfold newrows, R1, R2, R3, R4, f1, f2, f4.
    rewrite overwrite_app2 by (rewrite map_length, seq_length, repeat_length; reflexivity).
    rewrite overwrite_app2 by (rewrite map_length, seq_length, repeat_length; reflexivity).
    rewrite overwrite_app2 by (rewrite !map_length; exact Hmc).
    rewrite !overwrite_seq_FX. f_equal.
    { destruct si; reflexivity. }
    f_equal. f_equal.
    + rewrite zip_rows_UP. apply overwrite_zip_rows; [apply repeat_length|rewrite map_length; exact Hmc].
    + destruct si; [rewrite overwrite_seq_FX|]; reflexivity.
  - unfold l_nc. cbn [l_names with_rows].
    assert (En : l_names (if si then add_rows_eq0 (add_rows_le (add_rows_eq0 (add_cols l names) (2 * nd)) mrhs) nd
                   else add_rows_le (add_rows_eq0 (add_cols l names) (2 * nd)) mrhs) = l_names l ++ names) by (destruct si; reflexivity).
    rewrite En, app_length. unfold names. rewrite !app_length, map_length, seq_length, !names_of_length. simpl List.length.
    assert (Li : List.length (if si then names_of "ti" mid 0 nd else []) = if si then nd else 0) by (destruct si; [apply names_of_length|reflexivity]).
    rewrite Li. fold cols.
    unfold cols, l_nc, nd in *. clear - Hnd. destruct si; lia.
Qed.
Lemma reval_f1 i x : (reval (f1 i) x == reval (nth i (c_rows rc) []) (fun k => x (l_cvo l + k)%nat)
   + reval (nth i (c_rows mk) []) (fun k => x (cols + k)%nat) - x (cols + mv + i)%nat)%Q.
Proof.
  unfold f1. rewrite !reval_app, reval_shift. simpl (reval [_] x).
  destruct (Nat.ltb_spec 0 mv).
  - rewrite reval_shift. ring.
  - assert (E : nth i (c_rows mk) [] = []).
    { assert (csr_ok mk) by (unfold mk; destruct mink as [[[a b] c]|]; [apply HM|constructor]).
      pose proof (nth_csr_row mk i H0) as Hr. destruct (nth i (c_rows mk) []) as [|[c a] r]; auto.
      inversion Hr; subst. simpl in *. fold mv in H3. lia. }
    rewrite E. simpl. ring.
Qed.

Lemma reval_f2 i x : (reval (f2 i) x == x (cols + mv + i)%nat - x (cols + mv + nd + i)%nat + (if si then x (cols + mv + 2 * nd + i)%nat else 0))%Q.
Proof. unfold f2. destruct si; cbn [app reval]; ring. Qed.

Lemma reset_sat x : lp_sat l' x <->
  lp_sat l x
  /\ (forall i, i < nd -> (x (cols + mv + i)%nat == reval (nth i (c_rows rc) []) (fun k => x (l_cvo l + k)%nat) + reval (nth i (c_rows mk) []) (fun k => x (cols + k)%nat))%Q)
  /\ (forall i, i < nd -> (x (cols + mv + nd + i)%nat == x (cols + mv + i)%nat)%Q)
  /\ poly (c_rows mc) mrhs (fun k => x (cols + k))
  /\ (si = true -> forall i, i < nd -> (x (cols + mv + 2 * nd + i)%nat == 0)%Q).
Proof.
  destruct reset_shape as (_ & Hmc & _ & Hr & _). unfold lp_sat. rewrite Hr, !Forall_app. unfold R1, R2, R3. rewrite !Forall_seq_rows, mk_rows_sat, tpoly_UP by lia.
  assert (P3 : poly (map (shift_row cols) (c_rows mc)) mrhs x <-> poly (c_rows mc) mrhs (fun k => x (cols + k))).
  { unfold poly. split; intros H2 i r c A B.
    - rewrite <- reval_shift. apply (H2 i); auto. rewrite nth_error_map, A. reflexivity.
    - rewrite nth_error_map in A. destruct (nth_error (c_rows mc) i) as [r0|] eqn:E; inversion A; subst.
      rewrite reval_shift. apply (H2 i); auto. }
  rewrite P3.
  assert (P4 : Forall (fun r => row_sat r x) R4 <-> (si = true -> forall i, i < nd -> (x (cols + mv + 2 * nd + i)%nat == 0)%Q)).
  { unfold R4. destruct si.
    - rewrite Forall_seq_rows. split; [intros H _ i Hi|intros H i Hi; apply row_sat_FX0; specialize (H eq_refl i Hi)].
      + assert (E : (reval (f4 i) x == 0)%Q) by (exact (H i Hi)). unfold f4 in E. cbn [reval] in E. lra.
      + unfold f4. cbn [reval]. lra.
    - split; [discriminate|constructor]. }
  rewrite P4. split.
  - intros (H0 & H1 & H2 & H3 & H4). repeat split; auto.
    + intros i Hi. assert (E : (reval (f1 i) x == 0)%Q) by (exact (H1 i Hi)). rewrite reval_f1 in E. lra.
    + intros i Hi. assert (E : (reval (f2 i) x == 0)%Q) by (exact (H2 i Hi)). rewrite reval_f2 in E.
      destruct si; [specialize (H4 eq_refl i Hi)|]; lra.
  - intros (H0 & H1 & H2 & H3 & H4). repeat split; auto.
    + intros i Hi. apply row_sat_FX0. rewrite reval_f1. specialize (H1 i Hi). lra.
    + intros i Hi. apply row_sat_FX0. rewrite reval_f2. specialize (H2 i Hi). destruct si; [specialize (H4 eq_refl i Hi)|]; lra.
Qed.

Lemma csr_ok_rc : csr_ok rc.
Proof.
  unfold rc. destruct reset; [exact HR|]. unfold ident_csr, csr_ok. cbn [c_nc c_rows]. apply Forall_map, Forall_forall.
  intros i Hi. apply in_seq in Hi. repeat constructor. simpl. lia.
Qed.
Lemma csr_ok_mk : csr_ok mk.
Proof. unfold mk; destruct mink as [[[a b] c]|]; [apply HM|constructor]. Qed.
Lemma csr_ok_mc : csr_ok mc /\ c_nc mc = mv.
Proof. unfold mv, mk, mc; destruct mink as [[[a b] c]|]; [split; apply HM|split; [constructor|reflexivity]]. Qed.

Lemma reset_image_eq p p' : (c_nc rc = l_dims l) ->
  reset_image nd reset mink p p' <->
  exists y, poly (c_rows mc) mrhs y /\ forall i, i < nd -> (p' i == reval (nth i (c_rows rc) []) p + reval (nth i (c_rows mk) []) y)%Q.
Proof.
  intro Hd. unfold reset_image.
  assert (E1 : forall i, i < nd -> (match reset with Some R => reval (nth i (c_rows R) []) p | None => p i end == reval (nth i (c_rows rc) []) p)%Q).
  { intros i Hi. unfold nd, rc in *. destruct reset; [reflexivity|]. unfold ident_csr in *. cbn [c_rows c_nr] in *.
    unfold c_nr in Hi. cbn [c_rows] in Hi. rewrite map_length, seq_length in Hi.
    rewrite (nth_error_nth _ _ _ (nth_error_map_seq (fun i => [(i, 1%Q)]) 0 (l_dims l) i Hi)). simpl. ring. }
  assert (E2 : forall y i, (match mink with Some (M, _, _) => reval (nth i (c_rows M) []) y | None => 0 end == reval (nth i (c_rows mk) []) y)%Q).
  { intros y i. unfold mk. destruct mink as [[[a b] c]|]; [reflexivity|]. simpl. destruct i; reflexivity. }
  assert (E3 : forall y, (match mink with Some (_, C, d) => poly (c_rows C) d y | None => True end) <-> poly (c_rows mc) mrhs y).
  { intros y. unfold mc, mrhs. destruct mink as [[[a b] c]|]; [reflexivity|]. split; auto. intros _ i r c A. destruct i; discriminate. }
  split; intros (y & H1 & H2); exists y; (split; [apply E3; auto|]); intros i Hi; rewrite (H2 i Hi), (E1 i Hi), E2; reflexivity.
Qed.

Theorem reset_in p' : in_lp l' p' <-> exists p, in_lp l p /\ reset_image nd reset mink p p'.
Proof.
  destruct reset_shape as (Hd & Hmc & Hmk & Hr & Hnc & Hdims & Hbm & Hcvo & Hie). destruct Hok as [Hc0 Hc1].
  unfold in_lp at 1. rewrite Hdims, Hcvo. split.
  - intros (x & Hx & Hp). apply reset_sat in Hx as (H0 & H1 & H2 & H3 & H4).
    exists (fun i => x (l_cvo l + i)). split; [exists x; split; [auto|intros; reflexivity]|].
    apply reset_image_eq; [auto|]. exists (fun k => x (cols + k)). split; auto.
    intros i Hi. rewrite <- Hp, H2, H1 by auto. reflexivity.
  - intros (p & (x & Hx & Hp) & Hi). apply reset_image_eq in Hi as (y & Hy & Hpi); [|auto].
    set (X := fun c => if c <? cols then x c else if c <? cols + mv then y (c - cols)
                       else if c <? cols + mv + nd then p' (c - (cols + mv))
                       else if c <? cols + mv + 2 * nd then p' (c - (cols + mv + nd)) else 0%Q).
    assert (X0 : forall c, c < cols -> X c = x c).
    { intros c Hc. unfold X. rewrite (proj2 (Nat.ltb_lt _ _) Hc). reflexivity. }
    assert (X1 : forall k, k < mv -> X (cols + k) = y k).
    { intros c Hc. unfold X. destruct (Nat.ltb_spec (cols + c) cols); [lia|]. destruct (Nat.ltb_spec (cols + c) (cols + mv)); [|lia]. f_equal; lia. }
    assert (X2 : forall k, k < nd -> X (cols + mv + k) = p' k).
    { intros c Hc. unfold X. destruct (Nat.ltb_spec (cols + mv + c) cols); [lia|]. destruct (Nat.ltb_spec (cols + mv + c) (cols + mv)); [lia|].
      destruct (Nat.ltb_spec (cols + mv + c) (cols + mv + nd)); [|lia]. f_equal; lia. }
    assert (X3 : forall k, k < nd -> X (cols + mv + nd + k) = p' k).
    { intros c Hc. unfold X. destruct (Nat.ltb_spec (cols + mv + nd + c) cols); [lia|]. destruct (Nat.ltb_spec (cols + mv + nd + c) (cols + mv)); [lia|].
      destruct (Nat.ltb_spec (cols + mv + nd + c) (cols + mv + nd)); [lia|].
      destruct (Nat.ltb_spec (cols + mv + nd + c) (cols + mv + 2 * nd)); [|lia]. f_equal; lia. }
    assert (X4 : forall k, X (cols + mv + 2 * nd + k) = 0%Q).
    { intros c. unfold X. destruct (Nat.ltb_spec (cols + mv + 2 * nd + c) cols); [lia|]. destruct (Nat.ltb_spec (cols + mv + 2 * nd + c) (cols + mv)); [lia|].
      destruct (Nat.ltb_spec (cols + mv + 2 * nd + c) (cols + mv + nd)); [lia|].
      destruct (Nat.ltb_spec (cols + mv + 2 * nd + c) (cols + mv + 2 * nd)); [lia|]. reflexivity. }
    exists X. split.
    + apply reset_sat. repeat split.
      * eapply lp_sat_ext; [exact Hc0| |exact Hx]. intros c Hc. rewrite X0 by exact Hc. reflexivity.
      * intros i Hi. rewrite X2 by auto. rewrite Hpi by auto. apply Qplus_comp.
        -- apply (reval_ext_lt (c_nc rc)); [apply nth_csr_row, csr_ok_rc|]. intros k Hk. rewrite X0 by (unfold cols; lia). symmetry. apply Hp. lia.
        -- apply (reval_ext_lt mv); [apply nth_csr_row, csr_ok_mk|]. intros k Hk. rewrite X1 by auto. reflexivity.
      * intros i Hi. rewrite X2, X3 by auto. reflexivity.
      * destruct csr_ok_mc as [O1 O2]. eapply poly_ext_lt; [exact O1| |exact Hy]. rewrite O2. intros k Hk. rewrite X1 by auto. reflexivity.
      * intros _ i Hi. rewrite X4. reflexivity.
    + intros i Hi. rewrite X3 by auto. reflexivity.
Qed.

Lemma reset_wf nu : wf_lp l' (ident nd) nu [].
Proof.
  destruct reset_shape as (Hd & Hmc & Hmk & Hr & Hnc & Hdims & Hbm & Hcvo & Hie). destruct Hok as [Hc0 Hc1].
  assert (L1 : List.length R1 = nd) by (unfold R1; rewrite map_length, seq_length; auto).
  assert (L2 : List.length R2 = nd) by (unfold R2; rewrite map_length, seq_length; auto).
  assert (L3 : List.length R3 = List.length mrhs) by (unfold R3; rewrite mk_rows_length; auto; [apply repeat_length|rewrite map_length; exact Hmc]).
  assert (N2 : forall i, i < nd -> nth_error (l_rows l') (rows + nd + i) = Some (mkRow FX (f2 i) 0%Q)).
  { intros i Hi. rewrite Hr. rewrite nth_error_app2 by (unfold rows, l_nr; lia).
    rewrite nth_error_app2 by (unfold rows, l_nr; lia). rewrite nth_error_app1 by (unfold rows, l_nr; lia).
    unfold R2. rewrite nth_error_map_seq by (unfold rows, l_nr; lia). do 2 f_equal. f_equal. unfold rows, l_nr. lia. }
  assert (N4 : si = true -> forall i, i < nd -> nth_error (l_rows l') (rows + 2 * nd + List.length mrhs + i) = Some (mkRow FX (f4 i) 0%Q)).
  { intros Es i Hi. rewrite Hr. rewrite nth_error_app2 by (unfold rows, l_nr; lia).
    rewrite nth_error_app2 by (unfold rows, l_nr; lia). rewrite nth_error_app2 by (unfold rows, l_nr; lia).
    rewrite nth_error_app2 by (unfold rows, l_nr; lia). unfold R4. rewrite Es.
    rewrite nth_error_map_seq by (unfold rows, l_nr; lia). do 2 f_equal. f_equal. unfold rows, l_nr. lia. }
  (* every row is one of the five groups *)
  assert (Hcase : forall i r, nth_error (l_rows l') i = Some r ->
     (i < rows /\ nth_error (l_rows l) i = Some r) \/ (exists k, k < nd /\ i = rows + k /\ r = mkRow FX (f1 k) 0%Q)
     \/ (exists k, k < nd /\ i = rows + nd + k /\ r = mkRow FX (f2 k) 0%Q)
     \/ (exists k r0 b, nth_error (c_rows mc) k = Some r0 /\ r = mkRow UP (shift_row cols r0) b)
     \/ (si = true /\ exists k, k < nd /\ i = rows + 2 * nd + List.length mrhs + k /\ r = mkRow FX (f4 k) 0%Q)).
  { intros i r Hi. rewrite Hr in Hi. destruct (Nat.lt_ge_cases i (List.length (l_rows l))) as [G0|G0].
    { rewrite nth_error_app1 in Hi by auto. left. auto. }
    rewrite nth_error_app2 in Hi by auto. destruct (Nat.lt_ge_cases (i - List.length (l_rows l)) nd) as [G1|G1].
    { rewrite nth_error_app1 in Hi by lia. unfold R1 in Hi. apply nth_error_map_seq_inv in Hi as [E1 E2]. right; left.
      exists (i - List.length (l_rows l)). repeat split; auto. unfold rows, l_nr. lia. }
    rewrite nth_error_app2 in Hi by lia. destruct (Nat.lt_ge_cases (i - List.length (l_rows l) - List.length R1) nd) as [G2|G2].
    { rewrite nth_error_app1 in Hi by lia. unfold R2 in Hi. apply nth_error_map_seq_inv in Hi as [E1 E2]. right; right; left.
      eexists. split; [exact E1|]. split; [unfold rows, l_nr; lia|exact E2]. }
    rewrite nth_error_app2 in Hi by lia.
    destruct (Nat.lt_ge_cases (i - List.length (l_rows l) - List.length R1 - List.length R2) (List.length R3)) as [G3|G3].
    { rewrite nth_error_app1 in Hi by lia. unfold R3 in Hi. apply mk_rows_nth in Hi as (t & co & b & A1 & A2 & A3 & ->).
      apply nth_error_repeat in A1 as [_ ->]. rewrite nth_error_map in A2.
      destruct (nth_error (c_rows mc) _) as [r0|] eqn:E in A2; inversion A2; subst. right; right; right; left. eauto 6. }
    rewrite nth_error_app2 in Hi by lia. unfold R4 in Hi. destruct si.
    - apply nth_error_map_seq_inv in Hi as [E1 E2]. right; right; right; right. split; auto.
      eexists. split; [exact E1|]. split; [unfold rows, l_nr; lia|exact E2].
    - destruct (i - _ - _ - _ - _) in Hi; discriminate. }
  assert (C1 : forall k c a, k < nd -> In (c, a) (f1 k) -> c < cols + mv + nd).
  { intros k c a Hk Hin. unfold f1 in Hin. rewrite !in_app_iff in Hin. destruct Hin as [Hin|[Hin|Hin]].
    - unfold shift_row in Hin. apply in_map_iff in Hin as ([c' a'] & E & Hin). inversion E; subst. simpl.
      apply (row_cols_lt_In _ _ _ _ (nth_csr_row rc k csr_ok_rc)) in Hin. unfold cols. lia.
    - destruct (0 <? mv); [|contradiction]. unfold shift_row in Hin. apply in_map_iff in Hin as ([c' a'] & E & Hin). inversion E; subst. simpl.
      apply (row_cols_lt_In _ _ _ _ (nth_csr_row mk k csr_ok_mk)) in Hin. fold mv in Hin. lia.
    - destruct Hin as [Hin|[]]. inversion Hin; subst. lia. }
  assert (C3 : forall k r0 c a, nth_error (c_rows mc) k = Some r0 -> In (c, a) (shift_row cols r0) -> c < cols + mv).
  { intros k r0 c a Hk Hin. destruct csr_ok_mc as [O1 O2]. apply (csr_ok_nth _ _ _ O1) in Hk.
    unfold shift_row in Hin. apply in_map_iff in Hin as ([c' a'] & E & Hin). inversion E; subst. simpl.
    apply (row_cols_lt_In _ _ _ _ Hk) in Hin. lia. }
  assert (C0 : forall i r c a, nth_error (l_rows l) i = Some r -> In (c, a) (r_co r) -> c < cols).
  { intros i r c a Hi Hin. rewrite lp_cols_nth in Hc0. apply (row_cols_lt_In _ _ _ _ (Hc0 _ _ Hi) Hin). }
  constructor.
  - apply lp_cols_nth. intros i r Hi. apply Forall_forall. intros [c a] Hin. cbn [fst]. rewrite Hnc.
    apply Hcase in Hi as [[_ Hi]|[(k & Hk & _ & ->)|[(k & Hk & _ & ->)|[(k & r0 & b & Hk & ->)|(Es & k & Hk & _ & ->)]]]]; cbn [r_co] in Hin.
    + apply (C0 _ _ _ _ Hi) in Hin. lia.
    + apply C1 in Hin; lia.
    + unfold f2 in Hin. apply in_app_iff in Hin as [Hin|Hin].
      * destruct Hin as [Hin|[Hin|[]]]; inversion Hin; subst; lia.
      * destruct si; [|contradiction]. destruct Hin as [Hin|[]]; inversion Hin; subst; lia.
    + apply (C3 _ _ _ _ Hk) in Hin. lia.
    + rewrite Es. destruct Hin as [Hin|[]]. injection Hin as <- <-. lia.
  - rewrite Hdims. apply ident_dims.
  - rewrite Hbm, Hdims, Hcvo. simpl. lia.
  - rewrite Hdims, Hcvo, Hnc. lia.
  - rewrite Hdims, Hbm, Hcvo. cbn [fst snd]. intros i Hi. exists (f2 i). split; [apply N2; auto|].
    intro x. rewrite reval_f2. rewrite mrow_ident, ldot_unit by auto. unfold ti. rewrite Hie. destruct si; ring.
  - intros i r Hi Hb Hi2 c a Hin. rewrite Hcvo. left.
    apply Hcase in Hi as [[_ Hi]|[(k & Hk & _ & ->)|[(k & Hk & -> & ->)|[(k & r0 & b & Hk & ->)|(Es & k & Hk & -> & ->)]]]]; cbn [r_co] in Hin.
    + apply (C0 _ _ _ _ Hi) in Hin. lia.
    + apply C1 in Hin; lia.
    + exfalso. apply Hb. unfold is_bm. rewrite Hbm, Hdims. simpl. lia.
    + apply (C3 _ _ _ _ Hk) in Hin. lia.
    + exfalso. apply Hi2. unfold is_ie. rewrite Hie, Es, Hdims. lia.
  - rewrite Hie. destruct si eqn:Es; auto. rewrite Hcvo, Hdims, Hbm, Hnc. simpl fst. simpl List.length.
    split; [lia|]. split; [lia|]. split; [lia|]. split; [constructor|].
    intros i Hi. exists (f4 i). split; [apply N4; auto|]. intro x. unfold f4. cbn [reval ie_val]. ring.
Qed.

Lemma reset_no_lo : no_lo l -> no_lo l'.
Proof.
  destruct reset_shape as (_ & _ & _ & Hr & _). unfold no_lo. rewrite Hr, !Forall_app. intro H. repeat split; auto.
  - unfold R1. rewrite Forall_seq_rows. discriminate.
  - unfold R2. rewrite Forall_seq_rows. discriminate.
  - unfold R3. apply Forall_nth_error. intros i r Hi. apply mk_rows_nth in Hi as (t & co & b & A1 & _ & _ & ->).
    apply nth_error_repeat in A1 as [_ ->]. discriminate.
  - unfold R4. destruct si; [rewrite Forall_seq_rows; discriminate|constructor].
Qed.
End Reset.

Lemma reset_dims l mid tix reset mink si l' : add_reset_variables l mid tix reset mink si = Ok l' ->
  l_dims l' = c_nr (match reset with None => ident_csr (l_dims l) | Some r => r end).
Proof.
  unfold add_reset_variables. intro Hrun.
  destruct (match mink with None => (mkCsr 0 [], mkCsr 0 [], []) | Some t => t end) as [[mk mc] mrhs].
  inv_bind Hrun. inv_bind Hrun. inv_bind Hrun. inv_bind Hrun. apply set_reach_vars_ok in Hrun as (-> & _). reflexivity.
Qed.
