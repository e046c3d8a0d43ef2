(** Facts about the LP record operations (LpModel.v). *)
From Verif Require Import Base BaseFacts LpModel LpSpec.
Open Scope nat_scope.

(** ** Row rewriting *)
Lemma overwrite_length new rs : List.length (overwrite new rs) = List.length rs.
Proof. revert rs; induction new as [|co new IH]; intros [|r rs]; simpl; auto. Qed.

Lemma overwrite_nth new rs i :
  nth_error (overwrite new rs) i =
  match nth_error rs i with
  | None => None
  | Some r => Some (match nth_error new i with Some co => set_co r co | None => r end)
  end.
Proof.
  revert rs i; induction new as [|co new IH]; intros [|r rs] [|i]; simpl; auto.
  destruct (nth_error rs i); auto.
Qed.

Lemma overwrite_app new a b : List.length new = List.length a -> overwrite new (a ++ b) = overwrite new a ++ b.
Proof.
  revert a; induction new as [|co new IH]; intros [|r a] H; simpl in *; try discriminate; auto.
  f_equal; apply IH; congruence.
Qed.

Lemma set_coefs_length off new rs : List.length (set_coefs off new rs) = List.length rs.
Proof.
  unfold set_coefs. rewrite app_length, overwrite_length, <- app_length, firstn_skipn. reflexivity.
Qed.

Lemma nth_error_skipn {A} n (l : list A) i : nth_error (skipn n l) i = nth_error l (n + i).
Proof.
  revert l; induction n; intros l; simpl; auto. destruct l; simpl; auto. destruct i; reflexivity.
Qed.

Lemma nth_error_firstn {A} n (l : list A) i : i < n -> nth_error (firstn n l) i = nth_error l i.
Proof.
  revert l i; induction n; intros l i H; [lia|]. destruct l; simpl; [destruct i; auto|].
  destruct i; simpl; auto. apply IHn; lia.
Qed.

Lemma set_coefs_nth off new rs i : off <= List.length rs ->
  nth_error (set_coefs off new rs) i =
  match nth_error rs i with
  | None => None
  | Some r => Some (if off <=? i then match nth_error new (i - off) with Some co => set_co r co | None => r end else r)
  end.
Proof.
  intro Hoff. unfold set_coefs. destruct (Nat.leb_spec off i) as [H|H].
  - rewrite nth_error_app2 by (rewrite firstn_length; lia).
    rewrite firstn_length, Nat.min_l by lia.
    rewrite overwrite_nth, nth_error_skipn.
    replace (off + (i - off)) with i by lia. reflexivity.
  - rewrite nth_error_app1 by (rewrite firstn_length; lia).
    rewrite nth_error_firstn by lia. destruct (nth_error rs i); auto.
Qed.

Lemma set_coefs_end new a b : set_coefs (List.length a) new (a ++ b) = a ++ overwrite new b.
Proof.
  unfold set_coefs. rewrite firstn_app, firstn_all, Nat.sub_diag, skipn_app, skipn_all, Nat.sub_diag. simpl.
  rewrite app_nil_r. reflexivity.
Qed.

Lemma set_coefs_0 new rs : set_coefs 0 new rs = overwrite new rs.
Proof. reflexivity. Qed.

Lemma shift_row_0 r : shift_row 0 r = r.
Proof. induction r as [|[c a] r IH]; simpl; [auto|]. f_equal. exact IH. Qed.

Lemma map_shift_row_0 rs : map (shift_row 0) rs = rs.
Proof. induction rs; simpl; [auto|]. rewrite shift_row_0; congruence. Qed.

(** rows with given types, coefficients and bounds *)
Fixpoint mk_rows (ts : list rty) (cos : list srow) (rhs : list Q) : list row :=
  match ts, cos, rhs with
  | t :: ts', co :: cos', b :: rhs' => mkRow t co b :: mk_rows ts' cos' rhs'
  | _, _, _ => []
  end.

Lemma overwrite_zip_rows cos ts rhs :
  List.length ts = List.length rhs -> List.length cos = List.length rhs ->
  overwrite cos (zip_rows ts rhs) = mk_rows ts cos rhs.
Proof.
  revert ts cos; induction rhs as [|b rhs IH]; intros [|t ts] [|co cos] H1 H2; simpl in *; try discriminate; auto.
  unfold set_co at 1; simpl. f_equal. apply IH; congruence.
Qed.

Lemma zip_rows_UP rhs : map (fun b => mkRow UP [] b) rhs = zip_rows (repeat UP (List.length rhs)) rhs.
Proof. induction rhs; simpl; congruence. Qed.

Lemma zip_rows_FX0 n : repeat (mkRow FX [] 0%Q) n = zip_rows (repeat FX n) (repeat 0%Q n).
Proof. induction n; simpl; congruence. Qed.

Lemma zip_rows_length ts rhs : List.length ts = List.length rhs -> List.length (zip_rows ts rhs) = List.length rhs.
Proof. revert ts; induction rhs; intros [|t ts] H; simpl in *; try discriminate; auto. Qed.

Lemma mk_rows_length ts cos rhs :
  List.length ts = List.length rhs -> List.length cos = List.length rhs -> List.length (mk_rows ts cos rhs) = List.length rhs.
Proof. revert ts cos; induction rhs; intros [|t ts] [|c cos] H1 H2; simpl in *; try discriminate; auto. Qed.

Lemma mk_rows_nth ts cos rhs i r :
  nth_error (mk_rows ts cos rhs) i = Some r <->
  exists t co b, nth_error ts i = Some t /\ nth_error cos i = Some co /\ nth_error rhs i = Some b /\ r = mkRow t co b.
Proof.
  revert ts cos rhs; induction i as [|i IH]; intros [|t ts] [|co cos] [|b rhs]; simpl;
    try (split; [discriminate | intros (?&?&?&?&?&?&?); discriminate]);
    try (split; [destruct i; discriminate | intros (?&?&?&?&?&?&?); discriminate]).
  - split; [intro H; inversion H; subst; exists t, co, b; auto | ].
    intros (t' & co' & b' & H1 & H2 & H3 & ->). congruence.
  - apply IH.
Qed.

Lemma Forall_nth_error {A} (P : A -> Prop) l : Forall P l <-> forall i a, nth_error l i = Some a -> P a.
Proof.
  split.
  - intros H i a Hi. rewrite Forall_forall in H. apply H. eapply nth_error_In; eauto.
  - intros H. apply Forall_forall. intros a Ha. apply In_nth_error in Ha as [i Hi]. eauto.
Qed.

Lemma mk_rows_sat ts cos rhs x :
  Forall (fun r => row_sat r x) (mk_rows ts cos rhs) <-> tpoly cos ts rhs x.
Proof.
  rewrite Forall_nth_error. unfold tpoly. split.
  - intros H i r t c H1 H2 H3. apply (H i). apply mk_rows_nth. eauto 8.
  - intros H i r Hi. apply mk_rows_nth in Hi as (t & co & b & H1 & H2 & H3 & ->). eapply H; eauto.
Qed.

Lemma nth_error_repeat {A} (a b : A) n i : nth_error (repeat a n) i = Some b <-> i < n /\ b = a.
Proof.
  revert i; induction n; intros [|i]; simpl; split; try discriminate; try (intros [? ?]; lia).
  - intro H; inversion H; split; [lia|auto].
  - intros [_ ->]; auto.
  - intro H; apply IHn in H as [? ?]; split; [lia|auto].
  - intros [? ->]; apply IHn; split; [lia|auto].
Qed.

Lemma tpoly_UP cos rhs x n : List.length rhs <= n -> tpoly cos (repeat UP n) rhs x <-> poly cos rhs x.
Proof.
  intros Hl. unfold tpoly, poly. split.
  - intros H i r c H1 H2. apply (H i r UP c); auto. apply nth_error_repeat. split; auto.
    assert (i < List.length rhs) by (apply nth_error_Some; congruence). lia.
  - intros H i r t c H1 H2 H3. apply nth_error_repeat in H2 as [_ ->]. apply (H i r c); auto.
Qed.

(** ** Satisfaction *)
Lemma row_sat_ext r x y : (forall c a, In (c, a) (r_co r) -> x c == y c)%Q -> row_sat r x <-> row_sat r y.
Proof. intro H. unfold row_sat. assert (E := reval_ext _ _ _ H). destruct (r_ty r); rewrite E; reflexivity. Qed.

Lemma row_sat_ext_lt n r x y : row_cols_lt n (r_co r) -> veq n x y -> row_sat r x <-> row_sat r y.
Proof. intros Hr H. apply row_sat_ext. intros c a Hin. apply H. eapply row_cols_lt_In; eauto. Qed.

Lemma lp_sat_nth l x : lp_sat l x <-> forall i r, nth_error (l_rows l) i = Some r -> row_sat r x.
Proof. apply Forall_nth_error. Qed.

Lemma lp_cols_nth l : lp_cols_ok l <-> forall i r, nth_error (l_rows l) i = Some r -> row_cols_lt (l_nc l) (r_co r).
Proof. apply Forall_nth_error. Qed.

Lemma lp_sat_ext l x y : lp_cols_ok l -> veq (l_nc l) x y -> lp_sat l x -> lp_sat l y.
Proof.
  unfold lp_cols_ok, lp_sat. rewrite !Forall_forall. intros Hc H Hs r Hr.
  apply (row_sat_ext_lt _ r x y (Hc r Hr) H). auto.
Qed.

Lemma in_lp_ext l p q : veq (l_dims l) p q -> in_lp l p -> in_lp l q.
Proof. intros H (x & Hx & Hp). exists x; split; auto. intros i Hi. rewrite Hp by auto. apply H; auto. Qed.

Lemma in_lp_ext_iff l p q : veq (l_dims l) p q -> in_lp l p <-> in_lp l q.
Proof. intro H; split; apply in_lp_ext; auto. apply veq_sym; auto. Qed.

(** the objective is irrelevant *)
Lemma in_lp_with_obj l o p : in_lp (with_obj l o) p <-> in_lp l p.
Proof. reflexivity. Qed.

Lemma tpoly_app cos1 cos2 ts1 ts2 b1 b2 x :
  List.length cos1 = List.length b1 -> List.length ts1 = List.length b1 ->
  tpoly (cos1 ++ cos2) (ts1 ++ ts2) (b1 ++ b2) x <-> tpoly cos1 ts1 b1 x /\ tpoly cos2 ts2 b2 x.
Proof.
  intros H1 H2. unfold tpoly. split.
  - intro H; split; intros i r t c A B C.
    + assert (i < List.length cos1) by (apply nth_error_Some; congruence).
      apply (H i r t c); rewrite nth_error_app1; auto; lia.
    + apply (H (List.length cos1 + i) r t c); rewrite nth_error_app2; try lia; rewrite <- A || rewrite <- B || rewrite <- C;
        f_equal; lia.
  - intros [Ha Hb] i r t c A B C. destruct (Nat.lt_ge_cases i (List.length cos1)).
    + rewrite nth_error_app1 in A, B, C by lia. apply (Ha i r t c); auto.
    + rewrite nth_error_app2 in A, B, C by lia. rewrite H2 in B. rewrite <- H1 in B, C.
      apply (Hb (i - List.length cos1) r t c); auto.
Qed.

(** ** Inversion of the record updates *)
Lemma set_reach_vars_ok l d bm cvo ie l' :
  set_reach_vars l d bm cvo ie = Ok l' ->
  l' = mkLp (l_rows l) (l_names l) d bm cvo ie (l_obj l)
  /\ fst bm + d <= l_nr l /\ snd bm + 2 * d <= l_nc l
  /\ match ie with None => True | Some (r, c) => r + d <= l_nr l /\ c + d <= l_nc l end.
Proof.
  unfold set_reach_vars. intro H.
  apply bind_ok in H as [[] [H1 H]]. apply assert_ok, Nat.leb_le in H1.
  apply bind_ok in H as [[] [H2 H]]. apply assert_ok, Nat.leb_le in H2.
  apply bind_ok in H as [[] [H3 H]]. inversion H; subst; clear H.
  repeat split; auto. destruct ie as [[r c]|]; auto.
  apply bind_ok in H3 as [[] [H3 H4]]. apply assert_ok, Nat.leb_le in H3. apply assert_ok, Nat.leb_le in H4. auto.
Qed.

Lemma clone_ok l l' : clone l = Ok l' -> l' = l.
Proof. unfold clone. intro H. apply set_reach_vars_ok in H as [-> _]. destruct l; reflexivity. Qed.

Lemma set_constraints_csr_ok l m off l' :
  set_constraints_csr l m off = Ok l' ->
  l' = with_rows l (set_coefs (fst off) (map (shift_row (snd off)) (c_rows m)) (l_rows l))
  /\ fst off + c_nr m <= l_nr l /\ snd off + c_nc m <= l_nc l.
Proof.
  unfold set_constraints_csr. destruct (Nat.ltb_spec (l_nr l) (fst off + c_nr m));
    destruct (Nat.ltb_spec (l_nc l) (snd off + c_nc m)); simpl; intro Hq; try discriminate.
  inversion Hq; auto.
Qed.

Lemma set_constraints_csr_in l m off :
  fst off + c_nr m <= l_nr l -> snd off + c_nc m <= l_nc l ->
  set_constraints_csr l m off = Ok (with_rows l (set_coefs (fst off) (map (shift_row (snd off)) (c_rows m)) (l_rows l))).
Proof.
  intros H1 H2. unfold set_constraints_csr.
  rewrite (proj2 (Nat.ltb_ge _ _) H1), (proj2 (Nat.ltb_ge _ _) H2). reflexivity.
Qed.

(** ** Column updates *)
Lemma drop_col_id c co : (forall c' a, In (c', a) co -> c' <> c) -> drop_col c co = co.
Proof.
  unfold drop_col. induction co as [|[c' a] co IH]; intro H; simpl; auto.
  destruct (Nat.eqb_spec c' c) as [E|E]; [exfalso; eapply (H c' a); simpl; eauto|].
  simpl. f_equal. apply IH. intros c'' b Hin. apply (H c'' b). right; auto.
Qed.

Lemma set_col_length c ents i rs : List.length (set_col c ents i rs) = List.length rs.
Proof. revert i; induction rs; intro i; simpl; auto. Qed.

Lemma set_cols_length c cols rs : List.length (set_cols c cols rs) = List.length rs.
Proof. revert c rs; induction cols as [|e cols IH]; intros c rs; simpl; auto. rewrite IH. apply set_col_length. Qed.

Lemma set_col_nth c ents i0 rs i :
  nth_error (set_col c ents i0 rs) i =
  match nth_error rs i with
  | None => None
  | Some r => Some (set_co r (drop_col c (r_co r) ++ col_entries c (i0 + i) ents))
  end.
Proof.
  revert i0 i; induction rs as [|r rs IH]; intros i0 [|i]; simpl; auto.
  - rewrite Nat.add_0_r. reflexivity.
  - rewrite IH. rewrite Nat.add_succ_r. reflexivity.
Qed.

Lemma col_entries_cols c i ents c' a : In (c', a) (col_entries c i ents) -> c' = c.
Proof. unfold col_entries. rewrite in_map_iff. intros [e [H _]]. inversion H; auto. Qed.

(** entries added to row [i] when columns c, c+1, ... are set (none of which existed before) *)
Fixpoint cols_entries (c i : nat) (cols : list srow) : srow :=
  match cols with
  | [] => []
  | ents :: cols' => col_entries c i ents ++ cols_entries (S c) i cols'
  end.

Lemma set_cols_nth c cols rs i r :
  (forall c' a, In (c', a) (r_co r) -> c' < c) ->
  nth_error rs i = Some r ->
  nth_error (set_cols c cols rs) i = Some (set_co r (r_co r ++ cols_entries c i cols)).
Proof.
  revert c rs r; induction cols as [|ents cols IH]; intros c rs r Hc Hn; simpl.
  - rewrite app_nil_r. rewrite Hn. destruct r; reflexivity.
  - rewrite (IH (S c) _ (set_co r (r_co r ++ col_entries c i ents))).
    + unfold set_co; simpl. rewrite <- app_assoc. reflexivity.
    + simpl. intros c' a Hin. apply in_app_iff in Hin as [Hin|Hin].
      * specialize (Hc _ _ Hin). lia.
      * apply col_entries_cols in Hin. lia.
    + rewrite set_col_nth, Hn. simpl. rewrite drop_col_id; auto.
      intros c' a Hin. specialize (Hc _ _ Hin). lia.
Qed.

Lemma set_constraints_csc_ok l m off l' :
  set_constraints_csc l m off = Ok l' ->
  l' = with_rows l (set_cols (snd off) (map (shift_row (fst off)) (cc_cols m)) (l_rows l))
  /\ fst off + cc_nr m <= l_nr l /\ snd off + List.length (cc_cols m) <= l_nc l.
Proof.
  unfold set_constraints_csc. destruct (Nat.ltb_spec (l_nr l) (fst off + cc_nr m));
    destruct (Nat.ltb_spec (l_nc l) (snd off + List.length (cc_cols m))); simpl; intro Hq; try discriminate.
  inversion Hq; auto.
Qed.

(** value of the added entries of row [i]: sum over columns of x(c+k) * sum of the entries of column k in row i *)
Fixpoint ent_sum (i : nat) (ents : srow) : Q :=
  match ents with
  | [] => 0
  | (r, v) :: ents' => ((if Nat.eqb r i then v else 0) + ent_sum i ents')%Q
  end.

Lemma reval_col_entries c i ents x : (reval (col_entries c i ents) x == ent_sum i ents * x c)%Q.
Proof.
  unfold col_entries. induction ents as [|[r v] ents IH]; simpl; [ring|].
  destruct (Nat.eqb r i); simpl; rewrite IH; ring.
Qed.

Lemma reval_cols_entries c i cols x :
  (reval (cols_entries c i cols) x == ldot (map (ent_sum i) cols) c x)%Q.
Proof.
  revert c; induction cols as [|e cols IH]; intro c; simpl; [reflexivity|].
  rewrite reval_app, reval_col_entries, IH. reflexivity.
Qed.

Lemma cols_entries_cols c i cols c' a : In (c', a) (cols_entries c i cols) -> c <= c' < c + List.length cols.
Proof.
  revert c; induction cols as [|e cols IH]; intros c; simpl; [tauto|].
  rewrite in_app_iff. intros [H|H]; [apply col_entries_cols in H; lia|]. apply IH in H. lia.
Qed.

Lemma ent_sum_app i a b : (ent_sum i (a ++ b) == ent_sum i a + ent_sum i b)%Q.
Proof. induction a as [|[r v] a IH]; simpl; [ring|]. rewrite IH; ring. Qed.

Lemma ent_sum_none i ents : (forall r v, In (r, v) ents -> r <> i) -> (ent_sum i ents == 0)%Q.
Proof.
  induction ents as [|[r v] ents IH]; simpl; intro H; [reflexivity|].
  destruct (Nat.eqb_spec r i) as [E|E]; [exfalso; apply (H r v); auto|].
  rewrite IH; [ring|]. intros; apply H with (v := v0); auto.
Qed.

Lemma ent_sum_shift off i ents : off <= i -> (ent_sum i (shift_row off ents) == ent_sum (i - off) ents)%Q.
Proof.
  intro H. induction ents as [|[r v] ents IH]; simpl; [reflexivity|].
  destruct (Nat.eqb_spec (off + r) i), (Nat.eqb_spec r (i - off)); try lia; rewrite IH; reflexivity.
Qed.

Lemma ent_sum_shift_lt off i ents : i < off -> (ent_sum i (shift_row off ents) == 0)%Q.
Proof.
  intro H. apply ent_sum_none. intros r v Hin. unfold shift_row in Hin. apply in_map_iff in Hin as [[r' v'] [E _]].
  inversion E; subst; simpl. lia.
Qed.

(** ** Function update on a block of columns *)
Definition upd (x : vec) (off n : nat) (y : vec) : vec :=
  fun c => if (off <=? c) && (c <? off + n) then y (c - off) else x c.

Lemma upd_in x off n y i : i < n -> upd x off n y (off + i) = y i.
Proof.
  intro H. unfold upd. rewrite (proj2 (Nat.leb_le _ _)) by lia. rewrite (proj2 (Nat.ltb_lt _ _)) by lia. simpl.
  f_equal; lia.
Qed.

Lemma upd_out x off n y c : c < off \/ off + n <= c -> upd x off n y c = x c.
Proof.
  intro H. unfold upd. destruct (Nat.leb_spec off c); simpl; auto.
  destruct (Nat.ltb_spec c (off + n)); auto. lia.
Qed.

Lemma row_sat_FX0 co x : row_sat (mkRow FX co 0%Q) x <-> (reval co x == 0)%Q.
Proof. reflexivity. Qed.

Lemma firstn_map_seq {A} (f : nat -> A) n : List.length (map f (seq 0 n)) = n.
Proof. rewrite map_length, seq_length; auto. Qed.

Lemma nth_error_map_seq {A} (f : nat -> A) s n i : i < n -> nth_error (map f (seq s n)) i = Some (f (s + i)).
Proof.
  intro H. rewrite nth_error_map. rewrite (nth_error_nth' _ 0) by (rewrite seq_length; auto).
  rewrite seq_nth by auto. reflexivity.
Qed.

Lemma nth_error_map_seq_inv {A} (f : nat -> A) s n i a :
  nth_error (map f (seq s n)) i = Some a -> i < n /\ a = f (s + i).
Proof.
  intro H. assert (Hi : i < n).
  { assert (i < List.length (map f (seq s n))) by (apply nth_error_Some; congruence).
    rewrite map_length, seq_length in H0; auto. }
  split; auto. rewrite nth_error_map_seq in H by auto. congruence.
Qed.
