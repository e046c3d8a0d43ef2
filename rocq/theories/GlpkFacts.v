(** Facts about the array-level model of Glpk.v. *)
From Verif Require Import Base BaseFacts LpModel LpUtil LpFacts Automaton BuildFacts HeapFacts Glpk.
From Coq Require Import Permutation Lia Lqa Setoid.
Open Scope nat_scope.

(** the coefficient of a column *)
Definition cf (co : list (nat * Q)) (c : nat) : Q := fold_right (fun e acc => if Nat.eqb (fst e) c then (snd e + acc)%Q else acc) 0%Q co.
Lemma cf_app a b c : (cf (a ++ b) c == cf a c + cf b c)%Q.
Proof. induction a as [|e a IH]; cbn [app cf fold_right]; [unfold cf; cbn; ring|]. fold (cf (a ++ b) c) (cf a c). destruct (fst e =? c); rewrite IH; ring. Qed.
Lemma cf_cons e a c : cf (e :: a) c = if Nat.eqb (fst e) c then (snd e + cf a c)%Q else cf a c.
Proof. reflexivity. Qed.
Lemma cf_nonzero l c : (cf (filter nonzero l) c == cf l c)%Q.
Proof.
  induction l as [|e l IH]; [reflexivity|]. cbn [filter]. unfold nonzero at 1. destruct (Qeq_bool (snd e) 0) eqn:E; cbn [negb]; rewrite ?cf_cons.
  - apply Qeq_bool_iff in E. destruct (fst e =? c); [rewrite E, IH; ring|exact IH].
  - destruct (fst e =? c); [rewrite IH; reflexivity|exact IH].
Qed.
Lemma cf_perm a b c : Permutation a b -> (cf a c == cf b c)%Q.
Proof. intro P. induction P; [reflexivity| | |]; [rewrite !cf_cons; destruct (fst x =? c); [rewrite IHP; reflexivity|exact IHP]|rewrite !cf_cons; destruct (fst x =? c), (fst y =? c); ring|rewrite IHP1; exact IHP2]. Qed.
Lemma cf_none l c : (forall e, In e l -> fst e <> c) -> cf l c = 0%Q.
Proof. induction l as [|e l IH]; intro H; [reflexivity|]. rewrite cf_cons. destruct (Nat.eqb_spec (fst e) c) as [E|_]; [exfalso; apply (H e); [left; reflexivity|exact E]|]. apply IH. intros x Hx. apply H. right. exact Hx. Qed.
Lemma cf_move f l c c' : (forall e, In e l -> (f (fst e) = c' <-> fst e = c)) -> cf (map (fun e => (f (fst e), snd e)) l) c' = cf l c.
Proof.
  induction l as [|e l IH]; intro H; [reflexivity|]. cbn [map]. rewrite !cf_cons, IH by (intros x Hx; apply H; right; exact Hx). cbn [fst snd].
  specialize (H e (or_introl eq_refl)). destruct (Nat.eqb_spec (f (fst e)) c'), (Nat.eqb_spec (fst e) c); tauto || reflexivity.
Qed.
Lemma cf_dense r n : dense_of r n = map (cf r) (seq 0 n). Proof. reflexivity. Qed.
Lemma row_bound (r : srow) : exists n, row_cols_lt n r.
Proof.
  induction r as [|[c v] r (n & H)]; [exists 0; constructor|]. exists (S c + n). constructor; [cbn [fst]; lia|]. eapply Forall_impl; [|exact H]. intros e He. unfold row_cols_lt in *. cbv beta in *. lia.
Qed.
Lemma row_lt_le n m (r : srow) : n <= m -> row_cols_lt n r -> row_cols_lt m r.
Proof. intros L H. eapply Forall_impl; [|exact H]. cbn. intros; lia. Qed.
Lemma ldot_ext (f g : nat -> Q) x : (forall c, (f c == g c)%Q) -> forall N o s, (ldot (map f (seq o N)) s x == ldot (map g (seq o N)) s x)%Q.
Proof. intros H N. induction N as [|N IH]; intros o s; cbn [seq map ldot]; [reflexivity|]. rewrite (H o), IH. reflexivity. Qed.
Lemma reval_cf r r' x : (forall c, (cf r c == cf r' c)%Q) -> (reval r x == reval r' x)%Q.
Proof.
  intro H. destruct (row_bound r) as (n & Hn). destruct (row_bound r') as (m & Hm). pose (N := n + m).
  assert (D1 : (ldot (dense_of r N) 0 x == reval r x)%Q) by (apply dense_of_eval; (eapply row_lt_le; [|eassumption]); unfold N; lia).
  assert (D2 : (ldot (dense_of r' N) 0 x == reval r' x)%Q) by (apply dense_of_eval; (eapply row_lt_le; [|eassumption]); unfold N; lia).
  transitivity (ldot (dense_of r N) 0 x); [symmetry; exact D1|]. transitivity (ldot (dense_of r' N) 0 x); [|exact D2]. rewrite !cf_dense.
  apply ldot_ext. exact H.
Qed.

(** ** one row *)
Record rsame (n : nat) (gr : grow) (r : row) : Prop := {
  rs_ty : g_ty gr = gty_of (r_ty r);
  rs_b : (g_lb gr, g_ub gr) = norm_bnds (gty_of (r_ty r)) (r_rhs r) (r_rhs r);
  rs_cf : forall c, (cf (g_co gr) (S c) == cf (r_co r) c)%Q;
  rs_nd : NoDup (map fst (g_co gr));
  rs_in : forall e, In e (g_co gr) -> 1 <= fst e <= n }.
Definition rows_same (n : nat) (p : list grow) (rs : list row) : Prop := Forall2 (rsame n) p rs.
Lemma rsame_grow n m gr r : n <= m -> rsame n gr r -> rsame m gr r.
Proof. intros L [A B C D E]. constructor; auto. intros e He. specialize (E e He). lia. Qed.
Lemma rows_same_grow n m p rs : n <= m -> rows_same n p rs -> rows_same m p rs.
Proof. intros L H. induction H; constructor; auto. eapply rsame_grow; eauto. Qed.

Lemma upd_len {A} i (v : A) l : List.length (upd_nth i v l) = List.length l.
Proof.
  unfold upd_nth. rewrite app_length. assert (H := firstn_skipn i l). apply (f_equal (@List.length A)) in H. rewrite app_length in H.
  destruct (skipn i l); cbn [List.length] in *; lia.
Qed.
Lemma upd_app {A} (a : list A) x y b : upd_nth (List.length a) y (a ++ x :: b) = a ++ y :: b.
Proof. unfold upd_nth. rewrite firstn_app, firstn_all, Nat.sub_diag, skipn_app, skipn_all, Nat.sub_diag. cbn. rewrite app_nil_r. reflexivity. Qed.
Lemma nth_app_here {A} (a : list A) x b d : nth (List.length a) (a ++ x :: b) d = x.
Proof. rewrite app_nth2 by lia. rewrite Nat.sub_diag. reflexivity. Qed.

(** ** new rows and columns *)
Definition new_row (t : gty) (lb ub : Q) : grow := let b := norm_bnds t lb ub in mkG t (fst b) (snd b) [].
Lemma afor_bnds {A} (t : A -> gty) (lb ub : A -> Q) (body : A -> gprob -> abt gprob) cols obj : forall (l : list A) base,
  (forall k x p, nth_error l k = Some x -> body x p = glp_set_row_bnds p (List.length base + k + 1) (t x) (lb x) (ub x)) ->
  afor l (mkP (base ++ repeat grow0 (List.length l)) cols obj) body = ret (mkP (base ++ map (fun x => new_row (t x) (lb x) (ub x)) l) cols obj).
Proof.
  induction l as [|x l IH]; intros base H; cbn [afor List.length repeat map]; [reflexivity|].
  rewrite (H 0 x _ eq_refl). unfold glp_set_row_bnds, pre. replace (in_rows _ _) with true.
  2:{ symmetry. unfold in_rows, p_m. cbn [p_rows]. rewrite app_length. cbn [List.length]. apply andb_true_iff. split; apply Nat.leb_le; lia. }
  cbn [abind ret]. unfold put_grow, get_grow. cbn [p_rows p_cols p_obj]. replace (List.length base + 0 + 1 - 1) with (List.length base) by lia. rewrite upd_app, nth_app_here.
  match goal with |- afor l {| p_rows := ?q |} body = _ => replace q with ((base ++ [new_row (t x) (lb x) (ub x)]) ++ repeat grow0 (List.length l)) by (rewrite <- app_assoc; reflexivity) end.
  rewrite (IH (base ++ [new_row (t x) (lb x) (ub x)])).
  - rewrite <- app_assoc. reflexivity.
  - intros k y p Hk. rewrite (H (S k) y p Hk). rewrite app_length. cbn [List.length]. f_equal. lia.
Qed.
Lemma afor_colb {A} (body : A -> gprob -> abt gprob) rows obj : forall (l : list A) base,
  (forall k x p, nth_error l k = Some x -> body x p = glp_set_col_bnds p (List.length base + k + 1) GFR 0 0) ->
  afor l (mkP rows (base ++ repeat (mkGc GFX 0 0) (List.length l)) obj) body = ret (mkP rows (base ++ repeat (mkGc GFR 0 0) (List.length l)) obj).
Proof.
  induction l as [|x l IH]; intros base H; cbn [afor List.length repeat map]; [reflexivity|].
  rewrite (H 0 x _ eq_refl). unfold glp_set_col_bnds, pre. replace (in_cols _ _) with true.
  2:{ symmetry. unfold in_cols, p_n. cbn [p_cols]. rewrite app_length. cbn [List.length]. apply andb_true_iff. split; apply Nat.leb_le; lia. }
  cbn [abind ret p_rows p_cols p_obj norm_bnds fst snd]. replace (List.length base + 0 + 1 - 1) with (List.length base) by lia. rewrite upd_app.
  match goal with |- afor l {| p_cols := ?q |} body = _ => replace q with ((base ++ [mkGc GFR 0 0]) ++ repeat (mkGc GFX 0 0) (List.length l)) by (rewrite <- app_assoc; reflexivity) end.
  rewrite (IH (base ++ [mkGc GFR 0 0])).
  - rewrite <- app_assoc. reflexivity.
  - intros k y p Hk. rewrite (H (S k) y p Hk). rewrite app_length. cbn [List.length]. f_equal. lia.
Qed.
Lemma new_row_same n t b : rsame n (new_row (gty_of t) b b) (mkRow t [] b).
Proof. constructor; cbn; try reflexivity; [destruct t; reflexivity|constructor|intros e []]. Qed.

(** ** coefficients of rows *)
Definition good (n : nat) (ents : list (nat * Q)) (co : srow) : Prop :=
  NoDup (map fst ents) /\ (forall e, In e ents -> 1 <= fst e <= n) /\ forall c, (cf ents (S c) == cf co c)%Q.
Lemma set_coefs_cons rs : forall off co new, off < List.length rs ->
  set_coefs off (co :: new) rs = set_coefs (S off) new (upd_nth off (set_co (nth off rs (mkRow FX [] 0)) co) rs).
Proof.
  induction rs as [|r rs IH]; intros [|off] co new H; cbn in H; try lia.
  - reflexivity.
  - specialize (IH off co new ltac:(lia)). unfold set_coefs, upd_nth in *. cbn [firstn skipn app nth] in *. f_equal. exact IH.
Qed.
Lemma F2_len {A B} (R : A -> B -> Prop) l l' : Forall2 R l l' -> List.length l = List.length l'.
Proof. intro H. induction H; cbn; congruence. Qed.
Lemma Forall2_upd {A B} (R : A -> B -> Prop) l l' : Forall2 R l l' -> forall i x y, R x y -> Forall2 R (upd_nth i x l) (upd_nth i y l').
Proof.
  intro H. induction H as [|a b l l' Hab H IH]; intros [|i] x y Hxy; unfold upd_nth in *; cbn [firstn skipn app]; try constructor; auto.
Qed.
Lemma Forall2_nth {A B} (R : A -> B -> Prop) l l' : Forall2 R l l' -> forall i x y, i < List.length l -> R (nth i l x) (nth i l' y).
Proof. intro H. induction H as [|a b l l' Hab H IH]; intros [|i] x y Hi; cbn in Hi |- *; try lia; auto. apply IH. lia. Qed.
Lemma set_coefs_nil off rs : set_coefs off [] rs = rs.
Proof. unfold set_coefs. cbn. apply firstn_skipn. Qed.

Lemma afor_matrow {A} (body : A -> gprob -> abt gprob) : forall (l : list A) (new : list srow) off p rs,
  rows_same (p_n p) (p_rows p) rs -> List.length new = List.length l -> off + List.length l <= p_m p ->
  (forall k x co p', nth_error l k = Some x -> nth_error new k = Some co -> p_m p' = p_m p -> p_n p' = p_n p ->
     exists ents, good (p_n p) ents co /\ body x p' = ret (put_grow p' (off + k + 1) (mkG (g_ty (get_grow p' (off + k + 1))) (g_lb (get_grow p' (off + k + 1))) (g_ub (get_grow p' (off + k + 1))) ents))) ->
  exists p', afor l p body = ret p' /\ rows_same (p_n p) (p_rows p') (set_coefs off new rs) /\ p_cols p' = p_cols p /\ p_obj p' = p_obj p.
Proof.
  induction l as [|x l IH]; intros new off p rs R En Hoff Hb; cbn [afor].
  - exists p. destruct new; [|discriminate]. rewrite set_coefs_nil. auto.
  - destruct new as [|co new]; [discriminate|]. injection En as En. cbn [List.length] in Hoff.
    destruct (Hb 0 x co p eq_refl eq_refl eq_refl eq_refl) as (ents & (G1 & G2 & G3) & E). rewrite E. cbn [abind ret].
    assert (Lr : List.length (p_rows p) = List.length rs) by exact (F2_len _ _ _ R). unfold p_m in Hoff.
    set (p1 := put_grow p _ _). assert (M1 : p_m p1 = p_m p) by (unfold p1, p_m, put_grow; cbn [p_rows]; apply upd_len). assert (N1 : p_n p1 = p_n p) by reflexivity.
    assert (R1 : rows_same (p_n p1) (p_rows p1) (upd_nth off (set_co (nth off rs (mkRow FX [] 0)) co) rs)).
    { unfold p1, put_grow. cbn [p_rows p_n]. replace (off + 0 + 1 - 1) with off by lia. apply Forall2_upd; [exact R|]. unfold get_grow. replace (off + 0 + 1 - 1) with off by lia.
      destruct (Forall2_nth _ _ _ R off grow0 (mkRow FX [] 0)) as [A1 A2 A3 A4 A5]; [lia|]. constructor; cbn [g_ty g_lb g_ub g_co set_co r_ty r_rhs r_co]; auto. }
    destruct (IH new (S off) p1 _ R1 En) as (p' & E' & R' & C' & O').
    + rewrite M1. unfold p_m. lia.
    + intros k y co' p' Hk Hn Hm Hn'. destruct (Hb (S k) y co' p' Hk Hn) as (ents' & Ge & Eb); [congruence|congruence|]. exists ents'. rewrite N1. split; [exact Ge|].
      replace (S off + k + 1) with (off + S k + 1) by lia. exact Eb.
    + exists p'. split; [exact E'|]. rewrite N1 in R'. split; [|auto]. rewrite set_coefs_cons by lia. exact R'.
Qed.

Lemma nodupb_true l : nodupb l = true <-> NoDup l.
Proof.
  induction l as [|x l IH]; cbn [nodupb]; [split; [constructor|reflexivity]|]. rewrite andb_true_iff, negb_true_iff, IH. split.
  - intros [H1 H2]. constructor; [|exact H2]. intro K. assert (E : existsb (Nat.eqb x) l = true) by (apply existsb_exists; exists x; split; [exact K|apply Nat.eqb_refl]). congruence.
  - intro H. inversion H; subst. split; [|assumption]. destruct (existsb (Nat.eqb x) l) eqn:E; [|reflexivity]. apply existsb_exists in E as (y & Hy & E). apply Nat.eqb_eq in E. subst y. contradiction.
Qed.
Lemma range_len (l : list nat) n : NoDup l -> (forall j, In j l -> 1 <= j <= n) -> List.length l <= n.
Proof.
  intros H K. rewrite <- (seq_length n 1). apply NoDup_incl_length; [exact H|]. intros j Hj. apply in_seq. specialize (K j Hj). lia.
Qed.
Lemma nodup_filter_fst (f : nat * Q -> bool) l : NoDup (map fst l) -> NoDup (map fst (filter f l)).
Proof.
  induction l as [|e l IH]; intro H; [constructor|]. inversion H as [|? ? K1 K2]; subst. cbn [filter]. destruct (f e); [|auto]. cbn [map]. constructor; [|auto].
  intro K. apply K1. apply in_map_iff in K as (y & E & Hy). apply filter_In in Hy as [Hy _]. rewrite <- E. apply in_map. exact Hy.
Qed.
Lemma combine_fst {A B} (l : list A) : forall (l' : list B), List.length l = List.length l' -> map fst (combine l l') = l.
Proof. induction l as [|x l IH]; intros [|y l'] H; cbn in *; try lia; [reflexivity|]. f_equal. apply IH. lia. Qed.
(** setting one row *)
Lemma mat_row p i ind val : in_rows p i = true -> List.length ind = List.length val -> NoDup ind -> (forall j, In j ind -> 1 <= j <= p_n p) ->
  glp_set_mat_row p i (List.length ind) ind val = ret (put_grow p i (mkG (g_ty (get_grow p i)) (g_lb (get_grow p i)) (g_ub (get_grow p i)) (filter nonzero (combine ind val)))) /\
  good (p_n p) (filter nonzero (combine ind val)) (combine (map pred ind) val).
Proof.
  intros Hi El Hd Hr. split.
  - unfold glp_set_mat_row, pre, entries. assert (F : firstn (List.length ind) val = val) by (rewrite El; apply firstn_all). rewrite F, !firstn_all. rewrite Hi. replace (List.length ind <=? p_n p) with true by (symmetry; apply Nat.leb_le; apply range_len; auto).
    rewrite Nat.leb_refl. replace (List.length ind <=? List.length val) with true by (symmetry; apply Nat.leb_le; lia).
    replace (forallb (in_cols p) ind) with true by (symmetry; apply forallb_forall; intros j Hj; apply Hr in Hj; unfold in_cols; apply andb_true_iff; split; apply Nat.leb_le; lia).
    replace (nodupb ind) with true by (symmetry; apply nodupb_true; exact Hd). reflexivity.
  - split; [apply nodup_filter_fst; rewrite combine_fst by exact El; exact Hd|]. split.
    + intros e He. apply filter_In in He as [He _]. destruct e as [j v]. apply in_combine_l in He. cbn. auto.
    + intro c. rewrite cf_nonzero. assert (Hp : forall j, In j ind -> 1 <= j) by (intros j Hj; apply Hr in Hj; lia). clear - Hp. revert val. induction ind as [|j ind IH]; intros [|v val]; try reflexivity.
      assert (K := IH (fun k Hk => Hp k (or_intror Hk)) val). cbn [combine map]. rewrite !cf_cons. cbn [fst snd]. specialize (Hp j (or_introl eq_refl)). destruct (Nat.eqb_spec j (S c)), (Nat.eqb_spec (pred j) c); try lia; [rewrite K; reflexivity|exact K].
Qed.
