(** The array-level model of Glpk.v refines LpModel.v: the remaining calls, histories, queries. *)
From Verif Require Import Base BaseFacts LpModel LpUtil LpFacts Automaton BuildFacts HeapFacts Glpk GlpkSpec GlpkFacts GlpkFacts2.
From Coq Require Import Permutation Lia Lqa Setoid.
Open Scope nat_scope.

Lemma agree_reach g l d bm cvo ie : sim g l -> layout d bm cvo ie -> cvo + d <= l_nc l -> agree (i_set_reach_vars g d bm cvo ie) (set_reach_vars l d bm cvo ie).
Proof.
  intros S Hl Hc. unfold i_set_reach_vars, set_reach_vars, pyassert. rewrite (sim_nr _ _ S), (sim_nc _ _ S).
  destruct (Nat.leb_spec (fst bm + d) (l_nr l)) as [H1|H1]; cbn [abind ret raise assert bind]; [|reflexivity].
  destruct (Nat.leb_spec (snd bm + 2 * d) (l_nc l)) as [H2|H2]; cbn [abind ret raise assert bind]; [|reflexivity].
  assert (Fin : match ie with Some (_, c) => c + d <= l_nc l | None => True end -> sim (mkLi (i_p g) (i_names g) d bm cvo ie (i_objc g) (bm_indices d bm cvo ie)) (mkLp (l_rows l) (l_names l) d bm cvo ie (l_obj l))).
  { intro H3. destruct S. constructor; cbn [i_p i_names i_dims i_bm i_cvo i_ie i_objc i_bmi l_rows l_names l_dims l_bm l_cvo l_ie l_obj]; auto. change (snd bm + d <= l_nc l). lia. }
  destruct ie as [[r c]|]; cbn [abind ret raise assert bind].
  - destruct (Nat.leb_spec (r + d) (l_nr l)) as [H3|H3]; cbn [abind ret raise assert bind]; [|reflexivity].
    destruct (Nat.leb_spec (c + d) (l_nc l)) as [H4|H4]; cbn [abind ret raise assert bind]; [|reflexivity]. eexists. split; [reflexivity|]. apply Fin. exact H4.
  - eexists. split; [reflexivity|]. apply Fin. exact Logic.I.
Qed.
Lemma agree_clone g l : sim g l -> agree (i_clone g) (clone l).
Proof.
  intros S. unfold i_clone, clone, i_set_reach_vars, set_reach_vars, pyassert. unfold i_nr, i_nc, l_nr, l_nc. cbn [i_p i_names l_rows l_names].
  change (p_m (i_p g)) with (i_nr g). change (List.length (i_names g)) with (i_nc g). rewrite (sim_nr _ _ S), (sim_nc _ _ S). rewrite (s_dims _ _ S), (s_bm _ _ S), (s_cvo _ _ S), (s_ie _ _ S).
  fold (l_nr l) (l_nc l).
  destruct (Nat.leb_spec (fst (l_bm l) + l_dims l) (l_nr l)) as [H1|H1]; cbn [abind ret raise assert bind]; [|reflexivity].
  destruct (Nat.leb_spec (snd (l_bm l) + 2 * l_dims l) (l_nc l)) as [H2|H2]; cbn [abind ret raise assert bind]; [|reflexivity].
  assert (Fin : sim (mkLi (i_p g) (i_names g) (l_dims l) (l_bm l) (l_cvo l) (l_ie l) (i_objc g) (bm_indices (l_dims l) (l_bm l) (l_cvo l) (l_ie l)))
                    (mkLp (l_rows l) (l_names l) (l_dims l) (l_bm l) (l_cvo l) (l_ie l) (l_obj l))).
  { rewrite <- (s_dims _ _ S), <- (s_bm _ _ S), <- (s_cvo _ _ S), <- (s_ie _ _ S). destruct S. constructor; cbn [i_p i_names i_dims i_bm i_cvo i_ie i_objc i_bmi l_rows l_names l_dims l_bm l_cvo l_ie l_obj]; auto. }
  destruct (l_ie l) as [[r c]|] eqn:Ei; cbn [abind ret raise assert bind].
  - destruct (Nat.leb_spec (r + l_dims l) (l_nr l)) as [H3|H3]; cbn [abind ret raise assert bind]; [|reflexivity].
    destruct (Nat.leb_spec (c + l_dims l) (l_nc l)) as [H4|H4]; cbn [abind ret raise assert bind]; [|reflexivity]. eexists. split; [reflexivity|]. exact Fin.
  - eexists. split; [reflexivity|]. exact Fin.
Qed.
Lemma agree_rhs g l i b : sim g l -> agree (i_set_constraint_rhs g i b) (set_constraint_rhs l i b).
Proof.
  intros S. unfold i_set_constraint_rhs, set_constraint_rhs, pyassert. change (p_m (i_p g)) with (i_nr g). rewrite (sim_nr _ _ S).
  destruct (Nat.ltb_spec i (l_nr l)) as [H|H]; cbn [abind ret raise assert bind]; [|reflexivity].
  assert (Hr : in_rows (i_p g) (i + 1) = true) by (unfold in_rows; change (p_m (i_p g)) with (i_nr g); rewrite (sim_nr _ _ S); apply andb_true_iff; split; apply Nat.leb_le; lia).
  unfold glp_get_row_type, pre. rewrite Hr. cbn [abind ret].
  assert (R := s_rows _ _ S). assert (Li : i < List.length (p_rows (i_p g))) by (rewrite (F2_len _ _ _ R); exact H).
  pose proof (Forall2_nth _ _ _ R i grow0 (mkRow FX [] 0) Li) as [A1 A2 A3 A4 A5].
  unfold get_grow at 1. replace (i + 1 - 1) with i by lia. rewrite A1.
  assert (Fin : forall lb ub, norm_bnds (gty_of (r_ty (nth i (l_rows l) (mkRow FX [] 0)))) lb ub = norm_bnds (gty_of (r_ty (nth i (l_rows l) (mkRow FX [] 0)))) b b ->
     exists g', (call p <- glp_set_row_bnds (i_p g) (i + 1) (gty_of (r_ty (nth i (l_rows l) (mkRow FX [] 0)))) lb ub; ret (with_p g p)) = ret g' /\ sim g' (with_rows l (set_rhs_at i b (l_rows l)))).
  { intros lb ub E. unfold glp_set_row_bnds, pre. rewrite Hr, E. cbn [abind ret]. eexists. split; [reflexivity|].
    assert (Es : set_rhs_at i b (l_rows l) = upd_nth i (mkRow (r_ty (nth i (l_rows l) (mkRow FX [] 0))) (r_co (nth i (l_rows l) (mkRow FX [] 0))) b) (l_rows l)).
    { unfold set_rhs_at. rewrite (nth_error_nth' _ (mkRow FX [] 0) H). unfold upd_nth. clear - H. unfold l_nr in H. revert i H. induction (l_rows l) as [|r rs IH]; intros [|i] H; cbn in H; try lia; [reflexivity|]. cbn [firstn skipn app nth]. f_equal. apply IH. lia. }
    rewrite Es. apply sim_rows; auto.
    - unfold put_grow. cbn [p_rows p_n]. replace (i + 1 - 1) with i by lia. apply Forall2_upd; [exact R|]. unfold get_grow. replace (i + 1 - 1) with i by lia.
      constructor; cbn [g_ty g_lb g_ub g_co r_ty r_co r_rhs]; auto. match goal with |- (fst ?p, snd ?p) = _ => destruct p; reflexivity end.
    - rewrite upd_len. lia. }
  unfold agree. destruct (r_ty (nth i (l_rows l) (mkRow FX [] 0))); cbn [gty_of] in *; apply Fin; reflexivity.
Qed.

(** *** the basis matrix *)
Lemma nth_bmi d bm cvo ie k : k < d -> nth_error (bm_indices d bm cvo ie) k = Some (map (fun col => 1 + col + snd bm) (seq 0 d) ++ [1 + cvo + k] ++ match ie with Some (_, c) => [1 + k + c] | None => [] end).
Proof. intro H. unfold bm_indices. rewrite nth_error_map. rewrite (nth_error_nth' _ 0) by (rewrite seq_length; exact H). rewrite seq_nth by exact H. reflexivity. Qed.
Lemma pred_bmi d bm cvo (ie : option (nat * nat)) k (m : mat) l : l_bm l = bm -> l_cvo l = cvo -> l_ie l = ie -> List.length (mrow m k) = d ->
  combine (map pred (map (fun col => 1 + col + snd bm) (seq 0 d) ++ [1 + cvo + k] ++ match ie with Some (_, c) => [1 + k + c] | None => [] end))
          (mrow m k ++ [(-1)%Q] ++ match ie with Some _ => [1%Q] | None => [] end) = bm_row l m k.
Proof.
  intros E1 E2 E3 L. unfold bm_row. rewrite E1, E2, E3. rewrite !map_app, map_map. subst d. clear. generalize (mrow m k) as v. intro v.
  assert (Hd : forall o rest rest', combine (map (fun x => pred (1 + x + snd bm)) (seq o (List.length v)) ++ rest) (v ++ rest') = dense_row v (o + snd bm) ++ combine rest rest').
  { induction v as [|a v IH]; intros o rest rest'; [reflexivity|]. cbn [List.length seq map app combine dense_row]. rewrite IH. cbn [app]. reflexivity. }
  rewrite Hd. cbn [Nat.add]. f_equal. destruct ie as [[r c]|]; cbn [map app combine pred]; [|reflexivity]. rewrite (Nat.add_comm k c). reflexivity.
Qed.
Lemma idx_nodup d bm cvo ie k : layout d bm cvo ie -> k < d -> NoDup (map (fun col => 1 + col + snd bm) (seq 0 d) ++ [1 + cvo + k] ++ match ie with Some (_, c) => [1 + k + c] | None => [] end).
Proof.
  intros [L1 L2] H. unfold disj in *.
  assert (N1 : NoDup (map (fun col => 1 + col + snd bm) (seq 0 d))) by (apply FinFun.Injective_map_NoDup; [intros x y; lia|apply seq_NoDup]).
  assert (N2 : NoDup (map (fun col => 1 + col + snd bm) (seq 0 d) ++ [1 + cvo + k])).
  { apply NoDup_app_one; [exact N1|]. intro K. apply in_map_iff in K as (x & E & Hx). apply in_seq in Hx. lia. }
  destruct ie as [[r c]|]; [|exact N2]. rewrite app_assoc. apply NoDup_app_one; [exact N2|]. intro K. apply in_app_or in K as [K|K].
  - apply in_map_iff in K as (x & E & Hx). apply in_seq in Hx. lia.
  - destruct K as [K|K]; [lia|destruct K].
Qed.
Lemma agree_basis g l m : sim g l -> agree (i_set_basis_matrix g m) (set_basis_matrix l m).
Proof.
  intros S. unfold i_set_basis_matrix, set_basis_matrix, pyassert.
  destruct (forallb (fun r => List.length r =? List.length m) m) eqn:Hsq; cbn [abind ret raise assert bind]; [|reflexivity]. rewrite (s_dims _ _ S).
  destruct (Nat.eqb_spec (List.length m) (l_dims l)) as [Hd|Hd]; cbn [abind ret raise assert bind]; [|reflexivity].
  assert (Hrow : forall k, k < l_dims l -> List.length (mrow m k) = l_dims l).
  { intros k Hk. rewrite forallb_forall in Hsq. assert (In (mrow m k) m) as Hin by (unfold mrow; apply nth_In; lia). apply Hsq in Hin. apply Nat.eqb_eq in Hin. lia. }
  set (ex := match i_ie g with Some _ => 1 | None => 0 end). rewrite Hd.
  match goal with |- context [afor ?xs (i_p g) ?f] => pose proof (afor_matrow f xs (map (bm_row l m) (seq 0 (l_dims l))) (fst (l_bm l)) (i_p g) (l_rows l) (s_rows _ _ S)) as A end.
  assert (Lb : List.length (i_bmi g) = l_dims l) by (rewrite (s_bmi _ _ S); unfold bm_indices; rewrite map_length, seq_length; apply (s_dims _ _ S)).
  destruct A as (p' & E & R & C & O).
  - rewrite !combine_length, !map_length, !seq_length, Lb, repeat_length. lia.
  - rewrite !combine_length, !map_length, !seq_length, Lb, repeat_length. change (p_m (i_p g)) with (i_nr g). rewrite (sim_nr _ _ S). pose proof (s_bmr _ _ S). rewrite (s_bm _ _ S), (s_dims _ _ S) in *. lia.
  - intros k (row & d & ind & cnt) co p' Hk Hn Hm Hn'. apply nth_error_combine in Hk as [Hr Hk]. rewrite map_length, seq_length in Hr. apply nth_seq in Hr as [-> Hlt]. apply nth_error_combine in Hk as [Hdat Hk]. apply nth_error_combine in Hk as [Hind Hcnt].
    rewrite (s_bmi _ _ S), (s_dims _ _ S), (nth_bmi _ _ _ _ k Hlt) in Hind. injection Hind as <-.
    rewrite nth_error_map, (nth_error_nth' _ 0) in Hdat by (rewrite seq_length; exact Hlt). rewrite seq_nth in Hdat by exact Hlt. cbn [option_map Nat.add] in Hdat. injection Hdat as <-.
    rewrite nth_error_map, (nth_error_nth' _ 0) in Hn by (rewrite seq_length; exact Hlt). rewrite seq_nth in Hn by exact Hlt. cbn [option_map Nat.add] in Hn. injection Hn as <-.
    apply nth_error_In, repeat_spec in Hcnt. subst cnt.
    rewrite (s_bm _ _ S), (s_cvo _ _ S), (s_ie _ _ S) in *. cbn [Nat.add].
    match goal with |- context [glp_set_mat_row _ _ _ ?I _] => set (ind := I) end.
    assert (Li : l_dims l + 1 + ex = List.length ind).
    { unfold ind, ex. rewrite !app_length, map_length, seq_length. rewrite (s_ie _ _ S). destruct (l_ie l) as [[? ?]|]; cbn [List.length]; lia. }
    rewrite Li.
    assert (Hrow' : in_rows p' (Datatypes.S (fst (l_bm l) + k)) = true).
    { pose proof (s_bmr _ _ S) as B. rewrite (s_bm _ _ S), (s_dims _ _ S) in B. unfold in_rows. rewrite Hm. change (p_m (i_p g)) with (i_nr g). rewrite (sim_nr _ _ S). apply andb_true_iff; split; apply Nat.leb_le; lia. }
    pose proof (mat_row p' (Datatypes.S (fst (l_bm l) + k)) ind (mrow m k ++ [(-1)%Q] ++ match l_ie l with Some _ => [1%Q] | None => [] end) Hrow') as A.
    destruct A as [A1 A2].
    + rewrite <- Li. unfold ex. rewrite !app_length, (Hrow k Hlt), (s_ie _ _ S). destruct (l_ie l); cbn [List.length]; lia.
    + pose proof (s_lay _ _ S) as Ly. rewrite (s_dims _ _ S), (s_bm _ _ S), (s_cvo _ _ S), (s_ie _ _ S) in Ly. exact (idx_nodup _ _ _ _ k Ly Hlt).
    + intros j Hj. rewrite Hn', (s_n _ _ S). pose proof (s_bmc _ _ S) as B1. pose proof (s_cur _ _ S) as B2. pose proof (s_iec _ _ S) as B3. rewrite (s_dims _ _ S), ?(s_bm _ _ S), ?(s_cvo _ _ S), ?(s_ie _ _ S) in *.
      unfold ind in Hj. apply in_app_or in Hj as [Hj|Hj]; [apply in_map_iff in Hj as (x & <- & Hx); apply in_seq in Hx; lia|].
      destruct (l_ie l) as [[r c]|]; cbn [app] in Hj; destruct Hj as [<-|Hj]; try lia; [destruct Hj as [<-|[]]; lia|destruct Hj].
    + eexists. replace (fst (l_bm l) + k + 1) with (Datatypes.S (fst (l_bm l) + k)) by lia. split; [|exact A1]. rewrite Hn' in A2.
      pose proof (pred_bmi (l_dims l) (l_bm l) (l_cvo l) (l_ie l) k m l eq_refl eq_refl eq_refl (Hrow k Hlt)) as Eb. change (combine (map pred ind) (mrow m k ++ [(-1)%Q] ++ match l_ie l with Some _ => [1%Q] | None => [] end) = bm_row l m k) in Eb. rewrite Eb in A2. exact A2.
  - rewrite (s_bm _ _ S) in *. cbn beta in E. rewrite E. cbn [abind ret]. exists (with_p g p'). split; [reflexivity|]. apply sim_rows; auto.
    + unfold p_n at 1. rewrite C. exact R.
    + unfold set_coefs. rewrite app_length, overwrite_length, <- app_length, firstn_skipn. lia.
Qed.

(** *** the objective *)
Lemma nth_upd_full {A} (l : list A) : forall j k v d, j < List.length l -> nth k (upd_nth j v l) d = if Nat.eqb j k then v else nth k l d.
Proof.
  induction l as [|x l IH]; intros [|j] [|k] v d H; cbn in H; try lia; try reflexivity. unfold upd_nth. cbn [firstn skipn app nth Nat.eqb]. apply IH. lia.
Qed.
Lemma afor_obj {A} (j : A -> nat) (v : A -> Q) : forall (xs : list A) p, List.length (p_obj p) = S (p_n p) -> (forall x, In x xs -> j x <= p_n p) ->
  exists o, afor xs p (fun x p => glp_set_obj_coef p (j x) (v x)) = ret (mkP (p_rows p) (p_cols p) o) /\ List.length o = List.length (p_obj p) /\
    forall k, nth k o 0%Q = fold_left (fun acc x => if Nat.eqb (j x) k then v x else acc) xs (nth k (p_obj p) 0%Q).
Proof.
  induction xs as [|x xs IH]; intros p L H; cbn [afor fold_left].
  - exists (p_obj p). split; [destruct p; reflexivity|]. auto.
  - unfold glp_set_obj_coef at 1, pre. replace (j x <=? p_n p) with true by (symmetry; apply Nat.leb_le; apply H; left; reflexivity). cbn [abind ret].
    destruct (IH (mkP (p_rows p) (p_cols p) (upd_nth (j x) (v x) (p_obj p)))) as (o & E & Lo & Ho).
    + cbn [p_obj]. rewrite upd_len, L. reflexivity.
    + intros y Hy. apply H. right. exact Hy.
    + exists o. split; [exact E|]. cbn [p_obj] in *. split; [rewrite Lo, upd_len; reflexivity|]. intro k. rewrite Ho. rewrite nth_upd_full; [reflexivity|]. specialize (H x (or_introl eq_refl)). lia.
Qed.
Lemma fold_const {A} (j : A -> nat) (v : A -> Q) k xs acc : (forall x, In x xs -> j x = k -> v x = 0%Q) -> (acc = 0%Q \/ exists x, In x xs /\ j x = k) ->
  fold_left (fun acc x => if Nat.eqb (j x) k then v x else acc) xs acc = 0%Q.
Proof.
  revert acc. induction xs as [|x xs IH]; intros acc H K; cbn [fold_left].
  - destruct K as [K|(x & [] & _)]. exact K.
  - apply IH; [intros y Hy; apply H; right; exact Hy|]. destruct (Nat.eqb_spec (j x) k) as [E|E].
    + left. apply H; [left; reflexivity|exact E].
    + destruct K as [K|(y & [->|Hy] & Ey)]; [left; exact K|contradiction|right; exists y; auto].
Qed.
Lemma fold_other {A} (j : A -> nat) (v : A -> Q) k xs acc : (forall x, In x xs -> j x <> k) -> fold_left (fun acc x => if Nat.eqb (j x) k then v x else acc) xs acc = acc.
Proof.
  revert acc. induction xs as [|x xs IH]; intros acc H; cbn [fold_left]; [reflexivity|]. rewrite IH by (intros y Hy; apply H; right; exact Hy).
  destruct (Nat.eqb_spec (j x) k) as [E|_]; [|reflexivity]. exfalso. exact (H x (or_introl eq_refl) E).
Qed.
Lemma fold_cf {A} (j : A -> nat) (v : A -> Q) c xs acc : NoDup (map j xs) -> (acc == 0)%Q ->
  (fold_left (fun acc x => if Nat.eqb (j x) c then v x else acc) xs acc == cf (map (fun x => (j x, v x)) xs) c)%Q.
Proof.
  revert acc. induction xs as [|x xs IH]; intros acc Nd Ha; cbn [fold_left map]; [exact Ha|]. inversion Nd as [|? ? K1 K2]; subst. rewrite cf_cons. cbn [fst snd].
  destruct (Nat.eqb_spec (j x) c) as [E|E]; [|apply IH; assumption].
  rewrite fold_other, cf_none; [ring| |].
  - intros e He. apply in_map_iff in He as (y & <- & Hy). cbn [fst]. intro Ey. apply K1. rewrite E, <- Ey. apply in_map. exact Hy.
  - intros y Hy Ey. apply K1. rewrite E, <- Ey. apply in_map. exact Hy.
Qed.
(** clearing the previous direction leaves a zero objective *)
Lemma clear_obj g l : sim g l -> exists p, i_clear_obj g = ret p /\ p_rows p = p_rows (i_p g) /\ p_cols p = p_cols (i_p g) /\ List.length (p_obj p) = S (p_n (i_p g)) /\ forall k, nth k (p_obj p) 0%Q = 0%Q.
Proof.
  intro S. destruct (afor_obj (fun c : nat => c) (fun _ => 0%Q) (i_objc g) (i_p g) (s_objl _ _ S)) as (o & E & Lo & Ho).
  - intros x Hx. apply (s_objc _ _ S) in Hx. lia.
  - eexists. split; [exact E|]. cbn [p_rows p_cols p_obj]. repeat split; auto; [rewrite Lo; apply (s_objl _ _ S)|]. intro k. rewrite Ho. apply fold_const; [reflexivity|].
    destruct k as [|c]; [left; apply (s_obj0 _ _ S)|]. destruct (in_dec Nat.eq_dec (Datatypes.S c) (i_objc g)) as [Hi|Hi]; [right; exists (Datatypes.S c); auto|left; apply (s_clr _ _ S); exact Hi].
Qed.
(** setting a direction on the cleared objective *)
Lemma set_dir {A} g l (xs : list A) (j : A -> nat) (v : A -> Q) (objc : list nat) (o' : srow) : sim g l -> NoDup (map j xs) -> (forall x, In x xs -> 1 <= j x <= p_n (i_p g)) -> objc = map j xs ->
  (forall c, cf (map (fun x => (j x, v x)) xs) (S c) = cf o' c) ->
  exists g', (call p <- i_clear_obj g; call p <- afor xs p (fun x p => glp_set_obj_coef p (j x) (v x));
              ret (mkLi p (i_names g) (i_dims g) (i_bm g) (i_cvo g) (i_ie g) objc (i_bmi g))) = ret g' /\ sim g' (with_obj l o').
Proof.
  intros S Nd Hr -> Hc. destruct (clear_obj g l S) as (p & E & Pr & Pc & Lo & Z). rewrite E. cbn [abind ret].
  assert (Pn : p_n p = p_n (i_p g)) by (unfold p_n; rewrite Pc; reflexivity).
  destruct (afor_obj j v xs p) as (o & Eo & Lo' & Ho); [rewrite Pn; exact Lo|intros x Hx; rewrite Pn; apply Hr; exact Hx|]. rewrite Eo. cbn [abind ret]. eexists. split; [reflexivity|].
  assert (Pn' : p_n (mkP (p_rows p) (p_cols p) o) = p_n (i_p g)) by exact Pn.
  assert (Hz : forall k, (forall x, In x xs -> j x <> k) -> nth k o 0%Q = 0%Q) by (intros k Hk; rewrite Ho, fold_other by exact Hk; apply Z).
  destruct S. constructor; cbn [i_p i_names i_dims i_bm i_cvo i_ie i_objc i_bmi with_obj l_rows l_names l_dims l_bm l_cvo l_ie l_obj]; auto.
  - rewrite Pn'. assumption.
  - cbn [p_cols]. rewrite Pc. assumption.
  - rewrite Pn'. cbn [p_rows]. rewrite Pr. assumption.
  - rewrite Pn'. cbn [p_obj]. rewrite Lo'. exact Lo.
  - apply Hz. intros x Hx E0. apply Hr in Hx. lia.
  - intro c. cbn [p_obj]. rewrite Ho. rewrite <- Hc. apply fold_cf; [exact Nd|]. rewrite Z. reflexivity.
  - intros k Hk. rewrite Pn'. apply in_map_iff in Hk as (x & <- & Hx). auto.
  - intros c Hc'. apply Hz. intros x Hx E0. apply Hc'. rewrite <- E0. apply in_map. exact Hx.
Qed.
Lemma nodup_map_on {A B} (f : A -> B) l : NoDup l -> (forall x y, In x l -> In y l -> f x = f y -> x = y) -> NoDup (map f l).
Proof.
  intros H. induction H as [|x l Hx H IH]; intro K; cbn [map]; constructor.
  - intro Hi. apply in_map_iff in Hi as (y & E & Hy). apply K in E; [subst y; contradiction|right; exact Hy|left; reflexivity].
  - apply IH. intros a b Ha Hb. apply K; right; assumption.
Qed.
Lemma cf_dense_combine cvo dir c : forall o, cf (map (fun e : nat * Q => (1 + cvo + fst e, snd e)) (combine (seq o (List.length dir)) dir)) (S c) = cf (dense_row dir (cvo + o)) c.
Proof.
  induction dir as [|a dir IH]; intro o; [reflexivity|]. cbn [List.length seq combine map dense_row]. rewrite !cf_cons. cbn [fst snd]. rewrite IH. cbn [Nat.add Nat.eqb]. rewrite Nat.add_succ_r. reflexivity.
Qed.
Lemma agree_dir g l dir : sim g l -> agree (i_set_min_dir g dir) (set_min_dir l dir).
Proof.
  intro S. unfold i_set_min_dir, set_min_dir, pyassert. rewrite (s_dims _ _ S). destruct (Nat.leb_spec (List.length dir) (l_dims l)) as [H|H]; cbn [abind ret raise assert bind]; [|reflexivity].
  unfold agree. pose proof (s_cur _ _ S) as Hc. rewrite (s_dims _ _ S) in Hc. rewrite <- (s_dims _ _ S).
  assert (Lc : map fst (combine (seq 0 (List.length dir)) dir) = seq 0 (List.length dir)) by (apply combine_fst; apply seq_length).
  apply (set_dir g l (combine (seq 0 (List.length dir)) dir) (fun e => 1 + i_cvo g + fst e) snd _ _ S).
  - rewrite <- (map_map fst (fun i => 1 + i_cvo g + i)), Lc. apply FinFun.Injective_map_NoDup; [intros x y; lia|apply seq_NoDup].
  - intros [i v] Hx. apply in_combine_l in Hx. apply in_seq in Hx. cbn [fst]. rewrite (s_n _ _ S). lia.
  - rewrite <- (map_map fst (fun i => 1 + i_cvo g + i)), Lc. reflexivity.
  - intro c. rewrite <- (s_cvo _ _ S). rewrite cf_dense_combine. rewrite Nat.add_0_r. reflexivity.
Qed.
Lemma afor_ext (xs : list (Q * nat)) (f h : Q * nat -> gprob -> abt gprob) : (forall x p, In x xs -> f x p = h x p) -> forall p, afor xs p f = afor xs p h.
Proof.
  induction xs as [|x xs IH]; intros H p; cbn [afor]; [reflexivity|]. rewrite (H x p (or_introl eq_refl)). destruct (h x p) as [[p1|e]|]; cbn [abind]; auto. apply IH. intros y q Hy. apply H. right. exact Hy.
Qed.
Lemma agree_dir_csr g l data inds w off : sim g l -> List.length inds = List.length data -> NoDup inds -> (forall c, In c inds -> c < w) ->
  agree (i_set_min_dir_csr g data inds w off) (set_min_dir_csr l (combine inds data) w off).
Proof.
  intros S El Nd Hr. unfold i_set_min_dir_csr, set_min_dir_csr, pyassert. rewrite (sim_nc _ _ S), (s_dims _ _ S), (s_cvo _ _ S).
  assert (Main : forall o, o + w <= l_nc l -> agree (call p <- i_clear_obj g;
      call p <- afor (combine data inds) p (fun e p => call _ <- (if 1 + o + snd e <=? l_nc l then ret tt else raise EAssert); glp_set_obj_coef p (1 + o + snd e) (fst e));
      ret (mkLi p (i_names g) (l_dims l) (i_bm g) (l_cvo l) (i_ie g) (map (fun c => 1 + o + c) (firstn (List.length data) inds)) (i_bmi g)))
      (do _ <- assert (row_cols_ltb (l_nc l) (shift_row o (combine inds data))); Ok (with_obj l (shift_row o (combine inds data))))).
  { intros o Ho.
    assert (Hb : row_cols_ltb (l_nc l) (shift_row o (combine inds data)) = true).
    { unfold row_cols_ltb, shift_row. apply forallb_forall. intros e He. apply in_map_iff in He as ([c v] & <- & He). apply in_combine_l, Hr in He. cbn [fst]. apply Nat.ltb_lt. lia. }
    rewrite Hb. cbn [assert bind]. unfold agree. rewrite <- El, firstn_all.
    assert (Lc : map snd (combine data inds) = inds).
    { clear - El. revert inds El. induction data as [|d data IH]; intros [|c inds] El; cbn in *; try lia; [reflexivity|]. f_equal. apply IH. lia. }
    assert (Ex : exists g', (call p <- i_clear_obj g; call p <- afor (combine data inds) p (fun e p => glp_set_obj_coef p (1 + o + snd e) (fst e));
        ret (mkLi p (i_names g) (i_dims g) (i_bm g) (i_cvo g) (i_ie g) (map (fun c => 1 + o + c) inds) (i_bmi g))) = ret g' /\ sim g' (with_obj l (shift_row o (combine inds data)))).
    { apply (set_dir g l (combine data inds) (fun e => 1 + o + snd e) fst _ _ S).
      - rewrite <- (map_map snd (fun i => 1 + o + i)), Lc. apply FinFun.Injective_map_NoDup; [intros x y; lia|exact Nd].
      - intros [v c] Hx. apply in_combine_r, Hr in Hx. cbn [snd]. rewrite (s_n _ _ S). lia.
      - rewrite <- (map_map snd (fun i => 1 + o + i)), Lc. reflexivity.
      - intro c. clear. revert inds. induction data as [|d data IH]; intros [|i inds]; cbn [combine map shift_row]; try reflexivity. rewrite !cf_cons. cbn [fst snd]. rewrite IH. cbn [Nat.add Nat.eqb]. reflexivity. }
    destruct Ex as (g' & E & S'). exists g'. split; [|exact S']. rewrite <- E, (s_dims _ _ S), (s_cvo _ _ S). destruct (i_clear_obj g) as [[p|e]|]; cbn [abind]; try reflexivity.
    match goal with |- abind ?a _ = abind ?b _ => assert (Ea : a = b); [|rewrite Ea; reflexivity] end.
    apply afor_ext. intros [v c] q Hx. apply in_combine_r, Hr in Hx. cbn [fst snd]. replace (1 + o + c <=? l_nc l) with true by (symmetry; apply Nat.leb_le; lia). reflexivity. }
  destruct off as [o|].
  - destruct (Nat.leb_spec (w + o) (l_nc l)) as [H|H]; cbn [abind ret raise assert bind]; [|reflexivity]. apply Main. lia.
  - destruct (Nat.leb_spec w (l_dims l)) as [H|H]; cbn [abind ret raise assert bind]; [|reflexivity]. pose proof (s_cur _ _ S) as Hc. rewrite (s_dims _ _ S), (s_cvo _ _ S) in Hc. apply Main. lia.
Qed.

(** ** histories *)
Lemma agree_op g l o : sim g l -> op_ok o l -> agree (lo_op o g) (hi_op o l).
Proof.
  intros S Ho. destruct o; cbn [lo_op hi_op op_ok] in *.
  - apply agree_cols; exact S.
  - apply agree_rows_types; exact S.
  - apply agree_rows_le; exact S.
  - apply agree_rows_eq0; exact S.
  - apply agree_csr; assumption.
  - apply agree_csc; assumption.
  - apply agree_reach; tauto.
  - apply agree_clone; exact S.
  - apply agree_basis; exact S.
  - apply agree_dir; exact S.
  - apply agree_dir_csr; tauto.
  - apply agree_rhs; exact S.
Qed.
Lemma agree_run os : forall g l, sim g l -> ops_ok os l -> agree (lo_run os g) (hi_run os l).
Proof.
  induction os as [|o os IH]; intros g l S H; cbn [lo_run hi_run]; [exists g; auto|]. destruct H as [Ho H]. pose proof (agree_op g l o S Ho) as A. unfold agree in A.
  destruct (hi_op o l) as [l1|e]; cbn [bind]; [|rewrite A; reflexivity]. destruct A as (g1 & E & S1). rewrite E. cbn [abind ret]. apply IH; assumption.
Qed.
