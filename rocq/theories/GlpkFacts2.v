(** The array-level model of Glpk.v refines LpModel.v: relation and one lemma per call. *)
From Verif Require Import Base BaseFacts LpModel LpUtil LpFacts Automaton BuildFacts HeapFacts Glpk GlpkSpec GlpkFacts.
From Coq Require Import Permutation Lia Lqa Setoid.
Open Scope nat_scope.

Record sim (g : lpi) (l : lp) : Prop := {
  s_names : i_names g = l_names l;
  s_dims : i_dims g = l_dims l;
  s_bm : i_bm g = l_bm l;
  s_cvo : i_cvo g = l_cvo l;
  s_ie : i_ie g = l_ie l;
  s_n : p_n (i_p g) = l_nc l;
  s_cols : Forall (fun k => k_ty k = GFR) (p_cols (i_p g));
  s_rows : rows_same (p_n (i_p g)) (p_rows (i_p g)) (l_rows l);
  s_objl : List.length (p_obj (i_p g)) = S (p_n (i_p g));
  s_obj0 : nth 0 (p_obj (i_p g)) 0%Q = 0%Q;
  s_obj : forall c, (nth (S c) (p_obj (i_p g)) 0 == cf (l_obj l) c)%Q;
  s_objc : forall j, In j (i_objc g) -> 1 <= j <= p_n (i_p g);
  s_clr : forall c, ~ In (S c) (i_objc g) -> nth (S c) (p_obj (i_p g)) 0%Q = 0%Q;
  s_bmi : i_bmi g = bm_indices (i_dims g) (i_bm g) (i_cvo g) (i_ie g);
  s_lay : layout (i_dims g) (i_bm g) (i_cvo g) (i_ie g);
  s_cur : i_cvo g + i_dims g <= l_nc l;
  s_bmr : fst (i_bm g) + i_dims g <= l_nr l;
  s_bmc : snd (i_bm g) + i_dims g <= l_nc l;
  s_iec : match i_ie g with Some (_, c) => c + i_dims g <= l_nc l | None => True end }.

(** both calls return with related results, or raise the same exception; never an abort *)
Definition agree (lo : abt lpi) (hi : res lp) : Prop := match hi with Ok l => exists g, lo = ret g /\ sim g l | Err e => lo = raise e end.

Lemma sim_new : sim lpi_new lp_new.
Proof.
  constructor; try reflexivity; try (cbn; lia).
  - constructor.
  - constructor.
  - intro c. cbn [lp_new l_obj lpi_new i_p glp_create_prob p_obj]. destruct c as [|c]; reflexivity.
  - intros c _. destruct c as [|[|c]]; reflexivity.
  - split; [left; cbn; lia|exact Logic.I].
Qed.
Lemma sim_nr g l : sim g l -> i_nr g = l_nr l.
Proof. intro S. unfold i_nr, p_m, l_nr. exact (F2_len _ _ _ (s_rows _ _ S)). Qed.
Lemma sim_nc g l : sim g l -> i_nc g = l_nc l.
Proof. intro S. unfold i_nc, l_nc. rewrite (s_names _ _ S). reflexivity. Qed.

(** replacing the problem object by one with other rows *)
Lemma sim_rows g l p' rs : sim g l -> rows_same (p_n p') (p_rows p') rs -> p_cols p' = p_cols (i_p g) -> p_obj p' = p_obj (i_p g) -> List.length (l_rows l) <= List.length rs ->
  sim (with_p g p') (with_rows l rs).
Proof.
  intros S R C O L. assert (N : p_n p' = p_n (i_p g)) by (unfold p_n; rewrite C; reflexivity).
  destruct S. constructor; cbn [with_p with_rows i_p i_names i_dims i_bm i_cvo i_ie i_objc i_bmi l_rows l_names l_dims l_bm l_cvo l_ie l_obj]; try rewrite N; try rewrite C; try rewrite O; auto.
  - rewrite <- N. exact R.
  - unfold l_nr, with_rows in *. cbn [l_rows] in *. lia.
Qed.

Lemma nth_seq k n o x : nth_error (seq o n) k = Some x -> x = o + k /\ k < n.
Proof.
  intro H. assert (L : k < n) by (rewrite <- (seq_length n o); apply nth_error_Some; congruence). split; [|exact L].
  apply nth_error_nth with (d := 0) in H. rewrite seq_nth in H by exact L. congruence.
Qed.
(** *** add_cols *)
Lemma nth_app_rep (o : list Q) k c : nth c (o ++ repeat 0%Q k) 0%Q = nth c o 0%Q.
Proof.
  destruct (le_lt_dec (List.length o) c) as [H|H]; [|apply app_nth1; exact H]. rewrite app_nth2, (nth_overflow o) by lia.
  generalize (c - List.length o) as i. clear. induction k as [|k IH]; intros [|i]; cbn; auto.
Qed.
Lemma agree_cols g l names : sim g l -> agree (i_add_cols g names) (Ok (add_cols l names)).
Proof.
  intro S. unfold agree, i_add_cols. pose proof (sim_nc _ _ S) as Nc. destruct (Nat.ltb_spec 0 (List.length names)) as [H|H].
  2:{ destruct names; [|cbn in H; lia]. exists g. split; [reflexivity|]. unfold add_cols, with_names. rewrite app_nil_r. destruct l; exact S. }
  unfold glp_add_cols, pre. destruct (Nat.ltb_spec 0 (List.length names)) as [_|K]; [|lia]. cbn [abind ret].
  pose proof (afor_colb (fun i p => glp_set_col_bnds p (i_nc g + i + 1) GFR 0 0) (p_rows (i_p g)) (p_obj (i_p g) ++ repeat 0%Q (List.length names)) (seq 0 (List.length names)) (p_cols (i_p g))) as A.
  rewrite seq_length in A. rewrite A; clear A.
  2:{ intros k x p Hk. apply nth_seq in Hk as [-> Hk].
      change (List.length (p_cols (i_p g))) with (p_n (i_p g)). rewrite (s_n _ _ S), Nc. reflexivity. }
  cbn [abind ret]. eexists. split; [reflexivity|].
  assert (Pn : p_n (mkP (p_rows (i_p g)) (p_cols (i_p g) ++ repeat (mkGc GFR 0 0) (List.length names)) (p_obj (i_p g) ++ repeat 0%Q (List.length names))) = p_n (i_p g) + List.length names).
  { unfold p_n. cbn [p_cols]. rewrite app_length, repeat_length. reflexivity. }
  assert (Ln : l_nc (add_cols l names) = l_nc l + List.length names) by (unfold l_nc, add_cols; cbn; apply app_length).
  destruct S. constructor; cbn [i_p i_names i_dims i_bm i_cvo i_ie i_objc i_bmi add_cols with_names l_rows l_names l_dims l_bm l_cvo l_ie l_obj]; auto.
  - congruence.
  - rewrite Pn. fold (add_cols l names). rewrite Ln. lia.
  - cbn [p_cols]. apply Forall_app. split; [assumption|]. apply Forall_forall. intros k Hk. apply repeat_spec in Hk. subst k. reflexivity.
  - rewrite Pn. cbn [p_rows]. eapply rows_same_grow; [|eassumption]. lia.
  - rewrite Pn. cbn [p_obj]. rewrite app_length, repeat_length. lia.
  - cbn [p_obj]. rewrite nth_app_rep. assumption.
  - intro c. cbn [p_obj]. rewrite nth_app_rep. auto.
  - intros j Hj. rewrite Pn. specialize (s_objc0 j Hj). lia.
  - intros c Hc. cbn [p_obj]. rewrite nth_app_rep. auto.
  - fold (add_cols l names). rewrite Ln. lia.
  - fold (add_cols l names). rewrite Ln. lia.
  - fold (add_cols l names). rewrite Ln. destruct (i_ie g) as [[? ?]|]; [lia|exact Logic.I].
Qed.

Lemma nth_error_combine {A B} (l : list A) : forall (l' : list B) k x y, nth_error (combine l l') k = Some (x, y) -> nth_error l k = Some x /\ nth_error l' k = Some y.
Proof. induction l as [|a l IH]; intros [|b l'] [|k] x y H; cbn in H; try discriminate; [injection H as -> ->; auto|exact (IH l' k x y H)]. Qed.
(** *** adding rows *)
Lemma add_rows_gen {A} g l (xs : list A) (t : A -> rty) (b : A -> Q) (body : A -> gprob -> abt gprob) : sim g l -> 0 < List.length xs ->
  (forall k x p, nth_error xs k = Some x -> exists lb ub, norm_bnds (gty_of (t x)) lb ub = norm_bnds (gty_of (t x)) (b x) (b x) /\ body x p = glp_set_row_bnds p (i_nr g + k + 1) (gty_of (t x)) lb ub) ->
  exists p', (call p <- glp_add_rows (i_p g) (List.length xs); call p <- afor xs p body; ret (with_p g p)) = ret (with_p g p') /\
    sim (with_p g p') (with_rows l (l_rows l ++ map (fun x => mkRow (t x) [] (b x)) xs)).
Proof.
  intros S H Hb. unfold glp_add_rows, pre. destruct (Nat.ltb_spec 0 (List.length xs)) as [_|K]; [|lia]. cbn [abind ret].
  pose proof (afor_bnds (fun x => gty_of (t x)) b b body (p_cols (i_p g)) (p_obj (i_p g)) xs (p_rows (i_p g))) as A'.
  fold grow0. rewrite A'.
  2:{ intros k x p Hk. destruct (Hb k x p Hk) as (lb & ub & E1 & E2). rewrite E2. unfold glp_set_row_bnds. rewrite E1. reflexivity. }
  cbn [abind ret]. eexists. split; [reflexivity|]. apply sim_rows; auto.
  - cbn [p_rows]. apply Forall2_app; [exact (s_rows _ _ S)|]. clear. induction xs as [|x xs IH]; cbn [map]; constructor; auto. apply new_row_same.
  - rewrite app_length. lia.
Qed.
Lemma agree_rows_le g l rhs : sim g l -> agree (i_add_rows_le g rhs) (Ok (add_rows_le l rhs)).
Proof.
  intro S. unfold agree, i_add_rows_le. destruct (Nat.ltb_spec 0 (List.length rhs)) as [H|H].
  2:{ destruct rhs; [|cbn in H; lia]. exists g. split; [reflexivity|]. unfold add_rows_le, with_rows. cbn [map]. rewrite app_nil_r. destruct l; exact S. }
  pose proof (add_rows_gen g l (combine (seq 0 (List.length rhs)) rhs) (fun _ => UP) snd (fun e p => glp_set_row_bnds p (i_nr g + fst e + 1) GUP 0 (snd e)) S) as A.
  rewrite combine_length, seq_length, Nat.min_id in A. destruct (A H) as (p' & E & S').
  - intros k [i v] p Hk. exists 0%Q, v. split; [reflexivity|]. cbn [fst snd]. apply nth_error_combine in Hk as [Hi _]. apply nth_seq in Hi as [-> _]. reflexivity.
  - exists (with_p g p'). split; [exact E|]. unfold add_rows_le. replace (map (fun b => mkRow UP [] b) rhs) with (map (fun x : nat * Q => mkRow UP [] (snd x)) (combine (seq 0 (List.length rhs)) rhs)); [exact S'|].
    generalize 0. clear. induction rhs as [|x r IH]; intro o; cbn; [reflexivity|]. f_equal. apply IH.
Qed.
Lemma agree_rows_eq0 g l n : sim g l -> agree (i_add_rows_eq0 g n) (Ok (add_rows_eq0 l n)).
Proof.
  intro S. unfold agree, i_add_rows_eq0. destruct (Nat.ltb_spec 0 n) as [H|H].
  2:{ replace n with 0 by lia. exists g. split; [reflexivity|]. unfold add_rows_eq0, with_rows. cbn [repeat]. rewrite app_nil_r. destruct l; exact S. }
  pose proof (add_rows_gen g l (seq 0 n) (fun _ => FX) (fun _ => 0%Q) (fun i p => glp_set_row_bnds p (i_nr g + i + 1) GFX 0 0) S) as A.
  rewrite seq_length in A. destruct (A H) as (p' & E & S').
  - intros k i p Hk. exists 0%Q, 0%Q. split; [reflexivity|]. apply nth_seq in Hk as [-> _]. reflexivity.
  - exists (with_p g p'). split; [exact E|]. unfold add_rows_eq0. replace (repeat (mkRow FX [] 0) n) with (map (fun _ : nat => mkRow FX [] 0) (seq 0 n)); [exact S'|].
    generalize 0. clear. induction n as [|n IH]; intro o; cbn; [reflexivity|]. f_equal. apply IH.
Qed.
Lemma agree_rows_types g l ts rhs : sim g l -> agree (i_add_rows_with_types g ts rhs) (add_rows_with_types l ts rhs).
Proof.
  intro S. unfold i_add_rows_with_types, add_rows_with_types, pyassert. destruct (Nat.eqb_spec (List.length ts) (List.length rhs)) as [E|E]; cbn [abind ret raise assert bind]; [|reflexivity].
  unfold agree. destruct (Nat.ltb_spec 0 (List.length rhs)) as [H|H].
  2:{ destruct rhs; [|cbn in H; lia]. destruct ts; [|cbn in E; lia]. exists g. split; [reflexivity|]. unfold with_rows. cbn [zip_rows]. rewrite app_nil_r. destruct l; exact S. }
  match goal with |- context [afor ?xs _ ?f] => pose proof (add_rows_gen g l xs (fun e => snd (snd e)) (fun e => fst (snd e)) f S) as A end.
  rewrite !combine_length, seq_length, E, Nat.min_id, Nat.min_id in A. destruct (A H) as (p' & E' & S').
  - intros k (i & v & t) p Hk. apply nth_error_combine in Hk as [Hi _]. apply nth_seq in Hi as [-> _]. cbn [fst snd]. destruct t; cbn [gty_of]; eexists; eexists; (split; [|reflexivity]); reflexivity.
  - exists (with_p g p'). split; [exact E'|]. replace (zip_rows ts rhs) with (map (fun x : nat * (Q * rty) => mkRow (snd (snd x)) [] (fst (snd x))) (combine (seq 0 (List.length rhs)) (combine rhs ts))); [exact S'|].
    generalize 0. clear - E. revert ts E. induction rhs as [|x r IH]; intros [|t ts] E o; cbn in E |- *; try lia; [reflexivity|]. f_equal. apply IH. lia.
Qed.

(** *** coefficients *)
Lemma slice_data_map a k : ptr_of a (k + 1) <= List.length (ar_data a) -> slice_data a k = map (fun i => nth i (ar_data a) 0%Q) (seq (ptr_of a k) (ptr_of a (k + 1) - ptr_of a k)).
Proof.
  unfold slice_data. generalize (ptr_of a k) (ptr_of a (k + 1)) (ar_data a). intros u v l H. assert (L : u + (v - u) <= List.length l \/ v - u = 0) by lia. revert L. generalize (v - u) as n. clear.
  intros n [L|L]; [|subst n; reflexivity]. revert u l L. induction n as [|n IH]; intros u l L; [reflexivity|]. cbn [seq map]. rewrite <- (IH (S u) l) by lia.
  clear IH. revert u L. induction l as [|x l IHl]; intros u L; cbn [List.length] in L; [lia|]. destruct u as [|u]; [reflexivity|]. cbn [skipn nth]. apply IHl. lia.
Qed.
Lemma slice_combine a k : ptr_of a (k + 1) <= List.length (ar_data a) -> combine (slice_ind a k) (slice_data a k) = line_of a k.
Proof.
  intro H. rewrite slice_data_map by exact H. unfold slice_ind, line_of, ptr_of. replace (k + 1) with (S k) by lia. generalize (seq (nth k (ar_ptr a) 0) (nth (S k) (ar_ptr a) 0 - nth k (ar_ptr a) 0)).
  intro l. induction l as [|x l IH]; cbn; [reflexivity|]. f_equal. exact IH.
Qed.
Lemma line_facts a k : arr_ok a -> k < ar_maj a -> ptr_of a (k + 1) <= List.length (ar_data a) /\ List.length (slice_ind a k) = List.length (slice_data a k) /\
  List.length (slice_ind a k) = ptr_of a (k + 1) - ptr_of a k /\ NoDup (slice_ind a k) /\ forall c, In c (slice_ind a k) -> c < ar_min a.
Proof.
  intros W Hk. assert (P : ptr_of a (k + 1) <= List.length (ar_data a)) by (unfold ptr_of; apply (a_last _ W); lia).
  split; [exact P|]. assert (L : List.length (slice_ind a k) = List.length (slice_data a k)) by (rewrite (slice_data_map a k P); unfold slice_ind; rewrite !map_length; reflexivity).
  split; [exact L|]. split; [unfold slice_ind; rewrite map_length, seq_length; reflexivity|]. split.
  - pose proof (a_canon _ W k Hk) as N. rewrite <- slice_combine, combine_fst in N by assumption. exact N.
  - intros c Hc. unfold slice_ind in Hc. apply in_map_iff in Hc as (i & <- & Hi). apply in_seq in Hi. apply (a_range _ W). apply nth_In. rewrite (a_len _ W). lia.
Qed.
Lemma map_pred_shift off l : map pred (map (fun c => 1 + off + c) l) = map (fun c => off + c) l.
Proof. rewrite map_map. reflexivity. Qed.
Lemma shift_combine off l v : combine (map (fun c => off + c) l) v = shift_row off (combine l v).
Proof. revert v. induction l as [|x l IH]; intros [|y v]; cbn; auto. rewrite IH. reflexivity. Qed.
Lemma nodup_shift off l : NoDup l -> NoDup (map (fun c => 1 + off + c) l).
Proof. intro H. apply FinFun.Injective_map_NoDup; [intros x y; lia|exact H]. Qed.

Lemma agree_csr g l a off : sim g l -> arr_ok a -> agree (i_set_csr g a off) (set_constraints_csr l (csr_of a) off).
Proof.
  intros S W. unfold i_set_csr, set_constraints_csr. rewrite (sim_nr _ _ S), (sim_nc _ _ S). unfold csr_of, c_nr. cbn [c_nc c_rows]. rewrite map_length, seq_length.
  destruct (Nat.ltb_spec (l_nr l) (fst off + ar_maj a)) as [H|H1]; [reflexivity|]. destruct (Nat.ltb_spec (l_nc l) (snd off + ar_min a)) as [H|H2]; [reflexivity|]. cbn [orb].
  assert (M : p_m (i_p g) = l_nr l) by exact (sim_nr _ _ S).
  match goal with |- context [afor (seq 0 (ar_maj a)) (i_p g) ?f] => pose proof (afor_matrow f (seq 0 (ar_maj a)) (map (shift_row (snd off)) (map (line_of a) (seq 0 (ar_maj a)))) (fst off) (i_p g) (l_rows l) (s_rows _ _ S)) as A end.
  destruct A as (p' & E & R & C & O).
  - rewrite !map_length. reflexivity.
  - rewrite seq_length, M. lia.
  - intros k x co p' Hk Hn Hm Hn'. apply nth_seq in Hk as [-> Hk]. rewrite !nth_error_map in Hn. rewrite (nth_error_nth' _ 0) in Hn by (rewrite seq_length; exact Hk). rewrite seq_nth in Hn by exact Hk. cbn [option_map Nat.add] in Hn. injection Hn as <-.
    destruct (line_facts a k W Hk) as (P & L & L2 & Nd & Rg). cbn [Nat.add]. rewrite <- L2.
    assert (Hrow : in_rows p' (fst off + k + 1) = true) by (unfold in_rows; rewrite Hm, M; apply andb_true_iff; split; apply Nat.leb_le; lia).
    pose proof (mat_row p' (fst off + k + 1) (map (fun c => 1 + snd off + c) (slice_ind a k)) (slice_data a k) Hrow) as A. rewrite map_length in A.
    destruct A as [A1 A2]; [exact L|apply nodup_shift; exact Nd| |].
    { intros j Hj. apply in_map_iff in Hj as (c & <- & Hc). apply Rg in Hc. rewrite Hn', (s_n _ _ S). lia. }
    eexists. split; [|exact A1]. rewrite map_pred_shift, (shift_combine (snd off)), slice_combine, Hn' in A2 by exact P. exact A2.
  - cbn beta in E. rewrite E. cbn [abind ret]. exists (with_p g p'). split; [reflexivity|]. apply sim_rows; auto.
    + unfold p_n at 1. rewrite C. exact R.
    + apply F2_len in R. rewrite <- R. rewrite <- (F2_len _ _ _ (s_rows _ _ S)). assert (Lp : List.length (p_rows p') = List.length (p_rows (i_p g))); [|lia].
      rewrite R. rewrite (F2_len _ _ _ (s_rows _ _ S)). unfold set_coefs. rewrite app_length, overwrite_length, <- app_length, firstn_skipn. reflexivity.
Qed.

(** *** columns *)
Lemma cf_col_same j i ents : cf (map (fun e => (j, snd e)) (filter (fun e => fst e =? i) ents)) j = cf ents i.
Proof. induction ents as [|e ents IH]; [reflexivity|]. cbn [filter]. rewrite cf_cons. destruct (fst e =? i); [|exact IH]. cbn [map]. rewrite cf_cons. cbn [fst snd]. rewrite Nat.eqb_refl, IH. reflexivity. Qed.
Lemma cf_col_other j j' i (ents : list (nat * Q)) : j <> j' -> cf (map (fun e => (j, snd e)) (filter (fun e => fst e =? i) ents)) j' = 0%Q.
Proof. intro H. apply cf_none. intros e He. apply in_map_iff in He as (e' & <- & _). exact H. Qed.
Lemma cf_drop_same j co : cf (filter (fun e => negb (fst e =? j)) co) j = 0%Q.
Proof. apply cf_none. intros e He. apply filter_In in He as [_ He]. apply negb_true_iff, Nat.eqb_neq in He. exact He. Qed.
Lemma cf_drop_other j j' co : j <> j' -> cf (filter (fun e => negb (fst e =? j)) co) j' = cf co j'.
Proof.
  intro H. induction co as [|e co IH]; [reflexivity|]. cbn [filter]. destruct (Nat.eqb_spec (fst e) j) as [E|E]; cbn [negb]; rewrite !cf_cons, IH; [|reflexivity].
  destruct (Nat.eqb_spec (fst e) j'); [congruence|reflexivity].
Qed.
Lemma filter_one i (ents : list (nat * Q)) : NoDup (map fst ents) -> filter (fun e => fst e =? i) ents = [] \/ exists e, filter (fun e => fst e =? i) ents = [e].
Proof.
  induction ents as [|e ents IH]; intro H; [left; reflexivity|]. inversion H as [|? ? K1 K2]; subst. cbn [filter]. destruct (Nat.eqb_spec (fst e) i) as [E|E]; [|auto].
  right. exists e. f_equal. destruct (filter _ ents) as [|e' r] eqn:F; [reflexivity|]. exfalso. assert (He : In e' (filter (fun e => fst e =? i) ents)) by (rewrite F; left; reflexivity).
  apply filter_In in He as [He Ei]. apply Nat.eqb_eq in Ei. apply K1. rewrite E, <- Ei. apply in_map. exact He.
Qed.
Lemma NoDup_app_one (l : list nat) x : NoDup l -> ~ In x l -> NoDup (l ++ [x]).
Proof. intros H K. apply (Permutation_NoDup (l := x :: l)); [apply Permutation_cons_append|constructor; assumption]. Qed.
Lemma put_col_same n c ents1 ents rows rs : rows_same n rows rs -> S c <= n -> NoDup (map fst ents1) -> (forall i, (cf ents1 (S i) == cf ents i)%Q) ->
  forall i, rows_same n (put_col (S c) (S i) ents1 rows) (set_col c ents i rs).
Proof.
  intros R Hc Nd Ce. induction R as [|gr r rows rs Hr R IH]; intro i; cbn [put_col set_col]; constructor; [|apply IH]. destruct Hr as [A1 A2 A3 A4 A5]. unfold drop_col, col_entries.
  constructor; cbn [g_ty g_lb g_ub g_co set_co r_ty r_rhs r_co]; auto.
  - intro d. rewrite !cf_app. destruct (Nat.eq_dec c d) as [->|Hd].
    + rewrite !cf_drop_same, !cf_col_same. rewrite (Ce i). reflexivity.
    + rewrite !cf_drop_other, !cf_col_other by lia. rewrite (A3 d). reflexivity.
  - rewrite map_app. destruct (filter_one (S i) ents1 Nd) as [F|[e F]]; rewrite F; cbn [map].
    + rewrite app_nil_r. apply nodup_filter_fst. exact A4.
    + apply NoDup_app_one; [apply nodup_filter_fst; exact A4|]. cbn [fst]. intro K. apply in_map_iff in K as (y & Ey & Hy). apply filter_In in Hy as [_ Hy]. apply negb_true_iff, Nat.eqb_neq in Hy. contradiction.
  - intros e He. apply in_app_or in He as [He|He]; [apply filter_In in He as [He _]; auto|]. apply in_map_iff in He as (e' & <- & _). cbn [fst]. lia.
Qed.
Lemma set_cols_length cols : forall c rs, List.length (set_cols c cols rs) = List.length rs.
Proof.
  induction cols as [|e cols IH]; intros c rs; cbn [set_cols]; [reflexivity|]. rewrite IH. clear. generalize 0. induction rs as [|r rs IH]; intro i; cbn; auto.
Qed.
Lemma mat_col p j ind val : in_cols p j = true -> List.length ind = List.length val -> NoDup ind -> (forall i, In i ind -> 1 <= i <= p_m p) ->
  glp_set_mat_col p j (List.length ind) ind val = ret (mkP (put_col j 1 (filter nonzero (combine ind val)) (p_rows p)) (p_cols p) (p_obj p)) /\
  NoDup (map fst (filter nonzero (combine ind val))) /\ forall i, (cf (filter nonzero (combine ind val)) (S i) == cf (combine (map pred ind) val) i)%Q.
Proof.
  intros Hi El Hd Hr. split; [|split].
  - unfold glp_set_mat_col, pre, entries. assert (F : firstn (List.length ind) val = val) by (rewrite El; apply firstn_all). rewrite F, !firstn_all.
    rewrite Hi. replace (List.length ind <=? p_m p) with true by (symmetry; apply Nat.leb_le; apply range_len; auto).
    rewrite Nat.leb_refl. replace (List.length ind <=? List.length val) with true by (symmetry; apply Nat.leb_le; lia).
    replace (forallb (in_rows p) ind) with true by (symmetry; apply forallb_forall; intros i' Hj; apply Hr in Hj; unfold in_rows; apply andb_true_iff; split; apply Nat.leb_le; lia).
    replace (nodupb ind) with true by (symmetry; apply nodupb_true; exact Hd). reflexivity.
  - apply nodup_filter_fst; rewrite combine_fst by exact El; exact Hd.
  - intro c. rewrite cf_nonzero. assert (Hp : forall j, In j ind -> 1 <= j) by (intros j' Hj; apply Hr in Hj; lia). clear - Hp. revert val. induction ind as [|j' ind IH]; intros [|v val]; try reflexivity.
    assert (K := IH (fun k Hk => Hp k (or_intror Hk)) val). cbn [combine map]. rewrite !cf_cons. cbn [fst snd]. specialize (Hp j' (or_introl eq_refl)). destruct (Nat.eqb_spec j' (S c)), (Nat.eqb_spec (pred j') c); try lia; [rewrite K; reflexivity|exact K].
Qed.
Lemma put_col_length j ents rows : forall i, List.length (put_col j i ents rows) = List.length rows.
Proof. induction rows as [|r rows IH]; intro i; cbn; auto. Qed.
Lemma afor_matcol {A} (body : A -> gprob -> abt gprob) : forall (l : list A) (new : list srow) c0 p rs,
  rows_same (p_n p) (p_rows p) rs -> List.length new = List.length l -> c0 + List.length l <= p_n p ->
  (forall k x co p', nth_error l k = Some x -> nth_error new k = Some co -> p_m p' = p_m p -> p_n p' = p_n p ->
     exists ents, NoDup (map fst ents) /\ (forall i, (cf ents (S i) == cf co i)%Q) /\ body x p' = ret (mkP (put_col (c0 + k + 1) 1 ents (p_rows p')) (p_cols p') (p_obj p'))) ->
  exists p', afor l p body = ret p' /\ rows_same (p_n p) (p_rows p') (set_cols c0 new rs) /\ p_cols p' = p_cols p /\ p_obj p' = p_obj p.
Proof.
  induction l as [|x l IH]; intros new c0 p rs R En Hc Hb; cbn [afor].
  - exists p. destruct new; [|discriminate]. auto.
  - destruct new as [|co new]; [discriminate|]. injection En as En. cbn [List.length] in Hc.
    destruct (Hb 0 x co p eq_refl eq_refl eq_refl eq_refl) as (ents & G1 & G2 & E). rewrite E. cbn [abind ret set_cols].
    set (p1 := mkP _ _ _). assert (M1 : p_m p1 = p_m p) by (unfold p1, p_m; cbn [p_rows]; apply put_col_length). assert (N1 : p_n p1 = p_n p) by reflexivity.
    assert (R1 : rows_same (p_n p1) (p_rows p1) (set_col c0 co 0 rs)).
    { rewrite N1. unfold p1. cbn [p_rows]. replace (c0 + 0 + 1) with (S c0) by lia. apply put_col_same; auto. lia. }
    destruct (IH new (S c0) p1 _ R1 En) as (p' & E' & R' & C' & O').
    + rewrite N1. lia.
    + intros k y co' p' Hk Hn Hm Hn'. destruct (Hb (S k) y co' p' Hk Hn) as (ents' & Ga & Gb & Eb); [congruence|congruence|]. exists ents'. split; [exact Ga|]. split; [exact Gb|].
      replace (S c0 + k + 1) with (c0 + S k + 1) by lia. exact Eb.
    + exists p'. split; [exact E'|]. rewrite N1 in R'. auto.
Qed.
Lemma agree_csc g l a off : sim g l -> arr_ok a -> agree (i_set_csc g a off) (set_constraints_csc l (csc_of a) off).
Proof.
  intros S W. unfold i_set_csc, set_constraints_csc. rewrite (sim_nr _ _ S), (sim_nc _ _ S). unfold csc_of. cbn [cc_nr cc_cols]. rewrite map_length, seq_length.
  destruct (Nat.ltb_spec (l_nr l) (fst off + ar_min a)) as [H|H1]; [reflexivity|]. destruct (Nat.ltb_spec (l_nc l) (snd off + ar_maj a)) as [H|H2]; [reflexivity|]. cbn [orb].
  assert (M : p_m (i_p g) = l_nr l) by exact (sim_nr _ _ S).
  match goal with |- context [afor (seq 0 (ar_maj a)) (i_p g) ?f] => pose proof (afor_matcol f (seq 0 (ar_maj a)) (map (shift_row (fst off)) (map (line_of a) (seq 0 (ar_maj a)))) (snd off) (i_p g) (l_rows l) (s_rows _ _ S)) as A end.
  destruct A as (p' & E & R & C & O).
  - rewrite !map_length. reflexivity.
  - rewrite seq_length, (s_n _ _ S). lia.
  - intros k x co p' Hk Hn Hm Hn'. apply nth_seq in Hk as [-> Hk]. rewrite !nth_error_map in Hn. rewrite (nth_error_nth' _ 0) in Hn by (rewrite seq_length; exact Hk). rewrite seq_nth in Hn by exact Hk. cbn [option_map Nat.add] in Hn. injection Hn as <-.
    destruct (line_facts a k W Hk) as (P & L & L2 & Nd & Rg). cbn [Nat.add]. rewrite <- L2.
    assert (Hcol : in_cols p' (snd off + k + 1) = true) by (unfold in_cols; rewrite Hn', (s_n _ _ S); apply andb_true_iff; split; apply Nat.leb_le; lia).
    pose proof (mat_col p' (snd off + k + 1) (map (fun c => 1 + fst off + c) (slice_ind a k)) (slice_data a k) Hcol) as A. rewrite map_length in A.
    destruct A as (A1 & A2 & A3); [exact L|apply nodup_shift; exact Nd| |].
    { intros j Hj. apply in_map_iff in Hj as (c & <- & Hc). apply Rg in Hc. rewrite Hm, M. lia. }
    eexists. split; [exact A2|]. split; [|exact A1]. rewrite map_pred_shift, (shift_combine (fst off)), slice_combine in A3 by exact P. exact A3.
  - cbn beta in E. rewrite E. cbn [abind ret]. exists (with_p g p'). split; [reflexivity|]. apply sim_rows; auto.
    + unfold p_n at 1. rewrite C. exact R.
    + rewrite set_cols_length. lia.
Qed.
