(** C65: an LpInstance, whatever calls built it, is the linear program the rest of the model says it is.  The array-level model (Glpk.v) makes the calls to
    GLPK that lpinstance.py makes; LpModel.v is the list-of-rows model every other property is proved about. *)
From Verif Require Import Base BaseFacts LpModel LpSpec LpUtil LpFacts Automaton BuildFacts HeapFacts Glpk GlpkSpec GlpkFacts GlpkFacts2 GlpkFacts3.
From Coq Require Import Permutation Lia Lqa Setoid List.
Open Scope nat_scope.

(** ** from the relation to what a user sees *)
Lemma g_val_cf co r x : (forall c, (cf co (S c) == cf r c)%Q) -> (forall e, In e co -> 1 <= fst e) -> (g_val co x == reval r x)%Q.
Proof.
  intros H K.
  assert (E : (g_val co x == reval (map (fun e : nat * Q => ((fst e - 1)%nat, snd e)) co) x)%Q).
  { clear H. induction co as [|e co IH]; [reflexivity|]. cbn [g_val fold_right map]. fold (g_val co x). rewrite IH by (intros y Hy; apply K; right; exact Hy). reflexivity. }
  rewrite E. apply reval_cf. intro c. rewrite <- H. rewrite (cf_move (fun i => i - 1) co (S c) c); [reflexivity|]. intros e He. apply K in He. lia.
Qed.
Lemma sim_sat g l x : sim g l -> (p_sat (i_p g) x <-> lp_sat l x).
Proof.
  intro S. assert (R := s_rows _ _ S). unfold p_sat, lp_sat. split.
  - intros [H _]. apply Forall_forall. intros r Hr. apply In_nth with (d := mkRow FX [] 0) in Hr as (i & Hi & <-). pose proof (F2_len _ _ _ R) as Ln.
    specialize (H (i + 1)). unfold p_m, get_grow in H. replace (i + 1 - 1) with i in H by lia. specialize (H ltac:(lia)). cbv zeta in H.
    destruct (Forall2_nth _ _ _ R i grow0 (mkRow FX [] 0)) as [A1 A2 A3 A4 A5]; [lia|].
    assert (V := g_val_cf _ _ x A3 (fun e He => proj1 (A5 e He))). rewrite A1 in H. unfold row_sat. destruct (r_ty _); cbn [gty_of norm_bnds in_bnds] in *; injection A2 as E1 E2; rewrite ?E1, ?E2, V in H; exact H.
  - intro H. split.
    + intros i Hi. cbv zeta. unfold get_grow. unfold p_m in Hi. destruct (Forall2_nth _ _ _ R (i - 1) grow0 (mkRow FX [] 0)) as [A1 A2 A3 A4 A5]; [lia|].
      rewrite Forall_forall in H. specialize (H (nth (i - 1) (l_rows l) (mkRow FX [] 0)) ltac:(apply nth_In; rewrite <- (F2_len _ _ _ R); lia)).
      assert (V := g_val_cf _ _ x A3 (fun e He => proj1 (A5 e He))). rewrite A1. unfold row_sat in H. destruct (r_ty _); cbn [gty_of norm_bnds in_bnds] in *; injection A2 as E1 E2; rewrite ?E1, ?E2, V; exact H.
    + intros j Hj. cbv zeta. pose proof (s_cols _ _ S) as C. rewrite Forall_forall in C. rewrite (C (nth (j - 1) (p_cols (i_p g)) (mkGc GFX 0 0))); [exact Logic.I|]. apply nth_In. unfold p_n in Hj. lia.
Qed.
Lemma objsum o x : forall n s, (fold_right (fun j acc => nth j o 0 * x (j - 1)%nat + acc) 0 (seq (S s) n) == ldot (map (fun c => nth (S c) o 0) (seq s n)) s x)%Q.
Proof. induction n as [|n IH]; intro s; [reflexivity|]. cbn [seq fold_right map ldot]. rewrite IH. replace (S s - 1) with s by lia. reflexivity. Qed.
Lemma cf_zero_beyond l n c : (forall d, n <= d -> (cf l d == 0)%Q) -> forall r, r = filter (fun e : nat * Q => fst e <? n) l -> (cf r c == cf l c)%Q.
Proof.
  intros H r ->. destruct (le_lt_dec n c) as [Hc|Hc].
  - rewrite (H c Hc). rewrite cf_none; [reflexivity|]. intros e He. apply filter_In in He as [_ He]. apply Nat.ltb_lt in He. lia.
  - clear H. induction l as [|e l IH]; [reflexivity|]. cbn [filter]. destruct (Nat.ltb_spec (fst e) n) as [L|L]; rewrite !cf_cons.
    + destruct (fst e =? c); [rewrite IH; reflexivity|exact IH].
    + destruct (Nat.eqb_spec (fst e) c); [lia|exact IH].
Qed.
Lemma sim_obj g l x : sim g l -> (p_objval (i_p g) x == reval (l_obj l) x)%Q.
Proof.
  intro S. unfold p_objval. rewrite (s_obj0 _ _ S). rewrite objsum. rewrite Qplus_0_l.
  set (r := filter (fun e : nat * Q => fst e <? p_n (i_p g)) (l_obj l)).
  assert (Z : forall c, (cf r c == cf (l_obj l) c)%Q).
  { intro c. apply (cf_zero_beyond _ (p_n (i_p g))); [|reflexivity]. intros d Hd. rewrite <- (s_obj _ _ S). rewrite nth_overflow; [reflexivity|]. rewrite (s_objl _ _ S). lia. }
  assert (D : (ldot (dense_of r (p_n (i_p g))) 0 x == reval r x)%Q).
  { apply dense_of_eval. unfold r, row_cols_lt. apply Forall_forall. intros e He. apply filter_In in He as [_ He]. apply Nat.ltb_lt in He. exact He. }
  transitivity (reval r x); [|apply reval_cf; exact Z]. transitivity (ldot (dense_of r (p_n (i_p g))) 0 x); [|exact D]. rewrite cf_dense. apply ldot_ext. intro c. rewrite (s_obj _ _ S). symmetry. apply Z.
Qed.

(** ** The theorems *)
(** Every history of calls, from an empty instance: the calls return, never abort inside of GLPK, raise the exception the other model raises, and leave
    a GLPK problem with the same solutions and the same objective. *)
Theorem C65_histories os : ops_ok os lp_new ->
  match hi_run os lp_new with
  | Ok l => exists g, lo_run os lpi_new = Some (Ok g) /\ i_names g = l_names l /\ p_m (i_p g) = l_nr l /\ p_n (i_p g) = l_nc l /\
              (forall x, p_sat (i_p g) x <-> lp_sat l x) /\ (forall x, (p_objval (i_p g) x == reval (l_obj l) x)%Q)
  | Err e => lo_run os lpi_new = Some (Err e)
  end.
Proof.
  intro H. pose proof (agree_run os lpi_new lp_new sim_new H) as A. unfold agree in A. destruct (hi_run os lp_new) as [l|e]; [|exact A].
  destruct A as (g & E & S). exists g. split; [exact E|]. split; [apply (s_names _ _ S)|]. split; [exact (sim_nr _ _ S)|]. split; [apply (s_n _ _ S)|]. split; [intro x; apply sim_sat; exact S|intro x; apply sim_obj; exact S].
Qed.
(** The objective is exactly the last direction set, however many were set before it. *)
Theorem C65_last_direction os dir x g g' : ops_ok os lp_new -> lo_run os lpi_new = Some (Ok g) -> i_set_min_dir g dir = Some (Ok g') -> (p_objval (i_p g') x == ldot dir (i_cvo g) x)%Q.
Proof.
  intros H Hr Hd. pose proof (agree_run os lpi_new lp_new sim_new H) as A. unfold agree in A. destruct (hi_run os lp_new) as [l|e]; [|rewrite A in Hr; discriminate].
  destruct A as (g1 & E & S). assert (g1 = g) by (unfold ret in E; congruence). subst g1. pose proof (agree_dir g l dir S) as A. unfold agree in A.
  destruct (set_min_dir l dir) as [l'|e] eqn:El; [|rewrite A in Hd; discriminate]. destruct A as (g1 & E1 & S1). assert (g1 = g') by (unfold ret in E1; congruence). subst g1.
  rewrite (sim_obj _ _ x S1). unfold set_min_dir in El. destruct (List.length dir <=? l_dims l); cbn [assert bind] in El; [|discriminate]. injection El as <-. cbn [with_obj l_obj]. rewrite (s_cvo _ _ S). apply reval_dense.
Qed.

(** ** Queries: what is read back is what was written; [ord] is the order in which GLPK lists a row *)
Definition built (os : list lop) (g : lpi) (l : lp) : Prop := ops_ok os lp_new /\ lo_run os lpi_new = Some (Ok g) /\ hi_run os lp_new = Ok l.
Lemma built_sim os g l : built os g l -> sim g l.
Proof.
  intros (H & E & K). pose proof (agree_run os lpi_new lp_new sim_new H) as A. rewrite K in A. destruct A as (g1 & E1 & S). assert (g1 = g) by (unfold ret in E1; congruence). subst g1. exact S.
Qed.
Lemma amap_ok {A B} (f : A -> abt B) (h : A -> B) xs : (forall x, In x xs -> f x = ret (h x)) -> amap f xs = ret (map h xs).
Proof.
  induction xs as [|x xs IH]; intro H; cbn [amap map]; [reflexivity|]. rewrite (H x (or_introl eq_refl)). cbn [abind ret]. rewrite IH by (intros y Hy; apply H; right; exact Hy). reflexivity.
Qed.
Lemma map_nth_seq {A} (l : list A) d : map (fun i => nth i l d) (seq 0 (List.length l)) = l.
Proof. induction l as [|x l IH]; [reflexivity|]. cbn [List.length seq map nth]. f_equal. rewrite <- seq_shift, map_map. exact IH. Qed.
Lemma in_rows_lt g i : i < i_nr g -> in_rows (i_p g) (i + 1) = true.
Proof. intro H. unfold in_rows. change (p_m (i_p g)) with (i_nr g). apply andb_true_iff. split; apply Nat.leb_le; lia. Qed.
Theorem C65_get_types os g l : built os g l -> i_get_types g = Some (Ok (map gty_of (get_types l))).
Proof.
  intro B. apply built_sim in B as S. unfold i_get_types, get_types. rewrite (amap_ok _ (fun i => gty_of (r_ty (nth i (l_rows l) (mkRow FX [] 0))))).
  - rewrite (sim_nr _ _ S). unfold l_nr. rewrite <- (map_map (fun i => nth i (l_rows l) (mkRow FX [] 0)) (fun r => gty_of (r_ty r))), map_nth_seq, map_map. reflexivity.
  - intros i Hi. apply in_seq in Hi. unfold glp_get_row_type, pre. rewrite in_rows_lt by lia. unfold get_grow. replace (i + 1 - 1) with i by lia.
    rewrite (rs_ty _ _ _ (Forall2_nth _ _ _ (s_rows _ _ S) i grow0 (mkRow FX [] 0) ltac:(unfold i_nr, p_m in Hi; lia))). reflexivity.
Qed.
Lemma rhs_at g l i : sim g l -> i < l_nr l -> (call t <- glp_get_row_type (i_p g) (i + 1); match t with GFR => raise ERuntime | _ => glp_get_row_ub (i_p g) (i + 1) end) = ret (row_ub (nth i (l_rows l) (mkRow FX [] 0))).
Proof.
  intros S Hi. unfold glp_get_row_type, glp_get_row_ub, pre. rewrite in_rows_lt by (rewrite (sim_nr _ _ S); exact Hi). cbn [abind ret]. unfold get_grow. replace (i + 1 - 1) with i by lia.
  assert (Li : i < List.length (p_rows (i_p g))) by (rewrite (F2_len _ _ _ (s_rows _ _ S)); exact Hi).
  destruct (Forall2_nth _ _ _ (s_rows _ _ S) i grow0 (mkRow FX [] 0) Li) as [A1 A2 _ _ _]. rewrite A1. unfold row_ub. destruct (r_ty _); cbn [gty_of norm_bnds] in *; injection A2 as E1 E2; rewrite ?E2; reflexivity.
Qed.
Theorem C65_get_rhs os g l : built os g l -> i_get_rhs g None = Some (Ok (get_rhs l)).
Proof.
  intro B. apply built_sim in B as S. unfold i_get_rhs, get_rhs. rewrite (amap_ok _ (fun i => row_ub (nth i (l_rows l) (mkRow FX [] 0)))).
  - rewrite (sim_nr _ _ S). unfold l_nr. rewrite <- (map_map (fun i => nth i (l_rows l) (mkRow FX [] 0)) row_ub), map_nth_seq. reflexivity.
  - intros i Hi. apply in_seq in Hi. apply rhs_at; [exact S|]. rewrite <- (sim_nr _ _ S). lia.
Qed.
Theorem C65_get_rhs_rows os g l rows : built os g l -> Forall (fun i => i < l_nr l) rows ->
  exists v, i_get_rhs g (Some rows) = Some (Ok v) /\ Forall2 (fun i b => get_rhs_at l i = Ok b) rows v.
Proof.
  intros B H. apply built_sim in B as S. unfold i_get_rhs. rewrite (amap_ok _ (fun i => row_ub (nth i (l_rows l) (mkRow FX [] 0)))).
  - eexists. split; [reflexivity|]. induction H as [|i rows Hi H IH]; cbn [map]; constructor; [|exact IH]. unfold get_rhs_at. rewrite (nth_error_nth' _ (mkRow FX [] 0) Hi). reflexivity.
  - intros i Hi. rewrite Forall_forall in H. apply rhs_at; auto.
Qed.

Section Ord.
Variable ord : list (nat * Q) -> list (nat * Q).
Hypothesis ord_perm : forall l, Permutation (ord l) l.
Definition shiftd (es : list (nat * Q)) : list (nat * Q) := map (fun e => (fst e - 1, snd e)) es.
Lemma ord_cf gr n r : rsame n gr r -> NoDup (map fst (shiftd (ord (g_co gr)))) /\ (forall e, In e (shiftd (ord (g_co gr))) -> fst e < n) /\ forall c, (cf (shiftd (ord (g_co gr))) c == cf (r_co r) c)%Q.
Proof.
  intros [_ _ A3 A4 A5]. assert (P := ord_perm (g_co gr)). assert (A4' : NoDup (map fst (ord (g_co gr)))) by (eapply Permutation_NoDup; [apply Permutation_map, Permutation_sym, P|exact A4]).
  assert (A5' : forall e, In e (ord (g_co gr)) -> 1 <= fst e <= n) by (intros e He; apply A5; eapply Permutation_in; eauto). split; [|split].
  - unfold shiftd. rewrite map_map. cbn [fst]. rewrite <- (map_map fst (fun i => i - 1)). apply nodup_map_on; [exact A4'|]. intros x y Hx Hy E. apply in_map_iff in Hx as (e & <- & He), Hy as (e' & <- & He'). apply A5' in He, He'. lia.
  - intros e He. apply in_map_iff in He as (e' & <- & He). apply A5' in He. cbn [fst]. lia.
  - intro c. rewrite <- A3. unfold shiftd. rewrite (cf_move (fun i => i - 1) _ (S c) c) by (intros e He; apply A5' in He; lia). apply cf_perm. exact P.
Qed.
Lemma take_mid {A} (d : A) (a e z : list A) : map (fun i => nth i (a ++ e ++ z) d) (seq (List.length a) (List.length e)) = e.
Proof.
  revert a. induction e as [|x e IH]; intro a; cbn [List.length seq map]; [reflexivity|]. f_equal.
  - rewrite app_nth2, Nat.sub_diag by lia. reflexivity.
  - specialize (IH (a ++ [x])). rewrite app_length in IH. cbn [List.length] in IH. rewrite Nat.add_1_r, <- app_assoc in IH. exact IH.
Qed.
Lemma combine_nth_map (i1 : list nat) (d1 : list Q) es : List.length es <= List.length es -> forall (l : list nat), map (fun i => nth i i1 0) l = map fst es -> map (fun i => nth i d1 0%Q) l = map snd es ->
  map (fun i => (nth i i1 0, nth i d1 0%Q)) l = es.
Proof.
  intros _ l. revert es. induction l as [|i l IH]; intros [|[a b] es] H1 H2; cbn [map] in *; try discriminate; [reflexivity|]. injection H1 as E1 H1. injection H2 as E2 H2. cbn [fst snd] in *. rewrite E1, E2. f_equal. apply IH; assumption.
Qed.
Fixpoint ptrs (s : nat) (L : list (list (nat * Q))) : list nat := s :: match L with [] => [] | e :: L' => ptrs (s + List.length e) L' end.
Lemma ptrs_len L : forall s, List.length (ptrs s L) = S (List.length L).
Proof. induction L as [|e L IH]; intro s; cbn; auto. Qed.
Lemma ptrs_nth L : forall s k, k <= List.length L -> nth k (ptrs s L) 0 = s + List.length (concat (firstn k L)).
Proof.
  induction L as [|e L IH]; intros s [|k] H; cbn [List.length] in H; try lia; cbn [ptrs nth firstn concat List.length]; try lia. rewrite IH by lia. rewrite app_length. lia.
Qed.
Lemma ptrs_snoc L e : forall s, ptrs s (L ++ [e]) = ptrs s L ++ [s + List.length (concat L) + List.length e].
Proof. induction L as [|x L IH]; intro s; cbn [ptrs app concat List.length]; [f_equal; f_equal; lia|]. rewrite IH. cbn [app]. f_equal. f_equal. f_equal. rewrite app_length. lia. Qed.
Definition arr_of (n : nat) (L : list (list (nat * Q))) : arr := mkArr (List.length L) n (map snd (concat L)) (map fst (concat L)) (ptrs 0 L).
Lemma line_arr_of n L k : k < List.length L -> line_of (arr_of n L) k = nth k L [].
Proof.
  intro H. unfold line_of, arr_of. cbn [ar_ptr ar_ind ar_data]. rewrite !ptrs_nth by lia. cbn [Nat.add].
  assert (E : L = firstn k L ++ nth k L [] :: skipn (S k) L).
  { clear - H. revert k H. induction L as [|e L IH]; intros [|k] H; cbn in H; try lia; [reflexivity|]. cbn [firstn nth skipn app]. f_equal. apply IH. lia. }
  assert (E1 : List.length (concat (firstn (S k) L)) = List.length (concat (firstn k L)) + List.length (nth k L [])).
  { clear - H. revert k H. induction L as [|e L IH]; intros [|k] H; cbn in H; try lia; [cbn; rewrite app_nil_r; reflexivity|]. specialize (IH k ltac:(lia)). change (List.length (e ++ concat (firstn (S k) L)) = List.length (e ++ concat (firstn k L)) + List.length (nth k L [])). rewrite !app_length. lia. }
  rewrite E1. replace (List.length (concat (firstn k L)) + List.length (nth k L []) - List.length (concat (firstn k L))) with (List.length (nth k L [])) by lia.
  assert (E2 : concat L = concat (firstn k L) ++ nth k L [] ++ concat (skipn (S k) L)) by (rewrite E at 1; rewrite concat_app; reflexivity).
  apply combine_nth_map; [lia| |].
  - rewrite E2, !map_app. rewrite <- (map_length fst (nth k L [])), <- (map_length fst (concat (firstn k L))). apply take_mid.
  - rewrite E2, !map_app. rewrite <- (map_length snd (nth k L [])), <- (map_length snd (concat (firstn k L))). apply take_mid.
Qed.
Lemma arr_of_ok n L : (forall es, In es L -> NoDup (map fst es) /\ forall e, In e es -> fst e < n) -> arr_ok (arr_of n L).
Proof.
  intro H. constructor; cbn [arr_of ar_ptr ar_maj ar_data ar_ind ar_min].
  - apply ptrs_len.
  - intros k Hk. rewrite !ptrs_nth by lia. cbn [Nat.add]. clear. revert k. induction L as [|e L IH]; intros [|k]; [cbn; lia|cbn; lia|cbn; lia|]. specialize (IH k). change (List.length (e ++ concat (firstn k L)) <= List.length (e ++ concat (firstn (S k) L))). rewrite !app_length. lia.
  - intros k Hk. rewrite ptrs_nth by lia. cbn [Nat.add]. rewrite map_length. rewrite <- (firstn_skipn k L) at 2. rewrite concat_app, app_length. lia.
  - rewrite !map_length. reflexivity.
  - intros i Hi. apply in_map_iff in Hi as (e & <- & He). apply in_concat in He as (es & Hes & He). apply (H es Hes). exact He.
  - intros k Hk. rewrite line_arr_of by exact Hk. apply H. apply nth_In. exact Hk.
Qed.
Lemma full_loop_ok p : forall rows L, (forall i, In i rows -> in_rows p i = true) ->
  full_loop ord p rows (map snd (concat L)) (map fst (concat L)) (ptrs 0 L) =
  (let L' := L ++ map (fun i => shiftd (ord (g_co (get_grow p i)))) rows in ret (map snd (concat L'), map fst (concat L'), ptrs 0 L')).
Proof.
  induction rows as [|i rows IH]; intros L H; cbn [full_loop map]; [rewrite app_nil_r; reflexivity|].
  unfold glp_get_mat_row, pre. rewrite (H i (or_introl eq_refl)). cbn [abind ret]. set (es := ord (g_co (get_grow p i))).
  assert (E1 : map snd (concat L) ++ map snd es = map snd (concat (L ++ [shiftd es]))) by (rewrite concat_app, map_app; cbn [concat]; rewrite app_nil_r; unfold shiftd; rewrite map_map; reflexivity).
  assert (E2 : map fst (concat L) ++ map (fun e => fst e - 1) es = map fst (concat (L ++ [shiftd es]))) by (rewrite concat_app, map_app; cbn [concat]; rewrite app_nil_r; unfold shiftd; rewrite map_map; reflexivity).
  assert (E3 : ptrs 0 L ++ [List.length (map snd (concat L)) + List.length es] = ptrs 0 (L ++ [shiftd es])) by (rewrite ptrs_snoc; unfold shiftd; rewrite !map_length; reflexivity).
  rewrite E1, E2, E3, IH by (intros j Hj; apply H; right; exact Hj). cbv zeta. rewrite <- app_assoc. reflexivity.
Qed.
(** get_full_constraints: a canonical csr matrix with the rows that were set *)
Theorem C65_get_full os g l : built os g l -> exists a, i_get_full ord g = Some (Ok a) /\ arr_ok a /\ ar_maj a = l_nr l /\ ar_min a = l_nc l /\
  forall i x, i < l_nr l -> (reval (line_of a i) x == reval (r_co (nth i (l_rows l) (mkRow FX [] 0))) x)%Q.
Proof.
  intro B. apply built_sim in B as S. unfold i_get_full. pose proof (full_loop_ok (i_p g) (seq 1 (i_nr g)) []) as F. cbn [concat map ptrs] in F. rewrite F; clear F.
  2:{ intros i Hi. apply in_seq in Hi. unfold in_rows. change (p_m (i_p g)) with (i_nr g). apply andb_true_iff; split; apply Nat.leb_le; lia. }
  cbv zeta. cbn [abind ret app]. set (L := map _ (seq 1 (i_nr g))). assert (LL : List.length L = i_nr g) by (unfold L; rewrite map_length; apply seq_length).
  assert (Hrow : forall i, i < l_nr l -> nth i L [] = shiftd (ord (g_co (nth i (p_rows (i_p g)) grow0))) /\ rsame (p_n (i_p g)) (nth i (p_rows (i_p g)) grow0) (nth i (l_rows l) (mkRow FX [] 0))).
  { intros i Hi. split.
    - unfold L. rewrite (nth_indep _ [] (shiftd (ord (g_co (get_grow (i_p g) 0))))) by (rewrite map_length, seq_length, (sim_nr _ _ S); exact Hi). rewrite (map_nth (fun i => shiftd (ord (g_co (get_grow (i_p g) i))))).
      rewrite seq_nth by (rewrite (sim_nr _ _ S); exact Hi). unfold get_grow. replace (1 + i - 1) with i by lia. reflexivity.
    - apply (Forall2_nth _ _ _ (s_rows _ _ S)). rewrite (F2_len _ _ _ (s_rows _ _ S)). exact Hi. }
  exists (arr_of (i_nc g) L). split; [unfold arr_of; rewrite LL; reflexivity|]. split.
  { apply arr_of_ok. intros es He. apply In_nth with (d := []) in He as (i & Hi & <-). rewrite LL, (sim_nr _ _ S) in Hi. destruct (Hrow i Hi) as [-> Rs]. destruct (ord_cf _ _ _ Rs) as (N1 & N2 & _). split; [exact N1|].
    rewrite (sim_nc _ _ S), <- (s_n _ _ S). exact N2. }
  cbn [arr_of ar_maj ar_min]. split; [rewrite LL; apply (sim_nr _ _ S)|]. split; [apply (sim_nc _ _ S)|].
  intros i x Hi. rewrite line_arr_of by (rewrite LL, (sim_nr _ _ S); exact Hi). destruct (Hrow i Hi) as [-> Rs]. destruct (ord_cf _ _ _ Rs) as (_ & _ & N3). apply reval_cf. exact N3.
Qed.
Theorem C65_get_row os g l i : built os g l ->
  match get_row l i with
  | Ok r => exists a, i_get_row ord g i = Some (Ok a) /\ arr_ok a /\ ar_maj a = 1 /\ ar_min a = l_nc l /\ forall x, (reval (line_of a 0) x == reval r x)%Q
  | Err e => i_get_row ord g i = Some (Err e)
  end.
Proof.
  intro B. apply built_sim in B as S. unfold get_row, i_get_row, pyassert. rewrite (sim_nr _ _ S). destruct (Nat.ltb_spec i (l_nr l)) as [Hi|Hi].
  - rewrite (nth_error_nth' _ (mkRow FX [] 0) Hi). cbn [abind ret]. unfold glp_get_mat_row, pre. rewrite in_rows_lt by (rewrite (sim_nr _ _ S); exact Hi). cbn [abind ret]. unfold get_grow. replace (i + 1 - 1) with i by lia.
    assert (Li : i < List.length (p_rows (i_p g))) by (rewrite (F2_len _ _ _ (s_rows _ _ S)); exact Hi).
    pose proof (Forall2_nth _ _ _ (s_rows _ _ S) i grow0 (mkRow FX [] 0) Li) as Rs. destruct (ord_cf _ _ _ Rs) as (N1 & N2 & N3). set (es := ord (g_co (nth i (p_rows (i_p g)) grow0))) in *.
    assert (E : mkArr 1 (i_nc g) (map snd es) (map (fun e => fst e - 1) es) [0; List.length es] = arr_of (l_nc l) [shiftd es]).
    { unfold arr_of. cbn [List.length concat ptrs Nat.add]. rewrite app_nil_r. unfold shiftd. rewrite !map_map, map_length, (sim_nc _ _ S). reflexivity. }
    rewrite E. eexists. split; [reflexivity|]. split.
    { apply arr_of_ok. intros es' He. destruct He as [<-|[]]. split; [exact N1|]. rewrite <- (s_n _ _ S). exact N2. }
    split; [reflexivity|]. split; [reflexivity|]. intro x. rewrite line_arr_of by (cbn; lia). cbn [nth]. apply reval_cf. exact N3.
  - assert (En : nth_error (l_rows l) i = None) by (apply nth_error_None; exact Hi). rewrite En. reflexivity.
Qed.

Lemma dense_fold x w : forall es line, List.length line = w ->
  let r := fold_left (fun line e => if (x <? fst e) && (fst e <=? x + w) then upd_nth (fst e - (x + 1)) (snd e) line else line) es line in
  List.length r = w /\ forall c, c < w -> nth c r 0%Q = fold_left (fun acc (e : nat * Q) => if Nat.eqb (fst e) (x + 1 + c) then snd e else acc) es (nth c line 0%Q).
Proof.
  induction es as [|e es IH]; intros line L; cbn [fold_left]; [split; [exact L|reflexivity]|].
  destruct ((x <? fst e) && (fst e <=? x + w)) eqn:W.
  - apply andb_true_iff in W as [W1 W2]. apply Nat.ltb_lt in W1. apply Nat.leb_le in W2. destruct (IH (upd_nth (fst e - (x + 1)) (snd e) line)) as [L1 H1]; [rewrite upd_len; exact L|]. split; [exact L1|].
    intros c Hc. rewrite H1 by exact Hc. f_equal. rewrite nth_upd_full by lia. destruct (Nat.eqb_spec (fst e - (x + 1)) c), (Nat.eqb_spec (fst e) (x + 1 + c)); try lia; reflexivity.
  - destruct (IH line L) as [L1 H1]. split; [exact L1|]. intros c Hc. rewrite H1 by exact Hc. f_equal. destruct (Nat.eqb_spec (fst e) (x + 1 + c)) as [E|E]; [|reflexivity].
    exfalso. apply andb_false_iff in W as [W|W]; [apply Nat.ltb_ge in W|apply Nat.leb_gt in W]; lia.
Qed.
Lemma window_cf x w co c : c < w -> (nth c (window_row x w co) 0 == cf co (x + c)%nat)%Q.
Proof.
  intro Hc. unfold window_row. rewrite cf_dense. rewrite (nth_indep _ 0%Q (cf (map (fun e : nat * Q => ((fst e - x)%nat, snd e)) (filter (fun e => (x <=? fst e) && (fst e <? x + w)) co)) 0)) by (rewrite map_length, seq_length; exact Hc).
  rewrite map_nth, seq_nth by exact Hc. cbn [Nat.add]. rewrite (cf_move (fun i => i - x) _ (x + c) c).
  - induction co as [|e co IH]; [reflexivity|]. cbn [filter]. destruct ((x <=? fst e) && (fst e <? x + w)) eqn:W; rewrite !cf_cons.
    + destruct (fst e =? x + c); [rewrite IH; reflexivity|exact IH].
    + destruct (Nat.eqb_spec (fst e) (x + c)) as [E|E]; [|exact IH]. exfalso. apply andb_false_iff in W as [W|W]; [apply Nat.leb_gt in W|apply Nat.ltb_ge in W]; lia.
  - intros e He. apply filter_In in He as [_ He]. apply andb_true_iff in He as [He1 He2]. apply Nat.leb_le in He1. lia.
Qed.
Lemma window_len x w co : List.length (window_row x w co) = w.
Proof. unfold window_row, dense_of. rewrite map_length. apply seq_length. Qed.
Lemma Forall2_by_nth (a : list Q) : forall b, List.length a = List.length b -> (forall c, c < List.length a -> (nth c a 0 == nth c b 0)%Q) -> Forall2 Qeq a b.
Proof.
  induction a as [|x a IH]; intros [|y b] L H; cbn in L; try lia; constructor; [apply (H 0); cbn; lia|]. apply IH; [lia|]. intros c Hc. apply (H (S c)). cbn. lia.
Qed.
Lemma Forall2_maps {A B C} (R : B -> C -> Prop) (f : A -> B) (h : A -> C) xs : (forall x, In x xs -> R (f x) (h x)) -> Forall2 R (map f xs) (map h xs).
Proof. induction xs as [|x xs IH]; intro H; cbn [map]; constructor; [apply H; left; reflexivity|]. apply IH. intros y Hy. apply H. right. exact Hy. Qed.
(** get_dense_constraints(x, y, w, h): the window of the matrix *)
Theorem C65_get_dense os g l x y w h : built os g l ->
  match get_dense_constraints l x y w h with
  | Ok m => exists m', i_get_dense ord g x y w h = Some (Ok m') /\ Forall2 (Forall2 Qeq) m' m
  | Err e => i_get_dense ord g x y w h = Some (Err e)
  end.
Proof.
  intro B. apply built_sim in B as S. unfold get_dense_constraints, i_get_dense, pyassert. rewrite (sim_nr _ _ S), (sim_nc _ _ S).
  destruct (Nat.leb_spec (x + w) (l_nc l)) as [H1|H1]; cbn [abind ret raise assert bind]; [|reflexivity].
  destruct (Nat.leb_spec (y + h) (l_nr l)) as [H2|H2]; cbn [abind ret raise assert bind]; [|reflexivity].
  rewrite (amap_ok _ (fun row => dense_line x w (ord (g_co (get_grow (i_p g) row))))).
  2:{ intros i Hi. apply in_seq in Hi. unfold glp_get_mat_row, pre. replace (in_rows (i_p g) i) with true; [reflexivity|]. symmetry. unfold in_rows. change (p_m (i_p g)) with (i_nr g). rewrite (sim_nr _ _ S). apply andb_true_iff; split; apply Nat.leb_le; lia. }
  eexists. split; [reflexivity|].
  assert (E : map (fun r => window_row x w (r_co r)) (firstn h (skipn y (l_rows l))) = map (fun row => window_row x w (r_co (nth (row - 1) (l_rows l) (mkRow FX [] 0)))) (seq (y + 1) h)).
  { clear - H2. unfold l_nr in H2. revert y H2. generalize (l_rows l) as rs. intro rs. induction h as [|h IH]; intros y H2; [reflexivity|]. cbn [seq map].
    assert (Es : skipn y rs = nth y rs (mkRow FX [] 0) :: skipn (S y) rs).
    { clear - H2. revert y H2. induction rs as [|r rs IH]; intros [|y] H2; cbn in H2; try lia; [reflexivity|]. cbn [skipn nth]. apply IH. lia. }
    rewrite Es. cbn [firstn map]. replace (y + 1 - 1) with y by lia. f_equal. replace (S (y + 1)) with (S y + 1) by lia. apply IH. lia. }
  rewrite E. apply Forall2_maps. intros i Hi. apply in_seq in Hi. unfold get_grow.
  assert (Li : i - 1 < List.length (p_rows (i_p g))) by (rewrite (F2_len _ _ _ (s_rows _ _ S)); unfold l_nr in H2; lia).
  pose proof (Forall2_nth _ _ _ (s_rows _ _ S) (i - 1) grow0 (mkRow FX [] 0) Li) as [_ _ A3 A4 _].
  set (gr := nth (i - 1) (p_rows (i_p g)) grow0) in *. unfold dense_line. destruct (dense_fold x w (ord (g_co gr)) (repeat 0%Q w) (repeat_length _ _)) as [L1 L2].
  apply Forall2_by_nth; [rewrite window_len; exact L1|]. intros c Hc. rewrite L1 in Hc. rewrite L2, window_cf by exact Hc.
  rewrite fold_cf.
  - rewrite <- A3. replace (map (fun e : nat * Q => (fst e, snd e)) (ord (g_co gr))) with (ord (g_co gr)) by (symmetry; rewrite <- map_id; apply map_ext; intros []; reflexivity). replace (x + 1 + c) with (Datatypes.S (x + c)) by lia. apply cf_perm. apply ord_perm.
  - eapply Permutation_NoDup; [apply Permutation_map, Permutation_sym, ord_perm|exact A4].
  - rewrite nth_repeat. reflexivity.
Qed.
End Ord.

(** ** The library's constructors are such histories *)
Definition arrm (m : csr) : arr := arr_of (c_nc m) (c_rows m).
Definition canon (m : csr) : Prop := csr_ok m /\ forall r, In r (c_rows m) -> NoDup (map fst r).
Lemma csr_arrm m : csr_of (arrm m) = m.
Proof.
  destruct m as [n L]. change (mkCsr n (map (line_of (arr_of n L)) (seq 0 (List.length L))) = mkCsr n L). f_equal.
  transitivity (map (fun i => nth i L []) (seq 0 (List.length L))); [|apply map_nth_seq]. apply map_ext_in. intros k Hk. apply in_seq in Hk. apply line_arr_of. exact (proj2 Hk).
Qed.
Lemma arrm_ok m : canon m -> arr_ok (arrm m).
Proof.
  intros [H K]. apply arr_of_ok. intros es He. split; [apply K; exact He|]. unfold csr_ok in H. rewrite Forall_forall in H. intros e Hx. specialize (H es He). unfold row_cols_lt in H. rewrite Forall_forall in H. apply H. exact Hx.
Qed.
Lemma hi_app a : forall b l, hi_run (a ++ b) l = (do l1 <- hi_run a l; hi_run b l1).
Proof. induction a as [|o a IH]; intros b l; cbn [app hi_run bind]; [reflexivity|]. destruct (hi_op o l); cbn [bind]; auto. Qed.
Lemma ok_app a : forall b l, ops_ok (a ++ b) l <-> ops_ok a l /\ match hi_run a l with Ok l1 => ops_ok b l1 | Err _ => True end.
Proof.
  induction a as [|o a IH]; intros b l; cbn [app hi_run ops_ok]; [tauto|]. destruct (hi_op o l) as [l1|e]; cbn [bind]; [rewrite IH; tauto|tauto].
Qed.
(** a linear program reached by a history without an exception *)
Definition hist (l : lp) : Prop := exists os, ops_ok os lp_new /\ hi_run os lp_new = Ok l.
Lemma hist_op l o l' : hist l -> op_ok o l -> hi_op o l = Ok l' -> hist l'.
Proof.
  intros (os & H & E) Ho E'. exists (os ++ [o]). rewrite ok_app, hi_app, E. cbn [bind ops_ok hi_run]. rewrite E'. cbn [bind]. tauto.
Qed.
Lemma hist_new : hist lp_new. Proof. exists []. cbn. auto. Qed.
Lemma hist_csr l m off l' : hist l -> canon m -> set_constraints_csr l m off = Ok l' -> hist l'.
Proof. intros H C E. apply (hist_op l (OCsr (arrm m) off)); [exact H|apply arrm_ok; exact C|]. cbn [hi_op]. rewrite csr_arrm. exact E. Qed.
Theorem C65_from_constraints solve m rhs mid hi tn d l : canon m -> from_constraints solve m rhs mid hi tn d = Ok l ->
  exists os g, built os g l.
Proof.
  intros C E. assert (H : hist l).
  { unfold from_constraints in E. apply bind_ok in E as (u1 & _ & E). apply bind_ok in E as (feas & _ & E). apply bind_ok in E as (u2 & _ & E). apply bind_ok in E as (dims & Ed & E). cbv zeta in E.
    assert (Dl : dims <= c_nc m).
    { destruct d as [d|]; [|injection Ed as <-; lia]. apply bind_ok in Ed as (u3 & A & Ed). injection Ed as <-. apply assert_ok in A. apply Nat.leb_le in A. exact A. }
    set (names := match tn with None => names_of "i" mid 0 (c_nc m) | Some (_, ns) => ns end) in E.
    assert (H0 : hist (add_cols (add_rows_eq0 lp_new dims) (names ++ names_of "c" mid 0 dims))).
    { apply (hist_op (add_rows_eq0 lp_new dims) (OCols (names ++ names_of "c" mid 0 dims))); [|exact Logic.I|reflexivity]. apply (hist_op lp_new (ORowsEq dims)); [apply hist_new|exact Logic.I|reflexivity]. }
    apply bind_ok in E as (l1 & E1 & E). assert (H1 : hist l1).
    { destruct tn as [[ts ns]|]; [apply (hist_op _ (ORowsT ts rhs) _ H0 Logic.I E1)|apply (hist_op _ (ORowsLe rhs) _ H0 Logic.I E1)]. }
    assert (H2 : hist (if hi then add_cols l1 (names_of "ti" mid 0 dims) else l1)).
    { destruct hi; [|exact H1]. apply (hist_op l1 (OCols (names_of "ti" mid 0 dims))); [exact H1|exact Logic.I|reflexivity]. }
    apply bind_ok in E as (l2 & E2 & E). apply bind_ok in E as (l3 & E3 & E).
    assert (H3 : hist l2).
    { eapply hist_csr; [exact H2| |exact E2]. split.
      - unfold csr_ok. cbn [c_nc c_rows]. apply Forall_forall. intros r Hr. apply in_map_iff in Hr as (i & <- & Hi). apply in_seq in Hi. unfold basis_row, row_cols_lt. apply Forall_forall. intros e He.
        destruct hi; cbn [app In] in He; [destruct He as [<-|[<-|[<-|[]]]]|destruct He as [<-|[<-|[]]]]; cbn [fst]; lia.
      - cbn [c_rows]. intros r Hr. apply in_map_iff in Hr as (i & <- & Hi). apply in_seq in Hi. unfold basis_row. destruct hi; cbn [app map fst]; (constructor; [cbn [In]; lia|]); (constructor; [cbn [In]; lia|]); [constructor; [intros []|constructor]|constructor]. }
    assert (N2 : c_nc m + dims <= l_nc l2 /\ l_nc l3 = l_nc l2 /\ (hi = true -> 2 * dims + c_nc m <= l_nc l2)).
    { unfold set_constraints_csr in E2, E3. match type of E2 with (if ?c then _ else _) = _ => destruct c eqn:Q2; [discriminate|] end. match type of E3 with (if ?c then _ else _) = _ => destruct c eqn:Q3; [discriminate|] end.
      injection E2 as <-. injection E3 as <-. apply orb_false_iff in Q2 as [_ Q2]. apply Nat.ltb_ge in Q2. cbn [c_nc fst snd] in Q2. unfold l_nc, with_rows in *. cbn [l_names] in *. split; [destruct hi; lia|]. split; [reflexivity|]. intros ->. lia. }
    assert (H4 : hist l3) by (eapply hist_csr; eauto).
    destruct N2 as (N2 & N3 & N4). destruct hi.
    - apply bind_ok in E as (l4 & E4 & E). assert (H5 : hist l4).
      { eapply hist_csr; [|  |exact E4]; [apply (hist_op l3 (ORowsEq dims)); [exact H4|exact Logic.I|reflexivity]|]. split.
        - unfold csr_ok. cbn [c_nc c_rows]. apply Forall_forall. intros r Hr. apply in_map_iff in Hr as (i & <- & Hi). apply in_seq in Hi. constructor; [cbn [fst]; lia|constructor].
        - cbn [c_rows]. intros r Hr. apply in_map_iff in Hr as (i & <- & Hi). constructor; [intros []|constructor]. }
      assert (N5 : l_nc l4 = l_nc l2).
      { unfold set_constraints_csr in E4. match type of E4 with (if ?c then _ else _) = _ => destruct c; [discriminate|] end. injection E4 as <-. exact N3. }
      apply (hist_op l4 (OReach dims (0, 0) (c_nc m) (Some (l_nr l3, dims + c_nc m)))); [exact H5| |exact E]. split; [|lia]. unfold layout, disj. cbn [snd]. lia.
    - apply (hist_op l3 (OReach dims (0, 0) (c_nc m) None)); [exact H4| |exact E]. split; [|lia]. unfold layout, disj. cbn [snd]. lia. }
  destruct H as (os & H & K). pose proof (agree_run os lpi_new lp_new sim_new H) as A. rewrite K in A. destruct A as (g & Eg & _). exists os, g. split; [exact H|]. split; [exact Eg|exact K].
Qed.
Theorem C65_from_box solve box mid hi l : from_box solve box mid hi = Ok l -> exists os g, built os g l.
Proof.
  unfold from_box. intro E. apply bind_ok in E as (u & _ & E). eapply C65_from_constraints; [|exact E]. split.
  - unfold csr_ok. cbn [c_nc c_rows]. apply Forall_forall. intros r Hr. unfold box_rows in Hr. apply in_flat_map in Hr as (i & Hi & Hr). apply in_seq in Hi. destruct Hr as [<-|[<-|[]]]; (constructor; [cbn [fst]; lia|constructor]).
  - cbn [c_rows]. intros r Hr. unfold box_rows in Hr. apply in_flat_map in Hr as (i & Hi & Hr). destruct Hr as [<-|[<-|[]]]; (constructor; [intros []|constructor]).
Qed.

(** ** A history: two columns and their current-time copies, a basis matrix, a constraint row, two directions one after the other, a changed bound *)
Definition exH : list lop :=
  [ORowsEq 2; OCols ["a"; "b"; "ca"; "cb"]; ORowsLe [5%Q; 7%Q]; OCsr (arrm (mkCsr 4 [[(0, 1%Q); (2, (-1)%Q)]; [(1, 1%Q); (3, (-1)%Q)]])) (0, 0);
   OCsr (arrm (mkCsr 2 [[(0, 1%Q)]; [(1, 1%Q); (0, 1%Q)]])) (2, 0); OReach 2 (0, 0) 2 None; OBasis [[0%Q; 1%Q]; [2%Q; 0%Q]]; ODir [1%Q; 1%Q]; OClone; ODir [3%Q]; ORhs 3 11;
   OCols ["u"]; OCsc (arrm (mkCsr 4 [[(3, 2%Q); (2, 4%Q)]])) (0, 4); ODirCsr [9%Q] [4] 5 (Some 0)]%string.
Lemma exH_ok : ops_ok exH lp_new.
Proof.
  assert (K : forall m, forallb (fun r => row_cols_ltb (c_nc m) r && nodupb (map fst r)) (c_rows m) = true -> arr_ok (arrm m)).
  { intros m H. apply arrm_ok. rewrite forallb_forall in H. split.
    - unfold csr_ok. apply Forall_forall. intros r Hr. apply H in Hr. apply andb_true_iff in Hr as [Hr _]. unfold row_cols_ltb in Hr. rewrite forallb_forall in Hr. apply Forall_forall. intros e He. apply Nat.ltb_lt. apply Hr. exact He.
    - intros r Hr. apply H in Hr. apply andb_true_iff in Hr as [_ Hr]. apply nodupb_true. exact Hr. }
  assert (D : layout 2 (0, 0) 2 None) by (split; [left; cbn; lia|exact Logic.I]).
  assert (G : forall o r l l1, hi_op o l = Ok l1 -> op_ok o l -> ops_ok r l1 -> ops_ok (o :: r) l) by (intros o r l l1 E H1 H2; cbn [ops_ok]; rewrite E; auto).
  unfold exH.
  repeat (match goal with |- ops_ok (?o :: ?r) ?l => let l1 := eval vm_compute in (match hi_op o l with Ok x => x | Err _ => l end) in apply (G o r l l1); [vm_compute; reflexivity|first [exact Logic.I|apply K; reflexivity|split; [exact D|apply Nat.leb_le; reflexivity]|idtac]|] end); [|exact Logic.I].
  cbn [op_ok]. split; [reflexivity|]. split; [constructor; [intros []|constructor]|]. intros c [<-|[]]. lia.
Qed.
Definition exG : lpi := match lo_run exH lpi_new with Some (Ok g) => g | _ => lpi_new end.
Definition exL : lp := match hi_run exH lp_new with Ok l => l | _ => lp_new end.
Example C65_witness : built exH exG exL /\ p_obj (i_p exG) = [0%Q; 0%Q; 0%Q; 0%Q; 0%Q; 9%Q] /\ i_get_types exG = Some (Ok [GFX; GFX; GUP; GUP]) /\ i_get_rhs exG None = Some (Ok [0%Q; 0%Q; 5%Q; 11%Q]) /\
  i_get_dense (fun l => l) exG 0 0 5 4 = Some (Ok [[0; 1; -1; 0; 0]; [2; 0; 0; -1; 0]; [1; 0; 0; 0; 4]; [1; 1; 0; 0; 2]]%Q).
Proof. split; [split; [exact exH_ok|split; vm_compute; reflexivity]|]. repeat split; vm_compute; reflexivity. Qed.
(** The conditions on the caller are needed: with a column named twice in a row, or a row number past the end, GLPK aborts the process. *)
Theorem C65_duplicate_column_aborts : exists a g, lo_run [ORowsLe [1%Q]; OCols ["a"; "b"]%string] lpi_new = Some (Ok g) /\ List.length (ar_ind a) = List.length (ar_data a) /\ i_set_csr g a (0, 0) = None /\ i_get_rhs g (Some [1]) = None.
Proof. exists (mkArr 1 2 [1; 1]%Q [0; 0] [0; 2]). eexists. split; [vm_compute; reflexivity|]. split; [reflexivity|]. split; vm_compute; reflexivity. Qed.
