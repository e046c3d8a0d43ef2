(** C27 (strengthened guards contain the target's invariant) and C42 (constant inputs). *)
From Verif Require Import Base BaseFacts LpModel LpSpec LpUtil LpFacts Automaton HybridSpec AutoFacts StateFacts.
From Coq Require Import Lia Lqa Setoid QArith.Qabs.
Open Scope nat_scope.

(** ** C27 *)
Definition abs_sum (r : srow) (p : vec) : Q := fold_right (fun e acc => (Qabs (p (fst e)) + acc)%Q) 0%Q r.
Lemma abs_sum_nn r p : (0 <= abs_sum r p)%Q.
Proof. induction r as [|e r IH]; cbn [abs_sum fold_right]; [apply Qle_refl|]. fold (abs_sum r p). pose proof (Qabs_nonneg (p (fst e))). lra. Qed.
Lemma close_rows r c tol p : map fst r = map fst c -> data_close (map snd r) (map snd c) tol = Ok true -> (reval c p <= reval r p + tol * abs_sum c p)%Q.
Proof.
  revert c. induction r as [|[i v] r IH]; intros [|[j w] c] Hi Hd; cbn [map fst] in Hi; try discriminate; [cbn; lra|].
  injection Hi as <- Hi. cbn [map snd data_close] in Hd. destruct (Qle_bool (Qabs (v - w)) tol) eqn:E; [|discriminate]. apply Qle_bool_iff in E.
  specialize (IH c Hi Hd). cbn [reval abs_sum fold_right fst snd]. fold (abs_sum c p).
  assert (K : ((w - v) * p i <= tol * Qabs (p i))%Q).
  { eapply Qle_trans; [apply Qle_Qabs|]. rewrite Qabs_Qmult. apply Qmult_le_compat_r; [|apply Qabs_nonneg]. rewrite Qabs_Qminus. exact E. }
  lra.
Qed.
Lemma combine_eq (a : list nat) : forall b, List.length a = List.length b -> forallb (fun ab => Nat.eqb (fst ab) (snd ab)) (combine a b) = true -> a = b.
Proof. induction a as [|x a IH]; intros [|y b] L H; cbn in L; try lia; [reflexivity|]. cbn in H. apply andb_true_iff in H as [H1 H2]. apply Nat.eqb_eq in H1. subst y. f_equal. apply IH; [lia|exact H2]. Qed.
Lemma almost_sound (self other : lincon) p : almost_equals self other tol13 = Ok true -> lc_row self <> [] -> NoDup (map fst (lc_row self)) -> NoDup (map fst (lc_row other)) ->
  (reval (lc_row self) p <= lc_rhs self)%Q -> (reval (lc_row other) p <= lc_rhs other + tol13 * (1 + abs_sum (lc_row other) p))%Q.
Proof.
  unfold almost_equals. intros H Hne N1 N2 Hp. destruct (Qle_bool (Qabs (lc_rhs self - lc_rhs other)) tol13) eqn:E; cbn [negb] in H; [|discriminate]. apply Qle_bool_iff in E.
  destruct (lc_w self =? lc_w other); cbn [negb] in H; [|discriminate]. apply bind_ok in H as (same & Hs & H). destruct same; cbn [negb] in H; [|discriminate].
  assert (Ef : map fst (lc_row self) = map fst (lc_row other)).
  { unfold np_eq_all in Hs. destruct (Nat.eqb_spec (List.length (map fst (lc_row self))) (List.length (map fst (lc_row other)))) as [L|L].
    - injection Hs as Hs. apply combine_eq; assumption.
    - exfalso. rewrite !map_length in L. destruct (lc_row self) as [|e1 [|e2 r]]; [congruence| |].
      + cbn [map] in Hs. injection Hs as Hs. destruct (lc_row other) as [|f1 [|f2 c]]; cbn [List.length] in L; try lia.
        * cbn [map snd data_close] in H. discriminate.
        * cbn [map forallb] in Hs. apply andb_true_iff in Hs as [K1 K2]. apply andb_true_iff in K2 as [K2 _]. apply Nat.eqb_eq in K1, K2. cbn [map] in N2. inversion N2 as [|? ? Hn _]; subst. apply Hn. left. congruence.
      + cbn [map] in Hs. destruct (lc_row other) as [|f1 [|f2 c]]; cbn [map] in Hs; try discriminate. injection Hs as Hs. apply andb_true_iff in Hs as [K1 K2]. apply andb_true_iff in K2 as [K2 _].
        apply Nat.eqb_eq in K1, K2. cbn [map] in N1. inversion N1 as [|? ? Hn _]; subst. apply Hn. left. congruence. }
  pose proof (close_rows _ _ tol13 p Ef H) as K. assert (Hb : (lc_rhs self <= lc_rhs other + tol13)%Q). { pose proof (Qle_Qabs (lc_rhs self - lc_rhs other)). lra. }
  unfold tol13 in *. lra.
Qed.
Lemma in_guard_sound rows : forall rhs w c p, in_guard rows rhs w c = Ok true -> Forall (fun r => r <> [] /\ NoDup (map fst r)) rows -> NoDup (map fst (lc_row c)) -> poly rows rhs p ->
  (reval (lc_row c) p <= lc_rhs c + tol13 * (1 + abs_sum (lc_row c) p))%Q.
Proof.
  induction rows as [|r rows IH]; intros rhs w c p H F N P; cbn [in_guard] in H; [discriminate|]. destruct rhs as [|b rhs]; [discriminate|]. apply bind_ok in H as (e & He & H). inversion F as [|? ? [F1 F2] F3]; subst.
  destruct e.
  - apply (almost_sound _ _ p He); auto. cbn [lc_row lc_rhs]. exact (P 0 r b eq_refl eq_refl).
  - apply (IH rhs w c p H F3 N). intros i r' b' Hr Hb. exact (P (S i) r' b' Hr Hb).
Qed.
Lemma missing_cases rows rhs w : forall inv add, missing_invs rows rhs w inv = Ok add -> forall c, In c inv -> In c add \/ in_guard rows rhs w c = Ok true.
Proof.
  induction inv as [|c0 inv IH]; intros add H c Hc; [destruct Hc|]. cbn [missing_invs] in H. apply bind_ok in H as (e & He & H). apply bind_ok in H as (more & Hm & H). injection H as <-.
  destruct Hc as [<-|Hc].
  - destruct e; [right; exact He|left; left; reflexivity].
  - destruct (IH more Hm c Hc) as [K|K]; [left; destruct e; [exact K|right; exact K]|right; exact K].
Qed.
Lemma nth_split_app {A} (a b : list A) i x : nth_error b i = Some x -> nth_error (a ++ b) (List.length a + i) = Some x.
Proof. intro H. rewrite nth_error_app2 by lia. replace (List.length a + i - List.length a) with i by lia. exact H. Qed.
Definition guard_rows_plain (t : trans) : Prop := match t_guard t with Some (g, rhs) => c_nr g = List.length rhs /\ Forall (fun r => r <> [] /\ NoDup (map fst r)) (c_rows g) | None => True end.
(** After strengthening, every state in the guard of a transition without reset satisfies the target's invariant, up to 1e-13 on each coefficient and on the right-hand side. *)
Theorem C27_guard_implies_invariant a a' t p g rhs c : do_guard_strengthening a = Ok a' -> t < List.length (ha_trans a) -> guard_rows_plain (get_trans a t) ->
  t_from (get_trans a t) <> t_to (get_trans a t) -> t_tt (get_trans a t) = false -> t_reset (get_trans a t) = None ->
  In c (m_inv (get_mode a (t_to (get_trans a t)))) -> NoDup (map fst (lc_row c)) ->
  t_guard (get_trans a' t) = Some (g, rhs) -> poly (c_rows g) rhs p ->
  (reval (lc_row c) p <= lc_rhs c + tol13 * (1 + abs_sum (lc_row c) p))%Q.
Proof.
  intros H Ht Hpl Hft Htt Hres Hc N Hg P. unfold do_guard_strengthening in H. apply bind_ok in H as (ts & Hts & H). injection H as <-. unfold get_trans in Hg. cbn [ha_trans] in Hg.
  apply map_res_Forall2 in Hts. pose proof (Forall2_nth _ _ _ dtrans dtrans t Hts Ht) as E. cbn beta in E. fold (get_trans a t) in E. set (t0 := get_trans a t) in *.
  unfold strengthen_trans in E. rewrite (proj2 (Nat.eqb_neq _ _) Hft), Htt, Hres in E. cbn [orb] in E.
  destruct (m_inv (get_mode a (t_to t0))) as [|c0 inv] eqn:Ei; [destruct Hc|]. unfold guard_rows_plain in Hpl. destruct (t_guard t0) as [[g0 rhs0]|] eqn:Eg; [|discriminate]. destruct Hpl as [Hln Hpl].
  apply bind_ok in E as (add & Ha & E). destruct (missing_cases _ _ _ _ _ Ha c Hc) as [Hin|Hin].
  - destruct add as [|a1 add]; [destruct Hin|]. apply bind_ok in E as (u & _ & E). injection E as E. rewrite <- E in Hg. cbn [t_with_guard t_guard] in Hg. injection Hg as <- <-. cbn [c_rows] in P.
    apply In_nth_error in Hin as (i & Hi). assert (K : (reval (lc_row c) p <= lc_rhs c)%Q).
    { apply (P (List.length (c_rows g0) + i) (lc_row c) (lc_rhs c)); [apply nth_split_app; exact (map_nth_error lc_row i (a1 :: add) Hi)|]. unfold c_nr in Hln. rewrite Hln. apply nth_split_app. exact (map_nth_error lc_rhs i (a1 :: add) Hi). }
    pose proof (abs_sum_nn (lc_row c) p). unfold tol13. lra.
  - assert (P0 : poly (c_rows g0) rhs0 p).
    { destruct add as [|a1 add]; [injection E as E; rewrite <- E, Eg in Hg; injection Hg as <- <-; exact P|]. apply bind_ok in E as (u & _ & E). injection E as E. rewrite <- E in Hg. cbn [t_with_guard t_guard] in Hg. injection Hg as <- <-. cbn [c_rows] in P.
      intros i r b Hr Hb. apply (P i r b); [rewrite nth_error_app1 by (apply nth_error_Some; congruence); exact Hr|rewrite nth_error_app1 by (apply nth_error_Some; congruence); exact Hb]. }
    exact (in_guard_sound _ _ _ _ p Hin Hpl N P0).
Qed.
(** A guard row without stored entries (0 <= 5) is taken for the one-variable invariant condition x <= 5 of the target (numpy broadcasting in
    LinearConstraint.almost_equals), which is then not added: the strengthened guard holds at x = 10. *)
Definition exE : ha :=
  let A := Some (mkCsr 1 [[]]) in
  mkHa [mkMode "a" A None [] (fun _ => ident 1) (fun _ => []); mkMode "b" A None [mkLc [(0, 1%Q)] 1 5%Q] (fun _ => ident 1) (fun _ => [])]
       [mkTrans "t" 0 1 (Some (mkCsr 1 [[]], [5%Q])) None None false 0].
Theorem C27_empty_guard_row_refuted : exists a a' g rhs c p, do_guard_strengthening a = Ok a' /\ t_from (get_trans a 0) <> t_to (get_trans a 0) /\ t_reset (get_trans a 0) = None /\
  In c (m_inv (get_mode a (t_to (get_trans a 0)))) /\ t_guard (get_trans a' 0) = Some (g, rhs) /\ poly (c_rows g) rhs p /\ (lc_rhs c + tol13 * (1 + abs_sum (lc_row c) p) < reval (lc_row c) p)%Q.
Proof.
  exists exE, exE, (mkCsr 1 [[]]), [5%Q], (mkLc [(0, 1%Q)] 1 5%Q), (fun _ => 10%Q). split; [vm_compute; reflexivity|]. split; [discriminate|]. split; [reflexivity|]. split; [left; reflexivity|]. split; [reflexivity|]. split; [|vm_compute; reflexivity].
  intros [|[|i]] r b Hr Hb; cbn in Hr, Hb; try discriminate. injection Hr as <-. injection Hb as <-. vm_compute. discriminate.
Qed.
(** the hypotheses are met: guard x >= 2, target invariant x <= 5 and -x <= -2 (the latter already there) *)
Definition exF : ha :=
  let A := Some (mkCsr 1 [[]]) in
  mkHa [mkMode "a" A None [] (fun _ => ident 1) (fun _ => []); mkMode "b" A None [mkLc [(0, 1%Q)] 1 5%Q; mkLc [(0, (-1)%Q)] 1 (-2)%Q] (fun _ => ident 1) (fun _ => [])]
       [mkTrans "t" 0 1 (Some (mkCsr 1 [[(0, (-1)%Q)]], [(-2)%Q])) None None false 0].
Example C27_guard_implies_invariant_witness : exists a' g rhs, do_guard_strengthening exF = Ok a' /\ guard_rows_plain (get_trans exF 0) /\ t_guard (get_trans a' 0) = Some (g, rhs) /\
  rhs = [(-2)%Q; 5%Q] /\ poly (c_rows g) rhs (fun _ => 3%Q) /\ forall p, poly (c_rows g) rhs p -> (p 0%nat <= 5 + tol13 * (1 + (Qabs (p 0%nat) + 0)))%Q.
Proof.
  eexists. eexists. eexists. split; [vm_compute; reflexivity|]. split; [split; [reflexivity|constructor; [split; [discriminate|constructor; [intros []|constructor]]|constructor]]|]. split; [reflexivity|]. split; [reflexivity|]. split.
  - intros [|[|i]] r b Hr Hb; cbn in Hr, Hb; try (destruct i; discriminate); injection Hr as <-; injection Hb as <-; vm_compute; discriminate.
  - intros p P. pose proof (P 1 [(0, 1%Q)] 5%Q eq_refl eq_refl) as K. unfold row_sat in K. cbn in K. pose proof (Qabs_nonneg (p 0)). unfold tol13. lra.
Qed.

(** ** C42: constant inputs *)
Definition coef (b : csr) (j i : nat) : Q := nth i (dense_of (nth j (c_rows b) []) (c_nc b)) 0%Q.
(** input [i] acts on exactly one variable *)
Definition acts_on_one (b : csr) (i : nat) : Prop := exists j, j < c_nr b /\ ~ (coef b j i == 0)%Q /\ forall j', j' < c_nr b -> ~ (coef b j' i == 0)%Q -> j' = j.
(** the last condition whose row is [s] times the unit vector of input [i] has bound [v] *)
Definition is_unit (n : nat) (s : Q) (i : nat) (r : srow) : Prop := forall c, c < n -> (nth c (dense_of r n) 0 == if Nat.eqb c i then s else 0)%Q.
Definition last_bound (n : nat) (s : Q) (i : nat) (rows : list srow) (rhs : list Q) (v : Q) : Prop :=
  exists k r, nth_error rows k = Some r /\ nth_error rhs k = Some v /\ is_unit n s i r /\ forall k' r' v', k < k' -> nth_error rows k' = Some r' -> nth_error rhs k' = Some v' -> ~ is_unit n s i r'.
(** upper bound u and lower bound l of the input, stated directly, less than 1e-9 apart *)
Definition constant_input (b uc : csr) (ur : list Q) (i : nat) : Prop :=
  exists u l, last_bound (c_nc b) 1 i (c_rows uc) ur u /\ last_bound (c_nc b) (-1) i (c_rows uc) ur l /\ (Qabs (- l - u) < 1 # 1000000000)%Q.

Lemma same_dense_unit n s i r : same_dense n r (map (fun k => if Nat.eqb k i then s else 0%Q) (seq 0 n)) = true <-> is_unit n s i r.
Proof.
  unfold same_dense, is_unit. assert (L : List.length (dense_of r n) = n) by (unfold dense_of; rewrite map_length; apply seq_length).
  assert (G : forall (d : list Q) o, forallb (fun ab => Qeq_bool (fst ab) (snd ab)) (combine d (map (fun k => if Nat.eqb k i then s else 0%Q) (seq o (List.length d)))) = true <-> forall c, c < List.length d -> (nth c d 0 == if Nat.eqb (o + c) i then s else 0)%Q).
  { induction d as [|x d IH]; intro o; cbn [List.length seq map combine forallb]; [split; [intros _ c Hc; lia|reflexivity]|]. rewrite andb_true_iff, (IH (S o)), Qeq_bool_iff. cbn [fst snd]. split.
    - intros [H1 H2] [|c] Hc; cbn [nth]; [rewrite Nat.add_0_r; exact H1|]. replace (o + S c) with (S o + c) by lia. apply H2. lia.
    - intro H. split; [specialize (H 0 ltac:(lia)); cbn [nth] in H; rewrite Nat.add_0_r in H; exact H|]. intros c Hc. specialize (H (S c) ltac:(lia)). cbn [nth] in H. replace (S o + c) with (o + S c) by lia. exact H. }
  specialize (G (dense_of r n) 0). rewrite L in G. rewrite G. split; intros H c Hc; specialize (H c Hc); exact H.
Qed.
Lemma last_bounds_spec n i : i < n -> forall rows rhs lb ub l' u',
  last_bounds n i rows rhs lb ub = (l', u') ->
  (forall v, l' = Some v <-> last_bound n 1 i rows rhs v \/ ((forall k r w, nth_error rows k = Some r -> nth_error rhs k = Some w -> ~ is_unit n 1 i r) /\ lb = Some v)) /\
  (forall v, u' = Some v <-> (exists w, v = (- w)%Q /\ last_bound n (-1) i rows rhs w) \/ ((forall k r w, nth_error rows k = Some r -> nth_error rhs k = Some w -> ~ is_unit n (-1) i r) /\ ub = Some v)).
Proof.
  intros Hi. 
  assert (Nil : forall (rows : list srow) (rhs : list Q) s v, rows = [] \/ rhs = [] -> ~ last_bound n s i rows rhs v).
  { intros rows rhs s v [-> | ->] (k & r & H1 & H2 & _); destruct k; discriminate. }
  assert (Step : forall s r rows b rhs v, last_bound n s i (r :: rows) (b :: rhs) v <->
            last_bound n s i rows rhs v \/ (is_unit n s i r /\ v = b /\ forall k r' w, nth_error rows k = Some r' -> nth_error rhs k = Some w -> ~ is_unit n s i r')).
  { intros s r rows b rhs v. split.
    - intros ([|k] & r0 & H1 & H2 & H3 & H4).
      + cbn in H1, H2. injection H1 as <-. injection H2 as <-. right. split; [exact H3|]. split; [reflexivity|]. intros k r' w Hr Hw. exact (H4 (S k) r' w ltac:(lia) Hr Hw).
      + left. exists k, r0. split; [exact H1|]. split; [exact H2|]. split; [exact H3|]. intros k' r' v' Hk Hr Hv. exact (H4 (S k') r' v' ltac:(lia) Hr Hv).
    - intros [(k & r0 & H1 & H2 & H3 & H4)|(H1 & -> & H2)].
      + exists (S k), r0. split; [exact H1|]. split; [exact H2|]. split; [exact H3|]. intros [|k'] r' v' Hk Hr Hv; [lia|]. exact (H4 k' r' v' ltac:(lia) Hr Hv).
      + exists 0, r. split; [reflexivity|]. split; [reflexivity|]. split; [exact H1|]. intros [|k'] r' v' Hk Hr Hv; [lia|]. exact (H2 k' r' v' Hr Hv). }
  induction rows as [|r rows IH]; intros rhs lb ub l' u' H.
  - cbn [last_bounds] in H. injection H as <- <-. split; intro v; split.
    + intro E. right. split; [intros k r w Hr; destruct k; discriminate|exact E].
    + intros [K|[_ K]]; [exfalso; exact (Nil _ _ _ _ (or_introl eq_refl) K)|exact K].
    + intro E. right. split; [intros k r w Hr; destruct k; discriminate|exact E].
    + intros [(w & _ & K)|[_ K]]; [exfalso; exact (Nil _ _ _ _ (or_introl eq_refl) K)|exact K].
  - destruct rhs as [|b rhs].
    { cbn [last_bounds] in H. injection H as <- <-. split; intro v; split.
      + intro E. right. split; [intros k r' w Hr Hw; destruct k; discriminate|exact E].
      + intros [K|[_ K]]; [exfalso; exact (Nil _ _ _ _ (or_intror eq_refl) K)|exact K].
      + intro E. right. split; [intros k r' w Hr Hw; destruct k; discriminate|exact E].
      + intros [(w & _ & K)|[_ K]]; [exfalso; exact (Nil _ _ _ _ (or_intror eq_refl) K)|exact K]. }
    cbn [last_bounds] in H.
    assert (Ex : is_unit n 1 i r -> ~ is_unit n (-1) i r).
    { intros A B. specialize (A i Hi). specialize (B i Hi). rewrite Nat.eqb_refl in A, B. rewrite A in B. vm_compute in B. discriminate. }
    assert (NoS : forall s, (forall k r' w, nth_error (r :: rows) k = Some r' -> nth_error (b :: rhs) k = Some w -> ~ is_unit n s i r') <->
                       (~ is_unit n s i r /\ forall k r' w, nth_error rows k = Some r' -> nth_error rhs k = Some w -> ~ is_unit n s i r')).
    { intro s. split.
      - intro A. split; [exact (A 0 r b eq_refl eq_refl)|intros k; exact (A (S k))].
      - intros [A B] [|k] r' w Hr Hw; [cbn in Hr; injection Hr as <-; exact A|exact (B k r' w Hr Hw)]. }
    assert (Dec : forall s, (exists v, last_bound n s i rows rhs v) \/ (forall k r' w, nth_error rows k = Some r' -> nth_error rhs k = Some w -> ~ is_unit n s i r')).
    { intro s. clear - Step. revert rhs. induction rows as [|r rows IH]; intro rhs; [right; intros k r' w Hr; destruct k; discriminate|]. destruct rhs as [|b rhs]; [right; intros k r' w Hr Hw; destruct k; discriminate|].
      destruct (IH rhs) as [(v & Hv)|Hn]; [left; exists v; apply Step; left; exact Hv|]. destruct (same_dense n r (map (fun k => if Nat.eqb k i then s else 0%Q) (seq 0 n))) eqn:E.
      - left. exists b. apply Step. right. split; [apply same_dense_unit; exact E|]. split; [reflexivity|exact Hn].
      - right. intros [|k] r' w Hr Hw; [cbn in Hr; injection Hr as <-; intro K; apply same_dense_unit in K; congruence|exact (Hn k r' w Hr Hw)]. }
    assert (Excl : forall s v, last_bound n s i rows rhs v -> (forall k r' w, nth_error rows k = Some r' -> nth_error rhs k = Some w -> ~ is_unit n s i r') -> False).
    { intros s v (k & r0 & A1 & A2 & A3 & _) B. exact (B k r0 v A1 A2 A3). }
    destruct (same_dense n r (map (fun k => if Nat.eqb k i then 1%Q else 0%Q) (seq 0 n))) eqn:E1.
    + assert (V1 : is_unit n 1 i r) by (apply same_dense_unit; exact E1). pose proof (Ex V1) as V2. destruct (IH rhs (Some b) ub l' u' H) as [I1 I2]. split; intro v.
      * rewrite I1, Step, NoS. split.
        -- intros [K|[K1 K2]]; [left; left; exact K|]. left. right. split; [exact V1|]. split; [congruence|exact K1].
        -- intros [[K|(_ & -> & K)]|[[K _] _]]; [left; exact K|right; split; [exact K|reflexivity]|contradiction].
      * rewrite I2, NoS. split.
        -- intros [(w & Ew & K)|[K1 K2]]; [left; exists w; split; [exact Ew|apply Step; left; exact K]|right; auto].
        -- intros [(w & Ew & K)|[[_ K1] K2]]; [|right; auto]. apply Step in K as [K|(K & _)]; [left; exists w; auto|contradiction].
    + assert (V1 : ~ is_unit n 1 i r) by (intro K; apply same_dense_unit in K; rewrite E1 in K; discriminate).
      destruct (same_dense n r (map (fun k => if Nat.eqb k i then (-1)%Q else 0%Q) (seq 0 n))) eqn:E2.
      * assert (V2 : is_unit n (-1) i r) by (apply same_dense_unit; exact E2). destruct (IH rhs lb (Some (- b)%Q) l' u' H) as [I1 I2]. split; intro v.
        -- rewrite I1, Step, NoS. split.
           ++ intros [K|[K1 K2]]; [left; left; exact K|right; auto].
           ++ intros [[K|(K & _)]|[[_ K1] K2]]; [left; exact K|contradiction|right; auto].
        -- rewrite I2, NoS. split.
           ++ intros [(w & Ew & K)|[K1 K2]]; [left; exists w; split; [exact Ew|apply Step; left; exact K]|]. left. exists b. split; [congruence|]. apply Step. right. auto.
           ++ intros [(w & Ew & K)|[[K1 _] _]]; [|contradiction]. apply Step in K as [K|(_ & -> & K)]; [left; exists w; auto|right; split; [exact K|congruence]].
      * assert (V2 : ~ is_unit n (-1) i r) by (intro K; apply same_dense_unit in K; rewrite E2 in K; discriminate). destruct (IH rhs lb ub l' u' H) as [I1 I2]. split; intro v.
        -- rewrite I1, Step, NoS. split.
           ++ intros [K|[K1 K2]]; [left; left; exact K|right; auto].
           ++ intros [[K|(K & _)]|[[_ K1] K2]]; [left; exact K|contradiction|right; auto].
        -- rewrite I2, NoS. split.
           ++ intros [(w & Ew & K)|[K1 K2]]; [left; exists w; split; [exact Ew|apply Step; left; exact K]|right; auto].
           ++ intros [(w & Ew & K)|[[_ K1] K2]]; [|right; auto]. apply Step in K as [K|(K & _)]; [left; exists w; auto|contradiction].
Qed.

Lemma filter_one {T} (f : T -> bool) d (l : list T) :
  List.length (filter f l) = 1 <-> exists j, j < List.length l /\ f (nth j l d) = true /\ forall j', j' < List.length l -> f (nth j' l d) = true -> j' = j.
Proof.
  assert (Z : forall l : list T, List.length (filter f l) = 0 <-> forall j, j < List.length l -> f (nth j l d) = false).
  { induction l0 as [|x l0 IH]; cbn [filter List.length]; [split; [intros _ j Hj; lia|reflexivity]|]. destruct (f x) eqn:E; cbn [List.length].
    - split; [discriminate|]. intro H. specialize (H 0 ltac:(lia)). cbn in H. congruence.
    - rewrite IH. split; [intros H [|j] Hj; [exact E|exact (H j ltac:(lia))]|intros H j Hj; exact (H (S j) ltac:(lia))]. }
  induction l as [|x l IH]; cbn [filter List.length].
  - split; [discriminate|]. intros (j & Hj & _). lia.
  - destruct (f x) eqn:E; cbn [List.length].
    + rewrite (Nat.succ_inj_wd _ 0), Z. split.
      * intro H. exists 0. split; [lia|]. split; [exact E|]. intros [|j'] Hj K; [reflexivity|]. cbn in K. rewrite (H j' ltac:(lia)) in K. discriminate.
      * intros (j & Hj & Hf & Hu) j' Hj'. destruct (f (nth j' l d)) eqn:K; [|reflexivity]. pose proof (Hu 0 ltac:(lia) E). pose proof (Hu (S j') ltac:(lia) K). lia.
    + rewrite IH. split.
      * intros (j & Hj & Hf & Hu). exists (S j). split; [lia|]. split; [exact Hf|]. intros [|j'] Hj' K; [cbn in K; congruence|]. f_equal. exact (Hu j' ltac:(lia) K).
      * intros ([|j] & Hj & Hf & Hu); [cbn in Hf; congruence|]. exists j. split; [lia|]. split; [exact Hf|]. intros j' Hj' K. pose proof (Hu (S j') ltac:(lia) K). lia.
Qed.
Lemma col_nonzeros_one b i : b_col_nonzeros b i = 1 <-> acts_on_one b i.
Proof.
  unfold b_col_nonzeros, acts_on_one, coef, c_nr. eapply iff_trans; [apply (filter_one (T := srow) _ [])|]. cbv beta.
  assert (E : forall q : Q, negb (Qeq_bool q 0) = true <-> ~ (q == 0)%Q).
  { intro q. rewrite negb_true_iff. split; [intros H K; apply Qeq_bool_iff in K; congruence|]. intro H. destruct (Qeq_bool q 0) eqn:K; [apply Qeq_bool_iff in K; contradiction|reflexivity]. }
  split; intros (j & Hj & Hf & Hu); exists j; (split; [exact Hj|]); (split; [apply E; exact Hf|]); intros j' Hj' K; apply Hu; auto; apply E; exact K.
Qed.
Lemma input_const_iff b uc ur i : i < c_nc b -> (input_is_const b uc ur i = true <-> acts_on_one b i /\ constant_input b uc ur i).
Proof.
  intro Hi. unfold input_is_const. rewrite andb_true_iff, Nat.eqb_eq, col_nonzeros_one. unfold constant_input.
  destruct (last_bounds (c_nc b) i (c_rows uc) ur None None) as [l' u'] eqn:E. destruct (last_bounds_spec _ _ Hi _ _ _ _ _ _ E) as [S1 S2].
  assert (A1 : forall v, l' = Some v <-> last_bound (c_nc b) 1 i (c_rows uc) ur v). { intro v. rewrite S1. split; [intros [K|[_ K]]; [exact K|discriminate]|auto]. }
  assert (A2 : forall v, u' = Some v <-> exists w, v = (- w)%Q /\ last_bound (c_nc b) (-1) i (c_rows uc) ur w). { intro v. rewrite S2. split; [intros [K|[_ K]]; [exact K|discriminate]|auto]. }
  assert (Lt : forall u l : Q, negb (Qle_bool (1 # 1000000000) (Qabs (l - u))) = true <-> (Qabs (l - u) < 1 # 1000000000)%Q).
  { intros u l. rewrite negb_true_iff. split.
    - intro H. apply Qnot_le_lt. intro K. apply Qle_bool_iff in K. congruence.
    - intro H. destruct (Qle_bool (1 # 1000000000) (Qabs (l - u))) eqn:K; [|reflexivity]. apply Qle_bool_iff in K. exfalso. exact (Qlt_not_le _ _ H K). }
  split; intros [H1 H2]; (split; [exact H1|]).
  - destruct l' as [u|]; [|discriminate]. destruct u' as [l|]; [|discriminate]. apply Lt in H2.
    destruct (proj1 (A2 l) eq_refl) as (w & -> & Hw). exists u, w. split; [apply A1; reflexivity|]. split; [exact Hw|exact H2].
  - destruct H2 as (u & w & H2 & H3 & H4). apply A1 in H2. subst l'. assert (K : u' = Some (- w)%Q) by (apply A2; exists w; auto). subst u'. apply Lt. exact H4.
Qed.

From Verif Require Import Solver Prop_Automaton.
Open Scope nat_scope.
(** without allow_constants, an input whose upper and lower bounds are stated directly and agree (to 1e-9), and which acts on a
    single variable, is refused with a RuntimeError; everything else that allow_constants accepts is accepted *)
Theorem C42_constant_inputs solve a i b uc ur : solver_ok solve -> solver_complete solve -> csr_ok uc ->
  is_error (get_mode a i) = false -> c_nr uc = List.length ur -> c_nc uc = c_nc b -> c_nr b = m_dims (get_mode a i) -> (exists u, poly (c_rows uc) ur u) ->
  ((exists a', set_inputs solve a i b uc ur false = Ok a') <-> forall j, j < c_nc b -> ~ (acts_on_one b j /\ constant_input b uc ur j)) /\
  (set_inputs solve a i b uc ur false = Err ERuntime <-> exists j, j < c_nc b /\ acts_on_one b j /\ constant_input b uc ur j) /\
  (forall a', set_inputs solve a i b uc ur false = Ok a' -> set_inputs solve a i b uc ur true = Ok a').
Proof.
  intros Hs Hc Hok He H1 H2 H3 H4. unfold set_inputs, is_error, m_dims in *. destruct (m_a (get_mode a i)) as [x|]; [|discriminate].
  unfold check_inputs. rewrite (proj2 (Nat.eqb_eq _ _) H1), (proj2 (Nat.eqb_eq _ _) H2), (proj2 (Nat.eqb_eq _ _) H3).
  apply (feas_iff solve Hs Hc) in H4; [|exact Hok|symmetry; exact H1]. rewrite H4. cbn [assert bind negb andb].
  destruct (existsb (input_is_const b uc ur) (seq 0 (c_nc b))) eqn:E; cbn [bind].
  - apply existsb_exists in E as (j & Hj & E). apply in_seq in Hj. assert (Hj' : j < c_nc b) by lia. apply (input_const_iff _ _ _ _ Hj') in E.
    split; [split; [intros (? & ?); discriminate|]|split; [split; [intros _; exists j; auto|reflexivity]|intros ? ?; discriminate]]. intro K. exfalso. exact (K j Hj' E).
  - assert (No : forall j, j < c_nc b -> ~ (acts_on_one b j /\ constant_input b uc ur j)).
    { intros j Hj K. apply (input_const_iff _ _ _ _ Hj) in K. assert (T : existsb (input_is_const b uc ur) (seq 0 (c_nc b)) = true) by (apply existsb_exists; exists j; split; [apply in_seq; lia|exact K]). congruence. }
    split; [split; [intros _; exact No|intros _; eauto]|split; [split; [discriminate|]|intros a' H; exact H]]. intros (j & Hj & K). exfalso. exact (No j Hj K).
Qed.
(** one mode with two variables: input 0 (acting on x only) fixed at 2 is refused; the same constant acting on both variables is accepted *)
Definition exG : ha := mkHa [mkMode "a" (Some (mkCsr 2 [[]; []])) None [] (fun _ => ident 2) (fun _ => [])] [].
Definition exG_u : csr := mkCsr 1 [[(0, 1%Q)]; [(0, (-1)%Q)]].
Example C42_constant_inputs_witness :
  csr_ok exG_u /\ (exists u, poly (c_rows exG_u) [2%Q; (-2)%Q] u) /\
  acts_on_one (mkCsr 1 [[(0, 1%Q)]; []]) 0 /\ constant_input (mkCsr 1 [[(0, 1%Q)]; []]) exG_u [2%Q; (-2)%Q] 0 /\
  set_inputs fm_solver exG 0 (mkCsr 1 [[(0, 1%Q)]; []]) exG_u [2%Q; (-2)%Q] false = Err ERuntime /\
  (exists a', set_inputs fm_solver exG 0 (mkCsr 1 [[(0, 1%Q)]; [(0, 1%Q)]]) exG_u [2%Q; (-2)%Q] false = Ok a') /\
  (exists a', set_inputs fm_solver exG 0 (mkCsr 1 [[(0, 1%Q)]; []]) exG_u [2%Q; (-1)%Q] false = Ok a').
Proof.
  assert (K : acts_on_one (mkCsr 1 [[(0, 1%Q)]; []]) 0 /\ constant_input (mkCsr 1 [[(0, 1%Q)]; []]) exG_u [2%Q; (-2)%Q] 0) by (apply input_const_iff; [vm_compute; lia|vm_compute; reflexivity]).
  split; [vm_compute; repeat (constructor; auto)|]. split.
  { exists (fun _ => 2%Q). intros [|[|i]] r b Hr Hb; cbn in Hr, Hb; try (destruct i; discriminate); injection Hr as <-; injection Hb as <-; vm_compute; discriminate. }
  split; [exact (proj1 K)|]. split; [exact (proj2 K)|]. split; [vm_compute; reflexivity|]. split; eexists; vm_compute; reflexivity.
Qed.
