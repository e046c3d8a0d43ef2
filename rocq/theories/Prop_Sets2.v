(** Properties C14 (convex-hull aggregation) and C41 (LP introspection). *)
From Verif Require Import Base LpModel LpSpec SetSpec LpUtil ApiSpec Solver.
From Verif Require Import BaseFacts LpFacts LpWf SetFacts SetFacts2 MinkFacts OpsFacts OpsFacts2 OpsFacts3 OpsFacts4 AggFacts ApiFacts ChullFacts Prop_Sets.
Open Scope nat_scope.

Section Props.
Variable solve : solver.
Hypothesis Hsolve : solver_ok solve.

(** ** C14.  [fuel] bounds the recursion depth of the Python function (which halves its list); any fuel for which the
    model returns gives the same answer (C14_fuel_irrelevant). *)
Theorem C14_aggregate_chull_contains_hull fuel ls mid hi l :
  (forall s, In s ls -> exists k, api solve s k) -> aggregate_chull solve fuel ls mid hi = Ok l ->
  ls <> [] /\ (forall s, In s ls -> l_dims s = l_dims l) /\ forall p, in_hull (l_dims l) ls p -> in_lp l p.
Proof.
  intros Ha H. assert (HG : Forall good ls).
  { apply Forall_forall. intros s Hs. destruct (Ha s Hs) as [k Hk]. apply (api_ok solve Hsolve) in Hk. split; apply Hk. }
  destruct (aggregate_chull_post solve Hsolve fuel ls mid hi l HG H) as (Hne & _ & HD & _ & H1 & _). rewrite Forall_forall in HD.
  auto.
Qed.

(** each input set is contained in the result (when none is empty) *)
Theorem C14_aggregate_chull_contains_inputs fuel ls mid hi l s p :
  (forall s, In s ls -> exists k, api solve s k) -> aggregate_chull solve fuel ls mid hi = Ok l ->
  (forall s, In s ls -> exists q, in_lp s q) -> In s ls -> in_lp s p -> in_lp l p.
Proof.
  intros Ha H Hne Hs Hp. destruct (C14_aggregate_chull_contains_hull _ _ _ _ _ Ha H) as (_ & HD & HH). apply HH.
  apply In_nth_error in Hs as (i & Hi).
  assert (Hq : exists q : nat -> vec, forall j t, nth_error ls j = Some t -> in_lp t (q j)).
  { clear - Hne. induction ls as [|a ls IH]; [exists (fun _ _ => 0%Q); intros [|j]; discriminate|].
    destruct IH as (q & Hq); [intros; apply Hne; right; auto|]. destruct (Hne a (or_introl eq_refl)) as (q0 & Hq0).
    exists (fun j => match j with 0 => q0 | S j => q j end). intros [|j] t E; simpl in E; [injection E as <-; auto|auto]. }
  destruct Hq as (q & Hq).
  assert (Hi' : i < List.length ls) by (apply nth_error_Some; congruence).
  exists (fun j => if j =? i then 1%Q else 0%Q), (fun j => if j =? i then p else q j).
  assert (HU : forall (f : nat -> Q) k, (qsum (fun j => (if j =? i then 1 else 0) * f j) k == if i <? k then f i else 0)%Q).
  { intros f k. induction k as [|k IH]; [reflexivity|]. rewrite qsum_S, IH. destruct (Nat.eqb_spec k i) as [->|Hk].
    - rewrite (proj2 (Nat.ltb_ge i i)), (proj2 (Nat.ltb_lt i (S i))) by lia. ring.
    - destruct (Nat.ltb_spec i k), (Nat.ltb_spec i (S k)); try lia; ring. }
  split; [intros j _; destruct (j =? i); lra|]. split; [|split].
  - rewrite (qsum_ext _ (fun j => (if j =? i then 1 else 0) * 1)%Q) by (intros; ring). rewrite HU. rewrite (proj2 (Nat.ltb_lt _ _) Hi'). reflexivity.
  - intros j t Ht. destruct (Nat.eqb_spec j i) as [->|]; [congruence|auto].
  - intros d Hd. rewrite (HU (fun j => (if j =? i then p else q j) d)). rewrite (proj2 (Nat.ltb_lt _ _) Hi'), Nat.eqb_refl. reflexivity.
Qed.

Theorem C14_aggregate_chull_exact fuel ls mid hi l :
  (forall s, In s ls -> exists k, api solve s k) -> aggregate_chull solve fuel ls mid hi = Ok l ->
  (forall s, In s ls -> (exists q, in_lp s q) /\ bounded s) ->
  forall p, in_lp l p <-> in_hull (l_dims l) ls p.
Proof.
  intros Ha H Hb. assert (HG : Forall good ls).
  { apply Forall_forall. intros s Hs. destruct (Ha s Hs) as [k Hk]. apply (api_ok solve Hsolve) in Hk. split; apply Hk. }
  destruct (aggregate_chull_post solve Hsolve fuel ls mid hi l HG H) as (Hne & _ & HD & _ & H1 & H2).
  intro p. split; auto. apply H2; apply Forall_forall; intros s Hs; apply Hb; auto.
Qed.

(** more fuel never changes an answer *)
Theorem C14_fuel_irrelevant fuel : forall fuel' ls mid hi l, fuel <= fuel' ->
  aggregate_chull solve fuel ls mid hi = Ok l -> aggregate_chull solve fuel' ls mid hi = Ok l.
Proof.
  induction fuel as [|fuel IH]; intros fuel' ls mid hi l Hle H; [discriminate|]. destruct fuel' as [|fuel']; [lia|].
  cbn [aggregate_chull] in *. destruct ls as [|l1 [|l2 ls]]; auto.
  apply bind_ok in H as (news & Hn & H). apply bind_ok in H as (L & HL & H). rewrite Hn. cbn [bind].
  assert (HL' : match news with
                | [l1; l2] => chull2 l1 l2
                | _ => do a <- aggregate_chull solve fuel' (firstn (Nat.div (List.length news) 2) news) mid hi;
                       do b <- aggregate_chull solve fuel' (skipn (Nat.div (List.length news) 2) news) mid hi;
                       aggregate_chull solve fuel' [a; b] mid hi
                end = Ok L).
  { assert (HR : forall n, (do a <- aggregate_chull solve fuel (firstn n news) mid hi; do b <- aggregate_chull solve fuel (skipn n news) mid hi;
                   aggregate_chull solve fuel [a; b] mid hi) = Ok L ->
                 (do a <- aggregate_chull solve fuel' (firstn n news) mid hi; do b <- aggregate_chull solve fuel' (skipn n news) mid hi;
                   aggregate_chull solve fuel' [a; b] mid hi) = Ok L).
    { intros n G. apply bind_ok in G as (a & Ga & G). apply bind_ok in G as (b & Gb & G).
      rewrite (IH fuel' _ _ _ _ ltac:(lia) Ga). cbn [bind]. rewrite (IH fuel' _ _ _ _ ltac:(lia) Gb). cbn [bind]. apply IH; auto. lia. }
    clear Hn H. destruct news as [|x [|y [|z news]]]; auto. }
  rewrite HL'. cbn [bind]. exact H.
Qed.

(** ** C41 *)
Theorem C41_introspection_roundtrip l k x :
  api solve l k -> (tpoly (c_rows (get_full_constraints l)) (get_types l) (get_rhs l) x <-> lp_sat l x)
                   /\ c_nc (get_full_constraints l) = l_nc l
                   /\ List.length (get_types l) = l_nr l /\ List.length (get_rhs l) = l_nr l /\ c_nr (get_full_constraints l) = l_nr l.
Proof.
  intros Ha. apply (api_ok solve Hsolve) in Ha as (_ & Hn & _).
  pose proof (tpoly_rows 0 (l_rows l) x Hn) as T. unfold get_full_constraints, get_types, get_rhs, c_nr, l_nr. cbn [c_rows c_nc].
  rewrite !map_length. split; [|repeat split].
  rewrite <- (map_shift_row_0 (map r_co (l_rows l))), map_map. rewrite T. unfold lp_sat. cbn [Nat.add]. reflexivity.
Qed.

(** cloning yields the same LP *)
Theorem C41_clone l l' : clone l = Ok l' -> l' = l.
Proof. apply clone_ok. Qed.

Theorem C41_get_row l i co :
  get_row l i = Ok co <-> exists r, nth_error (l_rows l) i = Some r /\ co = r_co r.
Proof.
  unfold get_row. destruct (nth_error (l_rows l) i) as [r|] eqn:E; split; intro H; try discriminate.
  - injection H as <-. eauto.
  - destruct H as (r' & Hr & ->). injection Hr as <-. reflexivity.
  - destruct H as (r & Hr & _). discriminate.
Qed.

Lemma nth_map_seq {A} (f : nat -> A) n j d : j < n -> nth j (map f (seq 0 n)) d = f j.
Proof. intro H. rewrite (nth_indep _ d (f 0)) by (rewrite map_length, seq_length; auto). rewrite map_nth, seq_nth by auto. reflexivity. Qed.

(** coefficient of column c in a row, as the sum of its entries (glpk keeps at most one) *)
Definition coef (co : srow) (c : nat) : Q := reval co (fun j => if j =? c then 1%Q else 0%Q).

Theorem C41_get_dense_constraints l x y w h D :
  get_dense_constraints l x y w h = Ok D ->
  x + w <= l_nc l /\ y + h <= l_nr l /\ List.length D = h /\
  forall i j, i < h -> j < w -> exists r, nth_error (l_rows l) (y + i) = Some r /\ (nth j (nth i D []) 0 == coef (r_co r) (x + j))%Q.
Proof.
  intro H. unfold get_dense_constraints in H. apply bind_ok in H as (u1 & H1 & H). apply bind_ok in H as (u2 & H2 & H).
  apply assert_ok, Nat.leb_le in H1. apply assert_ok, Nat.leb_le in H2. injection H as <-. unfold l_nr in *.
  split; auto. split; auto. split; [rewrite map_length, firstn_length, skipn_length; lia|].
  intros i j Hi Hj. destruct (nth_error (l_rows l) (y + i)) as [r|] eqn:E.
  2:{ apply nth_error_None in E. lia. }
  exists r. split; auto.
  assert (E2 : nth_error (map (fun r => window_row x w (r_co r)) (firstn h (skipn y (l_rows l)))) i = Some (window_row x w (r_co r))).
  { rewrite nth_error_map. rewrite nth_error_firstn by auto. rewrite nth_error_skipn. rewrite E. reflexivity. }
  rewrite (nth_error_nth _ _ _ E2). unfold window_row, coef. clear - Hj.
  unfold dense_of. rewrite nth_map_seq by auto. induction (r_co r) as [|[c a] co IH]; [reflexivity|]. cbn [filter fst].
  destruct ((x <=? c) && (c <? x + w)) eqn:Ec.
  - apply andb_true_iff in Ec as [E1 E2]. apply Nat.leb_le in E1. apply Nat.ltb_lt in E2. cbn [map fst snd reval fold_right]. rewrite <- IH.
    destruct (Nat.eqb_spec (c - x) j), (Nat.eqb_spec c (x + j)); try lia; ring.
  - rewrite IH. cbn [reval]. destruct (Nat.eqb_spec c (x + j)) as [->|]; [|ring]. exfalso.
    apply andb_false_iff in Ec as [E1|E1]; [apply Nat.leb_gt in E1|apply Nat.ltb_ge in E1]; lia.
Qed.
End Props.

(** get_rhs of a ">=" row is not the row's bound (lpinstance.py:811 asks glpk for the upper bound of a row that has only a
    lower one), so C41 needs the absence of such rows *)
Theorem C41_get_rhs_lower_bound_refuted : exists l l', add_rows_with_types l [LO] [0%Q] = Ok l' /\
  (exists x, lp_sat l' x) /\ (forall x, ~ tpoly (c_rows (get_full_constraints l')) (get_types l') (get_rhs l') x).
Proof.
  exists lp_new. eexists. split; [reflexivity|]. split.
  - exists (fun _ => 0%Q). constructor; [|constructor]. unfold row_sat. cbn. lra.
  - intros x H. specialize (H 0 [] LO dbl_max eq_refl eq_refl eq_refl). unfold row_sat in H. cbn [r_ty r_co r_rhs reval] in H.
    assert (0 < dbl_max)%Q by reflexivity. lra.
Qed.

(** * Non-vacuity *)
Open Scope Q_scope.
Definition ex_boxC := Eval vm_compute in get lp_new (from_box fm_solver [(2%Q, 3%Q)] 0 false).
Definition ex_boxD := Eval vm_compute in get lp_new (from_box fm_solver [(0%Q, 1%Q)] 0 false).
Example C14_witness : exists l, aggregate_chull fm_solver 3 [ex_boxC; ex_boxD] 0 false = Ok l
  /\ is_point_in_lpi fm_solver [3#2] l = Ok true /\ is_point_in_lpi fm_solver [-(1#2)] l = Ok false.
Proof. eexists. split; [vm_compute; reflexivity|]. split; vm_compute; reflexivity. Qed.
