(** The Arnoldi direction matrix (aggregate.py:32-72): whatever the Arnoldi iteration returned, adding the axis directions that are
    not close to one of its rows gives at least as many directions as dimensions, and they bound every coordinate (for C66). *)
From Verif Require Import Base BaseFacts LpModel LpSpec SetSpec LpFacts LpWf LpUtil AggFacts StateSet Bounded Bounded6.
From Coq Require Import Lia Lqa Setoid QArith.Qabs.
Open Scope nat_scope.

Definition close_rows (d r : list Q) : bool := forallb (fun ab => close (fst ab) (snd ab)) (combine d r).
Definition with_axes (n : nat) (ds : list (list Q)) : list (list Q) := ds ++ filter (fun d => negb (existsb (fun r => close_rows d r) ds)) (ident n).

Definition epsq : Q := 1 # 50000000.
(** a row that is nearly the i-th axis *)
Definition near (n i : nat) (r : list Q) : Prop := List.length r = n /\ (99 # 100 <= nth i r 0)%Q /\ forall j, j <> i -> (Qabs (nth j r 0) <= epsq)%Q.

Lemma close_nth d : forall r j, close_rows d r = true -> j < List.length d -> j < List.length r -> close (nth j d 0%Q) (nth j r 0%Q) = true.
Proof.
  induction d as [|p d IH]; intros [|q r] j H H1 H2; cbn in H1, H2; try lia. unfold close_rows in H. cbn [combine forallb fst snd] in H. apply andb_true_iff in H as [Ha Hb].
  destruct j as [|j]; [exact Ha|]. cbn [nth]. apply IH; [exact Hb|lia|lia].
Qed.
Lemma close_one b : close 1 b = true -> (99 # 100 <= b)%Q.
Proof.
  unfold close. rewrite Qle_bool_iff. intro H. apply Qabs_Qle_condition in H. destruct H as [_ H]. revert H. apply Qabs_case; intros Hb H; lra.
Qed.
Lemma close_zero b : close 0 b = true -> (Qabs b <= epsq)%Q.
Proof.
  unfold close, epsq. rewrite Qle_bool_iff. intro H. assert (E : (Qabs (0 - b) == Qabs b)%Q) by (setoid_replace (0 - b)%Q with (- b)%Q by ring; apply Qabs_opp). rewrite E in H. lra.
Qed.
Lemma unit_nth n i j : i < n -> nth j (unit_row n i) 0%Q = if (j =? i)%nat then 1%Q else 0%Q.
Proof.
  intro Hi. unfold unit_row. destruct (Nat.lt_ge_cases j n) as [G|G].
  - rewrite (nth_indep _ 0%Q ((fun k => if Nat.eqb k i then 1%Q else 0%Q) 0)) by (rewrite map_length, seq_length; exact G). rewrite (map_nth (fun k => if Nat.eqb k i then 1%Q else 0%Q) (seq 0 n) 0 j), seq_nth by exact G. reflexivity.
  - rewrite nth_overflow by (rewrite map_length, seq_length; exact G). destruct (Nat.eqb_spec j i); [lia|reflexivity].
Qed.
Lemma unit_len n i : List.length (unit_row n i) = n.
Proof. unfold unit_row. rewrite map_length, seq_length. reflexivity. Qed.
Lemma close_near n i r : i < n -> List.length r = n -> close_rows (unit_row n i) r = true -> near n i r.
Proof.
  intros Hi Hl H. assert (K : forall j, j < n -> close (nth j (unit_row n i) 0%Q) (nth j r 0%Q) = true) by (intros j Hj; apply close_nth; [exact H|rewrite unit_len; exact Hj|lia]).
  split; [exact Hl|]. split.
  - apply close_one. specialize (K i Hi). rewrite unit_nth, Nat.eqb_refl in K by exact Hi. exact K.
  - intros j Hj. destruct (Nat.lt_ge_cases j n) as [G|G].
    + apply close_zero. specialize (K j G). rewrite unit_nth in K by exact Hi. destruct (Nat.eqb_spec j i); [contradiction|exact K].
    + rewrite nth_overflow by lia. unfold epsq. cbn. discriminate.
Qed.
Lemma unit_near n i : i < n -> near n i (unit_row n i).
Proof.
  intro Hi. split; [apply unit_len|]. split; [rewrite unit_nth, Nat.eqb_refl by exact Hi; discriminate|]. intros j Hj. rewrite unit_nth by exact Hi. destruct (Nat.eqb_spec j i); [contradiction|discriminate].
Qed.
Lemma near_one n i k r : near n i r -> near n k r -> i = k.
Proof.
  intros (_ & H1 & _) (_ & _ & H2). destruct (Nat.eq_dec i k) as [E|N]; [exact E|]. specialize (H2 i N). apply Qabs_Qle_condition in H2. unfold epsq in H2. lra.
Qed.
Lemma sumsq_nonneg d : (0 <= sumsq d)%Q.
Proof. induction d as [|q d IH]; cbn [sumsq fold_right]; [lra|]. fold (sumsq d). nra. Qed.
Lemma sumsq_ge d : forall i, (nth i d 0 * nth i d 0 <= sumsq d)%Q.
Proof.
  induction d as [|q d IH]; intro i; cbn [sumsq fold_right nth]; [destruct i; cbn; lra|]. fold (sumsq d). destruct i as [|i]; [pose proof (sumsq_nonneg d); lra|]. specialize (IH i). nra.
Qed.
Lemma near_used n i r : near n i r -> dir_used r = true.
Proof. intros (_ & H & _). apply dir_used_ge. pose proof (sumsq_ge r i). nra. Qed.

Lemma axes_near n ds i : i < n -> Forall (fun r => List.length r = n) ds -> exists r, In r (with_axes n ds) /\ near n i r.
Proof.
  intros Hi HF. destruct (existsb (fun r => close_rows (unit_row n i) r) ds) eqn:E.
  - apply existsb_exists in E as (r & Hr & Hc). exists r. split; [apply in_or_app; left; exact Hr|]. rewrite Forall_forall in HF. apply close_near; auto.
  - exists (unit_row n i). split; [|apply unit_near; exact Hi]. apply in_or_app. right. apply filter_In. split; [unfold ident; apply in_map, in_seq; lia|]. rewrite E. reflexivity.
Qed.

(** diagonal dominance *)
Lemma mul_le a b e m : (0 <= a)%Q -> (a <= e)%Q -> (0 <= b)%Q -> (b <= m)%Q -> (a * b <= e * m)%Q.
Proof.
  intros A1 A2 B1 B2. apply (Qle_trans _ (e * b)); [apply Qmult_le_compat_r; assumption|]. rewrite (Qmult_comm e b), (Qmult_comm e m). apply Qmult_le_compat_r; [exact B2|]. lra.
Qed.
Lemma ldot_small eps m : (0 <= eps)%Q -> (0 <= m)%Q -> forall r off (x : vec), (forall j, (Qabs (nth j r 0) <= eps)%Q) -> (forall j, j < List.length r -> (Qabs (x (off + j)%nat) <= m)%Q) ->
  (Qabs (ldot r off x) <= inject_Z (Z.of_nat (List.length r)) * (eps * m))%Q.
Proof.
  intros He Hm. induction r as [|q r IH]; intros off x Hr Hx; cbn [ldot List.length]; [change (inject_Z (Z.of_nat 0)) with 0%Q; rewrite Qmult_0_l; discriminate|].
  assert (H1 : (Qabs (ldot r (S off) x) <= inject_Z (Z.of_nat (List.length r)) * (eps * m))%Q).
  { apply IH; [intro j; exact (Hr (S j))|]. intros j Hj. replace (S off + j) with (off + S j) by lia. apply Hx. cbn. lia. }
  pose proof (Hr 0) as H2. cbn [nth] in H2. specialize (Hx 0 ltac:(cbn; lia)). replace (off + 0) with off in Hx by lia.
  assert (H3 : (Qabs (q * x off) <= eps * m)%Q).
  { rewrite Qabs_Qmult. apply mul_le; try apply Qabs_nonneg; assumption. }
  rewrite Nat2Z.inj_succ. unfold Z.succ. rewrite inject_Z_plus.
  eapply Qle_trans; [apply Qabs_triangle|]. setoid_replace ((inject_Z (Z.of_nat (List.length r)) + inject_Z 1) * (eps * m))%Q with (inject_Z (Z.of_nat (List.length r)) * (eps * m) + eps * m)%Q by (change (inject_Z 1) with 1%Q; ring). lra.
Qed.
Lemma nonneg_nat k : (0 <= inject_Z (Z.of_nat k))%Q.
Proof. change 0%Q with (inject_Z 0). rewrite <- Zle_Qle. lia. Qed.
Lemma ldot_near eps m : (0 <= eps)%Q -> (0 <= m)%Q -> forall r i off (x : vec), i < List.length r -> (forall j, j <> i -> (Qabs (nth j r 0) <= eps)%Q) -> (forall j, j < List.length r -> (Qabs (x (off + j)%nat) <= m)%Q) ->
  (Qabs (ldot r off x - nth i r 0 * x (off + i)%nat) <= inject_Z (Z.of_nat (List.length r)) * (eps * m))%Q.
Proof.
  intros He Hm. induction r as [|q r IH]; intros i off x Hi Hr Hx; [cbn in Hi; lia|]. cbn [List.length] in *. rewrite Nat2Z.inj_succ. unfold Z.succ. rewrite inject_Z_plus.
  assert (Es : ((inject_Z (Z.of_nat (List.length r)) + inject_Z 1) * (eps * m) == inject_Z (Z.of_nat (List.length r)) * (eps * m) + eps * m)%Q) by (change (inject_Z 1) with 1%Q; ring). rewrite Es.
  assert (He2 : (0 <= eps * m)%Q) by (apply Qmult_le_0_compat; assumption).
  destruct i as [|i]; cbn [ldot nth].
  - assert (H1 : (Qabs (ldot r (S off) x) <= inject_Z (Z.of_nat (List.length r)) * (eps * m))%Q).
    { apply ldot_small; [exact He|exact Hm|intro j; apply (Hr (S j)); lia|]. intros j Hj. replace (S off + j) with (off + S j) by lia. apply Hx. lia. }
    replace (off + 0) with off by lia. setoid_replace (q * x off + ldot r (S off) x - q * x off)%Q with (ldot r (S off) x) by ring. lra.
  - assert (H1 : (Qabs (ldot r (S off) x - nth i r 0 * x (S off + i)%nat) <= inject_Z (Z.of_nat (List.length r)) * (eps * m))%Q).
    { apply IH; [lia| |]. - intros j Hj. apply (Hr (S j)). lia. - intros j Hj. replace (S off + j) with (off + S j) by lia. apply Hx. lia. }
    replace (off + S i) with (S off + i) by lia. pose proof (Hr 0 ltac:(lia)) as H2. cbn [nth] in H2. specialize (Hx 0 ltac:(lia)). replace (off + 0) with off in Hx by lia.
    assert (H3 : (Qabs (q * x off) <= eps * m)%Q). { rewrite Qabs_Qmult. apply mul_le; try apply Qabs_nonneg; assumption. }
    setoid_replace (q * x off + ldot r (S off) x - nth i r 0 * x (S off + i)%nat)%Q with (q * x off + (ldot r (S off) x - nth i r 0 * x (S off + i)%nat))%Q by ring.
    eapply Qle_trans; [apply Qabs_triangle|]. lra.
Qed.

Lemma max_coord (p : vec) n : 0 < n -> exists i, i < n /\ forall j, j < n -> (Qabs (p j) <= Qabs (p i))%Q.
Proof.
  induction n as [|n IH]; [lia|]. intros _. destruct (Nat.eq_dec n 0) as [->|N].
  - exists 0. split; [lia|]. intros j Hj. assert (j = 0) by lia. subst j. lra.
  - destruct IH as (i & Hi & H); [lia|]. destruct (Qlt_le_dec (Qabs (p i)) (Qabs (p n))) as [G|G].
    + exists n. split; [lia|]. intros j Hj. destruct (Nat.eq_dec j n) as [->|]; [lra|]. specialize (H j ltac:(lia)). lra.
    + exists i. split; [lia|]. intros j Hj. destruct (Nat.eq_dec j n) as [->|]; [lra|]. apply H. lia.
Qed.

Lemma axes_bound n ds : (inject_Z (Z.of_nat n) <= 10000000)%Q -> Forall (fun r => List.length r = n) ds -> dirs_bound n (with_axes n ds).
Proof.
  intros Hn HF M. exists (2 * M)%Q. intros p Hp c Hc. destruct (max_coord p n ltac:(lia)) as (i & Hi & Hmax).
  destruct (axes_near n ds i Hi HF) as (r & Hin & Hnear). pose proof Hnear as (Hl & Hd & Ho). specialize (Hp r Hin (near_used _ _ _ Hnear)).
  set (m := Qabs (p i)) in *. assert (Hm : (0 <= m)%Q) by apply Qabs_nonneg.
  assert (HN : (Qabs (ldot r 0 p - nth i r 0 * p (0 + i)%nat) <= inject_Z (Z.of_nat (List.length r)) * (epsq * m))%Q).
  { apply ldot_near; [discriminate|exact Hm|lia|exact Ho|]. intros j Hj. apply Hmax. lia. }
  rewrite Hl in HN. cbn [Nat.add] in HN. assert (HB : (inject_Z (Z.of_nat n) * (epsq * m) <= (2 # 10) * m)%Q).
  { unfold epsq. pose proof (nonneg_nat n). set (z := inject_Z (Z.of_nat n)) in *. clearbody z. nra. }
  assert (HC : (Qabs (nth i r 0 * p i) <= M + (2 # 10) * m)%Q).
  { setoid_replace (nth i r 0 * p i)%Q with (ldot r 0 p - (ldot r 0 p - nth i r 0 * p i))%Q by ring. unfold Qminus at 1. eapply Qle_trans; [apply Qabs_triangle|]. rewrite Qabs_opp. lra. }
  rewrite Qabs_Qmult in HC. fold m in HC. assert (HD : (99 # 100 <= Qabs (nth i r 0))%Q) by (eapply Qle_trans; [exact Hd|apply Qle_Qabs]).
  assert (HE : ((99 # 100) * m <= M + (2 # 10) * m)%Q). { eapply Qle_trans; [|exact HC]. apply Qmult_le_compat_r; assumption. }
  specialize (Hmax c Hc). assert (HM0 : (0 <= M)%Q) by (eapply Qle_trans; [apply Qabs_nonneg|exact Hp]). lra.
Qed.

(** at least as many directions as dimensions *)
Fixpoint first_close (d : list Q) (ds : list (list Q)) : nat := match ds with [] => 0 | r :: ds' => if close_rows d r then 0 else S (first_close d ds') end.
Lemma first_close_ok d ds : existsb (fun r => close_rows d r) ds = true -> first_close d ds < List.length ds /\ close_rows d (nth (first_close d ds) ds []) = true.
Proof.
  induction ds as [|r ds IH]; cbn [existsb first_close List.length]; [discriminate|]. destruct (close_rows d r) eqn:E; [intros _; split; [lia|exact E]|]. cbn [orb]. intro H. destruct (IH H). split; [lia|assumption].
Qed.
Lemma filter_split {A} (f : A -> bool) l : List.length (filter f l) + List.length (filter (fun x => negb (f x)) l) = List.length l.
Proof. induction l as [|x l IH]; cbn [filter]; [reflexivity|]. destruct (f x); cbn [negb List.length]; lia. Qed.
Lemma filter_map_len {A B} (g : A -> B) (f : B -> bool) l : List.length (filter f (map g l)) = List.length (filter (fun x => f (g x)) l).
Proof. induction l as [|x l IH]; cbn [filter map]; [reflexivity|]. destruct (f (g x)); cbn [List.length]; lia. Qed.
Lemma NoDup_map_on {A B} (f : A -> B) l : NoDup l -> (forall x y, In x l -> In y l -> f x = f y -> x = y) -> NoDup (map f l).
Proof.
  induction 1 as [|x l Hx Hl IH]; intro H; cbn [map]; constructor.
  - intro K. apply in_map_iff in K as (y & E & Hy). apply Hx. rewrite <- (H y x); [exact Hy|right; exact Hy|left; reflexivity|exact E].
  - apply IH. intros y z Hy Hz. apply H; right; assumption.
Qed.
Lemma axes_count n ds : Forall (fun r => List.length r = n) ds -> n <= List.length (with_axes n ds).
Proof.
  intro HF. unfold with_axes, ident. rewrite app_length, filter_map_len.
  pose proof (filter_split (fun i => existsb (fun r => close_rows (unit_row n i) r) ds) (seq 0 n)) as HS. rewrite seq_length in HS.
  assert (HL : List.length (filter (fun i => existsb (fun r => close_rows (unit_row n i) r) ds) (seq 0 n)) <= List.length ds); [|lia].
  rewrite <- (map_length (fun i => first_close (unit_row n i) ds)), <- (seq_length (List.length ds) 0). apply NoDup_incl_length.
  - apply NoDup_map_on; [apply NoDup_filter, seq_NoDup|]. intros i k Hi Hk E. apply filter_In in Hi as [Hi Ci]. apply filter_In in Hk as [Hk Ck]. apply in_seq in Hi, Hk.
    destruct (first_close_ok _ _ Ci) as [L1 C1]. destruct (first_close_ok _ _ Ck) as [L2 C2]. rewrite E in C1.
    assert (Hlen : List.length (nth (first_close (unit_row n k) ds) ds []) = n) by (rewrite Forall_forall in HF; apply HF, nth_In; exact L2).
    apply (near_one n i k (nth (first_close (unit_row n k) ds) ds [])); apply close_near; auto; lia.
  - intros z Hz. apply in_map_iff in Hz as (i & <- & Hi). apply filter_In in Hi as [_ Ci]. apply in_seq. destruct (first_close_ok _ _ Ci). lia.
Qed.
Lemma axes_len n ds : Forall (fun r => List.length r = n) ds -> Forall (fun r => List.length r = n) (with_axes n ds).
Proof.
  intro HF. apply Forall_app. split; [exact HF|]. apply Forall_forall. intros r Hr. apply filter_In in Hr as [Hr _]. unfold ident in Hr. apply in_map_iff in Hr as (i & <- & _). apply unit_len.
Qed.
