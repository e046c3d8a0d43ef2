(** C28: which transitions are marked time-triggered, and which of their bounds are relaxed.  C42: mode names. *)
From Verif Require Import Base BaseFacts LpModel LpSpec SetSpec LpUtil Automaton StateSet HybridSpec StateSpec StateFacts StateFacts2 AutoFacts BuildFacts CorePop.
Open Scope nat_scope.

(** Specification: derivatives x' = A x.  A variable is constant when its row of A is empty; a clock has a derivative that mentions constants only. *)
Definition arow (x : csr) (i : nat) : srow := nth i (c_rows x) [].
Definition constant (x : csr) (i : nat) : Prop := i < c_nr x /\ arow x i = [].
Definition clock (x : csr) (i : nat) : Prop := i < c_nr x /\ arow x i <> [] /\ forall j v, In (j, v) (arow x i) -> ~ (v == 0)%Q -> constant x j.
(** a linear expression over clocks *)
Definition on_clocks (x : csr) (r : srow) : Prop := forall j v, In (j, v) r -> ~ (v == 0)%Q -> clock x j.
(** guard row [r] with bound [b] is met exactly on the boundary of, or beyond, an invariant condition *)
Definition opposite_inv (m : mode) (r : srow) (b : Q) : Prop := exists c, In c (m_inv m) /\ (lc_rhs c == - b)%Q /\ forall p, (reval r p == - reval (lc_row c) p)%Q.
(** row i of the guard of t triggers *)
Definition trigger (a : ha) (t i : nat) : Prop :=
  let m := get_mode a (t_from (get_trans a t)) in
  exists x g rhs r b, m_a m = Some x /\ (exists j, clock x j) /\ (forall c, In c (m_inv m) -> on_clocks x (lc_row c)) /\
    t_guard (get_trans a t) = Some (g, rhs) /\ nth_error (c_rows g) i = Some r /\ nth_error rhs i = Some b /\ on_clocks x r /\ opposite_inv m r b.

Lemma in_nat_iff x l : in_nat x l = true <-> In x l.
Proof. unfold in_nat. rewrite existsb_exists. split; [intros (y & Hy & E); apply Nat.eqb_eq in E; congruence|intro H; exists x; split; [exact H|apply Nat.eqb_refl]]. Qed.
Lemma only_iff vars r : row_only vars r = true <-> forall j v, In (j, v) r -> ~ (v == 0)%Q -> In j vars.
Proof.
  unfold row_only. rewrite forallb_forall. split.
  - intros H j v Hin Hv. specialize (H _ Hin). cbn [fst snd] in H. apply orb_true_iff in H as [H|H]; [apply Qeq_bool_iff in H; contradiction|apply in_nat_iff; exact H].
  - intros H [j v] Hin. cbn [fst snd]. destruct (Qeq_bool v 0) eqn:E; [reflexivity|]. cbn [orb]. apply in_nat_iff. apply (H j v Hin). intro K. apply Qeq_bool_iff in K. congruence.
Qed.
(** get_tt_vars lists exactly the clocks *)
Theorem C28_clocks m x i : m_a m = Some x -> (In i (get_tt_vars m) <-> clock x i).
Proof.
  intro Hx. unfold get_tt_vars. rewrite Hx. rewrite filter_In, in_seq. unfold clock, constant.
  set (consts := filter _ _). assert (HC : forall j, In j consts <-> j < c_nr x /\ arow x j = []).
  { intro j. unfold consts. rewrite filter_In, in_seq. unfold arow. rewrite Nat.eqb_eq, length_zero_iff_nil. split; intros [A B]; split; auto; lia. }
  fold (arow x i). rewrite andb_true_iff, negb_true_iff, Nat.eqb_neq. change (forallb _ (arow x i)) with (row_only consts (arow x i)). rewrite only_iff.
  assert (HN : List.length (arow x i) <> 0 <-> arow x i <> []) by (rewrite length_zero_iff_nil; reflexivity). rewrite HN. split.
  - intros (A & B & C). split; [lia|]. split; [exact B|]. intros j v Hin Hv. apply HC. eauto.
  - intros (A & B & C). split; [lia|]. split; [exact B|]. intros j v Hin Hv. apply HC. eauto.
Qed.
(** a clock's rate does not change: its second derivative, the i-th component of A (A p), is zero *)
Theorem C28_clock_rate x i p : clock x i -> (reval (arow x i) (fun j => reval (arow x j) p) == 0)%Q.
Proof.
  intros (_ & _ & H). assert (K : forall r, (forall j v, In (j, v) r -> ~ (v == 0)%Q -> constant x j) -> (reval r (fun j => reval (arow x j) p) == 0)%Q); [|apply K; exact H].
  induction r as [|[j v] r IH]; intro Hr; [reflexivity|]. cbn [reval]. rewrite IH by (intros j' v' Hin; apply Hr; right; exact Hin).
  destruct (Qeq_dec v 0) as [E|E]; [rewrite E; ring|]. destruct (Hr j v (or_introl eq_refl) E) as [_ K]. rewrite K. cbn [reval]. ring.
Qed.

Lemma reval_unit r n j : row_cols_lt n r -> j < n -> (nth j (dense_of r n) 0 == reval r (fun i => if i =? j then 1 else 0))%Q.
Proof.
  intros Hr Hj. unfold dense_of. set (f := fun c : nat => fold_right _ _ r). rewrite (nth_indep _ _ (f 0)) by (rewrite map_length, seq_length; exact Hj).
  rewrite (map_nth f), seq_nth by exact Hj. cbn [Nat.add]. unfold f. clear Hr f. induction r as [|[k v] r IH]; [reflexivity|]. cbn [fold_right reval fst snd]. destruct (k =? j); rewrite <- IH; ring.
Qed.
Lemma opposite_iff c w r : lc_w c = w -> row_cols_lt w (lc_row c) -> row_cols_lt w r ->
  exists o, opposite c w r = Ok o /\ (o = true <-> forall p, (reval r p == - reval (lc_row c) p)%Q).
Proof.
  intros Hw Hc Hr. unfold opposite. rewrite Hw, Nat.eqb_refl. cbn [negb]. eexists. split; [reflexivity|]. rewrite forallb_forall. split.
  - intros H p. rewrite <- (dense_of_eval r w) by exact Hr. rewrite (ldot_nth_ext _ (dense_of (scale_row (-1) (lc_row c)) w)).
    + rewrite dense_of_eval; [rewrite reval_scale; ring|]. apply scale_row_cols. exact Hc.
    + rewrite !dense_of_length. reflexivity.
    + intros j Hj. rewrite dense_of_length in Hj. symmetry. apply Qeq_bool_iff.
      apply (H (nth j (dense_of (scale_row (-1) (lc_row c)) w) 0%Q, nth j (dense_of r w) 0%Q)). rewrite <- combine_nth by (rewrite !dense_of_length; reflexivity).
      apply nth_In. rewrite combine_length, !dense_of_length. lia.
  - intros H [u v] Hin. cbn [fst snd]. apply Qeq_bool_iff. apply (In_nth _ _ (0%Q, 0%Q)) in Hin as (j & Hj & E). rewrite combine_length, !dense_of_length in Hj.
    rewrite combine_nth in E by (rewrite !dense_of_length; reflexivity). injection E as <- <-. assert (Hjw : j < w) by lia.
    rewrite !reval_unit by (auto using scale_row_cols). rewrite reval_scale, H. ring.
Qed.
Lemma find_iff m r b w : (forall c, In c (m_inv m) -> row_cols_lt (lc_w c) (lc_row c)) -> row_cols_lt w r ->
  forall o, find_opposite (fun c => Qeq_bool c (-1 * b)) (m_inv m) w r = Ok o -> (o = true <-> opposite_inv m r b).
Proof.
  intros HW Hr. unfold opposite_inv. induction (m_inv m) as [|c inv IH]; cbn [find_opposite]; intros o H.
  - injection H as <-. split; [discriminate|intros (c & [] & _)].
  - assert (IH' := IH ltac:(intros; apply HW; right; auto)). pose proof (HW c (or_introl eq_refl)) as W2. destruct (Qeq_bool (lc_rhs c) (-1 * b)) eqn:E.
    + apply bind_ok in H as (o1 & Ho1 & H). assert (W1 : lc_w c = w). { unfold opposite in Ho1. destruct (lc_w c =? w) eqn:Ew; [apply Nat.eqb_eq; exact Ew|discriminate]. }
      rewrite W1 in W2. destruct (opposite_iff c w r W1 W2 Hr) as (o2 & Ho2 & K). rewrite Ho1 in Ho2. injection Ho2 as <-. destruct o1.
      * injection H as <-. split; [intros _|reflexivity]. exists c. split; [left; reflexivity|]. split; [apply Qeq_bool_iff in E; rewrite E; ring|apply K; reflexivity].
      * rewrite (IH' o H). split; [intros (d & Hd & R); exists d; split; [right; exact Hd|exact R]|]. intros (d & [<-|Hd] & R1 & R2); [|exists d; auto].
        apply K in R2. discriminate.
    + rewrite (IH' o H). split; [intros (d & Hd & R); exists d; split; [right; exact Hd|exact R]|]. intros (d & [<-|Hd] & R1 & R2); [|exists d; auto].
      assert (Qeq_bool (lc_rhs c) (-1 * b) = true) by (apply Qeq_bool_iff; rewrite R1; ring). congruence.
Qed.
Lemma relax_iff m x w eps : m_a m = Some x -> (forall c, In c (m_inv m) -> row_cols_lt (lc_w c) (lc_row c)) ->
  forall rows rhs rhs' f, Forall (row_cols_lt w) rows -> List.length rows = List.length rhs -> relax_rows (get_tt_vars m) (m_inv m) w eps rows rhs = Ok (rhs', f) ->
  (forall i r b, nth_error rows i = Some r -> nth_error rhs i = Some b -> exists b', nth_error rhs' i = Some b' /\
     (on_clocks x r /\ opposite_inv m r b /\ b' = (b + eps)%Q \/ ~ (on_clocks x r /\ opposite_inv m r b) /\ b' = b)) /\
  (f = true <-> exists i r b, nth_error rows i = Some r /\ nth_error rhs i = Some b /\ on_clocks x r /\ opposite_inv m r b).
Proof.
  intros Hx HW. assert (HO : forall r, row_only (get_tt_vars m) r = true <-> on_clocks x r).
  { intro r. rewrite only_iff. unfold on_clocks. split; intros H j v Hin Hv; apply (C28_clocks m x j Hx); eauto. }
  induction rows as [|r rows IH]; intros rhs rhs' f HF El H; destruct rhs as [|b rhs]; try discriminate; cbn [relax_rows] in H.
  - injection H as <- <-. split; [intros [|i] r b Hr; discriminate|]. split; [discriminate|intros (i & r & b & Hr & _); destruct i; discriminate].
  - apply bind_ok in H as (found & Hf & H). apply bind_ok in H as ([rhs1 f1] & Hr & H). cbn [fst snd] in H. apply ok_inj in H. injection H as <- <-. inversion HF as [|? ? HF1 HF2]; subst.
    injection El as El. destruct (IH rhs rhs1 f1 HF2 El Hr) as [IH1 IH2].
    assert (HK : found = true <-> on_clocks x r /\ opposite_inv m r b).
    { destruct (row_only (get_tt_vars m) r) eqn:Eo.
      - rewrite (find_iff m r b w HW HF1 found Hf). apply HO in Eo. tauto.
      - injection Hf as <-. split; [discriminate|]. intros [K _]. apply HO in K. congruence. }
    split.
    + intros [|i] r' b' Hr' Hb'; cbn [nth_error] in *.
      * injection Hr' as <-. injection Hb' as <-. eexists. split; [reflexivity|]. destruct found.
        -- left. destruct (proj1 HK eq_refl). auto.
        -- right. split; [intro K; apply HK in K; discriminate|reflexivity].
      * apply IH1; auto.
    + rewrite orb_true_iff, IH2. split.
      * intros [K|(i & r' & b' & A & B & C)]; [exists 0, r, b; apply HK in K; cbn; tauto|exists (S i), r', b'; auto].
      * intros ([|i] & r' & b' & A & B & C & D); cbn [nth_error] in *; [injection A as <-; injection B as <-; left; apply HK; auto|right; exists i, r', b'; auto].
Qed.

(** Exactly the transitions with a triggering guard row get the mark, and exactly those rows are relaxed, by step / num_steps / 1000; everything else is unchanged. *)
Theorem C28_marked a h N a' t : wf_ha a -> detect_tt a h N = Ok a' -> t < List.length (ha_trans a) ->
  (t_tt (get_trans a' t) = true <-> t_tt (get_trans a t) = true \/ exists i, trigger a t i) /\
  exists g rhs rhs', t_guard (get_trans a t) = Some (g, rhs) /\ t_guard (get_trans a' t) = Some (g, rhs') /\ List.length rhs' = List.length rhs /\
    forall i b, nth_error rhs i = Some b -> exists b', nth_error rhs' i = Some b' /\
      (trigger a t i /\ b' = (b + h / inject_Z (Z.of_nat N) / 1000)%Q \/ ~ trigger a t i /\ b' = b).
Proof.
  intros [WM WT] H Ht. pose proof H as H0. apply detect_tt_ok in H0 as (_ & _ & HR). specialize (HR t Ht). destruct HR as (_ & _ & _ & _ & _ & _ & HR).
  specialize (WT t Ht). destruct (wft_guard _ _ WT) as (g & rhs & Eg & Hok & Hl & HF). destruct (wft_from _ _ WT) as [Hf He].
  specialize (WM _ Hf). unfold is_error in He. set (m := get_mode a (t_from (get_trans a t))) in *. destruct (m_a m) as [x|] eqn:Ex; [|discriminate].
  rewrite Eg in HR. destruct (t_guard (get_trans a' t)) as [[g' rhs']|] eqn:Eg'; [|destruct HR]. destruct HR as (-> & L & _).
  unfold detect_tt in H. destruct (N =? 0); [discriminate|]. set (eps := (h / inject_Z (Z.of_nat N) / 1000)%Q) in *. apply bind_ok in H as (ts & Hts & H). injection H as <-.
  apply map_res_Forall2 in Hts. assert (HS := Forall2_nth _ _ _ dtrans dtrans t Hts Ht). cbn beta in HS. fold (get_trans a t) in HS. fold m in HS.
  change (nth t ts dtrans) with (get_trans (mkHa (ha_modes a) ts) t) in HS. unfold is_error in HS. rewrite Ex in HS. set (t' := get_trans (mkHa (ha_modes a) ts) t) in *.
  pose proof (C28_clocks m x) as HC. specialize (fun i => HC i Ex). assert (HW : forall c, In c (m_inv m) -> row_cols_lt (lc_w c) (lc_row c)).
  { intros c Hc. destruct (wfm_inv _ _ WM c Hc) as [E1 E2]. rewrite E1. exact E2. }
  assert (HT : forall i, trigger a t i -> (exists j, clock x j) /\ (forall c, In c (m_inv m) -> on_clocks x (lc_row c)) /\ exists r b, nth_error (c_rows g) i = Some r /\ nth_error rhs i = Some b /\ on_clocks x r /\ opposite_inv m r b).
  { intros i (x1 & g1 & rhs1 & r & b & A1 & A2 & A3 & A4 & A5 & A6 & A7 & A8). fold m in A1, A3, A8. rewrite Ex in A1. injection A1 as <-. rewrite Eg in A4. injection A4 as <- <-. eauto 10. }
  assert (HN : t' = get_trans a t -> (forall i, ~ trigger a t i) -> (t_tt t' = true <-> t_tt (get_trans a t) = true \/ (exists i, trigger a t i)) /\
    exists g0 rhs0 rhs'0, Some (g, rhs) = Some (g0, rhs0) /\ Some (g, rhs') = Some (g0, rhs'0) /\ List.length rhs'0 = List.length rhs0 /\
    forall i b, nth_error rhs0 i = Some b -> exists b', nth_error rhs'0 i = Some b' /\ (trigger a t i /\ b' = (b + eps)%Q \/ ~ trigger a t i /\ b' = b)).
  { intros E K. rewrite E. split; [split; [auto|intros [A|(i & A)]; [exact A|destruct (K i A)]]|]. rewrite E, Eg in Eg'. injection Eg' as <-. exists g, rhs, rhs. split; [reflexivity|]. split; [reflexivity|]. split; [reflexivity|].
    intros i b Hb. exists b. split; [exact Hb|]. right. split; [apply K|reflexivity]. }
  assert (Ev : get_tt_vars m = [] \/ get_tt_vars m <> []) by (destruct (get_tt_vars m); [left; reflexivity|right; discriminate]). rewrite Eg. destruct Ev as [Ev|Ev].
  - rewrite Ev in HS. apply HN; [congruence|]. intros i Hi. apply HT in Hi as ((j & Hj) & _). apply HC in Hj. rewrite Ev in Hj. destruct Hj.
  - assert (HS' : check_and_relax a (get_trans a t) (get_tt_vars m) eps = Ok t') by (destruct (get_tt_vars m); [congruence|exact HS]). clear HS. unfold check_and_relax in HS'. fold m in HS'.
    assert (Hinv : forallb (fun c => row_only (get_tt_vars m) (lc_row c)) (m_inv m) = true <-> forall c, In c (m_inv m) -> on_clocks x (lc_row c)).
    { rewrite forallb_forall. split; intros K c Hc; [intros j v Hj Hv; apply HC; apply (proj1 (only_iff _ _) (K c Hc) j v Hj Hv)|apply only_iff; intros j v Hj Hv; apply HC; apply (K c Hc j v Hj Hv)]. }
    destruct (forallb _ (m_inv m)) eqn:Eb; [|apply HN; [congruence|]; intros i Hi; apply HT in Hi as (_ & K & _); apply Hinv in K; discriminate].
    rewrite Eg in HS'. apply bind_ok in HS' as ([rhs1 f] & Hr & HS'). cbn [fst snd] in HS'. apply ok_inj in HS'.
    assert (Eq : rhs1 = rhs' /\ (t_tt t' = true <-> t_tt (get_trans a t) = true \/ f = true)).
    { rewrite <- HS' in Eg' |- *. destruct f; cbn in Eg' |- *; injection Eg' as <-; (split; [reflexivity|]); tauto || (split; [auto|intros [K|K]; [exact K|discriminate]]). }
    destruct Eq as [-> Et]. destruct (relax_iff m x (c_nc g) eps Ex HW (c_rows g) rhs rhs' f Hok Hl Hr) as [K1 K2].
    assert (Hcl : exists j, clock x j). { destruct (get_tt_vars m) as [|j l]; [congruence|]. exists j. apply HC. left. reflexivity. }
    pose proof (proj1 Hinv eq_refl) as Hi.
    assert (HTi : forall i, trigger a t i <-> exists r b, nth_error (c_rows g) i = Some r /\ nth_error rhs i = Some b /\ on_clocks x r /\ opposite_inv m r b).
    { intro i. split; [intro K; apply HT in K; tauto|]. intros (r & b & A1 & A2 & A3 & A4). exists x, g, rhs, r, b. auto 10. }
    split.
    + rewrite Et, K2. split; (intros [K|K]; [left; exact K|right]).
      * destruct K as (i & r & b & K). exists i. apply HTi. eauto.
      * destruct K as (i & K). apply HTi in K as (r & b & K). exists i, r, b. exact K.
    + exists g, rhs, rhs'. split; [reflexivity|]. split; [reflexivity|]. split; [exact L|]. intros i b Hb.
      assert (Hlr : List.length (c_rows g) = List.length rhs) by exact Hl. destruct (nth_error (c_rows g) i) as [r|] eqn:Er; [|apply nth_error_None in Er; assert (nth_error rhs i <> None) by congruence; apply nth_error_Some in H; lia].
      destruct (K1 i r b Er Hb) as (b' & Hb' & [(A1 & A2 & A3)|(A1 & A2)]); exists b'; (split; [exact Hb'|]).
      * left. split; [|exact A3]. apply HTi. eauto 6.
      * right. split; [|exact A2]. intro K. apply HTi in K as (r' & b'' & B1 & B2 & B3). rewrite Er in B1. injection B1 as <-. rewrite Hb in B2. injection B2 as <-. contradiction.
Qed.

(** ** C42: mode names *)
Definition names (a : ha) : list string := map m_name (ha_modes a).
Theorem C42_new_mode a n : (exists a', new_mode a n = Ok a') <-> ~ In n (names a).
Proof.
  unfold new_mode, names. destruct (forallb _ (ha_modes a)) eqn:E; cbn [assert bind].
  - split; [intros _ Hin|intros _; eauto]. rewrite forallb_forall in E. apply in_map_iff in Hin as (m & <- & Hm). specialize (E m Hm). rewrite String.eqb_refl in E. discriminate.
  - split; [intros (? & ?); discriminate|]. intro Hn. exfalso. apply Bool.not_true_iff_false in E. apply E. apply forallb_forall. intros m Hm. apply negb_true_iff. apply String.eqb_neq. intro K. apply Hn. rewrite <- K. apply in_map. exact Hm.
Qed.
(** the new mode comes last, is an error mode until it gets dynamics, and has no invariant; nothing else changes *)
Theorem C42_new_mode_effect a n a' : new_mode a n = Ok a' -> exists m, ha_modes a' = ha_modes a ++ [m] /\ m_name m = n /\ is_error m = true /\ m_inv m = [] /\ m_b m = None /\ ha_trans a' = ha_trans a.
Proof. unfold new_mode. intro H. apply bind_ok in H as (u & _ & H). injection H as <-. eexists. repeat split. Qed.
Lemma upd_names a i m : i < List.length (ha_modes a) -> m_name m = m_name (get_mode a i) -> names (with_mode a i m) = names a.
Proof.
  intros Hi Hm. apply (nth_ext _ _ (m_name dmode) (m_name dmode)); unfold names; rewrite !map_length; [unfold with_mode; cbn [ha_modes]; apply upd_nth_length|].
  intros j Hj. rewrite !map_nth. fold (get_mode (with_mode a i m) j). fold (get_mode a j). rewrite get_with_mode by exact Hi. destruct (Nat.eqb_spec j i) as [->|]; [exact Hm|reflexivity].
Qed.
(** however an automaton is built, its modes have different names *)
Theorem C42_distinct_names solve a : built solve a -> NoDup (names a).
Proof.
  induction 1 as [|a n a' _ IH H|a f t n _ IH Hf Ht|a i x a' _ IH Hi Hun Hx H|a i c rhs a' _ IH Hi Hc H|a i b uc ur al a' _ IH Hi Hb Huc H
                 |a i g rhs a' _ IH Hi Hg H|a i a' _ IH Hi H|a i r mk mc a' _ IH Hi Hr Hmk Hmc H|a i bm ie _ IH Hi].
  - constructor.
  - assert (Hn : ~ In n (names a)) by (apply C42_new_mode; eauto). apply C42_new_mode_effect in H as (m & E & En & _). unfold names. rewrite E, map_app. cbn [map]. rewrite En.
    apply NoDup_Add with (a := n) (l := names a); [|split; [exact IH|exact Hn]]. fold (names a). rewrite <- (app_nil_r (names a)) at 1. apply Add_app.
  - exact IH.
  - unfold set_dynamics in H. apply bind_ok in H as (u & _ & H). injection H as <-. rewrite upd_names; auto.
  - unfold set_invariant in H. destruct (m_a _); [|discriminate]. repeat (apply bind_ok in H as (? & _ & H)). injection H as <-. rewrite upd_names; auto.
  - unfold set_inputs in H. destruct (m_a _); [|discriminate]. repeat (apply bind_ok in H as (? & _ & H)). injection H as <-. rewrite upd_names; auto.
  - unfold set_guard in H. destruct (m_a _); [|discriminate]. repeat (apply bind_ok in H as (? & _ & H)). injection H as <-. exact IH.
  - unfold set_guard_true, set_guard in H. destruct (m_a (get_mode a (t_from (get_trans a i)))); [|discriminate]. repeat (apply bind_ok in H as (? & _ & H)). injection H as <-. exact IH.
  - unfold set_reset in H. destruct (m_a (get_mode a (t_from (get_trans a i)))); [|discriminate]. apply bind_ok in H as (r1 & _ & H). repeat (apply bind_ok in H as (? & _ & H)).
    destruct mk, mc as [[? ?]|]; repeat (apply bind_ok in H as (? & _ & H)); injection H as <-; exact IH.
  - rewrite upd_names; auto.
Qed.
From Verif Require Import Solver Prop_Automaton.
Open Scope nat_scope.
(** x is a clock, its rate variable is not; "go" (x >= 3 leaving x <= 3) is time-triggered, "err" (x >= 5 leaving x <= 4) is not *)
Example C28_marked_witness : clock exA_mat 0 /\ ~ clock exA_mat 1 /\ trigger exA 0 0 /\ (forall i, ~ trigger exA 1 i) /\ exists a', detect_tt exA 1%Q 10 = Ok a'.
Proof.
  assert (C0 : clock exA_mat 0). { split; [cbn; lia|]. split; [discriminate|]. intros j v [E|[]] _. injection E as <- <-. split; [cbn; lia|reflexivity]. }
  split; [exact C0|]. split; [intros (_ & K & _); apply K; reflexivity|]. split; [|split; [|eexists; vm_compute; reflexivity]].
  - exists exA_mat, exA_ge, [-3 # 1]%Q, [(0, (-(1))%Q)], (-3 # 1)%Q. split; [reflexivity|]. split; [exists 0; exact C0|]. split.
    + intros c [<-|[]] j v [E|[]] _. injection E as <- _. exact C0.
    + split; [reflexivity|]. split; [reflexivity|]. split; [reflexivity|]. split; [intros j v [E|[]] _; injection E as <- _; exact C0|].
      exists (mkLc [(0, 1%Q)] 2 3%Q). split; [left; reflexivity|]. split; [reflexivity|]. intro p. cbn. ring.
  - intros i (x & g & rhs & r & b & _ & _ & _ & Hg & Hr & Hb & _ & (c & Hc & K & _)). injection Hg as <- <-. destruct i as [|[|i]]; try discriminate. cbn in Hb. injection Hb as <-. destruct Hc as [<-|[]]. cbn in K. lra.
Qed.
Example C42_names_witness : built fm_solver exA /\ names exA = ["run"; "next"; "error"]%string.
Proof. split; [exact exA_built|reflexivity]. Qed.
