(** What a solution of the LP of a concrete state says about the path to it. *)
From Verif Require Import Base BaseFacts LpModel LpSpec SetSpec LpUtil LpFacts LpWf SetFacts SetFacts2 OpsFacts OpsFacts2 OpsFacts3 OpsFacts4
  ApiSpec ApiFacts Automaton StateSet HybridSpec FlowFacts StateFacts StateFacts2 StateFacts3 CoreModel CoreOps Names CexSpec NameFacts Layout TraceLp.
From Coq Require Import String.
Open Scope list_scope.
Open Scope nat_scope.

Definition vals (x : vec) (o n : nat) : list Q := map x (seq o n).
Lemma vals_length x o n : List.length (vals x o n) = n.
Proof. unfold vals. rewrite map_length, seq_length. reflexivity. Qed.
Lemma vals_app x o n m : vals x o (n + m) = vals x o n ++ vals x (o + n) m.
Proof. unfold vals. rewrite seq_app, map_app. reflexivity. Qed.
Lemma of_vals x o n i : i < n -> of_list (vals x o n) i = x (o + i).
Proof.
  intro H. unfold of_list, vals. rewrite (nth_indep _ 0%Q (x 0)) by (rewrite map_length, seq_length; exact H). rewrite map_nth, seq_nth by exact H. reflexivity.
Qed.
Lemma vals_ext x y o n : (forall c, o <= c < o + n -> x c = y c) -> vals x o n = vals y o n.
Proof. intro H. unfold vals. apply map_ext_in. intros c Hc. apply in_seq in Hc. apply H. lia. Qed.
Lemma combine_app {A B} (l1 l2 : list A) (r1 r2 : list B) : List.length l1 = List.length r1 -> combine (l1 ++ l2) (r1 ++ r2) = combine l1 r1 ++ combine l2 r2.
Proof. revert r1. induction l1 as [|x l1 IH]; intros [|y r1] H; try discriminate; [reflexivity|]. cbn [app combine]. rewrite IH by (injection H; auto). reflexivity. Qed.

Section T.
Variable solve : solver.
Hypothesis Hsolve : solver_ok solve.
Variable a : ha.
Hypothesis WH : wf_ha a.
Hypothesis Hinp : forall m, m < List.length (ha_modes a) -> m_b (get_mode a m) <> None -> m_inv (get_mode a m) = [].
Hypothesis Hidx : forall t, t < List.length (ha_trans a) -> nth_error (out_trans a (t_from (get_trans a t))) (t_index (get_trans a t)) = Some t.
Variable urgent : bool.
Variable init : nat -> vec -> Prop.
Notation lax := tol13.

(** the finished segments lead to point p of mode m *)
Inductive past : list seg -> nat -> vec -> Prop :=
| P_init m p : init m p -> inv_ok lax (get_mode a m) p -> past [] m p
| P_seg H s t p : past H (sg_mode s) (of_list (sg_start s)) -> seg_leaves lax urgent a s t ->
    reset_with a (get_trans a t) (of_list (sg_end s)) (of_list (sg_mink s)) p -> past (H ++ [s]) (t_to (get_trans a t)) p.

Lemma inp_names_S mid nu k : inp_names mid nu (S k) = inp_names mid nu k ++ names_of "I" mid 0 nu.
Proof. unfold inp_names. induction k as [|k IH]; [cbn; rewrite app_nil_r; reflexivity|]. cbn [repeat List.concat] in *. rewrite IH at 1. rewrite <- app_assoc. reflexivity. Qed.
Lemma inp_names_add mid nu k j : inp_names mid nu (k + j) = inp_names mid nu k ++ inp_names mid nu j.
Proof. unfold inp_names. rewrite repeat_app, concat_app. reflexivity. Qed.
Lemma inp_names_length mid nu k : List.length (inp_names mid nu k) = nu * k.
Proof. induction k as [|k IH]; [cbn; lia|]. rewrite inp_names_S, app_length, IH, names_of_length. lia. Qed.
Lemma inp_names_0 mid k : inp_names mid 0 k = [].
Proof. induction k as [|k IH]; [reflexivity|]. rewrite inp_names_S, IH. reflexivity. Qed.
Definition blocks (x : vec) (o nu k : nat) : list (list Q) := map (fun j => vals x (o + nu * j) nu) (seq 0 k).
Lemma blocks_S x o nu k : blocks x o nu (S k) = blocks x o nu k ++ [vals x (o + nu * k) nu].
Proof. unfold blocks. rewrite seq_S, map_app. reflexivity. Qed.
Lemma run_inputs ns m nu k x o ce s : 0 < nu ->
  ce_names a ns (ce ++ [s]) (combine (inp_names m nu k) (vals x o (nu * k))) = Ok (ce ++ [sg_with_inputs s (rev (blocks x o nu k) ++ sg_inputs s)]).
Proof.
  intro Hn. induction k as [|k IH].
  - rewrite Nat.mul_0_r. cbn. destruct s; reflexivity.
  - rewrite inp_names_S. replace (nu * S k) with (nu * k + nu) by lia. rewrite vals_app, combine_app by (rewrite inp_names_length, vals_length; reflexivity).
    rewrite ce_names_app, IH. cbn [bind]. rewrite run_inp by (auto; apply vals_length). rewrite blocks_S, rev_app_distr. reflexivity.
Qed.

Definition start_of (l : lp) (x : vec) : list Q := vals x (snd (l_bm l)) (l_cvo l - snd (l_bm l)).
Definition end_of (l : lp) (x : vec) : list Q := vals x (l_cvo l) (l_dims l).
Definition x0_of (l : lp) (x : vec) : vec := fun i => x (snd (l_bm l) + i).

Record TR (s : sset) (pre : list nat) : Prop := {
  tr_m : ss_mode s < List.length (ha_modes a);
  tr_bc : snd (l_bm (ss_lpi s)) + l_dims (ss_lpi s) <= l_cvo (ss_lpi s);
  tr_names : exists N, List.length N = uoff (ss_lpi s) /\ l_names (ss_lpi s) = N ++ inp_names (ss_mode s) (m_nu (get_mode a (ss_mode s))) (ss_step s) /\
    forall x, core_sat (ss_lpi s) x -> exists H,
      (forall k rest, ce_names a (pre ++ k :: rest) [] (combine N (vals x 0 (uoff (ss_lpi s)))) =
         Ok (H ++ [mkSeg (ss_mode s) (start_of (ss_lpi s) x) (end_of (ss_lpi s) x) k None [] []])) /\
      past H (ss_mode s) (x0_of (ss_lpi s) x) /\ map sg_steps H = pre;
  tr_inv : m_b (get_mode a (ss_mode s)) = None -> forall x, core_sat (ss_lpi s) x -> forall j, j < ss_step s ->
    inv_ok lax (get_mode a (ss_mode s)) (mapply (m_bm (get_mode a (ss_mode s)) j) (x0_of (ss_lpi s) x));
  tr_inp : forall x, core_sat (ss_lpi s) x -> forall j, j < ss_step s ->
    input_ok (get_mode a (ss_mode s)) (fun i => x (uoff (ss_lpi s) + m_nu (get_mode a (ss_mode s)) * j + i)%nat);
  tr_len : list_sum pre + ss_step s = ss_lo s }.

Lemma TR_sub s s' pre : TR s pre -> ss_mode s' = ss_mode s -> ss_step s' = ss_step s -> ss_lo s' = ss_lo s -> sub_lp (ss_lpi s) (ss_lpi s') -> TR s' pre.
Proof.
  intros T Em Es El (S1 & S2 & S3). pose proof (same_layout_uoff _ _ S2) as Eu. destruct S2 as (D1 & D2 & D3 & D4). destruct (tr_names _ _ T) as (N & N1 & N2 & N3).
  constructor.
  - rewrite Em. apply T.
  - rewrite D1, D2, D3. apply T.
  - exists N. rewrite Eu, Em, Es, S1. split; [exact N1|]. split; [exact N2|]. intros x Hx. apply S3 in Hx. unfold start_of, end_of, x0_of. rewrite D1, D2, D3. apply N3. exact Hx.
  - rewrite Em, Es. intros Hb x Hx. unfold x0_of. rewrite D2. apply (tr_inv _ _ T Hb). apply S3. exact Hx.
  - rewrite Em, Es, Eu. intros x Hx. apply (tr_inp _ _ T). apply S3. exact Hx.
  - rewrite Es, El. apply T.
Qed.

Lemma TR_step s x s' pre : st_ok solve a s x -> TR s pre -> (m_b (get_mode a (ss_mode s)) = None -> forall y, core_sat (ss_lpi s) y ->
    inv_ok lax (get_mode a (ss_mode s)) (mapply (m_bm (get_mode a (ss_mode s)) (ss_step s)) (x0_of (ss_lpi s) y))) ->
  ss_step_to a s (S (ss_step s)) = Ok s' -> TR s' pre.
Proof.
  intros S T Hiv H. destruct (step_to_ok solve Hsolve a _ x _ s' WH S H) as (_ & _ & E1 & E2 & E3 & _).
  destruct (step_core solve Hsolve a WH s x _ s' S H ltac:(lia)) as (S1 & S2 & S3). replace (Datatypes.S (ss_step s) - ss_step s) with 1 in * by lia.
  pose proof (same_layout_uoff _ _ S2) as Eu. destruct S2 as (D1 & D2 & D3 & D4). destruct (tr_names _ _ T) as (N & N1 & N2 & N3).
  constructor.
  - rewrite E2. apply T.
  - rewrite D1, D2, D3. apply T.
  - exists N. rewrite Eu, E1, E2. split; [exact N1|]. split.
    + rewrite S1, N2, <- app_assoc, <- inp_names_add, Nat.add_1_r. reflexivity.
    + intros y Hy. apply S3 in Hy as [Hy _]. unfold start_of, end_of, x0_of. rewrite D1, D2, D3. apply N3. exact Hy.
  - rewrite E1, E2. intros Hb y Hy j Hj. apply S3 in Hy as [Hy _]. unfold x0_of. rewrite D2. destruct (Nat.eq_dec j (ss_step s)) as [->|Hne]; [apply (Hiv Hb y Hy)|]. apply (tr_inv _ _ T Hb y Hy). lia.
  - rewrite E1, E2, Eu. intros y Hy j Hj. apply S3 in Hy as [Hy Hu]. destruct (Nat.lt_ge_cases j (ss_step s)); [apply (tr_inp _ _ T y Hy); lia|]. apply Hu. lia.
  - rewrite E1, E3. pose proof (tr_len _ _ T). lia.
Qed.

(** the invariant of the current time, for complete solutions *)
Lemma cur_dval s x y : st_ok solve a s x -> lp_sat (ss_lpi s) y ->
  veq (c_nr x) (fun i => y (l_cvo (ss_lpi s) + i)) (dval (get_mode a (ss_mode s)) (c_nr x) (ss_step s) (x0_of (ss_lpi s) y)
     (fun j c => y (uoff (ss_lpi s) + m_nu (get_mode a (ss_mode s)) * j + c)%nat)).
Proof.
  intros S Hy i Hi. destruct (st_wf solve Hsolve _ _ _ S) as [WL _]. apply (wf_sat _ _ _ _ _ WL) in Hy as [_ Hy]. rewrite (st_dims _ _ _ _ S) in Hy. destruct (Hy i Hi) as [E _].
  rewrite E. unfold cur_of, dval, ies_of. apply Qplus_comp; [unfold mapply, x0_of; apply ldot_shift|].
  destruct (m_b (get_mode a (ss_mode s))) as [bu|]; [apply (ie_val_isum _ (ss_step s) 0 i)|reflexivity].
Qed.
Lemma inv_vec m p q : m < List.length (ha_modes a) -> veq (m_dims (get_mode a m)) p q -> inv_ok lax (get_mode a m) p -> inv_ok lax (get_mode a m) q.
Proof.
  intros Hm Hv HI c Hc. destruct WH as [WM _]. specialize (WM m Hm). unfold m_dims in Hv. destruct (m_a (get_mode a m)) as [x|]; [|rewrite WM in Hc; destruct Hc].
  destruct (wfm_inv _ _ WM c Hc) as [_ Hcols]. rewrite <- (reval_ext_lt _ _ _ _ Hcols Hv). apply HI. exact Hc.
Qed.
Lemma inv_core_point s x : st_ok solve a s x -> (forall p, in_lp (ss_lpi s) p -> inv_ok lax (get_mode a (ss_mode s)) p) -> m_b (get_mode a (ss_mode s)) = None ->
  forall y, core_sat (ss_lpi s) y -> inv_ok lax (get_mode a (ss_mode s)) (mapply (m_bm (get_mode a (ss_mode s)) (ss_step s)) (x0_of (ss_lpi s) y)).
Proof.
  intros S HI Hb y Hy. destruct (st_wf solve Hsolve _ _ _ S) as [WL _]. destruct (core_to_sat_eq _ _ _ _ _ WL Hy) as (z & Hz & He). pose proof (cur_dval s x z S Hz) as HD.
  assert (Hm := st_mode _ _ _ _ S). assert (Ha := st_a _ _ _ _ S). assert (W : wf_mode (get_mode a (ss_mode s)) x). { destruct WH as [WH' _]. specialize (WH' _ Hm). rewrite Ha in WH'. exact WH'. }
  assert (Hd := st_dims _ _ _ _ S).
  apply (inv_vec _ (fun i => z (l_cvo (ss_lpi s) + i))); [exact Hm| |].
  - unfold m_dims. rewrite Ha. intros i Hi. rewrite (HD i Hi). unfold dval. rewrite Hb, Qplus_0_r. rewrite (bm_of_sem _ _ W _ _ i Hi).
    apply (mapply_ext (c_nr x) (c_nr x)); [apply (wfm_bm _ _ W)|exact Hi|]. intros c Hc. unfold x0_of. pose proof (wf_bmc _ _ _ _ WL) as Q0. rewrite He by (left; lia). reflexivity.
  - apply HI. exists z. split; [exact Hz|]. intros i Hi. reflexivity.
Qed.

(** ** the whole LP: the last segment *)
Definition full_seg (s : sset) (x : vec) : seg :=
  mkSeg (ss_mode s) (start_of (ss_lpi s) x) (end_of (ss_lpi s) x) (ss_step s) None []
        (rev (if m_nu (get_mode a (ss_mode s)) =? 0 then [] else blocks x (uoff (ss_lpi s)) (m_nu (get_mode a (ss_mode s))) (ss_step s))).

Lemma TR_full s pre x : TR s pre -> core_sat (ss_lpi s) x -> exists H,
  (forall rest, ce_names a (pre ++ ss_step s :: rest) [] (combine (l_names (ss_lpi s)) (vals x 0 (l_nc (ss_lpi s)))) = Ok (H ++ [full_seg s x])) /\
  past H (ss_mode s) (x0_of (ss_lpi s) x) /\ map sg_steps H = pre.
Proof.
  intros T Hx. destruct (tr_names _ _ T) as (N & N1 & N2 & N3). destruct (N3 x Hx) as (H & H1 & H2 & H3). exists H. split; [|auto]. intro rest.
  unfold l_nc. rewrite N2, app_length, N1, vals_app, combine_app by (rewrite vals_length; exact N1). rewrite ce_names_app, H1. cbn [bind].
  rewrite inp_names_length. unfold full_seg. destruct (Nat.eqb_spec (m_nu (get_mode a (ss_mode s))) 0) as [E|E].
  - rewrite E, inp_names_0. cbn. reflexivity.
  - rewrite Nat.add_0_l, run_inputs by lia. unfold sg_with_inputs. cbn [sg_mode sg_start sg_end sg_steps sg_trans sg_mink sg_inputs]. rewrite app_nil_r. reflexivity.
Qed.

Lemma full_moves s x pre y : st_ok solve a s x -> TR s pre -> lp_sat (ss_lpi s) y -> seg_moves lax a (full_seg s y).
Proof.
  intros S T Hy. assert (Hm := st_mode _ _ _ _ S). assert (Ha := st_a _ _ _ _ S). assert (Hd := st_dims _ _ _ _ S).
  set (m := get_mode a (ss_mode s)) in *. assert (W : wf_mode m x). { destruct WH as [WH' _]. specialize (WH' _ Hm). fold m in WH'. rewrite Ha in WH'. exact WH'. }
  assert (Hdm : m_dims m = c_nr x) by (unfold m_dims; rewrite Ha; reflexivity).
  destruct (st_wf solve Hsolve _ _ _ S) as [WL _]. assert (Hc : core_sat (ss_lpi s) y) by (apply (wf_sat _ _ _ _ _ WL) in Hy; tauto).
  pose proof (cur_dval s x y S Hy) as HD. fold m in HD. pose proof (tr_bc _ _ T) as Hbc. rewrite Hd in Hbc.
  set (k := ss_step s) in *. set (nu := m_nu m) in *. set (o := uoff (ss_lpi s)) in *.
  set (ins := rev (if nu =? 0 then [] else blocks y o nu k)).
  (* chronological inputs *)
  set (U := fun c => of_list (nth c ins [])).
  assert (HU : forall c, c < k -> veq nu (U c) (fun i => y (o + nu * (k - 1 - c) + i))).
  { intros c Hck i Hi. unfold U, ins. destruct (Nat.eqb_spec nu 0) as [E|E]; [lia|]. rewrite rev_nth by (unfold blocks; rewrite map_length, seq_length; exact Hck).
    unfold blocks at 1 2. rewrite map_length, seq_length. replace (k - Datatypes.S c) with (k - 1 - c) by lia.
    rewrite (nth_indep _ [] (vals y (o + nu * 0) nu)) by (rewrite map_length, seq_length; lia). rewrite (map_nth (fun j => vals y (o + nu * j) nu)), seq_nth by lia. rewrite of_vals by exact Hi. reflexivity. }
  unfold seg_moves. cbn [full_seg sg_mode sg_inputs sg_steps sg_start sg_end]. fold m nu k o ins.
  assert (Hu : forall c, c < k -> input_ok m (U c)).
  { intros c Hck. pose proof (tr_inp _ _ T y Hc (k - 1 - c) ltac:(unfold k in *; lia)) as K. fold m o nu in K. unfold input_ok in *.
    pose proof (wfm_ie _ _ W) as WI. unfold nu, m_nu in *. destruct (m_b m) as [[[b uc] ur]|]; [|exact Logic.I]. destruct WI as (Huc & _ & Hnc & _). eapply poly_ext_lt; [exact Huc| |exact K].
    apply veq_sym. apply HU; exact Hck. }
  split.
  - unfold ins, nu, m_nu. destruct (m_b m) as [[[b uc] ur]|]; [|reflexivity]. destruct (Nat.eqb_spec (c_nc uc) 0) as [E|E]; [left; exact E|right]. rewrite rev_length. unfold blocks. rewrite map_length, seq_length. reflexivity.
  - exists (fun j => dval m (c_nr x) j (x0_of (ss_lpi s) y) (fun i => U (j - 1 - i))). rewrite Hdm. split; [|split].
    + intros i Hi. unfold dval, bm_of. cbn [Nat.eqb isum]. rewrite (mapply_ident _ _ _ Hi). unfold start_of. rewrite of_vals by lia. unfold x0_of. destruct (m_b m); ring.
    + intros i Hi. unfold end_of. rewrite of_vals by lia. rewrite (HD i Hi). unfold dval. destruct (m_b m) as [[[b uc] ur]|] eqn:Eb; [|reflexivity]. apply Qplus_comp; [reflexivity|].
      apply isum_ext. intros j Hj. pose proof (wfm_ie _ _ W) as WI. rewrite Eb in WI. destruct WI as (_ & _ & Hnc & Hmd & _). apply (mapply_ext (c_nr x) (c_nc uc)); [apply Hmd|exact Hi|].
      assert (Enu : c_nc uc = nu) by (unfold nu, m_nu; rewrite Eb; reflexivity). rewrite Enu. eapply veq_trans; [apply HU; lia|]. intros c Hcc. replace (k - 1 - (k - 1 - j)) with j by lia. reflexivity.
    + intros j Hj. split; [|split].
      * destruct (m_b m) as [bu|] eqn:Eb.
        { intros c Hcc. unfold m in *. rewrite Hinp in Hcc; [destruct Hcc|exact Hm|congruence]. }
        apply (inv_vec _ (mapply (m_bm m j) (x0_of (ss_lpi s) y))); [exact Hm| |apply (tr_inv _ _ T Eb y Hc j Hj)].
        fold m. rewrite Hdm. intros i Hi. unfold dval. rewrite Eb, Qplus_0_r. symmetry. apply (bm_of_sem _ _ W _ _ i Hi).
      * apply Hu. exact Hj.
      * pose proof (dval_S m x Ha W j (x0_of (ss_lpi s) y) (fun i => U (j - 1 - i)) (U j)) as K.
        eapply (one_step_ext m x Ha W); [apply veq_refl| |exact K]. apply (dval_us_ext m x). intros i Hi. destruct i as [|i]; [f_equal; lia|]. f_equal. lia.
Qed.
End T.
