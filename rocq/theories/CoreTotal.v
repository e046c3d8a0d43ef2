(** The steps of the computation do not fail on bounded sets: taking transitions (for C66). *)
From Verif Require Import Base BaseFacts LpModel LpSpec SetSpec LpUtil LpFacts LpWf SetFacts SetFacts2 MinkFacts OpsFacts OpsFacts2 OpsFacts3 OpsFacts4 AggFacts ChullFacts
  ApiSpec ApiFacts Automaton StateSet HybridSpec FlowFacts StateSpec StateFacts StateFacts2 StateFacts3 AutoFacts BuildFacts CoreModel HeapFacts Prop_Sets CoreOps Bounded Bounded2 Bounded3 Bounded4 Bounded5 Bounded6 Bounded7.
From Coq Require Import Lia Lqa Setoid QArith.Qabs.
Open Scope nat_scope.

(** what an analysis needs of the automaton beyond well-formedness: shapes that agree, bounded input sets and bounded, non-empty
    Minkowski-sum sets *)
Definition mode_fits (m : mode) : Prop :=
  inputs_bnd m /\ forall x, m_a m = Some x -> csr_ok x /\ c_nc x = c_nr x /\ (inject_Z (Z.of_nat (c_nr x)) <= 10000000)%Q.
Definition trans_fits (a : ha) (t : trans) : Prop :=
  (forall g rhs, t_guard t = Some (g, rhs) -> c_nc g = m_dims (get_mode a (t_from t))) /\
  match t_mink t with
  | None => True
  | Some (M, C, d) => post_dims a t <= c_nr M /\ c_nr C = List.length d /\ poly_bnd C d /\ exists y, poly (c_rows C) d y
  end.
Definition fits (a : ha) : Prop :=
  (forall m, m < List.length (ha_modes a) -> mode_fits (get_mode a m)) /\ (forall t, t < List.length (ha_trans a) -> trans_fits a (get_trans a t)).

Section WithSolver.
Variable solve : solver.
Hypothesis Hsolve : solver_ok solve.
Hypothesis Hcomp : solver_complete solve.
Variable arnoldi : nat -> option (list Q) -> csr -> option csr -> nat -> list (list Q).
Hypothesis Harn : forall k ctr am r n, Forall (fun row => List.length row = n) (arnoldi k ctr am r n).
Variable cf : cfg.
Variable a : ha.
Hypothesis WH : wf_ha a.
Hypothesis HF : fits a.
Hypothesis Hnum : 0 < cf_num cf.

(** ** was_tt_taken *)
Lemma find_opposite_total test inv w r : (forall c, In c inv -> lc_w c = w) -> exists b, find_opposite test inv w r = Ok b.
Proof.
  induction inv as [|c inv IH]; intro H; cbn [find_opposite]; [eauto|]. destruct (IH (fun c0 Hc => H c0 (or_intror Hc))) as (b & Eb). destruct (test _); [|eauto].
  unfold opposite. rewrite (H c (or_introl eq_refl)), Nat.eqb_refl. cbn [negb bind]. match goal with |- context [if ?x then Ok true else _] => destruct x end; eauto.
Qed.
Lemma affine_total eps vars : forall l, agg_in (l_dims l) l -> (forall v, In v vars -> v < l_dims l) -> exists o b, affine_check solve l vars eps = Ok (with_obj l o, b) /\ obj_ok (with_obj l o).
Proof.
  induction vars as [|v vars IH]; intros l A Hv; cbn [affine_check].
  - exists (l_obj l), true. assert (E : with_obj l (l_obj l) = l) by (destruct l; reflexivity). rewrite E. split; [reflexivity|]. apply A.
  - pose proof A as (F & _ & X). pose proof F as ((C & V) & _ & B). pose proof (Hv v (or_introl eq_refl)) as Hv0.
    destruct (set_min_dir_total l (map (fun n => if Nat.eqb n v then 1%Q else 0%Q) (seq 0 (l_dims l))) V) as (l1 & E1 & O1 & o1 & ->); [rewrite map_length, seq_length; lia|]. rewrite E1. cbn [bind].
    destruct (minimize_total_sat solve Hsolve Hcomp (with_obj l o1) (Some [l_cvo (with_obj l o1) + v])) as (mn & Em); [exact C|exact O1|exact B|intros cs Ecs c Hc; injection Ecs as <-; destruct Hc as [<-|[]]; unfold l_nc in *; cbn [l_names with_obj l_cvo]; lia|exact X|].
    rewrite Em. cbn [bind].
    destruct (set_min_dir_total (with_obj l o1) (map (fun n => if Nat.eqb n v then (-1)%Q else 0%Q) (seq 0 (l_dims l))) V) as (l2 & E2 & O2 & o2 & ->); [rewrite map_length, seq_length; cbn; lia|]. rewrite E2. cbn [bind]. rewrite with_obj_twice in *.
    destruct (minimize_total_sat solve Hsolve Hcomp (with_obj l o2) (Some [l_cvo (with_obj l o2) + v])) as (mx & Ex); [exact C|exact O2|exact B|intros cs Ecs c Hc; injection Ecs as <-; destruct Hc as [<-|[]]; unfold l_nc in *; cbn [l_names with_obj l_cvo]; lia|exact X|].
    rewrite Ex. cbn [bind].
    assert (Sh : forall ll cc vv, minimize solve ll (Some [cc]) true = Ok (Some vv) -> exists q, vv = [q]).
    { intros ll cc vv H. unfold minimize in H. destruct (solve ll); try discriminate. apply bind_ok in H as (u & _ & H). injection H as <-. cbn. eauto. }
    destruct (Sh _ _ _ Em) as (q1 & ->). destruct (Sh _ _ _ Ex) as (q2 & ->).
    destruct (_ || _); [exists o2, false; split; [reflexivity|exact O2]|].
    destruct (IH (with_obj l o2)) as (o3 & b & E3 & O3); [apply agg_in_obj; assumption|intros v' Hv'; apply (Hv v'); right; exact Hv'|].
    rewrite with_obj_twice in *. exists o3, b. split; [exact E3|exact O3].
Qed.

Lemma dedup_in xs : forall acc v, In v (fold_left dedup_add xs acc) -> In v acc \/ In v xs.
Proof.
  induction xs as [|x xs IH]; intros acc v H; cbn [fold_left] in H; [left; exact H|]. apply IH in H as [H|H]; [|right; right; exact H].
  unfold dedup_add in H. destruct (in_nat x acc); [left; exact H|]. apply in_app_or in H as [H|[H|[]]]; [left; exact H|right; left; exact H].
Qed.
Lemma affine_vars x r v : csr_ok x -> c_nc x = c_nr x ->
  In v (fold_left dedup_add (flat_map (fun v0 => map fst (filter (fun e => negb (Qeq_bool (snd e) 0)) (nth v0 (c_rows x) []))) (map fst (filter (fun e => negb (Qeq_bool (snd e) 0)) (r : srow)))) []) -> v < c_nr x.
Proof.
  intros Hok Hsq H. apply dedup_in in H as [[]|H]. apply in_flat_map in H as (v0 & _ & H). apply in_map_iff in H as (e & <- & H). apply filter_In in H as [H _].
  pose proof (nth_csr_row x v0 Hok) as L. unfold row_cols_lt in L. rewrite Forall_forall in L. rewrite <- Hsq. exact (L e H).
Qed.
Lemma tt_rows_total m x tv eps w rows : forall l rhs rv, m_a m = Some x -> csr_ok x -> c_nc x = c_nr x -> w = c_nr x -> (forall c, In c (m_inv m) -> lc_w c = w) -> agg_in w l -> List.length rows = List.length rhs ->
  exists o b, tt_rows solve m tv l w eps rows rhs rv = Ok (with_obj l o, b) /\ obj_ok (with_obj l o).
Proof.
  induction rows as [|r rows IH]; intros l rhs rv Hx Hok Hsq Hw Hi A Hl.
  - cbn [tt_rows]. exists (l_obj l), rv. assert (E : with_obj l (l_obj l) = l) by (destruct l; reflexivity). rewrite E. split; [reflexivity|apply A].
  - destruct rhs as [|b rhs]; [discriminate|]. cbn [tt_rows]. assert (Hl' : List.length rows = List.length rhs) by (cbn in Hl; lia).
    assert (Ef : exists fo, (if row_only tv r then find_opposite (fun c => negb (Qle_bool eps (Qabs (c - -1 * b)))) (m_inv m) w r else Ok false) = Ok fo).
    { destruct (row_only tv r); [apply find_opposite_total; exact Hi|eauto]. }
    destruct Ef as (fo & Ef). rewrite Ef. cbn [bind]. destruct fo; cbn [negb]; [|apply IH; assumption].
    rewrite Hx. pose proof A as (F & Dl & X).
    destruct (affine_total eps (fold_left dedup_add (flat_map (fun v0 => map fst (filter (fun e => negb (Qeq_bool (snd e) 0)) (nth v0 (c_rows x) []))) (map fst (filter (fun e => negb (Qeq_bool (snd e) 0)) r))) []) l) as (o & ok & Ea & Oa).
    { rewrite Dl. exact A. }
    { intros v Hv. apply affine_vars in Hv; [|assumption|assumption]. lia. }
    rewrite Ea. cbn [bind]. assert (A1 : agg_in w (with_obj l o)) by (apply agg_in_obj; assumption).
    destruct ok; [|destruct (IH (with_obj l o) rhs rv Hx Hok Hsq Hw Hi A1 Hl') as (o2 & b2 & E2 & O2); rewrite with_obj_twice in *; eauto].
    pose proof F as ((C & V) & _ & B).
    destruct (set_min_dir_total (with_obj l o) (dense_of r w) V) as (l1 & E1 & O1 & o1 & ->); [rewrite dense_of_length; cbn; lia|]. rewrite E1. cbn [bind]. rewrite with_obj_twice in *.
    assert (Hcols : forall o' cs, Some (seq (l_cvo (with_obj l o)) (l_dims (with_obj l o))) = Some cs -> forall c, In c cs -> c < l_nc (with_obj l o')).
    { intros o' cs Ecs c Hc. injection Ecs as <-. apply in_seq in Hc. unfold l_nc in *. cbn [l_cvo l_dims with_obj l_names] in *. lia. }
    destruct (minimize_total_sat solve Hsolve Hcomp (with_obj l o1) (Some (seq (l_cvo (with_obj l o)) (l_dims (with_obj l o))))) as (mn & Em); [exact C|exact O1|exact B|apply Hcols|exact X|]. rewrite Em. cbn [bind].
    destruct (set_min_dir_total (with_obj l o1) (map (fun v => (-1 * v)%Q) (dense_of r w)) V) as (l2 & E2 & O2 & o2 & ->); [rewrite map_length, dense_of_length; cbn; lia|]. rewrite E2. cbn [bind]. rewrite with_obj_twice in *.
    destruct (minimize_total_sat solve Hsolve Hcomp (with_obj l o2) (Some (seq (l_cvo (with_obj l o)) (l_dims (with_obj l o))))) as (mx & Ex); [exact C|exact O2|exact B|apply Hcols|exact X|]. rewrite Ex. cbn [bind].
    replace (w =? l_dims (with_obj l o)) with true by (symmetry; apply Nat.eqb_eq; cbn; lia). cbn [negb].
    match goal with |- exists o b, tt_rows _ _ _ _ _ _ _ _ ?RV = _ /\ _ => destruct (IH (with_obj l o2) rhs RV Hx Hok Hsq Hw Hi) as (o3 & b3 & E3 & O3); [apply agg_in_obj; assumption|exact Hl'|] end.
    rewrite with_obj_twice in *. eauto.
Qed.
Lemma was_tt_total t l : t < List.length (ha_trans a) -> agg_in (m_dims (get_mode a (t_from (get_trans a t)))) l -> exists o b, was_tt_taken solve a l (get_trans a t) (cf_step cf) (cf_num cf) = Ok (with_obj l o, b) /\ obj_ok (with_obj l o).
Proof.
  intros Ht A. pose proof (proj2 WH t Ht) as WT. destruct (proj2 HF t Ht) as [FG _]. unfold was_tt_taken. destruct (Nat.eqb_spec (cf_num cf) 0); [lia|].
  destruct (wft_guard _ _ WT) as (g & rhs & Eg & Hg & Hr & _). rewrite Eg. specialize (FG g rhs Eg).
  destruct (wft_from _ _ WT) as [F1 F2]. destruct (is_error_a _ F2) as (x & Hx). destruct (proj1 HF _ F1) as [_ FM]. destruct (FM x Hx) as (A1 & A2 & _).
  assert (Em : m_dims (get_mode a (t_from (get_trans a t))) = c_nr x) by (apply m_dims_eq; exact Hx). rewrite Em in FG, A. rewrite FG.
  apply (tt_rows_total _ x); auto. pose proof (proj1 WH _ F1) as W. rewrite Hx in W. intros c Hc. apply (wfm_inv _ _ W c Hc).
Qed.

(** ** make_op_transition *)
Lemma pre_total tl : lp_fine tl -> (exists p, in_lp tl p) -> exists o ctr, pretransition solve cf tl = Ok (Some (with_obj tl o, ctr)) /\ lp_fine (with_obj tl o).
Proof.
  intros F X. assert (E0 : with_obj tl (l_obj tl) = tl) by (destruct tl; reflexivity). unfold pretransition.
  destruct (cf_strat cf) as [g|]; [|exists (l_obj tl), None; rewrite E0; auto].
  destruct (ag_kind g); [exists (l_obj tl), None; rewrite E0; auto| |exists (l_obj tl), None; rewrite E0; auto].
  destruct (center_total solve Hsolve Hcomp tl F X) as (o & c & E & F'). rewrite E. cbn [bind fst snd]. eauto.
Qed.

Lemma make_op_total c t tl sid nid : t < List.length (ha_trans a) -> api solve tl None -> lp_fine tl -> l_dims tl = m_dims (get_mode a (t_from (get_trans a t))) -> (exists p, in_lp tl p) ->
  exists s' ctr, make_op_transition solve cf a c t tl sid nid = Ok (with_ops (with_states c (c_states c ++ [s'])) (c_ops c ++ [new_op c t sid nid ctr]), Some (nO c)) /\
    ss_mode s' = t_to (get_trans a t) /\ (is_error (get_mode a (ss_mode s')) = false -> live solve a s') /\ (exists p, in_lp (ss_lpi s') p) /\ ss_conc s' = ss_conc (getS c sid).
Proof.
  intros Ht Hap F Hd X. pose proof (proj2 WH t Ht) as WT. destruct (proj2 HF t Ht) as [_ FM].
  assert (T : exists s' ctr c', make_op_transition solve cf a c t tl sid nid = Ok (c', Some (nO c)) /\ c' = with_ops (with_states c (c_states c ++ [s'])) (c_ops c ++ [new_op c t sid nid ctr]) /\
     (is_error (get_mode a (t_to (get_trans a t))) = false -> live solve a s')).
  { unfold make_op_transition. destruct (pre_total tl F X) as (o & ctr & Ep & F1). rewrite Ep. cbn [bind].
    destruct (wft_reset _ _ WT) as [HR HR2]. destruct (wft_mink _ _ WT) as [HM HM2]. set (tr := get_trans a t) in *.
    assert (Hpd : c_nr (match t_reset tr with None => ident_csr (l_dims (with_obj tl o)) | Some r => r end) = post_dims a tr).
    { unfold post_dims. destruct (t_reset tr); [reflexivity|]. unfold ident_csr, c_nr. cbn [c_rows]. rewrite map_length, seq_length. cbn [l_dims with_obj]. exact Hd. }
    assert (Hw : c_nc (match t_reset tr with None => ident_csr (l_dims (with_obj tl o)) | Some r => r end) = l_dims (with_obj tl o)).
    { destruct (t_reset tr) as [R|] eqn:ER; [|reflexivity]. cbn [l_dims with_obj]. rewrite Hd. apply HR2. reflexivity. }
    assert (Hpos : 0 < c_nr (match t_reset tr with None => ident_csr (l_dims (with_obj tl o)) | Some r => r end)).
    { rewrite Hpd. unfold post_dims. destruct (t_reset tr) as [R|] eqn:ER; [apply HR2; reflexivity|]. destruct (wft_from _ _ WT) as [G1 G2]. destruct (is_error_a _ G2) as (x & Hx). fold tr in Hx.
      rewrite (m_dims_eq _ _ Hx). pose proof (proj1 WH _ G1) as W. fold tr in W. rewrite Hx in W. apply (wfm_pos _ _ W). }
    assert (HS : mink_shape (c_nr (match t_reset tr with None => ident_csr (l_dims (with_obj tl o)) | Some r => r end)) (t_mink tr)).
    { rewrite Hpd. unfold mink_shape. destruct (t_mink tr) as [[[M C] d]|]; [|exact Logic.I]. tauto. }
    assert (HB : mink_bnd (t_mink tr)) by (unfold mink_bnd; destruct (t_mink tr) as [[[M C] d]|]; [tauto|exact Logic.I]).
    destruct (reset_total (with_obj tl o) (t_to tr) (t_index tr) (t_reset tr) (t_mink tr) (has_inputs (get_mode a (t_to tr))) (proj1 F1) HR HM Hw Hpos HS) as (l2 & E2). rewrite E2. cbn [bind].
    destruct (reset_cb _ _ _ _ _ _ _ 0 F1 HR HM HB E2 Hpos) as (W2 & B2 & O2).
    pose proof (reset_shape _ _ _ _ _ _ _ HM E2 Hpos) as (_ & _ & _ & _ & _ & Hd2 & _ & _ & Hie2). rewrite Hpd in Hd2.
    assert (Hap2 : api solve (with_obj tl o) None) by (apply api_objective; exact Hap).
    assert (Hpos2 : 0 < l_dims l2) by (rewrite Hd2, <- Hpd; exact Hpos).
    assert (F2 : lp_fine l2) by (split; [exact (wf_lp_ok _ _ _ _ W2)|split; [exact O2|exact (cb_lb _ _ _ _ _ W2 B2)]]).
    assert (X2 : exists x, lp_sat l2 x).
    { destruct X as (p & Hp). destruct (C07_reset_exact solve Hsolve _ _ _ _ _ _ _ _ Hap2 HR HM E2 Hpos2) as [_ He].
      assert (K : exists y, match t_mink tr with None => True | Some (M, C, d) => poly (c_rows C) d y end).
      { destruct (t_mink tr) as [[[M C] d]|]; [|exists vzero; exact Logic.I]. destruct FM as (_ & _ & _ & (y & Hy)). exists y. exact Hy. }
      destruct K as (y & Hy).
      assert (Hp' : exists p', reset_image (l_dims l2) (t_reset tr) (t_mink tr) p p').
      { unfold reset_image. eexists (fun i => (match t_reset tr with None => p i | Some R => reval (nth i (c_rows R) []) p end + match t_mink tr with None => 0 | Some (M, _, _) => reval (nth i (c_rows M) []) y end)%Q).
        exists y. split; [exact Hy|]. intros i Hi. reflexivity. }
      destruct Hp' as (p' & Hp'). assert (Q2 : in_lp l2 p') by (apply He; exists p; split; [apply in_lp_with_obj; exact Hp|exact Hp']). destruct Q2 as (x & Hx & _). exists x. exact Hx. }
    rewrite (feasible_sat solve Hsolve Hcomp l2 (proj1 (proj1 F2)) O2 (proj2 (proj2 F2)) X2). cbn [bind].
    destruct (is_error (get_mode a (t_to tr))) eqn:Ee.
    - destruct (new_stateset_err a l2 (t_to tr) (ss_lo (getS c sid)) (ss_hi (getS c sid)) (Some [nO c]) (ss_conc (getS c sid))) as (s' & Es); [unfold is_error in Ee; destruct (m_a _); [discriminate|reflexivity]|].
      rewrite Es. cbn [bind]. exists s', ctr. eexists. split; [reflexivity|]. split; [reflexivity|discriminate].
    - destruct (is_error_a _ Ee) as (x & Hx).
      assert (Hdx : l_dims l2 = c_nr x) by (rewrite Hd2, (wft_dims _ _ WT Ee); apply m_dims_eq; exact Hx).
      destruct (new_stateset_total a l2 (t_to tr) (ss_lo (getS c sid)) (ss_hi (getS c sid)) (Some [nO c]) (ss_conc (getS c sid)) x 0 [] Hx W2 Hpos2 Hdx) as (s' & Es).
      rewrite Es. cbn [bind]. exists s', ctr. eexists. split; [reflexivity|]. split; [reflexivity|]. intros _.
      refine (new_live solve Hsolve a l2 (t_to tr) _ _ _ _ s' x WH (wft_to _ _ WT) Hx _ Hdx B2 O2 _ Es).
      + rewrite <- Hdx. eapply api_reset; eauto.
      + intro Hb. rewrite Hie2. unfold has_inputs. destruct (m_b (get_mode a (t_to tr))); [eauto|congruence]. }
  destruct T as (s' & ctr & c' & E & Ec & L). destruct (make_op_ok solve Hsolve cf a WH c t tl sid nid c' _ Ht Hap Hd X E) as (s2 & ctr2 & _ & Ec2 & Em & _ & _ & _ & Ecn & _ & _ & _ & _ & _ & Xs).
  rewrite Ec2 in Ec. assert (Es : s2 = s').
  { apply (f_equal c_states) in Ec. cbn [with_ops with_states c_states] in Ec. apply app_inj_tail in Ec. apply Ec. }
  subst s2. exists s', ctr2. rewrite E, Ec2. split; [reflexivity|]. split; [exact Em|]. split; [rewrite Em; exact L|]. split; [exact Xs|exact Ecn].
Qed.
End WithSolver.
