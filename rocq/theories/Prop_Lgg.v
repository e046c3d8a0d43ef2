(** C46, the steps after apply_approx_model under APPROX_LGG. *)
From Verif Require Import Base BaseFacts LpModel LpSpec SetSpec LpUtil ApiSpec LpFacts SetFacts Solver Automaton StateSet HybridSpec StateSpec FlowFacts StateFacts AutoFacts BuildFacts ChullFacts ApiFacts ApproxFacts FreshFacts Approx Lgg LggFacts CorePop Prop_Automaton Ex_Core Ex_Approx Ex_Lgg.
From Coq Require Import Lia Lqa.
Open Scope list_scope.
Open Scope nat_scope.

(** the input matrix: one row per state variable, columns in range *)
Definition inputs_fit (m : mode) : Prop := match m_b m with Some (b, _, _) => csr_ok b /\ c_nr b = m_dims m | None => True end.
(** p' is reached from p by j steps: each multiplies by the matrix exponential, adds tau times an admissible velocity B u and a vector with entries of absolute value at most be *)
Inductive lgg_path (m : mode) (tau be : Q) (p : vec) : nat -> vec -> Prop :=
| LP_start z : veq (m_dims m) p z -> lgg_path m tau be p 0 z
| LP_step j q v w z : lgg_path m tau be p j q -> velocity m v -> (forall i, i < m_dims m -> (- be <= w i <= be)%Q) ->
    (forall i, i < m_dims m -> (z i == mapply (m_bm m 1) q i + tau * v i + w i)%Q) -> lgg_path m tau be p (S j) z.

Lemma path_flow m tau be p j z : lgg_path m tau be p j z <-> lgg_flow m tau be j p z.
Proof.
  split.
  - induction 1 as [z H|j q v w z _ IH Hv Hw Hz]; cbn [lgg_flow]; [exact H|]. exists q, v, w. auto.
  - revert z. induction j as [|j IH]; intros z H; cbn [lgg_flow] in H; [constructor; exact H|]. destruct H as (q & v & w & F & Hv & Hw). eapply LP_step; [apply IH; exact F|exact Hv| |]; intros i Hi; apply Hw; exact Hi.
Qed.

Section P.
Variable solve : solver.
Hypothesis Hsolve : solver_ok solve.
Variable a : ha.
Hypothesis WH : wf_ha a.

Lemma lgg_some qexp tau s s' be : apply_approx_lgg solve qexp tau a s = Ok (s', Some be) -> m_b (get_mode a (ss_mode s)) <> None.
Proof.
  unfold apply_approx_lgg. intros H Eb. unfold has_inputs in H. rewrite Eb in H.
  apply bind_ok in H as (x & _ & H). apply bind_ok in H as (x1 & _ & H). apply bind_ok in H as (x2 & _ & H). apply bind_ok in H as (x3 & _ & H). apply bind_ok in H as (x4 & _ & H).
  cbn [bind] in H. apply bind_ok in H as (x5 & _ & H). apply bind_ok in H as (x6 & _ & H). rewrite Bool.andb_false_r in H. apply ok_inj in H. discriminate.
Qed.

(** Under APPROX_LGG, once apply_approx_model has computed beta, the set computed k steps after the first segment S' is exactly E^k S' + the sums of E^i (tau V + [-beta, beta]^n), i < k, V the admissible
    velocities, for any sequence of calls of step; without beta (no inputs, or a dynamics matrix of norm at most 1e-7) it is the set of states reached from S' by k steps of the mode. *)
Theorem C46_lgg_later_steps qexp tau s s' o sk : sset_run solve a s -> no_rows s -> inputs_fit (get_mode a (ss_mode s)) ->
  apply_approx_model solve qexp tau ApLgg a s = Ok (s', o) -> lgg_run o (after_lgg o tau a (ss_mode s)) s' sk ->
  ss_mode sk = ss_mode s /\ ss_lo sk = ss_lo s + ss_step sk /\ ss_hi sk = ss_hi s + ss_step sk /\
  forall z, in_lp (ss_lpi sk) z <-> exists p, in_lp (ss_lpi s') p /\
    match o with Some be => lgg_path (get_mode a (ss_mode s)) tau be p (ss_step sk) z | None => flow (get_mode a (ss_mode s)) (ss_step sk) p z end.
Proof.
  intros R HN Hb H L. unfold apply_approx_model in H. apply bind_ok in H as (e1 & E & H). apply assert_ok in E. apply Nat.eqb_eq in E. apply bind_ok in H as (e2 & _ & H).
  destruct (run_st solve Hsolve a s WH R) as (x0 & St). assert (Hm := st_mode _ _ _ _ St). assert (Ea := st_a _ _ _ _ St). set (m := get_mode a (ss_mode s)) in *.
  assert (Wm : wf_mode m x0). { destruct WH as [W _]. specialize (W _ Hm). fold m in W. rewrite Ea in W. exact W. }
  assert (En : m_dims m = c_nr x0) by (unfold m_dims; rewrite Ea; reflexivity).
  assert (Hb' : match m_b m with Some (b, _, _) => csr_ok b | None => True end) by (unfold inputs_fit in Hb; destruct (m_b m) as [[[b uc] ur]|]; [apply Hb|exact Logic.I]).
  destruct (approx_lgg_set solve Hsolve a WH qexp tau s x0 s' o St E Hb' H) as (rx & rv & _ & _ & l2 & D2 & (G2 & lf & Hl & Es) & _). fold m in D2. rewrite En in D2.
  assert (Em : ss_mode s' = ss_mode s) by (rewrite Es; reflexivity). assert (E0 : ss_step s' = 0) by (rewrite Es; exact E). assert (HN' : no_rows s') by (rewrite Es; exact HN).
  assert (Lo : ss_lo s' = ss_lo s /\ ss_hi s' = ss_hi s) by (rewrite Es; split; reflexivity).
  destruct o as [be|]; cbn [after_lgg] in L.
  - destruct (m_b m) as [[[b uc] ur]|] eqn:Eb; [|destruct (lgg_some _ _ _ _ _ H Eb)].
    assert (St' : st_ok solve (vauto tau be a (ss_mode s)) s' x0).
    { refine (lgg_st solve Hsolve a _ s x0 s' lf l2 St E HN D2 G2 _ _ _ _ Hl Es).
      - apply vauto_len.
      - rewrite vauto_a by exact Hm. exact Ea.
      - rewrite vget, Nat.eqb_refl by exact Hm. reflexivity.
      - rewrite vget, Nat.eqb_refl by exact Hm. unfold vmode. cbn [m_b]. fold m. rewrite Eb. split; discriminate. }
    rewrite <- Em in L, St', Hm. assert (Hbm : b_ok (get_mode a (ss_mode s'))) by (rewrite Em; exact Hb).
    destruct (lgg_run_sim solve Hsolve tau be a s' x0 sk WH E0 Hbm Hm HN' St' L) as (sv & (Sn & Ss) & _ & _ & Mv & Lv & Hv & Fv).
    assert (Q1 : ss_step sv = ss_step sk) by (rewrite Ss; reflexivity). assert (Q2 : ss_mode sv = ss_mode sk) by (rewrite Ss; reflexivity). assert (Q3 : ss_lo sv = ss_lo sk) by (rewrite Ss; reflexivity). assert (Q4 : ss_hi sv = ss_hi sk) by (rewrite Ss; reflexivity).
    rewrite Q1 in *. destruct Lo as [Lo1 Lo2]. split; [congruence|]. split; [congruence|]. split; [congruence|]. intro z. rewrite <- (simn_in _ _ z Sn). rewrite Fv, Em. fold m. split; intros (p & Hp & F); exists p; (split; [exact Hp|]).
    + apply path_flow. apply (vflow tau be m x0 b uc ur Wm Ea Eb Hb). exact F.
    + apply (vflow tau be m x0 b uc ur Wm Ea Eb Hb). apply path_flow. exact F.
  - assert (St' : st_ok solve a s' x0). { refine (lgg_st solve Hsolve a a s x0 s' lf l2 St E HN D2 G2 eq_refl Ea eq_refl _ Hl Es). reflexivity. }
    destruct (plain_run solve Hsolve a s' x0 sk WH E0 HN' St' L) as (_ & _ & Mv & Lv & Hv & Fv). destruct Lo as [Lo1 Lo2]. split; [congruence|]. split; [congruence|]. split; [congruence|]. intro z. rewrite Fv, Em. reflexivity.
Qed.

(** Once a mode has switched, a state set of this mode that did not go through apply_approx_model (a child made by deaggregation: core.py:278 is the only call) cannot be advanced: AssertionError *)
Theorem C46_lgg_without_beta_refuted tau s k x b uc ur : sset_run solve a s -> m_a (get_mode a (ss_mode s)) = Some x -> m_b (get_mode a (ss_mode s)) = Some (b, uc, ur) -> inputs_fit (get_mode a (ss_mode s)) ->
  ss_step s < k -> ss_step_beta None (use_lgg tau a (ss_mode s)) s k = Err EAssert.
Proof.
  intros R Ea Eb Hb Hk. destruct (run_st solve Hsolve a s WH R) as (x0 & St). assert (Ea0 := st_a _ _ _ _ St). assert (x0 = x) by congruence. subst x0.
  refine (no_beta tau a (ss_mode s) s k x b uc ur WH (st_mode _ _ _ _ St) eq_refl Ea Eb Hb (st_dims _ _ _ _ St) _ Hk). rewrite (st_ies _ _ _ _ St), Eb. discriminate.
Qed.
End P.
Lemma exG_fit : inputs_fit (get_mode exG (ss_mode exG_s)).
Proof. split; [repeat constructor|reflexivity]. Qed.
(** x' = x + u, |u| <= 1, a step doubles x, [0, 3]; exp(1) taken as 3: alpha = 4, beta = 1, the first segment reaches 11, the next steps 24 and 50 *)
Example C46_lgg_later_steps_witness : apply_approx_model fm_solver (fun _ => 3%Q) 1 ApLgg exG exG_s = Ok (fst exG_a, Some 1%Q) /\ lgg_run (Some 1%Q) (after_lgg (Some 1%Q) 1 exG 0) (fst exG_a) exG_2 /\ ss_step exG_2 = 2 /\
  in_lp (ss_lpi exG_2) (fun _ => 50%Q) /\ (forall z, in_lp (ss_lpi exG_2) z -> (z 0%nat <= 50)%Q) /\
  exists p, in_lp (ss_lpi (fst exG_a)) p /\ lgg_path exG_mode 1 1 p 2 (fun _ => 50%Q).
Proof.
  assert (H1 : apply_approx_model fm_solver (fun _ => 3%Q) 1 ApLgg exG exG_s = Ok (fst exG_a, Some 1%Q)) by (vm_compute; reflexivity).
  assert (H2 : lgg_run (Some 1%Q) (after_lgg (Some 1%Q) 1 exG 0) (fst exG_a) exG_2).
  { apply LR_step with (t := exG_1) (k := 2); [|vm_compute; reflexivity]. apply LR_step with (t := fst exG_a) (k := 1); [|vm_compute; reflexivity]. constructor. }
  assert (H3 : in_lp (ss_lpi exG_2) (fun _ => 50%Q)). { exists (top (ss_lpi exG_2)). split; [apply satb_ok; vm_compute; reflexivity|]. intros i Hi. vm_compute in Hi. destruct i; [vm_compute; reflexivity|lia]. }
  split; [exact H1|]. split; [exact H2|]. split; [vm_compute; reflexivity|]. split; [exact H3|]. split.
  - intros z Hz. apply (lowest_ok _ (-1)%Q (-50)%Q) in Hz; [lra|vm_compute; reflexivity|vm_compute; lia|vm_compute; lia].
  - assert (K := C46_lgg_later_steps fm_solver fm_solver_ok exG exG_wf (fun _ => 3%Q) 1 exG_s (fst exG_a) (Some 1%Q) exG_2 exG_s_run exG_norows exG_fit H1 H2).
    destruct K as (_ & _ & _ & K). apply K in H3. exact H3.
Qed.
Example C46_lgg_without_beta_witness : sset_run fm_solver exG exG_s /\ ss_step_beta None (use_lgg 1 exG 0) exG_s 1 = Err EAssert.
Proof. split; [exact exG_s_run|]. vm_compute. reflexivity. Qed.
