(** Literal runs for C61: deaggregation loses the hull; a hull is reported as a concrete error. *)
From Verif Require Import Base BaseFacts LpModel LpSpec SetSpec LpUtil ApiSpec Automaton StateSet HybridSpec StateSpec CoreModel CoreSpec Approx CoreApprox Solver Ex_Core Ex_Approx.
Open Scope nat_scope.
(** modes a, b: x doubles; a -> b when x = 2; b -> err when 5/2 <= x <= 3 *)
Definition exH_mode (s : string) := mkMode s (Some exL_mat) None [] (fun k => [[pow2 k]]) (fun _ => []).
Definition exH_tr (s : string) (f t : nat) (lo hi : Q) : trans := exC_tr s f t (mkCsr 1 [[(0, 1%Q)]; [(0, (-1)%Q)]], [hi; (- lo)%Q]) 0.
Definition exH : ha := mkHa [exH_mode "a"; exH_mode "b"; exC_err] [exH_tr "t0" 0 1 2 2; exH_tr "t1" 1 2 (5 # 2) 3].
Definition exH_l := Eval vm_compute in getr lp_new (from_box fm_solver [(1, 1)%Q] 0 false).
Definition exH_s : sset := getr dss0 (new_stateset exH exH_l 0 0 0 None true).
Definition exH_cf (dg : bool) : cfg := mkCfg 3 1 true true true true false true false (Some (mkAgg ABox PAvg false true dg DMost)).
Definition exH_run dg := run_ap fm_solver arn0 (fun q => q) ApChull (exH_cf dg) exH [exH_s] 40.
Definition exH_okb : bool := match exH_run true with Some (Ok c) => c_aggerr c && negb (c_concerr c) | _ => false end.
Lemma exH_ok : exists c, run_ap fm_solver arn0 (fun q => q) ApChull (exH_cf true) exH [exH_s] 40 = Some (Ok c) /\ c_aggerr c = true /\ c_concerr c = false.
Proof.
  assert (H : exH_okb = true) by (vm_compute; reflexivity). unfold exH_okb, exH_run in H. destruct (run_ap _ _ _ _ _ _ _ _) as [[c|]|]; try discriminate H.
  apply andb_true_iff in H as [H1 H2]. apply negb_true_iff in H2. exists c. auto.
Qed.
Lemma exH_mode_wf s : wf_mode (exH_mode s) exL_mat.
Proof.
  constructor; cbn [m_inv m_bm m_b m_ie exH_mode]; change (c_nr exL_mat) with 1%nat.
  - lia.
  - intros c [].
  - intro k. split; [split; [reflexivity|repeat constructor]|]. intros p i Hi'. rewrite !exL_app by exact Hi'. cbn [pow2]. rewrite !Qred_correct. ring.
  - intros p i Hi'. rewrite exL_app by exact Hi'. cbn [pow2]. ring.
  - exact Logic.I.
Qed.
Lemma exH_wf : wf_ha exH.
Proof.
  split.
  - intros i Hi. destruct i as [|[|[|i]]]; [apply exH_mode_wf|apply exH_mode_wf|reflexivity|cbn in Hi; lia].
  - intros t Ht. destruct t as [|[|t]]; [| |cbn in Ht; lia]; unfold get_trans; cbn [nth ha_trans exH exH_tr exC_tr]; (constructor; cbn [t_from t_to t_guard t_reset t_mink exH exH_tr exC_tr];
      [split; [cbn; lia|reflexivity]|cbn; lia|eexists; eexists; split; [reflexivity|]; repeat constructor|split; [exact Logic.I|discriminate]|split; [exact Logic.I|auto]|first [discriminate|reflexivity]]).
Qed.
Lemma exH_l_api : api fm_solver exH_l (Some (ident 1, 0, [], [])).
Proof.
  assert (H : from_box fm_solver [(1, 1)%Q] 0 false = Ok exH_l) by (vm_compute; reflexivity). unfold from_box in H. apply bind_ok in H as (? & _ & H).
  change 1%nat with (l_dims exH_l) at 1. eapply api_from_constraints; [| |exact H|cbn; lia]; [repeat constructor|exact Logic.I].
Qed.
Lemma exH_init : Forall (init_ok fm_solver exH) [exH_s].
Proof. constructor; [|constructor]. exists exH_l, 0. split; [cbn; lia|]. split; [vm_compute; reflexivity|]. cbn [get_mode exH ha_modes nth m_a exH_mode]. split; [exact exH_l_api|reflexivity]. Qed.

(** x1, x2 turn by 180 degrees at every step, y doubles; from x1 in [-1, 1], x2 = 0, y = 1; to the error mode when x1 >= 1/2 and 11/8 <= y <= 13/8 *)
Fixpoint sgn (k : nat) : Q := match k with 0 => 1%Q | S k => (- sgn k)%Q end.
Definition exK_mat := mkCsr 3 [[(1, (-1)%Q)]; [(0, 1%Q)]; [(2, 1%Q)]].
Definition exK_bm (k : nat) : mat := [[sgn k; 0; 0]; [0; sgn k; 0]; [0; 0; pow2 k]]%Q.
Definition exK_mode := mkMode "m" (Some exK_mat) None [] exK_bm (fun _ => []).
Definition exK : ha := mkHa [exK_mode; exC_err] [exC_tr "t" 0 1 (mkCsr 3 [[(0, (-1)%Q)]; [(2, 1%Q)]; [(2, (-1)%Q)]], [(-(1 # 2))%Q; (13 # 8)%Q; (-(11 # 8))%Q]) 0].
Definition exK_l := Eval vm_compute in getr lp_new (from_box fm_solver [(-1, 1); (0, 0); (1, 1)]%Q 0 false).
Definition exK_s : sset := getr dss0 (new_stateset exK exK_l 0 0 0 None true).
Definition exK_cf : cfg := mkCfg 2 1 true true true true false true false None.
Lemma exK_bm_ok k p i : i < 3 -> (mapply (exK_bm k) p i == (if (i =? 2)%nat then pow2 k else sgn k) * p i)%Q.
Proof. intro Hi. destruct i as [|[|[|i]]]; [| | |lia]; unfold mapply, mrow, exK_bm; cbn [nth ldot Nat.add Nat.eqb]; ring. Qed.
Lemma exK_wf : wf_ha exK.
Proof.
  split.
  - intros i Hi. destruct i as [|[|i]]; [|reflexivity|cbn in Hi; lia]. change (wf_mode exK_mode exK_mat). constructor; cbn [m_inv m_bm m_b m_ie exK_mode]; change (c_nr exK_mat) with 3%nat.
    + lia.
    + intros c [].
    + intro k. split; [split; [reflexivity|repeat constructor]|]. intros p j Hj. rewrite !exK_bm_ok by exact Hj. destruct j as [|[|[|j]]]; [| | |lia]; cbn [Nat.eqb sgn pow2]; rewrite ?Qred_correct; ring.
    + intros p j Hj. rewrite exK_bm_ok by exact Hj. destruct j as [|[|[|j]]]; [| | |lia]; cbn [Nat.eqb sgn pow2]; ring.
    + exact Logic.I.
  - intros t Ht. destruct t as [|t]; [|cbn in Ht; lia]; unfold get_trans; cbn [nth ha_trans exK exC_tr]; (constructor; cbn [t_from t_to t_guard t_reset t_mink exK exC_tr];
      [split; [cbn; lia|reflexivity]|cbn; lia|eexists; eexists; split; [reflexivity|]; repeat constructor|split; [exact Logic.I|discriminate]|split; [exact Logic.I|auto]|first [discriminate|reflexivity]]).
Qed.
Lemma exK_init : Forall (init_ok fm_solver exK) [exK_s].
Proof.
  constructor; [|constructor]. exists exK_l, 0. split; [cbn; lia|]. split; [vm_compute; reflexivity|]. cbn [get_mode exK ha_modes nth m_a exK_mode]. split; [|reflexivity].
  assert (H : from_box fm_solver [(-1, 1); (0, 0); (1, 1)]%Q 0 false = Ok exK_l) by (vm_compute; reflexivity). unfold from_box in H. apply bind_ok in H as (? & _ & H).
  change (c_nr exK_mat) with (l_dims exK_l). eapply api_from_constraints; [| |exact H|cbn; lia]; [repeat constructor|exact Logic.I].
Qed.
Definition exK_okb : bool := match run_ap fm_solver arn0 (fun q => q) ApChull exK_cf exK [exK_s] 40 with Some (Ok c) => c_concerr c | _ => false end.
Lemma exK_ok : exists c, run_ap fm_solver arn0 (fun q => q) ApChull exK_cf exK [exK_s] 40 = Some (Ok c) /\ c_concerr c = true.
Proof. assert (H : exK_okb = true) by (vm_compute; reflexivity). unfold exK_okb in H. destruct (run_ap _ _ _ _ _ _ _ _) as [[c|]|]; try discriminate H. exists c. auto. Qed.
