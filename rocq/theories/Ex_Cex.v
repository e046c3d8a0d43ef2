(** Two modes with x' = u, u in [0, 1]; a -> b when x >= 3/2 with x := x/2 + y, y in [0, 1/4]; b -> err when x >= 2. *)
From Verif Require Import Base BaseFacts LpModel LpSpec SetSpec LpUtil ApiSpec ApiFacts Solver Automaton StateSet HybridSpec CoreModel CoreSpec Ex_Core Ex_Zero.
Open Scope Q_scope.

Definition exR_mink : csr * csr * list Q := (mkCsr 1 [[(0%nat, 1)]], mkCsr 1 [[(0%nat, 1)]; [(0%nat, -(1))]], [1#4; 0]).
Definition exR : ha :=
  mkHa [exZ_mode true; exZ_mode true; exC_err]
       [mkTrans "t0" 0 1 (Some (mkCsr 1 [[(0%nat, -(1))]], [-(3#2)])) (Some (mkCsr 1 [[(0%nat, 1#2)]])) (Some exR_mink) false 0;
        mkTrans "t1" 1 2 (Some (mkCsr 1 [[(0%nat, -(1))]], [-(2)])) None None false 0].
Lemma exR_wf : wf_ha exR.
Proof.
  pose proof (proj1 (exZ_wf true 2) 0%nat ltac:(cbn; lia)) as HM. change (m_a (get_mode (exZ true 2) 0)) with (Some exZ_mat) in HM. cbv iota in HM.
  split.
  - intros i Hi. destruct i as [|[|[|i]]]; [exact HM|exact HM|reflexivity|cbn in Hi; lia].
  - intros t Ht. destruct t as [|[|t]]; [| |cbn in Ht; lia]; constructor; cbn [t_from t_to t_guard t_reset t_mink get_trans nth ha_trans exR].
    + split; [cbn; lia|reflexivity].
    + cbn; lia.
    + eexists; eexists. split; [reflexivity|]. repeat constructor.
    + split; [repeat constructor|]. intros r K. injection K as <-. split; [reflexivity|cbn; lia].
    + split; [repeat constructor|discriminate].
    + reflexivity.
    + split; [cbn; lia|reflexivity].
    + cbn; lia.
    + eexists; eexists. split; [reflexivity|]. repeat constructor.
    + split; [exact Logic.I|discriminate].
    + split; [exact Logic.I|auto].
    + discriminate.
Qed.
Lemma exR_init : Forall (init_ok fm_solver exR) [exZ_s true].
Proof.
  pose proof (exZ_init true 2) as H. inversion H as [|? ? (l & m & Hm & Hn & HA) _]; subst. constructor; [|constructor]. exists (exZ_l true), 0%nat. split; [cbn; lia|]. split; [vm_compute; reflexivity|].
  cbn [m_a get_mode nth exR ha_modes exZ_mode]. split; [|reflexivity].
  assert (K : from_box fm_solver [(0, 0)] 0 true = Ok (exZ_l true)) by (vm_compute; reflexivity).
  unfold from_box in K. apply bind_ok in K as (? & _ & K). replace (c_nr exZ_mat) with (l_dims (exZ_l true)) by reflexivity.
  eapply api_from_constraints; [| |exact K|cbn; lia]; [repeat constructor|exact Logic.I].
Qed.
(** the same initial set, as a Minkowski sum *)
Definition exM_l := Eval vm_compute in getr lp_new (minkowski_sum fm_solver [exZ_l false; exZ_l false] 0 true).
Definition exM_s := getr dss0 (new_stateset exR exM_l 0 0 0 None true).
Lemma exM_init : Forall (init_ok fm_solver exR) [exM_s].
Proof.
  constructor; [|constructor]. exists exM_l, 0%nat. split; [cbn; lia|]. split; [vm_compute; reflexivity|].
  cbn [m_a get_mode nth exR ha_modes exZ_mode]. split; [|reflexivity].
  assert (K : minkowski_sum fm_solver [exZ_l false; exZ_l false] 0 true = Ok exM_l) by (vm_compute; reflexivity).
  unfold minkowski_sum in K. apply bind_ok in K as (? & _ & K). cbv zeta in K. replace (c_nr exZ_mat) with (l_dims exM_l) by reflexivity.
  eapply api_from_constraints; [| |exact K|cbn; lia].
  - repeat constructor.
  - split; [reflexivity|]. repeat constructor; discriminate.
Qed.
