(** The mode x' = x + u, |u| <= 1 (one step doubles x), initial set [0, 3], as a state set for APPROX_LGG. *)
From Verif Require Import Base BaseFacts LpModel LpSpec SetSpec LpUtil ApiSpec LpFacts SetFacts Solver Automaton StateSet HybridSpec StateSpec Approx Lgg LggFacts Ex_Core Ex_Approx.
Open Scope nat_scope.
Definition exG_u := mkCsr 1 [[(0, 1%Q)]; [(0, (-1)%Q)]].
Definition exG_mode := mkMode "m" (Some exL_mat) (Some (exL_mat, exG_u, [1%Q; 1%Q])) [] (fun k => [[pow2 k]]) (fun k => [[pow2 (k - 1)]]).
Definition exG := mkHa [exG_mode] [].
Lemma exG_wf : wf_ha exG.
Proof.
  split; [|intros t Ht; cbn in Ht; lia]. intros i Hi. destruct i as [|i]; [|cbn in Hi; lia].
  constructor; cbn [m_inv m_bm m_b m_ie exG_mode get_mode nth ha_modes exG]; change (c_nr exL_mat) with 1%nat.
  - lia.
  - intros c [].
  - intro k. split; [split; [reflexivity|repeat constructor]|]. intros p i Hi'. rewrite !exL_app by exact Hi'. cbn [pow2]. rewrite !Qred_correct. ring.
  - intros p i Hi'. rewrite exL_app by exact Hi'. cbn [pow2]. ring.
  - split; [repeat constructor|]. split; [reflexivity|]. split; [reflexivity|]. split; [intro k; split; [reflexivity|repeat constructor]|].
    intros k u i Hi'. rewrite !exL_app by exact Hi'. replace (S (S k) - 1) with (S k) by lia. replace (S k - 1) with k by lia. cbn [pow2]. rewrite !Qred_correct. ring.
Qed.
Definition exG_l := Eval vm_compute in getr lp_new (from_box fm_solver [(0, 3)%Q] 0 true).
Definition exG_s := getr dss0 (new_stateset exG exG_l 0 0 0 None true).
Lemma exG_l_api : api fm_solver exG_l (Some (ident 1, 1, [], [])).
Proof.
  assert (H : from_box fm_solver [(0, 3)%Q] 0 true = Ok exG_l) by (vm_compute; reflexivity). unfold from_box in H. apply bind_ok in H as (u & _ & H).
  change 1%nat with (l_dims exG_l) at 1. eapply api_from_constraints; [| |exact H|cbn; lia]; [repeat constructor|exact Logic.I].
Qed.
Lemma exG_s_run : sset_run fm_solver exG exG_s.
Proof. apply sr_new with (l := exG_l) (m := 0) (lo := 0) (hi := 0) (ops := None) (conc := true) (x := exL_mat); [cbn; lia|reflexivity|exact exG_l_api|reflexivity|vm_compute; reflexivity]. Qed.
Lemma exG_norows : no_rows exG_s.
Proof. intros j Hj. vm_compute in Hj. destruct Hj. Qed.
Definition exG_a := getr (exG_s, None) (apply_approx_model fm_solver (fun _ => 3%Q) 1 ApLgg exG exG_s).
Definition exG_1 := getr exG_s (ss_step_beta (snd exG_a) (use_lgg 1 exG 0) (fst exG_a) 1).
Definition exG_2 := getr exG_s (ss_step_beta (snd exG_a) (use_lgg 1 exG 0) exG_1 2).
(** the point with the largest x the solver finds *)
Definition top (l : lp) : vec := of_list (match minimize fm_solver (with_obj l [(l_cvo l, (-1)%Q)]) None true with Ok (Some w) => w | _ => [] end).
