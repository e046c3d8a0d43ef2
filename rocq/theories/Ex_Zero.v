(** One variable with a zero dynamics matrix: x' = 0, or with [inp] x' = u, u in [0, 1].  a -> err when x >= [g]. *)
From Verif Require Import Base BaseFacts LpModel LpSpec SetSpec LpUtil ApiSpec ApiFacts Solver Automaton StateSet HybridSpec CoreModel CoreSpec Ex_Core.
Open Scope Q_scope.

Definition exZ_mat : csr := mkCsr 1 [[]].
Definition exZ_inp : csr * csr * list Q := (mkCsr 1 [[(0%nat, 1)]], mkCsr 1 [[(0%nat, 1)]; [(0%nat, -(1))]], [1; 0]).
Definition exZ_mode (inp : bool) : mode := mkMode "a" (Some exZ_mat) (if inp then Some exZ_inp else None) [] (fun _ => [[1]]) (fun _ => [[1]]).
Definition exZ (inp : bool) (g : Q) : ha :=
  mkHa [exZ_mode inp; exC_err] [mkTrans "t" 0 1 (Some (mkCsr 1 [[(0%nat, -(1))]], [-g])) None None false 0].

Lemma exZ_id p i : (i < 1)%nat -> mapply [[1]] p i == p i.
Proof. intro Hi. destruct i; [|lia]. unfold mapply, mrow. cbn [nth ldot]. ring. Qed.
Lemma exZ_wf inp g : wf_ha (exZ inp g).
Proof.
  assert (D : mat_dims 1 1 [[1]]) by (split; [reflexivity|repeat constructor]).
  split.
  - intros i Hi. destruct i as [|[|i]]; [| |cbn in Hi; lia]; [|reflexivity].
    constructor; cbn [m_inv m_bm m_b m_ie exZ_mode get_mode nth ha_modes exZ]; change (c_nr exZ_mat) with 1%nat.
    + lia.
    + intros c [].
    + intro k. split; [exact D|]. intros p i Hi'. rewrite !exZ_id by auto. reflexivity.
    + intros p i Hi'. apply exZ_id. exact Hi'.
    + destruct inp; [|exact Logic.I]. cbn [exZ_inp]. split; [repeat constructor|]. split; [reflexivity|]. split; [reflexivity|]. split; [intro k; exact D|].
      intros k u i Hi'. rewrite !exZ_id by auto. reflexivity.
  - intros t Ht. destruct t as [|t]; [|cbn in Ht; lia]. constructor; cbn [t_from t_to t_guard t_reset t_mink get_trans nth ha_trans exZ].
    + split; [cbn; lia|reflexivity].
    + cbn; lia.
    + eexists; eexists. split; [reflexivity|]. repeat constructor.
    + split; [exact Logic.I|discriminate].
    + split; [exact Logic.I|auto].
    + discriminate.
Qed.
Definition exZ_l (inp : bool) := Eval vm_compute in getr lp_new (from_box fm_solver [(0, 0)] 0 inp).
Definition exZ_s (inp : bool) := getr dss0 (new_stateset (exZ inp 2) (exZ_l inp) 0 0 0 None true).
Lemma exZ_init inp g : Forall (init_ok fm_solver (exZ inp g)) [exZ_s inp].
Proof.
  constructor; [|constructor]. exists (exZ_l inp), 0%nat. split; [cbn; lia|]. split; [destruct inp; vm_compute; reflexivity|].
  cbn [m_a get_mode nth exZ ha_modes exZ_mode]. split; [|destruct inp; reflexivity].
  assert (H : from_box fm_solver [(0, 0)] 0 inp = Ok (exZ_l inp)) by (destruct inp; vm_compute; reflexivity).
  unfold from_box in H. apply bind_ok in H as (? & _ & H). replace (c_nr exZ_mat) with (l_dims (exZ_l inp)) by (destruct inp; reflexivity).
  eapply api_from_constraints; [| |exact H|destruct inp; cbn; lia]; [repeat constructor|exact Logic.I].
Qed.
Lemma exZ_in inp p : p 0%nat == 0 -> in_lp (ss_lpi (exZ_s inp)) p.
Proof.
  intro Hp. assert (H : from_box fm_solver [(0, 0)] 0 inp = Ok (exZ_l inp)) by (destruct inp; vm_compute; reflexivity).
  replace (ss_lpi (exZ_s inp)) with (exZ_l inp) by (destruct inp; vm_compute; reflexivity).
  destruct (SetFacts2.from_box_in fm_solver fm_solver_ok _ _ _ _ H) as (_ & Hb & _). apply Hb.
  intros i lb ub Hn. destruct i as [|i]; cbn in Hn; [injection Hn as <- <-; lra|destruct i; discriminate].
Qed.
(** default settings, no aggregation, 5 steps; [sk]: skip_zero_dynamics_modes *)
Definition exZ_cf (sk : bool) : cfg := mkCfg 5 1 false true false sk false true true None.
(** with inputs: x = 0, 1, 2 *)
Lemma exZ_reach : error_reachable 0 (mkRules false 5 (fun _ => false) false) (exZ true 2) (init_of_list [exZ_s true]).
Proof.
  assert (S1 : forall n, (n < 5)%nat -> reach 0 (mkRules false 5 (fun _ => false) false) (exZ true 2) (init_of_list [exZ_s true]) 0 (fun _ => inject_Z (Z.of_nat n)) n n ->
             reach 0 (mkRules false 5 (fun _ => false) false) (exZ true 2) (init_of_list [exZ_s true]) 0 (fun _ => inject_Z (Z.of_nat (S n))) (S n) (S n)).
  { intros n Hn R. eapply R_step with (u := fun _ => 1); [exact R|intros c []|cbn; lia|discriminate| |].
    - intros i r c Hr Hc. cbn in Hr, Hc. destruct i as [|[|i]]; cbn in Hr, Hc; [| |destruct i; discriminate]; injection Hr as <-; injection Hc as <-; cbn; lra.
    - intros i Hi. change (m_dims (get_mode (exZ true 2) 0)) with 1%nat in Hi. cbn [m_b m_bm m_ie get_mode nth ha_modes exZ exZ_mode]. rewrite !exZ_id by auto.
      rewrite Nat2Z.inj_succ. unfold Z.succ. rewrite inject_Z_plus. change (inject_Z 1) with 1. reflexivity. }
  exists 0%nat, (fun _ => 2), 2%nat, 2%nat. split; [cbn; lia|]. split; [reflexivity|]. split; [|split; [|split; [left; lia|discriminate]]].
  - apply (S1 1%nat); [lia|]. apply (S1 0%nat); [lia|]. apply R_init; [|intros c []]. exists (exZ_s true). split; [left; reflexivity|]. split; [vm_compute; reflexivity|]. apply exZ_in. reflexivity.
  - intros i r c Hr Hc. destruct i as [|i]; cbn in Hr, Hc; [|destruct i; discriminate]. injection Hr as <-. injection Hc as <-. cbn. lra.
Qed.
(** without inputs: guard x >= 0, one step later *)
Lemma exZ_reach0 n : (0 < n)%nat -> error_reachable 0 (mkRules false n (fun _ => false) false) (exZ false 0) (init_of_list [exZ_s false]).
Proof.
  intro Hn. exists 0%nat, (fun _ => 0), 1%nat, 1%nat. split; [cbn; lia|]. split; [reflexivity|]. split; [|split; [|split; [left; lia|discriminate]]].
  - eapply R_step with (p := fun _ => 0) (u := fun _ => 0); [apply R_init|intros c []|cbn; lia|discriminate|exact Logic.I|].
    + exists (exZ_s false). split; [left; reflexivity|]. split; [vm_compute; reflexivity|]. apply exZ_in. reflexivity.
    + intros c [].
    + intros i Hi. cbn [m_b m_bm get_mode nth ha_modes exZ exZ_mode]. rewrite exZ_id by exact Hi. reflexivity.
  - intros i r c Hr Hc. destruct i as [|i]; cbn in Hr, Hc; [|destruct i; discriminate]. injection Hr as <-. injection Hc as <-. cbn. lra.
Qed.
