(** Two more clock automata for the time-triggered optimisation.

    [exS f g]: clock x' = v, v' = 0; mode "a" (x <= 2) leaves to "c" when x >= 2; mode f ("a" or "c") leaves to "err" when x >= g; initially
    x = 0, v = 1 in "a".
    [exW]: x' = v - w, y' = w, v' = w' = 0; mode "a" (x <= 2) leaves to "c" when x >= 2 and to "err" when y >= 2; initially x = 2, v = 1, y = 0, w = 1. *)
From Verif Require Import Base BaseFacts LpModel LpSpec SetSpec LpUtil ApiSpec ApiFacts Solver Automaton StateSet HybridSpec CoreModel CoreSpec Ex_Core Ex_TT.
Open Scope Q_scope.

Definition exS (f : nat) (g : Q) : ha :=
  mkHa [exT_mode "a" [mkLc [(0%nat, 1)] 2 2]; exT_mode "c" []; exC_err] [exT_tr "t0" 0 1 2; exT_tr "t1" f 2 g].
Lemma exS_wf f g : (f < 2)%nat -> wf_ha (exS f g).
Proof.
  intro Hf. split.
  - intros i Hi. destruct i as [|[|[|i]]]; [| | |cbn in Hi; lia].
    + apply exT_mode_wf. intros c [<-|[]]. split; [reflexivity|]. repeat constructor.
    + apply exT_mode_wf. intros c [].
    + reflexivity.
  - intros t Ht. destruct t as [|[|t]]; [| |cbn in Ht; lia]; unfold get_trans; cbn [nth ha_trans exS exT_tr].
    + constructor; cbn [t_from t_to t_guard t_reset t_mink exS exT_tr].
      * split; [cbn; lia|reflexivity].
      * cbn; lia.
      * eexists; eexists. split; [reflexivity|]. repeat constructor.
      * split; [exact Logic.I|discriminate].
      * split; [exact Logic.I|auto].
      * reflexivity.
    + destruct f as [|[|f]]; [| |lia].
      all: constructor; cbn [t_from t_to t_guard t_reset t_mink exS exT_tr]; [split; [cbn; lia|reflexivity]|cbn; lia|eexists; eexists; split; [reflexivity|]; repeat constructor|split; [exact Logic.I|discriminate]|split; [exact Logic.I|auto]|discriminate].
Qed.
Definition exS_s := getr dss0 (new_stateset (exS 0 3) (exT_l 0) 0 0 0 None true).
Lemma exS_s_ok f g : new_stateset (exS f g) (exT_l 0) 0 0 0 None true = Ok exS_s.
Proof. vm_compute. reflexivity. Qed.
Lemma exS_init f g : Forall (init_ok fm_solver (exS f g)) [exS_s].
Proof.
  constructor; [|constructor]. assert (H := exT_l_ok 0 ltac:(lia)). exists (exT_l 0), 0%nat. split; [cbn; lia|]. split; [apply exS_s_ok|].
  assert (Hd : l_dims (exT_l 0) = 2%nat) by (vm_compute; reflexivity).
  change (m_a (get_mode (exS f g) 0)) with (Some exT_mat). change (m_nu (get_mode (exS f g) 0)) with 0%nat. split; [|exact Hd]. change (c_nr exT_mat) with 2%nat. rewrite <- Hd.
  unfold from_box in H. apply bind_ok in H as (? & _ & H). eapply api_from_constraints; [| |exact H|lia]; [repeat constructor|exact Logic.I].
Qed.
Lemma exS_in p : in_lp (ss_lpi exS_s) p <-> (p 0%nat == 0 /\ p 1%nat == 1)%Q.
Proof.
  replace (ss_lpi exS_s) with (exT_l 0) by (vm_compute; reflexivity). destruct (SetFacts2.from_box_in fm_solver fm_solver_ok _ _ _ _ (exT_l_ok 0 ltac:(lia))) as (_ & Hb & _). rewrite Hb. split.
  - intro H. destruct (H 0%nat 0 0 eq_refl). destruct (H 1%nat 1 1 eq_refl). split; lra.
  - intros [H0 H1] i lb ub Hn. destruct i as [|[|i]]; cbn in Hn; [| |destruct i; discriminate]; injection Hn as <- <-; lra.
Qed.
(** 4 steps of size 1, no aggregation; [opt]: optimize_tt_transitions *)
Definition exS_cf (opt : bool) : cfg := mkCfg 4 1 false true opt true false true true None.
Definition exS_a (f : nat) (g : Q) : ha := getr (mkHa [] []) (setup_ha (exS_cf true) (exS f g)).

(** in x <= 2 the step from 2 to 3 is possible, but not inside the invariant *)
Lemma exS_reach : error_reachable 0 (mkRules false 4 (fun _ => false) false) (exS 0 3) (init_of_list [exS_s]).
Proof.
  set (ru := mkRules false 4 (fun _ => false) false).
  assert (St : forall x k n, (x <= 2)%Q -> (n < 4)%nat -> reach 0 ru (exS 0 3) (init_of_list [exS_s]) 0 (of_list [x; 1]) k n -> reach 0 ru (exS 0 3) (init_of_list [exS_s]) 0 (of_list [x + 1; 1]) (S k) (S n)).
  { intros x k n Hx Hn R. eapply R_step with (u := fun _ => 0); [exact R| |exact Hn|discriminate|exact Logic.I|].
    - intros c [<-|[]]. left. cbn. lra.
    - intros i Hi. change (m_dims (get_mode (exS 0 3) 0)) with 2%nat in Hi. cbn [m_b m_bm get_mode nth ha_modes exS exT_mode]. rewrite exT_bm_ok by exact Hi. change (inject_Z (Z.of_nat 1)) with 1. destruct i as [|[|i]]; [| |lia]; cbn; ring. }
  exists 1%nat, (of_list [0 + 1 + 1 + 1; 1]), 3%nat, 3%nat. split; [cbn; lia|]. split; [reflexivity|]. split; [|split; [|split; [left; lia|discriminate]]].
  - apply St; [lra|lia|]. apply St; [lra|lia|]. apply St; [lra|lia|]. apply R_init.
    + exists exS_s. split; [left; reflexivity|]. split; [vm_compute; reflexivity|]. apply exS_in. split; reflexivity.
    + intros c [<-|[]]. left. cbn. lra.
  - intros i r c Hr Hc. destruct i as [|i]; cbn in Hr, Hc; [|destruct i; discriminate]. injection Hr as <-. injection Hc as <-. cbn. lra.
Qed.

(** ** a variable that stands still *)
Definition exW_mat : csr := mkCsr 4 [[(1%nat, 1); (3%nat, -(1))]; []; [(3%nat, 1)]; []].
Definition exW_bm (k : nat) : mat := let q := inject_Z (Z.of_nat k) in [[1; q; 0; -q]; [0; 1; 0; 0]; [0; 0; 1; q]; [0; 0; 0; 1]].
Definition exW_mode (name : string) (inv : list lincon) : mode := mkMode name (Some exW_mat) None inv exW_bm (fun _ => []).
Definition exW : ha :=
  mkHa [exW_mode "a" [mkLc [(0%nat, 1)] 4 2]; exW_mode "c" []; exC_err]
       [mkTrans "t0" 0 1 (Some (mkCsr 4 [[(0%nat, -(1))]], [-(2)])) None None false 0; mkTrans "t1" 0 2 (Some (mkCsr 4 [[(2%nat, -(1))]], [-(2)])) None None false 1].
Lemma exW_bm_ok k p i : (i < 4)%nat -> (mapply (exW_bm k) p i == (match i with O => p 0%nat + inject_Z (Z.of_nat k) * (p 1%nat - p 3%nat) | 2%nat => p 2%nat + inject_Z (Z.of_nat k) * p 3%nat | _ => p i end))%Q.
Proof. intro Hi. destruct i as [|[|[|[|i]]]]; [| | | |lia]; unfold mapply, mrow, exW_bm; cbn [nth ldot Nat.add]; ring. Qed.
Lemma exW_mode_wf name inv : (forall c, In c inv -> lc_w c = 4%nat /\ row_cols_lt 4 (lc_row c)) -> wf_mode (exW_mode name inv) exW_mat.
Proof.
  intro Hi. assert (ES : forall k, inject_Z (Z.of_nat (S k)) == 1 + inject_Z (Z.of_nat k)) by (intro k; rewrite Nat2Z.inj_succ; unfold Z.succ; rewrite inject_Z_plus; change (inject_Z 1) with 1; ring).
  constructor; cbn [m_inv m_bm m_b m_ie exW_mode]; change (c_nr exW_mat) with 4%nat.
  - lia.
  - exact Hi.
  - intro k. split; [split; [reflexivity|repeat constructor]|]. intros p i Hlt. rewrite !exW_bm_ok by auto.
    destruct i as [|[|[|[|i]]]]; [| | | |lia]; rewrite ?exW_bm_ok by lia; rewrite ?ES; change (inject_Z (Z.of_nat 0)) with 0; ring.
  - intros p i Hlt. rewrite exW_bm_ok by auto. change (inject_Z (Z.of_nat 0)) with 0. destruct i as [|[|[|[|i]]]]; [| | | |lia]; ring.
  - exact Logic.I.
Qed.
Lemma exW_wf : wf_ha exW.
Proof.
  split.
  - intros i Hi. destruct i as [|[|[|i]]]; [| | |cbn in Hi; lia].
    + apply exW_mode_wf. intros c [<-|[]]. split; [reflexivity|]. repeat constructor.
    + apply exW_mode_wf. intros c [].
    + reflexivity.
  - intros t Ht. destruct t as [|[|t]]; [| |cbn in Ht; lia]; unfold get_trans; cbn [nth ha_trans exW].
    + constructor; cbn [t_from t_to t_guard t_reset t_mink exW]; [split; [cbn; lia|reflexivity]|cbn; lia|eexists; eexists; split; [reflexivity|]; repeat constructor|split; [exact Logic.I|discriminate]|split; [exact Logic.I|auto]|reflexivity].
    + constructor; cbn [t_from t_to t_guard t_reset t_mink exW]; [split; [cbn; lia|reflexivity]|cbn; lia|eexists; eexists; split; [reflexivity|]; repeat constructor|split; [exact Logic.I|discriminate]|split; [exact Logic.I|auto]|discriminate].
Qed.
Definition exW_box : list (Q * Q) := [(2, 2); (1, 1); (0, 0); (1, 1)].
Definition exW_l := getr lp_new (from_box fm_solver exW_box 0 false).
Lemma exW_l_ok : from_box fm_solver exW_box 0 false = Ok exW_l. Proof. vm_compute. reflexivity. Qed.
Definition exW_s := getr dss0 (new_stateset exW exW_l 0 0 0 None true).
Lemma exW_s_ok : new_stateset exW exW_l 0 0 0 None true = Ok exW_s. Proof. vm_compute. reflexivity. Qed.
Lemma exW_init : Forall (init_ok fm_solver exW) [exW_s].
Proof.
  constructor; [|constructor]. assert (H := exW_l_ok). exists exW_l, 0%nat. split; [cbn; lia|]. split; [apply exW_s_ok|].
  assert (Hd : l_dims exW_l = 4%nat) by (vm_compute; reflexivity).
  change (m_a (get_mode exW 0)) with (Some exW_mat). change (m_nu (get_mode exW 0)) with 0%nat. split; [|exact Hd]. change (c_nr exW_mat) with 4%nat. rewrite <- Hd.
  unfold from_box in H. apply bind_ok in H as (? & _ & H). eapply api_from_constraints; [| |exact H|lia]; [repeat constructor|exact Logic.I].
Qed.
Lemma exW_reach : error_reachable 0 (mkRules false 4 (fun _ => false) true) exW (init_of_list [exW_s]).
Proof.
  set (ru := mkRules false 4 (fun _ => false) true).
  assert (Hv : forall y, inv_ok 0 (get_mode exW 0) (of_list [2; 1; y; 1])) by (intros y c [<-|[]]; left; cbn; lra).
  assert (St : forall y k n, (n < 4)%nat -> reach 0 ru exW (init_of_list [exW_s]) 0 (of_list [2; 1; y; 1]) k n -> reach 0 ru exW (init_of_list [exW_s]) 0 (of_list [2; 1; y + 1; 1]) (S k) (S n)).
  { intros y k n Hn R. eapply R_step with (u := fun _ => 0); [exact R|apply Hv|exact Hn|discriminate|exact Logic.I|].
    intros i Hi. change (m_dims (get_mode exW 0)) with 4%nat in Hi. cbn [m_b m_bm get_mode nth ha_modes exW exW_mode]. rewrite exW_bm_ok by exact Hi. change (inject_Z (Z.of_nat 1)) with 1. destruct i as [|[|[|[|i]]]]; [| | | |lia]; cbn; ring. }
  exists 1%nat, (of_list [2; 1; 0 + 1 + 1; 1]), 2%nat, 2%nat. split; [cbn; lia|]. split; [reflexivity|]. split; [|split; [|split; [left; lia|intros _; apply Hv]]].
  - apply St; [lia|]. apply St; [lia|]. apply R_init; [|apply Hv].
    exists exW_s. split; [left; reflexivity|]. split; [vm_compute; reflexivity|].
    replace (ss_lpi exW_s) with exW_l by (vm_compute; reflexivity). destruct (SetFacts2.from_box_in fm_solver fm_solver_ok _ _ _ _ exW_l_ok) as (_ & Hb & _). apply Hb.
    intros i lb ub Hn. destruct i as [|[|[|[|i]]]]; cbn in Hn; [| | | |destruct i; discriminate]; injection Hn as <- <-; cbn; lra.
  - intros i r c Hr Hc. destruct i as [|i]; cbn in Hr, Hc; [|destruct i; discriminate]. injection Hr as <-. injection Hc as <-. cbn. lra.
Qed.

(** exS 0 2 from x = -1/10000: two steps of size 1 end just before the guard *)
Definition exR_box : list (Q * Q) := [(-1 # 10000, -1 # 10000); (1, 1)].
Definition exR_l := getr lp_new (from_box fm_solver exR_box 0 false).
Lemma exR_l_ok : from_box fm_solver exR_box 0 false = Ok exR_l. Proof. vm_compute. reflexivity. Qed.
Definition exR_s := getr dss0 (new_stateset (exS 0 2) exR_l 0 0 0 None true).
Lemma exR_s_ok : new_stateset (exS 0 2) exR_l 0 0 0 None true = Ok exR_s. Proof. vm_compute. reflexivity. Qed.
Lemma exR_init : Forall (init_ok fm_solver (exS 0 2)) [exR_s].
Proof.
  constructor; [|constructor]. assert (H := exR_l_ok). exists exR_l, 0%nat. split; [cbn; lia|]. split; [apply exR_s_ok|].
  assert (Hd : l_dims exR_l = 2%nat) by (vm_compute; reflexivity).
  change (m_a (get_mode (exS 0 2) 0)) with (Some exT_mat). change (m_nu (get_mode (exS 0 2) 0)) with 0%nat. split; [|exact Hd]. change (c_nr exT_mat) with 2%nat. rewrite <- Hd.
  unfold from_box in H. apply bind_ok in H as (? & _ & H). eapply api_from_constraints; [| |exact H|lia]; [repeat constructor|exact Logic.I].
Qed.
Definition exR_cf : cfg := mkCfg 2 1 false true true true false true true None.
Lemma exR_reach lax m p k n : reach lax (mkRules false 2 (fun _ => false) false) (exS 0 2) (init_of_list [exR_s]) m p k n ->
  m = 0%nat /\ k = n /\ (n <= 2)%nat /\ (p 0%nat == inject_Z (Z.of_nat n) - (1 # 10000))%Q /\ (p 1%nat == 1)%Q.
Proof.
  induction 1 as [m p Hi Hv|m p k n u p' R (-> & -> & Hb & H0 & H1) Hv Hn Hc Hu Ho|t p p' k n Ht R (Em & -> & Hb & H0 & H1) Hg Hj Hr].
  - destruct Hi as (s & [<-|[]] & Hm & Hp). replace (ss_lpi exR_s) with exR_l in Hp by (vm_compute; reflexivity). destruct (SetFacts2.from_box_in fm_solver fm_solver_ok _ _ _ _ exR_l_ok) as (_ & Hbx & _). apply Hbx in Hp.
    destruct (Hp 0%nat _ _ eq_refl). destruct (Hp 1%nat _ _ eq_refl). split; [rewrite <- Hm; vm_compute; reflexivity|]. split; [reflexivity|]. split; [lia|]. change (inject_Z (Z.of_nat 0)) with 0. split; lra.
  - split; [reflexivity|]. split; [reflexivity|]. cbn [ru_bound] in Hn. split; [lia|]. assert (K0 := Ho 0%nat ltac:(vm_compute; lia)). assert (K1 := Ho 1%nat ltac:(vm_compute; lia)).
    cbn [m_b m_bm get_mode nth ha_modes exS exT_mode] in K0, K1. rewrite exT_bm_ok in K0, K1 by lia. change (inject_Z (Z.of_nat 1)) with 1 in K0.
    assert (ES : inject_Z (Z.of_nat (S n)) == 1 + inject_Z (Z.of_nat n)) by (rewrite Nat2Z.inj_succ; unfold Z.succ; rewrite inject_Z_plus; change (inject_Z 1) with 1; ring).
    split; [rewrite K0, ES, H0, H1; ring|rewrite K1; lra].
  - exfalso. assert (Hx : (2 <= p 0%nat)%Q).
    { destruct t as [|[|t]]; [| |cbn in Ht; lia]; (assert (K := Hg 0%nat _ _ eq_refl eq_refl)); cbn in K; lra. }
    assert (Hn : (inject_Z (Z.of_nat n) <= 2)%Q) by (change 2 with (inject_Z 2); rewrite <- Zle_Qle; lia). lra.
Qed.
Lemma exR_safe lax : ~ error_reachable lax (mkRules false 2 (fun _ => false) false) (exS 0 2) (init_of_list [exR_s]).
Proof.
  intros (t & p & k & n & Ht & He & R & Hg & _). apply exR_reach in R as (_ & _ & Hb & H0 & _).
  assert (Hx : (2 <= p 0%nat)%Q).
  { destruct t as [|[|t]]; [| |cbn in Ht; lia]; (assert (K := Hg 0%nat _ _ eq_refl eq_refl)); cbn in K; lra. }
  assert (Hn : (inject_Z (Z.of_nat n) <= 2)%Q) by (change 2 with (inject_Z 2); rewrite <- Zle_Qle; lia). lra.
Qed.
