(** A clock x' = v, v' = 0.  Mode "a" (x <= 2) leaves to "c" when x >= 2 (time triggered); mode "b" leaves to "err" when
    x >= 1.  Initial states in "a" and in "b", both with x = 0, v = 1. *)
From Verif Require Import Base BaseFacts LpModel LpSpec SetSpec LpUtil ApiSpec ApiFacts Solver Automaton StateSet HybridSpec CoreModel CoreSpec Ex_Core.
Open Scope Q_scope.

Definition exT_mat : csr := mkCsr 2 [[(1%nat, 1)]; []].
Definition exT_bm (k : nat) : mat := [[1; inject_Z (Z.of_nat k)]; [0; 1]].
Definition exT_mode (name : string) (inv : list lincon) : mode := mkMode name (Some exT_mat) None inv exT_bm (fun _ => []).
Definition exT_tr (name : string) (f t : nat) (g : Q) : trans := mkTrans name f t (Some (mkCsr 2 [[(0%nat, -(1))]], [-g])) None None false 0.
Definition exT : ha :=
  mkHa [exT_mode "a" [mkLc [(0%nat, 1)] 2 2]; exT_mode "b" []; exT_mode "c" []; exC_err]
       [exT_tr "t0" 0 2 2; exT_tr "t1" 1 3 1].

Lemma exT_bm_ok k p i : (i < 2)%nat -> (mapply (exT_bm k) p i == (match i with O => p 0%nat + inject_Z (Z.of_nat k) * p 1%nat | _ => p 1%nat end))%Q.
Proof. intro Hi. destruct i as [|[|i]]; [| |lia]; unfold mapply, mrow, exT_bm; cbn [nth ldot Nat.add]; ring. Qed.
Lemma exT_mode_wf name inv : (forall c, In c inv -> lc_w c = 2%nat /\ row_cols_lt 2 (lc_row c)) -> wf_mode (exT_mode name inv) exT_mat.
Proof.
  intro Hi. assert (ES : forall k, inject_Z (Z.of_nat (S k)) == 1 + inject_Z (Z.of_nat k)) by (intro k; rewrite Nat2Z.inj_succ; unfold Z.succ; rewrite inject_Z_plus; change (inject_Z 1) with 1; ring).
  constructor; cbn [m_inv m_bm m_b m_ie exT_mode]; change (c_nr exT_mat) with 2%nat.
  - lia.
  - exact Hi.
  - intro k. split; [split; [reflexivity|repeat constructor]|]. intros p i Hlt. rewrite !exT_bm_ok by auto.
    destruct i as [|[|i]]; [| |lia]; rewrite ?exT_bm_ok by lia; rewrite ?ES; change (inject_Z (Z.of_nat 0)) with 0; ring.
  - intros p i Hlt. rewrite exT_bm_ok by auto. change (inject_Z (Z.of_nat 0)) with 0. destruct i as [|[|i]]; [| |lia]; ring.
  - exact Logic.I.
Qed.
Lemma exT_wf : wf_ha exT.
Proof.
  split.
  - intros i Hi. destruct i as [|[|[|[|i]]]]; [| | | |cbn in Hi; lia].
    + apply exT_mode_wf. intros c [<-|[]]. split; [reflexivity|]. repeat constructor.
    + apply exT_mode_wf. intros c [].
    + apply exT_mode_wf. intros c [].
    + reflexivity.
  - intros t Ht. destruct t as [|[|t]]; [| |cbn in Ht; lia]; unfold get_trans; cbn [nth ha_trans exT exT_tr].
    + constructor; cbn [t_from t_to t_guard t_reset t_mink exT exT_tr].
      * split; [cbn; lia|reflexivity].
      * cbn; lia.
      * eexists; eexists. split; [reflexivity|]. repeat constructor.
      * split; [exact Logic.I|discriminate].
      * split; [exact Logic.I|auto].
      * reflexivity.
    + constructor; cbn [t_from t_to t_guard t_reset t_mink exT exT_tr].
      * split; [cbn; lia|reflexivity].
      * cbn; lia.
      * eexists; eexists. split; [reflexivity|]. repeat constructor.
      * split; [exact Logic.I|discriminate].
      * split; [exact Logic.I|auto].
      * discriminate.
Qed.
Definition exT_l (m : nat) := getr lp_new (from_box fm_solver [(0, 0); (1, 1)] m false).
Definition exT_s (m : nat) := getr dss0 (new_stateset exT (exT_l m) m 0 0 None true).
Lemma exT_l_ok m : (m < 2)%nat -> from_box fm_solver [(0, 0); (1, 1)] m false = Ok (exT_l m).
Proof. intro H. destruct m as [|[|m]]; [| |lia]; vm_compute; reflexivity. Qed.
Lemma exT_s_ok m : (m < 2)%nat -> new_stateset exT (exT_l m) m 0 0 None true = Ok (exT_s m).
Proof. intro H. destruct m as [|[|m]]; [| |lia]; vm_compute; reflexivity. Qed.
Lemma exT_init : Forall (init_ok fm_solver exT) [exT_s 0; exT_s 1].
Proof.
  assert (K : forall m, (m < 2)%nat -> init_ok fm_solver exT (exT_s m)).
  { intros m Hm. assert (H := exT_l_ok m Hm). exists (exT_l m), m. split; [cbn; lia|]. split; [apply exT_s_ok; exact Hm|].
    assert (Hd : l_dims (exT_l m) = 2%nat) by (destruct m as [|[|m]]; [| |lia]; vm_compute; reflexivity).
    assert (Em : m_a (get_mode exT m) = Some exT_mat /\ m_nu (get_mode exT m) = 0%nat) by (destruct m as [|[|m]]; [| |lia]; split; reflexivity).
    destruct Em as [-> ->]. split; [|exact Hd]. change (c_nr exT_mat) with 2%nat. rewrite <- Hd.
    unfold from_box in H. apply bind_ok in H as (? & _ & H). eapply api_from_constraints; [| |exact H|lia]; [repeat constructor|exact Logic.I]. }
  constructor; [apply K; lia|]. constructor; [apply K; lia|constructor].
Qed.
(** 2 steps, default settings, no aggregation; [tt]: optimize_tt_transitions *)
Definition exT_cf (opt : bool) : cfg := mkCfg 2 1 false true opt true false true true None.
Lemma exT_reach : error_reachable 0 (mkRules false 2 (fun _ => false) false) exT (init_of_list [exT_s 0; exT_s 1]).
Proof.
  exists 1%nat, (of_list [1; 1]), 1%nat, 1%nat. split; [cbn; lia|]. split; [reflexivity|]. split; [|split; [|split; [left; lia|discriminate]]].
  - eapply R_step with (p := of_list [0; 1]) (u := fun _ => 0); [apply R_init|intros c []|cbn; lia|discriminate|exact Logic.I|].
    + exists (exT_s 1). split; [right; left; reflexivity|]. split; [vm_compute; reflexivity|].
      replace (ss_lpi (exT_s 1)) with (exT_l 1) by (vm_compute; reflexivity).
      destruct (SetFacts2.from_box_in fm_solver fm_solver_ok _ _ _ _ (exT_l_ok 1 ltac:(lia))) as (_ & Hb & _). apply Hb.
      intros i lb ub Hn. destruct i as [|[|i]]; cbn in Hn; [| |destruct i; discriminate]; injection Hn as <- <-; cbn; lra.
    + intros c [].
    + intros i Hi. change (m_dims (get_mode exT (t_from (get_trans exT 1)))) with 2%nat in Hi. cbn [m_b m_bm get_mode nth ha_modes exT exT_mode get_trans ha_trans exT_tr t_from].
      rewrite exT_bm_ok by exact Hi. change (inject_Z (Z.of_nat 1)) with 1. destruct i as [|[|i]]; [| |lia]; cbn; ring.
  - intros i r c Hr Hc. destruct i as [|i]; cbn in Hr, Hc; [|destruct i; discriminate]. injection Hr as <-. injection Hc as <-. cbn. lra.
Qed.
