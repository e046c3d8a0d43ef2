(** The automaton of Ex_Core.v with the error guard x >= 15/2. *)
From Verif Require Import Base BaseFacts LpModel LpSpec SetSpec LpUtil ApiSpec ApiFacts Solver SetFacts2 Automaton StateSet HybridSpec CoreModel CoreSpec Ex_Core.
Open Scope Q_scope.
Definition exL : ha :=
  mkHa [exC_mode "a" [mkLc [(0%nat, 1)] 3 3]; exC_mode "b" []; exC_err]
       [exC_tr "t0" 0 1 (mkCsr 3 [[(0%nat, -(1))]], [-(2)]) 0; exC_tr "t1" 1 2 (mkCsr 3 [[(0%nat, -(1))]], [-(15 # 2)]) 0].
Open Scope nat_scope.
Lemma exL_wf : wf_ha exL.
Proof.
  split.
  - intros i Hi. destruct i as [|[|[|i]]]; [| | |cbn in Hi; lia].
    + apply exC_mode_wf. intros c [<-|[]]. split; [reflexivity|]. repeat constructor.
    + apply exC_mode_wf. intros c [].
    + reflexivity.
  - intros t Ht. destruct t as [|[|t]]; [| |cbn in Ht; lia]; unfold get_trans; cbn [nth ha_trans exL exC_tr].
    + constructor; cbn [t_from t_to t_guard t_reset t_mink exL exC_tr].
      * split; [cbn; lia|reflexivity].
      * cbn; lia.
      * eexists; eexists. split; [reflexivity|]. repeat constructor.
      * split; [exact Logic.I|discriminate].
      * split; [exact Logic.I|auto].
      * reflexivity.
    + constructor; cbn [t_from t_to t_guard t_reset t_mink exL exC_tr].
      * split; [cbn; lia|reflexivity].
      * cbn; lia.
      * eexists; eexists. split; [reflexivity|]. repeat constructor.
      * split; [exact Logic.I|discriminate].
      * split; [exact Logic.I|auto].
      * discriminate.
Qed.
Lemma exL_init : Forall (init_ok fm_solver exL) [exC_s].
Proof.
  constructor; [|constructor]. exists exC_l, 0. split; [cbn; lia|]. split; [vm_compute; reflexivity|]. cbn [m_a get_mode nth exL ha_modes exC_mode].
  split; [exact exC_api|reflexivity].
Qed.
Lemma exC_s_point m p : init_of_list [exC_s] m p -> m = 0 /\ (p 0%nat == 0 /\ p 2%nat == 1)%Q.
Proof.
  intros (s & [<-|[]] & Hm & Hp). split; [symmetry; exact Hm|]. change (ss_lpi exC_s) with exC_l in Hp.
  assert (H : from_box fm_solver [(0, 0); (0, 0); (1, 1)]%Q 0 false = Ok exC_l) by (vm_compute; reflexivity).
  destruct (from_box_in fm_solver fm_solver_ok _ _ _ _ H) as (_ & Hb & _). apply Hb in Hp.
  pose proof (Hp 0 _ _ eq_refl) as K0. pose proof (Hp 2 _ _ eq_refl) as K2. cbn in K0, K2. split; lra.
Qed.
(** x is the number of elapsed steps, whatever the execution *)
Lemma exL_reach lax ru m p k n : reach lax ru exL (init_of_list [exC_s]) m p k n -> m = 2 \/ (m < 2 /\ (p 0%nat == inject_Z (Z.of_nat n) /\ p 2%nat == 1)%Q /\ n <= ru_bound ru).
Proof.
  induction 1 as [m p Hi Hv|m p k n u p' H IH Hv Hn Hc Hu Ho|t p p' k n Ht H IH Hg Hj Hr].
  - right. destruct (exC_s_point m p Hi) as (-> & H0 & H2). split; [lia|]. split; [split; [rewrite H0; reflexivity|exact H2]|lia].
  - destruct IH as [->|(Hm & (H0 & H2) & Hb)]; [left; reflexivity|right]. split; [exact Hm|]. split; [|lia].
    assert (E : forall i, i < 3 -> (p' i == mapply (exC_bm 1) p i)%Q).
    { intros i Hi. destruct m as [|[|m]]; [| |lia].
      - rewrite (Ho i Hi). cbn [m_b m_bm get_mode nth exL ha_modes exC_mode]. ring.
      - rewrite (Ho i Hi). cbn [m_b m_bm get_mode nth exL ha_modes exC_mode]. ring. }
    rewrite (E 0), (E 2) by lia. rewrite !exC_bm_ok by lia. rewrite H0, H2. split; [|reflexivity].
    change (inject_Z (Z.of_nat 1)) with 1%Q. rewrite (Nat2Z.inj_succ n). unfold Z.succ. rewrite inject_Z_plus. change (inject_Z 1) with 1%Q. ring.
  - destruct t as [|[|t]]; [|left; reflexivity|cbn in Ht; lia]. right. change (t_from (get_trans exL 0)) with 0 in IH. destruct IH as [K|(Hm & (H0 & H2) & Hb)]; [discriminate|].
    split; [cbn; lia|]. split; [|exact Hb]. destruct Hr as (y & _ & Hr). cbn in Hr. pose proof (Hr 0 ltac:(cbn; lia)) as R0. pose proof (Hr 2 ltac:(cbn; lia)) as R2. cbn in R0, R2. split; [rewrite R0, <- H0; ring|rewrite R2, <- H2; ring].
Qed.
Lemma exL_safe lax ru : ru_bound ru <= 7 -> ~ error_reachable lax ru exL (init_of_list [exC_s]).
Proof.
  intros Hb (t & p & k & n & Ht & He & HR & Hg & _). destruct t as [|[|t]]; [discriminate| |cbn in Ht; lia].
  apply exL_reach in HR as [K|(Hm & (H0 & H2) & Hn)]; [discriminate|].
  assert (Hg' : poly [[(0, (-(1))%Q)]] [(-(15 # 2))%Q] p) by exact Hg. pose proof (Hg' 0 _ _ eq_refl eq_refl) as Hx. cbn in Hx.
  assert (Hz : (inject_Z (Z.of_nat n) <= 7)%Q). { change 7%Q with (inject_Z 7). rewrite <- Zle_Qle. lia. }
  rewrite H0 in Hx. lra.
Qed.
