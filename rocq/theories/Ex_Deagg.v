(** Mode "a": x grows by 3/2 and y by 1 per step, from x in [-3/2, -1/2 + 5e-14], y = -1; a -> b when -1/2 <= y <= 3/2, at steps 1 and 2.
    Mode "b" (invariant x <= 1): x - 1 is multiplied by 10^7 per step; b -> err when x + y >= 3/2.
    (m_bm stands for the matrix exponentials; the entry 16 of the matrix of "b" is not read by the analysis, exp(16) is about 9 * 10^6.) *)
From Verif Require Import Base BaseFacts LpModel LpSpec SetSpec LpUtil ApiSpec ApiFacts Solver SetFacts2 Automaton StateSet HybridSpec CoreModel CoreSpec Ex_Core.
Open Scope Q_scope.
Definition exD_amat : csr := mkCsr 3 [[(2%nat, 3 # 2)]; [(2%nat, 1)]; []].
Definition exD_abm (k : nat) : mat := [[1; 0; (3 # 2) * inject_Z (Z.of_nat k)]; [0; 1; inject_Z (Z.of_nat k)]; [0; 0; 1]].
Definition exD_bmat : csr := mkCsr 3 [[(0%nat, 16); (2%nat, -16)]; []; []].
Definition exD_f (k : nat) : Q := inject_Z (10000000 ^ Z.of_nat k).
Definition exD_bbm (k : nat) : mat := [[exD_f k; 0; 1 - exD_f k]; [0; 1; 0]; [0; 0; 1]].
Definition exD_a : mode := mkMode "a" (Some exD_amat) None [] exD_abm (fun _ => []).
Definition exD_b : mode := mkMode "b" (Some exD_bmat) None [mkLc [(0%nat, 1)] 3 1] exD_bbm (fun _ => []).
Definition exD : ha :=
  mkHa [exD_a; exD_b; exC_err]
       [exC_tr "t0" 0 1 (mkCsr 3 [[(1%nat, -(1))]; [(1%nat, 1)]], [1 # 2; 3 # 2]) 0; exC_tr "t1" 1 2 (mkCsr 3 [[(0%nat, -(1)); (1%nat, -(1))]], [-(3 # 2)]) 0].
Definition exD_cf : cfg := mkCfg 3 1 false false false true false true false (Some (mkAgg ABox PAvg false true true DMost)).
Definition exD_box : list (Q * Q) := [(-(3 # 2), -(1 # 2) + (5 # 100000000000000)); (-(1), -(1)); (1, 1)].
Definition exD_l := Eval vm_compute in getr lp_new (from_box fm_solver exD_box 0 false).
Definition exD_s := Eval vm_compute in getr dss0 (new_stateset exD exD_l 0 0 0 None true).
Lemma exD_abm_ok k p i : (i < 3)%nat -> mapply (exD_abm k) p i == (match i with O => p 0%nat + (3 # 2) * inject_Z (Z.of_nat k) * p 2%nat | S O => p 1%nat + inject_Z (Z.of_nat k) * p 2%nat | _ => p 2%nat end).
Proof. intro Hi. destruct i as [|[|[|i]]]; [| | |lia]; unfold mapply, mrow, exD_abm; cbn [nth ldot Nat.add]; ring. Qed.
Lemma exD_bbm_ok k p i : (i < 3)%nat -> mapply (exD_bbm k) p i == (match i with O => exD_f k * p 0%nat + (1 - exD_f k) * p 2%nat | S O => p 1%nat | _ => p 2%nat end).
Proof. intro Hi. destruct i as [|[|[|i]]]; [| | |lia]; unfold mapply, mrow, exD_bbm; cbn [nth ldot Nat.add]; ring. Qed.
Lemma exD_f_S k : exD_f (S k) == exD_f 1 * exD_f k.
Proof. unfold exD_f. rewrite Nat2Z.inj_succ, Z.pow_succ_r by lia. rewrite inject_Z_mult. reflexivity. Qed.
Lemma exD_a_wf : wf_mode exD_a exD_amat.
Proof.
  assert (ES : forall k, inject_Z (Z.of_nat (S k)) == 1 + inject_Z (Z.of_nat k)) by (intro k; rewrite Nat2Z.inj_succ; unfold Z.succ; rewrite inject_Z_plus; change (inject_Z 1) with 1; ring).
  constructor; cbn [m_inv m_bm m_b m_ie exD_a]; change (c_nr exD_amat) with 3%nat.
  - lia.
  - intros c [].
  - intro k. split; [split; [reflexivity|repeat constructor]|]. intros p i Hlt. rewrite !exD_abm_ok by auto.
    destruct i as [|[|[|i]]]; [| | |lia]; rewrite ?exD_abm_ok by lia; rewrite ?ES; change (inject_Z (Z.of_nat 0)) with 0; ring.
  - intros p i Hlt. rewrite exD_abm_ok by auto. change (inject_Z (Z.of_nat 0)) with 0. destruct i as [|[|[|i]]]; [| | |lia]; ring.
  - exact Logic.I.
Qed.
Lemma exD_b_wf : wf_mode exD_b exD_bmat.
Proof.
  constructor; cbn [m_inv m_bm m_b m_ie exD_b]; change (c_nr exD_bmat) with 3%nat.
  - lia.
  - intros c [<-|[]]. split; [reflexivity|]. repeat constructor.
  - intro k. split; [split; [reflexivity|repeat constructor]|]. intros p i Hlt. rewrite !exD_bbm_ok by auto.
    pose proof (exD_f_S k) as E. destruct i as [|[|[|i]]]; [| | |lia]; rewrite ?exD_bbm_ok by lia; set (f1 := exD_f 1) in *; set (fk := exD_f k) in *; set (fs := exD_f (S k)) in *; clearbody f1 fk fs; [rewrite E; ring|ring|ring].
  - intros p i Hlt. rewrite exD_bbm_ok by auto. change (exD_f 0) with 1. destruct i as [|[|[|i]]]; [| | |lia]; ring.
  - exact Logic.I.
Qed.
Open Scope nat_scope.
Lemma exD_wf : wf_ha exD.
Proof.
  split.
  - intros i Hi. destruct i as [|[|[|i]]]; [| | |cbn in Hi; lia].
    + apply exD_a_wf.
    + apply exD_b_wf.
    + reflexivity.
  - intros t Ht. destruct t as [|[|t]]; [| |cbn in Ht; lia]; unfold get_trans; cbn [nth ha_trans exD exC_tr].
    + constructor; cbn [t_from t_to t_guard t_reset t_mink exD exC_tr].
      * split; [cbn; lia|reflexivity].
      * cbn; lia.
      * eexists; eexists. split; [reflexivity|]. repeat constructor.
      * split; [exact Logic.I|discriminate].
      * split; [exact Logic.I|auto].
      * reflexivity.
    + constructor; cbn [t_from t_to t_guard t_reset t_mink exD exC_tr].
      * split; [cbn; lia|reflexivity].
      * cbn; lia.
      * eexists; eexists. split; [reflexivity|]. repeat constructor.
      * split; [exact Logic.I|discriminate].
      * split; [exact Logic.I|auto].
      * discriminate.
Qed.
Lemma exD_l_ok : from_box fm_solver exD_box 0 false = Ok exD_l. Proof. vm_compute. reflexivity. Qed.
Lemma exD_api : api fm_solver exD_l (Some (ident 3, 0%nat, [], [])).
Proof.
  assert (H := exD_l_ok). unfold from_box in H. apply bind_ok in H as (? & _ & H). change (ident 3) with (ident (l_dims exD_l)). eapply api_from_constraints; [| |exact H|cbn; lia]; [repeat constructor|exact Logic.I].
Qed.
Lemma exD_init : Forall (init_ok fm_solver exD) [exD_s].
Proof.
  constructor; [|constructor]. exists exD_l, 0. split; [cbn; lia|]. split; [vm_compute; reflexivity|]. cbn [m_a get_mode nth exD ha_modes exD_a].
  split; [exact exD_api|reflexivity].
Qed.
Lemma exD_point m p : init_of_list [exD_s] m p -> m = 0 /\ (-(3 # 2) <= p 0%nat <= -(1 # 2) + (5 # 100000000000000) /\ p 1%nat == -(1) /\ p 2%nat == 1)%Q.
Proof.
  intros (s & [<-|[]] & Hm & Hp). split; [symmetry; exact Hm|]. change (ss_lpi exD_s) with exD_l in Hp.
  destruct (from_box_in fm_solver fm_solver_ok _ _ _ _ exD_l_ok) as (_ & Hb & _). apply Hb in Hp.
  pose proof (Hp 0 _ _ eq_refl) as K0. pose proof (Hp 1 _ _ eq_refl) as K1. pose proof (Hp 2 _ _ eq_refl) as K2. cbn in K0, K1, K2. split; [|split]; lra.
Qed.
(** where executions can be: from step 1 on in mode b, y = 0 and x <= 1 + 10^-6 *)
Definition exD_at (m : nat) (p : vec) (k n : nat) : Prop :=
  match m with
  | 0 => (-(3 # 2) + (3 # 2) * inject_Z (Z.of_nat n) <= p 0%nat <= -(1 # 2) + (5 # 100000000000000) + (3 # 2) * inject_Z (Z.of_nat n) /\ p 1%nat == -(1) + inject_Z (Z.of_nat n) /\ p 2%nat == 1)%Q
  | 1 => (p 2%nat == 1 /\ ((p 1%nat == 0 /\ p 0%nat <= 1 + (1 # 1000000)) \/ (k = 0%nat /\ p 0%nat >= 3 # 2)))%Q /\ (k = 0 -> ((p 1%nat == 0 /\ p 0%nat <= 1 + (5 # 100000000000000)) \/ p 0%nat >= 3 # 2)%Q)
  | _ => True
  end.
Lemma exD_reach ru m p k n : reach tol13 ru exD (init_of_list [exD_s]) m p k n -> exD_at m p k n.
Proof.
  induction 1 as [m p Hi Hv|m p k n u p' H IH Hv Hn Hc Hu Ho|t p p' k n Ht H IH Hg Hj Hr].
  - destruct (exD_point m p Hi) as (-> & H0 & H1 & H2). cbn [exD_at]. change (inject_Z (Z.of_nat 0)) with 0%Q. split; [|split]; lra.
  - destruct m as [|[|m]]; [| |exact Logic.I].
    + cbn [exD_at] in *. destruct IH as (H0 & H1 & H2).
      assert (E : forall i, i < 3 -> (p' i == mapply (exD_abm 1) p i)%Q).
      { intros i Hi. rewrite (Ho i Hi). cbn [m_b m_bm get_mode nth exD ha_modes exD_a]. ring. }
      rewrite (E 0), (E 1), (E 2) by lia. rewrite !exD_abm_ok by lia. change (inject_Z (Z.of_nat 1)) with 1%Q.
      rewrite (Nat2Z.inj_succ n). unfold Z.succ. rewrite inject_Z_plus. change (inject_Z 1) with 1%Q. rewrite H2. split; [|split]; lra.
    + cbn [exD_at] in *. destruct IH as ((H2 & Hx) & Hk).
      assert (E : forall i, i < 3 -> (p' i == mapply (exD_bbm 1) p i)%Q).
      { intros i Hi. rewrite (Ho i Hi). cbn [m_b m_bm get_mode nth exD ha_modes exD_b]. ring. }
      rewrite (E 0), (E 1), (E 2) by lia. rewrite !exD_bbm_ok by lia. change (exD_f 1) with 10000000%Q.
      assert (Hi : (p 0%nat <= 1 \/ p 0%nat < 1 + tol13)%Q).
      { pose proof (Hv (mkLc [(0, 1%Q)] 3 1%Q) (or_introl eq_refl)) as K. cbn in K. change (1 + tol13)%Q with (1 + tol13)%Q in K. destruct K as [K|K]; [left|right]; lra. }
      assert (Ht13 : (tol13 == 1 # 10000000000000)%Q) by reflexivity.
      split; [|discriminate]. split; [exact H2|]. left. destruct Hx as [(H1 & Hx)|(-> & Hx)]; [|destruct Hi; lra]. split; [exact H1|]. rewrite H2. destruct Hi; lra.
  - destruct t as [|[|t]]; [|exact Logic.I|cbn in Ht; lia]. change (t_from (get_trans exD 0)) with 0 in *. change (t_to (get_trans exD 0)) with 1. cbn [exD_at] in *. destruct IH as (H0 & H1 & H2).
    destruct Hr as (y & _ & Hr). cbn in Hr. pose proof (Hr 0 ltac:(cbn; lia)) as R0. pose proof (Hr 1 ltac:(cbn; lia)) as R1. pose proof (Hr 2 ltac:(cbn; lia)) as R2. cbn in R0, R1, R2.
    assert (Hg' : poly [[(1, (-(1))%Q)]; [(1, 1%Q)]] [(1 # 2)%Q; (3 # 2)%Q] p) by exact Hg. pose proof (Hg' 0 _ _ eq_refl eq_refl) as G0. pose proof (Hg' 1 _ _ eq_refl eq_refl) as G1. cbn in G0, G1.
    assert (Hz : n = 1 \/ n = 2).
    { assert (A : (inject_Z 0 < inject_Z (Z.of_nat n) /\ inject_Z (Z.of_nat n) < inject_Z 3)%Q) by (change (inject_Z 0) with 0%Q; change (inject_Z 3) with 3%Q; lra). rewrite <- !Zlt_Qlt in A. lia. }
    destruct Hz as [-> | ->]; [change (inject_Z (Z.of_nat 1)) with 1%Q in *|change (inject_Z (Z.of_nat 2)) with 2%Q in *].
    + assert (B : (p' 1%nat == 0 /\ p' 0%nat <= 1 + (5 # 100000000000000))%Q) by (split; lra). split; [split; [lra|left; split; [apply B|]]|intros _; left; exact B]. destruct B as [_ B]. lra.
    + assert (B : (p' 0%nat >= 3 # 2)%Q) by lra. split; [split; [lra|right; split; [reflexivity|exact B]]|intros _; right; exact B].
Qed.
Lemma exD_safe B cap : ~ error_reachable tol13 (mkRules false B cap false) exD (init_of_list [exD_s]).
Proof.
  intros (t & p & k & n & Ht & He & HR & Hg & Hj). destruct t as [|[|t]]; [discriminate| |cbn in Ht; lia].
  apply exD_reach in HR. change (t_from (get_trans exD 1)) with 1 in *. cbn [exD_at] in HR. destruct HR as ((H2 & Hx) & _).
  destruct Hj as ([Hk|[Hk _]] & _); [|discriminate].
  assert (Hg' : poly [[(0, (-(1))%Q); (1, (-(1))%Q)]] [(-(3 # 2))%Q] p) by exact Hg. pose proof (Hg' 0 _ _ eq_refl eq_refl) as K. cbn in K.
  destruct Hx as [(H1 & Hx)|(-> & _)]; [lra|lia].
Qed.
