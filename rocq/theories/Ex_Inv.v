(** One variable with an input and an invariant: one step is x' = x/2 + u, u in [-1, 1]; invariant x <= 1/2; a -> err when x >= 6/5. *)
From Verif Require Import Base BaseFacts LpModel LpSpec SetSpec LpUtil ApiSpec ApiFacts Solver Automaton StateSet HybridSpec CoreModel CoreSpec Ex_Core.
Open Scope Q_scope.

Fixpoint half (k : nat) : Q := match k with O => 1 | S k => (1 # 2) * half k end.
Definition exI_mat : csr := mkCsr 1 [[(0%nat, -(69 # 100))]].
Definition exI_inp : csr * csr * list Q := (mkCsr 1 [[(0%nat, 1)]], mkCsr 1 [[(0%nat, 1)]; [(0%nat, -(1))]], [1; 1]).
Definition exI_mode : mode := mkMode "a" (Some exI_mat) (Some exI_inp) [mkLc [(0%nat, 1)] 1 (1 # 2)] (fun k => [[half k]]) (fun k => [[half (pred k)]]).
Definition exI : ha := mkHa [exI_mode; exC_err] [mkTrans "t" 0 1 (Some (mkCsr 1 [[(0%nat, -(1))]], [-(6 # 5)])) None None false 0].
Lemma exI_ap x p i : (i < 1)%nat -> mapply [[x]] p i == x * p i.
Proof. intro Hi. destruct i; [|lia]. unfold mapply, mrow. cbn [nth ldot]. ring. Qed.
Lemma exI_wf : wf_ha exI.
Proof.
  assert (D : forall x, mat_dims 1 1 [[x]]) by (intro x; split; [reflexivity|repeat constructor]).
  split.
  - intros i Hi. destruct i as [|[|i]]; [| |cbn in Hi; lia]; [|reflexivity].
    constructor; cbn [m_inv m_bm m_b m_ie exI_mode get_mode nth ha_modes exI]; change (c_nr exI_mat) with 1%nat.
    + lia.
    + intros c [<-|[]]. split; [reflexivity|repeat constructor].
    + intro k. split; [apply D|]. intros p i Hi'. rewrite !exI_ap by auto. cbn [half]. ring.
    + intros p i Hi'. rewrite exI_ap by auto. cbn [half]. ring.
    + cbn [exI_inp]. split; [repeat constructor|]. split; [reflexivity|]. split; [reflexivity|]. split; [intro k; apply D|].
      intros k u i Hi'. rewrite !exI_ap by auto. cbn [half pred]. ring.
  - intros t Ht. destruct t as [|t]; [|cbn in Ht; lia]. constructor; cbn [t_from t_to t_guard t_reset t_mink get_trans nth ha_trans exI].
    + split; [cbn; lia|reflexivity].
    + cbn; lia.
    + eexists; eexists. split; [reflexivity|]. repeat constructor.
    + split; [exact Logic.I|discriminate].
    + split; [exact Logic.I|auto].
    + discriminate.
Qed.
Definition exI_l := Eval vm_compute in getr lp_new (from_box fm_solver [(0, 0)] 0 true).
Definition exI_s := getr dss0 (new_stateset exI exI_l 0 0 0 None true).
Lemma exI_init : Forall (init_ok fm_solver exI) [exI_s].
Proof.
  constructor; [|constructor]. exists exI_l, 0%nat. split; [cbn; lia|]. split; [vm_compute; reflexivity|].
  cbn [m_a get_mode nth exI ha_modes exI_mode]. split; [|reflexivity].
  assert (H : from_box fm_solver [(0, 0)] 0 true = Ok exI_l) by (vm_compute; reflexivity).
  unfold from_box in H. apply bind_ok in H as (? & _ & H). change (c_nr exI_mat) with (l_dims exI_l).
  eapply api_from_constraints; [| |exact H|cbn; lia]; [repeat constructor|exact Logic.I].
Qed.
Lemma exI_in p : p 0%nat == 0 -> in_lp (ss_lpi exI_s) p.
Proof.
  intro Hp. assert (H : from_box fm_solver [(0, 0)] 0 true = Ok exI_l) by (vm_compute; reflexivity).
  replace (ss_lpi exI_s) with exI_l by (vm_compute; reflexivity).
  destruct (SetFacts2.from_box_in fm_solver fm_solver_ok _ _ _ _ H) as (_ & Hb & _). apply Hb.
  intros i lb ub Hn. destruct i as [|i]; cbn in Hn; [injection Hn as <- <-; lra|destruct i; discriminate].
Qed.
(** default settings, no aggregation, 4 steps *)
Definition exI_cf : cfg := mkCfg 4 1 false true false true false true true None.
(** x = 0, 1/2, 5/4 with u = 1/2, 1 *)
Lemma exI_reach : error_reachable 0 (mkRules false 4 (fun _ => false) false) exI (init_of_list [exI_s]).
Proof.
  set (ru := mkRules false 4 (fun _ => false) false).
  assert (HU : forall u : Q, -(1) <= u <= 1 -> input_ok (get_mode exI 0) (fun _ => u)).
  { intros u Hu i r c Hr Hc. cbn in Hr, Hc. destruct i as [|[|i]]; cbn in Hr, Hc; [| |destruct i; discriminate]; injection Hr as <-; injection Hc as <-; cbn; lra. }
  assert (HS : forall x u y : Q, y == (1 # 2) * x + u -> one_step (get_mode exI 0) (fun _ => x) (fun _ => u) (fun _ => y)).
  { intros x u y E i Hi. change (m_dims (get_mode exI 0)) with 1%nat in Hi. cbn [m_b m_bm m_ie get_mode nth ha_modes exI exI_mode]. rewrite !exI_ap by auto. cbn [half pred]. rewrite E. ring. }
  assert (HV : forall x : Q, x <= 1 # 2 -> inv_ok 0 (get_mode exI 0) (fun _ => x)).
  { intros x Hx c [<-|[]]. left. cbn. lra. }
  assert (R0 : reach 0 ru exI (init_of_list [exI_s]) 0 (fun _ => 0) 0 0).
  { apply R_init; [|apply HV; discriminate]. exists exI_s. split; [left; reflexivity|]. split; [vm_compute; reflexivity|]. apply exI_in. reflexivity. }
  assert (R1 : reach 0 ru exI (init_of_list [exI_s]) 0 (fun _ => 1 # 2) 1 1).
  { eapply R_step with (u := fun _ => 1 # 2); [exact R0|apply HV; discriminate|cbn; lia|discriminate|apply HU; split; discriminate|apply HS; reflexivity]. }
  assert (R2 : reach 0 ru exI (init_of_list [exI_s]) 0 (fun _ => 5 # 4) 2 2).
  { eapply R_step with (u := fun _ => 1); [exact R1|apply HV; apply Qle_refl|cbn; lia|discriminate|apply HU; split; discriminate|apply HS; reflexivity]. }
  exists 0%nat, (fun _ => 5 # 4), 2%nat, 2%nat. split; [cbn; lia|]. split; [reflexivity|]. split; [exact R2|]. split; [|split; [left; lia|discriminate]].
  intros i r c Hr Hc. cbn in Hr, Hc. destruct i as [|i]; cbn in Hr, Hc; [|destruct i; discriminate]. injection Hr as <-; injection Hc as <-. cbn. lra.
Qed.
