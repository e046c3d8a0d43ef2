(** Literal automata for C62: a second analysis of the same automaton object. *)
From Verif Require Import Base BaseFacts LpModel LpSpec SetSpec LpUtil ApiSpec ApiFacts Solver Automaton StateSet HybridSpec CoreModel CoreSpec Ex_Core Ex_TT.
Open Scope Q_scope.

(** [exU]: x' = v, v' = 0; mode "a" (x <= 2) to "b" (x >= 2) with guard true, to "err" when x <= 0; initially x = 2, v = -1 *)
Definition exU : ha := mkHa [exT_mode "a" [mkLc [(0%nat, 1)] 2 2]; exT_mode "b" [mkLc [(0%nat, -(1))] 2 (-(2))]; exC_err]
  [exC_tr "t0" 0 1 (mkCsr 2 [], []) 0; exC_tr "t1" 0 2 (mkCsr 2 [[(0%nat, 1)]], [0]) 1].
(** [exV]: "a" to "b" (x + y <= 1, x + y + z <= 1) with guard true; x, y, z stand still *)
Definition exV_mat : csr := mkCsr 3 [[]; []; []].
Definition exV_mode (s : string) (inv : list lincon) : mode := mkMode s (Some exV_mat) None inv (fun _ => ident 3) (fun _ => []).
Definition exV : ha := mkHa [exV_mode "a" []; exV_mode "b" [mkLc [(0%nat, 1); (1%nat, 1)] 3 1; mkLc [(0%nat, 1); (1%nat, 1); (2%nat, 1)] 3 1]] [exC_tr "t0" 0 1 (mkCsr 3 [], []) 0].
(** [exX]: x' = v, v' = 0; "a" to "err" when x = 1; initially x = 0, v = 1 *)
Definition exX : ha := mkHa [exT_mode "a" []; exC_err] [exC_tr "t0" 0 1 (mkCsr 2 [[(0%nat, 1)]; [(0%nat, -(1))]], [1; -(1)]) 0].

Ltac wf_tr := constructor; cbn [t_from t_to t_guard t_reset t_mink exC_tr]; [split; [cbn; lia|reflexivity]|cbn; lia|eexists; eexists; split; [reflexivity|]; repeat constructor|split; [exact Logic.I|discriminate]|split; [exact Logic.I|auto]|first [reflexivity|discriminate]].
Lemma exU_wf : wf_ha exU.
Proof.
  split.
  - intros i Hi. destruct i as [|[|[|i]]]; [| | |cbn in Hi; lia].
    + apply exT_mode_wf. intros c [<-|[]]. split; [reflexivity|]. repeat constructor.
    + apply exT_mode_wf. intros c [<-|[]]. split; [reflexivity|]. repeat constructor.
    + reflexivity.
  - intros t Ht. destruct t as [|[|t]]; [| |cbn in Ht; lia]; unfold get_trans; cbn [nth ha_trans exU exC_tr]; wf_tr.
Qed.
Lemma exX_wf : wf_ha exX.
Proof.
  split.
  - intros i Hi. destruct i as [|[|i]]; [| |cbn in Hi; lia]; [|reflexivity]. apply exT_mode_wf. intros c [].
  - intros t Ht. destruct t as [|t]; [|cbn in Ht; lia]; unfold get_trans; cbn [nth ha_trans exX exC_tr]; wf_tr.
Qed.
Lemma exV_mode_wf s inv : (forall c, In c inv -> lc_w c = 3%nat /\ row_cols_lt 3 (lc_row c)) -> wf_mode (exV_mode s inv) exV_mat.
Proof.
  intro Hi. assert (HI : forall p i, (i < 3)%nat -> (mapply (ident 3) p i == p i)%Q) by (intros p i Hlt; destruct i as [|[|[|i]]]; [| | |lia]; unfold mapply, mrow; cbn; ring).
  constructor; cbn [m_inv m_bm m_b m_ie exV_mode]; change (c_nr exV_mat) with 3%nat.
  - lia.
  - exact Hi.
  - intro k. split; [split; [reflexivity|repeat constructor]|]. intros p i Hlt. rewrite !HI by exact Hlt. reflexivity.
  - intros p i Hlt. apply HI. exact Hlt.
  - exact Logic.I.
Qed.
Lemma exV_wf : wf_ha exV.
Proof.
  split.
  - intros i Hi. destruct i as [|[|i]]; [| |cbn in Hi; lia]; apply exV_mode_wf.
    + intros c [].
    + intros c [<-|[<-|[]]]; (split; [reflexivity|]; repeat constructor).
  - intros t Ht. destruct t as [|t]; [|cbn in Ht; lia]; unfold get_trans; cbn [nth ha_trans exV exC_tr]; wf_tr.
Qed.
Definition exB_l (x v : Q) : lp := getr lp_new (from_box fm_solver [(x, x); (v, v)] 0 false).
Definition exU_s : sset := getr dss0 (new_stateset exU (exB_l 2 (-1)) 0 0 0 None true).
Definition exX_s : sset := getr dss0 (new_stateset exX (exB_l 0 1) 0 0 0 None true).
Lemma exU_init : Forall (init_ok fm_solver exU) [exU_s].
Proof.
  constructor; [|constructor]. exists (exB_l 2 (-1)), 0%nat. split; [cbn; lia|]. split; [vm_compute; reflexivity|]. cbn [get_mode exU ha_modes nth m_a exT_mode].
  assert (H : from_box fm_solver [(2, 2); (-1, -1)] 0 false = Ok (exB_l 2 (-1))) by (vm_compute; reflexivity). assert (Hd : l_dims (exB_l 2 (-1)) = 2%nat) by (vm_compute; reflexivity). split; [|exact Hd]. change (c_nr exT_mat) with 2%nat. rewrite <- Hd.
  unfold from_box in H. apply bind_ok in H as (? & _ & H). eapply api_from_constraints; [| |exact H|lia]; [repeat constructor|exact Logic.I].
Qed.
Lemma exX_init : Forall (init_ok fm_solver exX) [exX_s].
Proof.
  constructor; [|constructor]. exists (exB_l 0 1), 0%nat. split; [cbn; lia|]. split; [vm_compute; reflexivity|]. cbn [get_mode exX ha_modes nth m_a exT_mode].
  assert (H : from_box fm_solver [(0, 0); (1, 1)] 0 false = Ok (exB_l 0 1)) by (vm_compute; reflexivity). assert (Hd : l_dims (exB_l 0 1) = 2%nat) by (vm_compute; reflexivity). split; [|exact Hd]. change (c_nr exT_mat) with 2%nat. rewrite <- Hd.
  unfold from_box in H. apply bind_ok in H as (? & _ & H). eapply api_from_constraints; [| |exact H|lia]; [repeat constructor|exact Logic.I].
Qed.
Definition exU_cf (opt urgent : bool) : cfg := mkCfg 4 1 urgent true opt true false true false None.
Definition exU_a : ha := getr (mkHa [] []) (setup_ha (exU_cf true true) exU).
Definition exV_a : ha := getr (mkHa [] []) (setup_ha (exU_cf false false) exV).
Definition exX_c : core := match run fm_solver arn0 (exU_cf true false) exX [exX_s] 100 with Some (Ok c) => c | _ => core0 end.
