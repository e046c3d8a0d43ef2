(** A small automaton on which the whole analysis runs: variables x, y, a with x' = a, y' = a, a' = 0.  Modes "a" (x <= 3),
    "b", "err"; a -> b when x >= 2, b -> err when x - y >= 3/2.  From x = y = 0, a = 1 the error is not reachable, but the box
    around the states entering "b" reaches it. *)
From Verif Require Import Base BaseFacts LpModel LpSpec SetSpec LpUtil ApiSpec ApiFacts Solver Automaton StateSet HybridSpec CoreModel CoreSpec.
Open Scope Q_scope.

Definition exC_mat : csr := mkCsr 3 [[(2%nat, 1)]; [(2%nat, 1)]; []].
Definition exC_bm (k : nat) : mat := [[1; 0; inject_Z (Z.of_nat k)]; [0; 1; inject_Z (Z.of_nat k)]; [0; 0; 1]].
Definition exC_mode (name : string) (inv : list lincon) : mode := mkMode name (Some exC_mat) None inv exC_bm (fun _ => []).
Definition exC_err : mode := mkMode "err" None None [] (fun _ => []) (fun _ => []).
Definition exC_tr (name : string) (f t : nat) (g : csr * list Q) (i : nat) : trans := mkTrans name f t (Some g) None None false i.
(** [gerr]: the bound of the error guard y - x <= gerr *)
Definition exC (gerr : Q) : ha :=
  mkHa [exC_mode "a" [mkLc [(0%nat, 1)] 3 3]; exC_mode "b" []; exC_err]
       [exC_tr "t0" 0 1 (mkCsr 3 [[(0%nat, -(1))]], [-(2)]) 0; exC_tr "t1" 1 2 (mkCsr 3 [[(0%nat, -(1)); (1%nat, 1)]], [gerr]) 0].

Lemma exC_bm_ok k p i : (i < 3)%nat -> (mapply (exC_bm k) p i == (match i with O => p 0%nat + inject_Z (Z.of_nat k) * p 2%nat | S O => p 1%nat + inject_Z (Z.of_nat k) * p 2%nat | _ => p 2%nat end))%Q.
Proof. intro Hi. destruct i as [|[|[|i]]]; [| | |lia]; unfold mapply, mrow, exC_bm; cbn [nth ldot Nat.add]; ring. Qed.
Lemma exC_mode_wf name inv : (forall c, In c inv -> lc_w c = 3%nat /\ row_cols_lt 3 (lc_row c)) -> wf_mode (exC_mode name inv) exC_mat.
Proof.
  intro Hi. assert (ES : forall k, inject_Z (Z.of_nat (S k)) == 1 + inject_Z (Z.of_nat k)) by (intro k; rewrite Nat2Z.inj_succ; unfold Z.succ; rewrite inject_Z_plus; change (inject_Z 1) with 1; ring).
  constructor; cbn [m_inv m_bm m_b m_ie exC_mode]; change (c_nr exC_mat) with 3%nat.
  - lia.
  - exact Hi.
  - intro k. split; [split; [reflexivity|repeat constructor]|]. intros p i Hlt. rewrite !exC_bm_ok by auto.
    destruct i as [|[|[|i]]]; [| | |lia]; rewrite ?exC_bm_ok by lia; rewrite ?ES; change (inject_Z (Z.of_nat 0)) with 0; ring.
  - intros p i Hlt. rewrite exC_bm_ok by auto. change (inject_Z (Z.of_nat 0)) with 0. destruct i as [|[|[|i]]]; [| | |lia]; ring.
  - exact Logic.I.
Qed.
Lemma exC_wf g : wf_ha (exC g).
Proof.
  split.
  - intros i Hi. destruct i as [|[|[|i]]]; [| | |cbn in Hi; lia].
    + apply exC_mode_wf. intros c [<-|[]]. split; [reflexivity|]. repeat constructor.
    + apply exC_mode_wf. intros c [].
    + reflexivity.
  - intros t Ht. destruct t as [|[|t]]; [| |cbn in Ht; lia]; unfold get_trans; cbn [nth ha_trans exC exC_tr].
    + constructor; cbn [t_from t_to t_guard t_reset t_mink exC exC_tr].
      * split; [cbn; lia|reflexivity].
      * cbn; lia.
      * eexists; eexists. split; [reflexivity|]. repeat constructor.
      * split; [exact Logic.I|discriminate].
      * split; [exact Logic.I|auto].
      * reflexivity.
    + constructor; cbn [t_from t_to t_guard t_reset t_mink exC exC_tr].
      * split; [cbn; lia|reflexivity].
      * cbn; lia.
      * eexists; eexists. split; [reflexivity|]. repeat constructor.
      * split; [exact Logic.I|discriminate].
      * split; [exact Logic.I|auto].
      * discriminate.
Qed.
Definition getr {A} (d : A) (r : res A) : A := match r with Ok x => x | Err _ => d end.
Definition exC_l := Eval vm_compute in getr lp_new (from_box fm_solver [(0, 0); (0, 0); (1, 1)] 0 false).
Lemma exC_api : api fm_solver exC_l (Some (ident 3, 0%nat, [], [])).
Proof.
  assert (H : from_box fm_solver [(0, 0); (0, 0); (1, 1)] 0 false = Ok exC_l) by (vm_compute; reflexivity).
  unfold from_box in H. apply bind_ok in H as (? & _ & H). change (ident 3) with (ident (l_dims exC_l)). eapply api_from_constraints; [| |exact H|cbn; lia]; [repeat constructor|exact Logic.I].
Qed.
Definition dss0 : sset := mkSset 0 lp_new 0 0 0 false None [] None None None.
Definition exC_s := Eval vm_compute in getr dss0 (new_stateset (exC 0) exC_l 0 0 0 None true).
Lemma exC_init g : Forall (init_ok fm_solver (exC g)) [exC_s].
Proof.
  constructor; [|constructor]. exists exC_l, 0%nat. split; [cbn; lia|]. split; [vm_compute; reflexivity|]. cbn [m_a get_mode nth exC ha_modes exC_mode].
  split; [exact exC_api|reflexivity].
Qed.
Definition arn0 (n : nat) (c : option (list Q)) (x : csr) (r : option csr) (d : nat) : list (list Q) := ident d.
(** box aggregation; [dgg]: deaggregate *)
Definition exC_cf (dgg : bool) : cfg := mkCfg 6 1 false true false true false true true (Some (mkAgg ABox PAvg false true dgg DMost)).
