(** Computed examples for C16 and C46: x doubles at every step, one mode, invariant x <= 2 (when [inv]); entry sets that are initial sets or
    successors of a transition. *)
From Verif Require Import Base BaseFacts LpModel LpSpec SetSpec LpUtil ApiSpec Automaton StateSet Approx HybridSpec StateSpec Solver OpsFacts4 Ex_Core.
Open Scope nat_scope.
Definition exL_mat := mkCsr 1 [[(0, 1%Q)]].
Fixpoint pow2 (k : nat) : Q := match k with 0 => 1%Q | S k => Qred (2 * pow2 k)%Q end.
Definition exL_mode (inv : bool) := mkMode "m" (Some exL_mat) None (if inv then [mkLc [(0, 1%Q)] 1 2%Q] else []) (fun k => [[pow2 k]]) (fun _ => []).
Definition exL (inv : bool) := mkHa [exL_mode inv] [].
Lemma exL_app q p i : i < 1 -> (mapply [[q]] p i == q * p i)%Q.
Proof. intro Hi. destruct i; [|lia]. unfold mapply, mrow. cbn [nth ldot]. ring. Qed.
Lemma exL_wf inv : wf_ha (exL inv).
Proof.
  split; [|intros t Ht; cbn in Ht; lia]. intros i Hi. destruct i as [|i]; [|cbn in Hi; lia].
  constructor; cbn [m_inv m_bm m_b m_ie exL_mode get_mode nth ha_modes exL]; change (c_nr exL_mat) with 1%nat.
  - lia.
  - intros c Hc. destruct inv; [|destruct Hc]. destruct Hc as [<-|[]]. split; [reflexivity|repeat constructor].
  - intro k. split; [split; [reflexivity|repeat constructor]|]. intros p i Hi'. rewrite !exL_app by exact Hi'. cbn [pow2]. rewrite !Qred_correct. ring.
  - intros p i Hi'. rewrite exL_app by exact Hi'. cbn [pow2]. ring.
  - exact Logic.I.
Qed.
(** initial set [0, 3]; and the same after an identity reset *)
Definition exL_l := Eval vm_compute in getr lp_new (from_box fm_solver [(0, 3)%Q] 0 false).
Definition exL_r := Eval vm_compute in getr lp_new (add_reset_variables exL_l 0 0 None None false).
Definition exL_s inv := getr dss0 (new_stateset (exL inv) exL_r 0 0 0 None true).
Definition exL_i inv := getr dss0 (new_stateset (exL inv) exL_l 0 0 0 None true).
(** {0}, then + 10 by the reset of a transition *)
Definition exT_l := Eval vm_compute in getr lp_new (from_box fm_solver [(0, 0)%Q] 0 false).
Definition exT_mk := (mkCsr 1 [[(0, 1%Q)]], mkCsr 1 [[(0, 1%Q)]; [(0, (-1)%Q)]], [10%Q; (-10)%Q]).
Definition exT_r := Eval vm_compute in getr lp_new (add_reset_variables exT_l 0 0 None (Some exT_mk) false).
Definition exT_s := getr dss0 (new_stateset (exL false) exT_r 0 0 0 None true).

Lemma exL_l_api : api fm_solver exL_l (Some (ident 1, 0, [], [])).
Proof.
  assert (H : from_box fm_solver [(0, 3)%Q] 0 false = Ok exL_l) by (vm_compute; reflexivity). unfold from_box in H. apply bind_ok in H as (? & _ & H).
  change 1%nat with (l_dims exL_l) at 1. eapply api_from_constraints; [| |exact H|cbn; lia]; [repeat constructor|exact Logic.I].
Qed.
Lemma exT_l_api : api fm_solver exT_l (Some (ident 1, 0, [], [])).
Proof.
  assert (H : from_box fm_solver [(0, 0)%Q] 0 false = Ok exT_l) by (vm_compute; reflexivity). unfold from_box in H. apply bind_ok in H as (? & _ & H).
  change 1%nat with (l_dims exT_l) at 1. eapply api_from_constraints; [| |exact H|cbn; lia]; [repeat constructor|exact Logic.I].
Qed.
Lemma exL_r_api : api fm_solver exL_r (Some (ident 1, 0, [], [])).
Proof. eapply (api_reset fm_solver exL_l _ 0 0 None None false exL_r 0); [exact exL_l_api|exact Logic.I|exact Logic.I|vm_compute; reflexivity|cbn; lia]. Qed.
Lemma exT_r_api : api fm_solver exT_r (Some (ident 1, 0, [], [])).
Proof.
  eapply (api_reset fm_solver exT_l _ 0 0 None (Some exT_mk) false exT_r 0); [exact exT_l_api|exact Logic.I| |vm_compute; reflexivity|cbn; lia].
  repeat constructor.
Qed.
Lemma exL_s_run inv : sset_run fm_solver (exL inv) (exL_s inv).
Proof. apply sr_new with (l := exL_r) (m := 0) (lo := 0) (hi := 0) (ops := None) (conc := true) (x := exL_mat); [cbn; lia|reflexivity|exact exL_r_api|reflexivity|destruct inv; vm_compute; reflexivity]. Qed.
Lemma exL_i_run inv : sset_run fm_solver (exL inv) (exL_i inv).
Proof. apply sr_new with (l := exL_l) (m := 0) (lo := 0) (hi := 0) (ops := None) (conc := true) (x := exL_mat); [cbn; lia|reflexivity|exact exL_l_api|reflexivity|destruct inv; vm_compute; reflexivity]. Qed.
Lemma exT_s_run : sset_run fm_solver (exL false) exT_s.
Proof. apply sr_new with (l := exT_r) (m := 0) (lo := 0) (hi := 0) (ops := None) (conc := true) (x := exL_mat); [cbn; lia|reflexivity|exact exT_r_api|reflexivity|vm_compute; reflexivity]. Qed.

(** a bound computed by the solver *)
Definition lowest (l : lp) (c v : Q) : bool := match minimize fm_solver (with_obj l [(l_cvo l, c)]) None true with Ok (Some w) => Qle_bool v (c * nth (l_cvo l) w 0)%Q | _ => false end.
Lemma lowest_ok l c v p : lowest l c v = true -> 0 < l_dims l -> l_cvo l < l_nc l -> in_lp l p -> (v <= c * p 0%nat)%Q.
Proof.
  unfold lowest. intros H Hd Hc (y & Hy & Ey). destruct (minimize fm_solver _ None true) as [[vals|]|] eqn:E; [|discriminate|discriminate]. apply (minimize_spec fm_solver fm_solver_ok) in E as (xs & -> & _ & Hm).
  apply Qle_bool_iff in H. specialize (Hm y Hy). cbn [l_obj with_obj reval] in Hm. specialize (Ey 0 Hd). rewrite Nat.add_0_r in Ey. rewrite Ey in Hm. change (l_nc (with_obj l [(l_cvo l, c)])) with (l_nc l) in H.
  rewrite nth_indep with (d' := xs 0) in H by (rewrite map_length, seq_length; exact Hc). rewrite map_nth, seq_nth in H by exact Hc. cbn [Nat.add] in H. lra.
Qed.
(** checking that a point is in a set *)
Definition satb (l : lp) (x : vec) : bool := forallb (fun r => match r_ty r with UP => Qle_bool (reval (r_co r) x) (r_rhs r) | LO => Qle_bool (r_rhs r) (reval (r_co r) x) | FX => Qeq_bool (reval (r_co r) x) (r_rhs r) end) (l_rows l).
Lemma satb_ok l x : satb l x = true -> lp_sat l x.
Proof.
  unfold satb, lp_sat. rewrite forallb_forall, Forall_forall. intros H r Hr. specialize (H r Hr). unfold row_sat. destruct (r_ty r); first [apply Qle_bool_iff; exact H|apply Qeq_bool_iff; exact H].
Qed.
