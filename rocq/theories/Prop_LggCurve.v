(** C46 for APPROX_LGG and trajectories that are not straight between two samples. *)
From Verif Require Import Base BaseFacts LpModel LpSpec SetSpec LpUtil ApiSpec LpFacts LpWf SetFacts ChullFacts Automaton StateSet Approx HybridSpec StateSpec StateFacts ApproxFacts FreshFacts Prop_Automaton Prop_Inv Prop_Approx Solver Ex_Core Ex_Approx.
From Coq Require Import Lia Lqa QArith.Qabs.
Open Scope nat_scope.

(** The trajectory of x' = A x from p is, at the fraction t of a step, at most t (exp(tau |A|) - 1 - tau |A|) |p| away from the straight line from p to the
    state one step later (Taylor's formula; |.| the infinity norm).  For a set S just built by from_constraints the first set of APPROX_LGG contains every such
    point, so every state a trajectory from S passes within the first step. *)
Definition near_line (n : nat) (f t : Q) (p q w : vec) : Prop :=
  forall M, (forall i, i < n -> (Qabs (p i) <= M)%Q) -> forall i, i < n -> (Qabs (w i - Prop_Approx.between t p q i) <= t * (f * M))%Q.

Theorem C46_lgg_covers_trajectories solve (Hsolve : solver_ok solve) a (WH : wf_ha a) qexp tau s s' o A : (forall q, (1 + q <= qexp q)%Q) ->
  sset_run solve a s -> fresh solve (ss_lpi s) -> m_a (get_mode a (ss_mode s)) = Some A -> m_b (get_mode a (ss_mode s)) = None -> (1 # 10000000 <= norm_inf A)%Q ->
  apply_approx_model solve qexp tau ApLgg a s = Ok (s', o) ->
  let m := get_mode a (ss_mode s) in
  forall t p w, (0 <= t <= 1)%Q -> in_lp (ss_lpi s) p -> near_line (m_dims m) (qexp (tau * norm_inf A) - 1 - tau * norm_inf A)%Q t p (mapply (m_bm m 1) p) w -> in_lp (ss_lpi s') w.
Proof.
  intros Hexp R Fr HA Eb Hn H m t p w T Hp NL. unfold apply_approx_model in H. apply bind_ok in H as (? & E & H). apply assert_ok in E. apply Nat.eqb_eq in E. apply bind_ok in H as (? & _ & H).
  destruct (run_st solve Hsolve a s WH R) as (z & St). assert (Ex : z = A) by (assert (K := StateFacts.st_a _ _ _ _ St); congruence). subst z.
  destruct (approx_lgg_set solve Hsolve a WH qexp tau s A s' o St E ltac:(rewrite Eb; exact Logic.I) H) as (rx & rv & Hr & Hv & l2 & D2 & _ & F & I1 & _). rewrite Eb in Hv.
  assert (Dm : m_dims m = c_nr A) by (unfold m_dims, m; rewrite HA; reflexivity). assert (Ds := StateFacts.st_dims _ _ _ _ St).
  destruct (StateFacts.st_wf solve Hsolve _ _ _ St) as [_ Dp]. destruct (fresh_radius solve Hsolve _ _ Fr ltac:(lia) Hr) as (v & Ev & _ & X2). injection Ev as <-. rewrite Ds, <- Dm in X2.
  set (f := (qexp (tau * norm_inf A) - 1 - tau * norm_inf A)%Q) in *. set (q0 := mapply (m_bm m 1) p) in *.
  specialize (NL rx (fun i Hi => X2 p i Hp Hi)).
  set (b := fun i : nat => if Qeq_bool t 0 then 0%Q else ((w i - Prop_Approx.between t p q0 i) / t)%Q).
  assert (Fp : (0 <= f)%Q) by (unfold f; pose proof (Hexp (tau * norm_inf A)%Q) as K; lra).
  assert (Rp : (0 <= rx)%Q) by (pose proof (X2 p 0 Hp ltac:(lia)) as K; pose proof (Qabs_nonneg (p 0)) as K2; lra).
  assert (FR : (0 <= f * rx)%Q) by (apply Qmult_le_0_compat; assumption).
  assert (Al : (lgg_alpha qexp tau (norm_inf A) rx rv == f * rx)%Q).
  { unfold lgg_alpha. destruct (Qlt_le_dec _ _) as [K|K]; [exfalso; apply (Qlt_not_le _ _ K); exact Hn|]. fold f. setoid_replace (rv / norm_inf A)%Q with 0%Q by (rewrite Hv; unfold Qdiv; ring). ring. }
  apply (I1 t p (fun i => (q0 i + b i)%Q)); [exact T|exact Hp| |].
  - apply F. exists p, (fun _ => 0%Q), b. split; [exact Hp|]. split; [unfold velocity; rewrite Eb; reflexivity|]. intros i Hi. split; [|cbv beta; unfold q0; fold m; ring]. rewrite Al.
    unfold b. destruct (Qeq_bool t 0) eqn:Et; [lra|]. assert (Tp : (0 < t)%Q) by (destruct (Qlt_le_dec 0 t) as [K|K]; [exact K|]; assert (Z : (t == 0)%Q) by lra; apply Qeq_bool_iff in Z; congruence).
    specialize (NL i Hi). apply Qabs_Qle_condition in NL as [N1 N2]. split; [apply Qle_shift_div_l; [exact Tp|lra]|apply Qle_shift_div_r; [exact Tp|lra]].
  - intros i Hi. unfold mix. specialize (NL i Hi). unfold b. destruct (Qeq_bool t 0) eqn:Et.
    + apply Qeq_bool_iff in Et. apply Qabs_Qle_condition in NL as [N1 N2]. unfold Prop_Approx.between in N1, N2. rewrite Et in *. lra.
    + assert (Tz : ~ (t == 0)%Q) by (intro Z; apply Qeq_bool_iff in Z; congruence). unfold Prop_Approx.between. field. exact Tz.
Qed.

(** The doubling mode from [0,3]: p = 1 reaches 2 in one step; half way the straight line is at 1.5 and a curved trajectory at 1.65. *)
Example C46_lgg_covers_witness : exists s', sset_run fm_solver (exL false) (exL_i false) /\ fresh fm_solver (ss_lpi (exL_i false)) /\
  m_a (get_mode (exL false) (ss_mode (exL_i false))) = Some exL_mat /\ m_b (get_mode (exL false) (ss_mode (exL_i false))) = None /\ (1 # 10000000 <= norm_inf exL_mat)%Q /\
  apply_approx_model fm_solver (fun q => 1 + q + q * q)%Q 1 ApLgg (exL false) (exL_i false) = Ok (s', None) /\ (forall q, (1 + q <= 1 + q + q * q)%Q) /\
  in_lp (ss_lpi (exL_i false)) (fun _ => 1%Q) /\
  near_line 1 (1 + 1 * norm_inf exL_mat + (1 * norm_inf exL_mat) * (1 * norm_inf exL_mat) - 1 - 1 * norm_inf exL_mat)%Q (1 # 2) (fun _ => 1%Q) (mapply (m_bm (exL_mode false) 1) (fun _ => 1%Q)) (fun _ => 165 # 100)%Q.
Proof.
  exists (match apply_approx_model fm_solver (fun q => 1 + q + q * q)%Q 1 ApLgg (exL false) (exL_i false) with Ok (s, _) => s | _ => dss0 end).
  split; [exact (exL_i_run false)|]. split; [|split; [reflexivity|split; [reflexivity|split; [vm_compute; discriminate|split; [vm_compute; reflexivity|split; [intro q; nra|split]]]]]].
  - assert (H : from_box fm_solver [(0, 3)%Q] 0 false = Ok exL_l) by (vm_compute; reflexivity). unfold from_box in H. apply bind_ok in H as (z & _ & H).
    eexists. eexists. eexists. eexists. eexists. eexists. split; [|split; [|exact H]]; [repeat constructor|exact Logic.I].
  - exists (fun _ => 1%Q). split; [apply satb_ok; vm_compute; reflexivity|intros i Hi; vm_compute in Hi; destruct i; [reflexivity|lia]].
  - intros M HM i Hi. specialize (HM 0 ltac:(lia)). cbv beta in HM. assert (E1 : Qabs 1 = 1%Q) by reflexivity. rewrite E1 in HM.
    unfold Prop_Approx.between. cbn [m_bm exL_mode]. rewrite exL_app by exact Hi. cbn [pow2].
    assert (N : (norm_inf exL_mat == 1)%Q) by (vm_compute; reflexivity). rewrite !N.
    apply Qabs_Qle_condition. rewrite ?Qred_correct. split; lra.
Qed.
