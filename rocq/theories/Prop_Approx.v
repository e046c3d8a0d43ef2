(** C46: the approximation models (settings.approx_model) cover the time between the steps. *)
From Verif Require Import Base BaseFacts LpModel LpSpec SetSpec LpUtil ApiSpec LpFacts SetFacts ChullFacts Automaton StateSet Approx HybridSpec StateSpec StateFacts ApproxFacts FreshFacts Prop_Automaton Prop_Inv.
Open Scope nat_scope.

(** the point a fraction t of the way from p to q *)
Definition between (t : Q) (p q : vec) : vec := fun i => ((1 - t) * p i + t * q i)%Q.

Lemma mapply_between M t p q i : (mapply M (between t p q) i == (1 - t) * mapply M p i + t * mapply M q i)%Q.
Proof. unfold between. rewrite (mapply_add M (fun j => (1 - t) * p j)%Q (fun j => t * q j)%Q i). rewrite !mapply_scale. reflexivity. Qed.
Lemma reval_between r t p q : (reval r (between t p q) == (1 - t) * reval r p + t * reval r q)%Q.
Proof. unfold between. induction r as [|[j v] r IH]; cbn [reval]; [ring|]. rewrite IH. ring. Qed.
Lemma poly_between A b t p q : (0 <= t <= 1)%Q -> poly A b p -> poly A b q -> poly A b (between t p q).
Proof. intros T P1 P2 i r c Hr Hc. specialize (P1 i r c Hr Hc). specialize (P2 i r c Hr Hc). rewrite reval_between. nra. Qed.
Lemma input_between m t u v : (0 <= t <= 1)%Q -> input_ok m u -> input_ok m v -> input_ok m (between t u v).
Proof. unfold input_ok. destruct (m_b m) as [[[b uc] ur]|]; [|auto]. apply poly_between. Qed.
Lemma inv_between m t p q : (0 <= t <= 1)%Q -> inv_ok 0 m p -> inv_ok 0 m q -> inv_ok 0 m (between t p q).
Proof.
  intros T P1 P2 c Hc. left. specialize (P1 c Hc). specialize (P2 c Hc). rewrite reval_between.
  assert (A : (reval (lc_row c) p <= lc_rhs c)%Q) by (destruct P1; lra). assert (B : (reval (lc_row c) q <= lc_rhs c)%Q) by (destruct P2; lra). nra.
Qed.
Lemma step_between m t p u p' q v q' : one_step m p u p' -> one_step m q v q' -> one_step m (between t p q) (between t u v) (between t p' q').
Proof.
  intros O1 O2 i Hi. change (between t p' q' i) with ((1 - t) * p' i + t * q' i)%Q. rewrite (O1 i Hi), (O2 i Hi), mapply_between. destruct (m_b m) as [b|]; [rewrite mapply_between; ring|ring].
Qed.

(** n time steps with admissible inputs from x 0, the invariant holding before each of them *)
Definition run_of (m : mode) (n : nat) (x u : nat -> vec) : Prop := forall k, k < n -> inv_ok 0 m (x k) /\ input_ok m (u k) /\ one_step m (x k) (u k) (x (S k)).

Lemma run_flow m n x u t : (0 <= t <= 1)%Q -> run_of m (S n) x u -> inv_flow m n (between t (x 0) (x 1)) (between t (x n) (x (S n))).
Proof.
  intros T H. assert (G : forall k, k <= n -> inv_flow m k (between t (x 0) (x 1)) (between t (x k) (x (S k)))); [|apply G; lia].
  induction k as [|k IH]; intro Hk; [intros i _; reflexivity|]. cbn [inv_flow]. exists (between t (x k) (x (S k))), (between t (u k) (u (S k))).
  destruct (H k ltac:(lia)) as (V1 & U1 & O1). destruct (H (S k) ltac:(lia)) as (V2 & U2 & O2).
  split; [apply IH; lia|]. split; [apply inv_between; assumption|]. split; [apply input_between; assumption|]. apply step_between; assumption.
Qed.

Section P.
Variable solve : solver.
Hypothesis Hsolve : solver_ok solve.
Variable a : ha.
Hypothesis WH : wf_ha a.

Lemma chull_of qexp tau s s' o : apply_approx_model solve qexp tau ApChull a s = Ok (s', o) -> ss_step s = 0 /\ apply_approx_chull solve a s = Ok s'.
Proof. unfold apply_approx_model. intro H. apply bind_ok in H as (? & E & H). apply assert_ok in E. apply Nat.eqb_eq in E. apply bind_ok in H as (? & _ & H). apply bind_ok in H as (s1 & H1 & H). injection H as <- <-. auto. Qed.

(** APPROX_CHULL: the first set becomes the convex hull of the entry set and its one-step successors *)
Theorem C46_chull_first_segment qexp tau s s' o : sset_run solve a s -> no_rows s -> apply_approx_model solve qexp tau ApChull a s = Ok (s', o) ->
  let m := get_mode a (ss_mode s) in let succ q := exists p u, in_lp (ss_lpi s) p /\ input_ok m u /\ one_step m p u q in
  (forall t p q, (0 <= t <= 1)%Q -> in_lp (ss_lpi s) p -> succ q -> in_lp (ss_lpi s') (between t p q)) /\
  (bounded (ss_lpi s) -> (exists M, forall q i, succ q -> i < m_dims m -> (Qabs (q i) <= M)%Q) -> (exists q, succ q) -> forall z, in_lp (ss_lpi s') z ->
     exists t p q, (0 <= t <= 1)%Q /\ in_lp (ss_lpi s) p /\ succ q /\ veq (m_dims m) z (between t p q)).
Proof.
  intros R HN H m succ. apply chull_of in H as [E0 H]. destruct (run_st solve Hsolve a s WH R) as (x & St).
  destruct (approx_chull_set solve Hsolve a WH s x s' St E0 (or_intror HN) H) as (s1 & Ds & F & I1 & I2). destruct (approx_chull_shape solve a s x s' St E0 H) as (s1' & l & H1 & Hl & Es).
  split.
  - intros t p q T P1 P2. eapply I1; [exact T|exact P1|apply F; exact P2|intros i _; reflexivity].
  - intros B (M & HM) (q0 & N) z Hz. destruct I2 with (z := z) as (t & p & q & T & P1 & P2 & V); [exact B| | | |exact Hz|].
    + exists M. intros p i Hp Hi. apply HM; [apply F; exact Hp|]. rewrite Ds in Hi. exact Hi.
    + destruct N as (p & _ & Hp & _). eauto.
    + exists q0. apply F. exact N.
    + exists t, p, q. split; [exact T|]. split; [exact P1|]. split; [apply F; exact P2|exact V].
Qed.

(** ... and after n steps the set covers, for every execution from the entry set, the whole segment between its states at the steps
    n and n + 1 (with the invariant holding at the steps) *)
Theorem C46_chull_covers_steps qexp tau s s' o n sn x u t : sset_run solve a s -> no_rows s -> apply_approx_model solve qexp tau ApChull a s = Ok (s', o) -> rounds solve a s' n sn ->
  in_lp (ss_lpi s) (x 0) -> run_of (get_mode a (ss_mode s)) (S n) x u -> (0 <= t <= 1)%Q -> in_lp (ss_lpi sn) (between t (x n) (x (S n))).
Proof.
  intros R HN H HR Hx Hf T. apply chull_of in H as [E0 H]. destruct (run_st solve Hsolve a s WH R) as (y & St).
  destruct (approx_chull_set solve Hsolve a WH s y s' St E0 (or_intror HN) H) as (s1 & Ds & F & I1 & _).
  assert (M : ss_mode s' = ss_mode s). { destruct (approx_chull_shape solve a s y s' St E0 H) as (s1' & l & _ & _ & ->). reflexivity. }
  eapply (C43_executions_inside_partial solve Hsolve a WH s' n sn (between t (x 0) (x 1))); [eapply sr_chull; eauto|exact HR| |].
  - destruct (Hf 0 ltac:(lia)) as (_ & U & O). eapply I1; [exact T|exact Hx|apply F; eauto|intros i _; reflexivity].
  - rewrite M. apply run_flow with (u := u); assumption.
Qed.

(** APPROX_LGG: the first set becomes the convex hull of the entry set S and E S + tau V + [-alpha, alpha]^n, with V the velocities the inputs
    allow and alpha = (exp(tau |A|) - 1 - tau |A|) (rx + R_V / |A|), R_V the radius of V.  rx is what compute_radius_inf returns for S: the radius of S
    if S was built by from_constraints (an initial set), see C46_lgg_radius_refuted for the others *)
Theorem C46_lgg_first_segment qexp tau s s' o A : sset_run solve a s -> m_a (get_mode a (ss_mode s)) = Some A -> (match m_b (get_mode a (ss_mode s)) with Some (b, _, _) => csr_ok b | None => True end) ->
  apply_approx_model solve qexp tau ApLgg a s = Ok (s', o) ->
  let m := get_mode a (ss_mode s) in
  exists rx rv, compute_radius_inf solve (ss_lpi s) = Ok (Some rx) /\
    (fresh solve (ss_lpi s) -> (exists p i, in_lp (ss_lpi s) p /\ i < m_dims m /\ (rx == Qabs (p i))%Q) /\ forall p i, in_lp (ss_lpi s) p -> i < m_dims m -> (Qabs (p i) <= rx)%Q) /\
    (match m_b m with None => (rv == 0)%Q | Some _ => (exists v i, velocity m v /\ i < m_dims m /\ (rv == Qabs (v i))%Q) /\ forall v i, velocity m v -> i < m_dims m -> (Qabs (v i) <= rv)%Q end) /\
    let nA := norm_inf A in let alpha := if Qlt_le_dec nA (1 # 10000000) then 0%Q else ((qexp (tau * nA) - 1 - tau * nA) * (rx + rv / nA))%Q in
    let nxt q := exists p v b, in_lp (ss_lpi s) p /\ velocity m v /\ forall i, i < m_dims m -> (- alpha <= b i <= alpha)%Q /\ (q i == mapply (m_bm m 1) p i + tau * v i + b i)%Q in
    (forall t p q, (0 <= t <= 1)%Q -> in_lp (ss_lpi s) p -> nxt q -> in_lp (ss_lpi s') (between t p q)) /\
    (bounded (ss_lpi s) -> (exists M, forall q i, nxt q -> i < m_dims m -> (Qabs (q i) <= M)%Q) -> (exists q, nxt q) -> forall z, in_lp (ss_lpi s') z ->
       exists t p q, (0 <= t <= 1)%Q /\ in_lp (ss_lpi s) p /\ nxt q /\ veq (m_dims m) z (between t p q)).
Proof.
  intros R HA Hb H m. unfold apply_approx_model in H. apply bind_ok in H as (? & E & H). apply assert_ok in E. apply Nat.eqb_eq in E. apply bind_ok in H as (? & _ & H).
  destruct (run_st solve Hsolve a s WH R) as (z & St). assert (Ex : z = A) by (assert (K := StateFacts.st_a _ _ _ _ St); congruence). subst z.
  destruct (approx_lgg_set solve Hsolve a WH qexp tau s A s' o St E Hb H) as (rx & rv & Hr & Hv & l2 & D2 & _ & F & I1 & I2). exists rx, rv. split; [exact Hr|].
  assert (Dm : m_dims m = c_nr A) by (unfold m_dims, m; rewrite HA; reflexivity). assert (Ds := StateFacts.st_dims _ _ _ _ St).
  split; [|split; [exact Hv|]].
  - intro Fr. destruct (StateFacts.st_wf solve Hsolve _ _ _ St) as [_ Dp]. destruct (fresh_radius solve Hsolve _ _ Fr ltac:(lia) Hr) as (v & Ev & X1 & X2). injection Ev as <-. rewrite Ds in X1, X2. rewrite Dm. auto.
  - cbv zeta in F, I1, I2 |- *. unfold lgg_alpha in F, I1, I2. fold m in F, I1, I2. split.
    + intros t p q T P1 P2. eapply I1; [exact T|exact P1|apply F; exact P2|intros i _; reflexivity].
    + intros B (M & HM) (q0 & N) z Hz. destruct I2 with (z := z) as (t & p & q & T & P1 & P2 & V); [exact B| | | |exact Hz|].
      * exists M. intros p i Hp Hi. apply HM; [apply F; exact Hp|]. rewrite D2 in Hi. exact Hi.
      * destruct N as (p & _ & _ & Hp & _). eauto.
      * exists q0. apply F. exact N.
      * exists t, p, q. split; [exact T|]. split; [exact P1|]. split; [apply F; exact P2|exact V].
Qed.
(** APPROX_NONE changes nothing *)
Theorem C46_none qexp tau s s' o : apply_approx_model solve qexp tau ApNone a s = Ok (s', o) -> s' = s /\ ss_step s = 0.
Proof. unfold apply_approx_model. intro H. apply bind_ok in H as (? & E & H). apply assert_ok in E. apply Nat.eqb_eq in E. apply bind_ok in H as (? & _ & H). injection H as <- <-. auto. Qed.
(** C16 for sets just built by from_constraints, from_input_constraints *)
Theorem C16_initial_sets m rhs mid hi l r : csr_ok m -> 0 < l_dims l -> from_constraints solve m rhs mid hi None None = Ok l -> compute_radius_inf solve l = Ok r ->
  exists v, r = Some v /\ (exists p n, in_lp l p /\ n < l_dims l /\ (v == Qabs (p n))%Q) /\ forall p n, in_lp l p -> n < l_dims l -> (Qabs (p n) <= v)%Q.
Proof. intros Hm Hd H Hr. apply (fresh_radius solve Hsolve l r); [|exact Hd|exact Hr]. exists m, rhs, mid, hi, None, None. auto. Qed.
Theorem C16_input_sets B C d mid hi l r : csr_ok B -> csr_ok C -> c_nc C = c_nc B -> 0 < l_dims l -> from_input_constraints solve B C d mid hi = Ok l -> compute_radius_inf solve l = Ok r ->
  exists v, r = Some v /\ (exists p n, in_lp l p /\ n < l_dims l /\ (v == Qabs (p n))%Q) /\ forall p n, in_lp l p -> n < l_dims l -> (Qabs (p n) <= v)%Q.
Proof. intros HB HC Hw Hd H Hr. apply (fresh_radius solve Hsolve l r); [|exact Hd|exact Hr]. apply (inputs_fresh solve B C d mid hi l HB HC Hw H). Qed.
End P.

From Verif Require Import Solver Ex_Core Ex_Approx.
Open Scope nat_scope.

(** the columns 0.. of a successor LP are the variables of the first mode: the radius of {10}, entered from {0} by x := x + 10, is computed as 0 *)
Theorem C16_successor_refuted : exists v p, sset_run fm_solver (exL false) exT_s /\ compute_radius_inf fm_solver (ss_lpi exT_s) = Ok (Some v) /\ (v == 0)%Q /\ in_lp (ss_lpi exT_s) p /\ (Qabs (p 0%nat) == 10)%Q.
Proof.
  exists 0%Q, (fun _ => 10%Q). split; [exact exT_s_run|]. split; [vm_compute; reflexivity|]. split; [reflexivity|]. split; [|reflexivity].
  exists (fun i => match i with 0 | 1 => 0%Q | _ => 10%Q end). split; [apply satb_ok; vm_compute; reflexivity|intros i Hi; vm_compute in Hi; destruct i; [reflexivity|lia]].
Qed.

(** so the LGG set is too small there: with exp(1) = 3, |A| = 1, tau = 1 the bloating must be 1 * 10, and the point 2 * 10 + 10 be in the set *)
Theorem C46_lgg_radius_refuted : exists s', apply_approx_model fm_solver (fun _ => 3%Q) 1 ApLgg (exL false) exT_s = Ok (s', None) /\ norm_inf exL_mat = 1%Q /\
  in_lp (ss_lpi exT_s) (fun _ => 10%Q) /\ ~ in_lp (ss_lpi s') (fun i => (mapply (m_bm (exL_mode false) 1) (fun _ => 10%Q) i + (3 - 1 - 1 * 1) * 10)%Q).
Proof.
  exists (match apply_approx_model fm_solver (fun _ => 3%Q) 1 ApLgg (exL false) exT_s with Ok (s', _) => s' | _ => exT_s end). split; [vm_compute; reflexivity|]. split; [reflexivity|]. split.
  - exists (fun i => match i with 0 | 1 => 0%Q | _ => 10%Q end). split; [apply satb_ok; vm_compute; reflexivity|intros i Hi; vm_compute in Hi; destruct i; [reflexivity|lia]].
  - intro K. apply (lowest_ok _ (-1)%Q (-20)%Q) in K; [|vm_compute; reflexivity|vm_compute; lia|vm_compute; lia]. vm_compute in K. apply K. reflexivity.
Qed.

(** the invariant rows recorded for the old LP are kept although apply_approx_model replaced it (stateset.py:257-258): for an entry set that the
    invariant has cut, the row number recorded may be an equation of the new LP.  Entry set [0, 3] after a transition, invariant x <= 2, x doubles: the
    execution 1/2, 1, 2 satisfies the invariant at all steps, and no point between 1 and 2 is in the set computed for step 1 *)
Theorem C46_stale_rows_refuted : exists s1 ops1 s2 s3 ops3 s4, sset_run fm_solver (exL true) (exL_s true) /\ intersect_invariant fm_solver (exL true) (exL_s true) = Ok (s1, ops1, true) /\
  apply_approx_model fm_solver (fun q => q) 1 ApChull (exL true) s1 = Ok (s2, None) /\ intersect_invariant fm_solver (exL true) s2 = Ok (s3, ops3, true) /\ ss_step1 (exL true) s3 = Ok s4 /\
  exists x, in_lp (ss_lpi s1) (x 0) /\ run_of (exL_mode true) 3 x (fun _ _ => 0%Q) /\ (x 1%nat 0%nat == 1)%Q /\ (x 2%nat 0%nat == 2)%Q /\ forall t, (0 <= t <= 1)%Q -> ~ in_lp (ss_lpi s4) (between t (x 1) (x 2)).
Proof.
  pose (i1 := intersect_invariant fm_solver (exL true) (exL_s true)). pose (s1 := match i1 with Ok (s, _, _) => s | _ => dss0 end).
  pose (s2 := match apply_approx_model fm_solver (fun q => q) 1 ApChull (exL true) s1 with Ok (s, _) => s | _ => dss0 end).
  pose (i3 := intersect_invariant fm_solver (exL true) s2). pose (s3 := match i3 with Ok (s, _, _) => s | _ => dss0 end).
  pose (s4 := getr dss0 (ss_step1 (exL true) s3)).
  exists s1, (match i1 with Ok (_, o, _) => o | _ => [] end), s2, s3, (match i3 with Ok (_, o, _) => o | _ => [] end), s4.
  split; [exact (exL_s_run true)|]. split; [vm_compute; reflexivity|]. split; [vm_compute; reflexivity|]. split; [vm_compute; reflexivity|]. split; [vm_compute; reflexivity|].
  exists (fun k _ => (pow2 k * (1 # 2))%Q). split; [|split; [|split; [reflexivity|split; [reflexivity|]]]].
  - exists (fun _ => (1 # 2)%Q). split; [apply satb_ok; vm_compute; reflexivity|intros i Hi; vm_compute in Hi; destruct i; [reflexivity|lia]].
  - intros k Hk. split; [|split; [exact Logic.I|]].
    + intros c [<-|[]]. left. destruct k as [|[|[|k]]]; [vm_compute; discriminate|vm_compute; discriminate|vm_compute; discriminate|lia].
    + intros i Hi. change (m_dims (exL_mode true)) with 1%nat in Hi. cbn [m_bm m_b exL_mode]. rewrite exL_app by exact Hi. cbn [pow2]. rewrite !Qred_correct. ring.
  - intros t T K. apply (lowest_ok _ 1%Q 4%Q) in K; [|vm_compute; reflexivity|vm_compute; lia|vm_compute; lia]. unfold between in K. cbn [pow2] in K. rewrite !Qred_correct in K. lra.
Qed.

(** hypotheses of the theorems above: the initial set [0, 3], x doubling, no invariant *)
Example C46_witness : exists s' s2 s3, no_rows (exL_i false) /\ sset_run fm_solver (exL false) (exL_i false) /\ apply_approx_model fm_solver (fun q => q) 1 ApChull (exL false) (exL_i false) = Ok (s', None) /\
  rounds fm_solver (exL false) s' 1 s2 /\ apply_approx_model fm_solver (fun _ => 3%Q) 1 ApLgg (exL false) (exL_i false) = Ok (s3, None) /\ fresh fm_solver (ss_lpi (exL_i false)) /\
  in_lp (ss_lpi (exL_i false)) (fun _ => 3%Q) /\ run_of (exL_mode false) 2 (fun k _ => (pow2 k * 3)%Q) (fun _ _ => 0%Q).
Proof.
  pose (s1 := match apply_approx_model fm_solver (fun q => q) 1 ApChull (exL false) (exL_i false) with Ok (s, _) => s | _ => dss0 end).
  exists s1, (getr dss0 (ss_step1 (exL false) s1)), (match apply_approx_model fm_solver (fun _ => 3%Q) 1 ApLgg (exL false) (exL_i false) with Ok (s, _) => s | _ => dss0 end).
  split; [intros j K; vm_compute in K; destruct K|]. split; [exact (exL_i_run false)|]. split; [vm_compute; reflexivity|]. split; [|split; [vm_compute; reflexivity|split; [|split]]].
  - eapply rdS with (s1 := s1) (s2 := s1) (ops := []); [apply rd0|vm_compute; reflexivity|left; vm_compute; reflexivity|vm_compute; reflexivity].
  - assert (H : from_box fm_solver [(0, 3)%Q] 0 false = Ok exL_l) by (vm_compute; reflexivity). unfold from_box in H. apply bind_ok in H as (z & _ & H).
    eexists. eexists. eexists. eexists. eexists. eexists. split; [|split; [|exact H]]; [repeat constructor|exact Logic.I].
  - exists (fun _ => 3%Q). split; [apply satb_ok; vm_compute; reflexivity|intros i Hi; vm_compute in Hi; destruct i; [reflexivity|lia]].
  - intros k Hk. split; [intros c []|]. split; [exact Logic.I|]. intros i Hi. change (m_dims (exL_mode false)) with 1%nat in Hi. cbn [m_bm m_b exL_mode]. rewrite exL_app by exact Hi. cbn [pow2]. rewrite !Qred_correct. ring.
Qed.
