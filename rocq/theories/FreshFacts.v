(** Sets just built by from_constraints (also through from_input_constraints and minkowski_sum), and the LGG first segment. *)
From Verif Require Import Base BaseFacts LpModel LpSpec SetSpec LpUtil ApiSpec LpFacts LpWf SetFacts SetFacts2 MinkFacts OpsFacts OpsFacts4 ChullFacts ApiFacts Automaton StateSet Approx HybridSpec StateSpec FlowFacts StateFacts ApproxFacts.
Open Scope nat_scope.

Section S.
Variable solve : solver.
Hypothesis Hsolve : solver_ok solve.

Definition fresh (l : lp) : Prop := exists m rhs mid hi tn dopt, csr_ok m /\
  (match tn with None => True | Some (ts, ns) => List.length ns = c_nc m /\ Forall (fun t => t <> LO) ts end) /\
  from_constraints solve m rhs mid hi tn dopt = Ok l.

Lemma fresh_api l nu : fresh l -> 0 < l_dims l -> api solve l (Some (ident (l_dims l), nu, [], [])).
Proof. intros (m & rhs & mid & hi & tn & dopt & A & B & H) D. eapply api_from_constraints; eauto. Qed.
Lemma fresh_cols l x n : fresh l -> lp_sat l x -> n < l_dims l -> (x n == x (l_cvo l + n)%nat)%Q.
Proof.
  intros (m & rhs & mid & hi & tn & dopt & A & B & H) Hx Hn.
  assert (B' : match tn with None => True | Some (_, ns) => List.length ns = c_nc m end) by (destruct tn as [[ts ns]|]; [apply B|exact B]).
  destruct (from_constraints_wf solve Hsolve m rhs mid hi tn dopt l 0 A B' H) as (W & Hd & Hb & Hc & _).
  apply (wf_sat _ _ _ _ _ W) in Hx as [_ Hx]. destruct (Hx n Hn) as [E _]. rewrite E. unfold cur_of. cbn [ie_val]. rewrite Hb. cbn [snd].
  assert (K := mapply_ident (l_dims l) x n Hn). unfold mapply in K. rewrite K. ring.
Qed.
Lemma fresh_ncols l : fresh l -> l_dims l <= l_nc l.
Proof.
  intros (m & rhs & mid & hi & tn & dopt & A & B & H).
  assert (B' : match tn with None => True | Some (_, ns) => List.length ns = c_nc m end) by (destruct tn as [[ts ns]|]; [apply B|exact B]).
  destruct (from_constraints_wf solve Hsolve m rhs mid hi tn dopt l 0 A B' H) as (W & Hd & Hb & Hc & Hn & _). lia.
Qed.
Lemma fresh_radius l r : fresh l -> 0 < l_dims l -> compute_radius_inf solve l = Ok r ->
  exists v, r = Some v /\ (exists p n, in_lp l p /\ n < l_dims l /\ (v == Qabs (p n))%Q) /\ forall p n, in_lp l p -> n < l_dims l -> (Qabs (p n) <= v)%Q.
Proof. intros F D H. eapply (compute_radius_inf_spec solve Hsolve l r); [|apply fresh_ncols; exact F|exact D|exact H]. intros x n Hx Hn. apply fresh_cols; assumption. Qed.

Lemma no_lo_rep ty n : ty <> LO -> Forall (fun t => t <> LO) (repeat ty n).
Proof. intro H. apply Forall_forall. intros t Ht. apply repeat_spec in Ht. congruence. Qed.

Lemma inputs_fresh B C d mid hi l : csr_ok B -> csr_ok C -> c_nc C = c_nc B -> from_input_constraints solve B C d mid hi = Ok l -> fresh l.
Proof.
  intros HB HC Hw H. unfold from_input_constraints in H. eexists. eexists. exists mid, hi. eexists. eexists. split; [|split; [|exact H]].
  - unfold csr_ok in *. cbn [c_nc c_rows]. apply Forall_app. split.
    + apply Forall_forall. intros r Hr. apply in_map_iff in Hr as ((k & r0) & <- & Hin). cbn [fst snd]. constructor.
      * cbn [fst]. apply in_combine_l in Hin. apply in_seq in Hin. lia.
      * apply row_cols_lt_shift. rewrite Forall_forall in HB. apply HB. eapply in_combine_r; exact Hin.
    + apply Forall_forall. intros r Hr. apply in_map_iff in Hr as (r0 & <- & Hin). apply row_cols_lt_shift. rewrite <- Hw. rewrite Forall_forall in HC. apply HC. exact Hin.
  - cbn [c_nc]. split; [rewrite app_length, !map_length, !seq_length; reflexivity|]. apply Forall_app. split; apply no_lo_rep; discriminate.
Qed.
Lemma mink_fresh ls mid hi l : Forall lp_ok ls -> Forall no_lo ls -> minkowski_sum solve ls mid hi = Ok l -> fresh l.
Proof.
  intros Hok Hlo H. unfold minkowski_sum in H. destruct ls as [|l0 ls']; [discriminate|]. set (ls := l0 :: ls') in *. apply bind_ok in H as (? & E & H). apply assert_ok in E. rewrite forallb_forall in E.
  assert (Hdim : forall s, In s ls -> l_dims s = l_dims l0) by (intros s Hs; apply Nat.eqb_eq, E; auto).
  eexists. eexists. exists mid, hi. eexists. eexists. split; [|split; [|exact H]].
  - unfold csr_ok. cbn [c_nc c_rows]. apply Forall_app. split.
    + apply Forall_forall. intros r Hr. apply in_map_iff in Hr as (d & <- & Hd). apply in_seq in Hd. constructor; [cbn [fst]; lia|]. apply Forall_forall. intros (c & v) Hin.
      apply mink_cur_cols in Hin; auto; [exact (proj2 Hin)|]. intros s Hs. rewrite Hdim; auto; lia.
    + apply Forall_forall. intros r Hr. apply mink_rows_cols; auto.
  - cbn [c_nc]. split; [rewrite app_length, mink_names_length, map_length, seq_length; reflexivity|]. apply Forall_app. split; [apply no_lo_rep; discriminate|].
    apply Forall_forall. intros t Ht. apply in_flat_map in Ht as (s & Hs & Ht). rewrite Forall_forall in Hlo. specialize (Hlo s Hs). unfold no_lo in Hlo. unfold get_types in Ht.
    apply in_map_iff in Ht as (r & <- & Hr). rewrite Forall_forall in Hlo. apply Hlo. exact Hr.
Qed.

(** a set whose basis matrix is the identity and that has no inputs yet, mapped by a new basis matrix *)
Lemma basis_image l nu js BM l' : api solve l (Some (ident (l_dims l), nu, [], js)) -> set_basis_matrix l BM = Ok l' ->
  api solve l' (Some (BM, nu, [], js)) /\ l_dims l' = l_dims l /\ mat_dims (l_dims l) (l_dims l) BM /\
  forall p, in_lp l' p <-> exists q, in_lp l q /\ forall i, i < l_dims l -> (p i == mapply BM q i)%Q.
Proof.
  intros Ap H. assert (Ap' : api solve l' (Some (BM, nu, [], js))) by (eapply api_basis; eauto). split; [exact Ap'|].
  assert (HM := set_basis_matrix_ok _ _ _ H). destruct HM as [HM _].
  apply (api_ok solve Hsolve) in Ap as (_ & _ & _ & W & _). destruct (set_basis_wf _ _ _ _ _ _ W H) as (W' & SL & _ & _ & HC & _).
  assert (D : l_dims l' = l_dims l) by apply SL. assert (B : l_bm l' = l_bm l) by apply SL. split; [exact D|]. split; [exact HM|]. intro p.
  rewrite (wf_in_lp _ _ _ _ _ W').
  assert (E : forall x q, (forall i, i < l_dims l -> (q i == cur_of l (ident (l_dims l)) nu [] x i)%Q) -> forall i, i < l_dims l -> (mapply BM q i == cur_of l' BM nu [] x i)%Q).
  { intros x q Hq i Hi. unfold cur_of. cbn [ie_val]. rewrite B. rewrite Qplus_0_r.
    rewrite (ldot_shift (mrow BM i) (snd (l_bm l))). change (ldot (mrow BM i) 0 (fun j => x (snd (l_bm l) + j))) with (mapply BM (fun j => x (snd (l_bm l) + j)) i).
    eapply mapply_ext; [exact HM|exact Hi|]. intros j Hj. rewrite (Hq j Hj). unfold cur_of. cbn [ie_val]. rewrite Qplus_0_r. rewrite (ldot_shift (mrow (ident (l_dims l)) j) (snd (l_bm l))).
    exact (mapply_ident (l_dims l) (fun j => x (snd (l_bm l) + j)) j Hj). }
  split.
  - intros (x & Hx & Hp). exists (cur_of l (ident (l_dims l)) nu [] x). split.
    + apply (wf_in_lp _ _ _ _ _ W). exists x. split; [apply HC; exact Hx|intros; reflexivity].
    + intros i Hi. rewrite (Hp i) by lia. symmetry. apply E; [intros; reflexivity|exact Hi].
  - intros (q & Hq & Hp). apply (wf_in_lp _ _ _ _ _ W) in Hq as (x & Hx & Hq). exists x. split; [apply HC; exact Hx|].
    intros i Hi. rewrite D in Hi. rewrite (Hp i Hi). apply E; [exact Hq|exact Hi].
Qed.

(** the velocities the inputs allow: none, or B u with u admissible *)
Definition velocity (m : mode) (v : vec) : Prop := match m_b m with None => forall i, (v i == 0)%Q | Some (b, uc, ur) => in_input_set b uc ur v end.

Variable a : ha.
Hypothesis WH : wf_ha a.
Variables (qexp : Q -> Q) (tau : Q).
Definition lgg_alpha (n rx rv : Q) : Q := if Qlt_le_dec n (1 # 10000000) then 0%Q else ((qexp (tau * n) - 1 - tau * n) * (rx + rv / n))%Q.

Lemma approx_lgg_set s x s' beta : st_ok solve a s x -> ss_step s = 0 -> (match m_b (get_mode a (ss_mode s)) with Some (b, _, _) => csr_ok b | None => True end) ->
  apply_approx_lgg solve qexp tau a s = Ok (s', beta) ->
  let m := get_mode a (ss_mode s) in
  exists rx rv, compute_radius_inf solve (ss_lpi s) = Ok (Some rx) /\
    (match m_b m with None => (rv == 0)%Q | Some _ => (exists v i, velocity m v /\ i < m_dims m /\ (rv == Qabs (v i))%Q) /\ forall v i, velocity m v -> i < m_dims m -> (Qabs (v i) <= rv)%Q end) /\
    let al := lgg_alpha (norm_inf x) rx rv in
    let nxt q := exists p v b, in_lp (ss_lpi s) p /\ velocity m v /\ forall i, i < m_dims m -> (- al <= b i <= al)%Q /\ (q i == mapply (m_bm m 1) p i + tau * v i + b i)%Q in
    exists l2, l_dims l2 = m_dims m /\ (good l2 /\ exists lf, aggregate_chull solve 1 [ss_lpi s; l2] (ss_mode s) (has_inputs m) = Ok lf /\ s' = ss_with_lpi s lf) /\ (forall q, in_lp l2 q <-> nxt q) /\
    (forall t p q z, (0 <= t <= 1)%Q -> in_lp (ss_lpi s) p -> in_lp l2 q -> veq (m_dims m) z (mix t p q) -> in_lp (ss_lpi s') z) /\
    (bounded (ss_lpi s) -> bounded l2 -> (exists p, in_lp (ss_lpi s) p) -> (exists p, in_lp l2 p) -> forall z, in_lp (ss_lpi s') z ->
       exists t p q, (0 <= t <= 1)%Q /\ in_lp (ss_lpi s) p /\ in_lp l2 q /\ veq (m_dims m) z (mix t p q)).
Proof.
  intros St E0 Hcb H m. unfold apply_approx_lgg in H. fold m in H. assert (Ha := st_a _ _ _ _ St). fold m in Ha, Hcb. rewrite Ha in H. cbn [bind] in H.
  assert (Dx := st_dims _ _ _ _ St). assert (Dm : m_dims m = c_nr x) by (unfold m_dims; rewrite Ha; reflexivity).
  apply bind_ok in H as (c & Hc & H). apply clone_ok in Hc. subst c. apply bind_ok in H as (one & Hone & H). apply bind_ok in H as (rx0 & Hrx & H). destruct rx0 as [rx|]; [|discriminate]. cbn [bind] in H.
  apply bind_ok in H as ((ms & rv) & Hmr & H). fold (lgg_alpha (norm_inf x) rx rv) in H. change (lgg_factor qexp tau (norm_inf x)) with (qexp (tau * norm_inf x) - 1 - tau * norm_inf x)%Q in H.
  fold (lgg_alpha (norm_inf x) rx rv) in H. set (al := lgg_alpha (norm_inf x) rx rv) in *. apply bind_ok in H as (l2 & Hl2 & H). apply bind_ok in H as (lf & Hf & H).
  assert (Es : s' = ss_with_lpi s lf). { destruct (negb (Qle_bool (norm_inf x) (1 # 10000000)) && has_inputs m) in H; [|injection H as <- _; reflexivity]. apply bind_ok in H as (? & _ & H). apply bind_ok in H as (? & _ & H). injection H as <- _. reflexivity. }
  clear H. subst s'. destruct (st_api _ _ _ _ St) as (js & Ap & _). rewrite E0 in Ap. fold m in Ap.
  assert (Ap0 : api solve (ss_lpi s) (Some (ident (l_dims (ss_lpi s)), m_nu m, [], js))). { rewrite Dx. replace ([] : list mat) with (ies_of m 0); [exact Ap|]. unfold ies_of. destruct (m_b m); reflexivity. }
  assert (Dp : 0 < l_dims (ss_lpi s)) by (apply (api_ok solve Hsolve) in Ap0 as (_ & _ & K & _); exact K).
  destruct (basis_image _ _ _ _ _ Ap0 Hone) as (Ap1 & D1 & _ & I1).
  (* the sum with the scaled input set *)
  assert (HM : exists k, api solve ms (Some k) /\ l_dims ms = m_dims m /\
     (match m_b m with None => (rv == 0)%Q | Some _ => (exists v i, velocity m v /\ i < m_dims m /\ (rv == Qabs (v i))%Q) /\ forall v i, velocity m v -> i < m_dims m -> (Qabs (v i) <= rv)%Q end) /\
     forall q, in_lp ms q <-> exists p v, in_lp (ss_lpi s) p /\ velocity m v /\ forall i, i < m_dims m -> (q i == mapply (m_bm m 1) p i + tau * v i)%Q).
  { unfold velocity. destruct (m_b m) as [[[b uc] ur]|] eqn:Eb.
    - apply bind_ok in Hmr as (V & HV & Hmr). apply bind_ok in Hmr as (rv0 & Hrv & Hmr). destruct rv0 as [rv1|]; [|discriminate]. cbn [bind] in Hmr. apply bind_ok in Hmr as (V1 & HV1 & Hmr). apply bind_ok in Hmr as (ms0 & Hms & Hmr). injection Hmr as <- <-.
      assert (Wm : wf_mode m x). { destruct WH as [WM _]. specialize (WM _ (st_mode _ _ _ _ St)). fold m in WM. rewrite Ha in WM. exact WM. }
      assert (WI := wfm_ie _ _ Wm). rewrite Eb in WI. destruct WI as (Huc & Hnr & Hnc & _).
      destruct (from_input_constraints_in solve Hsolve b uc ur _ _ V Hcb Huc Hnc Hnr HV) as (DV & IV).
      assert (FV := inputs_fresh b uc ur _ _ V Hcb Huc Hnc HV).
      assert (G1 := api_good solve Hsolve _ _ Ap1). 
      assert (DVx : l_dims V1 = l_dims one).
      { unfold minkowski_sum in Hms. apply bind_ok in Hms as (? & E & _). apply assert_ok in E. cbn [forallb] in E. apply andb_prop in E as [_ E]. apply andb_prop in E as [E _]. apply Nat.eqb_eq in E. exact E. }
      assert (DV1 : l_dims V1 = l_dims V). { unfold scale_with_bm in HV1. apply bind_ok in HV1 as (bm & _ & HV1). apply set_basis_matrix_ok in HV1 as [_ ->]. reflexivity. }
      assert (DVp : 0 < l_dims V) by lia.
      assert (ApV := fresh_api V 0 FV DVp). assert (WV := api_ok solve Hsolve _ _ ApV). destruct WV as (_ & _ & _ & WV & _).
      destruct (scale_with_bm_in _ _ _ _ _ WV HV1) as (_ & IV1).
      assert (ApV1 : exists k, api solve V1 (Some k)). { unfold scale_with_bm in HV1. apply bind_ok in HV1 as (bm & _ & HV1). eexists. eapply api_basis; [exact ApV|exact HV1]. }
      destruct ApV1 as (kV & ApV1). assert (G2 := api_good solve Hsolve _ _ ApV1).
      assert (HG1 : Forall lp_ok [one; V1]) by (constructor; [apply G1|constructor; [apply G2|constructor]]). assert (HG2 : Forall no_lo [one; V1]) by (constructor; [apply G1|constructor; [apply G2|constructor]]).
      destruct (minkowski_sum_in solve Hsolve _ _ _ ms0 HG1 HG2 Hms) as (DD & IS).
      assert (Dms : l_dims ms0 = m_dims m) by (rewrite <- (DD one) by (left; reflexivity); congruence).
      exists (ident (l_dims ms0), 0, [], []). split; [apply fresh_api; [eapply mink_fresh; eauto|lia]|]. split; [exact Dms|]. split.
      + destruct (fresh_radius V _ FV DVp Hrv) as (rv' & E & (p & n & P1 & P2 & P3) & P4). injection E as <-. split.
        * exists p, n. split; [apply IV; exact P1|]. split; [lia|exact P3].
        * intros v i Hv Hi. apply P4; [apply IV; exact Hv|lia].
      + intro q. rewrite IS. cbn [in_sum]. rewrite Dms. split.
        * intros (q1 & r1 & Q1 & (q2 & r2 & Q2 & Z & S2) & S1). apply I1 in Q1 as (p & P1 & P2). apply IV1 in Q2 as (v & V2 & V3). exists p, v. split; [exact P1|]. split; [apply IV; exact V2|].
          intros i Hi. rewrite (S1 i Hi), (S2 i Hi), (Z i Hi), (P2 i) by lia. rewrite (V3 i) by lia. ring.
        * intros (p & v & P1 & V2 & S1). exists (mapply (m_bm m 1) p), (fun i => (tau * v i)%Q). split; [apply I1; exists p; split; [exact P1|intros; reflexivity]|]. split; [|intros i Hi; apply S1; exact Hi].
          exists (fun i => (tau * v i)%Q), (fun _ => 0%Q). split; [apply IV1; exists v; split; [apply IV; exact V2|intros; reflexivity]|]. split; [reflexivity|intros; ring].
    - injection Hmr as <- <-. exists (m_bm m 1, m_nu m, [], js). split; [exact Ap1|]. split; [congruence|]. split; [reflexivity|]. intro q. rewrite I1. rewrite Dm. split.
      + intros (p & P1 & P2). exists p, (fun _ => 0%Q). split; [exact P1|]. split; [reflexivity|]. intros i Hi. rewrite (P2 i) by lia. ring.
      + intros (p & v & P1 & V & P2). exists p. split; [exact P1|]. intros i Hi. rewrite (P2 i) by lia. rewrite (V i). ring. }
  destruct HM as (k & Apm & Dms & HR & IM). exists rx, rv. split; [exact Hrx|]. split; [exact HR|]. fold al. exists l2.
  (* bloating *)
  assert (HB : (exists k', api solve l2 k') /\ l_dims l2 = m_dims m /\ forall q, in_lp l2 q <-> exists p v b, in_lp (ss_lpi s) p /\ velocity m v /\ forall i, i < m_dims m -> (- al <= b i <= al)%Q /\ (q i == mapply (m_bm m 1) p i + tau * v i + b i)%Q).
  { destruct (Qeq_bool al 0) eqn:Ea.
    - injection Hl2 as <-. apply Qeq_bool_iff in Ea. split; [eauto|]. split; [exact Dms|]. intro q. rewrite IM. split.
      + intros (p & v & P1 & V & P2). exists p, v, (fun _ => 0%Q). split; [exact P1|]. split; [exact V|]. intros i Hi. split; [lra|]. rewrite (P2 i Hi). ring.
      + intros (p & v & b & P1 & V & P2). exists p, v. split; [exact P1|]. split; [exact V|]. intros i Hi. destruct (P2 i Hi) as [B1 B2]. rewrite B2. assert (b i == 0)%Q by lra. rewrite H. ring.
    - destruct k as [[[BM nu] IEs] js0]. assert (WK := api_ok solve Hsolve _ _ Apm). destruct WK as (_ & _ & Hd & W & _). assert (HI := bloat_in _ _ _ _ _ _ W Hd Hl2). destruct (bloat_ok _ _ _ _ _ _ W Hd Hl2) as (_ & SL & _).
      assert (D2 : l_dims l2 = l_dims ms) by apply SL. split; [exists None; eapply api_bloat; [exact Apm|exact Hl2]|]. split; [congruence|]. intro q. rewrite HI. rewrite Dms. split.
      + intros (q0 & b & Q0 & B). apply IM in Q0 as (p & v & P1 & V & P2). exists p, v, b. split; [exact P1|]. split; [exact V|]. intros i Hi. destruct (B i Hi) as (B1 & B2 & B3). split; [lra|]. rewrite B3, (P2 i Hi). reflexivity.
      + intros (p & v & b & P1 & V & P2). exists (fun i => (mapply (m_bm m 1) p i + tau * v i)%Q), b. split; [apply IM; exists p, v; split; [exact P1|]; split; [exact V|intros; reflexivity]|]. intros i Hi. destruct (P2 i Hi) as [B1 B2]. split; [lra|]. split; [lra|exact B2]. }
  destruct HB as ((k' & Ap2) & D2 & I2). split; [exact D2|]. split; [split; [exact (api_good solve Hsolve _ _ Ap2)|exists lf; split; [exact Hf|reflexivity]]|]. split; [exact I2|].
  assert (G1 := api_good solve Hsolve _ _ Ap0). assert (G2 := api_good solve Hsolve _ _ Ap2).
  assert (HG : Forall good [ss_lpi s; l2]) by (constructor; [exact G1|constructor; [exact G2|constructor]]).
  destruct (aggregate_chull_post solve Hsolve 1 _ _ _ _ HG Hf) as (_ & _ & HD & _ & J1 & J2).
  inversion HD as [|? ? DD1 HD']; subst. inversion HD' as [|? ? DD2 _]; subst.
  assert (Df : m_dims m = l_dims lf) by congruence.
  assert (HH : forall z, in_hull (l_dims lf) [ss_lpi s; l2] z <-> exists t p q, (0 <= t <= 1)%Q /\ in_lp (ss_lpi s) p /\ in_lp l2 q /\ veq (m_dims m) z (mix t p q)).
  { intro z. change [ss_lpi s; l2] with ([ss_lpi s] ++ [l2]). rewrite hull_app by discriminate. rewrite Df. split.
    - intros (t & p & q & T0 & T1 & P1 & P2 & V). exists t, p, q. apply hull_single in P1; [|exact DD1]. apply hull_single in P2; [|exact DD2]. auto.
    - intros (t & p & q & [T0 T1] & P1 & P2 & V). exists t, p, q. split; [exact T0|]. split; [exact T1|]. split; [apply hull_single; auto|]. split; [apply hull_single; auto|exact V]. }
  split.
  - intros t p q z T P1 P2 V. cbn [ss_with_lpi ss_lpi]. apply J1. apply HH. eauto 8.
  - intros B1 B2 N1 N2 z Hz. cbn [ss_with_lpi ss_lpi] in Hz. apply J2 in Hz; [apply HH; exact Hz| |]; (constructor; [assumption|constructor; [assumption|constructor]]).
Qed.
End S.
