(** Contracts of StateSet construction and stepping. *)
From Verif Require Import Base BaseFacts LpModel LpSpec SetSpec LpUtil LpFacts LpWf SetFacts SetFacts2 OpsFacts OpsFacts2 OpsFacts3 OpsFacts4
  ApiSpec ApiFacts Automaton StateSet HybridSpec FlowFacts.
Open Scope nat_scope.

(** the rows other than the basis-matrix and input rows: a condition on the initial columns and, independently, one on each
    block of input columns *)
Definition hasC (m : mode) (l : lp) (k : nat) (C : vec -> Prop) : Prop :=
  match m_b m with
  | None => forall x, core_sat l x <-> C x
  | Some _ => (forall x y, (forall c, c < l_cvo l -> (x c == y c)%Q) -> C x -> C y) /\
              forall x, core_sat l x <-> C x /\ forall j, j < k -> input_ok m (fun i => x (uoff l + m_nu m * j + i)%nat)
  end.

Definition init_of (n : nat) (l : lp) (C : vec -> Prop) (x0 : vec) : Prop :=
  exists x, C x /\ veq n x0 (fun i => x (snd (l_bm l) + i)%nat).

Section WithSolver.
Variable solve : solver.
Hypothesis Hsolve : solver_ok solve.

Record st_ok (a : ha) (s : sset) (x : csr) : Prop := {
  st_mode : ss_mode s < List.length (ha_modes a);
  st_a : m_a (get_mode a (ss_mode s)) = Some x;
  st_dims : l_dims (ss_lpi s) = c_nr x;
  st_api : exists js, api solve (ss_lpi s) (Some (bm_of (get_mode a (ss_mode s)) (c_nr x) (ss_step s), m_nu (get_mode a (ss_mode s)),
                                                  ies_of (get_mode a (ss_mode s)) (ss_step s), js))
                      /\ forall j, In (Some j) (ss_rows s) -> In j js;
  st_bm : ss_bm s = Some (bm_of (get_mode a (ss_mode s)) (c_nr x) (ss_step s));
  st_ies : ss_ies s = match m_b (get_mode a (ss_mode s)) with None => None | Some _ => Some (ies_of (get_mode a (ss_mode s)) (ss_step s)) end;
  st_rows : List.length (ss_rows s) = List.length (m_inv (get_mode a (ss_mode s)));
  st_prod : (exists c, l_ie (ss_lpi s) = Some c) -> (forall j, ~ In (Some j) (ss_rows s)) ->
            exists C, hasC (get_mode a (ss_mode s)) (ss_lpi s) (ss_step s) C }.

Lemma st_wf a s x : st_ok a s x ->
  wf_lp (ss_lpi s) (bm_of (get_mode a (ss_mode s)) (c_nr x) (ss_step s)) (m_nu (get_mode a (ss_mode s))) (ies_of (get_mode a (ss_mode s)) (ss_step s))
  /\ 0 < c_nr x.
Proof. intro S. destruct (st_api _ _ _ S) as (js & H & _). apply (api_ok solve Hsolve) in H as (_ & _ & H & W & _). rewrite (st_dims _ _ _ S) in H. auto. Qed.

(** in_lp of an LP with such a description *)
Lemma hasC_desc m x l k C p :
  m_a m = Some x -> wf_mode m x -> l_dims l = c_nr x ->
  wf_lp l (bm_of m (c_nr x) k) (m_nu m) (ies_of m k) -> (m_b m <> None -> exists c, l_ie l = Some c) ->
  hasC m l k C -> in_lp l p <-> desc m (c_nr x) (init_of (c_nr x) l C) k p.
Proof.
  intros Hx W Hd WL Hie HC. rewrite (wf_in_lp _ _ _ _ p WL). rewrite Hd. unfold hasC in HC. assert (WI := wfm_ie _ _ W).
  assert (Hc1 := wf_bmc _ _ _ _ WL). assert (Hu := wf_uoff _ _ _ _ WL).
  destruct (m_b m) as [[[b uc] ur]|] eqn:Eb.
  - destruct WI as (Huc & Hnr & Hnc & Hdims & _). destruct HC as [Hloc HC].
    assert (Hnu : m_nu m = c_nc uc) by (unfold m_nu; rewrite Eb; reflexivity).
    assert (Hval : forall y i, i < c_nr x -> (cur_of l (bm_of m (c_nr x) k) (m_nu m) (ies_of m k) y i
        == dval m (c_nr x) k (fun c => y (snd (l_bm l) + c)%nat) (fun j c => y (uoff l + m_nu m * j + c)%nat) i)%Q).
    { intros y i Hi. unfold cur_of, dval, ies_of. rewrite Eb. apply Qplus_comp; [unfold mapply; apply ldot_shift|].
      apply (ie_val_isum m k 0 i). }
    split.
    + intros (y & Hy & Hp). apply HC in Hy as [HCy Hin].
      exists (fun c => y (snd (l_bm l) + c)), (fun j c => y (uoff l + m_nu m * j + c)). split; [|split; auto].
      * exists y. split; auto. apply veq_refl.
      * intros i Hi. rewrite (Hp i Hi). apply Hval; auto.
    + intros (x0 & us & (y & HCy & Hx0) & Hin & Hp).
      set (z := fun c => if c <? uoff l then y c else us ((c - uoff l) / m_nu m) ((c - uoff l) mod m_nu m)).
      assert (Hz1 : forall c, c < l_cvo l -> z c = y c).
      { intros c Hc. unfold z. destruct (Nat.ltb_spec c (uoff l)); [auto|lia]. }
      assert (Hz2 : forall j c, c < m_nu m -> z (uoff l + m_nu m * j + c) = us j c).
      { intros j c Hc. unfold z. destruct (Nat.ltb_spec (uoff l + m_nu m * j + c) (uoff l)); [lia|].
        replace (uoff l + m_nu m * j + c - uoff l) with (j * m_nu m + c) by lia.
        rewrite Nat.div_add_l by lia. rewrite Nat.div_small by lia. rewrite Nat.add_0_r.
        rewrite Nat.add_comm, Nat.mod_add by lia. rewrite Nat.mod_small by lia. reflexivity. }
      exists z. split.
      * apply HC. split.
        -- apply (Hloc y); auto. intros c Hc. rewrite Hz1 by auto. reflexivity.
        -- intros j Hj. specialize (Hin j Hj). unfold input_ok in *. rewrite Eb in *. apply (poly_ext_lt uc ur (us j)); auto.
           intros c Hc. rewrite Hz2 by lia. reflexivity.
      * intros i Hi. rewrite (Hp i Hi). rewrite (Hval z i Hi). unfold dval. rewrite Eb. apply Qplus_comp.
        -- apply (mapply_ext (c_nr x) (c_nr x)); [apply bm_of_dims; auto|auto|]. intros c Hc. rewrite (Hx0 c Hc). rewrite Hz1 by lia. reflexivity.
        -- apply isum_ext. intros j Hj. apply (mapply_ext (c_nr x) (c_nc uc)); [apply Hdims|auto|].
           intros c Hc. rewrite Hz2 by lia. reflexivity.
  - assert (Hval : forall y i, i < c_nr x -> (cur_of l (bm_of m (c_nr x) k) (m_nu m) (ies_of m k) y i
        == mapply (bm_of m (c_nr x) k) (fun c => y (snd (l_bm l) + c)%nat) i)%Q).
    { intros y i Hi. unfold cur_of, ies_of. rewrite Eb. cbn [ie_val]. rewrite Qplus_0_r. unfold mapply. apply ldot_shift. }
    split.
    + intros (y & Hy & Hp). exists (fun c => y (snd (l_bm l) + c)), (fun _ _ => 0%Q). split; [|split].
      * exists y. split; [apply HC; auto|apply veq_refl].
      * intros j Hj. unfold input_ok. rewrite Eb. exact I.
      * intros i Hi. rewrite (Hp i Hi). unfold dval. rewrite Eb. rewrite (Hval y i Hi). ring.
    + intros (x0 & us & (y & HCy & Hx0) & _ & Hp). exists y. split; [apply HC; auto|].
      intros i Hi. rewrite (Hp i Hi), (Hval y i Hi). unfold dval. rewrite Eb. rewrite Qplus_0_r.
      apply (mapply_ext (c_nr x) (c_nr x)); [apply bm_of_dims; auto|auto|exact Hx0].
Qed.

(** ** new_stateset *)
Lemma new_stateset_ok a l m lo hi ops conc s x nu :
  wf_ha a -> m < List.length (ha_modes a) -> m_a (get_mode a m) = Some x -> api solve l (Some (ident (c_nr x), nu, [], [])) ->
  (nu = m_nu (get_mode a m)) -> l_dims l = c_nr x -> new_stateset a l m lo hi ops conc = Ok s ->
  st_ok a s x /\ ss_lpi s = l /\ ss_mode s = m /\ ss_step s = 0 /\ ss_lo s = lo /\ ss_hi s = hi /\ ss_conc s = conc /\ ss_ops s = ops
  /\ ss_rows s = repeat None (List.length (m_inv (get_mode a m))).
Proof.
  intros WH Hm Hx Hap -> Hd H. unfold new_stateset in H. rewrite Hx in H. apply bind_ok in H as (bm & Hb & H).
  assert (Hbm : bm = Some (ident (c_nr x))).
  { apply bind_ok in Hb as (M & _ & Hb). destruct (_ =? _); [|destruct (_ || _); discriminate]. destruct (allclose _ _); [|discriminate]. injection Hb as <-. reflexivity. }
  subst bm. injection H as <-. split; [|cbn; repeat (split; [reflexivity|]); reflexivity].
  constructor; cbn [ss_mode ss_lpi ss_step ss_bm ss_ies ss_rows]; auto.
  - exists []. split.
    + unfold bm_of, ies_of. cbn [Nat.eqb seq map]. destruct (m_b _); exact Hap.
    + intros j Hj. apply repeat_spec in Hj. discriminate.
  - unfold ies_of. destruct (m_b _); reflexivity.
  - apply repeat_length.
  - intros [c Hc] _. exists (core_sat l). unfold hasC. destruct (m_b (get_mode a m)) eqn:Eb; [|tauto].
    assert (HI := api_ok solve Hsolve _ _ Hap). destruct HI as (_ & _ & _ & W & _). split.
    + intros y z Hyz Hy. eapply core_sat_ext; [exact W| |exact Hy]. intros c0 Hc0 Hor.
      assert (HW := wf_ies _ _ _ _ W). unfold uoff in Hor. rewrite Hc in *. destruct c as [ier iec]. destruct HW as (H1 & H2 & H3 & _).
      cbn [List.length] in H3. apply Hyz. lia.
    + intro y. split; [intro Hy; split; auto; intros j Hj; lia|tauto].
Qed.

(** ** stepping *)
Lemma add_inputs_ok md x mid count : forall l ies from l' ies' BM js,
  wf_mode md x -> api solve l (Some (BM, m_nu md, ies, js)) -> add_inputs l md mid ies from count = Ok (l', ies') ->
  api solve l' (Some (BM, m_nu md, ies', js)) /\ ies' = ies ++ map (m_ie md) (seq from count) /\ same_layout l l' /\
  (0 < count -> exists c, l_ie l = Some c) /\
  forall y, core_sat l' y <-> core_sat l y /\ forall j, List.length ies <= j < List.length ies + count -> input_ok md (fun i => y (uoff l + m_nu md * j + i)%nat).
Proof.
  induction count as [|count IH]; intros l ies from l' ies' BM js W Hap H.
  - injection H as <- <-. split; auto. split; [rewrite app_nil_r; auto|]. split; [apply same_layout_refl|]. split; [lia|].
    intro y. split; [intro Hy; split; auto; intros j Hj; lia|tauto].
  - cbn [add_inputs] in H. assert (WI := wfm_ie _ _ W). destruct (m_b md) as [[[b uc] ur]|] eqn:Eb; [|discriminate].
    destruct WI as (Huc & Hnr & _ & _ & _). apply bind_ok in H as (l1 & H1 & H).
    assert (Hnu : m_nu md = c_nc uc) by (unfold m_nu; rewrite Eb; reflexivity).
    assert (Hap1 : api solve l1 (Some (BM, m_nu md, ies ++ [m_ie md from], js))) by (eapply api_inputs; eauto).
    destruct (api_ok solve Hsolve _ _ Hap) as (_ & _ & _ & WL & _).
    destruct (add_input_effects_wf _ _ _ _ _ _ _ _ _ _ WL Huc (eq_sym Hnu) Hnr H1) as (_ & SL & _ & _ & Hnc & Hcore & Hie & _).
    destruct (IH _ _ _ _ _ _ _ W Hap1 H) as (G1 & G2 & G3 & G4 & G5).
    split; auto. split; [rewrite G2, <- app_assoc; reflexivity|]. split; [eapply same_layout_trans; eauto|]. split; [auto|].
    intro y. rewrite G5, Hcore. rewrite (same_layout_uoff _ _ SL). rewrite app_length. cbn [List.length].
    rewrite Hnc. assert (Hin : input_ok md (fun i => y (uoff l + m_nu md * List.length ies + i)) <-> poly (c_rows uc) ur (fun i => y (uoff l + m_nu md * List.length ies + i))).
    { unfold input_ok. rewrite Eb. tauto. }
    rewrite <- Hin. split.
    + intros [[A B] C]. split; auto. intros j Hj. destruct (Nat.eq_dec j (List.length ies)) as [->|]; auto. apply C. lia.
    + intros [A B]. split; [split; auto; apply B; lia|]. intros j Hj. apply B. lia.
Qed.

Lemma ies_of_length m k : m_b m <> None -> List.length (ies_of m k) = k.
Proof. unfold ies_of. destruct (m_b m); [|congruence]. intros _. rewrite map_length, seq_length. reflexivity. Qed.

Lemma step_to_ok a s x k s' : wf_ha a -> st_ok a s x -> ss_step_to a s k = Ok s' ->
  st_ok a s' x /\ ss_step s <= k /\ ss_step s' = k /\ ss_mode s' = ss_mode s /\ ss_lo s' = ss_lo s + (k - ss_step s) /\
  ss_hi s' = ss_hi s + (k - ss_step s) /\ ss_conc s' = ss_conc s /\ ss_ops s' = ss_ops s /\ ss_rows s' = ss_rows s /\ ss_agg s' = ss_agg s /\
  ((m_b (get_mode a (ss_mode s)) = None \/ forall j, ~ In (Some j) (ss_rows s)) ->
   forall p', in_lp (ss_lpi s') p' <-> exists p, in_lp (ss_lpi s) p /\ flow (get_mode a (ss_mode s)) (k - ss_step s) p p').
Proof.
  intros WH S H. assert (Hm := st_mode _ _ _ S). assert (Hx := st_a _ _ _ S). assert (Hd := st_dims _ _ _ S).
  set (m := get_mode a (ss_mode s)) in *.
  assert (W : wf_mode m x). { destruct WH as [WH _]. specialize (WH _ Hm). fold m in WH. rewrite Hx in WH. exact WH. }
  unfold ss_step_to in H. fold m in H. apply bind_ok in H as (u & Hle & H). apply assert_ok in Hle. apply Nat.leb_le in Hle. clear u.
  destruct (Nat.eqb_spec (k - ss_step s) 0) as [E0|E0].
  - injection H as <-. assert (k = ss_step s) by lia. subst k. split; auto. split; auto. split; auto. split; auto. split; [lia|]. split; [lia|].
    split; auto. split; auto. split; auto. split; auto. intros _ p'. rewrite E0. cbn [flow]. rewrite (m_dims_eq m x Hx), <- Hd. split.
    + intro Hp. exists p'. split; auto. apply veq_refl.
    + intros (p & Hp & Hv). eapply in_lp_ext; eauto.
  - rewrite Hx in H. apply bind_ok in H as (l & Hl & H). apply bind_ok in H as ([l2 o2] & Hli & H). injection H as <-. cbn [fst snd] in *.
    destruct (st_api _ _ _ S) as (js & Hap & Hjs). fold m in Hap.
    destruct (api_ok solve Hsolve _ _ Hap) as (_ & _ & Hdpos & WL & _).
    assert (Ek : bm_of m (c_nr x) k = m_bm m k). { unfold bm_of. destruct (Nat.eqb_spec k 0); [lia|auto]. }
    assert (Hap1 : api solve l (Some (m_bm m k, m_nu m, ies_of m (ss_step s), js))) by (eapply api_basis; eauto).
    destruct (set_basis_wf _ _ _ _ _ _ WL Hl) as (WL1 & SL1 & _ & _ & Hc1 & _).
    assert (Hst := st_ies _ _ _ S). fold m in Hst.
    assert (Hpost : api solve l2 (Some (m_bm m k, m_nu m, ies_of m k, js)) /\ same_layout l l2 /\
       o2 = (match m_b m with None => None | Some _ => Some (ies_of m k) end) /\ (m_b m <> None -> exists c, l_ie l = Some c) /\
       forall y, core_sat l2 y <-> core_sat l y /\ (m_b m <> None -> forall j, ss_step s <= j < k -> input_ok m (fun i => y (uoff l + m_nu m * j + i)%nat))).
    { destruct (m_b m) as [bu|] eqn:Eb.
      - rewrite Hst in Hli. apply bind_ok in Hli as ([l3 i3] & Hadd & Hli). injection Hli as <- <-. cbn [fst snd].
        destruct (add_inputs_ok m x _ _ _ _ _ _ _ _ _ W Hap1 Hadd) as (G1 & G2 & G3 & G4 & G5).
        assert (Hlen : List.length (ies_of m (ss_step s)) = ss_step s) by (apply ies_of_length; congruence).
        assert (Hies : i3 = ies_of m k).
        { rewrite G2. unfold ies_of. rewrite Eb. rewrite <- map_app. f_equal. rewrite <- seq_app. f_equal. lia. }
        rewrite Hies in G1 |- *. split; [exact G1|]. split; [auto|]. split; [auto|]. split; [intros _; apply G4; lia|]. intro y. rewrite G5, Hlen.
        replace (ss_step s + (k - ss_step s)) with k by lia. split; [tauto|]. intros [A B]. split; auto. apply B. congruence.
      - injection Hli as <- <-. rewrite Hst. unfold ies_of in *. rewrite Eb in *. split; auto. split; [apply same_layout_refl|]. split; auto. split; [congruence|].
        intro y. split; [intro Hy; split; auto; congruence|tauto]. }
    clear Hli. destruct Hpost as (Hap2 & SL2 & -> & Hie & Hc2).
    assert (SL : same_layout (ss_lpi s) l2) by (eapply same_layout_trans; eauto).
    assert (Hcore : forall y, core_sat l2 y <-> core_sat (ss_lpi s) y /\
              (m_b m <> None -> forall j, ss_step s <= j < k -> input_ok m (fun i => y (uoff (ss_lpi s) + m_nu m * j + i)%nat))).
    { intro y. rewrite Hc2, Hc1. rewrite (same_layout_uoff _ _ SL1). tauto. }
    assert (HC : forall C, hasC m (ss_lpi s) (ss_step s) C -> hasC m l2 k C).
    { intros C HC. unfold hasC in *. destruct (m_b m) as [bu|] eqn:Eb.
      - destruct HC as [Hloc HC]. assert (Hcv : l_cvo l2 = l_cvo (ss_lpi s)) by apply SL. rewrite Hcv. split; auto. intro y. rewrite Hcore, HC.
        rewrite (same_layout_uoff _ _ SL). split.
        + intros [[A B] D]. split; auto. intros j Hj. destruct (Nat.lt_ge_cases j (ss_step s)); [apply B; auto|apply D; [congruence|lia]].
        + intros [A B]. split; [split; auto; intros j Hj; apply B; lia|]. intros _ j Hj. apply B. lia.
      - intro y. rewrite Hcore, HC. split; [tauto|]. intro Hy. split; auto. congruence. }
    destruct SL as (SLd & SLb & SLc & SLi).
    split; [|split; [auto|split; [auto|split; [auto|split; [auto|split; [auto|split; [auto|split; [auto|split; [auto|split; [auto|]]]]]]]]]].
    + constructor; cbn [ss_mode ss_lpi ss_step ss_bm ss_ies ss_rows]; auto.
      * congruence.
      * exists js. split; auto. fold m. rewrite Ek. exact Hap2.
      * fold m. rewrite Ek. reflexivity.
      * fold m. apply (st_rows _ _ _ S).
      * fold m. rewrite SLi. intros G1 G2. destruct (st_prod _ _ _ S G1 G2) as (C & HCC). exists C. apply HC. exact HCC.
    + cbn [ss_lpi]. intros Hcase p'.
      assert (HCex : exists C, hasC m (ss_lpi s) (ss_step s) C).
      { destruct (m_b m) as [bu|] eqn:Eb.
        - destruct Hcase as [Hcase|Hcase]; [discriminate|]. apply (st_prod _ _ _ S); auto.
          destruct Hie as (c & Hc); [congruence|]. exists c. destruct SL1 as (_ & _ & _ & E). rewrite <- E. exact Hc.
        - exists (core_sat (ss_lpi s)). unfold hasC. rewrite Eb. tauto. }
      destruct HCex as (C & HCs). assert (HCl := HC C HCs).
      destruct (api_ok solve Hsolve _ _ Hap2) as (_ & _ & _ & WL2 & _). rewrite <- Ek in WL2.
      assert (Hie1 : m_b m <> None -> exists c, l_ie (ss_lpi s) = Some c).
      { intro Hb. destruct (Hie Hb) as (c & Hc). exists c. destruct SL1 as (_ & _ & _ & E). rewrite <- E. exact Hc. }
      assert (Hie2 : m_b m <> None -> exists c, l_ie l2 = Some c) by (rewrite SLi; exact Hie1).
      rewrite (hasC_desc m x l2 k C p' Hx W ltac:(congruence) WL2 Hie2 HCl).
      replace (init_of (c_nr x) l2 C) with (init_of (c_nr x) (ss_lpi s) C) by (unfold init_of; rewrite SLb; reflexivity).
      replace k with ((k - ss_step s) + ss_step s) at 1 by lia.
      rewrite (desc_flow m x Hx W). split; intros (p & Hp & Hf); exists p; split; auto.
      * apply (hasC_desc m x (ss_lpi s) (ss_step s) C p Hx W Hd WL Hie1 HCs). exact Hp.
      * apply (hasC_desc m x (ss_lpi s) (ss_step s) C p Hx W Hd WL Hie1 HCs). exact Hp.
Qed.
End WithSolver.
