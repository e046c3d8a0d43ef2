(** Contracts of guard intersection and of the two aggregations as API operations. *)
From Verif Require Import Base BaseFacts LpModel LpSpec SetSpec LpUtil LpFacts LpWf SetFacts SetFacts2 MinkFacts OpsFacts OpsFacts2 OpsFacts3 OpsFacts4
  AggFacts ApiSpec ApiFacts ChullFacts Automaton StateSet HybridSpec FlowFacts StateFacts StateFacts2.
Open Scope nat_scope.

Section WithSolver.
Variable solve : solver.
Hypothesis Hsolve : solver_ok solve.

Lemma set_min_dir_csr_ok l r w l1 : set_min_dir_csr l r w None = Ok l1 -> w <= l_dims l /\ l1 = with_obj l (shift_row (l_cvo l) r).
Proof.
  unfold set_min_dir_csr. intro H. apply bind_ok in H as (off & Ho & H). apply bind_ok in Ho as (u & Ha & Ho). injection Ho as <-.
  apply assert_ok in Ha. apply Nat.leb_le in Ha. apply bind_ok in H as (u2 & _ & H). injection H as <-. auto.
Qed.

Lemma dot_vals_shift r off xs : (dot_vals (map snd r) (map xs (map (fun e : nat * Q => off + fst e)%nat r)) == reval r (fun i => xs (off + i)%nat))%Q.
Proof.
  unfold dot_vals. induction r as [|[c v] r IH]; cbn; [reflexivity|]. cbn in IH. rewrite IH. ring.
Qed.

Lemma guard_rows_sat_ok rows : forall l width rhs l1 b, guard_rows_sat solve l width rows rhs = Ok (l1, b) -> Forall (row_cols_lt (l_dims l)) rows ->
  (exists o, l1 = with_obj l o) /\ (b = false -> List.length rows <= List.length rhs -> forall p, in_lp l p -> ~ poly rows rhs p) /\ (b = true -> List.length rows <= List.length rhs) /\
  (rows <> [] -> width <= l_dims l).
Proof.
  induction rows as [|r rows IH]; intros l width rhs l1 b H HF.
  - injection H as <- <-. split; [exists (l_obj l); destruct l; reflexivity|]. split; [discriminate|split; [cbn; lia|congruence]].
  - cbn [guard_rows_sat] in H. apply bind_ok in H as (l2 & H2 & H). apply bind_ok in H as (v & Hv & H).
    apply set_min_dir_csr_ok in H2 as [Hw ->]. assert (Hmin := minimize_spec solve Hsolve _ _ _ _ Hv).
    inversion HF as [|? ? Hr HF']; subst. destruct v as [vals|].
    + destruct rhs as [|c rhs]; [discriminate|]. destruct Hmin as (xs & -> & Hsat & Hopt).
      cbn [with_obj l_cvo l_obj] in *.
      assert (Hval := dot_vals_shift r (l_cvo l) xs).
      destruct (Qle_bool _ _) eqn:Eq in H.
      * apply IH in H as ((o & ->) & Hf & Ht & _); [|exact HF']. split; [exists o; apply with_obj_twice|]. split; [|split; [intro; cbn; apply le_n_S; auto|auto]].
        intros Hb Hlen p Hp Hpoly. apply poly_cons in Hpoly as [_ Hpoly]. cbn in Hlen. apply (Hf Hb ltac:(lia) p); auto. 
      * injection H as <- <-. split; [exists (shift_row (l_cvo l) r); reflexivity|]. split; [|split; [discriminate|auto]].
        intros _ _ p (y & Hy & Hpy) Hpoly. apply poly_cons in Hpoly as [Hpoly _].
        specialize (Hopt y Hy). rewrite !reval_shift in Hopt.
        assert (Hnle : ~ (dot_vals (map snd r) (map xs (map (fun e : nat * Q => (l_cvo l + fst e)%nat) r)) <= c)%Q).
        { intro Hle. apply Qle_bool_iff in Hle. congruence. }
        apply Hnle. rewrite Hval. eapply Qle_trans; [exact Hopt|].
        rewrite (reval_ext_lt (l_dims l) r (fun i => y (l_cvo l + i)%nat) p); auto.
    + injection H as <- <-. split; [exists (shift_row (l_cvo l) r); reflexivity|]. split; [|split; [discriminate|auto]].
      intros _ _ p (y & Hy & _) _. exact (Hmin y Hy).
Qed.

Definition guard_wf (a : ha) (t : trans) : Prop :=
  exists g rhs, t_guard t = Some (g, rhs) /\ csr_ok g /\ c_nr g = List.length rhs /\ Forall (row_cols_lt (m_dims (get_mode a (t_from t)))) (c_rows g).

Lemma guard_intersection_ok a t l k l1 o :
  guard_wf a t -> l_dims l = m_dims (get_mode a (t_from t)) -> api solve l k -> get_guard_intersection solve t l = Ok (l1, o) ->
  (exists ob, l1 = with_obj l ob) /\
  match o with
  | None => forall p, in_lp l p -> ~ guard_ok t p
  | Some tl => api solve tl None /\ l_dims tl = l_dims l /\ (forall p, in_lp tl p <-> in_lp l p /\ guard_ok t p) /\ exists p, in_lp tl p
  end.
Proof.
  intros (g & rhs & Hg & Hok & Hnr & Hnc) Hd Hap H. unfold get_guard_intersection in H. rewrite Hg in H.
  apply bind_ok in H as ([l2 b] & Hrows & H).
  assert (HF : Forall (row_cols_lt (l_dims l)) (c_rows g)).
  { rewrite Hd. exact Hnc. }
  assert (Hlen : List.length (c_rows g) <= List.length rhs) by (unfold c_nr in Hnr; lia).
  apply guard_rows_sat_ok in Hrows as ((ob & ->) & Hfalse & _ & Hwid); [|exact HF].
  assert (HG : forall p, guard_ok t p <-> poly (c_rows g) rhs p) by (intro p; unfold guard_ok; rewrite Hg; tauto).
  destruct b.
  - apply bind_ok in H as (tl & Hcl & H). apply bind_ok in H as (tl2 & Hadd & H). apply bind_ok in H as (f & Hf & H). injection H as <- <-.
    apply clone_ok in Hcl as ->. split; [exists ob; reflexivity|].
    assert (Hap1 : api solve (with_obj l ob) k) by (apply api_objective; exact Hap).
    assert (Hpost : api solve tl2 None /\ l_dims tl2 = l_dims l /\ forall p, in_lp tl2 p <-> in_lp l p /\ guard_ok t p).
    { destruct (Nat.eq_dec (c_nr g) 0) as [E0|E0].
      - unfold add_curtime_constraints in Hadd. destruct g as [gw grows]. unfold c_nr in *. cbn [c_rows c_nc] in *.
        destruct grows; [|discriminate]. destruct rhs; [|discriminate]. unfold set_constraints_csr in Hadd.
        destruct (_ || _) in Hadd; [discriminate|].
        assert (El : tl2 = with_obj l ob).
        { injection Hadd as <-. destruct l as [q1 q2 q3 q4 q5 q6 q7]; unfold add_rows_le, with_obj, with_rows, set_coefs; cbn [map overwrite l_rows l_names l_dims l_bm l_cvo l_ie l_obj c_rows fst].
          rewrite firstn_skipn, app_nil_r. reflexivity. }
        rewrite El.
        split; [|split; [reflexivity|]].
        + destruct k; [eapply api_forget|]; exact Hap1.
        + intro p. rewrite in_lp_with_obj, HG. split; [intro; split; auto; apply poly_nil|tauto].
      - assert (Hc : c_nc g <= l_dims (with_obj l ob)) by (cbn [with_obj l_dims]; apply Hwid; intro E; apply E0; unfold c_nr; rewrite E; reflexivity).
        destruct (add_curtime_in _ _ _ _ Hok Hc Hnr Hadd) as [D Hin]. split; [eapply api_curtime; eauto|]. split; [exact D|].
        intro p. rewrite Hin, in_lp_with_obj, HG. tauto. }
    destruct Hpost as (P1 & P2 & P3). apply (feas_in_lp solve Hsolve) in Hf. destruct f.
    + split; auto. split; auto. split; auto. apply Hf. reflexivity.
    + intros p Hp Hgp. assert (false = true) by (apply Hf; exists p; apply P3; auto). discriminate.
  - injection H as <- <-. split; [exists ob; reflexivity|]. intros p Hp Hgp. apply HG in Hgp. eapply Hfalse; eauto.
Qed.

(** ** aggregations *)
Lemma aggregate_api ls dirs width mid hi ls' l nu : 0 < width -> aggregate solve ls dirs width mid hi = Ok (ls', l) ->
  api solve l (Some (ident width, nu, [], [])) /\ l_dims l = width.
Proof.
  intros Hw H. destruct (aggregate_in solve Hsolve _ _ _ _ _ _ _ H) as (_ & Hd & _). split; [|exact Hd].
  unfold aggregate in H. inv_bind H. inv_bind H. inv_bind H. destruct (forallb _ dirs) eqn:Eb in H2; [|discriminate].
  inv_bind H. destruct a2 as [[ls2 rows] rhs]. inv_bind H. injection H as <- <-.
  apply (agg_dirs_spec solve Hsolve) in H3 as (F & P & L & Cc & N).
  assert (Hok : csr_ok (mkCsr width rows)).
  { unfold csr_ok. cbn [c_rows c_nc]. apply Forall_forall. intros r Hr. apply Forall_forall. intros [c v] Hin. cbn [fst].
    destruct (Cc r Hr) as (d & Hd' & Hc). specialize (Hc c v Hin). rewrite forallb_forall in Eb. specialize (Eb d Hd').
    apply Nat.eqb_eq in Eb. lia. }
  rewrite <- Hd. eapply api_from_constraints; [exact Hok| |exact H4|lia]. exact I.
Qed.

Lemma Forall_good_api ls : Forall (fun l => exists k, api solve l k) ls -> Forall good ls.
Proof. apply Forall_impl. intros l (k & H). apply (api_ok solve Hsolve) in H as (A & B & _). split; auto. Qed.

Lemma aggregate_chull_api fuel ls mid hi l nu : Forall good ls -> (forall s, In s ls -> 0 < l_dims s) -> 2 <= List.length ls ->
  aggregate_chull solve fuel ls mid hi = Ok l -> api solve l (Some (ident (l_dims l), nu, [], [])).
Proof.
  intros HG Hpos H2 H. destruct (aggregate_chull_post solve Hsolve _ _ _ _ _ HG H) as [Hne ([OK NL] & HD & _)].
  assert (Hd : 0 < l_dims l). { destruct ls as [|s ls]; [cbn in H2; lia|]. inversion HD; subst. rewrite <- H3. apply Hpos. left; auto. }
  destruct fuel as [|fuel]; [discriminate|]. cbn [aggregate_chull] in H.
  destruct ls as [|l1 [|l2 rest]]; [discriminate|cbn in H2; lia|].
  remember (l1 :: l2 :: rest) as ls eqn:Els.
  apply bind_ok in H as (news & Hnews & H). apply bind_ok in H as (L & HL & H). apply (go_ok (l1 :: l2 :: rest)) in Hnews. rewrite <- Els in Hnews.
  assert (HP : lp_cols_ok L /\ no_lo L).
  { destruct rest as [|l3 rest].
    - subst ls news. cbn [map] in HL. inversion HG as [|? ? G1 HG']; subst. inversion HG' as [|? ? G2 _]; subst.
      destruct (chull2_post l1 l2 L G1 G2 HL) as (A & B & _). auto.
    - assert (HL2 : (do a <- aggregate_chull solve fuel (firstn (Nat.div (List.length news) 2) news) mid hi;
                       do b <- aggregate_chull solve fuel (skipn (Nat.div (List.length news) 2) news) mid hi;
                       aggregate_chull solve fuel [a; b] mid hi) = Ok L).
      { subst ls news. exact HL. }
      clear HL. apply bind_ok in HL2 as (a & Ha & HL). apply bind_ok in HL as (b & Hb & HL).
      set (k := Nat.div (List.length news) 2) in *.
      assert (GN : Forall good news). { rewrite Hnews. apply Forall_red; auto. intros s [S1 S2]. split; [apply red_lp_ok|apply red_no_lo]; auto. }
      rewrite <- (firstn_skipn k news) in GN. apply Forall_app in GN as [GA GB].
      apply (aggregate_chull_post solve Hsolve) in Ha as [_ PA]; auto. apply (aggregate_chull_post solve Hsolve) in Hb as [_ PB]; auto.
      apply (aggregate_chull_post solve Hsolve) in HL as [_ PL]; [|constructor; [apply PA|constructor; [apply PB|constructor]]]. destruct PL as ([OL NL'] & _). split; auto. apply OL. }
  destruct HP as [P1 P2].
  apply (api_from_constraints solve _ _ _ _ _ _ _ nu) in H; auto; [|split].
  - unfold csr_ok, get_full_constraints. cbn [c_rows c_nc]. apply Forall_map. exact P1.
  - reflexivity.
  - unfold get_types. apply Forall_map. exact P2.
Qed.
End WithSolver.
