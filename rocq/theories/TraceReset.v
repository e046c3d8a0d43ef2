(** Taking a transition: the solutions of the LP after a reset describe a path with one more segment. *)
From Verif Require Import Base BaseFacts LpModel LpSpec SetSpec LpUtil LpFacts LpWf SetFacts SetFacts2 MinkFacts OpsFacts OpsFacts2 OpsFacts3 OpsFacts4
  ApiSpec ApiFacts Automaton StateSet HybridSpec FlowFacts StateFacts StateFacts2 StateFacts3 CoreModel CoreOps Names CexSpec NameFacts Layout TraceLp TraceState.
From Coq Require Import String.
Open Scope list_scope.
Open Scope nat_scope.

Lemma reval_ident i n x : i < n -> (reval (nth i (c_rows (ident_csr n)) []) x == x i)%Q.
Proof. intro Hi. unfold ident_csr. cbn [c_rows]. rewrite (nth_error_nth _ _ _ (nth_error_map_seq (fun i => [(i, 1%Q)]) 0 n i Hi)). simpl. ring. Qed.

Section T.
Variable solve : solver.
Hypothesis Hsolve : solver_ok solve.
Variable a : ha.
Hypothesis WH : wf_ha a.
Hypothesis Hinp : forall m, m < List.length (ha_modes a) -> m_b (get_mode a m) <> None -> m_inv (get_mode a m) = [].
Hypothesis Hidx : forall t, t < List.length (ha_trans a) -> nth_error (out_trans a (t_from (get_trans a t))) (t_index (get_trans a t)) = Some t.
Variable urgent : bool.
Variable init : nat -> vec -> Prop.
Hypothesis Hinit : forall m p q, init m p -> m < List.length (ha_modes a) -> is_error (get_mode a m) = false -> veq (m_dims (get_mode a m)) p q -> init m q.
Notation lax := tol13.
Notation past := (past a urgent init).
Notation TR := (TR a urgent init).

Lemma past_mode H m p : past H m p -> forall q, m < List.length (ha_modes a) -> is_error (get_mode a m) = false -> veq (m_dims (get_mode a m)) p q -> past H m q.
Proof.
  intros P q Hm He Hv. destruct P as [m p Hi HI|H s t p P L R].
  - apply P_init; [eapply Hinit; eauto|]. eapply (inv_vec a WH); eauto.
  - apply P_seg; [exact P|exact L|]. destruct R as [R1 R2]. split; [exact R1|]. intros i Hi. rewrite <- (R2 i Hi). symmetry. apply Hv.
    destruct L as (_ & _ & _ & Ht & _). rewrite <- (wft_dims _ _ (proj2 WH t Ht) He). exact Hi.
Qed.

(** ** the LP of a guard intersection *)
Lemma guard_tlp t l l1 tlp : guard_wf a t -> l_dims l = m_dims (get_mode a (t_from t)) -> get_guard_intersection solve t l = Ok (l1, Some tlp) ->
  l_names tlp = l_names l /\ same_layout l tlp /\ (forall y, lp_sat tlp y -> lp_sat l y /\ guard_ok t (fun i => y (l_cvo l + i))).
Proof.
  intros (g & rhs & Hg & Hok & Hnr & Hnc) Hd H. rewrite <- Hd in Hnc. unfold get_guard_intersection in H. rewrite Hg in H. apply bind_ok in H as ([l2 b] & Hrows & H).
  apply (guard_rows_sat_ok solve Hsolve) in Hrows as ((ob & ->) & _); [|exact Hnc].
  destruct b; [|discriminate]. apply bind_ok in H as (tl1 & Hcl & H). apply bind_ok in H as (tl2 & Hadd & H). apply bind_ok in H as (f & Hf & H).
  destruct f; [|discriminate]. injection H as _ <-. apply clone_ok in Hcl as ->.
  split; [apply (curtime_layout _ _ _ _ Hadd)|]. split.
  - apply add_curtime_ok in Hadd as [-> _]; [|exact Hnr]. repeat split.
  - intros y Hy. apply (add_curtime_sat _ _ _ _ y Hnr Hadd) in Hy as [Hy Hp]. split; [exact Hy|]. unfold guard_ok. rewrite Hg. exact Hp.
Qed.

(** ** the reset *)
Lemma guard_ext t p q : t < List.length (ha_trans a) -> guard_ok (get_trans a t) p -> veq (m_dims (get_mode a (t_from (get_trans a t)))) p q -> guard_ok (get_trans a t) q.
Proof.
  intros Ht Hg Hv. unfold guard_ok in *. destruct (wft_guard _ _ (proj2 WH t Ht)) as (g & rhs & Eg & _ & _ & Gc). rewrite Eg in *.
  intros i r c Hr Hc. rewrite <- (reval_ext_lt (m_dims (get_mode a (t_from (get_trans a t)))) r p q); [apply (Hg i r c Hr Hc)| |exact Hv]. rewrite Forall_forall in Gc. apply Gc. eapply nth_error_In; exact Hr.
Qed.
Definition sub_names (l l0 : lp) : Prop := l_names l = l_names l0 /\ same_layout l0 l.
Section R.
Variables (s : sset) (x0 : csr) (pre : list nat) (t : nat) (tlp l2 : lp).
Notation tr := (get_trans a t).
Hypothesis S : st_ok solve a s x0.
Hypothesis TS : TR s pre.
Hypothesis Ht : t < List.length (ha_trans a).
Hypothesis Hfr : t_from tr = ss_mode s.
Hypothesis Htl : sub_names tlp (ss_lpi s).
Hypothesis Hok : lp_ok tlp.
Hypothesis Hg : forall y, lp_sat tlp y -> lp_sat (ss_lpi s) y /\ guard_ok tr (fun i => y (l_cvo (ss_lpi s) + i)).
Hypothesis HJ : 0 < ss_step s \/ (urgent = true /\ forall p, in_lp (ss_lpi s) p -> inv_ok lax (get_mode a (ss_mode s)) p).

Lemma full_leaves y mk : lp_sat tlp y -> seg_leaves lax urgent a (sg_mink_add (sg_with_trans (full_seg a s y) t) mk) t.
Proof.
  intro Hy. destruct (Hg y Hy) as [Hy1 Hy2]. pose proof (full_moves solve Hsolve a WH Hinp urgent init s x0 pre y S TS Hy1) as M.
  assert (Hm := st_mode _ _ _ _ S). assert (Hd := st_dims _ _ _ _ S). assert (Ha := st_a _ _ _ _ S).
  assert (Ev : forall i, i < c_nr x0 -> of_list (end_of (ss_lpi s) y) i = y (l_cvo (ss_lpi s) + i)) by (intros i Hi; unfold end_of; rewrite Hd; apply of_vals; exact Hi).
  split; [exact Hm|]. split; [exact M|]. split; [reflexivity|]. split; [exact Ht|]. split; [exact Hfr|]. split.
  - cbn [full_seg sg_mink_add sg_with_trans sg_end]. apply (guard_ext t _ _ Ht Hy2). rewrite Hfr. unfold m_dims. rewrite Ha. intros i Hi. rewrite Ev by exact Hi. reflexivity.
  - destruct HJ as [J|[J1 J2]]; [left; exact J|right; split; [exact J1|]]. apply J2. exists y. split; [exact Hy1|]. intros i Hi. rewrite Hd in Hi. cbn [full_seg sg_mink_add sg_with_trans sg_end]. rewrite Ev by exact Hi. reflexivity.
Qed.

Hypothesis Hres : add_reset_variables tlp (t_to tr) (t_index tr) (t_reset tr) (t_mink tr) (has_inputs (get_mode a (t_to tr))) = Ok l2.

Lemma TR_reset s' : ss_lpi s' = l2 -> ss_mode s' = t_to tr -> ss_step s' = 0 -> ss_lo s' = ss_lo s -> TR s' (pre ++ [ss_step s]).
Proof.
  intros E1 E2 E3 E4. pose proof (proj2 WH t Ht) as WT. destruct (wft_reset _ _ WT) as [HR HR2]. destruct (wft_mink _ _ WT) as [HM _].
  destruct Htl as [En (SL1 & SL2 & SL3 & SL4)]. assert (Hm := st_mode _ _ _ _ S). assert (Hd := st_dims _ _ _ _ S). assert (Ha := st_a _ _ _ _ S).
  assert (W : wf_mode (get_mode a (ss_mode s)) x0). { destruct WH as [WH' _]. specialize (WH' _ Hm). rewrite Ha in WH'. exact WH'. }
  set (nd := match t_reset tr with None => l_dims tlp | Some r => c_nr r end). set (mv := match t_mink tr with None => 0 | Some (m, _, _) => c_nc m end). set (si := has_inputs (get_mode a (t_to tr))) in *.
  assert (Hnd : 0 < nd). { unfold nd. destruct (t_reset tr) as [R|]; [apply HR2; reflexivity|]. rewrite SL1, Hd. apply (wfm_pos _ _ W). }
  assert (Hpd : post_dims a tr = nd). { unfold post_dims, nd. destruct (t_reset tr); [reflexivity|]. rewrite Hfr, SL1, Hd. unfold m_dims. rewrite Ha. reflexivity. }
  destruct (reset_layout _ _ _ _ _ _ _ Hres) as (L1 & L2 & L3 & L4 & ri & L5). fold nd mv in L1, L2, L3, L4, L5.
  assert (Hnd' : 0 < c_nr (match t_reset tr with None => ident_csr (l_dims tlp) | Some r => r end)).
  { unfold nd in Hnd. destruct (t_reset tr); [exact Hnd|]. unfold c_nr, ident_csr. cbn [c_rows]. rewrite map_length, seq_length. exact Hnd. }
  pose proof (reset_wf tlp _ _ _ _ _ l2 Hok HR HM Hres Hnd' 0) as WL2.
  assert (Hu : uoff l2 = l_nc tlp + (mv + (1 + ((nd - 1) + (nd + (if si then nd else 0)))))).
  { unfold uoff. rewrite L5, L4, L2. destruct si; lia. }
  assert (Hnc : l_nc tlp = l_nc (ss_lpi s)) by (unfold l_nc; rewrite En; reflexivity).
  assert (Key : forall x, core_sat l2 x -> exists y, lp_sat l2 y /\ forall c, c < l_cvo l2 -> y c = x c).
  { intros x Hx. destruct (core_to_sat_eq _ _ _ _ _ WL2 Hx) as (y & Hy & He). exists y. split; [exact Hy|]. intros c Hc. apply He. left; exact Hc. }
  constructor.
  - rewrite E2. apply (wft_to _ _ WT).
  - rewrite E1, L2, L3, L4. lia.
  - exists (l_names l2). rewrite E1, E2, E3. split; [change (l_nc l2 = uoff l2)|split].
    + unfold l_nc. rewrite L1, !app_length, map_length, seq_length, !names_of_length. cbn [List.length]. rewrite Hu. unfold l_nc. destruct si; rewrite ?names_of_length; cbn [List.length]; lia.
    + cbn. rewrite app_nil_r. reflexivity.
    + intros x Hx. destruct (Key x Hx) as (y & Hy & He).
      apply (reset_sat tlp _ _ _ _ _ l2 HM Hres Hnd') in Hy as (R1 & R2 & R3 & R4 & _).
      assert (Hxt : lp_sat tlp x). { eapply lp_sat_ext; [apply (proj1 Hok)| |exact R1]. intros c Hc. rewrite He; [reflexivity|]. rewrite L4. lia. }
      destruct (Hg x Hxt) as [Hxs _]. destruct (st_wf solve Hsolve _ _ _ S) as [WLs _]. assert (Hc : core_sat (ss_lpi s) x) by (apply (wf_sat _ _ _ _ _ WLs) in Hxs; tauto).
      destruct (TR_full a urgent init s pre x TS Hc) as (H & H1 & H2 & H3).
      set (mk := vals x (l_nc tlp) mv). set (sg := sg_mink_add (sg_with_trans (full_seg a s x) t) mk).
      exists (H ++ [sg]). split; [|split].
      * intros k rest. rewrite <- app_assoc. cbn [app]. rewrite L1, Hu, !vals_app. cbn [Nat.add].
        rewrite combine_app by (rewrite vals_length; reflexivity). rewrite ce_names_app. rewrite En, Hnc, H1. cbn [bind].
        rewrite combine_app by (rewrite map_length, seq_length, vals_length; reflexivity). rewrite ce_names_app. rewrite run_mink by apply vals_length. cbn [bind].
        rewrite combine_app by reflexivity. rewrite ce_names_app. change (vals x (l_nc (ss_lpi s) + mv) 1) with [x (l_nc (ss_lpi s) + mv)]. cbn [combine ce_names].
        rewrite (dec_entry a _ (t_to tr) (t_index tr) _ k H _ t).
        2:{ assert (List.length H = List.length pre) as -> by (rewrite <- H3, map_length; reflexivity). rewrite nth_error_app2 by lia. replace (Datatypes.S (List.length pre) - List.length pre) with 1 by lia. reflexivity. }
        2:{ apply (wft_to _ _ WT). } 2:{ cbn. rewrite <- Hfr. apply Hidx. exact Ht. }
        cbn [bind]. rewrite combine_app by (rewrite names_of_length, vals_length; reflexivity). rewrite ce_names_app. rewrite run_init by apply vals_length. cbn [bind].
        rewrite combine_app by (rewrite names_of_length, vals_length; reflexivity). rewrite ce_names_app. rewrite run_cur by apply vals_length. cbn [bind].
        assert (Eacc : forall ce, ce_names a (pre ++ ss_step s :: k :: rest) ce (combine (if si then names_of "ti" (t_to tr) 0 nd else []) (vals x (l_nc (ss_lpi s) + mv + 1 + (nd - 1) + nd) (if si then nd else 0))) = Ok ce).
        { intro ce. destruct si; [apply run_acc; apply vals_length|reflexivity]. }
        rewrite Eacc. unfold sg, sg_mink_add, sg_with_trans, sg_start_add, sg_end_add, start_of, end_of, mk. cbn [sg_mode sg_start sg_end sg_steps sg_trans sg_mink sg_inputs app]. rewrite L2, L3, L4, Hnc.
        f_equal. f_equal. f_equal. f_equal.
        -- replace (l_nc (ss_lpi s) + mv + nd - (l_nc (ss_lpi s) + mv)) with (1 + (nd - 1)) by lia. rewrite vals_app. reflexivity.
        -- f_equal. lia.
      * apply P_seg; [|apply full_leaves; exact Hxt|].
        -- cbn [sg sg_mink_add sg_with_trans full_seg sg_mode sg_start]. apply (past_mode _ _ _ H2); [exact Hm|unfold is_error; rewrite Ha; reflexivity|].
           unfold m_dims. rewrite Ha. intros i Hi. unfold x0_of, start_of. rewrite of_vals; [reflexivity|]. pose proof (tr_bc _ _ _ _ _ TS) as B. rewrite Hd in B. lia.
        -- cbn [sg sg_mink_add sg_with_trans full_seg sg_end sg_mink app]. split.
           ++ pose proof HM as HM0. unfold mink_ok in HM0. subst mk mv. destruct (t_mink tr) as [[[M C] dd]|]; [|exact Logic.I]. destruct HM0 as (_ & M2 & M3).
              eapply poly_ext_lt; [exact M2| |exact R4]. rewrite M3. intros i Hi. rewrite of_vals by exact Hi. rewrite He; [reflexivity|]. rewrite L4. lia.
           ++ rewrite Hpd. intros i Hi. unfold x0_of. rewrite L3. rewrite <- He by (rewrite L4; lia).
              assert (Ev : forall i, i < c_nr x0 -> (y (l_cvo tlp + i)%nat == of_list (end_of (ss_lpi s) x) i)%Q).
              { intros j Hj. unfold end_of. rewrite Hd, of_vals by exact Hj. rewrite SL3, He; [reflexivity|]. rewrite L4. pose proof (proj2 Hok) as K. rewrite SL1, SL3, Hd in K. lia. }
              assert (R2' := R2). clear R2. pose proof HM as HM0. unfold mink_ok in HM0. unfold mk. subst mv nd. destruct (t_reset tr) as [R|] eqn:ER.
              ** destruct (HR2 R eq_refl) as [HRc _]. rewrite Hfr in HRc. unfold m_dims in HRc. rewrite Ha in HRc. cbn [opt_csr_ok] in HR.
                 destruct (t_mink tr) as [[[M C] dd]|]; (rewrite (R2' i Hi); apply Qplus_comp; [apply (reval_ext_lt (c_nc R)); [apply nth_csr_row; exact HR|rewrite HRc; exact Ev]|]).
                 --- destruct HM0 as (M1 & _ & _). apply (reval_ext_lt (c_nc M)); [apply nth_csr_row; exact M1|]. intros c Hcc. rewrite of_vals by exact Hcc. rewrite He; [reflexivity|]. rewrite L4. lia.
                 --- cbn [c_rows]. destruct i; reflexivity.
              ** assert (HMn : t_mink tr = None) by (apply (proj2 (wft_mink _ _ WT)); exact ER). rewrite HMn in *. cbn [c_nc] in *.
                 assert (Hi' : i < c_nr (ident_csr (l_dims tlp))) by (unfold c_nr, ident_csr; cbn [c_rows]; rewrite map_length, seq_length; exact Hi).
                 rewrite (R2' i Hi'), <- Ev by (rewrite <- Hd, <- SL1; exact Hi).
                 rewrite (reval_ident i (l_dims tlp) _ Hi). cbn [c_rows]. destruct i; cbn [nth reval]; ring.
      * rewrite map_app, H3. reflexivity.
  - intros _ x _ j Hj. rewrite E3 in Hj. lia.
  - intros x _ j Hj. rewrite E3 in Hj. lia.
  - rewrite list_sum_app, E3, E4. cbn [list_sum fold_right]. pose proof (tr_len _ _ _ _ _ TS). lia.
Qed.
End R.
End T.
