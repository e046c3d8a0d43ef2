(** Resets and construction from constraints do not fail, and give bounded LPs (for C66). *)
From Verif Require Import Base BaseFacts LpModel LpSpec SetSpec LpFacts LpWf LpUtil SetFacts SetFacts2 MinkFacts OpsFacts OpsFacts2 OpsFacts3 OpsFacts4 AggFacts ApiSpec ApiFacts Automaton Bounded Bounded2 Bounded3.
From Coq Require Import Lia Lqa Setoid QArith.Qabs.
Open Scope nat_scope.

Definition mink_bnd (o : option (csr * csr * list Q)) : Prop :=
  match o with Some (M, C, d) => poly_bnd C d | None => True end.
Definition mink_shape (nd : nat) (o : option (csr * csr * list Q)) : Prop :=
  match o with Some (M, C, d) => nd <= c_nr M /\ c_nr C = List.length d | None => True end.

Lemma ident_csr_ok n : csr_ok (ident_csr n).
Proof.
  unfold ident_csr, csr_ok. cbn [c_nc c_rows]. apply Forall_map, Forall_forall. intros i Hi. apply in_seq in Hi. apply Forall_cons; [cbn; lia|apply Forall_nil].
Qed.
Lemma forallb_rows w rs : Forall (row_cols_lt w) rs -> forallb (row_cols_ltb w) rs = true.
Proof.
  intro H. apply forallb_forall. intros r Hr. rewrite Forall_forall in H. specialize (H r Hr). unfold row_cols_ltb. apply forallb_forall. intros e He.
  unfold row_cols_lt in H. rewrite Forall_forall in H. apply Nat.ltb_lt. exact (H e He).
Qed.
Lemma shift_row_lt w w' off r : row_cols_lt w r -> off + w <= w' -> row_cols_lt w' (shift_row off r).
Proof. unfold row_cols_lt, shift_row. rewrite !Forall_forall. intros H Hw e He. apply in_map_iff in He as (e0 & <- & He0). specialize (H e0 He0). cbn [fst]. lia. Qed.

Lemma reset_total l mid ti0 reset mink si : lp_ok l -> opt_csr_ok reset -> mink_ok mink ->
  c_nc (match reset with None => ident_csr (l_dims l) | Some r => r end) = l_dims l ->
  0 < c_nr (match reset with None => ident_csr (l_dims l) | Some r => r end) ->
  mink_shape (c_nr (match reset with None => ident_csr (l_dims l) | Some r => r end)) mink ->
  exists l', add_reset_variables l mid ti0 reset mink si = Ok l'.
Proof.
  intros (Hc & Hv) HR HM Hd Hnd HS. unfold add_reset_variables.
  set (rc := match reset with None => ident_csr (l_dims l) | Some r => r end) in *.
  assert (Hrc : csr_ok rc) by (unfold rc; destruct reset; [exact HR|apply ident_csr_ok]).
  destruct (match mink with None => (mkCsr 0 [], mkCsr 0 [], []) | Some t => t end) as [[mk mc] mrhs] eqn:Em.
  assert (HM' : csr_ok mk /\ csr_ok mc /\ c_nc mc = c_nc mk /\ c_nr mc = List.length mrhs /\ (c_nc mk = 0 \/ c_nr rc <= c_nr mk)).
  { destruct mink as [[[a b] c]|].
    - injection Em as <- <- <-. cbn in HM, HS. tauto.
    - injection Em as <- <- <-. split; [apply Forall_nil|]. split; [apply Forall_nil|]. cbn. auto. }
  destruct HM' as (Hmk & Hmc & Ew & Eh & Hrow).
  rewrite Hd, Nat.eqb_refl. cbn [assert bind].
  assert (E0 : (c_nc mk =? 0) || (c_nr rc <=? c_nr mk) = true).
  { apply orb_true_iff. destruct Hrow as [Z|Z]; [left; apply Nat.eqb_eq; exact Z|right; apply Nat.leb_le; exact Z]. }
  rewrite E0. cbn [bind]. clear E0.
  set (nd := c_nr rc) in *. set (mv := c_nc mk) in *.
  match goal with |- context [if (?A =? ?B) && ?C then _ else _] => assert (E1 : (A =? B) && C = true) end.
  { apply andb_true_iff. split.
    - apply Nat.eqb_eq. unfold c_nr. cbn [c_rows]. rewrite !app_length, !map_length, !seq_length. unfold c_nr in Eh. destruct si; rewrite ?map_length, ?seq_length; cbn [List.length]; lia.
    - cbn [c_rows]. apply forallb_rows. rewrite !Forall_app. split; [|split; [|split]].
      + apply Forall_map, Forall_forall. intros i Hi. apply in_seq in Hi. cbn beta. apply Forall_app. split; [|apply Forall_app; split].
        * apply (shift_row_lt (c_nc rc)); [apply nth_csr_row; exact Hrc|]. destruct si; cbn [l_cvo add_rows_eq0 add_rows_le add_cols with_rows with_names]; lia.
        * destruct (0 <? mv); [|constructor]. apply (shift_row_lt mv); [apply nth_csr_row; exact Hmk|destruct si; lia].
        * constructor; [|constructor]. cbn [fst]. destruct si; lia.
      + apply Forall_map, Forall_forall. intros i Hi. apply in_seq in Hi. cbn beta. destruct si; cbn [app]; repeat (apply Forall_cons; [cbn [fst]; lia|]); apply Forall_nil.
      + apply Forall_map, Forall_forall. intros r Hr. unfold csr_ok in Hmc. rewrite Forall_forall in Hmc. apply (shift_row_lt (c_nc mc)); [apply Hmc; exact Hr|destruct si; lia].
      + destruct si; [|constructor]. apply Forall_map, Forall_forall. intros i Hi. apply in_seq in Hi. cbn beta. apply Forall_cons; [cbn [fst]; lia|apply Forall_nil]. }
  rewrite E1. cbn [bind]. apply andb_true_iff in E1 as [E1 _]. apply Nat.eqb_eq in E1.
  match goal with |- exists l', bind (set_constraints_csr ?L ?M ?O) ?f = _ => set (M0 := M) in *; set (L0 := L) in * end.
  assert (Nc : l_nc L0 = l_nc l + mv + 2 * nd + (if si then nd else 0)).
  { unfold L0, l_nc. destruct si; cbn [l_names add_rows_eq0 add_rows_le add_cols with_rows with_names]; rewrite !app_length, map_length, seq_length, !names_of_length; cbn [List.length]; lia. }
  assert (Nr : l_nr L0 = l_nr l + (2 * nd + List.length mrhs + (if si then nd else 0))).
  { unfold L0, l_nr. destruct si; cbn [l_rows add_rows_eq0 add_rows_le add_cols with_rows with_names]; rewrite !app_length, ?map_length, !repeat_length; lia. }
  assert (Eh0 : c_nr M0 = 2 * nd + List.length mrhs + (if si then nd else 0)) by exact E1.
  assert (Es : exists l2, set_constraints_csr L0 M0 (l_nr l, 0) = Ok l2 /\ l_nc l2 = l_nc L0 /\ l_nr l2 = l_nr L0).
  { unfold set_constraints_csr. cbn [fst snd]. destruct (l_nr L0 <? l_nr l + c_nr M0) eqn:B1; [apply Nat.ltb_lt in B1; lia|].
    destruct (l_nc L0 <? 0 + c_nc M0) eqn:B2; [apply Nat.ltb_lt in B2; unfold M0 in B2; cbn [c_nc] in B2; destruct si; lia|]. cbn [orb].
    eexists. split; [reflexivity|]. split; [reflexivity|]. unfold l_nr. cbn [l_rows with_rows]. apply set_coefs_length. }
  destruct Es as (l2 & Es & N2 & R2). rewrite Es. cbn [bind]. unfold set_reach_vars. cbn [fst snd].
  rewrite (proj2 (Nat.leb_le (l_nr l + nd + nd) (l_nr l2))) by lia. cbn [assert bind].
  rewrite (proj2 (Nat.leb_le (l_nc l + mv + 2 * nd) (l_nc l2))) by (destruct si; lia). cbn [assert bind].
  destruct si; cbn [bind].
  - rewrite (proj2 (Nat.leb_le (l_nr l + 2 * nd + List.length mrhs + nd) (l_nr l2))) by lia. cbn [assert bind].
    rewrite (proj2 (Nat.leb_le (l_nc l + mv + 2 * nd + nd) (l_nc l2))) by lia. cbn [assert bind]. eauto.
  - eauto.
Qed.

Lemma reset_obj l mid ti0 reset mink si l' : lp_ok l -> opt_csr_ok reset -> mink_ok mink -> add_reset_variables l mid ti0 reset mink si = Ok l' ->
  0 < c_nr (match reset with None => ident_csr (l_dims l) | Some r => r end) -> obj_ok l -> obj_ok l'.
Proof.
  intros Hok HR HM Hrun Hnd O. destruct (reset_shape l mid ti0 reset mink si l' HM Hrun Hnd) as (_ & _ & _ & _ & Hnc & _).
  assert (Eo : l_obj l' = l_obj l).
  { unfold add_reset_variables in Hrun. destruct (match mink with None => (mkCsr 0 [], mkCsr 0 [], []) | Some t => t end) as [[mk mc] mrhs].
    inv_bind Hrun. inv_bind Hrun. inv_bind Hrun. apply bind_ok in Hrun as (l4 & Hcs & Hrun). apply set_reach_vars_ok in Hrun as (-> & _). apply set_constraints_csr_ok in Hcs as [-> _]. destruct si; reflexivity. }
  unfold obj_ok, row_cols_lt in *. rewrite Eo. rewrite Forall_forall in *. intros e He. specialize (O e He). rewrite Hnc. lia.
Qed.

Lemma reset_cb l mid ti0 reset mink si l' nu : lp_fine l -> opt_csr_ok reset -> mink_ok mink -> mink_bnd mink -> add_reset_variables l mid ti0 reset mink si = Ok l' ->
  0 < c_nr (match reset with None => ident_csr (l_dims l) | Some r => r end) ->
  wf_lp l' (ident (l_dims l')) nu [] /\ cb l' (fun _ => False) /\ obj_ok l'.
Proof.
  intros (Hok & O & B) HR HM HB Hrun Hnd.
  pose proof (reset_wf l mid ti0 reset mink si l' Hok HR HM Hrun Hnd nu) as W.
  pose proof (reset_shape l mid ti0 reset mink si l' HM Hrun Hnd) as (Hd & Hmc & Hmk & Hr & Hnc & Hdims & Hbm & Hcvo & Hie).
  rewrite Hdims. split; [exact W|]. split; [|exact (reset_obj _ _ _ _ _ _ _ Hok HR HM Hrun Hnd O)].
  apply (cb_of_sat _ _ _ _ W). intros c Hc.
  pose proof (reset_sat l mid ti0 reset mink si l' HM Hrun Hnd) as S0.
  set (rc := match reset with None => ident_csr (l_dims l) | Some r => r end) in *.
  set (mk := match mink with None => mkCsr 0 [] | Some (m, _, _) => m end) in *.
  set (mc := match mink with None => mkCsr 0 [] | Some (_, c, _) => c end) in *.
  set (mrhs := match mink with None => [] | Some (_, _, d) => d end) in *.
  assert (Hrc : csr_ok rc) by (unfold rc; destruct reset; [exact HR|apply ident_csr_ok]).
  assert (Bold : forall k, k < l_nc l -> bnd (lp_sat l') (fun x => x k)).
  { intros k Hk. apply (bnd_sub (lp_sat l)); [|exact (B k Hk)]. intros x Hx. apply S0 in Hx. tauto. }
  assert (Bmk : forall k, k < c_nc mk -> bnd (lp_sat l') (fun x => x (l_nc l + k))).
  { intros k Hk. apply (bnd_shift (lp_sat l') (poly (c_rows mc) mrhs) (l_nc l) k).
    - intros x Hx. apply S0 in Hx. tauto.
    - unfold mk, mc, mrhs in *. destruct mink as [[[a b] d]|]; [|cbn in Hk; lia]. cbn in HB, HM. apply HB. destruct HM as (_ & _ & ->). exact Hk. }
  assert (Bi : forall i, i < c_nr rc -> bnd (lp_sat l') (fun x => x (l_nc l + c_nc mk + i))).
  { intros i Hi. apply (bnd_ext _ (fun x => reval (nth i (c_rows rc) []) (fun k => x (l_cvo l + k)%nat) + reval (nth i (c_rows mk) []) (fun k => x (l_nc l + k)%nat))%Q).
    - intros x Hx. apply S0 in Hx as (_ & Hx & _). rewrite (Hx i Hi). reflexivity.
    - apply bnd_add.
      + apply (bnd_ext _ (reval (shift_row (l_cvo l) (nth i (c_rows rc) [])))); [intros x _; apply reval_shift|]. apply bnd_reval. intros k v Hin. apply Bold.
        assert (L : row_cols_lt (l_nc l) (shift_row (l_cvo l) (nth i (c_rows rc) []))) by (apply (shift_row_lt (c_nc rc)); [apply nth_csr_row; exact Hrc|destruct Hok; lia]).
        unfold row_cols_lt in L. rewrite Forall_forall in L. exact (L _ Hin).
      + apply (bnd_ext _ (reval (shift_row (l_nc l) (nth i (c_rows mk) [])))); [intros x _; apply reval_shift|]. apply bnd_reval. intros k v Hin.
        unfold shift_row in Hin. apply in_map_iff in Hin as ((k0 & v0) & E & Hin). injection E as <- <-. cbn [fst]. apply Bmk.
        assert (Hmkok : csr_ok mk) by (unfold mk; destruct mink as [[[a b] d]|]; [exact (proj1 HM)|constructor]).
        pose proof (nth_csr_row mk i Hmkok) as L. unfold row_cols_lt in L. rewrite Forall_forall in L. exact (L _ Hin). }
  destruct (Nat.lt_ge_cases c (l_nc l)) as [C0|C0]; [exact (Bold c C0)|].
  destruct (Nat.lt_ge_cases c (l_nc l + c_nc mk)) as [C1|C1]; [replace c with (l_nc l + (c - l_nc l)) by lia; apply Bmk; lia|].
  assert (Huo : uoff l' = l_nc l').
  { unfold uoff. rewrite Hie, Hnc, Hdims, Hcvo. destruct si; lia. }
  destruct Hc as [Hc|Hc]; [|lia].
  replace c with (l_nc l + c_nc mk + (c - l_nc l - c_nc mk)) by lia. apply Bi. rewrite Hcvo in Hc. lia.
Qed.

Section WithSolver.
Variable solve : solver.
Hypothesis Hsolve : solver_ok solve.

Lemma from_constraints_obj m rhs mid hi tn dopt l : from_constraints solve m rhs mid hi tn dopt = Ok l -> obj_ok l.
Proof. intro H. apply (from_constraints_shape solve Hsolve) in H as (-> & _). apply Forall_nil. Qed.

Lemma from_constraints_cb m rhs mid hi tn dopt l nu : csr_ok m -> (match tn with None => True | Some (_, ns) => List.length ns = c_nc m end) ->
  from_constraints solve m rhs mid hi tn dopt = Ok l -> (forall c, c < c_nc m -> bnd (tpoly (c_rows m) (fc_types rhs tn) rhs) (fun x => x c)) ->
  wf_lp l (ident (l_dims l)) nu [] /\ cb l (fun _ => False) /\ obj_ok l.
Proof.
  intros Hm Htn H HB. destruct (from_constraints_wf solve Hsolve m rhs mid hi tn dopt l nu Hm Htn H) as (W & Hd & Hbm & Hcvo & Hnc & Hie & Hs).
  split; [exact W|]. split; [|exact (from_constraints_obj _ _ _ _ _ _ _ H)].
  intros c Hc. assert (Hlt : c < c_nc m).
  { destruct Hc as [Hc|Hc]; [lia|]. exfalso. unfold uoff in Hc. destruct (l_ie l) as [[r0 c0]|] eqn:Ei.
    - assert (hi = true) by (destruct hi; [reflexivity|]; pose proof (proj2 Hie eq_refl); discriminate). subst hi.
      apply (from_constraints_shape solve Hsolve) in H as (-> & _). cbn [l_ie] in Ei. injection Ei as <- <-. cbn [l_dims] in *. lia.
    - pose proof (proj1 Hie eq_refl). subst hi. lia. }
  apply (bnd_sub (tpoly (c_rows m) (fc_types rhs tn) rhs)); [|exact (HB c Hlt)].
  intros x Hx. apply Hs. intros i r Hr. apply (Hx i r Hr). intros [].
Qed.
End WithSolver.
