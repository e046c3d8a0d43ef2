(** Convex-hull aggregation does not fail on bounded, non-empty sets and gives a bounded set (for C66). *)
From Verif Require Import Base BaseFacts LpModel LpSpec SetSpec LpUtil LpFacts LpWf SetFacts SetFacts2 MinkFacts OpsFacts OpsFacts2 OpsFacts3 OpsFacts4 AggFacts ChullFacts ApiSpec ApiFacts Bounded Bounded2 Bounded3 Bounded4.
From Coq Require Import Lia Lqa Setoid QArith.Qabs.
Open Scope nat_scope.

Lemma okinj {A} (x y : A) : Ok x = Ok y -> x = y. Proof. congruence. Qed.
(** the set_reach_vars checks inside clone *)
Definition clonable (l : lp) : Prop :=
  fst (l_bm l) + l_dims l <= l_nr l /\ snd (l_bm l) + 2 * l_dims l <= l_nc l /\
  match l_ie l with Some (r, c) => r + l_dims l <= l_nr l /\ c + l_dims l <= l_nc l | None => True end.
Lemma clonable_clone l : clonable l -> clone l = Ok l.
Proof.
  intros (H1 & H2 & H3). unfold clone, set_reach_vars, l_nr, l_nc in *. cbn [l_rows l_names].
  rewrite (proj2 (Nat.leb_le _ _) H1). cbn [assert bind]. rewrite (proj2 (Nat.leb_le (snd (l_bm l) + 2 * l_dims l) _)) by lia. cbn [assert bind].
  destruct (l_ie l) as [[r c]|] eqn:E.
  - destruct H3 as [A B]. rewrite (proj2 (Nat.leb_le _ _) A). cbn [assert bind]. rewrite (proj2 (Nat.leb_le _ _) B). cbn [assert bind]. rewrite <- E. destruct l; reflexivity.
  - cbn [bind]. rewrite <- E. destruct l; reflexivity.
Qed.
Lemma wf_clonable l BM nu IEs : wf_lp l BM nu IEs -> 0 < l_dims l -> clonable l.
Proof.
  intros W Hd. pose proof (wf_bmr_le _ _ _ _ W Hd) as H1. pose proof (wf_bmc _ _ _ _ W) as H2. pose proof (wf_cvo _ _ _ _ W) as H3. unfold clonable, l_nr, l_nc in *.
  split; [exact H1|]. split; [lia|]. destruct (l_ie l) as [[r c]|] eqn:E; [|exact Logic.I]. exact (wf_ie_rows _ _ _ _ _ _ W Hd E).
Qed.
Lemma clonable_red l : clonable l -> clonable (red l).
Proof.
  unfold clonable, red, add_rows_le, l_nr, l_nc. cbn [l_rows l_names l_bm l_dims l_ie with_rows map]. rewrite app_length. cbn [List.length].
  intros (A & B & C). split; [lia|]. split; [exact B|]. destruct (l_ie l) as [[r c]|]; [|exact Logic.I]. split; lia.
Qed.

Definition chull_in (w : nat) (l : lp) : Prop := clonable l /\ good l /\ lp_fine l /\ l_dims l = w /\ exists x, lp_sat l x.
Lemma sat_red l x : lp_sat (red l) x <-> lp_sat l x.
Proof.
  unfold lp_sat, red, add_rows_le. cbn [l_rows with_rows map]. rewrite Forall_app. split; [tauto|]. intro H. split; [exact H|].
  constructor; [|constructor]. unfold row_sat. cbn. lra.
Qed.
Lemma chull_in_red w l : chull_in w l -> chull_in w (red l).
Proof.
  intros (C & (G1 & G2) & (F1 & F2 & F3) & D & (x & X)). split; [apply clonable_red; exact C|]. split; [split; [apply red_lp_ok; exact G1|apply red_no_lo; exact G2]|].
  split; [split; [apply red_lp_ok; exact F1|split; [exact F2|]]|split; [exact D|exists x; apply sat_red; exact X]].
  intros c Hc. destruct (F3 c Hc) as (M & HM). exists M. intros y Hy. apply HM. apply sat_red. exact Hy.
Qed.

(** scaled solutions of a bounded, satisfiable system with a scale between 0 and 1 are bounded *)
Lemma hsat_bnd l : lp_ok l -> no_lo l -> lb l -> (exists x, lp_sat l x) -> forall c, c < l_nc l -> exists M, forall s z, (0 <= s)%Q -> (s <= 1)%Q -> hsat l s z -> (Qabs (z c) <= M)%Q.
Proof.
  intros [O _] N B (x0 & X) c Hc. destruct (B c Hc) as (M & HM). exists (M + M)%Q. intros s z H0 H1 Hz.
  assert (A : lp_sat l (fun i => z i + (1 - s) * x0 i)%Q).
  { apply (hsat_1 l _ N). apply (hsat_ext l (s + (1 - s) * 1) 1 (fun i => z i + (1 - s) * x0 i)%Q); [exact O|ring|intros i _; reflexivity|].
    apply hsat_add; [exact Hz|]. apply hsat_scale; [lra|]. apply (hsat_1 l x0 N). exact X. }
  pose proof (HM _ A) as K1. pose proof (HM _ X) as K2. cbn beta in K1. apply Qabs_Qle_condition in K1, K2. apply Qabs_Qle_condition.
  assert (P1 : ((1 - s) * x0 c <= (1 - s) * M)%Q) by (apply qmul_le; lra). assert (P2 : ((1 - s) * - M <= (1 - s) * x0 c)%Q) by (apply qmul_le; lra).
  assert (P3 : (0 <= M)%Q) by lra. assert (P4 : ((1 - s) * M <= 1 * M)%Q) by (apply Qmult_le_compat_r; lra). split; lra.
Qed.

Lemma row_A_lt l co w : row_cols_lt w co -> row_cols_lt (l_dims l) (row_A l co).
Proof. intros _. apply row_A_cols. Qed.

Section Two.
Variables l1 l2 : lp.
Hypothesis (G1 : good l1) (G2 : good l2) (F1 : lp_fine l1) (F2 : lp_fine l2) (HD : l_dims l2 = l_dims l1).
Hypothesis (X1 : exists x, lp_sat l1 x) (X2 : exists x, lp_sat l2 x).

Lemma chull2_total : exists l, chull2 (red l1) (red l2) = Ok l.
Proof.
  unfold chull2. change (l_dims (red l1)) with (l_dims l1). change (l_dims (red l2)) with (l_dims l2). rewrite HD, Nat.eqb_refl. cbn [assert bind].
  unfold add_rows_with_types. rewrite !app_length, repeat_length. unfold get_types, get_rhs. rewrite !map_length. unfold l_nr at 1. rewrite Nat.eqb_refl. cbn [assert bind].
  unfold set_constraints_csr at 1. cbn [l_rows with_rows add_cols with_names lp_new app fst snd c_nr c_nc c_rows].
  match goal with |- context [if ?b then Err ERuntime else _] => assert (Eb : b = false) end.
  { apply orb_false_iff. split; apply Nat.ltb_ge; unfold l_nr, l_nc, c_nr; cbn [l_rows l_names c_rows with_rows with_names add_cols lp_new].
    - rewrite zip_rows_length by (rewrite !app_length, !map_length, repeat_length; unfold l_nr; reflexivity). rewrite ?app_length, ?map_length. lia.
    - rewrite !app_length, !map_length, !seq_length. cbn [List.length]. unfold l_nc. lia. }
  rewrite Eb. clear Eb. cbn [bind]. unfold set_constraints_csr. cbn [fst snd].
  match goal with |- context [if ?b then Err ERuntime else _] => assert (Eb : b = false) end.
  { apply orb_false_iff. split; apply Nat.ltb_ge; unfold l_nr, l_nc, c_nr; cbn [l_rows l_names c_rows with_rows with_names add_cols lp_new c_nc].
    - rewrite set_coefs_length. rewrite zip_rows_length by (rewrite !app_length, !map_length, repeat_length; unfold l_nr; reflexivity). rewrite ?app_length, ?map_length. rewrite ?repeat_length, ?app_length, ?map_length. unfold l_nr. cbn [l_rows red add_rows_le with_rows map]. rewrite ?app_length. cbn [List.length]. lia.
    - rewrite !app_length, !map_length, !seq_length. cbn [List.length]. unfold l_nc. lia. }
  rewrite Eb. cbn [bind]. eauto.
Qed.

Lemma chull2_obj l : chull2 (red l1) (red l2) = Ok l -> l_obj l = [].
Proof.
  intro H. unfold chull2 in H. apply bind_ok in H as (u & Hu & H). apply bind_ok in H as (la & Ha & H). apply bind_ok in H as (lb0 & Hb & H). apply bind_ok in H as (lc & Hc & H).
  apply okinj in H. subst l. cbn [l_obj]. unfold add_rows_with_types in Ha. apply bind_ok in Ha as (u1 & _ & Ha). apply okinj in Ha. subst la.
  unfold set_constraints_csr in Hb, Hc. destruct (_ || _) in Hb; [discriminate|]. apply okinj in Hb. subst lb0. destruct (_ || _) in Hc; [discriminate|]. apply okinj in Hc. subst lc. reflexivity.
Qed.

Lemma chull2_lb l : chull2 (red l1) (red l2) = Ok l -> lb l.
Proof.
  intro H. pose proof (hull2_dims l1 l2 l H) as (_ & D & C). pose proof H as H0. apply chull2_shape in H0 as (_ & _ & _ & Hnc & _).
  change (l_dims (red l1)) with (l_dims l1) in Hnc. change (l_nc (red l1)) with (l_nc l1) in Hnc. change (l_nc (red l2)) with (l_nc l2) in Hnc.
  destruct G1 as [O1 N1]. destruct G2 as [O2 N2]. destruct F1 as (_ & _ & B1). destruct F2 as (_ & _ & B2). pose proof (proj2 O1) as V1. pose proof (proj2 O2) as V2.
  set (n := l_dims l1) in *. set (w1 := l_nc l1 - n) in *. set (w2 := l_nc l2 - n) in *.
  assert (K : forall x, lp_sat l x -> (0 <= x (2 * n + w1 + w2)%nat)%Q /\ (x (2 * n + w1 + w2)%nat <= 1)%Q /\
     hsat l1 (1 - x (2 * n + w1 + w2)%nat) (join l1 (fun i => x i + x (n + i)%nat)%Q (fun c => x (2 * n + c)%nat)) /\
     hsat l2 (x (2 * n + w1 + w2)%nat) (join l2 (fun i => - x (n + i)%nat)%Q (fun c => x (2 * n + w1 + c)%nat))).
  { intros x Hx. apply (chull2_sat (red l1) (red l2) l x (red_no_lo _ N1) (red_no_lo _ N2) H) in Hx as [A1 A2].
    apply hsat_red in A1 as [A1 Q1]. apply hsat_red in A2 as [A2 Q2]. unfold za, z1, z2 in *. change (l_dims (red l1)) with n in *. change (l_nc (red l1)) with (l_nc l1) in *. change (l_nc (red l2)) with (l_nc l2) in *.
    fold w1 in A1, A2, Q1, Q2. fold w2 in A1, A2, Q1, Q2. split; [lra|]. split; [lra|]. split; [exact A1|exact A2]. }
  assert (P1 : forall c, c < l_nc l1 -> bnd (lp_sat l) (fun x => join l1 (fun i => x i + x (n + i)%nat)%Q (fun c => x (2 * n + c)%nat) c)).
  { intros c Hc. destruct (hsat_bnd l1 O1 N1 B1 X1 c Hc) as (M & HM). exists M. intros x Hx. destruct (K x Hx) as (Q0 & Q1 & A1 & _). apply (HM (1 - x (2 * n + w1 + w2)%nat)%Q); [lra|lra|exact A1]. }
  assert (P2 : forall c, c < l_nc l2 -> bnd (lp_sat l) (fun x => join l2 (fun i => - x (n + i)%nat)%Q (fun c => x (2 * n + w1 + c)%nat) c)).
  { intros c Hc. destruct (hsat_bnd l2 O2 N2 B2 X2 c Hc) as (M & HM). exists M. intros x Hx. destruct (K x Hx) as (Q0 & Q1 & _ & A2). apply (HM (x (2 * n + w1 + w2)%nat)%Q); [lra|lra|exact A2]. }
  assert (Y2 : forall i, i < n -> bnd (lp_sat l) (fun x => x (n + i)%nat)).
  { intros i Hi. destruct (P2 (l_cvo l2 + i)) as (M & HM); [lia|]. exists M. intros x Hx. specialize (HM x Hx). cbn beta in HM. unfold join in HM. rewrite HD in HM. fold n in HM.
    destruct (Nat.ltb_spec (l_cvo l2 + i) (l_cvo l2)); [lia|]. destruct (Nat.ltb_spec (l_cvo l2 + i) (l_cvo l2 + n)); [|lia].
    replace (l_cvo l2 + i - l_cvo l2) with i in HM by lia. rewrite Qabs_opp in HM. exact HM. }
  intros c Hc. rewrite Hnc in Hc. destruct (Nat.lt_ge_cases c n) as [L1|L1].
  { destruct (Y2 c L1) as (M2 & H2). destruct (P1 (l_cvo l1 + c)) as (M1 & H1); [lia|]. exists (M1 + M2)%Q. intros x Hx. specialize (H1 x Hx). specialize (H2 x Hx). cbn beta in H1, H2. unfold join in H1. fold n in H1.
    destruct (Nat.ltb_spec (l_cvo l1 + c) (l_cvo l1)); [lia|]. destruct (Nat.ltb_spec (l_cvo l1 + c) (l_cvo l1 + n)); [|lia].
    replace (l_cvo l1 + c - l_cvo l1) with c in H1 by lia. apply Qabs_Qle_condition in H1, H2. apply Qabs_Qle_condition. split; lra. }
  destruct (Nat.lt_ge_cases c (2 * n)) as [L2|L2].
  { replace c with (n + (c - n)) by lia. apply Y2. lia. }
  destruct (Nat.lt_ge_cases c (2 * n + w1)) as [L3|L3].
  { set (k := c - 2 * n). destruct (Nat.lt_ge_cases k (l_cvo l1)) as [E|E].
    - destruct (P1 k) as (M & HM); [lia|]. exists M. intros x Hx. specialize (HM x Hx). cbn beta in HM. unfold join in HM. destruct (Nat.ltb_spec k (l_cvo l1)); [|lia]. replace (2 * n + k) with c in HM by lia. exact HM.
    - destruct (P1 (k + n)) as (M & HM); [unfold k, w1 in *; lia|]. exists M. intros x Hx. specialize (HM x Hx). cbn beta in HM. unfold join in HM. fold n in HM. destruct (Nat.ltb_spec (k + n) (l_cvo l1)); [lia|].
      destruct (Nat.ltb_spec (k + n) (l_cvo l1 + n)); [lia|]. replace (2 * n + (k + n - n)) with c in HM by lia. exact HM. }
  destruct (Nat.lt_ge_cases c (2 * n + w1 + w2)) as [L4|L4].
  { set (k := c - (2 * n + w1)). destruct (Nat.lt_ge_cases k (l_cvo l2)) as [E|E].
    - destruct (P2 k) as (M & HM); [lia|]. exists M. intros x Hx. specialize (HM x Hx). cbn beta in HM. unfold join in HM. destruct (Nat.ltb_spec k (l_cvo l2)); [|lia]. replace (2 * n + w1 + k) with c in HM by lia. exact HM.
    - destruct (P2 (k + n)) as (M & HM); [unfold k, w2 in *; lia|]. exists M. intros x Hx. specialize (HM x Hx). cbn beta in HM. unfold join in HM. rewrite HD in HM. fold n in HM. destruct (Nat.ltb_spec (k + n) (l_cvo l2)); [lia|].
      destruct (Nat.ltb_spec (k + n) (l_cvo l2 + n)); [lia|]. replace (2 * n + w1 + (k + n - n)) with c in HM by lia. exact HM. }
  replace c with (2 * n + w1 + w2) by lia. exists 1%Q. intros x Hx. destruct (K x Hx) as (Q0 & Q1 & _). apply Qabs_Qle_condition. split; lra.
Qed.

Lemma chull2_sat_ex l : chull2 (red l1) (red l2) = Ok l -> exists x, lp_sat l x.
Proof.
  intro H. destruct G1 as [O1 N1]. destruct G2 as [O2 N2]. destruct X1 as (x1 & E1). destruct X2 as (x2 & E2).
  assert (P : in_lp l (mix 0 (fun i => x1 (l_cvo l1 + i)) (fun i => x2 (l_cvo l2 + i)))).
  { apply (hull2_contains l1 l2 l O1 O2 N1 N2 H 0 (fun i => x1 (l_cvo l1 + i)) (fun i => x2 (l_cvo l2 + i))); [lra|lra| | |intros i _; reflexivity].
    - exists x1. split; [exact E1|]. intros i _. reflexivity.
    - exists x2. split; [exact E2|]. intros i _. reflexivity. }
  destruct P as (x & Hx & _). eauto.
Qed.
End Two.

Section Rec.
Variable solve : solver.
Hypothesis Hsolve : solver_ok solve.
Hypothesis Hcomp : solver_complete solve.

Lemma go_total w ls : Forall (chull_in w) ls -> ((fix go (xs : list lp) : res (list lp) :=
                        match xs with
                        | [] => Ok []
                        | x :: xs' => do y <- clone x; do ys <- go xs'; Ok (add_rows_le y [1%Q] :: ys)
                        end) ls) = Ok (map red ls).
Proof. induction 1 as [|l ls Hl H IH]; [reflexivity|]. rewrite (clonable_clone l) by apply Hl. cbn [bind]. rewrite IH. reflexivity. Qed.

Definition chull_res (w mid : nat) (hi : bool) (l : lp) : Prop :=
  chull_in w l /\ (forall nu, wf_lp l (ident (l_dims l)) nu []) /\ cb l (fun _ => False) /\ (hi = true -> exists c, l_ie l = Some c).

(** the closing from_constraints call *)
Lemma snapshot_total w l mid hi : 0 < w -> lp_ok l -> no_lo l -> left_cur l -> lb l -> l_dims l = w -> (exists x, lp_sat l x) ->
  exists l', from_constraints solve (get_full_constraints l) (get_rhs l) mid hi (Some (get_types l, l_names l)) (Some (l_dims l)) = Ok l' /\ chull_res w mid hi l'.
Proof.
  intros Hw [Hc Hv] Hn Hl B Hd (x & X).
  assert (Hok : csr_ok (get_full_constraints l)) by (unfold csr_ok, get_full_constraints, lp_cols_ok in *; cbn [c_nc c_rows]; apply Forall_map; exact Hc).
  assert (Hns : List.length (l_names l) = c_nc (get_full_constraints l)) by reflexivity.
  assert (HT : forall y, tpoly (c_rows (get_full_constraints l)) (get_types l) (get_rhs l) y <-> lp_sat l y).
  { intro y. pose proof (tpoly_rows 0 (l_rows l) y Hn) as T. unfold get_full_constraints, get_types, get_rhs. cbn [c_rows].
    rewrite <- (map_shift_row_0 (map r_co (l_rows l))), map_map. rewrite T. unfold lp_sat. cbn [Nat.add]. reflexivity. }
  destruct (from_constraints_total_gen solve Hsolve (get_full_constraints l) (get_rhs l) mid hi (Some (get_types l, l_names l)) (Some (l_dims l)) Hcomp Hok) as (l' & E).
  - unfold get_full_constraints, get_rhs, c_nr. cbn [c_rows]. rewrite !map_length. reflexivity.
  - exists x. unfold get_full_constraints, get_rhs, poly. cbn [c_rows]. clear -X Hn. unfold lp_sat in X. unfold no_lo in Hn.
    intros i r b Hr Hb. rewrite nth_error_map in Hr, Hb. destruct (nth_error (l_rows l) i) as [ro|] eqn:Er; [|discriminate]. cbn [option_map] in Hr, Hb. injection Hr as <-. injection Hb as <-.
    rewrite Forall_forall in X, Hn. pose proof (nth_error_In _ _ Er) as Hin. specialize (X ro Hin). specialize (Hn ro Hin). unfold row_sat in X. unfold row_ub. destruct (r_ty ro); try congruence; lra.
  - split; [unfold get_types, get_rhs; rewrite !map_length; reflexivity|reflexivity].
  - cbn [fc_dims]. cbn [get_full_constraints c_nc]. lia.
  - exists l'. split; [exact E|]. pose proof (snapshot_in solve Hsolve l mid hi l' Hc Hn Hl E) as (D & G & L & HI).
    assert (WF : forall nu, wf_lp l' (ident (l_dims l')) nu [] /\ cb l' (fun _ => False) /\ obj_ok l').
    { intro nu. apply (from_constraints_cb solve Hsolve _ _ _ _ (Some (get_types l, l_names l)) (Some (l_dims l)) _ nu Hok Hns E). cbn [fc_types].
      intros c Hc0. destruct (B c Hc0) as (M & HM). exists M. intros y Hy. apply HM. apply HT. exact Hy. }
    destruct (WF 0) as (W & C & O). split; [|split; [intro nu; apply WF|split; [exact C|]]].
    + split; [apply (wf_clonable _ _ _ _ W); lia|]. split; [exact G|]. split; [split; [exact (wf_lp_ok _ _ _ _ W)|split; [exact O|exact (cb_lb _ _ _ _ _ W C)]]|]. split; [lia|].
      assert (P : in_lp l' (fun i => x (l_cvo l + i))) by (apply HI; exists x; split; [exact X|intros i _; reflexivity]). destruct P as (y & Y & _). eauto.
    + intros ->. apply (from_constraints_shape solve Hsolve) in E as (-> & _). cbn [l_ie]. eauto.
Qed.

Lemma chull_total w : 0 < w -> forall fuel ls mid hi, Forall (chull_in w) ls -> ls <> [] -> List.length ls <= fuel ->
  exists l, aggregate_chull solve fuel ls mid hi = Ok l /\ chull_in w l /\ (2 <= List.length ls -> chull_res w mid hi l).
Proof.
  intro Hw. induction fuel as [|fuel IH]; intros ls mid hi HF Hne Hlen; [destruct ls; [congruence|cbn in Hlen; lia]|]. cbn [aggregate_chull].
  destruct ls as [|l1 [|l2 rest]]; [congruence| |].
  - inversion HF as [|? ? H1 _]; subst. exists l1. split; [apply clonable_clone; apply H1|]. split; [exact H1|cbn; lia].
  - remember (l1 :: l2 :: rest) as ls eqn:Els. pose proof (go_total w ls HF) as Hgo. rewrite Els in Hgo at 1. rewrite Hgo. clear Hgo. cbn [bind].
    assert (HFr : Forall (chull_in w) (map red ls)) by (apply Forall_red; [intros l; apply chull_in_red|exact HF]).
    assert (K : exists L, (match map red ls with
                  | [l1; l2] => chull2 l1 l2
                  | _ =>
                      let mid_ix := Nat.div (List.length (map red ls)) 2 in
                      do a <- aggregate_chull solve fuel (firstn mid_ix (map red ls)) mid hi;
                      do b <- aggregate_chull solve fuel (skipn mid_ix (map red ls)) mid hi;
                      aggregate_chull solve fuel [a; b] mid hi
                  end) = Ok L /\ lp_ok L /\ no_lo L /\ left_cur L /\ lb L /\ l_dims L = w /\ exists x, lp_sat L x).
    { destruct rest as [|l3 rest].
      - subst ls. cbn [map]. inversion HF as [|? ? H1 HF']; subst. inversion HF' as [|? ? H2 _]; subst.
        destruct H1 as (_ & G1 & F1 & D1 & X1). destruct H2 as (_ & G2 & F2 & D2 & X2).
        destruct (chull2_total l1 l2 ltac:(congruence)) as (L & E). exists L. split; [exact E|].
        destruct (chull2_post l1 l2 L G1 G2 E) as (A & B & C & Q1 & Q2 & _). pose proof (hull2_dims l1 l2 L E) as (_ & D & C0).
        split; [split; [exact A|]|]. { pose proof E as E0. apply chull2_shape in E0 as (_ & _ & _ & Hnc & _). change (l_dims (red l1)) with (l_dims l1) in Hnc. rewrite C0, D. clear -Hnc. lia. }
        split; [exact B|]. split; [exact C|]. split; [exact (chull2_lb l1 l2 G1 G2 F1 F2 ltac:(congruence) X1 X2 L E)|]. split; [congruence|exact (chull2_sat_ex l1 l2 G1 G2 X1 X2 L E)].
      - set (news := map red ls) in *. set (k := Nat.div (List.length news) 2).
        assert (HL3 : 3 <= List.length news) by (unfold news; rewrite map_length, Els; cbn [List.length]; lia).
        assert (Hk1 : 1 <= k) by (unfold k; apply (Nat.div_le_lower_bound (List.length news) 2 1); lia).
        assert (Hk2 : k < List.length news) by (unfold k; apply Nat.div_lt; lia).
        assert (Hnl : List.length news = List.length ls) by (unfold news; apply map_length).
        assert (Hsplit : firstn k news ++ skipn k news = news) by apply firstn_skipn.
        assert (HA : Forall (chull_in w) (firstn k news)) by (rewrite <- Hsplit in HFr; apply Forall_app in HFr; apply HFr).
        assert (HB : Forall (chull_in w) (skipn k news)) by (rewrite <- Hsplit in HFr; apply Forall_app in HFr; apply HFr).
        assert (LA : List.length (firstn k news) = k) by (apply firstn_length_le; lia).
        assert (LB : List.length (skipn k news) = List.length news - k) by apply skipn_length.
        destruct (IH (firstn k news) mid hi HA) as (a & Ea & Ca & _); [intro E; rewrite E in LA; cbn [List.length] in LA; lia|lia|].
        destruct (IH (skipn k news) mid hi HB) as (b & Eb & Cb & _); [intro E; rewrite E in LB; cbn [List.length] in LB; lia|lia|].
        destruct (IH [a; b] mid hi) as (L & EL & CL & RL); [constructor; [exact Ca|constructor; [exact Cb|constructor]]|discriminate|cbn [List.length]; lia|].
        exists L. split.
        { clearbody k. clear -Ea Eb EL Els. subst news. rewrite Els in *. cbn [map] in *. cbn zeta. rewrite Ea. cbn [bind]. rewrite Eb. cbn [bind]. exact EL. }
        destruct (aggregate_chull_post solve Hsolve fuel [a; b] mid hi L) as (_ & PL); [constructor; [apply Ca|constructor; [apply Cb|constructor]]|exact EL|].
        destruct PL as ((Ok1 & Ok2) & _ & HC & _). destruct CL as (_ & _ & F & Dw & X). split; [exact Ok1|]. split; [exact Ok2|]. split; [apply HC; cbn; lia|]. split; [apply F|]. split; [exact Dw|exact X]. }
    destruct K as (L & EL & Ok1 & Ok2 & Lc & B & Dw & X).
    match goal with |- context [bind ?m _] => replace m with (Ok L) end. cbn [bind].
    destruct (snapshot_total w L mid hi Hw Ok1 Ok2 Lc B Dw X) as (l' & E & R). exists l'. split; [exact E|]. split; [apply R|intros _; exact R].
Qed.
End Rec.
