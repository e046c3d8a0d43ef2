(** Template aggregation does not fail on bounded, non-empty sets, and its result is bounded (for C66). *)
From Verif Require Import Base BaseFacts LpModel LpSpec SetSpec LpFacts LpWf LpUtil SetFacts SetFacts2 MinkFacts OpsFacts OpsFacts2 OpsFacts3 OpsFacts4 AggFacts ApiSpec ApiFacts Automaton StateSet Bounded Bounded2 Bounded3 Bounded4 Bounded5.
From Coq Require Import Lia Lqa Setoid QArith.Qabs.
Open Scope nat_scope.

(** the directions bound every coordinate *)
Definition dirs_bound (width : nat) (dirs : list (list Q)) : Prop :=
  forall M, exists M', forall p : vec, (forall d, In d dirs -> dir_used d = true -> (Qabs (ldot d 0 p) <= M)%Q) -> forall c, c < width -> (Qabs (p c) <= M')%Q.

Lemma dirs_bound_app w d1 d2 : dirs_bound w d1 -> dirs_bound w (d1 ++ d2).
Proof. intros H M. destruct (H M) as (M' & HM). exists M'. intros p Hp. apply HM. intros d Hd. apply Hp, in_or_app. left. exact Hd. Qed.

Lemma sumsq_unit n i : forall s, (i < s + n)%nat -> (s <= i)%nat -> (sumsq (map (fun j => if Nat.eqb j i then 1%Q else 0%Q) (seq s n)) == 1)%Q.
Proof.
  assert (Z : forall n s, (i < s)%nat -> (sumsq (map (fun j => if Nat.eqb j i then 1%Q else 0%Q) (seq s n)) == 0)%Q).
  { intro m. induction m as [|m IH]; intros s Hs; cbn [seq map sumsq fold_right]; [reflexivity|]. destruct (Nat.eqb_spec s i); [lia|]. fold (sumsq (map (fun j => if Nat.eqb j i then 1%Q else 0%Q) (seq (S s) m))). rewrite IH by lia. ring. }
  induction n as [|n IH]; intros s H1 H2; [lia|]. cbn [seq map sumsq fold_right]. fold (sumsq (map (fun j => if Nat.eqb j i then 1%Q else 0%Q) (seq (S s) n))).
  destruct (Nat.eqb_spec s i) as [->|N]; [rewrite Z by lia; ring|]. rewrite IH by lia. ring.
Qed.
Lemma dir_used_ge d : (1 # 1000000000000 <= sumsq d)%Q -> dir_used d = true.
Proof. intro H. unfold dir_used. destruct (Qcompare_spec (sumsq d) (1 # 1000000000000)); try reflexivity. lra. Qed.
Lemma unit_used n i : i < n -> dir_used (unit_row n i) = true.
Proof. intro H. apply dir_used_ge. unfold unit_row. rewrite sumsq_unit by lia. lra. Qed.
Lemma ident_bound n : dirs_bound n (ident n).
Proof.
  intro M. exists M. intros p Hp c Hc. specialize (Hp (unit_row n c)). rewrite <- (ldot_unit n c 0 p Hc). apply Hp; [|apply unit_used; exact Hc].
  unfold ident. apply in_map. apply in_seq. lia.
Qed.

Section WithSolver.
Variable solve : solver.
Hypothesis Hsolve : solver_ok solve.
Hypothesis Hcomp : solver_complete solve.

Definition agg_in (w : nat) (l : lp) : Prop := lp_fine l /\ l_dims l = w /\ exists x, lp_sat l x.
Lemma agg_in_obj w l o : agg_in w l -> obj_ok (with_obj l o) -> agg_in w (with_obj l o).
Proof. intros (F & D & X) O. split; [apply fine_obj; assumption|]. split; [exact D|exact X]. Qed.

Lemma agg_dir_total w d ls : forall mx mn, Forall (agg_in w) ls -> List.length d = w ->
  exists ls' mx' mn', agg_dir solve ls w d mx mn = Ok (ls', mx', mn') /\ Forall (agg_in w) ls' /\ (ls <> [] -> mx' <> None /\ mn' <> None) /\ (mx <> None -> mx' <> None) /\ (mn <> None -> mn' <> None) /\ List.length ls' = List.length ls.
Proof.
  induction ls as [|l ls IH]; intros mx mn HF Hd; cbn [agg_dir]; [do 3 eexists; split; [reflexivity|]; split; [constructor|]; split; [congruence|]; auto|].
  inversion HF as [|? ? A HF']; subst. pose proof A as (F & Dl & X). rewrite Dl, Nat.eqb_refl. cbn [assert bind].
  pose proof F as ((C & V) & _ & B).
  destruct (set_min_dir_total l (map Qopp d) V) as (l1 & E1 & O1 & o1 & ->); [rewrite map_length; lia|]. rewrite E1. cbn [bind].
  assert (Hcols : forall o cs, Some (map (fun e => fst e + l_cvo l) (nonzero_row d 0)) = Some cs -> forall c, In c cs -> c < l_nc (with_obj l o)).
  { intros o cs Ecs c Hc. injection Ecs as <-. apply in_map_iff in Hc as ([k v] & <- & Hin). apply nonzero_row_cols in Hin. unfold l_nc in *. cbn [l_names with_obj fst]. lia. }
  destruct (minimize_total_sat solve Hsolve Hcomp (with_obj l o1) (Some (map (fun e => fst e + l_cvo l) (nonzero_row d 0)))) as (v1 & Ev1); [exact C|exact O1|exact B|apply Hcols|exact X|]. rewrite Ev1. cbn [bind].
  destruct (set_min_dir_total (with_obj l o1) d V) as (l2 & E2 & O2 & o2 & ->); [cbn [l_dims with_obj]; lia|]. rewrite E2. cbn [bind]. rewrite with_obj_twice in *.
  destruct (minimize_total_sat solve Hsolve Hcomp (with_obj l o2) (Some (map (fun e => fst e + l_cvo l) (nonzero_row d 0)))) as (v2 & Ev2); [exact C|exact O2|exact B|apply Hcols|exact X|]. rewrite Ev2. cbn [bind].
  destruct (IH (omax mx (dot_vals (map snd (nonzero_row d 0)) v1)) (omin mn (dot_vals (map snd (nonzero_row d 0)) v2)) HF' eq_refl) as (ls' & mx' & mn' & E & HA & _ & N1 & N2 & Ln).
  rewrite E. cbn [bind]. do 3 eexists. split; [reflexivity|]. split; [constructor; [apply agg_in_obj; assumption|exact HA]|].
  assert (mx' <> None /\ mn' <> None) by (split; [apply N1; destruct mx as [q|]; cbn [omax]; [destruct (Qle_bool _ _)|]; discriminate|apply N2; destruct mn as [q|]; cbn [omin]; [destruct (Qle_bool _ _)|]; discriminate]).
  split; [auto|]. split; [intros _; tauto|]. split; [intros _; tauto|]. cbn. lia.
Qed.

Lemma agg_dirs_total w dirs : forall ls, Forall (agg_in w) ls -> ls <> [] -> Forall (fun d => List.length d = w) dirs ->
  exists ls' rows rhs, agg_dirs solve ls w dirs = Ok (ls', rows, rhs) /\ Forall (agg_in w) ls'.
Proof.
  induction dirs as [|d dirs IH]; intros ls HF Hne HD; cbn [agg_dirs]; [do 3 eexists; split; [reflexivity|exact HF]|].
  inversion HD as [|? ? Hd HD']; subst. destruct (dir_used d); [|apply IH; auto].
  destruct (agg_dir_total (List.length d) d ls None None HF eq_refl) as (ls1 & mx & mn & E & HF1 & N & _ & _ & Ln). rewrite E. cbn [bind]. destruct (N Hne) as [N1 N2].
  destruct mx as [u|]; [|congruence]. destruct mn as [v|]; [|congruence].
  destruct (IH ls1 HF1) as (ls2 & rows & rhs & E2 & HF2); [destruct ls1; [destruct ls; [congruence|discriminate]|discriminate]|exact HD'|]. rewrite E2. cbn [bind]. do 3 eexists. split; [reflexivity|exact HF2].
Qed.

Lemma agg_poly_ok w dirs ls ls' rows rhs : agg_dirs solve ls w dirs = Ok (ls', rows, rhs) -> Forall (fun d => List.length d = w) dirs -> csr_ok (mkCsr w rows).
Proof.
  intros E HD. apply (agg_dirs_spec solve Hsolve) in E as (_ & _ & _ & Cc & _). unfold csr_ok. cbn [c_rows c_nc]. apply Forall_forall. intros r Hr. apply Forall_forall. intros [c v] Hin. cbn [fst].
  destruct (Cc r Hr) as (d & Hd & Hc). specialize (Hc c v Hin). rewrite Forall_forall in HD. rewrite (HD d Hd) in Hc. exact Hc.
Qed.

Lemma any_bnd w ls d : Forall (agg_in w) ls -> List.length d = w -> exists M, forall q, in_any ls q -> (Qabs (ldot d 0 q) <= M)%Q.
Proof.
  intros HF Hd. induction HF as [|l ls (((C & V) & O & B) & Dl & X) HF IH].
  - exists 0%Q. intros q (l & [] & _).
  - destruct IH as (M1 & H1). destruct (bnd_ldot (lp_sat l) d (l_cvo l)) as (M2 & H2); [intros c Hc; apply B; lia|].
    exists (if Qlt_le_dec M1 M2 then M2 else M1). intros q (l0 & [<-|Hin] & Hq).
    + destruct Hq as (x & Hx & Hv). assert (E : (ldot d 0 q == ldot d (l_cvo l) x)%Q).
      { rewrite (ldot_shift d (l_cvo l) x). apply ldot_ext. intros k Hk. cbn [Nat.add]. symmetry. apply Hv. lia. }
      rewrite E. specialize (H2 x Hx). destruct (Qlt_le_dec M1 M2); lra.
    + assert (Q1 : (Qabs (ldot d 0 q) <= M1)%Q) by (apply H1; exists l0; auto). destruct (Qlt_le_dec M1 M2); lra.
Qed.

Lemma dirs_any_bnd w ls dirs : Forall (agg_in w) ls -> Forall (fun d => List.length d = w) dirs -> exists M, forall d q, In d dirs -> in_any ls q -> (Qabs (ldot d 0 q) <= M)%Q.
Proof.
  intros HF HD. induction HD as [|d dirs Hd HD IH].
  - exists 0%Q. intros d q [].
  - destruct IH as (M1 & H1). destruct (any_bnd w ls d HF Hd) as (M2 & H2). exists (if Qlt_le_dec M1 M2 then M2 else M1). intros d0 q [<-|Hin] Hq.
    + specialize (H2 q Hq). destruct (Qlt_le_dec M1 M2); lra.
    + specialize (H1 d0 q Hin Hq). destruct (Qlt_le_dec M1 M2); lra.
Qed.

Lemma aggregate_total ls dirs w mid hi : Forall (agg_in w) ls -> 1 < List.length ls -> Forall (fun d => List.length d = w) dirs -> w <= List.length dirs -> 0 < w ->
  exists ls' l, aggregate solve ls dirs w mid hi = Ok (ls', l) /\ Forall (agg_in w) ls' /\
    (dirs_bound w dirs -> forall nu, wf_lp l (ident (l_dims l)) nu [] /\ cb l (fun _ => False) /\ obj_ok l) /\ api solve l (Some (ident w, 0, [], [])) /\ (forall nu, api solve l (Some (ident w, nu, [], []))) /\ l_dims l = w /\ (hi = true -> exists c, l_ie l = Some c).
Proof.
  intros HF Hl HD Hw Hpos. unfold aggregate. rewrite (proj2 (Nat.leb_le _ _) Hw). cbn [assert bind]. rewrite (proj2 (Nat.ltb_lt _ _) Hl). cbn [assert bind].
  assert (Hfb : forallb (fun d => List.length d =? w) dirs = true) by (apply forallb_forall; intros d Hd; rewrite Forall_forall in HD; apply Nat.eqb_eq; apply HD; exact Hd). rewrite Hfb. cbn [bind].
  destruct (agg_dirs_total w dirs ls HF) as (ls' & rows & rhs & E & HF'); [destruct ls; [cbn in Hl; lia|discriminate]|exact HD|]. rewrite E. cbn [bind].
  pose proof (agg_poly_ok _ _ _ _ _ _ E HD) as Hok. pose proof E as E0. apply (agg_dirs_spec solve Hsolve) in E0 as (_ & P & L & _).
  assert (Hne : exists p, poly rows rhs p).
  { destruct ls as [|l0 ls0]; [cbn in Hl; lia|]. inversion HF as [|? ? (F0 & D0 & (x & Hx)) ?]; subst. exists (fun i => x (l_cvo l0 + i)). apply P. intros d Hd _.
    assert (Q0 : in_any (l0 :: ls0) (fun i => x (l_cvo l0 + i))). { exists l0. split; [left; reflexivity|]. exists x. split; [exact Hx|]. intros i Hi. reflexivity. }
    split; eexists; (split; [exact Q0|lra]). }
  destruct (from_constraints_total_gen solve Hsolve (mkCsr w rows) rhs mid hi None None Hcomp Hok) as (l & El); [exact L|exact Hne|exact Logic.I|cbn; lia|]. rewrite El. cbn [bind].
  destruct (from_constraints_wf solve Hsolve (mkCsr w rows) rhs mid hi None None l 0 Hok Logic.I El) as (_ & Hd & _ & _ & _ & Hie & _). cbn [fc_dims c_nc] in Hd.
  exists ls', l. split; [reflexivity|]. split; [exact HF'|]. split; [|split; [|split; [|split; [exact Hd|]]]].
  - intros DB nu. apply (from_constraints_cb solve Hsolve (mkCsr w rows) rhs mid hi None None l nu Hok Logic.I El). cbn [c_nc c_rows fc_types].
    intros c Hc. destruct (dirs_any_bnd w ls dirs HF HD) as (M & HM). destruct (DB M) as (M' & HM'). exists M'. intros x Hx. apply HM'; [|exact Hc].
    intros d Hin Hu. assert (Hp : poly rows rhs x) by (apply (proj1 (tpoly_UP rows rhs x (List.length rhs) (Nat.le_refl _))); exact Hx). destruct (proj1 (P x) Hp d Hin Hu) as [(q1 & A1 & A2) (q2 & A3 & A4)].
    pose proof (HM d q1 Hin A1) as M1. pose proof (HM d q2 Hin A3) as M2. apply Qabs_Qle_condition in M1, M2. apply Qabs_Qle_condition. lra.
  - rewrite <- Hd. apply (api_from_constraints solve (mkCsr w rows) rhs mid hi None None l 0 Hok Logic.I El). lia.
  - intro nu. rewrite <- Hd. apply (api_from_constraints solve (mkCsr w rows) rhs mid hi None None l nu Hok Logic.I El). lia.
  - intros ->. destruct (l_ie l) as [c|] eqn:Ei; [eauto|]. exfalso. pose proof (proj1 Hie eq_refl). discriminate.
Qed.
End WithSolver.
