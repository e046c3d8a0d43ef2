(** Boundedness of the LPs handled by the analysis, and the calls that cannot fail on bounded LPs (for C66). *)
From Verif Require Import Base BaseFacts LpModel LpSpec SetSpec LpFacts LpWf LpUtil SetFacts SetFacts2 MinkFacts OpsFacts OpsFacts2 OpsFacts3 OpsFacts4 AggFacts ApiSpec ApiFacts.
From Coq Require Import Lia Lqa Setoid QArith.Qabs.
Open Scope nat_scope.

(** [f] is bounded on the vectors satisfying [P] *)
Definition bnd (P : vec -> Prop) (f : vec -> Q) : Prop := exists M, forall x, P x -> (Qabs (f x) <= M)%Q.

Lemma bnd_ext (P : vec -> Prop) f g : (forall x, P x -> (f x == g x)%Q) -> bnd P f -> bnd P g.
Proof. intros E (M & H). exists M. intros x Px. rewrite <- (E x Px). exact (H x Px). Qed.
Lemma bnd_sub (P P' : vec -> Prop) f : (forall x, P' x -> P x) -> bnd P f -> bnd P' f.
Proof. intros E (M & H). exists M. intros x Px. exact (H x (E x Px)). Qed.
Lemma bnd_const P q : bnd P (fun _ => q).
Proof. exists (Qabs q). intros x _. apply Qle_refl. Qed.
Lemma bnd_add P f g : bnd P f -> bnd P g -> bnd P (fun x => f x + g x)%Q.
Proof. intros (M & H) (N & K). exists (M + N)%Q. intros x Px. eapply Qle_trans; [apply Qabs_triangle|]. apply Qplus_le_compat; auto. Qed.
Lemma bnd_scale P a f : bnd P f -> bnd P (fun x => a * f x)%Q.
Proof.
  intros (M & H). exists (Qabs a * M)%Q. intros x Px. rewrite Qabs_Qmult, (Qmult_comm (Qabs a)), (Qmult_comm (Qabs a)).
  apply Qmult_le_compat_r; [exact (H x Px)|apply Qabs_nonneg].
Qed.
Lemma bnd_reval P r : (forall c v, In (c, v) r -> bnd P (fun x => x c)) -> bnd P (reval r).
Proof.
  induction r as [|[c v] r IH]; intro H; [exact (bnd_const P 0%Q)|].
  apply (bnd_ext P (fun x => v * x c + reval r x)%Q); [intros x _; reflexivity|]. apply bnd_add; [apply bnd_scale; apply (H c v); left; reflexivity|].
  apply IH. intros c' v' Hin. apply (H c' v'). right. exact Hin.
Qed.
Lemma bnd_ldot P v off : (forall c, off <= c < off + List.length v -> bnd P (fun x => x c)) -> bnd P (ldot v off).
Proof.
  revert off. induction v as [|q v IH]; intros off H; [exact (bnd_const P 0%Q)|].
  apply (bnd_ext P (fun x => q * x off + ldot v (S off) x)%Q); [intros x _; reflexivity|]. cbn [List.length] in H. apply bnd_add; [apply bnd_scale; apply H; lia|].
  apply IH. intros c Hc. apply H. lia.
Qed.
Lemma bnd_ie_val P n nu IEs i : forall off, Forall (mat_dims n nu) IEs -> i < n -> (forall c, off <= c < off + nu * List.length IEs -> bnd P (fun x => x c)) -> bnd P (ie_val nu IEs i off).
Proof.
  induction IEs as [|M IEs IH]; intros off HF Hi H; [exact (bnd_const P 0%Q)|]. inversion HF as [|? ? HM HF']; subst. cbn [List.length] in H.
  apply (bnd_ext P (fun x => ldot (mrow M i) off x + ie_val nu IEs i (off + nu) x)%Q); [intros x _; reflexivity|]. apply bnd_add.
  - apply bnd_ldot. intros c Hc. rewrite (mat_dims_mrow _ _ _ _ HM Hi) in Hc. apply H. lia.
  - apply IH; auto. intros c Hc. apply H. lia.
Qed.

(** all rows except the basis-matrix rows, the input-effect rows and the rows in [J] *)
Definition core_exc (l : lp) (J : nat -> Prop) (x : vec) : Prop :=
  forall k r, nth_error (l_rows l) k = Some r -> ~ J k -> ~ is_bm l k -> ~ is_ie l k -> row_sat r x.
(** ... bound every column, except those computed from the others *)
Definition cb (l : lp) (J : nat -> Prop) : Prop := forall c, c < l_cvo l \/ uoff l <= c < l_nc l -> bnd (core_exc l J) (fun x => x c).
(** every column is bounded *)
Definition lb (l : lp) : Prop := forall c, c < l_nc l -> bnd (lp_sat l) (fun x => x c).
Definition obj_ok (l : lp) : Prop := row_cols_lt (l_nc l) (l_obj l).

Lemma cb_mono l (J J' : nat -> Prop) : (forall k, J k -> J' k) -> cb l J' -> cb l J.
Proof. intros E H c Hc. apply (bnd_sub (core_exc l J')); [|exact (H c Hc)]. intros x Hx k r Hk NJ. apply Hx; auto. Qed.
Lemma core_exc_sat l J x : core_sat l x -> core_exc l J x.
Proof. intros H k r Hk _. apply (H k r Hk). Qed.
Lemma cb_cur l J BM nu IEs i : wf_lp l BM nu IEs -> cb l J -> i < l_dims l -> bnd (core_exc l J) (fun x => cur_of l BM nu IEs x i) /\ bnd (core_exc l J) (ie_val nu IEs i (uoff l)).
Proof.
  intros W H Hi. assert (B : bnd (core_exc l J) (ie_val nu IEs i (uoff l))).
  { apply (bnd_ie_val _ (l_dims l)); [apply (wf_IEs_dims _ _ _ _ W)|exact Hi|]. intros c Hc. apply H. right. split; [lia|].
    pose proof (wf_ies _ _ _ _ W) as HI. unfold uoff in Hc. destruct (l_ie l) as [[ier iec]|]; [destruct HI as (_ & _ & HI & _); lia|]. subst IEs. cbn [List.length] in Hc. lia. }
  split; [|exact B]. apply (bnd_ext _ (fun x => ldot (mrow BM i) (snd (l_bm l)) x + ie_val nu IEs i (uoff l) x)%Q); [intros x _; reflexivity|].
  apply bnd_add; [|exact B]. apply bnd_ldot. intros c Hc. rewrite (mat_dims_mrow _ _ _ _ (wf_bmdims _ _ _ _ W) Hi) in Hc. pose proof (wf_bmc _ _ _ _ W). apply H. left. lia.
Qed.
Lemma cb_lb l J BM nu IEs : wf_lp l BM nu IEs -> cb l J -> lb l.
Proof.
  intros W H c Hc. assert (Sub : forall x, lp_sat l x -> core_exc l J x) by (intros x Hx; apply core_exc_sat; apply (lp_sat_iff_core _ _ _ _ _ W Hx)).
  destruct (Nat.lt_ge_cases c (l_cvo l)) as [L|L]; [apply (bnd_sub (core_exc l J)); [exact Sub|apply H; left; exact L]|].
  destruct (Nat.le_gt_cases (uoff l) c) as [U|U]; [apply (bnd_sub (core_exc l J)); [exact Sub|apply H; right; lia]|].
  destruct (Nat.lt_ge_cases c (l_cvo l + l_dims l)) as [C|C].
  - set (i := c - l_cvo l). assert (Hi : i < l_dims l) by (unfold i; lia). destruct (cb_cur _ _ _ _ _ i W H Hi) as [B _].
    apply (bnd_ext _ (fun x => cur_of l BM nu IEs x i)); [|exact (bnd_sub _ _ _ Sub B)]. intros x Hx. apply (wf_sat _ _ _ _ _ W) in Hx as [_ Hx]. destruct (Hx i Hi) as [E _].
    replace (l_cvo l + i) with c in E by (unfold i; lia). symmetry. exact E.
  - pose proof (wf_ies _ _ _ _ W) as HI. destruct (l_ie l) as [[ier iec]|] eqn:Eie; [|unfold uoff in U; rewrite Eie in U; lia]. destruct HI as (Hiec & _). assert (Eu : uoff l = iec + l_dims l) by (unfold uoff; rewrite Eie; reflexivity).
    set (i := c - iec). assert (Hi : i < l_dims l) by (unfold i; lia). destruct (cb_cur _ _ _ _ _ i W H Hi) as [_ B].
    apply (bnd_ext _ (ie_val nu IEs i (uoff l))); [|exact (bnd_sub _ _ _ Sub B)]. intros x Hx. apply (wf_sat _ _ _ _ _ W) in Hx as [_ Hx]. destruct (Hx i Hi) as [_ E].
    rewrite Eie in E. replace (iec + i) with c in E by (unfold i; lia). symmetry. exact E.
Qed.
Lemma lb_obj l o : lb (with_obj l o) <-> lb l.
Proof. split; intros H c Hc; exact (H c Hc). Qed.
Lemma cb_obj l J o : cb (with_obj l o) J <-> cb l J.
Proof. split; intros H c Hc; exact (H c Hc). Qed.

Section WithSolver.
Variable solve : solver.
Hypothesis Hsolve : solver_ok solve.
Hypothesis Hcomp : solver_complete solve.

Lemma no_fail l : lp_cols_ok l -> obj_ok l -> lb l -> solve l <> SFail.
Proof.
  intros C O B E. assert (K : bnd (lp_sat l) (reval (l_obj l))).
  { apply bnd_reval. intros c v Hin. apply B. unfold obj_ok, row_cols_lt in O. rewrite Forall_forall in O. exact (O _ Hin). }
  destruct K as (M & K). destruct (Hcomp l E C (- M)%Q) as (x & Hx & Hlt). specialize (K x Hx). apply Qabs_Qle_condition in K as [K _]. exact (Qlt_not_le _ _ Hlt K).
Qed.
Lemma minimize_total l cols : lp_cols_ok l -> obj_ok l -> lb l -> (forall cs, cols = Some cs -> forall c, In c cs -> c < l_nc l) -> exists r, minimize solve l cols false = Ok r.
Proof.
  intros C O B H. unfold minimize. pose proof (no_fail l C O B) as NF. destruct (solve l) as [x| |]; [|eauto|contradiction].
  replace (forallb _ _) with true; [cbn [assert bind]; eauto|]. symmetry. apply forallb_forall. intros c Hc. apply Nat.ltb_lt. destruct cols as [cs|]; [exact (H cs eq_refl c Hc)|apply in_seq in Hc; lia].
Qed.
Lemma minimize_total_sat l cols : lp_cols_ok l -> obj_ok l -> lb l -> (forall cs, cols = Some cs -> forall c, In c cs -> c < l_nc l) -> (exists x, lp_sat l x) ->
  exists vals, minimize solve l cols true = Ok (Some vals).
Proof.
  intros C O B H (x0 & Hx0). unfold minimize. pose proof (no_fail l C O B) as NF. pose proof (Hsolve l) as HS. destruct (solve l) as [x| |]; [|exfalso; exact (HS x0 Hx0)|contradiction].
  replace (forallb _ _) with true; [cbn [assert bind]; eauto|]. symmetry. apply forallb_forall. intros c Hc. apply Nat.ltb_lt. destruct cols as [cs|]; [exact (H cs eq_refl c Hc)|apply in_seq in Hc; lia].
Qed.
Lemma feasible_total l : lp_cols_ok l -> obj_ok l -> lb l -> exists b, lp_is_feasible solve l = Ok b.
Proof. intros C O B. destruct (minimize_total l (Some []) C O B) as (r & Hr); [intros cs E c Hc; injection E as <-; destruct Hc|]. unfold lp_is_feasible. rewrite Hr. cbn [bind]. eauto. Qed.
Lemma feasible_sat l : lp_cols_ok l -> obj_ok l -> lb l -> (exists x, lp_sat l x) -> lp_is_feasible solve l = Ok true.
Proof.
  intros C O B Hx. destruct (feasible_total l C O B) as (b & Hb). rewrite Hb. apply (lp_is_feasible_spec solve Hsolve) in Hb. f_equal. apply Hb. exact Hx.
Qed.

(** set_min_dir / set_min_dir_csr *)
Lemma set_min_dir_total l d : l_cvo l + l_dims l <= l_nc l -> List.length d <= l_dims l -> exists l', set_min_dir l d = Ok l' /\ obj_ok l' /\ exists o, l' = with_obj l o.
Proof.
  intros C H. unfold set_min_dir. rewrite (proj2 (Nat.leb_le _ _) H). cbn [assert bind]. eexists. split; [reflexivity|]. split; [|eauto].
  unfold obj_ok, row_cols_lt. apply Forall_forall. intros [c v] Hin. cbn [fst]. cbn [l_obj with_obj] in Hin. apply dense_row_cols in Hin. unfold l_nc in *. cbn [l_names with_obj]. lia.
Qed.
Lemma set_min_dir_csr_total l r w off : (match off with None => l_cvo l + l_dims l <= l_nc l /\ w <= l_dims l | Some o => w + o <= l_nc l end) -> row_cols_lt w r ->
  exists l', set_min_dir_csr l r w off = Ok l' /\ obj_ok l' /\ exists o, l' = with_obj l o.
Proof.
  intros H Hr. unfold set_min_dir_csr. set (o := match off with None => l_cvo l | Some o => o end).
  assert (E1 : (match off with None => do _ <- assert (w <=? l_dims l); Ok (l_cvo l) | Some o => do _ <- assert (w + o <=? l_nc l); Ok o end) = Ok o).
  { unfold o. destruct off as [k|]; [rewrite (proj2 (Nat.leb_le _ _) H)|rewrite (proj2 (Nat.leb_le _ _) (proj2 H))]; reflexivity. }
  rewrite E1. cbn [bind]. assert (Ho : o + w <= l_nc l) by (unfold o; destruct off; lia).
  assert (R : row_cols_lt (l_nc l) (shift_row o r)).
  { unfold row_cols_lt in *. rewrite Forall_forall in *. intros [c v] Hin. unfold shift_row in Hin. apply in_map_iff in Hin as ([c' v'] & E & Hin). injection E as <- <-. specialize (Hr _ Hin). cbn [fst] in *. lia. }
  assert (Rb : row_cols_ltb (l_nc l) (shift_row o r) = true).
  { unfold row_cols_ltb. apply forallb_forall. intros e He. apply Nat.ltb_lt. unfold row_cols_lt in R. rewrite Forall_forall in R. exact (R e He). }
  rewrite Rb. cbn [assert bind]. eexists. split; [reflexivity|]. split; [exact R|eauto].
Qed.
End WithSolver.
