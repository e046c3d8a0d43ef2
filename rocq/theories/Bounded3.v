(** Guard intersection, resets, construction and aggregation do not fail on bounded LPs (for C66). *)
From Verif Require Import Base BaseFacts LpModel LpSpec SetSpec LpFacts LpWf LpUtil SetFacts SetFacts2 MinkFacts OpsFacts OpsFacts2 OpsFacts3 OpsFacts4 AggFacts ApiSpec ApiFacts Automaton Bounded Bounded2.
From Coq Require Import Lia Lqa Setoid QArith.Qabs.
Open Scope nat_scope.

(** what every operation needs of the LP it gets *)
Definition lp_fine (l : lp) : Prop := lp_ok l /\ obj_ok l /\ lb l.
Lemma fine_obj l o : lp_fine l -> obj_ok (with_obj l o) -> lp_fine (with_obj l o).
Proof. intros (A & _ & B) O. split; [exact A|]. split; [exact O|exact B]. Qed.

Lemma curtime_fine l m rhs : lp_fine l -> csr_ok m -> c_nc m <= l_dims l -> c_nr m = List.length rhs ->
  exists l', add_curtime_constraints l m rhs = Ok l' /\ lp_fine l' /\ l_dims l' = l_dims l /\ l_nc l' = l_nc l.
Proof.
  intros ((C & V) & O & B) Hm Hw Hr. destruct (add_curtime_total l m rhs) as (l' & E); [lia|exact Hr|]. exists l'. split; [exact E|].
  pose proof (add_curtime_ok _ _ _ _ Hr E) as [El _]. assert (Hn : l_nc l' = l_nc l) by (rewrite El; reflexivity). assert (Hd : l_dims l' = l_dims l) by (rewrite El; reflexivity).
  split; [|split; assumption]. split; [exact (add_curtime_lp_ok _ _ _ _ (conj C V) Hm Hr E)|]. split.
  - unfold obj_ok. rewrite Hn. rewrite El. exact O.
  - intros c Hc. rewrite Hn in Hc. apply (bnd_sub (lp_sat l)); [|exact (B c Hc)]. intros x Hx. apply (add_curtime_sat _ _ _ _ _ Hr E) in Hx. tauto.
Qed.

Section WithSolver.
Variable solve : solver.
Hypothesis Hsolve : solver_ok solve.
Hypothesis Hcomp : solver_complete solve.

Lemma fine_feasible l : lp_fine l -> exists b, lp_is_feasible solve l = Ok b.
Proof. intros ((C & _) & O & B). apply (feasible_total solve Hcomp); assumption. Qed.

(** Transition.get_guard_intersection *)
Lemma guard_rows_total w rows : forall l rhs, lp_fine l -> w <= l_dims l -> Forall (row_cols_lt w) rows -> List.length rows = List.length rhs ->
  exists o b, guard_rows_sat solve l w rows rhs = Ok (with_obj l o, b) /\ lp_fine (with_obj l o).
Proof.
  induction rows as [|r rows IH]; intros l rhs F Hw HF Hl; cbn [guard_rows_sat].
  - exists (l_obj l), true. assert (E : with_obj l (l_obj l) = l) by (destruct l; reflexivity). rewrite E. split; [reflexivity|exact F].
  - destruct rhs as [|b rhs]; [discriminate|]. inversion HF as [|? ? Hr HF']; subst. destruct F as ((C & V) & O & B).
    destruct (set_min_dir_csr_total l r w None (conj V Hw) Hr) as (l1 & E & O1 & o & ->). rewrite E. cbn [bind].
    destruct (minimize_total solve Hcomp (with_obj l o) (Some (map (fun e => l_cvo (with_obj l o) + fst e) r))) as (v & Ev); [exact C|exact O1|exact B| |].
    { intros cs Ecs c Hc. injection Ecs as <-. apply in_map_iff in Hc as (e & <- & He). unfold row_cols_lt in Hr. rewrite Forall_forall in Hr. specialize (Hr e He). unfold l_nc in *. cbn [l_cvo l_names with_obj]. lia. }
    rewrite Ev. cbn [bind]. assert (F1 : lp_fine (with_obj l o)) by (split; [split; [exact C|exact V]|split; [exact O1|exact B]]).
    destruct v as [vals|]; [|eauto]. destruct (Qle_bool _ b); [|eauto].
    destruct (IH (with_obj l o) rhs F1 Hw HF' ltac:(cbn in Hl; lia)) as (o2 & b2 & E2 & F2). rewrite with_obj_twice in E2, F2. eauto.
Qed.
Lemma guard_total t l g rhs BM nu IEs : wf_lp l BM nu IEs -> 0 < l_dims l -> lp_fine l -> t_guard t = Some (g, rhs) -> csr_ok g -> c_nc g <= l_dims l -> c_nr g = List.length rhs ->
  exists o r, get_guard_intersection solve t l = Ok (with_obj l o, r) /\ lp_fine (with_obj l o) /\
    forall tl, r = Some tl -> lp_fine tl /\ l_dims tl = l_dims l /\ exists x, lp_sat tl x.
Proof.
  intros W Hd F Eg Hg Hw Hr. unfold get_guard_intersection. rewrite Eg. destruct (guard_rows_total (c_nc g) (c_rows g) l rhs F Hw Hg Hr) as (o & b & E & F1). rewrite E. cbn [bind].
  destruct b; [|exists o, None; split; [reflexivity|]; split; [exact F1|discriminate]].
  rewrite (clone_total _ _ _ _ (wf_with_obj _ _ _ _ o W) Hd). cbn [bind]. destruct (curtime_fine (with_obj l o) g rhs F1 Hg Hw Hr) as (tl & Et & Ft & Hdt & _). rewrite Et. cbn [bind].
  destruct (fine_feasible tl Ft) as (f & Ef). rewrite Ef. cbn [bind]. exists o, (if f then Some tl else None). split; [reflexivity|]. split; [exact F1|].
  intros tl' E'. destruct f; [|discriminate]. injection E' as <-. split; [exact Ft|]. split; [exact Hdt|]. apply (lp_is_feasible_spec solve Hsolve) in Ef. apply Ef. reflexivity.
Qed.

(** get_box_center *)
Lemma box_center_total ds : forall l, lp_fine l -> (forall d, In d ds -> d < l_dims l) -> exists o r, box_center_loop solve l ds = Ok (with_obj l o, r) /\ lp_fine (with_obj l o).
Proof.
  induction ds as [|d ds IH]; intros l F Hds; cbn [box_center_loop].
  - exists (l_obj l), (Some []). assert (E : with_obj l (l_obj l) = l) by (destruct l; reflexivity). rewrite E. split; [reflexivity|exact F].
  - pose proof F as ((C & V) & O & B). pose proof (Hds d (or_introl eq_refl)) as Hd0.
    destruct (set_min_dir_total l (map (fun i => if Nat.eqb i d then 1%Q else 0%Q) (seq 0 (l_dims l))) V) as (l1 & E1 & O1 & o1 & ->); [rewrite map_length, seq_length; lia|]. rewrite E1. cbn [bind].
    assert (F1 : lp_fine (with_obj l o1)) by (apply fine_obj; assumption). pose proof F1 as ((C1 & V1) & _ & B1).
    destruct (minimize_total solve Hcomp (with_obj l o1) (Some [l_cvo l + d]) C1 O1 B1) as (mn & Em); [intros cs Ecs c Hc; injection Ecs as <-; destruct Hc as [<-|[]]; unfold l_nc in *; cbn [l_names with_obj]; lia|]. rewrite Em. cbn [bind].
    destruct (set_min_dir_total (with_obj l o1) (map (fun i => if Nat.eqb i d then (-1)%Q else 0%Q) (seq 0 (l_dims l))) V1) as (l2 & E2 & O2 & o2 & ->); [rewrite map_length, seq_length; cbn; lia|]. rewrite E2. cbn [bind].
    rewrite with_obj_twice in *. assert (F2 : lp_fine (with_obj l o2)) by (apply fine_obj; assumption). pose proof F2 as ((C2 & V2) & _ & B2).
    destruct (minimize_total solve Hcomp (with_obj l o2) (Some [l_cvo l + d]) C2 O2 B2) as (mx & Ex); [intros cs Ecs c Hc; injection Ecs as <-; destruct Hc as [<-|[]]; unfold l_nc in *; cbn [l_names with_obj]; lia|]. rewrite Ex. cbn [bind].
    destruct mn as [[|a [|? ?]]|]; [eauto| |eauto|eauto]. destruct mx as [[|b [|? ?]]|]; [eauto| |eauto|eauto].
    destruct (IH (with_obj l o2) F2) as (o3 & r & E3 & F3); [intros d' Hd'; apply (Hds d'); right; exact Hd'|]. rewrite E3. cbn [bind fst snd]. rewrite with_obj_twice in *. eauto.
Qed.
Lemma center_total l : lp_fine l -> (exists p, in_lp l p) -> exists o c, get_box_center solve l = Ok (with_obj l o, Some c) /\ lp_fine (with_obj l o).
Proof.
  intros F (p & Hp). destruct (box_center_total (seq 0 (l_dims l)) l F) as (o & r & E & F1); [intros d Hd; apply in_seq in Hd; lia|].
  destruct r as [c|]; [exists o, c; split; [exact E|exact F1]|]. exfalso.
  apply (get_box_center_spec solve Hsolve) in E as [_ E]. exact (E p Hp).
Qed.
End WithSolver.
