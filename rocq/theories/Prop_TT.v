(** C19, C21 with time-triggered transitions; what the optimisation loses (C44). *)
From Verif Require Import Base BaseFacts LpModel LpSpec SetSpec LpUtil LpFacts ChullFacts ApiSpec ApiFacts Automaton StateSet HybridSpec FlowFacts StateSpec
  StateFacts StateFacts2 StateFacts3 AutoFacts CoreModel HeapFacts CoreOps CoreGhost CoreHeap CoreInv CoreStep CoreCont CorePop CoreReplay CoreDeagg CoreSplit CoreMono CoreFinal
  CoreSpec CoreSetup CoreExt SkipZero SetupHa CoreDag3 CoreTT Prop_Core.
Open Scope nat_scope.

(** the executions that take transitions only inside the invariant of the mode they leave *)
Definition strict_rules (cf : cfg) : rules := mkRules (cf_urgent cf) (cf_num cf) (fun _ => false) true.
(** Every invariant condition that the guard of a time-triggered transition negates grows in every time step of every such execution, by at
    least twice the tolerance with which the boundary is recognised: for a clock t' = 1 this is step_size >= 4/1000 step_size / num_steps. *)
Definition clocks_move (cf : cfg) (a : ha) (init : nat -> vec -> Prop) : Prop :=
  forall t g rhs i r ic p k n u p', t < List.length (ha_trans a) -> t_tt (get_trans a t) = true -> t_guard (get_trans a t) = Some (g, rhs) -> nth_error (c_rows g) i = Some r ->
    In ic (m_inv (get_mode a (t_from (get_trans a t)))) -> (forall q, reval r q == - reval (lc_row ic) q)%Q ->
    reach 0 (strict_rules cf) a init (t_from (get_trans a t)) p k n -> inv_ok 0 (get_mode a (t_from (get_trans a t))) p ->
    input_ok (get_mode a (t_from (get_trans a t))) u -> one_step (get_mode a (t_from (get_trans a t))) p u p' ->
    (reval (lc_row ic) p + 4 * cf_step cf / inject_Z (Z.of_nat (cf_num cf)) / 1000 <= reval (lc_row ic) p')%Q.

Section TT.
Variable solve : solver.
Hypothesis Hsolve : solver_ok solve.
Variable arnoldi : nat -> option (list Q) -> csr -> option csr -> nat -> list (list Q).
(** the flag took_tt_transition never outlives the state that raised it (C44_tt_flag_refuted shows that it can) *)
Definition flag_consumed (cf : cfg) (a : ha) (inits : list sset) : Prop :=
  forall c, reached solve arnoldi cf a inits c -> c_cur c = None -> c_tt c = false.

Lemma cap_strict cf a (init : nat -> vec -> Prop) : wf_ha a -> zero_plain cf a -> (forall m p, init m p -> m < List.length (ha_modes a)) ->
  error_reachable 0 (strict_rules cf) a init -> error_reachable 0 (srules true cf a) a init.
Proof.
  intros W HZ Hi. apply (skip_error a W (strict_rules cf) (srules true cf a) init eq_refl eq_refl eq_refl); auto.
  intros m p u p' Hm He Hc Hu Ho. cbn [ru_cap srules] in Hc. destruct (m_a (get_mode a m)) as [x|] eqn:Ex; [|discriminate]. apply andb_true_iff in Hc as [Hc1 Hc2]. apply Nat.eqb_eq in Hc1.
  destruct (HZ Hc2 m x Hm Ex Hc1) as [Hb HI]. intros i Hi'. rewrite (Ho i Hi'). rewrite Hb. unfold m_dims in Hi'. rewrite Ex in Hi'. rewrite (HI p i Hi'). ring.
Qed.
Lemma tt_final cf a0 a inits fuel c :
  wf_ha a0 -> inputs_plain a0 -> zero_plain cf a0 -> path_ok cf -> (0 <= cf_step cf)%Q -> setup_ha cf a0 = Ok a -> Forall (init_ok solve a0) inits ->
  clocks_move cf a (init_of_list inits) -> flag_consumed cf a inits ->
  run solve arnoldi cf a0 inits fuel = Some (Ok c) -> ~ bad cf c -> error_reachable 0 (strict_rules cf) a0 (init_of_list inits) ->
  exists I0 D, wf_ha a /\ base solve cf a (srules true cf a) I0 D (fun _ => False) [] c /\ c_wait c = [] /\ (forall N, N < nN c -> done a (srules true cf a) I0 c N) /\
    (forall m x, err a m = false -> init_of_list inits m x -> inv_ok 0 (get_mode a m) x -> exists o, o < nO c /\ o_parent (getO c o) = None /\ pmode c o = m /\ I0 o x) /\
    error_reachable 0 (srules true cf a) a (init_of_list inits).
Proof.
  intros W0 Hinp HZ Hpath Hh Hs Hinit HM HF Hrun Hb HE.
  destruct (core_final_gen solve Hsolve arnoldi true cf a0 a inits fuel c W0 Hinp Hpath Hs Hinit) as (I0 & D & W & B & Hw & Hd & Hi); auto.
  exists I0, D. split; [exact W|]. split; [exact B|]. split; [exact Hw|]. split; [exact Hd|]. split; [exact Hi|].
  destruct (setup_ha_ok cf a0 a W0 Hs) as (Em & _ & _). apply (cap_strict cf a0 _ W0 HZ) in HE; [|intros m p; eapply init_of_list_mode; eauto].
  apply (setup_sup cf a0 a _ _ Hh W0 Hs) in HE. replace (srules true cf a0) with (srules true cf a) in HE; [exact HE|]. unfold srules, get_mode. rewrite Em. reflexivity.
Qed.

(** ** C19 with time-triggered transitions *)
(** With optimize_tt_transitions (the default) and clocks that really run, a terminated analysis without an error is a safety proof for all
    executions that take transitions inside the invariants. *)
Theorem C19_safe_verdict_time_triggered cf a0 a inits fuel c :
  wf_ha a0 -> inputs_plain a0 -> zero_plain cf a0 -> path_ok cf -> (0 <= cf_step cf)%Q -> setup_ha cf a0 = Ok a -> Forall (init_ok solve a0) inits ->
  clocks_move cf a (init_of_list inits) -> flag_consumed cf a inits ->
  run solve arnoldi cf a0 inits fuel = Some (Ok c) -> c_aggerr c = false -> c_concerr c = false ->
  ~ error_reachable 0 (strict_rules cf) a0 (init_of_list inits).
Proof.
  intros W0 Hinp HZ Hpath Hh Hs Hinit HM HF Hrun H1 H2 HE. assert (Hb : ~ bad cf c) by (intros [[_ K]|[_ K]]; congruence).
  destruct (tt_final cf a0 a inits fuel c W0 Hinp HZ Hpath Hh Hs Hinit HM HF Hrun Hb HE) as (I0 & D & W & B & Hw & Hd & Hi & HE').
  exact (safe_sound solve cf a W (srules true cf a) I0 (init_of_list inits) c D B Hw Hd Hi H1 H2 HE').
Qed.
(** ** C21 with time-triggered transitions *)
Theorem C21_deaggregation_time_triggered cf a0 a inits fuel c g :
  wf_ha a0 -> inputs_plain a0 -> zero_plain cf a0 -> path_ok cf -> (0 <= cf_step cf)%Q -> setup_ha cf a0 = Ok a -> Forall (init_ok solve a0) inits ->
  clocks_move cf a (init_of_list inits) -> flag_consumed cf a inits ->
  cf_strat cf = Some g -> ag_deagg g = true -> cf_stop_agg cf = false ->
  run solve arnoldi cf a0 inits fuel = Some (Ok c) -> c_concerr c = false ->
  ~ error_reachable 0 (strict_rules cf) a0 (init_of_list inits).
Proof.
  intros W0 Hinp HZ Hpath Hh Hs Hinit HM HF Hg Hdg Hsa Hrun H2 HE. assert (Hb : ~ bad cf c) by (intros [[_ K]|[K _]]; congruence).
  destruct (tt_final cf a0 a inits fuel c W0 Hinp HZ Hpath Hh Hs Hinit HM HF Hrun Hb HE) as (I0 & D & W & B & Hw & Hd & Hi & HE').
  apply (safe_deagg solve cf a W (srules true cf a) I0 (init_of_list inits) c D B Hw Hd Hi); [|exact H2|exact HE']. unfold dg. rewrite Hg. exact Hdg.
Qed.

(** a finite run, checked state by state *)
Fixpoint all_clean (cf : cfg) (a : ha) (fuel : nat) (c : core) : bool :=
  negb (match c_cur c with None => c_tt c | Some _ => false end) &&
  (if is_finished cf c then true else match fuel with O => false | S f => match do_step solve arnoldi cf a c with Ok c' => all_clean cf a f c' | Err _ => true end end).
Lemma all_clean_ok cf a inits c0 fuel : setup solve a inits = Ok c0 -> all_clean cf a fuel c0 = true -> flag_consumed cf a inits.
Proof.
  intros Hs Ha. assert (K : forall c, reached solve arnoldi cf a inits c -> exists f, all_clean cf a f c = true).
  { induction 1 as [c E|c c' R [f IH] E]; [exists fuel; congruence|]. destruct (is_finished cf c) eqn:Ef.
    - unfold do_step in E. rewrite Ef in E. assert (c' = c) by congruence. subst c'. exists f. exact IH.
    - destruct f as [|f]; cbn [all_clean] in IH; rewrite Ef in IH; apply andb_true_iff in IH as [_ IH]; [discriminate|]. rewrite E in IH. exists f. exact IH. }
  intros c R Hc. destruct (K c R) as [f Hf]. destruct f; cbn [all_clean] in Hf; apply andb_true_iff in Hf as [Hf _]; rewrite Hc in Hf; apply negb_true_iff in Hf; exact Hf.
Qed.
End TT.

From Verif Require Import SetFacts2 Solver Prop_Sets Ex_Core Ex_Zero Ex_TT Ex_TT2.
Open Scope nat_scope.

(** exS 1 5 as Core.setup leaves it: the guard x >= 2 of "t0" relaxed by step_size / num_steps / 1000 *)
Definition exS5 : ha := mkHa (ha_modes (exS 1 5%Q))
  [mkTrans "t0" 0 1 (Some (mkCsr 2 [[(0%nat, -(1))%Q]], [-7999 # 4000])) None None true 0; mkTrans "t1" 1 2 (Some (mkCsr 2 [[(0%nat, -(1))%Q]], [-(5)%Q])) None None false 0].
Lemma exS_v m p k n : reach 0 (strict_rules (exS_cf true)) exS5 (init_of_list [exS_s]) m p k n -> m < 2 -> (p 1%nat == 1)%Q.
Proof.
  induction 1 as [m p Hi Hv|m p k n u p' R IH Hv Hn Hc Hu Ho|t p p' k n Ht R IH Hg Hj Hr]; intro Hm.
  - destruct Hi as (s & [<-|[]] & _ & Hp). apply exS_in in Hp. apply Hp.
  - assert (K := Ho 1). destruct m as [|[|m]]; [| |lia]; rewrite K by (vm_compute; lia); change (match m_b (get_mode exS5 _) with Some _ => _ | None => 0%Q end) with 0%Q.
    + change (m_bm (get_mode exS5 0) 1) with (exT_bm 1). rewrite exT_bm_ok by lia. rewrite IH by lia. reflexivity.
    + change (m_bm (get_mode exS5 1) 1) with (exT_bm 1). rewrite exT_bm_ok by lia. rewrite IH by lia. reflexivity.
  - change (List.length (ha_trans exS5)) with 2 in Ht. destruct t as [|[|t]]; [| |lia].
    + destruct Hr as (y & _ & Hr). specialize (Hr 1 ltac:(vm_compute; lia)). change (t_reset (get_trans exS5 0)) with (@None csr) in Hr. change (t_mink (get_trans exS5 0)) with (@None (csr * csr * list Q)) in Hr. cbn in Hr.
      rewrite Hr. rewrite IH by (vm_compute; lia). ring.
    + exfalso. revert Hm. vm_compute. lia.
Qed.
(** the clock automaton meets the hypotheses: mode "a" ends at x = 2 by its time-triggered transition, and the discarded state is not followed further *)
Lemma exS5_inp : inputs_plain (exS 1 5%Q). Proof. intros [|[|[|m]]] Hm; cbn in *; try congruence; lia. Qed.
Lemma exW_inp : inputs_plain exW. Proof. intros [|[|[|m]]] Hm; cbn in *; try congruence; lia. Qed.
Definition exW_a : ha := getr exW (setup_ha (exS_cf true) exW).
Definition exW_c0 : core := getr core0 (setup fm_solver exW_a [exW_s]).
Lemma exW_flag : flag_consumed fm_solver arn0 (exS_cf true) exW_a [exW_s].
Proof. apply (all_clean_ok fm_solver arn0 (exS_cf true) exW_a [exW_s] exW_c0 100); vm_compute; reflexivity. Qed.
Lemma exS5_zero : zero_plain (exS_cf true) (exS 1 5%Q).
Proof. intros _ m x Hm Hx Hn. destruct m as [|[|[|m]]]; cbn in Hx; try discriminate; [| |cbn in Hm; lia]; injection Hx as <-; discriminate. Qed.
Lemma exW_zero : zero_plain (exS_cf true) exW.
Proof. intros _ m x Hm Hx Hn. destruct m as [|[|[|m]]]; cbn in Hx; try discriminate; [| |cbn in Hm; lia]; injection Hx as <-; discriminate. Qed.
Example C19_time_triggered_witness : exists c,
  wf_ha (exS 1 5%Q) /\ inputs_plain (exS 1 5%Q) /\ zero_plain (exS_cf true) (exS 1 5%Q) /\ path_ok (exS_cf true) /\ (0 <= cf_step (exS_cf true))%Q /\
  setup_ha (exS_cf true) (exS 1 5%Q) = Ok exS5 /\ t_tt (get_trans exS5 0) = true /\ Forall (init_ok fm_solver (exS 1 5%Q)) [exS_s] /\
  clocks_move (exS_cf true) exS5 (init_of_list [exS_s]) /\ flag_consumed fm_solver arn0 (exS_cf true) exS5 [exS_s] /\
  run fm_solver arn0 (exS_cf true) (exS 1 5%Q) [exS_s] 100 = Some (Ok c) /\ c_aggerr c = false /\ c_concerr c = false /\
  existsb (fun x => match x with NTr _ => true | _ => false end) (n_ops (getN c 0)) = true.
Proof.
  pose (o := run fm_solver arn0 (exS_cf true) (exS 1 5%Q) [exS_s] 100). exists (getc o).
  split; [apply exS_wf; lia|]. split; [apply exS5_inp|].
  split; [apply exS5_zero|].
  split; [intros g Hg; discriminate|]. split; [discriminate|]. split; [vm_compute; reflexivity|]. split; [vm_compute; reflexivity|]. split; [apply exS_init|].
  split.
  { intros t g rhs i r ic p k n u p' Ht Htt Hg Hr Hic _ R Hv _ Ho. change (List.length (ha_trans exS5)) with 2 in Ht. destruct t as [|[|t]]; [| |lia]; [|exfalso; revert Htt; vm_compute; discriminate].
    change (t_from (get_trans exS5 0)) with 0 in *. destruct Hic as [<-|[]]. apply exS_v in R; [|lia]. assert (K := Ho 0 ltac:(vm_compute; lia)).
    change (m_b (get_mode exS5 0)) with (@None (csr * csr * list Q)) in K. change (m_bm (get_mode exS5 0) 1) with (exT_bm 1) in K. cbv beta iota in K. rewrite exT_bm_ok in K by lia. change (inject_Z (Z.of_nat 1)) with 1%Q in K.
    cbn [lc_row reval fold_right fst snd cf_step cf_num exS_cf]. unfold reval. cbn [fold_right map fst snd]. rewrite K, R.
    change (4 * 1 / inject_Z (Z.of_nat 4) / 1000)%Q with (4 * 1 / 4 / 1000)%Q. set (q := p 0). clearbody q. unfold Qdiv. assert (E : (4 * 1 * / 4 * / 1000 == 1 # 1000)%Q) by reflexivity. rewrite E. lra. }
  split.
  { pose (s0 := setup fm_solver exS5 [exS_s]). assert (E : exists c0, s0 = Ok c0 /\ all_clean fm_solver arn0 (exS_cf true) exS5 100 c0 = true).
    { exists (getr core0 s0). split; vm_compute; reflexivity. }
    destruct E as (c0 & E1 & E2). exact (all_clean_ok fm_solver arn0 (exS_cf true) exS5 [exS_s] c0 100 E1 E2). }
  split; [apply getc_ok; vm_compute; reflexivity|]. split; [vm_compute; reflexivity|]. split; vm_compute; reflexivity.
Qed.

(** ** C44: what the optimisation loses *)
(** Without it the analysis also follows the step from the boundary out of the invariant, and checks the guards there: here it finds the error
    at x = 3, one step after the boundary x = 2.  With it (the default) the state is dropped at the boundary and the verdict is "safe",
    although the execution exists in the semantics of all other theorems: the optimisation is not just an optimisation. *)
Theorem C44_tt_drops_step_refuted : exists c c',
  wf_ha (exS 0 3%Q) /\ Forall (init_ok fm_solver (exS 0 3%Q)) [exS_s] /\
  run fm_solver arn0 (exS_cf true) (exS 0 3%Q) [exS_s] 100 = Some (Ok c) /\ printed_verdict c = VSafe /\
  run fm_solver arn0 (exS_cf false) (exS 0 3%Q) [exS_s] 100 = Some (Ok c') /\ printed_verdict c' = VUnsafe /\
  error_reachable 0 (rules_of (exS_cf true)) (exS 0 3%Q) (init_of_list [exS_s]).
Proof.
  pose (o := run fm_solver arn0 (exS_cf true) (exS 0 3%Q) [exS_s] 100). pose (o' := run fm_solver arn0 (exS_cf false) (exS 0 3%Q) [exS_s] 100). exists (getc o), (getc o').
  split; [apply exS_wf; lia|]. split; [apply exS_init|]. split; [apply getc_ok; vm_compute; reflexivity|]. split; [vm_compute; reflexivity|].
  split; [apply getc_ok; vm_compute; reflexivity|]. split; [vm_compute; reflexivity|]. exact exS_reach.
Qed.
(** The "clocks" are found by the sparsity of the dynamics alone: a variable whose derivative is a linear function of constant variables counts,
    as long as none of these constants is 0: here x' = v - w with v = w = 1.  So x stands still at the boundary x = 2 of the invariant while y grows into the error; the state is
    discarded after the first step and the verdict is "safe", although an execution inside the invariants enters the error mode: without
    the hypothesis clocks_move the soundness theorem is false. *)
Theorem C44_tt_standing_clock_refuted : exists a c c',
  wf_ha exW /\ inputs_plain exW /\ zero_plain (exS_cf true) exW /\ path_ok (exS_cf true) /\ setup_ha (exS_cf true) exW = Ok a /\ Forall (init_ok fm_solver exW) [exW_s] /\
  flag_consumed fm_solver arn0 (exS_cf true) a [exW_s] /\
  run fm_solver arn0 (exS_cf true) exW [exW_s] 100 = Some (Ok c) /\ printed_verdict c = VSafe /\
  run fm_solver arn0 (exS_cf false) exW [exW_s] 100 = Some (Ok c') /\ printed_verdict c' = VUnsafe /\
  error_reachable 0 (strict_rules (exS_cf true)) exW (init_of_list [exW_s]).
Proof.
  pose (o := run fm_solver arn0 (exS_cf true) exW [exW_s] 100). pose (o' := run fm_solver arn0 (exS_cf false) exW [exW_s] 100).
  exists exW_a, (getc o), (getc o').
  split; [apply exW_wf|]. split; [apply exW_inp|].
  split; [apply exW_zero|].
  split; [intros g Hg; discriminate|]. split; [vm_compute; reflexivity|]. split; [apply exW_init|].
  split; [exact exW_flag|].
  split; [apply getc_ok; vm_compute; reflexivity|]. split; [vm_compute; reflexivity|].
  split; [apply getc_ok; vm_compute; reflexivity|]. split; [vm_compute; reflexivity|]. exact exW_reach.
Qed.

(** ** C20 with time-triggered transitions *)
(** every right-hand side of every guard increased by eps *)
Definition relax_trans (eps : Q) (t : trans) : trans :=
  mkTrans (t_name t) (t_from t) (t_to t) (match t_guard t with Some (g, rhs) => Some (g, map (fun b => (b + eps)%Q) rhs) | None => None end) (t_reset t) (t_mink t) (t_tt t) (t_index t).
Definition relax_guards (eps : Q) (a : ha) : ha := mkHa (ha_modes a) (map (relax_trans eps) (ha_trans a)).
Lemma relax_get eps a t : get_trans (relax_guards eps a) t = relax_trans eps (get_trans a t).
Proof. unfold get_trans, relax_guards. cbn [ha_trans]. change dtrans with (relax_trans eps dtrans) at 1. apply map_nth. Qed.
Lemma relax_sub a1 eps a0 lax ru init : (0 <= eps)%Q -> ha_modes a1 = ha_modes a0 -> List.length (ha_trans a1) = List.length (ha_trans a0) ->
  (forall t, t < List.length (ha_trans a0) -> exists inv, relaxed inv eps (get_trans a0 t) (get_trans a1 t)) ->
  error_reachable lax ru a1 init -> error_reachable lax ru (relax_guards eps a0) init.
Proof.
  intros He Em El HR. set (a' := relax_guards eps a0).
  assert (EM : forall i, get_mode a' i = get_mode a1 i) by (intro; unfold get_mode; rewrite Em; reflexivity).
  assert (El' : List.length (ha_trans a') = List.length (ha_trans a1)) by (unfold a', relax_guards; cbn [ha_trans]; rewrite map_length; auto).
  assert (G : forall t, t < List.length (ha_trans a1) -> t_from (get_trans a' t) = t_from (get_trans a1 t) /\ t_to (get_trans a' t) = t_to (get_trans a1 t) /\
     t_reset (get_trans a' t) = t_reset (get_trans a1 t) /\ t_mink (get_trans a' t) = t_mink (get_trans a1 t) /\ forall p, guard_ok (get_trans a1 t) p -> guard_ok (get_trans a' t) p).
  { intros t Ht. rewrite El in Ht. destruct (HR t Ht) as (inv & _ & R1 & R2 & R3 & R4 & _ & R). unfold a'. rewrite relax_get. unfold relax_trans; cbn [t_from t_to t_reset t_mink].
    split; [congruence|]. split; [congruence|]. split; [congruence|]. split; [congruence|]. intros p. unfold guard_ok. cbn [t_guard].
    destruct (t_guard (get_trans a0 t)) as [[g rhs]|], (t_guard (get_trans a1 t)) as [[g' rhs']|]; try tauto. destruct R as (-> & L & R). intros HP i r c' Hr Hc'.
    rewrite nth_error_map in Hc'. destruct (nth_error rhs i) as [b|] eqn:Eb; [|discriminate]. cbn in Hc'. injection Hc' as <-. destruct (R i b Eb) as (b' & Hb' & Hc). specialize (HP i r b' Hr Hb'). destruct Hc as [-> | (-> & _)]; lra. }
  assert (HRe : forall m p k n, reach lax ru a1 init m p k n -> reach lax ru a' init m p k n).
  { induction 1 as [m p Hi Hv|m p k n u p' H IH Hv Hn Hc Hu Ho|t p p' k n Ht H IH Hg Hj Hr].
    - apply R_init; rewrite ?EM; auto.
    - apply R_step with p u; rewrite ?EM; auto.
    - destruct (G t Ht) as (R1 & R2 & R3 & R4 & R5). rewrite <- R2. apply R_jump with p k; rewrite ?El', ?R1, ?EM; auto.
      unfold reset_ok, post_dims in *. rewrite R1, R3, R4, EM. exact Hr. }
  intros (t & p & k & n & Ht & Hee & HRr & Hg & Hj). destruct (G t Ht) as (R1 & R2 & R3 & R4 & R5). exists t, p, k, n. rewrite El', R1, R2, !EM. auto 10.
Qed.
From Verif Require Import Prop_Core2.
(** With time-triggered transitions a concrete error is an execution of the automaton with its guards relaxed by step_size / num_steps / 1000 *)
Theorem C20_concrete_error_time_triggered solve arnoldi cf a0 a inits fuel c : solver_ok solve ->
  wf_ha a0 -> inputs_plain a0 -> no_deagg cf -> (0 <= cf_step cf)%Q -> setup_ha cf a0 = Ok a -> Forall (init_ok solve a0) inits ->
  run solve arnoldi cf a0 inits fuel = Some (Ok c) -> c_concerr c = true ->
  error_reachable tol13 (rules_of cf) (relax_guards (cf_step cf / inject_Z (Z.of_nat (cf_num cf)) / 1000) a0) (init_of_list inits).
Proof.
  intros Hsv W Hinp Hnd Hh Hs Hinit Hrun He. assert (HE := concerr_real solve Hsv arnoldi cf a0 a inits fuel c W Hinp Hnd Hs Hinit Hrun He).
  set (eps := (cf_step cf / inject_Z (Z.of_nat (cf_num cf)) / 1000)%Q).
  assert (Hep : (0 <= eps)%Q).
  { unfold eps, Qdiv. assert (K : (0 <= / inject_Z (Z.of_nat (cf_num cf)))%Q) by (apply Qinv_le_0_compat; change 0%Q with (inject_Z 0); rewrite <- Zle_Qle; lia). repeat apply Qmult_le_0_compat; auto. discriminate. }
  unfold setup_ha in Hs. apply bind_ok in Hs as (a1 & H1 & H). apply bind_ok in H as (a2 & H2 & H). apply bind_ok in H as (? & _ & H). injection H as ->.
  assert (W1 : wf_ha a1) by (destruct (cf_tt cf); [eapply detect_wf; eauto|injection H1 as <-; exact W]).
  assert (HE1 : error_reachable tol13 (rules_of cf) a1 (init_of_list inits)) by (destruct (cf_gs cf); [apply (gs_error_sub a1 a W1 H2); exact HE|injection H2 as ->; exact HE]).
  destruct (cf_tt cf).
  - apply detect_tt_ok in H1 as (Em & El & HR). apply (relax_sub a1); auto. intros t Ht. eexists. apply (HR t Ht).
  - injection H1 as ->. apply (relax_sub a1); auto. intros t Ht. exists []. apply relaxed_refl.
Qed.
(** ... and need not be one of the automaton itself: here the error is reported at x = 1.9999 although its guard is x >= 2 *)
Theorem C20_time_triggered_refuted : exists c, wf_ha (exS 0 2%Q) /\ inputs_plain (exS 0 2%Q) /\ no_deagg exR_cf /\ Forall (init_ok fm_solver (exS 0 2%Q)) [exR_s] /\
  run fm_solver arn0 exR_cf (exS 0 2%Q) [exR_s] 100 = Some (Ok c) /\ c_concerr c = true /\ ~ error_reachable tol13 (rules_of exR_cf) (exS 0 2%Q) (init_of_list [exR_s]).
Proof.
  exists (getc (run fm_solver arn0 exR_cf (exS 0 2%Q) [exR_s] 100)). split; [apply exS_wf; lia|]. split; [intros [|[|[|m]]] Hm; cbn in *; try congruence; lia|]. split; [intros g Hg; discriminate|]. split; [apply exR_init|].
  split; [apply getc_ok; vm_compute; reflexivity|]. split; [vm_compute; reflexivity|]. apply exR_safe.
Qed.
