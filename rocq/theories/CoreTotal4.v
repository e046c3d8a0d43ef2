(** The whole analysis does not fail on bounded sets (for C66). *)
From Verif Require Import Base BaseFacts LpModel LpSpec SetSpec LpUtil LpFacts LpWf SetFacts SetFacts2 MinkFacts OpsFacts OpsFacts2 OpsFacts3 OpsFacts4 AggFacts ChullFacts
  ApiSpec ApiFacts Automaton StateSet HybridSpec FlowFacts StateSpec StateFacts StateFacts2 StateFacts3 AutoFacts BuildFacts CoreModel HeapFacts Prop_Sets CoreOps CorePop CoreExt CoreDag CoreDag2 CoreDag3 CoreCont CoreSpec CoreSetup
  Bounded Bounded2 Bounded3 Bounded4 Bounded5 Bounded6 Bounded7 CoreTotal CoreTotal2 CoreTotal3 CoreSubD Prop_Core2.
From Coq Require Import Lia Lqa Setoid QArith.Qabs.
Open Scope nat_scope.

(** every column of the constraint system is bounded; a set for a mode with inputs can take input effects *)
Definition set_bounded (l : lp) : Prop := forall c, c < l_nc l -> exists M, forall x, lp_sat l x -> (Qabs (x c) <= M)%Q.
Definition init_fits (a : ha) (s : sset) : Prop :=
  set_bounded (ss_lpi s) /\ row_cols_lt (l_nc (ss_lpi s)) (l_obj (ss_lpi s)) /\ (m_b (get_mode a (ss_mode s)) <> None -> exists c, l_ie (ss_lpi s) = Some c).

Section WithSolver.
Variable solve : solver.
Hypothesis Hsolve : solver_ok solve.
Hypothesis Hcomp : solver_complete solve.
Variable arnoldi : nat -> option (list Q) -> csr -> option csr -> nat -> list (list Q).
Hypothesis Harn : forall k ctr am r n, Forall (fun row => List.length row = n) (arnoldi k ctr am r n).
Variable cf : cfg.
Variable a : ha.
Hypothesis WH : wf_ha a.
Hypothesis HF : fits a.
Hypothesis Hnum : 0 < cf_num cf.
Variable J : nat -> core -> Prop.
Hypothesis Jerr : forall c nid t l1 tl, J nid c -> t < List.length (ha_trans a) -> t_from (get_trans a t) = ss_mode (getS c (n_state (getN c nid))) -> is_error (get_mode a (t_to (get_trans a t))) = true ->
  get_guard_intersection solve (get_trans a t) (ss_lpi (getS c (n_state (getN c nid)))) = Ok (l1, Some tl) -> lp_fine tl ->
  exists c', error_reached solve cf a (setS c (n_state (getN c nid)) (ss_with_lpi (getS c (n_state (getN c nid))) l1)) (n_state (getN c nid)) t tl = Ok c'.
Hypothesis Jstep : forall c nid t c', J nid c -> t < List.length (ha_trans a) -> t_from (get_trans a t) = ss_mode (getS c (n_state (getN c nid))) ->
  check_guards_loop solve cf a c nid (n_state (getN c nid)) [t] = Ok c' -> J nid c'.
(** [J1]: the same, between the steps of the computation *)
Variable J1 : core -> Prop.
Hypothesis Jcont : forall c n, J1 c -> c_cur c = Some n -> left_inv c n = false -> forall c1 s1, ss_lo (getS c (n_state (getN c n))) < cf_num cf ->
  intersect_state solve a c n (n_state (getN c n)) = Ok (c1, true) -> ss_step1 a (getS c1 (n_state (getN c n))) = Ok s1 -> J n (setS c1 (n_state (getN c n)) s1).
Hypothesis Jpop : forall c c1 n, J1 c -> do_step_pop solve arnoldi cf a c = Ok c1 -> cf_urgent cf = true -> c_cur c1 = Some n -> left_inv c1 n = false -> J n c1.
Hypothesis Jdo : forall c c', J1 c -> do_step solve arnoldi cf a c = Ok c' -> J1 c'.
Hypothesis Hnd : no_deagg cf.
Notation dag := (dag cf a).
Notation tinv := (tinv solve a).
Notation err m := (is_error (get_mode a m)).

Definition cur_ok (c : core) : Prop := forall n, c_cur c = Some n -> err (nodemode c n) = false.
Record uinv (c : core) : Prop := { u_c : cinv cf a c; u_t : tinv c; u_cur : cur_ok c; u_rep : c_rep c = None; u_dw : c_dwait c = [] }.

Lemma cur_ext c c' : cinv cf a c -> cur_ok c -> ext c c' -> (c_cur c' = c_cur c \/ c_cur c' = None) -> cur_ok c'.
Proof.
  intros V K X Hc n Hn. destruct Hc as [Hc|Hc]; rewrite Hc in Hn; [|discriminate]. pose proof (ci_cur _ _ _ V n Hn) as Hlt. unfold nodemode. rewrite (proj1 (ex_node _ _ X n Hlt)).
  destruct (d_parents _ _ _ _ (ci_dag _ _ _ V) n Hlt) as (_ & _ & P & _). rewrite (proj1 (ex_mode _ _ X _ P)). apply K. exact Hn.
Qed.
Lemma cur_left c nid sid b : c_cur (left_invariant c nid sid b) = None. Proof. reflexivity. Qed.

Lemma cur_cont c nid sid c' : dag (rep_map c) c -> nid < nN c -> continuous_post solve cf a c nid sid = Ok c' -> c_cur c' = c_cur c \/ c_cur c' = None.
Proof.
  intros D Hn H. unfold continuous_post in H. destruct (_ <=? _); [apply ok_inj in H; subst c'; right; reflexivity|]. destruct (c_tt c); [apply ok_inj in H; subst c'; right; reflexivity|].
  apply bind_ok in H as ([c1 ok] & H1 & H). destruct ok; cbn [negb] in H; [|apply ok_inj in H; subst c'; right; reflexivity]. destruct (dag_intersect _ _ _ _ _ _ _ _ _ D H1) as [D1 P1].
  apply bind_ok in H as (s1 & Hs & H). apply bind_ok in H as (c2 & H2 & H). assert (K : keeps c1 (setS c1 sid s1)) by (apply keeps_set; eapply f2_step; exact Hs).
  assert (D2 : dag (rep_map c) (setS c1 sid s1)) by (apply (dag_k _ _ _ c1); assumption). unfold check_guards in H2. apply (dag_guards _ _ _ (rep_map c)) in H2 as [_ P2]; [|exact D2|ccbn; rewrite (pf_nN _ _ P1); exact Hn].
  destruct (m_a _); [|discriminate]. destruct (_ && _); apply ok_inj in H; subst c'; [right; reflexivity|]. left. rewrite (pf_cur _ _ P2). ccbn. apply P1.
Qed.

Lemma step_pop_total c : uinv c -> c_wait c <> [] -> exists c', do_step_pop solve arnoldi cf a c = Ok c' /\ uinv c'.
Proof.
  intros [V T K R W] Hw. destruct (pop_total solve Hsolve Hcomp arnoldi Harn cf a WH HF Hnum c V T Hw) as (c1 & nid & E1 & T1).
  destruct (cinv_pop _ _ _ _ _ _ _ V E1) as [V1 C1]. pose proof (ci_cur _ _ _ V1 nid C1) as Hn. pose proof (ci_dag _ _ _ V1) as D1.
  assert (E : exists c', do_step_pop solve arnoldi cf a c = Ok c' /\ tinv c' /\ cur_ok c').
  { unfold do_step_pop. rewrite E1. cbn [bind]. destruct (is_error _) eqn:Ee.
    - eexists. split; [reflexivity|]. split; [apply tinv_left; exact T1|]. intros n Hn'. discriminate.
    - edestruct (intersect_state_total solve Hsolve Hcomp cf a WH Hnum c1 _ nid D1 T1 Hn Ee) as (c2 & ok & E2 & T2). rewrite E2. cbn [bind].
      assert (X2 : ext c1 c2) by (eapply ext_intersect; exact E2). destruct (dag_intersect _ _ _ _ _ _ _ _ _ D1 E2) as [D2 P2].
      destruct ok; eexists; (split; [reflexivity|]).
      + split; [exact T2|]. apply (cur_ext c1); auto; [|left; apply P2]. intros n Hn'. rewrite C1 in Hn'. injection Hn' as <-. exact Ee.
      + split; [apply tinv_left; exact T2|]. intros n Hn'. discriminate. }
  destruct E as (c' & E & T' & K'). exists c'. split; [exact E|]. destruct (dw_step_pop solve arnoldi cf a c c' V E) as [Q1 Q2].
  constructor; [exact (cinv_step_pop _ _ _ _ _ _ V E)|exact T'|exact K'|congruence|congruence].
Qed.

Lemma step_total_core c : uinv c -> J1 c -> exists c', do_step solve arnoldi cf a c = Ok c' /\ uinv c'.
Proof.
  intros U HJ. pose proof U as [V T K R W]. unfold do_step. destruct (is_finished cf c) eqn:Ef; [eauto|].
  destruct (cur_state c) as [[nid sid]|] eqn:Ec.
  - unfold cur_state in Ec. destruct (c_cur c) as [n|] eqn:En; [|discriminate]. destruct (left_inv c n) eqn:El; [discriminate|]. injection Ec as -> <-.
    pose proof (ci_cur _ _ _ V nid En) as Hn. destruct (cont_total solve Hsolve Hcomp cf a WH HF Hnum J Jerr Jstep c nid (ci_dag _ _ _ V) T (Jcont c nid HJ En El) Hn (K nid En)) as (c1 & E1 & T1). rewrite E1. cbn [bind].
    eexists. split; [reflexivity|]. pose proof (cinv_cont _ _ _ _ _ _ _ V En E1) as V1. destruct (dw_cont solve cf a c nid _ c1 V Hn E1) as [Q1 Q2].
    pose proof (cur_cont _ _ _ _ (ci_dag _ _ _ V) Hn E1) as Hcur. pose proof (ext_cont _ _ _ _ _ _ _ E1) as X1.
    constructor; [|apply (tinv_same solve a c1); auto|intros m Hm; exact (cur_ext c c1 V K X1 (eq_rect _ (fun z => c_cur c1 = z \/ c_cur c1 = None) Hcur _ eq_refl) m Hm)|ccbn; congruence|ccbn; congruence].
    destruct V1 as [A1 A2 A3 A4]. constructor; auto. change (rep_map (with_csteps c1 (Datatypes.S (c_csteps c1)))) with (rep_map c1). apply (dag_wait cf a _ c1); auto; apply A1.
  - assert (Hr : doing_replay c = false) by (unfold doing_replay; rewrite R, W; reflexivity). rewrite Hr.
    assert (Hg : get_deagg_node cf a c = Ok None). { unfold get_deagg_node. destruct (cf_strat cf) as [g|] eqn:Eg; [|reflexivity]. rewrite (Hnd g Eg). reflexivity. }
    rewrite Hg. cbn [bind].
    assert (Hw : c_wait c <> []). { intro Hw. unfold is_finished in Ef. rewrite Ec, Hr, Hw in Ef. cbn in Ef. destruct (cf_stop_agg cf && c_aggerr c); [discriminate|]. destruct (cf_stop_conc cf && c_concerr c); discriminate. }
    destruct (step_pop_total c U Hw) as (c1 & E1 & U1). rewrite E1. cbn [bind]. destruct (cur_state c1) as [[nid sid]|] eqn:Ec1; [|eauto]. case_eq (cf_urgent cf); intro Eu; [|eauto].
    pose proof U1 as [V1 T1 K1 R1 W1]. unfold cur_state in Ec1. destruct (c_cur c1) as [n|] eqn:En; [|discriminate]. destruct (left_inv c1 n) eqn:El; [discriminate|]. injection Ec1 as -> <-.
    pose proof (ci_cur _ _ _ V1 nid En) as Hn. unfold check_guards.
    destruct (guards_total solve Hsolve Hcomp cf a WH HF Hnum J Jerr Jstep nid _ (out_trans a (ss_mode (getS c1 (n_state (getN c1 nid))))) c1 _ (ci_dag _ _ _ V1) T1 (Jpop c c1 nid HJ E1 Eu En El) Hn eq_refl (K1 nid En)) as (c2 & E2 & T2).
    { intros t Ht. apply (out_ok a). exact Ht. }
    rewrite E2. eexists. split; [reflexivity|]. destruct (dag_guards _ _ _ _ _ _ _ _ _ (ci_dag _ _ _ V1) Hn E2) as [D2 P2]. pose proof (ext_guards _ _ _ _ _ _ _ _ E2) as X2.
    constructor.
    + apply (cinv_pf _ _ c1); auto; [apply P2|apply P2|rewrite (pf_nN _ _ P2); auto|]. intros m Hm. rewrite (pf_cur _ _ P2) in Hm. rewrite (pf_nN _ _ P2). apply (ci_cur _ _ _ V1). exact Hm.
    + exact T2.
    + apply (cur_ext c1); auto. left. apply P2.
    + rewrite (pf_rep _ _ P2). exact R1.
    + rewrite (pf_dw _ _ P2). exact W1.
Qed.

Lemma loop_total fuel : forall c, uinv c -> J1 c -> match run_loop solve arnoldi cf a fuel c with Some (Err _) => False | Some (Ok c') => uinv c' | None => True end.
Proof.
  induction fuel as [|f IH]; intros c U HJ; cbn [run_loop]; destruct (is_finished cf c); auto. destruct (step_total_core c U HJ) as (c1 & E & U1). rewrite E. apply IH; [exact U1|exact (Jdo c c1 HJ E)].
Qed.

(** ** setup *)
Lemma init_live s : init_ok solve a s -> init_fits a s -> err (ss_mode s) = false -> live solve a s.
Proof.
  intros (l & m & Hm & Hs & K) (B & O & I0) He. destruct (new_stateset_mode _ _ _ _ _ _ _ _ Hs) as (El & Em & _). rewrite Em in *. destruct (is_error_a _ He) as (x & Hx). rewrite Hx in K. destruct K as [Hap Hd]. rewrite El in *.
  assert (Hpos : 0 < c_nr x). { pose proof (proj1 WH m Hm) as W. rewrite Hx in W. apply (wfm_pos _ _ W). }
  destruct (api_ok solve Hsolve _ _ Hap) as (_ & _ & _ & W & _).
  refine (new_live solve Hsolve a l m _ _ _ _ s x WH Hm Hx Hap Hd _ O I0 Hs).
  eapply cb_of_sat; [exact W|]. intros c Hc. apply B. pose proof (proj2 (wf_lp_ok _ _ _ _ W)). unfold uoff in Hc. lia.
Qed.
Hypothesis Hinp : forall m, m < List.length (ha_modes a) -> m_b (get_mode a m) <> None -> m_inv (get_mode a m) = [].
Lemma live_norows s : live solve a s -> ss_mode s < List.length (ha_modes a) -> (m_b (get_mode a (ss_mode s)) <> None -> no_rows s) -> live solve a (ss_with_rows s (repeat None (List.length (m_inv (get_mode a (ss_mode s)))))).
Proof.
  intros (x & [A1 A2 A3 A4 A5 A6 A7 A8] & B & O & I0) Hm Hp. exists x. split; [|split; [|split; [exact O|exact I0]]].
  - constructor; auto.
    + destruct A4 as (js & Q & _). exists js. split; [exact Q|]. cbn [ss_with_rows ss_rows]. intros j Hj. apply repeat_spec in Hj. discriminate.
    + cbn [ss_with_rows ss_rows ss_mode]. apply repeat_length.
    + cbn [ss_with_rows ss_rows ss_mode ss_lpi ss_step]. intros K _. destruct (m_b (get_mode a (ss_mode s))) as [bu|] eqn:Eb.
      * apply A8; [exact K|]. apply Hp. discriminate.
      * exists (core_sat (ss_lpi s)). unfold hasC. rewrite Eb. tauto.
  - apply (cb_mono _ _ (rows_of s)); [|exact B]. intros k Hk. cbn [ss_with_rows] in Hk. unfold rows_of in Hk. cbn [ss_rows] in Hk. apply repeat_spec in Hk. discriminate.
Qed.

Lemma init_total s : init_ok solve a s -> init_fits a s ->
  exists f, lp_is_feasible solve (ss_lpi s) = Ok f /\ (f = true -> exists s1 ops ok, intersect_invariant solve a s = Ok (s1, ops, ok) /\
    (ok = true -> let s2 := ss_with_rows s1 (repeat None (List.length (m_inv (get_mode a (ss_mode s1))))) in (err (ss_mode s2) = false -> live solve a s2) /\ exists p, in_lp (ss_lpi s2) p)).
Proof.
  intros Hi Hf. pose proof Hi as (l & m & Hm & Hs & K). pose proof Hf as (B & O & I0). destruct (new_stateset_mode _ _ _ _ _ _ _ _ Hs) as (El & Em & _).
  assert (Hap : exists k, api solve (ss_lpi s) k) by (rewrite El; destruct (m_a (get_mode a m)); [destruct K; eauto|destruct K as [(k & K) _]; eauto]).
  assert (F : lp_fine (ss_lpi s)). { destruct Hap as (k & Hk). destruct (api_ok solve Hsolve _ _ Hk) as ((C & V) & _). split; [split; [exact C|exact V]|]. split; [exact O|]. exact B. }
  destruct (fine_feasible solve Hcomp _ F) as (f & Ef). exists f. split; [exact Ef|]. intros ->.
  assert (E : exists s1 ops ok, intersect_invariant solve a s = Ok (s1, ops, ok) /\ (err (ss_mode s) = false -> live solve a s1 /\ ss_mode s1 = ss_mode s)).
  { destruct (err (ss_mode s)) eqn:Ee.
    - pose proof (proj1 WH m Hm) as W. rewrite Em in Ee. unfold is_error in Ee. destruct (m_a (get_mode a m)); [discriminate|]. rewrite intersect_invariant_nil by (rewrite Em; exact W). do 3 eexists. split; [reflexivity|discriminate].
    - destruct (intersect_total solve Hsolve Hcomp a s WH (init_live s Hi Hf Ee)) as (s1 & ops & ok & E & L & M). exists s1, ops, ok. auto. }
  destruct E as (s1 & ops & ok & E & L). exists s1, ops, ok. split; [exact E|]. intros ->.
  destruct (init_state solve Hsolve a WH Hinp s s1 ops Hi Ef E) as ((_ & _ & _ & X & _) & M & _). cbn zeta in *. split; [|exact X].
  rewrite M. intro He. destruct (L He) as [L1 M1]. apply live_norows; [exact L1|rewrite M1, Em; exact Hm|].
  intros Hb. assert (Ei : m_inv (get_mode a (ss_mode s)) = []) by (apply Hinp; [rewrite Em; exact Hm|rewrite <- M1; exact Hb]).
  rewrite (intersect_invariant_nil solve a s Ei) in E. apply ok_inj in E. injection E as <- _. intros j Hj. unfold new_stateset in Hs. apply bind_ok in Hs as (bm & _ & Hs). apply ok_inj in Hs. subst s. cbn [ss_rows] in Hj. apply repeat_spec in Hj. discriminate.
Qed.

Lemma tinv_add_init c s : cinit c -> tinv c -> (err (ss_mode s) = false -> live solve a s) -> (exists p, in_lp (ss_lpi s) p) -> tinv (add_init_state c s).
Proof.
  intros C T L X. pose proof C as [C1 C2 C3 C4 C5 C6 C7 C8].
  assert (GS : forall i, getS (add_init_state c s) i = if i =? nS c then s else getS c i) by (intro i; exact (getS_add c s i)).
  assert (GO : forall o, getO (add_init_state c s) o = if o =? nO c then mkOp 0 None None None (nS c) None else getO c o) by (intro o; exact (getO_add c _ o)).
  constructor.
  - intros i Hi. change (i < List.length (c_states c ++ [s])) in Hi. rewrite app_length in Hi. cbn [List.length] in Hi. rewrite GS. destruct (Nat.eqb_spec i (nS c)) as [->|N]; [exact L|]. apply (t_live _ _ _ T). lia.
  - intros o Ho. change (In o (c_wait c ++ [nO c])) in Ho. unfold pstate. rewrite GO, GS. apply in_app_or in Ho as [Ho|[<-|[]]].
    + pose proof Ho as Ho'. rewrite C6 in Ho'. apply in_seq in Ho'. destruct (Nat.eqb_spec o (nO c)); [lia|]. assert (Ho2 : o < nO c) by lia. destruct (C8 o Ho2) as (_ & _ & _ & P). destruct (Nat.eqb_spec (o_post (getO c o)) (nS c)); [lia|]. exact (t_wait _ _ _ T o Ho).
    + rewrite Nat.eqb_refl. cbn [o_post]. rewrite Nat.eqb_refl. exact X.
  - intros o p t Ho Hp. exfalso. change (o < List.length (c_ops c ++ [mkOp 0 None None None (nS c) None])) in Ho. rewrite app_length in Ho. cbn [List.length] in Ho. rewrite GO in Hp. destruct (Nat.eqb_spec o (nO c)); [discriminate|].
    assert (Ho2 : o < nO c) by lia. destruct (C8 o Ho2) as (Q & _). congruence.
Qed.

Lemma setup_states_total ss : forall c, Forall (init_ok solve a) ss -> Forall (init_fits a) ss -> cinit c -> tinv c -> exists c', setup_states solve a c ss = Ok c' /\ cinit c' /\ tinv c'.
Proof.
  induction ss as [|s ss IH]; intros c H1 H2 C T; [exists c; auto|]. inversion H1 as [|? ? A1 A2]; inversion H2 as [|? ? B1 B2]; subst. cbn [setup_states].
  destruct (init_total s A1 B1) as (f & Ef & K). rewrite Ef. cbn [bind]. destruct f; [|apply IH; auto]. destruct (K eq_refl) as (s1 & ops & ok & E & Q). rewrite E. cbn [bind]. destruct ok; [|apply IH; auto]. destruct (Q eq_refl) as [Q1 Q2]. cbn zeta in *.
  apply IH; auto; [|apply tinv_add_init; auto].
  destruct C as [C1 C2 C3 C4 C5 C6 C7 C8]. unfold add_init_state. constructor; ccbn; auto.
  - rewrite C6, app_length. cbn [List.length]. rewrite seq_app. reflexivity.
  - rewrite !app_length. cbn. lia.
  - rewrite app_length. cbn [List.length]. intros o Ho. unfold getO. ccbn. rewrite nth_snoc. destruct (Nat.eqb_spec o (nO c)) as [->|]; [cbn; auto|]. apply C8. lia.
Qed.
Lemma tinv0 : tinv core0.
Proof. constructor; cbn; intros; try lia; contradiction. Qed.

Lemma setup_total ss : Forall (init_ok solve a) ss -> Forall (init_fits a) ss -> (exists s p, In s ss /\ in_lp (ss_lpi s) p /\ inv_ok 0 (get_mode a (ss_mode s)) p) -> exists c, setup solve a ss = Ok c /\ uinv c.
Proof.
  intros H1 H2 (s & p & Hs & Hp & Hv). unfold setup. assert (Hne : List.length ss <> 0) by (destruct ss; [destruct Hs|discriminate]). destruct (Nat.eqb_spec (List.length ss) 0); [congruence|]. cbn [negb assert bind].
  destruct (setup_states_total ss core0 H1 H2 cinit0 tinv0) as (c & E & C & T). rewrite E. cbn [bind].
  destruct (setup_states_ok solve Hsolve a WH Hinp ss core0 c (CoreSetup.pre_core0 solve a) H1 E) as (_ & _ & _ & K4 & _). destruct (K4 s p Hs Hp Hv) as (o & Ho & _).
  pose proof (cs_wait _ C) as Hw. destruct (c_wait c) eqn:Ew; [exfalso; destruct (nO c); [lia|discriminate]|]. exists c. split; [reflexivity|].
  constructor; [apply cinit_inv; exact C|exact T|intros n9 Hn; rewrite (cs_cur _ C) in Hn; discriminate|apply C|apply C].
Qed.
End WithSolver.
