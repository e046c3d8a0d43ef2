(** With deaggregation: the counter-example of a concrete node is built without failing, and what the initial core has (for C66). *)
From Verif Require Import Base BaseFacts LpModel LpSpec SetSpec LpUtil LpFacts LpWf SetFacts SetFacts2 MinkFacts OpsFacts OpsFacts2 OpsFacts3 OpsFacts4 AggFacts ChullFacts
  ApiSpec ApiFacts Automaton StateSet HybridSpec FlowFacts StateSpec StateFacts StateFacts2 StateFacts3 AutoFacts BuildFacts CoreModel HeapFacts CoreOps CoreGhost CoreHeap CoreInv CoreStep CoreCont CorePop CoreExt CoreDag CoreDag2 CoreDag3 CoreSetup
  CoreSub CoreSubD CoreShape CoreShape2 SetupHa SetupHaSub CoreSpec Bounded Bounded2 Bounded3 Bounded4 Bounded5 CoreTotal Names CexSpec NameFacts Layout TraceLp TraceState TraceReset CoreTrace CexSetup CexD CexD2 CexD3.
From Coq Require Import String Lia.
Open Scope list_scope.
Open Scope nat_scope.

Section K.
Variable solve : solver.
Hypothesis Hsolve : solver_ok solve.
Hypothesis Hcomp : solver_complete solve.
Variable cf : cfg.
Variable a : ha.
Hypothesis WH : wf_ha a.
Notation dag := (dag cf a).
Notation pst c o := (getS c (o_post (getO c o))).
Notation kinv := (kinv a).
Notation err m := (is_error (get_mode a m)).

Lemma guard_sat t l l1 tl : get_guard_intersection solve t l = Ok (l1, Some tl) -> exists y, lp_sat tl y.
Proof.
  unfold get_guard_intersection. intro H. destruct (t_guard t) as [[g rhs]|]; [|discriminate]. apply bind_ok in H as ([l2 b] & H1 & H). destruct b; [|discriminate].
  apply bind_ok in H as (t1 & _ & H). apply bind_ok in H as (t2 & _ & H). apply bind_ok in H as (f & Hf & H). apply ok_inj in H. destruct f; [|discriminate]. injection H as _ <-.
  apply (lp_is_feasible_spec solve Hsolve) in Hf. apply Hf. reflexivity.
Qed.

Lemma cex_total_k mp c n t tl : dag mp c -> kinv c -> n < nN c -> err (nodemode c n) = false -> ss_conc (nst c n) = true -> l_names tl = l_names (ss_lpi (nst c n)) -> lp_fine tl -> (exists y, lp_sat tl y) ->
  exists ce, make_counterexample solve a c (n_state (getN c n)) t tl = Ok ce.
Proof.
  intros D K Hn He Hc Hnm ((C & V) & O & B) Hne. unfold make_counterexample. fold (nst c n).
  destruct (minimize_total_sat solve Hsolve Hcomp tl None C O B) as (vs & Hmin); [intros cs Q; discriminate Q|exact Hne|]. rewrite Hmin. cbn [bind].
  apply (minimize_spec solve Hsolve) in Hmin as (xs & Hv & Hx & _).
  destruct (node_op cf a mp c n D K Hn Hc) as (o & Ho & Hpa & Hch & Hst & Hpo).
  destruct (k_op a c K o Ho) as (Hops & pre & Hpre & HDN); [rewrite Hpo; exact Hc|]. rewrite Hpo in Hops, HDN. specialize (HDN He).
  assert (E : (match ss_ops (nst c n) with None => Ok [] | Some [] => Err EIndex | Some (o :: _) => match o_child (getO c o) with None => Err EType | Some m => do anc <- get_ancestors (Datatypes.S (List.length (c_nodes c))) c m;
      map_res (fun m => match n_parents (getN c m) with [p] => Ok (o_step (getO c p)) | _ => Err EAssert end) (List.tl anc) end end) = Ok pre).
  { rewrite Hops. destruct (o_parent (getO c o)) as [p|] eqn:Ep.
    - rewrite Hch. destruct (ancestors_ok cf a c mp D (Datatypes.S (List.length (c_nodes c))) n) as (anc & Hanc); [lia|exact Hn|]. rewrite Hanc. cbn [bind].
      destruct (ancestors_pre _ _ _ _ _ _ Hanc Hpa Hpre) as (h & r & -> & Hm'). exact Hm'.
    - inversion Hpre as [o1 K1 K2|o1 n1 o2 l K1 K2]; subst; [reflexivity|congruence]. }
  rewrite E. cbn [bind].
  destruct (HDN (pre ++ [ss_step (nst c n)]) vs) as (H & sg & E1 & _ & _); [rewrite app_length; cbn; lia|rewrite Hv, map_length, seq_length; unfold l_nc; congruence|].
  rewrite Hnm, E1. cbn [bind]. rewrite upd_last_snoc. eauto.
Qed.
Lemma err_total_k mp c n t tl : dag mp c -> kinv c -> n < nN c -> err (nodemode c n) = false -> l_names tl = l_names (ss_lpi (nst c n)) -> lp_fine tl -> (exists y, lp_sat tl y) ->
  exists c', error_reached solve cf a c (n_state (getN c n)) t tl = Ok c'.
Proof.
  intros D K Hn He Hnm Hf Hne. unfold error_reached. cbv zeta. fold (nst c n).
  match goal with |- context [if negb (c_concerr ?X) && _ then _ else _] => set (c2 := X) end.
  destruct (negb (c_concerr c2) && ss_conc (nst c n)) eqn:Ec; [|eauto]. destruct (cf_ce cf && _); [|eauto].
  apply andb_true_iff in Ec as [_ Ec].
  assert (E2 : exists ag, c2 = with_flags c ag (c_concerr c) (c_cex c)) by (unfold c2; destruct (negb (c_aggerr c) && _); [eexists; reflexivity|exists (c_aggerr c); destruct c; reflexivity]).
  destruct E2 as (ag & E2). rewrite E2. clearbody c2. clear E2 c2. rewrite !cex_flags.
  destruct (cex_total_k mp c n t tl D K Hn He Ec Hnm Hf Hne) as (ce & Hce). rewrite Hce. cbn [bind]. eauto.
Qed.

(** ** nothing is needed when no counter-example is made *)
Definition kq (c : core) : Prop := cf_ce cf = true -> kinv c.
Lemma err_total_q mp c n t tl : dag mp c -> kq c -> n < nN c -> err (nodemode c n) = false -> l_names tl = l_names (ss_lpi (nst c n)) -> lp_fine tl -> (exists y, lp_sat tl y) ->
  exists c', error_reached solve cf a c (n_state (getN c n)) t tl = Ok c'.
Proof.
  intros D K Hn He Hnm Hf Hne. case_eq (cf_ce cf); intro Ec; [exact (err_total_k mp c n t tl D (K Ec) Hn He Hnm Hf Hne)|].
  unfold error_reached. cbv zeta. rewrite Ec. cbn [andb]. match goal with |- context [if ?b then _ else _] => destruct b end; eauto.
Qed.
(** as it is called: after the first rows of the guard were checked *)
Lemma err_guard_q mp c n t l1 tl : dag mp c -> kq c -> n < nN c -> err (nodemode c n) = false -> get_guard_intersection solve (get_trans a t) (ss_lpi (nst c n)) = Ok (l1, Some tl) -> lp_fine tl ->
  exists c', error_reached solve cf a (setS c (n_state (getN c n)) (ss_with_lpi (nst c n) l1)) (n_state (getN c n)) t tl = Ok c'.
Proof.
  intros D K Hn He Hg Hf. pose proof (guard_sat _ _ _ _ Hg) as Hs. destruct (guard_names _ _ _ _ _ Hg) as [N1 N2]. specialize (N2 tl eq_refl).
  set (c1 := setS c (n_state (getN c n)) (ss_with_lpi (nst c n) l1)).
  assert (D1 : dag mp c1) by (apply (dag_k _ _ _ c); [exact D|apply keeps_lpi]).
  assert (G : sameg a c c1) by (apply sg_set, g_lpi; exact N1).
  assert (E1 : nst c1 n = ss_with_lpi (nst c n) l1) by (unfold c1; apply (nst_set cf a mp); auto).
  apply (err_total_q mp c1 n t tl); auto.
  - intro Ec. apply (kinv_same cf a c); [exact (K Ec)|exact G].
  - rewrite (sg_mode a c c1 n G). exact He.
  - rewrite E1. change (l_names tl = l_names l1). congruence.
Qed.
End K.

Section Setup.
Variable solve : solver.
Hypothesis Hsolve : solver_ok solve.
Variable a : ha.
Hypothesis WH : wf_ha a.
Hypothesis Hinp : forall m, m < List.length (ha_modes a) -> m_b (get_mode a m) <> None -> m_inv (get_mode a m) = [].
Lemma setup_kinv ss c : Forall (init_ok solve a) ss -> (forall s, In s ss -> is_error (get_mode a (ss_mode s)) = false -> init_cols (ss_lpi s) (ss_mode s)) -> setup solve a ss = Ok c -> kinv a c.
Proof.
  intros HF HN H. destruct (setup_ok solve Hsolve a WH Hinp ss c HF H) as (P & _ & _). unfold setup in H. apply bind_ok in H as (? & _ & H). apply bind_ok in H as (c1 & H1 & H).
  assert (c1 = c) by (destruct (c_wait c1); [discriminate|apply ok_inj in H; auto]). subst c1. clear H. destruct (setup_states_src _ _ _ _ _ H1) as (_ & _ & K).
  constructor.
  - intros o Ho _. rewrite (p_op _ _ _ P o Ho). cbn [o_post o_parent]. destruct (p_st _ _ _ P o Ho) as (G & G1 & _ & _ & G2 & _ & _ & G3).
    split; [exact G3|]. exists []. split; [apply O_init; [exact Ho|rewrite (p_op _ _ _ P o Ho); reflexivity]|]. intro He.
    destruct G as (_ & _ & _ & Gx). destruct (Gx He) as (x0 & Sx).
    destruct (K o) as (s & s1 & ops & L1 & L2 & L3 & L4); [rewrite (p_n _ _ _ P); cbn; lia|].
    pose proof (proj1 (Forall_forall _ _) HF s L1) as Hs. destruct (init_state solve Hsolve a WH Hinp s s1 ops Hs L2 L3) as (_ & E2 & E3 & _). rewrite <- L4 in E2, E3. cbv zeta in E3.
    assert (Hes : is_error (get_mode a (ss_mode s)) = false) by (rewrite <- E2; exact He).
    assert (W : wf_mode (get_mode a (ss_mode (getS c o))) x0). { destruct WH as [WH' _]. specialize (WH' _ (st_mode _ _ _ _ Sx)). rewrite (st_a _ _ _ _ Sx) in WH'. exact WH'. }
    apply DN_init; [exact (st_mode _ _ _ _ Sx)|rewrite (st_dims _ _ _ _ Sx); exact (wfm_pos _ _ W)|].
    rewrite E2. apply (init_cols_sub (ss_lpi s)); [|apply HN; auto]. rewrite L4. cbn [ss_lpi ss_with_rows].
    destruct Hs as (l & m & Hm & Hn & HA). destruct (m_a (get_mode a m)) as [x'|] eqn:Ex.
    + destruct HA as [HA Hd]. destruct (new_stateset_ok solve Hsolve a l m 0 0 None true s x' _ WH Hm Ex HA eq_refl Hd Hn) as (S0 & _). apply (intersect_sub solve Hsolve a WH s x' s1 ops true S0 L3).
    + exfalso. unfold new_stateset in Hn. rewrite Ex in Hn. cbn [bind] in Hn. injection Hn as <-. cbn [ss_mode] in Hes. unfold is_error in Hes. rewrite Ex in Hes. discriminate.
  - intros o t M Ho _. rewrite (p_op _ _ _ P o Ho). cbn [o_parent]. discriminate.
  - intros n Hn. exfalso. rewrite (p_nodes _ _ _ P) in Hn. cbn in Hn. lia.
Qed.
End Setup.
