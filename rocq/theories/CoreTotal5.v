(** The counter-example is built without failing, and the preparation of the automaton keeps what the analysis needs (for C66). *)
From Verif Require Import Base BaseFacts LpModel LpSpec SetSpec LpUtil LpFacts LpWf SetFacts SetFacts2 MinkFacts OpsFacts OpsFacts2 OpsFacts3 OpsFacts4 AggFacts ChullFacts
  ApiSpec ApiFacts Automaton StateSet HybridSpec FlowFacts StateSpec StateFacts StateFacts2 StateFacts3 AutoFacts BuildFacts CoreModel HeapFacts Prop_Sets CoreOps CorePop CoreExt CoreDag CoreDag2 CoreDag3 CoreStep CoreGhost CoreCont CoreSpec CoreSetup
  Bounded Bounded2 Bounded3 Bounded4 Bounded5 Bounded6 Bounded7 CoreTotal CoreTotal2 CoreTotal3 CoreTotal4 CoreSubD SetupHa SetupHaSub Prop_Core Prop_Core2
  CoreInv CoreSub Names CexSpec NameFacts Layout TraceLp TraceState TraceReset CoreTrace CexSetup Prop_Cex Prop_Flag.
From Coq Require Import Lia Lqa Setoid QArith.Qabs.
Open Scope nat_scope.

Section Tr.
Variable solve : solver.
Hypothesis Hsolve : solver_ok solve.
Hypothesis Hcomp : solver_complete solve.
Variable arnoldi : nat -> option (list Q) -> csr -> option csr -> nat -> list (list Q).
Variable cf : cfg.
Variable a : ha.
Hypothesis WH : wf_ha a.
Hypothesis Hinp : forall m, m < List.length (ha_modes a) -> m_b (get_mode a m) <> None -> m_inv (get_mode a m) = [].
Hypothesis Hidx : index_ok a.
Variable init : nat -> vec -> Prop.
Hypothesis Hinit : forall m p q, init m p -> m < List.length (ha_modes a) -> is_error (get_mode a m) = false -> veq (m_dims (get_mode a m)) p q -> init m q.
Hypothesis Hnd : no_deagg cf.
Notation ru := (rules_of cf).
Notation gi := (gi solve a ru init).
Notation ti := (ti cf a init).
Notation at_node := (at_node a).
Notation jump_ok := (jump_ok cf a).
Notation gcur := (gcur a).

Lemma make_cex_total c n t tlp mp : gi c -> ti c -> CoreDag.dag cf a mp c -> at_node c n -> t < List.length (ha_trans a) -> 
  ss_conc (nst c n) = true -> sub_names tlp (ss_lpi (nst c n)) -> lp_fine tlp -> (exists y, lp_sat tlp y) ->
  (forall y, lp_sat tlp y -> lp_sat (ss_lpi (nst c n)) y) -> exists ce, make_counterexample solve a c (n_state (getN c n)) t tlp = Ok ce.
Proof.
  intros G T D A Ht Hc Htl ((C & V) & O & B) Hne Hg. unfold make_counterexample. fold (nst c n).
  destruct (minimize_total_sat solve Hsolve Hcomp tlp None C O B) as (vs & Hmin); [intros cs K; discriminate K|exact Hne|]. rewrite Hmin. cbn [bind].
  apply (minimize_spec solve Hsolve) in Hmin as (xs & Hv & Hx & _).
  destruct (at_st solve a ru init c n G A) as (x & St).
  destruct (ti_node _ _ _ _ T n (proj1 A) Hc) as (o & Ho & Hpa & Hst & Hch).
  assert (Hpo : getS c (o_post (getO c o)) = nst c n) by (unfold nst; rewrite Hst; reflexivity).
  destruct (ti_op _ _ _ _ T o Ho) as (Hops & pre & Hpre & HTR); [rewrite Hpo; exact Hc|]. rewrite Hpo in Hops, HTR. specialize (HTR (proj2 A)).
  assert (E : (match ss_ops (nst c n) with None => Ok [] | Some [] => Err EIndex | Some (o :: _) => match o_child (getO c o) with None => Err EType | Some m => do anc <- get_ancestors (Datatypes.S (List.length (c_nodes c))) c m;
      map_res (fun m => match n_parents (getN c m) with [p] => Ok (o_step (getO c p)) | _ => Err EAssert end) (List.tl anc) end end) = Ok pre).
  { rewrite Hops. destruct (o_parent (getO c o)) as [p|] eqn:Ep.
    - rewrite Hch. destruct (ancestors_ok cf a c mp D (Datatypes.S (List.length (c_nodes c))) n) as (anc & Hanc); [pose proof (proj1 A); unfold nN in *; lia|apply A|]. rewrite Hanc. cbn [bind].
      destruct (ancestors_pre _ _ _ _ _ _ Hanc Hpa Hpre) as (h & r & -> & Hm'). exact Hm'.
    - inversion Hpre as [o1 K1 K2|o1 n1 o2 l K1 K2]; subst; [reflexivity|congruence]. }
  rewrite E. cbn [bind]. destruct Htl as [En SL]. assert (Hnc : l_nc tlp = l_nc (ss_lpi (nst c n))) by (unfold l_nc; rewrite En; reflexivity).
  pose proof (Hg xs Hx) as Hxs. destruct (st_wf solve Hsolve _ _ _ St) as [WL _]. assert (Hco : core_sat (ss_lpi (nst c n)) xs) by (apply (wf_sat _ _ _ _ _ WL) in Hxs; tauto).
  destruct (TR_full a (cf_urgent cf) init _ pre xs HTR Hco) as (H0 & H1 & _ & _).
  assert (Evs : vs = vals xs 0 (l_nc (ss_lpi (nst c n)))) by (unfold vals; rewrite <- Hnc; exact Hv).
  rewrite En, Evs, H1. cbn [bind]. rewrite upd_last_snoc. eauto.
Qed.

(** checking guards does not move the state set in time *)
Lemma add_states c t l sid nid c' i : i < nS c -> add_transition_successor solve cf a c t l sid nid = Ok c' -> nS c <= nS c' /\ getS c' i = getS c i.
Proof.
  intros Hi H. unfold add_transition_successor in H. apply bind_ok in H as ([c1 o] & H1 & H).
  assert (K : nS c <= nS c1 /\ getS c1 i = getS c i).
  { unfold make_op_transition in H1. apply bind_ok in H1 as (p & _ & H1). destruct p as [[l1 ctr]|]; [|apply ok_inj in H1; injection H1 as <- _; auto].
    apply bind_ok in H1 as (l2 & _ & H1). apply bind_ok in H1 as (f & _ & H1). apply bind_ok in H1 as (u & _ & H1). apply bind_ok in H1 as (s & _ & H1). apply ok_inj in H1. injection H1 as <- _.
    unfold getS. cbn [c_states with_ops with_states push_op]. rewrite app_length, app_nth1 by exact Hi. split; [lia|reflexivity]. }
  destruct o as [o|]; apply ok_inj in H; subst c'; exact K.
Qed.
Lemma one_step c nid sid t c' : sid < nS c -> check_guards_loop solve cf a c nid sid [t] = Ok c' -> ss_step (getS c' sid) = ss_step (getS c sid).
Proof.
  intros Hs H. cbn [check_guards_loop] in H. apply bind_ok in H as (r & _ & H). set (c1 := setS c sid _) in H.
  assert (S1 : sid < nS c1) by (unfold c1; rewrite nS_setS; exact Hs). assert (E1 : ss_step (getS c1 sid) = ss_step (getS c sid)) by (unfold c1; rewrite getS_set_eq by exact Hs; reflexivity).
  clearbody c1. destruct (snd r) as [l|]; [|apply ok_inj in H; subst c'; exact E1]. apply bind_ok in H as (c2 & H2 & H).
  assert (E2 : getS c2 sid = getS c1 sid /\ sid < nS c2). { destruct (is_error _) in H2; [|apply ok_inj in H2; subst; auto]. apply error_reached_ok in H2 as (ag & co & ce & -> & _). auto. }
  destruct E2 as [E2 S2]. destruct (_ && _) in H; [apply ok_inj in H; subst c'; congruence|].
  apply bind_ok in H as (c3 & H3 & H). destruct (add_states _ _ _ _ _ _ sid S2 H3) as [S3 E3]. apply bind_ok in H as (c4 & H4 & H). apply ok_inj in H. subst c'.
  destruct (_ && _) in H4; [|apply ok_inj in H4; subst c4; congruence]. apply bind_ok in H4 as (w & _ & H4). apply ok_inj in H4. subst c4.
  assert (E5 : ss_step (getS (setS c3 sid (ss_with_lpi (getS c3 sid) (fst w))) sid) = ss_step (getS c3 sid)) by (rewrite getS_set_eq by lia; reflexivity).
  destruct (snd w); [change (ss_step (getS (setS c3 sid (ss_with_lpi (getS c3 sid) (fst w))) sid) = ss_step (getS c sid))|]; congruence.
Qed.

Definition J (n : nat) (c : core) : Prop := gi c /\ ti c /\ at_node c n /\ jump_ok c n /\ exists mp, CoreDag.dag cf a mp c.
Definition J1 (c : core) : Prop := gi c /\ gcur c /\ ti c /\ cinv cf a c.

Lemma J_err c nid t l1 tl : J nid c -> t < List.length (ha_trans a) -> t_from (get_trans a t) = ss_mode (getS c (n_state (getN c nid))) -> is_error (get_mode a (t_to (get_trans a t))) = true ->
  get_guard_intersection solve (get_trans a t) (ss_lpi (getS c (n_state (getN c nid)))) = Ok (l1, Some tl) -> lp_fine tl ->
  exists c', error_reached solve cf a (setS c (n_state (getN c nid)) (ss_with_lpi (getS c (n_state (getN c nid))) l1)) (n_state (getN c nid)) t tl = Ok c'.
Proof.
  intros (G & T & A & HJ & mp & D) Ht Hfr He Hgi Hfine. fold (nst c nid) in *. change (ss_mode (nst c nid)) with (nmode c nid) in Hfr.
  pose proof (gi_nst _ _ _ _ _ G nid (proj1 A)) as Hi. destruct (at_st solve a ru init c nid G A) as (x & St).
  destruct (gi_good _ _ _ _ _ G _ Hi) as (_ & (k & Hapi) & _ & _). fold (nst c nid) in Hapi.
  assert (Hdm : l_dims (ss_lpi (nst c nid)) = m_dims (get_mode a (t_from (get_trans a t)))).
  { rewrite Hfr. rewrite (st_dims _ _ _ _ St). unfold m_dims. change (nmode c nid) with (ss_mode (nst c nid)). rewrite (st_a _ _ _ _ St). reflexivity. }
  destruct (guard_intersection_ok solve Hsolve a _ _ k l1 (Some tl) (guard_wf_of' a WH t Ht) Hdm Hapi Hgi) as ((ob & ->) & P1 & P2 & P3 & P4).
  destruct (gi_lpi solve cf a ru init c nid ob G A) as (G1 & A1 & En1 & J1'). pose proof (ti_lpi solve cf a ru init eq_refl c nid ob G T A) as T1.
  assert (D1 : CoreDag.dag cf a mp (setS c (n_state (getN c nid)) (ss_with_lpi (nst c nid) (with_obj (ss_lpi (nst c nid)) ob)))) by (apply (dag_k _ _ _ c); [exact D|apply keeps_lpi]).
  set (c1 := setS c (n_state (getN c nid)) _) in *.
  destruct (guard_tlp solve Hsolve a _ _ _ _ (guard_wf_of' a WH t Ht) Hdm Hgi) as (N1 & N2 & N3).
  assert (Hsn : sub_names tl (ss_lpi (nst c1 nid))) by (rewrite En1; split; [exact N1|exact N2]).
  assert (Hgd : forall y, lp_sat tl y -> lp_sat (ss_lpi (nst c1 nid)) y) by (rewrite En1; intros y Hy; exact (proj1 (N3 y Hy))).
  unfold error_reached. cbv zeta. change (n_state (getN c nid)) with (n_state (getN c1 nid)). fold (nst c1 nid).
  match goal with |- context [if negb (c_concerr ?X) && _ then _ else _] => set (c2 := X) end.
  destruct (negb (c_concerr c2) && ss_conc (nst c1 nid)) eqn:Ec; [|eauto]. destruct (cf_ce cf && _); [|eauto].
  apply andb_true_iff in Ec as [_ Ec].
  assert (E2 : exists ag, c2 = with_flags c1 ag (c_concerr c1) (c_cex c1)) by (unfold c2; destruct (negb (c_aggerr c1) && _); [eexists; reflexivity|exists (c_aggerr c1); destruct c1; reflexivity]).
  destruct E2 as (ag & E2). rewrite E2. clearbody c2. clear E2 c2. rewrite !cex_flags.
  destruct (make_cex_total c1 nid t tl mp G1 T1 D1 A1 Ht Ec Hsn Hfine) as (ce & Hce); [|exact Hgd|rewrite Hce; cbn [bind]; eauto].
  destruct P4 as (p & y & Hy & _). exists y. exact Hy.
Qed.

Lemma J_step c nid t c' : J nid c -> t < List.length (ha_trans a) -> t_from (get_trans a t) = ss_mode (getS c (n_state (getN c nid))) ->
  check_guards_loop solve cf a c nid (n_state (getN c nid)) [t] = Ok c' -> J nid c'.
Proof.
  intros (G & T & A & HJ & mp & D) Ht Hfr H. assert (Hts : forall t0, In t0 [t] -> t0 < List.length (ha_trans a) /\ t_from (get_trans a t0) = nmode c nid) by (intros t0 [<-|[]]; split; [exact Ht|exact Hfr]).
  destruct (ti_guards solve Hsolve arnoldi cf a WH Hinp Hidx ru init Hinit eq_refl eq_refl eq_refl Hnd nid [t] c c' G T A HJ Hts H) as (G' & T').
  destruct (gi_guards solve Hsolve cf a WH ru init eq_refl eq_refl eq_refl nid [t] c c' G A HJ Hts H) as (_ & A' & Es & _).
  destruct (dag_guards _ _ _ mp _ _ _ _ _ D (proj1 A) H) as [D' _].
  split; [exact G'|]. split; [exact T'|]. split; [exact A'|]. split; [|exists mp; exact D'].
  pose proof (gi_nst _ _ _ _ _ G nid (proj1 A)) as Hi.
  destruct (guards_flag solve Hsolve cf a WH nid (n_state (getN c nid)) (ss_mode (getS c (n_state (getN c nid)))) [t]) with (c := c) (c' := c') as ((ob & So) & _); [|exact Hi|exact H|].
  { intros t0 [<-|[]]. apply out_trans_spec. split; [exact Ht|exact Hfr]. }
  pose proof (ext_guards _ _ _ _ _ _ _ _ H) as X. destruct (ex_mode _ _ X _ Hi) as (Em & Hx).
  destruct HJ as [HJ|[J2 J3]].
  - left. pose proof (one_step c nid _ t c' Hi H) as Hst. unfold nst in *. rewrite Es. lia.
  - right. split; [exact J2|]. unfold lpi_of in So. unfold nmode, nst in *. rewrite Es, So, Em. intros p Hp. apply J3. exact (proj1 (in_lp_with_obj _ _ _) Hp).
Qed.

Lemma J_cont c n : J1 c -> c_cur c = Some n -> left_inv c n = false -> forall c1 s1, ss_lo (getS c (n_state (getN c n))) < cf_num cf ->
  intersect_state solve a c n (n_state (getN c n)) = Ok (c1, true) -> ss_step1 a (getS c1 (n_state (getN c n))) = Ok s1 -> J n (setS c1 (n_state (getN c n)) s1).
Proof.
  intros (G & GC & T & V) Hc Hl c1 s1 Hlo H1 Hs. pose proof (GC n Hc Hl) as A. fold (nst c n) in Hlo.
  pose proof (ti_intersect solve Hsolve cf a WH ru init eq_refl c n c1 true G T A H1) as T1. destruct (gi_intersect solve Hsolve a WH ru init c n c1 true G A H1) as (G1 & A1 & E1 & E2 & E3 & E4 & E5 & Hok).
  rewrite <- E1 in Hs |- *. fold (nst c1 n) in Hs. assert (Hlo1 : ss_lo (nst c1 n) < ru_bound ru) by (cbn; lia).
  destruct (gi_step1 solve Hsolve cf a WH Hinp ru init eq_refl (fun _ => eq_refl) c1 n s1 G1 A1 (Hok eq_refl) Hlo1 Hs) as (G2 & A2 & Es).
  pose proof (ti_step1 solve Hsolve cf a WH ru init eq_refl c1 n s1 G1 T1 A1 (Hok eq_refl) Hs) as T2.
  destruct (dag_intersect _ _ _ _ _ _ _ _ _ (ci_dag _ _ _ V) H1) as [D1 _].
  split; [exact G2|]. split; [exact T2|]. split; [exact A2|]. split.
  - left. unfold nst. rewrite getN_setS, getS_set_eq; [rewrite Es; lia|apply (gi_nst _ _ _ _ _ G1 n (proj1 A1))].
  - exists (rep_map c). apply (dag_k _ _ _ c1); [exact D1|]. apply keeps_set. eapply f2_step. exact Hs.
Qed.
Lemma J_pop c c1 n : J1 c -> do_step_pop solve arnoldi cf a c = Ok c1 -> cf_urgent cf = true -> c_cur c1 = Some n -> left_inv c1 n = false -> J n c1.
Proof.
  intros (G & GC & T & V) H Eu Hc Hl. pose proof (ti_step_pop solve Hsolve arnoldi cf a WH ru init eq_refl Hnd c c1 G T H) as T1.
  destruct (gi_step_pop solve Hsolve arnoldi cf a WH ru init eq_refl Hnd c c1 G H) as (G1 & C1 & I1).
  split; [exact G1|]. split; [exact T1|]. split; [exact (C1 n Hc Hl)|]. split; [right; split; [exact Eu|apply I1; exact Hc]|].
  exists (rep_map c1). apply ci_dag. exact (cinv_step_pop _ _ _ _ _ _ V H).
Qed.
Lemma J_do c c' : J1 c -> do_step solve arnoldi cf a c = Ok c' -> J1 c'.
Proof.
  intros (G & GC & T & V) H. destruct (gi_do_step solve Hsolve arnoldi cf a WH Hinp ru init eq_refl eq_refl (fun _ => eq_refl) eq_refl Hnd c c' G GC H) as [G1 C1].
  split; [exact G1|]. split; [exact C1|]. split; [|exact (cinv_step _ _ _ _ _ _ V H)].
  exact (ti_do_step solve Hsolve arnoldi cf a WH Hinp Hidx ru init Hinit eq_refl eq_refl (fun _ => eq_refl) eq_refl Hnd c c' G GC T H).
Qed.
End Tr.
