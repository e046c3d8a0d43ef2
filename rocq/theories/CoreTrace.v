(** Without deaggregation, the counter-example that is reported is an execution. *)
From Verif Require Import Base BaseFacts LpModel LpSpec SetSpec LpUtil LpFacts LpWf SetFacts SetFacts2 MinkFacts OpsFacts OpsFacts2 OpsFacts3 OpsFacts4 ChullFacts
  ApiSpec ApiFacts Automaton StateSet HybridSpec FlowFacts StateSpec StateFacts StateFacts2 StateFacts3 AutoFacts BuildFacts CoreModel HeapFacts CoreOps CoreGhost CoreHeap
  CoreInv CoreStep CoreCont CorePop CoreSub Names CexSpec NameFacts Layout TraceLp TraceState TraceReset.
From Coq Require Import String.
Open Scope list_scope.
Open Scope nat_scope.

Lemma map_res_app {A B} (f : A -> res B) l1 : forall l2, map_res f (l1 ++ l2) = bind (map_res f l1) (fun r1 => bind (map_res f l2) (fun r2 => Ok (r1 ++ r2))).
Proof.
  induction l1 as [|x l1 IH]; intro l2; cbn [app map_res].
  - destruct (map_res f l2); reflexivity.
  - rewrite IH. destruct (f x) as [y|]; cbn [bind]; [|reflexivity]. destruct (map_res f l1) as [r1|]; cbn [bind]; [|reflexivity]. destruct (map_res f l2); reflexivity.
Qed.

(** ** from a path and its last segment to a counter-example *)
Lemma past_chain a urgent init H m p : past a urgent init H m p -> forall s r, sg_mode s = m -> p = of_list (sg_start s) -> cex_chain tol13 urgent a (s :: r) ->
  cex_chain tol13 urgent a (H ++ s :: r) /\ exists s0 r0, H ++ s :: r = s0 :: r0 /\ init (sg_mode s0) (of_list (sg_start s0)) /\ inv_ok tol13 (get_mode a (sg_mode s0)) (of_list (sg_start s0)).
Proof.
  induction 1 as [m p Hi HI|H s1 t p P IH L R]; intros s r Em Ep C.
  - split; [exact C|]. exists s, r. subst. auto.
  - rewrite <- app_assoc. cbn [app]. apply IH; auto. apply CC_cons with t; auto. subst p. exact R.
Qed.

Section Tr.
Variable solve : solver.
Hypothesis Hsolve : solver_ok solve.
Variable arnoldi : nat -> option (list Q) -> csr -> option csr -> nat -> list (list Q).
Variable cf : cfg.
Variable a : ha.
Hypothesis WH : wf_ha a.
Hypothesis Hinp : forall m, m < List.length (ha_modes a) -> m_b (get_mode a m) <> None -> m_inv (get_mode a m) = [].
Hypothesis Hidx : forall t, t < List.length (ha_trans a) -> nth_error (out_trans a (t_from (get_trans a t))) (t_index (get_trans a t)) = Some t.
Variable ru : rules.
Variable init : nat -> vec -> Prop.
Hypothesis Hinit : forall m p q, init m p -> m < List.length (ha_modes a) -> is_error (get_mode a m) = false -> veq (m_dims (get_mode a m)) p q -> init m q.
Hypothesis Hbound : ru_bound ru = cf_num cf.
Hypothesis Hurg : ru_urgent ru = cf_urgent cf.
Hypothesis Hcap : forall m, ru_cap ru m = false.
Hypothesis Hns : ru_strict ru = false.
Hypothesis Hnd : forall g, cf_strat cf = Some g -> ag_deagg g = false.
Notation TR := (TR a (cf_urgent cf) init).
Notation gi := (gi solve a ru init).
Notation at_node := (at_node a).
Notation jump_ok := (jump_ok cf a).
Notation gcur := (gcur a).
Notation pst c o := (getS c (o_post (getO c o))).

(** the numbers of steps of the segments before the state created by an operation *)
Inductive opre (c : core) : nat -> list nat -> Prop :=
| O_init o : o < nO c -> o_parent (getO c o) = None -> opre c o []
| O_next o n o' l : o < nO c -> o_parent (getO c o) = Some n -> n < nN c -> n_parents (getN c n) = [o'] -> opre c o' l -> opre c o (l ++ [o_step (getO c o)]).
Definition fr (c c' : core) : Prop := nO c <= nO c' /\ nN c <= nN c' /\
  (forall o, o < nO c -> o_parent (getO c' o) = o_parent (getO c o) /\ o_step (getO c' o) = o_step (getO c o)) /\ (forall n, n < nN c -> n_parents (getN c' n) = n_parents (getN c n)).
Lemma opre_fr c c' o l : fr c c' -> opre c o l -> opre c' o l.
Proof.
  intros (F1 & F2 & F3 & F4). induction 1 as [o Ho Hp|o n o' l Ho Hp Hn Hpa Hl IH]; destruct (F3 o Ho) as [E1 E2].
  - apply O_init; [lia|congruence].
  - rewrite <- E2. apply O_next with n o'; auto; [lia|congruence|lia|rewrite F4 by exact Hn; exact Hpa].
Qed.
Lemma ancestors_pre c fuel : forall n anc o pre, get_ancestors fuel c n = Ok anc -> n_parents (getN c n) = [o] -> opre c o pre ->
  exists h r, anc = h :: r /\ map_res (fun m => match n_parents (getN c m) with [p] => Ok (o_step (getO c p)) | _ => Err EAssert end) r = Ok pre.
Proof.
  induction fuel as [|f IH]; intros n anc o pre H Hn Ho; cbn [get_ancestors] in H; [discriminate|]. rewrite Hn in H. inversion Ho as [o1 H1 H2|o1 n1 o' l H1 H2 H3 H4 H5]; subst.
  - rewrite H2 in H. apply ok_inj in H. subst anc. exists n, []. split; reflexivity.
  - rewrite H2 in H. apply bind_ok in H as (r & Hr & H). apply ok_inj in H. subst anc. destruct (IH _ _ _ _ Hr H4 H5) as (h & r' & -> & Hm). exists h, (r' ++ [n]). split; [reflexivity|].
    rewrite map_res_app, Hm. cbn [map_res bind]. rewrite Hn. reflexivity.
Qed.

Record ti (c : core) : Prop := {
  ti_op : forall o, o < nO c -> ss_conc (pst c o) = true -> ss_ops (pst c o) = (match o_parent (getO c o) with None => None | Some _ => Some [o] end) /\
     exists pre, opre c o pre /\ (is_error (get_mode a (ss_mode (pst c o))) = false -> TR (pst c o) pre);
  ti_node : forall n, n < nN c -> ss_conc (nst c n) = true -> exists o, o < nO c /\ n_parents (getN c n) = [o] /\ n_state (getN c n) = o_post (getO c o) /\ o_child (getO c o) = Some n;
  ti_cex : (c_cex c <> [] -> is_counterexample tol13 (cf_urgent cf) (cf_num cf) a init (c_cex c)) /\ (cf_ce cf = true -> c_concerr c = true -> c_cex c <> []) }.

Definition like (s s' : sset) : Prop := ss_conc s' = ss_conc s /\ ss_ops s' = ss_ops s /\ ss_mode s' = ss_mode s /\ forall pre, is_error (get_mode a (ss_mode s)) = false -> TR s pre -> TR s' pre.
Lemma like_refl s : like s s.
Proof. split; [reflexivity|]. split; [reflexivity|]. split; [reflexivity|]. auto. Qed.
Lemma like_obj s o : like s (ss_with_lpi s (with_obj (ss_lpi s) o)).
Proof. split; [reflexivity|]. split; [reflexivity|]. split; [reflexivity|]. intros pre _ T. eapply TR_sub; [exact T|reflexivity|reflexivity|reflexivity|]. apply sub_obj_lp. Qed.

Lemma ti_mv c c' : gi c -> ti c -> nO c' = nO c -> nN c' = nN c -> (forall o, getO c' o = getO c o) ->
  (forall n, n < nN c -> n_parents (getN c' n) = n_parents (getN c n) /\ n_state (getN c' n) = n_state (getN c n)) -> (forall i, i < nS c -> like (getS c i) (getS c' i)) -> c_cex c' = c_cex c /\ c_concerr c' = c_concerr c -> ti c'.
Proof.
  intros G T E1 E2 E3 E4 E5 E6.
  assert (F : fr c c') by (split; [lia|]; split; [lia|]; split; [intros o _; rewrite E3; auto|intros n Hn; apply E4; exact Hn]).
  constructor.
  - intros o Ho. rewrite E3. rewrite E1 in Ho. destruct (E5 _ (gi_post _ _ _ _ _ G o Ho)) as (L1 & L2 & L3 & L4). rewrite L1, L2, L3. intro Hc. destruct (ti_op _ T o Ho Hc) as (K1 & pre & K2 & K3).
    split; [exact K1|]. exists pre. split; [eapply opre_fr; eauto|]. intro He. apply L4; auto.
  - intros n Hn Hc. rewrite E2 in Hn. destruct (E4 n Hn) as [P1 P2]. unfold nst in Hc. rewrite P2 in Hc. destruct (E5 _ (gi_nst _ _ _ _ _ G n Hn)) as (L1 & _). rewrite L1 in Hc.
    destruct (ti_node _ T n Hn Hc) as (o & K1 & K2 & K3 & K4). exists o. rewrite E1, E3, P1, P2. auto.
  - destruct E6 as [-> ->]. apply T.
Qed.
Lemma ti_set c n s' : gi c -> ti c -> n < nN c -> like (nst c n) s' -> ti (setS c (n_state (getN c n)) s').
Proof.
  intros G T Hn L. pose proof (gi_nst _ _ _ _ _ G n Hn) as Hi. apply (ti_mv c); auto.
  intros i Hi'. rewrite getS_setS by auto. destruct (Nat.eqb_spec i (n_state (getN c n))) as [->|]; [exact L|apply like_refl].
Qed.
Lemma ti_push_ops c n xs : gi c -> ti c -> n < nN c -> ti (push_ops c n xs).
Proof.
  intros G T Hn. destruct (push_ops_spec xs n c Hn) as (E1&E2&E3&E4&E5&E6&E7&E8&E9&E10&E11&E12&E13&E14&E15&E16). apply (ti_mv c); auto; unfold getO, getS; rewrite ?E1, ?E2; auto.
  - intros m _. destruct (E14 m) as (Q1 & Q2 & _). auto.
  - intros i _. apply like_refl.
Qed.
Lemma ti_push c n x : gi c -> ti c -> n < nN c -> ti (push_op c n x).
Proof. intros G T Hn. exact (ti_push_ops c n [x] G T Hn). Qed.
Lemma ti_same c c' : gi c -> ti c -> c_states c' = c_states c -> c_ops c' = c_ops c -> c_nodes c' = c_nodes c -> c_cex c' = c_cex c /\ c_concerr c' = c_concerr c -> ti c'.
Proof. intros G T E1 E2 E3 E4. apply (ti_mv c); unfold getO, getN, getS; rewrite ?E1, ?E2, ?E3; auto. intros i _. apply like_refl. Qed.

Lemma ti_intersect c n c' ok : gi c -> ti c -> at_node c n -> intersect_state solve a c n (n_state (getN c n)) = Ok (c', ok) -> ti c'.
Proof.
  intros G T A H. destruct (at_st solve a ru init c n G A) as (x & S). unfold intersect_state in H. fold (nst c n) in H. apply bind_ok in H as ([[s1 ops] ok1] & Hi & H). apply ok_inj in H. injection H as <- <-.
  destruct (intersect_invariant_ok solve Hsolve a _ x s1 ops ok1 WH S Hi) as (S1 & SF & _). destruct SF as (F1 & F2 & F3 & F4 & F5 & F6 & F7 & F8 & F9).
  pose proof (intersect_sub solve Hsolve a WH _ x _ _ _ S Hi) as Sub.
  assert (L : like (nst c n) s1). { split; [exact F5|]. split; [exact F6|]. split; [exact F1|]. intros pre _ TT. eapply TR_sub; eauto. }
  assert (T1 : ti (setS c (n_state (getN c n)) s1)) by (apply ti_set; auto; apply A).
  assert (G1 : gi (setS c (n_state (getN c n)) s1)).
  { apply gi_set; auto; [apply A|eapply st_good; eauto|]. destruct (intersect_invariant_ok solve Hsolve a _ x s1 ops ok1 WH S Hi) as (_ & _ & K1 & _). intro Hc. rewrite F5 in Hc.
    destruct (gi_sub _ _ _ _ _ G _ (gi_nst _ _ _ _ _ G n (proj1 A)) Hc) as [E K]. fold (nst c n) in *. split; [congruence|]. rewrite F1, F2, F3. intros p Hp. apply K. apply K1. exact Hp. }
  apply ti_push_ops; auto. apply A.
Qed.

Lemma ti_step1 c n s' : gi c -> ti c -> at_node c n -> (forall p, in_lp (ss_lpi (nst c n)) p -> inv_ok tol13 (get_mode a (nmode c n)) p) ->
  ss_step1 a (nst c n) = Ok s' -> ti (setS c (n_state (getN c n)) s').
Proof.
  intros G T A HI H. destruct (at_st solve a ru init c n G A) as (x & St). unfold ss_step1 in H. destruct (step_to_ok solve Hsolve a _ x _ s' WH St H) as (S' & _ & E1 & E2 & E3 & E4 & E5 & E6 & _).
  apply ti_set; [exact G|exact T|apply A|]. split; [exact E5|]. split; [exact E6|]. split; [exact E2|]. intros pre _ TT. eapply (TR_step solve Hsolve a WH); [exact St|exact TT| |exact H].
  intros Hb y Hy. apply (inv_core_point solve Hsolve a WH _ x St HI Hb y Hy).
Qed.
Lemma ti_lpi c n o : gi c -> ti c -> at_node c n -> ti (setS c (n_state (getN c n)) (ss_with_lpi (nst c n) (with_obj (ss_lpi (nst c n)) o))).
Proof. intros G T A. apply ti_set; auto; [apply A|apply like_obj]. Qed.

(** ** reaching an error mode *)
Lemma make_cex_ok c n t tlp ce : gi c -> ti c -> at_node c n -> jump_ok c n -> t < List.length (ha_trans a) -> t_from (get_trans a t) = nmode c n ->
  is_error (get_mode a (t_to (get_trans a t))) = true -> ss_conc (nst c n) = true -> sub_names tlp (ss_lpi (nst c n)) ->
  (forall y, lp_sat tlp y -> lp_sat (ss_lpi (nst c n)) y /\ guard_ok (get_trans a t) (fun i => y (l_cvo (ss_lpi (nst c n)) + i))) ->
  make_counterexample solve a c (n_state (getN c n)) t tlp = Ok ce -> is_counterexample tol13 (cf_urgent cf) (cf_num cf) a init ce.
Proof.
  intros G T A HJ Ht Hfr Herr Hc Htl Hg H. unfold make_counterexample in H. fold (nst c n) in H.
  apply bind_ok in H as (sol & Hmin & H). destruct sol as [vs|]; [|discriminate].
  apply (minimize_spec solve Hsolve) in Hmin as (xs & Hv & Hx & _).
  destruct (at_st solve a ru init c n G A) as (x & St).
  destruct (ti_node _ T n (proj1 A) Hc) as (o & Ho & Hpa & Hst & Hch).
  assert (Hpo : pst c o = nst c n) by (unfold nst; rewrite Hst; reflexivity).
  destruct (ti_op _ T o Ho) as (Hops & pre & Hpre & HTR); [rewrite Hpo; exact Hc|]. rewrite Hpo in Hops, HTR. specialize (HTR (proj2 A)).
  apply bind_ok in H as (pre' & Hpre' & H).
  assert (E : pre' = pre).
  { rewrite Hops in Hpre'. destruct (o_parent (getO c o)) as [p|] eqn:Ep.
    - rewrite Hch in Hpre'. apply bind_ok in Hpre' as (anc & Hanc & Hm). destruct (ancestors_pre _ _ _ _ _ _ Hanc Hpa Hpre) as (h & r & -> & Hm'). cbn [List.tl] in Hm. rewrite Hm' in Hm. apply ok_inj in Hm. symmetry. exact Hm.
    - apply ok_inj in Hpre'. subst pre'. inversion Hpre as [o1 K1 K2|o1 n1 o2 l K1 K2]; subst; [reflexivity|congruence]. }
  subst pre'. apply bind_ok in H as (ce0 & Hce & H).
  destruct Htl as [En SL]. assert (Hnc : l_nc tlp = l_nc (ss_lpi (nst c n))) by (unfold l_nc; rewrite En; reflexivity).
  destruct (Hg xs Hx) as [Hxs _]. destruct (st_wf solve Hsolve _ _ _ St) as [WL _]. assert (Hco : core_sat (ss_lpi (nst c n)) xs) by (apply (wf_sat _ _ _ _ _ WL) in Hxs; tauto).
  destruct (TR_full a (cf_urgent cf) init _ pre xs HTR Hco) as (H0 & H1 & H2 & H3).
  assert (Evs : vs = vals xs 0 (l_nc (ss_lpi (nst c n)))) by (unfold vals; rewrite <- Hnc; exact Hv).
  rewrite En, Evs, H1 in Hce. apply ok_inj in Hce. subst ce0. rewrite upd_last_snoc in H. apply ok_inj in H. subst ce.
  set (sg := sg_with_trans (full_seg a (nst c n) xs) t).
  assert (Hle : seg_leaves tol13 (cf_urgent cf) a sg t) by (exact (full_leaves solve Hsolve a WH Hinp (cf_urgent cf) init (nst c n) x pre t tlp St HTR Ht Hfr Hg HJ xs [] Hx)).
  assert (Ha := st_a _ _ _ _ St). assert (Hm := st_mode _ _ _ _ St).
  assert (P2 : past a (cf_urgent cf) init H0 (sg_mode sg) (of_list (sg_start sg))).
  { unfold sg. cbn [sg_with_trans full_seg sg_mode sg_start]. apply (past_mode a WH (cf_urgent cf) init Hinit _ _ _ H2); [exact Hm|unfold is_error; rewrite Ha; reflexivity|].
    unfold m_dims. rewrite Ha. intros i Hi. unfold x0_of, start_of. rewrite of_vals; [reflexivity|]. pose proof (tr_bc _ _ _ _ _ HTR) as B. rewrite (st_dims _ _ _ _ St) in B. lia. }
  destruct (past_chain _ _ _ _ _ _ P2 sg [] eq_refl eq_refl (CC_last _ _ _ _ _ Hle Herr)) as (C1 & C2).
  split; [exact C1|]. split; [|exact C2].
  unfold total_steps. rewrite map_app, H3, list_sum_app. unfold sg. cbn [map sg_with_trans full_seg sg_steps list_sum fold_right].
  pose proof (tr_len _ _ _ _ _ HTR) as Hlen. rewrite Nat.add_0_r, Hlen.
  destruct (gi_sub _ _ _ _ _ G _ (gi_nst _ _ _ _ _ G n (proj1 A)) Hc) as [_ KR]. rewrite <- Hbound. fold (nst c n) in KR.
  assert (Hq : in_lp (ss_lpi (nst c n)) (fun i => xs (l_cvo (ss_lpi (nst c n)) + i))) by (exists xs; split; [exact Hxs|intros; reflexivity]).
  specialize (KR _ Hq). clear - KR. induction KR; lia.
Qed.

Lemma anc_flags c ag co ce f : forall n, get_ancestors f (with_flags c ag co ce) n = get_ancestors f c n.
Proof.
  induction f as [|f IH]; intro n; cbn [get_ancestors]; [reflexivity|]. change (getN (with_flags c ag co ce) n) with (getN c n). destruct (n_parents (getN c n)) as [|o l]; [reflexivity|].
  change (getO (with_flags c ag co ce) o) with (getO c o). destruct (o_parent (getO c o)) as [p|]; [|reflexivity]. rewrite IH. reflexivity.
Qed.
Lemma cex_flags c ag co ce sid t tlp : make_counterexample solve a (with_flags c ag co ce) sid t tlp = make_counterexample solve a c sid t tlp.
Proof.
  unfold make_counterexample. destruct (minimize solve tlp None true) as [[v|]|e]; cbn [bind]; [|reflexivity|reflexivity].
  change (getS (with_flags c ag co ce) sid) with (getS c sid). destruct (ss_ops (getS c sid)) as [[|o l]|]; [reflexivity| |reflexivity].
  change (getO (with_flags c ag co ce) o) with (getO c o). destruct (o_child (getO c o)) as [n|]; [|reflexivity].
  rewrite anc_flags. reflexivity.
Qed.
Lemma ti_flags c ag co ce : gi c -> ti c -> (ce <> [] -> is_counterexample tol13 (cf_urgent cf) (cf_num cf) a init ce) /\ (cf_ce cf = true -> co = true -> ce <> []) -> ti (with_flags c ag co ce).
Proof. intros G T H. constructor; [| |exact H]. - intros o Ho Hc. destruct (ti_op _ T o Ho Hc) as (K1 & pre & K2 & K3). split; [exact K1|]. exists pre. split; [|exact K3]. eapply opre_fr; [|exact K2]. split; [reflexivity|]. split; [reflexivity|]. auto.
  - apply (ti_node _ T).
Qed.
Lemma ti_err c n t tlp c' : gi c -> ti c -> at_node c n -> jump_ok c n -> t < List.length (ha_trans a) -> t_from (get_trans a t) = nmode c n ->
  is_error (get_mode a (t_to (get_trans a t))) = true -> sub_names tlp (ss_lpi (nst c n)) ->
  (forall y, lp_sat tlp y -> lp_sat (ss_lpi (nst c n)) y /\ guard_ok (get_trans a t) (fun i => y (l_cvo (ss_lpi (nst c n)) + i))) ->
  error_reached solve cf a c (n_state (getN c n)) t tlp = Ok c' -> ti c'.
Proof.
  intros G T A HJ Ht Hfr Herr Htl Hg H. unfold error_reached in H. cbv zeta in H. fold (nst c n) in H. set (c1 := if negb (c_aggerr c) && _ then _ else c) in H.
  assert (E1 : exists ag, c1 = with_flags c ag (c_concerr c) (c_cex c)) by (unfold c1; destruct (negb (c_aggerr c) && _); [eexists; reflexivity|exists (c_aggerr c); destruct c; reflexivity]).
  destruct E1 as (ag & E1). rewrite E1 in H. clearbody c1. clear E1 c1. cbn [c_concerr c_aggerr c_cex with_flags] in H.
  destruct (negb (c_concerr c) && ss_conc (nst c n)) eqn:Ec.
  - apply andb_true_iff in Ec as [_ Ec]. destruct (cf_ce cf && _) eqn:Ef.
    + apply bind_ok in H as (ce & Hce & H). apply ok_inj in H. subst c'. 
      match goal with |- ti ?X => change X with (with_flags c ag true ce) end. apply ti_flags; [exact G|exact T|]. rewrite !cex_flags in Hce. pose proof (make_cex_ok c n t tlp ce G T A HJ Ht Hfr Herr Ec Htl Hg Hce) as Hok. split; [intros _; exact Hok|].
      intros _ _ K. rewrite K in Hok. destruct Hok as (_ & _ & ? & ? & K' & _). discriminate K'.
    + apply ok_inj in H. subst c'. match goal with |- ti ?X => change X with (with_flags c ag true (c_cex c)) end. apply ti_flags; [exact G|exact T|]. split; [apply T|]. intros K _ K'. rewrite K, K' in Ef. discriminate Ef.
  - apply ok_inj in H. subst c'. apply ti_flags; [exact G|exact T|apply T].
Qed.

(** ** taking a transition *)
Lemma make_op_reset c t tlp sid nid c' k : (exists p, in_lp tlp p) -> make_op_transition solve cf a c t tlp sid nid = Ok (c', Some k) ->
  exists o l2 s', add_reset_variables (with_obj tlp o) (t_to (get_trans a t)) (t_index (get_trans a t)) (t_reset (get_trans a t)) (t_mink (get_trans a t)) (has_inputs (get_mode a (t_to (get_trans a t)))) = Ok l2 /\
    c_states c' = c_states c ++ [s'] /\ ss_lpi s' = l2.
Proof.
  intros Hne H. unfold make_op_transition in H. cbv zeta in H. apply bind_ok in H as (p & Hp & H).
  assert (Hp' : exists o ctr, p = Some (with_obj tlp o, ctr)).
  { unfold pretransition in Hp. assert (E0 : Ok (Some (tlp, @None (list Q))) = Ok p -> exists o ctr, p = Some (with_obj tlp o, ctr)).
    { intro E. injection E as <-. exists (l_obj tlp), None. unfold with_obj. destruct tlp; reflexivity. }
    destruct (cf_strat cf) as [g|]; [|auto]. destruct (ag_kind g); auto.
    apply bind_ok in Hp as ([l1 ctr] & Hb & Hp). apply get_box_center_spec in Hb as ((o & ->) & Hc); [|auto]. cbn [fst snd] in Hp. destruct ctr as [ctr|].
    - injection Hp as <-. eauto.
    - destruct Hne as (q & Hq). exfalso. exact (Hc q Hq). }
  destruct Hp' as (o & ctr & ->). apply bind_ok in H as (tl2 & Hr & H). apply bind_ok in H as (f & Hf & H). apply bind_ok in H as (u & Hu & H).
  apply bind_ok in H as (s' & Hs & H). apply ok_inj in H. injection H as <- _. destruct (new_stateset_mode _ _ _ _ _ _ _ _ Hs) as (E1 & _).
  exists o, tl2, s'. split; [exact Hr|]. split; [reflexivity|exact E1].
Qed.
Lemma ti_add c n t tlp c' : gi c -> ti c -> at_node c n -> jump_ok c n -> t < List.length (ha_trans a) -> t_from (get_trans a t) = nmode c n ->
  api solve tlp None -> l_dims tlp = m_dims (get_mode a (t_from (get_trans a t))) -> (exists p, in_lp tlp p) -> sub_names tlp (ss_lpi (nst c n)) ->
  (forall y, lp_sat tlp y -> lp_sat (ss_lpi (nst c n)) y /\ guard_ok (get_trans a t) (fun i => y (l_cvo (ss_lpi (nst c n)) + i))) ->
  add_transition_successor solve cf a c t tlp (n_state (getN c n)) n = Ok c' -> ti c'.
Proof.
  intros G T A HJ Ht Hfr Hap Hd Hne Htl Hg H. unfold add_transition_successor in H. apply bind_ok in H as ([c1 r] & H1 & H).
  destruct (make_op_ok solve Hsolve cf a WH c t tlp _ n c1 r Ht Hap Hd Hne H1) as (s' & ctr & -> & E0 & E1 & E2 & E3 & E4 & E5 & E6 & Hgd & Hnr & Hpd & Hin & Hne').
  destruct (make_op_reset c t tlp _ n c1 _ Hne H1) as (ob & l2 & s'' & Hres & Est & Elp). rewrite E0 in Est. cbn [c_states with_ops with_states] in Est. apply app_inj_tail in Est as [_ <-].
  apply ok_inj in H. subst c' c1. fold (nst c n) in *.
  set (c1 := with_ops (with_states c (c_states c ++ [s'])) (c_ops c ++ [new_op c t (n_state (getN c n)) n ctr])) in *.
  pose proof (gi_nst _ _ _ _ _ G n (proj1 A)) as Hi.
  assert (ES : forall j, getS c1 j = if j =? nS c then s' else getS c j) by (intro j; unfold c1, getS; ccbn; apply nth_snoc).
  assert (EO : forall j, getO c1 j = if j =? nO c then new_op c t (n_state (getN c n)) n ctr else getO c j) by (intro j; unfold c1, getO; ccbn; apply nth_snoc).
  assert (LS : nS c1 = S (nS c)) by (unfold c1; ccbn; rewrite app_length; cbn; lia).
  assert (LO : nO c1 = S (nO c)) by (unfold c1; ccbn; rewrite app_length; cbn; lia).
  assert (EN : forall m, getN c1 m = getN c m) by reflexivity. assert (LN : nN c1 = nN c) by reflexivity.
  assert (EP : o_post (new_op c t (n_state (getN c n)) n ctr) = nS c) by reflexivity.
  assert (F : fr c c1). { split; [lia|]. split; [lia|]. split; [|auto]. intros o Ho. rewrite EO. destruct (Nat.eqb_spec o (nO c)); [lia|auto]. }
  assert (T1 : ti c1).
  { constructor.
    - intros o Ho. rewrite LO in Ho. rewrite EO. destruct (Nat.eqb_spec o (nO c)) as [->|Hno].
      + rewrite EP, ES, Nat.eqb_refl. intro Hc. split; [exact E6|]. rewrite E5 in Hc. destruct (ti_node _ T n (proj1 A) Hc) as (o' & Ho' & Hpa & Hst & Hch).
        assert (Hpo : pst c o' = nst c n) by (unfold nst; rewrite Hst; reflexivity).
        destruct (ti_op _ T o' Ho') as (_ & pre & Hpre & HTR); [rewrite Hpo; exact Hc|]. rewrite Hpo in HTR. specialize (HTR (proj2 A)).
        exists (pre ++ [ss_step (nst c n)]). split.
        * assert (Est : o_step (getO c1 (nO c)) = ss_step (nst c n)) by (rewrite EO, Nat.eqb_refl; reflexivity). rewrite <- Est.
          apply O_next with n o'; [lia|rewrite EO, Nat.eqb_refl; reflexivity|rewrite LN; apply A|rewrite EN; exact Hpa|eapply opre_fr; [exact F|exact Hpre]].
        * intros _. destruct (at_st solve a ru init c n G A) as (x & St).
          refine (TR_reset solve Hsolve a WH Hinp Hidx (cf_urgent cf) init Hinit (nst c n) x pre t (with_obj tlp ob) l2 St HTR Ht Hfr _ _ _ HJ Hres s' Elp E1 E2 E3).
          { destruct Htl as [Q1 Q2]. split; [exact Q1|exact Q2]. }
          { destruct (api_ok solve Hsolve _ _ Hap) as (K & _). exact K. }
          { exact Hg. }
      + assert (Ho' : o < nO c) by lia. pose proof (gi_post _ _ _ _ _ G o Ho'). rewrite ES. destruct (Nat.eqb_spec (o_post (getO c o)) (nS c)); [lia|]. intro Hc.
        destruct (ti_op _ T o Ho' Hc) as (K1 & pre & K2 & K3). split; [exact K1|]. exists pre. split; [eapply opre_fr; [exact F|exact K2]|exact K3].
    - intros m Hm. rewrite LN in Hm. unfold nst. rewrite EN, ES. pose proof (gi_nst _ _ _ _ _ G m Hm). destruct (Nat.eqb_spec (n_state (getN c m)) (nS c)); [lia|]. intro Hc.
      destruct (ti_node _ T m Hm Hc) as (o & K1 & K2 & K3 & K4). exists o. rewrite EO. destruct (Nat.eqb_spec o (nO c)); [lia|]. split; [lia|]. auto.
    - apply T. }
  set (c3 := with_wait (push_op c1 n (NTr (nO c))) (c_wait (push_op c1 n (NTr (nO c))) ++ [nO c])) in *.
  assert (Hpn : forall m, n_parents (getN (push_op c1 n (NTr (nO c))) m) = n_parents (getN c1 m) /\ n_state (getN (push_op c1 n (NTr (nO c))) m) = n_state (getN c1 m)) by (intro m; rewrite n_parents_push, n_state_push; auto).
  constructor.
  - intros o Ho Hc. destruct (ti_op _ T1 o Ho Hc) as (K1 & pre & K2 & K3). split; [exact K1|]. exists pre. split; [|exact K3]. eapply opre_fr; [|exact K2]. split; [reflexivity|]. split; [change (nN c1 <= nN (push_op c1 n (NTr (nO c)))); rewrite nN_push; lia|].
    split; [auto|]. intros m _. apply (Hpn m).
  - intros m Hm Hc. change (nN c3) with (nN (push_op c1 n (NTr (nO c)))) in Hm. rewrite nN_push in Hm. destruct (Hpn m) as [Q1 Q2]. change (getN c3 m) with (getN (push_op c1 n (NTr (nO c))) m). rewrite Q1, Q2.
    assert (Hc1 : ss_conc (nst c1 m) = true). { revert Hc. unfold nst. change (getN c3 m) with (getN (push_op c1 n (NTr (nO c))) m). rewrite Q2. intro Hc. exact Hc. }
    exact (ti_node _ T1 m Hm Hc1).
  - apply T1.
Qed.

Lemma ti_guards n ts : forall c c', gi c -> ti c -> at_node c n -> jump_ok c n -> (forall t, In t ts -> t < List.length (ha_trans a) /\ t_from (get_trans a t) = nmode c n) ->
  check_guards_loop solve cf a c n (n_state (getN c n)) ts = Ok c' -> gi c' /\ ti c'.
Proof.
  induction ts as [|t ts IH]; intros c c' G T A HJ Hts H; cbn [check_guards_loop] in H.
  { apply ok_inj in H. subst. auto. }
  apply bind_ok in H as ([l1 o] & Hgi & H). cbn [fst snd] in H. fold (nst c n) in H, Hgi.
  destruct (Hts t (or_introl eq_refl)) as [Ht Hfr]. pose proof (gi_nst _ _ _ _ _ G n (proj1 A)) as Hi. destruct (at_st solve a ru init c n G A) as (x & St).
  destruct (gi_good _ _ _ _ _ G _ Hi) as (_ & (k & Hapi) & _ & _). fold (nst c n) in Hapi.
  assert (Hdm : l_dims (ss_lpi (nst c n)) = m_dims (get_mode a (t_from (get_trans a t)))).
  { rewrite Hfr. rewrite (st_dims _ _ _ _ St). unfold m_dims. change (nmode c n) with (ss_mode (nst c n)). rewrite (st_a _ _ _ _ St). reflexivity. }
  destruct (guard_intersection_ok solve Hsolve a _ _ k l1 o (guard_wf_of' a WH t Ht) Hdm Hapi Hgi) as ((ob & ->) & Ho).
  destruct (gi_lpi solve cf a ru init c n ob G A) as (G1 & A1 & En1 & J1). specialize (J1 HJ). pose proof (ti_lpi c n ob G T A) as T1. set (c1 := setS c (n_state (getN c n)) _) in *.
  assert (Em1 : nmode c1 n = nmode c n) by (change (ss_mode (nst c1 n) = nmode c n); rewrite En1; reflexivity).
  assert (Es1 : n_state (getN c1 n) = n_state (getN c n)) by reflexivity.
  assert (Hts1 : forall t0, In t0 ts -> t0 < List.length (ha_trans a) /\ t_from (get_trans a t0) = nmode c1 n) by (intros t0 K; rewrite Em1; apply Hts; right; exact K).
  destruct o as [tl|].
  2:{ exact (IH c1 c' G1 T1 A1 J1 Hts1 H). }
  destruct (guard_tlp solve Hsolve a _ _ _ _ (guard_wf_of' a WH t Ht) Hdm Hgi) as (N1 & N2 & N3).
  assert (Hsn : sub_names tl (ss_lpi (nst c1 n))) by (rewrite En1; split; [exact N1|exact N2]).
  assert (Hgd : forall y, lp_sat tl y -> lp_sat (ss_lpi (nst c1 n)) y /\ guard_ok (get_trans a t) (fun i => y (l_cvo (ss_lpi (nst c1 n)) + i))) by (rewrite En1; exact N3).
  destruct Ho as (P1 & P2 & P3 & P4). apply bind_ok in H as (c2 & Herr & H).
  assert (T2 : ti c2).
  { destruct (is_error _) eqn:Eerr; [|apply ok_inj in Herr; subst c2; exact T1]. rewrite <- Es1 in Herr. apply (ti_err c1 n t tl c2); auto. congruence. }
  assert (E2 : exists ag co ce, c2 = with_flags c1 ag co ce /\ (co = true -> error_reachable tol13 ru a init)).
  { destruct (is_error _) eqn:Eerr.
    - apply error_reached_ok in Herr as (ag & co & ce & -> & _ & _ & B1 & B2 & _). exists ag, co, ce. split; [reflexivity|]. intro Hco.
      destruct (ss_conc (getS c1 (n_state (getN c n)))) eqn:Ecc.
      + destruct P4 as (p & Hp). apply P3 in Hp as [Hp Hgp]. change (ss_conc (nst c1 n) = true) in Ecc. rewrite En1 in Ecc. destruct (gi_sub _ _ _ _ _ G _ Hi Ecc) as [_ KR].
        exists t, p, (ss_step (nst c n)), (ss_lo (nst c n)). rewrite Hfr. split; [exact Ht|]. split; [exact Eerr|]. split; [apply KR; exact Hp|]. split; [exact Hgp|].
        split; [|rewrite Hns; discriminate]. destruct HJ as [J|[J2 J3]]; [left; exact J|right; split; [congruence|apply J3; exact Hp]].
      + destruct (B2 eq_refl) as (_ & Eco & _). apply (gi_err _ _ _ _ _ G1). congruence.
    - apply ok_inj in Herr. subst c2. exists (c_aggerr c1), (c_concerr c1), (c_cex c1). split; [destruct c1; reflexivity|]. apply (gi_err _ _ _ _ _ G1). }
  destruct E2 as (ag & co & ce & -> & Hco). set (c2 := with_flags c1 ag co ce) in *.
  assert (G2 : gi c2) by (constructor; try apply G1; exact Hco). assert (A2 : at_node c2 n) by exact A1. assert (J2 : jump_ok c2 n) by exact J1.
  destruct (is_error _ && _) in H.
  { apply ok_inj in H. subst c'. auto. }
  apply bind_ok in H as (c3 & Hadd & H).
  destruct (gi_add solve Hsolve cf a WH ru init Hbound Hurg Hns c2 n t tl c3 G2 A2 J2 Ht) as (G3 & A3 & Es3 & Ec3 & En3); auto.
  { rewrite Hfr. exact (eq_sym Em1). } { rewrite P2. exact Hdm. }
  { intros p Hp. apply P3 in Hp as [Hp1 Hp2]. split; [|exact Hp2]. change (nst c2 n) with (nst c1 n). rewrite En1. apply in_lp_with_obj. exact Hp1. }
  assert (T3 : ti c3).
  { apply (ti_add c2 n t tl c3); auto. rewrite Hfr. exact (eq_sym Em1). rewrite P2. exact Hdm. }
  assert (J3 : jump_ok c3 n). { unfold CoreSub.jump_ok. change (nmode c3 n) with (ss_mode (nst c3 n)). rewrite En3. exact J2. }
  assert (Em3 : nmode c3 n = nmode c1 n) by (change (ss_mode (nst c3 n) = ss_mode (nst c2 n)); rewrite En3; reflexivity).
  apply bind_ok in H as (c4 & Htt & H).
  assert (E4 : gi c4 /\ ti c4 /\ at_node c4 n /\ n_state (getN c4 n) = n_state (getN c n) /\ jump_ok c4 n /\ nmode c4 n = nmode c1 n).
  { destruct (cf_tt cf && _) in Htt.
    - apply bind_ok in Htt as ([l5 b] & Hw & Htt). cbn [fst snd] in Htt. change (n_state (getN c n)) with (n_state (getN c2 n)) in Hw, Htt. rewrite <- Es3 in Hw, Htt. fold (nst c3 n) in Hw, Htt.
      destruct (was_tt_taken_ok solve Hsolve a _ _ _ _ _ _ WH (proj2 WH t Ht) Hw) as ((o5 & ->) & _).
      destruct (gi_lpi solve cf a ru init c3 n o5 G3 A3) as (G5 & A5 & En5 & J5). pose proof (ti_lpi c3 n o5 G3 T3 A3) as T5. set (c5 := setS c3 (n_state (getN c3 n)) _) in *. apply ok_inj in Htt.
      assert (Em5 : nmode c5 n = nmode c3 n) by (change (ss_mode (nst c5 n) = nmode c3 n); rewrite En5; reflexivity).
      destruct b; subst c4.
      + split; [apply (gi_same _ _ _ _ c5); auto|]. split; [apply (ti_same c5); auto|]. split; [exact A5|]. split; [change (n_state (getN c3 n) = n_state (getN c n)); rewrite Es3; reflexivity|]. split; [exact (J5 J3)|].
        change (nmode c5 n = nmode c1 n). congruence.
      + split; [exact G5|]. split; [exact T5|]. split; [exact A5|]. split; [change (n_state (getN c3 n) = n_state (getN c n)); rewrite Es3; reflexivity|]. split; [exact (J5 J3)|]. congruence.
    - apply ok_inj in Htt. subst c4. split; [exact G3|]. split; [exact T3|]. split; [exact A3|]. split; [rewrite Es3; reflexivity|]. split; [exact J3|exact Em3]. }
  destruct E4 as (G4 & T4 & A4 & Es4 & J4 & Em4). rewrite <- Es4 in H.
  apply (IH c4 c' G4 T4 A4 J4); auto.
  intros t0 K. rewrite Em4. apply Hts1. exact K.
Qed.

Lemma ti_left c n b : gi c -> ti c -> n < nN c -> ti (left_invariant c n (n_state (getN c n)) b).
Proof.
  intros G T Hn. unfold left_invariant. set (c1 := push_op _ _ _). assert (G1 : gi c1) by (apply gi_push; exact G). assert (T1 : ti c1) by (apply ti_push; auto). apply (ti_same c1); auto.
Qed.

Lemma ti_cont c n c' : gi c -> ti c -> at_node c n -> continuous_post solve cf a c n (n_state (getN c n)) = Ok c' -> ti c'.
Proof.
  intros G T A H. unfold continuous_post in H. fold (nst c n) in H. destruct (Nat.leb_spec (cf_num cf) (ss_lo (nst c n))) as [Hl|Hl].
  { apply ok_inj in H. subst. apply ti_left; auto. apply A. }
  destruct (c_tt c).
  { apply ok_inj in H. subst. assert (G1 : gi (with_tt c false)) by (apply (gi_same _ _ _ _ c); auto). apply (ti_left (with_tt c false)); [exact G1|apply (ti_same c); auto|apply A]. }
  apply bind_ok in H as ([c1 ok] & H1 & H). pose proof (ti_intersect c n c1 ok G T A H1) as T1. destruct (gi_intersect solve Hsolve a WH ru init c n c1 ok G A H1) as (G1 & A1 & E1 & E2 & E3 & E4 & E5 & Hok).
  destruct ok; cbn [negb] in H.
  2:{ apply ok_inj in H. subst. rewrite <- E1. apply ti_left; auto. apply A1. }
  apply bind_ok in H as (s1 & Hs & H). apply bind_ok in H as (c3 & Hg & H).
  rewrite <- E1 in Hs, Hg, H. fold (nst c1 n) in Hs. destruct (gi_step1 solve Hsolve cf a WH Hinp ru init Hbound Hcap c1 n s1 G1 A1 (Hok eq_refl) ltac:(lia) Hs) as (G2 & A2 & Es).
  pose proof (ti_step1 c1 n s1 G1 T1 A1 (Hok eq_refl) Hs) as T2. set (c2 := setS c1 (n_state (getN c1 n)) s1) in *.
  assert (En2 : nst c2 n = s1) by (unfold nst, c2; rewrite getN_setS, getS_set_eq; [reflexivity|apply (gi_nst _ _ _ _ _ G1 n (proj1 A1))]).
  assert (J2 : jump_ok c2 n) by (left; rewrite En2, Es; lia).
  unfold check_guards in Hg. change (n_state (getN c1 n)) with (n_state (getN c2 n)) in Hg.
  destruct (ti_guards n _ c2 c3 G2 T2 A2 J2 (fun t Ht => proj1 (out_trans_spec a _ t) Ht) Hg) as (G3 & T3).
  destruct (gi_guards solve Hsolve cf a WH ru init Hbound Hurg Hns n _ c2 c3 G2 A2 J2 (fun t Ht => proj1 (out_trans_spec a _ t) Ht) Hg) as (_ & A3 & Es3 & _).
  destruct (m_a _) as [y|] in H; [|discriminate]. destruct (_ && _) in H; apply ok_inj in H; subst c'; [|exact T3].
  change (n_state (getN c1 n)) with (n_state (getN c2 n)). rewrite <- Es3. apply ti_left; auto. apply A3.
Qed.

(** ** popping *)
Lemma ti_pop c c' n : gi c -> ti c -> pop_waiting_list solve arnoldi cf a c = Ok (c', n) -> ti c'.
Proof.
  intros G T H. unfold pop_waiting_list in H. apply bind_ok in H as (ops & Hops & H). apply bind_ok in H as (? & _ & H). apply bind_ok in H as (agg & _ & H). apply bind_ok in H as ([c1 nid] & Hm & H).
  apply ok_inj in H. injection H as <- <-.
  assert (Hpath : forall g, cf_strat cf = Some g -> ag_deagg g = true -> ag_path g = true) by (intros g Hg Kd; rewrite (Hnd g Hg) in Kd; discriminate).
  destruct (pop_ops_ok cf a Hpath ru Hbound c ops) as (K1 & K2 & K3 & K4 & _); auto; try apply G.
  { intros o o' Ho Ho' E. apply (gi_inj _ _ _ _ _ G); auto; apply (gi_wait _ _ _ _ _ G); auto. }
  set (w := filter _ (c_wait c)) in *. set (c0 := with_wait c w) in *.
  destruct (make_node_ok solve Hsolve arnoldi a WH c0 ops agg (Some "full"%string) c1 nid) as (M1 & M2 & M3 & M4 & M5 & M6 & M7 & M8 & M9 & M10 & M11 & M12 & M13 & M14 & M15 & M16 & M17 & M18 & M19 & M20 & MS); auto.
  { intros o Ho. destruct (gi_wait _ _ _ _ _ G o (K3 o Ho)) as (W1 & W2 & _). split; [exact W1|]. split; [apply (gi_post _ _ _ _ _ G o W1)|]. split; [apply (gi_good _ _ _ _ _ G); apply (gi_post _ _ _ _ _ G o W1)|exact W2]. }
  { intros o Ho. assert (In (nth 0 ops 0) ops) by (destruct ops; [congruence|left; reflexivity]). apply (K4 o _ Ho H). }
  cbn zeta in MS. destruct MS as (S1 & S2 & S3 & S4 & S5). set (sid := n_state (getN c1 nid)) in *.
  change (nN c0) with (nN c) in *. change (nO c0) with (nO c) in *. change (nS c0) with (nS c) in *. change (getS c0) with (getS c) in *. change (getO c0) with (getO c) in *. change (getN c0) with (getN c) in *.
  assert (HL : forall i, i < nS c -> like (getS c i) (getS c1 i)).
  { intros i Hi. destruct ops as [|o1 [|o2 ops']]; [congruence| |].
    - destruct S5 as (T1 & T2 & T3 & g & T4). destruct (Nat.eq_dec i sid) as [->|Hne]; [|rewrite T3 by exact Hne; apply like_refl]. rewrite T4. split; [reflexivity|]. split; [reflexivity|]. split; [reflexivity|].
      intros pre _ TT. eapply TR_sub; [exact TT|reflexivity|reflexivity|reflexivity|apply sub_refl].
    - destruct S5 as (T1 & T2 & T3 & _). destruct (T3 i Hi) as [->|(o & ->)]; [apply like_refl|apply like_obj]. }
  assert (F : fr c c1). { split; [lia|]. split; [lia|]. split; [intros o _; destruct (M9 o) as (Q1 & Q2 & _); auto|intros m Hm'; rewrite M5 by exact Hm'; reflexivity]. }
  change (ti (with_cur c1 (Some nid))).
  assert (T1 : ti c1).
  { constructor.
    - intros o Ho. rewrite M4 in Ho. destruct (M9 o) as (Q1 & Q2 & _ & Q4 & _). rewrite Q4, Q2. destruct (HL _ (gi_post _ _ _ _ _ G o Ho)) as (L1 & L2 & L3 & L4). rewrite L1, L2, L3. intro Hc.
      destruct (ti_op _ T o Ho Hc) as (R1 & pre & R2 & R3). split; [exact R1|]. exists pre. split; [eapply opre_fr; eauto|]. intro He. apply L4; auto.
    - intros m Hm' Hc. rewrite M3 in Hm'. destruct (Nat.eq_dec m nid) as [->|Hne].
      + change (ss_conc (getS c1 sid) = true) in Hc. destruct ops as [|o1 [|o2 ops']]; [congruence| |].
        * destruct S5 as (T1 & _). exists o1. rewrite M4. split; [apply (gi_wait _ _ _ _ _ G); apply K3; left; reflexivity|]. split; [exact M7|]. destruct (M9 o1) as (_ & _ & _ & Q4 & _). rewrite Q4. split; [exact T1|]. apply M10. left; reflexivity.
        * destruct S5 as (_ & _ & _ & _ & T5 & _). congruence.
      + assert (Hm2 : m < nN c) by lia. rewrite M5 by exact Hm2. unfold nst in Hc. rewrite M5 in Hc by exact Hm2. destruct (HL _ (gi_nst _ _ _ _ _ G m Hm2)) as (L1 & _). rewrite L1 in Hc.
        destruct (ti_node _ T m Hm2 Hc) as (o & R1 & R2 & R3 & R4). exists o. rewrite M4. destruct (M9 o) as (_ & _ & _ & Q4 & _). rewrite Q4. split; [exact R1|]. split; [exact R2|]. split; [exact R3|].
        rewrite M11; [exact R4|]. intro Ko. destruct (gi_wait _ _ _ _ _ G o (K3 o Ko)) as (_ & _ & W3). apply (W3 m Hm2). exact R3.
    - rewrite M18, M19. apply T. }
  constructor; [|apply T1|apply T1]. intros o Ho Hc. destruct (ti_op _ T1 o Ho Hc) as (R1 & pre & R2 & R3). split; [exact R1|]. exists pre. split; [|exact R3]. eapply opre_fr; [|exact R2]. split; [reflexivity|]. split; [reflexivity|]. auto.
Qed.

Lemma ti_step_pop c c' : gi c -> ti c -> do_step_pop solve arnoldi cf a c = Ok c' -> ti c'.
Proof.
  intros G T H. unfold do_step_pop in H. apply bind_ok in H as ([c1 n] & Hp & H). pose proof (ti_pop c c1 n G T Hp) as T1. destruct (gi_pop solve Hsolve arnoldi cf a WH ru init Hbound Hnd c c1 n G Hp) as (G1 & Hn & Ec).
  destruct (is_error _) eqn:Ee in H.
  { apply ok_inj in H. subst. apply ti_left; auto. }
  assert (A1 : at_node c1 n) by (split; assumption). apply bind_ok in H as ([c2 ok] & Hi & H). pose proof (ti_intersect c1 n c2 ok G1 T1 A1 Hi) as T2. destruct (gi_intersect solve Hsolve a WH ru init c1 n c2 ok G1 A1 Hi) as (G2 & A2 & E1 & _).
  destruct ok; apply ok_inj in H; subst c'; [exact T2|]. rewrite <- E1. apply ti_left; auto. apply A2.
Qed.

Lemma ti_do_step c c' : gi c -> gcur c -> ti c -> do_step solve arnoldi cf a c = Ok c' -> ti c'.
Proof.
  intros G GC T H. unfold do_step in H. destruct (is_finished cf c); [apply ok_inj in H; subst; auto|].
  destruct (cur_state c) as [[n sid]|] eqn:Ecs.
  { apply cur_state_inv in Ecs as (K1 & K2 & ->). apply bind_ok in H as (c1 & H1 & H). apply ok_inj in H. pose proof (ti_cont c n c1 G T (GC n K1 K2) H1) as T1.
    destruct (gi_cont solve Hsolve cf a WH Hinp ru init Hbound Hurg Hcap Hns c n c1 G (GC n K1 K2) K1 H1) as [G1 C1]. subst c'. apply (ti_same c1); auto. }
  assert (Er : doing_replay c = false) by (unfold doing_replay; rewrite (gi_rep _ _ _ _ _ G), (gi_dw _ _ _ _ _ G); reflexivity). rewrite Er in H.
  assert (Ed : get_deagg_node cf a c = Ok None). { unfold get_deagg_node. destruct (cf_strat cf) as [g|] eqn:Eg; [|reflexivity]. rewrite (Hnd g eq_refl). reflexivity. }
  rewrite Ed in H. cbn [bind] in H. apply bind_ok in H as (c1 & H1 & H). pose proof (ti_step_pop c c1 G T H1) as T1. destruct (gi_step_pop solve Hsolve arnoldi cf a WH ru init Hbound Hnd c c1 G H1) as (G1 & C1 & I1).
  destruct (cur_state c1) as [[n sid]|] eqn:Ecs1; [|apply ok_inj in H; subst; auto]. destruct (cf_urgent cf) eqn:Eu in H; [|apply ok_inj in H; subst; auto].
  apply cur_state_inv in Ecs1 as (K1 & K2 & ->). pose proof (C1 n K1 K2) as A1. unfold check_guards in H.
  assert (J1 : jump_ok c1 n) by (right; split; [exact Eu|apply I1; exact K1]).
  apply (ti_guards n _ c1 c' G1 T1 A1 J1 (fun t Ht => proj1 (out_trans_spec a _ t) Ht) H).
Qed.
Lemma ti_run fuel : forall c r, gi c -> gcur c -> ti c -> run_loop solve arnoldi cf a fuel c = Some (Ok r) -> ti r.
Proof.
  induction fuel as [|f IH]; intros c r G C T H; cbn [run_loop] in H; (destruct (is_finished cf c); [injection H as <-; exact T|]); [discriminate|].
  destruct (do_step solve arnoldi cf a c) as [c1|e] eqn:Es; [|discriminate]. pose proof (ti_do_step c c1 G C T Es) as T1.
  destruct (gi_do_step solve Hsolve arnoldi cf a WH Hinp ru init Hbound Hurg Hcap Hns Hnd c c1 G C Es). eauto.
Qed.
End Tr.
