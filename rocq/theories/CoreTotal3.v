(** The steps of the computation do not fail on bounded sets: aggregation and the waiting list (for C66). *)
From Verif Require Import Base BaseFacts LpModel LpSpec SetSpec LpUtil LpFacts LpWf SetFacts SetFacts2 MinkFacts OpsFacts OpsFacts2 OpsFacts3 OpsFacts4 AggFacts ChullFacts
  ApiSpec ApiFacts Automaton StateSet HybridSpec FlowFacts StateSpec StateFacts StateFacts2 StateFacts3 AutoFacts BuildFacts CoreModel HeapFacts Prop_Sets CoreOps CorePop CoreExt CoreDag CoreDag2 CoreDag3 CoreCont
  Bounded Bounded2 Bounded3 Bounded4 Bounded5 Bounded6 Bounded7 ChullTotal CoreTotal CoreTotal2.
From Coq Require Import Lia Lqa Setoid QArith.Qabs.
Open Scope nat_scope.

Section WithSolver.
Variable solve : solver.
Hypothesis Hsolve : solver_ok solve.
Hypothesis Hcomp : solver_complete solve.
Variable arnoldi : nat -> option (list Q) -> csr -> option csr -> nat -> list (list Q).
Hypothesis Harn : forall k ctr am r n, Forall (fun row => List.length row = n) (arnoldi k ctr am r n).
Variable cf : cfg.
Variable a : ha.
Hypothesis WH : wf_ha a.
Hypothesis HF : fits a.
Hypothesis Hnum : 0 < cf_num cf.
Notation dag := (dag cf a).
Notation tinv := (tinv solve a).
Notation err m := (is_error (get_mode a m)).

Lemma ident_len n : Forall (fun r : list Q => List.length r = n) (ident n) /\ List.length (ident n) = n.
Proof. unfold ident. split; [apply Forall_forall; intros r Hr; apply in_map_iff in Hr as (i & <- & _); apply unit_len|rewrite map_length, seq_length; reflexivity]. Qed.
Lemma forallb_len n ds : Forall (fun r : list Q => List.length r = n) ds -> forallb (fun r => List.length r =? n) ds = true.
Proof. intro H. apply forallb_forall. rewrite Forall_forall in H. intros r Hr. apply Nat.eqb_eq, H, Hr. Qed.

Lemma guard_dirs_total t : t < List.length (ha_trans a) -> err (t_to (get_trans a t)) = false -> exists gd, guard_dirs (get_trans a t) = Ok gd /\ Forall (fun r => List.length r = m_dims (get_mode a (t_to (get_trans a t)))) gd.
Proof.
  intros Ht He. pose proof (proj2 WH t Ht) as WT. destruct (proj2 HF t Ht) as [FG _]. set (tr := get_trans a t) in *. unfold guard_dirs.
  destruct (wft_guard _ _ WT) as (g & rhs & Eg & Hg & Hr & _). rewrite Eg. pose proof (FG g rhs Eg) as Hw. pose proof (wft_dims _ _ WT He) as Hd. destruct (wft_reset _ _ WT) as [HR HR2]. unfold post_dims in Hd.
  destruct (t_reset tr) as [rc|] eqn:Er.
  - destruct (HR2 rc eq_refl) as [K _]. rewrite Hw, K, Nat.eqb_refl. eexists. split; [reflexivity|]. apply Forall_forall. intros r Hr1. apply in_map_iff in Hr1 as (q & <- & _). rewrite map_length. exact Hd.
  - eexists. split; [reflexivity|]. apply Forall_forall. intros r Hr1. apply in_map_iff in Hr1 as (q & <- & _). rewrite dense_of_length, Hw. exact Hd.
Qed.

Lemma dir_mat_total c mp kind g o : dag mp c -> tinv c -> kind <> AChull -> o < nO c -> o_parent (getO c o) <> None -> err (omode c o) = false ->
  exists dirs, agg_dir_mat arnoldi a c kind g (m_dims (get_mode a (omode c o))) o = Ok dirs /\ Forall (fun r => List.length r = m_dims (get_mode a (omode c o))) dirs /\ m_dims (get_mode a (omode c o)) <= List.length dirs /\
    dirs_bound (m_dims (get_mode a (omode c o))) dirs.
Proof.
  intros D T Hk Ho Hp He. destruct (o_parent (getO c o)) as [p|] eqn:Ep; [|congruence]. destruct (d_par _ _ _ _ D o p Ho Ep) as (HN & _ & t & Et & Em).
  destruct (t_from0 _ _ _ T o p t Ho Ep Et) as [Ht Hf]. unfold nodemode in Hf. rewrite Em in *. set (n := m_dims (get_mode a (t_to (get_trans a t)))) in *.
  pose proof (proj2 WH t Ht) as WT. destruct (is_error_a _ He) as (x & Hx).
  assert (Hn : (inject_Z (Z.of_nat n) <= 10000000)%Q). { unfold n. rewrite (m_dims_eq _ _ Hx). apply (proj1 HF _ (wft_to _ _ WT)). exact Hx. }
  assert (B : exists base, (match kind with
             | ABox => Ok (ident n)
             | _ => match o_parent (getO c o), o_trans (getO c o) with
                 | Some p, Some t =>
                     match m_a (get_mode a (ss_mode (getS c (n_state (getN c p))))) with
                     | None => Err EType
                     | Some am =>
                         let ds := arnoldi (List.length (c_nodes c)) (o_center (getO c o)) am (t_reset (get_trans a t)) n in
                         if forallb (fun r => List.length r =? n) ds then
                           Ok (ds ++ filter (fun d => negb (existsb (fun r => forallb (fun ab => close (fst ab) (snd ab)) (combine d r)) ds)) (ident n))
                         else Err EValue
                     end
                 | _, _ => Err EType
                 end
             end) = Ok base /\ Forall (fun r => List.length r = n) base /\ n <= List.length base /\ dirs_bound n base).
  { assert (Ar : exists base, (match o_parent (getO c o), o_trans (getO c o) with
                 | Some p, Some t =>
                     match m_a (get_mode a (ss_mode (getS c (n_state (getN c p))))) with
                     | None => Err EType
                     | Some am =>
                         let ds := arnoldi (List.length (c_nodes c)) (o_center (getO c o)) am (t_reset (get_trans a t)) n in
                         if forallb (fun r => List.length r =? n) ds then
                           Ok (ds ++ filter (fun d => negb (existsb (fun r => forallb (fun ab => close (fst ab) (snd ab)) (combine d r)) ds)) (ident n))
                         else Err EValue
                     end
                 | _, _ => Err EType
                 end) = Ok base /\ Forall (fun r => List.length r = n) base /\ n <= List.length base /\ dirs_bound n base).
    { rewrite Ep, Et, Hf. destruct (is_error_a _ (proj2 (wft_from _ _ WT))) as (am & Ham). rewrite Ham. cbn zeta. set (ds := arnoldi _ _ _ _ _). assert (Hds : Forall (fun r => List.length r = n) ds) by apply Harn.
      rewrite (forallb_len n ds Hds). eexists. split; [reflexivity|]. split; [exact (axes_len n ds Hds)|]. split; [exact (axes_count n ds Hds)|exact (axes_bound n ds Hn Hds)]. }
    destruct kind; [|exact Ar|congruence]. exists (ident n). destruct (ident_len n) as [I1 I2]. split; [reflexivity|]. split; [exact I1|]. split; [lia|apply ident_bound]. }
  destruct B as (base & Eb & B1 & B2 & B3). unfold agg_dir_mat. cbn zeta in *. rewrite Eb. cbn [bind]. destruct g; [|eauto]. rewrite Et.
  destruct (guard_dirs_total t Ht He) as (gd & Egd & Hgd). rewrite Egd. cbn [bind]. fold n in Hgd. rewrite (forallb_len n gd Hgd). eexists. split; [reflexivity|].
  split; [apply Forall_app; auto|]. split; [rewrite app_length; lia|apply dirs_bound_app; exact B3].
Qed.

(** only objectives change *)
Definition same_set (s s' : sset) : Prop := s' = s \/ exists o, s' = ss_with_lpi s (with_obj (ss_lpi s) o) /\ obj_ok (with_obj (ss_lpi s) o).
Lemma put_same sids : forall c ls, Forall2 (fun i l => exists o, l = with_obj (ss_lpi (getS c i)) o /\ obj_ok l) sids ls -> forall i, same_set (getS c i) (getS (put_lps c sids ls) i).
Proof.
  induction sids as [|j sids IH]; intros c ls Hf i; inversion Hf as [|? l ? ls' Hl HF' E1 E2]; subst; cbn [put_lps]; [left; reflexivity|].
  destruct Hl as (o & -> & Oo). set (c1 := setS c j _).
  assert (Hc1 : forall i, same_set (getS c i) (getS c1 i)).
  { intro i0. destruct (Nat.eq_dec i0 j) as [->|Hne]; [|left; apply getS_set_ne; auto].
    destruct (lt_dec j (nS c)); [right; exists o; unfold c1; rewrite getS_set_eq by auto; auto|].
    left. unfold c1, getS. ccbn. rewrite nth_upd. destruct (Nat.ltb_spec j (nS c)); [lia|]. rewrite andb_false_r. reflexivity. }
  assert (HF2 : Forall2 (fun i l => exists o, l = with_obj (ss_lpi (getS c1 i)) o /\ obj_ok l) sids ls').
  { clear -HF' Hc1. induction HF' as [|i9 l is' ls' (o9 & -> & O9) HF' IH]; constructor; auto. destruct (Hc1 i9) as [->|(o' & -> & _)]; [eauto|].
    exists o9. cbn [ss_with_lpi ss_lpi]. rewrite with_obj_twice. auto. }
  destruct (IH c1 ls' HF2 i) as [->|(o1 & -> & O1)]; [apply Hc1|]. destruct (Hc1 i) as [E|(o2 & E & O2)]; rewrite E in O1 |- *; [right; eauto|].
  right. exists o1. cbn [ss_with_lpi ss_lpi] in *. rewrite with_obj_twice in *. auto.
Qed.

Lemma agg_states_total c mp ops kind g : dag mp c -> tinv c -> 2 <= List.length ops -> (forall o, In o ops -> o < nO c /\ o_parent (getO c o) <> None /\ omode c o = omode c (nth 0 ops 0) /\ exists p, in_lp (ss_lpi (pstate c o)) p) ->
  err (omode c (nth 0 ops 0)) = false ->
  exists c' s', aggregate_states solve arnoldi a c ops (Some (kind, g)) = Ok (c', s') /\ (forall i, same_set (getS c i) (getS c' i)) /\ nS c' = nS c /\ live solve a s'.
Proof.
  intros D T H2 HO He. set (m := omode c (nth 0 ops 0)) in *. destruct (is_error_a _ He) as (x & Hx).
  assert (Hno : In (nth 0 ops 0) ops) by (apply nth_In; lia).
  assert (HL : forall o, In o ops -> live solve a (pstate c o)). { intros o Ho. destruct (HO o Ho) as (K1 & _ & K2 & _). apply (t_live _ _ _ T); [apply (d_post _ _ _ _ D); exact K1|]. fold (omode c o). rewrite K2. exact He. }
  assert (Hag : forall o, In o ops -> agg_in (c_nr x) (ss_lpi (pstate c o))).
  { intros o Ho. destruct (HO o Ho) as (_ & _ & K2 & Xo). pose proof (live_agg solve Hsolve a _ (HL o Ho) Xo) as A. fold (omode c o) in A. unfold pstate in A at 1. fold (omode c o) in A. rewrite K2 in A. fold m in A. rewrite (m_dims_eq _ _ Hx) in A. exact A. }
  assert (E0 : nth 0 (map (fun o => o_post (getO c o)) ops) 0 = o_post (getO c (nth 0 ops 0))) by (destruct ops; [cbn in H2; lia|reflexivity]).
  assert (Hm : m < List.length (ha_modes a)). { destruct (HL _ Hno) as (x0 & S0 & _). exact (st_mode _ _ _ _ S0). }
  assert (Hpos : 0 < c_nr x) by (pose proof (proj1 WH m Hm) as W; rewrite Hx in W; apply (wfm_pos _ _ W)).
  set (ss := map (getS c) (map (fun o => o_post (getO c o)) ops)).
  assert (Hss : map ss_lpi ss = map (fun o => ss_lpi (pstate c o)) ops) by (unfold ss; rewrite !map_map; reflexivity).
  assert (Hkc : kind = AChull \/ kind <> AChull) by (destruct kind; [right; discriminate|right; discriminate|left; reflexivity]).
  destruct Hkc as [->|Hk].
  { assert (HCI : Forall (chull_in (c_nr x)) (map ss_lpi ss)).
    { rewrite Hss. apply Forall_forall. intros l Hl. apply in_map_iff in Hl as (o & <- & Ho). destruct (Hag o Ho) as (F1 & F2 & F3). destruct (live_api solve a _ (HL o Ho)) as (k & Hk). pose proof Hk as Hk2. apply (api_ok solve Hsolve) in Hk2.
      destruct (live_wf solve Hsolve a _ (HL o Ho)) as (BM & nu & IEs & x0 & _ & W0 & Q1 & Q2).
      split; [apply (wf_clonable _ _ _ _ W0); lia|]. split; [split; apply Hk2|]. split; [exact F1|]. split; [exact F2|exact F3]. }
    destruct (chull_total solve Hsolve Hcomp (c_nr x) Hpos (S (List.length ss)) (map ss_lpi ss) m (has_inputs (get_mode a m)) HCI) as (l & El & HCl & HR).
    { rewrite Hss. destruct ops; [cbn in H2; lia|discriminate]. }
    { rewrite map_length. lia. }
    destruct HR as (_ & W & B & Hie); [rewrite Hss, map_length; exact H2|]. destruct HCl as (_ & _ & (_ & O & _) & Hdl & _).
    assert (Hap : api solve l (Some (ident (c_nr x), m_nu (get_mode a m), [], []))).
    { rewrite <- Hdl. apply (aggregate_chull_api solve Hsolve (S (List.length ss)) (map ss_lpi ss) m (has_inputs (get_mode a m)) l (m_nu (get_mode a m))); [| |rewrite Hss, map_length; exact H2|exact El].
      - eapply Forall_impl; [|exact HCI]. intros l9 Hl9. apply Hl9.
      - intros l9 Hl9. rewrite (proj1 (proj2 (proj2 (proj2 (proj1 (Forall_forall _ _) HCI l9 Hl9))))). exact Hpos. }
    assert (Eq : exists s', new_stateset a l m (minl (map ss_lo ss)) (maxl (map ss_hi ss)) (Some ops) false = Ok s') by (apply (new_stateset_total a l m _ _ _ _ x 0 [] Hx (W 0)); [lia|exact Hdl]).
    destruct Eq as (s' & Es). exists c, s'. split; [|split; [intro i; left; reflexivity|split; [reflexivity|]]].
    { unfold aggregate_states. rewrite E0. fold (omode c (nth 0 ops 0)). fold m. fold ss. rewrite El. cbn [bind]. rewrite Es. reflexivity. }
    refine (new_live solve Hsolve a l m _ _ _ _ s' x WH Hm Hx Hap Hdl B O _ Es). intro Hb. apply Hie. unfold has_inputs. destruct (m_b (get_mode a m)); congruence. }
  set (om := nth (Nat.div (List.length ops) 2) ops 0).
  assert (Hom : In om ops). { apply nth_In. apply Nat.div_lt; lia. }
  destruct (HO om Hom) as (O1 & O2 & O3 & _).
  assert (Heo : err (omode c om) = false) by (rewrite O3; exact He).
  destruct (dir_mat_total c mp kind g om D T Hk O1 O2 Heo) as (dirs & Ed & Hd1 & Hd2 & Hd3). rewrite O3 in Ed, Hd1, Hd2, Hd3. fold m in Ed, Hd1, Hd2, Hd3. rewrite (m_dims_eq _ _ Hx) in Ed, Hd1, Hd2, Hd3.
  assert (Hall : Forall (agg_in (c_nr x)) (map ss_lpi ss)). { rewrite Hss. apply Forall_forall. intros l Hl. apply in_map_iff in Hl as (o & <- & Ho). apply Hag. exact Ho. }
  assert (Hlen : 1 < List.length (map ss_lpi ss)) by (rewrite Hss, map_length; lia).
  destruct (aggregate_total solve Hsolve Hcomp (map ss_lpi ss) dirs (c_nr x) m (has_inputs (get_mode a m)) Hall Hlen Hd1 Hd2 Hpos) as (ls' & l & Ea & Hls & Hw & _ & Hap & Hdl & Hie).
  destruct (Hw Hd3 0) as (W & B & O).
  assert (Eq : exists s', new_stateset a l m (minl (map ss_lo ss)) (maxl (map ss_hi ss)) (Some ops) false = Ok s').
  { apply (new_stateset_total a l m _ _ _ _ x 0 [] Hx W); [lia|exact Hdl]. }
  destruct Eq as (s' & Es).
  exists (put_lps c (map (fun o => o_post (getO c o)) ops) ls'), s'. split.
  { unfold aggregate_states. rewrite E0. fold (omode c (nth 0 ops 0)). fold m. fold ss. rewrite Hx. fold om. rewrite Ed. cbn [bind]. rewrite Ea. cbn [bind fst snd]. rewrite Es. cbn [bind].
    destruct kind; [reflexivity|reflexivity|congruence]. }
  pose proof (aggregate_in solve Hsolve _ _ _ _ _ _ _ Ea) as (HF2 & _).
  split; [|split].
  - apply put_same. unfold ss in HF2. clear - HF2 Hls. remember (map (fun o => o_post (getO c o)) ops) as sids. clear Heqsids. revert ls' HF2 Hls.
    induction sids as [|i sids IH]; intros ls' Hf Hls; inversion Hf as [|? l0 ? l1 K1 K2]; subst; constructor.
    + inversion Hls as [|? ? A1 A2]; subst. destruct K1 as (o & ->). exists o. split; [reflexivity|]. apply A1.
    + apply IH; [exact K2|]. inversion Hls; assumption.
  - apply put_lps_spec.
  - refine (new_live solve Hsolve a l m _ _ _ _ s' x WH Hm Hx _ Hdl B O _ Es); [apply Hap|].
    intro Hb. apply Hie. unfold has_inputs. destruct (m_b (get_mode a m)); congruence.
Qed.

Lemma live_aggstr s g : live solve a s -> live solve a (mkSset (ss_mode s) (ss_lpi s) (ss_step s) (ss_lo s) (ss_hi s) (ss_conc s) (ss_ops s) (ss_rows s) (ss_bm s) (ss_ies s) g).
Proof. intros (x & [] & B & O & I0). exists x. split; [constructor; assumption|]. split; [exact B|]. split; [exact O|exact I0]. Qed.
Lemma same_live s s' : same_set s s' -> live solve a s -> live solve a s'.
Proof. intros [->|(o & -> & O)] L; [exact L|]. apply live_obj; assumption. Qed.
Lemma same_mode s s' : same_set s s' -> ss_mode s' = ss_mode s.
Proof. intros [->|(o & -> & O)]; reflexivity. Qed.
Lemma same_in s s' p : same_set s s' -> in_lp (ss_lpi s) p -> in_lp (ss_lpi s') p.
Proof. intros [->|(o & -> & O)] H; [exact H|]. cbn [ss_with_lpi ss_lpi]. apply in_lp_with_obj. exact H. Qed.

Lemma make_node_total c mp ops agg str : dag mp c -> tinv c -> ops <> [] -> (forall o, In o ops -> o < nO c) ->
  (2 <= List.length ops -> exists kind g, agg = Some (kind, g) /\ err (omode c (nth 0 ops 0)) = false /\
     forall o, In o ops -> o_parent (getO c o) <> None /\ omode c o = omode c (nth 0 ops 0) /\ exists p, in_lp (ss_lpi (pstate c o)) p) ->
  exists c' nid, make_node solve arnoldi a c ops agg str = Ok (c', nid) /\ tinv c'.
Proof.
  intros D T Hne Hlt H2.
  assert (E1 : exists c1 sid, (match ops with
           | [o] => Ok (c, o_post (getO c o))
           | _ => do r <- aggregate_states solve arnoldi a c ops agg; let '(c1, s) := r in Ok (with_states c1 (c_states c1 ++ [s]), List.length (c_states c1))
           end) = Ok (c1, sid) /\ sid < nS c1 /\ (forall i, i < nS c -> same_set (getS c i) (getS c1 i)) /\ nS c <= nS c1 /\ (forall i, nS c <= i -> i < nS c1 -> live solve a (getS c1 i))).
  { destruct ops as [|o [|o2 ops]]; [congruence| |].
    - exists c, (o_post (getO c o)). split; [reflexivity|]. split; [apply (d_post _ _ _ _ D); apply Hlt; left; reflexivity|]. split; [intros i _; left; reflexivity|]. split; [lia|intros; lia].
    - destruct H2 as (kind & g & -> & He & HO); [cbn; lia|].
      destruct (agg_states_total c mp (o :: o2 :: ops) kind g D T) as (c1 & s1 & E & Hsame & HnS & L); [cbn; lia| |exact He|].
      { intros o' Ho'. split; [apply Hlt; exact Ho'|]. apply HO. exact Ho'. }
      rewrite E. cbn [bind]. eexists. exists (nS c1). split; [reflexivity|]. ccbn. rewrite app_length. cbn [List.length]. split; [lia|]. split; [|split; [lia|]].
      + intros i Hi. rewrite getS_add. destruct (Nat.eqb_spec i (nS c1)); [lia|]. apply Hsame.
      + intros i Hi1 Hi2. rewrite getS_add. destruct (Nat.eqb_spec i (nS c1)); [exact L|lia]. }
  destruct E1 as (c1 & sid & E1 & Hsid & Hsame & Hns & Hnew).
  assert (E : exists c' nid, make_node solve arnoldi a c ops agg str = Ok (c', nid) /\ c_states c' = upd_nth sid (let s := getS c1 sid in mkSset (ss_mode s) (ss_lpi s) (ss_step s) (ss_lo s) (ss_hi s) (ss_conc s) (ss_ops s) (ss_rows s) (ss_bm s) (ss_ies s) str) (c_states c1)).
  { unfold make_node. rewrite E1. cbn [bind]. set (c2 := setS c1 sid _). destruct (set_childs_spec ops (nN c2) c2) as (F1 & _).
    do 2 eexists. split; [reflexivity|]. destruct (existsb _ ops); ccbn; exact F1. }
  destruct E as (c' & nid & E & Est). exists c', nid. split; [exact E|].
  pose proof (make_node_ptr _ _ _ _ _ _ _ _ _ Hne Hlt E) as (Enid & HN & HO & X & GN & _ & _ & _ & GO & _ & _ & _ & Hw & _).
  assert (GS : forall i, i < nS c' -> getS c' i = if i =? sid then (let s := getS c1 sid in mkSset (ss_mode s) (ss_lpi s) (ss_step s) (ss_lo s) (ss_hi s) (ss_conc s) (ss_ops s) (ss_rows s) (ss_bm s) (ss_ies s) str) else getS c1 i).
  { intros i Hi. unfold getS at 1. rewrite Est, nth_upd. destruct (Nat.ltb_spec sid (nS c1)); [|lia]. rewrite andb_true_r. destruct (i =? sid); reflexivity. }
  assert (HnS' : nS c' = nS c1) by (rewrite Est; apply upd_nth_length).
  constructor.
  - intros i Hi Hei. assert (L1 : err (ss_mode (getS c1 i)) = false -> live solve a (getS c1 i)).
    { intro He1. destruct (Nat.lt_ge_cases i (nS c)) as [Hi2|Hi2]; [|apply Hnew; lia]. apply (same_live (getS c i)); [apply Hsame; exact Hi2|]. apply (t_live _ _ _ T); [exact Hi2|]. rewrite <- (same_mode _ _ (Hsame i Hi2)). exact He1. }
    rewrite GS in * by exact Hi. destruct (Nat.eqb_spec i sid) as [->|]; [|auto]. cbn zeta in *. apply live_aggstr. apply L1. exact Hei.
  - rewrite Hw. intros o Ho. destruct (t_wait _ _ _ T o Ho) as (p & Hp). exists p. unfold pstate in *. destruct (GO o) as (_ & _ & _ & ->). destruct (proj2 (d_wait _ _ _ _ D) o Ho) as [K1 _]. pose proof (d_post _ _ _ _ D o K1) as K2.
    rewrite GS by lia. pose proof (same_in _ _ p (Hsame _ K2) Hp) as Q. destruct (Nat.eqb_spec (o_post (getO c o)) sid) as [<-|]; exact Q.
  - rewrite HO. intros o p t Ho Hp Ht. destruct (GO o) as (_ & G1 & G2 & _). rewrite G1 in Hp. rewrite G2 in Ht. destruct (t_from0 _ _ _ T o p t Ho Hp Ht) as [K1 K2]. split; [exact K1|]. destruct (d_par _ _ _ _ D o p Ho Hp) as (HNp & _).
    destruct (d_parents _ _ _ _ D p HNp) as (_ & _ & P3 & _). unfold nodemode in *. rewrite (GN p HNp), (proj1 (ex_mode _ _ X _ P3)). exact K2.
Qed.

(** ** the waiting list *)
Lemma filter_mem_len w : forall ops, NoDup w -> NoDup ops -> (forall o, In o ops -> In o w) -> List.length w = List.length (filter (fun o => negb (mem o ops)) w) + List.length ops.
Proof.
  intros ops Hw Ho Hin. pose proof (filter_split (fun o => mem o ops) w) as K. rewrite <- K, Nat.add_comm. f_equal.
  apply Nat.le_antisymm; apply NoDup_incl_length; try (apply NoDup_filter; exact Hw); try exact Ho.
  - intros o H. apply filter_In in H as [_ H]. apply mem_In. exact H.
  - intros o H. apply filter_In. split; [apply Hin; exact H|apply mem_In; exact H].
Qed.

Lemma pop_ops_total c : c_wait c <> [] -> exists ops, pop_ops cf a c = Ok ops.
Proof.
  intro Hw. unfold pop_ops, strat_pop. destruct (c_wait c) as [|w0 w] eqn:Ew; [congruence|]. destruct (cf_strat cf) as [g|]; [|cbn [bind]; eauto]. cbn [bind].
  set (b := best_op a c (ag_pop g) w0 (w0 :: w)). assert (Hb : In b (w0 :: w)) by (destruct (best_op_in a c (ag_pop g) (w0 :: w) w0) as [K|K]; [fold b in K; rewrite K; left; auto|exact K]).
  assert (Hf : In b (filter (same_group c g b) (w0 :: w))). { apply filter_In. split; [exact Hb|]. unfold same_group. rewrite Nat.eqb_refl. reflexivity. }
  destruct (filter (same_group c g b) (w0 :: w)); [destruct Hf|eauto].
Qed.
Lemma pop_multi c ops : pop_ops cf a c = Ok ops -> 2 <= List.length ops -> (exists g, cf_strat cf = Some g) /\ err (ss_mode (pstate c (nth 0 ops 0))) = false.
Proof.
  intros H H2. unfold pop_ops in H. apply bind_ok in H as (ops0 & Hs & H). destruct ops0 as [|o0 l0]; [discriminate|]. apply ok_inj in H.
  assert (K : exists g, cf_strat cf = Some g).
  { unfold strat_pop in Hs. destruct (c_wait c); [discriminate|]. destruct (cf_strat cf) as [g|]; [eauto|]. apply ok_inj in Hs. injection Hs as <- <-. exfalso.
    destruct (is_error _); destruct (filter (is_init_op c) [n]) as [|q lq]; subst ops; cbn in H2; lia. }
  split; [exact K|]. destruct (is_error (get_mode a (ss_mode (pstate c o0)))) eqn:Ee.
  - exfalso. destruct (filter (is_init_op c) [o0]) as [|q l]; subst ops; cbn in H2; lia.
  - destruct (filter (is_init_op c) (o0 :: l0)) as [|q l]; subst ops; [exact Ee|cbn in H2; lia].
Qed.

Lemma pop_total c : cinv cf a c -> tinv c -> c_wait c <> [] -> exists c' nid, pop_waiting_list solve arnoldi cf a c = Ok (c', nid) /\ tinv c'.
Proof.
  intros V T Hw. pose proof (ci_dag _ _ _ V) as D. destruct (pop_ops_total c Hw) as (ops & Eo). destruct (pop_ops_ptr _ _ _ _ _ D Eo) as (K1 & K2 & K3 & K4 & _).
  unfold pop_waiting_list. rewrite Eo. cbn [bind]. set (w := filter (fun o => negb (mem o ops)) (c_wait c)).
  assert (El : List.length (c_wait c) = List.length w + List.length ops) by (apply filter_mem_len; [apply (d_wait _ _ _ _ D)|exact K2|intros o Ho; apply K3; exact Ho]).
  rewrite El, Nat.eqb_refl. cbn [assert bind].
  assert (D1 : dag (rep_map c) (with_wait c w)). { apply nd_wait; [exact D|apply NoDup_filter, D|]. intros o Ho. apply filter_In in Ho. tauto. }
  assert (T1 : tinv (with_wait c w)). { constructor; [exact (t_live _ _ _ T)| |exact (t_from0 _ _ _ T)]. intros o Ho. ccbn. apply filter_In in Ho as [Ho _]. exact (t_wait _ _ _ T o Ho). }
  assert (Hlt : forall o, In o ops -> o < nO (with_wait c w)) by (intros o Ho; apply K3 in Ho as [Ho _]; apply (d_wait _ _ _ _ D) in Ho; apply Ho).
  assert (Ea : exists agg, (if 1 <? List.length ops then do g <- get_agg_type cf; Ok (Some g) else Ok None) = Ok agg /\ (2 <= List.length ops -> exists g, cf_strat cf = Some g /\ agg = Some (ag_kind g, ag_guard g))).
  { destruct (Nat.ltb_spec 1 (List.length ops)) as [H|H]; [|exists None; split; [reflexivity|lia]]. destruct (pop_multi c ops Eo H) as [(g & Eg) _]. unfold get_agg_type. rewrite Eg. cbn [bind]. eauto 10. }
  destruct Ea as (agg & Ea & Hagg). rewrite Ea. cbn [bind].
  destruct (make_node_total (with_wait c w) (rep_map c) ops agg (Some "full"%string) D1 T1 K1 Hlt) as (c1 & nid & E1 & T2).
  { intro H2. destruct (Hagg H2) as (g & Eg & ->). exists (ag_kind g), (ag_guard g). split; [reflexivity|]. destruct (pop_multi c ops Eo H2) as [_ He]. split; [exact He|].
    intros o Ho. destruct (K3 o Ho) as [Q1 Q2]. split; [apply (K4 H2 o Ho)|]. split; [exact Q2|]. exact (t_wait _ _ _ T o Q1). }
  rewrite E1. cbn [bind]. do 2 eexists. split; [reflexivity|]. apply (tinv_same solve a c1); auto.
Qed.
End WithSolver.
