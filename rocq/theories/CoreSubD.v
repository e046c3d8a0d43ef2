(** With deaggregation: every state marked concrete contains only points reached by executions that ignore the invariants. *)
From Verif Require Import Base BaseFacts LpModel LpSpec SetSpec LpUtil LpFacts LpWf ChullFacts OpsFacts4 ApiSpec ApiFacts Automaton StateSet HybridSpec FlowFacts StateSpec
  StateFacts StateFacts2 StateFacts3 AutoFacts BuildFacts CoreModel HeapFacts CoreOps CoreGhost CoreHeap CoreInv CoreStep CoreCont CorePop CoreExt CoreDag CoreDag2 CoreDag3.
Open Scope nat_scope.

(** Specification: the automaton without its invariants *)
Definition drop_mode (m : mode) : mode := mkMode (m_name m) (m_a m) (m_b m) [] (m_bm m) (m_ie m).
Definition drop_inv (a : ha) : ha := mkHa (map drop_mode (ha_modes a)) (ha_trans a).

Lemma inv_drop lax m p : inv_ok lax (drop_mode m) p.
Proof. intros c []. Qed.
Lemma flow_drop m j : forall p p', flow m j p p' -> flow (drop_mode m) j p p'.
Proof. induction j as [|j IH]; intros p p'; cbn [flow]; [auto|]. intros (q & u & H1 & H2 & H3). exists q, u. split; [apply IH; exact H1|]. split; [exact H2|exact H3]. Qed.

Section SubD.
Variable solve : solver.
Hypothesis Hsolve : solver_ok solve.
Variable arnoldi : nat -> option (list Q) -> csr -> option csr -> nat -> list (list Q).
Variable cf : cfg.
Variable a : ha.
Hypothesis WH : wf_ha a.
Hypothesis Hinp : forall m, m < List.length (ha_modes a) -> m_b (get_mode a m) <> None -> m_inv (get_mode a m) = [].
Variable init : nat -> vec -> Prop.

Definition rb (B : nat) : rules := mkRules (cf_urgent cf) B (fun _ => false) false.
Definition reachU (m : nat) (p : vec) (k n : nat) : Prop := exists B, reach tol13 (rb B) (drop_inv a) init m p k n.
Definition errorU : Prop := exists B, error_reachable tol13 (rb B) (drop_inv a) init.

Lemma get_drop m : m < List.length (ha_modes a) -> get_mode (drop_inv a) m = drop_mode (get_mode a m).
Proof. intro H. unfold get_mode, drop_inv. cbn [ha_modes]. rewrite (nth_indep _ _ (drop_mode dmode)) by (rewrite map_length; exact H). apply map_nth. Qed.
Lemma inv_dropm m p : m < List.length (ha_modes a) -> inv_ok tol13 (get_mode (drop_inv a) m) p.
Proof. intro H. rewrite get_drop by auto. apply inv_drop. Qed.
Lemma reach_more B B' m p k n : B <= B' -> reach tol13 (rb B) (drop_inv a) init m p k n -> reach tol13 (rb B') (drop_inv a) init m p k n.
Proof.
  intros HB. induction 1 as [m p Hi Hv|m p k n u p' H IH Hv Hn Hc Hu Ho|t p p' k n Ht H IH Hg Hj Hr].
  - apply R_init; auto.
  - apply R_step with p u; auto. cbn [rb ru_bound] in *. lia.
  - apply R_jump with p k; auto.
Qed.
Lemma reachU_flow m k n (P : vec -> Prop) : m < List.length (ha_modes a) -> (forall p q, P p -> veq (m_dims (get_mode a m)) p q -> P q) -> (forall p, P p -> reachU m p k n) ->
  forall j p p', P p -> flow (get_mode a m) j p p' -> reachU m p' (k + j) (n + j).
Proof.
  intros Hm HE HP. induction j as [|j IH]; intros p p' Hp Hf; cbn [flow] in Hf.
  - rewrite !Nat.add_0_r. apply HP. apply (HE p); auto.
  - destruct Hf as (q & u & Hf & Hu & Ho). destruct (IH p q Hp Hf) as (B & HR). exists (S (B + n + j)). rewrite !Nat.add_succ_r. apply R_step with q u.
    + apply (reach_more B); [lia|exact HR].
    + apply inv_dropm; exact Hm.
    + cbn [rb ru_bound]. lia.
    + discriminate.
    + rewrite get_drop by exact Hm. exact Hu.
    + rewrite get_drop by exact Hm. exact Ho.
Qed.

Definition cgood (s : sset) : Prop := ss_conc s = true -> is_error (get_mode a (ss_mode s)) = false ->
  (exists x, st_ok solve a s x) /\ ss_lo s = ss_hi s /\ forall p, in_lp (ss_lpi s) p -> reachU (ss_mode s) p (ss_step s) (ss_lo s).

Lemma st_obj s x o : st_ok solve a s x -> st_ok solve a (ss_with_lpi s (with_obj (ss_lpi s) o)) x.
Proof.
  intro S0. assert (G : good_state solve a (ss_with_lpi s (with_obj (ss_lpi s) o))) by (apply good_obj; eapply st_good; eauto).
  destruct G as (_ & _ & _ & G4). cbn [ss_with_lpi ss_mode] in G4.
  destruct G4 as (x' & S').
  { unfold is_error. rewrite (st_a _ _ _ _ S0). reflexivity. }
  assert (E : x' = x). { pose proof (st_a _ _ _ _ S') as K. cbn [ss_with_lpi ss_mode] in K. rewrite (st_a _ _ _ _ S0) in K. congruence. }
  rewrite <- E. exact S'.
Qed.
Lemma cg_obj s o : cgood s -> cgood (ss_with_lpi s (with_obj (ss_lpi s) o)).
Proof.
  intros H Hc He. destruct (H Hc He) as ((x & S0) & E & K). split; [exists x; apply st_obj; exact S0|]. split; [exact E|]. intros p Hp. apply K. revert Hp. apply in_lp_with_obj.
Qed.
Lemma cg_inv s s1 ops ok : cgood s -> intersect_invariant solve a s = Ok (s1, ops, ok) -> cgood s1.
Proof.
  intros G H Hc He. assert (F := H). unfold intersect_invariant in F. apply f2_inv in F as [F1 F2]. rewrite F1 in He. rewrite F2 in Hc. destruct (G Hc He) as ((x & S0) & E & K).
  destruct (intersect_invariant_ok solve Hsolve a s x s1 ops ok WH S0 H) as (S1 & SF & K1 & _). destruct SF as (Q1 & Q2 & Q3 & Q4 & Q5 & _).
  split; [eauto|]. split; [congruence|]. intros p Hp. rewrite Q1, Q2, Q3. apply K. apply K1. exact Hp.
Qed.
Lemma cg_cond s i lc s1 o st : cgood s -> nth_error (m_inv (get_mode a (ss_mode s))) i = Some lc -> inv_cond solve s i lc = Ok (s1, o, st) -> cgood s1.
Proof.
  intros G Hn H Hc He. assert (F := H). apply f2_cond in F as [F1 F2]. rewrite F1 in He. rewrite F2 in Hc. destruct (G Hc He) as ((x & S0) & E & K).
  destruct (inv_cond_ok solve Hsolve a s x i lc s1 o st WH S0 Hn H) as (S1 & SF & K1). destruct SF as (Q1 & Q2 & Q3 & Q4 & Q5 & _).
  split; [eauto|]. split; [congruence|]. intros p Hp. rewrite Q1, Q2, Q3. apply K. destruct o as [[|]|].
  - apply K1 in Hp. apply Hp.
  - destruct K1 as ((ob & Eo) & _). rewrite Eo in Hp. revert Hp. apply in_lp_with_obj.
  - destruct K1 as ((ob & Eo) & _). rewrite Eo in Hp. revert Hp. apply in_lp_with_obj.
Qed.
Lemma cg_step s k s1 : cgood s -> ss_step_to a s k = Ok s1 -> cgood s1.
Proof.
  intros G H Hc He. assert (F := f2_step _ _ _ _ H). destruct F as [F1 F2]. rewrite F1 in He. rewrite F2 in Hc. destruct (G Hc He) as ((x & S0) & E & K).
  destruct (step_to_ok solve Hsolve a s x k s1 WH S0 H) as (S1 & Q1 & Q2 & Q3 & Q4 & Q5 & Q6 & _ & _ & _ & Q7).
  assert (Hfc : m_b (get_mode a (ss_mode s)) = None \/ forall j, ~ In (Some j) (ss_rows s)).
  { destruct (m_b (get_mode a (ss_mode s))) as [b|] eqn:Eb; [right|left; auto]. intros j Hj.
    pose proof (st_rows _ _ _ _ S0) as Hl. rewrite Hinp in Hl; [|apply (st_mode _ _ _ _ S0)|congruence]. destruct (ss_rows s); [destruct Hj|discriminate]. }
  specialize (Q7 Hfc). split; [eauto|]. split; [congruence|]. intros p' Hp'. apply Q7 in Hp' as (p & Hp & Hf). rewrite Q2, Q3, Q4.
  replace k with (ss_step s + (k - ss_step s)) at 1 by lia.
  apply (reachU_flow (ss_mode s) (ss_step s) (ss_lo s) (in_lp (ss_lpi s)) (st_mode _ _ _ _ S0)) with p; auto.
  intros q r Hq Hv. eapply in_lp_ext; [|exact Hq]. rewrite (st_dims _ _ _ _ S0). unfold m_dims in Hv. rewrite (st_a _ _ _ _ S0) in Hv. exact Hv.
Qed.

(** ** the heap of states *)
Definition allc (c : core) : Prop := forall i, cgood (getS c i).
Lemma allc_same c c' : c_states c' = c_states c -> allc c -> allc c'.
Proof. intros E H i. unfold getS. rewrite E. apply H. Qed.
Lemma allc_set c i s : allc c -> cgood s -> allc (setS c i s).
Proof.
  intros H Hs j. destruct (Nat.eq_dec j i) as [->|Hne]; [|rewrite getS_set_ne by auto; apply H]. destruct (lt_dec i (nS c)) as [Hl|Hl]; [rewrite getS_set_eq by auto; exact Hs|].
  unfold getS. ccbn. rewrite nth_upd. destruct (Nat.ltb_spec i (nS c)); [lia|]. rewrite andb_false_r. apply H.
Qed.
Lemma allc_add c s : allc c -> cgood s -> allc (with_states c (c_states c ++ [s])).
Proof. intros H Hs j. rewrite getS_add. destruct (j =? nS c); [exact Hs|apply H]. Qed.
Lemma allc_push_ops n xs : forall c, allc c -> allc (push_ops c n xs).
Proof. unfold push_ops. induction xs as [|x xs IH]; intros c H; cbn [fold_left]; [exact H|]. apply IH. apply (allc_same c); auto. Qed.

(** ** aggregation changes only objectives *)
Lemma set_min_dir_obj l d l' : set_min_dir l d = Ok l' -> exists o, l' = with_obj l o.
Proof. unfold set_min_dir. intro H. repeat (apply bind_ok in H as (? & _ & H)). apply ok_inj in H. subst l'. eexists; reflexivity. Qed.

Definition objs (ls ls' : list lp) : Prop := Forall2 (fun l l' => exists o, l' = with_obj l o) ls ls'.
Lemma objs_refl ls : objs ls ls.
Proof. induction ls as [|l ls IH]; constructor; auto. exists (l_obj l). destruct l; reflexivity. Qed.
Lemma objs_trans l1 : forall l2 l3, objs l1 l2 -> objs l2 l3 -> objs l1 l3.
Proof.
  induction l1 as [|x l1 IH]; intros l2 l3 H1 H2; inversion H1 as [|? y ? l2' (o & Eo) H1']; subst; inversion H2 as [|? z ? l3' (o' & Eo') H2']; subst; constructor.
  - exists o'. apply with_obj_twice.
  - apply (IH l2'); auto.
Qed.
Lemma agg_dir_objs d w : forall ls mx mn r, agg_dir solve ls w d mx mn = Ok r -> objs ls (fst (fst r)).
Proof.
  induction ls as [|l ls IH]; intros mx mn r H; cbn [agg_dir] in H; [apply ok_inj in H; subst r; constructor|].
  apply bind_ok in H as (u & _ & H). apply bind_ok in H as (l1 & H1 & H). apply bind_ok in H as (v1 & _ & H). apply bind_ok in H as (l2 & H2 & H). apply bind_ok in H as (v2 & _ & H).
  destruct v1 as [v1|]; [|discriminate]. destruct v2 as [v2|]; [|discriminate]. apply bind_ok in H as ([[ls2 x] y] & H3 & H). apply ok_inj in H. subst r. cbn [fst]. apply IH in H3. constructor; [|exact H3].
  apply set_min_dir_obj in H1 as (o1 & ->). apply set_min_dir_obj in H2 as (o2 & ->). exists o2. apply with_obj_twice.
Qed.
Lemma agg_dirs_objs w dirs : forall ls r, agg_dirs solve ls w dirs = Ok r -> objs ls (fst (fst r)).
Proof.
  induction dirs as [|d dirs IH]; intros ls r H; cbn [agg_dirs] in H; [apply ok_inj in H; subst r; apply objs_refl|]. destruct (dir_used d); [|apply IH; exact H].
  apply bind_ok in H as ([[ls1 mx] mn] & H1 & H). destruct mx as [x|]; [|discriminate]. destruct mn as [y|]; [|discriminate]. apply bind_ok in H as ([[ls2 rows] rhs] & H2 & H). apply ok_inj in H. subst r. cbn [fst].
  apply agg_dir_objs in H1. apply IH in H2. eapply objs_trans; eauto.
Qed.
Lemma objs_put c sids ls : objs (map ss_lpi (map (getS c) sids)) ls -> Forall2 (fun i l => exists o, l = with_obj (ss_lpi (getS c i)) o) sids ls.
Proof. revert ls. induction sids as [|i sids IH]; intros ls H; cbn [map] in H; inversion H; subst; constructor; auto. Qed.

Lemma allc_agg c ops agg c1 s : allc c -> aggregate_states solve arnoldi a c ops agg = Ok (c1, s) -> allc c1 /\ ss_conc s = false.
Proof.
  intros H K. unfold aggregate_states in K. destruct agg as [[kd g]|]; [|discriminate].
  assert (P : forall sids ls, objs (map ss_lpi (map (getS c) sids)) ls -> allc (put_lps c sids ls)).
  { intros sids ls Ho i. destruct (put_lps_obj sids c ls (objs_put c sids ls Ho) i) as [->|(o & ->)]; [apply H|apply cg_obj; apply H]. }
  assert (Q : forall m x sids, (do dirs <- agg_dir_mat arnoldi a c kd g (c_nr x) (nth (Nat.div (List.length ops) 2) ops 0);
          do r <- aggregate solve (map ss_lpi (map (getS c) sids)) dirs (c_nr x) m (has_inputs (get_mode a m));
          do s <- new_stateset a (snd r) m (minl (map ss_lo (map (getS c) sids))) (maxl (map ss_hi (map (getS c) sids))) (Some ops) false;
          Ok (put_lps c sids (fst r), s)) = Ok (c1, s) -> allc c1 /\ ss_conc s = false).
  { intros m x sids Hq. apply bind_ok in Hq as (dirs & _ & Hq). apply bind_ok in Hq as (r & Hr & Hq). apply bind_ok in Hq as (s' & Hs & Hq). apply ok_inj in Hq. injection Hq as <- <-.
    apply new_stateset_mode in Hs as (_ & _ & _ & _ & _ & Hs & _). split; [|exact Hs]. apply P. unfold aggregate in Hr. apply bind_ok in Hr as (? & _ & Hr). apply bind_ok in Hr as (? & _ & Hr). apply bind_ok in Hr as (? & _ & Hr).
    apply bind_ok in Hr as ([[ls' rows] rhs] & Hd & Hr). apply bind_ok in Hr as (l & _ & Hr). apply ok_inj in Hr. subst r. cbn [fst]. apply agg_dirs_objs in Hd. exact Hd. }
  destruct kd.
  - destruct (m_a _) as [x|] in K; [|discriminate]. exact (Q _ _ _ K).
  - destruct (m_a _) as [x|] in K; [|discriminate]. exact (Q _ _ _ K).
  - apply bind_ok in K as (l & _ & K). apply bind_ok in K as (s' & Hs & K). apply ok_inj in K. injection K as <- <-. apply new_stateset_mode in Hs as (_ & _ & _ & _ & _ & Hs & _). auto.
Qed.
Lemma cg_nonconc s : ss_conc s = false -> cgood s.
Proof. intros E H. congruence. Qed.
Lemma cg_agg s g : cgood s -> cgood (mkSset (ss_mode s) (ss_lpi s) (ss_step s) (ss_lo s) (ss_hi s) (ss_conc s) (ss_ops s) (ss_rows s) (ss_bm s) (ss_ies s) g).
Proof.
  intros H Hc He. cbn [ss_conc ss_mode] in Hc, He. destruct (H Hc He) as ((x & [S1 S2 S3 S4 S5 S6 S7 S8]) & E & K). split; [exists x; constructor; assumption|]. split; [exact E|exact K].
Qed.
Lemma allc_make_node c ops agg str c1 n : allc c -> make_node solve arnoldi a c ops agg str = Ok (c1, n) -> allc c1.
Proof.
  intros H K. unfold make_node in K. apply bind_ok in K as ([c2 sid] & H1 & K). apply ok_inj in K.
  assert (A2 : allc c2).
  { assert (Q : forall os, (do r <- aggregate_states solve arnoldi a c os agg; let '(c3, s) := r in Ok (with_states c3 (c_states c3 ++ [s]), List.length (c_states c3))) = Ok (c2, sid) -> allc c2).
    { intros os Hq. apply bind_ok in Hq as ([c3 s] & Hq1 & Hq). apply ok_inj in Hq. injection Hq as <- _. apply allc_agg in Hq1 as [Q1 Q2]; auto. apply allc_add; [exact Q1|apply cg_nonconc; exact Q2]. }
    destruct ops as [|o [|o2 ops]]; [exact (Q _ H1)| |exact (Q _ H1)]. apply ok_inj in H1. injection H1 as <- _. exact H. }
  match type of K with context [setS c2 sid ?s] => assert (A3 : allc (setS c2 sid s)) by (apply allc_set; [exact A2|apply cg_agg; apply A2]); set (c3 := setS c2 sid s) in * end.
  assert (E : c_states c1 = c_states c3).
  { pose proof (set_childs_spec ops (nN c3) c3) as T. cbn zeta in T. destruct T as (T & _). destruct (existsb _ _) in K; injection K as <- _; ccbn; exact T. }
  exact (allc_same c3 c1 E A3).
Qed.

(** ** transitions *)
Definition jump_now (k : nat) : Prop := 0 < k \/ cf_urgent cf = true.
Definition pre_ok (s : sset) (t : nat) (l : lp) : Prop := ss_conc s = true ->
  api solve l None /\ l_dims l = m_dims (get_mode a (t_from (get_trans a t))) /\ (exists p, in_lp l p) /\ forall p, in_lp l p -> in_lp (ss_lpi s) p /\ guard_ok (get_trans a t) p.
Lemma guard_step s t l1 ol : cgood s -> t < List.length (ha_trans a) -> t_from (get_trans a t) = ss_mode s -> get_guard_intersection solve (get_trans a t) (ss_lpi s) = Ok (l1, ol) ->
  cgood (ss_with_lpi s l1) /\ forall tl, ol = Some tl -> pre_ok (ss_with_lpi s l1) t tl.
Proof.
  intros G Ht Hf H. destruct (ss_conc s) eqn:Ec.
  2:{ split; [apply cg_nonconc; exact Ec|]. intros tl _ K. cbn in K. congruence. }
  assert (He : is_error (get_mode a (ss_mode s)) = false) by (rewrite <- Hf; apply (wft_from _ _ (proj2 WH t Ht))).
  destruct (G Ec He) as ((x & S0) & _ & _). destruct (st_api _ _ _ _ S0) as (js & Hap & _).
  assert (Hdm : l_dims (ss_lpi s) = m_dims (get_mode a (t_from (get_trans a t)))) by (rewrite Hf, (st_dims _ _ _ _ S0); unfold m_dims; rewrite (st_a _ _ _ _ S0); reflexivity).
  assert (Hw : guard_wf a (get_trans a t)) by (destruct (wft_guard _ _ (proj2 WH t Ht)) as (g & rhs & K); exists g, rhs; exact K).
  destruct (guard_intersection_ok solve Hsolve a _ _ _ l1 ol Hw Hdm Hap H) as ((ob & ->) & Ho). split; [apply cg_obj; exact G|]. intros tl -> _. destruct Ho as (P1 & P2 & P3 & P4).
  split; [exact P1|]. split; [congruence|]. split; [exact P4|]. intros p Hp. apply P3 in Hp as [Hp1 Hp2]. split; [|exact Hp2]. cbn [ss_with_lpi ss_lpi]. apply in_lp_with_obj. exact Hp1.
Qed.
Lemma jump_drop m p k : m < List.length (ha_modes a) -> jump_now k -> forall B, may_jump tol13 (rb B) (get_mode (drop_inv a) m) p k.
Proof. intros Hm [J|J] B; (split; [|discriminate]); [left; exact J|right]. split; [exact J|apply inv_dropm; exact Hm]. Qed.
Lemma t_from_lt t : t < List.length (ha_trans a) -> t_from (get_trans a t) < List.length (ha_modes a) /\ is_error (get_mode a (t_from (get_trans a t))) = false.
Proof. intro H. apply (wft_from _ _ (proj2 WH t H)). Qed.
Lemma cg_jump s t s' : cgood s -> t < List.length (ha_trans a) -> t_from (get_trans a t) = ss_mode s -> jump_now (ss_step s) ->
  ss_conc s = true -> (forall p, in_lp (ss_lpi s') p -> exists q, in_lp (ss_lpi s) q /\ guard_ok (get_trans a t) q /\ reset_ok a (get_trans a t) q p) ->
  forall p, in_lp (ss_lpi s') p -> reachU (t_to (get_trans a t)) p 0 (ss_lo s).
Proof.
  intros G Ht Hf HJ Hc Hsub p Hp. destruct (Hsub p Hp) as (q & Hq & Hg & Hr). destruct (t_from_lt t Ht) as [T1 T2].
  destruct (G Hc) as (_ & _ & K); [rewrite <- Hf; exact T2|]. destruct (K q Hq) as (B & HR). exists B. change (get_trans a t) with (get_trans (drop_inv a) t). apply R_jump with q (ss_step s).
  - exact Ht.
  - change (get_trans (drop_inv a) t) with (get_trans a t). rewrite Hf. exact HR.
  - exact Hg.
  - apply jump_drop; [exact T1|exact HJ].
  - change (get_trans (drop_inv a) t) with (get_trans a t). unfold reset_ok, post_dims in *. rewrite get_drop by exact T1. exact Hr.
Qed.
Lemma err_jump s t l : cgood s -> t < List.length (ha_trans a) -> t_from (get_trans a t) = ss_mode s -> jump_now (ss_step s) -> is_error (get_mode a (t_to (get_trans a t))) = true ->
  ss_conc s = true -> pre_ok s t l -> errorU.
Proof.
  intros G Ht Hf HJ He Hc Hp. destruct (t_from_lt t Ht) as [T1 T2]. destruct (G Hc) as (_ & _ & K); [rewrite <- Hf; exact T2|]. destruct (Hp Hc) as (_ & _ & (p & Hp1) & Hp2). destruct (Hp2 p Hp1) as [Hp3 Hp4].
  destruct (K p Hp3) as (B & HR). exists B, t, p, (ss_step s), (ss_lo s). change (get_trans (drop_inv a) t) with (get_trans a t). split; [exact Ht|].
  split; [rewrite get_drop by (apply (wft_to _ _ (proj2 WH t Ht))); exact He|]. split; [rewrite Hf; exact HR|]. split; [exact Hp4|]. apply jump_drop; auto.
Qed.

(** what is known about the operations *)
Definition op_ok (c : core) (x : op) : Prop := forall t M, o_trans x = Some t -> o_parent x = Some M ->
  t < List.length (ha_trans a) /\ t_from (get_trans a t) = nodemode c M /\ jump_now (o_step x).
Definition oi (c : core) : Prop := forall o, o < nO c -> op_ok c (getO c o).
Lemma nodemode_ext mp c c' n : dag cf a mp c -> ext c c' -> n < nN c -> nodemode c' n = nodemode c n.
Proof. intros D E Hn. unfold nodemode. destruct (ex_node _ _ E n Hn) as [-> _]. apply (ex_mode _ _ E). apply (d_parents _ _ _ _ D n Hn). Qed.
Lemma nm_eq mp c c' k p : dag cf a mp c -> ext c c' -> k < nN c -> p < nN c -> nodemode c k = nodemode c p -> nodemode c' k = nodemode c' p.
Proof. intros D E Hk Hp H. rewrite (nodemode_ext mp c c' k), (nodemode_ext mp c c' p) by auto. exact H. Qed.
Lemma op_ok_ext mp c c' o : dag cf a mp c -> ext c c' -> o < nO c -> op_ok c (getO c o) -> op_ok c' (getO c' o).
Proof.
  intros D E Ho H t M Ht HM. destruct (ex_op _ _ E o Ho) as (E1 & E2 & E3 & _). rewrite E3 in Ht. rewrite E2 in HM. destruct (H t M Ht HM) as (K1 & K2 & K3).
  split; [exact K1|]. rewrite E1. split; [|exact K3]. rewrite K2. symmetry. apply (nodemode_ext mp); auto. apply (d_par _ _ _ _ D o M Ho HM).
Qed.
Lemma oi_ext mp c c' : dag cf a mp c -> ext c c' -> nO c' = nO c -> oi c -> oi c'.
Proof. intros D E EO H o Ho. rewrite EO in Ho. apply (op_ok_ext mp c); auto. Qed.

Record gd (mp : list ((nat * nat) * list nat)) (c : core) : Prop := {
  gd_dag : dag cf a mp c; gd_c : allc c; gd_o : oi c; gd_err : c_concerr c = true -> errorU }.

Lemma gd_k mp c c' : gd mp c -> keeps c c' -> allc c' -> (c_concerr c' = true -> errorU) -> gd mp c'.
Proof.
  intros [D A O0 E] K H He. constructor; auto; [eapply dag_k; eauto|]. apply (oi_ext mp c); auto; [apply K|]. rewrite (k_ops _ _ K). reflexivity.
Qed.
Lemma gd_set mp c i s : gd mp c -> frame2 (getS c i) s -> cgood s -> gd mp (setS c i s).
Proof. intros G F H. apply (gd_k mp c); auto; [apply keeps_set; exact F|apply allc_set; [apply G|exact H]|apply G]. Qed.
Lemma gd_push mp c n x : gd mp c -> (forall o, x <> NTr o) -> gd mp (push_op c n x).
Proof.
  intros [D A O0 E] Hx. constructor; [apply dag_push; auto|exact A| |exact E]. apply (oi_ext mp c); auto. apply ext_push.
Qed.
Lemma gd_push_ops mp n xs : forall c, gd mp c -> (forall o, ~ In (NTr o) xs) -> gd mp (push_ops c n xs).
Proof.
  unfold push_ops. induction xs as [|x xs IH]; intros c D Hx; [exact D|]. cbn [fold_left]. apply IH; [apply gd_push; [exact D|]|].
  - intros o ->. apply (Hx o). left. reflexivity.
  - intros o Ho. apply (Hx o). right. exact Ho.
Qed.
(** anything that does not touch states, operations, nodes, roots and only shrinks the waiting list *)
Lemma gd_same mp c c' : gd mp c -> c_states c' = c_states c -> c_ops c' = c_ops c -> c_nodes c' = c_nodes c -> c_roots c' = c_roots c -> c_concerr c' = c_concerr c ->
  NoDup (c_wait c') -> (forall o, In o (c_wait c') -> In o (c_wait c)) -> gd mp c'.
Proof.
  intros [D A O0 E] E1 E2 E3 E4 E5 W1 W2. constructor; [apply (dag_wait cf a mp c); auto|apply (allc_same c); auto| |rewrite E5; exact E].
  apply (oi_ext mp c); auto; [apply ext_same; auto|]. rewrite E2. reflexivity.
Qed.

Lemma nodemode_push c n x m : nodemode (push_op c n x) m = nodemode c m.
Proof. unfold nodemode. rewrite n_state_push. reflexivity. Qed.
Lemma oi_push c n x : oi c -> oi (push_op c n x).
Proof. intros H o Ho t M Ht HM. rewrite nodemode_push. exact (H o Ho t M Ht HM). Qed.

Lemma make_op_comp mp c t l nid c' r : gd mp c -> nid < nN c -> t < List.length (ha_trans a) -> t_from (get_trans a t) = nodemode c nid ->
  jump_now (ss_step (getS c (n_state (getN c nid)))) -> pre_ok (getS c (n_state (getN c nid))) t l ->
  make_op_transition solve cf a c t l (n_state (getN c nid)) nid = Ok (c', r) -> allc c' /\ oi c' /\ c_concerr c' = c_concerr c.
Proof.
  intros G Hn Ht Hf HJ Hp H. set (sid := n_state (getN c nid)) in *. pose proof (gd_c _ _ G) as A. pose proof (gd_dag _ _ G) as D.
  assert (EX := ext_make_op _ _ _ _ _ _ _ _ _ _ H).
  destruct (make_op_ptr _ _ _ _ _ _ _ _ _ _ H) as [[-> ->]|[-> (s & ctr & Em & El & Eh & E)]]; [split; [exact A|split; [apply G|reflexivity]]|].
  assert (Hs : cgood s).
  { assert (Es : s = getS c' (nS c)) by (rewrite E; unfold getS; ccbn; rewrite nth_snoc, Nat.eqb_refl; reflexivity).
    destruct (ss_conc (getS c sid)) eqn:Ec.
    - destruct (Hp Ec) as (P1 & P2 & P3 & P4). destruct (make_op_ok solve Hsolve cf a WH c t l sid nid c' _ Ht P1 P2 P3 H) as (s' & ctr' & _ & E' & Q1 & Q2 & Q3 & Q4 & Q5 & _ & Qg & _ & _ & Qi & _).
      assert (Es' : s' = s) by (rewrite Es, E'; unfold getS; ccbn; rewrite nth_snoc, Nat.eqb_refl; reflexivity). subst s'.
      intros _ He. destruct (t_from_lt t Ht) as [T1 T2]. destruct (A sid Ec) as (_ & Elh & _); [change (is_error (get_mode a (nodemode c nid)) = false); rewrite <- Hf; exact T2|].
      split; [apply Qg; exact He|]. split; [congruence|]. rewrite Q1, Q2, Q3. apply (cg_jump (getS c sid) t s); auto. intros p Hpi. apply Qi in Hpi as (q & Hq & Hr). destruct (P4 q Hq) as [K1 K2]. eauto.
    - apply cg_nonconc. assert (K : ss_conc s = ss_conc (getS c sid)); [|congruence].
      unfold make_op_transition in H. apply bind_ok in H as (p & _ & H). destruct p as [[l1 ctr']|]; [|apply ok_inj in H; injection H as _ H; discriminate].
      apply bind_ok in H as (l2 & _ & H). apply bind_ok in H as (f & _ & H). apply bind_ok in H as (u & _ & H). apply bind_ok in H as (s' & Hs & H). apply ok_inj in H. injection H as H.
      assert (Es' : s' = s) by (rewrite Es, <- H; unfold getS; ccbn; rewrite nth_snoc, Nat.eqb_refl; reflexivity). subst s'. apply new_stateset_mode in Hs as (_ & _ & _ & _ & _ & Hs & _). exact Hs. }
  split; [|split].
  - rewrite E. exact (allc_add c s A Hs).
  - assert (HO : nO c' = S (nO c)) by (rewrite E; ccbn; rewrite app_length; cbn; lia).
    intros o Ho. destruct (Nat.eq_dec o (nO c)) as [->|Hne]; [|apply (op_ok_ext mp c); auto; [lia|apply (gd_o _ _ G); lia]].
    assert (Go : getO c' (nO c) = mkOp (ss_step (getS c sid)) (Some nid) None (Some t) (nS c) ctr) by (rewrite E; unfold getO; ccbn; rewrite nth_snoc, Nat.eqb_refl; reflexivity).
    rewrite Go. intros t' M Et EM. cbn [o_trans o_parent o_step] in *. injection Et as <-. injection EM as <-. split; [exact Ht|]. split; [|exact HJ]. rewrite (nodemode_ext mp c) by auto. exact Hf.
  - rewrite E. reflexivity.
Qed.

Lemma gd_add mp c t l nid c' : gd mp c -> nid < nN c -> t < List.length (ha_trans a) -> t_from (get_trans a t) = nodemode c nid ->
  jump_now (ss_step (getS c (n_state (getN c nid)))) -> pre_ok (getS c (n_state (getN c nid))) t l ->
  add_transition_successor solve cf a c t l (n_state (getN c nid)) nid = Ok c' -> gd mp c'.
Proof.
  intros G Hn Ht Hf HJ Hp H. destruct (dag_add _ _ _ _ _ _ _ _ _ _ (gd_dag _ _ G) Hn H) as [D' _]. unfold add_transition_successor in H. apply bind_ok in H as ([c1 o] & H1 & H).
  destruct (make_op_comp mp c t l nid c1 o G Hn Ht Hf HJ Hp H1) as (A1 & O1 & E1). destruct o as [o|]; apply ok_inj in H; subst c'; (constructor; [exact D'| | |]).
  - exact A1.
  - exact (oi_push c1 nid (NTr o) O1).
  - change (c_concerr c1 = true -> errorU). rewrite E1. apply G.
  - exact A1.
  - exact O1.
  - rewrite E1. apply G.
Qed.

(** error_reached and the guard *)
Lemma gd_lpi mp c i l : gd mp c -> cgood (ss_with_lpi (getS c i) l) -> gd mp (setS c i (ss_with_lpi (getS c i) l)).
Proof. intros G H. apply gd_set; auto. split; reflexivity. Qed.
Lemma gd_error mp c t l nid c' : gd mp c -> t < List.length (ha_trans a) -> t_from (get_trans a t) = nodemode c nid ->
  jump_now (ss_step (getS c (n_state (getN c nid)))) -> pre_ok (getS c (n_state (getN c nid))) t l ->
  (if is_error (get_mode a (t_to (get_trans a t))) then error_reached solve cf a c (n_state (getN c nid)) t l else Ok c) = Ok c' ->
  gd mp c' /\ exists ag co ce, c' = with_flags c ag co ce.
Proof.
  intros G Ht Hf HJ Hp H. destruct (is_error _) eqn:Ee in H.
  - apply error_reached_ok in H as (ag & co & ce & -> & _ & _ & B1 & B2 & _). split; [|eauto]. apply (gd_k mp c); [exact G|apply keeps_flags|exact (gd_c _ _ G)|].
    change (co = true -> errorU). intro Hco. destruct (ss_conc (getS c (n_state (getN c nid)))) eqn:Ec.
    + apply (err_jump (getS c (n_state (getN c nid))) t l); auto. apply (gd_c _ _ G).
    + destruct (B2 eq_refl) as (_ & E & _). apply (gd_err _ _ G). congruence.
  - apply ok_inj in H. subst c'. split; [exact G|]. exists (c_aggerr c), (c_concerr c), (c_cex c). destruct c; reflexivity.
Qed.

(** the state of a node *)
Definition stn (c : core) (n : nat) : sset := getS c (n_state (getN c n)).
Lemma stn_lt mp c n : dag cf a mp c -> n < nN c -> n_state (getN c n) < nS c.
Proof. intros D H. apply (d_parents _ _ _ _ D n H). Qed.
Lemma stn_add mp c t l nid c' : dag cf a mp c -> nid < nN c -> add_transition_successor solve cf a c t l (n_state (getN c nid)) nid = Ok c' -> stn c' nid = stn c nid /\ n_state (getN c' nid) = n_state (getN c nid).
Proof.
  intros D Hn H. pose proof (stn_lt mp c nid D Hn) as Hl. unfold add_transition_successor in H. apply bind_ok in H as ([c1 o] & H1 & H).
  destruct (make_op_ptr _ _ _ _ _ _ _ _ _ _ H1) as [[-> ->]|[-> (s & ctr & _ & _ & _ & ->)]]; apply ok_inj in H; subst c'; [auto|].
  assert (En : n_state (getN (push_op (with_ops (with_states c (c_states c ++ [s])) (c_ops c ++ [mkOp (ss_step (getS c (n_state (getN c nid)))) (Some nid) None (Some t) (nS c) ctr])) nid (NTr (nO c))) nid) = n_state (getN c nid)).
  { rewrite n_state_push. reflexivity. }
  split; [|exact En]. unfold stn. match goal with |- getS ?x (n_state (getN ?y nid)) = _ => replace (n_state (getN y nid)) with (n_state (getN c nid)) by (symmetry; exact En) end.
  unfold getS. ccbn. rewrite nth_snoc. destruct (Nat.eqb_spec (n_state (getN c nid)) (nS c)); [lia|reflexivity].
Qed.

Lemma gd_guards mp nid ts : forall c c', gd mp c -> nid < nN c -> (forall t, In t ts -> t < List.length (ha_trans a) /\ t_from (get_trans a t) = nodemode c nid) -> jump_now (ss_step (stn c nid)) ->
  check_guards_loop solve cf a c nid (n_state (getN c nid)) ts = Ok c' -> gd mp c'.
Proof.
  induction ts as [|t ts IH]; intros c c' G Hn Hts HJ H; cbn [check_guards_loop] in H; [apply ok_inj in H; subst; exact G|].
  apply bind_ok in H as ([l1 ol] & Hg & H). cbn [fst snd] in H. destruct (Hts t (or_introl eq_refl)) as [Ht Hf]. pose proof (stn_lt mp c nid (gd_dag _ _ G) Hn) as Hl.
  destruct (guard_step (stn c nid) t l1 ol (gd_c _ _ G _) Ht Hf Hg) as [C1 P1]. fold (stn c nid) in H.
  set (c1 := setS c (n_state (getN c nid)) (ss_with_lpi (stn c nid) l1)) in *.
  assert (G1 : gd mp c1) by (apply gd_lpi; [exact G|exact C1]).
  assert (S1 : stn c1 nid = ss_with_lpi (stn c nid) l1) by (unfold stn, c1; rewrite getN_setS, getS_set_eq by auto; reflexivity).
  assert (M1 : nodemode c1 nid = nodemode c nid) by (change (ss_mode (stn c1 nid) = nodemode c nid); rewrite S1; reflexivity).
  assert (J1 : jump_now (ss_step (stn c1 nid))) by (rewrite S1; exact HJ).
  assert (Hts1 : forall t, In t ts -> t < List.length (ha_trans a) /\ t_from (get_trans a t) = nodemode c1 nid) by (intros t0 K; rewrite M1; apply Hts; right; exact K).
  assert (N1 : nid < nN c1) by exact Hn. change (n_state (getN c nid)) with (n_state (getN c1 nid)) in H.
  destruct ol as [l|]; [|exact (IH c1 c' G1 N1 Hts1 J1 H)].
  apply bind_ok in H as (c2 & H2 & H). rewrite <- M1 in Hf.
  assert (P1' : pre_ok (stn c1 nid) t l) by (rewrite S1; apply P1; reflexivity).
  destruct (gd_error mp c1 t l nid c2 G1 Ht Hf J1 P1' H2) as (G2 & ag & co & ce & ->). set (c2 := with_flags c1 ag co ce) in *.
  destruct (_ && _) in H; [apply ok_inj in H; subst c'; exact G2|]. apply bind_ok in H as (c3 & H3 & H). apply bind_ok in H as (c4 & H4 & H).
  change (n_state (getN c1 nid)) with (n_state (getN c2 nid)) in H3, H4, H.
  assert (G3 : gd mp c3) by (apply (gd_add mp c2 t l nid); auto).
  destruct (stn_add mp c2 t l nid c3 (gd_dag _ _ G2) N1 H3) as [S3 E3]. rewrite <- E3 in H4, H.
  assert (N3 : nid < nN c3) by (destruct (dag_add _ _ _ _ _ _ _ _ _ _ (gd_dag _ _ G2) N1 H3) as [_ P]; rewrite (pf_nN _ _ P); exact N1).
  assert (K4 : gd mp c4 /\ n_state (getN c4 nid) = n_state (getN c3 nid) /\ nN c4 = nN c3 /\ ss_step (stn c4 nid) = ss_step (stn c3 nid) /\ nodemode c4 nid = nodemode c3 nid).
  { destruct (_ && _) in H4; [|apply ok_inj in H4; subst; auto]. apply bind_ok in H4 as ([l5 b] & Hw & H4). cbn [fst snd] in H4.
    destruct (was_tt_taken_ok solve Hsolve a _ _ _ _ _ _ WH (proj2 WH t Ht) Hw) as ((o5 & ->) & _). set (c5 := setS c3 _ _) in H4. apply ok_inj in H4.
    assert (G5 : gd mp c5) by (apply gd_lpi; [exact G3|apply cg_obj; apply (gd_c _ _ G3)]).
    assert (S5 : stn c5 nid = ss_with_lpi (stn c3 nid) (with_obj (ss_lpi (stn c3 nid)) o5)) by (unfold stn, c5; rewrite getN_setS, getS_set_eq by (apply (stn_lt mp c3 nid (gd_dag _ _ G3) N3)); reflexivity).
    assert (T : n_state (getN c5 nid) = n_state (getN c3 nid) /\ nN c5 = nN c3 /\ ss_step (stn c5 nid) = ss_step (stn c3 nid) /\ nodemode c5 nid = nodemode c3 nid).
    { split; [reflexivity|]. split; [reflexivity|]. split; [rewrite S5; reflexivity|]. change (ss_mode (stn c5 nid) = nodemode c3 nid). rewrite S5. reflexivity. }
    destruct b; subst c4; [|split; [exact G5|exact T]]. split; [|exact T]. apply (gd_k mp c5); [exact G5|apply keeps_tt|exact (gd_c _ _ G5)|exact (gd_err _ _ G5)]. }
  destruct K4 as (G4 & E4 & N4 & J4 & M4). rewrite <- E4 in H.
  apply (IH c4 c' G4); auto; [lia| |].
  - intros t0 K. rewrite M4. change (nodemode c3 nid) with (ss_mode (stn c3 nid)). rewrite S3. apply Hts1. exact K.
  - rewrite J4, S3. exact J1.
Qed.

Lemma gd_intersect mp c nid c' ok : gd mp c -> intersect_state solve a c nid (n_state (getN c nid)) = Ok (c', ok) -> gd mp c'.
Proof.
  intros G H. unfold intersect_state in H. apply bind_ok in H as ([[s1 ops] ok1] & H1 & H). apply ok_inj in H. injection H as <- _. assert (F := H1). unfold intersect_invariant in F. apply f2_inv in F.
  apply gd_push_ops; [|intros o Ho; apply in_map_iff in Ho as (? & Ho & _); discriminate]. apply gd_set; [exact G|exact F|]. eapply cg_inv; [apply (gd_c _ _ G)|exact H1].
Qed.
Lemma gd_left mp c nid sid b : gd mp c -> gd mp (left_invariant c nid sid b).
Proof.
  intro G. unfold left_invariant. apply (gd_same mp (push_op c nid (NLeft (ss_step (getS c sid)) b))); try reflexivity; [apply gd_push; [exact G|discriminate]|apply (gd_dag _ _ G)|auto].
Qed.
Lemma gd_tt mp c b : gd mp c -> gd mp (with_tt c b).
Proof. intro G. apply (gd_k mp c); [exact G|apply keeps_tt|exact (gd_c _ _ G)|exact (gd_err _ _ G)]. Qed.

Lemma gd_cont mp c n c' : gd mp c -> n < nN c -> continuous_post solve cf a c n (n_state (getN c n)) = Ok c' -> gd mp c'.
Proof.
  intros G Hn H. unfold continuous_post in H. destruct (_ <=? _) in H; [apply ok_inj in H; subst; apply gd_left; exact G|].
  destruct (c_tt c); [apply ok_inj in H; subst; apply gd_left, gd_tt; exact G|].
  apply bind_ok in H as ([c1 ok] & H1 & H). assert (G1 := gd_intersect mp c n c1 ok G H1). destruct (dag_intersect _ _ _ _ _ _ _ _ _ (gd_dag _ _ G) H1) as [_ P1].
  assert (E1 : n_state (getN c1 n) = n_state (getN c n)) by (apply (ex_node _ _ (ext_intersect _ _ _ _ _ _ _ H1) n Hn)).
  destruct (negb ok) in H; [apply ok_inj in H; subst; apply gd_left; exact G1|].
  apply bind_ok in H as (s1 & Hs & H). apply bind_ok in H as (c3 & Hg & H). rewrite <- E1 in Hs, Hg.
  assert (N1 : n < nN c1) by (rewrite (pf_nN _ _ P1); exact Hn). pose proof (stn_lt mp c1 n (gd_dag _ _ G1) N1) as Hl1.
  assert (C1 : cgood s1) by (unfold ss_step1 in Hs; eapply cg_step; [apply (gd_c _ _ G1)|exact Hs]).
  assert (F1 : frame2 (getS c1 (n_state (getN c1 n))) s1) by (unfold ss_step1 in Hs; eapply f2_step; exact Hs).
  assert (G2 : gd mp (setS c1 (n_state (getN c1 n)) s1)) by (apply gd_set; auto).
  set (c2 := setS c1 (n_state (getN c1 n)) s1) in *.
  assert (S2 : stn c2 n = s1) by (unfold stn, c2; rewrite getN_setS, getS_set_eq by auto; reflexivity).
  assert (Hk : ss_step s1 = S (ss_step (getS c1 (n_state (getN c1 n))))).
  { clear -Hs. unfold ss_step1, ss_step_to in Hs. apply bind_ok in Hs as (u & _ & Hs). destruct (Nat.eqb_spec (S (ss_step (getS c1 (n_state (getN c1 n)))) - ss_step (getS c1 (n_state (getN c1 n)))) 0) as [K|K]; [lia|].
    destruct (m_a _) in Hs; [|discriminate]. apply bind_ok in Hs as (l & _ & Hs). apply bind_ok in Hs as (li & _ & Hs). apply ok_inj in Hs. subst s1. reflexivity. }
  assert (G3 : gd mp c3).
  { unfold check_guards in Hg. change (n_state (getN c1 n)) with (n_state (getN c2 n)) in Hg. apply (gd_guards mp n _ c2 c3 G2) in Hg; auto.
    - intros t Ht. apply out_trans_spec in Ht. exact Ht.
    - rewrite S2, Hk. left. lia. }
  destruct (m_a _) in H; [|discriminate]. destruct (_ && _) in H; apply ok_inj in H; subst c'; [apply gd_left|]; exact G3.
Qed.

(** ** the part that is not about pointers *)
Definition sem (c : core) : Prop := allc c /\ oi c /\ (c_concerr c = true -> errorU).
Lemma gd_sem mp c : gd mp c <-> dag cf a mp c /\ sem c.
Proof. split; [intros [D A O0 E]; split; [exact D|split; [exact A|split; [exact O0|exact E]]]|intros (D & A & O0 & E); constructor; auto]. Qed.
Lemma put_concerr sids : forall c ls, c_concerr (put_lps c sids ls) = c_concerr c.
Proof. induction sids as [|i sids IH]; intros c [|l ls]; cbn [put_lps]; auto. rewrite IH. reflexivity. Qed.
Lemma childs_concerr n ops : forall c, c_concerr (fold_left (fun c o => set_child c o n) ops c) = c_concerr c.
Proof. induction ops as [|o ops IH]; intro c; cbn [fold_left]; auto. rewrite IH. reflexivity. Qed.
Lemma node_concerr c ops agg str c1 n : make_node solve arnoldi a c ops agg str = Ok (c1, n) -> c_concerr c1 = c_concerr c.
Proof.
  intro K. unfold make_node in K. apply bind_ok in K as ([c2 sid] & H1 & K). apply ok_inj in K.
  assert (E2 : c_concerr c2 = c_concerr c).
  { assert (Q : forall os, (do r <- aggregate_states solve arnoldi a c os agg; let '(c3, s) := r in Ok (with_states c3 (c_states c3 ++ [s]), List.length (c_states c3))) = Ok (c2, sid) -> c_concerr c2 = c_concerr c).
    { intros os Hq. apply bind_ok in Hq as ([c3 s] & Hq1 & Hq). apply ok_inj in Hq. injection Hq as <- _. change (c_concerr c3 = c_concerr c). unfold aggregate_states in Hq1. destruct agg as [[kd g]|]; [|discriminate].
      destruct kd; try (destruct (m_a _) in Hq1; [|discriminate]; apply bind_ok in Hq1 as (? & _ & Hq1); apply bind_ok in Hq1 as (? & _ & Hq1); apply bind_ok in Hq1 as (? & _ & Hq1); apply ok_inj in Hq1; injection Hq1 as <- _; apply put_concerr).
      apply bind_ok in Hq1 as (? & _ & Hq1). apply bind_ok in Hq1 as (? & _ & Hq1). apply ok_inj in Hq1. injection Hq1 as <- _. reflexivity. }
    destruct ops as [|o [|o2 ops]]; [exact (Q _ H1)| |exact (Q _ H1)]. apply ok_inj in H1. injection H1 as <- _. reflexivity. }
  rewrite <- E2. destruct (existsb _ _) in K; injection K as <- _; ccbn; rewrite childs_concerr; reflexivity.
Qed.
Lemma sem_make_node mp c ops agg str c1 n : dag cf a mp c -> sem c -> ops <> [] -> (forall o, In o ops -> o < nO c) -> make_node solve arnoldi a c ops agg str = Ok (c1, n) -> sem c1.
Proof.
  intros D (A & O0 & E) Hne Hlt H. split; [eapply allc_make_node; eauto|]. assert (EX := ext_make_node _ _ _ _ _ _ _ _ _ H). split; [|rewrite (node_concerr _ _ _ _ _ _ H); exact E].
  apply make_node_ptr in H as (_ & _ & HO & _); auto. apply (oi_ext mp c); auto.
Qed.
Lemma sem_same c c' : c_states c' = c_states c -> c_ops c' = c_ops c -> c_nodes c' = c_nodes c -> c_concerr c' = c_concerr c -> sem c -> sem c'.
Proof.
  intros E1 E2 E3 E4 (A & O0 & E). split; [apply (allc_same c); auto|]. split; [|rewrite E4; exact E]. intros o Ho. rewrite E2 in Ho. specialize (O0 o Ho). unfold getO in *. rewrite E2.
  intros t M Ht HM. destruct (O0 t M Ht HM) as (K1 & K2 & K3). split; [exact K1|]. split; [|exact K3]. rewrite K2. unfold nodemode, getN, getS. rewrite E1, E3. reflexivity.
Qed.

Lemma sem_pop c c' n : cinv cf a c -> sem c -> pop_waiting_list solve arnoldi cf a c = Ok (c', n) -> sem c'.
Proof.
  intros V S0 H. assert (D := ci_dag _ _ _ V). unfold pop_waiting_list in H. apply bind_ok in H as (ops & Hops & H). apply bind_ok in H as (u & _ & H). apply bind_ok in H as (agg & _ & H). apply bind_ok in H as ([c1 n1] & Hm & H).
  apply ok_inj in H. injection H as <- <-. destruct (pop_ops_ptr cf a c ops _ D Hops) as (K1 & K2 & K3 & K4 & K5). set (w := filter (fun o => negb (mem o ops)) (c_wait c)) in *.
  apply (sem_same c1); try reflexivity. apply (sem_make_node (rep_map c) (with_wait c w) ops agg (Some "full"%string) c1 n1); auto.
  - apply (dag_wait cf a _ c); auto; [apply NoDup_filter, D|]. intros o Ho. apply filter_In in Ho. tauto.
  - intros o Ho. apply K3 in Ho as [Ho _]. apply (d_wait _ _ _ _ D) in Ho. apply Ho.
Qed.
Lemma sem_step_pop c c' : cinv cf a c -> sem c -> do_step_pop solve arnoldi cf a c = Ok c' -> sem c'.
Proof.
  intros V S0 H. unfold do_step_pop in H. apply bind_ok in H as ([c1 n] & H1 & H). assert (S1 := sem_pop c c1 n V S0 H1). destruct (cinv_pop _ _ _ _ _ _ _ V H1) as [V1 C1].
  assert (G1 : gd (rep_map c1) c1) by (apply gd_sem; split; [apply (ci_dag _ _ _ V1)|exact S1]).
  destruct (is_error _) in H; [apply ok_inj in H; subst c'; apply (gd_sem (rep_map c1)); apply gd_left; exact G1|].
  apply bind_ok in H as ([c2 ok] & H2 & H). assert (G2 := gd_intersect _ c1 n c2 ok G1 H2). destruct ok; apply ok_inj in H; subst c'; apply (gd_sem (rep_map c1)); [exact G2|apply gd_left; exact G2].
Qed.

(** ** deaggregation *)
Lemma sem_begin c n c' : cinv cf a c -> c_rep c = None -> sem c -> begin_replay solve arnoldi a c n = Ok c' -> sem c' /\
  (exists n0 n1, c_dwait c' = c_dwait c ++ [(n, [n0; n1])] /\ nodemode c' n0 = nodemode c' n /\ nodemode c' n1 = nodemode c' n).
Proof.
  intros V Hrep S0 H. assert (D := ci_dag _ _ _ V). unfold rep_map in D. rewrite Hrep in D. unfold begin_replay in H. apply bind_ok in H as (rm & _ & H). set (w := filter _ (c_wait c)) in H. set (c0 := with_wait c w) in *.
  assert (D0 : dag cf a [] c0). { apply (dag_wait cf a _ c); auto; [apply NoDup_filter, D|]. intros o Ho. apply filter_In in Ho. tauto. }
  assert (S1 : sem c0) by (apply (sem_same c); auto).
  apply bind_ok in H as ([c2 chs] & H1 & H). apply ok_inj in H. subst c'. unfold split_node in H1. apply bind_ok in H1 as ([] & Ha & H1). apply bind_ok in H1 as (str & _ & H1).
  apply bind_ok in H1 as ([c3 n0] & M0 & H1). apply bind_ok in H1 as ([c4 n1] & M1 & H1). cbn [fst snd] in *. apply ok_inj in H1. injection H1 as <- <-.
  set (ps := n_parents (getN c0 n)) in *.
  assert (Hl : 2 <= List.length ps). { unfold assert in Ha. destruct (1 <? List.length ps) eqn:E; [apply Nat.ltb_lt in E; lia|discriminate]. }
  assert (Hn : n < nN c0). { destruct (lt_dec n (nN c0)) as [|K]; [auto|]. exfalso. unfold ps, getN in Hl. rewrite nth_overflow in Hl by lia. cbn in Hl. lia. }
  destruct (d_parents _ _ _ _ D0 n Hn) as (P1 & P2 & P3 & P4 & P5). fold ps in P1, P2, P4, P5. set (mid := Nat.div (List.length ps) 2) in *.
  assert (Hmid : 1 <= mid /\ mid < List.length ps). { unfold mid. split; [apply Nat.div_le_lower_bound; lia|apply Nat.div_lt; lia]. }
  assert (L1 : List.length (firstn mid ps) = mid) by (rewrite firstn_length; lia).
  assert (L2 : List.length (skipn mid ps) = List.length ps - mid) by apply skipn_length.
  assert (X1 : forall o, In o (firstn mid ps) -> In o ps) by (intros o; apply in_firstn).
  assert (X2 : forall o, In o (skipn mid ps) -> In o ps) by (intros o; apply in_skipn).
  assert (E1 : firstn mid ps <> []) by (intro K; rewrite K in L1; cbn [List.length] in L1; lia).
  assert (E2 : skipn mid ps <> []) by (intro K; rewrite K in L2; cbn [List.length] in L2; lia).
  assert (Nw : forall o, In o ps -> ~ In o (c_wait c0)). { intros o Ho K. apply (d_wait _ _ _ _ D0) in K as [_ K]. apply P5 in Ho as (_ & Ho & _). congruence. }
  assert (Mm : forall o, In o ps -> omode c0 o = nodemode c0 n) by (intros o Ho; apply P5; auto).
  assert (I1 : In (nth 0 (firstn mid ps) 0) ps) by (apply X1, nth_In; lia).
  assert (I2 : In (nth 0 (skipn mid ps) 0) ps) by (apply X2, nth_In; lia).
  assert (D3 : dag cf a [] c3).
  { eapply dag_make_node; [exact D0|exact E1|apply NoDup_firstn; exact P2| | | |exact M0].
    - intros o Ho. split; [apply P5; auto|]. split; [apply Nw; auto|]. split; [intros []|]. rewrite !Mm by auto. reflexivity.
    - intros _ o Ho. apply P5; auto.
    - intro HP. apply (same_path_sub _ ps); [auto|]. apply (d_path _ _ _ _ D0 HP n Hn). }
  assert (S3 : sem c3) by (eapply (sem_make_node [] c0); [exact D0|exact S1|exact E1| |exact M0]; intros o Ho; apply P5; auto).
  assert (EX3 := ext_make_node _ _ _ _ _ _ _ _ _ M0).
  apply make_node_ptr in M0 as (En0 & HN0 & HO0 & X0 & GN0 & Gp0 & _ & _ & Gf0 & _ & _ & Cu0 & Hw0 & Hd0 & Hr0 & _); [|exact E1|intros o Ho; apply P5; auto].
  assert (Om0 : forall o, In o ps -> omode c3 o = omode c0 o). { intros o Ho. unfold omode. destruct (Gf0 o) as (_ & _ & _ & ->). apply (ex_mode _ _ X0). apply (d_post _ _ _ _ D0). apply P5; auto. }
  assert (D4 : dag cf a [] c4).
  { eapply dag_make_node; [exact D3|exact E2|apply NoDup_skipn; exact P2| | | |exact M1].
    - intros o Ho. split; [rewrite HO0; apply P5; auto|]. split; [rewrite Hw0; apply Nw; auto|]. split; [intros []|]. rewrite !Om0, !Mm by auto. reflexivity.
    - intros _ o Ho. destruct (Gf0 o) as (_ & -> & _). apply P5; auto.
    - intros HP. apply (same_path_sub _ ps); [auto|]. intros o o' Ho Ho'. destruct (Gf0 o) as (_ & -> & -> & _), (Gf0 o') as (_ & -> & -> & _). apply (d_path _ _ _ _ D0 HP n Hn); auto. }
  assert (S4 : sem c4) by (eapply (sem_make_node [] c3); [exact D3|exact S3|exact E2| |exact M1]; intros o Ho; rewrite HO0; apply P5; auto).
  assert (EX4 := ext_make_node _ _ _ _ _ _ _ _ _ M1).
  apply make_node_ptr in M1 as (En1 & HN1 & HO1 & X4 & GN1 & Gp1 & _ & _ & Gf1 & _ & _ & Cu1 & Hw1 & Hd1 & Hr1 & _); [|exact E2|intros o Ho; rewrite HO0; apply P5; auto].
  split; [apply (sem_same c4); auto|]. exists n0, n1. ccbn. rewrite Hd1, Hd0. split; [reflexivity|].
  assert (Om4 : forall o, In o ps -> omode c4 o = omode c0 o).
  { intros o Ho. rewrite <- Om0 by auto. unfold omode. destruct (Gf1 o) as (_ & _ & _ & ->). apply (ex_mode _ _ X4). apply (d_post _ _ _ _ D3). rewrite HO0. apply P5; auto. }
  assert (En : nodemode c4 n = nodemode c0 n) by (apply (nodemode_ext []); auto; eapply ext_trans; eauto).
  assert (Q : forall k, k < nN c4 -> (forall o, In o (n_parents (getN c4 k)) -> In o ps) -> nodemode c4 k = nodemode c4 n).
  { intros k Hk Hin. destruct (d_parents _ _ _ _ D4 k Hk) as (Q1 & _ & _ & _ & Q2). destruct (n_parents (getN c4 k)) as [|o os] eqn:Ek; [congruence|]. destruct (Q2 o (or_introl eq_refl)) as (_ & _ & <- & _).
    rewrite Om4, En by (apply Hin; left; auto). apply Mm. apply Hin. left; auto. }
  split.
  - change (nodemode c4 n0 = nodemode c4 n). apply Q; [lia|]. intros o Ho. rewrite GN1, Gp0 in Ho by lia. apply X1; exact Ho.
  - change (nodemode c4 n1 = nodemode c4 n). apply Q; [lia|]. intros o Ho. rewrite Gp1 in Ho. apply X2; exact Ho.
Qed.

Lemma step_to_step s k s' : ss_step_to a s k = Ok s' -> ss_step s' = k.
Proof.
  intro Hs. unfold ss_step_to in Hs. apply bind_ok in Hs as (u & Ha & Hs). apply assert_ok in Ha. apply Nat.leb_le in Ha. destruct (Nat.eqb_spec (k - ss_step s) 0) as [K|K]; [apply ok_inj in Hs; subst s'; lia|].
  destruct (m_a _) in Hs; [|discriminate]. apply bind_ok in Hs as (l & _ & Hs). apply bind_ok in Hs as (li & _ & Hs). apply ok_inj in Hs. subst s'. reflexivity.
Qed.

Lemma sem_replay_op c mp ch x r p : gd mp c -> ch < nN c -> p < nN c -> nodemode c ch = nodemode c p -> (forall o, x = NTr o -> o < nO c /\ o_parent (getO c o) = Some p) ->
  replay_op solve cf a c mp ch x = Ok r -> sem (fst r).
Proof.
  intros G Hch Hp Hm Hx H. pose proof (stn_lt mp c ch (gd_dag _ _ G) Hch) as Hl. destruct x as [k i st|k b|o]; cbn [replay_op] in H.
  - apply bind_ok in H as (c1 & H1 & H). apply ok_inj in H. subst r. cbn [fst]. unfold replay_inv in H1. apply bind_ok in H1 as (s & Hs & H1). destruct (nth_error _ _) as [lc|] eqn:En in H1; [|discriminate].
    apply bind_ok in H1 as ([[s2 o] st'] & Hc & H1).
    assert (G1 : gd mp (setS c (n_state (getN c ch)) s2)).
    { apply gd_set; [exact G|eapply f2_trans; [eapply f2_step; exact Hs|eapply f2_cond; exact Hc]|]. eapply cg_cond; [eapply cg_step; [apply (gd_c _ _ G)|exact Hs]|exact En|exact Hc]. }
    apply (gd_sem mp). destruct o as [[|]|].
    + apply bind_ok in H1 as (f & _ & H1). destruct f; apply ok_inj in H1; subst c1; [apply gd_push; [exact G1|discriminate]|apply gd_push; [apply gd_push; [exact G1|discriminate]|discriminate]].
    + apply ok_inj in H1; subst c1. exact G1.
    + apply ok_inj in H1; subst c1. apply gd_push; [exact G1|discriminate].
  - apply ok_inj in H. subst r. cbn [fst]. apply (gd_sem mp). apply gd_push; [exact G|discriminate].
  - destruct (Hx o eq_refl) as [Ho Hpar]. unfold replay_tr in H. apply bind_ok in H as (s & Hs & H). destruct (o_trans (getO c o)) as [t|] eqn:Et; [|discriminate]. apply bind_ok in H as ([l1 ol] & Hg & H). cbn [fst snd] in H.
    destruct (gd_o _ _ G o Ho t p Et Hpar) as (Ht & Hf & HJ).
    set (c1 := setS c (n_state (getN c ch)) s) in *.
    assert (G1 : gd mp c1) by (apply gd_set; [exact G|eapply f2_step; exact Hs|eapply cg_step; [apply (gd_c _ _ G)|exact Hs]]).
    assert (S1 : stn c1 ch = s) by (unfold stn, c1; rewrite getN_setS, getS_set_eq by auto; reflexivity).
    assert (Fs := f2_step _ _ _ _ Hs). destruct Fs as [Fm _].
    assert (Hf1 : t_from (get_trans a t) = ss_mode (stn c1 ch)) by (rewrite S1, Fm, Hf, <- Hm; reflexivity).
    change (n_state (getN c ch)) with (n_state (getN c1 ch)) in H, Hg. fold (stn c1 ch) in H, Hg.
    destruct (guard_step (stn c1 ch) t l1 ol (gd_c _ _ G1 _) Ht Hf1 Hg) as [C2 P2].
    set (c2 := setS c1 (n_state (getN c1 ch)) (ss_with_lpi (stn c1 ch) l1)) in *.
    assert (G2 : gd mp c2) by (apply gd_lpi; [exact G1|exact C2]).
    assert (S2 : stn c2 ch = ss_with_lpi (stn c1 ch) l1) by (unfold stn, c2; rewrite getN_setS, getS_set_eq by (apply (stn_lt mp c1 ch (gd_dag _ _ G1)); exact Hch); reflexivity).
    destruct ol as [l|]; [|apply ok_inj in H; subst r; apply (gd_sem mp); exact G2]. apply bind_ok in H as (c3 & H3 & H).
    assert (Hf2 : t_from (get_trans a t) = nodemode c2 ch) by (change (t_from (get_trans a t) = ss_mode (stn c2 ch)); rewrite S2; exact Hf1).
    assert (J2 : jump_now (ss_step (stn c2 ch))) by (rewrite S2; change (jump_now (ss_step (stn c1 ch))); rewrite S1, (step_to_step _ _ _ Hs); exact HJ).
    assert (P2' : pre_ok (stn c2 ch) t l) by (rewrite S2; apply P2; reflexivity).
    change (n_state (getN c1 ch)) with (n_state (getN c2 ch)) in H3, H.
    destruct (gd_error mp c2 t l ch c3 G2 Ht Hf2 J2 P2' H3) as (G3 & ag & co & ce & ->). set (c3 := with_flags c2 ag co ce) in *.
    apply bind_ok in H as ([c4 no] & H4 & H). change (n_state (getN c2 ch)) with (n_state (getN c3 ch)) in H4.
    destruct (make_op_comp mp c3 t l ch c4 no G3 Hch Ht Hf2 J2 P2' H4) as (A4 & O4 & E4).
    assert (Q : sem c4) by (split; [exact A4|split; [exact O4|rewrite E4; apply (gd_err _ _ G3)]]).
    destruct no as [no|]; [|apply ok_inj in H; subst r; exact Q].
    assert (Q5 : sem (push_op c4 ch (NTr no))) by (split; [exact A4|split; [apply oi_push; exact O4|exact (proj2 (proj2 Q))]]).
    destruct (o_child _); apply ok_inj in H; subst r; cbn [fst]; [exact Q5|]. apply (sem_same (push_op c4 ch (NTr no))); auto.
Qed.

Lemma gd_replay_children p x chs : forall c mp r, gd mp c -> p < nN c -> (forall ch, In ch chs -> ch < nN c /\ nodemode c ch = nodemode c p) -> (forall o, x = NTr o -> o < nO c /\ o_parent (getO c o) = Some p) ->
  replay_children solve cf a c mp chs x = Ok r -> gd (snd r) (fst r).
Proof.
  induction chs as [|ch chs IH]; intros c mp r G Hp Hch Hx H; cbn [replay_children] in H; [apply ok_inj in H; subst; exact G|].
  apply bind_ok in H as (r1 & H1 & H). destruct (Hch ch (or_introl eq_refl)) as [Q1 Q2].
  assert (K : gd (snd r1) (fst r1) /\ ext c (fst r1) /\ pf c (fst r1)).
  { destruct (left_inv c ch); [apply ok_inj in H1; subst; split; [exact G|split; [apply ext_refl|apply pf_refl]]|].
    destruct (dag_replay_op _ _ _ _ _ _ _ _ (gd_dag _ _ G) Q1 (fun o Eo => proj1 (Hx o Eo)) H1) as [D1 P1]. split; [|split; [eapply ext_replay_op; exact H1|exact P1]].
    apply gd_sem. split; [exact D1|]. exact (sem_replay_op c mp ch x r1 p G Q1 Hp Q2 Hx H1). }
  destruct K as (G1 & X1 & P1). apply (IH (fst r1) (snd r1) r G1); auto.
  - rewrite (pf_nN _ _ P1). exact Hp.
  - intros k Hk. rewrite (pf_nN _ _ P1). destruct (Hch k (or_intror Hk)) as [T1 T2]. split; [exact T1|]. exact (nm_eq mp c _ _ _ (gd_dag _ _ G) X1 T1 Hp T2).
  - intros o Eo. destruct (Hx o Eo) as [T1 T2]. pose proof (pf_nO _ _ P1). split; [lia|]. destruct (ex_op _ _ X1 o T1) as (_ & -> & _). exact T2.
Qed.
Lemma gd_replay_loop p chs xs : forall c mp idx cur only pl c' mp' i' cu' pl', gd mp c -> p < nN c -> (forall ch, In ch chs -> ch < nN c /\ nodemode c ch = nodemode c p) ->
  (forall o, In (NTr o) xs -> o < nO c /\ o_parent (getO c o) = Some p) -> replay_loop solve cf a c mp chs idx cur only pl xs = Ok (c', mp', i', cu', pl') -> gd mp' c'.
Proof.
  induction xs as [|x xs IH]; intros c mp idx cur only pl c' mp' i' cu' pl' G Hp Hch Hx H; cbn [replay_loop] in H; [apply ok_inj in H; injection H as <- <- _ _ _; exact G|].
  set (q := if (cur <? nop_step c x) && negb only then (S cur, true) else (cur, only)) in H. destruct q as [cur1 only1].
  destruct (negb _) in H; [apply ok_inj in H; injection H as <- <- _ _ _; exact G|].
  destruct (only1 && _); [apply ok_inj in H; injection H as <- <- _ _ _; exact G|]. apply bind_ok in H as (r1 & H1 & H).
  assert (Hx1 : forall o, x = NTr o -> o < nO c /\ o_parent (getO c o) = Some p) by (intros o ->; apply Hx; left; auto).
  assert (G1 := gd_replay_children p x chs c mp r1 G Hp Hch Hx1 H1).
  destruct (dag_replay_children _ _ _ x chs c mp r1 (gd_dag _ _ G) (fun ch Hc => proj1 (Hch ch Hc)) (fun o Eo => proj1 (Hx1 o Eo)) H1) as [_ P1].
  assert (X1 := ext_replay_children _ _ _ _ _ _ _ _ H1).
  apply IH in H; auto.
  - rewrite (pf_nN _ _ P1). exact Hp.
  - intros k Hk. rewrite (pf_nN _ _ P1). destruct (Hch k Hk) as [T1 T2]. split; [exact T1|]. exact (nm_eq mp c _ _ _ (gd_dag _ _ G) X1 T1 Hp T2).
  - intros o Eo. destruct (Hx o (or_intror Eo)) as [T1 T2]. pose proof (pf_nO _ _ P1). split; [lia|]. destruct (ex_op _ _ X1 o T1) as (_ & -> & _). exact T2.
Qed.
Lemma gd_advance mp k chs : forall c c', gd mp c -> advance_children a c chs k = Ok c' -> gd mp c'.
Proof.
  induction chs as [|ch chs IH]; intros c c' G H; cbn [advance_children] in H; [apply ok_inj in H; subst; exact G|]. apply bind_ok in H as (c1 & H1 & H). apply (IH c1); [|exact H].
  destruct (left_inv c ch); [apply ok_inj in H1; subst; exact G|]. apply bind_ok in H1 as (s & Hs & H1). apply ok_inj in H1. subst c1. apply gd_set; [exact G|eapply f2_step; exact Hs|eapply cg_step; [apply (gd_c _ _ G)|exact Hs]].
Qed.

(** children and parents of a replay have the same mode *)
Definition dwm (c : core) : Prop := forall p chs, In (p, chs) (c_dwait c) -> forall ch, In ch chs -> nodemode c ch = nodemode c p.
Definition repm (c : core) : Prop := forall r, c_rep c = Some r -> forall ch, In ch (rp_children r) -> nodemode c ch = nodemode c (rp_parent r).

Lemma gd_finish mp : forall c c', gd mp c -> dw_ok c -> dwm c -> finish_map solve arnoldi a c mp = Ok c' -> gd [] c' /\ dwm c'.
Proof.
  induction mp as [|[[ch k] os] mp IH]; intros c c' G Hd Hw H; cbn [finish_map] in H; [apply ok_inj in H; subst; auto|]. apply bind_ok in H as ([c1 n] & H1 & H). pose proof (gd_dag _ _ G) as D.
  destruct (d_map _ _ _ _ D ch k os (or_introl eq_refl)) as (P1 & P2 & P3 & P4). pose proof (d_mapnd _ _ _ _ D) as ND. unfold pending in ND. cbn [map snd List.concat] in ND.
  apply NoDup_app_split in ND as (N1 & N2 & N3).
  assert (D0 : dag cf a mp c). { constructor; try apply D; [exact N2|]. intros ch' k' os' K. apply (d_map _ _ _ _ D). right; auto. }
  assert (H0 : In (nth 0 os 0) os) by (destruct os; [congruence|left; reflexivity]).
  assert (D1 : dag cf a mp c1).
  { eapply dag_make_node; [exact D0|exact P1|exact N1| | | |exact H1].
    - intros o Ho. destruct (P4 o Ho) as (Q1 & Q2 & Q3 & Q4 & Q5 & _). destruct (P4 _ H0) as (_ & _ & _ & _ & Q6 & _). split; [auto|]. split; [auto|]. split; [exact (N3 o Ho)|congruence].
    - intros _ o Ho. destruct (P4 o Ho) as (_ & _ & -> & _). discriminate.
    - intros HP o o' Ho Ho'. destruct (P4 o Ho) as (_ & _ & -> & _ & _ & T1), (P4 o' Ho') as (_ & _ & -> & _ & _ & T2). split; [auto|].
      destruct (d_parents _ _ _ _ D k P3) as (Kn & _). destruct (n_parents (getN c k)) as [|q qs]; [congruence|]. rewrite <- (T1 HP q), <- (T2 HP q) by (left; auto). reflexivity. }
  assert (S1 : sem c1) by (eapply (sem_make_node mp c); [exact D0|apply (proj2 (proj1 (gd_sem _ _) G))|exact P1| |exact H1]; intros o Ho; apply P4; auto).
  assert (EX := ext_make_node _ _ _ _ _ _ _ _ _ H1).
  apply make_node_ptr in H1 as (En & HN & _ & _ & _ & Gp & _ & _ & Gf & _ & _ & Cu & _ & Hdw & _); [|exact P1|intros o Ho; apply P4; auto].
  apply IH in H; auto.
  - apply gd_sem. split; [apply (dag_wait cf a _ c1); auto; apply D1|apply (sem_same c1); auto].
  - intros p chs K. ccbn. ccbn_in K. rewrite Hdw in K. rewrite HN. apply in_app_iff in K as [K|[[= <- <-]|[]]].
    + destruct (Hd p chs K) as [A1 A2]. split; [lia|]. intros q Hq. specialize (A2 q Hq). lia.
    + split; [lia|]. intros q [<-|[]]. lia.
  - intros p chs K q Hq. ccbn_in K. rewrite Hdw in K. change (nodemode c1 q = nodemode c1 p). apply in_app_iff in K as [K|[[= <- <-]|[]]].
    + destruct (Hd p chs K) as [A1 A2]. specialize (A2 q Hq). apply (nm_eq mp c); auto. apply (Hw p chs K q Hq).
    + destruct Hq as [<-|[]]. rewrite (nodemode_ext mp c c1 k) by auto. destruct (P4 _ H0) as (Q1 & _ & _ & _ & <- & _).
      destruct (d_parents _ _ _ _ D1 n ltac:(lia)) as (_ & _ & _ & _ & Q2). rewrite Gp in Q2. destruct (Q2 _ H0) as (_ & _ & <- & _). unfold omode. destruct (Gf (nth 0 os 0)) as (_ & _ & _ & ->). apply (ex_mode _ _ EX). apply (d_post _ _ _ _ D); auto.
Qed.

Lemma sem_replay c c' : cinv cf a c -> sem c -> dwm c -> repm c -> do_step_replay solve arnoldi cf a c = Ok c' -> sem c' /\ dwm c' /\ repm c'.
Proof.
  intros V S0 W0 R0 H. unfold do_step_replay in H. apply bind_ok in H as (c1 & H1 & H).
  assert (V1 : gd (rep_map c1) c1 /\ dw_ok c1 /\ dwm c1 /\ repm c1 /\ forall r, c_rep c1 = Some r -> rp_parent r < nN c1 /\ forall ch, In ch (rp_children r) -> ch < nN c1).
  { assert (D := ci_dag _ _ _ V). destruct (c_rep c) as [r|] eqn:Er.
    - apply ok_inj in H1; subst c1. split; [apply gd_sem; auto|]. split; [exact (ci_dw _ _ _ V)|]. split; [exact W0|]. split; [exact R0|]. exact (ci_rep _ _ _ V).
    - destruct (c_dwait c) as [|[p chs] dw] eqn:Ed; [discriminate|]. apply ok_inj in H1. subst c1. unfold rep_map in D. rewrite Er in D. split; [|split; [|split; [|split]]].
      + unfold rep_map. cbn [c_rep with_rep rp_map]. apply gd_sem. split; [apply (dag_wait cf a _ c); auto; apply D|apply (sem_same c); auto].
      + intros p' chs' K. apply (ci_dw _ _ _ V). rewrite Ed. right; exact K.
      + intros p' chs' K. apply W0. rewrite Ed. right; exact K.
      + intros r Kr. cbn [c_rep with_rep] in Kr. injection Kr as <-. cbn [rp_children rp_parent]. apply (W0 p chs). rewrite Ed. left; reflexivity.
      + intros r Kr. cbn [c_rep with_rep] in Kr. injection Kr as <-. cbn [rp_children rp_parent]. apply (ci_dw _ _ _ V). rewrite Ed. left; reflexivity. }
  clear V S0 W0 R0 H1. destruct V1 as (G1 & DW1 & W1 & RM1 & RL1). destruct (c_rep c1) as [rp|] eqn:Er; [|discriminate]. destruct (nth_error _ _) as [x0|] in H; [|discriminate]. apply bind_ok in H as ([[[[c2 mp] i2] k2] p2] & H2 & H).
  unfold rep_map in G1. rewrite Er in G1. pose proof (gd_dag _ _ G1) as D1. destruct (RL1 rp eq_refl) as [R1 R2].
  assert (Hch : forall ch, In ch (rp_children rp) -> ch < nN c1 /\ nodemode c1 ch = nodemode c1 (rp_parent rp)) by (intros ch Hc; split; [apply R2; exact Hc|apply RM1; auto]).
  assert (Hxs : forall o, In (NTr o) (skipn (rp_idx rp) (n_ops (getN c1 (rp_parent rp)))) -> o < nO c1 /\ o_parent (getO c1 o) = Some (rp_parent rp)).
  { intros o Ho. apply in_skipn in Ho. apply (d_ntr _ _ _ _ D1); auto. }
  assert (X2 := ext_replay_loop _ _ _ _ _ _ _ _ _ _ _ _ _ _ _ _ H2).
  assert (G2 := gd_replay_loop (rp_parent rp) _ _ _ _ _ _ _ _ _ _ _ _ _ G1 R1 Hch Hxs H2).
  apply (dag_replay_loop _ _ _ _ _ _ _ _ _ _ _ _ _ _ _ _ D1 R2 (fun o Ho => proj1 (Hxs o Ho))) in H2 as [_ P2].
  apply bind_ok in H as (c3 & H3 & H). assert (G3 := gd_advance _ _ _ _ _ G2 H3). assert (X3 := ext_advance _ _ _ _ _ H3). apply (dag_advance _ _ _ _ _ _ _ (gd_dag _ _ G2)) in H3 as [_ P3]. apply bind_ok in H as (u & _ & H).
  assert (P := pf_trans _ _ _ P2 P3). assert (X := ext_trans _ _ _ X2 X3).
  assert (DW3 : dw_ok c3). { intros p chs K. rewrite (pf_dw _ _ P) in K. rewrite (pf_nN _ _ P). apply DW1; auto. }
  assert (W3 : dwm c3). { intros p chs K q Hq. rewrite (pf_dw _ _ P) in K. destruct (DW1 p chs K) as [T1 T2]. specialize (T2 q Hq). apply (nm_eq (rp_map rp) c1); auto. apply (W1 p chs K q Hq). }
  destruct (_ || _) in H.
  - apply bind_ok in H as (c4 & H4 & H). destruct (gd_finish _ _ _ G3 DW3 W3 H4) as [G4 W4]. apply ok_inj in H. subst c'. split; [apply (sem_same c4); auto; apply (proj2 (proj1 (gd_sem _ _) G4))|]. split; [exact W4|]. intros r Kr. discriminate.
  - apply ok_inj in H; subst c'. split; [apply (sem_same c3); auto; apply (proj2 (proj1 (gd_sem _ _) G3))|]. split; [exact W3|]. intros r Kr. cbn [c_rep with_rep] in Kr. injection Kr as <-. cbn [rp_children rp_parent]. intros ch Hc.
    change (nodemode c3 ch = nodemode c3 (rp_parent rp)). destruct (Hch ch Hc) as [T1 T2]. apply (nm_eq (rp_map rp) c1); auto. 
Qed.

(** ** the main loop *)
Lemma dwm_pf mp c c' : dag cf a mp c -> ext c c' -> (forall p chs, In (p, chs) (c_dwait c) -> p < nN c /\ forall ch, In ch chs -> ch < nN c) -> c_dwait c' = c_dwait c -> dwm c -> dwm c'.
Proof. intros D X HL E W p chs K q Hq. rewrite E in K. destruct (HL p chs K) as [T1 T2]. specialize (T2 q Hq). apply (nm_eq mp c); auto. apply (W p chs K q Hq). Qed.
Lemma repm_pf mp c c' : dag cf a mp c -> ext c c' -> (forall r, c_rep c = Some r -> rp_parent r < nN c /\ forall ch, In ch (rp_children r) -> ch < nN c) -> c_rep c' = c_rep c -> repm c -> repm c'.
Proof. intros D X HL E W r K q Hq. rewrite E in K. destruct (HL r K) as [T1 T2]. specialize (T2 q Hq). apply (nm_eq mp c); auto. Qed.
Record sinv (c : core) : Prop := { si_c : cinv cf a c; si_sem : sem c; si_dw : dwm c; si_rep : repm c }.

Lemma dw_cont c n sid c' : cinv cf a c -> n < nN c -> continuous_post solve cf a c n sid = Ok c' -> c_dwait c' = c_dwait c /\ c_rep c' = c_rep c.
Proof.
  intros V Hn H. assert (D := ci_dag _ _ _ V). unfold continuous_post in H. destruct (_ <=? _) in H; [apply ok_inj in H; subst c'; auto|].
  destruct (c_tt c); [apply ok_inj in H; subst c'; auto|]. apply bind_ok in H as ([c1 ok] & H1 & H). destruct (dag_intersect _ _ _ _ _ _ _ _ _ D H1) as [D1 P1].
  destruct (negb ok) in H; [apply ok_inj in H; subst c'; split; apply P1|].
  apply bind_ok in H as (s1 & Hs & H). apply bind_ok in H as (c2 & H2 & H). assert (K := keeps_set c1 sid s1 (f2_step _ _ _ _ Hs)). unfold check_guards in H2.
  assert (Q : pf c (setS c1 sid s1)) by (eapply pf_trans; [exact P1|apply pf_keeps; exact K]).
  assert (Hn2 : n < nN (setS c1 sid s1)) by (rewrite (pf_nN _ _ Q); auto).
  destruct (dag_guards _ _ _ _ _ _ _ _ _ (dag_k _ _ _ _ _ D1 K) Hn2 H2) as [D2 P2]. assert (Q2 := pf_trans _ _ _ Q P2).
  destruct (m_a _) in H; [|discriminate]. destruct (_ && _) in H; apply ok_inj in H; subst c'; split; apply Q2.
Qed.
Lemma dw_step_pop c c' : cinv cf a c -> do_step_pop solve arnoldi cf a c = Ok c' -> c_dwait c' = c_dwait c /\ c_rep c' = c_rep c.
Proof.
  intros V H. unfold do_step_pop in H. apply bind_ok in H as ([c1 nid] & H1 & H). destruct (cinv_pop _ _ _ _ _ _ _ V H1) as [V1 C1].
  assert (E : c_dwait c1 = c_dwait c /\ c_rep c1 = c_rep c).
  { assert (D := ci_dag _ _ _ V). unfold pop_waiting_list in H1. apply bind_ok in H1 as (ops & Hops & H1). apply bind_ok in H1 as (u & _ & H1). apply bind_ok in H1 as (agg & _ & H1). apply bind_ok in H1 as ([c2 n1] & Hm & H1).
    apply ok_inj in H1. injection H1 as <- <-. destruct (pop_ops_ptr cf a c ops _ D Hops) as (K1 & K2 & K3 & K4 & K5). apply make_node_ptr in Hm as (_ & _ & _ & _ & _ & _ & _ & _ & _ & _ & _ & _ & _ & Hd & Hr & _); [auto|exact K1|].
    intros o Ho. apply K3 in Ho as [Ho _]. apply (d_wait _ _ _ _ D) in Ho. apply Ho. }
  destruct E as [<- <-]. destruct (is_error _) in H; [apply ok_inj in H; subst c'; auto|]. apply bind_ok in H as ([c2 ok] & H2 & H). destruct (dag_intersect _ _ _ _ _ _ _ _ _ (ci_dag _ _ _ V1) H2) as [_ P2].
  destruct ok; apply ok_inj in H; subst c'; split; apply P2.
Qed.

Lemma sinv_step c c' : sinv c -> do_step solve arnoldi cf a c = Ok c' -> sinv c'.
Proof.
  intros [V S0 W R] H. assert (V' := cinv_step _ _ _ _ _ _ V H). assert (X' := ext_step _ _ _ _ _ _ H). assert (D := ci_dag _ _ _ V). unfold do_step in H.
  assert (Fr : sem c' -> c_dwait c' = c_dwait c -> c_rep c' = c_rep c -> sinv c').
  { intros K E1 E2. constructor; auto; [apply (dwm_pf _ c c' D X' (ci_dw _ _ _ V) E1 W)|apply (repm_pf _ c c' D X' (ci_rep _ _ _ V) E2 R)]. }
  destruct (is_finished cf c); [apply ok_inj in H; subst; constructor; auto|]. destruct (cur_state c) as [[nid sid]|] eqn:Ec.
  - apply bind_ok in H as (c1 & H1 & H). apply ok_inj in H. unfold cur_state in Ec. destruct (c_cur c) as [n|] eqn:En; [|discriminate]. destruct (left_inv c n); [discriminate|]. injection Ec as -> <-.
    pose proof (ci_cur _ _ _ V _ En) as Hn. destruct (dw_cont c nid _ c1 V Hn H1) as [E1 E2].
    assert (G1 : gd (rep_map c) c1) by (apply (gd_cont (rep_map c) c nid c1); auto; apply gd_sem; auto). apply Fr; subst c'; auto. apply (sem_same c1); auto. apply (proj2 (proj1 (gd_sem _ _) G1)).
  - unfold doing_replay in H. destruct (c_rep c) as [r|] eqn:Er.
    { destruct (sem_replay c c' V S0 W R H) as (A1 & A2 & A3). constructor; auto. }
    destruct (c_dwait c) as [|d dw] eqn:Ed.
    2:{ destruct (sem_replay c c' V S0 W R H) as (A1 & A2 & A3). constructor; auto. }
    apply bind_ok in H as ([n|] & _ & H).
    + apply bind_ok in H as (c1 & H1 & H). destruct (sem_begin c n c1 V Er S0 H1) as (S1 & n0 & n1 & E1 & E2 & E3). destruct (cinv_begin _ _ _ _ _ _ _ V Er H1) as (V1 & E4 & _).
      destruct (sem_replay c1 c' V1 S1) as (A1 & A2 & A3); auto; [| |constructor; auto].
      * intros p chs K q Hq. rewrite E1, Ed in K. destruct K as [[= <- <-]|[]]. destruct Hq as [<-|[<-|[]]]; auto.
      * intros r K. rewrite E4 in K. discriminate.
    + apply bind_ok in H as (c1 & H1 & H). destruct (dw_step_pop c c1 V H1) as [E1 E2]. assert (V1 := cinv_step_pop _ _ _ _ _ _ V H1). assert (S1 := sem_step_pop c c1 V S0 H1).
      destruct (cur_state c1) as [[nid sid]|] eqn:Ec1; [|apply ok_inj in H; subst; apply Fr; auto; congruence].
      destruct (cf_urgent cf) eqn:Eu; [|apply ok_inj in H; subst; apply Fr; auto; congruence]. unfold check_guards in H. unfold cur_state in Ec1. destruct (c_cur c1) as [m|] eqn:Em; [|discriminate]. destruct (left_inv c1 m); [discriminate|]. injection Ec1 as -> <-.
      assert (G1 : gd (rep_map c1) c1) by (apply gd_sem; split; [apply (ci_dag _ _ _ V1)|exact S1]). pose proof (ci_cur _ _ _ V1 _ Em) as Hn.
      destruct (dag_guards _ _ _ _ _ _ _ _ _ (ci_dag _ _ _ V1) Hn H) as [_ P2].
      apply (gd_guards (rep_map c1) nid _ c1 c' G1 Hn) in H; [apply Fr; [apply (proj2 (proj1 (gd_sem _ _) H))|rewrite (pf_dw _ _ P2); congruence|rewrite (pf_rep _ _ P2); congruence]| |right; exact Eu].
      intros t Ht. apply out_trans_spec in Ht. exact Ht.
Qed.
Lemma sinv_run fuel : forall c r, sinv c -> run_loop solve arnoldi cf a fuel c = Some (Ok r) -> sinv r.
Proof.
  induction fuel as [|f IH]; intros c r V H; cbn [run_loop] in H; destruct (is_finished cf c); try (injection H as <-; auto); [discriminate|].
  destruct (do_step solve arnoldi cf a c) as [c1|] eqn:E; [|discriminate]. apply (IH c1); [|exact H]. eapply sinv_step; eauto.
Qed.
End SubD.
