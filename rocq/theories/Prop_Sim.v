(** C30: the simulation (Core.simulate) and the lines it leaves in result.sim_lines. *)
From Verif Require Import Base BaseFacts LpModel LpSpec SetSpec LpUtil Automaton StateSet HybridSpec StateSpec AutoFacts CoreModel CorePop CoreSpec SkipZero SetupHa CexSetup Prop_Automaton Prop_Core Prop_Cex Sim SimSpec SimFacts SimTerm.
Open Scope nat_scope.

(** the random numbers lie in the unit interval; p is a point of the box *)
Definition in_unit (r : list Q) : Prop := Forall (fun x => 0 <= x <= 1)%Q r.
Definition in_rect (box : list (Q * Q)) (p : vec) : Prop := forall i, i < List.length box -> (fst (nth i box (0, 0)) <= p i <= snd (nth i box (0, 0)))%Q.
(** one start per drawn row of random numbers, the first [skip] rows left out *)
Definition sim_starts (m : nat) (box : list (Q * Q)) (skip : nat) (rands : list (list Q)) : list sim := map (fun r => mkSim m (sample box r) 0) (skipn skip rands).
Definition start_in (m : nat) (box : list (Q * Q)) (skip : nat) (rands : list (list Q)) (m' : nat) (p : vec) : Prop := In (mkSim m' p 0) (sim_starts m box skip rands).

(** simulations start in the given box *)
Theorem C30_starts_in_box m box skip rands m' p : (forall b, In b box -> (fst b <= snd b)%Q) -> Forall in_unit rands -> start_in m box skip rands m' p -> m' = m /\ in_rect box p.
Proof.
  intros Hb Hr H. unfold start_in, sim_starts in H. apply in_map_iff in H as (r & E & H). injection E as <- <-. split; [reflexivity|]. intros i Hi. unfold sample.
  assert (Hu : in_unit r). { apply (proj1 (Forall_forall _ _) Hr). rewrite <- (firstn_skipn skip rands). apply in_or_app. right. exact H. }
  assert (Hx : (0 <= nth i r 0 <= 1)%Q). { destruct (Nat.lt_ge_cases i (List.length r)) as [K|K]; [apply (proj1 (Forall_forall _ _) Hu); apply nth_In; exact K|]. rewrite nth_overflow by exact K. split; [apply Qle_refl|discriminate]. }
  pose proof (Hb _ (nth_In box (0, 0)%Q Hi)) as Hw. set (lo := fst (nth i box (0, 0)%Q)) in *. set (hi := snd (nth i box (0, 0)%Q)) in *. set (x := nth i r 0%Q) in *. split; nra.
Qed.

Section P.
Variable cf : cfg.
Variable avoid : list string.
Variables (a0 a : ha) (m0 : nat) (box : list (Q * Q)) (skip : nat) (rands : list (list Q)).
Hypothesis W0 : wf_ha a0.
Hypothesis Hs : setup_ha cf a0 = Ok a.

Lemma start_inv imm c0 : (imm = true \/ List.length (skipn skip rands) <= 1) -> m0 < List.length (ha_modes a) -> c0 = mkSc None (sim_starts m0 box skip rands) false [] [] ->
  sinv cf a (start_in m0 box skip rands) imm (sim_starts m0 box skip rands) c0.
Proof.
  intros Hi Hm ->. constructor; cbn [sc_wait sc_cur sc_lines sc_done sc_try].
  - intros s K. assert (E : s = mkSim m0 (sm_pt s) 0) by (unfold sim_starts in K; apply in_map_iff in K as (r & <- & _); reflexivity). split; [|rewrite E; cbn; split; [lia|exact Hm]]. rewrite E in K |- *. cbn [sm_mode sm_pt sm_n]. apply S_init. exact K.
  - reflexivity.
  - intros l [].
  - intros s K. unfold seen. cbn [sc_wait sc_done sc_lines List.concat app]. apply in_or_app. left. exact K.
  - destruct Hi as [K|K]; [left; exact K|right]. unfold sim_starts. rewrite map_length. cbn. lia.
Qed.
Lemma simulate_run fuel r : simulate cf avoid a0 m0 box skip rands fuel = Some (Ok r) -> m0 < List.length (ha_modes a) /\ sim_run cf avoid a fuel (mkSc None (sim_starts m0 box skip rands) false [] []) = Some (Ok r).
Proof.
  unfold simulate. rewrite Hs. destruct (m_a (get_mode a m0)) as [x|] eqn:E; [|discriminate]. destruct (_ =? _); [|discriminate]. intro H. split; [|exact H].
  destruct (Nat.lt_ge_cases m0 (List.length (ha_modes a))) as [K|K]; [exact K|]. unfold get_mode in E. rewrite nth_overflow in E by exact K. discriminate E.
Qed.

(** every stored line is an execution in one mode, complete, followed by another line if it ends with a transition, and every drawn start
    begins a line.  In general transitions may also be taken immediately on entering a mode. *)
Theorem C30_traces fuel r : simulate cf avoid a0 m0 box skip rands fuel = Some (Ok r) ->
  good_lines a (cf_num cf) true (start_in m0 box skip rands) (List.concat (sc_done r)) /\ forall s, In s (sim_starts m0 box skip rands) -> In s (starts (List.concat (sc_done r))).
Proof.
  intro H. apply simulate_run in H as [Hm H]. destruct (setup_ha_ok cf a0 a W0 Hs) as (_ & W & _).
  destruct (sinv_run cf avoid a W (start_in m0 box skip rands) true (or_introl eq_refl) _ fuel _ _ (start_inv true _ (or_introl eq_refl) Hm eq_refl) H) as [V F].
  eapply sinv_final; eauto.
Qed.

(** one simulation, no urgent guards: transitions are taken only after a step in the mode *)
Theorem C30_single fuel r : cf_urgent cf = false -> List.length (skipn skip rands) <= 1 -> simulate cf avoid a0 m0 box skip rands fuel = Some (Ok r) ->
  good_lines a (cf_num cf) false (start_in m0 box skip rands) (List.concat (sc_done r)) /\ forall s, In s (sim_starts m0 box skip rands) -> In s (starts (List.concat (sc_done r))).
Proof.
  intros Hu Hl H. apply simulate_run in H as [Hm H]. destruct (setup_ha_ok cf a0 a W0 Hs) as (_ & W & _).
  destruct (sinv_run cf avoid a W (start_in m0 box skip rands) false (or_intror Hu) _ fuel _ _ (start_inv false _ (or_intror Hl) Hm eq_refl) H) as [V F].
  eapply sinv_final; eauto.
Qed.

(** what a simulation reaches without immediate transitions is reachable *)
Lemma sim_reach_reach ru init m p k n : ru_bound ru = cf_num cf -> (forall m, ru_cap ru m = false) -> ru_strict ru = false -> sim_reach a (cf_num cf) false init m p k n ->
  (0 < k \/ inv_ok 0 (get_mode a m) p) -> reach 0 ru a init m p k n.
Proof.
  intros Hb Hc Hns R. induction R as [m p Hi|m p k n p' R IH Hinv Hlt Hmb Hst|t p p' k n Ht R IH Hk Hg Hr]; intro K.
  - destruct K as [K|K]; [lia|]. apply R_init; assumption.
  - eapply R_step; [apply IH; right; exact Hinv|exact Hinv|rewrite Hb; exact Hlt|intro C; rewrite Hc in C; discriminate|unfold input_ok; rewrite Hmb; exact Logic.I|exact Hst].
  - destruct Hk as [Hk|Hk]; [discriminate|]. eapply R_jump; [exact Ht|apply IH; left; exact Hk|exact Hg|split; [left; exact Hk|rewrite Hns; discriminate]|exact Hr].
Qed.

Lemma refines_reach lax ru b b' init m p k n : refines b b' -> reach lax ru b' init m p k n -> reach lax ru b init m p k n.
Proof.
  intros (RM & RL & RT) R. induction R as [m p Hi Hv|m p k n u p' R IH Hv Hlt Hc Hu Hst|t p p' k n Ht R IH Hg Hk Hr]; unfold get_mode in *; rewrite ?RM in *.
  - apply R_init; assumption.
  - eapply R_step; eauto.
  - rewrite RL in Ht. destruct (RT t Ht) as (T1 & T2 & T3 & T4 & T5 & T6). unfold reset_ok, post_dims, get_mode in Hr. rewrite T1, T3, T4, RM in Hr. rewrite T1 in *. rewrite T2. eapply R_jump; eauto.
Qed.

(** a simulation that enters an error mode shows that the error mode can be entered *)
Theorem C30_single_error_real fuel r l0 s s' t : cf_urgent cf = false -> no_tt cf a -> List.length (skipn skip rands) <= 1 -> simulate cf avoid a0 m0 box skip rands fuel = Some (Ok r) ->
  In (l0 ++ [s; s']) (List.concat (sc_done r)) -> jumps a (cf_num cf) t s s' -> is_error (get_mode a0 (t_to (get_trans a0 t))) = true ->
  error_reachable 0 (rules_of cf) a0 (start_in m0 box skip rands).
Proof.
  intros Hu Htt Hl H Hin Hj He. destruct (C30_single fuel r Hu Hl H) as [G _]. pose proof (setup_refines cf a0 a W0 Hs Htt) as (RM & RL & RT).
  destruct (G _ Hin) as [(s0 & r0 & E0 & R0) K]. destruct Hj as (J1 & J2 & J3 & J4 & J5 & J6 & J7).
  assert (C : flow_line a (cf_num cf) (l0 ++ [s]) /\ l0 <> []).
  { destruct K as [K|K].
    - exfalso. destruct K as (l1 & s1 & E1 & [_ F] & _). destruct (F (List.length l0) s s') as [(A1 & A2 & _) _]; [rewrite nth_error_app2, Nat.sub_diag by lia; reflexivity|rewrite nth_error_app2 by lia; replace (Datatypes.S (List.length l0) - List.length l0) with 1 by lia; reflexivity|]. lia.
    - destruct K as (l1 & s1 & s1' & t1 & E1 & F & _ & [C|C] & _); [discriminate|]. replace (l0 ++ [s; s']) with ((l0 ++ [s]) ++ [s']) in E1 by (rewrite <- app_assoc; reflexivity).
      replace (l1 ++ [s1; s1']) with ((l1 ++ [s1]) ++ [s1']) in E1 by (rewrite <- app_assoc; reflexivity). apply app_inj_tail in E1 as [E1 _]. pose proof (app_inj_tail _ _ _ _ E1) as [-> ->]. auto. }
  destruct C as [F Hne]. assert (E0' : exists r', l0 ++ [s] = s0 :: r') by (destruct l0 as [|z l0]; [congruence|]; cbn in E0 |- *; injection E0 as <- _; eauto). destruct E0' as [r' E0'].
  destruct (flow_reach cf a (start_in m0 box skip rands) false l0 s s0 r' F E0' R0) as [M R].
  assert (Hk : 0 < List.length l0) by (destruct l0; [congruence|cbn; lia]).
  apply (sim_reach_reach (rules_of cf)) in R; [|reflexivity|intro; reflexivity|reflexivity|left; exact Hk].
  rewrite RL in J4. destruct (RT t J4) as (T1 & T2 & T3 & T4 & T5 & T6).
  exists t, (sm_pt s), (List.length l0), (sm_n s). split; [exact J4|]. split; [exact He|]. rewrite <- T1, J5. split; [|split; [apply T6; exact J6|split; [left; exact Hk|discriminate]]].
  eapply refines_reach; [split; [exact RM|split; [exact RL|exact RT]]|exact R].
Qed.

(** without urgent guards the simulation ends, for any automaton *)
Theorem C30_terminates fuel : cf_urgent cf = false -> 4 * (List.length (skipn skip rands) * Datatypes.S (cf_num cf)) + 1 <= fuel -> simulate cf avoid a0 m0 box skip rands fuel <> None.
Proof.
  intros Hu Hf. unfold simulate. rewrite Hs. destruct (m_a (get_mode a m0)); [|discriminate]. destruct (_ =? _); [|discriminate]. apply sim_run_ends; [exact Hu| |].
  - split; cbn [sc_wait sc_cur]; [|exact Logic.I]. apply Forall_map. apply Forall_forall. intros x _. cbn. lia.
  - unfold msr, stage. cbn [sc_cur sc_wait]. eapply Nat.le_trans; [|exact Hf]. assert (E : forall l, mw cf (map (fun r => mkSim m0 (sample box r) 0) l) = List.length l * Datatypes.S (cf_num cf)).
    { induction l as [|x l IH]; [reflexivity|]. unfold mw in *. cbn [map list_sum fold_right List.length]. cbn in IH. unfold list_sum in IH |- *. rewrite IH. unfold wgt. cbn [sm_n]. lia. }
    rewrite E. lia.
Qed.
End P.

(** ** Examples: x' = a, y' = a; the modes of exC *)
From Verif Require Import Ex_Core.
Open Scope nat_scope.
Definition exS_box : list (Q * Q) := [(0, 2); (0, 0); (1, 1)]%Q.
Definition exS_rands : list (list Q) := [[0; 0; 0]; [1; 0; 0]]%Q.
Notation exS_sim skip := (simulate (exC_cf false) [] (exC (-3 # 2)%Q) 0 exS_box skip exS_rands 100).
Definition exS_a : ha := Eval vm_compute in getr (mkHa [] []) (setup_ha (exC_cf false) (exC (-3 # 2)%Q)).
Definition getsim (o : option (res simcore)) : simcore := match o with Some (Ok c) => c | _ => mkSc None [] false [] [] end.
Definition okS (o : option (res simcore)) : bool := match o with Some (Ok c) => true | _ => false end.
Lemma getsim_ok o : okS o = true -> o = Some (Ok (getsim o)).
Proof. destruct o as [[c|e]|]; [reflexivity|discriminate|discriminate]. Qed.
Definition show (o : option (res simcore)) : list (list (nat * list Q * nat)) := map (map (fun s => (sm_mode s, map (fun i => Qred (sm_pt s i)) [0; 1; 2], sm_n s))) (List.concat (sc_done (getsim o))).
Example C30_witness : setup_ha (exC_cf false) (exC (-3 # 2)%Q) = Ok exS_a /\ wf_ha (exC (-3 # 2)%Q) /\ no_tt (exC_cf false) exS_a /\ okS (exS_sim 0) = true /\ okS (exS_sim 1) = true /\
  (forall b, In b exS_box -> (fst b <= snd b)%Q) /\ Forall in_unit exS_rands /\ List.length (skipn 1 exS_rands) = 1 /\
  show (exS_sim 1) = [[(0, [2; 0; 1]%Q, 0); (0, [3; 1; 1]%Q, 1); (0, [3; 1; 1]%Q, 1)]; [(1, [3; 1; 1]%Q, 1); (1, [4; 2; 1]%Q, 2); (1, [4; 2; 1]%Q, 2)]].
Proof.
  split; [vm_compute; reflexivity|]. split; [apply exC_wf|]. split; [intro K; discriminate K|]. split; [vm_compute; reflexivity|]. split; [vm_compute; reflexivity|].
  split; [intros b [<-|[<-|[<-|[]]]]; discriminate|]. split; [repeat constructor; discriminate|]. split; [reflexivity|]. vm_compute. reflexivity.
Qed.
Lemma exS_run : exS_sim 0 = Some (Ok (getsim (exS_sim 0))).
Proof. assert (H : okS (exS_sim 0) = true) by (vm_compute; reflexivity). exact (getsim_ok _ H). Qed.
(** the same start gives another line when it is simulated together with a second start: the flag that allows guards is shared
    (core.py:527-551), so the second simulation takes the transition at its start, although urgent guards are off *)
Theorem C30_batch_refuted : exists cf avoid a0 a m0 box rands fuel r, wf_ha a0 /\ setup_ha cf a0 = Ok a /\ no_tt cf a /\ cf_urgent cf = false /\ Forall in_unit rands /\
  simulate cf avoid a0 m0 box 0 rands fuel = Some (Ok r) /\ ~ good_lines a (cf_num cf) false (start_in m0 box 0 rands) (List.concat (sc_done r)).
Proof.
  exists (exC_cf false), [], (exC (-3 # 2)%Q), exS_a, 0, exS_box, exS_rands, 100, (getsim (exS_sim 0)). split; [apply exC_wf|]. split; [vm_compute; reflexivity|]. split; [intro K; discriminate K|]. split; [reflexivity|].
  split; [repeat constructor; discriminate|]. split; [exact exS_run|]. intro G.
  remember (List.concat (sc_done (getsim (exS_sim 0)))) as ls eqn:El.
  assert (K : exists l s s', In l ls /\ l = [s; s'] /\ sm_n s = 0 /\ sm_n s' = 0).
  { exists (nth 1 ls []), (nth 0 (nth 1 ls []) (mkSim 9 (fun _ => 0%Q) 9)), (nth 1 (nth 1 ls []) (mkSim 9 (fun _ => 0%Q) 9)).
    assert (E : List.length ls = 4 /\ List.length (nth 1 ls []) = 2 /\ map sm_n (nth 1 ls []) = [0; 0]) by (rewrite El; vm_compute; auto).
    destruct E as (E1 & E2 & E3). split; [apply nth_In; lia|]. destruct (nth 1 ls []) as [|s [|s' [|]]]; try discriminate E2. cbn in E3 |- *. injection E3 as -> ->. auto. }
  destruct K as (l & s & s' & Hin & -> & N1 & N2). destruct (G _ Hin) as [_ [K|K]].
  - destruct K as (l0 & s1 & E1 & [_ F] & _). destruct (F 0 s s' eq_refl eq_refl) as [(_ & A & _) _]. lia.
  - destruct K as (l0 & s1 & s1' & t & E1 & _ & _ & [C|C] & _); [discriminate|]. destruct l0 as [|x [|y l0]]; [congruence| |]; cbn in E1; inversion E1. destruct l0; discriminate.
Qed.
(** the aggregation strategy Unaggregated has no get_simulation_pop_mode: the simulation always fails *)
Theorem C30_unaggregated_refuted cf avoid a0 m0 box skip rands fuel r : cf_strat cf = None -> skipn skip rands <> [] -> simulate cf avoid a0 m0 box skip rands fuel <> Some (Ok r).
Proof.
  intros Hc Hn. unfold simulate. destruct (setup_ha cf a0) as [a|]; [|discriminate]. destruct (m_a _); [|discriminate]. destruct (_ =? _); [|discriminate].
  destruct (skipn skip rands) as [|x l]; [congruence|]. destruct fuel; [discriminate|]. cbn [map sim_run sim_finished sc_cur sc_wait do_step_sim]. unfold sim_pop, simulation_pop_mode. rewrite Hc. cbn. discriminate.
Qed.
