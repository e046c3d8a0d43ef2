(** The simulation produces executions. *)
From Verif Require Import Base BaseFacts LpModel LpSpec SetSpec LpUtil Automaton StateSet HybridSpec AutoFacts CoreModel CorePop Prop_Automaton Sim SimSpec.
Open Scope nat_scope.

Section S.
Variable cf : cfg.
Variable avoid : list string.
Variable a : ha.
Hypothesis WH : wf_ha a.
Variable init : nat -> vec -> Prop.
Variable imm : bool.
Hypothesis Himm : imm = true \/ cf_urgent cf = false.
Notation bound := (cf_num cf).
Notation reach := (sim_reach a bound imm init).
Notation flow := (flow_line a bound).

Lemma inv_true m p : point_in_invariant m p = true <-> inv_ok 0 m p.
Proof.
  unfold point_in_invariant, inv_ok, lc_true. rewrite forallb_forall. split; intros H c Hc.
  - left. apply Qle_bool_iff. apply H; exact Hc.
  - apply Qle_bool_iff. destruct (H c Hc) as [K|K]; [exact K|]. apply Qlt_le_weak. rewrite Qplus_0_r in K. exact K.
Qed.
Lemma first_enabled_ok p ts e : (forall t, In t ts -> t < List.length (ha_trans a)) -> first_enabled a p ts = Ok e ->
  match e with Some t => In t ts /\ guard_ok (get_trans a t) p | None => forall t, In t ts -> ~ guard_ok (get_trans a t) p end.
Proof.
  induction ts as [|t ts IH]; intros Hts H; cbn [first_enabled] in H; [apply ok_inj in H; subst e; intros t []|].
  apply bind_ok in H as (g & Hg & H). pose proof (Hts t (or_introl eq_refl)) as Ht. destruct (wft_guard _ _ (proj2 WH t Ht)) as (gc & rhs & Eg & _).
  pose proof (guard_true_iff _ p gc rhs Eg) as Gi. destruct g.
  - apply ok_inj in H. subst e. split; [left; reflexivity|]. apply Gi. exact Hg.
  - assert (Hn : ~ guard_ok (get_trans a t) p) by (intro K; apply Gi in K; rewrite Hg in K; discriminate). specialize (IH (fun t' K => Hts t' (or_intror K)) H). destruct e as [t'|].
    + destruct IH as [I1 I2]. split; [right; exact I1|exact I2].
    + intros t' [<-|K]; [exact Hn|apply IH; exact K].
Qed.
Lemma out_in t m : In t (out_trans a m) <-> t < List.length (ha_trans a) /\ t_from (get_trans a t) = m.
Proof. unfold out_trans. rewrite filter_In, in_seq, Nat.eqb_eq. intuition lia. Qed.
Lemma reset_point t p q : apply_reset_for_point (get_trans a t) p = Ok q -> reset_ok a (get_trans a t) p (fst q) /\ snd q = t_to (get_trans a t).
Proof.
  unfold apply_reset_for_point. intro H. apply bind_ok in H as (u & Hm & H). apply ok_inj in H. subst q. cbn [fst snd]. split; [|reflexivity]. unfold reset_ok, reset_image.
  destruct (t_mink (get_trans a t)) as [mk|]; [discriminate|]. exists (fun _ => 0%Q). split; [exact Logic.I|]. intros i _. destruct (t_reset (get_trans a t)); ring.
Qed.

Lemma flow_one s : flow [s].
Proof. split; [discriminate|]. intros i s1 s2 H1 H2. destruct i; cbn in H2; [discriminate|destruct i; discriminate]. Qed.
Lemma flow_snoc l0 s s' : flow (l0 ++ [s]) -> advances a bound s s' -> (l0 <> [] -> no_guard a s) -> flow ((l0 ++ [s]) ++ [s']).
Proof.
  intros [_ H] A N. split; [destruct l0; discriminate|]. intros i s1 s2 H1 H2. rewrite <- app_assoc in H1, H2. cbn [app] in H1, H2.
  destruct (Nat.lt_trichotomy i (List.length l0)) as [K|[K|K]].
  - rewrite nth_error_app1 in H1 by exact K. destruct (Nat.eq_dec (S i) (List.length l0)) as [E|E].
    + rewrite nth_error_app2 in H2 by lia. rewrite E, Nat.sub_diag in H2. cbn in H2. injection H2 as <-. apply (H i); [rewrite nth_error_app1 by exact K; exact H1|]. rewrite nth_error_app2 by lia. rewrite E, Nat.sub_diag. reflexivity.
    + rewrite nth_error_app1 in H2 by lia. apply (H i); rewrite nth_error_app1 by lia; assumption.
  - subst i. rewrite nth_error_app2 in H1 by lia. rewrite Nat.sub_diag in H1. cbn in H1. injection H1 as <-. rewrite nth_error_app2 in H2 by lia. replace (S (List.length l0) - List.length l0) with 1 in H2 by lia. cbn in H2. injection H2 as <-.
    split; [exact A|]. intro K. apply N. intro E. subst l0. cbn in K. lia.
  - rewrite nth_error_app2 in H2 by lia. assert (S i - List.length l0 > 1) by lia. destruct (S i - List.length l0) as [|[|z]]; [lia|lia|]. cbn in H2. destruct z; discriminate.
Qed.
(** along a line *)
Lemma flow_reach l0 : forall s s0 r, flow (l0 ++ [s]) -> l0 ++ [s] = s0 :: r -> reach (sm_mode s0) (sm_pt s0) 0 (sm_n s0) -> sm_mode s = sm_mode s0 /\ reach (sm_mode s) (sm_pt s) (List.length l0) (sm_n s).
Proof.
  induction l0 as [|x l0 IH] using rev_ind; intros s s0 r F E R.
  - cbn in E. injection E as <- _. split; [reflexivity|exact R].
  - destruct F as [F0 F]. assert (A : advances a bound x s).
    { apply (F (List.length l0)); rewrite <- app_assoc; cbn [app].
      - rewrite nth_error_app2 by lia. rewrite Nat.sub_diag. reflexivity.
      - rewrite nth_error_app2 by lia. replace (S (List.length l0) - List.length l0) with 1 by lia. reflexivity. }
    assert (E' : exists r', l0 ++ [x] = s0 :: r').
    { destruct l0 as [|y l0]; cbn in E |- *; injection E as E1 _; subst; eauto. }
    destruct E' as (r' & E'). destruct (IH x s0 r') as [I1 I2]; [|exact E'|exact R|].
    + split; [destruct l0; discriminate|]. intros i s1 s2 H1 H2.
      assert (K : i < List.length (l0 ++ [x])) by (apply nth_error_Some; congruence). assert (K2 : S i < List.length (l0 ++ [x])) by (apply nth_error_Some; congruence).
      apply (F i); rewrite nth_error_app1 by assumption; assumption.
    + destruct A as (A1 & A2 & A3 & A4 & A5 & A6). split; [congruence|]. rewrite A1, A2, app_length, Nat.add_1_r. eapply S_step; eauto.
Qed.

(** ** one slot of the current batch *)
Definition begins (m : nat) (l : list sim) : Prop := exists s0 r, l = s0 :: r /\ sm_mode s0 = m /\ reach (sm_mode s0) (sm_pt s0) 0 (sm_n s0).
Definition slot (B : sim -> Prop) (m : nat) (try : bool) (x : option sim * bool) (l : list sim) : Prop :=
  begins m l /\
  match x with
  | (Some s, false) => exists l0, l = l0 ++ [s] /\ flow l /\ sm_n s <= bound /\ (l0 <> [] -> try = true) /\ (l0 = [] -> try = true -> imm = true)
  | (Some s', true) => turns a bound imm B l
  | (None, _) => stops a bound l \/ turns a bound imm B l
  end.
Definition wait_ok (w : list sim) : Prop := forall s, In s w -> reach (sm_mode s) (sm_pt s) 0 (sm_n s) /\ sm_n s <= bound /\ sm_mode s < List.length (ha_modes a) .
Lemma slot_up B m try items lines : imm = true \/ items = [] -> Forall2 (slot B m try) items lines -> Forall2 (slot B m true) items lines.
Proof.
  intros [Hi| ->] F; [|inversion F; constructor]. induction F as [|[o tk] l items lines H F IH]; constructor; [|exact IH]. destruct H as [H1 H2]. split; [exact H1|].
  destruct o as [s|]; [|exact H2]. destruct tk; [exact H2|]. destruct H2 as (l0 & E1 & E2 & E3 & E4 & E5). exists l0. auto 6.
Qed.

Lemma sim_loop_ok m : m < List.length (ha_modes a) -> m_b (get_mode a m) = None -> forall items try wait fin l' y w f, sim_loop cf a items try wait fin = Ok (l', y, w, f) ->
  forall (B : sim -> Prop) lines, (forall s, In s w -> B s) -> imm = true \/ List.length items <= 1 -> Forall2 (slot B m try) items lines -> wait_ok wait ->
  Forall2 (slot B m y) l' (add_points lines l') /\ List.length l' = List.length items /\ (exists w', w = wait ++ w') /\ wait_ok w /\ (try = true -> y = true) /\
  (f = true -> fin = true /\ w = wait /\ Forall (fun x => fst x = None) l' /\ add_points lines l' = lines /\ Forall (fun l => stops a bound l \/ turns a bound imm B l) lines).
Proof.
  intros Hm Hb. induction items as [|[o tk] items IH]; intros try wait fin l' y w f H B lines HB Hi HF HW.
  { cbn [sim_loop] in H. apply ok_inj in H. inversion H; subst. inversion HF; subst. split; [constructor|]. split; [reflexivity|]. split; [exists []; rewrite app_nil_r; reflexivity|]. split; [exact HW|]. split; [auto|]. intro K. auto. }
  inversion HF as [|x0 l items0 lines' Hs HF']; subst x0 items0 lines. rename lines' into lines.
  assert (Hi' : imm = true \/ List.length items <= 1) by (destruct Hi as [K|K]; [auto|right; cbn in K; lia]).
  assert (Die : forall r, (do x <- sim_loop cf a items try wait fin; let '(l1, y1, w1, f1) := x in Ok ((None, tk) :: l1, y1, w1, f1)) = Ok r -> r = (l', y, w, f) -> (stops a bound l \/ turns a bound imm B l) ->
    Forall2 (slot B m y) l' (add_points (l :: lines) l') /\ List.length l' = S (List.length items) /\ (exists w', w = wait ++ w') /\ wait_ok w /\ (try = true -> y = true) /\
    (f = true -> fin = true /\ w = wait /\ Forall (fun x => fst x = None) l' /\ add_points (l :: lines) l' = l :: lines /\ Forall (fun l => stops a bound l \/ turns a bound imm B l) (l :: lines))).
  { intros r K Er Hst. apply bind_ok in K as ([[[l1 y1] w1] f1] & K & K'). apply ok_inj in K'. rewrite Er in K'. inversion K'; subst l' y1 w1 f1. clear K' Er.
    destruct (IH try wait fin l1 y w f K B lines HB Hi' HF' HW) as (I1 & I2 & I3 & I4 & I5 & I6).
    split; [cbn [add_points]; constructor; [|exact I1]; split; [apply Hs|exact Hst]|]. split; [cbn [List.length]; lia|]. split; [exact I3|]. split; [exact I4|]. split; [exact I5|].
    intro Kf. destruct (I6 Kf) as (J1 & J2 & J3 & J4 & J5). split; [exact J1|]. split; [exact J2|]. split; [constructor; [reflexivity|exact J3]|]. split; [cbn [add_points]; rewrite J4; reflexivity|]. constructor; [exact Hst|exact J5]. }
  destruct Hs as [Hbg Hs]. cbn [List.length]. destruct o as [s|].
  2:{ cbn [sim_loop] in H. apply (Die (l', y, w, f)); [exact H|reflexivity|exact Hs]. }
  cbn [sim_loop] in H. destruct tk.
  { assert (Hd : stops a bound l \/ turns a bound imm B l) by (right; exact Hs). destruct (sm_n s =? bound); apply (Die (l', y, w, f)); auto. }
  destruct Hs as (l0 & El & Fl & Hn & Ht1 & Ht2). destruct Hbg as (s0 & r0 & E0 & M0 & R0).
  assert (FR : sm_mode s = sm_mode s0 /\ reach (sm_mode s) (sm_pt s) (List.length l0) (sm_n s)). { apply (flow_reach l0 s s0 r0); [rewrite <- El; exact Fl|congruence|exact R0]. }
  destruct FR as [Ms Rs]. assert (Em : sm_mode s = m) by congruence.
  destruct (Nat.eqb_spec (sm_n s) bound) as [En|En].
  { apply (Die (l', y, w, f)); [exact H|reflexivity|]. left. exists l0, s. auto. }
  apply bind_ok in H as (e & He & H).
  assert (HE : match e with Some t => try = true /\ t < List.length (ha_trans a) /\ t_from (get_trans a t) = sm_mode s /\ guard_ok (get_trans a t) (sm_pt s) | None => try = true -> no_guard a s end).
  { destruct try; [|apply ok_inj in He; subst e; discriminate]. apply first_enabled_ok in He; [|intros t K; apply out_in in K; tauto]. destruct e as [t|].
    - destruct He as [K1 K2]. apply out_in in K1. tauto.
    - intros _ t K1 K2. apply He. apply out_in. auto. }
  destruct e as [t|].
  - destruct HE as (Ety & Ht & Hf & Hg). apply bind_ok in H as (q & Hq & H). apply bind_ok in H as ([[[l1 y1] w1] f1] & K & K'). apply ok_inj in K'. inversion K'; subst l' y1 w1 f1. clear K'.
    apply reset_point in Hq as [Hq1 Hq2]. set (sn := mkSim (snd q) (fst q) (sm_n s)) in *.
    assert (HJ : jumps a bound t s (mkSim (sm_mode s) (fst q) (sm_n s))).
    { unfold jumps. cbn [sm_mode sm_n sm_pt]. split; [reflexivity|]. split; [reflexivity|]. split; [lia|]. split; [exact Ht|]. split; [exact Hf|]. split; [exact Hg|exact Hq1]. }
    assert (HW1 : wait_ok (if is_error (get_mode a (snd q)) then wait else wait ++ [sn])).
    { destruct (is_error (get_mode a (snd q))); [exact HW|]. intros s1 K1. apply in_app_or in K1 as [K1|[<-|[]]]; [apply HW; exact K1|]. cbn [sn sm_mode sm_pt sm_n]. split; [|split; [lia|rewrite Hq2; apply (wft_to _ _ (proj2 WH t Ht))]].
      rewrite Hq2. apply S_jump with (p := sm_pt s) (k := List.length l0); auto; [rewrite Hf; exact Rs|]. destruct l0 as [|z l0]; [left; apply Ht2; auto|right; cbn; lia]. }
    destruct (IH _ _ _ _ _ _ _ K B lines HB Hi' HF' HW1) as (I1 & I2 & (w' & I3) & I4 & I5 & I6).
    split; [|split; [cbn [List.length]; lia|split; [|split; [exact I4|split; [exact I5|]]]]].
    + cbn [add_points]. constructor; [|exact I1]. split; [exists s0, (r0 ++ [mkSim (sm_mode s) (fst q) (sm_n s)]); rewrite E0; auto|]. exists l0, s, (mkSim (sm_mode s) (fst q) (sm_n s)), t.
      split; [rewrite El, <- app_assoc; reflexivity|]. split; [rewrite <- El; exact Fl|]. split; [exact HJ|]. split; [destruct l0 as [|z l0]; [left; apply Ht2; auto|right; discriminate]|]. rewrite <- Hq2. cbn [sm_pt]. destruct (is_error (get_mode a (snd q))) eqn:Ee; [left; reflexivity|right]. apply HB. rewrite I3. apply in_or_app. left. apply in_or_app. right. left. reflexivity.
    + destruct (is_error (get_mode a (snd q))); [exists w'; exact I3|]. exists ([sn] ++ w'). rewrite I3, <- app_assoc. reflexivity.
    + intro Kf. destruct (I6 Kf) as [K1 _]. discriminate K1.
  - destruct (point_in_invariant (get_mode a (sm_mode s)) (sm_pt s)) eqn:Ei; cbn [negb] in H.
    + apply bind_ok in H as ([[[l1 y1] w1] f1] & K & K'). apply ok_inj in K'. inversion K'; subst l' y1 w1 f1. clear K'.
      assert (HF2 : Forall2 (slot B m true) items lines). { apply (slot_up _ _ try); [|exact HF']. destruct Hi as [K1|K1]; [auto|right]. destruct items; [reflexivity|cbn in K1; lia]. }
      destruct (IH _ _ _ _ _ _ _ K B lines HB Hi' HF2 HW) as (I1 & I2 & I3 & I4 & I5 & I6). set (s' := mkSim (sm_mode s) _ _) in *.
      assert (HA : advances a bound s s').
      { unfold advances, s'. cbn [sm_mode sm_n sm_pt]. rewrite Em. split; [reflexivity|]. split; [reflexivity|]. split; [lia|]. split; [exact Hb|]. split; [apply inv_true; rewrite <- Em; exact Ei|].
        intros i Hi1. rewrite Hb. ring. }
      split; [|split; [cbn [List.length]; lia|split; [exact I3|split; [exact I4|split; [intros _; apply I5; reflexivity|]]]]].
      * cbn [add_points]. constructor; [|exact I1]. split; [exists s0, (r0 ++ [s']); rewrite E0; auto|]. exists l. split; [reflexivity|]. split; [rewrite El in *; apply flow_snoc; auto|].
        split; [unfold s'; cbn [sm_n]; lia|]. split; [intros _; apply I5; reflexivity|]. intro K1. rewrite El in K1. destruct l0; discriminate.
      * intro Kf. destruct (I6 Kf) as [K1 _]. discriminate K1.
    + apply (Die (l', y, w, f)); [exact H|reflexivity|]. left. exists l0, s. split; [exact El|]. split; [exact Fl|]. right. split; [intro K1; apply inv_true in K1; congruence|]. intro K1. apply HE. apply Ht1. exact K1.
Qed.

Lemma turns_mono (B B' : sim -> Prop) l : (forall s, B s -> B' s) -> turns a bound imm B l -> turns a bound imm B' l.
Proof. intros H (l0 & s & s' & t & H1 & H2 & H3 & H3' & [H4|H4]); exists l0, s, s', t; auto 8. Qed.
Lemma slot_mono (B B' : sim -> Prop) m try x l : (forall s, B s -> B' s) -> slot B m try x l -> slot B' m try x l.
Proof.
  intros H [H1 H2]. split; [exact H1|]. destruct x as [[s|] tk].
  - destruct tk; [eapply turns_mono; eauto|exact H2].
  - destruct H2 as [H2|H2]; [left; exact H2|right; eapply turns_mono; eauto].
Qed.
Lemma Forall2_mono {A C} (P Q : A -> C -> Prop) l r : (forall x y, P x y -> Q x y) -> Forall2 P l r -> Forall2 Q l r.
Proof. intros H F. induction F; constructor; auto. Qed.

(** ** numbers of live simulations *)
Definition live (items : list (option sim * bool)) : nat := List.length (filter (fun x => match x with (Some _, false) => true | _ => false end) items).
Lemma sim_loop_count : forall items try wait fin l' y w f, sim_loop cf a items try wait fin = Ok (l', y, w, f) -> live l' + List.length w <= live items + List.length wait /\ List.length l' = List.length items.
Proof.
  induction items as [|[o tk] items IH]; intros try wait fin l' y w f H; cbn [sim_loop] in H.
  { apply ok_inj in H. inversion H; subst. auto. }
  assert (Die : (do x <- sim_loop cf a items try wait fin; let '(l1, y1, w1, f1) := x in Ok ((None, tk) :: l1, y1, w1, f1)) = Ok (l', y, w, f) -> live l' + List.length w <= live ((o, tk) :: items) + List.length wait /\ List.length l' = S (List.length items)).
  { intro K. apply bind_ok in K as ([[[l1 y1] w1] f1] & K & K'). apply ok_inj in K'. inversion K'; subst. apply IH in K as [K1 K2]. cbn [List.length]. unfold live in *. cbn [filter]. destruct o; [destruct tk|]; cbn [List.length]; lia. }
  cbn [List.length]. destruct o as [s|]; [|apply Die; exact H]. destruct (sm_n s =? bound); [apply Die; exact H|]. destruct tk; [apply Die; exact H|]. apply bind_ok in H as (e & _ & H). destruct e as [t|].
  - apply bind_ok in H as (q & _ & H). apply bind_ok in H as ([[[l1 y1] w1] f1] & K & K'). apply ok_inj in K'. inversion K'; subst. apply IH in K as [K1 K2]. unfold live in *. cbn [filter List.length].
    destruct (is_error (get_mode a (snd q))); [lia|]. rewrite app_length in K1. cbn [List.length] in K1. lia.
  - destruct (negb _); [apply Die; exact H|]. apply bind_ok in H as ([[[l1 y1] w1] f1] & K & K'). apply ok_inj in K'. inversion K'; subst. apply IH in K as [K1 K2]. unfold live in *. cbn [filter List.length]. lia.
Qed.

(** ** popping *)
Lemma pop_scan_in w : forall best m k, pop_scan avoid a w best = Some (m, k) -> best = Some (m, k) \/ exists s, In s w /\ sm_mode s = m.
Proof.
  induction w as [|s w IH]; intros best m k H; cbn [pop_scan] in H; [auto|]. destruct (avoided avoid a (sm_mode s)).
  - destruct (IH _ _ _ H) as [K|(s' & K1 & K2)]; [auto|right; exists s'; split; [right; exact K1|exact K2]].
  - destruct (IH _ _ _ H) as [K|(s' & K1 & K2)]; [|right; exists s'; split; [right; exact K1|exact K2]]. destruct best as [[m0 k0]|].
    + destruct (sm_n s <? k0); [|auto]. injection K as <- <-. right. exists s. split; [left; reflexivity|reflexivity].
    + injection K as <- <-. right. exists s. split; [left; reflexivity|reflexivity].
Qed.
Lemma pop_mode_in w m : simulation_pop_mode cf avoid a w = Ok m -> exists s, In s w /\ sm_mode s = m.
Proof.
  unfold simulation_pop_mode. destruct (cf_strat cf); [|discriminate]. destruct (pop_scan avoid a w None) as [[m0 k0]|] eqn:E.
  - intro H. apply ok_inj in H. subst m0. apply pop_scan_in in E as [E|E]; [discriminate|exact E].
  - destruct w as [|s w]; [discriminate|]. intro H. apply ok_inj in H. exists s. split; [left; reflexivity|exact H].
Qed.

(** ** the whole state, after plotting *)
Variable I0 : list sim.
Definition seen (c : simcore) (s : sim) : Prop := In s (sc_wait c ++ starts (List.concat (sc_done c) ++ sc_lines c)).
Record sinv (c : simcore) : Prop := {
  si_wait : wait_ok (sc_wait c);
  si_cur : match sc_cur c with
           | None => sc_lines c = []
           | Some items => items <> [] /\ exists m, m < List.length (ha_modes a) /\ m_b (get_mode a m) = None /\ Forall2 (slot (seen c) m (sc_try c)) items (sc_lines c)
           end;
  si_done : forall l, In l (List.concat (sc_done c)) -> (exists m, begins m l) /\ (stops a bound l \/ turns a bound imm (seen c) l);
  si_init : forall s, In s I0 -> seen c s;
  si_one : imm = true \/ (match sc_cur c with None => 0 | Some items => live items end + List.length (sc_wait c) <= 1 /\ match sc_cur c with None => True | Some items => List.length items <= 1 end) }.

Lemma starts_app x y : starts (x ++ y) = starts x ++ starts y.
Proof. unfold starts. apply flat_map_app. Qed.
Lemma starts_points items : forall lines, List.length lines = List.length items -> Forall (fun l => l <> []) lines -> starts (add_points lines items) = starts lines.
Proof.
  induction items as [|[o tk] items IH]; intros [|l lines] E F; cbn in E; try lia; [reflexivity|]. inversion F; subst. cbn [add_points]. unfold starts in *. cbn [flat_map]. rewrite IH by (auto; lia).
  destruct l as [|s l]; [congruence|]. destruct o; reflexivity.
Qed.
Lemma points_fresh mine : add_points (repeat [] (List.length mine)) (map (fun s => (Some s, false)) mine) = map (fun s => [s]) mine.
Proof. induction mine as [|s mine IH]; cbn [map List.length repeat add_points app]; [reflexivity|]. rewrite IH. reflexivity. Qed.
Lemma starts_fresh mine : starts (map (fun s => [s]) mine) = mine.
Proof. unfold starts. induction mine as [|s mine IH]; cbn; [reflexivity|]. f_equal. exact IH. Qed.

Lemma sinv_pop c c' : sinv c -> sc_cur c = None -> sim_pop cf avoid a c = Ok c' -> sinv (plot_current_sim c').
Proof.
  intros V Ec H. unfold sim_pop in H. apply bind_ok in H as (m & Hm & H). apply bind_ok in H as (? & _ & H). apply bind_ok in H as (? & Hb & H). apply assert_ok in Hb.
  assert (Hb' : m_b (get_mode a m) = None) by (destruct (m_b (get_mode a m)); [discriminate|reflexivity]). clear Hb. apply ok_inj in H. subst c'.
  apply pop_mode_in in Hm as (s1 & Hs1 & Em). set (mine := filter (fun s => sm_mode s =? m) (sc_wait c)). set (rest := filter (fun s => negb (sm_mode s =? m)) (sc_wait c)).
  pose proof (si_cur _ V) as Vc. rewrite Ec in Vc. pose proof (si_wait _ V) as Vw.
  assert (Hne : mine <> []). { intro K. assert (In s1 mine) by (apply filter_In; split; [exact Hs1|apply Nat.eqb_eq; exact Em]). rewrite K in H. destruct H. }
  unfold plot_current_sim. cbn [sc_cur sc_lines sc_wait sc_try sc_done]. rewrite Vc. destruct (map (fun s => (Some s, false)) mine) as [|z0 zs0] eqn:Ex; [destruct mine; [congruence|discriminate]|]. rewrite <- Ex. clear z0 zs0 Ex.
  rewrite map_length, points_fresh.
  assert (HS : forall s, seen c s -> seen (mkSc (Some (map (fun s => (Some s, false)) mine)) rest (cf_urgent cf) (map (fun s => [s]) mine) (sc_done c)) s).
  { intros s Hs. unfold seen in *. cbn [sc_wait sc_done sc_lines]. rewrite Vc, app_nil_r in Hs. rewrite starts_app, starts_fresh. apply in_app_or in Hs as [Hs|Hs].
    - destruct (sm_mode s =? m) eqn:K; [apply in_or_app; right; apply in_or_app; right; apply filter_In; auto|apply in_or_app; left; apply filter_In; rewrite K; auto].
    - apply in_or_app; right; apply in_or_app; left; exact Hs. }
  constructor; cbn [sc_wait sc_cur sc_lines sc_try sc_done].
  - intros s Hs. apply Vw. apply filter_In in Hs. tauto.
  - split; [destruct mine; [congruence|discriminate]|]. exists m. split; [rewrite <- Em; apply Vw; exact Hs1|]. split; [exact Hb'|].
    assert (Hin : forall s, In s mine -> In s (sc_wait c) /\ sm_mode s = m) by (intros s Hs; apply filter_In in Hs as [K1 K2]; apply Nat.eqb_eq in K2; auto).
    match goal with |- Forall2 (slot ?X _ _) _ _ => generalize X end. intro B1. clearbody mine. clear HS Hne. induction mine as [|s mine IH]; [constructor|]. cbn [map]. constructor; [|apply IH; intros s' K; apply Hin; right; exact K].
    destruct (Hin s (or_introl eq_refl)) as [K1 K2]. destruct (Vw s K1) as (R1 & R2 & _). split; [exists s, []; auto|]. exists []. split; [reflexivity|]. split; [apply flow_one|]. split; [exact R2|]. split; [congruence|].
    intros _ Hu. destruct Himm; congruence.
  - intros l Hl. destruct (si_done _ V l Hl) as [K1 K2]. split; [exact K1|]. destruct K2 as [K2|K2]; [left; exact K2|right; eapply turns_mono; eauto].
  - intros s Hs. apply HS. apply V. exact Hs.
  - destruct (si_one _ V) as [K|[K _]]; [left; exact K|right]. rewrite Ec in K. rewrite map_length.
    assert (L : List.length mine + List.length rest = List.length (sc_wait c)). { unfold mine, rest. clear. induction (sc_wait c) as [|s w IH]; [reflexivity|]. cbn [filter]. destruct (sm_mode s =? m); cbn [negb List.length]; lia. }
    assert (Lv : live (map (fun s => (Some s, false)) mine) = List.length mine). { unfold live. clear. induction mine as [|s l IH]; [reflexivity|]. cbn [map filter List.length]. lia. }
    rewrite Lv. lia.
Qed.

Lemma slots_len B m try items lines : Forall2 (slot B m try) items lines -> List.length lines = List.length items /\ Forall (fun l => l <> []) lines.
Proof.
  intro F. induction F as [|x l items lines H F [IH1 IH2]]; [auto|]. split; [cbn [List.length]; lia|]. constructor; [|exact IH2]. destruct H as [(s0 & r & -> & _) _]. discriminate.
Qed.
Lemma sinv_step c c' : sinv c -> do_step_sim cf avoid a c = Ok c' -> sinv (plot_current_sim c').
Proof.
  intros V H. unfold do_step_sim in H. pose proof (si_cur _ V) as Vc. destruct (sc_cur c) as [items|] eqn:Ec.
  - destruct Vc as (Hne & m & Hm & Hb & HF). destruct items as [|x items]; [congruence|]. set (its := x :: items) in *. apply bind_ok in H as ([[[l y] w] f] & HL & H).
    destruct (slots_len _ _ _ _ _ HF) as [SL1 SL2].
    pose proof (sim_loop_count _ _ _ _ _ _ _ _ HL) as [C1 C2].
    set (B := fun s => In s (w ++ starts (List.concat (sc_done c) ++ sc_lines c))).
    pose proof (sim_loop_ok m Hm Hb its _ _ _ _ _ _ _ HL) as LO.
    assert (HW : exists w', w = sc_wait c ++ w').
    { destruct (LO (fun _ => True) (sc_lines c)) as (_ & _ & W' & _); auto.
      - destruct (si_one _ V) as [K|[_ K]]; [left; exact K|right]. rewrite Ec in K. exact K.
      - eapply Forall2_mono; [|exact HF]. intros x1 l1. apply slot_mono. auto.
      - apply V. }
    assert (HS : forall s, seen c s -> B s).
    { intros s Hs. unfold seen, B in *. destruct HW as (w' & ->). apply in_app_or in Hs as [Hs|Hs]; apply in_or_app; [left; apply in_or_app; left; exact Hs|right; exact Hs]. }
    destruct (LO B (sc_lines c)) as (L1 & L2 & _ & L4 & L5 & L6).
    { intros s Hs. unfold B. apply in_or_app. left. exact Hs. }
    { destruct (si_one _ V) as [K|[_ K]]; [left; exact K|right]. rewrite Ec in K. exact K. }
    { eapply Forall2_mono; [|exact HF]. intros x1 l1. apply slot_mono. exact HS. }
    { apply V. }
    destruct f.
    + apply ok_inj in H. subst c'. cbn [plot_current_sim sc_cur]. destruct (L6 eq_refl) as (_ & _ & _ & _ & F6).
      assert (HS' : forall s, B s -> seen (mkSc None w y [] (sc_done c ++ [sc_lines c])) s).
      { intros s Hs. unfold seen, B in *. cbn [sc_wait sc_done sc_lines]. rewrite concat_app. cbn [List.concat]. rewrite !app_nil_r. exact Hs. }
      constructor; cbn [sc_wait sc_cur sc_lines sc_try sc_done]; auto.
      * intros l1 Hl1. rewrite concat_app in Hl1. cbn [List.concat] in Hl1. rewrite app_nil_r in Hl1. apply in_app_or in Hl1 as [Hl1|Hl1].
        -- destruct (si_done _ V l1 Hl1) as [K1 K2]. split; [exact K1|]. destruct K2 as [K2|K2]; [left; exact K2|right; apply (turns_mono (seen c)); [intros s0 Hs0; apply HS', HS; exact Hs0|exact K2]].
        -- split.
           ++ clear -HF Hl1. induction HF as [|x1 l2 its lines [HB _] HF IH]; [destruct Hl1|]. destruct Hl1 as [<-|K]; [eauto|apply IH; exact K].
           ++ pose proof (proj1 (Forall_forall _ _) F6 l1 Hl1) as [K|K]; [left; exact K|right; apply (turns_mono B); [exact HS'|exact K]].
      * intros s Hs. apply HS', HS, V. exact Hs.
      * destruct (si_one _ V) as [K|[K _]]; [left; exact K|right]. rewrite Ec in K. split; [lia|exact Logic.I].
    + apply ok_inj in H. subst c'. unfold plot_current_sim. cbn [sc_cur sc_lines sc_wait sc_try sc_done].
      destruct l as [|x1 l1] eqn:El; [cbn in C2; discriminate|]. rewrite <- El in *. clear x1 l1 El.
      assert (Eline : (match sc_lines c with [] => repeat [] (List.length l) | z => z end) = sc_lines c) by (destruct (sc_lines c); [cbn in SL1; discriminate|reflexivity]). rewrite Eline.
      assert (ES : starts (add_points (sc_lines c) l) = starts (sc_lines c)) by (apply starts_points; [lia|exact SL2]).
      assert (HS' : forall s, B s -> seen (mkSc (Some l) w y (add_points (sc_lines c) l) (sc_done c)) s).
      { intros s Hs. unfold seen, B in *. cbn [sc_wait sc_done sc_lines]. rewrite starts_app in *. rewrite ES. exact Hs. }
      assert (Hl0 : l <> []) by (intro K; rewrite K in C2; cbn in C2; discriminate).
      constructor; cbn [sc_wait sc_cur sc_lines sc_try sc_done]; auto.
      * split; [exact Hl0|]. exists m. split; [exact Hm|]. split; [exact Hb|]. eapply Forall2_mono; [|exact L1]. intros x1 l1. apply slot_mono. exact HS'.
      * intros l1 Hl1. destruct (si_done _ V l1 Hl1) as [K1 K2]. split; [exact K1|]. destruct K2 as [K2|K2]; [left; exact K2|right; apply (turns_mono (seen c)); [intros s0 Hs0; apply HS', HS; exact Hs0|exact K2]].
      * intros s Hs. apply HS', HS, V. exact Hs.
      * destruct (si_one _ V) as [K|[K K']]; [left; exact K|right]. rewrite Ec in K, K'. split; [lia|]. rewrite C2. exact K'.
  - destruct (sc_wait c) as [|s w] eqn:Ew; [apply ok_inj in H; subst c'; unfold plot_current_sim; rewrite Ec; exact V|]. apply (sinv_pop c); auto.
Qed.
Lemma sinv_run fuel : forall c r, sinv c -> sim_run cf avoid a fuel c = Some (Ok r) -> sinv r /\ sim_finished r = true.
Proof.
  induction fuel as [|f IH]; intros c r V H; cbn [sim_run] in H; (destruct (sim_finished c) eqn:Ef; [injection H as <-; auto|]); [discriminate|].
  destruct (do_step_sim cf avoid a c) as [c1|e] eqn:Es; [|discriminate]. apply (IH _ _ (sinv_step _ _ V Es) H).
Qed.
Lemma sinv_final c : sinv c -> sim_finished c = true -> good_lines a bound imm init (List.concat (sc_done c)) /\ forall s, In s I0 -> In s (starts (List.concat (sc_done c))).
Proof.
  intros V Hf. pose proof (si_cur _ V) as Vc. unfold sim_finished in Hf. assert (E : sc_cur c = None /\ sc_wait c = []).
  { destruct (sc_cur c) as [[|x items]|]; [destruct Vc; congruence|discriminate|]. destruct (sc_wait c); [auto|discriminate]. }
  destruct E as [E1 E2]. rewrite E1 in Vc.
  assert (HS : forall s, seen c s -> In s (starts (List.concat (sc_done c)))). { intros s Hs. unfold seen in Hs. rewrite E2, Vc, app_nil_r in Hs. exact Hs. }
  split; [|intros s Hs; apply HS; apply V; exact Hs]. intros l Hl. destruct (si_done _ V l Hl) as [(m & s0 & r & K1 & K2 & K3) K4]. split; [eauto|]. destruct K4 as [K4|K4]; [left; exact K4|right; eapply turns_mono; eauto].
Qed.
End S.
