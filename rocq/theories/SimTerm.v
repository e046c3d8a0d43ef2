(** Without urgent guards the simulation ends. *)
From Verif Require Import Base BaseFacts LpModel LpSpec SetSpec LpUtil Automaton StateSet HybridSpec AutoFacts CoreModel CorePop Prop_Automaton Sim SimSpec SimFacts.
Open Scope nat_scope.

Section S.
Variable cf : cfg.
Variable avoid : list string.
Variable a : ha.
Hypothesis Hurg : cf_urgent cf = false.
Notation bound := (cf_num cf).

Definition wgt (s : sim) : nat := S (bound - sm_n s).
Definition mw (w : list sim) : nat := list_sum (map wgt w).
Definition iwgt (x : option sim * bool) : nat := match x with (Some s, false) => wgt s | _ => 0 end.
Definition mi (items : list (option sim * bool)) : nat := list_sum (map iwgt items).
Definition inb (x : option sim * bool) : Prop := match x with (Some s, false) => sm_n s <= bound | _ => True end.
Lemma mw_app u v : mw (u ++ v) = mw u + mw v.
Proof. unfold mw. rewrite map_app, list_sum_app. reflexivity. Qed.
Lemma live_cons x items : live (x :: items) = (match x with (Some _, false) => 1 | _ => 0 end) + live items.
Proof. unfold live. cbn [filter]. destruct x as [[s|] [|]]; reflexivity. Qed.
Lemma mi_cons x items : mi (x :: items) = iwgt x + mi items.
Proof. reflexivity. Qed.

Lemma sim_loop_measure : forall items try wait fin l' y w f, sim_loop cf a items try wait fin = Ok (l', y, w, f) -> Forall inb items ->
  mi l' + mw w <= mi items + mw wait /\ (try = false -> 0 < live items -> mi l' + mw w < mi items + mw wait) /\ (mi l' + mw w = mi items + mw wait -> live l' = 0) /\
  (live items = 0 -> f = fin) /\ Forall inb l' /\ Forall (fun s => sm_n s <= bound \/ In s wait) w.
Proof.
  induction items as [|[o tk] items IH]; intros try wait fin l' y w f H HF; cbn [sim_loop] in H.
  { apply ok_inj in H. inversion H; subst. split; [lia|]. split; [cbn; lia|]. split; [reflexivity|]. split; [reflexivity|]. split; [constructor|]. apply Forall_forall. auto. }
  inversion HF as [|? ? Hx HF']; subst.
  assert (Die : (do x <- sim_loop cf a items try wait fin; let '(l1, y1, w1, f1) := x in Ok ((None, tk) :: l1, y1, w1, f1)) = Ok (l', y, w, f) ->
    mi l' + mw w <= mi ((o, tk) :: items) + mw wait /\ (try = false -> 0 < live ((o, tk) :: items) -> mi l' + mw w < mi ((o, tk) :: items) + mw wait) /\ (mi l' + mw w = mi ((o, tk) :: items) + mw wait -> live l' = 0) /\
    (live ((o, tk) :: items) = 0 -> f = fin) /\ Forall inb l' /\ Forall (fun s => sm_n s <= bound \/ In s wait) w).
  { intro K. apply bind_ok in K as ([[[l1 y1] w1] f1] & K & K'). apply ok_inj in K'. inversion K'; subst. apply IH in K as (K1 & K2 & K3 & K4 & K5 & K6); [|exact HF']. rewrite !mi_cons, !live_cons.
    assert (HW : (match (o, tk) with (Some _, false) => 1 | _ => 0 end) <= iwgt (o, tk)) by (destruct o as [s|]; [destruct tk; cbn; unfold wgt; lia|cbn; lia]).
    assert (HZ : iwgt (None, tk) = 0) by (destruct tk; reflexivity). rewrite ?HZ.
    change (match o with Some s => match tk with true => 0 | false => wgt s end | None => 0 end) with (iwgt (o, tk)) in *.
    generalize dependent (iwgt (o, tk)). intros wi HW. set (li := match (o, tk) with (Some _, false) => 1 | _ => 0 end) in *. clearbody li. clear Hx HF.
    split; [lia|]. split; [intros E L; destruct (Nat.eq_dec (live items) 0); [lia|specialize (K2 E); lia]|]. split; [intro E; rewrite ?live_cons; cbn; apply K3; lia|]. split; [intro E; apply K4; lia|]. split; [constructor; [exact Logic.I|exact K5]|exact K6]. }
  destruct o as [s|]; [|apply Die; exact H]. destruct (Nat.eqb_spec (sm_n s) bound) as [En|En]; [apply Die; exact H|]. destruct tk; [apply Die; exact H|]. cbn in Hx.
  apply bind_ok in H as (e & He & H). destruct e as [t|].
  - assert (Et : try = true) by (destruct try; [reflexivity|apply ok_inj in He; discriminate]). apply bind_ok in H as (q & _ & H). apply bind_ok in H as ([[[l1 y1] w1] f1] & K & K'). apply ok_inj in K'. inversion K'; subst.
    apply IH in K as (K1 & K2 & K3 & K4 & K5 & K6); [|exact HF']. rewrite !mi_cons, !live_cons. cbn [iwgt]. assert (Ew : mw (wait ++ [mkSim (snd q) (fst q) (sm_n s)]) = mw wait + wgt s) by (rewrite mw_app; unfold mw at 2; cbn [map list_sum fold_right]; unfold wgt; cbn [sm_n]; lia).
    assert (Hp : 0 < wgt s) by (unfold wgt; lia).
    destruct (is_error (get_mode a (snd q))).
    + split; [lia|]. split; [discriminate|]. split; [intro E; apply K3; lia|]. split; [lia|]. split; [constructor; [exact Logic.I|exact K5]|exact K6].
    + rewrite Ew in *. split; [lia|]. split; [discriminate|]. split; [intro E; apply K3; lia|]. split; [lia|]. split; [constructor; [exact Logic.I|exact K5]|].
      eapply Forall_impl; [|exact K6]. intros s1 [K|K]; [auto|]. apply in_app_or in K as [K|[<-|[]]]; [auto|]. left. exact Hx.
  - destruct (negb _); [apply Die; exact H|]. apply bind_ok in H as ([[[l1 y1] w1] f1] & K & K'). apply ok_inj in K'. inversion K'; subst.
    apply IH in K as (K1 & K2 & K3 & K4 & K5 & K6); [|exact HF']. rewrite !mi_cons, !live_cons. cbn [iwgt]. unfold wgt. cbn [sm_n]. split; [lia|]. split; [lia|]. split; [lia|]. split; [lia|]. split; [constructor; [cbn; lia|exact K5]|exact K6].
Qed.

Definition stage (c : simcore) : nat := match sc_cur c with None => 1 | Some items => if live items =? 0 then 2 else if sc_try c then 3 else 0 end.
Definition msr (c : simcore) : nat := 4 * (mw (sc_wait c) + match sc_cur c with None => 0 | Some items => mi items end) + stage c.
Definition tinv (c : simcore) : Prop := Forall (fun s => sm_n s <= bound) (sc_wait c) /\ match sc_cur c with None => True | Some items => items <> [] /\ Forall inb items end.
Lemma msr_plot c : msr (plot_current_sim c) = msr c /\ (tinv c -> tinv (plot_current_sim c)).
Proof. unfold plot_current_sim. destruct (sc_cur c) as [[|x items]|] eqn:E; auto. unfold msr, stage, tinv. cbn [sc_cur sc_wait sc_try]. rewrite E. auto. Qed.

Lemma msr_step c c' : tinv c -> sim_finished c = false -> do_step_sim cf avoid a c = Ok c' -> tinv c' /\ msr c' < msr c.
Proof.
  intros [T1 T2] Hf H. unfold do_step_sim in H. unfold sim_finished in Hf. destruct (sc_cur c) as [items|] eqn:Ec.
  - destruct T2 as [Hne T2]. destruct items as [|x items]; [congruence|]. set (its := x :: items) in *. apply bind_ok in H as ([[[l y] w] f] & HL & H).
    pose proof (sim_loop_count cf a _ _ _ _ _ _ _ _ HL) as [_ C2]. destruct (sim_loop_measure _ _ _ _ _ _ _ _ HL T2) as (M1 & M2 & M3 & M4 & M5 & M6).
    assert (T1' : Forall (fun s => sm_n s <= bound) w). { apply Forall_forall. intros s Hs. destruct (proj1 (Forall_forall _ _) M6 s Hs) as [K|K]; [exact K|]. exact (proj1 (Forall_forall _ _) T1 s K). }
    assert (El : l <> []) by (intro K; rewrite K in C2; cbn in C2; discriminate).
    unfold msr, stage. rewrite Ec. fold its. destruct f; apply ok_inj in H; subst c'; cbn [sc_cur sc_wait sc_try]; (split; [split; cbn [sc_wait sc_cur]; auto|]).
    + destruct (Nat.eqb_spec (live its) 0) as [E|E]; [lia|]. destruct (sc_try c) eqn:Et; [lia|]. specialize (M2 eq_refl). lia.
    + destruct (Nat.eqb_spec (live its) 0) as [E|E]; [specialize (M4 E); discriminate|]. destruct (sc_try c) eqn:Et.
      * destruct (Nat.eq_dec (mi l + mw w) (mi its + mw (sc_wait c))) as [Eq|Ne].
        -- rewrite (M3 Eq). cbn [Nat.eqb]. lia.
        -- destruct (live l =? 0); [lia|]. destruct y; lia.
      * specialize (M2 eq_refl ltac:(lia)). destruct (live l =? 0); [lia|]. destruct y; lia.
  - destruct (sc_wait c) as [|s w] eqn:Ew; [discriminate|]. rewrite <- Ew in *. clear s w Ew. unfold sim_pop in H. apply bind_ok in H as (m & Hm & H). apply bind_ok in H as (? & _ & H). apply bind_ok in H as (? & _ & H). apply ok_inj in H. subst c'.
    apply pop_mode_in in Hm as (s1 & Hs1 & Em). set (mine := filter (fun s => sm_mode s =? m) (sc_wait c)). set (rest := filter (fun s => negb (sm_mode s =? m)) (sc_wait c)).
    assert (Hin : In s1 mine) by (apply filter_In; split; [exact Hs1|apply Nat.eqb_eq; exact Em]).
    assert (L : mi (map (fun s => (Some s, false)) mine) + mw rest = mw (sc_wait c)).
    { unfold mine, rest, mi, mw. clear. induction (sc_wait c) as [|s w IH]; [reflexivity|]. cbn [filter]. destruct (sm_mode s =? m); cbn [negb map list_sum fold_right iwgt] in *; fold (list_sum) in *; unfold list_sum in *; lia. }
    assert (Lv : live (map (fun s => (Some s, false)) mine) = List.length mine). { unfold live. clear. induction mine as [|s l IH]; [reflexivity|]. cbn [map filter List.length]. lia. }
    assert (Lm : 0 < List.length mine) by (destruct mine; [destruct Hin|cbn; lia]).
    split.
    + split; cbn [sc_wait sc_cur].
      * apply Forall_forall. intros s Hs. apply filter_In in Hs as [Hs _]. exact (proj1 (Forall_forall _ _) T1 s Hs).
      * split; [destruct mine; [cbn in Lm; lia|discriminate]|]. apply Forall_map. apply Forall_forall. intros s Hs. apply filter_In in Hs as [Hs _]. exact (proj1 (Forall_forall _ _) T1 s Hs).
    + unfold msr, stage. rewrite Ec. cbn [sc_cur sc_wait sc_try]. rewrite Lv, Hurg. destruct (Nat.eqb_spec (List.length mine) 0); lia.
Qed.
Lemma sim_run_ends fuel : forall c, tinv c -> msr c <= fuel -> sim_run cf avoid a fuel c <> None.
Proof.
  induction fuel as [|f IH]; intros c T M; cbn [sim_run]; (destruct (sim_finished c) eqn:Ef; [discriminate|]).
  - unfold msr, stage in M. unfold tinv in T. unfold sim_finished in Ef. destruct (sc_cur c) as [items|] eqn:Ec; [|lia]. exfalso. destruct T as [_ [T2 _]].
    destruct (Nat.eqb_spec (live items) 0); [lia|]. destruct (sc_try c); [lia|]. assert (mi items > 0); [|lia].
    clear -n. induction items as [|[[s|] [|]] items IH]; cbn in n |- *; try lia; unfold mi in *; cbn in *; try lia; try (apply IH; unfold live in *; cbn in *; lia).
  - destruct (do_step_sim cf avoid a c) as [c1|e] eqn:Es; [|discriminate]. destruct (msr_step c c1 T Ef Es) as [T1 M1]. destruct (msr_plot c1) as [P1 P2]. apply IH; [apply P2; exact T1|]. rewrite P1. lia.
Qed.
End S.
