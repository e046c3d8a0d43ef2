(** C67: plotting, pausing, stepping and recording the analysis do not change what its verdict means. *)
From Verif Require Import Base BaseFacts LpModel LpSpec SetSpec LpUtil LpFacts ChullFacts ApiSpec ApiFacts Automaton StateSet HybridSpec FlowFacts StateSpec
  StateFacts StateFacts2 StateFacts3 AutoFacts CoreModel HeapFacts CoreOps CoreGhost CoreHeap CoreInv CoreStep CoreCont CorePop CoreMono CoreFinal
  CoreSpec CoreSetup SetupHa CoreTT CoreSub SetupHaSub Prop_Core Prop_Core2 CorePaint Animate AnimFacts.
Open Scope nat_scope.

Definition self_running (m : plot_mode) : Prop := m = PlotNone \/ m = PlotImage \/ m = PlotVideo.

Section Anim.
Variable solve : solver.
Hypothesis Hsolve : solver_ok solve.
Variable arnoldi : nat -> option (list Q) -> csr -> option csr -> nat -> list (list Q).

(** Without a window (no plot, an image, a video) Core.run returns only when the computation is finished. *)
Theorem C67_saved_plot_complete cf a0 inits st skip paint es fuel c : self_running (as_mode st) ->
  plotted_run solve arnoldi cf a0 inits st skip paint es fuel = Some (Ok c) -> is_finished cf c = true.
Proof.
  intros Hm Hrun. assert (Hs : exists a, setup_ha cf a0 = Ok a).
  { unfold plotted_run in Hrun. destruct (assert _) as [u|e]; cbn [bind] in Hrun; [|discriminate]. destruct (setup_ha cf a0) as [a|e]; [eauto|discriminate]. }
  destruct Hs as (a & Hs). destruct (plotted_run_driven solve arnoldi painted cf a0 a inits st skip paint es fuel c) as (c0 & k & _ & _ & K); auto.
  intros s s' H. apply draw_painted in H. apply H.
Qed.

(** The verdict "safe" is sound for every plot mode, whatever is drawn when, whatever the user clicks, if the computation is
    finished when the plot is closed; an image, a video and no plot need no such condition. *)
Theorem C67_safe_verdict_sound cf a0 a inits st skip paint es fuel c :
  wf_ha a0 -> inputs_plain a0 -> zero_plain cf a0 -> path_ok cf -> setup_ha cf a0 = Ok a -> no_tt cf a -> Forall (init_ok solve a0) inits ->
  plotted_run solve arnoldi cf a0 inits st skip paint es fuel = Some (Ok c) -> self_running (as_mode st) \/ is_finished cf c = true ->
  c_aggerr c = false -> c_concerr c = false ->
  ~ error_reachable 0 (rules_of cf) a0 (init_of_list inits).
Proof.
  intros W0 Hinp HZ Hpath Hs Htt Hinit Hrun Hfin H1 H2 HE.
  assert (Hb : ~ bad cf c) by (intros [[_ K]|[_ K]]; congruence).
  assert (Hf : is_finished cf c = true) by (destruct Hfin as [K|K]; [eapply C67_saved_plot_complete; eauto|exact K]).
  destruct (plotted_run_driven solve arnoldi painted cf a0 a inits st skip paint es fuel c) as (c0 & k & Esu & Hd & _); auto; [intros s s' H; apply draw_painted in H; apply H|].
  destruct (driven_final solve Hsolve arnoldi cf a0 a inits c0 k c W0 Hinp Hpath Hs Htt Hinit Esu Hd Hf Hb) as (I0 & D & W & B & Hw & Hdn & Hi).
  destruct (setup_ha_ok cf a0 a W0 Hs) as (Em & _ & HE'). apply (cap_error cf a0 _ W0 HZ) in HE; [|intros m p; eapply init_of_list_mode; eauto].
  apply (HE' Htt) in HE. replace (core_rules cf a0) with (core_rules cf a) in HE.
  - exact (safe_sound solve cf a W (core_rules cf a) I0 (init_of_list inits) c D B Hw Hdn Hi H1 H2 HE).
  - unfold core_rules. unfold get_mode. rewrite Em. reflexivity.
Qed.

(** A concrete error is real, even if the window was closed in the middle of the computation. *)
Theorem C67_concrete_error_real cf a0 a inits st skip paint es fuel c :
  wf_ha a0 -> inputs_plain a0 -> no_deagg cf -> setup_ha cf a0 = Ok a -> no_tt cf a -> Forall (init_ok solve a0) inits ->
  plotted_run solve arnoldi cf a0 inits st skip paint es fuel = Some (Ok c) -> c_concerr c = true ->
  error_reachable tol13 (rules_of cf) a0 (init_of_list inits).
Proof.
  intros W0 Hinp Hnd Hs Htt Hinit Hrun He. destruct (setup_ha_ok cf a0 a W0 Hs) as (Em & W & _). apply (setup_ha_sub cf a0 a tol13 W0 Hs Htt).
  assert (Hinit' : Forall (init_ok solve a) inits) by (eapply Forall_impl; [|exact Hinit]; intros s Hsx; eapply init_ok_modes; eauto).
  assert (Hinp' : inputs_plain a). { intros m Hm. rewrite (get_mode_eq a0 a m Em). apply Hinp. rewrite <- Em. exact Hm. }
  destruct (plotted_run_driven solve arnoldi painted cf a0 a inits st skip paint es fuel c) as (c0 & k & Esu & Hd & _); auto; [intros s s' H; apply draw_painted in H; apply H|].
  destruct (driven_gi solve Hsolve arnoldi cf a inits c0 k c W Hinp' Hnd Hinit' Esu Hd) as [G _]. exact (gi_err _ _ _ _ _ G He).
Qed.

(** ** what a frame, a button and a pause do *)
Section Buttons.
Variable cf : cfg.
Variable a : ha.
Variable st : aset.
Variable paint : nat -> core -> res (list (nat * srow)).
Notation handle := (handle solve arnoldi cf a st paint).
Notation drivenp := (driven solve arnoldi cf a painted).
Let HR s s' (H : draw paint s = Ok s') : painted (an_core s) (an_core s') := proj1 (draw_painted paint s s' H).

(** a live frame makes exactly draw_stride steps of the computation *)
Theorem C67_live_frame s s' : as_mode st = PlotLive -> is_finished cf (an_core s) = false -> handle s Frame = Ok s' ->
  drivenp (an_core s) (as_stride st) (an_core s').
Proof.
  intros Em Ef H. cbn [Animate.handle] in H. rewrite Ef in H. assert (Ep : pausable st = false) by (unfold pausable; rewrite Em; reflexivity).
  destruct (anim_draws solve arnoldi cf a st paint painted HR (an_core s) 0 s s') as (j & _ & _ & D & _ & _ & J & _); [rewrite Ep; apply andb_false_r|apply d_refl|exact H|].
  rewrite <- (J Ep). exact D.
Qed.
(** pressing Step makes exactly one step in the next frame, paused or not before, and pauses again *)
Theorem C67_step_button s s1 s2 : as_mode st = PlotInteractive -> 0 < as_stride st -> is_finished cf (an_core s) = false ->
  handle s Step = Ok s1 -> handle s1 Frame = Ok s2 -> drivenp (an_core s) 1 (an_core s2) /\ an_paused s2 = true /\ an_step s2 = false.
Proof.
  intros Em Hst Ef H1 H2. cbn [Animate.handle] in H1. apply ok_inj in H1. subst s1. cbn [Animate.handle an_core] in H2. rewrite Ef in H2.
  assert (Ep : pausable st = true) by (unfold pausable; rewrite Em; reflexivity).
  apply (anim_draws solve arnoldi cf a st paint painted HR (an_core s) 0) in H2 as (j & _ & J2 & D & _ & _ & _ & J & J1); [|reflexivity|apply d_refl].
  assert (j = 1) by (specialize (J2 Hst); specialize (J1 Ep eq_refl); lia). subst j. split; [exact D|]. destruct (J Ep) as [[_ K]|K]; [|exact K]. destruct (K Hst) as [K1 _]. discriminate K1.
Qed.
(** after Next a frame makes between one and draw_stride steps; fewer only when it pauses *)
Theorem C67_next_button s s1 s2 : as_mode st = PlotInteractive -> 0 < as_stride st -> is_finished cf (an_core s) = false ->
  handle s Next = Ok s1 -> handle s1 Frame = Ok s2 ->
  exists n, 1 <= n <= as_stride st /\ drivenp (an_core s) n (an_core s2) /\ (n < as_stride st -> an_paused s2 = true).
Proof.
  intros Em Hst Ef H1 H2. cbn [Animate.handle] in H1. apply ok_inj in H1. subst s1. cbn [Animate.handle an_core] in H2. rewrite Ef in H2.
  assert (Ep : pausable st = true) by (unfold pausable; rewrite Em; reflexivity).
  apply (anim_draws solve arnoldi cf a st paint painted HR (an_core s) 0) in H2 as (j & J1 & J2 & D & _ & _ & _ & J & _); [|reflexivity|apply d_refl].
  exists j. split; [split; [apply J2; exact Hst|exact J1]|]. split; [exact D|]. intro L. destruct (J Ep) as [[K _]|[K _]]; [lia|exact K].
Qed.
(** Next stops at the first pop (or start of a replay): from a waiting state the frame makes one step and pauses. *)
Definition at_pop (c : core) : Prop := cur_state c = None /\ c_rep c = None.
Theorem C67_next_stops_at_pop s s1 s2 : as_mode st = PlotInteractive -> 0 < as_stride st -> is_finished cf (an_core s) = false -> at_pop (an_core s) ->
  handle s Next = Ok s1 -> handle s1 Frame = Ok s2 -> drivenp (an_core s) 1 (an_core s2) /\ an_paused s2 = true /\ an_step s2 = false.
Proof.
  intros Em Hst Ef [P1 P2] H1 H2. cbn [Animate.handle] in H1. apply ok_inj in H1. subst s1. cbn [Animate.handle an_core] in H2. rewrite Ef in H2.
  unfold anim_func in H2. rewrite Em in H2. cbn [an_paused] in H2. destruct (as_stride st) as [|n]; [lia|]. cbn [frame_steps] in H2.
  apply bind_ok in H2 as (s3 & H3 & H2). apply bind_ok in H3 as (s4 & H4 & H3). assert (D4 : drivenp (an_core s) 1 (an_core s4)) by (eapply (plot_step_driven solve arnoldi cf a paint painted HR (an_core s) 0); [|exact H4]; apply d_refl).
  apply (plot_step_core solve arnoldi cf a paint painted HR) in H4 as (c & _ & _ & E1 & E2 & _). cbn [an_core an_paused an_step] in E1, E2.
  assert (Es : step_pauses cf (an_core s) = true).
  { unfold step_pauses. rewrite Ef, P1, P2. destruct (doing_replay (an_core s)); reflexivity. }
  rewrite Es in E1, E2. cbn in E1, E2. unfold pausable in H3. rewrite Em, E1, orb_true_r in H3. cbn [andb] in H3. apply ok_inj in H3. subst s3.
  apply bind_ok in H2 as (s5 & H5 & H2). apply ok_inj in H2. subst s2. cbn [an_core an_paused an_step].
  destruct (draw_cur_driven solve arnoldi cf a paint painted HR (an_core s) 1 (pause s4) s5 D4 H5) as (L1 & L2 & L3 & _). split; [exact L1|]. rewrite L2, L3. auto.
Qed.
Lemma frame_pop c0 : pausable st = true -> forall n k s s', drivenp c0 k (an_core s) -> frame_steps solve arnoldi cf a st paint n s = Ok s' ->
  an_step s = false -> an_paused s = false -> an_paused s' = true ->
  exists j c', j < n /\ drivenp c0 (k + j) c' /\ at_pop c' /\ drivenp c' 1 (an_core s').
Proof.
  intros Epa. induction n as [|n IH]; intros k s s' D H Hs Hp Hp'; cbn [frame_steps] in H; [apply ok_inj in H; subst; congruence|].
  apply bind_ok in H as (s1 & H1 & H). pose proof (plot_step_driven solve arnoldi cf a paint painted HR c0 k s s1 D H1) as D1.
  assert (D0 : drivenp (an_core s) 1 (an_core s1)) by (eapply (plot_step_driven solve arnoldi cf a paint painted HR (an_core s) 0); [|exact H1]; apply d_refl).
  apply (plot_step_core solve arnoldi cf a paint painted HR) in H1 as (c & _ & _ & E1 & E2 & _). rewrite Hp, orb_false_r in E1. rewrite Hs, andb_false_r in E2.
  destruct (step_pauses cf (an_core s)) eqn:Es.
  - assert (Hpop : at_pop (an_core s)).
    { unfold step_pauses in Es. apply andb_true_iff in Es as [_ Es]. unfold at_pop. destruct (cur_state (an_core s)) as [x|]; [discriminate|]. split; [reflexivity|].
      unfold doing_replay in Es. destruct (c_rep (an_core s)) as [r|]; [discriminate|reflexivity]. }
    exists 0, (an_core s). rewrite Nat.add_0_r. split; [lia|]. split; [exact D|]. split; [exact Hpop|].
    rewrite E1, E2, Epa in H. cbn [orb andb] in H. apply ok_inj in H. subst s'. exact D0.
  - rewrite E1, E2, Epa in H. cbn [orb andb] in H. destruct (IH (Datatypes.S k) s1 s' D1 H E2 E1 Hp') as (j & c' & J1 & J2 & J3 & J4).
    exists (Datatypes.S j), c'. replace (k + Datatypes.S j) with (Datatypes.S k + j) by lia. split; [lia|auto].
Qed.
(** and it pauses for nothing else *)
Theorem C67_next_stops_only_at_pop s s1 s2 : as_mode st = PlotInteractive -> is_finished cf (an_core s) = false -> an_step s = false ->
  handle s Next = Ok s1 -> handle s1 Frame = Ok s2 -> an_paused s2 = true ->
  exists n c', n < as_stride st /\ drivenp (an_core s) n c' /\ at_pop c' /\ drivenp c' 1 (an_core s2).
Proof.
  intros Em Ef Hs H1 H2 Hp. cbn [Animate.handle] in H1. apply ok_inj in H1. subst s1. cbn [Animate.handle an_core] in H2. rewrite Ef in H2.
  assert (Epa : pausable st = true) by (unfold pausable; rewrite Em; reflexivity).
  unfold anim_func in H2. rewrite Em in H2. cbn [an_paused] in H2.
  apply bind_ok in H2 as (s3 & H3 & H2). apply bind_ok in H2 as (s5 & H5 & H2). apply ok_inj in H2. subst s2. cbn [an_core an_paused an_step] in *.
  assert (Hp3 : an_paused s3 = true).
  { destruct (cur_state (an_core s3)); [|apply ok_inj in H5; subst; exact Hp]. apply draw_painted in H5 as (_ & K & _). congruence. }
  eapply (frame_pop (an_core s) Epa _ 0) in H3; [|apply d_refl|exact Hs|reflexivity|exact Hp3]. destruct H3 as (j & c' & J1 & J2 & J3 & J4).
  exists j, c'. split; [exact J1|]. split; [exact J2|]. split; [exact J3|]. eapply draw_cur_driven; [exact HR|exact J4|exact H5].
Qed.
(** a paused window waits: without skips left nothing at all happens until a button is pressed *)
Theorem C67_paused_waits s n : as_mode st = PlotInteractive -> an_paused s = true -> (an_skip s <= 0)%Z ->
  window solve arnoldi cf a st paint s (List.repeat Frame n) = Ok s.
Proof.
  intros Em Hp Hk. induction n as [|n IH]; cbn [List.repeat window]; [reflexivity|]. cbn [Animate.handle]. unfold anim_func. rewrite Em, Hp.
  replace (0 <? an_skip s)%Z with false by (symmetry; apply Z.ltb_ge; exact Hk). destruct (is_finished cf (an_core s)); cbn [bind]; exact IH.
Qed.
(** interactive_skip_count presses Next that many times: each paused frame uses one up *)
Theorem C67_skip_count s : as_mode st = PlotInteractive -> an_paused s = true -> (0 < an_skip s)%Z -> is_finished cf (an_core s) = false ->
  exists s', handle s Frame = Ok s' /\ an_core s' = an_core s /\ an_paused s' = false /\ an_skip s' = (an_skip s - 1)%Z.
Proof.
  intros Em Hp Hk Ef. cbn [Animate.handle]. rewrite Ef. unfold anim_func. rewrite Em, Hp. replace (0 <? an_skip s)%Z with true by (symmetry; apply Z.ltb_lt; exact Hk). eauto 6.
Qed.

(** a pause in a video lasts for exactly max(1, video_pause_frames) + 1 frames showing the same picture *)
Lemma video_wait : forall n p s, as_mode st = PlotVideo -> an_paused s = true -> an_pf s = Some p -> (p <= Z.of_nat (S n))%Z -> n = 0 \/ Z.of_nat (S n) = p -> forall k, k <= S n ->
  exists s', extra_frames solve arnoldi cf a st paint k s = Ok s' /\ an_core s' = an_core s /\ an_paused s' = negb (k =? S n) /\ an_step s' = an_step s /\ (k = S n -> an_pf s' = None).
Proof.
  induction n as [|n IH]; intros p s Em Hp Hf Hle Heq k Hk.
  - destruct k as [|[|k]]; [|  |lia].
    + exists s. cbn. split; [reflexivity|]. split; [reflexivity|]. split; [exact Hp|]. split; [reflexivity|]. discriminate.
    + cbn [extra_frames]. unfold anim_func. rewrite Em, Hp, Hf. replace (p - 1 <=? 0)%Z with true by (symmetry; apply Z.leb_le; lia). cbn [bind]. eexists. split; [reflexivity|]. cbn. auto.
  - destruct Heq as [Heq|Heq]; [discriminate|]. destruct k as [|k].
    + exists s. cbn. split; [reflexivity|]. split; [reflexivity|]. split; [exact Hp|]. split; [reflexivity|]. discriminate.
    + cbn [extra_frames]. unfold anim_func. rewrite Em, Hp, Hf. replace (p - 1 <=? 0)%Z with false by (symmetry; apply Z.leb_gt; lia). cbn [bind].
      destruct (IH (p - 1)%Z (mkAnim (an_core s) true (an_step s) (Some (p - 1)%Z) (an_skip s) (an_drawn s) (an_tick s)) Em eq_refl eq_refl ltac:(lia) ltac:(right; lia) k ltac:(lia)) as (s' & L1 & L2 & L3 & L4 & L5).
      exists s'. split; [exact L1|]. split; [exact L2|]. split; [exact L3|]. split; [exact L4|]. intro K. apply L5. lia.
Qed.
Theorem C67_video_pause s k : as_mode st = PlotVideo -> an_paused s = true -> an_pf s = None -> k <= S (Z.to_nat (Z.max 1 (as_pause st))) ->
  exists s', extra_frames solve arnoldi cf a st paint k s = Ok s' /\ an_core s' = an_core s /\ an_paused s' = negb (k =? S (Z.to_nat (Z.max 1 (as_pause st)))) /\
    (k = S (Z.to_nat (Z.max 1 (as_pause st))) -> an_pf s' = None).
Proof.
  intros Em Hp Hf Hk. destruct k as [|k]; [exists s; cbn; split; [reflexivity|]; split; [reflexivity|]; split; [exact Hp|discriminate]|]. cbn [extra_frames]. unfold anim_func. rewrite Em, Hp, Hf. cbn [bind].
  set (n := Z.to_nat (Z.max 1 (as_pause st)) - 1). assert (En : Z.to_nat (Z.max 1 (as_pause st)) = S n) by lia. rewrite En in *.
  destruct (video_wait n (as_pause st) (mkAnim (an_core s) true (an_step s) (Some (as_pause st)) (an_skip s) (an_drawn s) (an_tick s)) Em eq_refl eq_refl ltac:(lia)) with (k := k) as (s' & L1 & L2 & L3 & _ & L5); [lia|lia|].
  exists s'. split; [exact L1|]. split; [exact L2|]. split; [exact L3|]. intro K. apply L5. lia.
Qed.
End Buttons.

(** ** all plot modes compute the same *)
Definition no_paint : nat -> core -> res (list (nat * srow)) := fun _ _ => Ok [].
Lemma draw_none s s' : draw no_paint s = Ok s' -> an_core s = an_core s'.
Proof. unfold draw, no_paint. cbn [bind fold_left]. intro H. apply ok_inj in H. subst. reflexivity. Qed.

Section Same.
Variable cf : cfg.
Variable a : ha.
Notation run_loop := (run_loop solve arnoldi cf a).
Notation do_step := (do_step solve arnoldi cf a).
Lemma loop_more f : forall c r, run_loop f c = Some (Ok r) -> run_loop (S f) c = Some (Ok r).
Proof.
  induction f as [|f IH]; intros c r H; cbn [CoreModel.run_loop] in H |- *; destruct (is_finished cf c); auto; [discriminate|].
  destruct (do_step c) as [c1|e]; [|exact H]. apply IH. exact H.
Qed.
Lemma loop_finished f : forall c r, run_loop f c = Some (Ok r) -> is_finished cf r = true.
Proof.
  induction f as [|f IH]; intros c r H; cbn [CoreModel.run_loop] in H; destruct (is_finished cf c) eqn:E; try (injection H as <-; exact E); [discriminate|].
  destruct (do_step c) as [c1|e]; [|discriminate]. apply (IH c1). exact H.
Qed.
Lemma loop_next f c r : run_loop (S f) c = Some (Ok r) -> is_finished cf c = false -> exists c1, do_step c = Ok c1 /\ run_loop f c1 = Some (Ok r).
Proof. intros H E. cbn [CoreModel.run_loop] in H. rewrite E in H. destruct (do_step c) as [c1|e]; [eauto|discriminate]. Qed.
Lemma fin_step c : is_finished cf c = true -> do_step c = Ok c.
Proof. intro H. unfold CoreModel.do_step. rewrite H. reflexivity. Qed.
Lemma loop_fin f c r : run_loop f c = Some (Ok r) -> is_finished cf c = true -> c = r.
Proof. intros H E. destruct f; cbn [CoreModel.run_loop] in H; rewrite E in H; injection H as <-; reflexivity. Qed.
Lemma loop_keep f c r : run_loop f c = Some (Ok r) -> exists c1, do_step c = Ok c1 /\ run_loop f c1 = Some (Ok r).
Proof.
  intro H. destruct (is_finished cf c) eqn:E; [exists c; split; [apply fin_step; exact E|exact H]|]. destruct f as [|f]; [cbn [CoreModel.run_loop] in H; rewrite E in H; discriminate|].
  destruct (loop_next f c r H E) as (c1 & K1 & K2). exists c1. split; [exact K1|apply loop_more; exact K2].
Qed.
Lemma driven_run c0 k c : driven solve arnoldi cf a eq c0 k c -> forall f r, run_loop f c = Some (Ok r) -> exists f', run_loop f' c0 = Some (Ok r).
Proof.
  induction 1 as [|k c c' _ IH H|k c c' _ IH ->]; intros f r Hr; [eauto| |eauto]. destruct (is_finished cf c) eqn:E.
  - rewrite (fin_step c E) in H. apply ok_inj in H. subst c'. eauto.
  - apply (IH (S f)). cbn [CoreModel.run_loop]. rewrite E, H. exact Hr.
Qed.

Variable st : aset.
Hypothesis Hst : 0 < as_stride st.
Notation plot_step := (plot_step solve arnoldi cf a no_paint).
Notation anim_func := (anim_func solve arnoldi cf a st no_paint).
Lemma plot_step_ex s c : do_step (an_core s) = Ok c -> exists s', plot_step s = Ok s' /\ an_core s' = c.
Proof. intro H. unfold Animate.plot_step. rewrite H. cbn [bind]. unfold draw, no_paint. cbn [bind fold_left]. eexists. split; [reflexivity|]. reflexivity. Qed.
Lemma draw_cur_ex s : exists s', (match cur_state (an_core s) with Some _ => draw no_paint s | None => Ok s end) = Ok s' /\ an_core s' = an_core s.
Proof. destruct (cur_state (an_core s)); [|eauto]. unfold draw, no_paint. cbn [bind fold_left]. eexists. split; [reflexivity|]. reflexivity. Qed.
Lemma frames_keep f r : forall n s, run_loop f (an_core s) = Some (Ok r) -> exists s', frame_steps solve arnoldi cf a st no_paint n s = Ok s' /\ run_loop f (an_core s') = Some (Ok r).
Proof.
  induction n as [|n IH]; intros s H; cbn [frame_steps]; [eauto|]. destruct (loop_keep f _ r H) as (c & K1 & K2). destruct (plot_step_ex s c K1) as (s1 & L1 & L2). rewrite L1. cbn [bind].
  rewrite <- L2 in K2. destruct (_ && _); [exists (pause s1); split; [reflexivity|exact K2]|apply IH; exact K2].
Qed.
(** a frame that is not waiting makes progress *)
Lemma anim_prog f r s : an_paused s && pausable st = false -> is_finished cf (an_core s) = false -> run_loop (S f) (an_core s) = Some (Ok r) ->
  exists s', anim_func s = Ok s' /\ run_loop f (an_core s') = Some (Ok r).
Proof.
  intros Hp E H. destruct (loop_next f _ r H E) as (c & K1 & K2). destruct (plot_step_ex s c K1) as (s1 & L1 & L2). rewrite <- L2 in K2.
  assert (G : exists s2, frame_steps solve arnoldi cf a st no_paint (as_stride st) s = Ok s2 /\ run_loop f (an_core s2) = Some (Ok r)).
  { destruct (as_stride st) as [|n]; [lia|]. cbn [frame_steps]. rewrite L1. cbn [bind]. destruct ((an_step s1 || an_paused s1) && pausable st); [exists (pause s1); split; [reflexivity|exact K2]|apply frames_keep; exact K2]. }
  destruct G as (s2 & G1 & G2). destruct (draw_cur_ex s2) as (s3 & M1 & M2).
  assert (M : anim_func s = Ok (mkAnim (an_core s3) (an_paused s3) (an_step s3) (an_pf s3) (an_skip s3) (S (an_drawn s3)) (an_tick s3))).
  { unfold Animate.anim_func. unfold pausable in Hp. destruct (as_mode st), (an_paused s); try discriminate Hp; rewrite G1; cbn [bind]; rewrite M1; reflexivity. }
  eexists. split; [exact M|]. cbn [an_core]. rewrite M2. exact G2.
Qed.
Lemma anim_fin s : is_finished cf (an_core s) = true -> exists s', anim_func s = Ok s' /\ an_core s' = an_core s.
Proof.
  intro E. assert (Hl : run_loop 0 (an_core s) = Some (Ok (an_core s))) by (cbn [CoreModel.run_loop]; rewrite E; reflexivity).
  destruct (an_paused s && pausable st) eqn:Ep.
  - assert (K : exists s', anim_func s = Ok s'). { unfold Animate.anim_func. apply andb_true_iff in Ep as [Ep1 Ep2]. rewrite Ep1. unfold pausable in Ep2. destruct (as_mode st); try discriminate Ep2; eauto. }
    destruct K as (s' & K). exists s'. split; [exact K|]. exact (anim_paused solve arnoldi cf a st no_paint s s' Ep K).
  - destruct (frames_keep 0 (an_core s) (as_stride st) s Hl) as (s2 & G1 & G2). destruct (draw_cur_ex s2) as (s3 & M1 & M2).
    assert (M : anim_func s = Ok (mkAnim (an_core s3) (an_paused s3) (an_step s3) (an_pf s3) (an_skip s3) (S (an_drawn s3)) (an_tick s3))).
    { unfold Animate.anim_func. unfold pausable in Ep. destruct (as_mode st), (an_paused s); try discriminate Ep; rewrite G1; cbn [bind]; rewrite M1; reflexivity. }
    eexists. split; [exact M|]. cbn [an_core]. rewrite M2. cbn [CoreModel.run_loop] in G2. destruct (is_finished cf (an_core s2)); [injection G2 as <-; reflexivity|discriminate].
Qed.
Lemma plot_loop_ex f r : forall s, run_loop f (an_core s) = Some (Ok r) -> exists s', plot_loop solve arnoldi cf a no_paint f s = Some (Ok s') /\ an_core s' = r.
Proof.
  induction f as [|f IH]; intros s H; cbn [CoreModel.run_loop plot_loop] in *; destruct (is_finished cf (an_core s)); try (injection H as <-; eauto; fail); [discriminate|].
  destruct (do_step (an_core s)) as [c|e] eqn:E; [|discriminate]. destruct (plot_step_ex s c E) as (s1 & L1 & L2). destruct (draw_cur_ex s1) as (s2 & M1 & M2). rewrite L1. cbn [bind]. rewrite M1. apply IH. rewrite M2, L2. exact H.
Qed.
(** clicking Next before every frame finishes the computation *)
Lemma window_ex f r : forall s, run_loop f (an_core s) = Some (Ok r) -> exists es s', window solve arnoldi cf a st no_paint s es = Ok s' /\ an_core s' = r.
Proof.
  induction f as [|f IH]; intros s H; destruct (is_finished cf (an_core s)) eqn:E.
  - exists [], s. split; [reflexivity|]. apply (loop_fin 0); auto.
  - cbn [CoreModel.run_loop] in H. rewrite E in H. discriminate.
  - exists [], s. split; [reflexivity|]. apply (loop_fin (S f)); auto.
  - destruct (anim_prog f r (mkAnim (an_core s) false (an_step s) (an_pf s) (an_skip s) (an_drawn s) (an_tick s))) as (s1 & K1 & K2); [reflexivity|exact E|exact H|].
    destruct (IH s1 K2) as (es & s' & L1 & L2). exists (Next :: Frame :: es), s'. split; [|exact L2]. cbn [window handle bind]. cbn [an_core]. rewrite E, K1. cbn [bind]. exact L1.
Qed.
Lemma video_frames_wait n : forall s s', extra_frames solve arnoldi cf a st no_paint n s = Ok s' -> (forall k s1, k < n -> extra_frames solve arnoldi cf a st no_paint k s = Ok s1 -> is_finished cf (an_core s1) = false) ->
  forall m, video_frames solve arnoldi cf a st no_paint (n + m) s = video_frames solve arnoldi cf a st no_paint m s'.
Proof.
  induction n as [|n IH]; intros s s' H Hf m; cbn [extra_frames] in H; [apply ok_inj in H; subst; reflexivity|]. apply bind_ok in H as (s1 & H1 & H). cbn [plus video_frames].
  rewrite (Hf 0 s ltac:(lia) eq_refl). rewrite H1. cbn [bind]. apply IH; [exact H|]. intros k s2 Hk K. apply (Hf (S k)); [lia|]. cbn [extra_frames]. rewrite H1. exact K.
Qed.
Lemma video_ex f r : as_mode st = PlotVideo -> forall s, an_pf s = None -> run_loop f (an_core s) = Some (Ok r) ->
  exists n s' m, video_frames solve arnoldi cf a st no_paint n s = Ok (s', m) /\ an_core s' = r.
Proof.
  intro Em. induction f as [|f IH]; intros s Hpf H; destruct (is_finished cf (an_core s)) eqn:E.
  - exists 0, s, 0. cbn [video_frames]. rewrite E. split; [reflexivity|]. apply (loop_fin 0); auto.
  - cbn [CoreModel.run_loop] in H. rewrite E in H. discriminate.
  - exists 0, s, 0. cbn [video_frames]. rewrite E. split; [reflexivity|]. apply (loop_fin (S f)); auto.
  - (* one drawing frame from an unpaused state *)
    assert (G : forall s, an_paused s = false -> an_pf s = None -> is_finished cf (an_core s) = false -> run_loop (S f) (an_core s) = Some (Ok r) ->
              exists n s' m, video_frames solve arnoldi cf a st no_paint n s = Ok (s', m) /\ an_core s' = r).
    { clear s Hpf H E. intros s Hp Hpf E H. destruct (anim_prog f r s) as (s1 & K1 & K2); [rewrite Hp; reflexivity|exact E|exact H|].
      destruct (IH s1) as (n & s' & m & L1 & L2); [|exact K2|].
      - destruct (anim_draws solve arnoldi cf a st no_paint eq draw_none (an_core s) 0 s s1) as (j & _ & _ & _ & J & _); [rewrite Hp; reflexivity|apply d_refl|exact K1|]. congruence.
      - exists (S n), s', m. split; [|exact L2]. cbn [video_frames]. rewrite E, K1. cbn [bind]. exact L1. }
    destruct (an_paused s) eqn:Hp; [|apply G; auto].
    set (N := S (Z.to_nat (Z.max 1 (as_pause st)))).
    assert (V := fun k Hk => C67_video_pause cf a st no_paint s k Em Hp Hpf Hk). destruct (V N (le_n _)) as (s1 & V1 & V2 & V3 & V4). assert (Hpf1 := V4 eq_refl).
    rewrite Nat.eqb_refl in V3. cbn [negb] in V3. rewrite <- V2 in H, E. destruct (G s1 V3 Hpf1 E H) as (n & s' & m & L1 & L2). exists (N + n), s', m. split; [|exact L2].
    rewrite (video_frames_wait N s s1 V1); [exact L1|]. intros k s2 Hk K. destruct (V k ltac:(lia)) as (s3 & W1 & W2 & _). rewrite W1 in K. apply ok_inj in K. subst s3. rewrite W2, <- V2. exact E.
Qed.
Lemma extra_fin n : forall s, is_finished cf (an_core s) = true -> exists s', extra_frames solve arnoldi cf a st no_paint n s = Ok s' /\ an_core s' = an_core s.
Proof.
  induction n as [|n IH]; intros s E; cbn [extra_frames]; [eauto|]. destruct (anim_fin s E) as (s1 & K1 & K2). rewrite K1. cbn [bind]. destruct (IH s1) as (s' & L1 & L2); [rewrite K2; exact E|]. exists s'. split; [exact L1|congruence].
Qed.
End Same.

(** When drawing does not touch the LPs, every plot mode that completes returns exactly the result of the run without a plot. *)
Theorem C67_same_result cf a0 inits st skip es fuel c :
  plotted_run solve arnoldi cf a0 inits st skip no_paint es fuel = Some (Ok c) -> is_finished cf c = true ->
  exists fuel', run solve arnoldi cf a0 inits fuel' = Some (Ok c).
Proof.
  intros Hrun Hf. assert (Hs : exists a, (do _ <- assert (negb (List.length inits =? 0)); setup_ha cf a0) = Ok a /\ setup_ha cf a0 = Ok a).
  { unfold plotted_run in Hrun. destruct (assert _) as [u|e]; cbn [bind] in *; [|discriminate]. destruct (setup_ha cf a0) as [a|e]; [eauto|discriminate]. }
  destruct Hs as (a & Hs0 & Hs). destruct (plotted_run_driven solve arnoldi eq cf a0 a inits st skip no_paint es fuel c draw_none Hs Hrun) as (c0 & k & Esu & D & _).
  unfold run. rewrite Hs0, Esu. apply (driven_run cf a c0 k c D 0). cbn [run_loop]. rewrite Hf. reflexivity.
Qed.
(** And every plot mode can complete: if the unplotted run terminates, then with a positive draw_stride so does a run in any
    plot mode, given enough frames and, in a window, the right clicks. *)
Theorem C67_every_mode_completes cf a0 inits st skip fuel c : 0 < as_stride st ->
  run solve arnoldi cf a0 inits fuel = Some (Ok c) ->
  exists es fuel', plotted_run solve arnoldi cf a0 inits st skip no_paint es fuel' = Some (Ok c).
Proof.
  intros Hst Hrun. unfold run in Hrun. unfold plotted_run. destruct (do _ <- _; setup_ha cf a0) as [a|e]; [|discriminate]. destruct (setup solve a inits) as [c0|e]; [|discriminate].
  assert (Hf := loop_finished cf a fuel c0 c Hrun). unfold animate. destruct (as_mode st) eqn:Em.
  - exists [], fuel. destruct (plot_loop_ex cf a fuel c (anim0 c0 skip) Hrun) as (s' & K1 & K2). rewrite K1, K2. reflexivity.
  - destruct (window_ex cf a st Hst fuel c (anim0 c0 skip) Hrun) as (es & s' & K1 & K2). exists es, 0. rewrite K1, K2. reflexivity.
  - destruct (window_ex cf a st Hst fuel c (mkAnim c0 false true None skip 0 0) Hrun) as (es & s' & K1 & K2). exists es, 0. cbn [anim0 an_core an_pf an_skip an_drawn an_tick]. rewrite K1, K2. reflexivity.
  - exists [], fuel. destruct (plot_loop_ex cf a fuel c (anim0 c0 skip) Hrun) as (s' & K1 & K2). rewrite K1, K2. reflexivity.
  - destruct (video_ex cf a st Hst fuel c Em (anim0 c0 skip) eq_refl Hrun) as (n & s' & m & K1 & K2). exists [], n. unfold save_video. rewrite K1. cbn [bind fst snd].
    assert (E : is_finished cf (an_core s') = true) by (rewrite K2; exact Hf). destruct (extra_fin cf a st (Nat.min (as_extra st) m) s' E) as (s2 & L1 & L2). rewrite L1. cbn [bind]. rewrite L2, E, L2, K2. reflexivity.
Qed.
End Anim.

From Verif Require Import SetFacts2 Solver Prop_Sets Ex_Core.
Open Scope nat_scope.
(** drawing sets the objective of every state set on the heap to x, then to -y, ... *)
Definition ex_paint (k : nat) (c : core) : res (list (nat * srow)) := Ok (map (fun i => (i, if Nat.even k then [(0, 1%Q)] else [(1, (-(1))%Q)])) (seq 0 (nS c))).
Definition ex_clicks (n : nat) : list event := List.concat (List.repeat [Next; Frame] n).
Definition ex_inter := mkAset PlotInteractive 2 20 40.
Example C67_safe_witness : exists c, plotted_run fm_solver arn0 (exC_cf true) (exC (-(5#2))) [exC_s] ex_inter 1 ex_paint (Frame :: Frame :: ex_clicks 30) 0 = Some (Ok c) /\
  is_finished (exC_cf true) c = true /\ printed_verdict c = VSafe /\ ~ error_reachable 0 (rules_of (exC_cf true)) (exC (-(5#2))) (init_of_list [exC_s]).
Proof.
  pose (o := plotted_run fm_solver arn0 (exC_cf true) (exC (-(5#2))) [exC_s] ex_inter 1 ex_paint (Frame :: Frame :: ex_clicks 30) 0).
  assert (H : o = Some (Ok (getc o))) by (apply getc_ok; vm_compute; reflexivity). exists (getc o). split; [exact H|].
  assert (H0 : is_finished (exC_cf true) (getc o) = true) by (vm_compute; reflexivity). split; [exact H0|]. split; [vm_compute; reflexivity|].
  assert (H1 : c_aggerr (getc o) = false) by (vm_compute; reflexivity). assert (H2 : c_concerr (getc o) = false) by (vm_compute; reflexivity).
  destruct (exC_pre (-(5#2)) true) as (A1 & A2 & A3 & A4 & A5 & A6).
  destruct (setup_ha (exC_cf true) (exC (-(5#2)))) as [a|e] eqn:Ea; [|vm_compute in Ea; discriminate].
  refine (C67_safe_verdict_sound fm_solver fm_solver_ok arn0 (exC_cf true) (exC (-(5#2))) a [exC_s] ex_inter 1 ex_paint (Frame :: Frame :: ex_clicks 30) 0 (getc o) A1 A2 A3 A4 Ea _ A6 H (or_intror H0) H1 H2). intro K. discriminate.
Qed.
Example C67_concrete_witness : exists c, plotted_run fm_solver arn0 exC_plain (exC 0) [exC_s] (mkAset PlotVideo 3 20 40) 0 ex_paint [] 200 = Some (Ok c) /\ is_finished exC_plain c = true /\
  printed_verdict c = VUnsafe /\ error_reachable tol13 (rules_of exC_plain) (exC 0) (init_of_list [exC_s]).
Proof.
  pose (o := plotted_run fm_solver arn0 exC_plain (exC 0) [exC_s] (mkAset PlotVideo 3 20 40) 0 ex_paint [] 200).
  assert (H : o = Some (Ok (getc o))) by (apply getc_ok; vm_compute; reflexivity). exists (getc o). split; [exact H|].
  assert (H1 : c_concerr (getc o) = true) by (vm_compute; reflexivity). split; [vm_compute; reflexivity|]. split; [vm_compute; reflexivity|].
  destruct (exC_pre 0 false) as (A1 & A2 & A3 & A4 & A5 & A6).
  destruct (setup_ha exC_plain (exC 0)) as [a|e] eqn:Ea; [|vm_compute in Ea; discriminate].
  refine (C67_concrete_error_real fm_solver fm_solver_ok arn0 exC_plain (exC 0) a [exC_s] (mkAset PlotVideo 3 20 40) 0 ex_paint [] 200 (getc o) A1 A2 _ Ea _ A6 H H1).
  - intros g K. discriminate.
  - intro K. discriminate.
Qed.
(** too few frames: save_video raises instead of reporting a verdict *)
Example C67_video_cut_witness : plotted_run fm_solver arn0 exC_plain (exC 0) [exC_s] (mkAset PlotVideo 3 20 40) 0 ex_paint [] 10 = Some (Err ERuntime).
Proof. vm_compute. reflexivity. Qed.

(** Closing the window of an interactive (or live) plot before the end prints "System is safe. Error modes are NOT reachable."
    although the error mode is reachable: run() does not look at is_finished(). *)
Theorem C67_closed_window_refuted : forall m, m = PlotInteractive \/ m = PlotLive -> exists c,
  wf_ha (exC 0) /\ plotted_run fm_solver arn0 exC_plain (exC 0) [exC_s] (mkAset m 1 20 40) 0 no_paint [Frame; Frame] 0 = Some (Ok c) /\
  is_finished exC_plain c = false /\ printed_verdict c = VSafe /\ error_reachable 0 (rules_of exC_plain) (exC 0) (init_of_list [exC_s]).
Proof.
  intros m Hm. exists (getc (plotted_run fm_solver arn0 exC_plain (exC 0) [exC_s] (mkAset m 1 20 40) 0 no_paint [Frame; Frame] 0)). split; [apply exC_wf|].
  destruct Hm as [->| ->]; (split; [apply getc_ok; vm_compute; reflexivity|]); (split; [vm_compute; reflexivity|]); (split; [vm_compute; reflexivity|]); exact exC_reach0.
Qed.
(** the buttons, on the running example *)
Definition ex_a := Eval vm_compute in getr (exC 0) (setup_ha exC_plain (exC 0)).
Definition ex_c0 := Eval vm_compute in getr core0 (setup fm_solver ex_a [exC_s]).
Definition isok {A} (r : res A) : bool := match r with Ok _ => true | Err _ => false end.
Example C67_buttons_witness :
  let s0 := mkAnim ex_c0 true false None 0 0 0 in
  is_finished exC_plain (an_core s0) = false /\ at_pop (an_core s0) /\ isok (handle fm_solver arn0 exC_plain ex_a ex_inter ex_paint s0 Step) = true /\
  isok (handle fm_solver arn0 exC_plain ex_a ex_inter ex_paint (mkAnim ex_c0 false true None 0 0 0) Frame) = true /\
  isok (handle fm_solver arn0 exC_plain ex_a ex_inter ex_paint (mkAnim ex_c0 false false None 0 0 0) Frame) = true /\
  isok (handle fm_solver arn0 exC_plain ex_a (mkAset PlotLive 3 20 40) ex_paint s0 Frame) = true.
Proof. vm_compute. repeat split. Qed.
