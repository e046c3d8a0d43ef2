(** Every plotted run is a sequence of steps of the analysis with objective changes in between. *)
From Verif Require Import Base BaseFacts LpModel LpSpec SetSpec LpUtil LpFacts ChullFacts ApiSpec ApiFacts Automaton StateSet HybridSpec FlowFacts StateSpec
  StateFacts StateFacts2 StateFacts3 AutoFacts CoreModel HeapFacts CoreOps CoreGhost CoreHeap CoreInv CoreStep CoreCont CorePop CoreReplay CoreDeagg CoreSplit CoreMono CoreFlag CoreExt CoreFinal
  CoreSpec CoreSetup SetupHa CoreTT CoreSub SetupHaSub Prop_Core Prop_Core2 CorePaint Animate.
Open Scope nat_scope.

Section Facts.
Variable solve : solver.
Hypothesis Hsolve : solver_ok solve.
Variable arnoldi : nat -> option (list Q) -> csr -> option csr -> nat -> list (list Q).
Variable cf : cfg.
Variable a : ha.

(** [n] calls of do_step lead from c0 to c, with changes by drawing (related by [R]) in between *)
Inductive driven (R : core -> core -> Prop) (c0 : core) : nat -> core -> Prop :=
| d_refl : driven R c0 0 c0
| d_step n c c' : driven R c0 n c -> do_step solve arnoldi cf a c = Ok c' -> driven R c0 (S n) c'
| d_paint n c c' : driven R c0 n c -> R c c' -> driven R c0 n c'.

Variable st : aset.
Variable paint : nat -> core -> res (list (nat * srow)).
Notation draw := (draw paint).
Notation plot_step := (plot_step solve arnoldi cf a paint).
Notation frame_steps := (frame_steps solve arnoldi cf a st paint).
Notation anim_func := (anim_func solve arnoldi cf a st paint).
Notation is_finished := (is_finished cf).

Lemma painted_list ps : forall c, painted c (fold_left paint1 ps c).
Proof. induction ps as [|p ps IH]; intro c; cbn [fold_left]; [apply painted_refl|]. eapply painted_trans; [|apply IH]. apply painted_set. Qed.
Lemma draw_painted s s' : draw s = Ok s' -> painted (an_core s) (an_core s') /\ an_paused s' = an_paused s /\ an_step s' = an_step s /\ an_pf s' = an_pf s /\ an_skip s' = an_skip s /\ an_drawn s' = an_drawn s.
Proof. unfold Animate.draw. intro H. apply bind_ok in H as (ps & _ & H). apply ok_inj in H. subst s'. cbn. split; [apply painted_list|auto 6]. Qed.

Variable R : core -> core -> Prop.
Hypothesis HR : forall s s', draw s = Ok s' -> R (an_core s) (an_core s').
Lemma plot_step_core s s' : plot_step s = Ok s' -> exists c, do_step solve arnoldi cf a (an_core s) = Ok c /\ R c (an_core s') /\
  an_paused s' = (step_pauses cf (an_core s) || an_paused s) /\ an_step s' = (negb (step_pauses cf (an_core s)) && an_step s) /\ an_pf s' = an_pf s /\ an_skip s' = an_skip s /\ an_drawn s' = an_drawn s.
Proof.
  unfold Animate.plot_step. intro H. apply bind_ok in H as (c & Hc & H). pose proof (HR _ _ H) as K0. apply draw_painted in H as (K1 & K2 & K3 & K4 & K5 & K6). exists c. split; [exact Hc|].
  destruct (step_pauses cf (an_core s)); cbn in *; auto 7.
Qed.
Lemma plot_step_driven c0 n s s' : driven R c0 n (an_core s) -> plot_step s = Ok s' -> driven R c0 (S n) (an_core s').
Proof. intros D H. apply plot_step_core in H as (c & K1 & K2 & _). eapply d_paint; [eapply d_step; eauto|exact K2]. Qed.
Lemma draw_cur_driven c0 n s s' : driven R c0 n (an_core s) -> (match cur_state (an_core s) with Some _ => draw s | None => Ok s end) = Ok s' ->
  driven R c0 n (an_core s') /\ an_paused s' = an_paused s /\ an_step s' = an_step s /\ an_pf s' = an_pf s /\ an_skip s' = an_skip s.
Proof.
  intros D H. destruct (cur_state (an_core s)); [|apply ok_inj in H; subst; auto]. pose proof (HR _ _ H) as K0. apply draw_painted in H as (K & K1 & K2 & K3 & K4 & _). split; [eapply d_paint; eauto|auto].
Qed.
(** a frame: n steps, as many as the stride allows or until a pause *)
Lemma frame_driven c0 : forall n k s s', driven R c0 k (an_core s) -> frame_steps n s = Ok s' ->
  exists j, j <= n /\ (0 < n -> 0 < j) /\ driven R c0 (k + j) (an_core s') /\ an_pf s' = an_pf s /\ an_skip s' = an_skip s /\
    (pausable st = false -> j = n) /\ (pausable st = true -> j = n /\ (0 < n -> an_step s = false /\ an_paused s' = false) \/ an_paused s' = true /\ an_step s' = false) /\
    (pausable st = true -> an_step s = true -> j <= 1).
Proof.
  induction n as [|n IH]; intros k s s' D H; cbn [Animate.frame_steps] in H; [apply ok_inj in H; subst; exists 0; rewrite Nat.add_0_r; split; [lia|]; split; [lia|]; split; [exact D|]; split; [reflexivity|]; split; [reflexivity|]; split; [reflexivity|]; split; [intros _; left; split; [reflexivity|lia]|lia]|].
  apply bind_ok in H as (s1 & H1 & H). pose proof (plot_step_driven c0 k s s1 D H1) as D1. apply plot_step_core in H1 as (c & _ & _ & E1 & E2 & E3 & E4 & _).
  destruct ((an_step s1 || an_paused s1) && pausable st) eqn:Eb.
  - apply ok_inj in H. subst s'. apply andb_true_iff in Eb as [Eb Ep]. exists 1. rewrite Nat.add_1_r. cbn [pause an_core an_pf an_skip an_paused an_step]. split; [lia|]. split; [lia|]. split; [exact D1|]. split; [exact E3|]. split; [exact E4|]. split; [congruence|]. split; [|lia].
    intros _. right. auto.
  - destruct (IH (S k) s1 s' D1 H) as (j & J1 & J2 & J3 & J4 & J5 & J6 & J7 & J8). exists (S j). replace (k + S j) with (S k + j) by lia. split; [lia|]. split; [lia|]. split; [exact J3|]. split; [congruence|]. split; [congruence|].
    split; [intro K; specialize (J6 K); lia|]. split.
    + intro K. rewrite K, andb_true_r in Eb. apply orb_false_iff in Eb as [F1 F2]. destruct (J7 K) as [[L1 L2]|L]; [|right; exact L]. left. split; [lia|]. intros _.
      rewrite E1 in F2. apply orb_false_iff in F2 as [F2 F3]. rewrite E2, F2 in F1. split; [exact F1|]. destruct n as [|n]; [|apply L2; lia]. cbn [Animate.frame_steps] in H. apply ok_inj in H. subst s'. rewrite E1, F2. exact F3.
    + intros K Ks. exfalso. rewrite K, andb_true_r in Eb. apply orb_false_iff in Eb as [F1 F2]. rewrite E1 in F2. apply orb_false_iff in F2 as [F2 _]. rewrite E2, F2, Ks in F1. discriminate.
Qed.
Lemma anim_draws c0 k s s' : an_paused s && pausable st = false -> driven R c0 k (an_core s) -> anim_func s = Ok s' ->
  exists j, j <= as_stride st /\ (0 < as_stride st -> 0 < j) /\ driven R c0 (k + j) (an_core s') /\ an_pf s' = an_pf s /\ an_skip s' = an_skip s /\
    (pausable st = false -> j = as_stride st) /\ (pausable st = true -> j = as_stride st /\ (0 < as_stride st -> an_step s = false /\ an_paused s' = false) \/ an_paused s' = true /\ an_step s' = false) /\
    (pausable st = true -> an_step s = true -> j <= 1).
Proof.
  intros Hp D H. unfold Animate.anim_func in H.
  assert (G : (do s1 <- frame_steps (as_stride st) s; do s2 <- (match cur_state (an_core s1) with Some _ => draw s1 | None => Ok s1 end);
       Ok (mkAnim (an_core s2) (an_paused s2) (an_step s2) (an_pf s2) (an_skip s2) (S (an_drawn s2)) (an_tick s2))) = Ok s').
  { unfold pausable in Hp. destruct (as_mode st), (an_paused s); try exact H; discriminate Hp. }
  clear H. apply bind_ok in G as (s1 & H1 & H). apply bind_ok in H as (s2 & H2 & H). apply ok_inj in H. subst s'. cbn [an_core an_pf an_skip an_paused an_step].
  destruct (frame_driven c0 _ k s s1 D H1) as (j & J1 & J2 & J3 & J4 & J5 & J6 & J7 & J8). destruct (draw_cur_driven c0 (k + j) s1 s2 J3 H2) as (L1 & L2 & L3 & L4 & L5).
  exists j. rewrite L2, L3, L4, L5. auto 10.
Qed.
Lemma anim_paused s s' : an_paused s && pausable st = true -> anim_func s = Ok s' -> an_core s' = an_core s.
Proof.
  intros Hp H. unfold Animate.anim_func in H. apply andb_true_iff in Hp as [Hp1 Hp2]. rewrite Hp1 in H. unfold pausable in Hp2. destruct (as_mode st); try discriminate Hp2; apply ok_inj in H; subst s'.
  - destruct (_ <? _)%Z; reflexivity.
  - destruct (an_pf s) as [n|]; [destruct (_ <=? _)%Z|]; reflexivity.
Qed.
Lemma anim_driven c0 k s s' : driven R c0 k (an_core s) -> anim_func s = Ok s' -> exists j, driven R c0 j (an_core s').
Proof.
  intros D H. destruct (an_paused s && pausable st) eqn:E.
  - rewrite (anim_paused s s' E H). eauto.
  - destruct (anim_draws c0 k s s' E D H) as (j & _ & _ & K & _). eauto.
Qed.
Lemma handle_driven c0 k s e s' : driven R c0 k (an_core s) -> handle solve arnoldi cf a st paint s e = Ok s' -> exists j, driven R c0 j (an_core s').
Proof. intros D H. destruct e; cbn [handle] in H; [destruct (is_finished (an_core s)); [apply ok_inj in H; subst; eauto|eapply anim_driven; eauto]| |]; apply ok_inj in H; subst; eauto. Qed.
Lemma window_driven c0 es : forall k s s', driven R c0 k (an_core s) -> window solve arnoldi cf a st paint s es = Ok s' -> exists j, driven R c0 j (an_core s').
Proof. induction es as [|e es IH]; intros k s s' D H; cbn [window] in H; [apply ok_inj in H; subst; eauto|]. apply bind_ok in H as (s1 & H1 & H). destruct (handle_driven c0 k s e s1 D H1) as (j & D1). eapply IH; [|exact H]. eauto. Qed.
Lemma loop_driven c0 fuel : forall k s s', driven R c0 k (an_core s) -> plot_loop solve arnoldi cf a paint fuel s = Some (Ok s') -> (exists j, driven R c0 j (an_core s')) /\ is_finished (an_core s') = true.
Proof.
  induction fuel as [|f IH]; intros k s s' D H; cbn [plot_loop] in H; destruct (is_finished (an_core s)) eqn:Ef.
  - injection H as <-. eauto.
  - discriminate.
  - injection H as <-. eauto.
  - destruct (do s1 <- plot_step s; _) as [s1|e] eqn:E1; [|discriminate]. apply bind_ok in E1 as (s2 & E2 & E1). pose proof (plot_step_driven c0 k s s2 D E2) as D2. destruct (draw_cur_driven c0 _ s2 s1 D2 E1) as [D3 _].
    eapply IH; [exact D3|exact H].
Qed.
Lemma vframes_driven c0 n : forall k s r, driven R c0 k (an_core s) -> video_frames solve arnoldi cf a st paint n s = Ok r -> exists j, driven R c0 j (an_core (fst r)).
Proof.
  induction n as [|n IH]; intros k s r D H; cbn [video_frames] in H; (destruct (is_finished (an_core s)); [apply ok_inj in H; subst; eauto|]); [apply ok_inj in H; subst; eauto|].
  apply bind_ok in H as (s1 & H1 & H). destruct (anim_driven c0 k s s1 D H1) as (j & D1). eapply IH; [exact D1|exact H].
Qed.
Lemma extra_driven c0 n : forall k s s', driven R c0 k (an_core s) -> extra_frames solve arnoldi cf a st paint n s = Ok s' -> exists j, driven R c0 j (an_core s').
Proof. induction n as [|n IH]; intros k s s' D H; cbn [extra_frames] in H; [apply ok_inj in H; subst; eauto|]. apply bind_ok in H as (s1 & H1 & H). destruct (anim_driven c0 k s s1 D H1) as (j & D1). eapply IH; [exact D1|exact H]. Qed.

Lemma animate_driven s es fuel s' : animate solve arnoldi cf a st paint s es fuel = Some (Ok s') ->
  (exists j, driven R (an_core s) j (an_core s')) /\ (as_mode st = PlotNone \/ as_mode st = PlotImage \/ as_mode st = PlotVideo -> is_finished (an_core s') = true).
Proof.
  unfold animate. assert (D := d_refl R (an_core s)). destruct (as_mode st); intro H.
  - apply (loop_driven (an_core s) fuel 0) in H as [K1 K2]; auto.
  - injection H as H. apply (window_driven (an_core s) es 0) in H; auto. split; [exact H|]. intros [K|[K|K]]; discriminate K.
  - injection H as H. apply (window_driven (an_core s) es 0) in H; auto. split; [exact H|]. intros [K|[K|K]]; discriminate K.
  - apply (loop_driven (an_core s) fuel 0) in H as [K1 K2]; auto.
  - injection H as H. unfold save_video in H. apply bind_ok in H as (r & H1 & H). apply bind_ok in H as (s1 & H2 & H). destruct (is_finished (an_core s1)) eqn:Ef; [|discriminate]. apply ok_inj in H. subst s1.
    split; [|intros _; exact Ef]. destruct (vframes_driven (an_core s) _ 0 _ _ D H1) as (j & D1). eapply extra_driven; [exact D1|exact H2].
Qed.
End Facts.

Section Final.
Variable solve : solver.
Hypothesis Hsolve : solver_ok solve.
Variable arnoldi : nat -> option (list Q) -> csr -> option csr -> nat -> list (list Q).

Notation drivenp cf a := (driven solve arnoldi cf a painted).
Lemma driven_ext cf a c0 k c : drivenp cf a c0 k c -> ext c0 c.
Proof. induction 1 as [|k c c' _ IH H|k c c' _ IH H]; [apply ext_refl|eapply ext_trans; [exact IH|eapply ext_step; eauto]|eapply ext_trans; [exact IH|apply painted_ext; exact H]]. Qed.

Lemma plotted_run_driven (R : core -> core -> Prop) cf a0 a inits st skip paint es fuel c : (forall s s', draw paint s = Ok s' -> R (an_core s) (an_core s')) ->
  setup_ha cf a0 = Ok a -> plotted_run solve arnoldi cf a0 inits st skip paint es fuel = Some (Ok c) ->
  exists c0 k, setup solve a inits = Ok c0 /\ driven solve arnoldi cf a R c0 k c /\ (as_mode st = PlotNone \/ as_mode st = PlotImage \/ as_mode st = PlotVideo -> is_finished cf c = true).
Proof.
  intros HR Hs Hrun. unfold plotted_run in Hrun. assert (E0 : (do _ <- assert (negb (List.length inits =? 0)); setup_ha cf a0) = Ok a).
  { destruct (assert _) as [u|e] eqn:Ea; cbn [bind] in *; [exact Hs|]. discriminate. }
  rewrite E0 in Hrun. destruct (setup solve a inits) as [c0|e] eqn:Esu; [|discriminate].
  destruct (animate _ _ _ _ _ _ _ _ _) as [[s|e]|] eqn:Ea; [|discriminate|discriminate]. injection Hrun as <-. exists c0.
  apply (animate_driven solve arnoldi cf a st paint R HR) in Ea as [(k & K1) K2]. exists k. auto.
Qed.

Lemma driven_final cf a0 a inits c0 k c :
  wf_ha a0 -> inputs_plain a0 -> path_ok cf -> setup_ha cf a0 = Ok a -> no_tt cf a -> Forall (init_ok solve a0) inits ->
  setup solve a inits = Ok c0 -> drivenp cf a c0 k c -> is_finished cf c = true -> ~ bad cf c ->
  exists I0 D, wf_ha a /\ base solve cf a (core_rules cf a) I0 D (fun _ => False) [] c /\ c_wait c = [] /\ (forall N, N < nN c -> done a (core_rules cf a) I0 c N) /\
    (forall m x, err a m = false -> init_of_list inits m x -> inv_ok 0 (get_mode a m) x -> exists o, o < nO c /\ o_parent (getO c o) = None /\ pmode c o = m /\ I0 o x).
Proof.
  intros W0 Hinp Hpath Hs Htt Hinit Esu Hd Hfin Hb. destruct (setup_ha_ok cf a0 a W0 Hs) as (Em & W & _).
  assert (Hinit' : Forall (init_ok solve a) inits) by (eapply Forall_impl; [|exact Hinit]; intros s Hsx; eapply init_ok_modes; eauto).
  assert (Hinp' : forall m, m < List.length (ha_modes a) -> m_b (get_mode a m) <> None -> m_inv (get_mode a m) = []). { intros m Hm. rewrite (get_mode_eq a0 a m Em). apply Hinp. rewrite <- Em. exact Hm. }
  destruct (setup_ok solve Hsolve a W Hinp' inits c0 Hinit' Esu) as (P & K1 & K2).
  set (ru := core_rules cf a). assert (HI := pre_INV solve cf a ru c0 P).
  assert (Hcap : forall m x, m_a (get_mode a m) = Some x -> ru_cap ru m = (nnz x =? 0) && cf_skip0 cf) by (intros m x Hx; cbn [ru ru_cap core_rules]; rewrite Hx; reflexivity).
  assert (Hno' := no_tt_all cf a Htt).
  assert (HX : (bad cf c \/ INV solve cf a ru (I0_of c0) c) /\ c_tt c = false).
  { clear Hfin Hb. induction Hd as [|kk c c' Hd IH H|kk c c' Hd IH H].
    - split; [right; exact HI|apply (p_tt _ _ _ P)].
    - destruct IH as [IH1 IH2]. split; [|exact (tts_step solve arnoldi cf a Hno' _ _ H IH2)]. destruct (bad_dec cf c) as [Hb|Hb].
      + left. apply (bad_mono cf c); [eapply mono_step; eauto|exact Hb].
      + destruct IH1 as [IH1|IH1]; [contradiction|].
        apply (do_step_ok solve Hsolve arnoldi cf a W ru (I0_of c0) Hinp' c0) with (c := c); auto.
        * intros c1 N t l g rhs k x n u x' _ _ _ K. rewrite Hno' in K. discriminate.
        * eapply driven_ext; eauto.
    - destruct IH as [IH1 IH2]. split; [|rewrite (painted_tt c c' H); exact IH2]. destruct IH1 as [IH1|IH1].
      + left. unfold bad in *. destruct (painted_flags c c' H) as [-> ->]. exact IH1.
      + right. eapply painted_INV; eauto. }
  destruct HX as [[HX|HI'] _]; [contradiction|].
  destruct (finished_done solve cf a ru (I0_of c0) c HI' Hb Hfin) as (D & B & Hw & _ & Hdn).
  exists (I0_of c0), D. split; [exact W|]. split; [exact B|]. split; [exact Hw|]. split; [exact Hdn|].
  intros m x He Hix Hv. destruct (K1 m x Hix Hv) as (o & Ho & Hp & Hm & HIo).
  assert (X : ext c0 c) by (eapply driven_ext; eauto).
  exists o. destruct (ex_op _ _ X o Ho) as (_ & E2 & _ & E4). split; [pose proof (ex_nO _ _ X); lia|]. split; [congruence|]. split; [|exact HIo].
  rewrite <- Hm. apply pmode_ext; auto. rewrite (p_op _ _ _ P o Ho). cbn [o_post]. pose proof (p_n _ _ _ P). lia.
Qed.

Lemma driven_gi cf a inits c0 k c : wf_ha a -> inputs_plain a -> no_deagg cf -> Forall (init_ok solve a) inits ->
  setup solve a inits = Ok c0 -> drivenp cf a c0 k c -> gi solve a (rules_of cf) (init_of_list inits) c /\ gcur a c.
Proof.
  intros W Hinp Hnd Hinit Esu Hd. destruct (pre_gi solve Hsolve cf a (rules_of cf) inits c0 W Hinp Hinit Esu eq_refl) as [G0 C0].
  induction Hd as [|kk c c' Hd IH H|kk c c' Hd IH H]; [auto| |].
  - destruct IH as [G C]. eapply gi_do_step; eauto; try reflexivity; auto.
  - destruct IH as [G C]. split; [eapply painted_gi; eauto|eapply painted_gcur; eauto].
Qed.
End Final.
