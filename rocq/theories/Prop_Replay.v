(** C47 (replay_counterexample) and C49 (pt_to_plot_xy). *)
From Verif Require Import Base BaseFacts LpModel LpSpec SetSpec LpUtil Automaton StateSet HybridSpec CoreModel CorePop CexSpec Replay.
Open Scope nat_scope.

(** ** C47 *)
Lemma last_map {A B} (f : A -> B) l d d' : l <> [] -> last (map f l) d' = f (last l d).
Proof. induction l as [|x [|y l] IH]; [congruence|reflexivity|]. intros _. change (last (map f (y :: l)) d' = f (last (y :: l) d)). apply IH. discriminate. Qed.
Lemma last_seq k : last (seq 0 (S k)) 0 = k.
Proof. rewrite seq_S, last_last. reflexivity. Qed.
Lemma times_last h s : 2 <= sg_steps s -> (last (seg_times h s) 0 == inject_Z (Z.of_nat (sg_steps s)) * h)%Q /\ seg_times h s <> [].
Proof.
  unfold seg_times, linspace. destruct (sg_steps s) as [|[|k]]; [lia|lia|]. intros _. split; [|discriminate].
  rewrite (last_map _ _ 0%nat) by (cbn; discriminate). rewrite last_seq.
  assert (K : ~ (inject_Z (Z.of_nat (S k)) == 0)%Q). { change 0%Q with (inject_Z 0). rewrite inject_Z_injective. lia. }
  field. exact K.
Qed.
Lemma times_len h s : List.length (seg_times h s) = sg_steps s.
Proof. unfold seg_times, linspace. destruct (sg_steps s) as [|[|k]]; [reflexivity|reflexivity|]. rewrite map_length, seq_length. reflexivity. Qed.

(** the j-th of the k sample times of a segment of k steps *)
Definition sample_time (h : Q) (k j : nat) : Q := if k =? 1 then 0%Q else (inject_Z (Z.of_nat j) * (inject_Z (Z.of_nat k) * h / inject_Z (Z.of_nat (k - 1))))%Q.
(** numpy.allclose(p, q) *)
Definition near (p q : list Q) : Prop := List.length p = List.length q /\ forall i x y, nth_error p i = Some x -> nth_error q i = Some y -> (Qabs (x - y) <= (1 # 100000000) + (1 # 100000) * Qabs y)%Q.
Definition image (r : csr) (p : list Q) : list Q := map (fun row => reval row (of_list p)) (c_rows r).
(** what must hold for a segment s, followed by [next]: [st j] is the state odeint computes for the j-th sample *)
Definition replayed (ode : csr -> list Q -> Q -> list Q) (a : ha) (h : Q) (s : seg) (next : list seg) : Prop :=
  exists x ti g rhs, let m := get_mode a (sg_mode s) in let t := get_trans a ti in let k := sg_steps s in let st j := ode x (sg_start s) (sample_time h k j) in
    m_b m = None /\ m_a m = Some x /\ sg_trans s = Some ti /\ t_guard t = Some (g, rhs) /\ t_mink t = None /\ 0 < k /\
    (forall j c, S j < k -> In c (m_inv m) -> (reval (lc_row c) (of_list (st j)) <= lc_rhs c + (1 # 10000000))%Q) /\
    near (st (k - 1)) (sg_end s) /\
    (forall i r b, nth_error (c_rows g) i = Some r -> nth_error rhs i = Some b -> (reval r (of_list (st (k - 1)%nat)) <= b + (1 # 10000000))%Q) /\
    (forall r s', t_reset t = Some r -> hd_error next = Some s' -> near (image r (st (k - 1))) (sg_start s')).
(** the points and times returned: the samples of each segment, times counted from the last one before it; after the last segment the image of the reset of its transition, if it has one *)
Definition states_of (ode : csr -> list Q -> Q -> list Q) (a : ha) (h : Q) (s : seg) : list (list Q) :=
  match m_a (get_mode a (sg_mode s)) with Some x => map (fun j => ode x (sg_start s) (sample_time h (sg_steps s) j)) (seq 0 (sg_steps s)) | None => [] end.
Definition final_of (ode : csr -> list Q -> Q -> list Q) (a : ha) (h : Q) (s : seg) : list (list Q) :=
  match sg_trans s with Some ti => match t_reset (get_trans a ti) with Some r => [image r (last (states_of ode a h s) [])] | None => [] end | None => [] end.
Fixpoint out_points ode a h (ce : list seg) : list (list Q) :=
  match ce with [] => [] | s :: next => states_of ode a h s ++ match next with [] => final_of ode a h s | _ => out_points ode a h next end end.
Fixpoint out_times ode a h (T : Q) (ce : list seg) : list Q :=
  match ce with
  | [] => []
  | s :: next => let ts := map (fun j => (sample_time h (sg_steps s) j + T)%Q) (seq 0 (sg_steps s)) in
      ts ++ match next with [] => map (fun _ => last ts T) (final_of ode a h s) | _ => out_times ode a h (last ts T) next end
  end.

Lemma seg_times_eq h s : seg_times h s = map (sample_time h (sg_steps s)) (seq 0 (sg_steps s)).
Proof. unfold seg_times, linspace. destruct (sg_steps s) as [|[|k]]; [reflexivity|reflexivity|]. apply map_ext. intro j. unfold sample_time. cbn [Nat.eqb]. replace (S (S k) - 1) with (S k) by lia. reflexivity. Qed.
Lemma forallb_combine {A B} (f : A * B -> bool) l : forall l', forallb f (combine l l') = true <-> forall i x y, nth_error l i = Some x -> nth_error l' i = Some y -> f (x, y) = true.
Proof.
  induction l as [|x0 l IH]; intros [|y0 l']; cbn [combine forallb].
  - split; [intros _ [|i] x y H; discriminate|reflexivity].
  - split; [intros _ [|i] x y H; discriminate|reflexivity].
  - split; [intros _ [|i] x y _ H; discriminate|reflexivity].
  - rewrite Bool.andb_true_iff, IH. split.
    + intros [H0 H] [|i] x y Hx Hy; cbn in Hx, Hy; [injection Hx as ->; injection Hy as ->; exact H0|eapply H; eauto].
    + intro H. split; [apply (H 0); reflexivity|]. intros i x y Hx Hy. apply (H (S i)); assumption.
Qed.
Lemma vclose_near p q : vclose p q = true <-> near p q.
Proof.
  unfold vclose, near. rewrite Bool.andb_true_iff, Nat.eqb_eq, forallb_combine. apply and_iff_compat_l. split; intros H i x y Hx Hy; specialize (H i x y Hx Hy); cbn [fst snd] in *; unfold close in *; apply Qle_bool_iff; exact H.
Qed.
Lemma removelast_map_seq {A} (f : nat -> A) k : removelast (map f (seq 0 k)) = map f (seq 0 (k - 1)).
Proof. destruct k as [|k]; [reflexivity|]. rewrite seq_S, map_app. cbn [map]. rewrite removelast_last. replace (S k - 1) with k by lia. reflexivity. Qed.
Lemma last_map_seq {A} (f : nat -> A) k d : 0 < k -> last (map f (seq 0 k)) d = f (k - 1).
Proof. destruct k as [|k]; [lia|]. intros _. rewrite seq_S, map_app. cbn [map]. rewrite last_last. f_equal. lia. Qed.
Lemma assert_true b u : assert b = Ok u <-> b = true.
Proof. destruct b; cbn; split; try discriminate; [reflexivity|destruct u; reflexivity]. Qed.

Lemma replay_seg_iff ode a h acc s next acc' : replay_seg ode a h acc s next = Ok acc' <->
  replayed ode a h s next /\ fst acc' = fst acc ++ states_of ode a h s ++ (match next with [] => final_of ode a h s | _ => [] end) /\
  snd acc' = snd acc ++ (let ts := map (fun j => (sample_time h (sg_steps s) j + last (snd acc) 0)%Q) (seq 0 (sg_steps s)) in ts ++ match next with [] => map (fun _ => last ts (last (snd acc) 0%Q)) (final_of ode a h s) | _ => [] end).
Proof.
  unfold replay_seg. cbv zeta. rewrite !seg_times_eq. set (k := sg_steps s). set (m := get_mode a (sg_mode s)). split.
  - intro H. apply bind_ok in H as (u1 & Hb & H). apply assert_ok in Hb. destruct (m_b m) eqn:Eb; [discriminate|]. clear Hb. apply bind_ok in H as (am & Ha & H). destruct (m_a m) as [x0|] eqn:Ea; [|discriminate]. apply ok_inj in Ha. subst x0. rewrite !map_map in H.
    apply bind_ok in H as (u2 & Hi & H). apply assert_ok in Hi. rewrite removelast_map_seq in Hi. apply bind_ok in H as (fin & Hf & H).
    assert (K : 0 < k). { destruct k; [discriminate Hf|lia]. }
    assert (Ef : fin = ode am (sg_start s) (sample_time h k (k - 1))). { destruct (map (fun j => ode am (sg_start s) (sample_time h k j)) (seq 0 k)) as [|y l] eqn:EM; [discriminate|]. apply ok_inj in Hf. rewrite <- Hf, <- EM. rewrite last_map_seq by exact K. reflexivity. }
    apply bind_ok in H as (u3 & Hc & H). apply assert_ok in Hc. apply bind_ok in H as (ti & Ht & H). destruct (sg_trans s) as [ti0|] eqn:Et; [|discriminate]. apply ok_inj in Ht. subst ti0.
    apply bind_ok in H as (u4 & Hg & H). destruct (t_guard (get_trans a ti)) as [[g rhs]|] eqn:Eg; [|discriminate]. apply assert_ok in Hg. apply bind_ok in H as (u5 & Hm & H). apply assert_ok in Hm. destruct (t_mink (get_trans a ti)) eqn:Em; [discriminate|]. clear Hm.
    assert (So : states_of ode a h s = map (fun j => ode am (sg_start s) (sample_time h k j)) (seq 0 k)) by (unfold states_of; fold m; rewrite Ea; reflexivity).
    assert (La : last (states_of ode a h s) [] = fin) by (rewrite So, last_map_seq by exact K; symmetry; exact Ef).
    assert (R : (forall r s', t_reset (get_trans a ti) = Some r -> hd_error next = Some s' -> near (image r fin) (sg_start s')) -> replayed ode a h s next).
    { intro HR. exists am, ti, g, rhs. cbv beta zeta. fold m k. rewrite <- Ef. split; [exact Eb|]. split; [exact Ea|]. split; [exact Et|]. split; [exact Eg|]. split; [exact Em|]. split; [exact K|]. split; [|split; [apply vclose_near; exact Hc|split; [|exact HR]]].
      - intros j c Hj Hin. rewrite forallb_forall in Hi. specialize (Hi (ode am (sg_start s) (sample_time h k j))). unfold inv_close in Hi. rewrite forallb_forall in Hi. apply Qle_bool_iff. apply Hi; [|exact Hin]. apply in_map_iff. exists j. split; [reflexivity|]. apply in_seq. lia.
      - unfold guard_close in Hg. rewrite forallb_combine in Hg. intros i r b Hr Hn. apply Qle_bool_iff. exact (Hg i r b Hr Hn). }
    unfold final_of. rewrite Et, La. destruct (t_reset (get_trans a ti)) as [r|] eqn:Er.
    + destruct next as [|s' next].
      * apply ok_inj in H. subst acc'. split; [apply R; discriminate|]. cbn [fst snd map]. rewrite So. split; [rewrite <- app_assoc; reflexivity|]. rewrite <- app_assoc. f_equal. f_equal. f_equal.
        rewrite (last_map_seq _ k (last (snd acc) 0%Q) K). destruct k as [|k']; [lia|]. rewrite seq_S, map_app, app_assoc. cbn [map]. rewrite last_last. f_equal. f_equal. lia.
      * apply bind_ok in H as (u6 & Hv & H). apply assert_ok in Hv. apply ok_inj in H. subst acc'. split; [apply R; intros r1 s1 E1 E2; injection E1 as <-; injection E2 as <-; apply vclose_near; exact Hv|]. cbn [fst snd]. rewrite !app_nil_r, So. split; reflexivity.
    + apply ok_inj in H. subst acc'. split; [apply R; discriminate|]. cbn [fst snd]. destruct next; cbn [map]; rewrite !app_nil_r, So; split; reflexivity.
  - intros [(x & ti & g & rhs & Eb & Ea & Et & Eg & Em & K & Hi & Hc & Hg & HR) [F1 F2]]. fold m k in Eb, Ea, K, Hi, Hc, Hg, HR. rewrite Eb, Ea. cbn [assert bind]. rewrite !map_map, removelast_map_seq.
    assert (A1 : forallb (inv_close (m_inv m)) (map (fun j => ode x (sg_start s) (sample_time h k j)) (seq 0 (k - 1))) = true).
    { apply forallb_forall. intros y Hy. apply in_map_iff in Hy as (j & <- & Hj). apply in_seq in Hj. unfold inv_close. apply forallb_forall. intros c Hin. apply Qle_bool_iff. apply Hi; [lia|exact Hin]. }
    rewrite A1. cbn [assert bind]. assert (So : states_of ode a h s = map (fun j => ode x (sg_start s) (sample_time h k j)) (seq 0 k)) by (unfold states_of; fold m; rewrite Ea; reflexivity).
    set (fin := ode x (sg_start s) (sample_time h k (k - 1))) in *. assert (La : last (map (fun j => ode x (sg_start s) (sample_time h k j)) (seq 0 k)) [] = fin) by (rewrite last_map_seq by exact K; reflexivity).
    assert (A2 : (match map (fun j => ode x (sg_start s) (sample_time h k j)) (seq 0 k) with [] => Err EIndex | _ => Ok (last (map (fun j => ode x (sg_start s) (sample_time h k j)) (seq 0 k)) []) end) = Ok fin).
    { rewrite La. destruct k; [lia|]. reflexivity. }
    match type of A2 with ?l = _ => match goal with |- context[bind ?e _] => change e with l end end. rewrite A2. cbn [bind]. apply vclose_near in Hc. rewrite Hc. cbn [assert bind]. rewrite Et. cbn [bind]. rewrite Eg.
    assert (A3 : guard_close g rhs fin = true). { unfold guard_close. apply forallb_combine. intros i r b Hr Hn. apply Qle_bool_iff. exact (Hg i r b Hr Hn). }
    rewrite A3. cbn [assert bind]. rewrite Em. cbn [assert bind]. unfold final_of in F1, F2. rewrite Et, So, La in F1. rewrite Et, So, La in F2. destruct acc' as [p1 p2]. cbn [fst snd] in F1, F2.
    destruct (t_reset (get_trans a ti)) as [r|] eqn:Er.
    + destruct next as [|s' next].
      * f_equal. rewrite F1, F2. cbn [map]. unfold image. f_equal; [rewrite <- app_assoc; reflexivity|]. rewrite <- app_assoc. f_equal. f_equal. f_equal.
        rewrite (last_map_seq _ k (last (snd acc) 0%Q) K). destruct k as [|k']; [lia|]. rewrite seq_S, map_app, app_assoc. cbn [map]. rewrite last_last. f_equal. f_equal. lia.
      * specialize (HR r s' eq_refl eq_refl). apply vclose_near in HR. unfold image in HR. rewrite HR. cbn [assert bind]. rewrite F1, F2, !app_nil_r. reflexivity.
    + rewrite F1, F2. destruct next; cbn [map]; rewrite !app_nil_r; reflexivity.
Qed.

(** replay_counterexample returns exactly when every segment passes these checks (each segment has at least one step; the invariant at all samples but the last, the guard and the end at the last), and returns these points and times *)
Theorem C47_replay_checks_partial ode a h ce : (exists r, replay_counterexample ode a h ce = Ok r) <-> forall pre s next, ce = pre ++ s :: next -> replayed ode a h s next.
Proof.
  unfold replay_counterexample. generalize (@nil (list Q), @nil Q). induction ce as [|s0 ce IH]; intro acc; cbn [replay_from].
  - split; [intros _ [|x0 pre0] s next E; discriminate|]. intros _. eexists. reflexivity.
  - split.
    + intros (r & H). apply bind_ok in H as (acc1 & H1 & H). apply replay_seg_iff in H1 as [R1 _]. intros [|x pre] s next E; cbn in E; injection E as <- E; [subst; exact R1|]. eapply (proj1 (IH acc1)); [exists r; exact H|exact E].
    + intro H. assert (R := H [] s0 ce eq_refl). set (ts := map (fun j => (sample_time h (sg_steps s0) j + last (snd acc) 0)%Q) (seq 0 (sg_steps s0))).
      assert (H1 := proj2 (replay_seg_iff ode a h acc s0 ce (fst acc ++ states_of ode a h s0 ++ (match ce with [] => final_of ode a h s0 | _ => [] end), snd acc ++ ts ++ match ce with [] => map (fun _ => last ts (last (snd acc) 0%Q)) (final_of ode a h s0) | _ => [] end)) (conj R (conj eq_refl eq_refl))).
      rewrite H1. cbn [bind]. apply IH. intros pre s next E. apply (H (s0 :: pre)). rewrite E. reflexivity.
Qed.
Lemma last_def {A} (l : list A) x d : last (x :: l) d = last l x.
Proof. revert x d. induction l as [|y l IH]; intros x d; [reflexivity|]. change (last (x :: y :: l) d) with (last (y :: l) d). rewrite !IH. reflexivity. Qed.
Lemma last_app_nil {A} (l l' : list A) d : last (l ++ l') d = last l' (last l d).
Proof. revert d. induction l as [|x l IH]; intro d; [reflexivity|]. cbn [app]. rewrite !last_def. apply IH. Qed.
Theorem C47_replay_output ode a h ce pts times : replay_counterexample ode a h ce = Ok (pts, times) -> pts = out_points ode a h ce /\ times = out_times ode a h 0%Q ce /\ List.length pts = List.length times.
Proof.
  unfold replay_counterexample. intro H.
  assert (G : forall ce acc acc', replay_from ode a h acc ce = Ok acc' -> fst acc' = fst acc ++ out_points ode a h ce /\ snd acc' = snd acc ++ out_times ode a h (last (snd acc) 0%Q) ce /\ forall T, List.length (out_points ode a h ce) = List.length (out_times ode a h T ce)).
  { clear. induction ce as [|s ce IH]; intros acc acc' H; cbn [replay_from out_points out_times] in *.
    - apply ok_inj in H. subst acc'. rewrite !app_nil_r. auto.
    - apply bind_ok in H as (acc1 & H1 & H). apply replay_seg_iff in H1 as (R & F1 & F2). assert (L : List.length (states_of ode a h s) = sg_steps s). { destruct R as (x & _ & _ & _ & _ & Ea & _). unfold states_of. rewrite Ea, map_length, seq_length. reflexivity. }
      destruct (IH _ _ H) as (G1 & G2 & G3). destruct ce as [|s' ce].
      + cbn [out_points out_times] in G1, G2. rewrite app_nil_r in G1, G2. rewrite G1, G2, F1, F2. split; [reflexivity|]. split; [reflexivity|]. intro T. cbv zeta. rewrite !app_length, !map_length, seq_length, L. reflexivity.
      + rewrite app_nil_r in F1. cbv zeta in F2. rewrite app_nil_r in F2. rewrite G1, G2, F1, F2, <- !app_assoc. split; [reflexivity|]. split; [cbv zeta; rewrite last_app_nil; reflexivity|]. intro T. cbv zeta. rewrite !app_length, map_length, seq_length, L. f_equal. apply G3. }
  destruct (G ce ([], []) (pts, times) H) as (G1 & G2 & G3). cbn [fst snd app last] in G1, G2. split; [exact G1|]. split; [exact G2|]. rewrite G1, G2. apply G3.
Qed.
(** the samples of a segment of k steps: k points, the first at 0, the last at k h *)
Theorem C47_sample_times_partial h s : 2 <= sg_steps s -> List.length (seg_times h s) = sg_steps s /\ (nth 0 (seg_times h s) 0 == 0)%Q /\ (last (seg_times h s) 0 == inject_Z (Z.of_nat (sg_steps s)) * h)%Q.
Proof.
  intro K. split; [apply times_len|]. split; [|apply times_last; exact K]. unfold seg_times, linspace. destruct (sg_steps s) as [|[|k]]; [lia|lia|]. cbn [seq map nth]. change (inject_Z (Z.of_nat 0)) with 0%Q. ring.
Qed.
(** but no sample in between is taken at a step of the analysis, and k steps have k + 1 states *)
Theorem C47_sample_times_refuted h s j i : (0 < h)%Q -> 3 <= sg_steps s -> 0 < j -> j < sg_steps s - 1 -> ~ (nth j (seg_times h s) 0 == inject_Z (Z.of_nat i) * h)%Q.
Proof.
  intros Hh K J1 J2 E. unfold seg_times, linspace in E. destruct (sg_steps s) as [|[|k]]; [lia|lia|].
  set (f := fun j => (inject_Z (Z.of_nat j) * (inject_Z (Z.of_nat (S (S k))) * h / inject_Z (Z.of_nat (S k))))%Q) in E.
  assert (EN : nth j (map f (seq 0 (S (S k)))) 0%Q = f j). { rewrite (nth_indep _ _ (f 0)) by (rewrite map_length, seq_length; lia). rewrite map_nth, seq_nth by lia. reflexivity. }
  rewrite EN in E. unfold f in E. clear EN f.
  assert (N : ~ (inject_Z (Z.of_nat (S k)) == 0)%Q). { change 0%Q with (inject_Z 0). rewrite inject_Z_injective. lia. }
  assert (E1 : (inject_Z (Z.of_nat j) * inject_Z (Z.of_nat (S (S k))) == inject_Z (Z.of_nat i) * inject_Z (Z.of_nat (S k)))%Q).
  { apply (Qmult_inj_r _ _ h); [intro K0; rewrite K0 in Hh; discriminate Hh|]. transitivity (inject_Z (Z.of_nat j) * (inject_Z (Z.of_nat (S (S k))) * h / inject_Z (Z.of_nat (S k))) * inject_Z (Z.of_nat (S k)))%Q; [field; exact N|]. rewrite E. ring. }
  rewrite <- !inject_Z_mult in E1. apply (proj1 (inject_Z_injective _ _)) in E1. assert (E2 : j * S (S k) = i * S k) by (apply Nat2Z.inj; rewrite !Nat2Z.inj_mul; exact E1). assert (j * S (S k) = j * S k + j) by lia.
  assert (E3 : (i - j) * S k = j) by nia. destruct (i - j); nia.
Qed.
(** a segment of one step is only sampled at time 0: it is rejected unless its end is its start *)
Theorem C47_one_step_refuted ode a h pre s next x : m_a (get_mode a (sg_mode s)) = Some x -> sg_steps s = 1 -> ~ near (ode x (sg_start s) 0%Q) (sg_end s) ->
  forall r, replay_counterexample ode a h (pre ++ s :: next) <> Ok r.
Proof.
  intros Hx H1 Hv r H. assert (K := proj1 (C47_replay_checks_partial ode a h _) (ex_intro _ r H) pre s next eq_refl). destruct K as (x1 & ti & g & rhs & _ & E1 & _ & _ & _ & _ & _ & E3 & _).
  rewrite Hx in E1. injection E1 as <-. rewrite H1 in E3. apply Hv. exact E3.
Qed.
(** no segment without steps (urgent guards) is accepted *)
Theorem C47_no_step_refuted ode a h pre s next : sg_steps s = 0 -> forall r, replay_counterexample ode a h (pre ++ s :: next) <> Ok r.
Proof. intros H0 r H. assert (K := proj1 (C47_replay_checks_partial ode a h _) (ex_intro _ r H) pre s next eq_refl). destruct K as (x1 & ti & g & rhs & _ & _ & _ & _ & _ & E & _). lia. Qed.

(** ** C49 *)
(** the requested coordinate: an entry, a scalar product, or the time *)
Definition coord (pt : list Q) (time : Q) (d : pdim) (x : Q) : Prop :=
  match d with DInt n => nth_error pt n = Some x | DArr v => List.length pt = List.length v /\ x = ldot v 0 (of_list pt) | DNone => x = time end.
Definition plain_dim (d : pdim) : Prop := match d with DArr _ => False | _ => True end.
(** right for numbers and None, y coordinate 0 excepted *)
Theorem C49_pt_to_plot_xy_partial pt xdim ydim time x y : plain_dim xdim -> plain_dim ydim -> ydim <> DInt 0 ->
  (pt_to_plot_xy pt xdim ydim time = Ok (x, y) <-> coord pt time xdim x /\ coord pt time ydim y).
Proof.
  intros Px Py Hy. unfold pt_to_plot_xy. assert (Ey : (do b <- truth ydim; (if b then match ydim with DInt n => pt_get pt n | DArr v => pt_dot pt v | DNone => Ok time end else Ok time)) = Ok y <-> coord pt time ydim y).
  { destruct ydim as [[|n]|v|]; [congruence| |destruct Py|]; cbn.
    - unfold pt_get. destruct (nth_error pt (S n)) eqn:E; cbn in *; rewrite ?E; split; intro K; try discriminate; [apply ok_inj in K; congruence|injection K as ->; reflexivity].
    - split; intro K; [apply ok_inj in K; auto|subst; reflexivity]. }
  assert (Ex : match xdim with DInt n => pt_get pt n | _ => do b <- truth xdim; if b then match xdim with DArr v => pt_dot pt v | _ => Err EAssert end else Ok time end = Ok x <-> coord pt time xdim x).
  { destruct xdim as [n|v|]; [|destruct Px|]; cbn.
    - unfold pt_get. destruct (nth_error pt n) eqn:E; split; intro K; try discriminate; [apply ok_inj in K; congruence|injection K as ->; reflexivity].
    - split; intro K; [apply ok_inj in K; auto|subst; reflexivity]. }
  split.
  - intro H. apply bind_ok in H as (x0 & H1 & H). apply bind_ok in H as (b & Hb & H). apply bind_ok in H as (y0 & H2 & H). apply ok_inj in H. injection H as -> ->. split; [apply Ex; exact H1|]. apply Ey. rewrite Hb. cbn. exact H2.
  - intros [H1 H2]. apply Ex in H1. rewrite H1. cbn. apply Ey in H2. apply bind_ok in H2 as (b & Hb & H2). rewrite Hb. cbn. rewrite H2. reflexivity.
Qed.
(** ydim = 0: the time instead of the coordinate *)
Theorem C49_ydim_zero_refuted pt xdim time x y : pt_to_plot_xy pt xdim (DInt 0) time = Ok (x, y) -> y = time.
Proof. unfold pt_to_plot_xy. intro H. apply bind_ok in H as (x0 & H1 & H). cbn in H. apply ok_inj in H. congruence. Qed.
(** directions of two or more entries always raise *)
Theorem C49_direction_refuted pt xdim ydim time v r : 2 <= List.length v -> xdim = DArr v \/ ydim = DArr v -> pt_to_plot_xy pt xdim ydim time <> Ok r.
Proof.
  intros Hv Hd H. destruct v as [|v1 [|v2 v]]; [cbn in Hv; lia|cbn in Hv; lia|]. unfold pt_to_plot_xy in H. apply bind_ok in H as (x0 & H1 & H). destruct Hd as [-> | ->]; [cbn in H1; discriminate|]. cbn in H. discriminate.
Qed.
Example C49_witness : pt_to_plot_xy [3; 4; 5]%Q (DInt 2) (DInt 1) 9%Q = Ok (5%Q, 4%Q) /\ pt_to_plot_xy [3; 4; 5]%Q (DInt 0) (DInt 0) 9%Q = Ok (3%Q, 9%Q) /\ pt_to_plot_xy [3; 4]%Q (DArr [1; 1]%Q) (DInt 1) 9%Q = Err EValue.
Proof. repeat split; vm_compute; reflexivity. Qed.

From Verif Require Import Ex_Core.
Open Scope nat_scope.
(** x' = a, y' = a, a' = 0 *)
Definition exR_ode (_ : csr) (st : list Q) (t : Q) : list Q := match st with [x; y; v] => [Qred (x + t * v); Qred (y + t * v); v]%Q | _ => st end.
Definition exR_ce (n : nat) : list seg :=
  let z k := inject_Z (Z.of_nat k) in
  [mkSeg 0 [2; 0; 1]%Q [2 + z n; z n; 1]%Q n (Some 0) [] []; mkSeg 1 [2 + z n; z n; 1]%Q [2 + z (n + n)%nat; z (n + n)%nat; 1]%Q n (Some 1) [] []].
(** two segments of two steps (guard x >= 2, then y - x <= -3/2): accepted; the same execution with one step each: rejected, although it is a valid
    counter-example *)
Definition exR_a : ha := mkHa [exC_mode "a" [mkLc [(0%nat, 1%Q)] 3 4%Q]; exC_mode "b" []; exC_err] (ha_trans (exC (-3 # 2)%Q)).
Example C47_witness : exists r, replay_counterexample exR_ode exR_a 1%Q (exR_ce 2) = Ok r /\ List.length (fst r) = 4.
Proof. eexists. split; [vm_compute; reflexivity|reflexivity]. Qed.
Theorem C47_valid_rejected_refuted : exists ce, is_counterexample 0 false 6 exR_a (fun m p => m = 0 /\ veq 3 p (of_list [2; 0; 1]%Q)) ce /\
  (forall st t, List.length st = 3 -> forall i k, i < 3 -> (t == inject_Z (Z.of_nat k))%Q -> (nth i (exR_ode exC_mat st t) 0 == mapply (m_bm (get_mode exR_a 0) k) (of_list st) i)%Q) /\
  replay_counterexample exR_ode exR_a 1%Q ce = Err EAssert.
Proof.
  exists (exR_ce 1). split; [|split; [|vm_compute; reflexivity]].
  - assert (S1 : forall mi s, s = mkSeg mi (sg_start s) (sg_end s) 1 (sg_trans s) [] [] -> (mi = 0 \/ mi = 1) -> inv_ok 0 (get_mode exR_a mi) (of_list (sg_start s)) -> one_step (get_mode exR_a mi) (of_list (sg_start s)) (of_list []) (of_list (sg_end s)) -> List.length (sg_start s) = 3 -> List.length (sg_end s) = 3 -> seg_moves 0 exR_a s).
    { intros mi s Es Hm Hv Ho L1 L2. assert (Hmb : m_b (get_mode exR_a mi) = None) by (destruct Hm as [-> | ->]; reflexivity). rewrite Es. unfold seg_moves. cbn [sg_mode sg_start sg_end sg_steps sg_inputs].
      destruct Hm as [-> | ->]; (split; [reflexivity|]); exists (fun j => if j =? 0 then of_list (sg_start s) else of_list (sg_end s)); (split; [intros i _; reflexivity|]); (split; [intros i _; reflexivity|]);
        intros j Hj; destruct j as [|j]; try lia; cbn [Nat.eqb]; (split; [exact Hv|]); (split; [exact Logic.I|exact Ho]). }
    split; [|split; [cbn; lia|]].
    + eapply CC_cons with (t := 0); [|reflexivity| |eapply CC_last with (t := 1); [|reflexivity]].
      * split; [cbn; lia|]. split; [apply (S1 0); [reflexivity|auto| | |reflexivity|reflexivity]|].
        -- intros c [<-|[]]. left. cbn. lra.
        -- intros i Hi. change (m_dims (get_mode exR_a 0)) with 3 in Hi. destruct i as [|[|[|i]]]; [| | |lia]; vm_compute; reflexivity.
        -- split; [reflexivity|]. split; [cbn; lia|]. split; [reflexivity|]. split; [|left; cbn; lia]. intros i r c Hr Hc. cbn in Hr, Hc. destruct i as [|i]; cbn in Hr, Hc; [|destruct i; discriminate]. injection Hr as <-; injection Hc as <-. vm_compute. discriminate.
      * split; [exact Logic.I|]. intros i Hi. change (post_dims exR_a (get_trans exR_a 0)) with 3 in Hi. destruct i as [|[|[|i]]]; [| | |lia]; vm_compute; reflexivity.
      * split; [cbn; lia|]. split; [apply (S1 1); [reflexivity|auto| | |reflexivity|reflexivity]|].
        -- intros c [].
        -- intros i Hi. change (m_dims (get_mode exR_a 1)) with 3 in Hi. destruct i as [|[|[|i]]]; [| | |lia]; vm_compute; reflexivity.
        -- split; [reflexivity|]. split; [cbn; lia|]. split; [reflexivity|]. split; [|left; cbn; lia]. intros i r c Hr Hc. cbn in Hr, Hc. destruct i as [|i]; cbn in Hr, Hc; [|destruct i; discriminate]. injection Hr as <-; injection Hc as <-. vm_compute. discriminate.
    + eexists. eexists. split; [reflexivity|]. split; [split; [reflexivity|intros i _; reflexivity]|]. intros c [<-|[]]. left. cbn. lra.
  - intros st t L i k Hi Ht. destruct st as [|x [|y [|v [|]]]]; try discriminate. change (m_bm (get_mode exR_a 0) k) with (exC_bm k). rewrite exC_bm_ok by exact Hi. cbn [exR_ode of_list nth]. destruct i as [|[|[|i]]]; [| | |lia]; cbn [nth]; rewrite ?Qred_correct, ?Ht; unfold of_list; cbn [nth]; reflexivity.
Qed.
