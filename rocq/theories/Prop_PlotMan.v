(** C55 (axis limits), C56 (mode colours), C57 (drawn polygons and their deletion), C58 (simulation lines). *)
From Verif Require Import Base BaseFacts Util PlotMan CorePop.
From Coq Require Import String Permutation Lia Lqa.
Open Scope list_scope.
Open Scope nat_scope.

(** ** C55 *)
(** calls of update_axis_limits, in order *)
Fixpoint updates (ratio : Q) (ax : axes) (calls : list (list (Q * Q) * nat)) : res axes :=
  match calls with [] => Ok ax | (pts, i) :: r => do ax' <- update_axis_limits ratio ax pts i; updates ratio ax' r end.
(** the points passed for subplot i *)
Definition pts_of (i : nat) (calls : list (list (Q * Q) * nat)) : list (Q * Q) := flat_map (fun c => if snd c =? i then fst c else []) calls.
(** b is the bounding box of the points *)
Definition bounding (b : box2) (pts : list (Q * Q)) : Prop :=
  (forall p, In p pts -> (xmin b <= fst p <= xmax b)%Q /\ (ymin b <= snd p <= ymax b)%Q) /\
  (exists p, In p pts /\ fst p = xmin b) /\ (exists p, In p pts /\ fst p = xmax b) /\ (exists p, In p pts /\ snd p = ymin b) /\ (exists p, In p pts /\ snd p = ymax b).
Definition inside (b : box2) (p : Q * Q) : Prop := (xmin b <= fst p <= xmax b)%Q /\ (ymin b <= snd p <= ymax b)%Q.

Lemma Qltb_t x y : Qltb x y = true <-> (x < y)%Q.
Proof. unfold Qltb. destruct (Qle_bool y x) eqn:E; cbn. - apply Qle_bool_iff in E. split; [discriminate|intro; lra]. - split; [intros _|reflexivity]. apply Qnot_le_lt. intro K. apply Qle_bool_iff in K. congruence. Qed.
Lemma Qltb_f x y : Qltb x y = false <-> (y <= x)%Q.
Proof. destruct (Qltb x y) eqn:E; [apply Qltb_t in E; split; [discriminate|intro; lra]|]. split; [intros _|reflexivity]. unfold Qltb in E. apply Bool.negb_false_iff in E. apply Qle_bool_iff. exact E. Qed.

Lemma grow_bounding b pts p : bounding b pts -> bounding (grow b p) (pts ++ [p]).
Proof.
  intros (A & (q1 & I1 & E1) & (q2 & I2 & E2) & (q3 & I3 & E3) & (q4 & I4 & E4)). destruct p as [x y]. unfold bounding, grow. cbn [xmin xmax ymin ymax].
  assert (B := A q1 I1). assert (Bx : (xmin b <= xmax b)%Q) by lra. assert (By : (ymin b <= ymax b)%Q) by lra.
  assert (L : In (x, y) (pts ++ [(x, y)])) by (apply in_or_app; right; left; reflexivity). assert (O : forall q, In q pts -> In q (pts ++ [(x, y)])) by (intros q Hq; apply in_or_app; left; exact Hq).
  destruct (Qltb x (xmin b)) eqn:C1; [apply Qltb_t in C1|apply Qltb_f in C1; destruct (Qltb (xmax b) x) eqn:C2; [apply Qltb_t in C2|apply Qltb_f in C2]];
  (destruct (Qltb y (ymin b)) eqn:C3; [apply Qltb_t in C3|apply Qltb_f in C3; destruct (Qltb (ymax b) y) eqn:C4; [apply Qltb_t in C4|apply Qltb_f in C4]]);
  (split; [intros q Hq; apply in_app_or in Hq as [Hq|[<-|[]]]; [specialize (A q Hq)|cbn [fst snd]]; lra|]); repeat split; eauto.
Qed.
Lemma grow_all pts : forall b seen, bounding b seen -> bounding (fold_left grow pts b) (seen ++ pts).
Proof. induction pts as [|p pts IH]; intros b seen B; cbn [fold_left]; [rewrite app_nil_r; exact B|]. replace (seen ++ p :: pts) with ((seen ++ [p]) ++ pts) by (rewrite <- app_assoc; reflexivity). apply IH. apply grow_bounding. exact B. Qed.
Lemma grow_again p r b : bounding b [p] -> bounding (fold_left grow (p :: r) b) (p :: r).
Proof.
  intro B. assert (K := grow_all (p :: r) b [p] B). destruct K as (A & H1 & H2 & H3 & H4). split; [intros q Hq; apply A; right; exact Hq|].
  repeat split; [destruct H1 as (q & I1 & E)|destruct H2 as (q & I1 & E)|destruct H3 as (q & I1 & E)|destruct H4 as (q & I1 & E)]; exists q; (split; [cbn in I1 |- *; tauto|exact E]).
Qed.

Lemma nth_set {A} i (x : A) l j : nth_error (set_nth i x l) j = if (j =? i) && (i <? List.length l) then Some x else nth_error l j.
Proof.
  assert (N : forall k, nth_error (@nil A) k = None) by (intros [|k]; reflexivity).
  revert i j. induction l as [|y l IH]; intros i j; [replace (set_nth i x []) with (@nil A) by (destruct i; reflexivity); cbn [List.length]; rewrite !N; destruct i; rewrite Bool.andb_false_r; reflexivity|].
  destruct i as [|i], j as [|j]; cbn [set_nth nth_error List.length]; [reflexivity|reflexivity|reflexivity|]. rewrite IH. reflexivity.
Qed.
Lemma set_nth_length {A} i (x : A) l : List.length (set_nth i x l) = List.length l.
Proof. revert i. induction l as [|y l IH]; intros [|i]; cbn; auto. Qed.

(** what is known of a subplot after the calls *)
Definition flat (b : box2) : Prop := (xmin b == xmax b)%Q \/ (ymin b == ymax b)%Q.
Definition covers (b c : box2) : Prop := (xmin b <= xmin c)%Q /\ (xmax c <= xmax b)%Q /\ (ymin b <= ymin c)%Q /\ (ymax c <= ymax b)%Q.
Definition axis_ok (ratio : Q) (o : axis) (pts : list (Q * Q)) : Prop :=
  bounding (ax_lim o) pts /\ covers (ax_show o) (ax_drawn o) /\ (flat (ax_lim o) \/ covers (ax_drawn o) (ax_lim o)).

Lemma redraw_ok ratio first lim old pts : (0 <= ratio)%Q -> bounding lim pts -> (first = true \/ covers (ax_show old) (ax_drawn old)) -> axis_ok ratio (redraw ratio first lim old) pts.
Proof.
  intros Hr B Hc. destruct B as (A & (q1 & I1 & E1) & B'). assert (K := A q1 I1). assert (Hx : (xmin lim <= xmax lim)%Q) by lra. assert (Hy : (ymin lim <= ymax lim)%Q) by lra.
  assert (Hdx : (0 <= (xmax lim - xmin lim) * ratio)%Q) by (apply Qmult_le_0_compat; lra). assert (Hdy : (0 <= (ymax lim - ymin lim) * ratio)%Q) by (apply Qmult_le_0_compat; lra).
  unfold redraw. set (outside := _ || _ || _ || _). destruct (first || _) eqn:E.
  - unfold axis_ok. cbn [ax_lim ax_drawn ax_show]. split; [split; [exact A|split; [eauto|exact B']]|]. split; [|right].
    + unfold covers. cbn [xmin xmax ymin ymax]. set (a := (xmin lim - _)%Q). set (b := (xmax lim + _)%Q). set (c := (ymin lim - _)%Q). set (d := (ymax lim + _)%Q). destruct (Qeq_bool a b); destruct (Qeq_bool c d); clearbody a b c d; clear; repeat split; lra.
    + unfold covers. cbn [xmin xmax ymin ymax]. repeat split; lra.
  - apply Bool.orb_false_iff in E as [E1' E2]. destruct Hc as [Hc|Hc]; [congruence|]. unfold axis_ok. cbn [ax_lim ax_drawn ax_show]. split; [split; [exact A|split; [eauto|exact B']]|]. split; [exact Hc|].
    apply Bool.andb_false_iff in E2 as [E2|E2]; [apply Bool.andb_false_iff in E2 as [E2|E2]|].
    + right. unfold outside in E2. apply Bool.orb_false_iff in E2 as [E2 D4]. apply Bool.orb_false_iff in E2 as [E2 D3]. apply Bool.orb_false_iff in E2 as [D1 D2]. apply Qltb_f in D1. apply Qltb_f in D2. apply Qltb_f in D3. apply Qltb_f in D4. repeat split; assumption.
    + left. left. apply Bool.negb_false_iff in E2. apply Qeq_bool_iff. exact E2.
    + left. right. apply Bool.negb_false_iff in E2. apply Qeq_bool_iff. exact E2.
Qed.

Definition slot_ok (ratio : Q) (o : option axis) (pts : list (Q * Q)) : Prop := match o with None => pts = [] | Some o => axis_ok ratio o pts end.
Lemma updates_ok ratio : (0 <= ratio)%Q -> forall calls ax ax' seen, (forall i o, nth_error ax i = Some o -> slot_ok ratio o (seen i)) -> updates ratio ax calls = Ok ax' ->
  List.length ax' = List.length ax /\ forall i o, nth_error ax' i = Some o -> slot_ok ratio o (seen i ++ pts_of i calls).
Proof.
  intro Hr. induction calls as [|[pts i] calls IH]; intros ax ax' seen HS H; cbn [updates] in H.
  - apply ok_inj in H. subst ax'. split; [reflexivity|]. intros i o Ho. cbn. rewrite app_nil_r. apply HS. exact Ho.
  - apply bind_ok in H as (ax1 & H1 & H). unfold update_axis_limits in H1. destruct (nth_error ax i) as [oo|] eqn:En; [|discriminate]. assert (Hi : i < List.length ax) by (apply nth_error_Some; rewrite En; discriminate).
    assert (G : exists o1, ax1 = set_nth i (Some o1) ax /\ axis_ok ratio o1 (seen i ++ pts)).
    { assert (S0 := HS i oo En). destruct oo as [o|].
      - apply ok_inj in H1. eexists. split; [symmetry; exact H1|]. destruct S0 as (B & C & D). apply redraw_ok; [exact Hr|apply grow_all; exact B|right; exact C].
      - destruct pts as [|[x y] r]; [discriminate|]. apply ok_inj in H1. eexists. split; [symmetry; exact H1|]. cbn in S0. rewrite S0. cbn [app]. apply redraw_ok; [exact Hr|apply grow_again|left; reflexivity].
        split; [intros p [<-|[]]; cbn; lra|]. cbn [xmin xmax ymin ymax]. repeat split; exists (x, y); split; [left; reflexivity|reflexivity|left; reflexivity|reflexivity|left; reflexivity|reflexivity|left; reflexivity|reflexivity]. }
    destruct G as (o1 & -> & G). destruct (IH (set_nth i (Some o1) ax) ax' (fun j => if j =? i then seen i ++ pts else seen j)) with (2 := H) as [L K].
    + intros j o Ho. rewrite nth_set in Ho. destruct (Nat.eqb_spec j i) as [->|Hj]; cbn [andb] in Ho.
      * destruct (Nat.ltb_spec i (List.length ax)); [|lia]. injection Ho as <-. exact G.
      * apply HS. exact Ho.
    + split; [rewrite L; apply set_nth_length|]. intros j o Ho. specialize (K j o Ho). unfold pts_of. cbn [flat_map fst snd]. fold (pts_of j calls). rewrite (Nat.eqb_sym i j). destruct (Nat.eqb_spec j i) as [->|Hj]; cbn [app]; [rewrite app_assoc; exact K|exact K].
Qed.

(** after any sequence of calls, the limits kept for a subplot are the bounding box of all the points passed for it *)
Theorem C55_limits_exact ratio n calls ax i : (0 <= ratio)%Q -> updates ratio (axes0 n) calls = Ok ax -> i < n -> pts_of i calls <> [] -> exists o, nth_error ax i = Some (Some o) /\ bounding (ax_lim o) (pts_of i calls).
Proof.
  intros Hr H Hi Hp. destruct (updates_ok ratio Hr calls (axes0 n) ax (fun _ => [])) with (2 := H) as [L K].
  - intros j o Ho. unfold axes0 in Ho. apply nth_error_In in Ho. apply repeat_spec in Ho. subst o. reflexivity.
  - unfold axes0 in L. rewrite repeat_length in L. destruct (nth_error ax i) as [oo|] eqn:E; [|apply nth_error_None in E; lia]. specialize (K i oo E). destruct oo as [o|]; [|cbn in K; congruence]. exists o. split; [reflexivity|]. apply K.
Qed.
(** every point is inside the region shown, unless all points are on one vertical or one horizontal line *)
Theorem C55_points_shown_partial ratio n calls ax i p q r s : (0 <= ratio)%Q -> updates ratio (axes0 n) calls = Ok ax -> i < n -> In p (pts_of i calls) -> In q (pts_of i calls) -> In r (pts_of i calls) -> In s (pts_of i calls) ->
  ~ (fst p == fst q)%Q -> ~ (snd r == snd s)%Q -> exists o, nth_error ax i = Some (Some o) /\ forall z, In z (pts_of i calls) -> inside (ax_show o) z.
Proof.
  intros Hr H Hi Ip Iq Ir Is Hx Hy. destruct (updates_ok ratio Hr calls (axes0 n) ax (fun _ => [])) with (2 := H) as [L K].
  - intros j o Ho. unfold axes0 in Ho. apply nth_error_In in Ho. apply repeat_spec in Ho. subst o. reflexivity.
  - unfold axes0 in L. rewrite repeat_length in L. destruct (nth_error ax i) as [oo|] eqn:E; [|apply nth_error_None in E; lia]. specialize (K i oo E). cbn [app] in K. destruct oo as [o|]; [|cbn in K; rewrite K in Ip; destruct Ip]. exists o. split; [reflexivity|].
    destruct K as ((A & _) & C & D). assert (A1 := A p Ip). assert (A2 := A q Iq). assert (A3 := A r Ir). assert (A4 := A s Is). destruct D as [[D|D]|D].
    + exfalso. apply Hx. apply Qle_antisym; lra.
    + exfalso. apply Hy. apply Qle_antisym; lra.
    + intros z Hz. specialize (A z Hz). destruct C as (C1 & C2 & C3 & C4). destruct D as (D1 & D2 & D3 & D4). split; split; eapply Qle_trans; try eassumption; eapply Qle_trans; try eassumption; tauto.
Qed.
(** points with one and the same y (a constant output): after the first point the axes never change, points more than 1/10 away are not shown; likewise for a constant x *)
Lemma flat_grow pts : forall b y, (ymin b == y)%Q -> (ymax b == y)%Q -> (forall p, In p pts -> (snd p == y)%Q) -> (ymin (fold_left grow pts b) == y)%Q /\ (ymax (fold_left grow pts b) == y)%Q.
Proof.
  induction pts as [|[u v] pts IH]; intros b y H1 H2 H; cbn [fold_left]; [auto|]. apply IH; [| |intros p Hp; apply H; right; exact Hp]; specialize (H (u, v) (or_introl eq_refl)); cbn [snd] in H; cbn [grow ymin ymax].
  - destruct (Qltb v (ymin b)); [exact H|exact H1].
  - destruct (Qltb v (ymin b)); [exact H2|]. destruct (Qltb (ymax b) v); [exact H|exact H2].
Qed.
Theorem C55_flat_refuted ratio x y pts z ax : (forall p, In p pts -> (snd p == y)%Q) -> In z pts -> (x + (1 # 10) < fst z)%Q -> updates ratio (axes0 1) [([(x, y)], 0); (pts, 0)] = Ok ax -> exists o, nth_error ax 0 = Some (Some o) /\ ~ inside (ax_show o) z.
Proof.
  intros Hy Hz Hx H. cbn [updates] in H. apply bind_ok in H as (ax1 & H1 & H). apply bind_ok in H as (ax2 & H2 & H). apply ok_inj in H. subst ax2.
  unfold update_axis_limits, axes0 in H1. cbn [repeat nth_error set_nth fold_left] in H1. assert (E0 : Qltb x x = false) by (apply Qltb_f; lra). assert (E1 : Qltb y y = false) by (apply Qltb_f; lra). unfold grow in H1. cbn [xmin xmax ymin ymax] in H1. rewrite E0, E1 in H1.
  apply ok_inj in H1. subst ax1. unfold update_axis_limits in H2. cbn [nth_error set_nth] in H2. rename H2 into H.
  set (o1 := redraw ratio true (mkBox x x y y) (mkAxis (mkBox x x y y) (mkBox x x y y) (mkBox x x y y))) in H. apply ok_inj in H. subst ax. cbn [nth_error]. eexists. split; [reflexivity|].
  assert (F := flat_grow pts (ax_lim o1) y (Qeq_refl _) (Qeq_refl _) Hy). unfold redraw at 1. cbn [orb].
  assert (Q1 : Qeq_bool (ymin (fold_left grow pts (ax_lim o1))) (ymax (fold_left grow pts (ax_lim o1))) = true) by (apply Qeq_bool_iff; destruct F as [-> ->]; reflexivity).
  rewrite Q1. cbn [negb]. rewrite Bool.andb_false_r. cbn [ax_show]. intros [[_ K] _]. unfold o1, redraw in K. cbn [orb ax_show xmin xmax ymin ymax] in K.
  assert (Z : ((x - x) * ratio == 0)%Q) by ring. set (u := ((x - x) * ratio)%Q) in *. clearbody u. revert K Z Hx. generalize (fst z). clear. intros w K Z Hx. destruct (Qeq_bool _ _); lra.
Qed.
Example C55_witness : exists ax o, updates (1 # 10) (axes0 2) [([(0, 0)], 1%nat); ([(10, 5); (-10, 2)], 1%nat); ([(7, 7)], 0%nat)]%Q = Ok ax /\ nth_error ax 1 = Some (Some o) /\ xmin (ax_lim o) = (-10)%Q /\ (xmax (ax_show o) == 12)%Q.
Proof. eexists. eexists. split; [vm_compute; reflexivity|]. split; [reflexivity|]. split; vm_compute; reflexivity. Qed.

(** ** C56 *)
(** the colours given to a sequence of mode names, and the table afterwards *)
Fixpoint asks (all : list string) (d : list (string * string)) (ms : list string) : res (list (string * string) * list string) :=
  match ms with [] => Ok (d, []) | m :: r => do a <- mode_color all d m; do b <- asks all (fst a) r; Ok (fst b, snd a :: snd b) end.
(** the table: k-th mode has the k-th colour, cyclically; no mode twice *)
Definition table_ok (all : list string) (d : list (string * string)) : Prop :=
  NoDup (map fst d) /\ forall k m c, nth_error d k = Some (m, c) -> c = nth (k mod List.length all) all EmptyString.
Lemma find_in m d c : NoDup (map fst d) -> In (m, c) d -> find_color m d = Some c.
Proof.
  induction d as [|[k v] d IH]; intros N Hi; [destruct Hi|]. destruct Hi as [E|Hi]; cbn [find_color].
  - injection E as -> ->. rewrite String.eqb_refl. reflexivity.
  - cbn [map fst] in N. inversion N as [|z l Hn N' Ez]; subst. destruct (String.eqb_spec k m) as [->|Hk]; [|apply IH; assumption]. exfalso. apply Hn. apply in_map_iff. exists (m, c). split; [reflexivity|exact Hi].
Qed.
Lemma find_some m d c : find_color m d = Some c -> In (m, c) d.
Proof. induction d as [|[k v] d IH]; cbn [find_color]; [discriminate|]. destruct (String.eqb_spec k m) as [->|Hk]; intro H; [injection H as ->; left; reflexivity|right; apply IH; exact H]. Qed.
Lemma find_none m d : find_color m d = None -> ~ In m (map fst d).
Proof. induction d as [|[k v] d IH]; cbn [find_color map fst]; [intros _ []|]. destruct (String.eqb_spec k m) as [->|Hk]; intros H [E|K]; try discriminate; [congruence|exact (IH H K)]. Qed.
Lemma asks_ok all : all <> [] -> forall ms d, table_ok all d -> exists d' cs, asks all d ms = Ok (d', cs) /\ table_ok all d' /\ (forall m, In m (map fst d') <-> In m (map fst d) \/ In m ms) /\
  (exists e, d' = d ++ e) /\ Forall2 (fun m c => In (m, c) d') ms cs.
Proof.
  intro Ha. induction ms as [|m ms IH]; intros d T; cbn [asks]; [exists d, []; split; [reflexivity|]; split; [exact T|]; split; [cbn; tauto|]; split; [exists []; rewrite app_nil_r; reflexivity|constructor]|].
  assert (S1 : exists d1 c, mode_color all d m = Ok (d1, c) /\ table_ok all d1 /\ (forall x, In x (map fst d1) <-> In x (map fst d) \/ x = m) /\ (exists e, d1 = d ++ e) /\ In (m, c) d1).
  { unfold mode_color. destruct (find_color m d) as [c|] eqn:F.
    - exists d, c. split; [reflexivity|]. split; [exact T|]. apply find_some in F. assert (Hm : In m (map fst d)) by (apply in_map_iff; exists (m, c); auto). split; [intro x; split; [tauto|intros [K| ->]; assumption]|]. split; [exists []; rewrite app_nil_r; reflexivity|exact F].
    - destruct all as [|a0 all]; [congruence|]. eexists. eexists. split; [reflexivity|]. apply find_none in F. destruct T as [N K]. split; [split|].
      + rewrite map_app. cbn [map fst]. apply NoDup_Add with (a := m) (l := map fst d); [|split; assumption]. replace (map fst d) with (map fst d ++ []) at 1 by apply app_nil_r. apply Add_app.
      + intros k x c Hk. destruct (Nat.lt_ge_cases k (List.length d)) as [L|L]; [rewrite nth_error_app1 in Hk by exact L; exact (K k x c Hk)|]. rewrite nth_error_app2 in Hk by exact L. destruct (k - List.length d) as [|j] eqn:E; cbn [nth_error] in Hk; [|destruct j; discriminate]. assert (k = List.length d) by lia. subst k. injection Hk as _ Hk. symmetry. exact Hk.
      + split; [intro x; rewrite map_app, in_app_iff; cbn; intuition congruence|]. split; [eauto|]. apply in_or_app. right. left. reflexivity. }
  destruct S1 as (d1 & c & E1 & T1 & I1 & (e1 & X1) & M1). destruct (IH d1 T1) as (d2 & cs & E2 & T2 & I2 & (e2 & X2) & F2). exists d2, (c :: cs). rewrite E1. cbn [bind fst snd]. rewrite E2. cbn [bind fst snd]. split; [reflexivity|]. split; [exact T2|].
  split; [intro x; rewrite I2, I1; cbn; intuition congruence|]. split; [exists (e1 ++ e2); rewrite X2, X1, <- app_assoc; reflexivity|]. constructor; [rewrite X2; apply in_or_app; left; exact M1|exact F2].
Qed.
Lemma table_nil all : table_ok all [].
Proof. split; [constructor|]. intros [|k] m c; discriminate. Qed.

Theorem C56_answers all ms : all <> [] -> exists d cs, asks all [] ms = Ok (d, cs) /\ List.length cs = List.length ms /\ forall c, In c cs -> In c all.
Proof.
  intro Ha. destruct (asks_ok all Ha ms [] (table_nil all)) as (d & cs & E & (N & K) & _ & _ & F). exists d, cs. split; [exact E|]. split; [clear - F; induction F; cbn; congruence|].
  intros c Hc. assert (J : exists m, In (m, c) d). { clear E. induction F as [|m c' ms cs H F IH]; [destruct Hc|]. destruct Hc as [<-|Hc]; [eauto|apply IH; exact Hc]. }
  destruct J as (m & J). apply In_nth_error in J as (k & J). rewrite (K k m c J). apply nth_In. apply Nat.mod_upper_bound. destruct all; [congruence|discriminate].
Qed.
(** one mode always has the same colour *)
Theorem C56_same_mode all ms d cs i j m ci cj : all <> [] -> asks all [] ms = Ok (d, cs) -> nth_error ms i = Some m -> nth_error ms j = Some m -> nth_error cs i = Some ci -> nth_error cs j = Some cj -> ci = cj.
Proof.
  intros Ha H Hi Hj Ci Cj. destruct (asks_ok all Ha ms [] (table_nil all)) as (d' & cs' & E & (N & K) & _ & _ & F). rewrite H in E. apply ok_inj in E. injection E as <- <-.
  assert (P : forall k m c, nth_error ms k = Some m -> nth_error cs k = Some c -> In (m, c) d). { clear - F. induction F as [|x y ms cs H F IH]; intros [|k] m c; cbn; try discriminate; [congruence|apply IH]. }
  assert (A := find_in _ _ _ N (P _ _ _ Hi Ci)). assert (B := find_in _ _ _ N (P _ _ _ Hj Cj)). congruence.
Qed.
(** different modes have differently named colours as long as there are no more modes than colours *)
Theorem C56_distinct_modes all ms d cs i j mi mj ci cj : NoDup all -> List.length (nodup string_dec ms) <= List.length all -> asks all [] ms = Ok (d, cs) ->
  nth_error ms i = Some mi -> nth_error ms j = Some mj -> nth_error cs i = Some ci -> nth_error cs j = Some cj -> mi <> mj -> ci <> cj.
Proof.
  intros Hn Hl H Hi Hj Ci Cj Hm Hc. assert (Ha : all <> []). { intros ->. destruct ms as [|m ms]; [destruct i; discriminate|]. cbn [asks] in H. discriminate H. }
  destruct (asks_ok all Ha ms [] (table_nil all)) as (d' & cs' & E & (N & K) & In1 & _ & F). rewrite H in E. apply ok_inj in E. injection E as <- <-.
  assert (P : forall k m c, nth_error ms k = Some m -> nth_error cs k = Some c -> In (m, c) d). { clear - F. induction F as [|x y ms cs H F IH]; intros [|k] m c; cbn; try discriminate; [congruence|apply IH]. }
  assert (L : List.length d <= List.length all). { rewrite <- (map_length fst d). eapply Nat.le_trans; [|exact Hl]. apply NoDup_incl_length; [exact N|]. intros x Hx. apply nodup_In. apply In1 in Hx as [[]|Hx]. exact Hx. }
  assert (A := P _ _ _ Hi Ci). assert (B := P _ _ _ Hj Cj). apply In_nth_error in A as (k & A). apply In_nth_error in B as (l & B). assert (Lk : k < List.length d) by (apply nth_error_Some; rewrite A; discriminate). assert (Ll : l < List.length d) by (apply nth_error_Some; rewrite B; discriminate).
  assert (Ek := K _ _ _ A). assert (El := K _ _ _ B). rewrite Nat.mod_small in Ek, El by lia. assert (k = l) by (apply (proj1 (NoDup_nth all EmptyString) Hn); [lia|lia|congruence]). subst l. congruence.
Qed.
Lemma asks_fresh all : all <> [] -> forall ms d, NoDup (map fst d ++ ms) -> asks all d ms = Ok (d ++ combine ms (map (fun k => nth (k mod List.length all) all EmptyString) (seq (List.length d) (List.length ms))), map (fun k => nth (k mod List.length all) all EmptyString) (seq (List.length d) (List.length ms))).
Proof.
  intro Ha. induction ms as [|m ms IH]; intros d N; cbn [asks List.length seq map combine]; [rewrite app_nil_r; reflexivity|].
  assert (F : find_color m d = None). { destruct (find_color m d) as [c|] eqn:F; [|reflexivity]. exfalso. apply find_some in F. apply NoDup_remove_2 in N. apply N. apply in_or_app. left. apply in_map_iff. exists (m, c). auto. }
  unfold mode_color. rewrite F. destruct all as [|a0 al]; [congruence|]. set (all := a0 :: al) in *. cbv beta zeta. cbn [bind fst snd]. rewrite IH.
  - cbn [bind fst snd]. rewrite app_length, Nat.add_1_r, <- app_assoc. reflexivity.
  - rewrite map_app. cbn [map fst]. rewrite <- app_assoc. exact N.
Qed.
(** one mode more than there are colours: it has the colour of the first mode *)
Theorem C56_too_many_modes_refuted all m0 ms m : List.length all = S (List.length ms) -> NoDup (m0 :: ms ++ [m]) -> exists d c mid, asks all [] (m0 :: ms ++ [m]) = Ok (d, c :: mid ++ [c]) /\ List.length mid = List.length ms.
Proof.
  intros L N. assert (Ha : all <> []) by (intros ->; discriminate). rewrite (asks_fresh all Ha _ [] N). cbn [List.length seq map app]. rewrite app_length. cbn [List.length]. rewrite Nat.add_1_r, seq_S, map_app. cbn [map Nat.add]. rewrite L. rewrite Nat.mod_same, Nat.mod_0_l by discriminate.
  eexists. eexists. eexists. split; [reflexivity|]. rewrite map_length, seq_length. reflexivity.
Qed.
(** two names for one colour (matplotlib's cyan and aqua, magenta and fuchsia, gray and grey): two modes are drawn alike although there are enough colours *)
Theorem C56_synonyms_refuted all (rgb : string -> list Q) ms i j ci cj : NoDup ms -> List.length ms <= List.length all -> nth_error all i = Some ci -> nth_error all j = Some cj -> rgb ci = rgb cj -> i < List.length ms -> j < List.length ms ->
  exists d cs, asks all [] ms = Ok (d, cs) /\ nth_error (map rgb cs) i = nth_error (map rgb cs) j.
Proof.
  intros N L Hi Hj R Li Lj. assert (Ha : all <> []) by (intros ->; destruct i; discriminate). rewrite (asks_fresh all Ha ms [] N). eexists. eexists. split; [reflexivity|]. cbn [List.length]. rewrite !map_map.
  assert (G : forall k c, nth_error all k = Some c -> k < List.length ms -> nth_error (map (fun x => rgb (nth (x mod List.length all) all EmptyString)) (seq 0 (List.length ms))) k = Some (rgb c)).
  { intros k c Hk Lk. rewrite (map_nth_error _ k (seq 0 (List.length ms)) (d := k)). - rewrite Nat.mod_small by lia. erewrite nth_error_nth; [reflexivity|exact Hk]. - rewrite nth_error_nth' with (d := 0) by (rewrite seq_length; lia). rewrite seq_nth by lia. reflexivity. }
  rewrite (G i ci Hi Li), (G j cj Hj Lj), R. reflexivity.
Qed.

(** the list of colours *)
Lemma remove_perm x : forall l r, list_remove x l = Ok r -> Permutation l (x :: r).
Proof.
  induction l as [|y l IH]; intros r H; cbn [list_remove] in H; [discriminate|]. destruct (String.eqb_spec x y) as [->|Hx]; [apply ok_inj in H; subst r; reflexivity|].
  apply bind_ok in H as (r' & H1 & H). apply ok_inj in H. subst r. rewrite (IH _ H1). apply perm_swap.
Qed.
Lemma remove_all_perm xs : forall l r, remove_all xs l = Ok r -> Permutation l (xs ++ r).
Proof. induction xs as [|x xs IH]; intros l r H; cbn [remove_all] in H; [apply ok_inj in H; subst; reflexivity|]. apply bind_ok in H as (l1 & H1 & H). rewrite (remove_perm _ _ _ H1). cbn. constructor. apply IH. exact H. Qed.
Lemma remove_in x : forall l, In x l -> exists r, list_remove x l = Ok r.
Proof. induction l as [|y l IH]; intros Hi; [destruct Hi|]. cbn [list_remove]. destruct (String.eqb_spec x y) as [->|Hx]; [eauto|]. destruct Hi as [E|Hi]; [congruence|]. destruct (IH Hi) as (r & ->). cbn. eauto. Qed.
Lemma remove_all_in xs : forall l, NoDup xs -> incl xs l -> exists r, remove_all xs l = Ok r.
Proof.
  induction xs as [|x xs IH]; intros l N Hi; cbn [remove_all]; [eauto|]. destruct (remove_in x l (Hi x (or_introl eq_refl))) as (l1 & E). rewrite E. cbn [bind]. inversion N as [|z zs Hn N' Ez]; subst. apply IH; [exact N'|].
  intros y Hy. assert (K : In y (x :: l1)) by (eapply Permutation_in; [apply remove_perm; exact E|apply Hi; right; exact Hy]). destruct K as [<-|K]; [contradiction|exact K].
Qed.
Lemma is_substring_iff s : forall t, is_substring s t = true <-> exists a b, t = (a ++ (s ++ b))%string.
Proof.
  assert (Pre : forall s t, prefix s t = true <-> exists b, t = (s ++ b)%string).
  { clear. induction s as [|c s IH]; intros [|d t]; cbn [prefix].
    - split; [exists EmptyString; reflexivity|reflexivity]. - split; [eexists; reflexivity|reflexivity]. - split; [discriminate|intros (b & E); discriminate].
    - destruct (Ascii.ascii_dec c d) as [->|Hc]; [rewrite IH; split; intros (b & E); [exists b; cbn; congruence|exists b; cbn in E; congruence]|]. split; [discriminate|intros (b & E); cbn in E; congruence]. }
  induction t as [|c t IH]; cbn [is_substring]; rewrite Bool.orb_true_iff, Pre.
  - split; [intros [(b & E)|E]; [exists EmptyString, b; exact E|discriminate]|]. intros (a & b & E). left. destruct a; [exists b; exact E|discriminate].
  - rewrite IH. split.
    + intros [(b & E)|(a & b & E)]; [exists EmptyString, b; exact E|exists (String c a), b; cbn; congruence].
    + intros (a & b & E). destruct a as [|c' a]; [left; exists b; exact E|right; exists a, b; cbn in E; congruence].
Qed.
Definition contains (t s : string) : Prop := exists a b, t = (a ++ (s ++ b))%string.
(** which colours are offered for modes *)
Definition usable (cnames : list (string * Q)) (c : string) : Prop :=
  exists avg, In (c, avg) cnames /\ (avg <= 3 # 4)%Q /\ ~ contains c "white" /\ ~ contains c "yellow" /\ c <> "black"%string /\ c <> "red"%string /\ c <> "blue"%string.
Lemma keep_iff c avg : keep_color (c, avg) = true <-> (avg <= 3 # 4)%Q /\ ~ contains c "white" /\ ~ contains c "yellow" /\ c <> "black"%string /\ c <> "red"%string /\ c <> "blue"%string.
Proof.
  unfold keep_color. cbn [fst snd existsb]. rewrite !Bool.andb_true_iff, Qle_bool_iff, !Bool.negb_true_iff, !Bool.orb_false_iff. unfold contains. rewrite <- !is_substring_iff, !Bool.not_true_iff_false, !String.eqb_neq. tauto.
Qed.
Theorem C56_all_colors shuffle cnames all : (forall l, Permutation (shuffle l) l) -> NoDup (map fst cnames) -> init_colors shuffle cnames = Ok all ->
  NoDup all /\ (exists rest, all = ["lime"; "orange"; "cyan"; "magenta"; "green"]%string ++ rest) /\ forall c, In c all <-> usable cnames c.
Proof.
  intros Hs N H. unfold init_colors in H. apply bind_ok in H as (l & Hl & H). apply ok_inj in H. assert (P : Permutation (map fst (filter keep_color cnames)) all). { subst all. rewrite Hs. apply remove_all_perm. exact Hl. }
  split; [eapply Permutation_NoDup; [exact P|]|].
  - clear - N. induction cnames as [|[c q] cs IH]; cbn [filter map fst]; [constructor|]. cbn [map fst] in N. inversion N as [|z zs Hn N' Ez]; subst. destruct (keep_color (c, q)); [cbn [map fst]; constructor|]; [|apply IH; exact N'|apply IH; exact N'].
    intro K. apply Hn. apply in_map_iff in K as (x & E & K). apply filter_In in K as [K _]. apply in_map_iff. eauto.
  - split; [subst all; eexists; reflexivity|]. intro c. split.
    + intro Hc. apply Permutation_sym in P. assert (K := Permutation_in _ P Hc). apply in_map_iff in K as ([c' q] & E & K). cbn in E. subst c'. apply filter_In in K as [K1 K2]. exists q. split; [exact K1|]. apply keep_iff. exact K2.
    + intros (q & Hi & Hk). apply keep_iff in Hk. eapply Permutation_in; [exact P|]. apply in_map_iff. exists (c, q). split; [reflexivity|]. apply filter_In. auto.
Qed.
Theorem C56_init_succeeds shuffle cnames : (forall c, In c ["lime"; "orange"; "cyan"; "magenta"; "green"]%string -> usable cnames c) -> exists all, init_colors shuffle cnames = Ok all.
Proof.
  intro H. unfold init_colors. destruct (remove_all_in first_colors (map fst (filter keep_color cnames))) as (r & ->); [| |cbn; eauto].
  - unfold first_colors. repeat constructor; cbn; intuition discriminate.
  - intros c Hc. destruct (H c Hc) as (q & Hi & Hk). apply keep_iff in Hk. apply in_map_iff. exists (c, q). split; [reflexivity|]. apply filter_In. auto.
Qed.
(** faces are between the edge colour and white, darker is between black and the colour *)
Theorem C56_shades rgb i v : nth_error rgb i = Some v -> (0 <= v <= 1)%Q -> exists l d, nth_error (lighter rgb) i = Some l /\ nth_error (darker rgb) i = Some d /\ (0 <= d)%Q /\ (d <= v)%Q /\ (v <= l)%Q /\ (l <= 1)%Q.
Proof.
  intros H Hv. exists ((2 + v) / 3)%Q, (v / 2)%Q. split; [apply (map_nth_error (fun v => ((2 + v) / 3)%Q)); exact H|]. split; [apply (map_nth_error (fun v => (v / 2)%Q)); exact H|].
  assert (E3 : ((2 + v) / 3 == (2 + v) * (1 # 3))%Q) by (unfold Qdiv; reflexivity). assert (E2 : (v / 2 == v * (1 # 2))%Q) by (unfold Qdiv; reflexivity). repeat split; lra.
Qed.
Example C56_witness : exists all, init_colors (@rev string) [("aqua", 2 # 3); ("black", 0); ("cyan", 2 # 3); ("green", 1 # 6); ("lightyellow", 7 # 10); ("lime", 1 # 3); ("magenta", 2 # 3); ("navy", 1 # 6); ("orange", 11 # 20); ("white", 1)]%string%Q = Ok all /\
  all = ["lime"; "orange"; "cyan"; "magenta"; "green"; "navy"; "aqua"]%string /\ asks all [] ["a"; "b"; "a"]%string = Ok ([("a", "lime"); ("b", "orange")], ["lime"; "orange"; "lime"])%string.
Proof. eexists. split; [vm_compute; reflexivity|]. split; reflexivity. Qed.

(** ** C58 *)
Fixpoint set_sims (s : sims) (calls : list (list (option (Q * Q)))) : res sims := match calls with [] => Ok s | v :: r => do s' <- set_cur_sim s v; set_sims s' r end.
(** the points of simulation number i that are not None *)
Definition column (calls : list (list (option (Q * Q)))) (i : nat) : list (Q * Q) := flat_map (fun vs => match nth_error vs i with Some (Some p) => [p] | _ => [] end) calls.
Lemma append_ok : forall lines vs, List.length lines = List.length vs -> exists r, append_pts lines vs = Ok r /\ List.length r = List.length vs /\ forall i l, nth_error lines i = Some l -> nth_error r i = Some (l ++ column [vs] i).
Proof.
  induction lines as [|l lines IH]; intros [|v vs] L; try discriminate; [exists []; repeat split; intros [|i] l; discriminate|]. cbn [append_pts]. destruct (IH vs) as (r & E & Lr & K); [cbn in L; lia|]. rewrite E. cbn [bind].
  exists (match v with Some p => l ++ [p] | None => l end :: r). split; [destruct v; rewrite ?E; reflexivity|]. split; [cbn; lia|]. intros [|i] l0 H; cbn [nth_error] in H |- *; [injection H as <-; unfold column; cbn; destruct v; rewrite ?app_nil_r; reflexivity|]. rewrite (K i l0 H). reflexivity.
Qed.
Lemma sims_from m : forall calls s, Forall (fun v => List.length v = m) calls -> List.length (si_cur s) = m -> exists s', set_sims s calls = Ok s' /\ si_done s' = si_done s /\ List.length (si_cur s') = m /\
  (forall i l, nth_error (si_cur s) i = Some l -> nth_error (si_cur s') i = Some (l ++ column calls i)) /\ (forall l r, calls = l ++ [r] -> si_marks s' = somes r).
Proof.
  induction calls as [|v calls IH]; intros s F L; cbn [set_sims].
  - exists s. split; [reflexivity|]. split; [reflexivity|]. split; [exact L|]. split; [intros i l H; cbn; rewrite app_nil_r; exact H|]. intros [|x l] r; discriminate.
  - inversion F as [|v0 c0 Lv Fv Ev]; subst v0 c0. assert (E : exists s1, set_cur_sim s v = Ok s1 /\ si_done s1 = si_done s /\ List.length (si_cur s1) = m /\ (forall i l, nth_error (si_cur s) i = Some l -> nth_error (si_cur s1) i = Some (l ++ column [v] i)) /\ si_marks s1 = somes v).
    { unfold set_cur_sim. assert (EL : match si_cur s with [] => map (fun _ => []) v | l => l end = si_cur s). { destruct (si_cur s) as [|l0 l1] eqn:Ec; [|reflexivity]. cbn in L. destruct v; [reflexivity|cbn in Lv; lia]. }
      cbv zeta. rewrite EL. destruct (append_ok (si_cur s) v) as (r & -> & Lr & K); [congruence|]. cbn [bind]. eexists. split; [reflexivity|]. cbn [si_cur si_done si_marks]. repeat split; [congruence|exact K]. }
    destruct E as (s1 & -> & D1 & L1 & K1 & M1). cbn [bind]. destruct (IH s1 Fv L1) as (s2 & E2 & D2 & L2 & K2 & M2). exists s2. split; [exact E2|]. split; [congruence|]. split; [exact L2|]. split.
    + intros i l H. rewrite (K2 _ _ (K1 _ _ H)). rewrite <- app_assoc. unfold column. cbn [flat_map]. rewrite app_nil_r. reflexivity.
    + intros l r E. destruct calls as [|v2 calls].
      * destruct l as [|x [|y l]]; cbn in E; [|discriminate|discriminate]. injection E as <-. cbn [set_sims] in E2. apply ok_inj in E2. subst s2. exact M1.
      * destruct l as [|x l]; [discriminate|]. cbn [app] in E. injection E as _ E. apply (M2 l r E).
Qed.

Lemma batch_ok m calls s : Forall (fun v => List.length v = m) calls -> calls <> [] -> si_cur s = [] -> exists s', set_sims s calls = Ok s' /\ si_done s' = si_done s /\ si_cur s' = map (column calls) (seq 0 m) /\ (forall l r, calls = l ++ [r] -> si_marks s' = somes r).
Proof.
  intros F Hc Hs. destruct calls as [|v calls]; [congruence|]. inversion F as [|v0 c0 Lv Fv Ev]; subst v0 c0. pose (s0 := mkSims (map (fun _ => []) v) (si_done s) (si_marks s)).
  assert (E0 : set_sims s (v :: calls) = set_sims s0 (v :: calls)). { cbn [set_sims]. unfold set_cur_sim. rewrite Hs. unfold s0. cbn [si_cur si_done]. destruct v; reflexivity. }
  destruct (sims_from m (v :: calls) s0 F) as (s' & E & D & L & K & M); [cbn; rewrite map_length; exact Lv|]. exists s'. rewrite E0. split; [exact E|]. split; [exact D|]. split; [|exact M].
  apply nth_ext with (d := []) (d' := []); [rewrite map_length, seq_length; exact L|]. intros i Hi. rewrite L in Hi. erewrite nth_error_nth with (x := column (v :: calls) i).
  - symmetry. apply nth_error_nth. rewrite (map_nth_error _ i (seq 0 m) (d := i)); [reflexivity|]. rewrite nth_error_nth' with (d := 0) by (rewrite seq_length; lia). rewrite seq_nth by lia. reflexivity.
  - apply (K i []). unfold s0. cbn [si_cur]. destruct (nth_error v i) as [o|] eqn:Eo; [|apply nth_error_None in Eo; lia]. rewrite (map_nth_error _ _ _ Eo). reflexivity.
Qed.
(** a batch of simulations: the current lines are the points passed so far, one line per simulation, points that are None left out; the markers are the last points *)
Theorem C58_current_lines m calls last s : Forall (fun v => List.length v = m) (calls ++ [last]) -> si_cur s = [] -> exists s', set_sims s (calls ++ [last]) = Ok s' /\
  si_cur s' = map (column (calls ++ [last])) (seq 0 m) /\ si_marks s' = somes last /\ si_done s' = si_done s.
Proof. intros F Hs. destruct (batch_ok m (calls ++ [last]) s F) as (s' & E & D & C & M); [intro K; apply app_eq_nil in K as [_ K]; discriminate|exact Hs|]. exists s'. split; [exact E|]. split; [exact C|]. split; [exact (M calls last eq_refl)|exact D]. Qed.
(** any number of batches, each committed at its end *)
Fixpoint run_batches (s : sims) (bs : list (list (list (option (Q * Q))))) : res (sims * list (list (list (Q * Q)))) :=
  match bs with [] => Ok (s, []) | b :: r => do s1 <- set_sims s b; do z <- run_batches (fst (commit_cur_sims s1)) r; Ok (fst z, snd (commit_cur_sims s1) :: snd z) end.
Definition lines_of (mb : nat * list (list (option (Q * Q)))) : list (list (Q * Q)) := map (column (snd mb)) (seq 0 (fst mb)).
Theorem C58_committed_lines (mbs : list (nat * list (list (option (Q * Q))))) : Forall (fun mb => snd mb <> [] /\ Forall (fun v => List.length v = fst mb) (snd mb)) mbs ->
  exists s, run_batches sims0 (map snd mbs) = Ok (s, map lines_of mbs) /\ si_done s = flat_map lines_of mbs /\ si_cur s = [].
Proof.
  intro F. assert (G : forall s0, si_cur s0 = [] -> exists s, run_batches s0 (map snd mbs) = Ok (s, map lines_of mbs) /\ si_done s = si_done s0 ++ flat_map lines_of mbs /\ si_cur s = []).
  { induction F as [|[m b] mbs [Hb Fb] F IH]; intros s0 Hs; cbn [map run_batches flat_map snd]; [exists s0; rewrite app_nil_r; auto|]. cbn [fst snd] in Hb, Fb. destruct (batch_ok m b s0 Fb Hb Hs) as (s1 & -> & D & C & _). cbn [bind commit_cur_sims fst snd].
    destruct (IH (mkSims [] (si_done s1 ++ si_cur s1) []) eq_refl) as (s & -> & D2 & C2). cbn [bind fst snd]. exists s. rewrite C, D2. cbn [si_done]. rewrite D, C, <- app_assoc. unfold lines_of at 2 4. cbn [fst snd]. auto. }
  apply (G sims0 eq_refl).
Qed.
Example C58_witness : exists s, run_batches sims0 [[[Some (0, 0); Some (1, 1)]; [Some (2, 0); None]; [None; Some (3, 1)]]; [[Some (5, 5)]]]%Q = Ok (s, [[[(0, 0); (2, 0)]; [(1, 1); (3, 1)]]; [[(5, 5)]]])%Q.
Proof. eexists. vm_compute. reflexivity. Qed.

(** ** C57 *)
(** what is drawn and removed, in order: a state set (its number, the step), its mode and its vertices for each subplot *)
Inductive dop := DAdd (st step : nat) (mode : string) (vs : nat -> verts) | DDel (st step : nat) (mode : string).
Fixpoint do_ops (small : bool) (p : pman) (ops : list dop) : res pman :=
  match ops with
  | [] => Ok p
  | DAdd st step mode vs :: r => do p' <- add_plotted true false small p st step mode vs; do_ops small p' r
  | DDel st step mode :: r => do p' <- delete_plotted true false p st step mode; do_ops small p' r
  end.
(** specification: the pieces that should be visible, oldest first *)
Definition piece := (nat * nat * string * (nat -> verts))%type.
Definition key_is (st step : nat) (e : piece) : bool := (fst (fst (fst e)) =? st) && (snd (fst (fst e)) =? step).
Definition should (e : list piece) (o : dop) : list piece :=
  match o with DAdd st step mode vs => e ++ [((st, step), mode, vs)] | DDel st step _ => filter (fun x => negb (key_is st step x)) e end.
Definition shown (subplot : nat) (mode : string) (e : list piece) : list verts := map (fun x => snd x subplot) (filter (fun x => String.eqb (snd (fst x)) mode) e).
(** a state set is not drawn again while its polygon is there; [small]: polygons with at most two vertices become markers *)
Fixpoint sensible (small : bool) (n : nat) (e : list piece) (ops : list dop) : Prop :=
  match ops with
  | [] => True
  | o :: r => match o with DAdd st step _ vs => existsb (key_is st step) e = false /\ (small = true -> forall i, i < n -> 2 < List.length (vs i)) | DDel _ _ _ => True end /\ sensible small n (should e o) r
  end.

(** the pieces ever drawn, with what is left of them *)
Definition gpiece := (bool * piece)%type.
Definition of_mode (m : string) (g : gpiece) : bool := String.eqb (snd (fst (snd g))) m.
Definition path_of (i : nat) (g : gpiece) : option verts := if fst g then Some (snd (snd g) i) else None.
Definition alive (G : list gpiece) : list piece := map snd (filter fst G).
Definition kill (st step : nat) (g : gpiece) : gpiece := (fst g && negb (key_is st step (snd g)), snd g).
Definition live_key (st step : nat) (g : gpiece) : bool := fst g && key_is st step (snd g).
Record dinv (n : nat) (shapes : list shape) (r : refs) (G : list gpiece) : Prop := {
  di_len : List.length shapes = n;
  di_polys : forall i s m, nth_error shapes i = Some s -> sh_polys s m = map (path_of i) (filter (of_mode m) G);
  di_refs : forall st step, match r st step with
     | None => existsb (live_key st step) G = false
     | Some l => exists G1 g G2, G = G1 ++ g :: G2 /\ live_key st step g = true /\ existsb (live_key st step) G1 = false /\ existsb (live_key st step) G2 = false /\
                 l = repeat (Some (snd (fst (snd g)), List.length (filter (of_mode (snd (fst (snd g)))) G1))) n
     end }.

Lemma set_pad {A} (P : list (option A)) x : set_nth (List.length P) (Some x) (pad_to (S (List.length P)) None P) = P ++ [Some x].
Proof. induction P as [|y P IH]; [reflexivity|]. change (y :: set_nth (List.length P) (Some x) (pad_to (S (List.length P)) None P) = y :: (P ++ [Some x])). rewrite IH. reflexivity. Qed.
Lemma rupd_same r st step v : rupd r st step v st step = v.
Proof. unfold rupd. rewrite !Nat.eqb_refl. reflexivity. Qed.
Lemma add_polys_ok small st step mode vs : forall shapes r i P, List.length P = i -> (match r st step with Some l => l | None => [] end) = P -> (small = true -> forall j, i <= j < i + List.length shapes -> 2 < List.length (vs j)) ->
  exists shapes' r', add_polys small shapes r st step mode vs i = Ok (shapes', r') /\ List.length shapes' = List.length shapes /\
   (forall j s, nth_error shapes j = Some s -> exists s', nth_error shapes' j = Some s' /\ forall m, sh_polys s' m = if String.eqb m mode then sh_polys s m ++ [Some (vs (i + j))] else sh_polys s m) /\
   (shapes <> [] -> r' st step = Some (P ++ map (fun s => Some (mode, List.length (sh_polys s mode))) shapes)) /\ (shapes = [] -> r' = r) /\
   (forall st' step', (st' =? st) && (step' =? step) = false -> r' st' step' = r st' step').
Proof.
  induction shapes as [|s shapes IH]; intros r i P LP EP Hs; cbn [add_polys].
  - exists [], r. split; [reflexivity|]. split; [reflexivity|]. split; [intros [|j] s; discriminate|]. split; [congruence|]. split; [reflexivity|reflexivity].
  - assert (Hb : (List.length (vs i) <=? 2) && small = false). { destruct small; [|apply Bool.andb_false_r]. rewrite Bool.andb_true_r. apply Nat.leb_gt. apply Hs; [reflexivity|cbn; lia]. }
    unfold add_poly. rewrite Hb. cbv zeta. cbn [bind fst snd]. rewrite app_length, Nat.add_1_r, Nat.sub_succ, Nat.sub_0_r.
    set (r1 := set_plot_path r st step i mode (List.length (sh_polys s mode))).
    assert (R1 : r1 st step = Some (P ++ [Some (mode, List.length (sh_polys s mode))])). { unfold r1, set_plot_path. rewrite rupd_same, EP, <- LP. f_equal. apply set_pad. }
    destruct (IH r1 (S i) (P ++ [Some (mode, List.length (sh_polys s mode))])) as (shapes' & r' & E & L & K & R & R0 & O); [rewrite app_length; cbn; lia|rewrite R1; reflexivity|intros Hsm j Hj; apply Hs; [exact Hsm|cbn; lia]|].
    rewrite E. cbn [bind fst snd]. eexists. eexists. split; [reflexivity|]. split; [cbn; lia|]. split; [|split; [|split; [discriminate|]]].
    + intros [|j] s0 H; cbn [nth_error] in H |- *.
      * injection H as <-. eexists. split; [reflexivity|]. intro m. cbn [sh_polys]. unfold supd. rewrite Nat.add_0_r. destruct (String.eqb_spec m mode) as [->|]; reflexivity.
      * destruct (K j s0 H) as (s' & E' & K'). exists s'. split; [exact E'|]. intro m. rewrite K', Nat.add_succ_comm. reflexivity.
    + intros _. destruct shapes as [|s2 shapes]; [rewrite (R0 eq_refl), R1; reflexivity|]. rewrite (R ltac:(discriminate)), <- app_assoc. reflexivity.
    + intros st' step' Hk. rewrite (O st' step' Hk). unfold r1, set_plot_path, rupd. rewrite Hk. reflexivity.
Qed.
Lemma del_paths_ok key idx : forall shapes, (forall j s, nth_error shapes j = Some s -> idx < List.length (sh_polys s key)) -> exists shapes' vs, del_paths shapes (repeat (Some (key, idx)) (List.length shapes)) = Ok (shapes', vs) /\ List.length shapes' = List.length shapes /\
  forall j s, nth_error shapes j = Some s -> exists s', nth_error shapes' j = Some s' /\ forall m, sh_polys s' m = if String.eqb m key then set_nth idx None (sh_polys s key) else sh_polys s m.
Proof.
  induction shapes as [|s shapes IH]; intros H; cbn [List.length repeat del_paths].
  - exists [], []. split; [reflexivity|]. split; [reflexivity|]. intros [|j] s; discriminate.
  - destruct (nth_error (sh_polys s key) idx) as [v|] eqn:E; [|apply nth_error_None in E; specialize (H 0 s eq_refl); lia]. cbn [bind]. destruct IH as (shapes' & vs & -> & L & K); [intros j s0 Hj; apply (H (S j)); exact Hj|]. cbn [bind fst snd].
    eexists. eexists. split; [reflexivity|]. split; [cbn; lia|]. intros [|j] s0 H0; cbn [nth_error] in H0 |- *; [injection H0 as <-; eexists; split; [reflexivity|intro m; reflexivity]|apply K; exact H0].
Qed.
Lemma existsb_live G st step : existsb (live_key st step) G = existsb (key_is st step) (alive G).
Proof. induction G as [|[b e] G IH]; [reflexivity|]. unfold alive in *. cbn [existsb filter fst]. destruct b; cbn [map snd existsb]; rewrite <- IH; reflexivity. Qed.
Lemma alive_app G H : alive (G ++ H) = alive G ++ alive H.
Proof. unfold alive. rewrite filter_app, map_app. reflexivity. Qed.
Lemma alive_kill G st step : alive (map (kill st step) G) = filter (fun x => negb (key_is st step x)) (alive G).
Proof. induction G as [|[b e] G IH]; [reflexivity|]. unfold alive in *. cbn [map filter kill fst snd]. destruct b; cbn [andb filter map snd]; [destruct (key_is st step e); cbn [negb map snd]; rewrite IH; reflexivity|exact IH]. Qed.
Lemma kill_none G st step : existsb (live_key st step) G = false -> map (kill st step) G = G.
Proof.
  induction G as [|[b e] G IH]; [reflexivity|]. cbn [existsb map]. intro H. apply Bool.orb_false_iff in H as [H1 H2]. rewrite (IH H2). f_equal. unfold kill, live_key in *. cbn [fst snd] in *. destruct b; [cbn in *; rewrite H1|]; reflexivity.
Qed.
Lemma path_shown i m G : somes (map (path_of i) (filter (of_mode m) G)) = shown i m (alive G).
Proof.
  unfold shown, alive. induction G as [|[b e] G IH]; [reflexivity|]. cbn [filter fst]. unfold of_mode at 1. cbn [snd]. destruct (String.eqb (snd (fst e)) m) eqn:E; destruct b; cbn [map snd filter]; rewrite ?E; cbn [map snd].
  - unfold path_of at 1, somes. cbn [fst snd flat_map app]. f_equal. exact IH. - unfold path_of at 1, somes. cbn [fst snd flat_map app]. exact IH. - exact IH. - exact IH.
Qed.
Lemma set_nth_mid {A} (l1 l2 : list A) x y : set_nth (List.length l1) x (l1 ++ y :: l2) = l1 ++ x :: l2.
Proof. induction l1 as [|z l1 IH]; [reflexivity|]. cbn [List.length app set_nth]. rewrite IH. reflexivity. Qed.
Lemma key_is_same st step st' step' e : key_is st step e = true -> key_is st' step' e = (st' =? st) && (step' =? step).
Proof. unfold key_is. intro H. apply Bool.andb_true_iff in H as [H1 H2]. apply Nat.eqb_eq in H1. apply Nat.eqb_eq in H2. rewrite H1, H2, (Nat.eqb_sym st), (Nat.eqb_sym step). reflexivity. Qed.
Lemma filter_kill m st step G : filter (of_mode m) (map (kill st step) G) = map (kill st step) (filter (of_mode m) G).
Proof. induction G as [|g G IH]; [reflexivity|]. cbn [map filter]. change (of_mode m (kill st step g)) with (of_mode m g). destruct (of_mode m g); cbn [map]; rewrite IH; reflexivity. Qed.
Lemma live_kill st step st' step' G : existsb (live_key st' step') (map (kill st step) G) = if (st' =? st) && (step' =? step) then false else existsb (live_key st' step') G.
Proof.
  induction G as [|[b e] G IH]; [cbn; destruct ((st' =? st) && (step' =? step)); reflexivity|]. cbn [map existsb]. rewrite IH. unfold live_key at 1 3, kill. cbn [fst snd]. destruct ((st' =? st) && (step' =? step)) eqn:E.
  - apply Bool.andb_true_iff in E as [E1 E2]. apply Nat.eqb_eq in E1. apply Nat.eqb_eq in E2. subst. rewrite Bool.orb_false_r, <- Bool.andb_assoc, (Bool.andb_comm (negb _)), Bool.andb_negb_r. apply Bool.andb_false_r.
  - destruct (key_is st step e) eqn:K; cbn [negb]; [|rewrite Bool.andb_true_r; reflexivity]. rewrite (key_is_same st step st' step' e K), E, !Bool.andb_false_r. reflexivity.
Qed.

Lemma ops_ok small n : forall ops shapes r pd G p', 0 < n -> dinv n shapes r G -> sensible small n (alive G) ops -> do_ops small (shapes, r, pd) ops = Ok p' \/ p' = (shapes, r, pd) ->
  exists shapes' r' G', do_ops small (shapes, r, pd) ops = Ok (shapes', r', pd) /\ dinv n shapes' r' G' /\ alive G' = fold_left should ops (alive G).
Proof.
  induction ops as [|o ops IH]; intros shapes r pd G p' Hn D S Hx; [exists shapes, r, G; auto|]. clear Hx. cbn [sensible] in S. destruct S as [So S]. destruct D as [DL DP DR]. destruct o as [st step mode vs|st step mode]; cbn [do_ops fold_left].
  - destruct So as [Sk Sv]. rewrite <- existsb_live in Sk. unfold add_plotted. assert (Er : r st step = None). { specialize (DR st step). destruct (r st step) as [l|]; [|reflexivity]. destruct DR as (G1 & g & G2 & -> & Lg & _). rewrite existsb_app in Sk. cbn [existsb] in Sk. rewrite Lg in Sk. rewrite Bool.orb_true_r in Sk. discriminate. }
    destruct (add_polys_ok small st step mode vs shapes r 0 []) as (shapes' & r' & E & L & K & R & _ & O); [reflexivity|rewrite Er; reflexivity|intros Hsm j Hj; apply Sv; [exact Hsm|lia]|]. rewrite E. cbn [bind fst snd].
    assert (Hne : shapes <> []) by (intros ->; cbn in DL; lia). specialize (R Hne). cbn [app] in R.
    set (g := (true, ((st, step), mode, vs)) : gpiece).
    assert (Kg : forall st' step', live_key st' step' g = (st' =? st) && (step' =? step)) by (intros; unfold live_key, g, key_is; cbn [fst snd andb]; rewrite (Nat.eqb_sym st), (Nat.eqb_sym step); reflexivity).
    destruct (IH shapes' r' pd (G ++ [g]) (shapes', r', pd)) as (s2 & r2 & G2 & E2 & D2 & A2); [exact Hn| | |right; reflexivity|].
    + constructor; [lia| |].
      * intros i s' m Hs'. assert (Hi : i < List.length shapes) by (rewrite <- L; apply nth_error_Some; rewrite Hs'; discriminate). destruct (nth_error shapes i) as [s|] eqn:Es; [|apply nth_error_None in Es; lia]. destruct (K i s Es) as (s'' & E'' & K''). rewrite Hs' in E''. injection E'' as <-. rewrite K''. rewrite (DP i s m Es), filter_app, map_app. cbn [filter]. change (of_mode m g) with (String.eqb mode m). rewrite (String.eqb_sym mode m). destruct (String.eqb m mode); [reflexivity|cbn; rewrite app_nil_r; reflexivity].
      * intros st' step'. destruct ((st' =? st) && (step' =? step)) eqn:Ek.
        -- apply Bool.andb_true_iff in Ek as [E1 E3]. apply Nat.eqb_eq in E1. apply Nat.eqb_eq in E3. subst st' step'. rewrite R. exists G, g, []. split; [reflexivity|]. split; [rewrite Kg, !Nat.eqb_refl; reflexivity|]. split; [exact Sk|]. split; [reflexivity|]. cbn [g snd fst].
           rewrite <- DL. assert (DP' : forall s, In s shapes -> List.length (sh_polys s mode) = List.length (filter (of_mode mode) G)). { intros s Hs. apply In_nth_error in Hs as (i & Hi). rewrite (DP i s mode Hi). apply map_length. }
           clear - DP'. induction shapes as [|s shapes IHs]; [reflexivity|]. cbn [map List.length repeat]. rewrite (DP' s (or_introl eq_refl)). f_equal. apply IHs. intros s0 H0. apply DP'. right. exact H0.
        -- rewrite (O st' step' Ek). specialize (DR st' step'). destruct (r st' step') as [l|]; [|rewrite existsb_app; cbn [existsb]; rewrite DR, Kg, Ek; reflexivity]. destruct DR as (G1 & g1 & G2 & -> & Lg & N1 & N2 & ->). exists G1, g1, (G2 ++ [g]). split; [rewrite <- app_assoc; reflexivity|]. split; [exact Lg|]. split; [exact N1|]. split; [|reflexivity]. rewrite existsb_app. cbn [existsb]. rewrite N2, Kg, Ek. reflexivity.
    + rewrite alive_app. exact S.
    + exists s2, r2, G2. split; [exact E2|]. split; [exact D2|]. rewrite A2, alive_app. reflexivity.
  - unfold delete_plotted, del_plot_path. assert (DR0 := DR st step). cbn [should] in S |- *. rewrite <- alive_kill in S |- *. destruct (r st step) as [l|] eqn:Er.
    + destruct DR0 as (G1 & g & G2 & EG & Lg & N1 & N2 & ->). set (m0 := snd (fst (snd g))) in *. set (idx := List.length (filter (of_mode m0) G1)).
      assert (Fg : of_mode m0 g = true) by (unfold of_mode, m0; apply String.eqb_refl).
      assert (EF : filter (of_mode m0) G = filter (of_mode m0) G1 ++ g :: filter (of_mode m0) G2) by (rewrite EG, filter_app; cbn [filter]; rewrite Fg; reflexivity).
      destruct (del_paths_ok m0 idx shapes) as (shapes' & vs & E & L & K). { intros j s Hj. rewrite (DP j s m0 Hj), map_length, EF, app_length. cbn. unfold idx. lia. }
      rewrite DL in E, L. rewrite E. cbn [bind fst snd].
      assert (EK : map (kill st step) G = G1 ++ (false, snd g) :: G2). { rewrite EG, map_app. cbn [map]. rewrite (kill_none G1 st step N1), (kill_none G2 st step N2). f_equal. f_equal. unfold kill. unfold live_key in Lg. apply Bool.andb_true_iff in Lg as [L1 L2]. rewrite L1, L2. reflexivity. }
      destruct (IH shapes' (rupd r st step None) pd (map (kill st step) G) (shapes', rupd r st step None, pd)) as (s2 & r2 & G3 & E2 & D2 & A2); [exact Hn| |exact S|right; reflexivity|].
      * constructor; [lia| |].
        -- intros i s' m Hs'. assert (Hi : i < List.length shapes) by (rewrite DL, <- L; apply nth_error_Some; rewrite Hs'; discriminate). destruct (nth_error shapes i) as [s|] eqn:Es; [|apply nth_error_None in Es; lia]. destruct (K i s Es) as (s'' & E'' & K''). rewrite Hs' in E''. injection E'' as <-. rewrite K''.
           destruct (String.eqb_spec m m0) as [->|Hm].
           ++ rewrite (DP i s m0 Es), EF, EK, map_app, filter_app, map_app. cbn [map filter]. change (of_mode m0 (false, snd g)) with (of_mode m0 g). rewrite Fg. cbn [map]. unfold idx. rewrite <- (map_length (path_of i)). rewrite set_nth_mid. reflexivity.
           ++ rewrite (DP i s m Es), EK, EG, !filter_app. cbn [filter]. change (of_mode m (false, snd g)) with (of_mode m g). assert (Fm : of_mode m g = false) by (unfold of_mode; apply String.eqb_neq; intro Q; apply Hm; symmetry; exact Q). rewrite Fm. reflexivity.
        -- intros st' step'. unfold rupd. destruct ((st' =? st) && (step' =? step)) eqn:Ek; [rewrite live_kill, Ek; reflexivity|]. specialize (DR st' step'). destruct (r st' step') as [l|]; [|rewrite live_kill, Ek; exact DR].
           destruct DR as (H1 & h & H2 & EH & Lh & M1 & M2 & ->). exists (map (kill st step) H1), (kill st step h), (map (kill st step) H2). split; [rewrite EH, map_app; reflexivity|]. split; [|split; [rewrite live_kill, Ek; exact M1|split; [rewrite live_kill, Ek; exact M2|]]].
           ++ unfold live_key, kill in *. cbn [fst snd]. apply Bool.andb_true_iff in Lh as [L1 L2]. rewrite L1, L2. rewrite (key_is_same st' step' st step _ L2), (Nat.eqb_sym st), (Nat.eqb_sym step), Ek. reflexivity.
           ++ rewrite filter_kill, map_length. reflexivity.
      * exists s2, r2, G3. auto.
    + cbn [bind]. rewrite (kill_none G st step DR0) in S |- *. apply (IH shapes r pd G (shapes, r, pd)); [exact Hn|constructor; assumption|exact S|right; reflexivity].
Qed.

(** after any sequence of drawings and removals without an error, each subplot shows, for each mode, the polygons drawn and not removed since, in the order they were drawn; the operations do not fail *)
Theorem C57_visible small n pd ops : sensible small (S n) [] ops -> exists shapes r, do_ops small (repeat shape0 (S n), fun _ _ => None, pd) ops = Ok (shapes, r, pd) /\ List.length shapes = S n /\
  forall i s mode, nth_error shapes i = Some s -> somes (sh_polys s mode) = shown i mode (fold_left should ops []).
Proof.
  intro S0. destruct (ops_ok small (S n) ops (repeat shape0 (S n)) (fun _ _ => None) pd [] (repeat shape0 (S n), fun _ _ => None, pd)) as (shapes & r & G & E & D & A); [lia| |exact S0|right; reflexivity|].
  - constructor; [apply repeat_length| |reflexivity]. intros i s m Hs. apply nth_error_In in Hs. apply repeat_spec in Hs. subst s. reflexivity.
  - exists shapes, r. split; [exact E|]. destruct D as [DL DP _]. split; [exact DL|]. intros i s m Hs. rewrite (DP i s m Hs), path_shown, A. reflexivity.
Qed.
(** default settings draw sets with at most two vertices as markers: deletion leaves the marker, and the entry in the stored plot data *)
Theorem C57_markers_stay_refuted st step mode p (pd pd1 : pdata verts) : add_everywhere pd st mode step (fun _ => [p]) 0 1 = Ok pd1 ->
  exists shapes r, (do a <- add_plotted true true true ([shape0], fun _ _ => None, pd) st step mode (fun _ => [p]); delete_plotted true true a st step mode) = Ok (shapes, r, pd1) /\ map (fun s => sh_marks s mode) shapes = [[p]].
Proof.
  intro H. unfold add_plotted. cbn [add_polys add_poly List.length Nat.leb andb bind fst snd]. rewrite H. cbn [bind]. unfold delete_plotted, del_plot_path. cbn [bind]. eexists. eexists. split; [reflexivity|]. cbn [map sh_marks]. unfold supd. rewrite String.eqb_refl. reflexivity.
Qed.
(** two subplots, the set is flat in the first one only: the deletion raises an exception *)
Theorem C57_mixed_refuted st step mode p vs pd : 2 < List.length vs ->
  (do a <- add_plotted true false true ([shape0; shape0], fun _ _ => None, pd) st step mode (fun i => if i =? 0 then [p] else vs); delete_plotted true false a st step mode) = Err EValue.
Proof.
  intro H. assert (Hb : (List.length vs <=? 2) && true = false) by (rewrite Bool.andb_true_r; apply Nat.leb_gt; exact H). unfold add_plotted. cbn [add_polys Nat.eqb]. unfold add_poly at 1. cbn [List.length Nat.leb andb bind fst snd]. unfold add_poly. rewrite Hb. cbn [bind fst snd]. unfold delete_plotted, del_plot_path, set_plot_path. rewrite rupd_same. cbn [pad_to set_nth del_paths bind]. reflexivity.
Qed.
(** without a plot (PLOT_NONE) but with store_plot_result, the stored data keep the aggregated set and never get the sets it is split into *)
Theorem C57_stored_without_plot_refuted small st step mode vs st2 step2 vs2 (pd pd1 : pdata verts) : add_everywhere pd st mode step vs 0 (List.length pd) = Ok pd1 ->
  (do a <- plot_current false true small ([], fun _ _ => None, pd) st step mode vs; do b <- delete_plotted false true a st step mode; do c <- add_plotted false true small b st2 step2 mode vs2; Ok (snd c)) = Ok pd1.
Proof. intro H. unfold plot_current. rewrite H. reflexivity. Qed.
(** the polygons of a mode named cur_state disappear when the current state is drawn *)
Theorem C57_mode_name_refuted small st step vs cur r : 2 < List.length (vs 0) -> exists s r', add_poly small shape0 r st step "cur_state" (vs 0) 0 = Ok (s, r') /\ sh_polys s "cur_state"%string = [Some (vs 0)] /\ sh_polys (set_named s "cur_state" cur) "cur_state"%string = map Some cur.
Proof.
  intro H. unfold add_poly. destruct (Nat.leb_spec (List.length (vs 0)) 2); [lia|]. cbn [andb]. eexists. eexists. split; [reflexivity|]. split; reflexivity.
Qed.
(** drawing the current state does not touch the polygons of other modes *)
Theorem C57_current_state_apart s name vs mode : mode <> name -> sh_polys (set_named s name vs) mode = sh_polys s mode.
Proof. intro H. cbn. unfold supd. apply String.eqb_neq in H. rewrite H. reflexivity. Qed.
Definition dtri (a : Q) : verts := [(a, 0); (a + 1, 0); (a, 1)]%Q.
Example C57_witness : exists ops, sensible true 2 [] ops /\ ops = [DAdd 0 0 "m"%string (fun _ => dtri 0); DAdd 0 1 "m"%string (fun i => dtri (if (i =? 0)%nat then 1 else 7)); DDel 0 0 "m"%string; DAdd 1 0 "k"%string (fun _ => dtri 4); DAdd 0 0 "m"%string (fun _ => dtri 9)] /\
  shown 0 "m"%string (fold_left should ops []) = [dtri 1; dtri 9].
Proof. eexists. split; [|split; reflexivity]. repeat split; intros; cbn; lia. Qed.
