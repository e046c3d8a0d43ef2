(** C68: which projections are plotted. *)
From Verif Require Import Base BaseFacts Plot PlotVecs.
From Coq Require Import String Lia.
Open Scope list_scope.
Open Scope nat_scope.

(** ** what is asked for: the list of plots *)
Definition asked (x y : setting) : list (sdim * sdim) :=
  match x, y with
  | Many xs, Many ys => combine xs ys
  | One d, _ => [(d, elem y)]
  | Many _, One _ => []
  end.
(** settings that make sense: one list for each axis, equally long; no plot of time against time; at least three angles, unless every plot
    has time on its x axis *)
Definition well_matched (x y : setting) : Prop := match x, y with Many xs, Many ys => List.length xs = List.length ys | Many _, One _ => False | One _, _ => True end.
Definition not_both_time (p : sdim * sdim) : Prop := ~ (fst p = SBase PTime /\ snd p = SBase PTime).

Lemma is_time_iff d : is_time d = true <-> d = SBase PTime.
Proof. destruct d as [[| |]| |]; cbn; split; intro H; try discriminate H; try reflexivity. Qed.

Section P.
Variable angles : nat -> list (Q * Q).
Variable num_angles : nat.
Notation vecs_of := (fun p : sdim * sdim => if is_time (fst p) then [(0, 1); (0, -(1))]%Q else angles num_angles).

Lemma make_vecs_ok : forall l, (exists vs, make_vecs angles num_angles l = Ok vs) <-> Forall (fun p => not_both_time p /\ (fst p = SBase PTime \/ 3 <= num_angles)) l.
Proof.
  induction l as [|[x y] l IH]; cbn [make_vecs]; [split; [constructor|intros _; eexists; reflexivity]|]. split.
  - intros (vs & H). apply bind_ok in H as (u & Ha & H). apply bind_ok in H as (v & Hv & H). apply bind_ok in H as (vs' & Hs & H).
    constructor; [|apply IH; eauto]. cbn [fst snd]. split.
    + intros [Ex Ey]. cbn [fst snd] in Ex, Ey. subst. discriminate Ha.
    + destruct (is_time x) eqn:Ex; [left; apply is_time_iff; exact Ex|]. right. apply bind_ok in Hv as (u2 & Hv & _). unfold assert in Hv. destruct (3 <=? num_angles) eqn:E; [apply Nat.leb_le; exact E|discriminate].
  - intro H. inversion H as [|p l' (H1 & H2) H3]; subst. cbn [fst snd] in *. destruct (proj2 IH H3) as (vs & Hv).
    assert (Ea : negb (is_time x && is_time y) = true). { destruct (is_time x) eqn:Ex; [|reflexivity]. destruct (is_time y) eqn:Ey; [|reflexivity]. exfalso. apply H1. split; apply is_time_iff; assumption. }
    rewrite Ea. cbn [assert bind]. destruct (is_time x) eqn:Ex; cbn [bind].
    + rewrite Hv. cbn [bind]. eauto.
    + destruct H2 as [H2|H2]; [apply is_time_iff in H2; congruence|]. apply Nat.leb_le in H2. rewrite H2. cbn [assert bind]. rewrite Hv. cbn [bind]. eauto.
Qed.
Lemma make_vecs_val : forall l vs, make_vecs angles num_angles l = Ok vs -> vs = map vecs_of l.
Proof.
  induction l as [|[x y] l IH]; intros vs H; cbn [make_vecs] in H; [injection H as <-; reflexivity|].
  apply bind_ok in H as (u & Ha & H). apply bind_ok in H as (v & Hv & H). apply bind_ok in H as (vs' & Hs & H). injection H as <-. cbn [map fst]. f_equal; [|apply IH; exact Hs].
  destruct (is_time x); [injection Hv as <-; reflexivity|]. apply bind_ok in Hv as (u2 & _ & Hv). injection Hv as <-. reflexivity.
Qed.

(** Starting the analysis with these plot settings raises (AssertionError) exactly when they do not fit together.  Otherwise there is one
    subplot for each pair asked for, and the settings object then contains these pairs as two lists. *)
Theorem C68_plots x y :
  ((exists r, init_plot_vecs angles num_angles x y = Ok r) <->
     well_matched x y /\ Forall (fun p => not_both_time p /\ (fst p = SBase PTime \/ 3 <= num_angles)) (asked x y)) /\
  forall x' y' vs, init_plot_vecs angles num_angles x y = Ok (x', y', vs) ->
    List.length vs = List.length (asked x y) /\ exists xs ys, x' = Many xs /\ y' = Many ys /\ List.length xs = List.length ys /\ combine xs ys = asked x y.
Proof.
  unfold init_plot_vecs. split.
  - destruct x as [d|xs]; [|destruct y as [e|ys]]; cbn [bind fst snd asked well_matched combine].
    + rewrite <- make_vecs_ok. split; [intros (r & H); split; [exact Logic.I|]; apply bind_ok in H as (vs & H & _); eauto|]. intros (_ & vs & H). rewrite H. cbn [bind]. eauto.
    + split; [intros (r & H); discriminate H|intros [[] _]].
    + rewrite <- make_vecs_ok. destruct (Nat.eqb_spec (List.length xs) (List.length ys)) as [E|E]; cbn [assert bind fst snd].
      * split; [intros (r & H); split; [exact E|]; apply bind_ok in H as (vs & H & _); eauto|]. intros (_ & vs & H). rewrite H. cbn [bind]. eauto.
      * split; [intros (r & H); discriminate H|]. intros (K & _). congruence.
  - intros x' y' vs H. apply bind_ok in H as (xy & Hxy & H). apply bind_ok in H as (vs0 & Hv & H). injection H as <- <- <-.
    assert (E : List.length (fst xy) = List.length (snd xy) /\ combine (fst xy) (snd xy) = asked x y).
    { destruct x as [d|xs]; [injection Hxy as <-; split; reflexivity|]. destruct y as [e|ys]; [discriminate Hxy|]. apply bind_ok in Hxy as (u & Ha & Hxy). injection Hxy as <-. cbn [fst snd asked].
      split; [|reflexivity]. unfold assert in Ha. destruct (Nat.eqb_spec (List.length xs) (List.length ys)); [assumption|discriminate]. }
    destruct E as [E1 E2]. split; [|exists (fst xy), (snd xy); auto]. rewrite (make_vecs_val _ _ Hv), map_length, E2. reflexivity.
Qed.

(** The settings object is left in a form that a second analysis accepts and understands in the same way. *)
Theorem C68_again x y x' y' vs : init_plot_vecs angles num_angles x y = Ok (x', y', vs) -> init_plot_vecs angles num_angles x' y' = Ok (x', y', vs) /\ asked x' y' = asked x y.
Proof.
  intro H. destruct (proj2 (C68_plots x y) _ _ _ H) as (_ & xs & ys & -> & -> & El & Ec). split; [|exact Ec]. unfold init_plot_vecs in *. rewrite El, Nat.eqb_refl. cbn [assert bind fst snd]. rewrite Ec.
  apply bind_ok in H as (xy & Hxy & H). apply bind_ok in H as (vs0 & Hv & H). injection H as H1 H2 ->.
  assert (E : combine (fst xy) (snd xy) = asked x y) by (rewrite H1, H2; exact Ec). rewrite E in Hv. rewrite Hv. reflexivity.
Qed.

(** The sets of a mode are drawn with the projections asked for; where a dict was given, with the entry for that mode's name.  An
    AssertionError is raised exactly when some dict has no entry for the mode. *)
Definition entry (mode : string) (d e : sdim) : Prop :=
  match d with SDict l => exists v l1 l2, l = l1 ++ (mode, v) :: l2 /\ (forall w, ~ In (mode, w) l1) /\ e = SBase v | _ => e = d end.
Definition has_entry (mode : string) (d : sdim) : Prop := match d with SDict l => exists v, In (mode, v) l | _ => True end.
Lemma resolve_ok mode d : has_entry mode d -> exists e, resolve mode d = Ok e.
Proof.
  destruct d as [d|l|l]; cbn [resolve has_entry]; eauto. intros (v & Hv). destruct (find (fun e => String.eqb (fst e) mode) l) as [[k w]|] eqn:E; [eauto|].
  exfalso. pose proof (find_none _ _ E _ Hv) as K. cbn [fst] in K. rewrite String.eqb_refl in K. discriminate.
Qed.
Lemma resolve_entry mode d e : resolve mode d = Ok e -> entry mode d e /\ has_entry mode d.
Proof.
  destruct d as [d|l|l]; cbn [resolve has_entry entry]; intro H; try (injection H as <-; auto).
  revert H. induction l as [|[k v] l IH]; cbn [find fst]; intro H; [discriminate H|]. destruct (String.eqb k mode) eqn:Ek.
  - apply String.eqb_eq in Ek. subst k. injection H as <-. split; [exists v, [], l; repeat split; intros w []|exists v; left; reflexivity].
  - destruct (IH H) as ((v0 & l1 & l2 & -> & H1 & H2) & (w & Hw)). split; [|exists w; right; exact Hw].
    exists v0, ((k, v) :: l1), l2. split; [reflexivity|]. split; [|exact H2]. intros w0 [K|K]; [injection K as -> _; rewrite String.eqb_refl in Ek; discriminate|exact (H1 _ K)].
Qed.
Theorem C68_mode_projection mode xs ys : List.length xs = List.length ys ->
  ((exists r, resolve_all mode xs ys = Ok r) <-> Forall (has_entry mode) xs /\ Forall (has_entry mode) ys) /\
  forall r, resolve_all mode xs ys = Ok r -> Forall2 (entry mode) xs (map fst r) /\ Forall2 (entry mode) ys (map snd r).
Proof.
  revert ys. induction xs as [|x xs IH]; intros [|y ys] El; try discriminate El; cbn [resolve_all].
  - split; [split; [intros _; split; constructor|intros _; eexists; reflexivity]|]. intros r H. injection H as <-. split; constructor.
  - injection El as El. destruct (IH ys El) as [I1 I2]. split; [split|].
    + intros (r & H). apply bind_ok in H as (x1 & Hx & H). apply bind_ok in H as (y1 & Hy & H). apply bind_ok in H as (r1 & Hr & H).
      apply resolve_entry in Hx as [_ Hx]. apply resolve_entry in Hy as [_ Hy]. destruct (proj1 I1 (ex_intro _ r1 Hr)) as [K1 K2]. split; constructor; assumption.
    + intros [H1 H2]. inversion H1; subst. inversion H2; subst. destruct (resolve_ok mode x) as (x1 & ->); [assumption|]. destruct (resolve_ok mode y) as (y1 & ->); [assumption|]. cbn [bind].
      destruct (proj2 I1) as (r1 & ->); [split; assumption|]. cbn [bind]. eauto.
    + intros r H. apply bind_ok in H as (x1 & Hx & H). apply bind_ok in H as (y1 & Hy & H). apply bind_ok in H as (r1 & Hr & H). injection H as <-. destruct (I2 r1 Hr) as [K1 K2].
      cbn [map fst snd]. split; constructor; auto; [apply (resolve_entry _ _ _ Hx)|apply (resolve_entry _ _ _ Hy)].
Qed.

(** a plot with time on the x axis gets the two vertical directions *)
Theorem C68_time_directions x y x' y' vs i d : init_plot_vecs angles num_angles x y = Ok (x', y', vs) -> nth_error (asked x y) i = Some (SBase PTime, d) -> nth_error vs i = Some [(0, 1); (0, -(1))]%Q.
Proof.
  intros H Hi. unfold init_plot_vecs in H. pose proof H as H0. apply bind_ok in H as (xy & Hxy & H). apply bind_ok in H as (vs0 & Hv & H). injection H as H1 H2 ->.
  destruct (proj2 (C68_plots x y) _ _ _ H0) as (_ & xs & ys & E1 & E2 & _ & E3). rewrite <- H1 in E1. rewrite <- H2 in E2. injection E1 as E1. injection E2 as E2. rewrite E1, E2, E3 in Hv.
  apply make_vecs_val in Hv. subst vs. rewrite (map_nth_error vecs_of i _ Hi). reflexivity.
Qed.
End P.

(** The same is not true of the y axis: the code tests whether the whole list of y settings is None, which it never is.  A plot with time on
    the y axis gets all directions, and with fewer than three angles it is refused, while time on the x axis is accepted. *)
Theorem C68_time_on_y_refuted : forall angles n, n < 3 ->
  init_plot_vecs angles n (One (SBase (PDim 0))) (One (SBase PTime)) = Err EAssert /\
  (exists r, init_plot_vecs angles n (One (SBase PTime)) (One (SBase (PDim 0))) = Ok r) /\
  forall m, 3 <= m -> exists x' y', init_plot_vecs angles m (One (SBase (PDim 0))) (One (SBase PTime)) = Ok (x', y', [angles m]).
Proof.
  intros angles n Hn. split; [|split].
  - unfold init_plot_vecs. cbn [elem bind fst snd combine make_vecs is_time negb andb assert]. destruct (Nat.leb_spec 3 n); [lia|]. reflexivity.
  - eexists. unfold init_plot_vecs. cbn. reflexivity.
  - intros m Hm. do 2 eexists. unfold init_plot_vecs. cbn [elem bind fst snd combine make_vecs is_time negb andb assert]. apply Nat.leb_le in Hm. rewrite Hm. reflexivity.
Qed.

(** two plots, one of them over time, with a direction for each mode *)
Definition ex_x : setting := Many [SBase PTime; SBase (PDim 0)].
Definition ex_y : setting := Many [SDict [("on"%string, PDim 1); ("off"%string, PDir [1; 1]%Q)]; SBase (PDim 1)].
Example C68_witness : exists xs ys vs, init_plot_vecs (fun n => repeat (1, 0)%Q n) 4 ex_x ex_y = Ok (Many xs, Many ys, vs) /\ List.length vs = 2 /\
  resolve_all "off" xs ys = Ok [(SBase PTime, SBase (PDir [1; 1]%Q)); (SBase (PDim 0), SBase (PDim 1))] /\ resolve_all "idle" xs ys = Err EAssert.
Proof. do 3 eexists. split; [vm_compute; reflexivity|]. repeat split. Qed.
