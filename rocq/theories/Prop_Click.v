(** C64: the state set at a point of a plot. *)
From Verif Require Import Base BaseFacts Util Click.
From Coq Require Import String Lia.
Open Scope list_scope.
Open Scope nat_scope.

(** the records of a subplot: those of every mode, the modes in the order of their first record *)
Definition records (f : string -> list (pobj (list pt2))) (modes : list string) : list (pobj (list pt2)) := flat_map f modes.
(** a record with an area (three vertices, the first is repeated at the end) around the point *)
Definition covers (inside : list pt2 -> pt2 -> Prop) (o : pobj (list pt2)) (p : pt2) : Prop := 4 <= List.length (fst (fst o)) /\ inside (skipn 1 (fst (fst o))) p.

Section C64.
Variable encl : list pt2 -> pt2 -> res bool.
Variable inside : list pt2 -> pt2 -> Prop.
(** what sympy answers, when it answers *)
Hypothesis Hencl : forall v p b, encl v p = Ok b -> (b = true <-> inside v p).

Lemma find_obj_spec p l : forall r, find_obj encl p l = Ok r ->
  match r with
  | Some o => exists l1 l2, l = l1 ++ o :: l2 /\ covers inside o p /\ forall x, In x l1 -> ~ covers inside x p
  | None => forall x, In x l -> ~ covers inside x p
  end.
Proof.
  induction l as [|o l IH]; intros r H; cbn [find_obj] in H; [injection H as <-; intros x []|].
  destruct (Nat.ltb_spec (List.length (fst (fst o))) 4) as [Hl|Hl].
  - assert (N : ~ covers inside o p) by (intros [K _]; lia). specialize (IH r H). destruct r as [y|].
    + destruct IH as (l1 & l2 & -> & C & F). exists (o :: l1), l2. split; [reflexivity|]. split; [exact C|]. intros x [<-|K]; auto.
    + intros x [<-|K]; auto.
  - apply bind_ok in H as (b & Hb & H). apply Hencl in Hb. destruct b.
    + injection H as <-. exists [], l. split; [reflexivity|]. split; [split; [exact Hl|apply Hb; reflexivity]|]. intros x [].
    + assert (N : ~ covers inside o p) by (intros [_ K]; apply Hb in K; discriminate). specialize (IH r H). destruct r as [y|].
      * destruct IH as (l1 & l2 & -> & C & F). exists (o :: l1), l2. split; [reflexivity|]. split; [exact C|]. intros x [<-|K]; auto.
      * intros x [<-|K]; auto.
Qed.
(** The first record around the point is returned, None if there is none. *)
Theorem C64_get_plot_data (pd : pdata (list pt2)) modes p i f r : nth_error pd i = Some f -> get_plot_data encl pd modes p i = Ok r ->
  match r with
  | Some o => exists l1 l2, records f (modes i) = l1 ++ o :: l2 /\ covers inside o p /\ forall x, In x l1 -> ~ covers inside x p
  | None => forall x, In x (records f (modes i)) -> ~ covers inside x p
  end.
Proof.
  intros Hf H. unfold get_plot_data in H. rewrite Hf in H. revert r H. generalize (modes i) as ms. induction ms as [|m ms IH]; intros r H; cbn [find_mode] in H.
  - injection H as <-. intros x [].
  - apply bind_ok in H as (o & Ho & H). apply find_obj_spec in Ho. unfold records in *. cbn [flat_map]. destruct o as [o|].
    + injection H as <-. destruct Ho as (l1 & l2 & -> & C & F). exists l1, (l2 ++ flat_map f ms). rewrite <- app_assoc. auto.
    + specialize (IH r H). destruct r as [y|].
      * destruct IH as (l1 & l2 & E & C & F). exists (f m ++ l1), l2. rewrite E, <- app_assoc. split; [reflexivity|]. split; [exact C|]. intros x K. apply in_app_iff in K as [K|K]; auto.
      * intros x K. apply in_app_iff in K as [K|K]; auto.
Qed.
(** It raises only when sympy does (or for a subplot that does not exist). *)
Theorem C64_total (pd : pdata (list pt2)) modes p i : i < List.length pd -> (forall v, exists b, encl v p = Ok b) -> exists r, get_plot_data encl pd modes p i = Ok r.
Proof.
  intros Hi He. unfold get_plot_data. destruct (nth_error pd i) as [f|] eqn:E; [|apply nth_error_None in E; lia]. induction (modes i) as [|m ms IH]; cbn [find_mode]; [eauto|].
  assert (X : exists r, find_obj encl p (f m) = Ok r).
  { induction (f m) as [|o l IHl]; cbn [find_obj]; [eauto|]. destruct (_ <? _); [exact IHl|]. destruct (He (skipn 1 (fst (fst o)))) as (b & ->). cbn [bind]. destruct b; eauto. }
  destruct X as (r & ->). cbn [bind]. destruct r as [o|]; eauto.
Qed.
(** A click inside a recorded polygon prints the state and step of a record around the point. *)
Theorem C64_click_partial (pd : pdata (list pt2)) modes p i f : nth_error pd i = Some f -> (forall v, exists b, encl v p = Ok b) ->
  (exists o, In o (records f (modes i)) /\ covers inside o p) ->
  exists o, In o (records f (modes i)) /\ covers inside o p /\ on_click encl pd modes p (Some i) = Ok (Some (snd (fst o), snd o)).
Proof.
  intros Hf He (o & Ho & C). destruct (C64_total pd modes p i) as (r & Hr); auto; [apply nth_error_Some; congruence|]. pose proof (C64_get_plot_data pd modes p i f r Hf Hr) as K.
  unfold on_click. rewrite Hr. cbn [bind]. destruct r as [x|]; [|destruct (K o Ho C)]. destruct K as (l1 & l2 & E & C' & _). exists x. split; [rewrite E; apply in_app_iff; right; left; reflexivity|]. auto.
Qed.
(** a click outside of every recorded polygon raises TypeError instead of saying so (None[1:]) *)
Theorem C64_click_outside_refuted (pd : pdata (list pt2)) modes p i f : nth_error pd i = Some f -> (forall v, exists b, encl v p = Ok b) ->
  (forall o, In o (records f (modes i)) -> ~ covers inside o p) -> on_click encl pd modes p (Some i) = Err EType.
Proof.
  intros Hf He N. destruct (C64_total pd modes p i) as (r & Hr); auto; [apply nth_error_Some; congruence|]. pose proof (C64_get_plot_data pd modes p i f r Hf Hr) as K.
  unfold on_click. rewrite Hr. cbn [bind]. destruct r as [x|]; [|reflexivity]. destruct K as (l1 & l2 & E & C' & _). exfalso. apply (N x); [rewrite E; apply in_app_iff; right; left; reflexivity|exact C'].
Qed.
End C64.

(** Non-vacuity: two recorded polygons of two modes (one of them a flat one with three points), a click in the unit square and one outside *)
Definition sq_in (v : list pt2) (p : pt2) : bool := forallb (fun q => Qle_bool (fst p) 1 && Qle_bool (snd p) 1) v && Qle_bool 0 (fst p) && Qle_bool 0 (snd p).
Definition exK_verts : list pt2 := [(0, 0); (1, 0); (1, 1); (0, 1); (0, 0)]%Q.
Definition exK_pd : pdata (list pt2) := [fun m => if String.eqb m "a" then [([(0, 0); (1, 1); (0, 0)]%Q, 3, 0)] else if String.eqb m "b" then [(exK_verts, 5, 2)] else []].
Example C64_witness : on_click (fun v p => Ok (sq_in v p)) exK_pd (fun _ => ["a"; "b"]%string) (1 # 2, 1 # 2)%Q (Some 0) = Ok (Some (5, 2)) /\
  on_click (fun v p => Ok (sq_in v p)) exK_pd (fun _ => ["a"; "b"]%string) (2, 1 # 2)%Q (Some 0) = Err EType.
Proof. split; vm_compute; reflexivity. Qed.
