(** C34 Freezable, C36 minimize retries, C38 and C51 PlotData, C39 num_steps, C48 SwigArray. *)
From Coq Require Import Qround SpecFloat.
From Verif Require Import Base LpModel Minimize Timers TimerSpec Util.
Open Scope nat_scope.

(** * C34 *)
Section C34.
Variables (V : Type) (truthy : V -> bool) (vtrue : V) (class_attrs : list string).
Notation has := (has V class_attrs).
Notation setattr := (setattr V truthy class_attrs).
Notation frozen := (frozen V truthy).
Notation try_set := (try_set V truthy class_attrs).

Lemma store_lookup (o : obj V) k v k' : lookup V (store V o k v) k' = if String.eqb k k' then Some v else lookup V o k'.
Proof.
  induction o as [|[a w] o IH]; cbn [store lookup].
  - reflexivity.
  - destruct (String.eqb_spec a k) as [->|N]; cbn [lookup].
    + destruct (String.eqb k k'); reflexivity.
    + rewrite IH. destruct (String.eqb_spec a k') as [->|]; auto. destruct (String.eqb_spec k k'); congruence.
Qed.

Lemma has_store (o : obj V) k v k' : has (store V o k v) k' = String.eqb k k' || has o k'.
Proof.
  unfold Util.has. rewrite orb_assoc. f_equal. induction o as [|[a w] o IH]; cbn [store existsb fst].
  - now rewrite orb_false_r.
  - destruct (String.eqb_spec a k) as [->|N]; cbn [existsb fst].
    + destruct (String.eqb k k'); auto.
    + rewrite IH. destruct (String.eqb a k'), (String.eqb k k'); auto.
Qed.

(** In a frozen object an assignment succeeds exactly when hasattr holds already, and then only that attribute changes. *)
Theorem C34_setattr (o : obj V) k v : frozen o = true ->
  (has o k = true -> exists o', setattr o k v = Ok o' /\ lookup V o' k = Some v /\
                        forall k', k' <> k -> lookup V o' k' = lookup V o k') /\
  (has o k = false -> setattr o k v = Err EType).
Proof.
  intro F. unfold Util.setattr. rewrite F. split; intro H; rewrite H; cbn [negb andb]; auto.
  eexists; split; [reflexivity|split].
  - now rewrite store_lookup, String.eqb_refl.
  - intros k' N. rewrite store_lookup. destruct (String.eqb_spec k k'); congruence.
Qed.

(** freeze_attrs freezes, and from then on no sequence of assignments (failing ones caught) that leaves the _frozen flag true
    changes which attributes exist. *)
Theorem C34_frozen (o : obj V) (l : list (string * V)) :
  truthy vtrue = true -> In "_frozen"%string class_attrs ->
  (forall v, In ("_frozen"%string, v) l -> truthy v = true) ->
  exists o0, freeze_attrs V truthy vtrue class_attrs o = Ok o0 /\ frozen o0 = true /\
    (forall k, has o0 k = has o k) /\
    frozen (fold_left try_set l o0) = true /\
    forall k, has (fold_left try_set l o0) k = has o k.
Proof.
  intros Ht Hc Hl.
  assert (Hf : has o "_frozen" = true).
  { unfold Util.has. apply orb_true_iff; right. apply existsb_exists. exists "_frozen"%string; split; auto. }
  unfold freeze_attrs, Util.setattr. rewrite Hf, andb_false_r.
  eexists; split; [reflexivity|]. set (o0 := store V o "_frozen" vtrue).
  assert (F0 : frozen o0 = true) by (unfold Util.frozen, o0; now rewrite store_lookup).
  assert (H0 : forall k, has o0 k = has o k).
  { intro k. unfold o0. rewrite has_store. destruct (String.eqb_spec "_frozen" k) as [<-|]; auto. }
  split; auto; split; auto. clearbody o0. revert o0 F0 H0.
  induction l as [|[k v] l IH]; intros o0 F0 H0; cbn [fold_left]; auto.
  assert (Hl' : forall v, In ("_frozen"%string, v) l -> truthy v = true) by (intros; apply Hl; now right).
  assert (S : try_set o0 (k, v) = o0 \/ has o0 k = true /\ try_set o0 (k, v) = store V o0 k v).
  { unfold Util.try_set. cbn [fst snd]. unfold Util.setattr. rewrite F0.
    destruct (has o0 k); cbn; auto. }
  destruct S as [->|[Hk ->]]; [now apply IH|]. apply IH; auto.
  - unfold Util.frozen. rewrite store_lookup. destruct (String.eqb_spec k "_frozen") as [->|]; auto.
    apply Hl. now left.
  - intro k'. rewrite has_store, H0. destruct (String.eqb_spec k k') as [<-|]; auto. now rewrite <- H0, Hk.
Qed.

End C34.

(** Without the condition on _frozen the claim fails: any code can assign _frozen = False and then add attributes. *)
Theorem C34_frozen_refuted : exists (o : obj bool) (l : list (string * bool)) o0,
  freeze_attrs bool (fun b : bool => b) true ["_frozen"%string] o = Ok o0 /\
  Util.has bool ["_frozen"%string] o "new" = false /\
  Util.has bool ["_frozen"%string] (fold_left (try_set bool (fun b : bool => b) ["_frozen"%string]) l o0) "new" = true.
Proof.
  exists [("a"%string, true)], [("_frozen"%string, false); ("new"%string, true)]. eexists. repeat split.
Qed.

Example C34_witness :
  let o := [("step_size"%string, false)] in
  exists o0, freeze_attrs bool (fun b : bool => b) true ["_frozen"; "freeze_attrs"]%string o = Ok o0 /\
    setattr bool (fun b : bool => b) ["_frozen"; "freeze_attrs"]%string o0 "step_sze" true = Err EType /\
    exists o1, setattr bool (fun b : bool => b) ["_frozen"; "freeze_attrs"]%string o0 "step_size" true = Ok o1 /\
               lookup bool o1 "step_size" = Some true.
Proof. eexists; split; [reflexivity|]. split; [reflexivity|]. eexists; split; reflexivity. Qed.

(** * C36 *)
Definition as_calls (l : list (bool * string)) : list tcall :=
  map (fun e : bool * string => if fst e then CTic (snd e) 0%Q else CToc (snd e) 0%Q) l.

Lemma calls_app a b : calls (a ++ b) = calls a + calls b.
Proof. unfold calls. now rewrite filter_app, app_length. Qed.
Lemma events_app a b : timer_events (a ++ b) = timer_events a ++ timer_events b.
Proof. unfold timer_events. now rewrite flat_map_app. Qed.

Lemma nested_app a b : nested a -> nested b -> nested (a ++ b).
Proof.
  induction 1 as [|n x y body rest Hb IHb Hr IHr]; intro H; auto.
  cbn [app]. rewrite <- app_assoc. cbn [app]. constructor; auto.
Qed.
Lemma nested_wrap n x y body : nested body -> nested (CTic n x :: body ++ [CToc n y]).
Proof. intro; apply nested_one; auto; constructor. Qed.

Section Attempt.
Variables (ans : nat -> answer) (nc : nat) (dir : option bool) (columns : option (list nat)).

(** The body of an attempt between tic and toc of 'minimize'. *)
Lemma attempt_spec tr : dir <> Some false ->
  exists suf, calls suf <= 3 /\ 1 <= calls suf /\ nested (as_calls (timer_events suf)) /\
    let r := process_result nc (ans (calls tr + calls suf - 1)) columns in
    attempt ans nc dir tr columns =
      (tr ++ MTic "minimize" :: suf ++ match r with Ok _ => [MToc "minimize"%string] | Err _ => [] end, r).
Proof.
  intro Hd.
  set (d := match dir with Some _ => [MTic "set_minimize_direction"; MSetDir; MToc "set_minimize_direction"] | None => [] end).
  set (s := [MTic "glp_simplex"; MSimplex; MToc "glp_simplex"]%string).
  assert (Cd : calls d = 0) by (unfold d; destruct dir; reflexivity).
  assert (Nd : nested (as_calls (timer_events d))).
  { unfold d. destruct dir; [apply (nested_one _ _ _ [] []); constructor|constructor]. }
  assert (Ns : nested (as_calls (timer_events s))) by (apply (nested_one _ _ _ [] []); constructor).
  set (a1 := ans (calls tr)). set (a2 := ans (S (calls tr))). set (a3 := ans (S (S (calls tr)))).
  set (suf := d ++ s ++
     if an_code a1 =? 0 then []
     else if an_code a1 =? GLP_ESING
          then [MStdBasis; MSimplex] ++ (if an_code a2 =? 0 then [] else [MCpxBasis; MSimplex])
          else [MCpxBasis; MSimplex]).
  set (af := if an_code a1 =? 0 then a1
             else if an_code a1 =? GLP_ESING then (if an_code a2 =? 0 then a2 else a3) else a2).
  assert (Nsuf : nested (as_calls (timer_events suf))).
  { unfold suf. rewrite !events_app. unfold as_calls. rewrite !map_app. apply nested_app; auto. apply nested_app; auto.
    destruct (an_code a1 =? 0); [constructor|]. destruct (an_code a1 =? GLP_ESING); [|constructor].
    destruct (an_code a2 =? 0); constructor. }
  assert (Eaf : 1 <= calls suf <= 3 /\ ans (calls tr + calls suf - 1) = af).
  { unfold suf, af. rewrite !calls_app, Cd. cbn [plus].
    change (calls s) with 1.
    destruct (an_code a1 =? 0).
    - cbn [calls filter List.length]. split; [lia|]. unfold a1. f_equal. lia.
    - destruct (an_code a1 =? GLP_ESING).
      + destruct (an_code a2 =? 0).
        * change (calls ([MStdBasis; MSimplex] ++ [])) with 1. split; [lia|]. unfold a2. f_equal. lia.
        * change (calls ([MStdBasis; MSimplex] ++ [MCpxBasis; MSimplex])) with 2. split; [lia|]. unfold a3. f_equal. lia.
      + change (calls [MCpxBasis; MSimplex]) with 1. split; [lia|]. unfold a2. f_equal. lia. }
  destruct Eaf as [Lc Eaf].
  exists suf. split; [lia|]. split; [lia|]. split; [auto|]. rewrite Eaf. cbv zeta.
  unfold attempt.
  assert (E1 : match dir with
               | Some _ => ((tr ++ [MTic "minimize"]) ++ [MTic "set_minimize_direction"; MSetDir; MToc "set_minimize_direction"])
               | None => tr ++ [MTic "minimize"]
               end = tr ++ MTic "minimize" :: d).
  { unfold d. destruct dir; rewrite <- ?app_assoc; reflexivity. }
  assert (K : forall T (x y : T), match dir with Some false => x | _ => y end = y).
  { intros. destruct dir as [[|]|]; congruence. }
  rewrite K. rewrite E1.
  assert (C1 : calls (tr ++ MTic "minimize" :: d) = calls tr).
  { rewrite calls_app. change (calls (MTic "minimize" :: d)) with (calls d). lia. }
  rewrite C1. fold a1.
  assert (C2 : calls ((tr ++ MTic "minimize" :: d) ++ s) = S (calls tr)).
  { rewrite calls_app, C1. change (calls s) with 1. lia. }
  unfold af, suf.
  destruct (an_code a1 =? 0) eqn:Z1.
  { rewrite app_nil_r. destruct (process_result nc a1 columns); rewrite <- ?app_assoc; cbn [app]; rewrite <- ?app_assoc; rewrite ?app_nil_r; reflexivity. }
  destruct (an_code a1 =? GLP_ESING).
  - assert (C3 : calls (((tr ++ MTic "minimize" :: d) ++ s) ++ [MStdBasis]) = S (calls tr)).
    { rewrite calls_app, C2. change (calls [MStdBasis]) with 0. lia. }
    change ([MTic "glp_simplex"; MSimplex; MToc "glp_simplex"]%string) with s. rewrite C3. fold a2.
    destruct (an_code a2 =? 0).
    + destruct (process_result nc a2 columns); rewrite <- ?app_assoc; cbn [app]; rewrite <- ?app_assoc; rewrite ?app_nil_r; reflexivity.
    + assert (C4 : calls (((((tr ++ MTic "minimize" :: d) ++ s) ++ [MStdBasis]) ++ [MSimplex]) ++ [MCpxBasis]) = S (S (calls tr))).
      { rewrite (calls_app _ [MCpxBasis]), (calls_app _ [MSimplex]), C3. change (calls [MStdBasis]) with 0.
        change (calls [MSimplex]) with 1. change (calls [MCpxBasis]) with 0. lia. }
      rewrite C4. fold a3.
      destruct (process_result nc a3 columns); rewrite <- ?app_assoc; cbn [app]; rewrite <- ?app_assoc; rewrite ?app_nil_r; reflexivity.
  - rewrite Z1.
    assert (C3 : calls (((tr ++ MTic "minimize" :: d) ++ s) ++ [MCpxBasis]) = S (calls tr)).
    { rewrite calls_app, C2. change (calls [MCpxBasis]) with 0. lia. }
    change ([MTic "glp_simplex"; MSimplex; MToc "glp_simplex"]%string) with s. rewrite C3. fold a2.
    destruct (process_result nc a2 columns); rewrite <- ?app_assoc; cbn [app]; rewrite <- ?app_assoc; rewrite ?app_nil_r; reflexivity.
Qed.

Lemma attempt_false tr : dir = Some false ->
  attempt ans nc dir tr columns = (tr ++ [MTic "minimize"; MTic "set_minimize_direction"]%string, Err EAssert).
Proof. intros ->. unfold attempt. now rewrite <- app_assoc. Qed.
End Attempt.

Definition answer_infeasible (a : answer) : Prop :=
  an_code a = GLP_ENOPFS \/ (an_code a = 0 /\ an_status a = GLP_NOFEAS).
Definition answer_optimal (a : answer) : Prop := an_code a = 0 /\ an_status a = GLP_OPT.

Lemma process_some nc a columns v : process_result nc a columns = Ok (Some v) ->
  answer_optimal a /\ v = map (an_prim a) (match columns with None => seq 0 nc | Some c => c end) /\
  (forall c, columns = Some c -> Forall (fun i => i < nc) c).
Proof.
  unfold process_result. destruct (an_code a =? GLP_ENOPFS); [discriminate|].
  destruct (an_code a =? 0) eqn:Z; [|discriminate]. cbn [negb].
  destruct (an_status a =? GLP_NOFEAS); [discriminate|]. destruct (an_status a =? GLP_OPT) eqn:O; [|discriminate].
  intro H. apply bind_ok in H as (u & A & H). apply assert_ok in A. injection H as <-.
  apply Nat.eqb_eq in Z, O. repeat split; auto.
  intros c ->. apply Forall_forall. intros i Hi. rewrite forallb_forall in A. now apply Nat.ltb_lt, A.
Qed.

Lemma process_none nc a columns : process_result nc a columns = Ok None -> answer_infeasible a.
Proof.
  unfold process_result, answer_infeasible. destruct (an_code a =? GLP_ENOPFS) eqn:E; [apply Nat.eqb_eq in E; auto|].
  destruct (an_code a =? 0) eqn:Z; [|discriminate]. cbn [negb]. apply Nat.eqb_eq in Z.
  destruct (an_status a =? GLP_NOFEAS) eqn:N; [apply Nat.eqb_eq in N; auto|].
  destruct (an_status a =? GLP_OPT); [|discriminate].
  intro H. apply bind_ok in H as (u & A & H). discriminate.
Qed.

Lemma process_err nc a columns e : process_result nc a columns = Err e -> e = ERuntime \/ e = EAssert.
Proof.
  unfold process_result. destruct (an_code a =? GLP_ENOPFS); [discriminate|].
  destruct (an_code a =? 0); cbn [negb]; [|intros [= <-]; auto].
  destruct (an_status a =? GLP_NOFEAS); [discriminate|]. destruct (an_status a =? GLP_OPT); [|intros [= <-]; auto].
  unfold assert. destruct (forallb _ _); cbn; [discriminate|intros [= <-]; auto].
Qed.

Lemma classic_dir (d : option bool) : d = Some false \/ d <> Some false.
Proof. destruct d as [[|]|]; [right|left|right]; congruence. Qed.

(** Everything about a call of minimize, for every sequence of solver answers. *)
Theorem C36_minimize ans nc dir columns fail_on_unsat tr r :
  minimize_g ans nc dir columns fail_on_unsat = (tr, r) ->
  (* at most three solver calls, six with fail_on_unsat *)
  calls tr <= (if fail_on_unsat then 6 else 3) /\
  match r with
  | Ok (Some v) =>
      (* a value is returned only when the last solver call reported an optimal solution, and it is that solution *)
      1 <= calls tr /\ answer_optimal (ans (calls tr - 1)) /\
      v = map (an_prim (ans (calls tr - 1))) (match columns with None => seq 0 nc | Some c => c end)
  | Ok None =>
      (* None only without fail_on_unsat, after an infeasible answer *)
      fail_on_unsat = false /\ 1 <= calls tr /\ answer_infeasible (ans (calls tr - 1))
  | Err EUnsat =>
      (* UnsatError only with fail_on_unsat and two infeasible answers, the last one from the retry *)
      fail_on_unsat = true /\ answer_infeasible (ans (calls tr - 1)) /\
      exists k, k < calls tr - 1 /\ answer_infeasible (ans k)
  | Err e => e = ERuntime \/ e = EAssert
  end.
Proof.
  unfold minimize_g. intro H.
  destruct (classic_dir dir) as [Ed|Nd].
  { rewrite attempt_false in H by auto. injection H as <- <-. cbn. split; [destruct fail_on_unsat; lia|auto]. }
  destruct (attempt_spec ans nc dir columns [] Nd) as (suf & L3 & L1 & N & E); cbv zeta in E; rewrite E in H; clear E.
  cbn [app] in H. change (calls [] + calls suf - 1) with (calls suf - 1) in H.
  assert (C : forall x, calls (MTic "minimize" :: suf ++ x) = calls suf + calls x) by (intro; apply (calls_app suf x)).
  destruct (process_result nc (ans (calls suf - 1)) columns) as [[v|]|e] eqn:Ep.
  - injection H as <- <-. rewrite C. change (calls [MToc "minimize"%string]) with 0. rewrite Nat.add_0_r.
    destruct (process_some _ _ _ _ Ep) as (O & V & _). split; [destruct fail_on_unsat; lia|auto].
  - apply process_none in Ep. destruct fail_on_unsat.
    2:{ injection H as <- <-. rewrite C. change (calls [MToc "minimize"%string]) with 0. rewrite Nat.add_0_r. auto. }
    assert (Ct : calls ((MTic "minimize" :: suf ++ [MToc "minimize"%string]) ++ [MCpxBasis]) = calls suf).
    { rewrite calls_app, C. change (calls [MToc "minimize"%string]) with 0. change (calls [MCpxBasis]) with 0. lia. }
    change ((MTic "minimize" :: suf ++ [MToc "minimize"%string]) ++ [MCpxBasis])
      with (MTic "minimize" :: (suf ++ [MToc "minimize"%string]) ++ [MCpxBasis]) in *.
    remember (MTic "minimize" :: (suf ++ [MToc "minimize"%string]) ++ [MCpxBasis]) as t0 eqn:Et. clear Et.
    destruct (attempt_spec ans nc dir columns t0 Nd) as (suf2 & L3' & L1' & N' & E'); cbv zeta in E'; rewrite E' in H; clear E'.
    rewrite Ct in H.
    assert (C2 : forall x, calls (t0 ++ MTic "minimize" :: suf2 ++ x) = calls suf + calls suf2 + calls x).
    { intro x. rewrite calls_app, Ct. change (calls (MTic "minimize" :: suf2 ++ x)) with (calls (suf2 ++ x)).
      rewrite calls_app. lia. }
    destruct (process_result nc (ans (calls suf + calls suf2 - 1)) columns) as [[v|]|e] eqn:Ep'; injection H as <- <-;
      rewrite C2; change (calls [MToc "minimize"%string]) with 0; change (calls []) with 0; rewrite Nat.add_0_r; (split; [lia|]).
    + destruct (process_some _ _ _ _ Ep') as (O & V & _). split; [lia|auto].
    + apply process_none in Ep'. split; [reflexivity|split; [exact Ep'|]]. exists (calls suf - 1); split; [lia|auto].
    + destruct (process_err _ _ _ _ Ep') as [-> | ->]; auto.
  - injection H as <- <-. rewrite C. change (calls []) with 0. rewrite Nat.add_0_r.
    split; [destruct fail_on_unsat; lia|]. destruct (process_err _ _ _ _ Ep) as [-> | ->]; auto.
Qed.

(** With a solver that answers the LP always alike, minimize is the function LpModel.minimize used in the rest of the model. *)
Definition classify (a : answer) : sres :=
  if an_code a =? GLP_ENOPFS then SInfeas
  else if negb (an_code a =? 0) then SFail
  else if an_status a =? GLP_NOFEAS then SInfeas
  else if an_status a =? GLP_OPT then SOpt (an_prim a) else SFail.

Theorem C36_refines (a : lp -> answer) (l : lp) columns fail_on_unsat :
  snd (minimize_g (fun _ => a l) (l_nc l) None columns fail_on_unsat) = minimize (fun x => classify (a x)) l columns fail_on_unsat.
Proof.
  unfold minimize_g, minimize, classify.
  assert (Nd : None <> Some false) by discriminate.
  assert (A := fun t => attempt_spec (fun _ => a l) (l_nc l) None columns t Nd).
  destruct (A []) as (suf & _ & _ & _ & E). cbv zeta in E. rewrite E. clear E.
  assert (P : process_result (l_nc l) (a l) columns =
     match classify (a l) with
     | SFail => Err ERuntime | SInfeas => Ok None
     | SOpt x => do _ <- assert (forallb (fun c => c <? l_nc l) (match columns with None => seq 0 (l_nc l) | Some c => c end));
                 Ok (Some (map x (match columns with None => seq 0 (l_nc l) | Some c => c end)))
     end).
  { unfold process_result, classify. destruct (an_code (a l) =? GLP_ENOPFS); auto. destruct (an_code (a l) =? 0); cbn [negb]; auto.
    destruct (an_status (a l) =? GLP_NOFEAS); auto. destruct (an_status (a l) =? GLP_OPT); auto. }
  change (if an_code (a l) =? GLP_ENOPFS then SInfeas
  else if negb (an_code (a l) =? 0) then SFail
  else if an_status (a l) =? GLP_NOFEAS then SInfeas
  else if an_status (a l) =? GLP_OPT then SOpt (an_prim (a l)) else SFail) with (classify (a l)).
  rewrite P. destruct (classify (a l)) as [x| |].
  - destruct (assert _); reflexivity.
  - destruct fail_on_unsat; [|reflexivity].
    match goal with |- context [attempt _ _ _ ?t _] => destruct (A t) as (suf2 & _ & _ & _ & E) end.
    cbv zeta in E. rewrite E, P. reflexivity.
  - reflexivity.
Qed.

(** The timers: balanced when minimize returns or raises UnsatError; any other exception leaves the timer 'minimize' running. *)
Theorem C36_timers ans nc dir columns fail_on_unsat tr r :
  minimize_g ans nc dir columns fail_on_unsat = (tr, r) ->
  match r with
  | Ok _ | Err EUnsat => nested (as_calls (timer_events tr))
  | Err _ => exists l1 l2, as_calls (timer_events tr) = l1 ++ CTic "minimize" 0%Q :: l2 /\ nested l1 /\
               (nested l2 \/ l2 = [CTic "set_minimize_direction" 0%Q])
  end.
Proof.
  unfold minimize_g. intro H.
  assert (W : forall s, nested (as_calls (timer_events s)) -> nested (as_calls (timer_events (MTic "minimize" :: s ++ [MToc "minimize"%string])))).
  { intros s Hs. change (MTic "minimize" :: s ++ [MToc "minimize"%string]) with ([MTic "minimize"%string] ++ s ++ [MToc "minimize"%string]).
    rewrite !events_app. unfold as_calls. rewrite !map_app. apply (nested_wrap "minimize" 0 0). exact Hs. }
  destruct (classic_dir dir) as [Ed|Nd].
  { rewrite attempt_false in H by auto. injection H as <- <-.
    exists [], [CTic "set_minimize_direction" 0%Q]. split; [reflexivity|]. split; [constructor|auto]. }
  destruct (attempt_spec ans nc dir columns [] Nd) as (suf & L3 & L1 & N & E); cbv zeta in E; rewrite E in H; clear E.
  cbn [app] in H.
  destruct (process_result nc (ans (calls [] + calls suf - 1)) columns) as [[v|]|e] eqn:Ep.
  - injection H as <- <-. now apply W.
  - destruct fail_on_unsat; [|injection H as <- <-; now apply W].
    match type of H with context [attempt ans nc dir ?t columns] => remember t as t0 eqn:Et end.
    assert (Nt : nested (as_calls (timer_events t0))).
    { subst t0.
      change (nested (as_calls (timer_events ((MTic "minimize" :: suf ++ [MToc "minimize"%string]) ++ [MCpxBasis])))).
      rewrite events_app. unfold as_calls. rewrite map_app. apply nested_app; [now apply W|constructor]. }
    clear Et. destruct (attempt_spec ans nc dir columns t0 Nd) as (suf2 & _ & _ & N' & E'); cbv zeta in E'; rewrite E' in H; clear E'.
    assert (W2 : nested (as_calls (timer_events (t0 ++ MTic "minimize" :: suf2 ++ [MToc "minimize"%string])))).
    { rewrite events_app. unfold as_calls. rewrite map_app. apply nested_app; [exact Nt|now apply W]. }
    destruct (process_result nc (ans (calls t0 + calls suf2 - 1)) columns) as [[v|]|e] eqn:Ep'; injection H as <- <-; auto.
    destruct (process_err _ _ _ _ Ep') as [-> | ->];
      (exists (as_calls (timer_events t0)), (as_calls (timer_events suf2)); rewrite app_nil_r, events_app;
       unfold as_calls; rewrite map_app; split; [reflexivity|split; auto]).
  - injection H as <- <-. destruct (process_err _ _ _ _ Ep) as [-> | ->];
      (exists [], (as_calls (timer_events suf)); rewrite app_nil_r; split; [reflexivity|split; [constructor|auto]]).
Qed.

(** A singular basis, then success; an infeasible LP; an unbounded one. *)
Example C36_witness :
  let a (c s : nat) := mkAns c s (fun i => inject_Z (Z.of_nat i)) in
  snd (minimize_g (fun k => match k with 0 => a GLP_ESING 0 | _ => a 0 GLP_OPT end) 2 (Some true) None true) = Ok (Some [0; 1]%Q) /\
  calls (fst (minimize_g (fun k => match k with 0 => a GLP_ESING 0 | _ => a 0 GLP_OPT end) 2 (Some true) None true)) = 2 /\
  snd (minimize_g (fun k => a 0 GLP_NOFEAS) 2 None None true) = Err EUnsat /\
  snd (minimize_g (fun k => match k with 0 => a 0 GLP_NOFEAS | _ => a 0 GLP_OPT end) 2 None (Some [1]) true) = Ok (Some [1]%Q) /\
  snd (minimize_g (fun k => a 0 GLP_UNBND) 2 None None true) = Err ERuntime /\
  calls (fst (minimize_g (fun k => match k with 3 => a GLP_ESING 0 | 0 | 4 => a GLP_ESING 0 | 1 => a 1 0 | 2 => a GLP_ENOPFS 0 | _ => a 0 GLP_NOFEAS end) 2 None None true)) = 6.
Proof. repeat split. Qed.

(** * C38 *)
Section C38.
Variable V : Type.

(** The records of (state, step) for a mode in subplot [i]. *)
Definition recs (pd : pdata V) (i : nat) (mode : string) (state step : nat) : list (pobj V) :=
  filter (is_obj state step) (nth i pd (fun _ => []) mode).

Lemma pop_first_spec state step (l : list (pobj V)) :
  match pop_first state step l with
  | Some r => exists a o b, l = a ++ o :: b /\ r = a ++ b /\ is_obj state step o = true /\ filter (is_obj state step) a = []
  | None => filter (is_obj state step) l = []
  end.
Proof.
  induction l as [|o l IH]; cbn [pop_first filter]; auto.
  destruct (is_obj state step o) eqn:E; [exists [], o, l; auto|].
  destruct (pop_first state step l) as [r|]; auto.
  destruct IH as (a & p & b & -> & -> & Ep & Ea). exists (o :: a), p, b. cbn [filter]. now rewrite E.
Qed.

(** With one subplot: remove_state raises AssertionError exactly when nothing is recorded for that state and step; otherwise it
    removes exactly one record of them and keeps every other record of every mode in order. *)
Theorem C38_one_subplot (f : string -> list (pobj V)) state mode step :
  match remove_state [f] state mode step with
  | Ok pd => exists g a o b, pd = [g] /\ is_obj state step o = true /\ f mode = a ++ o :: b /\ g mode = a ++ b /\
      forall m, m <> mode -> g m = f m
  | Err e => e = EAssert /\ forall o, In o (f mode) -> is_obj state step o = false
  end.
Proof.
  cbn [remove_state]. assert (H := pop_first_spec state step (f mode)).
  destruct (pop_first state step (f mode)) as [r|].
  - destruct H as (a & o & b & E & -> & Eo & _). exists (upd f mode (a ++ b)), a, o, b.
    repeat split; auto.
    + unfold upd. now rewrite String.eqb_refl.
    + intros m N. unfold upd. destruct (String.eqb_spec m mode); congruence.
  - cbn. split; auto. intros o Ho. destruct (is_obj state step o) eqn:E; auto.
    assert (K : In o (filter (is_obj state step) (f mode))) by (apply filter_In; auto). rewrite H in K. destruct K.
Qed.

Lemma remove_one (pd : pdata V) state mode step pd' : remove_state pd state mode step = Ok pd' ->
  exists k, k < List.length pd /\ List.length pd' = List.length pd /\
    (forall i, i <> k -> nth i pd' (fun _ => []) = nth i pd (fun _ => [])) /\
    (forall m, m <> mode -> nth k pd' (fun _ => []) m = nth k pd (fun _ => []) m) /\
    (exists a o b, is_obj state step o = true /\ nth k pd (fun _ => []) mode = a ++ o :: b /\ nth k pd' (fun _ => []) mode = a ++ b) /\
    (forall i, i < k -> recs pd i mode state step = []).
Proof.
  revert pd'. induction pd as [|f r IH]; intros pd' H; [discriminate|]. cbn [remove_state] in H.
  assert (P := pop_first_spec state step (f mode)). destruct (pop_first state step (f mode)) as [l|].
  - injection H as <-. destruct P as (a & o & b & E & -> & Eo & _). exists 0. cbn [List.length].
    split; [lia|]. split; [reflexivity|]. split; [intros [|i] N; [congruence|reflexivity]|].
    split; [|split].
    + intros m N. cbn. unfold upd. destruct (String.eqb_spec m mode); congruence.
    + exists a, o, b. cbn. unfold upd. rewrite String.eqb_refl. auto.
    + intros; lia.
  - apply bind_ok in H as (r' & Hr & H). injection H as <-.
    destruct (IH r' Hr) as (k & Lk & Ll & Ho & Hm & Hs & Hb). exists (S k). cbn [List.length].
    split; [lia|]. split; [lia|]. split; [intros [|i] N; [reflexivity|cbn; apply Ho; lia]|].
    split; [exact Hm|]. split; [exact Hs|]. intros [|i] L; [exact P|apply (Hb i); lia].
Qed.

(** With any number of subplots (what is missing: the other subplots keep their records): exactly one record is removed, from
    the first subplot that has one for that state and step. *)
Theorem C38_any_subplots_partial (pd : pdata V) state mode step pd' : remove_state pd state mode step = Ok pd' ->
  exists k, k < List.length pd /\
    (forall i, i <> k -> nth i pd' (fun _ => []) = nth i pd (fun _ => [])) /\
    (forall m, m <> mode -> nth k pd' (fun _ => []) m = nth k pd (fun _ => []) m) /\
    (exists a o b, is_obj state step o = true /\ nth k pd (fun _ => []) mode = a ++ o :: b /\ nth k pd' (fun _ => []) mode = a ++ b) /\
    (forall i, i < k -> recs pd i mode state step = []).
Proof. intro H. destruct (remove_one _ _ _ _ _ H) as (k & A & _ & B). exists k; auto. Qed.

End C38.

(** The full property fails with two subplots: a state plotted in every subplot (as plot_current_state does) and then removed
    stays recorded in the second one. *)
Theorem C38_two_subplots_refuted : exists pd pd',
  add_everywhere (plot_data0 2) 7 "m1" 3 (fun i => i) 0 2 = Ok pd /\
  remove_state pd 7 "m1" 3 = Ok pd' /\
  recs nat pd' 0 "m1" 7 3 = [] /\ recs nat pd' 1 "m1" 7 3 = [(1, 7, 3)].
Proof. do 2 eexists. split; [reflexivity|]. split; [reflexivity|]. split; reflexivity. Qed.

Example C38_witness : exists pd pd',
  add_everywhere (plot_data0 1) 7 "m1" 3 (fun i => i) 0 1 = Ok pd /\
  remove_state pd 7 "m1" 3 = Ok pd' /\ recs nat pd' 0 "m1" 7 3 = [] /\ remove_state pd' 7 "m1" 3 = Err EAssert.
Proof. do 2 eexists. split; [reflexivity|]. split; [reflexivity|]. split; reflexivity. Qed.

(** * C51: get_verts_list is documented as the list of the vertex lists of a mode; it returns the first record only. *)
Theorem C51_first_record_partial (V : Type) (pd : pdata V) mode i f : nth_error pd i = Some f ->
  get_verts_list pd mode i = match f mode with [] => Err EIndex | o :: _ => Ok o end.
Proof. intro H. unfold get_verts_list. now rewrite H. Qed.

Theorem C51_get_verts_list_refuted : exists (pd1 pd2 : pdata nat),
  add_state (plot_data0 1) 7 "m1" 0 10 0 = Ok pd1 /\ add_state pd1 7 "m1" 1 11 0 = Ok pd2 /\
  nth 0 pd2 (fun _ => []) "m1"%string = [(10, 7, 0); (11, 7, 1)] /\
  get_verts_list pd2 "m1" 0 = Ok (10, 7, 0).
Proof. do 2 eexists. split; [reflexivity|]. split; [reflexivity|]. split; reflexivity. Qed.

(** * C39 *)
Theorem C39_num_steps (step max_time : Q) : (0 < step)%Q ->
  (max_time <= inject_Z (num_steps step max_time) * step)%Q /\
  forall n : Z, (max_time <= inject_Z n * step)%Q -> (num_steps step max_time <= n)%Z.
Proof.
  intro Hs. unfold num_steps. split.
  - apply Qle_trans with ((max_time / step) * step)%Q.
    + apply Qle_lteq; right. field. intro E; rewrite E in Hs; discriminate.
    + apply Qmult_le_compat_r; [apply Qle_ceiling|now apply Qlt_le_weak].
  - intros n H.
    assert (K : (max_time / step <= inject_Z n)%Q).
    { apply Qle_shift_div_r; auto. }
    apply Qceiling_resp_le in K. now rewrite Qceiling_Z in K.
Qed.

Theorem C39_nonneg (step max_time : Q) : (0 < step)%Q -> (0 <= max_time)%Q -> (0 <= num_steps step max_time)%Z.
Proof.
  intros Hs Ht. unfold num_steps. rewrite <- (Qceiling_Z 0). apply Qceiling_resp_le.
  apply Qle_shift_div_l; auto. now rewrite Qmult_0_l.
Qed.

(** With binary64 numbers the claim fails: the quotient is rounded before ceil. *)
Definition f09 : spec_float := S754_finite false 8106479329266893 (-53).   (* the double written 0.9 *)
Definition f03 : spec_float := S754_finite false 5404319552844595 (-54).   (* the double written 0.3 *)
Definition fval (f : spec_float) : Q :=
  match f with
  | S754_finite s m e => ((if s then -1 else 1) * inject_Z (Zpos m) *
        (if (e <? 0)%Z then 1 / inject_Z (2 ^ (- e)) else inject_Z (2 ^ e)))%Q
  | _ => 0%Q
  end.
(** settings.py:34 with binary64 division (math.ceil of a float is exact) *)
Definition num_steps_f (step max_time : spec_float) : Z := Qceiling (fval (SFdiv 53 1024 max_time step)).

Theorem C39_binary64_refuted :
  valid_binary 53 1024 f03 = true /\ valid_binary 53 1024 f09 = true /\
  num_steps_f f03 f09 = 3%Z /\ (inject_Z 3 * fval f03 < fval f09)%Q.
Proof. repeat split; vm_compute; reflexivity. Qed.

Example C39_witness : num_steps (1 # 4) 1 = 4%Z /\ num_steps (3 # 10) 1 = 4%Z /\ num_steps (1 # 3) 0 = 0%Z.
Proof. repeat split. Qed.

(** * C48 *)
Definition elems (lens : list nat) : Z := fold_right (fun n s => (Z.of_nat n + s)%Z) 0%Z lens.

Lemma elems_snoc l n : elems (l ++ [n]) = (elems l + Z.of_nat n)%Z.
Proof. induction l as [|a l IH]; cbn; [lia|]. unfold elems in *. lia. Qed.

Lemma swig_gen gb : forall lens b,
  match swig_allocs gb b lens with
  | (b', Ok _) => b' = (b + 8 * elems lens)%Z /\
      forall k, 0 < k <= List.length lens -> (inject_Z (b + 8 * elems (firstn k lens)) <= gb * inject_Z (2 ^ 30))%Q
  | (b', Err e) => e = EMemory /\ exists k, 0 < k <= List.length lens /\ b' = (b + 8 * elems (firstn k lens))%Z /\
      (gb * inject_Z (2 ^ 30) < inject_Z b')%Q /\
      forall j, 0 < j < k -> (inject_Z (b + 8 * elems (firstn j lens)) <= gb * inject_Z (2 ^ 30))%Q
  end.
Proof.
  intros lens. induction lens as [|n l IH]; intro b; cbn [swig_allocs].
  - split; [cbn; lia|]. cbn. intros; lia.
  - unfold swig_alloc. set (b1 := (b + 8 * Z.of_nat n)%Z).
    assert (Et : (1024 * inject_Z (1024 * 1024) * gb == gb * inject_Z (2 ^ 30))%Q).
    { assert (K : (inject_Z (2 ^ 30) == 1024 * inject_Z (1024 * 1024))%Q) by reflexivity. rewrite K. ring. }
    destruct (Qle_bool (inject_Z b1) (1024 * inject_Z (1024 * 1024) * gb)) eqn:E.
    + apply Qle_bool_iff in E. rewrite Et in E. specialize (IH b1).
      destruct (swig_allocs gb b1 l) as [b' [u|e]].
      * destruct IH as [-> Hk]. split; [unfold b1; cbn [elems fold_right]; change (fold_right _ 0%Z l) with (elems l); lia|].
        intros [|k] L; [lia|]. cbn [firstn].
        replace (b + 8 * elems (n :: firstn k l))%Z with (b1 + 8 * elems (firstn k l))%Z
          by (unfold b1; cbn [elems fold_right]; unfold elems; lia).
        destruct k as [|k]; [cbn [firstn elems fold_right]; rewrite Z.mul_0_r, Z.add_0_r; exact E|].
        apply Hk. cbn [List.length] in L. lia.
      * destruct IH as (-> & k & Lk & Eb & Hlt & Hj). split; auto. exists (S k). cbn [List.length firstn].
        split; [lia|]. split; [rewrite Eb; unfold b1; cbn [elems fold_right]; unfold elems; lia|]. split; auto.
        intros [|j] L; [lia|]. cbn [firstn].
        replace (b + 8 * elems (n :: firstn j l))%Z with (b1 + 8 * elems (firstn j l))%Z
          by (unfold b1; cbn [elems fold_right]; unfold elems; lia).
        destruct j as [|j]; [cbn [firstn elems fold_right]; rewrite Z.mul_0_r, Z.add_0_r; exact E|].
        apply Hj; lia.
    + split; auto. exists 1. cbn [List.length firstn]. split; [lia|].
      split; [unfold b1; cbn [elems fold_right]; lia|]. split; [|intros; lia].
      rewrite <- Et. apply Qnot_le_lt. intro K. apply Qle_bool_iff in K. congruence.
Qed.

(** The allocations [lens] (numbers of array elements), from the start of the program: either all succeed, the counter is 8 bytes per
    element and no prefix exceeded the limit; or MemoryError is raised by the first allocation with which the total exceeds it. *)
Theorem C48_swig (gb : Q) (lens : list nat) :
  match swig_allocs gb 0 lens with
  | (b, Ok _) => b = (8 * elems lens)%Z /\
      forall k, 0 < k <= List.length lens -> (inject_Z (8 * elems (firstn k lens)) <= gb * inject_Z (2 ^ 30))%Q
  | (b, Err e) => e = EMemory /\ exists k, 0 < k <= List.length lens /\ b = (8 * elems (firstn k lens))%Z /\
      (gb * inject_Z (2 ^ 30) < inject_Z b)%Q /\
      forall j, 0 < j < k -> (inject_Z (8 * elems (firstn j lens)) <= gb * inject_Z (2 ^ 30))%Q
  end.
Proof. exact (swig_gen gb lens 0%Z). Qed.

Example C48_witness : swig_allocs (1 # 1073741824) 0 [0; 0] = (0%Z, Ok tt) /\
  snd (swig_allocs (16 # 1073741824) 0 [1; 1; 1; 5]) = Err EMemory /\ fst (swig_allocs (16 # 1073741824) 0 [1; 1; 1; 5]) = 24%Z.
Proof. repeat split. Qed.
