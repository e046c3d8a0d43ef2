(** C33: Timers. *)
From Verif Require Import Base Timers TimerSpec TimerFacts.
Open Scope nat_scope.

(** Every sequence of Timers.tic / toc / reset from a fresh start behaves as the call log says: it raises exactly when
    the log rejects a call, and otherwise the running timers and the number of calls and seconds of the timer at every path
    are those of the log. *)
Theorem C33_accounting (l : list tcall) :
  match ts_run ts0 l with
  | Some s =>
      exists t, timers_run timers0 l = Ok t /\
        map (fun i => (td_name (tget (t_heap t) i), td_start (tget (t_heap t) i))) (t_stack t)
          = map (fun e => (fst e, Some (snd e))) (ts_open s) /\
        forall p, match timer_at t p with
                  | Some i => td_calls (tget (t_heap t) i) = ts_calls s p /\ (td_total (tget (t_heap t) i) == ts_secs s p)%Q
                  | None => ts_calls s p = 0 /\ (ts_secs s p == 0)%Q
                  end
  | None => timers_run timers0 l = Err EIndex \/ timers_run timers0 l = Err EAssert
  end.
Proof.
  assert (H := sim_run l timers0 ts0 sim0). destruct (ts_run ts0 l) as [s|]; auto.
  destruct H as (t & E & Sm). exists t; split; auto. split; [now apply sim_stack|]. intro p; now apply sim_lookup.
Qed.

Lemma run_reach l t : timers_run timers0 l = Ok t -> exists s, ts_run ts0 l = Some s /\ sim t s.
Proof.
  intro R. assert (H := sim_run l timers0 ts0 sim0). destruct (ts_run ts0 l) as [s|].
  - destruct H as (t' & E & Sm). exists s; split; auto. congruence.
  - destruct H; congruence.
Qed.

(** From every reachable state a well nested sequence runs without exception and leaves the same timers running. *)
Theorem C33_well_nested l0 l t0 : timers_run timers0 l0 = Ok t0 -> nested l ->
  exists t, timers_run t0 l = Ok t /\ List.length (t_stack t) = List.length (t_stack t0) /\
    map (fun i => td_name (tget (t_heap t) i)) (t_stack t) = map (fun i => td_name (tget (t_heap t0) i)) (t_stack t0).
Proof.
  intros R N. destruct (run_reach _ _ R) as (s0 & _ & Sm).
  destruct (nested_ok l N s0) as (s' & E & O). assert (H := sim_run l t0 s0 Sm). rewrite E in H.
  destruct H as (t & Et & Sm'). exists t; split; auto.
  assert (K := sim_stack _ _ Sm'). rewrite O, <- (sim_stack _ _ Sm) in K.
  assert (L := f_equal (@List.length _) K). rewrite !map_length in L.
  assert (M := f_equal (map fst) K). rewrite !map_map in M. cbn [fst] in M.
  split; [exact L|exact M].
Qed.

(** In every reachable state: tic never raises. *)
Theorem C33_tic_never_raises l t n now : timers_run timers0 l = Ok t -> exists t', timers_tic t n now = Ok t'.
Proof.
  intro R. destruct (run_reach _ _ R) as (s & _ & Sm). destruct (sim_tic t s n now Sm) as (t' & _ & E & _). eauto.
Qed.

(** In every reachable state: toc(name) succeeds exactly when [name] is the timer started last; it raises IndexError when
    none is running and AssertionError otherwise. *)
Theorem C33_toc l t n now : timers_run timers0 l = Ok t ->
  match t_stack t with
  | [] => timers_toc t n now = Err EIndex
  | i :: rest => if String.eqb (td_name (tget (t_heap t) i)) n
                 then exists t', timers_toc t n now = Ok t' /\ t_stack t' = rest
                 else timers_toc t n now = Err EAssert
  end.
Proof.
  intro R. destruct (run_reach _ _ R) as (s & _ & Sm).
  assert (K := sim_stack _ _ Sm). assert (H := sim_toc t s n now Sm).
  unfold timers_toc in *. destruct (t_stack t) as [|i rest] eqn:Es; auto.
  destruct (String.eqb_spec (td_name (tget (t_heap t) i)) n) as [E|N]; [|reflexivity].
  unfold ts_call in H. destruct (ts_open s) as [|[m q] o]; [discriminate K|]. cbn [map fst snd] in K.
  assert (Em : td_name (tget (t_heap t) i) = m) by (inversion K; auto).
  rewrite <- Em, E, String.eqb_refl in H. destruct H as (t' & E' & _).
  exists t'; split; auto. apply bind_ok in E' as (u & _ & E'). apply bind_ok in E' as (d & _ & E').
  injection E' as <-. reflexivity.
Qed.

(** With a clock that never runs backwards, the children of a stopped timer never account for more time than it does. *)
Theorem C33_children_time l t now p i : clock_ok now l -> timers_run timers0 l = Ok t ->
  timer_at t p = Some i -> td_start (tget (t_heap t) i) = None ->
  (qsum (map (fun c => td_total (tget (t_heap t) c)) (td_children (tget (t_heap t) i))) <= td_total (tget (t_heap t) i))%Q.
Proof.
  intros C R A Ns. destruct (run_reach _ _ R) as (s & Es & Sm).
  destruct (SI_run l now ts0 s C (SI0 now) Es) as (now' & _ & I).
  eapply children_secs; eauto.
Qed.

(** The run of Core.run: 'total' around two 'step' calls, the second with a nested 'lp'. *)
Open Scope string_scope.
Definition ex_calls : list tcall :=
  [CTic "total" 0; CTic "step" 1; CToc "step" 3; CTic "step" 4; CTic "lp" 5; CToc "lp" 6; CToc "step" 7; CToc "total" 9].

Example C33_witness : nested ex_calls /\ clock_ok 0 ex_calls /\
  match timers_run timers0 ex_calls with
  | Ok t => t_stack t = [] /\
            match timer_at t ["total"; "step"], timer_at t ["total"] with
            | Some i, Some j => td_calls (tget (t_heap t) i) = 2%nat /\ (td_total (tget (t_heap t) i) == 5)%Q /\
                       td_start (tget (t_heap t) i) = None /\ td_children (tget (t_heap t) i) <> [] /\
                       (td_total (tget (t_heap t) j) == 9)%Q
            | _, _ => False
            end
  | Err _ => False
  end.
Proof.
  split; [|split].
  - apply (nested_one "total" 0 9 [CTic "step" 1; CToc "step" 3; CTic "step" 4; CTic "lp" 5; CToc "lp" 6; CToc "step" 7] []); [|constructor].
    apply (nested_one "step" 1 3 [] [CTic "step" 4; CTic "lp" 5; CToc "lp" 6; CToc "step" 7]); [constructor|].
    apply (nested_one "step" 4 7 [CTic "lp" 5; CToc "lp" 6] []); [|constructor].
    apply (nested_one "lp" 5 6 [] []); constructor.
  - cbn. repeat split; discriminate.
  - vm_compute. repeat split; discriminate.
Qed.

(** The LP wrapper of lpinstance.py starts 'minimize' and, when the solver reports an unbounded problem, raises before stopping
    it (lpinstance.py:556-586, 690): the next toc of the enclosing timer is then out of order. *)
Example C33_unbalanced_witness :
  timers_run timers0 [CTic "total" 0; CTic "minimize" 1; CToc "total" 2] = Err EAssert.
Proof. reflexivity. Qed.
