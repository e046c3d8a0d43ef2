(** Specification: simulated lines as executions. *)
From Verif Require Import Base LpModel LpSpec SetSpec Automaton HybridSpec Sim.
Open Scope nat_scope.

(** [sim_reach a bound imm init m p k n]: p is reached in mode m after k steps in the mode and n in total; the invariant holds before every
    time step; a transition is taken after at least one step in the mode, or ([imm]) also immediately *)
Inductive sim_reach (a : ha) (bound : nat) (imm : bool) (init : nat -> vec -> Prop) : nat -> vec -> nat -> nat -> Prop :=
| S_init m p : init m p -> sim_reach a bound imm init m p 0 0
| S_step m p k n p' : sim_reach a bound imm init m p k n -> inv_ok 0 (get_mode a m) p -> n < bound -> m_b (get_mode a m) = None -> one_step (get_mode a m) p (fun _ => 0%Q) p' ->
    sim_reach a bound imm init m p' (S k) (S n)
| S_jump t p p' k n : t < List.length (ha_trans a) -> sim_reach a bound imm init (t_from (get_trans a t)) p k n -> (imm = true \/ 0 < k) -> guard_ok (get_trans a t) p ->
    reset_ok a (get_trans a t) p p' -> sim_reach a bound imm init (t_to (get_trans a t)) p' 0 n.

(** one time step of a simulation *)
Definition advances (a : ha) (bound : nat) (s s' : sim) : Prop :=
  sm_mode s' = sm_mode s /\ sm_n s' = S (sm_n s) /\ sm_n s < bound /\ m_b (get_mode a (sm_mode s)) = None /\
  inv_ok 0 (get_mode a (sm_mode s)) (sm_pt s) /\ one_step (get_mode a (sm_mode s)) (sm_pt s) (fun _ => 0%Q) (sm_pt s').
(** a transition: the stored point is the one after the reset (the stored mode is still the old one), before the time bound *)
Definition jumps (a : ha) (bound : nat) (t : nat) (s s' : sim) : Prop :=
  sm_mode s' = sm_mode s /\ sm_n s' = sm_n s /\ sm_n s < bound /\ t < List.length (ha_trans a) /\ t_from (get_trans a t) = sm_mode s /\ guard_ok (get_trans a t) (sm_pt s) /\
  reset_ok a (get_trans a t) (sm_pt s) (sm_pt s').
Definition no_guard (a : ha) (s : sim) : Prop := forall t, t < List.length (ha_trans a) -> t_from (get_trans a t) = sm_mode s -> ~ guard_ok (get_trans a t) (sm_pt s).

(** a line without transition: time steps; after the first point, no guard holds where time elapses *)
Definition flow_line (a : ha) (bound : nat) (l : list sim) : Prop := l <> [] /\ forall i s s', nth_error l i = Some s -> nth_error l (S i) = Some s' -> advances a bound s s' /\ (0 < i -> no_guard a s).
(** what is stored at the end.  Every line starts at a reachable point at the start of a mode, and is complete; if it ends with a transition
    into a mode that is not an error mode, another line goes on from there *)
Definition stops (a : ha) (bound : nat) (l : list sim) : Prop :=
  exists l0 s, l = l0 ++ [s] /\ flow_line a bound l /\ (sm_n s = bound \/ (~ inv_ok 0 (get_mode a (sm_mode s)) (sm_pt s) /\ (l0 <> [] -> no_guard a s))).
Definition turns (a : ha) (bound : nat) (imm : bool) (B : sim -> Prop) (l : list sim) : Prop :=
  exists l0 s s' t, l = l0 ++ [s; s'] /\ flow_line a bound (l0 ++ [s]) /\ jumps a bound t s s' /\ (imm = true \/ l0 <> []) /\
    (is_error (get_mode a (t_to (get_trans a t))) = true \/ B (mkSim (t_to (get_trans a t)) (sm_pt s') (sm_n s))).
Definition starts (ls : list (list sim)) : list sim := flat_map (fun l => firstn 1 l) ls.
Definition good_lines (a : ha) (bound : nat) (imm : bool) (init : nat -> vec -> Prop) (ls : list (list sim)) : Prop :=
  forall l, In l ls -> (exists s0 r, l = s0 :: r /\ sim_reach a bound imm init (sm_mode s0) (sm_pt s0) 0 (sm_n s0)) /\
    (stops a bound l \/ turns a bound imm (fun s => In s (starts ls)) l).
