(** Specification side of the reachability analysis: the initial states handed to Core.run and the executions they start. *)
From Verif Require Import Base LpModel LpSpec SetSpec LpUtil ApiSpec Automaton StateSet HybridSpec.
Open Scope nat_scope.

Section Spec.
Variable solve : solver.
(** StateSet(lpi, mode) where lpi was made by the lputil constructors for this mode: as many current variables as the mode
    has, basis matrix the identity, input columns as in the mode. *)
Definition init_ok (a : ha) (s : sset) : Prop :=
  exists l m, m < List.length (ha_modes a) /\ new_stateset a l m 0 0 None true = Ok s /\
    match m_a (get_mode a m) with
    | Some x => api solve l (Some (ident (c_nr x), m_nu (get_mode a m), [], [])) /\ l_dims l = c_nr x
    | None => (exists k, api solve l k) /\ 0 < l_dims l
    end.
End Spec.
(** the initial points *)
Definition init_of_list (ss : list sset) (m : nat) (p : vec) : Prop := exists s, In s ss /\ ss_mode s = m /\ in_lp (ss_lpi s) p.
