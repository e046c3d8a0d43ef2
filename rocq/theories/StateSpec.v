(** State sets obtained by calling the public operations: the StateSet constructor on an LP built for the mode, step, and
    Core's invariant intersection, in any order and number, and the convex hull approximation before the first step and the first cut. *)
From Verif Require Import Base LpModel LpSpec SetSpec LpUtil ApiSpec Automaton StateSet Approx HybridSpec.
Open Scope nat_scope.

(** no invariant condition has been added to this state set *)
Definition no_rows (s : sset) : Prop := forall j, ~ In (Some j) (ss_rows s).

Section Runs.
Variable solve : solver.
Inductive sset_run (a : ha) : sset -> Prop :=
| sr_new l m lo hi ops conc s x :
    m < List.length (ha_modes a) -> m_a (get_mode a m) = Some x ->
    api solve l (Some (ident (c_nr x), m_nu (get_mode a m), [], [])) -> l_dims l = c_nr x ->
    new_stateset a l m lo hi ops conc = Ok s -> sset_run a s
| sr_step s k s' : sset_run a s -> ss_step_to a s k = Ok s' -> sset_run a s'
| sr_inv s s' ops ok : sset_run a s -> intersect_invariant solve a s = Ok (s', ops, ok) -> sset_run a s'
| sr_chull s s' : sset_run a s -> ss_step s = 0 -> no_rows s -> apply_approx_chull solve a s = Ok s' -> sset_run a s'.
End Runs.

(** Automata built by the construction functions of hybrid_automaton.py.  [B_dyn] only before the mode is used by a
    transition, an invariant or inputs; [B_elapse] stands for mode.init_time_elapse, giving the mode any matrices. *)
Definition unused (a : ha) (i : nat) : Prop :=
  m_inv (get_mode a i) = [] /\ m_b (get_mode a i) = None /\
  forall t, In t (ha_trans a) -> t_from t <> i /\ t_to t <> i.
Definition m_with_elapse (m : mode) (bm ie : nat -> mat) := mkMode (m_name m) (m_a m) (m_b m) (m_inv m) bm ie.

Section Build.
Variable solve : solver.
Inductive built : ha -> Prop :=
| B_empty : built (mkHa [] [])
| B_mode a n a' : built a -> new_mode a n = Ok a' -> built a'
| B_trans a f t n : built a -> f < List.length (ha_modes a) -> t < List.length (ha_modes a) -> built (new_transition a f t n)
| B_dyn a i x a' : built a -> i < List.length (ha_modes a) -> unused a i -> csr_ok x -> set_dynamics a i x = Ok a' -> built a'
| B_inv a i c rhs a' : built a -> i < List.length (ha_modes a) -> csr_ok c -> set_invariant solve a i c rhs = Ok a' -> built a'
| B_inputs a i b uc ur al a' : built a -> i < List.length (ha_modes a) -> csr_ok b -> csr_ok uc -> set_inputs solve a i b uc ur al = Ok a' -> built a'
| B_guard a i g rhs a' : built a -> i < List.length (ha_trans a) -> csr_ok g -> set_guard solve a i g rhs = Ok a' -> built a'
| B_guard_true a i a' : built a -> i < List.length (ha_trans a) -> set_guard_true solve a i = Ok a' -> built a'
| B_reset a i r mk mc a' : built a -> i < List.length (ha_trans a) -> opt_csr_ok r -> opt_csr_ok mk ->
    (match mc with Some (c, _) => csr_ok c | None => True end) -> set_reset solve a i r mk mc = Ok a' -> built a'
| B_elapse a i bm ie : built a -> i < List.length (ha_modes a) -> built (with_mode a i (m_with_elapse (get_mode a i) bm ie)).
End Build.

(** contract of the external matrix exponential for a mode: m_bm k is the k-th power of m_bm 1, m_ie (k+1) = m_bm 1 . m_ie k *)
Definition elapse_ok (m : mode) (x : csr) : Prop :=
  (forall k, mat_dims (c_nr x) (c_nr x) (m_bm m k) /\
     forall p, veq (c_nr x) (mapply (m_bm m (S k)) p) (mapply (m_bm m 1) (mapply (m_bm m k) p))) /\
  (forall p, veq (c_nr x) (mapply (m_bm m 0) p) p) /\
  match m_b m with
  | None => True
  | Some (b, uc, ur) =>
      (forall k, mat_dims (c_nr x) (c_nc uc) (m_ie m k)) /\
      forall k u, veq (c_nr x) (mapply (m_ie m (S (S k))) u) (mapply (m_bm m 1) (mapply (m_ie m (S k)) u))
  end.
