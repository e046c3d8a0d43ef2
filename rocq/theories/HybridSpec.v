(** Specification: discrete-time executions of a hybrid automaton.

    Only the data of the automaton (Automaton.v records) is mentioned, no function of the analysis. *)
From Verif Require Import Base LpModel LpSpec SetSpec Automaton.
Open Scope nat_scope.

(** the invariant of a mode holds at p, each condition relaxed by less than [lax] (lax = 0: exactly) *)
Definition inv_ok (lax : Q) (m : mode) (p : vec) : Prop :=
  forall c, In c (m_inv m) -> (reval (lc_row c) p <= lc_rhs c \/ reval (lc_row c) p < lc_rhs c + lax)%Q.

Definition guard_ok (t : trans) (p : vec) : Prop :=
  match t_guard t with Some (g, rhs) => poly (c_rows g) rhs p | None => False end.

(** admissible inputs *)
Definition input_ok (m : mode) (u : vec) : Prop :=
  match m_b m with Some (_, uc, ur) => poly (c_rows uc) ur u | None => True end.

(** one time step: p' = E p + B1 u, E = expm(A h), B1 the effect of a constant input during one step *)
Definition one_step (m : mode) (p u p' : vec) : Prop :=
  forall i, i < m_dims m ->
    (p' i == mapply (m_bm m 1) p i + match m_b m with Some _ => mapply (m_ie m 1) u i | None => 0 end)%Q.

(** j time steps with admissible inputs *)
Fixpoint flow (m : mode) (j : nat) (p p' : vec) : Prop :=
  match j with
  | 0 => veq (m_dims m) p p'
  | S j' => exists q u, flow m j' p q /\ input_ok m u /\ one_step m q u p'
  end.

(** dimension after a transition *)
Definition post_dims (a : ha) (t : trans) : nat :=
  match t_reset t with Some r => c_nr r | None => m_dims (get_mode a (t_from t)) end.

(** x' = R x + M y, C y <= rhs *)
Definition reset_ok (a : ha) (t : trans) (p p' : vec) : Prop := reset_image (post_dims a t) (t_reset t) (t_mink t) p p'.

(** [ru_urgent]: transitions may be taken immediately; [ru_bound]: bound on the total number of time steps; [ru_cap m]: at most one time
    step is made in mode m; [ru_strict]: transitions are only taken inside the invariant of the mode they leave. *)
Record rules := mkRules { ru_urgent : bool; ru_bound : nat; ru_cap : nat -> bool; ru_strict : bool }.

(** A transition can be taken after at least one time step in the mode; with urgent transitions also immediately, then
    inside the invariant.  With strict rules only inside the invariant. *)
Definition may_jump (lax : Q) (ru : rules) (m : mode) (p : vec) (k : nat) : Prop :=
  (0 < k \/ (ru_urgent ru = true /\ inv_ok lax m p)) /\ (ru_strict ru = true -> inv_ok lax m p).

(** [reach lax ru a init m p k n]: state p of mode m is reached after k time steps in the mode, n in total, at most
    [ru_bound] in total.  [ru_cap m = true]: at most one time step is made in mode m. *)
Inductive reach (lax : Q) (ru : rules) (a : ha) (init : nat -> vec -> Prop) : nat -> vec -> nat -> nat -> Prop :=
| R_init m p : init m p -> inv_ok lax (get_mode a m) p -> reach lax ru a init m p 0 0
| R_step m p k n u p' :
    reach lax ru a init m p k n -> inv_ok lax (get_mode a m) p -> n < ru_bound ru -> (ru_cap ru m = true -> k = 0) ->
    input_ok (get_mode a m) u -> one_step (get_mode a m) p u p' ->
    reach lax ru a init m p' (S k) (S n)
| R_jump t p p' k n :
    t < List.length (ha_trans a) ->
    reach lax ru a init (t_from (get_trans a t)) p k n -> guard_ok (get_trans a t) p ->
    may_jump lax ru (get_mode a (t_from (get_trans a t))) p k -> reset_ok a (get_trans a t) p p' ->
    reach lax ru a init (t_to (get_trans a t)) p' 0 n.

(** an error mode can be entered *)
Definition error_reachable (lax : Q) (ru : rules) (a : ha) (init : nat -> vec -> Prop) : Prop :=
  exists t p k n, t < List.length (ha_trans a) /\ is_error (get_mode a (t_to (get_trans a t))) = true /\
    reach lax ru a init (t_from (get_trans a t)) p k n /\ guard_ok (get_trans a t) p /\
    may_jump lax ru (get_mode a (t_from (get_trans a t))) p k.

(** Shapes that fit together, what set_dynamics / set_invariant / set_inputs / set_guard / set_reset check, and the contract
    of the external matrix exponential (C18: what get_basis_matrix returns). *)
Record wf_mode (m : mode) (x : csr) : Prop := {
  wfm_pos : 0 < c_nr x;
  wfm_inv : forall c, In c (m_inv m) -> lc_w c = c_nr x /\ row_cols_lt (c_nr x) (lc_row c);
  wfm_bm : forall k, mat_dims (c_nr x) (c_nr x) (m_bm m k) /\
             forall p, veq (c_nr x) (mapply (m_bm m (S k)) p) (mapply (m_bm m 1) (mapply (m_bm m k) p));
  wfm_bm0 : forall p, veq (c_nr x) (mapply (m_bm m 0) p) p;
  wfm_ie : match m_b m with
           | None => True
           | Some (b, uc, ur) =>
               csr_ok uc /\ c_nr uc = List.length ur /\ c_nc uc = c_nc b /\
               (forall k, mat_dims (c_nr x) (c_nc uc) (m_ie m k)) /\
               forall k u, veq (c_nr x) (mapply (m_ie m (S (S k))) u) (mapply (m_bm m 1) (mapply (m_ie m (S k)) u))
           end }.

Record wf_trans (a : ha) (t : trans) : Prop := {
  wft_from : t_from t < List.length (ha_modes a) /\ is_error (get_mode a (t_from t)) = false;
  wft_to : t_to t < List.length (ha_modes a);
  wft_guard : exists g rhs, t_guard t = Some (g, rhs) /\ csr_ok g /\ c_nr g = List.length rhs /\
                Forall (row_cols_lt (m_dims (get_mode a (t_from t)))) (c_rows g);
  wft_reset : opt_csr_ok (t_reset t) /\ (forall r, t_reset t = Some r -> c_nc r = m_dims (get_mode a (t_from t)) /\ 0 < c_nr r);
  wft_mink : mink_ok (t_mink t) /\ (t_reset t = None -> t_mink t = None);
  wft_dims : is_error (get_mode a (t_to t)) = false -> post_dims a t = m_dims (get_mode a (t_to t)) }.

Definition wf_ha (a : ha) : Prop :=
  (forall i, i < List.length (ha_modes a) ->
     match m_a (get_mode a i) with Some x => wf_mode (get_mode a i) x | None => m_inv (get_mode a i) = [] end) /\
  (forall t, t < List.length (ha_trans a) -> wf_trans a (get_trans a t)).
