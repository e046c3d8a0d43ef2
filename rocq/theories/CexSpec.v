(** Specification: what the names of LP columns mean, and counter-examples as executions.

    Columns are described by a type, [col_name] is the documented format of the names (lputil.py:125-141, 239, 721-728); the
    second part says when a list of counter-example segments is an execution of an automaton.  No function of the analysis is
    used, only the records of Automaton.v and CoreModel.v ([seg], result.py:120-133). *)
From Verif Require Import Base LpModel LpSpec SetSpec Automaton HybridSpec CoreModel.
From Coq Require Import String DecimalString.
Open Scope nat_scope.

(** ** columns *)
Inductive col : Set :=
| CInit (mode k : nat)           (* variable k at the start of the mode (initial mode, or k > 0) *)
| CEntry (mode trans : nat)      (* variable 0 at the start of a mode entered by outgoing transition [trans] of the previous mode *)
| CCur (mode k : nat)            (* variable k at the end *)
| CAcc (mode k : nat)            (* accumulated input effects *)
| CInp (mode k : nat)            (* input k of one time step *)
| CMink (k : nat).               (* Minkowski variable k of the reset *)
Definition num (n : nat) : string := NilEmpty.string_of_uint (Nat.to_uint n).
Definition col_name (c : col) : string := match c with
  | CInit m k => "m" ++ num m ++ "_i" ++ num k
  | CEntry m t => "m" ++ num m ++ "_i0_t" ++ num t
  | CCur m k => "m" ++ num m ++ "_c" ++ num k
  | CAcc m k => "m" ++ num m ++ "_ti" ++ num k
  | CInp m k => "m" ++ num m ++ "_I" ++ num k
  | CMink k => "reset" ++ num k
  end%string.

(** ** executions *)
(** x' = R x + M y, C y <= rhs, with the given y *)
Definition reset_with (a : ha) (t : trans) (p y p' : vec) : Prop :=
  (match t_mink t with Some (_, C, d) => poly (c_rows C) d y | None => True end) /\
  forall i, i < post_dims a t ->
    (p' i == match t_reset t with Some R => reval (nth i (c_rows R) []) p | None => p i end
           + match t_mink t with Some (M, _, _) => reval (nth i (c_rows M) []) y | None => 0 end)%Q.

(** k time steps inside the mode from [start] to [end], with the listed inputs (first one first), the invariant holding (up to
    lax) before every step *)
Definition seg_moves (lax : Q) (a : ha) (s : seg) : Prop :=
  let m := get_mode a (sg_mode s) in
  (match m_b m with None => sg_inputs s = [] | Some (_, uc, _) => c_nc uc = 0 \/ List.length (sg_inputs s) = sg_steps s end) /\
  exists traj : nat -> vec,
    veq (m_dims m) (traj 0) (of_list (sg_start s)) /\
    veq (m_dims m) (traj (sg_steps s)) (of_list (sg_end s)) /\
    forall j, j < sg_steps s ->
      inv_ok lax m (traj j) /\ input_ok m (of_list (nth j (sg_inputs s) [])) /\
      one_step m (traj j) (of_list (nth j (sg_inputs s) [])) (traj (S j)).

(** a segment leaves its mode by transition t: the guard holds at its end, after at least one step unless urgent *)
Definition seg_leaves (lax : Q) (urgent : bool) (a : ha) (s : seg) (t : nat) : Prop :=
  sg_mode s < List.length (ha_modes a) /\ seg_moves lax a s /\
  sg_trans s = Some t /\ t < List.length (ha_trans a) /\ t_from (get_trans a t) = sg_mode s /\
  guard_ok (get_trans a t) (of_list (sg_end s)) /\
  (0 < sg_steps s \/ (urgent = true /\ inv_ok lax (get_mode a (sg_mode s)) (of_list (sg_end s)))).

(** the segments follow each other through the resets, the last one enters an error mode *)
Inductive cex_chain (lax : Q) (urgent : bool) (a : ha) : list seg -> Prop :=
| CC_last s t : seg_leaves lax urgent a s t -> is_error (get_mode a (t_to (get_trans a t))) = true -> cex_chain lax urgent a [s]
| CC_cons s t s' ce : seg_leaves lax urgent a s t -> sg_mode s' = t_to (get_trans a t) ->
    reset_with a (get_trans a t) (of_list (sg_end s)) (of_list (sg_mink s)) (of_list (sg_start s')) ->
    cex_chain lax urgent a (s' :: ce) -> cex_chain lax urgent a (s :: s' :: ce).

Definition total_steps (ce : list seg) : nat := list_sum (map sg_steps ce).

(** a counter-example: starts in an initial point inside the invariant, ends by entering an error mode, within the bound *)
Definition is_counterexample (lax : Q) (urgent : bool) (bound : nat) (a : ha) (init : nat -> vec -> Prop) (ce : list seg) : Prop :=
  cex_chain lax urgent a ce /\ total_steps ce <= bound /\
  exists s r, ce = s :: r /\ init (sg_mode s) (of_list (sg_start s)) /\ inv_ok lax (get_mode a (sg_mode s)) (of_list (sg_start s)).
