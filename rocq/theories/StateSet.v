(** Model of hylaa/stateset.py: StateSet (constructor, step) and of Core.intersect_invariant (hylaa/core.py:163-198).

    Plotting attributes (_verts, xdim, step_to_paths, ...) are not modelled, nor lgg_beta (approximation models are in
    Approx.v). *)
From Verif Require Import Base LpModel LpUtil Automaton.
Open Scope nat_scope.

(** stateset.py:27-77.  [ss_ops] is aggdag_op_list: None stands for [None] of an initial state. *)
Record sset := mkSset {
  ss_mode : nat;
  ss_lpi : lp;
  ss_step : nat;                       (* cur_step_in_mode *)
  ss_lo : nat; ss_hi : nat;            (* cur_steps_since_start *)
  ss_conc : bool;                      (* is_concrete *)
  ss_ops : option (list nat);          (* aggdag_op_list, as ids of OpTransition objects *)
  ss_rows : list (option nat);         (* invariant_constraint_rows *)
  ss_bm : option mat;                  (* basis_matrix *)
  ss_ies : option (list mat);          (* input_effects_list *)
  ss_agg : option string }.            (* aggstring *)

Definition ss_with_lpi (s : sset) (l : lp) : sset :=
  mkSset (ss_mode s) l (ss_step s) (ss_lo s) (ss_hi s) (ss_conc s) (ss_ops s) (ss_rows s) (ss_bm s) (ss_ies s) (ss_agg s).
Definition ss_with_rows (s : sset) (r : list (option nat)) : sset :=
  mkSset (ss_mode s) (ss_lpi s) (ss_step s) (ss_lo s) (ss_hi s) (ss_conc s) (ss_ops s) r (ss_bm s) (ss_ies s) (ss_agg s).
Definition ss_with_agg (s : sset) (g : string) : sset :=
  mkSset (ss_mode s) (ss_lpi s) (ss_step s) (ss_lo s) (ss_hi s) (ss_conc s) (ss_ops s) (ss_rows s) (ss_bm s) (ss_ies s) (Some g).

(** np.allclose(a, b) for matrices of equal shape: |a - b| <= 1e-8 + 1e-5 |b| entrywise *)
Definition close (a b : Q) : bool := Qle_bool (Qabs (a - b)) ((1 # 100000000) + (1 # 100000) * Qabs b).
Definition allclose (A B : mat) : bool :=
  forallb (fun rr => forallb (fun ab => close (fst ab) (snd ab)) (combine (fst rr) (snd rr))) (combine A B).

(** stateset.py:27-77 __init__ *)
Definition new_stateset (a : ha) (l : lp) (m : nat) (lo hi : nat) (ops : option (list nat)) (conc : bool) : res sset :=
  let md := get_mode a m in
  do bm <- match m_a md with
           | None => Ok None
           | Some x =>
               do b <- get_basis_matrix l;
               if List.length b =? c_nr x then
                 if allclose b (ident (c_nr x)) then Ok (Some (ident (c_nr x))) else Err ERuntime
               else if (List.length b =? 1) || (c_nr x =? 1) then Err ERuntime      (* broadcasting against the identity *)
               else Err EValue
           end;
  Ok (mkSset m l 0 lo hi conc ops (repeat None (List.length (m_inv md))) bm
             (match m_b md with None => None | Some _ => Some [] end) None).

(** stateset.py:127-142: the input effects of the steps from, from+1, ..., one at a time *)
Fixpoint add_inputs (l : lp) (md : mode) (m : nat) (ies : list mat) (from count : nat) : res (lp * list mat) :=
  match count with
  | 0 => Ok (l, ies)
  | S c =>
      match m_b md with
      | None => Err EType
      | Some (_, uc, ur) =>
          do l1 <- add_input_effects_matrix l (m_ie md from) m (m_dims md) uc ur;
          add_inputs l1 md m (ies ++ [m_ie md from]) (S from) c
      end
  end.

(** stateset.py:102-149 step(step_in_mode) *)
Definition ss_step_to (a : ha) (s : sset) (k : nat) : res sset :=
  let md := get_mode a (ss_mode s) in
  do _ <- assert (ss_step s <=? k);
  let num := k - ss_step s in
  if num =? 0 then Ok s
  else
    match m_a md with
    | None => Err EType                                     (* mode.time_elapse is None for error modes *)
    | Some _ =>
        let bm := m_bm md k in
        do l <- set_basis_matrix (ss_lpi s) bm;
        do li <- match m_b md, ss_ies s with
                 | None, o => Ok (l, o)
                 | Some _, None => Err EType                (* None.append *)
                 | Some _, Some ies => do r <- add_inputs l md (ss_mode s) ies (S (ss_step s)) num; Ok (fst r, Some (snd r))
                 end;
        Ok (mkSset (ss_mode s) (fst li) k (ss_lo s + num) (ss_hi s + num) (ss_conc s) (ss_ops s) (ss_rows s) (Some bm) (snd li) (ss_agg s))
    end.
Definition ss_step1 (a : ha) (s : sset) : res sset := ss_step_to a s (S (ss_step s)).

Section WithSolver.
Variable solve : solver.

(** one invariant condition (core.py:170-188, and aggdag.py:487-528 during a replay): returns the state, the answer of
    check_intersection, and is_stronger *)
Definition inv_cond (s : sset) (i : nat) (c : lincon) : res (sset * option bool * bool) :=
  let n := lc_negate c in
  do r <- check_intersection solve (ss_lpi s) (lc_row n) (lc_w n) (lc_rhs n) tol13;
  let s1 := ss_with_lpi s (fst r) in
  match snd r with
  | Some true =>
      let vec := dense_of (lc_row c) (lc_w c) in
      let ies := match ss_ies s1 with None => [] | Some l => l end in
      match nth i (ss_rows s1) None with
      | None =>
          do li <- add_init_constraint (ss_lpi s1) vec (lc_rhs c) (ss_bm s1) ies None;
          Ok (ss_with_rows (ss_with_lpi s1 (fst li)) (upd_nth i (Some (snd li)) (ss_rows s1)), Some true, false)
      | Some old =>
          do lib <- try_replace_init_constraint solve (ss_lpi s1) old vec (lc_rhs c) (ss_bm s1) ies;
          let '(l, j, strong) := lib in
          Ok (ss_with_rows (ss_with_lpi s1 l) (upd_nth i (Some j) (ss_rows s1)), Some true, strong)
      end
  | o => Ok (s1, o, false)
  end.

(** core.py:163-198 intersect_invariant: returns the state, the (index, is_stronger) operations in order, is_feasible.
    check_intersection returning None (an empty set) is falsy, so the condition is skipped (core.py:171). *)
Fixpoint intersect_inv (s : sset) (i : nat) (cs : list lincon) : res (sset * list (nat * bool) * bool) :=
  match cs with
  | [] => Ok (s, [], true)
  | c :: cs' =>
      do r <- inv_cond s i c;
      let '(s1, o, strong) := r in
      match o with
      | Some true =>
          do f <- lp_is_feasible solve (ss_lpi s1);
          if (f : bool) then
            do r2 <- intersect_inv s1 (S i) cs';
            let '(s2, ops, ok) := r2 in Ok (s2, (i, strong) :: ops, ok)
          else Ok (s1, [(i, strong)], false)
      | _ => intersect_inv s1 (S i) cs'
      end
  end.
Definition intersect_invariant (a : ha) (s : sset) : res (sset * list (nat * bool) * bool) :=
  intersect_inv s 0 (m_inv (get_mode a (ss_mode s))).
End WithSolver.
