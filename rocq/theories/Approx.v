(** Model of the approximation models, stateset.py:235-347.

    The mutation of the caller's LP objects by set_minimize_direction and the warning text are left out.  For APPROX_LGG the
    exponential is an oracle; lgg_beta (used by the later steps) is returned. *)
From Verif Require Import Base LpModel LpUtil Automaton StateSet.
Open Scope nat_scope.

Inductive approx := ApNone | ApChull | ApLgg.

Section WithSolver.
Variable solve : solver.

(** stateset.py:235-258 apply_approx_chull *)
Definition apply_approx_chull (a : ha) (s : sset) : res sset :=
  let md := get_mode a (ss_mode s) in
  do one <- clone (ss_lpi s);
  do one <- set_basis_matrix one (m_bm md 1);
  do one <- match m_b md with
            | None => Ok one
            | Some (_, uc, ur) => add_input_effects_matrix one (m_ie md 1) (ss_mode s) (m_dims md) uc ur
            end;
  do l <- aggregate_chull solve 1 [ss_lpi s; one] (ss_mode s) (has_inputs md);
  Ok (ss_with_lpi s l).

(** scipy.sparse.linalg.norm(ord=inf): the largest sum of absolute values of a row *)
Definition norm_inf (x : csr) : Q := fold_right (fun x y => if Qle_bool x y then y else x) 0%Q (map (fun r => fold_right Qplus 0%Q (map (fun e => Qabs (snd e)) r)) (c_rows x)).

Variable qexp : Q -> Q.      (* math.exp *)
Variable tau : Q.            (* time_elapse.step_size *)
(** math.exp(tau * a_norm) - 1 - tau * a_norm *)
Definition lgg_factor (n : Q) : Q := (qexp (tau * n) - 1 - tau * n)%Q.
(** stateset.py:260-326 apply_approx_lgg *)
Definition apply_approx_lgg (a : ha) (s : sset) : res (sset * option Q) :=
  let md := get_mode a (ss_mode s) in
  do x <- match m_a md with Some x => Ok x | None => Err EType end;
  let n := norm_inf x in
  do one <- clone (ss_lpi s);
  do one <- set_basis_matrix one (m_bm md 1);
  do rx <- compute_radius_inf solve (ss_lpi s);
  do r_x0 <- match rx with Some q => Ok q | None => Err EType end;
  do mr <- match m_b md with
           | None => Ok (one, 0%Q)
           | Some (b, uc, ur) =>
               do v <- from_input_constraints solve b uc ur (ss_mode s) (has_inputs md);
               do rv <- compute_radius_inf solve v;
               do r_v <- match rv with Some q => Ok q | None => Err EType end;
               do v1 <- scale_with_bm v tau;
               do ms <- minkowski_sum solve [one; v1] (ss_mode s) (has_inputs md);
               Ok (ms, r_v)
           end;
  let '(msum, r_v) := mr in
  let alpha := if Qlt_le_dec n (1 # 10000000) then 0%Q else (lgg_factor n * (r_x0 + r_v / n))%Q in
  do msum <- (if Qeq_bool alpha 0 then Ok msum else bloat msum alpha);
  do l <- aggregate_chull solve 1 [ss_lpi s; msum] (ss_mode s) (has_inputs md);
  if negb (Qle_bool n (1 # 10000000)) && has_inputs md then
    let beta := (lgg_factor n * (r_v / n))%Q in
    do _ <- assert (negb (Qle_bool beta (1 # 10000000)));
    do _ <- assert (negb (Qle_bool 100000 beta));
    Ok (ss_with_lpi s l, Some beta)
  else Ok (ss_with_lpi s l, None).

(** stateset.py:329-347 apply_approx_model *)
Definition apply_approx_model (m : approx) (a : ha) (s : sset) : res (sset * option Q) :=
  do _ <- assert (ss_step s =? 0);
  do _ <- assert (match m_a (get_mode a (ss_mode s)) with Some _ => true | None => false end);
  match m with
  | ApNone => Ok (s, None)
  | ApChull => do s' <- apply_approx_chull a s; Ok (s', None)
  | ApLgg => apply_approx_lgg a s
  end.
End WithSolver.
