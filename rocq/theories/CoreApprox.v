(** Model of the analysis with an approximation model: core.py:250-284 do_step_pop calls cur_state.apply_approx_model on every state
    removed from the waiting list (after the invariant was intersected), everything else is CoreModel.v.  For APPROX_LGG the later steps of a
    state with lgg_beta set are not modelled here (see Lgg.v); the theorems use ApNone, ApChull, and ApLgg for automata without inputs, where lgg_beta is never set. *)
From Verif Require Import Base LpModel LpUtil Automaton StateSet CoreModel Approx.
Open Scope nat_scope.

Section WithSolver.
Variable solve : solver.
Variable arnoldi : nat -> option (list Q) -> csr -> option csr -> nat -> list (list Q).
Variable cf : cfg.
Variable a : ha.
(** cur_state.apply_approx_model(settings.approx_model) *)
Variable ap : sset -> res sset.

(** core.py:250-284 do_step_pop *)
Definition do_step_pop_ap (c : core) : res core :=
  do r <- pop_waiting_list solve arnoldi cf a c;
  let '(c, nid) := r in
  let sid := n_state (getN c nid) in
  if is_error (get_mode a (ss_mode (getS c sid))) then Ok (left_invariant c nid sid false)
  else
    do r <- intersect_state solve a c nid sid;
    let '(c, ok) := r in
    if (ok : bool) then do s <- ap (getS c sid); Ok (setS c sid s)
    else Ok (left_invariant c nid sid false).

(** core.py:286-323 do_step_reach *)
Definition do_step_ap (c : core) : res core :=
  if is_finished cf c then Ok c
  else
    match cur_state c with
    | Some (nid, sid) => do c <- continuous_post solve cf a c nid sid; Ok (with_csteps c (S (c_csteps c)))
    | None =>
        if doing_replay c then do_step_replay solve arnoldi cf a c
        else
          do dn <- get_deagg_node cf a c;
          match dn with
          | Some n => do c <- begin_replay solve arnoldi a c n; do_step_replay solve arnoldi cf a c
          | None =>
              do c <- do_step_pop_ap c;
              match cur_state c with
              | Some (nid, sid) => if cf_urgent cf then check_guards solve cf a c nid sid else Ok c
              | None => Ok c
              end
          end
    end.

(** plotutil.py:331-345 run_to_completion *)
Fixpoint run_loop_ap (fuel : nat) (c : core) : option (res core) :=
  if is_finished cf c then Some (Ok c)
  else match fuel with
       | 0 => None
       | S f => match do_step_ap c with Ok c1 => run_loop_ap f c1 | Err e => Some (Err e) end
       end.
End WithSolver.

(** stateset.py:329-347 apply_approx_model of the analysis (lgg_beta dropped) *)
Definition approx_of (solve : solver) (qexp : Q -> Q) (tau : Q) (m : approx) (a : ha) (s : sset) : res sset :=
  do r <- apply_approx_model solve qexp tau m a s; Ok (fst r).

(** core.py:388-434 run *)
Definition run_ap (solve : solver) (arnoldi : nat -> option (list Q) -> csr -> option csr -> nat -> list (list Q)) (qexp : Q -> Q) (m : approx) (cf : cfg) (a0 : ha)
    (inits : list sset) (fuel : nat) : option (res core) :=
  match (do _ <- assert (negb (List.length inits =? 0)); setup_ha cf a0) with
  | Err e => Some (Err e)
  | Ok a =>
      match setup solve a inits with
      | Err e => Some (Err e)
      | Ok c => run_loop_ap solve arnoldi cf a (approx_of solve qexp (cf_step cf) m a) fuel c
      end
  end.
