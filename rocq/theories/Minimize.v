(** Model of the retry logic of lpinstance.py:540-600 (minimize) and 659-716 (_process_simplex_result) against a solver whose
    calls may answer differently each time, with the Timers.tic / toc calls and basis resets it makes.

    LpModel.minimize is the same function for a solver that answers a given LP always alike (proved in Prop_Util.v).
    Not modelled: printing, the solver parameters (time limits), the text of the error messages. *)
From Verif Require Import Base LpModel.
Open Scope nat_scope.

(** One glp_simplex call followed by glp_get_status and glp_get_col_prim. *)
Record answer := mkAns { an_code : nat; an_status : nat; an_prim : vec }.

(** glpk.h constants *)
Definition GLP_ESING := 2.
Definition GLP_ENOPFS := 10.
Definition GLP_NOFEAS := 4.
Definition GLP_OPT := 5.
Definition GLP_UNBND := 6.

(** What minimize does to the outside, in order. *)
Inductive mev :=
| MTic (name : string)
| MToc (name : string)
| MSimplex               (* glp_simplex *)
| MStdBasis              (* glp_std_basis *)
| MCpxBasis              (* glp_cpx_basis *)
| MSetDir.               (* the objective is replaced *)

Definition calls (tr : list mev) : nat := List.length (filter (fun e => match e with MSimplex => true | _ => false end) tr).

Section Min.
(** [ans k]: the answer to the (k+1)-th glp_simplex call; [nc]: number of columns of the LP;
    [dir]: None when direction_vec is None, otherwise whether set_minimize_direction passes its assertions. *)
Variable ans : nat -> answer.
Variable nc : nat.
Variable dir : option bool.

(** lpinstance.py:659-716 _process_simplex_result *)
Definition process_result (a : answer) (columns : option (list nat)) : res (option (list Q)) :=
  if an_code a =? GLP_ENOPFS then Ok None
  else if negb (an_code a =? 0) then Err ERuntime
  else if an_status a =? GLP_NOFEAS then Ok None
  else if an_status a =? GLP_OPT then
    let cols := match columns with None => seq 0 nc | Some c => c end in
    do _ <- assert (forallb (fun c => c <? nc) cols);
    Ok (Some (map (an_prim a) cols))
  else Err ERuntime.

(** lpinstance.py:553-586: one attempt; [tr] is the trace so far, the result is the new trace with the outcome. *)
Definition attempt (tr : list mev) (columns : option (list nat)) : list mev * res (option (list Q)) :=
  let tr := (tr ++ [MTic "minimize"%string])%list in
  match dir with
  | Some false => ((tr ++ [MTic "set_minimize_direction"%string])%list, Err EAssert)
  | _ =>
      let tr := match dir with
                | Some _ => (tr ++ [MTic "set_minimize_direction"%string; MSetDir; MToc "set_minimize_direction"%string])%list
                | None => tr
                end in
      let a1 := ans (calls tr) in
      let tr := (tr ++ [MTic "glp_simplex"%string; MSimplex; MToc "glp_simplex"%string])%list in
      let '(tr, a) :=
        if an_code a1 =? 0 then (tr, a1)
        else
          let '(tr, a2) :=
            if an_code a1 =? GLP_ESING then
              let tr := (tr ++ [MStdBasis])%list in ((tr ++ [MSimplex])%list, ans (calls tr))
            else (tr, a1) in
          if an_code a2 =? 0 then (tr, a2)
          else let tr := (tr ++ [MCpxBasis])%list in ((tr ++ [MSimplex])%list, ans (calls tr)) in
      match process_result a columns with
      | Ok r => ((tr ++ [MToc "minimize"%string])%list, Ok r)
      | Err e => (tr, Err e)
      end
  end.

(** lpinstance.py:540-600 minimize; the recursive call of line 592 has fail_on_unsat=False. *)
Definition minimize_g (columns : option (list nat)) (fail_on_unsat : bool) : list mev * res (option (list Q)) :=
  match attempt [] columns with
  | (tr, Ok None) =>
      if fail_on_unsat then
        match attempt (tr ++ [MCpxBasis])%list columns with
        | (tr, Ok None) => (tr, Err EUnsat)
        | other => other
        end
      else (tr, Ok None)
  | other => other
  end.

End Min.

(** The Timers calls of a trace. *)
Definition timer_events (tr : list mev) : list (bool * string) :=
  flat_map (fun e => match e with MTic n => [(true, n)] | MToc n => [(false, n)] | _ => [] end) tr.
