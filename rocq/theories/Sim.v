(** Model of the discrete-time simulation of Core (core.py:436-565) and of the lines that it stores in result.sim_lines.

    Not modelled: drawing, pausing and animation (with PLOT_IMAGE the loop is plotutil.py:967-980 run_to_completion), printing.
    One subplot; a stored point is the whole triple (mode, point, step number), of which the plot keeps the projection
    pt_to_plot_xy (Plot.v).  The random numbers are an argument. *)
From Verif Require Import Base LpModel LpUtil Automaton StateSet CoreModel.
Open Scope nat_scope.

(** core.py:48-49: the lists [mode, pt, num_steps] *)
Record sim := mkSim { sm_mode : nat; sm_pt : vec; sm_n : nat }.
(** core.py:47-52; [sc_lines]: plotutil.py:147 cur_sim_lines, [sc_done]: result.sim_lines *)
Record simcore := mkSc {
  sc_cur : option (list (option sim * bool));     (* sim_states together with sim_took_transition *)
  sc_wait : list sim;                             (* sim_waiting_list *)
  sc_try : bool;                                  (* sim_should_try_guards *)
  sc_lines : list (list sim);
  sc_done : list (list (list sim)) }.

Section Sim.
Variable cf : cfg.
Variable avoid : list string.           (* aggstrat.py:93 sim_avoid_modes *)
Variable a : ha.

(** aggstrat.py:158-178 get_simulation_pop_mode; [best] = (min_time_mode, min_time_steps) *)
Definition avoided (m : nat) : bool := existsb (String.eqb (m_name (get_mode a m))) avoid.
Fixpoint pop_scan (w : list sim) (best : option (nat * nat)) : option (nat * nat) :=
  match w with
  | [] => best
  | s :: w' =>
      if avoided (sm_mode s) then pop_scan w' best
      else pop_scan w' (match best with
                        | None => Some (sm_mode s, sm_n s)
                        | Some (_, k) => if sm_n s <? k then Some (sm_mode s, sm_n s) else best
                        end)
  end.
(** Unaggregated has no such method (aggstrat.py:74-75): AttributeError *)
Definition simulation_pop_mode (w : list sim) : res nat :=
  match cf_strat cf with
  | None => Err EType
  | Some _ => match pop_scan w None with
              | Some (m, _) => Ok m
              | None => match w with [] => Err EIndex | s :: _ => Ok (sm_mode s) end
              end
  end.

(** core.py:479-503 sim_pop_waiting_list.  time_elapse is None exactly for modes without dynamics (core.py:326-350); the input
    effects matrix is None exactly for modes without inputs (C18). *)
Definition sim_pop (c : simcore) : res simcore :=
  do m <- simulation_pop_mode (sc_wait c);
  do _ <- assert (match m_a (get_mode a m) with None => false | Some _ => true end);
  do _ <- assert (match m_b (get_mode a m) with None => true | Some _ => false end);
  let mine := filter (fun s => sm_mode s =? m) (sc_wait c) in
  let rest := filter (fun s => negb (sm_mode s =? m)) (sc_wait c) in
  Ok (mkSc (Some (map (fun s => (Some s, false)) mine)) rest (cf_urgent cf) (sc_lines c) (sc_done c)).

(** core.py:537-551: the first transition whose guard holds *)
Fixpoint first_enabled (p : vec) (ts : list nat) : res (option nat) :=
  match ts with
  | [] => Ok None
  | t :: ts' => do g <- is_guard_true_for_point (get_trans a t) p; if g then Ok (Some t) else first_enabled p ts'
  end.

(** core.py:520-561: the loop over the simulations of the mode; the current matrix is the one-step matrix of the mode (line 500).
    Returns the list, sim_should_try_guards, the waiting list and [finished]. *)
Fixpoint sim_loop (items : list (option sim * bool)) (try : bool) (wait : list sim) (fin : bool)
  : res (list (option sim * bool) * bool * list sim * bool) :=
  match items with
  | [] => Ok ([], try, wait, fin)
  | (None, tk) :: r =>
      do x <- sim_loop r try wait fin; let '(l, y, w, f) := x in Ok ((None, tk) :: l, y, w, f)
  | (Some s, tk) :: r =>
      if sm_n s =? cf_num cf then                                             (* 525-528 *)
        do x <- sim_loop r try wait fin; let '(l, y, w, f) := x in Ok ((None, tk) :: l, y, w, f)
      else if tk then                                                         (* 530-532 *)
        do x <- sim_loop r try wait fin; let '(l, y, w, f) := x in Ok ((None, tk) :: l, y, w, f)
      else
        do e <- (if try then first_enabled (sm_pt s) (out_trans a (sm_mode s)) else Ok None);
        match e with
        | Some t =>                                                           (* 541-551 *)
            do q <- apply_reset_for_point (get_trans a t) (sm_pt s);
            let w1 := if is_error (get_mode a (snd q)) then wait else wait ++ [mkSim (snd q) (fst q) (sm_n s)] in
            do x <- sim_loop r try w1 false;
            let '(l, y, w, f) := x in Ok ((Some (mkSim (sm_mode s) (fst q) (sm_n s)), true) :: l, y, w, f)
        | None =>
            if negb (point_in_invariant (get_mode a (sm_mode s)) (sm_pt s)) then   (* 557-560 *)
              do x <- sim_loop r try wait fin; let '(l, y, w, f) := x in Ok ((None, tk) :: l, y, w, f)
            else
              do x <- sim_loop r true wait false;
              let '(l, y, w, f) := x in
              Ok ((Some (mkSim (sm_mode s) (mapply (m_bm (get_mode a (sm_mode s)) 1) (sm_pt s)) (S (sm_n s))), tk) :: l, y, w, f)
        end
  end.

(** core.py:505-574 do_step_sim; plotutil.py:642-656, 238-271 commit_cur_sims *)
Definition do_step_sim (c : simcore) : res simcore :=
  match sc_cur c with
  | None => match sc_wait c with [] => Ok c | _ => sim_pop c end
  | Some [] => match sc_wait c with [] => Ok c | _ => sim_pop c end
  | Some items =>
      do x <- sim_loop items (sc_try c) (sc_wait c) true;
      let '(l, y, w, f) := x in
      if f then Ok (mkSc None w y [] (sc_done c ++ [sc_lines c])) else Ok (mkSc (Some l) w y (sc_lines c) (sc_done c))
  end.

(** plotutil.py:616-640, 273-303: append the current points to the lines *)
Fixpoint add_points (lines : list (list sim)) (items : list (option sim * bool)) : list (list sim) :=
  match lines, items with
  | l :: lines', (o, _) :: items' => (match o with None => l | Some s => l ++ [s] end) :: add_points lines' items'
  | _, _ => lines
  end.
Definition plot_current_sim (c : simcore) : simcore :=
  match sc_cur c with
  | None => c
  | Some [] => c
  | Some items =>
      let lines := match sc_lines c with [] => repeat [] (List.length items) | l => l end in
      mkSc (sc_cur c) (sc_wait c) (sc_try c) (add_points lines items) (sc_done c)
  end.

(** core.py:86-87 *)
Definition sim_finished (c : simcore) : bool :=
  match sc_cur c with None | Some [] => match sc_wait c with [] => true | _ => false end | _ => false end.

(** plotutil.py:967-980 run_to_completion; None: out of fuel *)
Fixpoint sim_run (fuel : nat) (c : simcore) : option (res simcore) :=
  if sim_finished c then Some (Ok c)
  else match fuel with
       | O => None
       | S f => match do_step_sim c with
                | Ok c' => sim_run f (plot_current_sim c')
                | Err e => Some (Err e)
                end
       end.

(** core.py:470: a random point of the box *)
Definition sample (box : list (Q * Q)) (r : list Q) : vec :=
  fun i => (fst (nth i box (0, 0)) + nth i r 0 * (snd (nth i box (0, 0)) - fst (nth i box (0, 0))))%Q.
End Sim.

(** core.py:436-477 simulate, with num_sims = (skip, length rands) *)
Definition simulate (cf : cfg) (avoid : list string) (a0 : ha) (init_mode : nat) (box : list (Q * Q)) (skip : nat) (rands : list (list Q)) (fuel : nat) : option (res simcore) :=
  match setup_ha cf a0 with
  | Err e => Some (Err e)
  | Ok a =>
      match m_a (get_mode a init_mode) with
      | None => Some (Err EType)                                    (* None.shape *)
      | Some x =>
          if List.length box =? c_nr x then
            sim_run cf avoid a fuel (mkSc None (map (fun r => mkSim init_mode (sample box r) 0) (skipn skip rands)) false [] [])
          else Some (Err EAssert)
      end
  end.
