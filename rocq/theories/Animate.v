(** How the analysis is driven when it is plotted: PlotManager's animation loop, its pauses and its buttons. *)
From Verif Require Import Base LpModel LpUtil Automaton StateSet CoreModel.
Open Scope nat_scope.

(** settings.py:56-60 PLOT_NONE, PLOT_LIVE, PLOT_INTERACTIVE, PLOT_IMAGE, PLOT_VIDEO *)
Inductive plot_mode : Set := PlotNone | PlotLive | PlotInteractive | PlotImage | PlotVideo.

(** settings.py:85-105 draw_stride, video_extra_frames, video_pause_frames (interactive_skip_count changes: in [anim]) *)
Record aset := mkAset { as_mode : plot_mode; as_stride : nat; as_pause : Z; as_extra : nat }.

(** plotutil.py:40-47 InteractiveState (paused, step), plotutil.py:388 pause_frames, settings.interactive_skip_count,
    plotutil.py:386 num_frames_drawn; [an_tick] counts the calls of the plotting oracle. *)
Record anim := mkAnim { an_core : core; an_paused : bool; an_step : bool; an_pf : option Z; an_skip : Z; an_drawn : nat; an_tick : nat }.
Definition anim0 (c : core) (skip : Z) : anim := mkAnim c false false None skip 0 0.
Definition an_with_core (s : anim) (c : core) : anim := mkAnim c (an_paused s) (an_step s) (an_pf s) (an_skip s) (an_drawn s) (an_tick s).

(** plotutil.py:397-401 pause *)
Definition pause (s : anim) : anim := mkAnim (an_core s) true false (an_pf s) (an_skip s) (an_drawn s) (an_tick s).

Section Anim.
Variable solve : solver.
Variable arnoldi : nat -> option (list Q) -> csr -> option csr -> nat -> list (list Q).
Variable cf : cfg.
Variable a : ha.
Variable st : aset.
(** What drawing does to the analysis: stateset.py:151-189 verts calls lpplot.get_verts (lpplot.py:38-167), whose only lasting
    effect on a state set is lpi.set_minimize_direction, i.e. a new objective.  The oracle says for which state sets of the
    heap and which objective, for the n-th drawing; drawing may also raise. *)
Variable paint : nat -> core -> res (list (nat * srow)).
Definition paint1 (c : core) (p : nat * srow) : core := setS c (fst p) (ss_with_lpi (getS c (fst p)) (with_obj (ss_lpi (getS c (fst p))) (snd p))).
Definition draw (s : anim) : res anim :=
  do ps <- paint (an_tick s) (an_core s);
  Ok (mkAnim (fold_left paint1 ps (an_core s)) (an_paused s) (an_step s) (an_pf s) (an_skip s) (an_drawn s) (S (an_tick s))).

(** Does core.do_step() call plotman.pause()?  core.py:282 (every pop) and deaggregation.py:90 (the start of a replay). *)
Definition step_pauses (c : core) : bool :=
  negb (is_finished cf c) &&
  match cur_state c with
  | Some _ => false
  | None => if doing_replay c then match c_rep c with None => true | Some _ => false end else true
  end.
(** core.py:286-292 do_step, with what it does to the plot.  Simplification: the drawing inside a replay step
    (deaggregation.py:54-77, before new nodes are made from other state sets) is put at the end of the step. *)
Definition plot_step (s : anim) : res anim :=
  do c <- do_step solve arnoldi cf a (an_core s);
  draw (an_with_core (if step_pauses (an_core s) then pause s else s) c).

Definition pausable : bool := match as_mode st with PlotInteractive | PlotVideo => true | _ => false end.
(** plotutil.py:803-813: for _ in range(draw_stride) *)
Fixpoint frame_steps (n : nat) (s : anim) : res anim :=
  match n with
  | 0 => Ok s
  | S n' =>
      do s1 <- plot_step s;
      if (an_step s1 || an_paused s1) && pausable then Ok (pause s1) else frame_steps n' s1
  end.
(** plotutil.py:773-843 anim_func *)
Definition anim_func (s : anim) : res anim :=
  match as_mode st, an_paused s with
  | PlotInteractive, true =>
      Ok (if (0 <? an_skip s)%Z then mkAnim (an_core s) false (an_step s) (an_pf s) (an_skip s - 1)%Z (an_drawn s) (an_tick s) else s)
  | PlotVideo, true =>
      Ok match an_pf s with
         | None => mkAnim (an_core s) true (an_step s) (Some (as_pause st)) (an_skip s) (an_drawn s) (an_tick s)
         | Some n => if (n - 1 <=? 0)%Z then mkAnim (an_core s) false (an_step s) None (an_skip s) (an_drawn s) (an_tick s)
                     else mkAnim (an_core s) true (an_step s) (Some (n - 1)%Z) (an_skip s) (an_drawn s) (an_tick s)
         end
  | _, _ =>
      do s1 <- frame_steps (as_stride st) s;
      do s2 <- (match cur_state (an_core s1) with Some _ => draw s1 | None => Ok s1 end);     (* plot_current_state *)
      Ok (mkAnim (an_core s2) (an_paused s2) (an_step s2) (an_pf s2) (an_skip s2) (S (an_drawn s2)) (an_tick s2))
  end.

(** what happens in an open window: the timer asks for a frame (plotutil.py:859-878: the iterator yields one while the
    computation is not finished), or the user presses Next or Step (plotutil.py:883-899) *)
Inductive event : Set := Frame | Next | Step.
Definition handle (s : anim) (e : event) : res anim :=
  match e with
  | Frame => if is_finished cf (an_core s) then Ok s else anim_func s
  | Next => Ok (mkAnim (an_core s) false (an_step s) (an_pf s) (an_skip s) (an_drawn s) (an_tick s))
  | Step => Ok (mkAnim (an_core s) false true (an_pf s) (an_skip s) (an_drawn s) (an_tick s))
  end.
(** the events until the window is closed *)
Fixpoint window (s : anim) (es : list event) : res anim :=
  match es with
  | [] => Ok s
  | e :: r => do s1 <- handle s e; window s1 r
  end.

(** plotutil.py:967-985 run_to_completion *)
Fixpoint plot_loop (fuel : nat) (s : anim) : option (res anim) :=
  if is_finished cf (an_core s) then Some (Ok s)
  else match fuel with
       | 0 => None
       | S f => match (do s1 <- plot_step s; match cur_state (an_core s1) with Some _ => draw s1 | None => Ok s1 end) with
                | Ok s1 => plot_loop f s1
                | Err e => Some (Err e)
                end
       end.
(** plotutil.py:859-878 anim_iterator in a video, consumed by at most [n] frames (save_count), then plotutil.py:987-996 save_video *)
Fixpoint video_frames (n : nat) (s : anim) : res (anim * nat) :=
  if is_finished cf (an_core s) then Ok (s, n)
  else match n with
       | 0 => Ok (s, 0)
       | S n' => do s1 <- anim_func s; video_frames n' s1
       end.
Fixpoint extra_frames (n : nat) (s : anim) : res anim :=
  match n with
  | 0 => Ok s
  | S n' => do s1 <- anim_func s; extra_frames n' s1
  end.
Definition save_video (frames : nat) (s : anim) : res anim :=
  do r <- video_frames frames s;
  do s1 <- extra_frames (Nat.min (as_extra st) (snd r)) (fst r);
  if is_finished cf (an_core s1) then Ok s1 else Err ERuntime.

(** plotutil.py:880-965 compute_and_animate and core.py:404-413: which of them runs.  [es]: what happens in the window. *)
Definition animate (s : anim) (es : list event) (fuel : nat) : option (res anim) :=
  match as_mode st with
  | PlotNone | PlotImage => plot_loop fuel s
  | PlotVideo => Some (save_video fuel s)
  | PlotLive => Some (window s es)
  | PlotInteractive => Some (window (mkAnim (an_core s) false true (an_pf s) (an_skip s) (an_drawn s) (an_tick s)) es)
  end.
End Anim.

(** core.py:388-434 run with a plot: the final state of the computation *)
Definition plotted_run (solve : solver) (arnoldi : nat -> option (list Q) -> csr -> option csr -> nat -> list (list Q)) (cf : cfg) (a0 : ha)
    (inits : list sset) (st : aset) (skip : Z) (paint : nat -> core -> res (list (nat * srow))) (es : list event) (fuel : nat) : option (res core) :=
  match (do _ <- assert (negb (List.length inits =? 0)); setup_ha cf a0) with
  | Err e => Some (Err e)
  | Ok a =>
      match setup solve a inits with
      | Err e => Some (Err e)
      | Ok c =>
          match animate solve arnoldi cf a st paint (anim0 c skip) es fuel with
          | None => None
          | Some (Err e) => Some (Err e)
          | Some (Ok s) => Some (Ok (an_core s))
          end
      end
  end.
