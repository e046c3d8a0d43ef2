(** Model of hylaa/timerutil.py: the static class Timers and its TimerData objects.

    TimerData objects live in a heap (a list, object identity = index).  time.perf_counter() is an argument of
    tic and toc.  print_stats (output only, lines 146-219) and the never-called get_children_recursive are not modelled. *)
From Verif Require Import Base.
Open Scope nat_scope.

(** timerutil.py:15-26 TimerData.__init__ *)
Record tdata := mkTd {
  td_name : string;
  td_total : Q;
  td_calls : nat;
  td_start : option Q;
  td_parent : option nat;
  td_children : list nat
}.

(** timerutil.py:80-93: the class attributes top_level_timer and stack.  [t_stack] has the most recently
    started timer first (the Python list has it last). *)
Record timers := mkTimers {
  t_heap : list tdata;
  t_top : option nat;
  t_stack : list nat
}.

(** timerutil.py:90,92: values when the module is loaded. *)
Definition timers0 : timers := mkTimers [] None [].

Definition td0 : tdata := mkTd "" 0 0 None None [].
Definition tget (h : list tdata) (i : nat) : tdata := nth i h td0.
Fixpoint tset (h : list tdata) (i : nat) (d : tdata) : list tdata :=
  match h, i with
  | [], _ => []
  | _ :: h', 0 => d :: h'
  | x :: h', S i' => x :: tset h' i' d
  end.

(** timerutil.py:28-38 TimerData.get_child: the first child with that name. *)
Definition get_child (h : list tdata) (i : nat) (name : string) : option nat :=
  find (fun c => String.eqb (td_name (tget h c)) name) (td_children (tget h i)).

(** timerutil.py:62-71 TimerData.tic *)
Definition td_tic (d : tdata) (now : Q) : res tdata :=
  match td_start d with
  | Some _ => Err ERuntime
  | None => Ok (mkTd (td_name d) (td_total d) (S (td_calls d)) (Some now) (td_parent d) (td_children d))
  end.

(** timerutil.py:73-82 TimerData.toc *)
Definition td_toc (d : tdata) (now : Q) : res tdata :=
  match td_start d with
  | None => Err ERuntime
  | Some s => Ok (mkTd (td_name d) (td_total d + (now - s))%Q (td_calls d) None (td_parent d) (td_children d))
  end.

Definition add_child (d : tdata) (c : nat) : tdata :=
  mkTd (td_name d) (td_total d) (td_calls d) (td_start d) (td_parent d) (td_children d ++ [c]).

(** timerutil.py:97-102 Timers.reset; the old objects are no longer referenced by the class: the model drops them. *)
Definition timers_reset (t : timers) : timers := timers0.

(** timerutil.py:104-132 Timers.tic: lines 110-118 look the timer up (dropping a top level timer of another name), lines
    121-128 create it, 130-131 start and push it. *)
Definition tic_find (t : timers) (name : string) : option nat * option nat :=
  match t_stack t with
  | [] =>
      match t_top t with
      | Some i => if String.eqb (td_name (tget (t_heap t) i)) name then (Some i, t_top t) else (None, None)
      | None => (None, None)
      end
  | s :: _ => (get_child (t_heap t) s name, t_top t)
  end.

Definition timers_tic (t : timers) (name : string) (now : Q) : res timers :=
  let '(found, top) := tic_find t name in
  let '(h, top, i) :=
    match found with
    | Some i => (t_heap t, top, i)
    | None =>
        let i := List.length (t_heap t) in
        match t_stack t with
        | [] => (t_heap t ++ [mkTd name 0 0 None None []], Some i, i)
        | s :: _ =>
            (tset (t_heap t) s (add_child (tget (t_heap t) s) i) ++ [mkTd name 0 0 None (Some s) []], top, i)
        end
    end in
  do d <- td_tic (tget h i) now;
  Ok (mkTimers (tset h i d) top (i :: t_stack t)).

(** timerutil.py:134-144 Timers.toc; [stack[-1]] on the empty list is an IndexError, the assertion is line 140. *)
Definition timers_toc (t : timers) (name : string) (now : Q) : res timers :=
  match t_stack t with
  | [] => Err EIndex
  | s :: rest =>
      do _ <- assert (String.eqb (td_name (tget (t_heap t) s)) name);
      do d <- td_toc (tget (t_heap t) s) now;
      Ok (mkTimers (tset (t_heap t) s d) (t_top t) rest)
  end.

(** A call of the API, with the clock value it reads. *)
Inductive tcall := CTic (name : string) (now : Q) | CToc (name : string) (now : Q) | CReset.

Definition timers_call (t : timers) (c : tcall) : res timers :=
  match c with
  | CTic n now => timers_tic t n now
  | CToc n now => timers_toc t n now
  | CReset => Ok (timers_reset t)
  end.

(** A caller that does not catch exceptions: the first one ends the run. *)
Fixpoint timers_run (t : timers) (l : list tcall) : res timers :=
  match l with
  | [] => Ok t
  | c :: l' => do t' <- timers_call t c; timers_run t' l'
  end.

(** What a user reads off the timers after a run: the timer reached from the top level timer along a list of names
    (top level name first). *)
Fixpoint walk (h : list tdata) (i : nat) (p : list string) : option nat :=
  match p with
  | [] => Some i
  | n :: p' => match get_child h i n with Some c => walk h c p' | None => None end
  end.
Definition timer_at (t : timers) (p : list string) : option nat :=
  match t_top t, p with
  | Some i, n :: p' => if String.eqb (td_name (tget (t_heap t) i)) n then walk (t_heap t) i p' else None
  | _, _ => None
  end.
