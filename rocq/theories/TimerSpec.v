(** What Timers.tic / Timers.toc should do, without objects: a log of calls and seconds for every path of timer names. *)
From Verif Require Import Base Timers.
Open Scope nat_scope.

(** A path is the list of names from the top level timer down. *)
Record tspec := mkTs {
  ts_top : option string;            (* name of the top level timer *)
  ts_open : list (string * Q);       (* running timers, innermost first, with the time each was started *)
  ts_calls : list string -> nat;     (* starts of the timer at a path *)
  ts_secs : list string -> Q         (* seconds of its completed runs *)
}.

Definition ts0 : tspec := mkTs None [] (fun _ => 0) (fun _ => 0%Q).
Definition open_path (l : list (string * Q)) : list string := rev (map fst l).
Definition path_eqb (p q : list string) : bool := if list_eq_dec string_dec p q then true else false.
Definition bump {A} (f : list string -> A) (p : list string) (g : A -> A) : list string -> A :=
  fun q => if path_eqb q p then g (f q) else f q.

(** [None]: the call is out of order. *)
Definition ts_call (s : tspec) (c : tcall) : option tspec :=
  match c with
  | CReset => Some ts0
  | CTic n now =>
      let s := match ts_open s, ts_top s with
               | [], Some m => if String.eqb m n then s else ts0   (* a new top level name starts a new log *)
               | _, _ => s
               end in
      let o := (n, now) :: ts_open s in
      Some (mkTs (match ts_top s with Some m => Some m | None => Some n end) o
                 (bump (ts_calls s) (open_path o) S) (ts_secs s))
  | CToc n now =>
      match ts_open s with
      | (m, start) :: rest =>
          if String.eqb m n
          then Some (mkTs (ts_top s) rest (ts_calls s) (bump (ts_secs s) (open_path (ts_open s)) (fun v => v + (now - start))%Q))
          else None
      | [] => None
      end
  end.

Fixpoint ts_run (s : tspec) (l : list tcall) : option tspec :=
  match l with
  | [] => Some s
  | c :: l' => match ts_call s c with Some s' => ts_run s' l' | None => None end
  end.

(** Well nested call sequences. *)
Inductive nested : list tcall -> Prop :=
| nested_nil : nested []
| nested_one n a b body rest : nested body -> nested rest -> nested (CTic n a :: body ++ CToc n b :: rest).

(** The clock does not run backwards from [now] on. *)
Fixpoint clock_ok (now : Q) (l : list tcall) : Prop :=
  match l with
  | [] => True
  | CTic _ t :: l' | CToc _ t :: l' => (now <= t)%Q /\ clock_ok t l'
  | CReset :: l' => clock_ok now l'
  end.

Fixpoint qsum (l : list Q) : Q := match l with [] => 0 | a :: l' => (a + qsum l')%Q end.
