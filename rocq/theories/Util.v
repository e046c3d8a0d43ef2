(** Models of small pieces: util.Freezable, lpinstance.SwigArray, settings.HylaaSettings.num_steps, result.PlotData. *)
From Coq Require Import Qround.
From Verif Require Import Base.
Open Scope nat_scope.

(** ** hylaa/util.py:11-24 Freezable *)

(** An instance: the names in its __dict__ with their values, and the names its class defines (hasattr also finds these).
    The class attribute _frozen = False (util.py:14) is found when the instance has no _frozen of its own.
    Values are left abstract except booleans, which _frozen needs. *)
Section Freezable.
Variable V : Type.
Variable truthy : V -> bool.       (* bool(value) *)
Variable vtrue : V.                (* the value True *)
Variable class_attrs : list string. (* methods and class attributes, among them "_frozen" *)

Definition obj := list (string * V).
Definition has (o : obj) (k : string) : bool :=
  existsb (fun e => String.eqb (fst e) k) o || existsb (String.eqb k) class_attrs.
Fixpoint lookup (o : obj) (k : string) : option V :=
  match o with [] => None | (k', v) :: o' => if String.eqb k' k then Some v else lookup o' k end.
Fixpoint store (o : obj) (k : string) (v : V) : obj :=
  match o with
  | [] => [(k, v)]
  | (k', w) :: o' => if String.eqb k' k then (k', v) :: o' else (k', w) :: store o' k v
  end.
Definition frozen (o : obj) : bool := match lookup o "_frozen" with Some v => truthy v | None => false end.

(** util.py:20-24 __setattr__ *)
Definition setattr (o : obj) (k : string) (v : V) : res obj :=
  if frozen o && negb (has o k) then Err EType else Ok (store o k v).
(** util.py:16-18 freeze_attrs: itself an attribute assignment *)
Definition freeze_attrs (o : obj) : res obj := setattr o "_frozen" vtrue.

(** A caller catching the TypeError keeps the object as it was. *)
Definition try_set (o : obj) (kv : string * V) : obj :=
  match setattr o (fst kv) (snd kv) with Ok o' => o' | Err _ => o end.
End Freezable.

(** ** hylaa/lpinstance.py:902-938 SwigArray; [gb] is StaticSettings.MAX_MEMORY_SWIGLPK_LEAK_GB, the state is bytes_allocated.
    as_double_array and as_int_array account alike; the argument is len(list_data).  The raising call has already added its
    bytes. *)
Definition swig_alloc (gb : Q) (bytes : Z) (len : nat) : Z * res unit :=
  let bytes := (bytes + 8 * Z.of_nat len)%Z in
  let mb := inject_Z (1024 * 1024) in
  let threshold := (1024 * mb * gb)%Q in
  (bytes, if Qle_bool (inject_Z bytes) threshold then Ok tt else Err EMemory).

Fixpoint swig_allocs (gb : Q) (bytes : Z) (lens : list nat) : Z * res unit :=
  match lens with
  | [] => (bytes, Ok tt)
  | n :: l => match swig_alloc gb bytes n with
              | (b, Ok _) => swig_allocs gb b l
              | other => other
              end
  end.

(** ** hylaa/settings.py:34: num_steps = int(math.ceil(max_time / step_size)), over exact rationals *)
Definition num_steps (step max_time : Q) : Z := Qceiling (max_time / step).

(** ** hylaa/result.py:43-85 PlotData.  mode_to_obj_list is a list (one entry per subplot) of dictionaries from mode names to
    lists of (verts, state, cur_step_in_mode, description); the description string is a function of the others and is left
    out.  A StateSet object is its identity; its mode name is passed along. *)
Section PlotData.
Variable V : Type.                              (* the vertices *)
Definition pobj := (V * nat * nat)%type.        (* verts, state, step *)
Definition pdata := list (string -> list pobj).

(** result.py:46-52 __init__ *)
Definition plot_data0 (num_plots : nat) : pdata := repeat (fun _ => []) num_plots.

Definition upd (f : string -> list pobj) (m : string) (l : list pobj) : string -> list pobj :=
  fun m' => if String.eqb m' m then l else f m'.

(** result.py:59-66 add_state *)
Fixpoint add_state (pd : pdata) (state : nat) (mode : string) (step : nat) (verts : V) (plot_index : nat) : res pdata :=
  match pd, plot_index with
  | [], _ => Err EIndex
  | f :: r, 0 => Ok (upd f mode (f mode ++ [(verts, state, step)]) :: r)
  | f :: r, S i => do r' <- add_state r state mode step verts i; Ok (f :: r')
  end.

Definition is_obj (state step : nat) (o : pobj) : bool := Nat.eqb (snd (fst o)) state && Nat.eqb (snd o) step.

(** result.py:76-84: obj_list.pop(index) of the first match; None when there is none *)
Fixpoint pop_first (state step : nat) (l : list pobj) : option (list pobj) :=
  match l with
  | [] => None
  | o :: l' => if is_obj state step o then Some l'
               else match pop_first state step l' with Some r => Some (o :: r) | None => None end
  end.

(** result.py:68-90 remove_state: the break of lines 86-87 leaves the loop over the subplots after the first removal *)
Fixpoint remove_state (pd : pdata) (state : nat) (mode : string) (step : nat) : res pdata :=
  match pd with
  | [] => Err EAssert
  | f :: r =>
      match pop_first state step (f mode) with
      | Some l => Ok (upd f mode l :: r)
      | None => do r' <- remove_state r state mode step; Ok (f :: r')
      end
  end.

(** plotutil.py:665-669 (plot_current_state) and 722-725 (add_plotted_states): the state is added to every subplot *)
Fixpoint add_everywhere (pd : pdata) (state : nat) (mode : string) (step : nat) (verts : nat -> V) (subplot n : nat) : res pdata :=
  match n with
  | 0 => Ok pd
  | S n' => do pd' <- add_state pd state mode step (verts subplot) subplot;
            add_everywhere pd' state mode step verts (S subplot) n'
  end.

(** result.py:54-57 get_verts_list *)
Definition get_verts_list (pd : pdata) (mode : string) (plot_index : nat) : res pobj :=
  match nth_error pd plot_index with
  | None => Err EIndex
  | Some f => match f mode with [] => Err EIndex | o :: _ => Ok o end
  end.
End PlotData.
Arguments plot_data0 {V}. Arguments add_state {V}. Arguments remove_state {V}. Arguments is_obj {V}.
Arguments add_everywhere {V}. Arguments pop_first {V}. Arguments get_verts_list {V}. Arguments upd {V}.
