(** Plot settings: the requested projections and the directions used for plotting (plotutil.py, stateset.py). *)
From Verif Require Import Base Plot.
From Coq Require Import String.
Open Scope list_scope.
Open Scope nat_scope.

(** settings.py:76-77: xdim_dir and ydim_dir: a dimension number, a direction, None (time), a dict mode name -> such a value, or a list of
    these.  A list given where a single value is expected is kept as an element ([SList]; get_verts takes it for a direction). *)
Inductive sdim := SBase (d : pdim) | SDict (l : list (string * pdim)) | SList (l : list sdim).
Inductive setting := One (d : sdim) | Many (l : list sdim).
Definition elem (s : setting) : sdim := match s with One d => d | Many l => SList l end.
Definition is_time (d : sdim) : bool := match d with SBase PTime => true | _ => false end.

Section V.
(** lpplot.py:192-205 make_plot_vecs: the list of (cos, sin) of n equally spaced angles (floating point: an argument) *)
Variable angles : nat -> list (Q * Q).

(** plotutil.py:412-429: the loop over the subplots.  In line 420 the test is on the whole list (settings.ydim_dir), which is never None. *)
Fixpoint make_vecs (num_angles : nat) (l : list (sdim * sdim)) : res (list (list (Q * Q))) :=
  match l with
  | [] => Ok []
  | (x, y) :: r =>
      do _ <- assert (negb (is_time x && is_time y));
      do v <- (if is_time x then Ok [(0, 1); (0, -(1))]%Q
               else do _ <- assert (3 <=? num_angles); Ok (angles num_angles));
      do vs <- make_vecs num_angles r;
      Ok (v :: vs)
  end.

(** plotutil.py:403-431 init_plot_vecs: the new values of settings.xdim_dir, settings.ydim_dir and plot_vec_list (num_subplots is its length) *)
Definition init_plot_vecs (num_angles : nat) (x y : setting) : res (setting * setting * list (list (Q * Q))) :=
  do xy <- match x with
           | Many xs => match y with
                        | Many ys => do _ <- assert (List.length xs =? List.length ys); Ok (xs, ys)
                        | One _ => Err EAssert
                        end
           | One d => Ok ([d], [elem y])
           end;
  do vs <- make_vecs num_angles (combine (fst xy) (snd xy));
  Ok (Many (fst xy), Many (snd xy), vs).
End V.

(** stateset.py:162-180 verts: the projections used for the sets of one mode; a dict gives one for each mode name *)
Definition resolve (mode : string) (d : sdim) : res sdim :=
  match d with
  | SDict l => match find (fun e => String.eqb (fst e) mode) l with Some (_, v) => Ok (SBase v) | None => Err EAssert end
  | _ => Ok d
  end.
Fixpoint resolve_all (mode : string) (xs ys : list sdim) : res (list (sdim * sdim)) :=
  match xs, ys with
  | x :: xs', y :: ys' => do x1 <- resolve mode x; do y1 <- resolve mode y; do r <- resolve_all mode xs' ys'; Ok ((x1, y1) :: r)
  | _, _ => Ok []
  end.
