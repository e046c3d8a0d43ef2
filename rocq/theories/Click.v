(** Model of the lookup of a plotted state set by a point (hylaa/result.py:91-118) and of the mouse-click listener of interactive plots
    (hylaa/plotutil.py:907-921).  sympy's Polygon(..).encloses_point is an oracle (it may raise); a dictionary is its list of keys in insertion
    order with the function from keys to lists of Util.v. *)
From Verif Require Import Base Util.
From Coq Require Import String.
Open Scope list_scope.
Open Scope nat_scope.

Definition pt2 : Set := (Q * Q)%type.
Section Click.
Variable encl : list pt2 -> pt2 -> res bool.

(** result.py:101-112: the loop over the objects of one mode *)
Fixpoint find_obj (p : pt2) (l : list (pobj (list pt2))) : res (option (pobj (list pt2))) :=
  match l with
  | [] => Ok None
  | o :: l' =>
      let verts := fst (fst o) in
      if List.length verts <? 4 then find_obj p l'
      else do b <- encl (skipn 1 verts) p;
           if (b : bool) then Ok (Some o) else find_obj p l'
  end.
(** result.py:99-117: the loop over the modes *)
Fixpoint find_mode (p : pt2) (f : string -> list (pobj (list pt2))) (modes : list string) : res (option (pobj (list pt2))) :=
  match modes with
  | [] => Ok None
  | m :: r => do o <- find_obj p (f m); match o with Some x => Ok (Some x) | None => find_mode p f r end
  end.
(** result.py:91-118 get_plot_data *)
Definition get_plot_data (pd : pdata (list pt2)) (modes : nat -> list string) (p : pt2) (subplot : nat) : res (option (pobj (list pt2))) :=
  match nth_error pd subplot with
  | None => Err EIndex
  | Some f => find_mode p f (modes subplot)
  end.
(** plotutil.py:907-921 on_click: [subplot] is the position of the clicked axes in axes_list (None: other axes).  The result is what is printed,
    d[1:] (state and step; the description is left out as in Util.v); None[1:] raises *)
Definition on_click (pd : pdata (list pt2)) (modes : nat -> list string) (p : pt2) (subplot : option nat) : res (option (nat * nat)) :=
  match subplot with
  | None => Ok None
  | Some i => do d <- get_plot_data pd modes p i;
              match d with Some o => Ok (Some (snd (fst o), snd o)) | None => Err EType end
  end.
End Click.
