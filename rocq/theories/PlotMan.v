(** Model of the parts of hylaa/plotutil.py that decide what is shown: axis limits, mode colours, simulation lines, drawn polygons.
    Matplotlib objects are the data they are given (set_xlim / set_ylim calls, the lists of paths, the data of the lines). *)
From Verif Require Import Base Util.
From Coq Require Import String.
Open Scope list_scope.
Open Scope nat_scope.

(** ** Axis limits *)
Record box2 := mkBox { xmin : Q; xmax : Q; ymin : Q; ymax : Q }.
(** one subplot: actual_limits, drawn_limits and the last set_xlim, set_ylim *)
Record axis := mkAxis { ax_lim : box2; ax_drawn : box2; ax_show : box2 }.

(** plotutil.py:516-527: one point; the tests are x < xmin, elif x > xmax *)
Definition Qltb (x y : Q) : bool := negb (Qle_bool y x).
Definition grow (b : box2) (p : Q * Q) : box2 :=
  let (x, y) := p in
  mkBox (if Qltb x (xmin b) then x else xmin b) (if Qltb x (xmin b) then xmax b else if Qltb (xmax b) x then x else xmax b)
        (if Qltb y (ymin b) then y else ymin b) (if Qltb y (ymin b) then ymax b else if Qltb (ymax b) y then y else ymax b).

(** plotutil.py:529-552: [first] = first_draw *)
Definition redraw (ratio : Q) (first : bool) (lim : box2) (old : axis) : axis :=
  let d := ax_drawn old in
  let outside := Qltb (xmin lim) (xmin d) || Qltb (xmax d) (xmax lim) || Qltb (ymin lim) (ymin d) || Qltb (ymax d) (ymax lim) in
  if first || (outside && negb (Qeq_bool (xmin lim) (xmax lim)) && negb (Qeq_bool (ymin lim) (ymax lim))) then
    let dx := (xmax lim - xmin lim)%Q in let dy := (ymax lim - ymin lim)%Q in
    let nd := mkBox (xmin lim - dx * ratio)%Q (xmax lim + dx * ratio)%Q (ymin lim - dy * ratio)%Q (ymax lim + dy * ratio)%Q in
    let ex := if Qeq_bool (xmin nd) (xmax nd) then (1 # 10)%Q else 0%Q in
    let ey := if Qeq_bool (ymin nd) (ymax nd) then (1 # 10)%Q else 0%Q in
    mkAxis lim nd (mkBox (xmin nd - ex)%Q (xmax nd + ex)%Q (ymin nd - ey)%Q (ymax nd + ey)%Q)
  else mkAxis lim d (ax_show old).

(** plotutil.py:484-552 update_axis_limits(points_list, subplot); the list per subplot is made at once (490-492 makes it at the first call) *)
Definition axes := list (option axis).
Definition axes0 (num_subplots : nat) : axes := repeat None num_subplots.
Fixpoint set_nth {A} (i : nat) (x : A) (l : list A) : list A :=
  match l, i with [], _ => [] | _ :: r, 0 => x :: r | y :: r, S j => y :: set_nth j x r end.
Definition update_axis_limits (ratio : Q) (ax : axes) (pts : list (Q * Q)) (subplot : nat) : res axes :=
  match nth_error ax subplot with
  | None => Err EIndex
  | Some None =>
      match pts with
      | [] => Err EIndex                                                       (* points_list[0] *)
      | (x, y) :: _ => let b := mkBox x x y y in Ok (set_nth subplot (Some (redraw ratio true (fold_left grow pts b) (mkAxis b b b))) ax)
      end
  | Some (Some o) => Ok (set_nth subplot (Some (redraw ratio false (fold_left grow pts (ax_lim o)) o)) ax)
  end.

(** ** Mode colours *)
(** plotutil.py:75-113 init_colors: [cnames] = matplotlib's names with the average of the rgb values, [shuffle] = random.shuffle after random.seed.
    list.remove raises ValueError when the element is missing. *)
Fixpoint is_substring (s t : string) : bool := prefix s t || match t with EmptyString => false | String _ t' => is_substring s t' end.
Fixpoint list_remove (x : string) (l : list string) : res (list string) :=
  match l with [] => Err EValue | y :: r => if String.eqb x y then Ok r else do r' <- list_remove x r; Ok (y :: r') end.
Fixpoint remove_all (xs l : list string) : res (list string) :=
  match xs with [] => Ok l | x :: r => do l' <- list_remove x l; remove_all r l' end.
Definition first_colors : list string := ["lime"; "orange"; "cyan"; "magenta"; "green"]%string.
Definition keep_color (c : string * Q) : bool :=
  Qle_bool (snd c) (3 # 4) && negb (is_substring "white" (fst c)) && negb (is_substring "yellow" (fst c)) && negb (existsb (String.eqb (fst c)) ["black"; "red"; "blue"]%string).
Definition init_colors (shuffle : list string -> list string) (cnames : list (string * Q)) : res (list string) :=
  do l <- remove_all first_colors (map fst (filter keep_color cnames));
  Ok (first_colors ++ shuffle l).

(** plotutil.py:115-136 get_edge_face_colors, the name of the colour; without colours ZeroDivisionError (here EValue; all_colors is never empty) *)
Fixpoint find_color (m : string) (d : list (string * string)) : option string :=
  match d with [] => None | (k, v) :: r => if String.eqb k m then Some v else find_color m r end.
Definition mode_color (all : list string) (d : list (string * string)) (m : string) : res (list (string * string) * string) :=
  match find_color m d with
  | Some c => Ok (d, c)
  | None =>
      match all with
      | [] => Err EValue
      | _ => let c := nth (List.length d mod List.length all) all EmptyString in Ok (d ++ [(m, c)], c)
      end
  end.
(** plotutil.py:63-73 *)
Definition lighter (rgb : list Q) : list Q := map (fun v => ((2 + v) / 3)%Q) rgb.
Definition darker (rgb : list Q) : list Q := map (fun v => (v / 2)%Q) rgb.

(** ** Simulation lines *)
(** cur_sim_lines, the committed lines (paths of 'sim_lines') and the markers *)
Record sims := mkSims { si_cur : list (list (Q * Q)); si_done : list (list (Q * Q)); si_marks : list (Q * Q) }.
Definition sims0 : sims := mkSims [] [] [].
(** plotutil.py:284-296: append the points; IndexError when there are more points than lines *)
Fixpoint append_pts (lines : list (list (Q * Q))) (verts : list (option (Q * Q))) : res (list (list (Q * Q))) :=
  match verts, lines with
  | [], _ => Ok lines
  | None :: vs, [] => do r <- append_pts [] vs; Ok r
  | Some _ :: _, [] => Err EIndex
  | v :: vs, l :: ls => do r <- append_pts ls vs; Ok (match v with Some p => l ++ [p] | None => l end :: r)
  end.
(** plotutil.py:268-317 set_cur_sim *)
Definition somes {A} (l : list (option A)) : list A := flat_map (fun o => match o with Some x => [x] | None => [] end) l.
Definition set_cur_sim (s : sims) (verts : list (option (Q * Q))) : res sims :=
  let lines := match si_cur s with [] => map (fun _ => []) verts | l => l end in
  do r <- append_pts lines verts;
  Ok (mkSims r (si_done s) (somes verts)).
(** plotutil.py:238-266 commit_cur_sims *)
Definition commit_cur_sims (s : sims) : sims * list (list (Q * Q)) := (mkSims [] (si_done s ++ si_cur s) [], si_cur s).

(** ** Drawn polygons.  A subplot: the paths of parent_to_polys by key (None: a path replaced by the degenerate one of stateset.py:226-227) and the points of the markers by mode.
    A StateSet object is its identity (a number), its mode name and its vertices per subplot are passed along; step_to_paths of all state sets is one function. *)
Definition verts := list (Q * Q).
Record shape := mkShape { sh_polys : string -> list (option verts); sh_marks : string -> list (Q * Q) }.
Definition shape0 : shape := mkShape (fun _ => []) (fun _ => []).
Definition supd {A} (f : string -> A) (k : string) (v : A) : string -> A := fun k' => if String.eqb k' k then v else f k'.
Definition refs := nat -> nat -> option (list (option (string * nat))).
Definition rupd (r : refs) (st step : nat) (v : option (list (option (string * nat)))) : refs := fun st' step' => if (st' =? st) && (step' =? step) then v else r st' step'.

(** plotutil.py:199-229 _set_named_state (set_cur_state, set_gray_state) *)
Definition set_named (s : shape) (name : string) (vs : list verts) : shape := mkShape (supd (sh_polys s) name (map Some vs)) (sh_marks s).
(** stateset.py:193-209 set_plot_path *)
Fixpoint pad_to {A} (n : nat) (d : A) (l : list A) : list A := match n with 0 => l | S m => match l with [] => d :: pad_to m d [] | x :: r => x :: pad_to m d r end end.
Definition set_plot_path (r : refs) (st step subplot : nat) (key : string) (index : nat) : refs :=
  let l := match r st step with Some l => l | None => [] end in
  rupd r st step (Some (set_nth subplot (Some (key, index)) (pad_to (S subplot) None l))).
(** plotutil.py:319-361 add_reachable_poly of one subplot *)
Definition add_poly (small : bool) (s : shape) (r : refs) (st step : nat) (mode : string) (vs : verts) (subplot : nat) : res (shape * refs) :=
  if (List.length vs <=? 2) && small then
    match vs with
    | [] => Err EIndex
    | p :: _ => Ok (mkShape (sh_polys s) (supd (sh_marks s) mode (sh_marks s mode ++ [p])), r)
    end
  else let ps := sh_polys s mode ++ [Some vs] in
       Ok (mkShape (supd (sh_polys s) mode ps) (sh_marks s), set_plot_path r st step subplot mode (List.length ps - 1)).
(** plotutil.py:690-694 add_reachable_poly: all subplots, from number [i] on *)
Fixpoint add_polys (small : bool) (shapes : list shape) (r : refs) (st step : nat) (mode : string) (vs : nat -> verts) (i : nat) : res (list shape * refs) :=
  match shapes with
  | [] => Ok ([], r)
  | s :: rest => do a <- add_poly small s r st step mode (vs i) i; do b <- add_polys small rest (snd a) st step mode vs (S i); Ok (fst a :: fst b, snd b)
  end.
(** stateset.py:211-236 del_plot_path; an entry [] cannot be unpacked (ValueError); vertices of an already deleted path: the two points (0, 0) *)
Fixpoint del_paths (shapes : list shape) (l : list (option (string * nat))) : res (list shape * list verts) :=
  match l, shapes with
  | [], _ => Ok (shapes, [])
  | None :: _, _ => Err EValue
  | Some _ :: _, [] => Err EIndex
  | Some (key, i) :: l', s :: rest =>
      do v <- match nth_error (sh_polys s key) i with Some v => Ok v | None => Err EIndex end;
      do b <- del_paths rest l';
      Ok (mkShape (supd (sh_polys s) key (set_nth i None (sh_polys s key))) (sh_marks s) :: fst b, (match v with Some vs => vs | None => [(0, 0); (0, 0)]%Q end) :: snd b)
  end.
Definition del_plot_path (shapes : list shape) (r : refs) (st step : nat) : res (list shape * refs * option (list verts)) :=
  match r st step with
  | None => Ok (shapes, r, None)
  | Some l => do b <- del_paths shapes l; Ok (fst b, rupd r st step None, Some (snd b))
  end.

(** plotutil.py:696-711 delete_plotted_state and 713-727 add_plotted_states, without the highlighting; [drawing] = plot_mode is not PLOT_NONE, [store] = store_plot_result (then result.plot_data exists) *)
Definition pman := (list shape * refs * pdata verts)%type.
Definition delete_plotted (drawing store : bool) (p : pman) (st step : nat) (mode : string) : res pman :=
  let '(shapes, r, pd) := p in
  if drawing then
    do d <- del_plot_path shapes r st step;
    let '(shapes', r', v) := d in
    match v with
    | None => Ok (shapes', r', pd)
    | Some _ => if store then do pd' <- remove_state pd st mode step; Ok (shapes', r', pd') else Ok (shapes', r', pd)
    end
  else Ok p.
Definition add_plotted (drawing store small : bool) (p : pman) (st step : nat) (mode : string) (vs : nat -> verts) : res pman :=
  let '(shapes, r, pd) := p in
  if drawing then
    do d <- add_polys small shapes r st step mode vs 0;
    do pd' <- (if store then add_everywhere pd st mode step vs 0 (List.length shapes) else Ok pd);
    Ok (fst d, snd d, pd')
  else Ok p.
(** plotutil.py:658-688 plot_current_state, the stored data and the polygon *)
Definition plot_current (drawing store small : bool) (p : pman) (st step : nat) (mode : string) (vs : nat -> verts) : res pman :=
  let '(shapes, r, pd) := p in
  do pd' <- (if store then add_everywhere pd st mode step vs 0 (List.length pd) else Ok pd);
  if drawing then do d <- add_polys small shapes r st step mode vs 0; Ok (fst d, snd d, pd') else Ok (shapes, r, pd').
