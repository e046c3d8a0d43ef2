(** Model of the polygons that are plotted: hylaa/lpplot.py get_verts and bbox_widths, and hylaa/kamenev.py.
    Oracles: the LP solver; [orth], numpy's singular value decomposition as used by kamenev._get_orthonormal_rank (a new direction or
    None, and the rank); [hull], scipy.spatial.ConvexHull (may raise QhullError).  lpplot.py leaves the last objective in the LP object;
    every call sets a new objective before it solves, so the objective is not threaded through the model. *)
From Verif Require Import Base LpModel StateSet.
Open Scope nat_scope.

(** a point of the plane (of dims-dimensional space in kamenev.py): a numpy vector *)
Definition pt := list Q.
(** np.dot *)
Definition pdot (a b : pt) : Q := ldot a 0 (of_list b).
(** a - b *)
Definition psub (a b : pt) : pt := map (fun i => (nth i a 0 - nth i b 0)%Q) (seq 0 (List.length a)).
(** np.allclose(a, b) *)
Definition pclose (a b : pt) : bool := forallb (fun i => close (nth i a 0%Q) (nth i b 0%Q)) (seq 0 (List.length a)).

(** scipy.spatial.ConvexHull: simplices with their equations (vertex indices, normal, rhs = minus the offset), and the order of the
    vertices (counterclockwise in two dimensions) *)
Record hullres := mkHull { h_facets : list (list nat * pt * Q); h_vertices : list nat }.

Section Kamenev.
Variable orth : list pt -> option pt * nat.
Variable hull : list pt -> res hullres.
Variable supp : pt -> res pt.

(** kamenev.py:50 and 59, the directions -e_d and e_d *)
Definition axis (dims d : nat) (v : Q) : pt := map (fun i => if Nat.eqb i d then v else 0%Q) (seq 0 dims).

(** kamenev.py:40-66 _find_two_points; [ds] the values of d still to come, [pts] the value left by the previous iteration *)
Fixpoint find_two_points (dims : nat) (ds : list nat) (pts : list pt) : res (list pt) :=
  match ds with
  | [] => Ok pts
  | d :: ds =>
      do p1 <- supp (axis dims d (-1)%Q);
      do _ <- assert (List.length p1 =? dims);
      do p2 <- supp (axis dims d 1%Q);
      if pclose p1 p2 then find_two_points dims ds [p1] else Ok [p1; p2]
  end.

(** kamenev.py:85-113, the loop of _find_init_simplex; [k] iterations left; new_dir None: supp_point_func(None) raises TypeError.
    spanning_dirs and degenerate_dirs are never read. *)
Fixpoint grow_simplex (k : nat) (p0 : pt) (simplex vecs : list pt) : res (list pt) :=
  match k with
  | 0 => Ok simplex
  | S k =>
      let '(nd, rank) := orth vecs in
      do new_dir <- match nd with Some v => Ok v | None => Err EType end;
      do p <- supp new_dir;
      if rank <? snd (orth (vecs ++ [psub p p0])) then grow_simplex k p0 (simplex ++ [p]) (vecs ++ [psub p p0])
      else
        do p <- supp (map (fun v => (-1 * v)%Q) new_dir);
        if rank <? snd (orth (vecs ++ [psub p p0])) then grow_simplex k p0 (simplex ++ [p]) (vecs ++ [psub p p0])
        else grow_simplex k p0 simplex (vecs ++ [new_dir])
  end.

(** kamenev.py:68-117 _find_init_simplex *)
Definition find_init_simplex (dims : nat) : res (list pt) :=
  do s <- find_two_points dims (seq 0 dims) [];
  match s with
  | [p0; p1] => grow_simplex (dims - 1) p0 s [psub p1 p0]
  | _ => Ok s
  end.

(** kamenev.py:160-198, the loop over the simplices of one iteration; [new] is new_pts.  max_error and the warning are only printed. *)
Fixpoint scan_facets (eps : Q) (first_new : nat) (fs : list (list nat * pt * Q)) (new : list pt) : res (list pt) :=
  match fs with
  | [] => Ok new
  | (idx, normal, rhs) :: fs =>
      if existsb (fun i => first_new <=? i) idx then
        do s <- supp normal;
        if Qle_bool eps (pdot s normal - rhs)%Q then
          if existsb (fun p => pclose p s) new then scan_facets eps first_new fs new
          else scan_facets eps first_new fs (new ++ [s])
        else scan_facets eps first_new fs new
      else scan_facets eps first_new fs new
  end.

(** kamenev.py:133-200 _v_h_rep_given_init_simplex; at most [fuel] iterations of the while loop, None when they are used up. *)
Fixpoint refine (fuel : nat) (eps : Q) (verts new_pts : list pt) : res (option (list pt)) :=
  match new_pts with
  | [] => Ok (Some verts)
  | _ :: _ =>
      match fuel with
      | 0 => Ok None
      | S fuel =>
          do h <- hull (verts ++ new_pts);
          do new <- scan_facets eps (List.length verts) (h_facets h) [];
          refine fuel eps (verts ++ new_pts) new
      end
  end.

(** kamenev.py:119-131 get_verts *)
Definition kamenev_get_verts (fuel dims : nat) (eps : Q) : res (option (list pt)) :=
  do s <- find_init_simplex dims;
  if List.length s <? 3 then Ok (Some s) else refine fuel eps [] s.
End Kamenev.

(** xdim and ydim: None (time), an int, or a numpy array (direction) *)
Inductive pdim := PTime | PDim (d : nat) | PDir (v : list Q).

Section Plot.
Variable solve : solver.
Variable orth : list pt -> option pt * nat.
Variable hull : list pt -> res hullres.
Variable l : lp.

(** lpi.set_minimize_direction(d); lpi.minimize(columns=cols) *)
Definition min_cols (d : list Q) (cols : list nat) : res (list Q) :=
  do l1 <- set_min_dir l d;
  do r <- minimize solve l1 (Some cols) true;
  match r with Some v => Ok v | None => Err EUnsat end.
(** [lpi.cur_vars_offset + n for n in range(lpi.dims)] *)
Definition cur_cols : list nat := map (fun n => l_cvo l + n) (seq 0 (l_dims l)).

(** d[i] = v of a numpy array *)
Fixpoint set_at (d : list Q) (i : nat) (v : Q) : res (list Q) :=
  match d, i with
  | [], _ => Err EIndex
  | _ :: r, 0 => Ok (v :: r)
  | x :: r, S i => do r' <- set_at r i v; Ok (x :: r')
  end.
Fixpoint set_dims (d : list Q) (dl : list nat) (vec : pt) : res (list Q) :=
  match dl, vec with
  | i :: dl, v :: vec => do d <- set_at d i (- v)%Q; set_dims d dl vec
  | _, _ => Ok d
  end.
Definition get_at (r : list Q) (i : nat) : res Q := match nth_error r i with Some v => Ok v | None => Err EIndex end.

(** lpplot.py:124-146 supp_point_nd *)
Definition supp_point (xd yd : nat) (vec : pt) : res pt :=
  do _ <- assert (List.length vec =? 2);
  do d <- set_dims (lzero (l_dims l)) [xd; yd] vec;
  do r <- min_cols d cur_cols;
  do x <- get_at r xd;
  do y <- get_at r yd;
  Ok [x; y].

(** lpplot.py:173-186, one round of bbox_widths *)
Definition bbox_width (dim : nat) : res Q :=
  do mn <- min_cols (map (fun i => if Nat.eqb i dim then 1%Q else 0%Q) (seq 0 (l_dims l))) [l_cvo l + dim];
  do mx <- min_cols (map (fun i => if Nat.eqb i dim then (-1)%Q else 0%Q) (seq 0 (l_dims l))) [l_cvo l + dim];
  let dx := (nth 0 mx 0 - nth 0 mn 0)%Q in
  Ok (if Qle_bool (1 # 100000) dx then dx else (1 # 100000)).

(** min(bboxw) / 1000.0, lpplot.py:121 *)
Definition plot_epsilon (wx wy : Q) : Q := ((if Qle_bool wx wy then wx else wy) / 1000)%Q.

(** abs(a - b) > tol, tol = 1e-9 (lpplot.py:51) *)
Definition apart (a b : Q) : bool := negb (Qle_bool (Qabs (a - b)) (1 # 1000000000)).

(** lpplot.py:76-96 and 99-118, plots over time; [dir] the direction, [mk] puts time and value in the order of the axes *)
Definition time_verts (dir : list Q) (t0 t1 : Q) (mk : Q -> Q -> pt) : res (list pt) :=
  do r1 <- min_cols dir cur_cols;
  do _ <- if List.length dir =? List.length r1 then Ok tt else Err EValue;
  let mn := pdot dir r1 in
  do r2 <- min_cols (map (fun v => (-1 * v)%Q) dir) cur_cols;
  let mx := pdot dir r2 in
  Ok ([mk t0 mn]
      ++ (if apart mn mx then mk t0 mx :: (if apart t0 t1 then [mk t1 mx] else []) else [])
      ++ (if apart t0 t1 then [mk t1 mn] else [])).

(** lpplot.py:77-78: an int becomes a unit vector *)
Definition time_dir (d : nat) : list Q := map (fun i => if Nat.eqb i d then 1%Q else 0%Q) (seq 0 (l_dims l)).

(** verts[i, 0], verts[i, 1] for i in hull.vertices *)
Fixpoint pick_verts (vs : list pt) (order : list nat) : res (list pt) :=
  match order with
  | [] => Ok []
  | i :: o => match nth_error vs i with
              | Some v => do r <- pick_verts vs o; Ok ([nth 0 v 0%Q; nth 1 v 0%Q] :: r)
              | None => Err EIndex
              end
  end.

(** verts.append(verts[0]), lpplot.py:159 *)
Definition wrap (vs : list pt) : res (list pt) := match vs with v :: _ => Ok (vs ++ [v]) | [] => Err EIndex end.

(** lpplot.py:120-153, two dimensions *)
Definition verts_2d (fuel xd yd : nat) : res (option (list pt)) :=
  do wx <- bbox_width xd;
  do wy <- bbox_width yd;
  do r <- kamenev_get_verts orth hull (supp_point xd yd) fuel 2 (plot_epsilon wx wy);
  match r with
  | None => Ok None
  | Some vs =>
      if 2 <? List.length vs then do h <- hull vs; do vs <- pick_verts vs (h_vertices h); Ok (Some vs)
      else Ok (Some vs)
  end.

(** lpplot.py:38-161 get_verts; (t0, t1) is cur_time as a pair (lpplot.py:57-58).  plot_vecs is not used.
    Both dimensions None: either the local variable verts is not assigned, or list.min raises AttributeError.
    Two dimensions with an array: the comparison of an int with an array raises in bbox_widths (arrays of one entry are left out). *)
Definition get_verts (fuel : nat) (xd yd : pdim) (t0 t1 : Q) : res (option (list pt)) :=
  do r <- match xd, yd with
          | PTime, PTime => if Qle_bool (1 # 1000000000) (Qabs (t0 - t1)) then Err EType else Err EUnbound
          | PTime, PDim d => do vs <- time_verts (time_dir d) t0 t1 (fun t v => [t; v]); Ok (Some vs)
          | PTime, PDir d => do vs <- time_verts d t0 t1 (fun t v => [t; v]); Ok (Some vs)
          | PDim d, PTime => do vs <- time_verts (time_dir d) t0 t1 (fun t v => [v; t]); Ok (Some vs)
          | PDir d, PTime => do vs <- time_verts d t0 t1 (fun t v => [v; t]); Ok (Some vs)
          | PDim x, PDim y => verts_2d fuel x y
          | _, _ => Err EValue
          end;
  match r with
  | None => Ok None
  | Some vs => do vs <- wrap vs; Ok (Some vs)
  end.
End Plot.
