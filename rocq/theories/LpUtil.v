(** Model of hylaa/lputil.py (set constructors and set operations on LP instances). *)
From Verif Require Import Base LpModel.
From Coq Require Import DecimalString.
Open Scope nat_scope.
Open Scope list_scope.

(** Column name generators used throughout lputil.py: "m{}_i{}".format(mode_id, k) etc. *)
Definition nm (tag : string) (mid k : nat) : string := ("m" ++ sn mid ++ "_" ++ tag ++ sn k)%string.
Definition names_of (tag : string) (mid start count : nat) : list string := map (nm tag mid) (seq start count).

Section WithSolver.
Variable solve : solver.

(** lputil.py:1003-1022 is_feasible(csr, rhs) *)
Definition csr_feasible (m : csr) (rhs : list Q) : res bool :=
  do _ <- assert (List.length rhs =? c_nr m);
  let l := add_cols lp_new (map (fun n => ("x" ++ sn n)%string) (seq 0 (c_nc m))) in
  let l := add_rows_le l rhs in
  do l <- set_constraints_csr l m (0, 0);
  lp_is_feasible solve l.

(** One row "I 0 -I (I)" of the basis constraints, lputil.py:149-161 *)
Definition basis_row (width dims : nat) (has_inputs : bool) (n : nat) : srow :=
  [(n, 1%Q); (width + n, (-1)%Q)] ++ (if has_inputs then [(width + dims + n, 1%Q)] else []).

(** lputil.py:96-187 from_constraints.  [mid], [has_inputs] are mode.mode_id and (mode.b_csr is not None).
    [tn] = Some (types, names) or None (line 115 asserts both are given or none). *)
Definition from_constraints (m : csr) (rhs : list Q) (mid : nat) (has_inputs : bool)
    (tn : option (list rty * list string)) (dims_opt : option nat) : res lp :=
  do _ <- assert (c_nr m =? List.length rhs);
  do feas <- csr_feasible m rhs;
  do _ <- assert feas;
  do dims <- match dims_opt with
             | None => Ok (c_nc m)
             | Some d => do _ <- assert (d <=? c_nc m); Ok d
             end;
  let l := add_rows_eq0 lp_new dims in
  let names := match tn with None => names_of "i" mid 0 (c_nc m) | Some (_, ns) => ns end in
  let l := add_cols l (names ++ names_of "c" mid 0 dims) in
  do l <- match tn with
          | None => Ok (add_rows_le l rhs)
          | Some (ts, _) => add_rows_with_types l ts rhs
          end;
  let l := if has_inputs then add_cols l (names_of "ti" mid 0 dims) else l in
  let num_cols := if has_inputs then 2 * dims + c_nc m else c_nc m + dims in
  let basis := mkCsr num_cols (map (basis_row (c_nc m) dims has_inputs) (seq 0 dims)) in
  do l <- set_constraints_csr l basis (0, 0);
  do l <- set_constraints_csr l m (dims, 0);
  if has_inputs then
    let ie_pos := (l_nr l, dims + c_nc m) in
    let l := add_rows_eq0 l dims in
    do l <- set_constraints_csr l (mkCsr dims (map (fun n => [(n, (-1)%Q)]) (seq 0 dims))) ie_pos;
    set_reach_vars l dims (0, 0) (c_nc m) (Some ie_pos)
  else
    set_reach_vars l dims (0, 0) (c_nc m) None.

(** lputil.py:19-49 from_box *)
Definition box_rows (dims : nat) : list srow := flat_map (fun n => [[(n, (-1)%Q)]; [(n, 1%Q)]]) (seq 0 dims).
Definition box_rhs (box : list (Q * Q)) : list Q := flat_map (fun b => [(- fst b)%Q; snd b]) box.
Definition from_box (box : list (Q * Q)) (mid : nat) (has_inputs : bool) : res lp :=
  do _ <- assert (forallb (fun b => Qle_bool (fst b) (snd b)) box);
  from_constraints (mkCsr (List.length box) (box_rows (List.length box))) (box_rhs box) mid has_inputs None None.

(** lputil.py:51-94 from_zonotope; rows are dense lists, converted to csr by from_constraints (line 106) *)
Definition zono_gen_rows (dims cdims : nat) (i : nat) : list (list Q) :=
  [ map (fun d => if Nat.eqb d (cdims + 1 + i) then 1%Q else 0%Q) (seq 0 dims);
    map (fun d => if Nat.eqb d (cdims + 1 + i) then (-1)%Q else 0%Q) (seq 0 dims) ].
(** row for dimension [dim]: -1 at dim, c at cdims, generator[dim] at cdims+1+gindex *)
Definition zono_dim_row (center : list Q) (gens : list (list Q)) (dim : nat) : list Q :=
  map (fun d => if Nat.eqb d dim then (-1)%Q else 0%Q) (seq 0 (List.length center))
  ++ [nth dim center 0%Q] ++ map (fun g => nth dim g 0%Q) gens.
Definition from_zonotope (center : list Q) (gens : list (list Q)) (mid : nat) (has_inputs : bool) : res lp :=
  let cdims := List.length center in
  let dims := cdims + 1 + List.length gens in
  do _ <- assert (forallb (fun g => List.length g =? cdims) gens);
  let mat0 := [ map (fun d => if Nat.eqb d cdims then 1%Q else 0%Q) (seq 0 dims);
                map (fun d => if Nat.eqb d cdims then (-1)%Q else 0%Q) (seq 0 dims) ] in
  let mat1 := flat_map (zono_gen_rows dims cdims) (seq 0 (List.length gens)) in
  let mat2 := flat_map (fun dim => [zono_dim_row center gens dim; map (fun v => (-1 * v)%Q) (zono_dim_row center gens dim)])
                       (seq 0 cdims) in
  let rhs := [1%Q; (-1)%Q] ++ flat_map (fun _ => [1%Q; 1%Q]) gens ++ flat_map (fun _ => [0%Q; 0%Q]) center in
  from_constraints (mkCsr dims (map (fun r => dense_row r 0) (mat0 ++ mat1 ++ mat2))) rhs mid has_inputs None (Some cdims).

(** lputil.py:1142-1190 from_input_constraints *)
Definition from_input_constraints (b u_con : csr) (u_rhs : list Q) (mid : nat) (has_inputs : bool) : res lp :=
  let dims := c_nr b in
  let rhs := repeat 0%Q dims ++ u_rhs in
  let tys := repeat FX dims ++ repeat UP (c_nr u_con) in
  let names := map (fun n => ("c" ++ sn n)%string) (seq 0 dims) ++ map (fun n => ("u" ++ sn n)%string) (seq 0 (c_nc b)) in
  let rows := map (fun dr => (fst dr, (-1)%Q) :: shift_row dims (snd dr)) (combine (seq 0 dims) (c_rows b))
              ++ map (shift_row dims) (c_rows u_con) in
  from_constraints (mkCsr (dims + c_nc b) rows) rhs mid has_inputs (Some (tys, names)) (Some dims).

(** lputil.py:1079-1140 minkowski_sum *)
Fixpoint mink_cur_entries (off d : nat) (ls : list lp) : srow :=
  match ls with
  | [] => []
  | l :: ls' => (off + l_cvo l + d, (-1)%Q) :: mink_cur_entries (off + l_nc l) d ls'
  end.
Fixpoint mink_rows (off : nat) (ls : list lp) : list srow :=
  match ls with
  | [] => []
  | l :: ls' => map (fun r => shift_row off (r_co r)) (l_rows l) ++ mink_rows (off + l_nc l) ls'
  end.
Fixpoint mink_names (i : nat) (ls : list lp) : list string :=
  match ls with
  | [] => []
  | l :: ls' => map (fun v => ("l" ++ sn i ++ "_" ++ sn v)%string) (seq 0 (l_nc l)) ++ mink_names (S i) ls'
  end.
Definition minkowski_sum (ls : list lp) (mid : nat) (has_inputs : bool) : res lp :=
  match ls with
  | [] => Err EIndex                             (* lpi_list[0] on an empty list, line 1087 *)
  | l0 :: _ =>
      do _ <- assert (forallb (fun l => l_dims l =? l_dims l0) ls);
      let dims := l_dims l0 in
      let rhs := repeat 0%Q dims ++ flat_map get_rhs ls in
      let tys := repeat FX dims ++ flat_map get_types ls in
      let names := map (fun n => ("c" ++ sn n)%string) (seq 0 dims) ++ mink_names 0 ls in
      let rows := map (fun d => (d, 1%Q) :: mink_cur_entries dims d ls) (seq 0 dims) ++ mink_rows dims ls in
      let cols := dims + list_sum (map l_nc ls) in
      from_constraints (mkCsr cols rows) rhs mid has_inputs (Some (tys, names)) (Some dims)
  end.

(** lputil.py:189-216 set_basis_matrix, with the cached index rows of lpinstance.py:91-113 *)
Definition bm_row (l : lp) (bm : mat) (i : nat) : srow :=
  dense_row (mrow bm i) (snd (l_bm l)) ++ [(l_cvo l + i, (-1)%Q)]
  ++ match l_ie l with Some (_, c) => [(c + i, 1%Q)] | None => [] end.
Definition set_basis_matrix (l : lp) (bm : mat) : res lp :=
  do _ <- assert (forallb (fun r => List.length r =? List.length bm) bm);
  do _ <- assert (List.length bm =? l_dims l);
  Ok (with_rows l (set_coefs (fst (l_bm l)) (map (bm_row l bm) (seq 0 (l_dims l))) (l_rows l))).

(** Column [c] of a csr matrix as (row, value) entries: csc conversion of mode.u_constraints (hybrid_automaton.py:set_inputs) *)
Fixpoint csc_col (c i : nat) (rows : list srow) : srow :=
  match rows with
  | [] => []
  | r :: rows' => map (fun e => (i, snd e)) (filter (fun e => Nat.eqb (fst e) c) r) ++ csc_col c (S i) rows'
  end.

(** lputil.py:218-301 add_input_effects_matrix with lgg_beta=None.  [u_con], [u_rhs] are mode.u_constraints_*,
    [num_vars] = mode.a_csr.shape[1]. *)
Definition add_input_effects_matrix (l : lp) (ie : mat) (mid num_vars : nat) (u_con : csr) (u_rhs : list Q) : res lp :=
  match l_ie l with
  | None => Err EAssert
  | Some (ier, _) =>
      let num_inputs := c_nc u_con in
      do _ <- assert (forallb (fun r => List.length r =? num_inputs) ie);
      do _ <- assert (List.length ie =? num_vars);
      do _ <- assert (l_dims l =? num_vars);
      let pre_cols := l_nc l in
      let l1 := add_cols l (names_of "I" mid 0 num_inputs) in
      let pre_rows := l_nr l1 in
      let l2 := add_rows_le l1 u_rhs in
      let col c := map (fun r => (r + ier, nth c (mrow ie r) 0%Q)) (seq 0 (l_dims l))
                   ++ shift_row pre_rows (csc_col c 0 (c_rows u_con)) in
      set_constraints_csc l2 (mkCsc (pre_rows + List.length u_rhs) (map col (seq 0 num_inputs))) (0, pre_cols)
  end.

(** lputil.py:303-332 check_intersection; a LinearConstraint lc is (row, width, rhs).
    Returns the lp (objective changed) and None / Some bool. *)
Definition check_intersection (l : lp) (dir : srow) (width : nat) (rhs tol : Q) : res (lp * option bool) :=
  do l <- set_min_dir_csr l dir width None;
  do r <- minimize solve l (Some (map (fun e => l_cvo l + fst e) dir)) false;
  match r with
  | None => Ok (l, None)
  | Some vals =>
      let dot := fold_right Qplus 0%Q (map (fun av => (fst av * snd av)%Q) (combine (map snd dir) vals)) in
      Ok (l, Some (Qle_bool (dot + tol) rhs))
  end.

(** lputil.py:625-632 get_basis_matrix *)
Definition get_basis_matrix (l : lp) : res mat :=
  get_dense_constraints l (snd (l_bm l)) (fst (l_bm l)) (l_dims l) (l_dims l).

(** lputil.py:334-397 add_init_constraint.  Returns the row index used. *)
Fixpoint ie_entries (n : nat) (vec : list Q) (ies : list mat) (off : nat) : srow :=
  match ies with
  | [] => []
  | ie :: ies' => dense_row (vmul n vec ie) off ++ ie_entries n vec ies' (off + n)
  end.
Definition add_init_constraint (l : lp) (v : list Q) (rhs : Q) (bm_opt : option mat) (ies : list mat)
    (row_index : option nat) : res (lp * nat) :=
  do bm <- match bm_opt with Some b => Ok b | None => get_basis_matrix l end;
  let dims := List.length bm in
  do _ <- (if List.length v =? dims then Ok tt else Err EValue);     (* vec.shape = (1, dims), line 353 *)
  let cols := l_nc l in
  do li <- match row_index with
           | None => Ok (add_rows_le l [rhs], l_nr l)
           | Some i => do l' <- set_constraint_rhs l i rhs; Ok (l', i)
           end;
  let '(l, i) := li in
  do ents <- match ies with
             | [] => Ok []
             | ie0 :: _ =>
                 match l_ie l with
                 | None => Err EType                                  (* None[1], line 375 *)
                 | Some (_, iec) =>
                     let num_inputs := List.length (mrow ie0 0) in
                     do _ <- assert (forallb (fun ie => forallb (fun r => List.length r =? num_inputs) ie) ies);
                     do _ <- (if forallb (fun ie => List.length ie =? dims) ies then Ok tt else Err EValue);
                     Ok (ie_entries num_inputs v ies (iec + dims))
                 end
             end;
  let co := dense_row (vmul dims v bm) (snd (l_bm l)) ++ ents in
  do _ <- (if row_cols_ltb cols co then Ok tt else Err EValue);       (* check_format, line 393 *)
  do l <- set_constraints_csr l (mkCsr cols [co]) (i, 0);
  Ok (l, i).

(** lputil.py:399-445 try_replace_init_constraint *)
Definition try_replace_init_constraint (l : lp) (old : nat) (dir : list Q) (rhs : Q) (bm_opt : option mat) (ies : list mat)
    : res (lp * nat * bool) :=
  do bm <- match bm_opt with Some b => Ok b | None => get_basis_matrix l end;
  do old_co <- get_row l old;
  do old_rhs <- get_rhs_at l old;
  do li <- add_init_constraint l dir rhs (Some bm) ies (Some old);
  let '(l, new_i) := li in
  do l <- set_min_dir_csr l (scale_row (-1)%Q old_co) (l_nc l) (Some 0);
  do r <- minimize solve l None false;
  match r with
  | None => Ok (l, new_i, true)
  | Some vals =>
      if Qle_bool old_rhs (reval old_co (of_list vals)) then
        let l := add_rows_le l [old_rhs] in
        do l <- set_constraints_csr l (mkCsr (l_nc l) [old_co]) (l_nr l - 1, 0);
        Ok (l, new_i, false)
      else Ok (l, new_i, true)
  end.

(** lputil.py:634-640 scale_with_bm *)
Definition scale_with_bm (l : lp) (a : Q) : res lp :=
  do bm <- get_basis_matrix l;
  set_basis_matrix l (map (map (fun v => (a * v)%Q)) bm).

(** lputil.py:642-678 bloat *)
Definition bloat (l : lp) (a : Q) : res lp :=
  do _ <- assert (Qle_bool 0 a);
  let n := l_dims l in
  let precols := l_nc l in
  let prerows := l_nr l in
  let col k := [(fst (l_bm l) + k, 1%Q); (prerows + 2 * k, 1%Q); (prerows + 2 * k + 1, (-1)%Q)] in
  let l1 := add_rows_le l (repeat a (2 * n)) in
  let l2 := add_cols l1 (map (fun k => ("bloat" ++ sn k)%string) (seq 0 n)) in
  set_constraints_csc l2 (mkCsc (prerows + 2 * n) (map col (seq 0 n))) (0, precols).

(** lputil.py:680-827 add_reset_variables.  [reset] = None is the identity (line 704); [mink] = None means no minkowski
    variables (line 707), otherwise (minkowski_csr, constraints_csr, constraints_rhs). *)
Definition ident_csr (n : nat) : csr := mkCsr n (map (fun i => [(i, 1%Q)]) (seq 0 n)).
Definition add_reset_variables (l : lp) (mid tindex : nat) (reset : option csr) (mink : option (csr * csr * list Q))
    (succ_inputs : bool) : res lp :=
  let old_dims := l_dims l in
  let cols := l_nc l in
  let rows := l_nr l in
  let rc := match reset with None => ident_csr old_dims | Some r => r end in
  let '(mk, mc, mrhs) := match mink with
                         | None => (mkCsr 0 [], mkCsr 0 [], [])
                         | Some t => t
                         end in
  do _ <- assert (old_dims =? c_nc rc);
  let new_dims := c_nr rc in
  let mv := c_nc mk in
  let names := map (fun k => ("reset" ++ sn k)%string) (seq 0 mv)
               ++ [("m" ++ sn mid ++ "_i0_t" ++ sn tindex)%string]
               ++ names_of "i" mid 1 (new_dims - 1)
               ++ names_of "c" mid 0 new_dims
               ++ (if succ_inputs then names_of "ti" mid 0 new_dims else []) in
  let l := add_cols l names in
  let l := add_rows_eq0 l (2 * new_dims) in
  let l := add_rows_le l mrhs in
  let l := if succ_inputs then add_rows_eq0 l new_dims else l in
  (* minkowski_csr.indptr[dim+1] is out of range if it has fewer rows than the reset matrix (line 757) *)
  do _ <- (if (mv =? 0) || (new_dims <=? c_nr mk) then Ok tt else Err EIndex);
  let rows1 := map (fun dim => shift_row (l_cvo l) (nth dim (c_rows rc) [])
                               ++ (if 0 <? mv then shift_row cols (nth dim (c_rows mk) []) else [])
                               ++ [(cols + mv + dim, (-1)%Q)]) (seq 0 new_dims) in
  let rows2 := map (fun dim => [(cols + mv + dim, 1%Q); (cols + mv + new_dims + dim, (-1)%Q)]
                               ++ (if succ_inputs then [(cols + mv + 2 * new_dims + dim, 1%Q)] else [])) (seq 0 new_dims) in
  let rows3 := map (shift_row cols) (c_rows mc) in
  let rows4 := if succ_inputs then map (fun dim => [(cols + mv + 2 * new_dims + dim, (-1)%Q)]) (seq 0 new_dims) else [] in
  let height := 2 * new_dims + List.length mrhs + (if succ_inputs then new_dims else 0) in
  let width := cols + 2 * new_dims + mv + (if succ_inputs then new_dims else 0) in
  let mat := mkCsr width (rows1 ++ rows2 ++ rows3 ++ rows4) in
  (* csr_matrix(...).check_format() lines 810-812: indptr must match the height, indices the width *)
  do _ <- (if (c_nr mat =? height) && forallb (row_cols_ltb width) (c_rows mat) then Ok tt else Err EValue);
  do l <- set_constraints_csr l mat (rows, 0);
  let ie := if succ_inputs then Some (rows + 2 * new_dims + List.length mrhs, cols + mv + 2 * new_dims) else None in
  set_reach_vars l new_dims (rows + new_dims, cols + mv) (cols + mv + new_dims) ie.

(** lputil.py:829-841 add_curtime_constraints *)
Definition add_curtime_constraints (l : lp) (m : csr) (rhs : list Q) : res lp :=
  let prerows := l_nr l in
  set_constraints_csr (add_rows_le l rhs) m (prerows, l_cvo l).

(** lputil.py:843-873 get_box_center: returns the lp (objective changed) and None or the centre *)
Fixpoint box_center_loop (l : lp) (ds : list nat) : res (lp * option (list Q)) :=
  match ds with
  | [] => Ok (l, Some [])
  | d :: ds' =>
      let n := l_dims l in
      do l1 <- set_min_dir l (map (fun i => if Nat.eqb i d then 1%Q else 0%Q) (seq 0 n));
      do mn <- minimize solve l1 (Some [l_cvo l + d]) false;
      do l2 <- set_min_dir l1 (map (fun i => if Nat.eqb i d then (-1)%Q else 0%Q) (seq 0 n));
      do mx <- minimize solve l2 (Some [l_cvo l + d]) false;
      match mn, mx with
      | Some [a], Some [b] =>
          do r <- box_center_loop l2 ds';
          Ok (fst r, match snd r with None => None | Some pt => Some (((a + b) / 2)%Q :: pt) end)
      | _, _ => Ok (l2, None)
      end
  end.
Definition get_box_center (l : lp) : res (lp * option (list Q)) := box_center_loop l (seq 0 (l_dims l)).

(** lputil.py:1024-1058 is_point_in_lpi *)
Definition is_point_in_lpi (pt : list Q) (l : lp) : res bool :=
  do _ <- assert (List.length pt <=? l_dims l);
  let rows := flat_map (fun i => [[(i, 1%Q)]; [(i, (-1)%Q)]]) (seq 0 (List.length pt)) in
  let rhs := flat_map (fun x => [x; (- x)%Q]) pt in
  do l' <- clone l;
  do l' <- add_curtime_constraints l' (mkCsr (List.length pt) rows) rhs;
  lp_is_feasible solve l'.

(** lputil.py:1060-1077 compute_radius_inf: line 1075 reads lp_result[n], i.e. column n of the whole LP.
    max_val = -inf is None. *)
Definition omax (m : option Q) (v : Q) : option Q :=
  match m with None => Some v | Some a => if Qle_bool a v then Some v else Some a end.
Definition omin (m : option Q) (v : Q) : option Q :=
  match m with None => Some v | Some a => if Qle_bool a v then Some a else Some v end.
Fixpoint radius_loop (l : lp) (work : list (nat * Q)) (acc : option Q) : res (option Q) :=
  match work with
  | [] => Ok acc
  | (n, s) :: work' =>
      do l1 <- set_min_dir l (map (fun d => if Nat.eqb n d then s else 0%Q) (seq 0 (l_dims l)));
      do r <- minimize solve l1 None true;
      match r with
      | None => Err EType                  (* cannot happen: fail_on_unsat raises *)
      | Some vals => radius_loop l1 work' (omax acc (Qabs (nth n vals 0%Q)))
      end
  end.
Definition compute_radius_inf (l : lp) : res (option Q) :=
  radius_loop l (flat_map (fun n => [(n, 1%Q); (n, (-1)%Q)]) (seq 0 (l_dims l))) None.

(** lputil.py:563-623 aggregate.  np.linalg.norm(direction) < 1e-6 is sum of squares < 1e-12. *)
Definition sumsq (d : list Q) : Q := fold_right (fun a acc => (a * a + acc)%Q) 0%Q d.
Definition dir_used (d : list Q) : bool := negb (match Qcompare (sumsq d) (1 # 1000000000000) with Lt => true | _ => false end).
Fixpoint nonzero_row (d : list Q) (i : nat) : srow :=
  match d with
  | [] => []
  | a :: d' => if Qeq_bool a 0 then nonzero_row d' (S i) else (i, a) :: nonzero_row d' (S i)
  end.
Definition dot_vals (data vals : list Q) : Q := fold_right Qplus 0%Q (map (fun av => (fst av * snd av)%Q) (combine vals data)).
Fixpoint agg_dir (ls : list lp) (width : nat) (d : list Q) (mx mn : option Q) : res (list lp * option Q * option Q) :=
  match ls with
  | [] => Ok ([], mx, mn)
  | l :: ls' =>
      do _ <- assert (width =? l_dims l);
      let r := nonzero_row d 0 in
      let cols := map (fun e => fst e + l_cvo l) r in
      do l1 <- set_min_dir l (map Qopp d);
      do v1 <- minimize solve l1 (Some cols) true;
      do l2 <- set_min_dir l1 d;
      do v2 <- minimize solve l2 (Some cols) true;
      match v1, v2 with
      | Some v1, Some v2 =>
          do r' <- agg_dir ls' width d (omax mx (dot_vals (map snd r) v1)) (omin mn (dot_vals (map snd r) v2));
          let '(ls2, a, b) := r' in Ok (l2 :: ls2, a, b)
      | _, _ => Err EType                 (* cannot happen: fail_on_unsat raises *)
      end
  end.
Fixpoint agg_dirs (ls : list lp) (width : nat) (dirs : list (list Q)) : res (list lp * list srow * list Q) :=
  match dirs with
  | [] => Ok (ls, [], [])
  | d :: dirs' =>
      if dir_used d then
        do r <- agg_dir ls width d None None;
        let '(ls1, mx, mn) := r in
        match mx, mn with
        | Some a, Some b =>
            do r2 <- agg_dirs ls1 width dirs';
            let '(ls2, rows, rhs) := r2 in
            Ok (ls2, nonzero_row d 0 :: scale_row (-1)%Q (nonzero_row d 0) :: rows, a :: (- b)%Q :: rhs)
        | _, _ => Err EType               (* cannot happen: at least two lpis *)
        end
      else agg_dirs ls width dirs'
  end.
(** [width] is direction_matrix.shape[1].  Returns the input lps too (their objectives change). *)
Definition aggregate (ls : list lp) (dirs : list (list Q)) (width mid : nat) (has_inputs : bool) : res (list lp * lp) :=
  do _ <- assert (width <=? List.length dirs);
  do _ <- assert (1 <? List.length ls);
  do _ <- (if forallb (fun d => List.length d =? width) dirs then Ok tt else Err EValue);   (* rectangular ndarray *)
  do r <- agg_dirs ls width dirs;
  let '(ls', rows, rhs) := r in
  do l <- from_constraints (mkCsr width rows) rhs mid has_inputs None None;
  Ok (ls', l).

(** lputil.py:447-475 aggregate_chull and 477-561 _aggregate_chull_recursive.

    Splitting of a row into its A part (columns cvo..cvo+dims) and its L part (the other columns, right part shifted left by
    dims), lputil.py:508-512 *)
Definition row_A (l : lp) (co : srow) : srow :=
  map (fun e => (fst e - l_cvo l, snd e)) (filter (fun e => (l_cvo l <=? fst e) && (fst e <? l_cvo l + l_dims l)) co).
Definition row_L (l : lp) (co : srow) : srow :=
  filter (fun e => fst e <? l_cvo l) co
  ++ map (fun e => (fst e - l_dims l, snd e)) (filter (fun e => l_cvo l + l_dims l <=? fst e) co).

(** the base case: exactly two lps (lputil.py:496-561) *)
Definition chull2 (l1 l2 : lp) : res lp :=
  let dims := l_dims l1 in
  do _ <- assert (l_dims l2 =? dims);
  let w1 := l_nc l1 - dims in
  let w2 := l_nc l2 - dims in
  let tys := get_types l1 ++ get_types l2 in
  let rhs := get_rhs l1 ++ repeat 0%Q (l_nr l2) in
  do l <- add_rows_with_types lp_new tys rhs;
  let cols := map (fun i => ("A1_" ++ sn i)%string) (seq 0 dims) ++ map (fun i => ("A2_" ++ sn i)%string) (seq 0 dims)
              ++ map (fun i => ("L1_" ++ sn i)%string) (seq 0 w1) ++ map (fun i => ("L2_" ++ sn i)%string) (seq 0 w2)
              ++ ["a"%string] in
  let l := add_cols l cols in
  let acol := 2 * dims + w1 + w2 in
  let top := map (fun r => row_A l1 (r_co r) ++ shift_row dims (row_A l1 (r_co r)) ++ shift_row (2 * dims) (row_L l1 (r_co r))
                           ++ [(acol, row_ub r)]) (l_rows l1) in
  let bottom := map (fun r => shift_row dims (scale_row (-1)%Q (row_A l2 (r_co r)))
                           ++ shift_row (2 * dims + w1) (row_L l2 (r_co r))
                           ++ [(acol, (- row_ub r)%Q)]) (l_rows l2) in
  do l <- set_constraints_csr l (mkCsr (acol + 1) top) (0, 0);
  do l <- set_constraints_csr l (mkCsr (acol + 1) bottom) (l_nr l1, 0);
  Ok (mkLp (l_rows l) (l_names l) dims (l_bm l) 0 (l_ie l) (l_obj l)).

(** Recursion on explicit fuel (the Python recursion halves the list); out of fuel is ENotImpl and excluded in the theorems
    by fuel >= length of the list. *)
Fixpoint aggregate_chull (fuel : nat) (ls : list lp) (mid : nat) (has_inputs : bool) {struct fuel} : res lp :=
  match fuel with
  | O => Err ENotImpl
  | S fuel' =>
      match ls with
      | [] => Err EAssert                          (* line 485: assert len(lpi_list) >= 2 *)
      | [l] => clone l
      | _ =>
          do news <- (fix go (xs : list lp) : res (list lp) :=
                        match xs with
                        | [] => Ok []
                        | x :: xs' => do y <- clone x; do ys <- go xs'; Ok (add_rows_le y [1%Q] :: ys)
                        end) ls;
          do l <- match news with
                  | [l1; l2] => chull2 l1 l2
                  | _ =>
                      let mid_ix := Nat.div (List.length news) 2 in
                      do a <- aggregate_chull fuel' (firstn mid_ix news) mid has_inputs;
                      do b <- aggregate_chull fuel' (skipn mid_ix news) mid has_inputs;
                      aggregate_chull fuel' [a; b] mid has_inputs
                  end;
          from_constraints (get_full_constraints l) (get_rhs l) mid has_inputs (Some (get_types l, l_names l)) (Some (l_dims l))
      end
  end.

End WithSolver.
