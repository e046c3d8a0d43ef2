(** Model of hylaa/lpinstance.py: the LP record and its operations.

    GLPK itself is not modelled: an LP problem object is the list of its rows (type, coefficients, bound) plus the
    column names, all columns being free variables (lpinstance.py:305); solving is the oracle [solver] below. *)
From Verif Require Import Base.
From Coq Require Import DecimalString Decimal.
Open Scope nat_scope.

(** ** Decimal printing of numbers, as done by "{}".format(n) for ints *)
Definition sn (n : nat) : string := NilEmpty.string_of_uint (Nat.to_uint n).

(** ** Rows: glpk row types GLP_FX, GLP_UP, GLP_LO (lpinstance.py:330-337) *)
Inductive rty : Set := FX | UP | LO.
Record row := mkRow { r_ty : rty; r_co : srow; r_rhs : Q }.

(** Row satisfaction (meaning of the bounds set in lpinstance.py:331,333,337). *)
Definition row_sat (r : row) (x : vec) : Prop :=
  match r_ty r with
  | FX => (reval (r_co r) x == r_rhs r)%Q
  | UP => (reval (r_co r) x <= r_rhs r)%Q
  | LO => (r_rhs r <= reval (r_co r) x)%Q
  end.

(** LpInstance (lpinstance.py:35-51).  Simplifications: the attributes that are None until set_reach_vars start as 0 / None;
    bm_indices is recomputed on the fly from the other fields (lpinstance.py:91-113); obj_cols together with the glpk
    objective is the single field [l_obj]. *)
Record lp := mkLp {
  l_rows : list row;
  l_names : list string;
  l_dims : nat;
  l_bm : nat * nat;              (* basis_mat_pos: row, column *)
  l_cvo : nat;                   (* cur_vars_offset *)
  l_ie : option (nat * nat);     (* input_effects_offsets: row, column *)
  l_obj : srow }.

Definition lp_new : lp := mkLp [] [] 0 (0, 0) 0 None [].

(** lpinstance.py:880-889 *)
Definition l_nr (l : lp) : nat := List.length (l_rows l).
Definition l_nc (l : lp) : nat := List.length (l_names l).

Definition with_rows (l : lp) (rs : list row) : lp :=
  mkLp rs (l_names l) (l_dims l) (l_bm l) (l_cvo l) (l_ie l) (l_obj l).
Definition with_names (l : lp) (ns : list string) : lp :=
  mkLp (l_rows l) ns (l_dims l) (l_bm l) (l_cvo l) (l_ie l) (l_obj l).
Definition with_obj (l : lp) (o : srow) : lp :=
  mkLp (l_rows l) (l_names l) (l_dims l) (l_bm l) (l_cvo l) (l_ie l) o.

(** lpinstance.py:71-89 set_reach_vars *)
Definition set_reach_vars (l : lp) (dims : nat) (bm : nat * nat) (cvo : nat) (ie : option (nat * nat)) : res lp :=
  do _ <- assert (fst bm + dims <=? l_nr l);
  do _ <- assert (snd bm + 2 * dims <=? l_nc l);
  do _ <- match ie with
          | None => Ok tt
          | Some (r, c) => do _ <- assert (r + dims <=? l_nr l); assert (c + dims <=? l_nc l)
          end;
  Ok (mkLp (l_rows l) (l_names l) dims bm cvo ie (l_obj l)).

(** lpinstance.py:58-69 clone: glp_copy_prob copies rows, bounds, coefficients and objective. *)
Definition clone (l : lp) : res lp :=
  set_reach_vars (mkLp (l_rows l) (l_names l) 0 (0, 0) 0 None (l_obj l)) (l_dims l) (l_bm l) (l_cvo l) (l_ie l).

(** lpinstance.py:292-305 add_cols *)
Definition add_cols (l : lp) (names : list string) : lp := with_names l (l_names l ++ names).

(** lpinstance.py:307-337 add_rows_with_types *)
Fixpoint zip_rows (tys : list rty) (rhs : list Q) : list row :=
  match tys, rhs with
  | t :: tys', b :: rhs' => mkRow t [] b :: zip_rows tys' rhs'
  | _, _ => []
  end.
Definition add_rows_with_types (l : lp) (tys : list rty) (rhs : list Q) : res lp :=
  do _ <- assert (List.length tys =? List.length rhs);
  Ok (with_rows l (l_rows l ++ zip_rows tys rhs)).

(** lpinstance.py:339-357 add_rows_less_equal *)
Definition add_rows_le (l : lp) (rhs : list Q) : lp :=
  with_rows l (l_rows l ++ map (fun b => mkRow UP [] b) rhs).

(** lpinstance.py:359-369 add_rows_equal_zero *)
Definition add_rows_eq0 (l : lp) (num : nat) : lp :=
  with_rows l (l_rows l ++ repeat (mkRow FX [] 0%Q) num).

(** glp_set_mat_row on consecutive rows: each row's coefficients are replaced by the given ones.  Column indices are
    assumed duplicate-free (glpk aborts otherwise); in the model duplicates add up. *)
Definition set_co (r : row) (co : srow) : row := mkRow (r_ty r) co (r_rhs r).
Fixpoint overwrite (new : list srow) (rs : list row) : list row :=
  match new, rs with
  | co :: new', r :: rs' => set_co r co :: overwrite new' rs'
  | _, _ => rs
  end.
Definition set_coefs (off : nat) (new : list srow) (rs : list row) : list row :=
  firstn off rs ++ overwrite new (skipn off rs).

(** lpinstance.py:371-414 set_constraints_csr (dtype and isinstance checks are Python typing, not modelled) *)
Definition set_constraints_csr (l : lp) (m : csr) (off : nat * nat) : res lp :=
  if (l_nr l <? fst off + c_nr m) || (l_nc l <? snd off + c_nc m) then Err ERuntime
  else Ok (with_rows l (set_coefs (fst off) (map (shift_row (snd off)) (c_rows m)) (l_rows l))).

(** A scipy csc matrix: number of rows and, per column, its (row, value) entries. *)
Record csc := mkCsc { cc_nr : nat; cc_cols : list srow }.

(** glp_set_mat_col: column [c] is replaced by the entries [(row, value)]. *)
Definition drop_col (c : nat) (co : srow) : srow := filter (fun e => negb (Nat.eqb (fst e) c)) co.
Definition col_entries (c i : nat) (ents : srow) : srow :=
  map (fun e => (c, snd e)) (filter (fun e => Nat.eqb (fst e) i) ents).
Fixpoint set_col (c : nat) (ents : srow) (i : nat) (rs : list row) : list row :=
  match rs with
  | [] => []
  | r :: rs' => set_co r (drop_col c (r_co r) ++ col_entries c i ents) :: set_col c ents (S i) rs'
  end.
Fixpoint set_cols (c : nat) (cols : list srow) (rs : list row) : list row :=
  match cols with
  | [] => rs
  | ents :: cols' => set_cols (S c) cols' (set_col c ents 0 rs)
  end.

(** lpinstance.py:430-473 set_constraints_csc *)
Definition set_constraints_csc (l : lp) (m : csc) (off : nat * nat) : res lp :=
  if (l_nr l <? fst off + cc_nr m) || (l_nc l <? snd off + List.length (cc_cols m)) then Err ERuntime
  else Ok (with_rows l (set_cols (snd off) (map (shift_row (fst off)) (cc_cols m)) (l_rows l))).

(** lpinstance.py:718-736 set_constraint_rhs *)
Definition set_rhs_at (i : nat) (b : Q) (rs : list row) : list row :=
  match nth_error rs i with
  | None => rs
  | Some r => firstn i rs ++ mkRow (r_ty r) (r_co r) b :: skipn (S i) rs
  end.
Definition set_constraint_rhs (l : lp) (i : nat) (b : Q) : res lp :=
  do _ <- assert (i <? l_nr l);
  Ok (with_rows l (set_rhs_at i b (l_rows l))).

(** lpinstance.py:750-759 get_types *)
Definition get_types (l : lp) : list rty := map r_ty (l_rows l).

(** The bound glpk reports through glp_get_row_ub.  For GLP_LO rows the upper bound is +DBL_MAX. *)
Definition dbl_max : Q := inject_Z (2 ^ 1024 - 2 ^ 971).
Definition row_ub (r : row) : Q := match r_ty r with LO => dbl_max | _ => r_rhs r end.

(** lpinstance.py:791-817 get_rhs: both branches call glp_get_row_ub (lines 809 and 811) *)
Definition get_rhs (l : lp) : list Q := map row_ub (l_rows l).
Definition get_rhs_at (l : lp) (i : nat) : res Q :=
  match nth_error (l_rows l) i with Some r => Ok (row_ub r) | None => Err EIndex end.

(** lpinstance.py:819-849 get_full_constraints *)
Definition get_full_constraints (l : lp) : csr := mkCsr (l_nc l) (map r_co (l_rows l)).

(** lpinstance.py:851-878 get_row *)
Definition get_row (l : lp) (i : nat) : res srow :=
  match nth_error (l_rows l) i with Some r => Ok (r_co r) | None => Err EAssert end.

(** lpinstance.py:761-784 get_dense_constraints(x, y, w, h) *)
Definition window_row (x w : nat) (co : srow) : list Q :=
  dense_of (map (fun e => (fst e - x, snd e)) (filter (fun e => (x <=? fst e) && (fst e <? x + w)) co)) w.
Definition get_dense_constraints (l : lp) (x y w h : nat) : res mat :=
  do _ <- assert (x + w <=? l_nc l);
  do _ <- assert (y + h <=? l_nr l);
  Ok (map (fun r => window_row x w (r_co r)) (firstn h (skipn y (l_rows l)))).

(** lpinstance.py:486-538 set_minimize_direction, dense direction relative to the current-time variables *)
Definition set_min_dir (l : lp) (dir : list Q) : res lp :=
  do _ <- assert (List.length dir <=? l_dims l);
  Ok (with_obj l (dense_row dir (l_cvo l))).

(** lpinstance.py:486-524 set_minimize_direction with is_csr=True; [width] is direction_vec.shape[1] *)
Definition set_min_dir_csr (l : lp) (dir : srow) (width : nat) (offset : option nat) : res lp :=
  do off <- match offset with
            | None => do _ <- assert (width <=? l_dims l); Ok (l_cvo l)
            | Some o => do _ <- assert (width + o <=? l_nc l); Ok o
            end;
  do _ <- assert (row_cols_ltb (l_nc l) (shift_row off dir));
  Ok (with_obj l (shift_row off dir)).

(** ** The LP solver oracle.
    [SOpt x] models GLP_OPT with primal values x, [SInfeas] models GLP_NOFEAS / GLP_ENOPFS, [SFail] every other outcome
    (unbounded, undefined, simplex error).  The retry logic inside minimize is modelled in Minimize.v; a pure function of
    the LP answers the retry at lpinstance.py:592 as it answered the first call. *)
Inductive sres := SOpt (x : vec) | SInfeas | SFail.
Definition solver := lp -> sres.

Section WithSolver.
Variable solve : solver.

(** lpinstance.py:540-600 minimize + 659-716 _process_simplex_result; the objective has been set before.
    [columns = None] returns all columns.  Result None = UNSAT. *)
Definition minimize (l : lp) (columns : option (list nat)) (fail_on_unsat : bool) : res (option (list Q)) :=
  match solve l with
  | SFail => Err ERuntime
  | SInfeas => if fail_on_unsat then Err EUnsat else Ok None
  | SOpt x =>
      let cols := match columns with None => seq 0 (l_nc l) | Some c => c end in
      do _ <- assert (forallb (fun c => c <? l_nc l) cols);
      Ok (Some (map x cols))
  end.

(** lpinstance.py:480-484 is_feasible (uses the objective left over from the previous call) *)
Definition lp_is_feasible (l : lp) : res bool :=
  do r <- minimize l (Some []) false;
  Ok (match r with Some _ => true | None => false end).

End WithSolver.
