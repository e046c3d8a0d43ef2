(** Array-level model of hylaa/lpinstance.py: the calls it makes to GLPK's problem object.  LpModel.v describes an LpInstance by the list of its
    rows; here the problem object has numbered rows and columns (from 1) and a separate objective vector, scipy matrices are their three arrays,
    and LpInstance keeps obj_cols and the cached bm_indices.  GLPK's functions follow its reference manual (they are not in /repo): a call outside
    of their preconditions aborts the process, [None] here.  Prop_Glpk.v proves that the two models agree on every history of calls.
    Left out: the simplex basis, timers, the swig memory counter (Util.v), Python's type checks. *)
From Verif Require Import Base LpModel Automaton.
Open Scope nat_scope.

Inductive gty : Set := GFR | GLO | GUP | GFX.
Definition gty_of (t : rty) : gty := match t with FX => GFX | UP => GUP | LO => GLO end.
Record grow := mkG { g_ty : gty; g_lb : Q; g_ub : Q; g_co : list (nat * Q) }.     (* (column number, value), no zeros *)
Record gcol := mkGc { k_ty : gty; k_lb : Q; k_ub : Q }.
Record gprob := mkP { p_rows : list grow; p_cols : list gcol; p_obj : list Q }.    (* p_obj: the shift term, then one coefficient per column *)
Definition p_m (p : gprob) : nat := List.length (p_rows p).
Definition p_n (p : gprob) : nat := List.length (p_cols p).

(** a call that may abort the process *)
Definition abt (A : Type) := option (res A).
Definition ret {A} (a : A) : abt A := Some (Ok a).
Definition raise {A} (e : err) : abt A := Some (Err e).
Definition abind {A B} (m : abt A) (f : A -> abt B) : abt B := match m with None => None | Some (Err e) => Some (Err e) | Some (Ok a) => f a end.
Notation "'call' x <- m ; k" := (abind m (fun x => k)) (at level 200, x pattern, right associativity).
Definition pyassert (c : bool) : abt unit := if c then ret tt else raise EAssert.
Definition pre {A} (c : bool) (a : A) : abt A := if c then ret a else None.

(** ** GLPK reference manual, sections 2.1 - 2.3 *)
Definition glp_create_prob : gprob := mkP [] [] [0%Q].
(** new rows are free, with no coefficients; new columns are fixed at zero, with no coefficients and objective coefficient 0; the number must be positive *)
Definition glp_add_rows (p : gprob) (k : nat) : abt gprob := pre (0 <? k) (mkP (p_rows p ++ repeat (mkG GFR 0 0 []) k) (p_cols p) (p_obj p)).
Definition glp_add_cols (p : gprob) (k : nat) : abt gprob := pre (0 <? k) (mkP (p_rows p) (p_cols p ++ repeat (mkGc GFX 0 0) k) (p_obj p ++ repeat 0%Q k)).
Definition in_rows (p : gprob) (i : nat) : bool := (1 <=? i) && (i <=? p_m p).
Definition in_cols (p : gprob) (j : nat) : bool := (1 <=? j) && (j <=? p_n p).
Definition grow0 : grow := mkG GFR 0 0 [].
Definition get_grow (p : gprob) (i : nat) : grow := nth (i - 1) (p_rows p) grow0.
Definition put_grow (p : gprob) (i : nat) (r : grow) : gprob := mkP (upd_nth (i - 1) r (p_rows p)) (p_cols p) (p_obj p).
(** the bounds a type uses *)
Definition norm_bnds (t : gty) (lb ub : Q) : Q * Q := match t with GFR => (0, 0) | GLO => (lb, 0) | GUP => (0, ub) | GFX => (lb, lb) end%Q.
Definition glp_set_row_bnds (p : gprob) (i : nat) (t : gty) (lb ub : Q) : abt gprob :=
  let b := norm_bnds t lb ub in pre (in_rows p i) (put_grow p i (mkG t (fst b) (snd b) (g_co (get_grow p i)))).
Definition glp_set_col_bnds (p : gprob) (j : nat) (t : gty) (lb ub : Q) : abt gprob :=
  let b := norm_bnds t lb ub in pre (in_cols p j) (mkP (p_rows p) (upd_nth (j - 1) (mkGc t (fst b) (snd b)) (p_cols p)) (p_obj p)).
Definition glp_set_obj_coef (p : gprob) (j : nat) (v : Q) : abt gprob := pre (j <=? p_n p) (mkP (p_rows p) (p_cols p) (upd_nth j v (p_obj p))).
(** duplicate indices are an error; zero values are not stored *)
Fixpoint nodupb (l : list nat) : bool := match l with [] => true | x :: r => negb (existsb (Nat.eqb x) r) && nodupb r end.
Definition nonzero (e : nat * Q) : bool := negb (Qeq_bool (snd e) 0).
Definition entries (len : nat) (ind : list nat) (val : list Q) : list (nat * Q) := filter nonzero (combine (firstn len ind) (firstn len val)).
Definition glp_set_mat_row (p : gprob) (i len : nat) (ind : list nat) (val : list Q) : abt gprob :=
  pre (in_rows p i && (len <=? p_n p) && (len <=? List.length ind) && (len <=? List.length val) && forallb (in_cols p) (firstn len ind) && nodupb (firstn len ind))
      (let r := get_grow p i in put_grow p i (mkG (g_ty r) (g_lb r) (g_ub r) (entries len ind val))).
(** the entries of the column are removed from every row, then the given ones added *)
Fixpoint put_col (j i : nat) (ents : list (nat * Q)) (rs : list grow) : list grow :=
  match rs with
  | [] => []
  | r :: rs' => mkG (g_ty r) (g_lb r) (g_ub r)
                  (filter (fun e => negb (fst e =? j)) (g_co r) ++ map (fun e => (j, snd e)) (filter (fun e => fst e =? i) ents)) :: put_col j (S i) ents rs'
  end.
Definition glp_set_mat_col (p : gprob) (j len : nat) (ind : list nat) (val : list Q) : abt gprob :=
  pre (in_cols p j && (len <=? p_m p) && (len <=? List.length ind) && (len <=? List.length val) && forallb (in_rows p) (firstn len ind) && nodupb (firstn len ind))
      (mkP (put_col j 1 (entries len ind val) (p_rows p)) (p_cols p) (p_obj p)).
Definition glp_get_row_type (p : gprob) (i : nat) : abt gty := pre (in_rows p i) (g_ty (get_grow p i)).
Definition glp_get_row_ub (p : gprob) (i : nat) : abt Q :=
  pre (in_rows p i) (match g_ty (get_grow p i) with GFR | GLO => dbl_max | _ => g_ub (get_grow p i) end).

(** scipy's csr_matrix / csc_matrix: number of rows / columns (the major direction), size of the other, data, indices, indptr *)
Record arr := mkArr { ar_maj : nat; ar_min : nat; ar_data : list Q; ar_ind : list nat; ar_ptr : list nat }.

(** ** LpInstance, lpinstance.py:35-51 *)
Record lpi := mkLi { i_p : gprob; i_names : list string; i_dims : nat; i_bm : nat * nat; i_cvo : nat; i_ie : option (nat * nat);
                     i_objc : list nat; i_bmi : list (list nat) }.
Definition with_p (g : lpi) (p : gprob) : lpi := mkLi p (i_names g) (i_dims g) (i_bm g) (i_cvo g) (i_ie g) (i_objc g) (i_bmi g).
Definition lpi_new : lpi := mkLi glp_create_prob [] 0 (0, 0) 0 None [] [].
(** lpinstance.py:880-889: rows are asked of glpk, columns are the names *)
Definition i_nr (g : lpi) : nat := p_m (i_p g).
Definition i_nc (g : lpi) : nat := List.length (i_names g).

(** for i in range(n): body *)
Fixpoint afor {A} (l : list A) (p : gprob) (body : A -> gprob -> abt gprob) : abt gprob :=
  match l with [] => ret p | x :: r => call p1 <- body x p; afor r p1 body end.

(** lpinstance.py:292-305 add_cols *)
Definition i_add_cols (g : lpi) (names : list string) : abt lpi :=
  let num_vars := List.length names in
  if 0 <? num_vars then
    let num_cols := i_nc g in
    call p <- glp_add_cols (i_p g) num_vars;
    call p <- afor (seq 0 num_vars) p (fun i p => glp_set_col_bnds p (num_cols + i + 1) GFR 0 0);
    ret (mkLi p (i_names g ++ names) (i_dims g) (i_bm g) (i_cvo g) (i_ie g) (i_objc g) (i_bmi g))
  else ret g.
(** lpinstance.py:307-337 add_rows_with_types *)
Definition i_add_rows_with_types (g : lpi) (types : list rty) (rhs : list Q) : abt lpi :=
  call _ <- pyassert (List.length types =? List.length rhs);
  if 0 <? List.length rhs then
    let num_rows := i_nr g in
    call p <- glp_add_rows (i_p g) (List.length rhs);
    call p <- afor (combine (seq 0 (List.length rhs)) (combine rhs types)) p (fun e p =>
        let '(i, (b, ty)) := e in
        match ty with
        | UP => glp_set_row_bnds p (num_rows + i + 1) GUP 0 b
        | LO => glp_set_row_bnds p (num_rows + i + 1) GLO b 0
        | FX => glp_set_row_bnds p (num_rows + i + 1) GFX b b
        end);
    ret (with_p g p)
  else ret g.
(** lpinstance.py:339-357 add_rows_less_equal *)
Definition i_add_rows_le (g : lpi) (rhs : list Q) : abt lpi :=
  if 0 <? List.length rhs then
    let num_rows := i_nr g in
    call p <- glp_add_rows (i_p g) (List.length rhs);
    call p <- afor (combine (seq 0 (List.length rhs)) rhs) p (fun e p => glp_set_row_bnds p (num_rows + fst e + 1) GUP 0 (snd e));
    ret (with_p g p)
  else ret g.
(** lpinstance.py:359-369 add_rows_equal_zero *)
Definition i_add_rows_eq0 (g : lpi) (num : nat) : abt lpi :=
  if 0 <? num then
    let num_rows := i_nr g in
    call p <- glp_add_rows (i_p g) num;
    call p <- afor (seq 0 num) p (fun i p => glp_set_row_bnds p (num_rows + i + 1) GFX 0 0);
    ret (with_p g p)
  else ret g.
(** indices of range(indptr[k], indptr[k+1]) *)
Definition ptr_of (a : arr) (k : nat) : nat := nth k (ar_ptr a) 0.
Definition slice_ind (a : arr) (k : nat) : list nat := map (fun i => nth i (ar_ind a) 0) (seq (ptr_of a k) (ptr_of a (k + 1) - ptr_of a k)).
Definition slice_data (a : arr) (k : nat) : list Q := firstn (ptr_of a (k + 1) - ptr_of a k) (skipn (ptr_of a k) (ar_data a)).
(** lpinstance.py:371-414 set_constraints_csr *)
Definition i_set_csr (g : lpi) (a : arr) (off : nat * nat) : abt lpi :=
  if (i_nr g <? fst off + ar_maj a) || (i_nc g <? snd off + ar_min a) then raise ERuntime
  else
    call p <- afor (seq 0 (ar_maj a)) (i_p g) (fun row p =>
        glp_set_mat_row p (fst off + row + 1) (ptr_of a (row + 1) - ptr_of a row) (map (fun c => 1 + snd off + c) (slice_ind a row)) (slice_data a row));
    ret (with_p g p).
(** lpinstance.py:430-473 set_constraints_csc *)
Definition i_set_csc (g : lpi) (a : arr) (off : nat * nat) : abt lpi :=
  if (i_nr g <? fst off + ar_min a) || (i_nc g <? snd off + ar_maj a) then raise ERuntime
  else
    call p <- afor (seq 0 (ar_maj a)) (i_p g) (fun col p =>
        glp_set_mat_col p (snd off + col + 1) (ptr_of a (col + 1) - ptr_of a col) (map (fun r => 1 + fst off + r) (slice_ind a col)) (slice_data a col));
    ret (with_p g p).
(** lpinstance.py:91-113 _create_bm_indices *)
Definition bm_indices (dims : nat) (bm : nat * nat) (cvo : nat) (ie : option (nat * nat)) : list (list nat) :=
  map (fun row => map (fun col => 1 + col + snd bm) (seq 0 dims) ++ [1 + cvo + row] ++ match ie with Some (_, c) => [1 + row + c] | None => [] end) (seq 0 dims).
(** lpinstance.py:71-89 set_reach_vars *)
Definition i_set_reach_vars (g : lpi) (dims : nat) (bm : nat * nat) (cvo : nat) (ie : option (nat * nat)) : abt lpi :=
  call _ <- pyassert (fst bm + dims <=? i_nr g);
  call _ <- pyassert (snd bm + 2 * dims <=? i_nc g);
  call _ <- match ie with
           | None => ret tt
           | Some (r, c) => call _ <- pyassert (r + dims <=? i_nr g); pyassert (c + dims <=? i_nc g)
           end;
  ret (mkLi (i_p g) (i_names g) dims bm cvo ie (i_objc g) (bm_indices dims bm cvo ie)).
(** lpinstance.py:58-69 clone; glp_copy_prob copies everything *)
Definition i_clone (g : lpi) : abt lpi :=
  call c <- i_set_reach_vars (mkLi (i_p g) (i_names g) 0 (0, 0) 0 None [] []) (i_dims g) (i_bm g) (i_cvo g) (i_ie g);
  ret (mkLi (i_p c) (i_names c) (i_dims c) (i_bm c) (i_cvo c) (i_ie c) (i_objc g) (i_bmi c)).
(** lputil.py:189-216 set_basis_matrix and lpinstance.py:416-428 set_constraints_swigvec_rows; zip stops at the shorter list *)
Definition i_set_basis_matrix (g : lpi) (m : mat) : abt lpi :=
  call _ <- pyassert (forallb (fun r => List.length r =? List.length m) m);
  call _ <- pyassert (List.length m =? i_dims g);
  let data := map (fun row => mrow m row ++ [(-1)%Q] ++ match i_ie g with Some _ => [1%Q] | None => [] end) (seq 0 (i_dims g)) in
  let per_row := List.length m + 1 + match i_ie g with Some _ => 1 | None => 0 end in
  call p <- afor (combine (seq 0 (List.length data)) (combine data (combine (i_bmi g) (repeat per_row (List.length m))))) (i_p g) (fun e p =>
      let '(row, (d, (ind, count))) := e in glp_set_mat_row p (1 + fst (i_bm g) + row) count ind d);
  ret (with_p g p).
(** lpinstance.py:486-538 set_minimize_direction: the coefficients of the previous call are cleared (505-508) *)
Definition i_clear_obj (g : lpi) : abt gprob := afor (i_objc g) (i_p g) (fun c p => glp_set_obj_coef p c 0).
Definition i_set_min_dir (g : lpi) (dir : list Q) : abt lpi :=
  call _ <- pyassert (List.length dir <=? i_dims g);
  call p <- i_clear_obj g;
  call p <- afor (combine (seq 0 (List.length dir)) dir) p (fun e p => glp_set_obj_coef p (1 + i_cvo g + fst e) (snd e));
  ret (mkLi p (i_names g) (i_dims g) (i_bm g) (i_cvo g) (i_ie g) (map (fun i => 1 + i_cvo g + i) (seq 0 (List.length dir))) (i_bmi g)).
(** the same with is_csr=True, lines 514-524; [width] is direction_vec.shape[1] *)
Definition i_set_min_dir_csr (g : lpi) (data : list Q) (inds : list nat) (width : nat) (offset : option nat) : abt lpi :=
  call off <- match offset with
             | None => call _ <- pyassert (width <=? i_dims g); ret (i_cvo g)
             | Some o => call _ <- pyassert (width + o <=? i_nc g); ret o
             end;
  call p <- i_clear_obj g;
  call p <- afor (combine data inds) p (fun e p => let col := 1 + off + snd e in call _ <- pyassert (col <=? i_nc g); glp_set_obj_coef p col (fst e));
  ret (mkLi p (i_names g) (i_dims g) (i_bm g) (i_cvo g) (i_ie g) (map (fun c => 1 + off + c) (firstn (List.length data) inds)) (i_bmi g)).
(** lpinstance.py:718-736 set_constraint_rhs *)
Definition i_set_constraint_rhs (g : lpi) (i : nat) (b : Q) : abt lpi :=
  call _ <- pyassert (i <? p_m (i_p g));
  call t <- glp_get_row_type (i_p g) (i + 1);
  match t with
  | GUP => call p <- glp_set_row_bnds (i_p g) (i + 1) GUP 0 b; ret (with_p g p)
  | GLO => call p <- glp_set_row_bnds (i_p g) (i + 1) GLO b 0; ret (with_p g p)
  | GFX => call p <- glp_set_row_bnds (i_p g) (i + 1) GFX b b; ret (with_p g p)
  | GFR => raise ERuntime
  end.

(** ** Queries *)
Section Queries.
(** the order in which glp_get_mat_row lists the entries of a row is not specified *)
Variable ord : list (nat * Q) -> list (nat * Q).
Definition glp_get_mat_row (p : gprob) (i : nat) : abt (list (nat * Q)) := pre (in_rows p i) (ord (g_co (get_grow p i))).
(** lpinstance.py:750-759 get_types *)
Fixpoint amap {A B} (f : A -> abt B) (l : list A) : abt (list B) := match l with [] => ret [] | x :: r => call y <- f x; call ys <- amap f r; ret (y :: ys) end.
Definition i_get_types (g : lpi) : abt (list gty) := amap (fun row => glp_get_row_type (i_p g) (row + 1)) (seq 0 (i_nr g)).
(** lpinstance.py:791-817 get_rhs *)
Definition i_get_rhs (g : lpi) (rows : option (list nat)) : abt (list Q) :=
  let rows := match rows with Some l => l | None => seq 0 (i_nr g) end in
  amap (fun row => call t <- glp_get_row_type (i_p g) (row + 1); match t with GFR => raise ERuntime | _ => glp_get_row_ub (i_p g) (row + 1) end) rows.
(** lpinstance.py:851-878 get_row *)
Definition i_get_row (g : lpi) (row : nat) : abt arr :=
  call _ <- pyassert (row <? i_nr g);
  call es <- glp_get_mat_row (i_p g) (row + 1);
  ret (mkArr 1 (i_nc g) (map snd es) (map (fun e => fst e - 1) es) [0; List.length es]).
(** lpinstance.py:819-849 get_full_constraints; data and inds have exactly nnz entries *)
Fixpoint full_loop (p : gprob) (rows : list nat) (data : list Q) (inds ptr : list nat) : abt (list Q * list nat * list nat) :=
  match rows with
  | [] => ret (data, inds, ptr)
  | i :: r => call es <- glp_get_mat_row p i;
              full_loop p r (data ++ map snd es) (inds ++ map (fun e => fst e - 1) es) (ptr ++ [List.length data + List.length es])
  end.
Definition i_get_full (g : lpi) : abt arr :=
  call r <- full_loop (i_p g) (seq 1 (i_nr g)) [] [] [0];
  let '(data, inds, ptr) := r in ret (mkArr (i_nr g) (i_nc g) data inds ptr).
(** lpinstance.py:761-784 get_dense_constraints: rv[row_offset, col_offset] = value for every entry in the window *)
Definition dense_line (x w : nat) (es : list (nat * Q)) : list Q :=
  fold_left (fun line e => if (x <? fst e) && (fst e <=? x + w) then upd_nth (fst e - (x + 1)) (snd e) line else line) es (repeat 0%Q w).
Definition i_get_dense (g : lpi) (x y w h : nat) : abt (list (list Q)) :=
  call _ <- pyassert (x + w <=? i_nc g);
  call _ <- pyassert (y + h <=? i_nr g);
  amap (fun row => call es <- glp_get_mat_row (i_p g) row; ret (dense_line x w es)) (seq (y + 1) h).
End Queries.
