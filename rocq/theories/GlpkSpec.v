(** What Prop_Glpk.v refers to: the matrix a scipy triple stands for, the meaning of a GLPK problem, histories of calls. *)
From Verif Require Import Base LpModel LpUtil Glpk.
Open Scope nat_scope.

(** line [k] of the triple: the entries numbered indptr[k] .. indptr[k+1]-1 *)
Definition line_of (a : arr) (k : nat) : list (nat * Q) :=
  map (fun i => (nth i (ar_ind a) 0, nth i (ar_data a) 0%Q)) (seq (nth k (ar_ptr a) 0) (nth (S k) (ar_ptr a) 0 - nth k (ar_ptr a) 0)).
Definition csr_of (a : arr) : csr := mkCsr (ar_min a) (map (line_of a) (seq 0 (ar_maj a))).
Definition csc_of (a : arr) : csc := mkCsc (ar_min a) (map (line_of a) (seq 0 (ar_maj a))).
(** scipy's check_format with canonical format: pointers ascend and stay inside of the data, no column twice in a row *)
Record arr_ok (a : arr) : Prop := {
  a_ptr : List.length (ar_ptr a) = S (ar_maj a);
  a_mono : forall k, k < ar_maj a -> nth k (ar_ptr a) 0 <= nth (S k) (ar_ptr a) 0;
  a_last : forall k, k <= ar_maj a -> nth k (ar_ptr a) 0 <= List.length (ar_data a);
  a_len : List.length (ar_ind a) = List.length (ar_data a);
  a_range : forall i, In i (ar_ind a) -> i < ar_min a;
  a_canon : forall k, k < ar_maj a -> NoDup (map fst (line_of a k)) }.

(** the three blocks of columns do not overlap *)
Definition disj (a b d : nat) : Prop := a + d <= b \/ b + d <= a.
Definition layout (dims : nat) (bm : nat * nat) (cvo : nat) (ie : option (nat * nat)) : Prop :=
  disj (snd bm) cvo dims /\ match ie with Some (_, c) => disj (snd bm) c dims /\ disj cvo c dims | None => True end.

(** the value of a row, the meaning of its bounds, and the objective: column number j has value x (j - 1) *)
Definition g_val (co : list (nat * Q)) (x : vec) : Q := fold_right (fun e acc => (snd e * x (fst e - 1)%nat + acc)%Q) 0%Q co.
Definition in_bnds (t : gty) (lb ub v : Q) : Prop := match t with GFR => True | GLO => lb <= v | GUP => v <= ub | GFX => v == lb end%Q.
Definition p_sat (p : gprob) (x : vec) : Prop :=
  (forall i, 1 <= i <= p_m p -> let r := get_grow p i in in_bnds (g_ty r) (g_lb r) (g_ub r) (g_val (g_co r) x)) /\
  (forall j, 1 <= j <= p_n p -> let k := nth (j - 1) (p_cols p) (mkGc GFX 0 0) in in_bnds (k_ty k) (k_lb k) (k_ub k) (x (j - 1)%nat)).
Definition p_objval (p : gprob) (x : vec) : Q := (nth 0 (p_obj p) 0 + fold_right (fun j acc => nth j (p_obj p) 0 * x (j - 1)%nat + acc) 0 (seq 1 (p_n p)))%Q.

(** calls on an LpInstance *)
Inductive lop :=
| OCols (names : list string) | ORowsT (ts : list rty) (rhs : list Q) | ORowsLe (rhs : list Q) | ORowsEq (n : nat)
| OCsr (a : arr) (off : nat * nat) | OCsc (a : arr) (off : nat * nat)
| OReach (dims : nat) (bm : nat * nat) (cvo : nat) (ie : option (nat * nat)) | OClone | OBasis (m : mat)
| ODir (dir : list Q) | ODirCsr (data : list Q) (inds : list nat) (width : nat) (off : option nat) | ORhs (i : nat) (b : Q).
Definition lo_op (o : lop) (g : lpi) : abt lpi :=
  match o with
  | OCols ns => i_add_cols g ns | ORowsT ts rhs => i_add_rows_with_types g ts rhs | ORowsLe rhs => i_add_rows_le g rhs | ORowsEq n => i_add_rows_eq0 g n
  | OCsr a off => i_set_csr g a off | OCsc a off => i_set_csc g a off
  | OReach d bm cvo ie => i_set_reach_vars g d bm cvo ie | OClone => i_clone g | OBasis m => i_set_basis_matrix g m
  | ODir dir => i_set_min_dir g dir | ODirCsr data inds w off => i_set_min_dir_csr g data inds w off | ORhs i b => i_set_constraint_rhs g i b
  end.
Definition hi_op (o : lop) (l : lp) : res lp :=
  match o with
  | OCols ns => Ok (add_cols l ns) | ORowsT ts rhs => add_rows_with_types l ts rhs | ORowsLe rhs => Ok (add_rows_le l rhs) | ORowsEq n => Ok (add_rows_eq0 l n)
  | OCsr a off => set_constraints_csr l (csr_of a) off | OCsc a off => set_constraints_csc l (csc_of a) off
  | OReach d bm cvo ie => set_reach_vars l d bm cvo ie | OClone => clone l | OBasis m => set_basis_matrix l m
  | ODir dir => set_min_dir l dir | ODirCsr data inds w off => set_min_dir_csr l (combine inds data) w off | ORhs i b => set_constraint_rhs l i b
  end.
(** what a caller must respect *)
Definition op_ok (o : lop) (l : lp) : Prop :=
  match o with
  | OCsr a _ | OCsc a _ => arr_ok a
  | OReach d bm cvo ie => layout d bm cvo ie /\ cvo + d <= l_nc l
  | ODirCsr data inds w _ => List.length inds = List.length data /\ NoDup inds /\ forall c, In c inds -> c < w
  | _ => True
  end.
Fixpoint lo_run (os : list lop) (g : lpi) : abt lpi := match os with [] => ret g | o :: r => call g1 <- lo_op o g; lo_run r g1 end.
Fixpoint hi_run (os : list lop) (l : lp) : res lp := match os with [] => Ok l | o :: r => do l1 <- hi_op o l; hi_run r l1 end.
Fixpoint ops_ok (os : list lop) (l : lp) : Prop :=
  match os with [] => True | o :: r => op_ok o l /\ match hi_op o l with Ok l1 => ops_ok r l1 | Err _ => True end end.
