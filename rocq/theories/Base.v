(** Base definitions shared by the whole model: errors as values, rational vectors, sparse rows, dense matrices.

    Python floats are modelled by exact rationals [Q] (rounding is not modelled). *)
From Coq Require Export List Arith ZArith QArith Qabs Lia Lqa Bool Setoid Morphisms.
From Coq Require Export String.
Export ListNotations.
Open Scope list_scope.
Open Scope nat_scope.

(** Exceptions of the Python code, as values. *)
Inductive err : Set :=
| EAssert        (* AssertionError *)
| ERuntime       (* RuntimeError, e.g. unbounded LP or out-of-bounds constraints *)
| EUnsat         (* lpinstance.UnsatError *)
| EIndex         (* IndexError *)
| EType          (* TypeError / AttributeError *)
| EUnbound       (* UnboundLocalError *)
| EMemory        (* MemoryError *)
| EValue         (* ValueError, e.g. int() of a non-number *)
| ENotImpl.      (* NotImplementedError *)

Inductive res (A : Type) : Type :=
| Ok (a : A)
| Err (e : err).
Arguments Ok {A} a.
Arguments Err {A} e.

Definition bind {A B} (m : res A) (f : A -> res B) : res B :=
  match m with Ok a => f a | Err e => Err e end.
Notation "'do' x <- m ; k" := (bind m (fun x => k)) (at level 200, x pattern, right associativity).

Lemma bind_ok {A B} (m : res A) (f : A -> res B) b :
  bind m f = Ok b -> exists a, m = Ok a /\ f a = Ok b.
Proof. destruct m; simpl; intro H; [eauto | discriminate]. Qed.

(** [assert c] of Python. *)
Definition assert (c : bool) : res unit := if c then Ok tt else Err EAssert.

Lemma assert_ok c u : assert c = Ok u -> c = true.
Proof. destruct c; simpl; congruence. Qed.

(** ** Rational vectors *)
Definition vec := nat -> Q.

Definition veq (n : nat) (x y : vec) : Prop := forall i, (i < n)%nat -> (x i == y i)%Q.

Lemma veq_refl n x : veq n x x.
Proof. intros i _; reflexivity. Qed.
Lemma veq_sym n x y : veq n x y -> veq n y x.
Proof. intros H i Hi; symmetry; auto. Qed.
Lemma veq_trans n x y z : veq n x y -> veq n y z -> veq n x z.
Proof. intros H1 H2 i Hi; rewrite (H1 i Hi); auto. Qed.

Definition vzero : vec := fun _ => 0%Q.
Definition of_list (l : list Q) : vec := fun i => nth i l 0%Q.

(** ** Sparse rows: one row of a scipy csr_matrix, a list of (column, value) entries *)
Definition srow := list (nat * Q).

Fixpoint reval (r : srow) (x : vec) : Q :=
  match r with
  | [] => 0
  | (c, a) :: r' => (a * x c + reval r' x)%Q
  end.

Definition shift_row (off : nat) (r : srow) : srow := map (fun e => (off + fst e, snd e)) r.
Definition scale_row (k : Q) (r : srow) : srow := map (fun e => (fst e, (k * snd e)%Q)) r.
Definition row_cols_lt (n : nat) (r : srow) : Prop := Forall (fun e => fst e < n) r.
Definition row_cols_ltb (n : nat) (r : srow) : bool := forallb (fun e => Nat.ltb (fst e) n) r.

(** A scipy csr matrix: number of columns and the rows. *)
Record csr := mkCsr { c_nc : nat; c_rows : list srow }.
Definition c_nr (m : csr) : nat := List.length (c_rows m).
Definition csr_ok (m : csr) : Prop := Forall (row_cols_lt (c_nc m)) (c_rows m).

(** ** Dense rows and matrices (numpy arrays) *)
Fixpoint ldot (l : list Q) (off : nat) (x : vec) : Q :=
  match l with
  | [] => 0
  | a :: l' => (a * x off + ldot l' (S off) x)%Q
  end.

Definition mat := list (list Q).
Definition mrow (M : mat) (i : nat) : list Q := nth i M [].
Definition mapply (M : mat) (x : vec) : vec := fun i => ldot (mrow M i) 0 x.
Definition mat_dims (n m : nat) (M : mat) : Prop := List.length M = n /\ Forall (fun r => List.length r = m) M.

(** The sparse form of a dense row placed at column [off]. *)
Fixpoint dense_row (l : list Q) (off : nat) : srow :=
  match l with
  | [] => []
  | a :: l' => (off, a) :: dense_row l' (S off)
  end.

(** Dense form of a sparse row of width [n] (csr.toarray()). *)
Definition dense_of (r : srow) (n : nat) : list Q :=
  map (fun c => fold_right (fun e acc => if Nat.eqb (fst e) c then (snd e + acc)%Q else acc) 0%Q r) (seq 0 n).

(** Unit vector e_i of length n and identity matrix. *)
Definition unit_row (n i : nat) : list Q := map (fun j => if Nat.eqb j i then 1%Q else 0%Q) (seq 0 n).
Definition ident (n : nat) : mat := map (unit_row n) (seq 0 n).

(** Vector-matrix and matrix-matrix products of dense data. *)
Fixpoint ladd (a b : list Q) : list Q :=
  match a, b with
  | x :: a', y :: b' => (x + y)%Q :: ladd a' b'
  | _, _ => []
  end.
Definition lscale (k : Q) (a : list Q) : list Q := map (fun v => Qred (k * v)) a.
Definition lzero (n : nat) : list Q := repeat 0%Q n.

(** v * M where M has rows of length n. *)
Fixpoint vmul (n : nat) (v : list Q) (M : mat) : list Q :=
  match v, M with
  | a :: v', r :: M' => ladd (lscale a r) (vmul n v' M')
  | _, _ => lzero n
  end.
Definition mmul (n : nat) (A B : mat) : mat := map (fun r => vmul n r B) A.
