(* Specification vocabulary for C59: finite real vectors, inner products, orthonormal bases.
   Nothing here refers to the program; this is textbook linear algebra. *)
From Coq Require Import Reals List Lia Lra Arith.
Import ListNotations.
Open Scope R_scope.

(* a vector of n real entries: only the entries below n matter *)
Definition rvec := nat -> R.

Fixpoint rsum (n : nat) (f : nat -> R) : R :=
  match n with O => 0 | S k => rsum k f + f k end.

Definition dot (n : nat) (u v : rvec) : R := rsum n (fun i => u i * v i).

Definition norm (n : nat) (u : rvec) : R := sqrt (dot n u u).

(* matrix times vector, n columns *)
Definition mulv (n : nat) (A : nat -> rvec) (v : rvec) : rvec := fun i => dot n (A i) v.

Definition row (M : list rvec) (i : nat) : rvec := nth i M (fun _ => 0).

(* rows of M are pairwise orthogonal unit vectors *)
Definition orthonormal (n : nat) (M : list rvec) : Prop :=
  forall i j, (i < length M)%nat -> (j < length M)%nat ->
    dot n (row M i) (row M j) = if Nat.eq_dec i j then 1 else 0.

(* combination of the rows of M with coefficients c *)
Definition comb (M : list rvec) (c : nat -> R) : rvec := fun e => rsum (length M) (fun i => c i * row M i e).

Definition independent (n : nat) (M : list rvec) : Prop :=
  forall c, (forall e, (e < n)%nat -> comb M c e = 0) -> forall i, (i < length M)%nat -> c i = 0.

Definition spanning (n : nat) (M : list rvec) : Prop :=
  forall x, exists c, forall e, (e < n)%nat -> x e = comb M c e.

(* the part of x outside the span of the orthonormal rows of M *)
Definition outside (n : nat) (M : list rvec) (x : rvec) : rvec :=
  fun e => x e - comb M (fun i => dot n (row M i) x) e.

(* what the next direction is, given those found so far and the vector the dynamics is applied to *)
Definition next_dir (n : nat) (A : nat -> rvec) (M : list rvec) (prev v : rvec) : Prop :=
  let r := outside n M (mulv n A prev) in
  (/ 1000000 <= norm n r -> forall e, (e < n)%nat -> v e = r e / norm n r) /\
  (norm n r < / 1000000 -> forall d, (d < n)%nat -> (forall i, (i < length M)%nat -> row M i d = 0) ->
     (forall d', (d' < d)%nat -> exists i, (i < length M)%nat /\ row M i d' <> 0) ->
     forall e, (e < n)%nat -> v e = if Nat.eq_dec e d then 1 else 0).

(* the vector the dynamics is applied to next: the last direction found, or the sample point *)
Definition prev_of (point : rvec) (M : list rvec) : rvec := last M point.

(* np.random.rand draws from [0, 1) *)
Definition in_range (v : rvec) : Prop := forall e, 0 <= v e < 1.

(* spans of the leading rows of the argument *)
Definition in_span (n i : nat) (mat : list rvec) (v : rvec) : Prop :=
  exists c, forall e, (e < n)%nat -> v e = rsum i (fun j => c j * row mat j e).

(* every one of the first k rows is at least 1e-6 away from the span of the rows before it *)
Definition apart (n : nat) (mat : list rvec) (k : nat) : Prop :=
  forall i c, (i < k)%nat -> / 1000000 <= norm n (fun e => row mat i e - rsum i (fun j => c j * row mat j e)).

(* L lists coordinates at which the first k rows vanish *)
Definition vanish (n : nat) (M : list rvec) (k : nat) (L : list nat) : Prop :=
  NoDup L /\ (forall d, In d L -> (d < n)%nat) /\ forall d i, In d L -> (i < k)%nat -> row M i d = 0.
