(** Specification vocabulary for the discrete-time flow of one mode. *)
From Verif Require Import Base.
Open Scope nat_scope.

(** [flow n E k x] : the state after k steps of x' = E x *)
Fixpoint flow (E : mat) (k : nat) (x : vec) : vec :=
  match k with 0 => x | S k' => mapply E (flow E k' x) end.

(** Contract of the external matrix exponential: expm(A k h) applied to a vector is the k-fold application of expm(A h). *)
Definition expm_ok (n : nat) (expm : nat -> mat) : Prop :=
  forall k, mat_dims n n (expm k) /\ forall x, veq n (mapply (expm k) x) (flow (expm 1) k x).

(** M represents the linear map f on vectors of length m, with n outputs *)
Definition represents (n : nat) (M : mat) (f : vec -> vec) : Prop := forall x, veq n (mapply M x) (f x).
