(** Specification of LPs as sets of points, and the contract of the LP solver.
    Nothing here mentions the model's functions except the record of rows and the oracle's type. *)
From Verif Require Import Base LpModel.
Open Scope Q_scope.

(** A vector of column values satisfies an LP when it satisfies every row. *)
Definition lp_sat (l : lp) (x : vec) : Prop := Forall (fun r => row_sat r x) (l_rows l).

(** The set represented by an LP: projection on the current-time variables. *)
Definition in_lp (l : lp) (p : vec) : Prop :=
  exists x, lp_sat l x /\ forall i, (i < l_dims l)%nat -> x (l_cvo l + i)%nat == p i.

(** All rows only use existing columns. *)
Definition lp_cols_ok (l : lp) : Prop := Forall (fun r => row_cols_lt (l_nc l) (r_co r)) (l_rows l).

(** Contract of the LP solver (exact arithmetic): an optimal answer is feasible and minimal, an infeasible answer is
    right.  Nothing is promised about [SFail]. *)
Definition solver_ok (solve : solver) : Prop :=
  forall l, match solve l with
            | SOpt x => lp_sat l x /\ (forall y, lp_sat l y -> reval (l_obj l) x <= reval (l_obj l) y)
            | SInfeas => forall x, ~ lp_sat l x
            | SFail => True
            end.

(** A solver that moreover only fails on LPs whose objective is unbounded. *)
Definition solver_complete (solve : solver) : Prop :=
  forall l, solve l = SFail -> lp_cols_ok l ->
    forall b, exists x, lp_sat l x /\ reval (l_obj l) x < b.
(* (this also says the LP is feasible) *)

(** ** Polyhedra given by inequalities A p <= b (csr matrix and right-hand sides) *)
Definition poly (A : list srow) (b : list Q) (p : vec) : Prop :=
  forall i r c, nth_error A i = Some r -> nth_error b i = Some c -> reval r p <= c.

(** Typed version: each row is an equality, an upper or a lower bound. *)
Definition tpoly (A : list srow) (ts : list rty) (b : list Q) (p : vec) : Prop :=
  forall i r t c, nth_error A i = Some r -> nth_error ts i = Some t -> nth_error b i = Some c -> row_sat (mkRow t r c) p.
