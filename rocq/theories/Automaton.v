(** Model of hylaa/hybrid_automaton.py: modes, transitions, guards, guard strengthening, time-triggered detection.

    Object references are numbers: a mode is its position in [ha_modes] (= mode_id, hybrid_automaton.py:481), a transition
    its position in [ha_trans].  The dict modes (name -> mode) is the list in insertion order (names are distinct,
    hybrid_automaton.py:479).  scipy matrices are [csr] values; the isinstance / dtype conversions are not modelled. *)
From Verif Require Import Base LpModel LpUtil.
Open Scope nat_scope.

(** hybrid_automaton.py:16-28 LinearConstraint; [lc_w] is csr.shape[1] (the shape[0] == 1 assert is the type). *)
Record lincon := mkLc { lc_row : srow; lc_w : nat; lc_rhs : Q }.

(** hybrid_automaton.py:60-63 negate *)
Definition lc_negate (c : lincon) : lincon := mkLc (scale_row (-1)%Q (lc_row c)) (lc_w c) (- lc_rhs c)%Q.

(** hybrid_automaton.py:55-58 is_true_for_point *)
Definition lc_true (c : lincon) (p : vec) : bool := Qle_bool (reval (lc_row c) p) (lc_rhs c).

(** numpy: (a == b).all() for integer arrays.  Equal lengths: elementwise; one of length 1: broadcast; otherwise == gives the
    Python bool False, which has no attribute all. *)
Definition np_eq_all (a b : list nat) : res bool :=
  if List.length a =? List.length b then Ok (forallb (fun ab => Nat.eqb (fst ab) (snd ab)) (combine a b))
  else match a, b with
       | [x], _ => Ok (forallb (Nat.eqb x) b)
       | _, [y] => Ok (forallb (Nat.eqb y) a)
       | _, _ => Err EType
       end.

(** hybrid_automaton.py:43-51: the loop over the stored values *)
Fixpoint data_close (a b : list Q) (tol : Q) : res bool :=
  match a with
  | [] => Ok true
  | x :: a' =>
      match b with
      | [] => Err EIndex
      | y :: b' => if Qle_bool (Qabs (x - y)) tol then data_close a' b' tol else Ok false
      end
  end.

(** hybrid_automaton.py:30-53 almost_equals; line 41 compares self.csr.indptr with itself (always true). *)
Definition almost_equals (self other : lincon) (tol : Q) : res bool :=
  if negb (Qle_bool (Qabs (lc_rhs self - lc_rhs other)) tol) then Ok false
  else if negb (lc_w self =? lc_w other) then Ok false
  else
    do same <- np_eq_all (map fst (lc_row self)) (map fst (lc_row other));
    if negb same then Ok false
    else data_close (map snd (lc_row self)) (map snd (lc_row other)) tol.

(** hybrid_automaton.py:71-100 Mode.  [m_a] = None is an error mode.  [m_b] = (b_csr, u_constraints, u_constraints_rhs); the
    three are assigned together (hybrid_automaton.py:231-235).  [m_bm k], [m_ie k] are what mode.time_elapse.get_basis_matrix(k)
    returns (modelled in TimeElapse.v, where independence of the call history is proved). *)
Record mode := mkMode {
  m_name : string;
  m_a : option csr;
  m_b : option (csr * csr * list Q);
  m_inv : list lincon;
  m_bm : nat -> mat;
  m_ie : nat -> mat }.

(** hybrid_automaton.py:260-284 Transition.  [t_guard] = None until set_guard; [t_mink] = (minkowski_csr, constraints, rhs). *)
Record trans := mkTrans {
  t_name : string;
  t_from : nat;
  t_to : nat;
  t_guard : option (csr * list Q);
  t_reset : option csr;
  t_mink : option (csr * csr * list Q);
  t_tt : bool;                     (* time_triggered *)
  t_index : nat }.                 (* transition_index *)

(** hybrid_automaton.py:466-474 HybridAutomaton *)
Record ha := mkHa { ha_modes : list mode; ha_trans : list trans }.

Definition dmode : mode := mkMode "" None None [] (fun _ => []) (fun _ => []).
Definition dtrans : trans := mkTrans "" 0 0 None None None false 0.
Definition get_mode (a : ha) (i : nat) : mode := nth i (ha_modes a) dmode.
Definition get_trans (a : ha) (i : nat) : trans := nth i (ha_trans a) dtrans.

(** hybrid_automaton.py:102-105 is_error *)
Definition is_error (m : mode) : bool := match m_a m with None => true | Some _ => false end.
(** a_csr.shape[0] (0 for error modes, never used there) *)
Definition m_dims (m : mode) : nat := match m_a m with None => 0 | Some a => c_nr a end.
Definition has_inputs (m : mode) : bool := match m_b m with None => false | Some _ => true end.
Definition m_nu (m : mode) : nat := match m_b m with None => 0 | Some (_, uc, _) => c_nc uc end.

(** mode.transitions: the outgoing transitions in creation order (hybrid_automaton.py:281-282) *)
Definition out_trans (a : ha) (m : nat) : list nat := filter (fun t => t_from (get_trans a t) =? m) (seq 0 (List.length (ha_trans a))).

(** hybrid_automaton.py:107-117 point_in_invariant *)
Definition point_in_invariant (m : mode) (p : vec) : bool := forallb (fun c => lc_true c p) (m_inv m).

(** hybrid_automaton.py:286-298 is_guard_true_for_point: zip of the products and guard_rhs *)
Definition is_guard_true_for_point (t : trans) (p : vec) : res bool :=
  match t_guard t with
  | None => Err EType
  | Some (g, rhs) => Ok (forallb (fun rb => Qle_bool (reval (fst rb) p) (snd rb)) (combine (c_rows g) rhs))
  end.

(** hybrid_automaton.py:300-315 apply_reset_for_point *)
Definition apply_reset_for_point (t : trans) (p : vec) : res (vec * nat) :=
  do _ <- assert (match t_mink t with None => true | Some _ => false end);
  Ok (match t_reset t with
      | None => p
      | Some r => fun i => reval (nth i (c_rows r) []) p
      end, t_to t).

(** ** Construction of an automaton (hybrid_automaton.py:119-245, 317-413, 476-491) *)
Definition upd_nth {A} (i : nat) (v : A) (l : list A) : list A := firstn i l ++ match skipn i l with [] => [] | _ :: r => v :: r end.
Definition with_mode (a : ha) (i : nat) (m : mode) : ha := mkHa (upd_nth i m (ha_modes a)) (ha_trans a).
Definition with_trans (a : ha) (i : nat) (t : trans) : ha := mkHa (ha_modes a) (upd_nth i t (ha_trans a)).
Definition m_with_a (m : mode) (x : option csr) := mkMode (m_name m) x (m_b m) (m_inv m) (m_bm m) (m_ie m).
Definition m_with_b (m : mode) (x : option (csr * csr * list Q)) := mkMode (m_name m) (m_a m) x (m_inv m) (m_bm m) (m_ie m).
Definition m_with_inv (m : mode) (x : list lincon) := mkMode (m_name m) (m_a m) (m_b m) x (m_bm m) (m_ie m).
Definition t_with_guard (t : trans) (g : option (csr * list Q)) :=
  mkTrans (t_name t) (t_from t) (t_to t) g (t_reset t) (t_mink t) (t_tt t) (t_index t).
Definition t_with_reset (t : trans) (r : option csr) (k : option (csr * csr * list Q)) :=
  mkTrans (t_name t) (t_from t) (t_to t) (t_guard t) r k (t_tt t) (t_index t).
Definition t_with_tt (t : trans) (b : bool) :=
  mkTrans (t_name t) (t_from t) (t_to t) (t_guard t) (t_reset t) (t_mink t) b (t_index t).

(** hybrid_automaton.py:476-483 new_mode *)
Definition new_mode (a : ha) (name : string) : res ha :=
  do _ <- assert (forallb (fun m => negb (String.eqb (m_name m) name)) (ha_modes a));
  Ok (mkHa (ha_modes a ++ [mkMode name None None [] (fun _ => []) (fun _ => [])]) (ha_trans a)).

(** hybrid_automaton.py:485-491 new_transition *)
Definition new_transition (a : ha) (f t : nat) (name : string) : ha :=
  mkHa (ha_modes a) (ha_trans a ++ [mkTrans name f t None None None false (List.length (out_trans a f))]).

(** hybrid_automaton.py:237-245 set_dynamics *)
Definition set_dynamics (a : ha) (i : nat) (x : csr) : res ha :=
  do _ <- assert (c_nr x =? c_nc x);
  Ok (with_mode a i (m_with_a (get_mode a i) (Some x))).

(** the two checks of set_invariant / set_guard / set_inputs / set_reset that a transposed or truncated rhs fails are
    lputil.is_feasible's own length assert ([csr_feasible]). *)
Section WithSolver.
Variable solve : solver.

(** hybrid_automaton.py:119-155 set_invariant: appends one LinearConstraint per row *)
Definition set_invariant (a : ha) (i : nat) (c : csr) (rhs : list Q) : res ha :=
  let m := get_mode a i in
  match m_a m with
  | None => Err EAssert
  | Some x =>
      do _ <- assert (c_nc c =? c_nr x);
      do _ <- assert (c_nr c =? List.length rhs);
      do f <- csr_feasible solve c rhs;
      do _ <- assert f;
      Ok (with_mode a i (m_with_inv m (m_inv m ++ map (fun rb => mkLc (fst rb) (c_nc c) (snd rb)) (combine (c_rows c) rhs))))
  end.

(** hybrid_automaton.py:157-206 _check_inputs.  The dense comparison np.array_equiv(lb_row, row) of a row is [same_dense]. *)
Definition same_dense (n : nat) (r : srow) (d : list Q) : bool :=
  forallb (fun ab => Qeq_bool (fst ab) (snd ab)) (combine (dense_of r n) d).
Definition b_col_nonzeros (b : csr) (i : nat) : nat :=
  List.length (filter (fun r => negb (Qeq_bool (nth i (dense_of r (c_nc b)) 0%Q) 0%Q)) (c_rows b)).
Fixpoint last_bounds (nu i : nat) (rows : list srow) (rhs : list Q) (lb ub : option Q) : option Q * option Q :=
  match rows, rhs with
  | r :: rows', b :: rhs' =>
      if same_dense nu r (map (fun n => if Nat.eqb n i then 1%Q else 0%Q) (seq 0 nu)) then last_bounds nu i rows' rhs' (Some b) ub
      else if same_dense nu r (map (fun n => if Nat.eqb n i then (-1)%Q else 0%Q) (seq 0 nu)) then last_bounds nu i rows' rhs' lb (Some (- b)%Q)
      else last_bounds nu i rows' rhs' lb ub
  | _, _ => (lb, ub)
  end.
Definition input_is_const (b uc : csr) (ur : list Q) (i : nat) : bool :=
  (b_col_nonzeros b i =? 1) &&
  match last_bounds (c_nc b) i (c_rows uc) ur None None with
  | (Some lb, Some ub) => negb (Qle_bool (1 # 1000000000) (Qabs (ub - lb)))
  | _ => false
  end.
Definition check_inputs (x b uc : csr) (ur : list Q) (allow_constants : bool) : res unit :=
  do _ <- assert (c_nr uc =? List.length ur);
  do _ <- assert (c_nc uc =? c_nc b);
  do _ <- assert (c_nr b =? c_nr x);
  do f <- csr_feasible solve uc ur;
  do _ <- assert f;
  if negb allow_constants && existsb (input_is_const b uc ur) (seq 0 (c_nc b)) then Err ERuntime else Ok tt.

(** hybrid_automaton.py:208-235 set_inputs *)
Definition set_inputs (a : ha) (i : nat) (b uc : csr) (ur : list Q) (allow_constants : bool) : res ha :=
  let m := get_mode a i in
  match m_a m with
  | None => Err EAssert
  | Some x => do _ <- check_inputs x b uc ur allow_constants; Ok (with_mode a i (m_with_b m (Some (b, uc, ur))))
  end.

(** hybrid_automaton.py:325-346 set_guard *)
Definition set_guard (a : ha) (i : nat) (g : csr) (rhs : list Q) : res ha :=
  let t := get_trans a i in
  match m_a (get_mode a (t_from t)) with
  | None => Err EAssert
  | Some x =>
      do _ <- (if 0 <? c_nr g then assert (c_nc g =? c_nr x) else Ok tt);
      do f <- csr_feasible solve g rhs;
      do _ <- assert f;
      do _ <- assert (List.length rhs =? c_nr g);
      Ok (with_trans a i (t_with_guard t (Some (g, rhs))))
  end.

(** hybrid_automaton.py:317-323 set_guard_true *)
Definition set_guard_true (a : ha) (i : nat) : res ha :=
  match m_a (get_mode a (t_from (get_trans a i))) with
  | None => Err EAssert
  | Some x => set_guard a i (mkCsr (c_nc x) []) []
  end.

(** hybrid_automaton.py:348-413 set_reset.  [mc] = Some (constraints, rhs) or None; if [mc] = None, a minkowski_csr given
    alone would be stored without constraints and fail later with a TypeError in add_reset_variables: this misuse is not
    represented ([mk] is ignored then). *)
Definition set_reset (a : ha) (i : nat) (reset : option csr) (mk : option csr) (mc : option (csr * list Q)) : res ha :=
  let t := get_trans a i in
  match m_a (get_mode a (t_from t)) with
  | None => Err EAssert
  | Some x =>
      let y := match m_a (get_mode a (t_to t)) with None => x | Some y => y end in
      do r <- match reset with
              | None => do _ <- assert (c_nr x =? c_nr y); Ok (ident_csr (c_nr x))
              | Some r => Ok r
              end;
      do _ <- assert (c_nc r =? c_nr x);
      do _ <- assert (c_nr r =? c_nr y);
      do k <- match mc with
              | None => Ok None
              | Some (c, rhs) =>
                  do _ <- assert (c_nr c =? List.length rhs);
                  let m := match mk with None => ident_csr (c_nc c) | Some m => m end in
                  do _ <- assert (c_nr m =? c_nr y);
                  do _ <- assert (c_nc m =? c_nc c);
                  do f <- csr_feasible solve c rhs;
                  do _ <- assert f;
                  Ok (Some (m, c, rhs))
              end;
      Ok (with_trans a i (t_with_reset t (Some r) k))
  end.
End WithSolver.

(** hybrid_automaton.py:493-516 check_transitions *)
Fixpoint check_trans_list (a : ha) (ts : list trans) : res unit :=
  match ts with
  | [] => Ok tt
  | t :: ts' =>
      match m_a (get_mode a (t_from t)) with
      | None => Err EAssert
      | Some x =>
          do _ <- assert (match t_guard t with None => false | Some _ => true end);
          do _ <- match m_a (get_mode a (t_to t)) with
                  | None => Ok tt
                  | Some y => assert ((c_nr x =? c_nr y) || match t_reset t with None => false | Some _ => true end)
                  end;
          check_trans_list a ts'
      end
  end.
Definition check_transitions (a : ha) : res unit := check_trans_list a (ha_trans a).

(** ** Guard intersection (hybrid_automaton.py:415-456).  Returns the lp passed in (its objective changes) and the new lp. *)
Section Guard.
Variable solve : solver.
Fixpoint guard_rows_sat (l : lp) (width : nat) (rows : list srow) (rhs : list Q) : res (lp * bool) :=
  match rows with
  | [] => Ok (l, true)
  | r :: rows' =>
      do l1 <- set_min_dir_csr l r width None;
      do v <- minimize solve l1 (Some (map (fun e => l_cvo l1 + fst e) r)) false;
      match v with
      | None => Ok (l1, false)
      | Some vals =>
          match rhs with
          | [] => Err EIndex
          | b :: rhs' =>
              if Qle_bool (dot_vals (map snd r) vals) b then guard_rows_sat l1 width rows' rhs' else Ok (l1, false)
          end
      end
  end.
Definition get_guard_intersection (t : trans) (l : lp) : res (lp * option lp) :=
  match t_guard t with
  | None => Err EType                                (* enumerate(None) *)
  | Some (g, rhs) =>
      do r <- guard_rows_sat l (c_nc g) (c_rows g) rhs;
      let '(l1, all_sat) := r in
      if all_sat then
        do t_lpi <- clone l1;
        do t_lpi <- add_curtime_constraints t_lpi g rhs;
        do f <- lp_is_feasible solve t_lpi;
        Ok (l1, if f then Some t_lpi else None)
      else Ok (l1, None)
  end.
End Guard.

(** ** Guard strengthening (hybrid_automaton.py:518-573) *)
Definition tol13 : Q := 1 # 10000000000000.
Fixpoint in_guard (rows : list srow) (rhs : list Q) (w : nat) (c : lincon) : res bool :=
  match rows with
  | [] => Ok false
  | r :: rows' =>
      match rhs with
      | [] => Err EIndex
      | b :: rhs' => do e <- almost_equals (mkLc r w b) c tol13; if (e : bool) then Ok true else in_guard rows' rhs' w c
      end
  end.
Fixpoint missing_invs (rows : list srow) (rhs : list Q) (w : nat) (inv : list lincon) : res (list lincon) :=
  match inv with
  | [] => Ok []
  | c :: inv' =>
      do e <- in_guard rows rhs w c;
      do more <- missing_invs rows rhs w inv';
      Ok (if (e : bool) then more else c :: more)
  end.
Definition strengthen_trans (a : ha) (t : trans) : res trans :=
  if (t_from t =? t_to t) || t_tt t || match t_reset t with None => false | Some _ => true end then Ok t
  else
    match m_inv (get_mode a (t_to t)) with
    | [] => Ok t
    | inv =>
        match t_guard t with
        | None => Err EType                          (* t.guard_csr.shape *)
        | Some (g, rhs) =>
            do add <- missing_invs (c_rows g) rhs (c_nc g) inv;
            match add with
            | [] => Ok t
            | _ =>
                let rows := c_rows g ++ map lc_row add in
                (* csr_matrix(...) checks the column indices against the width, line 568 *)
                do _ <- (if forallb (row_cols_ltb (c_nc g)) rows then Ok tt else Err EValue);
                Ok (t_with_guard t (Some (mkCsr (c_nc g) rows, rhs ++ map lc_rhs add)))
            end
        end
    end.
Fixpoint map_res {A B} (f : A -> res B) (l : list A) : res (list B) :=
  match l with [] => Ok [] | x :: r => do y <- f x; do ys <- map_res f r; Ok (y :: ys) end.
Definition do_guard_strengthening (a : ha) : res ha :=
  do ts <- map_res (strengthen_trans a) (ha_trans a); Ok (mkHa (ha_modes a) ts).

(** ** Time-triggered transitions (hybrid_automaton.py:575-809) *)
Definition in_nat (x : nat) (l : list nat) : bool := existsb (Nat.eqb x) l.

(** hybrid_automaton.py:617-645 get_tt_vars *)
Definition get_tt_vars (m : mode) : list nat :=
  match m_a m with
  | None => []
  | Some a =>
      let consts := filter (fun i => List.length (nth i (c_rows a) []) =? 0) (seq 0 (c_nr a)) in
      filter (fun i => let r := nth i (c_rows a) [] in
                       negb (List.length r =? 0) && forallb (fun e => Qeq_bool (snd e) 0 || in_nat (fst e) consts) r)
             (seq 0 (c_nr a))
  end.
Definition row_only (vars : list nat) (r : srow) : bool := forallb (fun e => Qeq_bool (snd e) 0 || in_nat (fst e) vars) r.

(** (-1 * lc.csr != row).nnz == 0; scipy's != on different shapes gives the Python bool True, which has no nnz *)
Definition opposite (c : lincon) (w : nat) (r : srow) : res bool :=
  if negb (lc_w c =? w) then Err EType
  else Ok (forallb (fun ab => Qeq_bool (fst ab) (snd ab)) (combine (dense_of (scale_row (-1)%Q (lc_row c)) w) (dense_of r w))).
Fixpoint find_opposite (test : Q -> bool) (inv : list lincon) (w : nat) (r : srow) : res bool :=
  match inv with
  | [] => Ok false
  | c :: inv' =>
      if test (lc_rhs c) then do o <- opposite c w r; if (o : bool) then Ok true else find_opposite test inv' w r
      else find_opposite test inv' w r
  end.

(** hybrid_automaton.py:647-710 check_and_relax_time_triggered: returns the new guard rhs and whether it is time triggered *)
Fixpoint relax_rows (tv : list nat) (inv : list lincon) (w : nat) (eps : Q) (rows : list srow) (rhs : list Q) : res (list Q * bool) :=
  match rows, rhs with
  | r :: rows', b :: rhs' =>
      do found <- (if row_only tv r then find_opposite (fun c => Qeq_bool c (-1 * b)) inv w r else Ok false);
      do rest <- relax_rows tv inv w eps rows' rhs';
      Ok ((if (found : bool) then (b + eps)%Q else b) :: fst rest, found || snd rest)
  | _, _ => Ok (rhs, false)
  end.
Definition check_and_relax (a : ha) (t : trans) (tv : list nat) (eps : Q) : res trans :=
  let inv := m_inv (get_mode a (t_from t)) in
  if forallb (fun c => row_only tv (lc_row c)) inv then
    match t_guard t with
    | None => Err EType
    | Some (g, rhs) =>
        do r <- relax_rows tv inv (c_nc g) eps (c_rows g) rhs;
        let t' := t_with_guard t (Some (g, fst r)) in
        Ok (if snd r then t_with_tt t' true else t')
    end
  else Ok t.

(** hybrid_automaton.py:575-615 detect_tt_transitions *)
Definition detect_tt (a : ha) (step_size : Q) (num_steps : nat) : res ha :=
  if (num_steps =? 0) then Err EValue                    (* division by zero *)
  else
    let eps := (step_size / inject_Z (Z.of_nat num_steps) / 1000)%Q in
    do ts <- map_res (fun t =>
               let m := get_mode a (t_from t) in
               if is_error m then Ok t
               else match get_tt_vars m with
                    | [] => Ok t
                    | tv => check_and_relax a t tv eps
                    end) (ha_trans a);
    Ok (mkHa (ha_modes a) ts).

(** hybrid_automaton.py:712-809 was_tt_taken *)
Section TtTaken.
Variable solve : solver.
Definition dedup_add (acc : list nat) (x : nat) : list nat := if in_nat x acc then acc else acc ++ [x].
Fixpoint affine_check (l : lp) (vars : list nat) (eps : Q) : res (lp * bool) :=
  match vars with
  | [] => Ok (l, true)
  | v :: vars' =>
      do l1 <- set_min_dir l (map (fun n => if Nat.eqb n v then 1%Q else 0%Q) (seq 0 (l_dims l)));
      do mn <- minimize solve l1 (Some [l_cvo l1 + v]) true;
      do l2 <- set_min_dir l1 (map (fun n => if Nat.eqb n v then (-1)%Q else 0%Q) (seq 0 (l_dims l)));
      do mx <- minimize solve l2 (Some [l_cvo l2 + v]) true;
      match mn, mx with
      | Some (mn :: _), Some (mx :: _) =>
          if negb (Qle_bool (Qabs (mx - mn)) eps) || negb (Qle_bool eps (Qabs mx)) then Ok (l2, false)
          else affine_check l2 vars' eps
      | _, _ => Err EType
      end
  end.
Fixpoint tt_rows (m : mode) (tv : list nat) (l : lp) (w : nat) (eps : Q) (rows : list srow) (rhs : list Q) (rv : bool) : res (lp * bool) :=
  match rows, rhs with
  | r :: rows', b :: rhs' =>
      do found <- (if row_only tv r then find_opposite (fun c => negb (Qle_bool eps (Qabs (c - -1 * b)))) (m_inv m) w r else Ok false);
      if negb found then tt_rows m tv l w eps rows' rhs' rv
      else
        let guard_vars := map fst (filter (fun e => negb (Qeq_bool (snd e) 0)) r) in
        let arows := match m_a m with None => [] | Some a => c_rows a end in
        let affine := fold_left dedup_add
                        (flat_map (fun v => map fst (filter (fun e => negb (Qeq_bool (snd e) 0)) (nth v arows []))) guard_vars) [] in
        do lo <- affine_check l affine eps;
        let '(l1, ok) := lo in
        if ok then
          let d := dense_of r w in
          let cols := seq (l_cvo l1) (l_dims l1) in
          do l2 <- set_min_dir l1 d;
          do mn <- minimize solve l2 (Some cols) true;
          do l3 <- set_min_dir l2 (map (fun v => (-1 * v)%Q) d);
          do mx <- minimize solve l3 (Some cols) true;
          match mn, mx with
          | Some mn, Some mx =>
              (* np.dot raises when the guard is narrower than the lp *)
              if negb (w =? l_dims l1) then Err EValue
              else
                let a := dot_vals d mn in
                let c := dot_vals d mx in
                tt_rows m tv l3 w eps rows' rhs' (if negb (Qle_bool eps (Qabs (c - a))) && Qle_bool a b then true else rv)
          | _, _ => Err EType
          end
        else tt_rows m tv l1 w eps rows' rhs' rv
  | _, _ => Ok (l, rv)
  end.
Definition was_tt_taken (a : ha) (l : lp) (t : trans) (step_size : Q) (num_steps : nat) : res (lp * bool) :=
  if num_steps =? 0 then Err EValue
  else
    let eps := (2 * step_size / inject_Z (Z.of_nat num_steps) / 1000)%Q in
    match t_guard t with
    | None => Err EType
    | Some (g, rhs) => let m := get_mode a (t_from t) in tt_rows m (get_tt_vars m) l (c_nc g) eps (c_rows g) rhs false
    end.
End TtTaken.
