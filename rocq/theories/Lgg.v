(** Model of the steps of a state set under APPROX_LGG: add_input_effects_matrix with lgg_beta, and the wider input effects matrices. *)
From Verif Require Import Base LpModel LpUtil Automaton StateSet TimeElapse.
Open Scope nat_scope.

(** lputil.py:218-301 add_input_effects_matrix with lgg_beta.  Line 233 asserts a sum, not the width: it only fails for an empty matrix; a
    matrix that is too narrow raises IndexError at line 279. *)
Definition add_input_effects_beta (beta : option Q) (l : lp) (ie : mat) (mid num_vars : nat) (u_con : csr) (u_rhs : list Q) : res lp :=
  match beta with
  | None => add_input_effects_matrix l ie mid num_vars u_con u_rhs
  | Some be =>
      match l_ie l with
      | None => Err EAssert
      | Some (ier, _) =>
          let num_inputs := c_nc u_con in
          do _ <- assert (0 <? List.length (mrow ie 0) + num_inputs + num_vars);
          do _ <- assert (List.length ie =? num_vars);
          do _ <- assert (l_dims l =? num_vars);
          do _ <- (if forallb (fun r => num_inputs + num_vars <=? List.length r) ie then Ok tt else Err EIndex);
          let pre_cols := l_nc l in
          let l1 := add_cols l (names_of "I" mid 0 num_inputs ++ names_of "b" mid 0 num_vars) in
          let pre_rows := l_nr l1 in
          let l2 := add_rows_le l1 u_rhs in
          let pre_bloat_rows := l_nr l2 in
          let l3 := add_rows_le l2 (repeat be (2 * num_vars)) in
          let col c := map (fun r => (r + ier, nth c (mrow ie r) 0%Q)) (seq 0 (l_dims l))
                       ++ shift_row pre_rows (csc_col c 0 (c_rows u_con)) in
          let bcol v := map (fun r => (r + ier, nth (num_inputs + v) (mrow ie r) 0%Q)) (seq 0 num_vars)
                        ++ [(pre_bloat_rows + 2 * v, 1%Q); (pre_bloat_rows + 2 * v + 1, (-1)%Q)] in
          set_constraints_csc l3 (mkCsc (pre_rows + List.length u_rhs + 2 * num_vars) (map col (seq 0 num_inputs) ++ map bcol (seq 0 num_vars))) (0, pre_cols)
      end
  end.

(** stateset.py:131-139: the loop over the steps *)
Fixpoint add_inputs_beta (beta : option Q) (l : lp) (md : mode) (m : nat) (ies : list mat) (from count : nat) : res (lp * list mat) :=
  match count with
  | 0 => Ok (l, ies)
  | S c =>
      match m_b md with
      | None => Err EType
      | Some (_, uc, ur) =>
          do l1 <- add_input_effects_beta beta l (m_ie md from) m (m_dims md) uc ur;
          add_inputs_beta beta l1 md m (ies ++ [m_ie md from]) (S from) c
      end
  end.

(** stateset.py:102-149 step(step_in_mode) of a state set with this lgg_beta *)
Definition ss_step_beta (beta : option Q) (a : ha) (s : sset) (k : nat) : res sset :=
  let md := get_mode a (ss_mode s) in
  do _ <- assert (ss_step s <=? k);
  let num := k - ss_step s in
  if num =? 0 then Ok s
  else
    match m_a md with
    | None => Err EType
    | Some _ =>
        let bm := m_bm md k in
        do l <- set_basis_matrix (ss_lpi s) bm;
        do li <- match m_b md, ss_ies s with
                 | None, o => Ok (l, o)
                 | Some _, None => Err EType
                 | Some _, Some ies => do r <- add_inputs_beta beta l md (ss_mode s) ies (S (ss_step s)) num; Ok (fst r, Some (snd r))
                 end;
        Ok (mkSset (ss_mode s) (fst li) k (ss_lo s + num) (ss_hi s + num) (ss_conc s) (ss_ops s) (ss_rows s) (Some bm) (snd li) (ss_agg s))
    end.

(** time_elapse_expm.py:137-143 use_lgg_approx and 82-90, 92-109, 111-133: the matrices get_basis_matrix returns for the mode from then on
    (C18 shows this for every call history): the effect of B u + w, held for one step of length tau, after k - 1 more steps. *)
Definition mscale (t : Q) (M : mat) : mat := map (map (Qmult t)) M.
Definition dense (w : nat) (rows : list srow) : mat := map (fun r => dense_of r w) rows.
Definition prev_bm (m : mode) (k : nat) : mat := if k <=? 1 then ident (m_dims m) else m_bm m (k - 1).
Definition lgg_ie (tau : Q) (m : mode) (k : nat) : mat :=
  match m_b m with
  | None => []
  | Some (b, _, _) => hconcat (mmul (c_nc b) (prev_bm m k) (mscale tau (dense (c_nc b) (c_rows b)))) (prev_bm m k)
  end.
Definition use_lgg (tau : Q) (a : ha) (i : nat) : ha :=
  let m := get_mode a i in with_mode a i (mkMode (m_name m) (m_a m) (m_b m) (m_inv m) (m_bm m) (lgg_ie tau m)).
(** stateset.py:317-328: the mode switches to these matrices when lgg_beta was computed *)
Definition after_lgg (o : option Q) (tau : Q) (a : ha) (i : nat) : ha := match o with Some _ => use_lgg tau a i | None => a end.
