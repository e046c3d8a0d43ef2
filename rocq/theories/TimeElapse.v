(** Model of hylaa/time_elapse.py and hylaa/time_elapse_expm.py: the cached computation of e^{A k h}.

    scipy's expm is an oracle: [te_expm k] is the dense form of expm(A * k * step_size) (time_elapse_expm.py:44,112) and
    [te_b1] the one-step input effects computed column by column in init_matrices (time_elapse_expm.py:51-69), [te_bh] is
    B * step_size (time_elapse_expm.py:143).  Timers are not modelled here (see Timers.v). *)
From Verif Require Import Base.
Open Scope nat_scope.

(** What the object reads from its mode: dims, number of inputs (b_csr is None iff [te_b1] = None), matrices. *)
Record te_mode := mkTeMode { te_n : nat; te_inputs : nat; te_expm : nat -> mat; te_b1 : option mat; te_bh : mat }.

(** time_elapse_expm.py:19-38 (attributes); cur_basis_matrix and cur_input_effects_matrix are None initially.
    [t_init] says that one_step_matrix_exp is not None. *)
Record te_state := mkTe { t_cur : nat; t_bm : option mat; t_ie : option mat; t_init : bool; t_one_ie : option mat; t_lgg : bool }.
Definition te_new : te_state := mkTe 0 None None false None false.

(** np.concatenate((a, b), axis=1): row counts must agree *)
Fixpoint hconcat (a b : mat) : mat :=
  match a, b with r :: a', s :: b' => (r ++ s) :: hconcat a' b' | _, _ => [] end.

(** np.dot(a, b) for dense matrices; ValueError when the inner dimensions differ is not needed: every product below has
    matching shapes. [n] is the number of columns of b. *)
Definition widen (lgg : bool) (ie prev : mat) : mat := if lgg then hconcat ie prev else ie.
Definition cut (w : nat) (m : mat) : mat := map (firstn w) m.

(** time_elapse_expm.py:40-69 init_matrices.  Line 48-49: the input effects are (re)computed whenever the one-step matrix
    exponential is None. *)
Definition init_matrices (md : te_mode) (s : te_state) : te_state :=
  if t_init s then s
  else mkTe (t_cur s) (t_bm s) (t_ie s) true (match te_b1 md with Some b => Some b | None => t_one_ie s end) (t_lgg s).

(** time_elapse_expm.py:71-135 assign_basis_matrix *)
Definition assign_basis_matrix (md : te_mode) (s0 : te_state) (k : nat) : res te_state :=
  let s := init_matrices md s0 in
  let n := te_n md in
  let E := te_expm md 1 in
  let fin bm ie := mkTe k (Some bm) ie (t_init s) (t_one_ie s) (t_lgg s) in
  if k =? 0 then Ok (fin (ident n) None)                                        (* lines 79-81 *)
  else if k =? 1 then                                                          (* lines 82-90 *)
    match te_b1 md, t_one_ie s with
    | Some _, Some b => Ok (fin E (Some (widen (t_lgg s) b (ident n))))
    | Some _, None => Err EType
    | None, ie => Ok (fin E ie)
    end
  else if k =? S (t_cur s) then                                                (* lines 92-109, quick step *)
    match t_bm s with
    | None => Err EType
    | Some bm =>
        let bm' := mmul n bm E in
        match te_b1 md with
        | None => Ok (fin bm' (t_ie s))
        | Some _ =>
            match t_ie s with
            | None => Err EType
            | Some ie =>
                let ie1 := if t_lgg s then cut (te_inputs md) ie else ie in
                Ok (fin bm' (Some (widen (t_lgg s) (mmul (te_inputs md) E ie1) bm)))
            end
        end
    end
  else                                                                         (* lines 111-133, slow step *)
    let prev := te_expm md (k - 1) in
    let bm' := mmul n prev E in
    match te_b1 md with
    | None => Ok (fin bm' (t_ie s))
    | Some _ =>
        match t_one_ie s with
        | None => Err EType
        | Some b =>
            if t_lgg s then Err EValue      (* line 131: np.concatenate of an ndarray and a scipy sparse matrix *)
            else Ok (fin bm' (Some (mmul (te_inputs md) prev b)))
        end
    end.

(** shape tests of the post-conditions *)
Definition shape_is (n m : nat) (M : mat) : bool := (List.length M =? n) && forallb (fun r => List.length r =? m) M.

(** time_elapse.py:29-61 get_basis_matrix with its post-condition asserts.  The object inside is created on the first call
    (time_elapse.py:35-38): None. *)
Definition te_get (md : te_mode) (s : option te_state) (k : nat) : res (option te_state * (mat * option mat)) :=
  let s := match s with Some s => s | None => te_new end in
  do s' <- assign_basis_matrix md s k;
  match t_bm s' with
  | None => Err EAssert
  | Some bm =>
      do _ <- assert (shape_is (te_n md) (te_n md) bm);
      let inputs := match te_b1 md with None => 0 | Some _ => te_inputs md end in
      do _ <- (if (inputs =? 0) || (k =? 0) then assert (match t_ie s' with None => true | Some _ => false end)
               else match t_ie s' with
                    | None => Err EAssert
                    | Some ie => assert (shape_is (te_n md) (if t_lgg s' then inputs + te_n md else inputs) ie)
                    end);
      Ok (Some s', (bm, t_ie s'))
  end.

(** time_elapse.py:63-67 and time_elapse_expm.py:137-143 use_lgg_approx *)
Definition te_use_lgg (md : te_mode) (s : option te_state) : res (option te_state) :=
  match s with
  | None => Err EType                                  (* self.time_elapse_obj is None *)
  | Some s =>
      match te_b1 md with
      | None => Err EType                              (* self.b_csc is None *)
      | Some _ => Ok (Some (mkTe (t_cur s) (t_bm s) (t_ie s) (t_init s) (Some (te_bh md)) true))
      end
  end.

(** A call history. *)
Inductive te_call := TGet (k : nat) | TLgg.
Fixpoint te_run (md : te_mode) (s : option te_state) (cs : list te_call) : res (option te_state) :=
  match cs with
  | [] => Ok s
  | TGet k :: cs' => do r <- te_get md s k; te_run md (fst r) cs'
  | TLgg :: cs' => do s' <- te_use_lgg md s; te_run md s' cs'
  end.
