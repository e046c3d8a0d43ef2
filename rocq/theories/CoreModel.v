(** Model of hylaa/core.py (reachability part), hylaa/aggdag.py, hylaa/aggstrat.py, hylaa/deaggregation.py,
    hylaa/aggregate.py and make_counterexample of hylaa/result.py.

    Python objects are numbers: a StateSet, an OpTransition and an AggDagNode is its position in [c_states], [c_ops],
    [c_nodes], so aliasing (op.poststate is node.stateset for a node with one parent) is explicit.  Printing, timers and
    plotting are not modelled (plotting does not change the computation: plotutil.py:331-345 run_to_completion only reads).
    approx_model is APPROX_NONE (stateset.py apply_approx_model returns immediately); Approx.v treats the other models. *)
From Coq Require Import Ascii DecimalString.
From Verif Require Import Base LpModel LpUtil Automaton StateSet.
Open Scope nat_scope.

(** ** Settings (settings.py:24-75) and strategies (aggstrat.py:74-95) *)
Inductive aggk : Set := ABox | AArnoldi | AChull.
Inductive popk : Set := PMin | PAvg | PMax.
Inductive deagk : Set := DLeaves | DRoot | DMost.
Record aggrec := mkAgg { ag_kind : aggk; ag_pop : popk; ag_guard : bool; ag_path : bool; ag_deagg : bool; ag_pref : deagk }.
Definition strat : Set := option aggrec.              (* None: Unaggregated *)

Record cfg := mkCfg {
  cf_num : nat;               (* num_steps *)
  cf_step : Q;                (* step_size *)
  cf_urgent : bool;           (* process_urgent_guards *)
  cf_gs : bool;               (* do_guard_strengthening *)
  cf_tt : bool;               (* optimize_tt_transitions *)
  cf_skip0 : bool;            (* skip_zero_dynamics_modes *)
  cf_stop_agg : bool;         (* stop_on_aggregated_error *)
  cf_stop_conc : bool;        (* stop_on_concrete_error *)
  cf_ce : bool;               (* make_counterexample *)
  cf_strat : strat }.         (* aggstrat *)

(** ** Heap *)
(** deaggregation.py:17-25 OpTransition (+ premode_center, aggstrat.py:186) *)
Record op := mkOp {
  o_step : nat;
  o_parent : option nat;       (* parent_node *)
  o_child : option nat;        (* child_node *)
  o_trans : option nat;        (* transition, None for an initial state *)
  o_post : nat;                (* poststate *)
  o_center : option (list Q) }.

(** deaggregation.py:14-15 *)
Inductive nop : Set :=
| NInv (step idx : nat) (stronger : bool)      (* OpInvIntersect *)
| NLeft (step : nat) (time_bound : bool)       (* OpLeftInvariant *)
| NTr (o : nat).                               (* OpTransition *)

(** aggdag.py:284-320 AggDagNode; [n_agg] = agg_type_from_parents (kind, add_guard) *)
Record node := mkNode { n_ops : list nop; n_state : nat; n_parents : list nat; n_agg : option (aggk * bool) }.

(** result.py:120-133 CounterExampleSegment; [sg_trans] = transition (its number), inputs newest first as in the deque *)
Record seg := mkSeg { sg_mode : nat; sg_start : list Q; sg_end : list Q; sg_steps : nat; sg_trans : option nat;
                      sg_mink : list Q; sg_inputs : list (list Q) }.

(** deaggregation.py:33-47: the current replay; the dict nodes_to_ops is the list of its items in insertion order *)
Record replay := mkRep { rp_parent : nat; rp_children : list nat; rp_idx : nat; rp_map : list ((nat * nat) * list nat) }.

Record core := mkCore {
  c_states : list sset; c_ops : list op; c_nodes : list node;
  c_cur : option nat;                          (* aggdag.cur_node *)
  c_wait : list nat;                           (* aggdag.waiting_list *)
  c_roots : list nat;
  c_dwait : list (nat * list nat);             (* deagg_man.waiting_nodes *)
  c_rep : option replay;                       (* replay_step is not None *)
  c_tt : bool;                                 (* took_tt_transition *)
  c_aggerr : bool; c_concerr : bool;           (* result.has_aggregated_error / has_concrete_error *)
  c_cex : list seg;                            (* result.counterexample *)
  c_csteps : nat }.                            (* continuous_steps *)

Definition core0 : core := mkCore [] [] [] None [] [] [] None false false false [] 0.

Definition dsset : sset := mkSset 0 lp_new 0 0 0 false None [] None None None.
Definition dop : op := mkOp 0 None None None 0 None.
Definition dnode : node := mkNode [] 0 [] None.
Definition getS (c : core) (i : nat) : sset := nth i (c_states c) dsset.
Definition getO (c : core) (i : nat) : op := nth i (c_ops c) dop.
Definition getN (c : core) (i : nat) : node := nth i (c_nodes c) dnode.

Definition with_states (c : core) x := mkCore x (c_ops c) (c_nodes c) (c_cur c) (c_wait c) (c_roots c) (c_dwait c) (c_rep c) (c_tt c) (c_aggerr c) (c_concerr c) (c_cex c) (c_csteps c).
Definition with_ops (c : core) x := mkCore (c_states c) x (c_nodes c) (c_cur c) (c_wait c) (c_roots c) (c_dwait c) (c_rep c) (c_tt c) (c_aggerr c) (c_concerr c) (c_cex c) (c_csteps c).
Definition with_nodes (c : core) x := mkCore (c_states c) (c_ops c) x (c_cur c) (c_wait c) (c_roots c) (c_dwait c) (c_rep c) (c_tt c) (c_aggerr c) (c_concerr c) (c_cex c) (c_csteps c).
Definition with_cur (c : core) x := mkCore (c_states c) (c_ops c) (c_nodes c) x (c_wait c) (c_roots c) (c_dwait c) (c_rep c) (c_tt c) (c_aggerr c) (c_concerr c) (c_cex c) (c_csteps c).
Definition with_wait (c : core) x := mkCore (c_states c) (c_ops c) (c_nodes c) (c_cur c) x (c_roots c) (c_dwait c) (c_rep c) (c_tt c) (c_aggerr c) (c_concerr c) (c_cex c) (c_csteps c).
Definition with_roots (c : core) x := mkCore (c_states c) (c_ops c) (c_nodes c) (c_cur c) (c_wait c) x (c_dwait c) (c_rep c) (c_tt c) (c_aggerr c) (c_concerr c) (c_cex c) (c_csteps c).
Definition with_dwait (c : core) x := mkCore (c_states c) (c_ops c) (c_nodes c) (c_cur c) (c_wait c) (c_roots c) x (c_rep c) (c_tt c) (c_aggerr c) (c_concerr c) (c_cex c) (c_csteps c).
Definition with_rep (c : core) x := mkCore (c_states c) (c_ops c) (c_nodes c) (c_cur c) (c_wait c) (c_roots c) (c_dwait c) x (c_tt c) (c_aggerr c) (c_concerr c) (c_cex c) (c_csteps c).
Definition with_tt (c : core) x := mkCore (c_states c) (c_ops c) (c_nodes c) (c_cur c) (c_wait c) (c_roots c) (c_dwait c) (c_rep c) x (c_aggerr c) (c_concerr c) (c_cex c) (c_csteps c).
Definition with_flags (c : core) ag co ce := mkCore (c_states c) (c_ops c) (c_nodes c) (c_cur c) (c_wait c) (c_roots c) (c_dwait c) (c_rep c) (c_tt c) ag co ce (c_csteps c).
Definition with_csteps (c : core) x := mkCore (c_states c) (c_ops c) (c_nodes c) (c_cur c) (c_wait c) (c_roots c) (c_dwait c) (c_rep c) (c_tt c) (c_aggerr c) (c_concerr c) (c_cex c) x.

Definition setS (c : core) (i : nat) (s : sset) : core := with_states c (upd_nth i s (c_states c)).
Definition setN (c : core) (i : nat) (n : node) : core := with_nodes c (upd_nth i n (c_nodes c)).
(** node.op_list.append(op) *)
Definition push_op (c : core) (n : nat) (x : nop) : core :=
  let d := getN c n in setN c n (mkNode (n_ops d ++ [x]) (n_state d) (n_parents d) (n_agg d)).
Definition set_child (c : core) (o n : nat) : core :=
  let x := getO c o in
  with_ops c (upd_nth o (mkOp (o_step x) (o_parent x) (Some n) (o_trans x) (o_post x) (o_center x)) (c_ops c)).

(** aggdag.py:380-390 node_left_invariant *)
Definition is_left (x : nop) : bool := match x with NLeft _ _ => true | _ => false end.
Definition left_inv (c : core) (n : nat) : bool :=
  match rev (n_ops (getN c n)) with x :: _ => is_left x | [] => false end.
(** op.step of an element of an op_list *)
Definition nop_step (c : core) (x : nop) : nat :=
  match x with NInv k _ _ => k | NLeft k _ => k | NTr o => o_step (getO c o) end.
(** aggdag.py:41-52 and 530-538 get_cur_state *)
Definition cur_state (c : core) : option (nat * nat) :=      (* node, state *)
  match c_cur c with
  | None => None
  | Some n => if left_inv c n then None else Some (n, n_state (getN c n))
  end.
(** deaggregation.py:49-52 doing_replay *)
Definition doing_replay (c : core) : bool :=
  match c_rep c, c_dwait c with None, [] => false | _, _ => true end.

Definition onat_eqb (a b : option nat) : bool :=
  match a, b with Some x, Some y => x =? y | None, None => true | _, _ => false end.

(** aggstrat.py:274-286 get_ancestors, root first.  The recursion follows parent pointers; node numbers decrease along them
    (CoreFacts.v), so [S n] calls suffice. *)
Fixpoint get_ancestors (fuel : nat) (c : core) (n : nat) : res (list nat) :=
  match fuel with
  | 0 => Err ERuntime                                     (* RecursionError *)
  | S f =>
      match n_parents (getN c n) with
      | [] => Err EIndex
      | o :: _ =>
          match o_parent (getO c o) with
          | None => Ok [n]
          | Some p => do r <- get_ancestors f c p; Ok (r ++ [n])
          end
      end
  end.

(** ** Counter-examples (result.py:142-207) *)
Fixpoint split_us (s : string) (cur : string) : list string :=       (* name.split('_') *)
  match s with
  | EmptyString => [cur]
  | String ch r => if Ascii.eqb ch "_"%char then cur :: split_us r EmptyString else split_us r (cur ++ String ch EmptyString)%string
  end.
Definition has_sub (sub s : string) : bool := match String.index 0 sub s with Some _ => true | None => false end.
Definition tail_str (s : string) : string := match s with EmptyString => EmptyString | String _ r => r end.   (* s[1:] *)
Definition py_int (s : string) : res nat :=                           (* int(s) of an unsigned decimal *)
  match s with
  | EmptyString => Err EValue
  | _ => match NilEmpty.uint_of_string s with Some u => Ok (Nat.of_uint u) | None => Err EValue end
  end.

(** the last element of the list counterexample is the variable seg *)
Definition upd_last (f : seg -> seg) (ce : list seg) : res (list seg) :=
  match rev ce with [] => Err EUnbound | s :: r => Ok (rev (f s :: r)) end.
Definition sg_with_trans (s : seg) (t : nat) := mkSeg (sg_mode s) (sg_start s) (sg_end s) (sg_steps s) (Some t) (sg_mink s) (sg_inputs s).

(** result.py:162-187: a new segment *)
Definition new_segment (a : ha) (nsteps : list nat) (ce : list seg) (name : string) : res (list seg) :=
  match nth_error nsteps (List.length ce) with
  | None => Err EIndex
  | Some steps =>
      let parts := split_us name EmptyString in
      do ce1 <- match parts with
                | [_; _] => do _ <- assert (List.length ce =? 0); Ok ce
                | [_; _; p2] =>
                    do ti <- py_int (tail_str p2);
                    match rev ce with
                    | [] => Err EIndex
                    | prev :: r =>
                        match nth_error (out_trans a (sg_mode prev)) ti with
                        | None => Err EIndex
                        | Some t => Ok (rev (sg_with_trans prev t :: r))
                        end
                    end
                | _ => Err EAssert
                end;
      do mid <- py_int (tail_str (nth 0 parts EmptyString));
      do _ <- assert (mid <? List.length (ha_modes a));
      Ok (ce1 ++ [mkSeg mid [] [] steps None [] []])
  end.

(** result.py:160-202: one (name, value) pair *)
Definition ce_name (a : ha) (nsteps : list nat) (ce : list seg) (nv : string * Q) : res (list seg) :=
  let '(name, v) := nv in
  do ce <- (if String.prefix "m" name && has_sub "_i0" name then new_segment a nsteps ce name else Ok ce);
  if String.prefix "m" name then
    if has_sub "_i" name then
      upd_last (fun s => mkSeg (sg_mode s) (sg_start s ++ [v]) (sg_end s) (sg_steps s) (sg_trans s) (sg_mink s) (sg_inputs s)) ce
    else if has_sub "_c" name then
      upd_last (fun s => mkSeg (sg_mode s) (sg_start s) (sg_end s ++ [v]) (sg_steps s) (sg_trans s) (sg_mink s) (sg_inputs s)) ce
    else if has_sub "_I" name then
      match rev ce with
      | [] => Err EUnbound
      | s :: r =>
          let ins := if has_sub "_I0" name then [] :: sg_inputs s else sg_inputs s in
          match ins with
          | [] => Err EIndex
          | i0 :: is => Ok (rev (mkSeg (sg_mode s) (sg_start s) (sg_end s) (sg_steps s) (sg_trans s) (sg_mink s) ((i0 ++ [v]) :: is) :: r))
          end
      end
    else Ok ce
  else if String.prefix "reset" name then
    upd_last (fun s => mkSeg (sg_mode s) (sg_start s) (sg_end s) (sg_steps s) (sg_trans s) (sg_mink s ++ [v]) (sg_inputs s)) ce
  else Ok ce.
Fixpoint ce_names (a : ha) (nsteps : list nat) (ce : list seg) (nvs : list (string * Q)) : res (list seg) :=
  match nvs with [] => Ok ce | nv :: r => do ce1 <- ce_name a nsteps ce nv; ce_names a nsteps ce1 r end.

Section WithSolver.
Variable solve : solver.
(** make_direction_matrix(center, A) and, with a reset, reorthogonalize_matrix(dirs * R^T, dims) (lputil.py:895-1022): Arnoldi
    iteration with random restarts.  Any answer is allowed; the first argument stands for the random state. *)
Variable arnoldi : nat -> option (list Q) -> csr -> option csr -> nat -> list (list Q).
Variable cf : cfg.
Variable a : ha.            (* the automaton after setup_ha *)

(** result.py:142-207 make_counterexample *)
Definition make_counterexample (c : core) (sid : nat) (t : nat) (tl : lp) : res (list seg) :=
  do sol <- minimize solve tl None true;
  match sol with
  | None => Err EUnsat
  | Some vals =>
      let s := getS c sid in
      do pre <- match ss_ops s with
                | None => Ok []
                | Some [] => Err EIndex
                | Some (o :: _) =>
                    match o_child (getO c o) with
                    | None => Err EType
                    | Some n =>
                        do anc <- get_ancestors (S (List.length (c_nodes c))) c n;
                        map_res (fun m => match n_parents (getN c m) with
                                          | [p] => Ok (o_step (getO c p))
                                          | _ => Err EAssert
                                          end) (List.tl anc)
                    end
                end;
      do ce <- ce_names a (pre ++ [ss_step s]) [] (combine (l_names tl) vals);
      upd_last (fun s => sg_with_trans s t) ce
  end.

(** ** Core (core.py) *)
(** core.py:81-97 is_finished *)
Definition is_finished (c : core) : bool :=
  if cf_stop_agg cf && c_aggerr c then true
  else if cf_stop_conc cf && c_concerr c then true
  else match cur_state c with
       | Some _ => false
       | None => (List.length (c_wait c) =? 0) && negb (doing_replay c)
       end.

(** core.py:99-127 error_reached *)
Definition error_reached (c : core) (sid t : nat) (tl : lp) : res core :=
  let conc := ss_conc (getS c sid) in
  let c1 := if negb (c_aggerr c) && negb conc then with_flags c true (c_concerr c) (c_cex c) else c in
  if negb (c_concerr c1) && conc then
    let c2 := with_flags c1 (c_aggerr c1) true (c_cex c1) in
    if cf_ce cf && (List.length (c_cex c2) =? 0) then
      do ce <- make_counterexample c2 sid t tl;
      Ok (with_flags c2 (c_aggerr c2) (c_concerr c2) ce)
    else Ok c2
  else Ok c1.

(** aggstrat.py:56-63 and 180-191 pretransition: (t_lpi, premode_center) or failure *)
Definition pretransition (tl : lp) : res (option (lp * option (list Q))) :=
  match cf_strat cf with
  | Some g => match ag_kind g with
              | AArnoldi => do r <- get_box_center solve tl;
                            Ok (match snd r with None => None | Some ctr => Some (fst r, Some ctr) end)
              | _ => Ok (Some (tl, None))
              end
  | None => Ok (Some (tl, None))
  end.

(** aggdag.py:102-131 make_op_transition: the new op's number, or None *)
Definition make_op_transition (c : core) (t : nat) (tl : lp) (sid nid : nat) : res (core * option nat) :=
  let s := getS c sid in
  let tr := get_trans a t in
  do p <- pretransition tl;
  match p with
  | None => Ok (c, None)
  | Some (tl1, ctr) =>
      do tl2 <- add_reset_variables tl1 (t_to tr) (t_index tr) (t_reset tr) (t_mink tr) (has_inputs (get_mode a (t_to tr)));
      do f <- lp_is_feasible solve tl2;
      do _ <- (if (f : bool) then Ok tt else Err ERuntime);
      let oid := List.length (c_ops c) in
      do s' <- new_stateset a tl2 (t_to tr) (ss_lo s) (ss_hi s) (Some [oid]) (ss_conc s);
      let c1 := with_states c (c_states c ++ [s']) in
      Ok (with_ops c1 (c_ops c1 ++ [mkOp (ss_step s) (Some nid) None (Some t) (List.length (c_states c)) ctr]), Some oid)
  end.

(** aggdag.py:133-150 add_transition_successor *)
Definition add_transition_successor (c : core) (t : nat) (tl : lp) (sid nid : nat) : res core :=
  do r <- make_op_transition c t tl sid nid;
  let '(c1, o) := r in
  match o with
  | None => Ok c1
  | Some o => let c2 := push_op c1 nid (NTr o) in Ok (with_wait c2 (c_wait c2 ++ [o]))
  end.

(** core.py:129-161 check_guards *)
Fixpoint check_guards_loop (c : core) (nid sid : nat) (ts : list nat) : res core :=
  match ts with
  | [] => Ok c
  | t :: ts' =>
      let tr := get_trans a t in
      do r <- get_guard_intersection solve tr (ss_lpi (getS c sid));
      let c := setS c sid (ss_with_lpi (getS c sid) (fst r)) in
      match snd r with
      | None => check_guards_loop c nid sid ts'
      | Some tl =>
          let is_err := is_error (get_mode a (t_to tr)) in
          do c <- (if is_err then error_reached c sid t tl else Ok c);
          if is_err && (cf_stop_agg cf || (ss_conc (getS c sid) && cf_stop_conc cf)) then Ok c      (* break *)
          else
            do c <- add_transition_successor c t tl sid nid;
            do c <- (if cf_tt cf && t_tt tr then
                       do w <- was_tt_taken solve a (ss_lpi (getS c sid)) tr (cf_step cf) (cf_num cf);
                       let c := setS c sid (ss_with_lpi (getS c sid) (fst w)) in
                       Ok (if snd w then with_tt c true else c)
                     else Ok c);
            check_guards_loop c nid sid ts'
      end
  end.
Definition check_guards (c : core) (nid sid : nat) : res core :=
  check_guards_loop c nid sid (out_trans a (ss_mode (getS c sid))).

(** aggdag.py:54-62 cur_state_left_invariant *)
Definition left_invariant (c : core) (nid sid : nat) (tb : bool) : core :=
  with_cur (push_op c nid (NLeft (ss_step (getS c sid)) tb)) None.

(** core.py:163-198 intersect_invariant of the current state, recording the operations in node [nid] (aggdag.py:92-100) *)
Definition push_ops (c : core) (n : nat) (xs : list nop) : core := fold_left (fun c x => push_op c n x) xs c.
Definition intersect_state (c : core) (nid sid : nat) : res (core * bool) :=
  let s := getS c sid in
  do r <- intersect_invariant solve a s;
  let '(s1, ops, ok) := r in
  Ok (push_ops (setS c sid s1) nid (map (fun ib => NInv (ss_step s) (fst ib) (snd ib)) ops), ok).

(** scipy nnz: the number of stored entries *)
Definition nnz (x : csr) : nat := fold_right (fun r acc => List.length r + acc) 0 (c_rows x).

(** core.py:212-248 do_step_continuous_post (only called when not finished) *)
Definition continuous_post (c : core) (nid sid : nat) : res core :=
  let s := getS c sid in
  if cf_num cf <=? ss_lo s then Ok (left_invariant c nid sid true)
  else if c_tt c then Ok (left_invariant (with_tt c false) nid sid false)
  else
    do r <- intersect_state c nid sid;
    let '(c, ok) := r in
    if negb ok then Ok (left_invariant c nid sid false)
    else
      do s1 <- ss_step1 a (getS c sid);
      let c := setS c sid s1 in
      do c <- check_guards c nid sid;
      match m_a (get_mode a (ss_mode s)) with
      | None => Err EType
      | Some x => if (nnz x =? 0) && cf_skip0 cf then Ok (left_invariant c nid sid false) else Ok c
      end.

(** ** Aggregation (aggregate.py) *)
Definition minl (l : list nat) : nat := match l with [] => 0 | x :: r => fold_left Nat.min r x end.
Definition maxl (l : list nat) : nat := fold_left Nat.max l 0.

(** aggregate.py:74-86: the guard directions *)
Definition guard_dirs (tr : trans) : res (list (list Q)) :=
  match t_guard tr with
  | None => Err EType
  | Some (g, _) =>
      match t_reset tr with
      | None => Ok (map (fun r => dense_of r (c_nc g)) (c_rows g))
      | Some rc =>
          if c_nc g =? c_nc rc then Ok (map (fun r => map (fun q => reval q (of_list (dense_of r (c_nc g)))) (c_rows rc)) (c_rows g))
          else Err EValue
      end
  end.
(** aggregate.py:32-86: the direction matrix; shape mismatches of np.allclose / np.concatenate are EValue *)
Definition agg_dir_mat (c : core) (kind : aggk) (add_guard : bool) (dims : nat) (o : nat) : res (list (list Q)) :=
  let x := getO c o in
  do base <- match kind with
             | ABox => Ok (ident dims)
             | _ =>
                 match o_parent x, o_trans x with
                 | Some p, Some t =>
                     match m_a (get_mode a (ss_mode (getS c (n_state (getN c p))))) with
                     | None => Err EType
                     | Some am =>
                         let ds := arnoldi (List.length (c_nodes c)) (o_center x) am (t_reset (get_trans a t)) dims in
                         if forallb (fun r => List.length r =? dims) ds then
                           Ok (ds ++ filter (fun d => negb (existsb (fun r => forallb (fun ab => close (fst ab) (snd ab)) (combine d r)) ds)) (ident dims))
                         else Err EValue
                     end
                 | _, _ => Err EType
                 end
             end;
  if add_guard then
    match o_trans x with
    | None => Err EType
    | Some t =>
        do gd <- guard_dirs (get_trans a t);
        if forallb (fun r => List.length r =? dims) gd then Ok (base ++ gd) else Err EValue
    end
  else Ok base.

(** write the lps back into the aggregated states (their objectives changed) *)
Fixpoint put_lps (c : core) (sids : list nat) (ls : list lp) : core :=
  match sids, ls with
  | i :: sids', l :: ls' => put_lps (setS c i (ss_with_lpi (getS c i) l)) sids' ls'
  | _, _ => c
  end.

(** aggregate.py:12-93, 95-113 and aggdag.py:355-378: the aggregated StateSet *)
Definition aggregate_states (c : core) (ops : list nat) (agg : option (aggk * bool)) : res (core * sset) :=
  let sids := map (fun o => o_post (getO c o)) ops in
  let ss := map (getS c) sids in
  let lo := minl (map ss_lo ss) in
  let hi := maxl (map ss_hi ss) in
  let m := ss_mode (getS c (nth 0 sids 0)) in
  let md := get_mode a m in
  match agg with
  | None => Err EType
  | Some (AChull, _) =>
      do l <- aggregate_chull solve (S (List.length ss)) (map ss_lpi ss) m (has_inputs md);
      do s <- new_stateset a l m lo hi (Some ops) false;
      Ok (c, s)
  | Some (kind, add_guard) =>
      match m_a md with
      | None => Err EType
      | Some x =>
          do dirs <- agg_dir_mat c kind add_guard (c_nr x) (nth (Nat.div (List.length ops) 2) ops 0);
          do r <- aggregate solve (map ss_lpi ss) dirs (c_nr x) m (has_inputs md);
          do s <- new_stateset a (snd r) m lo hi (Some ops) false;
          Ok (put_lps c sids (fst r), s)
      end
  end.

(** aggdag.py:219-234 make_node, 284-320 AggDagNode.__init__ *)
Definition make_node (c : core) (ops : list nat) (agg : option (aggk * bool)) (aggstring : option string) : res (core * nat) :=
  do cs <- match ops with
           | [o] => Ok (c, o_post (getO c o))
           | _ => do r <- aggregate_states c ops agg;
                  let '(c1, s) := r in Ok (with_states c1 (c_states c1 ++ [s]), List.length (c_states c1))
           end;
  let '(c1, sid) := cs in
  let s := getS c1 sid in
  let c2 := setS c1 sid (mkSset (ss_mode s) (ss_lpi s) (ss_step s) (ss_lo s) (ss_hi s) (ss_conc s) (ss_ops s) (ss_rows s) (ss_bm s) (ss_ies s) aggstring) in
  let nid := List.length (c_nodes c2) in
  let root := existsb (fun o => match o_parent (getO c2 o) with None => true | Some _ => false end) ops in
  let c3 := fold_left (fun c o => set_child c o nid) ops c2 in
  let c4 := with_nodes c3 (c_nodes c3 ++ [mkNode [] sid ops agg]) in
  Ok (if root then with_roots c4 (c_roots c4 ++ [nid]) else c4, nid).

(** ** Waiting list (aggstrat.py:97-156, aggdag.py:184-217) *)
Definition pop_score (k : popk) (s : sset) : Z :=
  match k with
  | PMin => - Z.of_nat (ss_lo s)
  | PAvg => - (Z.of_nat (ss_lo s) + Z.of_nat (ss_hi s))
  | PMax => Z.of_nat (ss_hi s)
  end%Z.
Definition pstate (c : core) (o : nat) : sset := getS c (o_post (getO c o)).
Definition mode_name (c : core) (o : nat) : string := m_name (get_mode a (ss_mode (pstate c o))).
Fixpoint best_op (c : core) (k : popk) (best : nat) (w : list nat) : nat :=
  match w with
  | [] => best
  | o :: w' =>
      let so := pop_score k (pstate c o) in
      let sb := pop_score k (pstate c best) in
      if (sb <? so)%Z || ((so =? sb)%Z && String.ltb (mode_name c o) (mode_name c best)) then best_op c k o w' else best_op c k best w'
  end.
Definition same_group (c : core) (g : aggrec) (best o : nat) : bool :=
  let x := getO c o in
  let b := getO c best in
  (o_post x =? o_post b) ||
  ((ss_mode (pstate c o) =? ss_mode (pstate c best)) &&
   (negb (ag_path g) || (onat_eqb (o_trans b) (o_trans x) && onat_eqb (o_parent b) (o_parent x)))).
Definition strat_pop (c : core) : res (list nat) :=
  match c_wait c with
  | [] => Err EIndex
  | w0 :: _ =>
      match cf_strat cf with
      | None => Ok [w0]
      | Some g => Ok (filter (same_group c g (best_op c (ag_pop g) w0 (c_wait c))) (c_wait c))
      end
  end.

Definition mem (x : nat) (l : list nat) : bool := existsb (Nat.eqb x) l.
Definition is_init_op (c : core) (o : nat) : bool := match o_parent (getO c o) with None => true | Some _ => false end.
Definition pop_ops (c : core) : res (list nat) :=
  do ops <- strat_pop c;
  match ops with
  | [] => Err EAssert
  | o0 :: _ =>
      let ops1 := if is_error (get_mode a (ss_mode (pstate c o0))) then [o0] else ops in
      Ok (match filter (is_init_op c) ops1 with [] => ops1 | o :: _ => [o] end)
  end.
(** aggstrat.py:65-72, 202-211 get_agg_type *)
Definition get_agg_type : res (aggk * bool) :=
  match cf_strat cf with None => Err ENotImpl | Some g => Ok (ag_kind g, ag_guard g) end.
Definition pop_waiting_list (c : core) : res (core * nat) :=
  do ops <- pop_ops c;
  let w := filter (fun o => negb (mem o ops)) (c_wait c) in
  do _ <- assert (List.length (c_wait c) =? List.length w + List.length ops);
  do agg <- (if 1 <? List.length ops then do g <- get_agg_type; Ok (Some g) else Ok None);
  do r <- make_node (with_wait c w) ops agg (Some "full"%string);
  let '(c1, nid) := r in
  Ok (with_cur c1 (Some nid), nid).

(** core.py:250-284 do_step_pop *)
Definition do_step_pop (c : core) : res core :=
  do r <- pop_waiting_list c;
  let '(c, nid) := r in
  let sid := n_state (getN c nid) in
  if is_error (get_mode a (ss_mode (getS c sid))) then Ok (left_invariant c nid sid false)
  else
    do r <- intersect_state c nid sid;
    let '(c, ok) := r in
    if (ok : bool) then Ok c else Ok (left_invariant c nid sid false).

(** ** Deaggregation *)
(** aggdag.py:332-353 split *)
Definition split_node (c : core) (n : nat) : res (core * list nat) :=
  let d := getN c n in
  let ops := n_parents d in
  do _ <- assert (1 <? List.length ops);
  do base <- match ss_agg (getS c (n_state d)) with
             | None => Err EType                                   (* None + '0' *)
             | Some s => Ok (if String.eqb s "full" then EmptyString else s)
             end;
  let mid := Nat.div (List.length ops) 2 in
  do r0 <- make_node c (firstn mid ops) (n_agg d) (Some (base ++ "0")%string);
  do r1 <- make_node (fst r0) (skipn mid ops) (n_agg d) (Some (base ++ "1")%string);
  Ok (fst r1, [snd r0; snd r1]).

(** aggdag.py:152-169 _get_node_leaf_ops.  Node numbers grow along child pointers (CoreFacts.v): the fuel suffices. *)
Definition tr_ops (d : node) : list nat := flat_map (fun x => match x with NTr o => [o] | _ => [] end) (n_ops d).
Fixpoint leaf_ops (fuel : nat) (c : core) (n : nat) : res (list nat) :=
  match fuel with
  | 0 => Err ERuntime
  | S f =>
      let ts := tr_ops (getN c n) in
      let leaves := filter (fun o => match o_child (getO c o) with None => true | Some _ => false end) ts in
      let kids := fold_left dedup_add (flat_map (fun o => match o_child (getO c o) with None => [] | Some k => [k] end) ts) [] in
      do ls <- map_res (leaf_ops f c) kids;
      Ok (leaves ++ List.concat ls)
  end.

(** deaggregation.py:194-205 begin_replay, aggdag.py:171-182 *)
Definition begin_replay (c : core) (n : nat) : res core :=
  do rm <- leaf_ops (S (List.length (c_nodes c))) c n;
  let c := with_wait c (filter (fun o => negb (mem o rm)) (c_wait c)) in
  do r <- split_node c n;
  Ok (with_dwait (fst r) (c_dwait (fst r) ++ [(n, snd r)])).

(** aggstrat.py:219-250: the node whose ancestors are considered *)
Fixpoint deagg_scan (c : core) (w : list nat) (seen : list (nat * option nat)) (rv : option nat) : res (option nat) :=
  match w with
  | [] => Ok rv
  | o :: w' =>
      let x := getO c o in
      let s := pstate c o in
      if ss_conc s then deagg_scan c w' seen rv
      else
        let rv1 := if is_error (get_mode a (ss_mode s)) then o_parent x else rv in
        match o_parent x with
        | None => Err EType                                         (* None.node_left_invariant *)
        | Some p =>
            match find (fun e => fst e =? p) seen with
            | Some (_, t) => deagg_scan c w' seen (if onat_eqb (o_trans x) t then rv1 else Some p)
            | None =>
                do _ <- assert (left_inv c p);
                deagg_scan c w' (seen ++ [(p, o_trans x)]) rv1
            end
        end
  end.
Definition nparents (c : core) (n : nat) : nat := List.length (n_parents (getN c n)).
Fixpoint ins_stable (c : core) (x : nat) (l : list nat) : list nat :=     (* sorted(), stable *)
  match l with
  | [] => [x]
  | y :: r => if nparents c y <=? nparents c x then y :: ins_stable c x r else x :: l
  end.
Definition sort_nodes (c : core) (l : list nat) : list nat := fold_left (fun acc x => ins_stable c x acc) l [].

(** aggstrat.py:50-54, 213-272 get_deagg_node *)
Definition get_deagg_node (c : core) : res (option nat) :=
  match cf_strat cf with
  | None => Ok None
  | Some g =>
      if negb (ag_deagg g) then Ok None
      else
        do rv <- deagg_scan c (c_wait c) [] None;
        match rv with
        | None => Ok None
        | Some n =>
            do anc <- get_ancestors (S (List.length (c_nodes c))) c n;
            let anc := match ag_pref g with DLeaves => rev anc | DRoot => anc | DMost => rev (sort_nodes c anc) end in
            match filter (fun m => 1 <? nparents c m) anc with
            | [] => Err EAssert
            | m :: _ => Ok (Some m)
            end
        end
  end.

(** deaggregation.py:176-192 update_transition_successors *)
Fixpoint map_add (m : list ((nat * nat) * list nat)) (k : nat * nat) (o : nat) : list ((nat * nat) * list nat) :=
  match m with
  | [] => [(k, [o])]
  | (k', os) :: m' => if (fst k =? fst k') && (snd k =? snd k') then (k', os ++ [o]) :: m' else (k', os) :: map_add m' k o
  end.

(** aggdag.py:450-485 replay_op_transition.  [mp] is the dict nodes_to_ops. *)
Definition replay_tr (c : core) (mp : list ((nat * nat) * list nat)) (ch oid : nat) : res (core * list ((nat * nat) * list nat)) :=
  let sid := n_state (getN c ch) in
  let x := getO c oid in
  do s1 <- ss_step_to a (getS c sid) (o_step x);
  let c := setS c sid s1 in
  match o_trans x with
  | None => Err EType
  | Some t =>
      let tr := get_trans a t in
      do r <- get_guard_intersection solve tr (ss_lpi (getS c sid));
      let c := setS c sid (ss_with_lpi (getS c sid) (fst r)) in
      match snd r with
      | None => Ok (c, mp)
      | Some tl =>
          do c <- (if is_error (get_mode a (t_to tr)) then error_reached c sid t tl else Ok c);
          do r <- make_op_transition c t tl sid ch;
          let '(c, o) := r in
          match o with
          | None => Ok (c, mp)
          | Some no =>
              let c := push_op c ch (NTr no) in
              match o_child x with
              | None => Ok (with_wait c (c_wait c ++ [no]), mp)
              | Some k => Ok (c, map_add mp (ch, k) no)
              end
          end
      end
  end.

(** aggdag.py:487-528 replay_op_intersect_invariant, 439-444 *)
Definition replay_inv (c : core) (ch step idx : nat) : res core :=
  let sid := n_state (getN c ch) in
  do s1 <- ss_step_to a (getS c sid) step;
  match nth_error (m_inv (get_mode a (ss_mode s1))) idx with
  | None => Err EIndex
  | Some lc =>
      do r <- inv_cond solve s1 idx lc;
      let '(s2, o, strong) := r in
      let c := setS c sid s2 in
      match o with
      | None => Ok (push_op c ch (NLeft step false))
      | Some false => Ok c
      | Some true =>
          let c := push_op c ch (NInv step idx strong) in
          do f <- lp_is_feasible solve (ss_lpi s2);
          Ok (if (f : bool) then c else push_op c ch (NLeft step false))
      end
  end.

(** aggdag.py:392-448 replay_op *)
Definition replay_op (c : core) (mp : list ((nat * nat) * list nat)) (ch : nat) (x : nop) : res (core * list ((nat * nat) * list nat)) :=
  match x with
  | NLeft _ _ => Ok (push_op c ch x, mp)
  | NTr o => replay_tr c mp ch o
  | NInv k i _ => do c <- replay_inv c ch k i; Ok (c, mp)
  end.

(** deaggregation.py:140-144: every child that has not left the invariant *)
Fixpoint replay_children (c : core) (mp : list ((nat * nat) * list nat)) (chs : list nat) (x : nop) : res (core * list ((nat * nat) * list nat)) :=
  match chs with
  | [] => Ok (c, mp)
  | ch :: chs' =>
      do r <- (if left_inv c ch then Ok (c, mp) else replay_op c mp ch x);
      replay_children (fst r) (snd r) chs' x
  end.

(** deaggregation.py:122-146: the loop over the parent's operations; returns the core, the dict, the new replay_step,
    cur_step_in_mode and parent_left_invariant *)
Fixpoint replay_loop (c : core) (mp : list ((nat * nat) * list nat)) (chs : list nat) (idx cur : nat) (only_tr pleft : bool) (xs : list nop)
  : res (core * list ((nat * nat) * list nat) * nat * nat * bool) :=
  match xs with
  | [] => Ok (c, mp, idx, cur, pleft)
  | x :: xs' =>
      let '(cur, only_tr) := if (cur <? nop_step c x) && negb only_tr then (S cur, true) else (cur, only_tr) in
      if negb (nop_step c x =? cur) then Ok (c, mp, idx, cur, pleft)
      else if only_tr && negb (match x with NTr _ => true | _ => false end) then Ok (c, mp, idx, cur, pleft)
      else
        do r <- replay_children c mp chs x;
        replay_loop (fst r) (snd r) chs (S idx) cur only_tr (pleft || is_left x) xs'
  end.

(** deaggregation.py:148-151 *)
Fixpoint advance_children (c : core) (chs : list nat) (k : nat) : res core :=
  match chs with
  | [] => Ok c
  | ch :: chs' =>
      do c <- (if left_inv c ch then Ok c
               else let sid := n_state (getN c ch) in do s <- ss_step_to a (getS c sid) k; Ok (setS c sid s));
      advance_children c chs' k
  end.

(** deaggregation.py:159-169: nodes for the recursive children *)
Fixpoint finish_map (c : core) (mp : list ((nat * nat) * list nat)) : res core :=
  match mp with
  | [] => Ok c
  | ((_, ch), os) :: mp' =>
      do r <- make_node c os (n_agg (getN c ch)) (ss_agg (getS c (n_state (getN c ch))));
      let '(c, nid) := r in
      finish_map (with_dwait c (c_dwait c ++ [(ch, [nid])])) mp'
  end.

(** deaggregation.py:79-174 init_replay, do_step_replay *)
Definition do_step_replay (c : core) : res core :=
  do c <- match c_rep c, c_dwait c with
          | Some _, _ => Ok c
          | None, (p, chs) :: dw => Ok (with_rep (with_dwait c dw) (Some (mkRep p chs 0 [])))
          | None, [] => Err EAssert
          end;
  match c_rep c with
  | None => Err EAssert
  | Some rp =>
      let ops := n_ops (getN c (rp_parent rp)) in
      match nth_error ops (rp_idx rp) with
      | None => Err EIndex
      | Some x0 =>
          do r <- replay_loop c (rp_map rp) (rp_children rp) (rp_idx rp) (nop_step c x0)
                    (match x0 with NTr _ => true | _ => false end) false (skipn (rp_idx rp) ops);
          let '(c, mp, idx, cur, pleft) := r in
          do c <- advance_children c (rp_children rp) cur;
          (* plot_replay_deaggregated, deaggregation.py:54-76 *)
          do _ <- assert (pleft || forallb (fun ch => left_inv c ch || (ss_step (getS c (n_state (getN c ch))) =? cur)) (rp_children rp));
          if (List.length (n_ops (getN c (rp_parent rp))) <=? idx) || forallb (left_inv c) (rp_children rp) then
            do c <- finish_map c mp;
            Ok (with_rep c None)
          else Ok (with_rep c (Some (mkRep (rp_parent rp) (rp_children rp) idx mp)))
      end
  end.

(** ** core.py:294-323 do_step_reach *)
Definition do_step (c : core) : res core :=
  if is_finished c then Ok c
  else
    match cur_state c with
    | Some (nid, sid) => do c <- continuous_post c nid sid; Ok (with_csteps c (S (c_csteps c)))
    | None =>
        if doing_replay c then do_step_replay c
        else
          do dn <- get_deagg_node c;
          match dn with
          | Some n => do c <- begin_replay c n; do_step_replay c
          | None =>
              do c <- do_step_pop c;
              match cur_state c with
              | Some (nid, sid) => if cf_urgent cf then check_guards c nid sid else Ok c
              | None => Ok c
              end
          end
    end.

(** ** core.py:340-378 setup (after setup_ha) *)
Definition add_init_state (c : core) (s : sset) : core :=
  let c1 := with_states c (c_states c ++ [s]) in
  let oid := List.length (c_ops c) in
  let c2 := with_ops c1 (c_ops c1 ++ [mkOp 0 None None None (List.length (c_states c)) None]) in
  with_wait c2 (c_wait c2 ++ [oid]).
Fixpoint setup_states (c : core) (ss : list sset) : res core :=
  match ss with
  | [] => Ok c
  | s :: ss' =>
      do f <- lp_is_feasible solve (ss_lpi s);
      if (f : bool) then
        do r <- intersect_invariant solve a s;
        let '(s1, _, ok) := r in
        if (ok : bool) then
          setup_states (add_init_state c (ss_with_rows s1 (repeat None (List.length (m_inv (get_mode a (ss_mode s1))))))) ss'
        else setup_states c ss'
      else setup_states c ss'
  end.
Definition setup (ss : list sset) : res core :=
  do _ <- assert (negb (List.length ss =? 0));
  do c <- setup_states core0 ss;
  match c_wait c with [] => Err ERuntime | _ => Ok c end.

(** plotutil.py:331-345 run_to_completion: while not core.is_finished(): core.do_step().  [fuel] bounds the number of
    iterations; None: not finished yet. *)
Fixpoint run_loop (fuel : nat) (c : core) : option (res core) :=
  if is_finished c then Some (Ok c)
  else match fuel with
       | 0 => None
       | S f => match do_step c with Ok c1 => run_loop f c1 | Err e => Some (Err e) end
       end.
End WithSolver.

(** core.py:325-338 setup_ha.  mode.init_time_elapse (creating the TimeElapse objects) is Mode's m_bm / m_ie. *)
Definition setup_ha (cf : cfg) (a0 : ha) : res ha :=
  do a1 <- (if cf_tt cf then detect_tt a0 (cf_step cf) (cf_num cf) else Ok a0);
  do a2 <- (if cf_gs cf then do_guard_strengthening a1 else Ok a1);
  do _ <- check_transitions a2;
  Ok a2.

(** core.py:388-434 run: the final state of the computation *)
Definition run (solve : solver) (arnoldi : nat -> option (list Q) -> csr -> option csr -> nat -> list (list Q)) (cf : cfg) (a0 : ha)
    (inits : list sset) (fuel : nat) : option (res core) :=
  match (do _ <- assert (negb (List.length inits =? 0)); setup_ha cf a0) with
  | Err e => Some (Err e)
  | Ok a =>
      match setup solve a inits with
      | Err e => Some (Err e)
      | Ok c => run_loop solve arnoldi cf a fuel c
      end
  end.

(** core.py:420-426: the printed verdict *)
Inductive verdict : Set := VUnsafe | VSafeAgg | VSafe.
Definition printed_verdict (c : core) : verdict :=
  if c_concerr c then VUnsafe else if c_aggerr c then VSafeAgg else VSafe.
