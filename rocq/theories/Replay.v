(** Model of result.py:210-273 replay_counterexample and lpplot.py:18-37 pt_to_plot_xy.

    The integrator scipy.odeint is an oracle: [ode a start t] is the state at time t.  States are lists. *)
From Verif Require Import Base LpModel LpUtil Automaton StateSet CoreModel.
Open Scope nat_scope.

(** numpy.linspace(0, stop, num): num points, the last is [stop]; one point: 0 *)
Definition linspace (stop : Q) (num : nat) : list Q :=
  match num with
  | 0 => []
  | 1 => [0%Q]
  | S k => map (fun j => (inject_Z (Z.of_nat j) * (stop / inject_Z (Z.of_nat k)))%Q) (seq 0 num)
  end.
(** result.py:232 *)
Definition seg_times (step_size : Q) (s : seg) : list Q := linspace (inject_Z (Z.of_nat (sg_steps s)) * step_size)%Q (sg_steps s).

Section Replay.
Variable ode : csr -> list Q -> Q -> list Q.
Variable a : ha.
Variable step_size : Q.
Definition eps7 : Q := (1 # 10000000)%Q.

(** numpy.allclose on vectors *)
Definition vclose (p q : list Q) : bool := (List.length p =? List.length q) && forallb (fun xy => close (fst xy) (snd xy)) (combine p q).
(** result.py:245-249 *)
Definition inv_close (inv : list lincon) (x : list Q) : bool := forallb (fun c => Qle_bool (reval (lc_row c) (of_list x)) (lc_rhs c + eps7)%Q) inv.
(** result.py:255-258 *)
Definition guard_close (g : csr) (rhs : list Q) (x : list Q) : bool :=
  forallb (fun rb => Qle_bool (reval (fst rb) (of_list x)) (snd rb + eps7)%Q) (combine (c_rows g) rhs).

(** result.py:222-271: one segment; [acc] = (rv, all_times), [next] the segments after this one.  A reset with a minkowski term is not
    implemented (260; the truth value of a sparse matrix raises). *)
Definition replay_seg (acc : list (list Q) * list Q) (s : seg) (next : list seg) : res (list (list Q) * list Q) :=
  let md := get_mode a (sg_mode s) in
  do _ <- assert (match m_b md with None => true | Some _ => false end);
  do am <- match m_a md with Some x => Ok x | None => Err EAssert end;
  let times := seg_times step_size s in
  let states := map (ode am (sg_start s)) times in
  let off := last (snd acc) 0%Q in
  let rv := fst acc ++ states in
  let all := snd acc ++ map (fun t => t + off)%Q times in
  do _ <- assert (forallb (inv_close (m_inv md)) (removelast states));
  do final <- match states with [] => Err EIndex | _ => Ok (last states []) end;
  do _ <- assert (vclose final (sg_end s));
  do ti <- match sg_trans s with Some t => Ok t | None => Err EType end;
  let t := get_trans a ti in
  do _ <- match t_guard t with
          | Some (g, rhs) => assert (guard_close g rhs final)
          | None => Err EType
          end;
  do _ <- assert (match t_mink t with None => true | Some _ => false end);
  match t_reset t with
  | None => Ok (rv, all)
  | Some r =>
      let post := map (fun row => reval row (of_list final)) (c_rows r) in
      match next with
      | s' :: _ => do _ <- assert (vclose post (sg_start s')); Ok (rv, all)
      | [] => Ok (rv ++ [post], all ++ [last all 0%Q])
      end
  end.
(** result.py:222 *)
Fixpoint replay_from (acc : list (list Q) * list Q) (ce : list seg) : res (list (list Q) * list Q) :=
  match ce with
  | [] => Ok acc
  | s :: next => do acc' <- replay_seg acc s next; replay_from acc' next
  end.
Definition replay_counterexample (ce : list seg) : res (list (list Q) * list Q) := replay_from ([], []) ce.
End Replay.

(** ** lpplot.py:18-37 pt_to_plot_xy.  A dimension is a number, a direction (numpy array) or None. *)
Inductive pdim := DInt (n : nat) | DArr (v : list Q) | DNone.
(** truth value of a numpy array: of the only entry; ValueError for more entries; False (with a deprecation warning) without entries *)
Definition truth (d : pdim) : res bool :=
  match d with
  | DInt n => Ok (negb (n =? 0))
  | DNone => Ok false
  | DArr [] => Ok false
  | DArr [x] => Ok (negb (Qeq_bool x 0))
  | DArr _ => Err EValue
  end.
(** pt[n] and np.dot(pt, v) *)
Definition pt_get (pt : list Q) (n : nat) : res Q := match nth_error pt n with Some x => Ok x | None => Err EIndex end.
Definition pt_dot (pt v : list Q) : res Q := if List.length pt =? List.length v then Ok (ldot v 0 (of_list pt)) else Err EValue.
Definition pt_to_plot_xy (pt : list Q) (xdim ydim : pdim) (time : Q) : res (Q * Q) :=
  do x <- match xdim with                                                    (* 25-29 *)
          | DInt n => pt_get pt n
          | _ => do b <- truth xdim; if b then match xdim with DArr v => pt_dot pt v | _ => Err EAssert end else Ok time
          end;
  do b <- truth ydim;                                                        (* 31-35 *)
  do y <- (if b then match ydim with DInt n => pt_get pt n | DArr v => pt_dot pt v | DNone => Ok time end else Ok time);
  Ok (x, y).
