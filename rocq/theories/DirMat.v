(* Model of lputil.make_direction_matrix and lputil.reorthogonalize_matrix
   (hylaa/lputil.py:875-1002) over the real numbers.
   Simplifications: float arithmetic is exact real arithmetic, so the isinf/isnan assertions cannot fire;
   Timers are modelled elsewhere (Timers.v); the calls to np.random.rand are the successive entries of an
   argument `rand`; the while loops take fuel (None = still looping). *)
From Coq Require Import Reals List Lia Lra Arith.
Require Import Verif.DirSpec.
Import ListNotations.
Open Scope R_scope.

(* lputil.py:912-916 and 982-986: for prev_vec in rv: cur_vec -= prev_vec * dot(prev_vec, cur_vec) *)
Fixpoint project (n : nat) (rv : list rvec) (cur : rvec) : rvec :=
  match rv with
  | [] => cur
  | p :: l => let d := dot n p cur in project n l (fun i => cur i - p i * d)
  end.

(* lputil.py:897-901 and 964-968: is entry d of every earlier vector zero *)
Fixpoint all_zero_at (rv : list rvec) (d : nat) : bool :=
  match rv with
  | [] => true
  | v :: l => if Req_EM_T (v d) 0 then all_zero_at l d else false
  end.

(* lputil.py:895-905 and 962-972: the first d in range(dims) with that property *)
Fixpoint free_from (rv : list rvec) (d k : nat) : option nat :=
  match k with
  | O => None
  | S k' => if all_zero_at rv d then Some d else free_from rv (S d) k'
  end.
Definition free_dim (n : nat) (rv : list rvec) : option nat := free_from rv 0 n.

(* lputil.py:904: np.array([1 if n == d else 0 for n in range(dims)]) *)
Definition unitv (d : nat) : rvec := fun i => if Nat.eqb i d then 1 else 0.

(* lputil.py:918-930: norm = np.linalg.norm(cur_vec, 2); restart if below 1e-6, else scale and append *)
Definition small (n : nat) (v : rvec) : bool := if Rlt_dec (norm n v) (/ 1000000) then true else false.
Definition scale (n : nat) (v : rvec) : rvec := fun i => v i / norm n v.

(* state of the loop at lputil.py:893: rv, cur_vec (None = restart), draws made so far *)
Record dstate := mkD { d_rv : list rvec; d_cur : option rvec; d_draws : nat }.

(* lputil.py:893-930: one iteration of the loop of make_direction_matrix.
   a_csr * cur_vec and cur_vec / norm make new arrays, so nothing is shared between rv and cur_vec *)
Definition dm_step (n : nat) (A : nat -> rvec) (rand : nat -> rvec) (s : dstate) : dstate :=
  let (cand, k) :=
    match d_cur s with
    | None => match free_dim n (d_rv s) with
              | Some d => (unitv d, d_draws s)
              | None => (rand (d_draws s), S (d_draws s))
              end
    | Some c => (mulv n A c, d_draws s)
    end in
  let r := project n (d_rv s) cand in
  if small n r then mkD (d_rv s) None k
  else mkD (d_rv s ++ [scale n r]) (Some (scale n r)) k.

Fixpoint dm_loop (fuel n : nat) (A : nat -> rvec) (rand : nat -> rvec) (s : dstate) : option dstate :=
  if Nat.ltb (length (d_rv s)) n then
    match fuel with O => None | S f => dm_loop f n A rand (dm_step n A rand s) end
  else Some s.

(* lputil.py:875-939; n = len(point) = a_csr.shape[1] (asserted at 890) *)
Definition make_direction_matrix (fuel n : nat) (point : rvec) (A : nat -> rvec) (rand : nat -> rvec) : option (list rvec) :=
  option_map d_rv (dm_loop fuel n A rand (mkD [] (Some point) 0)).

(* reorthogonalize_matrix: cur_vec at the head of the loop (lputil.py:959) is not yet bound, None, or --
   lputil.py:995-997 binds the array just appended -- the very object rv[-1] *)
Inductive rcur := CUnbound | CNone | CLast.

Record rstate := mkR { r_rv : list rvec; r_cur : rcur; r_next : nat; r_mat : list rvec; r_draws : nat }.

Fixpoint set_nth (l : list rvec) (i : nat) (v : rvec) : list rvec :=
  match l, i with
  | [], _ => []
  | _ :: t, O => v :: t
  | x :: t, S k => x :: set_nth t k v
  end.

(* lputil.py:982-986 when cur_vec is the object rv[-1]: `-=` works in place, and the last prev_vec is
   cur_vec itself *)
Definition project_last (n : nat) (rv : list rvec) : rvec :=
  let c := project n (removelast rv) (last rv (fun _ => 0)) in
  fun i => c i - c i * dot n c c.

(* lputil.py:988-997 *)
Definition r_finish (n : nat) (rv : list rvec) (r : rvec) (next : nat) (mat : list rvec) (k : nat) : rstate :=
  if small n r then mkR rv CNone next mat k
  else mkR (rv ++ [scale n r]) CLast next mat k.

(* lputil.py:959-997: one iteration; None = UnboundLocalError at 975.
   `cur_vec = mat[next_index]` is a view, so the in-place projection overwrites that row of mat *)
Definition ro_step (n : nat) (rand : nat -> rvec) (s : rstate) : option rstate :=
  let rv := r_rv s in
  if Nat.leb (length (r_mat s)) (r_next s) then
    match free_dim n rv with
    | Some d => Some (r_finish n rv (project n rv (unitv d)) (r_next s) (r_mat s) (r_draws s))
    | None =>
        match r_cur s with
        | CUnbound => None
        | CNone => Some (r_finish n rv (project n rv (rand (r_draws s))) (r_next s) (r_mat s) (S (r_draws s)))
        | CLast => let r := project_last n rv in
                   Some (r_finish n (removelast rv ++ [r]) r (r_next s) (r_mat s) (r_draws s))
        end
    end
  else
    let r := project n rv (row (r_mat s) (r_next s)) in
    Some (r_finish n rv r (S (r_next s)) (set_nth (r_mat s) (r_next s) r) (r_draws s)).

Inductive outcome := Looping | Crashed | Done (s : rstate).

Fixpoint ro_loop (fuel n : nat) (rand : nat -> rvec) (s : rstate) : outcome :=
  if Nat.ltb (length (r_rv s)) n then
    match fuel with
    | O => Looping
    | S f => match ro_step n rand s with None => Crashed | Some s' => ro_loop f n rand s' end
    end
  else Done s.

(* lputil.py:941-1002 for an ndarray argument of width n (asserted at 949): the returned rows, and the
   argument as the caller finds it afterwards *)
Definition reorthogonalize_matrix (fuel n : nat) (mat : list rvec) (rand : nat -> rvec) : outcome :=
  ro_loop fuel n rand (mkR [] CUnbound 0 mat 0).
Definition returned (o : outcome) : option (list rvec * list rvec) :=
  match o with Done s => Some (r_rv s, r_mat s) | _ => None end.
