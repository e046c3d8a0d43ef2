(** Model of hylaa/check_trace.py (check, sim, make_der_func): simulation of a counter-example with piecewise constant inputs.
    scipy's odeint is an oracle: [ode a b u s t] is the state at time t from s under x' = a x + b u.  Left out: printing, wall-clock time,
    the tolerances (quick), and plot (which uses xrange, not defined in Python 3). *)
From Verif Require Import Base LpModel LpUtil Automaton StateSet CoreModel Replay.
From Coq Require Import Qround.
Open Scope nat_scope.

(** a Python number used as a count: an int or a float *)
Inductive num := NInt (n : nat) | NFloat (q : Q).
Definition qnat (n : nat) : Q := inject_Z (Z.of_nat n).
Definition nmul (x : num) (k : nat) : num := match x with NInt n => NInt (n * k) | NFloat q => NFloat (q * qnat k)%Q end.
(** len(..) == x *)
Definition num_is (n : nat) (x : num) : bool := match x with NInt m => n =? m | NFloat q => Qeq_bool (qnat n) q end.

(** check_trace.py:96-98: true division gives a float *)
Definition samples_per_input (approx len : nat) : num :=
  let q := (qnat approx / qnat (Nat.max 1 len))%Q in if Qle_bool 1 q then NFloat q else NInt 1.

(** Python's round: to the nearest integer, ties to even *)
Definition py_round (q : Q) : Z :=
  let f := Qfloor q in
  match (q - inject_Z f ?= 1 # 2)%Q with
  | Lt => f
  | Gt => (f + 1)%Z
  | Eq => if Z.even f then f else (f + 1)%Z
  end.

Section Check.
Variable ode : csr -> option csr -> list Q -> list Q -> Q -> list Q.
Variable newnp : bool.       (* numpy 1.18 and later: linspace rejects a float num; earlier versions truncate it *)

(** the number of points of np.linspace(.., num=1 + num_steps) *)
Definition linspace_num (x : num) : res nat :=
  match x with
  | NInt n => Ok (1 + n)
  | NFloat q => if newnp then Err EType else Ok (Z.to_nat (Qfloor (1 + q)%Q))
  end.

(** check_trace.py:32-57 make_der_func: the products must fit; the scalar 0 (no inputs given) times b has no vector shape *)
Definition der_ok (a : csr) (b : option csr) (scalar : bool) (u : list Q) : res unit :=
  match b with
  | None => Ok tt
  | Some b => if negb scalar && (c_nc b =? List.length u) && (c_nr b =? c_nr a) then Ok tt else Err EValue
  end.

(** check_trace.py:162-179 sim *)
Definition sim (a : csr) (b : option csr) (u start : list Q) (amount : Q) (n : num) : res (list (list Q) * list Q) :=
  do k <- linspace_num n;
  let times := linspace amount k in
  let states := map (ode a b u start) times in
  do _ <- assert (num_is (List.length (skipn 1 states)) n);
  do _ <- assert (num_is (List.length (skipn 1 times)) n);
  Ok (skipn 1 states, skipn 1 times).

(** check_trace.py:111-116: how many of the next inputs are close to this one.  np.allclose of vectors of different lengths raises
    (a vector of one entry would be broadcast; left out). *)
Fixpoint combine_steps (u : list Q) (us : list (list Q)) : res nat :=
  match us with
  | [] => Ok 0
  | v :: us' => if List.length u =? List.length v then (if vclose u v then do k <- combine_steps u us'; Ok (S k) else Ok 0) else Err EValue
  end.

(** check_trace.py:107-139: the loop over the inputs.  index < total_steps follows from the assert on the number of inputs.
    Every round consumes an input: the fuel is their number. *)
Fixpoint sim_inputs (fuel : nat) (a : csr) (b : option csr) (scalar : bool) (step : Q) (spi : num) (index : nat) (us : list (list Q))
         (states : list (list Q)) (times : list Q) : res (list (list Q) * list Q) :=
  match us, fuel with
  | [], _ => Ok (states, times)
  | _, 0 => Err EMemory
  | u :: us', S fuel =>
      do k <- combine_steps u us';
      do _ <- der_ok a b scalar u;
      do r <- sim a b u (last states []) (step * qnat (S k))%Q (nmul spi (S k));
      sim_inputs fuel a b scalar step spi (index + S k) (skipn k us') (states ++ fst r) (times ++ map (fun t => t + qnat index * step)%Q (snd r))
  end.

(** check_trace.py:22-30 CheckTraceData *)
Record trace_data := mkTd { td_time : Q; td_abs : Q; td_rel : Q }.

(** check_trace.py:59-160 check *)
Definition check (a : csr) (b : option csr) (step max_time : Q) (start : list Q) (inputs : option (list (list Q))) (normal : list Q) (end_val : Q) (approx : nat)
  : res (list (list Q) * list Q * trace_data) :=
  do _ <- assert (0 <? c_nr a);
  do _ <- assert (c_nr a =? c_nc a);
  do _ <- assert (List.length start =? c_nr a);
  if Qeq_bool step 0 then Err EValue
  else
    let total := py_round (max_time / step) in
    do _ <- assert (negb (Qle_bool (1 # 1000000000) (Qabs (inject_Z total * step - max_time))));
    let us := match inputs with Some us => us | None => repeat [0%Q] (Z.to_nat total) end in
    do _ <- assert (Z.leb (Z.of_nat (List.length us)) total);
    do r <- sim_inputs (List.length us) a b (match inputs with Some _ => false | None => true end) step (samples_per_input approx (List.length us)) 0 us [start] [0%Q];
    let '(states, times) := r in
    do val <- pt_dot (last states []) normal;
    let abs := Qabs (val - end_val) in
    Ok (states, times, mkTd max_time abs (if Qeq_bool (Qabs val) 0 then 0%Q else (abs / Qabs val)%Q)).
End Check.
