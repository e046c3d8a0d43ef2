(** Model of hylaa/symbolic.py.  sympy is an oracle: [sym der] is the result of parse_expr(der, local_dict=...).subs(constants)
    (symbolic.py:113-115, 169-172), a sympy expression or an exception.  Numbers are exact rationals. *)
From Coq Require Import Ascii.
From Verif Require Import Base.
Open Scope nat_scope.

(** sympy expressions as symbolic.py inspects them (isinstance tests of lines 38-86): Number, Symbol, Add, Mul, and anything
    else (powers, functions, objects that are no Expr at all: line 25). *)
Inductive sexpr :=
| SNum (q : Q)
| SSym (name : string)
| SAdd (args : list sexpr)
| SMul (args : list sexpr)
| SOther (k : nat).

(** list.index *)
Fixpoint index_of (n : string) (l : list string) : option nat :=
  match l with
  | [] => None
  | m :: l' => if String.eqb m n then Some 0 else option_map S (index_of n l')
  end.

(** rv[i] += k *)
Fixpoint add_at (l : list Q) (i : nat) (k : Q) : list Q :=
  match l, i with
  | [], _ => []
  | a :: l', 0 => (a + k)%Q :: l'
  | a :: l', S i' => a :: add_at l' i' k
  end.

(** symbolic.py:35-86 _extract_linear_terms_rec *)
Fixpoint extract_rec (vars : list string) (affine : bool) (e : sexpr) (rv : list Q) {struct e} : res (list Q) :=
  match e with
  | SAdd [] => Err EIndex                                                  (* e.args[0] *)
  | SAdd args =>
      (fix go (l : list sexpr) (rv : list Q) {struct l} : res (list Q) :=
         match l with
         | [] => Ok rv
         | a :: l' => do rv' <- extract_rec vars affine a rv; go l' rv'
         end) args rv
  | SNum q =>
      if Qeq_bool q 0 then Ok rv
      else if negb affine then Err ERuntime
      else Ok (add_at rv (List.length rv - 1) q)
  | SSym n => match index_of n vars with Some i => Ok (add_at rv i 1) | None => Err ERuntime end
  | SMul args =>
      match args with
      | [SNum q; SSym n] | [SSym n; SNum q] =>
          match index_of n vars with Some i => Ok (add_at rv i q) | None => Err ERuntime end
      | _ => Err ERuntime
      end
  | SOther _ => Err ERuntime
  end.

(** symbolic.py:14-33 extract_linear_terms *)
Definition extract_linear_terms (e : sexpr) (vars : list string) (affine : bool) : res (list Q) :=
  extract_rec vars affine e (lzero (List.length vars) ++ (if affine then [0%Q] else [])).

Fixpoint mapM {A B} (f : A -> res B) (l : list A) : res (list B) :=
  match l with
  | [] => Ok []
  | a :: l' => do b <- f a; do r <- mapM f l'; Ok (b :: r)
  end.

Section Sym.
Variable sym : string -> res sexpr.

(** symbolic.py:100-125 make_dynamics_mat *)
Definition make_dynamics_mat (vars ders : list string) (affine : bool) : res mat :=
  do rv <- mapM (fun der => do e <- sym der; extract_linear_terms e vars affine) ders;
  Ok (rv ++ (if affine then [lzero (List.length vars + 1)] else [])).

(** mat[-1][-1] = 1.0 *)
Fixpoint set_last (l : list Q) (v : Q) : list Q :=
  match l with [] => [] | [_] => [v] | a :: l' => a :: set_last l' v end.
Fixpoint set_last_row (m : mat) (v : Q) : mat :=
  match m with [] => [] | [r] => [set_last r v] | r :: m' => r :: set_last_row m' v end.

(** symbolic.py:88-98 make_reset_mat *)
Definition make_reset_mat (vars resets : list string) (affine : bool) : res mat :=
  do m <- make_dynamics_mat vars resets affine;
  Ok (if affine then set_last_row m 1 else m).

(** str.count, str.replace and str.split for a two character pattern *)
Fixpoint count2 (a b : ascii) (s : string) : nat :=
  match s with
  | String c (String d r as t) => if (Ascii.eqb c a && Ascii.eqb d b)%bool then S (count2 a b r) else count2 a b t
  | _ => 0
  end.
(** replace(">=", "<="): both characters are two long and share the second one *)
Fixpoint replace_ge (s : string) : string :=
  match s with
  | String c (String d r as t) =>
      if (Ascii.eqb c ">" && Ascii.eqb d "=")%bool then String "<" (String "=" (replace_ge r)) else String c (replace_ge t)
  | _ => s
  end.
Fixpoint split_le (s : string) : list string :=
  match s with
  | String c (String d r as t) =>
      if (Ascii.eqb c "<" && Ascii.eqb d "=")%bool then EmptyString :: split_le r
      else match split_le t with x :: l => String c x :: l | [] => [] end
  | _ => [s]
  end.

(** symbolic.py:150-183: one condition *)
Definition make_one_condition (vars : list string) (cond : string) (affine : bool) : res (list Q * Q) :=
  let lt := count2 "<" "=" cond in
  let gt := count2 ">" "=" cond in
  if negb (lt + gt =? 1) then Err ERuntime
  else
    let cond := if gt =? 1 then replace_ge cond else cond in
    match split_le cond with
    | [l0; r0] =>
        let '(l, r) := if gt =? 1 then (r0, l0) else (l0, r0) in     (* the sides are swapped for '>=' *)
        do e <- sym (l ++ " - (" ++ r ++ ")")%string;
        do terms <- extract_linear_terms e vars true;
        Ok (removelast terms ++ (if affine then [0%Q] else []), (-1 * last terms 0)%Q)
    | _ => Err EValue        (* tuple unpacking of split *)
    end.

(** symbolic.py:127-185 make_condition *)
Definition make_condition (vars conds : list string) (affine : bool) : res (mat * list Q) :=
  do l <- mapM (fun c => make_one_condition vars c affine) conds;
  Ok (map fst l, map snd l).

End Sym.
