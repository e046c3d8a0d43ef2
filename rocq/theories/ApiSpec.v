(** LPs obtained by calling the public operations of lputil, with what the caller knows about them.

    [api l (Some (BM, nu, IEs, js))] : l is an LP whose current basis matrix is BM, whose input-effect matrices so far are
    IEs (nu inputs each) and js are the row indices returned by earlier add_init_constraint / try_replace_init_constraint
    calls.  [api l None]: l was obtained by an operation after which no more set_basis_matrix / add_init_constraint calls
    are made (get_guard_intersection, bloat). *)
From Verif Require Import Base LpModel LpSpec SetSpec LpUtil.
Open Scope nat_scope.

Section Api.
Variable solve : solver.

Definition known : Type := mat * nat * list mat * list nat.

Inductive api : lp -> option known -> Prop :=
| api_from_constraints m rhs mid hi tn dopt l nu :
    csr_ok m -> (match tn with None => True | Some (ts, ns) => List.length ns = c_nc m /\ Forall (fun t => t <> LO) ts end) ->
    from_constraints solve m rhs mid hi tn dopt = Ok l -> 0 < l_dims l ->
    api l (Some (ident (l_dims l), nu, [], []))
| api_reset l o mid tix reset mink si l' nu :
    api l o -> opt_csr_ok reset -> mink_ok mink ->
    add_reset_variables l mid tix reset mink si = Ok l' -> 0 < l_dims l' ->
    api l' (Some (ident (l_dims l'), nu, [], []))
| api_basis l BM nu IEs js BM' l' :
    api l (Some (BM, nu, IEs, js)) -> set_basis_matrix l BM' = Ok l' -> api l' (Some (BM', nu, IEs, js))
| api_inputs l BM nu IEs js ie mid nv uc ur l' :
    api l (Some (BM, nu, IEs, js)) -> csr_ok uc -> c_nc uc = nu -> c_nr uc = List.length ur ->
    add_input_effects_matrix l ie mid nv uc ur = Ok l' -> api l' (Some (BM, nu, IEs ++ [ie], js))
| api_init l BM nu IEs js v rhs l' i :
    api l (Some (BM, nu, IEs, js)) -> add_init_constraint l v rhs (Some BM) IEs None = Ok (l', i) ->
    api l' (Some (BM, nu, IEs, i :: js))
| api_replace l BM nu IEs js j v rhs l' i b :
    api l (Some (BM, nu, IEs, js)) -> In j js ->
    try_replace_init_constraint solve l j v rhs (Some BM) IEs = Ok (l', i, b) ->
    api l' (Some (BM, nu, IEs, js))
| api_objective l o obj : api l o -> api (with_obj l obj) o
| api_curtime l o m rhs l' :
    api l o -> csr_ok m -> c_nc m <= l_dims l -> c_nr m = List.length rhs -> add_curtime_constraints l m rhs = Ok l' -> api l' None
| api_bloat l k a l' : api l (Some k) -> bloat l a = Ok l' -> api l' None
| api_forget l k : api l (Some k) -> api l None.
End Api.
