(** Computed examples for plotting: an exact hull and decomposition oracle for the plane, boxes, and a solver that answers with corners. *)
From Coq Require Import Lqa.
From Verif Require Import Base BaseFacts LpModel LpSpec SetSpec LpUtil StateSet Plot Solver Ex_Core Ex_Approx.
Open Scope nat_scope.

(** the facet through points i and j of vs with the other points on its inner side *)
Definition side (n : pt) (r : Q) (v : pt) : bool := Qle_bool (nth 0 n 0 * nth 0 v 0 + nth 1 n 0 * nth 1 v 0)%Q r.
Definition facet_of (a b : pt) : pt * Q :=
  let n0 := (nth 1 b 0 - nth 1 a 0)%Q in let n1 := (nth 0 a 0 - nth 0 b 0)%Q in let s := (Qabs n0 + Qabs n1)%Q in
  let n := [Qred (n0 / s); Qred (n1 / s)] in (n, Qred (nth 0 n 0 * nth 0 a 0 + nth 1 n 0 * nth 1 a 0)%Q).
Definition facet_ok (vs : list pt) (a b : pt) : bool :=
  let '(n, r) := facet_of a b in
  negb (Qeq_bool (nth 0 a 0%Q) (nth 0 b 0%Q) && Qeq_bool (nth 1 a 0%Q) (nth 1 b 0%Q))
  && Qle_bool (Qabs (nth 0 n 0%Q)) 1 && Qle_bool (Qabs (nth 1 n 0%Q)) 1 && forallb (side n r) vs.
Definition facets0 (vs : list pt) : list (list nat * pt * Q) :=
  flat_map (fun i => flat_map (fun j => if facet_ok vs (nth i vs []) (nth j vs []) then [([i; j], fst (facet_of (nth i vs []) (nth j vs [])), snd (facet_of (nth i vs []) (nth j vs [])))] else [])
                              (seq 0 (List.length vs))) (seq 0 (List.length vs)).
Fixpoint walk (fs : list (list nat * pt * Q)) (k start i : nat) : list nat :=
  match k with
  | 0 => []
  | S k => match find (fun f => match f with ([a; _], _, _) => Nat.eqb a i | _ => false end) fs with
           | Some ([_; b], _, _) => i :: (if Nat.eqb b start then [] else walk fs k start b)
           | _ => [i]
           end
  end.
Definition hull0 (vs : list pt) : res hullres :=
  let fs := facets0 vs in
  match fs with
  | ([i; _], _, _) :: _ => let w := walk fs (List.length vs) i i in if 2 <? List.length w then Ok (mkHull fs w) else Err ERuntime
  | _ => Err ERuntime
  end.
Definition orth0 (vs : list pt) : option pt * nat :=
  match vs with
  | [v] => if Qeq_bool (nth 0 v 0%Q) 0 && Qeq_bool (nth 1 v 0%Q) 0 then (Some [1%Q; 0%Q], 0) else (Some [(- nth 1 v 0)%Q; nth 0 v 0%Q], 1)
  | [v; w] => (None, if Qeq_bool (nth 0 v 0 * nth 1 w 0)%Q (nth 1 v 0 * nth 0 w 0)%Q then 1 else 2)
  | _ => (None, 2)
  end.

Definition exP_box := Eval vm_compute in getr lp_new (from_box fm_solver [(0, 1)%Q; (0, 2)%Q] 0 false).
Definition exP_far := Eval vm_compute in getr lp_new (from_box fm_solver [(1000000, 1000001)%Q; (1000000, 1000001)%Q] 0 false).
Definition exP_flat := Eval vm_compute in getr lp_new (from_box fm_solver [(0, 0)%Q; (0, 1)%Q] 0 false).

Definition exP_diag := Eval vm_compute in getr lp_new (from_zonotope fm_solver [1%Q; 1%Q] [[1%Q; 2%Q]] 0 false).

(** among the optimal answers, prefer those of a list *)
Definition prefer (cs : lp -> list vec) : solver := fun l =>
  match fm_solver l with
  | SOpt xs => match find (fun c => satb l c && Qle_bool (reval (l_obj l) c) (reval (l_obj l) xs)) (cs l) with Some c => SOpt c | None => SOpt xs end
  | r => r
  end.
Lemma prefer_ok cs : solver_ok (prefer cs).
Proof.
  intro l. unfold prefer. pose proof (fm_solver_ok l) as H. destruct (fm_solver l) as [xs| |]; auto. destruct (find _ (cs l)) as [c|] eqn:E; [|exact H].
  apply find_some in E as [_ E]. apply andb_prop in E as [E1 E2]. apply satb_ok in E1. apply Qle_bool_iff in E2. split; [exact E1|].
  intros y Hy. eapply Qle_trans; [exact E2|]. apply H. exact Hy.
Qed.
Definition corner (a b : Q) : vec := fun i => if Nat.even i then a else b.
Definition corners (l : lp) : list vec := [corner 0 0; corner 0 2; corner 1 0; corner 1 2].
(** interior points of the vertical segment, depending on the objective *)
Definition inner (l : lp) : list vec := [corner 0 (if Qle_bool 0 (reval (l_obj l) (corner 1 0)) then 1 # 4 else 3 # 4)].
