(** Specification vocabulary for sets of points: boxes, zonotopes, images under resets, unions, extrema.
    Only the record of an LP's rows (through [in_lp]) is mentioned, no function of the model. *)
From Verif Require Import Base LpModel LpSpec.
Open Scope nat_scope.

(** lb_i <= p_i <= ub_i *)
Definition in_box (box : list (Q * Q)) (p : vec) : Prop :=
  forall i lb ub, nth_error box i = Some (lb, ub) -> (lb <= p i /\ p i <= ub)%Q.

(** sum over the generators g_k of a_k * g_k[i] *)
Fixpoint gen_sum (gens : list (list Q)) (a : vec) (i : nat) : Q :=
  match gens with
  | [] => 0
  | g :: gs => (a 0%nat * nth i g 0 + gen_sum gs (fun k => a (S k)) i)%Q
  end.
Definition in_zonotope (center : list Q) (gens : list (list Q)) (p : vec) : Prop :=
  exists a, (forall k, k < List.length gens -> (-1 <= a k /\ a k <= 1)%Q)
         /\ forall i, i < List.length center -> (p i == nth i center 0 + gen_sum gens a i)%Q.

(** p = B u for some u with C u <= d *)
Definition in_input_set (B C : csr) (d : list Q) (p : vec) : Prop :=
  exists u, poly (c_rows C) d u /\ forall i r, nth_error (c_rows B) i = Some r -> (p i == reval r u)%Q.

(** p is a sum of points, one from each set *)
Fixpoint in_sum (n : nat) (ls : list lp) (p : vec) : Prop :=
  match ls with
  | [] => forall i, i < n -> (p i == 0)%Q
  | l :: ls' => exists q r, in_lp l q /\ in_sum n ls' r /\ forall i, i < n -> (p i == q i + r i)%Q
  end.

(** p' = R p + M y for some y with C y <= d; None is the identity resp. no uncertain part *)
Definition reset_image (n : nat) (reset : option csr) (mink : option (csr * csr * list Q)) (p p' : vec) : Prop :=
  exists y, (match mink with Some (_, C, d) => poly (c_rows C) d y | None => True end) /\
  forall i, i < n ->
    (p' i == match reset with Some R => reval (nth i (c_rows R) []) p | None => p i end
           + match mink with Some (M, _, _) => reval (nth i (c_rows M) []) y | None => 0 end)%Q.

Definition opt_csr_ok (o : option csr) : Prop := match o with Some m => csr_ok m | None => True end.
Definition mink_ok (o : option (csr * csr * list Q)) : Prop :=
  match o with Some (M, C, d) => csr_ok M /\ csr_ok C /\ c_nc C = c_nc M | None => True end.

(** minimum / maximum of a function over a set *)
Definition is_min (S : vec -> Prop) (f : vec -> Q) (m : Q) : Prop :=
  (exists p, S p /\ (f p == m)%Q) /\ forall p, S p -> (m <= f p)%Q.
Definition is_max (S : vec -> Prop) (f : vec -> Q) (m : Q) : Prop :=
  (exists p, S p /\ (f p == m)%Q) /\ forall p, S p -> (f p <= m)%Q.

(** union of the sets *)
Definition in_any (ls : list lp) (p : vec) : Prop := exists l, In l ls /\ in_lp l p.

(** p lies between the smallest and largest value of the direction d over S *)
Definition between (S : vec -> Prop) (d : list Q) (p : vec) : Prop :=
  (exists q, S q /\ (ldot d 0 p <= ldot d 0 q)%Q) /\ (exists q, S q /\ (ldot d 0 q <= ldot d 0 p)%Q).


(** a set whose points are bounded in every dimension *)
Definition bounded (l : lp) : Prop := exists M, forall p i, in_lp l p -> i < l_dims l -> (Qabs (p i) <= M)%Q.

(** convex combinations of one point of each set *)
Definition qsum (f : nat -> Q) (k : nat) : Q := fold_right (fun i acc => (f i + acc)%Q) 0%Q (seq 0 k).
Definition in_hull (n : nat) (ls : list lp) (p : vec) : Prop :=
  exists (w : nat -> Q) (q : nat -> vec),
    (forall i, i < List.length ls -> (0 <= w i)%Q) /\ (qsum w (List.length ls) == 1)%Q /\
    (forall i l, nth_error ls i = Some l -> in_lp l (q i)) /\
    forall d, d < n -> (p d == qsum (fun i => w i * q i d) (List.length ls))%Q.
