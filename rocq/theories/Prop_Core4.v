(** Properties of the reachability analysis, continued: termination (C24) and step intervals (C50). *)
From Verif Require Import Base BaseFacts LpModel LpUtil LpFacts Automaton StateSet CoreModel HeapFacts CoreOps CorePop HybridSpec CoreGhost CoreDag CoreDag2 CoreDag3 CoreLive CoreLive2 CoreIvl CoreIvl2 CoreIvl3 CoreTerm Prop_Core2.
Open Scope nat_scope.

(** ** C24 *)
(** a set given to Core.run: StateSet's default cur_step_in_mode and cur_steps_since_start *)
Definition fresh_set (s : sset) : Prop := ss_step s = 0 /\ ss_lo s = 0 /\ ss_hi s = 0.
(** The number of do_step calls is at most |init sets| * 2 * (|transitions| + 2)^num_steps, for every automaton, solver answer and
    aggregation strategy: with that much fuel the loop of run_to_completion finishes (with a result or an exception). *)
Theorem C24_terminates solve arnoldi cf a0 inits fuel : cf_urgent cf = false -> no_deagg cf -> (forall s, In s inits -> fresh_set s) ->
  List.length inits * (2 * (List.length (ha_trans a0) + 2) ^ cf_num cf) <= fuel -> run solve arnoldi cf a0 inits fuel <> None.
Proof.
  intros Hu Hnd Hs Hf. unfold run. destruct (do _ <- _; setup_ha cf a0) as [a|e] eqn:Ea; [|discriminate]. apply bind_ok in Ea as (u & _ & Ea). apply setup_ha_count in Ea.
  destruct (setup solve a inits) as [c|e] eqn:Es; [|discriminate]. destruct (setup_phi solve cf a inits c Hs Es) as (Hr & Hd & Hp).
  apply (loop_terminates solve cf a arnoldi Hnd Hu inits Hs); auto; [apply r_setup; exact Es|]. rewrite Ea in Hp. lia.
Qed.

(** ** C50 *)
(** the step interval a state had when it was created: cur_steps_since_start counts on with every step in the mode *)
Definition start_lo (s : sset) : nat := ss_lo s - ss_step s.
Definition start_hi (s : sset) : nat := ss_hi s - ss_step s.
(** [elapsed c o n]: along some path of recorded operations from an initial state to operation [o], [n] time steps pass *)
Inductive elapsed (c : core) : nat -> nat -> Prop :=
| el_init o : o < List.length (c_ops c) -> o_parent (getO c o) = None -> elapsed c o 0
| el_op o M p n : o < List.length (c_ops c) -> o_parent (getO c o) = Some M -> In p (n_parents (getN c M)) -> elapsed c p n -> elapsed c o (n + o_step (getO c o)).

Section Ivl.
Variable solve : solver.
Variable arnoldi : nat -> option (list Q) -> csr -> option csr -> nat -> list (list Q).
Variable cf : cfg.
Variable a : ha.

Lemma minl_spec (f : nat -> nat) l : l <> [] -> (forall x, In x l -> minl (map f l) <= f x) /\ exists x, In x l /\ f x = minl (map f l).
Proof.
  destruct l as [|x l]; [congruence|]. intros _. cbn [map minl].
  assert (Q : forall l x, (fold_left Nat.min (map f l) x <= x /\ forall y, In y l -> fold_left Nat.min (map f l) x <= f y) /\ (fold_left Nat.min (map f l) x = x \/ exists y, In y l /\ f y = fold_left Nat.min (map f l) x)).
  { clear. induction l as [|y l IH]; intro x; cbn [map fold_left]; [split; [split; [auto|intros y []]|left; auto]|]. destruct (IH (Nat.min x (f y))) as [[A B] C]. split.
    - split; [lia|]. intros z [<-|Hz]; [lia|auto].
    - destruct C as [C|(z & C1 & C2)]; [|right; exists z; split; [right; auto|auto]]. rewrite C. destruct (Nat.min_dec x (f y)) as [->| ->]; [left; auto|right; exists y; split; [left; auto|auto]]. }
  destruct (Q l (f x)) as [[A B] C]. split.
  - intros y [<-|Hy]; [lia|auto].
  - destruct C as [C|(z & C1 & C2)]; [exists x; split; [left; auto|auto]|exists z; split; [right; auto|auto]].
Qed.
Lemma maxl_spec (f : nat -> nat) l : l <> [] -> (forall x, In x l -> f x <= maxl (map f l)) /\ exists x, In x l /\ f x = maxl (map f l).
Proof.
  intro H. unfold maxl.
  assert (Q : forall l x, (x <= fold_left Nat.max (map f l) x /\ forall y, In y l -> f y <= fold_left Nat.max (map f l) x) /\ (fold_left Nat.max (map f l) x = x \/ exists y, In y l /\ f y = fold_left Nat.max (map f l) x)).
  { clear. induction l as [|y l IH]; intro x; cbn [map fold_left]; [split; [split; [auto|intros y []]|left; auto]|]. destruct (IH (Nat.max x (f y))) as [[A B] C]. split.
    - split; [lia|]. intros z [<-|Hz]; [lia|auto].
    - destruct C as [C|(z & C1 & C2)]; [|right; exists z; split; [right; auto|auto]]. rewrite C. destruct (Nat.max_dec x (f y)) as [->| ->]; [left; auto|right; exists y; split; [left; auto|auto]]. }
  destruct (Q l 0) as [[A B] C]. split; [auto|]. destruct C as [C|(z & C1 & C2)]; [|exists z; auto]. destruct l as [|x l]; [congruence|]. exists x. split; [left; auto|]. specialize (B x (or_introl eq_refl)). rewrite C in *. lia.
Qed.

(** the interval of a node's state is the hull of the intervals of the states it was made of *)
Theorem C50_hull inits c N : (forall s, In s inits -> fresh_set s) -> reached solve arnoldi cf a inits c -> N < List.length (c_nodes c) ->
  let s := getS c (n_state (getN c N)) in let parts := map (pstate c) (n_parents (getN c N)) in
  ss_step s <= ss_lo s <= ss_hi s /\
  (forall x, In x parts -> start_lo s <= start_lo x /\ start_hi x <= start_hi s) /\
  (exists x, In x parts /\ start_lo x = start_lo s) /\ (exists x, In x parts /\ start_hi x = start_hi s).
Proof.
  intros Hs R HN. cbv zeta. assert (I := iv_reached solve cf a arnoldi inits c Hs R). assert (D := ci_dag _ _ _ (cinv_reached _ _ _ _ _ _ R)). destruct (d_parents _ _ _ _ D N HN) as (K1 & K2 & K3 & K4 & K5).
  split; [apply (iv_s _ I); auto|]. destruct (le_lt_dec 2 (List.length (n_parents (getN c N)))) as [L|L].
  - destruct (iv_n _ I N HN L) as [E1 E2]. change (start_lo (getS c (n_state (getN c N))) = minl (map (fun o => start_lo (pstate c o)) (n_parents (getN c N)))) in E1. change (start_hi (getS c (n_state (getN c N))) = maxl (map (fun o => start_hi (pstate c o)) (n_parents (getN c N)))) in E2.
    destruct (minl_spec (fun o => start_lo (pstate c o)) _ K1) as [A1 (x & A2 & A3)], (maxl_spec (fun o => start_hi (pstate c o)) _ K1) as [B1 (y & B2 & B3)]. split; [|split].
    + intros s Hx. apply in_map_iff in Hx as (o & <- & Ho). rewrite E1, E2. auto.
    + exists (pstate c x). split; [apply in_map; auto|congruence].
    + exists (pstate c y). split; [apply in_map; auto|congruence].
  - destruct (n_parents (getN c N)) as [|o [|? ?]]; [congruence| |cbn in L; lia]. destruct (K5 o (or_introl eq_refl)) as (_ & _ & _ & _ & _ & E). specialize (E eq_refl). assert (Es : getS c (n_state (getN c N)) = pstate c o) by (rewrite E; reflexivity). rewrite Es. cbn [map].
    split; [intros x [<-|[]]; auto|]. split; exists (pstate c o); (split; [left; auto|auto]).
Qed.
(** exactness: the interval of a successor is [fewest steps, most steps] over the paths that lead to it *)
Theorem C50_exact inits c o : (forall s, In s inits -> fresh_set s) -> reached solve arnoldi cf a inits c -> o < List.length (c_ops c) ->
  let s := pstate c o in
  (forall n, elapsed c o n -> start_lo s <= n <= start_hi s) /\ elapsed c o (start_lo s) /\ elapsed c o (start_hi s).
Proof.
  intros Hs R Ho. cbv zeta. assert (I := iv_reached solve cf a arnoldi inits c Hs R). assert (D := ci_dag _ _ _ (cinv_reached _ _ _ _ _ _ R)).
  assert (P : forall k o, o < nO c -> (forall M, o_parent (getO c o) = Some M -> M < k) -> (forall n, elapsed c o n -> start_lo (pstate c o) <= n <= start_hi (pstate c o)) /\ elapsed c o (start_lo (pstate c o)) /\ elapsed c o (start_hi (pstate c o))).
  { clear o Ho. induction k as [|k IH]; intros o Ho Hk.
    - destruct (o_parent (getO c o)) as [M|] eqn:E; [specialize (Hk M eq_refl); lia|]. destruct (iv_i _ I o Ho E) as [E1 E2]. change (start_lo (pstate c o) = 0) in E1. change (start_hi (pstate c o) = 0) in E2. rewrite E1, E2.
      split; [|split; constructor; auto]. intros n Hn. inversion Hn; subst; [lia|congruence].
    - destruct (o_parent (getO c o)) as [M|] eqn:E; [|apply IH; [auto|rewrite E; discriminate]]. destruct (d_par _ _ _ _ D o M Ho E) as (HM & _). destruct (C50_hull inits c M Hs R HM) as (_ & H2 & (x & H3 & H4) & (y & H5 & H6)).
      destruct (iv_o _ I o M Ho E) as [E1 E2]. change (start_lo (pstate c o) = start_lo (getS c (n_state (getN c M))) + o_step (getO c o)) in E1. change (start_hi (pstate c o) = start_hi (getS c (n_state (getN c M))) + o_step (getO c o)) in E2.
      destruct (d_parents _ _ _ _ D M HM) as (_ & _ & _ & _ & K5).
      assert (IHp : forall p, In p (n_parents (getN c M)) -> (forall n, elapsed c p n -> start_lo (pstate c p) <= n <= start_hi (pstate c p)) /\ elapsed c p (start_lo (pstate c p)) /\ elapsed c p (start_hi (pstate c p))).
      { intros p Hp. destruct (K5 p Hp) as (Q1 & _ & _ & Q4 & _). apply IH; [auto|]. intros M' HM'. specialize (Q4 M' HM'). specialize (Hk M eq_refl). lia. }
      split; [|split].
      + intros n Hn. inversion Hn as [|? M' p n0 _ EM Hp Hpn]; subst; [congruence|]. rewrite E in EM. injection EM as <-. destruct (H2 (pstate c p) (in_map _ _ _ Hp)). destruct (IHp p Hp) as [Q _]. specialize (Q _ Hpn). lia.
      + rewrite E1, <- H4. apply in_map_iff in H3 as (p & <- & Hp). eapply el_op; eauto. apply IHp; auto.
      + rewrite E2, <- H6. apply in_map_iff in H5 as (p & <- & Hp). eapply el_op; eauto. apply IHp; auto. }
  apply (P (nN c) o Ho). intros M HM. apply (d_par _ _ _ _ D o M Ho HM).
Qed.
(** executions that follow the recorded operations ([To]: arriving through operation [o] after [n] steps in total; [Tn]: being in
    node [N] for [k] steps, [n] in total, CoreGhost.v) have a step count inside the interval *)
Theorem C50_contains_executions inits c ru I0 : (forall s, In s inits -> fresh_set s) -> reached solve arnoldi cf a inits c ->
  (forall o x n, To a ru I0 c o x n -> start_lo (pstate c o) <= n <= start_hi (pstate c o)) /\
  (forall N k x n, Tn a ru I0 c N k x n -> start_lo (getS c (n_state (getN c N))) + k <= n <= start_hi (getS c (n_state (getN c N))) + k).
Proof.
  intros Hs R.
  assert (P : (forall N k x n, Tn a ru I0 c N k x n -> N < nN c /\ exists p m, In p (n_parents (getN c N)) /\ elapsed c p m /\ n = m + k) /\ (forall o x n, To a ru I0 c o x n -> o < nO c /\ elapsed c o n)).
  { apply TnTo_ind.
    - intros N o x n HN Hi _ (Ho & He). split; [auto|]. exists o, n. split; [auto|]. split; [auto|lia].
    - intros N k x n u x' _ (HN & p & m & H1 & H2 & ->) _ _ _ _ _. split; [auto|]. exists p, m. split; [auto|]. split; [auto|lia].
    - intros o x Ho Hp _. split; [auto|constructor; auto].
    - intros o M t y x n Ho Hp _ _ (HN & p & m & H1 & H2 & ->) _ _ _. split; [auto|]. eapply el_op; eauto. }
  destruct P as [P1 P2]. split.
  - intros o x n H. destruct (P2 o x n H) as [Ho He]. apply (C50_exact inits c o Hs R Ho). exact He.
  - intros N k x n H. destruct (P1 N k x n H) as (HN & p & m & H1 & H2 & ->). destruct (C50_hull inits c N Hs R HN) as (_ & H3 & _). destruct (H3 (pstate c p) (in_map _ _ _ H1)).
    assert (D := ci_dag _ _ _ (cinv_reached _ _ _ _ _ _ R)). destruct (d_parents _ _ _ _ D N HN) as (_ & _ & _ & _ & K5). destruct (K5 p H1) as (Hp & _). destruct (C50_exact inits c p Hs R Hp) as [Q _]. specialize (Q m H2). lia.
Qed.
End Ivl.

From Verif Require Import Solver Ex_Core Prop_Core Prop_Core3.
Open Scope nat_scope.
(** three successors of steps 2, 3 and 4 are aggregated: the node's interval is [2, 4] and continues to [3, 5] *)
Example C50_witness : reached fm_solver arn0 (exC_cf true) exD_a [exC_s] (exD 8) /\ (forall s, In s [exC_s] -> fresh_set s) /\
  (let c := exD 8 in n_parents (getN c 1) = [1; 2; 3] /\ map (fun o => (ss_lo (pstate c o), ss_hi (pstate c o))) [1; 2; 3] = [(2, 2); (3, 3); (4, 4)] /\
   let s := getS c (n_state (getN c 1)) in (ss_step s, ss_lo s, ss_hi s) = (1, 3, 5)).
Proof.
  split; [apply exD_ok; vm_compute; reflexivity|]. split; [intros s [<-|[]]; vm_compute; auto|]. split; [vm_compute; reflexivity|]. split; vm_compute; reflexivity.
Qed.
(** the same automaton with deaggregation off finishes, within the bound, after more than one step *)
Example C24_witness : cf_urgent (exC_cf false) = false /\ no_deagg (exC_cf false) /\ (forall s, In s [exC_s] -> fresh_set s) /\
  (exists c, run fm_solver arn0 (exC_cf false) (exC (-(3#2))) [exC_s] 100 = Some (Ok c) /\ 5 <= c_csteps c) /\ run fm_solver arn0 (exC_cf false) (exC (-(3#2))) [exC_s] 5 = None.
Proof.
  split; [reflexivity|]. split; [intros g [= <-]; reflexivity|]. split; [intros s [<-|[]]; vm_compute; auto|]. split; [|vm_compute; reflexivity].
  pose (o := run fm_solver arn0 (exC_cf false) (exC (-(3#2))) [exC_s] 100). assert (H : o = Some (Ok (getc o))) by (apply getc_ok; vm_compute; reflexivity). exists (getc o). split; [exact H|]. apply Nat.leb_le. vm_compute. reflexivity.
Qed.
