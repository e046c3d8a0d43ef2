(** C26, continued: which state sets are called concrete. *)
From Verif Require Import Base BaseFacts LpModel LpSpec Automaton StateSet HybridSpec StateSpec CoreModel HeapFacts CoreOps CorePop CoreDag CoreDag2 CoreDag3 CoreSpec CoreSetup CoreShape CoreShape2.
From Coq Require Import Lia.
Open Scope list_scope.
Open Scope nat_scope.

(** Nothing was merged on the way to node N: it has a single parent operation, that of an initial set or of a node with this property. *)
Inductive unmerged (c : core) : nat -> Prop :=
| unmerged_init N o : N < List.length (c_nodes c) -> n_parents (getN c N) = [o] -> o_parent (getO c o) = None -> unmerged c N
| unmerged_step N o M : N < List.length (c_nodes c) -> n_parents (getN c N) = [o] -> o_parent (getO c o) = Some M -> unmerged c M -> unmerged c N.

Section C26.
Variable solve : solver.
Variable arnoldi : nat -> option (list Q) -> csr -> option csr -> nat -> list (list Q).
Variable cf : cfg.
Variable a : ha.

Lemma xinv_reached inits c : Forall (init_ok solve a) inits -> reached solve arnoldi cf a inits c -> xinv a c.
Proof.
  intros HF H. induction H as [c H|c c' R IH H]; [exact (xinv_setup solve a inits c HF H)|]. exact (xinv_step solve arnoldi cf a c c' (cinv_reached _ _ _ _ _ _ R) IH H).
Qed.

(** In every state of the analysis: the set of a node is concrete exactly when nothing was merged on the way to it; the set made by a
    transition is concrete exactly when the set it was made from is, and initial sets are; merged sets carry an aggregation label. *)
Theorem C26_concrete inits c : Forall (init_ok solve a) inits -> reached solve arnoldi cf a inits c ->
  (forall N, N < List.length (c_nodes c) -> ss_conc (getS c (n_state (getN c N))) = true <-> unmerged c N) /\
  (forall o N, o < List.length (c_ops c) -> o_parent (getO c o) = Some N -> ss_conc (getS c (o_post (getO c o))) = true <-> unmerged c N) /\
  (forall o, o < List.length (c_ops c) -> o_parent (getO c o) = None -> ss_conc (getS c (o_post (getO c o))) = true) /\
  (forall N, N < List.length (c_nodes c) -> 2 <= List.length (n_parents (getN c N)) -> n_agg (getN c N) <> None /\ ss_agg (getS c (n_state (getN c N))) <> None).
Proof.
  intros HF R. pose proof (xinv_reached inits c HF R) as X. assert (D := ci_dag _ _ _ (cinv_reached _ _ _ _ _ _ R)).
  assert (K : forall N, N < nN c -> ss_conc (getS c (n_state (getN c N))) = true <-> unmerged c N).
  { intro N. induction N as [N IH] using lt_wf_ind. intro HN. destruct (d_parents _ _ _ _ D N HN) as (P1 & P2 & P3 & P4 & P5).
    destruct (n_parents (getN c N)) as [|o [|o2 l]] eqn:Ep; [congruence| |].
    - destruct (P5 o (or_introl eq_refl)) as (Q1 & Q2 & Q3 & Q4 & Q5 & Q6). rewrite (Q6 eq_refl). destruct (o_parent (getO c o)) as [M|] eqn:Eo.
      + pose proof (x_conc1 _ _ X o M Q1 Eo) as E. unfold pstate in E. rewrite E, (IH M (Q4 M eq_refl) (proj1 (d_par _ _ _ _ D o M Q1 Eo))). split; intro U; [econstructor 2; eauto|].
        inversion U as [N0 o0 U1 U2 U3|N0 o0 M0 U1 U2 U3 U4]; subst; rewrite Ep in U2; injection U2 as <-; congruence.
      + pose proof (x_conc0 _ _ X o Q1 Eo) as E. unfold pstate in E. split; intro U; [econstructor 1; eauto|exact E].
    - rewrite (x_many _ _ X N HN) by (rewrite Ep; cbn; lia). split; intro U; [discriminate|]. inversion U as [N0 o0 U1 U2 U3|N0 o0 M0 U1 U2 U3 U4]; rewrite Ep in U2; discriminate. }
  split; [exact K|]. split; [|split].
  - intros o N Ho Hp. pose proof (x_conc1 _ _ X o N Ho Hp) as E. unfold pstate in E. rewrite E. apply K. apply (d_par _ _ _ _ D o N Ho Hp).
  - exact (x_conc0 _ _ X).
  - intros N HN H2. split; [exact (x_agg _ _ X N HN H2)|exact (x_str _ _ X N HN)].
Qed.

(** every recorded invariant operation names a condition of its node's mode, and no operation is recorded twice in a node *)
Theorem C26_recorded_operations inits c : Forall (init_ok solve a) inits -> reached solve arnoldi cf a inits c -> forall N, N < List.length (c_nodes c) ->
  (forall k i b, In (NInv k i b) (n_ops (getN c N)) -> i < List.length (m_inv (get_mode a (ss_mode (getS c (n_state (getN c N))))))) /\
  NoDup (flat_map (fun x => match x with NTr o => [o] | _ => [] end) (n_ops (getN c N))).
Proof. intros HF R N HN. pose proof (xinv_reached inits c HF R) as X. split; [intros k i b H; exact (x_inv _ _ X N k i b HN H)|exact (x_nd _ _ X N HN)]. Qed.
End C26.

From Verif Require Import Solver Ex_Core Prop_Core Prop_Deagg.
Open Scope nat_scope.
(** In the analysis of Prop_Deagg.v: node 0 was made from the initial set, node 1 by merging three successors. *)
Example C26_concrete_witness : reached fm_solver arn0 exY_cf exY_a [exC_s] (exY_c 12) /\ Forall (init_ok fm_solver exY_a) [exC_s] /\
  unmerged (exY_c 12) 0 /\ List.length (n_parents (getN (exY_c 12) 1)) = 3 /\ ss_conc (getS (exY_c 12) (n_state (getN (exY_c 12) 1))) = false.
Proof.
  split; [apply steps_reached; apply r_setup; exact exY_setup|]. split.
  { eapply Forall_impl; [|exact (exC_init (-(3#2))%Q)]. intros s Hs. refine (SetupHa.init_ok_modes _ _ _ s _ Hs). vm_compute. reflexivity. }
  split; [apply (unmerged_init _ 0 0); vm_compute; [lia|reflexivity|reflexivity]|]. split; vm_compute; reflexivity.
Qed.
