(** C43: invariants in modes with inputs. *)
From Verif Require Import Base BaseFacts LpModel LpSpec SetSpec LpUtil ApiSpec Automaton StateSet HybridSpec StateSpec CoreModel CoreSpec LpFacts Prop_Automaton.
Open Scope nat_scope.

(** n time steps in a mode, with admissible inputs, the invariant holding before each of them *)
Fixpoint inv_flow (m : mode) (n : nat) (p q : vec) : Prop :=
  match n with
  | 0 => veq (m_dims m) p q
  | S n' => exists r u, inv_flow m n' p r /\ inv_ok 0 m r /\ input_ok m u /\ one_step m r u q
  end.

Section P.
Variable solve : solver.
Hypothesis Hsolve : solver_ok solve.
Variable a : ha.
Hypothesis WH : wf_ha a.

(** the continuous part of the analysis: n times intersect with the invariant, then step; in a mode with inputs the invariant cuts
    nothing off *)
Inductive rounds (s : sset) : nat -> sset -> Prop :=
| rd0 : rounds s 0 s
| rdS n s1 s2 s3 ops : rounds s n s1 -> intersect_invariant solve a s1 = Ok (s2, ops, true) -> (m_b (get_mode a (ss_mode s)) = None \/ no_rows s2) -> ss_step1 a s2 = Ok s3 ->
    rounds s (S n) s3.
Lemma rounds_run s n s' : sset_run solve a s -> rounds s n s' -> sset_run solve a s' /\ ss_mode s' = ss_mode s.
Proof.
  intros R H. induction H as [|n s1 s2 s3 ops H IH Hi Hc Hst]; [auto|]. destruct IH as [R1 M1]. assert (R2 : sset_run solve a s2) by (eapply sr_inv; eauto).
  split; [eapply sr_step; [exact R2|exact Hst]|]. destruct (C12_intersect_invariant_exact solve Hsolve a s1 s2 ops true WH R1 Hi) as (E & _).
  destruct (C17_step_exact solve Hsolve a s2 s3 WH R2) as (E2 & _); [|exact Hst|congruence]. rewrite E, M1. exact Hc.
Qed.
(** every execution stays inside the sets, as long as the invariant does not cut a set of a mode with inputs *)
Theorem C43_executions_inside_partial s n s' p q : sset_run solve a s -> rounds s n s' -> in_lp (ss_lpi s) p -> inv_flow (get_mode a (ss_mode s)) n p q -> in_lp (ss_lpi s') q.
Proof.
  intros R H. revert q. induction H as [|n s1 s2 s3 ops H IH Hi Hc Hst]; intros q Hp Hf.
  - cbn [inv_flow] in Hf. destruct (run_st solve Hsolve a s WH R) as (x & St). eapply in_lp_ext; [|exact Hp]. rewrite (StateFacts.st_dims _ _ _ _ St). unfold m_dims in Hf. rewrite (StateFacts.st_a _ _ _ _ St) in Hf. exact Hf.
  - cbn [inv_flow] in Hf. destruct Hf as (r & u & F & Hv & Hu & Ho). specialize (IH r Hp F). destruct (rounds_run _ _ _ R H) as [R1 M1].
    destruct (C12_intersect_invariant_exact solve Hsolve a s1 s2 ops true WH R1 Hi) as (E & _ & _ & _ & _ & _ & G & _).
    assert (R2 : sset_run solve a s2) by (eapply sr_inv; eauto). destruct (C17_step_exact solve Hsolve a s2 s3 WH R2) as (_ & _ & _ & _ & _ & E2); [rewrite E, M1; exact Hc|exact Hst|].
    apply E2. exists r, u. rewrite E, M1. split; [|split; [exact Hu|exact Ho]]. apply G; [exact IH|]. intros c Hin. rewrite M1 in Hin. destruct (Hv c Hin) as [K|K]; lra.
Qed.
End P.

From Verif Require Import Solver Ex_Core Ex_Zero Ex_Inv Prop_Core.
Open Scope nat_scope.
(** in general this fails: x' = x/2 + u from 0, u in [-1, 1], invariant x <= 1/2, error x >= 6/5.  The analysis says safe, x = 0, 1/2, 5/4 is an
    execution into the error.  stateset.py:115-147 appends the newest input as the last column of the LP, where it acts as the earliest
    input; the invariant rows added before (stateset.py:149-180) then constrain the wrong inputs *)
Theorem C43_inputs_invariants_refuted : exists c, wf_ha exI /\ Forall (init_ok fm_solver exI) [exI_s] /\ run fm_solver arn0 exI_cf exI [exI_s] 100 = Some (Ok c) /\ printed_verdict c = VSafe /\
  error_reachable 0 (rules_of exI_cf) exI (init_of_list [exI_s]).
Proof.
  pose (o := run fm_solver arn0 exI_cf exI [exI_s] 100). exists (getc o).
  split; [apply exI_wf|]. split; [apply exI_init|]. split; [apply getc_ok; vm_compute; reflexivity|]. split; [vm_compute; reflexivity|exact exI_reach].
Qed.
(** the hypotheses of C43_executions_inside_partial: two rounds in a mode with inputs; x = 0, 1, 2 *)
Example C43_witness : exists s1 s2, sset_run fm_solver (exZ true 2) (exZ_s true) /\ rounds fm_solver (exZ true 2) (exZ_s true) 2 s2 /\ rounds fm_solver (exZ true 2) (exZ_s true) 1 s1 /\
  in_lp (ss_lpi (exZ_s true)) (fun _ => 0%Q) /\ inv_flow (get_mode (exZ true 2) 0) 2 (fun _ => 0%Q) (fun _ => 2%Q).
Proof.
  set (z1 := getr dss0 (ss_step1 (exZ true 2) (exZ_s true))). set (z2 := getr dss0 (ss_step1 (exZ true 2) z1)). exists z1, z2.
  assert (R1 : rounds fm_solver (exZ true 2) (exZ_s true) 1 z1).
  { eapply rdS with (s2 := exZ_s true) (ops := []); [apply rd0|vm_compute; reflexivity|right; intros j K; vm_compute in K; destruct K|vm_compute; reflexivity]. }
  split; [|split; [|split; [exact R1|split]]].
  - assert (H : from_box fm_solver [(0, 0)%Q] 0 true = Ok (exZ_l true)) by (vm_compute; reflexivity). unfold from_box in H. apply bind_ok in H as (? & _ & H).
    apply sr_new with (l := exZ_l true) (m := 0) (lo := 0) (hi := 0) (ops := None) (conc := true) (x := exZ_mat); [cbn; lia|reflexivity| |reflexivity|vm_compute; reflexivity].
    change (c_nr exZ_mat) with (l_dims (exZ_l true)). eapply api_from_constraints; [| |exact H|cbn; lia]; [repeat constructor|exact Logic.I].
  - eapply rdS with (s2 := z1) (ops := []); [exact R1|vm_compute; reflexivity|right; intros j K; vm_compute in K; destruct K|vm_compute; reflexivity].
  - apply exZ_in. reflexivity.
  - assert (HU : input_ok (get_mode (exZ true 2) 0) (fun _ => 1%Q)). { intros i r c Hr Hc. cbn in Hr, Hc. destruct i as [|[|i]]; cbn in Hr, Hc; [| |destruct i; discriminate]; injection Hr as <-; injection Hc as <-; cbn; lra. }
    assert (HV : forall p, inv_ok 0 (get_mode (exZ true 2) 0) p) by (intros p c []).
    exists (fun _ => 1%Q), (fun _ => 1%Q). split; [|split; [apply HV|split; [exact HU|]]].
    + exists (fun _ => 0%Q), (fun _ => 1%Q). split; [intros i _; reflexivity|]. split; [apply HV|]. split; [exact HU|]. intros i Hi'. change (m_dims (get_mode (exZ true 2) 0)) with 1%nat in Hi'. cbn [m_b m_bm m_ie get_mode nth ha_modes exZ exZ_mode]. rewrite !exZ_id by auto. reflexivity.
    + intros i Hi'. change (m_dims (get_mode (exZ true 2) 0)) with 1%nat in Hi'. cbn [m_b m_bm m_ie get_mode nth ha_modes exZ exZ_mode]. rewrite !exZ_id by auto. reflexivity.
Qed.
