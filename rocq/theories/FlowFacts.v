(** The k-step set of a mode described directly: E^k x0 + sum of the input effects, and its equivalence with iterating
    one step. *)
From Verif Require Import Base BaseFacts LpModel LpSpec SetSpec LpUtil LpFacts LpWf SetFacts Automaton StateSet HybridSpec.
Open Scope nat_scope.


Fixpoint isum (f : nat -> Q) (k : nat) : Q :=
  match k with 0 => 0%Q | S k' => (f 0%nat + isum (fun j => f (S j)) k')%Q end.

Lemma isum_ext f g k : (forall j, j < k -> (f j == g j)%Q) -> (isum f k == isum g k)%Q.
Proof.
  revert f g; induction k as [|k IH]; intros f g H; cbn [isum]; [reflexivity|].
  rewrite (H 0%nat) by lia. rewrite (IH _ (fun j => g (S j))); [reflexivity|]. intros j Hj. apply H. lia.
Qed.

Lemma isum_last f k : (isum f (S k) == isum f k + f k)%Q.
Proof.
  revert f; induction k as [|k IH]; intro f; [cbn [isum]; ring|].
  change (isum f (S (S k))) with (f 0%nat + isum (fun j => f (S j)) (S k))%Q. rewrite IH. cbn [isum]. ring.
Qed.

Definition bm_of (m : mode) (n k : nat) : mat := if k =? 0 then ident n else m_bm m k.
Definition ies_of (m : mode) (k : nat) : list mat := match m_b m with None => [] | Some _ => map (m_ie m) (seq 1 k) end.

(** value reached after k steps from x0 with inputs us *)
Definition dval (m : mode) (n k : nat) (x0 : vec) (us : nat -> vec) : vec := fun i =>
  (mapply (bm_of m n k) x0 i + match m_b m with None => 0 | Some _ => isum (fun j => mapply (m_ie m (S j)) (us j) i) k end)%Q.

Definition desc (m : mode) (n : nat) (A : vec -> Prop) (k : nat) (p : vec) : Prop :=
  exists x0 us, A x0 /\ (forall j, j < k -> input_ok m (us j)) /\ veq n p (dval m n k x0 us).

Section M.
Variables (m : mode) (x : csr).
Hypothesis Hx : m_a m = Some x.
Hypothesis W : wf_mode m x.
Notation n := (c_nr x).

Lemma m_dims_eq : m_dims m = n.
Proof. unfold m_dims. rewrite Hx. reflexivity. Qed.

Lemma bm_of_dims k : mat_dims n n (bm_of m n k).
Proof. unfold bm_of. destruct (k =? 0); [apply ident_dims|apply (wfm_bm _ _ W)]. Qed.

Lemma bm_of_sem k p : veq n (mapply (bm_of m n k) p) (mapply (m_bm m k) p).
Proof.
  unfold bm_of. destruct (Nat.eqb_spec k 0) as [->|]; [|apply veq_refl].
  intros i Hi. rewrite mapply_ident by auto. symmetry. apply (wfm_bm0 _ _ W); auto.
Qed.

Lemma bm_of_S k p : veq n (mapply (bm_of m n (S k)) p) (mapply (m_bm m 1) (mapply (bm_of m n k) p)).
Proof.
  intros i Hi. rewrite (bm_of_sem (S k) p i Hi). destruct (wfm_bm _ _ W k) as [_ H]. rewrite (H p i Hi).
  apply (mapply_ext n n); [apply (wfm_bm _ _ W)|auto|]. apply veq_sym, bm_of_sem.
Qed.

Lemma bm1_dims : mat_dims n n (m_bm m 1).
Proof. apply (wfm_bm _ _ W). Qed.

Lemma one_step_ext q u p' q' p'' : veq n q q' -> veq n p' p'' -> one_step m q u p' -> one_step m q' u p''.
Proof.
  intros H1 H2 H i Hi. rewrite m_dims_eq in Hi. rewrite <- (H2 i Hi). rewrite (H i) by (rewrite m_dims_eq; auto).
  apply Qplus_comp; [|reflexivity]. apply (mapply_ext n n); auto. apply bm1_dims.
Qed.

Lemma flow_ext j p p' q q' : veq n p q -> veq n p' q' -> flow m j p p' -> flow m j q q'.
Proof.
  revert p p' q q'; induction j as [|j IH]; cbn [flow]; intros p p' q q' H1 H2 H.
  - rewrite m_dims_eq in *. eapply veq_trans; [|exact H2]. eapply veq_trans; [apply veq_sym; exact H1|exact H].
  - destruct H as (r & u & A & B & C). exists r, u. split; [|split; auto].
    + apply (IH p r); auto. apply veq_refl.
    + eapply one_step_ext; [apply veq_refl|exact H2|exact C].
Qed.

Lemma mapply_isum M (f : nat -> vec) k i : (mapply M (fun c => isum (fun j => f j c) k) i == isum (fun j => mapply M (f j) i) k)%Q.
Proof.
  revert f; induction k as [|k IH]; intro f; cbn [isum].
  - apply ldot_zero. intros; reflexivity.
  - rewrite (mapply_add M (f 0%nat) (fun c => isum (fun j => f (S j) c) k)). rewrite (IH (fun j => f (S j))). reflexivity.
Qed.

(** one step from a k-step point is a (k+1)-step point *)
Lemma dval_S k x0 us u :
  one_step m (dval m n k x0 us) u (dval m n (S k) x0 (fun j => match j with 0 => u | S j' => us j' end)).
Proof.
  intros i Hi. rewrite m_dims_eq in Hi. unfold dval at 1.
  assert (WI := wfm_ie _ _ W). rewrite (bm_of_S k x0 i Hi). destruct (m_b m) as [[[b uc] ur]|] eqn:Eb.
  - destruct WI as (_ & _ & _ & Hd & Hi2). unfold dval. rewrite Eb.
    rewrite (mapply_add (m_bm m 1) (mapply (bm_of m n k) x0) (fun i0 => isum (fun j => mapply (m_ie m (S j)) (us j) i0) k)).
    rewrite (mapply_isum (m_bm m 1) (fun j => mapply (m_ie m (S j)) (us j))). cbn [isum].
    rewrite (isum_ext (fun j => mapply (m_ie m (S (S j))) (us j) i) (fun j => mapply (m_bm m 1) (mapply (m_ie m (S j)) (us j)) i)).
    + ring.
    + intros j Hj. apply Hi2; auto.
  - assert (E : (mapply (m_bm m 1) (dval m n k x0 us) i == mapply (m_bm m 1) (mapply (bm_of m n k) x0) i)%Q).
    { apply (mapply_ext n n); [apply bm1_dims|auto|]. intros c Hc. unfold dval. rewrite Eb. ring. }
    rewrite E. ring.
Qed.

Lemma dval_us_ext k x0 us us' : (forall j, j < k -> us j = us' j) -> veq n (dval m n k x0 us) (dval m n k x0 us').
Proof.
  intros H i Hi. unfold dval. destruct (m_b m); [|reflexivity]. apply Qplus_comp; [reflexivity|].
  apply isum_ext. intros j Hj. rewrite H by auto. reflexivity.
Qed.

Lemma one_step_det q u p1 p2 : one_step m q u p1 -> one_step m q u p2 -> veq n p1 p2.
Proof. intros H1 H2 i Hi. rewrite (H1 i) by (rewrite m_dims_eq; auto). rewrite (H2 i) by (rewrite m_dims_eq; auto). reflexivity. Qed.

Lemma one_step_irr q u u' p : m_b m = None -> one_step m q u p -> one_step m q u' p.
Proof. intros Hb H i Hi. rewrite (H i Hi). rewrite Hb. reflexivity. Qed.

Lemma desc_S A k p' : desc m n A (S k) p' <-> exists p u, desc m n A k p /\ input_ok m u /\ one_step m p u p'.
Proof.
  split.
  - intros (x0 & us & HA & Hu & Hp). exists (dval m n k x0 (fun j => us (S j))), (us 0). split; [|split].
    + exists x0, (fun j => us (S j)). split; [auto|]. split; [|apply veq_refl]. intros j Hj. apply Hu. lia.
    + apply Hu. lia.
    + eapply one_step_ext; [apply veq_refl| |apply dval_S]. eapply veq_trans; [|apply veq_sym; exact Hp].
      apply dval_us_ext. intros [|j] _; reflexivity.
  - intros (p & u & (x0 & us & HA & Hu & Hp) & Hin & Hs).
    exists x0, (fun j => match j with 0 => u | S j' => us j' end). split; [auto|]. split.
    + intros [|j] Hj; auto. apply Hu. lia.
    + eapply one_step_det; [|apply dval_S]. eapply one_step_ext; [exact Hp|apply veq_refl|exact Hs].
Qed.

Lemma desc_flow A k j p' : desc m n A (j + k) p' <-> exists p, desc m n A k p /\ flow m j p p'.
Proof.
  revert p'; induction j as [|j IH]; intro p'; cbn [flow Nat.add].
  - split.
    + intro H. exists p'. split; [auto|apply veq_refl].
    + intros (p & (x0 & us & A1 & A2 & A3) & H). rewrite m_dims_eq in H. exists x0, us. split; [auto|]. split; auto.
      eapply veq_trans; [apply veq_sym; exact H|exact A3].
  - rewrite desc_S. split.
    + intros (p & u & H & Hu & Hs). apply IH in H as (p0 & H0 & Hf). exists p0. split; auto. exists p, u. auto.
    + intros (p0 & H0 & q & u & Hf & Hu & Hs). exists q, u. split; auto. apply IH. eauto.
Qed.

Lemma ie_val_isum k s i nu off y :
  (ie_val nu (map (m_ie m) (seq (S s) k)) i off y == isum (fun j => mapply (m_ie m (S (s + j))) (fun c => y (off + nu * j + c)%nat) i) k)%Q.
Proof.
  revert s off; induction k as [|k IH]; intros s off; [reflexivity|]. cbn [seq map ie_val isum].
  rewrite IH. apply Qplus_comp.
  - rewrite Nat.add_0_r. unfold mapply. rewrite ldot_shift. apply ldot_ext. intros j _. rewrite Nat.mul_0_r, Nat.add_0_r. reflexivity.
  - apply isum_ext. intros j _. replace (S s + j)%nat with (s + S j)%nat by lia. unfold mapply. apply ldot_ext. intros c _.
    replace (off + nu + nu * j + (0 + c))%nat with (off + nu * S j + (0 + c))%nat by lia. reflexivity.
Qed.
End M.
