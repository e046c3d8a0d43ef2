(* Loop invariants for C59: reorthogonalize_matrix. *)
From Coq Require Import Reals List Lia Lra Arith.
Require Import Verif.DirSpec Verif.DirMat Verif.DirFacts Verif.DirLoop.
Import ListNotations.
Open Scope R_scope.

Lemma near_app_l n l v : near n (l ++ [v]) -> near n l.
Proof.
  intros [H1 H2]. split.
  - intros i j Hi Hj Hn. pose proof (H1 i j) as K. rewrite app_length, !row_app1 in K by auto. apply K; cbn; lia.
  - intros i Hi. pose proof (H2 i) as K. rewrite app_length, !row_app1 in K by auto. apply K; cbn; lia.
Qed.

Lemma project_last_zero n l v : near n (l ++ [v]) -> forall e, (e < n)%nat -> project_last n (l ++ [v]) e = 0.
Proof.
  intros H e He. unfold project_last. rewrite removelast_last, last_last.
  pose proof (near_app_l _ _ _ H) as Hl. destruct H as [H1 H2].
  assert (P : forall e, project n l v e = v e).
  { intros x. rewrite project_outside by apply Hl. unfold outside, comb. rewrite rsum_zero; [lra|]. intros i Hi.
    pose proof (H1 i (length l)) as K. rewrite app_length, row_app1, row_last in K by auto. rewrite K by (cbn; lia). lra. }
  rewrite (dot_ext n _ _ v v), P by auto.
  pose proof (H2 (length l)) as K. rewrite app_length, row_last in K. destruct (K ltac:(cbn; lia)) as [E|E].
  - rewrite E. lra.
  - rewrite E, (dot_zero _ _ E e He). lra.
Qed.

Lemma norm_zero n v : (forall e, (e < n)%nat -> v e = 0) -> dot n v v = 0.
Proof. intros H. apply rsum_zero. intros i Hi. rewrite H by auto. lra. Qed.

Definition rinv (n : nat) (s : rstate) : Prop :=
  near n (r_rv s) /\ (length (r_rv s) <= n)%nat /\
  match r_cur s with CUnbound => r_rv s = [] | CNone => True | CLast => r_rv s <> [] end.

Lemma r_finish_inv n rv r next mat k : near n rv -> (length rv < n)%nat -> (forall i, (i < length rv)%nat -> dot n (row rv i) r = 0) ->
  rinv n (r_finish n rv r next mat k).
Proof.
  intros H Hl Ho. unfold r_finish. destruct (small n r) eqn:Es; unfold rinv; cbn [r_rv r_cur].
  - split; [exact H|]. split; [lia|exact Logic.I].
  - split; [apply near_snoc; auto using scale_orth; left; apply scale_unit, Es|]. rewrite app_length. cbn. split; [lia|]. destruct rv; discriminate.
Qed.

Lemma ro_step_inv n rand s : rinv n s -> (length (r_rv s) < n)%nat -> exists s', ro_step n rand s = Some s' /\ rinv n s'.
Proof.
  intros (H1 & H2 & H3) Hl. unfold ro_step. destruct (Nat.leb _ _).
  - destruct (free_dim n (r_rv s)) as [d|] eqn:Ef.
    + eexists. split; [reflexivity|]. apply r_finish_inv; auto. intros; apply project_orth; auto.
    + destruct (r_cur s).
      * exfalso. rewrite H3 in *. destruct n; [cbn in Hl; lia|discriminate].
      * eexists. split; [reflexivity|]. apply r_finish_inv; auto. intros; apply project_orth; auto.
      * eexists. split; [reflexivity|]. destruct (exists_last H3) as (l & v & E). rewrite E in *.
        rewrite removelast_last. pose proof (project_last_zero n l v H1) as Z. set (r := project_last n (l ++ [v])) in *.
        assert (D : dot n r r = 0) by (apply norm_zero, Z).
        assert (N : near n (l ++ [r])).
        { apply near_snoc; [apply (near_app_l _ _ _ H1)| |right; exact D]. intros i Hi. rewrite dot_comm. apply rsum_zero. intros e He. rewrite Z by auto. lra. }
        unfold r_finish. assert (Es : small n r = true) by (apply small_true; unfold norm; rewrite D, sqrt_0; lra). rewrite Es.
        unfold rinv. cbn [r_rv r_cur]. split; [exact N|]. rewrite app_length in *. cbn in *. split; [lia|exact Logic.I].
  - eexists. split; [reflexivity|]. apply r_finish_inv; auto. intros; apply project_orth; auto.
Qed.

Lemma ro_loop_inv n rand fuel : forall s, rinv n s ->
  match ro_loop fuel n rand s with Looping => True | Crashed => False | Done r => rinv n r /\ length (r_rv r) = n end.
Proof.
  induction fuel as [|f IH]; intros s H; cbn [ro_loop]; destruct (Nat.ltb_spec (length (r_rv s)) n) as [L|L].
  - exact Logic.I.
  - split; [exact H|]. destruct H as (_ & K & _). lia.
  - destruct (ro_step_inv n rand s H L) as (s' & E & H'). rewrite E. apply IH, H'.
  - split; [exact H|]. destruct H as (_ & K & _). lia.
Qed.

Lemma in_span_mono n i j mat v : (i <= j)%nat -> in_span n i mat v -> in_span n j mat v.
Proof.
  intros H [c Hc]. exists (fun l => if Nat.ltb l i then c l else 0). intros e He. rewrite Hc by auto. clear Hc.
  induction H as [|m Hm IH].
  - apply rsum_ext. intros l Hl. apply Nat.ltb_lt in Hl. rewrite Hl. reflexivity.
  - cbn [rsum]. rewrite <- IH. destruct (Nat.ltb_spec m i); [lia|lra].
Qed.
Lemma in_span_sub n i mat u v : in_span n i mat u -> in_span n i mat v -> in_span n i mat (fun e => u e - v e).
Proof. intros [c Hc] [d Hd]. exists (fun j => c j - d j). intros e He. rewrite Hc, Hd by auto. rewrite <- rsum_minus. apply rsum_ext. intros; lra. Qed.
Lemma in_span_add n i mat u v : in_span n i mat u -> in_span n i mat v -> in_span n i mat (fun e => u e + v e).
Proof. intros [c Hc] [d Hd]. exists (fun j => c j + d j). intros e He. rewrite Hc, Hd by auto. rewrite <- rsum_plus. apply rsum_ext. intros; lra. Qed.
Lemma in_span_scal n i mat u a : in_span n i mat u -> in_span n i mat (fun e => a * u e).
Proof. intros [c Hc]. exists (fun j => a * c j). intros e He. rewrite Hc by auto. rewrite <- rsum_scal. apply rsum_ext. intros; lra. Qed.
Lemma in_span_ext n i mat u v : (forall e, (e < n)%nat -> v e = u e) -> in_span n i mat u -> in_span n i mat v.
Proof. intros H [c Hc]. exists c. intros e He. rewrite H by auto. apply Hc, He. Qed.
Lemma in_span_row n i mat : in_span n (S i) mat (row mat i).
Proof.
  exists (fun j => if Nat.eqb j i then 1 else 0). intros e He. rewrite (rsum_pick _ _ i); [|lia|intros j _ Hj; apply Nat.eqb_neq in Hj; rewrite Hj; lra].
  rewrite Nat.eqb_refl. lra.
Qed.
Lemma in_span_rsum n i mat m (f : nat -> rvec) : (forall j, (j < m)%nat -> in_span n i mat (f j)) -> in_span n i mat (fun e => rsum m (fun j => f j e)).
Proof.
  induction m as [|m IH]; intros H; cbn [rsum].
  - exists (fun _ => 0). intros e He. symmetry. apply rsum_zero. intros; lra.
  - apply in_span_add; [apply IH; intros; apply H; lia|apply H; lia].
Qed.

Lemma row_set_nth l : forall i v j, (i <> j)%nat -> row (set_nth l i v) j = row l j.
Proof.
  unfold row. induction l as [|x l IH]; intros [|i] v [|j] H; cbn; auto; try lia.
Qed.
Lemma len_set_nth l : forall i v, length (set_nth l i v) = length l.
Proof. induction l as [|x l IH]; intros [|i] v; cbn; auto. Qed.

Record qinv (n : nat) (mat0 : list rvec) (s : rstate) : Prop := {
  q_on : orthonormal n (r_rv s);
  q_len : length (r_mat s) = length mat0;
  q_same : forall j, (r_next s <= j)%nat -> row (r_mat s) j = row mat0 j;
  q_span : forall i, (i < r_next s)%nat -> in_span n (S i) mat0 (row (r_rv s) i);
  q_diag : forall i, (i < r_next s)%nat -> 0 < dot n (row (r_rv s) i) (row mat0 i);
  q_tri : forall i j, (i < r_next s)%nat -> (i < j)%nat -> (j < length (r_rv s))%nat -> dot n (row (r_rv s) j) (row mat0 i) = 0;
  q_comb : forall i, (i < r_next s)%nat -> forall e, (e < n)%nat -> row mat0 i e = comb (r_rv s) (fun j => dot n (row (r_rv s) j) (row mat0 i)) e;
  q_ge : (r_next s <= length (r_rv s))%nat
}.

Lemma dot_mat_zero n M v x : (forall i, (i < length M)%nat -> dot n (row M i) v = 0) -> (forall e, (e < n)%nat -> x e = comb M (fun j => dot n (row M j) x) e) -> dot n v x = 0.
Proof.
  intros H Hx. rewrite (dot_ext n v x v (comb M (fun j => dot n (row M j) x))) by auto. rewrite dot_comb. apply rsum_zero. intros i Hi.
  rewrite (dot_comm n v), H by auto. lra.
Qed.

Lemma comb_snoc M v c e : comb (M ++ [v]) c e = comb M c e + c (length M) * v e.
Proof.
  unfold comb. rewrite app_length, Nat.add_comm. cbn [length plus rsum]. rewrite row_last. f_equal. apply rsum_ext. intros i Hi. rewrite row_app1 by auto. reflexivity.
Qed.
Lemma comb_coef M c d e : (forall i, (i < length M)%nat -> c i = d i) -> comb M c e = comb M d e.
Proof. intros H. apply rsum_ext. intros i Hi. rewrite H by auto. reflexivity. Qed.

Lemma qinv_snoc n mat0 s v next' mat' cur' k' : qinv n mat0 s -> (forall i, (i < length (r_rv s))%nat -> dot n (row (r_rv s) i) v = 0) -> dot n v v = 1 ->
  length mat' = length mat0 -> (r_next s <= next')%nat -> (forall j, (next' <= j)%nat -> row mat' j = row mat0 j) ->
  (next' = r_next s \/ (next' = S (r_next s) /\ r_next s = length (r_rv s) /\ in_span n (S (r_next s)) mat0 v /\ 0 < dot n v (row mat0 (r_next s)) /\
      forall e, (e < n)%nat -> row mat0 (r_next s) e = comb (r_rv s) (fun j => dot n (row (r_rv s) j) (row mat0 (r_next s))) e + dot n v (row mat0 (r_next s)) * v e)) ->
  qinv n mat0 (mkR (r_rv s ++ [v]) cur' next' mat' k').
Proof.
  intros Q Ho Hu Hl Hn Hs Hc. destruct Q as [Q1 Q2 Q3 Q4 Q5 Q6 Q7 Q8].
  assert (Z : forall i, (i < r_next s)%nat -> dot n v (row mat0 i) = 0) by (intros i Hi; apply (dot_mat_zero n (r_rv s)); auto).
  assert (G : forall i, (i < next')%nat -> (i < r_next s)%nat \/ (next' = S (r_next s) /\ i = r_next s /\ i = length (r_rv s) /\ in_span n (S i) mat0 v /\ 0 < dot n v (row mat0 i) /\
      forall e, (e < n)%nat -> row mat0 i e = comb (r_rv s) (fun j => dot n (row (r_rv s) j) (row mat0 i)) e + dot n v (row mat0 i) * v e)).
  { intros i Hi. destruct Hc as [->|(C1 & C2 & C3 & C4 & C5)]; [left; exact Hi|]. destruct (Nat.eq_dec i (r_next s)) as [->|Hi']; [right; auto 10|left; lia]. }
  constructor; cbn [r_rv r_next r_mat].
  - apply ortho_snoc; auto.
  - exact Hl.
  - exact Hs.
  - intros i Hi. destruct (G i Hi) as [K|(_ & K1 & K2 & K3 & _)].
    + rewrite row_app1 by lia. apply Q4, K.
    + rewrite K2 at 2. rewrite row_last. exact K3.
  - intros i Hi. destruct (G i Hi) as [K|(_ & K1 & K2 & _ & K3 & _)].
    + rewrite row_app1 by lia. apply Q5, K.
    + rewrite K2 at 1. rewrite row_last. exact K3.
  - intros i j Hi Hij Hj. rewrite app_length in Hj. cbn in Hj. destruct (G i Hi) as [K|(_ & K1 & K2 & _)]; [|lia].
    destruct (Nat.eq_dec j (length (r_rv s))) as [->|Nj].
    + rewrite row_last. apply Z, K.
    + rewrite row_app1 by lia. apply Q6; auto; lia.
  - intros i Hi e He. rewrite comb_snoc, row_last.
    rewrite (comb_coef _ _ (fun j => dot n (row (r_rv s) j) (row mat0 i))) by (intros j Hj; rewrite row_app1 by auto; reflexivity).
    destruct (G i Hi) as [K|(_ & K1 & K2 & _ & _ & K3)].
    + rewrite Z by auto. rewrite <- Q7 by auto. lra.
    + apply K3, He.
  - rewrite app_length. cbn. destruct Hc as [->|(C1 & C2 & _)]; lia.
Qed.

(* the residual of the next row *)
Lemma residual n mat0 s i : qinv n mat0 s -> r_next s = i -> length (r_rv s) = i ->
  in_span n i mat0 (comb (r_rv s) (fun j => dot n (row (r_rv s) j) (row mat0 i))).
Proof.
  intros Q Hi Hl. unfold comb. rewrite Hl. apply (in_span_rsum n i mat0 i (fun j e => dot n (row (r_rv s) j) (row mat0 i) * row (r_rv s) j e)).
  intros j Hj. apply in_span_scal. apply (in_span_mono n (S j)); [lia|]. apply (q_span _ _ _ Q). lia.
Qed.

(* phase one: the rows of the argument *)
Lemma phase1 n rand mat0 s : apart n mat0 (Nat.min (length mat0) n) -> qinv n mat0 s -> r_next s = length (r_rv s) -> (length (r_rv s) < Nat.min (length mat0) n)%nat ->
  exists s', ro_step n rand s = Some s' /\ qinv n mat0 s' /\ r_next s' = length (r_rv s') /\ length (r_rv s') = S (length (r_rv s)).
Proof.
  intros Ha Q Hn Hl. set (i := r_next s) in *. unfold ro_step.
  destruct (Nat.leb_spec (length (r_mat s)) (r_next s)) as [K|K]; [rewrite (q_len _ _ _ Q) in K; unfold i in *; lia|].
  fold i. rewrite (q_same _ _ _ Q i) by (unfold i; lia).
  pose proof (near_ortho _ _ (q_on _ _ _ Q)) as Nr. set (r := project n (r_rv s) (row mat0 i)).
  assert (Pr : forall e, r e = outside n (r_rv s) (row mat0 i) e) by (intros e; apply project_outside, Nr).
  destruct (residual n mat0 s i Q eq_refl (eq_sym Hn)) as [c Hc].
  assert (Es : small n r = false).
  { apply small_false. rewrite (norm_ext n r (fun e => row mat0 i e - rsum i (fun j => c j * row mat0 j e))); [apply Ha; lia|].
    intros e He. rewrite Pr. unfold outside. rewrite Hc by auto. reflexivity. }
  pose proof Es as En. apply small_false in En.
  assert (Or : forall j, (j < length (r_rv s))%nat -> dot n (row (r_rv s) j) r = 0) by (intros; apply project_orth; auto).
  assert (Dm : forall e, (e < n)%nat -> row mat0 i e = comb (r_rv s) (fun j => dot n (row (r_rv s) j) (row mat0 i)) e + r e) by (intros e He; rewrite Pr; unfold outside; lra).
  assert (Drm : dot n r (row mat0 i) = dot n r r).
  { rewrite (dot_ext n r (row mat0 i) r (fun e => r e - comb (r_rv s) (fun j => - dot n (row (r_rv s) j) (row mat0 i)) e)); auto.
    - rewrite dot_sub_r, dot_comb, rsum_zero; [lra|]. intros j Hj. rewrite (dot_comm n r), Or by auto. lra.
    - intros e He. rewrite Dm at 1 by auto. unfold comb. rewrite (rsum_ext _ (fun j => - dot n (row (r_rv s) j) (row mat0 i) * row (r_rv s) j e) (fun j => -1 * (dot n (row (r_rv s) j) (row mat0 i) * row (r_rv s) j e))) by (intros; lra). rewrite rsum_scal. lra. }
  assert (Dv : dot n (scale n r) (row mat0 i) = norm n r).
  { rewrite dot_comm. unfold scale. change (fun i => r i / norm n r) with (fun i => r i * / norm n r). rewrite dot_scal_r, dot_comm, Drm, <- norm_sq. field. lra. }
  eexists. split; [unfold r_finish; rewrite Es; reflexivity|].
  split; [|cbn; rewrite app_length; cbn; split; lia].
  apply qinv_snoc; auto.
  - intros j Hj. apply scale_orth, Or, Hj.
  - apply scale_unit, Es.
  - rewrite len_set_nth. apply (q_len _ _ _ Q).
  - intros j Hj. rewrite row_set_nth by lia. apply (q_same _ _ _ Q). unfold i in *; lia.
  - right. split; [reflexivity|]. split; [unfold i in Hn; exact Hn|]. fold i. split; [|split].
    + apply (in_span_ext n (S i) mat0 (fun e => / norm n r * r e)); [intros; unfold scale; field; lra|]. apply in_span_scal.
      apply (in_span_ext n (S i) mat0 (fun e => row mat0 i e - rsum i (fun j => c j * row mat0 j e))).
      * intros e He. rewrite Pr. unfold outside. rewrite Hc by auto. reflexivity.
      * apply in_span_sub; [apply in_span_row|]. apply (in_span_mono n i); [lia|]. exists c. reflexivity.
    + rewrite Dv. lra.
    + intros e He. rewrite Dv, Dm at 1 by auto. unfold scale. field. lra.
Qed.

Definition vfree (n : nat) (s : rstate) : Prop := exists L, vanish n (r_rv s) (length (r_rv s)) L /\ length L = (n - length (r_rv s))%nat.

(* phase two: unit vectors *)
Lemma phase2 n rand mat0 s : qinv n mat0 s -> r_next s = length mat0 -> vfree n s -> (length (r_rv s) < n)%nat ->
  exists s', ro_step n rand s = Some s' /\ qinv n mat0 s' /\ r_next s' = length mat0 /\ vfree n s' /\ length (r_rv s') = S (length (r_rv s)).
Proof.
  intros Q Hn (L & (V1 & V2 & V3) & VL) Hl. unfold ro_step.
  destruct (Nat.leb_spec (length (r_mat s)) (r_next s)) as [K|K]; [|rewrite (q_len _ _ _ Q) in K; lia].
  pose proof (near_ortho _ _ (q_on _ _ _ Q)) as Nr.
  destruct (free_dim n (r_rv s)) as [d|] eqn:Ef.
  2:{ exfalso. destruct L as [|e L]; [cbn in VL; lia|]. apply (free_dim_none _ _ e Ef); [apply V2; left; reflexivity|]. intros i Hi. apply V3; [left; reflexivity|exact Hi]. }
  destruct (free_from_spec _ _ _ _ Ef) as (K1 & K2 & _).
  assert (P : forall e, project n (r_rv s) (unitv d) e = unitv d e) by (apply project_free; auto; lia).
  set (r := project n (r_rv s) (unitv d)) in *.
  assert (N : norm n r = 1) by (rewrite (norm_ext n _ (unitv d)) by auto; apply norm_unit; lia).
  assert (Es : small n r = false) by (apply small_false; lra).
  eexists. split; [unfold r_finish; rewrite Es; reflexivity|].
  split; [|cbn [r_next r_rv r_mat]; split; [exact Hn|split; [|rewrite app_length; cbn; lia]]].
  - apply qinv_snoc; auto.
    + intros j Hj. apply scale_orth, project_orth; auto.
    + apply scale_unit, Es.
    + apply (q_len _ _ _ Q).
    + apply (q_same _ _ _ Q).
  - unfold vfree. cbn [r_rv]. rewrite app_length. cbn [length].
    assert (B : forall L', NoDup L' -> (forall x, In x L' -> In x L /\ x <> d) -> vanish n (r_rv s ++ [scale n r]) (length (r_rv s) + 1) L').
    { intros L' B1 B2. split; [exact B1|]. split; [intros x Hx; apply V2, B2, Hx|]. intros x i Hx Hi. destruct (B2 x Hx) as [C1 C2].
      destruct (Nat.eq_dec i (length (r_rv s))) as [->|Ni].
      - rewrite row_last. unfold scale. rewrite P. unfold unitv. apply Nat.eqb_neq in C2. rewrite C2. lra.
      - rewrite row_app1 by lia. apply V3; auto. lia. }
    destruct (in_dec Nat.eq_dec d L) as [D|D].
    + destruct (in_split _ _ D) as (L1 & L2 & E). exists (L1 ++ L2). split.
      * apply B; [rewrite E in V1; apply NoDup_remove_1 in V1; exact V1|]. intros x Hx. split.
        -- rewrite E. apply in_app_iff in Hx. apply in_app_iff. cbn. tauto.
        -- intros ->. rewrite E in V1. apply NoDup_remove_2 in V1. contradiction.
      * rewrite E in VL. rewrite app_length in *. cbn in VL. lia.
    + destruct L as [|x L']; [cbn in VL; lia|]. exists L'. split.
      * apply B; [inversion V1; auto|]. intros y Hy. split; [right; exact Hy|]. intros ->. apply D. right. exact Hy.
      * cbn in VL. lia.
Qed.

Lemma in_span_vanish n i mat v L k : vanish n mat k L -> (i <= k)%nat -> in_span n i mat v -> forall d, In d L -> v d = 0.
Proof.
  intros (V1 & V2 & V3) Hi [c Hc] d Hd. rewrite Hc by auto. apply rsum_zero. intros j Hj. rewrite V3 by (auto; lia). lra.
Qed.

Lemma ro_full n rand mat0 L : apart n mat0 (Nat.min (length mat0) n) -> vanish n mat0 (Nat.min (length mat0) n) L -> length L = (n - length mat0)%nat ->
  forall m s, qinv n mat0 s -> (r_next s = length (r_rv s) /\ (length (r_rv s) <= Nat.min (length mat0) n)%nat \/ r_next s = length mat0 /\ vfree n s) ->
  (length (r_rv s) <= n)%nat -> (n - length (r_rv s) <= m)%nat ->
  exists r, ro_loop m n rand s = Done r /\ qinv n mat0 r /\ length (r_rv r) = n /\ r_next r = Nat.min (length mat0) n.
Proof.
  intros Ha Hv HL. induction m as [|m IH]; intros s Q Hp Hle Hm; cbn [ro_loop].
  - destruct (Nat.ltb_spec (length (r_rv s)) n); [lia|]. exists s. split; [reflexivity|]. split; [exact Q|]. split; [lia|].
    pose proof (q_ge _ _ _ Q). destruct Hp as [(P1 & P2)|(P1 & P2)]; lia.
  - destruct (Nat.ltb_spec (length (r_rv s)) n) as [L1|L1].
    2:{ exists s. split; [reflexivity|]. split; [exact Q|]. split; [lia|]. pose proof (q_ge _ _ _ Q). destruct Hp as [(P1 & P2)|(P1 & P2)]; lia. }
    assert (C : (r_next s = length (r_rv s) /\ (length (r_rv s) < Nat.min (length mat0) n)%nat) \/ (r_next s = length mat0 /\ vfree n s)).
    { destruct Hp as [(P1 & P2)|P]; [|right; exact P]. destruct (Nat.eq_dec (length (r_rv s)) (Nat.min (length mat0) n)) as [E|E]; [|left; lia].
      right. split; [lia|]. exists L. split; [|lia]. split; [apply Hv|]. split; [apply Hv|]. intros d i Hd Hi.
      apply (in_span_vanish n (S i) mat0 (row (r_rv s) i) L (Nat.min (length mat0) n) Hv); [lia| |exact Hd]. apply (q_span _ _ _ Q). lia. }
    destruct C as [(C1 & C2)|(C1 & C2)].
    + destruct (phase1 n rand mat0 s Ha Q C1 C2) as (s' & E & Q' & E1 & E2). rewrite E. apply IH; auto; [left|..]; lia.
    + destruct (phase2 n rand mat0 s Q C1 C2 L1) as (s' & E & Q' & E1 & E2 & E3). rewrite E. apply IH; auto; lia.
Qed.
