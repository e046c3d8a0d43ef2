(* C59: the direction matrices of Arnoldi aggregation (lputil.make_direction_matrix,
   lputil.reorthogonalize_matrix), over exact real arithmetic. *)
From Coq Require Import Reals List Lia Lra Arith.
Require Import Verif.DirSpec Verif.DirMat Verif.DirFacts Verif.DirLoop Verif.DirLoop2.
Import ListNotations.
Open Scope R_scope.

(* Whatever the sample point, the dynamics and the random draws, a returned matrix has dims rows that are
   orthonormal, hence linearly independent and spanning. *)
Theorem C59_make_direction_matrix : forall fuel n point A rand M,
  make_direction_matrix fuel n point A rand = Some M ->
  length M = n /\ orthonormal n M /\ independent n M /\ spanning n M.
Proof.
  intros fuel n point A rand M H. unfold make_direction_matrix in H.
  destruct (dm_loop fuel n A rand (mkD [] (Some point) 0)) as [s|] eqn:E; [|discriminate]. injection H as <-.
  destruct (dm_loop_inv n A rand point fuel _ _ (dinv_init n A point) E) as [(H1 & _) H2].
  split; [exact H2|]. split; [exact H1|]. split; [apply ortho_independent, H1|].
  intros x. exists (fun i => dot n (row (d_rv s) i) x). apply square_complete; auto.
Qed.

(* The rows are the Arnoldi directions: row 0 is the direction of the dynamics at the sample point, row k+1
   what the dynamics adds at row k, as long as that is at least 1e-6 long; after that come unit vectors of
   the first coordinate not used so far, if there is one. *)
Theorem C59_arnoldi_directions : forall fuel n point A rand M,
  make_direction_matrix fuel n point A rand = Some M ->
  forall k, (k < n)%nat -> next_dir n A (firstn k M) (prev_of point (firstn k M)) (row M k).
Proof.
  intros fuel n point A rand M H k Hk. unfold make_direction_matrix in H.
  destruct (dm_loop fuel n A rand (mkD [] (Some point) 0)) as [s|] eqn:E; [|discriminate]. injection H as <-.
  destruct (dm_loop_inv n A rand point fuel _ _ (dinv_init n A point) E) as [(_ & _ & H3 & _) H2].
  apply H3. lia.
Qed.

(* The loop cannot get stuck: whatever the first N random draws were, there are further draws from [0,1) with
   which it finishes. *)
Theorem C59_never_stuck : forall n point A rand N, INR n <= 100000000000 ->
  exists rand', (forall i, (i < N)%nat -> rand' i = rand i) /\ (forall i, (N <= i)%nat -> in_range (rand' i)) /\
    exists fuel M, make_direction_matrix fuel n point A rand' = Some M.
Proof.
  intros n point A rand N Hn.
  destruct (dm_finish n A point N Hn _ (mkD [] (Some point) 0) (fun i => if Nat.ltb i N then rand i else fun _ => 0) (dinv_init n A point) (le_n _)) as (rand' & H1 & H2 & fuel & s & H3).
  - intros i Hi. destruct (Nat.ltb_spec i N); [lia|]. intros e. lra.
  - exists rand'. split.
    + intros i Hi. rewrite H1 by (cbn; lia). destruct (Nat.ltb_spec i N); [reflexivity|lia].
    + split; [exact H2|]. exists fuel, (d_rv s). unfold make_direction_matrix. rewrite H3. reflexivity.
Qed.

(* reorthogonalize_matrix, proved part: if the rows of the argument are each at least 1e-6 away from the span of
   the earlier ones, and vanish on as many coordinates as rows are missing, then within dims iterations it returns
   the Gram-Schmidt (QR) basis of the argument, completed to an orthonormal basis.  The full claim -- for every
   argument -- is false, see C59_reorthogonalize_refuted. *)
Theorem C59_reorthogonalize_partial : forall fuel n mat rand L, (n <= fuel)%nat ->
  let k := Nat.min (length mat) n in
  apart n mat k -> vanish n mat k L -> length L = (n - length mat)%nat ->
  exists M mat', returned (reorthogonalize_matrix fuel n mat rand) = Some (M, mat') /\
    length M = n /\ orthonormal n M /\ spanning n M /\
    (forall i, (i < k)%nat -> in_span n (S i) mat (row M i) /\ 0 < dot n (row M i) (row mat i)) /\
    (forall i j, (i < k)%nat -> (i < j < n)%nat -> dot n (row M j) (row mat i) = 0).
Proof.
  cbv zeta. intros fuel n mat rand L Hf Ha Hv HL.
  assert (Q : qinv n mat (mkR [] CUnbound 0 mat 0)).
  { constructor; cbn; intros; try lia; auto. intros i j Hi; cbn in Hi; lia. }
  destruct (ro_full n rand mat L Ha Hv HL fuel _ Q) as (r & E & Q' & E1 & E2); cbn; [left; lia|lia|lia|].
  exists (r_rv r), (r_mat r). unfold reorthogonalize_matrix. rewrite E. split; [reflexivity|].
  split; [exact E1|]. split; [apply (q_on _ _ _ Q')|]. split; [|split].
  - intros x. exists (fun i => dot n (row (r_rv r) i) x). apply square_complete; auto. apply (q_on _ _ _ Q').
  - intros i Hi. rewrite <- E2 in Hi. split; [apply (q_span _ _ _ Q'); exact Hi|apply (q_diag _ _ _ Q'); exact Hi].
  - intros i j Hi Hj. rewrite <- E2 in Hi. apply (q_tri _ _ _ Q'); auto; lia.
Qed.

(* For every argument: no exception, and the returned rows are pairwise orthogonal, each a unit vector or zero. *)
Theorem C59_reorthogonalize_orthogonal : forall fuel n mat rand,
  match reorthogonalize_matrix fuel n mat rand with
  | Crashed => False
  | Looping => True
  | Done s => length (r_rv s) = n /\
      (forall i j, (i < n)%nat -> (j < n)%nat -> i <> j -> dot n (row (r_rv s) i) (row (r_rv s) j) = 0) /\
      (forall i, (i < n)%nat -> norm n (row (r_rv s) i) = 1 \/ forall e, (e < n)%nat -> row (r_rv s) i e = 0)
  end.
Proof.
  intros fuel n mat rand. pose proof (ro_loop_inv n rand fuel (mkR [] CUnbound 0 mat 0)) as K. unfold reorthogonalize_matrix.
  destruct ro_loop as [| |s]; [exact Logic.I| |].
  - apply K. unfold rinv, near; cbn. repeat split; intros; lia.
  - destruct K as [(K1 & _) K2].
    + unfold rinv, near; cbn. repeat split; intros; lia.
    + destruct K1 as [K1 K3]. rewrite K2 in K1, K3. split; [exact K2|]. split; [exact K1|].
      intros i Hi. destruct (K3 i Hi) as [E|E].
      * left. unfold norm. rewrite E. apply sqrt_1.
      * right. apply dot_zero, E.
Qed.

(* --- concrete cases --- *)
Definition v2 (x y : R) : rvec := fun i => match i with 0%nat => x | 1%nat => y | _ => 0 end.

Lemma dot2 u v : dot 2 u v = u 0%nat * v 0%nat + u 1%nat * v 1%nat.
Proof. unfold dot. cbn. lra. Qed.
Lemma norm2 u c : 0 <= c -> u 0%nat * u 0%nat + u 1%nat * u 1%nat = c * c -> norm 2 u = c.
Proof. intros Hc H. unfold norm. rewrite dot2, H. apply sqrt_square, Hc. Qed.

(* make_direction_matrix on a rotation: hypotheses met without any random draw *)
Definition exRot : nat -> rvec := fun i => match i with 0%nat => v2 0 1 | _ => v2 (-1) 0 end.
Example C59_make_direction_matrix_witness : forall rand, exists M,
  make_direction_matrix 2 2 (v2 3 4) exRot rand = Some M /\ row M 0 0%nat = 4 / 5 /\ row M 0 1%nat = - 3 / 5.
Proof.
  intros rand. unfold make_direction_matrix.
  set (p1 := mulv 2 exRot (v2 3 4)).
  assert (N1 : norm 2 p1 = 5) by (apply norm2; [lra|]; unfold p1, mulv; rewrite !dot2; cbn; lra).
  assert (S1 : small 2 p1 = false) by (apply small_false; lra).
  assert (E1 : dm_step 2 exRot rand (mkD [] (Some (v2 3 4)) 0) = mkD [scale 2 p1] (Some (scale 2 p1)) 0).
  { unfold dm_step. cbn [d_cur d_rv project]. fold p1. rewrite S1. reflexivity. }
  assert (V0 : scale 2 p1 0%nat = 4 / 5) by (unfold scale; rewrite N1; unfold p1, mulv; rewrite !dot2; cbn; lra).
  assert (V1 : scale 2 p1 1%nat = - 3 / 5) by (unfold scale; rewrite N1; unfold p1, mulv; rewrite !dot2; cbn; lra).
  set (w := scale 2 p1) in *. set (p2 := project 2 [w] (mulv 2 exRot w)).
  assert (D : dot 2 w (mulv 2 exRot w) = 0) by (rewrite dot2; unfold mulv; rewrite !dot2; cbn; rewrite V0, V1; lra).
  assert (N2 : norm 2 p2 = 1).
  { apply norm2; [lra|]. unfold p2. cbn [project]. rewrite D. unfold mulv. rewrite !dot2. cbn. rewrite V0, V1. lra. }
  assert (S2 : small 2 p2 = false) by (apply small_false; lra).
  assert (E2 : dm_step 2 exRot rand (mkD [w] (Some w) 0) = mkD ([w] ++ [scale 2 p2]) (Some (scale 2 p2)) 0).
  { unfold dm_step. cbn [d_cur d_rv]. fold p2. rewrite S2. reflexivity. }
  exists ([w] ++ [scale 2 p2]). split; [|split; [exact V0|exact V1]].
  cbn [dm_loop d_rv length Nat.ltb Nat.leb]. rewrite E1. cbn [dm_loop d_rv length Nat.ltb Nat.leb]. rewrite E2. reflexivity.
Qed.

(* one row (3,4) in two dimensions: the row is appended, then zeroed through the alias; the answer is {0, e0} *)
Theorem C59_reorthogonalize_refuted :
  exists n mat, forall rand, exists M mat', returned (reorthogonalize_matrix 10 n mat rand) = Some (M, mat') /\
    apart n mat (length mat) /\
    (forall e, (e < n)%nat -> row M 0 e = 0) /\ ~ orthonormal n M /\ ~ independent n M /\ ~ spanning n M.
Proof.
  exists 2%nat, [v2 3 4]. intros rand.
  assert (N1 : norm 2 (v2 3 4) = 5) by (apply norm2; cbn; lra).
  assert (S1 : small 2 (v2 3 4) = false) by (apply small_false; lra).
  set (w := scale 2 (v2 3 4)).
  assert (W0 : w 0%nat = 3 / 5) by (unfold w, scale; rewrite N1; cbn; lra).
  assert (W1 : w 1%nat = 4 / 5) by (unfold w, scale; rewrite N1; cbn; lra).
  set (z := project_last 2 [w]).
  assert (Z : forall e, (e < 2)%nat -> z e = 0).
  { apply (project_last_zero 2 [] w). cbn [app]. apply (near_snoc 2 []); [split; cbn; intros; lia|cbn; intros; lia|].
    left. rewrite dot2, W0, W1. lra. }
  assert (Sz : small 2 z = true) by (apply small_true; unfold norm; rewrite norm_zero by exact Z; rewrite sqrt_0; lra).
  assert (F1 : free_dim 2 [w] = None).
  { unfold free_dim. cbn [free_from all_zero_at]. destruct (Req_EM_T (w 0%nat) 0); [lra|]. destruct (Req_EM_T (w 1%nat) 0); [lra|]. reflexivity. }
  assert (F2 : free_dim 2 [z] = Some 0%nat).
  { unfold free_dim. cbn [free_from all_zero_at]. destruct (Req_EM_T (z 0%nat) 0) as [|K]; [reflexivity|]. exfalso. apply K, Z. lia. }
  set (u := project 2 [z] (unitv 0)).
  assert (U : forall e, (e < 2)%nat -> u e = unitv 0 e).
  { intros e He. unfold u. cbn [project]. rewrite (Z e He). lra. }
  assert (Nu : norm 2 u = 1) by (rewrite (norm_ext 2 u (unitv 0)) by exact U; apply norm_unit; lia).
  assert (Su : small 2 u = false) by (apply small_false; lra).
  set (mat' := set_nth [v2 3 4] 0 (v2 3 4)).
  assert (E1 : ro_step 2 rand (mkR [] CUnbound 0 [v2 3 4] 0) = Some (mkR [w] CLast 1 mat' 0)).
  { unfold ro_step. cbn [r_rv r_mat r_next length Nat.leb project row nth]. unfold r_finish. change (row [v2 3 4] 0) with (v2 3 4). rewrite S1. reflexivity. }
  assert (E2 : ro_step 2 rand (mkR [w] CLast 1 mat' 0) = Some (mkR [z] CNone 1 mat' 0)).
  { unfold ro_step. cbn [r_rv r_mat r_next r_cur length Nat.leb mat' set_nth]. rewrite F1. cbn [removelast app]. fold z. unfold r_finish. rewrite Sz. reflexivity. }
  assert (E3 : ro_step 2 rand (mkR [z] CNone 1 mat' 0) = Some (mkR ([z] ++ [scale 2 u]) CLast 1 mat' 0)).
  { unfold ro_step. cbn [r_rv r_mat r_next r_cur length Nat.leb mat' set_nth]. rewrite F2. fold u. unfold r_finish. rewrite Su. reflexivity. }
  exists ([z] ++ [scale 2 u]), mat'. split.
  { unfold reorthogonalize_matrix. cbn [ro_loop r_rv length Nat.ltb Nat.leb]. rewrite E1. cbn [ro_loop r_rv length Nat.ltb Nat.leb].
    rewrite E2. cbn [ro_loop r_rv length Nat.ltb Nat.leb]. rewrite E3. reflexivity. }
  split; [|split; [|split; [|split]]].
  - intros i c Hi. cbn in Hi. assert (i = 0)%nat by lia. subst i. rewrite (norm2 _ 5); [lra|lra|]. cbn. lra.
  - intros e He. exact (Z e He).
  - intros K. pose proof (K 0%nat 0%nat ltac:(cbn; lia) ltac:(cbn; lia)) as K1. destruct Nat.eq_dec; [|congruence].
    change (row ([z] ++ [scale 2 u]) 0) with z in K1. rewrite norm_zero in K1 by exact Z. lra.
  - intros K. pose proof (K (fun i => match i with 0%nat => 1 | _ => 0 end)) as K1.
    assert (1 = 0); [|lra]. apply (K1 ltac:(intros e He; unfold comb; cbn; change (row [z; scale 2 u] 0) with z; rewrite (Z e He); lra) 0%nat). cbn. lia.
  - intros K. destruct (K (v2 0 1)) as [c Hc]. pose proof (Hc 1%nat ltac:(lia)) as K1.
    change (1 = 0 + c 0%nat * z 1%nat + c 1%nat * scale 2 u 1%nat) in K1.
    assert (E : scale 2 u 1%nat = 0) by (unfold scale; rewrite U by lia; unfold unitv; cbn; lra).
    rewrite E, (Z 1%nat) in K1 by lia. lra.
Qed.

(* an ndarray argument is overwritten: afterwards it holds the projected rows *)
Theorem C59_argument_overwritten_refuted :
  exists n mat, forall rand, exists M mat', returned (reorthogonalize_matrix 10 n mat rand) = Some (M, mat') /\
    row mat 1 0%nat = 1 /\ row mat' 1 0%nat = 0.
Proof.
  exists 2%nat, [v2 1 0; v2 1 1]. intros rand.
  assert (N1 : norm 2 (v2 1 0) = 1) by (apply norm2; cbn; lra).
  assert (S1 : small 2 (v2 1 0) = false) by (apply small_false; lra).
  set (w := scale 2 (v2 1 0)).
  assert (W0 : w 0%nat = 1) by (unfold w, scale; rewrite N1; cbn; lra).
  assert (W1 : w 1%nat = 0) by (unfold w, scale; rewrite N1; cbn; lra).
  set (r := project 2 [w] (v2 1 1)).
  assert (D : dot 2 w (v2 1 1) = 1) by (rewrite dot2, W0, W1; cbn; lra).
  assert (R0 : r 0%nat = 0) by (unfold r; cbn [project]; rewrite D, W0; cbn; lra).
  assert (R1 : r 1%nat = 1) by (unfold r; cbn [project]; rewrite D, W1; cbn; lra).
  assert (Nr : norm 2 r = 1) by (apply norm2; [lra|rewrite R0, R1; lra]).
  assert (Sr : small 2 r = false) by (apply small_false; lra).
  exists ([w] ++ [scale 2 r]), [v2 1 0; r]. split; [|split; [reflexivity|exact R0]].
  assert (E1 : ro_step 2 rand (mkR [] CUnbound 0 [v2 1 0; v2 1 1] 0) = Some (mkR [w] CLast 1 [v2 1 0; v2 1 1] 0)).
  { unfold ro_step. cbn [r_rv r_mat r_next length Nat.leb project]. unfold r_finish. change (row [v2 1 0; v2 1 1] 0) with (v2 1 0). rewrite S1. reflexivity. }
  assert (E2 : ro_step 2 rand (mkR [w] CLast 1 [v2 1 0; v2 1 1] 0) = Some (mkR ([w] ++ [scale 2 r]) CLast 2 [v2 1 0; r] 0)).
  { unfold ro_step. cbn [r_rv r_mat r_next length Nat.leb]. change (row [v2 1 0; v2 1 1] 1) with (v2 1 1). fold r. unfold r_finish. rewrite Sr. reflexivity. }
  unfold reorthogonalize_matrix. cbn [ro_loop r_rv length Nat.ltb Nat.leb]. rewrite E1. cbn [ro_loop r_rv length Nat.ltb Nat.leb].
  rewrite E2. reflexivity.
Qed.

(* the hypotheses of C59_reorthogonalize_partial are met by one row in three dimensions, with two coordinates to fill *)
Example C59_reorthogonalize_witness :
  let mat := [v2 3 0] in apart 3 mat (Nat.min (length mat) 3) /\ vanish 3 mat (Nat.min (length mat) 3) [1%nat; 2%nat] /\ length [1%nat; 2%nat] = (3 - length mat)%nat.
Proof.
  cbv zeta. split; [|split; [|reflexivity]].
  - intros i c Hi. cbn in Hi. assert (i = 0)%nat by lia. subst i. apply norm_le_sq; [lra|]. unfold dot. cbn. lra.
  - split; [repeat constructor; cbn; lia|]. split.
    + intros d Hd. cbn in Hd. lia.
    + intros d i Hd Hi. cbn in Hi. assert (i = 0)%nat by lia. subst i. cbn in Hd. destruct Hd as [<-|[<-|[]]]; reflexivity.
Qed.

