(** Lemmas about the heap of CoreModel.v: reading after writing, and the relation [ext] (objects keep their identity). *)
From Verif Require Import Base BaseFacts LpModel LpUtil Automaton StateSet StateFacts2 BuildFacts CoreModel.
Open Scope nat_scope.

Ltac ccbn := cbn [with_states with_ops with_nodes with_cur with_wait with_roots with_dwait with_rep with_tt with_flags with_csteps setS setN push_op set_child
                  c_states c_ops c_nodes c_cur c_wait c_roots c_dwait c_rep c_tt c_aggerr c_concerr c_cex c_csteps
                  n_ops n_state n_parents n_agg o_step o_parent o_child o_trans o_post o_center].
Ltac ccbn_in H := cbn [with_states with_ops with_nodes with_cur with_wait with_roots with_dwait with_rep with_tt with_flags with_csteps setS setN push_op set_child
                  c_states c_ops c_nodes c_cur c_wait c_roots c_dwait c_rep c_tt c_aggerr c_concerr c_cex c_csteps
                  n_ops n_state n_parents n_agg o_step o_parent o_child o_trans o_post o_center] in H.

Notation nS c := (List.length (c_states c)).
Notation nO c := (List.length (c_ops c)).
Notation nN c := (List.length (c_nodes c)).

Lemma nth_upd {A} i j (v d : A) l : nth j (upd_nth i v l) d = if (j =? i) && (i <? List.length l) then v else nth j l d.
Proof.
  destruct (Nat.ltb_spec i (List.length l)) as [H|H].
  - rewrite nth_upd_nth by auto. rewrite andb_true_r. reflexivity.
  - rewrite andb_false_r. unfold upd_nth. rewrite skipn_all2 by lia. rewrite app_nil_r, firstn_all2 by lia. reflexivity.
Qed.
Lemma nth_snoc {A} (l : list A) v d j : nth j (l ++ [v]) d = if j =? List.length l then v else nth j l d.
Proof.
  destruct (Nat.eqb_spec j (List.length l)) as [->|H].
  - rewrite app_nth2 by lia. rewrite Nat.sub_diag. reflexivity.
  - destruct (lt_dec j (List.length l)); [apply app_nth1; auto|]. rewrite !nth_overflow; auto; try rewrite app_length; cbn; lia.
Qed.

Lemma upd_twice {A} (v w : A) l : forall i, upd_nth i w (upd_nth i v l) = upd_nth i w l.
Proof.
  induction l as [|x l IH]; intros [|i]; unfold upd_nth in *; cbn [firstn skipn app]; auto. f_equal. apply IH.
Qed.
Lemma setS_twice c i s s' : setS (setS c i s) i s' = setS c i s'.
Proof. unfold setS, with_states. cbn [c_states c_ops c_nodes c_cur c_wait c_roots c_dwait c_rep c_tt c_aggerr c_concerr c_cex c_csteps]. rewrite upd_twice. reflexivity. Qed.
Lemma getS_setS c i s j : i < nS c -> getS (setS c i s) j = if j =? i then s else getS c j.
Proof. intro H. unfold getS. ccbn. apply nth_upd_nth. auto. Qed.
Lemma getS_set_eq c i s : i < nS c -> getS (setS c i s) i = s.
Proof. intro H. rewrite getS_setS, Nat.eqb_refl; auto. Qed.
Lemma getS_set_ne c i s j : j <> i -> getS (setS c i s) j = getS c j.
Proof. intro H. unfold getS. ccbn. rewrite nth_upd. destruct (Nat.eqb_spec j i); [lia|reflexivity]. Qed.
Lemma getO_setS c i s j : getO (setS c i s) j = getO c j. Proof. reflexivity. Qed.
Lemma getN_setS c i s j : getN (setS c i s) j = getN c j. Proof. reflexivity. Qed.
Lemma nS_setS c i s : nS (setS c i s) = nS c. Proof. ccbn. apply upd_nth_length. Qed.

Lemma getN_push c n x j : n < nN c -> getN (push_op c n x) j =
  if j =? n then mkNode (n_ops (getN c n) ++ [x]) (n_state (getN c n)) (n_parents (getN c n)) (n_agg (getN c n)) else getN c j.
Proof. intro H. unfold getN. ccbn. rewrite nth_upd_nth by auto. reflexivity. Qed.
Lemma getS_push c n x j : getS (push_op c n x) j = getS c j. Proof. reflexivity. Qed.
Lemma getO_push c n x j : getO (push_op c n x) j = getO c j. Proof. reflexivity. Qed.
Lemma nN_push c n x : nN (push_op c n x) = nN c. Proof. ccbn. apply upd_nth_length. Qed.
Lemma n_state_push c n x j : n_state (getN (push_op c n x) j) = n_state (getN c j).
Proof. unfold getN. ccbn. rewrite nth_upd. destruct (Nat.eqb_spec j n) as [->|]; cbn [andb]; [|reflexivity]. destruct (n <? nN c); reflexivity. Qed.
Lemma n_parents_push c n x j : n_parents (getN (push_op c n x) j) = n_parents (getN c j).
Proof. unfold getN. ccbn. rewrite nth_upd. destruct (Nat.eqb_spec j n) as [->|]; cbn [andb]; [|reflexivity]. destruct (n <? nN c); reflexivity. Qed.
Lemma n_agg_push c n x j : n_agg (getN (push_op c n x) j) = n_agg (getN c j).
Proof. unfold getN. ccbn. rewrite nth_upd. destruct (Nat.eqb_spec j n) as [->|]; cbn [andb]; [|reflexivity]. destruct (n <? nN c); reflexivity. Qed.
Lemma n_ops_push_ne c n x j : j <> n -> n_ops (getN (push_op c n x) j) = n_ops (getN c j).
Proof. intro H. unfold getN. ccbn. rewrite nth_upd. destruct (Nat.eqb_spec j n); [lia|reflexivity]. Qed.
Lemma n_ops_push_eq c n x : n < nN c -> n_ops (getN (push_op c n x) n) = n_ops (getN c n) ++ [x].
Proof. intro H. rewrite getN_push by auto. rewrite Nat.eqb_refl. reflexivity. Qed.

Lemma getO_child c o n j : o < nO c -> getO (set_child c o n) j =
  if j =? o then mkOp (o_step (getO c o)) (o_parent (getO c o)) (Some n) (o_trans (getO c o)) (o_post (getO c o)) (o_center (getO c o)) else getO c j.
Proof. intro H. unfold getO. ccbn. rewrite nth_upd_nth by auto. reflexivity. Qed.
Lemma nO_child c o n : nO (set_child c o n) = nO c. Proof. ccbn. apply upd_nth_length. Qed.
(** fields other than o_child *)
Lemma set_child_fields c o n j : let x := getO (set_child c o n) j in let y := getO c j in
  o_step x = o_step y /\ o_parent x = o_parent y /\ o_trans x = o_trans y /\ o_post x = o_post y /\ o_center x = o_center y.
Proof.
  cbn zeta. unfold getO. ccbn. rewrite nth_upd. destruct (Nat.eqb_spec j o) as [->|]; cbn [andb]; [|auto]. destruct (o <? nO c); cbn; auto.
Qed.

Lemma set_childs_spec ops n : forall c, let c' := fold_left (fun c o => set_child c o n) ops c in
  c_states c' = c_states c /\ c_nodes c' = c_nodes c /\ c_cur c' = c_cur c /\ c_wait c' = c_wait c /\ c_roots c' = c_roots c /\ c_dwait c' = c_dwait c /\
  c_rep c' = c_rep c /\ c_tt c' = c_tt c /\ c_aggerr c' = c_aggerr c /\ c_concerr c' = c_concerr c /\ c_cex c' = c_cex c /\ c_csteps c' = c_csteps c /\
  nO c' = nO c /\
  (forall j, o_step (getO c' j) = o_step (getO c j) /\ o_parent (getO c' j) = o_parent (getO c j) /\ o_trans (getO c' j) = o_trans (getO c j) /\
             o_post (getO c' j) = o_post (getO c j) /\ o_center (getO c' j) = o_center (getO c j)) /\
  (forall j, ~ In j ops -> o_child (getO c' j) = o_child (getO c j)) /\
  (forall j, In j ops -> j < nO c -> o_child (getO c' j) = Some n).
Proof.
  induction ops as [|o ops IH]; intros c; cbn zeta; cbn [fold_left].
  - repeat (split; [reflexivity|]). split; [auto|]. split; [auto|]. intros j [].
  - specialize (IH (set_child c o n)). cbn zeta in IH. destruct IH as (E1&E2&E3&E4&E5&E6&E7&E8&E9&E10&E11&E12&E13&E14&E15&E16).
    rewrite E1,E2,E3,E4,E5,E6,E7,E8,E9,E10,E11,E12,E13. rewrite nO_child. repeat (split; [reflexivity|]). split; [|split].
    + intro j. destruct (E14 j) as (H1&H2&H3&H4&H5). destruct (set_child_fields c o n j) as (K1&K2&K3&K4&K5). rewrite H1,H2,H3,H4,H5. auto.
    + intros j Hj. rewrite E15 by (intro; apply Hj; right; auto). unfold getO. ccbn. rewrite nth_upd. destruct (Nat.eqb_spec j o); [exfalso; apply Hj; left; auto|reflexivity].
    + intros j [->|Hj] Hl.
      * destruct (in_dec Nat.eq_dec j ops); [apply E16; auto; rewrite nO_child; auto|]. rewrite E15 by auto. rewrite getO_child by auto. rewrite Nat.eqb_refl. reflexivity.
      * apply E16; auto. rewrite nO_child; auto.
Qed.

(** ** ext: objects persist with their immutable fields *)
Record ext (c c' : core) : Prop := {
  ex_nS : nS c <= nS c'; ex_nO : nO c <= nO c'; ex_nN : nN c <= nN c';
  ex_mode : forall i, i < nS c -> ss_mode (getS c' i) = ss_mode (getS c i) /\ ss_conc (getS c' i) = ss_conc (getS c i);
  ex_op : forall o, o < nO c -> o_step (getO c' o) = o_step (getO c o) /\ o_parent (getO c' o) = o_parent (getO c o) /\
            o_trans (getO c' o) = o_trans (getO c o) /\ o_post (getO c' o) = o_post (getO c o);
  ex_node : forall n, n < nN c -> n_state (getN c' n) = n_state (getN c n) /\ n_parents (getN c' n) = n_parents (getN c n);
  ex_ops : forall n, n < nN c -> exists l, n_ops (getN c' n) = n_ops (getN c n) ++ l }.

Lemma ext_refl c : ext c c.
Proof. constructor; auto. intros n _. exists []. rewrite app_nil_r. reflexivity. Qed.
Lemma ext_trans c1 c2 c3 : ext c1 c2 -> ext c2 c3 -> ext c1 c3.
Proof.
  intros A B. pose proof (ex_nS _ _ A). pose proof (ex_nO _ _ A). pose proof (ex_nN _ _ A). pose proof (ex_nS _ _ B). pose proof (ex_nO _ _ B). pose proof (ex_nN _ _ B).
  constructor; try lia.
  - intros i Hi. destruct (ex_mode _ _ A i Hi), (ex_mode _ _ B i ltac:(lia)). split; congruence.
  - intros o Ho. destruct (ex_op _ _ A o Ho) as (?&?&?&?), (ex_op _ _ B o ltac:(lia)) as (?&?&?&?). repeat split; congruence.
  - intros n Hn. destruct (ex_node _ _ A n Hn), (ex_node _ _ B n ltac:(lia)). split; congruence.
  - intros n Hn. destruct (ex_ops _ _ A n Hn) as (l1 & E1), (ex_ops _ _ B n ltac:(lia)) as (l2 & E2). exists (l1 ++ l2). rewrite E2, E1, app_assoc. reflexivity.
Qed.
(** same heap, other fields arbitrary *)
Lemma ext_same c c' : c_states c' = c_states c -> c_ops c' = c_ops c -> c_nodes c' = c_nodes c -> ext c c'.
Proof.
  intros E1 E2 E3. assert (forall i, getS c' i = getS c i) by (intro; unfold getS; rewrite E1; auto).
  assert (forall i, getO c' i = getO c i) by (intro; unfold getO; rewrite E2; auto). assert (forall i, getN c' i = getN c i) by (intro; unfold getN; rewrite E3; auto).
  constructor; try (rewrite ?E1, ?E2, ?E3; lia); intros; rewrite ?H, ?H0, ?H1; auto. exists []. rewrite app_nil_r. reflexivity.
Qed.
Lemma ext_setS c i s : ss_mode s = ss_mode (getS c i) -> ss_conc s = ss_conc (getS c i) -> ext c (setS c i s).
Proof.
  intros H H'. constructor; auto; try (rewrite nS_setS; lia).
  - intros j Hj. destruct (Nat.eq_dec j i) as [->|Hne]; [rewrite getS_set_eq by auto; auto|rewrite getS_set_ne by auto; auto].
  - intros n Hn. exists []. rewrite app_nil_r. reflexivity.
Qed.
Lemma ext_push c n x : ext c (push_op c n x).
Proof.
  constructor; auto; try (rewrite nN_push; lia).
  - intros m Hm. rewrite n_state_push, n_parents_push. auto.
  - intros m Hm. destruct (Nat.eq_dec m n) as [->|Hne]; [exists [x]; apply n_ops_push_eq; auto|exists []; rewrite n_ops_push_ne, app_nil_r; auto].
Qed.
Lemma ext_set_childs c ops n : ext c (fold_left (fun c o => set_child c o n) ops c).
Proof.
  destruct (set_childs_spec ops n c) as (E1&E2&_&_&_&_&_&_&_&_&_&_&E13&E14&_).
  constructor; try (rewrite ?E1, ?E2, ?E13; lia).
  - intros i Hi. unfold getS. rewrite E1. auto.
  - intros o Ho. destruct (E14 o) as (?&?&?&?&?). auto.
  - intros m Hm. unfold getN. rewrite E2. auto.
  - intros m Hm. exists []. unfold getN. rewrite E2, app_nil_r. auto.
Qed.
Lemma getS_add c s j : getS (with_states c (c_states c ++ [s])) j = if j =? nS c then s else getS c j.
Proof. unfold getS. ccbn. apply nth_snoc. Qed.
Lemma getO_add c o j : getO (with_ops c (c_ops c ++ [o])) j = if j =? nO c then o else getO c j.
Proof. unfold getO. ccbn. apply nth_snoc. Qed.
Lemma getN_add c o j : getN (with_nodes c (c_nodes c ++ [o])) j = if j =? nN c then o else getN c j.
Proof. unfold getN. ccbn. apply nth_snoc. Qed.
Lemma ext_addS c s : ext c (with_states c (c_states c ++ [s])).
Proof.
  constructor; auto; ccbn; try (rewrite app_length; lia).
  - intros i Hi. rewrite getS_add. destruct (Nat.eqb_spec i (nS c)); [lia|auto].
  - intros n Hn. exists []. rewrite app_nil_r. reflexivity.
Qed.
Lemma ext_addO c o : ext c (with_ops c (c_ops c ++ [o])).
Proof.
  constructor; auto; ccbn; try (rewrite app_length; lia).
  - intros i Hi. rewrite getO_add. destruct (Nat.eqb_spec i (nO c)); [lia|auto].
  - intros n Hn. exists []. rewrite app_nil_r. reflexivity.
Qed.
Lemma ext_addN c o : ext c (with_nodes c (c_nodes c ++ [o])).
Proof.
  constructor; auto; ccbn; try (rewrite app_length; lia).
  - intros i Hi. rewrite getN_add. destruct (Nat.eqb_spec i (nN c)); [lia|auto].
  - intros i Hn. exists []. rewrite app_nil_r. rewrite getN_add. destruct (Nat.eqb_spec i (nN c)); [lia|auto].
Qed.

(** the node of the current state *)
Lemma left_inv_push c n x m : n < nN c -> left_inv (push_op c n x) m = if m =? n then is_left x else left_inv c m.
Proof.
  intro H. unfold left_inv. destruct (Nat.eqb_spec m n) as [->|Hne].
  - rewrite n_ops_push_eq by auto. rewrite rev_app_distr. reflexivity.
  - rewrite n_ops_push_ne by auto. reflexivity.
Qed.
Lemma left_inv_nodes c c' n : c_nodes c' = c_nodes c -> left_inv c' n = left_inv c n.
Proof. intro E. unfold left_inv, getN. rewrite E. reflexivity. Qed.

Lemma put_lps_spec sids : forall c ls, let c' := put_lps c sids ls in
  c_ops c' = c_ops c /\ c_nodes c' = c_nodes c /\ c_cur c' = c_cur c /\ c_wait c' = c_wait c /\ c_roots c' = c_roots c /\ c_dwait c' = c_dwait c /\
  c_rep c' = c_rep c /\ c_tt c' = c_tt c /\ c_aggerr c' = c_aggerr c /\ c_concerr c' = c_concerr c /\ c_cex c' = c_cex c /\ c_csteps c' = c_csteps c /\
  nS c' = nS c.
Proof.
  induction sids as [|i sids IH]; intros c [|l ls]; cbn zeta; cbn [put_lps]; try (repeat (split; [reflexivity|]); reflexivity).
  specialize (IH (setS c i (ss_with_lpi (getS c i) l)) ls). cbn zeta in IH. destruct IH as (E1&E2&E3&E4&E5&E6&E7&E8&E9&E10&E11&E12&E13).
  rewrite E1,E2,E3,E4,E5,E6,E7,E8,E9,E10,E11,E12,E13. rewrite nS_setS. repeat (split; [reflexivity|]). reflexivity.
Qed.
