(** The choice made by the waiting list (aggstrat.py:97-156): facts used for C25. *)
From Coq Require Import Ascii.
From Verif Require Import Base BaseFacts LpModel LpUtil Automaton StateSet BuildFacts CoreModel HeapFacts CoreOps CorePop.
Open Scope nat_scope.

Lemma ascii_cmp_trans x y z : Ascii.compare x y = Lt -> Ascii.compare y z = Lt -> Ascii.compare x z = Lt.
Proof. unfold Ascii.compare. rewrite !N.compare_lt_iff. intros. eapply N.lt_trans; eauto. Qed.
Lemma ascii_cmp_eq x y : Ascii.compare x y = Eq -> x = y.
Proof. unfold Ascii.compare. intro H. apply N.compare_eq_iff in H. rewrite <- (ascii_N_embedding x), <- (ascii_N_embedding y), H. reflexivity. Qed.
Lemma str_cmp_trans : forall x y z, String.compare x y = Lt -> String.compare y z = Lt -> String.compare x z = Lt.
Proof.
  induction x as [|a x IH]; intros [|b y] [|d z]; cbn [String.compare]; try discriminate; auto.
  destruct (Ascii.compare a b) eqn:E1; [| |discriminate]; destruct (Ascii.compare b d) eqn:E2; try discriminate; intros H1 H2.
  - apply ascii_cmp_eq in E1, E2. subst. unfold Ascii.compare. rewrite N.compare_refl. eapply IH; eauto.
  - apply ascii_cmp_eq in E1. subst. rewrite E2. reflexivity.
  - apply ascii_cmp_eq in E2. subst. rewrite E1. reflexivity.
  - rewrite (ascii_cmp_trans _ _ _ E1 E2). reflexivity.
Qed.
Lemma ltb_trans x y z : String.ltb x y = true -> String.ltb y z = true -> String.ltb x z = true.
Proof.
  unfold String.ltb. intros H1 H2. destruct (String.compare x y) eqn:E1; try discriminate. destruct (String.compare y z) eqn:E2; try discriminate.
  rewrite (str_cmp_trans _ _ _ E1 E2). reflexivity.
Qed.
Lemma ltb_irrefl x : String.ltb x x = false.
Proof. unfold String.ltb. induction x as [|a x IH]; cbn [String.compare]; [reflexivity|]. unfold Ascii.compare. rewrite N.compare_refl. exact IH. Qed.

Section Pop.
Variable cf : cfg.
Variable a : ha.
Variable c : core.
Variable k : popk.
Notation score o := (pop_score k (pstate c o)).
Notation name o := (mode_name a c o).

(** [b] is at least as good as [o] *)
Definition no_better (o b : nat) : Prop := (score o < score b)%Z \/ (score o = score b /\ String.ltb (name o) (name b) = false).

Definition beats o b := (score b <? score o)%Z || ((score o =? score b)%Z && String.ltb (name o) (name b)).
Lemma beats_no b o : beats o b = false <-> no_better o b.
Proof.
  unfold beats, no_better. rewrite orb_false_iff, andb_false_iff, Z.ltb_ge, Z.eqb_neq. destruct (Z.lt_trichotomy (score o) (score b)) as [K|[K|K]]; [| |].
  - split; [left; lia|intros _; split; [lia|left; lia]].
  - rewrite K. split; [intros [_ [H|H]]; [congruence|right; auto]|intros [H|[_ H]]; [lia|split; [lia|right; auto]]].
  - split; [intros [H _]; lia|intros [H|[H _]]; lia].
Qed.
Lemma no_better_trans x y b : beats b y = true -> no_better x y -> no_better x b.
Proof.
  unfold beats. rewrite orb_true_iff, andb_true_iff, Z.ltb_lt, Z.eqb_eq. intros [H|[H1 H2]] [K|[K1 K2]].
  - left. lia.
  - left. lia.
  - left. lia.
  - right. split; [congruence|]. destruct (String.ltb (name x) (name b)) eqn:E; [|reflexivity]. rewrite (ltb_trans _ _ _ E H2) in K2. discriminate.
Qed.
Lemma best_op_step b o w : best_op a c k b (o :: w) = if beats o b then best_op a c k o w else best_op a c k b w.
Proof. reflexivity. Qed.
Lemma best_op_keep w : forall b x, no_better x b -> no_better x (best_op a c k b w).
Proof. induction w as [|o w IH]; intros b x H; [exact H|]. rewrite best_op_step. destruct (beats o b) eqn:E; [apply IH; eapply no_better_trans; eauto|apply IH; auto]. Qed.
Lemma no_better_refl b : no_better b b.
Proof. right. split; [reflexivity|apply ltb_irrefl]. Qed.
Lemma best_op_max w : forall b, no_better b (best_op a c k b w) /\ forall o, In o w -> no_better o (best_op a c k b w).
Proof.
  induction w as [|o w IH]; intro b.
  - split; [apply no_better_refl|intros o []].
  - split; [apply best_op_keep, no_better_refl|]. rewrite best_op_step. destruct (beats o b) eqn:E.
    + intros x [<-|H]; [apply best_op_keep, no_better_refl|apply IH; auto].
    + intros x [<-|H]; [apply best_op_keep, beats_no, E|apply IH; auto].
Qed.
End Pop.

Lemma onat_eqb_iff x y : onat_eqb x y = true <-> x = y.
Proof. split; [apply onat_eqb_eq|intros ->]. destruct y; cbn; [apply Nat.eqb_refl|reflexivity]. Qed.
Lemma list_len1 {A} (l : list A) x y : In x l -> List.length l = 1 -> In y l -> x = y.
Proof. destruct l as [|z [|? ?]]; cbn; try lia. intros [<-|[]] _ [<-|[]]. reflexivity. Qed.
