(** Which executions of the automaton a node of the aggregation DAG stands for.

    [Tn c N k x n]: x is reached k time steps after entering node N, n in total, along a path of the DAG to N;
    [To c o x n]: x is reached right after transition o.  Only immutable fields of the objects are used. *)
From Verif Require Import Base BaseFacts LpModel LpSpec SetSpec LpUtil ApiSpec Automaton StateSet HybridSpec FlowFacts StateSpec CoreModel HeapFacts.
Open Scope nat_scope.

Definition nmode (c : core) (N : nat) : nat := ss_mode (getS c (n_state (getN c N))).
Definition pmode (c : core) (o : nat) : nat := ss_mode (getS c (o_post (getO c o))).

Section Ghost.
Variable a : ha.
Variable ru : rules.
Variable I0 : nat -> vec -> Prop.       (* the points of the initial states *)

Inductive Tn (c : core) : nat -> nat -> vec -> nat -> Prop :=
| Tn_in N o x n : N < nN c -> In o (n_parents (getN c N)) -> To c o x n -> Tn c N 0 x n
| Tn_step N k x n u x' :
    Tn c N k x n -> inv_ok 0 (get_mode a (nmode c N)) x -> n < ru_bound ru -> (ru_cap ru (nmode c N) = true -> k = 0) ->
    input_ok (get_mode a (nmode c N)) u -> one_step (get_mode a (nmode c N)) x u x' -> Tn c N (S k) x' (S n)
with To (c : core) : nat -> vec -> nat -> Prop :=
| To_init o x : o < nO c -> o_parent (getO c o) = None -> I0 o x -> To c o x 0
| To_jump o M t y x n :
    o < nO c -> o_parent (getO c o) = Some M -> o_trans (getO c o) = Some t -> Tn c M (o_step (getO c o)) y n ->
    guard_ok (get_trans a t) y -> may_jump 0 ru (get_mode a (nmode c M)) y (o_step (getO c o)) -> reset_ok a (get_trans a t) y x -> To c o x n.
Scheme Tn_ind2 := Induction for Tn Sort Prop with To_ind2 := Induction for To Sort Prop.
Combined Scheme TnTo_ind from Tn_ind2, To_ind2.

Lemma Tn_nN c N k x n : Tn c N k x n -> N < nN c.
Proof. intro H. induction H; auto. Qed.

Lemma Tn_0 c N x n : Tn c N 0 x n -> exists o, In o (n_parents (getN c N)) /\ To c o x n.
Proof. intro H. inversion H; subst. eauto. Qed.
Lemma Tn_S c N k x' n' : Tn c N (S k) x' n' ->
  exists x n u, n' = S n /\ Tn c N k x n /\ inv_ok 0 (get_mode a (nmode c N)) x /\ n < ru_bound ru /\ (ru_cap ru (nmode c N) = true -> k = 0) /\
    input_ok (get_mode a (nmode c N)) u /\ one_step (get_mode a (nmode c N)) x u x'.
Proof. intro H. inversion H; subst. eauto 12. Qed.

Lemma To_inv c o x n : To c o x n -> o < nO c /\ ((o_parent (getO c o) = None /\ I0 o x /\ n = 0) \/
  exists M t y, o_parent (getO c o) = Some M /\ o_trans (getO c o) = Some t /\ Tn c M (o_step (getO c o)) y n /\
    guard_ok (get_trans a t) y /\ may_jump 0 ru (get_mode a (nmode c M)) y (o_step (getO c o)) /\ reset_ok a (get_trans a t) y x).
Proof. intro H. inversion H; subst; (split; [auto|]); [left; auto|right; eauto 12]. Qed.

(** going back j steps *)
Lemma Tn_back c N j : forall k x' n', Tn c N (k + j) x' n' ->
  exists x n, n' = n + j /\ Tn c N k x n /\ flow (get_mode a (nmode c N)) j x x' /\
    (0 < j -> inv_ok 0 (get_mode a (nmode c N)) x /\ n < ru_bound ru /\ (ru_cap ru (nmode c N) = true -> k = 0)) /\ (j = 0 -> x = x').
Proof.
  induction j as [|j IH]; intros k x' n' H.
  - rewrite Nat.add_0_r in H. exists x', n'. split; [lia|]. split; [exact H|]. split; [apply veq_refl|]. split; [lia|auto].
  - replace (k + S j) with (S (k + j)) in H by lia. apply Tn_S in H as (x1 & n1 & u & -> & H & Hi & Hn & Hc & Hu & Ho).
    destruct (IH _ _ _ H) as (x & n & -> & HT & Hf & Hj & H0). exists x, n. split; [lia|]. split; [exact HT|]. split; [cbn [flow]; eauto|]. split; [|lia].
    intros _. destruct j as [|j]; [|apply Hj; lia]. rewrite (H0 eq_refl). rewrite !Nat.add_0_r in *. auto.
Qed.

(** Heap shapes under which old objects only refer to old objects *)
Definition closed (c : core) : Prop :=
  (forall N, N < nN c -> n_state (getN c N) < nS c /\ forall o, In o (n_parents (getN c N)) -> o < nO c) /\
  (forall o M, o < nO c -> o_parent (getO c o) = Some M -> M < nN c).

Lemma nmode_ext c c' N : closed c -> ext c c' -> N < nN c -> nmode c' N = nmode c N.
Proof.
  intros [H1 _] E HN. unfold nmode. destruct (ex_node _ _ E N HN) as [-> _]. apply (ex_mode _ _ E). apply H1; auto.
Qed.
Lemma pmode_ext c c' o : ext c c' -> o < nO c -> o_post (getO c o) < nS c -> pmode c' o = pmode c o.
Proof. intros E Ho Hp. unfold pmode. destruct (ex_op _ _ E o Ho) as (_&_&_& ->). apply (ex_mode _ _ E). auto. Qed.

Lemma ghost_ext c c' : closed c -> ext c c' ->
  (forall N k x n, N < nN c -> (Tn c' N k x n <-> Tn c N k x n)) /\ (forall o x n, o < nO c -> (To c' o x n <-> To c o x n)).
Proof.
  intros HC E.
  assert (B : (forall N k x n, Tn c' N k x n -> N < nN c -> Tn c N k x n) /\ (forall o x n, To c' o x n -> o < nO c -> To c o x n)).
  { apply (TnTo_ind c' (fun N k x n _ => N < nN c -> Tn c N k x n) (fun o x n _ => o < nO c -> To c o x n)).
    - intros N o x n _ Ho _ IH HN. destruct (ex_node _ _ E N HN) as [_ Ep]. rewrite Ep in Ho. apply Tn_in with o; auto. apply IH. apply (proj1 HC N HN); auto.
    - intros N k x n u x' _ IH Hi Hn Hc Hu Ho HN. rewrite (nmode_ext c c' N HC E HN) in *. eapply Tn_step; eauto.
    - intros o x _ Hp HI Ho. destruct (ex_op _ _ E o Ho) as (E1&E2&E3&E4). rewrite E2 in Hp. apply To_init; auto.
    - intros o M t y x n _ Hp Ht _ IH Hg Hj Hr Ho. destruct (ex_op _ _ E o Ho) as (E1&E2&E3&E4). rewrite E1, E2, E3 in *.
      assert (HM : M < nN c) by (apply (proj2 HC o M Ho Hp)). rewrite (nmode_ext c c' M HC E HM) in Hj. eapply To_jump; eauto. }
  assert (A : (forall N k x n, Tn c N k x n -> N < nN c -> Tn c' N k x n) /\ (forall o x n, To c o x n -> o < nO c -> To c' o x n)).
  { apply (TnTo_ind c (fun N k x n _ => N < nN c -> Tn c' N k x n) (fun o x n _ => o < nO c -> To c' o x n)).
    - intros N o x n _ Ho _ IH HN. destruct (ex_node _ _ E N HN) as [_ Ep]. apply Tn_in with o; [pose proof (ex_nN _ _ E); lia|rewrite Ep; auto|]. apply IH. apply (proj1 HC N HN); auto.
    - intros N k x n u x' _ IH Hi Hn Hc Hu Ho HN. rewrite <- (nmode_ext c c' N HC E HN) in *. eapply Tn_step; eauto.
    - intros o x _ Hp HI Ho. destruct (ex_op _ _ E o Ho) as (E1&E2&E3&E4). apply To_init; [pose proof (ex_nO _ _ E); lia|congruence|auto].
    - intros o M t y x n _ Hp Ht _ IH Hg Hj Hr Ho. destruct (ex_op _ _ E o Ho) as (E1&E2&E3&E4).
      assert (HM : M < nN c) by (apply (proj2 HC o M Ho Hp)). rewrite <- (nmode_ext c c' M HC E HM) in Hj. eapply To_jump; try (rewrite ?E1, ?E2, ?E3); eauto. pose proof (ex_nO _ _ E); lia. }
  split; intros; split; intro; [apply B|apply A|apply B|apply A]; auto.
Qed.
Lemma Tn_ext c c' N k x n : closed c -> ext c c' -> N < nN c -> (Tn c' N k x n <-> Tn c N k x n).
Proof. intros. apply (ghost_ext c c'); auto. Qed.
Lemma To_ext c c' o x n : closed c -> ext c c' -> o < nO c -> (To c' o x n <-> To c o x n).
Proof. intros. apply (ghost_ext c c'); auto. Qed.

(** a transition enabled at a point of node N *)
Definition enabled (c : core) (N k : nat) (t : nat) : Prop :=
  exists x n, Tn c N k x n /\ t < List.length (ha_trans a) /\ t_from (get_trans a t) = nmode c N /\ guard_ok (get_trans a t) x /\
    may_jump 0 ru (get_mode a (nmode c N)) x k.
(** the transition has been taken *)
Definition taken (c : core) (N k t : nat) : Prop :=
  exists o, In (NTr o) (n_ops (getN c N)) /\ o_step (getO c o) = k /\ o_trans (getO c o) = Some t.
Definition complete (c : core) (N : nat) : Prop := forall k t, enabled c N k t -> taken c N k t.

Lemma enabled_ext c c' N k t : closed c -> ext c c' -> N < nN c -> (enabled c' N k t <-> enabled c N k t).
Proof.
  intros HC E HN. unfold enabled. rewrite (nmode_ext c c' N HC E HN). split; intros (x & n & HT & H); exists x, n; (split; [|exact H]);
    revert HT; apply (Tn_ext c c'); auto.
Qed.
Lemma taken_ext c c' N k t : ext c c' -> N < nN c -> (forall o, In (NTr o) (n_ops (getN c N)) -> o < nO c) -> taken c N k t -> taken c' N k t.
Proof.
  intros E HN Hc (o & Ho & H1 & H2). destruct (ex_ops _ _ E N HN) as (l & El). destruct (ex_op _ _ E o (Hc o Ho)) as (E1&_&E3&_).
  exists o. rewrite El, E1, E3. split; [apply in_or_app; auto|auto].
Qed.
End Ghost.
