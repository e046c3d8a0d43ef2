(** Proofs about Timers: the object heap refines the call log of TimerSpec. *)
From Verif Require Import Base Timers TimerSpec.
Open Scope nat_scope.

Notation nH h := (List.length h).

Lemma tset_len h i d : nH (tset h i d) = nH h.
Proof. revert i; induction h as [|x h IH]; intros [|i]; simpl; auto. Qed.

Lemma tget_tset h i d j : i < nH h -> tget (tset h i d) j = if Nat.eqb j i then d else tget h j.
Proof.
  unfold tget. revert i j; induction h as [|x h IH]; intros [|i] [|j] H; simpl in *; try lia; auto.
  apply IH; lia.
Qed.

Lemma tget_app_old h l j : j < nH h -> tget (h ++ l) j = tget h j.
Proof. intros; unfold tget; rewrite app_nth1; auto. Qed.
Lemma tget_app_new h d : tget (h ++ [d]) (nH h) = d.
Proof. unfold tget; rewrite app_nth2, Nat.sub_diag; auto. Qed.

(** The node reached by a path of names. *)
Inductive node_at (h : list tdata) (top : nat) : list string -> nat -> Prop :=
| at_top : node_at h top [td_name (tget h top)] top
| at_child p i c : node_at h top p i -> In c (td_children (tget h i)) ->
    node_at h top (p ++ [td_name (tget h c)]) c.

Record wfh (h : list tdata) : Prop := mkWfh {
  w_child : forall i c, i < nH h -> In c (td_children (tget h i)) -> i < c < nH h /\ td_parent (tget h c) = Some i;
  w_names : forall i, i < nH h -> NoDup (map (fun c => td_name (tget h c)) (td_children (tget h i)))
}.

Definition wft (h : list tdata) (top : nat) : Prop := top < nH h /\ td_parent (tget h top) = None.

Lemma at_lt h top p i : wfh h -> wft h top -> node_at h top p i -> i < nH h.
Proof. intros W [T _] A; induction A; auto. now apply (w_child _ W i c). Qed.

Lemma at_fun_path h top p i : wfh h -> wft h top -> node_at h top p i -> forall q, node_at h top q i -> p = q.
Proof.
  intros W T A. induction A as [|p i c A IH Hc]; intros q B.
  - inversion B; subst; auto.
    assert (Hi : i < nH h) by (eapply at_lt; eauto).
    destruct (w_child _ W i top Hi H0) as [_ P]. destruct T as [_ T]. congruence.
  - assert (Hi : i < nH h) by (eapply at_lt; eauto).
    destruct (w_child _ W i c Hi Hc) as [_ P].
    inversion B as [|p' i' c' A' Hc']; subst.
    + destruct T as [_ T]. congruence.
    + assert (Hi' : i' < nH h) by (eapply at_lt; eauto).
      destruct (w_child _ W i' c Hi' Hc') as [_ P'].
      assert (i = i') by congruence. subst i'. f_equal. auto.
Qed.

Lemma names_inj h i c c' : wfh h -> i < nH h -> In c (td_children (tget h i)) -> In c' (td_children (tget h i)) ->
  td_name (tget h c) = td_name (tget h c') -> c = c'.
Proof.
  intros W Hi. generalize (w_names _ W i Hi). induction (td_children (tget h i)) as [|a l IH]; simpl; [tauto|].
  intros N. inversion N; subst.
  intros [->|H] [->|H'] E; auto.
  - exfalso; apply H1. rewrite E. now apply (in_map (fun c => td_name (tget h c))).
  - exfalso; apply H1. rewrite <- E. now apply (in_map (fun c => td_name (tget h c))).
Qed.

Lemma at_fun_node h top p i : wfh h -> wft h top -> node_at h top p i -> forall j, node_at h top p j -> i = j.
Proof.
  intros W T A. induction A as [|p i c A IH Hc]; intros j B.
  - inversion B as [|p' i' c' A' Hc' E]; subst; auto.
    exfalso. destruct p' as [|x p']; [inversion A'|destruct p'; discriminate].
    destruct p; discriminate.
  - inversion B as [E|p' i' c' A' Hc' E]; subst.
    + exfalso. destruct p as [|x p]; [inversion A|destruct p; discriminate].
      destruct p; discriminate.
    + apply app_inj_tail in E as [-> E].
      rewrite <- (IH _ A') in Hc'. eapply names_inj; eauto. eapply at_lt; eauto.
Qed.

(** [get_child] finds exactly the child of that name. *)
Lemma get_child_some h i n c : get_child h i n = Some c ->
  In c (td_children (tget h i)) /\ td_name (tget h c) = n.
Proof. unfold get_child; intro H; apply find_some in H as [H E]. now apply String.eqb_eq in E. Qed.

Lemma get_child_none h i n : get_child h i n = None ->
  forall c, In c (td_children (tget h i)) -> td_name (tget h c) <> n.
Proof. unfold get_child; intros H c Hc E. eapply find_none in H; eauto. simpl in H. apply String.eqb_neq in H; auto. Qed.

Lemma get_child_in h i c : wfh h -> i < nH h -> In c (td_children (tget h i)) ->
  get_child h i (td_name (tget h c)) = Some c.
Proof.
  intros W Hi Hc. destruct (get_child h i (td_name (tget h c))) as [c'|] eqn:E.
  - apply get_child_some in E as [H E]. f_equal. eapply names_inj; eauto.
  - exfalso; eapply get_child_none; eauto.
Qed.

Lemma walk_snoc h p n : forall i, walk h i (p ++ [n]) = match walk h i p with Some j => get_child h j n | None => None end.
Proof.
  induction p as [|m p IH]; intro i; simpl.
  - destruct (get_child h i n); auto.
  - destruct (get_child h i m); auto.
Qed.

Lemma at_walk h top : wfh h -> wft h top -> forall p i,
  node_at h top (td_name (tget h top) :: p) i <-> walk h top p = Some i.
Proof.
  intros W T p. induction p as [|n p IH] using rev_ind; intro i.
  - simpl; split; intro H.
    + inversion H as [E|p' i' c' A' Hc' E]; subst; auto.
      destruct p' as [|x p']; [inversion A'|destruct p'; discriminate]. destruct p; discriminate.
    + injection H as <-. constructor.
  - rewrite walk_snoc; split; intro H.
    + inversion H as [E|p' i' c' A' Hc' E]; subst.
      * destruct p; discriminate.
      * change (p' ++ [td_name (tget h i)] = (td_name (tget h top) :: p) ++ [n]) in E.
        apply app_inj_tail in E as [-> <-]. apply IH in A'. rewrite A'.
        apply get_child_in; auto. apply IH in A'. eapply at_lt; eauto.
    + destruct (walk h top p) as [j|] eqn:E; [|discriminate].
      assert (A : node_at h top (td_name (tget h top) :: p) j) by (apply IH; reflexivity).
      apply get_child_some in H as [H <-].
      change (td_name (tget h top) :: p ++ [td_name (tget h i)]) with ((td_name (tget h top) :: p) ++ [td_name (tget h i)]).
      econstructor; eauto.
Qed.

Lemma at_head h top p i : node_at h top p i -> exists q, p = td_name (tget h top) :: q.
Proof. induction 1 as [|p i c A [q ->]]; simpl; eauto. Qed.

Lemma timer_at_spec t top : wfh (t_heap t) -> t_top t = Some top -> wft (t_heap t) top -> forall p i,
  timer_at t p = Some i <-> node_at (t_heap t) top p i.
Proof.
  intros W E T p i. unfold timer_at. rewrite E. destruct p as [|n p].
  - split; [discriminate|]. intro A. apply at_head in A as [q Q]; discriminate.
  - destruct (String.eqb_spec (td_name (tget (t_heap t) top)) n) as [<-|N].
    + symmetry. now apply at_walk.
    + split; [discriminate|]. intro A. apply at_head in A as [q Q]. injection Q; congruence.
Qed.

(** The stack agrees with the list of open timers. *)
Inductive stk (h : list tdata) (top : nat) : list nat -> list (string * Q) -> Prop :=
| stk_nil : stk h top [] []
| stk_cons i st n s o : stk h top st o -> td_name (tget h i) = n -> td_start (tget h i) = Some s ->
    node_at h top (open_path ((n, s) :: o)) i -> stk h top (i :: st) ((n, s) :: o).

Definition calls_at (h : list tdata) (top : nat) (s : tspec) : Prop :=
  (forall p i, node_at h top p i -> td_calls (tget h i) = ts_calls s p /\ (td_total (tget h i) == ts_secs s p)%Q) /\
  (forall p, (forall i, ~ node_at h top p i) -> ts_calls s p = 0 /\ (ts_secs s p == 0)%Q).

(** The simulation relation. *)
Inductive sim (t : timers) (s : tspec) : Prop :=
| sim_none : t_top t = None -> t_stack t = [] -> t_heap t = [] -> s = ts0 -> sim t s
| sim_some top (W : wfh (t_heap t)) (T : wft (t_heap t) top) (Et : t_top t = Some top)
    (En : ts_top s = Some (td_name (tget (t_heap t) top)))
    (St : stk (t_heap t) top (t_stack t) (ts_open s))
    (Ru : forall i, i < nH (t_heap t) -> td_start (tget (t_heap t) i) <> None -> In i (t_stack t))
    (Ca : calls_at (t_heap t) top s) : sim t s.

(** Changing only calls, total and start. *)
Definition same_shape (h h' : list tdata) : Prop :=
  nH h = nH h' /\ forall i, td_name (tget h' i) = td_name (tget h i) /\ td_children (tget h' i) = td_children (tget h i) /\
    td_parent (tget h' i) = td_parent (tget h i).

Lemma shape_at h h' top : same_shape h h' -> forall p i, node_at h top p i -> node_at h' top p i.
Proof.
  intros [L S] p i A; induction A as [|p i c A IH Hc].
  - destruct (S top) as [<- _]. constructor.
  - destruct (S c) as [<- _]. econstructor; eauto. now destruct (S i) as (_ & -> & _).
Qed.
Lemma shape_sym h h' : same_shape h h' -> same_shape h' h.
Proof. intros [L S]; split; auto. intro i; destruct (S i) as (-> & -> & ->); auto. Qed.
Lemma shape_wfh h h' : same_shape h h' -> wfh h -> wfh h'.
Proof.
  intros [L S] W. constructor.
  - intros i c Hi Hc. rewrite <- L in *. destruct (S i) as (_ & E & _). rewrite E in Hc.
    destruct (S c) as (_ & _ & ->). now apply (w_child _ W).
  - intros i Hi. rewrite <- L in *. destruct (S i) as (_ & E & _). rewrite E.
    rewrite (map_ext _ (fun c => td_name (tget h c))); [now apply (w_names _ W)|]. intro c; now destruct (S c).
Qed.
Lemma shape_wft h h' top : same_shape h h' -> wft h top -> wft h' top.
Proof. intros [L S] [T P]; split; [lia|]. now destruct (S top) as (_ & _ & ->). Qed.

Lemma shape_tset h i d : i < nH h -> td_name d = td_name (tget h i) -> td_children d = td_children (tget h i) ->
  td_parent d = td_parent (tget h i) -> same_shape h (tset h i d).
Proof.
  intros Hi N C P. split; [now rewrite tset_len|]. intro j. rewrite tget_tset by auto.
  destruct (Nat.eqb_spec j i) as [->|]; auto.
Qed.

Lemma stk_in h top st o : stk h top st o -> forall i, In i st -> td_start (tget h i) <> None.
Proof. induction 1; simpl; [tauto|]. intros j [<-|H']; auto. congruence. Qed.

Lemma stk_path h top st o : stk h top st o -> forall i, In i st -> exists p, node_at h top p i /\ List.length p <= List.length o.
Proof.
  induction 1; simpl; [tauto|]. intros j [<-|H'].
  - eexists; split; [eassumption|]. unfold open_path. rewrite rev_length, map_length. simpl; lia.
  - destruct (IHstk _ H') as (p & A & L). exists p; split; auto.
Qed.

Lemma path_len o : List.length (open_path o) = List.length o.
Proof. unfold open_path; now rewrite rev_length, map_length. Qed.

(** The innermost timer is not below in the stack. *)
Lemma stk_notin h top i st n s o : wfh h -> wft h top -> stk h top (i :: st) ((n, s) :: o) -> ~ In i st.
Proof.
  intros W T H Hin. inversion H as [|i' st' n' s' o' Hst HN HS HA]; subst.
  destruct (stk_path _ _ _ _ Hst _ Hin) as (p & A & L).
  assert (E := at_fun_path _ _ _ _ W T A _ HA). subst p. rewrite path_len in L. simpl in L. lia.
Qed.

Lemma stk_shape h h' top st o : same_shape h h' -> (forall i, In i st -> td_start (tget h' i) = td_start (tget h i)) ->
  stk h top st o -> stk h' top st o.
Proof.
  intros S E H. induction H as [|i st n s o H IH N Ss A]; constructor.
  - apply IH. intros; apply E; now right.
  - destruct S as [_ S]. now destruct (S i) as [-> _].
  - rewrite E; auto. now left.
  - eapply shape_at; eauto.
Qed.

Lemma path_eqb_true p q : path_eqb p q = true <-> p = q.
Proof. unfold path_eqb; destruct (list_eq_dec string_dec p q); split; congruence. Qed.
Lemma path_eqb_refl p : path_eqb p p = true.
Proof. now apply path_eqb_true. Qed.

(** Appending one child to a node. *)
Lemma NoDup_snoc {A} (l : list A) x : NoDup l -> ~ In x l -> NoDup (l ++ [x]).
Proof.
  induction l as [|a l IH]; simpl; intros N H; [constructor; auto; constructor|].
  inversion N; subst. constructor.
  - intro K. apply in_app_or in K as [K|[K|[]]]; auto.
  - apply IH; auto.
Qed.

Section AddChild.
Variables (h : list tdata) (top : nat).
Hypothesis (W : wfh h) (T : wft h top).
Variables (s : nat) (n : string).
Hypothesis (Hs : s < nH h) (Hn : forall c, In c (td_children (tget h s)) -> td_name (tget h c) <> n).
Let k := nH h.
Let h' := tset h s (add_child (tget h s) k) ++ [mkTd n 0 0 None (Some s) []].

Lemma ac_len : nH h' = S k.
Proof. unfold h'; rewrite app_length, tset_len; simpl; unfold k; lia. Qed.
Lemma ac_new : tget h' k = mkTd n 0 0 None (Some s) [].
Proof. unfold h', tget. rewrite app_nth2; rewrite tset_len; unfold k; [|lia]. now rewrite Nat.sub_diag. Qed.
Lemma ac_old i : i < k -> tget h' i = if Nat.eqb i s then add_child (tget h s) k else tget h i.
Proof. intro H; unfold h'. rewrite tget_app_old by (rewrite tset_len; auto). now apply tget_tset. Qed.
Lemma ac_name i : i < k -> td_name (tget h' i) = td_name (tget h i).
Proof. intro H; rewrite ac_old by auto. destruct (Nat.eqb_spec i s) as [->|]; auto. Qed.
Lemma ac_start i : i < k -> td_start (tget h' i) = td_start (tget h i).
Proof. intro H; rewrite ac_old by auto. destruct (Nat.eqb_spec i s) as [->|]; auto. Qed.
Lemma ac_par i : i < k -> td_parent (tget h' i) = td_parent (tget h i).
Proof. intro H; rewrite ac_old by auto. destruct (Nat.eqb_spec i s) as [->|]; auto. Qed.
Lemma ac_child i : i < k -> td_children (tget h' i) = if Nat.eqb i s then td_children (tget h s) ++ [k] else td_children (tget h i).
Proof. intro H; rewrite ac_old by auto. destruct (Nat.eqb_spec i s) as [->|]; auto. Qed.

Lemma ac_wfh : wfh h'.
Proof.
  constructor.
  - intros i c Hi Hc. rewrite ac_len in *. destruct (Nat.eq_dec i k) as [->|Ni].
    + rewrite ac_new in Hc. destruct Hc.
    + assert (Hi' : i < k) by lia. rewrite ac_child in Hc by auto.
      assert (Old : In c (td_children (tget h i)) -> i < c < S k /\ td_parent (tget h' c) = Some i).
      { intro H. destruct (w_child _ W i c Hi' H) as [L P]. fold k in L. split; [lia|]. rewrite ac_par by lia. auto. }
      destruct (Nat.eqb_spec i s) as [->|N]; [|auto].
      apply in_app_or in Hc as [Hc|[<-|[]]]; [auto|]. split; [unfold k in *; lia|]. now rewrite ac_new.
  - intros i Hi. rewrite ac_len in Hi. destruct (Nat.eq_dec i k) as [->|Ni].
    + rewrite ac_new. constructor.
    + assert (Hi' : i < k) by lia. rewrite ac_child by auto.
      assert (Ex : forall l, (forall c, In c l -> c < k) -> map (fun c => td_name (tget h' c)) l = map (fun c => td_name (tget h c)) l).
      { intros l Hl. apply map_ext_in. intros c Hc. apply ac_name; auto. }
      assert (Hlt : forall j, j < k -> forall c, In c (td_children (tget h j)) -> c < k).
      { intros j Hj c Hc. now apply (w_child _ W j c). }
      destruct (Nat.eqb_spec i s) as [->|N].
      * rewrite map_app, Ex by (now apply Hlt). simpl. rewrite ac_new. simpl.
        apply NoDup_snoc.
        ** now apply (w_names _ W).
        ** intro H. apply in_map_iff in H as (c & E & Hc). now apply (Hn c).
      * rewrite Ex by (now apply Hlt). now apply (w_names _ W).
Qed.

Lemma ac_wft : wft h' top.
Proof. destruct T as [L P]. split; [rewrite ac_len; unfold k; lia|]. now rewrite ac_par. Qed.

Lemma ac_at p i : node_at h top p i -> node_at h' top p i.
Proof.
  intro A. induction A as [|p i c A IH Hc].
  - destruct T as [L _]. rewrite <- ac_name by auto. constructor.
  - assert (Hi : i < nH h) by (eapply at_lt; eauto).
    destruct (w_child _ W i c Hi Hc) as [L _].
    rewrite <- ac_name by (unfold k; lia). apply at_child with i; auto.
    rewrite ac_child by auto. destruct (Nat.eqb_spec i s) as [->|]; auto. apply in_or_app; auto.
Qed.

Lemma ac_at_inv p i : node_at h' top p i ->
  node_at h top p i \/ (i = k /\ exists ps, node_at h top ps s /\ p = ps ++ [n]).
Proof.
  intro A. induction A as [|p i c A IH Hc].
  - left. destruct T as [L _]. rewrite ac_name by auto. constructor.
  - destruct IH as [B|(-> & _)].
    + assert (Hi : i < nH h) by (eapply at_lt; eauto).
      rewrite ac_child in Hc by auto.
      assert (Old : In c (td_children (tget h i)) -> node_at h top (p ++ [td_name (tget h' c)]) c).
      { intro H. destruct (w_child _ W i c Hi H) as [L _]. rewrite ac_name by (unfold k; lia). now apply at_child with i. }
      destruct (Nat.eqb_spec i s) as [->|]; [|left; auto].
      apply in_app_or in Hc as [Hc|[<-|[]]]; [left; auto|].
      right; split; auto. exists p; split; auto. now rewrite ac_new.
    + rewrite ac_new in Hc. destruct Hc.
Qed.
End AddChild.

(** Starting a timer that exists and is not running. *)
Lemma sim_start h top st s n i now :
  wfh h -> wft h top -> ts_top s = Some (td_name (tget h top)) -> stk h top st (ts_open s) ->
  (forall j, j < nH h -> td_start (tget h j) <> None -> In j st) -> calls_at h top s ->
  td_name (tget h i) = n -> node_at h top (open_path ((n, now) :: ts_open s)) i ->
  exists d, td_tic (tget h i) now = Ok d /\
    sim (mkTimers (tset h i d) (Some top) (i :: st))
        (mkTs (ts_top s) ((n, now) :: ts_open s) (bump (ts_calls s) (open_path ((n, now) :: ts_open s)) S) (ts_secs s)).
Proof.
  intros W T En St Ru Ca Ni A.
  assert (Hi : i < nH h) by (eapply at_lt; eauto).
  assert (Nin : ~ In i st).
  { intro Hin. destruct (stk_path _ _ _ _ St _ Hin) as (p & B & L).
    assert (E := at_fun_path _ _ _ _ W T B _ A). subst p. rewrite path_len in L. simpl in L. lia. }
  assert (Ns : td_start (tget h i) = None).
  { destruct (td_start (tget h i)) as [q|] eqn:E; auto. exfalso; apply Nin, Ru; auto. congruence. }
  unfold td_tic. rewrite Ns.
  set (d := mkTd _ _ _ _ _ _). exists d; split; auto.
  assert (Sh : same_shape h (tset h i d)) by (apply shape_tset; auto).
  assert (St' : stk (tset h i d) top st (ts_open s)).
  { apply stk_shape with h; auto. intros j Hj. rewrite tget_tset by auto.
    destruct (Nat.eqb_spec j i) as [->|]; auto. contradiction. }
  apply sim_some with top; cbn [t_heap t_top t_stack ts_top ts_open]; auto.
  - eapply shape_wfh; eauto.
  - eapply shape_wft; eauto.
  - rewrite En. f_equal. destruct Sh as [_ Sh]. now destruct (Sh top) as [-> _].
  - constructor; auto.
    + destruct Sh as [_ Sh]. now destruct (Sh i) as [-> _].
    + rewrite tget_tset, Nat.eqb_refl by auto. reflexivity.
    + eapply shape_at; eauto.
  - intros j Hj Sj. rewrite tset_len in Hj. rewrite tget_tset in Sj by auto.
    destruct (Nat.eqb_spec j i) as [->|]; [now left|right; auto].
  - destruct Ca as [C1 C2]. split.
    + intros p j B. apply (shape_at _ _ _ (shape_sym _ _ Sh)) in B.
      cbn [ts_calls ts_secs]. unfold bump. rewrite tget_tset by auto.
      destruct (C1 p j B) as [Cc Cs].
      destruct (Nat.eqb_spec j i) as [->|Nj].
      * rewrite (at_fun_path _ _ _ _ W T B _ A), path_eqb_refl.
        rewrite <- (at_fun_path _ _ _ _ W T B _ A). unfold d; cbn. now rewrite Cc.
      * destruct (path_eqb p _) eqn:E; auto. apply path_eqb_true in E. subst p.
        exfalso; apply Nj. eapply at_fun_node; eauto.
    + intros p Hp. cbn [ts_calls ts_secs]. unfold bump.
      assert (Hp' : forall j, ~ node_at h top p j) by (intros j B; apply (Hp j); eapply shape_at; eauto).
      destruct (path_eqb p _) eqn:E; [|now apply C2].
      apply path_eqb_true in E. subst p. exfalso; eapply Hp'; eauto.
Qed.

Lemma stk_ac h top st o s n : wfh h -> wft h top -> s < nH h -> stk h top st o ->
  stk (tset h s (add_child (tget h s) (nH h)) ++ [mkTd n 0 0 None (Some s) []]) top st o.
Proof.
  intros W T Hs H. induction H as [|i st m q o H IH N Ss A]; constructor; auto.
  - rewrite ac_name; auto. eapply at_lt; eauto.
  - rewrite ac_start; auto. eapply at_lt; eauto.
  - apply ac_at; auto.
Qed.

Lemma single_sim h n now : (forall j, j < nH h -> td_start (tget h j) = None) -> wfh h ->
  sim (mkTimers (tset (h ++ [mkTd n 0 0 None None []]) (nH h) (mkTd n 0 1 (Some now) None [])) (Some (nH h)) [nH h])
      (mkTs (Some n) [(n, now)] (bump (fun _ => 0) (open_path [(n, now)]) S) (fun _ => 0%Q)).
Proof.
  intros Ns W. set (h' := tset _ _ _). set (k := nH h).
  assert (L : nH h' = S k) by (unfold h'; rewrite tset_len, app_length; simpl; unfold k; lia).
  assert (Gn : tget h' k = mkTd n 0 1 (Some now) None []).
  { unfold h'. rewrite tget_tset by (rewrite app_length; simpl; lia). unfold k. now rewrite Nat.eqb_refl. }
  assert (Go : forall j, j < k -> tget h' j = tget h j).
  { intros j Hj. unfold h'. rewrite tget_tset by (rewrite app_length; simpl; lia).
    destruct (Nat.eqb_spec j (nH h)); [unfold k in *; lia|]. now apply tget_app_old. }
  assert (W' : wfh h').
  { constructor.
    - intros i c Hi Hc. rewrite L in *. destruct (Nat.eq_dec i k) as [->|]; [rewrite Gn in Hc; destruct Hc|].
      rewrite Go in Hc by lia. destruct (w_child _ W i c) as [B P]; auto; [unfold k in *; lia|].
      split; [unfold k in *; lia|]. rewrite Go; auto. now unfold k.
    - intros i Hi. rewrite L in *. destruct (Nat.eq_dec i k) as [->|]; [rewrite Gn; constructor|].
      rewrite Go by lia. erewrite map_ext_in; [apply (w_names _ W i); unfold k in *; lia|].
      intros c Hc. cbn beta. rewrite Go; auto. apply (w_child _ W i c); auto. unfold k in *; lia. }
  assert (At : forall p i, node_at h' k p i -> p = [n] /\ i = k).
  { intros p i A. induction A as [|p i c A [-> ->] Hc]; [rewrite Gn; auto|]. rewrite Gn in Hc. destruct Hc. }
  assert (A0 : node_at h' k [n] k).
  { replace [n] with [td_name (tget h' k)] by now rewrite Gn. constructor. }
  apply sim_some with k; cbn [t_heap t_top t_stack ts_top ts_open]; auto.
  - split; [lia|]. now rewrite Gn.
  - now rewrite Gn.
  - constructor; [constructor| | |]; rewrite ?Gn; auto.
  - intros j Hj Sj. destruct (Nat.eq_dec j k) as [->|]; [now left|]. exfalso; apply Sj.
    rewrite Go by lia. apply Ns. unfold k in *; lia.
  - split.
    + intros p i A. apply At in A as [-> ->]. rewrite Gn. cbn. split; [|reflexivity].
      unfold bump. now rewrite path_eqb_refl.
    + intros p Hp. cbn [ts_calls ts_secs]. split; [|reflexivity]. unfold bump.
      destruct (path_eqb p _) eqn:E; auto. apply path_eqb_true in E. subst p. exfalso; now apply (Hp k).
Qed.

Lemma stk_nil_iff h top st o : stk h top st o -> (st = [] <-> o = []).
Proof. intros H; inversion H; subst; split; congruence. Qed.

(** Starting a timer never raises and agrees with the log. *)
Lemma sim_tic t s n now : sim t s -> exists t' s', timers_tic t n now = Ok t' /\ ts_call s (CTic n now) = Some s' /\ sim t' s'.
Proof.
  intros Sm. destruct Sm as [E1 E2 E3 E4|top W T Et En St Ru Ca].
  - subst s. unfold timers_tic, tic_find. rewrite E1, E2, E3. cbn.
    do 2 eexists; split; [reflexivity|split; [reflexivity|]].
    apply (single_sim [] n now); [simpl; lia|]. constructor; simpl; intros; lia.
  - unfold timers_tic, tic_find. destruct (t_stack t) as [|x st] eqn:Es.
    + assert (Eo : ts_open s = []) by (now apply (stk_nil_iff _ _ _ _ St)).
      rewrite Et. unfold ts_call. rewrite Eo, En.
      destruct (String.eqb_spec (td_name (tget (t_heap t) top)) n) as [E|N].
      * cbn [fst snd]. rewrite Eo, En.
        destruct (sim_start (t_heap t) top [] s n top now) as (d & Ed & S'); auto.
        { rewrite Eo. unfold open_path; simpl. rewrite <- E. constructor. }
        rewrite Ed. cbn [bind]. do 2 eexists; split; [reflexivity|split; [reflexivity|]].
        rewrite Eo, En in S'. exact S'.
      * cbn [ts0 ts_top ts_open ts_calls ts_secs]. cbn [bind].
        rewrite tget_app_new. cbn [td_tic td_start td_name td_total td_calls td_parent td_children bind].
        do 2 eexists; split; [reflexivity|split; [reflexivity|]].
        apply single_sim; auto. intros j Hj. destruct (td_start (tget (t_heap t) j)) eqn:Ej; auto.
        exfalso. apply (Ru j Hj). congruence.
    + unfold ts_call. destruct (ts_open s) as [|[m q] o] eqn:Eo.
      { exfalso. destruct (stk_nil_iff _ _ _ _ St) as [_ K]. now specialize (K eq_refl). }
      rewrite En. assert (Hx : x < nH (t_heap t)) by (inversion St; subst; eapply at_lt; eauto).
      assert (Ax : node_at (t_heap t) top (open_path ((m, q) :: o)) x) by (inversion St; subst; auto).
      destruct (get_child (t_heap t) x n) as [c|] eqn:Eg.
      * apply get_child_some in Eg as [Hc Nc].
        destruct (sim_start (t_heap t) top (x :: st) s n c now) as (d & Ed & S'); auto.
        { now rewrite Eo. }
        { rewrite Eo. unfold open_path. simpl. rewrite <- Nc. apply at_child with x; auto. }
        rewrite Ed. cbn [bind]. do 2 eexists; split; [reflexivity|split; [reflexivity|]].
        rewrite Eo, En in S'. rewrite Et, ?Eo. exact S'.
      * assert (Hn := get_child_none _ _ _ Eg).
        set (h' := tset (t_heap t) x _ ++ _). cbn iota.
        destruct (sim_start h' top (x :: st) s n (nH (t_heap t)) now) as (d & Ed & S').
        { apply ac_wfh; auto. }
        { apply ac_wft; auto. }
        { rewrite En. f_equal. symmetry. apply ac_name; auto. apply T. }
        { rewrite Eo. apply stk_ac; auto. }
        { intros j Hj Sj. unfold h' in Hj. rewrite ac_len in Hj by auto. destruct (Nat.eq_dec j (nH (t_heap t))) as [->|].
          { unfold h' in Sj. rewrite ac_new in Sj by auto. cbn in Sj. congruence. }
          unfold h' in Sj. rewrite ac_start in Sj by lia. apply Ru; auto; lia. }
        { destruct Ca as [C1 C2]. split.
          { intros p i A. apply ac_at_inv in A; auto. destruct A as [A|(-> & ps & B & ->)].
            + assert (Hi : i < nH (t_heap t)) by (eapply at_lt; eauto). destruct (C1 _ _ A) as [Cc Cs].
              unfold h'. rewrite ac_old by auto. destruct (Nat.eqb_spec i x) as [->|]; auto.
            + unfold h'. rewrite ac_new by auto. cbn. destruct (C2 (ps ++ [n])) as [-> ->]; auto; [|split; reflexivity].
              intros i A. inversion A as [E|p' i' c' A' Hc' E]; subst.
              * destruct ps as [|y ps]; [inversion B|]; try (destruct p; discriminate). destruct ps; discriminate.
              * apply app_inj_tail in E as [-> E].
                rewrite <- (at_fun_node _ _ _ _ W T B _ A') in Hc'. now apply (Hn i). }
          { intros p Hp. apply C2. intros i A. apply (Hp i). apply ac_at; auto. } }
        { unfold h'. rewrite ac_new by auto; reflexivity. }
        { rewrite Eo. unfold open_path; simpl. 
          replace [n] with [td_name (tget h' (nH (t_heap t)))] by (unfold h'; rewrite ac_new by auto; reflexivity).
          apply at_child with x; [apply ac_at; auto|].
          unfold h'. rewrite ac_child by auto. rewrite Nat.eqb_refl. apply in_or_app; right; now left. }
        rewrite Ed. cbn [bind]. do 2 eexists; split; [reflexivity|split; [reflexivity|]].
        rewrite Eo, En in S'. rewrite Et, ?Eo. exact S'.
Qed.

(** Stopping: succeeds exactly when the log accepts it. *)
Lemma sim_toc t s n now : sim t s ->
  match ts_call s (CToc n now) with
  | Some s' => exists t', timers_toc t n now = Ok t' /\ sim t' s'
  | None => timers_toc t n now = Err (match t_stack t with [] => EIndex | _ => EAssert end)
  end.
Proof.
  intros Sm. destruct Sm as [E1 E2 E3 E4|top W T Et En St Ru Ca].
  - subst s. cbn. unfold timers_toc. now rewrite E2.
  - unfold timers_toc, ts_call. destruct (t_stack t) as [|x st] eqn:Es; destruct (ts_open s) as [|[m q] o] eqn:Eo;
      try (inversion St; fail); auto.
    assert (Nin : ~ In x st) by (eapply stk_notin; eauto).
    inversion St as [|x' st' m' q' o' St' Nx Sx Ax]; subst. set (m := td_name (tget (t_heap t) x)) in *.
    destruct (String.eqb_spec m n) as [E|N]; [|reflexivity].
    cbn [assert bind]. unfold td_toc. rewrite Sx. cbn [bind]. set (d := mkTd _ _ _ _ _ _).
    eexists; split; [reflexivity|].
    assert (Hx : x < nH (t_heap t)) by (eapply at_lt; eauto).
    assert (Sh : same_shape (t_heap t) (tset (t_heap t) x d)) by (apply shape_tset; auto).
    apply sim_some with top; cbn [t_heap t_top t_stack ts_top ts_open]; auto.
    + eapply shape_wfh; eauto.
    + eapply shape_wft; eauto.
    + rewrite En. f_equal. destruct Sh as [_ Sh]. now destruct (Sh top) as [-> _].
    + apply stk_shape with (t_heap t); auto. intros j Hj. rewrite tget_tset by auto.
      destruct (Nat.eqb_spec j x) as [->|]; auto. contradiction.
    + intros j Hj Sj. rewrite tset_len in Hj. rewrite tget_tset in Sj by auto.
      destruct (Nat.eqb_spec j x) as [->|Nj]; [now cbn in Sj|]. destruct (Ru j Hj Sj); auto. congruence.
    + destruct Ca as [C1 C2]. split.
      * intros p j B. apply (shape_at _ _ _ (shape_sym _ _ Sh)) in B.
        cbn [ts_calls ts_secs]. unfold bump. rewrite tget_tset by auto.
        destruct (C1 p j B) as [Cc Cs].
        destruct (Nat.eqb_spec j x) as [->|Nj].
        ** rewrite (at_fun_path _ _ _ _ W T B _ Ax), path_eqb_refl.
           rewrite <- (at_fun_path _ _ _ _ W T B _ Ax). unfold d; cbn. now rewrite Cs.
        ** destruct (path_eqb p _) eqn:E'; auto. apply path_eqb_true in E'. subst p.
           exfalso; apply Nj. eapply at_fun_node; eauto.
      * intros p Hp. cbn [ts_calls ts_secs]. unfold bump.
        assert (Hp' : forall j, ~ node_at (t_heap t) top p j) by (intros j B; apply (Hp j); eapply shape_at; eauto).
        destruct (path_eqb p _) eqn:E'; [|now apply C2].
        apply path_eqb_true in E'. subst p. exfalso; eapply Hp'; eauto.
Qed.

Lemma sim0 : sim timers0 ts0.
Proof. now apply sim_none. Qed.

(** The objects do exactly what the log says, and raise exactly when the log rejects a call. *)
Lemma sim_run l : forall t s, sim t s ->
  match ts_run s l with
  | Some s' => exists t', timers_run t l = Ok t' /\ sim t' s'
  | None => timers_run t l = Err EIndex \/ timers_run t l = Err EAssert
  end.
Proof.
  induction l as [|c l IH]; intros t s Sm; [simpl; eauto|].
  cbn [timers_run ts_run]. destruct c as [n now|n now|].
  - destruct (sim_tic t s n now Sm) as (t' & s' & E & E' & Sm'). rewrite E'. cbn [timers_call]. rewrite E. cbn [bind]. now apply IH.
  - assert (H := sim_toc t s n now Sm). destruct (ts_call s (CToc n now)) as [s'|]; cbn [timers_call].
    + destruct H as (t' & E & Sm'). rewrite E. cbn [bind]. now apply IH.
    + rewrite H. cbn [bind]. destruct (t_stack t); auto.
  - cbn [ts_call timers_call bind]. apply IH, sim0.
Qed.

Lemma stk_map h top st o : stk h top st o ->
  map (fun i => (td_name (tget h i), td_start (tget h i))) st = map (fun e => (fst e, Some (snd e))) o.
Proof. induction 1 as [|i st n s o H IH N Ss A]; cbn [map fst snd]; auto. now rewrite IH, N, Ss. Qed.

Lemma sim_stack t s : sim t s ->
  map (fun i => (td_name (tget (t_heap t) i), td_start (tget (t_heap t) i))) (t_stack t) = map (fun e => (fst e, Some (snd e))) (ts_open s).
Proof.
  intros [E1 E2 E3 E4|top W T Et En St Ru Ca]; [subst s; now rewrite E2|].
  eapply stk_map; eauto.
Qed.

Lemma sim_top t s i : sim t s -> t_top t = Some i -> wfh (t_heap t) /\ wft (t_heap t) i /\
  (forall p j, timer_at t p = Some j <-> node_at (t_heap t) i p j).
Proof.
  intros [E1 E2 E3 E4|top W T Et En St Ru Ca] E; [congruence|]. assert (top = i) by congruence. subst top.
  split; auto; split; auto. now apply timer_at_spec.
Qed.

Lemma sim_lookup t s p : sim t s ->
  match timer_at t p with
  | Some i => td_calls (tget (t_heap t) i) = ts_calls s p /\ (td_total (tget (t_heap t) i) == ts_secs s p)%Q
  | None => ts_calls s p = 0 /\ (ts_secs s p == 0)%Q
  end.
Proof.
  intros [E1 E2 E3 E4|top W T Et En St Ru [C1 C2]].
  - subst s. unfold timer_at. rewrite E1. split; reflexivity.
  - assert (K := timer_at_spec t top W Et T p). destruct (timer_at t p) as [i|].
    + apply C1. now apply K.
    + apply C2. intros i A. apply K in A. discriminate.
Qed.

(** ** Seconds *)
Fixpoint run_time (now : Q) (o : list (string * Q)) (p : list string) : Q :=
  match o with
  | [] => 0
  | (n, s) :: r => if path_eqb p (open_path o) then (now - s)%Q else run_time now r p
  end.
Fixpoint ind (o : list (string * Q)) (p : list string) : Q :=
  match o with
  | [] => 0
  | (n, s) :: r => if path_eqb p (open_path o) then 1%Q else ind r p
  end.
Definition el (now : Q) (s : tspec) (p : list string) : Q := (ts_secs s p + run_time now (ts_open s) p)%Q.

Definition SI (now : Q) (s : tspec) : Prop :=
  forall p ns, p <> [] -> NoDup ns -> (qsum (map (fun n => el now s (p ++ [n])) ns) <= el now s p)%Q.

Lemma path_eqb_len p q : List.length p <> List.length q -> path_eqb p q = false.
Proof. intro H. destruct (path_eqb p q) eqn:E; auto. apply path_eqb_true in E. congruence. Qed.

Lemma ind_long o : forall p, List.length o < List.length p -> ind o p = 0%Q /\ forall now, run_time now o p = 0%Q.
Proof.
  induction o as [|[n s] r IH]; intros p H; cbn [ind run_time]; auto.
  rewrite path_eqb_len by (rewrite path_len; simpl in *; lia). apply IH. simpl in H; lia.
Qed.

Lemma ind_bound o : forall p, (0 <= ind o p)%Q /\ (ind o p <= 1)%Q.
Proof.
  induction o as [|[n s] r IH]; intro p; cbn [ind]; [split; discriminate|].
  destruct (path_eqb p _); [split; discriminate|auto].
Qed.

Lemma run_advance o now now' : forall p, (run_time now' o p == run_time now o p + (now' - now) * ind o p)%Q.
Proof.
  induction o as [|[n s] r IH]; intro p; cbn [ind run_time]; [ring|].
  destruct (path_eqb p _); [ring|auto].
Qed.

Lemma qsum_ext {A} (f g : A -> Q) l : (forall x, In x l -> f x == g x)%Q -> (qsum (map f l) == qsum (map g l))%Q.
Proof. induction l as [|a l IH]; simpl; intro H; [reflexivity|]. rewrite (H a), IH; auto; reflexivity. Qed.
Lemma qsum_lin {A} (f g : A -> Q) k l : (qsum (map (fun x => f x + k * g x) l) == qsum (map f l) + k * qsum (map g l))%Q.
Proof. induction l as [|a l IH]; simpl; [ring|]. rewrite IH. ring. Qed.
Lemma qsum_zero {A} (f : A -> Q) l : (forall x, In x l -> f x == 0)%Q -> (qsum (map f l) == 0)%Q.
Proof. induction l as [|a l IH]; simpl; intro H; [reflexivity|]. rewrite (H a), IH; auto; reflexivity. Qed.

Lemma open_path_cons n s r : open_path ((n, s) :: r) = open_path r ++ [n].
Proof. reflexivity. Qed.

Lemma ind_sum o : forall p ns, p <> [] -> NoDup ns -> (qsum (map (fun n => ind o (p ++ [n])) ns) <= ind o p)%Q.
Proof.
  induction o as [|[m s] r IH]; intros p ns Hp N.
  - cbn [ind]. rewrite qsum_zero by reflexivity. apply Qle_refl.
  - destruct (list_eq_dec string_dec (open_path r) p) as [E|NE].
    + assert (L : List.length r = List.length p) by (rewrite <- E; symmetry; apply path_len).
      assert (H1 : (ind ((m, s) :: r) p == 1)%Q).
      { cbn [ind]. rewrite path_eqb_len by (rewrite path_len; simpl; lia).
        destruct r as [|[m' s'] r']; [destruct p; [congruence|discriminate]|].
        cbn [ind]. rewrite E, path_eqb_refl. reflexivity. }
      rewrite H1. clear H1 IH.
      assert (F : forall n, ind ((m, s) :: r) (p ++ [n]) = if string_dec n m then 1%Q else 0%Q).
      { intro n. cbn [ind]. rewrite open_path_cons, E. destruct (string_dec n m) as [->|Nn].
        - now rewrite path_eqb_refl.
        - destruct (path_eqb (p ++ [n]) (p ++ [m])) eqn:K.
          + apply path_eqb_true, app_inj_tail in K as [_ K]. congruence.
          + apply ind_long. rewrite app_length; simpl; lia. }
      rewrite (qsum_ext _ (fun n => if string_dec n m then 1%Q else 0%Q)) by (intros; now rewrite F).
      clear F. induction ns as [|n ns IHn]; [discriminate|].
      inversion N as [|? ? Nn N']; subst. cbn [map qsum]. destruct (string_dec n m) as [->|].
      * rewrite qsum_zero; [discriminate|]. intros x Hx. destruct (string_dec x m); [congruence|reflexivity].
      * rewrite Qplus_0_l. auto.
    + apply Qle_trans with (ind r p).
      * rewrite (qsum_ext _ (fun n => ind r (p ++ [n]))); [now apply IH|].
        intros n _. cbn [ind]. rewrite open_path_cons.
        destruct (path_eqb (p ++ [n]) (open_path r ++ [m])) eqn:K; [|reflexivity].
        apply path_eqb_true, app_inj_tail in K as [K _]. congruence.
      * cbn [ind]. destruct (path_eqb p _); [apply ind_bound|apply Qle_refl].
Qed.

Lemma SI_advance now now' s : (now <= now')%Q -> SI now s -> SI now' s.
Proof.
  intros L H p ns Hp N.
  rewrite (qsum_ext _ (fun n => (el now s (p ++ [n]) + (now' - now) * ind (ts_open s) (p ++ [n]))%Q)).
  2:{ intros n _. unfold el. rewrite (run_advance _ now now'). ring. }
  rewrite (qsum_lin (fun n => el now s (p ++ [n])) (fun n => ind (ts_open s) (p ++ [n]))).
  assert (E : (el now' s p == el now s p + (now' - now) * ind (ts_open s) p)%Q).
  { unfold el. rewrite (run_advance _ now now'). ring. }
  rewrite E. apply Qplus_le_compat; [now apply H|].
  rewrite !(Qmult_comm (now' - now)). apply Qmult_le_compat_r; [now apply ind_sum|].
  now apply Qle_minus_iff in L.
Qed.

Lemma SI_ext now s s' : (forall p, el now s p == el now s' p)%Q -> SI now s -> SI now s'.
Proof.
  intros E H p ns Hp N. rewrite <- (E p).
  rewrite (qsum_ext _ (fun n => el now s (p ++ [n]))); [now apply H|]. intros; symmetry; apply E.
Qed.

Lemma SI0 now : SI now ts0.
Proof. intros p ns _ _. rewrite qsum_zero by (intros; reflexivity). discriminate. Qed.

Lemma el_tic now s n s' : ts_call s (CTic n now) = Some s' -> SI now s -> SI now s'.
Proof.
  unfold ts_call. intros E H.
  set (s1 := match ts_open s with [] => _ | _ => _ end) in E.
  assert (H1 : SI now s1).
  { unfold s1. destruct (ts_open s); [|exact H]. destruct (ts_top s) as [m|]; [|exact H].
    destruct (String.eqb m n); [exact H|apply SI0]. }
  injection E as <-. apply SI_ext with s1; auto. intro p. unfold el. cbn [ts_secs ts_open run_time].
  destruct (path_eqb p _) eqn:K; [|reflexivity]. apply path_eqb_true in K. subst p.
  destruct (ind_long (ts_open s1) (open_path ((n, now) :: ts_open s1))) as [_ R]; [rewrite path_len; simpl; lia|].
  rewrite R. ring.
Qed.

Lemma el_toc now s n s' : ts_call s (CToc n now) = Some s' -> SI now s -> SI now s'.
Proof.
  unfold ts_call. intros E H. destruct (ts_open s) as [|[m q] o] eqn:Eo; [discriminate|].
  destruct (String.eqb m n); [|discriminate]. injection E as <-.
  apply SI_ext with s; auto. intro p. unfold el. cbn [ts_secs ts_open]. rewrite Eo. cbn [run_time].
  unfold bump. destruct (path_eqb p (open_path ((m, q) :: o))) eqn:K; [|reflexivity].
  apply path_eqb_true in K. subst p.
  destruct (ind_long o (open_path ((m, q) :: o))) as [_ R]; [rewrite path_len; simpl; lia|].
  rewrite R. ring.
Qed.

Lemma SI_run l : forall now s s', clock_ok now l -> SI now s -> ts_run s l = Some s' ->
  exists now', (now <= now')%Q /\ SI now' s'.
Proof.
  induction l as [|c l IH]; intros now s s' C H R.
  - injection R as <-. exists now; split; [apply Qle_refl|auto].
  - cbn [ts_run] in R. destruct (ts_call s c) as [s1|] eqn:E; [|discriminate]. destruct c as [n a|n a|]; cbn [clock_ok] in C.
    + destruct C as [L C]. destruct (IH a s1 s' C) as (b & Lb & Hb); auto.
      * eapply el_tic; eauto. eapply SI_advance; eauto.
      * exists b; split; auto. eapply Qle_trans; eauto.
    + destruct C as [L C]. destruct (IH a s1 s' C) as (b & Lb & Hb); auto.
      * eapply el_toc; eauto. eapply SI_advance; eauto.
      * exists b; split; auto. eapply Qle_trans; eauto.
    + injection E as <-. apply (IH now ts0 s'); auto. apply SI0.
Qed.

Lemma run_time_closed o p now : (forall o1 o2, o = o1 ++ o2 -> o2 <> [] -> p <> open_path o2) -> run_time now o p = 0%Q.
Proof.
  induction o as [|[n s] r IH]; intro H; cbn [run_time]; auto.
  destruct (path_eqb p _) eqn:K.
  - apply path_eqb_true in K. exfalso. apply (H [] ((n, s) :: r)); auto. discriminate.
  - apply IH. intros o1 o2 -> N. apply (H ((n, s) :: o1) o2); auto.
Qed.

(** Well nested sequences are accepted and leave the open timers as they were. *)
Lemma ts_run_app l1 l2 : forall s, ts_run s (l1 ++ l2) = match ts_run s l1 with Some s' => ts_run s' l2 | None => None end.
Proof. induction l1 as [|c l IH]; intro s; simpl; auto. destruct (ts_call s c); auto. Qed.

Lemma nested_ok l : nested l -> forall s, exists s', ts_run s l = Some s' /\ ts_open s' = ts_open s.
Proof.
  induction 1 as [|n a b body rest Hb IHb Hr IHr]; intro s; [simpl; eauto|].
  cbn [ts_run]. destruct (ts_call s (CTic n a)) as [s1|] eqn:E1; [|discriminate].
  assert (O1 : ts_open s1 = (n, a) :: ts_open s).
  { unfold ts_call in E1. injection E1 as <-. cbn [ts_open].
    destruct (ts_open s) eqn:Eo; [|rewrite Eo; reflexivity]. f_equal.
    destruct (ts_top s); [|exact Eo]. destruct (String.eqb s0 n); [exact Eo|reflexivity]. }
  rewrite ts_run_app. destruct (IHb s1) as (s2 & E2 & O2). rewrite E2. cbn [ts_run ts_call].
  rewrite O2, O1, String.eqb_refl. 
  match goal with |- context [ts_run ?x rest] => destruct (IHr x) as (s4 & E4 & O4) end.
  exists s4; split; auto.
Qed.

Fixpoint starts (l : list tcall) : nat :=
  match l with [] => 0 | CTic _ _ :: l' => S (starts l') | _ :: l' => starts l' end.

Lemma stk_open h top st o : wfh h -> wft h top -> stk h top st o -> forall o1 o2, o = o1 ++ o2 -> o2 <> [] ->
  forall i, node_at h top (open_path o2) i -> td_start (tget h i) <> None.
Proof.
  intros W T H. induction H as [|i st n s o H IH N Ss A]; intros o1 o2 E Ne j B.
  - destruct o1; [|discriminate]. destruct o2; [congruence|discriminate].
  - destruct o1 as [|e o1]; cbn [app] in E.
    + subst o2. assert (K := at_fun_node _ _ _ _ W T B _ A). rewrite K. congruence.
    + assert (E' : o = o1 ++ o2) by congruence. eapply IH; eauto.
Qed.

Lemma children_secs t s p i now : sim t s -> SI now s -> timer_at t p = Some i -> td_start (tget (t_heap t) i) = None ->
  (qsum (map (fun c => td_total (tget (t_heap t) c)) (td_children (tget (t_heap t) i))) <= td_total (tget (t_heap t) i))%Q.
Proof.
  intros Sm I A Ns. destruct Sm as [E1 E2 E3 E4|top W T Et En St Ru Ca].
  { unfold timer_at in A. rewrite E1 in A. discriminate. }
  apply (timer_at_spec t top W Et T) in A. destruct Ca as [C1 C2].
  assert (Hi : i < nH (t_heap t)) by (eapply at_lt; eauto).
  assert (Cl : forall o1 o2, ts_open s = o1 ++ o2 -> o2 <> [] -> p <> open_path o2).
  { intros o1 o2 E Ne ->. eapply (stk_open _ _ _ _ W T St); eauto. }
  assert (Np : p <> []) by (destruct (at_head _ _ _ _ A) as [q ->]; discriminate).
  assert (H := I p (map (fun c => td_name (tget (t_heap t) c)) (td_children (tget (t_heap t) i))) Np (w_names _ W i Hi)).
  unfold el at 2 in H. rewrite run_time_closed in H by exact Cl. rewrite Qplus_0_r in H.
  destruct (C1 p i A) as [_ ->]. eapply Qle_trans; [|exact H].
  rewrite map_map. apply Qle_lteq; right. apply qsum_ext. intros c Hc. unfold el.
  destruct (C1 _ _ (at_child _ _ p i c A Hc)) as [_ ->].
  rewrite run_time_closed; [ring|].
  intros o1 o2 E Ne K. destruct o2 as [|[m q] o2]; [congruence|]. rewrite open_path_cons in K.
  apply app_inj_tail in K as [K _]. apply (Cl (o1 ++ [(m, q)]) o2); auto.
  - now rewrite <- app_assoc.
  - intros ->. now apply Np.
Qed.
