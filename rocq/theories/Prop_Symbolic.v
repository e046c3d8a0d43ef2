(** C31 and C32: matrices and conditions built from symbolic expressions. *)
From Coq Require Import Ascii.
From Verif Require Import Base Symbolic SetFacts2.
Open Scope nat_scope.

(** * Specification *)

(** The value of an expression under a valuation of the symbols; [other] gives the meaning of everything else. *)
Section Den.
Variable other : nat -> (string -> Q) -> Q.
Fixpoint den (v : string -> Q) (e : sexpr) : Q :=
  match e with
  | SNum q => q
  | SSym n => v n
  | SAdd l => (fix go l := match l with [] => 0 | a :: r => den v a + go r end)%Q l
  | SMul l => (fix go l := match l with [] => 1 | a :: r => den v a * go r end)%Q l
  | SOther k => other k v
  end.
End Den.

(** The state vector of a valuation: the variables in order, then the affine variable, which is always 1. *)
Definition point (vars : list string) (v : string -> Q) : vec :=
  fun i => match nth_error vars i with Some n => v n | None => 1%Q end.

(** Linear expressions: sums of numbers (not 0 only with an affine variable), variables and number * variable. *)
Inductive linear (vars : list string) (affine : bool) : sexpr -> Prop :=
| lin_zero q : (q == 0)%Q -> linear vars affine (SNum q)
| lin_num q : affine = true -> linear vars affine (SNum q)
| lin_sym n : In n vars -> linear vars affine (SSym n)
| lin_mul_l q n : In n vars -> linear vars affine (SMul [SNum q; SSym n])
| lin_mul_r q n : In n vars -> linear vars affine (SMul [SSym n; SNum q])
| lin_add l : l <> [] -> Forall (linear vars affine) l -> linear vars affine (SAdd l).

(** * Proofs *)
Lemma sexpr_ind2 (P : sexpr -> Prop) :
  (forall q, P (SNum q)) -> (forall n, P (SSym n)) -> (forall l, Forall P l -> P (SAdd l)) ->
  (forall l, Forall P l -> P (SMul l)) -> (forall k, P (SOther k)) -> forall e, P e.
Proof.
  intros H1 H2 H3 H4 H5. fix IH 1. intros [q|n|l|l|k].
  - apply H1.
  - apply H2.
  - apply H3. induction l as [|a l IHl]; constructor; [apply IH|exact IHl].
  - apply H4. induction l as [|a l IHl]; constructor; [apply IH|exact IHl].
  - apply H5.
Qed.

Fixpoint extract_all (vars : list string) (affine : bool) (l : list sexpr) (rv : list Q) : res (list Q) :=
  match l with [] => Ok rv | a :: l' => do rv' <- extract_rec vars affine a rv; extract_all vars affine l' rv' end.

Lemma extract_add vars affine a l rv : extract_rec vars affine (SAdd (a :: l)) rv = extract_all vars affine (a :: l) rv.
Proof.
  assert (G : forall m rv, (fix go (l : list sexpr) (rv : list Q) {struct l} : res (list Q) :=
         match l with
         | [] => Ok rv
         | a :: l' => do rv' <- extract_rec vars affine a rv; go l' rv'
         end) m rv = extract_all vars affine m rv).
  { induction m as [|b m IH]; intro r; cbn [extract_all]; auto.
    destruct (extract_rec vars affine b r); cbn [bind]; auto. }
  exact (G (a :: l) rv).
Qed.

Lemma add_at_len l i k : List.length (add_at l i k) = List.length l.
Proof. revert i; induction l as [|a l IH]; intros [|i]; cbn; auto. Qed.

Lemma add_at_dot l : forall i k off x, i < List.length l -> (ldot (add_at l i k) off x == ldot l off x + k * x (off + i)%nat)%Q.
Proof.
  induction l as [|a l IH]; intros i k off x H; [cbn in H; lia|]. destruct i as [|i]; cbn [add_at ldot].
  - rewrite Nat.add_0_r. ring.
  - rewrite IH by (cbn in H; lia). replace (S off + i) with (off + S i) by lia. ring.
Qed.

Lemma index_some n l : forall i, index_of n l = Some i -> i < List.length l /\ nth_error l i = Some n.
Proof.
  induction l as [|m l IH]; intros i H; [discriminate|]. cbn in H. destruct (String.eqb_spec m n) as [->|].
  - injection H as <-. split; [cbn; lia|reflexivity].
  - destruct (index_of n l) as [j|]; [|discriminate]. injection H as <-. destruct (IH j eq_refl). cbn. split; [lia|auto].
Qed.
Lemma index_in n l : In n l -> exists i, index_of n l = Some i.
Proof.
  induction l as [|m l IH]; [intros []|]. cbn. destruct (String.eqb_spec m n) as [->|N]; [eauto|].
  intros [->|H]; [congruence|]. destruct (IH H) as [i ->]. eexists; reflexivity.
Qed.
Lemma index_none n l i : index_of n l = Some i -> In n l.
Proof. intro H. apply index_some in H as [_ H]. eapply nth_error_In; eauto. Qed.

Definition width (vars : list string) (affine : bool) : nat := List.length vars + (if affine then 1 else 0).

Section Extract.
Variables (other : nat -> (string -> Q) -> Q) (vars : list string) (affine : bool).
Notation den := (den other).

Lemma extract_rec_ok e : forall rv, List.length rv = width vars affine -> linear vars affine e ->
  exists rv', extract_rec vars affine e rv = Ok rv' /\ List.length rv' = width vars affine /\
    forall v, (ldot rv' 0 (point vars v) == ldot rv 0 (point vars v) + den v e)%Q.
Proof.
  assert (Vp : forall n i v, index_of n vars = Some i -> point vars v i = v n).
  { intros n i v H. apply index_some in H as [_ H]. unfold point. now rewrite H. }
  assert (Var : forall n q rv, In n vars -> List.length rv = width vars affine ->
     exists i, index_of n vars = Some i /\ List.length (add_at rv i q) = width vars affine /\
       forall v, (ldot (add_at rv i q) 0 (point vars v) == ldot rv 0 (point vars v) + q * v n)%Q).
  { intros n q rv Hn L. destruct (index_in _ _ Hn) as [i Ei]. exists i. split; auto. split; [now rewrite add_at_len|].
    intro v. rewrite add_at_dot; [|apply index_some in Ei as [Ei _]; unfold width in L; lia].
    cbn [plus]. now rewrite (Vp n i v Ei). }
  induction e as [q|n|l IHl|l IHl|k] using sexpr_ind2; intros rv L Li.
  - cbn [extract_rec]. destruct (Qeq_bool q 0) eqn:E.
    + apply Qeq_bool_iff in E. exists rv; split; auto; split; auto. intro v. cbn [Prop_Symbolic.den]. rewrite E. ring.
    + inversion Li; subst.
      { exfalso. apply Qeq_bool_neq in E. auto. }
      cbn [negb]. eexists; split; [reflexivity|]. split; [now rewrite add_at_len|]. intro v.
      unfold width in L. rewrite add_at_dot by lia. cbn [plus Prop_Symbolic.den].
      replace (List.length rv - 1) with (List.length vars) by lia.
      assert (P : point vars v (List.length vars) = 1%Q).
      { unfold point. assert (K : nth_error vars (List.length vars) = None) by (apply nth_error_None; lia). now rewrite K. }
      rewrite P. ring.
  - inversion Li; subst. destruct (Var n 1%Q rv H0 L) as (i & Ei & Ln & Hv).
    cbn [extract_rec]. rewrite Ei. eexists; split; [reflexivity|]. split; auto. intro v. rewrite Hv. cbn [Prop_Symbolic.den]. ring.
  - inversion Li as [| | | | |l' Ne Fl]; subst. destruct l as [|a l]; [congruence|].
    rewrite extract_add. clear Li Ne. revert rv L. induction (a :: l) as [|b m IHm]; intros rv L.
    + exists rv. split; [reflexivity|split; auto]. intro v. cbn. ring.
    + inversion IHl; subst. inversion Fl; subst. destruct (H1 rv L H3) as (rv1 & E1 & L1 & D1).
      destruct (IHm H2 H4 rv1 L1) as (rv2 & E2 & L2 & D2).
      exists rv2. split; [cbn [extract_all]; rewrite E1; exact E2|]. split; auto.
      intro v. rewrite D2, D1. cbn [Prop_Symbolic.den]. ring.
  - inversion Li; subst.
    + destruct (Var n q rv H0 L) as (i & Ei & Ln & Hv).
      cbn [extract_rec]. rewrite Ei. eexists; split; [reflexivity|]. split; auto. intro v. rewrite Hv. cbn [Prop_Symbolic.den]. ring.
    + destruct (Var n q rv H0 L) as (i & Ei & Ln & Hv).
      cbn [extract_rec]. rewrite Ei. eexists; split; [reflexivity|]. split; auto. intro v. rewrite Hv. cbn [Prop_Symbolic.den]. ring.
  - inversion Li.
Qed.

Lemma extract_rec_lin e : forall rv rv', extract_rec vars affine e rv = Ok rv' -> linear vars affine e.
Proof.
  induction e as [q|n|l IHl|l IHl|k] using sexpr_ind2; intros rv rv' H.
  - cbn [extract_rec] in H. destruct (Qeq_bool q 0) eqn:E; [apply lin_zero; now apply Qeq_bool_iff|].
    destruct affine; [now apply lin_num|discriminate].
  - cbn [extract_rec] in H. destruct (index_of n vars) eqn:E; [|discriminate]. apply lin_sym. eapply index_none; eauto.
  - destruct l as [|a l]; [discriminate|]. rewrite extract_add in H. apply lin_add; [discriminate|].
    revert rv rv' H. induction (a :: l) as [|b m IHm]; intros rv rv' H; constructor.
    + cbn [extract_all] in H. apply bind_ok in H as (r1 & H1 & H). inversion IHl; subst. eauto.
    + cbn [extract_all] in H. apply bind_ok in H as (r1 & H1 & H). inversion IHl; subst. eauto.
  - cbn [extract_rec] in H. destruct l as [|a [|b [|c l]]]; try discriminate.
    + destruct a; discriminate.
    + destruct a; try discriminate; destruct b; try discriminate.
      * destruct (index_of name vars) eqn:E; [|discriminate]. apply lin_mul_l. eapply index_none; eauto.
      * destruct (index_of name vars) eqn:E; [|discriminate]. apply lin_mul_r. eapply index_none; eauto.
    + destruct a; try discriminate; destruct b; discriminate.
  - discriminate.
Qed.

Lemma ldot_lzero k : forall off x, (ldot (lzero k) off x == 0)%Q.
Proof. induction k as [|k IH]; intros off x; cbn; [reflexivity|]. unfold lzero in IH. rewrite IH. ring. Qed.

Lemma extract_ok e row : extract_linear_terms e vars affine = Ok row ->
  List.length row = width vars affine /\ forall v, (ldot row 0 (point vars v) == den v e)%Q.
Proof.
  unfold extract_linear_terms. intro H.
  set (z := lzero (List.length vars) ++ (if affine then [0%Q] else [])) in H.
  assert (Ez : z = lzero (width vars affine)).
  { unfold z, width, lzero. destruct affine; rewrite repeat_app; reflexivity. }
  assert (L : List.length z = width vars affine) by (rewrite Ez; apply repeat_length).
  destruct (extract_rec_ok e z L (extract_rec_lin _ _ _ H)) as (rv' & E & L' & D).
  rewrite H in E. injection E as <-. split; auto. intro v. rewrite D, Ez, ldot_lzero. ring.
Qed.
End Extract.

(** The expression is accepted exactly when it is linear, and then the returned coefficients give its value at every point. *)
Theorem C31_extract_linear_terms other vars affine e :
  (linear vars affine e -> exists row, extract_linear_terms e vars affine = Ok row /\
      List.length row = List.length vars + (if affine then 1 else 0) /\
      forall v, (ldot row 0 (point vars v) == den other v e)%Q) /\
  (~ linear vars affine e -> exists er, extract_linear_terms e vars affine = Err er).
Proof.
  split; intro H.
  - assert (Z : exists row, extract_linear_terms e vars affine = Ok row).
    { unfold extract_linear_terms. edestruct (extract_rec_ok other vars affine e) as (r & E & _); eauto.
      unfold width. rewrite app_length. unfold lzero. rewrite repeat_length. destruct affine; auto. }
    destruct Z as [row E]. exists row. split; auto. now apply (extract_ok other) in E.
  - destruct (extract_linear_terms e vars affine) as [row|er] eqn:E; [|eauto].
    exfalso; apply H. eapply extract_rec_lin; eauto.
Qed.

Lemma mapM_spec {A B} (f : A -> res B) l : forall r, mapM f l = Ok r ->
  List.length r = List.length l /\ forall i a, nth_error l i = Some a -> exists b, nth_error r i = Some b /\ f a = Ok b.
Proof.
  induction l as [|a l IH]; intros r H; cbn in H.
  - injection H as <-. split; auto. intros [|i] b E; discriminate.
  - apply bind_ok in H as (b & Hb & H). apply bind_ok in H as (r' & Hr & H). injection H as <-.
    destruct (IH _ Hr) as [L N]. split; [cbn; lia|]. intros [|i] x E; cbn in *; [injection E as <-; eauto|eauto].
Qed.
Lemma mapM_ok {A B} (f : A -> res B) l : (forall a, In a l -> exists b, f a = Ok b) -> exists r, mapM f l = Ok r.
Proof.
  induction l as [|a l IH]; intro H; cbn; [eauto|].
  destruct (H a (or_introl eq_refl)) as [b ->]. cbn. destruct IH as [r ->]; [intros; apply H; now right|]. cbn. eauto.
Qed.

(** make_dynamics_mat: one row per expression, the i-th row times the state is the value of the i-th expression; with an affine
    variable one more row, which is zero (its derivative). *)
Theorem C31_make_dynamics_mat other sym vars ders affine m :
  make_dynamics_mat sym vars ders affine = Ok m ->
  List.length m = List.length ders + (if affine then 1 else 0) /\
  Forall (fun r => List.length r = List.length vars + (if affine then 1 else 0)) m /\
  (forall i der, nth_error ders i = Some der -> exists e, sym der = Ok e /\
     forall v, (mapply m (point vars v) i == den other v e)%Q) /\
  (affine = true -> forall v, (mapply m (point vars v) (List.length ders) == 0)%Q).
Proof.
  unfold make_dynamics_mat. intro H. apply bind_ok in H as (rv & Hr & H). injection H as <-.
  destruct (mapM_spec _ _ _ Hr) as [L N].
  assert (R : forall i der, nth_error ders i = Some der -> exists e r, sym der = Ok e /\ nth_error rv i = Some r /\
     List.length r = width vars affine /\ forall v, (ldot r 0 (point vars v) == den other v e)%Q).
  { intros i der E. destruct (N i der E) as (r & Er & K). apply bind_ok in K as (e & He & K).
    exists e, r. apply (extract_ok other) in K as [? ?]. auto. }
  split; [rewrite app_length, L; destruct affine; auto|]. split; [|split].
  - apply Forall_app; split.
    + apply Forall_forall. intros r Hin. apply In_nth_error in Hin as [i Ei].
      assert (Li : i < List.length rv) by (apply nth_error_Some; congruence).
      destruct (nth_error ders i) as [der|] eqn:Ed; [|apply nth_error_None in Ed; lia].
      destruct (R i der Ed) as (e & r' & _ & Er & Lr & _). assert (r' = r) by congruence. now subst.
    + destruct affine; constructor; [|constructor]. unfold lzero. now rewrite repeat_length.
  - intros i der E. destruct (R i der E) as (e & r & He & Er & _ & D). exists e; split; auto. intro v.
    unfold mapply, mrow. rewrite app_nth1 by (apply nth_error_Some; congruence).
    rewrite (nth_error_nth _ _ _ Er). apply D.
  - intros -> v. unfold mapply, mrow. rewrite app_nth2 by lia. rewrite L, Nat.sub_diag. cbn [nth]. apply ldot_lzero.
Qed.

(** It returns a matrix exactly when every expression parses and is linear. *)
Theorem C31_accepts sym vars ders affine :
  (exists m, make_dynamics_mat sym vars ders affine = Ok m) <->
  (forall der, In der ders -> exists e, sym der = Ok e /\ linear vars affine e).
Proof.
  split.
  - intros [m H] der Hin. unfold make_dynamics_mat in H. apply bind_ok in H as (rv & Hr & H).
    apply In_nth_error in Hin as [i Ei]. destruct (mapM_spec _ _ _ Hr) as [_ N].
    destruct (N i der Ei) as (r & _ & K). apply bind_ok in K as (e & He & K). exists e; split; auto.
    eapply extract_rec_lin; eauto.
  - intro H. unfold make_dynamics_mat.
    destruct (mapM_ok (fun der => do e <- sym der; extract_linear_terms e vars affine) ders) as [r Hr].
    { intros der Hin. destruct (H der Hin) as (e & He & Hl). rewrite He. cbn.
      destruct (C31_extract_linear_terms (fun _ _ => 0%Q) vars affine e) as [K _]. destruct (K Hl) as (row & E & _). eauto. }
    rewrite Hr. cbn. eauto.
Qed.

Lemma set_last_snoc l a v : set_last (l ++ [a]) v = l ++ [v].
Proof. induction l as [|b l IH]; auto. cbn [app]. cbn [set_last]. rewrite IH. destruct l; reflexivity. Qed.
Lemma set_last_row_snoc l a v : set_last_row (l ++ [a]) v = l ++ [set_last a v].
Proof. induction l as [|b l IH]; auto. cbn [app]. cbn [set_last_row]. rewrite IH. destruct l; reflexivity. Qed.

(** make_reset_mat: as the dynamics, but the affine variable stays 1. *)
Theorem C31_make_reset_mat other sym vars resets affine m :
  make_reset_mat sym vars resets affine = Ok m ->
  List.length m = List.length resets + (if affine then 1 else 0) /\
  (forall i der, nth_error resets i = Some der -> exists e, sym der = Ok e /\
     forall v, (mapply m (point vars v) i == den other v e)%Q) /\
  (affine = true -> forall v, (mapply m (point vars v) (List.length resets) == 1)%Q).
Proof.
  unfold make_reset_mat. intro H. apply bind_ok in H as (m0 & H0 & H).
  assert (D := C31_make_dynamics_mat other sym vars resets affine m0 H0). destruct D as (L & F & R & A).
  destruct affine; injection H as <-; [|split; [auto|split; [auto|discriminate]]].
  unfold make_dynamics_mat in H0. apply bind_ok in H0 as (rv & Hr & H0). injection H0 as <-.
  destruct (mapM_spec _ _ _ Hr) as [Lr _].
  rewrite set_last_row_snoc.
  assert (Ez : lzero (List.length vars + 1) = lzero (List.length vars) ++ [0%Q]) by (unfold lzero; rewrite repeat_app; reflexivity).
  rewrite Ez, set_last_snoc. split; [|split].
  - rewrite app_length. cbn. lia.
  - intros i der E. destruct (R i der E) as (e & He & D). exists e; split; auto. intro v. rewrite <- D.
    unfold mapply, mrow. assert (i < List.length rv) by (rewrite Lr; apply nth_error_Some; congruence).
    rewrite !app_nth1 by auto. reflexivity.
  - intros _ v. unfold mapply, mrow. rewrite app_nth2 by lia. rewrite Lr, Nat.sub_diag. cbn [nth].
    rewrite ldot_app, ldot_lzero. cbn [ldot]. unfold lzero. rewrite repeat_length. cbn [plus]. unfold point.
    replace (nth_error vars (List.length vars)) with (@None string); [ring|]. symmetry. apply nth_error_None. lia.
Qed.

(** * C32 *)
Open Scope string_scope.

(** [l <= r] and [l >= r] as text. *)
Definition le_cond (l r : string) : string := l ++ "<=" ++ r.
Definition ge_cond (l r : string) : string := l ++ ">=" ++ r.
(** The text sympy is asked to parse for [l <= r]. *)
Definition diff (l r : string) : string := l ++ " - (" ++ r ++ ")".

Section C32spec.
Variables (other : nat -> (string -> Q) -> Q) (sym : string -> res sexpr).

(** The condition holds under a valuation. *)
Definition cond_holds (v : string -> Q) (cond : string) : Prop :=
  exists l r el er, sym l = Ok el /\ sym r = Ok er /\
    ((cond = le_cond l r /\ (den other v el <= den other v er)%Q) \/
     (cond = ge_cond l r /\ (den other v er <= den other v el)%Q)).

(** What is assumed of sympy: both sides parse, and the text l - (r) means their difference. *)
Definition sides_ok (l r : string) : Prop :=
  exists el er, sym l = Ok el /\ sym r = Ok er /\
    forall e, sym (diff l r) = Ok e -> forall v, (den other v e == den other v el - den other v er)%Q.
Definition cond_wf (cond : string) : Prop :=
  forall l r, (cond = le_cond l r -> sides_ok l r) /\ (cond = ge_cond l r -> sides_ok r l).
End C32spec.

Lemma string_ind2 (P : string -> Prop) :
  P "" -> (forall c, P (String c "")) -> (forall c d r, P r -> P (String d r) -> P (String c (String d r))) -> forall s, P s.
Proof.
  intros H0 H1 H2. assert (K : forall s, P s /\ forall c, P (String c s)).
  { induction s as [|d r [IH1 IH2]]; split; auto. }
  intro s; apply K.
Qed.

Lemma count2_cons a b c d r : count2 a b (String c (String d r)) =
  if (Ascii.eqb c a && Ascii.eqb d b)%bool then S (count2 a b r) else count2 a b (String d r).
Proof. reflexivity. Qed.

Lemma count2_app a o l r : a <> "="%char -> o <> "="%char ->
  count2 a "=" (l ++ String o (String "=" r)) = (count2 a "=" l + (if Ascii.eqb o a then 1 else 0) + count2 a "=" r)%nat.
Proof.
  intros Ha Ho.
  assert (B : count2 a "=" (String o (String "=" r)) = ((if Ascii.eqb o a then 1 else 0) + count2 a "=" r)%nat).
  { rewrite count2_cons. destruct (Ascii.eqb o a); cbn [andb]; rewrite ?Ascii.eqb_refl; [reflexivity|].
    destruct r as [|c r]; [reflexivity|]. rewrite count2_cons.
    replace (Ascii.eqb "=" a) with false by (symmetry; apply Ascii.eqb_neq; congruence). reflexivity. }
  induction l as [|c|c d l IH1 IH2] using string_ind2.
  - exact B.
  - cbn [append]. rewrite count2_cons. replace (Ascii.eqb o "=") with false by (symmetry; now apply Ascii.eqb_neq).
    rewrite andb_false_r. exact B.
  - cbn [append] in *. rewrite !count2_cons.
    destruct (Ascii.eqb c a && Ascii.eqb d "=")%bool.
    + rewrite IH1. reflexivity.
    + exact IH2.
Qed.

Lemma count2_split a s : (0 < count2 a "=" s)%nat -> exists l r, s = l ++ String a (String "=" r).
Proof.
  induction s as [|c|c d s IH1 IH2] using string_ind2; [cbn; lia|cbn; lia|]. rewrite count2_cons.
  destruct (Ascii.eqb_spec c a) as [->|N]; cbn [andb].
  - destruct (Ascii.eqb_spec d "=") as [->|N].
    + intros _. exists "", s. reflexivity.
    + intro H. destruct (IH2 H) as (l & r & E). exists (String a l), r. cbn. now rewrite <- E.
  - intro H. destruct (IH2 H) as (l & r & E). exists (String c l), r. cbn. now rewrite <- E.
Qed.

Lemma split_cons c d r : split_le (String c (String d r)) =
  if (Ascii.eqb c "<" && Ascii.eqb d "=")%bool then "" :: split_le r
  else match split_le (String d r) with x :: l => String c x :: l | [] => [] end.
Proof. reflexivity. Qed.
Lemma replace_cons c d r : replace_ge (String c (String d r)) =
  if (Ascii.eqb c ">" && Ascii.eqb d "=")%bool then String "<" (String "=" (replace_ge r)) else String c (replace_ge (String d r)).
Proof. reflexivity. Qed.

Lemma split_ne s : split_le s <> [].
Proof.
  induction s as [|c|c d s IH1 IH2] using string_ind2; [discriminate|discriminate|]. rewrite split_cons.
  destruct (Ascii.eqb c "<" && Ascii.eqb d "=")%bool; [discriminate|]. destruct (split_le (String d s)); [congruence|discriminate].
Qed.

Lemma split_none s : count2 "<" "=" s = 0%nat -> split_le s = [s].
Proof.
  induction s as [|c|c d s IH1 IH2] using string_ind2; auto.
  rewrite count2_cons, split_cons. destruct (Ascii.eqb c "<" && Ascii.eqb d "=")%bool; [discriminate|]. intro H. now rewrite (IH2 H).
Qed.

Lemma split_app l r : split_le (l ++ String "<" (String "=" r)) = (split_le l ++ split_le r)%list.
Proof.
  induction l as [|c|c d l IH1 IH2] using string_ind2.
  - reflexivity.
  - cbn [append]. rewrite split_cons. change (Ascii.eqb "<" "=") with false. rewrite andb_false_r. reflexivity.
  - cbn [append] in *. rewrite !split_cons. destruct (Ascii.eqb c "<" && Ascii.eqb d "=")%bool.
    + rewrite IH1. reflexivity.
    + rewrite IH2. assert (N := split_ne (String d l)). destruct (split_le (String d l)); [congruence|reflexivity].
Qed.

Lemma replace_none s : count2 ">" "=" s = 0%nat -> replace_ge s = s.
Proof.
  induction s as [|c|c d s IH1 IH2] using string_ind2; auto.
  rewrite count2_cons, replace_cons. destruct (Ascii.eqb c ">" && Ascii.eqb d "=")%bool; [discriminate|]. intro H. now rewrite (IH2 H).
Qed.

Lemma replace_app l r : replace_ge (l ++ String ">" (String "=" r)) = replace_ge l ++ String "<" (String "=" (replace_ge r)).
Proof.
  induction l as [|c|c d l IH1 IH2] using string_ind2.
  - reflexivity.
  - cbn [append]. rewrite replace_cons. change (Ascii.eqb ">" "=") with false. rewrite andb_false_r. reflexivity.
  - cbn [append] in *. rewrite !replace_cons. destruct (Ascii.eqb c ">" && Ascii.eqb d "=")%bool.
    + rewrite IH1. reflexivity.
    + rewrite IH2. reflexivity.
Qed.

Definition ops (s : string) : nat := count2 "<" "=" s + count2 ">" "=" s.

Lemma ops_le l r : ops (le_cond l r) = 1%nat ->
  count2 "<" "=" (le_cond l r) = 1%nat /\ count2 ">" "=" (le_cond l r) = 0%nat /\ split_le (le_cond l r) = [l; r].
Proof.
  unfold ops, le_cond. change ("<=" ++ r) with (String "<" (String "=" r)).
  rewrite !count2_app by discriminate. cbn [Ascii.eqb Bool.eqb]. intro H.
  rewrite split_app, !split_none by lia. split; [lia|]. split; [cbn in *; lia|reflexivity].
Qed.
Lemma ops_ge l r : ops (ge_cond l r) = 1%nat ->
  count2 "<" "=" (ge_cond l r) = 0%nat /\ count2 ">" "=" (ge_cond l r) = 1%nat /\ split_le (replace_ge (ge_cond l r)) = [l; r].
Proof.
  unfold ops, ge_cond. change (">=" ++ r) with (String ">" (String "=" r)).
  rewrite !count2_app by discriminate. cbn [Ascii.eqb Bool.eqb]. intro H.
  rewrite replace_app, !replace_none, split_app, !split_none by lia. split; [lia|]. split; [cbn in *; lia|reflexivity].
Qed.

(** The text of one condition: what [make_one_condition] computes for each shape. *)
Lemma one_le sym vars affine l r : ops (le_cond l r) = 1%nat ->
  make_one_condition sym vars (le_cond l r) affine =
    (do e <- sym (diff l r); do terms <- extract_linear_terms e vars true;
     Ok ((removelast terms ++ (if affine then [0%Q] else []))%list, (-1 * last terms 0)%Q)).
Proof.
  intro H. unfold make_one_condition. fold (ops (le_cond l r)). rewrite H. cbn [negb Nat.eqb].
  destruct (ops_le l r H) as (_ & -> & E). cbn [Nat.eqb]. rewrite E. reflexivity.
Qed.
Lemma one_ge sym vars affine l r : ops (ge_cond l r) = 1%nat ->
  make_one_condition sym vars (ge_cond l r) affine =
    (do e <- sym (diff r l); do terms <- extract_linear_terms e vars true;
     Ok ((removelast terms ++ (if affine then [0%Q] else []))%list, (-1 * last terms 0)%Q)).
Proof.
  intro H. unfold make_one_condition. fold (ops (ge_cond l r)). rewrite H. cbn [negb Nat.eqb].
  destruct (ops_ge l r H) as (_ & -> & E). cbn [Nat.eqb]. rewrite E. reflexivity.
Qed.

Lemma ops_cases cond : ops cond = 1%nat -> exists l r, cond = le_cond l r \/ cond = ge_cond l r.
Proof.
  unfold ops. intro H. destruct (count2 "<" "=" cond) eqn:E.
  - destruct (count2_split ">" cond) as (l & r & K); [lia|]. exists l, r; right; exact K.
  - destruct (count2_split "<" cond) as (l & r & K); [lia|]. exists l, r; left; exact K.
Qed.

Lemma le_unique l r l' r' : ops (le_cond l r) = 1%nat -> le_cond l r = le_cond l' r' -> l = l' /\ r = r'.
Proof.
  intros H E. destruct (ops_le l r H) as (_ & _ & S1). rewrite E in H. destruct (ops_le l' r' H) as (_ & _ & S2).
  rewrite E in S1. rewrite S1 in S2. injection S2; auto.
Qed.
Lemma ge_unique l r l' r' : ops (ge_cond l r) = 1%nat -> ge_cond l r = ge_cond l' r' -> l = l' /\ r = r'.
Proof.
  intros H E. destruct (ops_ge l r H) as (_ & _ & S1). rewrite E in H. destruct (ops_ge l' r' H) as (_ & _ & S2).
  rewrite E in S1. rewrite S1 in S2. injection S2; auto.
Qed.
Lemma le_ge_disjoint l r l' r' : ops (le_cond l r) = 1%nat -> le_cond l r <> ge_cond l' r'.
Proof.
  intros H E. destruct (ops_le l r H) as (A & _). rewrite E in H. destruct (ops_ge l' r' H) as (B & _). rewrite E in A. lia.
Qed.

Lemma one_ops sym vars affine cond x : make_one_condition sym vars cond affine = Ok x -> ops cond = 1%nat.
Proof.
  unfold make_one_condition. fold (ops cond). destruct (Nat.eqb_spec (ops cond) 1); cbn [negb]; [auto|discriminate].
Qed.

Lemma terms_split vars terms v affine : List.length terms = S (List.length vars) ->
  (ldot terms 0 (point vars v) == ldot (removelast terms ++ (if affine : bool then [0%Q] else []))%list 0 (point vars v) + last terms 0)%Q.
Proof.
  intro L. assert (N : terms <> []) by (destruct terms; discriminate || (cbn in L; lia)).
  rewrite (app_removelast_last 0%Q N) at 1. rewrite !ldot_app. cbn [ldot].
  assert (Lr : List.length (removelast terms) = List.length vars).
  { assert (K := f_equal (@List.length Q) (app_removelast_last 0%Q N)). rewrite app_length in K. cbn in K. lia. }
  rewrite Lr. cbn [plus].
  assert (P : point vars v (List.length vars) = 1%Q).
  { unfold point. assert (K : nth_error vars (List.length vars) = None) by (apply nth_error_None; lia). now rewrite K. }
  rewrite P. destruct affine; cbn [ldot]; ring.
Qed.

(** One condition: the row has one entry per variable (and a zero for the affine one), and the inequality is the condition. *)
Lemma one_spec other sym vars affine cond row b v :
  make_one_condition sym vars cond affine = Ok (row, b) -> cond_wf other sym cond ->
  List.length row = (List.length vars + (if affine then 1 else 0))%nat /\
  ((ldot row 0 (point vars v) <= b)%Q <-> cond_holds other sym v cond).
Proof.
  intros H W. assert (O := one_ops _ _ _ _ _ H). destruct (ops_cases cond O) as (l & r & [-> | ->]).
  - rewrite one_le in H by auto. apply bind_ok in H as (e & He & H). apply bind_ok in H as (t & Ht & H). injection H as <- <-.
    destruct (extract_ok other _ _ _ _ Ht) as [L D]. unfold width in L. rewrite Nat.add_1_r in L.
    destruct (proj1 (W l r) eq_refl) as (el & er & El & Er & Hd). specialize (Hd e He v).
    assert (S := terms_split vars t v affine L). rewrite D in S.
    assert (Lr : List.length (removelast t) = List.length vars).
    { assert (N : t <> []) by (destruct t; discriminate || (cbn in L; lia)).
      assert (K := f_equal (@List.length Q) (app_removelast_last 0%Q N)). rewrite app_length in K. cbn in K. lia. }
    split; [rewrite app_length, Lr; destruct affine; reflexivity|]. split.
    + intro Hle. exists l, r, el, er. split; auto. split; auto. left; split; auto. lra.
    + intros (l' & r' & el' & er' & El' & Er' & [[E Hle]|[E _]]).
      * destruct (le_unique _ _ _ _ O E) as [<- <-]. assert (el' = el) by congruence. assert (er' = er) by congruence. subst. lra.
      * exfalso; eapply le_ge_disjoint; eauto.
  - rewrite one_ge in H by auto. apply bind_ok in H as (e & He & H). apply bind_ok in H as (t & Ht & H). injection H as <- <-.
    destruct (extract_ok other _ _ _ _ Ht) as [L D]. unfold width in L. rewrite Nat.add_1_r in L.
    destruct (proj2 (W l r) eq_refl) as (er & el & Er & El & Hd). specialize (Hd e He v).
    assert (S := terms_split vars t v affine L). rewrite D in S.
    assert (Lr : List.length (removelast t) = List.length vars).
    { assert (N : t <> []) by (destruct t; discriminate || (cbn in L; lia)).
      assert (K := f_equal (@List.length Q) (app_removelast_last 0%Q N)). rewrite app_length in K. cbn in K. lia. }
    split; [rewrite app_length, Lr; destruct affine; reflexivity|]. split.
    + intro Hle. exists l, r, el, er. split; auto. split; auto. right; split; auto. lra.
    + intros (l' & r' & el' & er' & El' & Er' & [[E _]|[E Hle]]).
      * exfalso. rewrite E in O. eapply le_ge_disjoint; eauto.
      * destruct (ge_unique _ _ _ _ O E) as [<- <-]. assert (el' = el) by congruence. assert (er' = er) by congruence. subst. lra.
Qed.

(** make_condition(variables, conditions): the returned inequalities mat * x <= rhs hold at the point of a valuation exactly
    when every condition holds. *)
Theorem C32_make_condition other sym vars conds affine m rhs :
  make_condition sym vars conds affine = Ok (m, rhs) -> Forall (cond_wf other sym) conds ->
  List.length m = List.length conds /\ List.length rhs = List.length conds /\
  Forall (fun r => List.length r = (List.length vars + (if affine then 1 else 0))%nat) m /\
  forall v, (forall i, (i < List.length conds)%nat -> (mapply m (point vars v) i <= nth i rhs 0)%Q) <->
            Forall (cond_holds other sym v) conds.
Proof.
  intros H W. unfold make_condition in H. apply bind_ok in H as (l & Hl & H). injection H as <- <-.
  destruct (mapM_spec _ _ _ Hl) as [L N]. rewrite !map_length. split; auto. split; auto.
  assert (R : forall i c, nth_error conds i = Some c -> exists row b, nth_error l i = Some (row, b) /\
    List.length row = (List.length vars + (if affine then 1 else 0))%nat /\
    forall v, (ldot row 0 (point vars v) <= b)%Q <-> cond_holds other sym v c).
  { intros i c E. destruct (N i c E) as ([row b] & Er & K). exists row, b. split; auto.
    assert (Wc : cond_wf other sym c) by (rewrite Forall_forall in W; apply W; eapply nth_error_In; eauto).
    split; [apply (one_spec other sym vars affine c row b (fun _ => 0%Q) K Wc)|].
    intro v. apply (one_spec other sym vars affine c row b v K Wc). }
  split.
  - apply Forall_forall. intros r Hin. apply in_map_iff in Hin as ([r' b] & <- & Hin). apply In_nth_error in Hin as [i Ei].
    destruct (nth_error conds i) as [c|] eqn:Ec.
    + destruct (R i c Ec) as (row & b' & Er & Lr & _). cbn [fst]. congruence.
    + apply nth_error_None in Ec. assert (i < List.length l)%nat by (apply nth_error_Some; congruence). lia.
  - intro v. rewrite Forall_forall. split.
    + intros Hi c Hc. apply In_nth_error in Hc as [i Ei]. destruct (R i c Ei) as (row & b & Er & _ & K). apply K.
      assert (Hl' : (i < List.length conds)%nat) by (apply nth_error_Some; congruence).
      specialize (Hi i Hl'). unfold mapply, mrow in Hi.
      rewrite (nth_error_nth _ _ _ (map_nth_error fst _ _ Er)), (nth_error_nth _ _ _ (map_nth_error snd _ _ Er)) in Hi. exact Hi.
    + intros Hc i Hi. destruct (nth_error conds i) as [c|] eqn:Ec; [|apply nth_error_None in Ec; lia].
      destruct (R i c Ec) as (row & b & Er & _ & K). unfold mapply, mrow.
      rewrite (nth_error_nth _ _ _ (map_nth_error fst _ _ Er)), (nth_error_nth _ _ _ (map_nth_error snd _ _ Er)).
      apply K, Hc. eapply nth_error_In; eauto.
Qed.

(** It is accepted exactly when each text contains one '<=' or '>=' in total and the difference of the sides is linear. *)
Theorem C32_accepts sym vars conds affine :
  (exists r, make_condition sym vars conds affine = Ok r) <->
  (forall c, In c conds -> ops c = 1%nat /\ exists l r e,
     (c = le_cond l r /\ sym (diff l r) = Ok e \/ c = ge_cond l r /\ sym (diff r l) = Ok e) /\ linear vars true e).
Proof.
  assert (One : forall c, (exists x, make_one_condition sym vars c affine = Ok x) <->
    ops c = 1%nat /\ exists l r e,
     (c = le_cond l r /\ sym (diff l r) = Ok e \/ c = ge_cond l r /\ sym (diff r l) = Ok e) /\ linear vars true e).
  { intro c. split.
    - intros [x H]. assert (O := one_ops _ _ _ _ _ H). split; auto. destruct (ops_cases c O) as (l & r & [-> | ->]).
      + rewrite one_le in H by auto. apply bind_ok in H as (e & He & H). apply bind_ok in H as (t & Ht & H).
        exists l, r, e. split; [left; auto|]. eapply extract_rec_lin; eauto.
      + rewrite one_ge in H by auto. apply bind_ok in H as (e & He & H). apply bind_ok in H as (t & Ht & H).
        exists l, r, e. split; [right; auto|]. eapply extract_rec_lin; eauto.
    - intros (O & l & r & e & Hc & Hl).
      destruct (C31_extract_linear_terms (fun _ _ => 0%Q) vars true e) as [K _]. destruct (K Hl) as (t & Ht & _).
      destruct Hc as [[-> He]|[-> He]].
      + rewrite one_le, He by auto. cbn [bind]. rewrite Ht. cbn. eauto.
      + rewrite one_ge, He by auto. cbn [bind]. rewrite Ht. cbn. eauto. }
  split.
  - intros [r H] c Hc. apply One. unfold make_condition in H. apply bind_ok in H as (l & Hl & _).
    destruct (mapM_spec _ _ _ Hl) as [_ N]. apply In_nth_error in Hc as [i Ei]. destruct (N i c Ei) as (b & _ & K). eauto.
  - intro H. unfold make_condition. destruct (mapM_ok (fun c => make_one_condition sym vars c affine) conds) as [r ->].
    + intros c Hc. apply One. auto.
    + cbn. eauto.
Qed.

(** The example of the documentation, 'x - 1 + y <= 2 * x + 3', and a '>=' condition, with sympy as a table. *)
Definition ex_table : list (string * sexpr) :=
  [("x - 1 + y ", SAdd [SSym "x"; SNum (-1); SSym "y"]);
   (" 2 * x + 3", SAdd [SMul [SNum 2; SSym "x"]; SNum 3]);
   ("x - 1 + y  - ( 2 * x + 3)", SAdd [SMul [SNum (-1); SSym "x"]; SSym "y"; SNum (-4)]);
   ("x ", SSym "x"); (" 5", SNum 5); (" 5 - (x )", SAdd [SNum 5; SMul [SNum (-1); SSym "x"]]);
   ("2*x + y", SAdd [SMul [SNum 2; SSym "x"]; SSym "y"]); ("x*y", SMul [SSym "x"; SSym "y"])].
Definition ex_sym (s : string) : res sexpr :=
  match find (fun e => String.eqb (fst e) s) ex_table with Some e => Ok (snd e) | None => Err EValue end.

Example C32_witness :
  make_condition ex_sym ["x"; "y"] ["x - 1 + y <= 2 * x + 3"; "x >= 5"] true = Ok ([[-1; 1; 0]; [-1; 0; 0]], [4; -5])%Q /\
  (forall other, Forall (cond_wf other ex_sym) ["x - 1 + y <= 2 * x + 3"; "x >= 5"]) /\
  make_condition ex_sym ["x"; "y"] ["x < 5"] true = Err ERuntime.
Proof.
  split; [vm_compute; reflexivity|]. split; [|reflexivity]. intro other.
  repeat constructor; intro K.
  - assert (O : ops (le_cond "x - 1 + y " " 2 * x + 3") = 1%nat) by reflexivity.
    destruct (le_unique _ _ l r O K) as [<- <-]. do 2 eexists. split; [reflexivity|]. split; [reflexivity|].
    intros e E. vm_compute in E. injection E as <-. intro v. cbn. ring.
  - exfalso. apply (le_ge_disjoint "x - 1 + y " " 2 * x + 3" l r); [reflexivity|exact K].
  - exfalso. symmetry in K. apply (le_ge_disjoint l r "x " " 5"); [rewrite K; reflexivity|exact K].
  - assert (O : ops (ge_cond "x " " 5") = 1%nat) by reflexivity.
    destruct (ge_unique _ _ l r O K) as [<- <-]. do 2 eexists. split; [reflexivity|]. split; [reflexivity|].
    intros e E. vm_compute in E. injection E as <-. intro v. cbn. ring.
Qed.

Example C31_witness :
  make_dynamics_mat ex_sym ["x"; "y"] ["2*x + y"; "x "] true = Ok [[2; 1; 0]; [1; 0; 0]; [0; 0; 0]]%Q /\
  make_reset_mat ex_sym ["x"; "y"] ["2*x + y"; " 5"] true = Ok [[2; 1; 0]; [0; 0; 5]; [0; 0; 1]]%Q /\
  make_dynamics_mat ex_sym ["x"; "y"] ["x*y"] true = Err ERuntime /\
  make_dynamics_mat ex_sym ["x"; "y"] [" 5"] false = Err ERuntime.
Proof. repeat split; vm_compute; reflexivity. Qed.
