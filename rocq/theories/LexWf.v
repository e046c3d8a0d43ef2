(** Lexicographic decrease of vectors of natural numbers is well founded; sums and counts over lists. *)
From Coq Require Import List Arith Lia.
Import ListNotations.

(** the first [m] entries decrease: some entry gets smaller, no earlier one gets larger *)
Definition lexlt (m : nat) (f g : nat -> nat) : Prop := exists i, i < m /\ f i < g i /\ forall j, j < i -> f j <= g j.
Lemma lexlt_trans m f g h : lexlt m f g -> lexlt m g h -> lexlt m f h.
Proof.
  intros (i & H1 & H2 & H3) (k & K1 & K2 & K3). destruct (lt_eq_lt_dec i k) as [[H|H]|H].
  - exists i. split; [auto|]. split; [specialize (K3 i H); lia|]. intros j Hj. specialize (H3 j Hj). specialize (K3 j ltac:(lia)). lia.
  - subst k. exists i. split; [auto|]. split; [lia|]. intros j Hj. specialize (H3 j Hj). specialize (K3 j Hj). lia.
  - exists k. split; [auto|]. split; [specialize (H3 k H); lia|]. intros j Hj. specialize (H3 j ltac:(lia)). specialize (K3 j Hj). lia.
Qed.
Lemma lexlt_wf : forall m, well_founded (lexlt m).
Proof.
  induction m as [|m IH]; [intro g; constructor; intros f (i & H & _); lia|].
  assert (K : forall n h, Acc (lexlt m) h -> forall g, (forall i, g (S i) = h i) -> g 0 <= n -> Acc (lexlt (S m)) g).
  { induction n as [n IHn] using lt_wf_ind. intros h Ah. induction Ah as [h _ IHh]. intros g Hg Hn. constructor. intros f (i & H1 & H2 & H3). destruct i as [|i].
    - apply (IHn (f 0) ltac:(lia) (fun i => f (S i)) (IH _) f); auto.
    - apply (IHh (fun i => f (S i))); [|auto|specialize (H3 0 ltac:(lia)); lia]. exists i. split; [lia|]. rewrite <- Hg. split; [exact H2|]. intros j Hj. rewrite <- Hg. apply H3. lia. }
  intro g. apply (K (g 0) (fun i => g (S i)) (IH _)); auto.
Qed.

Definition lsum {A} (f : A -> nat) (l : list A) : nat := fold_right (fun x s => f x + s) 0 l.
Lemma lsum_app {A} (f : A -> nat) l l' : lsum f (l ++ l') = lsum f l + lsum f l'.
Proof. unfold lsum. induction l as [|x l IH]; cbn [app fold_right]; lia. Qed.
Lemma lsum_le {A} (f g : A -> nat) l : (forall x, In x l -> f x <= g x) -> lsum f l <= lsum g l.
Proof. unfold lsum. induction l as [|x l IH]; intro H; cbn [fold_right]; [lia|]. specialize (H x (or_introl eq_refl)) as H1. assert (H2 : forall y, In y l -> f y <= g y) by (intros; apply H; right; auto). specialize (IH H2). lia. Qed.
Lemma lsum_ext {A} (f g : A -> nat) l : (forall x, In x l -> f x = g x) -> lsum f l = lsum g l.
Proof. intro H. apply Nat.le_antisymm; apply lsum_le; intros x Hx; rewrite (H x Hx); auto. Qed.
Lemma lsum_0 {A} (f : A -> nat) l : (forall x, In x l -> f x = 0) -> lsum f l = 0.
Proof. intro H. unfold lsum. induction l as [|x l IH]; cbn [fold_right]; [auto|]. rewrite (H x (or_introl eq_refl)), IH; [auto|]. intros; apply H; right; auto. Qed.
Lemma lsum_drop {A} (f g : A -> nat) l x : In x l -> (forall y, In y l -> f y <= g y) -> f x = 0 -> lsum f l + g x <= lsum g l.
Proof.
  induction l as [|y l IH]; intros Hx H H0; [destruct Hx|]. unfold lsum in *. cbn [fold_right]. assert (H2 : forall y, In y l -> f y <= g y) by (intros; apply H; right; auto).
  destruct Hx as [-> |Hx]; [pose proof (lsum_le f g l H2) as K; unfold lsum in K; lia|]. specialize (IH Hx H2 H0). specialize (H y (or_introl eq_refl)). lia.
Qed.

(** number of elements [x] of [l] with [f x = d] *)
Definition cnt {A} (f : A -> nat) (d : nat) (l : list A) : nat := length (filter (fun x => f x =? d) l).
Lemma cnt_app {A} (f : A -> nat) d l l' : cnt f d (l ++ l') = cnt f d l + cnt f d l'.
Proof. unfold cnt. rewrite filter_app, app_length. reflexivity. Qed.
Lemma cnt_0 {A} (f : A -> nat) d l : (forall x, In x l -> f x <> d) -> cnt f d l = 0.
Proof. intro H. unfold cnt. induction l as [|x l IH]; cbn [filter]; [auto|]. destruct (Nat.eqb_spec (f x) d) as [E|E]; [destruct (H x (or_introl eq_refl) E)|]. apply IH. intros; apply H; right; auto. Qed.
Lemma cnt_le {A} (f g : A -> nat) d l l' : NoDup l' -> (forall x, In x l' -> g x = d -> In x l /\ f x = d) -> cnt g d l' <= cnt f d l.
Proof.
  intros N H. unfold cnt. apply NoDup_incl_length; [apply NoDup_filter; auto|]. intros x Hx. apply filter_In in Hx as [Hx Hd]. apply Nat.eqb_eq in Hd. destruct (H x Hx Hd) as [K1 K2]. apply filter_In. split; [auto|apply Nat.eqb_eq; auto].
Qed.
Lemma cnt_ext {A} (f g : A -> nat) d l : (forall x, In x l -> f x = g x) -> cnt f d l = cnt g d l.
Proof. intro H. unfold cnt. f_equal. apply filter_ext_in. intros x Hx. rewrite (H x Hx). reflexivity. Qed.
(** taking out [p] elements with value [d] *)
Lemma cnt_take {A} (f : A -> nat) d l ops : NoDup l -> NoDup ops -> (forall x, In x ops -> In x l /\ f x = d) -> forall l', NoDup l' -> (forall x, In x l' -> In x l /\ ~ In x ops) -> cnt f d l' + length ops <= cnt f d l.
Proof.
  intros Nl No Ho l' Nl' Hl'. unfold cnt. rewrite <- app_length. apply NoDup_incl_length.
  - assert (NF : NoDup (filter (fun x => f x =? d) l')) by (apply NoDup_filter; auto). assert (HF : forall x, In x (filter (fun x => f x =? d) l') -> ~ In x ops) by (intros x Hx; apply filter_In in Hx as [Hx _]; apply (Hl' x Hx)).
    induction (filter (fun x => f x =? d) l') as [|y r IH]; cbn [app]; [exact No|]. inversion NF; subst. constructor; [|apply IH; auto; intros; apply HF; right; auto]. rewrite in_app_iff. intros [K|K]; [auto|apply (HF y (or_introl eq_refl) K)].
  - intros x Hx. apply in_app_iff in Hx as [Hx|Hx].
    + apply filter_In in Hx as [Hx Hd]. apply filter_In. split; [apply (Hl' x Hx)|exact Hd].
    + destruct (Ho x Hx) as [K1 K2]. apply filter_In. split; [exact K1|apply Nat.eqb_eq; exact K2].
Qed.
