(** A verified executable LP solver (Gauss substitution + Fourier-Motzkin elimination) over the rationals.

    It is not a model of GLPK: it witnesses that the solver contracts [solver_ok] and [solver_complete] used as hypotheses
    are satisfiable, and it runs the concrete examples. *)
From Verif Require Import Base BaseFacts LpModel LpSpec LpFacts.
Open Scope nat_scope.

Fixpoint dotl (co xs : list Q) : Q :=
  match co, xs with
  | a :: co', x :: xs' => (a * x + dotl co' xs')%Q
  | _, _ => 0
  end.

(** constraint: equality flag, coefficients, bound *)
Record con := mkCon { k_eq : bool; k_co : list Q; k_b : Q }.
Definition ksat (c : con) (xs : list Q) : Prop :=
  if k_eq c then (dotl (k_co c) xs == k_b c)%Q else (dotl (k_co c) xs <= k_b c)%Q.
Definition sat (cs : list con) (xs : list Q) : Prop := Forall (fun c => ksat c xs) cs.

Fixpoint padd (a b : list Q) : list Q :=
  match a, b with
  | x :: a', y :: b' => Qred (x + y) :: padd a' b'
  | [], _ => b
  | _, [] => a
  end.
Definition psc (k : Q) (a : list Q) : list Q := map (fun v => Qred (k * v)) a.

Definition hdq (c : con) : Q := hd 0%Q (k_co c).
Definition tlq (c : con) : list Q := tl (k_co c).
Definition is0 (q : Q) : bool := Qeq_bool q 0.
Definition pos (q : Q) : bool := negb (Qle_bool q 0).

(** c - (k/a) e on the remaining variables *)
Definition subst_con (e c : con) : con :=
  let f := Qred (- (hdq c / hdq e)) in
  mkCon (k_eq c) (padd (tlq c) (psc f (tlq e))) (Qred (k_b c + f * k_b e)).
(** upper bound u and lower bound l combined *)
Definition comb (u l : con) : con :=
  mkCon false (padd (psc (/ hdq u) (tlq u)) (psc (- / hdq l) (tlq l))) (Qred (k_b u / hdq u - k_b l / hdq l)).
Definition drop (c : con) : con := mkCon (k_eq c) (tlq c) (k_b c).

Definition find_eq (cs : list con) : option con := find (fun c => k_eq c && negb (is0 (hdq c))) cs.
Definition zeros (cs : list con) : list con := filter (fun c => is0 (hdq c)) cs.
Definition uppers (cs : list con) : list con := filter (fun c => pos (hdq c)) cs.
Definition lowers (cs : list con) : list con := filter (fun c => pos (- hdq c)) cs.

Definition elim (cs : list con) : list con :=
  match find_eq cs with
  | Some e => map (subst_con e) cs
  | None => map drop (zeros cs) ++ flat_map (fun u => map (comb u) (lowers cs)) (uppers cs)
  end.

Definition bound (xs : list Q) (c : con) : Q := Qred ((k_b c - dotl (tlq c) xs) / hdq c).
Fixpoint maxq (a : Q) (l : list Q) : Q := match l with [] => a | b :: l' => maxq (if Qle_bool a b then b else a) l' end.
Fixpoint minq (a : Q) (l : list Q) : Q := match l with [] => a | b :: l' => minq (if Qle_bool a b then a else b) l' end.
Definition pick (cs : list con) (xs : list Q) : Q :=
  match find_eq cs with
  | Some e => bound xs e
  | None =>
      match map (bound xs) (lowers cs) with
      | b :: bs => maxq b bs
      | [] => match map (bound xs) (uppers cs) with b :: bs => minq b bs | [] => 0 end
      end
  end.

Definition trivial (c : con) : bool :=
  forallb is0 (k_co c) && (if k_eq c then is0 (k_b c) else Qle_bool 0 (k_b c)).
Definition clean (cs : list con) : list con := filter (fun c => negb (trivial c)) cs.

Definition holds0 (c : con) : bool := if k_eq c then is0 (k_b c) else Qle_bool 0 (k_b c).

Inductive fres := FInf | FUnb | FOpt (xs : list Q).
Definition base (cs : list con) : fres :=
  if forallb holds0 (elim cs) then
    match find_eq cs, lowers cs with
    | None, [] => FUnb
    | _, _ => FOpt [pick cs []]
    end
  else FInf.
Fixpoint fm (n : nat) (cs : list con) : fres :=
  match n with
  | O => base cs
  | S n' => match fm n' (clean (elim cs)) with
            | FOpt xs => FOpt (pick cs xs :: xs)
            | r => r
            end
  end.

(** ** Facts *)
Lemma dotl_cons co x xs : (dotl co (x :: xs) == hd 0 co * x + dotl (tl co) xs)%Q.
Proof. destruct co; simpl; [ring|reflexivity]. Qed.
Lemma dotl_nil co : dotl co [] = 0%Q.
Proof. destruct co; reflexivity. Qed.
Lemma dotl_padd a b xs : (dotl (padd a b) xs == dotl a xs + dotl b xs)%Q.
Proof.
  revert b xs; induction a as [|x a IH]; intros [|y b] xs; cbn [padd dotl]; try ring.
  destruct xs as [|z xs]; [ring|]. rewrite IH, Qred_correct. ring.
Qed.
Lemma dotl_psc k a xs : (dotl (psc k a) xs == k * dotl a xs)%Q.
Proof. unfold psc. revert xs; induction a as [|x a IH]; intros [|z xs]; cbn [map dotl]; try ring. rewrite IH, Qred_correct. ring. Qed.

Lemma is0_iff q : is0 q = true <-> (q == 0)%Q.
Proof. apply Qeq_bool_iff. Qed.
Lemma pos_iff q : pos q = true <-> (0 < q)%Q.
Proof.
  unfold pos. rewrite negb_true_iff. split.
  - intro H. apply Qnot_le_lt. intro Hq. apply Qle_bool_iff in Hq. congruence.
  - intro H. destruct (Qle_bool q 0) eqn:E; auto. apply Qle_bool_iff in E. lra.
Qed.

Lemma ksat_cons c x xs : ksat c (x :: xs) <-> if k_eq c then (hdq c * x + dotl (tlq c) xs == k_b c)%Q else (hdq c * x + dotl (tlq c) xs <= k_b c)%Q.
Proof. unfold ksat, hdq, tlq. destruct (k_eq c); rewrite dotl_cons; reflexivity. Qed.

Lemma maxq_spec a l : (forall b, In b (a :: l) -> (b <= maxq a l)%Q) /\ In (maxq a l) (a :: l).
Proof.
  revert a; induction l as [|b l IH]; intro a; cbn [maxq].
  - split; [intros b [<-|[]]; lra|simpl; auto].
  - destruct (Qle_bool a b) eqn:E.
    + apply Qle_bool_iff in E. destruct (IH b) as [H1 H2]. split; [|simpl in *; tauto].
      intros c [<-|Hc]; [|auto]. specialize (H1 b ltac:(simpl; auto)). lra.
    + assert (~ (a <= b)%Q) by (intro Hq; apply Qle_bool_iff in Hq; congruence). apply Qnot_le_lt in H.
      destruct (IH a) as [H1 H2]. split; [|simpl in *; tauto].
      intros c [<-|[<-|Hc]]; [apply H1; simpl; auto| |apply H1; simpl; auto]. specialize (H1 a ltac:(simpl; auto)). lra.
Qed.
Lemma minq_spec a l : (forall b, In b (a :: l) -> (minq a l <= b)%Q) /\ In (minq a l) (a :: l).
Proof.
  revert a; induction l as [|b l IH]; intro a; cbn [minq].
  - split; [intros b [<-|[]]; lra|simpl; auto].
  - destruct (Qle_bool a b) eqn:E.
    + apply Qle_bool_iff in E. destruct (IH a) as [H1 H2]. split; [|simpl in *; tauto].
      intros c [<-|[<-|Hc]]; [apply H1; simpl; auto| |apply H1; simpl; auto]. specialize (H1 a ltac:(simpl; auto)). lra.
    + assert (~ (a <= b)%Q) by (intro Hq; apply Qle_bool_iff in Hq; congruence). apply Qnot_le_lt in H.
      destruct (IH b) as [H1 H2]. split; [|simpl in *; tauto].
      intros c [<-|Hc]; [|auto]. specialize (H1 b ltac:(simpl; auto)). lra.
Qed.

Lemma find_eq_some cs e : find_eq cs = Some e -> In e cs /\ k_eq e = true /\ ~ (hdq e == 0)%Q.
Proof.
  intro H. apply find_some in H as [H1 H2]. apply andb_true_iff in H2 as [H2 H3]. split; auto. split; auto.
  intro Hz. apply is0_iff in Hz. rewrite Hz in H3. discriminate.
Qed.
Lemma find_eq_none cs c : find_eq cs = None -> In c cs -> k_eq c = true -> (hdq c == 0)%Q.
Proof.
  intros H Hin He. pose proof (find_none _ _ H c Hin) as Hf. simpl in Hf. rewrite He in Hf. simpl in Hf.
  apply negb_false_iff in Hf. apply is0_iff; auto.
Qed.

Lemma bound_spec xs c : ~ (hdq c == 0)%Q -> (hdq c * bound xs c + dotl (tlq c) xs == k_b c)%Q.
Proof. intro H. unfold bound. rewrite Qred_correct. field. exact H. Qed.

(** lower and upper bounds as inequalities on x *)
Lemma lower_iff xs c x : (hdq c < 0)%Q -> (hdq c * x + dotl (tlq c) xs <= k_b c)%Q <-> (bound xs c <= x)%Q.
Proof.
  intro H. assert (Hn : ~ (hdq c == 0)%Q) by lra. assert (E := bound_spec xs c Hn). split; intro Hle.
  - apply Qnot_lt_le. intro Hlt. assert ((hdq c * bound xs c < hdq c * x)%Q). { setoid_replace (hdq c * bound xs c)%Q with (- ((- hdq c) * bound xs c))%Q by ring.
      setoid_replace (hdq c * x)%Q with (- ((- hdq c) * x))%Q by ring. assert ((- hdq c * x < - hdq c * bound xs c)%Q) by (apply Qmult_lt_l; [lra|auto]). lra. }
    lra.
  - assert ((- hdq c * bound xs c <= - hdq c * x)%Q) by (apply Qmult_le_l; [lra|auto]). lra.
Qed.
Lemma upper_iff xs c x : (0 < hdq c)%Q -> (hdq c * x + dotl (tlq c) xs <= k_b c)%Q <-> (x <= bound xs c)%Q.
Proof.
  intro H. assert (Hn : ~ (hdq c == 0)%Q) by lra. assert (E := bound_spec xs c Hn). split; intro Hle.
  - apply Qnot_lt_le. intro Hlt. assert ((hdq c * bound xs c < hdq c * x)%Q) by (apply Qmult_lt_l; auto). lra.
  - assert ((hdq c * x <= hdq c * bound xs c)%Q) by (apply Qmult_le_l; auto). lra.
Qed.

Lemma comb_iff u l xs : (0 < hdq u)%Q -> (hdq l < 0)%Q -> ksat (comb u l) xs <-> (bound xs l <= bound xs u)%Q.
Proof.
  intros Hu Hl. unfold ksat, comb. cbn [k_eq k_co k_b]. rewrite dotl_padd, !dotl_psc, Qred_correct. unfold bound. rewrite !Qred_correct.
  assert (E1 : ((k_b l - dotl (tlq l) xs) / hdq l == k_b l / hdq l - / hdq l * dotl (tlq l) xs)%Q) by (field; lra).
  assert (E2 : ((k_b u - dotl (tlq u) xs) / hdq u == k_b u / hdq u - / hdq u * dotl (tlq u) xs)%Q) by (field; lra).
  rewrite E1, E2. split; intro; lra.
Qed.

Lemma drop_iff c x xs : (hdq c == 0)%Q -> ksat (drop c) xs <-> ksat c (x :: xs).
Proof. intro H. rewrite ksat_cons. unfold ksat, drop. cbn [k_eq k_co k_b]. destruct (k_eq c); rewrite H; split; intro; lra. Qed.

Lemma subst_iff e c xs x : ~ (hdq e == 0)%Q -> (hdq e * x + dotl (tlq e) xs == k_b e)%Q -> ksat (subst_con e c) xs <-> ksat c (x :: xs).
Proof.
  intros He Hx. rewrite ksat_cons. unfold ksat, subst_con. cbn [k_eq k_co k_b].
  assert (E : (- (hdq c / hdq e) * (k_b e - dotl (tlq e) xs) == - (hdq c * x))%Q).
  { rewrite <- Hx. field. exact He. }
  destruct (k_eq c); rewrite dotl_padd, dotl_psc, !Qred_correct; split; intro; lra.
Qed.

Lemma cases_head c : (hdq c == 0)%Q \/ (0 < hdq c)%Q \/ (hdq c < 0)%Q.
Proof. destruct (Q_dec (hdq c) 0) as [[H|H]|H]; auto. Qed.

Lemma elim_sound cs x xs : sat cs (x :: xs) -> sat (elim cs) xs.
Proof.
  unfold sat. intro H. rewrite Forall_forall in *. unfold elim. destruct (find_eq cs) as [e|] eqn:E.
  - apply find_eq_some in E as (Hin & He & Hne). assert (Hs := H e Hin). rewrite ksat_cons, He in Hs.
    intros c' Hc'. apply in_map_iff in Hc' as (c & <- & Hc). apply (subst_iff e c xs x); auto.
  - intros c' Hc'. apply in_app_iff in Hc' as [Hc'|Hc'].
    + apply in_map_iff in Hc' as (c & <- & Hc). apply filter_In in Hc as [Hc Hz]. apply is0_iff in Hz. apply (drop_iff c x xs); auto.
    + apply in_flat_map in Hc' as (u & Hu & Hc'). apply in_map_iff in Hc' as (l & <- & Hl).
      apply filter_In in Hu as [Hu Hu2]. apply filter_In in Hl as [Hl Hl2]. apply pos_iff in Hu2. apply pos_iff in Hl2.
      assert (Hl3 : (hdq l < 0)%Q) by lra. apply comb_iff; auto.
      assert (Su := H u Hu). assert (Sl := H l Hl). rewrite ksat_cons in Su, Sl.
      destruct (k_eq u) eqn:Eu; [exfalso; pose proof (find_eq_none _ _ E Hu Eu); lra|].
      destruct (k_eq l) eqn:El; [exfalso; pose proof (find_eq_none _ _ E Hl El); lra|].
      apply lower_iff in Sl; auto. apply upper_iff in Su; auto. lra.
Qed.

Lemma find_eq_not_nil cs : find_eq cs = None -> forall c, In c cs -> k_eq c = true -> (hdq c == 0)%Q.
Proof. intros. eapply find_eq_none; eauto. Qed.

Lemma elim_complete cs xs : sat (elim cs) xs -> sat cs (pick cs xs :: xs).
Proof.
  unfold sat. intro H. rewrite Forall_forall in *. unfold elim, pick in *. destruct (find_eq cs) as [e|] eqn:E.
  - apply find_eq_some in E as (Hin & He & Hne). intros c Hc. apply (subst_iff e c xs); auto.
    + apply bound_spec; auto.
    + apply H. apply in_map; auto.
  - set (x := match map (bound xs) (lowers cs) with b :: bs => maxq b bs
              | [] => match map (bound xs) (uppers cs) with b :: bs => minq b bs | [] => 0%Q end end).
    assert (Hcomb : forall u l, In u (uppers cs) -> In l (lowers cs) -> (bound xs l <= bound xs u)%Q).
    { intros u l Hu Hl. assert (Hu2 := Hu). assert (Hl2 := Hl). apply filter_In in Hu2 as [_ Hu2]. apply filter_In in Hl2 as [_ Hl2].
      apply pos_iff in Hu2. apply pos_iff in Hl2. apply comb_iff; [auto|lra|]. apply H. apply in_app_iff. right.
      apply in_flat_map. exists u. split; auto. apply in_map; auto. }
    assert (Hlow : forall l, In l (lowers cs) -> (bound xs l <= x)%Q).
    { intros l Hl. unfold x. assert (Hi : In (bound xs l) (map (bound xs) (lowers cs))) by (apply in_map; auto).
      destruct (map (bound xs) (lowers cs)) as [|b bs]; [contradiction|]. apply (maxq_spec b bs). exact Hi. }
    assert (Hup : forall u, In u (uppers cs) -> (x <= bound xs u)%Q).
    { intros u Hu. unfold x. destruct (map (bound xs) (lowers cs)) as [|b bs] eqn:El.
      - assert (Hi : In (bound xs u) (map (bound xs) (uppers cs))) by (apply in_map; auto).
        destruct (map (bound xs) (uppers cs)) as [|b bs]; [contradiction|]. apply (minq_spec b bs). exact Hi.
      - destruct (maxq_spec b bs) as [_ Hm]. rewrite <- El in Hm. apply in_map_iff in Hm as (l & <- & Hl). apply Hcomb; auto. }
    intros c Hc. destruct (cases_head c) as [Hz|[Hp|Hn]].
    + apply (drop_iff c x xs); auto. apply H. apply in_app_iff. left. apply in_map, filter_In. split; auto. apply is0_iff; auto.
    + rewrite ksat_cons. destruct (k_eq c) eqn:Ec; [exfalso; pose proof (find_eq_none _ _ E Hc Ec); lra|].
      apply upper_iff; auto. apply Hup. apply filter_In. split; auto. apply pos_iff; auto.
    + rewrite ksat_cons. destruct (k_eq c) eqn:Ec; [exfalso; pose proof (find_eq_none _ _ E Hc Ec); lra|].
      apply lower_iff; auto. apply Hlow. apply filter_In. split; auto. apply pos_iff. lra.
Qed.

Lemma dotl_zero co xs : forallb is0 co = true -> (dotl co xs == 0)%Q.
Proof.
  revert xs; induction co as [|a co IH]; intros [|x xs] H; simpl in *; try reflexivity.
  apply andb_true_iff in H as [H1 H2]. apply is0_iff in H1. rewrite H1, IH by auto. ring.
Qed.

Lemma trivial_sat c xs : trivial c = true -> ksat c xs.
Proof.
  unfold trivial, ksat. intro H. apply andb_true_iff in H as [H1 H2]. destruct (k_eq c); rewrite (dotl_zero _ _ H1).
  - apply is0_iff in H2. lra.
  - apply Qle_bool_iff in H2. exact H2.
Qed.

Lemma clean_sat cs xs : sat (clean cs) xs <-> sat cs xs.
Proof.
  unfold sat, clean. rewrite !Forall_forall. split; intros H c Hc.
  - destruct (trivial c) eqn:E; [apply trivial_sat; auto|]. apply H. apply filter_In. rewrite E. auto.
  - apply filter_In in Hc as [Hc _]. auto.
Qed.

Lemma holds0_iff cs : forallb holds0 cs = true <-> sat cs [].
Proof.
  unfold sat. rewrite forallb_forall, Forall_forall. split; intros H c Hc; specialize (H c Hc); unfold holds0, ksat in *; rewrite ?dotl_nil in *.
  - destruct (k_eq c); [apply is0_iff in H; lra|apply Qle_bool_iff in H; auto].
  - destruct (k_eq c); [apply is0_iff; lra|apply Qle_bool_iff; auto].
Qed.

Definition lastq (xs : list Q) : Q := last xs 0%Q.

Definition fspec (n : nat) (cs : list con) (r : fres) : Prop :=
  match r with
  | FInf => forall ys, List.length ys = n -> ~ sat cs ys
  | FUnb => forall b, exists ys, List.length ys = n /\ sat cs ys /\ (lastq ys < b)%Q
  | FOpt xs => List.length xs = n /\ sat cs xs /\ forall ys, List.length ys = n -> sat cs ys -> (lastq xs <= lastq ys)%Q
  end.

Lemma base_spec cs : fspec 1 cs (base cs).
Proof.
  unfold base. destruct (forallb holds0 (elim cs)) eqn:Eh.
  - apply holds0_iff in Eh.
    destruct (find_eq cs) as [e|] eqn:Ee; [|destruct (lowers cs) as [|l ls] eqn:El].
    + split; auto. split; [apply elim_complete; auto|]. intros [|y [|? ?]] Hy Hs; try discriminate. cbn.
      unfold pick. rewrite Ee. apply find_eq_some in Ee as (Hin & He & Hne). unfold sat in Hs. rewrite Forall_forall in Hs.
      specialize (Hs e Hin). rewrite ksat_cons, He in Hs. pose proof (bound_spec [] e Hne) as Hb.
      assert ((hdq e * (bound [] e - y) == 0)%Q) by lra. apply Qmult_integral in H as [H|H]; [tauto|lra].
    + intro b.
      set (m := match map (bound []) (uppers cs) with c :: bs => minq c bs | [] => 0%Q end).
      set (t := (if Qle_bool m (b - 1) then m else b - 1)%Q).
      exists [t]. split; auto.
      assert (Htm : (t <= m)%Q /\ (t < b)%Q).
      { unfold t. destruct (Qle_bool m (b - 1)) eqn:E; [apply Qle_bool_iff in E; lra|].
        assert (~ (m <= b - 1)%Q) by (intro Hq; apply Qle_bool_iff in Hq; congruence). apply Qnot_le_lt in H. lra. }
      split; [|cbn; tauto]. unfold sat in *. rewrite Forall_forall in *. intros c Hc. destruct (cases_head c) as [Hz|[Hp|Hn]].
      * apply (drop_iff c t []); auto. apply Eh. unfold elim. rewrite Ee. apply in_app_iff. left. apply in_map, filter_In. split; auto. apply is0_iff; auto.
      * rewrite ksat_cons. destruct (k_eq c) eqn:Ec; [exfalso; pose proof (find_eq_none _ _ Ee Hc Ec); lra|].
        apply upper_iff; auto. assert (Hi : In (bound [] c) (map (bound []) (uppers cs))).
        { apply in_map. apply filter_In. split; auto. apply pos_iff; auto. }
        assert ((m <= bound [] c)%Q); [|lra]. unfold m. destruct (map (bound []) (uppers cs)) as [|c0 bs]; [contradiction|]. apply (minq_spec c0 bs). exact Hi.
      * exfalso. assert (Hi : In c (lowers cs)) by (apply filter_In; split; auto; apply pos_iff; lra). rewrite El in Hi. contradiction.
    + split; auto. split; [apply elim_complete; auto|]. intros [|y [|? ?]] Hy Hs; try discriminate. cbn.
      unfold pick. rewrite Ee, El. cbn [map]. destruct (maxq_spec (bound [] l) (map (bound []) ls)) as [_ Hm].
      change (In (maxq (bound [] l) (map (bound []) ls)) (map (bound []) (l :: ls))) in Hm. apply in_map_iff in Hm as (l0 & <- & Hl0).
      rewrite <- El in Hl0. apply filter_In in Hl0 as [Hin Hp]. apply pos_iff in Hp. unfold sat in Hs. rewrite Forall_forall in Hs.
      specialize (Hs l0 Hin). rewrite ksat_cons in Hs. destruct (k_eq l0) eqn:Ek; [exfalso; pose proof (find_eq_none _ _ Ee Hin Ek); lra|].
      apply lower_iff in Hs; [auto|lra].
  - intros ys Hy Hs. destruct ys as [|y [|? ?]]; try discriminate. apply elim_sound in Hs. apply holds0_iff in Hs. congruence.
Qed.

Lemma lastq_cons x xs n : List.length xs = S n -> lastq (x :: xs) = lastq xs.
Proof. destruct xs; [discriminate|reflexivity]. Qed.

Lemma fm_spec n cs : fspec (S n) cs (fm n cs).
Proof.
  revert cs; induction n as [|n IH]; intro cs; [apply base_spec|]. cbn [fm]. specialize (IH (clean (elim cs))).
  destruct (fm n (clean (elim cs))) as [| |xs]; cbn [fspec] in *.
  - intros ys Hy Hs. destruct ys as [|y ys]; [discriminate|]. injection Hy as Hy. apply (IH ys Hy). apply clean_sat. eapply elim_sound; eauto.
  - intro b. destruct (IH b) as (ys & Hy & Hs & Hb). exists (pick cs ys :: ys). split; [simpl; lia|]. split.
    + apply elim_complete. apply clean_sat; auto.
    + rewrite (lastq_cons _ _ n) by auto. auto.
  - destruct IH as (Hx & Hs & Hopt). split; [simpl; lia|]. split; [apply elim_complete, clean_sat; auto|].
    intros ys Hy Hys. destruct ys as [|y ys]; [discriminate|]. injection Hy as Hy. rewrite !(lastq_cons _ _ n) by auto.
    apply Hopt; auto. apply clean_sat. eapply elim_sound; eauto.
Qed.

(** ** From an LP to constraints *)
Definition max_col (r : srow) : nat := fold_right (fun e a => Nat.max (S (fst e)) a) 0 r.
Definition lp_width (l : lp) : nat := fold_right (fun r a => Nat.max (max_col (r_co r)) a) (Nat.max (max_col (l_obj l)) (l_nc l)) (l_rows l).
Definition neg_row (co : list Q) : list Q := map (fun v => Qred (- v)) co.
Definition con_of (N : nat) (r : row) : con :=
  let co := map Qred (dense_of (r_co r) N) ++ [0%Q] in
  match r_ty r with
  | FX => mkCon true co (r_rhs r)
  | UP => mkCon false co (r_rhs r)
  | LO => mkCon false (neg_row co) (Qred (- r_rhs r))
  end.
Definition cons_of (l : lp) : list con :=
  let N := lp_width l in
  map (con_of N) (l_rows l) ++ [mkCon true (map Qred (dense_of (l_obj l) N) ++ [(-1)%Q]) 0].
Definition fm_solver : solver := fun l =>
  match fm (lp_width l) (cons_of l) with
  | FInf => SInfeas
  | FUnb => SFail
  | FOpt xs => SOpt (of_list (removelast xs))
  end.

Lemma max_col_lt r : row_cols_lt (max_col r) r.
Proof.
  unfold row_cols_lt. induction r as [|[c a] r IH]; constructor.
  - unfold max_col. cbn [fold_right fst]. apply Nat.le_max_l.
  - eapply Forall_impl; [|exact IH]. intros e H. unfold max_col. cbn [fold_right fst]. fold (max_col r).
    eapply Nat.lt_le_trans; [exact H|apply Nat.le_max_r].
Qed.
Lemma cols_mono n m r : n <= m -> row_cols_lt n r -> row_cols_lt m r.
Proof. intros H. apply Forall_impl. intros; lia. Qed.
Lemma width_obj l : row_cols_lt (lp_width l) (l_obj l).
Proof.
  apply (cols_mono (max_col (l_obj l))); [|apply max_col_lt]. unfold lp_width. induction (l_rows l); simpl; lia.
Qed.
Lemma width_rows l r : In r (l_rows l) -> row_cols_lt (lp_width l) (r_co r).
Proof.
  intro H. apply (cols_mono (max_col (r_co r))); [|apply max_col_lt]. unfold lp_width.
  induction (l_rows l) as [|r0 rs IH]; [contradiction|]. destruct H as [<-|H]; simpl; [lia|]. specialize (IH H). lia.
Qed.

Lemma dotl_app a b xs ys : List.length a = List.length xs -> (dotl (a ++ b) (xs ++ ys) == dotl a xs + dotl b ys)%Q.
Proof. revert xs; induction a as [|x a IH]; intros [|y xs] H; try discriminate; cbn [app dotl]; [ring|]. rewrite IH by (injection H; auto). ring. Qed.
Lemma dotl_map_ext (f g : nat -> Q) (y : nat -> Q) l : (forall i, In i l -> (f i == g i)%Q) -> (dotl (map f l) (map y l) == dotl (map g l) (map y l))%Q.
Proof. induction l as [|i l IH]; intro H; cbn [map dotl]; [reflexivity|]. rewrite (H i), IH; [reflexivity|intros; apply H; simpl; auto|simpl; auto]. Qed.
Lemma dotl_single c a N y : c < N -> (dotl (map (fun i => if Nat.eqb c i then a else 0%Q) (seq 0 N)) (map y (seq 0 N)) == a * y c)%Q.
Proof.
  intro H. assert (G : forall n s, (dotl (map (fun i => if Nat.eqb c i then a else 0%Q) (seq s n)) (map y (seq s n)) == if (s <=? c) && (c <? s + n) then a * y c else 0)%Q).
  { induction n as [|n IH]; intro s; cbn [seq map dotl].
    - destruct (Nat.leb_spec s c), (Nat.ltb_spec c (s + 0)); try lia; simpl; reflexivity.
    - rewrite IH. destruct (Nat.eqb_spec c s); [subst|].
      + destruct (Nat.leb_spec (S s) s), (Nat.leb_spec s s), (Nat.ltb_spec s (s + S n)); try lia. simpl. ring.
      + destruct (Nat.leb_spec (S s) c), (Nat.leb_spec s c), (Nat.ltb_spec c (S s + n)), (Nat.ltb_spec c (s + S n)); try lia; simpl; ring. }
  rewrite G. destruct (Nat.leb_spec 0 c), (Nat.ltb_spec c (0 + N)); try lia. reflexivity.
Qed.
Lemma dotl_lin (f g : nat -> Q) (y : nat -> Q) l : (dotl (map (fun i => f i + g i)%Q l) (map y l) == dotl (map f l) (map y l) + dotl (map g l) (map y l))%Q.
Proof. induction l as [|i l IH]; cbn [map dotl]; [ring|]. rewrite IH. ring. Qed.
Lemma dotl_dense r N y : row_cols_lt N r -> (dotl (map Qred (dense_of r N)) (map y (seq 0 N)) == reval r y)%Q.
Proof.
  unfold dense_of. rewrite map_map. intro H. rewrite (dotl_map_ext _ (fun c => fold_right (fun e acc => if Nat.eqb (fst e) c then (snd e + acc)%Q else acc) 0%Q r)) by (intros; apply Qred_correct).
  induction H as [|[c a] r Hc H IH]; cbn [reval].
  - cbn [fold_right]. induction (seq 0 N); cbn [map dotl]; [reflexivity|]. rewrite IHl. ring.
  - rewrite (dotl_map_ext _ (fun i => (if Nat.eqb c i then a else 0%Q) + fold_right (fun e acc => if Nat.eqb (fst e) i then (snd e + acc)%Q else acc) 0%Q r)%Q).
    + rewrite dotl_lin, dotl_single by exact Hc. rewrite IH. ring.
    + intros i _. cbn [fold_right fst snd]. destruct (Nat.eqb c i); ring.
Qed.
Lemma dotl_neg a xs : (dotl (neg_row a) xs == - dotl a xs)%Q.
Proof. unfold neg_row. revert xs; induction a as [|x a IH]; intros [|y xs]; cbn [map dotl]; try ring. rewrite IH, Qred_correct. ring. Qed.

Definition ext (l : lp) (y : vec) (t : Q) : list Q := map y (seq 0 (lp_width l)) ++ [t].

Lemma con_of_iff l r y t : In r (l_rows l) -> ksat (con_of (lp_width l) r) (ext l y t) <-> row_sat r y.
Proof.
  intro H. apply width_rows in H. unfold con_of, ksat, row_sat, ext. set (N := lp_width l) in *.
  assert (E : (dotl (map Qred (dense_of (r_co r) N) ++ [0%Q]) (map y (seq 0 N) ++ [t]) == reval (r_co r) y)%Q).
  { rewrite dotl_app by (unfold dense_of; rewrite !map_length; reflexivity). rewrite dotl_dense by auto. simpl. ring. }
  destruct (r_ty r); cbn [k_eq k_co k_b]; rewrite ?dotl_neg, ?Qred_correct, E; split; intro; lra.
Qed.

Lemma cons_of_iff l y t : sat (cons_of l) (ext l y t) <-> lp_sat l y /\ (t == reval (l_obj l) y)%Q.
Proof.
  unfold sat, cons_of, lp_sat. rewrite Forall_app, !Forall_forall. split.
  - intros [H1 H2]. split.
    + intros r Hr. apply (con_of_iff l r y t Hr). apply H1. apply in_map; auto.
    + specialize (H2 _ (or_introl eq_refl)). unfold ksat in H2. cbn [k_eq k_co k_b] in H2. unfold ext in H2.
      rewrite dotl_app in H2 by (unfold dense_of; rewrite !map_length; reflexivity). rewrite dotl_dense in H2 by apply width_obj. cbn [dotl] in H2. lra.
  - intros [H1 H2]. split.
    + intros c Hc. apply in_map_iff in Hc as (r & <- & Hr). apply con_of_iff; auto.
    + intros c [<-|[]]. unfold ksat. cbn [k_eq k_co k_b]. unfold ext.
      rewrite dotl_app by (unfold dense_of; rewrite !map_length; reflexivity). rewrite dotl_dense by apply width_obj. cbn [dotl]. lra.
Qed.

Lemma ext_of_list l xs : List.length xs = S (lp_width l) -> ext l (of_list (removelast xs)) (lastq xs) = xs.
Proof.
  intro H. unfold ext, of_list, lastq. destruct (exists_last (l := xs)) as (ys & t & ->); [intro; subst; discriminate|].
  rewrite removelast_last, last_last. rewrite app_length in H. simpl in H. f_equal.
  replace (lp_width l) with (List.length ys) by lia. apply nth_ext with (d := 0%Q) (d' := 0%Q); [rewrite map_length, seq_length; auto|].
  intros n Hn. rewrite map_length, seq_length in Hn. rewrite (nth_indep _ 0%Q (nth 0 ys 0%Q)) by (rewrite map_length, seq_length; lia).
  rewrite (map_nth (fun i => nth i ys 0%Q)), seq_nth by auto. reflexivity.
Qed.
Lemma ext_length l y t : List.length (ext l y t) = S (lp_width l).
Proof. unfold ext. rewrite app_length, map_length, seq_length. simpl. lia. Qed.
Lemma lastq_ext l y t : lastq (ext l y t) = t.
Proof. unfold lastq, ext. apply last_last. Qed.

(** The solver contracts are satisfiable. *)
Theorem fm_solver_ok : solver_ok fm_solver.
Proof.
  intro l. unfold fm_solver. pose proof (fm_spec (lp_width l) (cons_of l)) as H.
  destruct (fm (lp_width l) (cons_of l)) as [| |xs]; cbn [fspec] in H; [|exact I|].
  - intros y Hy. apply (H (ext l y (reval (l_obj l) y)) (ext_length _ _ _)). apply cons_of_iff. split; auto. reflexivity.
  - destruct H as (Hl & Hs & Ho). rewrite <- (ext_of_list l xs Hl) in Hs. apply cons_of_iff in Hs as [H1 H2]. split; auto.
    intros y Hy. specialize (Ho (ext l y (reval (l_obj l) y)) (ext_length _ _ _)).
    rewrite lastq_ext in Ho. rewrite <- H2. apply Ho. apply cons_of_iff. split; auto. reflexivity.
Qed.

Theorem fm_solver_complete : solver_complete fm_solver.
Proof.
  intros l Hl _ b. unfold fm_solver in Hl. pose proof (fm_spec (lp_width l) (cons_of l)) as H.
  destruct (fm (lp_width l) (cons_of l)) as [| |xs]; try discriminate. cbn [fspec] in H.
  destruct (H b) as (ys & Hy & Hs & Hb). exists (of_list (removelast ys)). rewrite <- (ext_of_list l ys Hy) in Hs.
  apply cons_of_iff in Hs as [H1 H2]. split; auto. lra.
Qed.
