(** C54: check_trace.check.
    Specification: [held] is the trajectory under inputs that are each held for one step; [flow] is what an exact integrator satisfies. *)
From Verif Require Import Base LpModel LpUtil Automaton StateSet CoreModel Replay CheckTrace.
From Coq Require Import Lia Lqa Sorted Setoid Qround.
Open Scope nat_scope.

Definition same_pt (p q : list Q) : Prop := Forall2 Qeq p q.
(** an exact integrator of one autonomous system for every constant input *)
Record flow (ode : list Q -> list Q -> Q -> list Q) : Prop := {
  fl_ext : forall u s s' t t', same_pt s s' -> (t == t')%Q -> same_pt (ode u s t) (ode u s' t');
  fl_zero : forall u s, same_pt (ode u s 0%Q) s;
  fl_add : forall u s t1 t2, (0 <= t1)%Q -> (0 <= t2)%Q -> same_pt (ode u (ode u s t1) t2) (ode u s (t1 + t2)%Q) }.
(** the state at time t from s when the inputs us are applied one after the other, each for one step *)
Fixpoint held (ode : list Q -> list Q -> Q -> list Q) (step : Q) (us : list (list Q)) (s : list Q) (t : Q) : list Q :=
  match us with
  | [] => s
  | u :: us' => if Qle_bool t step then ode u s t else held ode step us' (ode u s step) (t - step)%Q
  end.
(** the trajectory is sampled at increasing times, from 0 to the end of the last input *)
Record samples (ode : list Q -> list Q -> Q -> list Q) (step : Q) (us : list (list Q)) (start : list Q) (states : list (list Q)) (times : list Q) : Prop := {
  sa_pts : Forall2 (fun p t => same_pt p (held ode step us start t)) states times;
  sa_first : nth 0 times 1%Q = 0%Q /\ nth 0 states [] = start;
  sa_inc : StronglySorted Qlt times;
  sa_last : (last times 0 == qnat (List.length us) * step)%Q }.

Lemma sp_refl p : same_pt p p.
Proof. induction p; constructor; [reflexivity|assumption]. Qed.
Lemma sp_sym p q : same_pt p q -> same_pt q p.
Proof. induction 1; constructor; [symmetry; assumption|assumption]. Qed.
Lemma sp_trans p q r : same_pt p q -> same_pt q r -> same_pt p r.
Proof. intro H. revert r. induction H; intros r K; inversion K; subst; [constructor|]. constructor; [etransitivity; eassumption|]. apply IHForall2. assumption. Qed.

Lemma qnat_S n : (qnat (S n) == qnat n + 1)%Q.
Proof. unfold qnat. rewrite Nat2Z.inj_succ. unfold Z.succ. rewrite inject_Z_plus. reflexivity. Qed.
Lemma qnat_nn n : (0 <= qnat n)%Q.
Proof. unfold qnat. change 0%Q with (inject_Z 0). rewrite <- Zle_Qle. lia. Qed.
Lemma qnat_pos n : (0 < qnat (S n))%Q.
Proof. unfold qnat. change 0%Q with (inject_Z 0). rewrite <- Zlt_Qlt. lia. Qed.
Lemma qnat_plus a b : (qnat (a + b) == qnat a + qnat b)%Q.
Proof. unfold qnat. rewrite Nat2Z.inj_add, inject_Z_plus. reflexivity. Qed.
Lemma qnat_le a b : a <= b -> (qnat a <= qnat b)%Q.
Proof. intro H. unfold qnat. rewrite <- Zle_Qle. lia. Qed.
Lemma qnat_lt a b : a < b -> (qnat a < qnat b)%Q.
Proof. intro H. unfold qnat. rewrite <- Zlt_Qlt. lia. Qed.

Section Held.
Variable ode : list Q -> list Q -> Q -> list Q.
Hypothesis F : flow ode.
Variable step : Q.
Hypothesis Hstep : (0 < step)%Q.

Lemma held_ext us : forall s s' t t', same_pt s s' -> (t == t')%Q -> same_pt (held ode step us s t) (held ode step us s' t').
Proof.
  induction us as [|u us IH]; intros s s' t t' Es Et; cbn [held]; [exact Es|].
  assert (E : Qle_bool t step = Qle_bool t' step). { rewrite Et. reflexivity. }
  rewrite E. destruct (Qle_bool t' step).
  - apply (fl_ext _ F); assumption.
  - apply IH; [apply (fl_ext _ F); [exact Es|reflexivity]|rewrite Et; reflexivity].
Qed.

Lemma held_block k : forall u us s t, (0 < t)%Q -> (t <= qnat (S k) * step)%Q -> same_pt (held ode step (repeat u (S k) ++ us) s t) (ode u s t).
Proof.
  induction k as [|k IH]; intros u us s t H0 H1; cbn [repeat app held].
  - assert (E : Qle_bool t step = true). { apply Qle_bool_iff. rewrite qnat_S in H1. change (qnat 0) with 0%Q in H1. lra. } rewrite E. apply sp_refl.
  - destruct (Qle_bool t step) eqn:E; [apply sp_refl|].
    assert (L : (step < t)%Q). { apply Qnot_le_lt. intro K. apply Qle_bool_iff in K. rewrite K in E. discriminate E. }
    eapply sp_trans; [apply (IH u us)|].
    + lra.
    + rewrite qnat_S in H1. lra.
    + eapply sp_trans; [apply (fl_add _ F); lra|]. apply (fl_ext _ F); [apply sp_refl|ring].
Qed.
Lemma held_skip k : forall u us s t, (0 < t)%Q -> same_pt (held ode step (repeat u (S k) ++ us) s (qnat (S k) * step + t)%Q) (held ode step us (ode u s (qnat (S k) * step)%Q) t).
Proof.
  induction k as [|k IH]; intros u us s t Ht; change (repeat u (S ?n) ++ us) with (u :: repeat u n ++ us).
  - cbn [repeat app held]. assert (E : Qle_bool (qnat 1 * step + t) step = false).
    { destruct (Qle_bool _ _) eqn:E; [|reflexivity]. apply Qle_bool_iff in E. change (qnat 1) with 1%Q in E. lra. }
    rewrite E. apply held_ext; [apply (fl_ext _ F); [apply sp_refl|]|]; change (qnat 1) with 1%Q; ring.
  - cbn [held]. assert (P := qnat_pos k). assert (E : Qle_bool (qnat (S (S k)) * step + t) step = false).
    { destruct (Qle_bool _ _) eqn:E; [|reflexivity]. apply Qle_bool_iff in E. rewrite qnat_S in E. assert (0 < qnat (S k) * step)%Q by (apply Qmult_lt_0_compat; assumption). lra. }
    rewrite E. assert (Q1 : (qnat (S (S k)) * step + t - step == qnat (S k) * step + t)%Q) by (rewrite (qnat_S (S k)); ring).
    eapply sp_trans; [apply held_ext; [apply sp_refl|exact Q1]|].
    eapply sp_trans; [apply IH; exact Ht|]. apply held_ext; [|reflexivity].
    assert (0 < qnat (S k) * step)%Q by (apply Qmult_lt_0_compat; assumption).
    eapply sp_trans; [apply (fl_add _ F); lra|]. apply (fl_ext _ F); [apply sp_refl|]. rewrite (qnat_S (S k)). ring.
Qed.
Lemma held_split us1 us2 s t : (0 < t)%Q ->
  same_pt (held ode step (us1 ++ us2) s (qnat (List.length us1) * step + t)%Q) (held ode step us2 (held ode step us1 s (qnat (List.length us1) * step)%Q) t).
Proof.
  intro Ht. revert s. induction us1 as [|u us1 IH]; intro s.
  - cbn [app held List.length]. apply held_ext; [apply sp_refl|]. change (qnat 0) with 0%Q. ring.
  - cbn [app held List.length]. assert (N := qnat_nn (List.length us1)). assert (0 <= qnat (List.length us1) * step)%Q by (apply Qmult_le_0_compat; lra).
    assert (E : Qle_bool (qnat (S (List.length us1)) * step + t) step = false).
    { destruct (Qle_bool _ _) eqn:E; [|reflexivity]. apply Qle_bool_iff in E. rewrite qnat_S in E. lra. }
    rewrite E. assert (Q1 : (qnat (S (List.length us1)) * step + t - step == qnat (List.length us1) * step + t)%Q) by (rewrite qnat_S; ring).
    eapply sp_trans; [apply held_ext; [apply sp_refl|exact Q1]|]. eapply sp_trans; [apply IH|]. apply held_ext; [|reflexivity].
    destruct (Qle_bool (qnat (S (List.length us1)) * step) step) eqn:E2.
    + destruct us1 as [|v us1].
      * cbn [held List.length]. apply (fl_ext _ F); [apply sp_refl|]. change (qnat 1) with 1%Q. ring.
      * exfalso. apply Qle_bool_iff in E2. cbn [List.length] in E2. rewrite qnat_S in E2. assert (P := qnat_pos (List.length us1)).
        assert (0 < qnat (S (List.length us1)) * step)%Q by (apply Qmult_lt_0_compat; assumption). lra.
    + apply held_ext; [apply sp_refl|]. rewrite qnat_S. ring.
Qed.
(** prefixes: the trajectory up to the end of us1 does not depend on what follows *)
Lemma held_prefix us1 us2 s t : (0 <= t)%Q -> (t <= qnat (List.length us1) * step)%Q -> same_pt (held ode step (us1 ++ us2) s t) (held ode step us1 s t).
Proof.
  revert s t. induction us1 as [|u us1 IH]; intros s t H0 H1.
  - cbn [List.length] in H1. change (qnat 0) with 0%Q in H1. cbn [app held]. assert (t == 0)%Q by lra. destruct us2 as [|u us2]; cbn [held]; [apply sp_refl|].
    assert (E : Qle_bool t step = true) by (apply Qle_bool_iff; lra). rewrite E. eapply sp_trans; [apply (fl_ext _ F); [apply sp_refl|exact H]|]. apply (fl_zero _ F).
  - cbn [app held]. destruct (Qle_bool t step) eqn:E; [apply sp_refl|]. apply IH.
    + assert (~ (t <= step)%Q) by (intro K; apply Qle_bool_iff in K; rewrite K in E; discriminate E). lra.
    + cbn [List.length] in H1. rewrite qnat_S in H1. lra.
Qed.
End Held.

(** ** the samples of one block *)
Definition ge1 (x : num) : Prop := match x with NInt m => 1 <= m | NFloat q => (1 <= q)%Q end.
Lemma spi_ge1 a l : ge1 (samples_per_input a l).
Proof. unfold samples_per_input. destruct (Qle_bool 1 _) eqn:E; cbn [ge1]; [apply Qle_bool_iff; exact E|lia]. Qed.
Lemma nmul_ge1 x k : ge1 x -> ge1 (nmul x (S k)).
Proof.
  destruct x as [m|q]; cbn [ge1 nmul]; intro H; [nia|]. rewrite qnat_S. assert (N := qnat_nn k). assert (0 <= q * qnat k)%Q by (apply Qmult_le_0_compat; lra).
  assert (E : (q * (qnat k + 1) == q * qnat k + q)%Q) by ring. rewrite E. lra.
Qed.
Lemma linspace_ge2 newnp x n : ge1 x -> linspace_num newnp x = Ok n -> 2 <= n.
Proof.
  destruct x as [m|q]; cbn [ge1 linspace_num]; intros H E.
  - injection E as <-. lia.
  - destruct newnp; [discriminate E|]. assert (E2 : Z.to_nat (Qfloor (1 + q)) = n) by congruence. clear E. assert (2 <= Qfloor (1 + q))%Z; [|lia].
    change 2%Z with (Qfloor (inject_Z 2)). apply Qfloor_resp_le. change (inject_Z 2) with 2%Q. lra.
Qed.
Lemma ss_app (l1 l2 : list Q) : StronglySorted Qlt l1 -> StronglySorted Qlt l2 -> (forall x y, In x l1 -> In y l2 -> (x < y)%Q) -> StronglySorted Qlt (l1 ++ l2).
Proof.
  intros S1 S2 H. induction S1 as [|x l1 S1 IH F1]; cbn [app]; [exact S2|]. constructor.
  - apply IH. intros a b Ha Hb. apply H; [right; exact Ha|exact Hb].
  - apply Forall_app. split; [exact F1|]. apply Forall_forall. intros y Hy. apply H; [left; reflexivity|exact Hy].
Qed.
Lemma ss_map_seq (f : nat -> Q) : (forall i j, i < j -> (f i < f j)%Q) -> forall n s, StronglySorted Qlt (map f (seq s n)).
Proof.
  intros H n. induction n as [|n IH]; intro s; cbn [seq map]; [constructor|]. constructor; [apply IH|].
  apply Forall_forall. intros y Hy. apply in_map_iff in Hy as (j & <- & Hj). apply in_seq in Hj. apply H. lia.
Qed.
Lemma linspace_tail amount n : (0 < amount)%Q -> 2 <= n ->
  let ts := skipn 1 (linspace amount n) in
  StronglySorted Qlt ts /\ Forall (fun t => 0 < t /\ t <= amount)%Q ts /\ (last ts 0 == amount)%Q /\ List.length ts = n - 1.
Proof.
  intros Ha Hn ts. destruct n as [|[|k]]; [lia|lia|].
  set (d := (amount / inject_Z (Z.of_nat (S k)))%Q).
  assert (P : (0 < qnat (S k))%Q) by apply qnat_pos.
  assert (Hd : (0 < d)%Q). { unfold d. apply Qlt_shift_div_l; [exact P|]. rewrite Qmult_0_l. exact Ha. }
  assert (Et : ts = map (fun j => (qnat j * d)%Q) (seq 1 (S k))). { unfold ts, linspace. cbn [seq map skipn]. reflexivity. }
  assert (Em : (qnat (S k) * d == amount)%Q). { unfold d. change (inject_Z (Z.of_nat (S k))) with (qnat (S k)). field. intro K. rewrite K in P. discriminate P. }
  split; [|split; [|split]].
  - rewrite Et. apply ss_map_seq. intros i j L. apply Qmult_lt_compat_r; [exact Hd|]. apply qnat_lt. exact L.
  - rewrite Et. apply Forall_forall. intros t Ht. apply in_map_iff in Ht as (j & <- & Hj). apply in_seq in Hj. split.
    + apply Qmult_lt_0_compat; [|exact Hd]. change 0%Q with (qnat 0). apply qnat_lt. lia.
    + rewrite <- Em. apply Qmult_le_compat_r; [apply qnat_le; lia|lra].
  - rewrite Et. rewrite seq_S, map_app. cbn [map]. rewrite last_last. exact Em.
  - rewrite Et, map_length, seq_length. lia.
Qed.

Section Loop.
Variable ode : csr -> option csr -> list Q -> list Q -> Q -> list Q.
Variable newnp : bool.
Variable a : csr.
Variable b : option csr.
Variable scalar : bool.
Variable step : Q.
Variable spi : num.
Hypothesis F : flow (ode a b).
Hypothesis Hstep : (0 < step)%Q.
Hypothesis Hspi : ge1 spi.

Record linv (start : list Q) (vs : list (list Q)) (states : list (list Q)) (times : list Q) : Prop := {
  li_sa : samples (ode a b) step vs start states times;
  li_rng : Forall (fun t => 0 <= t /\ t <= qnat (List.length vs) * step)%Q times }.

Lemma last_F2 {A B} (R : A -> B -> Prop) (l : list A) (m : list B) x y : Forall2 R l m -> l <> [] -> R (last l x) (last m y).
Proof.
  intros H N. induction H as [|p q l m H1 H2 IH]; [congruence|]. destruct H2 as [|p' q' l m K1 K2]; [exact H1|].
  change (R (last (p' :: l) x) (last (q' :: m) y)). apply IH. discriminate.
Qed.
Lemma F2_in {A B} (R : A -> B -> Prop) m' l m : Forall2 R l m -> incl m m' -> Forall2 (fun x y => R x y /\ In y m') l m.
Proof.
  induction 1 as [|x y l m H1 H2 IH]; intro I; constructor.
  - split; [exact H1|apply I; left; reflexivity].
  - apply IH. intros z Hz. apply I. right. exact Hz.
Qed.
Lemma linv_block start vs states times u k n r : linv start vs states times ->
  sim ode newnp a b u (last states []) (step * qnat (S k))%Q n = Ok r -> ge1 n ->
  linv start (vs ++ repeat u (S k)) (states ++ fst r) (times ++ map (fun t => t + qnat (List.length vs) * step)%Q (snd r)).
Proof.
  intros [Sa Rg] H Hn. unfold sim in H. apply bind_ok in H as (m & Hm & H). apply bind_ok in H as (u1 & _ & H). apply bind_ok in H as (u2 & _ & H). assert (Er : r = (skipn 1 (map (ode a b u (last states [])) (linspace (step * qnat (S k)) m)), skipn 1 (linspace (step * qnat (S k)) m))) by congruence. clear H. rewrite Er. cbn [fst snd].
  apply linspace_ge2 in Hm; [|exact Hn]. assert (P := qnat_pos k). assert (Hamt : (0 < step * qnat (S k))%Q) by (apply Qmult_lt_0_compat; assumption).
  destruct (linspace_tail (step * qnat (S k))%Q m Hamt Hm) as (T1 & T2 & T3 & T4). rewrite skipn_map. set (ts := skipn 1 (linspace (step * qnat (S k)) m)) in *.
  set (E := (qnat (List.length vs) * step)%Q) in *. assert (HE : (0 <= E)%Q) by (apply Qmult_le_0_compat; [apply qnat_nn|lra]).
  assert (Tne : ts <> []) by (intro K; rewrite K in T4; cbn [List.length] in T4; lia).
  destruct Sa as [Pts [F1 F2] Inc Lst]. assert (Sne : states <> []). { intro K. rewrite K in Pts. inversion Pts. subst times. cbn [nth] in F1. discriminate F1. }
  assert (Hlen : List.length (vs ++ repeat u (S k)) = List.length vs + S k) by (rewrite app_length, repeat_length; reflexivity).
  assert (Hend : (qnat (List.length (vs ++ repeat u (S k))) * step == E + step * qnat (S k))%Q). { rewrite Hlen, qnat_plus. unfold E. ring. }
  rewrite Forall_forall in T2. rewrite Forall_forall in Rg.
  split; [constructor|].
  - apply Forall2_app.
    + assert (K : Forall2 (fun p t => same_pt p (held (ode a b) step vs start t) /\ In t times) states times).
      { apply F2_in; [exact Pts|intros x Hx; exact Hx]. }
      clear -K Rg F Hstep. induction K as [|p t l m [K1 K2] H2 IH]; constructor; [|exact IH]. eapply sp_trans; [exact K1|]. apply sp_sym.
      destruct (Rg t K2) as [R1 R2]. apply held_prefix; assumption.
    + assert (HL : same_pt (last states []) (held (ode a b) step vs start E)).
      { eapply sp_trans; [apply (last_F2 _ states times [] 0%Q Pts Sne)|]. apply held_ext; [exact F|apply sp_refl|exact Lst]. }
      clear T1 T3 T4 Tne Er. clearbody ts. revert T2. induction ts as [|t ts IH]; intro T2; cbn [map]; constructor.
      * destruct (T2 t (or_introl eq_refl)) as [B1 B2].
        eapply sp_trans; [|apply sp_sym; eapply sp_trans; [apply held_ext; [exact F|apply sp_refl|]|]; [|apply (held_split _ F _ Hstep); exact B1]]; [|unfold E; ring].
        eapply sp_trans; [apply (fl_ext _ F); [exact HL|reflexivity]|].
        apply sp_sym. rewrite <- (app_nil_r (repeat u (S k))). apply (held_block _ F _ Hstep); [exact B1|]. rewrite Qmult_comm. exact B2.
      * apply IH. intros x Hx. apply T2. right. exact Hx.
  - destruct times as [|t0 times]; [inversion Pts; subst; congruence|]. destruct states as [|s0 states]; [congruence|]. split; [exact F1|exact F2].
  - apply ss_app; [exact Inc| |].
    + clear -T1. induction T1 as [|x l S1 IH F1]; cbn [map]; constructor; [exact IH|]. apply Forall_forall. intros y Hy. apply in_map_iff in Hy as (z & <- & Hz).
      rewrite Forall_forall in F1. specialize (F1 z Hz). lra.
    + intros x y Hx Hy. apply in_map_iff in Hy as (z & <- & Hz). destruct (T2 z Hz) as [B1 _]. destruct (Rg x Hx) as [_ R2]. lra.
  - rewrite Hend. assert (Lm : forall l x, l <> [] -> (last (map (fun t => t + E)%Q l) x == last l 0%Q + E)%Q).
    { intros l x. induction l as [|y l IH]; [congruence|]. intros _. destruct l as [|z l]; [cbn; reflexivity|]. apply (IH ltac:(discriminate)). }
    assert (La : forall l1 l2 (x : Q), l2 <> [] -> last (l1 ++ l2) x = last l2 x).
    { clear. intros l1 l2 x N. induction l1 as [|y l1 IH]; [reflexivity|]. cbn [app]. destruct (l1 ++ l2) eqn:E; [apply app_eq_nil in E as [_ E]; congruence|]. exact IH. }
    rewrite La, Lm, T3 by (try exact Tne; intro K; apply map_eq_nil in K; exact (Tne K)). ring.
  - apply Forall_app. split; apply Forall_forall.
    + intros t Ht. destruct (Rg t Ht) as [R1 R2]. split; [exact R1|]. rewrite Hend. fold E in R2. lra.
    + intros y Hy. apply in_map_iff in Hy as (t & <- & Ht). destruct (T2 t Ht) as [B1 B2]. rewrite Hend. split; lra.
Qed.

Definition used (given vs : list (list Q)) : Prop := Forall2 (fun g v => vclose v g = true) given vs.
Lemma vclose_refl u : vclose u u = true.
Proof.
  unfold vclose. rewrite Nat.eqb_refl. cbn [andb]. induction u as [|x u IH]; [reflexivity|]. cbn [combine forallb fst snd]. rewrite IH, andb_true_r.
  unfold close. apply Qle_bool_iff. assert (E : (x - x == 0)%Q) by ring. rewrite E. change (Qabs 0) with 0%Q. assert (A := Qabs_nonneg x). lra.
Qed.
Lemma combine_used u us k : combine_steps u us = Ok k -> k <= List.length us /\ used (firstn k us) (repeat u k).
Proof.
  revert k. induction us as [|v us IH]; intros k H; cbn [combine_steps] in H.
  - injection H as <-. split; [apply le_n|constructor].
  - destruct (_ =? _) in H; [|discriminate]. destruct (vclose u v) eqn:E.
    + apply bind_ok in H as (j & Hj & H). injection H as <-. destruct (IH j Hj) as [I1 I2]. cbn [List.length firstn repeat]. split; [lia|]. constructor; assumption.
    + injection H as <-. split; [cbn [List.length]; lia|constructor].
Qed.
Lemma sim_inputs_ok fuel : forall start gs vs us states times r, linv start vs states times -> used gs vs ->
  sim_inputs ode newnp fuel a b scalar step spi (List.length vs) us states times = Ok r ->
  exists vs', used (gs ++ us) vs' /\ linv start vs' (fst r) (snd r).
Proof.
  induction fuel as [|fuel IH]; intros start gs vs us states times r V U H.
  - destruct us as [|u us]; cbn [sim_inputs] in H; [|discriminate]. injection H as <-. exists vs. rewrite app_nil_r. auto.
  - destruct us as [|u us]; cbn [sim_inputs] in H; [injection H as <-; exists vs; rewrite app_nil_r; auto|].
    apply bind_ok in H as (k & Hk & H). apply bind_ok in H as (u1 & _ & H). apply bind_ok in H as (r1 & Hr & H). apply combine_used in Hk as [Hl Hu].
    assert (V2 := linv_block _ _ _ _ u k _ _ V Hr (nmul_ge1 spi k Hspi)).
    assert (E : List.length vs + S k = List.length (vs ++ repeat u (S k))) by (rewrite app_length, repeat_length; reflexivity). rewrite E in H.
    assert (U2 : used (gs ++ u :: firstn k us) (vs ++ repeat u (S k))).
    { apply Forall2_app; [exact U|]. constructor; [apply vclose_refl|exact Hu]. }
    destruct (IH start _ _ _ _ _ _ V2 U2 H) as (vs' & K1 & K2). exists vs'. split; [|exact K2].
    rewrite <- app_assoc in K1. cbn [app] in K1. rewrite firstn_skipn in K1. exact K1.
Qed.
End Loop.

(** ** C54 *)
(** the inputs of the call: none means the number 0 in every step *)
Definition given_inputs (inputs : option (list (list Q))) (step max_time : Q) : list (list Q) :=
  match inputs with Some us => us | None => repeat [0%Q] (Z.to_nat (py_round (max_time / step))) end.
(** the errors reported: distance of the last state from the expected value in the normal direction, absolute and relative *)
Definition errors_of (d : trace_data) (p normal : list Q) (end_val : Q) : Prop :=
  let v := ldot normal 0 (of_list p) in
  (td_abs d == Qabs (v - end_val))%Q /\ (td_rel d == if Qeq_bool v 0 then 0 else Qabs (v - end_val) / Qabs v)%Q.

Lemma check_inv ode newnp a b step max_time start inputs normal end_val approx states times d :
  check ode newnp a b step max_time start inputs normal end_val approx = Ok (states, times, d) ->
  sim_inputs ode newnp (List.length (given_inputs inputs step max_time)) a b (match inputs with Some _ => false | None => true end) step
    (samples_per_input approx (List.length (given_inputs inputs step max_time))) 0 (given_inputs inputs step max_time) [start] [0%Q] = Ok (states, times) /\
  td_time d = max_time /\ errors_of d (last states []) normal end_val.
Proof.
  unfold check. intro H. apply bind_ok in H as (u1 & _ & H). apply bind_ok in H as (u2 & _ & H). apply bind_ok in H as (u3 & _ & H).
  destruct (Qeq_bool step 0); [discriminate H|]. apply bind_ok in H as (u4 & _ & H). apply bind_ok in H as (u5 & _ & H). apply bind_ok in H as ([st ti] & Hs & H).
  apply bind_ok in H as (v & Hv & H). assert (E : (st, ti) = (states, times) /\ d = mkTd max_time (Qabs (v - end_val)) (if Qeq_bool (Qabs v) 0 then 0%Q else (Qabs (v - end_val) / Qabs v)%Q)).
  { split; congruence. } destruct E as [E ->]. injection E as -> ->. split; [exact Hs|]. split; [reflexivity|].
  unfold pt_dot in Hv. destruct (_ =? _) in Hv; [|discriminate Hv]. assert (Ev : v = ldot normal 0 (of_list (last states []))) by congruence. subst v.
  unfold errors_of. cbn [td_abs td_rel]. split; [reflexivity|]. set (w := ldot normal 0 (of_list (last states []))).
  assert (E : Qeq_bool (Qabs w) 0 = Qeq_bool w 0).
  { destruct (Qeq_bool w 0) eqn:E1.
    - apply Qeq_bool_iff in E1. apply Qeq_bool_iff. rewrite E1. reflexivity.
    - destruct (Qeq_bool (Qabs w) 0) eqn:E2; [|reflexivity]. apply Qeq_bool_iff in E2. rewrite <- E1. symmetry. apply Qeq_bool_iff.
      assert (L1 := Qle_Qabs w). assert (L2 := Qle_Qabs (- w)). rewrite Qabs_opp in L2. lra. }
  rewrite E. destruct (Qeq_bool w 0); reflexivity.
Qed.

(** A successful check returns samples of the trajectory for inputs that are np.allclose to the ones given, at increasing times from 0 to
    the end of the last input, and reports the distances of its last state. *)
Theorem C54_check ode newnp a b step max_time start inputs normal end_val approx states times d :
  flow (ode a b) -> (0 < step)%Q ->
  check ode newnp a b step max_time start inputs normal end_val approx = Ok (states, times, d) ->
  (exists vs, Forall2 (fun given v => vclose v given = true) (given_inputs inputs step max_time) vs /\ samples (ode a b) step vs start states times) /\
  td_time d = max_time /\ errors_of d (last states []) normal end_val.
Proof.
  intros F Hs H. apply check_inv in H as (H & Ht & He). split; [|split; assumption].
  assert (V : linv ode a b step start [] [start] [0%Q]).
  { constructor; [constructor|].
    - constructor; [|constructor]. apply sp_refl.
    - split; reflexivity.
    - constructor; [constructor|constructor].
    - cbn [last List.length]. change (qnat 0) with 0%Q. ring.
    - constructor; [|constructor]. cbn [List.length]. change (qnat 0) with 0%Q. lra. }
  destruct (sim_inputs_ok ode newnp a b _ step _ F Hs (spi_ge1 approx _) _ start [] [] _ _ _ _ V (Forall2_nil _) H) as (vs & U & V2).
  exists vs. split; [exact U|]. exact (li_sa _ _ _ _ _ _ _ _ V2).
Qed.

(** If inputs that are np.allclose are equal, these are the inputs given. *)
Theorem C54_check_exact ode newnp a b step max_time start inputs normal end_val approx states times d :
  flow (ode a b) -> (0 < step)%Q ->
  (forall u v, In u (given_inputs inputs step max_time) -> In v (given_inputs inputs step max_time) -> vclose u v = true -> u = v) ->
  check ode newnp a b step max_time start inputs normal end_val approx = Ok (states, times, d) ->
  samples (ode a b) step (given_inputs inputs step max_time) start states times.
Proof.
  intros F Hs Heq H. apply check_inv in H as (H & _ & _). set (us := given_inputs inputs step max_time) in *.
  assert (V : linv ode a b step start [] [start] [0%Q]).
  { constructor; [constructor|].
    - constructor; [|constructor]. apply sp_refl.
    - split; reflexivity.
    - constructor; [constructor|constructor].
    - cbn [last List.length]. change (qnat 0) with 0%Q. ring.
    - constructor; [|constructor]. cbn [List.length]. change (qnat 0) with 0%Q. lra. }
  (* with equal inputs a combined block repeats the inputs given *)
  assert (K : forall fuel vs rest states0 times0 r, linv ode a b step start vs states0 times0 -> us = vs ++ rest ->
    sim_inputs ode newnp fuel a b (match inputs with Some _ => false | None => true end) step (samples_per_input approx (List.length us)) (List.length vs) rest states0 times0 = Ok r ->
    linv ode a b step start us (fst r) (snd r)).
  { induction fuel as [|fuel IH]; intros vs rest states0 times0 r V0 E K.
    - destruct rest as [|u rest]; cbn [sim_inputs] in K; [|discriminate]. injection K as <-. rewrite E, app_nil_r. exact V0.
    - destruct rest as [|u rest]; cbn [sim_inputs] in K; [injection K as <-; rewrite E, app_nil_r; exact V0|].
      apply bind_ok in K as (k & Hk & K). apply bind_ok in K as (u1 & _ & K). apply bind_ok in K as (r1 & Hr & K).
      assert (V2 := linv_block ode newnp a b step F Hs _ _ _ _ u k _ _ V0 Hr (nmul_ge1 _ k (spi_ge1 approx _))).
      assert (Ek : firstn k rest = repeat u k).
      { apply combine_used in Hk as [Hl Hu].
        assert (Hin : forall v, In v (firstn k rest) -> u = v -> True) by auto. clear Hin.
        assert (I : incl (firstn k rest) us). { intros v Hv. rewrite E. apply in_or_app. right. right. rewrite <- (firstn_skipn k rest). apply in_or_app. left. exact Hv. }
        assert (Iu : In u us) by (rewrite E; apply in_or_app; right; left; reflexivity).
        clear -Hu I Iu Heq Hl. remember (firstn k rest) as l eqn:El. assert (Ll : List.length l = k) by (rewrite El; apply firstn_length_le; exact Hl). clear El Hl rest.
        revert k Ll Hu. induction l as [|v l IH]; intros k Ll Hu; destruct k as [|k]; try discriminate Ll; [reflexivity|]. cbn [repeat] in *. inversion Hu as [|? ? ? ? H1 H2]; subst.
        rewrite <- (Heq u v Iu (I v (or_introl eq_refl)) H1). f_equal. injection Ll as Ll. apply IH; [intros z Hz; apply I; right; exact Hz|exact Ll|exact H2]. }
      assert (E2 : us = (vs ++ repeat u (S k)) ++ skipn k rest).
      { rewrite E, <- app_assoc. cbn [repeat app]. rewrite <- Ek, firstn_skipn. reflexivity. }
      assert (E3 : List.length vs + S k = List.length (vs ++ repeat u (S k))) by (rewrite app_length, repeat_length; reflexivity). rewrite E3 in K.
      exact (IH _ _ _ _ _ V2 E2 K). }
  exact (li_sa _ _ _ _ _ _ _ _ (K _ [] us _ _ _ V eq_refl H)).
Qed.

(** The arguments are valid: a square matrix, matching lengths, at most as many inputs as steps. *)
Record valid_call (a : csr) (b : option csr) (step max_time : Q) (start : list Q) (us : list (list Q)) (normal : list Q) : Prop := {
  va_dim : 0 < c_nr a; va_sq : c_nr a = c_nc a; va_start : List.length start = c_nr a; va_normal : List.length normal = c_nr a;
  va_step : (0 < step)%Q; va_time : (Qabs (inject_Z (py_round (max_time / step)) * step - max_time) < 1 # 1000000000)%Q;
  va_len : (Z.of_nat (List.length us) <= py_round (max_time / step))%Z;
  va_b : forall m, b = Some m -> c_nr m = c_nr a;
  va_us : exists w, (forall u, In u us -> List.length u = w) /\ (forall m, b = Some m -> c_nc m = w) }.

Lemma floor_nat m : Qfloor (qnat m) = Z.of_nat m.
Proof. unfold qnat. apply Qfloor_Z. Qed.
Definition int_num (newnp : bool) (x : num) : Prop := match x with NInt _ => True | NFloat q => newnp = false /\ exists m, (q == qnat m)%Q end.
Lemma linspace_len stop n : List.length (linspace stop n) = n.
Proof. unfold linspace. destruct n as [|[|k]]; [reflexivity|reflexivity|]. rewrite map_length, seq_length. reflexivity. Qed.
Lemma qnat_mul a b : (qnat (a * b) == qnat a * qnat b)%Q.
Proof. unfold qnat. rewrite Nat2Z.inj_mul, inject_Z_mult. reflexivity. Qed.
Lemma sim_total ode newnp a b u s amt x k : int_num newnp x -> exists r, sim ode newnp a b u s amt (nmul x k) = Ok r.
Proof.
  intro Hx. unfold sim. destruct x as [m|q]; cbn [nmul linspace_num int_num] in *.
  - cbn [bind]. rewrite !skipn_length, map_length, linspace_len. replace (1 + m * k - 1) with (m * k) by lia. cbn [num_is]. rewrite Nat.eqb_refl. cbn [assert bind]. eexists. reflexivity.
  - destruct Hx as [-> (m & Hm)]. cbn [bind].
    assert (E : (1 + q * qnat k == qnat (1 + m * k))%Q) by (rewrite qnat_plus, qnat_mul, Hm; reflexivity).
    assert (E2 : Z.to_nat (Qfloor (1 + q * qnat k)) = 1 + m * k). { rewrite (Qfloor_comp _ _ E), floor_nat. apply Nat2Z.id. }
    rewrite E2. rewrite !skipn_length, map_length, linspace_len. replace (1 + m * k - 1) with (m * k) by lia. cbn [num_is].
    assert (E3 : Qeq_bool (qnat (m * k)) (q * qnat k) = true) by (apply Qeq_bool_iff; rewrite qnat_mul, Hm; reflexivity). rewrite E3. cbn [assert bind]. eexists. reflexivity.
Qed.
Lemma combine_total u us w : List.length u = w -> (forall v, In v us -> List.length v = w) -> exists k, combine_steps u us = Ok k /\ k <= List.length us.
Proof.
  intros Hu H. induction us as [|v us IH]; cbn [combine_steps List.length]; [exists 0; auto|]. rewrite Hu, (H v (or_introl eq_refl)), Nat.eqb_refl.
  destruct (vclose u v); [|exists 0; split; [reflexivity|lia]]. destruct IH as (k & -> & L); [intros z Hz; apply H; right; exact Hz|]. exists (S k). split; [reflexivity|lia].
Qed.
Lemma exists_last_or {A} (l : list A) : l = [] \/ exists l1 x, l = l1 ++ [x].
Proof. destruct l as [|y l]; [left; reflexivity|right]. destruct (exists_last (l := y :: l)) as (l1 & x & E); [discriminate|]. exists l1, x. exact E. Qed.
Lemma skipn_incl {A} k (l : list A) : incl (skipn k l) l.
Proof. intros x Hx. rewrite <- (firstn_skipn k l). apply in_or_app. right. exact Hx. Qed.
(** check returns whenever there are more inputs than samples asked for, or (numpy before 1.18) the samples divide evenly *)
Theorem C54_succeeds ode newnp a b step max_time start us normal end_val approx :
  (forall u s t, List.length s = c_nr a -> List.length (ode a b u s t) = c_nr a) ->
  valid_call a b step max_time start us normal ->
  approx < List.length us \/ (newnp = false /\ exists m, approx = m * Nat.max 1 (List.length us)) ->
  exists r, check ode newnp a b step max_time start (Some us) normal end_val approx = Ok r.
Proof.
  intros Hode V Hn. unfold check.
  rewrite (proj2 (Nat.ltb_lt _ _) (va_dim _ _ _ _ _ _ _ V)). rewrite <- (va_sq _ _ _ _ _ _ _ V), Nat.eqb_refl. rewrite (va_start _ _ _ _ _ _ _ V), Nat.eqb_refl. cbn [assert bind].
  assert (Hs := va_step _ _ _ _ _ _ _ V). destruct (Qeq_bool step 0) eqn:E0; [apply Qeq_bool_iff in E0; exfalso; lra|]. cbv zeta.
  assert (Et : negb (Qle_bool (1 # 1000000000) (Qabs (inject_Z (py_round (max_time / step)) * step - max_time))) = true).
  { assert (T := va_time _ _ _ _ _ _ _ V). destruct (Qle_bool _ _) eqn:K; [apply Qle_bool_iff in K; exfalso; lra|reflexivity]. }
  rewrite Et. cbn [assert bind]. rewrite (proj2 (Z.leb_le _ _) (va_len _ _ _ _ _ _ _ V)). cbn [assert bind].
  assert (Hi : int_num newnp (samples_per_input approx (List.length us))).
  { unfold samples_per_input. destruct (Qle_bool 1 _) eqn:E1; [|exact Logic.I]. cbn [int_num]. destruct Hn as [Hn|[Hn (m & Hm)]].
    - exfalso. apply Qle_bool_iff in E1. assert (P := qnat_pos (pred (Nat.max 1 (List.length us)))). replace (S (pred (Nat.max 1 (List.length us)))) with (Nat.max 1 (List.length us)) in P by lia.
      assert (L : (qnat approx / qnat (Nat.max 1 (List.length us)) < 1)%Q). { apply Qlt_shift_div_r; [exact P|]. rewrite Qmult_1_l. apply qnat_lt. lia. } lra.
    - split; [exact Hn|]. exists m. rewrite Hm, qnat_mul. assert (P := qnat_pos (pred (Nat.max 1 (List.length us)))). replace (S (pred (Nat.max 1 (List.length us)))) with (Nat.max 1 (List.length us)) in P by lia.
      field. intro K. rewrite K in P. discriminate P. }
  destruct (va_us _ _ _ _ _ _ _ V) as (w & Hw & Hb).
  assert (K : forall fuel rest index states times, incl rest us -> List.length rest <= fuel -> List.length (last states []) = c_nr a ->
    exists r, sim_inputs ode newnp fuel a b false step (samples_per_input approx (List.length us)) index rest states times = Ok r /\ List.length (last (fst r) []) = c_nr a).
  { induction fuel as [|fuel IH]; intros rest index states times I L HL; (destruct rest as [|u rest]; [exists (states, times); split; [reflexivity|exact HL]|]); cbn [List.length] in L; [lia|].
    cbn [sim_inputs]. destruct (combine_total u rest w (Hw u (I u (or_introl eq_refl)))) as (k & -> & Hk). { intros v Hv. apply Hw, I. right. exact Hv. } cbn [bind].
    assert (Hd : der_ok a b false u = Ok tt). { unfold der_ok. destruct b as [m|]; [|reflexivity]. rewrite (Hb m eq_refl), (Hw u (I u (or_introl eq_refl))), (va_b _ _ _ _ _ _ _ V m eq_refl), !Nat.eqb_refl. reflexivity. }
    rewrite Hd. cbn [bind]. destruct (sim_total ode newnp a b u (last states []) (step * qnat (S k))%Q _ (S k) Hi) as (r & Hr). rewrite Hr. cbn [bind].
    apply IH.
    - intros v Hv. apply I. right. apply (skipn_incl k). exact Hv.
    - rewrite skipn_length. lia.
    - unfold sim in Hr. apply bind_ok in Hr as (m & _ & Hr). apply bind_ok in Hr as (u1 & _ & Hr). apply bind_ok in Hr as (u2 & _ & Hr).
      assert (Er : fst r = skipn 1 (map (ode a b u (last states [])) (linspace (step * qnat (S k)) m))) by (assert (Er : (skipn 1 (map (ode a b u (last states [])) (linspace (step * qnat (S k)) m)), skipn 1 (linspace (step * qnat (S k)) m)) = r) by congruence; rewrite <- Er; reflexivity).
      clear Hr. rewrite Er. assert (G : forall (l l' : list (list Q)), (forall x, In x l -> List.length x = c_nr a) -> List.length (last l' []) = c_nr a -> List.length (last (l' ++ l) []) = c_nr a).
      { clear. intros l l' H1 H2. destruct (exists_last_or l) as [->|(l1 & x & ->)].
        - rewrite app_nil_r. exact H2.
        - rewrite app_assoc, last_last. apply H1. apply in_or_app. right. left. reflexivity. }
      apply G; [|exact HL]. intros x Hx. apply skipn_incl in Hx. apply in_map_iff in Hx as (t & <- & _). apply Hode. exact HL. }
  destruct (K (List.length us) us 0 [start] [0%Q] (incl_refl _) (le_n _) (va_start _ _ _ _ _ _ _ V)) as ([st ti] & Hr & HL). rewrite Hr. cbn [bind fst] in *.
  unfold pt_dot. rewrite HL, (va_normal _ _ _ _ _ _ _ V), Nat.eqb_refl. cbn [bind]. eexists. reflexivity.
Qed.

(** With numpy 1.18 or later a call with at most approx_samples inputs (the default is 2000) never returns. *)
Theorem C54_default_samples_refuted ode a b step max_time start inputs normal end_val approx :
  given_inputs inputs step max_time <> [] -> List.length (given_inputs inputs step max_time) <= approx ->
  forall r, check ode true a b step max_time start inputs normal end_val approx <> Ok r.
Proof.
  intros N L [[st ti] d] H. apply check_inv in H as (H & _ & _). set (us := given_inputs inputs step max_time) in *.
  assert (E : exists q, samples_per_input approx (List.length us) = NFloat q).
  { unfold samples_per_input. destruct (Qle_bool 1 _) eqn:E1; [eexists; reflexivity|]. exfalso. assert (K : Qle_bool 1 (qnat approx / qnat (Nat.max 1 (List.length us))) = true); [|congruence].
    apply Qle_bool_iff. assert (1 <= List.length us) by (destruct us; [congruence|cbn [List.length]; lia]).
    assert (P := qnat_pos (pred (Nat.max 1 (List.length us)))). replace (S (pred (Nat.max 1 (List.length us)))) with (Nat.max 1 (List.length us)) in P by lia.
    apply Qle_shift_div_l; [exact P|]. rewrite Qmult_1_l. apply qnat_le. lia. }
  destruct E as (q & E). rewrite E in H. destruct us as [|u us]; [congruence|]. cbn [List.length sim_inputs] in H.
  apply bind_ok in H as (k & _ & H). apply bind_ok in H as (u1 & _ & H). apply bind_ok in H as (r1 & H1 & _). discriminate H1.
Qed.

(** ** Examples: x' = u *)
Definition exa : csr := mkCsr 1 [[]].
Definition exb : csr := mkCsr 1 [[(0, 1%Q)]].
Definition exode (_ : csr) (_ : option csr) (u s : list Q) (t : Q) : list Q := match s, u with [x], [v] => [(x + v * t)%Q] | _, _ => s end.
Lemma exflow : flow (exode exa (Some exb)).
Proof.
  constructor.
  - intros u s s' t t' Hs Ht. unfold exode. destruct Hs as [|x y l m Hx [|]]; [constructor| |].
    + destruct u as [|v [|]]; repeat constructor; try assumption. rewrite Hx, Ht. reflexivity.
    + destruct u as [|v [|]]; repeat constructor; assumption.
  - intros u s. unfold exode. destruct s as [|x [|]]; [constructor| |apply sp_refl]. destruct u as [|v [|]]; try apply sp_refl. constructor; [ring|constructor].
  - intros u s t1 t2 _ _. unfold exode. destruct s as [|x [|]]; [constructor| |apply sp_refl]. destruct u as [|v [|]]; try apply sp_refl. constructor; [ring|constructor].
Qed.
Definition is_ok {A} (r : res A) : bool := match r with Ok _ => true | Err _ => false end.

(** three steps, the first two inputs equal: they are combined; more inputs than samples *)
Definition exus : list (list Q) := [[1%Q]; [1%Q]; [3%Q]].
Example C54_witness :
  valid_call exa (Some exb) (1 # 2) (3 # 2) [0%Q] exus [2%Q] /\
  (forall u v, In u exus -> In v exus -> vclose u v = true -> u = v) /\
  exists states times d, check exode true exa (Some exb) (1 # 2) (3 # 2) [0%Q] (Some exus) [2%Q] 5 2 = Ok (states, times, d) /\
    Forall2 (fun p x => same_pt p [x]) states [0; 1 # 2; 1; 5 # 2]%Q /\ (td_abs d == 0)%Q.
Proof.
  split; [|split].
  - constructor; try reflexivity.
    + cbn. lia.
    + intros m E. injection E as <-. reflexivity.
    + exists 1. split; [|intros m E; injection E as <-; reflexivity]. intros u [<-|[<-|[<-|[]]]]; reflexivity.
  - intros u v [<-|[<-|[<-|[]]]] [<-|[<-|[<-|[]]]] E; try reflexivity; vm_compute in E; discriminate E.
  - do 3 eexists. split; [vm_compute; reflexivity|]. split; [|vm_compute; reflexivity]. repeat (constructor; [constructor; [reflexivity|constructor]|]). constructor.
Qed.

(** Older numpy: three different inputs, 2000 samples: the AssertionError of sim (666.67 samples per input). *)
Theorem C54_uneven_samples_refuted :
  valid_call exa (Some exb) 1 3 [0%Q] [[1%Q]; [2%Q]; [3%Q]] [1%Q] /\
  check exode false exa (Some exb) 1 3 [0%Q] (Some [[1%Q]; [2%Q]; [3%Q]]) [1%Q] 6 2000 = Err EAssert.
Proof.
  split; [|vm_compute; reflexivity]. constructor; try reflexivity.
  - cbn. lia.
  - intros m E. injection E as <-. reflexivity.
  - exists 1. split; [|intros m E; injection E as <-; reflexivity]. intros u [<-|[<-|[<-|[]]]]; reflexivity.
Qed.

(** Inputs that are only close are replaced: the trajectory is not that of the inputs given. *)
Theorem C54_close_inputs_refuted :
  exists us states times d, check exode true exa (Some exb) 1 2 [0%Q] (Some us) [1%Q] 0 1 = Ok (states, times, d) /\
    ~ samples (exode exa (Some exb)) 1 us [0%Q] states times.
Proof.
  exists [[1%Q]; [(1000005 # 1000000)%Q]]. do 3 eexists. split; [vm_compute; reflexivity|].
  intros [P _ _ _]. inversion P as [|? ? ? ? _ P2]; subst. inversion P2 as [|? ? ? ? _ P3]; subst. inversion P3 as [|? ? ? ? P4 _]; subst.
  inversion P4 as [|? ? ? ? P5 _]; subst. vm_compute in P5. discriminate P5.
Qed.

(** Fewer inputs than steps: the simulation stops early although sim_time says max_time. *)
Theorem C54_sim_time_refuted :
  exists states times d, check exode true exa (Some exb) 1 5 [0%Q] (Some [[1%Q]; [2%Q]]) [1%Q] 0 1 = Ok (states, times, d) /\
    ~ (td_time d == last times 0)%Q.
Proof. do 3 eexists. split; [vm_compute; reflexivity|]. vm_compute. discriminate. Qed.

(** No inputs given although there is an input matrix: never returns. *)
Theorem C54_no_inputs_refuted ode newnp a m step max_time start normal end_val approx :
  (0 < py_round (max_time / step))%Z -> forall r, check ode newnp a (Some m) step max_time start None normal end_val approx <> Ok r.
Proof.
  intros P [[st ti] d] H. apply check_inv in H as (H & _ & _). cbn [given_inputs] in H. destruct (Z.to_nat _) as [|n] eqn:E in H; [lia|].
  cbn [repeat List.length sim_inputs] in H. apply bind_ok in H as (k & _ & H). apply bind_ok in H as (u1 & H1 & _). discriminate H1.
Qed.

(** The number of steps is the integer nearest to max_time / step, the even one of two (Python's round). *)
Theorem C54_step_count q :
  (Qabs (inject_Z (py_round q) - q) <= 1 # 2)%Q /\ ((Qabs (inject_Z (py_round q) - q) == 1 # 2)%Q -> Z.even (py_round q) = true).
Proof.
  unfold py_round. pose proof (Qfloor_le q) as L. pose proof (Qlt_floor q) as U. rewrite inject_Z_plus in U. change (inject_Z 1) with 1%Q in U.
  set (f := Qfloor q) in *. clearbody f.
  destruct (q - inject_Z f ?= 1 # 2)%Q eqn:C.
  - apply Qeq_alt in C. destruct (Z.even f) eqn:E.
    + split; [|reflexivity || (intros _; exact E)]. apply Qabs_Qle_condition. split; lra.
    + split; [|intros _]. { rewrite inject_Z_plus. change (inject_Z 1) with 1%Q. apply Qabs_Qle_condition. split; lra. }
      rewrite Z.even_add, E. reflexivity.
  - apply Qlt_alt in C. split. { apply Qabs_Qle_condition. split; lra. }
    intros H. exfalso. rewrite Qabs_neg in H by lra. lra.
  - apply Qgt_alt in C. rewrite inject_Z_plus. change (inject_Z 1) with 1%Q. split. { apply Qabs_Qle_condition. split; lra. }
    intros H. exfalso. rewrite Qabs_pos in H by lra. lra.
Qed.
Example C54_step_count_witness : py_round (5 # 2) = 2%Z /\ py_round (7 # 2) = 4%Z /\ py_round (26 # 10) = 3%Z.
Proof. vm_compute. auto. Qed.
