(** C60: when a node is split by deaggregation, and which one. *)
From Verif Require Import Base BaseFacts LpModel LpUtil Automaton StateSet CoreModel.
Open Scope nat_scope.

(** Specification.  Waiting successor o of node n, not concrete. *)
Definition pending (c : core) (o n : nat) : Prop := In o (c_wait c) /\ ss_conc (pstate c o) = false /\ o_parent (getO c o) = Some n.
(** Node n should be split: a successor is in an error mode, or two successors left it by different transitions. *)
Definition ambiguous (a : ha) (c : core) (n : nat) : Prop := exists o, pending c o n /\
  (is_error (get_mode a (ss_mode (pstate c o))) = true \/ exists o', pending c o' n /\ o_trans (getO c o') <> o_trans (getO c o)).
(** the nodes from a root to n, following the first parent of each *)
Inductive lineage (c : core) : nat -> list nat -> Prop :=
| lin_root n o r : n_parents (getN c n) = o :: r -> o_parent (getO c o) = None -> lineage c n [n]
| lin_step n o r p l : n_parents (getN c n) = o :: r -> o_parent (getO c o) = Some p -> lineage c p l -> lineage c n (l ++ [n]).
(** number of sets aggregated in a node *)
Definition size (c : core) (n : nat) : nat := List.length (n_parents (getN c n)).
(** the preference: m is the first aggregated node of the lineage, the last one, or the last of the largest ones *)
Definition preferred (p : deagk) (c : core) (l : list nat) (m : nat) : Prop := exists l1 l2, l = l1 ++ m :: l2 /\
  match p with
  | DRoot => forall x, In x l1 -> size c x <= 1
  | DLeaves => forall x, In x l2 -> size c x <= 1
  | DMost => (forall x, In x l1 -> size c x <= size c m) /\ (forall x, In x l2 -> size c x < size c m)
  end.

Section P.
Variable cf : cfg.
Variable a : ha.
Lemma lineage_of c : forall f n l, get_ancestors f c n = Ok l -> lineage c n l.
Proof.
  induction f as [|f IH]; intros n l H; [discriminate|]. cbn [get_ancestors] in H. destruct (n_parents (getN c n)) as [|o r] eqn:En; [discriminate|]. destruct (o_parent (getO c o)) as [p|] eqn:Ep.
  - apply bind_ok in H as (l' & H1 & H). injection H as <-. eapply lin_step; eauto.
  - injection H as <-. eapply lin_root; eauto.
Qed.
(** what the scan has seen of a prefix of the waiting list: the first transition out of each node *)
Definition wants (c : core) (w : list nat) (n : nat) : Prop := exists o, (In o w /\ ss_conc (pstate c o) = false /\ o_parent (getO c o) = Some n) /\
  (is_error (get_mode a (ss_mode (pstate c o))) = true \/ exists o', (In o' w /\ ss_conc (pstate c o') = false /\ o_parent (getO c o') = Some n) /\ o_trans (getO c o') <> o_trans (getO c o)).
Definition seen_ok (c : core) (w : list nat) (seen : list (nat * option nat)) : Prop :=
  (forall o p, In o w -> ss_conc (pstate c o) = false -> o_parent (getO c o) = Some p -> exists t, find (fun e => fst e =? p) seen = Some (p, t)) /\
  (forall p p' t, find (fun e => fst e =? p) seen = Some (p', t) -> exists o, In o w /\ ss_conc (pstate c o) = false /\ o_parent (getO c o) = Some p /\ o_trans (getO c o) = t).
Lemma onat_eqb_iff x y : onat_eqb x y = true <-> x = y.
Proof. destruct x, y; cbn; rewrite ?Nat.eqb_eq; split; congruence. Qed.
Lemma wants_more c w n o : wants c w n -> wants c (w ++ [o]) n.
Proof.
  intros (o1 & (A & B & D) & E). exists o1. split; [split; [apply in_or_app; auto|auto]|]. destruct E as [E|(o2 & (E1 & E2 & E3) & E4)]; [left; exact E|right]. exists o2. split; [split; [apply in_or_app; auto|auto]|exact E4].
Qed.
(** rv is None exactly when nothing of the prefix is wanted, and a wanted node otherwise *)
Definition rv_ok (c : core) (w : list nat) (rv : option nat) : Prop := match rv with None => forall n, ~ wants c w n | Some n => wants c w n end.
Lemma scan_ok c : forall w pre seen rv r, seen_ok c pre seen -> rv_ok c pre rv -> deagg_scan a c w seen rv = Ok r -> rv_ok c (pre ++ w) r.
Proof.
  induction w as [|o w IH]; intros pre seen rv r [S1 S2] R H; cbn [deagg_scan] in H; [injection H as <-; rewrite app_nil_r; exact R|].
  replace (pre ++ o :: w) with ((pre ++ [o]) ++ w) by (rewrite <- app_assoc; reflexivity).
  assert (HC : ss_conc (pstate c o) = true -> forall n, wants c (pre ++ [o]) n -> wants c pre n).
  { intros Ec n (o1 & (A & B & D) & E). assert (K : forall x, In x (pre ++ [o]) -> ss_conc (pstate c x) = false -> In x pre). { intros x Hx Hc. apply in_app_or in Hx as [Hx|[<-|[]]]; [exact Hx|congruence]. }
    exists o1. split; [auto|]. destruct E as [E|(o2 & (E1 & E2 & E3) & E4)]; [left; exact E|right]. exists o2. auto. }
  destruct (ss_conc (pstate c o)) eqn:Ec.
  - eapply IH; [| |exact H].
    + split; [|intros p p' t Hf; destruct (S2 p p' t Hf) as (o1 & A & B); exists o1; split; [apply in_or_app; auto|exact B]].
      intros o1 p Ho Hc Hp. apply in_app_or in Ho as [Ho|[<-|[]]]; [eauto|congruence].
    + destruct rv as [n|]; cbn [rv_ok] in *; [apply wants_more; exact R|intros n Hn; apply (R n); apply HC; auto].
  - set (rv1 := if is_error (get_mode a (ss_mode (pstate c o))) then o_parent (getO c o) else rv) in H. destruct (o_parent (getO c o)) as [p|] eqn:Ep; [|discriminate].
    assert (Ho : In o (pre ++ [o]) /\ ss_conc (pstate c o) = false /\ o_parent (getO c o) = Some p) by (split; [apply in_or_app; right; left; reflexivity|auto]).
    (* a wanted node of the longer prefix: wanted before, or p *)
    assert (HN : forall n, wants c (pre ++ [o]) n -> wants c pre n \/ (n = p /\ (is_error (get_mode a (ss_mode (pstate c o))) = true \/ exists o', In o' pre /\ ss_conc (pstate c o') = false /\ o_parent (getO c o') = Some p /\ o_trans (getO c o') <> o_trans (getO c o)))).
    { intros n (o1 & (A & B & D) & E). apply in_app_or in A as [A|[<-|[]]].
      - destruct E as [E|(o2 & (E1 & E2 & E3) & E4)]; [left; exists o1; auto|]. apply in_app_or in E1 as [E1|[<-|[]]]; [left; exists o1; split; [auto|right; exists o2; auto]|].
        right. rewrite Ep in E3. injection E3 as <-. split; [reflexivity|]. right. exists o1. split; [exact A|]. split; [exact B|]. split; [exact D|congruence].
      - rewrite Ep in D. injection D as <-. right. split; [reflexivity|]. destruct E as [E|(o2 & (E1 & E2 & E3) & E4)]; [left; exact E|]. apply in_app_or in E1 as [E1|[<-|[]]]; [right; exists o2; auto|congruence]. }
    assert (Hrv1 : match rv1 with Some n => wants c (pre ++ [o]) n | None => is_error (get_mode a (ss_mode (pstate c o))) = false /\ forall n, ~ wants c pre n end).
    { unfold rv1. destruct (is_error _) eqn:Ee; [exists o; split; [exact Ho|left; exact Ee]|]. destruct rv as [n|]; cbn [rv_ok] in R; [apply wants_more; exact R|auto]. }
    destruct (find (fun e => fst e =? p) seen) as [[p' t]|] eqn:Ef.
    + pose proof (find_some _ _ Ef) as [_ Epp]. cbn [fst] in Epp. apply Nat.eqb_eq in Epp. subst p'.
      eapply IH; [| |exact H].
      * split; [|intros q p' t' Hf; destruct (S2 q p' t' Hf) as (o1 & A & B); exists o1; split; [apply in_or_app; auto|exact B]].
        intros o1 q Hq Hc Hp. apply in_app_or in Hq as [Hq|[<-|[]]]; [eauto|]. rewrite Ep in Hp. injection Hp as <-. eauto.
      * destruct (S2 p p t Ef) as (o1 & A1 & A2 & A3 & A4). destruct (onat_eqb (o_trans (getO c o)) t) eqn:Et.
        -- apply onat_eqb_iff in Et. destruct rv1 as [n|]; cbn [rv_ok]; [exact Hrv1|]. destruct Hrv1 as [Ee Hno]. intros n Hn. destruct (HN n Hn) as [K|(-> & [K|(o2 & B1 & B2 & B3 & B4)])]; [apply (Hno n K)|congruence|].
           apply (Hno p). exists o1. split; [auto|right]. exists o2. split; [auto|]. congruence.
        -- cbn [rv_ok]. exists o. split; [exact Ho|right]. exists o1. split; [split; [apply in_or_app; left; exact A1|auto]|]. intro K. assert (onat_eqb (o_trans (getO c o)) t = true) by (apply onat_eqb_iff; congruence). congruence.
    + apply bind_ok in H as (u & _ & H).
      assert (Hnew : forall o1, In o1 pre -> ss_conc (pstate c o1) = false -> o_parent (getO c o1) = Some p -> False). { intros o1 B1 B2 B3. destruct (S1 o1 p B1 B2 B3) as (t & K). congruence. }
      assert (Hfa : forall q, find (fun e => fst e =? q) (seen ++ [(p, o_trans (getO c o))]) = match find (fun e => fst e =? q) seen with Some e => Some e | None => if p =? q then Some (p, o_trans (getO c o)) else None end).
      { intro q. clear. induction seen as [|e l IH]; cbn [app find fst]; [reflexivity|]. destruct (fst e =? q); [reflexivity|exact IH]. }
      eapply IH; [| |exact H].
      * split.
        -- intros o1 q Hq Hc Hp. rewrite Hfa. apply in_app_or in Hq as [Hq|[<-|[]]].
           ++ destruct (S1 o1 q Hq Hc Hp) as (t & K). rewrite K. eauto.
           ++ rewrite Ep in Hp. injection Hp as <-. rewrite Ef, Nat.eqb_refl. eauto.
        -- intros q p' t' Hf. rewrite Hfa in Hf. destruct (find (fun e => fst e =? q) seen) as [e|] eqn:Eq.
           ++ injection Hf as ->. destruct (S2 q p' t' Eq) as (o1 & A & B). exists o1. split; [apply in_or_app; auto|exact B].
           ++ destruct (Nat.eqb_spec p q) as [->|]; [|discriminate]. injection Hf as <- <-. exists o. split; [apply Ho|]. split; [exact Ec|]. auto.
      * destruct rv1 as [n|]; cbn [rv_ok]; [exact Hrv1|]. destruct Hrv1 as [Ee Hno]. intros n Hn. destruct (HN n Hn) as [K|(-> & [K|(o2 & B1 & B2 & B3 & B4)])]; [apply (Hno n K)|congruence|]. eapply Hnew; eauto.
Qed.
Lemma wants_iff c n : wants c (c_wait c) n <-> ambiguous a c n.
Proof. unfold wants, ambiguous, pending. reflexivity. Qed.

(** A node is split exactly when deaggregation is on and some node is ambiguous. *)
Theorem C60_when c r : get_deagg_node cf a c = Ok r -> (r <> None <-> (exists g, cf_strat cf = Some g /\ ag_deagg g = true) /\ exists n, ambiguous a c n).
Proof.
  unfold get_deagg_node. destruct (cf_strat cf) as [g|].
  2:{ intro H. injection H as <-. split; [congruence|intros ((g & K & _) & _); discriminate]. }
  destruct (ag_deagg g) eqn:Ed; cbn [negb].
  2:{ intro H. injection H as <-. split; [congruence|]. intros ((g' & K & K') & _). injection K as <-. congruence. }
  intro H. apply bind_ok in H as (rv & Hs & H). apply (scan_ok c _ [] [] None) in Hs; [|split; [intros ? ? []|discriminate]|intros n (o & ([] & _) & _)]. cbn [app] in Hs. destruct rv as [n|]; cbn [rv_ok] in Hs.
  - apply bind_ok in H as (anc & _ & H). destruct (filter _ _) as [|m l]; [discriminate|]. injection H as <-. split; [intros _|discriminate]. split; [exists g; auto|]. exists n. apply wants_iff. exact Hs.
  - injection H as <-. split; [congruence|]. intros (_ & n & K). apply wants_iff in K. destruct (Hs n K).
Qed.

Lemma sort_app c l x : sort_nodes c (l ++ [x]) = ins_stable c x (sort_nodes c l).
Proof. unfold sort_nodes. rewrite fold_left_app. reflexivity. Qed.
Lemma ins_end c x : forall l, (forall y, In y l -> size c y <= size c x) -> ins_stable c x l = l ++ [x].
Proof.
  induction l as [|y l IH]; intro H; [reflexivity|]. cbn [ins_stable app]. pose proof (H y (or_introl eq_refl)) as K. unfold size in K. apply Nat.leb_le in K. change (nparents c y) with (List.length (n_parents (getN c y))). change (nparents c x) with (List.length (n_parents (getN c x))). rewrite K.
  rewrite IH; [reflexivity|]. intros z Hz. apply H. right. exact Hz.
Qed.
Lemma ins_before c x M : size c x < size c M -> forall l, exists l', ins_stable c x (l ++ [M]) = l' ++ [M] /\ forall z, In z l' <-> z = x \/ In z l.
Proof.
  intro H. induction l as [|y l IH]; cbn [ins_stable app].
  - unfold nparents. unfold size in H. destruct (Nat.leb_spec (List.length (n_parents (getN c M))) (List.length (n_parents (getN c x)))); [lia|]. exists [x]. split; [reflexivity|]. intro z. cbn. split; intros [K|[]]; auto.
  - destruct (nparents c y <=? nparents c x).
    + destruct IH as (l' & E & K). exists (y :: l'). rewrite E. split; [reflexivity|]. intro z. cbn. rewrite K. tauto.
    + exists (x :: y :: l). split; [reflexivity|]. intro z. cbn. split; intros [K|K]; auto.
Qed.
Lemma sort_last c : forall l, l <> [] -> exists s' M l1 l2, sort_nodes c l = s' ++ [M] /\ l = l1 ++ M :: l2 /\ (forall z, In z s' -> In z l) /\ (forall x, In x l1 -> size c x <= size c M) /\ (forall x, In x l2 -> size c x < size c M).
Proof.
  induction l as [|x l IH] using rev_ind; intro Hne; [congruence|]. rewrite sort_app. destruct l as [|y l].
  - exists [], x, [], []. split; [reflexivity|]. split; [reflexivity|]. split; [intros z []|]. split; intros z [].
  - destruct (IH ltac:(discriminate)) as (s' & M & l1 & l2 & E1 & E2 & E3 & E4 & E5). rewrite E1.
    assert (Hall : forall z, In z (y :: l) -> size c z <= size c M). { intros z Hz. rewrite E2 in Hz. apply in_app_or in Hz as [Hz|[<-|Hz]]; [apply E4; exact Hz|lia|apply E5 in Hz; lia]. }
    destruct (le_lt_dec (size c M) (size c x)) as [Hle|Hlt].
    + exists (s' ++ [M]), x, (y :: l), []. split.
      * rewrite ins_end; [reflexivity|]. intros z Hz. apply in_app_or in Hz as [Hz|[<-|[]]]; [|exact Hle]. apply E3, Hall in Hz. lia.
      * split; [reflexivity|]. split; [|split; [intros z Hz; apply Hall in Hz; lia|intros z []]].
        intros z Hz. apply in_or_app. left. apply in_app_or in Hz as [Hz|[<-|[]]]; [apply E3; exact Hz|]. rewrite E2. apply in_or_app. right. left. reflexivity.
    + destruct (ins_before c x M Hlt s') as (l' & K1 & K2). exists l', M, l1, (l2 ++ [x]). split; [exact K1|]. split; [rewrite E2, <- app_assoc; reflexivity|]. split.
      * intros z Hz. apply in_or_app. apply K2 in Hz as [->|Hz]; [right; left; reflexivity|left; apply E3; exact Hz].
      * split; [exact E4|]. intros z Hz. apply in_app_or in Hz as [Hz|[<-|[]]]; [apply E5; exact Hz|exact Hlt].
Qed.
Lemma first_filter c : forall l m r, filter (fun m => 1 <? nparents c m) l = m :: r -> exists l1 l2, l = l1 ++ m :: l2 /\ (forall x, In x l1 -> size c x <= 1) /\ 1 < size c m.
Proof.
  induction l as [|y l IH]; intros m r H; [discriminate|]. cbn [filter] in H. destruct (1 <? nparents c y) eqn:E.
  - injection H as -> _. exists [], l. split; [reflexivity|]. split; [intros x []|]. apply Nat.ltb_lt in E. exact E.
  - destruct (IH m r H) as (l1 & l2 & -> & K1 & K2). exists (y :: l1), l2. split; [reflexivity|]. split; [|exact K2]. intros x [<-|Hx]; [apply Nat.ltb_ge in E; exact E|auto].
Qed.
(** The node that is split is an aggregated ancestor of (or itself) an ambiguous node, chosen by deagg_preference. *)
Theorem C60_which c m : get_deagg_node cf a c = Ok (Some m) ->
  exists g n l, cf_strat cf = Some g /\ ag_deagg g = true /\ ambiguous a c n /\ lineage c n l /\ 1 < size c m /\ preferred (ag_pref g) c l m.
Proof.
  unfold get_deagg_node. destruct (cf_strat cf) as [g|]; [|discriminate]. destruct (ag_deagg g) eqn:Ed; cbn [negb]; [|discriminate].
  intro H. apply bind_ok in H as (rv & Hs & H). apply (scan_ok c _ [] [] None) in Hs; [|split; [intros ? ? []|discriminate]|intros n (o & ([] & _) & _)]. cbn [app] in Hs. destruct rv as [n|]; [|discriminate]. cbn [rv_ok] in Hs.
  apply bind_ok in H as (l & Hl & H). apply lineage_of in Hl. exists g, n, l. split; [reflexivity|]. split; [exact Ed|]. split; [apply wants_iff; exact Hs|]. split; [exact Hl|].
  destruct (filter _ _) as [|m' r] eqn:Ef; [discriminate|]. injection H as ->. apply first_filter in Ef as (l1 & l2 & E & K1 & K2). split; [exact K2|]. unfold preferred. destruct (ag_pref g).
  - apply (f_equal (@rev nat)) in E. rewrite rev_involutive, rev_app_distr in E. cbn [rev] in E. rewrite <- app_assoc in E. exists (rev l2), (rev l1). split; [exact E|]. intros x Hx. apply K1. apply in_rev. exact Hx.
  - exists l1, l2. auto.
  - assert (Hne : l <> []) by (intro K; subst l; destruct l1; discriminate). destruct (sort_last c l Hne) as (s' & M & j1 & j2 & E1 & E2 & E3 & E4 & E5).
    rewrite E1, rev_app_distr in E. cbn [rev app] in E. destruct l1 as [|y l1]; cbn [app] in E; injection E as E E'.
    + subst M. exists j1, j2. auto.
    + exfalso. subst y. pose proof (K1 M (or_introl eq_refl)) as KM. assert (Hm : In m l). { apply E3. apply in_rev. rewrite E'. apply in_or_app. right. left. reflexivity. }
      rewrite E2 in Hm. apply in_app_or in Hm as [Hm|[->|Hm]]; [apply E4 in Hm|..|apply E5 in Hm]; lia.
Qed.
End P.

From Verif Require Import Solver Ex_Core CoreDag3.
Open Scope nat_scope.
(** Non-vacuity: in the analysis of Ex_Core.v, with deaggregation, a state is reached where the aggregated node is split. *)
Fixpoint steps (n : nat) (cf : cfg) (a : ha) (c : core) : core := match n with 0 => c | S k => match do_step fm_solver arn0 cf a c with Ok c' => steps k cf a c' | Err _ => c end end.
Definition exY_cf : cfg := mkCfg 6 1 false true false true false true false (Some (mkAgg ABox PAvg false true true DMost)).
Definition exY_a : ha := getr (mkHa [] []) (setup_ha exY_cf (exC (-(3#2)))).
Definition exY_c (n : nat) : core := steps n exY_cf exY_a (getr core0 (setup fm_solver exY_a [exC_s])).
Lemma steps_reached cf a inits : forall n c, reached fm_solver arn0 cf a inits c -> reached fm_solver arn0 cf a inits (steps n cf a c).
Proof.
  induction n as [|n IH]; intros c H; cbn [steps]; [exact H|]. destruct (do_step fm_solver arn0 cf a c) as [c'|e] eqn:E; [|exact H].
  apply IH. eapply r_step; eassumption.
Qed.
Definition is_okb {A : Type} (r : res A) : bool := match r with Ok _ => true | Err _ => false end.
Lemma is_okb_get {A : Type} (d : A) r : is_okb r = true -> r = Ok (getr d r).
Proof. destruct r; [reflexivity|discriminate]. Qed.
Lemma exY_setup : setup fm_solver exY_a [exC_s] = Ok (getr core0 (setup fm_solver exY_a [exC_s])).
Proof. apply is_okb_get. vm_compute. reflexivity. Qed.
Definition exY_check : bool := match get_deagg_node exY_cf exY_a (exY_c 12) with Ok (Some m) => m =? 1 | _ => false end.
Lemma exY_checked : exY_check = true. Proof. vm_compute. reflexivity. Qed.
Lemma exY_split : get_deagg_node exY_cf exY_a (exY_c 12) = Ok (Some 1).
Proof. pose proof exY_checked as H. unfold exY_check in H. destruct (get_deagg_node _ _ _) as [[m|]|]; try discriminate H. apply Nat.eqb_eq in H. rewrite H. reflexivity. Qed.
Example C60_witness : exists c, reached fm_solver arn0 exY_cf exY_a [exC_s] c /\ get_deagg_node exY_cf exY_a c = Ok (Some 1).
Proof. exists (exY_c 12). split; [|exact exY_split]. apply steps_reached. apply r_setup. exact exY_setup. Qed.
