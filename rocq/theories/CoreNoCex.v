(** With the convex-hull approximation model no counter-example can ever be built: the columns of a hull have no name "m<id>_i0" (for C66). *)
From Verif Require Import Base BaseFacts LpModel LpSpec LpUtil LpFacts LpWf OpsFacts Automaton StateSet StateFacts CoreModel HeapFacts CoreOps CorePop CoreExt CoreDag CoreDag2 CoreDag3 CoreLive CoreLive2 CoreIvl CoreIvl2 CoreIvl3 CoreSubD Names CexSpec NameFacts Layout TraceLp CexD Approx CoreApprox Prop_Core2 CoreTermA.
From Coq Require Import String Lia.
Open Scope list_scope.
Open Scope nat_scope.

(** ** names that never start a segment *)
Definition nx (x : string) : Prop := String.prefix "m" x && has_sub "_i0" x = false.
Definition nxs (l : lp) : Prop := Forall nx (l_names l).
Lemma nx_other x : String.prefix "m" x = false -> nx x.
Proof. intro H. unfold nx. rewrite H. reflexivity. Qed.
Lemma nx_map p n : (forall k, String.prefix "m" (p ++ sn k)%string = false) -> Forall nx (map (fun i => (p ++ sn i)%string) (seq 0 n)).
Proof. intro H. apply Forall_forall. intros x Hx. apply in_map_iff in Hx as (k & <- & _). apply nx_other, H. Qed.
Lemma nx_names tag mid s n : no_us tag = true -> (forall k, String.prefix "i0" (tag ++ sn k)%string = false) -> Forall nx (names_of tag mid s n).
Proof. intros H1 H2. apply Forall_forall. intros x Hx. apply in_map_iff in Hx as (k & <- & _). unfold nx. rewrite (has_sub_nm "i0" tag mid k H1), H2. apply andb_false_r. Qed.
Lemma nx_inp mid nu k : Forall nx (inp_names mid nu k).
Proof.
  unfold inp_names. induction k as [|k IH]; cbn [repeat List.concat]; [constructor|]. apply Forall_app. split; [apply nx_names; [reflexivity|intro; reflexivity]|exact IH].
Qed.

Lemma chull2_names l1 l2 l : chull2 l1 l2 = Ok l -> nxs l.
Proof.
  unfold chull2. intro H. apply bind_ok in H as (u & _ & H). apply bind_ok in H as (l0 & H0 & H). cbv zeta in H. apply bind_ok in H as (l3 & H3 & H). apply bind_ok in H as (l4 & H4 & H). apply ok_inj in H. subst l.
  assert (E0 : l_names l0 = []).
  { revert H0. unfold add_rows_with_types. intro H0. apply bind_ok in H0 as (u0 & _ & H0). apply ok_inj in H0. subst l0. reflexivity. }
  apply names_csr in H3. apply names_csr in H4. unfold nxs. cbn [l_names]. rewrite H4, H3, names_cols, E0. cbn [app].
  repeat (apply Forall_app; split); try (apply nx_map; intro; reflexivity). constructor; [reflexivity|constructor].
Qed.
Lemma given_names solve m rhs mid hi ts ns dims l : from_constraints solve m rhs mid hi (Some (ts, ns)) dims = Ok l -> Forall nx ns -> nxs l.
Proof.
  intros H Hn. unfold from_constraints in H. apply bind_ok in H as (u0 & _ & H). apply bind_ok in H as (fe & _ & H). apply bind_ok in H as (u1 & _ & H). apply bind_ok in H as (dd & _ & H).
  cbv zeta in H. apply bind_ok in H as (l0 & H0 & H). apply bind_ok in H as (l1 & H1 & H). apply bind_ok in H as (l2 & H2 & H).
  assert (E0 : Forall nx (l_names l0)).
  { unfold add_rows_with_types in H0. apply bind_ok in H0 as (u2 & _ & H0). apply ok_inj in H0. assert (E : l_names l0 = ns ++ names_of "c" mid 0 dd) by (rewrite <- H0; reflexivity). rewrite E. apply Forall_app. split; [exact Hn|]. apply nx_names; [reflexivity|intro; reflexivity]. }
  apply names_csr in H1. apply names_csr in H2. rewrite H1 in H2. clear H1 l1. assert (E2 : Forall nx (l_names l2)).
  { rewrite H2. destruct hi; [|exact E0]. rewrite names_cols. apply Forall_app. split; [exact E0|]. apply nx_names; [reflexivity|intro; reflexivity]. }
  unfold nxs. destruct hi.
  - apply bind_ok in H as (l3 & H3 & H). apply names_csr in H3. apply set_reach_vars_ok in H as (-> & _). cbn [l_names]. rewrite H3, names_eq0. exact E2.
  - apply set_reach_vars_ok in H as (-> & _). cbn [l_names]. exact E2.
Qed.
Lemma hull_names solve a s s' : apply_approx_chull solve a s = Ok s' -> nxs (ss_lpi s').
Proof.
  unfold apply_approx_chull. intro H. apply bind_ok in H as (o1 & _ & H). apply bind_ok in H as (o2 & _ & H). apply bind_ok in H as (o3 & _ & H). apply bind_ok in H as (l & H & E). apply ok_inj in E. subst s'. cbn [ss_with_lpi ss_lpi].
  cbn [aggregate_chull] in H. apply bind_ok in H as (news & Hn & H). apply bind_ok in Hn as (y1 & _ & Hn). apply bind_ok in Hn as (ys & Hy & Hn). apply bind_ok in Hy as (y2 & _ & Hy). cbn [bind] in Hy. apply ok_inj in Hy. subst ys. apply ok_inj in Hn. subst news.
  apply bind_ok in H as (l0 & H0 & H). apply chull2_names in H0. eapply given_names; eauto.
Qed.

Section NC.
Variable solve : solver.
Variable arnoldi : nat -> option (list Q) -> csr -> option csr -> nat -> list (list Q).
Variable cf : cfg.
Variable a : ha.
Variable ap : sset -> res sset.
Hypothesis Hap : forall s s', ap s = Ok s' -> nxs (ss_lpi s').
Hypothesis Hset : forall s s', ap s = Ok s' -> exists l, s' = ss_with_lpi s l.
Hypothesis Hce : cf_ce cf = true.
Hypothesis Hnd : no_deagg cf.
Notation linv := (linv cf a).

(** ** reading such names back *)
Lemma nx_name ns nv ce : nx (fst nv) -> ce_name a ns [] nv = Ok ce -> ce = [].
Proof.
  destruct nv as [x v]. cbn [fst]. unfold nx, ce_name. intros Hx H. rewrite Hx in H. cbn [bind] in H. destruct (String.prefix "m" x); cbn [upd_last rev] in H.
  - destruct (has_sub "_i" x); [discriminate|]. destruct (has_sub "_c" x); [discriminate|]. destruct (has_sub "_I" x); [discriminate|]. apply ok_inj in H. auto.
  - destruct (String.prefix "reset" x); [discriminate|]. apply ok_inj in H. auto.
Qed.
Lemma nx_read ns : forall names vs ce, Forall nx names -> ce_names a ns [] (combine names vs) = Ok ce -> ce = [].
Proof.
  induction names as [|x names IH]; intros vs ce Hf H; [apply ok_inj in H; auto|]. destruct vs as [|v vs]; [apply ok_inj in H; auto|]. cbn [combine ce_names] in H. inversion Hf as [|? ? Hx Hf']; subst.
  apply bind_ok in H as (c1 & H1 & H). apply nx_name in H1; [|exact Hx]. subst c1. eapply IH; eauto.
Qed.
Lemma no_cex c sid t tl ce : nxs tl -> make_counterexample solve a c sid t tl <> Ok ce.
Proof.
  intros Hn H. unfold make_counterexample in H. apply bind_ok in H as (sol & _ & H). destruct sol as [vals|]; [|discriminate]. apply bind_ok in H as (pre & _ & H). apply bind_ok in H as (ce1 & H1 & H).
  apply nx_read in H1; [|exact Hn]. subst ce1. discriminate H.
Qed.

(** no concrete error, no counter-example *)
Definition clean (c : core) : Prop := c_concerr c = false /\ c_cex c = [].
Lemma clean_error c sid t tl c' : clean c -> nxs tl -> error_reached solve cf a c sid t tl = Ok c' -> clean c' /\ exists ag co ce, c' = with_flags c ag co ce.
Proof.
  intros [E1 E2] Hn H. destruct (error_reached_ok solve cf a c sid t tl c' H) as (ag & co & ce & E & _ & _ & _ & K & _). split; [|eauto]. destruct (ss_conc (getS c sid)) eqn:Ec.
  - exfalso. unfold error_reached in H. rewrite Ec in H. cbn [negb] in H. rewrite andb_false_r in H. rewrite E1 in H. cbn [negb andb with_flags c_cex] in H. rewrite Hce, E2 in H. cbn [List.length Nat.eqb andb] in H.
    apply bind_ok in H as (ce' & H & _). exact (no_cex _ _ _ _ _ Hn H).
  - destruct (K eq_refl) as (_ & K2 & K3). subst c'. split; cbn [with_flags c_concerr c_cex]; congruence.
Qed.

(** ** frames *)
Definition fr (c c' : core) : Prop := c_concerr c' = c_concerr c /\ c_cex c' = c_cex c /\ c_rep c' = c_rep c /\ c_dwait c' = c_dwait c.
Lemma fr_refl c : fr c c. Proof. repeat split. Qed.
Lemma fr_trans c1 c2 c3 : fr c1 c2 -> fr c2 c3 -> fr c1 c3.
Proof. intros (A1 & A2 & A3 & A4) (B1 & B2 & B3 & B4). repeat split; congruence. Qed.
Lemma fr_clean c c' : fr c c' -> clean c -> clean c'.
Proof. intros (A1 & A2 & _) [B1 B2]. split; congruence. Qed.
Lemma fr_push n xs : forall c, fr c (push_ops c n xs) /\ c_states (push_ops c n xs) = c_states c /\ c_cur (push_ops c n xs) = c_cur c /\ forall m, n_state (getN (push_ops c n xs) m) = n_state (getN c m).
Proof.
  unfold push_ops. induction xs as [|x xs IH]; intro c; cbn [fold_left]; [repeat split|]. destruct (IH (push_op c n x)) as (A & B & C & D). split; [eapply fr_trans; [|exact A]; repeat split|]. split; [rewrite B; reflexivity|]. split; [rewrite C; reflexivity|].
  intro m. rewrite D. apply n_state_push.
Qed.
Lemma fr_put sids : forall c ls, fr c (put_lps c sids ls).
Proof. induction sids as [|i sids IH]; intros c [|l ls]; cbn [put_lps]; try apply fr_refl. eapply fr_trans; [|apply IH]. repeat split. Qed.
Lemma fr_childs n ops : forall c, fr c (fold_left (fun c o => set_child c o n) ops c).
Proof. induction ops as [|o ops IH]; intro c; cbn [fold_left]; [apply fr_refl|]. eapply fr_trans; [|apply IH]. repeat split. Qed.
Lemma fr_node c ops agg str c1 n : make_node solve arnoldi a c ops agg str = Ok (c1, n) -> fr c c1.
Proof.
  intro K. unfold make_node in K. apply bind_ok in K as ([c2 sid] & H1 & K). apply ok_inj in K.
  assert (E2 : fr c c2).
  { assert (Q : forall os, (do r <- aggregate_states solve arnoldi a c os agg; let '(c3, s) := r in Ok (with_states c3 (c_states c3 ++ [s]), List.length (c_states c3))) = Ok (c2, sid) -> fr c c2).
    { intros os Hq. apply bind_ok in Hq as ([c3 s] & Hq1 & Hq). apply ok_inj in Hq. injection Hq as <- _. change (fr c c3). unfold aggregate_states in Hq1. destruct agg as [[kd g]|]; [|discriminate].
      destruct kd; try (destruct (m_a _) in Hq1; [|discriminate]; apply bind_ok in Hq1 as (? & _ & Hq1); apply bind_ok in Hq1 as (? & _ & Hq1); apply bind_ok in Hq1 as (? & _ & Hq1); apply ok_inj in Hq1; injection Hq1 as <- _; apply fr_put).
      apply bind_ok in Hq1 as (? & _ & Hq1). apply bind_ok in Hq1 as (? & _ & Hq1). apply ok_inj in Hq1. injection Hq1 as <- _. apply fr_refl. }
    destruct ops as [|o [|o2 ops]]; [exact (Q _ H1)| |exact (Q _ H1)]. apply ok_inj in H1. injection H1 as <- _. apply fr_refl. }
  eapply fr_trans; [exact E2|]. set (c3 := setS c2 sid _) in K. change (fr c3 c1). destruct (existsb _ _) in K; injection K as <- _; (eapply fr_trans; [apply fr_childs|]; repeat split).
Qed.
Lemma fr_pop c c1 n : pop_waiting_list solve arnoldi cf a c = Ok (c1, n) -> fr c c1.
Proof.
  intro H. unfold pop_waiting_list in H. apply bind_ok in H as (ops & _ & H). apply bind_ok in H as (u & _ & H). apply bind_ok in H as (agg & _ & H). apply bind_ok in H as ([c2 n2] & Hm & H). apply ok_inj in H. injection H as <- _.
  apply fr_node in Hm. exact Hm.
Qed.
Lemma fr_left c n sid b : fr c (left_invariant c n sid b). Proof. repeat split. Qed.

(** ** the guards of a state whose columns do not start a segment *)
Definition fr2 (c c' : core) (sid : nat) : Prop := c_rep c' = c_rep c /\ c_dwait c' = c_dwait c /\ c_cur c' = c_cur c /\ nS c <= nS c' /\ (forall m, n_state (getN c' m) = n_state (getN c m)).
Lemma fr2_trans c1 c2 c3 s : fr2 c1 c2 s -> fr2 c2 c3 s -> fr2 c1 c3 s.
Proof. intros (A1 & A2 & A3 & A4 & A5) (B1 & B2 & B3 & B4 & B5). split; [congruence|]. split; [congruence|]. split; [congruence|]. split; [lia|]. intro m. rewrite B5. apply A5. Qed.
Lemma fr2_set c i s sid : fr2 c (setS c i s) sid.
Proof. split; [reflexivity|]. split; [reflexivity|]. split; [reflexivity|]. split; [rewrite nS_setS; lia|reflexivity]. Qed.
Lemma add_clean c t tl sid nid c' : sid < nS c -> clean c -> add_transition_successor solve cf a c t tl sid nid = Ok c' -> clean c' /\ getS c' sid = getS c sid /\ fr2 c c' sid.
Proof.
  intros Hs Hc H. unfold add_transition_successor in H. apply bind_ok in H as ([c1 o] & H1 & H). apply make_op_ptr in H1 as [[-> ->]|[-> (s & ctr & _ & _ & _ & ->)]].
  - apply ok_inj in H. subst c'. split; [exact Hc|]. split; [reflexivity|]. repeat split; auto.
  - apply ok_inj in H. subst c'. split; [exact Hc|]. split; [unfold getS; ccbn; rewrite app_nth1 by exact Hs; reflexivity|]. split; [reflexivity|]. split; [reflexivity|]. split; [reflexivity|].
    split; [change (nS c <= List.length (c_states c ++ [s])); rewrite app_length; unfold nS; lia|]. intro m. exact (n_state_push _ _ _ _).
Qed.
Lemma guards_clean nid sid ts : forall c c', sid < nS c -> clean c -> nxs (ss_lpi (getS c sid)) -> check_guards_loop solve cf a c nid sid ts = Ok c' ->
  clean c' /\ nxs (ss_lpi (getS c' sid)) /\ fr2 c c' sid.
Proof.
  induction ts as [|t ts IH]; intros c c' Hs Hc Hn H; cbn [check_guards_loop] in H; [apply ok_inj in H; subst; split; [auto|]; split; [auto|]; repeat split; auto|].
  apply bind_ok in H as ([l1 ol] & Hg & H). cbn [fst snd] in H. apply guard_names in Hg as [N1 N2]. set (c1 := setS c sid _) in H.
  assert (S1 : sid < nS c1) by (unfold c1; rewrite nS_setS; exact Hs). assert (C1 : clean c1) by exact Hc.
  assert (X1 : nxs (ss_lpi (getS c1 sid))) by (unfold c1; rewrite getS_set_eq by exact Hs; unfold nxs; cbn [ss_with_lpi ss_lpi]; rewrite N1; exact Hn).
  assert (F1 : fr2 c c1 sid) by apply fr2_set.
  destruct ol as [tl|].
  2:{ destruct (IH _ _ S1 C1 X1 H) as (K1 & K2 & K3). split; [exact K1|]. split; [exact K2|]. eapply fr2_trans; eauto. }
  assert (Xt : nxs tl) by (unfold nxs; rewrite (N2 tl eq_refl); exact Hn).
  apply bind_ok in H as (c2 & H2 & H).
  assert (Q2 : clean c2 /\ getS c2 sid = getS c1 sid /\ fr2 c1 c2 sid /\ nS c2 = nS c1).
  { destruct (is_error _) in H2; [|apply ok_inj in H2; subst c2; split; [exact C1|]; repeat split; auto]. destruct (clean_error _ _ _ _ _ C1 Xt H2) as (K & ag & co & ce & ->). split; [exact K|]. repeat split; auto. }
  destruct Q2 as (C2 & G2 & F2 & S2). assert (F12 := fr2_trans _ _ _ _ F1 F2).
  destruct (_ && _) in H; [apply ok_inj in H; subst c'; split; [exact C2|]; split; [rewrite G2; exact X1|exact F12]|].
  apply bind_ok in H as (c3 & H3 & H). apply bind_ok in H as (c4 & H4 & H). destruct (add_clean _ _ _ _ _ _ ltac:(rewrite S2; exact S1) C2 H3) as (C3 & G3 & F3). assert (F13 := fr2_trans _ _ _ _ F12 F3).
  assert (S3 : sid < nS c3) by (destruct F13 as (_ & _ & _ & Q & _); lia). assert (X3 : nxs (ss_lpi (getS c3 sid))) by (rewrite G3, G2; exact X1).
  assert (Q4 : clean c4 /\ nxs (ss_lpi (getS c4 sid)) /\ fr2 c3 c4 sid).
  { destruct (_ && _) in H4; [|apply ok_inj in H4; subst c4; split; [exact C3|]; split; [exact X3|]; repeat split; auto]. apply bind_ok in H4 as ([lw bw] & Hw & H4). cbn [fst snd] in H4. apply taken_names in Hw. apply ok_inj in H4. subst c4.
    assert (XX : nxs (ss_lpi (getS (setS c3 sid (ss_with_lpi (getS c3 sid) lw)) sid))) by (rewrite getS_set_eq by exact S3; unfold nxs; cbn [ss_with_lpi ss_lpi]; rewrite Hw; exact X3).
    destruct bw; (split; [exact C3|]; split; [exact XX|]); [|apply fr2_set]. destruct (fr2_set c3 sid (ss_with_lpi (getS c3 sid) lw) sid) as (Y1 & Y2 & Y3 & Y4 & Y5). split; [exact Y1|]. split; [exact Y2|]. split; [exact Y3|]. split; [exact Y4|exact Y5]. }
  destruct Q4 as (C4 & X4 & F4). assert (F14 := fr2_trans _ _ _ _ F13 F4). destruct (IH c4 c' ltac:(destruct F14 as (_ & _ & _ & Q & _); lia) C4 X4 H) as (K1 & K2 & K3). split; [exact K1|]. split; [exact K2|]. eapply fr2_trans; eauto.
Qed.

(** ** the invariant *)
Record Z (c : core) : Prop := { z_linv : linv c; z_iv : iv c; z_clean : clean c; z_rep : c_rep c = None; z_dw : c_dwait c = []; z_cur : forall n, c_cur c = Some n -> nxs (ss_lpi (getS c (n_state (getN c n)))) }.
Lemma cur_lt c n : linv c -> c_cur c = Some n -> n_state (getN c n) < nS c.
Proof. intros V H. assert (D := ci_dag _ _ _ (li_cinv _ _ _ V)). apply (d_parents _ _ _ _ D n). apply live_lt. apply (li_cur _ _ _ V n H). Qed.
Lemma inter_z c nid sid c1 ok : sid < nS c -> intersect_state solve a c nid sid = Ok (c1, ok) -> fr c c1 /\ nS c1 = nS c /\ c_cur c1 = c_cur c /\ (forall m, n_state (getN c1 m) = n_state (getN c m)) /\
  (nxs (ss_lpi (getS c sid)) -> nxs (ss_lpi (getS c1 sid))).
Proof.
  intros Hs H. unfold intersect_state in H. apply bind_ok in H as ([[s1 ops] b] & Hi & H). apply ok_inj in H. injection H as <- <-. apply (g_inv solve a) in Hi. destruct Hi as (_ & _ & _ & k & E).
  match goal with |- fr c (push_ops ?x ?n ?xs) /\ _ => destruct (fr_push n xs x) as (A & B & C & D); set (y := push_ops x n xs) in * end. clearbody y.
  split; [eapply fr_trans; [|exact A]; repeat split|]. split; [unfold nS; rewrite B; exact (nS_setS c sid s1)|]. split; [exact C|]. split; [exact D|]. intro Hn. unfold getS. rewrite B. change (nxs (ss_lpi (getS (setS c sid s1) sid))). rewrite getS_set_eq by exact Hs.
  unfold nxs. rewrite E. apply Forall_app. split; [exact Hn|apply nx_inp].
Qed.
Lemma step1_names s s1 : ss_step1 a s = Ok s1 -> nxs (ss_lpi s) -> nxs (ss_lpi s1).
Proof. intros H Hn. apply (g_step a) in H. destruct H as (_ & _ & _ & k & E). unfold nxs. rewrite E. apply Forall_app. split; [exact Hn|apply nx_inp]. Qed.

Lemma cont_z c nid c' : Z c -> c_cur c = Some nid -> continuous_post solve cf a c nid (n_state (getN c nid)) = Ok c' ->
  clean c' /\ c_rep c' = None /\ c_dwait c' = [] /\ forall n, c_cur c' = Some n -> nxs (ss_lpi (getS c' (n_state (getN c' n)))).
Proof.
  intros [V I C R W X] Ec H. assert (Hs := cur_lt c nid V Ec). specialize (X nid Ec). set (sid := n_state (getN c nid)) in *. unfold continuous_post in H.
  assert (L : forall x b, clean x -> c_rep x = None -> c_dwait x = [] -> let y := left_invariant x nid sid b in clean y /\ c_rep y = None /\ c_dwait y = [] /\ forall n, c_cur y = Some n -> nxs (ss_lpi (getS y (n_state (getN y n))))).
  { intros x b A1 A2 A3. cbn zeta. split; [exact A1|]. split; [exact A2|]. split; [exact A3|]. intros n K. discriminate K. }
  destruct (_ <=? _) in H; [apply ok_inj in H; subst c'; apply L; auto|]. destruct (c_tt c); [apply ok_inj in H; subst c'; apply L; auto|].
  apply bind_ok in H as ([c1 ok] & H1 & H). destruct (inter_z _ _ _ _ _ Hs H1) as (F1 & S1 & E1 & M1 & N1). specialize (N1 X). assert (C1 := fr_clean _ _ F1 C). destruct F1 as (_ & _ & R1 & W1).
  destruct ok; cbn [negb] in H; [|apply ok_inj in H; subst c'; apply L; [exact C1|congruence|congruence]]. apply bind_ok in H as (s1 & Hs1 & H). apply step1_names in Hs1; [|exact N1]. set (c2 := setS c1 sid s1) in H.
  apply bind_ok in H as (c3 & H3 & H). unfold check_guards in H3.
  assert (S2 : sid < nS c2) by (unfold c2; rewrite nS_setS, S1; exact Hs).
  destruct (guards_clean nid sid _ c2 c3 S2 C1 ltac:(unfold c2; rewrite getS_set_eq by (rewrite S1; exact Hs); exact Hs1) H3) as (C3 & X3 & R3 & W3 & E3 & _ & M3).
  change (c_rep c2) with (c_rep c1) in R3. change (c_dwait c2) with (c_dwait c1) in W3. change (c_cur c2) with (c_cur c1) in E3.
  destruct (m_a _) in H; [|discriminate]. destruct (_ && _) in H; apply ok_inj in H; subst c'; [apply L; [exact C3|congruence|congruence]|].
  split; [exact C3|]. split; [congruence|]. split; [congruence|]. intros n K. rewrite E3, E1, Ec in K. injection K as <-. rewrite M3. change (getN c2 nid) with (getN c1 nid). rewrite M1. exact X3.
Qed.

Lemma pop_z c c1 : Z c -> c_cur c = None -> do_step_pop_ap solve arnoldi cf a ap c = Ok c1 ->
  clean c1 /\ c_rep c1 = None /\ c_dwait c1 = [] /\ forall n, c_cur c1 = Some n -> nxs (ss_lpi (getS c1 (n_state (getN c1 n)))).
Proof.
  intros [V I C R W X] Ec H. unfold do_step_pop_ap in H. apply bind_ok in H as ([c0 nid] & Hp & H). destruct (linv_pop solve cf a arnoldi _ _ _ V Ec R W Hp) as [V0 E0]. apply fr_pop in Hp. assert (C0 := fr_clean _ _ Hp C). destruct Hp as (_ & _ & R0 & W0).
  assert (Hs := cur_lt c0 nid V0 E0). set (sid := n_state (getN c0 nid)) in *.
  assert (L : forall x b, clean x -> c_rep x = None -> c_dwait x = [] -> let y := left_invariant x nid sid b in clean y /\ c_rep y = None /\ c_dwait y = [] /\ forall n, c_cur y = Some n -> nxs (ss_lpi (getS y (n_state (getN y n))))).
  { intros x b A1 A2 A3. cbn zeta. split; [exact A1|]. split; [exact A2|]. split; [exact A3|]. intros n K. discriminate K. }
  destruct (is_error _) in H; [apply ok_inj in H; subst c1; apply L; [exact C0|congruence|congruence]|].
  apply bind_ok in H as ([c2 ok] & H2 & H). destruct (inter_z _ _ _ _ _ Hs H2) as (F2 & S2 & E2 & M2 & _). assert (C2 := fr_clean _ _ F2 C0). destruct F2 as (_ & _ & R2 & W2).
  destruct ok; [|apply ok_inj in H; subst c1; apply L; [exact C2|congruence|congruence]]. apply bind_ok in H as (s & Ha & H). apply ok_inj in H. subst c1. apply Hap in Ha.
  split; [exact C2|]. split; [change (c_rep c2 = None); congruence|]. split; [change (c_dwait c2 = []); congruence|]. intros n K. change (c_cur c2 = Some n) in K. rewrite E2, E0 in K. injection K as <-.
  change (getN (setS c2 sid s) nid) with (getN c2 nid). rewrite M2. fold sid. rewrite getS_set_eq by (rewrite S2; exact Hs). exact Ha.
Qed.
Lemma deagg_none c : get_deagg_node cf a c = Ok None.
Proof. unfold get_deagg_node. destruct (cf_strat cf) as [g|] eqn:E; [|reflexivity]. rewrite (Hnd g E). reflexivity. Qed.
Lemma z_step c c' : Z c -> do_step_ap solve arnoldi cf a ap c = Ok c' -> Z c'.
Proof.
  intros HZ H. pose proof HZ as [V I C R W X]. destruct (li_step_ap solve arnoldi cf a ap Hset c c' V I H) as [V' I'].
  cut (clean c' /\ c_rep c' = None /\ c_dwait c' = [] /\ forall n, c_cur c' = Some n -> nxs (ss_lpi (getS c' (n_state (getN c' n))))).
  { intros (A1 & A2 & A3 & A4). constructor; auto. }
  unfold do_step_ap in H. destruct (is_finished cf c); [apply ok_inj in H; subst c'; auto|]. destruct (cur_state c) as [[nid sid]|] eqn:Ec.
  - apply bind_ok in H as (c1 & H1 & H). apply ok_inj in H. subst c'. unfold cur_state in Ec. destruct (c_cur c) as [n|] eqn:En; [|discriminate]. destruct (left_inv c n); [discriminate|]. injection Ec as -> <-.
    exact (cont_z c nid c1 HZ En H1).
  - assert (Hcu := cur_none cf a c V Ec). unfold doing_replay in H. rewrite R, W in H. rewrite deagg_none in H. cbn [bind] in H. apply bind_ok in H as (c1 & H1 & H). destruct (pop_z c c1 HZ Hcu H1) as (C1 & R1 & W1 & X1).
    destruct (li_pop_ap solve arnoldi cf a ap Hset c c1 V I Hcu R W H1) as [V1 _].
    destruct (cur_state c1) as [[nid sid]|] eqn:Ec1; [|apply ok_inj in H; subst c'; auto]. destruct (cf_urgent cf); [|apply ok_inj in H; subst c'; auto].
    unfold cur_state in Ec1. destruct (c_cur c1) as [n|] eqn:En; [|discriminate]. destruct (left_inv c1 n); [discriminate|]. injection Ec1 as -> <-. unfold check_guards in H.
    destruct (guards_clean nid _ _ c1 c' (cur_lt c1 nid V1 En) C1 (X1 nid eq_refl) H) as (C3 & X3 & R3 & W3 & E3 & _ & M3).
    split; [exact C3|]. split; [congruence|]. split; [congruence|]. intros m K. rewrite E3, En in K. injection K as <-. rewrite M3. exact X3.
Qed.
Lemma z_loop fuel : forall c r, Z c -> run_loop_ap solve arnoldi cf a ap fuel c = Some (Ok r) -> clean r.
Proof.
  induction fuel as [|f IH]; intros c r HZ H; cbn [run_loop_ap] in H; (destruct (is_finished cf c); [injection H as <-; apply HZ|]); [discriminate H|].
  destruct (do_step_ap solve arnoldi cf a ap c) as [c1|e] eqn:E; [|discriminate H]. apply (IH c1 r); [eapply z_step; eauto|exact H].
Qed.
Lemma z_setup ss c : (forall s, In s ss -> start_ok s) -> setup solve a ss = Ok c -> Z c.
Proof.
  intros Hs H. assert (V := linv_setup solve cf a ss c H). assert (I := iv_setup solve a ss c Hs H).
  unfold setup in H. apply bind_ok in H as (u & _ & H). apply bind_ok in H as (c1 & H1 & H). assert (E : c1 = c) by (destruct (c_wait c1); [discriminate|]; apply ok_inj in H; exact H). subst c1. clear H.
  assert (Q : clean c /\ c_rep c = None /\ c_dwait c = [] /\ c_cur c = None).
  { clear V I Hs u. assert (G : clean core0 /\ c_rep core0 = None /\ c_dwait core0 = [] /\ c_cur core0 = None) by (repeat split). revert G H1. generalize core0. induction ss as [|s ss IH]; intros k G H; cbn [setup_states] in H; [apply ok_inj in H; subst k; exact G|].
    apply bind_ok in H as (f & _ & H). destruct f; [|exact (IH k G H)]. apply bind_ok in H as ([[s1 o] ok] & _ & H). destruct ok; [|exact (IH k G H)]. refine (IH _ _ H). exact G. }
  destruct Q as (Q1 & Q2 & Q3 & Q4). constructor; auto. intros n K. rewrite Q4 in K. discriminate K.
Qed.
End NC.
