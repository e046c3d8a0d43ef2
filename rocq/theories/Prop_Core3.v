(** Properties of the reachability analysis, continued: the waiting list (C25) and the aggregation DAG (C26).
    [reached solve arnoldi cf a inits c] (CoreDag3.v): [c] is a state of Core after setup and some number of do_step calls. *)
From Coq Require Import Permutation.
From Verif Require Import Base BaseFacts LpModel LpUtil LpFacts Automaton StateSet CoreModel HeapFacts CoreOps CorePop CoreDag CoreDag2 CoreDag3 CoreLive CoreLive2 PopFacts.
Open Scope nat_scope.

(** ** C25 specification *)
(** state [s] is popped before state [s'] by the pop strategy: its score is larger *)
Definition earlier (k : popk) (s s' : sset) : Prop :=
  match k with
  | PMin => ss_lo s < ss_lo s'
  | PAvg => ss_lo s + ss_hi s < ss_lo s' + ss_hi s'
  | PMax => ss_hi s' < ss_hi s
  end.
(** the successor [b] of the waiting list [w] is first in the strategy's order; ties go to the smallest mode name *)
Definition first_choice (a : ha) (c : core) (k : popk) (w : list nat) (b : nat) : Prop :=
  In b w /\ forall o, In o w -> ~ earlier k (pstate c o) (pstate c b) /\
    (earlier k (pstate c b) (pstate c o) \/
     String.ltb (m_name (get_mode a (ss_mode (pstate c o)))) (m_name (get_mode a (ss_mode (pstate c b)))) = false).
(** two successors may be aggregated: same mode and, with require_same_path, the same transition out of the same node *)
Definition groups_with (g : aggrec) (c : core) (o o' : nat) : Prop :=
  ss_mode (pstate c o) = ss_mode (pstate c o') /\
  (ag_path g = true -> o_trans (getO c o) = o_trans (getO c o') /\ o_parent (getO c o) = o_parent (getO c o')).

Section Pop.
Variable solve : solver.
Variable arnoldi : nat -> option (list Q) -> csr -> option csr -> nat -> list (list Q).
Variable cf : cfg.
Variable a : ha.

Lemma no_better_first c k w w0 : In w0 w -> first_choice a c k w (best_op a c k w0 w).
Proof.
  intro Hw. split.
  - destruct (best_op_in a c k w w0) as [->|K]; auto.
  - intros o Ho. destruct (proj2 (best_op_max a c k w w0) o Ho) as [K|[K1 K2]]; unfold pop_score in *; destruct k; cbn [earlier]; (split; [lia|]); try (left; lia); right; exact K2.
Qed.

(** what pop_waiting_list chooses, in every reachable core state *)
Definition popped_ok (c : core) (ops : list nat) : Prop :=
  match cf_strat cf with
  | None => exists w0 w, c_wait c = w0 :: w /\ ops = [w0]
  | Some g => exists b, first_choice a c (ag_pop g) (c_wait c) b /\ (forall o, In o ops -> groups_with g c o b) /\
      (* nothing of the group is left behind, except for error modes and initial states *)
      ((forall o, In o (c_wait c) -> groups_with g c o b -> In o ops) \/
       (List.length ops = 1 /\ (is_error (get_mode a (ss_mode (pstate c b))) = true \/ exists o, ops = [o] /\ o_parent (getO c o) = None)))
  end /\
  (* error modes and initial states are popped singly *)
  (forall o, In o ops -> is_error (get_mode a (ss_mode (pstate c o))) = true \/ o_parent (getO c o) = None -> ops = [o]).

Lemma group_iff c mp g b o : dag cf a mp c -> In b (c_wait c) -> In o (c_wait c) -> same_group c g b o = true <-> groups_with g c o b.
Proof.
  intros D Hb Ho. unfold same_group, groups_with. rewrite orb_true_iff, andb_true_iff, !Nat.eqb_eq, orb_true_iff, andb_true_iff, negb_true_iff, !onat_eqb_iff. split.
  - intros [K|[K1 K2]].
    + assert (o = b) as ->; [|auto]. apply (d_inj _ _ _ _ D); auto; apply (d_wait _ _ _ _ D); auto.
    + split; [exact K1|]. intro Kp. destruct K2 as [K2|[K2 K3]]; [congruence|]. auto.
  - intros [K1 K2]. right. split; [exact K1|]. destruct (ag_path g); [right; destruct (K2 eq_refl); auto|left; reflexivity].
Qed.

Lemma pop_ops_popped c mp ops : dag cf a mp c -> pop_ops cf a c = Ok ops -> popped_ok c ops.
Proof.
  intros D H. unfold pop_ops in H. apply bind_ok in H as (os & Hs & H). destruct os as [|o0 os']; [discriminate|]. apply ok_inj in H.
  set (os := o0 :: os') in *.
  set (er := is_error (get_mode a (ss_mode (pstate c o0)))) in *. set (ops1 := if er then [o0] else os) in *.
  unfold strat_pop in Hs. destruct (c_wait c) as [|w0 w] eqn:Ew; [discriminate|]. rewrite <- Ew in *.
  assert (Hw0 : In w0 (c_wait c)) by (rewrite Ew; left; auto).
  assert (F0 : forall l o l', filter (is_init_op c) l = o :: l' -> In o l /\ o_parent (getO c o) = None).
  { intros l o l' E. assert (K : In o (filter (is_init_op c) l)) by (rewrite E; left; auto). apply filter_In in K as [K1 K2]. split; [auto|]. unfold is_init_op in K2. destruct (o_parent (getO c o)); [discriminate|reflexivity]. }
  assert (F1 : forall l o, filter (is_init_op c) l = [] -> In o l -> o_parent (getO c o) <> None).
  { intros l o E Ho Hn. assert (K : In o (filter (is_init_op c) l)) by (apply filter_In; split; [auto|unfold is_init_op; rewrite Hn; auto]). rewrite E in K. destruct K. }
  unfold popped_ok. destruct (cf_strat cf) as [g|] eqn:Eg.
  - apply ok_inj in Hs. assert (FC := no_better_first c (ag_pop g) (c_wait c) w0 Hw0). set (b := best_op a c (ag_pop g) w0 (c_wait c)) in *.
    destruct FC as [Hb FC].
    assert (Hos : forall o, In o os <-> In o (c_wait c) /\ groups_with g c o b).
    { intro o. rewrite <- Hs, filter_In. split; (intros [K1 K2]; split; [exact K1|]); apply (group_iff c mp g b o D Hb K1); exact K2. }
    assert (H0 : In o0 os) by (left; auto). assert (G0 := proj2 (proj1 (Hos o0) H0)).
    assert (Eb : is_error (get_mode a (ss_mode (pstate c b))) = er) by (unfold er; rewrite (proj1 G0); reflexivity).
    assert (H1 : forall o, In o ops1 -> In o os) by (unfold ops1; destruct er; [intros o [<-|[]]; auto|auto]).
    assert (H2 : forall o, In o ops -> In o ops1). { intros o Ho. subst ops. destruct (filter (is_init_op c) ops1) as [|x l] eqn:Ef; [auto|]. destruct Ho as [<-|[]]. apply (F0 _ _ _ Ef). }
    split.
    + exists b. split; [split; auto|]. split; [intros o Ho; apply Hos; auto|]. destruct (filter (is_init_op c) ops1) as [|x l] eqn:Ef; subst ops.
      * unfold ops1 in *. destruct er; [right; split; [reflexivity|left; exact Eb]|]. left. intros o Ho Hg. apply Hos. auto.
      * right. split; [reflexivity|]. right. exists x. split; [auto|]. apply (F0 _ _ _ Ef).
    + intros o Ho Hc. destruct (filter (is_init_op c) ops1) as [|x l] eqn:Ef; subst ops.
      * destruct Hc as [Hc|Hc]; [|exfalso; apply (F1 _ _ Ef Ho Hc)]. assert (Er : er = true). { rewrite <- Eb. rewrite <- Hc. f_equal. f_equal. symmetry. apply (proj2 (proj1 (Hos o) (H1 o Ho))). }
        unfold ops1 in *. rewrite Er in *. destruct Ho as [<-|[]]. reflexivity.
      * destruct Ho as [<-|[]]. reflexivity.
  - apply ok_inj in Hs. injection Hs as <- E. subst os'. assert (E1 : ops1 = [w0]) by (unfold ops1; destruct er; reflexivity). rewrite E1 in *.
    assert (E : ops = [w0]). { subst ops. destruct (filter (is_init_op c) [w0]) as [|x l] eqn:Ef; [reflexivity|]. apply F0 in Ef as [[->|[]] _]. reflexivity. }
    rewrite E. split; [eauto|]. intros o [<-|[]] _. reflexivity.
Qed.

Lemma filter_perm (f : nat -> bool) l : Permutation l (filter f l ++ filter (fun x => negb (f x)) l).
Proof. induction l as [|x l IH]; cbn [filter]; [constructor|]. destruct (f x); cbn [negb]; [cbn; constructor; auto|]. apply Permutation_cons_app. exact IH. Qed.
Lemma mem_perm w ops : NoDup w -> NoDup ops -> (forall o, In o ops -> In o w) -> Permutation w (ops ++ filter (fun o => negb (mem o ops)) w).
Proof.
  intros N1 N2 Hi. eapply Permutation_trans; [apply (filter_perm (fun o => mem o ops))|]. apply Permutation_app_tail. apply NoDup_Permutation; [apply NoDup_filter; auto|auto|].
  intro x. rewrite filter_In, mem_In. split; [tauto|auto].
Qed.
(** dropping [ops] from [w] keeps the order of the rest *)
Inductive subseq {A} : list A -> list A -> Prop :=
| sub_nil : subseq [] []
| sub_skip x l l' : subseq l l' -> subseq l (x :: l')
| sub_keep x l l' : subseq l l' -> subseq (x :: l) (x :: l').
Lemma filter_subseq {A} (f : A -> bool) l : subseq (filter f l) l.
Proof. induction l as [|x l IH]; cbn [filter]; [constructor|]. destruct (f x); [apply sub_keep|apply sub_skip]; auto. Qed.
Lemma nil_subseq {A} (l : list A) : subseq [] l.
Proof. induction l; constructor; auto. Qed.

(** ** C25 *)
(** AggDag.pop_waiting_list: the popped successors (the parents of the new current node) are removed from the waiting list, the
    others stay in order, nothing is lost or duplicated; the choice is the strategy's. *)
Theorem C25_pop_waiting_list inits c c' n : reached solve arnoldi cf a inits c -> pop_waiting_list solve arnoldi cf a c = Ok (c', n) ->
  let ops := n_parents (getN c' n) in
  c_cur c' = Some n /\ ops <> [] /\ NoDup ops /\ Permutation (c_wait c) (ops ++ c_wait c') /\ subseq (c_wait c') (c_wait c) /\ subseq ops (c_wait c) /\
  popped_ok c ops.
Proof.
  intros R H. assert (CI := cinv_reached _ _ _ _ _ _ R). assert (D := ci_dag _ _ _ CI). unfold pop_waiting_list in H. apply bind_ok in H as (ops & Ho & H).
  destruct (pop_ops_ptr cf a c ops _ D Ho) as (P1 & P2 & P3 & _ & _). assert (PO := pop_ops_popped c _ ops D Ho).
  apply bind_ok in H as (u & _ & H). apply bind_ok in H as (agg & _ & H). apply bind_ok in H as ([c1 k] & Hm & H). apply ok_inj in H. injection H as <- <-.
  apply make_node_ptr in Hm as (_ & _ & _ & _ & _ & Gp & _ & _ & _ & _ & _ & _ & Hw & _); [|exact P1|intros o K; apply (d_wait _ _ _ _ D); apply P3; auto].
  cbv zeta. change (getN (with_cur c1 (Some k)) k) with (getN c1 k). rewrite Gp. ccbn. rewrite Hw. ccbn. split; [reflexivity|]. split; [exact P1|]. split; [exact P2|]. split; [apply mem_perm; [apply D|exact P2|intros o K; apply P3; auto]|].
  split; [apply filter_subseq|]. split; [|exact PO].
  (* order of the popped ones *)
  unfold pop_ops in Ho. apply bind_ok in Ho as (os & Hs & Ho). destruct os as [|o0 os']; [discriminate|]. apply ok_inj in Ho.
  assert (S0 : subseq (o0 :: os') (c_wait c)).
  { unfold strat_pop in Hs. destruct (c_wait c) as [|w0 w]; [discriminate|]. destruct (cf_strat cf); apply ok_inj in Hs; [rewrite <- Hs; apply filter_subseq|]. injection Hs as <- <-. apply sub_keep, nil_subseq. }
  assert (S1 : forall o (l : list nat), In o l -> subseq [o] l). { clear. intros o l. induction l as [|x l IH]; intros []; [subst; apply sub_keep, nil_subseq|apply sub_skip; auto]. }
  assert (Hone : forall o, In o (o0 :: os') -> subseq [o] (c_wait c)). { intros o Ho'. apply S1. clear - S0 Ho'. induction S0; [destruct Ho'|right; auto|destruct Ho' as [<-|Ho']; [left; auto|right; auto]]. }
  subst ops. set (ops1 := if is_error (get_mode a (ss_mode (pstate c o0))) then [o0] else o0 :: os') in *. assert (Hi : forall o, In o ops1 -> In o (o0 :: os')) by (unfold ops1; destruct (is_error _); [intros o [<-|[]]; left; auto|auto]).
  destruct (filter (is_init_op c) ops1) as [|x l] eqn:Ef.
  - unfold ops1. destruct (is_error _); [apply Hone; left; auto|exact S0].
  - apply Hone, Hi. assert (K : In x (filter (is_init_op c) ops1)) by (rewrite Ef; left; auto). apply filter_In in K. tauto.
Qed.
(** the selection never fails: only the aggregation itself can raise *)
Theorem C25_pop_selects inits c : reached solve arnoldi cf a inits c -> c_wait c <> [] ->
  exists ops, pop_ops cf a c = Ok ops /\ ops <> [] /\
    List.length (c_wait c) = List.length (filter (fun o => negb (mem o ops)) (c_wait c)) + List.length ops.
Proof.
  intros R Hne. assert (D := ci_dag _ _ _ (cinv_reached _ _ _ _ _ _ R)).
  assert (E : exists ops, pop_ops cf a c = Ok ops).
  { unfold pop_ops, strat_pop. destruct (c_wait c) as [|w0 w] eqn:Ew; [congruence|]. rewrite <- Ew. destruct (cf_strat cf) as [g|]; cbn [bind]; [|eauto].
    assert (Hw0 : In w0 (c_wait c)) by (rewrite Ew; left; auto). destruct (no_better_first c (ag_pop g) (c_wait c) w0 Hw0) as [Hb _]. set (b := best_op a c (ag_pop g) w0 (c_wait c)) in *.
    assert (K : In b (filter (same_group c g b) (c_wait c))) by (apply filter_In; split; [auto|]; unfold same_group; rewrite Nat.eqb_refl; reflexivity).
    destruct (filter _ _); [destruct K|eauto]. }
  destruct E as [ops Ho]. exists ops. split; [exact Ho|]. destruct (pop_ops_ptr cf a c ops _ D Ho) as (P1 & P2 & P3 & _ & _). split; [exact P1|].
  rewrite (Permutation_length (mem_perm (c_wait c) ops (proj1 (d_wait _ _ _ _ D)) P2 (fun o K => proj1 (P3 o K)))) at 1. rewrite app_length. lia.
Qed.

(** ** C26 *)
(** pointer consistency, at every point of every run *)
Theorem C26_child_pointers inits c : reached solve arnoldi cf a inits c ->
  forall o N, o < List.length (c_ops c) -> o_child (getO c o) = Some N ->
    N < List.length (c_nodes c) /\ In o (n_parents (getN c N)) /\ forall o', In o' (n_parents (getN c N)) -> o_child (getO c o') = Some N.
Proof.
  intros R o N Ho Hc. assert (L := linv_reached _ _ _ _ _ _ R). destruct (d_child _ _ _ _ (ci_dag _ _ _ (li_cinv _ _ _ L)) o N Ho Hc) as [K1 K2]. split; [auto|]. split; [auto|].
  destruct (lv_all _ _ (li_lv _ _ _ L) N K1) as [K|K]; [exact K|]. exfalso. apply (K o K2). exact Hc.
Qed.
Theorem C26_parents inits c : reached solve arnoldi cf a inits c ->
  forall N, N < List.length (c_nodes c) -> n_parents (getN c N) <> [] /\ NoDup (n_parents (getN c N)) /\
    forall o, In o (n_parents (getN c N)) -> o < List.length (c_ops c) /\ o_child (getO c o) <> None /\
      ss_mode (getS c (o_post (getO c o))) = ss_mode (getS c (n_state (getN c N))) /\
      (forall M, o_parent (getO c o) = Some M -> M < N) /\
      ((match cf_strat cf with Some g => ag_path g = true | None => True end) ->
       forall o', In o' (n_parents (getN c N)) -> o_parent (getO c o') = o_parent (getO c o) /\ o_trans (getO c o') = o_trans (getO c o)).
Proof.
  intros R N HN. assert (D := ci_dag _ _ _ (cinv_reached _ _ _ _ _ _ R)). destruct (d_parents _ _ _ _ D N HN) as (K1 & K2 & _ & _ & K5). split; [auto|]. split; [auto|].
  intros o Ho. destruct (K5 o Ho) as (Q1 & Q2 & Q3 & Q4 & _). split; [auto|]. split; [auto|]. split; [exact Q3|]. split; [auto|].
  intros HP o' Ho'. apply (d_path _ _ _ _ D HP N HN); auto.
Qed.
(** a transition operation is in the operation list of exactly the node it comes from, and leads to that transition's mode *)
Theorem C26_op_lists inits c : reached solve arnoldi cf a inits c ->
  (forall N o, N < List.length (c_nodes c) -> In (NTr o) (n_ops (getN c N)) -> o < List.length (c_ops c) /\ o_parent (getO c o) = Some N) /\
  (forall o N, o < List.length (c_ops c) -> o_parent (getO c o) = Some N -> N < List.length (c_nodes c) /\ In (NTr o) (n_ops (getN c N)) /\
     exists t, o_trans (getO c o) = Some t /\ ss_mode (getS c (o_post (getO c o))) = t_to (get_trans a t)) /\
  (forall N, In N (c_roots c) <-> N < List.length (c_nodes c) /\ exists o, In o (n_parents (getN c N)) /\ o_parent (getO c o) = None).
Proof.
  intros R. assert (D := ci_dag _ _ _ (cinv_reached _ _ _ _ _ _ R)). split; [apply (d_ntr _ _ _ _ D)|]. split; [apply (d_par _ _ _ _ D)|apply (d_roots _ _ _ _ D)].
Qed.
(** a node is current when its chain of ancestors is: every node on it is the child of all its parents (has not been split) *)
Inductive attached (c : core) : nat -> Prop :=
| attached_i N : N < List.length (c_nodes c) -> (forall o, In o (n_parents (getN c N)) -> o_child (getO c o) = Some N) ->
    (forall o M, In o (n_parents (getN c N)) -> o_parent (getO c o) = Some M -> attached c M) -> attached c N.
Lemma live_attached c N : live c N -> attached c N.
Proof. induction 1. constructor; auto. Qed.
(** the work that remains never belongs to a node that deaggregation has replaced *)
Theorem C26_pending_work_is_attached inits c : reached solve arnoldi cf a inits c ->
  (forall N, c_cur c = Some N -> attached c N) /\
  (NoDup (c_wait c) /\ forall o, In o (c_wait c) -> o < List.length (c_ops c) /\ o_child (getO c o) = None /\ forall M, o_parent (getO c o) = Some M -> attached c M) /\
  (forall p chs ch, In (p, chs) (c_dwait c) -> In ch chs -> attached c ch) /\
  (forall r ch, c_rep c = Some r -> In ch (rp_children r) -> attached c ch).
Proof.
  intros R. assert (L := linv_reached _ _ _ _ _ _ R). assert (D := ci_dag _ _ _ (li_cinv _ _ _ L)). split; [intros N HN; apply live_attached; apply (li_cur _ _ _ L N HN)|]. split; [|split].
  - split; [apply D|]. intros o Ho. destruct (proj2 (d_wait _ _ _ _ D) o Ho). split; [auto|]. split; [auto|]. intros M HM. apply live_attached. apply (lv_wait _ _ (li_lv _ _ _ L) o Ho M HM).
  - intros p chs ch H1 H2. apply live_attached. eapply (li_dw _ _ _ L); eauto.
  - intros r ch H1 H2. apply live_attached. eapply (li_rep _ _ _ L); eauto.
Qed.
(** the recursive walks over the graph (get_ancestors, _get_node_leaf_ops) terminate *)
Theorem C26_walks_terminate inits c : reached solve arnoldi cf a inits c -> forall n, n < List.length (c_nodes c) ->
  (exists l, get_ancestors (S (List.length (c_nodes c))) c n = Ok l) /\ (exists l, leaf_ops (S (List.length (c_nodes c))) c n = Ok l).
Proof.
  intros R n Hn. assert (D := ci_dag _ _ _ (cinv_reached _ _ _ _ _ _ R)). split; [eapply ancestors_ok; [exact D| |]; lia|eapply leaf_ops_ok; [exact D| |]; lia].
Qed.
(** the final state of Core.run is reached *)
Lemma run_is_reached a0 inits fuel c : setup_ha cf a0 = Ok a -> run solve arnoldi cf a0 inits fuel = Some (Ok c) -> reached solve arnoldi cf a inits c.
Proof.
  intros Ha H. unfold run in H. destruct (assert _); [|discriminate]. cbn [bind] in H. rewrite Ha in H. destruct (setup solve a inits) as [c0|] eqn:E; [|discriminate].
  eapply run_reached; [|exact H]. apply r_setup. exact E.
Qed.
End Pop.

(** ** The small automaton of Ex_Core.v meets the hypotheses *)
From Verif Require Import Solver Ex_Core Prop_Core.
Open Scope nat_scope.
Fixpoint dosteps (cf : cfg) (a : ha) (k : nat) (c : core) : res core :=
  match k with 0 => Ok c | S j => do c1 <- dosteps cf a j c; do_step fm_solver arn0 cf a c1 end.
Lemma dosteps_reached cf a ss c0 k : forall c, setup fm_solver a ss = Ok c0 -> dosteps cf a k c0 = Ok c -> reached fm_solver arn0 cf a ss c.
Proof.
  induction k as [|k IH]; intros c H0 H; cbn [dosteps] in H; [apply ok_inj in H; subst; apply r_setup; auto|]. apply bind_ok in H as (c1 & H1 & H). eapply r_step; eauto.
Qed.
Definition getr (r : res core) : core := match r with Ok c => c | Err _ => core0 end.
Definition exD_a : ha := match setup_ha (exC_cf true) (exC (-(3#2))) with Ok x => x | Err _ => exC 0 end.
Definition exD_0 : core := getr (setup fm_solver exD_a [exC_s]).
Definition exD (k : nat) : core := getr (dosteps (exC_cf true) exD_a k exD_0).
Lemma exD_ok k : (match dosteps (exC_cf true) exD_a k exD_0 with Ok _ => true | Err _ => false end) = true -> reached fm_solver arn0 (exC_cf true) exD_a [exC_s] (exD k).
Proof.
  intro H. apply (dosteps_reached _ _ _ exD_0 k).
  - unfold exD_0. destruct (setup fm_solver exD_a [exC_s]) eqn:E; [reflexivity|vm_compute in E; discriminate].
  - unfold exD. destruct (dosteps _ _ k exD_0); [reflexivity|discriminate].
Qed.
(** after six steps three successors wait; they are popped together *)
Example C25_witness : reached fm_solver arn0 (exC_cf true) exD_a [exC_s] (exD 6) /\ c_wait (exD 6) = [1; 2; 3] /\
  exists c' n, pop_waiting_list fm_solver arn0 (exC_cf true) exD_a (exD 6) = Ok (c', n) /\ n_parents (getN c' n) = [1; 2; 3] /\ c_wait c' = [].
Proof.
  split; [apply exD_ok; vm_compute; reflexivity|]. split; [vm_compute; reflexivity|].
  pose (r := pop_waiting_list fm_solver arn0 (exC_cf true) exD_a (exD 6)).
  pose (p := match r with Ok p => p | Err _ => (core0, 0) end). exists (fst p), (snd p). split; [|split; vm_compute; reflexivity].
  fold r. assert (H : (match r with Ok _ => true | _ => false end) = true) by (vm_compute; reflexivity). unfold p. destruct r as [[x y]|]; [reflexivity|discriminate].
Qed.
(** after thirteen steps node 1 has been split: its parents point to nodes 2 and 3, which are being replayed *)
Example C26_witness : reached fm_solver arn0 (exC_cf true) exD_a [exC_s] (exD 13) /\ map n_parents (c_nodes (exD 13)) = [[0]; [1; 2; 3]; [1]; [2; 3]] /\
  map o_child (c_ops (exD 13)) = [Some 0; Some 2; Some 3; Some 3; None; None; None; None].
Proof. split; [apply exD_ok; vm_compute; reflexivity|]. split; vm_compute; reflexivity. Qed.
