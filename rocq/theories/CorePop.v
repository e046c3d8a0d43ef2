(** Taking transitions from the waiting list. *)
From Coq Require Import Permutation.
From Verif Require Import Base BaseFacts LpModel LpSpec SetSpec LpUtil LpFacts ChullFacts ApiSpec ApiFacts Automaton StateSet HybridSpec FlowFacts StateSpec
  StateFacts StateFacts2 StateFacts3 AutoFacts BuildFacts CoreModel HeapFacts CoreOps CoreGhost CoreHeap CoreInv CoreStep CoreCont.
Open Scope nat_scope.

Section Pop.
Variable solve : solver.
Hypothesis Hsolve : solver_ok solve.
Variable arnoldi : nat -> option (list Q) -> csr -> option csr -> nat -> list (list Q).
Variable cf : cfg.
Variable a : ha.
Hypothesis WH : wf_ha a.
Hypothesis Hinp : forall m, m < List.length (ha_modes a) -> m_b (get_mode a m) <> None -> m_inv (get_mode a m) = [].
Hypothesis Hpath : forall g, cf_strat cf = Some g -> ag_deagg g = true -> ag_path g = true.
Variable ru : rules.
Variable I0 : nat -> vec -> Prop.
Variable Cz : core.
Hypothesis Hstuck : forall c N t l g rhs k x n u x', heap_ok solve a ru I0 c -> ext Cz c -> t < List.length (ha_trans a) -> cf_tt cf && t_tt (get_trans a t) = true -> t_from (get_trans a t) = nmode c N -> t_guard (get_trans a t) = Some (g, rhs) ->
  tt_row (get_mode a (nmode c N)) l (2 * cf_step cf / inject_Z (Z.of_nat (cf_num cf)) / 1000) (c_rows g) rhs -> in_lp l x -> Tn a ru I0 c N k x n ->
  inv_ok 0 (get_mode a (nmode c N)) x -> input_ok (get_mode a (nmode c N)) u -> one_step (get_mode a (nmode c N)) x u x' -> stuck a ru (nmode c N) x'.
Hypothesis Hbound : ru_bound ru = cf_num cf.
Hypothesis Hurg : ru_urgent ru = cf_urgent cf.
Hypothesis Hcap : forall m x, m_a (get_mode a m) = Some x -> ru_cap ru m = (nnz x =? 0) && cf_skip0 cf.
Notation TN := (Tn a ru I0).
Notation TO := (To a ru I0).
Notation hok := (heap_ok solve a ru I0).
Notation enab := (enabled a ru I0).
Notation base := (base solve cf a ru I0).
Notation active := (active a ru I0).
Notation done := (done a ru I0).
Notation err := (err a).
Notation bad := (bad cf).
Notation curr := (curr a ru I0).
Notation dg := (dg cf).

Lemma best_op_in c k w : forall b, best_op a c k b w = b \/ In (best_op a c k b w) w.
Proof.
  induction w as [|o w IH]; intro b; cbn [best_op]; [auto|]. destruct (_ || _).
  - destruct (IH o) as [->|K]; [right; left; auto|right; right; auto].
  - destruct (IH b) as [->|K]; [auto|right; right; auto].
Qed.
Lemma mem_In x l : mem x l = true <-> In x l.
Proof. unfold mem. rewrite existsb_exists. split; [intros (y & K1 & K2); apply Nat.eqb_eq in K2; subst; auto|intro K; exists x; split; [auto|apply Nat.eqb_refl]]. Qed.
Lemma onat_eqb_eq x y : onat_eqb x y = true -> x = y.
Proof. destruct x, y; cbn; intro H; try discriminate; auto. apply Nat.eqb_eq in H. congruence. Qed.

Lemma ok_inj {A} (x y : A) : Ok x = Ok y -> x = y.
Proof. congruence. Qed.

Lemma pop_ops_ok c ops : (forall o o', In o (c_wait c) -> In o' (c_wait c) -> o_post (getO c o) = o_post (getO c o') -> o = o') -> NoDup (c_wait c) -> pop_ops cf a c = Ok ops ->
  ops <> [] /\ NoDup ops /\ (forall o, In o ops -> In o (c_wait c)) /\ (forall o o', In o ops -> In o' ops -> pmode c o = pmode c o') /\
  (2 <= List.length ops -> forall o, In o ops -> o_parent (getO c o) <> None) /\
  (dg = true -> forall o o', In o ops -> In o' ops -> o_parent (getO c o) = o_parent (getO c o')) /\
  (err (pmode c (nth 0 ops 0)) = true -> List.length ops = 1).
Proof.
  intros Hinj HND Hp. unfold pop_ops in Hp. apply bind_ok in Hp as (ops0 & Hs & Hp). destruct ops0 as [|o0 l0]; [discriminate|]. injection Hp as Hp.
  set (ops0 := o0 :: l0) in *.
  assert (P : NoDup ops0 /\ (forall o, In o ops0 -> In o (c_wait c)) /\ (forall o o', In o ops0 -> In o' ops0 -> pmode c o = pmode c o') /\
    (dg = true -> forall o o', In o ops0 -> In o' ops0 -> o_parent (getO c o) = o_parent (getO c o'))).
  { unfold strat_pop in Hs. destruct (c_wait c) as [|w0 w] eqn:Ew; [discriminate|]. destruct (cf_strat cf) as [g|] eqn:Eg.
    - apply ok_inj in Hs. set (b := best_op a c (ag_pop g) w0 (w0 :: w)) in *.
      assert (Hb : In b (w0 :: w)) by (destruct (best_op_in c (ag_pop g) (w0 :: w) w0) as [K|K]; [fold b in K; rewrite K; left; auto|exact K]).
      assert (Hin : forall o, In o ops0 -> In o (w0 :: w) /\ same_group c g b o = true). { intros o Ho. rewrite <- Hs in Ho. apply filter_In in Ho. exact Ho. }
      assert (Hg : forall o, In o ops0 -> pmode c o = pmode c b /\ (ag_path g = true -> o_parent (getO c o) = o_parent (getO c b))).
      { intros o Ho. destruct (Hin o Ho) as [K1 K2]. unfold same_group in K2. apply orb_true_iff in K2 as [K2|K2].
        - apply Nat.eqb_eq in K2. assert (o = b) by (apply Hinj; auto). subst o. auto.
        - apply andb_true_iff in K2 as [K2 K3]. apply Nat.eqb_eq in K2. split; [exact K2|]. intro Kp. rewrite Kp in K3. cbn [negb orb] in K3. apply andb_true_iff in K3 as [_ K3]. apply onat_eqb_eq in K3. auto. }
      split; [rewrite <- Hs; apply NoDup_filter; exact HND|]. split; [intros o Ho; apply Hin; auto|]. split.
      + intros o o' Ho Ho'. destruct (Hg o Ho) as [-> _], (Hg o' Ho') as [-> _]. reflexivity.
      + intros Hd o o' Ho Ho'. assert (Kp : ag_path g = true) by (apply (Hpath g eq_refl); unfold CoreInv.dg in Hd; rewrite Eg in Hd; exact Hd).
        destruct (Hg o Ho) as [_ K], (Hg o' Ho') as [_ K']. rewrite K, K'; auto.
    - injection Hs as <- <-. split; [constructor; [intros []|constructor]|]. split; [intros o [<-|[]]; left; auto|]. split; [intros o o' [<-|[]] [<-|[]]; auto|intros _ o o' [<-|[]] [<-|[]]; auto]. }
  destruct P as (P1 & P2 & P3 & P4).
  set (ops1 := if is_error (get_mode a (ss_mode (pstate c o0))) then [o0] else ops0) in *.
  assert (Q : ops1 <> [] /\ NoDup ops1 /\ (forall o, In o ops1 -> In o ops0) /\ (is_error (get_mode a (ss_mode (pstate c o0))) = true -> List.length ops1 = 1)).
  { unfold ops1. destruct (is_error _); [|split; [discriminate|]; split; [exact P1|]; split; [auto|discriminate]].
    split; [discriminate|]. split; [constructor; [intros []|constructor]|]. split; [intros o [<-|[]]; left; auto|auto]. }
  destruct Q as (Q1 & Q2 & Q3 & Q4).
  assert (R : ops <> [] /\ NoDup ops /\ (forall o, In o ops -> In o ops1) /\ (List.length ops1 = 1 -> List.length ops = 1) /\ (2 <= List.length ops -> forall o, In o ops -> o_parent (getO c o) <> None)).
  { destruct (filter (is_init_op c) ops1) as [|o l] eqn:Ef; subst ops.
    - split; [exact Q1|]. split; [exact Q2|]. split; [auto|]. split; [auto|]. intros _ o Ho Hn. assert (K : In o (filter (is_init_op c) ops1)) by (apply filter_In; split; [auto|unfold is_init_op; rewrite Hn; auto]). rewrite Ef in K. destruct K.
    - assert (Ho : In o ops1) by (apply (filter_In (is_init_op c)); rewrite Ef; left; auto). split; [discriminate|]. split; [constructor; [intros []|constructor]|]. split; [intros o' [<-|[]]; auto|]. split; [auto|]. cbn. lia. }
  destruct R as (R1 & R2 & R3 & R4 & R5).
  split; [exact R1|]. split; [exact R2|]. split; [auto|]. split; [auto|]. split; [exact R5|]. split; [auto|].
  intro He. apply R4, Q4. replace (ss_mode (pstate c o0)) with (pmode c (nth 0 ops 0)); [exact He|]. apply P3; [|left; auto]. apply Q3, R3. destruct ops; [congruence|left; auto].
Qed.

(** ** the new current node *)
Definition pop_cond (c : core) : Prop := dg = true -> forall o, In o (c_wait c) -> o_parent (getO c o) <> None -> err (pmode c o) = true -> ss_conc (pstate c o) = true.

Lemma hok_inj c : forall D X mo, base D X mo c -> forall o o', In o (c_wait c) -> In o' (c_wait c) -> o_post (getO c o) = o_post (getO c o') -> o = o'.
Proof. intros D X mo B o o' Ho Ho' E. apply (h_inj _ _ _ _ _ (b_heap _ _ _ _ _ _ _ _ _ B)); auto; apply (b_wait _ _ _ _ _ _ _ _ _ B); auto. Qed.

Lemma pop_waiting_ok D c c' N : base D (fun _ => False) [] c -> pop_cond c -> pop_waiting_list solve arnoldi cf a c = Ok (c', N) ->
  base D (eq N) [] c' /\ c_cur c' = Some N /\ fresh a ru I0 c' N /\ N < nN c' /\ c_dwait c' = c_dwait c /\ c_rep c' = c_rep c.
Proof.
  intros B Hpc Hp. unfold pop_waiting_list in Hp. apply bind_ok in Hp as (ops & Hops & Hp).
  destruct (pop_ops_ok c ops (hok_inj c _ _ _ B) (proj1 (b_wait _ _ _ _ _ _ _ _ _ B)) Hops) as (Q1 & Q2 & Q3 & Q4 & Q5 & Q6 & Q7).
  apply bind_ok in Hp as ([] & _ & Hp). apply bind_ok in Hp as (agg & _ & Hp). apply bind_ok in Hp as ([c1 nid] & Hmk & Hp). injection Hp as <- <-.
  assert (H0 : In (nth 0 ops 0) ops) by (destruct ops; [congruence|left; auto]).
  destruct (base_make_node solve Hsolve cf a WH ru I0 arnoldi D (fun _ => False) [] [] _ c ops agg _ c1 nid B Hmk) as (_ & Hnid & B1 & E & nN1 & nO1 & Hpar & Hfr & gN & Hm & _ & _ & _ & SC); auto.
  { apply NoDup_filter. apply (b_wait _ _ _ _ _ _ _ _ _ B). }
  { constructor. }
  { intro o. rewrite filter_In, negb_true_iff. split; intros [K1 K2]; (split; [exact K1|]).
    - intro K. apply mem_In in K. congruence.
    - destruct (mem o ops) eqn:E; [apply mem_In in E; contradiction|auto]. }
  { intro o. cbn. tauto. }
  split; [|split; [reflexivity|]].
  - assert (B2 : base D (eq nid) [] c1). { apply (base_close solve cf a ru I0 D _ (eq nid) [] c1 B1); [intros M <-; auto|]. intros M HM K. left. intros [[]| ->]. auto. }
    apply (base_same solve cf a ru I0 D (eq nid) [] c1 _ B2); auto.
  - split; [apply (fresh_ext solve a ru I0 c1 (with_cur c1 (Some nid)) nid); auto; [apply (b_heap _ _ _ _ _ _ _ _ _ B1)|apply ext_same; reflexivity|lia]|]. split; [ccbn; lia|]. split; [apply (sc_dwait _ _ SC)|apply (sc_rep _ _ SC)].
Qed.

(** error modes have no transitions *)
Lemma error_complete c N : err (nmode c N) = true -> complete a ru I0 c N.
Proof. intros He k t (x & n & _ & Ht & Hf & _). destruct (wft_from _ _ (proj2 WH t Ht)) as [_ K]. unfold CoreInv.err in He. rewrite <- Hf in He. congruence. Qed.

Definition res_after (D : nat -> Prop) (c c' : core) : Prop :=
  c_dwait c' = c_dwait c /\ c_rep c' = c_rep c /\
  ((exists N, c_cur c' = Some N /\ base D (eq N) [] c' /\ active c' N True /\ ss_step (nst c' N) = 0) \/ (c_cur c' = None /\ base D (fun _ => False) [] c')).

Lemma do_step_pop_ok D c c' : base D (fun _ => False) [] c -> pop_cond c -> do_step_pop solve arnoldi cf a c = Ok c' -> res_after D c c'.
Proof.
  intros B Hpc Hp. unfold do_step_pop in Hp. apply bind_ok in Hp as ([c1 N] & Hpop & Hp).
  destruct (pop_waiting_ok D c c1 N B Hpc Hpop) as (B1 & Hc1 & Hfr & HN & Hdw & Hrep). fold (nmode c1 N) in Hp. fold (err (nmode c1 N)) in Hp.
  destruct (err (nmode c1 N)) eqn:He.
  - injection Hp as <-. set (c2 := push_op c1 N (NLeft (ss_step (getS c1 (n_state (getN c1 N)))) false)).
    destruct (open_push solve cf a ru I0 D (eq N) [] c1 N (NLeft (ss_step (getS c1 (n_state (getN c1 N)))) false) B1 eq_refl ltac:(discriminate)) as (B2 & F2 & _ & Eo & _). fold c2 in B2, F2, Eo.
    assert (HN2 : N < nN c2) by (rewrite (fr_nN _ _ _ F2); exact HN).
    assert (EM : nmode c2 N = nmode c1 N) by (apply nmode_ext; [apply (heap_closed _ _ _ _ _ (b_heap _ _ _ _ _ _ _ _ _ B1))|apply F2|exact HN]).
    assert (Hd : done c2 N).
    { destruct Hfr as (_ & _ & F3 & _). split; [|split; [|apply error_complete; rewrite EM; exact He]].
      - unfold c2. rewrite left_inv_push, Nat.eqb_refl by auto. reflexivity.
      - unfold ordered. rewrite Eo, F3. constructor; [constructor|constructor]. }
    split; [exact Hdw|]. split; [exact Hrep|]. right. split; [reflexivity|].
    apply (base_same solve cf a ru I0 D _ [] c2); auto.
    apply (base_close solve cf a ru I0 D (eq N) _ [] c2 B2); [intros M []|]. intros M HM _. destruct (Nat.eq_dec M N) as [->|Hne]; [right; auto|left; auto].
  - assert (A1 := active_fresh a ru I0 c1 N He HN Hfr).
    apply bind_ok in Hp as ([c2 ok] & Hi & Hp).
    destruct (open_intersect solve Hsolve cf a WH ru I0 D (eq N) [] c1 N _ c2 ok B1 eq_refl A1 Hi) as (B2 & F2 & A2 & St2 & W2 & O2 & Ops2 & Cc2 & Lo2 & Hno).
    assert (Es : ss_step (nst c2 N) = 0) by (rewrite St2; apply Hfr).
    assert (Hd2 : c_dwait c2 = c_dwait c /\ c_rep c2 = c_rep c) by (split; [rewrite (fr_dw _ _ _ F2); auto|rewrite (fr_rep _ _ _ F2); auto]).
    destruct ok.
    + injection Hp as <-. split; [apply Hd2|]. split; [apply Hd2|]. left. exists N. rewrite (fr_cur _ _ _ F2). auto.
    + injection Hp as <-.
      assert (Esid2 : n_state (getN c2 N) = n_state (getN c1 N)) by (apply (ex_node _ _ (fr_ext _ _ _ F2) N HN)). rewrite <- Esid2.
      assert (HCm : complete a ru I0 c2 N).
      { apply (complete_at a ru I0 c2 N 0).
        - intros k t Hk (x & n & HT & _ & _ & _ & Hj). exfalso. replace k with 0 in * by lia. destruct Hj as [[Hj|[_ Hj]] _]; [lia|]. apply (Hno eq_refl x n); [rewrite Es; exact HT|exact Hj].
        - intros x n HT. apply Tn_S in HT as (x0 & n0 & u & _ & HT & Hj & _). apply (Hno eq_refl x0 n0); [rewrite Es; exact HT|exact Hj]. }
      destruct (left_invariant_ok solve cf a ru I0 D [] c2 N _ false B2 A2 HCm) as (K1 & K2 & K3 & K4 & K5).
      split; [rewrite K1; apply Hd2|]. split; [rewrite K2; apply Hd2|]. right. auto.
Qed.

(** with the urgent guards *)
Lemma cur_ops_state c N : c_cur c = Some N -> left_inv c N = false -> cur_state c = Some (N, n_state (getN c N)).
Proof. intros H1 H2. unfold cur_state. rewrite H1, H2. reflexivity. Qed.

Lemma pop_step_ok D c c1 c' : ext Cz c1 -> base D (fun _ => False) [] c -> pop_cond c -> c_tt c1 = false -> do_step_pop solve arnoldi cf a c = Ok c1 ->
  match cur_state c1 with Some (nid, sid) => if cf_urgent cf then check_guards solve cf a c1 nid sid else Ok c1 | None => Ok c1 end = Ok c' ->
  bad c' \/ (c_dwait c' = c_dwait c /\ c_rep c' = c_rep c /\
    ((exists N, c_cur c' = Some N /\ base D (eq N) [] c' /\ curr c' N) \/ (c_cur c' = None /\ base D (fun _ => False) [] c'))).
Proof.
  intros Hz B Hpc Ht1 Hp Hg. destruct (do_step_pop_ok D c c1 B Hpc Hp) as (Hdw & Hrep & [(N & Hc & B1 & A1 & Es)|(Hc & B1)]).
  - rewrite (cur_ops_state c1 N Hc (active_left a ru I0 c1 N _ A1)) in Hg. destruct (cf_urgent cf) eqn:Eu.
    + unfold check_guards in Hg. change (ss_mode (getS c1 (n_state (getN c1 N)))) with (nmode c1 N) in Hg.
      destruct (guards_ok solve Hsolve cf a WH ru I0 Cz Hstuck D (eq N) [] N True (out_trans a (nmode c1 N)) c1 c' Hz B1 eq_refl A1) as [K|(B3 & F3 & A3 & St3 & Tk3 & Dd3 & En3)]; auto.
      { intros t Ht. apply out_trans_spec in Ht. exact Ht. }
      { intro K. congruence. }
      right. split; [rewrite (fr_dw _ _ _ F3); auto|]. split; [rewrite (fr_rep _ _ _ F3); auto|]. left. exists N. split; [rewrite (fr_cur _ _ _ F3); auto|]. split; [exact B3|].
      assert (EM : nmode c' N = nmode c1 N) by (apply nmode_ext; [apply (heap_closed _ _ _ _ _ (b_heap _ _ _ _ _ _ _ _ _ B1))|apply F3|apply A1]).
      constructor.
      * revert A3. apply active_weak. intros _. congruence.
      * intros k t Hk He. replace k with (ss_step (nst c' N)) in * by (rewrite St3, Es in *; lia). apply En3; auto. apply out_trans_spec. destruct He as (x & n & _ & K1 & K2 & _). rewrite K2. auto.
      * intros _. congruence.
      * exact Dd3.
    + injection Hg as <-. right. split; [exact Hdw|]. split; [exact Hrep|]. left. exists N. split; [exact Hc|]. split; [exact B1|]. constructor.
      * revert A1. apply active_weak. auto.
      * intros k t Hk (x & n & _ & _ & _ & _ & Hj). exfalso. rewrite Es in Hk. destruct Hj as [[Hj|[Hj _]] _]; [lia|]. rewrite Hurg in Hj. discriminate.
      * auto.
      * intro K. congruence.
  - unfold cur_state in Hg. rewrite Hc in Hg. injection Hg as <-. right. split; [exact Hdw|]. split; [exact Hrep|]. right. auto.
Qed.
End Pop.
