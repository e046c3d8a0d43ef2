(** C17 (constructing a StateSet: which LPs are accepted) and C30 (which simulations are run next). *)
From Verif Require Import Base BaseFacts LpModel LpSpec SetSpec LpUtil LpFacts LpWf SetFacts OpsFacts OpsFacts2 ApiSpec ApiFacts Automaton StateSet HybridSpec StateSpec FlowFacts StateFacts
  CoreModel Sim SimFacts Bounded5.
From Coq Require Import Lia Lqa QArith.Qabs.
Open Scope nat_scope.

(** ** C17: StateSet.__init__ *)
(** numpy's allclose tolerance, against the identity *)
Definition near (p q : Q) : Prop := (Qabs (p - q) <= (1 # 100000000) + (1 # 100000) * Qabs q)%Q.
Definition near_identity (n : nat) (M : mat) : Prop := forall i k, i < n -> k < n -> near (nth k (mrow M i) 0%Q) (if i =? k then 1 else 0)%Q.

Lemma close_iff p q : close p q = true <-> near p q.
Proof. unfold close, near. apply Qle_bool_iff. Qed.
Lemma row_close_iff u : forall v, List.length u = List.length v -> (forallb (fun ab => close (fst ab) (snd ab)) (combine u v) = true <-> forall k, k < List.length u -> near (nth k u 0%Q) (nth k v 0%Q)).
Proof.
  induction u as [|p u IH]; intros [|q v] Hl; cbn [List.length] in Hl; try lia; cbn [combine forallb fst snd].
  - split; [intros _ k Hk; cbn in Hk; lia|reflexivity].
  - rewrite andb_true_iff, close_iff, IH by lia. split.
    + intros [H1 H2] [|k] Hk; cbn [nth]; [exact H1|apply H2; cbn in Hk; lia].
    + intro H. split; [apply (H 0); cbn; lia|]. intros k Hk. apply (H (Datatypes.S k)). cbn. lia.
Qed.
Lemma mat_close_iff A : forall B, List.length A = List.length B -> (forall i, i < List.length A -> List.length (nth i A []) = List.length (nth i B [])) ->
  (allclose A B = true <-> forall i k, i < List.length A -> k < List.length (nth i A []) -> near (nth k (nth i A []) 0%Q) (nth k (nth i B []) 0%Q)).
Proof.
  unfold allclose. induction A as [|u A IH]; intros [|v B] Hl HL; cbn [List.length] in Hl; try lia; cbn [combine forallb fst snd].
  - split; [intros _ i k Hi; cbn in Hi; lia|reflexivity].
  - rewrite andb_true_iff, row_close_iff by (apply (HL 0); cbn; lia). rewrite IH; [|lia|intros i Hi; apply (HL (Datatypes.S i)); cbn; lia]. split.
    + intros [H1 H2] [|i] k Hi Hk; cbn [nth] in *; [apply H1; exact Hk|apply H2; [cbn in Hi; lia|exact Hk]].
    + intro H. split; [intros k Hk; apply (H 0 k); [cbn; lia|exact Hk]|]. intros i k Hi Hk. apply (H (Datatypes.S i) k); [cbn; lia|exact Hk].
Qed.
Lemma near_ext p p' q q' : (p == p')%Q -> (q == q')%Q -> near p q -> near p' q'.
Proof. intros E1 E2 H. unfold near in *. rewrite <- E1, <- E2. exact H. Qed.
Lemma ident_entry n i k : i < n -> k < n -> nth k (nth i (ident n) []) 0%Q = (if i =? k then 1 else 0)%Q.
Proof.
  intros Hi Hk. unfold ident, unit_row. rewrite (nth_indep _ [] (map (fun j => if j =? 0 then 1%Q else 0%Q) (seq 0 n))) by (rewrite map_length, seq_length; exact Hi).
  rewrite (map_nth (fun i0 => map (fun j => if j =? i0 then 1%Q else 0%Q) (seq 0 n)) (seq 0 n) 0 i). rewrite (nth_indep _ 0%Q ((fun j => if j =? nth i (seq 0 n) 0 then 1%Q else 0%Q) 0)) by (rewrite map_length, seq_length; exact Hk).
  rewrite (map_nth (fun j => if j =? nth i (seq 0 n) 0 then 1%Q else 0%Q)). rewrite !seq_nth by assumption. cbn [Nat.add]. rewrite (Nat.eqb_sym k i). reflexivity.
Qed.

Section New.
Variable solve : solver.
Hypothesis Hsolve : solver_ok solve.

(** StateSet(lpi, mode) accepts an LP of the mode's dimension built by public calls exactly when its basis matrix is (close to) the
    identity: the columns of the LP are then the initial variables of the state set; otherwise it raises RuntimeError *)
Theorem C17_construct a l m lo hi ops conc x BM nu IEs js : m_a (get_mode a m) = Some x -> api solve l (Some (BM, nu, IEs, js)) -> l_dims l = c_nr x ->
  (near_identity (c_nr x) BM -> exists s, new_stateset a l m lo hi ops conc = Ok s /\ ss_lpi s = l /\ ss_mode s = m /\ ss_step s = 0 /\ ss_lo s = lo /\ ss_hi s = hi /\ ss_conc s = conc) /\
  (~ near_identity (c_nr x) BM -> new_stateset a l m lo hi ops conc = Err ERuntime).
Proof.
  intros Hx Hap Ed. destruct (api_ok solve Hsolve _ _ Hap) as (_ & _ & Hd & W & _). unfold new_stateset. rewrite Hx. destruct (get_bm_total _ _ _ _ W Hd) as (M & EM). rewrite EM. cbn [bind].
  destruct (get_basis_matrix_sem _ _ _ _ _ W EM) as [[HM1 HM2] HM]. destruct (wf_bmdims _ _ _ _ W) as [HB1 HB2]. rewrite HM1, Ed, Nat.eqb_refl.
  assert (RL : forall i, i < c_nr x -> List.length (nth i M []) = c_nr x). { intros i Hi. rewrite Forall_forall in HM2. rewrite <- Ed. apply HM2. apply nth_In. lia. }
  assert (RB : forall i, i < c_nr x -> List.length (nth i BM []) = c_nr x). { intros i Hi. rewrite Forall_forall in HB2. rewrite <- Ed. apply HB2. apply nth_In. lia. }
  assert (IL : List.length (ident (c_nr x)) = c_nr x) by (unfold ident; rewrite map_length, seq_length; reflexivity).
  assert (IR : forall i, i < c_nr x -> List.length (nth i (ident (c_nr x)) []) = c_nr x).
  { intros i Hi. assert (HF : Forall (fun r => List.length r = c_nr x) (ident (c_nr x))). { apply Forall_forall. intros r Hr. unfold ident in Hr. apply in_map_iff in Hr as (j & <- & _). unfold unit_row. rewrite map_length, seq_length. reflexivity. }
    rewrite Forall_forall in HF. apply HF. apply nth_In. lia. }
  assert (EE : forall i k, i < c_nr x -> k < c_nr x -> (nth k (nth i M []) 0 == nth k (mrow BM i) 0)%Q).
  { intros i k Hi Hk. rewrite <- (ldot_delta (mrow BM i) (snd (l_bm l)) k) by (unfold mrow; rewrite RB; assumption). fold (mrow M i).
    rewrite <- (ldot_delta (mrow M i) (snd (l_bm l)) k) by (unfold mrow; rewrite RL; assumption). apply HM. lia. }
  assert (C : allclose M (ident (c_nr x)) = true <-> near_identity (c_nr x) BM).
  { rewrite mat_close_iff; [|lia|intros i Hi; rewrite RL, IR by lia; reflexivity]. unfold near_identity. split.
    - intros H i k Hi Hk. eapply near_ext; [apply EE; assumption|rewrite <- (ident_entry (c_nr x) i k) by assumption; reflexivity|]. apply H; [lia|rewrite RL; assumption].
    - intros H i k Hi Hk. rewrite HM1 in Hi. assert (Hi' : i < c_nr x) by lia. rewrite RL in Hk by exact Hi'. rewrite ident_entry by assumption.
      eapply near_ext; [symmetry; apply EE; assumption|reflexivity|]. apply H; assumption. }
  split.
  - intro N. apply C in N. rewrite N. cbn [bind]. eexists. split; [reflexivity|]. cbn. repeat split.
  - intro N. destruct (allclose M (ident (c_nr x))); [exfalso; apply N, C; reflexivity|reflexivity].
Qed.
End New.

(** ** C30: get_simulation_pop_mode / sim_pop_waiting_list *)
(** the strategy's list of mode names to postpone *)
Definition postponed (avoid : list string) (a : ha) (m : nat) : Prop := In (m_name (get_mode a m)) avoid.

Lemma avoided_iff avoid a m : avoided avoid a m = true <-> postponed avoid a m.
Proof.
  unfold avoided, postponed. rewrite existsb_exists. split.
  - intros (n & Hn & E). apply String.eqb_eq in E. rewrite E. exact Hn.
  - intro H. eexists. split; [exact H|]. apply String.eqb_refl.
Qed.
Lemma pop_scan_spec avoid a w : forall best,
  match pop_scan avoid a w best with
  | None => best = None /\ forall s, In s w -> postponed avoid a (sm_mode s)
  | Some (m, k) => (best = Some (m, k) \/ exists s, In s w /\ sm_mode s = m /\ sm_n s = k /\ ~ postponed avoid a m) /\
                   (forall s, In s w -> ~ postponed avoid a (sm_mode s) -> k <= sm_n s) /\ (forall m0 k0, best = Some (m0, k0) -> k <= k0)
  end.
Proof.
  induction w as [|s w IH]; intro best; cbn [pop_scan].
  - destruct best as [[m k]|]; [|split; [reflexivity|intros s []]]. split; [left; reflexivity|]. split; [intros s []|]. intros m0 k0 E. injection E as <- <-. lia.
  - destruct (avoided avoid a (sm_mode s)) eqn:E.
    + apply avoided_iff in E. specialize (IH best). destruct (pop_scan avoid a w best) as [[m k]|].
      * destruct IH as (I1 & I2 & I3). split; [destruct I1 as [K|(s' & K1 & K2)]; [left; exact K|right; exists s'; split; [right; exact K1|exact K2]]|]. split; [|exact I3].
        intros s' [<-|K] Hn; [contradiction|apply I2; assumption].
      * destruct IH as [I1 I2]. split; [exact I1|]. intros s' [<-|K]; [exact E|apply I2; exact K].
    + assert (N : ~ postponed avoid a (sm_mode s)) by (intro K; apply avoided_iff in K; congruence). clear E.
      set (b := match best with None => _ | Some (_, k) => _ end). specialize (IH b).
      assert (Hb : exists m k, b = Some (m, k) /\ k <= sm_n s /\ (best = Some (m, k) \/ (m = sm_mode s /\ k = sm_n s)) /\ forall m0 k0, best = Some (m0, k0) -> k <= k0).
      { unfold b. destruct best as [[m0 k0]|].
        - destruct (Nat.ltb_spec (sm_n s) k0).
          + exists (sm_mode s), (sm_n s). repeat split; auto. intros m1 k1 K. injection K as <- <-. lia.
          + exists m0, k0. repeat split; auto. intros m1 k1 K. injection K as <- <-. lia.
        - exists (sm_mode s), (sm_n s). repeat split; auto. intros m1 k1 K. discriminate K. }
      destruct Hb as (mb & kb & Eb & B1 & B2 & B3). destruct (pop_scan avoid a w b) as [[m k]|].
      * destruct IH as (I1 & I2 & I3). pose proof (I3 _ _ Eb) as I4. split.
        -- destruct I1 as [K|(s' & K1 & K2)].
           ++ rewrite Eb in K. injection K as <- <-. destruct B2 as [B2|[-> ->]]; [left; exact B2|right; exists s; split; [left; reflexivity|auto]].
           ++ right. exists s'. split; [right; exact K1|exact K2].
        -- split; [intros s' [<-|K] Hn; [lia|apply I2; assumption]|]. intros m0 k0 K. pose proof (B3 _ _ K). lia.
      * destruct IH as [I1 _]. congruence.
Qed.

(** What is run next: all the waiting simulations of one mode, in the order they wait, and no others.  The mode is that of a waiting
    simulation with the fewest steps among those in modes that are not to be avoided; a mode to be avoided is only run when every waiting
    simulation is in such a mode. *)
Theorem C30_next_batch cf avoid a c c' : sim_pop cf avoid a c = Ok c' ->
  exists m, sc_cur c' = Some (map (fun s => (Some s, false)) (filter (fun s => sm_mode s =? m) (sc_wait c))) /\ sc_wait c' = filter (fun s => negb (sm_mode s =? m)) (sc_wait c) /\
    (exists s, In s (sc_wait c) /\ sm_mode s = m) /\
    ((~ postponed avoid a m /\ exists s, In s (sc_wait c) /\ sm_mode s = m /\ forall s', In s' (sc_wait c) -> ~ postponed avoid a (sm_mode s') -> sm_n s <= sm_n s') \/
     (forall s', In s' (sc_wait c) -> postponed avoid a (sm_mode s'))).
Proof.
  intro H. unfold sim_pop in H. apply bind_ok in H as (m & Hm & H). apply bind_ok in H as (? & _ & H). apply bind_ok in H as (? & _ & H). injection H as <-. exists m.
  split; [reflexivity|]. split; [reflexivity|]. split; [eapply pop_mode_in; exact Hm|]. unfold simulation_pop_mode in Hm. destruct (cf_strat cf); [|discriminate Hm].
  pose proof (pop_scan_spec avoid a (sc_wait c) None) as K. destruct (pop_scan avoid a (sc_wait c) None) as [[m0 k0]|].
  - injection Hm as ->. destruct K as (K1 & K2 & _). destruct K1 as [K1|(s & K1 & K3 & K4 & K5)]; [discriminate|]. left. split; [exact K5|]. exists s. split; [exact K1|]. split; [exact K3|]. intros s' Hs' Hn. rewrite K4. apply K2; assumption.
  - right. apply K.
Qed.

(** ** concrete cases *)
From Verif Require Import Solver Ex_Core.
Open Scope nat_scope.
(** scaling the basis matrix is refused: the set would be misread *)
Example C17_construct_witness : exists l1, set_basis_matrix exC_l [[2; 0; 0]; [0; 1; 0]; [0; 0; 1]]%Q = Ok l1 /\ new_stateset (exC 0) l1 0 0 0 None true = Err ERuntime /\ new_stateset (exC 0) exC_l 0 0 0 None true = Ok exC_s.
Proof. eexists. split; [vm_compute; reflexivity|]. split; vm_compute; reflexivity. Qed.
Example C30_next_batch_witness :
  sim_pop (exC_cf false) [m_name (get_mode (exC 0) 0)] (exC 0) (mkSc None [mkSim 0 (fun _ => 0%Q) 0; mkSim 1 (fun _ => 0%Q) 3; mkSim 0 (fun _ => 0%Q) 1] false [] []) =
  Ok (mkSc (Some [(Some (mkSim 1 (fun _ => 0%Q) 3), false)]) [mkSim 0 (fun _ => 0%Q) 0; mkSim 0 (fun _ => 0%Q) 1] false [] []).
Proof. vm_compute. reflexivity. Qed.
