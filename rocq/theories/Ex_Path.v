(** Two ways into mode "d": from "b" (itself aggregated, v = 1) and from "c" (v = 2).  x' = v, v' = 0.  The error needs v >= 2. *)
From Verif Require Import Base BaseFacts LpModel LpSpec SetSpec LpUtil ApiSpec ApiFacts Solver Automaton StateSet HybridSpec CoreModel CoreSpec Ex_Core Ex_TT.
Open Scope Q_scope.

Definition exP_le (b : Q) : lincon := mkLc [(0%nat, 1)] 2 b.
Definition exP_tr (name : string) (f t col : nat) (g : Q) : trans := mkTrans name f t (Some (mkCsr 2 [[(col, -(1))]], [-g])) None None false 0.
Definition exP : ha :=
  mkHa [exT_mode "a" [exP_le 2]; exT_mode "b" [exP_le 7]; exT_mode "c0" [exP_le 6]; exT_mode "c" [exP_le 9]; exT_mode "d" []; exC_err]
       [exP_tr "ab" 0 1 0 1; exP_tr "bd" 1 4 0 6; exP_tr "c0c" 2 3 0 6; exP_tr "cd" 3 4 0 8; exP_tr "err" 4 5 1 2].
Definition exP_box (v : Q) := [(0, 0); (v, v)].
Definition exP_l (m : nat) (v : Q) := getr lp_new (from_box fm_solver (exP_box v) m false).
Definition exP_s (m : nat) (v : Q) := getr dss0 (new_stateset exP (exP_l m v) m 0 0 None true).
(** deaggregation with require_same_path [path] *)
Definition exP_cf (path : bool) : cfg := mkCfg 8 1 false false false true false true false (Some (mkAgg ABox PAvg false path true DRoot)).
Lemma exP_wf : wf_ha exP.
Proof.
  split.
  - intros i Hi. destruct i as [|[|[|[|[|[|i]]]]]]; [| | | | | |cbn in Hi; lia]; try reflexivity; apply exT_mode_wf; intros c Hc; try (destruct Hc as [<-|[]]; split; [reflexivity|repeat constructor]). destruct Hc.
  - assert (K : forall name f t col g, (f < 5)%nat -> (t < 6)%nat -> (col < 2)%nat -> wf_trans exP (exP_tr name f t col g)).
    { intros name f t col g Hf Ht Hc. constructor; cbn [t_from t_to t_guard t_reset t_mink exP_tr].
      - split; [cbn; lia|]. destruct f as [|[|[|[|[|f]]]]]; try reflexivity; lia.
      - cbn; lia.
      - eexists; eexists. split; [reflexivity|]. replace (m_dims (get_mode exP f)) with 2%nat by (destruct f as [|[|[|[|[|f]]]]]; try reflexivity; lia).
        destruct col as [|[|col]]; [| |lia]; repeat constructor.
      - split; [exact Logic.I|discriminate].
      - split; [exact Logic.I|auto].
      - destruct t as [|[|[|[|[|[|t]]]]]]; try lia; destruct f as [|[|[|[|[|f]]]]]; try lia; try reflexivity; discriminate. }
    intros t Ht. destruct t as [|[|[|[|[|t]]]]]; [| | | | |cbn in Ht; lia]; apply K; lia.
Qed.
Definition exP_inits := [exP_s 0 1; exP_s 2 2].
Lemma exP_l_ok m v : (m, v) = (0%nat, 1) \/ (m, v) = (2%nat, 2) -> from_box fm_solver (exP_box v) m false = Ok (exP_l m v).
Proof. intros [H|H]; injection H as -> ->; vm_compute; reflexivity. Qed.
Lemma exP_init : Forall (init_ok fm_solver exP) exP_inits.
Proof.
  assert (K : forall m v, (m, v) = (0%nat, 1) \/ (m, v) = (2%nat, 2) -> init_ok fm_solver exP (exP_s m v)).
  { intros m v Hm. assert (H := exP_l_ok m v Hm). exists (exP_l m v), m. split; [destruct Hm as [E|E]; injection E as -> ->; cbn; lia|].
    split; [destruct Hm as [E|E]; injection E as -> ->; vm_compute; reflexivity|].
    assert (Hd : l_dims (exP_l m v) = 2%nat) by (destruct Hm as [E|E]; injection E as -> ->; vm_compute; reflexivity).
    assert (Em : m_a (get_mode exP m) = Some exT_mat /\ m_nu (get_mode exP m) = 0%nat) by (destruct Hm as [E|E]; injection E as -> ->; split; reflexivity).
    destruct Em as [-> ->]. split; [|exact Hd]. change (c_nr exT_mat) with 2%nat. rewrite <- Hd.
    unfold from_box in H. apply bind_ok in H as (? & _ & H). eapply api_from_constraints; [| |exact H|lia]; [repeat constructor|exact Logic.I]. }
  constructor; [apply K; auto|]. constructor; [apply K; auto|constructor].
Qed.
Lemma exP_reach : error_reachable 0 (mkRules false 8 (fun _ => false) false) exP (init_of_list exP_inits).
Proof.
  set (init := init_of_list exP_inits). set (ru := mkRules false 8 (fun _ => false) false).
  assert (Hs : forall m x x' k n, (1 < m < 5)%nat -> x' = x + 2 -> inv_ok 0 (get_mode exP m) (of_list [x; 2]) -> (n < 8)%nat ->
    reach 0 ru exP init m (of_list [x; 2]) k n -> reach 0 ru exP init m (of_list [x'; 2]) (S k) (S n)).
  { intros m x x' k n Hm -> Hi Hn R. eapply R_step with (u := fun _ => 0); [exact R|exact Hi|exact Hn|discriminate| |].
    - destruct m as [|[|[|[|[|m]]]]]; try lia; exact Logic.I.
    - intros i Hi'. replace (m_dims (get_mode exP m)) with 2%nat in Hi' by (destruct m as [|[|[|[|[|m]]]]]; try lia; reflexivity).
      replace (m_b (get_mode exP m)) with (@None (csr * csr * list Q)) by (destruct m as [|[|[|[|[|m]]]]]; try lia; reflexivity).
      replace (m_bm (get_mode exP m)) with exT_bm by (destruct m as [|[|[|[|[|m]]]]]; try lia; reflexivity).
      rewrite exT_bm_ok by exact Hi'. change (inject_Z (Z.of_nat 1)) with 1. destruct i as [|[|i]]; [| |lia]; cbn; ring. }
  assert (Hj : forall t p k n, (t < 5)%nat -> t_from (get_trans exP t) = t_from (get_trans exP t) -> reach 0 ru exP init (t_from (get_trans exP t)) p k n -> guard_ok (get_trans exP t) p -> (0 < k)%nat ->
    reach 0 ru exP init (t_to (get_trans exP t)) p 0 n).
  { intros t p k n Ht _ R G Hk. eapply R_jump; [exact Ht|exact R|exact G|split; [left; exact Hk|discriminate]|]. exists (fun _ => 0). destruct t as [|[|[|[|[|t]]]]]; try lia; (split; [exact Logic.I|]); intros i _; cbn; ring. }
  assert (R0 : reach 0 ru exP init 2 (of_list [0; 2]) 0 0).
  { apply R_init; [|intros c [<-|[]]; left; cbn; lra]. exists (exP_s 2 2). split; [right; left; reflexivity|]. split; [vm_compute; reflexivity|].
    replace (ss_lpi (exP_s 2 2)) with (exP_l 2 2) by (vm_compute; reflexivity).
    destruct (SetFacts2.from_box_in fm_solver fm_solver_ok _ _ _ _ (exP_l_ok 2 2 (or_intror eq_refl))) as (_ & Hb & _). apply Hb.
    intros i lb ub Hn. destruct i as [|[|i]]; cbn in Hn; [| |destruct i; discriminate]; injection Hn as <- <-; cbn; lra. }
  assert (R1 := Hs 2%nat 0 (0 + 2) 0%nat 0%nat ltac:(lia) eq_refl ltac:(intros c [<-|[]]; left; cbn; lra) ltac:(lia) R0).
  assert (R2 := Hs 2%nat (0 + 2) (0 + 2 + 2) 1%nat 1%nat ltac:(lia) eq_refl ltac:(intros c [<-|[]]; left; cbn; lra) ltac:(lia) R1).
  assert (R3 := Hs 2%nat (0 + 2 + 2) (0 + 2 + 2 + 2) 2%nat 2%nat ltac:(lia) eq_refl ltac:(intros c [<-|[]]; left; cbn; lra) ltac:(lia) R2).
  assert (G : forall t col g p, get_trans exP t = exP_tr (t_name (get_trans exP t)) (t_from (get_trans exP t)) (t_to (get_trans exP t)) col g -> g <= p col -> guard_ok (get_trans exP t) p).
  { intros t col g p -> Hg i r c Hr Hc. destruct i as [|i]; cbn in Hr, Hc; [|destruct i; discriminate]. injection Hr as <-. injection Hc as <-. cbn. lra. }
  assert (R4 := Hj 2%nat _ _ _ ltac:(lia) eq_refl R3 (G 2%nat 0%nat 6 (of_list [0 + 2 + 2 + 2; 2]) eq_refl ltac:(cbn; lra)) ltac:(lia)). change (t_to (get_trans exP 2)) with 3%nat in R4.
  assert (R5 := Hs 3%nat (0 + 2 + 2 + 2) (0 + 2 + 2 + 2 + 2) 0%nat 3%nat ltac:(lia) eq_refl ltac:(intros c [<-|[]]; left; cbn; lra) ltac:(lia) R4).
  assert (R6 := Hj 3%nat _ _ _ ltac:(lia) eq_refl R5 (G 3%nat 0%nat 8 (of_list [0 + 2 + 2 + 2 + 2; 2]) eq_refl ltac:(cbn; lra)) ltac:(lia)). change (t_to (get_trans exP 3)) with 4%nat in R6.
  assert (R7 := Hs 4%nat (0 + 2 + 2 + 2 + 2) (0 + 2 + 2 + 2 + 2 + 2) 0%nat 4%nat ltac:(lia) eq_refl ltac:(intros c []) ltac:(lia) R6).
  exists 4%nat, (of_list [0 + 2 + 2 + 2 + 2 + 2; 2]), 1%nat, 5%nat. split; [cbn; lia|]. split; [reflexivity|]. split; [exact R7|]. split; [apply (G 4%nat 1%nat 2 _ eq_refl); cbn; lra|split; [left; lia|discriminate]].
Qed.
