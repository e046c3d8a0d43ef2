(** Properties C01-C11, C13, C15, C16: the set operations of lputil / lpinstance.
    [in_lp l p]: p is a point of the set represented by l (LpSpec.v).  [api solve l k]: l was built by calls of the public
    operations; k records the caller's own knowledge: current basis matrix, input-effect matrices, rows returned (ApiSpec.v).
    [solver_ok solve]: contract of the LP solver (LpSpec.v), satisfiable by [fm_solver_ok] (Solver.v). *)
From Verif Require Import Base LpModel LpSpec SetSpec LpUtil ApiSpec Solver.
From Verif Require Import BaseFacts LpFacts LpWf SetFacts SetFacts2 MinkFacts OpsFacts OpsFacts2 OpsFacts3 OpsFacts4 AggFacts ApiFacts.
Open Scope nat_scope.

Section Props.
Variable solve : solver.
Hypothesis Hsolve : solver_ok solve.

(** ** C01 *)
Theorem C01_from_box_exact box mid hi :
  match from_box solve box mid hi with
  | Ok l => l_dims l = List.length box /\ forall p, in_lp l p <-> in_box box p
  | Err _ => solver_complete solve -> exists i lb ub, nth_error box i = Some (lb, ub) /\ (ub < lb)%Q
  end.
Proof.
  destruct (from_box solve box mid hi) as [l|e] eqn:E.
  - apply from_box_in in E as (H1 & H2 & _); auto.
  - intro Hc. destruct (forallb (fun b => Qle_bool (fst b) (snd b)) box) eqn:F.
    + exfalso. rewrite forallb_forall in F. destruct (from_box_total solve Hsolve box mid hi Hc) as [l El]; [|congruence].
      intros i lb ub Hi. apply nth_error_In in Hi. apply F in Hi. apply Qle_bool_iff in Hi. exact Hi.
    + clear E. induction box as [|[lb ub] box IH]; [discriminate|]. simpl in F. apply andb_false_iff in F as [F|F].
      * exists 0, lb, ub. split; auto. apply Qnot_le_lt. intro Hq. apply Qle_bool_iff in Hq. congruence.
      * destruct (IH F) as (i & a & b & H1 & H2). exists (S i), a, b. auto.
Qed.

Theorem C01_from_box_empty_raises box mid hi i lb ub :
  nth_error box i = Some (lb, ub) -> (ub < lb)%Q -> from_box solve box mid hi = Err EAssert.
Proof. apply from_box_error. Qed.

(** ** C02 *)
Theorem C02_from_constraints_exact m rhs mid hi l :
  csr_ok m -> from_constraints solve m rhs mid hi None None = Ok l ->
  l_dims l = c_nc m /\ forall p, in_lp l p <-> poly (c_rows m) rhs p.
Proof. intros H1 H2. eapply from_constraints_in_full; eauto. Qed.

Theorem C02_from_constraints_projection m rhs mid hi ts names k l :
  csr_ok m -> List.length names = c_nc m -> from_constraints solve m rhs mid hi (Some (ts, names)) (Some k) = Ok l ->
  l_dims l = k /\ forall p, in_lp l p <-> exists x, tpoly (c_rows m) ts rhs x /\ veq k x p.
Proof.
  intros H1 H2 H3. assert (Hd : l_dims l = k).
  { destruct (from_constraints_shape solve Hsolve _ _ _ _ _ _ _ H3) as [-> _]. reflexivity. }
  split; auto. rewrite <- Hd. apply (from_constraints_in solve Hsolve _ _ _ _ (Some (ts, names)) (Some k) _ H1 H2 H3).
Qed.

(** it raises exactly when the shapes disagree or A x <= b is infeasible (row types do not matter for that check) *)
Theorem C02_from_constraints_raises_iff m rhs mid hi tn dopt :
  solver_complete solve -> csr_ok m -> (match tn with None => True | Some (_, ns) => List.length ns = c_nc m end) ->
  (exists l, from_constraints solve m rhs mid hi tn dopt = Ok l) <->
  c_nr m = List.length rhs /\ (exists x, poly (c_rows m) rhs x) /\
  (match tn with None => True | Some (ts, _) => List.length ts = List.length rhs end) /\
  (match dopt with None => True | Some d => d <= c_nc m end).
Proof.
  intros Hc Hok Hns. split.
  - intros (l & H). destruct (from_constraints_shape solve Hsolve _ _ _ _ _ _ _ H) as (_ & H1 & H2 & H3 & H4 & _).
    split; auto. split; auto. destruct tn as [[ts ns]|], dopt; cbn in *; auto.
  - intros (H1 & H2 & H3 & H4). apply from_constraints_total_gen; auto; [destruct tn as [[ts ns]|]; auto|destruct dopt; cbn; auto].
Qed.

(** ** C03 *)
Theorem C03_from_zonotope_exact center gens mid hi l :
  from_zonotope solve center gens mid hi = Ok l ->
  l_dims l = List.length center /\ forall p, in_lp l p <-> in_zonotope center gens p.
Proof. apply from_zonotope_in; auto. Qed.

Theorem C03_from_zonotope_bad_generator_raises center gens mid hi g :
  In g gens -> List.length g <> List.length center -> from_zonotope solve center gens mid hi = Err EAssert.
Proof. apply from_zonotope_error. Qed.

(** ** C04 *)
Theorem C04_from_input_constraints_exact B C d mid hi l :
  csr_ok B -> csr_ok C -> c_nc C = c_nc B -> c_nr C = List.length d ->
  from_input_constraints solve B C d mid hi = Ok l ->
  l_dims l = c_nr B /\ forall p, in_lp l p <-> in_input_set B C d p.
Proof. intros. eapply from_input_constraints_in; eauto. Qed.

(** ** C05 *)
Theorem C05_minkowski_sum_exact ls mid hi l :
  (forall s, In s ls -> exists k, api solve s k) -> minkowski_sum solve ls mid hi = Ok l ->
  (forall s, In s ls -> l_dims s = l_dims l) /\ forall p, in_lp l p <-> in_sum (l_dims l) ls p.
Proof.
  intros Ha H. apply (minkowski_sum_in solve Hsolve ls mid hi l); auto; apply Forall_forall; intros s Hs; destruct (Ha s Hs) as [k Hk];
    apply (api_ok solve Hsolve) in Hk; apply Hk.
Qed.

(** ** C06 *)
Theorem C06_bloat_exact l k a l' :
  api solve l (Some k) -> bloat l a = Ok l' ->
  (0 <= a)%Q /\ l_dims l' = l_dims l /\
  forall p, in_lp l' p <-> exists q b, in_lp l q /\ forall i, i < l_dims l -> (- a <= b i)%Q /\ (b i <= a)%Q /\ (p i == q i + b i)%Q.
Proof.
  destruct k as [[[BM nu] IEs] js]. intros Ha H. apply (api_ok solve Hsolve) in Ha as (_ & _ & Hd & W & _).
  destruct (bloat_ok _ _ _ _ _ _ W Hd H) as (H0 & H1 & _). split; auto.
  split; [apply H1|]. eapply bloat_in; eauto.
Qed.

Theorem C06_bloat_negative_raises l a : (a < 0)%Q -> bloat l a = Err EAssert.
Proof.
  intro H. unfold bloat. replace (Qle_bool 0 a) with false; [reflexivity|]. symmetry. apply not_true_is_false. intro E.
  apply Qle_bool_iff in E. lra.
Qed.

Theorem C06_scale_with_bm_exact l BM nu js a l' :
  api solve l (Some (BM, nu, [], js)) -> scale_with_bm l a = Ok l' ->
  l_dims l' = l_dims l /\ forall p, in_lp l' p <-> exists q, in_lp l q /\ forall i, i < l_dims l -> (p i == a * q i)%Q.
Proof. intros Ha H. apply (api_ok solve Hsolve) in Ha as (_ & _ & Hd & W & _). eapply scale_with_bm_in; eauto. Qed.

(** ** C07 *)
Theorem C07_reset_exact l k mid tix reset mink si l' :
  api solve l k -> opt_csr_ok reset -> mink_ok mink -> add_reset_variables l mid tix reset mink si = Ok l' -> 0 < l_dims l' ->
  l_dims l' = match reset with Some R => c_nr R | None => l_dims l end /\
  (forall p', in_lp l' p' <-> exists p, in_lp l p /\ reset_image (l_dims l') reset mink p p').
Proof.
  intros Ha HR HM H Hd. apply (api_ok solve Hsolve) in Ha as (Hok & _). pose proof (reset_dims _ _ _ _ _ _ _ H) as E.
  split.
  - rewrite E. destruct reset; auto. unfold c_nr, ident_csr. cbn [c_rows]. rewrite map_length, seq_length. auto.
  - rewrite E in *. eapply reset_in; eauto.
Qed.

(** ** C08 (see also C08_guard_intersection in Prop_Automaton.v) *)
Theorem C08_add_curtime_exact l m rhs l' :
  csr_ok m -> c_nc m <= l_dims l -> c_nr m = List.length rhs -> add_curtime_constraints l m rhs = Ok l' ->
  l_dims l' = l_dims l /\ forall p, in_lp l' p <-> in_lp l p /\ poly (c_rows m) rhs p.
Proof. apply add_curtime_in. Qed.

(** ** C09 *)
Theorem C09_check_intersection_exact l dir width rhs tol l' r :
  row_cols_lt width dir -> check_intersection solve l dir width rhs tol = Ok (l', r) ->
  (r = None <-> forall p, ~ in_lp l p) /\
  (r = Some true <-> exists p, in_lp l p /\ (reval dir p + tol <= rhs)%Q) /\
  (l_dims l' = l_dims l /\ l_rows l' = l_rows l /\ forall p, in_lp l' p <-> in_lp l p).
Proof.
  intros Hw H. apply (check_intersection_spec solve Hsolve) in H as ((o & ->) & _ & Hr); auto.
  assert (HE : forall p, in_lp (with_obj l o) p <-> in_lp l p) by (intro; apply in_lp_with_obj).
  split; [|split; [|split; [reflexivity|split; [reflexivity|exact HE]]]]; destruct r as [[|]|]; split; intro G; try discriminate; try reflexivity; auto.
  - destruct Hr as (p & Hp & _). exfalso. eapply G; eauto.
  - destruct Hr as (_ & p & Hp). exfalso. eapply G; eauto.
  - destruct Hr as (Hr & _). destruct G as (p & Hp & Hle). specialize (Hr p Hp). lra.
  - destruct G as (p & Hp & _). exfalso. eapply Hr; eauto.
Qed.

(** ** C10 *)
Theorem C10_add_init_constraint_exact l BM nu IEs js v rhs l' i :
  api solve l (Some (BM, nu, IEs, js)) -> add_init_constraint l v rhs (Some BM) IEs None = Ok (l', i) ->
  l_dims l' = l_dims l /\ forall p, in_lp l' p <-> in_lp l p /\ (ldot v 0 p <= rhs)%Q.
Proof.
  intros Ha H. apply (api_ok solve Hsolve) in Ha as (_ & _ & Hd & W & _).
  destruct (add_init_constraint_in _ _ _ _ _ _ _ _ W Hd H) as (_ & H1 & H2). split; [apply H1|exact H2].
Qed.

(** ** C11 *)
Theorem C11_try_replace_exact l BM nu IEs js j v rhs l' i b :
  api solve l (Some (BM, nu, IEs, js)) -> In j js ->
  try_replace_init_constraint solve l j v rhs (Some BM) IEs = Ok (l', i, b) ->
  i = j /\ l_dims l' = l_dims l /\ forall p, in_lp l' p <-> in_lp l p /\ (ldot v 0 p <= rhs)%Q.
Proof.
  intros Ha Hj H. apply (api_ok solve Hsolve) in Ha as (_ & _ & Hd & W & Hjs). rewrite Forall_forall in Hjs.
  destruct (Hjs j Hj) as (B & I & r & Hr & Ht).
  destruct (try_replace_wf_in solve Hsolve _ _ _ _ _ _ _ _ _ _ _ _ W Hd Hr Ht B I eq_refl H) as (W' & HL & _ & Hi & _ & Hcore & _).
  split; auto. split; [apply HL|]. eapply core_eq_in_lp; eauto. eapply try_replace_len; eauto.
Qed.

(** ** C13 *)
Theorem C13_aggregate_exact ls dirs width mid hi ls' l :
  aggregate solve ls dirs width mid hi = Ok (ls', l) ->
  (* contains every input set *)
  (forall s p, In s ls -> in_lp s p -> in_lp l p) /\
  (* and is exactly bounded by the extreme values of the inputs in each used direction *)
  (forall p, in_lp l p <-> forall d, In d dirs -> (1 # 1000000000000 <= fold_right (fun a acc => a * a + acc) 0 d)%Q -> between (in_any ls) d p) /\
  (* and the inputs are unchanged *)
  (List.length ls' = List.length ls /\ forall i s s', nth_error ls i = Some s -> nth_error ls' i = Some s' -> forall p, in_lp s' p <-> in_lp s p).
Proof.
  intro H. destruct (aggregate_in solve Hsolve _ _ _ _ _ _ _ H) as (HF & _ & HI). split; [|split].
  - intros s p Hs Hp. eapply aggregate_over; eauto.
  - intro p. rewrite HI. split; intros G d Hd Hu; apply G; auto.
    + unfold dir_used. change (fold_right (fun a acc => a * a + acc)%Q 0%Q d) with (sumsq d) in Hu.
      destruct (Qcompare (sumsq d) (1 # 1000000000000)) eqn:E; auto. apply Qlt_alt in E. lra.
    + change (fold_right (fun a acc => a * a + acc)%Q 0%Q d) with (sumsq d). unfold dir_used in Hu.
      destruct (Qcompare (sumsq d) (1 # 1000000000000)) eqn:E; try discriminate; [apply Qeq_alt in E|apply Qgt_alt in E]; lra.
  - clear - HF. induction HF as [|a b la lb Hab HF IH]; [split; auto; intros [|i]; discriminate|].
    destruct IH as [IH1 IH2]. split; [simpl; congruence|]. intros [|i] s s' Hs Hs'; simpl in *; [|eapply IH2; eauto].
    injection Hs as <-. injection Hs' as <-. intro p. apply (same_but_obj_in a b p Hab).
Qed.

(** ** C15 *)
Theorem C15_is_feasible_exact l b : lp_is_feasible solve l = Ok b -> (b = true <-> exists p, in_lp l p).
Proof.
  unfold lp_is_feasible. intro H. apply bind_ok in H as (r & Hr & H). apply (minimize_spec solve Hsolve) in Hr.
  destruct r as [vals|]; injection H as <-.
  - split; auto. intros _. destruct Hr as (x & _ & Hx & _). exists (fun i => x (l_cvo l + i)), x. split; auto. intros; reflexivity.
  - split; [discriminate|]. intros (p & x & Hx & _). exfalso. eapply Hr; eauto.
Qed.

Theorem C15_point_membership_exact pt l b :
  is_point_in_lpi solve pt l = Ok b ->
  List.length pt <= l_dims l /\ (b = true <-> exists p, in_lp l p /\ forall i, i < List.length pt -> (p i == nth i pt 0)%Q).
Proof. intro H. apply (is_point_in_lpi_spec solve Hsolve) in H. exact H. Qed.

Theorem C15_box_center_exact l l' r :
  get_box_center solve l = Ok (l', r) -> 0 < l_dims l ->
  (r = None <-> forall p, ~ in_lp l p) /\
  (forall c, r = Some c -> List.length c = l_dims l /\ forall d, d < l_dims l ->
     exists a b, is_min (in_lp l) (fun p => p d) a /\ is_max (in_lp l) (fun p => p d) b /\ (nth d c 0 == (a + b) / 2)%Q) /\
  (forall p, in_lp l' p <-> in_lp l p).
Proof.
  intros H Hd. apply (get_box_center_spec solve Hsolve) in H as ((o & ->) & Hr). split; [|split].
  - destruct r as [c|]; split; intro G; try discriminate; auto. exfalso. destruct Hr as [_ Hr]. destruct (Hr 0 Hd) as (a & _ & ((p & Hp & _) & _) & _).
    eapply G; eauto.
  - intros c ->. exact Hr.
  - intro p. apply in_lp_with_obj.
Qed.

(** ** C16: partial - the column actually read must be the current-time variable (true for sets just built from a box or
    constraints; see C16_compute_radius_inf_refuted for why the hypothesis is needed) *)
Theorem C16_compute_radius_inf_partial l r :
  (forall x n, lp_sat l x -> n < l_dims l -> (x n == x (l_cvo l + n)%nat)%Q) -> l_dims l <= l_nc l -> 0 < l_dims l ->
  compute_radius_inf solve l = Ok r ->
  exists v, r = Some v /\ (exists p n, in_lp l p /\ n < l_dims l /\ (v == Qabs (p n))%Q) /\
            forall p n, in_lp l p -> n < l_dims l -> (Qabs (p n) <= v)%Q.
Proof. apply compute_radius_inf_spec; auto. Qed.

End Props.

(** * Non-vacuity: concrete runs with the verified solver *)
Open Scope Q_scope.
Definition ex_box : list (Q * Q) := [((-1)%Q, 1%Q); (0%Q, 2%Q)].
Definition get {A} (d : A) (r : res A) : A := match r with Ok a => a | Err _ => d end.
Definition ex_l := Eval vm_compute in get lp_new (from_box fm_solver ex_box 0 true).
Example ex_l_ok : from_box fm_solver ex_box 0 true = Ok ex_l. Proof. vm_compute. reflexivity. Qed.
Example C01_witness : in_lp ex_l (of_list [1#2; 1]) /\ ~ in_lp ex_l (of_list [2; 1]).
Proof.
  destruct (from_box_in fm_solver fm_solver_ok _ _ _ _ ex_l_ok) as (_ & H & _). split.
  - apply H. intros [|[|[|i]]] lb ub E; simpl in E; try discriminate; injection E as <- <-; unfold of_list; simpl; lra.
  - intro G. apply H in G. specialize (G 0%nat (-1)%Q 1%Q eq_refl). unfold of_list in G. simpl in G. lra.
Qed.

(** a set after a step, an input effect and two init constraints *)
Definition ex_E : mat := [[1; 1#2]; [0; 1]].
Definition ex_B : mat := [[0]; [1#10]].
Definition ex_u : csr := mkCsr 1 [[(0%nat, 1%Q)]; [(0%nat, (-1)%Q)]].
Definition ex_l1 := Eval vm_compute in get lp_new (set_basis_matrix ex_l ex_E).
Definition ex_l2 := Eval vm_compute in get lp_new (add_input_effects_matrix ex_l1 ex_B 0 2 ex_u [1; 1]).
Definition ex_l3 := Eval vm_compute in get (lp_new, 0%nat) (add_init_constraint ex_l2 [1; 0] 1 (Some ex_E) [ex_B] None).
Definition ex_l4 := Eval vm_compute in get (lp_new, 0%nat, false) (try_replace_init_constraint fm_solver (fst ex_l3) (snd ex_l3) [2; 0] 1 (Some ex_E) [ex_B]).
Lemma ex_box_api : api fm_solver ex_l (Some (ident 2, 1%nat, [], [])).
Proof.
  assert (H := ex_l_ok). unfold from_box in H. apply bind_ok in H as (u0 & _ & H).
  refine (api_from_constraints _ _ _ _ _ _ _ _ _ _ _ H _); [apply box_rows_ok|exact I|vm_compute; lia].
Qed.
Lemma ex_l3_api : api fm_solver (fst ex_l3) (Some (ex_E, 1%nat, [ex_B], [snd ex_l3])).
Proof.
  eapply api_init with (l := ex_l2) (js := []) (v := [1; 0]) (rhs := 1); [|vm_compute; reflexivity].
  eapply api_inputs with (l := ex_l1) (IEs := []) (uc := ex_u) (ur := [1%Q; 1%Q]) (mid := 0%nat) (nv := 2%nat); [|repeat constructor|reflexivity|reflexivity|vm_compute; reflexivity].
  eapply api_basis; [exact ex_box_api|vm_compute; reflexivity].
Qed.
(** C10: the constraint x0 <= 1 really cuts the set *)
Example C10_witness : exists l', add_init_constraint ex_l2 [1; 0] 1 (Some ex_E) [ex_B] None = Ok (l', snd ex_l3)
  /\ is_point_in_lpi fm_solver [3#2; 1] ex_l2 = Ok true /\ is_point_in_lpi fm_solver [3#2; 1] l' = Ok false /\ is_point_in_lpi fm_solver [1; 1] l' = Ok true.
Proof. exists (fst ex_l3). split; [|split; [|split]]; vm_compute; reflexivity. Qed.
(** C11: one run where the old row is kept, one where it is dropped *)
Example C11_witness : exists l' l'',
  try_replace_init_constraint fm_solver (fst ex_l3) (snd ex_l3) [2; 0] 1 (Some ex_E) [ex_B] = Ok (l', snd ex_l3, true) /\
  try_replace_init_constraint fm_solver (fst ex_l3) (snd ex_l3) [0; 1] 1 (Some ex_E) [ex_B] = Ok (l'', snd ex_l3, false).
Proof. eexists. eexists. split; vm_compute; reflexivity. Qed.
Example C06_witness : exists l', bloat (fst ex_l3) (1#4) = Ok l' /\ is_point_in_lpi fm_solver [5#4; 1] l' = Ok true /\ is_point_in_lpi fm_solver [13#10; 1] l' = Ok false.
Proof. eexists. split; [vm_compute; reflexivity|]. split; vm_compute; reflexivity. Qed.
Example C06_scale_witness : exists l l', from_box fm_solver ex_box 0 false = Ok l /\ scale_with_bm l 3 = Ok l' /\ is_point_in_lpi fm_solver [3; 6] l' = Ok true
  /\ is_point_in_lpi fm_solver [3; 7] l' = Ok false.
Proof. eexists. eexists. split; [vm_compute; reflexivity|]. split; [vm_compute; reflexivity|]. split; vm_compute; reflexivity. Qed.
Definition ex_R : csr := mkCsr 2 [[(0%nat, 1%Q); (1%nat, 1%Q)]].
Definition ex_M : csr * csr * list Q := (mkCsr 1 [[(0%nat, 1%Q)]], ex_u, [1; 1]).
Example C07_witness : exists l', add_reset_variables (fst ex_l3) 1 0 (Some ex_R) (Some ex_M) true = Ok l' /\ l_dims l' = 1%nat
  /\ is_point_in_lpi fm_solver [4] l' = Ok true /\ is_point_in_lpi fm_solver [5] l' = Ok false.
Proof. eexists. split; [vm_compute; reflexivity|]. split; [reflexivity|]. split; vm_compute; reflexivity. Qed.
Example C09_witness : exists l1 l2, check_intersection fm_solver (fst ex_l3) [(0%nat, 1%Q)] 1 (-1) (1 # 10000000000000) = Ok (l1, Some false)
  /\ check_intersection fm_solver (fst ex_l3) [(0%nat, 1%Q)] 1 0 (1 # 10000000000000) = Ok (l2, Some true).
Proof. eexists. eexists. split; vm_compute; reflexivity. Qed.
Example C03_witness : exists l, from_zonotope fm_solver [1; 0] [[1; 1]; [0; 1#2]] 0 false = Ok l /\ is_point_in_lpi fm_solver [2; 3#2] l = Ok true
  /\ is_point_in_lpi fm_solver [2; 0] l = Ok false.
Proof. eexists. split; [vm_compute; reflexivity|]. split; vm_compute; reflexivity. Qed.
Example C04_witness : exists l, from_input_constraints fm_solver (mkCsr 1 [[(0%nat, 1%Q)]; [(0%nat, 2)]]) ex_u [1; 1] 0 false = Ok l
  /\ is_point_in_lpi fm_solver [1#2; 1] l = Ok true /\ is_point_in_lpi fm_solver [1#2; 1#2] l = Ok false.
Proof. eexists. split; [vm_compute; reflexivity|]. split; vm_compute; reflexivity. Qed.
Example C05_witness : exists l, minkowski_sum fm_solver [fst ex_l3; ex_l] 0 false = Ok l /\ is_point_in_lpi fm_solver [2; 4] l = Ok true
  /\ is_point_in_lpi fm_solver [5#2; 4] l = Ok false.
Proof. eexists. split; [vm_compute; reflexivity|]. split; vm_compute; reflexivity. Qed.
Definition ex_boxB := Eval vm_compute in get lp_new (from_box fm_solver [(2%Q, 3%Q); (0%Q, 1%Q)] 0 false).
Example C13_witness : exists ls l, aggregate fm_solver [ex_l; ex_boxB] [[1; 0]; [0; 1]; [1; -(1)]] 2 0 false = Ok (ls, l)
  /\ is_point_in_lpi fm_solver [3#2; 1] l = Ok true /\ is_point_in_lpi fm_solver [-1; 5#2] l = Ok false.
Proof. eexists. eexists. split; [vm_compute; reflexivity|]. split; vm_compute; reflexivity. Qed.
Example C15_witness : exists l' c, get_box_center fm_solver (fst ex_l3) = Ok (l', Some c) /\ (nth 1 c 0 == 1)%Q.
Proof. eexists. eexists. split; vm_compute; reflexivity. Qed.
Example C16_witness : exists v, compute_radius_inf fm_solver ex_l = Ok (Some v) /\ (v == 2)%Q.
Proof. eexists. split; vm_compute; reflexivity. Qed.
(** C16 without the layout hypothesis is false: box [1,2] moved by E = 1/2 has radius 1, the code returns 2
    (lputil.py:1075 reads column n instead of cur_vars_offset + n). *)
Theorem C16_compute_radius_inf_refuted : exists l l' v, from_box fm_solver [(1%Q, 2%Q)] 0 false = Ok l /\ set_basis_matrix l [[1#2]] = Ok l' /\
  compute_radius_inf fm_solver l' = Ok (Some v) /\ (v == 2)%Q /\ forall p, in_lp l' p -> (Qabs (p 0%nat) <= 1)%Q.
Proof.
  eexists. eexists. eexists. split; [vm_compute; reflexivity|]. split; [vm_compute; reflexivity|].
  split; [vm_compute; reflexivity|]. split; [reflexivity|].
  intros p (x & Hx & Hp). unfold lp_sat in Hx. cbn [l_rows] in Hx. inversion Hx as [|? ? A1 Hx1]; subst. inversion Hx1 as [|? ? A2 Hx2]; subst. inversion Hx2 as [|? ? A3 Hx3]; subst.
  unfold row_sat in *. cbn in A1, A2, A3. specialize (Hp 0%nat ltac:(cbn; lia)). cbn in Hp. apply Qabs_Qle_condition. split; lra.
Qed.
