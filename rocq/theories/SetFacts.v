(** Set constructors of lputil.py: shape of the LP they build and the set it denotes. *)
From Verif Require Import Base BaseFacts LpModel LpSpec LpFacts LpWf LpUtil.
Open Scope nat_scope.

Ltac inv_bind H :=
  let a := fresh "a" in let H1 := fresh "H1" in
  apply bind_ok in H as [a [H1 H]].

Lemma names_of_length tag mid s n : List.length (names_of tag mid s n) = n.
Proof. unfold names_of. rewrite map_length, seq_length; auto. Qed.

Ltac lp_len :=
  unfold add_cols, add_rows_le, add_rows_eq0 in *; unfold l_nr, l_nc, c_nr in *;
  cbn [l_rows l_names with_rows with_names c_rows c_nc lp_new fst snd] in *;
  repeat (rewrite ?set_coefs_length, ?set_cols_length, ?app_length, ?map_length, ?repeat_length, ?seq_length, ?names_of_length in * );
  simpl List.length in *; try lia.

(** ** Oracle-based feasibility *)
Section WithSolver.
Variable solve : solver.
Hypothesis Hsolve : solver_ok solve.

Lemma lp_is_feasible_spec l b : lp_is_feasible solve l = Ok b -> (b = true <-> exists x, lp_sat l x).
Proof.
  unfold lp_is_feasible, minimize. specialize (Hsolve l). destruct (solve l) as [x| |]; simpl; intro H; inversion H; subst.
  - split; auto. intros _. exists x. apply Hsolve.
  - split; [discriminate|]. intros [x Hx]. exfalso; eapply Hsolve; eauto.
Qed.

Lemma csr_feasible_spec m rhs b : csr_feasible solve m rhs = Ok b ->
  List.length rhs = c_nr m /\ (b = true <-> exists x, poly (c_rows m) rhs x).
Proof.
  unfold csr_feasible. intro H. inv_bind H. apply assert_ok, Nat.eqb_eq in H1. split; auto.
  inv_bind H. apply set_constraints_csr_ok in H0 as [-> _]. apply lp_is_feasible_spec in H. rewrite H.
  unfold lp_sat. simpl. rewrite map_shift_row_0. rewrite set_coefs_0, zip_rows_UP, overwrite_zip_rows.
  - split; intros [x Hx]; exists x; apply mk_rows_sat, tpoly_UP in Hx || apply mk_rows_sat, tpoly_UP; auto.
  - apply repeat_length.
  - symmetry; auto.
Qed.

(** the feasibility LP has a zero objective, so a complete solver always answers *)
Lemma csr_feasible_total m rhs : solver_complete solve -> csr_ok m -> List.length rhs = c_nr m ->
  exists b, csr_feasible solve m rhs = Ok b.
Proof.
  intros Hc Hok Hl. unfold csr_feasible. rewrite (proj2 (Nat.eqb_eq _ _) Hl). simpl assert. cbn [bind].
  assert (E : forall l, set_constraints_csr (add_rows_le (add_cols lp_new
     (map (fun n => ("x" ++ sn n)%string) (seq 0 (c_nc m)))) rhs) m (0, 0) = Ok l ->
     exists b, lp_is_feasible solve l = Ok b).
  { intros l Hl'. apply set_constraints_csr_ok in Hl' as [-> _].
    unfold lp_is_feasible, minimize. set (L := with_rows _ _).
    destruct (solve L) eqn:Es; simpl; eauto. exfalso.
    assert (Hcol : lp_cols_ok L).
    { unfold lp_cols_ok, L. simpl. rewrite map_shift_row_0, set_coefs_0, zip_rows_UP, overwrite_zip_rows.
      - apply Forall_nth_error. intros i r Hr. apply mk_rows_nth in Hr as (t & co & b & _ & H2 & _ & ->). simpl.
        unfold l_nc. simpl. rewrite map_length, seq_length.
        unfold csr_ok in Hok. rewrite Forall_nth_error in Hok. eapply Hok; eauto.
      - apply repeat_length.
      - symmetry; auto. }
    destruct (Hc L Es Hcol 0%Q) as (x & _ & Hlt). unfold L in Hlt. simpl in Hlt. lra. }
  rewrite set_constraints_csr_in in E |- *.
  - simpl. destruct (E _ eq_refl) as [b Hb]. eauto.
  - unfold l_nr; simpl. rewrite map_length. lia.
  - unfold l_nc; simpl. rewrite map_length, seq_length. lia.
  - unfold l_nr; simpl. rewrite map_length. lia.
  - unfold l_nc; simpl. rewrite map_length, seq_length. lia.
Qed.

(** ** from_constraints *)
Definition fc_dims (m : csr) (dims_opt : option nat) : nat := match dims_opt with None => c_nc m | Some d => d end.
Definition fc_types (rhs : list Q) (tn : option (list rty * list string)) : list rty :=
  match tn with None => repeat UP (List.length rhs) | Some (ts, _) => ts end.
Definition fc_names (m : csr) (mid : nat) (hi : bool) (tn : option (list rty * list string)) (d : nat) : list string :=
  (match tn with None => names_of "i" mid 0 (c_nc m) | Some (_, ns) => ns end ++ names_of "c" mid 0 d)
  ++ (if hi then names_of "ti" mid 0 d else []).
Definition fc_rows (m : csr) (ts : list rty) (rhs : list Q) (hi : bool) (d : nat) : list row :=
  mk_rows (repeat FX d) (map (basis_row (c_nc m) d hi) (seq 0 d)) (repeat 0%Q d)
  ++ mk_rows ts (c_rows m) rhs
  ++ (if hi then mk_rows (repeat FX d) (map (fun n => [(d + c_nc m + n, (-1)%Q)]) (seq 0 d)) (repeat 0%Q d) else []).

Lemma from_constraints_shape m rhs mid hi tn dopt l :
  from_constraints solve m rhs mid hi tn dopt = Ok l ->
  let d := fc_dims m dopt in
  let ts := fc_types rhs tn in
  l = mkLp (fc_rows m ts rhs hi d) (fc_names m mid hi tn d) d (0, 0) (c_nc m)
           (if hi then Some (d + List.length rhs, d + c_nc m) else None) []
  /\ d <= c_nc m /\ c_nr m = List.length rhs /\ List.length ts = List.length rhs
  /\ (exists x, poly (c_rows m) rhs x)
  /\ c_nc m + d + (if hi then d else 0) <= List.length (fc_names m mid hi tn d).
Proof.
  unfold from_constraints. intro H.
  inv_bind H. apply assert_ok, Nat.eqb_eq in H1.
  inv_bind H. rename H0 into Hfeas.
  inv_bind H. apply assert_ok in H0. subst a0.
  apply csr_feasible_spec in Hfeas as [_ Hfeas].
  inv_bind H. rename a0 into d.
  assert (Hd : d = fc_dims m dopt /\ d <= c_nc m).
  { destruct dopt as [d'|]; simpl in *.
    - inv_bind H0. apply assert_ok, Nat.leb_le in H2. inversion H0; subst; auto.
    - inversion H0; subst; auto. }
  destruct Hd as [-> Hd]. set (d := fc_dims m dopt) in *. clear H0.
  inv_bind H. rename a0 into l1.
  assert (Hl1 : l1 = with_rows (add_cols (add_rows_eq0 lp_new d)
       (match tn with None => names_of "i" mid 0 (c_nc m) | Some (_, ns) => ns end ++ names_of "c" mid 0 d))
       (zip_rows (repeat FX d) (repeat 0%Q d) ++ zip_rows (fc_types rhs tn) rhs)
       /\ List.length (fc_types rhs tn) = List.length rhs).
  { destruct tn as [[ts ns]|]; simpl in *.
    - inv_bind H0. apply assert_ok, Nat.eqb_eq in H2. inversion H0; subst; clear H0. rewrite zip_rows_FX0. auto.
    - inversion H0; subst; clear H0. unfold add_rows_le. simpl. rewrite zip_rows_UP, zip_rows_FX0, repeat_length. auto. }
  destruct Hl1 as [-> Hts]. clear H0. set (ts := fc_types rhs tn) in *.
  assert (Ld : List.length (zip_rows (repeat FX d) (repeat 0%Q d)) = d).
  { rewrite zip_rows_length; rewrite !repeat_length; auto. }
  assert (Hcore : forall l1, set_constraints_csr
       (if hi then add_cols (with_rows (add_cols (add_rows_eq0 lp_new d)
         (match tn with None => names_of "i" mid 0 (c_nc m) | Some (_, ns) => ns end ++ names_of "c" mid 0 d))
         (zip_rows (repeat FX d) (repeat 0%Q d) ++ zip_rows ts rhs)) (names_of "ti" mid 0 d)
        else with_rows (add_cols (add_rows_eq0 lp_new d)
         (match tn with None => names_of "i" mid 0 (c_nc m) | Some (_, ns) => ns end ++ names_of "c" mid 0 d))
         (zip_rows (repeat FX d) (repeat 0%Q d) ++ zip_rows ts rhs))
       (mkCsr (if hi then 2 * d + c_nc m else c_nc m + d) (map (basis_row (c_nc m) d hi) (seq 0 d))) (0, 0) = Ok l1 ->
     l1 = mkLp (mk_rows (repeat FX d) (map (basis_row (c_nc m) d hi) (seq 0 d)) (repeat 0%Q d) ++ zip_rows ts rhs)
            (fc_names m mid hi tn d) 0 (0,0) 0 None []
     /\ c_nc m + d + (if hi then d else 0) <= List.length (fc_names m mid hi tn d)).
  { intros l2 Hl2. apply set_constraints_csr_ok in Hl2 as [-> [_ Hb]].
    unfold fc_names. destruct hi; simpl in *; rewrite map_shift_row_0, set_coefs_0;
      (rewrite overwrite_app by (rewrite Ld, map_length, seq_length; auto));
      (rewrite overwrite_zip_rows by (rewrite ?map_length, ?seq_length, !repeat_length; auto)).
    - split; [reflexivity|]. unfold l_nc in Hb; simpl in Hb. lia.
    - rewrite app_nil_r. split; [reflexivity|]. unfold l_nc in Hb; simpl in Hb. lia. }
  inv_bind H. rename a0 into l2. apply Hcore in H0 as [-> Hnames]. clear Hcore.
  inv_bind H. rename a0 into l3. apply set_constraints_csr_ok in H0 as [-> [_ Hb]].
  cbn [fst snd] in *. rewrite map_shift_row_0 in H. cbn [l_rows with_rows] in H.
  assert (Lb : List.length (mk_rows (repeat FX d) (map (basis_row (c_nc m) d hi) (seq 0 d)) (repeat 0%Q d)) = d).
  { rewrite mk_rows_length; rewrite ?map_length, ?seq_length, ?repeat_length; auto. }
  assert (E3 : set_coefs d (c_rows m)
           (mk_rows (repeat FX d) (map (basis_row (c_nc m) d hi) (seq 0 d)) (repeat 0%Q d) ++ zip_rows ts rhs)
         = mk_rows (repeat FX d) (map (basis_row (c_nc m) d hi) (seq 0 d)) (repeat 0%Q d) ++ mk_rows ts (c_rows m) rhs).
  { set (A := mk_rows (repeat FX d) _ _) in *. rewrite <- Lb at 1. rewrite set_coefs_end, overwrite_zip_rows; auto. }
  rewrite E3 in H. clear E3.
  assert (Hx : exists x, poly (c_rows m) rhs x) by (apply Hfeas; auto).
  cbv zeta. fold d ts.
  destruct hi.
  - inv_bind H. apply set_constraints_csr_ok in H0 as [-> _].
    apply set_reach_vars_ok in H as [-> _]. split; [|auto 10].
    unfold fc_rows, with_rows, add_rows_eq0. cbn [l_rows l_names l_obj fst snd].
    unfold l_nr. cbn [l_rows with_rows fst snd]. rewrite set_coefs_end. rewrite zip_rows_FX0.
    cbn [c_rows]. rewrite overwrite_zip_rows by (rewrite ?map_length, ?seq_length, ?repeat_length; auto).
    rewrite app_length, Lb, mk_rows_length by auto.
    cbn [c_rows]. rewrite map_map. rewrite <- app_assoc.
    assert (Em : map (fun x => shift_row (d + c_nc m) [(x, (-1)%Q)]) (seq 0 d) =
                 map (fun n => [(d + c_nc m + n, (-1)%Q)]) (seq 0 d)) by reflexivity.
    rewrite Em. reflexivity.
  - apply set_reach_vars_ok in H as [-> _]. split; [|auto 10]. unfold fc_rows, with_rows. rewrite app_nil_r. reflexivity.
Qed.

Lemma reval_basis_row w d hi n x :
  (reval (basis_row w d hi n) x == x n - x (w + n)%nat + (if hi then x (w + d + n)%nat else 0))%Q.
Proof. unfold basis_row. destruct hi; simpl; ring. Qed.

Definition zero_cols_after (m : nat) (x : vec) : vec := fun c => if c <? m then x c else 0%Q.

Lemma fc_nth m ts rhs hi d i r : List.length ts = List.length rhs -> c_nr m = List.length rhs ->
  nth_error (fc_rows m ts rhs hi d) i = Some r ->
  (i < d /\ r = mkRow FX (basis_row (c_nc m) d hi i) 0%Q)
  \/ (d <= i < d + List.length rhs /\ nth_error (mk_rows ts (c_rows m) rhs) (i - d) = Some r)
  \/ (hi = true /\ d + List.length rhs <= i < d + List.length rhs + d
      /\ r = mkRow FX [(d + c_nc m + (i - (d + List.length rhs)), (-1)%Q)] 0%Q).
Proof.
  intros Ht Hm. unfold fc_rows.
  assert (L1 : List.length (mk_rows (repeat FX d) (map (basis_row (c_nc m) d hi) (seq 0 d)) (repeat 0%Q d)) = d)
    by (rewrite mk_rows_length; rewrite ?map_length, ?seq_length, ?repeat_length; auto).
  assert (L2 : List.length (mk_rows ts (c_rows m) rhs) = List.length rhs) by (rewrite mk_rows_length; auto).
  destruct (Nat.lt_ge_cases i d) as [H|H].
  - rewrite nth_error_app1 by lia. intro E. left. split; auto.
    apply mk_rows_nth in E as (t & co & b & E1 & E2 & E3 & ->).
    apply nth_error_repeat in E1 as [_ ->]. apply nth_error_repeat in E3 as [_ ->].
    apply nth_error_map_seq_inv in E2 as [_ ->]. reflexivity.
  - rewrite nth_error_app2 by lia. rewrite L1.
    destruct (Nat.lt_ge_cases (i - d) (List.length rhs)) as [H'|H'].
    + rewrite nth_error_app1 by lia. intro E. right; left. split; [lia|auto].
    + rewrite nth_error_app2 by lia. rewrite L2. destruct hi; [|destruct (i - d - List.length rhs); discriminate].
      intro E. right; right. apply mk_rows_nth in E as (t & co & b & E1 & E2 & E3 & ->).
      apply nth_error_repeat in E1 as [? ->]. apply nth_error_repeat in E3 as [_ ->].
      apply nth_error_map_seq_inv in E2 as [_ ->]. repeat split; auto; try lia.
      do 3 f_equal. lia.
Qed.

Lemma fc_nth_bm m ts rhs hi d i : i < d ->
  nth_error (fc_rows m ts rhs hi d) i = Some (mkRow FX (basis_row (c_nc m) d hi i) 0%Q).
Proof.
  intro H. unfold fc_rows. rewrite nth_error_app1.
  - apply mk_rows_nth. exists FX, (basis_row (c_nc m) d hi i), 0%Q. repeat split.
    + apply nth_error_repeat; auto.
    + rewrite nth_error_map_seq by auto. reflexivity.
    + apply nth_error_repeat; auto.
  - rewrite mk_rows_length; rewrite ?map_length, ?seq_length, ?repeat_length; auto.
Qed.

Lemma fc_nth_con m ts rhs hi d i r : List.length ts = List.length rhs -> c_nr m = List.length rhs ->
  nth_error (mk_rows ts (c_rows m) rhs) i = Some r -> nth_error (fc_rows m ts rhs hi d) (d + i) = Some r.
Proof.
  intros Ht Hm H. unfold fc_rows.
  assert (L1 : List.length (mk_rows (repeat FX d) (map (basis_row (c_nc m) d hi) (seq 0 d)) (repeat 0%Q d)) = d)
    by (rewrite mk_rows_length; rewrite ?map_length, ?seq_length, ?repeat_length; auto).
  rewrite nth_error_app2 by lia. rewrite L1. replace (d + i - d) with i by lia.
  rewrite nth_error_app1; auto. apply nth_error_Some. congruence.
Qed.

Lemma fc_nth_ie m ts rhs d i : List.length ts = List.length rhs -> c_nr m = List.length rhs -> i < d ->
  nth_error (fc_rows m ts rhs true d) (d + List.length rhs + i) = Some (mkRow FX [(d + c_nc m + i, (-1)%Q)] 0%Q).
Proof.
  intros Ht Hm H. unfold fc_rows.
  assert (L1 : List.length (mk_rows (repeat FX d) (map (basis_row (c_nc m) d true) (seq 0 d)) (repeat 0%Q d)) = d)
    by (rewrite mk_rows_length; rewrite ?map_length, ?seq_length, ?repeat_length; auto).
  assert (L2 : List.length (mk_rows ts (c_rows m) rhs) = List.length rhs) by (rewrite mk_rows_length; auto).
  rewrite nth_error_app2 by lia. rewrite nth_error_app2 by lia. rewrite L1, L2.
  replace (d + List.length rhs + i - d - List.length rhs) with i by lia.
  apply mk_rows_nth. exists FX, [(d + c_nc m + i, (-1)%Q)], 0%Q. repeat split.
  + apply nth_error_repeat; auto.
  + rewrite nth_error_map_seq by auto. reflexivity.
  + apply nth_error_repeat; auto.
Qed.

(** from_constraints builds a well-formed LP with identity basis and no accumulated input;
    its core rows are exactly the given constraints, on the columns 0..width-1. *)
Lemma from_constraints_wf m rhs mid hi tn dopt l nu :
  csr_ok m ->
  (match tn with None => True | Some (_, ns) => List.length ns = c_nc m end) ->
  from_constraints solve m rhs mid hi tn dopt = Ok l ->
  wf_lp l (ident (l_dims l)) nu []
  /\ l_dims l = fc_dims m dopt
  /\ l_bm l = (0, 0) /\ l_cvo l = c_nc m
  /\ l_nc l = c_nc m + l_dims l + (if hi then l_dims l else 0)
  /\ (l_ie l = None <-> hi = false)
  /\ (forall x, core_sat l x <-> tpoly (c_rows m) (fc_types rhs tn) rhs x).
Proof.
  intros Hok Hns H. apply from_constraints_shape in H as (-> & Hd & Hm & Ht & Hx & Hn).
  set (d := fc_dims m dopt) in *. set (ts := fc_types rhs tn) in *. cbn [l_dims l_bm l_cvo l_ie l_rows].
  assert (Hnc : List.length (fc_names m mid hi tn d) = c_nc m + d + (if hi then d else 0)).
  { unfold fc_names. rewrite !app_length, names_of_length. destruct hi; rewrite ?names_of_length; simpl;
      destruct tn as [[ts' ns]|]; rewrite ?names_of_length; lia. }
  assert (Hcon : forall i t co b, nth_error ts i = Some t -> nth_error (c_rows m) i = Some co -> nth_error rhs i = Some b ->
            row_cols_lt (c_nc m) co).
  { intros i t co b _ Hco _. unfold csr_ok in Hok. rewrite Forall_nth_error in Hok. eauto. }
  split; [constructor|].
  - apply lp_cols_nth. unfold l_nc. cbn [l_rows l_names]. rewrite Hnc. intros i r Hr.
    apply fc_nth in Hr as [[Hi ->]|[[Hi Hr]|(-> & Hi & ->)]]; auto.
    + unfold basis_row, row_cols_lt. destruct hi; repeat constructor; simpl; lia.
    + apply mk_rows_nth in Hr as (t & co & b & E1 & E2 & E3 & ->).
      eapply row_cols_lt_mono; [|eapply Hcon; eauto]. lia.
    + repeat constructor; simpl. lia.
  - cbn [l_dims]. apply ident_dims.
  - cbn. lia.
  - unfold l_nc. cbn. rewrite Hnc. lia.
  - cbn [l_dims l_bm l_rows l_cvo fst snd]. intros i Hi. exists (basis_row (c_nc m) d hi i). split.
    + apply fc_nth_bm; auto.
    + intro x. rewrite reval_basis_row, mrow_ident, ldot_unit by auto. unfold ti. cbn [l_ie]. destruct hi; simpl.
      * replace (c_nc m + d) with (d + c_nc m) by lia. reflexivity.
      * reflexivity.
  - cbn [l_rows l_cvo]. unfold is_bm, is_ie, uoff. cbn [l_bm l_dims l_ie fst snd l_cvo]. intros i r Hr Hb Hi c a Hin.
    apply fc_nth in Hr as [[Hi' ->]|[[Hi' Hr]|(-> & Hi' & ->)]]; auto; try lia.
    apply mk_rows_nth in Hr as (t & co & b & E1 & E2 & E3 & ->).
    left. eapply row_cols_lt_In; [eapply Hcon; eauto|exact Hin].
  - cbn [l_ie l_dims l_cvo l_bm l_rows fst]. destruct hi; auto. repeat split; try lia.
    + unfold l_nc. cbn. rewrite Hnc. lia.
    + constructor.
    + intros i Hi. exists [(d + c_nc m + i, (-1)%Q)]. split.
      * apply fc_nth_ie; auto.
      * intro x. simpl. ring.
  - repeat split; auto.
    + destruct hi; [discriminate|auto].
    + intros ->; auto.
    + unfold core_sat. cbn [l_rows]. intro Hc. apply mk_rows_sat. apply Forall_nth_error. intros i r Hr.
      assert (i < List.length rhs).
      { assert (i < List.length (mk_rows ts (c_rows m) rhs)) by (apply nth_error_Some; congruence).
        rewrite mk_rows_length in H; auto. }
      eapply (Hc (d + i)).
      * apply fc_nth_con; auto.
      * unfold is_bm. cbn. lia.
      * unfold is_ie. cbn. destruct hi; [lia|tauto].
    + unfold core_sat. cbn [l_rows]. intros Hp i r Hr Hb Hi. apply mk_rows_sat in Hp. rewrite Forall_nth_error in Hp.
      unfold is_bm, is_ie in *. cbn [l_bm l_dims l_ie fst snd] in *.
      apply fc_nth in Hr as [[Hi' ->]|[[Hi' Hr]|(-> & Hi' & ->)]]; auto; try lia.
      eauto.
Qed.

(** The set denoted by from_constraints: projection of the given (typed) constraints on the first dims columns. *)
Lemma from_constraints_in m rhs mid hi tn dopt l :
  csr_ok m ->
  (match tn with None => True | Some (_, ns) => List.length ns = c_nc m end) ->
  from_constraints solve m rhs mid hi tn dopt = Ok l ->
  forall p, in_lp l p <-> exists x, tpoly (c_rows m) (fc_types rhs tn) rhs x /\ veq (l_dims l) x p.
Proof.
  intros Hok Hns H p. destruct (from_constraints_wf _ _ _ _ _ _ _ 0 Hok Hns H) as (W & Hd & Hb & Hc & Hn & Hie & Hcore).
  rewrite (wf_in_lp _ _ _ _ _ W). split; intros (x & Hx & Hp); exists x; (split; [apply Hcore; auto|]).
  - intros i Hi. rewrite Hp by auto. unfold cur_of. simpl. rewrite Hb. simpl. rewrite mrow_ident by auto.
    rewrite ldot_unit by auto. simpl. lra.
  - intros i Hi. rewrite <- (Hp i Hi). unfold cur_of. simpl. rewrite Hb. simpl. rewrite mrow_ident by auto.
    rewrite ldot_unit by auto. simpl. lra.
Qed.

Lemma poly_ext A b n x y : Forall (row_cols_lt n) A -> veq n x y -> poly A b x -> poly A b y.
Proof.
  intros HA H Hx i r c H1 H2. rewrite Forall_nth_error in HA. rewrite <- (reval_ext_lt n r x y); eauto.
Qed.

Lemma tpoly_ext A ts b n x y : Forall (row_cols_lt n) A -> veq n x y -> tpoly A ts b x -> tpoly A ts b y.
Proof.
  intros HA H Hx i r t c H1 H2 H3. rewrite Forall_nth_error in HA.
  apply (row_sat_ext_lt n (mkRow t r c) x y); simpl; eauto.
Qed.

Lemma from_constraints_in_full m rhs mid hi l :
  csr_ok m -> from_constraints solve m rhs mid hi None None = Ok l ->
  l_dims l = c_nc m /\ forall p, in_lp l p <-> poly (c_rows m) rhs p.
Proof.
  intros Hok H. assert (Hd : l_dims l = c_nc m).
  { destruct (from_constraints_wf _ _ _ _ None None _ 0 Hok I H) as (_ & Hd & _). exact Hd. }
  split; auto. intro p. rewrite (from_constraints_in _ _ _ _ None None _ Hok I H). rewrite Hd. simpl. split.
  - intros (x & Hx & Hp). apply tpoly_UP in Hx; auto. eapply poly_ext; eauto.
  - intros Hp. exists p. split; [apply tpoly_UP; auto|apply veq_refl].
Qed.

(** from_constraints raises exactly when shapes disagree or the (<=) constraints are infeasible. *)
Lemma from_constraints_total m rhs mid hi :
  solver_complete solve -> csr_ok m -> c_nr m = List.length rhs -> (exists x, poly (c_rows m) rhs x) ->
  exists l, from_constraints solve m rhs mid hi None None = Ok l.
Proof.
  intros Hc Hok Hl Hx. unfold from_constraints. rewrite (proj2 (Nat.eqb_eq _ _) Hl). simpl assert. cbn [bind].
  destruct (csr_feasible_total m rhs Hc Hok (eq_sym Hl)) as [b Hb]. rewrite Hb. cbn [bind].
  apply csr_feasible_spec in Hb as [_ Hb]. rewrite (proj2 Hb Hx). simpl assert. cbn [bind].
  assert (L1 : List.length (repeat (mkRow FX [] 0%Q) (c_nc m)) = c_nc m) by apply repeat_length.
  destruct hi.
  - rewrite set_constraints_csr_in; cbn [bind fst snd].
    2:{ lp_len. }
    2:{ lp_len. }
    rewrite set_constraints_csr_in; cbn [bind fst snd].
    2:{ lp_len. }
    2:{ lp_len. }
    rewrite set_constraints_csr_in; cbn [bind fst snd].
    2:{ lp_len. }
    2:{ lp_len. }
    unfold set_reach_vars. cbn [bind fst snd].
    rewrite (proj2 (Nat.leb_le _ _)). 2:{ lp_len. }
    simpl assert. cbn [bind].
    rewrite (proj2 (Nat.leb_le _ _)). 2:{ lp_len. }
    simpl assert. cbn [bind].
    rewrite (proj2 (Nat.leb_le _ _)). 2:{ lp_len. }
    simpl assert. cbn [bind].
    rewrite (proj2 (Nat.leb_le _ _)). 2:{ lp_len. }
    simpl. eauto.
  - rewrite set_constraints_csr_in; cbn [bind fst snd].
    2:{ lp_len. }
    2:{ lp_len. }
    rewrite set_constraints_csr_in; cbn [bind fst snd].
    2:{ lp_len. }
    2:{ lp_len. }
    unfold set_reach_vars. cbn [bind fst snd].
    rewrite (proj2 (Nat.leb_le _ _)). 2:{ lp_len. }
    simpl assert. cbn [bind].
    rewrite (proj2 (Nat.leb_le _ _)). 2:{ lp_len. }
    simpl. eauto.
Qed.

(** General version with row types, names and projection dimension. *)
Lemma from_constraints_total_gen m rhs mid hi tn dopt :
  solver_complete solve -> csr_ok m -> c_nr m = List.length rhs -> (exists x, poly (c_rows m) rhs x) ->
  match tn with None => True | Some (ts, ns) => List.length ts = List.length rhs /\ List.length ns = c_nc m end ->
  fc_dims m dopt <= c_nc m ->
  exists l, from_constraints solve m rhs mid hi tn dopt = Ok l.
Proof.
  intros Hc Hok Hl Hx Htn Hd. unfold from_constraints. rewrite (proj2 (Nat.eqb_eq _ _) Hl). simpl assert. cbn [bind].
  destruct (csr_feasible_total m rhs Hc Hok (eq_sym Hl)) as [b Hb]. rewrite Hb. cbn [bind].
  apply csr_feasible_spec in Hb as [_ Hb]. rewrite (proj2 Hb Hx). simpl assert. cbn [bind].
  replace (match dopt with None => Ok (c_nc m) | Some d => do _ <- assert (d <=? c_nc m); Ok d end) with (Ok (fc_dims m dopt)).
  2:{ destruct dopt as [d|]; cbn [fc_dims] in *; auto. rewrite (proj2 (Nat.leb_le _ _) Hd). reflexivity. }
  cbn [bind]. set (d := fc_dims m dopt) in *.
  assert (Hnames : List.length (match tn with None => names_of "i" mid 0 (c_nc m) | Some (_, ns) => ns end) = c_nc m).
  { destruct tn as [[ts ns]|]; [apply Htn|apply names_of_length]. }
  set (names := match tn with None => names_of "i" mid 0 (c_nc m) | Some (_, ns) => ns end) in *.
  set (L := add_cols (add_rows_eq0 lp_new d) (names ++ names_of "c" mid 0 d)).
  assert (HL : exists L', match tn with None => Ok (add_rows_le L rhs) | Some (ts, _) => add_rows_with_types L ts rhs end = Ok L'
    /\ l_nr L' = d + List.length rhs /\ l_nc L' = c_nc m + d).
  { assert (N0 : l_nr L = d) by (unfold L; lp_len). assert (N1 : l_nc L = c_nc m + d) by (unfold L; lp_len).
    destruct tn as [[ts ns]|].
    - unfold add_rows_with_types. rewrite (proj2 (Nat.eqb_eq _ _) (proj1 Htn)). simpl assert. cbn [bind]. eexists. split; [reflexivity|].
      unfold l_nr, l_nc in *. cbn [l_rows l_names with_rows]. rewrite app_length, zip_rows_length by apply Htn. lia.
    - eexists. split; [reflexivity|]. unfold l_nr, l_nc in *. unfold add_rows_le. cbn [l_rows l_names with_rows]. rewrite app_length, map_length. lia. }
  destruct HL as (L' & -> & HN & HM). cbn [bind]. clearbody L. clear Hnames names L. unfold l_nr, l_nc in HN, HM. unfold c_nr in Hl.
  destruct hi.
  - rewrite set_constraints_csr_in; cbn [bind fst snd].
    2:{ lp_len. }
    2:{ lp_len. }
    rewrite set_constraints_csr_in; cbn [bind fst snd].
    2:{ lp_len. }
    2:{ lp_len. }
    rewrite set_constraints_csr_in; cbn [bind fst snd].
    2:{ lp_len. }
    2:{ lp_len. }
    unfold set_reach_vars. cbn [bind fst snd].
    rewrite (proj2 (Nat.leb_le _ _)). 2:{ lp_len. }
    simpl assert. cbn [bind].
    rewrite (proj2 (Nat.leb_le _ _)). 2:{ lp_len. }
    simpl assert. cbn [bind].
    rewrite (proj2 (Nat.leb_le _ _)). 2:{ lp_len. }
    simpl assert. cbn [bind].
    rewrite (proj2 (Nat.leb_le _ _)). 2:{ lp_len. }
    simpl. eauto.
  - rewrite set_constraints_csr_in; cbn [bind fst snd].
    2:{ lp_len. }
    2:{ lp_len. }
    rewrite set_constraints_csr_in; cbn [bind fst snd].
    2:{ lp_len. }
    2:{ lp_len. }
    unfold set_reach_vars. cbn [bind fst snd].
    rewrite (proj2 (Nat.leb_le _ _)). 2:{ lp_len. }
    simpl assert. cbn [bind].
    rewrite (proj2 (Nat.leb_le _ _)). 2:{ lp_len. }
    simpl. eauto.
Qed.

End WithSolver.
