(** What the counter-example builder does with each kind of column. *)
From Verif Require Import Base BaseFacts LpModel LpUtil LpFacts Automaton CoreModel Names CexSpec.
From Coq Require Import String Ascii Bool.
Open Scope list_scope.
Open Scope nat_scope.

Definition sg_start_add (s : seg) (vs : list Q) := mkSeg (sg_mode s) (sg_start s ++ vs) (sg_end s) (sg_steps s) (sg_trans s) (sg_mink s) (sg_inputs s).
Definition sg_end_add (s : seg) (vs : list Q) := mkSeg (sg_mode s) (sg_start s) (sg_end s ++ vs) (sg_steps s) (sg_trans s) (sg_mink s) (sg_inputs s).
Definition sg_mink_add (s : seg) (vs : list Q) := mkSeg (sg_mode s) (sg_start s) (sg_end s) (sg_steps s) (sg_trans s) (sg_mink s ++ vs) (sg_inputs s).
Definition sg_with_inputs (s : seg) (i : list (list Q)) := mkSeg (sg_mode s) (sg_start s) (sg_end s) (sg_steps s) (sg_trans s) (sg_mink s) i.

Lemma upd_last_snoc f ce s : upd_last f (ce ++ [s]) = Ok (ce ++ [f s]).
Proof. unfold upd_last. rewrite rev_app_distr. cbn [rev app]. rewrite rev_involutive. reflexivity. Qed.

Section D.
Variables (a : ha) (ns : list nat).
Notation step := (ce_name a ns).

Lemma dec_init m k v ce s : step (ce ++ [s]) (nm "i" m (S k), v) = Ok (ce ++ [sg_start_add s [v]]).
Proof.
  unfold ce_name. rewrite !has_sub_nm by reflexivity. rewrite nm_cname, cname_m. cbn [append]. rewrite !prefix_cons, prefix_nil, prefix_head0. cbn [Ascii.eqb Bool.eqb andb Nat.eqb bind].
  apply upd_last_snoc.
Qed.
Lemma dec_cur m k v ce s : step (ce ++ [s]) (nm "c" m k, v) = Ok (ce ++ [sg_end_add s [v]]).
Proof.
  unfold ce_name. rewrite !has_sub_nm by reflexivity. rewrite nm_cname, cname_m. cbn [append]. rewrite !prefix_cons, prefix_nil. cbn [Ascii.eqb Bool.eqb andb Nat.eqb bind].
  apply upd_last_snoc.
Qed.
Lemma dec_acc m k v ce : step ce (nm "ti" m k, v) = Ok ce.
Proof.
  unfold ce_name. rewrite !has_sub_nm by reflexivity. rewrite nm_cname, cname_m. cbn [append]. rewrite !prefix_cons. cbn [Ascii.eqb Bool.eqb andb Nat.eqb bind]. reflexivity.
Qed.
Lemma dec_inp0 m v ce s : step (ce ++ [s]) (nm "I" m 0, v) = Ok (ce ++ [sg_with_inputs s ([v] :: sg_inputs s)]).
Proof.
  unfold ce_name. rewrite !has_sub_nm by reflexivity. rewrite nm_cname, cname_m. cbn [append]. rewrite !prefix_cons, !prefix_nil, prefix_head0. cbn [Ascii.eqb Bool.eqb andb Nat.eqb bind].
  rewrite rev_app_distr. cbn [rev app]. rewrite rev_involutive. reflexivity.
Qed.
Lemma dec_inp m k v ce s u us : sg_inputs s = u :: us -> step (ce ++ [s]) (nm "I" m (S k), v) = Ok (ce ++ [sg_with_inputs s ((u ++ [v]) :: us)]).
Proof.
  intro E. unfold ce_name. rewrite !has_sub_nm by reflexivity. rewrite nm_cname, cname_m. cbn [append]. rewrite !prefix_cons, !prefix_nil, prefix_head0. cbn [Ascii.eqb Bool.eqb andb Nat.eqb bind].
  rewrite rev_app_distr. cbn [rev app]. rewrite E, rev_involutive. reflexivity.
Qed.
Lemma dec_mink k v ce s : step (ce ++ [s]) (mink_name k, v) = Ok (ce ++ [sg_mink_add s [v]]).
Proof. unfold ce_name. rewrite mink_m, mink_reset. cbn [andb bind]. apply upd_last_snoc. Qed.

Lemma tail_app c s : tail_str (String c s) = s. Proof. reflexivity. Qed.
Lemma tail_m s : tail_str ("m" ++ s)%string = s. Proof. reflexivity. Qed.
Lemma tail_t s : tail_str ("t" ++ s)%string = s. Proof. reflexivity. Qed.
Lemma dec_first m v k : nth_error ns 0 = Some k -> m < List.length (ha_modes a) -> step [] (nm "i" m 0, v) = Ok [mkSeg m [v] [] k None [] []].
Proof.
  intros Hk Hm. unfold ce_name. rewrite !has_sub_nm by reflexivity. rewrite nm_cname, cname_m, <- nm_cname. cbn [append]. rewrite !prefix_cons, !prefix_nil, prefix_head0. cbn [Ascii.eqb Bool.eqb andb Nat.eqb].
  unfold new_segment. cbn [List.length]. rewrite Hk, split_nm by reflexivity. cbn [Nat.eqb assert bind nth]. rewrite tail_m, py_int_sn. cbn [bind].
  apply Nat.ltb_lt in Hm. rewrite Hm. reflexivity.
Qed.
Lemma dec_entry m ti v k ce s t : nth_error ns (S (List.length ce)) = Some k -> m < List.length (ha_modes a) -> nth_error (out_trans a (sg_mode s)) ti = Some t ->
  step (ce ++ [s]) (nm_t m ti, v) = Ok ((ce ++ [sg_with_trans s t]) ++ [mkSeg m [v] [] k None [] []]).
Proof.
  intros Hk Hm Ht. unfold ce_name.
  assert (E1 : has_sub "_i0" (nm_t m ti) = true) by (rewrite nm_t_cname, has_sub_cname; cbn [append]; rewrite !prefix_cons, prefix_nil; reflexivity).
  assert (E2 : has_sub "_i" (nm_t m ti) = true) by (rewrite nm_t_cname, has_sub_cname; cbn [append]; rewrite !prefix_cons, prefix_nil; reflexivity).
  assert (E3 : String.prefix "m" (nm_t m ti) = true) by (rewrite nm_t_cname; apply cname_m).
  rewrite E1, E2, E3. cbn [andb]. unfold new_segment. rewrite app_length. cbn [List.length]. rewrite Nat.add_1_r, Hk, split_nm_t.
  rewrite tail_t, py_int_sn. cbn [bind]. rewrite rev_app_distr. cbn [rev app]. rewrite Ht. cbn [bind nth]. rewrite tail_m, py_int_sn. cbn [bind].
  apply Nat.ltb_lt in Hm. rewrite Hm. cbn [assert bind]. rewrite rev_involutive. rewrite upd_last_snoc. reflexivity.
Qed.

(** ** runs of columns *)
Lemma ce_names_app x y : forall ce, ce_names a ns ce (x ++ y) = bind (ce_names a ns ce x) (fun ce1 => ce_names a ns ce1 y).
Proof. induction x as [|e x IH]; intro ce; [reflexivity|]. cbn [app ce_names]. destruct (ce_name a ns ce e) as [ce1|er]; cbn [bind]; [apply IH|reflexivity]. Qed.
Lemma run_init m n vs : forall k ce s, List.length vs = n -> ce_names a ns (ce ++ [s]) (combine (names_of "i" m (S k) n) vs) = Ok (ce ++ [sg_start_add s vs]).
Proof.
  revert vs. induction n as [|n IH]; intros [|v vs] k ce s H; try discriminate.
  - cbn. unfold sg_start_add. rewrite app_nil_r. destruct s; reflexivity.
  - cbn [names_of seq map combine ce_names]. rewrite dec_init. cbn [bind]. rewrite (IH vs (S k)) by (injection H; auto). unfold sg_start_add. cbn. rewrite <- app_assoc. reflexivity.
Qed.
Lemma run_cur m n vs : forall k ce s, List.length vs = n -> ce_names a ns (ce ++ [s]) (combine (names_of "c" m k n) vs) = Ok (ce ++ [sg_end_add s vs]).
Proof.
  revert vs. induction n as [|n IH]; intros [|v vs] k ce s H; try discriminate.
  - cbn. unfold sg_end_add. rewrite app_nil_r. destruct s; reflexivity.
  - cbn [names_of seq map combine ce_names]. rewrite dec_cur. cbn [bind]. rewrite (IH vs (S k)) by (injection H; auto). unfold sg_end_add. cbn. rewrite <- app_assoc. reflexivity.
Qed.
Lemma run_acc m n vs : forall k ce, List.length vs = n -> ce_names a ns ce (combine (names_of "ti" m k n) vs) = Ok ce.
Proof.
  revert vs. induction n as [|n IH]; intros [|v vs] k ce H; try discriminate; [reflexivity|].
  cbn [names_of seq map combine ce_names]. rewrite dec_acc. cbn [bind]. apply (IH vs (S k)). injection H; auto.
Qed.
Lemma run_inp' m n vs : forall k ce s u us, List.length vs = n -> sg_inputs s = u :: us ->
  ce_names a ns (ce ++ [s]) (combine (names_of "I" m (S k) n) vs) = Ok (ce ++ [sg_with_inputs s ((u ++ vs) :: us)]).
Proof.
  revert vs. induction n as [|n IH]; intros [|v vs] k ce s u us H E; try discriminate.
  - cbn. unfold sg_with_inputs. rewrite app_nil_r, <- E. destruct s; reflexivity.
  - cbn [names_of seq map combine ce_names]. rewrite (dec_inp _ _ _ _ _ _ _ E). cbn [bind]. rewrite (IH vs (S k) _ _ (u ++ [v]) us) by (try (injection H; auto); reflexivity).
    unfold sg_with_inputs. cbn. rewrite <- app_assoc. reflexivity.
Qed.
Lemma run_inp m n vs ce s : 0 < n -> List.length vs = n -> ce_names a ns (ce ++ [s]) (combine (names_of "I" m 0 n) vs) = Ok (ce ++ [sg_with_inputs s (vs :: sg_inputs s)]).
Proof.
  intros Hn H. destruct n as [|n]; [lia|]. destruct vs as [|v vs]; [discriminate|]. cbn [names_of seq map combine ce_names]. rewrite dec_inp0. cbn [bind].
  rewrite (run_inp' m n vs 0 _ _ [v] (sg_inputs s)) by (try (injection H; auto); reflexivity). reflexivity.
Qed.
Lemma run_mink n vs : forall k ce s, List.length vs = n -> ce_names a ns (ce ++ [s]) (combine (map mink_name (seq k n)) vs) = Ok (ce ++ [sg_mink_add s vs]).
Proof.
  revert vs. induction n as [|n IH]; intros [|v vs] k ce s H; try discriminate.
  - cbn. unfold sg_mink_add. rewrite app_nil_r. destruct s; reflexivity.
  - cbn [seq map combine ce_names]. rewrite dec_mink. cbn [bind]. rewrite (IH vs (S k)) by (injection H; auto). unfold sg_mink_add. cbn. rewrite <- app_assoc. reflexivity.
Qed.
End D.
