(** C35: the names of LP columns identify mode, role and transition. *)
From Verif Require Import Base BaseFacts LpModel LpUtil LpFacts LpWf Automaton StateSet CoreModel Names CexSpec NameFacts Layout.
From Coq Require Import String Ascii Bool.
Open Scope list_scope.
Open Scope nat_scope.

(** a reader of names, to show that no two columns have the same name *)
Definition drop2 (s : string) : string := tail_str (tail_str s).
Definition parse (s : string) : option col :=
  if String.prefix "m" s then
    match split_us s "" with
    | [m; r] =>
        match py_int (tail_str m) with
        | Err _ => None
        | Ok m =>
            if String.prefix "i" r then match py_int (tail_str r) with Ok k => Some (CInit m k) | _ => None end
            else if String.prefix "c" r then match py_int (tail_str r) with Ok k => Some (CCur m k) | _ => None end
            else if String.prefix "I" r then match py_int (tail_str r) with Ok k => Some (CInp m k) | _ => None end
            else match py_int (drop2 r) with Ok k => Some (CAcc m k) | _ => None end
        end
    | [m; _; t] => match py_int (tail_str m), py_int (tail_str t) with Ok m, Ok t => Some (CEntry m t) | _, _ => None end
    | _ => None
    end
  else match py_int (drop2 (drop2 (tail_str s))) with Ok k => Some (CMink k) | _ => None end.
Lemma col_name_nm c : col_name c = match c with
  | CInit m k => nm "i" m k | CEntry m t => nm_t m t | CCur m k => nm "c" m k | CAcc m k => nm "ti" m k | CInp m k => nm "I" m k | CMink k => mink_name k end.
Proof. destruct c; reflexivity. Qed.
Lemma parse_name c : parse (col_name c) = Some c.
Proof.
  rewrite col_name_nm. destruct c as [m k|m t|m k|m k|m k|k]; unfold parse.
  - rewrite split_nm by reflexivity. rewrite nm_cname, cname_m, tail_m, py_int_sn. cbn [append]. rewrite prefix_cons, prefix_nil. cbn [Ascii.eqb Bool.eqb andb]. rewrite tail_app, py_int_sn. reflexivity.
  - rewrite split_nm_t, nm_t_cname, cname_m, tail_m, tail_t, !py_int_sn. reflexivity.
  - rewrite split_nm by reflexivity. rewrite nm_cname, cname_m, tail_m, py_int_sn. cbn [append]. rewrite !prefix_cons, prefix_nil. cbn [Ascii.eqb Bool.eqb andb]. rewrite tail_app, py_int_sn. reflexivity.
  - rewrite split_nm by reflexivity. rewrite nm_cname, cname_m, tail_m, py_int_sn. cbn [append]. rewrite !prefix_cons. cbn [Ascii.eqb Bool.eqb andb]. unfold drop2. rewrite !tail_app, py_int_sn. reflexivity.
  - rewrite split_nm by reflexivity. rewrite nm_cname, cname_m, tail_m, py_int_sn. cbn [append]. rewrite !prefix_cons, prefix_nil. cbn [Ascii.eqb Bool.eqb andb]. rewrite tail_app, py_int_sn. reflexivity.
  - rewrite mink_m. unfold drop2, mink_name. cbn [append]. rewrite !tail_app, py_int_sn. reflexivity.
Qed.

(** different columns have different names *)
Theorem C35_names_unambiguous c c' : col_name c = col_name c' -> c = c'.
Proof. intro E. pose proof (parse_name c) as K. rewrite E, parse_name in K. injection K; auto. Qed.

(** The counter-example builder assigns every column to its place: [ce ++ [s]] are the segments so far. *)
Theorem C35_names_decoded a nsteps ce md st en k tr mi ins v :
  let s := mkSeg md st en k tr mi ins in
  (forall m i, 0 < i -> ce_name a nsteps (ce ++ [s]) (col_name (CInit m i), v) = Ok (ce ++ [mkSeg md (st ++ [v]) en k tr mi ins])) /\
  (forall m i, ce_name a nsteps (ce ++ [s]) (col_name (CCur m i), v) = Ok (ce ++ [mkSeg md st (en ++ [v]) k tr mi ins])) /\
  (forall i, ce_name a nsteps (ce ++ [s]) (col_name (CMink i), v) = Ok (ce ++ [mkSeg md st en k tr (mi ++ [v]) ins])) /\
  (forall m i, ce_name a nsteps (ce ++ [s]) (col_name (CAcc m i), v) = Ok (ce ++ [s])) /\
  (forall m, ce_name a nsteps (ce ++ [s]) (col_name (CInp m 0), v) = Ok (ce ++ [mkSeg md st en k tr mi ([v] :: ins)])) /\
  (forall m i u us, 0 < i -> ins = u :: us ->
     ce_name a nsteps (ce ++ [s]) (col_name (CInp m i), v) = Ok (ce ++ [mkSeg md st en k tr mi ((u ++ [v]) :: us)])) /\
  (* the first column of a mode opens a segment with the right mode, number of steps and incoming transition *)
  (forall m k', m < List.length (ha_modes a) -> nth_error nsteps 0 = Some k' ->
     ce_name a nsteps [] (col_name (CInit m 0), v) = Ok [mkSeg m [v] [] k' None [] []]) /\
  (forall m ti t k', m < List.length (ha_modes a) -> nth_error (out_trans a md) ti = Some t -> nth_error nsteps (S (List.length ce)) = Some k' ->
     ce_name a nsteps (ce ++ [s]) (col_name (CEntry m ti), v) = Ok (ce ++ [mkSeg md st en k (Some t) mi ins; mkSeg m [v] [] k' None [] []])).
Proof.
  intro s. split; [|split; [|split; [|split; [|split; [|split; [|split]]]]]].
  - intros m [|i] Hi; [lia|]. apply dec_init.
  - intros m i. apply dec_cur.
  - intro i. apply dec_mink.
  - intros m i. apply dec_acc.
  - intro m. apply dec_inp0.
  - intros m [|i] u us Hi E; [lia|]. apply dec_inp. exact E.
  - intros m k' Hm Hk. apply dec_first; auto.
  - intros m ti t k' Hm Ht Hk. change (col_name (CEntry m ti)) with (nm_t m ti). rewrite (dec_entry a nsteps m ti v k' ce s t Hk Hm Ht). rewrite <- app_assoc. reflexivity.
Qed.

(** The names are the ones the operations give to the columns they add. *)
Lemma names_of_col (f : nat -> nat -> col) tag : (forall m k, col_name (f m k) = nm tag m k) -> forall mid s n, names_of tag mid s n = map (fun k => col_name (f mid k)) (seq s n).
Proof. intros H mid s n. unfold names_of. apply map_ext. intro k. symmetry. apply H. Qed.
Theorem C35_names_given solve :
  (forall m rhs mid hi dims l, from_constraints solve m rhs mid hi None dims = Ok l ->
     let d := match dims with None => c_nc m | Some d => d end in
     l_names l = map col_name (map (CInit mid) (seq 0 (c_nc m)) ++ map (CCur mid) (seq 0 d) ++ (if hi then map (CAcc mid) (seq 0 d) else []))) /\
  (forall l mid ti reset mink si l', add_reset_variables l mid ti reset mink si = Ok l' -> 0 < l_dims l' ->
     let mv := match mink with None => 0 | Some (m, _, _) => c_nc m end in
     l_names l' = l_names l ++ map col_name (map CMink (seq 0 mv) ++ CEntry mid ti :: map (CInit mid) (seq 1 (l_dims l' - 1)) ++
                                             map (CCur mid) (seq 0 (l_dims l')) ++ (if si then map (CAcc mid) (seq 0 (l_dims l')) else []))) /\
  (forall l ie mid nv uc ur l', add_input_effects_matrix l ie mid nv uc ur = Ok l' -> l_names l' = l_names l ++ map col_name (map (CInp mid) (seq 0 (c_nc uc)))).
Proof.
  split; [|split].
  - intros m rhs mid hi dims l H d. apply from_constraints_layout in H as (H & _). fold d in H. rewrite H, !map_app, !map_map.
    rewrite (names_of_col CInit "i"), (names_of_col CCur "c"), (names_of_col CAcc "ti") by reflexivity. destruct hi; [rewrite map_map|]; reflexivity.
  - intros l mid ti reset mink si l' H _ mv. apply reset_layout in H as (H & Hd & _). fold mv in H. rewrite Hd. set (nd := match reset with None => l_dims l | Some r => c_nr r end) in *.
    rewrite H, (names_of_col CInit "i"), (names_of_col CCur "c"), (names_of_col CAcc "ti") by reflexivity. f_equal.
    rewrite map_app. cbn [map]. rewrite !map_app, !map_map. destruct si; [rewrite map_map|]; reflexivity.
  - intros l ie mid nv uc ur l' H. apply input_layout in H. rewrite H, (names_of_col CInp "I") by reflexivity. rewrite map_map. reflexivity.
Qed.

(** mode 10, transition 12, variable 10: nothing is confused with mode 1, transition 1, variable 0 or 1 *)
Example C35_witness : col_name (CEntry 10 12) = "m10_i0_t12"%string /\ col_name (CInit 10 10) = "m10_i10"%string /\
  col_name (CAcc 10 0) = "m10_ti0"%string /\ col_name (CInp 0 10) = "m0_I10"%string /\ parse "m10_i0_t12" = Some (CEntry 10 12).
Proof. vm_compute. auto 10. Qed.
