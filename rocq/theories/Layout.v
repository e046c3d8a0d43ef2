(** Column layouts: which names every operation appends. *)
From Verif Require Import Base BaseFacts LpModel LpUtil LpFacts LpWf OpsFacts Automaton StateSet CoreModel Names CexSpec NameFacts.
From Coq Require Import String.
Open Scope list_scope.
Open Scope nat_scope.

Lemma names_csr l m off l' : set_constraints_csr l m off = Ok l' -> l_names l' = l_names l.
Proof. intro H. apply set_constraints_csr_ok in H as [-> _]. reflexivity. Qed.
Lemma names_csc l m off l' : set_constraints_csc l m off = Ok l' -> l_names l' = l_names l.
Proof. intro H. apply set_constraints_csc_ok in H as [-> _]. reflexivity. Qed.
Lemma names_le l rhs : l_names (add_rows_le l rhs) = l_names l. Proof. reflexivity. Qed.
Lemma names_eq0 l n : l_names (add_rows_eq0 l n) = l_names l. Proof. reflexivity. Qed.
Lemma names_cols l n : l_names (add_cols l n) = l_names l ++ n. Proof. reflexivity. Qed.
Lemma names_of_length tag mid s n : List.length (names_of tag mid s n) = n.
Proof. unfold names_of. rewrite map_length, seq_length. reflexivity. Qed.

Section WithSolver.
Variable solve : solver.
Lemma from_constraints_layout m rhs mid hi dims l : from_constraints solve m rhs mid hi None dims = Ok l ->
  let d := match dims with None => c_nc m | Some d => d end in
  l_names l = names_of "i" mid 0 (c_nc m) ++ names_of "c" mid 0 d ++ (if hi then names_of "ti" mid 0 d else []) /\
  l_dims l = d /\ d <= c_nc m /\ snd (l_bm l) = 0 /\ l_cvo l = c_nc m /\ (exists r, l_ie l = if hi then Some (r, c_nc m + d) else None).
Proof.
  intros H d. unfold from_constraints in H. apply bind_ok in H as (u0 & _ & H). apply bind_ok in H as (fe & _ & H). apply bind_ok in H as (u1 & _ & H). apply bind_ok in H as (dd & Hd & H).
  assert (E : dd = d /\ d <= c_nc m).
  { unfold d. destruct dims as [d0|]. { apply bind_ok in Hd as (u2 & Hle & Hd). apply assert_ok in Hle. apply Nat.leb_le in Hle. injection Hd as <-. auto. } injection Hd as <-. auto. }
  destruct E as [-> Hle]. cbn [bind] in H. apply bind_ok in H as (l1 & H1 & H). apply bind_ok in H as (l2 & H2 & H).
  apply names_csr in H1. apply names_csr in H2. rewrite H1 in H2. clear H1 l1.
  destruct hi.
  - apply bind_ok in H as (l3 & H3 & H). apply names_csr in H3. apply set_reach_vars_ok in H as (-> & _). cbn [l_names l_dims l_bm l_cvo l_ie snd].
    split; [rewrite H3, names_eq0, H2, names_cols, names_le, names_cols, names_eq0; cbn [l_names lp_new app]; rewrite <- app_assoc; reflexivity|].
    split; [reflexivity|]. split; [exact Hle|]. split; [reflexivity|]. split; [reflexivity|]. eexists. rewrite Nat.add_comm. reflexivity.
  - apply set_reach_vars_ok in H as (-> & _). cbn [l_names l_dims l_bm l_cvo l_ie snd].
    split; [rewrite H2, names_le, names_cols, names_eq0; cbn [l_names lp_new app]; rewrite app_nil_r; reflexivity|].
    split; [reflexivity|]. split; [exact Hle|]. split; [reflexivity|]. split; [reflexivity|]. exists 0. reflexivity.
Qed.
End WithSolver.

Lemma reset_layout l mid tix reset mink si l' : add_reset_variables l mid tix reset mink si = Ok l' ->
  let nd := match reset with None => l_dims l | Some r => c_nr r end in
  let mv := match mink with None => 0 | Some (m, _, _) => c_nc m end in
  l_names l' = l_names l ++ map mink_name (seq 0 mv) ++ [nm_t mid tix] ++ names_of "i" mid 1 (nd - 1) ++ names_of "c" mid 0 nd ++ (if si then names_of "ti" mid 0 nd else []) /\
  l_dims l' = nd /\ snd (l_bm l') = l_nc l + mv /\ l_cvo l' = l_nc l + mv + nd /\ (exists r, l_ie l' = if si then Some (r, l_nc l + mv + 2 * nd) else None).
Proof.
  intros H nd mv. unfold add_reset_variables in H.
  destruct (match mink with None => (mkCsr 0 [], mkCsr 0 [], []) | Some t => t end) as [[mk mc] mrhs] eqn:Em.
  assert (Emv : c_nc mk = mv) by (unfold mv; destruct mink as [[[? ?] ?]|]; injection Em as <- <- <-; reflexivity).
  assert (End : c_nr (match reset with None => ident_csr (l_dims l) | Some r => r end) = nd).
  { unfold nd. destruct reset; [reflexivity|]. unfold c_nr, ident_csr. cbn [c_rows]. rewrite map_length, seq_length. reflexivity. }
  cbv zeta in H. rewrite End, Emv in H. apply bind_ok in H as (u & _ & H). apply bind_ok in H as (u2 & _ & H). apply bind_ok in H as (u3 & _ & H). apply bind_ok in H as (l1 & H1 & H).
  apply names_csr in H1. apply set_reach_vars_ok in H as (-> & _). cbn [l_names l_dims l_bm l_cvo l_ie snd]. split.
  - rewrite H1. destruct si; rewrite ?names_eq0, ?names_le, ?names_eq0, names_cols; reflexivity.
  - split; [reflexivity|]. split; [reflexivity|]. split; [reflexivity|]. eexists. destruct si; reflexivity.
Qed.

Lemma input_layout l ie mid nv uc ur l' : add_input_effects_matrix l ie mid nv uc ur = Ok l' -> l_names l' = l_names l ++ names_of "I" mid 0 (c_nc uc).
Proof.
  unfold add_input_effects_matrix. destruct (l_ie l) as [[ier iec]|]; [|discriminate]. intro H. apply bind_ok in H as (u & _ & H). apply bind_ok in H as (u2 & _ & H). apply bind_ok in H as (u3 & _ & H).
  cbv zeta in H. apply names_csc in H. rewrite H. reflexivity.
Qed.
Definition inp_names (mid nu k : nat) : list string := List.concat (repeat (names_of "I" mid 0 nu) k).
Lemma add_inputs_layout md mid count : forall l ies from l' ies', add_inputs l md mid ies from count = Ok (l', ies') -> l_names l' = l_names l ++ inp_names mid (m_nu md) count.
Proof.
  induction count as [|count IH]; intros l ies from l' ies' H; cbn [add_inputs] in H.
  - injection H as <- _. unfold inp_names. cbn. rewrite app_nil_r. reflexivity.
  - unfold m_nu in *. destruct (m_b md) as [[[b uc] ur]|]; [|discriminate]. apply bind_ok in H as (l1 & H1 & H). apply input_layout in H1. apply IH in H. rewrite H, H1, <- app_assoc. reflexivity.
Qed.
Lemma basis_layout l bm l' : set_basis_matrix l bm = Ok l' -> l_names l' = l_names l.
Proof. unfold set_basis_matrix. intro H. apply bind_ok in H as (u & _ & H). apply bind_ok in H as (u2 & _ & H). injection H as <-. reflexivity. Qed.
Lemma curtime_layout l m rhs l' : add_curtime_constraints l m rhs = Ok l' -> l_names l' = l_names l.
Proof. intro H. apply names_csr in H. rewrite H. reflexivity. Qed.
