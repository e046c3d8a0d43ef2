(** Column names: strings of decimal numerals and how the counter-example builder takes them apart. *)
From Verif Require Import Base BaseFacts LpModel LpUtil LpFacts Automaton CoreModel.
From Coq Require Import String Ascii List Arith Lia DecimalString DecimalNat DecimalFacts Decimal Bool.
Import ListNotations.
Open Scope nat_scope.
Open Scope string_scope.

Definition is_digit (c : ascii) : bool := match c with
  | "0" | "1" | "2" | "3" | "4" | "5" | "6" | "7" | "8" | "9" => true | _ => false end%char.
Fixpoint digits (s : string) : bool := match s with EmptyString => true | String c r => is_digit c && digits r end.

Lemma digits_sou d : digits (NilEmpty.string_of_uint d) = true.
Proof. induction d; cbn; auto. Qed.
Lemma digits_sn n : digits (sn n) = true.
Proof. apply digits_sou. Qed.
Lemma py_int_sn n : py_int (sn n) = Ok n.
Proof.
  unfold py_int. assert (E : NilEmpty.uint_of_string (sn n) = Some (Nat.to_uint n)) by (unfold sn; apply NilEmpty.usu).
  destruct (sn n) as [|c r] eqn:En.
  - exfalso. cbn in E. injection E as E. pose proof (Unsigned.of_to n) as K. rewrite <- E in K. cbn in K. subst n. discriminate En.
  - rewrite E. rewrite Unsigned.of_to. reflexivity.
Qed.
Lemma sn_inj n m : sn n = sn m -> n = m.
Proof. intro E. pose proof (py_int_sn n) as K. rewrite E, py_int_sn in K. injection K; auto. Qed.

(** only 0 starts with the digit 0 *)
Lemma sn_head n : exists c r, sn n = String c r /\ (c = "0"%char <-> n = 0).
Proof.
  unfold sn. pose proof (Unsigned.to_of (Nat.to_uint n)) as K. rewrite Unsigned.of_to in K.
  destruct (Nat.eq_dec n 0) as [->|Hn]. { exists "0"%char, "". split; [reflexivity|split; reflexivity]. }
  assert (NZ : nzhead (Nat.to_uint n) <> Nil).
  { intro E. unfold unorm in K. rewrite E in K. apply Hn. rewrite <- (Unsigned.of_to n), K. reflexivity. }
  assert (E : Nat.to_uint n = nzhead (Nat.to_uint n)). { unfold unorm in K. destruct (nzhead (Nat.to_uint n)); congruence. }
  destruct (Nat.to_uint n) as [|d|d|d|d|d|d|d|d|d|d].
  - exfalso. apply NZ. reflexivity.
  - exfalso. cbn [nzhead] in E. pose proof (nb_digits_nzhead d) as L. rewrite <- E in L. cbn [nb_digits] in L. lia.
  - eexists _, _; split; [reflexivity|split; [discriminate|congruence]].
  - eexists _, _; split; [reflexivity|split; [discriminate|congruence]].
  - eexists _, _; split; [reflexivity|split; [discriminate|congruence]].
  - eexists _, _; split; [reflexivity|split; [discriminate|congruence]].
  - eexists _, _; split; [reflexivity|split; [discriminate|congruence]].
  - eexists _, _; split; [reflexivity|split; [discriminate|congruence]].
  - eexists _, _; split; [reflexivity|split; [discriminate|congruence]].
  - eexists _, _; split; [reflexivity|split; [discriminate|congruence]].
  - eexists _, _; split; [reflexivity|split; [discriminate|congruence]].
Qed.

(** ** substring tests *)
Lemma has_sub_nil c sub : has_sub (String c sub) "" = false.
Proof. reflexivity. Qed.
Lemma has_sub_cons c sub b s : has_sub (String c sub) (String b s) = String.prefix (String c sub) (String b s) || has_sub (String c sub) s.
Proof.
  unfold has_sub. cbn [String.index].
  destruct (String.prefix (String c sub) (String b s)); [reflexivity|]. destruct (String.index 0 (String c sub) s); reflexivity.
Qed.
Lemma prefix_cons a s b t : String.prefix (String a s) (String b t) = Ascii.eqb a b && String.prefix s t.
Proof. cbn [String.prefix]. destruct (ascii_dec a b) as [->|N]; [rewrite Ascii.eqb_refl; reflexivity|]. destruct (Ascii.eqb_spec a b); [congruence|reflexivity]. Qed.
Lemma prefix_nil s : String.prefix "" s = true.
Proof. destruct s; reflexivity. Qed.
Lemma digit_us d : is_digit d = true -> Ascii.eqb "_" d = false.
Proof. intro H. destruct (Ascii.eqb_spec "_" d) as [<-|]; [discriminate H|reflexivity]. Qed.
Lemma has_sub_digits sub d s : digits d = true -> has_sub (String "_" sub) (d ++ s) = has_sub (String "_" sub) s.
Proof.
  induction d as [|c d IH]; [reflexivity|]. cbn [digits]. intro H. apply andb_prop in H as [H1 H2]. cbn [append]. rewrite has_sub_cons, prefix_cons, digit_us by exact H1. cbn [andb orb]. apply IH; exact H2.
Qed.
Lemma app_nil s : s ++ "" = s.
Proof. induction s as [|c s IH]; [reflexivity|]. cbn [append]. rewrite IH. reflexivity. Qed.
Lemma app_assoc_s s t u : (s ++ t) ++ u = s ++ (t ++ u).
Proof. induction s as [|c s IH]; [reflexivity|]. cbn [append]. rewrite IH. reflexivity. Qed.
Lemma has_sub_digits' sub d : digits d = true -> has_sub (String "_" sub) d = false.
Proof. intro H. rewrite <- (app_nil d), has_sub_digits by exact H. reflexivity. Qed.

(** ** splitting *)
Lemma split_digits d s : forall cur, digits d = true -> split_us (d ++ s) cur = split_us s (cur ++ d).
Proof.
  induction d as [|c d IH]; intros cur H. { cbn [append]. rewrite app_nil. reflexivity. }
  cbn [digits] in H. apply andb_prop in H as [H1 H2]. cbn [append split_us]. rewrite Ascii.eqb_sym, digit_us by exact H1. rewrite IH by exact H2. rewrite app_assoc_s. reflexivity.
Qed.
Lemma split_digits' d cur : digits d = true -> split_us d cur = [cur ++ d].
Proof. intro H. rewrite <- (app_nil d) at 1. rewrite split_digits by exact H. reflexivity. Qed.

(** ** the names of the columns *)
Fixpoint no_us (s : string) : bool := match s with EmptyString => true | String c r => negb (Ascii.eqb "_" c) && no_us r end.
Lemma has_sub_no_us sub d : no_us d = true -> has_sub (String "_" sub) d = false.
Proof.
  induction d as [|c d IH]; [reflexivity|]. cbn [no_us]. intro H. apply andb_prop in H as [H1 H2]. rewrite has_sub_cons, prefix_cons. destruct (Ascii.eqb "_" c); [discriminate H1|]. cbn [andb orb]. apply IH; exact H2.
Qed.
Lemma no_us_app s t : no_us (s ++ t) = no_us s && no_us t.
Proof. induction s as [|c s IH]; [reflexivity|]. cbn [append no_us]. rewrite IH, andb_assoc. reflexivity. Qed.
Lemma digits_no_us d : digits d = true -> no_us d = true.
Proof. induction d as [|c d IH]; [reflexivity|]. cbn [digits no_us]. intro H. apply andb_prop in H as [H1 H2]. rewrite digit_us, IH by auto. reflexivity. Qed.
Lemma split_no_us d s : forall cur, no_us d = true -> split_us (d ++ s) cur = split_us s (cur ++ d).
Proof.
  induction d as [|c d IH]; intros cur H. { cbn [append]. rewrite app_nil. reflexivity. }
  cbn [no_us] in H. apply andb_prop in H as [H1 H2]. cbn [append split_us]. rewrite Ascii.eqb_sym. destruct (Ascii.eqb "_" c); [discriminate H1|]. rewrite IH by exact H2. rewrite app_assoc_s. reflexivity.
Qed.
Lemma split_no_us' d cur : no_us d = true -> split_us d cur = [cur ++ d].
Proof. intro H. rewrite <- (app_nil d) at 1. rewrite split_no_us by exact H. reflexivity. Qed.

Definition cname (mid : nat) (rest : string) : string := "m" ++ sn mid ++ "_" ++ rest.
Lemma nm_cname tag mid k : nm tag mid k = cname mid (tag ++ sn k). Proof. reflexivity. Qed.
Lemma cname_m mid r : String.prefix "m" (cname mid r) = true.
Proof. unfold cname. cbn [append]. rewrite prefix_cons, prefix_nil. reflexivity. Qed.
Lemma has_sub_cname sub mid r : has_sub (String "_" sub) (cname mid r) = String.prefix sub r || has_sub (String "_" sub) r.
Proof.
  unfold cname. cbn [append]. rewrite has_sub_cons, prefix_cons. change (Ascii.eqb "_" "m") with false. cbn [andb orb].
  rewrite has_sub_digits by apply digits_sn. rewrite has_sub_cons, prefix_cons, Ascii.eqb_refl. reflexivity.
Qed.
Lemma has_sub_nm sub tag mid k : no_us tag = true -> has_sub (String "_" sub) (nm tag mid k) = String.prefix sub (tag ++ sn k).
Proof.
  intro H. rewrite nm_cname, has_sub_cname, has_sub_no_us; [apply orb_false_r|]. rewrite no_us_app, H. apply digits_no_us, digits_sn.
Qed.
Lemma split_cname mid r : split_us (cname mid r) "" = ("m" ++ sn mid) :: split_us r "".
Proof.
  change (cname mid r) with ("m" ++ (sn mid ++ String "_" r)). rewrite split_no_us by reflexivity. rewrite split_digits by apply digits_sn. reflexivity.
Qed.
Lemma prefix_head0 k : String.prefix "0" (sn k) = Nat.eqb k 0.
Proof. destruct (sn_head k) as (c & r & -> & H). rewrite prefix_cons, prefix_nil, andb_true_r. destruct (Ascii.eqb_spec "0" c) as [<-|N], (Nat.eqb_spec k 0) as [->|N2]; intuition congruence. Qed.

(** the names after a reset: m{mode}_i0_t{transition} *)
Definition nm_t (mid ti : nat) : string := "m" ++ sn mid ++ "_i0_t" ++ sn ti.
Lemma nm_t_cname mid ti : nm_t mid ti = cname mid ("i0_t" ++ sn ti). Proof. reflexivity. Qed.
Lemma split_nm_t mid ti : split_us (nm_t mid ti) "" = ["m" ++ sn mid; "i0"; "t" ++ sn ti].
Proof. rewrite nm_t_cname, split_cname. cbn [append split_us Ascii.eqb Bool.eqb]. cbn. rewrite split_digits' by apply digits_sn. reflexivity. Qed.
Lemma split_nm tag mid k : no_us tag = true -> split_us (nm tag mid k) "" = ["m" ++ sn mid; tag ++ sn k].
Proof. intro H. rewrite nm_cname, split_cname, split_no_us'; [reflexivity|]. rewrite no_us_app, H. apply digits_no_us, digits_sn. Qed.

Definition mink_name (k : nat) : string := "reset" ++ sn k.
Lemma mink_m k : String.prefix "m" (mink_name k) = false. Proof. reflexivity. Qed.
Lemma mink_reset k : String.prefix "reset" (mink_name k) = true.
Proof. unfold mink_name. cbn [append]. rewrite !prefix_cons, prefix_nil. reflexivity. Qed.
