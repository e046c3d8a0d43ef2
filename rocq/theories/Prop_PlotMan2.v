(** C57, the stored plot data: with one subplot, drawing and storing together. *)
From Verif Require Import Base Util PlotMan Prop_PlotMan.
Open Scope nat_scope.
(** as do_ops of Prop_PlotMan.v, with store_plot_result = True *)
Fixpoint do_ops_st (small : bool) (p : pman) (ops : list dop) : res pman :=
  match ops with
  | [] => Ok p
  | DAdd st step mode vs :: r => do p' <- add_plotted true true small p st step mode vs; do_ops_st small p' r
  | DDel st step mode :: r => do p' <- delete_plotted true true p st step mode; do_ops_st small p' r
  end.
(** a state set is removed under the mode it was drawn in *)
Fixpoint own_mode (e : list piece) (ops : list dop) : Prop :=
  match ops with
  | [] => True
  | o :: r => match o with DDel st step mode => forall x, In x e -> key_is st step x = true -> snd (fst x) = mode | DAdd _ _ _ _ => True end /\ own_mode (should e o) r
  end.
(** the records expected: vertices, state set, step, in the order drawn *)
Definition stored (mode : string) (e : list piece) : list (pobj verts) := map (fun x => (snd x 0, fst (fst (fst x)), snd (fst (fst x)))) (filter (fun x => String.eqb (snd (fst x)) mode) e).

Lemma stored_app m a b : stored m (a ++ b) = stored m a ++ stored m b.
Proof. unfold stored. rewrite filter_app, map_app. reflexivity. Qed.
Lemma pop_app st step (a : list (pobj verts)) (o : pobj verts) b : (forall x, In x a -> is_obj st step x = false) -> is_obj st step o = true -> pop_first st step (a ++ o :: b) = Some (a ++ b).
Proof.
  induction a as [|x a IH]; intros Ha Ho; cbn [app pop_first].
  - rewrite Ho. reflexivity.
  - rewrite (Ha x (or_introl eq_refl)). rewrite IH; [reflexivity| |exact Ho]. intros y Hy. apply Ha. right. exact Hy.
Qed.
Lemma obj_of st step mode e : existsb (key_is st step) e = false -> forall x, In x (stored mode e) -> is_obj st step x = false.
Proof.
  intros H x Hx. unfold stored in Hx. apply in_map_iff in Hx as (y & <- & Hy). apply filter_In in Hy as [Hy _]. unfold is_obj. cbn [fst snd]. change ((fst (fst (fst y)) =? st) && (snd (fst (fst y)) =? step)) with (key_is st step y).
  destruct (key_is st step y) eqn:E; [|reflexivity]. assert (K : existsb (key_is st step) e = true) by (apply existsb_exists; eauto). congruence.
Qed.
Lemma filter_none st step e : existsb (key_is st step) e = false -> filter (fun x => negb (key_is st step x)) e = e.
Proof.
  induction e as [|x e IH]; intro H; [reflexivity|]. cbn [existsb filter] in *. apply Bool.orb_false_iff in H as [H1 H2]. rewrite H1. cbn [negb]. rewrite IH by exact H2. reflexivity.
Qed.

Lemma do_cons small p o ops : do_ops small p (o :: ops) = bind (do_ops small p [o]) (fun q => do_ops small q ops).
Proof. destruct o; cbn [do_ops]; [destruct (add_plotted _ _ _ _ _ _ _ _)|destruct (delete_plotted _ _ _ _ _ _)]; reflexivity. Qed.
Lemma do_cons_st small p o ops : do_ops_st small p (o :: ops) = bind (do_ops_st small p [o]) (fun q => do_ops_st small q ops).
Proof. destruct o; cbn [do_ops_st]; [destruct (add_plotted _ _ _ _ _ _ _ _)|destruct (delete_plotted _ _ _ _ _ _)]; reflexivity. Qed.
Lemma stored_ok small : forall ops shapes r f G, dinv 1 shapes r G -> sensible small 1 (alive G) ops -> own_mode (alive G) ops -> (forall m, f m = stored m (alive G)) ->
  exists shapes' r' f', do_ops_st small (shapes, r, [f]) ops = Ok (shapes', r', [f']) /\ do_ops small (shapes, r, [f]) ops = Ok (shapes', r', [f]) /\ (forall m, f' m = stored m (fold_left should ops (alive G))).
Proof.
  induction ops as [|o ops IH]; intros shapes r f G D S0 O F; [exists shapes, r, f; auto|].
  assert (Sn : sensible small 1 (alive G) [o]) by (destruct S0 as [S0 _]; split; [exact S0|exact Logic.I]).
  destruct (ops_ok small 1 [o] shapes r [f] G (shapes, r, [f]) (Nat.lt_0_succ 0) D Sn (or_intror eq_refl)) as (s1 & r1 & G1 & E1 & D1 & A1). cbn [fold_left] in A1.
  destruct S0 as [So S1]. destruct O as [Oo O1]. rewrite <- A1 in S1, O1.
  assert (St : exists f1, do_ops_st small (shapes, r, [f]) [o] = Ok (s1, r1, [f1]) /\ forall m, f1 m = stored m (alive G1)).
  { destruct D as [DL DP DR]. assert (exists s, shapes = [s]) as (s & ->) by (destruct shapes as [|s [|s' l]]; cbn in DL; try lia; eauto).
    destruct o as [st step mode vs|st step mode]; cbn [do_ops do_ops_st] in *.
    - unfold add_plotted in *. destruct (add_polys small [s] r st step mode vs 0) as [d|]; cbn [bind] in *; [|discriminate]. injection E1 as <- <-. eexists. split; [reflexivity|]. intro m. rewrite A1. cbn [should]. rewrite stored_app. unfold upd. rewrite !F.
      replace (stored m [(st, step, mode, vs)]) with (if String.eqb m mode then [(vs 0, st, step)] else []) by (unfold stored; cbn [filter fst snd]; rewrite (String.eqb_sym mode m); destruct (String.eqb m mode); reflexivity).
      destruct (String.eqb_spec m mode) as [->|]; [reflexivity|]. rewrite app_nil_r. reflexivity.
    - unfold delete_plotted in *. unfold del_plot_path in *. assert (DR0 := DR st step). destruct (r st step) as [l|] eqn:Er; cbn [bind] in *.
      + destruct (del_paths [s] l) as [b|]; cbn [bind] in *; [|discriminate]. injection E1 as <- <-. destruct DR0 as (H1 & g & H2 & EG & Lg & N1 & N2 & _).
        assert (Ea : alive G = alive H1 ++ snd g :: alive H2). { rewrite EG, alive_app. change (g :: H2) with ([g] ++ H2). rewrite alive_app. unfold alive at 2. cbn [filter]. unfold live_key in Lg. apply Bool.andb_true_iff in Lg as [-> _]. reflexivity. }
        assert (Kg : key_is st step (snd g) = true) by (unfold live_key in Lg; apply Bool.andb_true_iff in Lg as [_ K]; exact K).
        rewrite existsb_live in N1, N2.
        assert (Em : snd (fst (snd g)) = mode) by (apply Oo; [rewrite Ea; apply in_or_app; right; left; reflexivity|exact Kg]).
        assert (Eg : stored mode [snd g] = [(snd (snd g) 0, fst (fst (fst (snd g))), snd (fst (fst (snd g))))]) by (unfold stored; cbn [filter]; rewrite Em, String.eqb_refl; reflexivity).
        assert (P : pop_first st step (f mode) = Some (stored mode (alive H1) ++ stored mode (alive H2))).
        { rewrite F, Ea. change (snd g :: alive H2) with ([snd g] ++ alive H2). rewrite !stored_app, Eg. apply pop_app; [apply obj_of; exact N1|exact Kg]. }
        cbn [remove_state]. rewrite P. cbn [bind]. eexists. split; [reflexivity|]. intro m. rewrite A1. cbn [should]. rewrite Ea, filter_app. cbn [filter]. rewrite Kg. cbn [negb]. rewrite (filter_none st step (alive H1) N1), (filter_none st step (alive H2) N2), stored_app.
        unfold upd. destruct (String.eqb_spec m mode) as [->|Hm]; [reflexivity|]. rewrite F, Ea. change (snd g :: alive H2) with ([snd g] ++ alive H2). rewrite !stored_app. replace (stored m [snd g]) with (@nil (pobj verts)); [reflexivity|]. unfold stored. cbn [filter]. rewrite Em. apply String.eqb_neq in Hm. rewrite String.eqb_sym in Hm. rewrite Hm. reflexivity.
      + injection E1 as <- <-. eexists. split; [reflexivity|]. intro m. rewrite A1. cbn [should]. rewrite existsb_live in DR0. rewrite filter_none by exact DR0. apply F. }
  destruct St as (f1 & Es & F1).
  destruct (IH s1 r1 f1 G1 D1 S1 O1 F1) as (s2 & r2 & f2 & Q1 & Q2 & Q3). exists s2, r2, f2. split; [|split].
  - rewrite do_cons_st, Es. exact Q1.
  - assert (Q2' : do_ops small (s1, r1, [f]) ops = Ok (s2, r2, [f])).
    { destruct (ops_ok small 1 ops s1 r1 [f] G1 (s1, r1, [f]) (Nat.lt_0_succ 0) D1 S1 (or_intror eq_refl)) as (s3 & r3 & G3 & K1 & _).
      assert (Indep : forall ops s r p q s' r' p', do_ops small (s, r, p) ops = Ok (s', r', p') -> do_ops small (s, r, q) ops = Ok (s', r', q)).
      { clear. induction ops as [|o ops IH]; intros s r p q s' r' p' H; cbn [do_ops] in *; [injection H as <- <- _; reflexivity|]. destruct o.
        - unfold add_plotted in *. destruct (add_polys _ _ _ _ _ _ _ _) as [d|]; cbn [bind] in *; [|discriminate]. eapply IH. exact H.
        - unfold delete_plotted in *. destruct (del_plot_path _ _ _ _) as [[[d1 d2] d3]|]; cbn [bind] in *; [|discriminate]. destruct d3; cbn [bind] in *; eapply IH; exact H. }
      eapply Indep. exact Q2. }
    refine (eq_trans (do_cons small (shapes, r, [f]) o ops) _). refine (eq_trans (f_equal (fun z => bind z (fun q => do_ops small q ops)) E1) _). exact Q2'.
  - intro m. cbn [fold_left]. rewrite <- A1. apply Q3.
Qed.

(** with one subplot, drawing and storing: after any sequence of drawings and removals the stored plot data are, for each mode, exactly the polygons
    visible (C57_visible), with their state sets and steps *)
Theorem C57_stored_one_subplot small ops : sensible small 1 [] ops -> own_mode [] ops ->
  exists shapes r f, do_ops_st small ([shape0], fun _ _ => None, plot_data0 1) ops = Ok (shapes, r, [f]) /\
    do_ops small ([shape0], fun _ _ => None, plot_data0 1) ops = Ok (shapes, r, plot_data0 1) /\
    forall mode, f mode = stored mode (fold_left should ops []).
Proof.
  intros S0 O. apply (stored_ok small ops [shape0] (fun _ _ => None) (fun _ => []) []); auto.
  constructor; [reflexivity| |reflexivity]. intros [|i] s m Hs; [injection Hs as <-; reflexivity|destruct i; discriminate].
Qed.
Example C57_stored_witness : exists ops, sensible true 1 [] ops /\ own_mode [] ops /\ ops = [DAdd 0 0 "m"%string (fun _ => dtri 0); DAdd 0 1 "m"%string (fun _ => dtri 1); DDel 0 0 "m"%string; DAdd 1 0 "k"%string (fun _ => dtri 4)] /\
  stored "m"%string (fold_left should ops []) = [(dtri 1, 0, 1)].
Proof. eexists. split; [|split; [|split; reflexivity]]; repeat split; intros; cbn in *; try lia. destruct H as [<-|[<-|[]]]; reflexivity. Qed.
