(** * Nearest hits in exact arithmetic: the loop over shapes and the walk over a k-d tree *)
From Coq Require Import ZArith Reals List Bool Lia Lra Permutation Sorted.
From Flocq Require Import Core.
From Verif Require Import Model.Num Model.NumX Model.Vector Model.BBox Model.Interaction Model.Shape
  Model.Container Model.KdTree Spec.RVec Spec.BoxSpec Spec.KdSpec Proofs.XBase Proofs.FLaws Proofs.RVecProofs Proofs.BoxProofs
  Proofs.TriangleProofs Proofs.KdBuild Proofs.KdWalk Props.Boxes.
Import ListNotations.
Local Open Scope R_scope.

Lemma xlt_ge a b : xis_nan a = false -> xis_nan b = false -> xlt a b = false -> xle b a = true.
Proof. intros A B H. rewrite xlt_not_le in H by auto. now apply negb_false_iff in H. Qed.

(** ** One split plane *)
Section Plane.
  Variables (oa da x : R).
  Hypothesis H0 : da = 0 -> oa <> x.
  Definition ts : XR := xdiv (XFin (x - oa)) (XFin da).
  Definition bf : bool := Rlt_bool oa x || (Req_bool oa x && Rle_bool da 0).

  Lemma ts_nnan : xis_nan ts = false.
  Proof.
    unfold ts. destruct (Req_dec da 0) as [E|E].
    - rewrite E. specialize (H0 E). destruct (Rlt_le_dec oa x).
      + now rewrite xdiv_zero_pos by lra.
      + now rewrite xdiv_zero_neg by lra.
    - now rewrite xdiv_fin.
  Qed.

  Lemma bf_true : bf = true -> oa < x \/ oa = x /\ da <= 0.
  Proof. clear H0. unfold bf. rewrite orb_true_iff, andb_true_iff, Rlt_bool_iff, Req_bool_iff, Rle_bool_iff. tauto. Qed.
  Lemma bf_false : bf = false -> x < oa \/ oa = x /\ 0 < da.
  Proof.
    clear H0. unfold bf. rewrite orb_false_iff, andb_false_iff, Rlt_bool_niff, Req_bool_niff, Rle_bool_niff.
    intros [A [B|B]]; [left; lra|]. destruct (Req_dec oa x); [right; lra|left; lra].
  Qed.

  Variables (t : R) (tmin tmax : XR).
  Hypothesis Ht : 0 < t.
  Hypothesis Hmin : xle tmin (XFin t) = true.
  Hypothesis Hmax : xle (XFin t) tmax = true.

  (** the child that holds the point at [t] when it is not on the plane *)
  Definition near : Prop := if bf then oa + t * da < x else x < oa + t * da.
  Definition far : Prop := if bf then x < oa + t * da else oa + t * da < x.

  Lemma plane_first : xlt tmax ts || xle ts (XFin 0) = true -> near.
  Proof.
    unfold near, ts. rewrite orb_true_iff. intros H.
    destruct (Req_dec da 0) as [E|E].
    - rewrite E in *. specialize (H0 eq_refl). rewrite Rmult_0_r, Rplus_0_r. destruct bf eqn:B.
      + apply bf_true in B as [B|[B _]]; [exact B|congruence].
      + apply bf_false in B as [B|[B _]]; [exact B|congruence].
    - rewrite xdiv_fin in H by auto. set (u := (x - oa) / da) in *.
      assert (Hu : x - oa = u * da) by (unfold u; field; auto).
      assert (C : t < u \/ u <= 0).
      { destruct H as [H|H].
        - left. assert (G := xle_lt_trans _ _ _ Hmax H). cbn in G. rb. exact G.
        - right. cbn in H. rb. exact H. }
      clear H. destruct bf eqn:B.
      + apply bf_true in B as [B|[B B']].
        * destruct C; nra.
        * assert (u = 0) by nra. nra.
      + apply bf_false in B as [B|[B B']].
        * destruct C; nra.
        * assert (u = 0) by nra. nra.
  Qed.

  Lemma plane_second : xlt tmax ts || xle ts (XFin 0) = false -> xlt ts tmin = true -> far.
  Proof.
    unfold far, ts. rewrite orb_false_iff. intros [H1 H2] H3.
    destruct (Req_dec da 0) as [E|E].
    - rewrite E in *. specialize (H0 eq_refl). destruct (Rlt_le_dec oa x).
      + rewrite xdiv_zero_pos in H3 by lra. destruct tmin as [|[]|]; discriminate.
      + rewrite xdiv_zero_neg in H2 by lra. discriminate.
    - rewrite xdiv_fin in H1, H2, H3 by auto. set (u := (x - oa) / da) in *.
      assert (Hu : x - oa = u * da) by (unfold u; field; auto).
      cbn in H2. rb. assert (G := xlt_le_trans _ _ _ H3 Hmin). cbn in G. rb.
      destruct bf eqn:B.
      + apply bf_true in B as [B|[B B']]; nra.
      + apply bf_false in B as [B|[B B']]; nra.
  Qed.

  Lemma plane_both : xlt tmax ts || xle ts (XFin 0) = false -> xlt ts tmin = false ->
    (xle (XFin t) ts = true /\ near) \/ (xle ts (XFin t) = true /\ far) \/ (ts = XFin t /\ oa + t * da = x).
  Proof.
    unfold near, far, ts. rewrite orb_false_iff. intros [H1 H2] H3.
    destruct (Req_dec da 0) as [E|E].
    - rewrite E in *. specialize (H0 eq_refl). destruct (Rlt_le_dec oa x).
      + left. rewrite xdiv_zero_pos by lra. split; [reflexivity|].
        replace bf with true by (symmetry; unfold bf; rewrite Rlt_bool_true by auto; reflexivity). lra.
      + rewrite xdiv_zero_neg in H2 by lra. discriminate.
    - rewrite xdiv_fin in * by auto. set (u := (x - oa) / da) in *.
      assert (Hu : x - oa = u * da) by (unfold u; field; auto).
      cbn in H2. rb. destruct (Rtotal_order t u) as [C|[C|C]].
      + left. split; [cbn; rb; lra|]. destruct bf eqn:B.
        * apply bf_true in B as [B|[B B']]; nra.
        * apply bf_false in B as [B|[B B']]; nra.
      + right. right. split; [now rewrite C|]. nra.
      + right. left. split; [cbn; rb; lra|]. destruct bf eqn:B.
        * apply bf_true in B as [B|[B B']]; nra.
        * apply bf_false in B as [B|[B B']]; nra.
  Qed.
End Plane.

(** ** The loop over the shapes of a leaf *)
Section Near.
  Context {T : Type}.
  Variable sh : T -> shape XR T.
  Variables (o d : rv) (l0 : list T) (tm0 : XR).
  Hypothesis Hok : forall s, In s l0 -> exists h, one_hit (sh s) o d h.
  Hypothesis Htm0 : xis_nan tm0 = false.

  Definition rayt (tm : XR) : ray XR := mkRay (fin3 o) (fin3 d) tm.

  Definition good (tm : XR) (i : option (interaction XR T)) : Prop :=
    (i = None /\ tm = tm0) \/
    (exists s j t, In s l0 /\ sh_intersect (sh s) (rayt tm0) = Ok (Some (j, XFin t)) /\
       i = Some (i_with_shape j (Some s)) /\ tm = XFin t /\ xle tm tm0 = true).
  Definition done (tm : XR) (i : option (interaction XR T)) (s : T) : Prop :=
    forall j t, sh_intersect (sh s) (rayt tm0) = Ok (Some (j, t)) -> i <> None /\ xle tm t = true.

  Lemma good_le tm i : good tm i -> xis_nan tm = false /\ xle tm tm0 = true.
  Proof.
    intros [[_ ->]|(s & j & t & _ & _ & _ & -> & H)]; split; auto. now apply xle_refl.
  Qed.

  Lemma done_mono tm i tm' i' s : done tm i s -> xle tm' tm = true -> (i <> None -> i' <> None) -> done tm' i' s.
  Proof. intros D H N j t E. destruct (D j t E) as [A B]. split; auto. eapply xle_trans; eauto. Qed.

  (** a hit reported for the query ray is the shape's only hit *)
  Lemma reported s j t : In s l0 -> sh_intersect (sh s) (rayt tm0) = Ok (Some (j, t)) ->
    exists x lo hi, t = XFin x /\ 0 < x /\ xle (XFin x) tm0 = true /\ sh_bbox (sh s) = mkBB (fin3 lo) (fin3 hi) /\
      in_box lo hi (at_t o d x).
  Proof.
    intros Hs E. destruct (Hok s Hs) as ([[j' x]|] & H & G); specialize (H tm0 Htm0).
    - destruct H as (b & E1 & _ & _ & B2). unfold rayt in E. rewrite E in E1. destruct b; [|discriminate].
      assert (t = XFin x) by congruence. subst t. destruct G as (Hx & lo & hi & Eb & Hin).
      exists x, lo, hi. repeat split; auto; try apply Hin.
      apply xlt_ge; auto. destruct (xlt tm0 (XFin x)) eqn:E2; auto.
    - destruct H as [H _]. unfold rayt in E. rewrite E in H. discriminate.
  Qed.

  Lemma done_lt tm i s j t : In s l0 -> good tm i -> sh_intersect (sh s) (rayt tm0) = Ok (Some (j, t)) ->
    xlt tm t = true -> done tm i s.
  Proof.
    intros Hs G E L j' t' E'. assert (t' = t) by congruence. subst t'. split; [|now apply xlt_le].
    destruct G as [[-> ->]|(s' & j'' & t'' & _ & _ & -> & _)]; [|discriminate].
    destruct (reported s j t Hs E) as (x & lo & hi & -> & _ & H & _).
    assert (C := xlt_le_trans _ _ _ L H). rewrite xlt_irrefl in C. discriminate.
  Qed.

  Lemma last_hit_spec l : (forall s, In s l -> In s l0) -> forall tm i, good tm i ->
    exists tm' i', last_hit sh l (rayt tm) i = Ok (i', rayt tm') /\ good tm' i' /\ xle tm' tm = true /\
      (i <> None -> i' <> None) /\ forall s, In s l -> done tm' i' s.
  Proof.
    induction l as [|s l IH]; intros Hl tm i G.
    { exists tm, i. cbn [last_hit]. split; [reflexivity|]. split; [exact G|]. split; [now apply xle_refl, (good_le tm i)|]. split; [auto|intros s []]. }
    cbn [last_hit]. unfold shape_intersect.
    destruct (good_le tm i G) as [Hn Hle].
    assert (Hs : In s l0) by (apply Hl; now left).
    assert (Hl' : forall s, In s l -> In s l0) by (intros; apply Hl; now right).
    destruct (Hok s Hs) as ([[j x]|] & H & W); assert (H1 := H tm0 Htm0); specialize (H tm Hn).
    - destruct H as (b & E & _ & B1 & B2). unfold rayt at 1. rewrite E. cbn [rbind].
      destruct b.
      + assert (Lx : xle (XFin x) tm = true). { apply xlt_ge; auto. destruct (xlt tm (XFin x)); auto. }
        cbn [rbind]. unfold with_tmax. cbn [rayt r_o r_d].
        assert (G' : good (XFin x) (Some (i_with_shape j (Some s)))).
        { right. exists s, j, x. repeat split; auto.
          - destruct H1 as (b0 & E0 & _ & C1 & C2). unfold rayt. rewrite E0.
            destruct (xlt (XFin x) tm0) eqn:E2; [now rewrite C1|].
            apply xlt_ge in E2; auto.
            assert (tm = XFin x). { apply xle_antisym; auto. eapply xle_trans; eauto. }
            assert (tm = tm0). { apply xle_antisym; auto. now rewrite H. }
            rewrite <- E0, <- H0. exact E.
          - eapply xle_trans; eauto. }
        destruct (IH Hl' (XFin x) _ G') as (tm' & i' & E' & G2 & L2 & N2 & D2).
        exists tm', i'. split; [exact E'|]. split; [exact G2|]. split; [eapply xle_trans; eauto|].
        split; [intros _; apply N2; discriminate|].
        intros s' [<-|Hs']; [|now apply D2].
        apply (done_mono (XFin x) (Some (i_with_shape j (Some s)))); auto.
        intros j' t' E2. split; [discriminate|].
        destruct H1 as (b0 & E0 & _). unfold rayt in E2. rewrite E0 in E2. destruct b0; [|discriminate].
        assert (t' = XFin x) by congruence. subst t'. apply xle_refl. reflexivity.
      + cbn [rbind]. destruct (IH Hl' tm i G) as (tm' & i' & E' & G2 & L2 & N2 & D2).
        exists tm', i'. split; [exact E'|]. split; [exact G2|]. split; [auto|]. split; [auto|].
        intros s' [<-|Hs']; [|now apply D2].
        apply (done_mono tm i); auto. intros j' t' E2.
        destruct H1 as (b0 & E0 & _). unfold rayt in E2. assert (E3 := E2). rewrite E0 in E2. destruct b0; [|discriminate].
        assert (t' = XFin x) by congruence. subst t'. split.
        * intros ->. destruct G as [[_ ->]|(? & ? & ? & _ & _ & ? & _)]; congruence.
        * apply xlt_ge; auto. destruct (xlt (XFin x) tm); auto. discriminate B1; auto.
    - destruct H as [E _]. unfold rayt at 1. rewrite E. cbn [rbind].
      destruct (IH Hl' tm i G) as (tm' & i' & E' & G2 & L2 & N2 & D2).
      exists tm', i'. split; [exact E'|]. split; [exact G2|]. split; [auto|]. split; [auto|].
      intros s' [<-|Hs']; [|now apply D2].
      intros j' t' E2. destruct H1 as [E0 _]. unfold rayt in E2. rewrite E0 in E2. discriminate.
  Qed.

  Lemma any_hit_spec l : (forall s, In s l -> In s l0) ->
    exists b, any_hit sh l (rayt tm0) = Ok b /\ (b = true <-> some_hit sh l (rayt tm0)).
  Proof.
    induction l as [|s l IH]; intros Hl; cbn [any_hit].
    { exists false. split; auto. split; [discriminate|]. intros (s & i & t & [] & _). }
    assert (Hs : In s l0) by (apply Hl; now left).
    destruct IH as (b & E & Hb). { intros; apply Hl; now right. }
    destruct (Hok s Hs) as ([[j x]|] & H & W); specialize (H tm0 Htm0).
    - destruct H as (b0 & E0 & E1 & _). unfold rayt at 1. rewrite E1. cbn [rbind]. destruct b0.
      + exists true. split; auto. split; auto. intros _. exists s, j, (XFin x). split; [now left|exact E0].
      + exists b. split; [exact E|]. rewrite Hb. split; intros (s' & i & t & H & H').
        * exists s', i, t. split; [now right|auto].
        * destruct H as [<-|H]; [unfold rayt in H'; rewrite E0 in H'; discriminate|]. exists s', i, t. auto.
    - destruct H as [E0 E1]. unfold rayt at 1. rewrite E1. cbn [rbind].
      exists b. split; [exact E|]. rewrite Hb. split; intros (s' & i & t & H & H').
      + exists s', i, t. split; [now right|auto].
      + destruct H as [<-|H]; [unfold rayt in H'; rewrite E0 in H'; discriminate|]. exists s', i, t. auto.
  Qed.

  (** ** The walk *)
  Fixpoint cover (k : kdt XR T) (s : T) (p : rv) : Prop :=
    match k with
    | KLeaf l => In s l
    | KSplit a t b c =>
      match t with
      | XFin x => (v3get p a < x -> cover b s p) /\ (x < v3get p a -> cover c s p) /\ (v3get p a = x -> cover b s p \/ cover c s p)
      | _ => False
      end
    end.

  (** the planes are finite and none contains the ray *)
  Fixpoint planes_ok (k : kdt XR T) : Prop :=
    match k with
    | KLeaf _ => True
    | KSplit a t b c => (exists x, t = XFin x /\ (v3get d a = 0 -> v3get o a <> x)) /\ planes_ok b /\ planes_ok c
    end.

  Lemma tsplit_ts tm a x : tsplit (rayt tm) a (XFin x) = ts (v3get o a) (v3get d a) x.
  Proof. unfold tsplit, rayt, ts. cbn [r_o r_d]. rewrite !v3get_fin. reflexivity. Qed.
  Lemma below_first_bf tm a x : below_first (rayt tm) a (XFin x) = bf (v3get o a) (v3get d a) x.
  Proof. unfold below_first, rayt, bf. cbn [r_o r_d]. rewrite !v3get_fin. reflexivity. Qed.

  Lemma at_t_get t a : v3get (at_t o d t) a = v3get o a + t * v3get d a.
  Proof. destruct a; unfold at_t, vadd, vscale; cbn; ring. Qed.

  Lemma walk_spec k : (forall s, kin s k -> In s l0) -> planes_ok k -> forall tm i tmin tmax, good tm i ->
    xle tmin tmax = true ->
    exists st tm' i', walk sh k (rayt tm) i tmin tmax = Ok (st, rayt tm', i') /\ good tm' i' /\ xle tm' tm = true /\
      (i <> None -> i' <> None) /\ (st = true -> xlt tm' tmax = true) /\
      forall s j x, In s l0 -> sh_intersect (sh s) (rayt tm0) = Ok (Some (j, XFin x)) -> cover k s (at_t o d x) ->
        xle tmin (XFin x) = true -> xle (XFin x) tmax = true -> done tm' i' s.
  Proof.
    induction k as [l|a t b IHb c IHc]; intros Hk Hp tm i tmin tmax G Hm.
    - cbn [walk]. destruct (xle_nan_l _ _ Hm) as [Nmin Nmax]. destruct (good_le tm i G) as [Hn Hle].
      change (flt (r_tmax (rayt tm)) tmin) with (xlt tm tmin).
      destruct (xlt tm tmin) eqn:E.
      + exists true, tm, i. split; [reflexivity|]. split; [exact G|]. split; [now apply xle_refl|]. split; [auto|].
        split; [intros _; eapply xlt_le_trans; eauto|].
        intros s j x Hs Hr _ A _. eapply done_lt; eauto. eapply xlt_le_trans; eauto.
      + destruct (last_hit_spec l Hk tm i G) as (tm' & i' & E' & G' & L' & N' & D').
        rewrite E'. cbn [rbind]. exists false, tm', i'. do 5 (split; [auto; try discriminate|]).
        intros s j x Hs _ Hc _ _. apply D', Hc.
    - cbn [walk]. destruct (xle_nan_l _ _ Hm) as [Nmin Nmax]. destruct (good_le tm i G) as [Hn Hle].
      change (flt (r_tmax (rayt tm)) tmin) with (xlt tm tmin).
      destruct (xlt tm tmin) eqn:E.
      { exists true, tm, i. split; [reflexivity|]. split; [exact G|]. split; [now apply xle_refl|]. split; [auto|].
        split; [intros _; eapply xlt_le_trans; eauto|].
        intros s j x Hs Hr _ A _. eapply done_lt; eauto. eapply xlt_le_trans; eauto. }
      destruct Hp as ((x & -> & H0) & Pb & Pc). cbn [kin] in Hk.
      assert (Hb := fun s H => Hk s (or_introl H)). assert (Hc := fun s H => Hk s (or_intror H)).
      specialize (IHb Hb Pb). specialize (IHc Hc Pc).
      rewrite !tsplit_ts, !below_first_bf. change (@f0 XR XR_FOps) with (XFin 0).
      set (u := ts (v3get o a) (v3get d a) x). set (w := bf (v3get o a) (v3get d a) x).
      assert (Nu : xis_nan u = false) by (now apply ts_nnan).
      change (flt tmax u) with (xlt tmax u). change (fle u (XFin 0)) with (xle u (XFin 0)). change (flt u tmin) with (xlt u tmin).
      destruct (xlt tmax u || xle u (XFin 0)) eqn:E1.
      { (* only the first child *)
        assert (Pf := fun y A B C => plane_first (v3get o a) (v3get d a) x H0 y tmax A B C). fold u w in Pf.
        unfold near in Pf. fold w in Pf. destruct w.
        - destruct (IHb tm i tmin tmax G Hm) as (st & tm' & i' & -> & G' & L' & N' & S' & D').
          exists st, tm', i'. do 5 (split; [auto|]). intros s j y Hs Hr Hcv A B.
          destruct (reported s j (XFin y) Hs Hr) as (y' & lo & hi & Ey & Hy & _). injection Ey as <-.
          eapply D'; eauto. cbn [cover] in Hcv. apply Hcv. rewrite at_t_get. apply Pf; auto.
        - destruct (IHc tm i tmin tmax G Hm) as (st & tm' & i' & -> & G' & L' & N' & S' & D').
          exists st, tm', i'. do 5 (split; [auto|]). intros s j y Hs Hr Hcv A B.
          destruct (reported s j (XFin y) Hs Hr) as (y' & lo & hi & Ey & Hy & _). injection Ey as <-.
          eapply D'; eauto. cbn [cover] in Hcv. apply Hcv. rewrite at_t_get. apply Pf; auto. }
      destruct (xlt u tmin) eqn:E2.
      { (* only the second child *)
        assert (Pf := fun y B C => plane_second (v3get o a) (v3get d a) x H0 y tmin tmax B E1 C). fold u w in Pf.
        unfold far in Pf. fold w in Pf. destruct w.
        - destruct (IHc tm i tmin tmax G Hm) as (st & tm' & i' & -> & G' & L' & N' & S' & D').
          exists st, tm', i'. do 5 (split; [auto|]). intros s j y Hs Hr Hcv A B.
          eapply D'; eauto. cbn [cover] in Hcv. apply Hcv. rewrite at_t_get. apply Pf; auto.
        - destruct (IHb tm i tmin tmax G Hm) as (st & tm' & i' & -> & G' & L' & N' & S' & D').
          exists st, tm', i'. do 5 (split; [auto|]). intros s j y Hs Hr Hcv A B.
          eapply D'; eauto. cbn [cover] in Hcv. apply Hcv. rewrite at_t_get. apply Pf; auto. }
      (* both *)
      assert (U1 : xle tmin u = true) by (apply xlt_ge; auto).
      assert (U2 : xle u tmax = true). { apply xlt_ge; auto. now apply orb_false_iff in E1. }
      assert (Pf := fun y => plane_both (v3get o a) (v3get d a) x H0 y tmin tmax E1 E2). fold u w in Pf.
      unfold near, far in Pf. fold w in Pf.
      destruct w.
      + destruct (IHb tm i tmin u G U1) as (st & tm1 & i1 & -> & G1 & L1 & N1 & S1 & D1). cbn [rbind].
        destruct st.
        * exists true, tm1, i1. do 4 (split; [auto|]). split; [intros _; eapply xlt_le_trans; [now apply S1|exact U2]|].
          intros s j y Hs Hr Hcv A B. cbn [cover] in Hcv.
          destruct (Pf y) as [[Q Q']|[[Q Q']|[Q Q']]].
          -- eapply D1; eauto. apply Hcv. rewrite at_t_get. exact Q'.
          -- eapply done_lt; eauto. eapply xlt_le_trans; [now apply S1|exact Q].
          -- destruct (proj2 (proj2 Hcv)) as [R|R]; [now rewrite at_t_get| |].
             ++ eapply D1; eauto. rewrite Q. now apply xle_refl.
             ++ eapply done_lt; eauto. rewrite <- Q. now apply S1.
        * destruct (IHc tm1 i1 u tmax G1 U2) as (st & tm2 & i2 & -> & G2 & L2 & N2 & S2 & D2).
          exists st, tm2, i2. do 5 (split; [eauto using xle_trans|]).
          intros s j y Hs Hr Hcv A B. cbn [cover] in Hcv.
          destruct (Pf y) as [[Q Q']|[[Q Q']|[Q Q']]].
          -- apply (done_mono tm1 i1); auto. eapply D1; eauto. apply Hcv. rewrite at_t_get. exact Q'.
          -- eapply D2; eauto. apply Hcv. rewrite at_t_get. exact Q'.
          -- destruct (proj2 (proj2 Hcv)) as [R|R]; [now rewrite at_t_get| |].
             ++ apply (done_mono tm1 i1); auto. eapply D1; eauto. rewrite Q. now apply xle_refl.
             ++ eapply D2; eauto. rewrite Q. now apply xle_refl.
      + destruct (IHc tm i tmin u G U1) as (st & tm1 & i1 & -> & G1 & L1 & N1 & S1 & D1). cbn [rbind].
        destruct st.
        * exists true, tm1, i1. do 4 (split; [auto|]). split; [intros _; eapply xlt_le_trans; [now apply S1|exact U2]|].
          intros s j y Hs Hr Hcv A B. cbn [cover] in Hcv.
          destruct (Pf y) as [[Q Q']|[[Q Q']|[Q Q']]].
          -- eapply D1; eauto. apply Hcv. rewrite at_t_get. exact Q'.
          -- eapply done_lt; eauto. eapply xlt_le_trans; [now apply S1|exact Q].
          -- destruct (proj2 (proj2 Hcv)) as [R|R]; [now rewrite at_t_get| |].
             ++ eapply done_lt; eauto. rewrite <- Q. now apply S1.
             ++ eapply D1; eauto. rewrite Q. now apply xle_refl.
        * destruct (IHb tm1 i1 u tmax G1 U2) as (st & tm2 & i2 & -> & G2 & L2 & N2 & S2 & D2).
          exists st, tm2, i2. do 5 (split; [eauto using xle_trans|]).
          intros s j y Hs Hr Hcv A B. cbn [cover] in Hcv.
          destruct (Pf y) as [[Q Q']|[[Q Q']|[Q Q']]].
          -- apply (done_mono tm1 i1); auto. eapply D1; eauto. apply Hcv. rewrite at_t_get. exact Q'.
          -- eapply D2; eauto. apply Hcv. rewrite at_t_get. exact Q'.
          -- destruct (proj2 (proj2 Hcv)) as [R|R]; [now rewrite at_t_get| |].
             ++ eapply D2; eauto. rewrite Q. now apply xle_refl.
             ++ apply (done_mono tm1 i1); auto. eapply D1; eauto. rewrite Q. now apply xle_refl.
  Qed.

  Lemma walk_p_spec k : (forall s, kin s k -> In s l0) -> planes_ok k -> forall tmin tmax, xle tmin tmax = true ->
    exists x, walk_p sh k (rayt tm0) tmin tmax = Ok x /\ (x = Some false -> xlt tm0 tmax = true) /\
      (forall s j y, In s l0 -> sh_intersect (sh s) (rayt tm0) = Ok (Some (j, XFin y)) -> cover k s (at_t o d y) ->
        xle tmin (XFin y) = true -> xle (XFin y) tmax = true -> x = Some true) /\
      (x = Some true -> some_hit sh l0 (rayt tm0)).
  Proof.
    assert (Stop : forall s j y v, In s l0 -> sh_intersect (sh s) (rayt tm0) = Ok (Some (j, XFin y)) ->
      xle v (XFin y) = true -> xlt tm0 v = true -> False).
    { intros s j y v Hs Hr A B. destruct (reported s j (XFin y) Hs Hr) as (y' & lo & hi & Ey & _ & L & _). injection Ey as <-.
      assert (C := xlt_le_trans _ _ _ (xlt_le_trans _ _ _ B A) L). rewrite xlt_irrefl in C. discriminate. }
    induction k as [l|a t b IHb c IHc]; intros Hk Hp tmin tmax Hm.
    - cbn [walk_p]. destruct (xle_nan_l _ _ Hm) as [Nmin Nmax].
      change (flt (r_tmax (rayt tm0)) tmin) with (xlt tm0 tmin).
      destruct (xlt tm0 tmin) eqn:E.
      + exists (Some false). split; auto. split; [intros _; eapply xlt_le_trans; eauto|]. split; [|discriminate].
        intros s j y Hs Hr _ A _. exfalso. eauto.
      + destruct (any_hit_spec l Hk) as (x & E' & Hx). rewrite E'. cbn [rbind].
        exists (if x then Some true else None). split; auto. split; [destruct x; discriminate|]. split.
        * intros s j y Hs Hr Hc _ _. replace x with true; auto. symmetry. apply Hx. exists s, j, (XFin y). auto.
        * destruct x; [|discriminate]. intros _. destruct (proj1 Hx eq_refl) as (s & j & y & Hs & Hr). exists s, j, y. auto.
    - cbn [walk_p]. destruct (xle_nan_l _ _ Hm) as [Nmin Nmax].
      change (flt (r_tmax (rayt tm0)) tmin) with (xlt tm0 tmin).
      destruct (xlt tm0 tmin) eqn:E.
      { exists (Some false). split; auto. split; [intros _; eapply xlt_le_trans; eauto|]. split; [|discriminate].
        intros s j y Hs Hr _ A _. exfalso. eauto. }
      destruct Hp as ((x & -> & H0) & Pb & Pc). cbn [kin] in Hk.
      assert (Hb := fun s H => Hk s (or_introl H)). assert (Hc := fun s H => Hk s (or_intror H)).
      specialize (IHb Hb Pb). specialize (IHc Hc Pc).
      rewrite !tsplit_ts, !below_first_bf. change (@f0 XR XR_FOps) with (XFin 0).
      set (u := ts (v3get o a) (v3get d a) x). set (w := bf (v3get o a) (v3get d a) x).
      assert (Nu : xis_nan u = false) by (now apply ts_nnan).
      change (flt tmax u) with (xlt tmax u). change (fle u (XFin 0)) with (xle u (XFin 0)). change (flt u tmin) with (xlt u tmin).
      destruct (xlt tmax u || xle u (XFin 0)) eqn:E1.
      { assert (Pf := fun y A B C => plane_first (v3get o a) (v3get d a) x H0 y tmax A B C). fold u w in Pf.
        unfold near in Pf. fold w in Pf. destruct w.
        - destruct (IHb tmin tmax Hm) as (z & -> & S' & D' & H'). exists z. split; [auto|]. split; [auto|]. split; [|exact H']. intros s j y Hs Hr Hcv A B.
          destruct (reported s j (XFin y) Hs Hr) as (y' & lo & hi & Ey & Hy & _). injection Ey as <-.
          eapply D'; eauto. cbn [cover] in Hcv. apply Hcv. rewrite at_t_get. apply Pf; auto.
        - destruct (IHc tmin tmax Hm) as (z & -> & S' & D' & H'). exists z. split; [auto|]. split; [auto|]. split; [|exact H']. intros s j y Hs Hr Hcv A B.
          destruct (reported s j (XFin y) Hs Hr) as (y' & lo & hi & Ey & Hy & _). injection Ey as <-.
          eapply D'; eauto. cbn [cover] in Hcv. apply Hcv. rewrite at_t_get. apply Pf; auto. }
      destruct (xlt u tmin) eqn:E2.
      { assert (Pf := fun y B C => plane_second (v3get o a) (v3get d a) x H0 y tmin tmax B E1 C). fold u w in Pf.
        unfold far in Pf. fold w in Pf. destruct w.
        - destruct (IHc tmin tmax Hm) as (z & -> & S' & D' & H'). exists z. split; [auto|]. split; [auto|]. split; [|exact H']. intros s j y Hs Hr Hcv A B.
          eapply D'; eauto. cbn [cover] in Hcv. apply Hcv. rewrite at_t_get. apply Pf; auto.
        - destruct (IHb tmin tmax Hm) as (z & -> & S' & D' & H'). exists z. split; [auto|]. split; [auto|]. split; [|exact H']. intros s j y Hs Hr Hcv A B.
          eapply D'; eauto. cbn [cover] in Hcv. apply Hcv. rewrite at_t_get. apply Pf; auto. }
      assert (U1 : xle tmin u = true) by (apply xlt_ge; auto).
      assert (U2 : xle u tmax = true). { apply xlt_ge; auto. now apply orb_false_iff in E1. }
      assert (Pf := fun y => plane_both (v3get o a) (v3get d a) x H0 y tmin tmax E1 E2). fold u w in Pf.
      unfold near, far in Pf. fold w in Pf.
      assert (Q0 : forall z1 z2 : option bool, (z1 = Some false -> xlt tm0 u = true) -> (z2 = Some false -> xlt tm0 tmax = true) ->
        match z1 with Some _ => z1 | None => z2 end = Some false -> xlt tm0 tmax = true).
      { intros [[]|] z2 A B C; try discriminate; auto. eapply xlt_le_trans; eauto. }
      destruct w.
      + destruct (IHb tmin u U1) as (z1 & -> & S1 & D1 & H1). cbn [rbind].
        destruct (IHc u tmax U2) as (z2 & E2' & S2 & D2 & H2).
        exists (match z1 with Some _ => z1 | None => z2 end). split; [destruct z1; auto|]. split; [now apply Q0|]. split.
        * intros s j y Hs Hr Hcv A B. cbn [cover] in Hcv.
          assert (Far : cover c s (at_t o d y) -> xle u (XFin y) = true -> match z1 with Some _ => z1 | None => z2 end = Some true).
          { intros R Q. destruct z1 as [[]|]; auto; [|eapply D2; eauto]. exfalso. eapply Stop; eauto. }
          assert (Nr : cover b s (at_t o d y) -> xle (XFin y) u = true -> match z1 with Some _ => z1 | None => z2 end = Some true).
          { intros R Q. rewrite (D1 s j y Hs Hr R A Q). reflexivity. }
          destruct (Pf y) as [[Q Q']|[[Q Q']|[Q Q']]].
          -- apply Nr; auto. apply Hcv. rewrite at_t_get. exact Q'.
          -- apply Far; auto. apply Hcv. rewrite at_t_get. exact Q'.
          -- destruct (proj2 (proj2 Hcv)) as [R|R]; [now rewrite at_t_get| |]; [apply Nr|apply Far]; auto; rewrite Q; now apply xle_refl.
        * destruct z1; auto.
      + destruct (IHc tmin u U1) as (z1 & -> & S1 & D1 & H1). cbn [rbind].
        destruct (IHb u tmax U2) as (z2 & E2' & S2 & D2 & H2).
        exists (match z1 with Some _ => z1 | None => z2 end). split; [destruct z1; auto|]. split; [now apply Q0|]. split.
        * intros s j y Hs Hr Hcv A B. cbn [cover] in Hcv.
          assert (Far : cover b s (at_t o d y) -> xle u (XFin y) = true -> match z1 with Some _ => z1 | None => z2 end = Some true).
          { intros R Q. destruct z1 as [[]|]; auto; [|eapply D2; eauto]. exfalso. eapply Stop; eauto. }
          assert (Nr : cover c s (at_t o d y) -> xle (XFin y) u = true -> match z1 with Some _ => z1 | None => z2 end = Some true).
          { intros R Q. rewrite (D1 s j y Hs Hr R A Q). reflexivity. }
          destruct (Pf y) as [[Q Q']|[[Q Q']|[Q Q']]].
          -- apply Nr; auto. apply Hcv. rewrite at_t_get. exact Q'.
          -- apply Far; auto. apply Hcv. rewrite at_t_get. exact Q'.
          -- destruct (proj2 (proj2 Hcv)) as [R|R]; [now rewrite at_t_get| |]; [apply Far|apply Nr]; auto; rewrite Q; now apply xle_refl.
        * destruct z1; auto.
  Qed.
End Near.
