(** * Containers: the list of shapes and the k-d tree (C43 - C47) *)
From Coq Require Import ZArith Reals List Bool Lia Lra Permutation Sorted.
From Flocq Require Import Core IEEE754.BinarySingleNaN.
From Verif Require Import Model.Num Model.NumX Model.NumB Model.Vector Model.BBox Model.Interaction Model.Shape
  Model.Sphere Model.Triangle Model.Container Model.KdTree
  Spec.RVec Spec.BoxSpec Spec.ShapeSpec Spec.KdSpec Proofs.XBase Proofs.FLaws Proofs.RVecProofs Proofs.BoxProofs
  Proofs.ShapeProofs Proofs.TriangleProofs Proofs.SortProofs Proofs.KdBuild Proofs.KdWalk Proofs.KdNearest Props.Boxes Props.Shapes.
Import ListNotations.
Local Open Scope R_scope.

(** ** Spheres and triangles are shapes of the kind the theorems below are about *)
Theorem C43_sphere_ok : forall (T : Type) (c : rv) (r : R) (o d : rv), d <> v0 -> 0 < r ->
  well_behaved (sphere_shape (T := T) (mkSphere (fin3 c) (XFin r))) o d.
Proof.
  intros T c r o d Hd Hr. set (s := mkSphere (fin3 c) (XFin r)).
  assert (Bx : sp_bbox s = mkBB (fin3 (vsub c (mkV3 r r r))) (fin3 (vadd c (mkV3 r r r)))).
  { assert (Fm : forall a, fmin (XFin (a - r)) (XFin (a + r)) = XFin (a - r)).
    { intros. unfold fmin. xsimp. cbn [xis_nan xlt]. destruct (Rlt_bool _ _) eqn:E; rb; auto. lra. }
    assert (FM : forall a, fmax (XFin (a + r)) (XFin (a - r)) = XFin (a + r)).
    { intros. rewrite fmax_XFin, Rmax_left by lra. reflexivity. }
    unfold s, sp_bbox, bbox_new, v3min, v3max, v3map2, fin3. cbn [sp_center sp_radius vx vy vz]. xsimp. cbn [xsub xadd].
    rewrite !Fm, !FM. reflexivity. }
  split.
  { exists (vsub c (mkV3 r r r)), (vadd c (mkV3 r r r)). split; [exact Bx|]. unfold vsub, vadd. cbn [vx vy vz]. lra. }
  pose proof (fun tmax => sp_has_fin c r o d tmax Hd) as H. cbv zeta in H. change (msp c r) with s in H.
  set (r0 := fun tmax => sp_local_ray s (mkRay (fin3 o) (fin3 d) tmax)) in *.
  assert (Hi : forall a b x, sp_interaction (T := T) s (r0 a) x = sp_interaction s (r0 b) x) by reflexivity.
  assert (H' : forall tmax, match sp_has_intersection s (r0 tmax) with
    | Some t => exists x, t = XFin x /\ 0 < x /\ xlt (XFin x) tmax = true /\ on_sphere c r (at_t o d x) /\
        forall y, 0 < y < x -> ~ on_sphere c r (at_t o d y)
    | None => forall y, 0 < y -> xlt (XFin y) tmax = true -> ~ on_sphere c r (at_t o d y)
    end) by exact H.
  clear H. rename H' into H. assert (P := H (XInf false)).
  destruct (sp_has_intersection s (r0 (XInf false))) as [t|].
  - destruct P as (x & -> & Hx & _ & On & First).
    exists (Some (fst (sp_interaction s (r0 (XInf false)) (XFin x)), x)). split.
    + intros tmax Hn. specialize (H tmax). cbn [sh_intersect sh_intersect_p sphere_shape].
      exists (match sp_has_intersection s (r0 tmax) with Some _ => true | None => false end).
      unfold sp_intersect, sp_intersect_p. fold (r0 tmax).
      destruct (sp_has_intersection s (r0 tmax)) as [t|].
      * destruct H as (y & -> & Hy & Hm & On' & First').
        assert (y = x). { destruct (Rtotal_order x y) as [L|[L|L]]; auto; exfalso; [apply (First' x)|apply (First y)]; auto. }
        subst y. split; [|split; [reflexivity|split; [reflexivity|]]].
        -- rewrite (Hi tmax (XInf false)). do 2 f_equal.
        -- intros C. assert (Q := xlt_trans _ _ _ Hm C). rewrite xlt_irrefl in Q. discriminate.
      * split; [reflexivity|]. split; [reflexivity|]. split; [|reflexivity].
        intros Hm. exfalso. now apply (H x).
    + split; auto. exists (vsub c (mkV3 r r r)), (vadd c (mkV3 r r r)). split; [exact Bx|].
      apply on_sphere_sq in On. set (p := at_t o d x) in *. unfold vdot, vsub in On. cbn [vx vy vz] in On.
      assert (K : forall y z w, y * y + z * z + w * w = r * r -> - r <= y <= r) by (intros; split; nra).
      pose proof (K _ _ _ On) as K1. pose proof (K (vy p - vy c) (vx p - vx c) (vz p - vz c) ltac:(lra)) as K2.
      pose proof (K (vz p - vz c) (vx p - vx c) (vy p - vy c) ltac:(lra)) as K3.
      unfold in_box, vsub, vadd. cbn [vx vy vz]. repeat split; lra.
  - exists None. split; [|exact I]. intros tmax Hn. specialize (H tmax). cbn [sh_intersect sh_intersect_p sphere_shape].
    unfold sp_intersect, sp_intersect_p. fold (r0 tmax).
    destruct (sp_has_intersection s (r0 tmax)) as [t|]; [|auto].
    destruct H as (y & -> & Hy & _ & On & _). exfalso. now apply (P y Hy).
Qed.

Theorem C43_triangle_ok : forall (T : Type) (v : tri rv) vn rev (o d : rv), d <> v0 ->
  well_behaved (triangle_shape (T := T) (mkTri (mk3 (fin3 (t0 v)) (fin3 (t1 v)) (fin3 (t2 v))) vn rev)) o d.
Proof.
  intros T v vn rev o d Hd. set (s := mkTri (mk3 (fin3 (t0 v)) (fin3 (t1 v)) (fin3 (t2 v))) vn rev).
  set (m3 := fun a b c => Rmin (Rmin a b) c). set (M3 := fun a b c => Rmax (Rmax b a) c).
  set (lo := mkV3 (m3 (vx (t0 v)) (vx (t1 v)) (vx (t2 v))) (m3 (vy (t0 v)) (vy (t1 v)) (vy (t2 v))) (m3 (vz (t0 v)) (vz (t1 v)) (vz (t2 v)))).
  set (hi := mkV3 (M3 (vx (t0 v)) (vx (t1 v)) (vx (t2 v))) (M3 (vy (t0 v)) (vy (t1 v)) (vy (t2 v))) (M3 (vz (t0 v)) (vz (t1 v)) (vz (t2 v)))).
  assert (Bx : tr_bbox s = mkBB (fin3 lo) (fin3 hi)).
  { assert (Fm : forall a b, fmin (XFin a) (XFin b) = XFin (Rmin a b)).
    { intros. unfold fmin. xsimp. cbn [xis_nan xlt]. unfold Rmin. destruct (Rle_dec a b); destruct (Rlt_bool _ _) eqn:E; rb; auto; f_equal; lra. }
    unfold s, tr_bbox, bbox_union_point, bbox_new, v3min, v3max, v3map2, fin3. cbn [tr_v t0 t1 t2 vx vy vz bmin bmax].
    rewrite !Fm, !fmax_XFin. reflexivity. }
  split.
  { exists lo, hi. split; [exact Bx|]. unfold lo, hi. cbn [vx vy vz].
    assert (L : forall a b c, m3 a b c <= M3 a b c).
    { intros a b c. unfold m3, M3. pose proof (Rmin_l (Rmin a b) c). pose proof (Rmin_l a b).
      pose proof (Rmax_l (Rmax b a) c). pose proof (Rmax_r b a). lra. }
    repeat split; apply L. }
  destruct (max_abs_axis_fin d Hd) as (a & Ea & Ha & _).
  pose proof (fun tmax => tr_intersect_fin o d a v vn rev (T := T) tmax Ea Ha) as H. change (mkTri (ftri v) vn rev) with s in H.
  pose proof (C38_triangle XR T _ s) as Hp.
  destruct (rmixed o d a v) eqn:M.
  { exists None. split; [|exact I]. intros tmax Hn. cbn [sh_intersect sh_intersect_p triangle_shape]. now rewrite Hp, H. }
  destruct (Req_bool (rdet o d a v) 0) eqn:D.
  { exists None. split; [|exact I]. intros tmax Hn. cbn [sh_intersect sh_intersect_p triangle_shape]. now rewrite Hp, H. }
  destruct (Rle_bool (rts o d a v / rdet o d a v) (rdt o d a v)) eqn:L.
  { exists None. split; [|exact I]. intros tmax Hn. cbn [sh_intersect sh_intersect_p triangle_shape]. rewrite Hp, H.
    now destruct (rout o d a v tmax). }
  rb. cbv zeta in H. destruct (tr_frame _ _ _ _) as [[[n sn] du] dv].
  match type of H with forall tmax, _ = if _ then _ else Ok (Some (?i, XFin ?t)) => set (i0 := i) in H; set (x := t) in H end.
  assert (Ro := fun tmax Hn => rout_spec o d a v tmax Hn D). change (rts o d a v / rdet o d a v) with x in Ro.
  assert (Hx : 0 < x \/ x <= 0) by lra. destruct Hx as [Hx|Hx].
  - exists (Some (i0, x)). split.
    + intros tmax Hn. cbn [sh_intersect sh_intersect_p triangle_shape].
      exists (negb (rout o d a v tmax)). specialize (Ro tmax Hn). rewrite Hp, H.
      destruct (rout o d a v tmax); cbn [negb].
      * split; [auto|]. split; [auto|]. split; [|auto]. intros Q. symmetry. apply Ro. split; auto. now apply xlt_le.
      * split; [auto|]. split; [auto|]. split; [auto|]. intros Q. destruct (proj1 Ro eq_refl) as [_ W].
        assert (C := xle_lt_trans _ _ _ W Q). rewrite xlt_irrefl in C. discriminate.
    + split; auto. exists lo, hi. split; [exact Bx|].
      assert (E : tr_intersect s (mkRay (fin3 o) (fin3 d) (XInf false)) = Ok (Some (i0, XFin x))).
      { rewrite H. replace (rout o d a v (XInf false)) with false; auto. symmetry. apply Ro; auto. }
      destruct (C39_triangle T v vn rev o d (XInf false) i0 (XFin x) Hd eq_refl E) as (lo' & hi' & p & Bx' & Ep & Hin).
      change (mkTri (mk3 (fin3 (t0 v)) (fin3 (t1 v)) (fin3 (t2 v))) vn rev) with s in Bx'.
      destruct (C37_hit_is_real T v vn rev o d (XInf false) i0 (XFin x) Hd eq_refl E) as (x' & b0 & b1 & b2 & Ex & _ & _ & _ & Ep' & C & _).
      injection Ex as <-. rewrite Ep' in Ep. rewrite <- C.
      assert (Inj : forall p q, fin3 p = fin3 q -> p = q).
      { intros [] [] Q. unfold fin3 in Q. cbn in Q. congruence. }
      apply Inj in Ep. rewrite Ep.
      assert (lo' = lo /\ hi' = hi) as [-> ->].
      { rewrite Bx in Bx'. split; apply Inj; congruence. }
      exact Hin.
  - exists None. split; [|exact I]. intros tmax Hn. cbn [sh_intersect sh_intersect_p triangle_shape]. rewrite Hp, H.
    destruct (rout o d a v tmax) eqn:O; auto. exfalso. apply Ro in O; auto. lra.
Qed.

(** ** The box of all shapes *)
Lemma union_fin : forall (l : list (bbox3 XR)) lo hi, vx lo <= vx hi -> vy lo <= vy hi -> vz lo <= vz hi ->
  (forall b, In b l -> exists lo hi, b = mkBB (fin3 lo) (fin3 hi) /\ vx lo <= vx hi /\ vy lo <= vy hi /\ vz lo <= vz hi) ->
  exists LO HI, fold_left bbox_union l (mkBB (fin3 lo) (fin3 hi)) = mkBB (fin3 LO) (fin3 HI) /\
    vx LO <= vx HI /\ vy LO <= vy HI /\ vz LO <= vz HI /\
    (forall p, in_box lo hi p -> in_box LO HI p) /\
    forall lo' hi' p, In (mkBB (fin3 lo') (fin3 hi')) l -> in_box lo' hi' p -> in_box LO HI p.
Proof.
  assert (Fm : forall a b, fmin (XFin a) (XFin b) = XFin (Rmin a b)).
  { intros. unfold fmin. xsimp. cbn [xis_nan xlt]. unfold Rmin. destruct (Rle_dec a b); destruct (Rlt_bool _ _) eqn:E; rb; auto; f_equal; lra. }
  induction l as [|b l IH]; intros lo hi X Y Z Hl.
  { exists lo, hi. repeat split; auto; try apply H. all: destruct H. }
  cbn [fold_left]. destruct (Hl b (or_introl eq_refl)) as (lo1 & hi1 & -> & X1 & Y1 & Z1).
  set (lo2 := mkV3 (Rmin (vx lo) (vx lo1)) (Rmin (vy lo) (vy lo1)) (Rmin (vz lo) (vz lo1))).
  set (hi2 := mkV3 (Rmax (vx hi) (vx hi1)) (Rmax (vy hi) (vy hi1)) (Rmax (vz hi) (vz hi1))).
  assert (E : bbox_union (mkBB (fin3 lo) (fin3 hi)) (mkBB (fin3 lo1) (fin3 hi1)) = mkBB (fin3 lo2) (fin3 hi2)).
  { unfold bbox_union, v3min, v3max, v3map2, fin3. cbn [bmin bmax vx vy vz]. rewrite !Fm, !fmax_XFin. reflexivity. }
  assert (Sub : forall a b c e p : R, a <= b -> a <= p <= b \/ c <= p <= e -> Rmin a c <= p <= Rmax b e).
  { intros a b c e p _ H. pose proof (Rmin_l a c). pose proof (Rmin_r a c). pose proof (Rmax_l b e). pose proof (Rmax_r b e).
    destruct H; lra. }
  rewrite E. destruct (IH lo2 hi2) as (LO & HI & EU & X3 & Y3 & Z3 & S1 & S2).
  1-3: unfold lo2, hi2; cbn [vx vy vz]; eapply Rle_trans; [apply Rmin_l|eapply Rle_trans; [eassumption|apply Rmax_l]].
  { intros; apply Hl; now right. }
  exists LO, HI. split; [exact EU|]. do 3 (split; [auto|]). split.
  - intros p (P1 & P2 & P3). apply S1. unfold in_box, lo2, hi2. cbn [vx vy vz]. auto 8.
  - intros lo' hi' p [H|H] Hin; [|eapply S2; eauto].
    assert (Inj : forall p q, fin3 p = fin3 q -> p = q) by (intros [] [] Q; unfold fin3 in Q; cbn in Q; congruence).
    assert (lo' = lo1 /\ hi' = hi1) as [-> ->] by (split; apply Inj; congruence).
    destruct Hin as (P1 & P2 & P3). apply S1. unfold in_box, lo2, hi2. cbn [vx vy vz]. auto 8.
Qed.

Lemma bbox_of_shapes_fin {T} (sh : T -> shape XR T) (l : list T) o d : l <> [] ->
  (forall s, In s l -> well_behaved (sh s) o d) ->
  exists LO HI, bbox_of_shapes sh l = Ok (mkBB (fin3 LO) (fin3 HI)) /\
    vx LO <= vx HI /\ vy LO <= vy HI /\ vz LO <= vz HI /\
    forall s lo hi p, In s l -> sh_bbox (sh s) = mkBB (fin3 lo) (fin3 hi) -> in_box lo hi p -> in_box LO HI p.
Proof.
  intros Hne Hl. destruct l as [|s0 l]; [congruence|]. unfold bbox_of_shapes. cbn [map bbox_of_list].
  destruct (Hl s0 (or_introl eq_refl)) as ((lo & hi & E & X & Y & Z) & _). rewrite E.
  destruct (union_fin (map (fun s => sh_bbox (sh s)) l) lo hi X Y Z) as (LO & HI & EU & X' & Y' & Z' & S1 & S2).
  { intros b Hb. apply in_map_iff in Hb as (s & <- & Hs). apply (Hl s). now right. }
  exists LO, HI. rewrite EU. do 4 (split; [auto|]).
  intros s lo' hi' p [<-|Hs] Es Hin.
  - assert (Inj : forall p q, fin3 p = fin3 q -> p = q) by (intros [] [] Q; unfold fin3 in Q; cbn in Q; congruence).
    assert (lo' = lo /\ hi' = hi) as [-> ->] by (split; apply Inj; congruence). auto.
  - apply (S2 lo' hi'); auto. rewrite <- Es. apply in_map_iff. eauto.
Qed.

(** ** C43: exact arithmetic *)
Theorem C43_nearest : forall (T : Type) (sh : T -> shape XR T) (l : list T) (o d : rv) (tmax : XR),
  l <> [] -> xis_nan tmax = false -> (forall s, In s l -> well_behaved (sh s) o d) ->
  exists c ans b, simple_new sh l = Ok c /\
    simple_intersect sh c (mkRay (fin3 o) (fin3 d) tmax) = Ok ans /\
    nearest sh l (mkRay (fin3 o) (fin3 d) tmax) ans /\
    simple_intersect_p sh c (mkRay (fin3 o) (fin3 d) tmax) = Ok b /\
    (b = true <-> some_hit sh l (mkRay (fin3 o) (fin3 d) tmax)).
Proof.
  intros T sh l o d tmax Hne Hn Hl.
  destruct (bbox_of_shapes_fin sh l o d Hne Hl) as (LO & HI & Eb & _ & _ & _ & Sub).
  assert (Hok : forall s, In s l -> exists h, one_hit (sh s) o d h) by (intros s Hs; apply (Hl s Hs)).
  exists (mkSimple l (mkBB (fin3 LO) (fin3 HI))).
  unfold simple_new. rewrite Eb. cbn [rbind].
  unfold simple_intersect, simple_intersect_p. cbn [si_bbox si_shapes].
  destruct (bbox_intersect (mkBB (fin3 LO) (fin3 HI)) (mkRay (fin3 o) (fin3 d) tmax)) as [[a b]|] eqn:Ebx.
  - destruct (last_hit_spec sh o d l tmax Hok Hn l (fun s H => H) tmax None) as (tm & i & E & G & _ & _ & D).
    { left. auto. }
    destruct (any_hit_spec sh o d l tmax Hok Hn l (fun s H => H)) as (b' & Ep & Hb).
    exists i, b'. split; [reflexivity|]. unfold rayt in *. rewrite E, Ep. cbn [rbind]. split; [reflexivity|].
    split; [|auto]. destruct G as [[-> ->]|(s & j & t & Hs & Es & -> & -> & _)]; cbn [nearest].
    + intros s Hs. destruct (Hok s Hs) as (h & H & _). specialize (H tmax Hn).
      assert (Q : exists x, sh_intersect (sh s) (mkRay (fin3 o) (fin3 d) tmax) = Ok x).
      { destruct h as [[]|]; [destruct H as (? & H & _)|destruct H as [H _]]; eauto. }
      destruct Q as ([[j t]|] & Q); [|exact Q]. destruct (D s Hs j t Q) as [C _]. congruence.
    + exists s, j, (XFin t). repeat (split; [auto|]). intros s' i' t' Hs' E'. now apply (D s' Hs' i' t').
  - assert (None' : forall s, In s l -> sh_intersect (sh s) (mkRay (fin3 o) (fin3 d) tmax) = Ok None).
    { intros s Hs. destruct (Hok s Hs) as ([[j t]|] & H & W); specialize (H tmax Hn); [|apply H].
      destruct H as (b & E & _ & B1 & B2). destruct b; [|exact E]. exfalso.
      destruct W as (Ht & lo & hi & Es & Hin).
      apply (C32_none_means_miss LO HI o d tmax Ebx t); [lra| |eapply Sub; eauto].
      apply xlt_ge; auto. destruct (xlt tmax (XFin t)); auto. }
    exists None, false. split; [reflexivity|]. split; [reflexivity|]. split; [exact None'|]. split; [reflexivity|].
    split; [discriminate|]. intros (s & i & t & Hs & E). rewrite None' in E by auto. discriminate.
Qed.

(** Any arithmetic: the container answers from its shapes alone, and a list with no shape is refused *)
Theorem C43_empty : forall (F T : Type) (FO : FOps F) (sh : T -> shape F T), simple_new sh [] = Panic.
Proof. reflexivity. Qed.

(** ** C44: every arithmetic with the laws of [FLaws] (binary32 with any libm in particular) *)
Theorem C44_build : forall (F T : Type) (FO : FOps F) (FL : FLaws F) (sh : T -> shape F T) srt m (l : list T) (md : option Z),
  sort_by_ok edge_cmp srt -> l <> [] -> (Z.of_nat (length l) <= usize_max)%Z ->
  (forall s, In s l -> box_ordered (sh_bbox (sh s))) ->
  exists kd, kd_new sh srt m l md = Ok kd /\
    (* the box of the tree encloses every shape's box *)
    (forall s, In s l -> box_in (sh_bbox (sh s)) (kd_bbox kd)) /\
    (* every shape is in some leaf that the root reaches *)
    (forall s, In s l -> exists k j nd, steps (kd_nodes kd) 0 k j /\ idx (kd_nodes kd) j = Ok nd /\ in_leaf s nd) /\
    (* leaves hold only given shapes *)
    (forall s j nd, idx (kd_nodes kd) j = Ok nd -> in_leaf s nd -> In s l) /\
    (* every index that the root reaches is in range, and at most the depth limit away *)
    (forall k j, steps (kd_nodes kd) 0 k j -> (0 <= j < Z.of_nat (length (kd_nodes kd)))%Z /\
       (Z.of_nat k <= Z.max 0 (match md with Some d => d | None => default_depth (F := F) (Z.of_nat (length l)) end))%Z).
Proof.
  intros F T FO FL sh srt m l md SO Hne Hlen Hl.
  set (depth := match md with Some d => d | None => _ end).
  assert (Perm : forall x y, srt x = Ok y -> Permutation x y) by (intros x; apply (SO x)).
  assert (Hb : exists b, bbox_of_shapes sh l = Ok b /\ v3fin (bmin b) /\ v3fin (bmax b) /\
    forall s, In s l -> box_in (sh_bbox (sh s)) b).
  { unfold bbox_of_shapes.
    destruct (C31_list (map (fun s => sh_bbox (sh s)) l)) as [[E _]|(b & E & Nb & Hin & Least)].
    { apply Forall_forall. intros b Hb. apply in_map_iff in Hb as (s & <- & Hs). apply Hl in Hs as ((A1 & A2 & A3) & (B1 & B2 & B3) & _).
      split; repeat split; try apply A1; try apply A2; try apply A3; try apply B1; try apply B2; apply B3. }
    { destruct l; [congruence|discriminate]. }
    exists b. split; [exact E|].
    (* corners of the union are corners of the shapes' boxes *)
    assert (Corner : forall bs acc, v3fin (bmin acc) -> v3fin (bmax acc) ->
      (forall x, In x bs -> v3fin (bmin x) /\ v3fin (bmax x)) ->
      v3fin (bmin (fold_left bbox_union bs acc)) /\ v3fin (bmax (fold_left bbox_union bs acc))).
    { clear. induction bs as [|x bs IH]; intros acc A B H; cbn [fold_left]; auto.
      destruct (H x (or_introl eq_refl)) as [X1 X2]. apply IH; [| |intros; apply H; now right].
      - unfold bbox_union, v3min, v3map2. cbn [bmin]. destruct A as (A1 & A2 & A3), X1 as (C1 & C2 & C3).
        repeat apply conj; cbn [vx vy vz]; match goal with |- context [fmin ?a ?b] => destruct (emb_fmin_cases a b) as [-> | ->] end;
          first [apply A1|apply A2|apply A3|apply C1|apply C2|apply C3].
      - unfold bbox_union, v3max, v3map2. cbn [bmax]. destruct B as (A1 & A2 & A3), X2 as (C1 & C2 & C3).
        repeat apply conj; cbn [vx vy vz]; match goal with |- context [fmax ?a ?b] => destruct (emb_fmax_cases a b) as [-> | ->] end;
          first [apply A1|apply A2|apply A3|apply C1|apply C2|apply C3]. }
    assert (Q : v3fin (bmin b) /\ v3fin (bmax b)).
    { destruct l as [|s0 l]; [congruence|]. cbn [map bbox_of_list] in E.
      assert (Eb : fold_left bbox_union (map (fun s => sh_bbox (sh s)) l) (sh_bbox (sh s0)) = b) by congruence.
      rewrite <- Eb. destruct (Hl s0 (or_introl eq_refl)) as (A & B & _). apply Corner; auto.
      intros x Hx. apply in_map_iff in Hx as (s & <- & Hs). destruct (Hl s (or_intror Hs)) as (A' & B' & _). auto. }
    destruct Q. split; [auto|]. split; [auto|]. intros s Hs. apply Hin. apply in_map_iff. eauto. }
  destruct Hb as (b & Eb & F1 & F2 & Hin).
  destruct (kd_build_total sh srt SO m (Z.to_nat depth) [] l b 0 Hl Hlen F1 F2) as (nodes & En).
  exists (mkKd b nodes). unfold kd_new. rewrite Eb. cbn [rbind]. fold depth. rewrite En. cbn [rbind kd_nodes kd_bbox].
  split; [reflexivity|]. split; [exact Hin|].
  apply kd_build_built in En as (k & B & ->). cbn [app length]. change (Z.of_nat 0) with 0%Z.
  assert (Reach : forall (k : kdt F T) n i s, stored n i k -> kin s k -> exists c j (nd : node F T), steps n i c j /\ idx n j = Ok nd /\ in_leaf s nd).
  { clear. induction k as [l|a t b IHb c IHc]; intros n i s St H; cbn [kin] in H.
    - exists O, i, (new_leaf l). split; [constructor|]. split; [now apply stored_leaf|]. now apply in_new_leaf.
    - apply stored_split in St as (E & Sb & Sc). destruct H as [H|H].
      + destruct (IHb _ _ s Sb H) as (q & j & nd & ST & E' & L). exists (S q), j, nd. split; [eapply steps_below; eauto|auto].
      + destruct (IHc _ _ s Sc H) as (q & j & nd & ST & E' & L). exists (S q), j, nd. split; [eapply steps_above; eauto|auto]. }
  split; [|split].
  - intros s Hs. apply (Reach k); [apply stored_root|]. eapply (built_all sh srt SO); eauto.
  - assert (Only : forall (k : kdt F T) i s nd, In nd (flatten i k) -> in_leaf s nd -> kin s k).
    { clear. induction k as [l|a t b IHb c IHc]; intros i s nd; cbn [flatten kin].
      - intros [<-|[]]. now rewrite in_new_leaf.
      - intros [<-|H]; [intros []|]. apply in_app_or in H as [H|H]; eauto. }
    intros s j nd Hj Hs. apply idx_inv in Hj as [_ Hj]. apply nth_error_In in Hj.
    eapply (built_sub sh srt Perm); [exact B|]. eapply Only; eauto.
  - assert (Range : forall d l k, built sh srt d l k -> forall n i c j, stored n i k -> steps n i c j ->
      (0 <= j < Z.of_nat (length n))%Z /\ (c <= d)%nat).
    { clear. induction 1 as [d l|d l a edges x e b c E Hx He B1 IH1 B2 IH2]; intros n i q j St S.
      - pose proof (stored_leaf _ _ _ St) as El. inversion S; subst; [split; [eapply stored_range; eauto|lia]| |];
          rewrite El in *; destruct l as [|? [|? ?]]; discriminate.
      - pose proof (stored_range _ _ _ St) as Hr. apply stored_split in St as (Es & Sb & Sc).
        inversion S; subst; [split; [auto|lia]| |].
        + destruct (IH1 _ _ _ _ Sb H0). split; [auto|lia].
        + assert (ab = (i + 1 + Z.of_nat (ksize b))%Z) by congruence. subst ab. destruct (IH2 _ _ _ _ Sc H0). split; [auto|lia]. }
    intros c j S. destruct (Range _ _ _ B _ _ _ _ (stored_root k) S). split; [auto|]. lia.
Qed.

(** ** C45: any arithmetic at all *)
Theorem C45_total : forall (F T : Type) (FO : FOps F) (sh : T -> shape F T) srt m (l : list T) md kd (o d : V3 F) (tmax : F),
  sort_by_ok edge_cmp srt -> kd_new sh srt m l md = Ok kd ->
  (forall s tm, In s l -> exists h, sh_intersect (sh s) (mkRay o d tm) = Ok h) ->
  (forall s tm, In s l -> exists b, sh_intersect_p (sh s) (mkRay o d tm) = Ok b) ->
  (exists ans, kd_intersect sh kd (mkRay o d tmax) = Ok ans) /\
  (exists b, kd_intersect_p sh kd (mkRay o d tmax) = Ok b).
Proof.
  intros F T FO sh srt m l md kd o d tmax SO E H Hp.
  assert (Perm : forall x y, srt x = Ok y -> Permutation x y) by (intros x; apply (SO x)).
  apply kd_new_inv in E as (_ & k & B & En).
  assert (Sub : forall s, kin s k -> In s l) by (intros s; eapply (built_sub sh srt Perm); eauto).
  rewrite (kd_intersect_walk sh kd k) by auto. rewrite (kd_intersect_p_walk sh kd k) by auto.
  destruct (bbox_intersect _ _) as [[t0 t1]|]; [|eauto].
  destruct (walk_total sh l o d H k Sub tmax None t0 t1) as (st & i & tm & ->).
  destruct (walk_p_total sh l o d Hp k Sub tmax t0 t1) as (x & ->). cbn [rbind]. eauto.
Qed.

(** the loops need no more rounds than there are nodes; more rounds change nothing *)
Theorem C45_rounds : forall (F T : Type) (FO : FOps F) (sh : T -> shape F T) srt m (l : list T) md kd (r : ray F) t0 t1 n,
  kd_new sh srt m l md = Ok kd -> (length (kd_nodes kd) <= n)%nat ->
  kd_loop sh (kd_nodes kd) n r None [] 0 t0 t1 = kd_loop sh (kd_nodes kd) (length (kd_nodes kd)) r None [] 0 t0 t1 /\
  kd_loop_p sh (kd_nodes kd) n r [] 0 t0 t1 = kd_loop_p sh (kd_nodes kd) (length (kd_nodes kd)) r [] 0 t0 t1.
Proof.
  intros F T FO sh srt m l md kd r t0 t1 n E Hn. apply kd_new_inv in E as (_ & k & _ & En).
  rewrite En in *. rewrite flatten_length in *.
  rewrite !(kd_loop_rounds sh (flatten 0 k) k) by auto. split; [reflexivity|].
  destruct (kd_loop_p_walk sh (flatten 0 k) k n 0%Z r [] t0 t1 (stored_root k) Hn) as (f1 & _ & ->).
  destruct (kd_loop_p_walk sh (flatten 0 k) k (ksize k) 0%Z r [] t0 t1 (stored_root k) (le_n _)) as (f2 & _ & ->).
  destruct (walk_p sh k r t0 t1) as [[]| |]; reflexivity.
Qed.

Theorem C45_real_hits : forall (F T : Type) (FO : FOps F) (sh : T -> shape F T) srt m (l : list T) md kd (r : ray F),
  sort_by_ok edge_cmp srt -> kd_new sh srt m l md = Ok kd ->
  (forall j, kd_intersect sh kd r = Ok (Some j) -> exists s i t r', In s l /\ shortened sh l r r' /\
     sh_intersect (sh s) r' = Ok (Some (i, t)) /\ j = marked i s) /\
  (kd_intersect_p sh kd r = Ok true -> exists s, In s l /\ sh_intersect_p (sh s) r = Ok true).
Proof.
  intros F T FO sh srt m l md kd r SO E.
  assert (Perm : forall x y, srt x = Ok y -> Permutation x y) by (intros x; apply (SO x)).
  apply kd_new_inv in E as (_ & k & B & En).
  assert (Sub : forall s, kin s k -> In s l) by (intros s; eapply (built_sub sh srt Perm); eauto).
  rewrite (kd_intersect_walk sh kd k) by auto. rewrite (kd_intersect_p_walk sh kd k) by auto.
  destruct (bbox_intersect _ _) as [[t0 t1]|]; [|split; discriminate]. split.
  - intros j. destruct (walk sh k r None t0 t1) as [[[st q] i]| |] eqn:W; cbn [rbind]; try discriminate.
    intros H. cbn [snd] in H. assert (i = Some j) by congruence. subst i.
    apply (walk_sound sh l r k Sub) in W; [apply W|]. split; [constructor|exact I].
  - destruct (walk_p sh k r t0 t1) as [[x|]| |] eqn:W; cbn [rbind]; try discriminate.
    intros H. assert (x = true) by congruence. subst x. eapply walk_p_sound; eauto.
Qed.

(** a shortened ray is no longer than the query when shapes report only parameters within the ray *)
Theorem C45_shorter : forall (F T : Type) (FO : FOps F) (FL : FLaws F) (sh : T -> shape F T) (l : list T) (r r' : ray F),
  (forall s q i t, In s l -> sh_intersect (sh s) q = Ok (Some (i, t)) -> fle t (r_tmax q) = true) ->
  shortened sh l r r' ->
  r_o r' = r_o r /\ r_d r' = r_d r /\ (r' = r \/ fle (r_tmax r') (r_tmax r) = true).
Proof.
  intros F T FO FL sh l r r' H S. induction S as [|q s i t S IH Hs E]; [auto|].
  split; [reflexivity|]. split; [reflexivity|]. right. cbn [r_tmax]. apply H in E; auto.
  destruct IH as (_ & _ & [->|L]); auto. eapply fle_trans; eauto.
Qed.

(** ** C46, C47: exact arithmetic; the ray does not lie in a plane through a face of a box *)
Definition no_face_plane {T} (sh : T -> shape XR T) (l : list T) (o d : rv) : Prop :=
  forall a s, v3get d a = 0 -> In s l ->
    v3get (bmin (sh_bbox (sh s))) a <> XFin (v3get o a) /\ v3get (bmax (sh_bbox (sh s))) a <> XFin (v3get o a).

Section C46.
  Context {T : Type}.
  Variable sh : T -> shape XR T.
  Variable srt : list (bedge XR T) -> res (list (bedge XR T)).
  Hypothesis SO : sort_by_ok edge_cmp srt.
  Variables (o d : rv).

  Let Perm : forall x y, srt x = Ok y -> Permutation x y.
  Proof. intros x; apply (SO x). Qed.

  Lemma wb_ordered s : well_behaved (sh s) o d -> box_ordered (sh_bbox (sh s)).
  Proof.
    intros ((lo & hi & -> & X & Y & Z) & _). unfold box_ordered, v3fin, ffin, v3le, fin3. cbn. repeat split; now apply Rle_bool_true.
  Qed.

  Lemma edge_t_fin l a e : (forall s, In s l -> well_behaved (sh s) o d) -> In e (shape_edges sh l a) ->
    no_face_plane sh l o d -> exists x, e_t e = XFin x /\ (v3get d a = 0 -> v3get o a <> x).
  Proof.
    intros Hl He Hf. apply shape_edges_in in He as [Hs Et].
    destruct (Hl _ Hs) as ((lo & hi & Eb & _) & _). rewrite Eb in Et. cbn [bmin bmax] in Et.
    exists (v3get (if e_start e then lo else hi) a). split.
    - rewrite Et. destruct (e_start e); apply v3get_fin.
    - intros Hd Q. destruct (Hf a _ Hd Hs) as [A B]. rewrite Eb in A, B. cbn [bmin bmax] in A, B.
      rewrite v3get_fin in A, B. rewrite Q in A, B. destruct (e_start e); congruence.
  Qed.

  Lemma built_planes dp l k : built sh srt dp l k -> (forall s, In s l -> well_behaved (sh s) o d) ->
    no_face_plane sh l o d -> planes_ok o d k.
  Proof.
    induction 1 as [|dp l a edges i e b c E Hi He B1 IH1 B2 IH2]; intros Hl Hf; [exact I|]. cbn [planes_ok].
    assert (S1 : forall s, In s (shapes_below edges i) -> In s l) by (intros; eapply (shapes_below_in sh srt Perm); eauto).
    assert (S2 : forall s, In s (shapes_above edges i) -> In s l) by (intros; eapply (shapes_above_in sh srt Perm); eauto).
    split; [|split; [apply IH1|apply IH2]]; auto.
    - apply (edge_t_fin l a e Hl); auto. eapply Permutation_in; [apply Permutation_sym, Perm, E|]. eapply nth_error_In; eauto.
    - intros x s Hd Hs. apply Hf; auto.
    - intros x s Hd Hs. apply Hf; auto.
  Qed.

  Lemma built_cover dp l k : built sh srt dp l k -> (forall s, In s l -> well_behaved (sh s) o d) ->
    forall s lo hi p, In s l -> sh_bbox (sh s) = mkBB (fin3 lo) (fin3 hi) -> in_box lo hi p -> cover k s p.
  Proof.
    induction 1 as [|dp l a edges i e b c E Hi He B1 IH1 B2 IH2]; intros Hl s lo hi p Hs Eb Hin; cbn [cover]; auto.
    assert (S1 : forall s, In s (shapes_below edges i) -> In s l) by (intros; eapply (shapes_below_in sh srt Perm); eauto).
    assert (S2 : forall s, In s (shapes_above edges i) -> In s l) by (intros; eapply (shapes_above_in sh srt Perm); eauto).
    destruct (classify (FL := XR_FLaws) sh srt SO l a edges i e s) as (C1 & C2 & C3); auto.
    { intros s' Hs'. apply wb_ordered; auto. }
    assert (Ie : In e (shape_edges sh l a)) by (eapply Permutation_in; [apply Permutation_sym, Perm, E|]; eapply nth_error_In; eauto).
    apply shape_edges_in in Ie as [Ise Et]. destruct (Hl _ Ise) as ((lo' & hi' & Eb' & _) & _). rewrite Eb' in Et. cbn [bmin bmax] in Et.
    assert (Ex : e_t e = XFin (v3get (if e_start e then lo' else hi') a)) by (rewrite Et; destruct (e_start e); apply v3get_fin).
    rewrite Ex in *. set (x := v3get (if e_start e then lo' else hi') a) in *.
    rewrite Eb in C2, C3. cbn [bmin bmax] in C2, C3. rewrite v3get_fin in C2, C3.
    assert (Hp : v3get lo a <= v3get p a <= v3get hi a) by (destruct Hin as (? & ? & ?); destruct a; auto).
    split; [|split].
    - intros Q. eapply IH1; eauto. apply C2. cbn. apply Rlt_bool_true. lra.
    - intros Q. eapply IH2; eauto. apply C3. cbn. apply Rlt_bool_true. lra.
    - intros Q. destruct C1 as [C|C]; [left; eapply IH1|right; eapply IH2]; eauto.
  Qed.

  Lemma C46_C47 m l md tmax : l <> [] -> (Z.of_nat (length l) <= usize_max)%Z -> d <> v0 -> xis_nan tmax = false ->
    (forall s, In s l -> well_behaved (sh s) o d) -> no_face_plane sh l o d ->
    exists kd ans b, kd_new sh srt m l md = Ok kd /\
      kd_intersect sh kd (mkRay (fin3 o) (fin3 d) tmax) = Ok ans /\ nearest sh l (mkRay (fin3 o) (fin3 d) tmax) ans /\
      kd_intersect_p sh kd (mkRay (fin3 o) (fin3 d) tmax) = Ok b /\
      (b = true <-> some_hit sh l (mkRay (fin3 o) (fin3 d) tmax)).
  Proof.
    intros Hne Hlen Hd Hn Hl Hf.
    destruct (C44_build XR T _ XR_FLaws sh srt m l md SO Hne Hlen) as (kd & E & _).
    { intros s Hs. apply wb_ordered; auto. }
    exists kd. assert (E' := E). apply kd_new_inv in E' as (Eb & k & B & En).
    destruct (bbox_of_shapes_fin sh l o d Hne Hl) as (LO & HI & Eb' & OX & OY & OZ & Sub).
    assert (Ebb : kd_bbox kd = mkBB (fin3 LO) (fin3 HI)) by congruence. clear Eb Eb'.
    rewrite (kd_intersect_walk sh kd k) by auto. rewrite (kd_intersect_p_walk sh kd k) by auto. rewrite Ebb.
    assert (Hok : forall s, In s l -> exists h, one_hit (sh s) o d h) by (intros s Hs; apply (Hl s Hs)).
    assert (Sk : forall s, kin s k -> In s l) by (intros s; eapply (built_sub sh srt Perm); eauto).
    pose proof (built_planes _ _ _ B Hl Hf) as Pl.
    pose proof (built_cover _ _ _ B Hl) as Cv.
    destruct (bbox_intersect (mkBB (fin3 LO) (fin3 HI)) (mkRay (fin3 o) (fin3 d) tmax)) as [[a b]|] eqn:Ebx.
    - destruct (C32_interval LO HI o d tmax a b OX OY OZ Hd Hn Ebx) as (ra & rb & -> & -> & [R1 R2] & _).
      assert (Hab : xle (XFin ra) (XFin rb) = true) by (cbn; now apply Rle_bool_true).
      destruct (walk_spec sh o d l tmax Hok Hn k Sk Pl tmax None (XFin ra) (XFin rb)) as (st & tm & i & Ew & G & _ & _ & _ & D); auto.
      { left. auto. }
      destruct (walk_p_spec sh o d l tmax Hok Hn k Sk Pl (XFin ra) (XFin rb) Hab) as (x & Ep & Pf & Pc & Ps).
      change (mkRay (fin3 o) (fin3 d) tmax) with (rayt o d tmax) in *. rewrite Ew, Ep. cbn [rbind snd].
      exists i, (match x with Some b => b | None => false end). split; [exact E|]. split; [reflexivity|].
      (* every reported hit lies in the tree's interval *)
      assert (J : forall s j t, In s l -> sh_intersect (sh s) (rayt o d tmax) = Ok (Some (j, t)) ->
        exists y, t = XFin y /\ cover k s (at_t o d y) /\ xle (XFin ra) (XFin y) = true /\ xle (XFin y) (XFin rb) = true).
      { intros s j t Hs Er. destruct (reported sh o d l tmax Hok Hn s j t Hs Er) as (y & lo & hi & -> & Hy & Hm & Es & Hin).
        exists y. split; auto. split; [eapply Cv; eauto|].
        destruct (C32_finds LO HI o d tmax y) as (t0 & t1 & E1 & A1 & A2); auto; [eapply Sub; eauto|lra|].
        unfold rayt in Ebx. rewrite Ebx in E1. apply Some_pair_inj in E1 as [<- <-]. auto. }
      split; [|split; [reflexivity|]].
      + destruct G as [[-> ->]|(s & j & t & Hs & Es & -> & -> & _)]; cbn [nearest].
        * intros s Hs. destruct (Hok s Hs) as (h & H & _). specialize (H tmax Hn).
          assert (Q : exists x, sh_intersect (sh s) (rayt o d tmax) = Ok x).
          { destruct h as [[]|]; [destruct H as (? & H & _)|destruct H as [H _]]; eauto. }
          destruct Q as ([[j t]|] & Q); [|exact Q]. destruct (J s j t Hs Q) as (y & -> & C & A1 & A2).
          destruct (D s j y Hs Q C A1 A2 j (XFin y) Q) as [W _]. congruence.
        * exists s, j, (XFin t). repeat (split; [auto|]). intros s' i' t' Hs' E''.
          destruct (J s' i' t' Hs' E'') as (y & -> & C & A1 & A2). now apply (D s' i' y Hs' E'' C A1 A2 i').
      + split.
        * destruct x as [[]|]; try discriminate. intros _. now apply Ps.
        * intros (s & j & t & Hs & Er). destruct (J s j t Hs Er) as (y & -> & C & A1 & A2).
          now rewrite (Pc s j y Hs Er C A1 A2).
    - assert (None' : forall s, In s l -> sh_intersect (sh s) (mkRay (fin3 o) (fin3 d) tmax) = Ok None).
      { intros s Hs. destruct (Hok s Hs) as ([[j t]|] & H & W); specialize (H tmax Hn); [|apply H].
        destruct H as (b & Er & _ & B1 & B2). destruct b; [|exact Er]. exfalso.
        destruct W as (Ht & lo & hi & Es & Hin).
        apply (C32_none_means_miss LO HI o d tmax Ebx t); [lra| |eapply Sub; eauto].
        apply xlt_ge; auto. destruct (xlt tmax (XFin t)); auto. }
      exists None, false. split; [exact E|]. split; [reflexivity|]. split; [exact None'|]. split; [reflexivity|].
      split; [discriminate|]. intros (s & i & t & Hs & Er). rewrite None' in Er by auto. discriminate.
  Qed.
End C46.

Theorem C46_nearest_partial : forall (T : Type) (sh : T -> shape XR T) srt m (l : list T) md (o d : rv) (tmax : XR),
  sort_by_ok edge_cmp srt -> l <> [] -> (Z.of_nat (length l) <= usize_max)%Z -> d <> v0 -> xis_nan tmax = false ->
  (forall s, In s l -> well_behaved (sh s) o d) -> no_face_plane sh l o d ->
  exists kd ans, kd_new sh srt m l md = Ok kd /\
    kd_intersect sh kd (mkRay (fin3 o) (fin3 d) tmax) = Ok ans /\ nearest sh l (mkRay (fin3 o) (fin3 d) tmax) ans.
Proof.
  intros T sh srt m l md o d tmax SO Hne Hlen Hd Hn Hl Hf.
  destruct (C46_C47 sh srt SO o d m l md tmax Hne Hlen Hd Hn Hl Hf) as (kd & ans & b & H1 & H2 & H3 & _). exists kd, ans. auto.
Qed.

Theorem C47_shadow_partial : forall (T : Type) (sh : T -> shape XR T) srt m (l : list T) md (o d : rv) (tmax : XR),
  sort_by_ok edge_cmp srt -> l <> [] -> (Z.of_nat (length l) <= usize_max)%Z -> d <> v0 -> xis_nan tmax = false ->
  (forall s, In s l -> well_behaved (sh s) o d) -> no_face_plane sh l o d ->
  exists kd b, kd_new sh srt m l md = Ok kd /\
    kd_intersect_p sh kd (mkRay (fin3 o) (fin3 d) tmax) = Ok b /\
    (b = true <-> some_hit sh l (mkRay (fin3 o) (fin3 d) tmax)).
Proof.
  intros T sh srt m l md o d tmax SO Hne Hlen Hd Hn Hl Hf.
  destruct (C46_C47 sh srt SO o d m l md tmax Hne Hlen Hd Hn Hl Hf) as (kd & ans & b & H1 & _ & _ & H4 & H5). exists kd, b. auto.
Qed.

(** ** The missing case, in binary32: the ray runs in the plane of a split

    Nine copies of [fill_tri] and [miss_tri], which touches the plane x = 0 with an edge.  The root
    is split at x = 0, [miss_tri] is stored above only.  For the ray in that plane the split
    parameter is 0/0 = NaN; the [todo] of the child above gets [t_min] = NaN and lies under a [todo]
    of the child below whose [t_min] exceeds the ray's [t_max], so the loop ends before it. *)
Section Miss.
  Context {L : Libm b32}.
  Definition bp (x y z : Z) : V3 b32 := mkV3 (fofZ x) (fofZ y) (fofZ z).
  Definition fill_tri : triangle b32 := mkTri (mk3 (bp (-1) 0 2) (bp 4 0 2) (bp 4 2 3)) None false.
  Definition miss_tri : triangle b32 := mkTri (mk3 (bp 0 1 (-1)) (bp 0 1 1) (bp 4 3 0)) None false.
  Definition miss_sh (n : nat) : shape b32 nat := triangle_shape (if Nat.eqb n 0 then fill_tri else miss_tri).
  Definition miss_l : list nat := [0; 0; 0; 0; 0; 0; 0; 0; 0; 1]%nat.
  Definition miss_ray : ray b32 := mkRay (bp 0 0 0) (bp 0 1 0) (fdiv (fofZ 3) (fofZ 2)).
  Definition miss_kd : res (kdtree b32 nat) :=
    kd_new miss_sh (fun l => Ok (isort edge_cmp l)) Debug miss_l (Some 2%Z).

  Definition miss_check : bool :=
    match miss_kd with
    | Ok kd =>
      match kd_intersect miss_sh kd miss_ray with Ok None => true | _ => false end &&
      match kd_intersect_p miss_sh kd miss_ray with Ok b => negb b | _ => false end
    | _ => false
    end.
  Definition hit_check : bool :=
    match sh_intersect (miss_sh 1) miss_ray with Ok (Some (_, t)) => feq t f1 | _ => false end &&
    match sh_intersect_p (miss_sh 1) miss_ray with Ok b => b | _ => false end.
  Definition finb (x : b32) : bool := negb (fis_nan x) && negb (fis_inf x).
  Definition box_check (b : bbox3 b32) : bool :=
    forallb (fun a => finb (v3get (bmin b) a) && finb (v3get (bmax b) a) && fle (v3get (bmin b) a) (v3get (bmax b) a)) [AX; AY; AZ].
  Lemma miss_check_true : miss_check = true. Proof. vm_compute. reflexivity. Qed.
  Lemma hit_check_true : hit_check = true. Proof. vm_compute. reflexivity. Qed.
  Lemma box_check_true : (box_check (sh_bbox (miss_sh 0)) && box_check (sh_bbox (miss_sh 1)))%bool = true.
  Proof. vm_compute. reflexivity. Qed.

  (** the checks, taken apart without computing them again *)
  Lemma res_true {A} (x : res A) (f : A -> bool) :
    match x with Ok a => f a | _ => false end = true -> exists a, x = Ok a /\ f a = true.
  Proof. destruct x; [eauto|discriminate|discriminate]. Qed.
  Lemma miss_facts : exists kd, miss_kd = Ok kd /\ kd_intersect miss_sh kd miss_ray = Ok None /\
    kd_intersect_p miss_sh kd miss_ray = Ok false.
  Proof.
    pose proof miss_check_true as M. unfold miss_check in M. apply res_true in M as (kd & E & M).
    exists kd. split; [exact E|]. clear E. apply andb_true_iff in M as [M1 M2]. split.
    - revert M1. generalize (kd_intersect miss_sh kd miss_ray). intros [[]| |] H; [discriminate H|reflexivity|discriminate H|discriminate H].
    - revert M2. generalize (kd_intersect_p miss_sh kd miss_ray). intros [[]| |] H; [discriminate H|reflexivity|discriminate H|discriminate H].
  Qed.
  Lemma hit_facts : (exists i t, sh_intersect (miss_sh 1) miss_ray = Ok (Some (i, t))) /\
    sh_intersect_p (miss_sh 1) miss_ray = Ok true.
  Proof.
    pose proof hit_check_true as H. unfold hit_check in H. apply andb_true_iff in H as [H1 H2]. split.
    - revert H1. generalize (sh_intersect (miss_sh 1) miss_ray). intros [[[i t]|]| |] H; [eauto|discriminate H|discriminate H|discriminate H].
    - revert H2. generalize (sh_intersect_p (miss_sh 1) miss_ray). intros [[]| |] H; [reflexivity|discriminate H|discriminate H|discriminate H].
  Qed.

  Lemma box_check_ok b : box_check b = true -> box_ordered b.
  Proof.
    unfold box_check. cbn [forallb v3get]. rewrite !andb_true_iff.
    assert (H : forall x, finb x = true -> ffin x).
    { intros x. unfold finb, ffin. destruct (fis_nan x), (fis_inf x); cbn; auto; discriminate. }
    intros (((X & X1) & X2) & ((Y & Y1) & Y2) & ((Z & Z1) & Z2) & _). unfold box_ordered, v3fin, v3le. auto 10.
  Qed.
  Lemma miss_boxes s : In s miss_l -> box_ordered (sh_bbox (miss_sh s)).
  Proof.
    intros H. pose proof box_check_true as B. apply andb_true_iff in B as [B0 B1].
    repeat (destruct H as [<-|H]; [now apply box_check_ok|]). destruct H.
  Qed.
End Miss.

Theorem C46_refuted : forall L : Libm b32, exists (sh : nat -> shape b32 nat) srt (l : list nat) md kd (r : ray b32) s i t,
  sort_by_ok edge_cmp srt /\ (forall s, In s l -> box_ordered (sh_bbox (sh s))) /\ kd_new sh srt Debug l md = Ok kd /\
  In s l /\ sh_intersect (sh s) r = Ok (Some (i, t)) /\
  kd_intersect sh kd r = Ok None.
Proof.
  intros L. destruct miss_facts as (kd & E & M & _). destruct hit_facts as ((i & t & Ei) & _).
  exists miss_sh, (fun l => Ok (isort edge_cmp l)), miss_l, (Some 2%Z), kd, miss_ray, 1%nat, i, t.
  split; [apply isort_ok|]. split; [exact miss_boxes|]. split; [exact E|].
  split; [do 9 right; left; reflexivity|]. split; [exact Ei|exact M].
Qed.

Theorem C47_refuted : forall L : Libm b32, exists (sh : nat -> shape b32 nat) srt (l : list nat) md kd (r : ray b32) s,
  sort_by_ok edge_cmp srt /\ (forall s, In s l -> box_ordered (sh_bbox (sh s))) /\ kd_new sh srt Debug l md = Ok kd /\
  In s l /\ sh_intersect_p (sh s) r = Ok true /\
  kd_intersect_p sh kd r = Ok false.
Proof.
  intros L. destruct miss_facts as (kd & E & _ & M). destruct hit_facts as (_ & Ei).
  exists miss_sh, (fun l => Ok (isort edge_cmp l)), miss_l, (Some 2%Z), kd, miss_ray, 1%nat.
  split; [apply isort_ok|]. split; [exact miss_boxes|]. split; [exact E|].
  split; [do 9 right; left; reflexivity|]. split; [exact Ei|exact M].
Qed.

(** ** Examples: the hypotheses can be met *)
Example C44_example : forall L : Libm b32,
  sort_by_ok (@edge_cmp b32 nat _) (fun l => Ok (isort edge_cmp l)) /\ miss_l <> [] /\
  (Z.of_nat (length miss_l) <= usize_max)%Z /\ (forall s, In s miss_l -> box_ordered (sh_bbox (miss_sh s))).
Proof.
  intros L. split; [apply isort_ok|]. split; [discriminate|]. split; [cbn; unfold usize_max; lia|exact miss_boxes].
Qed.

(** two spheres and a triangle; the nearer sphere is met at parameter 2 *)
Definition ex_sh (n : nat) : shape XR nat :=
  match n with
  | 0%nat => sphere_shape (mkSphere (fin3 (mkV3 9 18 18)) (XFin 3))
  | 1%nat => sphere_shape (mkSphere (fin3 (mkV3 3 6 6)) (XFin 3))
  | _ => triangle_shape (mkTri (mk3 (fin3 (mkV3 0 0 (-1))) (fin3 (mkV3 1 0 (-1))) (fin3 (mkV3 0 1 (-1)))) None false)
  end.
Example C43_example : let l := [0; 1; 2]%nat in let d := mkV3 1 2 2 in
  (forall s, In s l -> well_behaved (ex_sh s) v0 d) /\ no_face_plane ex_sh l v0 d /\ d <> v0 /\
  some_hit ex_sh l (mkRay (fin3 v0) (fin3 d) (XInf false)).
Proof.
  intros l d. assert (Hd : d <> v0) by (intros H; apply (f_equal vx) in H; cbn in H; lra). split; [|split; [|split; [exact Hd|]]].
  - intros s [<-|[<-|[<-|[]]]]; cbn [ex_sh].
    + apply C43_sphere_ok; auto; lra.
    + apply C43_sphere_ok; auto; lra.
    + apply (C43_triangle_ok nat (mk3 (mkV3 0 0 (-1)) (mkV3 1 0 (-1)) (mkV3 0 1 (-1)))); auto.
  - intros a s H. exfalso. unfold d in H. destruct a; cbn in H; lra.
  - pose proof (C35_first_hit nat (mkV3 3 6 6) 3 v0 d (XInf false) Hd) as H.
    assert (On : on_sphere (mkV3 3 6 6) 3 (at_t v0 d 2))
      by (apply on_sphere_sq; unfold vdot, vsub, at_t, vadd, vscale, v0, d; cbn; ring).
    destruct (sp_intersect _ _) as [[i t]|] eqn:E; [|exfalso; apply (H 2); [lra|reflexivity|exact On]].
    exists 1%nat, i, t. split; [cbn; tauto|]. cbn [ex_sh sphere_shape sh_intersect]. now rewrite E.
Qed.

(** so on this list the tree finds a hit *)
Example C46_example : exists kd j, kd_new ex_sh (fun l => Ok (isort edge_cmp l)) Debug [0; 1; 2]%nat (Some 5%Z) = Ok kd /\
  kd_intersect ex_sh kd (mkRay (fin3 v0) (fin3 (mkV3 1 2 2)) (XInf false)) = Ok (Some j) /\
  kd_intersect_p ex_sh kd (mkRay (fin3 v0) (fin3 (mkV3 1 2 2)) (XInf false)) = Ok true.
Proof.
  destruct C43_example as (W & N & Hd & s & i & t & Hs & E).
  destruct (C46_nearest_partial nat ex_sh _ Debug [0; 1; 2]%nat (Some 5%Z) v0 (mkV3 1 2 2) (XInf false) (isort_ok edge_cmp))
    as (kd & ans & Ek & Ea & Hn); auto; [discriminate|cbn; unfold usize_max; lia|].
  destruct (C47_shadow_partial nat ex_sh _ Debug [0; 1; 2]%nat (Some 5%Z) v0 (mkV3 1 2 2) (XInf false) (isort_ok edge_cmp))
    as (kd' & b & Ek' & Eb & Hb); auto; [discriminate|cbn; unfold usize_max; lia|].
  assert (kd' = kd) by congruence. subst kd'.
  assert (b = true) by (apply Hb; exists s, i, t; auto). subst b.
  destruct ans as [j|]; [exists kd, j; auto|]. exfalso. cbn [nearest] in Hn. rewrite (Hn s Hs) in E. discriminate.
Qed.

Example C45_example : forall L : Libm b32, exists kd, miss_kd = Ok kd.
Proof. intros L. destruct miss_facts as (kd & E & _). now exists kd. Qed.

Print Assumptions C43_sphere_ok.
Print Assumptions C43_triangle_ok.
Print Assumptions C43_nearest.
Print Assumptions C44_build.
Print Assumptions C45_total.
Print Assumptions C45_rounds.
Print Assumptions C45_real_hits.
Print Assumptions C45_shorter.
Print Assumptions C46_nearest_partial.
Print Assumptions C46_refuted.
Print Assumptions C47_shadow_partial.
Print Assumptions C47_refuted.
