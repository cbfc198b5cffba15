(** * Scenes and lights (C48, C49, C62, C63) *)
From Coq Require Import ZArith Reals List Bool Lia Lra.
From Flocq Require Import Core.
From Verif Require Import Model.Num Model.NumX Model.NumB Model.Vector Model.BBox Model.Interaction Model.Shape
  Model.Sphere Model.Triangle Model.Container Model.KdTree Model.Light Model.Scene.
From Verif Require Import Spec.RVec Spec.BoxSpec Spec.KdSpec Spec.ShapeSpec Spec.LightSpec.
From Verif Require Import Proofs.XBase Proofs.RVecProofs Proofs.FLaws Proofs.BoxProofs Proofs.TriangleProofs Props.Boxes Props.Containers Props.Shapes Props.MicrofacetProps.
Import ListNotations.
Local Open Scope R_scope.

(** ** C48 *)

Lemma performed_is {F T} (cs : list (call F T)) :
  performed cs = mkBuilder (added_lights cs) (added_shapes cs) (added_areas cs).
Proof.
  unfold performed.
  enough (G : forall (b : builder F T), fold_left perform cs b = mkBuilder (bd_lights b ++ added_lights cs) (bd_shapes b ++ added_shapes cs) (bd_areas b ++ added_areas cs)) by apply G.
  induction cs as [|c cs IH]; intros b; cbn [fold_left].
  - unfold added_lights, added_shapes, added_areas. cbn [flat_map]. rewrite !app_nil_r. destruct b; reflexivity.
  - rewrite IH. destruct c; cbn [perform add_light add_shape add_area_light bd_lights bd_shapes bd_areas];
      unfold added_lights, added_shapes, added_areas; cbn [flat_map app]; rewrite <- ?app_assoc; reflexivity.
Qed.

Section C48.
  Context {F T : Type} {FO : FOps F} {FL : FLaws F}.

  Lemma fold_union_areas (f : T -> bbox3 F) : forall l b, box_nnan b -> (forall a, In a l -> box_nnan (f a)) ->
    let r := fold_left (fun bb a => bbox_union bb (f a)) l b in
    box_nnan r /\ box_in b r /\ (forall a, In a l -> box_in (f a) r) /\
    (forall c, box_in b c -> (forall a, In a l -> box_in (f a) c) -> box_in r c).
  Proof.
    intros l b Hb Hl r.
    assert (E : r = fold_left bbox_union (map f l) b).
    { unfold r. clear. revert b. induction l as [|a l IH]; intros b; cbn [fold_left map]; auto. }
    assert (Hall : Forall box_nnan (b :: map f l)).
    { constructor; auto. apply Forall_forall. intros x Hx. apply in_map_iff in Hx as (a & <- & Ha). auto. }
    destruct (C31_list (b :: map f l) Hall) as [[D _]|(r' & E' & N & I & M)]; [discriminate|].
    cbn [bbox_of_list] in E'. assert (r' = r) by congruence. subst r'.
    split; auto. split; [apply I; left; auto|]. split; [intros a Ha; apply I; right; apply in_map; auto|].
    intros c Hc Hs. apply M. intros x [<-|Hx]; auto. apply in_map_iff in Hx as (a & <- & Ha). auto.
  Qed.
End C48.

Theorem C48 : forall (F T : Type) (FO : FOps F) (FL : FLaws F) (sh : T -> shape F T) (al : T -> area_light F T)
    (C : Type) (container : list T -> res C) (cs : list (call F T)),
  (forall s, In s (added_shapes cs) -> box_nnan (sh_bbox (sh s))) ->
  (forall a, In a (added_areas cs) -> box_nnan (sh_bbox (al_shape (al a)))) ->
  exists bb,
    (* the box told to the lights encloses every shape and every area light *)
    (forall s, In s (added_shapes cs) -> box_in (sh_bbox (sh s)) bb) /\
    (forall a, In a (added_areas cs) -> box_in (sh_bbox (al_shape (al a))) bb) /\
    (* and is the smallest such, if there is a shape *)
    (added_shapes cs <> [] -> forall c, (forall s, In s (added_shapes cs) -> box_in (sh_bbox (sh s)) c) ->
       (forall a, In a (added_areas cs) -> box_in (sh_bbox (al_shape (al a))) c) -> box_in bb c) /\
    (* the container gets all shapes and area lights, the scene all lights and area lights *)
    construct sh al container (performed cs) =
      let! c := container (added_shapes cs ++ added_areas cs) in
      Ok (mkScene (map (fun l => l bb) (added_lights cs) ++ map (fun a => area_as_light a (al a)) (added_areas cs)) c).
Proof.
  intros F T FO FL sh al C container cs Hs Ha. rewrite performed_is. unfold construct, scene_bbox. cbn [bd_lights bd_shapes bd_areas].
  destruct (added_shapes cs) as [|s0 ss] eqn:Es.
  - assert (Z : box_nnan (bbox_new (v3zero (F := F)) v3zero)).
    { assert (N : v3nnan (v3zero (F := F))) by (unfold v3nnan, v3zero; cbn [vx vy vz]; unfold f0; rewrite emb_nan, emb_ofZ; repeat split; apply rn_nnan).
      apply box_nnan_alt. split; [apply v3min_nnan|apply v3max_nnan]; exact N. }
    destruct (fold_union_areas (fun a => sh_bbox (area_shape (al a))) (added_areas cs) _ Z Ha) as (_ & _ & I & _).
    cbn [rbind]. eexists. split; [intros s []|]. split; [exact I|]. split; [intros D; congruence|]. reflexivity.
  - assert (Hall : Forall box_nnan (map (fun s => sh_bbox (sh s)) (s0 :: ss))).
    { apply Forall_forall. intros x Hx. apply in_map_iff in Hx as (a & <- & Hx). auto. }
    destruct (C31_list _ Hall) as [[D _]|(b & E & N & I & M)]; [discriminate|].
    unfold bbox_of_shapes. rewrite E. cbn [rbind].
    destruct (fold_union_areas (fun a => sh_bbox (area_shape (al a))) (added_areas cs) _ N Ha) as (_ & J & K & MM).
    eexists. split; [|split; [exact K|split; [|reflexivity]]].
    + intros s Hs'. assert (box_in (sh_bbox (sh s)) b) as [A B] by (apply I, in_map_iff; eauto). destruct J as [A' B'].
      split; eapply v3le_trans; eauto.
    + intros _ c Hc Hd. apply MM; auto. apply M. intros x Hx. apply in_map_iff in Hx as (a & <- & Hx). auto.
Qed.
Print Assumptions C48.

(** Construction with the simple container fails exactly when nothing was added, whatever the boxes are; *)
Theorem C48_fails_simple : forall (F T : Type) (FO : FOps F) (sh : T -> shape F T) (al : T -> area_light F T) (cs : list (call F T)),
  match construct sh al (fun l => let! c := simple_new sh l in Ok (simple_container sh c)) (performed cs) with
  | Ok _ => added_shapes cs ++ added_areas cs <> []
  | Panic => added_shapes cs = [] /\ added_areas cs = []
  | Timeout => False
  end.
Proof.
  intros. rewrite performed_is. unfold construct, scene_bbox. cbn [bd_lights bd_shapes bd_areas].
  destruct (added_shapes cs) as [|s ss]; cbn [rbind app].
  - destruct (added_areas cs) as [|a aa]; cbn; auto. discriminate.
  - unfold bbox_of_shapes. cbn [map bbox_of_list rbind]. unfold simple_new, bbox_of_shapes. cbn [map bbox_of_list rbind]. discriminate.
Qed.
Print Assumptions C48_fails_simple.

(** and likewise with the k-d tree. *)
Theorem C48_fails_kd : forall (F T : Type) (FO : FOps F) (FL : FLaws F) (sh : T -> shape F T) (al : T -> area_light F T) srt m md
    (cs : list (call F T)),
  sort_by_ok edge_cmp srt -> (Z.of_nat (length (added_shapes cs ++ added_areas cs)) <= usize_max)%Z ->
  (forall s, In s (added_shapes cs ++ added_areas cs) -> box_ordered (sh_bbox (sh s))) ->
  match construct sh al (fun l => let! c := kd_new sh srt m l md in Ok (kd_container sh c)) (performed cs) with
  | Ok _ => added_shapes cs ++ added_areas cs <> []
  | Panic => added_shapes cs = [] /\ added_areas cs = []
  | Timeout => False
  end.
Proof.
  intros F T FO FL sh al srt m md cs Hsrt Hlen Ho. rewrite performed_is. unfold construct, scene_bbox. cbn [bd_lights bd_shapes bd_areas].
  destruct (added_shapes cs ++ added_areas cs) as [|x l] eqn:E.
  - apply app_eq_nil in E as [E1 E2]. rewrite E1, E2. cbn [rbind fold_left kd_new bbox_of_shapes map bbox_of_list]. auto.
  - destruct (C44_build F T FO FL sh srt m (x :: l) md Hsrt) as (kd & Ek & _); auto; [discriminate|]. rewrite Ek.
    destruct (added_shapes cs) as [|s ss]; cbn [rbind]; [discriminate|].
    unfold bbox_of_shapes. cbn [map bbox_of_list rbind]. discriminate.
Qed.
Print Assumptions C48_fails_kd.

(** ** C49, in exact arithmetic *)

(** Two points of the box, the second at least as far from the first as the diagonal is long, are opposite
    ends of a diagonal. *)
Lemma far_apart lo hi p q : vx lo <= vx hi -> vy lo <= vy hi -> vz lo <= vz hi ->
  in_box lo hi p -> in_box lo hi q -> vdot (vsub hi lo) (vsub hi lo) <= vdot (vsub q p) (vsub q p) ->
  vadd p q = vadd lo hi /\ vdot (vsub hi lo) (vsub hi lo) = vdot (vsub q p) (vsub q p) /\
  (vx q = vx lo \/ vx q = vx hi) /\ (vy q = vy lo \/ vy q = vy hi) /\ (vz q = vz lo \/ vz q = vz hi).
Proof.
  intros X Y Z (P1 & P2 & P3) (Q1 & Q2 & Q3) H. unfold vdot, vsub in H. revert H; vproj; intros H.
  assert (A : forall l h a b, l <= h -> l <= a <= h -> l <= b <= h -> (b - a) * (b - a) <= (h - l) * (h - l)) by (intros; nra).
  pose proof (A _ _ _ _ X P1 Q1) as A1. pose proof (A _ _ _ _ Y P2 Q2) as A2. pose proof (A _ _ _ _ Z P3 Q3) as A3.
  assert (B : forall l h a b, l <= h -> l <= a <= h -> l <= b <= h -> (b - a) * (b - a) = (h - l) * (h - l) ->
    (b = l /\ a = h) \/ (b = h /\ a = l)).
  { intros l h a b L Ha Hb E. assert ((b - a - (h - l)) * (b - a + (h - l)) = 0) by lra.
    apply Rmult_integral in H0 as [H0|H0]; [right|left]; lra. }
  destruct (B _ _ _ _ X P1 Q1) as [[B1 B2]|[B1 B2]]; [lra| |];
  destruct (B _ _ _ _ Y P2 Q2) as [[B3 B4]|[B3 B4]]; try lra;
  destruct (B _ _ _ _ Z P3 Q3) as [[B5 B6]|[B5 B6]]; try lra;
  (split; [apply V3_eq; unfold vadd; vproj; lra|]); (split; [unfold vdot, vsub; vproj; lra|]); auto.
Qed.

Section C49.
  Variables (lo hi w p : rv).
  Hypotheses (X : vx lo <= vx hi) (Y : vy lo <= vy hi) (Z : vz lo <= vz hi) (Hw : w <> v0) (Hp : in_box lo hi p).

  (** the length of the diagonal, and the point that far away towards the light *)
  Definition diagonal : R := vdist hi lo.
  Definition far_end : rv := vadd p (vscale diagonal (vunit w)).

  Lemma far_dist : vdot (vsub far_end p) (vsub far_end p) = vdot (vsub hi lo) (vsub hi lo).
  Proof.
    assert (E : vsub far_end p = vscale diagonal (vunit w)) by (apply V3_eq; unfold far_end, vsub, vadd; vproj; ring).
    rewrite E. replace (vdot (vscale diagonal (vunit w)) (vscale diagonal (vunit w))) with (diagonal * diagonal * vdot (vunit w) (vunit w))
      by (unfold vdot, vscale; vproj; ring). rewrite vunit_dot by auto. unfold diagonal, vdist. rewrite vnorm_sq. ring.
  Qed.

  Lemma distant_sample_fin T (L : V3 XR) (r : interaction XR T) u : i_p r = fin3 p ->
    distant_sample_li (distant_pre (distant_new L (fin3 w)) (mkBB (fin3 lo) (fin3 hi))) r u =
      Ok (fin3 (vunit w), L, XFin 1, mkVis r (mkI (fin3 far_end) v3zero (mkP2 f0 f0) v3zero v3zero v3zero v3zero v3zero None)).
  Proof.
    intros Er. destruct (C34_bounding_sphere lo hi X Y Z) as (c & rad & E & Ec & _ & _ & Hr).
    unfold distant_pre. rewrite E. unfold distant_sample_li, distant_new. cbn [dl_l dl_w dl_radius]. rewrite v3normalize_fin by auto.
    rewrite Er. change (@f2 XR XR_FOps) with (XFin 2). xsimp. cbn [xmul]. rewrite v3scale_fin, v3add_fin.
    assert (D : 2 * rad = diagonal).
    { rewrite <- Hr, Ec. unfold diagonal, vdist.
      replace (vsub hi (vscale (1 / 2) (vadd lo hi))) with (vscale (1 / 2) (vsub hi lo)) by (apply V3_eq; unfold vsub, vscale, vadd; vproj; lra).
      rewrite vnorm_scale, Rabs_pos_eq by lra. lra. }
    rewrite D. unfold f1. xsimp. reflexivity.
  Qed.
End C49.

(** The far end of the shadow ray is not inside the box: it is outside, or it is the corner opposite to the
    corner that the surface point is. *)
Theorem C49_far_end : forall (T : Type) (lo hi w p : rv) (L : V3 XR) (r : interaction XR T) u,
  vx lo <= vx hi -> vy lo <= vy hi -> vz lo <= vz hi -> w <> v0 -> in_box lo hi p -> i_p r = fin3 p ->
  exists v q, distant_sample_li (distant_pre (distant_new L (fin3 w)) (mkBB (fin3 lo) (fin3 hi))) r u = Ok (fin3 (vunit w), L, XFin 1, v) /\
    v_p0 v = r /\ i_p (v_p1 v) = fin3 q /\ (exists k, 0 <= k /\ q = vadd p (vscale k (vunit w))) /\
    (in_box lo hi q -> vadd p q = vadd lo hi /\
       (vx q = vx lo \/ vx q = vx hi) /\ (vy q = vy lo \/ vy q = vy hi) /\ (vz q = vz lo \/ vz q = vz hi)) /\
    (* every point of the box towards the light is between the surface point and the far end *)
    (forall s, 0 <= s -> in_box lo hi (at_t p (vunit w) s) -> exists k, 0 <= k <= 1 /\ at_t p (vsub q p) k = at_t p (vunit w) s).
Proof.
  intros T lo hi w p L r u X Y Z Hw Hp Er. rewrite (distant_sample_fin lo hi w p X Y Z Hw T L r u Er).
  eexists; exists (far_end lo hi w p). split; [reflexivity|]. cbn [v_p0 v_p1 i_p]. split; [reflexivity|]. split; [reflexivity|].
  assert (Dp : 0 <= diagonal lo hi) by apply vnorm_nonneg.
  pose proof (far_dist lo hi w p Hw) as Fd.
  split; [exists (diagonal lo hi); auto|]. split.
  - intros Hq. destruct (far_apart lo hi p _ X Y Z Hp Hq) as (A & _ & B); auto. lra.
  - intros s Hs Hin.
    assert (Es : forall k, vsub (at_t p (vunit w) k) p = vscale k (vunit w)) by (intros; apply V3_eq; unfold at_t, vsub, vadd; vproj; ring).
    assert (Ds : forall k, vdot (vsub (at_t p (vunit w) k) p) (vsub (at_t p (vunit w) k) p) = k * k).
    { intros k. rewrite Es. replace (vdot (vscale k (vunit w)) (vscale k (vunit w))) with (k * k * vdot (vunit w) (vunit w)) by (unfold vdot, vscale; vproj; ring).
      rewrite vunit_dot by auto. ring. }
    assert (Dd : diagonal lo hi * diagonal lo hi = vdot (vsub hi lo) (vsub hi lo)) by (unfold diagonal, vdist; apply vnorm_sq).
    assert (Le : s <= diagonal lo hi).
    { destruct (Rle_dec s (diagonal lo hi)); auto. exfalso.
      destruct (far_apart lo hi p _ X Y Z Hp Hin) as (_ & B & _); rewrite Ds in *; nra. }
    destruct (Req_dec (diagonal lo hi) 0) as [D0|D0].
    + exists 0. split; [lra|]. assert (s = 0) by lra. subst s. apply V3_eq; unfold at_t, vadd, vscale; vproj; ring.
    + exists (s / diagonal lo hi). split.
      * split; [apply Rmult_le_pos; [auto|left; apply Rinv_0_lt_compat; lra]|].
        apply (Rmult_le_reg_r (diagonal lo hi)); [lra|]. unfold Rdiv. rewrite Rmult_assoc, Rinv_l by auto. lra.
      * apply V3_eq; unfold at_t, far_end, vsub, vadd, vscale; vproj; field; auto.
Qed.
Print Assumptions C49_far_end.

(** The shadow ray itself stops at 0.9999 of that distance: with no error at the surface point it tests every
    occluder in the scene but those in the last ten-thousandth of the way to the far end. *)
Theorem C49_covered_partial : forall (T : Type) (lo hi w p : rv) (L : V3 XR) (r : interaction XR T) u n,
  vx lo <= vx hi -> vy lo <= vy hi -> vz lo <= vz hi -> w <> v0 -> in_box lo hi p ->
  i_p r = fin3 p -> i_p_err r = fin3 v0 -> i_n r = fin3 n ->
  exists v d, distant_sample_li (distant_pre (distant_new L (fin3 w)) (mkBB (fin3 lo) (fin3 hi))) r u = Ok (fin3 (vunit w), L, XFin 1, v) /\
    spawn_ray_to (v_p0 v) (v_p1 v) = mkRay (fin3 p) (fin3 d) (XFin (9999 / 10000)) /\
    (forall s, 0 <= s <= 9999 / 10000 * vdist hi lo -> 0 < vdist hi lo ->
       exists t, 0 <= t <= 9999 / 10000 /\ at_t p d t = at_t p (vunit w) s).
Proof.
  intros T lo hi w p L r u n X Y Z Hw Hp Er Ee En. rewrite (distant_sample_fin lo hi w p X Y Z Hw T L r u Er).
  eexists; exists (vscale (vdist hi lo) (vunit w)). split; [reflexivity|]. cbn [v_p0 v_p1]. split.
  - unfold spawn_ray_to. cbn [i_p]. rewrite Er, v3sub_fin.
    assert (OC : forall a b, offset_coord (F := XR) a b = b) by (intros; unfold offset_coord; xsimp; destruct (xlt _ _); auto; destruct (xlt _ _); auto).
    assert (O : forall (i : interaction XR T) q m d, i_p i = fin3 q -> i_p_err i = fin3 v0 -> i_n i = fin3 m -> offset_ray_origin i d = fin3 q).
    { intros i q m d Eq E0 Em. unfold offset_ray_origin. rewrite Eq, E0, Em.
      replace (v3dot (v3abs (fin3 m)) (fin3 v0)) with (XFin 0)
        by (unfold v3dot, v3abs, fin3, v0; vproj; xsimp; cbn [xabs xmul xadd]; apply (f_equal XFin); ring).
      rewrite v3scale_fin.
      assert (E1 : forall b : bool, v3add (fin3 q) (if b then v3scale (fin3 (vscale 0 m)) (fneg f1) else fin3 (vscale 0 m)) = fin3 q).
      { intros []; unfold f1; xsimp; cbn [xneg]; rewrite ?v3scale_fin, v3add_fin; f_equal; apply V3_eq; unfold vadd, vscale; vproj; ring. }
      cbv zeta. rewrite E1, !OC. reflexivity. }
    rewrite (O r p n) by auto. rewrite (O _ (far_end lo hi w p) v0) by reflexivity.
    rewrite v3sub_fin.
    replace (fsub f1 (flit 1 4)) with (XFin (9999 / 10000)).
    2: { unfold f1, flit. xsimp. cbn [Z.of_nat]. rewrite xdiv_fin by (apply not_0_IZR; discriminate). cbn [xsub xadd xneg]. apply (f_equal XFin). simpl. lra. }
    f_equal. f_equal. apply V3_eq; unfold far_end, diagonal, vsub, vadd, vscale; vproj; ring.
  - intros s Hs Hd. exists (s / vdist hi lo). split.
    + split; [apply Rmult_le_pos; [lra|left; apply Rinv_0_lt_compat; lra]|].
      apply (Rmult_le_reg_r (vdist hi lo)); [lra|]. unfold Rdiv at 1. rewrite Rmult_assoc, Rinv_l by lra. lra.
    + apply V3_eq; unfold at_t, vadd, vscale; vproj; field; lra.
Qed.
Print Assumptions C49_covered_partial.

(** False as stated, in binary32 itself: two triangles, one with a corner at the origin, the other cutting
    off the opposite corner of the unit cube; the light shines along the diagonal.  A ray hits the first
    triangle close to the origin; the second triangle is between the hit and the light, yet the light is
    found unoccluded: the shadow ray ends at 0.9999 of the diagonal and the occluder is at 0.99995. *)
Section W49.
  Context (L : Libm b32).
  Definition lone_pair (a b : triangle b32) (t : bool) : shape b32 bool := triangle_shape (if t then a else b).
  Definition pair_scene (a b : triangle b32) (w : V3 b32) : res (scene b32 bool (container b32 bool)) :=
    construct (lone_pair a b) (fun _ => mkArea v3zero (lone_pair a b true))
      (fun l => let! c := simple_new (lone_pair a b) l in Ok (simple_container (lone_pair a b) c))
      (performed [CShape true; CShape false; CLight (fun bb => distant_as_light (distant_pre (distant_new v3zero w) bb))]).
  (** what the first light's shadow ray from the hit of [r] finds, and what a ray without end finds *)
  Definition shadow_and_sky (sc : scene b32 bool (container b32 bool)) (r : ray b32) : res (bool * bool) :=
    let! hit := c_intersect (sc_shapes sc) r in
    match hit, sc_lights sc with
    | Some i, l :: _ =>
        let! s := l_sample_li l i (mkP2 f0 f0) in
        let '(wi, _, _, v) := s in
        let! free := unoccluded (c_intersect_p (sc_shapes sc)) v in
        let! sky := c_intersect_p (sc_shapes sc) (spawn_ray i wi) in
        Ok (free, sky)
    | _, _ => Panic
    end.
  Definition w_floor : triangle b32 := mkTri (mk3 v3zero (mkV3 f1 f0 f0) (mkV3 f0 f1 f0)) None false.
  Definition w_near1 : b32 := fsub f1 (flit 15 5).
  Definition w_corner : triangle b32 := mkTri (mk3 (mkV3 f1 f1 w_near1) (mkV3 f1 w_near1 f1) (mkV3 w_near1 f1 f1)) None false.
  Definition w_diag : V3 b32 := mkV3 f1 f1 f1.
  Definition w_down : ray b32 := mkRay (mkV3 (flit 1 6) (flit 1 6) f1) (mkV3 f0 f0 (fofZ (-1))) finf.
  Lemma w_shadow : match pair_scene w_floor w_corner w_diag with Ok sc => shadow_and_sky sc w_down = Ok (true, true) | _ => False end.
  Proof. vm_compute. reflexivity. Qed.
End W49.

Theorem C49_refuted : forall L : Libm b32, exists (a b : triangle b32) (w : V3 b32) (sc : scene b32 bool (container b32 bool)) (r : ray b32),
  pair_scene L a b w = Ok sc /\
  (* not occluded, although a shape is in the way *)
  shadow_and_sky L sc r = Ok (true, true).
Proof.
  intros L. pose proof (w_shadow L) as W. destruct (pair_scene L (w_floor L) (w_corner L) (w_diag L)) as [sc| |] eqn:E; try contradiction.
  exists (w_floor L), (w_corner L), (w_diag L), sc, (w_down L). split; [exact E|exact W].
Qed.
Print Assumptions C49_refuted.

(** ** C62 *)

(** The direction with polar angle [th] and azimuth [ph], and the integral of a function of directions over
    the whole sphere. *)
Definition direction (th ph : R) : rv := mkV3 (sin th * cos ph) (sin th * sin ph) (cos th).
Definition sphere_integral_is (f : R -> R -> R) (v : R) : Prop :=
  exists g, (forall ph, integral_is (fun th => f th ph * sin th) 0 PI (g ph)) /\ integral_is g 0 (2 * PI) v.

Lemma integral_const_sphere k : sphere_integral_is (fun _ _ => k) (4 * PI * k).
Proof.
  pose proof PI_RGT_0 as HP. exists (fun _ => 2 * k). split.
  - intros _. replace (2 * k) with (- k * cos PI - (- k * cos 0)) by (rewrite cos_PI, cos_0; ring).
    apply (integral_antiderivative (fun th => k * sin th) (fun th => - k * cos th)); [lra| |].
    + intros x _. apply continuity_pt_mult; [apply continuity_pt_const; intros ? ?; reflexivity|apply continuity_sin].
    + intros x _. replace (k * sin x) with (- k * - sin x) by ring. apply (derivable_pt_lim_scal cos (- k) x (- sin x)). apply derivable_pt_lim_cos.
  - replace (4 * PI * k) with (2 * k * (2 * PI) - 2 * k * 0) by ring.
    apply (integral_antiderivative (fun _ => 2 * k) (fun x => 2 * k * x)); [lra| |].
    + intros x _. apply continuity_pt_const. intros ? ?. reflexivity.
    + intros x _. pose proof (derivable_pt_lim_scal id (2 * k) x 1 (derivable_pt_lim_id x)) as D. rewrite Rmult_1_r in D. exact D.
Qed.

(** What the code reports is the reciprocal of the area for every direction: a density over the surface
    (area times density is 1), which over directions integrates to 4 pi / area. *)
Theorem C62_reported_partial : forall (T : Type) (me : T) (a : area_light XR T) (A : R) (r : interaction XR T),
  sh_area (al_shape a) = XFin A -> 0 < A ->
  exists f, (forall th ph, l_pdf_li (area_as_light me a) r (fin3 (direction th ph)) = XFin (f th ph)) /\
    (forall th ph, A * f th ph = 1) /\ sphere_integral_is f (4 * PI / A).
Proof.
  intros T me a A r E HA. exists (fun _ _ => / A). split; [|split].
  - intros th ph. cbn [area_as_light l_pdf_li]. unfold sh_pdf. rewrite E. unfold f1. xsimp. rewrite xdiv_fin by lra. apply (f_equal XFin). unfold Rdiv. ring.
  - intros _ _. apply Rinv_r. lra.
  - apply integral_const_sphere.
Qed.
Print Assumptions C62_reported_partial.

(** The sample of an area light carries the pdf that [pdf_li] reports for its direction. *)
Theorem C62_consistent : forall (F T : Type) (FO : FOps F) (me : T) (a : area_light F T) (r : interaction F T) u wi l pdf v,
  l_sample_li (area_as_light me a) r u = Ok (wi, l, pdf, v) -> pdf = l_pdf_li (area_as_light me a) r wi.
Proof.
  intros F T FO me a r u wi l pdf v. cbn [area_as_light l_sample_li l_pdf_li]. unfold area_sample_li.
  destruct (sh_sample_ref _ _ _) as [s| |]; cbn [rbind]; congruence.
Qed.
Print Assumptions C62_consistent.

(** Not a density over directions: the triangle light (0,0,0), (1,0,0), (0,1,0), seen from (0,0,1), reports
    pdf 2 straight up, where a ray does not meet it, and its pdf integrates to 8 pi. *)
Theorem C62_refuted : exists (v : tri rv) (p up : rv) (a : area_light XR unit) (r : interaction XR unit) (f : R -> R -> R) (m : R),
  al_shape a = triangle_shape (mkTri (mk3 (fin3 (t0 v)) (fin3 (t1 v)) (fin3 (t2 v))) None false) /\ i_p r = fin3 p /\
  (* a direction that misses the light *)
  vnorm up = 1 /\ (forall t b0 b1 b2, 0 <= t -> weights b0 b1 b2 -> comb v b0 b1 b2 <> at_t p up t) /\
  sh_intersect_p (al_shape a) (mkRay (fin3 p) (fin3 up) (XInf false)) = Ok false /\
  l_pdf_li (area_as_light tt a) r (fin3 up) = XFin 2 /\
  (* the total over all directions *)
  (forall th ph, l_pdf_li (area_as_light tt a) r (fin3 (direction th ph)) = XFin (f th ph)) /\ sphere_integral_is f m /\ m <> 1.
Proof.
  set (v := mk3 v0 (mkV3 1 0 0) (mkV3 0 1 0) : tri rv). set (s := mkTri (mk3 (fin3 (t0 v)) (fin3 (t1 v)) (fin3 (t2 v))) None false).
  set (a := mkArea (v3zero (F := XR)) (triangle_shape (T := unit) s)). set (p := mkV3 0 0 1 : rv).
  set (r := mkI (fin3 p) v3zero (mkP2 f0 f0) v3zero v3zero v3zero v3zero v3zero None : interaction XR unit).
  assert (A : sh_area (al_shape a) = XFin (1 / 2)).
  { unfold a. cbn [al_shape triangle_shape sh_area]. destruct (C40_area_pdf unit v None false r v3zero) as [Ea _]. fold s in Ea. rewrite Ea. apply (f_equal XFin).
    rewrite tri_area_cross. unfold tnormal, v. cbn [t0 t1 t2].
    replace (vcross (vsub (mkV3 1 0 0) v0) (vsub (mkV3 0 1 0) v0)) with (mkV3 0 0 1 : rv) by (apply V3_eq; unfold vcross, vsub, v0; vproj; ring).
    unfold vnorm, vdot. vproj. replace (0 * 0 + 0 * 0 + 1 * 1) with 1 by ring. rewrite sqrt_1. lra. }
  destruct (C62_reported_partial unit tt a (1 / 2) r A) as (f & Hf & Hd & Hi); [lra|].
  exists v, p, (mkV3 0 0 1), a, r, f, (4 * PI / (1 / 2)).
  split; [reflexivity|]. split; [reflexivity|]. split; [unfold vnorm, vdot; vproj; replace (0 * 0 + 0 * 0 + 1 * 1) with 1 by ring; apply sqrt_1|].
  assert (Miss : forall t b0 b1 b2, 0 <= t -> weights b0 b1 b2 -> comb v b0 b1 b2 <> at_t p (mkV3 0 0 1) t).
  { intros t b0 b1 b2 Ht _ E. apply (f_equal (fun q : rv => vz q)) in E. unfold at_t, comb, p, v, v0, vadd, vscale in E. cbn [t0 t1 t2] in E. revert E; vproj. lra. }
  split; [exact Miss|]. split.
  { assert (Hu : (mkV3 0 0 1 : rv) <> v0) by (intros E; apply (f_equal (fun q : rv => vz q)) in E; unfold v0 in E; revert E; vproj; lra).
    unfold a. cbn [al_shape triangle_shape sh_intersect_p]. rewrite (C38_triangle XR unit).
    destruct (C37_no_panic unit v None false p (mkV3 0 0 1) (XInf false) Hu) as (x & E). fold s in E. rewrite E.
    destruct x as [[i t]|]; auto. exfalso.
    destruct (C37_hit_is_real unit v None false p (mkV3 0 0 1) (XInf false) i t Hu eq_refl E) as (x & b0 & b1 & b2 & _ & Hx & _ & W & _ & C & _).
    apply (Miss x b0 b1 b2); auto. lra. }
  split.
  { cbn [area_as_light l_pdf_li]. unfold sh_pdf. rewrite A. unfold f1. xsimp. rewrite xdiv_fin by lra. apply (f_equal XFin). field. }
  split; [exact Hf|]. split; [exact Hi|]. pose proof PI_RGT_0 as H0. pose proof PI2_1 as H1. unfold PI2 in H1. lra.
Qed.
Print Assumptions C62_refuted.

(** ** C63 *)

(** Triangles can be sampled, in every arithmetic. *)
Theorem C63_triangle_partial : forall (F T : Type) (FO : FOps F) (me : T) (l : V3 F) (s : triangle F) (r : interaction F T) u,
  exists wi e pdf v, l_sample_li (area_as_light me (mkArea l (triangle_shape s))) r u = Ok (wi, e, pdf, v).
Proof. intros. repeat eexists. Qed.
Print Assumptions C63_triangle_partial.

(** No light built from a sphere can be sampled: [Sphere::sample] is not implemented. *)
Theorem C63_sphere_panics : forall (F D T : Type) (FO : FOps F) (FD : FOps D) (LK : F64Link F D) (me : T) (l : V3 F) (s : sphere F)
    (r : interaction F T) u,
  l_sample_li (area_as_light me (mkArea l (sphere_shape s))) r u = Panic.
Proof. reflexivity. Qed.

Theorem C63_refuted : exists (s : sphere XR) (r : interaction XR unit) (u : P2 XR),
  sp_center s = fin3 v0 /\ sp_radius s = XFin 1 /\ i_p r = fin3 (mkV3 3 0 0) /\ u = mkP2 (XFin (1 / 2)) (XFin (1 / 2)) /\
  l_sample_li (area_as_light tt (mkArea (spectrum_of f1) (sphere_shape s))) r u = Panic.
Proof.
  exists (mkSphere (fin3 v0) (XFin 1)), (mkI (fin3 (mkV3 3 0 0)) v3zero (mkP2 f0 f0) v3zero v3zero v3zero v3zero v3zero None),
    (mkP2 (XFin (1 / 2)) (XFin (1 / 2))).
  repeat split; reflexivity.
Qed.
Print Assumptions C63_refuted.

(** ** Examples *)

(** C48: two lights, a unit sphere, an area light of the sphere around (4,0,0), added in mixed order. *)
Definition ex_sh (t : bool) : shape XR bool := sphere_shape (mkSphere (fin3 (if t then v0 else mkV3 4 0 0)) (XFin 1)).
Definition ex_al (t : bool) : area_light XR bool := mkArea (spectrum_of f1) (ex_sh t).
Definition ex_sun (x : R) (bb : bbox3 XR) : light XR bool := distant_as_light (distant_pre (distant_new v3zero (fin3 (mkV3 x 0 0))) bb).
Example C48_example : exists bb c sc,
  construct ex_sh ex_al (simple_new ex_sh) (performed [CLight (ex_sun 1); CArea false; CShape true; CLight (ex_sun 2)]) = Ok sc /\
  sc_lights sc = [ex_sun 1 bb; ex_sun 2 bb; area_as_light false (ex_al false)] /\
  simple_new ex_sh [true; false] = Ok c /\ sc_shapes sc = c /\
  box_in (sh_bbox (ex_sh true)) bb /\ box_in (sh_bbox (ex_sh false)) bb.
Proof.
  set (cs := [CLight (ex_sun 1); CArea false; CShape true; CLight (ex_sun 2)]).
  assert (N : forall t, box_nnan (sh_bbox (ex_sh t))).
  { intros t. unfold ex_sh. cbn [sphere_shape sh_bbox]. unfold sp_bbox. cbn [sp_center sp_radius].
    apply box_nnan_alt. split; [apply v3min_nnan|apply v3max_nnan]; destruct t; repeat split; reflexivity. }
  destruct (C48 XR bool _ XR_FLaws ex_sh ex_al _ (simple_new ex_sh) cs) as (bb & H1 & H2 & _ & E).
  - intros s _. apply N.
  - intros a _. apply N.
  - destruct (simple_new ex_sh [true; false]) as [c| |] eqn:Es; [|discriminate|discriminate].
    exists bb, c, (mkScene [ex_sun 1 bb; ex_sun 2 bb; area_as_light false (ex_al false)] c).
    split; [|split; [reflexivity|split; [reflexivity|split; [reflexivity|]]]].
    + rewrite E. change (added_shapes cs ++ added_areas cs) with [true; false]. rewrite Es. reflexivity.
    + split; [apply H1; left; reflexivity|]. apply (H2 false). left; reflexivity.
Qed.

(** C49: in the unit cube, from the corner 0 along the diagonal, the far end is the opposite corner; *)
Lemma ex_111 : mkV3 1 1 1 <> v0.
Proof. intros E. apply (f_equal (fun q : rv => vx q)) in E. unfold v0 in E. revert E; vproj. lra. Qed.
Example C49_example_corner : far_end v0 (mkV3 1 1 1) (mkV3 1 1 1) v0 = mkV3 1 1 1.
Proof.
  assert (S : vnorm (mkV3 1 1 1) <> 0) by (pose proof (vnorm_pos _ ex_111); lra).
  unfold far_end, diagonal, vdist. replace (vsub (mkV3 1 1 1) v0) with (mkV3 1 1 1 : rv) by (apply V3_eq; unfold vsub, v0; vproj; ring).
  apply V3_eq; unfold vunit, vadd, vscale, v0; vproj; field; auto.
Qed.
(** from its centre along (1,0,0) it is 1/2 + sqrt 3 along the axis, outside. *)
Example C49_example_outside : forall T (r : interaction XR T) u, i_p r = fin3 (mkV3 (1/2) (1/2) (1/2)) ->
  exists v q, distant_sample_li (distant_pre (distant_new v3zero (fin3 (mkV3 1 0 0))) (mkBB (fin3 v0) (fin3 (mkV3 1 1 1)))) r u =
      Ok (fin3 (vunit (mkV3 1 0 0)), v3zero, XFin 1, v) /\
    i_p (v_p1 v) = fin3 q /\ ~ in_box v0 (mkV3 1 1 1) q.
Proof.
  intros T r u Er.
  destruct (C49_far_end T v0 (mkV3 1 1 1) (mkV3 1 0 0) (mkV3 (1/2) (1/2) (1/2)) v3zero r u) as (v & q & E & _ & Eq & (k & _ & Ek) & Hin & _);
    try (unfold v0; vproj; lra); auto.
  - intros E. apply (f_equal (fun q : rv => vx q)) in E. unfold v0 in E. revert E; vproj. lra.
  - unfold in_box, v0; vproj; lra.
  - exists v, q. split; [exact E|]. split; [exact Eq|]. intros Hq.
    assert (Y : vy q = 1 / 2) by (rewrite Ek; unfold vadd, vscale, vunit; cbn [vscale vx vy vz]; rewrite !Rmult_0_r; lra).
    destruct (Hin Hq) as (_ & _ & [B|B] & _); revert B; rewrite Y; unfold v0; vproj; lra.
Qed.
