(** * Scenes of moderate size (C70)

    The conditions under which a scene with triangles is shown to be rendered without a panic.  They only bound
    the numbers a scene is made of; besides the constructors of shapes, lights and cameras only vector arithmetic
    is used. *)
From Coq Require Import ZArith List Bool.
From Flocq Require Import IEEE754.BinarySingleNaN.
From Verif Require Import Model.Num Model.NumB Model.Vector Model.Interaction Model.Shape Model.Sphere Model.Triangle Model.Matrix Model.Transform
  Model.Camera Model.Texture Model.Material Model.Light Model.BBox Model.Scene.
Local Open Scope Z_scope.

(** |x| <= z *)
Definition within (z : Z) (x : b32) : Prop := Bleb (Babs x) (Bof_Z z) = true.
Definition within3 (z : Z) (v : V3 b32) : Prop := within z (vx v) /\ within z (vy v) /\ within z (vz v).

(** no component is NaN, or all three are *)
Definition steady (d : V3 b32) : Prop :=
  (is_nan (vx d) = false /\ is_nan (vy d) = false /\ is_nan (vz d) = false) \/
  (is_nan (vx d) = true /\ is_nan (vy d) = true /\ is_nan (vz d) = true).

(** sines and cosines of finite numbers are between -1 and 1 *)
Definition tame_libm (L : Libm b32) : Prop :=
  forall x, is_finite x = true -> within 1 (m_sin _ L x) /\ within 1 (m_cos _ L x).

Section T.
  Context (L : Libm b32).
  Local Existing Instance B32_FOps.

  (** the computed length is not zero *)
  Definition long (v : V3 b32) : Prop := Bltb f0 (v3length v) = true.

  (** radius between 2^-20 and 2^20, centre at most 2^20 away from the origin on each axis *)
  Record tame_sphere (s : sphere b32) : Prop := {
    ts_center : within3 (2 ^ 20) (sp_center s);
    ts_small : Bleb (Bdiv mode_NE (Bof_Z 1) (Bof_Z (2 ^ 20))) (sp_radius s) = true;
    ts_large : Bleb (sp_radius s) (Bof_Z (2 ^ 20)) = true }.

  (** no vertex normals, vertices at most 2^20 away from the origin on each axis, not degenerate: neither the
      first edge nor the cross product of two edges, as computed, is zero *)
  Record tame_triangle (t : triangle b32) : Prop := {
    tt_flat : tr_vn t = None;
    tt_0 : within3 (2 ^ 20) (t0 (tr_v t));
    tt_1 : within3 (2 ^ 20) (t1 (tr_v t));
    tt_2 : within3 (2 ^ 20) (t2 (tr_v t));
    tt_edge : long (v3sub (v3sub (t1 (tr_v t)) (t2 (tr_v t))) (v3sub (t0 (tr_v t)) (t2 (tr_v t))));
    tt_cross2 : long (v3cross (v3sub (t0 (tr_v t)) (t2 (tr_v t))) (v3sub (t1 (tr_v t)) (t2 (tr_v t))));
    tt_cross0 : long (v3cross (v3sub (t1 (tr_v t)) (t0 (tr_v t))) (v3sub (t2 (tr_v t)) (t0 (tr_v t)))) }.

  (** triangles whose edge and cross product, as computed, are at least 2^-50 long *)
  Record fair_triangle (t : triangle b32) : Prop := {
    ft_tame : tame_triangle t;
    ft_edge : Bleb (Bdiv mode_NE (Bof_Z 1) (Bof_Z (2 ^ 50))) (v3length (v3sub (v3sub (t1 (tr_v t)) (t2 (tr_v t))) (v3sub (t0 (tr_v t)) (t2 (tr_v t))))) = true;
    ft_cross2 : Bleb (Bdiv mode_NE (Bof_Z 1) (Bof_Z (2 ^ 50))) (v3length (v3cross (v3sub (t0 (tr_v t)) (t2 (tr_v t))) (v3sub (t1 (tr_v t)) (t2 (tr_v t))))) = true }.

  (** the shapes: spheres, triangles and triangular lamps *)
  Inductive tame_shape {L64 : Libm b64} {T : Type} : shape b32 T -> Prop :=
    | tame_sp s : tame_sphere s -> tame_shape (sphere_shape (D := b64) s)
    | tame_tr t : tame_triangle t -> tame_shape (triangle_shape t)
    | tame_lamp l t : tame_triangle t -> tame_shape (area_shape (mkArea l (triangle_shape t))).

  (** matt surfaces with a colour everywhere *)
  Definition matt {T : Type} (m : material b32 T) : Prop :=
    exists kd, (forall i, exists v, kd i = Ok v) /\ m = mat_lambertian kd.

  (** smooth surfaces: mirrors, plastic, metal and glass without roughness, with values everywhere; the refractive
      index of glass is between [b/a] and [a/b] *)
  Definition total {T A : Type} (x : texture b32 T A) : Prop := forall i, exists v, x i = Ok v.
  Definition zero_everywhere {T : Type} (x : texture b32 T b32) : Prop := forall i, exists v, x i = Ok v /\ feq v f0 = true.
  Definition glassy (a b : Z) {T : Type} (x : texture b32 T b32) : Prop :=
    forall i, exists v, x i = Ok v /\ fle (fdiv (fofZ b) (fofZ a)) v = true /\ fle v (fdiv (fofZ a) (fofZ b)) = true.
  Inductive smooth (a b : Z) {T : Type} : material b32 T -> Prop :=
    | smooth_mirror kr : total kr -> smooth a b (mat_mirror kr)
    | smooth_plastic kd ks rough : total kd -> total ks -> zero_everywhere rough -> smooth a b (mat_plastic kd ks rough)
    | smooth_metal r eta k ru rv : total r -> total eta -> total k -> zero_everywhere ru -> zero_everywhere rv -> smooth a b (mat_metal r eta k ru rv)
    | smooth_glass kr kt eta ru rv : total kr -> total kt -> glassy a b eta -> zero_everywhere ru -> zero_everywhere rv -> smooth a b (mat_glass kr kt eta ru rv).

  (** a tame shape that is matt, or a smooth one; refractive indices are between 2/3 and 3/2 on spheres and between
      2/5 and 5/2 on triangles *)
  Inductive fit {L64 : Libm b64} {T : Type} : shape b32 T -> material b32 T -> Prop :=
    | fit_matt s m : tame_shape (L64 := L64) s -> matt m -> fit s m
    | fit_sphere s m : tame_sphere s -> smooth 3 2 m -> fit (sphere_shape (D := b64) s) m
    | fit_triangle t m : fair_triangle t -> smooth 5 2 m -> fit (triangle_shape t) m
    | fit_lamp l t m : fair_triangle t -> smooth 5 2 m -> fit (area_shape (mkArea l (triangle_shape t))) m.

  (** the lights: triangular lamps, and distant lights around a scene of radius at most 2^24 *)
  Inductive tame_light {T : Type} : light b32 T -> Prop :=
    | tame_sun d : within3 2 (dl_w d) -> within (2 ^ 24) (dl_radius d) -> tame_light (distant_as_light d)
    | tame_area me l t : tame_triangle t -> tame_light (area_as_light me (mkArea l (triangle_shape t))).

  (** distant lights before the scene is known: any radiance, any finite direction whose computed length is not zero *)
  Inductive plain_sun {T : Type} : (bbox3 b32 -> light b32 T) -> Prop :=
    | plain_sun_at (l w : V3 b32) : is_finite (vx w) = true -> is_finite (vy w) = true -> is_finite (vz w) = true -> long w ->
        plain_sun (fun b => distant_as_light (distant_pre (distant_new l w) b)).

  (** what is handed to the builder: at least one shape; shapes and triangular lamps that are matt or smooth; distant lights *)
  Record smooth_plan {L64 : Libm b64} {T : Type} (sh : T -> shape b32 T) (al : T -> area_light b32 T) (mat : T -> material b32 T) (b : builder b32 T) : Prop := {
    pl_some : (bd_shapes b ++ bd_areas b)%list <> nil;
    pl_count : Z.of_nat (length (bd_shapes b ++ bd_areas b)) < 2 ^ 64;
    pl_shapes : forall t, In t (bd_shapes b) -> fit (L64 := L64) (sh t) (mat t);
    pl_areas : forall t, In t (bd_areas b) -> sh t = area_shape (al t) /\ fit (L64 := L64) (sh t) (mat t) /\
      exists l tri, al t = mkArea l (triangle_shape tri) /\ tame_triangle tri;
    pl_lights : forall q, In q (bd_lights b) -> plain_sun q }.

  (** cameras at which all rays have the same depth, not below 2^-60, before they are turned into the world *)
  Record tame_camera (c : perspective_camera b32) : Prop := {
    tc_z : let m := t_m (c_raster_to_camera c) in feq (m20 m) f0 = true /\ feq (m21 m) f0 = true /\ is_finite (m22 m) = true;
    tc_w : let m := t_m (c_raster_to_camera c) in feq (m30 m) f0 = true /\ feq (m31 m) f0 = true /\ is_finite (m32 m) = true;
    tc_depth : let m := t_m (c_raster_to_camera c) in
      Bleb (Bdiv mode_NE (Bof_Z 1) (Bof_Z (2 ^ 60))) (Babs (fdiv (m23 m) (m33 m))) = true;
    tc_world : let m := t_m (c_camera_to_world c) in
      within3 (2 ^ 20) (mkV3 (m00 m) (m01 m) (m02 m)) /\ within3 (2 ^ 20) (mkV3 (m10 m) (m11 m) (m12 m)) /\
      within3 (2 ^ 20) (mkV3 (m20 m) (m21 m) (m22 m)) }.

  (** tame cameras that stretch directions at most 2^9-fold *)
  Record calm_camera (c : perspective_camera b32) : Prop := {
    cc_tame : tame_camera c;
    cc_world : let m := t_m (c_camera_to_world c) in
      within3 (2 ^ 9) (mkV3 (m00 m) (m01 m) (m02 m)) /\ within3 (2 ^ 9) (mkV3 (m10 m) (m11 m) (m12 m)) /\
      within3 (2 ^ 9) (mkV3 (m20 m) (m21 m) (m22 m)) }.

  (** cameras whose points never end up at infinity; debug builds check this *)
  Record upright_camera (c : perspective_camera b32) : Prop := {
    uc_raster : feq (m33 (t_m (c_raster_to_camera c))) f0 = false;
    uc_world : let m := t_m (c_camera_to_world c) in is_finite (m30 m) = true /\ is_finite (m31 m) = true /\ is_finite (m32 m) = true /\ feq (m33 m) f0 = false }.
End T.
