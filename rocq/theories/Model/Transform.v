(** * transform.rs *)
From Coq Require Import ZArith List Bool.
From Verif Require Import Model.Num Model.Vector Model.BBox Model.Matrix Model.Interaction.
Local Open Scope Z_scope.

(** transform.rs:10-13 *)
Record transform (F : Type) := mkT { t_m : mat F; t_inv : mat F }.
Arguments mkT {F}. Arguments t_m {F}. Arguments t_inv {F}.

Section T.
  Context {F} {O : FOps F}.
  Local Open Scope f_scope.

  (** transform.rs:15-32 [From<Matrix>], [From<[[f32; 4]; 4]>] *)
  Definition t_from (b : build) (m : mat F) : res (transform F) :=
    let! i := mat_inverse b m in Ok (mkT m i).

  (** transform.rs:35-50 [translate] *)
  Definition t_translate (x y z : F) : transform F :=
    mkT (mkMat f1 f0 f0 x
               f0 f1 f0 y
               f0 f0 f1 z
               f0 f0 f0 f1)
        (mkMat f1 f0 f0 (- x)
               f0 f1 f0 (- y)
               f0 f0 f1 (- z)
               f0 f0 f0 f1).

  (** transform.rs:52-67 [scale] *)
  Definition t_scale (x y z : F) : transform F :=
    mkT (mkMat x f0 f0 f0
               f0 y f0 f0
               f0 f0 z f0
               f0 f0 f0 f1)
        (mkMat (f1 / x) f0 f0 f0
               f0 (f1 / y) f0 f0
               f0 f0 (f1 / z) f0
               f0 f0 f0 f1).

  (** transform.rs:179-181 [compute_sin_cos_in_degree] *)
  Definition sin_cos_in_degree (deg : F) : F * F :=
    (fsin (fto_radians deg), fcos (fto_radians deg)).

  (** transform.rs:69-81 [rotate_x] *)
  Definition t_rotate_x (theta : F) : transform F :=
    let '(s, c) := sin_cos_in_degree theta in
    let m := mkMat f1 f0 f0 f0
                   f0 c (- s) f0
                   f0 s c f0
                   f0 f0 f0 f1 in
    mkT m (mat_transpose m).

  (** transform.rs:83-95 [rotate_y] *)
  Definition t_rotate_y (theta : F) : transform F :=
    let '(s, c) := sin_cos_in_degree theta in
    let m := mkMat c f0 s f0
                   f0 f1 f0 f0
                   (- s) f0 c f0
                   f0 f0 f0 f1 in
    mkT m (mat_transpose m).

  (** transform.rs:97-109 [rotate_z] *)
  Definition t_rotate_z (theta : F) : transform F :=
    let '(s, c) := sin_cos_in_degree theta in
    let m := mkMat c (- s) f0 f0
                   s c f0 f0
                   f0 f0 f1 f0
                   f0 f0 f0 f1 in
    mkT m (mat_transpose m).

  (** transform.rs:169-177 [Mul] *)
  Definition t_mul (s t : transform F) : transform F :=
    mkT (mat_mul (t_m s) (t_m t)) (mat_mul (t_inv t) (t_inv s)).

  (** transform.rs:112-122 [perspective] *)
  Definition t_perspective (b : build) (fov n f : F) : res (transform F) :=
    let p := mkMat f1 f0 f0 f0
                   f0 f1 f0 f0
                   f0 f0 (f / (f - n)) ((- f) * n / (f - n))
                   f0 f0 f1 f0 in
    let inv_tan_ang := f1 / ftan (fto_radians fov / f2) in
    let! tp := t_from b p in
    Ok (t_mul (t_scale inv_tan_ang inv_tan_ang f1) tp).

  (** transform.rs:125-141 [look_at] *)
  Definition t_look_at (b : build) (pos look up : V3 F) : res (transform F) :=
    let d := v3normalize (v3sub look pos) in
    let left := v3normalize (v3cross (v3normalize up) d) in
    let up := v3cross d left in
    let m := mkMat (vx left) (vx up) (vx d) (vx pos)
                   (vy left) (vy up) (vy d) (vy pos)
                   (vz left) (vz up) (vz d) (vz pos)
                   f0 f0 f0 f1 in
    let! i := mat_inverse b m in Ok (mkT m i).

  (** transform.rs:150-152 [inverse] *)
  Definition t_inverse (t : transform F) : transform F := mkT (t_inv t) (t_m t).

  (** transform.rs:195-203 [Transformable for Vector3f] *)
  Definition xf_vector (m mi : mat F) (v : V3 F) : V3 F :=
    mkV3 (m00 m * vx v + m01 m * vy v + m02 m * vz v)
         (m10 m * vx v + m11 m * vy v + m12 m * vz v)
         (m20 m * vx v + m21 m * vy v + m22 m * vz v).

  (** transform.rs:205-213 [Transformable for Normal3f] *)
  Definition xf_normal (m mi : mat F) (v : V3 F) : V3 F :=
    mkV3 (m00 mi * vx v + m10 mi * vy v + m20 mi * vz v)
         (m01 mi * vx v + m11 mi * vy v + m21 mi * vz v)
         (m02 mi * vx v + m12 mi * vy v + m22 mi * vz v).

  (** transform.rs:215-230 [Transformable for Point3f] *)
  Definition xf_point (b : build) (m mi : mat F) (p : V3 F) : res (V3 F) :=
    let xp := m00 m * vx p + m01 m * vy p + m02 m * vz p + m03 m in
    let yp := m10 m * vx p + m11 m * vy p + m12 m * vz p + m13 m in
    let zp := m20 m * vx p + m21 m * vy p + m22 m * vz p + m23 m in
    let wp := m30 m * vx p + m31 m * vy p + m32 m * vz p + m33 m in
    let q := mkV3 xp yp zp in
    let r := if wp =? f1 then q else v3divs q wp in
    match b with
    | Debug => if wp =? f0 then Panic else Ok r
    | Release => Ok r
    end.

  (** transform.rs:232-239 [Transformable for BBox3f] *)
  Definition xf_bbox (b : build) (m mi : mat F) (x : bbox3 F) : res (bbox3 F) :=
    let! lo := xf_point b m mi (bmin x) in
    let! hi := xf_point b m mi (bmax x) in
    Ok (bbox_new lo hi).

  (** transform.rs:241-249 [Transformable for Ray] *)
  Definition xf_ray (b : build) (m mi : mat F) (r : ray F) : res (ray F) :=
    let! o := xf_point b m mi (r_o r) in
    Ok (mkRay o (xf_vector m mi (r_d r)) (r_tmax r)).

  (** transform.rs:251-265 [Transformable for Interaction] *)
  Definition xf_interaction {T} (b : build) (m mi : mat F) (i : interaction F T)
    : res (interaction F T) :=
    let! p := xf_point b m mi (i_p i) in
    Ok (mkI p (xf_vector m mi (i_p_err i)) (i_uv i) (xf_normal m mi (i_n i))
            (xf_normal m mi (i_sn i)) (xf_vector m mi (i_dpdu i)) (xf_vector m mi (i_dpdv i))
            (xf_vector m mi (i_wo i)) (i_shape i)).

  (** transform.rs:154-160, 183-193 [apply], [inverse_apply] at the types used *)
  Definition t_vector (t : transform F) := xf_vector (t_m t) (t_inv t).
  Definition t_vector_inv (t : transform F) := xf_vector (t_inv t) (t_m t).
  Definition t_normal (t : transform F) := xf_normal (t_m t) (t_inv t).
  Definition t_normal_inv (t : transform F) := xf_normal (t_inv t) (t_m t).
  Definition t_point b (t : transform F) := xf_point b (t_m t) (t_inv t).
  Definition t_point_inv b (t : transform F) := xf_point b (t_inv t) (t_m t).
  Definition t_bbox b (t : transform F) := xf_bbox b (t_m t) (t_inv t).
  Definition t_bbox_inv b (t : transform F) := xf_bbox b (t_inv t) (t_m t).
  Definition t_ray b (t : transform F) := xf_ray b (t_m t) (t_inv t).
  Definition t_ray_inv b (t : transform F) := xf_ray b (t_inv t) (t_m t).
End T.
