(** * Vectors, points, normals, spectra, rays (vector.rs, vector_macro.rs, spectrum.rs, ray.rs, axis.rs)

    Simplification: Rust has four distinct structs of three f32 (Vector3f, Normal3f, Point3f,
    Spectrum) whose operators come from the same macros; the model uses one record [V3] for all. *)
From Coq Require Import ZArith List Bool.
From Verif Require Import Model.Num.
Local Open Scope Z_scope.

(** axis.rs:1-6 *)
Inductive axis := AX | AY | AZ.

(** axis.rs:10-16 *)
Definition axis_next (a : axis) : axis := match a with AX => AY | AY => AZ | AZ => AX end.

(** axis.rs:19-25 *)
Definition axis_prev (a : axis) : axis := match a with AX => AZ | AY => AX | AZ => AY end.

(** axis.rs:28-34 *)
Definition axis_others (a : axis) : axis * axis :=
  match a with AX => (AY, AZ) | AY => (AX, AZ) | AZ => (AX, AY) end.

(** vector.rs:4-8, 81-85, 100-104; spectrum.rs:4-8 *)
Record V3 (F : Type) := mkV3 { vx : F; vy : F; vz : F }.
Arguments mkV3 {F}. Arguments vx {F}. Arguments vy {F}. Arguments vz {F}.

(** vector.rs:145-148, 159-162 *)
Record P2 (T : Type) := mkP2 { px : T; py : T }.
Arguments mkP2 {T}. Arguments px {T}. Arguments py {T}.

Section V.
  Context {F} {O : FOps F}.
  Local Open Scope f_scope.

  Definition v3map2 (f : F -> F -> F) (a b : V3 F) : V3 F :=
    mkV3 (f (vx a) (vx b)) (f (vy a) (vy b)) (f (vz a) (vz b)).

  (** #[derive(Default)] *)
  Definition v3zero : V3 F := mkV3 f0 f0 f0.

  (** vector_macro.rs:119-140 [Add] *)
  Definition v3add : V3 F -> V3 F -> V3 F := v3map2 fadd.
  (** vector_macro.rs:142-163 [Sub] *)
  Definition v3sub : V3 F -> V3 F -> V3 F := v3map2 fsub.
  (** vector_macro.rs:165-186 [Mul] (Spectrum only) *)
  Definition v3mul : V3 F -> V3 F -> V3 F := v3map2 fmul.
  (** vector_macro.rs:188-209 [Div] (Spectrum only) *)
  Definition v3div : V3 F -> V3 F -> V3 F := v3map2 fdiv.

  (** vector_macro.rs:41-50 [Add<f32>] *)
  Definition v3adds (a : V3 F) (k : F) : V3 F := mkV3 (vx a + k) (vy a + k) (vz a + k).
  (** vector_macro.rs:60-69 [Sub<f32>] *)
  Definition v3subs (a : V3 F) (k : F) : V3 F := mkV3 (vx a - k) (vy a - k) (vz a - k).
  (** vector_macro.rs:79-88 [Mul<f32>] *)
  Definition v3scale (a : V3 F) (k : F) : V3 F := mkV3 (vx a * k) (vy a * k) (vz a * k).
  (** vector_macro.rs:98-107 [Div<f32>] *)
  Definition v3divs (a : V3 F) (k : F) : V3 F := mkV3 (vx a / k) (vy a / k) (vz a / k).
  (** vector_macro.rs:30-39 [Neg] *)
  Definition v3neg (a : V3 F) : V3 F := mkV3 (- vx a) (- vy a) (- vz a).

  (** vector_macro.rs:8-10 [length] *)
  Definition v3length (a : V3 F) : F := fsqrt (vx a * vx a + vy a * vy a + vz a * vz a).
  (** vector_macro.rs:12-18 [abs] *)
  Definition v3abs (a : V3 F) : V3 F := mkV3 (fabs (vx a)) (fabs (vy a)) (fabs (vz a)).
  (** vector_macro.rs:20-27 [normalize] *)
  Definition v3normalize (a : V3 F) : V3 F :=
    let l := v3length a in mkV3 (vx a / l) (vy a / l) (vz a / l).

  (** vector.rs:59-63, 65-69, 92-96 [dot], [dot_n], [Normal3f::dot] *)
  Definition v3dot (a b : V3 F) : F := vx a * vx b + vy a * vy b + vz a * vz b.
  (** vector.rs:71-77 [cross] *)
  Definition v3cross (a b : V3 F) : V3 F :=
    mkV3 (vy a * vz b - vz a * vy b) (vz a * vx b - vx a * vz b) (vx a * vy b - vy a * vx b).

  (** vector.rs:123-125 [Point3f::distance] *)
  Definition v3distance (a b : V3 F) : F := v3length (v3sub a b).

  (** vector_macro.rs:238-249 [Index<Axis>] *)
  Definition v3get (a : V3 F) (i : axis) : F :=
    match i with AX => vx a | AY => vy a | AZ => vz a end.
  Definition v3set (a : V3 F) (i : axis) (v : F) : V3 F :=
    match i with
    | AX => mkV3 v (vy a) (vz a)
    | AY => mkV3 (vx a) v (vz a)
    | AZ => mkV3 (vx a) (vy a) v
    end.

  (** vector.rs:40-46, 115-121 [permute] *)
  Definition v3permute (a : V3 F) (x y z : axis) : V3 F := mkV3 (v3get a x) (v3get a y) (v3get a z).

  (** vector.rs:127-133 [Point3f::min] and 135-141 [Point3f::max] *)
  Definition v3min : V3 F -> V3 F -> V3 F := v3map2 fmin.
  Definition v3max : V3 F -> V3 F -> V3 F := v3map2 fmax.

  (** vector.rs:18-24 [from_spherical_direction] *)
  Definition from_spherical_direction (sin_theta cos_theta phi : F) : V3 F :=
    mkV3 (sin_theta * fcos phi) (sin_theta * fsin phi) cos_theta.

  (** The match shared by vector.rs:28-33 and bbox.rs:40-45 *)
  Definition largest_axis (v : V3 F) : res axis :=
    match vx v >=? vy v, vx v >=? vz v, vy v >=? vz v with
    | true, true, _ => Ok AX
    | false, _, true => Ok AY
    | _, false, false => Ok AZ
    | _, _, _ => Panic
    end.

  (** vector.rs:26-34 [max_abs_axis] *)
  Definition max_abs_axis (v : V3 F) : res axis := largest_axis (v3abs v).

  (** vector.rs:36-38 [max_component] *)
  Definition max_component (v : V3 F) : F := fmax (fmax (vx v) (vy v)) (vz v).

  (** vector.rs:49-57 [construct_coordinate_system] *)
  Definition construct_coordinate_system (v : V3 F) : V3 F * V3 F :=
    let v1 :=
      if fabs (vx v) >? fabs (vy v)
      then v3divs (mkV3 (- vz v) f0 (vx v)) (fsqrt (vx v * vx v + vz v * vz v))
      else v3divs (mkV3 f0 (vz v) (- vy v)) (fsqrt (vy v * vy v + vz v * vz v)) in
    (v1, v3cross v v1).

  (** spectrum.rs:17-19 [is_black] *)
  Definition is_black (s : V3 F) : bool :=
    (vx s =? f0) && (vy s =? f0) && (vz s =? f0).

  (** spectrum.rs:21-25 [y] (luminance) *)
  Definition spectrum_y (s : V3 F) : F :=
    flit 212671 6 * vx s + flit 715160 6 * vy s + flit 72169 6 * vz s.

  (** spectrum.rs:48-52 [From<f32>] *)
  Definition spectrum_of (v : F) : V3 F := mkV3 v v v.

  (** spectrum.rs:27-33 [sqrt] *)
  Definition spectrum_sqrt (s : V3 F) : V3 F := mkV3 (fsqrt (vx s)) (fsqrt (vy s)) (fsqrt (vz s)).
End V.

(** ray.rs:5-9 *)
Record ray (F : Type) := mkRay { r_o : V3 F; r_d : V3 F; r_tmax : F }.
Arguments mkRay {F}. Arguments r_o {F}. Arguments r_d {F}. Arguments r_tmax {F}.

(** ray.rs:12-14 [position] *)
Definition ray_position {F} {O : FOps F} (r : ray F) (t : F) : V3 F :=
  v3add (r_o r) (v3scale (r_d r) t).

(** ray.rs:17-25 [Default] *)
Definition ray_default {F} {O : FOps F} : ray F := mkRay v3zero v3zero finf.
