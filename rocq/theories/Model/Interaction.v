(** * interaction.rs: surface interactions and the rays spawned from them

    [T] is the type standing for [Arc<Shape>] in the [shape] field.  Simplification: the methods
    [compute_scattering] and [le] (interaction.rs:64-78), which only forward to the shape, are in
    Model/Path.v. *)
From Coq Require Import ZArith List Bool.
From Verif Require Import Model.Num Model.Vector.
Local Open Scope Z_scope.

(** interaction.rs:11-23 *)
Record interaction (F T : Type) := mkI {
  i_p : V3 F;
  i_p_err : V3 F;
  i_uv : P2 F;
  i_n : V3 F;
  i_sn : V3 F;
  i_dpdu : V3 F;
  i_dpdv : V3 F;
  i_wo : V3 F;
  i_shape : option T;
}.
Arguments mkI {F T}. Arguments i_p {F T}. Arguments i_p_err {F T}. Arguments i_uv {F T}.
Arguments i_n {F T}. Arguments i_sn {F T}. Arguments i_dpdu {F T}. Arguments i_dpdv {F T}.
Arguments i_wo {F T}. Arguments i_shape {F T}.

(** [i.shape = s] *)
Definition i_with_shape {F T U} (i : interaction F T) (s : option U) : interaction F U :=
  mkI (i_p i) (i_p_err i) (i_uv i) (i_n i) (i_sn i) (i_dpdu i) (i_dpdv i) (i_wo i) s.

Section I.
  Context {F T : Type} {O : FOps F}.
  Local Open Scope f_scope.

  (** #[derive(Default)] *)
  Definition i_default : interaction F T :=
    mkI v3zero v3zero (mkP2 f0 f0) v3zero v3zero v3zero v3zero v3zero None.

  (** interaction.rs:34-40: one round of the loop *)
  Definition offset_coord (offset p : F) : F :=
    if offset >? f0 then fnext_up p
    else if offset <? f0 then fnext_down p
    else p.

  (** interaction.rs:26-42 [offset_ray_origin] *)
  Definition offset_ray_origin (i : interaction F T) (v : V3 F) : V3 F :=
    let n := i_n i in
    let d := v3dot (v3abs n) (i_p_err i) in
    let offset := v3scale n d in
    let offset := if v3dot n v <? f0 then v3scale offset (- f1) else offset in
    let p := v3add (i_p i) offset in
    mkV3 (offset_coord (vx offset) (vx p)) (offset_coord (vy offset) (vy p))
         (offset_coord (vz offset) (vz p)).

  (** interaction.rs:44-50 [spawn_ray] *)
  Definition spawn_ray (i : interaction F T) (direction : V3 F) : ray F :=
    mkRay (offset_ray_origin i direction) direction finf.

  (** interaction.rs:52-62 [spawn_ray_to]; [1. - 0.0001] is computed in f32 *)
  Definition spawn_ray_to (i j : interaction F T) : ray F :=
    let d := v3sub (i_p j) (i_p i) in
    let origin := offset_ray_origin i d in
    let p := offset_ray_origin j (v3neg d) in
    mkRay origin (v3sub p origin) (f1 - flit 1 4).
End I.
