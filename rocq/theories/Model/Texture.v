(** * texture.rs; a texture is its [evaluate] method, a mapping its [map] method *)
From Coq Require Import ZArith List Bool.
From Verif Require Import Model.Num Model.Vector Model.Interaction Model.Matrix Model.Transform.
Local Open Scope Z_scope.

Section S.
  Context {F T : Type} {FO : FOps F}.
  Local Open Scope f_scope.

  Definition texture (A : Type) : Type := interaction F T -> res A.

  (** texture.rs:23-38 *)
  Definition constant_texture {A} (v : A) : texture A := fun _ => Ok v.

  (** texture.rs:58-65 *)
  Definition checkerboard {A} (m : build) (map : interaction F T -> P2 F) (tex1 tex2 : A) : texture A :=
    fun i =>
      let st := map i in
      let! s := i64_of m (fto_i64 (ffloor (px st)) + fto_i64 (ffloor (py st)))%Z in
      Ok (if (Z.rem s 2 =? 0)%Z then tex1 else tex2).

  (** texture.rs:86-93 *)
  Definition checkerboard3 {A} (m : build) (map : interaction F T -> res (V3 F)) (tex1 tex2 : A) : texture A :=
    fun i =>
      let! p := map i in
      let! s := i64_of m (fto_i64 (ffloor (vx p)) + fto_i64 (ffloor (vy p)))%Z in
      let! s := i64_of m (s + fto_i64 (ffloor (vz p)))%Z in
      Ok (if (Z.rem s 2 =? 0)%Z then tex1 else tex2).

  (** texture.rs:110-115 *)
  Definition uv_mapping (su sv du dv : F) (i : interaction F T) : P2 F :=
    mkP2 (px (i_uv i) * su + du) (py (i_uv i) * sv + dv).

  (** texture.rs:129-131 *)
  Definition identity_mapping (m : build) (t : transform F) (i : interaction F T) : res (V3 F) :=
    t_point m t (i_p i).
End S.
Arguments texture F T A : clear implicits.
