(** * Rough surfaces in scenes of moderate size (C70)

    Conditions, as in TameSpec, under which scenes with rough plastic, metal and glass are shown to be rendered
    without a panic. *)
From Coq Require Import ZArith List Bool.
From Flocq Require Import IEEE754.BinarySingleNaN.
From Verif Require Import Model.Num Model.NumB Model.Vector Model.Interaction Model.Shape Model.Sphere Model.Triangle
  Model.Texture Model.Material Model.Light Model.BBox Model.Scene.
From Verif Require Import Spec.TameSpec.
Local Open Scope Z_scope.

(** sine and cosine are between -1 and 1 and the sum of their squares, as computed, is at most 1.001; of infinite
    arguments and NaN both may be NaN *)
Definition fair_libm (L : Libm b32) : Prop := forall x,
  (is_finite x = false /\ is_nan (m_sin _ L x) = true /\ is_nan (m_cos _ L x) = true) \/
  (within 1 (m_sin _ L x) /\ within 1 (m_cos _ L x) /\
   Bleb (Bplus mode_NE (Bmult mode_NE (m_sin _ L x) (m_sin _ L x)) (Bmult mode_NE (m_cos _ L x) (m_cos _ L x)))
        (Bdiv mode_NE (Bof_Z 1001) (Bof_Z 1000)) = true).

Section R.
  Context (L : Libm b32).
  Local Existing Instance B32_FOps.

  (** surfaces of every material: values everywhere, roughness of any size or even NaN; the refractive index of
      glass is between 2/3 and 3/2 *)
  Inductive finish {T : Type} : material b32 T -> Prop :=
    | finish_matt kd : total kd -> finish (mat_lambertian kd)
    | finish_mirror kr : total kr -> finish (mat_mirror kr)
    | finish_plastic kd ks rough : total kd -> total ks -> total rough -> finish (mat_plastic kd ks rough)
    | finish_metal r eta k ru rv : total r -> total eta -> total k -> total ru -> total rv -> finish (mat_metal r eta k ru rv)
    | finish_glass kr kt eta ru rv : total kr -> total kt -> glassy L 3 2 eta -> total ru -> total rv -> finish (mat_glass kr kt eta ru rv).

  (** shapes with such surfaces; triangles are fair unless they are matt *)
  Inductive fit_any {L64 : Libm b64} {T : Type} : shape b32 T -> material b32 T -> Prop :=
    | any_fit s m : fit L (L64 := L64) s m -> fit_any s m
    | any_sphere s m : tame_sphere s -> finish m -> fit_any (sphere_shape (D := b64) s) m
    | any_triangle t m : fair_triangle L t -> finish m -> fit_any (triangle_shape t) m
    | any_lamp l t m : fair_triangle L t -> finish m -> fit_any (area_shape (mkArea l (triangle_shape t))) m.

  (** what is handed to the builder: as [smooth_plan], with surfaces of every material *)
  Record any_plan {L64 : Libm b64} {T : Type} (sh : T -> shape b32 T) (al : T -> area_light b32 T) (mat : T -> material b32 T) (b : builder b32 T) : Prop := {
    ap_some : (bd_shapes b ++ bd_areas b)%list <> nil;
    ap_count : Z.of_nat (length (bd_shapes b ++ bd_areas b)) < 2 ^ 64;
    ap_shapes : forall t, In t (bd_shapes b) -> fit_any (L64 := L64) (sh t) (mat t);
    ap_areas : forall t, In t (bd_areas b) -> sh t = area_shape (al t) /\ fit_any (L64 := L64) (sh t) (mat t) /\
      exists l tri, al t = mkArea l (triangle_shape tri) /\ tame_triangle L tri;
    ap_lights : forall q, In q (bd_lights b) -> plain_sun L q }.
End R.
