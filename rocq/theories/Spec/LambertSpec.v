(** * Matt bodies under distant lights: Lambert's law *)
From Coq Require Import Reals List.
From Verif Require Import Model.Num Model.NumX Model.Vector Model.BBox Model.Interaction Model.Shape Model.Sphere Model.Triangle Model.Container
  Model.Texture Model.Material Model.Light Model.Scene Model.Path.
From Verif Require Import Spec.RVec Spec.ShapeSpec Spec.RadianceSpec Spec.EstimatorSpec Proofs.XBase.
Import ListNotations.
Local Open Scope R_scope.

(** balls and flat triangles, and the points they consist of *)
Inductive body := Ball (c : rv) (r : R) | Facet (v : tri rv).
Definition occupies (b : body) (q : rv) : Prop := match b with Ball c r => on_sphere c r q | Facet v => in_triangle v q end.
Definition body_ok (b : body) : Prop := match b with Ball _ r => 0 < r | Facet _ => True end.

(** the normal on the side of [v] *)
Definition turned (n v : rv) : rv := if Rle_dec 0 (vdot n v) then n else vscale (-1) n.
(** Lambert's law: reflectance over pi, times the radiance, times the cosine on the lit side *)
Definition lambert (rho light : rv) (cosine : R) : rv := vscale (Rmax 0 cosine / PI) (vprod rho light).

(** ** The scene: bodies of reflectance [rho], and lights given by radiance and direction *)
Section S.
  Context {T : Type}.
  Variables (bod : T -> body) (rho : T -> rv).
  Definition body_shape (t : T) : shape XR T :=
    match bod t with
    | Ball c r => sphere_shape (D := XR) (mkSphere (fin3 c) (XFin r))
    | Facet v => triangle_shape (fin_tri v None false)
    end.
  Definition matt_surf (t : T) : surface XR T := mkSurf (mat_lambertian (constant_texture (fin3 (rho t)))) (fun _ _ => v3zero).
  Definition sun (q : rv * rv) (bb : bbox3 XR) : light XR T := distant_as_light (distant_pre (distant_new (fin3 (fst q)) (fin3 (snd q))) bb).
  Definition in_simple (l : list T) : res (container XR T) := let! c := simple_new body_shape l in Ok (simple_container body_shape c).
  Definition sunny (suns : list (rv * rv)) (l : list T) : builder XR T := mkBuilder (map sun suns) l [].
End S.
