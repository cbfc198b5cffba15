(** * Integrals over the area of a triangle (C107) *)
From Coq Require Import Reals.
From Verif Require Import Model.Vector Model.Triangle Spec.RVec Spec.ShapeSpec Spec.MeanSpec Spec.HemisphereSpec.
Local Open Scope R_scope.

(** the point [a] of the way from the third corner to the first and [c] of the way to the second *)
Definition corner_point (v : tri rv) (a c : R) : rv :=
  vadd (t2 v) (vadd (vscale a (vsub (t0 v) (t2 v))) (vscale c (vsub (t1 v) (t2 v)))).
(** the integral of [F] over the area of the triangle exists and is [x]; the area between lines [da] and [dc] apart is twice the triangle's times [da dc] *)
Definition over_triangle (v : tri rv) (F : rv -> rv) (x : rv) : Prop :=
  exists inner : R -> rv, (forall a, 0 < a < 1 -> vintegral (fun c => F (corner_point v a c)) 0 (1 - a) (inner a)) /\
    vintegral (fun a => vscale (2 * tri_area v) (inner a)) 0 1 x.
(** [F] is continuous on the triangle *)
Definition continuous_on (v : tri rv) (F : rv -> rv) : Prop := forall p eps, in_triangle v p -> 0 < eps ->
  exists delta, 0 < delta /\ forall q, in_triangle v q -> vdist p q < delta -> vdist (F p) (F q) < eps.
(** the power heuristic: the share of a way of sampling with density [p] beside one with density [q] *)
Definition share (p q : R) : R := p * p / (p * p + q * q).
