(** * Integrals over the directions on one side of a surface (C106) *)
From Coq Require Import Reals.
From Verif Require Import Model.Vector Spec.RVec Spec.MeanSpec.
Local Open Scope R_scope.

Definition orthonormal (s t u : rv) : Prop :=
  vdot s s = 1 /\ vdot t t = 1 /\ vdot u u = 1 /\ vdot s t = 0 /\ vdot s u = 0 /\ vdot t u = 0.
(** the direction at angle [theta] from [u], turned by [phi] from [s] towards [t] *)
Definition towards (s t u : rv) (theta phi : R) : rv :=
  vadd (vadd (vscale (sin theta * cos phi) s) (vscale (sin theta * sin phi) t)) (vscale (cos theta) u).
Definition vintegral (g : R -> rv) (a b : R) (x : rv) : Prop :=
  integral (fun u => vx (g u)) a b (vx x) /\ integral (fun u => vy (g u)) a b (vy x) /\ integral (fun u => vz (g u)) a b (vz x).
(** the integral of [F] over the solid angle of the directions on the side of [u] exists and is [x] *)
Definition over_hemisphere (s t u : rv) (F : rv -> rv) (x : rv) : Prop :=
  exists inner : R -> rv, (forall theta, 0 < theta < PI / 2 -> vintegral (fun phi => F (towards s t u theta phi)) 0 (2 * PI) (inner theta)) /\
    vintegral (fun theta => vscale (sin theta) (inner theta)) 0 (PI / 2) x.
Definition above (u w : rv) : Prop := vdot w w = 1 /\ 0 <= vdot w u.
(** [L] is continuous on the directions on the side of [u] *)
Definition continuous_above (u : rv) (L : rv -> rv) : Prop := forall p eps, above u p -> 0 < eps ->
  exists delta, 0 < delta /\ forall q, above u q -> vdist p q < delta -> vdist (L p) (L q) < eps.
