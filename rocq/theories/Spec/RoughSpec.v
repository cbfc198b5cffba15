(** * Refraction through a rough surface: the geometry of one microfacet *)
From Coq Require Import Reals Bool.
From Flocq Require Import Core.Raux.
From Verif Require Import Model.Vector Spec.RVec.
Local Open Scope R_scope.

(** the index of refraction on the side of the surface a direction points to: [a] above, [b] below *)
Definition index_of (a b : R) (w : rv) : R := if Rlt_bool 0 (vz w) then a else b.

(** Light passes between the directions [o] and [i], on different sides of the surface, through a microfacet with the
    upward unit normal [h]: each direction sees the side of the microfacet that belongs to its side of the surface, and
    the directions, weighted with their indices, add up to a multiple of the normal (Snell's law). *)
Definition through_facet (a b : R) (h o i : rv) : Prop :=
  vdot h h = 1 /\ 0 < vz h /\ vz o * vz i < 0 /\ 0 < vz o * vdot o h /\ 0 < vz i * vdot i h /\
  exists k, vadd (vscale (index_of a b o) o) (vscale (index_of a b i) i) = vscale k h.

(** the GGX distribution of normals in its quadratic form, for an upward or downward unit normal *)
Definition ggx (ax ay : R) (h : rv) : R :=
  let q := vx h * vx h / (ax * ax) + vy h * vy h / (ay * ay) + vz h * vz h in
  1 / (PI * ax * ay * (q * q)).

(** Smith's shadowing of one direction, and of two together *)
Definition smith_lambda (ax ay : R) (w : rv) : R :=
  (sqrt (1 + (ax * ax * (vx w * vx w) + ay * ay * (vy w * vy w)) / (vz w * vz w)) - 1) / 2.
Definition smith1 (ax ay : R) (w : rv) : R := / (1 + smith_lambda ax ay w).
Definition smith2 (ax ay : R) (o i : rv) : R := / (1 + smith_lambda ax ay o + smith_lambda ax ay i).
