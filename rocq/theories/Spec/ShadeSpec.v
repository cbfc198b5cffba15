(** * Specification vocabulary for shading: real directions, component-wise facts about spectra *)
From Coq Require Import Reals.
From Verif Require Import Model.Num Model.NumX Model.Vector Spec.RVec.
Local Open Scope R_scope.

(** a direction of length one *)
Definition unit_dir (w : rv) : Prop := vnorm w = 1.

(** every channel satisfies [P] *)
Definition each (P : R -> Prop) (s : rv) : Prop := P (vx s) /\ P (vy s) /\ P (vz s).
Definition each2 (P : R -> R -> Prop) (s t : rv) : Prop := P (vx s) (vx t) /\ P (vy s) (vy t) /\ P (vz s) (vz t).

(** component-wise product *)
Definition vmul (a b : rv) : rv := mkV3 (vx a * vx b) (vy a * vy b) (vz a * vz b).

(** [s], [t], [n] are pairwise perpendicular unit vectors *)
Definition orthonormal (s t n : rv) : Prop :=
  vdot s s = 1 /\ vdot t t = 1 /\ vdot n n = 1 /\ vdot s t = 0 /\ vdot s n = 0 /\ vdot t n = 0.

(** the point of the unit sphere with polar angle [theta] and azimuth [phi] *)
Definition sph (theta phi : R) : rv := mkV3 (sin theta * cos phi) (sin theta * sin phi) (cos theta).
