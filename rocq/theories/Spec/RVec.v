(** * Real vectors: the mathematics against which the geometric code is stated *)
From Coq Require Import Reals.
From Verif Require Import Model.Vector.
Local Open Scope R_scope.

Definition rv : Type := V3 R.
Definition v0 : rv := mkV3 0 0 0.
Definition vadd (a b : rv) : rv := mkV3 (vx a + vx b) (vy a + vy b) (vz a + vz b).
Definition vsub (a b : rv) : rv := mkV3 (vx a - vx b) (vy a - vy b) (vz a - vz b).
Definition vscale (k : R) (a : rv) : rv := mkV3 (k * vx a) (k * vy a) (k * vz a).
Definition vdot (a b : rv) : R := vx a * vx b + vy a * vy b + vz a * vz b.
Definition vcross (a b : rv) : rv :=
  mkV3 (vy a * vz b - vz a * vy b) (vz a * vx b - vx a * vz b) (vx a * vy b - vy a * vx b).
Definition vnorm (a : rv) : R := sqrt (vdot a a).
(** the unit vector in the direction of [a] *)
Definition vunit (a : rv) : rv := vscale (/ vnorm a) a.
Definition vdist (a b : rv) : R := vnorm (vsub a b).
