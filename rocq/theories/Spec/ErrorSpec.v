(** * Points known up to an error (C100, C101) *)
From Coq Require Import Reals.
From Flocq Require Import Core BinarySingleNaN.
From Verif Require Import Model.NumB Model.Vector Model.Triangle Spec.RVec.
Local Open Scope R_scope.

(** the real numbers in a vector of binary32 numbers *)
Definition reals (v : V3 b32) : rv := mkV3 (B2R (vx v)) (B2R (vy v)) (B2R (vz v)).
Definition reals3 (v : tri (V3 b32)) : tri rv := mk3 (reals (t0 v)) (reals (t1 v)) (reals (t2 v)).

(** numbers below 2^-100 are not told apart *)
Definition tiny : R := bpow radix2 (-100).

(** [q] is in the box of half size [err] around [p] *)
Definition in_box (p err : V3 b32) (q : rv) : Prop :=
  Rabs (B2R (vx p) - vx q) <= B2R (vx err) + tiny /\
  Rabs (B2R (vy p) - vy q) <= B2R (vy err) + tiny /\
  Rabs (B2R (vz p) - vz q) <= B2R (vz err) + tiny.
(** the same with a relative error of [k] in addition *)
Definition in_box_rel (k : R) (p err : V3 b32) (q : rv) : Prop :=
  Rabs (B2R (vx p) - vx q) <= B2R (vx err) + k * Rabs (B2R (vx p)) + tiny /\
  Rabs (B2R (vy p) - vy q) <= B2R (vy err) + k * Rabs (B2R (vy p)) + tiny /\
  Rabs (B2R (vz p) - vz q) <= B2R (vz err) + k * Rabs (B2R (vz p)) + tiny.
