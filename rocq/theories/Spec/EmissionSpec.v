(** * The front of a triangle, and patterns *)
From Coq Require Import ZArith Reals Bool.
From Verif Require Import Model.Vector Model.Triangle Spec.RVec Spec.ShapeSpec.
Local Open Scope R_scope.

(** The direction a triangle faces: the cross product of its edges, or its opposite if it is reversed. *)
Definition facing (v : tri rv) (rev : bool) : rv :=
  let n := vcross (vsub (t1 v) (t0 v)) (vsub (t2 v) (t0 v)) in if rev then vscale (-1) n else n.

(** Positive in front of the triangle, negative behind it, zero in its plane. *)
Definition height (v : tri rv) (rev : bool) (p : rv) : R := vdot (vsub p (t0 v)) (facing v rev).
