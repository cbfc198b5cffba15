(** * Boxes: containment, points, enlarged boxes *)
From Coq Require Import ZArith Reals List Bool.
From Verif Require Import Model.Num Model.NumX Model.Vector Model.BBox Spec.RVec.
Local Open Scope R_scope.

(** All six corner coordinates are numbers (not NaN). *)
Definition box_nnan {F} {O : FOps F} (b : bbox3 F) : Prop :=
  (fis_nan (vx (bmin b)) = false /\ fis_nan (vy (bmin b)) = false /\ fis_nan (vz (bmin b)) = false) /\
  (fis_nan (vx (bmax b)) = false /\ fis_nan (vy (bmax b)) = false /\ fis_nan (vz (bmax b)) = false).

(** Coordinatewise order on points, and inclusion of boxes by their corners. *)
Definition v3le {F} {O : FOps F} (a b : V3 F) : Prop :=
  fle (vx a) (vx b) = true /\ fle (vy a) (vy b) = true /\ fle (vz a) (vz b) = true.
Definition box_in {F} {O : FOps F} (a b : bbox3 F) : Prop := v3le (bmin b) (bmin a) /\ v3le (bmax a) (bmax b).
Definition pt_in {F} {O : FOps F} (p : V3 F) (b : bbox3 F) : Prop := v3le (bmin b) p /\ v3le p (bmax b).
Definition v3nnan {F} {O : FOps F} (p : V3 F) : Prop :=
  fis_nan (vx p) = false /\ fis_nan (vy p) = false /\ fis_nan (vz p) = false.

(** Real boxes, and real boxes enlarged by a margin [e] per coordinate. *)
Definition in_box (lo hi p : rv) : Prop :=
  vx lo <= vx p <= vx hi /\ vy lo <= vy p <= vy hi /\ vz lo <= vz p <= vz hi.
Definition in_box_margin (lo hi p e : rv) : Prop :=
  vx lo - vx e <= vx p <= vx hi + vx e /\ vy lo - vy e <= vy p <= vy hi + vy e /\
  vz lo - vz e <= vz p <= vz hi + vz e.

(** The point of a ray at parameter [t]. *)
Definition at_t (o d : rv) (t : R) : rv := vadd o (vscale t d).
