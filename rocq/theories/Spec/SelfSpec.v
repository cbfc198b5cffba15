(** * Rays that leave a surface (C102) *)
From Coq Require Import Reals.
From Verif Require Import Model.Num Model.NumX Model.Vector Model.Common Model.Interaction Model.Sphere Model.Triangle Spec.RVec Spec.BoxSpec Proofs.XBase.
Local Open Scope R_scope.

(** half the extent, in direction [n], of the box with half sides [e] *)
Definition thickness (n e : rv) : R := Rabs (vx n) * vx e + Rabs (vy n) * vy e + Rabs (vz n) * vz e.

(** [i] is a point of the triangle [v]: a hit of some ray or a sample *)
Inductive of_triangle {T} (v : tri rv) vn rev : interaction XR T -> Prop :=
| hit_triangle o d tmax i t : d <> v0 -> xis_nan tmax = false ->
    tr_intersect (mkTri (mk3 (fin3 (t0 v)) (fin3 (t1 v)) (fin3 (t2 v))) vn rev) (mkRay (fin3 o) (fin3 d) tmax) = Ok (Some (i, t)) ->
    of_triangle v vn rev i
| sample_triangle x y : 0 <= x <= 1 -> 0 <= y <= 1 -> vcross (vsub (t1 v) (t0 v)) (vsub (t2 v) (t0 v)) <> v0 ->
    of_triangle v vn rev (tr_sample (mkTri (mk3 (fin3 (t0 v)) (fin3 (t1 v)) (fin3 (t2 v))) vn rev) (mkP2 (XFin x) (XFin y))).
(** [i] is a hit of the ball with centre [c] and radius [r] *)
Inductive of_ball {T} (c : rv) (r : R) : interaction XR T -> Prop :=
| hit_ball o d tmax i t : d <> v0 ->
    sp_intersect (mkSphere (fin3 c) (XFin r)) (mkRay (fin3 o) (fin3 d) tmax) = Some (i, t) -> of_ball c r i.
