(** * Specification vocabulary: what stands between two points *)
From Coq Require Import Reals List.
From Verif Require Import Model.Num Model.NumX Model.Vector Model.Interaction Model.Shape Model.Sphere Model.Triangle.
From Verif Require Import Spec.RVec Spec.BoxSpec Spec.ShapeSpec Spec.SelfSpec Proofs.XBase.
Import ListNotations.
Local Open Scope R_scope.

(** a ball or a triangle of a scene *)
Inductive thing : Type := Ball (c : rv) (r : R) | Trig (v : tri rv) (vn : option (tri (V3 XR))) (rev : bool).

Definition shape_of (x : thing) : shape XR thing :=
  match x with
  | Ball c r => sphere_shape (mkSphere (fin3 c) (XFin r))
  | Trig v vn rev => triangle_shape (mkTri (mk3 (fin3 (t0 v)) (fin3 (t1 v)) (fin3 (t2 v))) vn rev)
  end.

(** the surface: a sphere or a filled triangle *)
Definition on_thing (x : thing) (p : rv) : Prop :=
  match x with Ball c r => on_sphere c r p | Trig v _ _ => in_triangle v p end.

Definition real_thing (x : thing) : Prop := match x with Ball _ r => 0 < r | Trig _ _ _ => True end.

(** the point of the way from [a] to [b] at the fraction [s] *)
Definition between (a b : rv) (s : R) : rv := vadd (vscale (1 - s) a) (vscale s b).

(** The point of a surface at [p] with the error bound [e] and the normal [n], moved off the surface to the side of [q] *)
Definition lifted (p e n q : rv) : rv :=
  vadd p (vscale (if Rlt_dec (vdot n (vsub q p)) 0 then - thickness n e else thickness n e) n).

(** The way from [a] to [b] crosses [x], if at all, neither in its first nor in its last ten-thousandth; a triangle
    neither too near to the ends nor too much along its plane for the test of C37 ([R0] bounds the coordinates of the
    triangle as seen from the two ends). *)
Definition cut_well (a b : rv) (x : thing) : Prop :=
  forall s, 0 < s < 1 -> on_thing x (between a b s) ->
    1 / 10000 < s < 9999 / 10000 /\
    match x with
    | Ball _ _ => True
    | Trig v _ _ => exists R0,
        (forall o k, In o [a; b] -> Rabs (v3get (vsub (t0 v) o) k) <= R0 /\ Rabs (v3get (vsub (t1 v) o) k) <= R0 /\ Rabs (v3get (vsub (t2 v) o) k) <= R0) /\
        26 / 1000000 * (R0 * R0 * R0) < Rmin s (1 - s) * Rabs (vdot (vcross (vsub (t1 v) (t0 v)) (vsub (t2 v) (t0 v))) (vsub b a))
    end.
