(** * Spheres, triangles and the functions on them, in real numbers *)
From Coq Require Import Reals.
From Verif Require Import Model.Vector Model.Triangle Spec.RVec.
Local Open Scope R_scope.

(** the sphere with centre [c] and radius [r] *)
Definition on_sphere (c : rv) (r : R) (p : rv) : Prop := vdist p c = Rabs r.

(** spherical coordinates: azimuth [phi], polar angle [theta] from the z axis *)
Definition spherical (r phi theta : R) : rv :=
  mkV3 (r * sin theta * cos phi) (r * sin theta * sin phi) (r * cos theta).

(** the point with barycentric coordinates [b0 b1 b2]; in the triangle when they are weights *)
Definition comb (v : tri rv) (b0 b1 b2 : R) : rv :=
  vadd (vadd (vscale b0 (t0 v)) (vscale b1 (t1 v))) (vscale b2 (t2 v)).
Definition weights (b0 b1 b2 : R) : Prop := 0 <= b0 /\ 0 <= b1 /\ 0 <= b2 /\ b0 + b1 + b2 = 1.
Definition in_triangle (v : tri rv) (p : rv) : Prop := exists b0 b1 b2, weights b0 b1 b2 /\ p = comb v b0 b1 b2.

(** area: half of base times height, the height measured from the foot of the perpendicular of
    [t2] on the line through [t0] and [t1] *)
Definition tri_area (v : tri rv) : R :=
  let u := vsub (t1 v) (t0 v) in
  let w := vsub (t2 v) (t0 v) in
  / 2 * vnorm u * vnorm (vsub w (vscale (vdot w u / vdot u u) u)).

(** derivative of a curve *)
Definition vderiv (f : R -> rv) (x : R) (l : rv) : Prop :=
  derivable_pt_lim (fun s => vx (f s)) x (vx l) /\ derivable_pt_lim (fun s => vy (f s)) x (vy l) /\
  derivable_pt_lim (fun s => vz (f s)) x (vz l).

(** a unit vector perpendicular to the plane of the triangle *)
Definition unit_normal_of (v : tri rv) (n : rv) : Prop :=
  vnorm n = 1 /\ vdot n (vsub (t1 v) (t0 v)) = 0 /\ vdot n (vsub (t2 v) (t0 v)) = 0.
