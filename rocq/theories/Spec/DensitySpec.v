(** * The density of a sampling map over a surface

    A uniform sample (a, b) of the unit square is mapped to a point (or unit direction) [f a b] of space.  By the change
    of variables formula, the image has density [g] per unit of surface (per unit of solid angle, on the unit sphere)
    when [f] is differentiable and one to one, covers the surface up to curves, and the surface element it spans,
    |df/da x df/db|, is 1 / g at every sample off some lines. *)
From Coq Require Import Reals.
From Verif Require Import Model.Vector Spec.RVec.
Local Open Scope R_scope.

(** [f] is differentiable at (a, b) with partial derivatives [p] and [q] *)
Definition differentiable_at (f : R -> R -> R) (a b p q : R) : Prop :=
  forall eps, 0 < eps -> exists del, 0 < del /\ forall h k, Rabs h < del -> Rabs k < del ->
    Rabs (f (a + h) (b + k) - f a b - (p * h + q * k)) <= eps * (Rabs h + Rabs k).

Definition derivative_at (f : R -> R -> rv) (a b : R) (da db : rv) : Prop :=
  differentiable_at (fun x y => vx (f x y)) a b (vx da) (vx db) /\
  differentiable_at (fun x y => vy (f x y)) a b (vy da) (vy db) /\
  differentiable_at (fun x y => vz (f x y)) a b (vz da) (vz db).

(** near [f a b] the image of uniform samples has density [g] *)
Definition density_at (f : R -> R -> rv) (a b g : R) : Prop :=
  exists da db, derivative_at f a b da db /\ vnorm (vcross da db) * g = 1.

(** on [dom] the map [f] is one to one *)
Definition one_to_one (dom : R -> R -> Prop) (f : R -> R -> rv) : Prop :=
  forall a b c d, dom a b -> dom c d -> f a b = f c d -> a = c /\ b = d.

(** [f] spreads the uniform samples of [dom] over [target] with density [g] *)
Definition spreads (dom : R -> R -> Prop) (f : R -> R -> rv) (target : rv -> Prop) (g : rv -> R) : Prop :=
  (forall a b, dom a b -> target (f a b) /\ density_at f a b (g (f a b))) /\ one_to_one dom f /\
  (forall w, target w -> exists a b, dom a b /\ f a b = w).

(** the open unit square without the lines b = 1/4, 1/2, 3/4 *)
Definition off_axes (a b : R) : Prop := 0 < a < 1 /\ 0 < b < 1 /\ b <> 1 / 4 /\ b <> 1 / 2 /\ b <> 3 / 4.
(** the open unit square without its diagonals *)
Definition off_diagonals (a b : R) : Prop := 0 < a < 1 /\ 0 < b < 1 /\ a <> b /\ a + b <> 1.
(** unit directions on the side of [wo], without those in the planes x = 0 and y = 0; without those with |x| = |y| *)
Definition side_off_axes (wo w : rv) : Prop := vdot w w = 1 /\ 0 < vz wo * vz w /\ vx w <> 0 /\ vy w <> 0.
Definition side_off_diagonals (wo w : rv) : Prop := vdot w w = 1 /\ 0 < vz wo * vz w /\ Rabs (vx w) <> Rabs (vy w).
