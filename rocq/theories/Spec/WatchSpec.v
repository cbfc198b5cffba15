(** * Rays on which containers must agree

    Vocabulary for C109: a container that refuses to answer for some rays, and rays that meet the
    shapes in no special way. *)
From Coq Require Import ZArith Reals List Bool.
From Verif Require Import Model.Num Model.NumX Model.Vector Model.BBox Model.Interaction Model.Shape Model.Container Model.KdTree Model.Scene.
From Verif Require Import Spec.RVec Spec.KdSpec Proofs.XBase.
Import ListNotations.
Local Open Scope R_scope.

(** Answers like [c] for the rays [ok] accepts and panics for all others.  A program that runs with this
    container traced accepted rays only. *)
Definition watched {F T} (ok : ray F -> bool) (c : container F T) : container F T :=
  mkCont (c_bbox c) (fun r => if ok r then c_intersect_p c r else Panic) (fun r => if ok r then c_intersect c r else Panic).

Definition with_container {F T} (sc : scene F T (container F T)) (c : container F T) : scene F T (container F T) :=
  mkScene (sc_lights sc) c.

(** A finite ray with a direction that does not run in the plane of a face of a shape's box and that does
    not meet two shapes at the same distance. *)
Definition clear_ray {T} (sh : T -> shape XR T) (l : list T) (r : ray XR) : Prop :=
  exists (o d : rv) (tmax : XR), r = mkRay (fin3 o) (fin3 d) tmax /\ d <> v0 /\ xis_nan tmax = false /\
  (forall a s, v3get d a = 0 -> In s l ->
     v3get (bmin (sh_bbox (sh s))) a <> XFin (v3get o a) /\ v3get (bmax (sh_bbox (sh s))) a <> XFin (v3get o a)) /\
  (forall s s' i i' t, In s l -> In s' l -> sh_intersect (sh s) r = Ok (Some (i, t)) -> sh_intersect (sh s') r = Ok (Some (i', t)) -> s = s').

(** The library's containers over a list of shapes *)
Inductive container_of {F T} {FO : FOps F} (sh : T -> shape F T) (m : build) (l : list T) : container F T -> Prop :=
| of_simple c : simple_new sh l = Ok c -> container_of sh m l (simple_container sh c)
| of_kd srt md c : sort_by_ok edge_cmp srt -> kd_new sh srt m l md = Ok c -> container_of sh m l (kd_container sh c).

(** For C115: a shape of [l] is in [l'] as well, or the ray does not meet it *)
Definition rest_missed {T} (sh : T -> shape XR T) (l l' : list T) (r : ray XR) : Prop :=
  forall s, In s l -> In s l' \/ sh_intersect (sh s) r = Ok None.
