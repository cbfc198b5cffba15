(** * Bounds on the light a path can carry (C93) *)
From Coq Require Import ZArith Reals List.
From Verif Require Import Model.Num Model.NumX Model.Vector Model.BBox Model.Interaction Model.Container Model.Sampler Model.Triangle Model.Texture Model.Material Model.Light
  Model.Scene Model.Path.
From Verif Require Import Proofs.XBase Spec.RVec Spec.ShapeSpec Spec.RadianceSpec Spec.EstimatorSpec.
Local Open Scope R_scope.

(** every channel between 0 and [m] *)
Definition upto (m : R) (v : rv) : Prop := (0 <= vx v <= m) /\ (0 <= vy v <= m) /\ (0 <= vz v <= m).

Section P.
  Context {T ST : Type}.
  Variables (sm : sampler_ops XR ST) (teq : T -> T -> bool) (surf : T -> surface XR T) (sc : scene XR T (container XR T)).
  (** At the surfaces that a path can meet: nothing is sent on that is more than what comes; no surface emits more
      than [E], nor gets more than [D] from the lights directly. *)
  Record passive (E D : R) : Prop := {
    pa_weight : forall s i d wi f pdf flag s2 w, met sc i -> scatters sm teq surf sc s i d wi f pdf flag s2 -> weight_of i wi f pdf w -> upto 1 w;
    pa_emitted : forall i t w e, met sc i -> i_shape i = Some t -> sf_l (surf t) i w = fin3 e -> upto E e;
    pa_direct : forall s i d wi f pdf flag s2, met sc i -> scatters sm teq surf sc s i d wi f pdf flag s2 -> upto D d;
  }.
End P.

(** (20/19)^n, the most the luminance of the throughput can be after [n] rounds of roulette *)
Definition most (n : nat) : R := (20 / 19) ^ n.

(** The throughput at each surface that the path reaches, the first one included. *)
Fixpoint throughputs (beta : rv) (p : path) : list rv :=
  match p with
  | Miss => nil
  | Cut _ | Last _ _ => cons beta nil
  | Next _ _ w q _ p => cons beta (throughputs (vprod beta (vscale (/ q) w)) p)
  end.

(** ** Scenes of matt surfaces and mirrors *)

(** no channel above 1 *)
Definition pale (v : V3 XR) : Prop := exists r, v = fin3 r /\ vx r <= 1 /\ vy r <= 1 /\ vz r <= 1.
Inductive plain {T} : material XR T -> Prop :=
| plain_matt kd : yields pale kd -> plain (mat_lambertian kd)
| plain_mirror kr : yields pale kr -> plain (mat_mirror kr).

(** No light is brighter than [M] in any channel, no lamp larger than [A]. *)
Record lit_upto {T} (ob : T -> object T) (bd : builder XR T) (M A : R) : Prop := {
  lu_lights : forall f, In f (bd_lights bd) -> exists l w, f = distant (fin3 l) (fin3 w) /\ upto M l /\ w <> v0;
  lu_areas : forall t, In t (bd_areas bd) -> exists e, o_l (ob t) = fin3 e /\ upto M e /\ tri_area (o_v (ob t)) <= A;
}.
