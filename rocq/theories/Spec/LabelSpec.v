(** * What the label of a surface component promises

    Vocabulary for C110.  The bits are those of reflection.rs:6-12. *)
From Coq Require Import ZArith Reals List Bool.
From Verif Require Import Model.Num Model.NumX Model.Vector Model.Interaction Model.Reflection Model.Texture Model.Material.
From Verif Require Import Spec.RVec Spec.ShapeSpec Spec.ShadeSpec Proofs.XBase.
Import ListNotations.
Local Open Scope R_scope.

Definition says_reflection (flag : Z) : bool := Z.testbit flag 0.
Definition says_transmission (flag : Z) : bool := Z.testbit flag 1.
Definition says_specular (flag : Z) : bool := Z.testbit flag 4.

(** A component is labelled as reflecting or as transmitting, not both.  A specular one cannot be
    evaluated: it is black for given directions.  The value that one that is not specular gives for a direction it
    has sampled is the value it has there.  A sampled direction is on the side of the outgoing one just if
    the component is labelled as reflecting. *)
Definition truthful (x : bxdf XR) : Prop :=
  says_reflection (bx_flag x) = negb (says_transmission (bx_flag x)) /\
  (says_specular (bx_flag x) = true -> forall wo wi, bx_f x wo wi = mkV3 (XFin 0) (XFin 0) (XFin 0) /\ bx_pdf x wo wi = XFin 0) /\
  (says_specular (bx_flag x) = false -> forall wo u wi f p, bx_sample_f x wo u = (wi, f, p) -> p <> XFin 0 -> bx_f x wo wi = f) /\
  (forall (wo w : rv) u f p, unit_dir wo -> vz wo <> 0 -> bx_sample_f x (fin3 wo) u = (fin3 w, f, p) -> p <> XFin 0 ->
     (says_reflection (bx_flag x) = true <-> 0 < vz wo * vz w)).

(** The materials of the library, at interaction [i]; glass has an index of refraction above 0 *)
Inductive made_by {T} (i : interaction XR T) : bsdf XR -> Prop :=
| made_matt kd b : mat_lambertian kd i = Ok b -> made_by i b
| made_mirror kr b : mat_mirror kr i = Ok b -> made_by i b
| made_plastic kd ks ro b : mat_plastic kd ks ro i = Ok b -> made_by i b
| made_metal r eta k ru rv b : mat_metal r eta k ru rv i = Ok b -> made_by i b
| made_glass kr kt eta ru rv e b : eta i = Ok (XFin e) -> 0 < e -> mat_glass kr kt eta ru rv i = Ok b -> made_by i b.
