(** * Another origin and another unit of length *)
From Coq Require Import Reals List.
From Verif Require Import Model.Num Model.NumX Model.Vector Model.BBox Model.Interaction Model.Shape Model.Sphere Model.Triangle Model.Container Model.Light Model.Scene Model.Path.
From Verif Require Import Spec.RVec.
Import ListNotations.
Local Open Scope R_scope.

(** a length in the new unit, a coordinate from the new origin *)
Definition stretch (k : R) (x : XR) : XR := match x with XFin r => XFin (k * r) | _ => x end.
Definition shift (k a : R) (x : XR) : XR := match x with XFin r => XFin (k * r + a) | _ => x end.
Definition stretch3 (k : R) (v : V3 XR) : V3 XR := mkV3 (stretch k (vx v)) (stretch k (vy v)) (stretch k (vz v)).
Definition shift3 (k : R) (a : rv) (v : V3 XR) : V3 XR := mkV3 (shift k (vx a) (vx v)) (shift k (vy a) (vy v)) (shift k (vz a) (vz v)).

(** balls and triangles, the latter possibly with normals at the vertices, and the same ones written down anew *)
Inductive solid := Round (s : sphere XR) | Flat (s : triangle XR).
Definition moved (k : R) (a : rv) (s : solid) : solid :=
  match s with
  | Round s => Round (mkSphere (shift3 k a (sp_center s)) (stretch k (sp_radius s)))
  | Flat s => Flat (mkTri (tmap (shift3 k a) (tr_v s)) (tr_vn s) (tr_rev s))
  end.
Definition is_round (s : solid) : Prop := match s with Round _ => True | Flat _ => False end.

Section S.
  Context {T : Type}.
  Definition solid_shape (s : solid) : shape XR T := match s with Round s => sphere_shape (D := XR) s | Flat s => triangle_shape s end.
  (** a surface that reads neither the place of a hit nor lengths: only texture coordinates, normals and directions *)
  Definition alike (i j : interaction XR T) : Prop :=
    i_uv i = i_uv j /\ i_n i = i_n j /\ i_sn i = i_sn j /\ v3normalize (i_dpdu i) = v3normalize (i_dpdu j) /\ i_wo i = i_wo j /\ i_shape i = i_shape j.
  Definition placeless (s : surface XR T) : Prop := forall i j, alike i j -> sf_scatter s i = sf_scatter s j /\ forall w, sf_l s i w = sf_l s j w.
  Definition far_light (q : V3 XR * V3 XR) (bb : bbox3 XR) : light XR T := distant_as_light (distant_pre (distant_new (fst q) (snd q)) bb).
  Definition far_scene (suns : list (V3 XR * V3 XR)) (l : list T) : builder XR T := mkBuilder (map far_light suns) l [].
  Definition simple_of (sh : T -> shape XR T) (l : list T) : res (container XR T) := let! c := simple_new sh l in Ok (simple_container sh c).
End S.
