(** * Lights and the scene builder *)
From Coq Require Import ZArith Reals List Bool.
From Verif Require Import Model.Num Model.Vector Model.BBox Model.Interaction Model.Shape Model.Light Model.Scene.
Import ListNotations.

(** A client's call of a builder method; what a light is told is a box. *)
Inductive call (F T : Type) :=
| CLight (l : bbox3 F -> light F T)
| CShape (s : T)
| CArea (a : T).
Arguments CLight {F T}. Arguments CShape {F T}. Arguments CArea {F T}.

Definition perform {F T} (b : builder F T) (c : call F T) : builder F T :=
  match c with CLight l => add_light b l | CShape s => add_shape b s | CArea a => add_area_light b a end.
Definition performed {F T} (cs : list (call F T)) : builder F T := fold_left perform cs builder_new.

(** What was added, in the order of the calls. *)
Definition added_lights {F T} (cs : list (call F T)) : list (bbox3 F -> light F T) :=
  flat_map (fun c => match c with CLight l => [l] | _ => [] end) cs.
Definition added_shapes {F T} (cs : list (call F T)) : list T :=
  flat_map (fun c => match c with CShape s => [s] | _ => [] end) cs.
Definition added_areas {F T} (cs : list (call F T)) : list T :=
  flat_map (fun c => match c with CArea a => [a] | _ => [] end) cs.
