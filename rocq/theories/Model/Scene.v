(** * scene.rs: the scene builder

    An added light is modelled by what [pre_process] makes of it: a function from the scene's box
    to the finished light.  [sh t] are the shape methods of the [Arc<Shape>] [t], [al t] the area
    light behind [t] if [t] was added by [add_area_light]. *)
From Coq Require Import ZArith List Bool.
From Verif Require Import Model.Num Model.Vector Model.BBox Model.Interaction Model.Shape Model.Container Model.Light.
Import ListNotations.
Local Open Scope Z_scope.

(** scene.rs:11-14; [C] is the container type *)
Record scene (F T C : Type) := mkScene { sc_lights : list (light F T); sc_shapes : C }.
Arguments mkScene {F T C}. Arguments sc_lights {F T C}. Arguments sc_shapes {F T C}.

(** scene.rs:37-41 *)
Record builder (F T : Type) := mkBuilder {
  bd_lights : list (bbox3 F -> light F T);
  bd_shapes : list T;
  bd_areas : list T;
}.
Arguments mkBuilder {F T}. Arguments bd_lights {F T}. Arguments bd_shapes {F T}. Arguments bd_areas {F T}.

Section S.
  Context {F T : Type} {FO : FOps F}.
  Variable (sh : T -> shape F T) (al : T -> area_light F T).

  (** scene.rs:44-50 *)
  Definition builder_new : builder F T := mkBuilder [] [] [].
  (** scene.rs:52-54 *)
  Definition add_light (b : builder F T) (l : bbox3 F -> light F T) : builder F T :=
    mkBuilder (bd_lights b ++ [l]) (bd_shapes b) (bd_areas b).
  (** scene.rs:56-58 *)
  Definition add_shape (b : builder F T) (s : T) : builder F T :=
    mkBuilder (bd_lights b) (bd_shapes b ++ [s]) (bd_areas b).
  (** scene.rs:60-62 *)
  Definition add_area_light (b : builder F T) (a : T) : builder F T :=
    mkBuilder (bd_lights b) (bd_shapes b) (bd_areas b ++ [a]).

  (** scene.rs:65-68: the box told to the lights *)
  Definition scene_bbox (b : builder F T) : res (bbox3 F) :=
    let! bb := match bd_shapes b with
               | [] => Ok (bbox_new v3zero v3zero)
               | _ => bbox_of_shapes sh (bd_shapes b)
               end in
    Ok (fold_left (fun bb a => bbox_union bb (sh_bbox (area_shape (al a)))) (bd_areas b) bb).

  (** scene.rs:64-90 [construct].  [Arc::get_mut] succeeds: the builder holds the only reference.
      [AreaLight] keeps the default, empty [pre_process] (light.rs:16). *)
  Definition construct {C} (container : list T -> res C) (b : builder F T) : res (scene F T C) :=
    let! bb := scene_bbox b in
    let lights := map (fun l => l bb) (bd_lights b) ++ map (fun a => area_as_light a (al a)) (bd_areas b) in
    let! c := container (bd_shapes b ++ bd_areas b) in
    Ok (mkScene lights c).
End S.
