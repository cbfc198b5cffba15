(** * shape.rs: the Shape trait

    A shape is a record of its methods, so theorems quantify over arbitrary implementations.
    [T] stands for [Arc<Shape>] in the [shape] field of interactions.  [material] and
    [compute_scattering] are in Model/Path.v. *)
From Coq Require Import ZArith List Bool.
From Verif Require Import Model.Num Model.Vector Model.BBox Model.Interaction.
Local Open Scope Z_scope.

(** shape.rs:11-42: [bbox], [area], [intersect_p], [intersect], [sample] *)
Record shape (F T : Type) := mkShape {
  sh_bbox : bbox3 F;
  sh_area : F;
  sh_intersect_p : ray F -> res bool;
  sh_intersect : ray F -> res (option (interaction F T * F));
  sh_sample : P2 F -> res (interaction F T);
}.
Arguments mkShape {F T}. Arguments sh_bbox {F T}. Arguments sh_area {F T}.
Arguments sh_intersect_p {F T}. Arguments sh_intersect {F T}. Arguments sh_sample {F T}.

Section S.
  Context {F T : Type} {O : FOps F}.

  (** shape.rs:31-33 default [sample_ref] *)
  Definition sh_sample_ref (s : shape F T) (ref_i : interaction F T) (u : P2 F) : res (interaction F T) :=
    sh_sample s u.

  (** shape.rs:35-37 default [pdf] *)
  Definition sh_pdf (s : shape F T) (ref_i : interaction F T) (wi : V3 F) : F := fdiv f1 (sh_area s).

  (** shape.rs:39-41 default [l] *)
  Definition sh_l (i : interaction F T) (w : V3 F) : V3 F := v3zero.

  (** [ray.t_max = t] *)
  Definition with_tmax (r : ray F) (t : F) : ray F := mkRay (r_o r) (r_d r) t.

  (** shape.rs:46-53 the free function [intersect]; [me] is the shape's own [Arc]; returns the
      interaction and the updated ray *)
  Definition shape_intersect (me : T) (s : shape F T) (r : ray F)
    : res (option (interaction F T) * ray F) :=
    let! o := sh_intersect s r in
    match o with
    | Some (i, t) => Ok (Some (i_with_shape i (Some me)), with_tmax r t)
    | None => Ok (None, r)
    end.
End S.
