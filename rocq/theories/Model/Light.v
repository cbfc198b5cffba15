(** * light.rs

    [T] stands for [Arc<Shape>].  A light is a record of its methods; [l_addr] is the shape living at
    the same address, if any (an area light is a shape and a light), which is all that
    [same_addr] (integrator.rs:163) can observe. *)
From Coq Require Import ZArith List Bool.
From Verif Require Import Model.Num Model.Vector Model.BBox Model.Interaction Model.Shape Model.Container.
Local Open Scope Z_scope.

(** light.rs:24-27 [VisibilityTester] *)
Record vis (F T : Type) := mkVis { v_p0 : interaction F T; v_p1 : interaction F T }.
Arguments mkVis {F T}. Arguments v_p0 {F T}. Arguments v_p1 {F T}.

(** light.rs:13-22, after pre_process: [is_delta], [sample_li], [pdf_li] *)
Record light (F T : Type) := mkLight {
  l_is_delta : bool;
  l_sample_li : interaction F T -> P2 F -> res (V3 F * V3 F * F * vis F T);
  l_pdf_li : interaction F T -> V3 F -> F;
  l_addr : option T;
}.
Arguments mkLight {F T}. Arguments l_is_delta {F T}. Arguments l_sample_li {F T}.
Arguments l_pdf_li {F T}. Arguments l_addr {F T}.

(** light.rs:35-40 *)
Record distant_light (F : Type) := mkDistant { dl_l : V3 F; dl_w : V3 F; dl_center : V3 F; dl_radius : F }.
Arguments mkDistant {F}. Arguments dl_l {F}. Arguments dl_w {F}. Arguments dl_center {F}. Arguments dl_radius {F}.

(** light.rs:81-84 *)
Record area_light (F T : Type) := mkArea { al_l : V3 F; al_shape : shape F T }.
Arguments mkArea {F T}. Arguments al_l {F T}. Arguments al_shape {F T}.

Section S.
  Context {F T : Type} {FO : FOps F}.
  Local Open Scope f_scope.

  (** light.rs:30-32 [unoccluded]; [isect_p] is [scene.intersect_p] *)
  Definition unoccluded (isect_p : ray F -> res bool) (v : vis F T) : res bool :=
    let! b := isect_p (spawn_ray_to (v_p0 v) (v_p1 v)) in Ok (negb b).

  (** light.rs:43-50 [DistantLight::new] *)
  Definition distant_new (l w : V3 F) : distant_light F := mkDistant l (v3normalize w) v3zero f0.

  (** light.rs:58-62 [DistantLight::pre_process] *)
  Definition distant_pre (d : distant_light F) (b : bbox3 F) : distant_light F :=
    let '(center, radius) := bbox_bounding_sphere b in
    mkDistant (dl_l d) (dl_w d) center radius.

  (** light.rs:64-74 [DistantLight::sample_li] *)
  Definition distant_sample_li (d : distant_light F) (ref_i : interaction F T) (u : P2 F)
    : res (V3 F * V3 F * F * vis F T) :=
    let p := v3add (i_p ref_i) (v3scale (dl_w d) (f2 * dl_radius d)) in
    let p1 := mkI p v3zero (mkP2 f0 f0) v3zero v3zero v3zero v3zero v3zero None in
    Ok (dl_w d, dl_l d, f1, mkVis ref_i p1).

  (** light.rs:53-79 *)
  Definition distant_as_light (d : distant_light F) : light F T :=
    mkLight true (distant_sample_li d) (fun _ _ => f0) None.

  (** light.rs:95-127 [impl Shape for AreaLight]: everything but [l] is forwarded *)
  Definition area_shape (a : area_light F T) : shape F T :=
    mkShape (sh_bbox (al_shape a)) (sh_area (al_shape a)) (sh_intersect_p (al_shape a))
      (sh_intersect (al_shape a)) (sh_sample (al_shape a)).

  (** light.rs:128-134 [AreaLight::l] *)
  Definition area_l (a : area_light F T) (i : interaction F T) (w : V3 F) : V3 F :=
    if v3dot w (i_n i) >? f0 then al_l a else v3zero.

  (** light.rs:142-152 [AreaLight::sample_li] *)
  Definition area_sample_li (a : area_light F T) (ref_i : interaction F T) (u : P2 F)
    : res (V3 F * V3 F * F * vis F T) :=
    let! p_shape := sh_sample_ref (al_shape a) ref_i u in
    let wi := v3normalize (v3sub (i_p p_shape) (i_p ref_i)) in
    let l := area_l a p_shape (v3neg wi) in
    let pdf := sh_pdf (al_shape a) ref_i wi in
    Ok (wi, l, pdf, mkVis ref_i p_shape).

  (** light.rs:137-157; [me] is the [Arc] of the area light *)
  Definition area_as_light (me : T) (a : area_light F T) : light F T :=
    mkLight false (area_sample_li a) (sh_pdf (al_shape a)) (Some me).
End S.
