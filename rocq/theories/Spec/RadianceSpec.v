(** * Scenes without negative light *)
From Coq Require Import ZArith Reals List.
From Verif Require Import Model.Num Model.NumX Model.Vector Model.BBox Model.Interaction Model.Shape Model.Container Model.Sampler
  Model.Reflection Model.Triangle Model.KdTree Model.Texture Model.Material Model.Light Model.Scene Model.Path
  Spec.RVec Spec.ShapeSpec Spec.KdSpec Spec.SamplerSpec.
From Verif Require Import Proofs.XBase.
Local Open Scope R_scope.

(** A finite number, 0 or more; a finite vector; a unit vector; a finite spectrum without negative channel. *)
Definition nn (x : XR) : Prop := exists r, x = XFin r /\ 0 <= r.
Definition fin (v : V3 XR) : Prop := exists r, v = fin3 r.
Definition unit3 (v : V3 XR) : Prop := exists r, v = fin3 r /\ vdot r r = 1.
Definition nn3 (v : V3 XR) : Prop := exists r, v = fin3 r /\ 0 <= vx r /\ 0 <= vy r /\ 0 <= vz r.

(** The position, its error bound, the normals and the outgoing direction are finite. *)
Definition fin_i {T} (i : interaction XR T) : Prop :=
  fin (i_p i) /\ fin (i_p_err i) /\ fin (i_n i) /\ fin (i_sn i) /\ fin (i_wo i).

Section S.
  Context {T : Type}.
  Variables (surf : T -> surface XR T) (sc : scene XR T (container XR T)).

  (** The interactions that a path can meet: hits of rays with finite origin and unit
      direction. *)
  Definition met (i : interaction XR T) : Prop :=
    exists r, fin (r_o r) /\ unit3 (r_d r) /\ xis_nan (r_tmax r) = false /\ c_intersect (sc_shapes sc) r = Ok (Some i).

  (** Where a path can get to, emission is not negative, and neither are the values and densities of the
      lights and of the scattering functions. *)
  Record no_negative_light : Prop := {
    nl_hit : forall i, met i -> fin_i i;
    nl_emitted : forall i t w, met i -> i_shape i = Some t -> unit3 w -> nn3 (sf_l (surf t) i w);
    nl_light : forall l i u wi li pdf v, In l (sc_lights sc) -> met i -> in_unit (px u) -> in_unit (py u) ->
      l_sample_li l i u = Ok (wi, li, pdf, v) -> flt f0 pdf = true -> is_black li = false -> unit3 wi /\ nn3 li /\ nn pdf;
    nl_light_pdf : forall l i wi, In l (sc_lights sc) -> met i -> unit3 wi -> nn (l_pdf_li l i wi);
    nl_f : forall i t b wi, met i -> i_shape i = Some t -> sf_scatter (surf t) i = Ok b -> unit3 wi ->
      nn3 (bsdf_f b (i_wo i) wi) /\ nn (bsdf_pdf b (i_wo i) wi);
    nl_sample : forall i t b u wi f pdf flag, met i -> i_shape i = Some t -> sf_scatter (surf t) i = Ok b ->
      in_unit (px u) -> in_unit (py u) ->
      bsdf_sample_f b (i_wo i) u = Ok (wi, f, pdf, flag) -> feq pdf f0 = false -> unit3 wi /\ nn3 f /\ nn pdf;
  }.
End S.

(** No surface takes one colour and leaves another: a sampled scattering value that is not black is positive in
    every channel, and its direction is not along the surface. *)
Definition pos3 (v : V3 XR) : Prop := exists r, v = fin3 r /\ 0 < vx r /\ 0 < vy r /\ 0 < vz r.
Definition colours_kept {T} (surf : T -> surface XR T) (sc : scene XR T (container XR T)) : Prop :=
  forall i t b u wi f pdf flag, met sc i -> i_shape i = Some t -> sf_scatter (surf t) i = Ok b -> in_unit (px u) -> in_unit (py u) ->
    bsdf_sample_f b (i_wo i) u = Ok (wi, f, pdf, flag) -> feq pdf f0 = false -> is_black f = false ->
    pos3 f /\ exists d n, wi = fin3 d /\ i_sn i = fin3 n /\ vdot d n <> 0.

(** A sampler whose values are in [0,1). *)
Definition unit_samples {ST} (sm : sampler_ops XR ST) : Prop :=
  (forall s v s', sm_get_1d sm s = Ok (v, s') -> in_unit v) /\
  (forall s u s', sm_get_2d sm s = Ok (u, s') -> in_unit (px u) /\ in_unit (py u)).

(** Such a sampler; and either its values are, one at a time, never exactly 0, or no surface of the scene takes a
    colour. *)
Record good_samples {T ST} (sm : sampler_ops XR ST) (surf : T -> surface XR T) (sc : scene XR T (container XR T)) : Prop := {
  gs_1d : forall s v s', sm_get_1d sm s = Ok (v, s') -> in_unit v;
  gs_2d : forall s u s', sm_get_2d sm s = Ok (u, s') -> in_unit (px u) /\ in_unit (py u);
  gs_zero : (forall s v s', sm_get_1d sm s = Ok (v, s') -> flt f0 v = true) \/ colours_kept surf sc;
}.

(** ** Scenes of triangles *)

(** what a texture can return *)
Definition yields {T A} (P : A -> Prop) (t : texture XR T A) : Prop := forall i v, t i = Ok v -> P v.
Definition pos (x : XR) : Prop := exists r, x = XFin r /\ 0 < r.

(** The optical constants of a metal; index 1 without absorption is the outer medium itself and excluded. *)
Definition metal_channel (eta k : R) : Prop := 0 < eta /\ 0 <= k /\ (eta <> 1 \/ k <> 0).
Definition metal (eta k : V3 XR) : Prop := exists e q : rv, eta = fin3 e /\ k = fin3 q /\
  metal_channel (vx e) (vx q) /\ metal_channel (vy e) (vy q) /\ metal_channel (vz e) (vz q).

(** The library's materials with textures that return usable values, spectra among them as [Q] says; of glass only
    the smooth kind. *)
Inductive usual_of {T} (Q : V3 XR -> Prop) : material XR T -> Prop :=
| usual_lambertian kd : yields Q kd -> usual_of Q (mat_lambertian kd)
| usual_mirror kr : yields Q kr -> usual_of Q (mat_mirror kr)
| usual_plastic kd ks ro : yields Q kd -> yields Q ks -> yields nn ro -> usual_of Q (mat_plastic kd ks ro)
| usual_metal_rough r eta k ru rv : yields Q r -> (forall i e q, eta i = Ok e -> k i = Ok q -> metal e q) ->
    yields pos ru -> yields pos rv -> usual_of Q (mat_metal r eta k ru rv)
| usual_metal_smooth r eta k ru rv : yields Q r -> (forall i e q, eta i = Ok e -> k i = Ok q -> metal e q) ->
    yields (fun x => x = XFin 0) ru -> yields (fun x => x = XFin 0) rv -> usual_of Q (mat_metal r eta k ru rv)
| usual_glass kr kt eta ru rv : yields Q kr -> yields Q kt -> yields pos eta ->
    yields (fun x => x = XFin 0) ru -> yields (fun x => x = XFin 0) rv -> usual_of Q (mat_glass kr kt eta ru rv).
Definition usual_material {T} : material XR T -> Prop := usual_of fin.

(** All channels positive, or none. *)
Definition even (v : V3 XR) : Prop := exists r, v = fin3 r /\ (0 < vx r /\ 0 < vy r /\ 0 < vz r \/ vx r <= 0 /\ vy r <= 0 /\ vz r <= 0).

(** A triangle with real vertices; its normals, if any, point to one side of some plane. *)
Definition fin_tri (v : tri rv) (vn : option (tri rv)) rev : triangle XR :=
  let f w := mk3 (fin3 (t0 w)) (fin3 (t1 w)) (fin3 (t2 w)) in mkTri (f v) (option_map f vn) rev.
Definition one_sided (vn : option (tri rv)) : Prop :=
  match vn with
  | None => True
  | Some w => exists up, 0 < vdot (t0 w) up /\ 0 < vdot (t1 w) up /\ 0 < vdot (t2 w) up
  end.

(** What the objects of a scene are made of: a triangle, a material and the light it gives off. *)
Record object (T : Type) := mkObj { o_v : tri rv; o_vn : option (tri rv); o_rev : bool; o_mat : material XR T; o_l : V3 XR }.
Arguments mkObj {T}. Arguments o_v {T}. Arguments o_vn {T}. Arguments o_rev {T}. Arguments o_mat {T}. Arguments o_l {T}.
Section O.
  Context {T : Type}.
  Variable ob : T -> object T.
  Definition ob_shape (t : T) : shape XR T := triangle_shape (fin_tri (o_v (ob t)) (o_vn (ob t)) (o_rev (ob t))).
  Definition ob_area (t : T) : area_light XR T := mkArea (o_l (ob t)) (ob_shape t).
  Definition ob_surf (t : T) : surface XR T := mkSurf (o_mat (ob t)) (area_l (ob_area t)).

  (** A scene as [Scene::construct] makes it, with either container: shapes that give off no light, area
      lights with an area, distant lights. *)
  Definition distant (l w : V3 XR) (bb : bbox3 XR) : light XR T := distant_as_light (distant_pre (distant_new l w) bb).
  Definition made (b : builder XR T) (sc : scene XR T (container XR T)) : Prop :=
    construct ob_shape ob_area (fun l => let! c := simple_new ob_shape l in Ok (simple_container ob_shape c)) b = Ok sc \/
    exists srt m md, sort_by_ok edge_cmp srt /\
      construct ob_shape ob_area (fun l => let! k := kd_new ob_shape srt m l md in Ok (kd_container ob_shape k)) b = Ok sc.
  Record triangle_scene (b : builder XR T) (sc : scene XR T (container XR T)) : Prop := {
    ts_made : made b sc;
    ts_lights : forall f, In f (bd_lights b) -> exists l w, f = distant l (fin3 w) /\ nn3 l /\ w <> v0;
    ts_shapes : forall t, In t (bd_shapes b) -> o_l (ob t) = v3zero;
    ts_areas : forall t, In t (bd_areas b) -> nn3 (o_l (ob t)) /\ tri_area (o_v (ob t)) <> 0;
    ts_objects : forall t, In t (bd_shapes b ++ bd_areas b) -> one_sided (o_vn (ob t)) /\ usual_material (o_mat (ob t));
  }.
End O.
