(** * Rendering and panics (C70) *)
From Coq Require Import ZArith Reals List Bool Lia.
From Flocq Require Import IEEE754.BinarySingleNaN.
From Verif Require Import Model.Num Model.NumX Model.NumB Model.Vector Model.Common Model.BBox Model.Film Model.Interaction Model.Shape
  Model.Sphere Model.Triangle Model.Container Model.KdTree Model.Matrix Model.Transform Model.Camera Model.Sampler
  Model.Sampling Model.Reflection Model.Fresnel Model.Microfacet Model.BxDFs Model.Texture Model.Material Model.Light Model.Scene
  Model.Path Model.Render.
From Verif Require Import Spec.SamplerSpec Spec.PathSpec Spec.RenderSpec Spec.KdSpec.
From Verif Require Import Proofs.FLaws Proofs.PathProofs Props.PathProps.
Import ListNotations.
Local Open Scope Z_scope.

(** Proved part: a path through spheres with the library's materials under distant lights is traced to the
    end by a release build, for every camera and every film, with either sampler.  Missing: triangles. *)
Theorem C70_spheres_partial : forall (L : Libm b32) (L64 : Libm b64) (T : Type) (sh : T -> shape b32 T) (surf : T -> surface b32 T)
    (sc : scene b32 T (container b32 T)) (l : list T) teq (cam : perspective_camera b32),
  (forall t, In t l -> (exists s : sphere b32, sh t = sphere_shape (D := b64) s) /\ library_material (sf_scatter (surf t))) ->
  (forall q, In q (sc_lights sc) -> exists d, q = distant_as_light d) ->
  (exists c, simple_new sh l = Ok c /\ sc_shapes sc = simple_container sh c) \/
  (exists srt m md kd, sort_by_ok edge_cmp srt /\ kd_new sh srt m l md = Ok kd /\ sc_shapes sc = kd_container sh kd) ->
  (forall spp b w h s0, area b w h -> halton_new Release spp b = Ok s0 ->
     halton_shade Release s0 (shade (halton_ops Release) teq surf sc (generate_ray Release cam) 66)) /\
  (forall G (rng : G -> b32 * G) spp, (forall g, in_unit (fst (rng g))) -> 1 <= spp ->
     random_shade rng Release spp (shade (random_ops rng Release) teq surf sc (generate_ray Release cam) 66)).
Proof.
  intros L L64 T sh surf sc l teq cam H1 H2 H3. pose proof (C18_sphere_scenes L L64 T sh surf sc l H1 H2 H3) as RB. split.
  - intros spp b w h s0 Ha E. eapply (C18_halton b32 T _ (B32_FLaws L)); eauto. intros p. apply camera_total.
  - intros G rng spp Hu Hs. apply (C18_random b32 T G _ (B32_FLaws L)); auto. intros p. apply camera_total.
Qed.
Print Assumptions C70_spheres_partial.

(** False in general: a lit triangle in a scene that also has a unit sphere 10^20 away.  The radius of the
    scene's bounding sphere overflows to infinity, the far end of the shadow ray towards the distant light in
    direction (1,0,1) is (inf, NaN, inf), and the triangle's test panics on that direction: no component is
    found to be the largest. *)
Section W.
  Context (L : Libm b32) (L64 : Libm b64).

  (** a scene of one sphere and one triangle, both matt white, under a distant light from [w] *)
  Definition two_shapes (sp : sphere b32) (tr : triangle b32) (t : bool) : shape b32 bool :=
    if t then sphere_shape (D := b64) sp else triangle_shape tr.
  Definition white (t : bool) : surface b32 bool := mkSurf (mat_lambertian (constant_texture (spectrum_of f1))) (fun _ _ => v3zero).
  Definition sun (w : V3 b32) (b : bbox3 b32) : light b32 bool := distant_as_light (distant_pre (distant_new (spectrum_of f1) w) b).
  Definition sunlit (sp : sphere b32) (tr : triangle b32) (w : V3 b32) : res (scene b32 bool (container b32 bool)) :=
    construct (two_shapes sp tr) (fun _ => mkArea v3zero (two_shapes sp tr true))
      (fun l => let! c := simple_new (two_shapes sp tr) l in Ok (simple_container (two_shapes sp tr) c))
      (add_light (add_shape (add_shape builder_new true) false) (sun w)).
  (** one path of a release build, the random sampler's generator being [rng] *)
  Definition traced (rng : unit -> b32 * unit) (r : ray b32) (sc : scene b32 bool (container b32 bool)) : res (V3 b32 * random_sampler) :=
    li (random_ops rng Release) Bool.eqb white sc 66 (random_new 1 tt) r.

  Definition w_sphere : sphere b32 := mkSphere (mkV3 (fofZ (10 ^ 20)) f0 f0) f1.
  Definition w_tri : triangle b32 := mkTri (mk3 (mkV3 (fofZ (-1)) (fofZ (-1)) f0) (mkV3 f1 (fofZ (-1)) f0) (mkV3 f0 f1 f0)) None false.
  Definition w_dir : V3 b32 := mkV3 f1 f0 f1.
  (** a generator of the constant 1/2 *)
  Definition w_rng (g : unit) : b32 * unit := (fhalf, tt).
  (** from (0,0,5) straight down *)
  Definition w_ray : ray b32 := mkRay (mkV3 f0 f0 (fofZ 5)) (mkV3 f0 f0 (fofZ (-1))) finf.

  Lemma w_computes : match sunlit w_sphere w_tri w_dir with Ok sc => traced w_rng w_ray sc = Panic | _ => False end.
  Proof. vm_compute. reflexivity. Qed.
End W.

Theorem C70_refuted : forall (L : Libm b32) (L64 : Libm b64),
  exists (sp : sphere b32) (tr : triangle b32) (w : V3 b32) (sc : scene b32 bool (container b32 bool)) (rng : unit -> b32 * unit) (r : ray b32),
    Bltb f0 (sp_radius sp) = true /\ Bltb f0 (tr_area tr) = true /\ in_unit (fst (rng tt)) /\ feq (v3dot (r_d r) (r_d r)) f1 = true /\
    sunlit L L64 sp tr w = Ok sc /\ traced L rng r sc = Panic.
Proof.
  intros L L64. pose proof (w_computes L L64) as W. destruct (sunlit L L64 (w_sphere L) (w_tri L) (w_dir L)) as [sc| |] eqn:E; try contradiction.
  exists (w_sphere L), (w_tri L), (w_dir L), sc, (w_rng L), (w_ray L).
  split; [vm_compute; reflexivity|]. split; [vm_compute; reflexivity|]. split; [repeat split; vm_compute; reflexivity|].
  split; [vm_compute; reflexivity|]. split; [exact E|exact W].
Qed.
Print Assumptions C70_refuted.
