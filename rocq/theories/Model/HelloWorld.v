(** * examples/helloworld.rs: the example program *)
From Coq Require Import ZArith List Bool.
From Verif Require Import Model.Num Model.Vector Model.BBox Model.Film Model.Interaction Model.Shape Model.Sphere Model.Triangle
  Model.Container Model.KdTree Model.Matrix Model.Transform Model.Camera Model.Sampler Model.Reflection Model.Texture Model.Material
  Model.Light Model.Scene Model.Path Model.Render.
Import ListNotations.
Local Open Scope Z_scope.

(** examples/helloworld.rs:7-11 *)
Definition NTHREADS : nat := 4.
Definition RESOLUTION : P2 Z := mkP2 1600 1280.
Definition SAMPLES_PER_PIXEL : Z := 500.

(** the five [Arc<Shape>]s *)
Inductive hw_shape := Lamp1 | Lamp2 | Ball | Floor1 | Floor2.
Definition hw_eqb (a b : hw_shape) : bool :=
  match a, b with
  | Lamp1, Lamp1 | Lamp2, Lamp2 | Ball, Ball | Floor1, Floor1 | Floor2, Floor2 => true
  | _, _ => false
  end.

Section H.
  Context {F D : Type} {FO : FOps F} {DO : FOps D} {FD : F64Link F D}.
  Variable srt : list (bedge F hw_shape) -> res (list (bedge F hw_shape)).

  Definition hw_point (x y z : Z) : V3 F := mkV3 (fofZ x) (fofZ y) (fofZ z).

  (** examples/helloworld.rs:42-46 *)
  Definition hw_lamp1 : triangle F := mkTri (mk3 (hw_point (-1) (-1) 3) (hw_point 1 (-1) 3) (hw_point 1 1 3)) None true.
  Definition hw_lamp2 : triangle F := mkTri (mk3 (hw_point 1 1 3) (hw_point (-1) 1 3) (hw_point (-1) (-1) 3)) None true.
  (** examples/helloworld.rs:52 *)
  Definition hw_ball : sphere F := mkSphere (hw_point 0 0 1) f1.
  (** examples/helloworld.rs:60-64 *)
  Definition hw_floor1 : triangle F := mkTri (mk3 (hw_point (-10) (-10) 0) (hw_point 10 (-10) 0) (hw_point 10 10 0)) None false.
  Definition hw_floor2 : triangle F := mkTri (mk3 (hw_point 10 10 0) (hw_point (-10) 10 0) (hw_point (-10) (-10) 0)) None false.

  (** examples/helloworld.rs:43, 46: [AreaLight::new(Spectrum::from(0.9), _)] *)
  Definition hw_area (t : triangle F) : area_light F hw_shape := mkArea (spectrum_of (flit 9 1)) (triangle_shape t).
  (** the area lights; the builder asks for those of the first two only *)
  Definition hw_al (t : hw_shape) : area_light F hw_shape :=
    match t with Lamp2 => hw_area hw_lamp2 | _ => hw_area hw_lamp1 end.

  Definition hw_sh (t : hw_shape) : shape F hw_shape :=
    match t with
    | Lamp1 | Lamp2 => area_shape (hw_al t)
    | Ball => sphere_shape (D := D) hw_ball
    | Floor1 => triangle_shape hw_floor1
    | Floor2 => triangle_shape hw_floor2
    end.

  (** examples/helloworld.rs:39-40, 50-51, 57-58: the materials; a shape that is no lamp keeps the default
      [l] (shape.rs:39-41), a lamp scatters as its shape does (light.rs:112-114) *)
  Definition hw_surf (t : hw_shape) : surface F hw_shape :=
    match t with
    | Lamp1 | Lamp2 => mkSurf (mat_lambertian (constant_texture (spectrum_of f0))) (area_l (hw_al t))
    | Ball => mkSurf (mat_lambertian (constant_texture (spectrum_of f1))) (fun _ _ => v3zero)
    | Floor1 | Floor2 => mkSurf (mat_lambertian (constant_texture (spectrum_of fhalf))) (fun _ _ => v3zero)
    end.

  (** examples/helloworld.rs:14-18, 43, 46, 53, 61, 64 *)
  Definition hw_builder : builder F hw_shape :=
    let b := builder_new in
    let b := add_area_light b Lamp1 in
    let b := add_area_light b Lamp2 in
    let b := add_shape b Ball in
    let b := add_shape b Floor1 in
    add_shape b Floor2.

  (** examples/helloworld.rs:20 *)
  Definition hw_scene (m : build) : res (scene F hw_shape (container F hw_shape)) :=
    construct hw_sh hw_al (fun l => let! kd := kd_new hw_sh srt m l None in Ok (kd_container hw_sh kd)) hw_builder.

  (** examples/helloworld.rs:22 *)
  Definition hw_filter : filter F := gaussian_filter (fofZ 2) (fofZ 2).
  Definition hw_film (m : build) : res (film F) := film_new m RESOLUTION hw_filter.

  (** examples/helloworld.rs:25-32 *)
  Definition hw_camera (m : build) : res (perspective_camera F) :=
    let! c2w := t_look_at m (hw_point (-10) (-30) 10) v3zero (hw_point 0 0 1) in
    let! c2s := t_perspective m (fofZ 30) (flit 1 2) (fofZ 1000) in
    Ok (camera_new c2w c2s (mkP2 (flit (-125) 2) (fofZ (-1))) (mkP2 (flit 125 2) f1) RESOLUTION).

  (** examples/helloworld.rs:13-34: everything [main] does before it calls [render] *)
  Definition hw_setup (m : build)
    : res (scene F hw_shape (container F hw_shape) * film F * halton * perspective_camera F) :=
    let! sc := hw_scene m in
    let! fm := hw_film m in
    let! s := halton_new m SAMPLES_PER_PIXEL (film_sample_bbox fm) in
    let! cam := hw_camera m in
    Ok (sc, fm, s, cam).

  (** what the threads run for a sample (integrator.rs:102-103) *)
  Definition hw_shade (m : build) (sc : scene F hw_shape (container F hw_shape)) (cam : perspective_camera F)
    : halton -> P2 F -> res (V3 F * halton) :=
    shade (halton_ops m) hw_eqb hw_surf sc (generate_ray m cam) 66.
End H.
