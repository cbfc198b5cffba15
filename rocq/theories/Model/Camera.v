(** * camera.rs: the perspective camera *)
From Coq Require Import ZArith List Bool.
From Verif Require Import Model.Num Model.Vector Model.BBox Model.Matrix Model.Transform.
Local Open Scope Z_scope.

(** camera.rs:17-24 *)
Record perspective_camera (F : Type) := mkCam {
  c_camera_to_world : transform F;
  c_raster_to_camera : transform F;
  c_camera_to_screen : transform F;
  c_screen_to_raster : transform F;
  c_raster_to_screen : transform F;
}.
Arguments mkCam {F}. Arguments c_camera_to_world {F}. Arguments c_raster_to_camera {F}.
Arguments c_camera_to_screen {F}. Arguments c_screen_to_raster {F}. Arguments c_raster_to_screen {F}.

Section C.
  Context {F} {O : FOps F}.
  Local Open Scope f_scope.

  (** camera.rs:27-55 [new]; [wmin], [wmax] are the corners of [screen_window], [rx], [ry] the
      u32 resolution *)
  Definition camera_new (c2w c2s : transform F) (wmin wmax : P2 F) (res : P2 Z)
    : perspective_camera F :=
    let screen_to_raster :=
      t_mul (t_mul (t_scale (fofZ (px res)) (fofZ (py res)) f1)
                   (t_scale (f1 / (px wmax - px wmin)) (f1 / (py wmin - py wmax)) f1))
            (t_translate (- px wmin) (- py wmax) f0) in
    let raster_to_screen := t_inverse screen_to_raster in
    let raster_to_camera := t_mul (t_inverse c2s) raster_to_screen in
    mkCam c2w raster_to_camera c2s screen_to_raster raster_to_screen.

  (** camera.rs:59-69 [generate_ray] *)
  Definition generate_ray (b : build) (c : perspective_camera F) (p_film : P2 F) : res (ray F) :=
    let p := mkV3 (px p_film) (py p_film) f0 in
    let! p_camera := t_point b (c_raster_to_camera c) p in
    let r := mkRay (r_o ray_default) (v3normalize p_camera) (r_tmax ray_default) in
    t_ray b (c_camera_to_world c) r.
End C.
