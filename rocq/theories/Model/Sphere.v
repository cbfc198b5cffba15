(** * shape_sphere.rs *)
From Coq Require Import ZArith List Bool.
From Verif Require Import Model.Num Model.Vector Model.Common Model.BBox Model.Interaction Model.Shape.
Local Open Scope Z_scope.

(** shape_sphere.rs:11-15 (the material is in Model/Path.v) *)
Record sphere (F : Type) := mkSphere { sp_center : V3 F; sp_radius : F }.
Arguments mkSphere {F}. Arguments sp_center {F}. Arguments sp_radius {F}.

Section S.
  (** [F]: f32, [D]: f64 *)
  Context {F D T : Type} {O : FOps F} {OD : FOps D} {LK : F64Link F D}.
  Local Open Scope f_scope.

  (** shape_sphere.rs:22-24 *)
  Definition sp_world_to_local (s : sphere F) (p : V3 F) : V3 F := v3add p (v3neg (sp_center s)).
  (** shape_sphere.rs:26-28 *)
  Definition sp_local_to_world (s : sphere F) (p : V3 F) : V3 F := v3add p (sp_center s).

  (** shape_sphere.rs:30-55 [has_intersection], on the ray in local coordinates *)
  Definition sp_has_intersection (s : sphere F) (r : ray F) : option F :=
    let o := r_o r in
    let d := r_d r in
    let ox := fwiden (vx o) in let oy := fwiden (vy o) in let oz := fwiden (vz o) in
    let dx := fwiden (vx d) in let dy := fwiden (vy d) in let dz := fwiden (vz d) in
    let rad := fwiden (sp_radius s) in
    let a := dx * dx + dy * dy + dz * dz in
    let b := f2 * (dx * ox + dy * oy + dz * oz) in
    let c := ox * ox + oy * oy + oz * oz - rad * rad in
    match quadratic a b c with
    | None => None
    | Some (t0, t1) =>
      let t0 := fnarrow t0 in
      let t1 := fnarrow t1 in
      if (f0 <? t0) && (t0 <? r_tmax r) then Some t0
      else if (f0 <? t1) && (t1 <? r_tmax r) then Some t1
      else None
    end.

  (** shape_sphere.rs:58-71 [compute_partial_derivative] *)
  Definition sp_partials (p : V3 F) : V3 F * V3 F :=
    let x := vx p in let y := vy p in let z := vz p in
    let dpdu := mkV3 (fofZ (-2) * fpi * y) (f2 * fpi * x) f0 in
    let r_sin_theta := fsqrt (x * x + y * y) in
    let dpdv := mkV3 (fpi * z * x / r_sin_theta) (fpi * z * y / r_sin_theta) (fpi * - r_sin_theta) in
    (dpdu, dpdv).

  (** shape_sphere.rs:79-89: the azimuth of a local point; [1e-5] is 1*10^-5 *)
  Definition sp_phi (s : sphere F) (p : V3 F) : F :=
    let x := if (vx p =? f0) && (vy p =? f0) then flit 1 5 * sp_radius s else vx p in
    let phi := fatan2 (vy p) x in
    if phi <? f0 then phi + fpi * f2 else phi.

  (** shape_sphere.rs:73-111 [compute_interaction] *)
  Definition sp_interaction (s : sphere F) (r : ray F) (t : F) : interaction F T * F :=
    let p := ray_position r t in
    let p := v3scale p (sp_radius s / v3length p) in
    let p_err := v3scale (v3abs p) (gamma (fofZ 5)) in
    let phi := sp_phi s p in
    let theta := facos (clamp (vz p / sp_radius s) (fofZ (-1)) f1) in
    let n := v3normalize p in
    let '(dpdu, dpdv) := sp_partials p in
    (mkI (sp_local_to_world s p) p_err (mkP2 phi theta) n n dpdu dpdv (v3neg (r_d r)) None, t).

  (** shape_sphere.rs:115-119 [bbox] *)
  Definition sp_bbox (s : sphere F) : bbox3 F :=
    let c := sp_center s in let r := sp_radius s in
    bbox_new (mkV3 (vx c - r) (vy c - r) (vz c - r)) (mkV3 (vx c + r) (vy c + r) (vz c + r)).

  (** shape_sphere.rs:121-123 [area] *)
  Definition sp_area (s : sphere F) : F := fofZ 4 * fpi * sp_radius s * sp_radius s.

  Definition sp_local_ray (s : sphere F) (r : ray F) : ray F :=
    mkRay (sp_world_to_local s (r_o r)) (r_d r) (r_tmax r).

  (** shape_sphere.rs:125-130 [intersect_p] *)
  Definition sp_intersect_p (s : sphere F) (r : ray F) : bool :=
    match sp_has_intersection s (sp_local_ray s r) with Some _ => true | None => false end.

  (** shape_sphere.rs:132-139 [intersect] *)
  Definition sp_intersect (s : sphere F) (r : ray F) : option (interaction F T * F) :=
    let r := sp_local_ray s r in
    match sp_has_intersection s r with
    | Some t => Some (sp_interaction s r t)
    | None => None
    end.

  (** shape_sphere.rs:145-147 [sample]: [unimplemented!()] *)
  Definition sp_sample (s : sphere F) (u : P2 F) : res (interaction F T) := Panic.

  (** shape_sphere.rs:114-148 *)
  Definition sphere_shape (s : sphere F) : shape F T :=
    mkShape (sp_bbox s) (sp_area s) (fun r => Ok (sp_intersect_p s r))
      (fun r => Ok (sp_intersect s r)) (sp_sample s).
End S.
