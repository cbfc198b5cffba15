(** * fresnel.rs; a Fresnel term is its [evaluate] method *)
From Coq Require Import ZArith List Bool.
From Verif Require Import Model.Num Model.Vector Model.Common.
Local Open Scope Z_scope.

Section S.
  Context {F} {FO : FOps F}.
  Local Open Scope f_scope.

  (** fresnel.rs:59-81 [fr_dielectric] *)
  Definition fr_dielectric (cos_theta_i eta_i eta_t : F) : F :=
    let cos_theta_i := clamp cos_theta_i (- f1) f1 in
    let entering := cos_theta_i >? f0 in
    let '(eta_i, eta_t, cos_theta_i) :=
      if entering then (eta_i, eta_t, cos_theta_i) else (eta_t, eta_i, cos_theta_i * - f1) in
    let sin_theta_i := fsqrt (fmax (f1 - cos_theta_i * cos_theta_i) f0) in
    let sin_theta_t := eta_i / eta_t * sin_theta_i in
    if sin_theta_t >=? f1 then f1
    else
      let cos_theta_t := fsqrt (fmax (f1 - sin_theta_t * sin_theta_t) f0) in
      let r_parl := (eta_t * cos_theta_i - eta_i * cos_theta_t) / (eta_t * cos_theta_i + eta_i * cos_theta_t) in
      let r_perp := (eta_i * cos_theta_i - eta_t * cos_theta_t) / (eta_i * cos_theta_i + eta_t * cos_theta_t) in
      (r_parl * r_parl + r_perp * r_perp) / f2.

  (** fresnel.rs:83-105 [fr_conductor]; Spectrum arithmetic, channel by channel.  [sin_theta_i_2] and
      the like are f32 values applied to every channel. *)
  Definition fr_conductor (cos_theta_i : F) (eta_i eta_t k : V3 F) : V3 F :=
    let cos_theta_i := clamp cos_theta_i (- f1) f1 in
    let eta := v3div eta_t eta_i in
    let eta_k := v3div k eta_i in
    let cos_theta_i_2 := cos_theta_i * cos_theta_i in
    let sin_theta_i_2 := f1 - cos_theta_i_2 in
    let eta_2 := v3mul eta eta in
    let eta_k_2 := v3mul eta_k eta_k in
    let t0 := v3subs (v3sub eta_2 eta_k_2) sin_theta_i_2 in
    let a_2_plus_b_2 := spectrum_sqrt (v3add (v3mul t0 t0) (v3scale (v3mul eta_2 eta_k_2) (fofZ 4))) in
    let t1 := v3adds a_2_plus_b_2 cos_theta_i_2 in
    let a := spectrum_sqrt (v3scale (v3add a_2_plus_b_2 t0) fhalf) in
    let t2 := v3scale (v3scale a cos_theta_i) f2 in
    let r_perp := v3div (v3sub t1 t2) (v3add t1 t2) in
    let t3 := v3adds (v3scale a_2_plus_b_2 cos_theta_i_2) (sin_theta_i_2 * sin_theta_i_2) in
    let t4 := v3scale t2 sin_theta_i_2 in
    let r_parl := v3div (v3mul r_perp (v3sub t3 t4)) (v3add t3 t4) in
    v3scale (v3add r_parl r_perp) fhalf.

  (** fresnel.rs:10-25 *)
  Definition fresnel_dielectric (eta_i eta_t : F) : F -> V3 F :=
    fun cos_i => spectrum_of (fr_dielectric cos_i eta_i eta_t).
  (** fresnel.rs:27-43 *)
  Definition fresnel_conductor (eta_i eta_t k : V3 F) : F -> V3 F :=
    fun cos_i => fr_conductor (fabs cos_i) eta_i eta_t k.
  (** fresnel.rs:45-57 *)
  Definition fresnel_noop : F -> V3 F := fun _ => spectrum_of f1.
End S.
