(** * microfacet.rs: GGX; [powi(2)] is modelled as [x * x] *)
From Coq Require Import ZArith List Bool.
From Verif Require Import Model.Num Model.Vector Model.Common Model.Reflection.
Local Open Scope Z_scope.

(** microfacet.rs:7-10 *)
Record microfacet (F : Type) := mkMf { mf_x : F; mf_y : F }.
Arguments mkMf {F}. Arguments mf_x {F}. Arguments mf_y {F}.

Section S.
  Context {F} {FO : FOps F}.
  Local Open Scope f_scope.

  (** microfacet.rs:17-27 [d] *)
  Definition mf_d (a : microfacet F) (wh : V3 F) : F :=
    let t2 := tan_2_theta wh in
    if fis_inf t2 then f0
    else
      let cos_4_theta := fsq (cos_2_theta wh) in
      let e := (cos_2_phi wh / fsq (mf_x a) + sin_2_phi wh / fsq (mf_y a)) * t2 in
      f1 / (fpi * mf_x a * mf_y a * cos_4_theta * fsq (f1 + e)).

  (** microfacet.rs:30-38 [lambda] *)
  Definition mf_lambda (a : microfacet F) (w : V3 F) : F :=
    let abs_tan := fabs (tan_theta w) in
    if fis_inf abs_tan then f0
    else
      let alpha := fsqrt (cos_2_phi w * fsq (mf_x a) + sin_2_phi w * fsq (mf_y a)) in
      let q := fsq (alpha * abs_tan) in
      (- f1 + fsqrt (f1 + q)) * fhalf.

  (** microfacet.rs:40-42 [g1] *)
  Definition mf_g1 (a : microfacet F) (w : V3 F) : F := f1 / (f1 + mf_lambda a w).

  (** microfacet.rs:44-46 [g] *)
  Definition mf_g (a : microfacet F) (wo wi : V3 F) : F := f1 / (f1 + mf_lambda a wo + mf_lambda a wi).

  (** microfacet.rs:48-76 [sample_wh] *)
  Definition mf_sample_wh (a : microfacet F) (wo : V3 F) (u : P2 F) : V3 F :=
    let '(cos_theta, phi) :=
      if mf_x a =? mf_y a then
        let tan_theta_2 := mf_x a * mf_x a * px u / (f1 - px u) in
        (f1 / fsqrt (f1 + tan_theta_2), fpi * f2 * py u)
      else
        let phi := fatan (mf_y a / mf_x a * ftan (f2 * fpi * py u + fhalf * fpi)) in
        let phi := if py u >? fhalf then phi + fpi else phi in
        let sin_phi := fsin phi in
        let cos_phi := fcos phi in
        let alpha_x_2 := mf_x a * mf_x a in
        let alpha_y_2 := mf_y a * mf_y a in
        let alpha_2 := f1 / (cos_phi * cos_phi / alpha_x_2 + sin_phi * sin_phi / alpha_y_2) in
        let tan_theta_2 := alpha_2 * px u / (f1 - px u) in
        (f1 / fsqrt (f1 + tan_theta_2), phi) in
    let sin_theta := fsqrt (fmax (f1 - cos_theta * cos_theta) f0) in
    let wh := from_spherical_direction sin_theta cos_theta phi in
    if same_hemisphere wo wh then wh else v3scale wh (- f1).

  (** microfacet.rs:78-80 [pdf] *)
  Definition mf_pdf (a : microfacet F) (wh : V3 F) : F := mf_d a wh / abs_cos_theta wh.
End S.
