(** * The five BxDFs (bxdf_*.rs) *)
From Coq Require Import ZArith List Bool.
From Verif Require Import Model.Num Model.Vector Model.Common Model.Sampling Model.Reflection Model.Fresnel Model.Microfacet.
Local Open Scope Z_scope.

Section S.
  Context {F} {FO : FOps F}.
  Local Open Scope f_scope.

  (** [Default::default()] of the tuple returned by [BxDF::sample_f] *)
  Definition bx_none : V3 F * V3 F * F := (v3zero, v3zero, f0).

  (** bxdf_lambertian_reflection.rs:23-25 *)
  Definition lamb_f (r wo wi : V3 F) : V3 F := v3divs r fpi.
  (** bxdf_lambertian_reflection.rs:36-42 *)
  Definition lamb_pdf (wo wi : V3 F) : F :=
    if same_hemisphere wo wi then abs_cos_theta wi / fpi else f0.
  (** bxdf_lambertian_reflection.rs:27-34 *)
  Definition lamb_sample (r wo : V3 F) (u : P2 F) : V3 F * V3 F * F :=
    let wi := cosine_sample_hemisphere u in
    let wi := if vz wo <? f0 then mkV3 (vx wi) (vy wi) (vz wi * - f1) else wi in
    (wi, lamb_f r wo wi, lamb_pdf wo wi).
  (** bxdf_lambertian_reflection.rs:18-43 *)
  Definition lambertian (r : V3 F) : bxdf F :=
    mkBxDF (Z.lor REFLECTION DIFFUSE) (lamb_f r) (lamb_sample r) lamb_pdf.

  (** bxdf_specular_reflection.rs:26-31 *)
  Definition sr_sample (r : V3 F) (fresnel : F -> V3 F) (wo : V3 F) (u : P2 F) : V3 F * V3 F * F :=
    let wi := mkV3 (- vx wo) (- vy wo) (vz wo) in
    (wi, v3divs (v3mul r (fresnel (cos_theta wi))) (abs_cos_theta wi), f1).
  (** bxdf_specular_reflection.rs:17-36 *)
  Definition specular_reflection (r : V3 F) (fresnel : F -> V3 F) : bxdf F :=
    mkBxDF (Z.lor REFLECTION SPECULAR) (fun _ _ => v3zero) (sr_sample r fresnel) (fun _ _ => f0).

  (** bxdf_specular_transmission.rs:33-56 *)
  Definition st_sample (t : V3 F) (eta_a eta_b : F) (wo : V3 F) (u : P2 F) : V3 F * V3 F * F :=
    let '(eta_i, eta_t) := if cos_theta wo >? f0 then (eta_a, eta_b) else (eta_b, eta_a) in
    let n := if vz wo >? f0 then mkV3 f0 f0 f1 else mkV3 f0 f0 (- f1) in
    match refract wo n (eta_i / eta_t) with
    | None => bx_none
    | Some wi =>
      let f := v3divs (v3mul t (v3sub (spectrum_of f1) (fresnel_dielectric eta_a eta_b (cos_theta wi)))) (abs_cos_theta wi) in
      let f := v3divs (v3scale f (eta_i * eta_i)) (eta_t * eta_t) in
      (wi, f, f1)
    end.
  (** bxdf_specular_transmission.rs:24-61 *)
  Definition specular_transmission (t : V3 F) (eta_a eta_b : F) : bxdf F :=
    mkBxDF (Z.lor TRANSMISSION SPECULAR) (fun _ _ => v3zero) (st_sample t eta_a eta_b) (fun _ _ => f0).

  (** bxdf_microfacet_reflection.rs:25-44 *)
  Definition mr_f (r : V3 F) (d : microfacet F) (fresnel : F -> V3 F) (wo wi : V3 F) : V3 F :=
    let cos_theta_o := abs_cos_theta wo in
    let cos_theta_i := abs_cos_theta wi in
    if (cos_theta_o =? f0) || (cos_theta_i =? f0) then v3zero
    else
      let wh := v3add wo wi in
      if (vx wh =? f0) && (vy wh =? f0) && (vz wh =? f0) then v3zero
      else
        let wh := v3normalize wh in
        v3divs (v3mul (v3scale (v3scale r (mf_d d wh)) (mf_g d wo wi)) (fresnel (v3dot wh wi)))
               (fofZ 4 * cos_theta_o * cos_theta_i).
  (** bxdf_microfacet_reflection.rs:63-69 *)
  Definition mr_pdf (d : microfacet F) (wo wi : V3 F) : F :=
    if negb (same_hemisphere wo wi) then f0
    else
      let wh := v3normalize (v3add wo wi) in
      mf_pdf d wh / (v3dot wh wo * fofZ 4).
  (** bxdf_microfacet_reflection.rs:46-61 *)
  Definition mr_sample (r : V3 F) (d : microfacet F) (fresnel : F -> V3 F) (wo : V3 F) (u : P2 F) : V3 F * V3 F * F :=
    if vz wo =? f0 then bx_none
    else
      let wh := mf_sample_wh d wo u in
      let wi := reflect wo wh in
      if negb (same_hemisphere wo wi) then bx_none
      else (wi, mr_f r d fresnel wo wi, mf_pdf d wh / (v3dot wh wo * fofZ 4)).
  (** bxdf_microfacet_reflection.rs:20-70 *)
  Definition microfacet_reflection (r : V3 F) (d : microfacet F) (fresnel : F -> V3 F) : bxdf F :=
    mkBxDF (Z.lor REFLECTION GLOSSY) (mr_f r d fresnel) (mr_sample r d fresnel) (mr_pdf d).

  (** bxdf_microfacet_transmission.rs:33-59 *)
  Definition mt_f (t : V3 F) (eta_a eta_b : F) (d : microfacet F) (wo wi : V3 F) : V3 F :=
    if same_hemisphere wo wi then v3zero
    else
      let cos_theta_o := cos_theta wo in
      let cos_theta_i := cos_theta wi in
      if (cos_theta_o =? f0) || (cos_theta_i =? f0) then v3zero
      else
        let eta := if cos_theta_o >? f0 then eta_b / eta_a else eta_a / eta_b in
        let wh := v3normalize (v3add wo (v3scale wi eta)) in
        let wh := if vz wh <? f0 then v3scale wh (- f1) else wh in
        let f := fresnel_dielectric eta_a eta_b (v3dot wh wo) in
        v3abs (v3divs
          (v3scale (v3scale (v3mul (v3scale (v3scale t (mf_d d wh)) (mf_g d wo wi)) (v3adds (v3neg f) f1))
             (fabs (v3dot wi wh))) (fabs (v3dot wo wh)))
          (fsq (v3dot wo wh + v3dot wi wh * eta) * cos_theta_o * cos_theta_i)).
  (** bxdf_microfacet_transmission.rs:84-99 *)
  Definition mt_pdf (eta_a eta_b : F) (d : microfacet F) (wo wi : V3 F) : F :=
    if same_hemisphere wo wi then f0
    else
      let eta := if cos_theta wo >? f0 then eta_b / eta_a else eta_a / eta_b in
      let wh := v3normalize (v3add wo (v3scale wi eta)) in
      let sqrt_denom := v3dot wo wh + v3dot wi wh * eta in
      let dwh_dwi := fabs (v3dot wi wh * eta * eta / fsq sqrt_denom) in
      mf_pdf d wh * dwh_dwi.
  (** bxdf_microfacet_transmission.rs:61-82 *)
  Definition mt_sample (t : V3 F) (eta_a eta_b : F) (d : microfacet F) (wo : V3 F) (u : P2 F) : V3 F * V3 F * F :=
    if vz wo =? f0 then bx_none
    else
      let wh := mf_sample_wh d wo u in
      let eta := if cos_theta wo >? f0 then eta_a / eta_b else eta_b / eta_a in
      match refract wo wh eta with
      | None => bx_none
      | Some wi => (wi, mt_f t eta_a eta_b d wo wi, mt_pdf eta_a eta_b d wo wi)
      end.
  (** bxdf_microfacet_transmission.rs:28-100 *)
  Definition microfacet_transmission (t : V3 F) (eta_a eta_b : F) (d : microfacet F) : bxdf F :=
    mkBxDF (Z.lor TRANSMISSION GLOSSY) (mt_f t eta_a eta_b d) (mt_sample t eta_a eta_b d) (mt_pdf eta_a eta_b d).
End S.
