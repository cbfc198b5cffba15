(** * material_*.rs: a material is its [compute_scattering] method *)
From Coq Require Import ZArith List Bool.
From Verif Require Import Model.Num Model.Vector Model.Common Model.Interaction Model.Reflection Model.Fresnel
  Model.Microfacet Model.BxDFs Model.Texture.
Local Open Scope Z_scope.

Section S.
  Context {F T : Type} {FO : FOps F}.
  Local Open Scope f_scope.

  Definition material : Type := interaction F T -> res (bsdf F).

  (** [x.evaluate(i).clamp(0., INFINITY)] *)
  Definition tex_clamped (t : texture F T (V3 F)) (i : interaction F T) : res (V3 F) :=
    let! v := t i in Ok (spectrum_clamp v f0 finf).

  (** material_lambertian_reflection.rs:21-28 *)
  Definition mat_lambertian (kd : texture F T (V3 F)) : material := fun i =>
    let b := bsdf_new i in
    let! r := tex_clamped kd i in
    Ok (if negb (is_black r) then bsdf_add b (lambertian r) else b).

  (** material_mirror.rs:22-29 *)
  Definition mat_mirror (kr : texture F T (V3 F)) : material := fun i =>
    let b := bsdf_new i in
    let! r := tex_clamped kr i in
    Ok (if negb (is_black r) then bsdf_add b (specular_reflection r fresnel_noop) else b).

  (** material_plastic.rs:27-49 *)
  Definition mat_plastic (kd ks : texture F T (V3 F)) (roughness : texture F T F) : material := fun i =>
    let b := bsdf_new i in
    let! d := tex_clamped kd i in
    let! s := tex_clamped ks i in
    let b := if negb (is_black d) then bsdf_add b (lambertian d) else b in
    if negb (is_black s) then
      let fresnel := fresnel_dielectric (flit 15 1) f1 in
      let! rough := roughness i in
      Ok (bsdf_add b (if rough =? f0 then specular_reflection s fresnel
                      else microfacet_reflection s (mkMf rough rough) fresnel))
    else Ok b.

  (** material_metal.rs:29-48 *)
  Definition mat_metal (r eta k : texture F T (V3 F)) (roughness_u roughness_v : texture F T F) : material := fun i =>
    let b := bsdf_new i in
    let! r := tex_clamped r i in
    let! eta := eta i in
    let! k := k i in
    let! rough_u := roughness_u i in
    let! rough_v := roughness_v i in
    let fresnel := fresnel_conductor (spectrum_of f1) eta k in
    Ok (bsdf_add b (if (rough_u =? f0) && (rough_v =? f0) then specular_reflection r fresnel
                    else microfacet_reflection r (mkMf rough_u rough_v) fresnel)).

  (** material_glass.rs:30-59 *)
  Definition mat_glass (kr kt : texture F T (V3 F)) (eta roughness_u roughness_v : texture F T F) : material := fun i =>
    let b := bsdf_new i in
    let! eta := eta i in
    let! r := tex_clamped kr i in
    let! t := tex_clamped kt i in
    let! rough_u := roughness_u i in
    let! rough_v := roughness_v i in
    if (rough_u =? f0) && (rough_v =? f0) then
      let b := if negb (is_black r) then bsdf_add b (specular_reflection r (fresnel_dielectric f1 eta)) else b in
      Ok (if negb (is_black t) then bsdf_add b (specular_transmission t f1 eta) else b)
    else
      let distrib := mkMf rough_u rough_v in
      let b := if negb (is_black r) then bsdf_add b (microfacet_reflection r distrib (fresnel_dielectric f1 eta)) else b in
      Ok (if negb (is_black t) then bsdf_add b (microfacet_transmission t f1 eta distrib) else b).
End S.
Arguments material F T : clear implicits.
