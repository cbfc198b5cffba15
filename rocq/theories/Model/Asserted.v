(** * Debug assertions of [clamp] (common.rs:16) and of [has_flag] (reflection.rs:20)

    The functions that call [clamp] or [has_flag], once more, with the debug assertions that are left out of
    Common.v and Reflection.v.  Callers of these functions are not repeated, except the path tracer. *)
From Coq Require Import ZArith List Bool.
From Verif Require Import Model.Num Model.Vector Model.Common Model.Film Model.Interaction Model.Shape Model.Container Model.Sampler Model.Sampling
  Model.Reflection Model.Fresnel Model.Texture Model.Light Model.Scene Model.Sphere Model.Path.
Import ListNotations.
Local Open Scope Z_scope.

(** reflection.rs:12 *)
Definition ALL : Z := Z.lor (Z.lor (Z.lor (Z.lor REFLECTION TRANSMISSION) DIFFUSE) GLOSSY) SPECULAR.

Section A.
  Context {F} {FO : FOps F}.
  Variable m : build.
  Local Open Scope f_scope.

  (** [debug_assert!] *)
  Definition debug_assert (b : bool) : res unit :=
    match m with Debug => if b then Ok tt else Panic | Release => Ok tt end.

  (** common.rs:15-24 *)
  Definition clamp_a (x low high : F) : res F :=
    let! _ := debug_assert (low <=? high) in
    Ok (if x <? low then low else if x >? high then high else x).

  (** spectrum.rs:39-45 *)
  Definition spectrum_clamp_a (s : V3 F) (low high : F) : res (V3 F) :=
    let! r := clamp_a (vx s) low high in
    let! g := clamp_a (vy s) low high in
    let! b := clamp_a (vz s) low high in
    Ok (mkV3 r g b).

  (** material_*.rs: [x.evaluate(i).clamp(0., INFINITY)] *)
  Definition tex_clamped_a {T} (t : texture F T (V3 F)) (i : interaction F T) : res (V3 F) :=
    let! v := t i in spectrum_clamp_a v f0 finf.

  (** film.rs:96,101-103 *)
  Definition quantize_a (c w : F) : res Z :=
    let! x := clamp_a (gamma_correct (c / w) * fofZ 255 + fhalf) f0 (fofZ 255) in
    Ok (fto_u32 (fround x)).

  (** shape_sphere.rs:90 *)
  Definition sp_theta_a (s : sphere F) (p : V3 F) : res F :=
    let! x := clamp_a (vz p / sp_radius s) (fofZ (-1)) f1 in
    Ok (facos x).

  (** reflection.rs:194-201 *)
  Definition cos_phi_a (w : V3 F) : res F :=
    let s := sin_theta w in
    if s =? f0 then Ok f1 else clamp_a (vx w / s) (- f1) f1.
  (** reflection.rs:203-210 *)
  Definition sin_phi_a (w : V3 F) : res F :=
    let s := sin_theta w in
    if s =? f0 then Ok f0 else clamp_a (vy w / s) (- f1) f1.

  (** fresnel.rs:59-81 *)
  Definition fr_dielectric_a (cos_theta_i eta_i eta_t : F) : res F :=
    let! cos_theta_i := clamp_a cos_theta_i (- f1) f1 in
    let entering := cos_theta_i >? f0 in
    let '(eta_i, eta_t, cos_theta_i) :=
      if entering then (eta_i, eta_t, cos_theta_i) else (eta_t, eta_i, cos_theta_i * - f1) in
    let sin_theta_i := fsqrt (fmax (f1 - cos_theta_i * cos_theta_i) f0) in
    let sin_theta_t := eta_i / eta_t * sin_theta_i in
    if sin_theta_t >=? f1 then Ok f1
    else
      let cos_theta_t := fsqrt (fmax (f1 - sin_theta_t * sin_theta_t) f0) in
      let r_parl := (eta_t * cos_theta_i - eta_i * cos_theta_t) / (eta_t * cos_theta_i + eta_i * cos_theta_t) in
      let r_perp := (eta_i * cos_theta_i - eta_t * cos_theta_t) / (eta_i * cos_theta_i + eta_t * cos_theta_t) in
      Ok ((r_parl * r_parl + r_perp * r_perp) / f2).

  (** fresnel.rs:83-105 *)
  Definition fr_conductor_a (cos_theta_i : F) (eta_i eta_t k : V3 F) : res (V3 F) :=
    let! cos_theta_i := clamp_a cos_theta_i (- f1) f1 in
    let eta := v3div eta_t eta_i in
    let eta_k := v3div k eta_i in
    let cos_theta_i_2 := cos_theta_i * cos_theta_i in
    let sin_theta_i_2 := f1 - cos_theta_i_2 in
    let eta_2 := v3mul eta eta in
    let eta_k_2 := v3mul eta_k eta_k in
    let t0 := v3subs (v3sub eta_2 eta_k_2) sin_theta_i_2 in
    let a_2_plus_b_2 := spectrum_sqrt (v3add (v3mul t0 t0) (v3scale (v3mul eta_2 eta_k_2) (fofZ 4))) in
    let t1 := v3adds a_2_plus_b_2 cos_theta_i_2 in
    let a := spectrum_sqrt (v3scale (v3add a_2_plus_b_2 t0) fhalf) in
    let t2 := v3scale (v3scale a cos_theta_i) f2 in
    let r_perp := v3div (v3sub t1 t2) (v3add t1 t2) in
    let t3 := v3adds (v3scale a_2_plus_b_2 cos_theta_i_2) (sin_theta_i_2 * sin_theta_i_2) in
    let t4 := v3scale t2 sin_theta_i_2 in
    let r_parl := v3div (v3mul r_perp (v3sub t3 t4)) (v3add t3 t4) in
    Ok (v3scale (v3add r_parl r_perp) fhalf).

  (** reflection.rs:18-22 [has_flag] *)
  Definition has_flag_a (x : bxdf F) (t : Z) : res bool :=
    let! _ := debug_assert (bx_flag x <=? ALL)%Z in
    Ok (Z.land t (bx_flag x) =? t)%Z.

  (** reflection.rs:88-93 and 131-136; [&&] and [||] ask only what they need *)
  Fixpoint bsdf_sum_a (l : list (bxdf F)) (reflect : bool) (wo wi : V3 F) (f : V3 F) : res (V3 F) :=
    match l with
    | [] => Ok f
    | x :: l =>
      let! on := (if reflect then has_flag_a x REFLECTION else has_flag_a x TRANSMISSION) in
      bsdf_sum_a l reflect wo wi (if on : bool then v3add f (bx_f x wo wi) else f)
    end.

  (** reflection.rs:78-96 [f] *)
  Definition bsdf_f_a (b : bsdf F) (wo_w wi_w : V3 F) : res (V3 F) :=
    let wo := world_to_local b wo_w in
    if vz wo =? f0 then Ok v3zero
    else
      let wi := world_to_local b wi_w in
      bsdf_sum_a (bs_bxdfs b) (bsdf_reflect b wo_w wi_w) wo wi v3zero.

  (** reflection.rs:99-143 [sample_f] *)
  Definition bsdf_sample_f_a (b : bsdf F) (wo_w : V3 F) (sample : P2 F) : res (V3 F * V3 F * F * Z) :=
    let n := Z.of_nat (length (bs_bxdfs b)) in
    if (n =? 0)%Z then Ok no_sample
    else
      let k := bsdf_pick n (px sample) in
      let! x := idx (bs_bxdfs b) k in
      let sample := mkP2 (bsdf_remap n (px sample)) (py sample) in
      let wo := world_to_local b wo_w in
      if vz wo =? f0 then Ok no_sample
      else
        let '(wi, f, pdf) := bx_sample_f x wo sample in
        if pdf =? f0 then Ok no_sample
        else
          let wi_w := local_to_world b wi in
          let! specular := has_flag_a x SPECULAR in
          let! (f, pdf) :=
            (if negb specular && (1 <? n)%Z
             then let! f := bsdf_sum_a (bs_bxdfs b) (bsdf_reflect b wo_w wi_w) wo wi v3zero in
                  Ok (f, other_pdfs (bs_bxdfs b) 0 k wo wi pdf)
             else Ok (f, pdf)) in
          let pdf := if (1 <? n)%Z then pdf / fofZ n else pdf in
          Ok (wi_w, f, pdf, bx_flag x).
End A.

(** ** integrator.rs:120-230 with these *)
Section P.
  Context {F T ST : Type} {FO : FOps F}.
  Variables (m : build) (sm : sampler_ops F ST) (teq : T -> T -> bool) (surf : T -> surface F T).
  Variable (sc : scene F T (container F T)).
  Local Open Scope f_scope.

  (** integrator.rs:127-143 *)
  Definition direct_light_a (l : light F T) (i : interaction F T) (b : bsdf F) (sample0 : P2 F) (ld : V3 F) : res (V3 F) :=
    let! (wi, li, light_pdf, v) := l_sample_li l i sample0 in
    if (light_pdf >? f0) && negb (is_black li) then
      let! f := bsdf_f_a m b (i_wo i) wi in
      let f := v3scale f (fabs (v3dot wi (i_sn i))) in
      let scattering_pdf := bsdf_pdf b (i_wo i) wi in
      if negb (is_black f) then
        let! ok := unoccluded (scene_intersect_p sc) v in
        if ok : bool then
          if l_is_delta l then Ok (v3add ld (v3divs (v3mul f li) light_pdf))
          else
            let weight := power_heuristic 1 light_pdf 1 scattering_pdf in
            Ok (v3add ld (v3divs (v3scale (v3mul f li) weight) light_pdf))
        else Ok ld
      else Ok ld
    else Ok ld.

  (** integrator.rs:145-171 *)
  Definition direct_bsdf_a (l : light F T) (i : interaction F T) (b : bsdf F) (sample1 : P2 F) (ld : V3 F) : res (V3 F) :=
    if l_is_delta l then Ok ld
    else
      let! (wi, f, scattering_pdf, flag) := bsdf_sample_f_a m b (i_wo i) sample1 in
      let f := v3scale f (fabs (v3dot wi (i_sn i))) in
      let sampled_specular := negb (Z.land flag SPECULAR =? 0)%Z in
      if (scattering_pdf >? f0) && negb (is_black f) then
        let light_pdf := l_pdf_li l i wi in
        if negb sampled_specular && (light_pdf =? f0) then Ok ld
        else
          let weight := if sampled_specular then f1 else power_heuristic 1 scattering_pdf 1 light_pdf in
          let! light_i := scene_intersect sc (spawn_ray i wi) in
          match light_i with
          | None => Ok ld
          | Some light_i =>
            match i_shape light_i with
            | None => Panic
            | Some s =>
              let! li := (if same_addr teq s l then le surf light_i (v3neg wi) else Ok v3zero) in
              Ok (v3add ld (v3divs (v3scale (v3mul f li) weight) scattering_pdf))
            end
          end
      else Ok ld.

  (** integrator.rs:120-174 *)
  Definition estimate_direct_a (s : ST) (l : light F T) (i : interaction F T) (b : bsdf F) : res (V3 F * ST) :=
    let! (sample0, s) := sm_get_2d sm s in
    let! (sample1, s) := sm_get_2d sm s in
    let! ld := direct_light_a l i b sample0 v3zero in
    let! ld := direct_bsdf_a l i b sample1 ld in
    Ok (ld, s).

  (** integrator.rs:176-187 *)
  Definition uniform_sample_one_light_a (s : ST) (i : interaction F T) (b : bsdf F) : res (V3 F * ST) :=
    let n := Z.of_nat (length (sc_lights sc)) in
    if (n =? 0)%Z then Ok (v3zero, s)
    else
      let! (u, s) := sm_get_1d sm s in
      let k := Z.min (fto_usize (fofZ n * u)) (n - 1) in
      let! l := idx (sc_lights sc) k in
      let! (ld, s) := estimate_direct_a s l i b in
      Ok (v3scale ld (fofZ n), s).

  (** integrator.rs:194-228 *)
  Fixpoint li_loop_a (fuel : nat) (s : ST) (r : ray F) (l beta : V3 F) (specular : bool) (bounces : Z)
    : res (V3 F * ST) :=
    match fuel with
    | O => Timeout
    | S fuel =>
      let! o := scene_intersect sc r in
      let! l := (if (bounces =? 0)%Z || specular then
                   match o with
                   | Some i => let! e := le surf i (v3neg (r_d r)) in Ok (v3add l (v3mul beta e))
                   | None => Ok l
                   end
                 else Ok l) in
      match o with
      | None => Ok (l, s)
      | Some i =>
        if (MAX_BOUNCES <? bounces)%Z then Ok (l, s)
        else
          let! b := compute_scattering surf i in
          let! (ld, s) := uniform_sample_one_light_a s i b in
          let l := v3add l (v3mul beta ld) in
          let! (u, s) := sm_get_2d sm s in
          let! (wi, f, pdf, flag) := bsdf_sample_f_a m b (i_wo i) u in
          if (pdf =? f0) || is_black f then Ok (l, s)
          else
            let beta := v3mul beta (v3divs (v3scale f (fabs (v3dot wi (i_sn i)))) pdf) in
            let specular := negb (Z.land flag SPECULAR =? 0)%Z in
            let r := spawn_ray i wi in
            let bounces := (bounces + 1)%Z in
            if (3 <? bounces)%Z then
              let q := fmin (spectrum_y beta) (flit 95 2) in
              let! (v, s) := sm_get_1d sm s in
              if v >? q then Ok (l, s)
              else li_loop_a fuel s r l (v3divs beta q) specular bounces
            else li_loop_a fuel s r l beta specular bounces
      end
    end.

  (** integrator.rs:189-230 [li] *)
  Definition li_a (fuel : nat) (s : ST) (r : ray F) : res (V3 F * ST) :=
    li_loop_a fuel s r v3zero (spectrum_of f1) false 0.
End P.
