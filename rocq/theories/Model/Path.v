(** * integrator.rs:120-230: path tracing, and the methods it needs (interaction.rs:64-78, shape.rs:23-41)

    [T] stands for [Arc<Shape>].  A surface is what the path tracer asks a shape for besides
    geometry: [compute_scattering] and [l]. *)
From Coq Require Import ZArith List Bool.
From Verif Require Import Model.Num Model.Vector Model.Common Model.Interaction Model.Shape Model.Container
  Model.Sampler Model.Sampling Model.Reflection Model.Light Model.Scene.
Import ListNotations.
Local Open Scope Z_scope.

(** integrator.rs:21 *)
Definition MAX_BOUNCES : Z := 64.

(** shape.rs:25-27 [compute_scattering] and shape.rs:39-41 [l] *)
Record surface (F T : Type) := mkSurf {
  sf_scatter : interaction F T -> res (bsdf F);
  sf_l : interaction F T -> V3 F -> V3 F;
}.
Arguments mkSurf {F T}. Arguments sf_scatter {F T}. Arguments sf_l {F T}.

Section P.
  Context {F T ST : Type} {FO : FOps F}.
  Variables (sm : sampler_ops F ST) (teq : T -> T -> bool) (surf : T -> surface F T).
  Variable (sc : scene F T (container F T)).
  Local Open Scope f_scope.

  (** interaction.rs:64-70 [compute_scattering] *)
  Definition compute_scattering (i : interaction F T) : res (bsdf F) :=
    match i_shape i with Some s => sf_scatter (surf s) i | None => Panic end.

  (** interaction.rs:72-78 [le] *)
  Definition le (i : interaction F T) (w : V3 F) : res (V3 F) :=
    match i_shape i with Some s => Ok (sf_l (surf s) i w) | None => Panic end.

  (** scene.rs:28-34 *)
  Definition scene_intersect_p (r : ray F) : res bool := c_intersect_p (sc_shapes sc) r.
  Definition scene_intersect (r : ray F) : res (option (interaction F T)) := c_intersect (sc_shapes sc) r.

  (** integrator.rs:163 [same_addr] of the shape hit and the light *)
  Definition same_addr (s : T) (l : light F T) : bool :=
    match l_addr l with Some t => teq s t | None => false end.

  (** integrator.rs:127-143: the light-sampling half of [estimate_direct] *)
  Definition direct_light (l : light F T) (i : interaction F T) (b : bsdf F) (sample0 : P2 F) (ld : V3 F) : res (V3 F) :=
    let! (wi, li, light_pdf, v) := l_sample_li l i sample0 in
    if (light_pdf >? f0) && negb (is_black li) then
      let f := v3scale (bsdf_f b (i_wo i) wi) (fabs (v3dot wi (i_sn i))) in
      let scattering_pdf := bsdf_pdf b (i_wo i) wi in
      if negb (is_black f) then
        let! ok := unoccluded scene_intersect_p v in
        if ok : bool then
          if l_is_delta l then Ok (v3add ld (v3divs (v3mul f li) light_pdf))
          else
            let weight := power_heuristic 1 light_pdf 1 scattering_pdf in
            Ok (v3add ld (v3divs (v3scale (v3mul f li) weight) light_pdf))
        else Ok ld
      else Ok ld
    else Ok ld.

  (** integrator.rs:145-171: the BSDF-sampling half *)
  Definition direct_bsdf (l : light F T) (i : interaction F T) (b : bsdf F) (sample1 : P2 F) (ld : V3 F) : res (V3 F) :=
    if l_is_delta l then Ok ld
    else
      let! (wi, f, scattering_pdf, flag) := bsdf_sample_f b (i_wo i) sample1 in
      let f := v3scale f (fabs (v3dot wi (i_sn i))) in
      let sampled_specular := negb (Z.land flag SPECULAR =? 0)%Z in
      if (scattering_pdf >? f0) && negb (is_black f) then
        let light_pdf := l_pdf_li l i wi in
        if negb sampled_specular && (light_pdf =? f0) then Ok ld
        else
          let weight := if sampled_specular then f1 else power_heuristic 1 scattering_pdf 1 light_pdf in
          let! light_i := scene_intersect (spawn_ray i wi) in
          match light_i with
          | None => Ok ld
          | Some light_i =>
            match i_shape light_i with
            | None => Panic
            | Some s =>
              let! li := (if same_addr s l then le light_i (v3neg wi) else Ok v3zero) in
              Ok (v3add ld (v3divs (v3scale (v3mul f li) weight) scattering_pdf))
            end
          end
      else Ok ld.

  (** integrator.rs:120-174 [estimate_direct] *)
  Definition estimate_direct (s : ST) (l : light F T) (i : interaction F T) (b : bsdf F) : res (V3 F * ST) :=
    let! (sample0, s) := sm_get_2d sm s in
    let! (sample1, s) := sm_get_2d sm s in
    let! ld := direct_light l i b sample0 v3zero in
    let! ld := direct_bsdf l i b sample1 ld in
    Ok (ld, s).

  (** integrator.rs:176-187 [uniform_sample_one_light] *)
  Definition uniform_sample_one_light (s : ST) (i : interaction F T) (b : bsdf F) : res (V3 F * ST) :=
    let n := Z.of_nat (length (sc_lights sc)) in
    if (n =? 0)%Z then Ok (v3zero, s)
    else
      let! (u, s) := sm_get_1d sm s in
      let k := Z.min (fto_usize (fofZ n * u)) (n - 1) in
      let! l := idx (sc_lights sc) k in
      let! (ld, s) := estimate_direct s l i b in
      Ok (v3scale ld (fofZ n), s).

  (** integrator.rs:194-228: the loop of [li]; [fuel] bounds the number of rounds.  [bounces] is a
      u16 that never exceeds 65. *)
  Fixpoint li_loop (fuel : nat) (s : ST) (r : ray F) (l beta : V3 F) (specular : bool) (bounces : Z)
    : res (V3 F * ST) :=
    match fuel with
    | O => Timeout
    | S fuel =>
      let! o := scene_intersect r in
      let! l := (if (bounces =? 0)%Z || specular then
                   match o with
                   | Some i => let! e := le i (v3neg (r_d r)) in Ok (v3add l (v3mul beta e))
                   | None => Ok l
                   end
                 else Ok l) in
      match o with
      | None => Ok (l, s)
      | Some i =>
        if (MAX_BOUNCES <? bounces)%Z then Ok (l, s)
        else
          let! b := compute_scattering i in
          let! (ld, s) := uniform_sample_one_light s i b in
          let l := v3add l (v3mul beta ld) in
          let! (u, s) := sm_get_2d sm s in
          let! (wi, f, pdf, flag) := bsdf_sample_f b (i_wo i) u in
          if (pdf =? f0) || is_black f then Ok (l, s)
          else
            let beta := v3mul beta (v3divs (v3scale f (fabs (v3dot wi (i_sn i)))) pdf) in
            let specular := negb (Z.land flag SPECULAR =? 0)%Z in
            let r := spawn_ray i wi in
            let bounces := (bounces + 1)%Z in
            if (3 <? bounces)%Z then
              let q := fmin (spectrum_y beta) (flit 95 2) in
              let! (v, s) := sm_get_1d sm s in
              if v >? q then Ok (l, s)
              else li_loop fuel s r l (v3divs beta q) specular bounces
            else li_loop fuel s r l beta specular bounces
      end
    end.

  (** integrator.rs:189-230 [li] *)
  Definition li (fuel : nat) (s : ST) (r : ray F) : res (V3 F * ST) :=
    li_loop fuel s r v3zero (spectrum_of f1) false 0.

  (** integrator.rs:102-103: camera ray and its radiance; [gen] is [camera.generate_ray] *)
  Definition shade (gen : P2 F -> res (ray F)) (fuel : nat) (s : ST) (p : P2 F) : res (V3 F * ST) :=
    let! r := gen p in li fuel s r.
End P.
