(** * reflection.rs: the BxDF trait, the BSDF, local-frame helpers *)
From Coq Require Import ZArith List Bool.
From Verif Require Import Model.Num Model.Vector Model.Common Model.Interaction.
Import ListNotations.
Local Open Scope Z_scope.

(** reflection.rs:6-12; a flag set is a [Z] *)
Definition REFLECTION : Z := 1.
Definition TRANSMISSION : Z := 2.
Definition DIFFUSE : Z := 4.
Definition GLOSSY : Z := 8.
Definition SPECULAR : Z := 16.

(** reflection.rs:14-32: a BxDF is a record of its methods *)
Record bxdf (F : Type) := mkBxDF {
  bx_flag : Z;
  bx_f : V3 F -> V3 F -> V3 F;
  bx_sample_f : V3 F -> P2 F -> V3 F * V3 F * F;
  bx_pdf : V3 F -> V3 F -> F;
}.
Arguments mkBxDF {F}. Arguments bx_flag {F}. Arguments bx_f {F}. Arguments bx_sample_f {F}. Arguments bx_pdf {F}.

(** reflection.rs:18-22 [has_flag]; the debug assertion flag <= ALL is not modelled *)
Definition has_flag {F} (x : bxdf F) (t : Z) : bool := Z.land t (bx_flag x) =? t.

(** reflection.rs:34-40 *)
Record bsdf (F : Type) := mkBSDF {
  bs_bxdfs : list (bxdf F);
  bs_gn : V3 F;
  bs_sn : V3 F;
  bs_s : V3 F;
  bs_t : V3 F;
}.
Arguments mkBSDF {F}. Arguments bs_bxdfs {F}. Arguments bs_gn {F}. Arguments bs_sn {F}.
Arguments bs_s {F}. Arguments bs_t {F}.

Section R.
  Context {F} {FO : FOps F}.
  Local Open Scope f_scope.

  (** reflection.rs:43-55 [BSDF::new] *)
  Definition bsdf_new {T} (i : interaction F T) : bsdf F :=
    let s := v3normalize (i_dpdu i) in
    mkBSDF [] (i_n i) (i_sn i) s (v3cross (i_sn i) s).

  (** reflection.rs:58-60 [add] *)
  Definition bsdf_add (b : bsdf F) (x : bxdf F) : bsdf F :=
    mkBSDF (bs_bxdfs b ++ [x]) (bs_gn b) (bs_sn b) (bs_s b) (bs_t b).

  (** reflection.rs:62-68 *)
  Definition world_to_local (b : bsdf F) (v : V3 F) : V3 F :=
    mkV3 (v3dot v (bs_s b)) (v3dot v (bs_t b)) (v3dot v (bs_sn b)).

  (** reflection.rs:70-76 *)
  Definition local_to_world (b : bsdf F) (v : V3 F) : V3 F :=
    let s := bs_s b in let t := bs_t b in let n := bs_sn b in
    mkV3 (vx s * vx v + vx t * vy v + vx n * vz v)
         (vy s * vx v + vy t * vy v + vy n * vz v)
         (vz s * vx v + vz t * vy v + vz n * vz v).

  (** reflection.rs:87-93 and 130-136: the sum over the components on the right side *)
  Definition bsdf_sum (l : list (bxdf F)) (reflect : bool) (wo wi : V3 F) : V3 F :=
    fold_left (fun f x =>
      if (reflect && has_flag x REFLECTION) || (negb reflect && has_flag x TRANSMISSION)
      then v3add f (bx_f x wo wi) else f) l v3zero.

  (** reflection.rs:85, 129 *)
  Definition bsdf_reflect (b : bsdf F) (wo_w wi_w : V3 F) : bool :=
    v3dot wi_w (bs_gn b) * v3dot wo_w (bs_gn b) >? f0.

  (** reflection.rs:78-96 [f] *)
  Definition bsdf_f (b : bsdf F) (wo_w wi_w : V3 F) : V3 F :=
    let wo := world_to_local b wo_w in
    if vz wo =? f0 then v3zero
    else
      let wi := world_to_local b wi_w in
      bsdf_sum (bs_bxdfs b) (bsdf_reflect b wo_w wi_w) wo wi.

  (** reflection.rs:123-127: the pdfs of the components other than number [k] added to [pdf] *)
  Fixpoint other_pdfs (l : list (bxdf F)) (i k : Z) (wo wi : V3 F) (pdf : F) : F :=
    match l with
    | [] => pdf
    | x :: l =>
      let pdf := if (i =? k)%Z then pdf else pdf + bx_pdf x wo wi in
      other_pdfs l (i + 1)%Z k wo wi pdf
    end.

  (** [Default::default()] of the tuple returned by sample_f *)
  Definition no_sample : V3 F * V3 F * F * Z := (v3zero, v3zero, f0, 0%Z).

  (** reflection.rs:105-106: the component number *)
  Definition bsdf_pick (n : Z) (u : F) : Z := fto_usize (ffloor (u * fofZ n)).

  (** reflection.rs:110: the remapped first sample coordinate *)
  Definition bsdf_remap (n : Z) (u : F) : F := u * fofZ n - fofZ (bsdf_pick n u).

  (** reflection.rs:99-143 [sample_f] *)
  Definition bsdf_sample_f (b : bsdf F) (wo_w : V3 F) (sample : P2 F) : res (V3 F * V3 F * F * Z) :=
    let n := Z.of_nat (length (bs_bxdfs b)) in
    if (n =? 0)%Z then Ok no_sample
    else
      let k := bsdf_pick n (px sample) in
      let! x := idx (bs_bxdfs b) k in
      let sample := mkP2 (bsdf_remap n (px sample)) (py sample) in
      let wo := world_to_local b wo_w in
      if vz wo =? f0 then Ok no_sample
      else
        let '(wi, f, pdf) := bx_sample_f x wo sample in
        if pdf =? f0 then Ok no_sample
        else
          let wi_w := local_to_world b wi in
          let '(f, pdf) :=
            if negb (has_flag x SPECULAR) && (1 <? n)%Z
            then (bsdf_sum (bs_bxdfs b) (bsdf_reflect b wo_w wi_w) wo wi,
                  other_pdfs (bs_bxdfs b) 0 k wo wi pdf)
            else (f, pdf) in
          let pdf := if (1 <? n)%Z then pdf / fofZ n else pdf in
          Ok (wi_w, f, pdf, bx_flag x).

  (** reflection.rs:145-163 [pdf] *)
  Definition bsdf_pdf (b : bsdf F) (wo_w wi_w : V3 F) : F :=
    let n := Z.of_nat (length (bs_bxdfs b)) in
    if (n =? 0)%Z then f0
    else
      let wo := world_to_local b wo_w in
      let wi := world_to_local b wi_w in
      if vz wo =? f0 then f0
      else fold_left (fun pdf x => pdf + bx_pdf x wo wi) (bs_bxdfs b) f0 / fofZ n.

  (** reflection.rs:166-218 *)
  Definition cos_theta (w : V3 F) : F := vz w.
  Definition cos_2_theta (w : V3 F) : F := vz w * vz w.
  Definition abs_cos_theta (w : V3 F) : F := fabs (vz w).
  Definition sin_2_theta (w : V3 F) : F := fmax (f1 - cos_2_theta w) f0.
  Definition sin_theta (w : V3 F) : F := fsqrt (sin_2_theta w).
  Definition tan_theta (w : V3 F) : F := sin_theta w / cos_theta w.
  Definition tan_2_theta (w : V3 F) : F := sin_2_theta w / cos_2_theta w.
  Definition cos_phi (w : V3 F) : F :=
    let s := sin_theta w in
    if s =? f0 then f1 else clamp (vx w / s) (- f1) f1.
  Definition sin_phi (w : V3 F) : F :=
    let s := sin_theta w in
    if s =? f0 then f0 else clamp (vy w / s) (- f1) f1.
  Definition cos_2_phi (w : V3 F) : F := fsq (cos_phi w).
  Definition sin_2_phi (w : V3 F) : F := fsq (sin_phi w).

  (** reflection.rs:220-222 *)
  Definition same_hemisphere (w1 w2 : V3 F) : bool := vz w1 * vz w2 >? f0.

  (** reflection.rs:224-226 [reflect] *)
  Definition reflect (w n : V3 F) : V3 F :=
    v3add (v3neg w) (v3scale (v3scale n (v3dot w n)) f2).

  (** reflection.rs:228-241 [refract] *)
  Definition refract (wi n : V3 F) (eta : F) : option (V3 F) :=
    let cos_theta_i := v3dot wi n in
    let sin_2_theta_i := fmax (f1 - cos_theta_i * cos_theta_i) f0 in
    let sin_2_theta_t := eta * eta * sin_2_theta_i in
    if sin_2_theta_t >=? f1 then None
    else
      let cos_theta_t := fsqrt (f1 - sin_2_theta_t) in
      Some (v3add (v3scale (v3neg wi) eta) (v3scale n (cos_theta_i * eta - cos_theta_t))).
End R.
