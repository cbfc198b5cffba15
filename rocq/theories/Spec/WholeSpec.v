(** * What a whole render must achieve (C89, C90) *)
From Coq Require Import ZArith List Bool Permutation Ascii.
From Flocq Require Import IEEE754.BinarySingleNaN.
From Verif Require Import Model.Num Model.NumB Model.Vector Model.BBox Model.Film Model.Sampler Model.Render.
From Verif Require Import Spec.FilmSpec Spec.Ppm Spec.RenderSpec.
Import ListNotations.
Local Open Scope Z_scope.

Section W.
  Context {L : Libm b32} {ST : Type}.
  Variables (m : build) (sm : sampler_ops b32 ST) (shade : ST -> P2 b32 -> res (V3 b32 * ST)) (fuel : nat).

  (** A build rendering the film [fm] of resolution [res] by [k] threads: under every schedule each thread
      that has not left can go on, the number of steps is bounded, and the run can be completed; once all threads
      have left, every tile has been rendered and merged exactly once, and the output file, if it did not hold a
      longer text before, holds a well-formed picture of that resolution, with the colours of the film. *)
  Definition whole_render (res : P2 Z) (fm : film b32) (s : ST) (k : nat) : Prop :=
    exists y0 tiles, start_sys m fm s k = Ok y0 /\ tile_items m (film_sample_bbox fm) = Ok tiles /\
      forall j y, steps m sm shade fuel j y0 y ->
        (j <= 3 * length tiles + k)%nat /\
        (forall i t, nth_error (y_threads y) i = Some t -> t <> TDone -> exists y', step m sm shade fuel i y y') /\
        (exists j' y', (j <= j')%nat /\ steps m sm shade fuel j' y0 y' /\ all_done y') /\
        (all_done y ->
           Permutation (map snd (y_merged y)) tiles /\
           forall old, (length old <= length (write_image_ppm (y_film y)))%nat ->
             exists i, parse_ppm (file_after_render old (y_film y)) = Some i /\ well_formed i /\
               im_w i = px res /\ im_h i = py res /\ im_max i = 255 /\
               forall q p, on_film (y_film y) q -> film_at (y_film y) q = Some p ->
                 nth_error (im_data i) (Z.to_nat (im_w i * py q + px q)) = Some (pixel_rgb p)).
End W.

(** tangents of numbers from 1/4 to 3/10 are between 1/4 and 1/2 *)
Definition good_tan (L : Libm b32) : Prop :=
  let q x y : b32 := Bdiv mode_NE (Bof_Z x) (Bof_Z y) in
  forall x, Bleb (q 1 4) x = true -> Bleb x (q 3 10) = true -> Bleb (q 1 4) (m_tan _ L x) = true /\ Bleb (m_tan _ L x) (q 1 2) = true.
