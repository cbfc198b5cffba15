(** * Scenes lit by the light of two others

    Vocabulary for C116. *)
From Coq Require Import ZArith Reals List.
Import ListNotations.
From Verif Require Import Model.Num Model.NumX Model.Vector Model.Interaction Model.Shape Model.Container Model.Light Model.Scene Model.Path Model.Film Model.Render.
From Verif Require Import Spec.RVec Spec.EstimatorSpec Proofs.XBase.

(** [ka] times [a] and [kb] times [b] together, channel by channel *)
Definition mix (ka kb : rv) (a b : rv) : rv := vadd (vprod ka a) (vprod kb b).
Definition grey (k : R) : rv := mkV3 k k k.

Section S.
  Context {T : Type} (ka kb : rv).

  (** Three lights that send their light from the same points, the third one [ka] times what the first sends and [kb] times what the
      second sends *)
  Record sum_light (l1 l2 l : light XR T) : Prop := {
    sl_delta : l_is_delta l1 = l_is_delta l /\ l_is_delta l2 = l_is_delta l;
    sl_addr : l_addr l1 = l_addr l /\ l_addr l2 = l_addr l;
    sl_pdf : forall i w, l_pdf_li l1 i w = l_pdf_li l i w /\ l_pdf_li l2 i w = l_pdf_li l i w;
    sl_sample : forall i u,
      (exists wi a b pdf v, l_sample_li l1 i u = Ok (wi, fin3 a, pdf, v) /\ l_sample_li l2 i u = Ok (wi, fin3 b, pdf, v) /\
         l_sample_li l i u = Ok (wi, fin3 (mix ka kb a b), pdf, v)) \/
      (forall q, l_sample_li l1 i u <> Ok q);
  }.

  (** Three scenes with the same shapes and materials; in the third one everything shines with [ka] times
      what it has in the first and [kb] times what it has in the second.  A light that is off in one of them is there with radiance 0. *)
  Record sum_scene (surf1 surf2 surf : T -> surface XR T) (sc1 sc2 sc : scene XR T (container XR T)) : Prop := {
    ss_shapes : sc_shapes sc1 = sc_shapes sc /\ sc_shapes sc2 = sc_shapes sc;
    ss_number : length (sc_lights sc1) = length (sc_lights sc) /\ length (sc_lights sc2) = length (sc_lights sc);
    ss_lights : forall n l1 l2 l, nth_error (sc_lights sc1) n = Some l1 -> nth_error (sc_lights sc2) n = Some l2 ->
      nth_error (sc_lights sc) n = Some l -> sum_light l1 l2 l;
    ss_scatter : forall t i, sf_scatter (surf1 t) i = sf_scatter (surf t) i /\ sf_scatter (surf2 t) i = sf_scatter (surf t) i;
    ss_l : forall t i w, exists a b, sf_l (surf1 t) i w = fin3 a /\ sf_l (surf2 t) i w = fin3 b /\ sf_l (surf t) i w = fin3 (mix ka kb a b);
  }.
End S.

(** A pixel of the third film has [ka] and [kb] times the colour sums of the first two, and the same sum of weights. *)
Definition pixel_sum (ka kb : rv) (p1 p2 p : pixel XR) : Prop :=
  exists a b, p_color p1 = fin3 a /\ p_color p2 = fin3 b /\ p_color p = fin3 (mix ka kb a b) /\ p_wsum p1 = p_wsum p /\ p_wsum p2 = p_wsum p.

(** [l1], [l2] and [l] have the same length and corresponding elements are related *)
Inductive all3 {A} (R : A -> A -> A -> Prop) : list A -> list A -> list A -> Prop :=
| all3_nil : all3 R [] [] []
| all3_cons x1 x2 x l1 l2 l : R x1 x2 x -> all3 R l1 l2 l -> all3 R (x1 :: l1) (x2 :: l2) (x :: l).

Definition film_sum (ka kb : rv) (f1 f2 f : film XR) : Prop :=
  fm_res f1 = fm_res f /\ fm_res f2 = fm_res f /\ fm_radius f1 = fm_radius f /\ fm_radius f2 = fm_radius f /\
  fm_table f1 = fm_table f /\ fm_table f2 = fm_table f /\ all3 (pixel_sum ka kb) (fm_pixels f1) (fm_pixels f2) (fm_pixels f).

(** Shading that panics where the radiance is not one that the film accepts: a render that succeeds with it threw no sample away. *)
Definition only_valid {ST} (shade : ST -> P2 XR -> res (V3 XR * ST)) (s : ST) (p : P2 XR) : res (V3 XR * ST) :=
  let! (l, s) := shade s p in if valid_radiance l then Ok (l, s) else Panic.
