(** * Colour channels

    Vocabulary for C118. *)
From Coq Require Import ZArith Reals List.
From Verif Require Import Model.Num Model.NumX Model.Vector Model.Interaction Model.Shape Model.Container Model.Light Model.Scene Model.Path Model.Film.
From Verif Require Import Spec.RVec Proofs.XBase.

Inductive channel := Red | Green | Blue.
Definition chan {A} (c : channel) (v : V3 A) : A := match c with Red => vx v | Green => vy v | Blue => vz v end.
Definition level (c : channel) (q : Z * Z * Z) : Z := match q with (r, g, b) => match c with Red => r | Green => g | Blue => b end end.

(** the same in the channels of [C] *)
Definition agree (C : channel -> bool) (a b : rv) : Prop := forall c, C c = true -> chan c a = chan c b.

Section S.
  Context {T : Type} (C : channel -> bool).

  (** Two lights that send their light from the same points, with radiances that agree in the channels of [C] *)
  Record agree_light (l1 l2 : light XR T) : Prop := {
    agl_delta : l_is_delta l1 = l_is_delta l2;
    agl_addr : l_addr l1 = l_addr l2;
    agl_pdf : forall i w, l_pdf_li l1 i w = l_pdf_li l2 i w;
    agl_sample : forall i u,
      (exists wi a b pdf v, l_sample_li l1 i u = Ok (wi, fin3 a, pdf, v) /\ l_sample_li l2 i u = Ok (wi, fin3 b, pdf, v) /\ agree C a b) \/
      (forall q, l_sample_li l1 i u <> Ok q);
  }.

  (** Two scenes with the same shapes and materials in which everything shines alike in the channels of [C] *)
  Record agree_scene (surf1 surf2 : T -> surface XR T) (sc1 sc2 : scene XR T (container XR T)) : Prop := {
    ags_shapes : sc_shapes sc1 = sc_shapes sc2;
    ags_number : length (sc_lights sc1) = length (sc_lights sc2);
    ags_lights : forall n l1 l2, nth_error (sc_lights sc1) n = Some l1 -> nth_error (sc_lights sc2) n = Some l2 -> agree_light l1 l2;
    ags_scatter : forall t i, sf_scatter (surf1 t) i = sf_scatter (surf2 t) i;
    ags_l : forall t i w, exists a b, sf_l (surf1 t) i w = fin3 a /\ sf_l (surf2 t) i w = fin3 b /\ agree C a b;
  }.

  (** A scene in which nothing shines in the channels of [C] *)
  Definition dark_light (l : light XR T) : Prop := forall i u wi a pdf v, l_sample_li l i u = Ok (wi, a, pdf, v) ->
    exists a', a = fin3 a' /\ forall c, C c = true -> chan c a' = 0%R.
  Definition dark_scene (surf : T -> surface XR T) (sc : scene XR T (container XR T)) : Prop :=
    (forall l, In l (sc_lights sc) -> dark_light l) /\
    forall t i w, exists a, sf_l (surf t) i w = fin3 a /\ forall c, C c = true -> chan c a = 0%R.
End S.
