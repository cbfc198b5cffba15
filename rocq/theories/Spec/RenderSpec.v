(** * Specification vocabulary: rendering *)
From Coq Require Import ZArith List Bool Permutation.
From Verif Require Import Model.Num Model.Vector Model.BBox Model.Film Model.Sampler Model.Render.
From Verif Require Import Spec.Grid Spec.FilmSpec Spec.SamplerSpec.
Import ListNotations.
Local Open Scope Z_scope.

Section S.
  Context {F ST : Type} {FO : FOps F}.
  Variable (sm : sampler_ops F ST) (shade : ST -> P2 F -> res (V3 F * ST)).

  (** The sampler and the shading code together deliver [n] samples per pixel without a panic:
      [I] holds between samples, [A] when a sample begins, [B] after the camera sample has been
      drawn, and [left] counts the samples of the pixel that are still to come. *)
  Record serves (I A B : ST -> Prop) (left : ST -> nat) (n : nat) : Prop := {
    sv_start : forall s p, I s -> exists s', sm_start_pixel sm s p = Ok s' /\ A s' /\ left s' = n;
    sv_camera : forall s, A s -> exists u s', sm_get_2d sm s = Ok (u, s') /\ B s' /\ left s' = left s /\
                  in_unit (px u) /\ in_unit (py u);
    sv_shade : forall s p, B s -> exists l s', shade s p = Ok (l, s') /\ I s' /\ left s' = left s;
    sv_next : forall s, I s -> (1 <= left s)%nat -> exists b s', sm_next_sample sm s = Ok (b, s') /\ I s' /\
                left s = S (left s') /\ (b = true <-> left s' <> O) /\ (b = true -> A s') }.

  (** What [start_pixel] leaves depends on the pixel only, not on what was rendered before. *)
  Definition forgets (I : ST -> Prop) : Prop :=
    forall s s' p, I s -> I s' -> sm_start_pixel sm s p = sm_start_pixel sm s' p.

  (** The film position of a shot lies in the closed square of its pixel. *)
  Definition shot_in_pixel (sh : shot (F := F)) : Prop :=
    let '(p, pos, _) := sh in
    fle (fofZ (px p)) (px pos) = true /\ fle (px pos) (fofZ (px p + 1)) = true /\
    fle (fofZ (py p)) (py pos) = true /\ fle (py pos) (fofZ (py p + 1)) = true.

  (** What reaches the film of a list of shots: those with a finite, non-negative radiance. *)
  Definition valid_shots (l : list (shot (F := F))) : list (P2 F * V3 F) :=
    map (fun sh => (snd (fst sh), snd sh)) (List.filter (fun sh => valid_radiance (snd sh)) l).

  (** [n] consecutive shots for every pixel of the list, in order. *)
  Definition shots_per_pixel (n : nat) (ps : list (P2 Z)) (l : list (shot (F := F))) : Prop :=
    map (fun sh => fst (fst sh)) l = flat_map (fun p => repeat p n) ps.
End S.

(** ** Runs of the render threads *)
Section Runs.
  Context {F ST : Type} {FO : FOps F}.
  Variable (m : build) (sm : sampler_ops F ST) (shade : ST -> P2 F -> res (V3 F * ST)) (fuel : nat).

  (** [k] steps by arbitrary threads: a schedule is any such sequence *)
  Inductive steps : nat -> sys F ST -> sys F ST -> Prop :=
  | steps_0 y : steps O y y
  | steps_S k y y' i y'' : steps k y y' -> step m sm shade fuel i y' y'' -> steps (S k) y y''.

  Definition all_done (y : sys F ST) : Prop := forall t, In t (y_threads y) -> t = TDone.
End Runs.

(** The arguments of [Film::new] the theorems are about. *)
Definition film_args {F} {FO : FOps F} (res : P2 Z) (flt : filter F) : Prop :=
  (0 <= px res <= 2 ^ 22) /\ (0 <= py res <= 2 ^ 22) /\ px res * py res < 2 ^ 31 /\
  fle f0 (flt_radius flt) = true /\ fle (flt_radius flt) (fofZ (2 ^ 20)) = true.

(** Samples per pixel *)
Definition samples (spp : Z) : nat := Z.to_nat (Z.max 1 spp).

(** In debug builds the interval index of a Halton sampler stays far from overflow. *)
Definition h_small (m : build) (s0 s : halton) : Prop :=
  m = Release \/ h_interval s < (h_spp s0 + 1) * 31104.

(** Shading code that, called after the camera sample of a Halton sampler made as [s0], returns
    and uses the sampler only to draw numbers. *)
Definition halton_shade {F} {FO : FOps F} (m : build) (s0 : halton) (shade : halton -> P2 F -> res (V3 F * halton)) : Prop :=
  forall s p, reach (halton_ops (F := F) m) s0 s -> h_dim s = 2 -> h_small m s0 s ->
    exists l s', shade s p = Ok (l, s') /\ draws (halton_ops (F := F) m) s s'.

(** The same for the random sampler. *)
Definition random_shade {F G} (gen : G -> F * G) (m : build) (spp : Z)
    (shade : random_sampler (G := G) -> P2 F -> res (V3 F * random_sampler (G := G))) : Prop :=
  forall s p, rs_spp s = spp -> 0 <= rs_index s < Z.max 1 spp ->
    exists l s', shade s p = Ok (l, s') /\ draws (random_ops gen m) s s'.
