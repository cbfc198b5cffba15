(** * Whole renders (C89), and the example program (C90) *)
From Coq Require Import ZArith Reals List Bool Lia Permutation Ascii.
From Flocq Require Import IEEE754.BinarySingleNaN.
From Verif Require Import Model.Num Model.NumX Model.NumB Model.Vector Model.Common Model.BBox Model.Film Model.Interaction Model.Shape
  Model.Sphere Model.Triangle Model.Container Model.KdTree Model.Matrix Model.Transform Model.Camera Model.Sampler
  Model.Sampling Model.Reflection Model.Texture Model.Material Model.Light Model.Scene Model.Path Model.Render Model.HelloWorld.
From Verif Require Import Spec.Grid Spec.FilmSpec Spec.Ppm Spec.SamplerSpec Spec.PathSpec Spec.RenderSpec Spec.TameSpec Spec.WholeSpec.
From Verif Require Spec.KdSpec.
From Verif Require Import Proofs.XBase Proofs.FLaws Proofs.Tiles Proofs.FilmOps Proofs.FilmJobs Proofs.RenderLocal Proofs.Threads Proofs.Order.
From Verif Require Import Props.RenderProps Props.Film3 Props.Containers Props.Robust2.
Import ListNotations.
Local Open Scope Z_scope.

(** At every moment of every run the film has the size it was made with. *)
Lemma film_keeps_size {F} {FO : FOps F} {FL : FLaws F} {ST} m sm shade fuel I A B left n res flt fm (s : ST) k y0 j y :
  serves sm shade I A B left n -> (1 <= n <= fuel)%nat -> I s ->
  film_args res flt -> film_new m res flt = Ok fm -> start_sys m fm s k = Ok y0 -> steps m sm shade fuel j y0 y ->
  fm_res (y_film y) = res /\ Z.of_nat (length (fm_pixels (y_film y))) = px res * py res.
Proof.
  intros V Hn Is Ha En E0 Sy.
  destruct (film_args_ok m res flt Ha) as (fm' & r & E' & W & Er & _). rewrite En in E'. injection E' as <-.
  pose proof (start_inv m sm shade fuel I n r fm W s k y0 Is E0) as Q0.
  destruct (steps_inv m sm shade fuel I A B left n r fm V W Hn j y0 y [] Q0 Sy) as (js & Q & _).
  pose proof (si_jobs _ _ _ _ _ _ _ _ _ _ Q) as Ej. pose proof (si_prod _ _ _ _ _ _ _ _ _ _ Q) as Hp.
  assert (Ht : forall b, In b (map fst js) -> tile_of_sample_area fm b).
  { intros b Hb. rewrite Ej in Hb. apply in_map_iff in Hb. destruct Hb as ([i b'] & <- & Hin). apply in_rev in Hin. cbn [snd].
    eapply taken_in_area; [exact W|exact Q|]. eapply Permutation_in; [apply Permutation_sym, (si_perm _ _ _ _ _ _ _ _ _ _ Q)|].
    apply in_or_app. left. exact Hin. }
  destruct (run_jobs_ok (fun _ => True) m r fm js W) as (fm1 & E1 & W1 & R1 & _); auto.
  - intros [b l] Hx. apply (produced_job_ok m sm shade fuel I n r fm W); [apply Ht; now apply (in_map fst) in Hx|apply (Hp _ Hx)].
  - intros. unfold splat_keeps. auto.
  - pose proof (si_film _ _ _ _ _ _ _ _ _ _ Q) as Ef. rewrite E1 in Ef. injection Ef as <-. pose proof (fo_len _ _ W1) as Hl. rewrite R1, Er in *. auto.
Qed.

(** ** C89: every sampler and every shading code that serve *)
Lemma serves_whole (L : Libm b32) {ST} m sm shade fuel I A B left n res flt fm (s : ST) k :
  serves sm shade I A B left n -> (1 <= n <= fuel)%nat -> I s -> film_args (F := b32) res flt -> film_new m res flt = Ok fm ->
  (1 <= k)%nat -> whole_render m sm shade fuel res fm s k.
Proof.
  intros V Hn Is Ha En Hk.
  destruct (C05_every_schedule b32 _ (B32_FLaws L) ST m sm shade fuel I A B left n res flt fm s k V Hn Is Ha En)
    as (y0 & tiles & E0 & Et & Nd & _ & H).
  exists y0, tiles. split; [exact E0|]. split; [exact Et|]. intros j y Sy. destruct (H j y Sy) as (H1 & _ & H2 & H3).
  split; [exact H1|]. split; [exact H2|]. split.
  { destruct (C05_every_run_finishes b32 _ (B32_FLaws L) ST m sm shade fuel I A B left n res flt fm s k y0 j y V Hn Is Ha En E0 Sy)
      as (j' & y' & Hj & Sy' & D). eauto. }
  intros D. destruct (H3 D Hk) as [Ht Hp]. split.
  - rewrite <- Ht. apply Permutation_map. eapply Permutation_trans; [apply Permutation_sym, Hp|apply Permutation_rev].
  - intros old Hold. destruct (film_keeps_size (FL := B32_FLaws L) m sm shade fuel I A B left n res flt fm s k y0 j y V Hn Is Ha En E0 Sy) as [Er Hl].
    destruct (C08_ppm_round_trip L (y_film y)) as (i & P & Q & X & Y & C & Hpx); rewrite ?Er in *; [destruct Ha; lia|destruct Ha as (? & ? & _); lia|exact Hl|].
    exists i. rewrite (proj2 (proj2 (proj2 (C09_exact_file_partial b32 _ (y_film y) old))) Hold). auto 8.
Qed.

(** A film's sampling area suits the Halton sampler. *)
Lemma film_area (L : Libm b32) m res (flt : filter b32) fm : film_args (F := b32) res flt -> film_new m res flt = Ok fm ->
  exists w h, area (film_sample_bbox fm) w h.
Proof.
  intros Ha En. destruct (film_args_ok (FL := B32_FLaws L) m res flt Ha) as (fm' & r & E' & W & _). rewrite En in E'. injection E' as <-.
  pose proof (sample_bbox_tileable r fm W) as Hb. unfold tileable in Hb. eexists _, _. repeat split; lia.
Qed.

(** Matt scenes, release builds, cameras that may stretch directions further than calm ones.  With the Halton sampler
    and with the random sampler. *)
Theorem C89_matt_scenes : forall (L : Libm b32) (L64 : Libm b64) (T : Type) (sh : T -> shape b32 T) (surf : T -> surface b32 T)
    (sc : scene b32 T (container b32 T)) (l : list T) teq (cam : perspective_camera b32) res flt fm spp k,
  tame_libm L -> tame_scene L L64 sh surf sc l -> tame_camera L cam ->
  film_args (F := b32) res flt -> film_new Release res flt = Ok fm -> 0 <= spp < 2 ^ 32 -> (1 <= k)%nat ->
  (exists s0, halton_new Release spp (film_sample_bbox fm) = Ok s0 /\
     whole_render Release (halton_ops Release) (shade (halton_ops Release) teq surf sc (generate_ray Release cam) 66) (samples spp) res fm s0 k) /\
  (forall G (rng : G -> b32 * G) g, (forall g, in_unit (fst (rng g))) -> 1 <= spp ->
     whole_render Release (random_ops rng Release) (shade (random_ops rng Release) teq surf sc (generate_ray Release cam) 66) (samples spp) res fm
       (random_new spp g) k).
Proof.
  intros L L64 T sh surf sc l teq cam res flt fm spp k HL HS HC Ha En Hs Hk.
  destruct (C70_tame_partial L L64 T sh surf sc l teq cam HL HS HC) as [RH RR]. split.
  - destruct (film_area L Release res flt fm Ha En) as (w & h & Har). destruct (Props.HaltonProps.halton_new_total Release spp _ w h Har) as (s0 & Eh).
    exists s0. split; [exact Eh|].
    destruct (halton_serves_new (FL := B32_FLaws L) Release spp _ w h s0 _ Har Eh Hs (or_introl eq_refl) (RH spp _ w h s0 Har Eh))
      as (I & A & B & left & V & Is & _).
    eapply serves_whole; eauto. unfold samples. lia.
  - intros G rng g Hg H1.
    destruct (random_serves_new (FL := B32_FLaws L) rng Release spp g _ Hg Hs (or_introl eq_refl) (RR G rng spp Hg H1)) as (I & A & B & left & V & Is).
    eapply serves_whole; eauto. unfold samples. lia.
Qed.
Print Assumptions C89_matt_scenes.
