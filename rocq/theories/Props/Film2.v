(** * C03, C04: splatting and merging on films *)
From Coq Require Import ZArith Reals List Bool Lia Lra.
From Verif Require Import Model.Num Model.NumX Model.NumB Model.Vector Model.BBox Model.Film.
From Verif Require Import Spec.Grid Spec.FilmSpec.
From Verif Require Import Proofs.XBase Proofs.FLaws Proofs.Iter Proofs.Tiles Proofs.FilmGrid Proofs.FilmOps Proofs.FilmJobs Proofs.Splat.
Import ListNotations.
Local Open Scope Z_scope.

(** C03.  In binary32 (any platform math library [L], any filter): a film of at most 2^22 x 2^22
    and fewer than 2^31 pixels, radius between 0 and 2^20, can be created; its sample area can be
    cut into tiles; and every sequence of jobs (take a tile, splat any samples that lie in it, merge
    the tile) runs without index panic or overflow.  In a release build the samples may be
    anywhere (also NaN or infinite). *)
Theorem C03_film_never_panics : forall (L : Libm b32) (m : build) (res : P2 Z) (flt : filter b32),
  0 <= px res <= 2 ^ 22 -> 0 <= py res <= 2 ^ 22 -> px res * py res < 2 ^ 31 ->
  fle f0 (flt_radius flt) = true -> fle (flt_radius flt) (fofZ (2 ^ 20)) = true ->
  exists fm tiles, film_new m res flt = Ok fm /\ tile_items m (film_sample_bbox fm) = Ok tiles /\
    forall jobs : list (job b32),
      (forall j, In j jobs -> In (fst j) tiles /\
         (m = Release \/ forall s, In s (snd j) -> pos_in_tile (fst j) (fst s))) ->
      exists fm', rfold (run_job m) jobs fm = Ok fm'.
Proof.
  intros L m res flt Hx Hy Ha Hr1 Hr2. destruct (radius_fin _ Hr1 Hr2) as (r & Er & Hr).
  destruct (film_new_ok m res flt r Hx Hy Ha Er Hr) as (fm & Ef & W & _).
  destruct (tiles_of_film m r fm W) as (tiles & Et & Ht).
  exists fm, tiles. split; [exact Ef|]. split; [exact Et|]. intros jobs Hj.
  destruct (run_jobs_ok (fun _ => True) m r fm jobs W) as (fm' & E & _); auto.
  - intros j Hin. destruct (Hj j Hin) as [H1 H2]. split; auto.
  - unfold splat_keeps. auto.
  - now exists fm'.
Qed.
Print Assumptions C03_film_never_panics.

(** The bound on the position matters in debug builds: a position at the i32 limit overflows. *)
Definition Lid : Libm b32 :=
  {| m_sin := fun x => x; m_cos := fun x => x; m_tan := fun x => x; m_atan := fun x => x; m_acos := fun x => x;
     m_atan2 := fun x _ => x; m_exp := fun x => x; m_ln := fun x => x; m_powf := fun x _ => x |}.
#[local] Existing Instance Lid.

Definition box_filter (r : b32) : filter b32 := mkFilter r (fun _ => f1).

(** A 20 x 10 film with radius 2: two tiles, samples in the corners of the first one. *)
Example C03_example :
  (let! fm := film_new Debug (mkP2 20 10) (box_filter f2) in
   let! tiles := tile_items Debug (film_sample_bbox fm) in
   let! t := idx tiles 0 in
   let! fm := run_job Debug fm (t, [(mkP2 (fofZ (-2)) (fofZ (-2)), mkV3 f1 f1 f1);
                                    (mkP2 (fofZ 14) (fofZ 12), mkV3 f1 f1 f1)]) in
   Ok (tiles, map (fun p => feq (p_wsum p) f0) (firstn 3 (fm_pixels fm)),
       nth_error (map (fun p => feq (p_wsum p) f1) (fm_pixels fm)) (Z.to_nat (9 * 20 + 15))))
  = Ok ([mkB2 (mkP2 (-2) (-2)) (mkP2 14 12); mkB2 (mkP2 14 (-2)) (mkP2 22 12)],
        [true; true; true], Some false).
Proof. vm_compute. reflexivity. Qed.

(** C04.  Exact arithmetic: a film with 0 < radius <= 2^20, any content, any tile handed out for
    it, any list of samples in that tile (position, radiance): running the job gives every pixel
    of the film exactly the deposits of the samples covering its centre, in order, and leaves the
    others as they were. *)
Theorem C04_splat_exact : forall (m : build) (r : R) (fm : film XR) (tiles : list bbox2) (t : bbox2)
    (samples : list ((R * R) * V3 XR)),
  film_ok r fm -> (0 < r)%R ->
  tile_items m (film_sample_bbox fm) = Ok tiles -> In t tiles ->
  (forall s, In s samples ->
     (IZR (px (b2min t)) <= fst (fst s) <= IZR (px (b2max t)))%R /\
     (IZR (py (b2min t)) <= snd (fst s) <= IZR (py (b2max t)))%R) ->
  exists fm',
    run_job m fm (t, map (fun s => (mkP2 (XFin (fst (fst s))) (XFin (snd (fst s))), snd s)) samples) = Ok fm' /\
    fm_res fm' = fm_res fm /\
    forall q, on_film fm q -> exists c, film_at fm q = Some c /\
      film_at fm' q = Some (fold_left (deposit r (fm_table fm) q) samples c).
Proof.
  intros m r fm tiles t samples W Hr Et Hin Hs.
  destruct (tiles_of_film m r fm W) as (tiles' & Et' & Ht). rewrite Et in Et'. injection Et' as <-.
  destruct (run_job_deposit m r fm t W Hr (Ht t Hin) samples) as (fm' & E & W' & E1 & E2 & E3 & G).
  { intros s Hs'. apply pos_in_tile_x. now apply Hs. }
  exists fm'. split; [exact E|]. split; [auto|]. intros q Hq.
  destruct (gget_some (film_rect fm) (fm_pixels fm) q) as (c & Ec).
  - now apply on_film_rect.
  - rewrite gsize_film. apply (fo_len _ _ W).
  - rewrite <- film_at_gget in Ec. exists c. split; auto. rewrite G by auto. now rewrite Ec.
Qed.
Print Assumptions C04_splat_exact.

(** [film_ok] holds for every film [film_new] creates (within the size limits). *)
Theorem C04_film_new_ok : forall (m : build) (res : P2 Z) (flt : filter XR) (r : R),
  0 <= px res <= 2 ^ 22 -> 0 <= py res <= 2 ^ 22 -> px res * py res < 2 ^ 31 ->
  flt_radius flt = XFin r -> (0 <= r <= IZR (2 ^ 20))%R ->
  exists fm, film_new m res flt = Ok fm /\ film_ok r fm.
Proof.
  intros m res flt r Hx Hy Ha Er Hr.
  destruct (film_new_ok (FL := XR_FLaws) m res flt r Hx Hy Ha Er Hr) as (fm & E & W & _). eauto.
Qed.
Print Assumptions C04_film_new_ok.

(** The deposit of one sample at (1.2, 0.5) with radius 1 on pixels 0..2 of the first row: the
    centres 0.5 and 1.5 are covered, 2.5 is not; cell of pixel 0 is floor(0.7 * 16) = 11. *)
Example C04_example_covers :
  covers 1 (12 / 10) 0 /\ covers 1 (12 / 10) 1 /\ ~ covers 1 (12 / 10) 2 /\ cell 1 (12 / 10) 0 = 11.
Proof.
  unfold covers. repeat split.
  - rewrite Rabs_left1; simpl; lra.
  - rewrite Rabs_pos_eq; simpl; lra.
  - intros H. rewrite Rabs_pos_eq in H; simpl in H; lra.
  - unfold cell. replace (Rabs (IZR 0 + / 2 - 12 / 10) / 1 * 16)%R with (112 / 10)%R.
    + replace (Flocq.Core.Raux.Zfloor (112 / 10)) with 11; [reflexivity|].
      symmetry. apply Flocq.Core.Raux.Zfloor_imp. simpl. lra.
    + rewrite Rabs_left1; simpl; lra.
Qed.

(** The hypotheses are met by a 3 x 1 film of radius 1 and that sample. *)
Example C04_example_hyps :
  exists fm tiles, film_new Debug (mkP2 3 1) (mkFilter (XFin 1) (fun _ => XFin 1)) = Ok fm /\
    film_ok 1 fm /\ tile_items Debug (film_sample_bbox fm) = Ok tiles /\
    exists t, In t tiles /\ in_rect t (mkP2 1 0).
Proof.
  destruct (C04_film_new_ok Debug (mkP2 3 1) (mkFilter (XFin 1) (fun _ => XFin 1)) 1) as (fm & E & W);
    cbn [px py flt_radius]; try lia; [reflexivity|simpl; lra|].
  destruct (tiles_of_film Debug 1 fm W) as (tiles & Et & _). exists fm, tiles.
  do 3 (split; [assumption|]).
  pose proof (sample_bbox_tileable 1 fm W) as Ht. rewrite tile_items_ok in Et by auto. injection Et as <-.
  destruct (proj2 (tile_list_partitions _ Ht) (mkP2 1 0)) as (k & t & Hk & Hp & _).
  - rewrite (sample_bbox_eq 1 fm W). destruct (sb_lo_spec 1 fm W) as [Hl _].
    assert (Eres : fm_res fm = mkP2 3 1).
    { destruct (film_new_ok (FL := XR_FLaws) Debug (mkP2 3 1) (mkFilter (XFin 1) (fun _ => XFin 1)) 1) as (fm2 & E2 & _ & R2 & _);
        cbn [px py flt_radius]; try lia; [reflexivity|simpl; lra|]. rewrite E in E2. injection E2 as <-. exact R2. }
    rewrite Eres. cbn [px py].
    destruct (sb_hi_spec 1 fm 1 W) as (_ & H1 & _); [lia|].
    assert (E3 : sb_hi fm 3 = 4).
    { assert (Er : fm_radius fm = XFin 1) by apply (fo_r _ _ W).
      unfold sb_hi. rewrite Er.
      rewrite (to_i32_ceil _ (7 / 2)%R).
      - apply Flocq.Core.Raux.Zceil_imp. simpl. lra.
      - unfold fhalf. xsimp. rewrite xdiv_fin by lra. cbn. f_equal. lra.
      - rewrite IZR24, Rabs_pos_eq; lra. }
    unfold in_rect; cbn [px py b2min b2max]. rewrite E3. lia.
  - exists t. split; [eapply nth_error_In; eauto|auto].
Qed.
