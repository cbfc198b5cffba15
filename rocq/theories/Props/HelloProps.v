(** * The example program (C90) *)
From Coq Require Import ZArith Reals List Bool Lia Lra Permutation Ascii.
From Flocq Require Import Core.Raux IEEE754.BinarySingleNaN.
From Verif Require Import Model.Num Model.NumX Model.NumB Model.Vector Model.Common Model.BBox Model.Film Model.Interaction Model.Shape
  Model.Sphere Model.Triangle Model.Container Model.KdTree Model.Matrix Model.Transform Model.Camera Model.Sampler
  Model.Sampling Model.Reflection Model.Texture Model.Material Model.Light Model.Scene Model.Path Model.Render Model.HelloWorld.
From Verif Require Import Spec.Grid Spec.FilmSpec Spec.Ppm Spec.SamplerSpec Spec.PathSpec Spec.RenderSpec Spec.TameSpec Spec.WholeSpec.
From Verif Require Spec.KdSpec.
From Verif Require Import Proofs.XBase Proofs.FLaws Proofs.SortProofs.
From Verif Require Import Props.RenderProps Props.Film3 Props.Containers Props.Robust2 Props.WholeRender.
Import ListNotations.
Local Open Scope Z_scope.

Lemma recip_twice {F} {FO : FOps F} {FL : FLaws F} (t : F) : fle (fdiv f1 (fofZ 4)) t = true -> fle t (fdiv f1 f2) = true ->
  exists r, emb (fdiv f1 (fdiv f1 t)) = XFin r.
Proof.
  intros H1 H2. rewrite emb_le in H1, H2.
  assert (N4 : emb (fofZ 4) = XFin 4) by (apply emb_ofZ_exact; cbn; lia).
  rewrite emb_div, emb_f1, N4 in H1 by (rewrite N4; intros E; injection E; lra).
  rewrite emb_div, emb_f1, emb_f2 in H2 by (rewrite emb_f2; intros E; injection E; lra).
  rewrite xdiv_fin in H1, H2 by lra.
  assert (E4 : rn (XFin (1 / 4)) = XFin (1 / 4)).
  { replace (1 / 4)%R with (IZR 1 / IZR (2 ^ 2))%R by (cbn; lra). apply rn_dyadic; cbn; lia. }
  replace (1 / 2)%R with (/ 2)%R in H2 by lra. rewrite E4 in H1. rewrite rn_half in H2.
  destruct (emb t) as [|[]|x] eqn:Et; try discriminate; cbn in H1, H2; try discriminate. rb.
  rewrite (emb_div f1 (fdiv f1 t)); rewrite emb_div, emb_f1, Et, xdiv_fin by (lra || (rewrite Et; intros E; injection E; lra)).
  - assert (X : (2 <= 1 / x <= 4)%R).
    { split; [apply (Rmult_le_reg_r x); [lra|]; replace (1 / x * x)%R with 1%R by (field; lra); lra|
              apply (Rmult_le_reg_r x); [lra|]; replace (1 / x * x)%R with 1%R by (field; lra); lra]. }
    destruct (rn_finite (1 / x)) as (y & Ey); [rewrite Rabs_pos_eq by lra; apply Rle_trans with 4%R; [lra|now apply IZR_le]|].
    pose proof (rn_ge_Z 2 (XFin (1 / x)) ltac:(cbn; lia) ltac:(cbn; rb; lra)) as Y. rewrite Ey in Y |- *. cbn in Y. rb.
    rewrite xdiv_fin by lra. apply rn_finite. rewrite Rabs_pos_eq.
    + apply Rle_trans with 1%R; [|now apply IZR_le]. apply (Rmult_le_reg_r y); [lra|]. replace (1 / y * y)%R with 1%R by (field; lra). lra.
    + apply Rlt_le, Rdiv_lt_0_compat; lra.
  - assert (X : (2 <= 1 / x)%R).
    { apply (Rmult_le_reg_r x); [lra|]. replace (1 / x * x)%R with 1%R by (field; lra). lra. }
    pose proof (rn_ge_Z 2 (XFin (1 / x)) ltac:(cbn; lia) ltac:(cbn; rb; lra)) as Y. intros E. rewrite E in Y. cbn in Y. rb. lra.
Qed.

Section H.
  Context (L : Libm b32) (L64 : Libm b64).
  Local Existing Instance B32_FOps.
  Local Existing Instance B64_FOps.

  Lemma hw_tri_tame t : In t [hw_lamp1; hw_lamp2; hw_floor1; hw_floor2] -> tame_triangle L t.
  Proof.
    intros H. repeat destruct H as [<-|H]; try contradiction;
      (constructor; [reflexivity| | | |vm_compute; reflexivity|vm_compute; reflexivity|vm_compute; reflexivity]; repeat split; vm_compute; reflexivity).
  Qed.

  Lemma hw_shapes_tame t : tame_shape L (L64 := L64) (hw_sh (D := b64) t) /\ matt L (sf_scatter (hw_surf t)).
  Proof.
    split.
    - destruct t; [apply tame_lamp|apply tame_lamp|apply tame_sp|apply tame_tr|apply tame_tr]; try (apply hw_tri_tame; cbn; tauto).
      constructor; [repeat split|..]; vm_compute; reflexivity.
    - destruct t; eexists; (split; [|reflexivity]); intros i; eexists; reflexivity.
  Qed.

  Lemma hw_boxes t : KdSpec.box_ordered (sh_bbox (hw_sh (D := b64) t)).
  Proof. destruct t; repeat split; vm_compute; reflexivity. Qed.

  Lemma hw_box : exists bb, scene_bbox (hw_sh (D := b64)) hw_al hw_builder = Ok bb.
  Proof. unfold scene_bbox, hw_builder, add_shape, add_area_light, builder_new, bbox_of_shapes. cbn [bd_shapes bd_areas app rbind]. eexists. reflexivity. Qed.

  Lemma hw_scene_ok srt : KdSpec.sort_by_ok edge_cmp srt ->
    exists sc, hw_scene (D := b64) srt Release = Ok sc /\
      tame_scene L L64 (hw_sh (D := b64)) hw_surf sc [Ball; Floor1; Floor2; Lamp1; Lamp2].
  Proof.
    intros SO. set (l := [Ball; Floor1; Floor2; Lamp1; Lamp2]).
    destruct (C44_build b32 hw_shape _ (B32_FLaws L) (hw_sh (D := b64)) srt Release l None SO) as (kd & Ek & _); [discriminate|cbn; unfold usize_max; lia|intros; apply hw_boxes|].
    unfold hw_scene, construct. change (bd_shapes hw_builder ++ bd_areas hw_builder) with l. rewrite Ek.
    destruct hw_box as (bb & ->).
    cbn [rbind]. eexists. split; [reflexivity|]. constructor.
    - intros t _. apply hw_shapes_tame.
    - cbn [sc_lights]. intros q Hq. cbn in Hq. repeat destruct Hq as [<-|Hq]; try contradiction; apply tame_area; apply hw_tri_tame; cbn; tauto.
    - right. exists srt, Release, None, kd. auto.
  Qed.

  (** ** The camera *)
  Definition zerob (x : b32) : bool := match x with B754_zero _ => true | _ => false end.
  Lemma zero_times (a x : b32) : zerob a = true -> is_finite x = true -> fmul a x = fmul a (B754_zero (Bsign x)).
  Proof. destruct a; try discriminate. intros _. destruct x; try discriminate; reflexivity. Qed.

  (** the projection without the scaling, raster to screen, and raster to camera with the reciprocal of the scaling factor *)
  Definition hw_proj : res (transform b32) :=
    let f := fofZ 1000 in let n := flit 1 2 in
    t_from Release (mkMat f1 f0 f0 f0 f0 f1 f0 f0 f0 f0 (fdiv f (fsub f n)) (fdiv (fmul (fneg f) n) (fsub f n)) f0 f0 f1 f0).
  Definition hw_raster : mat b32 :=
    t_m (c_raster_to_screen (camera_new (t_scale f1 f1 f1) (t_scale f1 f1 f1) (mkP2 (flit (-125) 2) (fofZ (-1))) (mkP2 (flit 125 2) f1) RESOLUTION)).
  Definition hw_r2c (i : mat b32) (iq : b32) (R : mat b32) : mat b32 :=
    mat_mul (mat_mul i (mkMat iq f0 f0 f0 f0 iq f0 f0 f0 f0 (fdiv f1 f1) f0 f0 f0 f0 f1)) R.

  Definition hw_rows (m : mat b32) : bool :=
    feq (m20 m) f0 && feq (m21 m) f0 && is_finite (m22 m) && (feq (m30 m) f0 && feq (m31 m) f0 && is_finite (m32 m)) &&
    Bleb (Bdiv mode_NE (Bof_Z 1) (Bof_Z (2 ^ 60))) (Babs (fdiv (m23 m) (m33 m))).

  Lemma hw_proj_ok : match hw_proj with
    | Ok tp => let i := t_inv tp in zerob (m20 i) && zerob (m21 i) && zerob (m30 i) && zerob (m31 i) &&
        hw_rows (hw_r2c i (B754_zero true) hw_raster) && hw_rows (hw_r2c i (B754_zero false) hw_raster) = true
    | _ => False end.
  Proof. vm_compute. reflexivity. Qed.

  Lemma hw_rows_sign i x R : zerob (m20 i) = true -> zerob (m21 i) = true -> zerob (m30 i) = true -> zerob (m31 i) = true -> is_finite x = true ->
    hw_rows (hw_r2c i x R) = hw_rows (hw_r2c i (B754_zero (Bsign x)) R).
  Proof.
    intros A B C D Fx. unfold hw_rows, hw_r2c. cbn [m20 m21 m22 m23 m30 m31 m32 m33 mat_mul m00 m01 m02 m03 m10 m11 m12 m13].
    now rewrite (zero_times (m20 i) x), (zero_times (m21 i) x), (zero_times (m30 i) x), (zero_times (m31 i) x) by auto.
  Qed.

  Definition hw_turned : res (transform b32) := t_look_at Release (hw_point (-10) (-30) 10) v3zero (hw_point 0 0 1).
  Definition small (x : b32) : bool := Bleb (Babs x) (Bof_Z (2 ^ 20)).
  Lemma within_small x : small x = true -> within (2 ^ 20) x.
  Proof. intros H. exact H. Qed.
  Lemma hw_turned_ok : match hw_turned with
    | Ok t => let m := t_m t in small (m00 m) && small (m01 m) && small (m02 m) && (small (m10 m) && small (m11 m) && small (m12 m)) &&
        (small (m20 m) && small (m21 m) && small (m22 m)) = true
    | _ => False end.
  Proof. vm_compute. reflexivity. Qed.

  Lemma hw_scale : good_tan L -> is_finite (fdiv f1 (fdiv f1 (ftan (fdiv (fto_radians (fofZ 30)) f2))) : b32) = true.
  Proof.
    intros HT.
    assert (A : Bleb (Bdiv mode_NE (Bof_Z 1) (Bof_Z 4)) (fdiv (fto_radians (fofZ 30)) f2 : b32) = true /\
                Bleb (fdiv (fto_radians (fofZ 30)) f2 : b32) (Bdiv mode_NE (Bof_Z 3) (Bof_Z 10)) = true) by (split; vm_compute; reflexivity).
    destruct (HT _ (proj1 A) (proj2 A)) as [H1 H2]. change (m_tan b32 L ?x) with (ftan x) in H1, H2.
    set (t := ftan (fdiv (fto_radians (fofZ 30)) f2) : b32) in *. clearbody t. clear A HT.
    change (fle (fdiv f1 (fofZ 4)) t = true) in H1. change (fle t (fdiv f1 f2) = true) in H2.
    destruct (recip_twice (FL := B32_FLaws L) t H1 H2) as (r & E). cbn in E. apply Proofs.BBase.B2X_fin_inv in E. apply E.
  Qed.

  Lemma r2c_eq (q : b32) t tp t' c' wmin wmax rs :
    t_m (c_raster_to_camera (camera_new t (t_mul (t_scale q q f1) tp) wmin wmax rs)) =
    mat_mul (mat_mul (t_inv tp) (mkMat (fdiv f1 q) f0 f0 f0 f0 (fdiv f1 q) f0 f0 f0 f0 (fdiv f1 f1) f0 f0 f0 f0 f1))
      (t_m (c_raster_to_screen (camera_new t' c' wmin wmax rs))).
  Proof. reflexivity. Qed.

  Definition hw_world (m : mat b32) : bool :=
    small (m00 m) && small (m01 m) && small (m02 m) && (small (m10 m) && small (m11 m) && small (m12 m)) &&
    (small (m20 m) && small (m21 m) && small (m22 m)).
  Lemma tame_intro cam : hw_rows (t_m (c_raster_to_camera cam)) = true -> hw_world (t_m (c_camera_to_world cam)) = true -> tame_camera L cam.
  Proof.
    intros Q W. unfold hw_rows in Q. unfold hw_world in W. repeat match goal with X : _ && _ = true |- _ => apply andb_prop in X as [? ?] end.
    constructor; cbv zeta; [auto|auto|assumption|]. unfold within3. cbn [vx vy vz]. auto 12 using within_small.
  Qed.

  Lemma tame_of_checks (q : b32) t tp R wmin wmax rs : R = t_m (c_raster_to_screen (camera_new (t_scale f1 f1 f1) (t_scale f1 f1 f1) wmin wmax rs)) ->
    is_finite (fdiv f1 q) = true -> hw_world (t_m t) = true ->
    (let i := t_inv tp in zerob (m20 i) && zerob (m21 i) && zerob (m30 i) && zerob (m31 i) &&
        hw_rows (hw_r2c i (B754_zero true) R) && hw_rows (hw_r2c i (B754_zero false) R) = true) ->
    tame_camera L (camera_new t (t_mul (t_scale q q f1) tp) wmin wmax rs).
  Proof.
    intros ER Fq W P. cbv zeta in P. apply tame_intro; [|exact W].
    rewrite (r2c_eq q t tp (t_scale f1 f1 f1) (t_scale f1 f1 f1) wmin wmax rs), <- ER.
    change (hw_rows (hw_r2c (t_inv tp) (fdiv f1 q) R) = true).
    repeat match goal with X : _ && _ = true |- _ => apply andb_prop in X as [? ?] end.
    rewrite hw_rows_sign by assumption. destruct (Bsign (fdiv f1 q)); assumption.
  Qed.

  Definition hw_q : b32 := fdiv f1 (ftan (fdiv (fto_radians (fofZ 30)) f2)).
  Lemma hw_camera_eq : hw_camera Release =
    (let! t := hw_turned in let! c := (let! tp := hw_proj in Ok (t_mul (t_scale hw_q hw_q f1) tp)) in
     Ok (camera_new t c (mkP2 (flit (-125) 2) (fofZ (-1))) (mkP2 (flit 125 2) f1) RESOLUTION)).
  Proof. reflexivity. Qed.

  Lemma hw_camera_ok : good_tan L -> exists cam, hw_camera Release = Ok cam /\ tame_camera L cam.
  Proof.
    intros HT. apply hw_scale in HT. fold hw_q in HT. rewrite hw_camera_eq.
    pose proof hw_turned_ok as W. pose proof hw_proj_ok as P. revert W P. generalize hw_turned hw_proj. intros [t| |] [tp| |] W P; try contradiction.
    cbn [rbind]. eexists. split; [reflexivity|]. now apply (tame_of_checks hw_q t tp hw_raster); [reflexivity|..].
  Qed.
End H.

Lemma hw_film_args (L : Libm b32) : film_args (F := b32) RESOLUTION hw_filter.
Proof. unfold film_args. cbn [px py RESOLUTION]. do 3 (split; [lia|]). split; vm_compute; reflexivity. Qed.

(** The example program, built for release, with any mathematical library whose sines and cosines are between -1
    and 1 and whose tangent is roughly right near 0.27, and any implementation of [sort_by]: the set-up succeeds,
    and rendering by the four threads ends under every schedule and writes a 1600 x 1280 picture. *)
Theorem C90_helloworld : forall (L : Libm b32) (L64 : Libm b64) srt,
  tame_libm L -> good_tan L -> KdSpec.sort_by_ok (edge_cmp (F := b32) (T := hw_shape)) srt ->
  exists sc fm s0 cam, hw_setup (D := b64) srt Release = Ok (sc, fm, s0, cam) /\ fm_res fm = mkP2 1600 1280 /\
    whole_render Release (halton_ops Release) (hw_shade Release sc cam) 500 (mkP2 1600 1280) fm s0 4.
Proof.
  intros L L64 srt HL HT SO. destruct (hw_scene_ok L L64 srt SO) as (sc & Es & HS). destruct (hw_camera_ok L HT) as (cam & Ec & HC).
  destruct (film_args_ok (FL := B32_FLaws L) Release RESOLUTION hw_filter (hw_film_args L)) as (fm & r & En & _ & Er & _).
  destruct (C89_matt_scenes L L64 hw_shape (hw_sh (D := b64)) hw_surf sc _ hw_eqb cam RESOLUTION hw_filter fm SAMPLES_PER_PIXEL NTHREADS HL HS HC
    (hw_film_args L) En ltac:(unfold SAMPLES_PER_PIXEL; lia) ltac:(unfold NTHREADS; lia)) as [(s0 & Eh & WR) _].
  exists sc, fm, s0, cam. split; [|split; [exact Er|exact WR]].
  unfold hw_setup, hw_film. rewrite Es. cbn [rbind]. rewrite En. cbn [rbind]. rewrite Eh. cbn [rbind]. rewrite Ec. reflexivity.
Qed.
Print Assumptions C90_helloworld.

(** Each of the tiles the threads take gets 500 shots in each of its pixels, each within its pixel. *)
Theorem C90_samples : forall (L : Libm b32) (L64 : Libm b64) srt sc fm s0 cam tiles t,
  tame_libm L -> good_tan L -> KdSpec.sort_by_ok (edge_cmp (F := b32) (T := hw_shape)) srt ->
  hw_setup (D := b64) srt Release = Ok (sc, fm, s0, cam) -> tile_items Release (film_sample_bbox fm) = Ok tiles -> In t tiles ->
  exists s' ft shots ps, render_local Release (halton_ops Release) (hw_shade Release sc cam) 500 fm s0 t = Ok (s', ft, rev shots) /\
    enumerates t ps /\ shots_per_pixel 500 ps shots /\ Forall shot_in_pixel shots.
Proof.
  intros L L64 srt sc fm s0 cam tiles t HL HT SO E Et Hin.
  destruct (hw_scene_ok L L64 srt SO) as (sc' & Es & HS). destruct (hw_camera_ok L HT) as (cam' & Ec & HC).
  unfold hw_setup in E. rewrite Es in E. cbn [rbind] in E. apply rbind_inv in E as (fm' & En & E). apply rbind_inv in E as (s' & Eh & E).
  rewrite Ec in E. cbn [rbind] in E. apply Ok_inj in E.
  assert (sc = sc') as -> by (apply (f_equal (fun q => fst (fst (fst q)))) in E; now cbn in E).
  assert (fm = fm') as -> by (apply (f_equal (fun q => snd (fst (fst q)))) in E; now cbn in E).
  assert (s0 = s') as -> by (apply (f_equal (fun q => snd (fst q))) in E; now cbn in E).
  assert (cam = cam') as -> by (apply (f_equal snd) in E; now cbn in E).
  destruct (film_area L Release RESOLUTION hw_filter fm' (hw_film_args L) En) as (w & h & Ha).
  destruct (C70_tame_partial L L64 hw_shape (hw_sh (D := b64)) hw_surf sc' _ hw_eqb cam' HL HS HC) as [RH _].
  apply (C17_halton b32 _ (B32_FLaws L) Release (hw_shade Release sc' cam') RESOLUTION hw_filter fm' SAMPLES_PER_PIXEL _ w h s' tiles t
    (hw_film_args L) En Et Hin Ha Eh ltac:(unfold SAMPLES_PER_PIXEL; lia) (or_introl eq_refl)).
  exact (RH SAMPLES_PER_PIXEL _ w h s' Ha Eh).
Qed.
Print Assumptions C90_samples.

(** With an exponential function that maps numbers not above 0 to numbers from 0 to 1, no colour and no weight of the film is ever NaN or
    negative. *)
Theorem C90_clean : forall (L : Libm b32) (L64 : Libm b64) srt sc fm s0 cam y0 j y,
  tame_libm L -> good_tan L -> good_exp b32 -> KdSpec.sort_by_ok (edge_cmp (F := b32) (T := hw_shape)) srt ->
  hw_setup (D := b64) srt Release = Ok (sc, fm, s0, cam) -> start_sys Release fm s0 4 = Ok y0 ->
  steps Release (halton_ops Release) (hw_shade Release sc cam) 500 j y0 y -> clean_film (y_film y).
Proof.
  intros L L64 srt sc fm s0 cam y0 j y HL HT HX SO E E0 Sy.
  destruct (hw_scene_ok L L64 srt SO) as (sc' & Es & HS). destruct (hw_camera_ok L HT) as (cam' & Ec & HC).
  unfold hw_setup in E. rewrite Es in E. cbn [rbind] in E. apply rbind_inv in E as (fm' & En & E). apply rbind_inv in E as (s' & Eh & E).
  rewrite Ec in E. cbn [rbind] in E. apply Ok_inj in E.
  assert (sc = sc') as -> by (apply (f_equal (fun q => fst (fst (fst q)))) in E; now cbn in E).
  assert (fm = fm') as -> by (apply (f_equal (fun q => snd (fst (fst q)))) in E; now cbn in E).
  assert (s0 = s') as -> by (apply (f_equal (fun q => snd (fst q))) in E; now cbn in E).
  assert (cam = cam') as -> by (apply (f_equal snd) in E; now cbn in E).
  destruct (film_area L Release RESOLUTION hw_filter fm' (hw_film_args L) En) as (w & h & Ha).
  destruct (C70_tame_partial L L64 hw_shape (hw_sh (D := b64)) hw_surf sc' _ hw_eqb cam' HL HS HC) as [RH _].
  destruct (halton_serves_new (FL := B32_FLaws L) Release SAMPLES_PER_PIXEL _ w h s' (hw_shade Release sc' cam') Ha Eh ltac:(unfold SAMPLES_PER_PIXEL; lia) (or_introl eq_refl)
    (RH SAMPLES_PER_PIXEL _ w h s' Ha Eh)) as (I & A & B & left & V & Is & _).
  apply (C11_film_stays_clean b32 _ (B32_FLaws L) halton Release (halton_ops Release) (hw_shade Release sc' cam') 500 I A B left 500 RESOLUTION hw_filter fm' s' 4 y0 j y V);
    auto; [lia|apply hw_film_args|].
  destruct (film_args_ok (FL := B32_FLaws L) Release RESOLUTION hw_filter (hw_film_args L)) as (fm2 & r & En2 & _ & _ & Et & _).
  unfold hw_film in En. rewrite En in En2. apply Ok_inj in En2. subst fm2. rewrite Et.
  apply (C12_gaussian_table b32 _ (B32_FLaws L)); auto; try (vm_compute; reflexivity). split; vm_compute; reflexivity.
Qed.
Print Assumptions C90_clean.

(** Such libraries exist. *)
Definition Lhello : Libm b32 :=
  {| m_sin := fun x => Bof_Z 0; m_cos := fun x => Bof_Z 1; m_tan := fun x => Bdiv mode_NE (Bof_Z 3) (Bof_Z 10); m_atan := fun x => x; m_acos := fun x => x;
     m_atan2 := fun x _ => x; m_exp := fun x => Bof_Z 1; m_ln := fun x => x; m_powf := fun x _ => x |}.
Example C90_example : tame_libm Lhello /\ good_tan Lhello /\ good_exp b32 (FO := B32_FOps Lhello) /\
  KdSpec.sort_by_ok (edge_cmp (F := b32) (T := hw_shape) (FO := B32_FOps Lhello)) (fun l => Ok (isort (edge_cmp (FO := B32_FOps Lhello)) l)).
Proof.
  split; [intros x _; split; vm_compute; reflexivity|]. split; [intros x _ _; split; vm_compute; reflexivity|].
  split; [|apply isort_ok]. intros x _. split; vm_compute; reflexivity.
Qed.
