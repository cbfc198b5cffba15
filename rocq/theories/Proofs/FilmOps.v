(** * Film operations: bounds, absence of panics, exact effect *)
From Coq Require Import ZArith Reals List Bool Lia Lra ZifyBool Sorting.Sorted.
From Flocq Require Import Core.Raux.
From Verif Require Import Model.Num Model.NumX Model.NumB Model.Vector Model.BBox Model.Film Spec.Grid.
From Verif Require Import Proofs.XBase Proofs.FLaws Proofs.Iter Proofs.Tiles Proofs.FilmGrid.
Import ListNotations.
Local Open Scope Z_scope.

Section Ops.
  Context {F} {O : FOps F} {FL : FLaws F}.

  (** ** Rounding of bounded reals *)
  Lemma rn_fin x z : Z.abs z <= 2 ^ 24 -> (Rabs x <= IZR z)%R ->
    exists y, rn (XFin x) = XFin y /\ (Rabs y <= IZR z)%R.
  Proof.
    intros Hz Hx. apply Rabs_le_inv in Hx.
    pose proof (rn_le_Z z (XFin x) Hz) as H1. pose proof (rn_ge_Z (- z) (XFin x)) as H2.
    rewrite opp_IZR in H2. simpl in H1, H2.
    specialize (H1 ltac:(rb; lra)). specialize (H2 ltac:(lia) ltac:(rb; lra)).
    destruct (rn (XFin x)) as [|[]|y]; simpl in *; try discriminate. exists y. split; auto. rb.
    apply Rabs_le. lra.
  Qed.

  Lemma rn_ge_int x y z : Z.abs z <= 2 ^ 24 -> rn (XFin x) = XFin y -> (IZR z <= x)%R -> (IZR z <= y)%R.
  Proof.
    intros Hz E Hx. pose proof (rn_ge_Z z (XFin x) Hz) as H. rewrite E in H. simpl in H.
    specialize (H ltac:(rb; lra)). rb. lra.
  Qed.
  Lemma rn_le_int x y z : Z.abs z <= 2 ^ 24 -> rn (XFin x) = XFin y -> (x <= IZR z)%R -> (y <= IZR z)%R.
  Proof.
    intros Hz E Hx. pose proof (rn_le_Z z (XFin x) Hz) as H. rewrite E in H. simpl in H.
    specialize (H ltac:(rb; lra)). rb. lra.
  Qed.
  Lemma rn_gt_inv x y z : Z.abs z <= 2 ^ 24 -> rn (XFin x) = XFin y -> (IZR z < y)%R -> (IZR z <= x)%R.
  Proof.
    intros Hz E Hy. destruct (Rle_lt_dec (IZR z) x); auto.
    pose proof (rn_le_int x y z Hz E ltac:(lra)). lra.
  Qed.
  Lemma rn_lt_inv x y z : Z.abs z <= 2 ^ 24 -> rn (XFin x) = XFin y -> (y < IZR z)%R -> (x <= IZR z)%R.
  Proof.
    intros Hz E Hy. destruct (Rle_lt_dec x (IZR z)); auto.
    pose proof (rn_ge_int x y z Hz E ltac:(lra)). lra.
  Qed.


  Lemma rn_mhalf z : Z.abs z < 2 ^ 23 -> rn (XFin (IZR z - / 2)) = XFin (IZR z - / 2).
  Proof.
    intros Hz. replace (IZR z - / 2)%R with (IZR (2 * z - 1) / IZR (2 ^ 1))%R.
    - apply rn_dyadic; lia.
    - rewrite minus_IZR, mult_IZR. simpl. lra.
  Qed.
  Lemma rn_phalf z : Z.abs z < 2 ^ 23 -> rn (XFin (IZR z + / 2)) = XFin (IZR z + / 2).
  Proof.
    intros Hz. replace (IZR z + / 2)%R with (IZR (2 * z + 1) / IZR (2 ^ 1))%R.
    - apply rn_dyadic; lia.
    - rewrite plus_IZR, mult_IZR. simpl. lra.
  Qed.

  Lemma emb_mhalf z : Z.abs z < 2 ^ 23 -> emb (fsub (fofZ z) fhalf) = XFin (IZR z - / 2).
  Proof. intros. rewrite emb_sub, emb_fhalf, emb_ofZ_exact by lia. simpl. now apply rn_mhalf. Qed.
  Lemma emb_phalf z : Z.abs z < 2 ^ 23 -> emb (fadd (fofZ z) fhalf) = XFin (IZR z + / 2).
  Proof. intros. rewrite emb_add, emb_fhalf, emb_ofZ_exact by lia. simpl. now apply rn_phalf. Qed.

  (** ** Conversions to i32 *)
  Lemma Ztrunc_IZR' z : Ztrunc (IZR z) = z.
  Proof. apply Ztrunc_IZR. Qed.

  Lemma to_i32_floor v x : emb v = XFin x -> (Rabs x <= IZR (2 ^ 24))%R -> fto_i32 (ffloor v) = Zfloor x.
  Proof.
    intros E H. unfold fto_i32. rewrite emb_to_int, emb_floor, E. simpl. rewrite Ztrunc_IZR.
    apply Rabs_le_inv in H. rewrite <- opp_IZR in H.
    assert (- 2 ^ 24 <= Zfloor x) by (apply Zfloor_lub; lra).
    assert (Zfloor x <= 2 ^ 24) by (apply le_IZR; pose proof (Zfloor_lb x); lra).
    unfold i32_min, i32_max. lia.
  Qed.
  Lemma to_i32_ceil v x : emb v = XFin x -> (Rabs x <= IZR (2 ^ 24))%R -> fto_i32 (fceil v) = Zceil x.
  Proof.
    intros E H. unfold fto_i32. rewrite emb_to_int, emb_ceil, E. simpl. rewrite Ztrunc_IZR.
    apply Rabs_le_inv in H. rewrite <- opp_IZR in H.
    assert (- 2 ^ 24 <= Zceil x) by (apply le_IZR; pose proof (Zceil_ub x); lra).
    assert (Zceil x <= 2 ^ 24) by (apply Zceil_glb; lra).
    unfold i32_min, i32_max. lia.
  Qed.

  Lemma fto_i32_range v : - 2 ^ 31 <= fto_i32 v <= 2 ^ 31 - 1.
  Proof.
    unfold fto_i32. rewrite emb_to_int. unfold xto_int, i32_min, i32_max.
    destruct (emb v) as [|[]|x]; lia.
  Qed.
  Lemma fto_usize_nonneg v : 0 <= fto_usize v.
  Proof. unfold fto_usize. rewrite emb_to_int. unfold xto_int, usize_max. destruct (emb v) as [|[]|x]; lia. Qed.

  (** ** Well-formed films *)
  Definition film_rect (fm : film F) : bbox2 := mkB2 (mkP2 0 0) (fm_res fm).

  Definition table_ok (t : list (list F)) : Prop :=
    length t = 16%nat /\ forall row, In row t -> length row = 16%nat.

  Record film_ok (r : R) (fm : film F) : Prop := {
    fo_x : 0 <= px (fm_res fm) <= 2 ^ 22;
    fo_y : 0 <= py (fm_res fm) <= 2 ^ 22;
    fo_area : px (fm_res fm) * py (fm_res fm) < 2 ^ 31;
    fo_r : emb (fm_radius fm) = XFin r;
    fo_r_range : (0 <= r <= IZR (2 ^ 20))%R;
    fo_table : table_ok (fm_table fm);
    fo_len : Z.of_nat (length (fm_pixels fm)) = px (fm_res fm) * py (fm_res fm) }.

  Lemma filter_table_ok flt : table_ok (filter_table flt).
  Proof.
    split.
    - unfold filter_table. rewrite map_length, zrange_length. reflexivity.
    - intros row Hr. unfold filter_table in Hr. apply in_map_iff in Hr. destruct Hr as (y & <- & _).
      rewrite map_length, zrange_length. reflexivity.
  Qed.

  Lemma film_new_ok m res flt r :
    0 <= px res <= 2 ^ 22 -> 0 <= py res <= 2 ^ 22 -> px res * py res < 2 ^ 31 ->
    emb (flt_radius flt) = XFin r -> (0 <= r <= IZR (2 ^ 20))%R ->
    exists fm, film_new m res flt = Ok fm /\ film_ok r fm /\ fm_res fm = res /\
      fm_table fm = filter_table flt /\ fm_radius fm = flt_radius flt /\
      fm_pixels fm = repeat pixel_default (Z.to_nat (px res * py res)).
  Proof.
    intros Hx Hy Ha Er Hr. unfold film_new.
    assert (W : forall z, 0 <= z <= 2 ^ 22 -> wrap_s 32 z = z).
    { intros z Hz. unfold wrap_s. change (32 - 1) with 31. rewrite Z.mod_small; lia. }
    rewrite !W by auto. simpl px. simpl py. rewrite i32_of_ok by nia. simpl.
    unfold alloc_pixels. replace (px res * py res <? 0) with false by nia. cbn [rbind].
    assert (Ep : mkP2 (px res) (py res) = res) by now destruct res.
    eexists; split; [reflexivity|]. cbn [fm_res fm_radius fm_table fm_pixels]. rewrite Ep.
    split; [|auto].
    constructor; cbn [fm_res fm_radius fm_table fm_pixels]; auto.
    - apply filter_table_ok.
    - rewrite repeat_length. nia.
  Qed.

  (** ** The sample area *)
  Definition sb_lo (fm : film F) : Z := fto_i32 (ffloor (fsub (fadd f0 fhalf) (fm_radius fm))).
  Definition sb_hi (fm : film F) (n : Z) : Z := fto_i32 (fceil (fadd (fsub (fofZ n) fhalf) (fm_radius fm))).

  Lemma IZR20 : IZR (2 ^ 20) = 1048576%R. Proof. reflexivity. Qed.
  Lemma IZR22 : IZR (2 ^ 22) = 4194304%R. Proof. reflexivity. Qed.
  Lemma IZR23 : IZR (2 ^ 23) = 8388608%R. Proof. reflexivity. Qed.
  Lemma IZR24 : IZR (2 ^ 24) = 16777216%R. Proof. reflexivity. Qed.

  Lemma sb_lo_spec r fm : film_ok r fm ->
    - 2 ^ 22 <= sb_lo fm <= 0 /\ forall z, Z.abs z <= 2 ^ 24 -> sb_lo fm < z -> (/ 2 - r <= IZR z)%R.
  Proof.
    intros W. pose proof (fo_r _ _ W) as Er. pose proof (fo_r_range _ _ W) as Hr. rewrite IZR20 in Hr.
    assert (E : emb (fsub (fadd f0 fhalf) (fm_radius fm)) = rn (XFin (/ 2 - r))).
    { rewrite emb_sub, emb_add, emb_f0, emb_fhalf, Er. simpl. rewrite Rplus_0_l, rn_half. reflexivity. }
    destruct (rn_fin (/ 2 - r) (2 ^ 22)) as (y & Ey & By); [lia|rewrite IZR22; apply Rabs_le; lra|].
    assert (Es : sb_lo fm = Zfloor y).
    { unfold sb_lo. apply to_i32_floor; [congruence|]. rewrite IZR22, IZR24 in *. lra. }
    assert (y < 1)%R.
    { apply Rle_lt_trans with (/ 2)%R; [|lra].
      pose proof (rn_le (XFin (/ 2 - r)) (XFin (/ 2))) as H. rewrite Ey, rn_half in H. simpl in H.
      specialize (H ltac:(rb; lra)). rb. lra. }
    rewrite IZR22 in By. apply Rabs_le_inv in By. split.
    - rewrite Es. split.
      + apply Zfloor_lub. rewrite opp_IZR, IZR22. lra.
      + assert (Zfloor y < 1); [|lia]. apply lt_IZR. pose proof (Zfloor_lb y). lra.
    - intros z Hz Hlt. rewrite Es in Hlt. apply (rn_lt_inv _ y); auto.
      apply Rlt_le_trans with (IZR (Zfloor y) + 1)%R; [apply Zfloor_ub|].
      rewrite <- plus_IZR. apply IZR_le. lia.
  Qed.

  Lemma sb_hi_spec r fm n : film_ok r fm -> 0 <= n <= 2 ^ 22 ->
    0 <= sb_hi fm n <= 2 ^ 23 /\
    (0 < n -> 0 < sb_hi fm n) /\
    forall z, Z.abs z <= 2 ^ 24 -> z < sb_hi fm n -> (IZR z <= IZR n - / 2 + r)%R.
  Proof.
    intros W Hn. pose proof (fo_r _ _ W) as Er. pose proof (fo_r_range _ _ W) as Hr. rewrite IZR20 in Hr.
    assert (E : emb (fadd (fsub (fofZ n) fhalf) (fm_radius fm)) = rn (XFin (IZR n - / 2 + r))).
    { rewrite emb_add, emb_mhalf, Er by lia. reflexivity. }
    assert (Hn' : (0 <= IZR n <= 4194304)%R) by (rewrite <- IZR22; split; apply IZR_le; lia).
    destruct (rn_fin (IZR n - / 2 + r) (2 ^ 23)) as (y & Ey & By); [lia|rewrite IZR23; apply Rabs_le; lra|].
    assert (Es : sb_hi fm n = Zceil y).
    { unfold sb_hi. apply to_i32_ceil; [congruence|]. rewrite IZR23, IZR24 in *. lra. }
    assert (Hy : (- / 2 <= y)%R).
    { pose proof (rn_le (XFin (- / 2)) (XFin (IZR n - / 2 + r))) as H. rewrite Ey in H.
      change (XFin (- / 2)) with (xneg (XFin (/ 2))) in H. rewrite rn_opp, rn_half in H. simpl in H.
      specialize (H ltac:(rb; lra)). rb. lra. }
    rewrite IZR23 in By. apply Rabs_le_inv in By. split; [|split].
    - rewrite Es. split.
      + assert (-1 < Zceil y); [|lia]. apply lt_IZR. pose proof (Zceil_ub y). lra.
      + apply Zceil_glb. rewrite IZR23. lra.
    - intros Hn0. rewrite Es.
      assert (0 < y)%R.
      { assert (1 <= IZR n)%R by (apply IZR_le; lia).
        pose proof (rn_le (XFin (/ 2)) (XFin (IZR n - / 2 + r))) as H'. rewrite Ey, rn_half in H'. simpl in H'.
        specialize (H' ltac:(rb; lra)). rb. lra. }
      apply lt_IZR. pose proof (Zceil_ub y). lra.
    - intros z Hz Hlt. rewrite Es in Hlt. apply (rn_gt_inv _ y); auto.
      apply Rle_lt_trans with (IZR (Zceil y) - 1)%R.
      + rewrite <- minus_IZR. apply IZR_le. lia.
      + pose proof (Zceil_lb y). lra.
  Qed.

  Lemma sample_bbox_eq r fm : film_ok r fm ->
    film_sample_bbox fm = mkB2 (mkP2 (sb_lo fm) (sb_lo fm)) (mkP2 (sb_hi fm (px (fm_res fm))) (sb_hi fm (py (fm_res fm)))).
  Proof.
    intros W. pose proof (sb_lo_spec r fm W) as [Hl _].
    pose proof (sb_hi_spec r fm _ W (fo_x _ _ W)) as [Hx _].
    pose proof (sb_hi_spec r fm _ W (fo_y _ _ W)) as [Hy _].
    unfold film_sample_bbox. fold (sb_lo fm).
    change (fto_i32 (fceil (fadd (fsub (fofZ (px (fm_res fm))) fhalf) (fm_radius fm)))) with (sb_hi fm (px (fm_res fm))).
    change (fto_i32 (fceil (fadd (fsub (fofZ (py (fm_res fm))) fhalf) (fm_radius fm)))) with (sb_hi fm (py (fm_res fm))).
    unfold bbox2_new, p2min, p2max; cbn [px py].
    f_equal; f_equal; repeat match goal with |- context [if ?c then _ else _] => destruct c eqn:? end; lia.
  Qed.

  Lemma sample_bbox_tileable r fm : film_ok r fm -> tileable (film_sample_bbox fm).
  Proof.
    intros W. rewrite (sample_bbox_eq r fm W). unfold tileable. cbn [px py b2min b2max].
    pose proof (sb_lo_spec r fm W) as [Hl _].
    pose proof (sb_hi_spec r fm _ W (fo_x _ _ W)) as [Hx _].
    pose proof (sb_hi_spec r fm _ W (fo_y _ _ W)) as [Hy _].
    lia.
  Qed.

  (** ** The film area of a tile *)
  Definition tb_lo (fm : film F) (z : Z) : Z := fto_i32 (fceil (fsub (fsub (fofZ z) fhalf) (fm_radius fm))).
  Definition tb_hi (fm : film F) (z : Z) : Z := fto_i32 (ffloor (fadd (fadd (fofZ z) fhalf) (fm_radius fm))).

  Lemma tb_lo_spec r fm z : film_ok r fm -> Z.abs z < 2 ^ 23 ->
    exists y, rn (XFin (IZR z - / 2 - r)) = XFin y /\ tb_lo fm z = Zceil y /\ (Rabs y <= IZR (2 ^ 24))%R.
  Proof.
    intros W Hz. pose proof (fo_r _ _ W) as Er. pose proof (fo_r_range _ _ W) as Hr. rewrite IZR20 in Hr.
    assert (Hz' : (- 8388607 <= IZR z <= 8388607)%R) by (split; apply IZR_le; lia).
    destruct (rn_fin (IZR z - / 2 - r) (2 ^ 24)) as (y & Ey & By); [lia|rewrite IZR24; apply Rabs_le; lra|].
    exists y. split; [auto|]. split; [|auto]. apply to_i32_ceil; auto.
    rewrite emb_sub, emb_mhalf, Er by lia. exact Ey.
  Qed.

  Lemma tb_hi_spec r fm z : film_ok r fm -> Z.abs z < 2 ^ 23 ->
    exists y, rn (XFin (IZR z + / 2 + r)) = XFin y /\ tb_hi fm z = Zfloor y /\ (Rabs y <= IZR (2 ^ 24))%R.
  Proof.
    intros W Hz. pose proof (fo_r _ _ W) as Er. pose proof (fo_r_range _ _ W) as Hr. rewrite IZR20 in Hr.
    assert (Hz' : (- 8388607 <= IZR z <= 8388607)%R) by (split; apply IZR_le; lia).
    destruct (rn_fin (IZR z + / 2 + r) (2 ^ 24)) as (y & Ey & By); [lia|rewrite IZR24; apply Rabs_le; lra|].
    exists y. split; [auto|]. split; [|auto]. apply to_i32_floor; auto.
    rewrite emb_add, emb_phalf, Er by lia. exact Ey.
  Qed.

  (** In one axis: a non-empty piece [a, b) of the sample range [sb_lo, sb_hi n). *)
  Lemma tb_axis r fm n a b : film_ok r fm -> 0 <= n <= 2 ^ 22 ->
    sb_lo fm <= a -> a < b -> b <= sb_hi fm n ->
    tb_lo fm a <= n - 1 /\ 1 <= tb_hi fm b /\ tb_lo fm a <= a /\ b <= tb_hi fm b.
  Proof.
    intros W Hn Ha Hab Hb. pose proof (fo_r_range _ _ W) as Hr. rewrite IZR20 in Hr.
    destruct (sb_lo_spec r fm W) as [Hl Hl2]. destruct (sb_hi_spec r fm n W Hn) as [Hh [_ Hh2]].
    assert (Hb23 : b < 2 ^ 23 \/ b = 2 ^ 23) by lia.
    destruct (tb_lo_spec r fm a W) as (y1 & E1 & -> & B1); [lia|].
    assert (Z.abs b < 2 ^ 23 \/ b = 2 ^ 23) as [Hb'|Hb'] by lia.
    2:{ (* b = 2^23 is impossible: the largest sample coordinate is below *)
        exfalso. specialize (Hh2 (b - 1) ltac:(lia) ltac:(lia)). subst b.
        assert (IZR n <= 4194304)%R by (rewrite <- IZR22; apply IZR_le; lia).
        rewrite minus_IZR, IZR23 in Hh2. lra. }
    destruct (tb_hi_spec r fm b W) as (y2 & E2 & -> & B2); [lia|].
    specialize (Hl2 b ltac:(lia) ltac:(lia)). specialize (Hh2 a ltac:(lia) ltac:(lia)).
    split; [|split; [|split]].
    - apply Zceil_glb. apply (rn_le_int _ _ (n - 1) ltac:(lia) E1). rewrite minus_IZR. lra.
    - apply Zfloor_lub. apply (rn_ge_int _ _ 1 ltac:(lia) E2). simpl. lra.
    - apply Zceil_glb. apply (rn_le_int _ _ a ltac:(lia) E1). lra.
    - apply Zfloor_lub. apply (rn_ge_int _ _ b ltac:(lia) E2). lra.
  Qed.

  Definition tile_of_sample_area (fm : film F) (t : bbox2) : Prop :=
    rect_size_le 16 t /\ rect_sub t (film_sample_bbox fm).

  (** the clipped rectangle, as computed *)
  Definition film_tile_rect (fm : film F) (t : bbox2) : bbox2 :=
    mkB2 (mkP2 (Z.max (tb_lo fm (px (b2min t))) 0) (Z.max (tb_lo fm (py (b2min t))) 0))
         (mkP2 (Z.min (tb_hi fm (px (b2max t))) (px (fm_res fm))) (Z.min (tb_hi fm (py (b2max t))) (py (fm_res fm)))).

  Lemma film_tile_bbox_eq r fm t : film_ok r fm -> tile_of_sample_area fm t ->
    film_tile_bbox fm t = film_tile_rect fm t /\ rect_sub (film_tile_rect fm t) (film_rect fm) /\
    px (b2min (film_tile_rect fm t)) <= px (b2max (film_tile_rect fm t)) /\
    py (b2min (film_tile_rect fm t)) <= py (b2max (film_tile_rect fm t)).
  Proof.
    intros W [Hs Hsub]. rewrite (sample_bbox_eq r fm W) in Hsub. unfold rect_size_le, rect_sub in *.
    cbn [px py b2min b2max] in *.
    destruct (tb_axis r fm (px (fm_res fm)) (px (b2min t)) (px (b2max t))) as (X1 & X2 & X3 & X4); try lia; auto; try apply (fo_x _ _ W).
    destruct (tb_axis r fm (py (fm_res fm)) (py (b2min t)) (py (b2max t))) as (Y1 & Y2 & Y3 & Y4); try lia; auto; try apply (fo_y _ _ W).
    pose proof (fo_x _ _ W) as Hx. pose proof (fo_y _ _ W) as Hy.
    split; [|unfold film_tile_rect, film_rect; cbn [px py b2min b2max]; lia].
    unfold film_tile_bbox, film_tile_rect.
    fold (tb_lo fm (px (b2min t))). fold (tb_lo fm (py (b2min t))).
    fold (tb_hi fm (px (b2max t))). fold (tb_hi fm (py (b2max t))).
    change (fto_i32 (fceil (fsub (fsub (fofZ (px (b2min t))) fhalf) (fm_radius fm)))) with (tb_lo fm (px (b2min t))).
    change (fto_i32 (fceil (fsub (fsub (fofZ (py (b2min t))) fhalf) (fm_radius fm)))) with (tb_lo fm (py (b2min t))).
    change (fto_i32 (ffloor (fadd (fadd (fofZ (px (b2max t))) fhalf) (fm_radius fm)))) with (tb_hi fm (px (b2max t))).
    change (fto_i32 (ffloor (fadd (fadd (fofZ (py (b2max t))) fhalf) (fm_radius fm)))) with (tb_hi fm (py (b2max t))).
    generalize dependent (tb_lo fm (px (b2min t))). generalize dependent (tb_lo fm (py (b2min t))).
    generalize dependent (tb_hi fm (px (b2max t))). generalize dependent (tb_hi fm (py (b2max t))).
    intros. unfold bbox2_new, p2min, p2max; cbn [px py].
    f_equal; f_equal; repeat match goal with |- context [if ?c then _ else _] =>
      lazymatch c with context [if _ then _ else _] => fail | _ => destruct c eqn:? end end; lia.
  Qed.

  (** ** Tiles *)
  Record tile_ok (fm : film F) (t : film_tile F) : Prop := {
    to_rect : rect_sub (tl_bbox t) (film_rect fm);
    to_x : px (b2min (tl_bbox t)) <= px (b2max (tl_bbox t));
    to_y : py (b2min (tl_bbox t)) <= py (b2max (tl_bbox t));
    to_len : Z.of_nat (length (tl_pixels t)) = gsize (tl_bbox t);
    to_radius : tl_radius t = fm_radius fm;
    to_table : tl_table t = fm_table fm }.

  Lemma gsize_le a b : rect_sub a b -> px (b2min a) <= px (b2max a) -> py (b2min a) <= py (b2max a) ->
    0 <= gsize a <= gsize b.
  Proof.
    unfold rect_sub, gsize. intros (H1 & H2 & H3 & H4) Hx Hy.
    split; [nia|]. apply Z.mul_le_mono_nonneg; lia.
  Qed.

  Lemma gsize_film fm : gsize (film_rect fm) = px (fm_res fm) * py (fm_res fm).
  Proof. unfold gsize, film_rect; cbn [px py b2min b2max]. f_equal; lia. Qed.

  Lemma get_film_tile_ok m r fm t : film_ok r fm -> tile_of_sample_area fm t ->
    exists ft, get_film_tile m fm t = Ok ft /\ tile_ok fm ft /\ tl_bbox ft = film_tile_rect fm t /\
      tl_pixels ft = repeat pixel_default (Z.to_nat (gsize (film_tile_rect fm t))).
  Proof.
    intros W Ht. destruct (film_tile_bbox_eq r fm t W Ht) as (Eb & Hsub & Hx & Hy).
    unfold get_film_tile, film_tile_new. rewrite Eb. set (b := film_tile_rect fm t) in *.
    pose proof (gsize_le b _ Hsub Hx Hy) as Hg. rewrite gsize_film in Hg.
    pose proof (fo_area _ _ W) as Ha. pose proof (fo_x _ _ W) as Wx. pose proof (fo_y _ _ W) as Wy.
    pose proof Hsub as Hsub'. unfold rect_sub, film_rect in Hsub'; cbn [px py b2min b2max] in Hsub'.
    unfold bbox2_area, bbox2_diagonal.
    rewrite !i32_of_ok by lia. cbn [rbind px py].
    fold (gsize b). rewrite i32_of_ok by (unfold gsize in *; lia). cbn [rbind].
    unfold alloc_pixels. change ((px (b2max b) - px (b2min b)) * (py (b2max b) - py (b2min b))) with (gsize b).
    replace (gsize b <? 0) with false by lia. cbn [rbind].
    eexists; split; [reflexivity|]. split; [|split; reflexivity].
    constructor; cbn [tl_bbox tl_pixels tl_radius tl_table]; auto.
    rewrite repeat_length. lia.
  Qed.

  Lemma tile_pixel_offset_ok m r fm t x y : film_ok r fm -> tile_ok fm t -> in_rect (tl_bbox t) (mkP2 x y) ->
    tile_pixel_offset m t x y = Ok (goff (tl_bbox t) (mkP2 x y)).
  Proof.
    intros W Wt Hp. pose proof (goff_range _ _ Hp) as Ho.
    pose proof (gsize_le _ _ (to_rect _ _ Wt) (to_x _ _ Wt) (to_y _ _ Wt)) as Hg. rewrite gsize_film in Hg.
    pose proof (fo_area _ _ W) as Ha. pose proof (fo_x _ _ W) as Wx. pose proof (fo_y _ _ W) as Wy.
    pose proof (to_rect _ _ Wt) as Hs. unfold rect_sub, film_rect in Hs; cbn [px py b2min b2max] in Hs.
    unfold in_rect in Hp; cbn [px py] in Hp. unfold goff, gsize in *; cbn [px py] in *.
    unfold tile_pixel_offset. rewrite !i32_of_ok by nia. cbn [rbind].
    set (w := px (b2max (tl_bbox t)) - px (b2min (tl_bbox t))) in *.
    set (dy := y - py (b2min (tl_bbox t))) in *.
    assert (0 <= w * dy) by nia.
    rewrite i32_of_ok by lia. cbn [rbind]. rewrite i32_of_ok by lia. cbn [rbind].
    rewrite i32_as_usize_ok by lia. reflexivity.
  Qed.

  Lemma film_pixel_offset_ok m r fm p : film_ok r fm -> in_rect (film_rect fm) p ->
    film_pixel_offset m fm p = Ok (goff (film_rect fm) p).
  Proof.
    intros W Hp. pose proof (goff_range _ _ Hp) as Ho. rewrite gsize_film in Ho.
    pose proof (fo_area _ _ W) as Ha. pose proof (fo_x _ _ W) as Wx. pose proof (fo_y _ _ W) as Wy.
    unfold in_rect, film_rect, goff in *; cbn [px py b2min b2max] in *.
    replace (px (fm_res fm) - 0) with (px (fm_res fm)) in * by lia.
    replace (py p - 0) with (py p) in * by lia. replace (px p - 0) with (px p) in * by lia.
    assert (0 <= px (fm_res fm) * py p) by nia.
    unfold film_pixel_offset. rewrite i32_of_ok by lia. cbn [rbind]. rewrite i32_of_ok by lia. cbn [rbind].
    rewrite i32_as_usize_ok by lia. reflexivity.
  Qed.

  Lemma table_index_range radius z v : 0 <= table_index radius z v <= 15.
  Proof.
    unfold table_index, FILTER_TABLE_WIDTH.
    match goal with |- context [fto_usize ?v] => pose proof (fto_usize_nonneg v) end. lia.
  Qed.

  (** ** Splatting *)
  (** The weight used for pixel [q] and (half-pixel shifted) sample position [p]. *)
  Definition splat_weight (radius : F) (table : list (list F)) (p : P2 F) (q : P2 Z) (d : F) : F :=
    nth (Z.to_nat (table_index radius (px q) (px p)))
        (nth (Z.to_nat (table_index radius (py q) (py p))) table []) d.

  Lemma idx_zrange_map {B} (g : Z -> B) lo hi z : lo <= z < hi -> hi - lo < 2 ^ 31 ->
    idx (map g (zrange lo hi)) (i32_as_usize (z - lo)) = Ok (g z).
  Proof.
    intros Hz Hd. rewrite i32_as_usize_ok by lia. unfold idx. replace (z - lo <? 0) with false by lia.
    rewrite nth_error_map, nth_error_zrange by lia. simpl. reflexivity.
  Qed.

  Lemma table_idx (l : list (list F)) a b d : table_ok l -> 0 <= a <= 15 -> 0 <= b <= 15 ->
    (let! row := idx l a in idx row b) = Ok (nth (Z.to_nat b) (nth (Z.to_nat a) l []) d).
  Proof.
    intros [Hl Hr] Ha Hb.
    destruct (idx_ok l a) as (row & Er & En); [lia|]. rewrite Er. cbn [rbind].
    rewrite (nth_error_nth _ _ _ En).
    destruct (idx_ok row b) as (w & Ew & Enw).
    - rewrite (Hr row) by (eapply nth_error_In; eauto). lia.
    - rewrite Ew. now rewrite (nth_error_nth _ _ _ Enw).
  Qed.

  Definition set_tile_pixels (t : film_tile F) (l : list (pixel F)) : film_tile F :=
    mkTile (tl_bbox t) (tl_radius t) (tl_table t) l.

  Lemma splat_one_ok m r fm t p mn mx sample x y d :
    film_ok r fm -> tile_ok fm t ->
    let ix := map (fun z => table_index (tl_radius t) z (px p)) (zrange (px mn) (px mx)) in
    let iy := map (fun z => table_index (tl_radius t) z (py p)) (zrange (py mn) (py mx)) in
    px (b2min (tl_bbox t)) <= px mn -> py (b2min (tl_bbox t)) <= py mn ->
    px mx <= px (b2max (tl_bbox t)) -> py mx <= py (b2max (tl_bbox t)) ->
    px mn <= x < px mx -> py mn <= y < py mx ->
    splat_one m (tl_table t) ix iy mn sample t x y =
      rmap (set_tile_pixels t) (upd (tl_pixels t) (goff (tl_bbox t) (mkP2 x y))
        (fun q => pixel_add_sample q sample (splat_weight (tl_radius t) (tl_table t) p (mkP2 x y) d))).
  Proof.
    intros W Wt ix iy H1 H2 H3 H4 Hx Hy. unfold splat_one.
    pose proof (to_rect _ _ Wt) as Hs. unfold rect_sub, film_rect in Hs; cbn [px py b2min b2max] in Hs.
    pose proof (fo_x _ _ W) as Wx. pose proof (fo_y _ _ W) as Wy.
    rewrite !i32_of_ok by lia. cbn [rbind]. unfold ix, iy.
    rewrite idx_zrange_map by lia. cbn [rbind].
    rewrite idx_zrange_map by lia. cbn [rbind].
    pose proof (table_idx (tl_table t) (table_index (tl_radius t) y (py p)) (table_index (tl_radius t) x (px p)) d) as T.
    rewrite (to_table _ _ Wt) in T at 1. specialize (T (fo_table _ _ W) (table_index_range _ _ _) (table_index_range _ _ _)).
    destruct (idx (tl_table t) _) as [row| |]; cbn [rbind] in *; try discriminate.
    rewrite T. cbn [rbind].
    rewrite (tile_pixel_offset_ok m r fm) by (auto; unfold in_rect; cbn [px py]; lia). cbn [rbind].
    unfold splat_weight; cbn [px py]. unfold upd.
    destruct (idx (tl_pixels t) _); reflexivity.
  Qed.

  (** Does the (Debug) build avoid the overflow of [hi + 1]? *)
  Definition no_sat (m : build) (t : film_tile F) (p_film : P2 F) : Prop :=
    m = Release \/
    (fto_i32 (ffloor (fadd (fsub (px p_film) fhalf) (tl_radius t))) < 2 ^ 31 - 1 /\
     fto_i32 (ffloor (fadd (fsub (py p_film) fhalf) (tl_radius t))) < 2 ^ 31 - 1).

  (** The exact effect of [add_sample] on the pixels of the tile. *)
  Lemma tile_add_sample_spec m r fm t p_film sample d :
    film_ok r fm -> tile_ok fm t -> no_sat m t p_film ->
    exists p mn mx t', sample_range m t p_film = Ok (p, mn, mx) /\
      tile_add_sample m t p_film sample = Ok t' /\ tile_ok fm t' /\ tl_bbox t' = tl_bbox t /\
      p = mkP2 (fsub (px p_film) fhalf) (fsub (py p_film) fhalf) /\
      forall q, in_rect (tl_bbox t) q ->
        gget (tl_bbox t) (tl_pixels t') q =
          if (px mn <=? px q) && (px q <? px mx) && ((py mn <=? py q) && (py q <? py mx))
          then option_map (fun c => pixel_add_sample c sample (splat_weight (tl_radius t) (tl_table t) p q d)) (gget (tl_bbox t) (tl_pixels t) q)
          else gget (tl_bbox t) (tl_pixels t) q.
  Proof.
    intros W Wt Hsat.
    assert (R : exists p mn mx, sample_range m t p_film = Ok (p, mn, mx) /\
       p = mkP2 (fsub (px p_film) fhalf) (fsub (py p_film) fhalf) /\
       px (b2min (tl_bbox t)) <= px mn /\ py (b2min (tl_bbox t)) <= py mn /\
       px mx <= px (b2max (tl_bbox t)) /\ py mx <= py (b2max (tl_bbox t))).
    { unfold sample_range. cbn [px py].
      set (hx := fto_i32 (ffloor (fadd (fsub (px p_film) fhalf) (tl_radius t)))) in *.
      set (hy := fto_i32 (ffloor (fadd (fsub (py p_film) fhalf) (tl_radius t)))) in *.
      assert (Ex : exists hx', i32_of m (hx + 1) = Ok hx').
      { destruct Hsat as [-> | [Hx _]]. unfold i32_of. destruct (in_rangeb _ _ _); eauto.
        rewrite i32_of_ok; eauto. pose proof (fto_i32_range (ffloor (fadd (fsub (px p_film) fhalf) (tl_radius t)))). unfold hx in *. lia. }
      assert (Ey : exists hy', i32_of m (hy + 1) = Ok hy').
      { destruct Hsat as [-> | [_ Hy]]. unfold i32_of. destruct (in_rangeb _ _ _); eauto.
        rewrite i32_of_ok; eauto. pose proof (fto_i32_range (ffloor (fadd (fsub (py p_film) fhalf) (tl_radius t)))). unfold hy in *. lia. }
      destruct Ex as (hx' & ->), Ey as (hy' & ->). cbn [rbind].
      do 3 eexists. split; [reflexivity|]. split; [reflexivity|].
      unfold p2max, p2min; cbn [px py].
      repeat match goal with |- context [if ?c then _ else _] => destruct c eqn:? end; lia. }
    destruct R as (p & mn & mx & E & Ep & H1 & H2 & H3 & H4).
    exists p, mn, mx. unfold tile_add_sample. rewrite E. cbn [rbind].
    set (ix := map (fun z => table_index (tl_radius t) z (px p)) (zrange (px mn) (px mx))).
    set (iy := map (fun z => table_index (tl_radius t) z (py p)) (zrange (py mn) (py mx))).
    rewrite (rfold_rows (fun t0 x y => splat_one m (tl_table t0) ix iy mn sample t0 x y)).
    set (pts := rows (px mn) (px mx) (py mn) (py mx)).
    set (f := fun q c => pixel_add_sample c sample (splat_weight (tl_radius t) (tl_table t) p q d)).
    assert (Hpts : forall q, In q pts -> in_rect (tl_bbox t) q).
    { intros q Hq. apply In_rows in Hq. unfold in_rect. lia. }
    assert (ND : NoDup pts) by (apply SSorted_NoDup, rows_sorted).
    destruct (gupd_fold (tl_bbox t) f pts (tl_pixels t) ND Hpts (to_len _ _ Wt)) as (l' & El & Hl' & G).
    (* the record fold is the pixel fold *)
    assert (Efold : forall pts' l0, (forall q, In q pts' -> In q pts) -> Z.of_nat (length l0) = gsize (tl_bbox t) ->
      rfold (fun s q => splat_one m (tl_table s) ix iy mn sample s (px q) (py q)) pts' (set_tile_pixels t l0) =
      rmap (set_tile_pixels t) (rfold (fun l q => upd l (goff (tl_bbox t) q) (f q)) pts' l0)).
    { induction pts' as [|q pts' IH]; intros l0 Hin Hl0; [reflexivity|]. cbn [rfold].
      assert (Wt0 : tile_ok fm (set_tile_pixels t l0)).
      { destruct Wt. constructor; cbn; auto. }
      pose proof (Hin q (or_introl eq_refl)) as Hq. apply In_rows in Hq. destruct Hq as [Hqx Hqy].
      pose proof (splat_one_ok m r fm (set_tile_pixels t l0) p mn mx sample (px q) (py q) d W Wt0) as S1.
      cbn zeta in S1. cbn [set_tile_pixels tl_bbox tl_radius tl_table tl_pixels] in S1.
      specialize (S1 H1 H2 H3 H4 Hqx Hqy).
      cbn [set_tile_pixels tl_table]. unfold ix, iy. rewrite S1. fold ix iy.
      replace (mkP2 (px q) (py q)) with q by now destruct q.
      change (fun q0 => pixel_add_sample q0 sample (splat_weight (tl_radius t) (tl_table t) p q d)) with (f q).
      destruct (gupd (tl_bbox t) l0 q (f q)) as (l1 & Eu & Hl1 & _); [apply Hpts, Hin; now left|auto|].
      rewrite Eu. cbn [rmap rbind]. apply IH; [intros; apply Hin; now right|congruence]. }
    pose proof (Efold pts (tl_pixels t) (fun q H => H) (to_len _ _ Wt)) as E0.
    replace (set_tile_pixels t (tl_pixels t)) with t in E0 by now destruct t.
    rewrite El in E0. cbn [rmap] in E0. rewrite E0.
    eexists; split; [reflexivity|]. split; [reflexivity|]. split; [|split; [reflexivity|split; [exact Ep|]]].
    - destruct Wt. constructor; cbn [set_tile_pixels tl_bbox tl_pixels tl_radius tl_table]; auto. congruence.
    - intros q Hq. cbn [set_tile_pixels tl_pixels]. rewrite G by auto.
      destruct (in_dec p2_eq_dec q pts) as [Hin|Hin].
      + apply In_rows in Hin. replace (_ && _) with true by lia. reflexivity.
      + assert (~ (px mn <= px q < px mx /\ py mn <= py q < py mx)) by (intros H; apply Hin, In_rows; auto).
        replace (_ && _) with false by lia. reflexivity.
  Qed.

  (** ** Merging *)
  Definition set_film_pixels (fm : film F) (l : list (pixel F)) : film F :=
    mkFilm (fm_res fm) (fm_radius fm) (fm_table fm) l.

  Lemma rect_i32_tile r fm t : film_ok r fm -> tile_ok fm t -> rect_i32 (tl_bbox t).
  Proof.
    intros W Wt. pose proof (to_rect _ _ Wt) as Hs. unfold rect_sub, film_rect in Hs; cbn [px py b2min b2max] in Hs.
    pose proof (fo_x _ _ W) as Wx. pose proof (fo_y _ _ W) as Wy.
    pose proof (to_x _ _ Wt). pose proof (to_y _ _ Wt). unfold rect_i32. lia.
  Qed.

  Lemma merge_spec m r fm t : film_ok r fm -> tile_ok fm t ->
    exists fm', merge_film_tile m fm t = Ok fm' /\ film_ok r fm' /\
      fm_res fm' = fm_res fm /\ fm_radius fm' = fm_radius fm /\ fm_table fm' = fm_table fm /\
      forall q, in_rect (film_rect fm) q ->
        gget (film_rect fm) (fm_pixels fm') q =
          match (if (px (b2min (tl_bbox t)) <=? px q) && (px q <? px (b2max (tl_bbox t))) &&
                    ((py (b2min (tl_bbox t)) <=? py q) && (py q <? py (b2max (tl_bbox t))))
                 then gget (tl_bbox t) (tl_pixels t) q else None) with
          | Some c => option_map (fun c0 => pixel_merge c0 c) (gget (film_rect fm) (fm_pixels fm) q)
          | None => gget (film_rect fm) (fm_pixels fm) q
          end.
  Proof.
    intros W Wt. unfold merge_film_tile. rewrite bbox2_items_ok by now apply (rect_i32_tile r fm).
    cbn [rbind]. destruct (rect_points_spec (tl_bbox t)) as (_ & ND & HIn).
    set (pts := rect_points (tl_bbox t)) in *.
    pose proof (to_rect _ _ Wt) as Hs. unfold rect_sub, film_rect in Hs; cbn [px py b2min b2max] in Hs.
    assert (Hpts : forall q, In q pts -> in_rect (film_rect fm) q).
    { intros q Hq. apply HIn in Hq. unfold in_rect, film_rect in *; cbn [px py b2min b2max]. lia. }
    set (f := fun q c => match gget (tl_bbox t) (tl_pixels t) q with Some c' => pixel_merge c c' | None => c end).
    destruct (gupd_fold (film_rect fm) f pts (fm_pixels fm) ND Hpts) as (l' & El & Hl' & G).
    { rewrite gsize_film. apply (fo_len _ _ W). }
    assert (Efold : forall pts' l0, (forall q, In q pts' -> In q pts) -> Z.of_nat (length l0) = gsize (film_rect fm) ->
      rfold (merge_one m t) pts' (set_film_pixels fm l0) =
      rmap (set_film_pixels fm) (rfold (fun l q => upd l (goff (film_rect fm) q) (f q)) pts' l0)).
    { induction pts' as [|q pts' IH]; intros l0 Hin Hl0; [reflexivity|]. cbn [rfold].
      pose proof (Hin q (or_introl eq_refl)) as Hq. pose proof (Hpts q Hq) as Hqf. apply HIn in Hq.
      assert (W0 : film_ok r (set_film_pixels fm l0)).
      { destruct W. constructor; cbn [set_film_pixels fm_res fm_radius fm_table fm_pixels]; auto.
        rewrite Hl0. apply gsize_film. }
      unfold merge_one at 1.
      rewrite (film_pixel_offset_ok m r (set_film_pixels fm l0)) by auto. cbn [rbind].
      change (goff (film_rect (set_film_pixels fm l0)) q) with (goff (film_rect fm) q).
      rewrite (tile_pixel_offset_ok m r fm t) by (auto; destruct q; auto). cbn [rbind].
      replace (mkP2 (px q) (py q)) with q by now destruct q.
      destruct (idx_ok (tl_pixels t) (goff (tl_bbox t) q)) as (c & Ec & Enc).
      { rewrite (to_len _ _ Wt). now apply goff_range. }
      rewrite Ec. cbn [rbind].
      assert (Ef : forall c0, f q c0 = pixel_merge c0 c). { intros c0. unfold f, gget. now rewrite Enc. }
      cbn [set_film_pixels fm_pixels].
      assert (Eu' : upd l0 (goff (film_rect fm) q) (fun p => pixel_merge p c) = upd l0 (goff (film_rect fm) q) (f q)).
      { unfold upd. destruct (idx l0 _); auto. cbn [rbind]. now rewrite Ef. }
      rewrite Eu'.
      destruct (gupd (film_rect fm) l0 q (f q)) as (l1 & Eu & Hl1 & _); auto.
      rewrite Eu. cbn [rbind fm_res fm_radius fm_table set_film_pixels].
      change (mkFilm (fm_res fm) (fm_radius fm) (fm_table fm) l1) with (set_film_pixels fm l1).
      apply IH; [intros; apply Hin; now right|congruence]. }
    pose proof (Efold pts (fm_pixels fm) (fun q H => H)) as E0.
    replace (set_film_pixels fm (fm_pixels fm)) with fm in E0 by now destruct fm.
    rewrite gsize_film in E0. specialize (E0 (fo_len _ _ W)).
    rewrite El in E0. cbn [rmap] in E0. rewrite E0.
    eexists; split; [reflexivity|]. split; [|split; [reflexivity|split; [reflexivity|split; [reflexivity|]]]].
    - destruct W. constructor; cbn [set_film_pixels fm_res fm_radius fm_table fm_pixels]; auto. congruence.
    - intros q Hq. cbn [set_film_pixels fm_pixels]. rewrite G by auto.
      destruct (in_dec p2_eq_dec q pts) as [Hin|Hin].
      + apply HIn in Hin. assert (Hin' := Hin). unfold in_rect in Hin'. replace (_ && _) with true by lia. unfold f.
        destruct (gget_some (tl_bbox t) (tl_pixels t) q Hin (to_len _ _ Wt)) as (c & ->).
        reflexivity.
      + assert (~ in_rect (tl_bbox t) q) as Hn by (intros H; apply Hin, HIn; auto). unfold in_rect in Hn.
        replace (_ && _) with false by lia. reflexivity.
  Qed.
End Ops.
