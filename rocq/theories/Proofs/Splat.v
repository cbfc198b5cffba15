(** * Splatting in exact arithmetic *)
From Coq Require Import ZArith Reals List Bool Lia Lra ZifyBool.
From Flocq Require Import Core.Raux.
From Verif Require Import Model.Num Model.NumX Model.NumB Model.Vector Model.BBox Model.Film Spec.Grid Spec.FilmSpec.
From Verif Require Import Proofs.XBase Proofs.FLaws Proofs.Iter Proofs.Tiles Proofs.FilmGrid Proofs.FilmOps Proofs.FilmJobs.
Import ListNotations.
Local Open Scope Z_scope.

Lemma film_at_gget {F} (fm : film F) q : film_at fm q = gget (film_rect fm) (fm_pixels fm) q.
Proof.
  unfold film_at, gget, goff, film_rect; cbn [px py b2min b2max]. do 2 f_equal.
  rewrite !Z.sub_0_r. reflexivity.
Qed.

Lemma on_film_rect {F} (fm : film F) q : on_film fm q <-> in_rect (film_rect fm) q.
Proof. unfold on_film, in_rect, film_rect; cbn [px py b2min b2max]. tauto. Qed.

Lemma Ok_triple_inj {A B C} (a a' : A) (b b' : B) (c c' : C) :
  Ok (a, b, c) = Ok (a', b', c') -> a = a' /\ b = b' /\ c = c'.
Proof. intros H. inversion H. auto. Qed.

(** ** One axis *)
Lemma ceil_le_iff x q : Zceil x <= q <-> (x <= IZR q)%R.
Proof.
  split; intros H.
  - apply Rle_trans with (IZR (Zceil x)); [apply Zceil_ub|now apply IZR_le].
  - now apply Zceil_glb.
Qed.
Lemma le_floor_iff x q : q <= Zfloor x <-> (IZR q <= x)%R.
Proof.
  split; intros H.
  - apply Rle_trans with (IZR (Zfloor x)); [now apply IZR_le|apply Zfloor_lb].
  - now apply Zfloor_lub.
Qed.

Lemma table_index_cell r x q : (0 < r)%R ->
  table_index (XFin r) q (xsub (XFin x) fhalf) = cell r x q.
Proof.
  intros Hr. unfold table_index, cell, FILTER_TABLE_WIDTH, fto_usize, fhalf. xsimp.
  rewrite xdiv_fin by lra. cbn [xsub]. rewrite xdiv_fin by lra. cbn [xmul xabs xint xto_int].
  rewrite Ztrunc_IZR.
  replace (Rabs ((IZR q - (x - 1 / 2)) / r * 16)) with (Rabs (IZR q + / 2 - x) / r * 16)%R.
  - set (d := (Rabs (IZR q + / 2 - x) / r * 16)%R).
    assert (0 <= Zfloor d).
    { apply Zfloor_lub. unfold d. simpl. pose proof (Rabs_pos (IZR q + / 2 - x)).
      apply Rmult_le_pos; [|lra]. apply Rmult_le_pos; auto. apply Rlt_le, Rinv_0_lt_compat. lra. }
    unfold usize_max. lia.
  - unfold Rdiv. rewrite !Rabs_mult, (Rabs_pos_eq (/ r)), (Rabs_pos_eq 16) by (try lra; apply Rlt_le, Rinv_0_lt_compat; lra).
    do 2 f_equal. f_equal. lra.
Qed.

Section OneSample.
  Variables (m : build) (r : R) (fm : film XR) (t : bbox2).
  Hypothesis W : film_ok r fm.
  Hypothesis Hr : (0 < r)%R.
  Hypothesis Ht : tile_of_sample_area fm t.

  Lemma tb_lo_x z : Z.abs z < 2 ^ 23 -> tb_lo fm z = Zceil (IZR z - / 2 - r).
  Proof. intros H. destruct (tb_lo_spec r fm z W H) as (y & E & -> & _). simpl in E. congruence. Qed.
  Lemma tb_hi_x z : Z.abs z < 2 ^ 23 -> tb_hi fm z = Zfloor (IZR z + / 2 + r).
  Proof. intros H. destruct (tb_hi_spec r fm z W H) as (y & E & -> & _). simpl in E. congruence. Qed.

  (** coordinates of tiles are below 2^23 *)
  Lemma tile_lt23 : Z.abs (px (b2min t)) < 2 ^ 23 /\ Z.abs (py (b2min t)) < 2 ^ 23 /\
                    Z.abs (px (b2max t)) < 2 ^ 23 /\ Z.abs (py (b2max t)) < 2 ^ 23.
  Proof.
    destruct (tile_coord_bound r fm t W Ht) as (B1 & B2 & B3 & B4).
    destruct Ht as [Hs Hsub]. rewrite (sample_bbox_eq r fm W) in Hsub. unfold rect_size_le, rect_sub in *.
    cbn [px py b2min b2max] in *.
    pose proof (fo_x _ _ W) as Wx. pose proof (fo_y _ _ W) as Wy.
    destruct (sb_hi_spec r fm _ W Wx) as [Hx [_ Hx2]]. destruct (sb_hi_spec r fm _ W Wy) as [Hy [_ Hy2]].
    pose proof (fo_r_range _ _ W) as Hr2. rewrite IZR20 in Hr2.
    assert (px (b2max t) < 2 ^ 23).
    { specialize (Hx2 (px (b2max t) - 1) ltac:(lia) ltac:(lia)). apply lt_IZR.
      assert (IZR (px (fm_res fm)) <= 4194304)%R by (rewrite <- IZR22; apply IZR_le; lia).
      rewrite minus_IZR in Hx2. rewrite IZR23. lra. }
    assert (py (b2max t) < 2 ^ 23).
    { specialize (Hy2 (py (b2max t) - 1) ltac:(lia) ltac:(lia)). apply lt_IZR.
      assert (IZR (py (fm_res fm)) <= 4194304)%R by (rewrite <- IZR22; apply IZR_le; lia).
      rewrite minus_IZR in Hy2. rewrite IZR23. lra. }
    lia.
  Qed.

  Definition xpos (pos : R * R) : P2 XR := mkP2 (XFin (fst pos)) (XFin (snd pos)).

  Lemma pos_in_tile_x pos : pos_in_tile t (xpos pos) <->
    (IZR (px (b2min t)) <= fst pos <= IZR (px (b2max t)) /\ IZR (py (b2min t)) <= snd pos <= IZR (py (b2max t)))%R.
  Proof.
    unfold pos_in_tile, xpos. cbn [px py]. xsimp. cbn [xle].
    rewrite !Rle_bool_iff. tauto.
  Qed.

  (** the sample range in one axis, clipped to [lo, hi) *)
  Lemma range_axis x a b lo hi q :
    Z.abs a < 2 ^ 23 -> Z.abs b < 2 ^ 23 -> (IZR a <= x <= IZR b)%R ->
    lo = Z.max (tb_lo fm a) 0 -> (hi = Z.min (tb_hi fm b) (px (fm_res fm)) \/ hi = Z.min (tb_hi fm b) (py (fm_res fm))) ->
    lo <= q < hi ->
    let v := xsub (XFin x) fhalf in
    let mn := fto_i32 (fceil (fsub v (fm_radius fm))) in
    let mx := fto_i32 (ffloor (fadd v (fm_radius fm))) + 1 in
    (Z.max mn lo <= q < Z.min mx hi <-> (Rabs (IZR q + / 2 - x) <= r)%R).
  Proof.
    intros Ha Hb Hx Elo Ehi Hq v mn mx.
    pose proof (fo_r _ _ W) as Er. cbn in Er. pose proof (fo_r_range _ _ W) as Hr2. rewrite IZR20 in Hr2.
    assert (- 8388608 <= x <= 8388608)%R.
    { split; [eapply Rle_trans; [|apply Hx]|eapply Rle_trans; [apply Hx|]]; apply IZR_le; lia. }
    assert (Ev : v = XFin (x - / 2)).
    { unfold v, fhalf. xsimp. rewrite xdiv_fin by lra. cbn [xsub]. f_equal. lra. }
    assert (Emn : mn = Zceil (x - / 2 - r)).
    { unfold mn. rewrite Er, Ev. apply to_i32_ceil; [reflexivity|]. rewrite IZR24. apply Rabs_le. lra. }
    assert (Emx : mx = Zfloor (x - / 2 + r) + 1).
    { unfold mx. rewrite Er, Ev. f_equal. apply to_i32_floor; [reflexivity|]. rewrite IZR24. apply Rabs_le. lra. }
    rewrite Emn, Emx.
    assert (E1 : Zceil (x - / 2 - r) <= q <-> (x - / 2 - r <= IZR q)%R) by apply ceil_le_iff.
    assert (E2 : q <= Zfloor (x - / 2 + r) <-> (IZR q <= x - / 2 + r)%R) by apply le_floor_iff.
    split; intros H0.
    - apply Rabs_le. destruct E1 as [E1 _], E2 as [E2 _]. specialize (E1 ltac:(lia)). specialize (E2 ltac:(lia)). lra.
    - apply Rabs_le_inv in H0. destruct E1 as [_ E1], E2 as [_ E2]. specialize (E1 ltac:(lra)). specialize (E2 ltac:(lra)). lia.
  Qed.

  (** a pixel outside the tile's rectangle is not covered by a sample of the tile *)
  Lemma outside_axis x a b q n : Z.abs a < 2 ^ 23 -> Z.abs b < 2 ^ 23 -> (IZR a <= x <= IZR b)%R ->
    0 <= q < n -> ~ (Z.max (tb_lo fm a) 0 <= q < Z.min (tb_hi fm b) n) -> ~ (Rabs (IZR q + / 2 - x) <= r)%R.
  Proof.
    intros Ha Hb Hx Hq Hn H. apply Hn. rewrite tb_lo_x, tb_hi_x by auto. apply Rabs_le_inv in H.
    assert (Zceil (IZR a - / 2 - r) <= q) by (apply ceil_le_iff; lra).
    assert (q + 1 <= Zfloor (IZR b + / 2 + r)) by (apply le_floor_iff; rewrite plus_IZR; lra).
    lia.
  Qed.

  Definition raw (s : (R * R) * V3 XR) : P2 XR * V3 XR := (xpos (fst s), snd s).

  (** tile pixels after a list of samples *)
  Lemma add_all_deposit samples ft :
    (forall s, In s samples -> pos_in_tile t (xpos (fst s))) ->
    tile_ok fm ft -> tl_bbox ft = film_tile_rect fm t ->
    exists ft', add_all m (map raw samples) ft = Ok ft' /\ tile_ok fm ft' /\ tl_bbox ft' = film_tile_rect fm t /\
      forall q, in_rect (film_tile_rect fm t) q ->
        gget (film_tile_rect fm t) (tl_pixels ft') q =
        option_map (fun c => fold_left (deposit r (fm_table fm) q) samples c) (gget (film_tile_rect fm t) (tl_pixels ft) q).
  Proof.
    revert ft. induction samples as [|[pos l] samples IH]; intros ft Hin Wt Eb.
    - exists ft. split; [reflexivity|]. split; [auto|]. split; [auto|]. intros q Hq. cbn [fold_left].
      destruct (gget _ _ q); reflexivity.
    - assert (Hpos : pos_in_tile t (xpos pos)) by (apply (Hin (pos, l)); now left).
      destruct (tile_add_sample_spec m r fm ft (xpos pos) l XNaN W Wt) as (p & mn & mx & ft1 & E1 & E2 & Wt1 & Eb1 & Ep & G1).
      { now apply (in_tile_no_sat m r fm t). }
      destruct (IH ft1) as (ft2 & E3 & Wt2 & Eb2 & G2); [intros; apply Hin; now right|auto|congruence|].
      exists ft2. unfold add_all in *. cbn [map rfold].
      change (tile_add_sample m ft (fst (raw (pos, l))) (snd (raw (pos, l)))) with (tile_add_sample m ft (xpos pos) l). rewrite E2. cbn [rbind].
      split; [exact E3|]. split; [auto|]. split; [auto|].
      intros q Hq. rewrite G2 by auto. cbn [fold_left]. rewrite <- Eb. rewrite <- Eb in Hq. rewrite (G1 q Hq).
      destruct (gget (tl_bbox ft) (tl_pixels ft) q) as [c|]; [|now destruct (_ && _)].
      cbn [option_map].
      (* the range condition is the covering condition *)
      apply pos_in_tile_x in Hpos. destruct tile_lt23 as (T1 & T2 & T3 & T4).
      unfold sample_range in E1. cbn [xpos px py] in E1.
      assert (Hb := fo_r_range _ _ W). rewrite IZR20 in Hb.
      assert (Hi32 : forall x, (- 8388608 <= x <= 8388608)%R ->
         - 2^30 <= fto_i32 (ffloor (fadd (fsub (XFin x) fhalf) (tl_radius ft))) <= 2 ^ 30).
      { intros x Hx. rewrite (to_radius _ _ Wt). pose proof (fo_r _ _ W) as Er. cbn in Er.
        rewrite (to_i32_floor _ (x - / 2 + r)%R).
        - split; [apply le_floor_iff|].  rewrite opp_IZR. change (IZR (2 ^ 30)) with 1073741824%R. lra.
          apply le_IZR. pose proof (Zfloor_lb (x - / 2 + r)). change (IZR (2 ^ 30)) with 1073741824%R. lra.
        - rewrite Er. unfold fhalf. xsimp. rewrite xdiv_fin by lra. cbn [xsub xadd emb XR_FLaws]. f_equal. lra.
        - rewrite IZR24. apply Rabs_le. lra. }
      assert (Bx : (- 8388608 <= fst pos <= 8388608)%R).
      { split; [eapply Rle_trans; [|apply Hpos]|eapply Rle_trans; [apply Hpos|]]; apply IZR_le; lia. }
      assert (By : (- 8388608 <= snd pos <= 8388608)%R).
      { split; [eapply Rle_trans; [|apply Hpos]|eapply Rle_trans; [apply Hpos|]]; apply IZR_le; lia. }
      pose proof (Hi32 _ Bx) as Hix. pose proof (Hi32 _ By) as Hiy.
      rewrite !i32_of_ok in E1 by lia. cbn [rbind] in E1. apply Ok_triple_inj in E1. destruct E1 as (Ep' & Emn & Emx).
      pose proof (range_axis (fst pos) (px (b2min t)) (px (b2max t)) (px (b2min (tl_bbox ft))) (px (b2max (tl_bbox ft))) (px q)) as RX.
      pose proof (range_axis (snd pos) (py (b2min t)) (py (b2max t)) (py (b2min (tl_bbox ft))) (py (b2max (tl_bbox ft))) (py q)) as RY.
      cbn zeta in RX, RY. unfold in_rect in Hq. rewrite Eb in *. unfold film_tile_rect in RX, RY, Hq, Emn, Emx. cbn [px py b2min b2max] in RX, RY, Hq, Emn, Emx.
      specialize (RX T1 T3 (proj1 Hpos) eq_refl (or_introl eq_refl) (proj1 Hq)).
      specialize (RY T2 T4 (proj2 Hpos) eq_refl (or_intror eq_refl) (proj2 Hq)).
      rewrite (to_radius _ _ Wt) in *.
      change (fsub (XFin (fst pos)) fhalf) with (xsub (XFin (fst pos)) fhalf) in *.
      change (fsub (XFin (snd pos)) fhalf) with (xsub (XFin (snd pos)) fhalf) in *.
      set (mx1 := fto_i32 (ffloor (fadd (xsub (XFin (fst pos)) fhalf) (fm_radius fm)))) in *.
      set (mx2 := fto_i32 (ffloor (fadd (xsub (XFin (snd pos)) fhalf) (fm_radius fm)))) in *.
      set (mn1 := fto_i32 (fceil (fsub (xsub (XFin (fst pos)) fhalf) (fm_radius fm)))) in *.
      set (mn2 := fto_i32 (fceil (fsub (xsub (XFin (snd pos)) fhalf) (fm_radius fm)))) in *.
      subst mn mx. unfold p2max, p2min; cbn [px py].
      assert (C : ((px q <? (if mx1 + 1 <? Z.min (tb_hi fm (px (b2max t))) (px (fm_res fm)) then mx1 + 1 else Z.min (tb_hi fm (px (b2max t))) (px (fm_res fm))))
         && ((if mn1 >? Z.max (tb_lo fm (px (b2min t))) 0 then mn1 else Z.max (tb_lo fm (px (b2min t))) 0) <=? px q) = Rle_bool (Rabs (IZR (px q) + / 2 - fst pos)) r)%Z).
      { destruct (Rle_bool (Rabs (IZR (px q) + / 2 - fst pos)) r) eqn:EX; rb.
        - apply RX in EX. repeat match goal with |- context [if ?c then _ else _] => destruct c eqn:? end; lia.
        - assert (~ (Rabs (IZR (px q) + / 2 - fst pos) <= r)%R) as N by lra. rewrite <- RX in N.
          repeat match goal with |- context [if ?c then _ else _] => destruct c eqn:? end; lia. }
      assert (D : ((py q <? (if mx2 + 1 <? Z.min (tb_hi fm (py (b2max t))) (py (fm_res fm)) then mx2 + 1 else Z.min (tb_hi fm (py (b2max t))) (py (fm_res fm))))
         && ((if mn2 >? Z.max (tb_lo fm (py (b2min t))) 0 then mn2 else Z.max (tb_lo fm (py (b2min t))) 0) <=? py q) = Rle_bool (Rabs (IZR (py q) + / 2 - snd pos)) r)%Z).
      { destruct (Rle_bool (Rabs (IZR (py q) + / 2 - snd pos)) r) eqn:EX; rb.
        - apply RY in EX. repeat match goal with |- context [if ?c then _ else _] => destruct c eqn:? end; lia.
        - assert (~ (Rabs (IZR (py q) + / 2 - snd pos) <= r)%R) as N by lra. rewrite <- RY in N.
          repeat match goal with |- context [if ?c then _ else _] => destruct c eqn:? end; lia. }
      rewrite andb_comm in C, D. rewrite C, D.
      assert (Ew : splat_weight (fm_radius fm) (tl_table ft) p q XNaN = cell_weight r (fm_table fm) pos q).
      { unfold splat_weight, cell_weight. rewrite (to_table _ _ Wt), <- Ep'. cbn [px py].
        pose proof (fo_r _ _ W) as Er. cbn in Er. rewrite Er. 
        now rewrite !table_index_cell by auto. }
      rewrite Ew.
      match goal with |- option_map ?f ?x = Some ?y => enough (Ed : x = Some (deposit r (fm_table fm) q c (pos, l))) by now rewrite Ed end.
      unfold deposit. match goal with |- context [if ?b then _ else _] => destruct b; reflexivity end.
  Qed.

  Lemma deposit_merge_one q c s : pixel_merge c (deposit r (fm_table fm) q pixel_default s) = deposit r (fm_table fm) q c s.
  Proof.
    destruct s as [pos l]. unfold deposit. destruct (_ && _).
    - unfold pixel_merge, pixel_default, v3zero, v3add, v3map2, f0. cbn [p_color p_wsum vx vy vz]. xsimp.
      now rewrite !xadd_0_l.
    - unfold pixel_merge, pixel_default, v3zero, v3add, v3map2, f0. cbn [p_color p_wsum vx vy vz]. xsimp.
      rewrite !xadd_0_r. destruct c as [[? ? ?] ?]; reflexivity.
  Qed.

  Lemma merge_assoc a b c : pixel_merge (pixel_merge a b) c = pixel_merge a (pixel_merge b c).
  Proof. unfold pixel_merge, v3add, v3map2; cbn [p_color p_wsum vx vy vz]. xsimp. now rewrite !xadd_assoc. Qed.

  Lemma merge_default c : pixel_merge c pixel_default = c.
  Proof.
    unfold pixel_merge, pixel_default, v3zero, v3add, v3map2, f0. cbn [p_color p_wsum vx vy vz]. xsimp.
    rewrite !xadd_0_r. destruct c as [[? ? ?] ?]; reflexivity.
  Qed.

  Lemma deposit_merge q samples c d :
    pixel_merge c (fold_left (deposit r (fm_table fm) q) samples d) =
    fold_left (deposit r (fm_table fm) q) samples (pixel_merge c d).
  Proof.
    revert d. induction samples as [|s samples IH]; intros d; cbn [fold_left]; auto.
    rewrite IH. f_equal. rewrite <- (deposit_merge_one q d s), <- merge_assoc. apply deposit_merge_one.
  Qed.

  (** the whole job *)
  Lemma run_job_deposit samples :
    (forall s, In s samples -> pos_in_tile t (xpos (fst s))) ->
    exists fm', run_job m fm (t, map raw samples) = Ok fm' /\ film_ok r fm' /\
      fm_res fm' = fm_res fm /\ fm_radius fm' = fm_radius fm /\ fm_table fm' = fm_table fm /\
      forall q, on_film fm q ->
        film_at fm' q = option_map (fun c => fold_left (deposit r (fm_table fm) q) samples c) (film_at fm q).
  Proof.
    intros Hin. unfold run_job. cbn [fst snd].
    destruct (get_film_tile_ok m r fm t W Ht) as (ft & -> & Wt & Eb & Ep). cbn [rbind].
    destruct (add_all_deposit samples ft Hin Wt Eb) as (ft1 & E1 & Wt1 & Eb1 & G1).
    unfold add_all in E1. rewrite E1. cbn [rbind].
    destruct (merge_spec m r fm ft1 W Wt1) as (fm' & E & W' & F1 & F2 & F3 & G).
    exists fm'. do 5 (split; [assumption|]). intros q Hq.
    rewrite !film_at_gget. unfold film_rect at 1. rewrite F1. fold (film_rect fm).
    apply on_film_rect in Hq. rewrite G by auto. rewrite Eb1.
    destruct (gget_some (film_rect fm) (fm_pixels fm) q Hq) as (c & Ec).
    { rewrite gsize_film. apply (fo_len _ _ W). }
    rewrite Ec. cbn [option_map].
    destruct (_ && _) eqn:EI.
    - assert (Hqt : in_rect (film_tile_rect fm t) q) by (unfold in_rect; lia).
      rewrite G1 by auto. unfold gget at 1. rewrite Ep.
      destruct (film_tile_bbox_eq r fm t W Ht) as (_ & _ & Hx & Hy).
      pose proof (goff_range _ _ Hqt) as Ho.
      rewrite nth_error_repeat by lia.
      cbn [option_map]. f_equal. rewrite deposit_merge. f_equal. apply merge_default.
    - (* outside the tile rectangle: no sample covers q *)
      f_equal. symmetry. clear - Hin W Ht EI Hq Hr.
      revert c. induction samples as [|[pos l] samples IH]; intros c; cbn [fold_left]; auto.
      rewrite IH by (intros; apply Hin; now right).
      assert (Hpos : pos_in_tile t (xpos pos)) by (apply (Hin (pos, l)); now left).
      apply pos_in_tile_x in Hpos. destruct tile_lt23 as (T1 & T2 & T3 & T4).
      unfold deposit. match goal with |- (if ?b then _ else _) = _ => destruct b eqn:EC; auto end. exfalso.
      apply andb_true_iff in EC. destruct EC as [C1 C2]. rb.
      unfold in_rect, film_rect in Hq; cbn [px py b2min b2max] in Hq.
      pose proof (outside_axis (fst pos) _ _ (px q) (px (fm_res fm)) T1 T3 (proj1 Hpos) (proj1 Hq)) as X.
      pose proof (outside_axis (snd pos) _ _ (py q) (py (fm_res fm)) T2 T4 (proj2 Hpos) (proj2 Hq)) as Y.
      unfold film_tile_rect in EI; cbn [px py b2min b2max] in EI.
      destruct (Z_le_dec (Z.max (tb_lo fm (px (b2min t))) 0) (px q)); [|apply X; auto; lia].
      destruct (Z_lt_dec (px q) (Z.min (tb_hi fm (px (b2max t))) (px (fm_res fm)))); [|apply X; auto; lia].
      apply Y; auto. lia.
  Qed.
End OneSample.
