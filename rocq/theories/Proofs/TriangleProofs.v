(** * Lemmas on the ray-triangle test in exact arithmetic *)
From Coq Require Import ZArith Reals List Bool Lra Lia.
From Flocq Require Import Core.Raux.
From Verif Require Import Model.Num Model.NumX Model.Vector Model.Common Model.BBox Model.Interaction Model.Shape
  Model.Triangle Spec.RVec Spec.BoxSpec Spec.ShapeSpec Proofs.XBase Proofs.RVecProofs Proofs.BoxProofs Proofs.ShapeProofs.
Import ListNotations.
Local Open Scope R_scope.

Definition ftri (v : tri rv) : tri (V3 XR) := mk3 (fin3 (t0 v)) (fin3 (t1 v)) (fin3 (t2 v)).

Lemma v3get_fin v a : v3get (fin3 v) a = XFin (v3get v a).
Proof. now destruct a. Qed.

(** ** The axis of the largest component *)
Lemma max_abs_axis_fin d : d <> v0 -> exists a, max_abs_axis (fin3 d) = Ok a /\ v3get d a <> 0 /\
  forall b, Rabs (v3get d b) <= Rabs (v3get d a).
Proof.
  intros Hd. unfold max_abs_axis, largest_axis, v3abs. cbn [fin3 vx vy vz]. xsimp. cbn [xabs xle].
  assert (N : forall a : axis, (forall b, Rabs (v3get d b) <= Rabs (v3get d a)) -> v3get d a <> 0).
  { intros a H E. apply Hd. rewrite E, Rabs_R0 in H.
    pose proof (H AX) as H1; pose proof (H AY) as H2; pose proof (H AZ) as H3. cbn [v3get] in H1, H2, H3.
    assert (Z : forall x, Rabs x <= 0 -> x = 0).
    { intros x Hx. destruct (Req_dec x 0) as [|Q]; auto. apply Rabs_pos_lt in Q. lra. }
    apply V3_eq; cbn; apply Z; auto. }
  assert (K : forall a, (forall b, Rabs (v3get d b) <= Rabs (v3get d a)) -> exists a', Ok a = Ok a' /\ v3get d a' <> 0 /\
    forall b, Rabs (v3get d b) <= Rabs (v3get d a')) by (intros a H; exists a; auto).
  destruct (Rle_bool (Rabs (vy d)) (Rabs (vx d))) eqn:E1, (Rle_bool (Rabs (vz d)) (Rabs (vx d))) eqn:E2,
    (Rle_bool (Rabs (vz d)) (Rabs (vy d))) eqn:E3; rb; try (exfalso; lra); apply K; intros []; cbn [v3get]; lra.
Qed.

Definition gam (k : R) : R := k / 16777216 / (1 - k / 16777216).
Lemma gamma_fin k : k < 16777216 -> gamma (XFin k) = XFin (gam k).
Proof.
  intros H. unfold gamma, MACHINE_EPSILON, f1. rewrite fhalf_X. xsimp. cbn [xmul xsub].
  rewrite xdiv_fin by lra. unfold gam. f_equal. field. lra.
Qed.

Definition rmax3 (a b c : R) : R := Rmax (Rmax (Rabs a) (Rabs b)) (Rabs c).
Lemma fmax_XFin a b : fmax (XFin a) (XFin b) = XFin (Rmax a b).
Proof.
  unfold fmax. xsimp. cbn [xis_nan xlt]. unfold Rmax. destruct (Rlt_bool a b) eqn:E; destruct (Rle_dec a b); rb; auto; f_equal; lra.
Qed.
Lemma max3_fin a b c : max3 (XFin a) (XFin b) (XFin c) = XFin (rmax3 a b c).
Proof. unfold max3, max_component, v3abs. cbn [vx vy vz]. xsimp. cbn [xabs]. now rewrite !fmax_XFin. Qed.
Lemma rmax3_ub a b c : Rabs a <= rmax3 a b c /\ Rabs b <= rmax3 a b c /\ Rabs c <= rmax3 a b c.
Proof.
  unfold rmax3. pose proof (Rmax_l (Rabs a) (Rabs b)). pose proof (Rmax_r (Rabs a) (Rabs b)).
  pose proof (Rmax_l (Rmax (Rabs a) (Rabs b)) (Rabs c)). pose proof (Rmax_r (Rmax (Rabs a) (Rabs b)) (Rabs c)). lra.
Qed.
Lemma rmax3_lub a b c m : Rabs a <= m -> Rabs b <= m -> Rabs c <= m -> rmax3 a b c <= m.
Proof. intros. unfold rmax3. repeat apply Rmax_lub; auto. Qed.

(** ** The test, in real numbers *)
Section T.
  Variables (o d : rv) (a : axis) (v : tri rv).
  Definition rX (p : rv) : R := v3get (vsub p o) (axis_prev a) + v3get (vsub p o) a * (- v3get d (axis_prev a) / v3get d a).
  Definition rY (p : rv) : R := v3get (vsub p o) (axis_next a) + v3get (vsub p o) a * (- v3get d (axis_next a) / v3get d a).
  Definition rZ (p : rv) : R := v3get (vsub p o) a * (1 / v3get d a).
  Definition re0 : R := rX (t1 v) * rY (t2 v) - rY (t1 v) * rX (t2 v).
  Definition re1 : R := rX (t2 v) * rY (t0 v) - rY (t2 v) * rX (t0 v).
  Definition re2 : R := rX (t0 v) * rY (t1 v) - rY (t0 v) * rX (t1 v).
  Definition rdet : R := re0 + re1 + re2.
  Definition rts : R := rZ (t0 v) * re0 + rZ (t1 v) * re1 + rZ (t2 v) * re2.
  Definition rdt : R :=
    let mx := rmax3 (rX (t0 v)) (rX (t1 v)) (rX (t2 v)) in
    let my := rmax3 (rY (t0 v)) (rY (t1 v)) (rY (t2 v)) in
    let mz := rmax3 (rZ (t0 v)) (rZ (t1 v)) (rZ (t2 v)) in
    let me := rmax3 re0 re1 re2 in
    let de := (gam 2 * mx * my + mx * (my * gam 5) + my * (mx * gam 5)) * 2 in
    3 * (gam 3 * me * mz + mz * de + me * (mz * gam 3)) / Rabs rdet.
  Definition rmixed : bool :=
    (Rlt_bool re0 0 || Rlt_bool re1 0 || Rlt_bool re2 0) && (Rlt_bool 0 re0 || Rlt_bool 0 re1 || Rlt_bool 0 re2).
  Definition rout (tmax : XR) : bool :=
    (Rlt_bool rdet 0 && (xlt (XFin rts) (xmul tmax (XFin rdet)) || Rle_bool 0 rts)) ||
    (Rlt_bool 0 rdet && (Rle_bool rts 0 || xlt (xmul tmax (XFin rdet)) (XFin rts))).

  Lemma to_ray_space_fin p : v3get d a <> 0 ->
    to_ray_space (fin3 o) (axis_prev a) (axis_next a) a
      (xdiv (xneg (XFin (v3get d (axis_prev a)))) (XFin (v3get d a)))
      (xdiv (xneg (XFin (v3get d (axis_next a)))) (XFin (v3get d a))) (fin3 p) =
    fin3 (mkV3 (rX p) (rY p) (v3get (vsub p o) a)).
  Proof.
    intros Ha. unfold to_ray_space. cbn [xneg]. rewrite !xdiv_fin by auto. rewrite v3neg_fin, v3add_fin.
    replace (vadd p (vscale (-1) o)) with (vsub p o) by vring.
    unfold v3permute. rewrite !v3get_fin. reflexivity.
  Qed.

  Lemma bary_fin w b0 b1 b2 : bary (ftri w) (XFin b0) (XFin b1) (XFin b2) = fin3 (comb w b0 b1 b2).
  Proof. unfold bary. cbn [ftri t0 t1 t2]. now rewrite !v3scale_fin, !v3add_fin. Qed.

  Lemma tr_intersect_fin {T} vn rev tmax : max_abs_axis (fin3 d) = Ok a -> v3get d a <> 0 ->
    tr_intersect (T := T) (mkTri (ftri v) vn rev) (mkRay (fin3 o) (fin3 d) tmax) =
    if rmixed then Ok None else if Req_bool rdet 0 then Ok None else if rout tmax then Ok None
    else if Rle_bool (rts / rdet) rdt then Ok None
    else let b0 := re0 / rdet in let b1 := re1 / rdet in let b2 := re2 / rdet in
      let '(n, sn, dpdu, dpdv) := tr_frame (mkTri (ftri v) vn rev) (XFin b0) (XFin b1) (XFin b2) in
      Ok (Some (mkI (fin3 (comb v b0 b1 b2)) (bary_err (ftri v) (XFin b0) (XFin b1) (XFin b2))
         (mkP2 (XFin (b1 + b2)) (XFin b2)) n sn dpdu dpdv (fin3 (vscale (-1) d)) None, XFin (rts / rdet))).
  Proof.
    intros Hm Ha. unfold tr_intersect. cbn [tr_v r_d r_o r_tmax]. rewrite Hm. cbn [rbind].
    unfold v3permute. cbn [vx vy vz]. rewrite !v3get_fin. xsimp.
    cbv zeta. unfold tmap. cbn [ftri t0 t1 t2]. rewrite !to_ray_space_fin by auto. cbn [fin3 vx vy vz].
    change (@f1 XR XR_FOps) with (XFin 1). change (@f0 XR XR_FOps) with (XFin 0). change (@f2 XR XR_FOps) with (XFin 2).
    rewrite xdiv_fin by auto. rewrite !gamma_fin by lra.
    cbn [xmul xsub xadd xlt xeq xabs xneg].
    fold (rZ (t0 v)) (rZ (t1 v)) (rZ (t2 v)). fold re0 re1 re2. fold rdet. rewrite !max3_fin. cbn [xmul xadd].
    fold rts. fold rmixed.
    change (match xmul tmax (XFin rdet) with XNaN => false | XInf s => negb s | XFin y => Rlt_bool rts y end)
      with (xlt (XFin rts) (xmul tmax (XFin rdet))).
    destruct rmixed; auto. destruct (Req_bool rdet 0) eqn:D; auto. rb.
    change (xle (XFin 0) (XFin rts)) with (Rle_bool 0 rts). change (xle (XFin rts) (XFin 0)) with (Rle_bool rts 0).
    fold (rout tmax).
    destruct (rout tmax); auto.
    rewrite !xdiv_fin by (auto; apply Rabs_no_R0; auto). fold rdt. cbn [xle].
    destruct (Rle_bool (rts / rdet) rdt); auto.
    assert (Euv : p2addf (p2addf (p2scale (t0 tr_uv) (XFin (re0 / rdet))) (p2scale (t1 tr_uv) (XFin (re1 / rdet))))
      (p2scale (t2 tr_uv) (XFin (re2 / rdet))) = mkP2 (XFin (re1 / rdet + re2 / rdet)) (XFin (re2 / rdet))).
    { unfold p2addf, p2scale, tr_uv, f1, f0. cbn [t0 t1 t2 px py]. xsimp. cbn [xmul xadd]. f_equal; f_equal; ring. }
    cbv zeta. rewrite bary_fin, Euv, v3neg_fin. reflexivity.
  Qed.

  Hypothesis Ha : v3get d a <> 0.

  Lemma rX_comb w b0 b1 b2 : b0 + b1 + b2 = 1 ->
    rX (comb w b0 b1 b2) = b0 * rX (t0 w) + b1 * rX (t1 w) + b2 * rX (t2 w).
  Proof.
    intros E. replace b0 with (1 - b1 - b2) by lra. unfold rX, comb. destruct a; cbn [axis_prev v3get];
      unfold vsub, vadd, vscale; vproj; ring.
  Qed.
  Lemma rY_comb w b0 b1 b2 : b0 + b1 + b2 = 1 ->
    rY (comb w b0 b1 b2) = b0 * rY (t0 w) + b1 * rY (t1 w) + b2 * rY (t2 w).
  Proof.
    intros E. replace b0 with (1 - b1 - b2) by lra. unfold rY, comb. destruct a; cbn [axis_next v3get];
      unfold vsub, vadd, vscale; vproj; ring.
  Qed.
  Lemma rZ_comb w b0 b1 b2 : b0 + b1 + b2 = 1 ->
    rZ (comb w b0 b1 b2) = b0 * rZ (t0 w) + b1 * rZ (t1 w) + b2 * rZ (t2 w).
  Proof.
    intros E. replace b0 with (1 - b1 - b2) by lra. unfold rZ, comb. destruct a; cbn [v3get];
      unfold vsub, vadd, vscale; vproj; ring.
  Qed.

  Lemma on_line p : rX p = 0 -> rY p = 0 -> p = at_t o d (rZ p).
  Proof.
    intros X Y. unfold rX, rY, rZ in *.
    destruct a; cbn [axis_prev axis_next v3get] in *; unfold at_t; apply V3_eq; revert X Y;
      unfold vsub, vadd, vscale; vproj; intros X Y.
    all: try (field; auto; fail).
    all: unfold Rdiv in *; lra.
  Qed.
  Lemma line_X t : rX (at_t o d t) = 0.
  Proof. unfold rX, at_t. destruct a; cbn [axis_prev v3get] in *; unfold vsub, vadd, vscale; vproj; field; auto. Qed.
  Lemma line_Y t : rY (at_t o d t) = 0.
  Proof. unfold rY, at_t. destruct a; cbn [axis_next v3get] in *; unfold vsub, vadd, vscale; vproj; field; auto. Qed.
  Lemma line_Z t : rZ (at_t o d t) = t.
  Proof. unfold rZ, at_t. destruct a; cbn [v3get] in *; unfold vsub, vadd, vscale; vproj; field; auto. Qed.

  Definition tnormal : rv := vcross (vsub (t1 v) (t0 v)) (vsub (t2 v) (t0 v)).

  Lemma rdet_normal : rdet * v3get d a = - vdot tnormal d.
  Proof.
    unfold rdet, re0, re1, re2, rX, rY, tnormal. destruct a; cbn [axis_prev axis_next v3get] in *;
      unfold vdot, vcross, vsub; vproj; field; auto.
  Qed.

  Lemma rout_spec tmax : xis_nan tmax = false -> rdet <> 0 ->
    (rout tmax = false <-> 0 < rts / rdet /\ xle (XFin (rts / rdet)) tmax = true).
  Proof.
    intros Hn Hd. unfold rout. set (t := rts / rdet). assert (Et : rts = t * rdet) by (unfold t; field; auto).
    rewrite Et. clearbody t. generalize dependent rdet. intros D Hd _.
    assert (Q1 : forall m, D < 0 -> (m * D <= t * D <-> t <= m)).
    { intros m L. split; intros Q; [apply Rnot_lt_le; intros W; apply (Rmult_lt_compat_r (- D)) in W; lra|].
      apply (Rmult_le_compat_r (- D)) in Q; lra. }
    assert (Q2 : forall m, 0 < D -> (t * D <= m * D <-> t <= m)).
    { intros m L. split; intros Q; [apply Rmult_le_reg_r with D; auto|apply Rmult_le_compat_r; lra]. }
    assert (Q3 : D < 0 -> (t * D < 0 <-> 0 < t)).
    { intros L. split; intros Q; [|nra]. apply Rnot_le_lt. intros W. nra. }
    assert (Q4 : 0 < D -> (0 < t * D <-> 0 < t)).
    { intros L. split; intros Q; [|nra]. apply Rnot_le_lt. intros W. nra. }
    destruct (Rlt_or_le D 0) as [L|L].
    - rewrite (Rlt_bool_true D 0), (Rlt_bool_false 0 D) by lra. rewrite orb_false_r. cbn [andb].
      rewrite orb_false_iff, Rle_bool_niff, (Q3 L). destruct tmax as [|s|m]; try discriminate.
      + cbn [xmul]. rewrite Req_bool_false by auto. unfold Rsgn. rewrite (Rlt_bool_true D 0) by lra. destruct s; cbn; intuition congruence.
      + cbn [xmul xlt xle]. rewrite Rlt_bool_niff, Rle_bool_iff, Q1 by auto. tauto.
    - assert (0 < D) as L' by lra. rewrite (Rlt_bool_true 0 D), (Rlt_bool_false D 0) by lra. cbn [andb orb].
      rewrite orb_false_iff, Rle_bool_niff, (Q4 L'). destruct tmax as [|s|m]; try discriminate.
      + cbn [xmul]. rewrite Req_bool_false by auto. unfold Rsgn. rewrite (Rlt_bool_false D 0) by lra. destruct s; cbn; intuition congruence.
      + cbn [xmul xlt xle]. rewrite Rlt_bool_niff, Rle_bool_iff, Q2 by auto. tauto.
  Qed.

  (** Soundness of the test. *)
  Lemma test_sound tmax : xis_nan tmax = false -> rmixed = false -> rdet <> 0 -> rout tmax = false ->
    let b0 := re0 / rdet in let b1 := re1 / rdet in let b2 := re2 / rdet in let t := rts / rdet in
    0 <= b0 /\ 0 <= b1 /\ 0 <= b2 /\ b0 + b1 + b2 = 1 /\ 0 < t /\ xle (XFin t) tmax = true /\
    comb v b0 b1 b2 = at_t o d t.
  Proof.
    intros Hn Hm Hd Ho b0 b1 b2 t.
    assert (Es : b0 + b1 + b2 = 1) by (unfold b0, b1, b2; fold rdet; unfold rdet in *; field; auto).
    assert (S : (0 <= re0 /\ 0 <= re1 /\ 0 <= re2) \/ (re0 <= 0 /\ re1 <= 0 /\ re2 <= 0)).
    { unfold rmixed in Hm. apply andb_false_iff in Hm as [Hm|Hm]; repeat (apply orb_false_iff in Hm as [Hm ?]); rb; auto. }
    assert (B : 0 <= b0 /\ 0 <= b1 /\ 0 <= b2).
    { unfold b0, b1, b2, Rdiv. destruct S as [S|S].
      - assert (0 < rdet) by (unfold rdet in *; lra). apply Rinv_0_lt_compat in H. repeat split; apply Rmult_le_pos; lra.
      - assert (rdet < 0) by (unfold rdet in *; lra). apply Rinv_lt_0_compat in H.
        repeat split; nra. }
    assert (Et : t = rZ (comb v b0 b1 b2)).
    { rewrite rZ_comb by auto. unfold t, rts, b0, b1, b2. field. auto. }
    assert (P : comb v b0 b1 b2 = at_t o d t).
    { rewrite Et. apply on_line.
      - rewrite rX_comb by auto. unfold b0, b1, b2. apply Rmult_eq_reg_r with rdet; auto. field_simplify; auto.
        unfold re0, re1, re2. ring.
      - rewrite rY_comb by auto. unfold b0, b1, b2. apply Rmult_eq_reg_r with rdet; auto. field_simplify; auto.
        unfold re0, re1, re2. ring. }
    destruct B as (B0 & B1 & B2). repeat (split; [assumption|]).
    assert (Ht : 0 < t /\ xle (XFin t) tmax = true); [|tauto].
    apply rout_spec; auto.
  Qed.

  (** Completeness of the test. *)
  Lemma test_complete b0 b1 b2 t : 0 <= b0 -> 0 <= b1 -> 0 <= b2 -> b0 + b1 + b2 = 1 ->
    comb v b0 b1 b2 = at_t o d t -> rdet <> 0 ->
    re0 = b0 * rdet /\ re1 = b1 * rdet /\ re2 = b2 * rdet /\ rts / rdet = t /\ rmixed = false.
  Proof.
    intros B0 B1 B2 S P Hd.
    pose proof (rX_comb v b0 b1 b2 S) as X. rewrite P, line_X in X.
    pose proof (rY_comb v b0 b1 b2 S) as Y. rewrite P, line_Y in Y.
    pose proof (rZ_comb v b0 b1 b2 S) as Z. rewrite P, line_Z in Z.
    unfold rts, rmixed, rdet, re0, re1, re2 in *.
    set (X0 := rX (t0 v)) in *. set (X1 := rX (t1 v)) in *. set (X2 := rX (t2 v)) in *.
    set (Y0 := rY (t0 v)) in *. set (Y1 := rY (t1 v)) in *. set (Y2 := rY (t2 v)) in *.
    set (Z0 := rZ (t0 v)) in *. set (Z1 := rZ (t1 v)) in *. set (Z2 := rZ (t2 v)) in *.
    clearbody X0 X1 X2 Y0 Y1 Y2 Z0 Z1 Z2. clear P.
    assert (E0 : X1 * Y2 - Y1 * X2 = b0 * (X1 * Y2 - Y1 * X2 + (X2 * Y0 - Y2 * X0) + (X0 * Y1 - Y0 * X1))).
    { replace b0 with (1 - b1 - b2) in * by lra.
      assert (Q : (b1 * X1 + b2 * X2 + (1 - b1 - b2) * X0) * (Y1 - Y2) - (b1 * Y1 + b2 * Y2 + (1 - b1 - b2) * Y0) * (X1 - X2) = 0)
        by (replace (b1 * X1 + b2 * X2 + (1 - b1 - b2) * X0) with 0 by lra; replace (b1 * Y1 + b2 * Y2 + (1 - b1 - b2) * Y0) with 0 by lra; ring).
      lra. }
    assert (E1 : X2 * Y0 - Y2 * X0 = b1 * (X1 * Y2 - Y1 * X2 + (X2 * Y0 - Y2 * X0) + (X0 * Y1 - Y0 * X1))).
    { replace b1 with (1 - b0 - b2) in * by lra.
      assert (Q : (b0 * X0 + b2 * X2 + (1 - b0 - b2) * X1) * (Y2 - Y0) - (b0 * Y0 + b2 * Y2 + (1 - b0 - b2) * Y1) * (X2 - X0) = 0)
        by (replace (b0 * X0 + b2 * X2 + (1 - b0 - b2) * X1) with 0 by lra; replace (b0 * Y0 + b2 * Y2 + (1 - b0 - b2) * Y1) with 0 by lra; ring).
      lra. }
    assert (E2 : X0 * Y1 - Y0 * X1 = b2 * (X1 * Y2 - Y1 * X2 + (X2 * Y0 - Y2 * X0) + (X0 * Y1 - Y0 * X1))).
    { replace b2 with (1 - b0 - b1) in * by lra. lra. }
    set (e0 := X1 * Y2 - Y1 * X2) in *. set (e1 := X2 * Y0 - Y2 * X0) in *. set (e2 := X0 * Y1 - Y0 * X1) in *.
    set (D := e0 + e1 + e2) in *. clearbody D e0 e1 e2.
    split; auto. split; auto. split; auto. split.
    - rewrite Z, E0, E1, E2. field. auto.
    - rewrite E0, E1, E2. destruct (Rlt_or_le D 0) as [L|L].
      + apply andb_false_iff. right. rewrite !Rlt_bool_false by nra. reflexivity.
      + apply andb_false_iff. left. rewrite !Rlt_bool_false by nra. reflexivity.
  Qed.

  (** The error bound of the test. *)
  Lemma rdt_bound R0 : (forall b, Rabs (v3get d b) <= Rabs (v3get d a)) -> rdet <> 0 ->
    (forall b, Rabs (v3get (vsub (t0 v) o) b) <= R0 /\ Rabs (v3get (vsub (t1 v) o) b) <= R0 /\ Rabs (v3get (vsub (t2 v) o) b) <= R0) ->
    rdt * Rabs (vdot tnormal d) <= 26 / 1000000 * (R0 * R0 * R0).
  Proof.
    intros Hmax Hd HR. assert (Rp : 0 <= R0) by (pose proof (HR AX) as [H _]; pose proof (Rabs_pos (v3get (vsub (t0 v) o) AX)); lra).
    assert (Da : 0 < Rabs (v3get d a)) by (apply Rabs_pos_lt; auto).
    assert (Bxy : forall p c, (forall b, Rabs (v3get (vsub p o) b) <= R0) ->
      Rabs (v3get (vsub p o) c + v3get (vsub p o) a * (- v3get d c / v3get d a)) <= 2 * R0).
    { intros p c H. eapply Rle_trans; [apply Rabs_triang|]. rewrite Rabs_mult.
      assert (Rabs (- v3get d c / v3get d a) <= 1).
      { unfold Rdiv. rewrite Rabs_mult, Rabs_Ropp, Rabs_inv. apply Rmult_le_reg_r with (Rabs (v3get d a)); auto.
        rewrite Rmult_assoc, Rinv_l by lra. rewrite Rmult_1_l, Rmult_1_r. apply Hmax. }
      pose proof (H c). pose proof (H a).
      pose proof (Rmult_le_compat _ _ _ _ (Rabs_pos (v3get (vsub p o) a)) (Rabs_pos (- v3get d c / v3get d a)) H2 H0). lra. }
    assert (Bz : forall p, (forall b, Rabs (v3get (vsub p o) b) <= R0) -> Rabs (rZ p) <= R0 / Rabs (v3get d a)).
    { intros p H. unfold rZ, Rdiv. rewrite Rmult_1_l, Rabs_mult, Rabs_inv. apply Rmult_le_compat_r; auto.
      left. apply Rinv_0_lt_compat. auto. }
    assert (H0 : forall b, Rabs (v3get (vsub (t0 v) o) b) <= R0) by (intros b; apply HR).
    assert (H1 : forall b, Rabs (v3get (vsub (t1 v) o) b) <= R0) by (intros b; apply HR).
    assert (H2 : forall b, Rabs (v3get (vsub (t2 v) o) b) <= R0) by (intros b; apply HR).
    assert (BX : forall p, (forall b, Rabs (v3get (vsub p o) b) <= R0) -> Rabs (rX p) <= 2 * R0) by (intros p H; apply Bxy; auto).
    assert (BY : forall p, (forall b, Rabs (v3get (vsub p o) b) <= R0) -> Rabs (rY p) <= 2 * R0) by (intros p H; apply Bxy; auto).
    assert (Be : forall p q, (forall b, Rabs (v3get (vsub p o) b) <= R0) -> (forall b, Rabs (v3get (vsub q o) b) <= R0) ->
       Rabs (rX p * rY q - rY p * rX q) <= 8 * (R0 * R0)).
    { intros p q Hp Hq. unfold Rminus. eapply Rle_trans; [apply Rabs_triang|]. rewrite Rabs_Ropp, !Rabs_mult.
      pose proof (Rmult_le_compat _ _ _ _ (Rabs_pos _) (Rabs_pos _) (BX p Hp) (BY q Hq)).
      pose proof (Rmult_le_compat _ _ _ _ (Rabs_pos _) (Rabs_pos _) (BY p Hp) (BX q Hq)). lra. }
    unfold rdt.
    set (mx := rmax3 (rX (t0 v)) (rX (t1 v)) (rX (t2 v))). set (my := rmax3 (rY (t0 v)) (rY (t1 v)) (rY (t2 v))).
    set (mz := rmax3 (rZ (t0 v)) (rZ (t1 v)) (rZ (t2 v))). set (me := rmax3 re0 re1 re2).
    assert (Px : forall x y z, 0 <= rmax3 x y z) by (intros x y z; pose proof (Rabs_pos x); pose proof (rmax3_ub x y z); lra).
    assert (Mx : 0 <= mx <= 2 * R0) by (split; [apply Px|apply rmax3_lub; auto]).
    assert (My : 0 <= my <= 2 * R0) by (split; [apply Px|apply rmax3_lub; auto]).
    assert (Mz : 0 <= mz <= R0 / Rabs (v3get d a)) by (split; [apply Px|apply rmax3_lub; auto]).
    assert (Me : 0 <= me <= 8 * (R0 * R0)) by (split; [apply Px|apply rmax3_lub; unfold re0, re1, re2; auto]).
    assert (Edet : Rabs rdet * Rabs (v3get d a) = Rabs (vdot tnormal d)) by (rewrite <- Rabs_mult, rdet_normal, Rabs_Ropp; auto).
    rewrite <- Edet. assert (Dp : 0 < Rabs rdet) by (apply Rabs_pos_lt; auto).
    clearbody mx my mz me. clear - Rp Da Mx My Mz Me Dp.
    set (A := Rabs (v3get d a)) in *. set (D := Rabs rdet) in *. clearbody A D.
    assert (Mxy : 0 <= mx * my <= 4 * (R0 * R0)) by (split; [apply Rmult_le_pos; lra|];
      pose proof (Rmult_le_compat mx (2 * R0) my (2 * R0)); lra).
    assert (Mza : 0 <= mz * A <= R0).
    { split; [apply Rmult_le_pos; lra|]. destruct Mz as [_ Mz]. apply (Rmult_le_compat_r A) in Mz; [|lra].
      unfold Rdiv in Mz. rewrite Rmult_assoc, Rinv_l in Mz by lra. lra. }
    set (w := mx * my) in *. set (z := mz * A) in *.
    match goal with |- ?l <= _ => replace l with (6 * (gam 3 * (me * z)) + 6 * ((gam 2 + 2 * gam 5) * (w * z)))
      by (unfold w, z; field; lra) end.
    assert (0 <= R0 * R0) by (apply Rmult_le_pos; auto).
    pose proof (Rmult_le_compat me (8 * (R0 * R0)) z R0 ltac:(lra) ltac:(lra) ltac:(lra) ltac:(lra)) as W1.
    pose proof (Rmult_le_compat w (4 * (R0 * R0)) z R0 ltac:(lra) ltac:(lra) ltac:(lra) ltac:(lra)) as W2.
    assert (0 <= me * z) by (apply Rmult_le_pos; lra). assert (0 <= w * z) by (apply Rmult_le_pos; lra).
    assert (0 <= R0 * R0 * R0) by (apply Rmult_le_pos; auto).
    assert (G2 : 0 <= gam 2 <= 21 / 10 / 16777216) by (unfold gam; lra).
    assert (G3 : 0 <= gam 3 <= 301 / 100 / 16777216) by (unfold gam; lra).
    assert (G5 : 0 <= gam 5 <= 501 / 100 / 16777216) by (unfold gam; lra).
    pose proof (Rmult_le_compat (gam 3) _ (me * z) _ ltac:(lra) ltac:(lra) (proj2 G3) W1) as V1.
    pose proof (Rmult_le_compat (gam 2 + 2 * gam 5) (21 / 10 / 16777216 + 2 * (501 / 100 / 16777216)) (w * z) _ ltac:(lra) ltac:(lra) ltac:(lra) W2) as V2.
    lra.
  Qed.
End T.

(** ** Normals *)
Lemma dp_cross v : vcross (vsub (t0 v) (t2 v)) (vsub (t1 v) (t2 v)) = tnormal v.
Proof. unfold tnormal. vring. Qed.
Lemma vunit_opp n : n <> v0 -> vnorm (vscale (-1) (vunit n)) = 1.
Proof. intros H. rewrite vnorm_scale, vnorm_unit by auto. rewrite Rabs_left by lra. ring. Qed.
Lemma unit_normal v : tnormal v <> v0 -> unit_normal_of v (vunit (tnormal v)).
Proof.
  intros H. split; [now apply vnorm_unit|]. unfold vunit. rewrite !vdot_scale_l. unfold tnormal.
  rewrite (vdot_comm _ (vsub (t1 v) (t0 v))), (vdot_comm _ (vsub (t2 v) (t0 v))), vdot_cross_l, vdot_cross_r. split; ring.
Qed.
Lemma unit_normal_opp v n : unit_normal_of v n -> unit_normal_of v (vscale (-1) n).
Proof.
  intros (A & B & C). split; [rewrite vnorm_scale, A, Rabs_left by lra; ring|]. rewrite !vdot_scale_l, B, C. split; ring.
Qed.

(** the normals computed by [tr_frame]: [sn0] is the shading normal before reversal *)
Lemma tr_frame_normals v vn rev b0 b1 b2 n sn du dv : tnormal v <> v0 ->
  tr_frame (mkTri (ftri v) vn rev) b0 b1 b2 = (n, sn, du, dv) ->
  let n0 := fin3 (vunit (tnormal v)) in
  let sn0 := match vn with
    | Some w => let m := bary w b0 b1 b2 in if fle f0 (v3length m) then v3divs m (v3length m) else n0
    | None => n0 end in
  sn = (if rev then v3scale sn0 (XFin (-1)) else sn0) /\
  n = (if flt (v3dot n0 sn) f0 then v3scale n0 (XFin (-1)) else n0).
Proof.
  intros Hn. unfold tr_frame. cbn [tr_v tr_vn tr_rev]. destruct (tr_partials (ftri v)) as [du0 dv0].
  assert (En : v3normalize (v3cross (v3sub (t0 (ftri v)) (t2 (ftri v))) (v3sub (t1 (ftri v)) (t2 (ftri v)))) =
    fin3 (vunit (tnormal v))).
  { cbn [ftri t0 t1 t2]. rewrite !v3sub_fin, v3cross_fin, dp_cross, v3normalize_fin by auto. reflexivity. }
  cbv zeta. rewrite En.
  change (@fofZ XR XR_FOps (-1)) with (XFin (-1)).
  destruct vn as [w|].
  - cbv zeta.
    destruct (fle f0 (v3length (bary w b0 b1 b2))).
    all: match goal with |- context [flt f0 (v3length ?x)] => destruct (flt f0 (v3length x)) end.
    all: try (match goal with |- context [construct_coordinate_system ?x] => destruct (construct_coordinate_system x) end).
    all: intros E; apply (f_equal (fun q => (fst (fst (fst q)), snd (fst (fst q))))) in E; cbn [fst snd] in E;
      pose proof (f_equal fst E) as E1; pose proof (f_equal snd E) as E2; cbn [fst snd] in E1, E2; subst; auto.
  - cbv zeta.
    intros E; apply (f_equal (fun q => (fst (fst (fst q)), snd (fst (fst q))))) in E; cbn [fst snd] in E;
      pose proof (f_equal fst E) as E1; pose proof (f_equal snd E) as E2; cbn [fst snd] in E1, E2; subst; auto.
Qed.

Lemma tnormal_det o d a v : v3get d a <> 0 -> rdet o d a v <> 0 -> tnormal v <> v0.
Proof.
  intros Ha Hd E. pose proof (rdet_normal o d a v Ha) as H. rewrite E in H. unfold vdot, v0 in H. cbn [vx vy vz] in H.
  apply Hd. apply Rmult_eq_reg_r with (v3get d a); auto. lra.
Qed.

(** Everything known about a reported hit. *)
Lemma hit_inv {T} v vn rev o d tmax i t : d <> v0 -> xis_nan tmax = false ->
  tr_intersect (T := T) (mkTri (ftri v) vn rev) (mkRay (fin3 o) (fin3 d) tmax) = Ok (Some (i, t)) ->
  exists b0 b1 b2 x, t = XFin x /\ weights b0 b1 b2 /\ 0 < x /\ xle (XFin x) tmax = true /\
    comb v b0 b1 b2 = at_t o d x /\ i_p i = fin3 (comb v b0 b1 b2) /\ i_uv i = mkP2 (XFin (b1 + b2)) (XFin b2) /\
    i_wo i = fin3 (vscale (-1) d) /\ vdot (tnormal v) d <> 0 /\
    exists du dv, tr_frame (mkTri (ftri v) vn rev) (XFin b0) (XFin b1) (XFin b2) = (i_n i, i_sn i, du, dv).
Proof.
  intros Hd Hn H. destruct (max_abs_axis_fin d Hd) as (a & Ea & Ha & Hmax).
  rewrite (tr_intersect_fin o d a v vn rev tmax Ea Ha) in H.
  destruct (rmixed o d a v) eqn:M; [discriminate|]. destruct (Req_bool (rdet o d a v) 0) eqn:D; [discriminate|]. rb.
  destruct (rout o d a v tmax) eqn:O; [discriminate|]. destruct (Rle_bool _ _) eqn:L; [discriminate|].
  cbv zeta in H. set (b0 := re0 o d a v / rdet o d a v) in *. set (b1 := re1 o d a v / rdet o d a v) in *.
  set (b2 := re2 o d a v / rdet o d a v) in *.
  destruct (test_sound o d a v Ha tmax Hn M D O) as (B0 & B1 & B2 & S & P & Q & C). fold b0 b1 b2 in B0, B1, B2, S, C.
  destruct (tr_frame _ _ _ _) as [[[n sn] du] dv] eqn:Ef.
  assert (H' : i = _ /\ t = _) by (apply (f_equal (fun q => match q with Ok z => z | _ => None end)) in H; apply Some_pair_inj in H; destruct H; split; symmetry; eassumption).
  destruct H' as [-> ->]. exists b0, b1, b2, (rts o d a v / rdet o d a v). cbn [i_p i_uv i_wo i_n i_sn].
  split; auto. split; [split; auto|]. repeat (split; [solve [auto]|]). split; [|eauto].
  intros E. apply D. apply Rmult_eq_reg_r with (v3get d a); auto. rewrite rdet_normal by auto. lra.
Qed.

(** A crossing beyond the error bound is reported, with its parameter and barycentric coordinates. *)
Lemma hit_complete {T} v vn rev o d tmax b0 b1 b2 x R0 : d <> v0 -> xis_nan tmax = false ->
  weights b0 b1 b2 -> comb v b0 b1 b2 = at_t o d x -> 0 < x -> xle (XFin x) tmax = true ->
  (forall b, Rabs (v3get (vsub (t0 v) o) b) <= R0 /\ Rabs (v3get (vsub (t1 v) o) b) <= R0 /\ Rabs (v3get (vsub (t2 v) o) b) <= R0) ->
  26 / 1000000 * (R0 * R0 * R0) < x * Rabs (vdot (tnormal v) d) ->
  exists i, tr_intersect (T := T) (mkTri (ftri v) vn rev) (mkRay (fin3 o) (fin3 d) tmax) = Ok (Some (i, XFin x)) /\
    i_p i = fin3 (comb v b0 b1 b2) /\ i_uv i = mkP2 (XFin (b1 + b2)) (XFin b2) /\
    exists du dv, tr_frame (mkTri (ftri v) vn rev) (XFin b0) (XFin b1) (XFin b2) = (i_n i, i_sn i, du, dv).
Proof.
  intros Hd Hn (B0 & B1 & B2 & S) C Hx Hm HR Hb. destruct (max_abs_axis_fin d Hd) as (a & Ea & Ha & Hmax).
  rewrite (tr_intersect_fin o d a v vn rev tmax Ea Ha).
  assert (Rp : 0 <= R0) by (pose proof (HR AX) as [H _]; pose proof (Rabs_pos (v3get (vsub (t0 v) o) AX)); lra).
  assert (R3 : 0 <= R0 * R0 * R0) by (repeat apply Rmult_le_pos; auto).
  assert (Nd : vdot (tnormal v) d <> 0) by (intros E; rewrite E, Rabs_R0 in Hb; lra).
  assert (D : rdet o d a v <> 0).
  { intros E. pose proof (rdet_normal o d a v Ha) as Q. rewrite E in Q. lra. }
  destruct (test_complete o d a v Ha b0 b1 b2 x B0 B1 B2 S C D) as (E0 & E1 & E2 & Et & M).
  rewrite M, Req_bool_false, Et by auto.
  assert (O : rout o d a v tmax = false) by (apply rout_spec; auto; rewrite Et; auto). rewrite O.
  pose proof (rdt_bound o d a v Ha R0 Hmax D HR) as W.
  assert (Np : 0 < Rabs (vdot (tnormal v) d)) by (apply Rabs_pos_lt; auto).
  rewrite Rle_bool_false by (apply Rmult_lt_reg_r with (Rabs (vdot (tnormal v) d)); auto; lra).
  cbv zeta. rewrite E0, E1, E2.
  replace (b0 * rdet o d a v / rdet o d a v) with b0 by (field; auto).
  replace (b1 * rdet o d a v / rdet o d a v) with b1 by (field; auto).
  replace (b2 * rdet o d a v / rdet o d a v) with b2 by (field; auto).
  destruct (tr_frame _ _ _ _) as [[[n sn] du] dv] eqn:Ef.
  eexists. split; [reflexivity|]. cbn [i_p i_uv i_n i_sn]. eauto 6.
Qed.
