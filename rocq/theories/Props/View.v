(** * C112: the world is drawn where it stands *)
From Coq Require Import ZArith Reals Bool List Lra Lia.
From Verif Require Import Model.Num Model.NumX Model.Vector Model.Matrix Model.Transform
  Model.Interaction Model.Camera Proofs.XBase Proofs.RVecProofs Spec.RVec Spec.MatSpec
  Proofs.MatProofs Spec.TransformSpec Proofs.TransformProofs Proofs.TransformApply Spec.ShadeSpec Proofs.ShadeProofs Spec.ViewSpec Props.Transforms.
Import ListNotations.
Local Open Scope R_scope.

Lemma observer p l u : l <> p -> vcross u (vsub l p) <> v0 ->
  vdot (aside p l u) (aside p l u) = 1 /\ vdot (ahead p l) (ahead p l) = 1 /\ vdot (aside p l u) (ahead p l) = 0.
Proof.
  intros H Hc. assert (H8 : vsub l p <> v0).
  { intros W. apply H. apply V3_eq; pose proof (f_equal vx W); pose proof (f_equal vy W);
    pose proof (f_equal vz W); unfold vsub, v0 in *; cbn [vx vy vz] in *; lra. }
  unfold aside, ahead. split; [|split].
  - apply vnorm_1_dot, vnorm_unit, Hc.
  - apply vnorm_1_dot, vnorm_unit, H8.
  - unfold vunit. rewrite vdot_scale_r. unfold vscale, vdot, vcross. vproj. ring.
Qed.

Theorem C112_projection : forall b p l u fov n f (wmin wmax : P2 R) (res : P2 Z) c2s c2w (film : P2 R),
  t_look_at b (fin3 p) (fin3 l) (fin3 u) = Ok c2w -> l <> p -> vcross u (vsub l p) <> v0 ->
  t_perspective b (XFin fov) (XFin n) (XFin f) = Ok c2s -> 0 < fov < 180 -> 0 < n -> n < f ->
  px wmin < px wmax -> py wmin < py wmax -> (0 < px res)%Z -> (0 < py res)%Z ->
  exists d, generate_ray b (camera_new c2w c2s (finp wmin) (finp wmax) res) (finp film) = Ok (mkRay (fin3 p) (fin3 d) (XInf false)) /\
    forall P, (exists s, 0 < s /\ P = vadd p (vscale s d)) <->
      0 < vdot (vsub P p) (vsub l p) /\ film = projected p l u fov wmin wmax (mkP2 (IZR (px res)) (IZR (py res))) P.
Proof.
  intros b p l u fov n f wmin wmax res c2s c2w film El Hlp Hc Ep Hfov Hn Hf Wx Wy Rx Ry.
  destruct (observer p l u Hlp Hc) as (Ss & Ww & Sw).
  destruct (C27_look_at b p l u Hlp Hc) as (t & M & N & E & G & A & O & Z & _ & I & (x' & y' & Ex & Ey & Xe & _ & _ & XY)).
  rewrite El in E. apply Ok_inj' in E. subst t.
  destruct (C29_camera_ray b c2w M N fov n f wmin wmax film res c2s G A Ep Hfov Hn Hf Wx Wy Rx Ry)
    as (d & Nd & Dz & Hw & o & Eo & Er).
  rewrite O in Eo. apply Ok_inj' in Eo. subst o.
  destruct (I d d) as (d' & d'' & E1 & E2 & _). rewrite E1 in E2. apply fin3_inj in E2. subst d''.
  rewrite E1 in Er. exists d'. split; [exact Er|].
  fold (aside p l u) in Xe. fold (ahead p l) in Z, XY.
  assert (D : rW (aside p l u) (upwards p l u) (ahead p l) d' = d).
  { assert (Dx : vdot d' x' = vx d).
    { destruct (I d ex) as (a & c & F1 & F2 & F3). rewrite E1 in F1. rewrite Ex in F2. apply fin3_inj in F1, F2. subst a c.
      rewrite F3. unfold vdot, ex. vproj. ring. }
    assert (Dy : vdot d' y' = vy d).
    { destruct (I d ey) as (a & c & F1 & F2 & F3). rewrite E1 in F1. rewrite Ey in F2. apply fin3_inj in F1, F2. subst a c.
      rewrite F3. unfold vdot, ey. vproj. ring. }
    assert (Dw : vdot d' (ahead p l) = vz d).
    { destruct (I d ez) as (a & c & F1 & F2 & F3). rewrite E1 in F1. rewrite Z in F2. apply fin3_inj in F1, F2. subst a c.
      rewrite F3. unfold vdot, ez. vproj. ring. }
    assert (U : y' = upwards p l u).
    { unfold upwards. rewrite <- XY, <- Xe. destruct (I ex ey) as (a & c & F1 & F2 & F3). rewrite Ex in F1. rewrite Ey in F2. apply fin3_inj in F1, F2. subst a c.
      rewrite vcross_anti, bac_cab, F3, Xe, Ss. unfold vdot, ex, ey. vproj. vring. }
    unfold rW. rewrite <- U, <- Xe, Dx, Dy, Dw. apply V3_eq; reflexivity. }
  set (w := window_point _ _ _ _) in Hw.
  destruct (perspective_fin b fov n f) as (t & Mp & Np & Ep' & Gp & T & EP); try lra.
  rewrite Ep in Ep'. apply Ok_inj' in Ep'. subst t. cbv zeta in EP.
  assert (K : rad fov / 2 = fov * PI / 360) by (unfold rad; field). rewrite K in T, EP.
  set (k := tan (fov * PI / 360)) in *.
  assert (W : px w = vx d / (vz d * k) /\ py w = vy d / (vz d * k)).
  { destruct (Hw 1 ltac:(lra)) as (z & Ez). destruct Gp as [Et _]. rewrite Et in Ez. unfold t_point in Ez. cbn [t_m t_inv] in Ez.
    assert (H3 : hom Mp (vscale 1 d) 1 3 = vz d) by (rewrite EP; unfold hom, vscale; cbn [ent]; mproj; vproj; ring).
    rewrite xf_point_fin in Ez by (rewrite H3; lra). apply Ok_inj', fin3_inj in Ez. rewrite H3 in Ez.
    pose proof (f_equal vx Ez) as Ax. pose proof (f_equal vy Ez) as Ay. rewrite EP in Ax, Ay.
    revert Ax Ay. unfold hom3, hom, vscale; cbn [ent]; mproj; vproj. intros <- <-. split; field; lra. }
  clear Hw Er E1 EP Gp Ep I Ex Ey Xe XY Z O G A El.
  assert (H8 : vsub l p <> v0).
  { intros V. apply Hlp. apply V3_eq; pose proof (f_equal vx V); pose proof (f_equal vy V);
    pose proof (f_equal vz V); unfold vsub, v0 in *; cbn [vx vy vz] in *; lra. }
  pose proof (vnorm_pos _ H8) as Npos.
  assert (F : forall v, vdot v (vsub l p) = vnorm (vsub l p) * vdot v (ahead p l)).
  { intros v. unfold ahead, vunit. rewrite vdot_scale_r. field. lra. }
  apply IZR_lt in Rx. apply IZR_lt in Ry.
  intros P. set (v := vsub P p). rewrite F.
  assert (Q : film = projected p l u fov wmin wmax (mkP2 (IZR (px res)) (IZR (py res))) P <->
              px w = vdot v (aside p l u) / (vdot v (ahead p l) * k) /\ py w = vdot v (upwards p l u) / (vdot v (ahead p l) * k)).
  { unfold projected. fold v k. set (sx := vdot v (aside p l u) / _). set (sy := vdot v (upwards p l u) / _). clearbody sx sy.
    unfold w, window_point. cbn [px py]. split.
    - intros ->. cbn [px py]. split; field; lra.
    - intros [H1 H2]. rewrite <- H1, <- H2. destruct film as [fx fy]. cbn [px py]. f_equal; field; lra. }
  rewrite Q. destruct W as [-> ->]. clear Q.
  assert (Ed : forall s, vdot (vscale s d') (aside p l u) = s * vx d /\ vdot (vscale s d') (upwards p l u) = s * vy d /\ vdot (vscale s d') (ahead p l) = s * vz d).
  { intros s. rewrite <- D. unfold rW. vproj. rewrite !(vdot_comm (vscale s d')), !vdot_scale_r, !(vdot_comm _ d'). auto. }
  split.
  - intros (s & Hs & EP). assert (Ev : v = vscale s d') by (unfold v; rewrite EP; vring).
    rewrite Ev. destruct (Ed s) as (-> & -> & ->). split; [apply Rmult_lt_0_compat; nra|]. split; field; lra.
  - intros (Hz & Hx & Hy). assert (Z0 : 0 < vdot v (ahead p l)) by nra.
    exists (vdot v (ahead p l) / vz d). split; [apply Rdiv_lt_0_compat; lra|].
    assert (Ev : v = vscale (vdot v (ahead p l) / vz d) d').
    { set (q := vscale (vdot v (ahead p l) / vz d) d'). transitivity (rL (aside p l u) (upwards p l u) (ahead p l) (rW (aside p l u) (upwards p l u) (ahead p l) v)); [symmetry; now apply rL_rW|].
      transitivity (rL (aside p l u) (upwards p l u) (ahead p l) (rW (aside p l u) (upwards p l u) (ahead p l) q)); [|now apply rL_rW]. unfold q.
      f_equal. fold (upwards p l u). destruct (Ed (vdot v (ahead p l) / vz d)) as (A1 & A2 & A3). unfold rW. rewrite A1, A2, A3.
      apply V3_eq; vproj.
      - transitivity (vdot v (aside p l u) / (vdot v (ahead p l) * k) * (vdot v (ahead p l) * k)); [field; lra|]. rewrite <- Hx. field. lra.
      - transitivity (vdot v (upwards p l u) / (vdot v (ahead p l) * k) * (vdot v (ahead p l) * k)); [field; lra|]. rewrite <- Hy. field. lra.
      - field. lra. }
    rewrite <- Ev. unfold v. vring.
Qed.

(** The picture stands upright: of two points at one depth the one further up (towards [u]) is nearer to the
    top row, the one further aside (towards up x view) nearer to the right edge; what is twice as far looks half
    as big; the point looked at is in the middle of a centred window. *)
Theorem C112_upright : forall p l u fov (wmin wmax res : P2 R) (P : rv) (h : R),
  l <> p -> vcross u (vsub l p) <> v0 -> 0 < fov < 180 ->
  px wmin < px wmax -> py wmin < py wmax -> 0 < px res -> 0 < py res -> 0 < vdot (vsub P p) (vsub l p) -> 0 < h ->
  let at_ := projected p l u fov wmin wmax res in
  (0 < vdot (upwards p l u) u) /\
  (py (at_ (vadd P (vscale h (upwards p l u)))) < py (at_ P) /\ px (at_ (vadd P (vscale h (upwards p l u)))) = px (at_ P)) /\
  (px (at_ P) < px (at_ (vadd P (vscale h (aside p l u)))) /\ py (at_ (vadd P (vscale h (aside p l u)))) = py (at_ P)) /\
  at_ (vadd p (vscale h (vsub P p))) = at_ P /\
  (forall e, e = aside p l u \/ e = upwards p l u -> let Q := vadd P (vscale h (vsub P p)) in
     px (at_ (vadd Q e)) - px (at_ Q) = (px (at_ (vadd P e)) - px (at_ P)) / (1 + h) /\
     py (at_ (vadd Q e)) - py (at_ Q) = (py (at_ (vadd P e)) - py (at_ P)) / (1 + h)) /\
  (px wmin = - px wmax -> py wmin = - py wmax -> at_ l = mkP2 (px res / 2) (py res / 2)).
Proof.
  intros p l u fov wmin wmax res P h Hlp Hc Hfov Wx Wy Rx Ry Hz Hh at_.
  destruct (observer p l u Hlp Hc) as (Ss & Ww & Sw).
  destruct (frame_orthonormal _ _ Ss Ww Sw) as ((_ & Tt & _ & St & _ & Tw) & _ & _). fold (upwards p l u) in Tt, St, Tw.
  assert (H8 : vsub l p <> v0).
  { intros V. apply Hlp. apply V3_eq; pose proof (f_equal vx V); pose proof (f_equal vy V);
    pose proof (f_equal vz V); unfold vsub, v0 in *; cbn [vx vy vz] in *; lra. }
  pose proof (vnorm_pos _ H8) as Npos.
  assert (F : forall v, vdot v (vsub l p) = vnorm (vsub l p) * vdot v (ahead p l)).
  { intros v. unfold ahead, vunit. rewrite vdot_scale_r. field. lra. }
  assert (Z0 : 0 < vdot (vsub P p) (ahead p l)) by (rewrite F in Hz; nra).
  assert (T : 0 < tan (fov * PI / 360)) by (pose proof PI_RGT_0; apply tan_gt_0; nra).
  set (k := tan (fov * PI / 360)) in *.
  assert (Pos : 0 < / (vdot (vsub P p) (ahead p l) * k)) by (apply Rinv_0_lt_compat, Rmult_lt_0_compat; auto).
  assert (Wx' : 0 < / (px wmax - px wmin)) by (apply Rinv_0_lt_compat; lra).
  assert (Wy' : 0 < / (py wmax - py wmin)) by (apply Rinv_0_lt_compat; lra).
  assert (L : forall a c e w, vdot (vsub (vadd a (vscale c e)) p) w = vdot (vsub a p) w + c * vdot e w).
  { intros. unfold vdot, vsub, vadd, vscale. vproj. ring. }
  split; [|split; [|split; [|split; [|split]]]].
  - unfold upwards. assert (E : vdot (vcross (ahead p l) (aside p l u)) u = vnorm (vcross u (vsub l p)) / vnorm (vsub l p)).
    { pose proof (vnorm_pos _ Hc) as Nc. pose proof (vnorm_sq (vcross u (vsub l p))) as Sq.
      unfold ahead, aside, vunit. set (a := / vnorm (vsub l p)). set (c := vnorm (vcross u (vsub l p))) in *.
      transitivity (a * (/ c * vdot (vcross u (vsub l p)) (vcross u (vsub l p)))).
      - unfold vdot, vcross, vscale. vproj. ring.
      - rewrite <- Sq. unfold a. field. lra. }
    rewrite E. apply Rdiv_lt_0_compat; [apply vnorm_pos, Hc|lra].
  - unfold at_, projected. fold k. cbn [px py]. rewrite !L, Tt, Tw, (vdot_comm (upwards p l u)), St. replace (vdot (vsub P p) (ahead p l) + h * 0) with (vdot (vsub P p) (ahead p l)) by ring.
    replace (vdot (vsub P p) (aside p l u) + h * 0) with (vdot (vsub P p) (aside p l u)) by ring. split; [|reflexivity].
    apply Rmult_lt_compat_r; [auto|]. apply Rmult_lt_compat_r; [auto|]. unfold Rdiv. nra.
  - unfold at_, projected. fold k. cbn [px py]. rewrite !L, Ss, Sw, St. replace (vdot (vsub P p) (ahead p l) + h * 0) with (vdot (vsub P p) (ahead p l)) by ring.
    replace (vdot (vsub P p) (upwards p l u) + h * 0) with (vdot (vsub P p) (upwards p l u)) by ring. split; [|reflexivity].
    apply Rmult_lt_compat_r; [auto|]. apply Rmult_lt_compat_r; [auto|]. unfold Rdiv. nra.
  - unfold at_, projected. fold k. replace (vsub (vadd p (vscale h (vsub P p))) p) with (vscale h (vsub P p)) by vring.
    rewrite !(vdot_comm (vscale h _)), !vdot_scale_r, !(vdot_comm _ (vsub P p)). f_equal; field; lra.
  - intros e He Q. assert (Ez : vdot e (ahead p l) = 0) by (destruct He as [-> | ->]; auto).
    assert (LQ : forall w, vdot (vsub Q p) w = (1 + h) * vdot (vsub P p) w) by (intros; unfold Q, vdot, vsub, vadd, vscale; vproj; ring).
    assert (L1 : forall a w, vdot (vsub (vadd a e) p) w = vdot (vsub a p) w + vdot e w) by (intros; unfold vdot, vsub, vadd; vproj; ring).
    unfold at_, projected. fold k. cbn [px py]. rewrite !L1, !LQ, Ez. split; field; lra.
  - intros Ex Ey. unfold at_, projected. fold k. fold (ahead p l).
    assert (A1 : vdot (vsub l p) (aside p l u) = 0) by (unfold aside, vunit, vscale, vdot, vcross; vproj; ring).
    assert (A2 : vdot (vsub l p) (upwards p l u) = 0) by (unfold upwards, ahead, vunit, vscale, vdot, vcross; vproj; ring).
    assert (A3 : 0 < vdot (vsub l p) (ahead p l)) by (pose proof (F (vsub l p)) as Fl; rewrite <- vnorm_sq in Fl; nra).
    rewrite A1, A2, Ex, Ey. f_equal; field; repeat split; lra.
Qed.

(** An observer at (0, 0, 5) looking at the origin with y upwards and a right angle of view, 400 x 300 pixels: the
    point (1, 1/2, 1) is drawn left of the middle and above it. *)
Example C112_example :
  projected (mkV3 0 0 5) v0 (mkV3 0 1 0) 90 (mkP2 (-4/3) (-1)) (mkP2 (4/3) 1) (mkP2 400 300) (mkV3 1 (1/2) 1) = mkP2 (325/2) (525/4) /\
  v0 <> mkV3 0 0 5 /\ vcross (mkV3 0 1 0) (vsub v0 (mkV3 0 0 5)) <> v0 /\ 0 < vdot (vsub (mkV3 1 (1/2) 1) (mkV3 0 0 5)) (vsub v0 (mkV3 0 0 5)).
Proof.
  assert (K : tan (90 * PI / 360) = 1) by (replace (90 * PI / 360) with (PI / 4) by field; apply tan_PI4).
  assert (N1 : vnorm (vsub v0 (mkV3 0 0 5)) = 5).
  { unfold vnorm, vdot, vsub, v0. vproj. replace (_ + _) with (5 * 5) by ring. apply sqrt_square. lra. }
  assert (N2 : vnorm (vcross (mkV3 0 1 0) (vsub v0 (mkV3 0 0 5))) = 5).
  { unfold vnorm, vdot, vcross, vsub, v0. vproj. replace (_ + _) with (5 * 5) by ring. apply sqrt_square. lra. }
  split; [|split; [|split]].
  - unfold projected, upwards, ahead, aside, vunit. rewrite K, N1, N2. unfold vdot, vcross, vscale, vsub, v0. cbn [px py]. vproj. f_equal; field.
  - intros E. apply (f_equal vz) in E. cbn in E. lra.
  - intros E. apply (f_equal vx) in E. unfold vcross, vsub, v0 in E. cbn in E. lra.
  - unfold vdot, vsub, v0. vproj. lra.
Qed.
