(** * Sampling helpers, reflection, refraction and the GGX terms on finite numbers *)
From Coq Require Import ZArith Reals Bool List Lra Lia.
From Flocq Require Import Core.Raux.
From Verif Require Import Model.Num Model.NumX Model.Vector Model.Common Model.Sampling Model.Reflection Model.Fresnel
  Model.Microfacet Model.BxDFs Spec.RVec Spec.ShadeSpec Proofs.XBase Proofs.RVecProofs Proofs.ShadeProofs.
Import ListNotations.
Local Open Scope R_scope.

Lemma x_f0 : @f0 XR XR_FOps = XFin 0. Proof. reflexivity. Qed.
Lemma x_f1 : @f1 XR XR_FOps = XFin 1. Proof. reflexivity. Qed.
Lemma x_f2 : @f2 XR XR_FOps = XFin 2. Proof. reflexivity. Qed.
Lemma x_fhalf : @fhalf XR XR_FOps = XFin (/ 2).
Proof. unfold fhalf. xsimp. rewrite xdiv_fin by lra. f_equal. lra. Qed.
Lemma x_fmax a b : fmax (XFin a) (XFin b) = XFin (Rmax a b).
Proof.
  unfold fmax. xsimp. cbn [xis_nan xlt]. destruct (Rlt_bool a b) eqn:E; rb; f_equal; symmetry; [apply Rmax_right|apply Rmax_left]; lra.
Qed.
Lemma x_fmin a b : fmin (XFin a) (XFin b) = XFin (Rmin a b).
Proof.
  unfold fmin. xsimp. cbn [xis_nan xlt]. destruct (Rlt_bool b a) eqn:E; rb; f_equal; symmetry; [apply Rmin_right|apply Rmin_left]; lra.
Qed.

(** clamp on finite numbers *)
Definition rclamp (x lo hi : R) : R := if Rlt_bool x lo then lo else if Rlt_bool hi x then hi else x.
Lemma x_clamp x lo hi : clamp (XFin x) (XFin lo) (XFin hi) = XFin (rclamp x lo hi).
Proof. unfold clamp, rclamp. xsimp. cbn [xlt]. now destruct (Rlt_bool x lo), (Rlt_bool hi x). Qed.
Lemma rclamp_in x lo hi : lo <= hi -> lo <= rclamp x lo hi <= hi.
Proof. intros H. unfold rclamp. destruct (Rlt_bool x lo) eqn:A, (Rlt_bool hi x) eqn:B; rb; lra. Qed.
Lemma rclamp_id x lo hi : lo <= x <= hi -> rclamp x lo hi = x.
Proof. intros H. unfold rclamp. rewrite !Rlt_bool_false by lra. reflexivity. Qed.

Lemma same_hemisphere_fin a b : same_hemisphere (fin3 a) (fin3 b) = Rlt_bool 0 (vz a * vz b).
Proof. reflexivity. Qed.

Lemma reflect_fin w n : reflect (fin3 w) (fin3 n) = fin3 (vadd (vscale (-1) w) (vscale (2 * vdot w n) n)).
Proof.
  unfold reflect. rewrite v3neg_fin, v3dot_fin, v3scale_fin, x_f2, v3scale_fin, v3add_fin. f_equal. vring.
Qed.

(** ** The concentric disk *)
Lemma disk_fin a b : 0 <= a <= 1 -> 0 <= b <= 1 ->
  exists x y, concentric_sample_disk (mkP2 (XFin a) (XFin b)) = mkP2 (XFin x) (XFin y) /\
    x * x + y * y = Rsqr (Rmax (Rabs (2 * a - 1)) (Rabs (2 * b - 1))).
Proof.
  intros Ha Hb. unfold concentric_sample_disk. cbn [px py]. rewrite x_f0, x_f1, x_f2. xsimp. cbn [xmul xadd xneg xeq xabs xlt px py].
  set (p := a * 2 + - (1)). set (q := b * 2 + - (1)).
  replace (2 * a - 1) with p by (unfold p; ring). replace (2 * b - 1) with q by (unfold q; ring).
  destruct (Req_bool p 0) eqn:Ep; cbn [andb].
  - destruct (Req_bool q 0) eqn:Eq.
    + rb. exists p, q. split; [reflexivity|]. rewrite Ep, Eq, Rabs_R0. unfold Rmax. destruct (Rle_dec 0 0); unfold Rsqr; ring.
    + rb. assert (L : Rlt_bool (Rabs q) (Rabs p) = false) by (rb; rewrite Ep, Rabs_R0; apply Rabs_pos). rewrite L.
      rewrite (xdiv_fin p q) by auto. rewrite !(xdiv_fin PI) by lra. cbn [xmul xsub xlift].
      do 2 eexists. split; [reflexivity|]. set (th := PI / 2 - _). pose proof (sin2_cos2 th) as S. unfold Rsqr in S.
      rewrite Rmax_right by (rb; auto). rewrite <- Rsqr_abs. unfold Rsqr.
      replace (cos th * q * (cos th * q) + sin th * q * (sin th * q)) with ((sin th * sin th + cos th * cos th) * (q * q)) by ring. rewrite S. ring.
  - rb. destruct (Rlt_bool (Rabs q) (Rabs p)) eqn:L; rb.
    + rewrite (xdiv_fin q p) by auto. rewrite !(xdiv_fin PI) by lra. cbn [xmul xsub xlift].
      do 2 eexists. split; [reflexivity|]. set (th := PI / 4 * _). pose proof (sin2_cos2 th) as S. unfold Rsqr in S.
      rewrite Rmax_left by lra. rewrite <- Rsqr_abs. unfold Rsqr.
      replace (cos th * p * (cos th * p) + sin th * p * (sin th * p)) with ((sin th * sin th + cos th * cos th) * (p * p)) by ring. rewrite S. ring.
    + assert (q <> 0). { intros Z. rewrite Z, Rabs_R0 in L. pose proof (Rabs_pos_lt p Ep). lra. }
      rewrite (xdiv_fin p q) by auto. rewrite !(xdiv_fin PI) by lra. cbn [xmul xsub xlift].
      do 2 eexists. split; [reflexivity|]. set (th := PI / 2 - _). pose proof (sin2_cos2 th) as S. unfold Rsqr in S.
      rewrite Rmax_right by lra. rewrite <- Rsqr_abs. unfold Rsqr.
      replace (cos th * q * (cos th * q) + sin th * q * (sin th * q)) with ((sin th * sin th + cos th * cos th) * (q * q)) by ring. rewrite S. ring.
Qed.

Lemma max_square a b : 0 <= a <= 1 -> 0 <= b <= 1 -> 0 <= Rmax (Rabs (2 * a - 1)) (Rabs (2 * b - 1)) <= 1.
Proof.
  intros Ha Hb. assert (Rabs (2 * a - 1) <= 1) by (apply Rabs_le; lra). assert (Rabs (2 * b - 1) <= 1) by (apply Rabs_le; lra).
  pose proof (Rabs_pos (2 * a - 1)). split; [eapply Rle_trans; [|apply Rmax_l]; auto|now apply Rmax_lub].
Qed.

Lemma hemisphere_fin a b : 0 <= a <= 1 -> 0 <= b <= 1 ->
  exists w, cosine_sample_hemisphere (mkP2 (XFin a) (XFin b)) = fin3 w /\ vdot w w = 1 /\ 0 <= vz w /\
    vz w = sqrt (1 - Rsqr (Rmax (Rabs (2 * a - 1)) (Rabs (2 * b - 1)))).
Proof.
  intros Ha Hb. destruct (disk_fin a b Ha Hb) as (x & y & E & S). pose proof (max_square a b Ha Hb) as M.
  unfold cosine_sample_hemisphere. rewrite E. rewrite x_f1, x_f0. xsimp. cbn [xmul xsub]. rewrite x_fmax.
  set (m := Rmax _ _) in *. assert (Z : 1 - x * x - y * y = 1 - Rsqr m) by lra.
  assert (P : 0 <= 1 - Rsqr m) by (unfold Rsqr; nra).
  rewrite Z, Rmax_left, xsqrt_fin by lra.
  exists (mkV3 x y (sqrt (1 - Rsqr m))). split; [reflexivity|]. unfold vdot. vproj.
  split; [rewrite sqrt_sqrt by lra; lra|]. split; [apply sqrt_pos|reflexivity].
Qed.

(** ** Sampling a half vector *)
Lemma inv_sqrt_range t : 0 <= t -> 0 < 1 / sqrt (1 + t) <= 1 /\ (1 / sqrt (1 + t)) * (1 / sqrt (1 + t)) = / (1 + t).
Proof.
  intros H. pose proof (sqrt_le_1_alt 1 (1 + t) ltac:(lra)) as H0. rewrite sqrt_1 in H0.
  split; [split|].
  - unfold Rdiv. rewrite Rmult_1_l. apply Rinv_0_lt_compat. lra.
  - unfold Rdiv. rewrite Rmult_1_l. pose proof (Rinv_le 1 (sqrt (1 + t)) ltac:(lra) H0) as I. rewrite Rinv_1 in I. exact I.
  - replace (1 / sqrt (1 + t) * (1 / sqrt (1 + t))) with (/ (sqrt (1 + t) * sqrt (1 + t))) by (field; lra).
    rewrite sqrt_sqrt by lra. reflexivity.
Qed.

(** the polar part of [sample_wh]: any squared tangent and azimuth *)
Lemma spherical_fin c phi : 0 < c <= 1 ->
  from_spherical_direction (fsqrt (fmax (fsub f1 (fmul (XFin c) (XFin c))) f0)) (XFin c) (XFin phi) =
  fin3 (sph (acos c) phi) /\ vdot (sph (acos c) phi) (sph (acos c) phi) = 1 /\ vz (sph (acos c) phi) = c.
Proof.
  intros Hc. assert (Ec : cos (acos c) = c) by (apply cos_acos; lra).
  assert (Es : sin (acos c) = sqrt (1 - c * c)) by (rewrite sin_acos by lra; reflexivity).
  rewrite x_f1, x_f0. xsimp. cbn [xmul xsub]. rewrite x_fmax. rewrite Rmax_left by nra. rewrite xsqrt_fin by nra.
  split; [|split].
  - unfold from_spherical_direction, sph, fin3. vproj. xsimp. cbn [xlift xmul]. rewrite Ec, Es. reflexivity.
  - unfold sph, vdot. vproj. pose proof (sin2_cos2 phi) as S. pose proof (sin2_cos2 (acos c)) as S2. unfold Rsqr in *.
    set (st := sin (acos c)) in *. set (ct := cos (acos c)) in *.
    replace (st * cos phi * (st * cos phi) + st * sin phi * (st * sin phi) + ct * ct) with (st * st * (sin phi * sin phi + cos phi * cos phi) + ct * ct) by ring.
    rewrite S. lra.
  - unfold sph. vproj. exact Ec.
Qed.

(** where the half vector goes before the flip: cosine and azimuth *)
Lemma sample_wh_fin (ax ay a b : R) (wo : rv) : 0 < ax -> 0 < ay -> 0 <= a < 1 -> vz wo <> 0 ->
  exists (t phi : R) (wh : rv), 0 <= t /\ (ax = ay -> t = ax * ax * a / (1 - a) /\ phi = PI * 2 * b) /\
    mf_sample_wh (mkMf (XFin ax) (XFin ay)) (fin3 wo) (mkP2 (XFin a) (XFin b)) = fin3 wh /\
    vdot wh wh = 1 /\ 0 < vz wo * vz wh /\
    let d := sph (acos (1 / sqrt (1 + t))) phi in
    (wh = d /\ 0 < vz wo \/ wh = vscale (-1) d /\ vz wo < 0).
Proof.
  intros Hx Hy Ha Hwo. unfold mf_sample_wh. cbn [mf_x mf_y px py]. 
  assert (K : exists t phi, 0 <= t /\ (ax = ay -> t = ax * ax * a / (1 - a) /\ phi = PI * 2 * b) /\
     (if feq (XFin ax) (XFin ay)
      then (fdiv f1 (fsqrt (fadd f1 (fdiv (fmul (fmul (XFin ax) (XFin ax)) (XFin a)) (fsub f1 (XFin a))))), fmul (fmul fpi f2) (XFin b))
      else
       let phi := fatan (fmul (fdiv (XFin ay) (XFin ax)) (ftan (fadd (fmul (fmul f2 fpi) (XFin b)) (fmul fhalf fpi)))) in
       let phi := if flt fhalf (XFin b) then fadd phi fpi else phi in
       (fdiv f1 (fsqrt (fadd f1 (fdiv (fmul (fdiv f1 (fadd (fdiv (fmul (fcos phi) (fcos phi)) (fmul (XFin ax) (XFin ax)))
          (fdiv (fmul (fsin phi) (fsin phi)) (fmul (XFin ay) (XFin ay))))) (XFin a)) (fsub f1 (XFin a))))), phi)) =
     (XFin (1 / sqrt (1 + t)), XFin phi)).
  { assert (A1 : 1 - a <> 0) by lra. assert (P1 : 0 <= a / (1 - a)) by (apply Rmult_le_pos; [lra|]; apply Rlt_le, Rinv_0_lt_compat; lra).
    assert (D1 : forall t, 0 <= t -> fdiv (XFin 1) (fsqrt (XFin (1 + t))) = XFin (1 / sqrt (1 + t))).
    { intros t Ht. xsimp. rewrite xsqrt_fin by lra. apply xdiv_fin. assert (0 < sqrt (1 + t)) by (apply sqrt_lt_R0; lra). lra. }
    rewrite x_f1, x_f2, x_fhalf. unfold feq at 1. cbn [XR_FOps xeq]. destruct (Req_bool ax ay) eqn:E; rb.
    - exists (ax * ax * a / (1 - a)), (PI * 2 * b). assert (0 <= ax * ax * a / (1 - a)) by (unfold Rdiv; rewrite Rmult_assoc; nra).
      split; [auto|]. split; [auto|]. xsimp. cbn [xmul xsub]. rewrite xdiv_fin by lra. cbn [xadd]. rewrite <- (D1 _ H). reflexivity.
    - xsimp. cbn [xmul xadd xlift]. rewrite (xdiv_fin ay) by lra. cbn [xmul xatan xadd xlt].
      set (p0 := atan _). assert (Pp : exists phi, (if Rlt_bool (/ 2) b then XFin (p0 + PI) else XFin p0) = XFin phi) by (destruct (Rlt_bool _ b); eauto).
      destruct Pp as (phi & Ep). rewrite Ep. cbn [xlift xmul].
      rewrite !xdiv_fin by nra. cbn [xadd].
      assert (G : 0 < cos phi * cos phi / (ax * ax) + sin phi * sin phi / (ay * ay)).
      { pose proof (sin2_cos2 phi) as S. unfold Rsqr in S.
        assert (0 < / (ax * ax)) by (apply Rinv_0_lt_compat; nra). assert (0 < / (ay * ay)) by (apply Rinv_0_lt_compat; nra). unfold Rdiv.
        assert (C0 : 0 <= cos phi * cos phi) by nra. assert (S0 : 0 <= sin phi * sin phi) by nra.
        set (C := cos phi * cos phi) in *. set (D := sin phi * sin phi) in *. set (i := / (ax * ax)) in *. set (j := / (ay * ay)) in *. clearbody C D i j.
        assert (0 <= C * i) by nra. assert (0 <= D * j) by nra. destruct C0 as [C0|C0]; [assert (0 < C * i) by nra; lra|].
        assert (D = 1) by lra. subst D. rewrite Rmult_1_l. lra. }
      set (g := cos phi * cos phi / (ax * ax) + sin phi * sin phi / (ay * ay)) in *.
      rewrite (xdiv_fin 1 g) by lra. cbn [xmul xsub]. rewrite xdiv_fin by lra. cbn [xadd].
      assert (0 <= 1 / g * a / (1 - a)). { unfold Rdiv. rewrite Rmult_1_l, Rmult_assoc. apply Rmult_le_pos; [apply Rlt_le, Rinv_0_lt_compat; lra|exact P1]. }
      exists (1 / g * a / (1 - a)), phi. split; [auto|]. split; [intros; congruence|]. rewrite <- (D1 _ H). reflexivity. }
  destruct K as (t & phi & Ht & Hiso & K).
  pose proof (inv_sqrt_range t Ht) as [Hc _]. set (c := 1 / sqrt (1 + t)) in *.
  destruct (spherical_fin c phi Hc) as (E1 & U & Z). set (d := sph (acos c) phi) in *.
  exists t, phi, (if Rlt_bool 0 (vz wo * vz d) then d else vscale (-1) d).
  split; [exact Ht|]. split; [exact Hiso|]. split; [|split; [|split]].
  - cbv zeta in K |- *. rewrite K. cbn [fst snd]. rewrite E1, same_hemisphere_fin. destruct (Rlt_bool 0 (vz wo * vz d)); [reflexivity|].
    rewrite x_f1. xsimp. cbn [xneg]. apply v3scale_fin.
  - destruct (Rlt_bool _ _); [exact U|]. rewrite vdot_scale_l, vdot_scale_r. lra.
  - destruct (Rlt_bool 0 _) eqn:E; rb; auto. unfold vscale. vproj. assert (vz wo * vz d <> 0) by (rewrite Z; nra). nra.
  - cbv zeta. fold c. fold d. destruct (Rlt_bool 0 (vz wo * vz d)) eqn:E; rb; rewrite Z in E; [left|right]; split; auto; nra.
Qed.
