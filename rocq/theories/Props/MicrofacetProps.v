(** * GGX microfacet terms and the half-vector sampler (C58, C59) *)
From Coq Require Import ZArith Reals Bool List Lra Lia.
From Flocq Require Import Core.Raux.
From Verif Require Import Model.Num Model.NumX Model.Vector Model.Common
  Model.Reflection Model.Microfacet Model.BxDFs Spec.RVec Spec.ShadeSpec
  Proofs.XBase Proofs.RVecProofs Proofs.ShadeProofs Proofs.MicroProofs.
Local Open Scope R_scope.

(** ** The terms on finite vectors *)

Definition rsin2 (w : rv) : R := Rmax (1 - vz w * vz w) 0.
Definition rcosphi (w : rv) : R := if Req_bool (sqrt (rsin2 w)) 0 then 1 else rclamp (vx w / sqrt (rsin2 w)) (- (1)) 1.
Definition rsinphi (w : rv) : R := if Req_bool (sqrt (rsin2 w)) 0 then 0 else rclamp (vy w / sqrt (rsin2 w)) (- (1)) 1.

Lemma rsin2_pos w : 0 <= rsin2 w.
Proof. apply Rmax_r. Qed.

Lemma sin_2_theta_fin w : sin_2_theta (fin3 w) = XFin (rsin2 w).
Proof. unfold sin_2_theta, cos_2_theta, fin3. vproj. rewrite x_f0, x_f1. xsimp. cbn [xmul xsub]. apply x_fmax. Qed.
Lemma sin_theta_fin w : sin_theta (fin3 w) = XFin (sqrt (rsin2 w)).
Proof. unfold sin_theta. rewrite sin_2_theta_fin. xsimp. apply xsqrt_fin. apply rsin2_pos. Qed.
Lemma cos_phi_fin w : cos_phi (fin3 w) = XFin (rcosphi w).
Proof.
  unfold cos_phi. rewrite sin_theta_fin, x_f0, x_f1. unfold fin3. vproj. xsimp. cbn [xneg xeq]. unfold rcosphi.
  destruct (Req_bool (sqrt (rsin2 w)) 0) eqn:E; [reflexivity|]. rb. rewrite xdiv_fin by auto. apply x_clamp.
Qed.
Lemma sin_phi_fin w : sin_phi (fin3 w) = XFin (rsinphi w).
Proof.
  unfold sin_phi. rewrite sin_theta_fin, x_f0, x_f1. unfold fin3. vproj. xsimp. cbn [xneg xeq]. unfold rsinphi.
  destruct (Req_bool (sqrt (rsin2 w)) 0) eqn:E; [reflexivity|]. rb. rewrite xdiv_fin by auto. apply x_clamp.
Qed.

Definition rd (ax ay : R) (w : rv) : R :=
  let z2 := vz w * vz w in
  let e := (rcosphi w * rcosphi w / (ax * ax) + rsinphi w * rsinphi w / (ay * ay)) * (rsin2 w / z2) in
  1 / (PI * ax * ay * (z2 * z2) * ((1 + e) * (1 + e))).

Lemma horizon_sin2 w : vz w = 0 -> rsin2 w = 1.
Proof. intros H. unfold rsin2. rewrite H. rewrite Rmax_left; lra. Qed.

Lemma weights_pos ax ay a b t : 0 < ax -> 0 < ay -> 0 <= t -> 0 <= (a * a / (ax * ax) + b * b / (ay * ay)) * t.
Proof.
  intros Hx Hy Ht. assert (0 < / (ax * ax)) by (apply Rinv_0_lt_compat; nra). assert (0 < / (ay * ay)) by (apply Rinv_0_lt_compat; nra).
  apply Rmult_le_pos; [|auto]. unfold Rdiv. assert (0 <= a * a) by apply Rle_0_sqr. assert (0 <= b * b) by apply Rle_0_sqr. nra.
Qed.

Lemma d_fin ax ay w : 0 < ax -> 0 < ay -> vz w <> 0 ->
  mf_d (mkMf (XFin ax) (XFin ay)) (fin3 w) = XFin (rd ax ay w) /\ 0 < rd ax ay w.
Proof.
  intros Hx Hy Hz. assert (Z2 : 0 < vz w * vz w) by nra. pose proof PI_RGT_0 as PP.
  set (e := (rcosphi w * rcosphi w / (ax * ax) + rsinphi w * rsinphi w / (ay * ay)) * (rsin2 w / (vz w * vz w))).
  assert (He : 0 <= e). { apply weights_pos; auto. apply Rmult_le_pos; [apply rsin2_pos|apply Rlt_le, Rinv_0_lt_compat; auto]. }
  assert (D : 0 < PI * ax * ay * (vz w * vz w * (vz w * vz w)) * ((1 + e) * (1 + e))).
  { assert (0 < (1 + e) * (1 + e)) by nra. assert (0 < vz w * vz w * (vz w * vz w)) by nra. apply Rmult_lt_0_compat; [|auto]. apply Rmult_lt_0_compat; [|auto]. apply Rmult_lt_0_compat; [nra|auto]. }
  split.
  - unfold mf_d, tan_2_theta, cos_2_phi, sin_2_phi, fsq. rewrite sin_2_theta_fin, cos_phi_fin, sin_phi_fin. unfold cos_2_theta. cbn [mf_x mf_y].
    unfold fin3. vproj. rewrite x_f1. xsimp. cbn [xmul]. rewrite (xdiv_fin (rsin2 w)) by lra. cbn [xis_inf].
    rewrite (xdiv_fin _ (ax * ax)), (xdiv_fin _ (ay * ay)) by nra. cbn [xadd xmul]. fold e. rewrite xdiv_fin by lra. reflexivity.
  - unfold rd. fold e. apply Rdiv_lt_0_compat; lra.
Qed.

Lemma d_horizon ax ay w : vz w = 0 -> mf_d (mkMf (XFin ax) (XFin ay)) (fin3 w) = XFin 0.
Proof.
  intros H. unfold mf_d, tan_2_theta. rewrite sin_2_theta_fin, (horizon_sin2 w H). unfold cos_2_theta, fin3. vproj. rewrite H. xsimp. cbn [xmul].
  rewrite Rmult_0_l, xdiv_zero_pos by lra. reflexivity.
Qed.

Definition rlambda (ax ay : R) (w : rv) : R :=
  if Req_bool (vz w) 0 then 0 else
  let al := sqrt (rcosphi w * rcosphi w * (ax * ax) + rsinphi w * rsinphi w * (ay * ay)) in
  let q := al * Rabs (sqrt (rsin2 w) / vz w) * (al * Rabs (sqrt (rsin2 w) / vz w)) in
  (- (1) + sqrt (1 + q)) * / 2.

Lemma lambda_fin ax ay w : mf_lambda (mkMf (XFin ax) (XFin ay)) (fin3 w) = XFin (rlambda ax ay w) /\ 0 <= rlambda ax ay w.
Proof.
  unfold mf_lambda, tan_theta, rlambda, cos_2_phi, sin_2_phi, fsq. rewrite sin_theta_fin, cos_phi_fin, sin_phi_fin. unfold cos_theta, fin3. vproj. cbn [mf_x mf_y].
  destruct (Req_bool (vz w) 0) eqn:E; rb.
  - rewrite E. rewrite (horizon_sin2 w E), sqrt_1. xsimp. rewrite xdiv_zero_pos by lra. cbn [xabs xis_inf]. split; [reflexivity|lra].
  - rewrite x_f1, x_fhalf. xsimp. rewrite xdiv_fin by auto. cbn [xabs xis_inf xmul xadd].
    assert (0 <= rcosphi w * rcosphi w * (ax * ax) + rsinphi w * rsinphi w * (ay * ay)).
    { assert (forall x y, 0 <= x * x * (y * y)) by (intros; apply Rmult_le_pos; apply Rle_0_sqr). pose proof (H (rcosphi w) ax). pose proof (H (rsinphi w) ay). lra. }
    rewrite xsqrt_fin by auto. set (al := sqrt _). cbn [xmul xadd]. set (t := al * Rabs _). assert (0 <= t * t) by apply Rle_0_sqr.
    rewrite xsqrt_fin by lra. cbn [xneg xadd xmul]. split; [reflexivity|]. pose proof (sqrt_le_1_alt 1 (1 + t * t) ltac:(lra)) as S. rewrite sqrt_1 in S. lra.
Qed.

(** ** C58 *)

Theorem C58_distribution : forall (ax ay : R) (w : rv), 0 < ax -> 0 < ay ->
  exists d, mf_d (mkMf (XFin ax) (XFin ay)) (fin3 w) = XFin d /\ 0 <= d /\ (d = 0 <-> vz w = 0).
Proof.
  intros ax ay w Hx Hy. destruct (Req_dec (vz w) 0) as [Z|Z].
  - exists 0. split; [now apply d_horizon|]. split; [lra|tauto].
  - destruct (d_fin ax ay w Hx Hy Z) as [E P]. exists (rd ax ay w). split; [exact E|]. split; [lra|]. split; intros; [lra|contradiction].
Qed.

Lemma inv_01 x : 1 <= x -> 0 < 1 / x <= 1.
Proof.
  intros H. split; [apply Rdiv_lt_0_compat; lra|]. apply Rmult_le_reg_r with x; [lra|]. unfold Rdiv. rewrite Rmult_assoc, Rinv_l; lra.
Qed.
Lemma inv_anti x y : 1 <= y <= x -> 1 / x <= 1 / y.
Proof. intros H. unfold Rdiv. rewrite !Rmult_1_l. apply Rinv_le; lra. Qed.

Theorem C58_shadowing : forall (ax ay : R) (wo wi : rv),
  let a := mkMf (XFin ax) (XFin ay) in
  exists go gi g, mf_g1 a (fin3 wo) = XFin go /\ mf_g1 a (fin3 wi) = XFin gi /\ mf_g a (fin3 wo) (fin3 wi) = XFin g /\
    mf_g a (fin3 wi) (fin3 wo) = XFin g /\
    0 < go <= 1 /\ 0 < gi <= 1 /\ 0 < g <= 1 /\ g <= go /\ g <= gi.
Proof.
  intros ax ay wo wi a. destruct (lambda_fin ax ay wo) as [E1 P1]. destruct (lambda_fin ax ay wi) as [E2 P2]. fold a in E1, E2.
  set (lo := rlambda ax ay wo) in *. set (li := rlambda ax ay wi) in *.
  exists (1 / (1 + lo)), (1 / (1 + li)), (1 / (1 + lo + li)). unfold mf_g1, mf_g. rewrite E1, E2, x_f1. xsimp. cbn [xadd].
  rewrite !xdiv_fin by lra. repeat split; try (apply inv_01; lra); try (apply inv_anti; lra). f_equal. f_equal. ring.
Qed.

(** Exchanging the two directions does not change the microfacet reflection. *)
Theorem C58_symmetric : forall (r : V3 XR) (ax ay : R) (fresnel : XR -> V3 XR) (wo wi : rv), unit_dir wo -> unit_dir wi ->
  let x := microfacet_reflection r (mkMf (XFin ax) (XFin ay)) fresnel in
  bx_f x (fin3 wo) (fin3 wi) = bx_f x (fin3 wi) (fin3 wo).
Proof.
  intros r ax ay fresnel wo wi Ho Hi x. apply vnorm_1_dot in Ho, Hi. unfold x. cbn [microfacet_reflection bx_f]. unfold mr_f.
  destruct (C58_shadowing ax ay wo wi) as (go & gi & g & _ & _ & G1 & G2 & _). rewrite G1, G2.
  rewrite !v3add_fin. replace (vadd wi wo) with (vadd wo wi) by vring. rewrite orb_comm. destruct (_ || _) eqn:B; [reflexivity|].
  destruct (_ && _) eqn:Z; [reflexivity|].
  assert (N : vadd wo wi <> v0).
  { intros E. rewrite E in Z. unfold fin3, v0 in Z. cbn [vx vy vz] in Z. rewrite x_f0 in Z. xsimpin Z. cbn [xeq] in Z. rewrite Req_bool_true in Z by auto. discriminate Z. }
  rewrite v3normalize_fin by auto. rewrite !v3dot_fin.
  assert (E : vdot (vunit (vadd wo wi)) wi = vdot (vunit (vadd wo wi)) wo).
  { unfold vunit. rewrite !vdot_scale_l. f_equal. replace (vdot (vadd wo wi) wi) with (vdot wo wi + vdot wi wi) by (unfold vdot, vadd; vproj; ring).
    replace (vdot (vadd wo wi) wo) with (vdot wo wo + vdot wo wi) by (unfold vdot, vadd; vproj; ring). lra. }
  rewrite E. f_equal. unfold abs_cos_theta, fin3. vproj. xsimp. cbn [xabs xmul]. f_equal. ring.
Qed.
Print Assumptions C58_distribution.
Print Assumptions C58_shadowing.
Print Assumptions C58_symmetric.

(** straight up, the distribution is 1 / (pi ax ay) and nothing is shadowed *)
Example C58_example : mf_d (mkMf (XFin 2) (XFin 3)) (fin3 (mkV3 0 0 1)) = XFin (1 / (6 * PI)) /\
  mf_g (mkMf (XFin 2) (XFin 3)) (fin3 (mkV3 0 0 1)) (fin3 (mkV3 0 0 1)) = XFin 1.
Proof.
  assert (S : rsin2 (mkV3 0 0 1) = 0) by (unfold rsin2; vproj; rewrite Rmax_left; lra).
  assert (Z : vz (mkV3 0 0 1) <> 0) by (vproj; lra). pose proof PI_RGT_0.
  split.
  - destruct (d_fin 2 3 (mkV3 0 0 1) ltac:(lra) ltac:(lra) Z) as [E _]. rewrite E. f_equal. unfold rd. rewrite S. vproj. field. lra.
  - unfold mf_g. destruct (lambda_fin 2 3 (mkV3 0 0 1)) as [E _]. rewrite E.
    assert (L : rlambda 2 3 (mkV3 0 0 1) = 0).
    { unfold rlambda. rewrite Req_bool_false by auto. rewrite S, sqrt_0. vproj. replace (0 / 1) with 0 by field. rewrite Rabs_R0, !Rmult_0_r, Rplus_0_r, sqrt_1. lra. }
    rewrite L, x_f1. xsimp. cbn [xadd]. rewrite xdiv_fin by lra. f_equal. field.
Qed.

(** ** C59 *)

(** the Riemann integral of [f] over [a, b] exists and is [v] *)
Definition integral_is (f : R -> R) (a b v : R) : Prop := exists pr : Riemann_integrable f a b, RiemannInt pr = v.

Lemma integral_antiderivative f F a b : a <= b -> (forall x, a <= x <= b -> continuity_pt f x) ->
  (forall x, a <= x <= b -> derivable_pt_lim F x (f x)) -> integral_is f a b (F b - F a).
Proof.
  intros Hab C D. exists (continuity_implies_RiemannInt Hab C). set (pr := continuity_implies_RiemannInt Hab C).
  pose proof (RiemannInt_P29 Hab C) as A1. set (G := primitive Hab (FTC_P1 Hab C)) in *.
  assert (A2 : antiderivative f F a b).
  { split; [|exact Hab]. intros x Hx. exists (exist _ (f x) (D x Hx)). reflexivity. }
  destruct (antiderivative_Ucte f F G a b A2 A1) as [c Hc].
  rewrite (Hc b), (Hc a) by lra. unfold G. rewrite (RiemannInt_P20 Hab (FTC_P1 Hab C) pr). lra.
Qed.

(** Over uniform samples (a, b) of the unit square, the half vector's polar angle is at most [t] with
    probability [P] (exactly for a <= P), and its azimuth is uniform; for an outgoing direction below the
    surface the half vector is turned over. *)
Definition cap_probability (alpha t P : R) : Prop :=
  forall (wo : rv) (a b : R), vz wo <> 0 -> 0 <= a < 1 -> 0 <= b < 1 ->
  exists theta wh, 0 <= theta < PI / 2 /\
    mf_sample_wh (mkMf (XFin alpha) (XFin alpha)) (fin3 wo) (mkP2 (XFin a) (XFin b)) = fin3 wh /\
    wh = vscale (if Rlt_bool 0 (vz wo) then 1 else -1) (sph theta (2 * PI * b)) /\
    (theta <= t <-> a <= P).

(** [g], a function of the polar angle, is the density over solid angle of the sampled half vector. *)
Definition half_vector_density (alpha : R) (g : R -> R) : Prop :=
  forall t, 0 <= t < PI / 2 -> exists P, 0 <= P <= 1 /\ cap_probability alpha t P /\
    integral_is (fun theta => 2 * PI * sin theta * g theta) 0 t P.

(** the probability of a cap *)
Definition capP (alpha t : R) : R := sin t * sin t / (alpha * alpha * (cos t * cos t) + sin t * sin t).

Lemma capP_den alpha t : 0 < alpha -> 0 <= t < PI / 2 -> 0 < cos t /\ 0 < alpha * alpha * (cos t * cos t) + sin t * sin t.
Proof.
  intros Ha Ht. assert (C : 0 < cos t) by (apply cos_gt_0; lra). split; [exact C|].
  assert (0 < alpha * alpha * (cos t * cos t)) by (apply Rmult_lt_0_compat; nra). assert (0 <= sin t * sin t) by apply Rle_0_sqr. lra.
Qed.

Lemma cap_sampled alpha t : 0 < alpha -> 0 <= t < PI / 2 -> 0 <= capP alpha t <= 1 /\ cap_probability alpha t (capP alpha t).
Proof.
  intros Hal Ht. destruct (capP_den alpha t Hal Ht) as [C D]. assert (S0 : 0 <= sin t * sin t) by apply Rle_0_sqr.
  assert (EP : capP alpha t * (alpha * alpha * (cos t * cos t) + sin t * sin t) = sin t * sin t) by (unfold capP; field; lra).
  assert (A0 : 0 < alpha * alpha * (cos t * cos t)) by (apply Rmult_lt_0_compat; nra).
  split; [split; apply Rmult_le_reg_r with (alpha * alpha * (cos t * cos t) + sin t * sin t); auto; rewrite EP; lra|].
  intros wo a b Hz Ha Hb. destruct (sample_wh_fin alpha alpha a b wo Hal Hal Ha Hz) as (q & phi & wh & Hq & Hiso & E & _ & _ & Hd). cbv zeta in Hd.
  destruct (Hiso eq_refl) as [Eq Ephi]. pose proof (inv_sqrt_range q Hq) as [Hc Hc2]. set (c := 1 / sqrt (1 + q)) in *.
  exists (acos c), wh. pose proof (acos_bound c) as B. assert (Ec : cos (acos c) = c) by (apply cos_acos; lra).
  split. { split; [lra|]. destruct (Rlt_le_dec (acos c) (PI / 2)) as [|Q]; auto. exfalso.
    assert (cos (acos c) <= cos (PI / 2)) by (apply cos_decr_1; lra). rewrite cos_PI2 in H. lra. }
  split; [exact E|]. split.
  { replace (2 * PI * b) with phi by lra. destruct Hd as [[-> Z]|[-> Z]].
    - rewrite Rlt_bool_true by auto. apply V3_eq; unfold vscale; vproj; ring.
    - rewrite Rlt_bool_false by lra. reflexivity. }
  assert (K : acos c <= t <-> cos t <= c).
  { split; intros H.
    - rewrite <- Ec. apply cos_decr_1; lra.
    - destruct (Rle_lt_dec (acos c) t) as [|L]; auto. exfalso. assert (cos (acos c) < cos t) by (apply cos_decreasing_1; lra). lra. }
  rewrite K. assert (K2 : cos t <= c <-> cos t * cos t <= c * c) by (split; intros; nra). rewrite K2, Hc2.
  pose proof (sin2_cos2 t) as SC. unfold Rsqr in SC. set (s2 := sin t * sin t) in *. set (c2 := cos t * cos t) in *.
  assert (P2 : 0 < c2) by (unfold c2; nra).
  assert (K3 : c2 <= / (1 + q) <-> c2 * (1 + q) <= 1).
  { assert (I : 0 < / (1 + q)) by (apply Rinv_0_lt_compat; lra). assert (J : / (1 + q) * (1 + q) = 1) by (apply Rinv_l; lra).
    split; intros H; [apply Rmult_le_compat_r with (r := 1 + q) in H; lra|apply Rmult_le_reg_r with (1 + q); lra]. }
  rewrite K3. assert (Eqa : q * (1 - a) = alpha * alpha * a) by (rewrite Eq; field; lra).
  assert (K4 : c2 * (1 + q) <= 1 <-> c2 * q * (1 - a) <= s2 * (1 - a)).
  { split; intros H; [apply Rmult_le_compat_r; lra|]. apply Rmult_le_reg_r in H; lra. }
  rewrite K4. replace (c2 * q * (1 - a)) with (alpha * alpha * c2 * a) by (transitivity (c2 * (q * (1 - a))); [rewrite Eqa; ring|ring]).
  set (P := capP alpha t) in *. set (A := alpha * alpha * c2) in *. clearbody P A. clear - EP D A0 S0.
  split; intros H.
  - apply Rmult_le_reg_r with (A + s2); [exact D|]. lra.
  - apply Rmult_le_compat_r with (r := A + s2) in H; lra.
Qed.

(** the distribution at polar angle [theta] *)
Lemma d_sph alpha theta phi : 0 < alpha -> 0 <= theta < PI / 2 ->
  mf_d (mkMf (XFin alpha) (XFin alpha)) (fin3 (sph theta phi)) =
  XFin (alpha * alpha / (PI * ((alpha * alpha * (cos theta * cos theta) + sin theta * sin theta) * (alpha * alpha * (cos theta * cos theta) + sin theta * sin theta)))).
Proof.
  intros Ha Ht. destruct (capP_den alpha theta Ha Ht) as [C D]. pose proof PI_RGT_0 as PP.
  assert (Z : vz (sph theta phi) = cos theta) by reflexivity.
  destruct (d_fin alpha alpha (sph theta phi) Ha Ha) as [E _]; [rewrite Z; lra|]. rewrite E. f_equal.
  assert (S : 0 <= sin theta) by (apply sin_ge_0; lra). pose proof (sin2_cos2 theta) as SC. unfold Rsqr in SC.
  assert (Es : rsin2 (sph theta phi) = sin theta * sin theta). { unfold rsin2. rewrite Z. rewrite Rmax_left by (assert (0 <= sin theta * sin theta) by nra; lra). lra. }
  assert (Er : sqrt (rsin2 (sph theta phi)) = sin theta) by (rewrite Es; now apply sqrt_square).
  assert (W : rcosphi (sph theta phi) * rcosphi (sph theta phi) + rsinphi (sph theta phi) * rsinphi (sph theta phi) = 1).
  { unfold rcosphi, rsinphi. rewrite Er. destruct (Req_bool (sin theta) 0) eqn:B; rb; [ring|]. unfold sph. vproj.
    replace (sin theta * cos phi / sin theta) with (cos phi) by (field; auto). replace (sin theta * sin phi / sin theta) with (sin phi) by (field; auto).
    pose proof (COS_bound phi). pose proof (SIN_bound phi). rewrite !rclamp_id by lra. pose proof (sin2_cos2 phi) as Q. unfold Rsqr in Q. lra. }
  unfold rd. rewrite Es, Z. set (x := rcosphi _) in *. set (y := rsinphi _) in *.
  replace (x * x / (alpha * alpha) + y * y / (alpha * alpha)) with (1 / (alpha * alpha)) by (rewrite <- W; field; lra).
  field. repeat split; try lra; nra.
Qed.

(** What is true of the isotropic sampler: its density is D(wh) * cos(theta), with the cap probabilities
    tan^2 / (alpha^2 + tan^2).  Missing for the full claim: the code reports D(wh) / cos(theta), see
    [C59_refuted], and different roughnesses along x and y. *)
Theorem C59_density_partial : forall alpha, 0 < alpha ->
  exists g, (forall theta phi, 0 <= theta < PI / 2 ->
      fmul (mf_d (mkMf (XFin alpha) (XFin alpha)) (fin3 (sph theta phi))) (abs_cos_theta (fin3 (sph theta phi))) = XFin (g theta)) /\
    half_vector_density alpha g.
Proof.
  intros alpha Ha. pose proof PI_RGT_0 as PP. set (den := fun theta => alpha * alpha * (cos theta * cos theta) + sin theta * sin theta).
  exists (fun theta => alpha * alpha / (PI * (den theta * den theta)) * cos theta). split.
  - intros theta phi Ht. rewrite d_sph by auto. destruct (capP_den alpha theta Ha Ht) as [C _]. unfold abs_cos_theta, sph, fin3. vproj. xsimp. cbn [xabs xmul].
    rewrite Rabs_pos_eq by lra. reflexivity.
  - intros t Ht. destruct (cap_sampled alpha t Ha Ht) as [R1 R2]. exists (capP alpha t). split; [exact R1|]. split; [exact R2|].
    replace (capP alpha t) with (capP alpha t - capP alpha 0).
    2:{ unfold capP at 2. rewrite sin_0. unfold Rdiv. ring. }
    assert (Dn : forall x, 0 <= x <= t -> 0 < den x) by (intros x Hx; apply capP_den; [exact Ha|lra]).
    apply integral_antiderivative; [lra| |].
    + intros x Hx. specialize (Dn x Hx).
      assert (Cc : continuity_pt cos x) by apply continuity_cos. assert (Cs : continuity_pt sin x) by apply continuity_sin.
      assert (Ck : forall k, continuity_pt (fun _ => k) x) by (intros k; apply continuity_pt_const; intros ? ?; reflexivity).
      assert (Cd : continuity_pt den x).
      { apply (continuity_pt_plus (fun x => alpha * alpha * (cos x * cos x)) (fun x => sin x * sin x)).
        - apply (continuity_pt_mult (fun _ => alpha * alpha) (fun x => cos x * cos x)); [apply Ck|]. now apply (continuity_pt_mult cos cos).
        - now apply (continuity_pt_mult sin sin). }
      apply (continuity_pt_mult (fun x => 2 * PI * sin x) (fun x => alpha * alpha / (PI * (den x * den x)) * cos x)).
      * apply (continuity_pt_mult (fun _ => 2 * PI) sin); auto.
      * apply (continuity_pt_mult (fun x => alpha * alpha / (PI * (den x * den x))) cos); auto.
        apply (continuity_pt_div (fun _ => alpha * alpha) (fun x => PI * (den x * den x))); auto.
        -- apply (continuity_pt_mult (fun _ => PI) (fun x => den x * den x)); auto. now apply (continuity_pt_mult den den).
        -- assert (0 < PI * (den x * den x)) by (apply Rmult_lt_0_compat; nra). lra.
    + intros x Hx. specialize (Dn x Hx). 
      assert (Ds : derivable_pt_lim (fun x => sin x * sin x) x (cos x * sin x + sin x * cos x)) by (apply (derivable_pt_lim_mult sin sin); apply derivable_pt_lim_sin).
      assert (Dc : derivable_pt_lim (fun x => cos x * cos x) x (- sin x * cos x + cos x * - sin x)) by (apply (derivable_pt_lim_mult cos cos); apply derivable_pt_lim_cos).
      assert (Dd : derivable_pt_lim den x (alpha * alpha * (- sin x * cos x + cos x * - sin x) + (cos x * sin x + sin x * cos x))).
      { apply (derivable_pt_lim_plus (fun x => alpha * alpha * (cos x * cos x)) (fun x => sin x * sin x)); [|exact Ds].
        now apply (derivable_pt_lim_scal (fun x => cos x * cos x)). }
      pose proof (derivable_pt_lim_div (fun x => sin x * sin x) den x _ _ Ds Dd ltac:(lra)) as Q.
      change (derivable_pt_lim (capP alpha) x (2 * PI * sin x * (alpha * alpha / (PI * (den x * den x)) * cos x))).
      replace (2 * PI * sin x * (alpha * alpha / (PI * (den x * den x)) * cos x)) with
        (((cos x * sin x + sin x * cos x) * den x - (alpha * alpha * (- sin x * cos x + cos x * - sin x) + (cos x * sin x + sin x * cos x)) * (sin x * sin x)) / Rsqr (den x)); [exact Q|].
      unfold Rsqr.
      replace ((cos x * sin x + sin x * cos x) * den x - (alpha * alpha * (- sin x * cos x + cos x * - sin x) + (cos x * sin x + sin x * cos x)) * (sin x * sin x))
        with (2 * alpha * alpha * (sin x * cos x) * (sin x * sin x + cos x * cos x)) by (unfold den; ring).
      pose proof (sin2_cos2 x) as SC. unfold Rsqr in SC. rewrite SC. field. lra.
Qed.
Print Assumptions C59_density_partial.

(** The density the code reports is D(wh) / cos(theta): for roughness 1 it gives the cap of 60 degrees,
    reached with probability 3/4, the mass 2 ln 2, more than 1. *)
Theorem C59_refuted : exists alpha t P v g, 0 < alpha /\ 0 <= t < PI / 2 /\
  (forall theta phi, 0 <= theta < PI / 2 -> mf_pdf (mkMf (XFin alpha) (XFin alpha)) (fin3 (sph theta phi)) = XFin (g theta)) /\
  cap_probability alpha t P /\ P < 1 /\ integral_is (fun theta => 2 * PI * sin theta * g theta) 0 t v /\ 1 < v.
Proof.
  pose proof PI_RGT_0 as PP. exists 1, (PI / 3), (capP 1 (PI / 3)), (-2 * ln (cos (PI / 3)) - -2 * ln (cos 0)), (fun theta => 1 / PI / cos theta).
  split; [lra|]. assert (Ht : 0 <= PI / 3 < PI / 2) by lra. split; [exact Ht|].
  split; [|split; [|split; [|split]]].
  - intros theta phi Hth. unfold mf_pdf. rewrite d_sph by (auto; lra). destruct (capP_den 1 theta ltac:(lra) Hth) as [C _].
    unfold abs_cos_theta, sph, fin3. vproj. xsimp. cbn [xabs]. rewrite Rabs_pos_eq by lra. rewrite xdiv_fin by lra. f_equal.
    pose proof (sin2_cos2 theta) as SC. unfold Rsqr in SC. replace (1 * 1 * (cos theta * cos theta) + sin theta * sin theta) with 1 by lra. field. lra.
  - now apply cap_sampled; [lra|].
  - unfold capP. pose proof (sin2_cos2 (PI / 3)) as SC. unfold Rsqr in SC. rewrite cos_PI3 in *. replace (1 * 1 * (1 / 2 * (1 / 2)) + sin (PI / 3) * sin (PI / 3)) with 1 by lra. lra.
  - apply (integral_antiderivative _ (fun x => -2 * ln (cos x))); [lra| |].
    + intros x Hx. destruct (capP_den 1 x ltac:(lra) ltac:(lra)) as [C _].
      apply (continuity_pt_mult (fun x => 2 * PI * sin x) (fun x => 1 / PI / cos x)).
      * apply (continuity_pt_mult (fun _ => 2 * PI) sin); [apply continuity_pt_const; intros ? ?; reflexivity|apply continuity_sin].
      * apply (continuity_pt_div (fun _ => 1 / PI) cos); [apply continuity_pt_const; intros ? ?; reflexivity|apply continuity_cos|lra].
    + intros x Hx. destruct (capP_den 1 x ltac:(lra) ltac:(lra)) as [C _].
      replace (2 * PI * sin x * (1 / PI / cos x)) with (-2 * (/ cos x * - sin x)) by (field; lra).
      apply (derivable_pt_lim_scal (fun x => ln (cos x))). apply (derivable_pt_lim_comp cos ln); [apply derivable_pt_lim_cos|now apply derivable_pt_lim_ln].
  - rewrite cos_PI3, cos_0, ln_1. replace (1 / 2) with (/ 2) by lra. rewrite ln_Rinv by lra.
    assert (1 < ln 4). { rewrite <- (ln_exp 1). apply ln_increasing; [apply exp_pos|]. pose proof exp_le_3. lra. }
    assert (ln 4 = ln 2 + ln 2) by (rewrite <- ln_mult by lra; f_equal; lra). lra.
Qed.
Print Assumptions C59_refuted.

(** the cap of 45 degrees is hit by half of the samples for roughness 1 *)
Example C59_example : capP 1 (PI / 4) = / 2.
Proof.
  unfold capP. pose proof (sin2_cos2 (PI / 4)) as SC. unfold Rsqr in SC. rewrite sin_PI4, cos_PI4 in *. set (h := 1 / sqrt 2) in *. clearbody h.
  replace (1 * 1 * (h * h) + h * h) with 1 by lra. unfold Rdiv. rewrite Rinv_1. lra.
Qed.
