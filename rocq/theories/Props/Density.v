(** * Densities of the sampled directions (C59, C87) *)
From Coq Require Import ZArith Reals Bool List Lra Lia.
From Flocq Require Import Core.Raux.
From Verif Require Import Model.Num Model.NumX Model.Vector Model.Common Model.Sampling Model.Reflection Model.Fresnel
  Model.Microfacet Model.BxDFs Spec.RVec Spec.ShadeSpec Spec.RoughSpec Spec.DensitySpec.
From Verif Require Import Proofs.XBase Proofs.RVecProofs Proofs.ShadeProofs Proofs.MicroProofs Proofs.ShapeProofs Proofs.DensityProofs
  Props.Shading2 Props.FresnelProps Props.MicrofacetProps Props.RoughGlass.
Local Open Scope R_scope.

(** ** Angles *)

Lemma cos_1_0 x : Rabs x < 2 * PI -> cos x = 1 -> x = 0.
Proof.
  intros B C. apply Rabs_def2 in B. assert (S : sin (x / 2) = 0).
  { pose proof (cos_2a_sin (x / 2)) as E. replace (2 * (x / 2)) with x in E by field. rewrite C in E. nra. }
  destruct (Rtotal_order x 0) as [L|[E|G]]; [|exact E|].
  - pose proof (sin_gt_0 (- (x / 2)) ltac:(lra) ltac:(lra)) as Q. rewrite sin_neg in Q. lra.
  - pose proof (sin_gt_0 (x / 2) ltac:(lra) ltac:(lra)). lra.
Qed.

Lemma angle_unique b d : 0 < b < 1 -> 0 < d < 1 -> cos (2 * PI * b) = cos (2 * PI * d) -> sin (2 * PI * b) = sin (2 * PI * d) -> b = d.
Proof.
  intros Hb Hd C S. pose proof PI_RGT_0 as PP. assert (E : 2 * PI * b - 2 * PI * d = 0).
  { apply cos_1_0.
    - apply Rabs_def1; nra.
    - rewrite cos_minus, C, S. pose proof (sin2_cos2 (2 * PI * d)) as Q. unfold Rsqr in Q. lra. }
  assert (2 * PI * (b - d) = 0) by lra. apply Rmult_integral in H. lra.
Qed.

Lemma angle_exists x y : x * x + y * y = 1 -> y <> 0 -> exists b, 0 < b < 1 /\ cos (2 * PI * b) = x /\ sin (2 * PI * b) = y.
Proof.
  intros U N. pose proof PI_RGT_0 as PP. assert (Hx : -1 < x < 1) by (assert (0 < y * y) by nra; nra).
  pose proof (acos_bound x) as B. pose proof (cos_acos x ltac:(lra)) as C. pose proof (sin_acos x ltac:(lra)) as S.
  assert (A : 0 < acos x < PI).
  { split.
    - destruct (Req_dec (acos x) 0) as [Z|Z]; [rewrite Z, cos_0 in C; lra|lra].
    - destruct (Req_dec (acos x) PI) as [Z|Z]; [rewrite Z, cos_PI in C; lra|lra]. }
  assert (Sy : sqrt (1 - x²) = Rabs y). { replace (1 - x²) with (Rsqr y) by (unfold Rsqr; lra). apply sqrt_Rsqr_abs. }
  rewrite Sy in S.
  assert (Q : 0 < acos x / (2 * PI) < / 2).
  { split; [apply Rdiv_lt_0_compat; lra|]. apply Rmult_lt_reg_r with (2 * PI); [lra|]. unfold Rdiv. rewrite Rmult_assoc, Rinv_l by lra. lra. }
  destruct (Rlt_le_dec 0 y) as [Y|Y].
  - exists (acos x / (2 * PI)). split; [lra|]. replace (2 * PI * (acos x / (2 * PI))) with (acos x) by (field; lra).
    split; [exact C|]. rewrite S. apply Rabs_pos_eq. lra.
  - exists (1 - acos x / (2 * PI)). split; [lra|]. replace (2 * PI * (1 - acos x / (2 * PI))) with (- acos x + 2 * PI) by (field; lra).
    rewrite cos_plus, sin_plus, cos_2PI, sin_2PI, cos_neg, sin_neg. split; [lra|]. rewrite S, Rabs_left1 by lra. lra.
Qed.

(** ** The half vector *)

(** the azimuth before stretching: the code turns it by a right angle when the two roughnesses differ *)
Definition azim (ax ay b : R) : R := 2 * PI * b + (if Req_bool ax ay then 0 else - (PI / 2)).
(** the direction of the half vector, before it is turned to the side of the outgoing direction *)
Definition slopes (ax ay a b : R) : rv :=
  mkV3 (ax * (sqrt (a / (1 - a)) * cos (azim ax ay b))) (ay * (sqrt (a / (1 - a)) * sin (azim ax ay b))) 1.
Definition side (wo : rv) : R := if Rlt_bool 0 (vz wo) then 1 else -1.
Definition half (ax ay : R) (wo : rv) (a b : R) : rv := vscale (side wo) (vunit (slopes ax ay a b)).

Lemma side_sq wo : side wo * side wo = 1.
Proof. unfold side. destruct (Rlt_bool _ _); ring. Qed.
Lemma side_pos wo : vz wo <> 0 -> 0 < vz wo * side wo.
Proof. intros N. unfold side. destruct (Rlt_bool 0 (vz wo)) eqn:E; rb; lra. Qed.
Lemma slopes_neq ax ay a b : slopes ax ay a b <> v0.
Proof. intros E. apply (f_equal vz) in E. unfold slopes, v0 in E. cbn [vz] in E. lra. Qed.
Lemma azim_cs ax ay b : (ax = ay /\ cos (azim ax ay b) = cos (2 * PI * b) /\ sin (azim ax ay b) = sin (2 * PI * b)) \/
  (ax <> ay /\ cos (azim ax ay b) = sin (2 * PI * b) /\ sin (azim ax ay b) = - cos (2 * PI * b)).
Proof.
  unfold azim. destruct (Req_bool ax ay) eqn:E; rb.
  - left. rewrite Rplus_0_r. auto.
  - right. split; [auto|]. rewrite cos_plus, sin_plus, cos_neg, sin_neg, cos_PI2, sin_PI2. lra.
Qed.
Lemma azim_1 ax ay b : cos (azim ax ay b) * cos (azim ax ay b) + sin (azim ax ay b) * sin (azim ax ay b) = 1.
Proof. pose proof (sin2_cos2 (azim ax ay b)) as Q. unfold Rsqr in Q. lra. Qed.

(** polar angle and azimuth of a vector (n r c, n r s, 1) *)
Lemma polar_slopes t m c s phi : 0 <= m -> t = m * m -> cos phi = c -> sin phi = s ->
  sph (acos (1 / sqrt (1 + t))) phi = vunit (mkV3 (m * c) (m * s) 1).
Proof.
  intros Hm -> <- <-. pose proof (inv_sqrt_range (m * m) ltac:(nra)) as [R1 R2]. set (k := 1 / sqrt (1 + m * m)) in *.
  assert (Ec : cos (acos k) = k) by (apply cos_acos; lra). assert (Es : sin (acos k) = sqrt (1 - k * k)) by (rewrite sin_acos by lra; reflexivity).
  assert (Ps : 0 < sqrt (1 + m * m)) by (apply sqrt_lt_R0; nra).
  assert (Em : sqrt (1 - k * k) = m * k).
  { rewrite R2. replace (1 - / (1 + m * m)) with ((m * k) * (m * k)). 2:{ transitivity (m * m * (k * k)); [ring|]. rewrite R2. field. nra. }
    apply sqrt_square. apply Rmult_le_pos; lra. }
  assert (En : / vnorm (mkV3 (m * cos phi) (m * sin phi) 1) = k).
  { unfold vnorm, vdot. vproj. pose proof (sin2_cos2 phi) as Q. unfold Rsqr in Q.
    replace (m * cos phi * (m * cos phi) + m * sin phi * (m * sin phi) + 1 * 1) with (1 + m * m).
    2:{ transitivity (1 + m * m * (sin phi * sin phi + cos phi * cos phi)); [rewrite Q|]; ring. }
    unfold k, Rdiv. ring. }
  unfold vunit. rewrite En. unfold sph, vscale. apply V3_eq; vproj; rewrite ?Es, ?Ec, ?Em; ring.
Qed.

(** the angle whose tangent is the stretched one *)
Lemma stretched ax ay b : 0 < ax -> 0 < ay -> 0 < b < 1 -> b <> 1 / 2 ->
  let n := sqrt (ax * ax * (sin (2 * PI * b) * sin (2 * PI * b)) + ay * ay * (cos (2 * PI * b) * cos (2 * PI * b))) in
  let p0 := atan (ay / ax * tan (2 * PI * b + / 2 * PI)) in
  let phi := if Rlt_bool (/ 2) b then p0 + PI else p0 in
  0 < n /\ cos phi = ax * sin (2 * PI * b) / n /\ sin phi = - (ay * cos (2 * PI * b) / n).
Proof.
  intros Hx Hy Hb Nb. cbv zeta. pose proof PI_RGT_0 as PP. set (S := sin (2 * PI * b)). set (C := cos (2 * PI * b)).
  pose proof (sin2_cos2 (2 * PI * b)) as SC. unfold Rsqr in SC. fold S C in SC.
  assert (SS : (b < / 2 -> 0 < S) /\ (/ 2 < b -> S < 0)).
  { split; intros H.
    - apply sin_gt_0; nra.
    - unfold S. replace (2 * PI * b) with (2 * PI * (b - / 2) + PI) by field. rewrite neg_sin. pose proof (sin_gt_0 (2 * PI * (b - / 2)) ltac:(nra) ltac:(nra)). lra. }
  assert (NS : S <> 0) by (destruct (Rlt_le_dec b (/ 2)); [|assert (/ 2 < b) by lra]; destruct SS as [SA SB]; [specialize (SA ltac:(lra))|specialize (SB ltac:(lra))]; lra).
  assert (ET : tan (2 * PI * b + / 2 * PI) = - C / S).
  { unfold tan. replace (/ 2 * PI) with (PI / 2) by lra. rewrite sin_plus, cos_plus, cos_PI2, sin_PI2. fold S C. replace (C * 0 - S * 1) with (- S) by ring. field. auto. }
  rewrite ET. set (n2 := ax * ax * (S * S) + ay * ay * (C * C)).
  assert (Pn2 : 0 < n2). { unfold n2. assert (0 < ax * ax * (S * S)) by (apply Rmult_lt_0_compat; nra). assert (0 <= ay * ay * (C * C)) by (apply Rmult_le_pos; nra). lra. }
  assert (Pn : 0 < sqrt n2) by now apply sqrt_lt_R0. split; [exact Pn|].
  set (x := ay / ax * (- C / S)). assert (Ex : 1 + Rsqr x = n2 / (ax * ax * (S * S))) by (unfold x, n2, Rsqr; field; lra).
  assert (Er : sqrt (1 + Rsqr x) = sqrt n2 / (ax * Rabs S)).
  { rewrite Ex. rewrite sqrt_div_alt by (apply Rmult_lt_0_compat; nra). f_equal. replace (ax * ax * (S * S)) with (Rsqr (ax * S)) by (unfold Rsqr; ring).
    rewrite sqrt_Rsqr_abs, Rabs_mult, (Rabs_pos_eq ax) by lra. reflexivity. }
  pose proof (cos_atan x) as CA. pose proof (sin_atan x) as SA. rewrite Er in CA, SA. pose proof (Rabs_pos_lt S NS) as PS.
  destruct (Rlt_bool (/ 2) b) eqn:E; rb.
  - rewrite cos_plus, sin_plus, cos_PI, sin_PI, CA, SA. destruct SS as [_ SS]. specialize (SS E). rewrite Rabs_left by auto. unfold x.
    split; field; repeat split; lra.
  - rewrite CA, SA. destruct SS as [SS _]. specialize (SS ltac:(lra)). rewrite Rabs_pos_eq by lra. unfold x. split; field; repeat split; lra.
Qed.

Lemma ratio_pos a : 0 < a < 1 -> 0 < a / (1 - a).
Proof. intros H. apply Rdiv_lt_0_compat; lra. Qed.

Lemma sample_wh_half ax ay a b wo : 0 < ax -> 0 < ay -> 0 < a < 1 -> 0 < b < 1 -> b <> 1 / 2 -> vz wo <> 0 ->
  mf_sample_wh (mkMf (XFin ax) (XFin ay)) (fin3 wo) (mkP2 (XFin a) (XFin b)) = fin3 (half ax ay wo a b).
Proof.
  intros Hx Hy Ha Hb Nb Hwo. unfold mf_sample_wh. cbn [mf_x mf_y px py]. pose proof (ratio_pos a Ha) as P1.
  set (r := sqrt (a / (1 - a))). assert (Hr : 0 < r) by now apply sqrt_lt_R0. assert (Hr2 : r * r = a / (1 - a)) by (apply sqrt_sqrt; lra).
  assert (K : exists t phi, 0 <= t /\ sph (acos (1 / sqrt (1 + t))) phi = vunit (slopes ax ay a b) /\
     (if feq (XFin ax) (XFin ay)
      then (fdiv f1 (fsqrt (fadd f1 (fdiv (fmul (fmul (XFin ax) (XFin ax)) (XFin a)) (fsub f1 (XFin a))))), fmul (fmul fpi f2) (XFin b))
      else
       let phi := fatan (fmul (fdiv (XFin ay) (XFin ax)) (ftan (fadd (fmul (fmul f2 fpi) (XFin b)) (fmul fhalf fpi)))) in
       let phi := if flt fhalf (XFin b) then fadd phi fpi else phi in
       (fdiv f1 (fsqrt (fadd f1 (fdiv (fmul (fdiv f1 (fadd (fdiv (fmul (fcos phi) (fcos phi)) (fmul (XFin ax) (XFin ax)))
          (fdiv (fmul (fsin phi) (fsin phi)) (fmul (XFin ay) (XFin ay))))) (XFin a)) (fsub f1 (XFin a))))), phi)) =
     (XFin (1 / sqrt (1 + t)), XFin phi)).
  { assert (D1 : forall t, 0 <= t -> fdiv (XFin 1) (fsqrt (XFin (1 + t))) = XFin (1 / sqrt (1 + t))).
    { intros t Ht. xsimp. rewrite xsqrt_fin by lra. apply xdiv_fin. assert (0 < sqrt (1 + t)) by (apply sqrt_lt_R0; lra). lra. }
    rewrite x_f1, x_f2, x_fhalf. unfold feq at 1. cbn [XR_FOps xeq]. destruct (azim_cs ax ay b) as [(E & EC & ES)|(E & EC & ES)].
    - rewrite Req_bool_true by auto. exists (ax * r * (ax * r)), (PI * 2 * b). assert (T0 : 0 <= ax * r * (ax * r)) by nra. split; [exact T0|]. split.
      + rewrite (polar_slopes _ (ax * r) (cos (azim ax ay b)) (sin (azim ax ay b))); [|nra|reflexivity| |].
        * unfold slopes. fold r. rewrite <- E. f_equal. apply V3_eq; vproj; ring.
        * rewrite EC. f_equal. ring.
        * rewrite ES. f_equal. ring.
      + xsimp. cbn [xmul xsub]. rewrite xdiv_fin by lra. cbn [xadd]. replace (ax * ax * a / (1 - a)) with (ax * r * (ax * r)).
        2:{ transitivity (ax * ax * (r * r)); [ring|]. rewrite Hr2. field. lra. }
        rewrite <- (D1 _ T0). reflexivity.
    - rewrite Req_bool_false by auto. destruct (stretched ax ay b Hx Hy Hb Nb) as (Pn & Cp & Sp).
      set (n := sqrt (_ + _)) in *. xsimp. cbn [xmul xadd xlift]. rewrite (xdiv_fin ay) by lra. cbn [xmul xatan xadd xlt].
      set (p0 := atan (_ * _)) in *. set (phi := if Rlt_bool (/ 2) b then p0 + PI else p0) in *.
      assert (Ep : (if Rlt_bool (/ 2) b then XFin (p0 + PI) else XFin p0) = XFin phi) by (unfold phi; now destruct (Rlt_bool _ b)).
      rewrite Ep. cbn [xlift xmul]. rewrite !xdiv_fin by nra. cbn [xadd].
      assert (G : cos phi * cos phi / (ax * ax) + sin phi * sin phi / (ay * ay) = 1 / (n * n)).
      { rewrite Cp, Sp. pose proof (sin2_cos2 (2 * PI * b)) as Q. unfold Rsqr in Q. clearbody n. transitivity ((sin (2 * PI * b) * sin (2 * PI * b) + cos (2 * PI * b) * cos (2 * PI * b)) / (n * n)); [field; repeat split; lra|rewrite Q; reflexivity]. }
      rewrite G. assert (N2 : 0 < 1 / (n * n)) by (apply Rdiv_lt_0_compat; nra).
      rewrite (xdiv_fin 1 (1 / (n * n))) by lra. cbn [xmul xsub]. rewrite xdiv_fin by lra. cbn [xadd].
      exists (n * r * (n * r)), phi. assert (T0 : 0 <= n * r * (n * r)) by nra. split; [exact T0|]. split.
      + rewrite (polar_slopes _ (n * r) _ _ phi ltac:(nra) eq_refl Cp Sp). unfold slopes. fold r. rewrite EC, ES. f_equal. apply V3_eq; vproj; field; lra.
      + replace (1 / (1 / (n * n)) * a / (1 - a)) with (n * r * (n * r)).
        2:{ transitivity (n * n * (r * r)); [ring|]. rewrite Hr2. field. lra. }
        rewrite <- (D1 _ T0). reflexivity. }
  destruct K as (t & phi & Ht & Hd & K).
  pose proof (inv_sqrt_range t Ht) as [Hc _]. set (c := 1 / sqrt (1 + t)) in *.
  destruct (spherical_fin c phi Hc) as (E1 & U & Z). rewrite Hd in E1, Z.
  cbv zeta in K |- *. rewrite K. cbn [fst snd]. rewrite E1, same_hemisphere_fin. unfold half, side.
  destruct (Rlt_bool 0 (vz wo)) eqn:E; rb.
  - rewrite Rlt_bool_true by (rewrite Z; nra). f_equal. vring.
  - rewrite Rlt_bool_false by (rewrite Z; nra). rewrite x_f1. xsimp. cbn [xneg]. rewrite v3scale_fin. reflexivity.
Qed.

Lemma deriv_root a : 0 < a < 1 -> derivable_pt_lim (fun t => sqrt (t / (1 - t))) a (/ (2 * sqrt (a / (1 - a))) * (1 / ((1 - a) * (1 - a)))).
Proof.
  intros Ha. apply (derivable_pt_lim_comp (fun t => t / (1 - t)) sqrt).
  - replace (1 / ((1 - a) * (1 - a))) with ((1 * (fct_cte 1 - id)%F a - (0 - 1) * id a) / Rsqr ((fct_cte 1 - id)%F a)).
    2:{ unfold minus_fct, fct_cte, id, Rsqr. field. lra. }
    apply (derivable_pt_lim_div id (fct_cte 1 - id)%F); [apply derivable_pt_lim_id| |unfold minus_fct, fct_cte, id; lra].
    apply derivable_pt_lim_minus; [apply derivable_pt_lim_const|apply derivable_pt_lim_id].
  - apply derivable_pt_lim_sqrt. now apply ratio_pos.
Qed.

Lemma d_azim ax ay a b : differentiable_at (fun _ y => azim ax ay y) a b 0 (2 * PI).
Proof.
  unfold azim. eapply d_eq; [exact (d_plus _ _ a b _ _ _ _ (d_scal (2 * PI) _ a b _ _ (d_snd a b)) (d_const _ a b))|ring|ring].
Qed.

Lemma slopes_deriv ax ay a b : 0 < a < 1 -> exists r1, 2 * r1 * sqrt (a / (1 - a)) = 1 / ((1 - a) * (1 - a)) /\
  derivative_at (slopes ax ay) a b (mkV3 (ax * (r1 * cos (azim ax ay b))) (ay * (r1 * sin (azim ax ay b))) 0)
    (mkV3 (ax * (sqrt (a / (1 - a)) * (- sin (azim ax ay b) * (2 * PI)))) (ay * (sqrt (a / (1 - a)) * (cos (azim ax ay b) * (2 * PI)))) 0).
Proof.
  intros Ha. pose proof (deriv_root a Ha) as D. pose proof (sqrt_lt_R0 _ (ratio_pos a Ha)) as P.
  exists (/ (2 * sqrt (a / (1 - a))) * (1 / ((1 - a) * (1 - a)))). split; [field; lra|].
  set (r1 := _ * (1 / _)) in *. pose proof (d_comp _ _ a b _ _ _ (d_fst a b) D) as Dr. cbv beta in Dr.
  pose proof (d_comp _ _ a b _ _ _ (d_azim ax ay a b) (derivable_pt_lim_cos _)) as Dc.
  pose proof (d_comp _ _ a b _ _ _ (d_azim ax ay a b) (derivable_pt_lim_sin _)) as Ds.
  unfold slopes. repeat split; vproj; [| |apply d_const].
  - eapply d_eq; [exact (d_scal ax _ a b _ _ (d_mult _ _ a b _ _ _ _ Dr Dc))| |]; cbv beta; ring.
  - eapply d_eq; [exact (d_scal ay _ a b _ _ (d_mult _ _ a b _ _ _ _ Dr Ds))| |]; cbv beta; ring.
Qed.

Lemma half_z ax ay wo a b : vz (half ax ay wo a b) = side wo / vnorm (slopes ax ay a b).
Proof. unfold half, vunit, vscale, slopes. vproj. unfold Rdiv. ring. Qed.

Lemma half_density ax ay wo a b : 0 < ax -> 0 < ay -> 0 < a < 1 ->
  density_at (half ax ay wo) a b (ggx ax ay (half ax ay wo a b) * Rabs (vz (half ax ay wo a b))).
Proof.
  intros Hx Hy Ha. apply density_scale; [apply side_sq|]. destruct (slopes_deriv ax ay a b Ha) as (r1 & Er & D).
  pose proof (slopes_neq ax ay a b) as N. destruct (dv_unit _ a b _ _ D N) as (wa & wb & Dw & Ew).
  exists wa, wb. split; [exact Dw|]. rewrite Ew, vnorm_scale, half_z. pose proof (vnorm_pos _ N) as Pn. pose proof (vnorm_sq (slopes ax ay a b)) as Sq.
  set (n := vnorm (slopes ax ay a b)) in *. rewrite <- Sq. pose proof PI_RGT_0 as PP. pose proof (azim_1 ax ay b) as C1.
  set (r := sqrt (a / (1 - a))) in *. assert (Hr2 : r * r = a / (1 - a)) by (apply sqrt_sqrt; pose proof (ratio_pos a Ha); lra).
  assert (Eq : 1 / (1 - a) = 1 + r * r) by (rewrite Hr2; field; lra).
  assert (Ed : vdot (slopes ax ay a b) (vcross (mkV3 (ax * (r1 * cos (azim ax ay b))) (ay * (r1 * sin (azim ax ay b))) 0)
     (mkV3 (ax * (r * (- sin (azim ax ay b) * (2 * PI)))) (ay * (r * (cos (azim ax ay b) * (2 * PI)))) 0)) = PI * ax * ay * ((1 + r * r) * (1 + r * r))).
  { rewrite <- Eq. replace (1 / (1 - a) * (1 / (1 - a))) with (1 / ((1 - a) * (1 - a))) by (field; lra). rewrite <- Er.
    unfold slopes, vdot, vcross. vproj. fold r.
    transitivity (2 * PI * ax * ay * r1 * r * (cos (azim ax ay b) * cos (azim ax ay b) + sin (azim ax ay b) * sin (azim ax ay b))); [ring|]. rewrite C1. ring. }
  rewrite Ed. set (Q := (1 + r * r) * (1 + r * r)). assert (PQ : 0 < Q) by (unfold Q; nra).
  assert (Eg : ggx ax ay (half ax ay wo a b) = n * n * (n * n) / (PI * ax * ay * Q)).
  { unfold ggx. assert (En : vx (half ax ay wo a b) * vx (half ax ay wo a b) / (ax * ax) + vy (half ax ay wo a b) * vy (half ax ay wo a b) / (ay * ay) +
       vz (half ax ay wo a b) * vz (half ax ay wo a b) = (1 + r * r) / (n * n)).
    { unfold half, vunit. fold n. unfold vscale. vproj. unfold slopes. vproj. fold r. set (c := cos _) in *. set (s := sin _) in *.
      transitivity (side wo * side wo * (1 + r * r * (c * c + s * s)) / (n * n)); [field; lra|]. rewrite C1, side_sq. field. lra. }
    rewrite En. unfold Q. field. repeat split; nra. }
  rewrite Eg. assert (As : Rabs (side wo / n) = / n).
  { unfold Rdiv. rewrite Rabs_mult, (Rabs_pos_eq (/ n)) by (apply Rlt_le, Rinv_0_lt_compat; lra).
    assert (Rabs (side wo) = 1) as -> by (unfold side; destruct (Rlt_bool _ _); [apply Rabs_R1|rewrite Rabs_left; lra]). ring. }
  rewrite As. clearbody n Q. clear - Hx Hy PP PQ Pn. assert (N4 : 0 < n * n * (n * n)) by (assert (0 < n * n) by nra; nra).
  assert (P4 : 0 < PI * ax * ay * Q) by (apply Rmult_lt_0_compat; [|exact PQ]; apply Rmult_lt_0_compat; [|exact Hy]; apply Rmult_lt_0_compat; [exact PP|exact Hx]). rewrite Rabs_pos_eq by (apply Rlt_le, Rdiv_lt_0_compat; auto).
  field. repeat split; lra.
Qed.

(** ** One to one, and onto the side of the outgoing direction *)

Lemma half_slopes ax ay wo a b : vz (half ax ay wo a b) <> 0 /\
  vx (half ax ay wo a b) / vz (half ax ay wo a b) = vx (slopes ax ay a b) /\ vy (half ax ay wo a b) / vz (half ax ay wo a b) = vy (slopes ax ay a b).
Proof.
  pose proof (vnorm_pos _ (slopes_neq ax ay a b)) as Pn. set (n := vnorm (slopes ax ay a b)) in *.
  assert (side wo <> 0) by (unfold side; destruct (Rlt_bool _ _); lra).
  assert (vz (half ax ay wo a b) = side wo / n) as Ez by apply half_z. rewrite Ez. split; [|split].
  - apply Rmult_integral_contrapositive_currified; [auto|apply Rinv_neq_0_compat; lra].
  - unfold half, vunit, vscale. fold n. vproj. field. split; [lra|auto].
  - unfold half, vunit, vscale. fold n. vproj. field. split; [lra|auto].
Qed.

Lemma half_one_to_one ax ay wo : 0 < ax -> 0 < ay -> one_to_one off_axes (half ax ay wo).
Proof.
  intros Hx Hy a b c d (Ha & Hb & _) (Hc & Hd & _) E.
  destruct (half_slopes ax ay wo a b) as (_ & X1 & Y1). destruct (half_slopes ax ay wo c d) as (_ & X2 & Y2). rewrite E in X1, Y1.
  rewrite X2 in X1. rewrite Y2 in Y1. unfold slopes in X1, Y1. cbn [vx vy] in X1, Y1.
  apply Rmult_eq_reg_l in X1; [|lra]. apply Rmult_eq_reg_l in Y1; [|lra].
  pose proof (azim_1 ax ay b) as B1. pose proof (azim_1 ax ay d) as D1.
  pose proof (sqrt_lt_R0 _ (ratio_pos a Ha)) as P1. pose proof (sqrt_lt_R0 _ (ratio_pos c Hc)) as P2.
  pose proof (sqrt_sqrt (a / (1 - a)) (Rlt_le _ _ (ratio_pos a Ha))) as S1. pose proof (sqrt_sqrt (c / (1 - c)) (Rlt_le _ _ (ratio_pos c Hc))) as S2.
  set (r := sqrt (a / (1 - a))) in *. set (q := sqrt (c / (1 - c))) in *.
  set (cb := cos (azim ax ay b)) in *. set (sb := sin (azim ax ay b)) in *. set (cd := cos (azim ax ay d)) in *. set (sd := sin (azim ax ay d)) in *.
  assert (E2 : r * r = q * q).
  { transitivity (r * cb * (r * cb) + r * sb * (r * sb)); [transitivity (r * r * (cb * cb + sb * sb)); [rewrite B1|]; ring|].
    rewrite <- X1, <- Y1. transitivity (q * q * (cd * cd + sd * sd)); [ring|rewrite D1; ring]. }
  assert (r = q) as Er by nra. split.
  - rewrite S1, S2 in E2. apply (f_equal (fun x => x * ((1 - a) * (1 - c)))) in E2.
    replace (a / (1 - a) * ((1 - a) * (1 - c))) with (a * (1 - c)) in E2 by (field; lra).
    replace (c / (1 - c) * ((1 - a) * (1 - c))) with (c * (1 - a)) in E2 by (field; lra). lra.
  - rewrite Er in X1, Y1. apply Rmult_eq_reg_l in X1; [|lra]. apply Rmult_eq_reg_l in Y1; [|lra]. unfold cb, sb, cd, sd in X1, Y1.
    destruct (azim_cs ax ay b) as [(Q1 & EC1 & ES1)|(Q1 & EC1 & ES1)]; destruct (azim_cs ax ay d) as [(Q2 & EC2 & ES2)|(Q2 & EC2 & ES2)]; try contradiction;
      rewrite EC1, EC2 in X1; rewrite ES1, ES2 in Y1; apply angle_unique; auto; lra.
Qed.

Lemma half_target ax ay wo a b : 0 < ax -> 0 < ay -> vz wo <> 0 -> off_axes a b -> side_off_axes wo (half ax ay wo a b).
Proof.
  intros Hx Hy Hwo (Ha & Hb & B1 & B2 & B3). pose proof (slopes_neq ax ay a b) as N. pose proof (vnorm_pos _ N) as Pn. pose proof PI_RGT_0 as PP.
  pose proof (sqrt_lt_R0 _ (ratio_pos a Ha)) as P1. split; [|split].
  - unfold half. rewrite vdot_scale_l, vdot_scale_r, vunit_dot by exact N. pose proof (side_sq wo). lra.
  - rewrite half_z. unfold Rdiv. rewrite <- Rmult_assoc. apply Rmult_lt_0_compat; [now apply side_pos|now apply Rinv_0_lt_compat].
  - assert (Hs : side wo <> 0) by (unfold side; destruct (Rlt_bool _ _); lra).
    assert (Q : cos (2 * PI * b) <> 0 /\ sin (2 * PI * b) <> 0).
    { split; intros C.
      - destruct (Rtotal_order b (1 / 2)) as [L|[L|L]]; [|lra|].
        + destruct (Rtotal_order b (1 / 4)) as [M|[M|M]]; [|lra|].
          * pose proof (cos_gt_0 (2 * PI * b) ltac:(nra) ltac:(nra)). lra.
          * pose proof (cos_lt_0 (2 * PI * b) ltac:(nra) ltac:(nra)). lra.
        + destruct (Rtotal_order b (3 / 4)) as [M|[M|M]]; [|lra|].
          * pose proof (cos_lt_0 (2 * PI * b) ltac:(nra) ltac:(nra)). lra.
          * pose proof (cos_gt_0 (2 * PI * (b - 1)) ltac:(nra) ltac:(nra)) as G. replace (2 * PI * (b - 1)) with (2 * PI * b - 2 * PI) in G by ring.
            rewrite cos_minus, cos_2PI, sin_2PI in G. lra.
      - destruct (Rtotal_order b (1 / 2)) as [L|[L|L]]; [|lra|].
        + pose proof (sin_gt_0 (2 * PI * b) ltac:(nra) ltac:(nra)). lra.
        + pose proof (sin_lt_0 (2 * PI * b) ltac:(nra) ltac:(nra)). lra. }
    assert (Q2 : cos (azim ax ay b) <> 0 /\ sin (azim ax ay b) <> 0).
    { destruct (azim_cs ax ay b) as [(_ & -> & ->)|(_ & -> & ->)]; [exact Q|]. destruct Q. split; [auto|lra]. }
    destruct Q2. unfold half, vunit, vscale, slopes. vproj. fold (slopes ax ay a b). assert (/ vnorm (slopes ax ay a b) <> 0) by (apply Rinv_neq_0_compat; lra).
    split; repeat apply Rmult_integral_contrapositive_currified; auto; lra.
Qed.

Lemma half_onto ax ay wo w : 0 < ax -> 0 < ay -> vz wo <> 0 -> side_off_axes wo w -> exists a b, off_axes a b /\ half ax ay wo a b = w.
Proof.
  intros Hx Hy Hwo (U & S & Nx & Ny). assert (Nz : vz w <> 0) by (intros Z; rewrite Z in S; lra). pose proof PI_RGT_0 as PP.
  set (X := vx w / vz w / ax). set (Y := vy w / vz w / ay).
  assert (NX : X <> 0) by (unfold X, Rdiv; repeat apply Rmult_integral_contrapositive_currified; auto; apply Rinv_neq_0_compat; lra).
  assert (NY : Y <> 0) by (unfold Y, Rdiv; repeat apply Rmult_integral_contrapositive_currified; auto; apply Rinv_neq_0_compat; lra).
  set (r2 := X * X + Y * Y). assert (P2 : 0 < r2) by (unfold r2; nra). set (r := sqrt r2). assert (Pr : 0 < r) by now apply sqrt_lt_R0.
  assert (Er : r * r = r2) by (apply sqrt_sqrt; lra).
  assert (Uxy : X / r * (X / r) + Y / r * (Y / r) = 1). { transitivity (r2 / (r * r)); [unfold r2; field; lra|]. rewrite Er. field. lra. }
  assert (NXr : X / r <> 0) by (unfold Rdiv; apply Rmult_integral_contrapositive_currified; [auto|apply Rinv_neq_0_compat; lra]).
  assert (NYr : Y / r <> 0) by (unfold Rdiv; apply Rmult_integral_contrapositive_currified; [auto|apply Rinv_neq_0_compat; lra]).
  assert (B : exists b, 0 < b < 1 /\ cos (azim ax ay b) = X / r /\ sin (azim ax ay b) = Y / r).
  { destruct (Req_dec ax ay) as [E|E].
    - destruct (angle_exists (X / r) (Y / r) Uxy NYr) as (b & Hb & C1 & S1). exists b. split; [exact Hb|].
      destruct (azim_cs ax ay b) as [(_ & -> & ->)|(C & _)]; [auto|contradiction].
    - destruct (angle_exists (- (Y / r)) (X / r)) as (b & Hb & C1 & S1); [lra|exact NXr|]. exists b. split; [exact Hb|].
      destruct (azim_cs ax ay b) as [(C & _)|(_ & -> & ->)]; [contradiction|]. split; [exact S1|lra]. }
  destruct B as (b & Hb & C1 & S1). exists (r2 / (1 + r2)), b.
  assert (Ha : 0 < r2 / (1 + r2) < 1).
  { split; [apply Rdiv_lt_0_compat; lra|]. apply Rmult_lt_reg_r with (1 + r2); [lra|]. unfold Rdiv. rewrite Rmult_assoc, Rinv_l; lra. }
  assert (Eq : r2 / (1 + r2) / (1 - r2 / (1 + r2)) = r2) by (field; lra).
  split.
  - split; [exact Ha|]. split; [exact Hb|].
    assert (T : forall k, b = k -> cos (2 * PI * k) <> 0 /\ sin (2 * PI * k) <> 0).
    { intros k <-. destruct (azim_cs ax ay b) as [(_ & Q1 & Q2)|(_ & Q1 & Q2)]; rewrite Q1 in C1; rewrite Q2 in S1; split; lra. }
    repeat split; intros E; apply T in E; destruct E as [T1 T2].
    + replace (2 * PI * (1 / 4)) with (PI / 2) in T1 by field. rewrite cos_PI2 in T1. lra.
    + replace (2 * PI * (1 / 2)) with PI in T2 by field. rewrite sin_PI in T2. lra.
    + replace (2 * PI * (3 / 4)) with (3 * (PI / 2)) in T1 by field. rewrite cos_3PI2 in T1. lra.
  - assert (Es : slopes ax ay (r2 / (1 + r2)) b = vscale (/ vz w) w).
    { unfold slopes. rewrite Eq. fold r. rewrite C1, S1. unfold X, Y. apply V3_eq; unfold vscale; vproj; field; repeat split; lra. }
    unfold half. rewrite Es. unfold vunit. rewrite vnorm_scale. apply vnorm_1_dot in U. rewrite U, Rmult_1_r.
    assert (Ss : side wo = side w). { unfold side. destruct (Rlt_bool 0 (vz wo)) eqn:E1, (Rlt_bool 0 (vz w)) eqn:E2; rb; auto; nra. }
    rewrite Ss. assert (K : side w * (/ Rabs (/ vz w) * / vz w) = 1).
    { rewrite Rabs_Rinv by auto. unfold side. destruct (Rlt_bool 0 (vz w)) eqn:E; rb; [rewrite Rabs_pos_eq by lra|rewrite Rabs_left by lra]; field; lra. }
    transitivity (vscale (side w * (/ Rabs (/ vz w) * / vz w)) w); [apply V3_eq; unfold vscale; vproj; ring|]. rewrite K. vring.
Qed.

(** ** C59 for every roughness *)

(** The half vector has the density D(wh) * |cos(theta)|, also when the roughnesses along x and y differ.  The code
    reports D(wh) / |cos(theta)| instead, see [C59_refuted]. *)
Theorem C59_all_roughness_partial : forall (ax ay : R) (wo : rv), 0 < ax -> 0 < ay -> vz wo <> 0 ->
  let m := mkMf (XFin ax) (XFin ay) in
  exists (f : R -> R -> rv) (g : rv -> R),
    (forall a b, off_axes a b -> mf_sample_wh m (fin3 wo) (mkP2 (XFin a) (XFin b)) = fin3 (f a b)) /\
    (forall w, unit_dir w -> vz w <> 0 -> fmul (mf_d m (fin3 w)) (abs_cos_theta (fin3 w)) = XFin (g w)) /\
    spreads off_axes f (side_off_axes wo) g.
Proof.
  intros ax ay wo Hx Hy Hwo m. exists (half ax ay wo), (fun w => ggx ax ay w * Rabs (vz w)). split; [|split].
  - intros a b (Ha & Hb & _ & Hb2 & _). now apply sample_wh_half.
  - intros w U Z. destruct (C58_formulas ax ay w w w Hx Hy U U U Z Z Z) as [E _]. unfold m. rewrite E. reflexivity.
  - split; [|split].
    + intros a b H. split; [now apply half_target|]. apply half_density; auto. apply H.
    + now apply half_one_to_one.
    + intros w H. now apply half_onto.
Qed.
Print Assumptions C59_all_roughness_partial.

(** the middle of a quarter of the samples, with different roughnesses *)
Example C59_all_roughness_example : off_axes (1 / 2) (1 / 8) /\
  vx (slopes 1 3 (1 / 2) (1 / 8)) = sin (PI / 4) /\ vy (slopes 1 3 (1 / 2) (1 / 8)) = - (3 * cos (PI / 4)).
Proof.
  split; [unfold off_axes; repeat split; lra|]. unfold slopes. vproj. destruct (azim_cs 1 3 (1 / 8)) as [(C & _)|(_ & -> & ->)]; [lra|].
  replace (1 / 2 / (1 - 1 / 2)) with 1 by field. rewrite sqrt_1. replace (2 * PI * (1 / 8)) with (PI / 4) by field. lra.
Qed.

(** ** C87: cosine-weighted directions *)

(** the concentric map on the square [-1, 1]^2, where |q| < |p| *)
Definition wedge_x (p q : R) : R := p * cos (PI / 4 * (q / p)).
Definition wedge_y (p q : R) : R := p * sin (PI / 4 * (q / p)).
Definition lift (s x y : R) : rv := mkV3 x y (s * sqrt (1 - x * x - y * y)).
Definition first_wedge (a b : R) : bool := Rlt_bool (Rabs (2 * b - 1)) (Rabs (2 * a - 1)).
Definition hemi (s a b : R) : rv :=
  let p := 2 * a - 1 in let q := 2 * b - 1 in
  if first_wedge a b then lift s (wedge_x p q) (wedge_y p q) else lift s (wedge_y q p) (wedge_x q p).

Lemma wedge_1 p q : wedge_x p q * wedge_x p q + wedge_y p q * wedge_y p q = p * p.
Proof.
  unfold wedge_x, wedge_y. pose proof (sin2_cos2 (PI / 4 * (q / p))) as Q. unfold Rsqr in Q.
  set (c := cos _) in *. set (s := sin _) in *. transitivity (p * p * (s * s + c * c)); [ring|rewrite Q; ring].
Qed.

Lemma wedge_angle p q : Rabs q < Rabs p -> p <> 0 /\ - (PI / 4) < PI / 4 * (q / p) < PI / 4.
Proof.
  intros H. pose proof (Rabs_pos q). pose proof PI_RGT_0. assert (N : p <> 0) by (intros ->; rewrite Rabs_R0 in H; lra). split; [exact N|].
  assert (Q : Rabs (q / p) < 1).
  { unfold Rdiv. rewrite Rabs_mult, Rabs_Rinv by auto. apply Rmult_lt_reg_r with (Rabs p); [lra|]. rewrite Rmult_assoc, Rinv_l by lra. lra. }
  apply Rabs_def2 in Q. nra.
Qed.

Lemma angle_eighth t : - (PI / 4) < t < PI / 4 -> 0 < cos t /\ Rabs (sin t) < cos t.
Proof.
  intros H. pose proof PI_RGT_0. assert (C : 0 < cos t) by (apply cos_gt_0; lra). split; [exact C|].
  pose proof (cos_gt_0 (2 * t) ltac:(lra) ltac:(lra)) as D. rewrite cos_2a in D. apply Rabs_def1; nra.
Qed.

Lemma wedge_shape p q : Rabs q < Rabs p -> Rabs (wedge_y p q) < Rabs (wedge_x p q).
Proof.
  intros H. destruct (wedge_angle p q H) as [N A]. destruct (angle_eighth _ A) as [C S]. unfold wedge_x, wedge_y. rewrite !Rabs_mult.
  apply Rmult_lt_compat_l; [now apply Rabs_pos_lt|]. now rewrite (Rabs_pos_eq (cos _)) by lra.
Qed.

Lemma sin_inj_eighth t u : - (PI / 4) < t < PI / 4 -> - (PI / 4) < u < PI / 4 -> sin t = sin u -> t = u.
Proof.
  intros Ht Hu E. pose proof PI_RGT_0. destruct (Rtotal_order t u) as [L|[L|L]]; [|exact L|].
  - pose proof (sin_increasing_1 t u ltac:(lra) ltac:(lra) ltac:(lra) ltac:(lra) L). lra.
  - pose proof (sin_increasing_1 u t ltac:(lra) ltac:(lra) ltac:(lra) ltac:(lra) L). lra.
Qed.

Lemma wedge_inj p q p' q' : Rabs q < Rabs p -> Rabs q' < Rabs p' -> wedge_x p q = wedge_x p' q' -> wedge_y p q = wedge_y p' q' -> p = p' /\ q = q'.
Proof.
  intros H H' X Y. destruct (wedge_angle p q H) as [N A]. destruct (wedge_angle p' q' H') as [N' A'].
  destruct (angle_eighth _ A) as [C _]. destruct (angle_eighth _ A') as [C' _].
  assert (E2 : p * p = p' * p') by (rewrite <- (wedge_1 p q), <- (wedge_1 p' q'), X, Y; reflexivity).
  assert (E : p = p').
  { unfold wedge_x in X. set (c := cos _) in *. set (c' := cos (_ * (q' / p'))) in *.
    assert (0 < (p * c) * (p * c)) by (apply Rsqr_pos_lt; apply Rmult_integral_contrapositive_currified; lra).
    assert (S : 0 < p * p').
    { assert (P1 : 0 < (p * c) * (p' * c')) by (rewrite <- X; exact H0). assert (0 < c * c') by nra.
      replace (p * c * (p' * c')) with (p * p' * (c * c')) in P1 by ring. nra. }
    assert (Z : (p - p') * (p + p') = 0) by lra. apply Rmult_integral in Z. destruct Z; [lra|]. exfalso. nra. }
  split; [exact E|]. rewrite <- E in *. unfold wedge_y in Y. apply Rmult_eq_reg_l in Y; [|exact N].
  apply sin_inj_eighth in Y; auto. pose proof PI_RGT_0. apply Rmult_eq_reg_l in Y; [|lra]. unfold Rdiv in Y. apply Rmult_eq_reg_r in Y; [exact Y|]. now apply Rinv_neq_0_compat.
Qed.

Lemma wedge_onto x y : Rabs y < Rabs x -> x * x + y * y < 1 ->
  exists p q, Rabs q < Rabs p /\ Rabs p < 1 /\ wedge_x p q = x /\ wedge_y p q = y.
Proof.
  intros H U. pose proof PI_RGT_0 as PP. pose proof (Rabs_pos y). assert (N : x <> 0) by (intros ->; rewrite Rabs_R0 in H; lra).
  set (s := if Rlt_bool 0 x then 1 else -1). set (m := sqrt (x * x + y * y)). assert (P2 : 0 < x * x + y * y) by nra.
  assert (Pm : 0 < m) by now apply sqrt_lt_R0. assert (Em : m * m = x * x + y * y) by (apply sqrt_sqrt; lra).
  assert (Ss : s * s = 1) by (unfold s; destruct (Rlt_bool 0 x); ring). assert (Sx : s * Rabs x = x).
  { unfold s. destruct (Rlt_bool 0 x) eqn:E; rb; [rewrite Rabs_pos_eq by lra|rewrite Rabs_left1 by lra]; ring. }
  assert (As : Rabs s = 1) by (unfold s; destruct (Rlt_bool 0 x); [apply Rabs_R1|rewrite Rabs_left; lra]).
  set (p := s * m). assert (Np : p <> 0) by (intros Z; assert (Q : p * p = m * m) by (unfold p; transitivity (s * s * (m * m)); [ring|rewrite Ss; ring]); rewrite Z in Q; nra).
  set (t := atan (y / x)). assert (Tt : - (PI / 4) < t < PI / 4).
  { assert (Q : Rabs (y / x) < 1).
    { unfold Rdiv. rewrite Rabs_mult, Rabs_Rinv by auto. apply Rmult_lt_reg_r with (Rabs x); [lra|]. rewrite Rmult_assoc, Rinv_l by lra. lra. }
    apply Rabs_def2 in Q. unfold t. rewrite <- atan_1, <- atan_opp. split; apply atan_increasing; lra. }
  exists p, (4 / PI * t * p). assert (Ap : Rabs p = m) by (unfold p; rewrite Rabs_mult, As, (Rabs_pos_eq m) by lra; ring).
  assert (Ea : PI / 4 * (4 / PI * t * p / p) = t) by (field; split; lra).
  split; [|split; [|split]].
  - rewrite Rabs_mult, Ap. rewrite <- (Rmult_1_l m) at 2. apply Rmult_lt_compat_r; [exact Pm|].
    assert (K : 4 / PI * (PI / 4) = 1) by (field; lra). assert (0 < 4 / PI) by (apply Rdiv_lt_0_compat; lra). apply Rabs_def1; nra.
  - rewrite Ap. nra.
  - unfold wedge_x. rewrite Ea. unfold t. rewrite cos_atan. replace (1 + (y / x)²) with ((m * m) / (Rsqr x)) by (rewrite Em; unfold Rsqr; field; auto).
    rewrite sqrt_div_alt by (unfold Rsqr; nra). rewrite sqrt_square, sqrt_Rsqr_abs by lra. unfold p.
    pose proof (Rabs_pos_lt x N). replace (s * m * (1 / (m / Rabs x))) with (s * Rabs x) by (field; split; lra). exact Sx.
  - unfold wedge_y. rewrite Ea. unfold t. rewrite sin_atan. replace (1 + (y / x)²) with ((m * m) / (Rsqr x)) by (rewrite Em; unfold Rsqr; field; auto).
    rewrite sqrt_div_alt by (unfold Rsqr; nra). rewrite sqrt_square, sqrt_Rsqr_abs by lra. unfold p.
    pose proof (Rabs_pos_lt x N). replace (s * m * (y / x / (m / Rabs x))) with (y / x * (s * Rabs x)) by (field; repeat split; lra). rewrite Sx. field. auto.
Qed.

(** surface element of the lifted disk *)
Lemma lift_density s (X Y : R -> R -> R) a b xa xb ya yb J : s * s = 1 -> differentiable_at X a b xa xb -> differentiable_at Y a b ya yb ->
  X a b * X a b + Y a b * Y a b < 1 -> Rabs (xa * yb - xb * ya) = J -> 0 < J ->
  density_at (fun u v => lift s (X u v) (Y u v)) a b (Rabs (vz (lift s (X a b) (Y a b))) / J).
Proof.
  intros Hs DX DY U HJ PJ. set (x := X a b) in *. set (y := Y a b) in *. set (z2 := 1 - x * x - y * y). assert (P2 : 0 < z2) by (unfold z2; lra).
  set (z := sqrt z2). assert (Pz : 0 < z) by now apply sqrt_lt_R0. assert (Ez : z * z = z2) by (apply sqrt_sqrt; lra).
  assert (D2 : differentiable_at (fun u v => 1 - X u v * X u v - Y u v * Y u v) a b (-2 * (x * xa + y * ya)) (-2 * (x * xb + y * yb))).
  { eapply d_eq; [exact (d_minus _ _ a b _ _ _ _ (d_minus _ _ a b _ _ _ _ (d_const 1 a b) (d_mult X X a b _ _ _ _ DX DX)) (d_mult Y Y a b _ _ _ _ DY DY))| |]; fold x y; ring. }
  pose proof (d_scal s _ a b _ _ (d_comp sqrt _ a b _ _ _ D2 (derivable_pt_lim_sqrt _ P2))) as Dz. cbv beta in Dz. fold x y in Dz. fold z2 in Dz. fold z in Dz.
  exists (mkV3 xa ya (- s * (x * xa + y * ya) / z)), (mkV3 xb yb (- s * (x * xb + y * yb) / z)). split.
  - unfold lift. repeat split; vproj; [exact DX|exact DY|]. eapply d_eq; [exact Dz| |]; field; lra.
  - assert (Ev : vnorm (vcross (mkV3 xa ya (- s * (x * xa + y * ya) / z)) (mkV3 xb yb (- s * (x * xb + y * yb) / z))) = J / z).
    { transitivity (vnorm (vscale ((xa * yb - xb * ya) / z) (mkV3 (s * x) (s * y) z))).
      - f_equal. apply V3_eq; unfold vcross, vscale; vproj; field; lra.
      - rewrite vnorm_scale. assert (vnorm (mkV3 (s * x) (s * y) z) = 1) as ->.
        { apply vnorm_1_dot. unfold vdot. vproj. rewrite Ez. unfold z2. transitivity (s * s * (x * x + y * y) + 1 - x * x - y * y); [ring|]. rewrite Hs. ring. }
        unfold Rdiv. rewrite Rabs_mult, HJ, (Rabs_pos_eq (/ z)) by (apply Rlt_le, Rinv_0_lt_compat; lra). ring. }
    rewrite Ev. unfold lift. vproj. fold z2. fold z. rewrite Rabs_mult, (Rabs_pos_eq z) by lra.
    assert (Rabs s = 1) as ->. { assert (Q : Rabs s * Rabs s = 1) by (rewrite <- Rabs_mult, Hs; apply Rabs_R1). pose proof (Rabs_pos s). nra. }
    field. split; lra.
Qed.

(** the two partial derivatives of the wedge map; its determinant is pi/4 *)
Lemma wedge_deriv (P Q : R -> R -> R) a b pa pb qa qb : P a b <> 0 -> differentiable_at P a b pa pb -> differentiable_at Q a b qa qb ->
  exists xa xb ya yb, differentiable_at (fun u v => wedge_x (P u v) (Q u v)) a b xa xb /\ differentiable_at (fun u v => wedge_y (P u v) (Q u v)) a b ya yb /\
    xa * yb - xb * ya = PI / 4 * (pa * qb - pb * qa).
Proof.
  intros N DP DQ. set (p := P a b) in *. set (q := Q a b).
  assert (Di : derivable_pt_lim (fun t => / t) p (- (1) / (p * p))).
  { replace (- (1) / (p * p)) with ((0 * id p - 1 * fct_cte 1 p) / Rsqr (id p)) by (unfold id, fct_cte, Rsqr; field; auto).
    assert (D : derivable_pt_lim (fct_cte 1 / id)%F p ((0 * id p - 1 * fct_cte 1 p) / Rsqr (id p))).
    { apply derivable_pt_lim_div; [apply derivable_pt_lim_const|apply derivable_pt_lim_id|exact N]. }
    intros eps He. destruct (D eps He) as (del & K). exists del. intros h Hh Hd. specialize (K h Hh Hd).
    assert (I : forall t, / t = (fct_cte 1 / id)%F t) by (intros t; unfold div_fct, fct_cte, id, Rdiv; ring). rewrite !I. exact K. }
  pose proof (d_scal (PI / 4) _ a b _ _ (d_mult _ _ a b _ _ _ _ DQ (d_comp (fun t => / t) P a b _ _ _ DP Di))) as Dt. cbv beta in Dt. fold p q in Dt.
  pose proof (d_comp cos _ a b _ _ _ Dt (derivable_pt_lim_cos _)) as Dc. pose proof (d_comp sin _ a b _ _ _ Dt (derivable_pt_lim_sin _)) as Ds. cbv beta in Dc, Ds.
  pose proof (d_mult _ _ a b _ _ _ _ DP Dc) as DX. pose proof (d_mult _ _ a b _ _ _ _ DP Ds) as DY. cbv beta in DX, DY. fold p q in DX, DY.
  do 4 eexists. split; [exact DX|]. split; [exact DY|]. pose proof (sin2_cos2 (PI / 4 * (q * / p))) as T. unfold Rsqr in T.
  set (c := cos _) in *. set (s := sin _) in *.
  transitivity (PI / 4 * (pa * qb - pb * qa) * (s * s + c * c)); [field; auto|rewrite T; ring].
Qed.

Lemma d_centre1 a b : differentiable_at (fun u _ => 2 * u - 1) a b 2 0.
Proof. eapply d_eq; [exact (d_minus _ _ a b _ _ _ _ (d_scal 2 _ a b _ _ (d_fst a b)) (d_const 1 a b))|ring|ring]. Qed.
Lemma d_centre2 a b : differentiable_at (fun _ v => 2 * v - 1) a b 0 2.
Proof. eapply d_eq; [exact (d_minus _ _ a b _ _ _ _ (d_scal 2 _ a b _ _ (d_snd a b)) (d_const 1 a b))|ring|ring]. Qed.

Lemma diag_cases a b : off_diagonals a b -> (first_wedge a b = true /\ Rabs (2 * b - 1) < Rabs (2 * a - 1) < 1) \/
  (first_wedge a b = false /\ Rabs (2 * a - 1) < Rabs (2 * b - 1) < 1).
Proof.
  intros (Ha & Hb & D1 & D2). unfold first_wedge. assert (Rabs (2 * a - 1) < 1) by (apply Rabs_def1; lra). assert (Rabs (2 * b - 1) < 1) by (apply Rabs_def1; lra).
  assert (N : Rabs (2 * a - 1) <> Rabs (2 * b - 1)) by (unfold Rabs; destruct (Rcase_abs (2 * a - 1)), (Rcase_abs (2 * b - 1)); lra).
  destruct (Rlt_bool (Rabs (2 * b - 1)) (Rabs (2 * a - 1))) eqn:E; rb; [left|right]; split; auto; lra.
Qed.

(** which wedge a sample is in does not change nearby *)
Lemma wedge_near a b : off_diagonals a b -> exists r, 0 < r /\ forall u v, Rabs (u - a) < r -> Rabs (v - b) < r -> first_wedge u v = first_wedge a b.
Proof.
  intros H. destruct (diag_cases a b H) as [(E & L)|(E & L)].
  - exists ((Rabs (2 * a - 1) - Rabs (2 * b - 1)) / 4). split; [lra|]. intros u v Hu Hv. rewrite E. unfold first_wedge. apply Rlt_bool_true.
    pose proof (Rabs_triang (2 * (v - b)) (2 * b - 1)) as T1. replace (2 * (v - b) + (2 * b - 1)) with (2 * v - 1) in T1 by ring.
    pose proof (Rabs_triang (2 * (a - u)) (2 * u - 1)) as T2. replace (2 * (a - u) + (2 * u - 1)) with (2 * a - 1) in T2 by ring.
    rewrite Rabs_mult, (Rabs_pos_eq 2) in T1, T2 by lra. rewrite (Rabs_minus_sym a u) in T2. lra.
  - exists ((Rabs (2 * b - 1) - Rabs (2 * a - 1)) / 4). split; [lra|]. intros u v Hu Hv. rewrite E. unfold first_wedge. apply Rlt_bool_false.
    pose proof (Rabs_triang (2 * (b - v)) (2 * v - 1)) as T1. replace (2 * (b - v) + (2 * v - 1)) with (2 * b - 1) in T1 by ring.
    pose proof (Rabs_triang (2 * (u - a)) (2 * a - 1)) as T2. replace (2 * (u - a) + (2 * a - 1)) with (2 * u - 1) in T2 by ring.
    rewrite Rabs_mult, (Rabs_pos_eq 2) in T1, T2 by lra. rewrite (Rabs_minus_sym b v) in T1. lra.
Qed.

Lemma density_near f g a b d r : 0 < r -> (forall x y, Rabs (x - a) < r -> Rabs (y - b) < r -> f x y = g x y) -> density_at g a b d -> density_at f a b d.
Proof. intros Hr E (da & db & D & N). exists da, db. split; [now apply (dv_near f g a b da db r)|exact N]. Qed.

Lemma abs_lt1_sq p : Rabs p < 1 -> p * p < 1.
Proof. intros H. apply Rabs_def2 in H. nra. Qed.

Lemma hemi_density s a b : s * s = 1 -> off_diagonals a b -> density_at (hemi s) a b (Rabs (vz (hemi s a b)) / PI).
Proof.
  intros Hs H. destruct (wedge_near a b H) as (r & Hr & K). pose proof PI_RGT_0 as PP. destruct (diag_cases a b H) as [(E & L)|(E & L)].
  - apply (density_near _ (fun u v => lift s (wedge_x (2 * u - 1) (2 * v - 1)) (wedge_y (2 * u - 1) (2 * v - 1))) _ _ _ r Hr).
    { intros u v Hu Hv. unfold hemi. rewrite (K u v Hu Hv), E. reflexivity. }
    destruct (wedge_angle (2 * a - 1) (2 * b - 1) ltac:(lra)) as [N _].
    destruct (wedge_deriv (fun u _ => 2 * u - 1) (fun _ v => 2 * v - 1) a b _ _ _ _ N (d_centre1 a b) (d_centre2 a b)) as (xa & xb & ya & yb & DX & DY & J).
    unfold hemi. rewrite E. refine (lift_density s _ _ a b xa xb ya yb PI Hs DX DY _ _ PP).
    + rewrite wedge_1. apply abs_lt1_sq. lra.
    + rewrite J. replace (PI / 4 * (2 * 2 - 0 * 0)) with PI by field. apply Rabs_pos_eq. lra.
  - apply (density_near _ (fun u v => lift s (wedge_y (2 * v - 1) (2 * u - 1)) (wedge_x (2 * v - 1) (2 * u - 1))) _ _ _ r Hr).
    { intros u v Hu Hv. unfold hemi. rewrite (K u v Hu Hv), E. reflexivity. }
    destruct (wedge_angle (2 * b - 1) (2 * a - 1) ltac:(lra)) as [N _].
    destruct (wedge_deriv (fun _ v => 2 * v - 1) (fun u _ => 2 * u - 1) a b _ _ _ _ N (d_centre2 a b) (d_centre1 a b)) as (xa & xb & ya & yb & DX & DY & J).
    unfold hemi. rewrite E. refine (lift_density s _ _ a b ya yb xa xb PI Hs DY DX _ _ PP).
    + rewrite Rplus_comm, wedge_1. apply abs_lt1_sq. lra.
    + replace (ya * xb - yb * xa) with (- (xa * yb - xb * ya)) by ring. rewrite J. replace (- (PI / 4 * (0 * 0 - 2 * 2))) with PI by field. apply Rabs_pos_eq. lra.
Qed.

Lemma lift_target wo x y : vz wo <> 0 -> x * x + y * y < 1 -> Rabs x <> Rabs y -> side_off_diagonals wo (lift (side wo) x y).
Proof.
  intros Hwo U N. assert (P : 0 < 1 - x * x - y * y) by lra. pose proof (sqrt_lt_R0 _ P) as Q. pose proof (sqrt_sqrt _ (Rlt_le _ _ P)) as S.
  pose proof (side_sq wo) as S2. pose proof (side_pos wo Hwo) as SP. unfold lift, side_off_diagonals, vdot. vproj. set (z := sqrt _) in *. split; [|split; [|exact N]].
  - replace (side wo * z * (side wo * z)) with (side wo * side wo * (z * z)) by ring. rewrite S2, S. ring.
  - rewrite <- Rmult_assoc. now apply Rmult_lt_0_compat.
Qed.

Lemma hemi_target wo a b : vz wo <> 0 -> off_diagonals a b -> side_off_diagonals wo (hemi (side wo) a b).
Proof.
  intros Hwo H. unfold hemi. destruct (diag_cases a b H) as [(E & L)|(E & L)]; rewrite E; apply lift_target; auto.
  - rewrite wedge_1. apply abs_lt1_sq. lra.
  - pose proof (wedge_shape (2 * a - 1) (2 * b - 1) ltac:(lra)). lra.
  - rewrite Rplus_comm, wedge_1. apply abs_lt1_sq. lra.
  - pose proof (wedge_shape (2 * b - 1) (2 * a - 1) ltac:(lra)). lra.
Qed.

Lemma hemi_one_to_one s : one_to_one off_diagonals (hemi s).
Proof.
  intros a b c d H H' E. pose proof (f_equal (fun v : rv => vx v) E) as X. pose proof (f_equal (fun v : rv => vy v) E) as Y. unfold hemi in X, Y.
  destruct (diag_cases a b H) as [(E1 & L1)|(E1 & L1)]; destruct (diag_cases c d H') as [(E2 & L2)|(E2 & L2)]; rewrite E1, E2 in X, Y; unfold lift in X, Y; cbn [vx vy] in X, Y.
  - destruct (wedge_inj _ _ _ _ (proj1 L1) (proj1 L2) X Y). lra.
  - pose proof (wedge_shape _ _ (proj1 L1)) as W1. pose proof (wedge_shape _ _ (proj1 L2)) as W2. rewrite X, Y in W1. lra.
  - pose proof (wedge_shape _ _ (proj1 L1)) as W1. pose proof (wedge_shape _ _ (proj1 L2)) as W2. rewrite X, Y in W1. lra.
  - destruct (wedge_inj _ _ _ _ (proj1 L1) (proj1 L2) Y X). lra.
Qed.

Lemma back_to_square p : Rabs p < 1 -> 0 < (p + 1) / 2 < 1 /\ 2 * ((p + 1) / 2) - 1 = p.
Proof. intros H. apply Rabs_def2 in H. lra. Qed.

Lemma lift_back wo w : vz wo <> 0 -> vdot w w = 1 -> 0 < vz wo * vz w -> lift (side wo) (vx w) (vy w) = w.
Proof.
  intros Hwo U S. unfold lift. apply V3_eq; vproj; auto. replace (1 - vx w * vx w - vy w * vy w) with (Rsqr (vz w)) by (unfold vdot in U; unfold Rsqr; lra).
  rewrite sqrt_Rsqr_abs. unfold side. destruct (Rlt_bool 0 (vz wo)) eqn:E; rb.
  - rewrite Rabs_pos_eq by nra. ring.
  - rewrite Rabs_left by nra. ring.
Qed.

Lemma hemi_onto wo w : vz wo <> 0 -> side_off_diagonals wo w -> exists a b, off_diagonals a b /\ hemi (side wo) a b = w.
Proof.
  intros Hwo (U & S & N). assert (Z : 0 < vz w * vz w) by nra. assert (D : vx w * vx w + vy w * vy w < 1) by (unfold vdot in U; lra).
  destruct (Rlt_le_dec (Rabs (vy w)) (Rabs (vx w))) as [L|L].
  - destruct (wedge_onto (vx w) (vy w) L D) as (p & q & Q1 & Q2 & X & Y). destruct (back_to_square p Q2) as [B1 B2]. destruct (back_to_square q ltac:(lra)) as [B3 B4].
    exists ((p + 1) / 2), ((q + 1) / 2). split.
    + repeat split; try lra; intros C; [assert (p = q) by lra|assert (p = - q) by lra]; subst p; rewrite ?Rabs_Ropp in Q1; lra.
    + unfold hemi, first_wedge. rewrite B2, B4, Rlt_bool_true by lra. rewrite X, Y. now apply lift_back.
  - destruct (wedge_onto (vy w) (vx w) ltac:(lra) ltac:(lra)) as (p & q & Q1 & Q2 & X & Y). destruct (back_to_square p Q2) as [B1 B2]. destruct (back_to_square q ltac:(lra)) as [B3 B4].
    exists ((q + 1) / 2), ((p + 1) / 2). split.
    + repeat split; try lra; intros C; [assert (p = q) by lra|assert (p = - q) by lra]; subst p; rewrite ?Rabs_Ropp in Q1; lra.
    + unfold hemi, first_wedge. rewrite B2, B4, Rlt_bool_false by lra. rewrite X, Y. now apply lift_back.
Qed.

(** the code's concentric map *)
Lemma cosine_hemi a b : off_diagonals a b -> cosine_sample_hemisphere (mkP2 (XFin a) (XFin b)) = fin3 (hemi 1 a b).
Proof.
  intros H. unfold cosine_sample_hemisphere, concentric_sample_disk. cbn [px py]. rewrite x_f0, x_f1, x_f2. xsimp. cbn [xmul xadd xneg xeq xabs xlt px py].
  replace (a * 2 + - (1)) with (2 * a - 1) by ring. replace (b * 2 + - (1)) with (2 * b - 1) by ring.
  set (p := 2 * a - 1). set (q := 2 * b - 1). unfold hemi. fold p q.
  assert (Z : (Req_bool p 0 && Req_bool q 0)%bool = false).
  { destruct (diag_cases a b H) as [(_ & L)|(_ & L)]; fold p q in L; apply andb_false_iff; [left|right]; rb; intros C; rewrite C, Rabs_R0 in L;
      [pose proof (Rabs_pos q)|pose proof (Rabs_pos p)]; lra. }
  rewrite Z. fold (first_wedge a b). pose proof PI_RGT_0 as PP.
  assert (T : forall x y, x * x + y * y < 1 -> xsqrt (fmax (XFin (1 - x * x - y * y)) (XFin 0)) = XFin (sqrt (1 - x * x - y * y))).
  { intros x y U. rewrite x_fmax, Rmax_left by lra. apply xsqrt_fin. lra. }
  change (Rlt_bool (Rabs q) (Rabs p)) with (first_wedge a b).
  destruct (diag_cases a b H) as [(E & L)|(E & L)]; rewrite E; fold p q in L.
  - destruct (wedge_angle p q ltac:(lra)) as [N _]. rewrite (xdiv_fin q p) by auto. rewrite !(xdiv_fin PI) by lra. cbn [xmul xsub xlift px py].
    rewrite (Rmult_comm (cos _)), (Rmult_comm (sin _)). fold (wedge_x p q) (wedge_y p q). unfold fin3, lift. vproj.
    rewrite T by (rewrite wedge_1; apply abs_lt1_sq; lra). rewrite Rmult_1_l. reflexivity.
  - destruct (wedge_angle q p ltac:(lra)) as [N _]. rewrite (xdiv_fin p q) by auto. rewrite !(xdiv_fin PI) by lra. cbn [xmul xsub xlift px py].
    rewrite cos_shift, sin_shift. rewrite (Rmult_comm (cos _)), (Rmult_comm (sin _)). fold (wedge_x q p) (wedge_y q p). unfold fin3, lift. vproj.
    rewrite T by (rewrite Rplus_comm, wedge_1; apply abs_lt1_sq; lra). rewrite Rmult_1_l. reflexivity.
Qed.

(** The directions a matte surface samples are spread over the side of the outgoing direction with exactly the density
    that the component reports, both when sampling and when asked for a direction. *)
Theorem C87_matte_density : forall (r : V3 XR) (wo : rv), vz wo <> 0 ->
  let x := lambertian r in
  exists (f : R -> R -> rv) (g : rv -> R),
    (forall a b, off_diagonals a b -> exists v, bx_sample_f x (fin3 wo) (mkP2 (XFin a) (XFin b)) = (fin3 (f a b), v, XFin (g (f a b)))) /\
    (forall w, 0 < vz wo * vz w -> bx_pdf x (fin3 wo) (fin3 w) = XFin (g w)) /\
    spreads off_diagonals f (side_off_diagonals wo) g.
Proof.
  intros r wo Hwo x. pose proof PI_RGT_0 as PP. exists (hemi (side wo)), (fun w => Rabs (vz w) / PI).
  assert (Pdf : forall w, 0 < vz wo * vz w -> lamb_pdf (fin3 wo) (fin3 w) = XFin (Rabs (vz w) / PI)).
  { intros w S. unfold lamb_pdf. rewrite same_hemisphere_fin, Rlt_bool_true by exact S. unfold abs_cos_theta, fin3. vproj. xsimp. cbn [xabs]. rewrite xdiv_fin by lra. reflexivity. }
  split; [|split; [exact Pdf|]].
  - intros a b H. unfold x. cbn [lambertian bx_sample_f]. unfold lamb_sample. rewrite cosine_hemi by exact H.
    assert (E : (if flt (vz (fin3 wo)) f0 then mkV3 (vx (fin3 (hemi 1 a b))) (vy (fin3 (hemi 1 a b))) (fmul (vz (fin3 (hemi 1 a b))) (fneg f1)) else fin3 (hemi 1 a b)) = fin3 (hemi (side wo) a b)).
    { rewrite x_f0, x_f1. unfold side, fin3 at 1. vproj. xsimp. cbn [xlt]. destruct (Rlt_bool (vz wo) 0) eqn:E; rb.
      - rewrite Rlt_bool_false by lra. unfold fin3. vproj. cbn [xneg xmul]. unfold hemi. destruct (first_wedge a b); unfold lift; vproj; f_equal; f_equal; ring.
      - rewrite Rlt_bool_true by lra. reflexivity. }
    cbv zeta. rewrite E. rewrite Pdf by apply (hemi_target wo a b Hwo H). eexists. reflexivity.
  - split; [|split].
    + intros a b H. split; [now apply hemi_target|]. apply hemi_density; [apply side_sq|exact H].
    + apply hemi_one_to_one.
    + intros w H. now apply hemi_onto.
Qed.
Print Assumptions C87_matte_density.

(** a quarter to the right of the middle: the direction (1/2, 0, sqrt 3 / 2) *)
Example C87_example : off_diagonals (3 / 4) (1 / 2) /\ vx (hemi 1 (3 / 4) (1 / 2)) = 1 / 2 /\ vy (hemi 1 (3 / 4) (1 / 2)) = 0.
Proof.
  split; [unfold off_diagonals; repeat split; lra|]. unfold hemi, first_wedge. replace (2 * (1 / 2) - 1) with 0 by field. replace (2 * (3 / 4) - 1) with (1 / 2) by field.
  rewrite Rabs_R0, Rlt_bool_true by (rewrite Rabs_pos_eq; lra). unfold lift, wedge_x, wedge_y. vproj. replace (PI / 4 * (0 / (1 / 2))) with 0 by field. rewrite cos_0, sin_0. lra.
Qed.
