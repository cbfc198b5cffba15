(** * Lambertian, mirror, refraction, sample warps and weights (C53 - C55, C60, C61) *)
From Coq Require Import ZArith Reals Bool List Lra Lia.
From Flocq Require Import Core.Raux.
From Verif Require Import Model.Num Model.NumX Model.Vector Model.Common Model.Sampling
  Model.Reflection Model.Fresnel Model.BxDFs Spec.RVec Spec.ShadeSpec
  Proofs.XBase Proofs.RVecProofs Proofs.ShadeProofs Proofs.MicroProofs.
Local Open Scope R_scope.

Lemma vdot_add_l a b c : vdot (vadd a b) c = vdot a c + vdot b c.
Proof. unfold vdot, vadd. vproj. ring. Qed.
Lemma vdot_add_r a b c : vdot c (vadd a b) = vdot c a + vdot c b.
Proof. unfold vdot, vadd. vproj. ring. Qed.
Lemma v3mul_fin a b : v3mul (fin3 a) (fin3 b) = fin3 (vmul a b).
Proof. reflexivity. Qed.

(** ** C53 *)

(** The sampled direction is a unit vector on the side of the outgoing direction; away from the
    horizon its pdf is positive and value * cosine / pdf is the albedo. *)
Theorem C53_lambertian : forall (r wo : rv) (a b : R), vz wo <> 0 -> 0 <= a <= 1 -> 0 <= b <= 1 ->
  exists (w f : rv) (p : R),
    bx_sample_f (lambertian (fin3 r)) (fin3 wo) (mkP2 (XFin a) (XFin b)) = (fin3 w, fin3 f, XFin p) /\
    bx_f (lambertian (fin3 r)) (fin3 wo) (fin3 w) = fin3 f /\ bx_pdf (lambertian (fin3 r)) (fin3 wo) (fin3 w) = XFin p /\
    unit_dir w /\ 0 <= vz wo * vz w /\
    (vz w <> 0 -> 0 < vz wo * vz w /\ 0 < p /\ vscale (Rabs (vz w) / p) f = r) /\
    (0 < a < 1 -> 0 < b < 1 -> vz w <> 0).
Proof.
  intros r wo a b Hz Ha Hb. destruct (hemisphere_fin a b Ha Hb) as (w0 & E & U & Z0 & Ez).
  set (w := if Rlt_bool (vz wo) 0 then mkV3 (vx w0) (vy w0) (vz w0 * - (1)) else w0).
  assert (Uw : vdot w w = 1). { unfold w. destruct (Rlt_bool _ _); [|exact U]. transitivity (vdot w0 w0); [|exact U]. unfold vdot. vproj. ring. }
  assert (Aw : Rabs (vz w) = vz w0).
  { unfold w. destruct (Rlt_bool _ _); vproj; [|now apply Rabs_pos_eq]. replace (vz w0 * - (1)) with (- vz w0) by ring. rewrite Rabs_Ropp. now apply Rabs_pos_eq. }
  assert (Sw : vz wo * vz w = Rabs (vz wo) * vz w0).
  { unfold w. destruct (Rlt_bool (vz wo) 0) eqn:L; rb; vproj; [rewrite Rabs_left by lra|rewrite Rabs_pos_eq by lra]; ring. }
  pose proof (Rabs_pos_lt (vz wo) Hz) as Pz. pose proof PI_RGT_0 as PP.
  exists w, (vscale (/ PI) r), (if Rlt_bool 0 (vz wo * vz w) then Rabs (vz w) / PI else 0).
  assert (Ef : lamb_f (fin3 r) (fin3 wo) (fin3 w) = fin3 (vscale (/ PI) r)) by (unfold lamb_f; xsimp; apply v3divs_fin; lra).
  assert (Ep : lamb_pdf (fin3 wo) (fin3 w) = XFin (if Rlt_bool 0 (vz wo * vz w) then Rabs (vz w) / PI else 0)).
  { unfold lamb_pdf. rewrite same_hemisphere_fin. destruct (Rlt_bool 0 _); [|reflexivity]. unfold abs_cos_theta, fin3. vproj. xsimp. cbn [xabs]. apply xdiv_fin. lra. }
  split; [|split; [exact Ef|split; [exact Ep|split]]].
  - cbn [lambertian bx_sample_f]. unfold lamb_sample. rewrite E.
    assert (Ew : (if flt (vz (fin3 wo)) f0 then mkV3 (vx (fin3 w0)) (vy (fin3 w0)) (fmul (vz (fin3 w0)) (fneg f1)) else fin3 w0) = fin3 w).
    { unfold w. change (flt (vz (fin3 wo)) f0) with (Rlt_bool (vz wo) 0). destruct (Rlt_bool (vz wo) 0); reflexivity. }
    rewrite Ew, Ef, Ep. reflexivity.
  - apply vnorm_1_dot. exact Uw.
  - split; [rewrite Sw; nra|]. split.
    + intros H. assert (0 < vz w0). { destruct Z0 as [Z0|Z0]; auto. exfalso. rewrite <- Z0 in Aw. apply Rabs_no_R0 in H. lra. }
      assert (0 < vz wo * vz w) by (rewrite Sw; nra). split; [auto|]. rewrite Rlt_bool_true by auto. rewrite Aw.
      split; [apply Rdiv_lt_0_compat; lra|]. apply V3_eq; unfold vscale; vproj; field; lra.
    + intros Ha' Hb' H. rewrite <- Rabs_R0, <- H, Aw in PP. rewrite H, Rabs_R0 in Aw. rewrite Ez in Aw.
      symmetry in Aw. apply sqrt_eq_0 in Aw.
      * pose proof (max_square a b Ha Hb) as [M0 _].
        assert (M1 : Rmax (Rabs (2 * a - 1)) (Rabs (2 * b - 1)) < 1) by (apply Rmax_lub_lt; apply Rabs_lt; lra). unfold Rsqr in Aw. nra.
      * pose proof (max_square a b Ha Hb). unfold Rsqr. nra.
Qed.
Print Assumptions C53_lambertian.

(** a grazing-free sample seen from below *)
Example C53_example : exists w f p,
  bx_sample_f (lambertian (fin3 (mkV3 (/ 2) 1 0))) (fin3 (mkV3 0 0 (-1))) (mkP2 (XFin (/ 2)) (XFin (/ 4))) = (fin3 w, fin3 f, XFin p) /\
  vz w < 0 /\ 0 < p.
Proof.
  destruct (C53_lambertian (mkV3 (/ 2) 1 0) (mkV3 0 0 (-1)) (/ 2) (/ 4)) as (w & f & p & E & _ & _ & _ & _ & H & N); vproj; try lra.
  specialize (N ltac:(lra) ltac:(lra)). destruct (H N) as (S & P & _). cbn [vz] in S. exists w, f, p. split; [exact E|]. split; lra.
Qed.

(** ** C54 *)

(** A mirror returns the direction with the same elevation and the opposite azimuth; value * cosine / pdf
    is reflectance times Fresnel factor, so never more than the reflectance for a factor in [0,1]. *)
Theorem C54_mirror : forall (r k wo : rv) (fresnel : XR -> V3 XR) (u : P2 XR), vz wo <> 0 -> fresnel (XFin (vz wo)) = fin3 k ->
  exists (w f : rv) (p : R),
    bx_sample_f (specular_reflection (fin3 r) fresnel) (fin3 wo) u = (fin3 w, fin3 f, XFin p) /\
    vz w = vz wo /\ vx w = - vx wo /\ vy w = - vy wo /\ vnorm w = vnorm wo /\
    p = 1 /\ vscale (Rabs (vz w) / p) f = vmul r k /\
    (each (fun x => 0 <= x) r -> each (fun x => 0 <= x <= 1) k -> each2 (fun x y => 0 <= x <= y) (vscale (Rabs (vz w) / p) f) r).
Proof.
  intros r k wo fresnel u Hz Hk. pose proof (Rabs_pos_lt (vz wo) Hz) as P.
  exists (mkV3 (- vx wo) (- vy wo) (vz wo)), (vscale (/ Rabs (vz wo)) (vmul r k)), 1. vproj.
  assert (E : vscale (Rabs (vz wo) / 1) (vscale (/ Rabs (vz wo)) (vmul r k)) = vmul r k) by (apply V3_eq; unfold vscale, vmul; vproj; field; lra).
  split; [|split; [reflexivity|split; [reflexivity|split; [reflexivity|split; [|split; [reflexivity|split; [exact E|]]]]]]].
  - cbn [specular_reflection bx_sample_f]. unfold sr_sample.
    change (mkV3 (fneg (vx (fin3 wo))) (fneg (vy (fin3 wo))) (vz (fin3 wo))) with (fin3 (mkV3 (- vx wo) (- vy wo) (vz wo))).
    change (cos_theta (fin3 (mkV3 (- vx wo) (- vy wo) (vz wo)))) with (XFin (vz wo)). rewrite Hk, v3mul_fin.
    change (abs_cos_theta (fin3 (mkV3 (- vx wo) (- vy wo) (vz wo)))) with (XFin (Rabs (vz wo))). rewrite v3divs_fin by lra. reflexivity.
  - unfold vnorm. f_equal. unfold vdot. vproj. ring.
  - intros (R1 & R2 & R3) (K1 & K2 & K3). rewrite E. unfold each2, vmul. vproj. repeat split; nra.
Qed.
Print Assumptions C54_mirror.

Example C54_example : fresnel_noop (XFin (vz (mkV3 0 (3 / 5) (4 / 5)))) = fin3 (mkV3 1 1 1) /\ vz (mkV3 0 (3 / 5) (4 / 5)) <> 0.
Proof. split; [reflexivity|vproj; lra]. Qed.

(** ** C55 *)

Lemma refract_real (w n : rv) (eta : R) : vdot w w = 1 -> vdot n n = 1 ->
  let c := vdot w n in let q := eta * eta * (1 - c * c) in
  0 <= 1 - c * c /\
  refract (fin3 w) (fin3 n) (XFin eta) =
    if Rle_bool 1 q then None else Some (fin3 (vadd (vscale (- eta) w) (vscale (c * eta - sqrt (1 - q)) n))).
Proof.
  intros Hw Hn c q.
  assert (C : 0 <= 1 - c * c). { pose proof (lagrange w n) as G. rewrite Hw, Hn in G. assert (0 <= vdot (vcross w n) (vcross w n)) by (unfold vdot; nra). unfold c. nra. }
  split; [exact C|]. unfold refract. rewrite v3dot_fin, x_f1, x_f0. fold c. xsimp. cbn [xmul xsub]. rewrite x_fmax. rewrite Rmax_left by lra. cbn [xmul xsub xle].
  fold q. destruct (Rle_bool 1 q) eqn:E; [reflexivity|]. rb. rewrite xsqrt_fin by lra. cbn [xsub].
  rewrite v3neg_fin, !v3scale_fin, v3add_fin. f_equal. f_equal. f_equal. vring.
Qed.

(** Snell's law.  [refract] of a unit vector about a unit normal fails exactly under total internal
    reflection; otherwise it returns a unit vector below the normal, in the plane of incidence, whose
    sine (the cross product with the normal) is the incoming one times eta, turned round.  For a normal
    on the side of the incoming direction the result is on the other side. *)
Theorem C55_snell : forall (w n : rv) (eta : R), unit_dir w -> unit_dir n ->
  (refract (fin3 w) (fin3 n) (XFin eta) = None <-> 1 <= (eta * vnorm (vcross w n)) * (eta * vnorm (vcross w n))) /\
  (forall t, refract (fin3 w) (fin3 n) (XFin eta) = Some t -> exists v, t = fin3 v /\
    unit_dir v /\ vdot v n < 0 /\ (exists x y, v = vadd (vscale x w) (vscale y n)) /\
    vcross v n = vscale (- eta) (vcross w n) /\ (0 < vdot w n -> vdot v n * vdot w n < 0)).
Proof.
  intros w n eta Hw Hn. apply vnorm_1_dot in Hw, Hn. destruct (refract_real w n eta Hw Hn) as [C E].
  set (c := vdot w n) in *. set (q := eta * eta * (1 - c * c)) in *.
  assert (Q : (eta * vnorm (vcross w n)) * (eta * vnorm (vcross w n)) = q).
  { pose proof (lagrange w n) as G. rewrite Hw, Hn in G. fold c in G. pose proof (vnorm_sq (vcross w n)) as S. unfold q.
    replace (eta * vnorm (vcross w n) * (eta * vnorm (vcross w n))) with (eta * eta * (vnorm (vcross w n) * vnorm (vcross w n))) by ring. rewrite S. unfold c in *. f_equal. lra. }
  rewrite Q, E. split; [|intros t Ht].
  - destruct (Rle_bool 1 q) eqn:B; rb; split; intros H; auto; try discriminate; lra.
  - destruct (Rle_bool 1 q) eqn:B; rb; [discriminate|]. set (s := sqrt (1 - q)) in *.
    assert (S : s * s = 1 - q) by (apply sqrt_sqrt; lra). assert (P : 0 < s) by (apply sqrt_lt_R0; lra).
    eexists. split; [injection Ht as <-; reflexivity|].
    assert (Vn : vdot (vadd (vscale (- eta) w) (vscale (c * eta - s) n)) n = - s).
    { rewrite vdot_add_l, !vdot_scale_l. fold c. rewrite Hn. ring. }
    assert (Vw : vdot (vadd (vscale (- eta) w) (vscale (c * eta - s) n)) w = - eta + (c * eta - s) * c).
    { rewrite vdot_add_l, !vdot_scale_l, Hw, (vdot_comm n w). fold c. ring. }
    split; [|split; [|split; [|split]]].
    + apply vnorm_1_dot. rewrite vdot_add_r, !vdot_scale_r, Vn, Vw. unfold q in S.
      replace (- eta * (- eta + (c * eta - s) * c) + (c * eta - s) * - s) with (eta * eta * (1 - c * c) + s * s) by ring. rewrite S. ring.
    + rewrite Vn. lra.
    + eauto.
    + apply V3_eq; unfold vcross, vadd, vscale; vproj; ring.
    + intros H. rewrite Vn. nra.
Qed.
Print Assumptions C55_snell.

(** With the normal on the far side [refract] does not cross the surface: the result and the incoming
    direction are on the same side. *)
Theorem C55_wrong_side_refuted : exists w n eta v, unit_dir w /\ unit_dir n /\ 0 < eta /\
  refract (fin3 w) (fin3 n) (XFin eta) = Some (fin3 v) /\ 0 < vdot v n * vdot w n.
Proof.
  exists (mkV3 0 0 (-1)), (mkV3 0 0 1), 1, (mkV3 0 0 (-1)).
  assert (U1 : vdot (mkV3 0 0 (-1)) (mkV3 0 0 (-1)) = 1) by (unfold vdot; vproj; ring).
  assert (U2 : vdot (mkV3 0 0 1) (mkV3 0 0 1) = 1) by (unfold vdot; vproj; ring).
  split; [now apply vnorm_1_dot|]. split; [now apply vnorm_1_dot|]. split; [lra|].
  destruct (refract_real _ _ 1 U1 U2) as [_ E]. rewrite E.
  assert (D : vdot (mkV3 0 0 (-1)) (mkV3 0 0 1) = -1) by (unfold vdot; vproj; ring). rewrite D.
  replace (1 * 1 * (1 - -1 * -1)) with 0 by ring. rewrite Rle_bool_false by lra. rewrite Rminus_0_r, sqrt_1.
  split; [|lra]. f_equal. f_equal. apply V3_eq; unfold vadd, vscale; vproj; ring.
Qed.

(** The specular transmission component always hands [refract] the normal on the right side: the
    transmitted direction is a unit vector on the other side of the surface, with
    eta_i sin(theta_i) = eta_t sin(theta_t) and the azimuth turned round. *)
Theorem C55_transmission : forall (t wo : rv) (ea eb : R) (u : P2 XR), unit_dir wo -> vz wo <> 0 -> 0 < ea -> 0 < eb ->
  let ei := if Rlt_bool 0 (vz wo) then ea else eb in let et := if Rlt_bool 0 (vz wo) then eb else ea in
  (exists wi f p, bx_sample_f (specular_transmission (fin3 t) (XFin ea) (XFin eb)) (fin3 wo) u = (wi, f, p) /\
    (et <= ei * sqrt (vx wo * vx wo + vy wo * vy wo) -> p = XFin 0) /\
    (ei * sqrt (vx wo * vx wo + vy wo * vy wo) < et -> p = XFin 1 /\ exists w, wi = fin3 w /\ unit_dir w /\ vz w * vz wo < 0 /\
       et * vx w = - ei * vx wo /\ et * vy w = - ei * vy wo)).
Proof.
  intros t wo ea eb u Hw Hz Ha Hb ei et. apply vnorm_1_dot in Hw.
  assert (Pi : 0 < ei) by (unfold ei; destruct (Rlt_bool _ _); lra). assert (Pt : 0 < et) by (unfold et; destruct (Rlt_bool _ _); lra).
  set (n := if Rlt_bool 0 (vz wo) then mkV3 0 0 1 else mkV3 0 0 (-1)).
  assert (Un : vdot n n = 1) by (unfold n; destruct (Rlt_bool _ _); unfold vdot; vproj; ring).
  assert (Cn : vdot wo n = Rabs (vz wo)).
  { unfold n. destruct (Rlt_bool 0 _) eqn:B; rb; unfold vdot; vproj; [rewrite Rabs_pos_eq by lra|rewrite Rabs_left by lra]; ring. }
  cbn [specular_transmission bx_sample_f]. unfold st_sample.
  assert (E1 : (if flt f0 (cos_theta (fin3 wo)) then (XFin ea, XFin eb) else (XFin eb, XFin ea)) = (XFin ei, XFin et)).
  { change (flt f0 (cos_theta (fin3 wo))) with (Rlt_bool 0 (vz wo)). unfold ei, et. now destruct (Rlt_bool _ _). }
  assert (E2 : (if flt f0 (vz (fin3 wo)) then mkV3 f0 f0 f1 else mkV3 f0 f0 (fneg f1)) = fin3 n).
  { change (flt f0 (vz (fin3 wo))) with (Rlt_bool 0 (vz wo)). unfold n. destruct (Rlt_bool _ _); unfold fin3; vproj; [reflexivity|]. rewrite x_f0, x_f1. reflexivity. }
  rewrite E1, E2. unfold fdiv at 1. cbn [XR_FOps]. rewrite (xdiv_fin ei et) by lra.
  destruct (refract_real wo n (ei / et) Hw Un) as [_ R]. rewrite Cn in R. rewrite R.
  set (h := vx wo * vx wo + vy wo * vy wo). assert (Hh : 0 <= h) by (unfold h; nra).
  assert (Eh : 1 - Rabs (vz wo) * Rabs (vz wo) = h).
  { rewrite <- Rabs_mult, Rabs_pos_eq by nra. unfold h. unfold vdot in Hw. lra. }
  rewrite Eh. set (g := ei / et * (ei / et) * h).
  assert (Eg : g = (ei * sqrt h / et) * (ei * sqrt h / et)). { unfold g. rewrite <- (sqrt_sqrt h Hh) at 1. field. lra. }
  assert (Q : 0 <= ei * sqrt h / et). { apply Rmult_le_pos; [|apply Rlt_le, Rinv_0_lt_compat; lra]. pose proof (sqrt_pos h). nra. }
  assert (G : 1 <= g <-> et <= ei * sqrt h).
  { rewrite Eg. assert (K : ei * sqrt h = et * (ei * sqrt h / et)) by (field; lra). rewrite K at 3. set (z := ei * sqrt h / et) in *. clearbody z. split; intros; nra. }
  destruct (Rle_bool 1 g) eqn:B; rb.
  - unfold bx_none. do 3 eexists. split; [reflexivity|]. split; [reflexivity|]. intros. exfalso. apply G in B. lra.
  - set (s := sqrt (1 - g)). assert (S : s * s = 1 - g) by (apply sqrt_sqrt; lra). assert (P : 0 < s) by (apply sqrt_lt_R0; lra).
    do 3 eexists. split; [reflexivity|]. split; [intros H; exfalso; apply G in H; lra|]. intros _. split; [reflexivity|].
    eexists. split; [reflexivity|]. split; [|split; [|split]].
    + apply vnorm_1_dot. rewrite vdot_add_l, !vdot_scale_l, !vdot_add_r, !vdot_scale_r, Hw, Un, (vdot_comm n wo), Cn.
      unfold g in S. rewrite <- Eh in S. set (e := ei / et) in *. clearbody e. nra.
    + unfold vadd, vscale, n. vproj. destruct (Rlt_bool 0 (vz wo)) eqn:Z; rb; vproj; [rewrite (Rabs_pos_eq (vz wo)) by lra|rewrite (Rabs_left (vz wo)) by lra]; set (e := ei / et) in *; nra.
    + unfold vadd, vscale, n. destruct (Rlt_bool 0 (vz wo)); vproj; field; lra.
    + unfold vadd, vscale, n. destruct (Rlt_bool 0 (vz wo)); vproj; field; lra.
Qed.
Print Assumptions C55_transmission.

(** entering glass at an angle with sine 3/5, and leaving it beyond the critical angle *)
Example C55_example : refract (fin3 (mkV3 (3 / 5) 0 (4 / 5))) (fin3 (mkV3 0 0 1)) (XFin 2) = None /\
  exists v, refract (fin3 (mkV3 (3 / 5) 0 (4 / 5))) (fin3 (mkV3 0 0 1)) (XFin (/ 2)) = Some (fin3 v) /\ vx v = - (3 / 10) /\ vz v < 0.
Proof.
  assert (U1 : vdot (mkV3 (3 / 5) 0 (4 / 5)) (mkV3 (3 / 5) 0 (4 / 5)) = 1) by (unfold vdot; vproj; field).
  assert (U2 : vdot (mkV3 0 0 1) (mkV3 0 0 1) = 1) by (unfold vdot; vproj; ring).
  assert (D : vdot (mkV3 (3 / 5) 0 (4 / 5)) (mkV3 0 0 1) = 4 / 5) by (unfold vdot; vproj; field).
  split.
  - destruct (refract_real _ _ 2 U1 U2) as [_ E]. rewrite E, D. rewrite Rle_bool_true by lra. reflexivity.
  - destruct (refract_real _ _ (/ 2) U1 U2) as [_ E]. rewrite E, D. rewrite Rle_bool_false by lra. eexists. split; [reflexivity|].
    unfold vadd, vscale. vproj. split; [field|]. pose proof (sqrt_lt_R0 (1 - / 2 * / 2 * (1 - 4 / 5 * (4 / 5))) ltac:(lra)). lra.
Qed.

(** ** C60 *)

Theorem C60_weights : forall (n1 n2 : Z) (p1 p2 : R), (1 <= n1)%Z -> (1 <= n2)%Z -> 0 <= p1 -> 0 <= p2 -> 0 < p1 \/ 0 < p2 ->
  exists w1 w2, power_heuristic n1 (XFin p1) n2 (XFin p2) = XFin w1 /\ power_heuristic n2 (XFin p2) n1 (XFin p1) = XFin w2 /\
    0 <= w1 <= 1 /\ 0 <= w2 <= 1 /\ w1 + w2 = 1 /\
    w1 * ((IZR n2 * p2) * (IZR n2 * p2)) = w2 * ((IZR n1 * p1) * (IZR n1 * p1)).
Proof.
  intros n1 n2 p1 p2 N1 N2 H1 H2 H. apply IZR_le in N1, N2. set (f := p1 * IZR n1). set (g := p2 * IZR n2).
  assert (F : 0 <= f) by (unfold f; nra). assert (G : 0 <= g) by (unfold g; nra).
  assert (D : 0 < f * f + g * g). { destruct H; [assert (0 < f) by (unfold f; nra)|assert (0 < g) by (unfold g; nra)]; nra. }
  exists (f * f / (f * f + g * g)), (g * g / (g * g + f * f)).
  unfold power_heuristic. xsimp. cbn [xmul xadd]. fold f. fold g. rewrite !xdiv_fin by lra.
  split; [reflexivity|]. split; [reflexivity|].
  assert (R1 : forall a b, 0 <= a -> 0 <= b -> 0 < a + b -> 0 <= a / (a + b) <= 1).
  { intros a b A B P. split; [apply Rmult_le_pos; [auto|apply Rlt_le, Rinv_0_lt_compat; lra]|]. apply Rmult_le_reg_r with (a + b); [lra|]. unfold Rdiv. rewrite Rmult_assoc, Rinv_l; lra. }
  split; [apply R1; nra|]. split; [apply R1; nra|]. split; [field; lra|].
  replace (IZR n2 * p2) with g by (unfold g; ring). replace (IZR n1 * p1) with f by (unfold f; ring). field. lra.
Qed.
Print Assumptions C60_weights.

Example C60_example : power_heuristic 1 (XFin 3) 1 (XFin 1) = XFin (9 / 10).
Proof. unfold power_heuristic. xsimp. cbn [xmul xadd]. rewrite xdiv_fin by lra. f_equal. lra. Qed.

(** ** C61 *)

Theorem C61_disk : forall a b, 0 <= a <= 1 -> 0 <= b <= 1 ->
  exists x y, concentric_sample_disk (mkP2 (XFin a) (XFin b)) = mkP2 (XFin x) (XFin y) /\ x * x + y * y <= 1 /\
    sqrt (x * x + y * y) = Rmax (Rabs (2 * a - 1)) (Rabs (2 * b - 1)).
Proof.
  intros a b Ha Hb. destruct (disk_fin a b Ha Hb) as (x & y & E & S). pose proof (max_square a b Ha Hb) as M.
  exists x, y. split; [exact E|]. rewrite S. split; [unfold Rsqr; nra|]. apply sqrt_Rsqr. lra.
Qed.

Theorem C61_hemisphere : forall a b, 0 <= a <= 1 -> 0 <= b <= 1 ->
  exists w, cosine_sample_hemisphere (mkP2 (XFin a) (XFin b)) = fin3 w /\ unit_dir w /\ 0 <= vz w /\
    concentric_sample_disk (mkP2 (XFin a) (XFin b)) = mkP2 (XFin (vx w)) (XFin (vy w)).
Proof.
  intros a b Ha Hb. destruct (hemisphere_fin a b Ha Hb) as (w & E & U & Z & _). exists w.
  split; [exact E|]. split; [now apply vnorm_1_dot|]. split; [exact Z|].
  unfold cosine_sample_hemisphere in E. destruct (concentric_sample_disk _) as [x y]. unfold fin3 in E. injection E as -> -> _. reflexivity.
Qed.
Print Assumptions C61_disk.
Print Assumptions C61_hemisphere.

Example C61_example : concentric_sample_disk (mkP2 (XFin 1) (XFin (/ 2))) = mkP2 (XFin 1) (XFin 0).
Proof.
  unfold concentric_sample_disk. cbn [px py]. rewrite x_f0, x_f1, x_f2. xsimp. cbn [xmul xadd xneg xeq xabs xlt px py].
  rewrite Req_bool_false by lra. cbn [andb]. replace (/ 2 * 2 + - (1)) with 0 by lra. replace (1 * 2 + - (1)) with 1 by lra.
  rewrite Rabs_R0, Rabs_R1, Rlt_bool_true by lra. rewrite !xdiv_fin by lra. cbn [xmul xlift].
  replace (PI / 4 * (0 / 1)) with 0 by field. rewrite cos_0, sin_0. f_equal; f_equal; ring.
Qed.
