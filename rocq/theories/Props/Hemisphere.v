(** * C106: what a matt surface scatters is an integral over the directions above it *)
From Coq Require Import ZArith Reals List Bool Lia Lra Psatz.
From Flocq Require Import Core.
From Verif Require Import Model.Num Model.NumX Model.Vector Model.Common Model.BBox Model.Interaction Model.Shape Model.Container Model.Sampler
  Model.Sampling Model.Reflection Model.Fresnel Model.Microfacet Model.BxDFs Model.Texture Model.Material Model.Light Model.Scene Model.Path.
From Verif Require Import Spec.RVec Spec.SamplerSpec Spec.ShadeSpec Spec.RadianceSpec Spec.EstimatorSpec Spec.MeanSpec Spec.HemisphereSpec.
From Verif Require Import Proofs.XBase Proofs.RVecProofs Proofs.ShadeProofs Proofs.MicroProofs Proofs.MatProofs Proofs.MeanProofs.
From Verif Require Proofs.Calculus Proofs.DiskIntegral.
From Verif Require Import Proofs.HemisphereProofs.
From Verif Require Import Props.Frames Props.Shading2 Props.Radiance Props.Radiance2 Props.Estimator Props.Shading3 Props.Estimator2 Props.Roulette Props.Transport.
Import ListNotations.
Local Open Scope R_scope.

(** ** The points of the disk *)
Definition mx (x y : R) : R := if Rlt_dec (Rabs y) (Rabs x) then DiskIntegral.cx x y else DiskIntegral.cy y x.
Definition my (x y : R) : R := if Rlt_dec (Rabs y) (Rabs x) then DiskIntegral.cy x y else DiskIntegral.cx y x.
Lemma sq_at g x y : DiskIntegral.sq g x y = g (mx x y) (my x y).
Proof. unfold DiskIntegral.sq, DiskIntegral.k1, DiskIntegral.k2, mx, my. destruct (Rlt_dec _ _); reflexivity. Qed.

Lemma c_1 x y : DiskIntegral.cx x y * DiskIntegral.cx x y + DiskIntegral.cy x y * DiskIntegral.cy x y = x * x.
Proof.
  unfold DiskIntegral.cx, DiskIntegral.cy. pose proof (sin2_cos2 (PI / 4 * (y / x))) as Q. unfold Rsqr in Q.
  set (c := cos _) in *. set (s := sin _) in *. transitivity (x * x * (s * s + c * c)); [ring|rewrite Q; ring].
Qed.
Lemma m_inside x y : -1 < x < 1 -> -1 < y < 1 -> mx x y * mx x y + my x y * my x y < 1.
Proof.
  intros X Y. unfold mx, my. destruct (Rlt_dec _ _); [pose proof (c_1 x y)|pose proof (c_1 y x)]; nra.
Qed.

Lemma disk_exact a b : 0 < a < 1 -> 0 < b < 1 ->
  concentric_sample_disk (mkP2 (XFin a) (XFin b)) = mkP2 (XFin (mx (2 * a - 1) (2 * b - 1))) (XFin (my (2 * a - 1) (2 * b - 1))).
Proof.
  intros Ha Hb. unfold concentric_sample_disk. cbn [px py]. rewrite x_f0, x_f1, x_f2. xsimp. cbn [xmul xadd xneg xeq xabs xlt px py].
  replace (2 * a - 1) with (a * 2 + - (1)) by ring. replace (2 * b - 1) with (b * 2 + - (1)) by ring.
  set (p := a * 2 + - (1)). set (q := b * 2 + - (1)). unfold mx, my, DiskIntegral.cx, DiskIntegral.cy.
  destruct (Req_bool p 0 && Req_bool q 0) eqn:E0.
  - apply andb_true_iff in E0. destruct E0 as [P Q]. rb. rewrite P, Q. destruct (Rlt_dec _ _) as [L|_]; [lra|]. rewrite !Rmult_0_l. reflexivity.
  - destruct (Rlt_bool (Rabs q) (Rabs p)) eqn:L; rb; destruct (Rlt_dec (Rabs q) (Rabs p)) as [L'|L']; try lra.
    + assert (p <> 0) by (intros Z; rewrite Z, Rabs_R0 in L; pose proof (Rabs_pos q); lra).
      rewrite (xdiv_fin q p) by auto. rewrite !(xdiv_fin PI) by lra. cbn [xmul xsub xlift]. rewrite (Rmult_comm (cos _)), (Rmult_comm (sin _)). reflexivity.
    + assert (q <> 0).
      { intros Z. rewrite Z, Rabs_R0 in L. assert (P : p = 0) by (destruct (Req_dec p 0) as [?|N]; [assumption|pose proof (Rabs_pos_lt p N); lra]).
        rewrite P, Z, !Req_bool_true in E0 by reflexivity. discriminate. }
      rewrite (xdiv_fin p q) by auto. rewrite !(xdiv_fin PI) by lra. cbn [xmul xsub xlift].
      rewrite cos_shift, sin_shift, (Rmult_comm (cos _)), (Rmult_comm (sin _)). reflexivity.
Qed.

Lemma hemisphere_exact a b : 0 < a < 1 -> 0 < b < 1 -> let x := mx (2 * a - 1) (2 * b - 1) in let y := my (2 * a - 1) (2 * b - 1) in
  cosine_sample_hemisphere (mkP2 (XFin a) (XFin b)) = fin3 (mkV3 x y (sqrt (1 - x * x - y * y))).
Proof.
  intros Ha Hb x y. unfold cosine_sample_hemisphere. rewrite disk_exact by assumption. fold x y. rewrite x_f1, x_f0. xsimp. cbn [xmul xsub]. rewrite x_fmax.
  assert (P : x * x + y * y < 1) by (apply m_inside; lra). rewrite Rmax_left, xsqrt_fin by lra. reflexivity.
Qed.

(** ** The hemisphere *)
Lemma channel u L : continuous_above u L -> forall f : rv -> R, (forall p q, Rabs (f q - f p) <= vdist p q) ->
  forall p eps, above u p -> 0 < eps -> exists delta, 0 < delta /\ forall q, above u q -> vdist p q < delta -> Rabs (f (L q) - f (L p)) < eps.
Proof.
  intros C f F p eps P E. destruct (C p eps P E) as (d & D & H). exists d. split; [exact D|]. intros q Q N. eapply Rle_lt_trans; [apply F|]. now apply H.
Qed.
Lemma near_xyz (p q : rv) : Rabs (vx q - vx p) <= vdist p q /\ Rabs (vy q - vy p) <= vdist p q /\ Rabs (vz q - vz p) <= vdist p q.
Proof. rewrite vdist_sym. apply (abs_le_norm (vsub q p)). Qed.

Definition ways (s t u : rv) (a b : R) : rv := over s t u (mx (2 * a - 1) (2 * b - 1)) (my (2 * a - 1) (2 * b - 1)).

Theorem hemisphere_average s t u L : orthonormal s t u -> continuous_above u L ->
  exists x, over_hemisphere s t u (fun w => vscale (vdot w u / PI) (L w)) x /\ average2 (fun a b => L (ways s t u a b)) x.
Proof.
  intros O C. set (hx := fun w => vx (L w)). set (hy := fun w => vy (L w)). set (hz := fun w => vz (L w)).
  pose proof (channel u L C (fun v => vx v) (fun p q => proj1 (near_xyz p q))) as Cx.
  pose proof (channel u L C (fun v => vy v) (fun p q => proj1 (proj2 (near_xyz p q)))) as Cy.
  pose proof (channel u L C (fun v => vz v) (fun p q => proj2 (proj2 (near_xyz p q)))) as Cz.
  exists (mkV3 (whole s t u hx) (whole s t u hy) (whole s t u hz)). split.
  - exists (fun th => vscale (cos th * / PI) (mkV3 (DiskIntegral.turn (hp s t u hx) (sin th)) (DiskIntegral.turn (hp s t u hy) (sin th)) (DiskIntegral.turn (hp s t u hz) (sin th)))).
    assert (Dt : forall th ph, vdot (towards s t u th ph) u = cos th).
    { destruct O as (_ & _ & U & _ & SU & TU). intros th ph.
      transitivity (sin th * cos ph * vdot s u + sin th * sin ph * vdot t u + cos th * vdot u u); [unfold vdot, towards, vadd, vscale; vproj; ring|]. rewrite U, SU, TU. ring. }
    split.
    + intros th H. unfold vintegral. unfold vscale. vproj. repeat split;
        [pose proof (sphere_inner s t u O hx Cx th H) as Q|pose proof (sphere_inner s t u O hy Cy th H) as Q|pose proof (sphere_inner s t u O hz Cz th H) as Q];
        (eapply integral_ext; [| |exact Q]; [pose proof PI_RGT_0; lra|intros ph _; cbv beta; rewrite Dt; reflexivity]).
    + unfold vintegral. unfold vscale. vproj. split; [|split].
      * exact (sphere_outer s t u O hx Cx). * exact (sphere_outer s t u O hy Cy). * exact (sphere_outer s t u O hz Cz).
  - exists (fun a => vscale (/ 2) (mkV3 (DiskIntegral.line (hp s t u hx) (2 * a - 1)) (DiskIntegral.line (hp s t u hy) (2 * a - 1)) (DiskIntegral.line (hp s t u hz) (2 * a - 1)))).
    split.
    + intros a A. unfold average. unfold vscale. vproj. repeat split;
        [pose proof (square_inner s t u O hx Cx a A) as Q|pose proof (square_inner s t u O hy Cy a A) as Q|pose proof (square_inner s t u O hz Cz a A) as Q];
        (eapply integral_ext; [| |exact Q]; [lra|intros b _; cbv beta; rewrite sq_at; reflexivity]).
    + unfold average. unfold vscale. vproj. split; [|split].
      * exact (square_outer s t u O hx Cx). * exact (square_outer s t u O hy Cy). * exact (square_outer s t u O hz Cz).
Qed.

(** ** A matt surface *)
(** the side of the surface with normal [n] from which [wo] looks *)
Definition facing (n wo : rv) : rv := if Rlt_bool (vdot wo n) 0 then vscale (-1) n else n.

Lemma frame_orthonormal n du wo : du <> v0 -> vnorm n = 1 -> vdot n du = 0 -> orthonormal (vunit du) (vcross n (vunit du)) (facing n wo).
Proof.
  intros D0 Nn Pd. apply vnorm_1_dot in Nn. assert (U : vdot (vunit du) (vunit du) = 1) by (apply vnorm_1_dot; now apply vnorm_unit).
  assert (S : vdot (vunit du) n = 0) by (unfold vunit; transitivity (/ vnorm du * vdot n du); [unfold vdot, vscale; vproj; ring|rewrite Pd; ring]).
  assert (TT : vdot (vcross n (vunit du)) (vcross n (vunit du)) = 1).
  { pose proof (lagrange n (vunit du)) as G. rewrite Nn, U, (vdot_comm n (vunit du)), S in G. lra. }
  assert (K : facing n wo = vscale 1 n \/ facing n wo = vscale (-1) n).
  { unfold facing. destruct (Rlt_bool _ _); [now right|left]. apply V3_eq; unfold vscale; vproj; ring. }
  assert (Q1 : vdot (vunit du) (vcross n (vunit du)) = 0) by (unfold vdot, vcross; vproj; ring).
  assert (Q2 : forall k, vdot (vcross n (vunit du)) (vscale k n) = 0) by (intros; unfold vdot, vcross, vscale; vproj; ring).
  assert (Q3 : forall k, vdot (vunit du) (vscale k n) = 0) by (intros k; transitivity (k * vdot (vunit du) n); [unfold vdot, vscale; vproj; ring|rewrite S; ring]).
  assert (Q4 : forall k, vdot (vscale k n) (vscale k n) = k * k * 1) by (intros k; rewrite <- Nn; unfold vdot, vscale; vproj; ring).
  unfold orthonormal. rewrite U, TT, Q1. destruct K as [-> | ->]; rewrite Q2, Q3, Q4; repeat split; ring.
Qed.

Lemma matte_way T (i : interaction XR T) n du wo k a b kd :
  i_sn i = fin3 n -> i_dpdu i = fin3 du -> du <> v0 -> vnorm n = 1 -> vdot n du = 0 -> vdot wo n <> 0 -> 0 < a < 1 -> 0 < b < 1 ->
  kd i = Ok (fin3 k) -> each (fun x => 0 <= x) k -> k <> v0 ->
  let B := bsdf_add (bsdf_new i) (lambertian (fin3 k)) in let w := ways (vunit du) (vcross n (vunit du)) (facing n wo) a b in
  mat_lambertian kd i = Ok B /\ exists f p, bsdf_sample_f B (fin3 wo) (mkP2 (XFin a) (XFin b)) = Ok (fin3 w, fin3 f, XFin p, Z.lor REFLECTION DIFFUSE) /\
    0 < p /\ f = vscale (/ PI) k /\ vscale (Rabs (vdot w n) / p) f = k.
Proof.
  intros En Ed D0 Nn Pd Hw Ha Hb Ek Kn K0 B w.
  destruct (C53_lambertian k (coords n du wo) a b) as (w0 & f & p & Es & Ef & Ep & _ & Sg & H1 & H2); [exact Hw|lra|lra|].
  destruct (single_sample i n du wo (lambertian (fin3 k)) a b w0 f p En Ed D0 Nn Pd Hw ltac:(lra) Es) as (w' & E & Wz & Ew).
  destruct (H1 (H2 Ha Hb)) as (_ & P & Wk). rewrite Req_bool_false in E by lra.
  assert (Ew0 : w0 = mkV3 (mx (2 * a - 1) (2 * b - 1)) (my (2 * a - 1) (2 * b - 1))
    ((if Rlt_bool (vdot wo n) 0 then -1 else 1) * sqrt (1 - mx (2 * a - 1) (2 * b - 1) * mx (2 * a - 1) (2 * b - 1) - my (2 * a - 1) (2 * b - 1) * my (2 * a - 1) (2 * b - 1)))).
  { cbn [lambertian bx_sample_f] in Es. unfold lamb_sample in Es. rewrite (hemisphere_exact a b Ha Hb) in Es. set (x := mx _ _) in *. set (y := my _ _) in *.
    change (vz (fin3 (coords n du wo))) with (XFin (vdot wo n)) in Es. rewrite x_f0, x_f1 in Es. change (flt (XFin (vdot wo n)) (XFin 0)) with (Rlt_bool (vdot wo n) 0) in Es.
    assert (Ev := f_equal (fun t => fst (fst t)) Es). cbn [fst] in Ev. destruct (Rlt_bool (vdot wo n) 0).
    - unfold fin3 in Ev. cbn [vx vy vz] in Ev. unfold fmul, fneg in Ev. cbn in Ev. injection Ev as E1 E2 E3. destruct w0 as [x0 y0 z0]. cbn [vx vy vz] in *.
      rewrite <- E1, <- E2, <- E3. f_equal. ring.
    - apply fin3_inj in Ev. rewrite <- Ev. f_equal. ring. }
  assert (EW : w' = w).
  { rewrite Ew, Ew0. unfold w, ways. rewrite over_disk by (apply Rlt_le, m_inside; lra). vproj. set (z := sqrt _). unfold facing.
    destruct (Rlt_bool _ _); apply V3_eq; unfold vadd, vscale; vproj; ring. }
  rewrite <- EW. split.
  - unfold mat_lambertian. rewrite (tex_clamped_nn kd i k Ek Kn). cbn [rbind]. now rewrite not_black.
  - exists f, p. split; [exact E|]. split; [exact P|]. split; [|rewrite Wz; exact Wk].
    cbn [lambertian bx_f] in Ef. unfold lamb_f in Ef. change (@fpi XR _) with (XFin PI) in Ef. rewrite (v3divs_fin k PI) in Ef by (pose proof PI_RGT_0; lra). apply fin3_inj in Ef. rewrite <- Ef.
    apply V3_eq; unfold vscale; vproj; pose proof PI_RGT_0; field; lra.
Qed.

Lemma facing_cos n wo w : vdot wo n <> 0 -> above (facing n wo) w -> Rabs (vdot w n) = vdot w (facing n wo).
Proof.
  intros H (_ & P). unfold facing in *. destruct (Rlt_bool (vdot wo n) 0).
  - assert (E : vdot w (vscale (-1) n) = - vdot w n) by (unfold vdot, vscale; vproj; ring). rewrite E in *. rewrite Rabs_left1 by lra. reflexivity.
  - now apply Rabs_pos_eq.
Qed.

Lemma continuous_prod u k L : continuous_above u L -> continuous_above u (fun w => vprod k (L w)).
Proof.
  intros C p eps P E. set (m := Rabs (vx k) + Rabs (vy k) + Rabs (vz k) + 1).
  pose proof (Rabs_pos (vx k)). pose proof (Rabs_pos (vy k)). pose proof (Rabs_pos (vz k)). assert (M : 0 < m) by (unfold m; lra).
  destruct (C p (eps / m) P ltac:(now apply Rdiv_lt_0_compat)) as (d & D & H2). exists d. split; [exact D|]. intros q Q N. specialize (H2 q Q N).
  apply Rmult_lt_compat_r with (r := m) in H2; [|exact M]. replace (eps / m * m) with eps in H2 by (field; lra).
  eapply Rle_lt_trans; [|exact H2]. unfold vdist. eapply Rle_trans; [apply norm_le_abs|].
  destruct (abs_le_norm (vsub (L p) (L q))) as (A1 & A2 & A3). set (v := vnorm _) in *. unfold vsub, vprod in *. vproj.
  replace (vx k * vx (L p) - vx k * vx (L q)) with (vx k * (vx (L p) - vx (L q))) by ring.
  replace (vy k * vy (L p) - vy k * vy (L q)) with (vy k * (vy (L p) - vy (L q))) by ring.
  replace (vz k * vz (L p) - vz k * vz (L q)) with (vz k * (vz (L p) - vz (L q))) by ring. rewrite !Rabs_mult. revert A1 A2 A3. vproj. intros A1 A2 A3.
  assert (0 <= v) by (apply sqrt_pos). unfold m. nra.
Qed.

(** Let light [L] come to a matt surface of reflectance [k] from the directions above it.  On average over the sampled directions,
    value * cosine / density * light is the integral over the solid angle of  k / pi * light * cosine. *)
Theorem C106_matte : forall (T : Type) (i : interaction XR T) (n du wo k : rv) kd (L : rv -> rv),
  i_sn i = fin3 n -> i_dpdu i = fin3 du -> du <> v0 -> vnorm n = 1 -> vdot n du = 0 -> vdot wo n <> 0 ->
  kd i = Ok (fin3 k) -> each (fun x => 0 <= x) k -> k <> v0 -> continuous_above (facing n wo) L ->
  exists B g x, mat_lambertian kd i = Ok B /\ average2 g x /\
    over_hemisphere (vunit du) (vcross n (vunit du)) (facing n wo) (fun w => vscale (Rabs (vdot w n)) (vprod (vscale (/ PI) k) (L w))) x /\
    forall a b, 0 < a < 1 -> 0 < b < 1 -> exists w f p flag, bsdf_sample_f B (fin3 wo) (mkP2 (XFin a) (XFin b)) = Ok (fin3 w, fin3 f, XFin p, flag) /\
      0 < p /\ g a b = vscale (Rabs (vdot w n) / p) (vprod f (L w)).
Proof.
  intros T i n du wo k kd L En Ed D0 Nn Pd Hw Ek Kn K0 C. set (s := vunit du). set (t := vcross n s). set (u := facing n wo).
  assert (O : orthonormal s t u) by now apply frame_orthonormal.
  destruct (hemisphere_average s t u (fun w => vprod k (L w)) O (continuous_prod u k L C)) as (x & H & A).
  exists (bsdf_add (bsdf_new i) (lambertian (fin3 k))), (fun a b => vprod k (L (ways s t u a b))), x.
  split; [exact (proj1 (matte_way T i n du wo k (1 / 2) (1 / 2) kd En Ed D0 Nn Pd Hw ltac:(lra) ltac:(lra) Ek Kn K0))|]. split; [exact A|]. split.
  - destruct H as (inner & H1 & H2). exists inner. split; [|exact H2]. intros th Hth. specialize (H1 th Hth). pose proof PI_RGT_0.
    assert (P : forall ph, vscale (Rabs (vdot (towards s t u th ph) n)) (vprod (vscale (/ PI) k) (L (towards s t u th ph))) =
      vscale (vdot (towards s t u th ph) u / PI) (vprod k (L (towards s t u th ph)))).
    { intros ph. assert (Q : above u (towards s t u th ph)) by (rewrite <- (towards_over s t u th ph ltac:(lra)); now apply over_above).
      set (w := towards s t u th ph) in *. rewrite (facing_cos n wo w Hw Q). fold u.
      apply V3_eq; unfold vscale, vprod; vproj; field; lra. }
    destruct H1 as (X & Y & Z). repeat split; (eapply integral_ext; [lra| |]); try eassumption; intros ph _; cbv beta; rewrite P; reflexivity.
  - intros a b Ha Hb. destruct (matte_way T i n du wo k a b kd En Ed D0 Nn Pd Hw Ha Hb Ek Kn K0) as (_ & f & p & E & P & _ & W).
    exists (ways s t u a b), f, p, (Z.lor REFLECTION DIFFUSE). split; [exact E|]. split; [exact P|].
    change (vscale (Rabs (vdot (ways s t u a b) n) / p) f = k) in W. set (w := ways s t u a b) in *. rewrite <- W at 1. apply V3_eq; unfold vscale, vprod; vproj; ring.
Qed.
Print Assumptions C106_matte.

(** Put into the transport equation of C105: above a matt surface, the light scattered in one more bounce is that of the lights
    and the integral, over the directions above, of  k / pi * (light scattered before) * cosine. *)
Theorem C106_rendering_equation : forall (T : Type) (teq : T -> T -> bool) (surf : T -> surface XR T) (sc : scene XR T (container XR T)) m
    (r : ray XR) (i : interaction XR T) t e (n du wo k : rv) kd ds (X : rv -> rv),
  sees surf sc r i e -> i_shape i = Some t -> sf_scatter (surf t) i = mat_lambertian kd i ->
  i_sn i = fin3 n -> i_dpdu i = fin3 du -> i_wo i = fin3 wo -> du <> v0 -> vnorm n = 1 -> vdot n du = 0 -> vdot wo n <> 0 ->
  kd i = Ok (fin3 k) -> each (fun x => 0 <= x) k -> k <> v0 ->
  (forall B, mat_lambertian kd i = Ok B -> Forall2 (light_gives teq surf sc i B) (sc_lights sc) ds) ->
  continuous_above (facing n wo) X ->
  (forall w, above (facing n wo) w -> 0 < vdot w (facing n wo) -> exists e', brings teq surf sc m (spawn_ray i (fin3 w)) e' (X w)) ->
  exists x, over_hemisphere (vunit du) (vcross n (vunit du)) (facing n wo) (fun w => vscale (Rabs (vdot w n)) (vprod (vscale (/ PI) k) (X w))) x /\
    brings teq surf sc (S m) r e (vadd (vtotal ds) x).
Proof.
  intros T teq surf sc m r i tt e n du wo k kd ds X Se Es Em En Ed Ew D0 Nn Pd Hw Ek Kn K0 Hl C Hb.
  set (s := vunit du). set (t := vcross n s). set (u := facing n wo).
  assert (O : orthonormal s t u) by now apply frame_orthonormal.
  destruct (C106_matte T i n du wo k kd X En Ed D0 Nn Pd Hw Ek Kn K0 C) as (B & g & x & Eb & A & H & Hg). exists x. split; [exact H|].
  right. exists i. split; [exact Se|]. exists B, ds, g, x. split; [exists tt; rewrite Em; auto|]. split; [reflexivity|]. split; [now apply Hl|]. split; [exact A|].
  intros a b Ha Hbb. destruct (Hg a b Ha Hbb) as (w0 & f0' & p0 & fl0 & E0 & P0 & G0).
  destruct (matte_way T i n du wo k a b kd En Ed D0 Nn Pd Hw Ha Hbb Ek Kn K0) as (Eb' & f & p & E & P & Ef & W). fold s t u in E, W.
  assert (B = bsdf_add (bsdf_new i) (lambertian (fin3 k))) by congruence. subst B. fold s in E. fold t in E. fold u in E.
  rewrite E0 in E. set (w := ways s t u a b) in *.
  assert (E' : (fin3 w0, fin3 f0', XFin p0, fl0) = (fin3 w, fin3 f, XFin p, Z.lor REFLECTION DIFFUSE)) by congruence. clear E.
  pose proof (fin3_inj _ _ (f_equal (fun q => fst (fst (fst q))) E')) as Q1. pose proof (fin3_inj _ _ (f_equal (fun q => snd (fst (fst q))) E')) as Q2.
  pose proof (f_equal (fun q => snd (fst q)) E') as Q3. pose proof (f_equal snd E') as Q4. cbn [fst snd] in Q3, Q4. injection Q3 as Q3. subst w0 f0' p0 fl0.
  assert (Aw : above u w) by now apply over_above. pose proof (facing_cos n wo w Hw Aw) as Fc. fold u in Fc.
  assert (Pw : 0 < vdot w u).
  { destruct (proj2 Aw) as [?|Z]; [assumption|]. exfalso. apply K0. rewrite <- W, Fc, <- Z. apply V3_eq; unfold vscale, v0; vproj; field; lra. }
  destruct (Hb w Aw Pw) as (e' & Br). exists (fin3 w), (fin3 f), (XFin p), (Z.lor REFLECTION DIFFUSE). split; [rewrite Ew; exact E0|]. right.
  exists k, e', (X w). assert (Nf : f <> v0).
  { intros Z. apply K0. rewrite <- W, Z. apply V3_eq; unfold vscale, v0; vproj; ring. }
  split; [now apply not_black|]. split; [exists n, w, f, p; rewrite En, W; auto 10|]. split; [exact Kn|]. split; [exact Br|].
  rewrite G0. change (Z.land (Z.lor REFLECTION DIFFUSE) SPECULAR =? 0)%Z with true. cbv iota.
  rewrite <- W at 1. apply V3_eq; unfold vscale, vprod; vproj; ring.
Qed.
Print Assumptions C106_rendering_equation.

(** ** Light with edges *)
Definition vle (a b : rv) : Prop := vx a <= vx b /\ vy a <= vy b /\ vz a <= vz b.
Lemma vle_antisym a b : vle a b -> vle b a -> a = b.
Proof. intros (A1 & A2 & A3) (B1 & B2 & B3). apply V3_eq; lra. Qed.
Lemma vintegral_le f g a b x y : a <= b -> (forall t, a < t < b -> vle (f t) (g t)) -> vintegral f a b x -> vintegral g a b y -> vle x y.
Proof.
  intros Hab H (X1 & X2 & X3) (Y1 & Y2 & Y3).
  repeat split; eapply integral_le; eauto; intros t Ht; cbv beta; apply (H t Ht).
Qed.
Lemma average2_le f g x y : (forall a b, 0 < a < 1 -> 0 < b < 1 -> vle (f a b) (g a b)) -> average2 f x -> average2 g y -> vle x y.
Proof.
  intros H (F & F1 & F2) (G & G1 & G2). apply (vintegral_le F G 0 1); [lra| |exact F2|exact G2].
  intros a Ha. apply (vintegral_le (f a) (g a) 0 1); [lra| |exact (F1 a Ha)|exact (G1 a Ha)]. intros b Hb. auto.
Qed.
Lemma hemisphere_le s t u f g x y : orthonormal s t u -> (forall w, above u w -> vle (f w) (g w)) -> over_hemisphere s t u f x -> over_hemisphere s t u g y -> vle x y.
Proof.
  intros O H (F & F1 & F2) (G & G1 & G2). pose proof PI_RGT_0. eapply (vintegral_le _ _ 0 (PI / 2)); [lra| |exact F2|exact G2].
  intros th Ht. cbv beta. assert (V : vle (F th) (G th)).
  { apply (vintegral_le (fun ph => f (towards s t u th ph)) (fun ph => g (towards s t u th ph)) 0 (2 * PI)); [lra| |exact (F1 th Ht)|exact (G1 th Ht)].
    intros ph _. apply H. rewrite <- (towards_over s t u th ph) by lra. now apply over_above. }
  assert (0 < sin th) by (apply sin_gt_0; lra). destruct V as (V1 & V2 & V3). unfold vle, vscale. vproj. nra.
Qed.

(** The same for light with edges.  Where both sides exist, they are equal, for any light that lies between continuous ones
    that scatter as close to the same as one likes. *)
Theorem C106_edges : forall (T : Type) (i : interaction XR T) (n du wo k : rv) kd (L : rv -> rv) B g x y,
  i_sn i = fin3 n -> i_dpdu i = fin3 du -> du <> v0 -> vnorm n = 1 -> vdot n du = 0 -> vdot wo n <> 0 ->
  kd i = Ok (fin3 k) -> each (fun x => 0 <= x) k -> k <> v0 ->
  let scattered L := over_hemisphere (vunit du) (vcross n (vunit du)) (facing n wo) (fun w => vscale (Rabs (vdot w n)) (vprod (vscale (/ PI) k) (L w))) in
  (forall eps, 0 < eps -> exists lo hi xl xh, continuous_above (facing n wo) lo /\ continuous_above (facing n wo) hi /\
    (forall w, above (facing n wo) w -> vle (lo w) (L w) /\ vle (L w) (hi w)) /\
    scattered lo xl /\ scattered hi xh /\ vle xh (vadd xl (mkV3 eps eps eps))) ->
  scattered L x -> mat_lambertian kd i = Ok B -> average2 g y ->
  (forall a b, 0 < a < 1 -> 0 < b < 1 -> exists w f p flag, bsdf_sample_f B (fin3 wo) (mkP2 (XFin a) (XFin b)) = Ok (fin3 w, fin3 f, XFin p, flag) /\
      0 < p /\ g a b = vscale (Rabs (vdot w n) / p) (vprod f (L w))) ->
  x = y.
Proof.
  intros T i n du wo k kd L B g x y En Ed D0 Nn Pd Hw Ek Kn K0 scattered Hs Hx Eb Ay Hg.
  assert (O : orthonormal (vunit du) (vcross n (vunit du)) (facing n wo)) by now apply frame_orthonormal.
  assert (Mono : forall l m, (forall w, above (facing n wo) w -> vle (l w) (m w)) -> forall w, above (facing n wo) w ->
    vle (vscale (Rabs (vdot w n)) (vprod (vscale (/ PI) k) (l w))) (vscale (Rabs (vdot w n)) (vprod (vscale (/ PI) k) (m w)))).
  { intros l m H w Aw. destruct (H w Aw) as (V1 & V2 & V3). assert (P : 0 < / PI) by apply Rinv_0_lt_compat, PI_RGT_0. destruct Kn as (K1 & K2 & K3). pose proof (Rabs_pos (vdot w n)) as Q.
    unfold vle, vscale, vprod. vproj. repeat split; (apply Rmult_le_compat_l; [exact Q|]; apply Rmult_le_compat_l; [nra|assumption]). }
  assert (Same : forall (l : rv -> rv) z, continuous_above (facing n wo) l -> scattered l z -> exists gl, average2 gl z /\
    forall a b, 0 < a < 1 -> 0 < b < 1 -> gl a b = vprod k (l (ways (vunit du) (vcross n (vunit du)) (facing n wo) a b))).
  { intros l z Cl Sl. destruct (hemisphere_average _ _ _ (fun w => vprod k (l w)) O (continuous_prod _ k l Cl)) as (z' & H & A).
    exists (fun a b => vprod k (l (ways (vunit du) (vcross n (vunit du)) (facing n wo) a b))). split; [|reflexivity].
    assert (Ez : z = z'); [|rewrite Ez; exact A].
    assert (Eq : forall w, above (facing n wo) w -> vscale (Rabs (vdot w n)) (vprod (vscale (/ PI) k) (l w)) = vscale (vdot w (facing n wo) / PI) (vprod k (l w))).
    { intros w Aw. rewrite (facing_cos n wo w Hw Aw). pose proof PI_RGT_0. apply V3_eq; unfold vscale, vprod; vproj; field; lra. }
    apply vle_antisym; (eapply hemisphere_le; [exact O| |eassumption|eassumption]); intros w Aw; cbv beta; rewrite (Eq w Aw); unfold vle; lra. }
  assert (Hg' : forall a b, 0 < a < 1 -> 0 < b < 1 -> g a b = vprod k (L (ways (vunit du) (vcross n (vunit du)) (facing n wo) a b))).
  { intros a b Ha Hb. destruct (Hg a b Ha Hb) as (w0 & f0' & p0 & fl0 & E0 & P0 & ->).
    destruct (matte_way T i n du wo k a b kd En Ed D0 Nn Pd Hw Ha Hb Ek Kn K0) as (Eb' & f & p & E & P & Ef & W).
    assert (B = bsdf_add (bsdf_new i) (lambertian (fin3 k))) by congruence. subst B. rewrite E0 in E. set (w := ways _ _ _ a b) in *.
    assert (E' : (fin3 w0, fin3 f0', XFin p0, fl0) = (fin3 w, fin3 f, XFin p, Z.lor REFLECTION DIFFUSE)) by congruence. clear E.
    pose proof (fin3_inj _ _ (f_equal (fun q => fst (fst (fst q))) E')) as Q1. pose proof (fin3_inj _ _ (f_equal (fun q => snd (fst (fst q))) E')) as Q2.
    pose proof (f_equal (fun q => snd (fst q)) E') as Q3. cbn [fst snd] in Q3. injection Q3 as Q3. subst w0 f0' p0.
    rewrite <- W at 1. apply V3_eq; unfold vscale, vprod; vproj; ring. }
  assert (Ways : forall a b, above (facing n wo) (ways (vunit du) (vcross n (vunit du)) (facing n wo) a b)) by (intros; now apply over_above).
  assert (Close : forall eps, 0 < eps -> vle x (vadd y (mkV3 eps eps eps)) /\ vle y (vadd x (mkV3 eps eps eps))).
  { intros eps He. destruct (Hs eps He) as (lo & hi & xl & xh & Cl & Ch & Hb & Sl & Sh & Hd).
    destruct (Same lo xl Cl Sl) as (gl & Al & El). destruct (Same hi xh Ch Sh) as (gh & Ah & Eh).
    assert (X1 : vle xl x) by (eapply hemisphere_le; [exact O| |exact Sl|exact Hx]; apply Mono; intros w Aw; apply Hb, Aw).
    assert (X2 : vle x xh) by (eapply hemisphere_le; [exact O| |exact Hx|exact Sh]; apply Mono; intros w Aw; apply Hb, Aw).
    assert (Pk : forall p q, vle p q -> vle (vprod k p) (vprod k q)) by (intros p q (V1 & V2 & V3); destruct Kn as (K1 & K2 & K3); unfold vle, vprod; vproj; nra).
    assert (Y1 : vle xl y) by (eapply average2_le; [|exact Al|exact Ay]; intros a b Ha Hb'; rewrite El, Hg' by assumption; apply Pk, Hb, Ways).
    assert (Y2 : vle y xh) by (eapply average2_le; [|exact Ay|exact Ah]; intros a b Ha Hb'; rewrite Eh, Hg' by assumption; apply Pk, Hb, Ways).
    unfold vle, vadd in *. revert Hd. vproj. intros Hd. lra. }
  assert (Ge : forall p q, (forall eps, 0 < eps -> p <= q + eps) -> p <= q) by (intros p q H; apply le_epsilon; exact H).
  apply vle_antisym; repeat split; apply Ge; intros eps He; apply (Close eps He).
Qed.
Print Assumptions C106_edges.

(** ** Examples: the grey floor of C76, lit from above *)
Definition grey3 (c : R) : rv := mkV3 c c c.
Lemma floor_frame : vunit (mkV3 1 0 0) = mkV3 1 0 0 /\ vcross (mkV3 0 0 1) (mkV3 1 0 0) = mkV3 0 1 0 /\ facing (mkV3 0 0 1) (mkV3 0 0 1) = mkV3 0 0 1.
Proof.
  split; [|split].
  - unfold vunit. rewrite (proj2 (vnorm_1_dot (mkV3 1 0 0))) by (unfold vdot; vproj; ring). apply V3_eq; unfold vscale; vproj; field.
  - apply V3_eq; unfold vcross; vproj; ring.
  - unfold facing. rewrite Rlt_bool_false; [reflexivity|]. unfold vdot. vproj. lra.
Qed.
Lemma floor_ok : i_sn ex_below = fin3 (mkV3 0 0 1) /\ i_dpdu ex_below = fin3 (mkV3 1 0 0) /\ i_wo ex_below = fin3 (mkV3 0 0 1) /\ mkV3 1 0 0 <> v0 /\ vnorm (mkV3 0 0 1) = 1 /\
  vdot (mkV3 0 0 1) (mkV3 1 0 0) = 0 /\ vdot (mkV3 0 0 1) (mkV3 0 0 1) <> 0 /\ constant_texture (fin3 ex_grey) ex_below = Ok (fin3 ex_grey) /\
  each (fun x => 0 <= x) ex_grey /\ ex_grey <> v0.
Proof.
  do 3 (split; [reflexivity|]). split; [intros E; apply (f_equal (fun v : rv => vx v)) in E; revert E; unfold v0; vproj; lra|].
  split; [apply vnorm_1_dot; unfold vdot; vproj; ring|]. split; [unfold vdot; vproj; ring|]. split; [unfold vdot; vproj; lra|]. split; [reflexivity|].
  split; [unfold each, ex_grey; vproj; lra|]. intros E; apply (f_equal (fun v : rv => vx v)) in E; revert E; unfold v0, ex_grey; vproj; lra.
Qed.
Lemma towards_z th ph : vz (towards (mkV3 1 0 0) (mkV3 0 1 0) (mkV3 0 0 1) th ph) = cos th.
Proof. unfold towards, vadd, vscale. vproj. ring. Qed.
Lemma lipschitz_above u (f : R -> R) m : 0 < m -> (forall x y, -1 <= x <= 1 -> -1 <= y <= 1 -> Rabs (f x - f y) <= m * Rabs (x - y)) -> continuous_above u (fun w => grey3 (f (vz w))).
Proof.
  intros M H p eps (P & _) E. exists (eps / (4 * m)). split; [apply Rdiv_lt_0_compat; lra|]. intros q (Q & _) N.
  assert (B : forall v : rv, vdot v v = 1 -> -1 <= vz v <= 1) by (intros v V; unfold vdot in V; nra).
  unfold vdist. eapply Rle_lt_trans; [apply norm_le_abs|]. unfold vsub, grey3. vproj. specialize (H (vz p) (vz q) (B p P) (B q Q)).
  destruct (near_xyz q p) as (_ & _ & Z). rewrite vdist_sym in Z. apply Rmult_lt_compat_r with (r := 4 * m) in N; [|lra]. replace (eps / (4 * m) * (4 * m)) with eps in N by (field; lra).
  pose proof (Rabs_pos (vz p - vz q)). nra.
Qed.

(** light growing towards the zenith: two thirds of what the floor would scatter if it were as bright everywhere *)
Example C106_example : continuous_above (mkV3 0 0 1) (fun w => grey3 (vz w)) /\
  over_hemisphere (mkV3 1 0 0) (mkV3 0 1 0) (mkV3 0 0 1) (fun w => vscale (Rabs (vdot w (mkV3 0 0 1))) (vprod (vscale (/ PI) ex_grey) (grey3 (vz w)))) (vscale (2 / 3) ex_grey).
Proof.
  pose proof PI_RGT_0 as PP. split; [apply (lipschitz_above _ (fun x => x) 1); [lra|intros; lra]|].
  exists (fun th => grey3 (cos th * cos th)). assert (Dt : forall th ph, vdot (towards (mkV3 1 0 0) (mkV3 0 1 0) (mkV3 0 0 1) th ph) (mkV3 0 0 1) = cos th).
  { intros th ph. rewrite <- (towards_z th ph). unfold vdot. vproj. ring. }
  split.
  - intros th H. assert (0 < cos th) by (apply cos_gt_0; lra).
    assert (Q : integral (fun ph => cos th * (/ PI * (1 / 2) * cos th)) 0 (2 * PI) (cos th * cos th)).
    { pose proof (integral_piece (fun ph => cos th * (/ PI * (1 / 2) * cos th)) 0 (2 * PI) (cos th * (/ PI * (1 / 2) * cos th)) ltac:(lra) ltac:(reflexivity)) as Q.
      replace (cos th * (/ PI * (1 / 2) * cos th) * (2 * PI - 0)) with (cos th * cos th) in Q by (field; lra). exact Q. }
    unfold vintegral, grey3. unfold vscale, vprod, ex_grey. vproj. repeat split; (eapply integral_ext; [lra| |exact Q]); intros ph _; cbv beta; rewrite Dt, towards_z, Rabs_pos_eq by lra; reflexivity.
  - assert (Q : integral (fun th => sin th * (cos th * cos th)) 0 (PI / 2) (2 / 3 * (1 / 2))).
    { pose proof (int_sin_cos2 0 (PI / 2)) as Q. rewrite cos_PI2, cos_0 in Q. replace (- (0 * 0 * 0) / 3 - - (1 * 1 * 1) / 3) with (2 / 3 * (1 / 2)) in Q by field. exact Q. }
    unfold vintegral, grey3. unfold vscale, ex_grey. vproj. repeat split; exact Q.
Qed.

(** in the hall of C104, every bounce adds the same *)
Example C106_rendering_example : sees hall_surf hall ex_down ex_below ex_glow /\ i_shape ex_below = Some true /\
  sf_scatter (hall_surf true) ex_below = mat_lambertian (constant_texture (fin3 ex_grey)) ex_below /\
  (forall B, mat_lambertian (constant_texture (fin3 ex_grey)) ex_below = Ok B -> Forall2 (light_gives Bool.eqb hall_surf hall ex_below B) (sc_lights hall) [hall_lit ex_glow; hall_lit ex_grey]) /\
  continuous_above (mkV3 0 0 1) (fun _ => hall_x 3) /\
  (forall w, exists e', brings Bool.eqb hall_surf hall 3 (spawn_ray ex_below (fin3 w)) e' (hall_x 3)).
Proof.
  destruct floor_ok as (E1 & E2 & E3 & D0 & Nn & Pd & Hw & Ek & Kn & K0).
  pose proof (proj1 (matte_way bool ex_below (mkV3 0 0 1) (mkV3 1 0 0) (mkV3 0 0 1) ex_grey (1/2) (1/2) _ E1 E2 D0 Nn Pd Hw ltac:(lra) ltac:(lra) Ek Kn K0)) as Em.
  split; [exists true; repeat split|]. split; [reflexivity|]. split; [symmetry; exact Em|]. split; [|split].
  - intros B HB. rewrite Em in HB. injection HB as <-. change (bsdf_add (bsdf_new ex_below) (lambertian (fin3 ex_grey))) with ex_floor.
    assert (Lg : forall L, light_gives Bool.eqb hall_surf hall ex_below ex_floor (hall_light L) (hall_lit L)).
    { intros L. exists (fun _ _ => hall_lit L), (fun _ _ => v0), (hall_lit L), v0. split; [vring|]. split; [apply average2_const|]. split; [apply average2_const|].
      split; intros u v ld _ _; [apply (hall_direct L (mkP2 (XFin u) (XFin v)) (mkP2 (XFin u) (XFin v)))|].
      replace (vadd ld v0) with ld by vring. apply (hall_direct L (mkP2 (XFin u) (XFin v)) (mkP2 (XFin u) (XFin v))). }
    repeat constructor; apply Lg.
  - intros p eps _ E. exists 1. split; [lra|]. intros q _ _. unfold vdist. replace (vsub (hall_x 3) (hall_x 3)) with v0 by (apply V3_eq; unfold vsub, v0; vproj; ring).
    replace (vnorm v0) with 0; [exact E|]. unfold vnorm, vdot, v0. vproj. replace (0 * 0 + 0 * 0 + 0 * 0) with 0 by ring. symmetry. apply sqrt_0.
  - intros w. exists ex_glow. apply hall_brings.
Qed.

(** a lit cap of the sky: light comes from where the squared cosine is more than [c] *)
Definition cap (c : R) (w : rv) : rv := grey3 (if Rlt_dec c (vz w * vz w) then 1 else 0).
Definition floor_scatters (L : rv -> rv) (x : rv) : Prop :=
  over_hemisphere (mkV3 1 0 0) (mkV3 0 1 0) (mkV3 0 0 1) (fun w => vscale (Rabs (vdot w (mkV3 0 0 1))) (vprod (vscale (/ PI) ex_grey) (L w))) x.

Lemma cap_scatters c : 0 < c < 1 -> floor_scatters (cap c) (grey3 ((1 - c) / 2)).
Proof.
  intros Hc. pose proof PI_RGT_0 as PP. set (r := sqrt c). assert (Rr : r * r = c) by (apply sqrt_sqrt; lra). assert (R0 : 0 < r) by (apply sqrt_lt_R0; lra). assert (R1 : r < 1) by nra.
  set (t := acos r). assert (Ct : cos t = r) by (apply cos_acos; lra). pose proof (acos_bound r) as Bt. fold t in Bt.
  assert (T0 : 0 < t) by (destruct (proj1 Bt) as [?|Z]; [assumption|rewrite <- Z, cos_0 in Ct; lra]).
  assert (T2 : t < PI / 2).
  { destruct (Rlt_le_dec t (PI / 2)) as [?|G]; [assumption|]. exfalso. destruct G as [G|G]; [pose proof (cos_lt_0 t G ltac:(lra)); lra|rewrite <- G, cos_PI2 in Ct; lra]. }
  assert (St : sin t * sin t = 1 - c) by (pose proof (sin2_cos2 t) as Q; unfold Rsqr in Q; rewrite Ct in Q; lra).
  exists (fun th => grey3 (if Rlt_dec c (cos th * cos th) then cos th else 0)).
  assert (Dt : forall th ph, vdot (towards (mkV3 1 0 0) (mkV3 0 1 0) (mkV3 0 0 1) th ph) (mkV3 0 0 1) = cos th).
  { intros th ph. rewrite <- (towards_z th ph). unfold vdot. vproj. ring. }
  split.
  - intros th H. assert (0 < cos th) by (apply cos_gt_0; lra). set (v := if Rlt_dec c (cos th * cos th) then 1 else 0).
    assert (Q : integral (fun ph => cos th * (/ PI * (1 / 2) * v)) 0 (2 * PI) (if Rlt_dec c (cos th * cos th) then cos th else 0)).
    { pose proof (integral_piece (fun ph => cos th * (/ PI * (1 / 2) * v)) 0 (2 * PI) (cos th * (/ PI * (1 / 2) * v)) ltac:(lra) ltac:(reflexivity)) as Q.
      replace (cos th * (/ PI * (1 / 2) * v) * (2 * PI - 0)) with (if Rlt_dec c (cos th * cos th) then cos th else 0) in Q; [exact Q|].
      unfold v. destruct (Rlt_dec _ _); field; lra. }
    unfold vintegral, cap, grey3. unfold vscale, vprod, ex_grey. vproj. repeat split; (eapply integral_ext; [lra| |exact Q]); intros ph _; cbv beta; rewrite Dt, !towards_z, Rabs_pos_eq by lra; reflexivity.
  - assert (Q : integral (fun th => sin th * (if Rlt_dec c (cos th * cos th) then cos th else 0)) 0 (PI / 2) ((1 - c) / 2)).
    { replace ((1 - c) / 2) with ((sin t * sin t / 2 - sin 0 * sin 0 / 2) + 0 * (PI / 2 - t)) by (rewrite St, sin_0; field).
      apply (integral_join _ 0 t (PI / 2)); [lra| |].
      - eapply integral_ext; [lra| |apply int_sin_cos]. intros x Hx. cbv beta. destruct (Rlt_dec _ _) as [?|N]; [reflexivity|]. exfalso. apply N.
        assert (r < cos x) by (rewrite <- Ct; apply cos_decreasing_1; lra). nra.
      - apply integral_piece; [lra|]. intros x Hx. destruct (Rlt_dec _ _) as [L|?]; [|ring]. exfalso.
        assert (cos x < r) by (rewrite <- Ct; apply cos_decreasing_1; lra). assert (0 < cos x) by (apply cos_gt_0; lra). nra. }
    unfold vintegral, grey3. unfold vscale. vproj. repeat split; exact Q.
Qed.

(** a soft edge between [c] and [c + d] *)
Definition ramp (c d z : R) : R := Rmax 0 (Rmin 1 ((z * z - c) / d)).
Lemma ramp_lipschitz c d x y : 0 < d -> -1 <= x <= 1 -> -1 <= y <= 1 -> Rabs (ramp c d x - ramp c d y) <= 2 / d * Rabs (x - y).
Proof.
  intros D X Y. assert (I : 0 < / d) by now apply Rinv_0_lt_compat.
  assert (C : forall a b, Rabs (Rmax 0 (Rmin 1 a) - Rmax 0 (Rmin 1 b)) <= Rabs (a - b)).
  { intros a b. unfold Rmax, Rmin. destruct (Rle_dec 1 a), (Rle_dec 1 b); repeat destruct (Rle_dec _ _); unfold Rabs; repeat destruct (Rcase_abs _); lra. }
  eapply Rle_trans; [apply C|]. replace ((x * x - c) / d - (y * y - c) / d) with ((x + y) * (x - y) * / d) by (field; lra).
  rewrite !Rabs_mult, (Rabs_pos_eq (/ d)) by lra. assert (Rabs (x + y) <= 2) by (apply Rabs_le; lra). pose proof (Rabs_pos (x - y)).
  replace (2 / d * Rabs (x - y)) with (2 * Rabs (x - y) * / d) by (unfold Rdiv; ring). apply Rmult_le_compat_r; [lra|]. nra.
Qed.
Lemma soft c d : 0 < d -> continuous_above (mkV3 0 0 1) (fun w => grey3 (ramp c d (vz w))).
Proof.
  intros D. apply (lipschitz_above _ (ramp c d) (2 / d)); [apply Rdiv_lt_0_compat; lra|]. intros. now apply ramp_lipschitz.
Qed.
Lemma soft_between c d w : 0 < d -> vle (cap (c + d) w) (grey3 (ramp c d (vz w))) /\ vle (grey3 (ramp c d (vz w))) (cap c w).
Proof.
  intros D. assert (I : 0 < / d) by now apply Rinv_0_lt_compat. unfold cap, grey3, vle, ramp. vproj. set (z := vz w * vz w).
  assert (A : (if Rlt_dec (c + d) z then 1 else 0) <= Rmax 0 (Rmin 1 ((z - c) / d))).
  { destruct (Rlt_dec _ _) as [L|_]; [|apply Rmax_l]. eapply Rle_trans; [|apply Rmax_r]. apply Rmin_glb; [lra|].
    apply Rmult_le_reg_r with d; [exact D|]. replace ((z - c) / d * d) with (z - c) by (field; lra). lra. }
  assert (B : Rmax 0 (Rmin 1 ((z - c) / d)) <= (if Rlt_dec c z then 1 else 0)).
  { destruct (Rlt_dec c z) as [L|L]; apply Rmax_lub; try lra; [apply Rmin_l|]. eapply Rle_trans; [apply Rmin_r|].
    apply Rmult_le_reg_r with d; [exact D|]. replace ((z - c) / d * d) with (z - c) by (field; lra). lra. }
  auto.
Qed.

Lemma m_max x y : mx x y * mx x y + my x y * my x y = Rmax (Rabs x) (Rabs y) * Rmax (Rabs x) (Rabs y).
Proof.
  assert (Q : forall z, z * z = Rabs z * Rabs z) by (intros z; rewrite <- Rabs_mult, Rabs_pos_eq by nra; ring).
  unfold mx, my. destruct (Rlt_dec _ _) as [L|L]; [rewrite c_1, Rmax_left by lra; apply Q|rewrite Rplus_comm, c_1, Rmax_right by lra; apply Q].
Qed.

Example C106_edges_example :
  (forall eps, 0 < eps -> exists lo hi xl xh, continuous_above (mkV3 0 0 1) lo /\ continuous_above (mkV3 0 0 1) hi /\
    (forall w, above (mkV3 0 0 1) w -> vle (lo w) (cap (3 / 4) w) /\ vle (cap (3 / 4) w) (hi w)) /\
    floor_scatters lo xl /\ floor_scatters hi xh /\ vle xh (vadd xl (mkV3 eps eps eps))) /\
  floor_scatters (cap (3 / 4)) (grey3 (1 / 8)) /\
  average2 (fun a b => vprod ex_grey (cap (3 / 4) (ways (mkV3 1 0 0) (mkV3 0 1 0) (mkV3 0 0 1) a b))) (grey3 (1 / 8)).
Proof.
  destruct floor_ok as (E1 & E2 & E3 & D0 & Nn & Pd & Hw & Ek & Kn & K0). destruct floor_frame as (F1 & F2 & F3).
  assert (O : orthonormal (mkV3 1 0 0) (mkV3 0 1 0) (mkV3 0 0 1)) by (unfold orthonormal, vdot; vproj; repeat split; ring).
  assert (P : 0 < / PI) by apply Rinv_0_lt_compat, PI_RGT_0.
  assert (Mono : forall l m x y, (forall w, vle (l w) (m w)) -> floor_scatters l x -> floor_scatters m y -> vle x y).
  { intros l m x y H. apply (hemisphere_le _ _ _ _ _ x y O). intros w _. destruct (H w) as (V1 & V2 & V3). pose proof (Rabs_pos (vdot w (mkV3 0 0 1))) as Q.
    unfold vle, vscale, vprod, ex_grey. vproj. repeat split; (apply Rmult_le_compat_l; [exact Q|]; apply Rmult_le_compat_l; [lra|assumption]). }
  assert (Ex : forall l, continuous_above (mkV3 0 0 1) l -> exists x, floor_scatters l x).
  { intros l Cl. rewrite <- F3 in Cl. destruct (C106_matte bool ex_below _ _ _ _ _ l E1 E2 D0 Nn Pd Hw Ek Kn K0 Cl) as (B & g & x & _ & _ & H & _).
    rewrite F1, F2, F3 in H. exists x. exact H. }
  split; [|split].
  - intros eps He. set (d := Rmin eps (1 / 8)). assert (D : 0 < d) by (unfold d; apply Rmin_glb_lt; lra). assert (De : d <= eps) by apply Rmin_l. assert (D8 : d <= 1 / 8) by apply Rmin_r.
    pose proof (soft (3 / 4) d D) as Cl. pose proof (soft (3 / 4 - d) d D) as Ch. destruct (Ex _ Cl) as (xl & Xl). destruct (Ex _ Ch) as (xh & Xh).
    exists (fun w => grey3 (ramp (3 / 4) d (vz w))), (fun w => grey3 (ramp (3 / 4 - d) d (vz w))), xl, xh. split; [exact Cl|]. split; [exact Ch|]. split; [|split; [exact Xl|split; [exact Xh|]]].
    + intros w _. split; [apply (soft_between (3 / 4) d w D)|]. pose proof (proj1 (soft_between (3 / 4 - d) d w D)) as Q. replace (3 / 4 - d + d) with (3 / 4) in Q by ring. exact Q.
    + pose proof (Mono _ _ _ _ (fun w => proj1 (soft_between (3 / 4) d w D)) (cap_scatters (3 / 4 + d) ltac:(lra)) Xl) as (A1 & A2 & A3).
      pose proof (Mono _ _ _ _ (fun w => proj2 (soft_between (3 / 4 - d) d w D)) Xh (cap_scatters (3 / 4 - d) ltac:(lra))) as (B1 & B2 & B3).
      unfold grey3 in *. unfold vle, vadd. revert A1 A2 A3 B1 B2 B3. vproj. intros. lra.
  - replace (1 / 8) with ((1 - 3 / 4) / 2) by field. apply cap_scatters. lra.
  - assert (V : forall a b, 0 < a < 1 -> 0 < b < 1 -> vprod ex_grey (cap (3 / 4) (ways (mkV3 1 0 0) (mkV3 0 1 0) (mkV3 0 0 1) a b)) =
      grey3 (if Rlt_dec (Rmax (Rabs (2 * a - 1)) (Rabs (2 * b - 1))) (1 / 2) then 1 / 2 else 0)).
    { intros a b Ha Hb. unfold ways. rewrite over_disk by (apply Rlt_le, m_inside; lra). pose proof (m_inside (2 * a - 1) (2 * b - 1) ltac:(lra) ltac:(lra)) as Q.
      pose proof (m_max (2 * a - 1) (2 * b - 1)) as M. set (x := mx _ _) in *. set (y := my _ _) in *. set (m := Rmax _ _) in *.
      assert (M0 : 0 <= m) by (eapply Rle_trans; [apply Rabs_pos|apply Rmax_l]).
      assert (Z : vz (vadd (vadd (vscale x (mkV3 1 0 0)) (vscale y (mkV3 0 1 0))) (vscale (sqrt (1 - x * x - y * y)) (mkV3 0 0 1))) = sqrt (1 - x * x - y * y)) by (unfold vadd, vscale; vproj; ring).
      unfold cap. rewrite Z, sqrt_sqrt by lra. replace (1 - x * x - y * y) with (1 - m * m) by lra. unfold vprod, ex_grey, grey3. vproj.
      destruct (Rlt_dec (3 / 4) (1 - m * m)), (Rlt_dec m (1 / 2)); try (exfalso; nra); f_equal; field. }
    exists (fun a => grey3 (if Rlt_dec (Rabs (2 * a - 1)) (1 / 2) then 1 / 4 else 0)). split.
    + intros a Ha. assert (Q : integral (fun b => if Rlt_dec (Rmax (Rabs (2 * a - 1)) (Rabs (2 * b - 1))) (1 / 2) then 1 / 2 else 0) 0 1 (if Rlt_dec (Rabs (2 * a - 1)) (1 / 2) then 1 / 4 else 0)).
      { destruct (Rlt_dec (Rabs (2 * a - 1)) (1 / 2)) as [L|L].
        - replace (1 / 4) with (0 * (1 / 4 - 0) + 1 / 2 * (3 / 4 - 1 / 4) + 0 * (1 - 3 / 4)) by field. apply (integral_join _ 0 (3 / 4) 1); [lra|apply (integral_join _ 0 (1 / 4) (3 / 4)); [lra| |]|];
            apply integral_piece; try lra; intros b Hb; destruct (Rlt_dec _ _) as [M|M]; try reflexivity; exfalso.
          + pose proof (Rmax_r (Rabs (2 * a - 1)) (Rabs (2 * b - 1))). rewrite (Rabs_left (2 * b - 1)) in * by lra. lra.
          + apply M. apply Rmax_lub_lt; [exact L|]. apply Rabs_def1; lra.
          + pose proof (Rmax_r (Rabs (2 * a - 1)) (Rabs (2 * b - 1))). rewrite (Rabs_pos_eq (2 * b - 1)) in * by lra. lra.
        - pose proof (integral_piece (fun b => if Rlt_dec (Rmax (Rabs (2 * a - 1)) (Rabs (2 * b - 1))) (1 / 2) then 1 / 2 else 0) 0 1 0 ltac:(lra)) as Z.
          rewrite Rmult_0_l in Z. apply Z. intros b _. destruct (Rlt_dec _ _) as [M|M]; [|reflexivity]. exfalso.
          pose proof (Rmax_l (Rabs (2 * a - 1)) (Rabs (2 * b - 1))). lra. }
      unfold average. repeat split; (eapply integral_ext; [lra| |exact Q]); intros b Hb; cbv beta; rewrite V by lra; reflexivity.
    + assert (Q : integral (fun a => if Rlt_dec (Rabs (2 * a - 1)) (1 / 2) then 1 / 4 else 0) 0 1 (1 / 8)).
      { replace (1 / 8) with (0 * (1 / 4 - 0) + 1 / 4 * (3 / 4 - 1 / 4) + 0 * (1 - 3 / 4)) by field. apply (integral_join _ 0 (3 / 4) 1); [lra|apply (integral_join _ 0 (1 / 4) (3 / 4)); [lra| |]|];
          apply integral_piece; try lra; intros b Hb; destruct (Rlt_dec _ _) as [M|M]; try reflexivity; exfalso.
        + rewrite (Rabs_left (2 * b - 1)) in M by lra. lra.
        + apply M. apply Rabs_def1; lra.
        + rewrite (Rabs_pos_eq (2 * b - 1)) in M by lra. lra. }
      unfold average, grey3. vproj. repeat split; exact Q.
Qed.
