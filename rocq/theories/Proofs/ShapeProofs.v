(** * Lemmas on the quadratic solver, spheres and triangles in exact arithmetic *)
From Coq Require Import ZArith Reals List Bool Lra Lia.
From Flocq Require Import Core.Raux.
From Verif Require Import Model.Num Model.NumX Model.Vector Model.Common Model.BBox Model.Interaction Model.Shape
  Model.Sphere Model.Triangle Spec.RVec Spec.BoxSpec Spec.ShapeSpec Proofs.XBase Proofs.RVecProofs.
Import ListNotations.
Local Open Scope R_scope.

Lemma fhalf_X : (fhalf : XR) = XFin (1 / 2).
Proof. unfold fhalf. xsimp. now rewrite xdiv_fin by lra. Qed.
Lemma xmul_fin a b : xmul (XFin a) (XFin b) = XFin (a * b). Proof. reflexivity. Qed.

(** ** The quadratic solver *)
Lemma quadratic_none a b c : b * b - 4 * a * c < 0 -> quadratic (XFin a) (XFin b) (XFin c) = None.
Proof. intros H. unfold quadratic, f0. xsimp. cbn [xmul xsub xlt]. now rewrite Rlt_bool_true. Qed.

Lemma quadratic_zero a : a <> 0 -> quadratic (XFin a) (XFin 0) (XFin 0) = Some (XFin 0, XNaN).
Proof.
  intros Ha. unfold quadratic, f0. rewrite fhalf_X. xsimp. cbn [xmul xsub xlt xneg xsqrt].
  rewrite !Rlt_bool_false by lra. replace (0 * 0 - 4 * a * 0) with 0 by ring. rewrite sqrt_0. cbn [xadd xmul].
  replace (- (1 / 2) * (0 + 0)) with 0 by ring. rewrite (xdiv_fin 0 a) by auto. rewrite xdiv_zero_zero. cbn [xlt].
  replace (0 / a) with 0 by (field; auto). reflexivity.
Qed.

Lemma quadratic_some a b c : a <> 0 -> 0 <= b * b - 4 * a * c -> (b <> 0 \/ c <> 0) ->
  exists x y, quadratic (XFin a) (XFin b) (XFin c) = Some (XFin x, XFin y) /\ x <= y /\
    (forall t, a * t * t + b * t + c = 0 <-> t = x \/ t = y).
Proof.
  intros Ha Hd Hbc. set (D := b * b - 4 * a * c) in *. set (s := sqrt D).
  assert (Hs : s * s = D) by (apply sqrt_sqrt; auto). assert (Hs0 : 0 <= s) by apply sqrt_pos.
  set (q := if Rlt_bool b 0 then - (1 / 2) * (b - s) else - (1 / 2) * (b + s)).
  assert (Hq : q * q + b * q + a * c = 0).
  { assert (Hs' : s * s = b * b - 4 * a * c) by exact Hs. clearbody s. unfold q. destruct (Rlt_bool b 0); nra. }
  assert (Hq0 : q <> 0).
  { unfold q. destruct (Rlt_bool b 0) eqn:E; rb; [lra|]. intros Q. assert (b = 0 /\ s = 0) as [B S] by lra.
    subst b. rewrite S in Hs. unfold D in Hs. destruct Hbc as [|Hc]; [lra|]. apply Hc.
    assert (a * c = 0) by lra. apply Rmult_integral in H. tauto. }
  assert (Roots : forall t, a * t * t + b * t + c = 0 <-> t = q / a \/ t = c / q).
  { intros t. assert (E : a * t * t + b * t + c = a * (t - q / a) * (t - c / q)).
    { assert (b = - (q * q + a * c) / q) by (apply Rmult_eq_reg_r with q; auto; field_simplify; auto; lra).
      rewrite H. field. auto. }
    rewrite E. split.
    - intros H. apply Rmult_integral in H as [H|H].
      + apply Rmult_integral in H as [H|H]; [congruence|left; lra].
      + right; lra.
    - intros [-> | ->]; ring. }
  assert (Q : quadratic (XFin a) (XFin b) (XFin c) =
    if Rlt_bool (c / q) (q / a) then Some (XFin (c / q), XFin (q / a)) else Some (XFin (q / a), XFin (c / q))).
  { unfold quadratic, f0. rewrite fhalf_X. xsimp. cbn [xmul xsub xlt xneg].
    fold D. rewrite Rlt_bool_false by auto. rewrite xsqrt_fin by auto. fold s. cbn [xadd xmul].
    assert (E : (if Rlt_bool b 0 then XFin (- (1 / 2) * (b - s)) else XFin (- (1 / 2) * (b + s))) = XFin q)
      by (unfold q; destruct (Rlt_bool b 0); reflexivity).
    rewrite E, !xdiv_fin by auto. cbn [xlt]. reflexivity. }
  rewrite Q. destruct (Rlt_bool (c / q) (q / a)) eqn:E; rb.
  - exists (c / q), (q / a). split; auto. split; [lra|]. intros t. rewrite Roots. tauto.
  - exists (q / a), (c / q). split; auto.
Qed.

(** ** Spheres *)
Lemma on_sphere_sq c r p : on_sphere c r p <-> vdot (vsub p c) (vsub p c) = r * r.
Proof.
  unfold on_sphere, vdist, vnorm. split.
  - intros H. rewrite <- (sqrt_sqrt (vdot _ _)) by apply vdot_self_nonneg. rewrite H.
    rewrite <- Rabs_mult. apply Rabs_pos_eq. nra.
  - intros ->. rewrite <- sqrt_Rsqr_abs. reflexivity.
Qed.

Definition msp (c : rv) (r : R) : sphere XR := mkSphere (fin3 c) (XFin r).

Lemma pick_root (P : R -> Prop) x y tmax : x <= y -> (forall t, P t <-> t = x \/ t = y) ->
  match (if flt f0 (fnarrow (XFin x)) && flt (fnarrow (XFin x)) tmax then Some (fnarrow (XFin x))
         else if flt f0 (fnarrow (XFin y)) && flt (fnarrow (XFin y)) tmax then Some (fnarrow (XFin y)) else None) with
  | Some t => exists x, t = XFin x /\ 0 < x /\ xlt (XFin x) tmax = true /\ P x /\ forall y, 0 < y < x -> ~ P y
  | None => forall y, 0 < y -> xlt (XFin y) tmax = true -> ~ P y
  end.
Proof.
  intros Hxy Or. unfold f0. xsimp.
  change (xlt (XFin 0) (XFin x)) with (Rlt_bool 0 x). change (xlt (XFin 0) (XFin y)) with (Rlt_bool 0 y).
  destruct (Rlt_bool 0 x) eqn:E1; destruct (xlt (XFin x) tmax) eqn:E2; cbn [andb].
  1: { rb. exists x. repeat split; auto. now apply Or; left. intros z Hz H; apply Or in H; lra. }
  all: destruct (Rlt_bool 0 y) eqn:E3; destruct (xlt (XFin y) tmax) eqn:E4; cbn [andb]; rb.
  all: try (intros z Hz Hm H; apply Or in H as [-> | ->]; try lra; congruence).
  all: try (exists y; repeat split; auto; [now apply Or; right|]; intros z Hz H; apply Or in H; lra).
  all: exfalso; assert (xlt (XFin x) tmax = true); [|congruence].
  all: eapply xle_lt_trans; [|eassumption]; cbn; apply Rle_bool_iff; lra.
Qed.

Lemma sp_has_fin c r o d tmax : d <> v0 ->
  let s := sp_has_intersection (F := XR) (D := XR) (msp c r) (sp_local_ray (msp c r) (mkRay (fin3 o) (fin3 d) tmax)) in
  match s with
  | Some t => exists x, t = XFin x /\ 0 < x /\ xlt (XFin x) tmax = true /\ on_sphere c r (at_t o d x) /\
      forall y, 0 < y < x -> ~ on_sphere c r (at_t o d y)
  | None => forall y, 0 < y -> xlt (XFin y) tmax = true -> ~ on_sphere c r (at_t o d y)
  end.
Proof.
  intros Hd. set (o' := vsub o c).
  assert (El : sp_local_ray (msp c r) (mkRay (fin3 o) (fin3 d) tmax) = mkRay (fin3 o') (fin3 d) tmax).
  { unfold sp_local_ray, sp_world_to_local, msp. cbn [sp_center r_o r_d r_tmax].
    rewrite v3neg_fin, v3add_fin. do 2 f_equal. unfold o'. vring. }
  rewrite El. unfold sp_has_intersection. cbn [r_o r_d r_tmax sp_radius msp fin3 vx vy vz fwiden fnarrow XR_Link].
  xsimp. cbn [xmul xadd xsub]. fold (@f2 XR _). 
  change (@f2 XR XR_FOps) with (XFin 2). cbn [xmul].
  set (A := vx d * vx d + vy d * vy d + vz d * vz d).
  set (B := 2 * (vx d * vx o' + vy d * vy o' + vz d * vz o')).
  set (C := vx o' * vx o' + vy o' * vy o' + vz o' * vz o' - r * r).
  assert (HA : 0 < A) by (apply vdot_self_pos in Hd; unfold vdot in Hd; exact Hd).
  assert (On : forall t, on_sphere c r (at_t o d t) <-> A * t * t + B * t + C = 0).
  { intros t. rewrite on_sphere_sq.
    assert (E : vdot (vsub (at_t o d t) c) (vsub (at_t o d t) c) - r * r = A * t * t + B * t + C).
    { unfold vdot, vsub, at_t, vadd, vscale, A, B, C, o', vsub; vproj. ring. }
    rewrite <- E. split; lra. }
  clearbody A B C.
  destruct (Rlt_le_dec (B * B - 4 * A * C) 0) as [Hn|Hp].
  { rewrite quadratic_none by auto. intros y Hy _ H. apply On in H.
    pose proof (Rle_0_sqr (2 * A * y + B)) as Q. unfold Rsqr in Q.
    replace ((2 * A * y + B) * (2 * A * y + B)) with (4 * A * (A * y * y + B * y + C) + (B * B - 4 * A * C)) in Q by ring.
    rewrite H in Q. lra. }
  destruct (Req_dec B 0) as [B0|B0]; [destruct (Req_dec C 0) as [C0|C0]|].
  { rewrite B0, C0, quadratic_zero by lra. unfold f0. xsimp. cbn [xlt]. rewrite Rlt_bool_false by lra. cbn [andb].
    intros y Hy _ H. apply On in H. rewrite B0, C0 in H.
    assert (0 < A * y * y) by (apply Rmult_lt_0_compat; [apply Rmult_lt_0_compat|]; lra). lra. }
  all: destruct (quadratic_some A B C ltac:(lra) Hp ltac:(auto)) as (x & y & -> & Hxy & Hr).
  all: apply (pick_root (fun t => on_sphere c r (at_t o d t))); auto; intros t; rewrite On; apply Hr.
Qed.

(** ** atan2 and acos *)
Lemma atan2_polar y x : x <> 0 \/ y <> 0 ->
  let rho := sqrt (x * x + y * y) in
  rho * cos (Ratan2 y x) = x /\ rho * sin (Ratan2 y x) = y /\ - PI < Ratan2 y x <= PI.
Proof.
  intros H rho. pose proof PI_RGT_0 as Hpi.
  assert (P : forall x, x <> 0 -> forall y, sqrt (x * x + y * y) = Rabs x * sqrt (1 + (y / x)²)).
  { clear. intros x Hx y. rewrite <- sqrt_Rsqr_abs, <- sqrt_mult; [|apply Rle_0_sqr|pose proof (Rle_0_sqr (y / x)); lra].
    f_equal. unfold Rsqr. field. auto. }
  assert (S : forall u, 0 < sqrt (1 + u²)) by (intros u; apply sqrt_lt_R0; pose proof (Rle_0_sqr u); lra).
  unfold Ratan2. destruct (Rlt_bool 0 x) eqn:E1; rb.
  - unfold rho. rewrite P by lra. rewrite cos_atan, sin_atan, Rabs_pos_eq by lra.
    pose proof (S (y / x)). pose proof (atan_bound (y / x)). repeat split; try lra; field; lra.
  - destruct (Rlt_bool x 0) eqn:E2; rb.
    + unfold rho. rewrite P by lra. rewrite Rabs_left by lra.
      pose proof (S (y / x)). pose proof (atan_bound (y / x)) as Ba.
      destruct (Rlt_bool y 0) eqn:E3; rb.
      * assert (0 < y / x) by (apply Rmult_neg_neg_pos || (unfold Rdiv; assert (/ x < 0) by (apply Rinv_lt_0_compat; auto); nra)).
        assert (0 < atan (y / x)) by (rewrite <- atan_0; apply atan_increasing; auto).
        rewrite cos_minus, sin_minus, cos_PI, sin_PI, cos_atan, sin_atan. repeat split; try lra; field; lra.
      * assert (y / x <= 0) by (unfold Rdiv; assert (/ x < 0) by (apply Rinv_lt_0_compat; auto); nra).
        assert (atan (y / x) <= 0).
        { rewrite <- atan_0. destruct (Rle_lt_or_eq_dec _ _ H1) as [L|L]; [left; apply atan_increasing; auto|rewrite L; lra]. }
        rewrite neg_cos, neg_sin, cos_atan, sin_atan. repeat split; try lra; field; lra.
    + assert (x = 0) as -> by lra. unfold rho.
      replace (0 * 0 + y * y) with (Rsqr y) by (unfold Rsqr; ring). rewrite sqrt_Rsqr_abs.
      destruct (Rlt_bool 0 y) eqn:E3; rb.
      * rewrite cos_PI2, sin_PI2, Rabs_pos_eq by lra. repeat split; lra.
      * destruct (Rlt_bool y 0) eqn:E4; rb.
        -- rewrite cos_neg, sin_neg, cos_PI2, sin_PI2, Rabs_left by lra. repeat split; lra.
        -- exfalso. lra.
Qed.

(** ** The reported surface point of a sphere *)
Lemma v3abs_fin a : v3abs (fin3 a) = fin3 (mkV3 (Rabs (vx a)) (Rabs (vy a)) (Rabs (vz a))).
Proof. reflexivity. Qed.

Lemma flit_1_5_X : (flit 1 5 : XR) = XFin (1 / 100000).
Proof. unfold flit. xsimp. change (10 ^ 5)%Z with 100000%Z. rewrite xdiv_fin; [reflexivity|]. lra. Qed.

Lemma sp_phi_fin (c p : rv) r : 0 < r ->
  exists phi, sp_phi (msp c r) (fin3 p) = XFin phi /\ 0 <= phi < 2 * PI /\
    sqrt (vx p * vx p + vy p * vy p) * cos phi = vx p /\ sqrt (vx p * vx p + vy p * vy p) * sin phi = vy p.
Proof.
  intros Hr. pose proof PI_RGT_0 as Hpi. unfold sp_phi. cbn [fin3 vx vy vz msp sp_radius]. rewrite flit_1_5_X.
  unfold f0. xsimp. cbn [xeq xmul].
  destruct (Req_bool (vx p) 0 && Req_bool (vy p) 0) eqn:E.
  - apply andb_true_iff in E as [E1 E2]. rb. rewrite E1, E2. cbn [xatan2].
    assert (E : Ratan2 0 (1 / 100000 * r) = 0).
    { unfold Ratan2. rewrite Rlt_bool_true by lra. unfold Rdiv. rewrite Rmult_0_l. apply atan_0. }
    rewrite E. cbn [xlt]. rewrite Rlt_bool_false by lra. exists 0.
    replace (0 * 0 + 0 * 0) with 0 by ring. rewrite sqrt_0. repeat split; lra.
  - assert (N : vx p <> 0 \/ vy p <> 0).
    { apply andb_false_iff in E as [E|E]; rb; auto. }
    destruct (atan2_polar _ _ N) as (C & S & B). cbn [xatan2 xlt].
    destruct (Rlt_bool (Ratan2 (vy p) (vx p)) 0) eqn:L; rb.
    + change (f2 : XR) with (XFin 2). cbn [xmul xadd]. exists (Ratan2 (vy p) (vx p) + PI * 2). split; auto. split; [lra|].
      replace (PI * 2) with (2 * INR 1 * PI) by (simpl; ring). rewrite cos_period, sin_period. auto.
    + exists (Ratan2 (vy p) (vx p)). split; auto. split; [lra|auto].
Qed.

Lemma spherical_spec (p : rv) r phi : 0 < r -> vdot p p = r * r ->
  sqrt (vx p * vx p + vy p * vy p) * cos phi = vx p -> sqrt (vx p * vx p + vy p * vy p) * sin phi = vy p ->
  let theta := acos (vz p / r) in
  -1 <= vz p / r <= 1 /\ 0 <= theta <= PI /\ p = spherical r phi theta /\
  r * sin theta = sqrt (vx p * vx p + vy p * vy p).
Proof.
  intros Hr Hp C S theta. unfold vdot in Hp.
  assert (Bz : -1 <= vz p / r <= 1).
  { assert (vz p * vz p <= r * r) by (pose proof (Rle_0_sqr (vx p)); pose proof (Rle_0_sqr (vy p)); unfold Rsqr in *; lra).
    assert (- r <= vz p <= r) by (split; nra).
    split; apply Rmult_le_reg_r with r; auto; unfold Rdiv; rewrite Rmult_assoc, Rinv_l; lra. }
  split; auto. split; [apply acos_bound|].
  assert (Q : r * sin theta = sqrt (vx p * vx p + vy p * vy p)).
  { unfold theta. rewrite sin_acos by auto.
    replace (vx p * vx p + vy p * vy p) with (Rsqr r * (1 - Rsqr (vz p / r))).
    - rewrite sqrt_mult_alt by apply Rle_0_sqr. rewrite sqrt_Rsqr by lra. reflexivity.
    - unfold Rsqr. field_simplify; lra. }
  split; auto. apply V3_eq; unfold spherical; vproj.
  - rewrite Q. auto. 
  - rewrite Q. auto.
  - unfold theta. rewrite cos_acos by auto. field. lra.
Qed.

(** What [sp_interaction] reports, for a ray that meets the sphere at parameter [x]. *)
Lemma sp_interaction_fin {T} c r o d tmax x : 0 < r -> on_sphere c r (at_t o d x) ->
  let q := vsub (at_t o d x) c in
  exists phi theta err dpdu dpdv,
    sp_interaction (T := T) (msp c r) (sp_local_ray (msp c r) (mkRay (fin3 o) (fin3 d) tmax)) (XFin x) =
      (mkI (fin3 (at_t o d x)) err (mkP2 (XFin phi) (XFin theta)) (fin3 (vunit q)) (fin3 (vunit q))
           dpdu dpdv (fin3 (vscale (-1) d)) None, XFin x) /\
    (0 <= phi < 2 * PI) /\ (0 <= theta <= PI) /\ q = spherical r phi theta /\
    dpdu = fin3 (vscale (2 * PI) (mkV3 (- vy q) (vx q) 0)) /\
    (vx q <> 0 \/ vy q <> 0 ->
       dpdv = fin3 (vscale PI (mkV3 (r * cos theta * cos phi) (r * cos theta * sin phi) (- (r * sin theta))))) /\
    err = fin3 (vscale (5 / 16777216 / (1 - 5 / 16777216)) (mkV3 (Rabs (vx q)) (Rabs (vy q)) (Rabs (vz q)))).
Proof.
  intros Hr On q. pose proof PI_RGT_0 as Hpi.
  assert (Hq : vdot q q = r * r) by (apply on_sphere_sq; auto).
  assert (Nq : vnorm q = r) by (unfold vnorm; rewrite Hq; apply sqrt_square; lra).
  assert (Q0 : q <> v0) by (intros E; rewrite E in Hq; unfold vdot, v0 in Hq; cbn in Hq; nra).
  assert (El : sp_local_ray (msp c r) (mkRay (fin3 o) (fin3 d) tmax) = mkRay (fin3 (vsub o c)) (fin3 d) tmax).
  { unfold sp_local_ray, sp_world_to_local, msp. cbn [sp_center r_o r_d r_tmax].
    rewrite v3neg_fin, v3add_fin. do 2 f_equal. vring. }
  rewrite El. unfold sp_interaction, ray_position. cbn [r_o r_d].
  rewrite v3scale_fin, v3add_fin.
  replace (vadd (vsub o c) (vscale x d)) with q by (unfold q, at_t; vring).
  rewrite v3length_fin, Nq. change (sp_radius (msp c r)) with (XFin r). xsimp. rewrite xdiv_fin by lra.
  rewrite v3scale_fin. replace (vscale (r / r) q) with q by (apply V3_eq; unfold vscale; vproj; field; lra).
  destruct (sp_phi_fin c q r Hr) as (phi & Ephi & Bphi & C & S). rewrite Ephi.
  destruct (spherical_spec q r phi Hr Hq C S) as (Bz & Bt & Eq & Hsin). set (theta := acos (vz q / r)) in *.
  exists phi, theta. do 3 eexists. split.
  { rewrite v3normalize_fin by auto. 
    assert (Ecl : clamp (xdiv (vz (fin3 q)) (XFin r)) (XFin (-1)) f1 = XFin (vz q / r)).
    { cbn [fin3 vz]. rewrite xdiv_fin by lra. unfold clamp, f1. xsimp. cbn [xlt].
      rewrite !Rlt_bool_false by lra. reflexivity. }
    xsimp. rewrite Ecl. cbn [xacos]. rewrite Rlt_bool_false by (apply Rabs_le; auto). fold theta.
    unfold sp_partials. unfold sp_local_to_world. cbn [msp sp_center]. rewrite v3add_fin, v3neg_fin.
    replace (vadd q c) with (at_t o d x) by (unfold q; vring). reflexivity. }
  split; auto. split; auto. split; auto. split; [|split].
  - cbn [fin3 vx vy vz]. unfold fin3, f2, f0; xsimp. cbn [xmul]. apply V3_eq; cbn [vx vy vz vscale]; f_equal; ring.
  - intros Nxy. cbn [fin3 vx vy vz]. unfold fin3. xsimp. cbn [xmul xadd].
    pose proof (Rle_0_sqr (vx q)) as P1. pose proof (Rle_0_sqr (vy q)) as P2. unfold Rsqr in P1, P2.
    assert (0 < vx q * vx q + vy q * vy q).
    { destruct Nxy as [N|N]; apply Rsqr_pos_lt in N; unfold Rsqr in N; lra. }
    rewrite xsqrt_fin by lra. rewrite <- Hsin in *. set (rs := r * sin theta) in *.
    assert (rs <> 0). { rewrite Hsin. intros E. apply sqrt_eq_0 in E; lra. }
    rewrite !xdiv_fin by auto. cbn [xneg xmul].
    assert (vz q = r * cos theta) by (rewrite Eq at 1; reflexivity). rewrite <- H1.
    apply V3_eq; cbn [vx vy vz vscale]; f_equal.
    + rewrite <- C. field. auto.
    + rewrite <- S. field. auto.
  - rewrite v3abs_fin. unfold gamma, MACHINE_EPSILON, f1. rewrite fhalf_X. xsimp. cbn [xmul xsub].
    rewrite xdiv_fin by lra. rewrite v3scale_fin. do 2 f_equal. field.
Qed.
