(** * Spheres, triangles and meshes (C35 - C42) *)
From Coq Require Import ZArith Reals Bool List Lra Lia.
From Flocq Require Import Core.Raux.
From Verif Require Import Model.Num Model.NumX Model.Vector Model.Common Model.BBox Model.Interaction Model.Shape
  Model.Sphere Model.Triangle Spec.RVec Spec.BoxSpec Spec.ShapeSpec Proofs.XBase Proofs.RVecProofs Proofs.BoxProofs
  Proofs.ShapeProofs Proofs.TriangleProofs.
Import ListNotations.
Local Open Scope R_scope.

(** ** C35 *)
Theorem C35_first_hit : forall (T : Type) (c : rv) (r : R) (o d : rv) (tmax : XR), d <> v0 ->
  match sp_intersect (T := T) (mkSphere (fin3 c) (XFin r)) (mkRay (fin3 o) (fin3 d) tmax) with
  | Some (_, t) => exists x, t = XFin x /\ 0 < x /\ xlt (XFin x) tmax = true /\
      on_sphere c r (at_t o d x) /\ forall y, 0 < y < x -> ~ on_sphere c r (at_t o d y)
  | None => forall y, 0 < y -> xlt (XFin y) tmax = true -> ~ on_sphere c r (at_t o d y)
  end.
Proof.
  intros T c r o d tmax Hd. pose proof (sp_has_fin c r o d tmax Hd) as H. cbv zeta in H.
  unfold sp_intersect. unfold msp in H. destruct (sp_has_intersection _ _) as [t|]; [|exact H].
  unfold sp_interaction. destruct (sp_partials _). exact H.
Qed.

Lemma ex_sphere : on_sphere (mkV3 0 0 3) 1 (at_t v0 (mkV3 0 0 1) 2).
Proof. apply on_sphere_sq. unfold vdot, vsub, at_t, vadd, vscale, v0; cbn; ring. Qed.

(** the ray from the origin along z meets the unit sphere around (0,0,3) first at t = 2 *)
Example C35_example : exists i, sp_intersect (T := unit) (mkSphere (fin3 (mkV3 0 0 3)) (XFin 1))
  (mkRay (fin3 v0) (fin3 (mkV3 0 0 1)) (XInf false)) = Some (i, XFin 2).
Proof.
  assert (Hd : mkV3 0 0 1 <> v0) by (intros E; apply (f_equal vz) in E; cbn in E; lra).
  pose proof (C35_first_hit unit (mkV3 0 0 3) 1 v0 (mkV3 0 0 1) (XInf false) Hd) as H.
  destruct (sp_intersect _ _) as [[i t]|].
  - destruct H as (x & -> & Hx & _ & On & First). exists i. do 3 f_equal.
    apply on_sphere_sq in On. unfold vdot, vsub, at_t, vadd, vscale, v0 in On; cbn in On.
    assert (Q : (x - 2) * (x - 4) = 0) by lra. apply Rmult_integral in Q as [Q|Q]; [lra|].
    exfalso. apply (First 2); [lra|exact ex_sphere].
  - exfalso. apply (H 2); [lra|reflexivity|exact ex_sphere].
Qed.

(** ** C36 *)
Theorem C36_hit_geometry_partial : forall (T : Type) (c : rv) (r : R) (o d : rv) (tmax : XR) (i : interaction XR T) (t : XR),
  d <> v0 -> 0 < r ->
  sp_intersect (mkSphere (fin3 c) (XFin r)) (mkRay (fin3 o) (fin3 d) tmax) = Some (i, t) ->
  exists (x phi theta : R) (p n : rv),
    t = XFin x /\ i_p i = fin3 p /\ p = at_t o d x /\ on_sphere c r p /\
    i_n i = fin3 n /\ i_sn i = fin3 n /\ vnorm n = 1 /\ vsub p c = vscale r n /\
    i_wo i = fin3 (vscale (-1) d) /\
    i_uv i = mkP2 (XFin phi) (XFin theta) /\ 0 <= phi < 2 * PI /\ 0 <= theta <= PI /\
    vsub p c = spherical r phi theta /\
    (* tangents, away from the two poles *)
    (vx p <> vx c \/ vy p <> vy c ->
      exists du dv, i_dpdu i = fin3 du /\ i_dpdv i = fin3 dv /\ du <> v0 /\ dv <> v0 /\
        vdot du n = 0 /\ vdot dv n = 0 /\ vdot du dv = 0 /\
        vderiv (fun u => spherical r (2 * PI * u) theta) (phi / (2 * PI)) du /\
        vderiv (fun w => spherical r phi (PI * w)) (theta / PI) dv).
Proof.
  intros T c r o d tmax i t Hd Hr H. pose proof PI_RGT_0 as Hpi.
  pose proof (sp_has_fin c r o d tmax Hd) as Hh. cbv zeta in Hh.
  unfold sp_intersect in H. unfold msp in Hh. destruct (sp_has_intersection _ _) as [t'|]; [|discriminate].
  destruct Hh as (x & -> & Hx & _ & On & _). apply (f_equal (fun q => match q with Some z => z | None => (i, t) end)) in H.
  destruct (sp_interaction_fin (T := T) c r o d tmax x Hr On) as (phi & theta & err & du & dv & E & Bphi & Bt & Eq & Edu & Edv & _).
  unfold msp in E. rewrite E in H. clear E. apply pair_equal_spec in H as [<- <-].
  set (q := vsub (at_t o d x) c) in *.
  assert (Hq : vdot q q = r * r) by (apply on_sphere_sq; auto).
  assert (Nq : vnorm q = r) by (unfold vnorm; rewrite Hq; apply sqrt_square; lra).
  assert (Q0 : q <> v0) by (intros E; rewrite E in Hq; unfold vdot, v0 in Hq; cbn in Hq; nra).
  exists x, phi, theta, (at_t o d x), (vunit q). cbn [i_p i_n i_sn i_wo i_uv i_dpdu i_dpdv].
  repeat (split; [solve [auto | now apply vnorm_unit]|]).
  split. { fold q. unfold vunit. rewrite Nq. apply V3_eq; unfold vscale; vproj; field; lra. }
  repeat (split; [solve [auto]|]).
  intros Np. assert (Np' : vx q <> 0 \/ vy q <> 0) by (unfold q, vsub; cbn [vx vy]; destruct Np; [left|right]; lra).
  rewrite (Edv Np'), Edu. do 2 eexists. split; [reflexivity|]. split; [reflexivity|].
  assert (Ex : vx q = r * sin theta * cos phi) by (rewrite Eq; reflexivity).
  assert (Ey : vy q = r * sin theta * sin phi) by (rewrite Eq; reflexivity).
  assert (Ez : vz q = r * cos theta) by (rewrite Eq; reflexivity).
  assert (Hs : r * sin theta <> 0) by (intros Z; rewrite Ex, Ey, Z in Np'; destruct Np'; lra).
  assert (Hs' : sin theta <> 0) by (intros Z; rewrite Z in Hs; lra).
  pose proof (sin2_cos2 phi) as SC. pose proof (sin2_cos2 theta) as SCt. unfold Rsqr in SC, SCt.
  split. { intros Z. pose proof (f_equal vx Z) as Z1. pose proof (f_equal vy Z) as Z2. cbn [vscale vx vy v0] in Z1, Z2.
    destruct Np'; nra. }
  split. { intros Z. pose proof (f_equal vz Z) as Z1. cbn [vscale vz v0] in Z1. nra. }
  split. { unfold vunit. rewrite vdot_scale_r, vdot_scale_l. unfold vdot. vproj. ring. }
  split. { unfold vunit. rewrite vdot_scale_r, vdot_scale_l. unfold vdot. vproj. rewrite Ex, Ey, Ez.
    replace (r * cos theta * cos phi * (r * sin theta * cos phi) + r * cos theta * sin phi * (r * sin theta * sin phi) +
      - (r * sin theta) * (r * cos theta)) with (r * r * cos theta * sin theta * (sin phi * sin phi + cos phi * cos phi - 1)) by ring.
    rewrite SC. ring. }
  split. { rewrite vdot_scale_r, vdot_scale_l. unfold vdot. vproj. rewrite Ex, Ey. ring. }
  assert (Dcos : forall k y, derivable_pt_lim (fun u => cos (k * u)) y (- sin (k * y) * k)).
  { intros k y. apply (derivable_pt_lim_comp (fun u => k * u) cos); [|apply derivable_pt_lim_cos].
    pose proof (derivable_pt_lim_scal id k y 1 (derivable_pt_lim_id y)) as D. rewrite Rmult_1_r in D. exact D. }
  assert (Dsin : forall k y, derivable_pt_lim (fun u => sin (k * u)) y (cos (k * y) * k)).
  { intros k y. apply (derivable_pt_lim_comp (fun u => k * u) sin); [|apply derivable_pt_lim_sin].
    pose proof (derivable_pt_lim_scal id k y 1 (derivable_pt_lim_id y)) as D. rewrite Rmult_1_r in D. exact D. }
  assert (Escal : forall k f y l l', derivable_pt_lim f y l -> l' = k * l -> derivable_pt_lim (fun u => k * f u) y l')
    by (intros k f y l l' D ->; now apply (derivable_pt_lim_scal f)).
  assert (Escal' : forall k f y l l', derivable_pt_lim f y l -> l' = k * l -> derivable_pt_lim (fun u => f u * k) y l').
  { intros k f y l l' D ->. replace (k * l) with (l * k + f y * 0) by ring.
    apply (derivable_pt_lim_mult f (fct_cte k)); auto. apply derivable_pt_lim_const. }
  assert (Ephi : 2 * PI * (phi / (2 * PI)) = phi) by (field; lra).
  assert (Etheta : PI * (theta / PI) = theta) by (field; lra).
  split.
  - repeat split; cbn [spherical vx vy vz vscale].
    + eapply Escal; [apply Dcos|]. rewrite Ephi, Ey. ring.
    + eapply Escal; [apply Dsin|]. rewrite Ephi, Ex. ring.
    + replace (2 * PI * 0) with 0 by ring. apply (derivable_pt_lim_const (r * cos theta)).
  - repeat split; cbn [spherical vx vy vz vscale].
    + eapply Escal'; [eapply Escal; [apply Dsin|reflexivity]|]. rewrite Etheta. ring.
    + eapply Escal'; [eapply Escal; [apply Dsin|reflexivity]|]. rewrite Etheta. ring.
    + eapply Escal; [apply Dcos|]. rewrite Etheta. ring.
Qed.

(** at a pole the first tangent is zero and the second is not a number *)
Theorem C36_poles_refuted : exists (s : sphere XR) (ra : ray XR) (i : interaction XR unit) (t : XR),
  sp_intersect s ra = Some (i, t) /\ i_p i = fin3 (mkV3 0 0 (-1)) /\ i_dpdu i = fin3 v0 /\ vx (i_dpdv i) = XNaN.
Proof.
  set (o := mkV3 0 0 (-3)). set (d := mkV3 0 0 1).
  assert (Hd : d <> v0) by (intros E; apply (f_equal vz) in E; cbn in E; lra).
  assert (On : on_sphere v0 1 (at_t o d 2)) by (apply on_sphere_sq; unfold vdot, vsub, at_t, vadd, vscale, v0, o, d; cbn; ring).
  exists (msp v0 1), (mkRay (fin3 o) (fin3 d) (XInf false)).
  pose proof (sp_has_fin v0 1 o d (XInf false) Hd) as H. cbv zeta in H.
  unfold sp_intersect. destruct (sp_has_intersection _ _) as [t'|]; [|exfalso; apply (H 2); [lra|reflexivity|exact On]].
  destruct H as (x & -> & Hx & _ & On' & First).
  assert (x = 2) as ->.
  { apply on_sphere_sq in On'. unfold vdot, vsub, at_t, vadd, vscale, v0, o, d in On'; cbn in On'.
    assert (Q : (x - 2) * (x - 4) = 0) by lra. apply Rmult_integral in Q as [Q|Q]; [lra|].
    exfalso. apply (First 2); [lra|exact On]. }
  assert (Ep : at_t o d 2 = mkV3 0 0 (-1)) by (unfold at_t, o, d; apply V3_eq; unfold vadd, vscale; vproj; ring).
  do 2 eexists. split; [reflexivity|].
  destruct (sp_interaction_fin (T := unit) v0 1 o d (XInf false) 2 ltac:(lra) On) as (phi & theta & err & du & dv & E & _ & _ & _ & Edu & _).
  rewrite Ep in Edu. pose proof (f_equal (fun q => i_p (fst q)) E) as E1. pose proof (f_equal (fun q => i_dpdu (fst q)) E) as E2.
  cbn [fst i_p i_dpdu] in E1, E2. rewrite Ep in E1.
  split; [rewrite <- E1; reflexivity|]. split.
  - transitivity du; [rewrite <- E2; reflexivity|]. rewrite Edu. f_equal. apply V3_eq; unfold vscale, vsub, v0; vproj; ring.
  - unfold sp_interaction, sp_partials, ray_position, sp_local_ray, sp_world_to_local.
    cbn [fst i_dpdv vx vy vz sp_center sp_radius msp r_o r_d]. rewrite v3neg_fin, v3add_fin, v3scale_fin, v3add_fin.
    replace (vadd (vadd o (vscale (-1) v0)) (vscale 2 d)) with (mkV3 0 0 (-1))
      by (unfold o, d, v0; apply V3_eq; unfold vadd, vscale; vproj; ring).
    rewrite v3length_fin. assert (En : vnorm (mkV3 0 0 (-1)) = 1).
    { unfold vnorm, vdot. cbn [vx vy vz]. replace (0 * 0 + 0 * 0 + -1 * -1) with 1 by ring. apply sqrt_1. }
    rewrite En. xsimp. rewrite xdiv_fin, v3scale_fin by lra. cbn [fin3 vscale vx vy vz xmul xadd].
    replace (1 / 1 * 0) with 0 by lra. replace (0 * 0 + 0 * 0) with 0 by ring. rewrite xsqrt_fin, sqrt_0 by lra.
    replace (PI * (1 / 1 * -1) * 0) with 0 by ring. apply xdiv_zero_zero.
Qed.

(** a hit away from the poles: the ray from (-2,0,0) along x *)
Example C36_example : exists (i : interaction XR unit) t,
  sp_intersect (mkSphere (fin3 v0) (XFin 1)) (mkRay (fin3 (mkV3 (-2) 0 0)) (fin3 (mkV3 1 0 0)) (XInf false)) = Some (i, t) /\
  i_p i = fin3 (mkV3 (-1) 0 0).
Proof.
  assert (Hd : mkV3 1 0 0 <> v0) by (intros E; apply (f_equal vx) in E; cbn in E; lra).
  pose proof (C35_first_hit unit v0 1 (mkV3 (-2) 0 0) (mkV3 1 0 0) (XInf false) Hd) as H.
  assert (On : on_sphere v0 1 (at_t (mkV3 (-2) 0 0) (mkV3 1 0 0) 1))
    by (apply on_sphere_sq; unfold vdot, vsub, at_t, vadd, vscale, v0; cbn; ring).
  destruct (sp_intersect _ _) as [[i t]|] eqn:E; [|exfalso; apply (H 1); [lra|reflexivity|exact On]].
  exists i, t. split; auto. destruct H as (x & -> & Hx & _ & On' & First).
  assert (x = 1) as ->.
  { apply on_sphere_sq in On'. unfold vdot, vsub, at_t, vadd, vscale, v0 in On'; cbn in On'.
    assert (Q : (x - 1) * (x - 3) = 0) by lra. apply Rmult_integral in Q as [Q|Q]; [lra|].
    exfalso. apply (First 1); [lra|exact On]. }
  destruct (C36_hit_geometry_partial unit _ _ _ _ _ _ _ Hd Rlt_0_1 E) as (x & _ & _ & p & n & Ex & -> & -> & _).
  assert (x = 1) as -> by congruence. f_equal. apply V3_eq; unfold at_t, vadd, vscale; cbn; ring.
Qed.

(** ** C37 *)
Theorem C37_hit_is_real : forall (T : Type) (v : tri rv) vn rev (o d : rv) (tmax : XR) (i : interaction XR T) (t : XR),
  d <> v0 -> xis_nan tmax = false ->
  tr_intersect (mkTri (mk3 (fin3 (t0 v)) (fin3 (t1 v)) (fin3 (t2 v))) vn rev) (mkRay (fin3 o) (fin3 d) tmax) = Ok (Some (i, t)) ->
  exists x b0 b1 b2, t = XFin x /\ 0 < x /\ xle (XFin x) tmax = true /\ weights b0 b1 b2 /\
    i_p i = fin3 (comb v b0 b1 b2) /\ comb v b0 b1 b2 = at_t o d x /\
    i_uv i = mkP2 (XFin (b1 + b2)) (XFin b2) /\ i_wo i = fin3 (vscale (-1) d).
Proof.
  intros T v vn rev o d tmax i t Hd Hn H.
  destruct (hit_inv v vn rev o d tmax i t Hd Hn H) as (b0 & b1 & b2 & x & Et & W & Hx & Hm & P & Ep & Euv & Ew & _).
  exists x, b0, b1, b2. repeat (split; [assumption|]). assumption.
Qed.

(** Conversely: [R0] bounds the distance of the vertices from the origin, per coordinate; the test gives
    up crossings with t * |N . d| up to 2.6e-5 R0^3, N = (v1 - v0) x (v2 - v0) (the error bound). *)
Theorem C37_crossing_is_hit : forall (T : Type) (v : tri rv) vn rev (o d : rv) (tmax : XR) (b0 b1 b2 x R0 : R),
  d <> v0 -> xis_nan tmax = false -> weights b0 b1 b2 -> comb v b0 b1 b2 = at_t o d x ->
  0 < x -> xle (XFin x) tmax = true ->
  (forall a, Rabs (v3get (vsub (t0 v) o) a) <= R0 /\ Rabs (v3get (vsub (t1 v) o) a) <= R0 /\ Rabs (v3get (vsub (t2 v) o) a) <= R0) ->
  26 / 1000000 * (R0 * R0 * R0) < x * Rabs (vdot (vcross (vsub (t1 v) (t0 v)) (vsub (t2 v) (t0 v))) d) ->
  exists i : interaction XR T,
    tr_intersect (mkTri (mk3 (fin3 (t0 v)) (fin3 (t1 v)) (fin3 (t2 v))) vn rev) (mkRay (fin3 o) (fin3 d) tmax) = Ok (Some (i, XFin x)) /\
    i_p i = fin3 (comb v b0 b1 b2).
Proof.
  intros T v vn rev o d tmax b0 b1 b2 x R0 Hd Hn W C Hx Hm HR Hb.
  destruct (hit_complete (T := T) v vn rev o d tmax b0 b1 b2 x R0 Hd Hn W C Hx Hm HR Hb) as (i & E & P & _).
  exists i. auto.
Qed.

(** the intersection test never panics for a non-zero direction *)
Theorem C37_no_panic : forall (T : Type) (v : tri rv) vn rev (o d : rv) (tmax : XR), d <> v0 ->
  exists h, tr_intersect (T := T) (mkTri (mk3 (fin3 (t0 v)) (fin3 (t1 v)) (fin3 (t2 v))) vn rev) (mkRay (fin3 o) (fin3 d) tmax) = Ok h.
Proof.
  intros T v vn rev o d tmax Hd. destruct (max_abs_axis_fin d Hd) as (a & Ea & Ha & _).
  change (mk3 (fin3 (t0 v)) (fin3 (t1 v)) (fin3 (t2 v))) with (ftri v).
  rewrite (tr_intersect_fin o d a v vn rev tmax Ea Ha).
  destruct (rmixed _ _ _ _); [eauto|]. destruct (Req_bool _ _); [eauto|]. destruct (rout _ _ _ _ _); [eauto|].
  destruct (Rle_bool _ _); [eauto|]. cbv zeta. destruct (tr_frame _ _ _ _) as [[[? ?] ?] ?]. eauto.
Qed.

Definition ex_tri : tri rv := mk3 (mkV3 (-1) 0 0) (mkV3 1 0 0) (mkV3 0 1 0).
Lemma ex_tri_dir : mkV3 0 0 (-1) <> v0.
Proof. intros E; apply (f_equal vz) in E; cbn in E; lra. Qed.
Lemma ex_tri_bound : forall a, Rabs (v3get (vsub (t0 ex_tri) (mkV3 0 0 1)) a) <= 1 /\
  Rabs (v3get (vsub (t1 ex_tri) (mkV3 0 0 1)) a) <= 1 /\ Rabs (v3get (vsub (t2 ex_tri) (mkV3 0 0 1)) a) <= 1.
Proof. intros []; unfold ex_tri, vsub; cbn; repeat split; apply Rabs_le; lra. Qed.
Lemma ex_tri_err : 26 / 1000000 * (1 * 1 * 1) <
  1 * Rabs (vdot (vcross (vsub (t1 ex_tri) (t0 ex_tri)) (vsub (t2 ex_tri) (t0 ex_tri))) (mkV3 0 0 (-1))).
Proof. unfold ex_tri, vdot, vcross, vsub; cbn. rewrite Rabs_left; lra. Qed.

(** the ray down from (0,0,1) hits the triangle at t = 1 in the middle of an edge *)
Example C37_example : exists i : interaction XR unit,
  tr_intersect (mkTri (mk3 (fin3 (t0 ex_tri)) (fin3 (t1 ex_tri)) (fin3 (t2 ex_tri))) None false)
    (mkRay (fin3 (mkV3 0 0 1)) (fin3 (mkV3 0 0 (-1))) (XFin 5)) = Ok (Some (i, XFin 1)) /\
  i_p i = fin3 v0.
Proof.
  destruct (C37_crossing_is_hit unit ex_tri None false (mkV3 0 0 1) (mkV3 0 0 (-1)) (XFin 5) (1/2) (1/2) 0 1 1) as (i & E & P);
    [apply ex_tri_dir|reflexivity|unfold weights; lra| |lra|cbn; apply Rle_bool_true; lra|apply ex_tri_bound|apply ex_tri_err|].
  - unfold comb, at_t, ex_tri; apply V3_eq; unfold vadd, vscale; cbn; lra.
  - exists i. split; [exact E|]. rewrite P. f_equal. unfold comb, ex_tri, v0; apply V3_eq; unfold vadd, vscale; cbn; lra.
Qed.

(** ** C38: every arithmetic *)
Theorem C38_triangle : forall (F T : Type) (FO : FOps F) (s : triangle F) (r : ray F),
  tr_intersect_p s r =
  match tr_intersect (T := T) s r with Ok (Some _) => Ok true | Ok None => Ok false | Panic => Panic | Timeout => Timeout end.
Proof.
  intros. unfold tr_intersect_p, tr_intersect. destruct (max_abs_axis (r_d r)); cbn [rbind]; auto. cbv zeta.
  repeat match goal with |- context [if ?b then Ok false else _] => destruct b; [reflexivity|] end.
  destruct (tr_frame _ _ _ _) as [[[? ?] ?] ?]. reflexivity.
Qed.

Theorem C38_sphere : forall (F D T : Type) (FO : FOps F) (FD : FOps D) (LK : F64Link F D) (s : sphere F) (r : ray F),
  sp_intersect_p s r = match sp_intersect (T := T) s r with Some _ => true | None => false end.
Proof.
  intros. unfold sp_intersect_p, sp_intersect. destruct (sp_has_intersection _ _); auto.
Qed.

(** as the containers see the two kinds of shape *)
Theorem C38_shapes : forall (F D T : Type) (FO : FOps F) (FD : FOps D) (LK : F64Link F D) (x : shape F T) (r : ray F),
  (exists s, x = sphere_shape s) \/ (exists s, x = triangle_shape s) ->
  sh_intersect_p x r = match sh_intersect x r with Ok (Some _) => Ok true | Ok None => Ok false | Panic => Panic | Timeout => Timeout end.
Proof.
  intros F D T FO FD LK x r [[s ->]|[s ->]].
  - cbn [sphere_shape sh_intersect sh_intersect_p]. rewrite (C38_sphere F D T). destruct (sp_intersect _ _); reflexivity.
  - cbn [triangle_shape sh_intersect sh_intersect_p]. apply C38_triangle.
Qed.

Example C38_example : tr_intersect_p (mkTri (mk3 (fin3 (t0 ex_tri)) (fin3 (t1 ex_tri)) (fin3 (t2 ex_tri))) None false)
    (mkRay (fin3 (mkV3 0 0 1)) (fin3 (mkV3 0 0 (-1))) (XFin 5)) = Ok true.
Proof. rewrite (C38_triangle XR unit). destruct C37_example as (i & -> & _). reflexivity. Qed.

(** ** C39 *)
Theorem C39_triangle : forall (T : Type) (v : tri rv) vn rev (o d : rv) (tmax : XR) (i : interaction XR T) (t : XR),
  d <> v0 -> xis_nan tmax = false ->
  let s := mkTri (mk3 (fin3 (t0 v)) (fin3 (t1 v)) (fin3 (t2 v))) vn rev in
  tr_intersect s (mkRay (fin3 o) (fin3 d) tmax) = Ok (Some (i, t)) ->
  exists lo hi p, tr_bbox s = mkBB (fin3 lo) (fin3 hi) /\ i_p i = fin3 p /\ in_box lo hi p.
Proof.
  intros T v vn rev o d tmax i t Hd Hn s H.
  destruct (hit_inv v vn rev o d tmax i t Hd Hn H) as (b0 & b1 & b2 & x & _ & (B0 & B1 & B2 & S) & _ & _ & _ & Ep & _).
  set (m3 := fun a b c => Rmin (Rmin a b) c). set (M3 := fun a b c => Rmax (Rmax b a) c).
  exists (mkV3 (m3 (vx (t0 v)) (vx (t1 v)) (vx (t2 v))) (m3 (vy (t0 v)) (vy (t1 v)) (vy (t2 v))) (m3 (vz (t0 v)) (vz (t1 v)) (vz (t2 v)))).
  exists (mkV3 (M3 (vx (t0 v)) (vx (t1 v)) (vx (t2 v))) (M3 (vy (t0 v)) (vy (t1 v)) (vy (t2 v))) (M3 (vz (t0 v)) (vz (t1 v)) (vz (t2 v)))).
  exists (comb v b0 b1 b2). split; [|split; [exact Ep|]].
  - assert (Fm : forall a b, fmin (XFin a) (XFin b) = XFin (Rmin a b)).
    { intros. unfold fmin. xsimp. cbn [xis_nan xlt]. unfold Rmin. destruct (Rle_dec a b); destruct (Rlt_bool _ _) eqn:E; rb; auto; f_equal; lra. }
    unfold s, tr_bbox, bbox_union_point, bbox_new, v3min, v3max, v3map2, fin3. cbn [tr_v t0 t1 t2 vx vy vz bmin bmax].
    rewrite !Fm, !fmax_XFin. reflexivity.
  - assert (L : forall a b c, m3 a b c <= b0 * a + b1 * b + b2 * c <= M3 a b c).
    { intros a b c. unfold m3, M3.
      pose proof (Rmin_l (Rmin a b) c). pose proof (Rmin_r (Rmin a b) c). pose proof (Rmin_l a b). pose proof (Rmin_r a b).
      pose proof (Rmax_l (Rmax b a) c). pose proof (Rmax_r (Rmax b a) c). pose proof (Rmax_l b a). pose proof (Rmax_r b a).
      set (lo := Rmin (Rmin a b) c) in *. set (hi := Rmax (Rmax b a) c) in *.
      assert (E1 : lo = b0 * lo + b1 * lo + b2 * lo) by (replace b0 with (1 - b1 - b2) by lra; ring).
      assert (E2 : hi = b0 * hi + b1 * hi + b2 * hi) by (replace b0 with (1 - b1 - b2) by lra; ring).
      rewrite E1, E2. split; repeat apply Rplus_le_compat; apply Rmult_le_compat_l; lra. }
    unfold in_box, comb, vadd, vscale. cbn [vx vy vz]. repeat split; apply L.
Qed.

Theorem C39_sphere : forall (T : Type) (c : rv) (r : R) (o d : rv) (tmax : XR) (i : interaction XR T) (t : XR),
  d <> v0 -> 0 < r ->
  let s := mkSphere (fin3 c) (XFin r) in
  sp_intersect s (mkRay (fin3 o) (fin3 d) tmax) = Some (i, t) ->
  exists lo hi p, sp_bbox s = mkBB (fin3 lo) (fin3 hi) /\ i_p i = fin3 p /\ in_box lo hi p.
Proof.
  intros T c r o d tmax i t Hd Hr s H.
  destruct (C36_hit_geometry_partial T c r o d tmax i t Hd Hr H) as (x & _ & _ & p & n & _ & Ep & _ & On & _).
  exists (vsub c (mkV3 r r r)), (vadd c (mkV3 r r r)), p. split; [|split; [exact Ep|]].
  - assert (Fm : forall a, fmin (XFin (a - r)) (XFin (a + r)) = XFin (a - r)).
    { intros. unfold fmin. xsimp. cbn [xis_nan xlt]. destruct (Rlt_bool _ _) eqn:E; rb; auto. lra. }
    assert (FM : forall a, fmax (XFin (a + r)) (XFin (a - r)) = XFin (a + r)).
    { intros. rewrite fmax_XFin, Rmax_left by lra. reflexivity. }
    unfold s, sp_bbox, bbox_new, v3min, v3max, v3map2, fin3. cbn [sp_center sp_radius vx vy vz]. xsimp. cbn [xsub xadd].
    rewrite !Fm, !FM. reflexivity.
  - apply on_sphere_sq in On. unfold vdot, vsub in On. cbn [vx vy vz] in On.
    assert (K : forall y z w, y * y + z * z + w * w = r * r -> - r <= y <= r) by (intros; split; nra).
    pose proof (K _ _ _ On) as K1. pose proof (K (vy p - vy c) (vx p - vx c) (vz p - vz c) ltac:(lra)) as K2.
    pose proof (K (vz p - vz c) (vx p - vx c) (vy p - vy c) ltac:(lra)) as K3.
    unfold in_box, vsub, vadd. cbn [vx vy vz]. repeat split; lra.
Qed.

(** the point (-1,0,0) of C36's example is on the boundary of the box of the unit sphere *)
Example C39_example : exists (i : interaction XR unit) t lo hi,
  sp_intersect (mkSphere (fin3 v0) (XFin 1)) (mkRay (fin3 (mkV3 (-2) 0 0)) (fin3 (mkV3 1 0 0)) (XInf false)) = Some (i, t) /\
  sp_bbox (mkSphere (fin3 v0) (XFin 1)) = mkBB (fin3 lo) (fin3 hi) /\ in_box lo hi (mkV3 (-1) 0 0) /\ vx lo = -1.
Proof.
  destruct C36_example as (i & t & E & P). exists i, t, (mkV3 (-1) (-1) (-1)), (mkV3 1 1 1). split; auto. split.
  - unfold sp_bbox, bbox_new, v3min, v3max, v3map2, fin3, v0. cbn [sp_center sp_radius vx vy vz]. xsimp. cbn [xsub xadd].
    rewrite !fmax_XFin. unfold fmin. xsimp. cbn [xis_nan]. cbn [xlt]. rewrite !Rlt_bool_false by lra.
    rewrite Rmax_left by lra. repeat f_equal; lra.
  - unfold in_box. cbn. lra.
Qed.

(** ** C40 *)
Lemma tri_area_cross v : tri_area v = / 2 * vnorm (tnormal v).
Proof.
  unfold tri_area, tnormal. set (u := vsub (t1 v) (t0 v)). set (w := vsub (t2 v) (t0 v)).
  rewrite Rmult_assoc. f_equal. destruct (v0_dec u) as [E|E].
  - rewrite E. unfold vnorm at 1, vdot at 1, v0. cbn [vx vy vz]. replace (0 * 0 + 0 * 0 + 0 * 0) with 0 by ring. rewrite sqrt_0.
    unfold vnorm, vcross, vdot. cbn [vx vy vz]. rewrite !Rmult_0_l, !Rminus_0_r, !Rmult_0_l, !Rplus_0_l, sqrt_0. reflexivity.
  - pose proof (vdot_self_pos u E) as P. unfold vnorm at 1 2. rewrite <- sqrt_mult by apply vdot_self_nonneg.
    unfold vnorm. f_equal. rewrite lagrange. unfold vdot, vsub, vscale in *. vproj. field. lra.
Qed.

Definition sample_b (u : P2 R) : R * R * R := (1 - sqrt (px u), py u * sqrt (px u), (1 - py u) * sqrt (px u)).

Lemma tr_sample_fin {T} v vn rev x y : 0 <= x ->
  let s := mkTri (ftri v) vn rev in
  let i := tr_sample (T := T) s (mkP2 (XFin x) (XFin y)) in
  i_p i = fin3 (comb v (1 - sqrt x) (y * sqrt x) ((1 - y) * sqrt x)) /\
  (tnormal v <> v0 -> i_n i = fin3 (if rev then vscale (-1) (vunit (tnormal v)) else vunit (tnormal v))).
Proof.
  intros Hx s i. unfold i, tr_sample. cbn [i_p i_n tr_v s px py]. unfold f1. xsimp. rewrite xsqrt_fin by auto.
  cbn [xsub xmul]. rewrite bary_fin. split.
  - do 2 f_equal. ring.
  - intros Hn. cbn [ftri t0 t1 t2]. rewrite !v3sub_fin, v3cross_fin. fold (tnormal v). rewrite v3normalize_fin by auto.
    destruct rev; auto. cbn [tr_rev]. now rewrite v3scale_fin.
Qed.

(** a sample is a point of the triangle, the normal is a unit normal and reversing the orientation flips it *)
Theorem C40_sample : forall (T : Type) (v : tri rv) vn rev (x y : R), 0 <= x <= 1 -> 0 <= y <= 1 ->
  let s rev := mkTri (mk3 (fin3 (t0 v)) (fin3 (t1 v)) (fin3 (t2 v))) vn rev in
  let i := tr_sample (T := T) (s rev) (mkP2 (XFin x) (XFin y)) in
  (exists p, i_p i = fin3 p /\ in_triangle v p) /\
  (vcross (vsub (t1 v) (t0 v)) (vsub (t2 v) (t0 v)) <> v0 ->
    exists n, i_n i = fin3 n /\ unit_normal_of v n /\
      i_n (tr_sample (T := T) (s (negb rev)) (mkP2 (XFin x) (XFin y))) = fin3 (vscale (-1) n) /\
      (rev = false -> 0 < vdot n (vcross (vsub (t1 v) (t0 v)) (vsub (t2 v) (t0 v))))).
Proof.
  intros T v vn rev x y Hx Hy s i. destruct (tr_sample_fin (T := T) v vn rev x y (proj1 Hx)) as [P N].
  assert (Sx : 0 <= sqrt x <= 1) by (split; [apply sqrt_pos|rewrite <- sqrt_1; apply sqrt_le_1_alt; lra]).
  split.
  - eexists. split; [exact P|]. do 3 eexists. split; [|reflexivity]. unfold weights.
    repeat split; try (apply Rmult_le_pos; lra); lra.
  - fold (tnormal v). intros Hn. eexists. split; [exact (N Hn)|].
    destruct (tr_sample_fin (T := T) v vn (negb rev) x y (proj1 Hx)) as [_ N2]. specialize (N2 Hn).
    split; [destruct rev; [apply unit_normal_opp|]; now apply unit_normal|]. split.
    + unfold s. unfold ftri in N2. rewrite N2. destruct rev; cbn [negb]; auto. f_equal. vring.
    + intros ->. unfold vunit. rewrite vdot_scale_l. apply Rmult_lt_0_compat;
        [apply Rinv_0_lt_compat, vnorm_pos; auto|apply vdot_self_pos; auto].
Qed.

(** the area is the true area and the pdf its reciprocal *)
Theorem C40_area_pdf : forall (T : Type) (v : tri rv) vn rev (r : interaction XR T) w,
  let s := mkTri (mk3 (fin3 (t0 v)) (fin3 (t1 v)) (fin3 (t2 v))) vn rev in
  tr_area s = XFin (tri_area v) /\
  (tri_area v <> 0 -> sh_pdf (triangle_shape s) r w = XFin (/ tri_area v)).
Proof.
  intros T v vn rev r w s.
  assert (A : tr_area s = XFin (tri_area v)).
  { unfold tr_area, s. cbn [tr_v t0 t1 t2]. rewrite !v3sub_fin, v3cross_fin, v3length_fin, fhalf_X. xsimp. cbn [xmul].
    rewrite tri_area_cross. unfold tnormal. f_equal. lra. }
  split; auto. intros Ha. unfold sh_pdf, triangle_shape. cbn [sh_area]. rewrite A. unfold f1. xsimp.
  rewrite xdiv_fin by auto. f_equal. unfold Rdiv. ring.
Qed.

(** sampling is uniform: the sample point is a differentiable function of the sample whose area element
    |dp/dx x dp/dy| is the constant area of the triangle, so the density over the surface is 1/area;
    and every point of the triangle is reached. *)
Theorem C40_uniform : forall (T : Type) (v : tri rv) vn rev, exists P : R -> R -> rv,
  (forall x y, 0 <= x <= 1 -> 0 <= y <= 1 ->
    i_p (tr_sample (T := T) (mkTri (mk3 (fin3 (t0 v)) (fin3 (t1 v)) (fin3 (t2 v))) vn rev) (mkP2 (XFin x) (XFin y))) = fin3 (P x y)) /\
  (forall x y, 0 < x < 1 -> 0 < y < 1 -> exists du dv,
    vderiv (fun s => P s y) x du /\ vderiv (fun s => P x s) y dv /\ vnorm (vcross du dv) = tri_area v) /\
  (forall p, in_triangle v p -> exists x y, 0 <= x <= 1 /\ 0 <= y <= 1 /\ P x y = p).
Proof.
  intros T v vn rev. set (P := fun x y => comb v (1 - sqrt x) (y * sqrt x) ((1 - y) * sqrt x)). exists P.
  split; [intros x y Hx Hy; apply (tr_sample_fin v vn rev x y (proj1 Hx))|]. split.
  - intros x y Hx Hy.
    set (A := vadd (vscale (-1) (t0 v)) (vadd (vscale y (t1 v)) (vscale (1 - y) (t2 v)))).
    set (B := vsub (t1 v) (t2 v)).
    exists (vscale (/ (2 * sqrt x)) A), (vscale (sqrt x) B).
    assert (Sx : 0 < sqrt x) by (apply sqrt_lt_R0; lra).
    assert (D1 : forall a b, derivable_pt_lim (fun s => a + b * sqrt s) x (/ (2 * sqrt x) * b)).
    { intros a b. replace (/ (2 * sqrt x) * b) with (0 + b * / (2 * sqrt x)) by ring.
      apply (derivable_pt_lim_plus (fct_cte a) (fun s => b * sqrt s)); [apply derivable_pt_lim_const|].
      apply (derivable_pt_lim_scal sqrt). apply derivable_pt_lim_sqrt. lra. }
    assert (D2 : forall a b, derivable_pt_lim (fun s => a + b * s) y b).
    { intros a b.
      pose proof (derivable_pt_lim_plus (fct_cte a) (fun s => b * s) y 0 (b * 1) (derivable_pt_lim_const a y)
        (derivable_pt_lim_scal id b y 1 (derivable_pt_lim_id y))) as D.
      rewrite Rmult_1_r, Rplus_0_l in D. exact D. }
    assert (Ext : forall f g z l, (forall s, f s = g s) -> derivable_pt_lim g z l -> derivable_pt_lim f z l).
    { intros f g z l E D eps He. destruct (D eps He) as [dl Hdl]. exists dl. intros h. rewrite !E. apply Hdl. }
    split; [|split].
    + unfold vderiv, P, comb, A, vadd, vscale. cbn [vx vy vz].
      repeat split.
      * eapply Ext; [|apply (D1 (vx (t0 v)))]. intros s; cbn beta; ring.
      * eapply Ext; [|apply (D1 (vy (t0 v)))]. intros s; cbn beta; ring.
      * eapply Ext; [|apply (D1 (vz (t0 v)))]. intros s; cbn beta; ring.
    + unfold vderiv, P, comb, B, vadd, vsub, vscale. cbn [vx vy vz].
      repeat split.
      * eapply Ext; [|apply (D2 (vx (t0 v) * (1 - sqrt x) + sqrt x * vx (t2 v)))]. intros s; cbn beta; ring.
      * eapply Ext; [|apply (D2 (vy (t0 v) * (1 - sqrt x) + sqrt x * vy (t2 v)))]. intros s; cbn beta; ring.
      * eapply Ext; [|apply (D2 (vz (t0 v) * (1 - sqrt x) + sqrt x * vz (t2 v)))]. intros s; cbn beta; ring.
    + rewrite tri_area_cross, vcross_scale_l, vcross_scale_r, !vnorm_scale.
      rewrite !Rabs_pos_eq; [|left; auto|left; apply Rinv_0_lt_compat; lra].
      replace (vcross A B) with (vscale (-1) (tnormal v)).
      * rewrite vnorm_scale, Rabs_left by lra. field. lra.
      * unfold A, B, tnormal. vring.
  - intros p (b0 & b1 & b2 & (B0 & B1 & B2 & S) & ->). destruct (Req_dec b0 1) as [E|E].
    + exists 0, 0. split; [lra|]. split; [lra|]. unfold P. rewrite sqrt_0. f_equal; lra.
    + assert (Hb : 0 < 1 - b0) by lra. exists ((1 - b0) * (1 - b0)), (b1 / (1 - b0)).
      split; [nra|]. split.
      * split; [apply Rmult_le_pos; [lra|left; apply Rinv_0_lt_compat; auto]|].
        apply Rmult_le_reg_r with (1 - b0); auto. unfold Rdiv. rewrite Rmult_assoc, Rinv_l by lra. lra.
      * unfold P. rewrite sqrt_square by lra. f_equal; [lra|field; lra|]. replace b2 with (1 - b0 - b1) by lra. field. lra.
Qed.

Example C40_example : vcross (vsub (t1 ex_tri) (t0 ex_tri)) (vsub (t2 ex_tri) (t0 ex_tri)) <> v0 /\ tri_area ex_tri = 1.
Proof.
  split.
  - intros E. apply (f_equal vz) in E. revert E. unfold ex_tri, vcross, vsub, v0. cbn. lra.
  - rewrite tri_area_cross. unfold tnormal, ex_tri, vnorm, vcross, vdot, vsub. cbn.
    match goal with |- / 2 * sqrt ?x = 1 => replace x with (2 * 2) by ring end. rewrite sqrt_square by lra. lra.
Qed.

(** ** C41 *)
Lemma v3divs_unit m : m <> v0 -> v3divs (fin3 m) (XFin (vnorm m)) = fin3 (vunit m).
Proof. intros H. apply vnorm_pos in H. rewrite v3divs_fin by lra. reflexivity. Qed.

(** the geometric normal; without vertex normals the shading normal is the geometric one *)
Theorem C41_geometric_normal : forall (T : Type) (v : tri rv) vn rev (o d : rv) (tmax : XR) (i : interaction XR T) (t : XR),
  d <> v0 -> xis_nan tmax = false ->
  tr_intersect (mkTri (mk3 (fin3 (t0 v)) (fin3 (t1 v)) (fin3 (t2 v))) vn rev) (mkRay (fin3 o) (fin3 d) tmax) = Ok (Some (i, t)) ->
  exists n, i_n i = fin3 n /\ unit_normal_of v n /\
    (forall sn, i_sn i = fin3 sn -> 0 <= vdot n sn) /\
    (vn = None -> i_sn i = fin3 n).
Proof.
  intros T v vn rev o d tmax i t Hd Hn H.
  destruct (hit_inv v vn rev o d tmax i t Hd Hn H) as (b0 & b1 & b2 & x & _ & _ & _ & _ & _ & _ & _ & _ & Nd & du & dv & Ef).
  assert (Hv : tnormal v <> v0) by (intros E; apply Nd; rewrite E; unfold vdot, v0; cbn; ring).
  destruct (tr_frame_normals v vn rev _ _ _ _ _ _ _ Hv Ef) as [Es En]. pose proof (unit_normal v Hv) as U.
  set (n0 := vunit (tnormal v)) in *. change (@f0 XR XR_FOps) with (XFin 0) in *.
  destruct (flt (v3dot (fin3 n0) (i_sn i)) (XFin 0)) eqn:L.
  - exists (vscale (-1) n0). rewrite v3scale_fin in En. split; auto. split; [now apply unit_normal_opp|]. split.
    + intros sn E. rewrite E, v3dot_fin in L. xsimpin L. cbn [xlt] in L. rb. rewrite vdot_scale_l. lra.
    + intros ->. rewrite Es in *. destruct rev; [now rewrite v3scale_fin|].
      rewrite v3dot_fin in L. xsimpin L. cbn [xlt] in L. rb. unfold n0 in L. rewrite vunit_dot in L by auto. lra.
  - exists n0. split; auto. split; auto. split.
    + intros sn E. rewrite E, v3dot_fin in L. xsimpin L. cbn [xlt] in L. rb. lra.
    + intros ->. rewrite Es in *. destruct rev; [|reflexivity].
      rewrite v3scale_fin, v3dot_fin in L. xsimpin L. cbn [xlt] in L. rb. rewrite vdot_scale_r in L.
      unfold n0 in L. rewrite vunit_dot in L by auto. lra.
Qed.

(** Reversing the orientation of the triangle reverses the shading normal, and the geometric normal
    unless the two are perpendicular. *)
Theorem C41_reversal : forall (T : Type) (v : tri rv) vn (o d : rv) (tmax : XR) (i i' : interaction XR T) (t t' : XR),
  d <> v0 -> xis_nan tmax = false ->
  let s rev := mkTri (mk3 (fin3 (t0 v)) (fin3 (t1 v)) (fin3 (t2 v))) vn rev in
  tr_intersect (s false) (mkRay (fin3 o) (fin3 d) tmax) = Ok (Some (i, t)) ->
  tr_intersect (s true) (mkRay (fin3 o) (fin3 d) tmax) = Ok (Some (i', t')) ->
  t = t' /\ i_p i = i_p i' /\
  forall n sn, i_n i = fin3 n -> i_sn i = fin3 sn ->
    i_sn i' = fin3 (vscale (-1) sn) /\ (vdot n sn <> 0 -> i_n i' = fin3 (vscale (-1) n)).
Proof.
  intros T v vn o d tmax i i' t t' Hd Hn s H H'. destruct (max_abs_axis_fin d Hd) as (a & Ea & Ha & _).
  assert (Hv : tnormal v <> v0).
  { destruct (hit_inv v vn _ o d tmax i t Hd Hn H) as (b0 & b1 & b2 & x & _ & _ & _ & _ & _ & _ & _ & _ & Nd & _).
    intros E; apply Nd; rewrite E; unfold vdot, v0; cbn; ring. }
  unfold s in H, H'. change (mk3 (fin3 (t0 v)) (fin3 (t1 v)) (fin3 (t2 v))) with (ftri v) in H, H'.
  rewrite (tr_intersect_fin o d a v vn _ tmax Ea Ha) in H. rewrite (tr_intersect_fin o d a v vn _ tmax Ea Ha) in H'.
  destruct (rmixed _ _ _ _); [discriminate|]. destruct (Req_bool _ _); [discriminate|]. destruct (rout _ _ _ _ _); [discriminate|].
  destruct (Rle_bool _ _); [discriminate|]. cbv zeta in H, H'.
  destruct (tr_frame (mkTri (ftri v) vn false) _ _ _) as [[[n1 sn1] du1] dv1] eqn:F1.
  destruct (tr_frame (mkTri (ftri v) vn true) _ _ _) as [[[n2 sn2] du2] dv2] eqn:F2.
  apply (f_equal (fun q => match q with Ok z => z | _ => None end)) in H, H'. apply Some_pair_inj in H as [<- <-], H' as [<- <-].
  split; auto. split; auto. cbn [i_n i_sn]. intros n sn -> ->.
  apply (tr_frame_normals v vn false _ _ _ _ _ _ _ Hv) in F1 as [S1 N1].
  apply (tr_frame_normals v vn true _ _ _ _ _ _ _ Hv) in F2 as [S2 N2]. cbv zeta in S1, N1, S2, N2.
  rewrite <- S1, v3scale_fin in S2. subst sn2. split; auto. intros Ne.
  change (@f0 XR XR_FOps) with (XFin 0) in *. rewrite v3dot_fin in N1, N2. xsimpin N1. xsimpin N2. cbn [xlt] in N1, N2.
  set (n0 := vunit (tnormal v)) in *. rewrite vdot_scale_r in N2. rewrite v3scale_fin in N1, N2.
  assert (Fi : forall a b, fin3 a = fin3 b -> a = b).
  { intros p q E. apply V3_eq; [apply (f_equal vx) in E|apply (f_equal vy) in E|apply (f_equal vz) in E]; cbn in E; congruence. }
  destruct (Rlt_bool (vdot n0 sn) 0) eqn:L1; apply Fi in N1; subst n; destruct (Rlt_bool (-1 * vdot n0 sn) 0) eqn:L2; rb; subst n2.
  - lra.
  - f_equal. apply V3_eq; unfold vscale; vproj; ring.
  - reflexivity.
  - exfalso. apply Ne. lra.
Qed.

(** with vertex normals the shading normal is the unit vector along their interpolation, provided that
    is not zero (the case that is missing) *)
Theorem C41_shading_normal_partial : forall (T : Type) (v w : tri rv) rev (o d : rv) (tmax : XR) (i : interaction XR T) (t : XR),
  d <> v0 -> xis_nan tmax = false ->
  tr_intersect (mkTri (mk3 (fin3 (t0 v)) (fin3 (t1 v)) (fin3 (t2 v))) (Some (mk3 (fin3 (t0 w)) (fin3 (t1 w)) (fin3 (t2 w)))) rev)
    (mkRay (fin3 o) (fin3 d) tmax) = Ok (Some (i, t)) ->
  exists b0 b1 b2, weights b0 b1 b2 /\ i_p i = fin3 (comb v b0 b1 b2) /\
    (comb w b0 b1 b2 <> v0 ->
      i_sn i = fin3 (vscale (if rev then -1 else 1) (vunit (comb w b0 b1 b2))) /\
      vnorm (vscale (if rev then -1 else 1) (vunit (comb w b0 b1 b2))) = 1).
Proof.
  intros T v w rev o d tmax i t Hd Hn H.
  destruct (hit_inv v _ rev o d tmax i t Hd Hn H) as (b0 & b1 & b2 & x & _ & W & _ & _ & _ & Ep & _ & _ & Nd & du & dv & Ef).
  assert (Hv : tnormal v <> v0) by (intros E; apply Nd; rewrite E; unfold vdot, v0; cbn; ring).
  destruct (tr_frame_normals v _ rev _ _ _ _ _ _ _ Hv Ef) as [Es _]. exists b0, b1, b2. split; auto. split; auto.
  intros Hm. change (mk3 (fin3 (t0 w)) (fin3 (t1 w)) (fin3 (t2 w))) with (ftri w) in Es. cbv zeta in Es.
  rewrite bary_fin, v3length_fin in Es. change (@f0 XR XR_FOps) with (XFin 0) in Es. xsimpin Es. cbn [xle] in Es.
  pose proof (vnorm_pos _ Hm). rewrite Rle_bool_true, v3divs_unit in Es by (auto; lra).
  split.
  - rewrite Es. destruct rev; [now rewrite v3scale_fin|]. f_equal. vring.
  - rewrite vnorm_scale, vnorm_unit by auto. destruct rev; [rewrite Rabs_left by lra|rewrite Rabs_pos_eq by lra]; ring.
Qed.

(** opposite vertex normals: in the middle of the edge their interpolation is zero and the shading
    normal is not a number, because the length test is [len >= 0.] *)
Theorem C41_shading_normal_refuted : exists (v w : tri rv) (o d : rv) (i : interaction XR unit) (t : XR),
  tr_intersect (mkTri (mk3 (fin3 (t0 v)) (fin3 (t1 v)) (fin3 (t2 v))) (Some (mk3 (fin3 (t0 w)) (fin3 (t1 w)) (fin3 (t2 w)))) false)
    (mkRay (fin3 o) (fin3 d) (XFin 5)) = Ok (Some (i, t)) /\ vz (i_sn i) = XNaN.
Proof.
  set (w := mk3 (mkV3 0 0 1) (mkV3 0 0 (-1)) (mkV3 0 0 1)).
  exists ex_tri, w, (mkV3 0 0 1), (mkV3 0 0 (-1)).
  destruct (hit_complete (T := unit) ex_tri (Some (ftri w)) false (mkV3 0 0 1) (mkV3 0 0 (-1)) (XFin 5) (1/2) (1/2) 0 1 1) as (i & E & P & _ & du & dv & Ef);
    [apply ex_tri_dir|reflexivity|unfold weights; lra| |lra|cbn; apply Rle_bool_true; lra|apply ex_tri_bound|apply ex_tri_err|].
  - unfold comb, at_t, ex_tri; apply V3_eq; unfold vadd, vscale; cbn; lra.
  - exists i, (XFin 1). split; [exact E|].
    assert (Hv : tnormal ex_tri <> v0) by apply C40_example.
    destruct (tr_frame_normals ex_tri _ false _ _ _ _ _ _ _ Hv Ef) as [Es _]. cbv zeta in Es. rewrite Es.
    rewrite bary_fin, v3length_fin. replace (comb w (1 / 2) (1 / 2) 0) with v0 by (unfold comb, w, v0; apply V3_eq; unfold vadd, vscale; cbn; lra).
    replace (vnorm v0) with 0 by (unfold vnorm, vdot, v0; cbn; rewrite !Rmult_0_l, !Rplus_0_l, sqrt_0; reflexivity).
    change (@f0 XR XR_FOps) with (XFin 0). xsimp. cbn [xle]. rewrite Rle_bool_true by lra.
    unfold v3divs, fin3, v0. cbn [vz]. xsimp. apply xdiv_zero_zero.
Qed.

Example C41_example : exists i : interaction XR unit,
  tr_intersect (mkTri (mk3 (fin3 (t0 ex_tri)) (fin3 (t1 ex_tri)) (fin3 (t2 ex_tri))) None false)
    (mkRay (fin3 (mkV3 0 0 1)) (fin3 (mkV3 0 0 (-1))) (XFin 5)) = Ok (Some (i, XFin 1)) /\
  exists n, i_n i = fin3 n /\ unit_normal_of ex_tri n.
Proof.
  destruct C37_example as (i & E & _). exists i. split; auto.
  destruct (C41_geometric_normal unit _ _ _ _ _ (XFin 5) _ _ ex_tri_dir eq_refl E) as (n & N & U & _). eauto.
Qed.

(** ** C42: every arithmetic *)
Definition addressed {A} (l : list A) (k : tri Z) (t : tri A) : Prop :=
  (0 <= t0 k /\ 0 <= t1 k /\ 0 <= t2 k)%Z /\
  nth_error l (Z.to_nat (t0 k)) = Some (t0 t) /\ nth_error l (Z.to_nat (t1 k)) = Some (t1 t) /\
  nth_error l (Z.to_nat (t2 k)) = Some (t2 t).
Definition in_range {A} (l : list A) (k : tri Z) : Prop :=
  (0 <= t0 k < Z.of_nat (length l) /\ 0 <= t1 k < Z.of_nat (length l) /\ 0 <= t2 k < Z.of_nat (length l))%Z.
Definition or_empty {A} (o : option (list A)) : list A := match o with Some l => l | None => [] end.

Section C42.
  Context {F : Type}.
  Variables (vs : list (V3 F)) (is : list (tri Z)) (vns : option (list (V3 F))) (vnis : option (list (tri Z))).
  (** normals are used when there are at least as many normal triples as vertex triples *)
  Let use_normals : Prop := (length is <= length (or_empty vnis))%nat.

  Definition mesh_triangle (k : nat) (t : triangle F) : Prop :=
    tr_rev t = false /\ (exists vi, nth_error is k = Some vi /\ addressed vs vi (tr_v t)) /\
    (use_normals -> exists vni n, nth_error (or_empty vnis) k = Some vni /\ tr_vn t = Some n /\ addressed (or_empty vns) vni n) /\
    (~ use_normals -> tr_vn t = None).
  Definition mesh_in_range (k : nat) : Prop :=
    (exists vi, nth_error is k = Some vi /\ in_range vs vi) /\
    (use_normals -> exists vni, nth_error (or_empty vnis) k = Some vni /\ in_range (or_empty vns) vni).

  Lemma idx_cases {A} (l : list A) (z : Z) :
    ((0 <= z < Z.of_nat (length l))%Z /\ exists a, idx l z = Ok a /\ nth_error l (Z.to_nat z) = Some a) \/
    (~ (0 <= z < Z.of_nat (length l))%Z /\ idx l z = Panic).
  Proof.
    unfold idx. destruct (Z.ltb_spec z 0); [right; split; [lia|auto]|].
    destruct (nth_error l (Z.to_nat z)) eqn:E.
    - left. assert (Z.to_nat z < length l)%nat by (apply nth_error_Some; congruence). split; [lia|eauto].
    - right. apply nth_error_None in E. split; [lia|auto].
  Qed.

  (** one round of the loop *)
  Let step (i : Z) : res (triangle F) :=
    rbind (idx is i) (fun vi => rbind (idx vs (t0 vi)) (fun a => rbind (idx vs (t1 vi)) (fun b => rbind (idx vs (t2 vi)) (fun c =>
    rbind (if (Z.of_nat (length (or_empty vnis)) >=? Z.of_nat (length is))%Z then
        rbind (idx (or_empty vnis) i) (fun vni => rbind (idx (or_empty vns) (t0 vni)) (fun na =>
          rbind (idx (or_empty vns) (t1 vni)) (fun nb => rbind (idx (or_empty vns) (t2 vni)) (fun nc => Ok (Some (mk3 na nb nc))))))
      else Ok None) (fun vn => Ok (mkTri (mk3 a b c) vn false)))))).

  Lemma three {A B} (l : list A) (k : tri Z) (f : A -> A -> A -> res B) :
    (in_range l k /\ exists a b c, addressed l k (mk3 a b c) /\
      rbind (idx l (t0 k)) (fun a => rbind (idx l (t1 k)) (fun b => rbind (idx l (t2 k)) (fun c => f a b c))) = f a b c) \/
    (~ in_range l k /\ rbind (idx l (t0 k)) (fun a => rbind (idx l (t1 k)) (fun b => rbind (idx l (t2 k)) (fun c => f a b c))) = Panic).
  Proof.
    unfold in_range. destruct (idx_cases l (t0 k)) as [(H0 & a & -> & Ha)|[H0 ->]]; [cbn [rbind]|right; split; [tauto|reflexivity]].
    destruct (idx_cases l (t1 k)) as [(H1 & b & -> & Hb)|[H1 ->]]; [cbn [rbind]|right; split; [tauto|reflexivity]].
    destruct (idx_cases l (t2 k)) as [(H2 & c & -> & Hc)|[H2 ->]]; [cbn [rbind]|right; split; [tauto|reflexivity]].
    left. split; [auto|]. exists a, b, c. split; auto. unfold addressed. cbn [t0 t1 t2]. repeat split; auto; lia.
  Qed.

  Lemma step_spec k : (mesh_in_range k /\ exists t, step (Z.of_nat k) = Ok t /\ mesh_triangle k t) \/
    (~ mesh_in_range k /\ step (Z.of_nat k) = Panic).
  Proof.
    unfold step, mesh_in_range. destruct (idx_cases is (Z.of_nat k)) as [(H & vi & -> & Hvi)|[H ->]].
    2:{ right. split; [|reflexivity]. intros [(vi & E & _) _]. apply H. assert (k < length is)%nat by (apply nth_error_Some; congruence). lia. }
    cbn [rbind]. rewrite Nat2Z.id in Hvi.
    match goal with |- context [rbind (idx vs (t0 vi)) (fun a => rbind _ (fun b => rbind _ (fun c => @?f a b c)))] =>
      destruct (three vs vi f) as [(R & a & b & c & Ad & E)|(R & E)] end.
    2:{ right. split; [|exact E]. intros [(vi' & E' & R') _]. rewrite Hvi in E'. injection E' as <-. auto. }
    rewrite E. clear E. cbn beta.
    destruct (Z.geb_spec (Z.of_nat (length (or_empty vnis))) (Z.of_nat (length is))) as [G|G].
    - assert (U : use_normals) by (unfold use_normals; lia).
      destruct (idx_cases (or_empty vnis) (Z.of_nat k)) as [(H' & vni & -> & Hvni)|[H' ->]]; [|exfalso; lia].
      cbn [rbind]. rewrite Nat2Z.id in Hvni.
      destruct (three (or_empty vns) vni (fun na nb nc => Ok (Some (mk3 na nb nc)))) as [(R2 & na & nb & nc & Ad2 & E)|(R2 & E)].
      + left. split; [split; eauto|]. rewrite E. cbn [rbind]. eexists. split; [reflexivity|].
        split; [reflexivity|]. cbn [tr_v tr_vn]. split; [eauto|]. split; [eauto 6|tauto].
      + right. split; [|rewrite E; reflexivity]. intros [_ Q]. destruct (Q U) as (vni' & E' & R').
        rewrite Hvni in E'. injection E' as <-. auto.
    - assert (U : ~ use_normals) by (unfold use_normals; lia).
      left. split; [split; [eauto|tauto]|]. cbn [rbind]. eexists. split; [reflexivity|].
      split; [reflexivity|]. cbn [tr_v tr_vn]. split; [eauto|]. split; tauto.
  Qed.

  Lemma steps_spec n : forall k,
    ((forall j, (k <= j < k + n)%nat -> mesh_in_range j) /\ exists l, rmapm step (map Z.of_nat (seq k n)) = Ok l /\ length l = n /\
      forall j t, nth_error l j = Some t -> mesh_triangle (k + j) t) \/
    (~ (forall j, (k <= j < k + n)%nat -> mesh_in_range j) /\ rmapm step (map Z.of_nat (seq k n)) = Panic).
  Proof.
    induction n as [|n IH]; intros k.
    - left. split; [intros; lia|]. exists []. split; [reflexivity|]. split; auto. intros [|j] t E; discriminate.
    - cbn [seq map rmapm]. destruct (step_spec k) as [(R & t & -> & M)|(R & ->)].
      2:{ right. split; [|reflexivity]. intros Q. apply R, Q. lia. }
      cbn [rbind]. destruct (IH (S k)) as [(R' & l & -> & L & Q)|(R' & ->)].
      + left. split. { intros j Hj. destruct (Nat.eq_dec j k) as [->|]; auto. apply R'. lia. }
        cbn [rbind]. eexists. split; [reflexivity|]. split; [cbn; congruence|].
        intros [|j] t' E; cbn in E.
        * replace (k + 0)%nat with k by lia. congruence.
        * replace (k + S j)%nat with (S k + j)%nat by lia. auto.
      + right. split; [|reflexivity]. intros Q. apply R'. intros j Hj. apply Q. lia.
  Qed.

  Theorem C42_mesh :
    ((forall k, (k < length is)%nat -> mesh_in_range k) /\
      exists l, new_triangle_mesh vs is vns vnis = Ok l /\ length l = length is /\
        forall k t, nth_error l k = Some t -> mesh_triangle k t) \/
    (~ (forall k, (k < length is)%nat -> mesh_in_range k) /\ new_triangle_mesh vs is vns vnis = Panic).
  Proof.
    change (new_triangle_mesh vs is vns vnis) with (rmapm step (map Z.of_nat (seq 0 (length is)))).
    destruct (steps_spec (length is) 0) as [(R & l & E & L & Q)|(R & E)].
    - left. split; [intros k Hk; apply R; lia|]. exists l. split; auto.
    - right. split; auto. intros Q. apply R. intros j Hj. apply Q. lia.
  Qed.
End C42.

(** two triangles of a square, without normals *)
Example C42_example : new_triangle_mesh [mkV3 0 0 0; mkV3 1 0 0; mkV3 1 1 0; mkV3 0 1 0]%Z [mk3 0 1 2; mk3 0 2 3]%Z None None =
  Ok [mkTri (mk3 (mkV3 0 0 0) (mkV3 1 0 0) (mkV3 1 1 0)) None false;
      mkTri (mk3 (mkV3 0 0 0) (mkV3 1 1 0) (mkV3 0 1 0)) None false]%Z.
Proof. reflexivity. Qed.
Example C42_panic_example : new_triangle_mesh [mkV3 0 0 0]%Z [mk3 0 0 1]%Z None None = Panic.
Proof. reflexivity. Qed.

Print Assumptions C35_first_hit.
Print Assumptions C36_hit_geometry_partial.
Print Assumptions C36_poles_refuted.
Print Assumptions C37_hit_is_real.
Print Assumptions C37_crossing_is_hit.
Print Assumptions C38_triangle.
Print Assumptions C38_sphere.
Print Assumptions C39_triangle.
Print Assumptions C39_sphere.
Print Assumptions C40_sample.
Print Assumptions C40_uniform.
Print Assumptions C41_geometric_normal.
Print Assumptions C41_reversal.
Print Assumptions C42_mesh.
