(** * Lamps shine from their front, seen or sampled (C84); where a pattern lies (C85) *)
From Coq Require Import ZArith Reals List Bool Lia Lra.
From Flocq Require Import Core.Raux.
From Verif Require Import Model.Num Model.NumX Model.Vector Model.Interaction Model.Shape Model.Triangle Model.Light
  Model.Matrix Model.Transform Model.Texture.
From Verif Require Import Spec.RVec Spec.ShapeSpec Spec.MatSpec Spec.TransformSpec Spec.BoxSpec Spec.EmissionSpec.
From Verif Require Import Proofs.XBase Proofs.RVecProofs Proofs.FLaws Proofs.BoxProofs Proofs.TriangleProofs Props.Shapes Props.Transforms Props.Misc.
Local Open Scope R_scope.

(** ** C84 *)

Definition lamp {T} (v : tri rv) (vn : option (tri (V3 XR))) (rev : bool) (L : rv) : area_light XR T :=
  mkArea (fin3 L) (triangle_shape (mkTri (mk3 (fin3 (t0 v)) (fin3 (t1 v)) (fin3 (t2 v))) vn rev)).

Lemma height_comb v p b0 b1 b2 : weights b0 b1 b2 ->
  vdot (vsub (comb v b0 b1 b2) p) (tnormal v) = - vdot (vsub p (t0 v)) (tnormal v).
Proof.
  intros (_ & _ & _ & S). assert (b0 = 1 - b1 - b2) by lra. subst b0. destruct v as [[a1 a2 a3] [b1' b2' b3'] [c1 c2 c3]], p as [p1 p2 p3].
  unfold tnormal, comb, vcross, vsub, vadd, vscale, vdot. cbn [t0 t1 t2]. vproj. ring.
Qed.

Lemma area_l_fin {T} v vn rev L (i : interaction XR T) (n w : rv) : i_n i = fin3 n ->
  area_l (lamp v vn rev L) i (fin3 w) = if Rlt_bool 0 (vdot w n) then fin3 L else v3zero.
Proof. intros E. unfold area_l, lamp. cbn [al_l]. rewrite E, v3dot_fin. reflexivity. Qed.

Lemma vunit_dot_r a b : vdot a (vunit b) = / vnorm b * vdot a b.
Proof. unfold vunit. apply vdot_scale_r. Qed.
Lemma vunit_dot_l a b : vdot (vunit b) a = / vnorm b * vdot b a.
Proof. unfold vunit. apply vdot_scale_l. Qed.

Lemma rlt_bool_iff a b x y : (a < b <-> x < y) -> Rlt_bool a b = Rlt_bool x y.
Proof. intros H. destruct (Rlt_bool a b) eqn:E, (Rlt_bool x y) eqn:E'; rb; auto; exfalso; intuition lra. Qed.

Lemma front_scaled k c : 0 < k -> (0 < k * c <-> 0 < c).
Proof. intros. split; intros; nra. Qed.

(** Sampling a triangular lamp from a point off its plane: a point of the triangle, the unit direction towards it, the
    shadow segment to it, and the lamp's radiance if the point asking is in front of the lamp, black if behind it. *)
Theorem C84_sampled : forall (T : Type) (v : tri rv) vn rev (L : rv) (r : interaction XR T) (p : rv) (x y : R),
  0 <= x <= 1 -> 0 <= y <= 1 -> i_p r = fin3 p -> height v rev p <> 0 ->
  exists q d s pdf end1,
    area_sample_li (lamp v vn rev L) r (mkP2 (XFin x) (XFin y)) =
      Ok (fin3 d, (if Rlt_bool 0 (height v rev p) then fin3 L else v3zero), pdf, mkVis r end1) /\
    i_p end1 = fin3 q /\ in_triangle v q /\ 0 < s /\ vnorm d = 1 /\ q = at_t p d s.
Proof.
  intros T v vn rev L r p x y Hx Hy Ep Hh.
  assert (Hv : tnormal v <> v0).
  { intros E. apply Hh. unfold height, facing. fold (tnormal v). rewrite E. destruct rev; unfold vscale, vdot, v0; vproj; ring. }
  destruct (tr_sample_fin (T := T) v vn rev x y (proj1 Hx)) as [P N]. specialize (N Hv). cbv zeta in P, N.
  set (b0 := 1 - sqrt x) in *. set (b1 := y * sqrt x) in *. set (b2 := (1 - y) * sqrt x) in *.
  assert (Sx : 0 <= sqrt x <= 1) by (split; [apply sqrt_pos|rewrite <- sqrt_1; apply sqrt_le_1_alt; lra]).
  assert (W : weights b0 b1 b2) by (unfold weights, b0, b1, b2; repeat split; nra).
  set (q := comb v b0 b1 b2) in *.
  assert (Hq : vsub q p <> v0).
  { intros E. apply Hh. pose proof (height_comb v p b0 b1 b2 W) as H. fold q in H. rewrite E in H.
    unfold height, facing. fold (tnormal v). rewrite (vdot_comm (vsub p (t0 v))) in *.
    assert (Z : vdot (tnormal v) (vsub p (t0 v)) = 0) by (rewrite <- (Ropp_involutive (vdot _ _)), <- H; unfold v0, vdot; vproj; ring).
    destruct rev; [rewrite vdot_scale_l, Z; apply Rmult_0_r|exact Z]. }
  pose proof (vnorm_pos _ Hq) as Nq. pose proof (vnorm_pos _ Hv) as Nv.
  exists q, (vunit (vsub q p)), (vnorm (vsub q p)), (sh_pdf (al_shape (lamp (T := T) v vn rev L)) r (fin3 (vunit (vsub q p)))),
    (tr_sample (mkTri (ftri v) vn rev) (mkP2 (XFin x) (XFin y))).
  split; [|split; [exact P|split; [do 3 eexists; split; [exact W|reflexivity]|split; [exact Nq|split; [now apply vnorm_unit|]]]]].
  - unfold area_sample_li. change (sh_sample_ref (al_shape (lamp v vn rev L)) r (mkP2 (XFin x) (XFin y)))
      with (Ok (tr_sample (T := T) (mkTri (ftri v) vn rev) (mkP2 (XFin x) (XFin y)))). cbn [rbind].
    rewrite P, Ep, v3sub_fin, v3normalize_fin by auto. rewrite v3neg_fin.
    rewrite (area_l_fin v vn rev L _ _ _ N).
    rewrite (rlt_bool_iff 0 (vdot _ _) 0 (height v rev p)); [reflexivity|].
    pose proof (height_comb v p b0 b1 b2 W) as H. fold q in H.
    assert (E : vdot (vscale (-1) (vunit (vsub q p))) (if rev then vscale (-1) (vunit (tnormal v)) else vunit (tnormal v)) =
      / vnorm (vsub q p) * / vnorm (tnormal v) * height v rev p).
    { unfold height, facing. fold (tnormal v). destruct rev; rewrite ?vdot_scale_l, ?vdot_scale_r, vunit_dot_r, vunit_dot_l, H; ring. }
    refine (iff_trans _ (front_scaled (/ vnorm (vsub q p) * / vnorm (tnormal v)) _ _));
      [rewrite <- E; apply iff_refl|apply Rmult_lt_0_compat; now apply Rinv_0_lt_compat].
  - unfold at_t, vunit. apply V3_eq; unfold vadd, vscale, vsub; vproj; field; fold (vsub q p); apply Rgt_not_eq; exact Nq.
Qed.
Print Assumptions C84_sampled.

(** A ray that meets a triangular lamp without normals at its vertices sees its radiance exactly if it starts in front. *)
Theorem C84_seen : forall (T : Type) (v : tri rv) rev (L o d : rv) (tmax : XR) (i : interaction XR T) (t : XR),
  d <> v0 -> xis_nan tmax = false ->
  sh_intersect (area_shape (lamp v None rev L)) (mkRay (fin3 o) (fin3 d) tmax) = Ok (Some (i, t)) ->
  i_wo i = v3neg (fin3 d) /\
  area_l (lamp v None rev L) i (i_wo i) = if Rlt_bool 0 (height v rev o) then fin3 L else v3zero.
Proof.
  intros T v rev L o d tmax i t Hd Hn H. unfold lamp, area_shape in H. cbn [sh_intersect al_shape triangle_shape] in H.
  destruct (hit_inv v None rev o d tmax i t Hd Hn H) as (b0 & b1 & b2 & x & _ & W & Hx & _ & C & _ & _ & Ew & Nd & du & dv & Ef).
  assert (Hv : tnormal v <> v0) by (intros E; apply Nd; rewrite E; unfold vdot, v0; cbn; ring).
  destruct (tr_frame_normals v None rev _ _ _ _ _ _ _ Hv Ef) as [Es En]. cbv zeta in Es, En.
  pose proof (vnorm_pos _ Hv) as Nv. set (n0 := vunit (tnormal v)) in *.
  assert (U : vdot n0 n0 = 1) by now apply vunit_dot.
  assert (En' : i_n i = fin3 (if rev then vscale (-1) n0 else n0)).
  { rewrite En, Es. destruct rev; rewrite ?v3scale_fin, v3dot_fin, ?vdot_scale_r, U; change (@f0 XR XR_FOps) with (XFin 0); xsimp; cbn [xlt].
    - rewrite Rlt_bool_true by lra. reflexivity.
    - rewrite Rlt_bool_false by lra. reflexivity. }
  split; [now rewrite v3neg_fin|]. rewrite Ew, (area_l_fin v None rev L i _ _ En').
  rewrite (rlt_bool_iff 0 (vdot _ _) 0 (height v rev o)); [reflexivity|].
  pose proof (height_comb v o b0 b1 b2 W) as Hh. rewrite C in Hh.
  assert (Q : vsub (at_t o d x) o = vscale x d) by (apply V3_eq; unfold at_t, vsub, vadd, vscale; vproj; ring). rewrite Q, vdot_scale_l in Hh.
  assert (E : x * vdot (vscale (-1) d) (if rev then vscale (-1) n0 else n0) = / vnorm (tnormal v) * height v rev o).
  { unfold height, facing. fold (tnormal v). unfold n0. destruct rev; rewrite ?vdot_scale_l, ?vdot_scale_r, vunit_dot_r.
    - transitivity (/ vnorm (tnormal v) * (x * vdot d (tnormal v))); [ring|rewrite Hh; ring].
    - transitivity (/ vnorm (tnormal v) * - (x * vdot d (tnormal v))); [ring|rewrite Hh; ring]. }
  assert (Ni : 0 < / vnorm (tnormal v)) by now apply Rinv_0_lt_compat.
  split; intros G.
  - apply (front_scaled (/ vnorm (tnormal v))); auto. rewrite <- E. now apply Rmult_lt_0_compat.
  - apply (front_scaled x); auto. refine (Rlt_le_trans _ _ _ _ (Req_le _ _ (eq_sym E))). now apply Rmult_lt_0_compat.
Qed.
Print Assumptions C84_seen.

(** So both ways of reaching a lamp without vertex normals tell the same radiance. *)
Theorem C84_both_ways : forall (T : Type) (v : tri rv) rev (L : rv) (r : interaction XR T) (p : rv) (x y : R) wi li pdf sg tmax (i : interaction XR T) t,
  0 <= x <= 1 -> 0 <= y <= 1 -> i_p r = fin3 p -> height v rev p <> 0 -> xis_nan tmax = false ->
  area_sample_li (lamp v None rev L) r (mkP2 (XFin x) (XFin y)) = Ok (wi, li, pdf, sg) ->
  sh_intersect (area_shape (lamp v None rev L)) (mkRay (i_p r) wi tmax) = Ok (Some (i, t)) ->
  area_l (lamp v None rev L) i (i_wo i) = li.
Proof.
  intros T v rev L r p x y wi li pdf vs tmax i t Hx Hy Ep Hh Hn S H.
  destruct (C84_sampled T v None rev L r p x y Hx Hy Ep Hh) as (q & d & s & pdf' & e & E & _ & _ & _ & Nd & _).
  rewrite E in S. assert (wi = fin3 d /\ li = if Rlt_bool 0 (height v rev p) then fin3 L else v3zero) as [-> ->].
  { apply (f_equal (fun z => match z with Ok (a, b, _, _) => Some (a, b) | _ => None end)) in S.
    apply Some_pair_inj in S. destruct S; split; congruence. }
  rewrite Ep in H. apply (C84_seen T v rev L p d tmax i t); auto.
  intros Z. rewrite Z in Nd. unfold vnorm, vdot, v0 in Nd. revert Nd. vproj. rewrite !Rmult_0_l, !Rplus_0_l, sqrt_0. lra.
Qed.
Print Assumptions C84_both_ways.

(** Not so with vertex normals against the winding: the triangle (-1,0,0), (1,0,0), (0,1,0) faces +z but its vertex
    normals are (0,0,-1).  Sampled from (0,0,1) it gives its radiance; the ray to the sampled point sees black. *)
Definition down3 : tri rv := mk3 (mkV3 0 0 (-1)) (mkV3 0 0 (-1)) (mkV3 0 0 (-1)).
Theorem C84_refuted : exists (v w : tri rv) (L p d : rv) (r i : interaction XR unit) u pdf sg t,
  let a := lamp v (Some (mk3 (fin3 (t0 w)) (fin3 (t1 w)) (fin3 (t2 w)))) false L in
  L <> v0 /\ i_p r = fin3 p /\ u = mkP2 (XFin (/ 4)) (XFin 1) /\ 0 < height v false p /\
  area_sample_li a r u = Ok (fin3 d, fin3 L, pdf, sg) /\
  sh_intersect (area_shape a) (mkRay (fin3 p) (fin3 d) (XFin 5)) = Ok (Some (i, t)) /\
  i_p i = i_p (v_p1 sg) /\ area_l a i (i_wo i) = v3zero.
Proof.
  set (p := mkV3 0 0 1 : rv). set (d := mkV3 0 0 (-1) : rv). set (L := mkV3 1 1 1 : rv).
  set (r := mkI (fin3 p) v3zero (mkP2 f0 f0) v3zero v3zero v3zero v3zero v3zero None : interaction XR unit).
  assert (Hh : height ex_tri false p = 2) by (unfold height, facing, ex_tri, p, vdot, vcross, vsub; cbn; lra).
  assert (S4 : sqrt (/ 4) = / 2) by (replace (/ 4) with (/ 2 * / 2) by lra; apply sqrt_square; lra).
  assert (Dn : d <> v0) by apply ex_tri_dir.
  assert (Hv : tnormal ex_tri <> v0) by apply C40_example.
  destruct (hit_complete (T := unit) ex_tri (Some (ftri down3)) false p d (XFin 5) (1/2) (1/2) 0 1 1) as (i & E & P & _ & du & dv & Ef);
    [exact Dn|reflexivity|unfold weights; lra| |lra|cbn; apply Rle_bool_true; lra|apply ex_tri_bound|apply ex_tri_err|].
  { unfold comb, at_t, ex_tri, p, d; apply V3_eq; unfold vadd, vscale; cbn; lra. }
  assert (Q : comb ex_tri (1/2) (1/2) 0 = v0) by (unfold comb, ex_tri, v0; apply V3_eq; unfold vadd, vscale; cbn; lra). rewrite Q in P.
  destruct (C84_sampled unit ex_tri (Some (ftri down3)) false L r p (/ 4) 1) as (q & d' & s & pdf & e & Es & Eq & _ & Hs & Nd & At);
    [lra|lra|reflexivity|lra|].
  destruct (tr_sample_fin (T := unit) ex_tri (Some (ftri down3)) false (/ 4) 1 ltac:(lra)) as [Ps _]. cbv zeta in Ps.
  assert (Ee : e = tr_sample (T := unit) (mkTri (ftri ex_tri) (Some (ftri down3)) false) (mkP2 (XFin (/ 4)) (XFin 1))).
  { symmetry. exact (f_equal (fun z => match z with Ok (_, _, _, m) => v_p1 m | _ => r end) Es). }
  rewrite Ee, Ps, S4 in Eq. replace (1 - / 2) with (1 / 2) in Eq by lra. replace (1 * / 2) with (1 / 2) in Eq by lra. replace ((1 - 1) * / 2) with 0 in Eq by lra.
  rewrite Q in Eq.
  assert (q = v0) as -> by (apply (f_equal (fun z : V3 XR => (vx z, vy z, vz z))) in Eq; unfold fin3, v0 in *; cbn [vx vy vz] in *; apply V3_eq; vproj; congruence).
  assert (Sd : s = 1 /\ d' = d).
  { apply vnorm_1_dot in Nd. unfold at_t, p, v0, vadd, vscale in At. destruct d' as [x y z].
    pose proof (f_equal (fun z : rv => vx z) At) as A1. pose proof (f_equal (fun z : rv => vy z) At) as A2. pose proof (f_equal (fun z : rv => vz z) At) as A3.
    unfold vdot in Nd. revert Nd A1 A2 A3. vproj. intros. assert (x = 0) by nra. assert (y = 0) by nra. subst x y.
    assert (z = -1) by nra. subst z. split; [lra|reflexivity]. }
  destruct Sd as [-> ->].
  exists ex_tri, down3, L, p, d, r, i, (mkP2 (XFin (/ 4)) (XFin 1)), pdf, (mkVis r e), (XFin 1). cbv zeta.
  split; [intros Z; apply (f_equal (fun z : rv => vx z)) in Z; unfold L, v0 in Z; revert Z; vproj; lra|].
  split; [reflexivity|]. split; [reflexivity|]. split; [lra|].
  split; [rewrite Hh, Rlt_bool_true in Es by lra; exact Es|]. split; [exact E|].
  split; [cbn [v_p1]; rewrite P, Ee, Ps, S4; apply (f_equal fin3); rewrite <- Q; f_equal; lra|].
  destruct (hit_inv ex_tri (Some (ftri down3)) false p d (XFin 5) i (XFin 1) Dn eq_refl E) as (_ & _ & _ & _ & _ & _ & _ & _ & _ & _ & _ & Ew & _ & _ & _ & _).
  destruct (tr_frame_normals ex_tri _ false _ _ _ _ _ _ _ Hv Ef) as [En Eg]. cbv zeta in En, Eg.
  rewrite bary_fin in En. replace (comb down3 (1 / 2) (1 / 2) 0) with d in En by (unfold comb, down3, d; apply V3_eq; unfold vadd, vscale; cbn; lra).
  assert (D1 : vnorm d = 1) by (apply vnorm_1_dot; unfold vdot, d; vproj; ring).
  rewrite v3length_fin, D1 in En. change (@f0 XR XR_FOps) with (XFin 0) in *. revert En Eg. xsimp. cbn [xle]. rewrite Rle_bool_true by lra.
  rewrite v3divs_fin by lra. intros En Eg. rewrite En, v3dot_fin in Eg.
  assert (Tn : tnormal ex_tri = mkV3 0 0 2) by (unfold tnormal, ex_tri, vcross, vsub; apply V3_eq; cbn; lra).
  assert (Un : vunit (tnormal ex_tri) = mkV3 0 0 1).
  { rewrite Tn. unfold vunit. replace (vnorm (mkV3 0 0 2)) with 2; [apply V3_eq; unfold vscale; vproj; lra|].
    unfold vnorm, vdot. vproj. replace (0 * 0 + 0 * 0 + 2 * 2) with (2 * 2) by ring. rewrite sqrt_square; lra. }
  rewrite Un in Eg. cbn [xlt] in Eg. rewrite Rlt_bool_true in Eg by (unfold vdot, vscale, d; vproj; lra). rewrite v3scale_fin in Eg.
  rewrite Ew, (area_l_fin ex_tri (Some (ftri down3)) false L i _ _ Eg). rewrite Rlt_bool_false; [reflexivity|]. unfold vdot, vscale, d. vproj. lra.
Qed.
Print Assumptions C84_refuted.

(** the same triangle without vertex normals, lit from the front and from behind *)
Example C84_example : forall (r : interaction XR unit) rev, i_p r = fin3 (mkV3 0 0 1) -> exists q pdf e,
  area_sample_li (lamp ex_tri None rev (mkV3 1 2 3)) r (mkP2 (XFin (/ 2)) (XFin (/ 2))) =
    Ok (fin3 q, (if rev then v3zero else fin3 (mkV3 1 2 3)), pdf, mkVis r e).
Proof.
  intros r rev Ep.
  assert (Hh : height ex_tri rev (mkV3 0 0 1) = if rev then -2 else 2) by (unfold height, facing, ex_tri, vdot, vcross, vsub; destruct rev; cbn; lra).
  destruct (C84_sampled unit ex_tri None rev (mkV3 1 2 3) r (mkV3 0 0 1) (/ 2) (/ 2)) as (q & d & s & pdf & e & E & _);
    [lra|lra|exact Ep|rewrite Hh; destruct rev; lra|].
  exists d, pdf, e. rewrite E, Hh. destruct rev; [rewrite Rlt_bool_false by lra|rewrite Rlt_bool_true by lra]; reflexivity.
Qed.

(** ** C85 *)

Definition small (x : R) : Prop := Rabs x <= IZR (2 ^ 61).

Lemma small_floor x : small x -> (- 2 ^ 61 <= Zfloor x <= 2 ^ 61)%Z.
Proof.
  intros H. apply Rabs_le_inv in H. split.
  - apply Zfloor_lub. rewrite opp_IZR. lra.
  - apply le_IZR. eapply Rle_trans; [apply Zfloor_lb|]. lra.
Qed.

(** A checkerboard on surface coordinates, scaled by (su,sv) and shifted by (du,dv): its squares have the sides 1/su
    and 1/sv, corners at the points where u su + du and v sv + dv are whole, and the first value on the square
    where both lie between 0 and 1. *)
Theorem C85_plane : forall (T A : Type) (m : build) (su sv du dv x y : R) (a b : A) (i : interaction XR T),
  i_uv i = mkP2 (XFin x) (XFin y) -> small (x * su + du) -> small (y * sv + dv) ->
  checkerboard m (uv_mapping (XFin su) (XFin sv) (XFin du) (XFin dv)) a b i =
    Ok (if Z.even (Zfloor (x * su + du) + Zfloor (y * sv + dv)) then a else b).
Proof.
  intros T A m su sv du dv x y a b i E Hx Hy. apply small_floor in Hx, Hy.
  unfold checkerboard, uv_mapping. rewrite E. cbn [px py].
  change (fadd (fmul (XFin x) (XFin su)) (XFin du)) with (XFin (x * su + du)).
  change (fadd (fmul (XFin y) (XFin sv)) (XFin dv)) with (XFin (y * sv + dv)).
  assert (Ix : in_i64 (Zfloor (x * su + du))) by (unfold in_i64; lia). assert (Iy : in_i64 (Zfloor (y * sv + dv))) by (unfold in_i64; lia).
  rewrite (floor_i64 (FL := XR_FLaws) (XFin (x * su + du)) _ eq_refl Ix), (floor_i64 (FL := XR_FLaws) (XFin (y * sv + dv)) _ eq_refl Iy).
  destruct (i64_parity m (Zfloor (x * su + du) + Zfloor (y * sv + dv))) as (v & -> & Ev); [intros _; unfold in_i64; lia|].
  cbn [rbind]. rewrite rem2_even, Ev. reflexivity.
Qed.
Print Assumptions C85_plane.

(** A solid checkerboard: the value at a world point is that of the cube containing its image under the transform given,
    the point which the inverse transform maps back to it. *)
Theorem C85_space : forall (T A : Type) (m : build) t M N (p : rv) (a b : A) (i : interaction XR T),
  good t M N -> hom M p 1 3 <> 0 -> i_p i = fin3 p ->
  exists q, t_point m t (fin3 p) = Ok (fin3 q) /\ t_point_inv m t (fin3 q) = Ok (fin3 p) /\
    (small (vx q) -> small (vy q) -> small (vz q) ->
     checkerboard3 m (identity_mapping m t) a b i = Ok (if Z.even (Zfloor (vx q) + Zfloor (vy q) + Zfloor (vz q)) then a else b)).
Proof.
  intros T A m t M N p a b i G H E. destruct (C24_points m t M N p G H) as (q & Q1 & Q2). exists q. split; [exact Q1|]. split; [exact Q2|].
  intros Hx Hy Hz. apply small_floor in Hx, Hy, Hz. unfold checkerboard3, identity_mapping. rewrite E, Q1. cbn [rbind].
  unfold fin3. vproj.
  assert (Ix : in_i64 (Zfloor (vx q))) by (unfold in_i64; lia). assert (Iy : in_i64 (Zfloor (vy q))) by (unfold in_i64; lia).
  assert (Iz : in_i64 (Zfloor (vz q))) by (unfold in_i64; lia).
  rewrite (floor_i64 (FL := XR_FLaws) (XFin (vx q)) _ eq_refl Ix), (floor_i64 (FL := XR_FLaws) (XFin (vy q)) _ eq_refl Iy),
    (floor_i64 (FL := XR_FLaws) (XFin (vz q)) _ eq_refl Iz).
  assert (I : forall z, in_i64 z -> i64_of m z = Ok z).
  { intros w Hw. unfold i64_of. assert (in_rangeb i64_min i64_max w = true) as ->; auto.
    unfold in_i64 in Hw. unfold in_rangeb, i64_min, i64_max. rewrite andb_true_iff, !Z.leb_le. lia. }
  rewrite I by (unfold in_i64; lia). cbn [rbind]. rewrite I by (unfold in_i64; lia). cbn [rbind]. rewrite rem2_even. reflexivity.
Qed.
Print Assumptions C85_space.

(** squares of side 1/4 by 1/2, shifted by half a square in u: (0.2, 0.6) has u * 4 + 1/2 = 1.3 and v * 2 = 1.2 *)
Example C85_example : forall (i : interaction XR unit), i_uv i = mkP2 (XFin (2 / 10)) (XFin (6 / 10)) ->
  checkerboard Debug (uv_mapping (XFin 4) (XFin 2) (XFin (/ 2)) (XFin 0)) true false i = Ok true.
Proof.
  intros i E. rewrite (C85_plane unit bool Debug 4 2 (/ 2) 0 (2 / 10) (6 / 10) true false i E); try (unfold small; rewrite Rabs_pos_eq; lra).
  replace (Zfloor (2 / 10 * 4 + / 2)) with 1%Z by (symmetry; apply Zfloor_imp; cbn; lra).
  replace (Zfloor (6 / 10 * 2 + 0)) with 1%Z by (symmetry; apply Zfloor_imp; cbn; lra). reflexivity.
Qed.
