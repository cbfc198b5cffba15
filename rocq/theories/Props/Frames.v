(** * Coordinate systems (C71) and the shading frames of hits (C72), in exact arithmetic *)
From Coq Require Import ZArith Reals List Bool Lia Lra.
From Flocq Require Import Core.
From Verif Require Import Model.Num Model.NumX Model.Vector Model.Common Model.BBox Model.Interaction Model.Shape Model.Sphere
  Model.Triangle Model.Reflection.
From Verif Require Import Spec.RVec Spec.BoxSpec Spec.ShapeSpec Spec.ShadeSpec Spec.RadianceSpec.
From Verif Require Import Proofs.XBase Proofs.RVecProofs Proofs.TriangleProofs Proofs.ShadeProofs Proofs.MicroProofs.
From Verif Require Import Proofs.BoxProofs.
From Verif Require Import Props.Shapes.
Local Open Scope R_scope.

(** ** C71 *)

(** From a unit vector, [construct_coordinate_system] makes the other two axes of an orthonormal frame. *)
Theorem C71 : forall v : rv, vdot v v = 1 ->
  exists s t, construct_coordinate_system (fin3 v) = (fin3 s, fin3 t) /\ orthonormal s t v /\ t = vcross v s.
Proof.
  intros v Hv.
  assert (W : exists s, construct_coordinate_system (fin3 v) = (fin3 s, v3cross (fin3 v) (fin3 s)) /\ vdot s s = 1 /\ vdot s v = 0).
  { unfold construct_coordinate_system. change (flt (fabs (vy (fin3 v))) (fabs (vx (fin3 v)))) with (Rlt_bool (Rabs (vy v)) (Rabs (vx v))).
    assert (K : forall s : rv, vdot s s <> 0 -> vdot s v = 0 -> let u := vscale (/ sqrt (vdot s s)) s in
      v3divs (fin3 s) (fsqrt (XFin (vdot s s))) = fin3 u /\ vdot u u = 1 /\ vdot u v = 0).
    { intros s Hs Hp u. pose proof (vdot_self_nonneg s) as P. assert (Q : 0 < sqrt (vdot s s)) by (apply sqrt_lt_R0; lra).
      split; [xsimp; rewrite xsqrt_fin by auto; apply v3divs_fin; lra|]. unfold u. rewrite !vdot_scale_l, vdot_scale_r, Hp. split; [|ring].
      pose proof (sqrt_sqrt _ P) as S. set (q := sqrt (vdot s s)) in *. rewrite <- S. field. lra. }
    destruct (Rlt_bool (Rabs (vy v)) (Rabs (vx v))) eqn:B; rb.
    - assert (X : vx v <> 0) by (intros E; rewrite E, Rabs_R0 in B; pose proof (Rabs_pos (vy v)); lra).
      destruct (K (mkV3 (- vz v) 0 (vx v))) as (E & U & P).
      + unfold vdot. vproj. nra.
      + unfold vdot. vproj. ring.
      + eexists. split; [|split; [exact U|exact P]]. rewrite <- E. unfold vdot. vproj.
        replace (- vz v * - vz v + 0 * 0 + vx v * vx v) with (vx v * vx v + vz v * vz v) by ring. reflexivity.
    - assert (X : vdot (mkV3 0 (vz v) (- vy v)) (mkV3 0 (vz v) (- vy v)) <> 0).
      { unfold vdot in *. vproj. intros E. assert (Z0 : vz v = 0) by nra. assert (Y0 : vy v = 0) by nra.
        rewrite Y0, Rabs_R0 in B. pose proof (Rabs_pos (vx v)) as A. assert (X0 : Rabs (vx v) = 0) by lra.
        assert (Q : vx v = 0) by (destruct (Req_dec (vx v) 0); auto; apply Rabs_no_R0 in H; contradiction). rewrite Q, Y0, Z0 in Hv. lra. }
      destruct (K (mkV3 0 (vz v) (- vy v)) X) as (E & U & P); [unfold vdot; vproj; ring|].
      eexists. split; [|split; [exact U|exact P]]. rewrite <- E. unfold vdot. vproj.
      replace (0 * 0 + vz v * vz v + - vy v * - vy v) with (vy v * vy v + vz v * vz v) by ring. reflexivity. }
  destruct W as (s & E & Us & P). exists s, (vcross v s). rewrite E, v3cross_fin. split; [reflexivity|]. split; [|reflexivity].
  destruct (frame_orthonormal s v Us Hv P) as [O _]. exact O.
Qed.
Print Assumptions C71.

(** ** C72 *)

Lemma bary_fin (v : tri rv) b0 b1 b2 : bary (ftri v) (XFin b0) (XFin b1) (XFin b2) = fin3 (comb v b0 b1 b2).
Proof. unfold bary, ftri. cbn [t0 t1 t2]. rewrite !v3scale_fin, !v3add_fin. reflexivity. Qed.

Lemma partials_fin v : tr_partials (ftri v) = (fin3 (vsub (t1 v) (t0 v)), fin3 (vsub (t2 v) (t1 v))).
Proof.
  unfold tr_partials, tr_uv, p2subf. cbn [ftri t0 t1 t2 px py]. rewrite !v3sub_fin, x_f0, x_f1. xsimp. cbn [xsub xmul xabs xneg].
  assert (E : Rabs ((0 - 1) * (0 - 1) - (0 - 1) * (1 - 1)) = 1) by (replace (_ - _) with 1 by ring; apply Rabs_R1). rewrite E.
  cbn [xlt]. rewrite Rlt_bool_false by lra.
  replace ((0 - 1) * (0 - 1) - (0 - 1) * (1 - 1)) with 1 by ring.
  rewrite !v3scale_fin, v3sub_fin, v3add_fin, !v3divs_fin by lra. rewrite Rinv_1. f_equal; f_equal; apply V3_eq; unfold vscale, vadd, vsub; vproj; ring.
Qed.

(** everything [tr_frame] computes, when the interpolated normal does not vanish *)
Lemma tr_frame_fin v vn rev b0 b1 b2 : tnormal v <> v0 ->
  vn = None \/ (exists w, vn = Some (ftri w) /\ comb w b0 b1 b2 <> v0) ->
  exists n sn du dv, tr_frame (mkTri (ftri v) vn rev) (XFin b0) (XFin b1) (XFin b2) = (fin3 n, fin3 sn, fin3 du, fin3 dv) /\
    vdot n n = 1 /\ vdot sn sn = 1 /\ du <> v0 /\ vdot du sn = 0.
Proof.
  intros Hv Hvn. set (n0 := vunit (tnormal v)).
  assert (Un : vdot n0 n0 = 1) by (now apply vunit_dot).
  assert (Du : vsub (t1 v) (t0 v) <> v0).
  { intros E. apply Hv. unfold tnormal. rewrite E. apply V3_eq; unfold vcross, v0; vproj; ring. }
  assert (W : exists sn du dv, vdot sn sn = 1 /\ du <> v0 /\ vdot du sn = 0 /\
    (match vn with
      | Some vn =>
        let sn := bary vn (XFin b0) (XFin b1) (XFin b2) in
        let len := v3length sn in
        let sn := if fle f0 len then v3divs sn len else fin3 n0 in
        let dpdu := v3normalize (fin3 (vsub (t1 v) (t0 v))) in
        let dpdv := v3cross dpdu sn in
        let len := v3length dpdv in
        if flt f0 len then
          let dpdv := v3divs dpdv len in
          (sn, v3cross dpdv sn, dpdv)
        else
          let '(du, dv) := construct_coordinate_system sn in
          (sn, du, dv)
      | None => (fin3 n0, fin3 (vsub (t1 v) (t0 v)), fin3 (vsub (t2 v) (t1 v)))
      end) = (fin3 sn, fin3 du, fin3 dv)).
  { destruct Hvn as [-> | (w & -> & Hw)].
    - exists n0, (vsub (t1 v) (t0 v)), (vsub (t2 v) (t1 v)). split; [exact Un|]. split; [exact Du|]. split; [|reflexivity].
      unfold n0, vunit. rewrite vdot_scale_r. unfold tnormal. rewrite vdot_cross_l. ring.
    - cbv zeta. rewrite bary_fin, v3length_fin. pose proof (vnorm_pos _ Hw) as P.
      assert (L : fle f0 (XFin (vnorm (comb w b0 b1 b2))) = true) by (cbn; apply Rle_bool_true; lra). rewrite L.
      rewrite v3divs_fin by lra. change (vscale (/ vnorm (comb w b0 b1 b2)) (comb w b0 b1 b2)) with (vunit (comb w b0 b1 b2)).
      pose proof (vunit_dot _ Hw) as Us. set (sn := vunit (comb w b0 b1 b2)) in *. clearbody sn.
      rewrite v3normalize_fin by auto. rewrite v3cross_fin, v3length_fin. set (c := vcross (vunit (vsub (t1 v) (t0 v))) sn).
      change (flt f0 (XFin (vnorm c))) with (Rlt_bool 0 (vnorm c)). destruct (Rlt_bool 0 (vnorm c)) eqn:B; rb.
      + rewrite v3divs_fin by lra. change (vscale (/ vnorm c) c) with (vunit c).
        assert (Hc : c <> v0). { intros E. rewrite E in B. unfold vnorm, vdot, v0 in B. revert B. vproj. rewrite !Rmult_0_l, !Rplus_0_l, sqrt_0. lra. }
        pose proof (vunit_dot c Hc) as Uc. rewrite v3cross_fin. exists sn, (vcross (vunit c) sn), (vunit c).
        split; [exact Us|]. split; [|split; [|reflexivity]].
        * assert (Pp : vdot (vunit c) sn = 0) by (unfold vunit; rewrite vdot_scale_l, vdot_comm; unfold c; rewrite vdot_cross_r; ring).
          intros E. pose proof (lagrange (vunit c) sn) as G. rewrite E, Uc, Us, Pp in G. unfold vdot, v0 in G. revert G. vproj. lra.
        * rewrite vdot_comm. apply vdot_cross_r.
      + destruct (C71 sn Us) as (s & t & E & O & _). rewrite E. exists sn, s, t. destruct O as (O1 & _ & _ & _ & O5 & _).
        split; [exact Us|]. split; [|split; [exact O5|reflexivity]]. intros Z. rewrite Z in O1. unfold vdot, v0 in O1. revert O1. vproj. lra. }
  destruct W as (sn & du & dv & Us & Hdu & Pd & E).
  assert (S : exists sn', (if rev then v3scale (fin3 sn) (fofZ (-1)) else fin3 sn) = fin3 sn' /\ vdot sn' sn' = 1 /\ vdot du sn' = 0).
  { change (fofZ (-1)) with (XFin (-1)). destruct rev; [|exists sn; auto]. exists (vscale (-1) sn). rewrite v3scale_fin. split; [reflexivity|].
    rewrite vdot_scale_l, !vdot_scale_r, Us, Pd. split; ring. }
  destruct S as (sn' & ES & Us' & Pd').
  assert (N : exists n', (if flt (v3dot (fin3 n0) (fin3 sn')) f0 then v3scale (fin3 n0) (fofZ (-1)) else fin3 n0) = fin3 n' /\ vdot n' n' = 1).
  { change (fofZ (-1)) with (XFin (-1)). destruct (flt _ _); [|exists n0; auto]. exists (vscale (-1) n0). rewrite v3scale_fin. split; [reflexivity|].
    rewrite vdot_scale_l, !vdot_scale_r, Un. ring. }
  destruct N as (n' & EN & Un'). exists n', sn', du, dv. split; [|auto].
  unfold tr_frame. cbn [tr_v tr_vn tr_rev]. rewrite partials_fin.
  assert (En : v3normalize (v3cross (v3sub (t0 (ftri v)) (t2 (ftri v))) (v3sub (t1 (ftri v)) (t2 (ftri v)))) = fin3 n0).
  { cbn [ftri t0 t1 t2]. rewrite !v3sub_fin, v3cross_fin, dp_cross, v3normalize_fin by auto. reflexivity. }
  cbv zeta. rewrite En. cbv zeta in E. rewrite E. rewrite ES, EN. reflexivity.
Qed.

(** A frame that BSDF coordinates can be based on (the hypotheses of C50). *)
Definition has_frame {T} (i : interaction XR T) : Prop :=
  exists sn du, i_sn i = fin3 sn /\ i_dpdu i = fin3 du /\ unit_dir sn /\ du <> v0 /\ vdot du sn = 0.

(** The vertex normals, if any, interpolate to something else than 0 at the point hit. *)
Definition normals_ok (v : tri rv) (vn : option (tri rv)) (p : rv) : Prop :=
  match vn with
  | None => True
  | Some w => forall b0 b1 b2, weights b0 b1 b2 -> comb v b0 b1 b2 = p -> comb w b0 b1 b2 <> v0
  end.

(** At every hit of a triangle the position, its error bound and the normals are finite, and there is a
    frame, provided the vertex normals interpolate to something. *)
Theorem C72_triangle : forall (T : Type) (v : tri rv) (vn : option (tri rv)) rev (o d : rv) (tmax : XR) (i : interaction XR T) (t : XR),
  d <> v0 -> xis_nan tmax = false ->
  tr_intersect (fin_tri v vn rev) (mkRay (fin3 o) (fin3 d) tmax) = Ok (Some (i, t)) ->
  exists p e x, i_p i = fin3 p /\ i_p_err i = fin3 e /\ t = XFin x /\ i_wo i = fin3 (vscale (-1) d) /\
    (normals_ok v vn p -> exists n, i_n i = fin3 n /\ unit_dir n /\ has_frame i).
Proof.
  intros T v vn rev o d tmax i t Hd Hn H. destruct (max_abs_axis_fin d Hd) as (a & Ea & Ha & Hmax).
  change (fin_tri v vn rev) with (mkTri (ftri v) (option_map ftri vn) rev) in H.
  pose proof (hit_inv _ _ _ _ _ _ _ _ Hd Hn H) as (c0 & c1 & c2 & y & _ & Hw & _ & _ & _ & Ep & _ & _ & Nd & _).
  assert (Hv : tnormal v <> v0) by (intros E; apply Nd; rewrite E; unfold vdot, v0; cbn; ring).
  rewrite (tr_intersect_fin o d a v _ rev tmax Ea Ha) in H.
  destruct (rmixed o d a v) eqn:M; [discriminate|]. destruct (Req_bool (rdet o d a v) 0) eqn:D; [discriminate|]. rb.
  destruct (rout o d a v tmax) eqn:O; [discriminate|]. destruct (Rle_bool _ _) eqn:L; [discriminate|].
  cbv zeta in H. destruct (test_sound o d a v Ha tmax Hn M D O) as (B0 & B1 & B2 & S & _).
  set (b0 := re0 o d a v / rdet o d a v) in *. set (b1 := re1 o d a v / rdet o d a v) in *. set (b2 := re2 o d a v / rdet o d a v) in *.
  destruct (tr_frame _ _ _ _) as [[[n sn] du] dv] eqn:Ef.
  assert (H' : i = _ /\ t = _) by (apply (f_equal (fun q => match q with Ok z => z | _ => None end)) in H; apply Some_pair_inj in H; destruct H; split; symmetry; eassumption).
  destruct H' as [-> ->].
  assert (Be : exists e, bary_err (ftri v) (XFin b0) (XFin b1) (XFin b2) = fin3 e).
  { unfold bary_err. cbn [ftri t0 t1 t2]. rewrite !v3scale_fin. change (v3abs (fin3 (vscale b0 (t0 v)))) with (fin3 (mkV3 (Rabs (b0 * vx (t0 v))) (Rabs (b0 * vy (t0 v))) (Rabs (b0 * vz (t0 v))))).
    change (v3abs (fin3 (vscale b1 (t1 v)))) with (fin3 (mkV3 (Rabs (b1 * vx (t1 v))) (Rabs (b1 * vy (t1 v))) (Rabs (b1 * vz (t1 v))))).
    change (v3abs (fin3 (vscale b2 (t2 v)))) with (fin3 (mkV3 (Rabs (b2 * vx (t2 v))) (Rabs (b2 * vy (t2 v))) (Rabs (b2 * vz (t2 v))))).
    xsimp. rewrite gamma_fin by lra. rewrite !v3add_fin, v3scale_fin. eexists. reflexivity. }
  destruct Be as (e & Be).
  assert (F : normals_ok v vn (comb v b0 b1 b2) -> option_map ftri vn = None \/ (exists w, option_map ftri vn = Some (ftri w) /\ comb w b0 b1 b2 <> v0)).
  { intros No. destruct vn as [w|]; [|left; reflexivity]. right. exists w. split; [reflexivity|]. apply No; [split; auto|reflexivity]. }
  exists (comb v b0 b1 b2), e. cbn [i_p i_p_err i_wo i_n].
  eexists. split; [reflexivity|]. split; [exact Be|]. split; [reflexivity|]. split; [reflexivity|]. intros No.
  destruct (tr_frame_fin v (option_map ftri vn) rev b0 b1 b2 Hv (F No)) as (n' & sn' & du' & dv' & E & Un & Us & Hdu & Pd).
  rewrite E in Ef. exists n'. split; [congruence|]. split; [now apply vnorm_1_dot|]. exists sn', du'. cbn [i_sn i_dpdu].
  split; [congruence|]. split; [congruence|]. split; [now apply vnorm_1_dot|]. auto.
Qed.

(** Spheres: away from the two poles. *)
Theorem C72_sphere_partial : forall (T : Type) (c : rv) (r : R) (o d : rv) (tmax : XR) (i : interaction XR T) (t : XR),
  d <> v0 -> 0 < r ->
  sp_intersect (mkSphere (fin3 c) (XFin r)) (mkRay (fin3 o) (fin3 d) tmax) = Some (i, t) ->
  exists p n, i_p i = fin3 p /\ i_n i = fin3 n /\ unit_dir n /\ i_wo i = fin3 (vscale (-1) d) /\
    (vx p <> vx c \/ vy p <> vy c -> has_frame i).
Proof.
  intros T c r o d tmax i t Hd Hr H.
  destruct (C36_hit_geometry_partial T c r o d tmax i t Hd Hr H) as (x & phi & theta & p & n & _ & Ep & _ & _ & En & Es & Un & _ & Ew & _ & _ & _ & _ & Tg).
  exists p, n. repeat (split; [assumption|]). intros Hp. destruct (Tg Hp) as (du & dv & Ed & _ & Hdu & _ & Pn & _).
  exists n, du. auto.
Qed.

(** False at the poles: the tangent along the parallels vanishes there, and the BSDF has no frame. *)
Theorem C72_refuted : exists (s : sphere XR) (ra : ray XR) (i : interaction XR unit) (t : XR),
  sp_intersect s ra = Some (i, t) /\ i_p i = fin3 (mkV3 0 0 (-1)) /\ ~ has_frame i.
Proof.
  destruct C36_poles_refuted as (s & ra & i & t & H & Ep & Ed & _). exists s, ra, i, t. split; [exact H|]. split; [exact Ep|].
  intros (sn & du & _ & Edu & _ & Hdu & _). apply Hdu. rewrite Ed in Edu. unfold fin3 in Edu. injection Edu as E1 E2 E3.
  apply V3_eq; unfold v0; vproj; symmetry; auto.
Qed.
Print Assumptions C72_triangle.
Print Assumptions C72_refuted.
Print Assumptions C72_sphere_partial.

Example C71_example : exists s t, construct_coordinate_system (fin3 (mkV3 0 0 1)) = (fin3 s, fin3 t) /\ orthonormal s t (mkV3 0 0 1) /\ t = vcross (mkV3 0 0 1) s.
Proof. apply C71. unfold vdot. vproj. ring. Qed.

(** a hit of a triangle with vertex normals that do not vanish anywhere *)
Example C72_example : exists (i : interaction XR unit) (t : XR),
  let vn := Some (mk3 (mkV3 0 0 1) (mkV3 0 1 1) (mkV3 1 0 1)) in
  tr_intersect (fin_tri ex_tri vn false) (mkRay (fin3 (mkV3 0 0 1)) (fin3 (mkV3 0 0 (-1))) (XFin 5)) = Ok (Some (i, t)) /\
  (forall p, normals_ok ex_tri vn p) /\ has_frame i.
Proof.
  set (w := mk3 (mkV3 0 0 1) (mkV3 0 1 1) (mkV3 1 0 1)).
  assert (Nw : forall p, normals_ok ex_tri (Some w) p).
  { intros p b0 b1 b2 (B0 & B1 & B2 & S) _ E. apply (f_equal (fun q : rv => vz q)) in E. revert E. unfold comb, w, vadd, vscale, v0. vproj. cbn [t0 t1 t2]. vproj. lra. }
  destruct (hit_complete (T := unit) ex_tri (Some (ftri w)) false (mkV3 0 0 1) (mkV3 0 0 (-1)) (XFin 5) (1/2) (1/2) 0 1 1) as (i & E & P & _);
    [apply ex_tri_dir|reflexivity|unfold weights; lra| |lra|cbn; apply Rle_bool_true; lra|apply ex_tri_bound|apply ex_tri_err|].
  - unfold comb, at_t, ex_tri; apply V3_eq; unfold vadd, vscale; cbn; lra.
  - exists i, (XFin 1). cbv zeta. split; [exact E|]. split; [exact Nw|].
    destruct (C72_triangle unit ex_tri (Some w) false (mkV3 0 0 1) (mkV3 0 0 (-1)) (XFin 5) i (XFin 1)) as (p & e & x & _ & _ & _ & _ & F);
      [apply ex_tri_dir|reflexivity|exact E|]. now destruct (F (Nw p)) as (_ & _ & _ & Hf).
Qed.
