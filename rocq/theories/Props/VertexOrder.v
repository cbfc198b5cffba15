(** * The order in which the corners of a triangle are given (C120)

    Mesh files list the corners of their triangles in any order (shape_triangle.rs:13-41).  In exact
    arithmetic the order does not decide what is hit, where, or in what shadow: it only decides which of
    the two sides of the triangle its normal leaves, and only if the triangle has no vertex normals. *)
From Coq Require Import ZArith Reals Bool List Lra Lia.
From Flocq Require Import Core.Raux.
From Verif Require Import Model.Num Model.NumX Model.Vector Model.Common Model.BBox Model.Interaction Model.Shape
  Model.Sphere Model.Triangle Spec.RVec Spec.BoxSpec Spec.ShapeSpec Proofs.XBase Proofs.RVecProofs Proofs.BoxProofs
  Proofs.ShapeProofs Proofs.TriangleProofs Props.Shapes.
Import ListNotations.
Local Open Scope R_scope.

(** the six orders of three things; [odd_order]: an odd number of exchanges leads to this order *)
Inductive order := O012 | O120 | O201 | O102 | O021 | O210.
Definition reorder {A} (p : order) (x : tri A) : tri A :=
  match p with
  | O012 => x
  | O120 => mk3 (t1 x) (t2 x) (t0 x)
  | O201 => mk3 (t2 x) (t0 x) (t1 x)
  | O102 => mk3 (t1 x) (t0 x) (t2 x)
  | O021 => mk3 (t0 x) (t2 x) (t1 x)
  | O210 => mk3 (t2 x) (t1 x) (t0 x)
  end.
Definition odd_order (p : order) : bool := match p with O012 | O120 | O201 => false | _ => true end.
Definition sgn (p : order) : R := if odd_order p then -1 else 1.

(** ** The numbers of the test *)
Lemma rmax3_reorder p (x : tri R) : rmax3 (t0 (reorder p x)) (t1 (reorder p x)) (t2 (reorder p x)) = rmax3 (t0 x) (t1 x) (t2 x).
Proof.
  pose proof (rmax3_ub (t0 x) (t1 x) (t2 x)) as (A & B & C).
  pose proof (rmax3_ub (t0 (reorder p x)) (t1 (reorder p x)) (t2 (reorder p x))) as (A' & B' & C').
  apply Rle_antisym; apply rmax3_lub; destruct p; cbn [reorder t0 t1 t2] in *; assumption.
Qed.
Lemma rmax3_sgn p a b c : rmax3 (sgn p * a) (sgn p * b) (sgn p * c) = rmax3 a b c.
Proof.
  assert (E : forall y, Rabs (sgn p * y) = Rabs y).
  { intros y. rewrite Rabs_mult. unfold sgn. destruct (odd_order p); [rewrite Rabs_left|rewrite Rabs_pos_eq]; lra. }
  unfold rmax3. now rewrite !E.
Qed.
Lemma sgn_nz p : sgn p <> 0.
Proof. unfold sgn. destruct (odd_order p); lra. Qed.

Section N.
  Variables (o d : rv) (a : axis) (v : tri rv) (p : order).
  Let v' := reorder p v.
  Let es := mk3 (re0 o d a v) (re1 o d a v) (re2 o d a v).

  Lemma re_reorder : re0 o d a v' = sgn p * t0 (reorder p es) /\ re1 o d a v' = sgn p * t1 (reorder p es) /\
    re2 o d a v' = sgn p * t2 (reorder p es).
  Proof.
    unfold v', es, sgn, re0, re1, re2. destruct p; cbn [reorder odd_order t0 t1 t2]; repeat split; ring.
  Qed.
  Lemma rdet_reorder : rdet o d a v' = sgn p * rdet o d a v.
  Proof.
    destruct re_reorder as (A & B & C). unfold rdet. rewrite A, B, C. unfold es. destruct p; cbn [reorder t0 t1 t2]; ring.
  Qed.
  Lemma rts_reorder : rts o d a v' = sgn p * rts o d a v.
  Proof.
    destruct re_reorder as (A & B & C). unfold rts. rewrite A, B, C. unfold es, v'. destruct p; cbn [reorder t0 t1 t2]; ring.
  Qed.
  Lemma rmixed_reorder : rmixed o d a v' = rmixed o d a v.
  Proof.
    destruct re_reorder as (A & B & C). unfold rmixed. rewrite A, B, C. unfold es. clear.
    generalize (re0 o d a v) (re1 o d a v) (re2 o d a v). intros x y z.
    assert (N : forall q, Rlt_bool (-1 * q) 0 = Rlt_bool 0 q).
    { intros q. destruct (Rlt_bool_spec 0 q); [apply Rlt_bool_true|apply Rlt_bool_false]; lra. }
    assert (P : forall q, Rlt_bool 0 (-1 * q) = Rlt_bool q 0).
    { intros q. destruct (Rlt_bool_spec q 0); [apply Rlt_bool_true|apply Rlt_bool_false]; lra. }
    destruct p; unfold sgn; cbn [reorder odd_order t0 t1 t2]; rewrite ?N, ?P, ?Rmult_1_l;
      destruct (Rlt_bool x 0), (Rlt_bool y 0), (Rlt_bool z 0), (Rlt_bool 0 x), (Rlt_bool 0 y), (Rlt_bool 0 z); reflexivity.
  Qed.
  Lemma rdt_reorder : rdt o d a v' = rdt o d a v.
  Proof.
    destruct re_reorder as (A & B & C). unfold rdt. cbv zeta. rewrite rdet_reorder, A, B, C, rmax3_sgn, rmax3_reorder.
    assert (Q : forall f : rv -> R, rmax3 (f (t0 v')) (f (t1 v')) (f (t2 v')) = rmax3 (f (t0 v)) (f (t1 v)) (f (t2 v))).
    { intros f. pose proof (rmax3_reorder p (mk3 (f (t0 v)) (f (t1 v)) (f (t2 v)))) as H. unfold v'.
      destruct p; cbn [reorder t0 t1 t2] in *; exact H. }
    rewrite !Q. rewrite Rabs_mult.
    replace (Rabs (sgn p)) with 1; [now rewrite Rmult_1_l|]. unfold sgn. destruct (odd_order p); [rewrite Rabs_left|rewrite Rabs_pos_eq]; lra.
  Qed.
  Lemma rt_reorder : rdet o d a v <> 0 -> rts o d a v' / rdet o d a v' = rts o d a v / rdet o d a v.
  Proof. intros D. rewrite rts_reorder, rdet_reorder. pose proof (sgn_nz p). field. auto. Qed.
  Lemma rout_reorder tmax : xis_nan tmax = false -> rdet o d a v <> 0 -> rout o d a v' tmax = rout o d a v tmax.
  Proof.
    intros Hn D. assert (D' : rdet o d a v' <> 0) by (rewrite rdet_reorder; apply Rmult_integral_contrapositive; split; auto; apply sgn_nz).
    pose proof (rout_spec o d a v tmax Hn D) as A. pose proof (rout_spec o d a v' tmax Hn D') as B. rewrite rt_reorder in B by auto.
    destruct (rout o d a v tmax), (rout o d a v' tmax); auto; exfalso.
    - destruct B as [B _]. specialize (B eq_refl). apply A in B. discriminate.
    - destruct A as [A _]. specialize (A eq_refl). apply B in A. discriminate.
  Qed.
  Lemma b_reorder : rdet o d a v <> 0 -> let D := rdet o d a v in let D' := rdet o d a v' in
    let bs := mk3 (re0 o d a v / D) (re1 o d a v / D) (re2 o d a v / D) in
    re0 o d a v' / D' = t0 (reorder p bs) /\ re1 o d a v' / D' = t1 (reorder p bs) /\ re2 o d a v' / D' = t2 (reorder p bs).
  Proof.
    intros D. cbv zeta. destruct re_reorder as (A & B & C). rewrite A, B, C, rdet_reorder. pose proof (sgn_nz p). unfold es.
    destruct p; cbn [reorder t0 t1 t2]; repeat split; field; auto.
  Qed.
End N.

Lemma comb_reorder p (w : tri rv) b0 b1 b2 : let bs := reorder p (mk3 b0 b1 b2) in
  comb (reorder p w) (t0 bs) (t1 bs) (t2 bs) = comb w b0 b1 b2.
Proof. cbv zeta. destruct p, w as [p0 p1 p2], p0, p1, p2; cbn [reorder t0 t1 t2]; unfold comb; cbn [t0 t1 t2]; vring. Qed.
Lemma tnormal_reorder p v : tnormal (reorder p v) = vscale (sgn p) (tnormal v).
Proof. unfold tnormal, sgn. destruct p; cbn [reorder odd_order t0 t1 t2]; vring. Qed.
Lemma ftri_reorder p v : ftri (reorder p v) = reorder p (ftri v).
Proof. destruct p; reflexivity. Qed.

Lemma bary_err_fin v b0 b1 b2 : bary_err (ftri v) (XFin b0) (XFin b1) (XFin b2) =
  v3scale (fin3 (vadd (vadd (mkV3 (Rabs (vx (t0 v) * b0)) (Rabs (vy (t0 v) * b0)) (Rabs (vz (t0 v) * b0)))
    (mkV3 (Rabs (vx (t1 v) * b1)) (Rabs (vy (t1 v) * b1)) (Rabs (vz (t1 v) * b1))))
    (mkV3 (Rabs (vx (t2 v) * b2)) (Rabs (vy (t2 v) * b2)) (Rabs (vz (t2 v) * b2))))) (gamma (fofZ 7)).
Proof. reflexivity. Qed.
Lemma bary_err_reorder p v b0 b1 b2 : let bs := reorder p (mk3 b0 b1 b2) in
  bary_err (ftri (reorder p v)) (XFin (t0 bs)) (XFin (t1 bs)) (XFin (t2 bs)) = bary_err (ftri v) (XFin b0) (XFin b1) (XFin b2).
Proof.
  cbv zeta. rewrite !bary_err_fin. f_equal. f_equal.
  destruct p; cbn [reorder t0 t1 t2]; apply V3_eq; unfold vadd; vproj; ring.
Qed.

Lemma vunit_sgn p n : n <> v0 -> vunit (vscale (sgn p) n) = vscale (sgn p) (vunit n).
Proof.
  intros H. apply vnorm_pos in H. unfold vunit. rewrite vnorm_scale.
  replace (Rabs (sgn p)) with 1 by (unfold sgn; destruct (odd_order p); [rewrite Rabs_left|rewrite Rabs_pos_eq]; lra).
  apply V3_eq; unfold vscale; vproj; field; lra.
Qed.

(** What [tr_intersect] answers in one order, read off its answer in another. *)
Lemma intersect_reorder {T} p v vn rev vn' o d tmax : d <> v0 -> xis_nan tmax = false ->
  match tr_intersect (T := T) (mkTri (ftri v) vn rev) (mkRay (fin3 o) (fin3 d) tmax),
        tr_intersect (T := T) (mkTri (ftri (reorder p v)) vn' rev) (mkRay (fin3 o) (fin3 d) tmax) with
  | Ok None, Ok None => True
  | Ok (Some (i, t)), Ok (Some (i', t')) => t' = t /\ i_p i' = i_p i /\ i_p_err i' = i_p_err i /\ i_wo i' = i_wo i /\
      i_shape i' = i_shape i /\ tnormal v <> v0 /\
      exists b0 b1 b2 du dv du' dv', let bs := reorder p (mk3 b0 b1 b2) in
        tr_frame (mkTri (ftri v) vn rev) (XFin b0) (XFin b1) (XFin b2) = (i_n i, i_sn i, du, dv) /\
        tr_frame (mkTri (ftri (reorder p v)) vn' rev) (XFin (t0 bs)) (XFin (t1 bs)) (XFin (t2 bs)) = (i_n i', i_sn i', du', dv')
  | _, _ => False
  end.
Proof.
  intros Hd Hn. destruct (max_abs_axis_fin d Hd) as (a & Ea & Ha & _).
  rewrite (tr_intersect_fin o d a v vn rev tmax Ea Ha), (tr_intersect_fin o d a (reorder p v) vn' rev tmax Ea Ha).
  rewrite rmixed_reorder. destruct (rmixed o d a v); [exact I|].
  destruct (Req_bool (rdet o d a v) 0) eqn:D; rb.
  { rewrite rdet_reorder, D, Rmult_0_r, Req_bool_true by reflexivity. exact I. }
  assert (D' : rdet o d a (reorder p v) <> 0) by (rewrite rdet_reorder; apply Rmult_integral_contrapositive; split; auto; apply sgn_nz).
  rewrite (Req_bool_false _ _ D'), rout_reorder by auto. destruct (rout o d a v tmax); [exact I|].
  rewrite rt_reorder, rdt_reorder by auto. destruct (Rle_bool _ _); [exact I|]. cbv zeta.
  destruct (b_reorder o d a v p D) as (B0 & B1 & B2). rewrite B0, B1, B2. clear B0 B1 B2.
  set (b0 := re0 o d a v / rdet o d a v). set (b1 := re1 o d a v / rdet o d a v). set (b2 := re2 o d a v / rdet o d a v).
  destruct (tr_frame (mkTri (ftri v) vn rev) _ _ _) as [[[n sn] du] dv] eqn:F1.
  destruct (tr_frame (mkTri (ftri (reorder p v)) vn' rev) _ _ _) as [[[n' sn'] du'] dv'] eqn:F2.
  cbn [i_p i_p_err i_wo i_shape i_n i_sn]. split; [reflexivity|]. split; [f_equal; apply (comb_reorder p v b0 b1 b2)|].
  split; [apply (bary_err_reorder p v b0 b1 b2)|]. split; [reflexivity|]. split; [reflexivity|].
  split; [exact (tnormal_det o d a v Ha D)|].
  exists b0, b1, b2, du, dv, du', dv'. split; [exact F1|exact F2].
Qed.

(** ** C120 *)
(** Without vertex normals: the same answer, at the same parameter and point and with the same error
    bound, and both normals the same, or turned over after an odd number of exchanges. *)
Theorem C120_order : forall (T : Type) (p : order) (v : tri rv) rev (o d : rv) (tmax : XR), d <> v0 -> xis_nan tmax = false ->
  let s (w : tri rv) := mkTri (mk3 (fin3 (t0 w)) (fin3 (t1 w)) (fin3 (t2 w))) None rev in
  let r := mkRay (fin3 o) (fin3 d) tmax in
  match tr_intersect (T := T) (s v) r, tr_intersect (T := T) (s (reorder p v)) r with
  | Ok None, Ok None => True
  | Ok (Some (i, t)), Ok (Some (i', t')) =>
      t' = t /\ i_p i' = i_p i /\ i_p_err i' = i_p_err i /\ i_wo i' = i_wo i /\ i_shape i' = i_shape i /\
      exists n, vnorm n = 1 /\ i_n i = fin3 n /\ i_sn i = fin3 n /\
        i_n i' = fin3 (vscale (if odd_order p then -1 else 1) n) /\ i_sn i' = fin3 (vscale (if odd_order p then -1 else 1) n)
  | _, _ => False
  end.
Proof.
  intros T p v rev o d tmax Hd Hn s r. pose proof (intersect_reorder (T := T) p v None rev None o d tmax Hd Hn) as H.
  change (mkTri (ftri v) None rev) with (s v) in H. change (mkTri (ftri (reorder p v)) None rev) with (s (reorder p v)) in H. fold r in H.
  destruct (tr_intersect (T := T) (s v) r) as [[[i t]|]| |], (tr_intersect (T := T) (s (reorder p v)) r) as [[[i' t']|]| |]; try exact H.
  destruct H as (E1 & E2 & E3 & E4 & E5 & Hv & b0 & b1 & b2 & du & dv & du' & dv' & F1 & F2).
  do 5 (split; [assumption|]). fold (sgn p).
  assert (Hv' : tnormal (reorder p v) <> v0).
  { rewrite tnormal_reorder. intros E. apply Hv. pose proof (sgn_nz p) as S. apply V3_eq;
      [apply (f_equal vx) in E|apply (f_equal vy) in E|apply (f_equal vz) in E]; unfold vscale, v0 in *; revert E; vproj; intros E;
      (apply Rmult_integral in E as [E|E]; [contradiction|exact E]). }
  apply (tr_frame_normals v None rev _ _ _ _ _ _ _ Hv) in F1 as [S1 N1].
  apply (tr_frame_normals (reorder p v) None rev _ _ _ _ _ _ _ Hv') in F2 as [S2 N2]. cbv zeta in S1, N1, S2, N2.
  rewrite tnormal_reorder, vunit_sgn in S2, N2 by auto.
  pose proof (vunit_dot _ Hv) as U. pose proof (vnorm_unit _ Hv) as L. set (n0 := vunit (tnormal v)) in *. clearbody n0.
  change (@f0 XR XR_FOps) with (XFin 0) in *.
  assert (Q : sgn p * sgn p = 1) by (unfold sgn; destruct (odd_order p); ring).
  destruct rev.
  - rewrite v3scale_fin in S1, S2. rewrite S1, v3dot_fin, v3scale_fin in N1. rewrite S2, v3dot_fin, v3scale_fin in N2.
    xsimpin N1. xsimpin N2. cbn [xlt] in N1, N2.
    rewrite !vdot_scale_r, U in N1. rewrite !vdot_scale_r, !vdot_scale_l, ?vdot_scale_r, U in N2.
    rewrite Rlt_bool_true in N1 by lra. rewrite Rlt_bool_true in N2 by lra.
    exists (vscale (-1) n0). split; [rewrite vnorm_scale, L, Rabs_left by lra; ring|].
    assert (C : vscale (sgn p) (vscale (-1) n0) = vscale (-1) (vscale (sgn p) n0)) by vring. rewrite C. auto.
  - rewrite S1, v3dot_fin in N1. rewrite S2, v3dot_fin in N2. xsimpin N1. xsimpin N2. cbn [xlt] in N1, N2.
    rewrite U in N1. rewrite !vdot_scale_r, !vdot_scale_l, U in N2.
    rewrite Rlt_bool_false in N1 by lra. rewrite Rlt_bool_false in N2 by lra.
    exists n0. auto.
Qed.

(** With vertex normals, listed in the same order as the corners: the same answer, point, error bound and
    shading normal; and the same geometric normal, unless the shading normal lies in the plane of the
    triangle (then either side is as good). *)
Theorem C120_shading : forall (T : Type) (p : order) (v w : tri rv) rev (o d : rv) (tmax : XR), d <> v0 -> xis_nan tmax = false ->
  let s (x y : tri rv) := mkTri (mk3 (fin3 (t0 x)) (fin3 (t1 x)) (fin3 (t2 x)))
    (Some (mk3 (fin3 (t0 y)) (fin3 (t1 y)) (fin3 (t2 y)))) rev in
  let r := mkRay (fin3 o) (fin3 d) tmax in
  match tr_intersect (T := T) (s v w) r, tr_intersect (T := T) (s (reorder p v) (reorder p w)) r with
  | Ok None, Ok None => True
  | Ok (Some (i, t)), Ok (Some (i', t')) =>
      t' = t /\ i_p i' = i_p i /\ i_p_err i' = i_p_err i /\ i_wo i' = i_wo i /\ i_shape i' = i_shape i /\
      i_sn i' = i_sn i /\
      (forall n sn, i_n i = fin3 n -> i_sn i = fin3 sn -> vdot n sn <> 0 -> i_n i' = i_n i)
  | _, _ => False
  end.
Proof.
  intros T p v w rev o d tmax Hd Hn s r.
  pose proof (intersect_reorder (T := T) p v (Some (ftri w)) rev (Some (ftri (reorder p w))) o d tmax Hd Hn) as H.
  change (mkTri (ftri v) (Some (ftri w)) rev) with (s v w) in H.
  change (mkTri (ftri (reorder p v)) (Some (ftri (reorder p w))) rev) with (s (reorder p v) (reorder p w)) in H. fold r in H.
  destruct (tr_intersect (T := T) (s v w) r) as [[[i t]|]| |], (tr_intersect (T := T) (s (reorder p v) (reorder p w)) r) as [[[i' t']|]| |]; try exact H.
  destruct H as (E1 & E2 & E3 & E4 & E5 & Hv & b0 & b1 & b2 & du & dv & du' & dv' & F1 & F2).
  do 5 (split; [assumption|]).
  assert (Hv' : tnormal (reorder p v) <> v0).
  { rewrite tnormal_reorder. intros E. apply Hv. pose proof (sgn_nz p) as S. apply V3_eq;
      [apply (f_equal vx) in E|apply (f_equal vy) in E|apply (f_equal vz) in E]; unfold vscale, v0 in *; revert E; vproj; intros E;
      (apply Rmult_integral in E as [E|E]; [contradiction|exact E]). }
  apply (tr_frame_normals v (Some (ftri w)) rev _ _ _ _ _ _ _ Hv) in F1 as [S1 N1].
  apply (tr_frame_normals (reorder p v) (Some (ftri (reorder p w))) rev _ _ _ _ _ _ _ Hv') in F2 as [S2 N2]. cbv zeta in S1, N1, S2, N2.
  rewrite bary_fin in S1, S2. rewrite comb_reorder in S2. rewrite v3length_fin in S1, S2.
  change (@f0 XR XR_FOps) with (XFin 0) in *.
  assert (Le : forall m, fle (XFin 0) (XFin (vnorm m)) = true) by (intros m; xsimp; cbn [xle]; apply Rle_bool_true; apply sqrt_pos).
  rewrite Le in S1, S2. rewrite <- S1 in S2. split; [exact S2|].
  intros n sn En Es Ne. rewrite En. rewrite S2, Es in N2. rewrite Es in N1. rewrite tnormal_reorder, vunit_sgn in N2 by auto.
  set (n0 := vunit (tnormal v)) in *. clearbody n0. rewrite v3dot_fin, v3scale_fin in N1, N2. xsimpin N1. xsimpin N2. cbn [xlt] in N1, N2.
  rewrite vdot_scale_l in N2. rewrite En in N1.
  assert (Fi : forall a b, fin3 a = fin3 b -> a = b).
  { intros q q' E. apply V3_eq; [apply (f_equal vx) in E|apply (f_equal vy) in E|apply (f_equal vz) in E]; cbn in E; congruence. }
  assert (Nz : vdot n0 sn <> 0).
  { intros Z. destruct (Rlt_bool _ _); apply Fi in N1; subst n; apply Ne; rewrite ?vdot_scale_l, Z; ring. }
  rewrite N2. unfold sgn. destruct (odd_order p).
  - destruct (Rlt_bool_spec (vdot n0 sn) 0) as [L|L]; rewrite N1.
    + rewrite Rlt_bool_false by lra. reflexivity.
    + rewrite Rlt_bool_true by lra. f_equal. vring.
  - rewrite Rmult_1_l. replace (vscale 1 n0) with n0 by vring. symmetry. exact N1.
Qed.

(** The same shadow, area and box in every order, whatever the vertex normals. *)
Theorem C120_shadow_area_box : forall (p : order) (v : tri rv) vn vn' rev (o d : rv) (tmax : XR), d <> v0 -> xis_nan tmax = false ->
  let s (x : tri rv) m := mkTri (mk3 (fin3 (t0 x)) (fin3 (t1 x)) (fin3 (t2 x))) m rev in
  let r := mkRay (fin3 o) (fin3 d) tmax in
  tr_intersect_p (s (reorder p v) vn') r = tr_intersect_p (s v vn) r /\
  tr_area (s (reorder p v) vn') = tr_area (s v vn) /\ tr_bbox (s (reorder p v) vn') = tr_bbox (s v vn).
Proof.
  intros p v vn vn' rev o d tmax Hd Hn s r. split; [|split].
  - rewrite !(C38_triangle XR unit). pose proof (intersect_reorder (T := unit) p v vn rev vn' o d tmax Hd Hn) as H.
    change (mkTri (ftri v) vn rev) with (s v vn) in H. change (mkTri (ftri (reorder p v)) vn' rev) with (s (reorder p v) vn') in H. fold r in H.
    destruct (tr_intersect (T := unit) (s v vn) r) as [[[i t]|]| |], (tr_intersect (T := unit) (s (reorder p v) vn') r) as [[[i' t']|]| |]; try reflexivity; contradiction.
  - unfold tr_area, s. cbn [tr_v t0 t1 t2]. rewrite !v3sub_fin, !v3cross_fin, !v3length_fin. f_equal. f_equal.
    change (vnorm (tnormal (reorder p v)) = vnorm (tnormal v)). rewrite tnormal_reorder, vnorm_scale.
    unfold sgn. destruct (odd_order p); [rewrite Rabs_left|rewrite Rabs_pos_eq]; lra.
  - assert (Fm : forall a b, fmin (XFin a) (XFin b) = XFin (Rmin a b)).
    { intros. unfold fmin. xsimp. cbn [xis_nan xlt]. unfold Rmin. destruct (Rle_dec a b); destruct (Rlt_bool _ _) eqn:E; rb; auto; f_equal; lra. }
    unfold s, tr_bbox, bbox_union_point, bbox_new, v3min, v3max, v3map2, fin3. cbn [tr_v t0 t1 t2 vx vy vz bmin bmax].
    rewrite !Fm, !fmax_XFin.
    destruct p; cbn [reorder t0 t1 t2]; f_equal; f_equal; f_equal; unfold Rmin, Rmax; repeat destruct (Rle_dec _ _); lra.
Qed.

(** A triangle that is hit from above, in all six orders: at the same point, with its normal up in three
    of them and down in the others. *)
Example C120_example : forall p : order, exists i : interaction XR unit,
  tr_intersect (mkTri (mk3 (fin3 (t0 (reorder p ex_tri))) (fin3 (t1 (reorder p ex_tri))) (fin3 (t2 (reorder p ex_tri)))) None false)
    (mkRay (fin3 (mkV3 0 0 1)) (fin3 (mkV3 0 0 (-1))) (XFin 5)) = Ok (Some (i, XFin 1)) /\
  i_p i = fin3 (mkV3 0 0 0) /\ i_n i = fin3 (mkV3 0 0 (if odd_order p then -1 else 1)).
Proof.
  intros p. destruct (hit_complete (T := unit) ex_tri None false (mkV3 0 0 1) (mkV3 0 0 (-1)) (XFin 5) (1/2) (1/2) 0 1 1) as (i & E & P & _ & du & dv & Ef);
    [apply ex_tri_dir|reflexivity|unfold weights; lra| |lra|cbn; apply Rle_bool_true; lra|apply ex_tri_bound|apply ex_tri_err|].
  - unfold comb, at_t, ex_tri; apply V3_eq; unfold vadd, vscale; cbn; lra.
  - pose proof (C120_order unit p ex_tri false (mkV3 0 0 1) (mkV3 0 0 (-1)) (XFin 5) ex_tri_dir eq_refl) as H. cbv beta zeta in H.
    unfold ftri in E. rewrite E in H.
    destruct (tr_intersect (T := unit) (mkTri (mk3 (fin3 (t0 (reorder p ex_tri))) (fin3 (t1 (reorder p ex_tri)))
      (fin3 (t2 (reorder p ex_tri)))) None false) _) as [[[i' t']|]| |]; try contradiction.
    destruct H as (-> & Ep & _ & _ & _ & n & Un & En & Es & En' & _). exists i'. split; [reflexivity|].
    split; [rewrite Ep, P; f_equal; unfold comb, ex_tri; apply V3_eq; unfold vadd, vscale; cbn; lra|].
    rewrite En'. f_equal.
    assert (Hv : tnormal ex_tri = mkV3 0 0 2) by (unfold tnormal, ex_tri; apply V3_eq; unfold vcross, vsub; cbn; ring).
    assert (Hz : tnormal ex_tri <> v0) by (rewrite Hv; intros Q; apply (f_equal vz) in Q; cbn in Q; lra).
    apply (tr_frame_normals ex_tri None false _ _ _ _ _ _ _ Hz) in Ef as [S1 _]. cbv zeta in S1. rewrite Es, Hv in S1.
    assert (Fi : forall a b, fin3 a = fin3 b -> a = b).
    { intros q q' Q. apply V3_eq; [apply (f_equal vx) in Q|apply (f_equal vy) in Q|apply (f_equal vz) in Q]; cbn in Q; congruence. }
    apply Fi in S1. subst n.
    assert (Nm : vnorm (mkV3 0 0 2) = 2).
    { unfold vnorm, vdot. cbn [vx vy vz]. replace (0 * 0 + 0 * 0 + 2 * 2) with (2 * 2) by ring. apply sqrt_square. lra. }
    unfold vunit. rewrite Nm. destruct (odd_order p); apply V3_eq; unfold vscale; vproj; field.
Qed.
