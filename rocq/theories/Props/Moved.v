(** * Moved interactions; derivatives on triangles; the area of a sphere (C98, C99) *)
From Coq Require Import ZArith Reals List Bool Lra Lia.
From Flocq Require Import Core.
From Verif Require Import Model.Num Model.NumX Model.Vector Model.Common Model.Interaction Model.Shape Model.Sphere Model.Triangle Model.Matrix Model.Transform.
From Verif Require Import Spec.RVec Spec.MatSpec Spec.TransformSpec Spec.ShapeSpec.
From Verif Require Import Proofs.XBase Proofs.RVecProofs Proofs.TransformProofs Proofs.TransformApply Proofs.MatProofs Proofs.TriangleProofs.
From Verif Require Import Props.Transforms Props.Shapes.
Import ListNotations.
Local Open Scope R_scope.

(** ** C98 *)
Lemma hom3_add M p v : affine M -> hom3 M (vadd p v) 1 = vadd (hom3 M p 1) (hom3 M v 0).
Proof. intros _. apply V3_eq; unfold hom3, hom, vadd; vproj; cbn [ent]; ring. Qed.

(** Moved by an affine transform, a hit keeps its texture coordinates and its shape; the point is moved as a
    point; the two tangents and the outgoing direction are moved as directions (differences of moved points); and
    both normals keep their products with all moved directions, so that what was perpendicular stays so. *)
Theorem C98_moved_partial : forall (T : Type) b t M N (i : interaction XR T) p n sn du dv wo,
  good t M N -> affine M ->
  i_p i = fin3 p -> i_n i = fin3 n -> i_sn i = fin3 sn -> i_dpdu i = fin3 du -> i_dpdv i = fin3 dv -> i_wo i = fin3 wo ->
  exists j p' n' sn' du' dv' wo',
    xf_interaction b (t_m t) (t_inv t) i = Ok j /\ i_uv j = i_uv i /\ i_shape j = i_shape i /\
    i_p j = fin3 p' /\ i_n j = fin3 n' /\ i_sn j = fin3 sn' /\ i_dpdu j = fin3 du' /\ i_dpdv j = fin3 dv' /\ i_wo j = fin3 wo' /\
    t_point b t (fin3 p) = Ok (fin3 p') /\
    t_point b t (fin3 (vadd p du)) = Ok (fin3 (vadd p' du')) /\
    t_point b t (fin3 (vadd p dv)) = Ok (fin3 (vadd p' dv')) /\
    t_point b t (fin3 (vadd p wo)) = Ok (fin3 (vadd p' wo')) /\
    forall v v', t_point b t (fin3 (vadd p v)) = Ok (fin3 (vadd p' v')) -> vdot n' v' = vdot n v /\ vdot sn' v' = vdot sn v.
Proof.
  intros T b t M N i p n sn du dv wo G A Ep En Es Eu Ev Ew. apply good_iff in G. destruct G as (-> & I & J).
  cbn [t_m t_inv]. unfold xf_interaction, t_point. cbn [t_m t_inv]. rewrite Ep, En, Es, Eu, Ev, Ew, (xf_point_affine b M (finm N) p A). cbn [rbind].
  exists (mkI (fin3 (hom3 M p 1)) (xf_vector (finm M) (finm N) (i_p_err i)) (i_uv i) (fin3 (homT N n)) (fin3 (homT N sn))
    (fin3 (hom3 M du 0)) (fin3 (hom3 M dv 0)) (fin3 (hom3 M wo 0)) (i_shape i)).
  exists (hom3 M p 1), (homT N n), (homT N sn), (hom3 M du 0), (hom3 M dv 0), (hom3 M wo 0).
  rewrite !xf_vector_fin, !xf_normal_fin. cbn [i_uv i_shape i_p i_n i_sn i_dpdu i_dpdv i_wo].
  repeat (split; [reflexivity|]). rewrite !(xf_point_affine b M (finm N) _ A), !hom3_add by auto. repeat (split; [reflexivity|]).
  intros v v'. rewrite (xf_point_affine b M (finm N) _ A), hom3_add by auto. intros E.
  assert (Ev' : v' = hom3 M v 0).
  { assert (Q : vadd (hom3 M p 1) (hom3 M v 0) = vadd (hom3 M p 1) v') by (injection E as E1 E2 E3; apply V3_eq; assumption).
    pose proof (f_equal vx Q) as Q1. pose proof (f_equal vy Q) as Q2. pose proof (f_equal vz Q) as Q3. unfold vadd in Q1, Q2, Q3. cbn [vx vy vz] in Q1, Q2, Q3.
    apply V3_eq; lra. }
  rewrite Ev'. split; now apply normal_dot.
Qed.
Print Assumptions C98_moved_partial.

(** within the error bounds of a hit *)
Definition in_error {T} (i : interaction XR T) (q : rv) : Prop :=
  exists p e, i_p i = fin3 p /\ i_p_err i = fin3 e /\ Rabs (vx q - vx p) <= vx e /\ Rabs (vy q - vy p) <= vy e /\ Rabs (vz q - vz p) <= vz e.

(** The error bounds are moved as if they were a direction: turned by half a circle about the z axis they are
    negative, and no point at all is within them. *)
Theorem C98_error_refuted : exists (T : Type) b t (i j : interaction XR T) (q q' : rv),
  t = t_rotate_z (XFin 180) /\ xf_interaction b (t_m t) (t_inv t) i = Ok j /\
  in_error i q /\ t_point b t (fin3 q) = Ok (fin3 q') /\ forall x, ~ in_error j x.
Proof.
  set (z := fin3 v0).
  set (i := mkI z (fin3 (mkV3 1 1 1)) (mkP2 (XFin 0) (XFin 0)) z z z z z (None : option unit)).
  pose proof (good_rotate_z 180) as G. apply good_iff in G. destruct G as (Et & _ & _).
  set (M := mkMat _ _ _ _ _ _ _ _ _ _ _ _ _ _ _ _) in Et. set (N := mkMat (cos (rad 180)) (sin (rad 180)) 0 0 _ _ _ _ _ _ _ _ _ _ _ _) in Et.
  assert (A : affine M) by (unfold affine, M; cbn; auto).
  assert (C : cos (rad 180) = -1) by (unfold rad; replace (180 * (PI / 180)) with PI by field; apply cos_PI).
  assert (S : sin (rad 180) = 0) by (unfold rad; replace (180 * (PI / 180)) with PI by field; apply sin_PI).
  assert (EM : hom3 M (mkV3 1 1 1) 0 = mkV3 (-1) (-1) 1) by (unfold hom3, hom, M; cbn [ent m00 m01 m02 m03 m10 m11 m12 m13 m20 m21 m22 m23 vx vy vz]; rewrite C, S; apply V3_eq; cbn [vx vy vz]; ring).
  exists unit, Release, (t_rotate_z (XFin 180)), i. rewrite Et. cbn [t_m t_inv].
  exists (mkI (fin3 (hom3 M v0 1)) (fin3 (mkV3 (-1) (-1) 1)) (mkP2 (XFin 0) (XFin 0)) (fin3 (homT N v0)) (fin3 (homT N v0)) (fin3 (hom3 M v0 0)) (fin3 (hom3 M v0 0)) (fin3 (hom3 M v0 0)) None).
  exists v0, (hom3 M v0 1). split; [reflexivity|]. split.
  { unfold xf_interaction, i, z. cbn [i_p i_p_err i_n i_sn i_dpdu i_dpdv i_wo i_uv i_shape]. rewrite (xf_point_affine Release M (finm N) v0 A). cbn [rbind].
    rewrite !xf_vector_fin, !xf_normal_fin, EM. reflexivity. }
  split.
  { exists v0, (mkV3 1 1 1). unfold i, z. cbn [i_p i_p_err vx vy vz v0]. rewrite Rminus_0_r, Rabs_R0. repeat split; lra. }
  split; [unfold t_point; cbn [t_m t_inv]; apply (xf_point_affine Release M (finm N) v0 A)|].
  intros x (p & e & _ & Ee & Hx & _). cbn [i_p_err] in Ee. assert (vx e = -1) by (injection Ee as E1 E2 E3; auto). pose proof (Rabs_pos (vx x - vx p)). lra.
Qed.
Print Assumptions C98_error_refuted.

(** If no entry of the matrix is negative, as for shifts and for scaling by positive factors, the moved bounds
    hold the moved points. *)
Theorem C98_error_partial : forall (T : Type) b t M N (i j : interaction XR T) q q',
  good t M N -> affine M ->
  (forall r c, (r < 3)%nat -> (c < 3)%nat -> 0 <= ent M r c) ->
  xf_interaction b (t_m t) (t_inv t) i = Ok j -> in_error i q -> t_point b t (fin3 q) = Ok (fin3 q') -> in_error j q'.
Proof.
  intros T b t M N i j q q' G A Pos Ej (p & e & Ep & Ee & Hx & Hy & Hz) Eq. apply good_iff in G. destruct G as (-> & _ & _).
  unfold xf_interaction, t_point in *. cbn [t_m t_inv] in *. rewrite Ep, Ee, (xf_point_affine b M (finm N) p A) in Ej. cbn [rbind] in Ej.
  rewrite xf_vector_fin in Ej. rewrite (xf_point_affine b M (finm N) q A) in Eq.
  assert (Eq' : q' = hom3 M q 1) by (injection Eq as E1 E2 E3; apply V3_eq; auto).
  apply Ok_inj' in Ej. exists (hom3 M p 1), (hom3 M e 0). rewrite <- Ej. cbn [i_p i_p_err]. split; [reflexivity|]. split; [reflexivity|]. rewrite Eq'.
  assert (K : forall a bb c x y z ex' ey' ez', 0 <= a -> 0 <= bb -> 0 <= c -> Rabs x <= ex' -> Rabs y <= ey' -> Rabs z <= ez' ->
    Rabs (a * x + bb * y + c * z) <= a * ex' + bb * ey' + c * ez').
  { intros a bb c x y z ex' ey' ez' Ha Hb Hc X Y Z. eapply Rle_trans; [apply Rabs_triang|]. eapply Rle_trans; [apply Rplus_le_compat_r, Rabs_triang|].
    rewrite !Rabs_mult, (Rabs_pos_eq a), (Rabs_pos_eq bb), (Rabs_pos_eq c) by auto.
    repeat apply Rplus_le_compat; now apply Rmult_le_compat_l. }
  unfold hom3, hom. vproj.
  repeat split; match goal with |- Rabs ?l <= ent M ?r _ * _ + _ + _ + _ =>
    replace l with (ent M r 0 * (vx q - vx p) + ent M r 1 * (vy q - vy p) + ent M r 2 * (vz q - vz p)) by ring;
    rewrite Rmult_0_r, Rplus_0_r; apply K; auto; apply Pos; lia end.
Qed.
Print Assumptions C98_error_partial.

(** a hit scaled by (2,3,4): the slanted normal of a slanted tangent *)
Example C98_example :
  let M := mkMat 2 0 0 0 0 3 0 0 0 0 4 0 0 0 0 1 in let N := mkMat (1 / 2) 0 0 0 0 (1 / 3) 0 0 0 0 (1 / 4) 0 0 0 0 1 in
  good (mkT (finm M) (finm N)) M N /\ affine M /\
  (forall r c, (r < 3)%nat -> (c < 3)%nat -> 0 <= ent M r c) /\
  hom3 M (mkV3 1 (-1) 0) 0 = mkV3 2 (-3) 0 /\ homT N (mkV3 1 1 0) = mkV3 (1 / 2) (1 / 3) 0.
Proof.
  cbv zeta. split; [apply good_iff; split; [reflexivity|]; split; apply mat_eq; unfold rid; matring; field|].
  split; [unfold affine; cbn; auto|]. split.
  - intros r c Hr Hc. destruct r as [|[|[|r]]]; try lia; destruct c as [|[|[|c]]]; try lia; cbn; lra.
  - split; apply V3_eq; unfold hom3, homT, hom; cbn; lra.
Qed.

(** ** C99 *)

(** the tangents of a hit on a triangle without vertex normals *)
Lemma hit_partials {F T} {FO : FOps F} (t : triangle F) r (i : interaction F T) d : tr_vn t = None -> tr_intersect t r = Ok (Some (i, d)) ->
  (i_dpdu i, i_dpdv i) = tr_partials (tr_v t).
Proof.
  intros Hn. unfold tr_intersect. destruct (max_abs_axis (r_d r)) as [a| |]; cbn [rbind]; try discriminate. cbv zeta.
  destruct (_ && _); [discriminate|]. destruct (feq _ f0); [discriminate|].
  match goal with |- (if ?b then _ else _) = _ -> _ => destruct b; [discriminate|] end.
  match goal with |- (if ?b then _ else _) = _ -> _ => destruct b; [discriminate|] end.
  unfold tr_frame. rewrite Hn. destruct (tr_partials (tr_v t)) as [du dv]. intros E.
  match type of E with Ok (Some (?x, ?y)) = _ => assert (Ei : i = x) by (apply (f_equal (fun q => match q with Ok (Some (z, _)) => z | _ => x end)) in E; symmetry; exact E) end.
  rewrite Ei. reflexivity.
Qed.

Lemma partials_fin v : tr_partials (ftri v) = (fin3 (vsub (t1 v) (t0 v)), fin3 (vsub (t2 v) (t1 v))).
Proof.
  unfold tr_partials. cbn [tr_uv p2subf t0 t1 t2 px py ftri]. change (@f0 XR XR_FOps) with (XFin 0). change (@f1 XR XR_FOps) with (XFin 1).
  rewrite !v3sub_fin. xsimp. cbn [xsub xadd xneg xmul xabs xlt].
  replace ((0 - 1) * (0 - 1) - (0 - 1) * (1 - 1)) with 1 by ring. rewrite Rabs_R1, Rlt_bool_false by lra.
  rewrite !v3scale_fin, v3sub_fin, v3add_fin, !v3divs_fin by lra. f_equal; f_equal; apply V3_eq; unfold vsub, vadd, vscale; vproj; lra.
Qed.

(** At every hit of a triangle without vertex normals the two tangents are the derivatives of the position by the
    texture coordinates: the point is the first corner plus u times the first plus v times the second. *)
Theorem C99_tangents : forall (T : Type) (v : tri rv) rev (o d : rv) (tmax : XR) (i : interaction XR T) (t : XR),
  d <> v0 -> xis_nan tmax = false ->
  tr_intersect (mkTri (mk3 (fin3 (t0 v)) (fin3 (t1 v)) (fin3 (t2 v))) None rev) (mkRay (fin3 o) (fin3 d) tmax) = Ok (Some (i, t)) ->
  exists p u w du dv, i_p i = fin3 p /\ i_uv i = mkP2 (XFin u) (XFin w) /\ i_dpdu i = fin3 du /\ i_dpdv i = fin3 dv /\
    p = vadd (t0 v) (vadd (vscale u du) (vscale w dv)) /\ vcross du dv <> v0.
Proof.
  intros T v rev o d tmax i t Hd Hn H. change (mk3 (fin3 (t0 v)) (fin3 (t1 v)) (fin3 (t2 v))) with (ftri v) in H.
  destruct (hit_inv v None rev o d tmax i t Hd Hn H) as (b0 & b1 & b2 & x & _ & (_ & _ & _ & W) & _ & _ & _ & Ep & Eu & _ & Nd & _).
  pose proof (hit_partials (mkTri (ftri v) None rev) _ i t eq_refl H) as P. cbn [tr_v] in P. rewrite partials_fin in P.
  exists (comb v b0 b1 b2), (b1 + b2), b2, (vsub (t1 v) (t0 v)), (vsub (t2 v) (t1 v)).
  split; [exact Ep|]. split; [exact Eu|]. split; [exact (f_equal fst P)|]. split; [exact (f_equal snd P)|]. split.
  - replace b0 with (1 - b1 - b2) by lra. unfold comb. apply V3_eq; unfold vadd, vscale, vsub; vproj; ring.
  - intros E. apply Nd. replace (tnormal v) with (vcross (vsub (t1 v) (t0 v)) (vsub (t2 v) (t1 v))) by (unfold tnormal; vring). rewrite E. unfold vdot, v0. cbn. ring.
Qed.
Print Assumptions C99_tangents.

(** The area reported for a sphere is the rate at which its volume grows with the radius. *)
Theorem C99_sphere_area : forall (T : Type) (D : Type) (LK : F64Link XR D) c r, exists a,
  sh_area (sphere_shape (T := T) (mkSphere (fin3 c) (XFin r))) = XFin a /\ derivable_pt_lim (fun s => 4 / 3 * PI * s ^ 3) r a.
Proof.
  intros. exists (4 / 3 * PI * (INR 3 * r ^ 2)). split.
  - cbn [sphere_shape sh_area]. unfold sp_area. cbn [sp_radius]. xsimp. cbn [xmul]. f_equal. cbn. field.
  - apply (derivable_pt_lim_scal (fun s => s ^ 3) (4 / 3 * PI) r). apply derivable_pt_lim_pow.
Qed.
Print Assumptions C99_sphere_area.

(** the triangle and the ray of C37 *)
Example C99_example : exists i : interaction XR unit,
  tr_intersect (mkTri (mk3 (fin3 (t0 ex_tri)) (fin3 (t1 ex_tri)) (fin3 (t2 ex_tri))) None false) (mkRay (fin3 (mkV3 0 0 1)) (fin3 (mkV3 0 0 (-1))) (XFin 5)) = Ok (Some (i, XFin 1)) /\
  i_dpdu i = fin3 (mkV3 2 0 0) /\ i_dpdv i = fin3 (mkV3 (-1) 1 0).
Proof.
  destruct C37_example as (i & E & _). exists i. split; [exact E|].
  match type of E with tr_intersect ?t ?r = _ => pose proof (hit_partials t r i (XFin 1) eq_refl E) as P end. cbn [tr_v] in P. change (mk3 (fin3 (t0 ex_tri)) (fin3 (t1 ex_tri)) (fin3 (t2 ex_tri))) with (ftri ex_tri) in P. rewrite partials_fin in P.
  split; [etransitivity; [exact (f_equal fst P)|]|etransitivity; [exact (f_equal snd P)|]]; cbn [fst snd]; f_equal; unfold ex_tri, vsub; apply V3_eq; cbn; lra.
Qed.
