(** * Matrices, transforms and the camera (C22 - C30), exact arithmetic *)
From Coq Require Import ZArith Reals Bool List Lra Lia.
From Flocq Require Import Core.Raux.
From Verif Require Import Model.Num Model.NumX Model.Vector Model.Matrix Model.Transform
  Model.Interaction Model.BBox Model.Camera Proofs.XBase Proofs.RVecProofs Spec.RVec Spec.MatSpec
  Proofs.MatProofs Spec.TransformSpec Spec.BoxSpec Proofs.TransformProofs Proofs.TransformApply.
Import ListNotations.
Local Open Scope R_scope.

(** ** C22 *)
Theorem C22_matrix_inverse : forall (b : build) (a : mat R),
  (det 4 (ent a) <> 0 ->
     exists i, mat_inverse b (finm a) = Ok (finm i) /\ two_sided_inverse a i) /\
  (det 4 (ent a) = 0 ->
     match b with
     | Debug => mat_inverse b (finm a) = Panic
     | Release => exists i, mat_inverse b (finm a) = Ok i /\
                    Forall (fun x => forall r, x <> XFin r) (entries i)
     end).
Proof.
  intros b a. split; intros H.
  - exists (rinv a). split; [now apply mat_inverse_fin|].
    split; apply is_id_prod_rmul; [apply rinv_r|apply rinv_l]; auto.
  - unfold mat_inverse. rewrite mat_det_fin. unfold rdet. rewrite H.
    unfold f0. xsimp. cbn [xeq]. rewrite Req_bool_true by auto.
    destruct b; auto. eexists. split; [reflexivity|].
    rewrite mat_adj_fin. unfold mat_divs, entries, finm. mproj. xsimp. cbn [xdiv].
    rewrite (Req_bool_true 0 0) by auto.
    repeat (constructor; [intros r; destruct (Req_bool _ _); discriminate|]). constructor.
Qed.

(** The matrix of the unit test matrix.rs:133-147, and a singular one *)
Example C22_example : forall b,
  let a := mkMat 100 0 0 200  0 (-100) 0 100  0 0 1 0  0 0 0 1 in
  det 4 (ent a) = -10000 /\
  mat_inverse b (finm a) = Ok (finm (mkMat (1/100) 0 0 (-2)  0 (-1/100) 0 1  0 0 1 0  0 0 0 1)) /\
  det 4 (ent (mkMat 1 2 3 4  2 4 6 8  0 0 1 0  0 0 0 1)) = 0.
Proof.
  intros b a. assert (D : det 4 (ent a) = -10000).
  { unfold a. cbn [det sumn ent Nat.ltb Nat.leb pow]. mproj. ring. }
  split; [exact D|]. split.
  - rewrite mat_inverse_fin by (unfold rdet; rewrite D; lra). do 2 f_equal. unfold rinv, rdet. rewrite D.
    unfold a, rscale, radj. apply mat_eq; mproj; field.
  - cbn [det sumn ent Nat.ltb Nat.leb pow]. mproj. ring.
Qed.

(** ** C23 *)

(** Whatever the arguments, in either build: if the entries are numbers at all, the two matrices
    are inverse to each other. *)
Theorem C23_carries_inverse : forall (b : build) (e : texpr) (t : transform XR),
  teval b e = Ok t ->
  Forall (fun x => exists r, x = XFin r) (entries (t_m t)) ->
  Forall (fun x => exists r, x = XFin r) (entries (t_inv t)) ->
  exists M N, t = mkT (finm M) (finm N) /\ two_sided_inverse M N.
Proof. intros b e t H Hm Hi. exact (teval_good b e t H Hm Hi). Qed.

(** For sensible arguments no constructor panics and the entries are finite. *)
Theorem C23_sensible_arguments : forall (b : build) (e : texpr), wf e ->
  exists t M N, teval b e = Ok t /\ t = mkT (finm M) (finm N) /\ two_sided_inverse M N.
Proof. intros b e H. destruct (teval_wf b e H) as (t & M & N & E & G & I). eauto 7. Qed.

Definition C23_expr : texpr :=
  EMul (EInv (EMul (ETranslate (XFin 1) (XFin 2) (XFin 3)) (ERotY (XFin 30))))
       (EMul (EPersp (XFin 60) (XFin 1) (XFin 100)) (EMul (EScale (XFin 2) (XFin (-1)) (XFin 5))
          (ELookAt (fin3 (mkV3 0 0 5)) (fin3 (mkV3 0 1 0)) (fin3 (mkV3 0 1 0))))).
Example C23_example : wf C23_expr.
Proof.
  cbn [wf C23_expr]. split; [split|split; [|split]].
  - eexists _, _, _. eauto.
  - eexists. eauto.
  - exists 60, 1, 100. repeat split; lra.
  - exists 2, (-1), 5. repeat split; lra.
  - eexists _, _, _. do 3 (split; [reflexivity|]). split.
    + intros E. apply (f_equal vy) in E. cbn in E. lra.
    + intros E. apply (f_equal vx) in E. unfold vcross, vsub, v0 in E. cbn [vx vy vz] in E. lra.
Qed.

(** ** C24 *)
Theorem C24_points : forall b t M N p, good t M N ->
  hom M p 1 3 <> 0 ->
  exists q, t_point b t (fin3 p) = Ok (fin3 q) /\ t_point_inv b t (fin3 q) = Ok (fin3 p).
Proof.
  intros b t M N p G H. apply good_iff in G. destruct G as (-> & A & B).
  unfold t_point, t_point_inv. cbn [t_m t_inv]. now apply point_roundtrip.
Qed.

Theorem C24_affine : forall b t M N, good t M N -> affine M ->
  (forall v, t_vector_inv t (t_vector t (fin3 v)) = fin3 v /\
             t_vector t (t_vector_inv t (fin3 v)) = fin3 v) /\
  (forall n, t_normal_inv t (t_normal t (fin3 n)) = fin3 n /\
             t_normal t (t_normal_inv t (fin3 n)) = fin3 n) /\
  (forall p, exists q, t_point b t (fin3 p) = Ok (fin3 q) /\ t_point_inv b t (fin3 q) = Ok (fin3 p)) /\
  (forall o d tm, exists r, t_ray b t (mkRay (fin3 o) (fin3 d) tm) = Ok r /\ r_tmax r = tm /\
                            t_ray_inv b t r = Ok (mkRay (fin3 o) (fin3 d) tm)).
Proof.
  intros b t M N G A. apply good_iff in G. destruct G as (-> & I & J).
  pose proof (affine_inv _ _ I A) as A'.
  assert (HP : forall p, exists q, t_point b (mkT (finm M) (finm N)) (fin3 p) = Ok (fin3 q) /\
                         t_point_inv b (mkT (finm M) (finm N)) (fin3 q) = Ok (fin3 p)).
  { intros p. unfold t_point, t_point_inv. cbn [t_m t_inv]. apply point_roundtrip; auto.
    rewrite affine_w by auto. lra. }
  assert (HV : forall v, t_vector_inv (mkT (finm M) (finm N)) (t_vector (mkT (finm M) (finm N)) (fin3 v)) = fin3 v).
  { intros v. unfold t_vector_inv, t_vector. cbn [t_m t_inv]. now apply vector_roundtrip. }
  split; [intros v; split|split; [intros v; split|split]].
  - apply HV.
  - unfold t_vector_inv, t_vector. cbn [t_m t_inv]. now apply vector_roundtrip.
  - unfold t_normal_inv, t_normal. cbn [t_m t_inv]. rewrite !xf_normal_fin. f_equal. now apply normal_roundtrip.
  - unfold t_normal_inv, t_normal. cbn [t_m t_inv]. rewrite !xf_normal_fin. f_equal. now apply normal_roundtrip.
  - exact HP.
  - intros o d tm. destruct (HP o) as (q & E1 & E2). unfold t_ray, t_ray_inv, xf_ray.
    cbn [r_o r_d r_tmax]. unfold t_point in E1. rewrite E1. cbn [rbind].
    eexists. split; [reflexivity|]. split; [reflexivity|]. cbn [r_o r_d r_tmax].
    unfold t_point_inv in E2. rewrite E2. cbn [rbind]. do 2 f_equal. apply HV.
Qed.

(** Which expressions are affine *)
(** Every arithmetic: undoing a transform is applying its inverse, boxes included. *)
Theorem C24_inverse : forall (F : Type) (FO : FOps F) b (t : transform F),
  (forall v, t_vector_inv t v = t_vector (t_inverse t) v) /\ (forall n, t_normal_inv t n = t_normal (t_inverse t) n) /\
  (forall p, t_point_inv b t p = t_point b (t_inverse t) p) /\ (forall r, t_ray_inv b t r = t_ray b (t_inverse t) r) /\
  (forall x, t_bbox_inv b t x = t_bbox b (t_inverse t) x) /\ t_inverse (t_inverse t) = t.
Proof. intros F FO b [m n]. repeat split. Qed.

Theorem C24_affine_expressions : forall b e t M N,
  affine_expr e -> teval b e = Ok t -> good t M N -> affine M.
Proof. exact affine_expr_affine. Qed.

(** Under a perspective transform, vectors and normals do not come back. *)
Theorem C24_projective_vectors_refuted : exists b t M N v,
  t_perspective b (XFin 90) (XFin 1) (XFin 2) = Ok t /\ good t M N /\
  t_vector_inv t (t_vector t (fin3 v)) <> fin3 v /\
  t_normal_inv t (t_normal t (fin3 v)) <> fin3 v.
Proof.
  destruct (perspective_fin Debug 90 1 2) as (t & M & N & E & G & _ & EM); try lra.
  exists Debug, t, M, N, (mkV3 0 0 1). do 2 (split; [assumption|]).
  apply good_iff in G. destruct G as (-> & A & B).
  assert (N22 : m22 N = 0 /\ m20 N = 0 /\ m21 N = 0).
  { (* row 2 of N * M = (0, 0, 1, 0) *)
    pose proof (f_equal m20 B) as E0. pose proof (f_equal m21 B) as E1.
    pose proof (f_equal m23 B) as E3. revert E0 E1 E3. unfold rid. rewrite EM. matring.
    assert (T : tan (rad 90 / 2) = 1).
    { unfold rad. replace (90 * (PI / 180) / 2) with (PI / 4) by field. apply tan_PI4. }
    rewrite T. intros. repeat split; lra. }
  destruct N22 as (N22 & N20 & N21).
  unfold t_vector, t_vector_inv, t_normal, t_normal_inv; cbn [t_m t_inv].
  rewrite !xf_normal_fin, !xf_vector_fin. split; intros F; apply fin3_inj in F; apply (f_equal vz) in F; revert F.
  - unfold hom3, hom. cbn [ent]. vproj. rewrite N22, N20, N21. lra.
  - assert (M02 : m02 M = 0 /\ m12 M = 0) by (rewrite EM; mproj; auto). destruct M02 as [M02 M12].
    unfold homT. vproj. rewrite N22, M02, M12. lra.
Qed.

(** An affine transform with non-trivial linear part, and a point it moves *)
Example C24_example :
  let e := EMul (ETranslate (XFin 1) (XFin 2) (XFin 3)) (ERotZ (XFin 90)) in
  wf e /\ affine_expr e /\
  exists t M N, teval Debug e = Ok t /\ good t M N /\
    t_point Debug t (fin3 (mkV3 1 0 0)) = Ok (fin3 (mkV3 1 3 3)).
Proof.
  intros e. split; [|split].
  - split; [exists 1, 2, 3; auto|exists 90; auto].
  - cbn; auto.
  - pose proof (good_mul _ _ _ _ _ _ (good_translate 1 2 3) (good_rotate_z 90)) as G.
    eexists _, _, _. split; [reflexivity|]. split; [exact G|].
    destruct G as [-> _]. unfold t_point. cbn [t_m t_inv].
    assert (R90 : rad 90 = PI / 2) by (unfold rad; field).
    rewrite R90, sin_PI2, cos_PI2.
    rewrite xf_point_affine.
    + do 2 f_equal. apply V3_eq; unfold hom3, hom; vproj; cbn [ent]; matring; ring.
    + unfold affine. matring. repeat split; ring.
Qed.

(** ** C25 *)
Theorem C25_compose_points : forall b s t Ms Ns Mt Nt p,
  s = mkT (finm Ms) (finm Ns) -> t = mkT (finm Mt) (finm Nt) ->
  hom Mt p 1 3 <> 0 ->
  (exists q, t_point b t (fin3 p) = Ok (fin3 q) /\
    (hom Ms q 1 3 <> 0 ->
     exists r, t_point b s (fin3 q) = Ok (fin3 r) /\ t_point b (t_mul s t) (fin3 p) = Ok (fin3 r))).
Proof.
  intros b s t Ms Ns Mt Nt p -> -> H. unfold t_point, t_mul; cbn [t_m t_inv].
  exists (vscale (/ hom Mt p 1 3) (hom3 Mt p 1)). split; [now apply xf_point_fin|].
  set (w := hom Mt p 1 3) in *. intros Hs.
  assert (E : forall i, (i < 4)%nat -> hom (rmul Ms Mt) p 1 i = w * hom Ms (vscale (/ w) (hom3 Mt p 1)) 1 i).
  { intros i Hi. rewrite hom_mul by auto. fold w. rewrite <- hom_scale. f_equal; [|ring].
    apply V3_eq; unfold vscale; vproj; field; auto. }
  set (q := vscale (/ w) (hom3 Mt p 1)) in *.
  eexists. split; [apply xf_point_fin; auto|].
  rewrite mat_mul_fin, xf_point_fin.
  - do 2 f_equal. unfold hom3. rewrite !E by lia. clearbody q w.
    apply V3_eq; unfold vscale; vproj; field; auto.
  - rewrite E by lia. apply Rmult_integral_contrapositive. auto.
Qed.

Theorem C25_compose_vectors : forall s t Ms Ns Mt Nt v,
  s = mkT (finm Ms) (finm Ns) -> t = mkT (finm Mt) (finm Nt) -> affine Mt ->
  t_vector (t_mul s t) (fin3 v) = t_vector s (t_vector t (fin3 v)).
Proof.
  intros s t Ms Ns Mt Nt v -> -> (A & B & C & _). unfold t_vector, t_mul; cbn [t_m t_inv].
  rewrite mat_mul_fin, !xf_vector_fin. f_equal. unfold hom3 at 1. rewrite !hom_mul by lia.
  replace (hom Mt v 0 3) with 0 by (unfold hom; cbn [ent]; rewrite A, B, C; ring). reflexivity.
Qed.

Theorem C25_compose_normals : forall s t Ms Ns Mt Nt n,
  good s Ms Ns -> t = mkT (finm Mt) (finm Nt) -> affine Ms ->
  t_normal (t_mul s t) (fin3 n) = t_normal s (t_normal t (fin3 n)).
Proof.
  intros s t Ms Ns Mt Nt n G -> A. apply good_iff in G. destruct G as (-> & I & J).
  pose proof (affine_inv _ _ I A) as (A0 & A1 & A2 & _).
  unfold t_normal, t_mul; cbn [t_m t_inv].
  rewrite !mat_mul_fin, !xf_normal_fin. f_equal. apply V3_eq; unfold homT; vproj; matring; rewrite ?A0, ?A1, ?A2; ring.
Qed.

(** scale(3, 1.5, 1) * translate(1, 2, 3) at the origin (transform.rs:290-295), and a perspective
    transform after a translation *)
Example C25_example :
  t_point Debug (t_mul (t_scale (XFin 3) (XFin (3/2)) (XFin 1)) (t_translate (XFin 1) (XFin 2) (XFin 3)))
    (fin3 v0) = Ok (fin3 (mkV3 3 3 3)) /\
  (exists t M N, t_perspective Debug (XFin 90) (XFin 1) (XFin 2) = Ok t /\ good t M N /\
     hom M (mkV3 1 1 3) 1 3 = 3).
Proof.
  split.
  - pose proof (good_mul _ _ _ _ _ _ (good_scale 3 (3/2) 1 ltac:(lra) ltac:(lra) ltac:(lra)) (good_translate 1 2 3)) as G.
    destruct G as [-> _]. unfold t_point; cbn [t_m t_inv]. rewrite xf_point_affine.
    + do 2 f_equal. apply V3_eq; unfold hom3, hom, v0; vproj; cbn [ent]; matring; field.
    + unfold affine. matring. repeat split; ring.
  - destruct (perspective_fin Debug 90 1 2) as (t & M & N & E & G & _ & EM); try lra.
    exists t, M, N. do 2 (split; [assumption|]). rewrite EM. unfold hom. cbn [ent]. mproj. vproj. ring.
Qed.

(** ** C26 *)
Theorem C26_normals_stay_perpendicular : forall t M N n v, good t M N -> affine M ->
  exists n' v', t_normal t (fin3 n) = fin3 n' /\ t_vector t (fin3 v) = fin3 v' /\
    vdot n' v' = vdot n v.
Proof.
  intros t M N n v G A. apply good_iff in G. destruct G as (-> & I & J).
  exists (homT N n), (hom3 M v 0). unfold t_normal, t_vector; cbn [t_m t_inv].
  rewrite xf_normal_fin, xf_vector_fin. repeat split. now apply normal_dot.
Qed.

(** A non-uniform scale: the normal (1,1,0) of the direction (1,-1,0) *)
Example C26_example :
  let t := t_scale (XFin 2) (XFin 1) (XFin 1) in
  t_normal t (fin3 (mkV3 1 1 0)) = fin3 (mkV3 (/2) 1 0) /\
  t_vector t (fin3 (mkV3 1 (-1) 0)) = fin3 (mkV3 2 (-1) 0) /\
  vdot (mkV3 (/2) 1 0) (mkV3 2 (-1) 0) = 0.
Proof.
  intros t. destruct (good_scale 2 1 1) as [E _]; try lra. unfold t. rewrite E.
  unfold t_normal, t_vector; cbn [t_m t_inv]. rewrite xf_normal_fin, xf_vector_fin.
  unfold homT, hom3, hom, vdot; cbn [ent]; mproj; vproj.
  split; [|split; [|field]]; f_equal; apply V3_eq; vproj; field.
Qed.

(** ** C27 *)
Theorem C27_look_at : forall b p l u, l <> p -> vcross u (vsub l p) <> v0 ->
  exists t M N, t_look_at b (fin3 p) (fin3 l) (fin3 u) = Ok t /\ good t M N /\ affine M /\
    (* the origin goes to the camera position *)
    t_point b t (fin3 v0) = Ok (fin3 p) /\
    (* the z axis goes to the unit view direction; the point looked at is straight ahead *)
    t_vector t (fin3 ez) = fin3 (vunit (vsub l p)) /\
    t_point b t (fin3 (mkV3 0 0 (vdist l p))) = Ok (fin3 l) /\
    (* lengths and angles are kept *)
    (forall v w, exists v' w', t_vector t (fin3 v) = fin3 v' /\ t_vector t (fin3 w) = fin3 w' /\
                               vdot v' w' = vdot v w) /\
    (* orientation: x to the left (perpendicular to up), y upwards, right-handed *)
    (exists x' y', t_vector t (fin3 ex) = fin3 x' /\ t_vector t (fin3 ey) = fin3 y' /\
       x' = vunit (vcross u (vsub l p)) /\
       vdot x' u = 0 /\ 0 < vdot y' u /\ vcross x' y' = vunit (vsub l p)).
Proof.
  intros b p l u Hlp Hc.
  destruct (look_at_fin b p l u Hlp Hc) as (d & lf & Ed & El & Dd & Dl & Dld & Dlu & t & N & E & G).
  set (up := vcross d lf) in *.
  set (M := mkMat _ _ _ _ _ _ _ _ _ _ _ _ _ _ _ _) in *.
  assert (A : affine M) by (repeat split).
  exists t, M, N. do 3 (split; [assumption|]).
  assert (EV : forall v, t_vector t (fin3 v) = fin3 (vadd (vscale (vx v) lf) (vadd (vscale (vy v) up) (vscale (vz v) d)))).
  { intros v. destruct G as [-> _]. unfold t_vector; cbn [t_m t_inv]. rewrite xf_vector_fin. f_equal.
    apply V3_eq; unfold hom3, hom, M, vadd, vscale; cbn [ent]; mproj; vproj; ring. }
  assert (EP : forall v, t_point b t (fin3 v) = Ok (fin3 (vadd p (vadd (vscale (vx v) lf) (vadd (vscale (vy v) up) (vscale (vz v) d)))))).
  { intros v. destruct G as [-> _]. unfold t_point; cbn [t_m t_inv]. rewrite xf_point_affine by auto. do 2 f_equal.
    apply V3_eq; unfold hom3, hom, M, vadd, vscale; cbn [ent]; mproj; vproj; ring. }
  assert (H1 : vsub l p <> v0).
  { intros Z. apply Hlp. apply V3_eq; pose proof (f_equal vx Z); pose proof (f_equal vy Z);
      pose proof (f_equal vz Z); unfold vsub, v0 in *; cbn [vx vy vz] in *; lra. }
  pose proof (vnorm_pos _ H1) as Hn.
  assert (Du : vdot up up = 1) by (unfold up; rewrite lagrange, Dd, Dl, (vdot_comm d lf), Dld; ring).
  assert (Dul : vdot lf up = 0) by (unfold up; apply vdot_cross_r).
  assert (Dud : vdot d up = 0) by (unfold up; apply vdot_cross_l).
  split; [|split; [|split; [|split]]].
  - rewrite EP. do 2 f_equal. unfold v0. vring.
  - rewrite EV, <- Ed. f_equal. unfold ez. vring.
  - rewrite EP. do 2 f_equal. vproj. rewrite Ed. unfold vdist, vunit. set (k := vnorm (vsub l p)) in *.
    apply V3_eq; unfold vadd, vscale, vsub; vproj; field; lra.
  - intros v w. eexists _, _. do 2 (split; [apply EV|]).
    transitivity (vx v * vx w * vdot lf lf + vy v * vy w * vdot up up + vz v * vz w * vdot d d
      + (vx v * vy w + vy v * vx w) * vdot lf up + (vx v * vz w + vz v * vx w) * vdot lf d
      + (vy v * vz w + vz v * vy w) * vdot d up).
    + unfold vdot, vadd, vscale; vproj; ring.
    + rewrite Dl, Du, Dd, Dul, Dld, Dud. unfold vdot; ring.
  - exists lf, up. rewrite !EV. split; [f_equal; unfold ex; vring|]. split; [f_equal; unfold ey; vring|].
    split; [assumption|]. split; [assumption|]. split.
    + (* up . u = |u x (l - p)| / |l - p| *)
      assert (E1 : vdot up u = vdot lf (vcross u d)) by (unfold up, vdot, vcross; vproj; ring).
      assert (E2 : vcross u d = vscale (/ vnorm (vsub l p) * vnorm (vcross u (vsub l p))) lf).
      { rewrite Ed, El. pose proof (vnorm_pos _ Hc). unfold vunit at 1 2.
        rewrite vcross_scale_r. apply V3_eq; unfold vscale; vproj; field; lra. }
      rewrite E1, E2, vdot_scale_r, Dl. pose proof (vnorm_pos _ Hc).
      rewrite Rmult_1_r. apply Rmult_lt_0_compat; auto. now apply Rinv_0_lt_compat.
    + rewrite <- Ed. transitivity (vadd (vscale (vdot lf lf) d) (vscale (- vdot lf d) lf)).
      * unfold up. vring.
      * rewrite Dl, Dld. vring.
Qed.

(** transform.rs:274-287 *)
Example C27_example : exists M N t,
  t_look_at Debug (fin3 (mkV3 1 1 0)) (fin3 (mkV3 2 1 0)) (fin3 (mkV3 0 0 1)) = Ok t /\
  t = mkT (finm M) (finm N) /\ M = mkMat 0 0 1 1  1 0 0 1  0 1 0 0  0 0 0 1.
Proof.
  destruct (look_at_fin Debug (mkV3 1 1 0) (mkV3 2 1 0) (mkV3 0 0 1)) as
    (d & lf & Ed & El & _ & _ & _ & _ & t & N & E & G).
  - intros Z. apply (f_equal vx) in Z. cbn [vx] in Z. lra.
  - intros Z. apply (f_equal vy) in Z. unfold vcross, vsub, v0 in Z. cbn [vx vy vz] in Z. lra.
  - eexists _, _, _. split; [exact E|]. split; [apply G|].
    assert (Ed' : d = mkV3 1 0 0).
    { rewrite Ed. assert (Z : vsub (mkV3 2 1 0) (mkV3 1 1 0) = mkV3 1 0 0) by vring.
      rewrite Z. unfold vunit, vnorm, vdot; vproj. replace (1 * 1 + 0 * 0 + 0 * 0) with 1 by ring.
      rewrite sqrt_1. unfold vscale; apply V3_eq; vproj; field. }
    assert (El' : lf = mkV3 0 1 0).
    { rewrite El. assert (Z : vcross (mkV3 0 0 1) (vsub (mkV3 2 1 0) (mkV3 1 1 0)) = mkV3 0 1 0) by vring.
      rewrite Z. unfold vunit, vnorm, vdot; vproj. replace (0 * 0 + 1 * 1 + 0 * 0) with 1 by ring.
      rewrite sqrt_1. unfold vscale; apply V3_eq; vproj; field. }
    rewrite Ed', El'. apply mat_eq; unfold vcross; vproj; mproj; ring.
Qed.

(** ** C28 *)

(** Rotation by [deg] degrees about an axis: in cylinder coordinates about that axis, the angle
    grows by [deg] degrees and nothing else changes. *)
Definition cyl_z (r phi h : R) : rv := mkV3 (r * cos phi) (r * sin phi) h.
Definition cyl_x (r phi h : R) : rv := mkV3 h (r * cos phi) (r * sin phi).
Definition cyl_y (r phi h : R) : rv := mkV3 (r * sin phi) h (r * cos phi).

Theorem C28_rotates : forall deg r phi h,
  let a := deg * PI / 180 in
  t_vector (t_rotate_x (XFin deg)) (fin3 (cyl_x r phi h)) = fin3 (cyl_x r (phi + a) h) /\
  t_vector (t_rotate_y (XFin deg)) (fin3 (cyl_y r phi h)) = fin3 (cyl_y r (phi + a) h) /\
  t_vector (t_rotate_z (XFin deg)) (fin3 (cyl_z r phi h)) = fin3 (cyl_z r (phi + a) h).
Proof.
  intros deg r phi h a. assert (Ha : a = rad deg) by (unfold a, rad; field).
  unfold t_vector.
  destruct (good_rotate_x deg) as [-> _]. destruct (good_rotate_y deg) as [-> _].
  destruct (good_rotate_z deg) as [-> _]. cbn [t_m t_inv]. rewrite !xf_vector_fin, Ha.
  unfold hom3, hom, cyl_x, cyl_y, cyl_z; cbn [ent]; mproj; vproj. rewrite cos_plus, sin_plus.
  repeat split; f_equal; apply V3_eq; vproj; ring.
Qed.

Theorem C28_isometry : forall deg,
  Forall (fun ta => forall v w, exists v' w',
     t_vector (fst ta) (fin3 v) = fin3 v' /\ t_vector (fst ta) (fin3 w) = fin3 w' /\
     vdot v' w' = vdot v w /\ vnorm v' = vnorm v /\
     t_vector (fst ta) (fin3 (snd ta)) = fin3 (snd ta))
    [(t_rotate_x (XFin deg), ex); (t_rotate_y (XFin deg), ey); (t_rotate_z (XFin deg), ez)].
Proof.
  intros deg.
  assert (D : forall t M N, good t M N ->
     (forall v w, vdot (hom3 M v 0) (hom3 M w 0) = vdot v w) -> forall a, hom3 M a 0 = a ->
     forall v w, exists v' w', t_vector t (fin3 v) = fin3 v' /\ t_vector t (fin3 w) = fin3 w' /\
       vdot v' w' = vdot v w /\ vnorm v' = vnorm v /\ t_vector t (fin3 a) = fin3 a).
  { intros t M N [-> _] H a Ha v w. exists (hom3 M v 0), (hom3 M w 0). unfold t_vector; cbn [t_m t_inv].
    rewrite !xf_vector_fin, Ha. repeat split; auto. unfold vnorm. now rewrite H. }
  repeat constructor; cbn [fst snd].
  - apply (D _ _ _ (good_rotate_x deg)).
    + intros v w. unfold hom3, hom, vdot; cbn [ent]; mproj; vproj.
      pose proof (sc1 (rad deg)). transitivity (vx v * vx w +
        (sin (rad deg) * sin (rad deg) + cos (rad deg) * cos (rad deg)) * (vy v * vy w + vz v * vz w)); [ring|rewrite H; ring].
    + unfold hom3, hom, ex; cbn [ent]; mproj; vproj. apply V3_eq; vproj; ring.
  - apply (D _ _ _ (good_rotate_y deg)).
    + intros v w. unfold hom3, hom, vdot; cbn [ent]; mproj; vproj.
      pose proof (sc1 (rad deg)). transitivity (vy v * vy w +
        (sin (rad deg) * sin (rad deg) + cos (rad deg) * cos (rad deg)) * (vx v * vx w + vz v * vz w)); [ring|rewrite H; ring].
    + unfold hom3, hom, ey; cbn [ent]; mproj; vproj. apply V3_eq; vproj; ring.
  - apply (D _ _ _ (good_rotate_z deg)).
    + intros v w. unfold hom3, hom, vdot; cbn [ent]; mproj; vproj.
      pose proof (sc1 (rad deg)). transitivity (vz v * vz w +
        (sin (rad deg) * sin (rad deg) + cos (rad deg) * cos (rad deg)) * (vx v * vx w + vy v * vy w)); [ring|rewrite H; ring].
    + unfold hom3, hom, ez; cbn [ent]; mproj; vproj. apply V3_eq; vproj; ring.
Qed.

Theorem C28_angles_add : forall a b,
  t_mul (t_rotate_x (XFin a)) (t_rotate_x (XFin b)) = t_rotate_x (XFin (a + b)) /\
  t_mul (t_rotate_y (XFin a)) (t_rotate_y (XFin b)) = t_rotate_y (XFin (a + b)) /\
  t_mul (t_rotate_z (XFin a)) (t_rotate_z (XFin b)) = t_rotate_z (XFin (a + b)).
Proof.
  intros a b.
  assert (R : rad (a + b) = rad a + rad b) by (unfold rad; ring).
  assert (J : forall s t r M N M' N' M2 N2, good s M N -> good t M' N' -> good r M2 N2 ->
    rmul M M' = M2 -> rmul N' N = N2 -> t_mul s t = r).
  { intros s t r M N M' N' M2 N2 G G' [-> _] <- <-. apply (good_mul _ _ _ _ _ _ G G'). }
  split; [|split].
  - apply (J _ _ _ _ _ _ _ _ _ (good_rotate_x a) (good_rotate_x b) (good_rotate_x (a + b)));
      rewrite R, cos_plus, sin_plus; apply mat_eq; matring; ring.
  - apply (J _ _ _ _ _ _ _ _ _ (good_rotate_y a) (good_rotate_y b) (good_rotate_y (a + b)));
      rewrite R, cos_plus, sin_plus; apply mat_eq; matring; ring.
  - apply (J _ _ _ _ _ _ _ _ _ (good_rotate_z a) (good_rotate_z b) (good_rotate_z (a + b)));
      rewrite R, cos_plus, sin_plus; apply mat_eq; matring; ring.
Qed.

(** Quarter turns: x to y to z to x *)
Example C28_example :
  t_vector (t_rotate_z (XFin 90)) (fin3 ex) = fin3 ey /\
  t_vector (t_rotate_x (XFin 90)) (fin3 ey) = fin3 ez /\
  t_vector (t_rotate_y (XFin 90)) (fin3 ez) = fin3 ex.
Proof.
  assert (A : 0 + 90 * PI / 180 = PI / 2) by field.
  assert (X : ex = cyl_z 1 0 0) by (unfold ex, cyl_z; rewrite cos_0, sin_0; apply V3_eq; vproj; ring).
  assert (Y : ey = cyl_x 1 0 0) by (unfold ey, cyl_x; rewrite cos_0, sin_0; apply V3_eq; vproj; ring).
  assert (Z : ez = cyl_y 1 0 0) by (unfold ez, cyl_y; rewrite cos_0, sin_0; apply V3_eq; vproj; ring).
  destruct (C28_rotates 90 1 0 0) as (H1 & H2 & H3). rewrite A in H1, H2, H3.
  rewrite <- X in H3. rewrite <- Y in H1. rewrite <- Z in H2.
  rewrite H1, H2, H3. unfold cyl_x, cyl_y, cyl_z. rewrite cos_PI2, sin_PI2.
  repeat split; f_equal; apply V3_eq; unfold ex, ey, ez; vproj; ring.
Qed.

(** ** C29 *)

(** The point of the screen window that belongs to a film position: the left edge of the film is
    the left edge of the window, the top row (film y = 0) its upper edge. *)
Definition window_point (wmin wmax res film : P2 R) : P2 R :=
  mkP2 (px wmin + px film / px res * (px wmax - px wmin))
       (py wmax - py film / py res * (py wmax - py wmin)).

Definition finp (p : P2 R) : P2 XR := mkP2 (XFin (px p)) (XFin (py p)).

Lemma hom_inv_w M N p : rmul N M = rid -> hom M p 1 3 <> 0 ->
  hom N (vscale (/ hom M p 1 3) (hom3 M p 1)) 1 3 = / hom M p 1 3.
Proof.
  intros I H. set (w := hom M p 1 3) in *. set (q := hom3 M p 1).
  transitivity (/ w * hom rid p 1 3).
  - rewrite <- I, hom_mul by lia. fold w q. rewrite <- hom_scale. f_equal. field; auto.
  - destruct (hom_id p 1) as [_ ->]. ring.
Qed.

Theorem C29_camera_ray : forall b c2w M N fov n f (wmin wmax film : P2 R) (res : P2 Z) c2s,
  good c2w M N -> affine M ->
  t_perspective b (XFin fov) (XFin n) (XFin f) = Ok c2s -> 0 < fov < 180 -> 0 < n -> n < f ->
  px wmin < px wmax -> py wmin < py wmax -> (0 < px res)%Z -> (0 < py res)%Z ->
  let w := window_point wmin wmax (mkP2 (IZR (px res)) (IZR (py res))) film in
  exists d : rv,
    vnorm d = 1 /\ 0 < vz d /\
    (* every point ahead on the ray through the eye is seen at the window point *)
    (forall s, 0 < s -> exists z, t_point b c2s (fin3 (vscale s d)) = Ok (fin3 (mkV3 (px w) (py w) z))) /\
    exists o, t_point b c2w (fin3 v0) = Ok o /\
      generate_ray b (camera_new c2w c2s (finp wmin) (finp wmax) res) (finp film)
        = Ok (mkRay o (t_vector c2w (fin3 d)) (XInf false)).
Proof.
  intros b c2w M N fov n f wmin wmax film res c2s G A Ep Hfov Hn Hf Wx Wy Rx Ry w.
  apply IZR_lt in Rx. apply IZR_lt in Ry.
  destruct (perspective_fin b fov n f) as (t & P & Q & Ep' & Gp & T & EP); try lra.
  rewrite Ep in Ep'. apply Ok_inj' in Ep'. subst t.
  set (k := tan (rad fov / 2)) in *. cbv zeta in EP.
  set (v := mkV3 (px w * k) (py w * k) 1).
  assert (Hv : v <> v0) by (intros E; apply (f_equal vz) in E; cbn in E; lra).
  pose proof (vnorm_pos v Hv) as Nv.
  set (d := vunit v). exists d. split; [now apply vnorm_unit|].
  assert (Dz : vz d = / vnorm v) by (unfold d, vunit, vscale, v; vproj; ring).
  split; [rewrite Dz; now apply Rinv_0_lt_compat|].
  (* points ahead *)
  assert (HM : forall s, hom P (vscale s v) 1 3 = s /\ hom P (vscale s v) 1 0 = s * px w /\
                         hom P (vscale s v) 1 1 = s * py w /\
                         hom P (vscale s v) 1 2 = s * (f / (f - n)) - f * n / (f - n)).
  { intros s. rewrite EP. unfold hom, v, vscale; cbn [ent]; mproj; vproj.
    repeat split; field; lra. }
  assert (Pt : forall s, 0 < s -> exists z, t_point b c2s (fin3 (vscale s v)) = Ok (fin3 (mkV3 (px w) (py w) z))).
  { intros s Hs. destruct Gp as [-> _]. unfold t_point; cbn [t_m t_inv].
    destruct (HM s) as (H3 & H0 & H1 & _).
    rewrite xf_point_fin; rewrite H3; [|lra]. eexists. do 2 f_equal. unfold hom3, vscale; vproj.
    fold (vscale s v). rewrite H0, H1. apply V3_eq; vproj; [field; lra|field; lra|reflexivity]. }
  split.
  { intros s Hs. replace (vscale s d) with (vscale (s / vnorm v) v).
    - apply Pt. apply Rmult_lt_0_compat; auto. now apply Rinv_0_lt_compat.
    - unfold d, vunit. apply V3_eq; unfold vscale; vproj; field; lra. }
  (* the ray *)
  exists (fin3 (hom3 M v0 1)). split.
  { destruct G as [-> _]. unfold t_point; cbn [t_m t_inv]. now apply xf_point_affine. }
  unfold camera_new, generate_ray. cbn [c_raster_to_camera c_camera_to_world].
  (* screen_to_raster *)
  set (s2r := t_mul (t_mul (t_scale _ _ _) _) _).
  assert (Gs : exists Ms Ns, good s2r Ms Ns /\ affine Ns /\
     hom3 Ns (mkV3 (px film) (py film) 0) 1 = mkV3 (px w) (py w) 0).
  { unfold s2r. unfold f1, f0, finp; cbn [px py]. xsimp. cbn [xsub xneg].
    rewrite !xdiv_fin by lra.
    eexists _, _. split.
    { apply good_mul; [apply good_mul|apply good_translate]; apply good_scale; try lra;
        unfold Rdiv; rewrite Rmult_1_l; apply Rinv_neq_0_compat; lra. }
    split.
    - unfold affine. matring. repeat split; ring.
    - apply V3_eq; unfold hom3, hom, w, window_point; cbn [ent px py]; vproj; matring; field; lra. }
  destruct Gs as (Ms & Ns & Gs & As & Hs).
  (* raster_to_camera *)
  assert (Er : t_point b (t_mul (t_inverse c2s) (t_inverse s2r)) (mkV3 (px (finp film)) (py (finp film)) f0)
               = Ok (fin3 (vscale n v))).
  { change (mkV3 (px (finp film)) (py (finp film)) f0) with (fin3 (mkV3 (px film) (py film) 0)).
    apply good_inv in Gs. apply good_inv in Gp.
    destruct (HM n) as (H3 & H0 & H1 & H2).
    assert (Eq : vscale (/ hom P (vscale n v) 1 3) (hom3 P (vscale n v) 1) = mkV3 (px w) (py w) 0).
    { unfold hom3. rewrite H3, H0, H1, H2. apply V3_eq; unfold vscale; vproj; field; lra. }
    assert (I : rmul Q P = rid) by (apply good_iff in Gp; tauto).
    destruct (C25_compose_points b (t_inverse c2s) (t_inverse s2r) Q P Ns Ms (mkV3 (px film) (py film) 0))
      as (q & Eq1 & Eq2).
    - apply Gp.
    - apply Gs.
    - rewrite affine_w by auto. lra.
    - assert (q = mkV3 (px w) (py w) 0).
      { destruct Gs as [Es _]. rewrite Es in Eq1. unfold t_point in Eq1. cbn [t_m t_inv] in Eq1.
        rewrite xf_point_affine in Eq1 by auto. apply Ok_inj', fin3_inj in Eq1. rewrite <- Eq1. exact Hs. }
      subst q. destruct Eq2 as (r & E1 & E2).
      + rewrite <- Eq, hom_inv_w; auto; rewrite H3; [|lra]. apply Rinv_neq_0_compat. lra.
      + rewrite E2. rewrite <- E1. destruct Gp as [Egp _]. rewrite Egp. unfold t_point; cbn [t_m t_inv].
        destruct (point_roundtrip b P Q (finm Q) (finm P) (vscale n v) I) as (q & F1 & F2); [rewrite H3; lra|].
        rewrite xf_point_fin, Eq in F1 by (rewrite H3; lra). apply Ok_inj', fin3_inj in F1. rewrite F1. exact F2. }
  rewrite Er. cbn [rbind].
  assert (Hnv : vscale n v <> v0) by (intros E; apply (f_equal vz) in E; unfold v, vscale, v0 in E; cbn [vx vy vz] in E; lra).
  rewrite v3normalize_fin by auto.
  assert (Ed : vunit (vscale n v) = d).
  { unfold vunit, d. rewrite vnorm_scale, Rabs_pos_eq by lra. unfold vunit. apply V3_eq; unfold vscale; vproj; field; lra. }
  rewrite Ed. destruct G as [-> _]. unfold t_ray, xf_ray, ray_default. cbn [t_m t_inv r_o r_d r_tmax].
  change (@v3zero XR XR_FOps) with (fin3 v0).
  rewrite xf_point_affine by auto. cbn [rbind]. reflexivity.
Qed.

(** The corners of the film are the corners of the window. *)
Theorem C29_corners : forall wmin wmax res, px res <> 0 -> py res <> 0 ->
  window_point wmin wmax res (mkP2 0 0) = mkP2 (px wmin) (py wmax) /\
  window_point wmin wmax res res = mkP2 (px wmax) (py wmin).
Proof.
  intros [a b] [c d] [x y] Hx Hy. unfold window_point; cbn [px py] in *. split; f_equal; field; auto.
Qed.

(** With a look_at placement the ray starts at the camera position and has unit direction. *)
Theorem C29_look_at_camera : forall b p l u fov n f (wmin wmax film : P2 R) (res : P2 Z) c2s c2w,
  t_look_at b (fin3 p) (fin3 l) (fin3 u) = Ok c2w -> l <> p -> vcross u (vsub l p) <> v0 ->
  t_perspective b (XFin fov) (XFin n) (XFin f) = Ok c2s -> 0 < fov < 180 -> 0 < n -> n < f ->
  px wmin < px wmax -> py wmin < py wmax -> (0 < px res)%Z -> (0 < py res)%Z ->
  exists d, vnorm d = 1 /\ 0 < vdot d (vsub l p) /\
    generate_ray b (camera_new c2w c2s (finp wmin) (finp wmax) res) (finp film)
      = Ok (mkRay (fin3 p) (fin3 d) (XInf false)).
Proof.
  intros b p l u fov n f wmin wmax film res c2s c2w El Hlp Hc Ep H1 H2 H3 H4 H5 H6 H7.
  destruct (C27_look_at b p l u Hlp Hc) as (t & M & N & E & G & A & O & Z & _ & I & _).
  rewrite El in E. apply Ok_inj' in E. subst t.
  destruct (C29_camera_ray b c2w M N fov n f wmin wmax film res c2s G A Ep H1 H2 H3 H4 H5 H6 H7)
    as (d & Nd & Dz & _ & o & Eo & Er).
  rewrite O in Eo. apply Ok_inj' in Eo. subst o.
  destruct (I d d) as (d' & d'' & E1 & E2 & E3). rewrite E1 in E2. apply fin3_inj in E2. subst d''.
  exists d'. split.
  - unfold vnorm. rewrite E3. exact Nd.
  - split; [|rewrite Er, E1; reflexivity].
    destruct (I d ez) as (x & y & F1 & F2 & F3). rewrite E1 in F1. apply fin3_inj in F1. subst x.
    rewrite Z in F2. apply fin3_inj in F2. subst y.
    assert (H8 : vsub l p <> v0).
    { intros W. apply Hlp. apply V3_eq; pose proof (f_equal vx W); pose proof (f_equal vy W);
      pose proof (f_equal vz W); unfold vsub, v0 in *; cbn [vx vy vz] in *; lra. }
    pose proof (vnorm_pos _ H8). unfold vunit in F3. rewrite vdot_scale_r in F3.
    assert (D : vdot d ez = vz d) by (unfold vdot, ez; vproj; ring). rewrite D in F3.
    assert (P : vdot d' (vsub l p) = vnorm (vsub l p) * vz d) by (rewrite <- F3; field; lra).
    rewrite P. now apply Rmult_lt_0_compat.
Qed.

(** A 400 x 300 camera: its hypotheses hold. *)
Example C29_example : exists c2w c2s,
  t_look_at Debug (fin3 (mkV3 0 0 5)) (fin3 v0) (fin3 ey) = Ok c2w /\
  mkV3 0 0 5 <> v0 /\ vcross ey (vsub v0 (mkV3 0 0 5)) <> v0 /\
  t_perspective Debug (XFin 60) (XFin (1/100)) (XFin 1000) = Ok c2s /\
  window_point (mkP2 (-4/3) (-1)) (mkP2 (4/3) 1) (mkP2 400 300) (mkP2 100 75) = mkP2 (-2/3) (1/2).
Proof.
  assert (H1 : mkV3 0 0 5 <> v0) by (intros E; apply (f_equal vz) in E; cbn in E; lra).
  assert (H2 : vcross ey (vsub v0 (mkV3 0 0 5)) <> v0).
  { intros E; apply (f_equal vx) in E. unfold vcross, vsub, ey, v0 in E. cbn [vx vy vz] in E. lra. }
  destruct (C27_look_at Debug (mkV3 0 0 5) v0 ey) as (t & M & N & E & _); auto.
  destruct (perspective_fin Debug 60 (1/100) 1000) as (t' & M' & N' & E' & _); try lra.
  exists t, t'. repeat split; auto. unfold window_point; cbn [px py]. f_equal; field.
Qed.

(** ** C30 *)
(** The transformed box contains the transformed contents. *)
Definition box_transform_sound (t : transform XR) : Prop :=
  forall lo hi p b, in_box lo hi p ->
    exists lo' hi' p', t_bbox b t (mkBB (fin3 lo) (fin3 hi)) = Ok (mkBB (fin3 lo') (fin3 hi')) /\
      t_point b t (fin3 p) = Ok (fin3 p') /\ in_box lo' hi' p'.

Definition same_sign (a b c : R) : Prop := (0 <= a /\ 0 <= b /\ 0 <= c) \/ (a <= 0 /\ b <= 0 /\ c <= 0).

Lemma fmin_fin a b : fmin (XFin a) (XFin b) = XFin (Rmin a b).
Proof.
  unfold fmin. xsimp. cbn [xis_nan xlt]. unfold Rmin. destruct (Rlt_bool b a) eqn:E, (Rle_dec a b); rb; auto; try lra.
Qed.
Lemma fmax_fin a b : fmax (XFin a) (XFin b) = XFin (Rmax a b).
Proof.
  unfold fmax. xsimp. cbn [xis_nan xlt]. unfold Rmax. destruct (Rlt_bool a b) eqn:E, (Rle_dec a b); rb; auto; try lra.
  f_equal. lra.
Qed.

Definition rvmin (a b : rv) : rv := mkV3 (Rmin (vx a) (vx b)) (Rmin (vy a) (vy b)) (Rmin (vz a) (vz b)).
Definition rvmax (a b : rv) : rv := mkV3 (Rmax (vx a) (vx b)) (Rmax (vy a) (vy b)) (Rmax (vz a) (vz b)).

Lemma t_bbox_fin b M N lo hi : affine M ->
  t_bbox b (mkT (finm M) (finm N)) (mkBB (fin3 lo) (fin3 hi)) =
  Ok (mkBB (fin3 (rvmin (hom3 M lo 1) (hom3 M hi 1))) (fin3 (rvmax (hom3 M hi 1) (hom3 M lo 1)))).
Proof.
  intros A. unfold t_bbox, xf_bbox. cbn [t_m t_inv bmin bmax]. rewrite !xf_point_affine by auto. cbn [rbind].
  unfold bbox_new, v3min, v3max, v3map2, fin3. vproj. rewrite !fmin_fin, !fmax_fin. reflexivity.
Qed.

Lemma mono_between a b c k x0 x1 x y0 y1 y z0 z1 z : same_sign a b c ->
  x0 <= x <= x1 -> y0 <= y <= y1 -> z0 <= z <= z1 ->
  let h x y z := a * x + b * y + c * z + k in
  Rmin (h x0 y0 z0) (h x1 y1 z1) <= h x y z <= Rmax (h x1 y1 z1) (h x0 y0 z0).
Proof.
  intros S X Y Z h. unfold h.
  pose proof (Rmin_l (a*x0+b*y0+c*z0+k) (a*x1+b*y1+c*z1+k)). pose proof (Rmin_r (a*x0+b*y0+c*z0+k) (a*x1+b*y1+c*z1+k)).
  pose proof (Rmax_l (a*x1+b*y1+c*z1+k) (a*x0+b*y0+c*z0+k)). pose proof (Rmax_r (a*x1+b*y1+c*z1+k) (a*x0+b*y0+c*z0+k)).
  destruct S as [(A & B & C)|(A & B & C)].
  - pose proof (Rmult_le_compat_l a x0 x A (proj1 X)). pose proof (Rmult_le_compat_l a x x1 A (proj2 X)).
    pose proof (Rmult_le_compat_l b y0 y B (proj1 Y)). pose proof (Rmult_le_compat_l b y y1 B (proj2 Y)).
    pose proof (Rmult_le_compat_l c z0 z C (proj1 Z)). pose proof (Rmult_le_compat_l c z z1 C (proj2 Z)). lra.
  - pose proof (Rmult_le_compat_neg_l a x0 x A (proj1 X)). pose proof (Rmult_le_compat_neg_l a x x1 A (proj2 X)).
    pose proof (Rmult_le_compat_neg_l b y0 y B (proj1 Y)). pose proof (Rmult_le_compat_neg_l b y y1 B (proj2 Y)).
    pose proof (Rmult_le_compat_neg_l c z0 z C (proj1 Z)). pose proof (Rmult_le_compat_neg_l c z z1 C (proj2 Z)). lra.
Qed.

(** Two entries of opposite sign in a row: a box and a point of it that falls out. *)
Lemma mixed_signs a b c : ~ same_sign a b c ->
  (a * b < 0 \/ a * c < 0 \/ b * c < 0).
Proof.
  intros H. destruct (Rlt_dec (a * b) 0); auto. destruct (Rlt_dec (a * c) 0); auto.
  destruct (Rlt_dec (b * c) 0); auto. exfalso. apply H. unfold same_sign.
  destruct (Rle_dec 0 a), (Rle_dec 0 b), (Rle_dec 0 c); try (left; repeat split; lra).
  all: try (right; repeat split; nra).
  all: try (left; repeat split; nra).
  all: destruct (Req_dec a 0); destruct (Req_dec b 0); destruct (Req_dec c 0);
       first [left; repeat split; nra | right; repeat split; nra].
Qed.

Lemma escape_row a b c k : ~ same_sign a b c ->
  exists x0 x1 x y0 y1 y z0 z1 z, x0 <= x <= x1 /\ y0 <= y <= y1 /\ z0 <= z <= z1 /\
  let h x y z := a * x + b * y + c * z + k in
  Rmax (h x1 y1 z1) (h x0 y0 z0) < h x y z.
Proof.
  intros H. apply mixed_signs in H.
  assert (K : forall u v, u * v < 0 -> exists x y, -1 <= x <= 1 /\ -1 <= y <= 1 /\ u + v < u * x + v * y /\ - u - v < u * x + v * y).
  { intros u v Huv. destruct (Rlt_dec 0 u) as [P|P].
    - exists 1, (-1). assert (v < 0) by nra. repeat split; lra.
    - assert (u < 0) by (destruct (Req_dec u 0); [subst; lra|lra]). exists (-1), 1.
      assert (0 < v) by nra. repeat split; lra. }
  destruct H as [H|[H|H]]; destruct (K _ _ H) as (x & y & Hx & Hy & U & V).
  - exists (-1), 1, x, (-1), 1, y, 0, 0, 0. repeat split; try lra. apply Rmax_lub_lt; lra.
  - exists (-1), 1, x, 0, 0, 0, (-1), 1, y. repeat split; try lra. apply Rmax_lub_lt; lra.
  - exists 0, 0, 0, (-1), 1, x, (-1), 1, y. repeat split; try lra. apply Rmax_lub_lt; lra.
Qed.

(** Exactly which affine transforms transform boxes correctly: those whose rows each have entries
    of one sign.  Missing from the claim: every other transform. *)
Theorem C30_one_sign_rows_partial : forall t M N, good t M N -> affine M ->
  (box_transform_sound t <->
   same_sign (m00 M) (m01 M) (m02 M) /\ same_sign (m10 M) (m11 M) (m12 M) /\
   same_sign (m20 M) (m21 M) (m22 M)).
Proof.
  intros t M N [-> _] A. unfold box_transform_sound, t_point. cbn [t_m t_inv]. split.
  - intros H.
    assert (D : forall a b c, same_sign a b c \/ ~ same_sign a b c).
    { intros a b c. unfold same_sign. destruct (Rle_dec 0 a), (Rle_dec 0 b), (Rle_dec 0 c), (Rle_dec a 0), (Rle_dec b 0), (Rle_dec c 0); tauto. }
    assert (K : forall x0 x1 x y0 y1 y z0 z1 z, x0 <= x <= x1 -> y0 <= y <= y1 -> z0 <= z <= z1 ->
      in_box (rvmin (hom3 M (mkV3 x0 y0 z0) 1) (hom3 M (mkV3 x1 y1 z1) 1))
             (rvmax (hom3 M (mkV3 x1 y1 z1) 1) (hom3 M (mkV3 x0 y0 z0) 1)) (hom3 M (mkV3 x y z) 1)).
    { intros. destruct (H (mkV3 x0 y0 z0) (mkV3 x1 y1 z1) (mkV3 x y z) Debug) as (lo & hi & p & E1 & E2 & E3).
      - unfold in_box; vproj; auto.
      - rewrite t_bbox_fin in E1 by auto. rewrite xf_point_affine in E2 by auto.
        apply Ok_inj' in E1, E2. apply fin3_inj in E2. subst p.
        pose proof (fin3_inj _ _ (f_equal bmin E1)). pose proof (fin3_inj _ _ (f_equal bmax E1)). subst. auto. }
    split; [|split].
    + destruct (D (m00 M) (m01 M) (m02 M)) as [|F]; auto. exfalso.
      destruct (escape_row _ _ _ (m03 M) F) as (x0 & x1 & x & y0 & y1 & y & z0 & z1 & z & X & Y & Z & E).
      destruct (K _ _ _ _ _ _ _ _ _ X Y Z) as ((_ & B) & _ & _). revert B E.
      unfold rvmin, rvmax, hom3, hom; cbn [ent]; vproj. rewrite !Rmult_1_r. intros. lra.
    + destruct (D (m10 M) (m11 M) (m12 M)) as [|F]; auto. exfalso.
      destruct (escape_row _ _ _ (m13 M) F) as (x0 & x1 & x & y0 & y1 & y & z0 & z1 & z & X & Y & Z & E).
      destruct (K _ _ _ _ _ _ _ _ _ X Y Z) as (_ & (_ & B) & _). revert B E.
      unfold rvmin, rvmax, hom3, hom; cbn [ent]; vproj. rewrite !Rmult_1_r. intros. lra.
    + destruct (D (m20 M) (m21 M) (m22 M)) as [|F]; auto. exfalso.
      destruct (escape_row _ _ _ (m23 M) F) as (x0 & x1 & x & y0 & y1 & y & z0 & z1 & z & X & Y & Z & E).
      destruct (K _ _ _ _ _ _ _ _ _ X Y Z) as (_ & _ & (_ & B)). revert B E.
      unfold rvmin, rvmax, hom3, hom; cbn [ent]; vproj. rewrite !Rmult_1_r. intros. lra.
  - intros (S0 & S1 & S2) lo hi p b (X & Y & Z).
    eexists _, _, _. split; [apply t_bbox_fin; auto|]. split; [apply xf_point_affine; auto|].
    unfold in_box, rvmin, rvmax, hom3, hom; cbn [ent]; vproj. rewrite !Rmult_1_r.
    split; [|split]; apply mono_between; auto.
Qed.

(** Turning the box [-1,1]^3 by 45 degrees about z: the corner (1,-1,0) is not in the result. *)
Theorem C30_refuted : exists t M N, teval Debug (ERotZ (XFin 45)) = Ok t /\ good t M N /\
  exists lo hi p lo' hi' p', in_box lo hi p /\
    t_bbox Debug t (mkBB (fin3 lo) (fin3 hi)) = Ok (mkBB (fin3 lo') (fin3 hi')) /\
    t_point Debug t (fin3 p) = Ok (fin3 p') /\ ~ in_box lo' hi' p'.
Proof.
  eexists _, _, _. split; [reflexivity|]. split; [apply good_rotate_z|].
  exists (mkV3 (-1) (-1) (-1)), (mkV3 1 1 1), (mkV3 1 (-1) 0).
  destruct (good_rotate_z 45) as [-> _].
  set (M := mkMat (cos (rad 45)) _ _ _ _ _ _ _ _ _ _ _ _ _ _ _). set (N := mkMat _ _ _ _ _ _ _ _ _ _ _ _ _ _ _ _).
  assert (A : affine M) by (repeat split).
  assert (R45 : rad 45 = PI / 4) by (unfold rad; field).
  eexists _, _, _. split; [unfold in_box; vproj; lra|].
  split; [apply t_bbox_fin; auto|]. split; [unfold t_point; cbn [t_m t_inv]; apply xf_point_affine; auto|].
  intros ((_ & H) & _ & _). revert H. unfold rvmax, hom3, hom; cbn [ent]; unfold M; mproj; vproj.
  rewrite R45, sin_PI4, cos_PI4.
  assert (P : 0 < 1 / sqrt 2) by (apply Rdiv_lt_0_compat; [lra|apply sqrt_lt_R0; lra]).
  set (c := 1 / sqrt 2) in *. intros H.
  assert (Rmax (c * 1 + - c * 1 + 0 * 1 + 0 * 1) (c * -1 + - c * -1 + 0 * -1 + 0 * 1) <= 0) by (apply Rmax_lub; lra).
  lra.
Qed.

(** A scale with a reflection satisfies the condition. *)
Example C30_example : exists M N, good (t_scale (XFin 2) (XFin (-3)) (XFin 1)) M N /\ affine M /\
  same_sign (m00 M) (m01 M) (m02 M) /\ same_sign (m10 M) (m11 M) (m12 M) /\ same_sign (m20 M) (m21 M) (m22 M).
Proof.
  eexists _, _. split; [apply good_scale; lra|]. unfold affine, same_sign. mproj. repeat split; lra.
Qed.

Print Assumptions C22_matrix_inverse.
Print Assumptions C23_carries_inverse.
Print Assumptions C23_sensible_arguments.
Print Assumptions C24_affine.
Print Assumptions C27_look_at.
Print Assumptions C29_camera_ray.
Print Assumptions C30_one_sign_rows_partial.
