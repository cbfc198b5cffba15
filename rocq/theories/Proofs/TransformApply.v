(** * Applying transforms, over exact arithmetic *)
From Coq Require Import ZArith Reals Bool List Lra Lia.
From Flocq Require Import Core.Raux.
From Verif Require Import Model.Num Model.NumX Model.Vector Model.Matrix Model.Transform
  Model.Interaction Model.BBox Proofs.XBase Proofs.RVecProofs Spec.RVec Spec.MatSpec Proofs.MatProofs
  Spec.TransformSpec Proofs.TransformProofs.
Import ListNotations.
Local Open Scope R_scope.

Definition hom3 (M : mat R) (v : rv) (w : R) : rv := mkV3 (hom M v w 0) (hom M v w 1) (hom M v w 2).
Definition homT (N : mat R) (v : rv) : rv :=
  mkV3 (m00 N * vx v + m10 N * vy v + m20 N * vz v)
       (m01 N * vx v + m11 N * vy v + m21 N * vz v)
       (m02 N * vx v + m12 N * vy v + m22 N * vz v).

Ltac hring := unfold hom3, homT, hom; cbn [ent]; vproj; try ring.

Lemma xf_vector_fin M mi v : xf_vector (finm M) mi (fin3 v) = fin3 (hom3 M v 0).
Proof.
  unfold xf_vector, finm, fin3. mproj. vproj. xsimp. cbn [xmul xadd].
  apply V3_eq; vproj; apply (f_equal XFin); hring.
Qed.

Lemma xf_normal_fin m N v : xf_normal m (finm N) (fin3 v) = fin3 (homT N v).
Proof. reflexivity. Qed.

Lemma xf_point_fin b M mi p : hom M p 1 3 <> 0 ->
  xf_point b (finm M) mi (fin3 p) = Ok (fin3 (vscale (/ hom M p 1 3) (hom3 M p 1))).
Proof.
  intros H. unfold xf_point.
  match goal with |- context [v3divs (mkV3 ?a ?b ?c) _] =>
    assert (E : mkV3 a b c = fin3 (hom3 M p 1)) end.
  { unfold finm, fin3. mproj. vproj. xsimp. cbn [xmul xadd].
    apply V3_eq; vproj; apply (f_equal XFin); hring. }
  rewrite E.
  match goal with |- context [v3divs _ ?w] => assert (E' : w = XFin (hom M p 1 3)) end.
  { unfold finm, fin3. mproj. vproj. xsimp. cbn [xmul xadd]. apply (f_equal XFin); hring. }
  rewrite E'. unfold f0, f1. xsimp. cbn [xeq]. rewrite (Req_bool_false _ 0) by auto.
  rewrite v3divs_fin by auto.
  destruct (Req_bool (hom M p 1 3) 1) eqn:E1.
  - rb. rewrite E1, Rinv_1. assert (E2 : hom3 M p 1 = vscale 1 (hom3 M p 1)) by vring.
    rewrite <- E2. now destruct b.
  - now destruct b.
Qed.

Lemma affine_w M p : affine M -> hom M p 1 3 = 1.
Proof. intros (A & B & C & D). unfold hom. cbn [ent]. rewrite A, B, C, D. ring. Qed.

Lemma xf_point_affine b M mi p : affine M ->
  xf_point b (finm M) mi (fin3 p) = Ok (fin3 (hom3 M p 1)).
Proof.
  intros A. rewrite xf_point_fin; rewrite affine_w by auto; [|lra].
  rewrite Rinv_1. do 2 f_equal. vring.
Qed.

(** product of homogeneous maps *)
Lemma hom_mul A B v w i : (i < 4)%nat ->
  hom (rmul A B) v w i = hom A (hom3 B v w) (hom B v w 3) i.
Proof.
  intros Hi. destruct i as [|[|[|[|i]]]]; try lia; unfold hom3, hom; cbn [ent]; vproj; matring; ring.
Qed.

Lemma hom_id v w : hom3 rid v w = v /\ hom rid v w 3 = w.
Proof. split; [apply V3_eq; unfold rid; hring|unfold rid; hring]; matring; ring. Qed.

Lemma hom_scale M k v w i : hom M (vscale k v) (k * w) i = k * hom M v w i.
Proof. unfold hom, vscale; vproj. ring. Qed.

Lemma point_roundtrip b M N mi ni p : rmul N M = rid -> hom M p 1 3 <> 0 ->
  exists q, xf_point b (finm M) mi (fin3 p) = Ok (fin3 q) /\
            xf_point b (finm N) ni (fin3 q) = Ok (fin3 p).
Proof.
  intros I H. exists (vscale (/ hom M p 1 3) (hom3 M p 1)). split; [now apply xf_point_fin|].
  set (w := hom M p 1 3) in *. set (q := hom3 M p 1).
  assert (E : forall i, (i < 4)%nat -> hom N (vscale (/ w) q) 1 i = / w * hom rid p 1 i).
  { intros i Hi. rewrite <- I, hom_mul by auto. fold w q.
    replace 1 with (/ w * w) at 1 by (field; auto). now rewrite hom_scale. }
  assert (E3 : hom N (vscale (/ w) q) 1 3 = / w).
  { rewrite E by lia. destruct (hom_id p 1) as [_ ->]. ring. }
  rewrite xf_point_fin; rewrite E3; [|now apply Rinv_neq_0_compat].
  do 2 f_equal. destruct (hom_id p 1) as [Ep _].
  unfold hom3. rewrite !E by lia. rewrite Rinv_inv.
  pose proof (f_equal vx Ep) as X; pose proof (f_equal vy Ep) as Y; pose proof (f_equal vz Ep) as Z.
  cbn [hom3 vx vy vz] in X, Y, Z. rewrite X, Y, Z.
  unfold vscale; apply V3_eq; vproj; field; auto.
Qed.

Lemma vector_roundtrip M N mi ni v : rmul N M = rid -> affine M ->
  xf_vector (finm N) ni (xf_vector (finm M) mi (fin3 v)) = fin3 v.
Proof.
  intros I A. rewrite !xf_vector_fin. f_equal.
  assert (W : hom M v 0 3 = 0) by (destruct A as (A & B & C & D); hring; rewrite A, B, C; ring).
  assert (E : forall i, (i < 4)%nat -> hom N (hom3 M v 0) 0 i = hom rid v 0 i).
  { intros i Hi. now rewrite <- I, hom_mul, W by auto. }
  destruct (hom_id v 0) as [Ev _]. rewrite <- Ev at 2. unfold hom3 at 1 3. rewrite !E by lia. reflexivity.
Qed.

(** The upper left blocks of inverse affine matrices are inverse. *)
Definition block_inv (N M : mat R) : Prop :=
  m00 N * m00 M + m01 N * m10 M + m02 N * m20 M = 1 /\
  m00 N * m01 M + m01 N * m11 M + m02 N * m21 M = 0 /\
  m00 N * m02 M + m01 N * m12 M + m02 N * m22 M = 0 /\
  m10 N * m00 M + m11 N * m10 M + m12 N * m20 M = 0 /\
  m10 N * m01 M + m11 N * m11 M + m12 N * m21 M = 1 /\
  m10 N * m02 M + m11 N * m12 M + m12 N * m22 M = 0 /\
  m20 N * m00 M + m21 N * m10 M + m22 N * m20 M = 0 /\
  m20 N * m01 M + m21 N * m11 M + m22 N * m21 M = 0 /\
  m20 N * m02 M + m21 N * m12 M + m22 N * m22 M = 1.

Lemma affine_block_inv N M : rmul N M = rid -> affine M -> block_inv N M.
Proof.
  intros I (B0 & B1 & B2 & B3).
  pose proof (f_equal m00 I) as E00. pose proof (f_equal m01 I) as E01. pose proof (f_equal m02 I) as E02.
  pose proof (f_equal m10 I) as E10. pose proof (f_equal m11 I) as E11. pose proof (f_equal m12 I) as E12.
  pose proof (f_equal m20 I) as E20. pose proof (f_equal m21 I) as E21. pose proof (f_equal m22 I) as E22.
  revert E00 E01 E02 E10 E11 E12 E20 E21 E22. unfold rid. matring. rewrite B0, B1, B2.
  intros. unfold block_inv. repeat split; lra.
Qed.

Lemma normal_roundtrip M N v : rmul N M = rid -> affine M -> homT M (homT N v) = v.
Proof.
  intros I A. destruct (affine_block_inv N M I A) as (E00 & E01 & E02 & E10 & E11 & E12 & E20 & E21 & E22).
  apply V3_eq; unfold homT; vproj.
  - replace (vx v) with (vx v * (m00 N * m00 M + m01 N * m10 M + m02 N * m20 M)
      + vy v * (m10 N * m00 M + m11 N * m10 M + m12 N * m20 M)
      + vz v * (m20 N * m00 M + m21 N * m10 M + m22 N * m20 M)) at 4 by (rewrite E00, E10, E20; ring). ring.
  - replace (vy v) with (vx v * (m00 N * m01 M + m01 N * m11 M + m02 N * m21 M)
      + vy v * (m10 N * m01 M + m11 N * m11 M + m12 N * m21 M)
      + vz v * (m20 N * m01 M + m21 N * m11 M + m22 N * m21 M)) at 4 by (rewrite E01, E11, E21; ring). ring.
  - replace (vz v) with (vx v * (m00 N * m02 M + m01 N * m12 M + m02 N * m22 M)
      + vy v * (m10 N * m02 M + m11 N * m12 M + m12 N * m22 M)
      + vz v * (m20 N * m02 M + m21 N * m12 M + m22 N * m22 M)) at 4 by (rewrite E02, E12, E22; ring). ring.
Qed.

Lemma normal_dot M N n v : rmul N M = rid -> affine M -> vdot (homT N n) (hom3 M v 0) = vdot n v.
Proof.
  intros I A. destruct (affine_block_inv N M I A) as (E00 & E01 & E02 & E10 & E11 & E12 & E20 & E21 & E22).
  transitivity (
    vx n * (vx v * (m00 N * m00 M + m01 N * m10 M + m02 N * m20 M)
          + vy v * (m00 N * m01 M + m01 N * m11 M + m02 N * m21 M)
          + vz v * (m00 N * m02 M + m01 N * m12 M + m02 N * m22 M)) +
    vy n * (vx v * (m10 N * m00 M + m11 N * m10 M + m12 N * m20 M)
          + vy v * (m10 N * m01 M + m11 N * m11 M + m12 N * m21 M)
          + vz v * (m10 N * m02 M + m11 N * m12 M + m12 N * m22 M)) +
    vz n * (vx v * (m20 N * m00 M + m21 N * m10 M + m22 N * m20 M)
          + vy v * (m20 N * m01 M + m21 N * m11 M + m22 N * m21 M)
          + vz v * (m20 N * m02 M + m21 N * m12 M + m22 N * m22 M))).
  - unfold vdot; hring.
  - rewrite E00, E01, E02, E10, E11, E12, E20, E21, E22. unfold vdot; ring.
Qed.
