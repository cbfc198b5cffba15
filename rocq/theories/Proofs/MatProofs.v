(** * Matrices over exact arithmetic *)
From Coq Require Import ZArith Reals Bool List Lra Lia.
From Flocq Require Import Core.Raux.
From Verif Require Import Model.Num Model.NumX Model.Vector Model.Matrix Model.Transform
  Model.Interaction Model.BBox Proofs.XBase Spec.RVec Spec.MatSpec.
Import ListNotations.
Local Open Scope R_scope.

Lemma mat_eq {F} (a b : mat F) :
  m00 a = m00 b -> m01 a = m01 b -> m02 a = m02 b -> m03 a = m03 b ->
  m10 a = m10 b -> m11 a = m11 b -> m12 a = m12 b -> m13 a = m13 b ->
  m20 a = m20 b -> m21 a = m21 b -> m22 a = m22 b -> m23 a = m23 b ->
  m30 a = m30 b -> m31 a = m31 b -> m32 a = m32 b -> m33 a = m33 b -> a = b.
Proof. destruct a, b; simpl; intros; subst; reflexivity. Qed.

Lemma v3_eq {F} (a b : V3 F) : vx a = vx b -> vy a = vy b -> vz a = vz b -> a = b.
Proof. destruct a, b; simpl; intros; subst; reflexivity. Qed.

Lemma fin3_inj a b : fin3 a = fin3 b -> a = b.
Proof. destruct a, b; unfold fin3; simpl; intros H; injection H; intros; subst; reflexivity. Qed.

Lemma finm_inj a b : finm a = finm b -> a = b.
Proof. destruct a, b; unfold finm; simpl; intros H; injection H; intros; subst; reflexivity. Qed.

Ltac mproj := cbn [m00 m01 m02 m03 m10 m11 m12 m13 m20 m21 m22 m23 m30 m31 m32 m33].

(** Real versions of the matrix operations *)
Definition rmul (a b : mat R) : mat R :=
  mkMat (prod_ent a b 0 0) (prod_ent a b 0 1) (prod_ent a b 0 2) (prod_ent a b 0 3)
        (prod_ent a b 1 0) (prod_ent a b 1 1) (prod_ent a b 1 2) (prod_ent a b 1 3)
        (prod_ent a b 2 0) (prod_ent a b 2 1) (prod_ent a b 2 2) (prod_ent a b 2 3)
        (prod_ent a b 3 0) (prod_ent a b 3 1) (prod_ent a b 3 2) (prod_ent a b 3 3).

Definition rid : mat R := mkMat 1 0 0 0 0 1 0 0 0 0 1 0 0 0 0 1.

Lemma mat_mul_fin a b : mat_mul (finm a) (finm b) = finm (rmul a b).
Proof.
  unfold mat_mul, finm, rmul, prod_ent.
  cbn [m00 m01 m02 m03 m10 m11 m12 m13 m20 m21 m22 m23 m30 m31 m32 m33 sumn ent].
  xsimp. cbn [xmul xadd].
  apply mat_eq; cbn [m00 m01 m02 m03 m10 m11 m12 m13 m20 m21 m22 m23 m30 m31 m32 m33]; apply (f_equal XFin); ring.
Qed.

Lemma is_id_prod_rmul a b : is_id_prod a b <-> rmul a b = rid.
Proof.
  split.
  - intros H. unfold rmul, rid.
    rewrite !H by lia. reflexivity.
  - intros H i j Hi Hj.
    assert (E : prod_ent a b i j = ent (rmul a b) i j).
    { destruct i as [|[|[|[|i]]]]; try lia; destruct j as [|[|[|[|j]]]]; try lia; reflexivity. }
    rewrite E, H.
    destruct i as [|[|[|[|i]]]]; try lia; destruct j as [|[|[|[|j]]]]; try lia; reflexivity.
Qed.

Lemma rmul_assoc a b c : rmul a (rmul b c) = rmul (rmul a b) c.
Proof.
  unfold rmul, prod_ent. cbn [sumn ent m00 m01 m02 m03 m10 m11 m12 m13 m20 m21 m22 m23 m30 m31 m32 m33].
  apply mat_eq; mproj; ring.
Qed.

Lemma rmul_id_l a : rmul rid a = a.
Proof. apply mat_eq; unfold rmul, prod_ent, rid; cbn [sumn ent m00 m01 m02 m03 m10 m11 m12 m13 m20 m21 m22 m23 m30 m31 m32 m33]; ring. Qed.
Lemma rmul_id_r a : rmul a rid = a.
Proof. apply mat_eq; unfold rmul, prod_ent, rid; cbn [sumn ent m00 m01 m02 m03 m10 m11 m12 m13 m20 m21 m22 m23 m30 m31 m32 m33]; ring. Qed.

(** ** Determinant and adjugate *)
Definition rdet (a : mat R) : R := det 4 (ent a).

Lemma mat_det_fin a : mat_det (finm a) = XFin (rdet a).
Proof.
  unfold mat_det, finm, rdet.
  cbn [m00 m01 m02 m03 m10 m11 m12 m13 m20 m21 m22 m23 m30 m31 m32 m33].
  xsimp. cbn [xmul xadd xsub]. apply (f_equal XFin).
  cbn [det sumn ent Nat.ltb Nat.leb pow m00 m01 m02 m03 m10 m11 m12 m13 m20 m21 m22 m23 m30 m31 m32 m33].
  ring.
Qed.

Definition unfin (x : XR) : R := match x with XFin r => r | _ => 0 end.
Definition unfinm (a : mat XR) : mat R :=
  mkMat (unfin (m00 a)) (unfin (m01 a)) (unfin (m02 a)) (unfin (m03 a))
        (unfin (m10 a)) (unfin (m11 a)) (unfin (m12 a)) (unfin (m13 a))
        (unfin (m20 a)) (unfin (m21 a)) (unfin (m22 a)) (unfin (m23 a))
        (unfin (m30 a)) (unfin (m31 a)) (unfin (m32 a)) (unfin (m33 a)).
Definition radj (a : mat R) : mat R :=
  mkMat
    (m12 a * m23 a * m31 a - m13 a * m22 a * m31 a + m13 a * m21 a * m32 a - m11 a * m23 a * m32 a - m12 a * m21 a * m33 a + m11 a * m22 a * m33 a)
    (m03 a * m22 a * m31 a - m02 a * m23 a * m31 a - m03 a * m21 a * m32 a + m01 a * m23 a * m32 a + m02 a * m21 a * m33 a - m01 a * m22 a * m33 a)
    (m02 a * m13 a * m31 a - m03 a * m12 a * m31 a + m03 a * m11 a * m32 a - m01 a * m13 a * m32 a - m02 a * m11 a * m33 a + m01 a * m12 a * m33 a)
    (m03 a * m12 a * m21 a - m02 a * m13 a * m21 a - m03 a * m11 a * m22 a + m01 a * m13 a * m22 a + m02 a * m11 a * m23 a - m01 a * m12 a * m23 a)
    (m13 a * m22 a * m30 a - m12 a * m23 a * m30 a - m13 a * m20 a * m32 a + m10 a * m23 a * m32 a + m12 a * m20 a * m33 a - m10 a * m22 a * m33 a)
    (m02 a * m23 a * m30 a - m03 a * m22 a * m30 a + m03 a * m20 a * m32 a - m00 a * m23 a * m32 a - m02 a * m20 a * m33 a + m00 a * m22 a * m33 a)
    (m03 a * m12 a * m30 a - m02 a * m13 a * m30 a - m03 a * m10 a * m32 a + m00 a * m13 a * m32 a + m02 a * m10 a * m33 a - m00 a * m12 a * m33 a)
    (m02 a * m13 a * m20 a - m03 a * m12 a * m20 a + m03 a * m10 a * m22 a - m00 a * m13 a * m22 a - m02 a * m10 a * m23 a + m00 a * m12 a * m23 a)
    (m11 a * m23 a * m30 a - m13 a * m21 a * m30 a + m13 a * m20 a * m31 a - m10 a * m23 a * m31 a - m11 a * m20 a * m33 a + m10 a * m21 a * m33 a)
    (m03 a * m21 a * m30 a - m01 a * m23 a * m30 a - m03 a * m20 a * m31 a + m00 a * m23 a * m31 a + m01 a * m20 a * m33 a - m00 a * m21 a * m33 a)
    (m01 a * m13 a * m30 a - m03 a * m11 a * m30 a + m03 a * m10 a * m31 a - m00 a * m13 a * m31 a - m01 a * m10 a * m33 a + m00 a * m11 a * m33 a)
    (m03 a * m11 a * m20 a - m01 a * m13 a * m20 a - m03 a * m10 a * m21 a + m00 a * m13 a * m21 a + m01 a * m10 a * m23 a - m00 a * m11 a * m23 a)
    (m12 a * m21 a * m30 a - m11 a * m22 a * m30 a - m12 a * m20 a * m31 a + m10 a * m22 a * m31 a + m11 a * m20 a * m32 a - m10 a * m21 a * m32 a)
    (m01 a * m22 a * m30 a - m02 a * m21 a * m30 a + m02 a * m20 a * m31 a - m00 a * m22 a * m31 a - m01 a * m20 a * m32 a + m00 a * m21 a * m32 a)
    (m02 a * m11 a * m30 a - m01 a * m12 a * m30 a - m02 a * m10 a * m31 a + m00 a * m12 a * m31 a + m01 a * m10 a * m32 a - m00 a * m11 a * m32 a)
    (m01 a * m12 a * m20 a - m02 a * m11 a * m20 a + m02 a * m10 a * m21 a - m00 a * m12 a * m21 a - m01 a * m10 a * m22 a + m00 a * m11 a * m22 a).

Lemma mat_adj_fin a : mat_adjugate (finm a) = finm (radj a).
Proof. reflexivity. Qed.

Ltac matring :=
  unfold rmul, prod_ent; cbn [sumn ent];
  cbn [m00 m01 m02 m03 m10 m11 m12 m13 m20 m21 m22 m23 m30 m31 m32 m33].

Definition rscale (k : R) (a : mat R) : mat R :=
  mkMat (k * m00 a) (k * m01 a) (k * m02 a) (k * m03 a) (k * m10 a) (k * m11 a) (k * m12 a) (k * m13 a)
        (k * m20 a) (k * m21 a) (k * m22 a) (k * m23 a) (k * m30 a) (k * m31 a) (k * m32 a) (k * m33 a).

Lemma radj_l a : rmul (radj a) a = rscale (rdet a) rid.
Proof.
  assert (E : rdet a = _) by (unfold rdet; cbn [det sumn ent Nat.ltb Nat.leb pow]; reflexivity).
  rewrite E; clear E. unfold radj, rscale, rid. matring.
  apply mat_eq; mproj; ring.
Qed.
Lemma radj_r a : rmul a (radj a) = rscale (rdet a) rid.
Proof.
  assert (E : rdet a = _) by (unfold rdet; cbn [det sumn ent Nat.ltb Nat.leb pow]; reflexivity).
  rewrite E; clear E. unfold radj, rscale, rid. matring.
  apply mat_eq; mproj; ring.
Qed.

Definition rinv (a : mat R) : mat R := rscale (/ rdet a) (radj a).

Lemma rmul_scale_l k a b : rmul (rscale k a) b = rscale k (rmul a b).
Proof. unfold rscale. matring. apply mat_eq; mproj; ring. Qed.
Lemma rmul_scale_r k a b : rmul a (rscale k b) = rscale k (rmul a b).
Proof. unfold rscale. matring. apply mat_eq; mproj; ring. Qed.

Lemma rinv_l a : rdet a <> 0 -> rmul (rinv a) a = rid.
Proof.
  intros H. unfold rinv. rewrite rmul_scale_l, radj_l.
  unfold rscale, rid; simpl; apply mat_eq; mproj; field; auto.
Qed.
Lemma rinv_r a : rdet a <> 0 -> rmul a (rinv a) = rid.
Proof.
  intros H. unfold rinv. rewrite rmul_scale_r, radj_r.
  unfold rscale, rid; simpl; apply mat_eq; mproj; field; auto.
Qed.

Lemma mat_divs_fin a k : k <> 0 -> mat_divs (finm a) (XFin k) = finm (rscale (/ k) a).
Proof.
  intros H. unfold mat_divs, finm, rscale.
  cbn [m00 m01 m02 m03 m10 m11 m12 m13 m20 m21 m22 m23 m30 m31 m32 m33].
  xsimp. rewrite !xdiv_fin by auto. apply mat_eq; mproj; apply (f_equal XFin); field; auto.
Qed.

Lemma mat_inverse_fin b a : rdet a <> 0 -> mat_inverse b (finm a) = Ok (finm (rinv a)).
Proof.
  intros H. unfold mat_inverse. rewrite mat_det_fin. unfold f0. xsimp. cbn [xeq].
  rewrite Req_bool_false by auto.
  rewrite mat_adj_fin, mat_divs_fin by auto. now destruct b.
Qed.

(** ** Finiteness *)
Definition is_fin (x : XR) : Prop := exists r, x = XFin r.
Definition fin_mat (a : mat XR) : Prop := Forall is_fin (entries a).

Lemma fin_mat_iff a : fin_mat a <-> a = finm (unfinm a).
Proof.
  split.
  - unfold fin_mat, entries. rewrite !Forall_cons_iff. intros H. apply mat_eq; unfold unfinm, finm;
    cbn [m00 m01 m02 m03 m10 m11 m12 m13 m20 m21 m22 m23 m30 m31 m32 m33] in *;
    repeat match goal with H : _ /\ _ |- _ => destruct H end;
    repeat match goal with H : is_fin _ |- _ => let E := fresh in destruct H as [? E]; rewrite ?E; clear E end; reflexivity.
  - intros ->. unfold fin_mat, entries. rewrite !Forall_cons_iff.
    repeat split; try (eexists; reflexivity). constructor.
Qed.

Lemma fin_mat_finm a : fin_mat (finm a).
Proof. apply fin_mat_iff. destruct a; reflexivity. Qed.
