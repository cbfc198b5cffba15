(** * Real vectors, and vectors of finite extended reals *)
From Coq Require Import ZArith Reals Bool List Lra Lia.
From Flocq Require Import Core.Raux.
From Verif Require Import Model.Num Model.NumX Model.Vector Proofs.XBase Spec.RVec.
Local Open Scope R_scope.

Lemma V3_eq {F} (a b : V3 F) : vx a = vx b -> vy a = vy b -> vz a = vz b -> a = b.
Proof. destruct a, b; simpl; intros; subst; reflexivity. Qed.

Ltac vproj := cbn [vx vy vz].
Ltac vring := apply V3_eq; unfold vadd, vsub, vscale, vcross, vdot, v0; vproj; ring.

(** ** Algebra *)
Lemma vdot_comm a b : vdot a b = vdot b a.
Proof. unfold vdot. ring. Qed.
Lemma vdot_scale_l k a b : vdot (vscale k a) b = k * vdot a b.
Proof. unfold vdot, vscale; vproj. ring. Qed.
Lemma vdot_scale_r k a b : vdot a (vscale k b) = k * vdot a b.
Proof. unfold vdot, vscale; vproj. ring. Qed.
Lemma vdot_cross_l a b : vdot a (vcross a b) = 0.
Proof. unfold vdot, vcross; vproj. ring. Qed.
Lemma vdot_cross_r a b : vdot b (vcross a b) = 0.
Proof. unfold vdot, vcross; vproj. ring. Qed.
Lemma lagrange a b : vdot (vcross a b) (vcross a b) = vdot a a * vdot b b - vdot a b * vdot a b.
Proof. unfold vdot, vcross; vproj. ring. Qed.
Lemma vcross_scale_l k a b : vcross (vscale k a) b = vscale k (vcross a b).
Proof. vring. Qed.
Lemma vcross_scale_r k a b : vcross a (vscale k b) = vscale k (vcross a b).
Proof. vring. Qed.

Lemma vdot_self_nonneg a : 0 <= vdot a a.
Proof. unfold vdot. nra. Qed.
Lemma vdot_self_0 a : vdot a a = 0 -> a = v0.
Proof. unfold vdot. intros H. apply V3_eq; unfold v0; vproj; nra. Qed.
Lemma vdot_self_pos a : a <> v0 -> 0 < vdot a a.
Proof.
  intros H. destruct (vdot_self_nonneg a) as [|E]; auto.
  destruct H. apply vdot_self_0. auto.
Qed.

Lemma vnorm_nonneg a : 0 <= vnorm a.
Proof. apply sqrt_pos. Qed.
Lemma vnorm_pos a : a <> v0 -> 0 < vnorm a.
Proof. intros H. apply sqrt_lt_R0. now apply vdot_self_pos. Qed.
Lemma vnorm_sq a : vnorm a * vnorm a = vdot a a.
Proof. apply sqrt_sqrt. apply vdot_self_nonneg. Qed.
Lemma vnorm_scale k a : vnorm (vscale k a) = Rabs k * vnorm a.
Proof.
  unfold vnorm. rewrite vdot_scale_l, vdot_scale_r, <- Rmult_assoc.
  rewrite sqrt_mult; [|nra|apply vdot_self_nonneg]. f_equal. apply sqrt_Rsqr_abs.
Qed.
Lemma vnorm_unit a : a <> v0 -> vnorm (vunit a) = 1.
Proof.
  intros H. unfold vunit. rewrite vnorm_scale.
  pose proof (vnorm_pos a H). rewrite Rabs_pos_eq.
  - field. lra.
  - apply Rlt_le. now apply Rinv_0_lt_compat.
Qed.
Lemma vunit_dot a : a <> v0 -> vdot (vunit a) (vunit a) = 1.
Proof. intros H. rewrite <- vnorm_sq, vnorm_unit by auto. ring. Qed.
Lemma vnorm_1_dot a : vnorm a = 1 <-> vdot a a = 1.
Proof.
  split; intros H.
  - rewrite <- vnorm_sq, H. ring.
  - unfold vnorm. rewrite H. apply sqrt_1.
Qed.
Lemma v0_dec (a : rv) : {a = v0} + {a <> v0}.
Proof.
  destruct (Req_EM_T (vdot a a) 0) as [E|E].
  - left. now apply vdot_self_0.
  - right. intros ->. apply E. unfold vdot, v0; vproj. ring.
Qed.
Lemma cauchy_schwarz a b : vdot a b * vdot a b <= vdot a a * vdot b b.
Proof. pose proof (vdot_self_nonneg (vcross a b)). rewrite lagrange in H. lra. Qed.
Lemma cauchy_schwarz_norm a b : Rabs (vdot a b) <= vnorm a * vnorm b.
Proof.
  rewrite <- (sqrt_Rsqr_abs (vdot a b)). unfold vnorm.
  rewrite <- sqrt_mult by apply vdot_self_nonneg. apply sqrt_le_1_alt. unfold Rsqr. apply cauchy_schwarz.
Qed.
Lemma vnorm_triangle a b : vnorm (vadd a b) <= vnorm a + vnorm b.
Proof.
  apply Rsqr_incr_0_var.
  - unfold Rsqr. rewrite vnorm_sq. pose proof (cauchy_schwarz_norm a b).
    pose proof (Rle_abs (vdot a b)). pose proof (vnorm_sq a). pose proof (vnorm_sq b).
    replace (vdot (vadd a b) (vadd a b)) with (vdot a a + 2 * vdot a b + vdot b b)
      by (unfold vdot, vadd; vproj; ring). nra.
  - pose proof (vnorm_nonneg a). pose proof (vnorm_nonneg b). lra.
Qed.

(** ** The model's vector operations on finite vectors *)
Lemma v3add_fin a b : v3add (fin3 a) (fin3 b) = fin3 (vadd a b).
Proof. reflexivity. Qed.
Lemma v3sub_fin a b : v3sub (fin3 a) (fin3 b) = fin3 (vsub a b).
Proof. reflexivity. Qed.
Lemma v3neg_fin a : v3neg (fin3 a) = fin3 (vscale (-1) a).
Proof. unfold v3neg, fin3, vscale. vproj. xsimp. cbn [xneg]. f_equal; apply (f_equal XFin); ring. Qed.
Lemma v3scale_fin a k : v3scale (fin3 a) (XFin k) = fin3 (vscale k a).
Proof.
  unfold v3scale, fin3, vscale. vproj. xsimp. cbn [xmul].
  apply V3_eq; vproj; apply (f_equal XFin); ring.
Qed.
Lemma v3divs_fin a k : k <> 0 -> v3divs (fin3 a) (XFin k) = fin3 (vscale (/ k) a).
Proof.
  intros H. unfold v3divs, fin3, vscale. vproj. xsimp. rewrite !xdiv_fin by auto.
  apply V3_eq; vproj; apply (f_equal XFin); field; auto.
Qed.
Lemma v3dot_fin a b : v3dot (fin3 a) (fin3 b) = XFin (vdot a b).
Proof. reflexivity. Qed.
Lemma v3cross_fin a b : v3cross (fin3 a) (fin3 b) = fin3 (vcross a b).
Proof. reflexivity. Qed.
Lemma v3length_fin a : v3length (fin3 a) = XFin (vnorm a).
Proof.
  unfold v3length, fin3. vproj. xsimp. cbn [xmul xadd]. apply xsqrt_fin. apply (vdot_self_nonneg a).
Qed.
Lemma v3normalize_fin a : a <> v0 -> v3normalize (fin3 a) = fin3 (vunit a).
Proof.
  intros H. change (v3normalize (fin3 a)) with (v3divs (fin3 a) (v3length (fin3 a))).
  rewrite v3length_fin, v3divs_fin; auto. pose proof (vnorm_pos a H). lra.
Qed.
Lemma v3distance_fin a b : v3distance (fin3 a) (fin3 b) = XFin (vdist a b).
Proof. unfold v3distance. now rewrite v3sub_fin, v3length_fin. Qed.

Lemma vunit_neq0 a : a <> v0 -> vunit a <> v0.
Proof.
  intros H E. pose proof (vunit_dot a H). rewrite E in H0. unfold vdot, v0 in H0; revert H0; vproj. lra.
Qed.
