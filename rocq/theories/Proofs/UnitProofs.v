(** * Exact arithmetic under a change of origin and unit *)
From Coq Require Import ZArith Reals List Bool Lia Lra Psatz.
From Flocq Require Import Core.
From Verif Require Import Model.Num Model.NumX Model.Vector Model.Common Model.BBox Model.Interaction Model.Shape Model.Sphere Model.Triangle Model.Container Model.Light.
From Verif Require Import Spec.RVec Spec.UnitsSpec Proofs.XBase Proofs.RVecProofs.
Import ListNotations.
Local Open Scope R_scope.

Ltac bools := repeat match goal with
  | |- context [Rlt_bool ?a ?b] => let E := fresh in destruct (Rlt_bool a b) eqn:E
  | |- context [Rle_bool ?a ?b] => let E := fresh in destruct (Rle_bool a b) eqn:E
  | |- context [Req_bool ?a ?b] => let E := fresh in destruct (Req_bool a b) eqn:E end; rb.
Section Alg.
  Variables (c d : R).
  Hypothesis Hc : 0 < c.
  Hypothesis Hd : 0 < d.
  Lemma sg_scale x : Rsgn (c * x) = Rsgn x.
  Proof. unfold Rsgn. bools; auto; exfalso; nra. Qed.
  Lemma eq_scale x : Req_bool (c * x) 0 = Req_bool x 0.
  Proof. bools; auto; exfalso; [|subst; lra]. apply Rmult_integral in H as [H|H]; lra. Qed.
  Lemma lt_scale x y : Rlt_bool (c * x) (c * y) = Rlt_bool x y.
  Proof. bools; auto; exfalso; nra. Qed.
  Lemma le_scale x y : Rle_bool (c * x) (c * y) = Rle_bool x y.
  Proof. bools; auto; exfalso; nra. Qed.
  Lemma eqb_scale x y : Req_bool (c * x) (c * y) = Req_bool x y.
  Proof. bools; auto; exfalso; [|subst; lra]. apply Rmult_eq_reg_l in H; lra. Qed.

  Lemma st_add a b : xadd (stretch c a) (stretch c b) = stretch c (xadd a b).
  Proof. destruct a as [|[]|], b as [|[]|]; cbn; auto. f_equal. ring. Qed.
  Lemma st_sub a b : xsub (stretch c a) (stretch c b) = stretch c (xsub a b).
  Proof. destruct a as [|[]|], b as [|[]|]; cbn; auto. f_equal. ring. Qed.
  Lemma st_neg a : xneg (stretch c a) = stretch c (xneg a).
  Proof. destruct a as [|[]|]; cbn; auto. f_equal. ring. Qed.
  Lemma st_abs a : xabs (stretch c a) = stretch c (xabs a).
  Proof. destruct a as [|[]|]; cbn; auto. f_equal. rewrite Rabs_mult, (Rabs_pos_eq c) by lra. reflexivity. Qed.
  Lemma st_mul_l a b : xmul (stretch c a) b = stretch c (xmul a b).
  Proof. destruct a as [|[]|], b as [|[]|]; cbn; rewrite ?eq_scale, ?sg_scale; auto; try (destruct (Req_bool _ _); reflexivity). f_equal. ring. Qed.
  Lemma st_mul_r a b : xmul a (stretch c b) = stretch c (xmul a b).
  Proof. destruct a as [|[]|], b as [|[]|]; cbn; rewrite ?eq_scale, ?sg_scale; auto; try (destruct (Req_bool _ _); reflexivity). f_equal. ring. Qed.
  Lemma st_div_l a b : xdiv (stretch c a) b = stretch c (xdiv a b).
  Proof.
    destruct a as [|[]|], b as [|[]|]; cbn; rewrite ?eq_scale, ?sg_scale; auto; try (f_equal; ring).
    destruct (Req_bool r0 0); [destruct (Req_bool r 0); reflexivity|]. cbn. f_equal. unfold Rdiv. ring.
  Qed.
  Lemma st_div_r a b : xdiv a (stretch c b) = stretch (/ c) (xdiv a b).
  Proof.
    destruct a as [|[]|], b as [|[]|]; cbn; rewrite ?eq_scale, ?sg_scale; auto; try (f_equal; ring).
    destruct (Req_bool r0 0) eqn:E; [destruct (Req_bool r 0); reflexivity|]. rb. cbn. f_equal. field. lra.
  Qed.
  Lemma st_lt a b : xlt (stretch c a) (stretch c b) = xlt a b.
  Proof. destruct a as [|[]|], b as [|[]|]; cbn; auto. apply lt_scale. Qed.
  Lemma st_le a b : xle (stretch c a) (stretch c b) = xle a b.
  Proof. destruct a as [|[]|], b as [|[]|]; cbn; auto. apply le_scale. Qed.
  Lemma st_eq a b : xeq (stretch c a) (stretch c b) = xeq a b.
  Proof. destruct a as [|[]|], b as [|[]|]; cbn; auto. apply eqb_scale. Qed.
  Lemma st_0 : stretch c (XFin 0) = XFin 0.
  Proof. cbn. f_equal. ring. Qed.
  Lemma st_lt0 a : xlt (stretch c a) (XFin 0) = xlt a (XFin 0).
  Proof. rewrite <- st_0 at 1. apply st_lt. Qed.
  Lemma st_gt0 a : xlt (XFin 0) (stretch c a) = xlt (XFin 0) a.
  Proof. rewrite <- st_0 at 1. apply st_lt. Qed.
  Lemma st_le0 a : xle (stretch c a) (XFin 0) = xle a (XFin 0).
  Proof. rewrite <- st_0 at 1. apply st_le. Qed.
  Lemma st_ge0 a : xle (XFin 0) (stretch c a) = xle (XFin 0) a.
  Proof. rewrite <- st_0 at 1. apply st_le. Qed.
  Lemma st_eq0 a : xeq (stretch c a) (XFin 0) = xeq a (XFin 0).
  Proof. rewrite <- st_0 at 1. apply st_eq. Qed.
  Lemma st_st a : stretch c (stretch d a) = stretch (c * d) a.
  Proof. destruct a; cbn; auto. f_equal. ring. Qed.
  Lemma st_nan a : xis_nan (stretch c a) = xis_nan a.
  Proof. destruct a; reflexivity. Qed.
  Lemma st_sqrt a : xsqrt (stretch (c * c) a) = stretch c (xsqrt a).
  Proof.
    destruct a as [|[]|]; cbn; auto. assert (Rlt_bool (c * c * r) 0 = Rlt_bool r 0) as ->.
    { assert (Q : 0 < c * c) by nra. generalize dependent (c * c). intros z Hz. bools; auto; exfalso; nra. }
    destruct (Rlt_bool r 0) eqn:E; [reflexivity|]. rb. cbn. f_equal. rewrite sqrt_mult by nra. rewrite sqrt_square by lra. reflexivity.
  Qed.
  Lemma st_max a b : fmax (stretch c a) (stretch c b) = stretch c (fmax a b).
  Proof. unfold fmax. xsimp. rewrite !st_nan, st_lt. destruct (xis_nan a), (xis_nan b), (xlt a b); reflexivity. Qed.
  Lemma st_atan2 a b : xatan2 (stretch c a) (stretch c b) = xatan2 a b.
  Proof.
    destruct a as [|[]|y], b as [|[]|x]; cbn; auto. f_equal. unfold Ratan2.
    assert (forall z, Rlt_bool 0 (c * z) = Rlt_bool 0 z) as P by (intros; bools; auto; exfalso; nra).
    assert (forall z, Rlt_bool (c * z) 0 = Rlt_bool z 0) as N by (intros; bools; auto; exfalso; nra).
    rewrite !P, !N. assert (Q : x <> 0 -> c * y / (c * x) = y / x) by (intros; field; lra).
    destruct (Rlt_bool 0 x) eqn:E1; rb; [rewrite Q by lra; reflexivity|]. destruct (Rlt_bool x 0) eqn:E2; rb; [rewrite Q by lra; reflexivity|]. reflexivity.
  Qed.
End Alg.
Lemma st_1 a : stretch 1 a = a.
Proof. destruct a; cbn; auto. f_equal. ring. Qed.
Lemma st_same c d a : c = d -> stretch c a = stretch d a.
Proof. now intros ->. Qed.
Lemma st_mul c d a b : 0 < c -> 0 < d -> xmul (stretch c a) (stretch d b) = stretch (c * d) (xmul a b).
Proof. intros. rewrite st_mul_l, st_mul_r, st_st by auto. reflexivity. Qed.
Lemma st_div c d a b : 0 < c -> 0 < d -> xdiv (stretch c a) (stretch d b) = stretch (c / d) (xdiv a b).
Proof. intros. rewrite st_div_l, st_div_r, st_st by auto. reflexivity. Qed.
Lemma st_ratio c a b : 0 < c -> xdiv (stretch c a) (stretch c b) = xdiv a b.
Proof. intros. rewrite st_div by auto. rewrite (st_same (c / c) 1) by (field; lra). apply st_1. Qed.

Section Shift.
  Variables (k a : R).
  Hypothesis Hk : 0 < k.
  Lemma sh_sub x y : xsub (shift k a x) (shift k a y) = stretch k (xsub x y).
  Proof. destruct x as [|[]|], y as [|[]|]; cbn; auto. f_equal. ring. Qed.
  Lemma sh_addneg x y : xadd (shift k a x) (xneg (shift k a y)) = stretch k (xadd x (xneg y)).
  Proof. destruct x as [|[]|], y as [|[]|]; cbn; auto. f_equal. ring. Qed.
  Lemma sh_add x y : xadd (shift k a x) (stretch k y) = shift k a (xadd x y).
  Proof. destruct x as [|[]|], y as [|[]|]; cbn; auto. f_equal. ring. Qed.
  Lemma sh_subl x y : xsub (shift k a x) (stretch k y) = shift k a (xsub x y).
  Proof. destruct x as [|[]|], y as [|[]|]; cbn; auto. f_equal. ring. Qed.
  Lemma sh_addr x y : xadd (stretch k x) (shift k a y) = shift k a (xadd x y).
  Proof. destruct x as [|[]|], y as [|[]|]; cbn; auto. f_equal. ring. Qed.
  Lemma sh_lt x y : xlt (shift k a x) (shift k a y) = xlt x y.
  Proof. destruct x as [|[]|], y as [|[]|]; cbn; auto. bools; auto; exfalso; nra. Qed.
  Lemma sh_le x y : xle (shift k a x) (shift k a y) = xle x y.
  Proof. destruct x as [|[]|], y as [|[]|]; cbn; auto. bools; auto; exfalso; nra. Qed.
  Lemma sh_nan x : xis_nan (shift k a x) = xis_nan x.
  Proof. destruct x; reflexivity. Qed.
  Lemma sh_min x y : fmin (shift k a x) (shift k a y) = shift k a (fmin x y).
  Proof. unfold fmin. xsimp. rewrite !sh_nan, sh_lt. destruct (xis_nan x), (xis_nan y), (xlt y x); reflexivity. Qed.
  Lemma sh_max x y : fmax (shift k a x) (shift k a y) = shift k a (fmax x y).
  Proof. unfold fmax. xsimp. rewrite !sh_nan, sh_lt. destruct (xis_nan x), (xis_nan y), (xlt x y); reflexivity. Qed.
  Lemma sh_mid x y : xdiv (xadd (shift k a x) (shift k a y)) (XFin 2) = shift k a (xdiv (xadd x y) (XFin 2)).
  Proof.
    destruct x as [|[]|], y as [|[]|]; cbn; auto; rewrite ?Req_bool_false by lra; auto. cbn. f_equal. field.
  Qed.
End Shift.
Lemma sh_0 k x : shift k 0 x = stretch k x.
Proof. destruct x; cbn; auto. f_equal. ring. Qed.

(** ** Vectors *)
Section V.
  Variable k : R.
  Hypothesis Hk : 0 < k.
  Lemma v_eq (a b : V3 XR) : vx a = vx b -> vy a = vy b -> vz a = vz b -> a = b.
  Proof. destruct a, b; cbn; intros -> -> ->; reflexivity. Qed.
  Lemma st3_1 v : stretch3 1 v = v.
  Proof. apply v_eq; apply st_1. Qed.
  Lemma sh3_0 v : shift3 k v0 v = stretch3 k v.
  Proof. apply v_eq; apply sh_0. Qed.
  Lemma st3_neg v : v3neg (stretch3 k v) = stretch3 k (v3neg v).
  Proof. apply v_eq; apply st_neg. Qed.
  Lemma st3_abs v : v3abs (stretch3 k v) = stretch3 k (v3abs v).
  Proof. apply v_eq; now apply st_abs. Qed.
  Lemma st3_add u v : v3add (stretch3 k u) (stretch3 k v) = stretch3 k (v3add u v).
  Proof. apply v_eq; apply st_add. Qed.
  Lemma st3_sub u v : v3sub (stretch3 k u) (stretch3 k v) = stretch3 k (v3sub u v).
  Proof. apply v_eq; apply st_sub. Qed.
  Lemma st3_scale v x : v3scale (stretch3 k v) x = stretch3 k (v3scale v x).
  Proof. apply v_eq; now apply st_mul_l. Qed.
  Lemma st3_scale_r v x : v3scale v (stretch k x) = stretch3 k (v3scale v x).
  Proof. apply v_eq; now apply st_mul_r. Qed.
  Lemma st3_divs v x : v3divs (stretch3 k v) x = stretch3 k (v3divs v x).
  Proof. apply v_eq; now apply st_div_l. Qed.
  Lemma st3_dot_r u v : v3dot u (stretch3 k v) = stretch k (v3dot u v).
  Proof. unfold v3dot, stretch3. vproj. xsimp. rewrite !st_mul_r, !st_add by auto. reflexivity. Qed.
  Lemma st3_dot_l u v : v3dot (stretch3 k u) v = stretch k (v3dot u v).
  Proof. unfold v3dot, stretch3. vproj. xsimp. rewrite !st_mul_l, !st_add by auto. reflexivity. Qed.
  Lemma st3_length v : v3length (stretch3 k v) = stretch k (v3length v).
  Proof. unfold v3length, stretch3. vproj. xsimp. rewrite !st_mul, !st_add, st_sqrt by (auto; nra). reflexivity. Qed.
  Lemma st3_normalize v : v3normalize (stretch3 k v) = v3normalize v.
  Proof. unfold v3normalize. rewrite st3_length. unfold stretch3. vproj. apply v_eq; vproj; now apply st_ratio. Qed.
  Lemma st3_cross u v : v3cross (stretch3 k u) (stretch3 k v) = stretch3 (k * k) (v3cross u v).
  Proof. apply v_eq; unfold v3cross, stretch3; vproj; xsimp; rewrite !st_mul, !st_sub by (auto; nra); reflexivity. Qed.
  Lemma st3_axis v : max_abs_axis (stretch3 k v) = max_abs_axis v.
  Proof. unfold max_abs_axis, largest_axis. rewrite st3_abs. unfold stretch3. vproj. xsimp. now rewrite !st_le by auto. Qed.
  Lemma st3_permute v x y z : v3permute (stretch3 k v) x y z = stretch3 k (v3permute v x y z).
  Proof. destruct x, y, z; reflexivity. Qed.
  Variable a : rv.
  Lemma sh3_sub u v : v3sub (shift3 k a u) (shift3 k a v) = stretch3 k (v3sub u v).
  Proof. apply v_eq; apply sh_sub. Qed.
  Lemma sh3_addneg u v : v3add (shift3 k a u) (v3neg (shift3 k a v)) = stretch3 k (v3add u (v3neg v)).
  Proof. apply v_eq; apply sh_addneg. Qed.
  Lemma sh3_add u v : v3add (shift3 k a u) (stretch3 k v) = shift3 k a (v3add u v).
  Proof. apply v_eq; apply sh_add. Qed.
  Lemma sh3_addr u v : v3add (stretch3 k u) (shift3 k a v) = shift3 k a (v3add u v).
  Proof. apply v_eq; apply sh_addr. Qed.
  Lemma sh3_min u v : v3min (shift3 k a u) (shift3 k a v) = shift3 k a (v3min u v).
  Proof. apply v_eq; now apply sh_min. Qed.
  Lemma sh3_max u v : v3max (shift3 k a u) (shift3 k a v) = shift3 k a (v3max u v).
  Proof. apply v_eq; now apply sh_max. Qed.
End V.
