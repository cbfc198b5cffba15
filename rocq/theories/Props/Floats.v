(** * Adjacent floats and ray origins (C64, C65) *)
From Coq Require Import ZArith Reals Bool List Lra Lia.
From Flocq Require Import Core IEEE754.BinarySingleNaN.
From Verif Require Import Model.Num Model.NumX Model.NumB Model.Vector Model.Interaction Spec.RVec
  Proofs.XBase Proofs.BBase Proofs.RVecProofs Proofs.MicroProofs Proofs.RankProofs.
Local Open Scope R_scope.

(** ** C65 *)

(** [y] is the least float above [x]; [x] itself when there is none *)
Definition least_above (x y : b32) : Prop :=
  is_nan y = false /\ (x = B754_infinity false -> y = x) /\ (x <> B754_infinity false -> Bltb x y = true) /\
  (forall z : b32, Bltb x z = true -> Bleb y z = true).
Definition greatest_below (x y : b32) : Prop :=
  is_nan y = false /\ (x = B754_infinity true -> y = x) /\ (x <> B754_infinity true -> Bltb y x = true) /\
  (forall z : b32, Bltb z x = true -> Bleb z y = true).

Lemma lt_nan (x y : b32) : Bltb x y = true -> is_nan x = false /\ is_nan y = false.
Proof. destruct x as [|[]| |], y as [|[]| |]; auto; discriminate. Qed.

Theorem C65_up : forall x : b32, is_nan x = false -> least_above x (next_float_up x).
Proof.
  intros x N. destruct (up_rank x N) as [Nu Ru]. destruct (rank_inf_iff x N) as [I _]. destruct (rank_spec x N) as (R & _).
  split; [exact Nu|]. split; [|split].
  - intros ->. apply (rank_inf_iff _ Nu). rewrite Ru, rank_inf. now rewrite Z.eqb_refl.
  - intros Ne. rewrite rank_lt by auto. rewrite Ru. destruct (Z.eqb_spec (rank x) K) as [E|E]; [exfalso; apply Ne; now apply I|]. lia.
  - intros z L. destruct (lt_nan _ _ L) as [_ Nz]. rewrite rank_lt in L by auto. rewrite rank_le by auto. rewrite Ru.
    destruct (rank_spec z Nz) as (Rz & _). destruct (Z.eqb_spec (rank x) K); lia.
Qed.

Theorem C65_down : forall x : b32, is_nan x = false -> greatest_below x (next_float_down x).
Proof.
  intros x N. destruct (down_rank x N) as [Nu Ru]. destruct (rank_inf_iff x N) as [_ I]. destruct (rank_spec x N) as (R & _).
  split; [exact Nu|]. split; [|split].
  - intros ->. apply (rank_inf_iff _ Nu). rewrite Ru, rank_inf. now rewrite Z.eqb_refl.
  - intros Ne. rewrite rank_lt by auto. rewrite Ru. destruct (Z.eqb_spec (rank x) (- K)) as [E|E]; [exfalso; apply Ne; now apply I|]. lia.
  - intros z L. destruct (lt_nan _ _ L) as [Nz _]. rewrite rank_lt in L by auto. rewrite rank_le by auto. rewrite Ru.
    destruct (rank_spec z Nz) as (Rz & _). destruct (Z.eqb_spec (rank x) (- K)); lia.
Qed.
Print Assumptions C65_up.
Print Assumptions C65_down.

(** above the largest finite float is infinity; below zero is the smallest negative float *)
Example C65_example : next_float_up Bmax_float = B754_infinity false /\ bits_of_f32 (next_float_down (B754_zero false)) = (2 ^ 31 + 1)%Z /\
  bits_of_f32 (next_float_up (B754_infinity true)) = bits_of_f32 (Bopp Bmax_float).
Proof. repeat split; vm_compute; reflexivity. Qed.

(** ** C64 *)

(** the coordinate [p] moved to [q] by at least the offset [o], as real numbers *)
Definition moved (o p q : b32) : Prop :=
  (0 < B2R o -> xle (XFin (B2R p + B2R o)) (B2X q) = true /\ Bltb p q = true) /\
  (B2R o < 0 -> xle (B2X q) (XFin (B2R p + B2R o)) = true /\ Bltb q p = true) /\
  (B2R o = 0 -> B2X q = B2X p).

Lemma xle_total a b : a <> XNaN -> b <> XNaN -> xle a b = false -> xle b a = true /\ xlt b a = true.
Proof.
  destruct a as [|[]|a], b as [|[]|b]; cbn [xle xlt]; intros Ha Hb H; try congruence; auto. rb. split; rb; lra.
Qed.
Lemma xle_xlt a b : xle a b = true -> xlt b a = true -> False.
Proof. destruct a as [|[]|a], b as [|[]|b]; cbn [xle xlt]; intros; rb; try discriminate; lra. Qed.
Lemma B2X_notnan (x : b32) : is_nan x = false -> B2X x <> XNaN.
Proof. intros N E. rewrite <- B2X_nan, E in N. discriminate. Qed.

Lemma coord_moved (L : Libm b32) (o p : b32) : is_finite o = true -> is_finite p = true -> moved o p (offset_coord o (fadd p o)).
Proof.
  intros Fo Fp. set (r := B2R p + B2R o). set (s := fadd p o).
  assert (Es : B2X s = rndX (prec := 24) (emax := 128) (XFin r)).
  { unfold s, r. change (fadd p o) with (Bplus mode_NE p o). rewrite B2X_plus, (B2X_fin p Fp), (B2X_fin o Fo). reflexivity. }
  assert (Ns : is_nan s = false). { rewrite <- B2X_nan, Es. cbn [rndX]. now destruct (Rlt_bool _ _). }
  assert (Np : is_nan p = false) by (destruct p; auto; discriminate).
  assert (E1 : flt f0 o = Rlt_bool 0 (B2R o)). { change (flt f0 o) with (Bltb (Bof_Z 0 : b32) o). rewrite B2X_lt, (B2X_fin o Fo). reflexivity. }
  assert (E2 : flt o f0 = Rlt_bool (B2R o) 0). { change (flt o f0) with (Bltb o (Bof_Z 0 : b32)). rewrite B2X_lt, (B2X_fin o Fo). reflexivity. }
  assert (Ep : B2X p = rndX (prec := 24) (emax := 128) (XFin (B2R p))) by (rewrite <- (B2X_fin p Fp), rndX_id; reflexivity).
  unfold offset_coord. rewrite E1, E2. split; [|split]; intros H.
  - rewrite Rlt_bool_true by auto. destruct (C65_up s Ns) as (Nu & Inf & Lt & _). change (fnext_up s) with (next_float_up s). set (q := next_float_up s) in *.
    assert (Ps : xle (B2X p) (B2X s) = true). { rewrite Ep, Es. apply rndX_le. cbn [xle]. rb. unfold r. lra. }
    destruct (is_finite s) eqn:Fs.
    + assert (Q : Bltb s q = true) by (apply Lt; intros ->; discriminate). pose proof Q as Q'. rewrite B2X_lt in Q'. split.
      * destruct (xle (XFin r) (B2X q)) eqn:C; auto. exfalso. destruct (xle_total (XFin r) (B2X q) ltac:(discriminate) (B2X_notnan q Nu) C) as [C1 _].
        apply (rndX_le (prec := 24) (emax := 128)) in C1. rewrite rndX_id, <- Es in C1. exact (xle_xlt _ _ C1 Q').
      * rewrite B2X_lt. destruct (xlt (B2X p) (B2X q)) eqn:C; auto. exfalso.
        rewrite (rank_lt s q Ns Nu) in Q. assert (Bleb p s = true) by (rewrite B2X_le; exact Ps). rewrite rank_le in H0 by auto.
        rewrite <- B2X_lt, rank_lt in C by auto. lia.
    + destruct s as [|[]| |]; try discriminate Fs; try discriminate Ns.
      * exfalso. rewrite (B2X_fin p Fp) in Ps. discriminate Ps.
      * rewrite (Inf eq_refl). split; [reflexivity|]. rewrite B2X_lt, (B2X_fin p Fp). reflexivity.
  - rewrite Rlt_bool_false by lra. rewrite Rlt_bool_true by auto. destruct (C65_down s Ns) as (Nu & Inf & Lt & _). change (fnext_down s) with (next_float_down s). set (q := next_float_down s) in *.
    assert (Ps : xle (B2X s) (B2X p) = true). { rewrite Ep, Es. apply rndX_le. cbn [xle]. rb. unfold r. lra. }
    destruct (is_finite s) eqn:Fs.
    + assert (Q : Bltb q s = true) by (apply Lt; intros ->; discriminate). pose proof Q as Q'. rewrite B2X_lt in Q'. split.
      * destruct (xle (B2X q) (XFin r)) eqn:C; auto. exfalso. destruct (xle_total (B2X q) (XFin r) (B2X_notnan q Nu) ltac:(discriminate) C) as [C1 _].
        apply (rndX_le (prec := 24) (emax := 128)) in C1. rewrite rndX_id, <- Es in C1. exact (xle_xlt _ _ C1 Q').
      * rewrite B2X_lt. destruct (xlt (B2X q) (B2X p)) eqn:C; auto. exfalso.
        rewrite (rank_lt q s Nu Ns) in Q. assert (Bleb s p = true) by (rewrite B2X_le; exact Ps). rewrite rank_le in H0 by auto.
        rewrite <- B2X_lt, rank_lt in C by auto. lia.
    + destruct s as [|[]| |]; try discriminate Fs; try discriminate Ns.
      * rewrite (Inf eq_refl). split; [reflexivity|]. rewrite B2X_lt, (B2X_fin p Fp). reflexivity.
      * exfalso. rewrite (B2X_fin p Fp) in Ps. discriminate Ps.
  - rewrite !Rlt_bool_false by lra. rewrite Es, Ep. unfold r. rewrite H, Rplus_0_r. reflexivity.
Qed.

(** Binary32.  [d] is the error bound seen along the normal and [o] the offset along the normal (on the
    other side for a direction pointing against it), as computed in f32; every coordinate of the origin
    of the spawned ray is at least [o] away from the surface point, in exact real numbers, and strictly
    moved wherever the offset is not zero. *)
Theorem C64_binary32 : forall (L : Libm b32) (T : Type) (i : interaction b32 T) (v : V3 b32) (c : V3 b32 -> b32),
  c = vx \/ c = vy \/ c = vz ->
  let d := fadd (fadd (fmul (fabs (vx (i_n i))) (vx (i_p_err i))) (fmul (fabs (vy (i_n i))) (vy (i_p_err i)))) (fmul (fabs (vz (i_n i))) (vz (i_p_err i))) in
  let away := flt (v3dot (i_n i) v) f0 in
  let o := if away then fneg (fmul (c (i_n i)) d) else fmul (c (i_n i)) d in
  is_finite o = true -> is_finite (c (i_p i)) = true ->
  moved o (c (i_p i)) (c (r_o (spawn_ray i v))).
Proof.
  intros L T i v c Hc d away o Fo Fp.
  assert (M : forall x : b32, fmul x (fneg f1) = fneg x \/ is_nan x = true).
  { intros x. destruct (is_nan x) eqn:N; [now right|left]. destruct x as [s|s| |s m e B]; try discriminate N; try (destruct s; reflexivity).
    assert (F1 : is_finite (fmul (B754_finite s m e B : b32) (fneg f1)) = true /\ B2R (fmul (B754_finite s m e B : b32) (fneg f1)) = - B2R (B754_finite s m e B : b32) /\
       Bsign (fmul (B754_finite s m e B : b32) (fneg f1)) = negb s).
    { change (fmul (B754_finite s m e B : b32) (fneg f1)) with (Bmult mode_NE (B754_finite s m e B : b32) (Bopp (Bof_Z 1))).
      pose proof (Bmult_correct 24 128 _ _ mode_NE (B754_finite s m e B) (Bopp (Bof_Z 1))) as G.
      assert (R1 : B2R (Bopp (Bof_Z 1) : b32) = - (1)). { rewrite B2R_Bopp. assert (E : B2X (Bof_Z 1 : b32) = XFin 1) by (rewrite B2X_ofZ; apply rndX_Z; simpl; lia).
        rewrite (B2X_fin (Bof_Z 1 : b32)) in E by reflexivity. assert (I : forall a b, XFin a = XFin b -> a = b) by congruence. rewrite (I _ _ E). reflexivity. }
      rewrite R1 in G. set (y := B2R (B754_finite s m e B : b32)) in *. replace (y * - (1)) with (- y) in G by ring.
      assert (Ry : round radix2 (SpecFloat.fexp 24 128) (round_mode mode_NE) (- y) = - y).
      { apply round_generic; [typeclasses eauto|]. apply generic_format_opp, generic_format_B2R. }
      rewrite Ry, Rabs_Ropp in G. rewrite Rlt_bool_true in G by (apply abs_B2R_lt_emax). destruct G as (G1 & G2 & G3).
      assert (Fi : is_finite (Bmult mode_NE (B754_finite s m e B : b32) (Bopp (Bof_Z 1))) = true) by (rewrite G2; reflexivity).
      split; [exact Fi|]. split; [exact G1|]. rewrite G3 by (destruct (Bmult _ _ _); auto; discriminate Fi). destruct s; reflexivity. }
    destruct F1 as (F1 & F2 & F3). change (fneg (B754_finite s m e B : b32)) with (Bopp (B754_finite s m e B : b32)) in *. apply B2R_Bsign_inj; [exact F1|reflexivity|rewrite F2, B2R_Bopp; reflexivity|rewrite F3; reflexivity]. }
  assert (G : c (r_o (spawn_ray i v)) = offset_coord o (fadd (c (i_p i)) o)).
  { unfold spawn_ray. cbn [r_o]. unfold offset_ray_origin.
    change (v3dot (v3abs (i_n i)) (i_p_err i)) with d.
    fold away. 
    assert (E : forall c, c = vx \/ c = vy \/ c = vz -> is_finite (if away then fneg (fmul (c (i_n i)) d) else fmul (c (i_n i)) d) = true ->
      c (if away then v3scale (v3scale (i_n i) d) (fneg f1) else v3scale (i_n i) d) = if away then fneg (fmul (c (i_n i)) d) else fmul (c (i_n i)) d).
    { intros c0 Hc0 F. destruct away.
      - assert (Q : c0 (v3scale (v3scale (i_n i) d) (fneg f1)) = fmul (fmul (c0 (i_n i)) d) (fneg f1)) by (destruct Hc0 as [-> | [-> | -> ] ]; reflexivity).
        rewrite Q. destruct (M (fmul (c0 (i_n i)) d)) as [|N]; auto. exfalso. destruct (fmul (c0 (i_n i)) d); discriminate.
      - destruct Hc0 as [-> | [-> | -> ] ]; reflexivity. }
    specialize (E c Hc Fo). fold o in E. rewrite <- E. destruct Hc as [-> | [-> | -> ] ]; reflexivity. }
  rewrite G. now apply coord_moved.
Qed.
Print Assumptions C64_binary32.

(** Exact arithmetic.  For a unit normal the origin of the spawned ray is on the side of the surface the ray
    goes to, as seen from every point the true surface point could be. *)
Theorem C64_exact : forall (T : Type) (i : interaction XR T) (p err n v x : rv),
  i_p i = fin3 p -> i_p_err i = fin3 err -> i_n i = fin3 n -> vnorm n = 1 ->
  Rabs (vx x - vx p) <= vx err -> Rabs (vy x - vy p) <= vy err -> Rabs (vz x - vz p) <= vz err ->
  exists q, r_o (spawn_ray i (fin3 v)) = fin3 q /\
    (0 <= vdot n v -> 0 <= vdot n (vsub q x)) /\ (vdot n v < 0 -> vdot n (vsub q x) <= 0).
Proof.
  intros T i p err n v x Ep Ee En Hn Hx Hy Hz. apply vnorm_1_dot in Hn.
  set (d := Rabs (vx n) * vx err + Rabs (vy n) * vy err + Rabs (vz n) * vz err).
  set (s := if Rlt_bool (vdot n v) 0 then - d else d).
  assert (A : forall a b e, Rabs (b - a) <= e -> forall k, Rabs (k * (a - b)) <= Rabs k * e).
  { intros a b e H k. rewrite Rabs_mult, Rabs_minus_sym. apply Rmult_le_compat_l; [apply Rabs_pos|exact H]. }
  assert (D : - d <= vdot n (vsub p x) <= d).
  { pose proof (A _ _ _ Hx (vx n)) as H1. pose proof (A _ _ _ Hy (vy n)) as H2. pose proof (A _ _ _ Hz (vz n)) as H3.
    apply Rabs_le_inv in H1, H2, H3. unfold vdot, vsub, d. vproj. lra. }
  exists (vadd p (vscale s n)). split.
  - unfold spawn_ray. cbn [r_o]. unfold offset_ray_origin. rewrite Ep, Ee, En.
    assert (E1 : v3dot (v3abs (fin3 n)) (fin3 err) = XFin d) by reflexivity. rewrite E1, v3dot_fin.
    assert (E2 : flt (XFin (vdot n v)) f0 = Rlt_bool (vdot n v) 0) by reflexivity. rewrite E2.
    assert (E3 : (if Rlt_bool (vdot n v) 0 then v3scale (v3scale (fin3 n) (XFin d)) (fneg f1) else v3scale (fin3 n) (XFin d)) = fin3 (vscale s n)).
    { unfold s. destruct (Rlt_bool (vdot n v) 0); rewrite v3scale_fin; [|reflexivity]. rewrite x_f1. xsimp. cbn [xneg]. rewrite v3scale_fin. f_equal. vring. }
    rewrite E3, v3add_fin.
    assert (E4 : forall a b : XR, offset_coord a b = b) by (intros a b; unfold offset_coord; destruct (flt f0 a), (flt a f0); reflexivity).
    rewrite !E4. unfold fin3. reflexivity.
  - assert (Q : vdot n (vsub (vadd p (vscale s n)) x) = vdot n (vsub p x) + s * vdot n n) by (unfold vdot, vsub, vadd, vscale; vproj; ring).
    rewrite Q, Hn, Rmult_1_r. unfold s. split; intros H; [rewrite Rlt_bool_false by lra|rewrite Rlt_bool_true by lra]; lra.
Qed.
Print Assumptions C64_exact.

(** a point on the plane z = 1 with an error of 2^-20, left downwards *)
Definition ex_surface : interaction b32 unit :=
  let z := f32_of_bits 0 in let one := f32_of_bits 1065353216 in let err := f32_of_bits 897581056 in
  mkI (mkV3 z z one) (mkV3 err err err) (mkP2 z z) (mkV3 z z one) (mkV3 z z one) (mkV3 one z z) (mkV3 z one z) (mkV3 z z one) None.
Example C64_example (L : Libm b32) :
  Bltb (vz (r_o (spawn_ray ex_surface (mkV3 (f32_of_bits 0) (f32_of_bits 0) (Bopp (f32_of_bits 1065353216)))))) (f32_of_bits 1065353216) = true.
Proof. vm_compute. reflexivity. Qed.
