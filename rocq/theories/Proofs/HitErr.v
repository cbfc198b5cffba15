(** * Rounding errors of hit points (C100, C101) *)
From Coq Require Import ZArith Reals Bool List Lra Lia Psatz.
From Flocq Require Import Core Plus_error Relative Sterbenz BinarySingleNaN.
From Verif Require Import Model.Num Model.NumX Model.NumB Model.Vector Model.Common Model.Interaction Model.Shape Model.Sphere Model.Triangle.
From Verif Require Import Spec.TameSpec Spec.RVec Spec.ShapeSpec.
From Verif Require Import Proofs.XBase Proofs.RVecProofs Proofs.BBase Proofs.FLaws Proofs.Bounds Proofs.Lengths Proofs.SteadyProofs Proofs.SteadySphere Proofs.SteadyMirror.
Import ListNotations.
Local Open Scope R_scope.

Section HE.
  Context (L : Libm b32).
  Local Existing Instance B32_FOps.
  Local Existing Instance B32_FLaws.
  Notation rnb := (@rn b32 (B32_FOps L) (B32_FLaws L)).
  Notation bd := (bd L). Notation vb := (vb L). Notation nan := (nan L). Notation vn := (vn L).

  (** ** bounded or NaN *)
  Definition bn (k : Z) (x : b32) : Prop := bd k x \/ nan x.
  Lemma bn_add k x y : (-150 <= k <= 126)%Z -> bn k x -> bn k y -> bn (k + 1) (fadd x y).
  Proof. intros Hk [A|A] [B|B]; [left; now apply bd_add|right; now apply nan_add_r|right; now apply nan_add_l|right; now apply nan_add_l]. Qed.
  Lemma bn_sub k x y : (-150 <= k <= 126)%Z -> bn k x -> bn k y -> bn (k + 1) (fsub x y).
  Proof. intros Hk [A|A] [B|B]; [left; now apply bd_sub|right; now apply nan_sub_r|right; now apply nan_sub_l|right; now apply nan_sub_l]. Qed.
  Lemma bn_mul k j x y : (-149 <= k + j <= 127)%Z -> bn k x -> bn j y -> bn (k + j) (fmul x y).
  Proof. intros Hk [A|A] [B|B]; [left; now apply bd_mul|right; now apply nan_mul_r|right; now apply nan_mul_l|right; now apply nan_mul_l]. Qed.
  Lemma bn_mono k j x : (k <= j)%Z -> bn k x -> bn j x.
  Proof. intros Hk [A|A]; [left; eapply bd_mono; eauto|now right]. Qed.

  (** ** quotients by the largest component *)
  Lemma quot_bn (x y : b32) : nan x \/ nan y \/ xle (xabs (emb x)) (xabs (emb y)) = true -> bn 0 (fdiv (fneg x) y).
  Proof.
    intros [H|[H|H]]; [right; apply nan_div_l, nan_neg, H|right; now apply nan_div_r|].
    destruct (emb y) as [|sy|b] eqn:Ey; [right; now apply nan_div_r| |].
    - destruct (emb x) as [|sx|a] eqn:Ex; [right; apply nan_div_l, nan_neg; exact Ex| |].
      + right. unfold Bounds.nan. rewrite emb_div, emb_neg, Ex, Ey by (rewrite Ey; discriminate). reflexivity.
      + left. exists 0. rewrite emb_div, emb_neg, Ex, Ey by (rewrite Ey; discriminate). cbn [xneg xdiv]. rewrite rn_0. split; auto. rewrite Rabs_R0. apply bpow_ge_0.
    - destruct (emb x) as [|[]|a] eqn:Ex; try discriminate. cbn [xabs xle] in H. rb.
      destruct (Req_dec b 0) as [-> |Hb].
      + right. rewrite Rabs_R0 in H. assert (a = 0) by (destruct (Req_dec a 0); auto; pose proof (Rabs_pos_lt a ltac:(auto)); lra). subst a.
        apply div_0_0; [|exact Ey]. rewrite emb_neg, Ex. cbn. f_equal. ring.
      + left. unfold Bounds.bd. rewrite emb_div, emb_neg, Ex, Ey by (rewrite Ey; congruence). cbn [xneg]. rewrite xdiv_fin by exact Hb.
        apply rn_bd; [lia|]. unfold Rdiv. rewrite Rabs_mult, Rabs_Ropp, Rabs_inv. cbn. apply Rmult_le_reg_r with (Rabs b); [now apply Rabs_pos_lt|].
        rewrite Rmult_assoc, Rinv_l by now apply Rabs_no_R0. lra.
  Qed.
  Lemma axis_bn (d : V3 b32) a b : max_abs_axis d = Ok a -> bn 0 (fdiv (fneg (v3get d b)) (v3get d a)).
  Proof.
    unfold max_abs_axis, largest_axis. destruct d as [x y z]. cbn [v3abs vx vy vz]. intros H. apply quot_bn. unfold Bounds.nan.
    rewrite !emb_le, !emb_abs in H.
    assert (K : match xle (xabs (emb y)) (xabs (emb x)), xle (xabs (emb z)) (xabs (emb x)), xle (xabs (emb z)) (xabs (emb y)) with
                | true, true, _ => Ok AX | false, _, true => Ok AY | _, false, false => Ok AZ | _, _, _ => Panic end = Ok a) by exact H. clear H.
    destruct (emb x) as [|[]|p] eqn:Ex, (emb y) as [|[]|q] eqn:Ey, (emb z) as [|[]|r] eqn:Ez; cbn [xabs xle] in K;
      repeat match type of K with context[if ?b then _ else _] => destruct b eqn:? end; try discriminate;
      (assert (a = AX \/ a = AY \/ a = AZ) as [-> | [-> | -> ] ] by (destruct a; auto)); try discriminate;
      destruct b; cbn [v3get vx vy vz]; rewrite ?Ex, ?Ey, ?Ez; cbn [xabs xle]; auto; rb; try (right; right; rb; lra).
  Qed.

  (** ** weights *)
  Lemma rn_div (a b : b32) x y : emb a = XFin x -> emb b = XFin y -> y <> 0 -> Rabs (x / y) <= pw 127 ->
    exists q, emb (fdiv a b) = XFin q /\ Rabs (q - x / y) <= uu * Rabs (x / y) + eta.
  Proof. intros Ea Eb Hy H. rewrite emb_div, Ea, Eb, xdiv_fin by (rewrite ?Eb; congruence). now apply rn_any. Qed.

  Lemma abs_of q r e : Rabs (q - r) <= e -> r - e <= q <= r + e.
  Proof. intros H. apply Rabs_le_inv in H. lra. Qed.
  Lemma of_abs q r e : r - e <= q <= r + e -> Rabs (q - r) <= e.
  Proof. intros H. apply Rabs_le. lra. Qed.

  (** quotients of numbers of the same sign by their sum, nonnegative case *)
  Lemma weight_pos (e0 e1 e2 e : b32) x0 x1 x2 x : emb e0 = XFin x0 -> emb e1 = XFin x1 -> emb e2 = XFin x2 -> emb e = XFin x ->
    0 <= x0 <= pw 120 -> 0 <= x1 <= pw 120 -> 0 <= x2 <= pw 120 -> 0 <= x <= x0 + x1 + x2 -> 0 < x0 + x1 + x2 ->
    exists b, emb (fdiv e (fadd (fadd e0 e1) e2)) = XFin b /\ Rabs (b - x / (x0 + x1 + x2)) <= 304 / 100 * uu * (x / (x0 + x1 + x2)) + eta.
  Proof.
    intros E0 E1 E2 E H0 H1 H2 Hx Hs.
    assert (B : pw 120 * 4 <= pw 127) by (change 4 with (pw 2); rewrite <- bpow_plus; apply bpow_le; lia).
    assert (P : 1 <= pw 120) by (change 1 with (pw 0); apply bpow_le; lia).
    assert (Hp : Rabs (x0 + x1) <= pw 127) by (rewrite Rabs_pos_eq; lra).
    destruct (add_rel L e0 e1 x0 x1 E0 E1 Hp) as (s & Es & Ds). rewrite (Rabs_pos_eq (x0 + x1)) in Ds by lra. apply abs_of in Ds.
    unfold uu in Ds.
    destruct (add_rel L _ e2 s x2 Es E2) as (D & ED & DD); [rewrite Rabs_pos_eq; lra|]. rewrite (Rabs_pos_eq (s + x2)) in DD by lra. apply abs_of in DD. unfold uu in DD.
    set (S := x0 + x1 + x2) in *.
    assert (HD : S - 201 / 100 * uu * S <= D <= S + 201 / 100 * uu * S) by (unfold uu, S in *; lra).
    assert (Dp : 0 < D) by (unfold uu in HD; lra). clear DD Ds.
    set (w := x / S). assert (Wn : 0 <= w <= 1).
    { unfold w. split; [apply Rmult_le_pos; [lra|left; apply Rinv_0_lt_compat; lra]|]. apply Rmult_le_reg_r with S; [lra|]. unfold Rdiv. rewrite Rmult_assoc, Rinv_l by lra. lra. }
    assert (Ew : x = w * S) by (unfold w; field; lra).
    assert (Q : Rabs (x / D - w) <= 202 / 100 * uu * w).
    { apply of_abs. unfold uu in *. split; apply Rmult_le_reg_r with D; try exact Dp; unfold Rdiv; rewrite ?Rmult_assoc, ?Rinv_l, ?Rmult_1_r by lra; rewrite Ew; nra. }
    apply abs_of in Q.
    assert (Qp : 0 <= x / D) by (apply Rmult_le_pos; [lra|left; apply Rinv_0_lt_compat; lra]).
    destruct (rn_div e _ x D E ED) as (b & Eb & Db); [lra|rewrite Rabs_pos_eq by lra; unfold uu in Q; lra|].
    exists b. split; [exact Eb|]. rewrite (Rabs_pos_eq (x / D)) in Db by lra. apply abs_of in Db. apply of_abs. fold w. unfold uu in *. lra.
  Qed.
  Lemma weight_neg (e0 e1 e2 e : b32) x0 x1 x2 x : emb e0 = XFin x0 -> emb e1 = XFin x1 -> emb e2 = XFin x2 -> emb e = XFin x ->
    - pw 120 <= x0 <= 0 -> - pw 120 <= x1 <= 0 -> - pw 120 <= x2 <= 0 -> x0 + x1 + x2 <= x <= 0 -> x0 + x1 + x2 < 0 ->
    exists b, emb (fdiv e (fadd (fadd e0 e1) e2)) = XFin b /\ Rabs (b - x / (x0 + x1 + x2)) <= 304 / 100 * uu * (x / (x0 + x1 + x2)) + eta.
  Proof.
    intros E0 E1 E2 E H0 H1 H2 Hx Hs.
    assert (N : forall (c : b32) z, emb c = XFin z -> emb (fneg c) = XFin (- z)) by (intros c z Ec; rewrite emb_neg, Ec; reflexivity).
    destruct (weight_pos (fneg e0) (fneg e1) (fneg e2) (fneg e) (- x0) (- x1) (- x2) (- x) (N _ _ E0) (N _ _ E1) (N _ _ E2) (N _ _ E)
      ltac:(lra) ltac:(lra) ltac:(lra) ltac:(lra) ltac:(lra)) as (b & Eb & Db).
    exists b. replace (- x / (- x0 + - x1 + - x2)) with (x / (x0 + x1 + x2)) in Db by (field; lra). split; [|exact Db].
    rewrite <- Eb.
    assert (Ea : emb (fadd (fadd (fneg e0) (fneg e1)) (fneg e2)) = xneg (emb (fadd (fadd e0 e1) e2))).
    { rewrite !emb_add, !emb_neg, E0, E1, E2. cbn [xneg xadd]. rewrite <- Ropp_plus_distr. change (XFin (- (x0 + x1))) with (xneg (XFin (x0 + x1))). rewrite rn_opp.
      destruct (rnb (XFin (x0 + x1))) as [|[]|q]; cbn [xneg xadd]; [now rewrite rn_nan|rewrite rn_inf; reflexivity|rewrite rn_inf; reflexivity|].
      rewrite <- Ropp_plus_distr. change (XFin (- (q + x2))) with (xneg (XFin (q + x2))). now rewrite rn_opp. }
    assert (Z : emb (fadd (fadd e0 e1) e2) <> XFin 0).
    { intros Z. rewrite Z in Ea. cbn [xneg] in Ea. rewrite Ropp_0 in Ea.
      destruct (add_rel L (fneg e0) (fneg e1) _ _ (N _ _ E0) (N _ _ E1)) as (s & Es & Ds).
      { assert (pw 120 * 4 <= pw 127) by (change 4 with (pw 2); rewrite <- bpow_plus; apply bpow_le; lia). rewrite Rabs_pos_eq; lra. }
      rewrite (Rabs_pos_eq (- x0 + - x1)) in Ds by lra. apply abs_of in Ds. unfold uu in Ds.
      destruct (add_rel L _ (fneg e2) _ _ Es (N _ _ E2)) as (D & ED & DD).
      { assert (pw 120 * 4 <= pw 127) by (change 4 with (pw 2); rewrite <- bpow_plus; apply bpow_le; lia). rewrite Rabs_pos_eq; lra. }
      rewrite (Rabs_pos_eq (s + - x2)) in DD by lra. apply abs_of in DD. unfold uu in DD. rewrite Ea in ED. injection ED as <-. lra. }
    assert (Z' : emb (fadd (fadd (fneg e0) (fneg e1)) (fneg e2)) <> XFin 0).
    { rewrite Ea. destruct (emb (fadd (fadd e0 e1) e2)) as [| |q]; try discriminate. cbn [xneg]. intros H. apply Z. f_equal. assert (- q = 0) by congruence. lra. }
    rewrite (emb_div e), (emb_div (fneg e)) by assumption.
    rewrite Ea, emb_neg, E. destruct (emb (fadd (fadd e0 e1) e2)) as [|[]|q]; cbn [xneg]; try reflexivity.
    rewrite !xdiv_fin by (intros Hq; apply Z; f_equal; lra). f_equal. f_equal. field. intros ->. now apply Z.
  Qed.

  (** ** interpolation *)
  Lemma gamma7 : exists g, emb (gamma (fofZ 7) : b32) = XFin g /\ 69375 / 10000 * uu <= g <= 7125 / 1000 * uu.
  Proof.
    assert (A : fle (fdiv (fofZ 111) (fofZ (2 ^ 28))) (gamma (fofZ 7) : b32) = true) by (vm_compute; reflexivity).
    assert (B : fle (gamma (fofZ 7) : b32) (fdiv (fofZ 57) (fofZ (2 ^ 27))) = true) by (vm_compute; reflexivity).
    assert (K : forall n k, (Z.abs n <= 2 ^ 24)%Z -> (0 <= k <= 100)%Z -> emb (fdiv (fofZ n) (fofZ (2 ^ k)) : b32) = XFin (IZR n / IZR (2 ^ k))).
    { intros n k Hn Hk. assert (P : (0 < 2 ^ k)%Z) by (apply Z.pow_pos_nonneg; lia). apply IZR_lt in P.
      assert (E2 : emb (fofZ (2 ^ k) : b32) = XFin (IZR (2 ^ k))).
      { rewrite emb_ofZ. replace (IZR (2 ^ k)) with (pw k); [apply rn_pw; lia|]. change (2 ^ k)%Z with (radix2 ^ k)%Z. symmetry. apply IZR_Zpower. lia. }
      rewrite emb_div, E2, emb_ofZ_exact, xdiv_fin by (try exact Hn; try (rewrite E2; intros H; injection H; lra); lra).
      now apply rn_dyadic. }
    rewrite emb_le, K in A by lia. rewrite emb_le, K in B by lia.
    destruct (emb (gamma (fofZ 7))) as [|[]|g]; try discriminate. exists g. split; auto. cbn [xle] in A, B. rb. unfold uu. cbn in A, B. lra.
  Qed.

  Lemma bary_cover (c0 c1 c2 b0 b1 b2 : b32) v0 v1 v2 y0 y1 y2 w0 w1 w2 : emb c0 = XFin v0 -> emb c1 = XFin v1 -> emb c2 = XFin v2 ->
    emb b0 = XFin y0 -> emb b1 = XFin y1 -> emb b2 = XFin y2 ->
    Rabs v0 <= pw 20 -> Rabs v1 <= pw 20 -> Rabs v2 <= pw 20 -> Rabs w0 <= 1 -> Rabs w1 <= 1 -> Rabs w2 <= 1 ->
    Rabs (y0 - w0) <= 304 / 100 * uu * Rabs w0 + eta -> Rabs (y1 - w1) <= 304 / 100 * uu * Rabs w1 + eta -> Rabs (y2 - w2) <= 304 / 100 * uu * Rabs w2 + eta ->
    exists p e, emb (fadd (fadd (fmul c0 b0) (fmul c1 b1)) (fmul c2 b2)) = XFin p /\
      emb (fmul (fadd (fadd (fabs (fmul c0 b0)) (fabs (fmul c1 b1))) (fabs (fmul c2 b2))) (gamma (fofZ 7))) = XFin e /\
      Rabs (p - (w0 * v0 + w1 * v1 + w2 * v2)) <= e + pw (-100).
  Proof.
    intros C0 C1 C2 B0 B1 B2 V0 V1 V2 W0 W1 W2 D0 D1 D2.
    assert (BB : pw 20 * 16 <= pw 127) by (change 16 with (pw 4); rewrite <- bpow_plus; apply bpow_le; lia).
    set (h := pw (-128)).
    assert (Hh : 0 < h) by apply bpow_gt_0.
    assert (H1h : h <= 1) by (change 1 with (pw 0); apply bpow_le; lia).
    assert (H1p : 1 <= pw 20) by (change 1 with (pw 0); apply bpow_le; lia).
    assert (H20 : eta * pw 20 <= h / 4) by (unfold eta, h; replace (pw (-128) / 4) with (pw (-130)) by (change (-128)%Z with (-130 + 2)%Z; rewrite (bpow_plus radix2 (-130) 2); cbn [bpow Z.pow_pos Pos.iter Z.mul]; cbn; field); rewrite <- bpow_plus; apply bpow_le; lia).
    assert (He : 0 < eta <= h / 4) by (split; [apply bpow_gt_0|]; assert (1 <= pw 20) by (change 1 with (pw 0); apply bpow_le; lia); assert (0 < eta) by apply bpow_gt_0; nra).
    assert (H100 : 100 * h <= pw (-100)) by (unfold h; apply Rle_trans with (pw 28 * pw (-128)); [apply Rmult_le_compat_r; [apply bpow_ge_0|cbn; lra]|rewrite <- bpow_plus; apply bpow_le; lia]).
    (* one product *)
    assert (M : forall (c b : b32) v y w, emb c = XFin v -> emb b = XFin y -> Rabs v <= pw 20 -> Rabs w <= 1 -> Rabs (y - w) <= 304 / 100 * uu * Rabs w + eta ->
      exists m, emb (fmul c b) = XFin m /\ Rabs (m - w * v) <= 405 / 100 * uu * (Rabs w * Rabs v) + h).
    { intros c b v y w Ec Eb Hv Hw Hy. pose proof (Rabs_pos v) as Av. pose proof (Rabs_pos w) as Aw.
      assert (Ay : Rabs y <= Rabs w + 304 / 100 * uu * Rabs w + eta) by (replace y with (w + (y - w)) at 1 by ring; eapply Rle_trans; [apply Rabs_triang|]; lra).
      assert (Avy : Rabs (v * y) <= (Rabs w * Rabs v) * (1 + 304 / 100 * uu) + h / 4).
      { rewrite Rabs_mult. eapply Rle_trans; [apply Rmult_le_compat_l; [exact Av|exact Ay]|]. assert (Rabs v * eta <= h / 4) by (eapply Rle_trans; [apply Rmult_le_compat_r; [lra|exact Hv]|]; lra). unfold uu in *. lra. }
      assert (Hwv : 0 <= Rabs w * Rabs v <= pw 20) by (split; [nra|]; apply Rle_trans with (1 * pw 20); [|lra]; apply Rmult_le_compat; lra).
      destruct (mul_any L c b v y Ec Eb) as (m & Em & Dm); [unfold uu in *; lra|]. exists m. split; [exact Em|].
      replace (m - w * v) with ((m - v * y) + v * (y - w)) by ring. eapply Rle_trans; [apply Rabs_triang|].
      assert (Rabs (v * (y - w)) <= 304 / 100 * uu * (Rabs w * Rabs v) + h / 4).
      { rewrite Rabs_mult. eapply Rle_trans; [apply Rmult_le_compat_l; [exact Av|exact Hy]|]. assert (Rabs v * eta <= h / 4) by (eapply Rle_trans; [apply Rmult_le_compat_r; [lra|exact Hv]|]; lra). unfold uu in *. lra. }
      unfold uu in *. lra. }
    destruct (M c0 b0 v0 y0 w0 C0 B0 V0 W0 D0) as (m0 & E0 & F0). destruct (M c1 b1 v1 y1 w1 C1 B1 V1 W1 D1) as (m1 & E1 & F1). destruct (M c2 b2 v2 y2 w2 C2 B2 V2 W2 D2) as (m2 & E2 & F2). clear M D0 D1 D2 B0 B1 B2 C0 C1 C2.
    assert (A : forall w v, Rabs w <= 1 -> Rabs v <= pw 20 -> 0 <= Rabs w * Rabs v <= pw 20 /\ Rabs (w * v) = Rabs w * Rabs v).
    { intros w v Hw Hv. pose proof (Rabs_pos v). pose proof (Rabs_pos w). repeat split; [nra| |apply Rabs_mult]. apply Rle_trans with (1 * pw 20); [|lra]. apply Rmult_le_compat; lra. }
    destruct (A w0 v0 W0 V0) as [A0 G0]. destruct (A w1 v1 W1 V1) as [A1 G1]. destruct (A w2 v2 W2 V2) as [A2 G2]. clear A.
    set (a0 := Rabs w0 * Rabs v0) in *. set (a1 := Rabs w1 * Rabs v1) in *. set (a2 := Rabs w2 * Rabs v2) in *. clearbody a0 a1 a2.
    set (z0 := w0 * v0) in *. set (z1 := w1 * v1) in *. set (z2 := w2 * v2) in *. clearbody z0 z1 z2. clear W0 W1 W2 V0 V1 V2 y0 y1 y2 w0 w1 w2 v0 v1 v2.
    assert (AM : forall m z a, Rabs (m - z) <= 405 / 100 * uu * a + h -> Rabs z = a -> a - 405 / 100 * uu * a - h <= Rabs m <= a + 405 / 100 * uu * a + h).
    { intros m z a H1 H2. pose proof (Rabs_triang_inv2 m z) as H3. apply Rabs_le_inv in H3. lra. }
    pose proof (AM _ _ _ F0 G0) as N0. pose proof (AM _ _ _ F1 G1) as N1. pose proof (AM _ _ _ F2 G2) as N2. clear AM.
    pose proof (Rabs_triang m0 m1) as T01.
    destruct (add_rel L _ _ m0 m1 E0 E1) as (r & Er & Dr); [unfold uu in *; lra|].
    assert (Nr : Rabs r <= Rabs m0 + Rabs m1 + uu * (Rabs m0 + Rabs m1)).
    { replace r with ((m0 + m1) + (r - (m0 + m1))) by ring. eapply Rle_trans; [apply Rabs_triang|]. unfold uu in *. lra. }
    pose proof (Rabs_triang r m2) as T2.
    destruct (add_rel L _ _ r m2 Er E2) as (p & Ep & Dp); [unfold uu in *; lra|].
    assert (S : forall (c : b32) z, emb c = XFin z -> emb (fabs c) = XFin (Rabs z)) by (intros c z Ec; rewrite emb_abs, Ec; reflexivity).
    pose proof (Rabs_pos m0) as Q0. pose proof (Rabs_pos m1) as Q1. pose proof (Rabs_pos m2) as Q2.
    destruct (add_rel L _ _ _ _ (S _ _ E0) (S _ _ E1)) as (k & Ek & Dk); [rewrite Rabs_pos_eq by lra; unfold uu in *; lra|].
    rewrite (Rabs_pos_eq (Rabs m0 + Rabs m1)) in Dk by lra. apply abs_of in Dk.
    destruct (add_rel L _ _ _ _ Ek (S _ _ E2)) as (l & El & Dl); [unfold uu in Dk; rewrite Rabs_pos_eq by lra; unfold uu in *; lra|].
    rewrite (Rabs_pos_eq (k + Rabs m2)) in Dl by (unfold uu in Dk; lra). apply abs_of in Dl.
    destruct gamma7 as (g & Eg & Hg).
    assert (Lp : 0 <= l) by (unfold uu in *; lra).
    assert (Lu : l <= pw 20 * 16) by (unfold uu in *; lra).
    destruct (mul_any L _ _ _ _ El Eg) as (e & Ee & De); [rewrite Rabs_pos_eq by (apply Rmult_le_pos; [lra|unfold uu in Hg; lra]); apply Rle_trans with (l * 1); [apply Rmult_le_compat_l; [lra|unfold uu in Hg; lra]|lra]|].
    rewrite (Rabs_pos_eq (l * g)) in De by (apply Rmult_le_pos; [lra|unfold uu in Hg; lra]). apply abs_of in De.
    exists p, e. split; [exact Ep|]. split; [exact Ee|].
    assert (Ge : 69375 / 10000 * uu * l <= l * g) by (rewrite Rmult_comm; apply Rmult_le_compat_l; lra).
    replace (p - (z0 + z1 + z2)) with ((p - (r + m2)) + (r - (m0 + m1)) + ((m0 - z0) + (m1 - z1)) + (m2 - z2)) by ring.
    eapply Rle_trans; [apply Rabs_triang|]. eapply Rle_trans; [apply Rplus_le_compat_r, Rabs_triang|].
    eapply Rle_trans; [apply Rplus_le_compat_r, Rplus_le_compat_r, Rabs_triang|]. pose proof (Rabs_triang (m0 - z0) (m1 - z1)) as T3.
    assert (Le : (1 - 607 / 100 * uu) * (a0 + a1 + a2) - 4 * h <= l) by (unfold uu in *; lra).
    assert (Ee' : 6937 / 1000 * uu * l - h <= e) by (clear - De Ge He Lp; unfold uu in *; lra).
    clear - Le Ee' T3 F0 F1 F2 Dr Dp T2 T01 Nr N0 N1 N2 H100 Hh Q0 Q1 Q2 A0 A1 A2. unfold uu in *. lra.
  Qed.

  (** ** hits of triangles *)
  Lemma ray_space_bn o a1 a2 a3 (sx sy : b32) (p : V3 b32) : vb 20 o -> vb 20 p -> bn 0 sx -> bn 0 sy ->
    bn 22 (vx (to_ray_space o a1 a2 a3 sx sy p)) /\ bn 22 (vy (to_ray_space o a1 a2 a3 sx sy p)).
  Proof.
    intros Ho Hp Hx Hy. unfold to_ray_space. cbn [vx vy vz].
    assert (V : vb 21 (v3add p (v3neg o))) by (apply (vb_add L 20); [lia|exact Hp|now apply vb_neg]).
    assert (G : forall a, bn 21 (v3get (v3add p (v3neg o)) a)) by (intros a; left; destruct V as (A & B & C); destruct a; assumption).
    unfold v3permute. cbn [vx vy vz].
    split; (apply (bn_add 21); [lia|apply G|]); (replace 21%Z with (21 + 0)%Z by lia); apply bn_mul; try lia; auto.
  Qed.

  Definition real3 (v : V3 b32) : rv := mkV3 (B2R (vx v)) (B2R (vy v)) (B2R (vz v)).
  Definition realt (v : tri (V3 b32)) : tri rv := mk3 (real3 (t0 v)) (real3 (t1 v)) (real3 (t2 v)).
  Lemma bd_B2R k x : bd k x -> emb x = XFin (B2R x) /\ Rabs (B2R x) <= pw k.
  Proof. intros (r & E & H). pose proof E as E'. cbn in E'. apply B2X_fin_inv in E' as [_ <-]. auto. Qed.
  Lemma emb_B2R (x : b32) r : emb x = XFin r -> B2R x = r /\ is_finite x = true.
  Proof. intros E. cbn in E. apply B2X_fin_inv in E. tauto. Qed.

  Lemma bary_in (v : tri (V3 b32)) b0 b1 b2 y0 y1 y2 w0 w1 w2 : vb 20 (t0 v) -> vb 20 (t1 v) -> vb 20 (t2 v) ->
    emb b0 = XFin y0 -> emb b1 = XFin y1 -> emb b2 = XFin y2 -> Rabs w0 <= 1 -> Rabs w1 <= 1 -> Rabs w2 <= 1 ->
    Rabs (y0 - w0) <= 304 / 100 * uu * Rabs w0 + eta -> Rabs (y1 - w1) <= 304 / 100 * uu * Rabs w1 + eta -> Rabs (y2 - w2) <= 304 / 100 * uu * Rabs w2 + eta ->
    let q := comb (realt v) w0 w1 w2 in
    let p := bary v b0 b1 b2 in let e := bary_err v b0 b1 b2 in
    (Rabs (B2R (vx p) - vx q) <= B2R (vx e) + pw (-100) /\ Rabs (B2R (vy p) - vy q) <= B2R (vy e) + pw (-100) /\
     Rabs (B2R (vz p) - vz q) <= B2R (vz e) + pw (-100)).
  Proof.
    intros (X0 & Y0 & Z0) (X1 & Y1 & Z1) (X2 & Y2 & Z2) B0 B1 B2 W0 W1 W2 D0 D1 D2.
    assert (K : forall c0 c1 c2 : b32, bd 20 c0 -> bd 20 c1 -> bd 20 c2 ->
      Rabs (B2R (fadd (fadd (fmul c0 b0) (fmul c1 b1)) (fmul c2 b2) : b32) - (w0 * B2R c0 + w1 * B2R c1 + w2 * B2R c2)) <=
      B2R (fmul (fadd (fadd (fabs (fmul c0 b0)) (fabs (fmul c1 b1))) (fabs (fmul c2 b2))) (gamma (fofZ 7)) : b32) + pw (-100)).
    { intros c0 c1 c2 H0 H1 H2. apply bd_B2R in H0 as [E0 H0], H1 as [E1 H1], H2 as [E2 H2].
      destruct (bary_cover c0 c1 c2 b0 b1 b2 _ _ _ y0 y1 y2 w0 w1 w2 E0 E1 E2 B0 B1 B2 H0 H1 H2 W0 W1 W2 D0 D1 D2) as (p & e & Ep & Ee & H).
      apply emb_B2R in Ep as [-> _], Ee as [-> _]. exact H. }
    cbv zeta. unfold comb, realt, real3, bary, bary_err, vadd, vscale. cbn [vx vy vz t0 t1 t2]. repeat split; now apply K.
  Qed.

  Lemma tri_cover {T} (s : triangle b32) (r : ray b32) (i : interaction b32 T) d :
    vb 20 (t0 (tr_v s)) -> vb 20 (t1 (tr_v s)) -> vb 20 (t2 (tr_v s)) -> vb 20 (r_o r) ->
    tr_intersect s r = Ok (Some (i, d)) -> fis_nan (vx (i_p i)) = false ->
    exists w0 w1 w2, weights w0 w1 w2 /\ let q := comb (realt (tr_v s)) w0 w1 w2 in
     (Rabs (B2R (vx (i_p i)) - vx q) <= B2R (vx (i_p_err i)) + pw (-100) /\ Rabs (B2R (vy (i_p i)) - vy q) <= B2R (vy (i_p_err i)) + pw (-100) /\
      Rabs (B2R (vz (i_p i)) - vz q) <= B2R (vz (i_p_err i)) + pw (-100)).
  Proof.
    intros V0 V1 V2 Ho. unfold tr_intersect. destruct (max_abs_axis (r_d r)) as [a| |] eqn:Ea; cbn [rbind]; try discriminate.
    cbv zeta. set (vs := tmap (to_ray_space _ _ _ _ _ _) (tr_v s)).
    set (e0 := fsub (fmul (vx (t1 vs)) _) _). set (e1 := fsub (fmul (vx (t2 vs)) _) _). set (e2 := fsub (fmul (vx (t0 vs)) _) _).
    assert (S : bn 46 e0 /\ bn 46 e1 /\ bn 46 e2).
    { pose proof (axis_bn (r_d r) a (axis_prev a) Ea) as Sx. pose proof (axis_bn (r_d r) a (axis_next a) Ea) as Sy.
      destruct (ray_space_bn (r_o r) (axis_prev a) (axis_next a) a _ _ _ Ho V0 Sx Sy) as [A0 B0].
      destruct (ray_space_bn (r_o r) (axis_prev a) (axis_next a) a _ _ _ Ho V1 Sx Sy) as [A1 B1].
      destruct (ray_space_bn (r_o r) (axis_prev a) (axis_next a) a _ _ _ Ho V2 Sx Sy) as [A2 B2].
      repeat split; (apply (bn_mono 45); [lia|]; apply (bn_sub 44); [lia| |]); (replace 44%Z with (22 + 22)%Z by lia); (apply bn_mul; [lia| |]); assumption. }
    clearbody e0 e1 e2. destruct S as (S0 & S1 & S2).
    destruct (_ && _)%bool eqn:C1; [discriminate|].
    destruct (feq (fadd (fadd e0 e1) e2) f0) eqn:C2; [discriminate|].
    match goal with |- (if ?b then _ else _) = _ -> _ => destruct b; [discriminate|] end.
    match goal with |- (if ?b then _ else _) = _ -> _ => destruct b; [discriminate|] end.
    destruct (tr_frame s _ _ _) as [[[n sn] du] dv] eqn:Ef. clear Ef. intros E.
    match type of E with Ok (Some (?x, ?y)) = _ => assert (Ei : i = x) by (apply (f_equal (fun q => match q with Ok (Some (z, _)) => z | _ => x end)) in E; symmetry; exact E) end.
    clear E. rewrite Ei. clear Ei i. cbn [i_p i_p_err].
    intros Np.
    assert (NB : forall e, nan e -> e = e0 \/ e = e1 \/ e = e2 -> False).
    { intros e He Hi.
      assert (Hd : nan (fadd (fadd e0 e1) e2)) by (destruct Hi as [-> | [-> | -> ] ]; [apply nan_add_l, nan_add_l|apply nan_add_l, nan_add_r|apply nan_add_r]; exact He).
      destruct (bary_nan L (tr_v s) (fdiv e0 (fadd (fadd e0 e1) e2)) (fdiv e1 (fadd (fadd e0 e1) e2)) (fdiv e2 (fadd (fadd e0 e1) e2))) as [(Hx & _) _]; [left; now apply nan_div_r|].
      unfold Bounds.nan in Hx. rewrite emb_nan, Hx in Np. discriminate. }
    assert (F : forall e, bn 46 e -> e = e0 \/ e = e1 \/ e = e2 -> bd 46 e) by (intros e He Hi; destruct He as [He|He]; [exact He|destruct (NB e He Hi)]).
    apply F in S0; auto. apply F in S1; auto. apply F in S2; auto. clear F NB Np.
    destruct S0 as (x0 & E0 & H0), S1 as (x1 & E1 & H1), S2 as (x2 & E2 & H2).
    assert (P46 : 0 < pw 46 <= pw 120) by (split; [apply bpow_gt_0|apply bpow_le; lia]).
    rewrite !emb_lt, E0, E1, E2, emb_f0 in C1. cbn [xlt] in C1.
    assert (Zs : x0 + x1 + x2 <> 0).
    { intros Z. assert (Sg : (0 <= x0 /\ 0 <= x1 /\ 0 <= x2) \/ (x0 <= 0 /\ x1 <= 0 /\ x2 <= 0)).
      { apply andb_false_iff in C1 as [C1|C1]; apply orb_false_iff in C1 as [C1 C3]; apply orb_false_iff in C1 as [C1 C4]; rb; [left|right]; lra. }
      assert (x0 = 0 /\ x1 = 0 /\ x2 = 0) as (-> & -> & ->) by lra.
      rewrite emb_eq, !emb_add, E0, E1, emb_f0 in C2. cbn [xadd] in C2. rewrite Rplus_0_r, rn_0, E2 in C2. cbn [xadd] in C2. rewrite Rplus_0_r, rn_0 in C2. cbn in C2. rb. lra. }
    apply Rabs_le_inv in H0, H1, H2.
    assert (W : exists b0 b1 b2, emb (fdiv e0 (fadd (fadd e0 e1) e2)) = XFin b0 /\ emb (fdiv e1 (fadd (fadd e0 e1) e2)) = XFin b1 /\ emb (fdiv e2 (fadd (fadd e0 e1) e2)) = XFin b2 /\
      Rabs (b0 - x0 / (x0 + x1 + x2)) <= 304 / 100 * uu * (x0 / (x0 + x1 + x2)) + eta /\ Rabs (b1 - x1 / (x0 + x1 + x2)) <= 304 / 100 * uu * (x1 / (x0 + x1 + x2)) + eta /\
      Rabs (b2 - x2 / (x0 + x1 + x2)) <= 304 / 100 * uu * (x2 / (x0 + x1 + x2)) + eta /\
      0 <= x0 / (x0 + x1 + x2) /\ 0 <= x1 / (x0 + x1 + x2) /\ 0 <= x2 / (x0 + x1 + x2)).
    { apply andb_false_iff in C1 as [C1|C1]; apply orb_false_iff in C1 as [C1 C3]; apply orb_false_iff in C1 as [C1 C4]; rb.
      - destruct (weight_pos e0 e1 e2 e0 x0 x1 x2 x0) as (b0 & F0 & D0); auto; try lra.
        destruct (weight_pos e0 e1 e2 e1 x0 x1 x2 x1) as (b1 & F1 & D1); auto; try lra.
        destruct (weight_pos e0 e1 e2 e2 x0 x1 x2 x2) as (b2 & F2 & D2); auto; try lra.
        exists b0, b1, b2. repeat split; auto; apply Rmult_le_pos; try lra; left; apply Rinv_0_lt_compat; lra.
      - destruct (weight_neg e0 e1 e2 e0 x0 x1 x2 x0) as (b0 & F0 & D0); auto; try lra.
        destruct (weight_neg e0 e1 e2 e1 x0 x1 x2 x1) as (b1 & F1 & D1); auto; try lra.
        destruct (weight_neg e0 e1 e2 e2 x0 x1 x2 x2) as (b2 & F2 & D2); auto; try lra.
        assert (I : / (x0 + x1 + x2) <= 0) by (left; apply Rinv_lt_0_compat; lra).
        exists b0, b1, b2. repeat split; auto; unfold Rdiv; nra. }
    destruct W as (b0 & b1 & b2 & F0 & F1 & F2 & D0 & D1 & D2 & W0 & W1 & W2).
    assert (W : weights (x0 / (x0 + x1 + x2)) (x1 / (x0 + x1 + x2)) (x2 / (x0 + x1 + x2))) by (repeat split; auto; field; exact Zs).
    exists (x0 / (x0 + x1 + x2)), (x1 / (x0 + x1 + x2)), (x2 / (x0 + x1 + x2)). split; [exact W|].
    assert (N : forall w, 0 <= w <= 1 -> Rabs w <= 1) by (intros w Hw; rewrite Rabs_pos_eq; lra).
    destruct W as (_ & _ & _ & Ws).
    apply (bary_in (tr_v s) _ _ _ b0 b1 b2 _ _ _ V0 V1 V2 F0 F1 F2); try (apply N; split; lra); rewrite ?(Rabs_pos_eq (x0 / _)), ?(Rabs_pos_eq (x1 / _)), ?(Rabs_pos_eq (x2 / _)) by assumption; assumption.
  Qed.

  (** ** points on lamps *)
  Lemma sterbenz_sub (a b : b32) x y : emb a = XFin x -> emb b = XFin y -> y / 2 <= x <= 2 * y -> emb (fsub a b) = XFin (x - y).
  Proof.
    intros Ea Eb H. rewrite emb_sub, Ea, Eb. cbn [xsub].
    assert (G : forall (c : b32) z, emb c = XFin z -> generic_format radix2 (FLT_exp (-149) 24) z /\ Rabs z < pw 128).
    { intros c z Ec. cbn in Ec. apply B2X_fin_inv in Ec as [Fc <-]. split; [apply (generic_format_B2R 24 128 c)|apply abs_B2R_lt_emax]. }
    destruct (G _ _ Ea) as [Ga La]. destruct (G _ _ Eb) as [Gb Lb].
    change rnb with (rndX (prec := 24) (emax := 128)). apply rndX_format.
    - apply (sterbenz radix2 (FLT_exp (-149) 24)); auto.
    - apply Rabs_def2 in La, Lb. apply Rabs_def1; lra.
  Qed.
  Lemma one_minus (s : b32) S : emb s = XFin S -> 0 <= S <= 1 ->
    exists b, emb (fsub f1 s) = XFin b /\ 0 <= b <= 1 /\ Rabs (b - (1 - S)) <= uu /\ emb (fsub f1 (fsub f1 s)) = XFin (1 - b).
  Proof.
    intros Es Hs.
    assert (N : emb (fneg s) = XFin (- S)) by (rewrite emb_neg, Es; reflexivity).
    destruct (Rle_dec (/ 2) S) as [Hb|Hb].
    - assert (E : emb (fsub f1 s) = XFin (1 - S)) by (apply sterbenz_sub; [apply emb_f1|exact Es|lra]).
      exists (1 - S). repeat split; try lra; auto.
      + rewrite Rminus_diag_eq, Rabs_R0 by reflexivity. unfold uu. lra.
      + rewrite emb_sub, E, emb_f1. cbn [xsub]. replace (1 - (1 - S)) with S by ring. rewrite <- Es. apply rn_emb.
    - assert (R : rnb (XFin (1 - S)) = emb (fsub f1 s)) by (rewrite emb_sub, Es, emb_f1; reflexivity).
      destruct (rn_bd L 0 (1 - S)) as (b & Eb & Hb1); [lia|rewrite Rabs_pos_eq; cbn; lra|]. rewrite R in Eb.
      assert (Hb2 : pw (-1) <= b) by (apply (rn_ge_pw L (-1) (1 - S)); [lia|cbn; lra|congruence]).
      cbn in Hb1, Hb2. apply Rabs_le_inv in Hb1.
      assert (A : exists q, emb (fadd f1 (fneg s)) = XFin q /\ Rabs (q - (1 + - S)) <= uu * Rabs (1 + - S)).
      { apply add_rel; [apply emb_f1|exact N|]. assert (1 <= pw 127) by (change 1 with (pw 0); apply bpow_le; lia). rewrite Rabs_pos_eq; lra. }
      destruct A as (q & Eq & Dq). assert (q = b) as ->.
      { rewrite emb_add, N, emb_f1 in Eq. cbn [xadd] in Eq. replace (1 + - S) with (1 - S) in Eq by ring. rewrite R, Eb in Eq. congruence. }
      exists b. repeat split; auto; try lra.
      + replace (1 - S) with (1 + - S) by ring. eapply Rle_trans; [exact Dq|]. rewrite Rabs_pos_eq by lra. unfold uu. lra.
      + apply sterbenz_sub; [apply emb_f1|exact Eb|lra].
  Qed.
  Lemma sample_cover {T} (s : triangle b32) (u : P2 b32) U V : vb 20 (t0 (tr_v s)) -> vb 20 (t1 (tr_v s)) -> vb 20 (t2 (tr_v s)) ->
    emb (px u) = XFin U -> 0 <= U <= 1 -> emb (py u) = XFin V -> 0 <= V <= 1 ->
    let i := tr_sample (T := T) s u in
    exists w0 w1 w2, w0 + w1 + w2 = 1 /\ 0 <= w0 /\ 0 <= w1 /\ - uu <= w2 /\ let q := comb (realt (tr_v s)) w0 w1 w2 in
     (Rabs (B2R (vx (i_p i)) - vx q) <= B2R (vx (i_p_err i)) + pw (-100) /\ Rabs (B2R (vy (i_p i)) - vy q) <= B2R (vy (i_p_err i)) + pw (-100) /\
      Rabs (B2R (vz (i_p i)) - vz q) <= B2R (vz (i_p_err i)) + pw (-100)).
  Proof.
    intros V0 V1 V2 EU HU EV HV. cbv zeta. unfold tr_sample. cbv zeta. cbn [i_p i_p_err].
    assert (Q : exists S, emb (fsqrt (px u)) = XFin S /\ 0 <= S <= 1).
    { rewrite emb_sqrt, EU. rewrite xsqrt_fin by lra. assert (S1 : sqrt U <= 1) by (rewrite <- sqrt_1; apply sqrt_le_1_alt; lra). pose proof (sqrt_pos U) as S0.
      destruct (rn_bd L 0 (sqrt U)) as (S & ES & HS); [lia|rewrite Rabs_pos_eq; cbn; lra|]. exists S. split; auto. cbn in HS. apply Rabs_le_inv in HS. split; [|lra].
      pose proof (rn_le (FLaws := B32_FLaws L) (XFin 0) (XFin (sqrt U)) ltac:(cbn; rb; lra)) as A. rewrite rn_0, ES in A. cbn in A. now rb. }
    destruct Q as (S & ES & HS). set (sq := fsqrt (px u)) in *. clearbody sq. clear U EU HU.
    destruct (one_minus sq S ES HS) as (b & Eb & Hb & Db & Eb1).
    assert (P1 : 0 <= V * S <= S) by (split; nra).
    destruct (rn_bd L 0 (V * S)) as (y & Ey & Hy); [lia|rewrite Rabs_pos_eq; cbn; lra|].
    assert (E1 : emb (fmul (py u) sq) = XFin y) by (rewrite emb_mul, EV, ES; exact Ey).
    assert (Y0 : 0 <= y <= S).
    { split.
      - pose proof (rn_le (FLaws := B32_FLaws L) (XFin 0) (XFin (V * S)) ltac:(cbn; rb; lra)) as A. rewrite rn_0, Ey in A. cbn in A. now rb.
      - pose proof (rn_le (FLaws := B32_FLaws L) (XFin (V * S)) (XFin S) ltac:(cbn; rb; lra)) as A. rewrite <- ES in A. rewrite rn_emb, Ey, ES in A. cbn in A. now rb. }
    assert (P127 : 4 <= pw 127) by (change 4 with (pw 2); apply bpow_le; lia).
    apply abs_of in Db.
    assert (A : exists q, emb (fsub (fsub f1 (fsub f1 sq)) (fmul (py u) sq)) = XFin q /\ Rabs (q - (1 - b - y)) <= uu * Rabs (1 - b - y)).
    { destruct (add_rel L (fsub f1 (fsub f1 sq)) (fneg (fmul (py u) sq)) (1 - b) (- y) Eb1) as (q & Eq & Dq); [rewrite emb_neg, E1; reflexivity| |].
      - apply Rabs_le. unfold uu in Db. lra.
      - exists q. split; [|exact Dq]. rewrite <- Eq. rewrite emb_sub, emb_add, emb_neg, Eb1, E1. reflexivity. }
    destruct A as (y2 & E2 & D2).
    exists b, y, (1 - b - y). pose proof (bpow_gt_0 radix2 (-150)) as Et. fold eta in Et.
    assert (Z : forall r, Rabs (r - r) <= 304 / 100 * uu * Rabs r + eta).
    { intros r. rewrite Rminus_diag_eq, Rabs_R0 by reflexivity. pose proof (Rabs_pos r). unfold uu. lra. }
    split; [ring|]. split; [lra|]. split; [lra|]. split; [unfold uu in *; lra|].
    apply (bary_in (tr_v s) _ _ _ b y y2 b y (1 - b - y) V0 V1 V2 Eb E1 E2); try (apply Rabs_le; unfold uu in *; lra); try apply Z.
    eapply Rle_trans; [exact D2|]. pose proof (Rabs_pos (1 - b - y)). unfold uu. lra.
  Qed.

  (** ** hits of spheres *)
  Lemma gamma5 : exists g, emb (gamma (fofZ 5) : b32) = XFin g /\ 49375 / 10000 * uu <= g <= 5125 / 1000 * uu.
  Proof.
    assert (A : fle (fdiv (fofZ 79) (fofZ (2 ^ 28))) (gamma (fofZ 5) : b32) = true) by (vm_compute; reflexivity).
    assert (B : fle (gamma (fofZ 5) : b32) (fdiv (fofZ 41) (fofZ (2 ^ 27))) = true) by (vm_compute; reflexivity).
    assert (K : forall n k, (Z.abs n <= 2 ^ 24)%Z -> (0 <= k <= 100)%Z -> emb (fdiv (fofZ n) (fofZ (2 ^ k)) : b32) = XFin (IZR n / IZR (2 ^ k))).
    { intros n k Hn Hk. assert (P : (0 < 2 ^ k)%Z) by (apply Z.pow_pos_nonneg; lia). apply IZR_lt in P.
      assert (E2 : emb (fofZ (2 ^ k) : b32) = XFin (IZR (2 ^ k))).
      { rewrite emb_ofZ. replace (IZR (2 ^ k)) with (pw k); [apply rn_pw; lia|]. change (2 ^ k)%Z with (radix2 ^ k)%Z. symmetry. apply IZR_Zpower. lia. }
      rewrite emb_div, E2, emb_ofZ_exact, xdiv_fin by (try exact Hn; try (rewrite E2; intros H; injection H; lra); lra).
      now apply rn_dyadic. }
    rewrite emb_le, K in A by lia. rewrite emb_le, K in B by lia.
    destruct (emb (gamma (fofZ 5))) as [|[]|g]; try discriminate. exists g. split; auto. cbn [xle] in A, B. rb. unfold uu. cbn in A, B. lra.
  Qed.

  (** the computed length, to a few units in the last place *)
  Lemma length_near (v : V3 b32) V l : val L v V -> Rabs (vx V) <= pw 50 -> Rabs (vy V) <= pw 50 -> Rabs (vz V) <= pw 50 ->
    emb (v3length v) = XFin l -> pw (-50) <= l ->
    pw (-51) <= vnorm V <= pw 52 /\ Rabs (l - vnorm V) <= 253 / 100 * uu * vnorm V.
  Proof.
    intros (A & B & C) Hx Hy Hz El Hl.
    destruct (sq_val L _ _ A Hx) as (x & Ex & Px & Dx). destruct (sq_val L _ _ B Hy) as (y & Ey & Py & Dy). destruct (sq_val L _ _ C Hz) as (z & Ez & Pz & Dz).
    apply abs_of in Dx, Dy, Dz.
    assert (Q : forall t, Rabs t <= pw 50 -> 0 <= t * t <= pw 100).
    { intros t Ht. split; [nra|]. replace (t * t) with (Rabs t * Rabs t) by (unfold Rabs; destruct (Rcase_abs t); lra). change 100%Z with (50 + 50)%Z. rewrite bpow_plus.
      apply Rmult_le_compat; auto using Rabs_pos. }
    pose proof (Q _ Hx) as Qx. pose proof (Q _ Hy) as Qy. pose proof (Q _ Hz) as Qz. clear Q.
    assert (B1 : pw 100 * 1000 <= pw 110) by (change 110%Z with (100 + 10)%Z; rewrite (bpow_plus radix2 100 10); apply Rmult_le_compat_l; [apply bpow_ge_0|cbn; lra]).
    assert (B2 : pw 110 <= pw 127) by (apply bpow_le; lia).
    assert (B3 : 1 <= pw 100) by (change 1 with (pw 0); apply bpow_le; lia). pose proof eta_pos as Et. unfold uu in Dx, Dy, Dz.
    destruct (sum_val L _ _ x y Ex Ey Px Py ltac:(lra)) as (s & Es & Ds). unfold uu in Ds.
    destruct (sum_val L _ _ s z Es Ez ltac:(lra) Pz ltac:(lra)) as (q & Eq & Dq). unfold uu in Dq.
    assert (Es3 : emb (v3length v) = rnb (xsqrt (XFin q))) by (unfold v3length, v3dot; rewrite emb_sqrt; f_equal; f_equal; exact Eq).
    rewrite xsqrt_fin in Es3 by lra. rewrite El in Es3.
    set (D := vdot V V). assert (HD : D = vx V * vx V + vy V * vy V + vz V * vz V) by reflexivity.
    assert (Dq' : Rabs (q - D) <= 301 / 100 * uu * D + 4 * eta) by (apply of_abs; unfold uu; lra). apply abs_of in Dq'.
    assert (Dp : 0 <= D <= 3 * pw 100) by lra. clear HD Dx Dy Dz Ds Dq Ex Ey Ez Es Eq A B C Hx Hy Hz Qx Qy Qz Px Py Pz x y z s.
    assert (E127 : sqrt q <= pw 127).
    { apply Rle_trans with (pw 55); [|apply bpow_le; lia]. rewrite <- (sqrt_square (pw 55)) by apply bpow_ge_0. apply sqrt_le_1_alt. rewrite <- bpow_plus. change (55 + 55)%Z with 110%Z. unfold uu in Dq'. lra. }
    pose proof (sqrt_pos q) as Sq.
    destruct (rn_any L (sqrt q)) as (l' & El' & Dl); [rewrite Rabs_pos_eq; lra|]. rewrite (Rabs_pos_eq (sqrt q)) in Dl by lra. rewrite <- Es3 in El'. assert (l' = l) by congruence. subst l'. clear El' Es3 El.
    apply abs_of in Dl.
    (* lower bounds *)
    assert (L1 : pw (-101) <= q).
    { assert (P51 : pw (-50) = 2 * pw (-51)) by (change (-50)%Z with (-51 + 1)%Z; rewrite pw_double; lra).
      assert (eta <= pw (-51) / 1000). { unfold eta. apply Rle_trans with (pw (-61)); [apply bpow_le; lia|]. change (-51)%Z with (-61 + 10)%Z. rewrite (bpow_plus radix2 (-61) 10). pose proof (bpow_gt_0 radix2 (-61)). cbn. lra. }
      pose proof (bpow_gt_0 radix2 (-51)) as P0.
      assert (S1 : 19 / 10 * pw (-51) <= sqrt q) by (unfold uu in Dl; lra).
      assert (Hq0 : 0 <= q). { destruct (Rle_dec 0 q); auto. rewrite sqrt_neg in S1 by lra. lra. }
      rewrite <- (sqrt_sqrt q) by exact Hq0. apply Rle_trans with ((19 / 10 * pw (-51)) * (19 / 10 * pw (-51))); [|apply Rmult_le_compat; lra].
      replace (19 / 10 * pw (-51) * (19 / 10 * pw (-51))) with (361 / 100 * (pw (-51) * pw (-51))) by field. rewrite <- bpow_plus. change (-51 + -51)%Z with (-102)%Z.
      change (-101)%Z with (-102 + 1)%Z. rewrite pw_double. pose proof (bpow_gt_0 radix2 (-102)). lra. }
    assert (E4 : 4 * eta <= pw (-101) / 100000000000). { unfold eta. apply Rle_trans with (pw (-148)); [change (-148)%Z with (-150 + 2)%Z; rewrite (bpow_plus radix2 (-150) 2); cbn; lra|]. apply Rle_trans with (pw (-147) ); [apply bpow_le; lia|].
      change (-101)%Z with (-147 + 46)%Z. rewrite (bpow_plus radix2 (-147) 46). pose proof (bpow_gt_0 radix2 (-147)). cbn. lra. }
    assert (Dr : (1 - 302 / 100 * uu) * D <= q <= (1 + 302 / 100 * uu) * D) by (unfold uu in *; lra).
    assert (D0 : pw (-102) <= D). { change (-101)%Z with (-102 + 1)%Z in L1. rewrite pw_double in L1. pose proof (bpow_gt_0 radix2 (-102)). unfold uu in Dr. lra. }
    pose proof (bpow_gt_0 radix2 (-102)) as P102.
    set (N := vnorm V). assert (HN : N * N = D) by (unfold N, D; apply vnorm_sq). assert (N0 : 0 <= N) by (unfold N; apply sqrt_pos). clearbody N. clearbody D.
    assert (HN1 : pw (-51) <= N <= pw 52).
    { split.
      - apply Rsqr_incr_0_var; [|exact N0]. unfold Rsqr. rewrite HN, <- bpow_plus. exact D0.
      - apply Rsqr_incr_0_var; [|apply bpow_ge_0]. unfold Rsqr. rewrite HN, <- bpow_plus. change (52 + 52)%Z with (100 + 4)%Z. rewrite (bpow_plus radix2 100 4). cbn [bpow radix2]. apply Rle_trans with (3 * pw 100); [lra|]. pose proof (bpow_gt_0 radix2 100). cbn. lra. }
    split; [exact HN1|].
    assert (Np : 0 < N) by (pose proof (bpow_gt_0 radix2 (-51)); lra).
    assert (Q1 : (1 - 152 / 100 * uu) * N <= sqrt q).
    { rewrite <- (sqrt_square ((1 - 152 / 100 * uu) * N)) by (apply Rmult_le_pos; [unfold uu; lra|lra]). apply sqrt_le_1_alt.
      eapply Rle_trans; [|apply Dr]. rewrite <- HN. replace ((1 - 152 / 100 * uu) * N * ((1 - 152 / 100 * uu) * N)) with ((1 - 152 / 100 * uu) * (1 - 152 / 100 * uu) * (N * N)) by ring.
      apply Rmult_le_compat_r; [nra|]. unfold uu. lra. }
    assert (Q2 : sqrt q <= (1 + 152 / 100 * uu) * N).
    { rewrite <- (sqrt_square ((1 + 152 / 100 * uu) * N)) by (apply Rmult_le_pos; [unfold uu; lra|lra]). apply sqrt_le_1_alt.
      eapply Rle_trans; [apply Dr|]. rewrite <- HN. replace ((1 + 152 / 100 * uu) * N * ((1 + 152 / 100 * uu) * N)) with ((1 + 152 / 100 * uu) * (1 + 152 / 100 * uu) * (N * N)) by ring.
      apply Rmult_le_compat_r; [nra|]. unfold uu. lra. }
    assert (E51 : eta <= / 1000000000000 * N).
    { apply Rle_trans with (/ 1000000000000 * pw (-51)); [|apply Rmult_le_compat_l; lra]. unfold eta. change (-51)%Z with (-150 + 99)%Z. rewrite (bpow_plus radix2 (-150) 99). pose proof (bpow_gt_0 radix2 (-150)). cbn. lra. }
    apply of_abs. clear - Dl Q1 Q2 E51 Np. unfold uu in *. lra.
  Qed.

  (** pulling a point onto the sphere of radius [r] *)
  Lemma pull_near (x s : b32) X l R N : emb x = XFin X -> emb s = XFin R -> pw (-20) <= R <= pw 20 -> pw (-51) <= N <= pw 52 -> Rabs X <= N ->
    forall len : b32, emb len = XFin l -> Rabs (l - N) <= 253 / 100 * uu * N ->
    exists p e, emb (fmul x (fdiv s len)) = XFin p /\ emb (fmul (fabs (fmul x (fdiv s len))) (gamma (fofZ 5))) = XFin e /\
      Rabs (p - X * (R / N)) <= e + pw (-130) /\ Rabs p <= pw 21.
  Proof.
    intros Ex Es HR HN HX len El Dl. apply abs_of in Dl.
    pose proof (bpow_gt_0 radix2 (-20)) as P20. pose proof (bpow_gt_0 radix2 (-51)) as P51.
    assert (L0 : 0 < l) by (unfold uu in Dl; lra).
    set (k := R / N). assert (Ek : k * N = R) by (unfold k; field; lra).
    assert (K0 : 0 < k) by (unfold k; apply Rdiv_lt_0_compat; lra).
    assert (K1 : pw (-72) <= k).
    { apply Rmult_le_reg_r with N; [lra|]. rewrite Ek. apply Rle_trans with (pw (-20)); [|lra]. change (-20)%Z with (-72 + 52)%Z. rewrite bpow_plus. apply Rmult_le_compat_l; [apply bpow_ge_0|lra]. }
    assert (K2 : k <= pw 71).
    { apply Rmult_le_reg_r with N; [lra|]. rewrite Ek. apply Rle_trans with (pw 20); [lra|]. change 20%Z with (71 + -51)%Z. rewrite bpow_plus. apply Rmult_le_compat_l; [apply bpow_ge_0|lra]. }
    assert (Q : Rabs (R / l - k) <= 2531 / 1000 * uu * k).
    { apply of_abs. rewrite <- Ek. unfold uu in *. split; apply Rmult_le_reg_r with l; try exact L0; unfold Rdiv; rewrite ?Rmult_assoc, ?Rinv_l, ?Rmult_1_r by lra.
      - apply Rle_trans with (((1 - 2531 / 1000 * / 16777216) * k) * ((1 + 253 / 100 * / 16777216) * N)); [apply Rmult_le_compat; lra|].
        replace (((1 - 2531 / 1000 * / 16777216) * k) * ((1 + 253 / 100 * / 16777216) * N)) with ((1 - 2531 / 1000 * / 16777216) * (1 + 253 / 100 * / 16777216) * (k * N)) by ring.
        rewrite <- (Rmult_1_l (k * N)) at 2. apply Rmult_le_compat_r; [rewrite Ek; lra|]. lra.
      - apply Rle_trans with (((1 + 2531 / 1000 * / 16777216) * k) * ((1 - 253 / 100 * / 16777216) * N)); [|apply Rmult_le_compat; lra].
        replace (((1 + 2531 / 1000 * / 16777216) * k) * ((1 - 253 / 100 * / 16777216) * N)) with ((1 + 2531 / 1000 * / 16777216) * (1 - 253 / 100 * / 16777216) * (k * N)) by ring.
        rewrite <- (Rmult_1_l (k * N)) at 1. apply Rmult_le_compat_r; [rewrite Ek; lra|]. lra. }
    apply abs_of in Q.
    assert (E72 : eta <= / 1000000000000 * k).
    { apply Rle_trans with (/ 1000000000000 * pw (-72)); [|apply Rmult_le_compat_l; lra]. unfold eta. change (-72)%Z with (-150 + 78)%Z. rewrite (bpow_plus radix2 (-150) 78). pose proof (bpow_gt_0 radix2 (-150)). cbn. lra. }
    assert (B71 : 2 * pw 71 <= pw 127) by (apply Rle_trans with (pw 72); [change 72%Z with (71 + 1)%Z; rewrite pw_double; lra|apply bpow_le; lia]).
    assert (Rp : 0 < R / l) by (apply Rdiv_lt_0_compat; lra).
    destruct (rn_div s len R l Es El) as (m & Em & Dm); [lra|rewrite Rabs_pos_eq by lra; unfold uu in Q; lra|]. rewrite (Rabs_pos_eq (R / l)) in Dm by lra. apply abs_of in Dm.
    assert (Mk : Rabs (m - k) <= 3532 / 1000 * uu * k) by (apply of_abs; unfold uu in *; lra). apply abs_of in Mk. clear Dm Q.
    pose proof (Rabs_pos X) as X0. pose proof (bpow_gt_0 radix2 (-150)) as Et. fold eta in Et.
    assert (Xk : 0 <= Rabs X * k <= pw 20) by (split; [nra|]; apply Rle_trans with R; [|lra]; rewrite <- Ek, Rmult_comm; apply Rmult_le_compat_l; lra).
    assert (P127 : 4 * pw 20 <= pw 127) by (change 4 with (pw 2); rewrite <- bpow_plus; apply bpow_le; lia).
    assert (P1 : 1 <= pw 20) by (change 1 with (pw 0); apply bpow_le; lia).
    assert (Axm : Rabs X * m <= (1 + 3532 / 1000 * uu) * (Rabs X * k)) by (replace ((1 + 3532 / 1000 * uu) * (Rabs X * k)) with (Rabs X * ((1 + 3532 / 1000 * uu) * k)) by ring; apply Rmult_le_compat_l; lra).
    assert (M0 : 0 <= m) by (unfold uu in Mk; lra).
    destruct (mul_any L x _ X m Ex Em) as (p & Ep & Dp); [rewrite Rabs_mult, (Rabs_pos_eq m) by lra; unfold uu in Axm; lra|]. rewrite (Rabs_mult X m), (Rabs_pos_eq m) in Dp by lra.
    assert (Dp' : Rabs (p - X * k) <= 4533 / 1000 * uu * (Rabs X * k) + eta).
    { replace (p - X * k) with ((p - X * m) + X * (m - k)) by ring. eapply Rle_trans; [apply Rabs_triang|]. rewrite (Rabs_mult X (m - k)).
      assert (Rabs X * Rabs (m - k) <= Rabs X * (3532 / 1000 * uu * k)) by (apply Rmult_le_compat_l; [lra|apply of_abs; exact Mk]). unfold uu in *. lra. }
    assert (Ap : (1 - 4533 / 1000 * uu) * (Rabs X * k) - eta <= Rabs p <= (1 + 4533 / 1000 * uu) * (Rabs X * k) + eta).
    { pose proof (Rabs_triang_inv2 p (X * k)) as H. rewrite (Rabs_mult X k), (Rabs_pos_eq k) in H by lra. apply Rabs_le_inv in H. unfold uu in *. lra. }
    destruct gamma5 as (g & Eg & Hg).
    assert (Ea : emb (fabs (fmul x (fdiv s len))) = XFin (Rabs p)) by (rewrite emb_abs, Ep; reflexivity).
    pose proof (Rabs_pos p) as Pp. pose proof eta_pos as Et'.
    assert (Pu : Rabs p <= 2 * pw 20) by (unfold uu in Ap; lra).
    assert (Gp : 0 <= Rabs p * g) by (apply Rmult_le_pos; [lra|unfold uu in Hg; lra]).
    destruct (mul_any L _ _ _ _ Ea Eg) as (e & Ee & De).
    { rewrite (Rabs_pos_eq (Rabs p * g)) by exact Gp. apply Rle_trans with (Rabs p * 1); [apply Rmult_le_compat_l; [lra|unfold uu in Hg; lra]|lra]. }
    rewrite (Rabs_pos_eq (Rabs p * g)) in De by exact Gp. apply abs_of in De.
    exists p, e. split; [exact Ep|]. split; [exact Ee|]. split; [|change 21%Z with (20 + 1)%Z; rewrite pw_double; lra].
    assert (Ge : Rabs p * (49375 / 10000 * uu) <= Rabs p * g) by (apply Rmult_le_compat_l; lra).
    assert (E130 : 10 * eta <= pw (-130)) by (unfold eta; change (-130)%Z with (-150 + 20)%Z; rewrite (bpow_plus radix2 (-150) 20); pose proof (bpow_gt_0 radix2 (-150)); cbn; lra).
    fold k. eapply Rle_trans; [exact Dp'|]. clear - Ge De Ap E130 Et Xk Gp. unfold uu in *. lra.
  Qed.

  Lemma sphere_cover {T} (s : sphere b32) (r : ray b32) t (i : interaction b32 T) d V l : sp_interaction s r t = (i, d) -> tame_sphere s ->
    val L (ray_position r t) V -> Rabs (vx V) <= pw 50 -> Rabs (vy V) <= pw 50 -> Rabs (vz V) <= pw 50 ->
    emb (v3length (ray_position r t)) = XFin l -> pw (-50) <= l ->
    exists q : rv, vnorm q = B2R (sp_radius s) /\
    forall c : forall A, V3 A -> A, c = @vx \/ c = @vy \/ c = @vz ->
      (B2R (c _ (sp_center s)) = 0 -> Rabs (B2R (c _ (i_p i)) - c _ q) <= B2R (c _ (i_p_err i)) + pw (-130)) /\
      Rabs (B2R (c _ (i_p i)) - (c _ q + B2R (c _ (sp_center s)))) <= B2R (c _ (i_p_err i)) + 101 / 100 * uu * Rabs (B2R (c _ (i_p i))) + pw (-130).
  Proof.
    intros E Ts Hv Bx By Bz El Hl. destruct (length_near _ V l Hv Bx By Bz El Hl) as [HN Dl].
    destruct (tame_radius L s Ts) as (R & ER & HR). destruct Ts as [(Cx & Cy & Cz) _ _].
    apply (within_bd L 20 (2 ^ 20) _ ltac:(lia) ltac:(lia)) in Cx, Cy, Cz.
    set (N := vnorm V) in *.
    assert (N0 : 0 < N) by (pose proof (bpow_gt_0 radix2 (-51)); lra).
    pose proof (bpow_gt_0 radix2 (-20)) as P20.
    destruct (emb_B2R _ _ ER) as [BR _].
    exists (vscale (R / N) V). split.
    { rewrite vnorm_scale, Rabs_pos_eq by (left; apply Rdiv_lt_0_compat; lra). fold N. rewrite BR. field. lra. }
    assert (Q : forall p e c w x : b32, emb c = XFin (B2R c) -> Rabs (B2R c) <= pw 20 -> forall P Ev X, emb p = XFin P -> emb e = XFin Ev -> w = fadd p c -> x = e ->
      Rabs (P - X) <= Ev + pw (-130) -> Rabs P <= pw 21 ->
      (B2R c = 0 -> Rabs (B2R w - X) <= B2R x + pw (-130)) /\ Rabs (B2R w - (X + B2R c)) <= B2R x + 101 / 100 * uu * Rabs (B2R w) + pw (-130)).
    { intros p e c w x Ec Hc P Ev X Ep Ee -> -> D HP. destruct (emb_B2R _ _ Ee) as [-> _].
      assert (P127 : pw 20 + pw 21 <= pw 127) by (apply Rle_trans with (pw 21 + pw 21); [apply Rplus_le_compat_r, bpow_le; lia|rewrite <- pw_double; apply bpow_le; lia]).
      pose proof (Rabs_triang P (B2R c)) as T3.
      destruct (add_rel L p c P (B2R c) Ep Ec) as (y & Ey & Dy); [lra|]. destruct (emb_B2R _ _ Ey) as [Hy _]. rewrite Hy. split.
      - intros Zc. rewrite Zc, Rplus_0_r in *. assert (y = P) as ->; [|exact D].
        rewrite emb_add, Ep, Ec in Ey. cbn [xadd] in Ey. rewrite Rplus_0_r, <- Ep, rn_emb, Ep in Ey. congruence.
      - replace (y - (X + B2R c)) with ((P - X) + (y - (P + B2R c))) by ring. eapply Rle_trans; [apply Rabs_triang|].
        assert (Rabs (P + B2R c) <= Rabs y + uu * Rabs (P + B2R c)).
        { replace (P + B2R c) with (y - (y - (P + B2R c))) at 1 by ring. eapply Rle_trans; [apply Rabs_triang|]. rewrite Rabs_Ropp. lra. }
        pose proof (Rabs_pos (P + B2R c)). unfold uu in *. lra. }
    destruct (comp_norm V) as (Vx & Vy & Vz). fold N in Vx, Vy, Vz. destruct Hv as (Ax & Ay & Az).
    apply bd_B2R in Cx as [Cx Dx], Cy as [Cy Dy], Cz as [Cz Dz].
    destruct (pull_near _ _ _ l R N Ax ER HR HN Vx _ El Dl) as (px & ex & Ep1 & Ee1 & D1 & B1).
    destruct (pull_near _ _ _ l R N Ay ER HR HN Vy _ El Dl) as (py & ey & Ep2 & Ee2 & D2 & B2).
    destruct (pull_near _ _ _ l R N Az ER HR HN Vz _ El Dl) as (pz & ez & Ep3 & Ee3 & D3 & B3).
    unfold sp_interaction in E. destruct (sp_partials _) as [du dv]. apply (f_equal fst) in E. cbn [fst] in E.
    pose proof (f_equal (@i_p _ _) E) as Ip. pose proof (f_equal (@i_p_err _ _) E) as Ie. cbn [i_p i_p_err] in Ip, Ie. clear E. rewrite <- Ip, <- Ie. clear Ip Ie.
    intros c [-> | [-> | -> ] ]; unfold vscale; cbn [vx vy vz]; rewrite (Rmult_comm (R / N)).
    - exact (Q _ _ _ _ _ Cx Dx _ _ _ Ep1 Ee1 eq_refl eq_refl D1 B1).
    - exact (Q _ _ _ _ _ Cy Dy _ _ _ Ep2 Ee2 eq_refl eq_refl D2 B2).
    - exact (Q _ _ _ _ _ Cz Dz _ _ _ Ep3 Ee3 eq_refl eq_refl D3 B3).
  Qed.
End HE.
