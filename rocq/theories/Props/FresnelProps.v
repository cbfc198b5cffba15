(** * Fresnel reflectance (C56, C57) *)
From Coq Require Import ZArith Reals Bool List Lra Lia.
From Flocq Require Import Core.Raux IEEE754.BinarySingleNaN.
From Verif Require Import Model.Num Model.NumX Model.NumB Model.Vector Model.Common
  Model.Fresnel Spec.RVec Spec.ShadeSpec
  Proofs.XBase Proofs.RVecProofs Proofs.ShadeProofs Proofs.MicroProofs.
Local Open Scope R_scope.

(** ** C56 *)

(** the two media and the cosine seen from the side the direction is on *)
Definition near_eta (c a b : R) : R := if Rlt_bool 0 c then a else b.
Definition far_eta (c a b : R) : R := if Rlt_bool 0 c then b else a.

(** the two amplitude ratios *)
Definition ratio (x y : R) : R := (x - y) / (x + y).

Lemma ratio_sq x y : 0 <= x -> 0 <= y -> 0 < x + y -> 0 <= ratio x y * ratio x y <= 1.
Proof.
  intros Hx Hy H. unfold ratio. assert (-1 <= (x - y) / (x + y) <= 1).
  { split; apply Rmult_le_reg_r with (x + y); auto; unfold Rdiv; rewrite Rmult_assoc, Rinv_l; lra. }
  set (z := (x - y) / (x + y)) in *. clearbody z. split; [apply Rle_0_sqr|nra].
Qed.

Lemma dielectric_fin c a b : 0 < a -> 0 < b -> -1 <= c <= 1 ->
  let ei := near_eta c a b in let et := far_eta c a b in let s := ei / et * sqrt (1 - c * c) in
  fr_dielectric (XFin c) (XFin a) (XFin b) =
    if Rle_bool 1 s then XFin 1 else
      let ct := sqrt (1 - s * s) in let ci := Rabs c in
      XFin ((ratio (et * ci) (ei * ct) * ratio (et * ci) (ei * ct) + ratio (ei * ci) (et * ct) * ratio (ei * ci) (et * ct)) / 2).
Proof.
  intros Ha Hb Hc ei et s. unfold fr_dielectric. rewrite x_f0, x_f1, x_f2. xsimp. cbn [xneg]. rewrite x_clamp, rclamp_id by lra. cbn [xlt xmul].
  assert (Pi : 0 < ei) by (unfold ei, near_eta; destruct (Rlt_bool 0 c); lra). assert (Pt : 0 < et) by (unfold et, far_eta; destruct (Rlt_bool 0 c); lra).
  assert (E : (if Rlt_bool 0 c then (XFin a, XFin b, XFin c) else (XFin b, XFin a, XFin (c * - (1)))) = (XFin ei, XFin et, XFin (Rabs c))).
  { unfold ei, et, near_eta, far_eta. destruct (Rlt_bool 0 c) eqn:L; rb.
    - rewrite Rabs_pos_eq by lra. reflexivity.
    - rewrite Rabs_left1 by lra. do 2 f_equal. ring. }
  rewrite E. cbn [xmul xsub]. rewrite x_fmax. replace (1 - Rabs c * Rabs c) with (1 - c * c) by (rewrite <- Rabs_mult, Rabs_pos_eq; nra).
  rewrite Rmax_left by nra. rewrite xsqrt_fin by nra. rewrite (xdiv_fin ei et) by lra. cbn [xmul xle]. fold s.
  destruct (Rle_bool 1 s) eqn:L; [reflexivity|]. rb.
  assert (S0 : 0 <= s). { unfold s. apply Rmult_le_pos; [apply Rlt_le, Rdiv_lt_0_compat; lra|apply sqrt_pos]. }
  cbn [xsub]. rewrite x_fmax, Rmax_left by nra. rewrite xsqrt_fin by nra. cbn [xmul xadd xsub].
  set (ct := sqrt (1 - s * s)). assert (Pc : 0 < ct) by (apply sqrt_lt_R0; nra). pose proof (Rabs_pos c) as P.
  rewrite !xdiv_fin by nra. cbn [xmul xadd]. rewrite xdiv_fin by lra. reflexivity.
Qed.

(** The reflectance is a number in [0,1] for every cosine, and 1 under total internal reflection. *)
Theorem C56_range : forall c a b, 0 < a -> 0 < b ->
  exists r, fr_dielectric (XFin c) (XFin a) (XFin b) = XFin r /\ 0 <= r <= 1.
Proof.
  intros c a b Ha Hb.
  assert (W : forall c, -1 <= c <= 1 -> exists r, fr_dielectric (XFin c) (XFin a) (XFin b) = XFin r /\ 0 <= r <= 1).
  { clear c. intros c Hc. pose proof (dielectric_fin c a b Ha Hb Hc) as E. cbv zeta in E. rewrite E.
    set (ei := near_eta c a b) in *. set (et := far_eta c a b) in *. set (s := ei / et * sqrt (1 - c * c)) in *.
    assert (Pi : 0 < ei) by (unfold ei, near_eta; destruct (Rlt_bool 0 c); lra). assert (Pt : 0 < et) by (unfold et, far_eta; destruct (Rlt_bool 0 c); lra).
    destruct (Rle_bool 1 s) eqn:L; rb; [exists 1; split; [reflexivity|lra]|]. eexists. split; [reflexivity|].
    assert (S0 : 0 <= s). { unfold s. apply Rmult_le_pos; [apply Rlt_le, Rdiv_lt_0_compat; lra|apply sqrt_pos]. }
    set (ct := sqrt (1 - s * s)). assert (Pc : 0 < ct) by (apply sqrt_lt_R0; nra). pose proof (Rabs_pos c) as P.
    pose proof (ratio_sq (et * Rabs c) (ei * ct)) as R1. pose proof (ratio_sq (ei * Rabs c) (et * ct)) as R2.
    specialize (R1 ltac:(nra) ltac:(nra) ltac:(nra)). specialize (R2 ltac:(nra) ltac:(nra) ltac:(nra)). lra. }
  destruct (W (rclamp c (-1) 1) (rclamp_in c (-1) 1 ltac:(lra))) as (r & E & H). exists r. split; [|exact H]. rewrite <- E.
  unfold fr_dielectric. rewrite x_f1. xsimp. cbn [xneg]. rewrite !x_clamp. rewrite (rclamp_id (rclamp c (-1) 1)); [reflexivity|]. apply rclamp_in. lra.
Qed.
Print Assumptions C56_range.

Theorem C56_total_reflection : forall c a b, 0 < a -> 0 < b -> -1 <= c <= 1 ->
  far_eta c a b <= near_eta c a b * sqrt (1 - c * c) -> fr_dielectric (XFin c) (XFin a) (XFin b) = XFin 1.
Proof.
  intros c a b Ha Hb Hc H. rewrite (dielectric_fin c a b Ha Hb Hc). cbv zeta. rewrite Rle_bool_true; [reflexivity|].
  assert (Pt : 0 < far_eta c a b) by (unfold far_eta; destruct (Rlt_bool 0 c); lra).
  apply Rmult_le_reg_r with (far_eta c a b); [auto|]. field_simplify; lra.
Qed.

Lemma sqrt_1_sq x : x * x = 1 -> sqrt (1 - x * x) = 0.
Proof. intros ->. rewrite Rminus_diag_eq by auto. apply sqrt_0. Qed.

Theorem C56_normal_incidence : forall c a b, 0 < a -> 0 < b -> c = 1 \/ c = -1 ->
  fr_dielectric (XFin c) (XFin a) (XFin b) = XFin (((a - b) / (a + b)) * ((a - b) / (a + b))).
Proof.
  intros c a b Ha Hb Hc. assert (C2 : c * c = 1) by (destruct Hc; subst; ring). assert (C1 : Rabs c = 1) by (destruct Hc; subst; [apply Rabs_R1|rewrite Rabs_left; lra]).
  rewrite (dielectric_fin c a b Ha Hb) by (destruct Hc; lra). cbv zeta. rewrite (sqrt_1_sq c C2), !Rmult_0_r. rewrite Rle_bool_false by lra.
  rewrite Rminus_0_r, sqrt_1, C1, !Rmult_1_r. f_equal. unfold ratio, near_eta, far_eta. destruct (Rlt_bool 0 c); field; lra.
Qed.

(** Fresnel's equations: with the transmitted angle from Snell's law, the reflectance is the mean of the
    two squared amplitude ratios. *)
Theorem C56_equations : forall c a b si ci st ct, 0 < a -> 0 < b ->
  let ei := near_eta c a b in let et := far_eta c a b in
  ci = Rabs c -> 0 <= si -> si * si + ci * ci = 1 -> 0 < ct -> 0 <= st -> st * st + ct * ct = 1 -> ei * si = et * st ->
  fr_dielectric (XFin c) (XFin a) (XFin b) =
    XFin (((et * ci - ei * ct) / (et * ci + ei * ct) * ((et * ci - ei * ct) / (et * ci + ei * ct)) +
           (ei * ci - et * ct) / (ei * ci + et * ct) * ((ei * ci - et * ct) / (ei * ci + et * ct))) / 2).
Proof.
  intros c a b si ci st ct Ha Hb ei et Eci Hsi S1 Hct Hst S2 Snell.
  assert (Pi : 0 < ei) by (unfold ei, near_eta; destruct (Rlt_bool 0 c); lra). assert (Pt : 0 < et) by (unfold et, far_eta; destruct (Rlt_bool 0 c); lra).
  assert (Cc : ci * ci = c * c) by (rewrite Eci, <- Rabs_mult, Rabs_pos_eq; nra).
  assert (Hc : -1 <= c <= 1) by nra.
  assert (Es : sqrt (1 - c * c) = si). { replace (1 - c * c) with (si * si) by lra. now apply sqrt_square. }
  rewrite (dielectric_fin c a b Ha Hb Hc). cbv zeta. rewrite Es. fold ei. fold et.
  assert (E : ei / et * si = st). { apply Rmult_eq_reg_l with et; [|lra]. field_simplify; lra. }
  rewrite E. rewrite Rle_bool_false by nra.
  replace (sqrt (1 - st * st)) with ct. 2:{ replace (1 - st * st) with (ct * ct) by lra. symmetry. apply sqrt_square. lra. }
  rewrite <- Eci. reflexivity.
Qed.
Print Assumptions C56_equations.

(** A ray and its refracted partner on the other side see the same reflectance. *)
Theorem C56_partner : forall c ct a b, 0 < a -> 0 < b -> c <> 0 -> -1 <= c <= 1 -> -1 <= ct <= 1 -> c * ct < 0 ->
  near_eta c a b * sqrt (1 - c * c) = far_eta c a b * sqrt (1 - ct * ct) ->
  fr_dielectric (XFin c) (XFin a) (XFin b) = fr_dielectric (XFin ct) (XFin a) (XFin b).
Proof.
  intros c ct a b Ha Hb Hc Rc Rt Opp Snell.
  assert (Sw : near_eta ct a b = far_eta c a b /\ far_eta ct a b = near_eta c a b).
  { unfold near_eta, far_eta. destruct (Rlt_bool 0 c) eqn:A, (Rlt_bool 0 ct) eqn:B; rb; split; auto; nra. }
  destruct Sw as [W1 W2].
  assert (Q1 : sqrt (1 - c * c) * sqrt (1 - c * c) = 1 - c * c) by (apply sqrt_sqrt; nra).
  assert (Q2 : sqrt (1 - ct * ct) * sqrt (1 - ct * ct) = 1 - ct * ct) by (apply sqrt_sqrt; nra).
  assert (A1 : Rabs c * Rabs c = c * c) by (rewrite <- Rabs_mult, Rabs_pos_eq; nra).
  assert (A2 : Rabs ct * Rabs ct = ct * ct) by (rewrite <- Rabs_mult, Rabs_pos_eq; nra).
  assert (C0 : ct <> 0) by nra. pose proof (Rabs_pos_lt c Hc) as P1. pose proof (Rabs_pos_lt ct C0) as P2.
  pose proof (sqrt_pos (1 - c * c)) as S1. pose proof (sqrt_pos (1 - ct * ct)) as S2.
  rewrite (C56_equations c a b (sqrt (1 - c * c)) (Rabs c) (sqrt (1 - ct * ct)) (Rabs ct)); auto; try lra.
  rewrite (C56_equations ct a b (sqrt (1 - ct * ct)) (Rabs ct) (sqrt (1 - c * c)) (Rabs c)); auto; try lra.
  2:{ rewrite W1, W2. lra. }
  rewrite W1, W2. set (x := near_eta c a b). set (y := far_eta c a b). f_equal.
  assert (Px : 0 < x) by (unfold x, near_eta; destruct (Rlt_bool 0 c); lra). assert (Py : 0 < y) by (unfold y, far_eta; destruct (Rlt_bool 0 c); lra).
  set (u := Rabs c) in *. set (v := Rabs ct) in *. field. split; nra.
Qed.
Print Assumptions C56_partner.

Example C56_example : fr_dielectric (XFin 1) (XFin 1) (XFin (3 / 2)) = XFin (/ 25) /\
  fr_dielectric (XFin (- (3 / 5))) (XFin 1) (XFin (3 / 2)) = XFin 1.
Proof.
  split.
  - rewrite C56_normal_incidence by lra. f_equal. field.
  - apply C56_total_reflection; try lra. unfold far_eta, near_eta. rewrite Rlt_bool_false by lra.
    replace (1 - - (3 / 5) * - (3 / 5)) with ((4 / 5) * (4 / 5)) by field. rewrite sqrt_square by lra. lra.
Qed.

(** ** C57 *)

(** one channel of [fr_conductor], in steps *)
Section Channel.
  Local Open Scope f_scope.
  Definition xt0 (c e k : XR) : XR := e * e - k * k - (f1 - c * c).
  Definition xcd (c e k : XR) : XR := fsqrt (xt0 c e k * xt0 c e k + e * e * (k * k) * fofZ 4).
  Definition xca (c e k : XR) : XR := fsqrt ((xcd c e k + xt0 c e k) * fhalf).
  Definition xperp (c e k : XR) : XR :=
    (xcd c e k + c * c - xca c e k * c * f2) / (xcd c e k + c * c + xca c e k * c * f2).
  Definition xt3 (c e k : XR) : XR := xcd c e k * (c * c) + (f1 - c * c) * (f1 - c * c).
  Definition xt4 (c e k : XR) : XR := xca c e k * c * f2 * (f1 - c * c).
  Definition xparl (c e k : XR) : XR := xperp c e k * (xt3 c e k - xt4 c e k) / (xt3 c e k + xt4 c e k).
  Definition cond (c ei et k : XR) : XR :=
    let c := clamp c (- f1) f1 in
    (xparl c (et / ei) (k / ei) + xperp c (et / ei) (k / ei)) * fhalf.
End Channel.

Lemma conductor_channels c (ei et k : V3 XR) : fresnel_conductor ei et k c =
  mkV3 (cond (fabs c) (vx ei) (vx et) (vx k)) (cond (fabs c) (vy ei) (vy et) (vy k)) (cond (fabs c) (vz ei) (vz et) (vz k)).
Proof. destruct ei, et, k. reflexivity. Qed.

(** the same channel on real numbers, with [e] and [k] relative to the outer medium *)
Definition cd (c e k : R) : R := sqrt ((e * e - k * k - (1 - c * c)) * (e * e - k * k - (1 - c * c)) + e * e * (k * k) * 4).
Definition ca (c e k : R) : R := sqrt ((cd c e k + (e * e - k * k - (1 - c * c))) * / 2).
Definition cperp (c e k : R) : R := ratio (cd c e k + c * c) (ca c e k * c * 2).
Definition cparl (c e k : R) : R := ratio (cd c e k * (c * c) + (1 - c * c) * (1 - c * c)) (ca c e k * c * 2 * (1 - c * c)).

Lemma cd_arg t e k : 0 <= t * t + e * e * (k * k) * 4.
Proof. assert (0 <= e * e * (k * k)) by (apply Rmult_le_pos; apply Rle_0_sqr). assert (0 <= t * t) by apply Rle_0_sqr. lra. Qed.

Lemma cd_ge c e k : Rabs (e * e - k * k - (1 - c * c)) <= cd c e k.
Proof.
  unfold cd. set (t := e * e - k * k - (1 - c * c)). rewrite <- sqrt_Rsqr_abs. apply sqrt_le_1_alt. unfold Rsqr.
  assert (0 <= e * e) by nra. assert (0 <= k * k) by nra. nra.
Qed.

Lemma ca_facts c e k : 0 <= ca c e k /\ ca c e k * ca c e k <= cd c e k /\ 2 * (ca c e k * ca c e k) = cd c e k + (e * e - k * k - (1 - c * c)).
Proof.
  pose proof (cd_ge c e k) as H. set (t := e * e - k * k - (1 - c * c)) in *. apply Rabs_le_inv in H.
  assert (Q : ca c e k * ca c e k = (cd c e k + t) * / 2) by (unfold ca; fold t; apply sqrt_sqrt; lra).
  split; [apply sqrt_pos|]. split; lra.
Qed.

Lemma cd_pos c e k : 0 < e -> 0 <= k -> 0 <= c <= 1 -> c = 0 /\ e = 1 /\ k = 0 \/ 0 < cd c e k + c * c.
Proof.
  intros He Hk Hc. assert (0 <= cd c e k) by apply sqrt_pos.
  destruct (Req_dec c 0) as [C0|C0]; [|right; nra].
  destruct (Rle_lt_or_eq_dec _ _ H) as [P|P]; [right; nra|]. left.
  unfold cd in P. symmetry in P. apply sqrt_eq_0 in P; [|apply cd_arg]. subst c.
  set (t := e * e - k * k - (1 - 0 * 0)) in P. assert (T : 0 <= t * t) by apply Rle_0_sqr. assert (K2 : 0 <= (e * k) * (e * k)) by apply Rle_0_sqr.
  replace (e * e * (k * k)) with ((e * k) * (e * k)) in P by ring.
  assert (Z : (e * k) * (e * k) = 0) by lra. assert (Z2 : t * t = 0) by lra. clear P.
  assert (K : k = 0). { apply Rsqr_0_uniq in Z. apply Rmult_integral in Z. destruct Z; lra. }
  apply Rsqr_0_uniq in Z2. unfold t in Z2. subst k. split; auto. split; auto. nra.
Qed.

Lemma cd_pos2 c e k : 0 < e -> 0 <= k -> 0 <= c <= 1 -> 0 < cd c e k * (c * c) + (1 - c * c) * (1 - c * c).
Proof.
  intros He Hk Hc. assert (D : 0 <= cd c e k) by apply sqrt_pos.
  destruct (Req_dec c 1) as [C1|C1]; [|assert (0 < 1 - c * c) by nra; assert (0 <= c * c) by nra; nra].
  assert (E : cd c e k = e * e + k * k).
  { unfold cd. subst c. replace (_ + _) with ((e * e + k * k) * (e * e + k * k)) by ring. apply sqrt_square. nra. }
  rewrite E. subst c. nra.
Qed.

Lemma cond_fin c ei et k : 0 < ei -> 0 < et -> 0 <= k -> 0 <= c <= 1 -> 0 < cd c (et / ei) (k / ei) + c * c ->
  cond (XFin c) (XFin ei) (XFin et) (XFin k) =
  XFin ((cperp c (et / ei) (k / ei) * cparl c (et / ei) (k / ei) + cperp c (et / ei) (k / ei)) * / 2).
Proof.
  intros Hi Ht Hk Hc P.
  assert (He : 0 < et / ei) by (apply Rdiv_lt_0_compat; auto). assert (Hkk : 0 <= k / ei) by (apply Rmult_le_pos; [auto|apply Rlt_le, Rinv_0_lt_compat; auto]).
  pose proof (cd_pos2 c _ _ He Hkk Hc) as P2. pose proof (ca_facts c (et / ei) (k / ei)) as (A0 & A1 & A2). pose proof (cd_ge c (et / ei) (k / ei)) as G. apply Rabs_le_inv in G.
  unfold cond. rewrite x_f1, x_fhalf. xsimp. cbn [xneg].
  rewrite x_clamp, rclamp_id by lra. rewrite (xdiv_fin et ei), (xdiv_fin k ei) by lra. set (e := et / ei) in *. set (q := k / ei) in *.
  assert (E0 : xt0 (XFin c) (XFin e) (XFin q) = XFin (e * e - q * q - (1 - c * c))) by (unfold xt0; rewrite x_f1; xsimp; reflexivity).
  assert (E1 : xcd (XFin c) (XFin e) (XFin q) = XFin (cd c e q)).
  { unfold xcd. rewrite E0. xsimp. cbn [xmul xadd]. apply xsqrt_fin. apply cd_arg. }
  assert (E2 : xca (XFin c) (XFin e) (XFin q) = XFin (ca c e q)).
  { unfold xca. rewrite E0, E1, x_fhalf. xsimp. cbn [xmul xadd]. apply xsqrt_fin. lra. }
  assert (N1 : 0 <= ca c e q * c * 2) by nra. assert (N2 : 0 <= ca c e q * c * 2 * (1 - c * c)) by (apply Rmult_le_pos; nra).
  assert (E3 : xperp (XFin c) (XFin e) (XFin q) = XFin (cperp c e q)).
  { unfold xperp. rewrite E1, E2, x_f2. xsimp. cbn [xmul xadd xsub]. rewrite xdiv_fin by lra. reflexivity. }
  assert (E4 : xt3 (XFin c) (XFin e) (XFin q) = XFin (cd c e q * (c * c) + (1 - c * c) * (1 - c * c))).
  { unfold xt3. rewrite E1, x_f1. xsimp. reflexivity. }
  assert (E5 : xt4 (XFin c) (XFin e) (XFin q) = XFin (ca c e q * c * 2 * (1 - c * c))).
  { unfold xt4. rewrite E2, x_f1, x_f2. xsimp. reflexivity. }
  unfold xparl. rewrite E3, E4, E5. xsimp. cbn [xmul xadd xsub]. rewrite xdiv_fin by lra. cbn [xadd xmul].
  f_equal. unfold cperp, cparl, ratio. field. lra.
Qed.

Lemma ratio_01 x y : 0 <= y <= x -> 0 < x -> 0 <= ratio x y <= 1.
Proof.
  intros Hy Hx. unfold ratio. assert (0 < / (x + y)) by (apply Rinv_0_lt_compat; lra).
  split; [apply Rmult_le_pos; lra|]. apply Rmult_le_reg_r with (x + y); [lra|]. unfold Rdiv. rewrite Rmult_assoc, Rinv_l; lra.
Qed.

Lemma cond_range c ei et k : 0 < ei -> 0 < et -> 0 <= k -> 0 <= c <= 1 -> ~ (c = 0 /\ et = ei /\ k = 0) ->
  exists r, cond (XFin c) (XFin ei) (XFin et) (XFin k) = XFin r /\ 0 <= r <= 1.
Proof.
  intros Hi Ht Hk Hc N.
  assert (He : 0 < et / ei) by (apply Rdiv_lt_0_compat; auto). assert (Hkk : 0 <= k / ei) by (apply Rmult_le_pos; [auto|apply Rlt_le, Rinv_0_lt_compat; auto]).
  destruct (cd_pos c _ _ He Hkk Hc) as [(C0 & E1 & K0)|P].
  { exfalso. apply N. split; [auto|]. split.
    - replace et with (et / ei * ei) by (field; lra). rewrite E1. ring.
    - replace k with (k / ei * ei) by (field; lra). rewrite K0. ring. }
  eexists. split; [apply cond_fin; auto|].
  pose proof (cd_pos2 c _ _ He Hkk Hc) as P2. pose proof (ca_facts c (et / ei) (k / ei)) as (A0 & A1 & _).
  set (e := et / ei) in *. set (q := k / ei) in *.
  assert (R1 : 0 <= cperp c e q <= 1). { apply ratio_01; [|exact P]. split; [nra|]. set (a := ca c e q) in *. assert (Y : 0 <= (a - c) * (a - c)) by apply Rle_0_sqr. replace ((a - c) * (a - c)) with (a * a - a * c * 2 + c * c) in Y by ring. lra. }
  assert (R2 : 0 <= cparl c e q <= 1).
  { apply ratio_01; [|exact P2]. set (a := ca c e q) in *. assert (0 <= 1 - c * c) by nra. split; [assert (0 <= a * c * 2) by nra; nra|].
    assert (Y : 0 <= (a * c - (1 - c * c)) * (a * c - (1 - c * c))) by apply Rle_0_sqr. assert (a * a * (c * c) <= cd c e q * (c * c)) by (apply Rmult_le_compat_r; nra).
    replace ((a * c - (1 - c * c)) * (a * c - (1 - c * c))) with (a * a * (c * c) - a * c * 2 * (1 - c * c) + (1 - c * c) * (1 - c * c)) in Y by ring. lra. }
  set (x := cperp c e q) in *. set (y := cparl c e q) in *. clearbody x y. clear - R1 R2.
  nra.
Qed.

(** a metal other than the outer medium itself reflects something *)
Lemma cond_pos c ei et k : 0 < ei -> 0 < et -> 0 <= k -> 0 <= c <= 1 -> ~ (et = ei /\ k = 0) ->
  exists r, cond (XFin c) (XFin ei) (XFin et) (XFin k) = XFin r /\ 0 < r.
Proof.
  intros Hi Ht Hk Hc N.
  assert (He : 0 < et / ei) by (apply Rdiv_lt_0_compat; auto). assert (Hkk : 0 <= k / ei) by (apply Rmult_le_pos; [auto|apply Rlt_le, Rinv_0_lt_compat; auto]).
  assert (M : ~ (et / ei = 1 /\ k / ei = 0)).
  { intros (E1 & K0). apply N. split.
    - replace et with (et / ei * ei) by (field; lra). rewrite E1. ring.
    - replace k with (k / ei * ei) by (field; lra). rewrite K0. ring. }
  destruct (cd_pos c _ _ He Hkk Hc) as [(_ & A)|P]; [exfalso; auto|].
  eexists. split; [apply cond_fin; auto|].
  pose proof (cd_pos2 c _ _ He Hkk Hc) as P2. pose proof (ca_facts c (et / ei) (k / ei)) as (A0 & A1 & A2).
  set (e := et / ei) in *. set (q := k / ei) in *.
  assert (R2 : 0 <= cparl c e q <= 1).
  { apply ratio_01; [|exact P2]. set (a := ca c e q) in *. assert (0 <= 1 - c * c) by nra. split; [assert (0 <= a * c * 2) by nra; nra|].
    assert (Y : 0 <= (a * c - (1 - c * c)) * (a * c - (1 - c * c))) by apply Rle_0_sqr. assert (a * a * (c * c) <= cd c e q * (c * c)) by (apply Rmult_le_compat_r; nra).
    replace ((a * c - (1 - c * c)) * (a * c - (1 - c * c))) with (a * a * (c * c) - a * c * 2 * (1 - c * c) + (1 - c * c) * (1 - c * c)) in Y by ring. lra. }
  assert (R1 : 0 < cperp c e q).
  { unfold cperp, ratio. apply Rdiv_lt_0_compat; [|nra]. set (a := ca c e q) in *.
    destruct (Rlt_le_dec (a * c * 2) (cd c e q + c * c)) as [|L]; [lra|]. exfalso. apply M.
    assert (Ac : a = c) by nra. assert (Ad : cd c e q = a * a) by nra.
    assert (T : cd c e q = e * e - q * q - (1 - c * c)) by lra.
    assert (Sq : cd c e q * cd c e q = (e * e - q * q - (1 - c * c)) * (e * e - q * q - (1 - c * c)) + e * e * (q * q) * 4) by (unfold cd; apply sqrt_sqrt, cd_arg).
    rewrite T in Sq. assert (Z : e * e * (q * q) = 0) by lra. assert (q = 0).
    { apply Rmult_integral in Z as [Z|Z]; [nra|]. apply Rmult_integral in Z as [Z|Z]; exact Z. }
    split; [|assumption]. assert (e * e = 1) by nra. nra. }
  nra.
Qed.

(** The reflectance of a metal is a number in [0,1] in every channel, except in the single corner
    where the direction is exactly horizontal and the "metal" is the outer medium itself (same index,
    no absorption).  Missing for the full claim: that corner, where the code divides 0 by 0. *)
Theorem C57_range_partial : forall (ei et k : rv) (c : R),
  each (fun x => 0 < x) ei -> each (fun x => 0 < x) et -> each (fun x => 0 <= x) k -> -1 <= c <= 1 ->
  ~ (c = 0 /\ (vx et = vx ei /\ vx k = 0 \/ vy et = vy ei /\ vy k = 0 \/ vz et = vz ei /\ vz k = 0)) ->
  exists r, fresnel_conductor (fin3 ei) (fin3 et) (fin3 k) (XFin c) = fin3 r /\ each (fun x => 0 <= x <= 1) r.
Proof.
  intros ei et k c (I1 & I2 & I3) (T1 & T2 & T3) (K1 & K2 & K3) Hc N. rewrite conductor_channels.
  change (fabs (XFin c)) with (XFin (Rabs c)). unfold fin3. vproj.
  assert (A : 0 <= Rabs c <= 1) by (split; [apply Rabs_pos|apply Rabs_le; lra]).
  assert (Z : Rabs c = 0 -> c = 0) by (intros Q; destruct (Req_dec c 0) as [|W]; auto; apply Rabs_no_R0 in W; lra).
  destruct (cond_range (Rabs c) (vx ei) (vx et) (vx k) I1 T1 K1 A) as (r1 & -> & H1); [intros (Q & R); apply N; split; [auto|tauto]|].
  destruct (cond_range (Rabs c) (vy ei) (vy et) (vy k) I2 T2 K2 A) as (r2 & -> & H2); [intros (Q & R); apply N; split; [auto|tauto]|].
  destruct (cond_range (Rabs c) (vz ei) (vz et) (vz k) I3 T3 K3 A) as (r3 & -> & H3); [intros (Q & R); apply N; split; [auto|tauto]|].
  exists (mkV3 r1 r2 r3). split; [reflexivity|]. unfold each. vproj. auto.
Qed.
Print Assumptions C57_range_partial.

(** The corner: not a number, in exact arithmetic and in binary32. *)
Theorem C57_refuted : exists (ei et k : rv) (c : R),
  each (fun x => 0 < x) ei /\ each (fun x => 0 < x) et /\ each (fun x => 0 <= x) k /\ -1 <= c <= 1 /\
  fresnel_conductor (fin3 ei) (fin3 et) (fin3 k) (XFin c) = mkV3 XNaN XNaN XNaN.
Proof.
  exists (mkV3 1 1 1), (mkV3 1 1 1), v0, 0. unfold each, v0. vproj. repeat split; try lra.
  rewrite conductor_channels. unfold fin3. vproj.
  assert (E : cond (fabs (XFin 0)) (XFin 1) (XFin 1) (XFin 0) = XNaN).
  { unfold cond. rewrite x_f1, x_fhalf. xsimp. cbn [xneg xabs]. rewrite Rabs_R0, x_clamp, rclamp_id by lra. rewrite !xdiv_fin by lra.
    replace (1 / 1) with 1 by field. replace (0 / 1) with 0 by field.
    assert (E0 : xt0 (XFin 0) (XFin 1) (XFin 0) = XFin 0) by (unfold xt0; rewrite x_f1; xsimp; cbn [xmul xsub]; f_equal; ring).
    assert (E1 : xcd (XFin 0) (XFin 1) (XFin 0) = XFin 0).
    { unfold xcd. rewrite E0. xsimp. cbn [xmul xadd]. rewrite xsqrt_fin by lra. f_equal. replace (0 * 0 + _) with 0 by ring. apply sqrt_0. }
    assert (E2 : xca (XFin 0) (XFin 1) (XFin 0) = XFin 0).
    { unfold xca. rewrite E0, E1, x_fhalf. xsimp. cbn [xmul xadd]. rewrite xsqrt_fin by lra. f_equal. replace ((0 + 0) * / 2) with 0 by ring. apply sqrt_0. }
    assert (E3 : xperp (XFin 0) (XFin 1) (XFin 0) = XNaN).
    { unfold xperp. rewrite E1, E2, x_f2. xsimp. cbn [xmul xadd xsub]. unfold xdiv. rewrite !Req_bool_true by ring. reflexivity. }
    rewrite E3. now destruct (xparl (XFin 0) (XFin 1) (XFin 0)). }
  rewrite E. reflexivity.
Qed.

Theorem C57_binary32_refuted : forall L : Libm b32,
  let one := mkV3 (f1 : b32) f1 f1 in let zero := mkV3 (f0 : b32) f0 f0 in
  is_nan (vx (fresnel_conductor one one zero f0)) = true.
Proof. intros L. vm_compute. reflexivity. Qed.
Print Assumptions C57_refuted.

(** at normal incidence: ((e-1)^2 + k^2) / ((e+1)^2 + k^2) *)
Lemma cond_normal : forall ei et k : R, 0 < ei -> 0 < et -> 0 <= k ->
  let e := et / ei in let q := k / ei in
  cond (XFin 1) (XFin ei) (XFin et) (XFin k) = XFin (((e - 1) * (e - 1) + q * q) / ((e + 1) * (e + 1) + q * q)).
Proof.
  intros ei et k Hi Ht Hk e q.
  assert (He : 0 < e) by (apply Rdiv_lt_0_compat; auto). assert (Hq : 0 <= q) by (apply Rmult_le_pos; [auto|apply Rlt_le, Rinv_0_lt_compat; auto]).
  assert (D : cd 1 e q = e * e + q * q).
  { unfold cd. replace (_ + _) with ((e * e + q * q) * (e * e + q * q)) by ring. apply sqrt_square. nra. }
  assert (A : ca 1 e q = e). { unfold ca. rewrite D. replace (_ * / 2) with (e * e) by field. apply sqrt_square. lra. }
  rewrite cond_fin; auto; try lra; fold e; fold q; [|rewrite D; nra]. f_equal. unfold cperp, cparl, ratio. rewrite D, A. field. split; nra.
Qed.

(** with no absorption a metal reflects like a dielectric *)
Lemma cond_dielectric : forall ei et c : R, 0 < ei -> 0 < et -> 0 < c <= 1 ->
  cond (XFin c) (XFin ei) (XFin et) (XFin 0) = fr_dielectric (XFin c) (XFin ei) (XFin et).
Proof.
  intros ei et c Hi Ht Hc. assert (He : 0 < et / ei) by (apply Rdiv_lt_0_compat; auto).
  assert (Z : 0 / ei = 0) by (field; lra).
  assert (P : 0 < cd c (et / ei) (0 / ei) + c * c). { assert (0 <= cd c (et / ei) (0 / ei)) by apply sqrt_pos. nra. }
  rewrite cond_fin by (auto; lra). rewrite Z in *.
  rewrite (dielectric_fin c ei et Hi Ht) by lra. cbv zeta. unfold near_eta, far_eta. rewrite Rlt_bool_true by lra. rewrite (Rabs_pos_eq c) by lra.
  set (e := et / ei) in *. set (s2 := 1 - c * c). assert (S2 : 0 <= s2) by (unfold s2; nra).
  assert (D : cd c e 0 = Rabs (e * e - s2)). { unfold cd. fold s2. rewrite <- sqrt_Rsqr_abs. f_equal. unfold Rsqr. ring. }
  set (s := ei / et * sqrt s2). assert (Es : e * s = sqrt s2) by (unfold s, e; field; lra).
  assert (E2 : e * e * (s * s) = s2) by (rewrite <- (sqrt_sqrt s2 S2), <- Es; ring).
  assert (S0 : 0 <= s). { unfold s. apply Rmult_le_pos; [apply Rlt_le, Rdiv_lt_0_compat; lra|apply sqrt_pos]. }
  destruct (Rle_bool 1 s) eqn:B; rb.
  - assert (e * e <= s2). { rewrite <- E2. assert (1 <= s * s) by nra. assert (0 < e * e) by nra. nra. }
    assert (A : ca c e 0 = 0). { unfold ca. fold s2. rewrite D, Rabs_left1 by lra. replace (_ * / 2) with 0 by field. apply sqrt_0. }
    f_equal. unfold cperp, cparl, ratio. rewrite A. fold s2. pose proof (cd_pos2 c e 0 He (Rle_refl 0) ltac:(lra)) as P2. fold s2 in P2. field. split; lra.
  - assert (G : s2 < e * e). { rewrite <- E2. assert (s * s < 1) by nra. assert (0 < e * e) by nra. nra. }
    set (ct := sqrt (1 - s * s)). assert (Q : ct * ct = 1 - s * s) by (apply sqrt_sqrt; nra). assert (Pc : 0 < ct) by (apply sqrt_lt_R0; nra).
    assert (A : ca c e 0 = e * ct).
    { unfold ca. fold s2. rewrite D, Rabs_pos_eq by lra. replace (_ * / 2) with ((e * ct) * (e * ct)). apply sqrt_square; nra.
      replace (e * ct * (e * ct)) with (e * e * (ct * ct)) by ring. rewrite Q. rewrite <- E2. field. }
    assert (D' : cd c e 0 = e * ct * (e * ct)). { rewrite D, Rabs_pos_eq by lra. replace (e * ct * (e * ct)) with (e * e * (ct * ct)) by ring. rewrite Q. rewrite <- E2. ring. }
    f_equal. unfold cperp, cparl, ratio. rewrite A, D'. fold s2.
    set (a := e * ct) in *. assert (Pa : 0 < a) by (unfold a; nra).
    assert (Ea : e * e = a * a + s2). { unfold a. replace (e * ct * (e * ct)) with (e * e * (ct * ct)) by ring. rewrite Q. lra. }
    assert (Eet : et = e * ei) by (unfold e; field; lra). rewrite Eet.
    assert (Ect : ct = a / e) by (unfold a; field; lra).
    assert (M : 0 < e * ei * c) by (apply Rmult_lt_0_compat; nra). assert (M2 : 0 < e * e * c) by (apply Rmult_lt_0_compat; nra).
    assert (M3 : 0 < ei * ct) by nra. assert (M4 : 0 < ei * c) by nra. assert (M5 : 0 < e * ei * ct) by (apply Rmult_lt_0_compat; nra).
    assert (F1 : (e * ei * c - ei * ct) / (e * ei * c + ei * ct) = (e * e * c - a) / (e * e * c + a)) by (unfold a; field; split; nra).
    assert (F2 : (ei * c - e * ei * ct) / (ei * c + e * ei * ct) = (c - a) / (c + a)) by (unfold a; field; split; nra).
    rewrite F1, F2. clear F1 F2 M M2 M3 M4 M5. clearbody a. clear Eet Ect.
    rewrite Ea.
    replace (a * a + c * c - a * c * 2) with ((a - c) * (a - c)) by ring. replace (a * a + c * c + a * c * 2) with ((a + c) * (a + c)) by ring.
    replace (a * a * (c * c) + s2 * s2 - a * c * 2 * s2) with ((a * c - s2) * (a * c - s2)) by ring.
    replace (a * a * (c * c) + s2 * s2 + a * c * 2 * s2) with ((a * c + s2) * (a * c + s2)) by ring.
    replace ((a * a + s2) * c - a) with ((a - c) * (a * c - s2)) by (unfold s2; ring).
    replace ((a * a + s2) * c + a) with ((a + c) * (a * c + s2)) by (unfold s2; ring).
    assert (0 < a * c + s2) by nra. field. repeat split; nra.
Qed.

Lemma conductor_spectrum c ei et k : fresnel_conductor (spectrum_of ei) (spectrum_of et) (spectrum_of k) c = spectrum_of (cond (fabs c) ei et k).
Proof. rewrite conductor_channels. reflexivity. Qed.

Theorem C57_normal_incidence : forall c ei et k : R, 0 < ei -> 0 < et -> 0 <= k -> c = 1 \/ c = -1 ->
  let e := et / ei in let q := k / ei in
  fresnel_conductor (spectrum_of (XFin ei)) (spectrum_of (XFin et)) (spectrum_of (XFin k)) (XFin c) =
  spectrum_of (XFin (((e - 1) * (e - 1) + q * q) / ((e + 1) * (e + 1) + q * q))).
Proof.
  intros c ei et k Hi Ht Hk Hc e q. rewrite conductor_spectrum. change (fabs (XFin c)) with (XFin (Rabs c)).
  replace (Rabs c) with 1 by (destruct Hc; subst c; [now rewrite Rabs_R1|rewrite Rabs_left; lra]). now rewrite cond_normal.
Qed.

Theorem C57_dielectric : forall ei et c : R, 0 < ei -> 0 < et -> 0 < c <= 1 ->
  fresnel_conductor (spectrum_of (XFin ei)) (spectrum_of (XFin et)) (spectrum_of (XFin 0)) (XFin c) =
  fresnel_dielectric (XFin ei) (XFin et) (XFin c).
Proof.
  intros ei et c Hi Ht Hc. rewrite conductor_spectrum. change (fabs (XFin c)) with (XFin (Rabs c)). rewrite Rabs_pos_eq by lra.
  rewrite cond_dielectric by auto. reflexivity.
Qed.
Print Assumptions C57_normal_incidence.
Print Assumptions C57_dielectric.

(** eta = 2, k = 3 in air, seen straight on *)
Example C57_example : fresnel_conductor (spectrum_of (XFin 1)) (spectrum_of (XFin 2)) (spectrum_of (XFin 3)) (XFin 1) = spectrum_of (XFin (5 / 9)).
Proof. rewrite C57_normal_incidence by lra. do 2 f_equal. field. Qed.
