(** * Directions behind rough surfaces stay finite (C70) *)
From Coq Require Import ZArith Reals Bool List Lra Lia Psatz.
From Flocq Require Import Core BinarySingleNaN.
From Verif Require Import Model.Num Model.NumX Model.NumB Model.Vector Model.Common Model.BBox Model.Interaction Model.Shape Model.Sphere Model.Triangle
  Model.Sampling Model.Reflection Model.Fresnel Model.Microfacet Model.BxDFs.
From Verif Require Import Spec.RVec Spec.SamplerSpec Spec.TameSpec Spec.FinishSpec.
From Verif Require Import Proofs.XBase Proofs.RVecProofs Proofs.BBase Proofs.FLaws Proofs.Bounds Proofs.Lengths Proofs.SteadyProofs Proofs.SteadySphere
  Proofs.SteadySample Proofs.SteadyMirror Proofs.SteadySmooth Proofs.RoughWh.
From Verif Require Import Props.Shading1.
Import ListNotations.
Local Open Scope R_scope.

(** ** Real vectors *)
(** the normal and the first vector of a frame: both of nearly the length 1, or the second of at most the root of 2 and
    nearly perpendicular to the first *)
Definition crisp (N S : rv) : Prop :=
  vdot N N <= 10001 / 10000 /\ (vdot S S <= 10001 / 10000 \/ vdot S S <= 20002 / 10000 /\ Rabs (vdot N S) <= / 10000).

Definition spread (S T N v : rv) : rv := vadd (vadd (vscale (vx v) S) (vscale (vy v) T)) (vscale (vz v) N).
Definition parts (S T N w : rv) : rv := mkV3 (vdot w S) (vdot w T) (vdot w N).

Lemma crisp_K N S : crisp N S -> vdot S S <= 20002 / 10000.
Proof. intros [_ [H|[H _]]]; lra. Qed.

Lemma spread_norm S T N v : crisp N S -> vdot (vsub T (vcross N S)) (vsub T (vcross N S)) <= / 1000000 ->
  vnorm (spread S T N v) <= 14162 / 10000 * vnorm v.
Proof.
  intros [HN HS] HT. set (c := vcross N S) in *. set (e := vsub T c) in *. pose proof (vnorm_nonneg v) as V0.
  assert (E : spread S T N v = vadd (spread S c N v) (vscale (vy v) e)) by (unfold spread, e; apply V3_eq; unfold vadd, vsub, vscale; cbn [vx vy vz]; ring).
  rewrite E. eapply Rle_trans; [apply vnorm_triangle|]. rewrite vnorm_scale.
  assert (He : vnorm e <= / 1000) by (apply norm_le; lra). destruct (comp_norm v) as (_ & cy & _). pose proof (Rabs_pos (vy v)). pose proof (vnorm_nonneg e).
  assert (G1 : Rabs (vy v) * vnorm e <= / 1000 * vnorm v) by nra.
  assert (G2 : vnorm (spread S c N v) <= 141443 / 100000 * vnorm v).
  { apply norm_le; [nra|].
    replace (141443 / 100000 * vnorm v * (141443 / 100000 * vnorm v)) with ((141443 / 100000) * (141443 / 100000) * (vnorm v * vnorm v)) by ring. rewrite vnorm_sq.
    set (x := vx v). set (y := vy v). set (z := vz v).
    assert (X : vdot (spread S c N v) (spread S c N v) = x * x * vdot S S + y * y * vdot c c + z * z * vdot N N + 2 * (x * z) * vdot N S).
    { assert (P1 : vdot S c = 0) by (unfold c; vecs; ring). assert (P2 : vdot N c = 0) by (unfold c; vecs; ring).
      replace (vdot (spread S c N v) (spread S c N v)) with (x * x * vdot S S + y * y * vdot c c + z * z * vdot N N + 2 * (x * z) * vdot N S + 2 * (x * y) * vdot S c + 2 * (y * z) * vdot N c)
        by (unfold spread, x, y, z; vecs; ring). rewrite P1, P2. ring. }
    rewrite X. assert (Xv : vdot v v = x * x + y * y + z * z) by (unfold x, y, z; vecs; ring). rewrite Xv.
    pose proof (vdot_self_nonneg N) as N0. pose proof (vdot_self_nonneg S) as S0.
    assert (Cc : vdot c c = vdot N N * vdot S S - vdot N S * vdot N S) by (unfold c; rewrite lagrange; ring).
    assert (P0 : 0 <= vdot N S * vdot N S) by nra. pose proof (cauchy_schwarz N S) as CS.
    set (nn := vdot N N) in *. set (ss := vdot S S) in *. set (ns := vdot N S) in *. set (cc := vdot c c) in *. clearbody nn ss ns cc x y z.
    assert (X2 : 0 <= x * x) by nra. assert (Y2 : 0 <= y * y) by nra. assert (Z2 : 0 <= z * z) by nra.
    assert (A : 2 * (x * z) * ns <= Rabs ns * (x * x + z * z)).
    { assert (A1 : Rabs (2 * (x * z)) <= x * x + z * z). { pose proof (Rle_0_sqr (x - z)) as Q1. pose proof (Rle_0_sqr (x + z)) as Q2. unfold Rsqr in Q1, Q2. apply Rabs_le. split; lra. }
      eapply Rle_trans; [apply Rle_abs|]. rewrite Rabs_mult, Rmult_comm. apply Rmult_le_compat_l; [apply Rabs_pos|exact A1]. }
    destruct HS as [HS|[HS HP]].
    - assert (Hns : Rabs ns <= 10001 / 10000). { assert (ns * ns <= (10001 / 10000) * (10001 / 10000)) by nra. apply Rabs_le. split; nra. }
      assert (cc <= 10003 / 10000) by nra. pose proof (Rabs_pos ns).
      assert (Rabs ns * (x * x + z * z) <= 10001 / 10000 * (x * x + z * z)) by (apply Rmult_le_compat_r; lra).
      assert (x * x * ss <= x * x * (10001 / 10000)) by (apply Rmult_le_compat_l; lra).
      assert (y * y * cc <= y * y * (10003 / 10000)) by (apply Rmult_le_compat_l; lra).
      assert (z * z * nn <= z * z * (10001 / 10000)) by (apply Rmult_le_compat_l; lra). lra.
    - assert (cc <= 20005 / 10000) by nra. pose proof (Rabs_pos ns).
      assert (Rabs ns * (x * x + z * z) <= / 10000 * (x * x + z * z)) by (apply Rmult_le_compat_r; lra).
      assert (x * x * ss <= x * x * (20002 / 10000)) by (apply Rmult_le_compat_l; lra).
      assert (y * y * cc <= y * y * (20005 / 10000)) by (apply Rmult_le_compat_l; lra).
      assert (z * z * nn <= z * z * (10001 / 10000)) by (apply Rmult_le_compat_l; lra). lra. }
  lra.
Qed.

Lemma parts_norm S T N w : crisp N S -> vdot (vsub T (vcross N S)) (vsub T (vcross N S)) <= / 1000000 ->
  vnorm (parts S T N w) <= 14162 / 10000 * vnorm w.
Proof.
  intros HC HT. set (m := parts S T N w). pose proof (spread_norm S T N m HC HT) as H.
  assert (E : vdot m m = vdot w (spread S T N m)) by (unfold m, parts, spread; vecs; ring).
  pose proof (cauchy_schwarz_norm w (spread S T N m)) as CS. pose proof (Rle_abs (vdot w (spread S T N m))) as A. rewrite <- E in A. rewrite <- E in CS at 1.
  rewrite <- (vnorm_sq m) in A, CS. pose proof (vnorm_nonneg m) as M0. pose proof (vnorm_nonneg w) as W0.
  assert (B : vnorm m * vnorm m <= vnorm w * (14162 / 10000 * vnorm m)) by (eapply Rle_trans; [exact A|]; eapply Rle_trans; [exact CS|]; now apply Rmult_le_compat_l).
  destruct (Req_dec (vnorm m) 0) as [Z|Z]; [rewrite Z; nra|]. apply Rmult_le_reg_r with (vnorm m); lra.
Qed.

Lemma mirrored_norm w h P : vdot h h <= 10015 / 10000 -> vnorm w <= P -> vnorm (vsub (vscale (2 * vdot w h) h) w) <= 10031 / 10000 * P.
Proof.
  intros Hh Hw. pose proof (vnorm_nonneg w). apply norm_le; [lra|].
  replace (vdot _ _) with (vdot w w + 4 * (vdot w h * vdot w h) * (vdot h h - 1)) by (vecs; ring).
  pose proof (cauchy_schwarz w h) as CS. pose proof (vdot_self_nonneg h) as H0. rewrite <- (vnorm_sq w) in *.
  set (d := vdot w h) in *. set (n := vnorm w) in *. set (q := vdot h h) in *. clearbody d n q. assert (0 <= d * d) by nra.
  assert (n * n <= P * P) by nra. assert (d * d <= n * n * (10015 / 10000)) by nra.
  assert (d * d * (q - 1) <= d * d * (15 / 10000)) by (apply Rmult_le_compat_l; lra). nra.
Qed.

Lemma across_norm w h : vdot h h <= 10015 / 10000 -> vnorm (vsub w (vscale (vdot w h) h)) <= vnorm w.
Proof.
  intros Hh. apply norm_le; [apply vnorm_nonneg|]. rewrite vnorm_sq.
  replace (vdot (vsub w (vscale (vdot w h) h)) (vsub w (vscale (vdot w h) h))) with (vdot w w - (vdot w h * vdot w h) * (2 - vdot h h)) by (vecs; ring).
  assert (0 <= vdot w h * vdot w h) by nra. nra.
Qed.

Section Ro.
  Context (L : Libm b32) {T : Type}.
  Local Existing Instance B32_FOps.
  Local Existing Instance B32_FLaws.
  Notation rnb := (@rn b32 (B32_FOps L) (B32_FLaws L)).
  Notation bd := (bd L). Notation vb := (vb L). Notation nan := (nan L). Notation vn := (vn L). Notation has_nan := (has_nan L). Notation val := (val L).
  Notation reach := (reach L).

  Lemma near q r e : Rabs (q - r) <= e -> Rabs q <= Rabs r + e.
  Proof. intros H. replace q with (r + (q - r)) at 1 by ring. eapply Rle_trans; [apply Rabs_triang|]. lra. Qed.

  (** ** reflection on a half vector *)
  Lemma reflect_val (w h : V3 b32) W H P : val w W -> val h H -> vdot H H <= 10015 / 10000 -> vnorm W <= P -> 1 <= P -> 5 * P <= pw 120 ->
    exists V, val (reflect w h) V /\ vnorm V <= 10032 / 10000 * P.
  Proof.
    intros Vw Vh Hh Hw P1 P5. pose proof eta_pos as Et. assert (B7 : pw 120 <= pw 127) by (apply bpow_le; lia).
    assert (H1 : vnorm H <= 101 / 100) by (apply norm_le; lra). pose proof (vnorm_nonneg W) as W0. pose proof (vnorm_nonneg H) as H0.
    destruct (dot_val L w h W H (101 / 100 * P) Vw Vh ltac:(nra) ltac:(lra)) as (d & Ed & Dd).
    assert (C : Rabs (vdot W H) <= 101 / 100 * P). { eapply Rle_trans; [apply cauchy_schwarz_norm|]. nra. }
    pose proof (near _ _ _ Dd) as Nd. assert (Nd' : Rabs d <= 102 / 100 * P) by lra.
    assert (K : forall (x y : b32) X Y, emb x = XFin X -> emb y = XFin Y -> Rabs X <= P -> Rabs Y <= 101 / 100 ->
      exists q, emb (fadd (fneg x) (fmul (fmul y (v3dot w h)) f2)) = XFin q /\ Rabs (q - (2 * vdot W H * Y - X)) <= / 100000 * P).
    { intros x y X Y Ex Ey HX HY.
      assert (M1 : Rabs (Y * d) <= 104 / 100 * P). { rewrite Rabs_mult. pose proof (Rabs_pos Y). pose proof (Rabs_pos d). nra. }
      destruct (mul_any L y _ Y d Ey Ed ltac:(lra)) as (a & Ea & Da). unfold uu in Da. pose proof (near _ _ _ Da) as Na.
      assert (M2 : Rabs (a * 2) <= 21 / 10 * P). { rewrite Rabs_mult, (Rabs_pos_eq 2) by lra. lra. }
      destruct (mul_any L _ f2 a 2 Ea (emb_f2) ltac:(lra)) as (b & Eb & Db). unfold uu in Db. pose proof (near _ _ _ Db) as Nb.
      assert (En : emb (fneg x) = XFin (- X)) by (rewrite emb_neg, Ex; reflexivity).
      assert (M3 : Rabs (- X + b) <= 32 / 10 * P). { eapply Rle_trans; [apply Rabs_triang|]. rewrite Rabs_Ropp. lra. }
      destruct (add_rel L _ _ (- X) b En Eb ltac:(lra)) as (q & Eq & Dq). unfold uu in Dq. exists q. split; [exact Eq|].
      replace (q - (2 * vdot W H * Y - X)) with ((q - (- X + b)) + (b - a * 2) + 2 * (a - Y * d) + 2 * (Y * (d - vdot W H))) by ring.
      eapply Rle_trans; [apply Rabs_triang|]. eapply Rle_trans; [apply Rplus_le_compat_r, Rabs_triang|].
      eapply Rle_trans; [apply Rplus_le_compat_r, Rplus_le_compat_r, Rabs_triang|].
      rewrite (Rabs_mult 2 (a - Y * d)), (Rabs_mult 2 (Y * _)), (Rabs_pos_eq 2) by lra. rewrite (Rabs_mult Y).
      assert (Rabs Y * Rabs (d - vdot W H) <= 101 / 100 * (/ 1000000 * (101 / 100 * P))) by (apply Rmult_le_compat; auto using Rabs_pos). lra. }
    destruct Vw as (w1 & w2 & w3), Vh as (h1 & h2 & h3). destruct (comp_norm W) as (c1 & c2 & c3). destruct (comp_norm H) as (e1 & e2 & e3).
    destruct (K _ _ _ _ w1 h1) as (q1 & E1 & D1); try lra. destruct (K _ _ _ _ w2 h2) as (q2 & E2 & D2); try lra. destruct (K _ _ _ _ w3 h3) as (q3 & E3 & D3); try lra.
    exists (mkV3 q1 q2 q3). split; [repeat split; cbn [reflect v3add v3map2 v3neg v3scale vx vy vz]; assumption|].
    set (m := vsub (vscale (2 * vdot W H) H) W). rewrite (split_sum (mkV3 q1 q2 q3) m). eapply Rle_trans; [apply vnorm_triangle|].
    pose proof (mirrored_norm W H P Hh Hw) as G. fold m in G.
    assert (R : vnorm (vsub (mkV3 q1 q2 q3) m) <= 2 * (/ 100000 * P)) by (apply box_norm; unfold m, vsub, vscale; cbn [vx vy vz]; assumption). lra.
  Qed.

  (** ** refraction on a half vector *)
  Lemma sin2_val (ci : b32) C : emb ci = XFin C -> exists q, emb (fmax (fsub f1 (fmul ci ci)) f0) = XFin q /\ 0 <= q <= 1.
  Proof.
    intros Ec. set (s2 := fmax (fsub f1 (fmul ci ci)) f0).
    assert (N0 : fis_nan (f0 : b32) = false) by reflexivity.
    assert (Cm : exists m, emb (fmul ci ci) = m /\ xle (XFin 0) m = true /\ m <> XNaN).
    { assert (Nc : fis_nan ci = false) by (rewrite emb_nan, Ec; reflexivity). pose proof (sq_nonneg L ci Nc) as S. exists (emb (fmul ci ci)). repeat split; auto.
      intros E0. rewrite E0 in S. discriminate. }
    destruct Cm as (m & Em & Pm & Nm).
    assert (Hu : xle (emb (fsub f1 (fmul ci ci))) (XFin 1) = true).
    { assert (E1 : rnb (XFin 1) = XFin 1) by (exact (rn_pw L 0 ltac:(lia))). rewrite emb_sub, emb_f1, Em.
      pose proof (rn_le (FLaws := B32_FLaws L) (xsub (XFin 1) m) (XFin 1)) as G. rewrite E1 in G. apply G. destruct m as [|[]|m]; try discriminate; [reflexivity|].
      cbn [xsub xneg xadd xle] in *. rb. lra. }
    assert (Nn : fis_nan (fsub f1 (fmul ci ci)) = false). { rewrite emb_nan. destruct (emb (fsub f1 (fmul ci ci))); try discriminate; reflexivity. }
    destruct (fmax_ub _ _ Nn N0) as [_ U]. rewrite emb_le, emb_f0 in U. fold s2 in U.
    assert (U1 : xle (emb s2) (XFin 1) = true).
    { unfold s2. destruct (emb_fmax_cases (fsub f1 (fmul ci ci)) f0) as [-> | -> ]; [exact Hu|]. rewrite emb_f0. cbn. rb. lra. }
    destruct (emb s2) as [|[]|q]; try discriminate. cbn [xle] in U, U1. rb. eauto.
  Qed.

  Lemma cost_val (e s2 : b32) E q : emb e = XFin E -> emb s2 = XFin q -> 0 <= q <= 1 -> 0 < E <= 26 / 10 -> fle f1 (fmul (fmul e e) s2) = false ->
    exists c, emb (fsqrt (fsub f1 (fmul (fmul e e) s2))) = XFin c /\ 0 <= c <= 1.
  Proof.
    intros Ee Eq Hq HE Le. pose proof eta_pos as Et.
    assert (B3 : 8 <= pw 127) by (change 8 with (pw 3); apply bpow_le; lia).
    assert (Bee : Rabs (E * E) <= 7) by (rewrite Rabs_pos_eq; nra).
    destruct (mul_any L e e E E Ee Ee ltac:(lra)) as (ee & Eee & Dee). rewrite (Rabs_pos_eq (E * E)) in * by nra. unfold uu in Dee.
    apply Rabs_le_inv in Dee.
    assert (Pe : 0 <= ee). { assert (Ne : fis_nan e = false) by (rewrite emb_nan, Ee; reflexivity). pose proof (sq_nonneg L e Ne) as S. rewrite Eee in S. cbn in S. now rb. }
    assert (B4 : Rabs (ee * q) <= 8) by (rewrite Rabs_pos_eq; nra).
    destruct (mul_any L _ _ ee q Eee Eq ltac:(lra)) as (t & Ett & _).
    assert (Pt : 0 <= t).
    { pose proof (rn_le (FLaws := B32_FLaws L) (XFin 0) (XFin (ee * q)) ltac:(cbn; rb; nra)) as A. rewrite rn_0 in A. rewrite emb_mul, Eee, Eq in Ett. cbn [xmul] in Ett. rewrite Ett in A. cbn in A. now rb. }
    rewrite emb_le, emb_f1, Ett in Le. cbn [xle] in Le. rb.
    rewrite emb_sqrt, emb_sub, emb_f1, Ett. cbn [xsub xneg xadd].
    assert (A : exists d, rnb (XFin (1 + - t)) = XFin d /\ 0 <= d <= 1).
    { destruct (rn_bd L 0 (1 + - t) ltac:(lia)) as (d & Ed & Hd). { change (pw 0) with 1. apply Rabs_le. lra. }
      exists d. split; auto. pose proof (rn_le (FLaws := B32_FLaws L) (XFin 0) (XFin (1 + - t)) ltac:(cbn; rb; lra)) as A. rewrite rn_0, Ed in A. cbn in A. rb.
      change (pw 0) with 1 in Hd. apply Rabs_le_inv in Hd. lra. }
    destruct A as (d & Ed & Hd). replace (1 - t) with (1 + - t) in * by ring. rewrite Ed, xsqrt_fin by lra.
    assert (S1 : sqrt d <= 1) by (rewrite <- sqrt_1; apply sqrt_le_1_alt; lra). pose proof (sqrt_pos d) as S0.
    destruct (rn_bd L 0 (sqrt d) ltac:(lia)) as (c & Ecc & Hc). { change (pw 0) with 1. rewrite Rabs_pos_eq; auto. }
    exists c. split; auto. pose proof (rn_le (FLaws := B32_FLaws L) (XFin 0) (XFin (sqrt d)) ltac:(cbn; rb; lra)) as A. rewrite rn_0, Ecc in A. cbn in A. rb.
    change (pw 0) with 1 in Hc. apply Rabs_le_inv in Hc. lra.
  Qed.

  Lemma bend_val (w h : V3 b32) (e : b32) W H E P v : val w W -> val h H -> emb e = XFin E -> vdot H H <= 10015 / 10000 -> 0 < E <= 26 / 10 ->
    vnorm W <= P -> 1 <= P -> 8 * P <= pw 120 -> refract w h e = Some v ->
    exists V, val v V /\ vnorm V <= E * P + 11 / 10 + / 10000 * P.
  Proof.
    intros Vw Vh Ee Hh HE Hw P1 P8. pose proof eta_pos as Et. assert (B7 : pw 120 <= pw 127) by (apply bpow_le; lia).
    assert (H1 : vnorm H <= 101 / 100) by (apply norm_le; lra). pose proof (vnorm_nonneg W) as W0. pose proof (vnorm_nonneg H) as H0.
    destruct (dot_val L w h W H (101 / 100 * P) Vw Vh ltac:(nra) ltac:(lra)) as (d & Ed & Dd).
    assert (C : Rabs (vdot W H) <= 101 / 100 * P). { eapply Rle_trans; [apply cauchy_schwarz_norm|]. nra. }
    pose proof (near _ _ _ Dd) as Nd. assert (Nd' : Rabs d <= 102 / 100 * P) by lra.
    unfold refract. cbv zeta. set (ci := v3dot w h) in *. clearbody ci.
    destruct (sin2_val ci d Ed) as (q & Eq & Hq). set (s2 := fmax _ f0) in *. clearbody s2.
    destruct (fle f1 (fmul (fmul e e) s2)) eqn:Le; [discriminate|].
    destruct (cost_val e s2 E q Ee Eq Hq HE Le) as (c & Ect & Hc). set (ct := fsqrt _) in *. clearbody ct.
    intros Ev. apply (f_equal (fun o => match o with Some x => x | None => v end)) in Ev.
    assert (MB : forall u B, Rabs u <= B -> Rabs (u * E) <= 26 / 10 * B).
    { intros u B Hu. rewrite Rabs_mult, (Rabs_pos_eq E) by lra. pose proof (Rabs_pos u). nra. }
    pose proof (MB _ _ Nd') as Md.
    destruct (mul_any L ci e d E Ed Ee ltac:(lra)) as (A & EA & DA). unfold uu in DA. pose proof (near _ _ _ DA) as NA.
    assert (Ek : exists k, emb (fsub (fmul ci e) ct) = XFin k /\ Rabs (k - (A - c)) <= / 1000000 * P).
    { rewrite emb_sub, EA, Ect. cbn [xsub xneg xadd].
      assert (BA : Rabs (A - c) <= 28 / 10 * P + 1). { unfold Rminus. eapply Rle_trans; [apply Rabs_triang|]. rewrite Rabs_Ropp, (Rabs_pos_eq c) by lra. lra. }
      destruct (rn_any L (A - c)) as (k & Ek & Dk); [lra|]. exists k. split; [exact Ek|]. unfold uu in *. lra. }
    destruct Ek as (k & Ek & Dk). set (kf := fsub (fmul ci e) ct) in *. clearbody kf.
    assert (Kk : Rabs (k - (E * vdot W H - c)) <= 5 / 1000000 * P).
    { replace (k - (E * vdot W H - c)) with ((k - (A - c)) + (A - d * E) + (d - vdot W H) * E) by ring.
      eapply Rle_trans; [apply Rabs_triang|]. eapply Rle_trans; [apply Rplus_le_compat_r, Rabs_triang|]. pose proof (MB _ _ Dd). lra. }
    assert (Nk : Rabs k <= 4 * P). { pose proof (near _ _ _ Dk). assert (Rabs (A - c) <= 28 / 10 * P + 1) by (unfold Rminus; eapply Rle_trans; [apply Rabs_triang|]; rewrite Rabs_Ropp, (Rabs_pos_eq c) by lra; lra). lra. }
    assert (K : forall (x y : b32) X Y, emb x = XFin X -> emb y = XFin Y -> Rabs X <= P -> Rabs Y <= 101 / 100 ->
      exists z, emb (fadd (fmul (fneg x) e) (fmul y kf)) = XFin z /\ Rabs (z - (- E * (X - vdot W H * Y) - c * Y)) <= / 50000 * P).
    { intros x y X Y Ex Ey HX HY.
      assert (En : emb (fneg x) = XFin (- X)) by (rewrite emb_neg, Ex; reflexivity).
      pose proof (MB (- X) P ltac:(rewrite Rabs_Ropp; exact HX)) as M1.
      destruct (mul_any L _ e (- X) E En Ee ltac:(lra)) as (a & Ea & Da). unfold uu in Da. pose proof (near _ _ _ Da) as Na.
      assert (M2 : Rabs (Y * k) <= 404 / 100 * P). { rewrite Rabs_mult. pose proof (Rabs_pos Y). pose proof (Rabs_pos k). nra. }
      destruct (mul_any L y kf Y k Ey Ek ltac:(lra)) as (b & Eb & Db). unfold uu in Db. pose proof (near _ _ _ Db) as Nb.
      assert (M3 : Rabs (a + b) <= 7 * P). { eapply Rle_trans; [apply Rabs_triang|]. lra. }
      destruct (add_rel L _ _ a b Ea Eb ltac:(lra)) as (z & Ez & Dz). unfold uu in Dz. exists z. split; [exact Ez|].
      replace (z - (- E * (X - vdot W H * Y) - c * Y)) with ((z - (a + b)) + (a - - X * E) + (b - Y * k) + Y * (k - (E * vdot W H - c))) by ring.
      eapply Rle_trans; [apply Rabs_triang|]. eapply Rle_trans; [apply Rplus_le_compat_r, Rabs_triang|].
      eapply Rle_trans; [apply Rplus_le_compat_r, Rplus_le_compat_r, Rabs_triang|]. rewrite (Rabs_mult Y (k - _)).
      assert (Rabs Y * Rabs (k - (E * vdot W H - c)) <= 101 / 100 * (5 / 1000000 * P)) by (apply Rmult_le_compat; auto using Rabs_pos). lra. }
    destruct Vw as (w1 & w2 & w3), Vh as (h1 & h2 & h3). destruct (comp_norm W) as (c1 & c2 & c3). destruct (comp_norm H) as (e1 & e2 & e3).
    destruct (K _ _ _ _ w1 h1) as (q1 & E1 & D1); try lra. destruct (K _ _ _ _ w2 h2) as (q2 & E2 & D2); try lra. destruct (K _ _ _ _ w3 h3) as (q3 & E3 & D3); try lra.
    exists (mkV3 q1 q2 q3). rewrite <- Ev. split; [repeat split; cbn [v3add v3map2 v3neg v3scale vx vy vz]; assumption|].
    set (m := vsub (vscale (- E) (vsub W (vscale (vdot W H) H))) (vscale c H)). rewrite (split_sum (mkV3 q1 q2 q3) m). eapply Rle_trans; [apply vnorm_triangle|].
    assert (R : vnorm (vsub (mkV3 q1 q2 q3) m) <= 2 * (/ 50000 * P)) by (apply box_norm; unfold m, vsub, vscale; cbn [vx vy vz]; assumption).
    assert (G : vnorm m <= E * P + 101 / 100).
    { assert (Em : m = vadd (vscale (- E) (vsub W (vscale (vdot W H) H))) (vscale (- c) H)) by (unfold m; apply V3_eq; unfold vsub, vadd, vscale; cbn [vx vy vz]; ring).
      rewrite Em. eapply Rle_trans; [apply vnorm_triangle|]. rewrite !vnorm_scale, !Rabs_Ropp, (Rabs_pos_eq E), (Rabs_pos_eq c) by lra.
      pose proof (across_norm W H Hh) as A1. assert (E * vnorm (vsub W (vscale (vdot W H) H)) <= E * P) by (apply Rmult_le_compat_l; lra).
      assert (c * vnorm H <= 1 * (101 / 100)) by (apply Rmult_le_compat; lra). lra. }
    lra.
  Qed.

  (** ** into the frame and back *)
  Lemma in_val (b : bsdf b32) w S Tv N W rho : val (bs_s b) S -> val (bs_t b) Tv -> val (bs_sn b) N -> val w W -> crisp N S ->
    vdot (vsub Tv (vcross N S)) (vsub Tv (vcross N S)) <= / 1000000 -> vnorm W <= rho -> 1 <= rho -> 24 * rho <= pw 120 ->
    exists P, val (world_to_local b w) P /\ vnorm P <= 14163 / 10000 * rho.
  Proof.
    intros Vs Vt Vn Vw HC HT HW R1 R2. pose proof (vnorm_nonneg W) as W0.
    assert (S1 : vnorm S <= 16 / 10) by (apply norm_le; pose proof (crisp_K N S HC); lra).
    assert (N1 : vnorm N <= 16 / 10) by (apply norm_le; destruct HC; lra).
    assert (T1 : vnorm Tv <= 16 / 10).
    { rewrite (split_sum Tv (vcross N S)). eapply Rle_trans; [apply vnorm_triangle|].
      assert (vnorm (vcross N S) <= 1598 / 1000).
      { apply norm_le; [lra|]. rewrite lagrange. pose proof (vdot_self_nonneg N). pose proof (vdot_self_nonneg S). pose proof (crisp_K N S HC). destruct HC. nra. }
      assert (vnorm (vsub Tv (vcross N S)) <= / 1000) by (apply norm_le; lra). lra. }
    pose proof (vnorm_nonneg S). pose proof (vnorm_nonneg N). pose proof (vnorm_nonneg Tv).
    destruct (dot_val L w (bs_s b) W S (16 / 10 * rho) Vw Vs ltac:(nra) ltac:(lra)) as (x & Ex & Dx).
    destruct (dot_val L w (bs_t b) W Tv (16 / 10 * rho) Vw Vt ltac:(nra) ltac:(lra)) as (y & Ey & Dy).
    destruct (dot_val L w (bs_sn b) W N (16 / 10 * rho) Vw Vn ltac:(nra) ltac:(lra)) as (z & Ez & Dz).
    exists (mkV3 x y z). split; [repeat split; assumption|].
    rewrite (split_sum (mkV3 x y z) (parts S Tv N W)). eapply Rle_trans; [apply vnorm_triangle|].
    pose proof (parts_norm S Tv N W HC HT) as G.
    assert (R : vnorm (vsub (mkV3 x y z) (parts S Tv N W)) <= 2 * (/ 1000000 * (16 / 10 * rho))) by (apply box_norm; unfold parts, vsub; cbn [vx vy vz]; assumption).
    assert (14162 / 10000 * vnorm W <= 14162 / 10000 * rho) by lra. lra.
  Qed.

  Lemma out_val (b : bsdf b32) v S Tv N V Q : val (bs_s b) S -> val (bs_t b) Tv -> val (bs_sn b) N -> val v V -> crisp N S ->
    vdot (vsub Tv (vcross N S)) (vsub Tv (vcross N S)) <= / 1000000 -> vnorm V <= Q -> 1 <= Q -> 5 * Q <= pw 120 ->
    exists q, val (local_to_world b v) q /\ vnorm q <= 14163 / 10000 * Q.
  Proof.
    intros Vs Vt Vn (v1 & v2 & v3) HC HT HV Q1 Q5.
    assert (S1 : vnorm S <= 16 / 10) by (apply norm_le; pose proof (crisp_K N S HC); lra).
    assert (N1 : vnorm N <= 16 / 10) by (apply norm_le; destruct HC; lra).
    assert (T1 : vnorm Tv <= 16 / 10).
    { rewrite (split_sum Tv (vcross N S)). eapply Rle_trans; [apply vnorm_triangle|].
      assert (vnorm (vcross N S) <= 1598 / 1000).
      { apply norm_le; [lra|]. rewrite lagrange. pose proof (vdot_self_nonneg N). pose proof (vdot_self_nonneg S). pose proof (crisp_K N S HC). destruct HC. nra. }
      assert (vnorm (vsub Tv (vcross N S)) <= / 1000) by (apply norm_le; lra). lra. }
    destruct (comp_norm V) as (c1 & c2 & c3).
    destruct (world_val L (bs_s b) (bs_t b) (bs_sn b) (vx v) (vy v) (vz v) S Tv N (vx V) (vy V) (vz V) Q) as (q & Vq & Dq); auto; try lra.
    exists q. split; [exact Vq|]. rewrite (split_sum q (spread S Tv N V)). eapply Rle_trans; [apply vnorm_triangle|].
    pose proof (spread_norm S Tv N V HC HT) as G. unfold spread in G |- *. 
    assert (14162 / 10000 * vnorm V <= 14162 / 10000 * Q) by lra. lra.
  Qed.

  (** ** frames *)
  Definition clear (i : interaction b32 T) : Prop :=
    has_nan (i_sn i) \/ has_nan (v3normalize (i_dpdu i)) \/
    exists N S, val (i_sn i) N /\ val (v3normalize (i_dpdu i)) S /\ crisp N S.

  Lemma clear_firm i : clear i -> firm L (20002 / 10000) i.
  Proof. intros [H|[H|(N & S & VN & VS & HC)]]; [now left|right; now left|]. right. right. exists N, S. repeat split; try apply VN; try apply VS; [apply HC|now apply crisp_K in HC]. Qed.
  Lemma firm_clear i : firm L (10001 / 10000) i -> clear i.
  Proof. intros [H|[H|(N & S & VN & VS & HN & HS)]]; [now left|right; now left|]. right. right. exists N, S. repeat split; auto; try apply VN; try apply VS. Qed.

  Lemma quot_any (w l : b32) c lv : emb w = XFin c -> emb l = XFin lv -> lv <> 0 -> Rabs (c / lv) <= pw 127 ->
    exists r, emb (fdiv w l) = XFin r /\ Rabs (r - c / lv) <= uu * Rabs (c / lv) + eta.
  Proof. intros Ew El Hl H. rewrite emb_div, Ew, El, xdiv_fin by congruence. now apply rn_any. Qed.

  Lemma quot_small c lv k j : Rabs c <= pw k -> pw j <= lv -> (k - j <= 127)%Z -> Rabs (c / lv) <= pw 127.
  Proof.
    intros Hc Hl H. pose proof (bpow_gt_0 radix2 j) as Pj. unfold Rdiv. rewrite Rabs_mult, Rabs_inv, (Rabs_pos_eq lv) by lra.
    apply Rle_trans with (pw k * / pw j).
    - apply Rmult_le_compat; auto using Rabs_pos; [left; apply Rinv_0_lt_compat; lra|]. apply Rinv_le_contravar; lra.
    - rewrite <- bpow_opp, <- bpow_plus. apply bpow_le. lia.
  Qed.

  Lemma sphere_clear (s : sphere b32) r t i d : tame_sphere s -> sp_interaction (T := T) s r t = (i, d) -> clear i.
  Proof.
    intros H. destruct (tame_radius L s H) as (rr & Er & Hr). unfold sp_interaction.
    pose proof (sphere_point L (ray_position r t) (sp_radius s) rr Er Hr) as SP. cbv zeta in SP.
    set (p := v3scale (ray_position r t) _) in *. clearbody p. cbv zeta.
    destruct (sp_partials p) as [du dv] eqn:Ep. intros E.
    pose proof (f_equal fst E) as Ei. cbn [fst] in Ei. clear E. rewrite <- Ei. clear Ei i. unfold clear. cbn [i_sn i_dpdu].
    destruct SP as [N|(Vp & _ & Lp)]; [now left|]. right.
    pose proof (f_equal fst Ep) as Ed. cbn [fst sp_partials] in Ed. rewrite <- Ed. clear Ep Ed du dv.
    assert (B : vb 30 (mkV3 (fmul (fmul (fofZ (-2)) fpi) (vy p)) (fmul (fmul f2 fpi) (vx p)) f0)).
    { destruct Vp as (Vx & Vy & Vz). repeat split; cbn [vx vy vz].
      - apply (bd_mono L (1 + 2 + 22)); [lia|]. apply bd_mul; [lia| |exact Vy]. apply bd_mul; [lia| |apply bd_pi]. apply (bd_Z L 1 (-2)); cbn; lia.
      - apply (bd_mono L (1 + 2 + 22)); [lia|]. apply bd_mul; [lia| |exact Vx]. apply bd_mul; [lia|apply bd_2|apply bd_pi].
      - apply bd_0. }
    destruct (vb_val L 22 p Vp) as (P & VP & P1 & P2 & P3). pose proof (pw50 22 ltac:(lia)) as P22.
    (* the vector is perpendicular to the point, nearly *)
    assert (Ort : exists D, val (mkV3 (fmul (fmul (fofZ (-2)) fpi) (vy p)) (fmul (fmul f2 fpi) (vx p)) f0) D /\ vz D = 0 /\
      exists a, Rabs (vx D + a * vy P) <= uu * Rabs (a * vy P) + eta /\ Rabs (vy D - a * vx P) <= uu * Rabs (a * vx P) + eta).
    { destruct (bd_mul L 1 2 f2 fpi ltac:(lia) (bd_2 L) (bd_pi L)) as (a & Ea & Ha).
      assert (Ea' : emb (fmul (fofZ (-2)) fpi : b32) = XFin (- a)).
      { destruct (bd_pi L) as (pi & Epi & _). assert (E2 : emb (fofZ (-2) : b32) = XFin (-2)) by (apply emb_ofZ_exact; cbn; lia).
        rewrite emb_mul, E2, Epi. cbn [xmul]. rewrite emb_mul, emb_f2, Epi in Ea. cbn [xmul] in Ea.
        replace (-2 * pi) with (- (2 * pi)) by ring. change (XFin (- (2 * pi))) with (xneg (XFin (2 * pi))). rewrite rn_opp, Ea. reflexivity. }
      destruct VP as (E1 & E2 & E3).
      assert (M : forall x q, Rabs q <= pw 22 -> Rabs x <= pw (1 + 2) -> Rabs (x * q) <= pw 127).
      { intros x q Hq Hx. rewrite Rabs_mult. apply Rle_trans with (pw (1 + 2) * pw 22); [apply Rmult_le_compat; auto using Rabs_pos|]. rewrite <- bpow_plus. apply bpow_le. lia. }
      destruct (mul_any L _ _ _ _ Ea' E2 (M _ _ P2 ltac:(rewrite Rabs_Ropp; exact Ha))) as (d1 & F1 & D1).
      destruct (mul_any L _ _ _ _ Ea E1 (M _ _ P1 Ha)) as (d2 & F2 & D2).
      exists (mkV3 d1 d2 0). split; [repeat split; cbn [vx vy vz]; auto; apply emb_f0|]. split; [reflexivity|]. exists a. cbn [vx vy]. split; [|exact D2].
      replace (d1 + a * vy P) with (d1 - - a * vy P) by ring. replace (Rabs (a * vy P)) with (Rabs (- a * vy P)) by (rewrite <- Rabs_Ropp; f_equal; ring). exact D1. }
    destruct Ort as (D & VD & DZ & a & O1 & O2).
    set (du := mkV3 _ _ _) in *. clearbody du.
    assert (Db : Rabs (vx D) <= pw 30 /\ Rabs (vy D) <= pw 30 /\ Rabs (vz D) <= pw 30).
    { destruct B as ((x & Ex & Hx) & (y & Ey & Hy) & (z & Ez & Hz)). destruct VD as (G1 & G2 & G3). repeat split; congruence. }
    destruct Db as (D1 & D2 & D3). pose proof (pw50 30 ltac:(lia)) as P30.
    destruct (len_val L du D VD ltac:(lra) ltac:(lra) ltac:(lra)) as (l & El).
    destruct (Req_dec l 0) as [-> |Hl].
    { left. right. right. cbn [v3normalize vx vy vz]. apply div_0_0; [|exact El]. destruct VD as (_ & _ & G3). rewrite G3. congruence. }
    right. destruct (norm_val L du D l VD ltac:(lra) ltac:(lra) ltac:(lra) El Hl) as (S & VS & _ & HS & _). specialize (HS DZ).
    destruct (len_val L p P VP ltac:(lra) ltac:(lra) ltac:(lra)) as (lp & Elp).
    rewrite Elp in Lp. cbn [xle] in Lp. rb. pose proof (bpow_gt_0 radix2 (-24)) as G24. assert (pw (-50) <= pw (-24)) by (apply bpow_le; lia).
    destruct (norm_val L p P lp VP ltac:(lra) ltac:(lra) ltac:(lra) Elp ltac:(lra)) as (N & VN & _ & _ & HN). specialize (HN ltac:(lra)).
    exists N, S. repeat split; try apply VN; try apply VS; auto. right. split; [exact HS|].
    (* nearly perpendicular *)
    pose proof eta_pos as Et. destruct (val_finite L du D VD) as (Nx & Ny & Nz). pose proof (len_min L du l Nx Ny Nz El Hl) as Hm. pose proof (bpow_gt_0 radix2 (-75)) as P75.
    assert (C : forall (v : V3 b32) V U lv k j, val v V -> val (v3normalize v) U -> emb (v3length v) = XFin lv -> pw j <= lv -> lv <> 0 -> (k - j <= 127)%Z ->
      Rabs (vx V) <= pw k -> Rabs (vy V) <= pw k -> Rabs (vz V) <= pw k ->
      Rabs (vx U - vx V / lv) <= uu * Rabs (vx V / lv) + eta /\ Rabs (vy U - vy V / lv) <= uu * Rabs (vy V / lv) + eta /\ Rabs (vz U - vz V / lv) <= uu * Rabs (vz V / lv) + eta).
    { intros v V U lv k j (A1 & A2 & A3) (U1 & U2 & U3) Elv Hj Hlv Hkj K1 K2 K3. cbn [v3normalize vx vy vz] in U1, U2, U3.
      destruct (quot_any _ _ _ _ A1 Elv Hlv (quot_small _ _ k j K1 Hj Hkj)) as (r1 & R1 & Q1).
      destruct (quot_any _ _ _ _ A2 Elv Hlv (quot_small _ _ k j K2 Hj Hkj)) as (r2 & R2 & Q2).
      destruct (quot_any _ _ _ _ A3 Elv Hlv (quot_small _ _ k j K3 Hj Hkj)) as (r3 & R3 & Q3).
      assert (r1 = vx U) by congruence. assert (r2 = vy U) by congruence. assert (r3 = vz U) by congruence. subst. auto. }
    destruct (C p P N lp 22%Z (-24)%Z VP VN Elp ltac:(lra) ltac:(lra) ltac:(lia) P1 P2 P3) as (n1 & n2 & _).
    destruct (C du D S l 30%Z (-75)%Z VD VS El ltac:(lra) Hl ltac:(lia) D1 D2 D3) as (s1 & s2 & s3).
    rewrite DZ in s3. unfold Rdiv in s3. rewrite Rmult_0_l, Rabs_R0, Rmult_0_r, Rminus_0_r, Rplus_0_l in s3.
    assert (N1 : vnorm N <= 101 / 100) by (apply norm_le; lra). assert (S1 : vnorm S <= 15 / 10) by (apply norm_le; lra).
    destruct (comp_norm N) as (cn1 & cn2 & cn3). destruct (comp_norm S) as (cs1 & cs2 & cs3). unfold uu in *.
    assert (Bk : forall q x z, Rabs (q - x) <= / 16777216 * Rabs x + eta -> Rabs q <= z -> z <= 15 / 10 -> Rabs x <= z + / 1000000 /\ Rabs (q - x) <= / 5000000).
    { intros q x z Hd Hq Hz. assert (Rabs x <= Rabs q + Rabs (q - x)). { replace x with (q + - (q - x)) at 1 by ring. eapply Rle_trans; [apply Rabs_triang|]. rewrite Rabs_Ropp. lra. } lra. }
    destruct (Bk _ _ (101 / 100) n1 ltac:(lra) ltac:(lra)) as [bn1 en1]. destruct (Bk _ _ (101 / 100) n2 ltac:(lra) ltac:(lra)) as [bn2 en2].
    destruct (Bk _ _ (15 / 10) s1 ltac:(lra) ltac:(lra)) as [bs1 es1]. destruct (Bk _ _ (15 / 10) s2 ltac:(lra) ltac:(lra)) as [bs2 es2].
    (* the errors of the vector, divided by its length *)
    assert (El5 : eta / l <= / 1000000000).
    { assert (eta <= pw (-75) * / 1000000000).
      { apply Rle_trans with (pw (-75) * pw (-75)); [unfold eta; rewrite <- bpow_plus; apply bpow_le; lia|]. apply Rmult_le_compat_l; [lra|]. apply Rle_trans with (pw (-40)); [apply bpow_le; lia|cbn; lra]. }
      unfold Rdiv. apply Rmult_le_reg_r with l; [lra|]. rewrite Rmult_assoc, Rinv_l by lra. assert (pw (-75) * / 1000000000 <= l * / 1000000000) by (apply Rmult_le_compat_r; lra). lra. }
    assert (Il : 0 < / l) by (apply Rinv_0_lt_compat; lra).
    assert (Ce : forall dd e x, Rabs e <= / 16777216 * Rabs x + eta -> Rabs x <= Rabs dd + Rabs e -> Rabs (dd / l) <= 16 / 10 -> Rabs (e / l) <= / 1000000).
    { intros dd e x He Hx Hd. pose proof (Rabs_pos dd). assert (Rabs e <= / 16000000 * Rabs dd + 2 * eta) by lra.
      unfold Rdiv in *. rewrite Rabs_mult, (Rabs_pos_eq (/ l)) in * by lra.
      assert (Rabs e * / l <= (/ 16000000 * Rabs dd + 2 * eta) * / l) by (apply Rmult_le_compat_r; lra). lra. }
    set (e1 := vx D + a * vy P) in *. set (e2 := vy D - a * vx P) in *.
    assert (c1 : Rabs (e1 / l) <= / 1000000).
    { apply (Ce (vx D) e1 (a * vy P)); auto; [|lra]. replace (a * vy P) with (e1 + - vx D) by (unfold e1; ring). eapply Rle_trans; [apply Rabs_triang|]. rewrite Rabs_Ropp. lra. }
    assert (c2 : Rabs (e2 / l) <= / 1000000).
    { apply (Ce (vy D) e2 (a * vx P)); auto; [|lra]. replace (a * vx P) with (vy D + - e2) by (unfold e2; ring). eapply Rle_trans; [apply Rabs_triang|]. rewrite Rabs_Ropp. lra. }
    assert (Id : vdot N S = (vx P / lp) * (e1 / l) + (vy P / lp) * (e2 / l) +
      ((vx N - vx P / lp) * vx S + (vx P / lp) * (vx S - vx D / l)) + ((vy N - vy P / lp) * vy S + (vy P / lp) * (vy S - vy D / l)) + vz N * vz S).
    { unfold vdot, e1, e2. field. lra. }
    rewrite Id.
    assert (M : forall x y X Y, Rabs x <= X -> Rabs y <= Y -> Rabs (x * y) <= X * Y) by (intros; rewrite Rabs_mult; apply Rmult_le_compat; auto using Rabs_pos).
    pose proof (M _ _ _ _ bn1 c1) as t1. pose proof (M _ _ _ _ bn2 c2) as t2.
    assert (ks1 : Rabs (vx S) <= 15 / 10) by lra. assert (ks2 : Rabs (vy S) <= 15 / 10) by lra. pose proof (M _ _ _ _ en1 ks1) as t3.
    pose proof (M _ _ _ _ bn1 es1) as t4. pose proof (M _ _ _ _ en2 ks2) as t5. pose proof (M _ _ _ _ bn2 es2) as t6. pose proof (M _ _ _ _ cn3 s3) as t7.
    assert (vnorm N * eta <= / 1000000) by (pose proof (vnorm_nonneg N); nra).
    repeat (eapply Rle_trans; [apply Rabs_triang|]).
    pose proof (Rabs_triang ((vx P / lp) * (e1 / l)) ((vy P / lp) * (e2 / l))).
    pose proof (Rabs_triang ((vx N - vx P / lp) * vx S) ((vx P / lp) * (vx S - vx D / l))).
    pose proof (Rabs_triang ((vy N - vy P / lp) * vy S) ((vy P / lp) * (vy S - vy D / l))).
    pose proof (Rabs_triang (vx P / lp * (e1 / l) + vy P / lp * (e2 / l)) ((vx N - vx P / lp) * vx S + vx P / lp * (vx S - vx D / l))).
    pose proof (Rabs_triang (vx P / lp * (e1 / l) + vy P / lp * (e2 / l) + ((vx N - vx P / lp) * vx S + vx P / lp * (vx S - vx D / l))) ((vy N - vy P / lp) * vy S + vy P / lp * (vy S - vy D / l))).
    lra.
  Qed.

  (** ** sampled directions *)
  Definition sort (i : interaction b32 T) (x : bxdf b32) : Prop :=
    clear i /\ ((exists r d fr, x = microfacet_reflection r d fr) \/ exists t eta d, x = microfacet_transmission t f1 eta d /\ ratio L (20002 / 10000) eta).

  Lemma sort_sample i b x wo u rho : fair_libm L -> sort i x ->
    bs_sn b = i_sn i -> bs_s b = v3normalize (i_dpdu i) -> bs_t b = v3cross (bs_sn b) (bs_s b) ->
    reach rho wo -> pw 13 <= rho -> 24 * rho <= pw 120 -> in_unit (px u) ->
    forall wi f pdf, bx_sample_f x (world_to_local b wo) u = (wi, f, pdf) -> feq pdf f0 = false -> reach (302 / 100 * rho) (local_to_world b wi).
  Proof.
    intros HL (Fm & Hx) E1 E2 E3 Hwo R1 R2 Hux wi f pdf. pose proof (bpow_gt_0 radix2 13) as G13.
    assert (R0 : 8192 <= rho) by (apply Rle_trans with (pw 13); [cbn; lra|exact R1]).
    set (wl := world_to_local b wo) in *.
    assert (Hl : has_nan wl \/ exists S Tv N P, val (bs_s b) S /\ val (bs_t b) Tv /\ val (bs_sn b) N /\ crisp N S /\
      vdot (vsub Tv (vcross N S)) (vsub Tv (vcross N S)) <= / 1000000 /\ val wl P /\ vnorm P <= 14163 / 10000 * rho).
    { destruct Hwo as [N|(W & VW & HW)]; [left; right; right; unfold wl, world_to_local; cbn [vz]; now apply has_nan_dot_l, vn_has|].
      unfold clear in Fm. rewrite <- E1, <- E2 in Fm. destruct Fm as [N|[N|(N & S & VN & VS & HC)]].
      { left. right; right. unfold wl, world_to_local. cbn [vz]. now apply has_nan_dot_r. }
      { left. left. unfold wl, world_to_local. cbn [vx]. now apply has_nan_dot_r. }
      right. assert (NN : vnorm N <= 2) by (apply norm_le; destruct HC; lra). assert (NS : vnorm S <= 2) by (apply norm_le; pose proof (crisp_K N S HC); lra).
      destruct (cross_val L (bs_sn b) (bs_s b) N S VN VS NN NS) as (Tv & VT & HT). rewrite <- E3 in VT.
      destruct (in_val b wo S Tv N W rho VS VT VN VW HC HT HW ltac:(lra) R2) as (P & VP & HP). exists S, Tv, N, P. auto 10. }
    destruct Hx as [(r & dd & fr & ->)|(t & eta & dd & -> & HR)].
    - cbn [bx_sample_f microfacet_reflection]. unfold mr_sample. intros E Hp.
      destruct (feq (vz wl) f0); [exfalso; pose proof (f_equal snd E) as Q; cbn [bx_none snd] in Q; rewrite <- Q in Hp; cbn in Hp; discriminate|].
      destruct (negb _); [exfalso; pose proof (f_equal snd E) as Q; cbn [bx_none snd] in Q; rewrite <- Q in Hp; cbn in Hp; discriminate|].
      pose proof (f_equal (fun q => fst (fst q)) E) as Q. cbn [fst] in Q. rewrite <- Q. clear E Q Hp wi.
      assert (RN : forall h, nan (v3dot wl h) -> vn (reflect wl h)) by (intros h N; unfold reflect; apply vn_add_r, vn_scale_l, vn_scale_r, N).
      destruct (wh_val L dd wl u HL Hux) as [N|(H & VH & HH)]; [left; apply nan_world, vn_has, RN; now apply has_nan_dot_r|].
      destruct Hl as [N|(S & Tv & N & P & VS & VT & VN & HC & HT & VP & HP)]; [left; apply nan_world, vn_has, RN; now apply has_nan_dot_l|].
      destruct (reflect_val wl (mf_sample_wh dd wl u) P H (14163 / 10000 * rho) VP VH HH HP ltac:(lra) ltac:(lra)) as (V & VV & HV).
      destruct (out_val b _ S Tv N V (10032 / 10000 * (14163 / 10000 * rho)) VS VT VN VV HC HT HV ltac:(lra) ltac:(lra)) as (q & Vq & Hq).
      right. exists q. split; [exact Vq|]. lra.
    - cbn [bx_sample_f microfacet_transmission]. unfold mt_sample. intros E Hp.
      destruct (feq (vz wl) f0); [exfalso; pose proof (f_equal snd E) as Q; cbn [bx_none snd] in Q; rewrite <- Q in Hp; cbn in Hp; discriminate|].
      set (h := mf_sample_wh dd wl u) in *. set (e := if flt f0 (cos_theta wl) then fdiv f1 eta else fdiv eta f1) in *.
      destruct (refract wl h e) as [w|] eqn:Er; [|exfalso; pose proof (f_equal snd E) as Q; cbn [bx_none snd] in Q; rewrite <- Q in Hp; cbn in Hp; discriminate].
      pose proof (f_equal (fun q => fst (fst q)) E) as Q. cbn [fst] in Q. rewrite <- Q. clear E Q Hp wi.
      assert (RN : nan (v3dot wl h) -> vn w).
      { intros N. unfold refract in Er. cbv zeta in Er. destruct (fle f1 _); [discriminate|].
        apply (f_equal (fun o => match o with Some z => z | None => w end)) in Er. rewrite <- Er. apply vn_add_r, vn_scale_r, nan_sub_l, nan_mul_l, N. }
      destruct (wh_val L dd wl u HL Hux) as [N|(H & VH & HH)]; [left; apply nan_world, vn_has, RN; now apply has_nan_dot_r|].
      destruct Hl as [N|(S & Tv & N & P & VS & VT & VN & HC & HT & VP & HP)]; [left; apply nan_world, vn_has, RN; now apply has_nan_dot_l|].
      destruct (HR e ltac:(unfold e; destruct (flt f0 (cos_theta wl)); auto)) as (Ev & Ee & HE & HEK).
      assert (HE' : Ev <= 150016 / 100000) by lra.
      destruct (bend_val wl h e P H Ev (14163 / 10000 * rho) w VP VH Ee HH HE HP ltac:(lra) ltac:(lra) Er) as (V & VV & HV).
      assert (HV' : vnorm V <= 150016 / 100000 * (14163 / 10000 * rho) + 11 / 10 + / 10000 * (14163 / 10000 * rho)).
      { eapply Rle_trans; [exact HV|]. assert (Ev * (14163 / 10000 * rho) <= 150016 / 100000 * (14163 / 10000 * rho)) by (apply Rmult_le_compat_r; lra). lra. }
      destruct (out_val b w S Tv N V _ VS VT VN VV HC HT HV' ltac:(lra) ltac:(lra)) as (q & Vq & Hq).
      right. exists q. split; [exact Vq|]. lra.
  Qed.

  Lemma fair_tame : fair_libm L -> tame_libm L.
  Proof. intros H x F. destruct (H x) as [(F' & _)|(A & B & _)]; [congruence|auto]. Qed.

  Lemma sorts_sample K i b u rho : fair_libm L -> 1 <= K <= 25 / 10 -> (forall x, In x (bs_bxdfs b) -> kind L K i x \/ sort i x) -> (length (bs_bxdfs b) <= 100)%nat -> good_frame L i ->
    bs_sn b = i_sn i -> bs_s b = v3normalize (i_dpdu i) -> bs_t b = v3cross (bs_sn b) (bs_s b) ->
    reach rho (i_wo i) -> pw 13 <= rho -> 24 * rho <= pw 120 -> in_unit (px u) -> in_unit (py u) ->
    exists wi f pdf fl, bsdf_sample_f b (i_wo i) u = Ok (wi, f, pdf, fl) /\ (feq pdf f0 = false \/ flt f0 pdf = true -> reach (302 / 100 * rho) wi).
  Proof.
    intros HL HK Hx Hlen HF E1 E2 E3 Hwo R1 R2 Hux Huy.
    assert (NS : exists wi f pdf fl, Ok no_sample = Ok (wi, f, pdf, fl) /\ (feq pdf f0 = false \/ flt f0 pdf = true -> reach (302 / 100 * rho) wi)).
    { exists v3zero, v3zero, f0, 0%Z. split; [reflexivity|]. intros [E|E]; cbn in E; discriminate. }
    unfold bsdf_sample_f. cbv zeta. destruct (Z.of_nat (length (bs_bxdfs b)) =? 0)%Z eqn:Z0; [exact NS|]. apply Z.eqb_neq in Z0.
    destruct (C51_binary32 L (Z.of_nat (length (bs_bxdfs b))) (px u) ltac:(lia) Hux) as [Hp Hr].
    set (k := bsdf_pick _ (px u)) in *.
    destruct (nth_error (bs_bxdfs b) (Z.to_nat k)) as [x|] eqn:En; [|apply nth_error_None in En; lia].
    assert (Ei : idx (bs_bxdfs b) k = Ok x). { unfold idx. destruct (Z.ltb_spec k 0); [lia|]. now rewrite En. }
    rewrite Ei. cbn [rbind]. apply nth_error_In in En.
    destruct (feq (vz (world_to_local b (i_wo i))) f0); [exact NS|].
    destruct (bx_sample_f x (world_to_local b (i_wo i)) (mkP2 (bsdf_remap (Z.of_nat (length (bs_bxdfs b))) (px u)) (py u))) as [[wi f] pdf] eqn:Es.
    destruct (feq pdf f0) eqn:Ep; [exact NS|].
    assert (RW : reach (302 / 100 * rho) (local_to_world b wi)).
    { destruct (Hx x En) as [Hk|Hk].
      - apply (kind_sample L K i b x (i_wo i) (mkP2 (bsdf_remap (Z.of_nat (length (bs_bxdfs b))) (px u)) (py u)) rho (fair_tame HL)) with (f := f) (pdf := pdf); auto.
      - apply (sort_sample i b x (i_wo i) (mkP2 (bsdf_remap (Z.of_nat (length (bs_bxdfs b))) (px u)) (py u)) rho HL) with (f := f) (pdf := pdf); auto. }
    destruct (negb (has_flag x SPECULAR) && (1 <? Z.of_nat (length (bs_bxdfs b)))%Z)%bool; eexists _, _, _, _; (split; [reflexivity|auto]).
  Qed.
End Ro.
