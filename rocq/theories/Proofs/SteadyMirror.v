(** * Directions after reflections: their length grows by a bounded factor (C70) *)
From Coq Require Import ZArith Reals Bool List Lra Lia Psatz.
From Flocq Require Import Core Plus_error Relative BinarySingleNaN.
From Verif Require Import Model.Num Model.NumX Model.NumB Model.Vector Model.Common.
From Verif Require Import Spec.RVec Proofs.XBase Proofs.RVecProofs Proofs.BBase Proofs.FLaws Proofs.Bounds Proofs.Lengths.
Import ListNotations.
Local Open Scope R_scope.

(** ** Real vectors *)
Ltac vecs := unfold vdot, vadd, vsub, vscale, vcross in *; cbn [vx vy vz] in *.

(** two perpendicular directions *)
Lemma bessel s c u K : 0 < K -> vdot s c = 0 -> vdot s s <= K -> vdot c c <= K ->
  vdot s u * vdot s u + vdot c u * vdot c u <= K * vdot u u.
Proof.
  intros HK P Hs Hc. set (a := vdot s u). set (b := vdot c u).
  pose proof (vdot_self_nonneg (vsub (vscale K u) (vadd (vscale a s) (vscale b c)))) as H.
  replace (vdot _ _) with (K * K * vdot u u - 2 * K * (a * a + b * b) + vdot s s * (a * a) + vdot c c * (b * b) + 2 * a * b * vdot s c) in H
    by (unfold a, b; vecs; ring).
  rewrite P in H. assert (0 <= a * a) by nra. assert (0 <= b * b) by nra.
  assert (K * (a * a + b * b) <= K * (K * vdot u u)) by nra. nra.
Qed.

(** the map behind a reflection, and the quadratic form it belongs to *)
Definition mir (s t n w : rv) : rv := vsub (vscale (vdot n w) n) (vadd (vscale (vdot s w) s) (vscale (vdot t w) t)).
Definition mirq (s t n u : rv) : R := vdot n u * vdot n u - (vdot s u * vdot s u + vdot t u * vdot t u).

Lemma mir_norm s t n w m : 0 < m -> (forall u, Rabs (mirq s t n u) <= m * vdot u u) -> vdot (mir s t n w) (mir s t n w) <= m * m * vdot w w.
Proof.
  intros Hm Q. set (v := mir s t n w). set (u := vscale (/ m) v).
  assert (E : mirq s t n (vadd u w) - mirq s t n (vsub u w) = 4 * vdot u v) by (unfold mirq, v, mir; vecs; ring).
  pose proof (Q (vadd u w)) as Q1. pose proof (Q (vsub u w)) as Q2.
  assert (S : vdot (vadd u w) (vadd u w) + vdot (vsub u w) (vsub u w) = 2 * (vdot u u + vdot w w)) by (vecs; ring).
  apply Rabs_le_inv in Q1, Q2.
  assert (B : 4 * vdot u v <= 2 * m * (vdot u u + vdot w w)) by nra.
  assert (U1 : vdot u v = / m * vdot v v) by (unfold u; vecs; ring).
  assert (U2 : vdot u u = / m * / m * vdot v v) by (unfold u; vecs; ring).
  rewrite U1, U2 in B.
  assert (M : m * / m = 1) by (field; lra).
  assert (B' : m * (4 * (/ m * vdot v v)) <= m * (2 * m * (/ m * / m * vdot v v + vdot w w))) by (apply Rmult_le_compat_l; lra).
  replace (m * (4 * (/ m * vdot v v))) with (4 * (m * / m) * vdot v v) in B' by ring.
  replace (m * (2 * m * (/ m * / m * vdot v v + vdot w w))) with (2 * (m * / m) * (m * / m) * vdot v v + 2 * (m * m * vdot w w)) in B' by ring.
  rewrite M in B'. lra.
Qed.

Lemma mir_grows s t n w : vdot n n <= 101 / 100 -> vdot s s <= 252 / 100 ->
  vdot (vsub t (vcross n s)) (vsub t (vcross n s)) <= / 1000000 ->
  vdot (mir s t n w) (mir s t n w) <= (26 / 10) * (26 / 10) * vdot w w.
Proof.
  intros Hn Hs He. apply mir_norm; [lra|]. intros u. unfold mirq.
  set (c := vcross n s) in *. set (e := vsub t c) in *.
  assert (Hc : vdot c c <= 255 / 100).
  { unfold c. rewrite lagrange. pose proof (vdot_self_nonneg n). pose proof (vdot_self_nonneg s). nra. }
  assert (P : vdot s c = 0) by (unfold c; vecs; ring).
  pose proof (bessel s c u (255 / 100) ltac:(lra) P ltac:(lra) Hc) as B.
  assert (T : vdot t u = vdot c u + vdot e u) by (unfold e; vecs; ring).
  pose proof (cauchy_schwarz e u) as Ce. pose proof (cauchy_schwarz n u) as Cn. pose proof (vdot_self_nonneg u) as U.
  pose proof (vdot_self_nonneg e) as E0.
  rewrite T. set (a := vdot s u) in *. set (b := vdot c u) in *. set (d := vdot e u) in *. set (f := vdot n u) in *. set (uu := vdot u u) in *.
  assert (D : d * d <= / 1000000 * uu) by nra. assert (Fn : f * f <= 101 / 100 * uu) by nra.
  assert (0 <= a * a) by nra. assert (0 <= f * f) by nra.
  assert ((b + d) * (b + d) <= (1 + / 100) * (b * b) + 101 * (d * d)).
  { pose proof (Rle_0_sqr (b / 10 - 10 * d)) as Q. unfold Rsqr in Q. nra. }
  pose proof (Rle_0_sqr (b + d)) as Q1. pose proof (Rle_0_sqr b) as Q2. unfold Rsqr in Q1, Q2. clear - B D Fn H H0 H1 Q1 Q2 U.
  apply Rabs_le. split; lra.
Qed.

(** ** Rounding *)
Section Mir.
  Context (L : Libm b32).
  Local Existing Instance B32_FOps.
  Local Existing Instance B32_FLaws.
  Notation rnb := (@rn b32 (B32_FOps L) (B32_FLaws L)).
  Notation bd := (bd L). Notation vb := (vb L).

  Definition uu : R := / 16777216.
  Definition eta : R := pw (-150).
  Lemma eta_pos : 0 < eta < / 1000000000000.
  Proof.
    split; [apply bpow_gt_0|]. apply Rlt_trans with (pw (-50)); [apply bpow_lt; lia|]. cbn. lra.
  Qed.

  Lemma rn_any r : Rabs r <= pw 127 -> exists q, rnb (XFin r) = XFin q /\ Rabs (q - r) <= uu * Rabs r + eta.
  Proof.
    intros H. destruct (rn_bd L 127 r ltac:(lia) H) as (q & Eq & _). exists q. split; [exact Eq|].
    change rnb with (rndX (prec := 24) (emax := 128)) in Eq. unfold rndX in Eq. destruct (Rlt_bool _ _); [|discriminate].
    assert (E : round radix2 (FLT_exp (-149) 24) ZnearestE r = q) by (injection Eq as Eq; exact Eq). clear Eq.
    destruct (error_N_FLT radix2 (-149) 24 ltac:(reflexivity) (fun x => negb (Z.even x)) r) as (e & et & He & Ht & _ & E').
    rewrite E in E'. rewrite E'. replace (r * (1 + e) + et - r) with (r * e + et) by ring.
    eapply Rle_trans; [apply Rabs_triang|]. rewrite Rabs_mult. apply Rplus_le_compat.
    - rewrite Rmult_comm. apply Rmult_le_compat_r; [apply Rabs_pos|]. eapply Rle_trans; [exact He|]. unfold uu. cbn. lra.
    - eapply Rle_trans; [exact Ht|]. unfold eta. replace (pw (-149)) with (2 * pw (-150)); [lra|]. change (-149)%Z with (-150 + 1)%Z. rewrite pw_double. lra.
  Qed.
  (** sums have no absolute error *)
  Lemma add_rel (a b : b32) x y : emb a = XFin x -> emb b = XFin y -> Rabs (x + y) <= pw 127 ->
    exists q, emb (fadd a b) = XFin q /\ Rabs (q - (x + y)) <= uu * Rabs (x + y).
  Proof.
    intros Ea Eb H. destruct (rn_bd L 127 _ ltac:(lia) H) as (q & Eq & _). exists q. rewrite emb_add, Ea, Eb. cbn [xadd]. split; [exact Eq|].
    change rnb with (rndX (prec := 24) (emax := 128)) in Eq. unfold rndX in Eq. destruct (Rlt_bool _ _); [|discriminate].
    assert (E : round radix2 (FLT_exp (-149) 24) ZnearestE (x + y) = q) by (injection Eq as Eq; exact Eq). clear Eq.
    assert (G : forall (c : b32) z, emb c = XFin z -> generic_format radix2 (FLT_exp (-149) 24) z).
    { intros c z Ec. cbn in Ec. apply B2X_fin_inv in Ec as [_ <-]. apply (generic_format_B2R 24 128 c). }
    destruct (FLT_plus_error_N_ex radix2 (-149) 24 (fun x => negb (Z.even x)) x y (G _ _ Ea) (G _ _ Eb)) as (e & He & E').
    rewrite E in E'. rewrite E'. replace ((x + y) * (1 + e) - (x + y)) with ((x + y) * e) by ring.
    rewrite Rabs_mult, Rmult_comm. apply Rmult_le_compat_r; [apply Rabs_pos|]. eapply Rle_trans; [exact He|]. unfold uu, u_ro. cbn. lra.
  Qed.
  Lemma mul_any (a b : b32) x y : emb a = XFin x -> emb b = XFin y -> Rabs (x * y) <= pw 127 ->
    exists q, emb (fmul a b) = XFin q /\ Rabs (q - x * y) <= uu * Rabs (x * y) + eta.
  Proof. intros Ea Eb H. rewrite emb_mul, Ea, Eb. cbn [xmul]. now apply rn_any. Qed.

  (** three products and two sums *)
  Lemma dot_err (a1 b1 a2 b2 a3 b3 : b32) x1 y1 x2 y2 x3 y3 P :
    emb a1 = XFin x1 -> emb b1 = XFin y1 -> emb a2 = XFin x2 -> emb b2 = XFin y2 -> emb a3 = XFin x3 -> emb b3 = XFin y3 ->
    Rabs (x1 * y1) + Rabs (x2 * y2) + Rabs (x3 * y3) <= P -> 1 <= P <= pw 120 ->
    exists q, emb (fadd (fadd (fmul a1 b1) (fmul a2 b2)) (fmul a3 b3)) = XFin q /\ Rabs (q - (x1 * y1 + x2 * y2 + x3 * y3)) <= / 1000000 * P.
  Proof.
    intros E1 F1 E2 F2 E3 F3 HP [P1 P2].
    assert (B : pw 120 * 4 <= pw 127) by (change 4 with (pw 2); rewrite <- bpow_plus; apply bpow_le; lia).
    pose proof eta_pos as Et.
    pose proof (Rabs_pos (x1 * y1)) as N1. pose proof (Rabs_pos (x2 * y2)) as N2. pose proof (Rabs_pos (x3 * y3)) as N3.
    destruct (mul_any a1 b1 x1 y1 E1 F1 ltac:(lra)) as (q1 & G1 & D1). destruct (mul_any a2 b2 x2 y2 E2 F2 ltac:(lra)) as (q2 & G2 & D2).
    destruct (mul_any a3 b3 x3 y3 E3 F3 ltac:(lra)) as (q3 & G3 & D3). unfold uu in *.
    assert (T : forall q r e, Rabs (q - r) <= e -> Rabs q <= Rabs r + e).
    { intros q r e H. replace q with (r + (q - r)) at 1 by ring. eapply Rle_trans; [apply Rabs_triang|]. lra. }
    pose proof (T _ _ _ D1) as T1. pose proof (T _ _ _ D2) as T2. pose proof (T _ _ _ D3) as T3. pose proof (Rabs_triang q1 q2) as A12.
    destruct (add_rel _ _ q1 q2 G1 G2 ltac:(lra)) as (r & Gr & Dr). unfold uu in Dr. pose proof (T _ _ _ Dr) as Tr. pose proof (Rabs_triang r q3) as A3.
    destruct (add_rel _ _ r q3 Gr G3 ltac:(lra)) as (s & Gs & Ds). unfold uu in Ds. exists s. split; [exact Gs|].
    replace (s - (x1 * y1 + x2 * y2 + x3 * y3)) with ((s - (r + q3)) + (r - (q1 + q2)) + ((q1 - x1 * y1) + (q2 - x2 * y2)) + (q3 - x3 * y3)) by ring.
    eapply Rle_trans; [apply Rabs_triang|]. eapply Rle_trans; [apply Rplus_le_compat_r, Rabs_triang|].
    eapply Rle_trans; [apply Rplus_le_compat_r, Rplus_le_compat_r, Rabs_triang|]. pose proof (Rabs_triang (q1 - x1 * y1) (q2 - x2 * y2)). lra.
  Qed.

  Definition val (v : V3 b32) (q : rv) : Prop := emb (vx v) = XFin (vx q) /\ emb (vy v) = XFin (vy q) /\ emb (vz v) = XFin (vz q).

  Lemma abs_dot a b : Rabs (vx a * vx b) + Rabs (vy a * vy b) + Rabs (vz a * vz b) <= vnorm a * vnorm b.
  Proof.
    set (p := fun v : rv => mkV3 (Rabs (vx v)) (Rabs (vy v)) (Rabs (vz v)) : rv).
    assert (N : forall v, vnorm (p v) = vnorm v).
    { intros v. unfold vnorm. f_equal. unfold p. vecs. rewrite <- !Rabs_mult. rewrite !Rabs_pos_eq by nra. reflexivity. }
    pose proof (cauchy_schwarz_norm (p a) (p b)) as C. rewrite !N in C. rewrite !Rabs_mult. eapply Rle_trans; [|exact C].
    change (Rabs (vx a) * Rabs (vx b) + Rabs (vy a) * Rabs (vy b) + Rabs (vz a) * Rabs (vz b)) with (vdot (p a) (p b)). apply Rle_abs.
  Qed.

  Lemma dot_val (a b : V3 b32) x y P : val a x -> val b y -> vnorm x * vnorm y <= P -> 1 <= P <= pw 120 ->
    exists q, emb (v3dot a b) = XFin q /\ Rabs (q - vdot x y) <= / 1000000 * P.
  Proof. intros (A1 & A2 & A3) (B1 & B2 & B3) H HP. apply dot_err; auto. eapply Rle_trans; [apply abs_dot|exact H]. Qed.

  Lemma norm_le a r : 0 <= r -> vdot a a <= r * r -> vnorm a <= r.
  Proof. intros Hr H. unfold vnorm. rewrite <- (sqrt_square r Hr). now apply sqrt_le_1_alt. Qed.
  Lemma comp_norm (a : rv) : Rabs (vx a) <= vnorm a /\ Rabs (vy a) <= vnorm a /\ Rabs (vz a) <= vnorm a.
  Proof. unfold vnorm. repeat apply conj; rewrite <- sqrt_Rsqr_abs; apply sqrt_le_1_alt; unfold Rsqr, vdot; nra. Qed.
  Lemma box_norm (a : rv) r : Rabs (vx a) <= r -> Rabs (vy a) <= r -> Rabs (vz a) <= r -> vnorm a <= 2 * r.
  Proof.
    intros A B C. pose proof (Rabs_pos (vx a)). apply norm_le; [lra|].
    assert (Q : forall t, Rabs t <= r -> t * t <= r * r).
    { intros t Ht. replace (t * t) with (Rabs t * Rabs t) by (unfold Rabs; destruct (Rcase_abs t); lra). pose proof (Rabs_pos t). nra. }
    pose proof (Q _ A). pose proof (Q _ B). pose proof (Q _ C). unfold vdot. nra.
  Qed.

  (** the third vector of a frame *)
  Lemma cross_val (n s : V3 b32) N S : val n N -> val s S -> vnorm N <= 2 -> vnorm S <= 2 ->
    exists t, val (v3cross n s) t /\ vdot (vsub t (vcross N S)) (vsub t (vcross N S)) <= / 1000000.
  Proof.
    intros (N1 & N2 & N3) (S1 & S2 & S3) HN HS. destruct (comp_norm N) as (n1 & n2 & n3). destruct (comp_norm S) as (s1 & s2 & s3).
    pose proof eta_pos as Et.
    assert (B : 16 <= pw 127) by (change 16 with (pw 4); apply bpow_le; lia).
    assert (K : forall (a b c d : b32) x y z w, emb a = XFin x -> emb b = XFin y -> emb c = XFin z -> emb d = XFin w ->
      Rabs x <= 2 -> Rabs y <= 2 -> Rabs z <= 2 -> Rabs w <= 2 -> exists q, emb (fsub (fmul a b) (fmul c d)) = XFin q /\ Rabs (q - (x * y - z * w)) <= / 100000).
    { intros a b c d x y z w Ea Eb Ec Ed Bx By Bz Bw.
      assert (M : forall u v, Rabs u <= 2 -> Rabs v <= 2 -> Rabs (u * v) <= 4) by (intros u v Hu Hv; rewrite Rabs_mult; pose proof (Rabs_pos u); pose proof (Rabs_pos v); nra).
      pose proof (M _ _ Bx By) as M1. pose proof (M _ _ Bz Bw) as M2.
      destruct (mul_any a b x y Ea Eb ltac:(lra)) as (q1 & G1 & D1). destruct (mul_any c d z w Ec Ed ltac:(lra)) as (q2 & G2 & D2). unfold uu in *.
      assert (T : forall q r e, Rabs (q - r) <= e -> Rabs q <= Rabs r + e).
      { intros q r e H. replace q with (r + (q - r)) at 1 by ring. eapply Rle_trans; [apply Rabs_triang|]. lra. }
      pose proof (T _ _ _ D1) as T1. pose proof (T _ _ _ D2) as T2.
      assert (A : Rabs (q1 - q2) <= 9) by (unfold Rminus; eapply Rle_trans; [apply Rabs_triang|]; rewrite Rabs_Ropp; lra).
      rewrite emb_sub, G1, G2. cbn [xsub xadd xneg]. replace (q1 + - q2) with (q1 - q2) by ring.
      destruct (rn_any (q1 - q2) ltac:(lra)) as (q & Eq & Dq). exists q. split; [exact Eq|]. unfold uu in Dq.
      replace (q - (x * y - z * w)) with ((q - (q1 - q2)) + (q1 - x * y) + - (q2 - z * w)) by ring.
      eapply Rle_trans; [apply Rabs_triang|]. rewrite Rabs_Ropp. eapply Rle_trans; [apply Rplus_le_compat_r, Rabs_triang|]. lra. }
    destruct (K _ _ _ _ _ _ _ _ N2 S3 N3 S2) as (q1 & E1 & D1); try lra.
    destruct (K _ _ _ _ _ _ _ _ N3 S1 N1 S3) as (q2 & E2 & D2); try lra.
    destruct (K _ _ _ _ _ _ _ _ N1 S2 N2 S1) as (q3 & E3 & D3); try lra.
    exists (mkV3 q1 q2 q3). split; [repeat split; cbn [v3cross vx vy vz]; assumption|].
    apply Rabs_le_inv in D1, D2, D3. unfold vdot, vsub, vcross. cbn [vx vy vz]. nra.
  Qed.

  Lemma split_sum (a b : rv) : a = vadd b (vsub a b).
  Proof. destruct a as [a1 a2 a3], b as [b1 b2 b3]. unfold vadd, vsub. cbn [vx vy vz]. apply V3_eq; cbn [vx vy vz]; ring. Qed.
  (** reflection, computed *)
  Lemma mirror_val (s t n w : V3 b32) S Tv N W rho :
    val s S -> val t Tv -> val n N -> val w W ->
    vdot N N <= 101 / 100 -> vdot S S <= 252 / 100 -> vdot (vsub Tv (vcross N S)) (vsub Tv (vcross N S)) <= / 1000000 ->
    vnorm W <= rho -> 1 <= rho <= pw 117 ->
    let x := fneg (v3dot w s) in let y := fneg (v3dot w t) in let z := v3dot w n in
    exists q, val (mkV3 (fadd (fadd (fmul (vx s) x) (fmul (vx t) y)) (fmul (vx n) z))
                        (fadd (fadd (fmul (vy s) x) (fmul (vy t) y)) (fmul (vy n) z))
                        (fadd (fadd (fmul (vz s) x) (fmul (vz t) y)) (fmul (vz n) z))) q /\ vnorm q <= 27 / 10 * rho.
  Proof.
    intros Vs Vt Vn Vw HN HS HT HW Hr x y z.
    assert (B : pw 117 * 8 = pw 120) by (change 8 with (pw 3); rewrite <- bpow_plus; reflexivity).
    pose proof (vnorm_nonneg S) as S0. pose proof (vnorm_nonneg N) as N0. pose proof (vnorm_nonneg W) as W0. pose proof (vnorm_nonneg Tv) as T0.
    assert (S1 : vnorm S <= 16 / 10) by (apply norm_le; lra).
    assert (N1 : vnorm N <= 16 / 10) by (apply norm_le; lra).
    assert (T1 : vnorm Tv <= 16 / 10).
    { rewrite (split_sum Tv (vcross N S)).
      eapply Rle_trans; [apply vnorm_triangle|].
      assert (vnorm (vcross N S) <= 1598 / 1000).
      { apply norm_le; [lra|]. rewrite lagrange. pose proof (vdot_self_nonneg N). pose proof (vdot_self_nonneg S). nra. }
      assert (vnorm (vsub Tv (vcross N S)) <= / 1000) by (apply norm_le; lra). lra. }
    destruct (dot_val w s W S (16 / 10 * rho) Vw Vs ltac:(nra) ltac:(lra)) as (a & Ea & Da).
    destruct (dot_val w t W Tv (16 / 10 * rho) Vw Vt ltac:(nra) ltac:(lra)) as (b & Eb & Db).
    destruct (dot_val w n W N (16 / 10 * rho) Vw Vn ltac:(nra) ltac:(lra)) as (c & Ec & Dc).
    assert (Ex : emb x = XFin (- a)) by (unfold x; rewrite emb_neg, Ea; reflexivity).
    assert (Ey : emb y = XFin (- b)) by (unfold y; rewrite emb_neg, Eb; reflexivity).
    fold z in Ec.
    assert (Dd : forall U, vnorm U <= 16 / 10 -> Rabs (vdot W U) <= 16 / 10 * rho).
    { intros U HU. eapply Rle_trans; [apply cauchy_schwarz_norm|]. pose proof (vnorm_nonneg U). nra. }
    assert (T : forall q r e, Rabs (q - r) <= e -> Rabs q <= Rabs r + e).
    { intros q r e H. replace q with (r + (q - r)) at 1 by ring. eapply Rle_trans; [apply Rabs_triang|]. lra. }
    pose proof (T _ _ _ Da) as A1. pose proof (T _ _ _ Db) as B1. pose proof (T _ _ _ Dc) as C1.
    pose proof (Dd S S1). pose proof (Dd N N1). pose proof (Dd Tv T1).
    assert (M : forall u v r, Rabs u <= 16 / 10 -> Rabs v <= r -> Rabs (u * v) <= 16 / 10 * r).
    { intros u v r Hu Hv. rewrite Rabs_mult. pose proof (Rabs_pos u). pose proof (Rabs_pos v). nra. }
    (* one component *)
    assert (K : forall (si ti ni : b32) us ut un, emb si = XFin us -> emb ti = XFin ut -> emb ni = XFin un -> Rabs us <= 16 / 10 -> Rabs ut <= 16 / 10 -> Rabs un <= 16 / 10 ->
      exists q, emb (fadd (fadd (fmul si x) (fmul ti y)) (fmul ni z)) = XFin q /\
        Rabs (q - (vdot N W * un - (vdot S W * us + vdot Tv W * ut))) <= / 10000 * rho).
    { intros si ti ni us ut un Es Et En Bs Bt Bn.
      pose proof (M us (- a) (165 / 100 * rho) Bs ltac:(rewrite Rabs_Ropp; lra)) as M1.
      pose proof (M ut (- b) (165 / 100 * rho) Bt ltac:(rewrite Rabs_Ropp; lra)) as M2.
      pose proof (M un c (165 / 100 * rho) Bn ltac:(lra)) as M3.
      destruct (dot_err si x ti y ni z us (- a) ut (- b) un c (8 * rho) Es Ex Et Ey En Ec ltac:(lra) ltac:(lra)) as (q & Eq & Dq).
      exists q. split; [exact Eq|]. rewrite (vdot_comm N W), (vdot_comm S W), (vdot_comm Tv W).
      pose proof (M us _ _ Bs Da) as R1. pose proof (M ut _ _ Bt Db) as R2. pose proof (M un _ _ Bn Dc) as R3.
      replace (q - (vdot W N * un - (vdot W S * us + vdot W Tv * ut))) with
        ((q - (us * - a + ut * - b + un * c)) + (- (us * (a - vdot W S)) + - (ut * (b - vdot W Tv))) + un * (c - vdot W N)) by ring.
      eapply Rle_trans; [apply Rabs_triang|]. eapply Rle_trans; [apply Rplus_le_compat_r, Rabs_triang|].
      eapply Rle_trans; [apply Rplus_le_compat_r, Rplus_le_compat_l, Rabs_triang|]. rewrite !Rabs_Ropp. lra. }
    destruct Vs as (s1 & s2 & s3), Vt as (t1 & t2 & t3), Vn as (n1 & n2 & n3).
    destruct (comp_norm S) as (cs1 & cs2 & cs3). destruct (comp_norm Tv) as (ct1 & ct2 & ct3). destruct (comp_norm N) as (cn1 & cn2 & cn3).
    destruct (K _ _ _ _ _ _ s1 t1 n1) as (q1 & E1 & D1); try lra.
    destruct (K _ _ _ _ _ _ s2 t2 n2) as (q2 & E2 & D2); try lra.
    destruct (K _ _ _ _ _ _ s3 t3 n3) as (q3 & E3 & D3); try lra.
    exists (mkV3 q1 q2 q3). split; [repeat split; cbn [vx vy vz]; assumption|].
    set (m := mir S Tv N W).
    rewrite (split_sum (mkV3 q1 q2 q3) m).
    eapply Rle_trans; [apply vnorm_triangle|].
    assert (G : vnorm m <= 26 / 10 * rho).
    { apply norm_le; [lra|]. eapply Rle_trans; [apply (mir_grows S Tv N W HN HS HT)|]. rewrite <- (vnorm_sq W). nra. }
    assert (R : vnorm (vsub (mkV3 q1 q2 q3) m) <= 2 * (/ 10000 * rho)).
    { apply box_norm; unfold m, mir, vsub, vadd, vscale; cbn [vx vy vz]; assumption. }
    lra.
  Qed.

  (** ** Normalised vectors *)
  Lemma val_finite v V : val v V -> fis_nan (vx v) = false /\ fis_nan (vy v) = false /\ fis_nan (vz v) = false.
  Proof. intros (A & B & C). rewrite !emb_nan, A, B, C. auto. Qed.

  Lemma sq_val (a : b32) x : emb a = XFin x -> Rabs x <= pw 50 -> exists q, emb (fmul a a) = XFin q /\ 0 <= q /\ Rabs (q - x * x) <= uu * (x * x) + eta.
  Proof.
    intros E H.
    assert (B : x * x <= pw 100).
    { replace (x * x) with (Rabs x * Rabs x) by (unfold Rabs; destruct (Rcase_abs x); lra). change 100%Z with (50 + 50)%Z. rewrite bpow_plus.
      apply Rmult_le_compat; auto using Rabs_pos. }
    assert (P : 0 <= x * x) by nra.
    destruct (mul_any a a x x E E) as (q & Eq & D). { rewrite Rabs_pos_eq by auto. eapply Rle_trans; [exact B|]. apply bpow_le. lia. }
    rewrite (Rabs_pos_eq (x * x)) in D by auto. exists q. split; [exact Eq|]. split; [|exact D].
    assert (N : fis_nan a = false) by (rewrite emb_nan, E; reflexivity).
    pose proof (sq_nonneg L a N) as S. rewrite Eq in S. cbn in S. now rb.
  Qed.

  Lemma sum_val (a b : b32) x y : emb a = XFin x -> emb b = XFin y -> 0 <= x -> 0 <= y -> x + y <= pw 127 ->
    exists q, emb (fadd a b) = XFin q /\ (1 - uu) * (x + y) <= q <= (1 + uu) * (x + y).
  Proof.
    intros Ea Eb Hx Hy H. destruct (add_rel a b x y Ea Eb) as (q & Eq & D). { rewrite Rabs_pos_eq; lra. }
    exists q. split; [exact Eq|]. rewrite (Rabs_pos_eq (x + y)) in D by lra. apply Rabs_le_inv in D. unfold uu in *. lra.
  Qed.

  Lemma sq3_val v V : val v V -> Rabs (vx V) <= pw 50 -> Rabs (vy V) <= pw 50 -> Rabs (vz V) <= pw 50 ->
    exists q, emb (sq3 L v) = XFin q /\ 0 <= q <= pw 110 /\ vdot V V <= 1000001 / 1000000 * (q + 3 * eta) /\
      (vz V = 0 -> vdot V V <= 1000001 / 1000000 * (q + 2 * eta)).
  Proof.
    intros (A & B & C) Hx Hy Hz. pose proof eta_pos as Et.
    destruct (sq_val _ _ A Hx) as (x & Ex & Px & Dx). destruct (sq_val _ _ B Hy) as (y & Ey & Py & Dy). destruct (sq_val _ _ C Hz) as (z & Ez & Pz & Dz).
    apply Rabs_le_inv in Dx, Dy, Dz.
    assert (Q : forall t, Rabs t <= pw 50 -> 0 <= t * t <= pw 100).
    { intros t Ht. split; [nra|]. replace (t * t) with (Rabs t * Rabs t) by (unfold Rabs; destruct (Rcase_abs t); lra). change 100%Z with (50 + 50)%Z. rewrite bpow_plus.
      apply Rmult_le_compat; auto using Rabs_pos. }
    pose proof (Q _ Hx) as Qx. pose proof (Q _ Hy) as Qy. pose proof (Q _ Hz) as Qz.
    assert (B1 : pw 100 * 1000 <= pw 110) by (change 110%Z with (100 + 10)%Z; rewrite (bpow_plus radix2 100 10); apply Rmult_le_compat_l; [apply bpow_ge_0|cbn; lra]).
    assert (B2 : pw 110 <= pw 127) by (apply bpow_le; lia).
    assert (B3 : 1 <= pw 100) by (change 1 with (pw 0); apply bpow_le; lia). unfold uu in *.
    destruct (sum_val _ _ x y Ex Ey Px Py ltac:(lra)) as (s & Es & Ds). unfold uu in Ds.
    destruct (sum_val _ _ s z Es Ez ltac:(lra) Pz ltac:(lra)) as (q & Eq & Dq). unfold uu in Dq.
    exists q. split; [exact Eq|]. unfold vdot. repeat split; try lra. intros Z. rewrite Z in *. lra.
  Qed.

  Lemma norm_val v V l : val v V -> Rabs (vx V) <= pw 50 -> Rabs (vy V) <= pw 50 -> Rabs (vz V) <= pw 50 ->
    emb (v3length v) = XFin l -> l <> 0 ->
    exists U, val (v3normalize v) U /\ vdot U U <= 252 / 100 /\ (vz V = 0 -> vdot U U <= 20002 / 10000) /\ (pw (-50) <= l -> vdot U U <= 10001 / 10000).
  Proof.
    intros Hv Hx Hy Hz El Hl. destruct (val_finite v V Hv) as (Nx & Ny & Nz). pose proof eta_pos as Et.
    pose proof (len_min L v l Nx Ny Nz El Hl) as Hm. pose proof (bpow_gt_0 radix2 (-75)) as P75.
    destruct (sq3_val v V Hv Hx Hy Hz) as (q & Eq & Hq & UB & UZ).
    assert (Eq' := El). unfold v3length in Eq'. fold (sq3 L v) in Eq'. rewrite emb_sqrt, Eq, xsqrt_fin in Eq' by lra.
    pose proof (sqrt_pos q) as Sp.
    assert (Sq : sqrt q <= pw 55). { rewrite <- (sqrt_pw 55). apply sqrt_le_1_alt. apply Hq. }
    destruct (rn_any (sqrt q)) as (l' & El' & Dl). { rewrite Rabs_pos_eq by auto. eapply Rle_trans; [exact Sq|]. apply bpow_le. lia. }
    rewrite Eq' in El'. assert (l' = l) by congruence. subst l'. clear El' Eq'. rewrite (Rabs_pos_eq (sqrt q)) in Dl by auto. apply Rabs_le_inv in Dl. unfold uu in Dl.
    assert (q0 : 0 < q).
    { destruct (Req_dec q 0) as [-> |]; [|lra]. rewrite sqrt_0 in Dl. exfalso. assert (eta < pw (-75)) by (apply bpow_lt; lia). lra. }
    pose proof (pos_min L _ _ Eq q0) as Pm. assert (E149 : pw (-149) = 2 * eta) by (change (-149)%Z with (-150 + 1)%Z; rewrite pw_double; unfold eta; lra).
    assert (Ss : sqrt q * sqrt q = q) by (apply sqrt_sqrt; lra).
    assert (Er : eta <= / 16777216 * l).
    { apply Rle_trans with (pw (-75) * pw (-24)); [unfold eta; rewrite <- bpow_plus; apply bpow_le; lia|]. rewrite Rmult_comm. replace (pw (-24)) with (/ 16777216) by (cbn; lra). lra. }
    assert (Lq : sqrt q <= l * (1000001 / 1000000)) by lra.
    assert (L2 : q <= l * l * (1000003 / 1000000)) by nra.
    assert (Lp : 0 < l) by lra. assert (Li : 0 < / l) by now apply Rinv_0_lt_compat.
    (* the quotients *)
    assert (K : forall c (w : b32), emb w = XFin c -> c * c <= 3 * (l * l) -> exists r, emb (fdiv w (v3length v)) = XFin r /\ r * r <= 1000001 / 1000000 * (c * c * (/ l * / l)) + / 1000000).
    { intros c w Ew Hc. rewrite emb_div, Ew, El by (rewrite El; congruence). rewrite xdiv_fin by auto.
      set (t := c / l). assert (T2 : t * t = c * c * (/ l * / l)) by (unfold t; field; auto).
      assert (T3 : t * t <= 3). { rewrite T2. apply Rmult_le_compat_r with (r := / l * / l) in Hc; [|nra]. replace (3 * (l * l) * (/ l * / l)) with 3 in Hc by (field; auto). exact Hc. }
      assert (Ta : Rabs t <= 2). { apply Rabs_le. clearbody t. clear - T3. split; nra. }
      destruct (rn_any t) as (r & Er' & Dr). { eapply Rle_trans; [exact Ta|]. change 2 with (pw 1). apply bpow_le. lia. }
      exists r. split; [exact Er'|]. rewrite <- T2. clear - Dr Et Ta T3. unfold uu in Dr.
      assert (R : Rabs r <= Rabs t * (1 + / 16777216) + eta). { replace r with (t + (r - t)) by ring. eapply Rle_trans; [apply Rabs_triang|]. lra. }
      replace (r * r) with (Rabs r * Rabs r) by (unfold Rabs; destruct (Rcase_abs r); lra).
      replace (t * t) with (Rabs t * Rabs t) in * by (unfold Rabs; destruct (Rcase_abs t); lra).
      pose proof (Rabs_pos r). pose proof (Rabs_pos t). nra. }
    assert (VV : vdot V V <= 255 / 100 * (l * l)) by nra.
    assert (Cc : vx V * vx V <= vdot V V /\ vy V * vy V <= vdot V V /\ vz V * vz V <= vdot V V) by (unfold vdot; repeat split; nra).
    destruct Hv as (Vx & Vy & Vz).
    assert (L3 : 255 / 100 * (l * l) <= 3 * (l * l)) by nra.
    destruct (K _ _ Vx ltac:(lra)) as (a & Ea & Ha). destruct (K _ _ Vy ltac:(lra)) as (b & Eb & Hb). destruct (K _ _ Vz ltac:(lra)) as (c & Ec & Hc).
    exists (mkV3 a b c). split; [repeat split; assumption|].
    assert (S : vdot (mkV3 a b c) (mkV3 a b c) <= 1000001 / 1000000 * (vdot V V * (/ l * / l)) + 3 / 1000000).
    { unfold vdot. cbn [vx vy vz]. lra. }
    assert (I2 : 0 < / l * / l) by nra.
    assert (Ii : l * l * (/ l * / l) = 1) by (field; auto).
    split; [|split].
    - assert (VV2 : vdot V V <= 2515 / 1000 * (l * l)) by nra.
      apply Rmult_le_compat_r with (r := / l * / l) in VV2; [|lra]. rewrite Rmult_assoc, Ii in VV2. lra.
    - intros Z. specialize (UZ Z). assert (VV2 : vdot V V <= 20001 / 10000 * (l * l)) by nra.
      apply Rmult_le_compat_r with (r := / l * / l) in VV2; [|lra]. rewrite Rmult_assoc, Ii in VV2. lra.
    - intros H50.
      assert (E3 : 3 * eta <= / 100000 * q).
      { assert (pw (-100) <= l * l) by (change (-100)%Z with (-50 + -50)%Z; rewrite bpow_plus; apply Rmult_le_compat; auto; apply bpow_ge_0).
        assert (eta <= / 10000000 * pw (-100)).
        { apply Rle_trans with (pw (-50) * pw (-100)); [unfold eta; rewrite <- bpow_plus; apply bpow_le; lia|]. apply Rmult_le_compat_r; [apply bpow_ge_0|cbn; lra]. }
        assert (l * l * (9 / 10) <= q).
        { assert (l * (99 / 100) <= sqrt q) by lra. rewrite <- Ss. nra. }
        lra. }
      assert (VV2 : vdot V V <= 100005 / 100000 * (l * l)) by nra.
      apply Rmult_le_compat_r with (r := / l * / l) in VV2; [|lra]. rewrite Rmult_assoc, Ii in VV2. lra.
  Qed.
End Mir.
