(** * Directions behind mirrors and clear glass stay finite (C70) *)
From Coq Require Import ZArith Reals Bool List Lra Lia Psatz.
From Flocq Require Import Core BinarySingleNaN.
From Verif Require Import Model.Num Model.NumX Model.NumB Model.Vector Model.Common Model.BBox Model.Interaction Model.Shape Model.Sphere Model.Triangle
  Model.Sampling Model.Reflection Model.Fresnel Model.BxDFs.
From Verif Require Import Spec.RVec Spec.SamplerSpec Spec.TameSpec.
From Verif Require Import Proofs.XBase Proofs.RVecProofs Proofs.BBase Proofs.FLaws Proofs.Bounds Proofs.Lengths Proofs.SteadyProofs Proofs.SteadySphere
  Proofs.SteadySample Proofs.SteadyMirror.
From Verif Require Import Props.Shading1.
Import ListNotations.
Local Open Scope R_scope.

(** the part of a vector along two directions *)
Lemma part_grows s t n w K : 1 <= K -> vdot n n <= 10001 / 10000 -> vdot s s <= K ->
  vdot (vsub t (vcross n s)) (vsub t (vcross n s)) <= / 1000000 ->
  vnorm (vadd (vscale (vdot s w) s) (vscale (vdot t w) t)) <= 10023 / 10000 * K * vnorm w.
Proof.
  intros HK Hn Hs He. set (m := 10023 / 10000 * K). assert (m1 : 1 <= m) by (unfold m; lra).
  set (z := mkV3 0 0 0 : rv).
  assert (Q : forall u, Rabs (mirq s t z u) <= m * vdot u u).
  { intros u. unfold mirq. assert (vdot z u = 0) as -> by (unfold z; vecs; ring).
    set (c := vcross n s) in *. set (e := vsub t c) in *. pose proof (vdot_self_nonneg n). pose proof (vdot_self_nonneg s) as S0.
    assert (Hc : vdot c c <= 10001 / 10000 * K).
    { unfold c. rewrite lagrange. assert (vdot n n * vdot s s <= 10001 / 10000 * K) by (apply Rmult_le_compat; lra).
      pose proof (Rle_0_sqr (vdot n s)) as R0. unfold Rsqr in R0. lra. }
    assert (P : vdot s c = 0) by (unfold c; vecs; ring).
    pose proof (bessel s c u (10001 / 10000 * K) ltac:(lra) P ltac:(lra) Hc) as B.
    assert (T : vdot t u = vdot c u + vdot e u) by (unfold e; vecs; ring).
    pose proof (cauchy_schwarz e u) as Ce. pose proof (vdot_self_nonneg u) as U. pose proof (vdot_self_nonneg e) as E0.
    rewrite T. set (a := vdot s u) in *. set (b := vdot c u) in *. set (d := vdot e u) in *. set (uu := vdot u u) in *.
    assert (D : d * d <= / 1000000 * uu) by nra.
    assert (0 <= a * a) by nra.
    assert ((b + d) * (b + d) <= (1 + / 1000) * (b * b) + 1001 * (d * d)).
    { pose proof (Rle_0_sqr (b / 100 - 10 * d)) as Q. unfold Rsqr in Q. nra. }
    assert (KU : uu <= K * uu) by (rewrite <- (Rmult_1_l uu) at 1; apply Rmult_le_compat_r; auto).
    assert (mu : m * uu = 10023 / 10000 * (K * uu)) by (unfold m; ring).
    pose proof (Rle_0_sqr (b + d)) as Q1. pose proof (Rle_0_sqr b) as Q2. unfold Rsqr in Q1, Q2.
    replace (10001 / 10000 * K * uu) with (10001 / 10000 * (K * uu)) in B by ring. rewrite mu.
    set (ku := K * uu) in *. clearbody ku a b d uu. clear - B D H0 H1 Q1 Q2 U KU.
    apply Rabs_le. split; lra. }
  pose proof (mir_norm s t z w m ltac:(lra) Q) as M.
  replace (vdot (mir s t z w) (mir s t z w)) with (vdot (vadd (vscale (vdot s w) s) (vscale (vdot t w) t)) (vadd (vscale (vdot s w) s) (vscale (vdot t w) t))) in M
    by (unfold mir, z; vecs; ring).
  pose proof (vnorm_nonneg w). apply norm_le; [nra|]. eapply Rle_trans; [exact M|]. rewrite <- (vnorm_sq w). apply Req_le. ring.
Qed.

Section Sm.
  Context (L : Libm b32) {T : Type}.
  Local Existing Instance B32_FOps.
  Local Existing Instance B32_FLaws.
  Notation rnb := (@rn b32 (B32_FOps L) (B32_FLaws L)).
  Notation bd := (bd L). Notation vb := (vb L). Notation nan := (nan L). Notation vn := (vn L). Notation has_nan := (has_nan L). Notation val := (val L).

  (** all components NaN, or finite and of length at most [rho] *)
  Definition reach (rho : R) (d : V3 b32) : Prop := vn d \/ exists W, val d W /\ vnorm W <= rho.

  Lemma reach_mono a b d : a <= b -> reach a d -> reach b d.
  Proof. intros H [N|(W & V & HW)]; [now left|right; exists W; split; [exact V|lra]]. Qed.
  Lemma reach_steady rho d : reach rho d -> steady d.
  Proof.
    intros [N|(W & (A & B & C) & _)]; [now apply (vn_steady L)|]. left.
    assert (K : forall (x : b32) r, emb x = XFin r -> is_nan x = false). { intros x r E. cbn in E. now destruct x. }
    repeat split; eauto.
  Qed.
  Lemma reach_neg rho d : reach rho d -> reach rho (v3neg d).
  Proof.
    intros [N|(W & (A & B & C) & H)]; [left; now apply vn_neg|]. right. exists (vscale (-1) W). split.
    - repeat split; cbn [v3neg vscale vx vy vz]; rewrite emb_neg; [rewrite A|rewrite B|rewrite C]; cbn [xneg]; f_equal; ring.
    - replace (vnorm (vscale (-1) W)) with (vnorm W); [exact H|]. unfold vnorm. f_equal. unfold vdot, vscale. cbn [vx vy vz]. ring.
  Qed.
  Lemma vb_reach k d : vb k d -> reach (2 * pw k) d.
  Proof.
    intros ((x & Ex & Hx) & (y & Ey & Hy) & (z & Ez & Hz)). right. exists (mkV3 x y z). split; [repeat split; assumption|]. now apply box_norm.
  Qed.

  (** a local NaN spreads *)
  Lemma nan_world b v : has_nan v -> vn (local_to_world b v).
  Proof.
    intros [N|[N|N]]; unfold local_to_world; repeat split; cbn [vx vy vz];
      first [apply nan3_1, nan_mul_r, N|apply nan3_2, nan_mul_r, N|apply nan3_3, nan_mul_r, N].
  Qed.

  Lemma sum3_norm a b c A B C (u v w : rv) : Rabs a <= A -> Rabs b <= B -> Rabs c <= C ->
    vnorm (vadd (vadd (vscale a u) (vscale b v)) (vscale c w)) <= A * vnorm u + B * vnorm v + C * vnorm w.
  Proof.
    intros HA HB HC. eapply Rle_trans; [apply vnorm_triangle|]. apply Rplus_le_compat.
    - eapply Rle_trans; [apply vnorm_triangle|]. apply Rplus_le_compat; rewrite vnorm_scale; apply Rmult_le_compat_r; auto using vnorm_nonneg.
    - rewrite vnorm_scale; apply Rmult_le_compat_r; auto using vnorm_nonneg.
  Qed.

  Lemma world_val (s t n : V3 b32) (x y z : b32) S Tv N X Y Z P : val s S -> val t Tv -> val n N -> emb x = XFin X -> emb y = XFin Y -> emb z = XFin Z ->
    vnorm S <= 16 / 10 -> vnorm Tv <= 16 / 10 -> vnorm N <= 16 / 10 -> Rabs X <= P -> Rabs Y <= P -> Rabs Z <= P -> 1 <= P -> 5 * P <= pw 120 ->
    exists q, val (mkV3 (fadd (fadd (fmul (vx s) x) (fmul (vx t) y)) (fmul (vx n) z))
                        (fadd (fadd (fmul (vy s) x) (fmul (vy t) y)) (fmul (vy n) z))
                        (fadd (fadd (fmul (vz s) x) (fmul (vz t) y)) (fmul (vz n) z))) q /\
      vnorm (vsub q (vadd (vadd (vscale X S) (vscale Y Tv)) (vscale Z N))) <= / 100000 * P.
  Proof.
    intros (s1 & s2 & s3) (t1 & t2 & t3) (n1 & n2 & n3) Ex Ey Ez HS HT HN HX HY HZ HP HP5.
    destruct (comp_norm S) as (cs1 & cs2 & cs3). destruct (comp_norm Tv) as (ct1 & ct2 & ct3). destruct (comp_norm N) as (cn1 & cn2 & cn3).
    assert (M : forall u v, Rabs u <= 16 / 10 -> Rabs v <= P -> Rabs (u * v) <= 16 / 10 * P).
    { intros u v Hu Hv. rewrite Rabs_mult. pose proof (Rabs_pos u). pose proof (Rabs_pos v). nra. }
    assert (K : forall (si ti ni : b32) us ut un, emb si = XFin us -> emb ti = XFin ut -> emb ni = XFin un -> Rabs us <= 16 / 10 -> Rabs ut <= 16 / 10 -> Rabs un <= 16 / 10 ->
      exists q, emb (fadd (fadd (fmul si x) (fmul ti y)) (fmul ni z)) = XFin q /\ Rabs (q - (X * us + Y * ut + Z * un)) <= 5 / 1000000 * P).
    { intros si ti ni us ut un Es Et En Bs Bt Bn.
      pose proof (M us X Bs HX) as M1. pose proof (M ut Y Bt HY) as M2. pose proof (M un Z Bn HZ) as M3.
      destruct (dot_err L si x ti y ni z us X ut Y un Z (5 * P) Es Ex Et Ey En Ez ltac:(lra) ltac:(lra)) as (q & Eq & Dq).
      exists q. split; [exact Eq|]. replace (X * us + Y * ut + Z * un) with (us * X + ut * Y + un * Z) by ring. lra. }
    destruct (K _ _ _ _ _ _ s1 t1 n1) as (q1 & E1 & D1); try lra.
    destruct (K _ _ _ _ _ _ s2 t2 n2) as (q2 & E2 & D2); try lra.
    destruct (K _ _ _ _ _ _ s3 t3 n3) as (q3 & E3 & D3); try lra.
    exists (mkV3 q1 q2 q3). split; [repeat split; cbn [vx vy vz]; assumption|].
    replace (/ 100000 * P) with (2 * (5 / 1000000 * P)) by lra.
    apply box_norm; unfold vsub, vadd, vscale; cbn [vx vy vz]; assumption.
  Qed.

  (** ** refraction in the local frame *)
  Lemma times_0 (n k : b32) K : emb n = XFin 0 -> emb k = XFin K -> forall a, emb (fadd a (fmul n k)) = emb a.
  Proof.
    intros En Ek a. rewrite emb_add, (emb_mul n k), En, Ek. cbn [xmul]. rewrite Rmult_0_l, rn_0.
    replace (xadd (emb a) (XFin 0)) with (emb a); [apply rn_emb|]. destruct (emb a) as [|[]|r]; cbn [xadd]; auto. f_equal. ring.
  Qed.

  Lemma refract_val (x y z e : b32) (up : bool) X Y Z E rho : emb x = XFin X -> emb y = XFin Y -> emb z = XFin Z -> emb e = XFin E ->
    (if up then 0 <= Z else Z <= 0) -> Rabs X <= 17 / 10 * rho -> Rabs Y <= 17 / 10 * rho -> Rabs Z <= 17 / 10 * rho -> 0 < E <= 26 / 10 -> 1 <= rho <= pw 117 ->
    forall v, refract (mkV3 x y z) (mkV3 f0 f0 (if up then f1 else fneg f1)) e = Some v ->
    exists X' Y' Z', val v (mkV3 X' Y' Z') /\ Rabs (X' + E * X) <= / 1000000 * rho /\ Rabs (Y' + E * Y) <= / 1000000 * rho /\ Rabs Z' <= 11 / 10 + / 100000 * rho.
  Proof.
    intros Ex Ey Ez Ee Hs HX HY HZ HE Hr v. pose proof (eta_pos) as Et.
    assert (B : pw 117 * 8 = pw 120) by (change 8 with (pw 3); rewrite <- bpow_plus; reflexivity).
    assert (B7 : pw 120 <= pw 127) by (apply bpow_le; lia).
    set (n1 := (if up then f1 else fneg f1) : b32). unfold refract. cbv zeta.
    set (ci := v3dot (mkV3 x y z) (mkV3 f0 f0 n1)).
    assert (En : emb n1 = XFin (if up then 1 else -1)) by (unfold n1; destruct up; rewrite ?emb_neg, emb_f1; reflexivity).
    assert (Ec : emb ci = XFin (Rabs Z)).
    { unfold ci, v3dot. cbn [vx vy vz]. rewrite emb_add, emb_add, (emb_mul x f0), (emb_mul y f0), Ex, Ey, emb_f0. cbn [xmul]. rewrite !Rmult_0_r, rn_0. cbn [xadd].
      rewrite Rplus_0_r, rn_0. rewrite emb_mul, Ez, En. cbn [xmul].
      assert (Em : rnb (XFin (Z * (if up then 1 else -1))) = XFin (Rabs Z)).
      { destruct up.
        - rewrite Rmult_1_r, Rabs_pos_eq by auto. rewrite <- Ez at 1. rewrite rn_emb. exact Ez.
        - rewrite Rabs_left1 by auto. replace (Z * -1) with (- Z) by ring. replace (XFin (- Z)) with (emb (fneg z)) by (rewrite emb_neg, Ez; reflexivity). apply rn_emb. }
      rewrite Em. cbn [xadd]. rewrite Rplus_0_l.
      assert (Er : XFin (Rabs Z) = emb (fabs z)) by (rewrite emb_abs, Ez; reflexivity). rewrite Er. apply rn_emb. }
    clearbody ci.
    set (s2 := fmax (fsub f1 (fmul ci ci)) f0).
    assert (Es : exists q, emb s2 = XFin q /\ 0 <= q <= 1).
    { assert (N0 : fis_nan (f0 : b32) = false) by reflexivity.
      assert (Cm : exists m, emb (fmul ci ci) = m /\ xle (XFin 0) m = true /\ m <> XNaN).
      { assert (Nc : fis_nan ci = false) by (rewrite emb_nan, Ec; reflexivity). pose proof (sq_nonneg L ci Nc) as S. exists (emb (fmul ci ci)). repeat split; auto.
        intros E0. rewrite E0 in S. discriminate. }
      destruct Cm as (m & Em & Pm & Nm).
      assert (Hu : xle (emb (fsub f1 (fmul ci ci))) (XFin 1) = true).
      { assert (E1 : rnb (XFin 1) = XFin 1) by (exact (rn_pw L 0 ltac:(lia))). rewrite emb_sub, emb_f1, Em.
        pose proof (rn_le (FLaws := B32_FLaws L) (xsub (XFin 1) m) (XFin 1)) as G. rewrite E1 in G. apply G. destruct m as [|[]|m]; try discriminate; [reflexivity|].
        cbn [xsub xneg xadd xle] in *. rb. lra. }
      assert (Nn : fis_nan (fsub f1 (fmul ci ci)) = false). { rewrite emb_nan. destruct (emb (fsub f1 (fmul ci ci))); try discriminate; reflexivity. }
      destruct (fmax_ub _ _ Nn N0) as [_ U]. rewrite emb_le, emb_f0 in U. fold s2 in U.
      assert (U1 : xle (emb s2) (XFin 1) = true).
      { unfold s2. destruct (emb_fmax_cases (fsub f1 (fmul ci ci)) f0) as [-> | -> ]; [exact Hu|]. rewrite emb_f0. cbn. rb. lra. }
      destruct (emb s2) as [|[]|q]; try discriminate. cbn [xle] in U, U1. rb. eauto. }
    destruct Es as (q & Eq & Hq). clearbody s2.
    destruct (fle f1 (fmul (fmul e e) s2)) eqn:Le; [discriminate|].
    assert (Ect : exists c, emb (fsqrt (fsub f1 (fmul (fmul e e) s2))) = XFin c /\ 0 <= c <= 1).
    { assert (B3 : 8 <= pw 127) by (change 8 with (pw 3); apply bpow_le; lia).
      assert (Bee : Rabs (E * E) <= 7) by (rewrite Rabs_pos_eq; nra).
      destruct (mul_any L e e E E Ee Ee ltac:(lra)) as (ee & Eee & Dee). rewrite (Rabs_pos_eq (E * E)) in * by nra. unfold uu in Dee.
      apply Rabs_le_inv in Dee.
      assert (Pe : 0 <= ee). { assert (Ne : fis_nan e = false) by (rewrite emb_nan, Ee; reflexivity). pose proof (sq_nonneg L e Ne) as S. rewrite Eee in S. cbn in S. now rb. }
      assert (B4 : Rabs (ee * q) <= 8) by (rewrite Rabs_pos_eq; nra).
      destruct (mul_any L _ _ ee q Eee Eq ltac:(lra)) as (t & Ett & _).
      assert (Pt : 0 <= t).
      { pose proof (rn_le (FLaws := B32_FLaws L) (XFin 0) (XFin (ee * q)) ltac:(cbn; rb; nra)) as A. rewrite rn_0 in A. rewrite emb_mul, Eee, Eq in Ett. cbn [xmul] in Ett. rewrite Ett in A. cbn in A. now rb. }
      rewrite emb_le, emb_f1, Ett in Le. cbn [xle] in Le. rb.
      rewrite emb_sqrt, emb_sub, emb_f1, Ett. cbn [xsub xneg xadd].
      assert (A : exists d, rnb (XFin (1 + - t)) = XFin d /\ 0 <= d <= 1).
      { destruct (rn_bd L 0 (1 + - t) ltac:(lia)) as (d & Ed & Hd). { change (pw 0) with 1. apply Rabs_le. lra. }
        exists d. split; auto. pose proof (rn_le (FLaws := B32_FLaws L) (XFin 0) (XFin (1 + - t)) ltac:(cbn; rb; lra)) as A. rewrite rn_0, Ed in A. cbn in A. rb.
        change (pw 0) with 1 in Hd. apply Rabs_le_inv in Hd. lra. }
      destruct A as (d & Ed & Hd). replace (1 - t) with (1 + - t) in * by ring. rewrite Ed, xsqrt_fin by lra.
      assert (S1 : sqrt d <= 1) by (rewrite <- sqrt_1; apply sqrt_le_1_alt; lra). pose proof (sqrt_pos d) as S0.
      destruct (rn_bd L 0 (sqrt d) ltac:(lia)) as (c & Ecc & Hc). { change (pw 0) with 1. rewrite Rabs_pos_eq; auto. }
      exists c. split; auto. pose proof (rn_le (FLaws := B32_FLaws L) (XFin 0) (XFin (sqrt d)) ltac:(cbn; rb; lra)) as A. rewrite rn_0, Ecc in A. cbn in A. rb.
      change (pw 0) with 1 in Hc. apply Rabs_le_inv in Hc. lra. }
    destruct Ect as (c & Ect & Hc). set (ct := fsqrt _) in *. clearbody ct.
    assert (MB : forall u, Rabs u <= 17 / 10 * rho -> Rabs (u * E) <= 45 / 10 * rho).
    { intros u Hu. rewrite Rabs_mult, (Rabs_pos_eq E) by lra. pose proof (Rabs_pos u). nra. }
    assert (T' : forall q r e, Rabs (q - r) <= e -> Rabs q <= Rabs r + e).
    { intros q0 r e0 H. replace q0 with (r + (q0 - r)) at 1 by ring. eapply Rle_trans; [apply Rabs_triang|]. lra. }
    (* the product of the cosine and the ratio *)
    destruct (mul_any L ci e (Rabs Z) E Ec Ee) as (A & EA & DA). { pose proof (MB Z HZ) as M. rewrite Rabs_mult, Rabs_Rabsolu, <- Rabs_mult. lra. }
    assert (PA : 0 <= A <= 5 * rho).
    { split.
      - pose proof (rn_le (FLaws := B32_FLaws L) (XFin 0) (XFin (Rabs Z * E)) ltac:(cbn; rb; pose proof (Rabs_pos Z); nra)) as G. rewrite rn_0 in G. rewrite emb_mul, Ec, Ee in EA. cbn [xmul] in EA. rewrite EA in G. cbn in G. now rb.
      - pose proof (MB Z HZ) as M. pose proof (T' _ _ _ DA) as TA. rewrite (Rabs_mult (Rabs Z) E), Rabs_Rabsolu, <- Rabs_mult in TA. unfold uu in TA. pose proof (Rle_abs A). lra. }
    assert (Ek : exists k, emb (fsub (fmul ci e) ct) = XFin k /\ Rabs (k - (A - c)) <= uu * (A + 1) + eta).
    { rewrite emb_sub, EA, Ect. cbn [xsub xneg xadd].
      assert (BA : Rabs (A - c) <= A + 1) by (apply Rabs_le; lra).
      destruct (rn_any L (A - c)) as (k & Ek & Dk); [lra|]. exists k. split; [exact Ek|]. unfold uu in *. lra. }
    destruct Ek as (k & Ek & Dk). set (kf := fsub (fmul ci e) ct) in *. clearbody kf.
    intros Ev. apply (f_equal (fun o => match o with Some w => w | None => v end)) in Ev.
    cbn [v3add v3scale v3neg v3map2 vx vy vz] in Ev.
    assert (C : forall (u : b32) U, emb u = XFin U -> Rabs U <= 17 / 10 * rho -> exists U', emb (fadd (fmul (fneg u) e) (fmul f0 kf)) = XFin U' /\ Rabs (U' + E * U) <= / 1000000 * rho).
    { intros u U Eu HU. rewrite (times_0 f0 kf k (emb_f0) Ek). pose proof (MB U HU) as M.
      assert (En' : emb (fneg u) = XFin (- U)) by (rewrite emb_neg, Eu; reflexivity).
      assert (M' : Rabs (- U * E) = Rabs (U * E)) by (rewrite <- Rabs_Ropp; f_equal; ring).
      destruct (mul_any L (fneg u) e (- U) E En' Ee ltac:(lra)) as (U' & EU & DU). exists U'. split; [exact EU|]. unfold uu in DU. rewrite M' in DU.
      replace (U' + E * U) with (U' - - U * E) by ring. lra. }
    destruct (C x X Ex HX) as (X' & EX' & DX'). destruct (C y Y Ey HY) as (Y' & EY' & DY').
    (* the z component *)
    assert (EzA : emb (fmul (fneg z) e) = XFin (if up then - A else A)).
    { rewrite emb_mul, emb_neg, Ez, Ee. cbn [xneg xmul]. rewrite emb_mul, Ec, Ee in EA. cbn [xmul] in EA. destruct up.
      - rewrite (Rabs_pos_eq Z Hs) in EA. replace (- Z * E) with (- (Z * E)) by ring. change (XFin (- (Z * E))) with (xneg (XFin (Z * E))). rewrite rn_opp, EA. reflexivity.
      - rewrite (Rabs_left1 Z Hs) in EA. exact EA. }
    assert (Ezk : emb (fmul n1 kf) = XFin (if up then k else - k)).
    { rewrite emb_mul, En, Ek. cbn [xmul]. destruct up.
      - rewrite Rmult_1_l, <- Ek. apply rn_emb.
      - replace (-1 * k) with (- k) by ring. change (XFin (- k)) with (xneg (XFin k)). rewrite rn_opp, <- Ek, rn_emb. reflexivity. }
    assert (Dz : Rabs ((if up then - A else A) + (if up then k else - k)) <= 1 + (uu * (A + 1) + eta)).
    { apply Rabs_le_inv in Dk. unfold uu in *. apply Rabs_le. destruct up; lra. }
    destruct (add_rel L _ _ _ _ EzA Ezk) as (Z' & EZ' & DZ'). { unfold uu in Dz. lra. }
    exists X', Y', Z'. rewrite <- Ev. split; [repeat split; cbn [vx vy vz]; assumption|]. split; [exact DX'|]. split; [exact DY'|].
    pose proof (T' _ _ _ DZ') as TZ. unfold uu in *. lra.
  Qed.

  (** refraction, in the world *)
  Lemma glass_val (s t n w : V3 b32) (e : b32) (up : bool) S Tv N W E K rho v :
    val s S -> val t Tv -> val n N -> val w W -> emb e = XFin E ->
    vdot N N <= 10001 / 10000 -> vdot S S <= K -> vdot (vsub Tv (vcross N S)) (vsub Tv (vcross N S)) <= / 1000000 ->
    1 <= K <= 25 / 10 -> 0 < E <= 26 / 10 -> E * K <= 30006 / 10000 -> vnorm W <= rho -> pw 13 <= rho -> 24 * rho <= pw 120 ->
    (if up then xle (XFin 0) (emb (v3dot w n)) = true else xle (emb (v3dot w n)) (XFin 0) = true) ->
    refract (mkV3 (v3dot w s) (v3dot w t) (v3dot w n)) (mkV3 f0 f0 (if up then f1 else fneg f1)) e = Some v ->
    exists q, val (mkV3 (fadd (fadd (fmul (vx s) (vx v)) (fmul (vx t) (vy v))) (fmul (vx n) (vz v)))
                        (fadd (fadd (fmul (vy s) (vx v)) (fmul (vy t) (vy v))) (fmul (vy n) (vz v)))
                        (fadd (fadd (fmul (vz s) (vx v)) (fmul (vz t) (vy v))) (fmul (vz n) (vz v)))) q /\ vnorm q <= 302 / 100 * rho.
  Proof.
    intros Vs Vt Vn Vw Ee HN HS HT HK HE HEK HW Hr1 Hr2 Hup Ev.
    assert (R0 : 8192 <= rho) by (apply Rle_trans with (pw 13); [cbn; lra|exact Hr1]).
    assert (B7 : pw 117 * 8 = pw 120) by (change 8 with (pw 3); rewrite <- bpow_plus; reflexivity).
    pose proof (vnorm_nonneg S) as S0. pose proof (vnorm_nonneg N) as N0. pose proof (vnorm_nonneg W) as W0. pose proof (vnorm_nonneg Tv) as T0.
    assert (S1 : vnorm S <= 16 / 10) by (apply norm_le; lra).
    assert (N1 : vnorm N <= 101 / 100) by (apply norm_le; lra).
    assert (T1 : vnorm Tv <= 16 / 10).
    { rewrite (split_sum Tv (vcross N S)).
      eapply Rle_trans; [apply vnorm_triangle|].
      assert (vnorm (vcross N S) <= 1598 / 1000).
      { apply norm_le; [lra|]. rewrite lagrange. pose proof (vdot_self_nonneg N). pose proof (vdot_self_nonneg S). nra. }
      assert (vnorm (vsub Tv (vcross N S)) <= / 1000) by (apply norm_le; lra). lra. }
    destruct (dot_val L w s W S (16 / 10 * rho) Vw Vs ltac:(nra) ltac:(lra)) as (a & Ea & Da).
    destruct (dot_val L w t W Tv (16 / 10 * rho) Vw Vt ltac:(nra) ltac:(lra)) as (b & Eb & Db).
    destruct (dot_val L w n W N (16 / 10 * rho) Vw Vn ltac:(nra) ltac:(lra)) as (c & Ec & Dc).
    assert (Dd : forall U, vnorm U <= 16 / 10 -> Rabs (vdot W U) <= 16 / 10 * rho).
    { intros U HU. eapply Rle_trans; [apply cauchy_schwarz_norm|]. pose proof (vnorm_nonneg U). nra. }
    assert (T' : forall q r e, Rabs (q - r) <= e -> Rabs q <= Rabs r + e).
    { intros q r e0 H. replace q with (r + (q - r)) at 1 by ring. eapply Rle_trans; [apply Rabs_triang|]. lra. }
    pose proof (T' _ _ _ Da) as A1. pose proof (T' _ _ _ Db) as B1. pose proof (T' _ _ _ Dc) as C1.
    pose proof (Dd S S1). pose proof (Dd N ltac:(lra)). pose proof (Dd Tv T1).
    destruct (refract_val _ _ _ e up a b c E rho Ea Eb Ec Ee) with (v := v) as (X' & Y' & Z' & Vv & DX & DY & DZ); try lra; auto.
    { rewrite Ec in Hup. destruct up; cbn [xle] in Hup; rb; auto. }
    destruct Vv as (Vx & Vy & Vz). cbn [vx vy vz] in Vx, Vy, Vz.
    assert (MB : forall u, Rabs u <= 17 / 10 * rho -> Rabs (E * u) <= 45 / 10 * rho).
    { intros u Hu. rewrite Rabs_mult, (Rabs_pos_eq E) by lra. pose proof (Rabs_pos u). nra. }
    pose proof (MB a ltac:(lra)) as Ma. pose proof (MB b ltac:(lra)) as Mb.
    assert (T2 : forall q r e, Rabs (q + r) <= e -> Rabs q <= Rabs r + e).
    { intros q r e0 H2. replace q with ((q + r) + - r) by ring. eapply Rle_trans; [apply Rabs_triang|]. rewrite Rabs_Ropp. lra. }
    pose proof (T2 _ _ _ DX) as TX. pose proof (T2 _ _ _ DY) as TY.
    (* exact up to small errors *)
    assert (P46 : Rabs X' <= 46 / 10 * rho /\ Rabs Y' <= 46 / 10 * rho /\ Rabs Z' <= 46 / 10 * rho) by lra. destruct P46 as (PX & PY & PZ).
    destruct (world_val s t n (vx v) (vy v) (vz v) S Tv N X' Y' Z' (46 / 10 * rho)) as (q & Vq & Dq); auto; try lra.
    exists q. split; [exact Vq|].
    set (m := vadd (vscale (vdot S W) S) (vscale (vdot Tv W) Tv)).
    set (g := vadd (vadd (vscale (X' + E * vdot S W) S) (vscale (Y' + E * vdot Tv W) Tv)) (vscale Z' N)).
    assert (Eq : vadd (vadd (vscale X' S) (vscale Y' Tv)) (vscale Z' N) = vadd (vscale (- E) m) g).
    { unfold m, g. apply V3_eq; unfold vadd, vscale; cbn [vx vy vz]; ring. }
    rewrite Eq in Dq. rewrite (split_sum q (vadd (vscale (- E) m) g)).
    eapply Rle_trans; [apply vnorm_triangle|].
    assert (G1 : vnorm (vadd (vscale (- E) m) g) <= E * vnorm m + vnorm g).
    { eapply Rle_trans; [apply vnorm_triangle|]. rewrite vnorm_scale, Rabs_Ropp, (Rabs_pos_eq E) by lra. lra. }
    assert (G2 : vnorm m <= 10023 / 10000 * K * vnorm W) by (apply (part_grows S Tv N W K); auto; lra).
    assert (G3 : E * vnorm m <= 30076 / 10000 * rho).
    { apply Rle_trans with (E * (10023 / 10000 * K * vnorm W)); [apply Rmult_le_compat_l; lra|].
      replace (E * (10023 / 10000 * K * vnorm W)) with (10023 / 10000 * ((E * K) * vnorm W)) by ring.
      assert (0 <= E * K) by nra. assert (E * K * vnorm W <= 30006 / 10000 * rho) by (apply Rmult_le_compat; auto). lra. }
    assert (G4 : vnorm g <= / 1000 * rho).
    { assert (EX : Rabs (X' + E * vdot S W) <= / 100000 * rho).
      { replace (X' + E * vdot S W) with ((X' + E * a) + - (E * (a - vdot W S))) by (rewrite (vdot_comm S W); ring).
        eapply Rle_trans; [apply Rabs_triang|]. rewrite Rabs_Ropp, Rabs_mult, (Rabs_pos_eq E) by lra. pose proof (Rabs_pos (a - vdot W S)). nra. }
      assert (EY : Rabs (Y' + E * vdot Tv W) <= / 100000 * rho).
      { replace (Y' + E * vdot Tv W) with ((Y' + E * b) + - (E * (b - vdot W Tv))) by (rewrite (vdot_comm Tv W); ring).
        eapply Rle_trans; [apply Rabs_triang|]. rewrite Rabs_Ropp, Rabs_mult, (Rabs_pos_eq E) by lra. pose proof (Rabs_pos (b - vdot W Tv)). nra. }
      eapply Rle_trans; [apply sum3_norm; [exact EX|exact EY|exact DZ]|].
      assert (/ 100000 * rho * vnorm S <= / 100000 * rho * (16 / 10)) by (apply Rmult_le_compat_l; lra).
      assert (/ 100000 * rho * vnorm Tv <= / 100000 * rho * (16 / 10)) by (apply Rmult_le_compat_l; lra).
      assert ((11 / 10 + / 100000 * rho) * vnorm N <= (11 / 10 + / 100000 * rho) * (101 / 100)) by (apply Rmult_le_compat_l; lra). lra. }
    lra.
  Qed.

  (** ** frames *)
  Lemma vb_val k v : vb k v -> exists V, val v V /\ Rabs (vx V) <= pw k /\ Rabs (vy V) <= pw k /\ Rabs (vz V) <= pw k.
  Proof. intros ((x & Ex & Hx) & (y & Ey & Hy) & (z & Ez & Hz)). exists (mkV3 x y z). repeat split; assumption. Qed.

  Lemma len_val v V : val v V -> Rabs (vx V) <= pw 50 -> Rabs (vy V) <= pw 50 -> Rabs (vz V) <= pw 50 -> exists l, emb (v3length v) = XFin l.
  Proof.
    intros Hv Hx Hy Hz. destruct (sq3_val L v V Hv Hx Hy Hz) as (q & Eq & Hq & _). unfold v3length. fold (sq3 L v).
    rewrite emb_sqrt, Eq, xsqrt_fin by lra.
    assert (Sq : sqrt q <= pw 55). { rewrite <- (sqrt_pw 55). apply sqrt_le_1_alt. apply Hq. }
    destruct (rn_any L (sqrt q)) as (l & El & _). { rewrite Rabs_pos_eq by apply sqrt_pos. eapply Rle_trans; [exact Sq|]. apply bpow_le. lia. }
    eauto.
  Qed.

  (** a frame with an undefined vector, or one whose vectors have nearly the length 1 and at most the root of [K] *)
  Definition firm (K : R) (i : interaction b32 T) : Prop :=
    has_nan (i_sn i) \/ has_nan (v3normalize (i_dpdu i)) \/
    exists N S, val (i_sn i) N /\ val (v3normalize (i_dpdu i)) S /\ vdot N N <= 10001 / 10000 /\ vdot S S <= K.

  Lemma pw50 k : (k <= 50)%Z -> pw k <= pw 50.
  Proof. intros H. now apply bpow_le. Qed.

  Lemma sphere_firm (s : sphere b32) r t i d : tame_sphere s -> sp_interaction (T := T) s r t = (i, d) -> firm (20002 / 10000) i /\ i_wo i = v3neg (r_d r).
  Proof.
    intros H. destruct (tame_radius L s H) as (rr & Er & Hr). unfold sp_interaction.
    pose proof (sphere_point L (ray_position r t) (sp_radius s) rr Er Hr) as SP. cbv zeta in SP.
    set (p := v3scale (ray_position r t) _) in *. clearbody p. cbv zeta.
    destruct (sp_partials p) as [du dv] eqn:Ep. intros E.
    pose proof (f_equal fst E) as Ei. cbn [fst] in Ei. clear E. rewrite <- Ei. clear Ei i. split; [|reflexivity]. unfold firm. cbn [i_sn i_dpdu].
    destruct SP as [N|(Vp & _ & Lp)]; [now left|]. right.
    pose proof (f_equal fst Ep) as Ed. cbn [fst sp_partials] in Ed. rewrite <- Ed. clear Ep Ed du dv.
    assert (B : vb 30 (mkV3 (fmul (fmul (fofZ (-2)) fpi) (vy p)) (fmul (fmul f2 fpi) (vx p)) f0)).
    { destruct Vp as (Vx & Vy & Vz). repeat split; cbn [vx vy vz].
      - apply (bd_mono L (1 + 2 + 22)); [lia|]. apply bd_mul; [lia| |exact Vy]. apply bd_mul; [lia| |apply bd_pi]. apply (bd_Z L 1 (-2)); cbn; lia.
      - apply (bd_mono L (1 + 2 + 22)); [lia|]. apply bd_mul; [lia| |exact Vx]. apply bd_mul; [lia|apply bd_2|apply bd_pi].
      - apply bd_0. }
    set (du := mkV3 _ _ _) in *.
    assert (Dz : emb (vz du) = XFin 0) by apply emb_f0. clearbody du.
    destruct (vb_val 30 du B) as (D & VD & D1 & D2 & D3). pose proof (pw50 30 ltac:(lia)) as P30.
    destruct (len_val du D VD ltac:(lra) ltac:(lra) ltac:(lra)) as (l & El).
    assert (DZ : vz D = 0) by (destruct VD as (_ & _ & E3); congruence).
    destruct (Req_dec l 0) as [-> |Hl].
    { left. right. right. cbn [v3normalize vx vy vz]. now apply div_0_0. }
    right. destruct (norm_val L du D l VD ltac:(lra) ltac:(lra) ltac:(lra) El Hl) as (S & VS & _ & HS & _).
    destruct (vb_val 22 p Vp) as (P & VP & P1 & P2 & P3). pose proof (pw50 22 ltac:(lia)) as P22.
    destruct (len_val p P VP ltac:(lra) ltac:(lra) ltac:(lra)) as (lp & Elp).
    rewrite Elp in Lp. cbn [xle] in Lp. rb. pose proof (bpow_gt_0 radix2 (-24)) as G24. assert (pw (-50) <= pw (-24)) by (apply bpow_le; lia).
    destruct (norm_val L p P lp VP ltac:(lra) ltac:(lra) ltac:(lra) Elp ltac:(lra)) as (N & VN & _ & _ & HN).
    exists N, S. repeat split; try apply VN; try apply VS; auto. apply HN. lra.
  Qed.

  (** a computed length *)
  Lemma fair_len (v : V3 b32) l : Bleb (Bdiv mode_NE (Bof_Z 1) (Bof_Z (2 ^ 50))) (v3length v) = true -> emb (v3length v) = XFin l -> pw (-50) <= l.
  Proof.
    intros H El. change (fle (fdiv f1 (fofZ (2 ^ 50))) (v3length v) = true) in H. rewrite emb_le, El in H.
    assert (E50 : emb (fdiv f1 (fofZ (2 ^ 50)) : b32) = XFin (pw (-50))).
    { assert (E6 : emb (fofZ (2 ^ 50) : b32) = XFin (pw 50)).
      { rewrite emb_ofZ. rewrite <- (rn_pw L 50) by lia. f_equal. }
      rewrite emb_div, emb_f1, E6. 2:{ rewrite E6. intros E. injection E. pose proof (bpow_gt_0 radix2 50). lra. }
      rewrite xdiv_fin by (pose proof (bpow_gt_0 radix2 50); lra).
      replace (1 / pw 50) with (pw (-50)); [apply rn_pw; lia|]. cbn. lra. }
    rewrite E50 in H. cbn [xle] in H. now rb.
  Qed.

  Lemma fair_firm t r i d : fair_triangle L t -> tr_intersect (T := T) t r = Ok (Some (i, d)) -> firm (10001 / 10000) i.
  Proof.
    intros [H HE HC]. destruct (tame_vb L t H) as (V0 & V1 & V2). unfold tr_intersect. destruct (max_abs_axis (r_d r)) as [a| |]; cbn [rbind]; try discriminate.
    cbv zeta.
    match goal with |- (if ?b then _ else _) = _ -> _ => destruct b; [discriminate|] end.
    match goal with |- (if ?b then _ else _) = _ -> _ => destruct b; [discriminate|] end.
    match goal with |- (if ?b then _ else _) = _ -> _ => destruct b; [discriminate|] end.
    match goal with |- (if ?b then _ else _) = _ -> _ => destruct b; [discriminate|] end.
    destruct (tr_frame t _ _ _) as [[[n sn] du] dv] eqn:Ef. intros E.
    match type of E with Ok (Some (?x, ?y)) = _ => assert (Ei : i = x) by (apply (f_equal (fun q => match q with Ok (Some (z, _)) => z | _ => x end)) in E; symmetry; exact E) end.
    clear E. rewrite Ei. clear Ei i. right. right. cbn [i_sn i_dpdu].
    unfold tr_frame in Ef. rewrite (tt_flat L t H) in Ef.
    pose proof (partial_edge L (tr_v t)) as PE. cbv zeta in PE. destruct (tr_partials (tr_v t)) as [du' dv'] eqn:Ep. cbn [fst] in PE.
    set (c := v3cross _ _) in Ef.
    assert (Bc : vb 43 c).
    { unfold c. replace 43%Z with (21 + 21 + 1)%Z by lia. apply vb_cross; [lia| |]; change 21%Z with (20 + 1)%Z; apply vb_sub; auto; lia. }
    destruct (vb_val 43 c Bc) as (C & VC & C1 & C2 & C3). pose proof (pw50 43 ltac:(lia)) as P43.
    destruct (len_val c C VC ltac:(lra) ltac:(lra) ltac:(lra)) as (lc & Elc). pose proof (fair_len c lc HC Elc) as Hlc.
    pose proof (bpow_gt_0 radix2 (-50)) as G50.
    destruct (norm_val L c C lc VC ltac:(lra) ltac:(lra) ltac:(lra) Elc ltac:(lra)) as (N & VN & _ & _ & HN). specialize (HN Hlc).
    pose proof (f_equal (fun q => snd (fst (fst q))) Ef) as E2. pose proof (f_equal (fun q => snd (fst q)) Ef) as E3. cbn [fst snd] in E2, E3. clear Ef.
    rewrite <- E2, <- E3. clear E2 E3 n sn du. clearbody c.
    assert (KN : exists N', val (if tr_rev t then v3scale (v3normalize c) (fofZ (-1)) else v3normalize c) N' /\ vdot N' N' <= 10001 / 10000).
    { destruct (tr_rev t); [|eauto]. exists (vscale (-1) N). split.
      - assert (Em : emb (fofZ (-1) : b32) = XFin (-1)) by (rewrite emb_ofZ_exact by (cbn; lia); reflexivity).
        destruct VN as (A & B & D). repeat split; cbn [v3scale vscale vx vy vz]; rewrite (emb_times_m1 L) by exact Em; [rewrite A|rewrite B|rewrite D]; cbn [xneg]; f_equal; ring.
      - replace (vdot (vscale (-1) N) (vscale (-1) N)) with (vdot N N); [exact HN|]. unfold vdot, vscale. cbn [vx vy vz]. ring. }
    destruct KN as (N' & VN' & HN').
    set (ed := v3sub (v3sub (t1 (tr_v t)) (t2 (tr_v t))) (v3sub (t0 (tr_v t)) (t2 (tr_v t)))) in *.
    assert (Be : vb 22 ed). { unfold ed. change 22%Z with (20 + 1 + 1)%Z. apply vb_sub; [lia| |]; apply vb_sub; auto; lia. }
    destruct (vb_val 22 ed Be) as (D & VD & D1 & D2 & D3). pose proof (pw50 22 ltac:(lia)) as P22. clearbody ed.
    destruct (len_val ed D VD ltac:(lra) ltac:(lra) ltac:(lra)) as (le & Ele). pose proof (fair_len ed le HE Ele) as Hle.
    destruct PE as (Px & Py & Pz). rewrite <- (emb_len_ext L _ _ Px Py Pz) in Ele.
    assert (VD' : val du' D) by (destruct VD as (A & B & E); repeat split; congruence).
    destruct (norm_val L du' D le VD' ltac:(lra) ltac:(lra) ltac:(lra) Ele ltac:(lra)) as (S & VS & _ & _ & HS).
    exists N', S. repeat split; try apply VN'; try apply VS; auto.
  Qed.

  Lemma tri_wo (t : triangle b32) r (i : interaction b32 T) d : tr_intersect t r = Ok (Some (i, d)) -> i_wo i = v3neg (r_d r).
  Proof.
    unfold tr_intersect. destruct (max_abs_axis (r_d r)) as [a| |]; cbn [rbind]; try discriminate. cbv zeta.
    match goal with |- (if ?b then _ else _) = _ -> _ => destruct b; [discriminate|] end.
    match goal with |- (if ?b then _ else _) = _ -> _ => destruct b; [discriminate|] end.
    match goal with |- (if ?b then _ else _) = _ -> _ => destruct b; [discriminate|] end.
    match goal with |- (if ?b then _ else _) = _ -> _ => destruct b; [discriminate|] end.
    destruct (tr_frame t _ _ _) as [[[n sn] du] dv] eqn:Ef. intros E.
    match type of E with Ok (Some (?x, ?y)) = _ => assert (Ei : i = x) by (apply (f_equal (fun q => match q with Ok (Some (z, _)) => z | _ => x end)) in E; symmetry; exact E) end.
    rewrite Ei. reflexivity.
  Qed.

  (** ** sampled directions *)
  Definition ratio (K : R) (eta : b32) : Prop :=
    forall q, q = fdiv f1 eta \/ q = fdiv eta f1 -> exists E, emb q = XFin E /\ 0 < E <= 26 / 10 /\ E * K <= 30006 / 10000.

  Definition kind (K : R) (i : interaction b32 T) (x : bxdf b32) : Prop :=
    (exists r, x = lambertian r) \/
    firm K i /\ ((exists r fr, x = specular_reflection r fr) \/ exists t eta, x = specular_transmission t f1 eta /\ ratio K eta).

  Lemma kind_sample K i b x wo u rho : tame_libm L -> 1 <= K <= 25 / 10 -> kind K i x -> good_frame L i ->
    bs_sn b = i_sn i -> bs_s b = v3normalize (i_dpdu i) -> bs_t b = v3cross (bs_sn b) (bs_s b) ->
    reach rho wo -> pw 13 <= rho -> 24 * rho <= pw 120 -> in_unit (px u) -> in_unit (py u) ->
    forall wi f pdf, bx_sample_f x (world_to_local b wo) u = (wi, f, pdf) -> feq pdf f0 = false -> reach (302 / 100 * rho) (local_to_world b wi).
  Proof.
    intros HL HK Hx HF E1 E2 E3 Hwo R1 R2 Hux Huy wi f pdf. pose proof (bpow_gt_0 radix2 13) as G13.
    assert (B7 : pw 117 * 8 = pw 120) by (change 8 with (pw 3); rewrite <- bpow_plus; reflexivity).
    assert (R0 : 8192 <= rho) by (apply Rle_trans with (pw 13); [cbn; lra|exact R1]).
    destruct Hx as [(r & ->)|(Fm & [(r & fr & ->)|(t & eta & -> & HR)])].
    - cbn [bx_sample_f lambertian]. pose proof (lamb_bd L r (world_to_local b wo) u HL Hux Huy) as Bw. intros E. rewrite E in Bw. cbn [fst] in Bw. intros _.
      destruct (to_world L b wi E3 ltac:(rewrite E1, E2; exact HF) Bw) as [N|V]; [now left|].
      apply (reach_mono (2 * pw 10)); [|now apply vb_reach]. assert (2 * pw 10 <= pw 13) by (cbn; lra). lra.
    - cbn [bx_sample_f specular_reflection]. intros E _. unfold sr_sample in E.
      assert (Ew : wi = mkV3 (fneg (v3dot wo (bs_s b))) (fneg (v3dot wo (bs_t b))) (v3dot wo (bs_sn b))).
      { pose proof (f_equal (fun q => fst (fst q)) E) as Q. cbn [fst] in Q. rewrite <- Q. reflexivity. }
      clear E. rewrite Ew. clear Ew wi.
      destruct Hwo as [N|(W & VW & HW)]; [left; apply nan_world; right; right; cbn [vz]; now apply has_nan_dot_l, vn_has|].
      unfold firm in Fm. rewrite <- E1, <- E2 in Fm.
      destruct Fm as [N|[N|(N & S & VN & VS & HN & HS)]]; [left; apply nan_world; right; right; cbn [vz]; now apply has_nan_dot_r|
        left; apply nan_world; left; cbn [vx]; now apply nan_neg, has_nan_dot_r|].
      assert (NN : vnorm N <= 2) by (apply norm_le; lra). assert (NS : vnorm S <= 2) by (apply norm_le; lra).
      destruct (cross_val L (bs_sn b) (bs_s b) N S VN VS NN NS) as (Tv & VT & HT). rewrite <- E3 in VT.
      destruct (mirror_val L (bs_s b) (bs_t b) (bs_sn b) wo S Tv N W rho VS VT VN VW ltac:(lra) ltac:(lra) HT HW ltac:(lra)) as (q & Vq & Hq).
      right. exists q. split; [exact Vq|]. lra.
    - cbn [bx_sample_f specular_transmission]. unfold st_sample. intros E Hp.
      assert (NaNz : forall v n e w, has_nan v -> refract v n e = Some w -> has_nan w).
      { intros v n e w Hv. unfold refract. cbv zeta. destruct (fle f1 _); [discriminate|]. intros Q.
        apply (f_equal (fun o => match o with Some z => z | None => w end)) in Q. rewrite <- Q. cbn [v3add v3map2 v3scale v3neg vx vy vz].
        destruct Hv as [H|[H|H]]; [left|right; left|right; right]; cbn [vx vy vz]; apply nan_add_l, nan_mul_l, nan_neg, H. }
      set (wl := world_to_local b wo) in *.
      assert (Q : exists e (up : bool), (e = fdiv f1 eta \/ e = fdiv eta f1) /\ up = flt f0 (vz wl) /\
        exists w, refract wl (mkV3 f0 f0 (if up then f1 else fneg f1)) e = Some w /\ wi = w).
      { cbn [cos_theta] in E. exists (if flt f0 (vz wl) then fdiv f1 eta else fdiv eta f1), (flt f0 (vz wl)). split; [destruct (flt f0 (vz wl)); auto|]. split; [reflexivity|].
        unfold cos_theta in E. destruct (flt f0 (vz wl)).
        - destruct (refract wl _ _) as [w|]; [exists w; split; [reflexivity|]; pose proof (f_equal (fun q => fst (fst q)) E) as Q; symmetry; exact Q|].
          exfalso. pose proof (f_equal snd E) as Q. cbn [bx_none snd] in Q. rewrite <- Q in Hp. cbn in Hp. discriminate.
        - destruct (refract wl _ _) as [w|]; [exists w; split; [reflexivity|]; pose proof (f_equal (fun q => fst (fst q)) E) as Q; symmetry; exact Q|].
          exfalso. pose proof (f_equal snd E) as Q. cbn [bx_none snd] in Q. rewrite <- Q in Hp. cbn in Hp. discriminate. }
      clear E. destruct Q as (e & up & He & Hup & w & Er & ->).
      destruct Hwo as [N|(W & VW & HW)].
      { left. apply nan_world. eapply NaNz; [|exact Er]. right; right. unfold wl, world_to_local. cbn [vz]. now apply has_nan_dot_l, vn_has. }
      unfold firm in Fm. rewrite <- E1, <- E2 in Fm.
      destruct Fm as [N|[N|(N & S & VN & VS & HN & HS)]].
      { left. apply nan_world. eapply NaNz; [|exact Er]. right; right. unfold wl, world_to_local. cbn [vz]. now apply has_nan_dot_r. }
      { left. apply nan_world. eapply NaNz; [|exact Er]. left. unfold wl, world_to_local. cbn [vx]. now apply has_nan_dot_r. }
      assert (NN : vnorm N <= 2) by (apply norm_le; lra). assert (NS : vnorm S <= 2) by (apply norm_le; lra).
      destruct (cross_val L (bs_sn b) (bs_s b) N S VN VS NN NS) as (Tv & VT & HT). rewrite <- E3 in VT.
      destruct (HR e He) as (E & Ee & HE & HEK).
      right. destruct (glass_val (bs_s b) (bs_t b) (bs_sn b) wo e up S Tv N W E K rho w VS VT VN VW Ee HN HS HT HK HE HEK HW R1 R2) as (q & Vq & Hq); [|exact Er|].
      + unfold wl, world_to_local in Hup. cbn [vz] in Hup. rewrite emb_lt, emb_f0 in Hup.
        assert (N1 : vnorm N <= 101 / 100) by (apply norm_le; lra). pose proof (vnorm_nonneg N). pose proof (vnorm_nonneg W).
        destruct (dot_val L wo (bs_sn b) W N (16 / 10 * rho) VW VN ltac:(nra) ltac:(lra)) as (c & Ec & _).
        rewrite Ec in Hup |- *. cbn [xlt xle] in *. destruct up; symmetry in Hup; rb; lra.
      + exists q. split; [exact Vq|exact Hq].
  Qed.

  Lemma kinds_sample K i b u rho : tame_libm L -> 1 <= K <= 25 / 10 -> (forall x, In x (bs_bxdfs b) -> kind K i x) -> (length (bs_bxdfs b) <= 100)%nat -> good_frame L i ->
    bs_sn b = i_sn i -> bs_s b = v3normalize (i_dpdu i) -> bs_t b = v3cross (bs_sn b) (bs_s b) ->
    reach rho (i_wo i) -> pw 13 <= rho -> 24 * rho <= pw 120 -> in_unit (px u) -> in_unit (py u) ->
    exists wi f pdf fl, bsdf_sample_f b (i_wo i) u = Ok (wi, f, pdf, fl) /\ (feq pdf f0 = false \/ flt f0 pdf = true -> reach (302 / 100 * rho) wi).
  Proof.
    intros HL HK Hx Hlen HF E1 E2 E3 Hwo R1 R2 Hux Huy.
    assert (NS : exists wi f pdf fl, Ok no_sample = Ok (wi, f, pdf, fl) /\ (feq pdf f0 = false \/ flt f0 pdf = true -> reach (302 / 100 * rho) wi)).
    { exists v3zero, v3zero, f0, 0%Z. split; [reflexivity|]. intros [E|E]; cbn in E; discriminate. }
    unfold bsdf_sample_f. cbv zeta. destruct (Z.of_nat (length (bs_bxdfs b)) =? 0)%Z eqn:Z0; [exact NS|]. apply Z.eqb_neq in Z0.
    destruct (C51_binary32 L (Z.of_nat (length (bs_bxdfs b))) (px u) ltac:(lia) Hux) as [Hp Hr].
    set (k := bsdf_pick _ (px u)) in *.
    destruct (nth_error (bs_bxdfs b) (Z.to_nat k)) as [x|] eqn:En; [|apply nth_error_None in En; lia].
    assert (Ei : idx (bs_bxdfs b) k = Ok x). { unfold idx. destruct (Z.ltb_spec k 0); [lia|]. now rewrite En. }
    rewrite Ei. cbn [rbind]. apply nth_error_In in En.
    destruct (feq (vz (world_to_local b (i_wo i))) f0); [exact NS|].
    destruct (bx_sample_f x (world_to_local b (i_wo i)) (mkP2 (bsdf_remap (Z.of_nat (length (bs_bxdfs b))) (px u)) (py u))) as [[wi f] pdf] eqn:Es.
    destruct (feq pdf f0) eqn:Ep; [exact NS|].
    assert (RW : reach (302 / 100 * rho) (local_to_world b wi)).
    { apply (kind_sample K i b x (i_wo i) (mkP2 (bsdf_remap (Z.of_nat (length (bs_bxdfs b))) (px u)) (py u)) rho) with (f := f) (pdf := pdf); auto. }
    destruct (negb (has_flag x SPECULAR) && (1 <? Z.of_nat (length (bs_bxdfs b)))%Z)%bool; eexists _, _, _, _; (split; [reflexivity|auto]).
  Qed.
End Sm.
