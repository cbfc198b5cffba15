(** * Computed lengths and normalised vectors in binary32 *)
From Coq Require Import ZArith Reals Bool List Lra Lia.
From Flocq Require Import Core IEEE754.BinarySingleNaN.
From Verif Require Import Model.Num Model.NumX Model.NumB Model.Vector Model.Common.
From Verif Require Import Proofs.XBase Proofs.BBase Proofs.FLaws Proofs.Bounds.
Import ListNotations.
Local Open Scope R_scope.

Section Len.
  Context (L : Libm b32).
  Local Existing Instance B32_FOps.
  Local Existing Instance B32_FLaws.
  Notation rnb := (@rn b32 (B32_FOps L) (B32_FLaws L)).

  Lemma xle_add_r x y : xle (XFin 0) x = true -> xle (XFin 0) y = true -> xle y (xadd x y) = true.
  Proof. destruct x as [|[]|a], y as [|[]|b]; cbn; auto. intros. rb. lra. Qed.
  Lemma xle_add_l x y : xle (XFin 0) x = true -> xle (XFin 0) y = true -> xle x (xadd x y) = true.
  Proof. destruct x as [|[]|a], y as [|[]|b]; cbn; auto. intros. rb. lra. Qed.

  Definition sq3 (v : V3 b32) : b32 := fadd (fadd (fmul (vx v) (vx v)) (fmul (vy v) (vy v))) (fmul (vz v) (vz v)).

  Lemma sq_nonneg (x : b32) : fis_nan x = false -> xle (XFin 0) (emb (fmul x x)) = true.
  Proof.
    intros H. rewrite emb_nan in H. rewrite emb_mul. apply (rn_ge_Z (FL := B32_FLaws L) 0); [cbn; lia|].
    destruct (emb x) as [|[]|a]; try discriminate; try reflexivity. cbn. rb. nra.
  Qed.

  (** every square is below the sum *)
  Lemma sq3_ge v (x : b32) : fis_nan (vx v) = false -> fis_nan (vy v) = false -> fis_nan (vz v) = false ->
    x = vx v \/ x = vy v \/ x = vz v -> xle (emb (fmul x x)) (emb (sq3 v)) = true.
  Proof.
    intros Nx Ny Nz Hx. pose proof (sq_nonneg _ Nx) as Sx. pose proof (sq_nonneg _ Ny) as Sy. pose proof (sq_nonneg _ Nz) as Sz.
    assert (P1 : xle (emb (fmul (vx v) (vx v))) (emb (fadd (fmul (vx v) (vx v)) (fmul (vy v) (vy v)))) = true).
    { rewrite (emb_add (fmul (vx v) (vx v))). apply rn_ge_emb. now apply xle_add_l. }
    assert (P2 : xle (emb (fmul (vy v) (vy v))) (emb (fadd (fmul (vx v) (vx v)) (fmul (vy v) (vy v)))) = true).
    { rewrite (emb_add (fmul (vx v) (vx v))). apply rn_ge_emb. now apply xle_add_r. }
    assert (P0 : xle (XFin 0) (emb (fadd (fmul (vx v) (vx v)) (fmul (vy v) (vy v)))) = true) by (eapply xle_trans; [exact Sx|exact P1]).
    assert (Q1 : xle (emb (fadd (fmul (vx v) (vx v)) (fmul (vy v) (vy v)))) (emb (sq3 v)) = true).
    { unfold sq3. rewrite (emb_add (fadd _ _)). apply rn_ge_emb. now apply xle_add_l. }
    assert (Q2 : xle (emb (fmul (vz v) (vz v))) (emb (sq3 v)) = true).
    { unfold sq3. rewrite (emb_add (fadd _ _)). apply rn_ge_emb. now apply xle_add_r. }
    destruct Hx as [-> | [-> | -> ] ]; auto; eapply xle_trans; eauto.
  Qed.

  Lemma sq3_nonneg (v : V3 b32) : fis_nan (vx v) = false -> fis_nan (vy v) = false -> fis_nan (vz v) = false -> xle (XFin 0) (emb (sq3 v)) = true.
  Proof. intros A B C. eapply xle_trans; [apply (sq_nonneg _ A)|]. apply sq3_ge; auto. Qed.

  Lemma len_nonneg (v : V3 b32) : fis_nan (vx v) = false -> fis_nan (vy v) = false -> fis_nan (vz v) = false ->
    xle (XFin 0) (emb (v3length v)) = true.
  Proof.
    intros A B C. unfold v3length. fold (sq3 v). rewrite emb_sqrt. apply (rn_ge_Z (FL := B32_FLaws L) 0); [cbn; lia|].
    pose proof (sq3_nonneg v A B C) as H. destruct (emb (sq3 v)) as [|[]|q]; try discriminate; [reflexivity|].
    cbn in H. rb. rewrite xsqrt_fin by auto. cbn. rb. apply sqrt_pos.
  Qed.

  Lemma xsqrt_le a b : xle (XFin 0) a = true -> xle a b = true -> xle (xsqrt a) (xsqrt b) = true.
  Proof.
    destruct a as [|[]|x], b as [|[]|y]; intros H1 H2; try discriminate H1; try discriminate H2; try reflexivity.
    - cbn in H1. rb. rewrite xsqrt_fin by auto. reflexivity.
    - cbn in H1, H2. rb. rewrite !xsqrt_fin by lra. cbn. rb. apply sqrt_le_1; lra.
  Qed.

  Lemma sqrt_pw k : sqrt (pw (2 * k)) = pw k.
  Proof. replace (2 * k)%Z with (k + k)%Z by lia. rewrite bpow_plus. apply sqrt_square. apply bpow_ge_0. Qed.

  (** a component of size at least 2^k makes the length at least 2^k *)
  Lemma len_ge v (x : b32) r k : fis_nan (vx v) = false -> fis_nan (vy v) = false -> fis_nan (vz v) = false ->
    x = vx v \/ x = vy v \/ x = vz v -> emb x = XFin r -> (-149 <= 2 * k)%Z -> (k <= 127)%Z -> pw k <= Rabs r ->
    xle (XFin (pw k)) (emb (v3length v)) = true.
  Proof.
    intros A B C Hx Ex K1 K2 Hr.
    assert (S : pw (2 * k) <= r * r).
    { replace (r * r) with (Rabs r * Rabs r) by (unfold Rabs; destruct (Rcase_abs r); lra).
      replace (2 * k)%Z with (k + k)%Z by lia. rewrite bpow_plus. pose proof (bpow_ge_0 radix2 k).
      apply Rmult_le_compat; lra. }
    destruct (Z_le_gt_dec k 63) as [K|K].
    - assert (S1 : xle (XFin (pw (2 * k))) (emb (fmul x x)) = true).
      { rewrite emb_mul, Ex. cbn [xmul]. rewrite <- (rn_pw L (2 * k)) by lia. apply rn_le. cbn. rb. exact S. }
      pose proof (sq3_ge v x A B C Hx) as S2. pose proof (xle_trans _ _ _ S1 S2) as S3.
      unfold v3length. fold (sq3 v). rewrite emb_sqrt. rewrite <- (rn_pw L k) by lia. apply rn_le.
      rewrite <- sqrt_pw, <- xsqrt_fin by apply bpow_ge_0. apply xsqrt_le; [cbn; rb; apply bpow_ge_0|exact S3].
    - assert (S1 : emb (fmul x x) = XInf false).
      { rewrite emb_mul, Ex. cbn [xmul]. cbn [rn B32_FLaws]. unfold rndX. 
        assert (G : pw 128 <= round radix2 (SpecFloat.fexp 24 128) (round_mode mode_NE) (r * r)).
        { rewrite <- (round_generic radix2 (SpecFloat.fexp 24 128) (round_mode mode_NE) (pw 128)).
          - apply round_le; try typeclasses eauto. eapply Rle_trans; [|exact S]. apply bpow_le. lia.
          - apply generic_format_bpow. unfold SpecFloat.fexp, SpecFloat.emin. lia. }
        rewrite Rlt_bool_false.
        2:{ eapply Rle_trans; [exact G|]. apply Rle_abs. }
        f_equal. unfold Rsgn. apply Rlt_bool_false. nra. }
      pose proof (sq3_ge v x A B C Hx) as S2. rewrite S1 in S2.
      unfold v3length. fold (sq3 v). rewrite emb_sqrt. destruct (emb (sq3 v)) as [|[]|q]; try discriminate.
      cbn [xsqrt]. rewrite rn_inf. reflexivity.
  Qed.

  (** the smallest positive number *)
  Lemma pos_min (x : b32) r : emb x = XFin r -> 0 < r -> pw (-149) <= r.
  Proof.
    intros E H. cbn in E. apply B2X_fin_inv in E as [Fx <-].
    destruct x as [| | |s m e bnd]; try discriminate; cbn in H; try lra.
    cbn [B2R]. destruct s; [exfalso; pose proof (F2R_lt_0 radix2 (Float radix2 (Z.neg m) e) ltac:(cbn; lia)); cbn in *; lra|].
    unfold Defs.F2R. cbn [Fnum Fexp SpecFloat.cond_Zopp].
    assert (He : (-149 <= e)%Z).
    { pose proof bnd as b2. apply andb_prop in b2 as [b2 _]. unfold SpecFloat.canonical_mantissa in b2. apply Zeq_bool_eq in b2.
      unfold SpecFloat.fexp, SpecFloat.emin in b2. lia. }
    rewrite <- (Rmult_1_l (pw (-149))). apply Rmult_le_compat; [lra|apply bpow_ge_0|apply IZR_le; cbn; lia|now apply bpow_le].
  Qed.

  (** a positive length is at least 2^-75 *)
  Lemma len_min (v : V3 b32) l : fis_nan (vx v) = false -> fis_nan (vy v) = false -> fis_nan (vz v) = false ->
    emb (v3length v) = XFin l -> l <> 0 -> pw (-75) <= l.
  Proof.
    intros A B C E H. pose proof (sq3_nonneg v A B C) as S. unfold v3length in E. fold (sq3 v) in E. rewrite emb_sqrt in E.
    destruct (emb (sq3 v)) as [|[]|q] eqn:Eq; try discriminate.
    cbn in S. rb. rewrite xsqrt_fin in E by auto.
    assert (q <> 0). { intros ->. rewrite sqrt_0, rn_0 in E. injection E as <-. now apply H. }
    assert (Q : pw (-149) <= q) by (eapply pos_min; [exact Eq|lra]).
    eapply (rn_ge_pw L (-75) (sqrt q)); [lia| |exact E].
    rewrite <- (sqrt_pw (-75)). apply sqrt_le_1; [apply bpow_ge_0|lra|]. eapply Rle_trans; [|exact Q]. apply bpow_le. lia.
  Qed.

  (** a component is at most twice the length *)
  Lemma comp_le v (x : b32) r l : fis_nan (vx v) = false -> fis_nan (vy v) = false -> fis_nan (vz v) = false ->
    x = vx v \/ x = vy v \/ x = vz v -> emb x = XFin r -> emb (v3length v) = XFin l -> l <> 0 -> Rabs r <= 2 * l.
  Proof.
    intros A B C Hx Ex El Hl. pose proof (len_min v l A B C El Hl) as M.
    destruct (Req_dec r 0) as [-> |Hr]. { rewrite Rabs_R0. pose proof (bpow_gt_0 radix2 (-75)). lra. }
    destruct (mag radix2 r) as (k & Hk). cbn in Hk. specialize (Hk Hr).
    assert (Hub : (k <= 128)%Z).
    { cbn in Ex. apply B2X_fin_inv in Ex as [Fx Rx]. pose proof (abs_B2R_lt_emax 24 128 x) as U. rewrite Rx in U.
      assert (pw (k - 1) < pw 128) by lra. apply lt_bpow in H. lia. }
    destruct (Z_le_gt_dec (-149) (2 * (k - 1))) as [K|K].
    - pose proof (len_ge v x r (k - 1) A B C Hx Ex K ltac:(lia) (proj1 Hk)) as S. rewrite El in S. cbn in S. rb.
      replace k with (k - 1 + 1)%Z in Hk by lia. rewrite pw_double in Hk. lra.
    - assert (pw k <= pw (-74)) by (apply bpow_le; lia). change (-74)%Z with (-75 + 1)%Z in H. rewrite pw_double in H. lra.
  Qed.

  (** normalising finite components by a length that is not zero *)
  Lemma normalize_bd (v : V3 b32) : (exists a b c, emb (vx v) = XFin a /\ emb (vy v) = XFin b /\ emb (vz v) = XFin c) ->
    emb (v3length v) <> XFin 0 -> vb L 1 (v3normalize v).
  Proof.
    intros (a & b & c & Ea & Eb & Ec) Hl.
    assert (Na : fis_nan (vx v) = false) by now rewrite emb_nan, Ea.
    assert (Nb : fis_nan (vy v) = false) by now rewrite emb_nan, Eb.
    assert (Nc : fis_nan (vz v) = false) by now rewrite emb_nan, Ec.
    assert (K : forall x r, x = vx v \/ x = vy v \/ x = vz v -> emb x = XFin r -> bd L 1 (fdiv x (v3length v))).
    { intros x r Hx Ex. pose proof (len_nonneg v Na Nb Nc) as S. unfold bd. rewrite emb_div, Ex by auto.
      destruct (emb (v3length v)) as [|[]|l] eqn:El; try discriminate.
      - exists 0. cbn [xdiv]. rewrite rn_0. split; auto. rewrite Rabs_R0. apply bpow_ge_0.
      - cbn in S. rb. assert (l <> 0) by congruence.
        rewrite xdiv_fin by auto. apply rn_bd; [lia|]. pose proof (comp_le v x r l Na Nb Nc Hx Ex El H) as U.
        unfold Rdiv. rewrite Rabs_mult, Rabs_inv, (Rabs_pos_eq l) by auto. change (pw 1) with 2.
        apply Rmult_le_reg_r with l; [lra|]. rewrite Rmult_assoc, Rinv_l by auto. lra. }
    repeat split; cbn [v3normalize vx vy vz]; eapply K; eauto.
  Qed.
  Lemma normalize_vb k v : vb L k v -> flt f0 (v3length v) = true -> vb L 1 (v3normalize v).
  Proof.
    intros ((a & Ea & _) & (b & Eb & _) & (c & Ec & _)) H. apply normalize_bd; [eauto 8|].
    intros E. rewrite emb_lt, E, emb_f0 in H. cbn in H. rb. lra.
  Qed.

  (** numbers below 2^-150 are rounded to zero *)
  Lemma rn_tiny r : Rabs r < pw (-150) -> rnb (XFin r) = XFin 0.
  Proof.
    intros H. change rnb with (rndX (prec := 24) (emax := 128)). unfold rndX.
    assert (E : round radix2 (SpecFloat.fexp 24 128) ZnearestE r = 0).
    { destruct (Req_dec r 0) as [-> |Hr]; [apply round_0; typeclasses eauto|].
      destruct (mag radix2 r) as (k & Hk). cbn in Hk. specialize (Hk Hr).
      assert (pw (k - 1) < pw (-150)) by lra. apply lt_bpow in H0.
      apply (round_N_small radix2 (SpecFloat.fexp 24 128) _ r k); [exact Hk|]. unfold SpecFloat.fexp, SpecFloat.emin. lia. }
    rewrite E. rewrite Rabs_R0, Rlt_bool_true by apply bpow_gt_0. reflexivity.
  Qed.

  Lemma sqr_bd x r k : emb (x : b32) = XFin r -> Rabs r < pw k -> (-149 <= 2 * k <= 127)%Z -> bd L (2 * k) (fmul x x).
  Proof.
    intros E H K. replace (2 * k)%Z with (k + k)%Z by lia. apply bd_mul; [lia| |]; exists r; split; auto; lra.
  Qed.

  (** the length is at most eight times some component *)
  Lemma comp_ge v a b c l : emb (vx v) = XFin a -> emb (vy v) = XFin b -> emb (vz v) = XFin c ->
    emb (v3length v : b32) = XFin l -> l <> 0 -> l / 8 <= Rabs a \/ l / 8 <= Rabs b \/ l / 8 <= Rabs c.
  Proof.
    intros Ea Eb Ec El Hl.
    assert (Na : fis_nan (vx v) = false) by now rewrite emb_nan, Ea.
    assert (Nb : fis_nan (vy v) = false) by now rewrite emb_nan, Eb.
    assert (Nc : fis_nan (vz v) = false) by now rewrite emb_nan, Ec.
    pose proof (len_min v l Na Nb Nc El Hl) as M. pose proof (bpow_gt_0 radix2 (-75)) as P75.
    destruct (Rle_dec (l / 8) (Rabs a)) as [|Ha]; [auto|]. destruct (Rle_dec (l / 8) (Rabs b)) as [|Hb]; [auto|].
    destruct (Rle_dec (l / 8) (Rabs c)) as [|Hc]; [auto|]. exfalso. apply Rnot_le_lt in Ha, Hb, Hc.
    pose proof (sq3_nonneg v Na Nb Nc) as S. unfold v3length in El. fold (sq3 v) in El. rewrite emb_sqrt in El.
    destruct (emb (sq3 v)) as [|[]|q] eqn:Eq; try discriminate. cbn in S. rb. rewrite xsqrt_fin in El by auto.
    destruct (mag radix2 l) as (j & Hj). cbn in Hj. specialize (Hj Hl). rewrite Rabs_pos_eq in Hj by lra.
    assert (Hq : q < pw 128).
    { change (B2X (sq3 v) = XFin q) in Eq. apply B2X_fin_inv in Eq as [_ Rq]. pose proof (abs_B2R_lt_emax 24 128 (sq3 v)) as U. rewrite Rq in U. pose proof (Rle_abs q). lra. }
    assert (Hs : sqrt q <= pw 64).
    { rewrite <- (sqrt_pw 64). apply sqrt_le_1; [lra|apply bpow_ge_0|]. cbn [Z.mul Pos.mul]. lra. }
    assert (J : (j <= 65)%Z).
    { destruct (rn_bd L 64 (sqrt q) ltac:(lia)) as (q' & Eq' & Hq'). { rewrite Rabs_pos_eq by apply sqrt_pos. exact Hs. }
      rewrite El in Eq'. injection Eq' as <-. rewrite Rabs_pos_eq in Hq' by lra. assert (pw (j - 1) <= pw 64) by lra. apply le_bpow in H. lia. }
    assert (U : forall t, t < l / 8 -> t < pw (j - 3)).
    { intros t Ht. eapply Rlt_le_trans; [exact Ht|]. replace j with (j - 3 + 3)%Z in Hj by lia. rewrite bpow_plus in Hj. change (pw 3) with 8 in Hj. lra. }
    apply U in Ha, Hb, Hc.
    destruct (Z_le_gt_dec (-149) (2 * (j - 3))) as [K|K].
    - assert (B : bd L (2 * (j - 3) + 1 + 1) (sq3 v)).
      { unfold sq3. apply bd_add; [lia| |]; [apply bd_add; [lia| |]|apply (bd_mono L (2 * (j - 3))); [lia|]];
          (eapply sqr_bd; [eassumption|eassumption|lia]). }
      destruct B as (q' & Eq' & B). rewrite Eq in Eq'. injection Eq' as <-. rewrite Rabs_pos_eq in B by auto.
      assert (Hs' : sqrt q <= pw (j - 2)). { rewrite <- (sqrt_pw (j - 2)). apply sqrt_le_1; [lra|apply bpow_ge_0|]. replace (2 * (j - 2))%Z with (2 * (j - 3) + 1 + 1)%Z by lia. exact B. }
      destruct (rn_bd L (j - 2) (sqrt q) ltac:(lia)) as (q' & Eq' & Hq'). { rewrite Rabs_pos_eq by apply sqrt_pos. exact Hs'. }
      rewrite El in Eq'. injection Eq' as <-. rewrite Rabs_pos_eq in Hq' by lra.
      assert (pw (j - 1) <= pw (j - 2)) by lra. apply le_bpow in H. lia.
    - assert (Z : forall x r, emb (x : b32) = XFin r -> Rabs r < pw (j - 3) -> emb (fmul x x) = XFin 0).
      { intros x r E H. rewrite emb_mul, E. cbn [xmul]. apply rn_tiny. rewrite Rabs_mult.
        apply Rlt_le_trans with (pw (j - 3) * pw (j - 3)); [apply Rmult_le_0_lt_compat; auto using Rabs_pos|].
        rewrite <- bpow_plus. apply bpow_le. lia. }
      assert (Q : emb (sq3 v) = XFin 0).
      { unfold sq3. rewrite !emb_add. rewrite (Z _ a), (Z _ b), (Z _ c) by auto. cbn [xadd]. rewrite Rplus_0_r, rn_0. cbn [xadd]. rewrite Rplus_0_r. apply rn_0. }
      rewrite Eq in Q. injection Q as ->. rewrite sqrt_0, rn_0 in El. injection El as <-. now apply Hl.
  Qed.
End Len.
