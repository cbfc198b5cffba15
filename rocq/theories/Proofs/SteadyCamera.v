(** * Camera rays of tame cameras (for C70) *)
From Coq Require Import ZArith Reals Bool List Lra Lia.
From Flocq Require Import Core IEEE754.BinarySingleNaN.
From Verif Require Import Model.Num Model.NumX Model.NumB Model.Vector Model.Common Model.BBox Model.Matrix Model.Transform Model.Camera.
From Verif Require Import Spec.TameSpec.
From Verif Require Import Proofs.XBase Proofs.BBase Proofs.FLaws Proofs.Bounds Proofs.Lengths Proofs.SteadyProofs Proofs.SteadySphere.
Import ListNotations.
Local Open Scope R_scope.

Section Cam.
  Context (L : Libm b32).
  Local Existing Instance B32_FOps.
  Local Existing Instance B32_FLaws.
  Notation rnb := (@rn b32 (B32_FOps L) (B32_FLaws L)).
  Notation bd := (bd L). Notation vb := (vb L). Notation nan := (nan L). Notation vn := (vn L). Notation has_nan := (has_nan L).

  (** infinite, or of size at least 2^-60, or NaN *)
  Definition deep (z : b32) : Prop := nan z \/ (exists s, emb z = XInf s) \/ exists r, emb z = XFin r /\ pw (-60) <= Rabs r.

  Lemma inf_normalize (v : V3 b32) x s : fis_nan (vx v) = false -> fis_nan (vy v) = false -> fis_nan (vz v) = false ->
    x = vx v \/ x = vy v \/ x = vz v -> emb x = XInf s -> has_nan (v3normalize v).
  Proof.
    intros A B C Hx Ex. pose proof (len_inf L v x s A B C Hx Ex) as El.
    destruct Hx as [-> | [-> | -> ] ]; [left|right; left|right; right]; cbn [v3normalize vx vy vz]; eapply nan_inf_inf; eauto.
  Qed.

  Lemma deep_normalize (v : V3 b32) : deep (vz v) -> has_nan (v3normalize v) \/ vb 1 (v3normalize v).
  Proof.
    intros D. destruct (has_nan_dec L v) as [N|(A & B & C)]; [left; now apply vn_has, has_nan_normalize|].
    destruct (fin_or_inf L _ A) as [(a & Ea)|(s & Ea)]; [|left; eapply (inf_normalize v (vx v)); eauto].
    destruct (fin_or_inf L _ B) as [(b & Eb)|(s & Eb)]; [|left; eapply (inf_normalize v (vy v)); eauto].
    destruct (fin_or_inf L _ C) as [(c & Ec)|(s & Ec)]; [|left; eapply (inf_normalize v (vz v)); eauto].
    right. apply normalize_bd; [eauto 8|]. destruct D as [N|[(s & D)|(r & D & Hr)]]; [unfold Bounds.nan in N; congruence|congruence|].
    intros E0. pose proof (len_ge L v (vz v) r (-60) A B C ltac:(auto) D ltac:(lia) ltac:(lia) Hr) as G. rewrite E0 in G.
    pose proof (bpow_gt_0 radix2 (-60)). cbn [xle] in G. rb. lra.
  Qed.

  (** a row of the matrix without x and y *)
  Lemma row_const (a b c d x y : b32) : feq a f0 = true -> feq b f0 = true -> is_finite c = true ->
    nan (fadd (fadd (fadd (fmul a x) (fmul b y)) (fmul c f0)) d) \/ emb (fadd (fadd (fadd (fmul a x) (fmul b y)) (fmul c f0)) d) = emb d.
  Proof.
    intros Ha Hb Fc.
    assert (Z : forall u, feq u f0 = true -> emb (u : b32) = XFin 0).
    { intros u Hu. rewrite emb_eq, emb_f0 in Hu. destruct (emb u) as [|[]|r]; try discriminate. cbn in Hu. rb. congruence. }
    apply Z in Ha, Hb.
    assert (M : forall u v, emb (u : b32) = XFin 0 -> nan (fmul u v) \/ emb (fmul u v) = XFin 0).
    { intros u v Hu. destruct (emb v) as [|s|r] eqn:Ev.
      - left. now apply nan_mul_r.
      - left. eapply nan_0_inf; eauto.
      - right. rewrite emb_mul, Hu, Ev. cbn [xmul]. rewrite Rmult_0_l. apply rn_0. }
    destruct (M a x Ha) as [N|E1]; [left; now apply nan_add_l, nan_add_l, nan_add_l|].
    destruct (M b y Hb) as [N|E2]; [left; apply nan_add_l, nan_add_l; now apply nan_add_r|].
    assert (E3 : emb (fmul c f0) = XFin 0).
    { rewrite emb_mul, emb_f0. change (emb c) with (B2X c). rewrite (B2X_fin c Fc). cbn [xmul]. rewrite Rmult_0_r. apply rn_0. }
    right. rewrite (emb_add (fadd (fadd (fmul a x) (fmul b y)) (fmul c f0)) d), (emb_add (fadd (fmul a x) (fmul b y))), (emb_add (fmul a x)), E1, E2, E3.
    cbn [xadd]. rewrite Rplus_0_r, rn_0. cbn [xadd]. rewrite Rplus_0_r, rn_0, xadd_0_l. apply rn_emb.
  Qed.

  Lemma nan_row (a b c : b32) v : has_nan v -> nan (fadd (fadd (fmul a (vx v)) (fmul b (vy v))) (fmul c (vz v))).
  Proof. intros H. exact (has_nan_dot_r L (mkV3 a b c) v H). Qed.

  Lemma camera_dir k c p : tame_camera L c -> (0 <= k <= 24)%Z ->
    (let m := t_m (c_camera_to_world c) in
      within3 (2 ^ k) (mkV3 (m00 m) (m01 m) (m02 m)) /\ within3 (2 ^ k) (mkV3 (m10 m) (m11 m) (m12 m)) /\ within3 (2 ^ k) (mkV3 (m20 m) (m21 m) (m22 m))) ->
    exists r, generate_ray Release c p = Ok r /\ (vn (r_d r) \/ vb (k + 3) (r_d r)).
  Proof.
    intros [Hz Hw Hd _] Hk Hm. unfold generate_ray, t_point, xf_point. cbn [rbind vx vy vz]. cbv zeta.
    unfold t_ray, xf_ray, xf_point. cbn [rbind r_d]. cbv zeta. eexists. split; [reflexivity|]. cbn [r_d].
    set (m := t_m (c_raster_to_camera c)) in *. cbv zeta in *.
    destruct Hz as (Z0 & Z1 & Z2). destruct Hw as (W0 & W1 & W2).
    pose proof (row_const (m20 m) (m21 m) (m22 m) (m23 m) (px p) (py p) Z0 Z1 Z2) as Rz.
    pose proof (row_const (m30 m) (m31 m) (m32 m) (m33 m) (px p) (py p) W0 W1 W2) as Rw.
    set (zp := fadd (fadd (fadd (fmul (m20 m) _) _) _) _) in *. set (wp := fadd (fadd (fadd (fmul (m30 m) _) _) _) _) in *.
    set (xp := fadd (fadd (fadd (fmul (m00 m) _) _) _) _). set (yp := fadd (fadd (fadd (fmul (m10 m) _) _) _) _).
    clearbody xp yp zp wp.
    set (q := if feq wp f1 then _ else _).
    assert (D : deep (vz q)).
    { assert (Dd : nan (fdiv (m23 m) (m33 m)) \/ (exists s, emb (fdiv (m23 m) (m33 m)) = XInf s) \/ exists r, emb (fdiv (m23 m) (m33 m)) = XFin r /\ pw (-60) <= Rabs r).
      { change (fle (fdiv f1 (fofZ (2 ^ 60))) (fabs (fdiv (m23 m) (m33 m))) = true) in Hd. rewrite emb_le, emb_abs in Hd.
        assert (E60 : emb (fdiv f1 (fofZ (2 ^ 60)) : b32) = XFin (pw (-60))).
        { assert (E6 : emb (fofZ (2 ^ 60) : b32) = XFin (pw 60)).
          { rewrite emb_ofZ. rewrite <- (rn_pw L 60) by lia. f_equal. }
          rewrite emb_div, emb_f1, E6. 2:{ rewrite E6. intros E. injection E. pose proof (bpow_gt_0 radix2 60). lra. }
          rewrite xdiv_fin by (pose proof (bpow_gt_0 radix2 60); lra).
          replace (1 / pw 60) with (pw (-60)); [apply rn_pw; lia|]. cbn. lra. }
        rewrite E60 in Hd. destruct (emb (fdiv (m23 m) (m33 m))) as [|s|r]; [discriminate|right; left; eauto|].
        right. right. exists r. split; auto. cbn [xabs xle] in Hd. now rb. }
      unfold q. destruct (feq wp f1) eqn:Ew.
      - cbn [vz]. destruct Rz as [N|Ez]; [now left|]. destruct Rw as [N|Eww].
        { exfalso. rewrite emb_eq in Ew. rewrite N in Ew. discriminate. }
        assert (E1 : emb (m33 m) = XFin 1).
        { rewrite emb_eq, Eww, emb_f1 in Ew. destruct (emb (m33 m)) as [|[]|r]; try discriminate. cbn in Ew. rb. congruence. }
        rewrite (emb_over_1 L _ _ E1), <- Ez in Dd. unfold deep, Bounds.nan. destruct Dd as [N|Dd]; [|auto].
        left. unfold Bounds.nan in N. rewrite (emb_over_1 L _ _ E1) in N. congruence.
      - cbn [v3divs vz]. destruct Rz as [N|Ez]; [left; now apply nan_div_l|]. destruct Rw as [N|Eww]; [left; now apply nan_div_r|].
        destruct (emb (m33 m)) as [|s3|r3] eqn:E3.
        + left. now apply nan_div_r.
        + unfold deep, Bounds.nan. rewrite emb_div, Ez, Eww by (rewrite Eww; discriminate).
          rewrite emb_div, E3 in Dd by (rewrite E3; discriminate). unfold Bounds.nan in Dd. rewrite emb_div, E3 in Dd by (rewrite E3; discriminate). exact Dd.
        + destruct (Req_dec r3 0) as [-> |H3].
          * destruct (div_x_0 L zp wp Eww) as [N|I]; [now left|right; now left].
          * unfold deep, Bounds.nan. rewrite emb_div, Ez, Eww by (rewrite Eww; congruence).
            unfold Bounds.nan in Dd. rewrite !emb_div, E3 in Dd by (rewrite E3; congruence). exact Dd. }
    clearbody q. destruct (deep_normalize q D) as [N|V].
    - left. unfold xf_vector. repeat split; cbn [vx vy vz]; now apply nan_row.
    - right. destruct Hm as (M0 & M1 & M2). apply (within3_vb L k) in M0, M1, M2; try lia.
      assert (R : forall a b cc, vb k (mkV3 a b cc) -> bd (k + 3) (v3dot (mkV3 a b cc) (v3normalize q))).
      { intros a b cc Hv. apply (bd_mono L (k + 1 + 2)); [lia|]. apply bd_dot; auto. lia. }
      unfold xf_vector. repeat split; cbn [vx vy vz]; [exact (R _ _ _ M0)|exact (R _ _ _ M1)|exact (R _ _ _ M2)].
  Qed.

  Lemma camera_steady c p : tame_camera L c -> exists r, generate_ray Release c p = Ok r /\ steady (r_d r).
  Proof.
    intros H. destruct (camera_dir 20 c p H ltac:(lia) (tc_world L c H)) as (r & E & [N|V]); exists r; split; auto; [now apply (vn_steady L)|now apply (vb_steady L _) in V].
  Qed.

  (** a debug build accepts every ray of an upright camera *)
  Lemma camera_debug c p : tame_camera L c -> upright_camera L c -> generate_ray Debug c p = generate_ray Release c p.
  Proof.
    intros [_ Hw _ _] [U1 U2]. unfold generate_ray, t_point, t_ray, xf_ray, xf_point. cbn [rbind vx vy vz r_o r_d r_tmax ray_default]. cbv zeta in *.
    set (m := t_m (c_raster_to_camera c)) in *. set (w := t_m (c_camera_to_world c)) in *. destruct Hw as (W0 & W1 & W2).
    destruct U2 as (F0 & F1 & F2 & F3).
    pose proof (row_const (m30 m) (m31 m) (m32 m) (m33 m) (px p) (py p) W0 W1 W2) as Rw.
    set (wp := fadd (fadd (fadd (fmul (m30 m) _) _) _) _) in *.
    assert (E1 : feq wp f0 = false).
    { destruct Rw as [N|E]; rewrite emb_eq; [rewrite N; reflexivity|]. rewrite E, <- emb_eq. exact U1. }
    rewrite E1. cbn [rbind].
    assert (Z : forall a : b32, is_finite a = true -> emb (fmul a f0) = XFin 0).
    { intros a Fa. rewrite emb_mul, emb_f0. change (emb a) with (B2X a). rewrite (B2X_fin a Fa). cbn [xmul]. rewrite Rmult_0_r. apply rn_0. }
    assert (E2 : feq (fadd (fadd (fadd (fmul (m30 w) f0) (fmul (m31 w) f0)) (fmul (m32 w) f0)) (m33 w)) f0 = false).
    { rewrite emb_eq, (emb_add (fadd (fadd (fmul (m30 w) f0) (fmul (m31 w) f0)) (fmul (m32 w) f0)) (m33 w)), (emb_add (fadd (fmul (m30 w) f0) (fmul (m31 w) f0))), (emb_add (fmul (m30 w) f0)), !Z by assumption.
      cbn [xadd]. rewrite Rplus_0_r, rn_0. cbn [xadd]. rewrite Rplus_0_r, rn_0, xadd_0_l, rn_emb, <- emb_eq. exact F3. }
    change (vx (v3zero : V3 b32)) with (f0 : b32). change (vy (v3zero : V3 b32)) with (f0 : b32). change (vz (v3zero : V3 b32)) with (f0 : b32). rewrite E2. reflexivity.
  Qed.
End Cam.
