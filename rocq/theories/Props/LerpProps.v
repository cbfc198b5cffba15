(** * C111: interpolation *)
From Coq Require Import ZArith Reals Bool List Lra Lia.
From Flocq Require Import Core Relative Plus_error IEEE754.BinarySingleNaN.
From Verif Require Import Model.Num Model.NumX Model.NumB Model.Vector Model.Common Model.Lerp.
From Verif Require Import Spec.RVec Proofs.XBase Proofs.BBase Proofs.FLaws Proofs.RVecProofs Proofs.RoundProofs.
Local Open Scope R_scope.

(** Exact arithmetic: the ends, and everything in between in order. *)
Theorem C111_between : forall t t' a b : R, 0 <= t <= t' -> t' <= 1 -> exists x y,
  lerp (XFin t) (XFin a) (XFin b) = XFin x /\ lerp (XFin t') (XFin a) (XFin b) = XFin y /\
  Rmin a b <= x <= Rmax a b /\ (t = 0 -> x = a) /\ (t = 1 -> x = b) /\
  (a <= b -> x <= y) /\ (b <= a -> y <= x) /\ (a < b -> t < t' -> x < y).
Proof.
  intros t t' a b H H'. exists ((1 - t) * a + t * b), ((1 - t') * a + t' * b).
  unfold lerp. change (@f1 XR _) with (XFin 1). split; [reflexivity|]. split; [reflexivity|].
  split; [|repeat split; intros; subst; nra]. unfold Rmin, Rmax. destruct (Rle_dec a b); nra.
Qed.

(** The colour is interpolated channel by channel, in exact arithmetic and in binary32 alike. *)
Lemma channels (F : Type) (FO : FOps F) (a b : V3 F) (t : F) :
  (forall x y : F, fmul x y = fmul y x) ->
  spectrum_lerp a b t = mkV3 (lerp t (vx a) (vx b)) (lerp t (vy a) (vy b)) (lerp t (vz a) (vz b)).
Proof.
  intros C. unfold spectrum_lerp, lerp, v3add, v3scale, v3map2. cbn [vx vy vz].
  now rewrite (C (vx a)), (C (vy a)), (C (vz a)), (C (vx b)), (C (vy b)), (C (vz b)).
Qed.
Lemma b32_mul_comm (x y : b32) : Bmult mode_NE x y = Bmult mode_NE y x.
Proof.
  apply B2SF_inj. destruct x as [s|s| |s m e h], y as [s'|s'| |s' m' e' h']; cbn; try reflexivity; try (now rewrite (xorb_comm s)).
  rewrite !B2SF_SF2B. now rewrite (xorb_comm s), (Pos.mul_comm m), (Z.add_comm e).
Qed.
Lemma x_mul_comm (x y : XR) : xmul x y = xmul y x.
Proof.
  destruct x as [|s|r], y as [|s'|r']; cbn; try reflexivity.
  - now rewrite xorb_comm.
  - now rewrite Rmult_comm.
Qed.
Theorem C111_channels :
  (forall (a b : V3 XR) (t : XR),
     spectrum_lerp a b t = mkV3 (lerp t (vx a) (vx b)) (lerp t (vy a) (vy b)) (lerp t (vz a) (vz b))) /\
  (forall (L : Libm b32) (a b : V3 b32) (t : b32), let _ := B32_FOps L in
     spectrum_lerp a b t = mkV3 (lerp t (vx a) (vx b)) (lerp t (vy a) (vy b)) (lerp t (vz a) (vz b))).
Proof. split; intros; apply channels; [apply x_mul_comm|apply b32_mul_comm]. Qed.

Section B.
  Context (L : Libm b32).
  Local Existing Instance B32_FOps.

  Lemma nn_one_minus t r : nn t r -> r <= 1 -> exists c, nn (fsub f1 t) c /\ (1 - u) * (1 - r) <= c <= (1 + u) * (1 - r).
  Proof.
    intros (Ft & <- & Ht) H1.
    assert (F1 : is_finite (f1 : b32) = true) by reflexivity. assert (E1 : B2R (f1 : b32) = 1) by (unfold B2R, F2R; cbn; lra).
    destruct (FLT_plus_error_N_ex radix2 (-149) 24 (fun z => negb (Z.even z)) 1 (- B2R t)) as (eps & He & E).
    { rewrite <- E1. apply fmt. } { apply generic_format_opp, fmt. }
    assert (Hu : Rabs eps <= u) by (eapply Rle_trans; [exact He|]; rewrite u_ro_24; unfold u; lra).
    apply Rabs_le_inv in Hu. pose proof u_range as U.
    exists (rndR (1 - B2R t)). split.
    - apply of_X.
      + change (fsub f1 t) with (Bminus mode_NE (f1 : b32) t). rewrite B2X_minus, !B2X_fin by auto. rewrite E1. cbn [xsub]. apply rndX_small.
        rewrite Rabs_pos_eq by lra. assert (1 <= IZR (2 ^ 126)) by (apply IZR_le; lia). lra.
      + change ZnearestE with (Znearest (fun z => negb (Z.even z))). unfold Rminus. rewrite E. nra.
    - change ZnearestE with (Znearest (fun z => negb (Z.even z))). unfold Rminus. rewrite E. nra.
  Qed.

  Lemma rnd_id (x : b32) : rndR (B2R x) = B2R x.
  Proof. apply round_generic; auto with typeclass_instances. apply fmt. Qed.
  Lemma lerp_at (t a b : b32) rt ra rb : nn t rt -> nn a ra -> nn b rb -> ra <= IZR (2 ^ 120) -> rb <= IZR (2 ^ 120) ->
    (rt = 0 -> B2R (lerp t a b) = ra) /\ (rt = 1 -> B2R (lerp t a b) = rb).
  Proof.
    intros (Ft & Et & _) (Fa & Ea & Ha) (Fb & Eb & Hb) La Lb.
    assert (B : IZR (2 ^ 126) = 64 * IZR (2 ^ 120)) by (rewrite <- mult_IZR; reflexivity).
    assert (P : 1 <= IZR (2 ^ 120)) by (apply IZR_le; lia).
    assert (E1 : B2X (f1 : b32) = XFin 1) by (rewrite B2X_fin by reflexivity; apply f_equal; unfold B2R, F2R; cbn; lra).
    assert (R1 : rndR 1 = 1) by (change 1 with (bpow radix2 0); apply round_generic; auto with typeclass_instances; apply generic_format_bpow; unfold FLT_exp; lia).
    pose (rX := @rndX 24 128).
    assert (Q : B2X (lerp t a b) = rX (xadd (rX (xmul (rX (xsub (XFin 1) (XFin rt))) (XFin ra))) (rX (xmul (XFin rt) (XFin rb))))).
    { transitivity (B2X (Bplus mode_NE (Bmult mode_NE (Bminus mode_NE (f1 : b32) t) a) (Bmult mode_NE t b))); [reflexivity|].
      rewrite B2X_plus, !B2X_mult, B2X_minus, E1, (B2X_fin t), (B2X_fin a), (B2X_fin b), Et, Ea, Eb by auto. reflexivity. }
    assert (R0 : rndR 0 = 0) by (apply round_0; auto with typeclass_instances).
    assert (Sm : forall r, 0 <= r <= IZR (2 ^ 120) -> rX (XFin r) = XFin (rndR r)).
    { intros r Hr. apply rndX_small. rewrite Rabs_pos_eq by lra. lra. }
    assert (Ra : rndR ra = ra) by (rewrite <- Ea; apply rnd_id). assert (Rb : rndR rb = rb) by (rewrite <- Eb; apply rnd_id).
    split; intros ->; cbn [xsub xmul xadd] in Q.
    - rewrite Rminus_0_r in Q. rewrite (Sm 1), R1 in Q by lra. cbn [xmul] in Q. rewrite Rmult_1_l, Rmult_0_l, (Sm 0), (Sm ra), R0, Ra in Q by lra. cbn [xadd] in Q.
      rewrite Rplus_0_r, (Sm ra), Ra in Q by lra. apply B2X_fin_inv in Q. apply Q.
    - replace (1 - 1) with 0 in Q by ring. rewrite (Sm 0), R0 in Q by lra. cbn [xmul] in Q. rewrite Rmult_1_l, Rmult_0_l, (Sm 0), (Sm rb), R0, Rb in Q by lra. cbn [xadd] in Q.
      rewrite Rplus_0_l, (Sm rb), Rb in Q by lra. apply B2X_fin_inv in Q. apply Q.
  Qed.

  (** Binary32: right at the ends, and between them up to a relative error of 2^-22 (and 2^-148). *)
  Theorem C111_rounding : forall (t a b : b32) (rt ra rb : R),
    nn t rt -> rt <= 1 -> nn a ra -> nn b rb -> ra <= IZR (2 ^ 120) -> rb <= IZR (2 ^ 120) ->
    let m := (1 - rt) * ra + rt * rb in
    exists c, nn (lerp t a b) c /\ Rabs (c - m) <= m * / IZR (2 ^ 22) + / IZR (2 ^ 148) /\
      (rt = 0 -> c = ra) /\ (rt = 1 -> c = rb).
  Proof.
    intros t a b rt ra rb Ht H1 Ha Hb La Lb m. assert (Rt : 0 <= rt) by apply Ht. assert (Ra : 0 <= ra) by apply Ha. assert (Rb : 0 <= rb) by apply Hb.
    pose proof u_range as U. pose proof eta_pos as Ee. assert (B : IZR (2 ^ 126) = 64 * IZR (2 ^ 120)) by (rewrite <- mult_IZR; reflexivity).
    assert (P : 1 <= IZR (2 ^ 120)) by (apply IZR_le; lia).
    assert (El : eta <= 1). { unfold eta. rewrite <- Rinv_1. apply Rinv_le; [lra|]. apply IZR_le. lia. }
    destruct (nn_one_minus t rt Ht H1) as (d & Hd & Bd). assert (Rd : 0 <= d <= 2) by (split; [apply Hd|nra]).
    destruct (nn_mul L _ _ d ra Hd Ha) as (x & Hx & Bx); [nra|].
    destruct (nn_mul L _ _ rt rb Ht Hb) as (y & Hy & By); [nra|].
    assert (Rx : 0 <= x) by apply Hx. assert (Ry : 0 <= y) by apply Hy.
    destruct (nn_add L _ _ x y Hx Hy) as (c & Hc & Bc); [nra|].
    exists c. split; [exact Hc|]. split; [|split].
    - assert (E4 : / IZR (2 ^ 148) = 4 * eta).
      { unfold eta. change (2 ^ 150)%Z with (4 * 2 ^ 148)%Z. rewrite mult_IZR, Rinv_mult. lra. }
      assert (E22 : / IZR (2 ^ 22) = 4 * u) by (unfold u; change (2 ^ 22)%Z with 4194304%Z; lra).
      rewrite E4, E22. set (p := (1 - rt) * ra) in *. set (q := rt * rb) in *. assert (Hp : 0 <= p) by (unfold p; nra). assert (Hq : 0 <= q) by (unfold q; nra).
      assert (Dr : (1 - u) * p <= d * ra <= (1 + u) * p) by (unfold p; nra).
      assert (X : (1 - u) * ((1 - u) * p) - eta <= x <= (1 + u) * ((1 + u) * p) + eta) by nra.
      assert (U3 : (1 + u) * ((1 + u) * (1 + u)) <= 1 + 4 * u) by (unfold u; lra).
      assert (D3 : 1 - 4 * u <= (1 - u) * ((1 - u) * (1 - u))) by (unfold u; lra).
      assert (U2 : (1 + u) * (1 + u) <= (1 + u) * ((1 + u) * (1 + u))) by (unfold u; lra).
      assert (D2 : (1 - u) * ((1 - u) * (1 - u)) <= (1 - u) * (1 - u)) by (unfold u; lra).
      unfold m. apply Rabs_le. split.
      + assert ((1 - u) * (x + y) >= (1 - u) * ((1 - u) * ((1 - u) * p) - eta + ((1 - u) * q - eta))) by nra.
        assert ((1 - u) * ((1 - u) * ((1 - u) * p)) >= (1 - 4 * u) * p) by nra.
        assert ((1 - u) * ((1 - u) * q) >= (1 - 4 * u) * q) by nra. nra.
      + assert ((1 + u) * (x + y) <= (1 + u) * ((1 + u) * ((1 + u) * p) + eta + ((1 + u) * q + eta))) by nra.
        assert ((1 + u) * ((1 + u) * ((1 + u) * p)) <= (1 + 4 * u) * p) by nra.
        assert ((1 + u) * ((1 + u) * q) <= (1 + 4 * u) * q) by nra. nra.
    - intros Z. destruct Hc as (_ & <- & _). now apply (lerp_at t a b rt ra rb).
    - intros Z. destruct Hc as (_ & <- & _). now apply (lerp_at t a b rt ra rb).
  Qed.
End B.

(** In binary32 the result may leave the interval: a fifth of the way from 13 to 13 is above 13. *)
Theorem C111_refuted : forall L : Libm b32, exists t a : b32, let _ := B32_FOps L in
  flt f0 t = true /\ flt t f1 = true /\ flt a (lerp t a a) = true.
Proof. intros L. exists (let _ := B32_FOps L in flit 2 1), (let _ := B32_FOps L in fofZ 13). vm_compute. auto. Qed.

Example C111_example : lerp (XFin (1 / 4)) (XFin 2) (XFin 6) = XFin 3.
Proof. unfold lerp. change (@f1 XR _) with (XFin 1). cbn. apply f_equal. lra. Qed.
