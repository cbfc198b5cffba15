(** * Working with IEEE binary floating point *)
From Coq Require Import ZArith Reals Bool List Lra Lia.
From Flocq Require Import Core IEEE754.BinarySingleNaN.
From Verif Require Import Model.Num Model.NumX Model.NumB Proofs.XBase.
Import ListNotations.
Local Open Scope R_scope.

Section G.
  Context {prec emax : Z} {Hp : Prec_gt_0 prec} {He : Prec_lt_emax prec emax}.
  Notation bf := (binary_float prec emax).
  Notation fexp := (SpecFloat.fexp prec emax).
  Notation rnd := (round radix2 fexp ZnearestE).

  (** The value of a float as an extended real *)
  Definition B2X (x : bf) : XR :=
    match x with
    | B754_nan => XNaN
    | B754_infinity s => XInf s
    | _ => XFin (B2R x)
    end.

  Lemma B2X_fin (x : bf) : is_finite x = true -> B2X x = XFin (B2R x).
  Proof. destruct x; simpl; auto; discriminate. Qed.

  Lemma B2X_nan (x : bf) : xis_nan (B2X x) = is_nan x.
  Proof. now destruct x. Qed.

  Lemma B2X_inf (x : bf) : xis_inf (B2X x) = Bis_inf x.
  Proof. now destruct x. Qed.

  Lemma B2X_lt (x y : bf) : Bltb x y = xlt (B2X x) (B2X y).
  Proof.
    destruct (is_finite x) eqn:Fx, (is_finite y) eqn:Fy.
    - rewrite Bltb_correct by auto. now rewrite !B2X_fin.
    - rewrite (B2X_fin x) by auto. destruct x as [| | |sx mx ex bx], y as [|[]| |]; try discriminate; auto; try (destruct s; reflexivity); try (destruct sx; reflexivity).
    - rewrite (B2X_fin y) by auto. destruct y as [| | |sy my ey bby], x as [|[]| |]; try discriminate; auto; try (destruct s; reflexivity); try (destruct sy; reflexivity).
    - destruct x as [|[]| |], y as [|[]| |]; try discriminate; reflexivity.
  Qed.

  Lemma B2X_le (x y : bf) : Bleb x y = xle (B2X x) (B2X y).
  Proof.
    destruct (is_finite x) eqn:Fx, (is_finite y) eqn:Fy.
    - rewrite Bleb_correct by auto. now rewrite !B2X_fin.
    - rewrite (B2X_fin x) by auto. destruct x as [| | |sx mx ex bx], y as [|[]| |]; try discriminate; auto; try (destruct s; reflexivity); try (destruct sx; reflexivity).
    - rewrite (B2X_fin y) by auto. destruct y as [| | |sy my ey bby], x as [|[]| |]; try discriminate; auto; try (destruct s; reflexivity); try (destruct sy; reflexivity).
    - destruct x as [|[]| |], y as [|[]| |]; try discriminate; reflexivity.
  Qed.

  Lemma B2X_eq (x y : bf) : Beqb x y = xeq (B2X x) (B2X y).
  Proof.
    destruct (is_finite x) eqn:Fx, (is_finite y) eqn:Fy.
    - rewrite Beqb_correct by auto. now rewrite !B2X_fin.
    - rewrite (B2X_fin x) by auto. destruct x as [| | |sx mx ex bx], y as [|[]| |]; try discriminate; auto; try (destruct s; reflexivity); try (destruct sx; reflexivity).
    - rewrite (B2X_fin y) by auto. destruct y as [| | |sy my ey bby], x as [|[]| |]; try discriminate; auto; try (destruct s; reflexivity); try (destruct sy; reflexivity).
    - destruct x as [|[]| |], y as [|[]| |]; try discriminate; reflexivity.
  Qed.

  (** ** Integers *)
  Lemma generic_format_Z (z : Z) : (Z.abs z <= 2 ^ prec)%Z ->
    generic_format radix2 fexp (IZR z).
  Proof.
    intros Hz.
    destruct (Z.eq_dec (Z.abs z) (2 ^ prec)) as [E|E].
    - assert (Hz2 : IZR z = bpow radix2 prec \/ IZR z = - bpow radix2 prec).
      { rewrite <- IZR_Zpower by (unfold Prec_gt_0 in Hp; lia). simpl.
        destruct (Z.abs_spec z) as [[_ H]|[_ H]]; rewrite E in H; rewrite <- ?opp_IZR; [left|right];
        f_equal; change (Z.pow_pos 2) with (Z.pow 2) ; lia. }
      assert (G : generic_format radix2 fexp (bpow radix2 prec)).
      { apply generic_format_bpow. unfold SpecFloat.fexp, SpecFloat.emin, Prec_lt_emax, Prec_gt_0 in *. lia. }
      destruct Hz2 as [-> | ->]; auto. now apply generic_format_opp.
    - apply generic_format_FLT. exists (Float radix2 z 0); simpl.
      + unfold F2R. simpl. lra.
      + lia.
      + unfold SpecFloat.emin, Prec_lt_emax, Prec_gt_0 in *. lia.
  Qed.

  (** ** Rounding of extended reals *)
  Definition rndX (a : XR) : XR :=
    match a with
    | XFin r => if Rlt_bool (Rabs (rnd r)) (bpow radix2 emax) then XFin (rnd r) else XInf (Rsgn r)
    | _ => a
    end.

  Lemma B2X_overflow (x : bf) s : B2SF x = binary_overflow prec emax mode_NE s -> B2X x = XInf s.
  Proof. intros H. destruct x; simpl in H; try discriminate. injection H as ->. reflexivity. Qed.

  Lemma B2R_sign (x : bf) : B2R x <> 0 -> Rsgn (B2R x) = Bsign x.
  Proof.
    destruct x as [| | |s m e b]; simpl; try congruence. intros _. unfold Rsgn. destruct s.
    - apply Rlt_bool_true. now apply F2R_lt_0.
    - apply Rlt_bool_false. apply Rlt_le. now apply F2R_gt_0.
  Qed.

  Lemma rnd_0 : rnd 0 = 0.
  Proof. apply round_0. typeclasses eauto. Qed.

  Lemma rnd_big_nz r : bpow radix2 emax <= Rabs (rnd r) -> r <> 0.
  Proof.
    intros H ->. rewrite rnd_0, Rabs_R0 in H. pose proof (bpow_gt_0 radix2 emax). lra.
  Qed.

  Lemma Bsign_pos_le (x : bf) : Bsign x = false -> 0 <= B2R x.
  Proof. destruct x as [| | |[] m e b]; simpl; try lra; try discriminate. intros _. now apply F2R_ge_0. Qed.
  Lemma Bsign_neg_le (x : bf) : Bsign x = true -> B2R x <= 0.
  Proof. destruct x as [| | |[] m e b]; simpl; try lra; try discriminate. intros _. now apply F2R_le_0. Qed.

  Lemma B2X_opp (x : bf) : B2X (Bopp x) = xneg (B2X x).
  Proof. destruct x as [| | |s m e b]; simpl; auto. f_equal; lra. f_equal. rewrite <- F2R_Zopp. now destruct s. Qed.

  Lemma B2X_abs (x : bf) : B2X (Babs x) = xabs (B2X x).
  Proof.
    destruct x as [| | |s m e b]; simpl; auto. f_equal. now rewrite Rabs_R0. f_equal.
    rewrite <- F2R_Zabs. now destruct s.
  Qed.

  Lemma B2X_plus (x y : bf) : B2X (Bplus mode_NE x y) = rndX (xadd (B2X x) (B2X y)).
  Proof.
    destruct (is_finite x) eqn:Fx, (is_finite y) eqn:Fy.
    - rewrite (B2X_fin x), (B2X_fin y) by auto. simpl.
      pose proof (Bplus_correct prec emax _ _ mode_NE x y Fx Fy) as H. simpl round_mode in H.
      destruct (Rlt_bool _ _) eqn:E.
      + destruct H as (H1 & H2 & _). rewrite B2X_fin by auto. now rewrite H1.
      + destruct H as (H1 & H2). rewrite (B2X_overflow _ _ H1). f_equal. rb.
        apply rnd_big_nz in E. unfold Rsgn.
        destruct (Bsign x) eqn:S1; symmetry in H2; symmetry; rb.
        * apply Bsign_neg_le in S1, H2. lra.
        * apply Bsign_pos_le in S1, H2. lra.
    - rewrite (B2X_fin x) by auto. destruct x as [| | |sx mx ex bx], y as [|[]| |]; try discriminate; auto.
    - rewrite (B2X_fin y) by auto. destruct y as [| | |sx mx ex bx], x as [|[]| |]; try discriminate; auto.
    - destruct x as [|[]| |], y as [|[]| |]; try discriminate; reflexivity.
  Qed.

  Lemma B2X_minus (x y : bf) : B2X (Bminus mode_NE x y) = rndX (xsub (B2X x) (B2X y)).
  Proof.
    destruct (is_finite x) eqn:Fx, (is_finite y) eqn:Fy.
    - rewrite (B2X_fin x), (B2X_fin y) by auto. simpl.
      pose proof (Bminus_correct prec emax _ _ mode_NE x y Fx Fy) as H. simpl round_mode in H.
      destruct (Rlt_bool _ _) eqn:E.
      + destruct H as (H1 & H2 & _). rewrite B2X_fin by auto. now rewrite H1.
      + destruct H as (H1 & H2). rewrite (B2X_overflow _ _ H1). f_equal. rb.
        apply rnd_big_nz in E. unfold Rsgn.
        destruct (Bsign x) eqn:S1, (Bsign y) eqn:S2; try discriminate; symmetry; rb.
        * apply Bsign_neg_le in S1. apply Bsign_pos_le in S2. lra.
        * apply Bsign_pos_le in S1. apply Bsign_neg_le in S2. lra.
    - rewrite (B2X_fin x) by auto. destruct x as [| | |sx mx ex bx], y as [|[]| |]; try discriminate; auto.
    - rewrite (B2X_fin y) by auto. destruct y as [| | |sx mx ex bx], x as [|[]| |]; try discriminate; auto.
    - destruct x as [|[]| |], y as [|[]| |]; try discriminate; reflexivity.
  Qed.

  Lemma Bsign_mult_sgn (x y : bf) : B2R x * B2R y <> 0 -> xorb (Bsign x) (Bsign y) = Rsgn (B2R x * B2R y).
  Proof.
    intros H. assert (Hx : B2R x <> 0) by (intros E; rewrite E in H; lra).
    assert (Hy : B2R y <> 0) by (intros E; rewrite E in H; lra).
    rewrite <- !B2R_sign by auto. unfold Rsgn.
    destruct (Rlt_bool (B2R x) 0) eqn:Ex, (Rlt_bool (B2R y) 0) eqn:Ey; simpl; symmetry; rb; nra.
  Qed.

  Lemma Rsgn_finite s m e : Rsgn (F2R (Float radix2 (cond_Zopp s (Zpos m)) e)) = s.
  Proof. unfold Rsgn. destruct s; rb. now apply F2R_lt_0. apply Rlt_le. now apply F2R_gt_0. Qed.

  Lemma F2R_nz s m e : F2R (Float radix2 (cond_Zopp s (Zpos m)) e) <> 0.
  Proof. destruct s. apply Rlt_not_eq. now apply F2R_lt_0. apply Rgt_not_eq. now apply F2R_gt_0. Qed.

  Lemma B2X_mult (x y : bf) : B2X (Bmult mode_NE x y) = rndX (xmul (B2X x) (B2X y)).
  Proof.
    destruct (is_finite x) eqn:Fx, (is_finite y) eqn:Fy.
    - rewrite (B2X_fin x), (B2X_fin y) by auto. simpl.
      pose proof (Bmult_correct prec emax _ _ mode_NE x y) as H. simpl round_mode in H.
      destruct (Rlt_bool _ _) eqn:E.
      + destruct H as (H1 & H2 & _). rewrite Fx, Fy in H2. rewrite B2X_fin by auto. now rewrite H1.
      + rewrite (B2X_overflow _ _ H). f_equal. rb. apply rnd_big_nz in E. now apply Bsign_mult_sgn.
    - rewrite (B2X_fin x) by auto. destruct x as [| | |sx mx ex bx], y as [|sy| |]; try discriminate; auto; simpl.
      + now rewrite Req_bool_true.
      + rewrite Req_bool_false by apply F2R_nz. rewrite Rsgn_finite. simpl. now rewrite xorb_comm.
    - rewrite (B2X_fin y) by auto. destruct y as [| | |sx mx ex bx], x as [|sy| |]; try discriminate; auto; simpl.
      + now rewrite Req_bool_true.
      + rewrite Req_bool_false by apply F2R_nz. now rewrite Rsgn_finite.
    - destruct x as [|[]| |], y as [|[]| |]; try discriminate; reflexivity.
  Qed.

  Lemma B2X_div (x y : bf) : B2X y <> XFin 0 -> B2X (Bdiv mode_NE x y) = rndX (xdiv (B2X x) (B2X y)).
  Proof.
    intros Hy.
    destruct (is_finite y) eqn:Fy.
    - rewrite (B2X_fin y) in * by auto. assert (Hy' : B2R y <> 0) by congruence.
      destruct (is_finite x) eqn:Fx.
      + rewrite (B2X_fin x) by auto. rewrite xdiv_fin by auto. simpl.
        pose proof (Bdiv_correct prec emax _ _ mode_NE x y Hy') as H. simpl round_mode in H.
        destruct (Rlt_bool _ _) eqn:E.
        * destruct H as (H1 & H2 & _). rewrite Fx in H2. rewrite B2X_fin by auto. now rewrite H1.
        * rewrite (B2X_overflow _ _ H). f_equal. rb. apply rnd_big_nz in E.
          assert (Hx' : B2R x <> 0) by (intros Ex; rewrite Ex in E; unfold Rdiv in E; lra).
          rewrite <- !B2R_sign by auto. unfold Rsgn.
          assert (0 < / B2R y <-> 0 < B2R y). { split; intros. rewrite <- (Rinv_inv (B2R y)). now apply Rinv_0_lt_compat. now apply Rinv_0_lt_compat. }
          assert (/ B2R y <> 0) by now apply Rinv_neq_0_compat.
          assert (/ B2R y < 0 -> B2R y < 0) by (intros; destruct (Rlt_le_dec 0 (B2R y)); [apply H0 in r|]; lra).
          unfold Rdiv.
          destruct (Rlt_bool (B2R x) 0) eqn:Ex, (Rlt_bool (B2R y) 0) eqn:Ey; simpl; symmetry; rb; nra.
      + destruct x as [|sx| |], y as [|sy| |sy my ey bby]; try discriminate; simpl in *; auto; try lra.
        now rewrite Rsgn_finite.
    - destruct x as [|[]| |], y as [|[]| |]; try discriminate; simpl; try reflexivity;
        try (rewrite rnd_0, Rabs_R0, Rlt_bool_true; [reflexivity|apply bpow_gt_0]).
  Qed.

  Lemma sqrt_rnd_bound (x : bf) : is_finite x = true -> 0 <= B2R x ->
    Rabs (rnd (sqrt (B2R x))) < bpow radix2 emax.
  Proof.
    intros Fx Hx. destruct (Bsqrt_correct prec emax _ _ mode_NE x) as (H1 & H2 & _).
    simpl round_mode in H1. rewrite <- H1. apply abs_B2R_lt_emax.
  Qed.

  Lemma B2X_sqrt (x : bf) : B2X (Bsqrt mode_NE x) = rndX (xsqrt (B2X x)).
  Proof.
    destruct (is_finite x) eqn:Fx.
    2:{ destruct x as [|[]| |]; try discriminate; reflexivity. }
    rewrite (B2X_fin x) by auto.
    destruct (Bsqrt_correct prec emax _ _ mode_NE x) as (H1 & H2 & _). simpl round_mode in H1.
    destruct (Rlt_bool (B2R x) 0) eqn:E.
    - simpl. rewrite E. destruct x as [| | |[] m e b]; try discriminate; simpl in *; rb; auto; try lra.
      exfalso. assert (0 < F2R (Float radix2 (Zpos m) e)) by now apply F2R_gt_0. simpl in *. lra.
    - rb. rewrite xsqrt_fin by auto. simpl. rewrite Rlt_bool_true by now apply sqrt_rnd_bound.
      rewrite B2X_fin. now rewrite H1.
      rewrite H2. destruct x as [| | |[] m e b]; try discriminate; auto.
      exfalso. assert (F2R (Float radix2 (Zneg m) e) < 0) by now apply F2R_lt_0. simpl in *. lra.
  Qed.

  (** ** Conversions *)
  Lemma B2X_normalize m e s : B2X (binary_normalize prec emax _ _ mode_NE m e s) = rndX (XFin (F2R (Float radix2 m e))).
  Proof.
    pose proof (binary_normalize_correct prec emax _ _ mode_NE m e s) as H. simpl round_mode in H. cbv zeta in H.
    simpl rndX. destruct (Rlt_bool _ _) eqn:E.
    - destruct H as (H1 & H2 & _). rewrite B2X_fin by auto. now rewrite H1.
    - now rewrite (B2X_overflow _ _ H).
  Qed.

  Lemma B2X_ofZ z : B2X (Bof_Z z : bf) = rndX (XFin (IZR z)).
  Proof. unfold Bof_Z. rewrite B2X_normalize. do 2 f_equal. unfold F2R. simpl. lra. Qed.

  Lemma rndX_format r : generic_format radix2 fexp r -> Rabs r < bpow radix2 emax -> rndX (XFin r) = XFin r.
  Proof. intros G H. simpl. rewrite round_generic by (auto; typeclasses eauto). now rewrite Rlt_bool_true. Qed.

  Lemma pow_prec_lt : bpow radix2 prec < bpow radix2 emax.
  Proof. apply bpow_lt. exact He. Qed.

  Lemma rndX_Z z : (Z.abs z <= 2 ^ prec)%Z -> rndX (XFin (IZR z)) = XFin (IZR z).
  Proof.
    intros H. apply rndX_format. now apply generic_format_Z.
    eapply Rle_lt_trans; [|apply pow_prec_lt].
    rewrite <- abs_IZR, <- IZR_Zpower by (unfold Prec_gt_0 in Hp; lia). now apply IZR_le.
  Qed.

  Lemma B2X_ofZ_exact z : (Z.abs z <= 2 ^ prec)%Z -> B2X (Bof_Z z : bf) = XFin (IZR z).
  Proof. intros H. rewrite B2X_ofZ. now apply rndX_Z. Qed.

  Lemma B2X_nearbyint md f (x : bf) : (round_mode md = f) ->
    B2X (Bnearbyint md x) = xint f (B2X x).
  Proof.
    intros <-. destruct (Bnearbyint_correct prec emax _ md x) as (H1 & H2 & _).
    destruct (is_finite x) eqn:Fx.
    - rewrite (B2X_fin x), B2X_fin by auto. rewrite H1. simpl. now rewrite round_FIX_IZR.
    - destruct x; try discriminate; reflexivity.
  Qed.

  Lemma Bto_int_X lo hi (x : bf) : Bto_int lo hi x = xto_int lo hi (B2X x).
  Proof.
    destruct (is_finite x) eqn:Fx.
    - rewrite B2X_fin by auto. simpl.
      assert (E : Btrunc x = Ztrunc (B2R x)).
      { apply eq_IZR. rewrite Btrunc_correct by auto. now rewrite round_FIX_IZR. }
      rewrite <- E. destruct x; try discriminate; reflexivity.
    - destruct x; try discriminate; reflexivity.
  Qed.

  (** ** Monotonicity *)
  Lemma rnd_le a b : a <= b -> rnd a <= rnd b.
  Proof. intros H. apply round_le; auto; typeclasses eauto. Qed.

  Lemma rndX_le a b : xle a b = true -> xle (rndX a) (rndX b) = true.
  Proof.
    destruct a as [|[]|x], b as [|[]|y]; simpl; auto; try discriminate.
    - intros _. now destruct (Rlt_bool _ _).
    - intros _. now destruct (Rlt_bool _ _); simpl; try rewrite orb_true_r.
    - intros H. rb. pose proof (rnd_le _ _ H) as HR. pose proof (bpow_gt_0 radix2 emax) as HP.
      unfold Rsgn.
      assert (P0 : forall z, 0 <= z -> 0 <= rnd z) by (intros; rewrite <- rnd_0; now apply rnd_le).
      assert (N0 : forall z, z <= 0 -> rnd z <= 0) by (intros; rewrite <- rnd_0; now apply rnd_le).
      destruct (Rlt_bool (Rabs (rnd x)) _) eqn:Ex, (Rlt_bool (Rabs (rnd y)) _) eqn:Ey; simpl; rb; auto.
      + destruct (Rlt_bool y 0) eqn:Es; simpl; auto. rb. exfalso.
        assert (rnd y <= 0) by (apply N0; lra). assert (rnd x <= 0) by (apply N0; lra).
        rewrite Rabs_left1 in Ex, Ey by auto. lra.
      + destruct (Rlt_le_dec x 0) as [Es|Es]; auto. exfalso.
        assert (0 <= rnd x) by (apply P0; lra). assert (0 <= rnd y) by (apply P0; lra).
        rewrite Rabs_pos_eq in Ex, Ey by auto. lra.
      + destruct (Rlt_bool x 0) eqn:Es, (Rlt_bool y 0) eqn:Es2; simpl; auto; rb; exfalso; lra.
  Qed.

  Lemma B2X_fin_inv (x : bf) r : B2X x = XFin r -> is_finite x = true /\ B2R x = r.
  Proof. destruct x; simpl; intros H; try discriminate; injection H as <-; auto. Qed.

  (** every float is representable *)
  Lemma rndX_id (x : bf) : rndX (B2X x) = B2X x.
  Proof.
    destruct (is_finite x) eqn:Fx.
    - rewrite B2X_fin by auto. apply rndX_format. apply generic_format_B2R. apply abs_B2R_lt_emax.
    - destruct x; try discriminate; reflexivity.
  Qed.
End G.
