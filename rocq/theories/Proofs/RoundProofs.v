(** * Rounding of sums of non-negative binary32 numbers *)
From Coq Require Import ZArith Reals Bool List Lra Lia Psatz.
From Flocq Require Import Core Relative Plus_error IEEE754.BinarySingleNaN.
From Verif Require Import Model.Num Model.NumX Model.NumB Model.Vector Model.BBox Model.Film Spec.Ppm Spec.RoundSpec.
From Verif Require Import Proofs.XBase Proofs.BBase Proofs.FLaws.
Import ListNotations.
Local Open Scope R_scope.

(** half a unit in the last place, and half the least positive number *)
Definition u : R := / 16777216.
Definition eta : R := / IZR (2 ^ 150).

Lemma u_range : 0 < u < / 2. Proof. unfold u. lra. Qed.
Lemma eta_pos : 0 < eta. Proof. unfold eta. apply Rinv_0_lt_compat, IZR_lt. reflexivity. Qed.

Lemma u_ro_24 : u_ro radix2 24 = u.
Proof. unfold u_ro, u. cbn. lra. Qed.

Notation rndR := (round radix2 (FLT_exp (-149) 24) ZnearestE).

Lemma rndX_small r : Rabs r <= IZR (2 ^ 126) -> rndX (prec := 24) (emax := 128) (XFin r) = XFin (rndR r).
Proof.
  intros H. unfold rndX. change (SpecFloat.fexp 24 128) with (FLT_exp (-149) 24). change (Znearest (fun x => negb (Z.even x))) with ZnearestE.
  change (round_mode mode_NE) with ZnearestE. rewrite Rlt_bool_true; auto.
  apply Rle_lt_trans with (bpow radix2 126); [|now apply bpow_lt].
  apply (abs_round_le_generic radix2 (FLT_exp (-149) 24) ZnearestE).
  - apply generic_format_bpow. unfold FLT_exp. lia.
  - exact H.
Qed.

Definition nn (x : b32) (r : R) : Prop := is_finite x = true /\ B2R x = r /\ 0 <= r.

Lemma of_X (x : b32) r : B2X x = XFin r -> 0 <= r -> nn x r.
Proof. intros E H. apply B2X_fin_inv in E. destruct E. now split. Qed.

Lemma fmt (x : b32) : generic_format radix2 (FLT_exp (-149) 24) (B2R x).
Proof. apply (generic_format_B2R 24 128 x). Qed.

Section Ops.
  Context (L : Libm b32).
  Local Instance FO : FOps b32 := B32_FOps L.

  Lemma nn_add x y a b : nn x a -> nn y b -> a + b <= IZR (2 ^ 126) ->
    exists c, nn (fadd x y) c /\ (1 - u) * (a + b) <= c <= (1 + u) * (a + b).
  Proof.
    intros (Fx & <- & Ha) (Fy & <- & Hb) Hs.
    destruct (FLT_plus_error_N_ex radix2 (-149) 24 (fun z => negb (Z.even z)) _ _ (fmt x) (fmt y)) as (eps & He & E).
    assert (Hu : Rabs eps <= u).
    { eapply Rle_trans; [exact He|]. rewrite u_ro_24. unfold u. lra. }
    apply Rabs_le_inv in Hu. pose proof u_range as U.
    exists (rndR (B2R x + B2R y)). split.
    - apply of_X.
      + change (fadd x y) with (Bplus mode_NE x y). rewrite B2X_plus, !B2X_fin by auto. cbn [xadd]. apply rndX_small.
        rewrite Rabs_pos_eq by lra. exact Hs.
      + change ZnearestE with (Znearest (fun z => negb (Z.even z))). rewrite E. nra.
    - change ZnearestE with (Znearest (fun z => negb (Z.even z))). rewrite E. nra.
  Qed.

  Lemma rnd_err r : 0 <= r -> (1 - u) * r - eta <= rndR r <= (1 + u) * r + eta /\ 0 <= rndR r.
  Proof.
    intros Hr. destruct (error_N_FLT radix2 (-149) 24 ltac:(reflexivity) (fun z => negb (Z.even z)) r) as (eps & et & He & Ht & _ & E).
    change ZnearestE with (Znearest (fun z => negb (Z.even z))).
    assert (H1 : Rabs eps <= u) by (eapply Rle_trans; [exact He|]; unfold u; cbn; lra).
    assert (H2 : Rabs et <= eta).
    { eapply Rle_trans; [exact Ht|]. unfold eta. change (bpow radix2 (-149)) with (/ IZR (2 ^ 149)). change (2 ^ 150)%Z with (2 * 2 ^ 149)%Z.
      rewrite mult_IZR. rewrite Rinv_mult. lra. }
    apply Rabs_le_inv in H1, H2. split; [rewrite E; nra|].
    rewrite <- (round_0 radix2 (FLT_exp (-149) 24) (Znearest (fun z => negb (Z.even z)))).
    apply round_le; auto with typeclass_instances.
  Qed.

  Lemma nn_mul x y a b : nn x a -> nn y b -> a * b <= IZR (2 ^ 126) ->
    exists c, nn (fmul x y) c /\ (1 - u) * (a * b) - eta <= c <= (1 + u) * (a * b) + eta.
  Proof.
    intros (Fx & <- & Ha) (Fy & <- & Hb) Hs.
    assert (P : 0 <= B2R x * B2R y) by now apply Rmult_le_pos.
    destruct (rnd_err _ P) as [H H0]. exists (rndR (B2R x * B2R y)). split; auto.
    apply of_X; auto. change (fmul x y) with (Bmult mode_NE x y). rewrite B2X_mult, !B2X_fin by auto. cbn [xmul]. apply rndX_small.
    rewrite Rabs_pos_eq by lra. exact Hs.
  Qed.

  Lemma nn_div x y a b : nn x a -> nn y b -> 0 < b -> a / b <= IZR (2 ^ 126) ->
    exists c, nn (fdiv x y) c /\ (1 - u) * (a / b) - eta <= c <= (1 + u) * (a / b) + eta.
  Proof.
    intros (Fx & <- & Ha) (Fy & <- & Hb) Hp Hs.
    assert (P : 0 <= B2R x / B2R y) by (apply Rmult_le_pos; auto; apply Rlt_le; now apply Rinv_0_lt_compat).
    destruct (rnd_err _ P) as [H H0]. exists (rndR (B2R x / B2R y)). split; auto.
    apply of_X; auto. change (fdiv x y) with (Bdiv mode_NE x y).
    assert (Ey : B2X y = XFin (B2R y)) by now apply B2X_fin.
    rewrite B2X_div by (rewrite Ey; intros [= E]; lra). rewrite Ey, (B2X_fin x) by auto. rewrite xdiv_fin by lra. apply rndX_small.
    rewrite Rabs_pos_eq by lra. exact Hs.
  Qed.

  Lemma nn_0 : nn f0 0.
  Proof. repeat split; try reflexivity. lra. Qed.
End Ops.

(** ** powers of 1 + u and 1 - u *)
Definition up (n : nat) : R := (1 + u) ^ n.
Definition dn (n : nat) : R := (1 - u) ^ n.

Lemma dn_range n : 0 < dn n <= 1.
Proof. unfold dn. pose proof u_range. split; [apply pow_lt; lra|]. induction n; cbn [pow]; [lra|]. assert (0 < (1 - u) ^ n) by (apply pow_lt; lra). nra. Qed.
Lemma up_ge n : 1 <= up n.
Proof. apply pow_R1_Rle. pose proof u_range. lra. Qed.
Lemma up_mono n m : (n <= m)%nat -> up n <= up m.
Proof. intros. apply Rle_pow; auto. pose proof u_range. lra. Qed.
Lemma dn_mono n m : (n <= m)%nat -> dn m <= dn n.
Proof.
  intros H. replace m with (n + (m - n))%nat by lia. unfold dn. rewrite pow_add. fold (dn n) (dn (m - n)).
  pose proof (dn_range n). pose proof (dn_range (m - n)). nra.
Qed.
Lemma up_S n : up (S n) = (1 + u) * up n. Proof. reflexivity. Qed.
Lemma dn_S n : dn (S n) = (1 - u) * dn n. Proof. reflexivity. Qed.
Lemma bernoulli n : 1 - INR n * u <= dn n.
Proof.
  induction n as [|n IH]; [unfold dn; cbn; lra|]. rewrite dn_S, S_INR. pose proof u_range. pose proof (pos_INR n).
  assert ((1 - u) * (1 - INR n * u) <= (1 - u) * dn n) by (apply Rmult_le_compat_l; lra). nra.
Qed.
Lemma up_dn n : up n * dn n <= 1.
Proof.
  induction n as [|n IH]; [unfold up, dn; cbn; lra|]. rewrite up_S, dn_S. pose proof u_range.
  replace ((1 + u) * up n * ((1 - u) * dn n)) with ((1 - u * u) * (up n * dn n)) by ring.
  pose proof (up_ge n). pose proof (dn_range n). assert (0 <= up n * dn n) by (apply Rmult_le_pos; lra). nra.
Qed.
Lemma dn_add n m : dn (n + m) = dn n * dn m. Proof. apply pow_add. Qed.
Lemma up_add n m : up (n + m) = up n * up m. Proof. apply pow_add. Qed.

Lemma up_le_2 n : INR n * u <= / 2 -> up n <= 2.
Proof.
  intros H. pose proof (bernoulli n). pose proof (up_dn n). pose proof (up_ge n). nra.
Qed.

(** ** sums of samples *)
Lemma sum_of_cons f s l : sum_of f (s :: l) = f s + sum_of f l. Proof. reflexivity. Qed.
Lemma sum_of_app f l l' : sum_of f (l ++ l') = sum_of f l + sum_of f l'.
Proof. unfold sum_of. rewrite map_app. induction (map f l) as [|a k IH]; cbn [app fold_right]; [lra|rewrite IH; lra]. Qed.

(** samples that are finite and not negative *)
Definition clean_samples (l : list (V3 b32 * b32)) : Prop := forall s, In s l ->
  (forall c, is_finite (sel c (fst s)) = true /\ 0 <= B2R (sel c (fst s)) <= IZR (2 ^ 90)) /\
  is_finite (snd s) = true /\ 0 <= B2R (snd s).

Lemma clean_cons s l : clean_samples (s :: l) -> clean_samples l.
Proof. intros H x Hx. apply H. now right. Qed.
Lemma clean_app l l' : clean_samples (l ++ l') -> clean_samples l /\ clean_samples l'.
Proof. intros H. split; intros x Hx; apply H, in_or_app; auto. Qed.

Lemma clean_sums c l : clean_samples l -> 0 <= weight_sum l /\ 0 <= light_sum c l <= IZR (2 ^ 90) * weight_sum l.
Proof.
  induction l as [|s l IH]; intros H; [cbn; lra|].
  destruct (IH (clean_cons _ _ H)) as (H1 & H2 & H3).
  destruct (H s (or_introl eq_refl)) as (Hc & _ & Hw). destruct (Hc c) as (_ & Hl).
  unfold weight_sum, light_sum in *. rewrite !sum_of_cons.
  assert (0 <= B2R (sel c (fst s)) * B2R (snd s)) by (apply Rmult_le_pos; lra).
  assert (B2R (sel c (fst s)) * B2R (snd s) <= IZR (2 ^ 90) * B2R (snd s)) by (apply Rmult_le_compat_r; lra).
  lra.
Qed.

Section Traces.
  Context (L : Libm b32).
  Local Instance FO1 : FOps b32 := B32_FOps L.

  Notation big := (IZR (2 ^ 126)).
  Lemma big_eq : big = IZR (2 ^ 90) * IZR (2 ^ 30) * 64.
  Proof. change (2 ^ 126)%Z with (2 ^ 90 * 2 ^ 30 * 64)%Z. now rewrite !mult_IZR. Qed.
  Lemma p30 : 1 <= IZR (2 ^ 30). Proof. apply IZR_le. lia. Qed.
  Lemma p90 : 1 <= IZR (2 ^ 90). Proof. apply IZR_le. lia. Qed.

  Lemma trace_sums (t : trace b32) c : clean_samples (arrived t) -> weight_sum (arrived t) <= IZR (2 ^ 30) ->
    INR (S (chain t)) * u <= / 2 -> INR (length (arrived t)) * eta <= 1 ->
    exists a b, nn (sel c (p_color (result t))) a /\ nn (p_wsum (result t)) b /\
      dn (S (chain t)) * light_sum c (arrived t) - INR (length (arrived t)) * eta <= a <=
        up (S (chain t)) * (light_sum c (arrived t) + INR (length (arrived t)) * eta) /\
      dn (chain t) * weight_sum (arrived t) <= b <= up (chain t) * weight_sum (arrived t).
  Proof.
    pose proof big_eq as B. pose proof p30 as P3. pose proof p90 as P9. pose proof u_range as U. pose proof eta_pos as Te.
    induction t as [|t IH l w|t IH t' IH']; cbn [arrived result chain].
    - intros _ _ _ _. exists 0, 0. split; [destruct c; apply (nn_0)|]. split; [apply nn_0|].
      unfold light_sum, weight_sum, sum_of. cbn [map fold_right length INR]. lra.
    - intros Hc Hw Hn Hl. set (n := chain t) in *. cbn [length] in Hl.
      set (W := weight_sum (arrived t)) in *. set (C := light_sum c (arrived t)) in *. set (k := length (arrived t)) in *.
      assert (E1 : weight_sum ((l, w) :: arrived t) = B2R w + W) by reflexivity.
      assert (E2 : light_sum c ((l, w) :: arrived t) = B2R (sel c l) * B2R w + C) by reflexivity.
      rewrite E1 in *. rewrite E2. clear E1 E2. cbn [length]. fold k. rewrite S_INR in Hl |- *.
      destruct (Hc (l, w) (or_introl eq_refl)) as (Hs & Fw & Pw). cbn [fst snd] in *. destruct (Hs c) as (Fl & Pl & Ql).
      pose proof (clean_sums c _ (clean_cons _ _ Hc)) as (W0 & C0 & C1). fold W C in W0, C0, C1.
      set (x := B2R (sel c l)) in *. set (y := B2R w) in *.
      assert (Hn' : INR (S n) * u <= / 2). { rewrite S_INR in Hn. lra. }
      destruct (IH (clean_cons _ _ Hc)) as (a & b & Na & Nb & Ha & Hb); [lra|exact Hn'|lra|]. fold n W C k in Ha, Hb.
      assert (Pxy : 0 <= x * y) by now apply Rmult_le_pos.
      assert (Qxy : x * y <= IZR (2 ^ 90) * IZR (2 ^ 30)) by (apply Rmult_le_compat; lra).
      assert (QC : C <= IZR (2 ^ 90) * IZR (2 ^ 30)) by (eapply Rle_trans; [exact C1|]; apply Rmult_le_compat; lra).
      assert (Big : 1 <= IZR (2 ^ 90) * IZR (2 ^ 30)) by nra.
      set (G := IZR (2 ^ 90) * IZR (2 ^ 30)) in *.
      assert (Gw : IZR (2 ^ 30) <= G) by (unfold G; nra).
      pose proof (up_le_2 _ Hn') as Up. pose proof (up_le_2 n ltac:(rewrite S_INR in Hn'; lra)) as Up'.
      destruct (nn_mul L (sel c l) w x y) as (p & Np & Hp); [now repeat split|now repeat split|lra|].
      assert (Hk : 0 <= INR k * eta) by (apply Rmult_le_pos; [apply pos_INR|lra]).
      assert (Qa : a <= 2 * (G + 1)). { eapply Rle_trans; [apply Ha|]. pose proof (up_ge (S n)). apply Rmult_le_compat; lra. }
      assert (Qb : b <= 2 * IZR (2 ^ 30)). { eapply Rle_trans; [apply Hb|]. pose proof (up_ge n). apply Rmult_le_compat; lra. }
      destruct (nn_add L _ _ a p Na Np) as (a' & Na' & Ha'); [nra|].
      destruct (nn_add L _ w b y Nb) as (b' & Nb' & Hb'); [now repeat split|nra|].
      exists a', b'. split.
      { replace (sel c (p_color (pixel_add_sample (result t) l w))) with (fadd (sel c (p_color (result t))) (fmul (sel c l) w)) by (destruct c; reflexivity). exact Na'. }
      split; [exact Nb'|].
      rewrite !(up_S (S n)), !(dn_S (S n)), (up_S n), (dn_S n) in *.
      pose proof (dn_range n) as Dn. pose proof (up_ge n) as Un.
      split; split.
      + assert ((1 - u) * dn n * (x * y) <= (1 - u) * 1 * (x * y)) by (apply Rmult_le_compat_r; auto; apply Rmult_le_compat_l; lra).
        assert ((1 - u) * ((1 - u) * dn n * (x * y + C)) - (1 - u) * ((INR k + 1) * eta) <= (1 - u) * (a + p)).
        { rewrite <- Rmult_minus_distr_l. apply Rmult_le_compat_l; lra. }
        assert (0 <= u * ((INR k + 1) * eta)) by (apply Rmult_le_pos; lra). lra.
      + assert (1 * (x * y + eta) <= up n * (x * y + eta)) by (apply Rmult_le_compat_r; lra).
        assert (p <= (1 + u) * up n * (x * y + eta)).
        { eapply Rle_trans; [apply Hp|]. assert ((1 + u) * (x * y + eta) <= (1 + u) * (up n * (x * y + eta))) by (apply Rmult_le_compat_l; lra).
          assert (0 <= u * eta) by (apply Rmult_le_pos; lra). lra. }
        eapply Rle_trans; [apply Ha'|]. 
        replace ((1 + u) * ((1 + u) * up n) * (x * y + C + (INR k + 1) * eta)) with
          ((1 + u) * ((1 + u) * up n * (C + INR k * eta) + (1 + u) * up n * (x * y + eta))) by ring.
        apply Rmult_le_compat_l; lra.
      + assert (dn n * y <= 1 * y) by (apply Rmult_le_compat_r; lra).
        eapply Rle_trans; [|apply Hb']. rewrite Rmult_assoc. apply Rmult_le_compat_l; lra.
      + assert (1 * y <= up n * y) by (apply Rmult_le_compat_r; lra).
        eapply Rle_trans; [apply Hb'|]. rewrite Rmult_assoc. apply Rmult_le_compat_l; lra.
    - intros Hc Hw Hn Hl. destruct (clean_app _ _ Hc) as [Hc1 Hc2].
      rewrite app_length, plus_INR in Hl |- *. unfold weight_sum, light_sum in Hw |- *. rewrite sum_of_app in Hw. rewrite !sum_of_app.
      fold (weight_sum (arrived t)) (weight_sum (arrived t')) (light_sum c (arrived t)) (light_sum c (arrived t')) in *.
      pose proof (clean_sums c _ Hc1) as (W0 & C0 & C1). pose proof (clean_sums c _ Hc2) as (W0' & C0' & C1').
      set (W := weight_sum (arrived t)) in *. set (C := light_sum c (arrived t)) in *. set (k := length (arrived t)) in *.
      set (W' := weight_sum (arrived t')) in *. set (C' := light_sum c (arrived t')) in *. set (k' := length (arrived t')) in *.
      set (n := chain t) in *. set (n' := chain t') in *. set (m := Nat.max n n') in *.
      assert (Hk : 0 <= INR k * eta) by (apply Rmult_le_pos; [apply pos_INR|lra]).
      assert (Hk' : 0 <= INR k' * eta) by (apply Rmult_le_pos; [apply pos_INR|lra]).
      assert (Hm : INR (S m) * u <= / 2). { rewrite S_INR in Hn. lra. }
      assert (Hn1 : INR (S n) * u <= / 2). { eapply Rle_trans; [|exact Hm]. apply Rmult_le_compat_r; [lra|]. apply le_INR. lia. }
      assert (Hn2 : INR (S n') * u <= / 2). { eapply Rle_trans; [|exact Hm]. apply Rmult_le_compat_r; [lra|]. apply le_INR. lia. }
      destruct (IH Hc1) as (a & b & Na & Nb & Ha & Hb); [fold W; lra|exact Hn1|lra|]. fold n W C k in Ha, Hb.
      destruct (IH' Hc2) as (a' & b' & Na' & Nb' & Ha' & Hb'); [fold W'; lra|exact Hn2|lra|]. fold n' W' C' k' in Ha', Hb'.
      set (G := IZR (2 ^ 90) * IZR (2 ^ 30)) in *.
      assert (QC : C <= G) by (eapply Rle_trans; [exact C1|]; apply Rmult_le_compat; lra).
      assert (QC' : C' <= G) by (eapply Rle_trans; [exact C1'|]; apply Rmult_le_compat; lra).
      assert (Big : 1 <= G) by (unfold G; nra). assert (Gw : IZR (2 ^ 30) <= G) by (unfold G; nra).
      pose proof (up_le_2 _ Hn1) as U1. pose proof (up_le_2 _ Hn2) as U2.
      pose proof (up_mono n (S n) ltac:(lia)) as U3. pose proof (up_mono n' (S n') ltac:(lia)) as U4.
      pose proof (up_ge n). pose proof (up_ge n').
      assert (Qa : a <= 2 * (G + 1)). { eapply Rle_trans; [apply Ha|]. apply Rmult_le_compat; lra. }
      assert (Qa' : a' <= 2 * (G + 1)). { eapply Rle_trans; [apply Ha'|]. apply Rmult_le_compat; lra. }
      assert (Qb : b <= 2 * IZR (2 ^ 30)). { eapply Rle_trans; [apply Hb|]. apply Rmult_le_compat; lra. }
      assert (Qb' : b' <= 2 * IZR (2 ^ 30)). { eapply Rle_trans; [apply Hb'|]. apply Rmult_le_compat; lra. }
      destruct (nn_add L _ _ a a' Na Na') as (a2 & Na2 & Ha2); [lra|].
      destruct (nn_add L _ _ b b' Nb Nb') as (b2 & Nb2 & Hb2); [lra|].
      exists a2, b2. split.
      { replace (sel c (p_color (pixel_merge (result t) (result t')))) with (fadd (sel c (p_color (result t))) (sel c (p_color (result t')))) by (destruct c; reflexivity). exact Na2. }
      split; [exact Nb2|].
      assert (M1 : (S n <= S m)%nat) by lia. assert (M2 : (S n' <= S m)%nat) by lia.
      assert (M3 : (n <= m)%nat) by lia. assert (M4 : (n' <= m)%nat) by lia.
      rewrite (up_S (S m)), (dn_S (S m)). rewrite (up_S m), (dn_S m). rewrite <- (up_S m), <- (dn_S m).
      split; split.
      + eapply Rle_trans; [|apply Ha2].
        assert (dn (S m) * C <= dn (S n) * C) by (apply Rmult_le_compat_r; [lra|now apply dn_mono]).
        assert (dn (S m) * C' <= dn (S n') * C') by (apply Rmult_le_compat_r; [lra|now apply dn_mono]).
        assert ((1 - u) * (dn (S m) * (C + C') - (INR k + INR k') * eta) <= (1 - u) * (a + a')) by (apply Rmult_le_compat_l; lra).
        assert (0 <= u * ((INR k + INR k') * eta)) by (apply Rmult_le_pos; lra). lra.
      + eapply Rle_trans; [apply Ha2|].
        assert (up (S n) * (C + INR k * eta) <= up (S m) * (C + INR k * eta)) by (apply Rmult_le_compat_r; [lra|now apply up_mono]).
        assert (up (S n') * (C' + INR k' * eta) <= up (S m) * (C' + INR k' * eta)) by (apply Rmult_le_compat_r; [lra|now apply up_mono]).
        rewrite Rmult_assoc. apply Rmult_le_compat_l; lra.
      + eapply Rle_trans; [|apply Hb2]. rewrite dn_S.
        assert (dn m * W <= dn n * W) by (apply Rmult_le_compat_r; [lra|now apply dn_mono]).
        assert (dn m * W' <= dn n' * W') by (apply Rmult_le_compat_r; [lra|now apply dn_mono]).
        rewrite Rmult_assoc. apply Rmult_le_compat_l; lra.
      + eapply Rle_trans; [apply Hb2|]. rewrite up_S.
        assert (up n * W <= up m * W) by (apply Rmult_le_compat_r; [lra|now apply up_mono]).
        assert (up n' * W' <= up m * W') by (apply Rmult_le_compat_r; [lra|now apply up_mono]).
        rewrite Rmult_assoc. apply Rmult_le_compat_l; lra.
  Qed.
End Traces.
