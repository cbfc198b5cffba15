(** * The Halton sampler *)
From Coq Require Import ZArith Reals List Bool Lia Lra ZifyBool Znumtheory.
From Flocq Require Import Core.Raux.
From Verif Require Import Model.Num Model.NumX Model.NumB Model.Vector Model.Common Model.BBox Model.HaltonTable Model.Sampler.
From Verif Require Import Spec.HaltonSpec Proofs.XBase Proofs.FLaws Proofs.Iter.
Import ListNotations.
Local Open Scope Z_scope.

Lemma u32_of_ok m z : 0 <= z < 2 ^ 32 -> u32_of m z = Ok z.
Proof. intros H. unfold u32_of, in_rangeb, u32_max. now replace ((0 <=? z) && (z <=? 2 ^ 32 - 1)) with true by lia. Qed.

Lemma u32_of_debug z : ~ (0 <= z < 2 ^ 32) -> u32_of Debug z = Panic.
Proof. intros H. unfold u32_of, in_rangeb, u32_max. now replace ((0 <=? z) && (z <=? 2 ^ 32 - 1)) with false by lia. Qed.

Lemma u32_of_release z : exists z', u32_of Release z = Ok z' /\ 0 <= z' < 2 ^ 32.
Proof.
  unfold u32_of, in_rangeb, u32_max. destruct (_ && _) eqn:E.
  - exists z. split; auto. lia.
  - exists (wrap_u 32 z). split; auto. unfold wrap_u. apply Z.mod_pos_bound. lia.
Qed.

(** ** Release: the loop ends within 32 rounds, on 32-bit values *)
Lemma radical_loop_release fuel base a x bn :
  2 <= base -> 0 <= a < 2 ^ Z.of_nat fuel -> 0 <= x < 2 ^ 32 -> 0 <= bn < 2 ^ 32 ->
  exists x' bn', radical_loop Release fuel base a x bn = Ok (x', bn') /\ 0 <= x' < 2 ^ 32 /\ 0 <= bn' < 2 ^ 32.
Proof.
  revert a x bn. induction fuel as [|fuel IH]; intros a x bn Hb Ha Hx Hbn; cbn [radical_loop].
  - replace (a >? 0) with false by (simpl in Ha; lia). eauto.
  - destruct (a >? 0) eqn:Ea; [|eauto].
    destruct (u32_of_release (x * base)) as (xb & -> & Hxb). cbn [rbind].
    destruct (u32_of_release (xb + a mod base)) as (x1 & -> & Hx1). cbn [rbind].
    destruct (u32_of_release (bn * base)) as (b1 & -> & Hb1). cbn [rbind].
    apply IH; auto. split; [apply Z.div_pos; lia|].
    apply Z.div_lt_upper_bound; [lia|]. rewrite Nat2Z.inj_succ, Z.pow_succ_r in Ha by lia. nia.
Qed.

Section Range.
  Context {F} {O : FOps F} {FL : FLaws F}.

  Lemma div_Z_nonneg x n : 0 <= x < 2 ^ 32 -> 0 <= n < 2 ^ 32 ->
    emb (fdiv (fofZ x) (fofZ n)) = XNaN \/ xle (XFin 0) (emb (fdiv (fofZ x) (fofZ n))) = true.
  Proof.
    intros Hx Hn. destruct (Z.eq_dec n 0) as [->|Hn0].
    - rewrite emb_div_Z0 by lia. destruct (x =? 0); auto.
    - assert (E : exists y, emb (fofZ n) = y /\ xle (XFin 1) y = true).
      { eexists; split; [reflexivity|]. rewrite emb_ofZ. change 1%R with (IZR 1). apply rn_ge_Z; [lia|].
        simpl. rb. apply IZR_le. lia. }
      destruct E as (y & Ey & Hy).
      assert (Ex : xle (XFin 0) (emb (fofZ x)) = true).
      { rewrite emb_ofZ. change 0%R with (IZR 0). apply rn_ge_Z; [lia|]. simpl. rb. apply IZR_le. lia. }
      rewrite emb_div.
      + destruct (emb (fofZ x)) as [|[]|vx]; simpl in Ex; try discriminate;
        rewrite Ey; destruct y as [|[]|vy]; simpl in Hy; try discriminate; rb.
        * left. simpl. apply rn_nan.
        * right. simpl. unfold Rsgn. rewrite Rlt_bool_false by lra. simpl. now rewrite rn_inf.
        * right. simpl. rewrite rn_0. simpl. rb. lra.
        * right. rewrite xdiv_fin by lra. change 0%R with (IZR 0). apply rn_ge_Z; [lia|]. simpl. rb.
          apply Rmult_le_pos; auto. apply Rlt_le, Rinv_0_lt_compat. lra.
      + rewrite Ey. intros ->. simpl in Hy. rb. lra.
  Qed.

  Lemma emb_OME : emb ONE_MINUS_EPSILON = XFin (1 - / 8388608).
  Proof.
    unfold ONE_MINUS_EPSILON. rewrite emb_sub, emb_f1, emb_eps. simpl.
    replace (1 - / 8388608)%R with (IZR (2 ^ 23 - 1) / IZR (2 ^ 23))%R by (simpl; lra).
    apply rn_dyadic; lia.
  Qed.

  Lemma fmin_OME q : emb q = XNaN \/ xle (XFin 0) (emb q) = true ->
    exists v, emb (fmin ONE_MINUS_EPSILON q) = XFin v /\ (0 <= v <= 1 - / 8388608)%R.
  Proof.
    intros H. unfold fmin. rewrite !emb_nan, emb_OME, emb_lt, emb_OME. cbn [xis_nan].
    destruct (emb q) as [|[]|v] eqn:E; simpl in *; try (destruct H; discriminate).
    - exists (1 - / 8388608)%R. rewrite emb_OME. split; auto. lra.
    - exists (1 - / 8388608)%R. rewrite emb_OME. split; auto. lra.
    - destruct H as [|H]; [discriminate|]. rb. destruct (Rlt_bool v _) eqn:E2; rb.
      + exists v. split; auto. lra.
      + exists (1 - / 8388608)%R. rewrite emb_OME. split; auto. lra.
  Qed.

  Lemma radical_inverse_release base a : 2 <= base -> 0 <= a < 2 ^ 32 ->
    exists v q, radical_inverse Release base a = Ok v /\ emb v = XFin q /\ (0 <= q <= 1 - / 8388608)%R.
  Proof.
    intros Hb Ha. unfold radical_inverse.
    destruct (radical_loop_release 32 base a 0 1) as (x & n & E & Hx & Hn); [exact Hb|exact Ha|split; reflexivity || discriminate|split; reflexivity || discriminate|].
    rewrite E. cbn [rbind].
    destruct (fmin_OME _ (div_Z_nonneg x n Hx Hn)) as (v & Ev & Hv). eauto.
  Qed.
End Range.

(** ** Exact digit reversal when the power fits *)
Lemma pow_S b n : b ^ Z.of_nat (S n) = b * b ^ Z.of_nat n.
Proof. rewrite Nat2Z.inj_succ, Z.pow_succ_r; lia. Qed.

Lemma pow_pos b n : 2 <= b -> 0 < b ^ Z.of_nat n.
Proof. intros. apply Z.pow_pos_nonneg; lia. Qed.

Lemma digit_at_S b a i : 2 <= b -> digit_at b (a / b) i = digit_at b a (S i).
Proof.
  intros Hb. unfold digit_at. rewrite pow_S. rewrite Z.div_div by (try apply pow_pos; lia). reflexivity.
Qed.

Lemma digit_count_S b a n : 2 <= b -> 0 < a -> digit_count b a n ->
  exists n', n = S n' /\ digit_count b (a / b) n'.
Proof.
  intros Hb Ha [H1 H2]. destruct n as [|n]; [simpl in H1; lia|]. exists n. split; auto.
  specialize (H2 ltac:(congruence)). simpl pred in H2. rewrite pow_S in H1. split.
  - apply Z.div_lt_upper_bound; lia.
  - intros Hn. destruct n as [|n]; [congruence|]. simpl pred. rewrite pow_S in H2.
    apply Z.div_le_lower_bound; lia.
Qed.

Lemma digit_count_0 b n : 2 <= b -> digit_count b 0 n -> n = O.
Proof.
  intros Hb [H1 H2]. destruct n as [|n]; auto. specialize (H2 ltac:(congruence)). simpl pred in H2.
  pose proof (pow_pos b n Hb). lia.
Qed.

Lemma digit_count_exists_fuel b fuel a : 2 <= b -> 0 <= a < 2 ^ Z.of_nat fuel -> exists n, digit_count b a n /\ (n <= fuel)%nat.
Proof.
  intros Hb. revert a. induction fuel as [|fuel IH]; intros a Ha.
  - exists O. split; [|lia]. simpl in Ha. split; [simpl; lia|congruence].
  - destruct (Z.eq_dec a 0) as [->|Ha0].
    + exists O. split; [|lia]. split; [simpl; lia|congruence].
    + destruct (IH (a / b)) as (n & [H1 H2] & Hn).
      { split; [apply Z.div_pos; lia|]. apply Z.div_lt_upper_bound; [lia|]. rewrite pow_S in Ha. nia. }
      exists (S n). split; [|lia]. split.
      * rewrite pow_S. pose proof (Z.mod_pos_bound a b ltac:(lia)). pose proof (Z.div_mod a b ltac:(lia)). nia.
      * intros _. simpl pred. destruct n as [|n]; [simpl; lia|].
        specialize (H2 ltac:(congruence)). simpl pred in H2. rewrite pow_S.
        pose proof (Z.mod_pos_bound a b ltac:(lia)). pose proof (Z.div_mod a b ltac:(lia)). nia.
Qed.

(** Digits appended to an accumulator *)
Fixpoint rev_acc (b : Z) (n : nat) (a x : Z) : Z :=
  match n with
  | O => x
  | S n => rev_acc b n (a / b) (x * b + a mod b)
  end.

Lemma mirrored_S b a n : 2 <= b ->
  mirrored b a (S n) = ((IZR (a mod b) + mirrored b (a / b) n) / IZR b)%R.
Proof.
  intros Hb. unfold mirrored. cbn [seq map fold_right].
  rewrite <- seq_shift, map_map.
  assert (E : forall l, fold_right Rplus 0%R (map (fun i => IZR (digit_at b a (S i)) / IZR (b ^ Z.of_nat (S (S i))))%R l) =
    (fold_right Rplus 0 (map (fun i => IZR (digit_at b (a / b) i) / IZR (b ^ Z.of_nat (S i))) l) / IZR b)%R).
  { assert (Hb0 : IZR b <> 0%R) by (apply not_0_IZR; lia).
    induction l as [|i l IH]; cbn [map fold_right].
    - field; auto.
    - rewrite IH, <- digit_at_S by lia. rewrite (pow_S b (S i)), mult_IZR.
      assert (IZR (b ^ Z.of_nat (S i)) <> 0%R) by (apply not_0_IZR; pose proof (pow_pos b (S i) Hb); lia).
      field; auto. }
  rewrite E. unfold digit_at at 1. change (Z.of_nat 0) with 0. change (Z.of_nat 1) with 1.
  rewrite Z.pow_0_r, Z.pow_1_r, Z.div_1_r. unfold Rdiv. ring.
Qed.

Lemma rev_acc_mirrored b n : forall a x, 2 <= b ->
  IZR (rev_acc b n a x) = ((IZR x + mirrored b a n) * IZR (b ^ Z.of_nat n))%R.
Proof.
  induction n as [|n IH]; intros a x Hb; cbn [rev_acc].
  - simpl. unfold mirrored. simpl. ring.
  - rewrite IH, mirrored_S, pow_S, plus_IZR, !mult_IZR by auto.
    assert (IZR b <> 0%R) by (apply not_0_IZR; lia). field; auto.
Qed.

Lemma rev_acc_range b n : forall a x bn, 2 <= b -> 0 <= x < bn ->
  0 <= rev_acc b n a x < bn * b ^ Z.of_nat n.
Proof.
  induction n as [|n IH]; intros a x bn Hb Hx; cbn [rev_acc].
  - simpl. lia.
  - rewrite pow_S. pose proof (Z.mod_pos_bound a b ltac:(lia)).
    specialize (IH (a / b) (x * b + a mod b) (bn * b) Hb ltac:(nia)). nia.
Qed.

Lemma radical_loop_exact m fuel base n : forall a x bn,
  2 <= base -> digit_count base a n -> 0 <= a -> (n <= fuel)%nat -> 0 <= x < bn ->
  bn * base ^ Z.of_nat n < 2 ^ 32 ->
  radical_loop m fuel base a x bn = Ok (rev_acc base n a x, bn * base ^ Z.of_nat n).
Proof.
  revert n. induction fuel as [|fuel IH]; intros n a x bn Hb Hc Ha Hf Hx Hfit.
  - assert (n = O) by lia. subst n.
    assert (a = 0) by (destruct Hc as [H _]; simpl in H; lia). subst a.
    cbn. rewrite Z.mul_1_r. reflexivity.
  - destruct (Z.eq_dec a 0) as [->|Ha0].
    { rewrite (digit_count_0 base n Hb Hc). cbn. rewrite Z.mul_1_r. reflexivity. }
    destruct (digit_count_S base a n Hb ltac:(lia) Hc) as (n' & -> & Hc').
    cbn [radical_loop rev_acc]. replace (a >? 0) with true by lia.
    rewrite pow_S in *. pose proof (pow_pos base n' Hb) as Hp.
    pose proof (Z.mod_pos_bound a base ltac:(lia)) as Hm.
    assert (Hbb : bn * base <= bn * (base * base ^ Z.of_nat n')).
    { apply Z.mul_le_mono_nonneg_l; [lia|]. rewrite <- (Z.mul_1_r base) at 1. apply Z.mul_le_mono_nonneg_l; lia. }
    assert (Hxb : 0 <= x * base /\ 0 <= x * base + a mod base < bn * base) by nia.
    rewrite (u32_of_ok m (x * base)) by lia. cbn [rbind].
    rewrite (u32_of_ok m (x * base + a mod base)) by lia. cbn [rbind].
    rewrite (u32_of_ok m (bn * base)) by lia. cbn [rbind].
    rewrite (IH n'); auto; try lia.
    { f_equal. f_equal. ring. }
    apply Z.div_pos; lia.
Qed.

Lemma radical_loop_panics fuel base n : forall a x bn,
  2 <= base -> digit_count base a n -> 0 <= a -> (n <= fuel)%nat -> 0 <= x < bn -> bn < 2 ^ 32 ->
  2 ^ 32 <= bn * base ^ Z.of_nat n ->
  radical_loop Debug fuel base a x bn = Panic.
Proof.
  revert n. induction fuel as [|fuel IH]; intros n a x bn Hb Hc Ha Hf Hx Hbn Hover.
  - assert (n = O) by lia. subst n. simpl in Hover. lia.
  - destruct (Z.eq_dec a 0) as [->|Ha0].
    { rewrite (digit_count_0 base n Hb Hc) in Hover. simpl in Hover. lia. }
    destruct (digit_count_S base a n Hb ltac:(lia) Hc) as (n' & -> & Hc').
    cbn [radical_loop]. replace (a >? 0) with true by lia.
    rewrite pow_S in *. pose proof (Z.mod_pos_bound a base ltac:(lia)) as Hm.
    assert (Hxb : 0 <= x * base /\ 0 <= x * base + a mod base < bn * base) by nia.
    unfold u32_of at 1. destruct (in_rangeb 0 u32_max (x * base)); [|reflexivity]. cbn [rbind].
    unfold u32_of at 1. destruct (in_rangeb 0 u32_max (x * base + a mod base)); [|reflexivity]. cbn [rbind].
    destruct (Z_lt_dec (bn * base) (2 ^ 32)) as [Hl|Hl].
    + rewrite u32_of_ok by lia. cbn [rbind]. apply (IH n'); auto; try lia. apply Z.div_pos; lia.
    + rewrite u32_of_debug by lia. reflexivity.
Qed.

Lemma u32_of_range0 m z z' : u32_of m z = Ok z' -> 0 <= z' < 2 ^ 32.
Proof.
  unfold u32_of, in_rangeb, u32_max. destruct (_ && _) eqn:E.
  - intros [= <-]. lia.
  - destruct m; [discriminate|]. intros [= <-]. unfold wrap_u. apply Z.mod_pos_bound. lia.
Qed.

Lemma radical_loop_range m fuel base : forall a x bn x' bn', 0 <= x < 2 ^ 32 -> 0 <= bn < 2 ^ 32 ->
  radical_loop m fuel base a x bn = Ok (x', bn') -> 0 <= x' < 2 ^ 32 /\ 0 <= bn' < 2 ^ 32.
Proof.
  induction fuel as [|fuel IH]; intros a x bn x' bn' Hx Hbn; cbn [radical_loop];
  (destruct (a >? 0); [|intros [= <- <-]; auto]).
  - discriminate.
  - destruct (u32_of m (x * base)) as [xb| |] eqn:E1; try discriminate. cbn [rbind].
    destruct (u32_of m (xb + a mod base)) as [x1| |] eqn:E2; try discriminate. cbn [rbind].
    destruct (u32_of m (bn * base)) as [b1| |] eqn:E3; try discriminate. cbn [rbind].
    apply IH; eauto using u32_of_range0.
Qed.

Section Range2.
  Context {F} {FO : FOps F} {FL : FLaws F}.

  Lemma unit_value (v : F) q : emb v = XFin q -> (0 <= q <= 1 - / 8388608)%R ->
    fis_finite v = true /\ fle f0 v = true /\ flt v f1 = true.
  Proof.
    intros E Hq. unfold fis_finite. rewrite emb_nan, emb_inf, emb_le, emb_lt, emb_f0, emb_f1, E. simpl.
    repeat split; rb; lra.
  Qed.

  Lemma radical_inverse_range m base a (v : F) : radical_inverse m base a = Ok v ->
    fis_finite v = true /\ fle f0 v = true /\ flt v f1 = true.
  Proof.
    unfold radical_inverse. destruct (radical_loop m 32 base a 0 1) as [[x n]| |] eqn:E; try discriminate. cbn [rbind].
    intros [= <-]. apply radical_loop_range in E as [Hx Hn]; [|lia|lia].
    destruct (fmin_OME _ (div_Z_nonneg x n Hx Hn)) as (q & Eq & Hq). eapply unit_value; eauto.
  Qed.

  (** three roundings: relative error at most 2^-22 *)
  Lemma div_Z_err x n : 0 < x < 2 ^ 32 -> 0 < n < 2 ^ 32 ->
    exists e, (Rabs e <= / 4194304)%R /\ emb (fdiv (fofZ x) (fofZ n)) = XFin (IZR x / IZR n * (1 + e)).
  Proof.
    intros Hx Hn.
    assert (R1 : forall z, 0 < z < 2 ^ 32 -> exists d, (Rabs d <= / 16777216)%R /\ emb (fofZ z) = XFin (IZR z * (1 + d))).
    { intros z Hz. destruct (rn_err (IZR z)) as (d & Hd & E).
      - rewrite Rabs_pos_eq by (apply IZR_le; lia). split.
        + apply Rle_trans with 1%R; [|apply IZR_le; lia]. rewrite <- Rinv_1. apply Rinv_le; [lra|]. apply IZR_le. lia.
        + apply IZR_le. lia.
      - exists d. split; auto. now rewrite emb_ofZ. }
    destruct (R1 x Hx) as (d1 & H1 & E1). destruct (R1 n Hn) as (d2 & H2 & E2).
    apply Rabs_le_inv in H1, H2.
    assert (Px : (1 <= IZR x)%R) by (apply IZR_le; lia). assert (Pn : (1 <= IZR n)%R) by (apply IZR_le; lia).
    assert (Px' : (IZR x <= 4294967296)%R) by (apply IZR_le; lia). assert (Pn' : (IZR n <= 4294967296)%R) by (apply IZR_le; lia).
    assert (Hn0 : (IZR n * (1 + d2) <> 0)%R) by nra.
    rewrite emb_div; rewrite E2; [|intros E; injection E; auto].
    rewrite E1, xdiv_fin by auto.
    assert (Q : (/ 2 <= (1 + d1) / (1 + d2) <= 2)%R).
    { split; [apply Rmult_le_reg_r with (1 + d2)%R|apply Rmult_le_reg_r with (1 + d2)%R]; try lra;
      unfold Rdiv; rewrite Rmult_assoc, Rinv_l by lra; lra. }
    assert (Qxn : (/ 4294967296 <= IZR x / IZR n <= 4294967296)%R).
    { split; [apply Rmult_le_reg_r with (IZR n)|apply Rmult_le_reg_r with (IZR n)]; try lra;
      unfold Rdiv; rewrite Rmult_assoc, Rinv_l by lra; nra. }
    assert (Eq : (IZR x * (1 + d1) / (IZR n * (1 + d2)) = IZR x / IZR n * ((1 + d1) / (1 + d2)))%R) by (field; split; lra).
    rewrite Eq.
    destruct (rn_err (IZR x / IZR n * ((1 + d1) / (1 + d2)))) as (d3 & H3 & E3).
    { rewrite Rabs_pos_eq by nra. split.
      - apply Rle_trans with (/ 4294967296 * / 2)%R; [|nra].
        rewrite <- Rinv_mult. apply Rinv_le; [lra|]. change (4294967296 * 2)%R with (IZR (2 ^ 32) * IZR 2)%R. rewrite <- mult_IZR. apply IZR_le. lia.
      - apply Rle_trans with (4294967296 * 2)%R; [nra|]. change (4294967296 * 2)%R with (IZR (2 ^ 32) * IZR 2)%R. rewrite <- mult_IZR. apply IZR_le. lia. }
    rewrite E3. exists ((1 + d1) / (1 + d2) * (1 + d3) - 1)%R. split.
    - apply Rabs_le_inv in H3.
      assert (Q2 : (1 - / 8000000 <= (1 + d1) / (1 + d2) <= 1 + / 8000000)%R).
      { split; [apply Rmult_le_reg_r with (1 + d2)%R|apply Rmult_le_reg_r with (1 + d2)%R]; try lra;
        unfold Rdiv; rewrite Rmult_assoc, Rinv_l by lra; lra. }
      apply Rabs_le. nra.
    - f_equal. ring.
  Qed.
End Range2.
