(** * Laws shared by binary32 and exact arithmetic

    [emb x] is the value of a number as an extended real; the basic operations are the exact
    operation followed by a monotone rounding [rn] that fixes all representable numbers.
    Theorems proved from these laws hold for both instances. *)
From Coq Require Import ZArith Reals Bool List Lra Lia.
From Flocq Require Import Core Relative IEEE754.BinarySingleNaN.
From Verif Require Import Model.Num Model.NumX Model.NumB Model.Vector Proofs.XBase Proofs.BBase.
Import ListNotations.
Local Open Scope R_scope.

Class FLaws (F : Type) {O : FOps F} : Type := {
  emb : F -> XR;
  rn : XR -> XR;
  emb_lt : forall a b, flt a b = xlt (emb a) (emb b);
  emb_le : forall a b, fle a b = xle (emb a) (emb b);
  emb_eq : forall a b, feq a b = xeq (emb a) (emb b);
  emb_nan : forall a, fis_nan a = xis_nan (emb a);
  emb_inf : forall a, fis_inf a = xis_inf (emb a);
  rn_nan : rn XNaN = XNaN;
  rn_inf : forall s, rn (XInf s) = XInf s;
  rn_nnan : forall r, xis_nan (rn (XFin r)) = false;
  rn_le : forall a b, xle a b = true -> xle (rn a) (rn b) = true;
  rn_emb : forall a, rn (emb a) = emb a;
  rn_Z : forall z, (Z.abs z <= 2 ^ 24)%Z -> rn (XFin (IZR z)) = XFin (IZR z);
  rn_dyadic : forall z k, (Z.abs z <= 2 ^ 24)%Z -> (0 <= k <= 100)%Z ->
    rn (XFin (IZR z / IZR (2 ^ k))) = XFin (IZR z / IZR (2 ^ k));
  rn_opp : forall a, rn (xneg a) = xneg (rn a);
  emb_ofZ : forall z, emb (fofZ z) = rn (XFin (IZR z));
  emb_finf : emb finf = XInf false;
  emb_eps : emb feps = XFin (/ 8388608);
  rn_err : forall r, / IZR (2 ^ 126) <= Rabs r <= IZR (2 ^ 127) ->
    exists d, Rabs d <= / 16777216 /\ rn (XFin r) = XFin (r * (1 + d));
  emb_div_Z0 : forall z, (0 <= z < 2 ^ 64)%Z ->
    emb (fdiv (fofZ z) (fofZ 0)) = if (z =? 0)%Z then XNaN else XInf false;
  emb_add : forall a b, emb (fadd a b) = rn (xadd (emb a) (emb b));
  emb_sub : forall a b, emb (fsub a b) = rn (xsub (emb a) (emb b));
  emb_mul : forall a b, emb (fmul a b) = rn (xmul (emb a) (emb b));
  emb_div : forall a b, emb b <> XFin 0 -> emb (fdiv a b) = rn (xdiv (emb a) (emb b));
  emb_sqrt : forall a, emb (fsqrt a) = rn (xsqrt (emb a));
  emb_neg : forall a, emb (fneg a) = xneg (emb a);
  emb_abs : forall a, emb (fabs a) = xabs (emb a);
  emb_floor : forall a, emb (ffloor a) = xint Zfloor (emb a);
  emb_ceil : forall a, emb (fceil a) = xint Zceil (emb a);
  emb_round : forall a, emb (fround a) = xint Zround_away (emb a);
  emb_to_int : forall lo hi a, fto_int lo hi a = xto_int lo hi (emb a);
}.

#[global] Instance XR_FLaws : FLaws XR.
Proof.
  refine {| emb := fun x => x; rn := fun x => x |}; try reflexivity; auto.
  - intros r _. exists 0. rewrite Rabs_R0. split; [lra|]. f_equal. lra.
  - intros z Hz. simpl. rewrite Req_bool_true by reflexivity. destruct (z =? 0)%Z eqn:E.
    + apply Z.eqb_eq in E. subst z. now rewrite Req_bool_true.
    + apply Z.eqb_neq in E. assert (0 < IZR z) by (apply IZR_lt; lia).
      rewrite Req_bool_false by lra. unfold Rsgn. now rewrite Rlt_bool_false by lra.
Defined.

Lemma rndX_err r : / IZR (2 ^ 126) <= Rabs r <= IZR (2 ^ 127) ->
  exists d, Rabs d <= / 16777216 /\ rndX (prec := 24) (emax := 128) (XFin r) = XFin (r * (1 + d)).
Proof.
  intros [H1 H2].
  destruct (relative_error_N_FLT_ex radix2 (-149) 24 ltac:(reflexivity) (fun x => negb (Z.even x)) r) as (d & Hd & E).
  { simpl bpow. change (-149 + 24 - 1)%Z with (-126)%Z. exact H1. }
  exists d. assert (Hd' : Rabs d <= / 16777216).
  { eapply Rle_trans; [exact Hd|]. simpl. lra. }
  split; auto. unfold rndX. change (SpecFloat.fexp 24 128) with (FLT_exp (-149) 24). 
  rewrite E, Rlt_bool_true; auto.
  rewrite Rabs_mult. apply Rle_lt_trans with (IZR (2 ^ 127) * (1 + / 16777216)).
  - apply Rmult_le_compat; auto using Rabs_pos.
    eapply Rle_trans; [apply Rabs_triang|]. rewrite Rabs_R1. lra.
  - change (bpow radix2 128) with (IZR (2 ^ 128)). change (2 ^ 128)%Z with (2 ^ 127 * 2)%Z.
    rewrite mult_IZR. assert (0 < IZR (2 ^ 127)) by (apply IZR_lt; reflexivity). nra.
Qed.

Lemma B32_div_Z0 z : (0 <= z < 2 ^ 64)%Z ->
  B2X (Bdiv mode_NE (Bof_Z z : b32) (Bof_Z 0)) = if (z =? 0)%Z then XNaN else XInf false.
Proof.
  intros Hz. destruct (z =? 0)%Z eqn:E.
  - apply Z.eqb_eq in E. subst z. reflexivity.
  - apply Z.eqb_neq in E.
    assert (H : xle (XFin 1) (B2X (Bof_Z z : b32)) = true).
    { rewrite B2X_ofZ. rewrite <- (rndX_Z (prec := 24) (emax := 128) 1) by (simpl; lia). apply rndX_le. simpl. rb. apply IZR_le. lia. }
    destruct (Bof_Z z : b32) as [s|s| |s mm ee B] eqn:Ex; simpl in H; rb; try discriminate; try lra.
    + destruct s; [discriminate|reflexivity].
    + destruct s; [|reflexivity]. exfalso.
      assert (Defs.F2R (Float radix2 (Z.neg mm) ee) <= 0) by (apply F2R_le_0; simpl; lia). simpl in *; unfold Defs.F2R in *; simpl in *; lra.
Qed.

Lemma rndX_dyadic z k : (Z.abs z <= 2 ^ 24)%Z -> (0 <= k <= 100)%Z ->
  rndX (prec := 24) (emax := 128) (XFin (IZR z / IZR (2 ^ k))) = XFin (IZR z / IZR (2 ^ k)).
Proof.
  intros Hz Hk.
  assert (E : IZR (2 ^ k) = bpow radix2 k) by (rewrite <- IZR_Zpower by lia; reflexivity).
  assert (Hp : 1 <= IZR (2 ^ k)). { apply IZR_le. pose proof (Z.pow_pos_nonneg 2 k). lia. }
  apply rndX_format.
  - destruct (Z.eq_dec (Z.abs z) (2 ^ 24)) as [Hz2|Hz2].
    + assert (G : generic_format radix2 (SpecFloat.fexp 24 128) (IZR (2 ^ 24) / IZR (2 ^ k))).
      { rewrite E. change (IZR (2 ^ 24)) with (bpow radix2 24). unfold Rdiv. rewrite <- bpow_opp, <- bpow_plus.
        apply generic_format_bpow. unfold SpecFloat.fexp, SpecFloat.emin. lia. }
      destruct (Z.abs_spec z) as [[_ H]|[_ H]]; rewrite Hz2 in H.
      * now rewrite <- H.
      * replace z with (- 2 ^ 24)%Z by lia. rewrite opp_IZR.
        replace (- IZR (2 ^ 24) / IZR (2 ^ k)) with (- (IZR (2 ^ 24) / IZR (2 ^ k))) by (field; lra).
        now apply generic_format_opp.
    + apply generic_format_FLT. exists (Float radix2 z (- k)); simpl.
      * unfold F2R. simpl. rewrite bpow_opp, <- E. reflexivity.
      * change (Z.pow_pos 2 24) with (2 ^ 24)%Z. lia.
      * unfold SpecFloat.emin. lia.
  - unfold Rdiv. rewrite Rabs_mult, (Rabs_pos_eq (/ _)) by (apply Rlt_le, Rinv_0_lt_compat; lra).
    apply Rle_lt_trans with (Rabs (IZR z) * 1).
    + apply Rmult_le_compat_l; [apply Rabs_pos|]. rewrite <- Rinv_1. apply Rinv_le; lra.
    + rewrite Rmult_1_r, <- abs_IZR. apply Rle_lt_trans with (IZR (2 ^ 24)); [now apply IZR_le|].
      change (bpow radix2 24 < bpow radix2 128). now apply bpow_lt.
Qed.

Lemma rndX_opp a : rndX (prec := 24) (emax := 128) (xneg a) = xneg (rndX (prec := 24) (emax := 128) a).
Proof.
  destruct a as [|s|r]; simpl; auto. rewrite round_NE_opp, Rabs_Ropp.
  destruct (Rlt_bool _ _) eqn:E; auto. simpl. f_equal. rb.
  assert (Hr : r <> 0) by (apply (rnd_big_nz (prec := 24) (emax := 128)); auto).
  unfold Rsgn. destruct (Rlt_bool (- r) 0) eqn:E1, (Rlt_bool r 0) eqn:E2; auto; rb; lra.
Qed.

#[global] Instance B32_FLaws (L : Libm b32) : FLaws b32.
Proof.
  refine {| emb := B2X; rn := rndX (prec := 24) (emax := 128) |}.
  - intros; apply B2X_lt.
  - intros; apply B2X_le.
  - intros; apply B2X_eq.
  - intros; symmetry; apply B2X_nan.
  - intros; symmetry; apply B2X_inf.
  - reflexivity.
  - reflexivity.
  - intros r. simpl. now destruct (Rlt_bool _ _).
  - apply rndX_le.
  - apply rndX_id.
  - intros z Hz. now apply rndX_Z.
  - intros z k Hz Hk. now apply rndX_dyadic.
  - apply rndX_opp.
  - intros; apply B2X_ofZ.
  - reflexivity.
  - simpl. unfold Defs.F2R. simpl. f_equal. lra.
  - apply rndX_err.
  - intros z Hz. now apply B32_div_Z0.
  - intros; apply B2X_plus.
  - intros; apply B2X_minus.
  - intros; apply B2X_mult.
  - intros; now apply B2X_div.
  - intros; apply B2X_sqrt.
  - intros; apply B2X_opp.
  - intros; apply B2X_abs.
  - intros; now apply B2X_nearbyint.
  - intros; now apply B2X_nearbyint.
  - intros; now apply B2X_nearbyint.
  - intros; apply Bto_int_X.
Defined.

Section Derived.
  Context {F} {O : FOps F} {FL : FLaws F}.

  Lemma emb_ofZ_exact z : (Z.abs z <= 2 ^ 24)%Z -> emb (fofZ z) = XFin (IZR z).
  Proof. intros H. rewrite emb_ofZ. now apply rn_Z. Qed.

  Lemma emb_f0 : emb f0 = XFin 0.
  Proof. apply emb_ofZ_exact. simpl. lia. Qed.
  Lemma emb_f1 : emb f1 = XFin 1.
  Proof. apply emb_ofZ_exact. simpl. lia. Qed.
  Lemma emb_f2 : emb f2 = XFin 2.
  Proof. apply emb_ofZ_exact. simpl. lia. Qed.
  Lemma rn_half : rn (XFin (/ 2)) = XFin (/ 2).
  Proof.
    replace (/ 2) with (IZR 1 / IZR (2 ^ 1)) by (simpl; lra). apply rn_dyadic; simpl; lia.
  Qed.
  Lemma emb_fhalf : emb fhalf = XFin (/ 2).
  Proof.
    unfold fhalf. rewrite emb_div; rewrite !emb_ofZ_exact by (simpl; lia).
    - rewrite xdiv_fin by lra. replace (1 / 2) with (/ 2) by lra. apply rn_half.
    - intros H. injection H. lra.
  Qed.

  Lemma rn_0 : rn (XFin 0) = XFin 0.
  Proof. apply (rn_Z 0). simpl. lia. Qed.

  (** rounding keeps bounds that are representable *)
  Lemma rn_ge_emb a x : xle (emb a) x = true -> xle (emb a) (rn x) = true.
  Proof. intros H. rewrite <- (rn_emb a). now apply rn_le. Qed.
  Lemma rn_le_emb a x : xle x (emb a) = true -> xle (rn x) (emb a) = true.
  Proof. intros H. rewrite <- (rn_emb a). now apply rn_le. Qed.
  Lemma rn_ge_Z z x : (Z.abs z <= 2 ^ 24)%Z -> xle (XFin (IZR z)) x = true -> xle (XFin (IZR z)) (rn x) = true.
  Proof. intros Hz H. rewrite <- (rn_Z z) by auto. now apply rn_le. Qed.
  Lemma rn_le_Z z x : (Z.abs z <= 2 ^ 24)%Z -> xle x (XFin (IZR z)) = true -> xle (rn x) (XFin (IZR z)) = true.
  Proof. intros Hz H. rewrite <- (rn_Z z) by auto. now apply rn_le. Qed.

  (** Rounding keeps bounds that are representable *)
  Lemma rn_bound r B : rn (XFin B) = XFin B -> Rabs r <= B -> exists q, rn (XFin r) = XFin q /\ Rabs q <= B.
  Proof.
    intros HB Hr. assert (- B <= r <= B) as [H1 H2] by (apply Rabs_le_inv; auto).
    pose proof (rn_le (XFin r) (XFin B) ltac:(simpl; rb; lra)) as A.
    pose proof (rn_le (XFin (- B)) (XFin r) ltac:(simpl; rb; lra)) as C.
    change (XFin (- B)) with (xneg (XFin B)) in C. rewrite rn_opp, HB in C. rewrite HB in A.
    destruct (rn (XFin r)) as [|[]|q]; try discriminate. exists q. simpl in A, C. rb. split; auto. apply Rabs_le. lra.
  Qed.

  Lemma rn_finite r : Rabs r <= IZR (2 ^ 127) -> exists q, rn (XFin r) = XFin q.
  Proof.
    intros H. destruct (Rle_dec (/ IZR (2 ^ 126)) (Rabs r)) as [G|G].
    - destruct (rn_err r (conj G H)) as (d & _ & E). eauto.
    - destruct (rn_bound r 1) as (q & E & _); [now apply (rn_Z 1)| |eauto].
      apply Rle_trans with (/ IZR (2 ^ 126)); [lra|]. rewrite <- Rinv_1. apply Rinv_le; [lra|]. now apply IZR_le.
  Qed.

  (** min and max *)
  Lemma emb_fmax_cases a b : (fmax a b = a \/ fmax a b = b).
  Proof. unfold fmax. destruct (fis_nan a), (fis_nan b), (flt a b); auto. Qed.
  Lemma emb_fmin_cases a b : (fmin a b = a \/ fmin a b = b).
  Proof. unfold fmin. destruct (fis_nan a), (fis_nan b), (flt b a); auto. Qed.

  Lemma fmax_ub a b : fis_nan a = false -> fis_nan b = false ->
    fle a (fmax a b) = true /\ fle b (fmax a b) = true.
  Proof.
    intros Ha Hb. unfold fmax. rewrite Ha, Hb. rewrite emb_nan in Ha, Hb.
    destruct (flt a b) eqn:E; rewrite !emb_le in *; rewrite emb_lt in E.
    - split; [now apply xlt_le|now apply xle_refl].
    - split; [now apply xle_refl|]. rewrite xlt_not_le in E by auto. now apply negb_false_iff in E.
  Qed.

  Lemma fmin_lb a b : fis_nan a = false -> fis_nan b = false ->
    fle (fmin a b) a = true /\ fle (fmin a b) b = true.
  Proof.
    intros Ha Hb. unfold fmin. rewrite Ha, Hb. rewrite emb_nan in Ha, Hb.
    destruct (flt b a) eqn:E; rewrite !emb_le in *; rewrite emb_lt in E.
    - split; [now apply xlt_le|now apply xle_refl].
    - split; [now apply xle_refl|]. rewrite xlt_not_le in E by auto. now apply negb_false_iff in E.
  Qed.

  Lemma fle_trans a b c : fle a b = true -> fle b c = true -> fle a c = true.
  Proof. rewrite !emb_le. apply xle_trans. Qed.
  Lemma fle_refl a : fis_nan a = false -> fle a a = true.
  Proof. rewrite emb_nan, emb_le. apply xle_refl. Qed.
  Lemma flt_le a b : flt a b = true -> fle a b = true.
  Proof. rewrite emb_lt, emb_le. apply xlt_le. Qed.
  Lemma fle_nnan a b : fle a b = true -> fis_nan a = false /\ fis_nan b = false.
  Proof. rewrite emb_le, !emb_nan. apply xle_nan_l. Qed.
  Lemma flt_nge a b : fis_nan a = false -> fis_nan b = false -> flt a b = negb (fle b a).
  Proof. rewrite emb_lt, emb_le, !emb_nan. apply xlt_not_le. Qed.
End Derived.
