(** * Bounds on binary32 values, and how NaN spreads *)
From Coq Require Import ZArith Reals Bool List Lra Lia.
From Flocq Require Import Core IEEE754.BinarySingleNaN.
From Verif Require Import Model.Num Model.NumX Model.NumB Model.Vector Model.Common.
From Verif Require Import Proofs.XBase Proofs.BBase Proofs.FLaws.
Import ListNotations.
Local Open Scope R_scope.

Notation pw := (bpow radix2).

Section B.
  Context (L : Libm b32).
  Local Existing Instance B32_FOps.
  Local Existing Instance B32_FLaws.

  Notation rnb := (@rn b32 (B32_FOps L) (B32_FLaws L)).

  (** a number of size at most 2^k *)
  Definition bd (k : Z) (x : b32) : Prop := exists r, emb x = XFin r /\ Rabs r <= pw k.
  Definition nan (x : b32) : Prop := emb x = XNaN.

  Lemma rn_pw k : (-149 <= k <= 127)%Z -> rnb (XFin (pw k)) = XFin (pw k).
  Proof.
    intros H. change rnb with (rndX (prec := 24) (emax := 128)). apply rndX_format.
    - apply generic_format_bpow. unfold SpecFloat.fexp, SpecFloat.emin. lia.
    - rewrite Rabs_pos_eq by apply bpow_ge_0. apply bpow_lt. lia.
  Qed.
  Lemma rn_npw k : (-149 <= k <= 127)%Z -> rnb (XFin (- pw k)) = XFin (- pw k).
  Proof. intros H. change (XFin (- pw k)) with (xneg (XFin (pw k))). now rewrite rn_opp, rn_pw. Qed.

  Lemma rn_bd k r : (-149 <= k <= 127)%Z -> Rabs r <= pw k -> exists q, rnb (XFin r) = XFin q /\ Rabs q <= pw k.
  Proof. intros Hk H. apply rn_bound; auto. now apply rn_pw. Qed.
  (** lower bounds *)
  Lemma rn_ge_pw k r : (-149 <= k <= 127)%Z -> pw k <= r -> forall q, rnb (XFin r) = XFin q -> pw k <= q.
  Proof.
    intros Hk H q E. pose proof (rn_le (FLaws := B32_FLaws L) (XFin (pw k)) (XFin r) ltac:(cbn; rb; lra)) as A. rewrite rn_pw, E in A by auto. cbn in A. now rb.
  Qed.

  Lemma bd_mono k j x : (k <= j)%Z -> bd k x -> bd j x.
  Proof. intros H (r & E & B). exists r. split; auto. eapply Rle_trans; [exact B|]. now apply bpow_le. Qed.

  Lemma pw_double k : pw (k + 1) = pw k + pw k.
  Proof. rewrite bpow_plus. cbn. lra. Qed.

  Lemma bd_add k x y : (-150 <= k <= 126)%Z -> bd k x -> bd k y -> bd (k + 1) (fadd x y).
  Proof.
    intros Hk (a & Ea & Ha) (b & Eb & Hb). unfold bd. rewrite emb_add, Ea, Eb. cbn [xadd].
    apply rn_bd; [lia|]. rewrite pw_double. eapply Rle_trans; [apply Rabs_triang|]. lra.
  Qed.
  Lemma bd_sub k x y : (-150 <= k <= 126)%Z -> bd k x -> bd k y -> bd (k + 1) (fsub x y).
  Proof.
    intros Hk (a & Ea & Ha) (b & Eb & Hb). unfold bd. rewrite emb_sub, Ea, Eb. cbn [xsub xadd xneg].
    apply rn_bd; [lia|]. rewrite pw_double. unfold Rminus. eapply Rle_trans; [apply Rabs_triang|]. rewrite Rabs_Ropp. lra.
  Qed.
  Lemma bd_mul k j x y : (-149 <= k + j <= 127)%Z -> bd k x -> bd j y -> bd (k + j) (fmul x y).
  Proof.
    intros Hk (a & Ea & Ha) (b & Eb & Hb). unfold bd. rewrite emb_mul, Ea, Eb. cbn [xmul].
    apply rn_bd; [lia|]. rewrite Rabs_mult, bpow_plus. apply Rmult_le_compat; auto using Rabs_pos.
  Qed.
  Lemma bd_neg k x : bd k x -> bd k (fneg x).
  Proof. intros (a & Ea & Ha). exists (- a). rewrite emb_neg, Ea. split; [reflexivity|]. now rewrite Rabs_Ropp. Qed.
  Lemma bd_abs k x : bd k x -> bd k (fabs x).
  Proof. intros (a & Ea & Ha). exists (Rabs a). rewrite emb_abs, Ea. split; [reflexivity|]. now rewrite Rabs_Rabsolu. Qed.
  Lemma bd_Z k z : (0 <= k <= 24)%Z -> (Z.abs z <= 2 ^ k)%Z -> bd k (fofZ z).
  Proof.
    intros Hk Hz. exists (IZR z). split.
    - apply emb_ofZ_exact. eapply Z.le_trans; [exact Hz|]. apply Z.pow_le_mono_r; lia.
    - rewrite <- abs_IZR, <- IZR_Zpower by lia. now apply IZR_le.
  Qed.
  Lemma bd_0 k : bd k f0.
  Proof. exists 0. split; [apply emb_f0|]. rewrite Rabs_R0. apply bpow_ge_0. Qed.
  Lemma bd_1 : bd 0 f1.
  Proof. apply (bd_Z 0 1); [lia|]. cbn. lia. Qed.
  Lemma bd_2 : bd 1 f2.
  Proof. apply (bd_Z 1 2); [lia|]. cbn. lia. Qed.

  (** from a test *)
  Lemma bd_test k z x : (0 <= k <= 24)%Z -> (0 <= z <= 2 ^ k)%Z -> fle (fabs x) (fofZ z) = true -> bd k x.
  Proof.
    intros Hk Hz. rewrite emb_le, emb_abs, emb_ofZ_exact.
    2:{ rewrite Z.abs_eq by lia. eapply Z.le_trans; [apply Hz|]. apply Z.pow_le_mono_r; lia. }
    destruct (emb x) as [|[]|r] eqn:E; cbn; try discriminate. intros H. rb. exists r. split; [exact E|].
    eapply Rle_trans; [exact H|]. rewrite <- IZR_Zpower by lia. apply IZR_le. apply Hz.
  Qed.

  (** ** NaN *)
  Lemma nan_add_l x y : nan x -> nan (fadd x y).
  Proof. unfold nan. intros E. rewrite emb_add, E. apply rn_nan. Qed.
  Lemma nan_add_r x y : nan y -> nan (fadd x y).
  Proof. unfold nan. intros E. rewrite emb_add, E. now destruct (emb x) as [|[]|]. Qed.
  Lemma nan_sub_l x y : nan x -> nan (fsub x y).
  Proof. unfold nan. intros E. rewrite emb_sub, E. apply rn_nan. Qed.
  Lemma nan_sub_r x y : nan y -> nan (fsub x y).
  Proof. unfold nan. intros E. rewrite emb_sub, E. now destruct (emb x) as [|[]|]. Qed.
  Lemma nan_mul_l x y : nan x -> nan (fmul x y).
  Proof. unfold nan. intros E. rewrite emb_mul, E. apply rn_nan. Qed.
  Lemma nan_mul_r x y : nan y -> nan (fmul x y).
  Proof. unfold nan. intros E. rewrite emb_mul, E. now destruct (emb x) as [|[]|]. Qed.
  Lemma nan_neg x : nan x -> nan (fneg x).
  Proof. unfold nan. intros E. now rewrite emb_neg, E. Qed.
  Lemma nan_abs x : nan x -> nan (fabs x).
  Proof. unfold nan. intros E. now rewrite emb_abs, E. Qed.
  Lemma nan_sqrt x : nan x -> nan (fsqrt x).
  Proof. unfold nan. intros E. rewrite emb_sqrt, E. apply rn_nan. Qed.
  Lemma nan_div_l x y : nan x -> nan (fdiv x y).
  Proof. unfold nan. cbn. intros E. destruct x; try discriminate. now destruct y. Qed.
  Lemma nan_div_r x y : nan y -> nan (fdiv x y).
  Proof. unfold nan. cbn. intros E. destruct y; try discriminate. now destruct x. Qed.

  Lemma bd_not_nan k x : bd k x -> fis_nan x = false.
  Proof. intros (r & E & _). now rewrite emb_nan, E. Qed.

  (** division by zero *)
  Lemma div_0_0 x y : emb x = XFin 0 -> emb y = XFin 0 -> nan (fdiv x y).
  Proof.
    unfold nan. cbn. intros Ex Ey. apply B2X_fin_inv in Ex as [Fx Rx]. apply B2X_fin_inv in Ey as [Fy Ry].
    destruct x as [| | |sx mx ex bx]; try discriminate; destruct y as [| | |sy my ey bby]; try discriminate; cbn in *; auto.
    - now apply F2R_nz in Ry.
    - now apply F2R_nz in Rx.
    - now apply F2R_nz in Ry.
  Qed.
  Lemma div_x_0 x y : emb y = XFin 0 -> nan (fdiv x y) \/ exists s, emb (fdiv x y) = XInf s.
  Proof.
    unfold nan. cbn. intros Ey. apply B2X_fin_inv in Ey as [Fy Ry].
    destruct y as [sy| | |sy my ey bby]; try discriminate; [|now apply F2R_nz in Ry].
    destruct x as [| | |sx mx ex bx]; cbn; eauto.
  Qed.

  (** ** vectors *)
  Definition vb (k : Z) (v : V3 b32) : Prop := bd k (vx v) /\ bd k (vy v) /\ bd k (vz v).
  Definition vn (v : V3 b32) : Prop := nan (vx v) /\ nan (vy v) /\ nan (vz v).
  Definition has_nan (v : V3 b32) : Prop := nan (vx v) \/ nan (vy v) \/ nan (vz v).

  Lemma vb_mono k j v : (k <= j)%Z -> vb k v -> vb j v.
  Proof. intros H (A & B & C). repeat split; eapply bd_mono; eauto. Qed.
  Lemma vb_add k u v : (-150 <= k <= 126)%Z -> vb k u -> vb k v -> vb (k + 1) (v3add u v).
  Proof. intros H (A & B & C) (A' & B' & C'). repeat split; cbn [v3add v3map2 vx vy vz]; apply bd_add; auto. Qed.
  Lemma vb_sub k u v : (-150 <= k <= 126)%Z -> vb k u -> vb k v -> vb (k + 1) (v3sub u v).
  Proof. intros H (A & B & C) (A' & B' & C'). repeat split; cbn [v3sub v3map2 vx vy vz]; apply bd_sub; auto. Qed.
  Lemma vb_scale k j v x : (-149 <= k + j <= 127)%Z -> vb k v -> bd j x -> vb (k + j) (v3scale v x).
  Proof. intros H (A & B & C) D. repeat split; cbn [v3scale vx vy vz]; apply bd_mul; auto. Qed.
  Lemma vb_neg k v : vb k v -> vb k (v3neg v).
  Proof. intros (A & B & C). repeat split; cbn [v3neg vx vy vz]; apply bd_neg; auto. Qed.
  Lemma vb_abs k v : vb k v -> vb k (v3abs v).
  Proof. intros (A & B & C). repeat split; cbn [v3abs vx vy vz]; apply bd_abs; auto. Qed.
  Lemma bd_dot k j u v : (-149 <= k + j <= 125)%Z -> vb k u -> vb j v -> bd (k + j + 2) (v3dot u v).
  Proof.
    intros H (A & B & C) (A' & B' & C'). unfold v3dot. replace (k + j + 2)%Z with (k + j + 1 + 1)%Z by lia.
    apply bd_add; [lia| |]; [apply bd_add; [lia| |]|apply bd_mono with (k + j)%Z; [lia|]]; apply bd_mul; auto; lia.
  Qed.
  Lemma vb_cross k j u v : (-149 <= k + j <= 125)%Z -> vb k u -> vb j v -> vb (k + j + 1) (v3cross u v).
  Proof.
    intros H (A & B & C) (A' & B' & C'). repeat split; cbn [v3cross vx vy vz]; (apply bd_sub; [lia| |]; apply bd_mul; auto; lia).
  Qed.

  Lemma vn_add_l u v : vn u -> vn (v3add u v).
  Proof. intros (A & B & C). repeat split; cbn [v3add v3map2 vx vy vz]; now apply nan_add_l. Qed.
  Lemma vn_add_r u v : vn v -> vn (v3add u v).
  Proof. intros (A & B & C). repeat split; cbn [v3add v3map2 vx vy vz]; now apply nan_add_r. Qed.
  Lemma vn_sub_r u v : vn v -> vn (v3sub u v).
  Proof. intros (A & B & C). repeat split; cbn [v3sub v3map2 vx vy vz]; now apply nan_sub_r. Qed.
  Lemma vn_sub_l u v : vn u -> vn (v3sub u v).
  Proof. intros (A & B & C). repeat split; cbn [v3sub v3map2 vx vy vz]; now apply nan_sub_l. Qed.
  Lemma vn_scale_r v x : nan x -> vn (v3scale v x).
  Proof. intros N. repeat split; cbn [v3scale vx vy vz]; now apply nan_mul_r. Qed.
  Lemma vn_scale_l v x : vn v -> vn (v3scale v x).
  Proof. intros (A & B & C). repeat split; cbn [v3scale vx vy vz]; now apply nan_mul_l. Qed.
  Lemma vn_neg v : vn v -> vn (v3neg v).
  Proof. intros (A & B & C). repeat split; cbn [v3neg vx vy vz]; now apply nan_neg. Qed.
  Lemma has_nan_dot_l u v : has_nan u -> nan (v3dot u v).
  Proof.
    unfold v3dot. intros [H|[H|H]].
    - apply nan_add_l, nan_add_l, nan_mul_l, H.
    - apply nan_add_l, nan_add_r, nan_mul_l, H.
    - apply nan_add_r, nan_mul_l, H.
  Qed.
  Lemma has_nan_dot_r u v : has_nan v -> nan (v3dot u v).
  Proof.
    unfold v3dot. intros [H|[H|H]].
    - apply nan_add_l, nan_add_l, nan_mul_r, H.
    - apply nan_add_l, nan_add_r, nan_mul_r, H.
    - apply nan_add_r, nan_mul_r, H.
  Qed.
  Lemma vn_has v : vn v -> has_nan v.
  Proof. intros (A & _). now left. Qed.
  Lemma has_nan_normalize v : has_nan v -> vn (v3normalize v).
  Proof.
    intros H. assert (N : nan (v3length v)) by (apply nan_sqrt; now apply (has_nan_dot_l v v)).
    repeat split; cbn [v3normalize vx vy vz]; now apply nan_div_r.
  Qed.
End B.

