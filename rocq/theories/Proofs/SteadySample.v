(** * Sampled directions and light points of tame scenes (for C70) *)
From Coq Require Import ZArith Reals Bool List Lra Lia.
From Flocq Require Import Core IEEE754.BinarySingleNaN.
From Verif Require Import Model.Num Model.NumX Model.NumB Model.Vector Model.Common Model.BBox Model.Interaction Model.Shape Model.Sphere Model.Triangle
  Model.Sampling Model.Reflection Model.BxDFs Model.Light.
From Verif Require Import Spec.SamplerSpec Spec.TameSpec.
From Verif Require Import Proofs.XBase Proofs.BBase Proofs.FLaws Proofs.Bounds Proofs.Lengths Proofs.SteadyProofs Proofs.SteadySphere.
From Verif Require Import Props.Shading1.
Import ListNotations.
Local Open Scope R_scope.

Section Sa.
  Context (L : Libm b32) {T : Type}.
  Local Existing Instance B32_FOps.
  Local Existing Instance B32_FLaws.
  Notation rnb := (@rn b32 (B32_FOps L) (B32_FLaws L)).
  Notation bd := (bd L). Notation vb := (vb L). Notation nan := (nan L). Notation vn := (vn L). Notation has_nan := (has_nan L).

  Lemma unit_val (u : b32) : in_unit u -> exists r, emb u = XFin r /\ 0 <= r < 1.
  Proof.
    intros (_ & H1 & H2). rewrite emb_le, emb_f0 in H1. rewrite emb_lt, emb_f1 in H2.
    destruct (emb u) as [|[]|r]; try discriminate. cbn [xle xlt] in H1, H2. rb. eauto.
  Qed.

  (** 2u - 1 *)
  Lemma centred (u : b32) : in_unit u -> bd 0 (fadd (fmul u f2) (fneg f1)).
  Proof.
    intros H. destruct (unit_val u H) as (r & E & Hr). unfold Bounds.bd. rewrite emb_add, emb_mul, emb_neg, E, emb_f1, emb_f2. cbn [xmul xneg].
    assert (A : exists q, rnb (XFin (r * 2)) = XFin q /\ 0 <= q <= 2).
    { destruct (rn_bd L 1 (r * 2) ltac:(lia)) as (q & Eq & Hq). { rewrite Rabs_pos_eq by lra. change (pw 1) with 2. lra. }
      exists q. split; auto. pose proof (rn_le (FLaws := B32_FLaws L) (XFin 0) (XFin (r * 2)) ltac:(cbn; rb; lra)) as A. rewrite rn_0, Eq in A. cbn in A. rb.
      rewrite Rabs_pos_eq in Hq by lra. change (pw 1) with 2 in Hq. lra. }
    destruct A as (q & -> & Hq). cbn [xadd]. apply rn_bd; [lia|]. change (pw 0) with 1. apply Rabs_le. lra.
  Qed.

  (** a quotient of numbers, the divisor being the larger *)
  Lemma quot_bd (x y : b32) a b : emb x = XFin a -> emb y = XFin b -> Rabs a <= Rabs b -> b <> 0 -> bd 0 (fdiv x y).
  Proof.
    intros Ex Ey H Hb. unfold Bounds.bd. rewrite emb_div, Ex, Ey, xdiv_fin by congruence. apply rn_bd; [lia|]. change (pw 0) with 1.
    unfold Rdiv. rewrite Rabs_mult, Rabs_inv. apply Rmult_le_reg_r with (Rabs b); [now apply Rabs_pos_lt|].
    rewrite Rmult_assoc, Rinv_l by now apply Rabs_no_R0. lra.
  Qed.

  Lemma bd_finite k x : bd k x -> is_finite x = true.
  Proof. intros (r & E & _). cbn in E. apply B2X_fin_inv in E. apply E. Qed.
  Lemma bd_pi4 : bd 0 (fdiv fpi (fofZ 4)).
  Proof. apply (bd_test L 0 1); try lia. vm_compute. reflexivity. Qed.
  Lemma bd_pi2 : bd 1 (fdiv fpi f2).
  Proof. apply (bd_test L 1 2); try lia. vm_compute. reflexivity. Qed.

  Lemma disk_bd (u : P2 b32) : tame_libm L -> in_unit (px u) -> in_unit (py u) ->
    bd 0 (px (concentric_sample_disk u)) /\ bd 0 (py (concentric_sample_disk u)).
  Proof.
    intros HL Hx Hy. unfold concentric_sample_disk. cbv zeta. cbn [px py].
    pose proof (centred (px u) Hx) as Cx. pose proof (centred (py u) Hy) as Cy.
    set (x := fadd (fmul (px u) f2) (fneg f1)) in *. set (y := fadd (fmul (py u) f2) (fneg f1)) in *. clearbody x y.
    destruct (feq x f0 && feq y f0)%bool eqn:Z; [split; assumption|].
    assert (TR : forall th r, is_finite th = true -> bd 0 r -> bd 0 (fmul (fcos th) r) /\ bd 0 (fmul (fsin th) r)).
    { intros th r Fth Br. destruct (HL th Fth) as [Ws Wc].
      split; apply (bd_mul L 0 0); try lia; auto; [apply (within_bd L 0 1 _) with (3 := Wc)|apply (within_bd L 0 1 _) with (3 := Ws)]; cbn; lia. }
    pose proof Cx as (a & Ea & Ba). pose proof Cy as (b & Eb & Bb).
    destruct (flt (fabs y) (fabs x)) eqn:Lt; cbn [px py]; apply TR; auto.
    - apply (bd_finite 0). change 0%Z with (0 + 0)%Z. apply bd_mul; [lia|apply bd_pi4|].
      rewrite emb_lt, !emb_abs, Ea, Eb in Lt. cbn in Lt. rb. eapply quot_bd; [exact Eb|exact Ea|lra|]. intros ->. rewrite Rabs_R0 in Lt. pose proof (Rabs_pos b). lra.
    - apply (bd_finite (1 + 1)). apply bd_sub; [lia|apply bd_pi2|]. apply (bd_mono L (0 + 0)); [lia|]. apply bd_mul; [lia|apply bd_pi4|].
      rewrite emb_lt, !emb_abs, Ea, Eb in Lt. cbn in Lt. rb. eapply quot_bd; [exact Ea|exact Eb|lra|]. intros ->. rewrite Rabs_R0 in Lt.
      assert (a = 0) as -> by (destruct (Req_dec a 0); auto; pose proof (Rabs_pos_lt a H); lra).
      rewrite !emb_eq, Ea, Eb, emb_f0 in Z. cbn in Z. rewrite Req_bool_true in Z by auto. discriminate.
  Qed.

  Lemma cosine_bd (u : P2 b32) : tame_libm L -> in_unit (px u) -> in_unit (py u) -> vb 2 (cosine_sample_hemisphere u).
  Proof.
    intros HL Hx Hy. destruct (disk_bd u HL Hx Hy) as [Bx By]. unfold cosine_sample_hemisphere.
    destruct (concentric_sample_disk u) as [x y]. cbn [px py] in *.
    repeat split; cbn [vx vy vz]; [eapply bd_mono; [|exact Bx]; lia|eapply bd_mono; [|exact By]; lia|].
    set (e := fsub (fsub f1 (fmul x x)) (fmul y y)).
    assert (Be : bd 2 e).
    { unfold e. change 2%Z with (1 + 1)%Z. apply bd_sub; [lia| |].
      - change 1%Z with (0 + 1)%Z. apply bd_sub; [lia|apply bd_1|]. change 0%Z with (0 + 0)%Z. apply bd_mul; auto; lia.
      - apply (bd_mono L (0 + 0)); [lia|]. apply bd_mul; auto; lia. }
    assert (Nn : fis_nan e = false) by (eapply bd_not_nan; exact Be). assert (N0 : fis_nan (f0 : b32) = false) by reflexivity.
    destruct (fmax_ub e f0 Nn N0) as [_ U]. rewrite emb_le, emb_f0 in U.
    assert (Bm : bd 2 (fmax e f0)) by (destruct (emb_fmax_cases e f0) as [-> | -> ]; [exact Be|apply bd_0]).
    destruct Bm as (m & Em & Hm). rewrite Em in U. cbn in U. rb. unfold Bounds.bd. rewrite emb_sqrt, Em, xsqrt_fin by auto.
    apply rn_bd; [lia|]. rewrite Rabs_pos_eq by apply sqrt_pos. rewrite Rabs_pos_eq in Hm by auto.
    rewrite <- (sqrt_pw 2). apply sqrt_le_1; [auto|apply bpow_ge_0|]. eapply Rle_trans; [exact Hm|]. apply bpow_le. lia.
  Qed.

  Lemma lamb_bd r wo (u : P2 b32) : tame_libm L -> in_unit (px u) -> in_unit (py u) -> vb 2 (fst (fst (lamb_sample r wo u))).
  Proof.
    intros HL Hx Hy. pose proof (cosine_bd u HL Hx Hy) as B. unfold lamb_sample. cbv zeta. cbn [fst].
    destruct (flt (vz wo) f0); [|exact B]. destruct B as (B1 & B2 & B3). repeat split; cbn [vx vy vz]; auto.
    change 2%Z with (2 + 0)%Z. apply bd_mul; [lia|exact B3|]. apply bd_neg, bd_1.
  Qed.

  (** ** from the frame to the world *)
  Lemma nan3_1 (a b c : b32) : nan a -> nan (fadd (fadd a b) c).
  Proof. intros H. now apply nan_add_l, nan_add_l. Qed.
  Lemma nan3_2 (a b c : b32) : nan b -> nan (fadd (fadd a b) c).
  Proof. intros H. apply nan_add_l. now apply nan_add_r. Qed.
  Lemma nan3_3 (a b c : b32) : nan c -> nan (fadd (fadd a b) c).
  Proof. intros H. now apply nan_add_r. Qed.

  Lemma to_world b v : bs_t b = v3cross (bs_sn b) (bs_s b) -> has_nan (bs_sn b) \/ (vb 1 (bs_sn b) /\ (has_nan (bs_s b) \/ vb 1 (bs_s b))) ->
    vb 2 v -> vn (local_to_world b v) \/ vb 10 (local_to_world b v).
  Proof.
    intros Et H (V1 & V2 & V3). unfold local_to_world. cbv zeta. rewrite Et. cbn [v3cross vx vy vz].
    assert (NN : has_nan (bs_sn b) -> vn (mkV3 (fadd (fadd (fmul (vx (bs_s b)) (vx v)) (fmul (vx (v3cross (bs_sn b) (bs_s b))) (vy v))) (fmul (vx (bs_sn b)) (vz v)))
      (fadd (fadd (fmul (vy (bs_s b)) (vx v)) (fmul (vy (v3cross (bs_sn b) (bs_s b))) (vy v))) (fmul (vy (bs_sn b)) (vz v)))
      (fadd (fadd (fmul (vz (bs_s b)) (vx v)) (fmul (vz (v3cross (bs_sn b) (bs_s b))) (vy v))) (fmul (vz (bs_sn b)) (vz v))))).
    { intros [N|[N|N]]; repeat split; cbn [v3cross vx vy vz];
        first [apply nan3_3, nan_mul_l, N|apply nan3_2, nan_mul_l, nan_sub_l, nan_mul_l, N|apply nan3_2, nan_mul_l, nan_sub_r, nan_mul_l, N]. }
    assert (NS : has_nan (bs_s b) -> vn (mkV3 (fadd (fadd (fmul (vx (bs_s b)) (vx v)) (fmul (vx (v3cross (bs_sn b) (bs_s b))) (vy v))) (fmul (vx (bs_sn b)) (vz v)))
      (fadd (fadd (fmul (vy (bs_s b)) (vx v)) (fmul (vy (v3cross (bs_sn b) (bs_s b))) (vy v))) (fmul (vy (bs_sn b)) (vz v)))
      (fadd (fadd (fmul (vz (bs_s b)) (vx v)) (fmul (vz (v3cross (bs_sn b) (bs_s b))) (vy v))) (fmul (vz (bs_sn b)) (vz v))))).
    { intros [N|[N|N]]; repeat split; cbn [v3cross vx vy vz];
        first [apply nan3_1, nan_mul_l, N|apply nan3_2, nan_mul_l, nan_sub_l, nan_mul_r, N|apply nan3_2, nan_mul_l, nan_sub_r, nan_mul_r, N]. }
    destruct H as [N|(Vn & [N|Vs])]; [left; now apply NN|left; now apply NS|]. right.
    pose proof (vb_cross L 1 1 _ _ ltac:(lia) Vn Vs) as Vt. cbn [Z.add] in Vt.
    assert (C : forall s t n, bd 1 s -> bd 3 t -> bd 1 n -> bd 10 (fadd (fadd (fmul s (vx v)) (fmul t (vy v))) (fmul n (vz v)))).
    { intros s t n Bs Bt Bn. apply (bd_mono L (5 + 1 + 1)); [lia|]. apply bd_add; [lia| |].
      - apply bd_add; [lia| |]; [apply (bd_mono L (1 + 2)); [lia|]|change 5%Z with (3 + 2)%Z]; apply bd_mul; auto; lia.
      - apply (bd_mono L (1 + 2)); [lia|]. apply bd_mul; auto; lia. }
    destruct Vn as (n1 & n2 & n3), Vs as (s1 & s2 & s3), Vt as (x1 & x2 & x3). repeat split; cbn [vx vy vz]; apply C; auto.
  Qed.

  (** ** points on lights *)
  Lemma tri_light t (u : P2 b32) : tame_triangle L t -> in_unit (px u) -> in_unit (py u) -> good_point L 30 (tr_sample (T := T) t u).
  Proof.
    intros H Hx Hy. destruct (tame_vb L t H) as (V0 & V1 & V2). destruct (unit_val _ Hx) as (x & Ex & Rx). destruct (unit_val _ Hy) as (y & Ey & Ry).
    unfold tr_sample. cbv zeta. right. cbn [i_n i_p i_p_err].
    assert (Vn : vb 1 (v3normalize (v3cross (v3sub (t1 (tr_v t)) (t0 (tr_v t))) (v3sub (t2 (tr_v t)) (t0 (tr_v t)))))).
    { eapply (normalize_vb L 43); [|apply (tt_cross0 L t H)]. replace 43%Z with (21 + 21 + 1)%Z by lia.
      apply vb_cross; [lia| |]; change 21%Z with (20 + 1)%Z; apply vb_sub; auto; lia. }
    split; [destruct (tr_rev t); auto; apply neg1_scale; auto; lia|].
    left.
    assert (S : exists s, emb (fsqrt (px u)) = XFin s /\ 0 <= s <= 1).
    { rewrite emb_sqrt, Ex, xsqrt_fin by lra. assert (sqrt x <= 1) by (rewrite <- sqrt_1; apply sqrt_le_1; lra). pose proof (sqrt_pos x).
      destruct (rn_bd L 0 (sqrt x) ltac:(lia)) as (s & Es & Hs). { rewrite Rabs_pos_eq by auto. exact H0. }
      exists s. split; auto. pose proof (rn_le (FLaws := B32_FLaws L) (XFin 0) (XFin (sqrt x)) ltac:(cbn; rb; lra)) as A. rewrite rn_0, Es in A. cbn in A. rb.
      rewrite Rabs_pos_eq in Hs by auto. change (pw 0) with 1 in Hs. lra. }
    destruct S as (s & Es & Hs).
    assert (B0 : bd 0 (fsub f1 (fsqrt (px u)))).
    { unfold Bounds.bd. rewrite emb_sub, Es, emb_f1. cbn [xsub xadd xneg]. apply rn_bd; [lia|]. change (pw 0) with 1. apply Rabs_le. lra. }
    assert (Bs : bd 0 (fsqrt (px u))) by (exists s; split; auto; change (pw 0) with 1; rewrite Rabs_pos_eq; lra).
    assert (B1 : bd 0 (fmul (py u) (fsqrt (px u)))).
    { change 0%Z with (0 + 0)%Z. apply bd_mul; auto; [lia|]. exists y. split; auto. change (pw 0) with 1. rewrite Rabs_pos_eq; lra. }
    assert (B2 : bd 2 (fsub (fsub f1 (fsub f1 (fsqrt (px u)))) (fmul (py u) (fsqrt (px u))))).
    { change 2%Z with (0 + 1 + 1)%Z. apply bd_sub; [lia| |eapply bd_mono; [|exact B1]; lia]. apply bd_sub; auto; [lia|apply bd_1]. }
    set (b0 := fsub f1 (fsqrt (px u))) in *. set (b1 := fmul (py u) _) in *. set (b2 := fsub _ b1) in *. clearbody b0 b1 b2.
    assert (S : forall w b, vb 20 w -> bd 2 b -> vb 22 (v3scale w b)) by (intros w b Hw Hb; change 22%Z with (20 + 2)%Z; apply vb_scale; auto; lia).
    assert (B0' : bd 2 b0) by (eapply bd_mono; [|exact B0]; lia). assert (B1' : bd 2 b1) by (eapply bd_mono; [|exact B1]; lia).
    unfold bary, bary_err. split.
    - apply (vb_mono L (22 + 1 + 1)); [lia|]. apply vb_add; [lia| |apply (vb_mono L 22); [lia|]; auto]. apply vb_add; auto; lia.
    - apply (vb_mono L (24 + 0)); [lia|]. apply vb_scale; [lia| |apply bd_gamma; auto].
      change 24%Z with (22 + 1 + 1)%Z. apply vb_add; [lia| |apply (vb_mono L 22); [lia|]; apply vb_abs; auto]. apply vb_add; try lia; apply vb_abs; auto.
  Qed.

  Lemma sun_point (p : V3 b32) (w : V3 b32) (r : b32) : vb 28 p -> vb 1 w -> bd 24 r ->
    good_point L 30 (mkI (v3add p (v3scale w (fmul f2 r))) v3zero (mkP2 f0 f0) v3zero v3zero v3zero v3zero v3zero (None : option T)).
  Proof.
    intros Hp Hw Hr. right. cbn [i_n i_p i_p_err]. assert (Z : forall k, vb k v3zero) by (intros k; repeat split; apply bd_0).
    split; [apply Z|]. left. split; [|apply Z]. apply (vb_mono L (28 + 1)); [lia|]. apply vb_add; [lia|exact Hp|].
    apply (vb_mono L (1 + (1 + 24))); [lia|]. apply vb_scale; [lia|exact Hw|]. apply bd_mul; auto; [lia|apply bd_2].
  Qed.
End Sa.
