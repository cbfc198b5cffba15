(** * Hit points of tame spheres; ray origins; sampled directions (for C70) *)
From Coq Require Import ZArith Reals Bool List Lra Lia.
From Flocq Require Import Core IEEE754.BinarySingleNaN.
From Verif Require Import Model.Num Model.NumX Model.NumB Model.Vector Model.Common Model.BBox Model.Interaction Model.Shape Model.Sphere Model.Triangle.
From Verif Require Import Spec.TameSpec.
From Verif Require Import Proofs.XBase Proofs.BBase Proofs.FLaws Proofs.Bounds Proofs.Lengths Proofs.SteadyProofs Proofs.RankProofs Props.Floats.
Import ListNotations.
Local Open Scope R_scope.

Section Sp.
  Context (L : Libm b32) (L64 : Libm b64) {T : Type}.
  Local Existing Instance B32_FOps.
  Local Existing Instance B32_FLaws.
  Notation rnb := (@rn b32 (B32_FOps L) (B32_FLaws L)).
  Notation bd := (bd L). Notation vb := (vb L). Notation nan := (nan L). Notation vn := (vn L). Notation has_nan := (has_nan L).

  Lemma has_nan_dec v : has_nan v \/ (fis_nan (vx v) = false /\ fis_nan (vy v) = false /\ fis_nan (vz v) = false).
  Proof.
    destruct (fis_nan (vx v)) eqn:A; [left; left; now apply nan_is|]. destruct (fis_nan (vy v)) eqn:B; [left; right; left; now apply nan_is|].
    destruct (fis_nan (vz v)) eqn:C; [left; right; right; now apply nan_is|]. auto.
  Qed.

  (** an infinite component makes the length infinite *)
  Lemma len_inf (v : V3 b32) x s : fis_nan (vx v) = false -> fis_nan (vy v) = false -> fis_nan (vz v) = false ->
    x = vx v \/ x = vy v \/ x = vz v -> emb x = XInf s -> emb (v3length v) = XInf false.
  Proof.
    intros A B C Hx Ex. pose proof (sq3_ge L v x A B C Hx) as S. rewrite emb_mul, Ex in S. cbn [xmul] in S.
    rewrite xorb_nilpotent, rn_inf in S. unfold v3length. change (fadd (fadd (fmul (vx v) (vx v)) (fmul (vy v) (vy v))) (fmul (vz v) (vz v))) with (sq3 L v).
    rewrite emb_sqrt. destruct (emb (sq3 L v)) as [|[]|q]; try discriminate. cbn [xsqrt]. apply rn_inf.
  Qed.

  Lemma fin_or_inf (x : b32) : fis_nan x = false -> (exists r, emb x = XFin r) \/ exists s, emb x = XInf s.
  Proof. rewrite emb_nan. destruct (emb x) as [|s|r]; cbn; try discriminate; eauto. Qed.

  Lemma nan_inf_0 (x y : b32) s : emb x = XInf s -> emb y = XFin 0 -> nan (fmul x y).
  Proof. intros Ex Ey. unfold Bounds.nan. rewrite emb_mul, Ex, Ey. cbn [xmul]. rewrite Req_bool_true by auto. apply rn_nan. Qed.
  Lemma nan_0_inf (x y : b32) s : emb y = XInf s -> emb x = XFin 0 -> nan (fmul x y).
  Proof. intros Ey Ex. unfold Bounds.nan. rewrite emb_mul, Ex, Ey. cbn [xmul]. rewrite Req_bool_true by auto. apply rn_nan. Qed.
  Lemma nan_inf_inf (x y : b32) s t : emb x = XInf s -> emb y = XInf t -> nan (fdiv x y).
  Proof. intros Ex Ey. unfold Bounds.nan. rewrite emb_div by congruence. rewrite Ex, Ey. cbn. reflexivity. Qed.

  (** a point pulled onto the sphere of radius [r] *)
  Lemma sphere_point (pos : V3 b32) (r : b32) rr : emb r = XFin rr -> pw (-20) <= rr <= pw 20 ->
    let p := v3scale pos (fdiv r (v3length pos)) in
    has_nan (v3normalize p) \/ (vb 22 p /\ vb 1 (v3normalize p) /\ xle (XFin (pw (-24))) (emb (v3length p)) = true).
  Proof.
    intros Er Hr p. pose proof (bpow_gt_0 radix2 (-20)) as P20.
    destruct (has_nan_dec pos) as [N|(Nx & Ny & Nz)].
    { left. apply vn_has, has_nan_normalize, vn_has. unfold p. apply vn_scale_r, nan_div_r, nan_sqrt. now apply (has_nan_dot_l L pos pos). }
    pose proof (len_nonneg L pos Nx Ny Nz) as Ln.
    destruct (emb (v3length pos)) as [|[]|l] eqn:El; try discriminate.
    - (* infinite length *)
      assert (Es : emb (fdiv r (v3length pos)) = XFin 0).
      { rewrite emb_div, El, Er by (rewrite El; discriminate). cbn [xdiv]. apply rn_0. }
      left. apply vn_has.
      assert (K : forall x, fis_nan x = false -> nan (fmul x (fdiv r (v3length pos))) \/ emb (fmul x (fdiv r (v3length pos))) = XFin 0).
      { intros x Hx. destruct (fin_or_inf x Hx) as [(q & Eq)|(s & Eq)].
        - right. rewrite emb_mul, Eq, Es. cbn [xmul]. rewrite Rmult_0_r. apply rn_0.
        - left. eapply nan_inf_0; eauto. }
      destruct (K _ Nx) as [Kx|Kx]; [apply has_nan_normalize; now left|].
      destruct (K _ Ny) as [Ky|Ky]; [apply has_nan_normalize; right; now left|].
      destruct (K _ Nz) as [Kz|Kz]; [apply has_nan_normalize; right; now right|].
      assert (El0 : emb (v3length p) = XFin 0).
      { unfold v3length, p. cbn [v3scale vx vy vz]. rewrite emb_sqrt, !emb_add. 
        rewrite (emb_mul (fmul (vx pos) _)), (emb_mul (fmul (vy pos) _)), (emb_mul (fmul (vz pos) _)), Kx, Ky, Kz. cbn [xmul].
        rewrite Rmult_0_r, rn_0. cbn [xadd]. rewrite Rplus_0_r, rn_0. cbn [xadd]. rewrite Rplus_0_r, rn_0, xsqrt_fin, sqrt_0 by lra. apply rn_0. }
      repeat split; cbn [v3normalize vx vy vz]; apply div_0_0; auto.
    - cbn in Ln. rb.
      destruct (fin_or_inf _ Nx) as [(a & Ea)|(s & Ea)]; [|rewrite (len_inf pos (vx pos) s) in El by auto; discriminate].
      destruct (fin_or_inf _ Ny) as [(b & Eb)|(s & Eb)]; [|rewrite (len_inf pos (vy pos) s) in El by auto; discriminate].
      destruct (fin_or_inf _ Nz) as [(c & Ec)|(s & Ec)]; [|rewrite (len_inf pos (vz pos) s) in El by auto; discriminate].
      destruct (Req_dec l 0) as [-> |Hl].
      + (* length zero *)
        assert (Es : exists s, emb (fdiv r (v3length pos)) = XInf s).
        { destruct (div_x_0 L r (v3length pos) El) as [Nn|I]; [|exact I]. exfalso.
          unfold Bounds.nan in Nn. cbn in Nn, Er, El. apply B2X_fin_inv in Er as [Fr Rr]. apply B2X_fin_inv in El as [Fl Rl].
          set (l := Bsqrt _ _) in *. clearbody l. destruct r as [| | |sr mr er br]; try discriminate; [cbn in Rr; lra|].
          destruct l as [sl| | |sl ml el bl]; try discriminate. now apply F2R_nz in Rl. }
        destruct Es as (s & Es).
        assert (K : forall x q, emb x = XFin q -> nan (fmul x (fdiv r (v3length pos))) \/ exists s', emb (fmul x (fdiv r (v3length pos))) = XInf s').
        { intros x q Eq. destruct (Req_dec q 0) as [-> |Hq]; [left; eapply nan_0_inf; eauto|]. right.
          rewrite emb_mul, Eq, Es. cbn [xmul]. rewrite Req_bool_false by auto. rewrite rn_inf. eauto. }
        left. apply vn_has.
        destruct (K _ _ Ea) as [Kx|(sx & Kx)]; [apply has_nan_normalize; now left|].
        destruct (K _ _ Eb) as [Ky|(sy & Ky)]; [apply has_nan_normalize; right; now left|].
        destruct (K _ _ Ec) as [Kz|(sz & Kz)]; [apply has_nan_normalize; right; now right|].
        assert (Ei : emb (v3length p) = XInf false).
        { apply (len_inf p (vx p) sx); auto; unfold p; cbn [v3scale vx vy vz]; rewrite ?emb_nan, ?Kx, ?Ky, ?Kz; reflexivity. }
        repeat split; cbn [v3normalize vx vy vz]; eapply nan_inf_inf; eauto.
      + right. assert (l > 0) by lra.
        pose proof (len_min L pos l Nx Ny Nz El Hl) as M.
        assert (Hlub : l < pw 128).
        { change (B2X (v3length pos) = XFin l) in El. apply B2X_fin_inv in El as [_ Rl]. pose proof (abs_B2R_lt_emax 24 128 (v3length pos)) as U. rewrite Rl in U. pose proof (Rle_abs l). lra. }
        set (s := fdiv r (v3length pos)) in *.
        assert (Es : emb s = rnb (XFin (rr / l))) by (unfold s; rewrite emb_div, Er, El, xdiv_fin; congruence).
        assert (Hq : pw (-148) <= rr / l <= pw 95).
        { split.
          - apply Rmult_le_reg_r with l; [lra|]. unfold Rdiv. rewrite Rmult_assoc, Rinv_l, Rmult_1_r by lra.
            apply Rle_trans with (pw (-148) * pw 128); [apply Rmult_le_compat_l; [apply bpow_ge_0|lra]|]. rewrite <- bpow_plus. apply Hr.
          - apply Rmult_le_reg_r with l; [lra|]. unfold Rdiv. rewrite Rmult_assoc, Rinv_l, Rmult_1_r by lra.
            apply Rle_trans with (pw 95 * pw (-75)); [rewrite <- bpow_plus; apply Hr|]. apply Rmult_le_compat_l; [apply bpow_ge_0|lra]. }
        pose proof (bpow_gt_0 radix2 (-148)) as P148.
        assert (Hq0 : rr / l <> 0) by lra.
        destruct (mag radix2 (rr / l)) as (j & Hj). cbn in Hj. specialize (Hj Hq0). rewrite Rabs_pos_eq in Hj by lra.
        assert (J : (-148 < j <= 96)%Z).
        { split; [assert (pw (-148) < pw j) by lra; now apply lt_bpow in H0|assert (pw (j - 1) <= pw 95) by lra; apply le_bpow in H0; lia]. }
        destruct (rn_bd L j (rr / l) ltac:(lia)) as (sv & Esv & Hsv). { rewrite Rabs_pos_eq by lra. lra. }
        assert (Hsl : pw (j - 1) <= sv) by (eapply (rn_ge_pw L (j - 1) (rr / l)); [lia| |exact Esv]; lra).
        pose proof (bpow_gt_0 radix2 (j - 1)) as Pj. rewrite Rabs_pos_eq in Hsv by lra.
        assert (Dj : pw j = 2 * pw (j - 1)). { replace j with (j - 1 + 1)%Z at 1 by lia. rewrite pw_double. lra. }
        assert (U : sv <= 2 * (rr / l)) by lra. assert (W : rr / l / 2 <= sv) by lra.
        rewrite Esv in Es.
        assert (V : forall x q, x = vx pos \/ x = vy pos \/ x = vz pos -> emb x = XFin q -> bd 22 (fmul x s)).
        { intros x q Hx Ex. unfold Bounds.bd. rewrite emb_mul, Ex, Es. cbn [xmul]. apply rn_bd; [lia|].
          pose proof (comp_le L pos x q l Nx Ny Nz Hx Ex El Hl) as Cq. rewrite Rabs_mult, (Rabs_pos_eq sv) by lra.
          apply Rle_trans with ((2 * l) * (2 * (rr / l))); [apply Rmult_le_compat; auto using Rabs_pos; lra|].
          replace (2 * l * (2 * (rr / l))) with (4 * rr) by (field; lra). replace (pw 22) with (4 * pw 20); [lra|]. cbn. lra. }
        assert (Vp : vb 22 p) by (repeat split; unfold p; cbn [v3scale vx vy vz]; eapply V; eauto).
        split; [exact Vp|].
        destruct Vp as ((x & Ex & Bx) & (y & Ey & By) & (z & Ez & Bz)).
        enough (LG : xle (XFin (pw (-24))) (emb (v3length p)) = true).
        { split; [|exact LG]. apply normalize_bd; [eauto 8|]. intros E0. rewrite E0 in LG. pose proof (bpow_gt_0 radix2 (-24)). cbn [xle] in LG. rb. lra. }
        assert (LB : forall w q m, emb w = XFin q -> l / 8 <= Rabs q -> emb (fmul w s) = XFin m -> pw (-24) <= Rabs m).
        { intros w q m Ew Hw. rewrite emb_mul, Ew, Es. cbn [xmul]. intros E0.
          assert (G : pw (-24) <= Rabs (q * sv)).
          { rewrite Rabs_mult, (Rabs_pos_eq sv) by lra. apply Rle_trans with (l / 8 * (rr / l / 2)).
            - replace (l / 8 * (rr / l / 2)) with (rr / 16) by (field; lra). replace (pw (-24)) with (pw (-20) / 16); [lra|]. cbn. lra.
            - apply Rmult_le_compat; lra. }
          destruct (Rle_dec 0 (q * sv)) as [Sg|Sg].
          - rewrite Rabs_pos_eq in G by auto. pose proof (rn_ge_pw L (-24) _ ltac:(lia) G _ E0) as G2. pose proof (Rle_abs m). lra.
          - rewrite Rabs_left1 in G by lra.
            assert (E1 : rnb (XFin (- (q * sv))) = XFin (- m)).
            { change (XFin (- (q * sv))) with (xneg (XFin (q * sv))). rewrite rn_opp, E0. reflexivity. }
            pose proof (rn_ge_pw L (-24) _ ltac:(lia) G _ E1) as G2. pose proof (Rle_abs (- m)). rewrite Rabs_Ropp in H0. lra. }
        assert (LL : forall w m, w = vx p \/ w = vy p \/ w = vz p -> emb w = XFin m -> pw (-24) <= Rabs m -> xle (XFin (pw (-24))) (emb (v3length p)) = true).
        { intros w m Hw Ew Hm. apply (len_ge L p w m (-24)); auto; try lia; rewrite emb_nan; [rewrite Ex|rewrite Ey|rewrite Ez]; reflexivity. }
        destruct (comp_ge L pos a b c l Ea Eb Ec El Hl) as [Hc|[Hc|Hc]].
        * apply (LL (vx p) x); auto. eapply LB; [exact Ea|exact Hc|exact Ex].
        * apply (LL (vy p) y); auto. eapply LB; [exact Eb|exact Hc|exact Ey].
        * apply (LL (vz p) z); auto. eapply LB; [exact Ec|exact Hc|exact Ez].
  Qed.

  Lemma tame_radius s : tame_sphere s -> exists rr, emb (sp_radius s) = XFin rr /\ pw (-20) <= rr <= pw 20.
  Proof.
    intros [_ H1 H2]. change (fle (fdiv f1 (fofZ (2 ^ 20))) (sp_radius s) = true) in H1. change (fle (sp_radius s) (fofZ (2 ^ 20)) = true) in H2.
    rewrite emb_le, emb_ofZ_exact in H2 by (cbn; lia).
    rewrite emb_le, emb_div, emb_f1, emb_ofZ_exact, xdiv_fin in H1; [|cbn; lra|cbn; lia|rewrite emb_ofZ_exact by (cbn; lia); intros E; injection E; lra].
    rewrite (rn_dyadic (FLaws := B32_FLaws L) 1 20) in H1 by (cbn; lia).
    destruct (emb (sp_radius s)) as [|[]|rr]; try discriminate. cbn [xle] in H1, H2. rb. exists rr. split; auto.
    split; [eapply Rle_trans; [|exact H1]|eapply Rle_trans; [exact H2|]]; cbn; lra.
  Qed.

  Lemma sphere_hit (s : sphere b32) r t i d : tame_sphere s -> sp_interaction (T := T) s r t = (i, d) -> good_point L 28 i /\ good_frame L i.
  Proof.
    intros H. destruct (tame_radius s H) as (rr & Er & Hr). unfold sp_interaction.
    pose proof (sphere_point (ray_position r t) (sp_radius s) rr Er Hr) as SP. cbv zeta in SP.
    set (p := v3scale (ray_position r t) _) in *. clearbody p. cbv zeta.
    destruct (sp_partials p) as [du dv] eqn:Ep. intros E.
    pose proof (f_equal fst E) as Ei. cbn [fst] in Ei. clear E. rewrite <- Ei. clear Ei i. unfold good_point, good_frame. cbn [i_n i_p i_p_err i_sn i_dpdu].
    destruct SP as [N|(Vp & Vn & _)]; [split; now left|]. split.
    - right. split; [exact Vn|]. left. split.
      + apply (vb_mono L (22 + 1)); [lia|]. apply vb_add; [lia|exact Vp|]. apply (vb_mono L 20); [lia|]. eapply within3_vb; [| |apply H]; cbn; lia.
      + apply (vb_mono L (22 + 0)); [lia|]. apply vb_scale; [lia|now apply vb_abs|]. apply bd_gamma. auto.
    - right. split; [exact Vn|]. pose proof (f_equal fst Ep) as Ed. cbn [fst sp_partials] in Ed. rewrite <- Ed. clear Ep Ed du dv.
      assert (B : vb 30 (mkV3 (fmul (fmul (fofZ (-2)) fpi) (vy p)) (fmul (fmul f2 fpi) (vx p)) f0)).
      { destruct Vp as (Vx & Vy & Vz). repeat split; cbn [vx vy vz].
        - apply (bd_mono L (1 + 2 + 22)); [lia|]. apply bd_mul; [lia| |exact Vy]. apply bd_mul; [lia| |apply bd_pi]. apply (bd_Z L 1 (-2)); cbn; lia.
        - apply (bd_mono L (1 + 2 + 22)); [lia|]. apply bd_mul; [lia| |exact Vx]. apply bd_mul; [lia|apply bd_2|apply bd_pi].
        - apply bd_0. }
      set (du := mkV3 _ _ _) in *.
      destruct (emb (v3length du)) as [|sl|l] eqn:El.
      + right. destruct B as ((x & Ex & _) & (y & Ey & _) & (z & Ez & _)). apply normalize_bd; [eauto 8|]. rewrite El. discriminate.
      + right. destruct B as ((x & Ex & _) & (y & Ey & _) & (z & Ez & _)). apply normalize_bd; [eauto 8|]. rewrite El. discriminate.
      + destruct (Req_dec l 0) as [-> |Hl].
        * left. right. right. cbn [v3normalize vx vy vz]. apply div_0_0; [apply emb_f0|exact El].
        * right. destruct B as ((x & Ex & _) & (y & Ey & _) & (z & Ez & _)). apply normalize_bd; [eauto 8|]. rewrite El. congruence.
  Qed.

  (** ** ray origins *)
  Lemma next_bd k (x : b32) : (0 <= k <= 100)%Z -> bd k x -> bd (k + 1) (fnext_up x) /\ bd (k + 1) (fnext_down x).
  Proof.
    intros Hk (r & E & Hr). assert (N : is_nan x = false) by (eapply bd_is; exists r; eauto).
    assert (Lt : pw k < pw (k + 1)) by (apply bpow_lt; lia).
    assert (Hy : exists y : b32, B2X y = XFin (pw (k + 1))).
    { exists (binary_normalize 24 128 ltac:(reflexivity) ltac:(reflexivity) mode_NE 1 (k + 1) false).
      pose proof (binary_normalize_correct 24 128 ltac:(reflexivity) ltac:(reflexivity) mode_NE 1 (k + 1) false) as BN.
      assert (R1 : F2R (Float radix2 1 (k + 1)) = pw (k + 1)) by (unfold Defs.F2R; cbn [Fnum Fexp]; lra).
      cbv zeta in BN. rewrite R1 in BN. rewrite round_generic in BN; [|typeclasses eauto|].
      - rewrite Rlt_bool_true in BN by (rewrite Rabs_pos_eq by apply bpow_ge_0; apply bpow_lt; lia).
        destruct BN as (B1 & B2 & _). rewrite B2X_fin by exact B2. now rewrite B1.
      - apply generic_format_bpow. unfold SpecFloat.fexp, SpecFloat.emin. lia. }
    destruct Hy as (y & Ey). cbn in E.
    apply Rabs_le_inv in Hr.
    split.
    - change (fnext_up x) with (next_float_up x). destruct (C65_up x N) as (Nu & _ & Lu & Mu).
      assert (Lx : Bltb x (next_float_up x) = true) by (apply Lu; intros ->; discriminate).
      assert (Uy : Bleb (next_float_up x) y = true). { apply Mu. rewrite B2X_lt, E, Ey. cbn [xlt]. rb. lra. }
      rewrite B2X_lt, E in Lx. rewrite B2X_le, Ey in Uy. unfold Bounds.bd. cbn [emb B32_FLaws].
      destruct (B2X (next_float_up x)) as [|[]|q]; try discriminate. cbn [xlt xle] in Lx, Uy. rb. exists q. split; auto. apply Rabs_le. lra.
    - change (fnext_down x) with (next_float_down x). destruct (C65_down x N) as (Nu & _ & Lu & Mu).
      assert (Lx : Bltb (next_float_down x) x = true) by (apply Lu; intros ->; discriminate).
      assert (Uy : Bleb (Bopp y) (next_float_down x) = true). { apply Mu. rewrite B2X_lt, E, B2X_opp, Ey. cbn [xlt xneg]. rb. lra. }
      rewrite B2X_lt, E in Lx. rewrite B2X_le, B2X_opp, Ey in Uy. unfold Bounds.bd. cbn [emb B32_FLaws].
      destruct (B2X (next_float_down x)) as [|[]|q]; try discriminate. cbn [xlt xle xneg] in Lx, Uy. rb. exists q. split; auto. apply Rabs_le. lra.
  Qed.

  Lemma coord_bd k (o p : b32) : (0 <= k <= 100)%Z -> bd k p -> bd (k + 1) (offset_coord o p).
  Proof.
    intros Hk H. unfold offset_coord. destruct (flt f0 o); [now apply next_bd|]. destruct (flt o f0); [now apply next_bd|]. eapply bd_mono; [|exact H]. lia.
  Qed.
  Lemma coord_nan (o p : b32) : nan o -> nan p -> nan (offset_coord o p).
  Proof. intros Ho Hp. unfold offset_coord. apply nan_is in Ho. destruct o; try discriminate. exact Hp. Qed.

  Lemma has_nan_abs v : has_nan v -> has_nan (v3abs v).
  Proof. intros [H|[H|H]]; [left|right; left|right; right]; cbn [v3abs vx vy vz]; now apply nan_abs. Qed.

  Lemma offset_cases k (i : interaction b32 T) v : (0 <= k <= 30)%Z -> good_point L k i -> vn (offset_ray_origin i v) \/ (vb 40 (offset_ray_origin i v) /\ vb k (i_p i)).
  Proof.
    intros Hk H. unfold offset_ray_origin. cbv zeta. set (dd := v3dot (v3abs (i_n i)) (i_p_err i)).
    assert (K : nan dd \/ (bd 40 dd /\ bd 33 dd /\ vb 1 (i_n i) /\ vb k (i_p i))).
    { destruct H as [N|(Vn & [(Vp & Ve)|(Np & Ne)])].
      - left. apply has_nan_dot_l. now apply has_nan_abs.
      - right. assert (B : bd (1 + k + 2) dd) by (apply bd_dot; [lia|now apply vb_abs|exact Ve]).
        split; [eapply bd_mono; [|exact B]; lia|]. split; [eapply bd_mono; [|exact B]; lia|]. auto.
      - left. apply has_nan_dot_r. now apply vn_has. }
    destruct K as [N|(_ & B & Vn & Vp)].
    - left. set (o := if flt (v3dot (i_n i) v) f0 then _ else _).
      assert (No : vn o). { unfold o. destruct (flt _ _); [apply vn_scale_l|]; now apply vn_scale_r. }
      destruct (vn_add_r L (i_p i) o No) as (A1 & A2 & A3). destruct No as (O1 & O2 & O3).
      repeat split; cbn [vx vy vz]; now apply coord_nan.
    - right. split; [|exact Vp]. set (o := if flt (v3dot (i_n i) v) f0 then _ else _).
      assert (Vo : vb 34 o).
      { assert (V1 : vb (1 + 33) (v3scale (i_n i) dd)) by (apply vb_scale; auto; lia).
        unfold o. destruct (flt _ _); [|exact V1]. change 34%Z with (1 + 33 + 0)%Z. apply vb_scale; [lia|exact V1|]. apply bd_neg, bd_1. }
      assert (Va : vb (34 + 1) (v3add (i_p i) o)) by (apply vb_add; auto; [lia|eapply vb_mono; [|exact Vp]; lia]).
      destruct Va as (A1 & A2 & A3).
      repeat split; cbn [vx vy vz]; eapply (bd_mono L (34 + 1 + 1)); try lia; apply coord_bd; auto; lia.
  Qed.

  (** the direction of a shadow ray *)
  Lemma shadow_steady (i j : interaction b32 T) : good_point L 28 i -> (vb 28 (i_p i) -> good_point L 30 j) -> steady (r_d (spawn_ray_to i j)).
  Proof.
    intros Hi Hj. unfold spawn_ray_to. cbv zeta. cbn [r_d].
    destruct (offset_cases 28 i (v3sub (i_p j) (i_p i)) ltac:(lia) Hi) as [N|(V & P)]; [eapply vn_steady, vn_sub_r, N|].
    destruct (offset_cases 30 j (v3neg (v3sub (i_p j) (i_p i))) ltac:(lia) (Hj P)) as [N|(V' & _)]; [eapply vn_steady, vn_sub_l, N|].
    eapply vb_steady, (vb_sub L 40); auto; lia.
  Qed.
End Sp.
