(** * The half vectors of rough surfaces have nearly the length 1 (C70) *)
From Coq Require Import ZArith Reals Bool List Lra Lia Psatz.
From Flocq Require Import Core BinarySingleNaN.
From Verif Require Import Model.Num Model.NumX Model.NumB Model.Vector Model.Common Model.Reflection Model.Microfacet.
From Verif Require Import Spec.RVec Spec.SamplerSpec Spec.TameSpec Spec.FinishSpec.
From Verif Require Import Proofs.XBase Proofs.RVecProofs Proofs.BBase Proofs.FLaws Proofs.Bounds Proofs.Lengths Proofs.SteadyProofs Proofs.SteadySample Proofs.SteadyMirror.
Import ListNotations.
Local Open Scope R_scope.

Section Wh.
  Context (L : Libm b32).
  Local Existing Instance B32_FOps.
  Local Existing Instance B32_FLaws.
  Notation rnb := (@rn b32 (B32_FOps L) (B32_FLaws L)).
  Notation bd := (bd L). Notation nan := (nan L). Notation has_nan := (has_nan L). Notation val := (val L).

  (** no minus sign *)
  Definition pos (x : b32) : Prop := Bsign x = false.

  Lemma over_sign (x : b32) s : B2SF x = binary_overflow 24 128 mode_NE s -> Bsign x = s.
  Proof. destruct x; cbn; intros H; try discriminate H; congruence. Qed.

  Lemma pos_mul (x y : b32) : pos x -> pos y -> pos (fmul x y).
  Proof.
    unfold pos. cbn [fmul B32_FOps]. intros Hx Hy. destruct (is_nan (Bmult mode_NE x y)) eqn:N; [now destruct (Bmult mode_NE x y)|].
    pose proof (Bmult_correct 24 128 _ _ mode_NE x y) as C. destruct (Rlt_bool _ _).
    - destruct C as (_ & _ & C). rewrite (C N), Hx, Hy. reflexivity.
    - apply over_sign in C. rewrite C, Hx, Hy. reflexivity.
  Qed.
  Lemma pos_sq (x : b32) : pos (fmul x x).
  Proof.
    unfold pos. cbn [fmul B32_FOps]. destruct (is_nan (Bmult mode_NE x x)) eqn:N; [now destruct (Bmult mode_NE x x)|].
    pose proof (Bmult_correct 24 128 _ _ mode_NE x x) as C. destruct (Rlt_bool _ _).
    - destruct C as (_ & _ & C). rewrite (C N). apply xorb_nilpotent.
    - apply over_sign in C. rewrite C. apply xorb_nilpotent.
  Qed.
  Lemma pos_div (x y : b32) : pos x -> pos y -> pos (fdiv x y).
  Proof.
    unfold pos. cbn [fdiv B32_FOps]. intros Hx Hy. destruct (is_nan (Bdiv mode_NE x y)) eqn:N; [now destruct (Bdiv mode_NE x y)|].
    destruct (Req_dec (B2R y) 0) as [Z|Z].
    - destruct y as [sy|sy| |sy my ey By]; cbn in Hy; try (destruct x as [sx|sx| |sx mx ex Bx]; cbn in *; subst; try discriminate; reflexivity).
      exfalso. cbn in Z. now apply F2R_nz in Z.
    - pose proof (Bdiv_correct 24 128 _ _ mode_NE x y Z) as C. destruct (Rlt_bool _ _).
      + destruct C as (_ & _ & C). rewrite (C N), Hx, Hy. reflexivity.
      + apply over_sign in C. rewrite C, Hx, Hy. reflexivity.
  Qed.
  Lemma pos_R (x : b32) : pos x -> 0 <= B2R x.
  Proof.
    unfold pos. destruct x as [| | |s m e B]; cbn [Bsign B2R]; try lra. intros ->. cbn [SpecFloat.cond_Zopp]. apply F2R_ge_0. cbn. lia.
  Qed.
  Lemma pos_add (x y : b32) : pos x -> pos y -> pos (fadd x y).
  Proof.
    unfold pos. cbn [fadd B32_FOps]. intros Hx Hy.
    destruct (is_finite x) eqn:Fx; [destruct (is_finite y) eqn:Fy|].
    - pose proof (Bplus_correct 24 128 _ _ mode_NE x y Fx Fy) as C. destruct (Rlt_bool _ _).
      + destruct C as (_ & _ & ->). pose proof (pos_R x Hx). pose proof (pos_R y Hy). rewrite Hx, Hy. destruct (Rcompare_spec (B2R x + B2R y) 0); auto. lra.
      + destruct C as [C _]. apply over_sign in C. now rewrite C.
    - destruct y; try discriminate; destruct x; try discriminate; cbn in *; subst; auto.
    - destruct x; try discriminate; destruct y; cbn in *; subst; auto.
  Qed.
  Lemma pos_Z z : (0 <= z <= 2 ^ 24)%Z -> pos (fofZ z).
  Proof.
    intros H. unfold pos. cbn [fofZ B32_FOps]. destruct (Z.eq_dec z 0) as [-> |]; [reflexivity|].
    assert (E : emb (fofZ z : b32) = XFin (IZR z)) by (apply emb_ofZ_exact; lia). cbn in E. apply B2X_fin_inv in E as [F E].
    assert (0 < IZR z) by (apply IZR_lt; lia).
    destruct (Bof_Z z) as [| | |s m e B]; try discriminate; cbn in E; [lra|]. destruct s; [|reflexivity]. exfalso.
    assert (F2R (Float radix2 (Z.neg m) e) < 0) by (apply F2R_lt_0; cbn; lia). cbn in *. lra.
  Qed.
  Lemma pos_val (x : b32) r : emb x = XFin r -> 0 < r -> pos x.
  Proof.
    intros E H. unfold pos. cbn in E. apply B2X_fin_inv in E as [F E]. destruct x as [| | |s m e B]; try discriminate; cbn in E; [lra|]. destruct s; [|reflexivity]. exfalso.
    assert (F2R (Float radix2 (Z.neg m) e) < 0) by (apply F2R_lt_0; cbn; lia). cbn in *. lra.
  Qed.
  (** numbers without a minus sign *)
  Lemma pos_emb (x : b32) : pos x -> emb x = XNaN \/ emb x = XInf false \/ exists r, emb x = XFin r /\ 0 <= r.
  Proof.
    intros H. pose proof (pos_R x H) as R. unfold pos in H. cbn. destruct x as [| | |s m e B]; cbn in *; subst; auto; right; right; eexists; (split; [reflexivity|]); auto; lra.
  Qed.
  (** random numbers; minus zero counts as zero *)
  Lemma unit_times (a u : b32) : in_unit u -> pos a -> emb (fmul a u) = XNaN \/ emb (fmul a u) = XInf false \/ exists r, emb (fmul a u) = XFin r /\ 0 <= r.
  Proof.
    intros Hu Ha. destruct (unit_val L u Hu) as (r & Eu & Hr). rewrite emb_mul, Eu. destruct (pos_emb a Ha) as [-> | [-> | (q & -> & Hq)] ].
    - left. apply rn_nan.
    - cbn [xmul]. destruct (Req_bool_spec r 0); [left; apply rn_nan|]. right; left. unfold Rsgn. rewrite Rlt_bool_false by lra. apply rn_inf.
    - cbn [xmul]. pose proof (rn_le (FLaws := B32_FLaws L) (XFin 0) (XFin (q * r)) ltac:(cbn; rb; nra)) as G. rewrite rn_0 in G.
      destruct (rnb (XFin (q * r))) as [|[]|z]; cbn in G; try discriminate; auto. rb. eauto.
  Qed.

  (** ** the cosine *)
  Lemma cos_val (t : b32) : emb t = XNaN \/ emb t = XInf false \/ (exists r, emb t = XFin r /\ 0 <= r) ->
    nan (fdiv f1 (fsqrt (fadd f1 t))) \/ exists c, emb (fdiv f1 (fsqrt (fadd f1 t))) = XFin c /\ 0 <= c <= 1.
  Proof.
    intros [E|[E|(r & E & Hr)]].
    - left. apply nan_div_r, nan_sqrt, nan_add_r. exact E.
    - right. exists 0. split; [|lra].
      assert (Es : emb (fsqrt (fadd f1 t)) = XInf false) by (rewrite emb_sqrt, emb_add, emb_f1, E; cbn [xadd]; rewrite rn_inf; cbn [xsqrt]; apply rn_inf).
      rewrite emb_div, Es, emb_f1 by (rewrite Es; discriminate). cbn [xdiv]. apply rn_0.
    - right.
      assert (Ea : emb (fadd f1 t) = XInf false \/ exists a, emb (fadd f1 t) = XFin a /\ 1 <= a).
      { rewrite emb_add, emb_f1, E. cbn [xadd]. pose proof (rn_le (FLaws := B32_FLaws L) (XFin 1) (XFin (1 + r)) ltac:(cbn; rb; lra)) as G.
        rewrite (rn_pw L 0 ltac:(lia) : rnb (XFin 1) = XFin 1) in G. destruct (rnb (XFin (1 + r))) as [|[]|z]; cbn in G; try discriminate; auto. rb. eauto. }
      destruct Ea as [Ea|(a & Ea & Ha)].
      + exists 0. split; [|lra]. assert (Es : emb (fsqrt (fadd f1 t)) = XInf false) by (rewrite emb_sqrt, Ea; cbn [xsqrt]; apply rn_inf).
        rewrite emb_div, Es, emb_f1 by (rewrite Es; discriminate). cbn [xdiv]. apply rn_0.
      + assert (S1 : 1 <= sqrt a) by (rewrite <- sqrt_1; apply sqrt_le_1_alt; lra).
        assert (Es : emb (fsqrt (fadd f1 t)) = XInf false \/ exists q, emb (fsqrt (fadd f1 t)) = XFin q /\ 1 <= q).
        { rewrite emb_sqrt, Ea, xsqrt_fin by lra. pose proof (rn_le (FLaws := B32_FLaws L) (XFin 1) (XFin (sqrt a)) ltac:(cbn; rb; lra)) as G.
          rewrite (rn_pw L 0 ltac:(lia) : rnb (XFin 1) = XFin 1) in G. destruct (rnb (XFin (sqrt a))) as [|[]|z]; cbn in G; try discriminate; auto. rb. eauto. }
        destruct Es as [Es|(q & Es & Hq)].
        * exists 0. split; [|lra]. rewrite emb_div, Es, emb_f1 by (rewrite Es; discriminate). cbn [xdiv]. apply rn_0.
        * rewrite emb_div, Es, emb_f1, xdiv_fin by (rewrite ?Es; try (intros X; injection X); lra).
          assert (I : 0 < / q <= 1) by (split; [apply Rinv_0_lt_compat; lra|rewrite <- Rinv_1; apply Rinv_le_contravar; lra]).
          destruct (rn_bd L 0 (1 / q) ltac:(lia)) as (c & Ec & Hc). { change (pw 0) with 1. unfold Rdiv. rewrite Rmult_1_l, Rabs_pos_eq; lra. }
          exists c. split; [exact Ec|]. pose proof (rn_le (FLaws := B32_FLaws L) (XFin 0) (XFin (1 / q)) ltac:(cbn; rb; unfold Rdiv; lra)) as G. rewrite rn_0, Ec in G. cbn in G. rb.
          change (pw 0) with 1 in Hc. apply Rabs_le_inv in Hc. lra.
  Qed.

  (** ** the sine *)
  Lemma sin_val (x : b32) c : emb x = XFin c -> 0 <= c <= 1 ->
    exists s, emb (fsqrt (fmax (fsub f1 (fmul x x)) f0)) = XFin s /\ 0 <= s <= 1 /\ s * s + c * c <= 100001 / 100000.
  Proof.
    intros E Hc. pose proof eta_pos as Et.
    assert (B1 : 1 <= pw 50) by (change 1 with (pw 0); apply bpow_le; lia). assert (B2 : 2 <= pw 127) by (change 2 with (pw 1); apply bpow_le; lia).
    destruct (sq_val L x c E) as (q & Eq & Pq & Dq); [rewrite Rabs_pos_eq; lra|]. apply Rabs_le_inv in Dq. unfold uu in Dq.
    assert (Q1 : q <= 1).
    { pose proof (rn_le (FLaws := B32_FLaws L) (XFin (c * c)) (XFin 1) ltac:(cbn; rb; nra)) as G.
      rewrite (rn_pw L 0 ltac:(lia) : rnb (XFin 1) = XFin 1) in G. rewrite emb_mul, E in Eq. cbn [xmul] in Eq. rewrite Eq in G. cbn in G. now rb. }
    assert (Ed : exists d, emb (fsub f1 (fmul x x)) = XFin d /\ 0 <= d <= 1 /\ Rabs (d - (1 - q)) <= / 1000000).
    { rewrite emb_sub, emb_f1, Eq. cbn [xsub xneg xadd]. destruct (rn_any L (1 + - q)) as (d & Ed & Dd); [rewrite Rabs_pos_eq; lra|].
      exists d. split; [exact Ed|]. rewrite (Rabs_pos_eq (1 + - q)) in Dd by lra. unfold uu in Dd.
      pose proof (rn_le (FLaws := B32_FLaws L) (XFin 0) (XFin (1 + - q)) ltac:(cbn; rb; lra)) as G. rewrite rn_0, Ed in G. cbn in G. rb.
      pose proof (rn_le (FLaws := B32_FLaws L) (XFin (1 + - q)) (XFin 1) ltac:(cbn; rb; lra)) as G1. rewrite (rn_pw L 0 ltac:(lia) : rnb (XFin 1) = XFin 1), Ed in G1. cbn in G1. rb.
      replace (1 - q) with (1 + - q) by ring. split; [lra|]. lra. }
    destruct Ed as (d & Ed & Hd & Dd). apply Rabs_le_inv in Dd.
    assert (Em : emb (fmax (fsub f1 (fmul x x)) f0) = XFin d).
    { unfold fmax. rewrite !emb_nan, Ed, emb_f0. cbn [xis_nan]. rewrite emb_lt, Ed, emb_f0. cbn [xlt]. rewrite Rlt_bool_false by lra. exact Ed. }
    assert (S1 : sqrt d <= 1) by (rewrite <- sqrt_1; apply sqrt_le_1_alt; lra). pose proof (sqrt_pos d) as S0.
    assert (Ss : sqrt d * sqrt d = d) by (apply sqrt_sqrt; lra).
    destruct (rn_any L (sqrt d)) as (s & Es & Ds); [rewrite Rabs_pos_eq; lra|]. rewrite (Rabs_pos_eq (sqrt d)) in Ds by lra. apply Rabs_le_inv in Ds. unfold uu in Ds.
    exists s. rewrite emb_sqrt, Em, xsqrt_fin by lra. split; [exact Es|].
    pose proof (rn_le (FLaws := B32_FLaws L) (XFin 0) (XFin (sqrt d)) ltac:(cbn; rb; lra)) as G. rewrite rn_0, Es in G. cbn in G. rb.
    pose proof (rn_le (FLaws := B32_FLaws L) (XFin (sqrt d)) (XFin 1) ltac:(cbn; rb; lra)) as G1. rewrite (rn_pw L 0 ltac:(lia) : rnb (XFin 1) = XFin 1), Es in G1. cbn in G1. rb.
    split; [lra|]. assert (s * s <= d + / 1000000) by nra. nra.
  Qed.

  (** ** sines and cosines of the angle *)
  Lemma trig_val (x : b32) : fair_libm L -> nan (fsin x) /\ nan (fcos x) \/
    exists s c, emb (fsin x) = XFin s /\ emb (fcos x) = XFin c /\ -1 <= s <= 1 /\ -1 <= c <= 1 /\ s * s + c * c <= 10011 / 10000.
  Proof.
    intros H. destruct (H x) as [(_ & Ns & Nc)|(Ws & Wc & Q)].
    - left. cbn [fsin fcos B32_FOps]. unfold Bounds.nan. cbn. destruct (m_sin _ L x); try discriminate. destruct (m_cos _ L x); try discriminate. auto.
    - right. apply (within_bd L 0 1) in Ws; [|lia|cbn; lia]. apply (within_bd L 0 1) in Wc; [|lia|cbn; lia].
      destruct Ws as (s & Es & Hs), Wc as (c & Ec & Hc). change (pw 0) with 1 in Hs, Hc. exists s, c. split; [exact Es|]. split; [exact Ec|].
      pose proof eta_pos as Et. assert (B1 : 1 <= pw 50) by (change 1 with (pw 0); apply bpow_le; lia). assert (B2 : 4 <= pw 127) by (change 4 with (pw 2); apply bpow_le; lia).
      destruct (sq_val L _ s Es ltac:(lra)) as (s2 & Es2 & P1 & D1). destruct (sq_val L _ c Ec ltac:(lra)) as (c2 & Ec2 & P2 & D2).
      apply Rabs_le_inv in Hs, Hc, D1, D2. unfold uu in *.
      assert (s * s <= 1 /\ c * c <= 1) by (split; nra).
      destruct (sum_val L _ _ s2 c2 Es2 Ec2 P1 P2 ltac:(lra)) as (q & Eq & Dq). unfold uu in Dq.
      change (fle (fadd (fmul (fsin x) (fsin x)) (fmul (fcos x) (fcos x))) (fdiv (fofZ 1001) (fofZ 1000)) = true) in Q.
      rewrite emb_le in Q.
      assert (E3 : exists z, emb (fdiv (fofZ 1001) (fofZ 1000) : b32) = XFin z /\ z <= 10010005 / 10000000).
      { assert (E1 : emb (fofZ 1001 : b32) = XFin 1001) by (apply emb_ofZ_exact; cbn; lia). assert (E2 : emb (fofZ 1000 : b32) = XFin 1000) by (apply emb_ofZ_exact; cbn; lia).
        rewrite emb_div, E1, E2, xdiv_fin by (rewrite ?E2; try (intros X; injection X); lra). destruct (rn_any L (1001 / 1000)) as (z & Ez & Dz); [rewrite Rabs_pos_eq; lra|].
        exists z. split; [exact Ez|]. rewrite (Rabs_pos_eq (1001 / 1000)) in Dz by lra. apply Rabs_le_inv in Dz. unfold uu in Dz. lra. }
      destruct E3 as (z & Ez & Hz). 
      assert (Eq' : emb (fadd (fmul (fsin x) (fsin x)) (fmul (fcos x) (fcos x))) = XFin q) by exact Eq.
      rewrite Eq', Ez in Q. cbn [xle] in Q. rb. repeat split; try lra.
  Qed.

  (** ** the half vector *)
  Lemma wh_tan (a : microfacet b32) wo u : in_unit (px u) -> exists t phi,
    (emb t = XNaN \/ emb t = XInf false \/ (exists r, emb t = XFin r /\ 0 <= r)) /\
    mf_sample_wh a wo u = let c := fdiv f1 (fsqrt (fadd f1 t)) in let wh := from_spherical_direction (fsqrt (fmax (fsub f1 (fmul c c)) f0)) c phi in
      if same_hemisphere wo wh then wh else v3scale wh (fneg f1).
  Proof.
    intros Hu. unfold mf_sample_wh. destruct (unit_val L _ Hu) as (r & Eu & Hr).
    assert (D : exists d, emb (fsub f1 (px u)) = XFin d /\ 0 < d).
    { pose proof (emb_sub (FLaws := B32_FLaws L) f1 (px u)) as E. rewrite emb_f1, Eu in E. cbn [xsub xneg xadd] in E.
      destruct (rn_bd L 0 (1 + - r) ltac:(lia)) as (d & Ed & _). { change (pw 0) with 1. rewrite Rabs_pos_eq; lra. }
      change (1 - r) with (1 + - r) in E. rewrite Ed in E. exists d. split; [exact E|].
      destruct Hu as (_ & _ & Hlt).
      assert (G : pw (-149) <= 1 + - r -> 0 < d). { intros G. pose proof (rn_ge_pw L (-149) (1 + - r) ltac:(lia) G d Ed). pose proof (bpow_gt_0 radix2 (-149)). lra. }
      apply G. assert (F1 : generic_format radix2 (FLT_exp (-149) 24) 1) by (change 1 with (pw 0); apply generic_format_bpow; unfold FLT_exp; lia).
      assert (F2 : generic_format radix2 (FLT_exp (-149) 24) r). { cbn in Eu. apply B2X_fin_inv in Eu as [_ <-]. apply (generic_format_B2R 24 128 (px u)). }
      apply Rnot_lt_le. intros K.
      assert (r = 1); [|lra]. apply (Rle_antisym); [lra|]. 
      assert (pred radix2 (FLT_exp (-149) 24) 1 <= 1 - pw (-24)).
      { change 1 with (pw 0) at 1. rewrite pred_bpow. change (FLT_exp (-149) 24 0) with (-24)%Z. change (pw 0) with 1. lra. }
      assert (VE : Valid_exp (FLT_exp (-149) 24)) by (apply (@FLT_exp_valid (-149) 24); reflexivity).
      assert (r <= pred radix2 (FLT_exp (-149) 24) 1) by (apply (@pred_ge_gt radix2 (FLT_exp (-149) 24) VE r 1 F2 F1); lra).
      assert (pw (-149) < pw (-24)) by (apply bpow_lt; lia). lra. }
    destruct D as (d & Ed & Hd).
    assert (Q : forall n : b32, emb n = XNaN \/ emb n = XInf false \/ (exists r, emb n = XFin r /\ 0 <= r) -> let t := fdiv n (fsub f1 (px u)) in
      emb t = XNaN \/ emb t = XInf false \/ (exists r, emb t = XFin r /\ 0 <= r)).
    { intros n Hn t. unfold t. rewrite emb_div, Ed by (rewrite Ed; intros X; injection X; lra). destruct Hn as [-> | [-> | (z & -> & Hz)] ].
      - left. apply rn_nan.
      - right; left. cbn [xdiv]. unfold Rsgn. rewrite Rlt_bool_false by lra. apply rn_inf.
      - rewrite xdiv_fin by lra. assert (0 <= z / d) by (apply Rmult_le_pos; [lra|left; now apply Rinv_0_lt_compat]).
        pose proof (rn_le (FLaws := B32_FLaws L) (XFin 0) (XFin (z / d)) ltac:(cbn; rb; lra)) as G. rewrite rn_0 in G.
        destruct (rnb (XFin (z / d))) as [|[]|y]; cbn in G; try discriminate; auto. rb. eauto. }
    destruct (feq (mf_x a) (mf_y a)).
    - eexists _, _. split; [|reflexivity]. apply Q. apply unit_times; auto. apply pos_sq.
    - eexists _, _. split; [|reflexivity]. apply Q. apply unit_times; auto.
      apply pos_div; [apply (pos_Z 1); lia|]. apply pos_add; apply pos_div; apply pos_sq.
  Qed.

  Lemma flip_val v V : val v V -> val (v3scale v (fneg f1)) (vscale (-1) V).
  Proof.
    assert (Em : emb (fneg f1 : b32) = XFin (-1)) by (rewrite emb_neg, emb_f1; reflexivity).
    intros (A & B & D). repeat split; cbn [v3scale vscale vx vy vz]; rewrite (emb_times_m1 L) by exact Em; [rewrite A|rewrite B|rewrite D]; cbn [xneg]; f_equal; ring.
  Qed.

  Lemma wh_val (a : microfacet b32) wo u : fair_libm L -> in_unit (px u) ->
    has_nan (mf_sample_wh a wo u) \/ exists H, val (mf_sample_wh a wo u) H /\ vdot H H <= 10015 / 10000.
  Proof.
    intros HL Hu. destruct (wh_tan a wo u Hu) as (t & phi & Ht & ->). cbv zeta.
    set (c := fdiv f1 (fsqrt (fadd f1 t))). set (s := fsqrt (fmax (fsub f1 (fmul c c)) f0)).
    set (wh := from_spherical_direction s c phi).
    assert (G : has_nan wh \/ exists H, val wh H /\ vdot H H <= 10015 / 10000).
    { unfold wh, from_spherical_direction.
      destruct (cos_val t Ht) as [N|(cv & Ec & Hc)]; [left; right; right; exact N|]. fold c in Ec.
      destruct (sin_val c cv Ec Hc) as (sv & Es & Hs & H1). fold s in Es.
      destruct (trig_val phi HL) as [(N & _)|(sp & cp & Esp & Ecp & Bs & Bc & H2)]; [left; right; left; cbn [vy]; now apply nan_mul_r|].
      right. pose proof eta_pos as Et. assert (B2 : 1 <= pw 127) by (change 1 with (pw 0); apply bpow_le; lia).
      assert (M : forall q, -1 <= q <= 1 -> Rabs (sv * q) <= 1). { intros q Hq. apply Rabs_le. split; nra. }
      pose proof (M _ Bs) as M1. pose proof (M _ Bc) as M2.
      destruct (mul_any L s (fcos phi) sv cp Es Ecp ltac:(lra)) as (x & Ex & Dx). destruct (mul_any L s (fsin phi) sv sp Es Esp ltac:(lra)) as (y & Ey & Dy).
      exists (mkV3 x y cv). split; [repeat split; assumption|]. unfold vdot. cbn [vx vy vz].
      assert (K : forall q r, Rabs r <= 1 -> Rabs (q - r) <= uu * Rabs r + eta -> q * q <= r * r + / 100000).
      { intros q r Hr D. unfold uu in D. assert (D' : Rabs (q - r) <= / 1000000) by lra. apply Rabs_le_inv in D', Hr. nra. }
      pose proof (K _ _ M2 Dx). pose proof (K _ _ M1 Dy). assert (0 <= sv * sv <= 1) by (split; nra).
      assert (sv * cp * (sv * cp) + sv * sp * (sv * sp) <= sv * sv * (10011 / 10000)) by (replace (sv * cp * (sv * cp) + sv * sp * (sv * sp)) with (sv * sv * (sp * sp + cp * cp)) by ring; apply Rmult_le_compat_l; lra).
      lra. }
    destruct (same_hemisphere wo wh); [exact G|]. destruct G as [N|(H & V & B)].
    - left. destruct N as [N|[N|N]]; [left|right; left|right; right]; cbn [v3scale vx vy vz]; now apply nan_mul_l.
    - right. exists (vscale (-1) H). split; [now apply flip_val|].
      replace (vdot (vscale (-1) H) (vscale (-1) H)) with (vdot H H); [exact B|]. unfold vdot, vscale. cbn [vx vy vz]. ring.
  Qed.
End Wh.
