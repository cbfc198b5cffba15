(** * The BSDF: frame, component selection, sampling against evaluation (C50 - C52) *)
From Coq Require Import ZArith Reals Bool List Lra Lia.
From Flocq Require Import Core IEEE754.BinarySingleNaN.
From Verif Require Import Model.Num Model.NumX Model.NumB Model.Vector Model.Common Model.Interaction Model.Sampling
  Model.Reflection Model.Fresnel Model.Microfacet Model.BxDFs Spec.RVec Spec.ShadeSpec Spec.SamplerSpec
  Proofs.XBase Proofs.BBase Proofs.FLaws Proofs.RVecProofs Proofs.ShadeProofs Proofs.PickProofs Proofs.MicroProofs.
Import ListNotations.
Local Open Scope R_scope.

(** ** C50 *)

(** The two maps of any BSDF built at an interaction with unit shading normal perpendicular to a
    non-zero dpdu are mutually inverse isometries, carrying the normal to the z axis and dpdu to
    the x axis. *)
Theorem C50_isometry : forall (T : Type) (i : interaction XR T) (n du : rv) (l : list (bxdf XR)),
  i_sn i = fin3 n -> i_dpdu i = fin3 du -> vnorm n = 1 -> vdot n du = 0 -> du <> v0 ->
  exists W L : rv -> rv,
    (forall v, world_to_local (bsdf_adds (bsdf_new i) l) (fin3 v) = fin3 (W v)) /\
    (forall v, local_to_world (bsdf_adds (bsdf_new i) l) (fin3 v) = fin3 (L v)) /\
    (forall v, L (W v) = v) /\ (forall v, W (L v) = v) /\
    (forall a b, vdot (W a) (W b) = vdot a b) /\ (forall a b, vdot (L a) (L b) = vdot a b) /\
    W n = mkV3 0 0 1 /\ W du = mkV3 (vnorm du) 0 0 /\ W (vcross n du) = mkV3 0 (vnorm du) 0.
Proof.
  intros T i n du l En Ed Nn Hd D0.
  assert (Fr : frame_is (bsdf_adds (bsdf_new i) l) (vunit du) (vcross n (vunit du)) n).
  { destruct (bsdf_adds_fields l (bsdf_new i)) as (H1 & H2 & H3 & _). destruct (bsdf_new_frame i n du En Ed D0) as (G1 & G2 & G3).
    unfold frame_is. rewrite H1, H2, H3. auto. }
  set (s := vunit du) in *.
  assert (Hs : vdot s s = 1) by (apply vunit_dot; auto).
  assert (Hn : vdot n n = 1) by (apply vnorm_1_dot; auto).
  assert (Hsn : vdot s n = 0) by (unfold s, vunit; rewrite vdot_scale_l, vdot_comm, Hd; ring).
  exists (rW s (vcross n s) n), (rL s (vcross n s) n).
  split; [intros v; now apply world_to_local_fin|]. split; [intros v; now apply local_to_world_fin|].
  split; [intros v; now apply rL_rW|]. split; [intros v; now apply rW_rL|].
  split; [intros a b; now apply rW_dot|]. split; [intros a b; now apply rL_dot|].
  pose proof (vnorm_pos du D0) as Pd.
  assert (Eu : du = vscale (vnorm du) s) by (unfold s, vunit; apply V3_eq; unfold vscale; vproj; field; lra).
  destruct (frame_orthonormal s n Hs Hn Hsn) as ((_ & Ht & _ & Est & _ & Etn) & _ & _).
  unfold rW. split; [|split].
  - rewrite Hn, (vdot_comm n s), Hsn, (vdot_comm n), Etn. reflexivity.
  - rewrite Eu at 1 2 3. rewrite !vdot_scale_l, Hs, Est, Hsn. apply V3_eq; vproj; ring.
  - rewrite Eu at 1 2 3. rewrite vcross_scale_r, !vdot_scale_l, Ht, Etn, (vdot_comm _ s), Est. apply V3_eq; vproj; ring.
Qed.
Print Assumptions C50_isometry.

(** the frame of the repository's own unit test: normal (-1,0,0), dpdu (0,-1,0) *)
Definition ex_i : interaction XR unit :=
  mkI (fin3 v0) (fin3 v0) (mkP2 (XFin 0) (XFin 0)) (fin3 (mkV3 (-1) 0 0)) (fin3 (mkV3 (-1) 0 0))
    (fin3 (mkV3 0 (-1) 0)) (fin3 v0) (fin3 v0) None.

Example C50_example : local_to_world (bsdf_new ex_i) (fin3 (mkV3 1 2 3)) = fin3 (mkV3 (-3) (-1) 2).
Proof.
  assert (D0 : mkV3 0 (-1) 0 <> v0) by (intros E; apply (f_equal vy) in E; cbn in E; lra).
  assert (Eu : vunit (mkV3 0 (-1) 0) = mkV3 0 (-1) 0).
  { unfold vunit. replace (vnorm (mkV3 0 (-1) 0)) with 1.
    - apply V3_eq; unfold vscale; vproj; field.
    - symmetry. apply vnorm_1_dot. unfold vdot; vproj; ring. }
  rewrite (local_to_world_fin _ _ _ _ _ (bsdf_new_frame ex_i _ _ eq_refl eq_refl D0)), Eu.
  apply f_equal. apply V3_eq; unfold rL, vadd, vscale, vcross; vproj; ring.
Qed.

(** ** C51 *)

(** Exact arithmetic: component k is picked exactly when u lies in [k/n, (k+1)/n), and the sample is
    stretched over that interval. *)
Theorem C51_exact : forall (n : Z) (u : R), (1 <= n < 2 ^ 64)%Z -> 0 <= u < 1 ->
  exists k, bsdf_pick n (XFin u) = k /\ (0 <= k < n)%Z /\ IZR k / IZR n <= u < (IZR k + 1) / IZR n /\
    bsdf_remap n (XFin u) = XFin (IZR n * (u - IZR k / IZR n)) /\ 0 <= IZR n * (u - IZR k / IZR n) < 1.
Proof.
  intros n u Hn Hu. assert (N : 1 <= IZR n) by (apply IZR_le; lia).
  assert (B : (0 <= Zfloor (u * IZR n) < n)%Z).
  { split; [apply Zfloor_lub; simpl; nra|]. apply lt_IZR. eapply Rle_lt_trans; [apply Zfloor_lb|nra]. }
  assert (E : bsdf_pick n (XFin u) = Zfloor (u * IZR n)).
  { unfold bsdf_pick, fto_usize. xsimp. cbn [xmul xint xto_int]. rewrite Ztrunc_IZR. change usize_max with (2 ^ 64 - 1)%Z. lia. }
  exists (Zfloor (u * IZR n)). unfold bsdf_remap. rewrite E. split; [reflexivity|]. split; [exact B|].
  pose proof (Zfloor_lb (u * IZR n)) as L. pose proof (Zfloor_ub (u * IZR n)) as U. set (k := IZR (Zfloor (u * IZR n))) in *.
  assert (Q : IZR n * (u - k / IZR n) = u * IZR n - k) by (field; lra).
  split; [|split].
  - split; [apply Rmult_le_reg_r with (IZR n); [lra|]|apply Rmult_lt_reg_r with (IZR n); [lra|]]; unfold Rdiv; rewrite Rmult_assoc, Rinv_l; lra.
  - rewrite Q. reflexivity.
  - rewrite Q. lra.
Qed.

(** Binary32: an existing component and a remapped sample in [0,1), although the product is rounded. *)
Theorem C51_binary32 : forall (L : Libm b32) (n : Z) (u : b32), (1 <= n < 2 ^ 24)%Z -> in_unit u ->
  (0 <= bsdf_pick n u < n)%Z /\ in_unit (bsdf_remap n u).
Proof.
  intros L n u Hn (Fu & L0 & L1).
  assert (Eu : exists U, B2X u = XFin U /\ fmt U /\ 0 <= U < 1).
  { unfold fis_finite in Fu. change (fis_nan u) with (is_nan u) in Fu. change (fis_inf u) with (Bis_inf u) in Fu.
    rewrite emb_le in L0. rewrite emb_lt in L1. rewrite emb_f0 in L0. rewrite emb_f1 in L1. cbn [emb B32_FLaws] in L0, L1.
    assert (Fi : is_finite u = true) by (destruct u; try discriminate; reflexivity).
    rewrite (B2X_fin u Fi) in *. cbn [xle xlt] in *. rb. exists (B2R u). split; [reflexivity|]. split; [apply generic_format_B2R|lra]. }
  destruct Eu as (U & EU & FU & HU). assert (N : 1 <= IZR n) by (apply IZR_le; lia).
  assert (En : B2X (fofZ n : b32) = XFin (IZR n)) by (apply (emb_ofZ_exact (FL := B32_FLaws L) n); lia).
  set (x := rnd32 (U * IZR n)).
  assert (X1 : x < IZR n) by (apply pick_below; auto).
  assert (X0 : 0 <= x). { unfold x. rewrite <- (rnd_0 (prec := 24) (emax := 128)). apply round_le; try typeclasses eauto. nra. }
  assert (Fx : fmt x) by (apply generic_format_round; typeclasses eauto).
  assert (Ex : B2X (fmul u (fofZ n)) = XFin x).
  { change (emb (FLaws := B32_FLaws L) (fmul u (fofZ n)) = XFin x). rewrite emb_mul.
    replace (emb (FLaws := B32_FLaws L) u) with (XFin U) by (symmetry; exact EU).
    replace (emb (FLaws := B32_FLaws L) (fofZ n)) with (XFin (IZR n)) by (symmetry; exact En).
    change (rndX (prec := 24) (emax := 128) (XFin (U * IZR n)) = XFin x). cbn [rndX]. fold x. rewrite Rlt_bool_true; [reflexivity|]. rewrite Rabs_pos_eq by auto.
    apply Rlt_trans with (IZR n); auto. change (bpow radix2 128) with (IZR (2 ^ 128)). apply IZR_lt. lia. }
  set (k := Zfloor x).
  assert (Hk : (0 <= k < n)%Z).
  { split; [apply Zfloor_lub; exact X0|]. apply lt_IZR. eapply Rle_lt_trans; [apply Zfloor_lb|exact X1]. }
  assert (Ek : bsdf_pick n u = k).
  { unfold bsdf_pick, fto_usize. rewrite emb_to_int, emb_floor. change (xto_int 0 usize_max (xint Zfloor (B2X (fmul u (fofZ n)))) = k).
    rewrite Ex. cbn [xint xto_int]. fold k. rewrite Ztrunc_IZR. change usize_max with (2 ^ 64 - 1)%Z. lia. }
  rewrite Ek. split; [exact Hk|].
  assert (Er : B2X (bsdf_remap n u) = XFin (x - IZR k)).
  { unfold bsdf_remap. rewrite Ek. change (emb (FLaws := B32_FLaws L) (fsub (fmul u (fofZ n)) (fofZ k)) = XFin (x - IZR k)). rewrite emb_sub.
    replace (emb (FLaws := B32_FLaws L) (fmul u (fofZ n))) with (XFin x) by (symmetry; exact Ex).
    rewrite (emb_ofZ_exact (FL := B32_FLaws L) k) by lia.
    change (rndX (prec := 24) (emax := 128) (XFin (x - IZR k)) = XFin (x - IZR k)). cbn [rndX]. rewrite round_generic; [|typeclasses eauto|now apply frac_format].
    rewrite Rlt_bool_true; [reflexivity|]. pose proof (Zfloor_lb x). pose proof (Zfloor_ub x). fold k in H, H0.
    rewrite Rabs_pos_eq by lra. apply Rlt_trans with 1; [lra|]. change 1 with (bpow radix2 0). now apply bpow_lt. }
  pose proof (Zfloor_lb x) as F1. pose proof (Zfloor_ub x) as F2. fold k in F1, F2.
  unfold in_unit, fis_finite. rewrite emb_nan, emb_inf, emb_le, emb_lt, emb_f0, emb_f1. cbn [emb B32_FLaws]. rewrite Er. cbn [xis_nan xis_inf negb andb xle xlt].
  split; [reflexivity|]. split; rb; lra.
Qed.
Print Assumptions C51_binary32.

(** So sampling a BSDF never indexes past its components. *)
Theorem C51_no_panic : forall (L : Libm b32) (b : bsdf b32) (wo : V3 b32) (u : P2 b32),
  (Z.of_nat (length (bs_bxdfs b)) < 2 ^ 24)%Z -> in_unit (px u) -> exists r, bsdf_sample_f b wo u = Ok r.
Proof.
  intros L b wo u Hn Hu. unfold bsdf_sample_f. set (n := Z.of_nat (length (bs_bxdfs b))) in *.
  destruct (n =? 0)%Z eqn:E0; [eauto|]. apply Z.eqb_neq in E0.
  destruct (C51_binary32 L n (px u) ltac:(lia) Hu) as [Hk _].
  unfold idx. replace (bsdf_pick n (px u) <? 0)%Z with false by lia.
  assert (Hlt : (Z.to_nat (bsdf_pick n (px u)) < length (bs_bxdfs b))%nat) by lia.
  apply nth_error_Some in Hlt. destruct (nth_error (bs_bxdfs b) (Z.to_nat (bsdf_pick n (px u)))) as [x|]; [|congruence].
  cbn [rbind]. destruct (feq _ f0); [eauto|].
  destruct (bx_sample_f x _ _) as [[wi f] p]. destruct (feq p f0); [eauto|]. destruct (_ && _); eauto.
Qed.

(** largest float below 1, three components: the product 3 - 3 * 2^-24 is rounded, the last component
    is picked *)
Definition below1 : b32 := f32_of_bits 1065353215.
Example C51_example (L : Libm b32) : in_unit below1 /\ bsdf_pick 3 below1 = 2%Z.
Proof. split; [repeat split|]; vm_compute; reflexivity. Qed.

(** ** C52 *)

(** A component samples what it evaluates: for unit outgoing directions and samples in the unit square
    a sampled direction is finite and the returned pdf is the pdf of that direction. *)
Definition agrees (x : bxdf XR) : Prop := forall (wo : rv) (a b : R) (wi f : V3 XR) (p : XR),
  vdot wo wo = 1 -> vz wo <> 0 -> 0 <= a < 1 -> 0 <= b < 1 ->
  bx_sample_f x (fin3 wo) (mkP2 (XFin a) (XFin b)) = (wi, f, p) -> feq p f0 = false ->
  exists w, wi = fin3 w /\ bx_pdf x (fin3 wo) wi = p.

Definition pdf_sum (l : list (bxdf XR)) (wo wi : V3 XR) : XR :=
  fold_right (fun x s => xadd (bx_pdf x wo wi) s) (XFin 0) l.

Lemma fold_pdf l wo wi : forall acc, fold_left (fun pdf x => fadd pdf (bx_pdf x wo wi)) l acc = xadd acc (pdf_sum l wo wi).
Proof.
  induction l as [|x l IH]; intros acc; cbn [fold_left pdf_sum fold_right]; [now rewrite xadd_0_r|].
  rewrite IH. xsimp. now rewrite xadd_assoc.
Qed.

Lemma other_pdfs_away l wo wi : forall i k acc, (k < i)%Z -> other_pdfs l i k wo wi acc = xadd acc (pdf_sum l wo wi).
Proof.
  induction l as [|x l IH]; intros i k acc H; cbn [other_pdfs pdf_sum fold_right]; [now rewrite xadd_0_r|].
  replace (i =? k)%Z with false by lia. rewrite IH by lia. xsimp. now rewrite xadd_assoc.
Qed.

Lemma other_pdfs_all l wo wi : forall i k x acc, (i <= k)%Z -> nth_error l (Z.to_nat (k - i)) = Some x ->
  other_pdfs l i k wo wi (xadd acc (bx_pdf x wo wi)) = xadd acc (pdf_sum l wo wi).
Proof.
  induction l as [|y l IH]; intros i k x acc H E; [now destruct (Z.to_nat (k - i))|].
  cbn [other_pdfs pdf_sum fold_right]. destruct (Z.eqb_spec i k) as [Ei|Ei].
  - subst k. rewrite Z.sub_diag in E. cbn in E. injection E as ->. rewrite other_pdfs_away by lia. now rewrite xadd_assoc.
  - replace (Z.to_nat (k - i)) with (S (Z.to_nat (k - (i + 1)))) in E by lia. cbn [nth_error] in E.
    xsimp. rewrite <- xadd_assoc, (xadd_comm (bx_pdf x wo wi)), xadd_assoc.
    rewrite (IH (i + 1)%Z k x) by (auto; lia). now rewrite xadd_assoc.
Qed.

Theorem C52_sampling_agrees : forall (T : Type) (i : interaction XR T) (n du wo : rv) (l : list (bxdf XR)) (a b : R)
  (wi f : V3 XR) (p : XR) (flag : Z),
  i_sn i = fin3 n -> i_dpdu i = fin3 du -> vnorm n = 1 -> vdot n du = 0 -> du <> v0 -> vnorm wo = 1 ->
  (2 <= length l)%nat -> (Z.of_nat (length l) < 2 ^ 64)%Z ->
  (forall x, In x l -> has_flag x SPECULAR = false -> agrees x) -> 0 <= a < 1 -> 0 <= b < 1 ->
  let B := bsdf_adds (bsdf_new i) l in
  bsdf_sample_f B (fin3 wo) (mkP2 (XFin a) (XFin b)) = Ok (wi, f, p, flag) ->
  flag <> 0%Z -> Z.land SPECULAR flag <> SPECULAR ->
  f = bsdf_f B (fin3 wo) wi /\ p = bsdf_pdf B (fin3 wo) wi.
Proof.
  intros T i n du wo l a b wi f p flag En Ed Nn Hd D0 Nw Hl Hl2 Hag Ha Hb B H Hfl Hsp.
  destruct (C50_isometry T i n du l En Ed Nn Hd D0) as (W & L & EW & EL & LW & WL & WD & LD & _). fold B in EW, EL.
  assert (Eb : bs_bxdfs B = l) by (destruct (bsdf_adds_fields l (bsdf_new i)) as (_ & _ & _ & _ & Q); exact Q).
  unfold bsdf_sample_f in H. rewrite Eb in H. set (N := Z.of_nat (length l)) in *.
  replace (N =? 0)%Z with false in H by (unfold N; lia).
  cbn [px py] in H.
  destruct (C51_exact N a ltac:(unfold N; lia) Ha) as (k & Ek & Hk & _ & Er & Hr). rewrite Ek, Er in H.
  set (a' := IZR N * (a - IZR k / IZR N)) in *. clearbody a'.
  unfold idx in H. replace (k <? 0)%Z with false in H by lia.
  destruct (nth_error l (Z.to_nat k)) as [x|] eqn:Ex; [|discriminate]. cbn [rbind] in H.
  rewrite EW in H.
  destruct (feq (vz (fin3 (W wo))) f0) eqn:Ez; [unfold no_sample in H; congruence|].
  destruct (bx_sample_f x (fin3 (W wo)) _) as [[wi0 f0'] p0] eqn:Es.
  destruct (feq p0 f0) eqn:Ep; [unfold no_sample in H; congruence|].
  replace (1 <? N)%Z with true in H by (unfold N; lia). rewrite andb_true_r in H.
  destruct (has_flag x SPECULAR) eqn:Hx.
  { exfalso. cbn [negb] in H. assert (bx_flag x = flag) by congruence. apply Hsp. unfold has_flag in Hx. apply Z.eqb_eq in Hx. congruence. }
  cbn [negb] in H.
  assert (Uw : vdot (W wo) (W wo) = 1) by (rewrite WD; apply vnorm_1_dot; auto).
  assert (Zw : vz (W wo) <> 0). { unfold fin3 in Ez. cbn [vz] in Ez. change (Req_bool (vz (W wo)) 0 = false) in Ez. rb. exact Ez. }
  destruct (Hag x (nth_error_In _ _ Ex) Hx (W wo) a' b wi0 f0' p0 Uw Zw Hr Hb Es Ep) as (w & -> & Epdf).
  rewrite EL in H. assert (Hw : wi = fin3 (L w)) by congruence.
  unfold bsdf_f, bsdf_pdf. rewrite Eb. fold N. replace (N =? 0)%Z with false by (unfold N; lia).
  rewrite Hw, !EW, WL, Ez. rewrite fold_pdf.
  replace f0 with (XFin 0) by reflexivity. rewrite xadd_0_l.
  assert (S : other_pdfs l 0 k (fin3 (W wo)) (fin3 w) p0 = pdf_sum l (fin3 (W wo)) (fin3 w)).
  { rewrite <- Epdf. rewrite <- (xadd_0_l (bx_pdf x _ _)). rewrite (other_pdfs_all l _ _ 0 k x); [apply xadd_0_l|lia|]. now rewrite Z.sub_0_r. }
  rewrite <- S. split; congruence.
Qed.

Lemma f0_eq : feq (f0 : XR) f0 = true.
Proof. change (Req_bool 0 0 = true). now apply Req_bool_true. Qed.

(** Every non-specular component of the library agrees. *)
Lemma lambertian_agrees r : agrees (lambertian r).
Proof.
  intros wo a b wi f p Hw Hz Ha Hb H _. cbn [lambertian bx_sample_f bx_pdf] in *. unfold lamb_sample in H.
  destruct (hemisphere_fin a b ltac:(lra) ltac:(lra)) as (w & E & _). rewrite E in H.
  destruct (flt (vz (fin3 wo)) f0).
  - exists (mkV3 (vx w) (vy w) (vz w * - (1))). injection H as <- _ <-. split; reflexivity.
  - exists w. injection H as <- _ <-. split; reflexivity.
Qed.

Lemma microfacet_reflection_agrees r ax ay fr : 0 < ax -> 0 < ay ->
  agrees (microfacet_reflection r (mkMf (XFin ax) (XFin ay)) fr).
Proof.
  intros Hx Hy wo a b wi f p Hw Hz Ha Hb H Hp. cbn [microfacet_reflection bx_sample_f bx_pdf] in *. unfold mr_sample in H.
  destruct (feq (vz (fin3 wo)) f0); [exfalso; unfold bx_none in H; replace p with (f0 : XR) in Hp by congruence; now rewrite f0_eq in Hp|].
  destruct (sample_wh_fin ax ay a b wo Hx Hy Ha Hz) as (t & phi & wh & _ & _ & E & U & S & _). rewrite E, reflect_fin in H.
  set (w := vadd (vscale (-1) wo) (vscale (2 * vdot wo wh) wh)) in *.
  rewrite same_hemisphere_fin in H. destruct (Rlt_bool 0 (vz wo * vz w)) eqn:Sh; cbn [negb] in H; [rb|exfalso; unfold bx_none in H; replace p with (f0 : XR) in Hp by congruence; now rewrite f0_eq in Hp].
  exists w. assert (Ew : wi = fin3 w) by congruence. split; [exact Ew|]. rewrite Ew. unfold mr_pdf. rewrite same_hemisphere_fin, Rlt_bool_true by auto. cbn [negb].
  set (d := vdot wo wh) in *.
  assert (D : 0 < d).
  { assert (vz wo * vz w = 2 * d * (vz wo * vz wh) - vz wo * vz wo) by (unfold w, vadd, vscale; vproj; ring).
    assert (0 < vz wo * vz wo) by nra. nra. }
  assert (Eh : vadd wo w = vscale (2 * d) wh) by (unfold w; vring).
  assert (Nz : vscale (2 * d) wh <> v0).
  { intros Z. assert (Q : 2 * d * (2 * d) * vdot wh wh = vdot (vscale (2 * d) wh) (vscale (2 * d) wh)) by (unfold vdot, vscale; vproj; ring).
    rewrite Z, U in Q. unfold vdot, v0 in Q. cbn [vx vy vz] in Q. nra. }
  rewrite v3add_fin, Eh, v3normalize_fin by auto.
  assert (Eu : vunit (vscale (2 * d) wh) = wh).
  { unfold vunit. rewrite vnorm_scale. assert (vnorm wh = 1) by (now apply vnorm_1_dot). rewrite H0, Rabs_pos_eq by lra.
    apply V3_eq; unfold vscale; vproj; field; lra. }
  rewrite Eu. congruence.
Qed.

Lemma refract_fin w n eta wt : refract (fin3 w) (fin3 n) (XFin eta) = Some wt -> exists v, wt = fin3 v.
Proof.
  unfold refract. rewrite v3dot_fin, x_f1, x_f0. xsimp. cbn [xmul xsub]. rewrite x_fmax. cbn [xmul xsub xle].
  set (q := eta * eta * _). destruct (Rle_bool 1 q) eqn:E; [discriminate|]. rb. rewrite xsqrt_fin by lra. cbn [xsub].
  rewrite v3neg_fin, !v3scale_fin, v3add_fin. intros H. injection H as <-. eauto.
Qed.

Lemma microfacet_transmission_agrees t ea eb ax ay : 0 < ea -> 0 < eb -> 0 < ax -> 0 < ay ->
  agrees (microfacet_transmission t (XFin ea) (XFin eb) (mkMf (XFin ax) (XFin ay))).
Proof.
  intros He1 He2 Hx Hy wo a b wi f p Hw Hz Ha Hb H Hp. cbn [microfacet_transmission bx_sample_f bx_pdf] in *. unfold mt_sample in H.
  destruct (feq (vz (fin3 wo)) f0); [exfalso; unfold bx_none in H; replace p with (f0 : XR) in Hp by congruence; now rewrite f0_eq in Hp|].
  destruct (sample_wh_fin ax ay a b wo Hx Hy Ha Hz) as (t' & phi & wh & _ & _ & E & _). rewrite E in H.
  destruct (refract _ _ _) as [v|] eqn:Er; [|exfalso; unfold bx_none in H; replace p with (f0 : XR) in Hp by congruence; now rewrite f0_eq in Hp].
  assert (Fv : exists q, v = fin3 q).
  { destruct (flt f0 (cos_theta (fin3 wo))); xsimpin Er; rewrite xdiv_fin in Er by lra; eapply refract_fin; exact Er. }
  destruct Fv as (q & ->). exists q. split; congruence.
Qed.

Theorem C52_library_agrees : forall (r : V3 XR) (fr : XR -> V3 XR) (ea eb ax ay : R), 0 < ea -> 0 < eb -> 0 < ax -> 0 < ay ->
  agrees (lambertian r) /\ agrees (microfacet_reflection r (mkMf (XFin ax) (XFin ay)) fr) /\
  agrees (microfacet_transmission r (XFin ea) (XFin eb) (mkMf (XFin ax) (XFin ay))).
Proof.
  intros. split; [apply lambertian_agrees|]. split; [now apply microfacet_reflection_agrees|now apply microfacet_transmission_agrees].
Qed.
Print Assumptions C52_sampling_agrees.
Print Assumptions C52_library_agrees.

(** a plastic-like BSDF: diffuse plus glossy; a straight-up direction and a sample that picks the
    diffuse component *)
Definition ex_i2 : interaction XR unit :=
  mkI (fin3 v0) (fin3 v0) (mkP2 (XFin 0) (XFin 0)) (fin3 (mkV3 0 0 1)) (fin3 (mkV3 0 0 1))
    (fin3 (mkV3 1 0 0)) (fin3 v0) (fin3 v0) None.
Definition ex_l : list (bxdf XR) :=
  [lambertian (fin3 (mkV3 1 1 1)); microfacet_reflection (fin3 (mkV3 1 1 1)) (mkMf (XFin 1) (XFin 1)) fresnel_noop].

Example C52_example : exists wi f p, bsdf_sample_f (bsdf_adds (bsdf_new ex_i2) ex_l) (fin3 (mkV3 0 0 1))
  (mkP2 (XFin (/ 4)) (XFin (/ 2))) = Ok (wi, f, p, Z.lor REFLECTION DIFFUSE).
Proof.
  assert (D0 : mkV3 1 0 0 <> v0) by (intros E; apply (f_equal vx) in E; cbn in E; lra).
  assert (N1 : vnorm (mkV3 0 0 1) = 1) by (apply vnorm_1_dot; unfold vdot; vproj; ring).
  destruct (C50_isometry unit ex_i2 (mkV3 0 0 1) (mkV3 1 0 0) ex_l eq_refl eq_refl N1) as (W & L & EW & EL & _ & _ & _ & _ & Wn & _).
  { unfold vdot; vproj; ring. } { exact D0. }
  unfold bsdf_sample_f. rewrite EW, Wn. change (bs_bxdfs (bsdf_adds (bsdf_new ex_i2) ex_l)) with ex_l. cbn [px py].
  change (Z.of_nat (length ex_l)) with 2%Z. cbn [Z.eqb Z.ltb Z.compare Pos.compare Pos.compare_cont].
  destruct (C51_exact 2 (/ 4) ltac:(lia) ltac:(lra)) as (k & Ek & Hk & Hb & Er & _). rewrite Er.
  assert (K0 : k = 0%Z). { destruct Hb as [Hb _]. destruct (Z.eq_dec k 1) as [K1|]; [rewrite K1 in Hb; simpl in Hb; lra|lia]. }
  rewrite Ek, K0. cbn [idx Z.ltb Z.compare Z.to_nat nth_error ex_l rbind].
  change (feq (vz (fin3 (mkV3 0 0 1))) f0) with (Req_bool 1 0). rewrite Req_bool_false by lra.
  cbn [lambertian bx_sample_f]. unfold lamb_sample.
  replace (IZR 2 * (/ 4 - 0 / IZR 2)) with (/ 2) by (simpl; lra).
  destruct (hemisphere_fin (/ 2) (/ 2) ltac:(lra) ltac:(lra)) as (w & -> & Uw & Z0 & Zw).
  change (flt (vz (fin3 (mkV3 0 0 1))) f0) with (Rlt_bool 1 0). rewrite Rlt_bool_false by lra.
  assert (Z1 : vz w = 1).
  { rewrite Zw. replace (2 * / 2 - 1) with 0 by lra. rewrite Rabs_R0. unfold Rmax. destruct (Rle_dec 0 0); rewrite Rsqr_0, Rminus_0_r; apply sqrt_1. }
  unfold lamb_pdf. rewrite same_hemisphere_fin. vproj. rewrite Rlt_bool_true by lra.
  unfold abs_cos_theta. unfold fin3 at 1. vproj. xsimp. cbn [xabs]. rewrite xdiv_fin by (pose proof PI_RGT_0; lra).
  rewrite Z1, Rabs_R1. change (xeq (XFin (1 / PI)) f0) with (Req_bool (1 / PI) 0). rewrite Req_bool_false.
  2:{ pose proof PI_RGT_0. intros Z. apply (f_equal (fun q => q * PI)) in Z. unfold Rdiv in Z. rewrite Rmult_assoc, Rinv_l in Z; lra. }
  cbn -[fdiv fmul fadd flt]. do 3 eexists. reflexivity.
Qed.
