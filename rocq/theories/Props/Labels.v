(** * C110: surface components are labelled for what they do *)
From Coq Require Import ZArith Reals List Bool Lia Lra.
From Flocq Require Import Core.
From Verif Require Import Model.Num Model.NumX Model.Vector Model.Common Model.Interaction Model.Sampling Model.Reflection Model.Fresnel Model.Microfacet Model.BxDFs Model.Texture Model.Material.
From Verif Require Import Spec.RVec Spec.ShapeSpec Spec.ShadeSpec Spec.LabelSpec Proofs.XBase Proofs.RVecProofs Proofs.ShadeProofs Proofs.MicroProofs Props.Shading1 Props.Shading2.
Import ListNotations.
Local Open Scope R_scope.

Lemma fin3_same a b : fin3 a = fin3 b -> a = b.
Proof. unfold fin3. intros [= H1 H2 H3]. now apply V3_eq. Qed.
Lemma xeq_0 p : xeq p (XFin 0) = false <-> p <> XFin 0.
Proof.
  destruct p as [|[]|x]; cbn; split; intros; try discriminate; auto.
  - intros [= ->]. rewrite Req_bool_true in H; auto; discriminate.
  - apply Req_bool_false. congruence.
Qed.
Lemma xeq_0t p : xeq p (XFin 0) = true -> p = XFin 0.
Proof. destruct p as [|[]|x]; cbn; try discriminate. intros H. rb. now subst. Qed.

Lemma truthful_matt r : truthful (lambertian r).
Proof.
  split; [reflexivity|]. split; [discriminate|]. split.
  - intros _ wo u wi f p E _. cbn [lambertian bx_sample_f bx_f] in *. unfold lamb_sample in E. injection E as <- <- _. reflexivity.
  - intros wo w u f p _ _ E Hp. cbn [lambertian bx_sample_f bx_flag] in *. unfold lamb_sample in E.
    set (wi := if (vz (fin3 wo) <? f0)%f then _ else _) in E. clearbody wi. injection E as E1 _ E2. rewrite E1 in E2. unfold lamb_pdf in E2.
    rewrite same_hemisphere_fin in E2. split; [intros _|reflexivity].
    destruct (Rlt_bool 0 (vz wo * vz w)) eqn:B; rb; auto. exfalso. apply Hp. now rewrite <- E2, x_f0.
Qed.
Lemma truthful_mirror r fr : truthful (specular_reflection r fr).
Proof.
  split; [reflexivity|]. split; [intros _ wo wi; cbn; unfold v3zero; now rewrite x_f0|]. split; [discriminate|].
  intros wo w u f p _ Hz E _. cbn [specular_reflection bx_sample_f bx_flag] in *. unfold sr_sample in E. injection E as _ _ E _ _.
  cbn in E. split; [intros _|reflexivity]. assert (vz wo = vz w) as <- by (cbn in E; congruence). nra.
Qed.
Lemma truthful_clear t ea eb : 0 < ea -> 0 < eb -> truthful (specular_transmission t (XFin ea) (XFin eb)).
Proof.
  intros Ha Hb. split; [reflexivity|]. split; [intros _ wo wi; cbn; unfold v3zero; now rewrite x_f0|]. split; [discriminate|].
  intros wo w u f p Hw Hz E Hp. split; [discriminate|]. intros S. exfalso.
  pose proof (C55_transmission v0 wo ea eb u Hw Hz Ha Hb) as C. cbv zeta in C. destruct C as (wi & f' & p' & E' & C1 & C2).
  assert (wi = fin3 w /\ p' = p) as [-> ->].
  { cbn [specular_transmission bx_sample_f] in *. unfold st_sample in *. destruct (if cos_theta _ >? _ then _ else _)%f as [ei et].
    destruct (refract _ _ _) as [q|]; [injection E as -> _ <-; injection E' as <- _ <-; auto|].
    apply (f_equal snd) in E. cbn in E. exfalso. now apply Hp. }
  match type of C1 with ?a <= ?b -> _ => destruct (Rle_or_lt a b) as [L|L] end.
  - apply Hp, C1, L.
  - destruct (C2 L) as (_ & v & V & _ & Z & _). apply fin3_same in V. subst v. lra.
Qed.
Lemma truthful_rough r d fr : truthful (microfacet_reflection r d fr).
Proof.
  split; [reflexivity|]. split; [discriminate|]. split.
  - intros _ wo u wi f p E Hp. cbn [microfacet_reflection bx_sample_f bx_f] in *. unfold mr_sample, bx_none in E.
    destruct (_ =? _)%f; [apply (f_equal snd) in E; cbn in E; exfalso; now apply Hp|].
    destruct (negb _); [apply (f_equal snd) in E; cbn in E; exfalso; now apply Hp|]. injection E as <- <- _. reflexivity.
  - intros wo w u f p _ _ E Hp. cbn [microfacet_reflection bx_sample_f bx_flag] in *. unfold mr_sample, bx_none in E.
    destruct (_ =? _)%f; [apply (f_equal snd) in E; cbn in E; exfalso; now apply Hp|].
    set (wi := reflect _ _) in E. clearbody wi.
    destruct (negb _) eqn:S; [apply (f_equal snd) in E; cbn in E; exfalso; now apply Hp|]. assert (Ew : wi = fin3 w) by congruence.
    rewrite Ew, same_hemisphere_fin in S. split; [intros _|reflexivity]. apply negb_false_iff in S. rb. auto.
Qed.
Lemma truthful_rough_clear t ea eb d : truthful (microfacet_transmission t ea eb d).
Proof.
  split; [reflexivity|]. split; [discriminate|]. split.
  - intros _ wo u wi f p E Hp. cbn [microfacet_transmission bx_sample_f bx_f] in *. unfold mt_sample, bx_none in E.
    destruct (_ =? _)%f; [apply (f_equal snd) in E; cbn in E; exfalso; now apply Hp|].
    destruct (refract _ _ _) as [q|]; [injection E as <- <- _; reflexivity|apply (f_equal snd) in E; cbn in E; exfalso; now apply Hp].
  - intros wo w u f p _ _ E Hp. split; [discriminate|]. intros S. exfalso.
    cbn [microfacet_transmission bx_sample_f] in E. unfold mt_sample, bx_none in E.
    destruct (_ =? _)%f; [apply (f_equal snd) in E; cbn in E; exfalso; now apply Hp|].
    destruct (refract _ _ _) as [q|]; [|apply (f_equal snd) in E; cbn in E; exfalso; now apply Hp].
    injection E as -> _ E. unfold mt_pdf in E. rewrite same_hemisphere_fin, Rlt_bool_true in E by auto. apply Hp. now rewrite <- E, x_f0.
Qed.

Lemma Ok_inj {A} (a b : A) : Ok a = Ok b -> a = b.
Proof. congruence. Qed.
Lemma made_list {T} (i : interaction XR T) b : made_by i b -> exists l, b = bsdf_adds (bsdf_new i) l /\ Forall truthful l.
Proof.
  assert (H0 : exists l, bsdf_new i = bsdf_adds (bsdf_new i) l /\ Forall truthful l) by (exists []; split; [reflexivity|constructor]).
  assert (H1 : forall x, truthful x -> exists l, bsdf_add (bsdf_new i) x = bsdf_adds (bsdf_new i) l /\ Forall truthful l)
    by (intros x Hx; exists [x]; split; [reflexivity|auto]).
  assert (H2 : forall x y, truthful x -> truthful y -> exists l, bsdf_add (bsdf_add (bsdf_new i) x) y = bsdf_adds (bsdf_new i) l /\ Forall truthful l)
    by (intros x y Hx Hy; exists [x; y]; split; [reflexivity|auto]).
  destruct 1 as [kd b E|kr b E|kd ks ro b E|r eta k ru rv b E|kr kt eta ru rv e b Ee He E].
  - unfold mat_lambertian in E. destruct (tex_clamped _ _) as [r| |]; try discriminate. cbn [rbind] in E. apply Ok_inj in E; subst b.
    destruct (negb _); auto using truthful_matt.
  - unfold mat_mirror in E. destruct (tex_clamped _ _) as [r| |]; try discriminate. cbn [rbind] in E. apply Ok_inj in E; subst b.
    destruct (negb _); auto using truthful_mirror.
  - unfold mat_plastic in E. destruct (tex_clamped kd _) as [d| |]; try discriminate. cbn [rbind] in E.
    destruct (tex_clamped ks _) as [s| |]; try discriminate. cbn [rbind] in E.
    destruct (negb (is_black s)).
    + destruct (ro i) as [rough| |]; try discriminate. cbn [rbind] in E. apply Ok_inj in E. subst b.
      destruct (negb _), (rough =? f0)%f; auto using truthful_matt, truthful_mirror, truthful_rough.
    + apply Ok_inj in E; subst b. destruct (negb _); auto using truthful_matt.
  - unfold mat_metal in E. destruct (tex_clamped _ _) as [r'| |]; try discriminate. cbn [rbind] in E.
    destruct (eta i) as [e| |]; try discriminate. cbn [rbind] in E. destruct (k i) as [k'| |]; try discriminate. cbn [rbind] in E.
    destruct (ru i) as [u| |]; try discriminate. cbn [rbind] in E. destruct (rv i) as [v| |]; try discriminate. cbn [rbind] in E.
    apply Ok_inj in E; subst b. destruct (_ && _); auto using truthful_mirror, truthful_rough.
  - unfold mat_glass in E. rewrite Ee in E. cbn [rbind] in E. destruct (tex_clamped kr _) as [r| |]; try discriminate. cbn [rbind] in E.
    destruct (tex_clamped kt _) as [t| |]; try discriminate. cbn [rbind] in E.
    destruct (ru i) as [u| |]; try discriminate. cbn [rbind] in E. destruct (rv i) as [v| |]; try discriminate. cbn [rbind] in E.
    assert (C : truthful (specular_transmission t f1 (XFin e))) by (rewrite x_f1; apply truthful_clear; lra).
    destruct (_ && _); apply Ok_inj in E; subst b; destruct (negb (is_black r)), (negb (is_black t)); auto using truthful_mirror, truthful_rough, truthful_rough_clear.
Qed.

(** Every component of every surface that a material of the library makes is labelled truthfully. *)
Theorem C110_components : forall (T : Type) (i : interaction XR T) b x, made_by i b -> In x (bs_bxdfs b) -> truthful x.
Proof.
  intros T i b x M Hx. destruct (made_list i b M) as (l & -> & F).
  destruct (bsdf_adds_fields l (bsdf_new i)) as (_ & _ & _ & _ & E). rewrite E in Hx. cbn [bsdf_new bs_bxdfs app] in Hx.
  rewrite Forall_forall in F. auto.
Qed.

Lemma xadd_fin_inv a b r : xadd a b = XFin r -> (exists x, a = XFin x) /\ exists y, b = XFin y.
Proof. destruct a as [|[]|x], b as [|[]|y]; cbn; try discriminate. eauto. Qed.
Lemma xmul_fin_inv a b r : xmul (XFin a) b = XFin r -> exists y, b = XFin y.
Proof. destruct b as [|s|y]; cbn; try discriminate; [destruct (Req_bool a 0); discriminate|eauto]. Qed.

(** The label that comes with a sampled direction tells on which side of the shading surface it is: on that of
    the viewer just if the label says reflection. *)
Theorem C110_sampled : forall (T : Type) (i : interaction XR T) b (n du wo w : rv) u f p flag,
  made_by i b -> i_sn i = fin3 n -> i_dpdu i = fin3 du -> vnorm n = 1 -> vdot n du = 0 -> du <> v0 ->
  unit_dir wo -> bsdf_sample_f b (fin3 wo) u = Ok (fin3 w, f, p, flag) -> p <> XFin 0 ->
  says_reflection flag = negb (says_transmission flag) /\ (says_reflection flag = true <-> 0 < vdot wo n * vdot w n).
Proof.
  intros T i b n du wo w u f p flag M Hn Hdu Un Ort Hd Uw E Hp.
  pose proof (C110_components T i b) as Tr. destruct (made_list i b M) as (l & Eb & _).
  destruct (C50_isometry T i n du l Hn Hdu Un Ort Hd) as (W & L & HW & HL & LW & WL & DW & DL & Wn & _). rewrite <- Eb in HW, HL.
  assert (Vz : forall v, vz (W v) = vdot v n).
  { intros v. rewrite <- (DW v n), Wn. unfold vdot. cbn. ring. }
  unfold bsdf_sample_f in E. destruct (_ =? 0)%Z; [exfalso; apply Hp; unfold no_sample in E; now injection E|].
  destruct (idx _ _) as [x| |] eqn:Ex; try discriminate. cbn [rbind] in E. rewrite HW in E.
  destruct (_ =? _)%f eqn:Z; [exfalso; apply Hp; unfold no_sample in E; now injection E|].
  destruct (bx_sample_f x _ _) as [[wi f'] p'] eqn:Es. destruct (p' =? f0)%f eqn:P; [exfalso; apply Hp; unfold no_sample in E; now injection E|].
  assert (Ew : local_to_world b wi = fin3 w /\ flag = bx_flag x).
  { destruct (_ && _); apply Ok_inj in E; split; congruence. }
  destruct Ew as [Ew ->].
  assert (Fw : exists v, wi = fin3 v).
  { assert (Fr : frame_is b (vunit du) (vcross n (vunit du)) n).
    { rewrite Eb. destruct (bsdf_adds_fields l (bsdf_new i)) as (H1 & H2 & H3 & _). destruct (bsdf_new_frame i n du Hn Hdu Hd) as (G1 & G2 & G3).
      unfold frame_is. rewrite H1, H2, H3. auto. }
    destruct Fr as (F1 & F2 & F3). unfold local_to_world in Ew. rewrite F1, F2, F3 in Ew. apply (f_equal vx) in Ew.
    cbn [fin3 vx vy vz] in Ew. change (xadd (xadd (xmul (XFin (vx (vunit du))) (vx wi)) (xmul (XFin (vx (vcross n (vunit du)))) (vy wi))) (xmul (XFin (vx n)) (vz wi)) = XFin (vx w)) in Ew.
    apply xadd_fin_inv in Ew as ((a & Ea) & c & Ec). apply xadd_fin_inv in Ea as ((a' & Ea) & b' & Eb').
    apply xmul_fin_inv in Ea as (x1 & Ea), Eb' as (x2 & Eb'), Ec as (x3 & Ec). exists (mkV3 x1 x2 x3).
    unfold fin3. cbn [vx vy vz]. rewrite <- Ea, <- Eb', <- Ec. now destruct wi. }
  destruct Fw as [v ->]. rewrite HL in Ew. apply fin3_same in Ew.
  assert (Hx : In x (bs_bxdfs b)) by (unfold idx in Ex; destruct (_ <? _)%Z; [discriminate|]; destruct (nth_error _ _) eqn:En; [|discriminate]; apply Ok_inj in Ex; subst; eapply nth_error_In; eauto). destruct (Tr x M Hx) as (T1 & _ & _ & T4).
  split; [exact T1|]. assert (Hv : W w = v) by (rewrite <- Ew; apply WL). rewrite <- (Vz wo), <- (Vz w), Hv.
  eapply (T4 (W wo) v); [| |exact Es|].
  - unfold unit_dir in *. apply vnorm_1_dot. rewrite DW. now apply vnorm_1_dot.
  - intros H. unfold fin3 in Z. cbn [vz] in Z. rewrite H, x_f0 in Z. cbn in Z. rewrite Req_bool_true in Z; auto; discriminate.
  - rewrite x_f0 in P. apply xeq_0. exact P.
Qed.

(** a pane of clear glass met straight on: the sampled direction is labelled as specular transmission *)
Definition ex_white : texture XR unit (V3 XR) := constant_texture (fin3 (mkV3 1 1 1)).
Definition ex_pane : bsdf XR := bsdf_add (bsdf_new ex_i) (specular_transmission (fin3 (mkV3 1 1 1)) (XFin 1) (XFin (3/2))).
Lemma ex_pane_made : made_by ex_i ex_pane.
Proof.
  apply (made_glass ex_i (constant_texture v3zero) ex_white (constant_texture (XFin (3/2))) (constant_texture f0) (constant_texture f0) (3/2)); [reflexivity|lra|].
  assert (C : forall r, 0 <= r -> spectrum_clamp (fin3 (mkV3 r r r)) f0 finf = fin3 (mkV3 r r r)).
  { intros r Hr. unfold spectrum_clamp, fin3, v0. vproj. rewrite x_f0. apply V3_eq; vproj; (unfold clamp; xsimp; cbn [xlt negb]; rewrite Rlt_bool_false by lra; reflexivity). }
  unfold mat_glass, ex_white, constant_texture, tex_clamped. cbn [rbind]. change (v3zero (F := XR)) with (fin3 (mkV3 0 0 0)). rewrite !C by lra.
  assert (B : forall r, is_black (fin3 (mkV3 r r r)) = Req_bool r 0).
  { intros r. unfold is_black, fin3. vproj. rewrite x_f0. xsimp. cbn [xeq]. destruct (Req_bool r 0); reflexivity. }
  rewrite !B, (Req_bool_true 0 0), (Req_bool_false 1 0) by lra. cbn [negb].
  replace (f0 =? f0)%f with true by (rewrite x_f0; cbn; now rewrite Req_bool_true). cbn [andb]. rewrite x_f1. reflexivity.
Qed.
Example C110_example : made_by ex_i ex_pane /\
  exists w f, bsdf_sample_f ex_pane (fin3 (mkV3 (-1) 0 0)) (mkP2 (XFin (1/2)) (XFin (1/2))) = Ok (fin3 w, f, XFin 1, 18%Z) /\ vx w = 1.
Proof.
  split; [exact ex_pane_made|].
  assert (D0 : mkV3 0 (-1) 0 <> v0) by (intros E; apply (f_equal vy) in E; cbn in E; lra).
  assert (N1 : vnorm (mkV3 (-1) 0 0) = 1) by (apply vnorm_1_dot; unfold vdot; vproj; ring).
  destruct (C50_isometry unit ex_i (mkV3 (-1) 0 0) (mkV3 0 (-1) 0) [specular_transmission (fin3 (mkV3 1 1 1)) (XFin 1) (XFin (3/2))])
    as (W & L & HW & HL & LW & WL & DW & DL & Wn & _); try reflexivity; auto; [unfold vdot; vproj; ring|].
  change (bsdf_adds _ _) with ex_pane in HW, HL.
  assert (U1 : unit_dir (mkV3 0 0 1)) by (apply vnorm_1_dot; unfold vdot; vproj; ring).
  destruct (C55_transmission (mkV3 1 1 1) (mkV3 0 0 1) 1 (3/2) (mkP2 (bsdf_remap 1 (XFin (1/2))) (XFin (1/2))) U1) as (wi & f & p & E & _ & C); cbn [vx vy vz] in *; try lra.
  rewrite !Rlt_bool_true in C by lra. replace (0 * 0 + 0 * 0) with 0 in C by ring. rewrite sqrt_0 in C.
  destruct (C ltac:(lra)) as (-> & w & -> & Uw & Hw & Hx & Hy). exists (L w), f.
  assert (w = mkV3 0 0 (-1)).
  { apply vnorm_1_dot in Uw. unfold vdot in Uw. apply V3_eq; vproj; try lra. assert (vx w = 0) by lra. assert (vy w = 0) by lra. rewrite H, H0 in Uw. nra. }
  split.
  - unfold bsdf_sample_f. change (Z.of_nat (length (bs_bxdfs ex_pane))) with 1%Z. cbn [Z.eqb px py]. cbv iota zeta.
    assert (Pk : bsdf_pick 1 (XFin (1/2)) = 0%Z).
    { unfold bsdf_pick, fto_usize. xsimp. cbn [xmul xint xto_int]. rewrite (Zfloor_imp 0) by (cbn; lra). rewrite Ztrunc_IZR. reflexivity. }
    rewrite Pk.
    change (idx (bs_bxdfs ex_pane) 0) with (Ok (specular_transmission (fin3 (mkV3 1 1 1)) (XFin 1) (XFin (3/2)))). cbn [rbind].
    rewrite HW, Wn, E. rewrite HL. cbn [fin3 vz]. rewrite x_f0. cbn. rewrite Req_bool_false by lra. reflexivity.
  - pose proof (DL w (W (mkV3 (-1) 0 0))) as D. rewrite LW, Wn, H in D. unfold vdot in D. vproj. rewrite H. cbn [vx vy vz] in D. lra.
Qed.
