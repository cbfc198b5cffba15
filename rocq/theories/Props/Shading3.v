(** * C80 - C83: sides of a surface, glass, plastic, what one bounce carries *)
From Coq Require Import ZArith Reals List Bool Lia Lra.
From Flocq Require Import Core.
From Verif Require Import Model.Num Model.NumX Model.Vector Model.Common Model.Interaction Model.Sampling
  Model.Reflection Model.Fresnel Model.Microfacet Model.BxDFs Model.Texture Model.Material Spec.RVec Spec.ShadeSpec
  Proofs.XBase Proofs.RVecProofs Proofs.ShadeProofs Proofs.MicroProofs Props.Shading1 Props.Shading2 Props.FresnelProps.
Import ListNotations.
Local Open Scope R_scope.

(** ** C80 *)
Definition vsum (l : list rv) : rv := fold_right vadd v0 l.
(** coordinates with respect to a normal and a tangent *)
Definition coords (n du v : rv) : rv := mkV3 (vdot v (vunit du)) (vdot v (vcross n (vunit du))) (vdot v n).

Lemma land_bit k z : (0 <= k)%Z -> (Z.land (2 ^ k) z =? 2 ^ k)%Z = Z.testbit z k.
Proof.
  intros K. assert (E : Z.land (2 ^ k) z = if Z.testbit z k then (2 ^ k)%Z else 0%Z).
  { apply Z.bits_inj'. intros m Hm. rewrite Z.land_spec, Z.pow2_bits_eqb by exact K.
    destruct (Z.testbit z k) eqn:B; [rewrite Z.pow2_bits_eqb by exact K|rewrite Z.bits_0]; destruct (Z.eqb_spec k m) as [<-|]; auto. }
  rewrite E. assert (0 < 2 ^ k)%Z by (apply Z.pow_pos_nonneg; lia). destruct (Z.testbit z k); lia.
Qed.

Lemma bsdf_sum_fin (val : bxdf XR -> rv) (wo wi : V3 XR) (k : Z) (same : bool) : forall l,
  (forall x, In x l -> bx_f x wo wi = fin3 (val x)) -> k = (if same then 0 else 1)%Z ->
  forall acc, fold_left (fun f x => if (same && has_flag x REFLECTION) || (negb same && has_flag x TRANSMISSION) then v3add f (bx_f x wo wi) else f) l (fin3 acc) =
    fin3 (vadd acc (vsum (map val (filter (fun x => Z.testbit (bx_flag x) k) l)))).
Proof.
  induction l as [|x l IH]; intros H K acc; [cbn; f_equal; vring|]. cbn [fold_left filter].
  assert (Ef : (same && has_flag x REFLECTION || negb same && has_flag x TRANSMISSION) = Z.testbit (bx_flag x) k).
  { unfold has_flag, REFLECTION, TRANSMISSION. pose proof (land_bit 0 (bx_flag x) ltac:(lia)) as L0. pose proof (land_bit 1 (bx_flag x) ltac:(lia)) as L1.
    change (2 ^ 0)%Z with 1%Z in L0. change (2 ^ 1)%Z with 2%Z in L1. rewrite L0, L1, K. destruct same; cbn [negb andb orb]; [apply orb_false_r|reflexivity]. }
  rewrite Ef. destruct (Z.testbit (bx_flag x) k).
  - rewrite (H x) by now left. rewrite v3add_fin, IH by (auto; intros; apply H; now right). cbn [map vsum fold_right]. f_equal. fold (vsum (map val (filter (fun x => Z.testbit (bx_flag x) k) l))). vring.
  - apply IH; auto. intros; apply H; now right.
Qed.

(** The value of a BSDF is the sum of its components that reflect (flag bit 0) when both directions are on
    the same side of the geometric surface, and of those that transmit (flag bit 1) when they are not;
    along the surface it is 0. *)
Theorem C80_sides : forall (T : Type) (i : interaction XR T) (n gn du wo wi : rv) (l : list (bxdf XR)) (val : bxdf XR -> rv),
  i_sn i = fin3 n -> i_n i = fin3 gn -> i_dpdu i = fin3 du -> du <> v0 ->
  (forall x, In x l -> bx_f x (fin3 (coords n du wo)) (fin3 (coords n du wi)) = fin3 (val x)) ->
  let B := bsdf_adds (bsdf_new i) l in
  (vdot wo n = 0 -> bsdf_f B (fin3 wo) (fin3 wi) = fin3 v0) /\
  (vdot wo n <> 0 -> 0 < vdot wi gn * vdot wo gn ->
     bsdf_f B (fin3 wo) (fin3 wi) = fin3 (vsum (map val (filter (fun x => Z.testbit (bx_flag x) 0) l)))) /\
  (vdot wo n <> 0 -> vdot wi gn * vdot wo gn <= 0 ->
     bsdf_f B (fin3 wo) (fin3 wi) = fin3 (vsum (map val (filter (fun x => Z.testbit (bx_flag x) 1) l)))).
Proof.
  intros T i n gn du wo wi l val En Eg Ed D0 Hv B.
  destruct (bsdf_adds_fields l (bsdf_new i)) as (F1 & F2 & F3 & F4 & F5). cbn [bsdf_new bs_bxdfs app] in F5.
  pose proof (bsdf_new_frame i n du En Ed D0) as Fr.
  assert (Fb : frame_is B (vunit du) (vcross n (vunit du)) n) by (destruct Fr as (A1 & A2 & A3); unfold frame_is, B; rewrite F1, F2, F3; auto).
  assert (Ew : forall v, world_to_local B (fin3 v) = fin3 (coords n du v)) by (intros v; rewrite (world_to_local_fin B _ _ _ v Fb); reflexivity).
  assert (Er : bsdf_reflect B (fin3 wo) (fin3 wi) = Rlt_bool 0 (vdot wi gn * vdot wo gn)).
  { unfold bsdf_reflect, B. rewrite F4. cbn [bsdf_new bs_gn]. rewrite Eg, !v3dot_fin, x_f0. reflexivity. }
  assert (E : bsdf_f B (fin3 wo) (fin3 wi) = if Req_bool (vdot wo n) 0 then fin3 v0 else
    fin3 (vadd v0 (vsum (map val (filter (fun x => Z.testbit (bx_flag x) (if Rlt_bool 0 (vdot wi gn * vdot wo gn) then 0 else 1)%Z) l))))).
  { unfold bsdf_f. rewrite !Ew, Er. change (feq (vz (fin3 (coords n du wo))) f0) with (Req_bool (vdot wo n) 0).
    destruct (Req_bool (vdot wo n) 0); [reflexivity|]. unfold bsdf_sum. unfold B. rewrite F5. change (@v3zero XR _) with (fin3 v0).
    apply bsdf_sum_fin; auto. }
  assert (Z : forall v, vadd v0 v = v) by (intros v; vring).
  rewrite E. split; [intros H; now rewrite Req_bool_true by exact H|].
  split; intros H1 H2; rewrite Req_bool_false by exact H1; [rewrite Rlt_bool_true by lra|rewrite Rlt_bool_false by lra]; now rewrite Z.
Qed.
Print Assumptions C80_sides.

(** A matte material: reflectance / pi for all pairs of directions on one side, nothing through. *)
Theorem C80_matte : forall (T : Type) (i : interaction XR T) (n gn du wo wi k : rv) kd b,
  i_sn i = fin3 n -> i_n i = fin3 gn -> i_dpdu i = fin3 du -> du <> v0 ->
  kd i = Ok (fin3 k) -> each (fun x => 0 <= x) k -> mat_lambertian kd i = Ok b -> vdot wo n <> 0 ->
  bsdf_f b (fin3 wo) (fin3 wi) = fin3 (if Rlt_bool 0 (vdot wi gn * vdot wo gn) then vscale (/ PI) k else v0).
Proof.
  intros T i n gn du wo wi k kd b En Eg Ed D0 Ek (K1 & K2 & K3) Eb Hw.
  assert (Ec : tex_clamped kd i = Ok (fin3 k)).
  { unfold tex_clamped. rewrite Ek. cbn [rbind]. f_equal. unfold spectrum_clamp, fin3. vproj. rewrite x_f0.
    apply V3_eq; vproj; (unfold clamp; xsimp; cbn [xlt negb]; rewrite Rlt_bool_false by lra; reflexivity). }
  unfold mat_lambertian in Eb. rewrite Ec in Eb. cbn [rbind] in Eb. pose proof PI_RGT_0 as PP.
  assert (Q : forall l, b = bsdf_adds (bsdf_new i) l -> (l = [lambertian (fin3 k)] \/ l = [] /\ k = v0) ->
    bsdf_f b (fin3 wo) (fin3 wi) = fin3 (if Rlt_bool 0 (vdot wi gn * vdot wo gn) then vscale (/ PI) k else v0)).
  { intros l -> Hl.
    destruct (C80_sides T i n gn du wo wi l (fun _ => vscale (/ PI) k) En Eg Ed D0) as (_ & S1 & S2).
    { intros x Hx. destruct Hl as [-> |[-> _]]; [|destruct Hx]. destruct Hx as [<-|[]]. cbn [lambertian bx_f]. unfold lamb_f. xsimp. apply v3divs_fin. lra. }
    destruct (Rlt_bool 0 _) eqn:L; rb; [rewrite (S1 Hw L)|rewrite (S2 Hw L)]; f_equal; destruct Hl as [-> |[-> ->]]; cbn; try reflexivity; vring. }
  destruct (is_black (fin3 k)) eqn:Bk; cbn [negb] in Eb.
  - apply (Q []); [unfold bsdf_adds; cbn; congruence|]. right. split; [reflexivity|].
    unfold is_black, fin3 in Bk. cbn [vx vy vz] in Bk. rewrite x_f0 in Bk. apply andb_prop in Bk as [Bk B3]. apply andb_prop in Bk as [B1 B2].
    change (Req_bool (vx k) 0 = true) in B1. change (Req_bool (vy k) 0 = true) in B2. change (Req_bool (vz k) 0 = true) in B3. rb. apply V3_eq; unfold v0; vproj; auto.
  - apply (Q [lambertian (fin3 k)]); [unfold bsdf_adds; cbn; congruence|]. now left.
Qed.
Print Assumptions C80_matte.

(** seen from above at an angle, lit from above and from below *)
Example C80_example : exists (i : interaction XR unit) b, i_sn i = fin3 (mkV3 0 0 1) /\ i_n i = fin3 (mkV3 0 0 1) /\ i_dpdu i = fin3 (mkV3 1 0 0) /\ mkV3 1 0 0 <> v0 /\
  mat_lambertian (constant_texture (fin3 (mkV3 1 1 0))) i = Ok b /\ vdot (mkV3 0 (3/5) (4/5)) (mkV3 0 0 1) <> 0 /\
  bsdf_f b (fin3 (mkV3 0 (3/5) (4/5))) (fin3 (mkV3 0 0 1)) = fin3 (mkV3 (/ PI) (/ PI) 0) /\
  bsdf_f b (fin3 (mkV3 0 (3/5) (4/5))) (fin3 (mkV3 0 0 (-1))) = fin3 v0.
Proof.
  assert (D0 : mkV3 1 0 0 <> v0) by (intros E; apply (f_equal vx) in E; cbn in E; lra).
  exists ex_i2. assert (Eb : exists b, mat_lambertian (constant_texture (fin3 (mkV3 1 1 0))) ex_i2 = Ok b) by (eexists; reflexivity).
  destruct Eb as (b & Eb). exists b. split; [reflexivity|]. split; [reflexivity|]. split; [reflexivity|]. split; [exact D0|]. split; [exact Eb|].
  assert (W : vdot (mkV3 0 (3 / 5) (4 / 5)) (mkV3 0 0 1) <> 0) by (unfold vdot; vproj; lra). split; [exact W|].
  pose proof (fun wi => C80_matte unit ex_i2 (mkV3 0 0 1) (mkV3 0 0 1) (mkV3 1 0 0) (mkV3 0 (3/5) (4/5)) wi (mkV3 1 1 0) (constant_texture (fin3 (mkV3 1 1 0))) b eq_refl eq_refl eq_refl D0 eq_refl) as H.
  split; rewrite H; auto; try (unfold each; vproj; lra); f_equal.
  - rewrite Rlt_bool_true by (unfold vdot; vproj; lra). apply V3_eq; unfold vscale; vproj; ring.
  - rewrite Rlt_bool_false by (unfold vdot; vproj; lra). reflexivity.
Qed.

(** ** C81 *)
Lemma st_value (t wo : rv) ea eb u w f p : vz w <> 0 ->
  bx_sample_f (specular_transmission (fin3 t) (XFin ea) (XFin eb)) (fin3 wo) u = (fin3 w, f, p) -> p = XFin 1 ->
  forall r ei et, ei = (if Rlt_bool 0 (vz wo) then ea else eb) -> et = (if Rlt_bool 0 (vz wo) then eb else ea) -> et <> 0 ->
  fr_dielectric (XFin (vz w)) (XFin ea) (XFin eb) = XFin r ->
  f = fin3 (vscale (ei * ei / (et * et) * ((1 - r) / Rabs (vz w))) t).
Proof.
  intros Hz E Hp r ei et Ei Et Ht Er. cbn [specular_transmission bx_sample_f] in E. unfold st_sample in E.
  change (flt f0 (cos_theta (fin3 wo))) with (Rlt_bool 0 (vz wo)) in E.
  assert (Q : (if Rlt_bool 0 (vz wo) then (XFin ea, XFin eb) else (XFin eb, XFin ea)) = (XFin ei, XFin et)) by (rewrite Ei, Et; now destruct (Rlt_bool _ _)).
  rewrite Q in E. destruct (refract _ _ _) as [v|].
  - assert (Ev : v = fin3 w) by congruence. subst v.
    assert (Ef : f = v3divs (v3scale (v3divs (v3mul (fin3 t) (v3sub (spectrum_of f1) (fresnel_dielectric (XFin ea) (XFin eb) (cos_theta (fin3 w))))) (abs_cos_theta (fin3 w)))
      (fmul (XFin ei) (XFin ei))) (fmul (XFin et) (XFin et))) by congruence.
    rewrite Ef. unfold fresnel_dielectric. change (cos_theta (fin3 w)) with (XFin (vz w)). rewrite Er.
    change (spectrum_of (XFin r)) with (fin3 (mkV3 r r r)). change (spectrum_of (@f1 XR _)) with (fin3 (mkV3 1 1 1)).
    change (abs_cos_theta (fin3 w)) with (XFin (Rabs (vz w))). rewrite v3sub_fin, v3mul_fin. xsimp. cbn [xmul].
    pose proof (Rabs_no_R0 _ Hz) as A. rewrite v3divs_fin by exact A. rewrite v3scale_fin, v3divs_fin by nra. f_equal.
    apply V3_eq; unfold vscale, vmul, vsub, vadd; vproj; field; auto.
  - unfold bx_none in E. rewrite x_f0 in E. assert (XFin 0 = p) by congruence. subst p. assert (0 = 1) by congruence. lra.
Qed.

(** Smooth glass between media of index [ea] and [eb].  With one and the same share R: the reflected beam
    carries R times the reflectance, and the refracted beam 1 - R times the transmittance once the
    narrowing of the beam (the square of the ratio of indices) is undone; under total reflection R = 1 and
    there is no refracted beam. *)
Theorem C81_glass : forall (r t wo : rv) (ea eb : R) (u v : P2 XR), unit_dir wo -> vz wo <> 0 -> 0 < ea -> 0 < eb ->
  let ei := if Rlt_bool 0 (vz wo) then ea else eb in let et := if Rlt_bool 0 (vz wo) then eb else ea in
  exists (q : R) (w f : rv) (wt ft : V3 XR) (p : R), 0 <= q <= 1 /\
    bx_sample_f (specular_reflection (fin3 r) (fresnel_dielectric (XFin ea) (XFin eb))) (fin3 wo) u = (fin3 w, fin3 f, XFin 1) /\
    bx_sample_f (specular_transmission (fin3 t) (XFin ea) (XFin eb)) (fin3 wo) v = (wt, ft, XFin p) /\
    vscale (Rabs (vz w)) f = vscale q r /\
    (et <= ei * sqrt (vx wo * vx wo + vy wo * vy wo) -> q = 1 /\ p = 0) /\
    (ei * sqrt (vx wo * vx wo + vy wo * vy wo) < et -> p = 1 /\
       exists wt' ft', wt = fin3 wt' /\ ft = fin3 ft' /\ vscale (et / ei * (et / ei) * Rabs (vz wt')) ft' = vscale (1 - q) t).
Proof.
  intros r t wo ea eb u v Hw Hz Ha Hb ei et.
  destruct (C56_range (vz wo) ea eb Ha Hb) as (q & Eq & Hq).
  assert (Pi : 0 < ei) by (unfold ei; destruct (Rlt_bool _ _); lra). assert (Pt : 0 < et) by (unfold et; destruct (Rlt_bool _ _); lra).
  destruct (C54_mirror r (mkV3 q q q) wo (fresnel_dielectric (XFin ea) (XFin eb)) u Hz) as (w & f & p & Es & Wz & _ & _ & _ & Hp & Wt & _).
  { unfold fresnel_dielectric. now rewrite Eq. }
  subst p. destruct (C55_transmission t wo ea eb v Hw Hz Ha Hb) as (wt & ft & p & Et & T1 & T2). fold ei et in T1, T2.
  assert (U : vdot wo wo = 1) by now apply vnorm_1_dot.
  assert (Rc : -1 <= vz wo <= 1) by (unfold vdot in U; nra).
  assert (Hh : 1 - vz wo * vz wo = vx wo * vx wo + vy wo * vy wo) by (unfold vdot in U; lra).
  assert (Wq : vscale (Rabs (vz w)) f = vscale q r) by (unfold Rdiv in Wt; rewrite Rinv_1, Rmult_1_r in Wt; rewrite Wt; apply V3_eq; unfold vscale, vmul; vproj; ring).
  destruct (Rle_or_lt et (ei * sqrt (vx wo * vx wo + vy wo * vy wo))) as [C|C].
  - exists q, w, f, wt, ft, 0. rewrite (T1 C) in Et. split; [exact Hq|]. split; [exact Es|]. split; [exact Et|]. split; [exact Wq|]. split; [|intros; lra].
    intros _. split; [|reflexivity]. pose proof (C56_total_reflection (vz wo) ea eb Ha Hb Rc) as F. rewrite Hh in F. specialize (F C). congruence.
  - destruct (T2 C) as (Hp & w2 & -> & Uw2 & Opp & Sx & Sy). subst p.
    exists q, w, f, (fin3 w2), ft, 1. split; [exact Hq|]. split; [exact Es|]. split; [exact Et|]. split; [exact Wq|]. split; [intros; lra|].
    intros _. split; [reflexivity|].
    assert (Z2 : vz w2 <> 0) by nra. assert (U2 : vdot w2 w2 = 1) by now apply vnorm_1_dot.
    assert (Er : fr_dielectric (XFin (vz w2)) (XFin ea) (XFin eb) = XFin q).
    { rewrite <- Eq. symmetry. apply C56_partner; auto; [unfold vdot in U2; nra|nra|].
      change (near_eta (vz wo) ea eb) with ei. change (far_eta (vz wo) ea eb) with et.
      rewrite Hh. assert (Hh2 : 1 - vz w2 * vz w2 = vx w2 * vx w2 + vy w2 * vy w2) by (unfold vdot in U2; lra). rewrite Hh2.
      rewrite <- (sqrt_square ei) at 1 by lra. rewrite <- (sqrt_square et) at 1 by lra. rewrite <- !sqrt_mult_alt by nra. f_equal.
      replace (et * et * (vx w2 * vx w2 + vy w2 * vy w2)) with ((et * vx w2) * (et * vx w2) + (et * vy w2) * (et * vy w2)) by ring. rewrite Sx, Sy. ring. }
    rewrite (st_value t wo ea eb v w2 ft (XFin 1) Z2 Et eq_refl q ei et eq_refl eq_refl ltac:(lra) Er).
    exists w2. eexists. split; [reflexivity|]. split; [reflexivity|]. pose proof (Rabs_no_R0 _ Z2).
    apply V3_eq; unfold vscale; vproj; field; repeat split; lra || auto.
Qed.
Print Assumptions C81_glass.

(** entering glass at an angle with sine 3/5 *)
Example C81_example : unit_dir (mkV3 (3/5) 0 (4/5)) /\ vz (mkV3 (3/5) 0 (4/5)) <> 0 /\
  1 * sqrt (vx (mkV3 (3/5) 0 (4/5)) * vx (mkV3 (3/5) 0 (4/5)) + vy (mkV3 (3/5) 0 (4/5)) * vy (mkV3 (3/5) 0 (4/5))) < 3/2.
Proof.
  split; [apply vnorm_1_dot; unfold vdot; vproj; field|]. vproj. split; [lra|].
  replace (3 / 5 * (3 / 5) + 0 * 0) with (3 / 5 * (3 / 5)) by ring. rewrite sqrt_square by lra. lra.
Qed.

(** ** C82 *)
(** the share of light that a body of index 3/2 reflects in air, at an angle with cosine [c] (Fresnel) *)
Definition plastic_share (c : R) : R :=
  let ct := sqrt (1 - (1 - c * c) / (9 / 4)) in
  let a := (3 / 2 * c - ct) / (3 / 2 * c + ct) in let b := (c - 3 / 2 * ct) / (c + 3 / 2 * ct) in (a * a + b * b) / 2.
(** what the polished plastic material reflects in one mirror-like bounce, per unit of light *)
Definition plastic_coat (ks : rv) : bxdf XR := specular_reflection (fin3 ks) (fresnel_dielectric (flit 15 1) f1).

Lemma plastic_has_coat : forall (T : Type) (i : interaction XR T) (kd ks : texture XR T (V3 XR)) (ro : texture XR T XR) k,
  kd i = Ok (fin3 v0) -> ks i = Ok (fin3 k) -> ro i = Ok f0 -> each (fun x => 0 < x) k ->
  mat_plastic kd ks ro i = Ok (bsdf_add (bsdf_new i) (plastic_coat k)).
Proof.
  intros T i kd ks ro k E1 E2 E3 (K1 & K2 & K3). unfold mat_plastic, tex_clamped. rewrite E1, E2, E3. cbn [rbind].
  assert (C1 : spectrum_clamp (fin3 v0) f0 finf = fin3 v0).
  { unfold spectrum_clamp, fin3, v0. vproj. rewrite x_f0. apply V3_eq; vproj; (unfold clamp; xsimp; cbn [xlt negb]; rewrite Rlt_bool_false by lra; reflexivity). }
  assert (C2 : spectrum_clamp (fin3 k) f0 finf = fin3 k).
  { unfold spectrum_clamp, fin3. vproj. rewrite x_f0. apply V3_eq; vproj; (unfold clamp; xsimp; cbn [xlt negb]; rewrite Rlt_bool_false by lra; reflexivity). }
  rewrite C1, C2.
  assert (B1 : is_black (fin3 v0) = true). { unfold is_black, fin3, v0. vproj. rewrite x_f0. xsimp. cbn [xeq]. rewrite Req_bool_true by reflexivity. reflexivity. }
  assert (B2 : is_black (fin3 k) = false). { unfold is_black, fin3. vproj. rewrite x_f0. xsimp. cbn [xeq]. rewrite Req_bool_false by lra. reflexivity. }
  rewrite B1, B2. cbn [negb]. assert (Z : feq (@f0 XR _) f0 = true) by (rewrite x_f0; xsimp; cbn [xeq]; rewrite Req_bool_true; reflexivity). now rewrite Z.
Qed.

Lemma lit15 : flit 15 1 = XFin (3 / 2).
Proof. unfold flit. xsimp. rewrite xdiv_fin by (apply not_0_IZR; discriminate). apply (f_equal XFin). change (10 ^ Z.of_nat 1)%Z with 10%Z. lra. Qed.

(** Seen straight on, it is the share of a body of index 3/2.  Missing: all other directions, where it is not. *)
Theorem C82_straight_partial : forall (ks : rv) (u : P2 XR), exists w f, bx_sample_f (plastic_coat ks) (fin3 (mkV3 0 0 1)) u = (fin3 w, fin3 f, XFin 1) /\
  vscale (Rabs (vz w)) f = vscale (plastic_share 1) ks.
Proof.
  intros ks u. assert (Z : vz (mkV3 0 0 1) <> 0) by (vproj; lra).
  destruct (C54_mirror ks (mkV3 (/ 25) (/ 25) (/ 25)) (mkV3 0 0 1) (fresnel_dielectric (flit 15 1) f1) u Z) as (w & f & p & Es & _ & _ & _ & _ & Hp & Wt & _).
  { vproj. unfold fresnel_dielectric. rewrite lit15, x_f1, C56_normal_incidence by lra. unfold spectrum_of, fin3. vproj. f_equal; f_equal; field. }
  subst p. exists w, f. split; [exact Es|]. unfold Rdiv in Wt; rewrite Rinv_1, Rmult_1_r in Wt. rewrite Wt. unfold plastic_share.
  replace (1 - (1 - 1 * 1) / (9 / 4)) with 1 by field. rewrite sqrt_1. apply V3_eq; unfold vscale, vmul; vproj; field.
Qed.
Print Assumptions C82_straight_partial.

(** At angles with a sine of 2/3 and more the coat reflects everything, as the inside of the body would. *)
Theorem C82_everything : forall (ks wo : rv) (u : P2 XR), unit_dir wo -> 0 < vz wo -> 4 / 9 <= vx wo * vx wo + vy wo * vy wo ->
  exists w f, bx_sample_f (plastic_coat ks) (fin3 wo) u = (fin3 w, fin3 f, XFin 1) /\ vscale (Rabs (vz w)) f = ks.
Proof.
  intros ks wo u Hw Hz Hs. assert (U : vdot wo wo = 1) by now apply vnorm_1_dot.
  destruct (C54_mirror ks (mkV3 1 1 1) wo (fresnel_dielectric (flit 15 1) f1) u ltac:(lra)) as (w & f & p & Es & _ & _ & _ & _ & Hp & Wt & _).
  { unfold fresnel_dielectric. rewrite lit15, x_f1, C56_total_reflection; try lra; [reflexivity|unfold vdot in U; nra|].
    unfold far_eta, near_eta. rewrite Rlt_bool_true by lra. assert (2 / 3 <= sqrt (1 - vz wo * vz wo)); [|lra].
    rewrite <- (sqrt_square (2 / 3)) by lra. apply sqrt_le_1_alt. unfold vdot in U. nra. }
  subst p. exists w, f. split; [exact Es|]. unfold Rdiv in Wt; rewrite Rinv_1, Rmult_1_r in Wt. rewrite Wt. apply V3_eq; unfold vmul; vproj; ring.
Qed.
Print Assumptions C82_everything.

(** At an angle with cosine 3/5 a body of index 3/2 reflects less than a tenth; the material reflects all. *)
Theorem C82_refuted : exists (i : interaction XR unit) (kd ks : texture XR unit (V3 XR)) (ro : texture XR unit XR) (k wo : rv) b x,
  ks i = Ok (fin3 k) /\ ro i = Ok f0 /\ mat_plastic kd ks ro i = Ok b /\ bs_bxdfs b = [x] /\ unit_dir wo /\ vz wo = 3 / 5 /\
  plastic_share (3 / 5) < / 10 /\
  forall u, exists w f, bx_sample_f x (fin3 wo) u = (fin3 w, fin3 f, XFin 1) /\ vscale (Rabs (vz w)) f = k /\ 0 < vx k.
Proof.
  exists ex_i2, (constant_texture (fin3 v0)), (constant_texture (fin3 (mkV3 1 1 1))), (constant_texture f0), (mkV3 1 1 1), (mkV3 0 (4/5) (3/5)).
  exists (bsdf_add (bsdf_new ex_i2) (plastic_coat (mkV3 1 1 1))), (plastic_coat (mkV3 1 1 1)).
  split; [reflexivity|]. split; [reflexivity|]. split; [apply plastic_has_coat; auto; unfold each; vproj; lra|]. split; [reflexivity|].
  assert (Uw : unit_dir (mkV3 0 (4/5) (3/5))) by (apply vnorm_1_dot; unfold vdot; vproj; field). split; [exact Uw|]. split; [reflexivity|]. split.
  - unfold plastic_share. set (ct := sqrt _). assert (Q : ct * ct = 1 - (1 - 3 / 5 * (3 / 5)) / (9 / 4)) by (apply sqrt_sqrt; lra).
    assert (P : 0 <= ct) by apply sqrt_pos. assert (B : 84 / 100 < ct < 85 / 100) by nra. clearbody ct.
    assert (A1 : 0 <= (3 / 2 * (3 / 5) - ct) / (3 / 2 * (3 / 5) + ct) <= 4 / 100).
    { split; [apply Rmult_le_pos; [lra|left; apply Rinv_0_lt_compat; lra]|]. apply Rmult_le_reg_r with (3 / 2 * (3 / 5) + ct); [lra|]. unfold Rdiv at 1. rewrite Rmult_assoc, Rinv_l by lra. lra. }
    assert (A2 : - (37 / 100) <= (3 / 5 - 3 / 2 * ct) / (3 / 5 + 3 / 2 * ct) <= 0).
    { assert (I : 0 < / (3 / 5 + 3 / 2 * ct)) by (apply Rinv_0_lt_compat; lra).
      split; [|unfold Rdiv; nra]. apply Rmult_le_reg_r with (3 / 5 + 3 / 2 * ct); [lra|].
      replace ((3 / 5 - 3 / 2 * ct) / (3 / 5 + 3 / 2 * ct) * (3 / 5 + 3 / 2 * ct)) with (3 / 5 - 3 / 2 * ct) by (field; lra). lra. }
    set (a := (3 / 2 * (3 / 5) - ct) / _) in *. set (b := (3 / 5 - 3 / 2 * ct) / _) in *. clearbody a b. nra.
  - intros u. destruct (C82_everything (mkV3 1 1 1) (mkV3 0 (4/5) (3/5)) u Uw) as (w & f & E & W); [vproj; lra|vproj; lra|].
    exists w, f. split; [exact E|]. split; [exact W|vproj; lra].
Qed.
Print Assumptions C82_refuted.

Example C82_example : unit_dir (mkV3 0 (4/5) (3/5)) /\ 4 / 9 <= vx (mkV3 0 (4/5) (3/5)) * vx (mkV3 0 (4/5) (3/5)) + vy (mkV3 0 (4/5) (3/5)) * vy (mkV3 0 (4/5) (3/5)).
Proof. split; [apply vnorm_1_dot; unfold vdot; vproj; field|vproj; lra]. Qed.

(** ** C83 *)
Lemma tex_clamped_nn {T} (t : texture XR T (V3 XR)) i k : t i = Ok (fin3 k) -> each (fun x => 0 <= x) k -> tex_clamped t i = Ok (fin3 k).
Proof.
  intros E (K1 & K2 & K3). unfold tex_clamped. rewrite E. cbn [rbind]. f_equal. unfold spectrum_clamp, fin3. vproj. rewrite x_f0.
  apply V3_eq; vproj; (unfold clamp; xsimp; cbn [xlt negb]; rewrite Rlt_bool_false by lra; reflexivity).
Qed.
Lemma not_black k : k <> v0 -> is_black (fin3 k) = false.
Proof.
  intros H. destruct (is_black (fin3 k)) eqn:B; [|reflexivity]. exfalso. apply H.
  unfold is_black, fin3 in B. cbn [vx vy vz] in B. rewrite x_f0 in B. apply andb_prop in B as [B B3]. apply andb_prop in B as [B1 B2].
  change (Req_bool (vx k) 0 = true) in B1. change (Req_bool (vy k) 0 = true) in B2. change (Req_bool (vz k) 0 = true) in B3. rb. apply V3_eq; unfold v0; vproj; auto.
Qed.

Lemma single_sample {T} (i : interaction XR T) n du wo (x : bxdf XR) a b wi f p :
  i_sn i = fin3 n -> i_dpdu i = fin3 du -> du <> v0 -> vnorm n = 1 -> vdot n du = 0 -> vdot wo n <> 0 -> 0 <= a < 1 ->
  bx_sample_f x (fin3 (coords n du wo)) (mkP2 (XFin a) (XFin b)) = (fin3 wi, fin3 f, XFin p) ->
  exists w, bsdf_sample_f (bsdf_add (bsdf_new i) x) (fin3 wo) (mkP2 (XFin a) (XFin b)) =
      Ok (if Req_bool p 0 then no_sample else (fin3 w, fin3 f, XFin p, bx_flag x)) /\ vdot w n = vz wi /\
    w = vadd (vadd (vscale (vx wi) (vunit du)) (vscale (vy wi) (vcross n (vunit du)))) (vscale (vz wi) n).
Proof.
  intros En Ed D0 Nn Pd Hw Ha Es. set (B := bsdf_add (bsdf_new i) x).
  pose proof (bsdf_new_frame i n du En Ed D0) as Fr. assert (Fb : frame_is B (vunit du) (vcross n (vunit du)) n) by exact Fr.
  assert (Ew : world_to_local B (fin3 wo) = fin3 (coords n du wo)) by (rewrite (world_to_local_fin B _ _ _ wo Fb); reflexivity).
  exists (rL (vunit du) (vcross n (vunit du)) n wi). split; [|split; [|reflexivity]].
  - unfold bsdf_sample_f. change (bs_bxdfs B) with [x]. change (Z.of_nat (length [x])) with 1%Z. cbn [Z.eqb px py].
    destruct (C51_exact 1 a ltac:(lia) Ha) as (k & Ek & Hk & _ & Er & _). assert (K0 : k = 0%Z) by lia. rewrite K0 in Er. rewrite Er, Ek, K0.
    replace (IZR 1 * (a - 0 / IZR 1)) with a by (simpl; lra). cbn [idx Z.ltb Z.compare Z.to_nat nth_error rbind].
    rewrite Ew. change (feq (vz (fin3 (coords n du wo))) f0) with (Req_bool (vdot wo n) 0). rewrite Req_bool_false by exact Hw. rewrite Es.
    change (feq (XFin p) f0) with (Req_bool p 0). destruct (Req_bool p 0); [reflexivity|]. cbn [Z.ltb Z.compare Pos.compare Pos.compare_cont]. rewrite andb_false_r.
    rewrite (local_to_world_fin B _ _ _ wi Fb). reflexivity.
  - assert (S1 : vdot (vunit du) n = 0) by (unfold vunit; rewrite vdot_scale_l, vdot_comm, Pd; ring).
    assert (S2 : vdot (vcross n (vunit du)) n = 0) by (unfold vdot, vcross; vproj; ring). apply vnorm_1_dot in Nn.
    unfold rL. rewrite !vdot_add_l, !vdot_scale_l, S1, S2, Nn. ring.
Qed.

(** One bounce off a matte surface of reflectance [k]: the factor value * cosine / density is exactly [k],
    whatever the directions and the sample (or the density is 0, and the path ends). *)
Theorem C83_matte : forall (T : Type) (i : interaction XR T) (n du wo k : rv) (a b : R) kd,
  i_sn i = fin3 n -> i_dpdu i = fin3 du -> du <> v0 -> vnorm n = 1 -> vdot n du = 0 -> vdot wo n <> 0 -> 0 <= a < 1 -> 0 <= b < 1 ->
  kd i = Ok (fin3 k) -> each (fun x => 0 <= x) k -> k <> v0 ->
  exists B w f p flag, mat_lambertian kd i = Ok B /\ bsdf_sample_f B (fin3 wo) (mkP2 (XFin a) (XFin b)) = Ok (w, f, XFin p, flag) /\
    (p = 0 /\ ~ (0 < a /\ 0 < b) \/ 0 < p /\ exists w' f', w = fin3 w' /\ f = fin3 f' /\ vscale (Rabs (vdot w' n) / p) f' = k).
Proof.
  intros T i n du wo k a b kd En Ed D0 Nn Pd Hw Ha Hb Ek Kn K0.
  destruct (C53_lambertian k (coords n du wo) a b) as (w & f & p & Es & _ & Ep & _ & Sg & H1 & H2); [exact Hw|lra|lra|].
  destruct (single_sample i n du wo (lambertian (fin3 k)) a b w f p En Ed D0 Nn Pd Hw Ha Es) as (w' & E & Wz & _).
  exists (bsdf_add (bsdf_new i) (lambertian (fin3 k))).
  assert (M : mat_lambertian kd i = Ok (bsdf_add (bsdf_new i) (lambertian (fin3 k)))).
  { unfold mat_lambertian. rewrite (tex_clamped_nn kd i k Ek Kn). cbn [rbind]. now rewrite not_black. }
  rewrite E. destruct (Req_bool p 0) eqn:P0; rb.
  - exists v3zero, v3zero, 0, 0%Z. split; [exact M|]. split; [reflexivity|]. left. split; [reflexivity|].
    intros (A1 & B1). destruct (H1 (H2 ltac:(lra) ltac:(lra))) as (_ & P & _). lra.
  - exists (fin3 w'), (fin3 f), p, (bx_flag (lambertian (fin3 k))). split; [exact M|]. split; [reflexivity|]. right.
    destruct (Req_dec (vz w) 0) as [Z|Z].
    + exfalso. apply P0. assert (XFin p = XFin 0) as Q; [|congruence]. rewrite <- Ep. cbn [lambertian bx_pdf]. unfold lamb_pdf.
      rewrite same_hemisphere_fin, Z. rewrite Rlt_bool_false by lra. reflexivity.
    + destruct (H1 Z) as (_ & P & W). split; [exact P|]. exists w', f. rewrite Wz. auto.
Qed.
Print Assumptions C83_matte.

(** One bounce off a mirror of reflectance [k]: the factor is exactly [k]. *)
Theorem C83_mirror : forall (T : Type) (i : interaction XR T) (n du wo k : rv) (a b : R) kr,
  i_sn i = fin3 n -> i_dpdu i = fin3 du -> du <> v0 -> vnorm n = 1 -> vdot n du = 0 -> vdot wo n <> 0 -> 0 <= a < 1 ->
  kr i = Ok (fin3 k) -> each (fun x => 0 <= x) k -> k <> v0 ->
  exists B w f flag, mat_mirror kr i = Ok B /\ bsdf_sample_f B (fin3 wo) (mkP2 (XFin a) (XFin b)) = Ok (fin3 w, fin3 f, XFin 1, flag) /\
    vscale (Rabs (vdot w n) / 1) f = k.
Proof.
  intros T i n du wo k a b kr En Ed D0 Nn Pd Hw Ha Ek Kn K0.
  destruct (C54_mirror k (mkV3 1 1 1) (coords n du wo) fresnel_noop (mkP2 (XFin a) (XFin b)) Hw ltac:(unfold fresnel_noop; rewrite x_f1; reflexivity)) as (w & f & p & Es & _ & _ & _ & _ & -> & W & _).
  destruct (single_sample i n du wo (specular_reflection (fin3 k) fresnel_noop) a b w f 1 En Ed D0 Nn Pd Hw Ha Es) as (w' & E & Wz & _).
  rewrite Req_bool_false in E by lra.
  exists (bsdf_add (bsdf_new i) (specular_reflection (fin3 k) fresnel_noop)), w', f, (bx_flag (specular_reflection (fin3 k) fresnel_noop)).
  split; [unfold mat_mirror; rewrite (tex_clamped_nn kr i k Ek Kn); cbn [rbind]; now rewrite not_black|]. split; [exact E|].
  rewrite Wz, W. apply V3_eq; unfold vmul; vproj; ring.
Qed.
Print Assumptions C83_mirror.

(** One bounce off polished metal of reflectance [k]: between 0 and [k] in every channel. *)
Theorem C83_metal : forall (T : Type) (i : interaction XR T) (n du wo k e q : rv) (a b : R) kr eta kk ru rv,
  i_sn i = fin3 n -> i_dpdu i = fin3 du -> du <> v0 -> vnorm n = 1 -> vdot n du = 0 -> vdot wo n <> 0 -> vnorm wo = 1 -> 0 <= a < 1 ->
  kr i = Ok (fin3 k) -> each (fun x => 0 <= x) k -> eta i = Ok (fin3 e) -> each (fun x => 0 < x) e -> kk i = Ok (fin3 q) -> each (fun x => 0 <= x) q ->
  ru i = Ok f0 -> rv i = Ok f0 ->
  exists B w f flag, mat_metal kr eta kk ru rv i = Ok B /\ bsdf_sample_f B (fin3 wo) (mkP2 (XFin a) (XFin b)) = Ok (fin3 w, fin3 f, XFin 1, flag) /\
    each2 (fun x y => 0 <= x <= y) (vscale (Rabs (vdot w n) / 1) f) k.
Proof.
  intros T i n du wo k e q a b kr eta kk ru rv En Ed D0 Nn Pd Hw Nw Ha Ek Kn Ee He Eq Hq E1 E2.
  set (fr := fresnel_conductor (spectrum_of (@f1 XR _)) (fin3 e) (fin3 q)).
  assert (Rc : -1 <= vdot wo n <= 1).
  { apply vnorm_1_dot in Nw, Nn. pose proof (lagrange wo n) as G. rewrite Nw, Nn in G. assert (0 <= vdot (vcross wo n) (vcross wo n)) by (unfold vdot; nra). nra. }
  destruct (C57_range_partial (mkV3 1 1 1) e q (vdot wo n)) as (r & Er & Hr); auto; [unfold each; vproj; lra|intros (Z & _); contradiction|].
  destruct (C54_mirror k r (coords n du wo) fr (mkP2 (XFin a) (XFin b)) Hw Er) as (w & f & p & Es & _ & _ & _ & _ & -> & _ & W).
  destruct (single_sample i n du wo (specular_reflection (fin3 k) fr) a b w f 1 En Ed D0 Nn Pd Hw Ha Es) as (w' & E & Wz & _).
  rewrite Req_bool_false in E by lra.
  exists (bsdf_add (bsdf_new i) (specular_reflection (fin3 k) fr)), w', f, (bx_flag (specular_reflection (fin3 k) fr)).
  split. { unfold mat_metal. rewrite (tex_clamped_nn kr i k Ek Kn), Ee, Eq, E1, E2. cbn [rbind].
    assert (Z : feq (@f0 XR _) f0 = true) by (rewrite x_f0; xsimp; cbn [xeq]; rewrite Req_bool_true; reflexivity). rewrite Z. reflexivity. }
  split; [exact E|]. rewrite Wz. auto.
Qed.
Print Assumptions C83_metal.

(** a surface facing up, seen at an angle *)
Example C83_example : i_sn ex_i2 = fin3 (mkV3 0 0 1) /\ i_dpdu ex_i2 = fin3 (mkV3 1 0 0) /\ mkV3 1 0 0 <> v0 /\ vnorm (mkV3 0 0 1) = 1 /\
  vdot (mkV3 0 0 1) (mkV3 1 0 0) = 0 /\ vdot (mkV3 0 (4/5) (3/5)) (mkV3 0 0 1) <> 0 /\ vnorm (mkV3 0 (4/5) (3/5)) = 1 /\
  constant_texture (fin3 (mkV3 (1/2) 1 0)) ex_i2 = Ok (fin3 (mkV3 (1/2) 1 0)) /\ each (fun x => 0 <= x) (mkV3 (1/2) 1 0) /\ mkV3 (1/2) 1 0 <> v0.
Proof.
  split; [reflexivity|]. split; [reflexivity|]. split; [intros E; apply (f_equal vx) in E; cbn in E; lra|]. split; [apply vnorm_1_dot; unfold vdot; vproj; ring|].
  split; [unfold vdot; vproj; ring|]. split; [unfold vdot; vproj; lra|]. split; [apply vnorm_1_dot; unfold vdot; vproj; field|]. split; [reflexivity|].
  split; [unfold each; vproj; lra|intros E; apply (f_equal vy) in E; cbn in E; lra].
Qed.
