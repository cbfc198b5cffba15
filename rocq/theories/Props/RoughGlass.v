(** * The microfacet terms in closed form (C58); transmission through a rough surface (C86) *)
From Coq Require Import ZArith Reals Bool List Lra Lia.
From Flocq Require Import Core.Raux.
From Verif Require Import Model.Num Model.NumX Model.Vector Model.Common Model.Reflection Model.Fresnel
  Model.Microfacet Model.BxDFs Spec.RVec Spec.ShadeSpec Spec.RoughSpec.
From Verif Require Import Proofs.XBase Proofs.RVecProofs Proofs.ShadeProofs Proofs.MicroProofs Proofs.ShapeProofs
  Props.Shading2 Props.FresnelProps Props.MicrofacetProps.
Local Open Scope R_scope.

(** ** C58: closed forms *)

Lemma unit_xy w : vdot w w = 1 -> vx w * vx w + vy w * vy w = 1 - vz w * vz w.
Proof. unfold vdot. lra. Qed.

Lemma unit_sin2 w : vdot w w = 1 -> rsin2 w = vx w * vx w + vy w * vy w.
Proof. intros U. rewrite (unit_xy w U). unfold rsin2. apply Rmax_left. pose proof (unit_xy w U). nra. Qed.

Lemma clamp_ratio x y s : s * s = x * x + y * y -> 0 < s -> rclamp (x / s) (- (1)) 1 = x / s.
Proof.
  intros S P. apply rclamp_id. split; apply Rmult_le_reg_r with s; auto; unfold Rdiv; rewrite Rmult_assoc, Rinv_l by lra; nra.
Qed.

(** cos^2 phi sin^2 theta = x^2 and sin^2 phi sin^2 theta = y^2 *)
Lemma azimuth w : vdot w w = 1 -> rcosphi w * rcosphi w * rsin2 w = vx w * vx w /\ rsinphi w * rsinphi w * rsin2 w = vy w * vy w.
Proof.
  intros U. pose proof (unit_sin2 w U) as S. unfold rcosphi, rsinphi. rewrite S.
  assert (P : 0 <= vx w * vx w + vy w * vy w) by nra. set (s := sqrt (vx w * vx w + vy w * vy w)).
  assert (Q : s * s = vx w * vx w + vy w * vy w) by (apply sqrt_sqrt; exact P). assert (N : 0 <= s) by apply sqrt_pos.
  destruct (Req_bool s 0) eqn:E; rb.
  - assert (vx w * vx w + vy w * vy w = 0) by (rewrite <- Q, E; ring). nra.
  - assert (0 < s) by lra. rewrite (clamp_ratio (vx w) (vy w) s Q), (clamp_ratio (vy w) (vx w) s ltac:(lra)) by auto. rewrite <- Q. split; field; lra.
Qed.

Lemma rd_ggx ax ay w : 0 < ax -> 0 < ay -> vdot w w = 1 -> vz w <> 0 -> rd ax ay w = ggx ax ay w.
Proof.
  intros Hx Hy U Z. destruct (azimuth w U) as [A1 A2]. unfold rd, ggx. pose proof PI_RGT_0 as PP.
  set (z2 := vz w * vz w). assert (Z2 : 0 < z2) by (unfold z2; nra).
  assert (E : 1 + (rcosphi w * rcosphi w / (ax * ax) + rsinphi w * rsinphi w / (ay * ay)) * (rsin2 w / z2) =
    (vx w * vx w / (ax * ax) + vy w * vy w / (ay * ay) + z2) / z2).
  { rewrite <- A1, <- A2. field. repeat split; lra. }
  rewrite E. set (q := vx w * vx w / (ax * ax) + vy w * vy w / (ay * ay) + z2).
  assert (0 < q).
  { unfold q. assert (0 <= vx w * vx w / (ax * ax)) by (apply Rmult_le_pos; [nra|apply Rlt_le, Rinv_0_lt_compat; nra]).
    assert (0 <= vy w * vy w / (ay * ay)) by (apply Rmult_le_pos; [nra|apply Rlt_le, Rinv_0_lt_compat; nra]). lra. }
  field. repeat split; lra.
Qed.

Lemma rlambda_smith ax ay w : 0 < ax -> 0 < ay -> vdot w w = 1 -> vz w <> 0 -> rlambda ax ay w = smith_lambda ax ay w.
Proof.
  intros Hx Hy U Z. destruct (azimuth w U) as [A1 A2]. unfold rlambda, smith_lambda. rewrite Req_bool_false by auto.
  set (al2 := rcosphi w * rcosphi w * (ax * ax) + rsinphi w * rsinphi w * (ay * ay)).
  assert (P : 0 <= al2) by (unfold al2; apply Rplus_le_le_0_compat; apply Rmult_le_pos; apply Rle_0_sqr).
  assert (Sz : Rabs (sqrt (rsin2 w) / vz w) * Rabs (sqrt (rsin2 w) / vz w) = rsin2 w / (vz w * vz w)).
  { rewrite <- Rabs_mult, Rabs_pos_eq by apply Rle_0_sqr. replace (sqrt (rsin2 w) / vz w * (sqrt (rsin2 w) / vz w)) with (sqrt (rsin2 w) * sqrt (rsin2 w) / (vz w * vz w)) by (field; auto).
    rewrite sqrt_sqrt by apply rsin2_pos. reflexivity. }
  replace (sqrt al2 * Rabs (sqrt (rsin2 w) / vz w) * (sqrt al2 * Rabs (sqrt (rsin2 w) / vz w)))
    with (sqrt al2 * sqrt al2 * (Rabs (sqrt (rsin2 w) / vz w) * Rabs (sqrt (rsin2 w) / vz w))) by ring.
  rewrite sqrt_sqrt by exact P. rewrite Sz.
  replace (al2 * (rsin2 w / (vz w * vz w))) with ((ax * ax * (vx w * vx w) + ay * ay * (vy w * vy w)) / (vz w * vz w))
    by (rewrite <- A1, <- A2; unfold al2; field; auto).
  set (q := sqrt _). lra.
Qed.

(** The distribution of normals and the shadowing terms are those of GGX and Smith, for unit directions off the horizon. *)
Theorem C58_formulas : forall (ax ay : R) (h o i : rv), 0 < ax -> 0 < ay -> unit_dir h -> unit_dir o -> unit_dir i ->
  vz h <> 0 -> vz o <> 0 -> vz i <> 0 ->
  let a := mkMf (XFin ax) (XFin ay) in
  mf_d a (fin3 h) = XFin (ggx ax ay h) /\ mf_g1 a (fin3 o) = XFin (smith1 ax ay o) /\ mf_g a (fin3 o) (fin3 i) = XFin (smith2 ax ay o i).
Proof.
  intros ax ay h o i Hx Hy Uh Uo Ui Zh Zo Zi a. apply vnorm_1_dot in Uh, Uo, Ui.
  destruct (d_fin ax ay h Hx Hy Zh) as [D _]. destruct (lambda_fin ax ay o) as [Lo Po]. destruct (lambda_fin ax ay i) as [Li Pi].
  fold a in D, Lo, Li. rewrite D, (rd_ggx ax ay h Hx Hy Uh Zh). split; [reflexivity|].
  unfold mf_g1, mf_g. rewrite Lo, Li, x_f1. rewrite (rlambda_smith ax ay o), (rlambda_smith ax ay i) in * by auto. xsimp. cbn [xadd].
  rewrite !xdiv_fin by lra. unfold smith1, smith2. split; f_equal; unfold Rdiv; ring.
Qed.
Print Assumptions C58_formulas.

Example C58_formulas_example : exists h, unit_dir h /\ vz h <> 0 /\ ggx 2 2 h = 1 / (PI * 4 * (73 / 100 * (73 / 100))).
Proof.
  exists (mkV3 (3 / 5) 0 (4 / 5)). split; [apply vnorm_1_dot; unfold vdot; vproj; lra|]. split; [vproj; lra|].
  unfold ggx. vproj. pose proof PI_RGT_0. field. lra.
Qed.

(** ** C86 *)

Lemma ggx_pos ax ay h : 0 < ax -> 0 < ay -> vz h <> 0 -> 0 < ggx ax ay h.
Proof.
  intros Hx Hy Z. unfold ggx. pose proof PI_RGT_0 as PP.
  assert (0 <= vx h * vx h / (ax * ax)) by (apply Rmult_le_pos; [nra|apply Rlt_le, Rinv_0_lt_compat; nra]).
  assert (0 <= vy h * vy h / (ay * ay)) by (apply Rmult_le_pos; [nra|apply Rlt_le, Rinv_0_lt_compat; nra]).
  set (q := _ + _ + _). assert (0 < q) by (unfold q; nra). apply Rdiv_lt_0_compat; [lra|].
  apply Rmult_lt_0_compat; [|nra]. apply Rmult_lt_0_compat; nra.
Qed.

Lemma ggx_opp ax ay h : ggx ax ay (vscale (-1) h) = ggx ax ay h.
Proof.
  unfold ggx, vscale. vproj.
  replace (-1 * vx h * (-1 * vx h)) with (vx h * vx h) by ring. replace (-1 * vy h * (-1 * vy h)) with (vy h * vy h) by ring.
  replace (-1 * vz h * (-1 * vz h)) with (vz h * vz h) by ring. reflexivity.
Qed.

(** The value and the density of the component for two unit directions on different sides, with the half vector that
    the code computes, turned upwards. *)
Section Mt.
  Variables (ax ay a b : R) (t o i h : rv) (k : R).
  Hypotheses (Hx : 0 < ax) (Hy : 0 < ay) (Ha : 0 < a) (Hb : 0 < b).
  Hypotheses (Uo : vdot o o = 1) (Ui : vdot i i = 1) (Ht : each (fun x => 0 <= x) t).
  Hypotheses (Uh : vdot h h = 1) (Hh : 0 < vz h) (Op : vz o * vz i < 0).
  Let no := index_of a b o.
  Let ni := index_of a b i.
  Hypotheses (Sn : vadd (vscale no o) (vscale ni i) = vscale k h) (Hk : k <> 0).

  Let mf := mkMf (XFin ax) (XFin ay).

  Lemma indices : 0 < no /\ 0 < ni /\ ((0 < vz o /\ vz i < 0 /\ no = a /\ ni = b) \/ (vz o < 0 /\ 0 < vz i /\ no = b /\ ni = a)).
  Proof.
    unfold no, ni, index_of. destruct (Rlt_bool 0 (vz o)) eqn:A, (Rlt_bool 0 (vz i)) eqn:B; rb; nra.
  Qed.

  Lemma eta_fin : (if flt f0 (cos_theta (fin3 o)) then fdiv (XFin b) (XFin a) else fdiv (XFin a) (XFin b)) = XFin (ni / no).
  Proof.
    destruct indices as (_ & _ & [(P & _ & E1 & E2)|(P & _ & E1 & E2)]); rewrite E1, E2; unfold cos_theta, fin3; vproj; rewrite x_f0; xsimp; cbn [xlt].
    - rewrite Rlt_bool_true by lra. apply xdiv_fin. lra.
    - rewrite Rlt_bool_false by lra. apply xdiv_fin. lra.
  Qed.

  Lemma half_sum : vadd o (vscale (ni / no) i) = vscale (k / no) h.
  Proof.
    destruct indices as (P & _ & _). apply V3_eq; [apply (f_equal (fun v : rv => vx v)) in Sn|apply (f_equal (fun v : rv => vy v)) in Sn|apply (f_equal (fun v : rv => vz v)) in Sn];
      unfold vadd, vscale in *; revert Sn; vproj; intros Q.
    - replace (vx o + ni / no * vx i) with ((no * vx o + ni * vx i) / no) by (field; lra). rewrite Q. field. lra.
    - replace (vy o + ni / no * vy i) with ((no * vy o + ni * vy i) / no) by (field; lra). rewrite Q. field. lra.
    - replace (vz o + ni / no * vz i) with ((no * vz o + ni * vz i) / no) by (field; lra). rewrite Q. field. lra.
  Qed.

  Definition sg : R := if Rlt_bool 0 k then 1 else -1.
  Lemma sg_sq : sg * sg = 1. Proof. unfold sg. destruct (Rlt_bool 0 k); ring. Qed.

  Lemma half_unit : v3normalize (v3add (fin3 o) (v3scale (fin3 i) (XFin (ni / no)))) = fin3 (vscale sg h).
  Proof.
    destruct indices as (P & _ & _). rewrite v3scale_fin, v3add_fin, half_sum.
    assert (Q : vnorm (vscale (k / no) h) = Rabs k / no).
    { rewrite vnorm_scale. assert (vnorm h = 1) as -> by now apply vnorm_1_dot. unfold Rdiv. rewrite Rabs_mult, (Rabs_pos_eq (/ no)) by (apply Rlt_le, Rinv_0_lt_compat; auto). ring. }
    assert (N : vscale (k / no) h <> v0).
    { intros E. rewrite E in Q. unfold vnorm, vdot, v0 in Q. revert Q. vproj. rewrite !Rmult_0_l, !Rplus_0_l, sqrt_0. intros Q.
      assert (0 < Rabs k / no) by (apply Rdiv_lt_0_compat; auto; now apply Rabs_pos_lt). lra. }
    rewrite v3normalize_fin by exact N. f_equal. unfold vunit. rewrite Q. unfold sg. destruct (Rlt_bool 0 k) eqn:E; rb.
    - rewrite Rabs_pos_eq by lra. apply V3_eq; unfold vscale; vproj; field; lra.
    - rewrite Rabs_left by lra. apply V3_eq; unfold vscale; vproj; field; lra.
  Qed.

  Lemma dots : vdot o h * no + vdot i h * ni = k.
  Proof.
    transitivity (vdot (vscale k h) h); [|rewrite vdot_scale_l, Uh; ring]. rewrite <- Sn, vdot_add_l, !vdot_scale_l. ring.
  Qed.

  Lemma denom : vdot o (vscale sg h) + vdot i (vscale sg h) * (ni / no) = sg * (k / no).
  Proof. destruct indices as (P & _ & _). rewrite !vdot_scale_r, <- dots. field. lra. Qed.

  Lemma mt_pdf_fin : mt_pdf (XFin a) (XFin b) mf (fin3 o) (fin3 i) =
    XFin (ggx ax ay h / vz h * (ni * ni * Rabs (vdot i h) / (k * k))).
  Proof.
    destruct indices as (P & Pi & _). unfold mt_pdf. rewrite same_hemisphere_fin, Rlt_bool_false by lra. rewrite eta_fin, half_unit.
    rewrite !v3dot_fin. xsimp. cbn [xmul xadd]. rewrite denom. unfold fsq. xsimp. cbn [xmul].
    assert (Zs : vz (vscale sg h) <> 0) by (unfold vscale, sg; vproj; destruct (Rlt_bool 0 k); lra).
    assert (Us : vdot (vscale sg h) (vscale sg h) = 1) by (rewrite vdot_scale_l, vdot_scale_r, Uh, Rmult_1_r; apply sg_sq).
    assert (K2 : sg * (k / no) * (sg * (k / no)) = k * k / (no * no)).
    { replace (sg * (k / no) * (sg * (k / no))) with (sg * sg * (k * k / (no * no))) by (field; lra). rewrite sg_sq. ring. }
    rewrite K2. assert (Kp : 0 < k * k / (no * no)) by (apply Rdiv_lt_0_compat; nra).
    rewrite xdiv_fin by lra. cbn [xabs]. unfold mf_pdf. destruct (d_fin ax ay (vscale sg h) Hx Hy Zs) as [D _]. fold mf in D. rewrite D.
    rewrite (rd_ggx ax ay _ Hx Hy Us Zs). unfold abs_cos_theta, fin3. cbn [vz]. xsimp. cbn [xabs].
    assert (Az : Rabs (vz (vscale sg h)) = vz h).
    { unfold vscale, sg. vproj. destruct (Rlt_bool 0 k); [rewrite Rmult_1_l; apply Rabs_pos_eq; lra|]. replace (-1 * vz h) with (- vz h) by ring. rewrite Rabs_Ropp. apply Rabs_pos_eq. lra. }
    rewrite Az, xdiv_fin by lra. cbn [xmul]. f_equal. f_equal.
    - f_equal. unfold sg. destruct (Rlt_bool 0 k); [|apply ggx_opp]. f_equal. apply V3_eq; unfold vscale; vproj; ring.
    - rewrite vdot_scale_r.
      replace (sg * vdot i h * (ni / no) * (ni / no) / (k * k / (no * no))) with (sg * (vdot i h * (ni * ni / (k * k)))) by (field; lra).
      rewrite Rabs_mult. assert (Rabs sg = 1) as -> by (unfold sg; destruct (Rlt_bool 0 k); [apply Rabs_R1|rewrite Rabs_left; lra]).
      rewrite Rabs_mult, (Rabs_pos_eq (ni * ni / (k * k))); [field; lra|]. apply Rlt_le, Rdiv_lt_0_compat; nra.
  Qed.

  Lemma mt_f_fin : exists r, fr_dielectric (XFin (vdot o h)) (XFin a) (XFin b) = XFin r /\ 0 <= r <= 1 /\
    mt_f (fin3 t) (XFin a) (XFin b) mf (fin3 o) (fin3 i) =
    fin3 (vscale (ggx ax ay h * smith2 ax ay o i * (1 - r) * Rabs (vdot i h) * Rabs (vdot o h) * (no * no) / (k * k * Rabs (vz o) * Rabs (vz i))) t).
  Proof.
    destruct indices as (P & Pi & _).
    assert (Zo : vz o <> 0) by nra. assert (Zi : vz i <> 0) by nra.
    destruct (C56_range (vdot o h) a b Ha Hb) as (r & Er & Hr). exists r. split; [exact Er|]. split; [exact Hr|].
    unfold mt_f. rewrite same_hemisphere_fin, Rlt_bool_false by lra. rewrite eta_fin, half_unit.
    change (cos_theta (fin3 o)) with (XFin (vz o)). change (cos_theta (fin3 i)) with (XFin (vz i)). rewrite x_f0. xsimp. cbn [xeq].
    rewrite !Req_bool_false by auto. cbn [orb].
    assert (W : (if xlt (vz (fin3 (vscale sg h))) (XFin 0) then v3scale (fin3 (vscale sg h)) (xneg f1) else fin3 (vscale sg h)) = fin3 h).
    { unfold fin3 at 1. cbn [vz xlt]. unfold sg, vscale. vproj. destruct (Rlt_bool 0 k).
      - rewrite Rlt_bool_false by lra. f_equal. apply V3_eq; vproj; ring.
      - rewrite Rlt_bool_true by lra. rewrite x_f1. cbn [xneg]. rewrite v3scale_fin. f_equal. apply V3_eq; unfold vscale; vproj; ring. }
    rewrite W. assert (Zh : vz h <> 0) by lra.
    destruct (C58_formulas ax ay h o i Hx Hy) as (D & _ & G); auto; try (now apply vnorm_1_dot).
    unfold mf. rewrite D, G. unfold fresnel_dielectric. rewrite !v3dot_fin, (vdot_comm h o), Er.
    change (spectrum_of (XFin r)) with (fin3 (mkV3 r r r)). rewrite v3neg_fin. rewrite x_f1.
    change (v3adds (fin3 (vscale (-1) (mkV3 r r r))) (XFin 1)) with (fin3 (mkV3 (-1 * r + 1) (-1 * r + 1) (-1 * r + 1))).
    rewrite !v3scale_fin, v3mul_fin. xsimp. cbn [xabs xmul xadd]. rewrite !v3scale_fin. unfold fsq. xsimp. cbn [xmul].
    assert (K2 : (vdot o h + vdot i h * (ni / no)) = k / no) by (rewrite <- dots; field; lra). rewrite K2.
    assert (Dn : k / no * (k / no) * vz o * vz i < 0).
    { replace (k / no * (k / no) * vz o * vz i) with (k * k / (no * no) * (vz o * vz i)) by (field; lra).
      assert (0 < k * k / (no * no)) by (apply Rdiv_lt_0_compat; nra). nra. }
    rewrite v3divs_fin by lra. rewrite v3abs_fin. f_equal.
    set (g := smith2 ax ay o i). assert (Pg : 0 < g).
    { unfold g, smith2. destruct (lambda_fin ax ay o) as [_ L1]. destruct (lambda_fin ax ay i) as [_ L2]. rewrite rlambda_smith in L1, L2 by auto. apply Rinv_0_lt_compat. lra. }
    pose proof (ggx_pos ax ay h Hx Hy Zh) as Pd. set (dd := ggx ax ay h) in *.
    pose proof (Rabs_pos_lt _ Zo) as Ao. pose proof (Rabs_pos_lt _ Zi) as Ai.
    assert (Ab : Rabs (/ (k / no * (k / no) * vz o * vz i)) = no * no / (k * k * Rabs (vz o) * Rabs (vz i))).
    { rewrite Rabs_inv. replace (k / no * (k / no) * vz o * vz i) with (k * k / (no * no) * vz o * vz i) by (field; lra).
      rewrite !Rabs_mult. rewrite (Rabs_pos_eq (k * k / (no * no))) by (apply Rlt_le, Rdiv_lt_0_compat; nra). field. repeat split; lra. }
    assert (Fin : forall x, 0 <= x -> Rabs (/ (k / no * (k / no) * vz o * vz i) * (Rabs (vdot o h) * (Rabs (vdot i h) * (g * (dd * x) * (-1 * r + 1))))) =
      dd * g * (1 - r) * Rabs (vdot i h) * Rabs (vdot o h) * (no * no) / (k * k * Rabs (vz o) * Rabs (vz i)) * x).
    { intros x Xp. rewrite Rabs_mult, Ab. rewrite (Rabs_pos_eq (_ * (_ * _))); [field; repeat split; lra|].
      pose proof (Rabs_pos (vdot o h)). pose proof (Rabs_pos (vdot i h)). repeat (apply Rmult_le_pos; auto; try lra). }
    destruct Ht as (T1 & T2 & T3). unfold vmul, vscale. apply V3_eq; vproj; now apply Fin.
  Qed.
End Mt.

Lemma xmul_nan_r x : xmul x XNaN = XNaN.
Proof. destruct x; reflexivity. Qed.

(** A microfacet never balances the two directions exactly, unless the indices are equal. *)
Lemma facet_k a b h o i k : 0 < a -> 0 < b -> a <> b -> vdot o o = 1 -> vdot i i = 1 -> vz o * vz i < 0 ->
  vadd (vscale (index_of a b o) o) (vscale (index_of a b i) i) = vscale k h -> k <> 0.
Proof.
  intros Ha Hb Hab Uo Ui Op E ->. destruct (indices a b o i Ha Hb Op) as (P & Pi & C).
  set (no := index_of a b o) in *. set (ni := index_of a b i) in *.
  assert (Q : no * no = ni * ni).
  { assert (Eo : vscale no o = vscale (- ni) i).
    { apply V3_eq; [apply (f_equal (fun v : rv => vx v)) in E|apply (f_equal (fun v : rv => vy v)) in E|apply (f_equal (fun v : rv => vz v)) in E];
        unfold vadd, vscale in *; revert E; vproj; intros; lra. }
    apply (f_equal (fun v => vdot v v)) in Eo. rewrite !vdot_scale_l, !vdot_scale_r, Uo, Ui in Eo. lra. }
  assert (no = ni) by nra. destruct C as [(_ & _ & E1 & E2)|(_ & _ & E1 & E2)]; lra.
Qed.

(** Directions on the same side: black, with density 0. *)
Theorem C86_same_side : forall (t : V3 XR) (ea eb : XR) (d : microfacet XR) (o i : rv), 0 < vz o * vz i ->
  let x := microfacet_transmission t ea eb d in
  bx_f x (fin3 o) (fin3 i) = v3zero /\ bx_pdf x (fin3 o) (fin3 i) = XFin 0.
Proof.
  intros t ea eb d o i H x. cbn [x microfacet_transmission bx_f bx_pdf]. unfold mt_f, mt_pdf.
  rewrite same_hemisphere_fin, Rlt_bool_true by auto. split; reflexivity.
Qed.
Print Assumptions C86_same_side.

(** Through a microfacet with normal h: the value is that of Walter, Marschner, Li and Torrance, and the density is the one
    reported for the normal, times the change of solid angle from normals to refracted directions. *)
Theorem C86_walter : forall (ax ay a b : R) (t o i h : rv),
  0 < ax -> 0 < ay -> 0 < a -> 0 < b -> a <> b -> unit_dir o -> unit_dir i -> each (fun x => 0 <= x) t -> through_facet a b h o i ->
  let x := microfacet_transmission (fin3 t) (XFin a) (XFin b) (mkMf (XFin ax) (XFin ay)) in
  let no := index_of a b o in let ni := index_of a b i in
  let k := no * vdot o h + ni * vdot i h in
  exists r p, fr_dielectric (XFin (vdot o h)) (XFin a) (XFin b) = XFin r /\ 0 <= r <= 1 /\ mf_pdf (mkMf (XFin ax) (XFin ay)) (fin3 h) = XFin p /\ 0 < p /\
    k <> 0 /\
    bx_f x (fin3 o) (fin3 i) =
      fin3 (vscale (no * no * (1 - r) * ggx ax ay h * smith2 ax ay o i / (k * k) * (Rabs (vdot o h) * Rabs (vdot i h)) / (Rabs (vz o) * Rabs (vz i))) t) /\
    bx_pdf x (fin3 o) (fin3 i) = XFin (p * (ni * ni * Rabs (vdot i h) / (k * k))).
Proof.
  intros ax ay a b t o i h Hx Hy Ha Hb Hab Uo Ui Ht (Uh & Zh & Op & Fo & Fi & k & Sn) x no ni kk. apply vnorm_1_dot in Uo, Ui.
  pose proof (facet_k a b h o i k Ha Hb Hab Uo Ui Op Sn) as Hk. pose proof (dots a b o i h k Uh Sn) as Dk. fold no ni in Dk.
  assert (Ek : kk = k) by (unfold kk; lra). clearbody kk. subst kk.
  destruct (mt_f_fin ax ay a b t o i h k Hx Hy Ha Hb Uo Ui Ht Uh Zh Op Sn Hk) as (r & Er & Hr & Ef). fold no ni in Ef.
  pose proof (mt_pdf_fin ax ay a b o i h k Hx Hy Ha Hb Uh Zh Op Sn Hk) as Ep. fold no ni in Ep.
  assert (Zo : vz o <> 0) by nra. assert (Zi : vz i <> 0) by nra. pose proof (Rabs_pos_lt _ Zo). pose proof (Rabs_pos_lt _ Zi).
  exists r, (ggx ax ay h / vz h). split; [exact Er|]. split; [exact Hr|]. split; [|split; [|split; [exact Hk|split]]].
  - unfold mf_pdf. destruct (d_fin ax ay h Hx Hy) as [D _]; [lra|]. rewrite D, rd_ggx by (auto; lra).
    unfold abs_cos_theta, fin3. vproj. xsimp. cbn [xabs]. rewrite Rabs_pos_eq by lra. apply xdiv_fin. lra.
  - apply Rdiv_lt_0_compat; auto. apply ggx_pos; auto; lra.
  - cbn [x microfacet_transmission bx_f]. rewrite Ef. f_equal. f_equal. field. repeat split; lra.
  - exact Ep.
Qed.
Print Assumptions C86_walter.

(** Reciprocity of refraction: seen in the other direction the value is the same up to the squares of the indices. *)
Theorem C86_reciprocal : forall (ax ay a b : R) (t o i h : rv),
  0 < ax -> 0 < ay -> 0 < a -> 0 < b -> a <> b -> unit_dir o -> unit_dir i -> each (fun x => 0 <= x) t -> through_facet a b h o i ->
  let x := microfacet_transmission (fin3 t) (XFin a) (XFin b) (mkMf (XFin ax) (XFin ay)) in
  exists f g, bx_f x (fin3 o) (fin3 i) = fin3 f /\ bx_f x (fin3 i) (fin3 o) = fin3 g /\
    vscale (index_of a b i * index_of a b i) f = vscale (index_of a b o * index_of a b o) g.
Proof.
  intros ax ay a b t o i h Hx Hy Ha Hb Hab Uo Ui Ht Th x.
  assert (Th' : through_facet a b h i o).
  { destruct Th as (Uh & Zh & Op & Fo & Fi & k & Sn). repeat split; auto; [lra|]. exists k. rewrite <- Sn. vring. }
  destruct (C86_walter ax ay a b t o i h Hx Hy Ha Hb Hab Uo Ui Ht Th) as (r & p & Er & Hr & _ & _ & Hk & Ef & _).
  destruct (C86_walter ax ay a b t i o h Hx Hy Ha Hb Hab Ui Uo Ht Th') as (r' & p' & Er' & Hr' & _ & _ & Hk' & Eg & _).
  destruct Th as (Uh & Zh & Op & Fo & Fi & k & Sn). apply vnorm_1_dot in Uo, Ui.
  destruct (indices a b o i Ha Hb Op) as (Pn & Pi & C).
  set (no := index_of a b o) in *. set (ni := index_of a b i) in *.
  assert (Co : -1 <= vdot o h <= 1) by (pose proof (cauchy_schwarz o h) as Q; rewrite Uo, Uh in Q; nra).
  assert (Ci : -1 <= vdot i h <= 1) by (pose proof (cauchy_schwarz i h) as Q; rewrite Ui, Uh in Q; nra).
  assert (R : r = r').
  { assert (Q : fr_dielectric (XFin (vdot o h)) (XFin a) (XFin b) = fr_dielectric (XFin (vdot i h)) (XFin a) (XFin b)).
    { apply C56_partner; auto; [nra|destruct C as [(Z1 & Z2 & _)|(Z1 & Z2 & _)]; assert (vdot o h * vdot i h < 0) by nra; lra|].
      assert (N : near_eta (vdot o h) a b = no /\ far_eta (vdot o h) a b = ni).
      { unfold near_eta, far_eta. destruct C as [(Z1 & Z2 & -> & ->)|(Z1 & Z2 & -> & ->)].
        - rewrite Rlt_bool_true by nra. auto.
        - rewrite Rlt_bool_false by nra. auto. }
      destruct N as [-> ->].
      assert (So : 0 <= 1 - vdot o h * vdot o h) by nra. assert (Si : 0 <= 1 - vdot i h * vdot i h) by nra.
      rewrite <- (sqrt_square no), <- (sqrt_square ni) by lra. rewrite <- !sqrt_mult by nra. f_equal.
      (* the tangential parts balance *)
      assert (Cr : vscale no (vcross o h) = vscale (- ni) (vcross i h)).
      { assert (Z : vcross (vadd (vscale no o) (vscale ni i)) h = v0) by (rewrite Sn; apply V3_eq; unfold vcross, vscale, v0; vproj; ring).
        apply V3_eq; [apply (f_equal (fun v : rv => vx v)) in Z|apply (f_equal (fun v : rv => vy v)) in Z|apply (f_equal (fun v : rv => vz v)) in Z];
          unfold vcross, vadd, vscale, v0 in *; revert Z; vproj; intros; lra. }
      apply (f_equal (fun v => vdot v v)) in Cr. rewrite !vdot_scale_l, !vdot_scale_r, !lagrange, Uo, Ui, Uh in Cr. lra. }
    congruence. }
  subst r'. do 2 eexists. split; [exact Ef|]. split; [exact Eg|].
  assert (Zo : vz o <> 0) by nra. assert (Zi : vz i <> 0) by nra. pose proof (Rabs_pos_lt _ Zo). pose proof (Rabs_pos_lt _ Zi).
  replace (smith2 ax ay i o) with (smith2 ax ay o i) by (unfold smith2; f_equal; ring).
  replace (ni * vdot i h + no * vdot o h) with (no * vdot o h + ni * vdot i h) by ring. set (kk := no * vdot o h + ni * vdot i h) in *.
  apply V3_eq; unfold vscale; vproj; field; repeat split; lra.
Qed.
Print Assumptions C86_reciprocal.

(** What is sampled: either nothing (total internal reflection) or a unit direction behind the sampled microfacet.  If it
    leaves on the other side of the surface, it is reached through that microfacet when the microfacet faces the outgoing
    direction; when it does not, no microfacet at all joins the two directions. *)
Theorem C86_sampled : forall (ax ay a b u1 u2 : R) (t : V3 XR) (o : rv),
  0 < ax -> 0 < ay -> 0 < a -> 0 < b -> 0 <= u1 < 1 -> unit_dir o -> vz o <> 0 ->
  let mf := mkMf (XFin ax) (XFin ay) in let x := microfacet_transmission t (XFin a) (XFin b) mf in let u := mkP2 (XFin u1) (XFin u2) in
  exists wh, mf_sample_wh mf (fin3 o) u = fin3 wh /\ vdot wh wh = 1 /\ 0 < vz o * vz wh /\
    (bx_sample_f x (fin3 o) u = bx_none \/
     exists i, bx_sample_f x (fin3 o) u = (fin3 i, bx_f x (fin3 o) (fin3 i), bx_pdf x (fin3 o) (fin3 i)) /\ unit_dir i /\ vdot i wh < 0 /\
       (vz o * vz i < 0 ->
         (0 < vdot o wh -> through_facet a b (if Rlt_bool 0 (vz wh) then wh else vscale (-1) wh) o i) /\
         (vdot o wh <= 0 -> forall h, ~ through_facet a b h o i))).
Proof.
  intros ax ay a b u1 u2 t o Hx Hy Ha Hb Hu Uo Zo mf x u.
  destruct (sample_wh_fin ax ay u1 u2 o Hx Hy Hu Zo) as (q & phi & wh & _ & _ & Ew & Uw & Sw & _). exists wh.
  split; [exact Ew|]. split; [exact Uw|]. split; [exact Sw|].
  cbn [x microfacet_transmission bx_sample_f bx_f bx_pdf]. unfold mt_sample. fold mf in Ew. fold u in Ew. rewrite Ew.
  change (vz (fin3 o)) with (XFin (vz o)). change (cos_theta (fin3 o)) with (XFin (vz o)). rewrite x_f0. xsimp. cbn [xeq xlt]. rewrite Req_bool_false by auto.
  set (far := if Rlt_bool 0 (vz o) then b else a). set (near := if Rlt_bool 0 (vz o) then a else b).
  assert (Ee : (if Rlt_bool 0 (vz o) then xdiv (XFin a) (XFin b) else xdiv (XFin b) (XFin a)) = XFin (near / far)).
  { unfold near, far. destruct (Rlt_bool 0 (vz o)); apply xdiv_fin; lra. }
  rewrite Ee. destruct (C55_snell o wh (near / far) Uo) as [_ S]; [now apply vnorm_1_dot|].
  destruct (refract (fin3 o) (fin3 wh) (XFin (near / far))) as [w|] eqn:Er; [|left; reflexivity]. right.
  destruct (S _ eq_refl) as (i & -> & Ui & Ni & _ & Cr & _). exists i. split; [reflexivity|]. split; [exact Ui|]. split; [exact Ni|].
  intros Op. assert (Fp : 0 < far) by (unfold far; destruct (Rlt_bool 0 (vz o)); lra).
  assert (E : vadd (vscale near o) (vscale far i) = vscale (near * vdot o wh + far * vdot i wh) wh).
  { assert (Z : vcross (vadd (vscale near o) (vscale far i)) wh = v0).
    { assert (Z1 : vscale far (vcross i wh) = vscale (- near) (vcross o wh)).
      { rewrite Cr. apply V3_eq; unfold vscale; vproj; field; lra. }
      apply V3_eq; [apply (f_equal (fun v : rv => vx v)) in Z1|apply (f_equal (fun v : rv => vy v)) in Z1|apply (f_equal (fun v : rv => vz v)) in Z1];
        unfold vcross, vadd, vscale, v0 in *; revert Z1; vproj; intros; lra. }
    set (v := vadd (vscale near o) (vscale far i)) in *.
    replace (near * vdot o wh + far * vdot i wh) with (vdot v wh) by (unfold v; rewrite vdot_add_l, !vdot_scale_l; ring).
    (* v |wh|^2 - (v.wh) wh = wh x (v x wh) *)
    assert (T : vsub (vscale (vdot wh wh) v) (vscale (vdot v wh) wh) = vcross wh (vcross v wh)) by (apply V3_eq; unfold vcross, vsub, vscale, vdot; vproj; ring).
    rewrite Z, Uw in T.
    apply V3_eq; [apply (f_equal (fun v : rv => vx v)) in T|apply (f_equal (fun v : rv => vy v)) in T|apply (f_equal (fun v : rv => vz v)) in T];
      unfold vcross, vsub, vscale, v0 in *; revert T; vproj; intros; lra. }
  assert (In : index_of a b o = near /\ index_of a b i = far).
  { unfold index_of, near, far. split; [reflexivity|]. destruct (Rlt_bool 0 (vz o)) eqn:A, (Rlt_bool 0 (vz i)) eqn:B; rb; try reflexivity; exfalso; nra. }
  destruct In as [I1 I2]. unfold through_facet. rewrite I1, I2. split; intros Fw.
  2: { intros h (Uh & Zh & _ & Fo & Fi & k & Ek). rewrite E in Ek. assert (Np : 0 < near) by (unfold near; destruct (Rlt_bool 0 (vz o)); lra).
       set (c := near * vdot o wh + far * vdot i wh) in *. assert (Hc : c < 0) by (unfold c; nra).
       (* the normal is a multiple of the sampled one, so both directions are on one side of it *)
       assert (Ew' : wh = vscale (k / c) h).
       { transitivity (vscale (/ c) (vscale c wh)); [apply V3_eq; unfold vscale; vproj; field; lra|]. rewrite Ek. apply V3_eq; unfold vscale; vproj; field; lra. }
       rewrite Ew', vdot_scale_r in Fw, Ni. set (g := k / c) in *. clearbody g.
       (* vz o and vz i have different signs, so do the cosines *)
       assert (S1 : vdot o h * vdot i h < 0).
       { destruct (Rlt_le_dec 0 (vz o)) as [P|P].
         - assert (0 < vdot o h) by nra. assert (vz i < 0) by nra. assert (vdot i h < 0) by nra. nra.
         - assert (vz o < 0) by nra. assert (vdot o h < 0) by nra. assert (0 < vz i) by nra. assert (0 < vdot i h) by nra. nra. }
       assert (S2 : 0 <= (g * vdot o h) * (g * vdot i h)) by nra.
       assert (G : g <> 0) by (intros ->; lra). assert (0 < g * g) by nra. nra. }
  destruct (Rlt_bool 0 (vz wh)) eqn:W; rb.
  - assert (0 < vz o) by nra. assert (vz i < 0) by nra. repeat split; auto; [nra|nra|]. eexists. exact E.
  - assert (W' : vz wh < 0) by nra. assert (vz o < 0) by nra. assert (0 < vz i) by nra. rewrite !vdot_scale_l, !vdot_scale_r, Uw.
    split; [ring|]. split; [unfold vscale; vproj; lra|]. split; [exact Op|]. split; [nra|]. split; [nra|].
    exists (- (near * vdot o wh + far * vdot i wh)). rewrite E. vring.
Qed.
Print Assumptions C86_sampled.

(** Entering a denser medium never reflects everything. *)
Lemma ratio_lt x y : 0 < x -> 0 < y -> ratio x y * ratio x y < 1.
Proof.
  intros Hx Hy. unfold ratio. assert (-1 < (x - y) / (x + y) < 1).
  { split; apply Rmult_lt_reg_r with (x + y); try lra; unfold Rdiv; rewrite Rmult_assoc, Rinv_l; lra. }
  set (z := (x - y) / (x + y)) in *. clearbody z. nra.
Qed.
Lemma entering_lt_1 c a b r : 0 < c <= 1 -> 0 < a < b -> fr_dielectric (XFin c) (XFin a) (XFin b) = XFin r -> r < 1.
Proof.
  intros Hc Hab. rewrite (dielectric_fin c a b) by lra. unfold near_eta, far_eta. rewrite Rlt_bool_true by lra. cbv zeta.
  assert (S : 0 <= sqrt (1 - c * c) < 1).
  { split; [apply sqrt_pos|]. rewrite <- sqrt_1 at 2. apply sqrt_lt_1_alt. nra. }
  assert (Q : 0 <= a / b < 1). { split; [apply Rlt_le, Rdiv_lt_0_compat; lra|]. apply Rmult_lt_reg_r with b; [lra|]. unfold Rdiv. rewrite Rmult_assoc, Rinv_l; lra. }
  set (s := a / b * sqrt (1 - c * c)). assert (0 <= s < 1) by (unfold s; nra). rewrite Rle_bool_false by lra.
  assert (P : 0 < sqrt (1 - s * s)) by (apply sqrt_lt_R0; nra). set (ct := sqrt (1 - s * s)) in *. rewrite (Rabs_pos_eq c) by lra.
  pose proof (ratio_lt (b * c) (a * ct) ltac:(nra) ltac:(nra)). pose proof (ratio_lt (a * c) (b * ct) ltac:(nra) ltac:(nra)).
  intros E. assert (r = (ratio (b * c) (a * ct) * ratio (b * c) (a * ct) + ratio (a * c) (b * ct) * ratio (a * c) (b * ct)) / 2) by congruence. lra.
Qed.

(** The code lacks the test that a microfacet exists: into glass of index 3/2 the directions (3/5,0,4/5) and
    (12/13,0,-5/13), less than a right angle apart, are joined by no refraction, but light is transmitted between them. *)
Theorem C86_refuted : exists (o i f : rv) (p : R), unit_dir o /\ unit_dir i /\ vz o * vz i < 0 /\
  (forall h, ~ through_facet 1 (3 / 2) h o i) /\
  let x := microfacet_transmission (fin3 (mkV3 1 1 1)) (XFin 1) (XFin (3 / 2)) (mkMf (XFin 1) (XFin 1)) in
  bx_f x (fin3 o) (fin3 i) = fin3 f /\ each (fun y => 0 < y) f /\ bx_pdf x (fin3 o) (fin3 i) = XFin p /\ 0 < p.
Proof.
  set (o := mkV3 (3 / 5) 0 (4 / 5) : rv). set (i := mkV3 (12 / 13) 0 (- (5 / 13)) : rv).
  assert (Uo : vdot o o = 1) by (unfold vdot, o; vproj; lra). assert (Ui : vdot i i = 1) by (unfold vdot, i; vproj; lra).
  assert (Op : vz o * vz i < 0) by (unfold o, i; vproj; lra).
  assert (Io : index_of 1 (3 / 2) o = 1) by (unfold index_of, o; vproj; rewrite Rlt_bool_true; lra).
  assert (Ii : index_of 1 (3 / 2) i = 3 / 2) by (unfold index_of, i; vproj; rewrite Rlt_bool_false; lra).
  (* the half vector of the code *)
  set (L := sqrt 67405). assert (L2 : L * L = 67405) by (apply sqrt_sqrt; lra). assert (Lp : 0 < L) by (apply sqrt_lt_R0; lra).
  set (h := mkV3 (258 / L) 0 (29 / L) : rv).
  assert (Uh : vdot h h = 1).
  { unfold vdot, h. vproj. replace (258 / L * (258 / L) + 0 * 0 + 29 / L * (29 / L)) with (67405 / (L * L)) by (field; lra). rewrite L2. field. }
  assert (Zh : 0 < vz h) by (unfold h; vproj; apply Rdiv_lt_0_compat; lra).
  assert (Sn : vadd (vscale (index_of 1 (3 / 2) o) o) (vscale (index_of 1 (3 / 2) i) i) = vscale (L / 130) h).
  { rewrite Io, Ii. unfold o, i, h. apply V3_eq; unfold vadd, vscale; vproj; field; lra. }
  assert (Hk : L / 130 <> 0) by lra.
  assert (Do : vdot o h = 178 / L) by (unfold vdot, o, h; vproj; field; lra).
  assert (Di : vdot i h = 227 / L) by (unfold vdot, i, h; vproj; field; lra).
  assert (Zo : vz o <> 0) by (unfold o; vproj; lra). assert (Zi : vz i <> 0) by (unfold i; vproj; lra).
  assert (Po : 0 < vdot o h) by (rewrite Do; apply Rdiv_lt_0_compat; lra). assert (Pi : 0 < vdot i h) by (rewrite Di; apply Rdiv_lt_0_compat; lra).
  destruct (mt_f_fin 1 1 1 (3 / 2) (mkV3 1 1 1) o i h (L / 130)) as (r & Er & Hr & Ef); auto; try lra; [unfold each; vproj; lra|].
  pose proof (mt_pdf_fin 1 1 1 (3 / 2) o i h (L / 130) ltac:(lra) ltac:(lra) ltac:(lra) ltac:(lra) Uh Zh Op Sn Hk) as Ep.
  pose proof (ggx_pos 1 1 h ltac:(lra) ltac:(lra) ltac:(lra)) as Pg.
  assert (Co : vdot o h <= 1) by (pose proof (cauchy_schwarz o h) as Q; rewrite Uo, Uh in Q; nra).
  pose proof (entering_lt_1 (vdot o h) 1 (3 / 2) r ltac:(lra) ltac:(lra) Er) as R1.
  assert (Ps : 0 < smith2 1 1 o i).
  { unfold smith2. destruct (lambda_fin 1 1 o) as [_ L1]. destruct (lambda_fin 1 1 i) as [_ L2']. rewrite rlambda_smith in L1, L2' by (auto; lra). apply Rinv_0_lt_compat. lra. }
  exists o, i. do 2 eexists. split; [now apply vnorm_1_dot|]. split; [now apply vnorm_1_dot|]. split; [exact Op|].
  split; [|cbv zeta; cbn [microfacet_transmission bx_f bx_pdf]; split; [exact Ef|split; [|split; [exact Ep|]]]].
  - intros g (Ug & Zg & _ & Fo & Fi & k & E). rewrite Io, Ii in E. (* both directions would see the same side of g *)
    assert (Ko : vdot (vadd (vscale 1 o) (vscale (3 / 2) i)) o = k * vdot g o) by (rewrite E, vdot_scale_l; reflexivity).
    assert (Ki : vdot (vadd (vscale 1 o) (vscale (3 / 2) i)) i = k * vdot g i) by (rewrite E, vdot_scale_l; reflexivity).
    assert (V1 : 0 < vdot (vadd (vscale 1 o) (vscale (3 / 2) i)) o) by (unfold vdot, vadd, vscale, o, i; vproj; lra).
    assert (V2 : 0 < vdot (vadd (vscale 1 o) (vscale (3 / 2) i)) i) by (unfold vdot, vadd, vscale, o, i; vproj; lra).
    rewrite Ko, (vdot_comm g) in V1. rewrite Ki, (vdot_comm g) in V2. unfold o at 1 in Fo. unfold i at 1 in Fi. cbn [vz] in Fo, Fi.
    assert (0 < vdot o g) by lra. assert (vdot i g < 0) by lra. nra.
  - rewrite !Io. pose proof (Rabs_pos_lt _ Zo). pose proof (Rabs_pos_lt _ Zi). rewrite (Rabs_pos_eq (vdot o h)), (Rabs_pos_eq (vdot i h)) by lra.
    assert (F : 0 < ggx 1 1 h * smith2 1 1 o i * (1 - r) * vdot i h * vdot o h * (1 * 1) / (L / 130 * (L / 130) * Rabs (vz o) * Rabs (vz i))).
    { clear - Pg Ps R1 Pi Po Lp H H0. revert Pg Ps Pi Po H H0. generalize (ggx 1 1 h) (smith2 1 1 o i) (vdot i h) (vdot o h) (Rabs (vz o)) (Rabs (vz i)). intros.
      assert (0 < 1 - r) by lra. assert (0 < L / 130) by lra. apply Rdiv_lt_0_compat; repeat (apply Rmult_lt_0_compat; try lra). }
    unfold each, vscale. vproj. rewrite Rmult_1_r. auto.
  - rewrite Ii. rewrite (Rabs_pos_eq (vdot i h)) by lra. apply Rmult_lt_0_compat; [now apply Rdiv_lt_0_compat|].
    apply Rdiv_lt_0_compat; [|assert (0 < L / 130) by lra; now apply Rmult_lt_0_compat]. repeat apply Rmult_lt_0_compat; lra.
Qed.
Print Assumptions C86_refuted.

(** With equal indices the component samples the direction straight through, and its density is NaN: the half vector is the
    zero vector divided by its length. *)
Theorem C86_same_index_refuted : exists (o : rv) (u : P2 XR) i f p, unit_dir o /\ vz o <> 0 /\
  bx_sample_f (microfacet_transmission (fin3 (mkV3 1 1 1)) (XFin 1) (XFin 1) (mkMf (XFin 1) (XFin 1))) (fin3 o) u = (fin3 i, f, p) /\
  i = vscale (-1) o /\ vx f = XNaN /\ p = XNaN.
Proof.
  set (o := mkV3 0 0 1 : rv). assert (Uo : unit_dir o) by (apply vnorm_1_dot; unfold vdot, o; vproj; ring).
  assert (Zo : vz o <> 0) by (unfold o; vproj; lra).
  set (u := mkP2 (XFin 0) (XFin 0)). set (mf := mkMf (XFin 1) (XFin 1)). set (i := mkV3 0 0 (-1) : rv).
  exists o, u, i, (mt_f (fin3 (mkV3 1 1 1)) (XFin 1) (XFin 1) mf (fin3 o) (fin3 i)), (mt_pdf (XFin 1) (XFin 1) mf (fin3 o) (fin3 i)).
  split; [exact Uo|]. split; [exact Zo|].
  assert (H : v3normalize (v3add (fin3 o) (v3scale (fin3 i) (XFin 1))) = mkV3 XNaN XNaN XNaN).
  { rewrite v3scale_fin, v3add_fin. replace (vadd o (vscale 1 i)) with v0 by (unfold o, i, v0; apply V3_eq; unfold vadd, vscale; vproj; ring).
    unfold v3normalize. rewrite v3length_fin. replace (vnorm v0) with 0 by (unfold vnorm, vdot, v0; vproj; rewrite !Rmult_0_l, !Rplus_0_l, sqrt_0; reflexivity).
    unfold fin3, v0. vproj. xsimp. cbn [xdiv]. rewrite Req_bool_true by reflexivity. reflexivity. }
  assert (X1 : fdiv (XFin 1) (XFin 1) = XFin 1) by (xsimp; rewrite xdiv_fin by lra; f_equal; field).
  assert (Dn : mf_d mf (mkV3 XNaN XNaN XNaN) = XNaN).
  { unfold mf_d, tan_2_theta, cos_2_theta. cbn [vz]. xsimp. cbn [xmul]. destruct (sin_2_theta _) as [|s|s]; cbn [xdiv xis_inf]; unfold fsq; cbn [xmul]; xsimp; cbn [xmul]; rewrite !xmul_nan_r; reflexivity. }
  split; [|split; [unfold i, o; apply V3_eq; unfold vscale; vproj; ring|split]].
  - cbn [microfacet_transmission bx_sample_f]. unfold mt_sample. fold mf.
    destruct (sample_wh_fin 1 1 0 0 o ltac:(lra) ltac:(lra) ltac:(lra) Zo) as (q & phi & wh & _ & Hq & Ew & Uw & Sw & Hd). fold u mf in Ew. rewrite Ew.
    destruct (Hq eq_refl) as [Q P]. cbv zeta in Hd.
    assert (W : wh = o).
    { destruct Hd as [[-> _]|[_ Hn]]; [|unfold o in Hn; cbn in Hn; lra]. rewrite Q, P.
      replace (1 * 1 * 0 / (1 - 0)) with 0 by field. rewrite Rplus_0_r, sqrt_1. replace (1 / 1) with 1 by field. rewrite acos_1.
      unfold sph, o. rewrite sin_0, cos_0. apply V3_eq; vproj; ring. }
    subst wh. change (vz (fin3 o)) with (XFin 1). change (cos_theta (fin3 o)) with (XFin 1). rewrite x_f0, X1. xsimp. cbn [xeq xlt]. rewrite Req_bool_false, Rlt_bool_true by lra.
    assert (U1 : vdot o o = 1) by (apply vnorm_1_dot; exact Uo).
    destruct (refract_real o o 1 U1 U1) as [_ R]. rewrite R, U1. rewrite Rle_bool_false by lra.
    replace (1 - 1 * 1 * (1 - 1 * 1)) with 1 by ring. rewrite sqrt_1.
    replace (vadd (vscale (- (1)) o) (vscale (1 * 1 - 1) o)) with i by (unfold i, o; apply V3_eq; unfold vadd, vscale; vproj; ring). reflexivity.
  - unfold mt_f. rewrite same_hemisphere_fin, Rlt_bool_false by (unfold o, i; vproj; lra).
    change (cos_theta (fin3 o)) with (XFin 1). change (cos_theta (fin3 i)) with (XFin (-1)). rewrite x_f0, X1. xsimp. cbn [xeq xlt].
    rewrite !Req_bool_false by lra. rewrite Rlt_bool_true by lra. cbn [orb]. rewrite H. cbn [vz xlt]. rewrite Dn.
    unfold v3abs, v3divs, v3scale, v3mul. cbn [vx]. unfold fin3. vproj. xsimp. rewrite xmul_nan_r. reflexivity.
  - unfold mt_pdf. rewrite same_hemisphere_fin, Rlt_bool_false by (unfold o, i; vproj; lra).
    change (cos_theta (fin3 o)) with (XFin 1). rewrite x_f0, X1. xsimp. cbn [xlt]. rewrite Rlt_bool_true by lra. rewrite H. unfold mf_pdf. rewrite Dn. reflexivity.
Qed.
Print Assumptions C86_same_index_refuted.

(** straight down into glass of index 3/2 through a horizontal microfacet *)
Example C86_example : through_facet 1 (3 / 2) (mkV3 0 0 1) (mkV3 0 0 1) (mkV3 0 0 (-1)).
Proof.
  unfold through_facet, index_of, vdot. vproj. rewrite Rlt_bool_true, Rlt_bool_false by lra. repeat split; try lra.
  exists (- / 2). apply V3_eq; unfold vadd, vscale; vproj; lra.
Qed.
