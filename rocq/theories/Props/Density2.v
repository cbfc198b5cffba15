(** * Densities of directions reflected or refracted by rough surfaces (C88) *)
From Coq Require Import ZArith Reals Bool List Lra Lia.
From Flocq Require Import Core.Raux.
From Verif Require Import Model.Num Model.NumX Model.Vector Model.Common Model.Sampling Model.Reflection Model.Fresnel
  Model.Microfacet Model.BxDFs Spec.RVec Spec.ShadeSpec Spec.RoughSpec Spec.DensitySpec.
From Verif Require Import Proofs.XBase Proofs.RVecProofs Proofs.ShadeProofs Proofs.MicroProofs Proofs.ShapeProofs Proofs.DensityProofs
  Props.Shading2 Props.FresnelProps Props.MicrofacetProps Props.RoughGlass Props.Density.
Local Open Scope R_scope.

(** ** Directions made from a moving unit normal *)

Lemma unit_move h a b ha hb : (forall x y, vdot (h x y) (h x y) = 1) -> derivative_at h a b ha hb ->
  vdot (h a b) ha = 0 /\ vdot (h a b) hb = 0 /\ vcross ha hb = vscale (vdot (h a b) (vcross ha hb)) (h a b).
Proof.
  intros U D. pose proof (dv_dot h h a b ha hb ha hb D D) as D2.
  assert (D0 : differentiable_at (fun x y => vdot (h x y) (h x y)) a b 0 0) by (apply (d_ext _ (fun _ _ => 1)); [exact U|apply d_const]).
  destruct (d_unique _ _ _ _ _ _ _ D2 D0) as [E1 E2]. set (w := h a b) in *. rewrite (vdot_comm ha w) in E1. rewrite (vdot_comm hb w) in E2.
  assert (P : vdot w ha = 0) by lra. assert (Q : vdot w hb = 0) by lra. split; [exact P|]. split; [exact Q|].
  assert (I : vsub (vscale (vdot w w) (vcross ha hb)) (vscale (vdot w (vcross ha hb)) w) = vsub (vscale (vdot w ha) (vcross w hb)) (vscale (vdot w hb) (vcross w ha))) by vring.
  assert (Uw : vdot w w = 1) by exact (U a b). rewrite P, Q, Uw in I.
  apply V3_eq; [apply (f_equal (fun v : rv => vx v)) in I|apply (f_equal (fun v : rv => vy v)) in I|apply (f_equal (fun v : rv => vz v)) in I];
    unfold vsub, vscale in *; revert I; vproj; intros; lra.
Qed.

(** the direction al(o.h) h + k o, for a fixed unit vector o *)
Lemma bounce_density (al : R -> R) (l k g : R) (o : rv) h a b : vdot o o = 1 -> (forall x y, vdot (h x y) (h x y) = 1) ->
  density_at h a b g -> let c := vdot o (h a b) in derivable_pt_lim al c l -> al c <> 0 ->
  density_at (fun x y => vadd (vscale (al (vdot o (h x y))) (h x y)) (vscale k o)) a b (g / (Rabs (al c) * sqrt (al c * al c + l * l * (1 - c * c)))).
Proof.
  intros Uo U (ha & hb & D & E) c Dal Nal. destruct (unit_move h a b ha hb U D) as (P & Q & X). set (w := h a b) in *. pose proof (U a b) as Uw. fold w in Uw.
  pose proof (dv_dot (fun _ _ => o) h a b v0 v0 ha hb (dv_const o a b) D) as Dc. cbv beta in Dc. fold w in Dc.
  pose proof (d_comp al _ a b _ _ _ Dc Dal) as Da. cbv beta in Da.
  pose proof (dv_add _ _ a b _ _ _ _ (dv_scale _ h a b _ _ ha hb Da D) (dv_const (vscale k o) a b)) as Dw. cbv beta in Dw. fold w in Dw.
  do 2 eexists. split; [exact Dw|]. fold c. set (A := al c) in *. set (j := vdot w (vcross ha hb)) in *.
  assert (Z0 : forall v, vdot v0 v = 0) by (intros; unfold vdot, v0; vproj; ring). rewrite !Z0, !Rplus_0_l.
  set (da := vadd (vadd (vscale (l * vdot o ha) w) (vscale A ha)) v0). set (db := vadd (vadd (vscale (l * vdot o hb) w) (vscale A hb)) v0).
  assert (Ex : vcross da db = vscale (A * j) (vadd (vscale A w) (vscale l (vsub (vscale c w) o)))).
  { transitivity (vadd (vscale (A * A) (vcross ha hb)) (vscale (A * l) (vcross w (vcross o (vcross hb ha))))); [unfold da, db; vring|].
    replace (vcross hb ha) with (vscale (-1) (vcross ha hb)) by vring. rewrite X.
    replace (vcross w (vcross o (vscale (-1) (vscale j w)))) with (vscale j (vsub (vscale (vdot o w) w) (vscale (vdot w w) o))) by vring.
    rewrite Uw. fold c. vring. }
  rewrite Ex, vnorm_scale.
  assert (Ej : vnorm (vcross ha hb) = Rabs j) by (rewrite X, vnorm_scale; apply vnorm_1_dot in Uw; rewrite Uw; apply Rmult_1_r).
  rewrite Ej in E.
  assert (Ev : vnorm (vadd (vscale A w) (vscale l (vsub (vscale c w) o))) = sqrt (A * A + l * l * (1 - c * c))).
  { unfold vnorm. f_equal. transitivity (A * A * vdot w w + 2 * A * l * (c * vdot w w - vdot o w) + l * l * (c * c * vdot w w - 2 * c * vdot o w + vdot o o)).
    - unfold vdot, vadd, vscale, vsub. vproj. ring.
    - rewrite Uw, Uo. fold c. ring. }
  rewrite Ev. assert (C1 : 0 <= 1 - c * c). { pose proof (cauchy_schwarz o w) as CS. fold c in CS. rewrite Uo, Uw in CS. lra. }
  set (S := sqrt _). assert (Ps : 0 < S). { unfold S. apply sqrt_lt_R0. assert (0 < A * A) by nra. assert (0 <= l * l * (1 - c * c)) by (apply Rmult_le_pos; nra). lra. }
  pose proof (Rabs_pos_lt A Nal) as PA. rewrite Rabs_mult. transitivity (Rabs j * g); [field; split; lra|exact E].
Qed.

Lemma half_unit_len ax ay wo a b : vdot (half ax ay wo a b) (half ax ay wo a b) = 1.
Proof. unfold half. rewrite vdot_scale_l, vdot_scale_r, vunit_dot by apply slopes_neq. pose proof (side_sq wo). lra. Qed.

Lemma parallel_same (h k : rv) p q : vdot h h = 1 -> vdot k k = 1 -> 0 < vz h * vz k -> p <> 0 -> vscale p h = vscale q k -> h = k.
Proof.
  intros Uh Uk S N E. assert (E2 : p * p = q * q).
  { pose proof (f_equal (fun v => vdot v v) E) as Q. cbv beta in Q. rewrite !vdot_scale_l, !vdot_scale_r, Uh, Uk in Q. lra. }
  assert (Z : (p - q) * (p + q) = 0) by lra. apply Rmult_integral in Z. destruct Z as [Z|Z].
  - assert (q = p) as -> by lra. apply V3_eq; [apply (f_equal (fun v : rv => vx v)) in E|apply (f_equal (fun v : rv => vy v)) in E|apply (f_equal (fun v : rv => vz v)) in E];
      unfold vscale in E; revert E; vproj; intros E; apply Rmult_eq_reg_l in E; auto.
  - exfalso. apply (f_equal (fun v : rv => vz v)) in E. unfold vscale in E. revert E. vproj. intros E. assert (q = - p) as -> by lra.
    assert (Q : p * (vz h + vz k) = 0) by lra. apply Rmult_integral in Q. destruct Q; [contradiction|]. nra.
Qed.

(** the density reported for a half vector *)
Lemma mf_pdf_fin ax ay w : 0 < ax -> 0 < ay -> vdot w w = 1 -> vz w <> 0 -> mf_pdf (mkMf (XFin ax) (XFin ay)) (fin3 w) = XFin (ggx ax ay w / Rabs (vz w)).
Proof.
  intros Hx Hy U Z. unfold mf_pdf. destruct (d_fin ax ay w Hx Hy Z) as [-> _]. rewrite rd_ggx by auto. pose proof (Rabs_pos_lt _ Z).
  unfold abs_cos_theta, fin3. vproj. xsimp. cbn [xabs]. apply xdiv_fin. lra.
Qed.

(** ** Rough reflection *)

(** [o] mirrored about the normal [h] *)
Definition mirrored (o h : rv) : rv := vsub (vscale (2 * vdot o h) h) o.

Lemma mirrored_side o h : 0 < vz o * vz h -> 0 < vz o * vz (mirrored o h) -> 0 < vdot o h.
Proof.
  intros S R. unfold mirrored, vsub, vscale in R. revert R. vproj. intros R. destruct (Rlt_le_dec 0 (vdot o h)) as [|L]; auto. exfalso.
  assert (0 <= vz o * vz o) by nra. assert (0 <= (- vdot o h) * (vz o * vz h)) by (apply Rmult_le_pos; lra). nra.
Qed.

(** The directions sampled by a rough reflection: the outgoing direction mirrored about the sampled half vector, if that is
    on the same side.  Their density is the reported one times the squared cosine of the half vector. *)
Theorem C88_reflection_partial : forall (r : V3 XR) (fresnel : XR -> V3 XR) (ax ay : R) (wo : rv), 0 < ax -> 0 < ay -> unit_dir wo -> vz wo <> 0 ->
  let m := mkMf (XFin ax) (XFin ay) in let x := microfacet_reflection r m fresnel in
  exists h : R -> R -> rv, let f a b := mirrored wo (h a b) in
    (forall a b, off_axes a b -> mf_sample_wh m (fin3 wo) (mkP2 (XFin a) (XFin b)) = fin3 (h a b)) /\
    (forall a b, off_axes a b -> vz wo * vz (f a b) <= 0 -> bx_sample_f x (fin3 wo) (mkP2 (XFin a) (XFin b)) = bx_none) /\
    (forall a b, off_axes a b -> 0 < vz wo * vz (f a b) -> exists v p,
       bx_sample_f x (fin3 wo) (mkP2 (XFin a) (XFin b)) = (fin3 (f a b), v, XFin p) /\ bx_pdf x (fin3 wo) (fin3 (f a b)) = XFin p /\
       density_at f a b (p * (vz (h a b) * vz (h a b)))) /\
    one_to_one (fun a b => off_axes a b /\ 0 < vz wo * vz (f a b)) f.
Proof.
  intros r fresnel ax ay wo Hx Hy Uo Zo m x. apply vnorm_1_dot in Uo. exists (half ax ay wo). cbv zeta.
  assert (W : forall a b, off_axes a b -> mf_sample_wh m (fin3 wo) (mkP2 (XFin a) (XFin b)) = fin3 (half ax ay wo a b)).
  { intros a b (Ha & Hb & _ & Hb2 & _). now apply sample_wh_half. }
  assert (Refl : forall h, reflect (fin3 wo) (fin3 h) = fin3 (mirrored wo h)) by (intros h; rewrite reflect_fin; f_equal; unfold mirrored; vring).
  assert (Bf : forall a b, off_axes a b -> bx_sample_f x (fin3 wo) (mkP2 (XFin a) (XFin b)) =
     if Rlt_bool 0 (vz wo * vz (mirrored wo (half ax ay wo a b)))
     then (fin3 (mirrored wo (half ax ay wo a b)), mr_f r m fresnel (fin3 wo) (fin3 (mirrored wo (half ax ay wo a b))),
           fdiv (mf_pdf m (fin3 (half ax ay wo a b))) (fmul (v3dot (fin3 (half ax ay wo a b)) (fin3 wo)) (fofZ 4))) else bx_none).
  { intros a b H. cbn [x microfacet_reflection bx_sample_f]. unfold mr_sample. rewrite (W a b H). change (vz (fin3 wo)) with (XFin (vz wo)). rewrite x_f0. xsimp. cbn [xeq].
    rewrite Req_bool_false by auto. rewrite Refl, same_hemisphere_fin. destruct (Rlt_bool 0 _); reflexivity. }
  split; [exact W|]. split; [|split].
  - intros a b H N. rewrite Bf, Rlt_bool_false by auto. reflexivity.
  - intros a b H S. rewrite Bf, Rlt_bool_true by auto. destruct (half_target ax ay wo a b Hx Hy Zo H) as (Uh & Sh & _).
    set (h := half ax ay wo a b) in *. pose proof (mirrored_side wo h Sh S) as C. assert (Zh : vz h <> 0) by (intros Z; rewrite Z in Sh; lra).
    pose proof (Rabs_pos_lt _ Zh) as Ah. set (c := vdot wo h) in *.
    assert (E4 : fdiv (mf_pdf m (fin3 h)) (fmul (v3dot (fin3 h) (fin3 wo)) (fofZ 4)) = XFin (ggx ax ay h / Rabs (vz h) / (c * 4))).
    { unfold m. rewrite mf_pdf_fin, v3dot_fin, (vdot_comm h wo) by auto. fold c. xsimp. cbn [xmul]. rewrite xdiv_fin by lra. reflexivity. }
    rewrite E4. do 2 eexists. split; [reflexivity|]. split.
    + cbn [x microfacet_reflection bx_pdf]. unfold mr_pdf. rewrite same_hemisphere_fin, Rlt_bool_true by exact S. cbn [negb]. rewrite v3add_fin.
      assert (Eh : vadd wo (mirrored wo h) = vscale (2 * c) h) by (unfold mirrored; fold c; vring).
      assert (Nh : vnorm (vscale (2 * c) h) = 2 * c).
      { rewrite vnorm_scale. assert (vnorm h = 1) as -> by now apply vnorm_1_dot. rewrite Rabs_pos_eq by lra. ring. }
      rewrite Eh, v3normalize_fin.
      2:{ intros Z. rewrite Z in Nh. unfold vnorm, vdot, v0 in Nh. cbn [vx vy vz] in Nh. rewrite !Rmult_0_l, !Rplus_0_l, sqrt_0 in Nh. lra. }
      replace (vunit (vscale (2 * c) h)) with h by (unfold vunit; rewrite Nh; apply V3_eq; unfold vscale; vproj; field; lra). exact E4.
    + assert (D1 : derivable_pt_lim (fun t => 2 * t) c 2) by apply deriv_scal.
      pose proof (bounce_density (fun t => 2 * t) 2 (-1) _ wo (half ax ay wo) a b Uo (half_unit_len ax ay wo) (half_density ax ay wo a b Hx Hy ltac:(apply H))) as B. cbv zeta in B.
      fold h c in B. specialize (B D1 ltac:(lra)). cbv beta in B. replace (2 * c * (2 * c) + 2 * 2 * (1 - c * c)) with (2 * 2) in B by ring. rewrite sqrt_square in B by lra.
      rewrite (Rabs_pos_eq (2 * c)) in B by lra.
      replace (ggx ax ay h / Rabs (vz h) / (c * 4) * (vz h * vz h)) with (ggx ax ay h * Rabs (vz h) / (2 * c * 2)).
      2:{ replace (vz h * vz h) with (Rabs (vz h) * Rabs (vz h)) by (rewrite <- Rabs_mult; apply Rabs_pos_eq; nra). field. split; lra. }
      refine (density_near _ _ a b _ 1 ltac:(lra) _ B). intros u v _ _. unfold mirrored. vring.
  - intros a b c d (H1 & S1) (H2 & S2) E. apply (half_one_to_one ax ay wo Hx Hy a b c d H1 H2).
    destruct (half_target ax ay wo a b Hx Hy Zo H1) as (U1 & T1 & _). destruct (half_target ax ay wo c d Hx Hy Zo H2) as (U2 & T2 & _).
    set (h := half ax ay wo a b) in *. set (k := half ax ay wo c d) in *. pose proof (mirrored_side wo h T1 S1) as C1.
    apply (parallel_same h k (2 * vdot wo h) (2 * vdot wo k)); auto; [|lra|].
    + assert (0 < (vz wo * vz h) * (vz wo * vz k)) by (apply Rmult_lt_0_compat; auto). assert (0 < vz wo * vz wo) by nra. nra.
    + unfold mirrored in E. apply V3_eq; [apply (f_equal (fun v : rv => vx v)) in E|apply (f_equal (fun v : rv => vy v)) in E|apply (f_equal (fun v : rv => vz v)) in E];
        unfold vsub, vscale in *; revert E; vproj; intros; lra.
Qed.
Print Assumptions C88_reflection_partial.

(** ** Rough refraction *)

(** [o] refracted at the unit normal [h], with ratio of indices [eta] *)
Definition bent (eta : R) (o h : rv) : rv :=
  vadd (vscale (eta * vdot o h - sqrt (1 - eta * eta * (1 - vdot o h * vdot o h))) h) (vscale (- eta) o).

Lemma deriv_bend eta c : eta * eta * (1 - c * c) < 1 ->
  derivable_pt_lim (fun t => eta * t - sqrt (1 - eta * eta * (1 - t * t))) c (eta - eta * eta * c / sqrt (1 - eta * eta * (1 - c * c))).
Proof.
  intros H. set (q := 1 - eta * eta * (1 - c * c)). assert (P : 0 < q) by (unfold q; lra). pose proof (sqrt_lt_R0 q P) as Ps.
  apply (derivable_pt_lim_minus (fun t => eta * t) (fun t => sqrt (1 - eta * eta * (1 - t * t)))); [apply deriv_scal|].
  replace (eta * eta * c / sqrt q) with (/ (2 * sqrt q) * (eta * eta * (2 * c))) by (field; lra).
  apply (derivable_pt_lim_comp (fun t => 1 - eta * eta * (1 - t * t)) sqrt); [|now apply derivable_pt_lim_sqrt].
  assert (D : derivable_pt_lim (fun t => (1 - eta * eta) + eta * eta * (t * t)) c (0 + eta * eta * (2 * c))).
  { apply (derivable_pt_lim_plus (fun _ => 1 - eta * eta) (fun t => eta * eta * (t * t))); [apply derivable_pt_lim_const|].
    apply (derivable_pt_lim_scal (fun t => t * t)). apply deriv_sq. }
  rewrite Rplus_0_l in D. intros eps He. destruct (D eps He) as (del & K). exists del. intros k Hk Hd. specialize (K k Hk Hd).
  replace (1 - eta * eta * (1 - (c + k) * (c + k)) - (1 - eta * eta * (1 - c * c))) with
    (1 - eta * eta + eta * eta * ((c + k) * (c + k)) - (1 - eta * eta + eta * eta * (c * c))) by ring. exact K.
Qed.

(** the reported density, for a normal on the side of the outgoing direction *)
Lemma mt_pdf_side ax ay a b o i h k : 0 < ax -> 0 < ay -> 0 < a -> 0 < b -> vdot h h = 1 -> vz h <> 0 -> vz o * vz i < 0 -> k <> 0 ->
  vadd (vscale (index_of a b o) o) (vscale (index_of a b i) i) = vscale k h ->
  mt_pdf (XFin a) (XFin b) (mkMf (XFin ax) (XFin ay)) (fin3 o) (fin3 i) =
    XFin (ggx ax ay h / Rabs (vz h) * (index_of a b i * index_of a b i * Rabs (vdot i h) / (k * k))).
Proof.
  intros Hx Hy Ha Hb Uh Zh Op Hk Sn. destruct (Rlt_le_dec 0 (vz h)) as [P|P].
  - rewrite (mt_pdf_fin ax ay a b o i h k Hx Hy Ha Hb Uh P Op Sn Hk). rewrite (Rabs_pos_eq (vz h)) by lra. reflexivity.
  - rewrite (mt_pdf_fin ax ay a b o i (vscale (-1) h) (- k) Hx Hy Ha Hb); auto.
    + rewrite ggx_opp, vdot_scale_r, Rabs_mult, (Rabs_left (-1)), (Rabs_left (vz h)) by lra. f_equal. unfold vscale. vproj. field. split; lra.
    + rewrite vdot_scale_l, vdot_scale_r, Uh. ring.
    + unfold vscale. vproj. lra.
    + rewrite Sn. vring.
    + lra.
Qed.

(** The directions sampled by a rough transmission: the outgoing direction refracted at the sampled half vector, nothing
    under total reflection.  Where they leave on the other side their density is the reported one times the squared cosine
    of the half vector; where they do not, the reported density is 0 and the sample is dropped. *)
Theorem C88_refraction_partial : forall (t : V3 XR) (ax ay ea eb : R) (wo : rv), 0 < ax -> 0 < ay -> 0 < ea -> 0 < eb -> ea <> eb -> unit_dir wo -> vz wo <> 0 ->
  let m := mkMf (XFin ax) (XFin ay) in let x := microfacet_transmission t (XFin ea) (XFin eb) m in
  let eta := if Rlt_bool 0 (vz wo) then ea / eb else eb / ea in
  exists h : R -> R -> rv, let f a b := bent eta wo (h a b) in
    let total a b := 1 <= eta * eta * (1 - vdot wo (h a b) * vdot wo (h a b)) in
    (forall a b, off_axes a b -> mf_sample_wh m (fin3 wo) (mkP2 (XFin a) (XFin b)) = fin3 (h a b)) /\
    (forall a b, off_axes a b -> total a b -> bx_sample_f x (fin3 wo) (mkP2 (XFin a) (XFin b)) = bx_none) /\
    (forall a b, off_axes a b -> ~ total a b -> exists v p,
       bx_sample_f x (fin3 wo) (mkP2 (XFin a) (XFin b)) = (fin3 (f a b), v, XFin p) /\ bx_pdf x (fin3 wo) (fin3 (f a b)) = XFin p /\
       (0 < vz wo * vz (f a b) -> p = 0) /\
       (vz wo * vz (f a b) < 0 -> density_at f a b (p * (vz (h a b) * vz (h a b))))) /\
    one_to_one (fun a b => off_axes a b /\ ~ total a b) f.
Proof.
  intros t ax ay ea eb wo Hx Hy Ha Hb Hab Uo Zo m x eta. apply vnorm_1_dot in Uo. exists (half ax ay wo). cbv zeta.
  set (no := if Rlt_bool 0 (vz wo) then ea else eb). set (ni := if Rlt_bool 0 (vz wo) then eb else ea).
  assert (Pn : 0 < no) by (unfold no; destruct (Rlt_bool 0 (vz wo)); auto). assert (Pi : 0 < ni) by (unfold ni; destruct (Rlt_bool 0 (vz wo)); auto).
  assert (Ee : eta = no / ni) by (unfold eta, no, ni; destruct (Rlt_bool 0 (vz wo)); auto).
  assert (Ne : eta * eta <> 1).
  { rewrite Ee. intros Q. assert (Q2 : no * no = ni * ni) by (replace (no * no) with (no / ni * (no / ni) * (ni * ni)) by (field; lra); rewrite Q; ring).
    assert (no = ni) by nra. unfold no, ni in H. destruct (Rlt_bool 0 (vz wo)); lra. }
  assert (Pe : 0 < eta) by (rewrite Ee; apply Rdiv_lt_0_compat; auto).
  assert (W : forall a b, off_axes a b -> mf_sample_wh m (fin3 wo) (mkP2 (XFin a) (XFin b)) = fin3 (half ax ay wo a b)).
  { intros a b (A1 & B1 & _ & B2 & _). now apply sample_wh_half. }
  assert (Al : forall c, eta * eta * (1 - c * c) < 1 -> eta * c - sqrt (1 - eta * eta * (1 - c * c)) <> 0).
  { intros c Q Z. assert (Q2 : eta * c * (eta * c) = 1 - eta * eta * (1 - c * c)).
    { replace (eta * c) with (sqrt (1 - eta * eta * (1 - c * c))) at 1 2 by lra. apply sqrt_sqrt. lra. } apply Ne. lra. }
  assert (Bf : forall a b, off_axes a b -> bx_sample_f x (fin3 wo) (mkP2 (XFin a) (XFin b)) =
     if Rle_bool 1 (eta * eta * (1 - vdot wo (half ax ay wo a b) * vdot wo (half ax ay wo a b))) then bx_none
     else (fin3 (bent eta wo (half ax ay wo a b)), mt_f t (XFin ea) (XFin eb) m (fin3 wo) (fin3 (bent eta wo (half ax ay wo a b))),
           mt_pdf (XFin ea) (XFin eb) m (fin3 wo) (fin3 (bent eta wo (half ax ay wo a b))))).
  { intros a b H. cbn [x microfacet_transmission bx_sample_f]. unfold mt_sample. rewrite (W a b H). change (vz (fin3 wo)) with (XFin (vz wo)). change (cos_theta (fin3 wo)) with (XFin (vz wo)).
    rewrite x_f0. xsimp. cbn [xeq xlt]. rewrite Req_bool_false by auto.
    assert (E2 : (if Rlt_bool 0 (vz wo) then xdiv (XFin ea) (XFin eb) else xdiv (XFin eb) (XFin ea)) = XFin eta) by (unfold eta; destruct (Rlt_bool 0 (vz wo)); apply xdiv_fin; lra).
    rewrite E2. destruct (refract_real wo (half ax ay wo a b) eta Uo (half_unit_len ax ay wo a b)) as [_ R]. rewrite R.
    destruct (Rle_bool 1 _); [reflexivity|].
    match goal with |- context [fin3 (vadd (vscale (- eta) wo) ?u)] => set (v := vadd (vscale (- eta) wo) u); assert (Eb : v = bent eta wo (half ax ay wo a b)) by (unfold v, bent; set (s := sqrt _); vring) end. rewrite Eb. reflexivity. }
  split; [exact W|]. split; [|split].
  - intros a b H T. rewrite Bf, Rle_bool_true by auto. reflexivity.
  - intros a b H T. apply Rnot_le_lt in T. rewrite Bf, Rle_bool_false by auto. destruct (half_target ax ay wo a b Hx Hy Zo H) as (Uh & Sh & _).
    set (h := half ax ay wo a b) in *. assert (Zh : vz h <> 0) by (intros Z; rewrite Z in Sh; lra). pose proof (Rabs_pos_lt _ Zh) as Ah.
    set (c := vdot wo h) in *. set (i := bent eta wo h). specialize (Al c T).
    set (s := sqrt (1 - eta * eta * (1 - c * c))) in *. assert (Ps : 0 < s) by (apply sqrt_lt_R0; lra). assert (Ss : s * s = 1 - eta * eta * (1 - c * c)) by (apply sqrt_sqrt; lra).
    set (A := eta * c - s) in *.
    assert (Ei : vdot i h = - s) by (unfold i, bent; fold c s A; rewrite vdot_add_l, !vdot_scale_l, Uh; fold c; unfold A; ring).
    assert (Sn : vadd (vscale no wo) (vscale ni i) = vscale (ni * A) h).
    { unfold i, bent. fold c s A. rewrite Ee. apply V3_eq; unfold vadd, vscale; vproj; field; lra. }
    destruct (Rtotal_order 0 (vz wo * vz i)) as [G|[G|G]].
    + (* same side *)
      exists (mt_f t (XFin ea) (XFin eb) m (fin3 wo) (fin3 i)), 0. assert (P0 : mt_pdf (XFin ea) (XFin eb) m (fin3 wo) (fin3 i) = XFin 0).
      { unfold mt_pdf. rewrite same_hemisphere_fin, Rlt_bool_true by auto. reflexivity. }
      rewrite P0. split; [reflexivity|]. split; [exact P0|]. split; [auto|lra].
    + (* along the surface: the density is some number *)
      assert (Zi : vz i = 0) by (assert (Q : vz wo * vz i = 0) by lra; apply Rmult_integral in Q; destruct Q; [contradiction|auto]).
      assert (Pf : exists p, mt_pdf (XFin ea) (XFin eb) m (fin3 wo) (fin3 i) = XFin p).
      { unfold mt_pdf. rewrite same_hemisphere_fin, Rlt_bool_false by lra. change (cos_theta (fin3 wo)) with (XFin (vz wo)). rewrite x_f0. xsimp. cbn [xlt].
        assert (E2 : (if Rlt_bool 0 (vz wo) then xdiv (XFin eb) (XFin ea) else xdiv (XFin ea) (XFin eb)) = XFin (ni / no)) by (unfold no, ni; destruct (Rlt_bool 0 (vz wo)); apply xdiv_fin; lra).
        rewrite E2, v3scale_fin, v3add_fin.
        assert (Ev : vadd wo (vscale (ni / no) i) = vscale (ni * A / no) h).
        { transitivity (vscale (/ no) (vadd (vscale no wo) (vscale ni i))); [apply V3_eq; unfold vadd, vscale; vproj; field; lra|]. rewrite Sn. apply V3_eq; unfold vscale; vproj; field; lra. }
        rewrite Ev. set (kk := ni * A / no). assert (Nk : kk <> 0) by (unfold kk, Rdiv; repeat apply Rmult_integral_contrapositive_currified; auto; try lra; apply Rinv_neq_0_compat; lra).
        assert (Nn : vscale kk h <> v0).
        { intros Z. pose proof (f_equal (fun v => vdot v v) Z) as Q. cbv beta in Q. rewrite vdot_scale_l, vdot_scale_r, Uh in Q. unfold vdot, v0 in Q. cbn [vx vy vz] in Q. nra. }
        rewrite v3normalize_fin by exact Nn. pose proof (vunit_dot _ Nn) as Uu. set (u := vunit (vscale kk h)) in *.
        assert (Eu : u = vscale (/ Rabs kk * kk) h).
        { unfold u, vunit. rewrite vnorm_scale. assert (vnorm h = 1) as -> by now apply vnorm_1_dot. rewrite Rmult_1_r. vring. }
        pose proof (Rabs_pos_lt _ Nk) as Ak. set (sg := / Rabs kk * kk) in *. assert (Sg : sg <> 0) by (unfold sg; apply Rmult_integral_contrapositive_currified; [apply Rinv_neq_0_compat; lra|auto]).
        assert (Zu : vz u <> 0) by (rewrite Eu; unfold vscale; vproj; now apply Rmult_integral_contrapositive_currified).
        unfold m. rewrite mf_pdf_fin by auto. rewrite !v3dot_fin. unfold fsq. xsimp. cbn [xmul xadd].
        assert (Ds : vdot wo u + vdot i u * (ni / no) = sg * kk).
        { rewrite Eu, !vdot_scale_r. fold c. rewrite Ei. unfold kk, A. rewrite Ee. field. split; lra. }
        rewrite Ds. assert (Q : sg * kk <> 0) by now apply Rmult_integral_contrapositive_currified.
        rewrite xdiv_fin by now apply Rmult_integral_contrapositive_currified. cbn [xabs xmul]. eexists. reflexivity. }
      destruct Pf as (p & Pf). rewrite Pf. do 2 eexists. split; [reflexivity|]. split; [exact Pf|]. split; lra.
    + assert (Op : vz wo * vz i < 0) by lra.
      assert (Io : index_of ea eb wo = no /\ index_of ea eb i = ni).
      { unfold index_of, no, ni. split; [reflexivity|]. destruct (Rlt_bool 0 (vz wo)) eqn:E1, (Rlt_bool 0 (vz i)) eqn:E2; rb; auto; exfalso; nra. }
      destruct Io as [Io Ii]. assert (NkA : ni * A <> 0) by (apply Rmult_integral_contrapositive_currified; [lra|auto]).
      pose proof (mt_pdf_side ax ay ea eb wo i h (ni * A) Hx Hy Ha Hb Uh Zh Op NkA ltac:(rewrite Io, Ii; exact Sn)) as Ep. fold m in Ep. rewrite Ii, Ei in Ep.
      rewrite Rabs_Ropp, (Rabs_pos_eq s) in Ep by lra. rewrite Ep. do 2 eexists. split; [reflexivity|]. split; [exact Ep|]. split; [lra|]. intros _.
      pose proof (deriv_bend eta c T) as D1. fold s in D1.
      pose proof (bounce_density (fun u => eta * u - sqrt (1 - eta * eta * (1 - u * u))) (eta - eta * eta * c / s) (- eta) _ wo (half ax ay wo) a b Uo (half_unit_len ax ay wo) (half_density ax ay wo a b Hx Hy ltac:(apply H))) as B.
      cbv zeta in B. fold h c in B. specialize (B D1). cbv beta in B. fold s in B. fold A in B. specialize (B Al).
      assert (Sq : A * A + (eta - eta * eta * c / s) * (eta - eta * eta * c / s) * (1 - c * c) = (A / s) * (A / s)).
      { replace (eta - eta * eta * c / s) with (- eta * A / s) by (unfold A; field; lra).
        transitivity (A * A * (s * s + eta * eta * (1 - c * c)) / (s * s)); [field; lra|]. rewrite Ss. replace (1 - eta * eta * (1 - c * c) + eta * eta * (1 - c * c)) with 1 by ring. rewrite <- Ss. field. lra. }
      rewrite Sq in B. replace (A / s * (A / s)) with (Rsqr (A / s)) in B by reflexivity. rewrite sqrt_Rsqr_abs in B.
      pose proof (Rabs_pos_lt A Al) as PA.
      replace (ggx ax ay h / Rabs (vz h) * (ni * ni * s / (ni * A * (ni * A))) * (vz h * vz h)) with (ggx ax ay h * Rabs (vz h) / (Rabs A * Rabs (A / s))).
      2:{ replace (vz h * vz h) with (Rabs (vz h) * Rabs (vz h)) by (rewrite <- Rabs_mult; apply Rabs_pos_eq; nra).
          replace (ni * A * (ni * A)) with (ni * ni * (Rabs A * Rabs A)) by (rewrite <- Rabs_mult, (Rabs_pos_eq (A * A)) by nra; ring).
          assert (Eq : Rabs (A / s) = Rabs A / s) by (unfold Rdiv; rewrite Rabs_mult, Rabs_inv, (Rabs_pos_eq s) by lra; reflexivity). rewrite Eq. field. repeat split; lra. }
      exact B.
  - intros a b c d (H1 & T1) (H2 & T2) E. apply Rnot_le_lt in T1. apply (half_one_to_one ax ay wo Hx Hy a b c d H1 H2).
    destruct (half_target ax ay wo a b Hx Hy Zo H1) as (U1 & S1 & _). destruct (half_target ax ay wo c d Hx Hy Zo H2) as (U2 & S2 & _).
    set (h := half ax ay wo a b) in *. set (k := half ax ay wo c d) in *. specialize (Al _ T1). unfold bent in E.
    set (A := eta * vdot wo h - _) in *. set (B := eta * vdot wo k - _) in *.
    apply (parallel_same h k A B); auto.
    + assert (0 < (vz wo * vz h) * (vz wo * vz k)) by (apply Rmult_lt_0_compat; auto). assert (0 < vz wo * vz wo) by nra. nra.
    + apply V3_eq; [apply (f_equal (fun v : rv => vx v)) in E|apply (f_equal (fun v : rv => vy v)) in E|apply (f_equal (fun v : rv => vz v)) in E];
        unfold vadd, vscale in *; revert E; vproj; intros; lra.
Qed.
Print Assumptions C88_refraction_partial.

(** ** The reported density is not that of the samples *)

Definition up : rv := mkV3 0 0 1.
Lemma fin3_inj (u v : rv) : fin3 u = fin3 v -> u = v.
Proof.
  destruct u as [a b c], v as [d e f]. unfold fin3. vproj. intros E.
  pose proof (f_equal (fun w : V3 XR => match vx w with XFin r => r | _ => 0 end) E) as E1. pose proof (f_equal (fun w : V3 XR => match vy w with XFin r => r | _ => 0 end) E) as E2.
  pose proof (f_equal (fun w : V3 XR => match vz w with XFin r => r | _ => 0 end) E) as E3. cbn [vx vy vz] in E1, E2, E3. now rewrite E1, E2, E3.
Qed.
Lemma up_half a b : 0 < a < 1 -> vz (half 1 1 up a b) * vz (half 1 1 up a b) = 1 - a.
Proof.
  intros Ha. rewrite half_z. assert (E : vnorm (slopes 1 1 a b) * vnorm (slopes 1 1 a b) = / (1 - a)).
  { unfold vnorm. rewrite sqrt_sqrt by (unfold vdot; nra). unfold vdot, slopes. vproj. pose proof (ratio_pos a Ha) as P. pose proof (azim_1 1 1 b) as Q.
    pose proof (sqrt_sqrt (a / (1 - a)) ltac:(lra)) as Q2. set (s := sqrt _) in *. set (c := cos _) in *. set (n := sin _) in *.
    transitivity (s * s * (c * c + n * n) + 1); [ring|]. rewrite Q, Q2. field. lra. }
  pose proof (side_sq up) as S. set (N := vnorm _) in *. assert (P : N <> 0). { intros Z. rewrite Z in E. assert (0 < / (1 - a)) by (apply Rinv_0_lt_compat; lra). lra. }
  transitivity (side up * side up * / (N * N)); [field; auto|]. rewrite S, E, Rinv_inv. ring.
Qed.
Lemma up_mirrored h : vdot h h = 1 -> vz up * vz (mirrored up h) = 2 * (vz h * vz h) - 1.
Proof. intros _. unfold mirrored, vsub, vscale, up, vdot. vproj. ring. Qed.

(** A rough reflection (roughness 1) seen from straight above, near the sample (1/4, 1/8): the sampled direction [f u v] is
    differentiable in the sample, and the reported density [p] is not its density (that is 3/4 p). *)
Theorem C88_refuted : exists (wo : rv) (f : R -> R -> rv) (a b p : R),
  let x := microfacet_reflection (fin3 (mkV3 1 1 1)) (mkMf (XFin 1) (XFin 1)) (fun _ => fin3 (mkV3 1 1 1)) in
  unit_dir wo /\ off_axes a b /\
  (exists r, 0 < r /\ forall u v, Rabs (u - a) < r -> Rabs (v - b) < r -> fst (fst (bx_sample_f x (fin3 wo) (mkP2 (XFin u) (XFin v)))) = fin3 (f u v)) /\
  snd (bx_sample_f x (fin3 wo) (mkP2 (XFin a) (XFin b))) = XFin p /\ bx_pdf x (fin3 wo) (fin3 (f a b)) = XFin p /\
  ~ density_at f a b p /\ density_at f a b (3 / 4 * p).
Proof.
  assert (U : unit_dir up) by (apply vnorm_1_dot; unfold up, vdot; vproj; ring).
  destruct (C88_reflection_partial (fin3 (mkV3 1 1 1)) (fun _ => fin3 (mkV3 1 1 1)) 1 1 up ltac:(lra) ltac:(lra) U ltac:(unfold up; vproj; lra)) as (h & W & _ & A & _).
  cbv zeta in A. assert (Hh : forall a b, off_axes a b -> h a b = half 1 1 up a b).
  { intros a b H. apply fin3_inj. rewrite <- (W a b H). destruct H as (H1 & H2 & _ & H3 & _). apply sample_wh_half; auto; try lra. unfold up; vproj; lra. }
  assert (M : forall a b, off_axes a b -> vz up * vz (mirrored up (h a b)) = 1 - 2 * a).
  { intros a b H. rewrite Hh by exact H. rewrite up_mirrored by apply half_unit_len. rewrite up_half by apply H. ring. }
  assert (O : off_axes (1 / 4) (1 / 8)) by (unfold off_axes; repeat split; lra).
  destruct (A (1 / 4) (1 / 8) O ltac:(rewrite (M _ _ O); lra)) as (v & p & E & Ep & D).
  assert (Z : vz (h (1 / 4) (1 / 8)) * vz (h (1 / 4) (1 / 8)) = 3 / 4) by (rewrite (Hh _ _ O), up_half; lra). rewrite Z, Rmult_comm in D.
  exists up, (fun a b => mirrored up (h a b)), (1 / 4), (1 / 8), p. cbv zeta. split; [exact U|]. split; [exact O|]. split; [|split; [|split; [|split]]].
  - exists (1 / 16). split; [lra|]. intros u w Hu Hw. apply Rabs_def2 in Hu, Hw. assert (Ou : off_axes u w) by (unfold off_axes; repeat split; lra).
    destruct (A u w Ou ltac:(rewrite (M _ _ Ou); lra)) as (v' & p' & E' & _). rewrite E'. reflexivity.
  - rewrite E. reflexivity.
  - exact Ep.
  - intros D'. pose proof (density_unique _ _ _ _ _ D D') as Q. assert (p = 0) as -> by lra. destruct D' as (da & db & _ & D'). lra.
  - exact D.
Qed.
Print Assumptions C88_refuted.

(** a sample of a rough surface that is accepted and one that is refracted: the theorems above apply to both *)
Example C88_example : off_axes (1 / 4) (1 / 8) /\ 0 < vz up * vz (mirrored up (half 1 1 up (1 / 4) (1 / 8))) /\
  ~ 1 <= 1 / (3 / 2) * (1 / (3 / 2)) * (1 - vdot up (half 1 1 up (1 / 4) (1 / 8)) * vdot up (half 1 1 up (1 / 4) (1 / 8))) /\
  vz up * vz (bent (1 / (3 / 2)) up (half 1 1 up (1 / 4) (1 / 8))) < 0.
Proof.
  pose proof (up_half (1 / 4) (1 / 8) ltac:(lra)) as Q. pose proof (half_unit_len 1 1 up (1 / 4) (1 / 8)) as U. set (h := half _ _ _ _ _) in *.
  assert (E : vdot up h = vz h) by (unfold up, vdot; vproj; ring).
  split; [unfold off_axes; repeat split; lra|]. split; [rewrite up_mirrored, Q by auto; lra|]. rewrite E, Q. split; [lra|].
  unfold bent. rewrite E. replace (vz up * vz _) with (1 / (3 / 2) * (vz h * vz h) - sqrt (1 - 1 / (3 / 2) * (1 / (3 / 2)) * (1 - vz h * vz h)) * vz h - 1 / (3 / 2)).
  2:{ unfold vadd, vscale, up. vproj. ring. }
  rewrite Q. assert (Pz : 0 < vz h). { unfold h. rewrite half_z. unfold side, up. vproj. rewrite Rlt_bool_true by lra. apply Rdiv_lt_0_compat; [lra|]. apply vnorm_pos, slopes_neq. }
  assert (0 <= sqrt (1 - 1 / (3 / 2) * (1 / (3 / 2)) * (1 - (1 - 1 / 4)))) by apply sqrt_pos. set (s := sqrt _) in *. assert (0 <= s * vz h) by (apply Rmult_le_pos; lra). lra.
Qed.
