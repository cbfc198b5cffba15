(** * C107: sampling a triangular lamp is integrating over its area *)
From Coq Require Import ZArith Reals List Bool Lia Lra Psatz.
From Flocq Require Import Core.
From Verif Require Import Model.Num Model.NumX Model.Vector Model.Common Model.BBox Model.Interaction Model.Shape Model.Triangle Model.Container Model.Sampler
  Model.Sampling Model.Reflection Model.Fresnel Model.Microfacet Model.BxDFs Model.Texture Model.Material Model.Light Model.Scene Model.Path.
From Verif Require Import Spec.RVec Spec.BoxSpec Spec.ShapeSpec Spec.EmissionSpec Spec.ShadeSpec Spec.RadianceSpec Spec.EstimatorSpec Spec.MeanSpec Spec.HemisphereSpec Spec.AreaSpec.
From Verif Require Import Proofs.XBase Proofs.RVecProofs Proofs.FLaws Proofs.ShadeProofs Proofs.MicroProofs Proofs.MatProofs Proofs.MeanProofs Proofs.TriangleProofs.
From Verif Require Import Proofs.ShapeProofs.
From Verif Require Proofs.HemisphereProofs Proofs.AreaProofs.
From Verif Require Import Props.Shapes Props.Estimator Props.Shading3 Props.Estimator2 Props.Transport Props.SelfHit Props.Emission.
From Verif Require Import Spec.SelfSpec Spec.AreaSpec.
Import ListNotations.
Local Open Scope R_scope.

Lemma sample_point {T} v vn rev x y : 0 <= x -> i_p (tr_sample (T := T) (mkTri (ftri v) vn rev) (mkP2 (XFin x) (XFin y))) = fin3 (corner_point v (1 - sqrt x) (y * sqrt x)).
Proof.
  intros X. destruct (tr_sample_fin (T := T) v vn rev x y X) as [P _]. cbv zeta in P. rewrite P. f_equal. rewrite AreaProofs.corner_comb. f_equal. ring.
Qed.
Lemma sample_in v x y : 0 <= x <= 1 -> 0 <= y <= 1 -> in_triangle v (corner_point v (1 - sqrt x) (y * sqrt x)).
Proof.
  intros X Y. assert (Sx : 0 <= sqrt x <= 1) by (split; [apply sqrt_pos|rewrite <- sqrt_1; apply sqrt_le_1_alt; lra]). apply AreaProofs.corner_in; nra.
Qed.

(** Points sampled on a triangle are spread evenly over its area: the average over the numbers that choose them of any continuous function of
    the point is its integral over the area, divided by the area. *)
Theorem C107_even : forall (T : Type) (v : tri rv) vn rev (F : rv -> rv), tri_area v <> 0 -> continuous_on v F ->
  exists x P, over_triangle v F x /\
    (forall a b, 0 <= a <= 1 -> 0 <= b <= 1 -> in_triangle v (P a b) /\
      i_p (tr_sample (T := T) (mkTri (mk3 (fin3 (t0 v)) (fin3 (t1 v)) (fin3 (t2 v))) vn rev) (mkP2 (XFin a) (XFin b))) = fin3 (P a b)) /\
    average2 (fun a b => F (P a b)) (vscale (/ tri_area v) x).
Proof.
  intros T v vn rev F A0 C.
  assert (Ch : forall f : rv -> R, (forall p q, Rabs (f q - f p) <= vdist p q) -> Calculus.cont2 (fun a c => f (F (AreaProofs.drawn v a c)))).
  { intros f L. apply (AreaProofs.c2_of_continuous v (fun w => f (F w))). intros p eps Hp He. destruct (C p eps Hp He) as (d & D & H). exists d. split; [exact D|].
    intros q Hq N. eapply Rle_lt_trans; [apply L|]. now apply H. }
  assert (N : forall p q : rv, Rabs (vx q - vx p) <= vdist p q /\ Rabs (vy q - vy p) <= vdist p q /\ Rabs (vz q - vz p) <= vdist p q).
  { intros p q. rewrite HemisphereProofs.vdist_sym. apply (HemisphereProofs.abs_le_norm (vsub q p)). }
  destruct (AreaProofs.triangle_average v F A0) as (x & X & V); [apply (Ch (fun w => vx w)); apply N|apply (Ch (fun w => vy w)); apply N|apply (Ch (fun w => vz w)); apply N|].
  exists x, (fun a b => corner_point v (1 - sqrt a) (b * sqrt a)). split; [exact X|]. split; [|exact V].
  intros a b Ha Hb. split; [now apply sample_in|]. apply (sample_point v vn rev a b). lra.
Qed.
Print Assumptions C107_even.

Lemma average2_scale k g x : average2 g x -> average2 (fun a b => vscale k (g a b)) (vscale k x).
Proof.
  intros (h & H1 & H2).
  assert (J : forall (g : R -> rv) x, average g x -> average (fun u => vscale k (g u)) (vscale k x)).
  { assert (S : forall f y, integral f 0 1 y -> integral (fun u => k * f u) 0 1 (k * y)).
    { intros f y Hf. replace (k * y) with (0 * (1 - 0) + k * y) by ring. apply (integral_ext (fun u => 0 + k * f u)); [lra|intros; ring|].
      apply (integral_lin (fun _ => 0) f); [apply integral_const; lra|exact Hf]. }
    intros g' x' (X & Y & Z). unfold average, vscale. vproj. repeat split; now apply S. }
  exists (fun a => vscale k (h a)). split; [intros u Hu; now apply J, H1|now apply J].
Qed.
Lemma off_plane v rev p q : height v rev p <> 0 -> in_triangle v q -> vsub q p <> v0.
Proof.
  intros Hh (b0 & b1 & b2 & W & ->) E. apply Hh. pose proof (height_comb v p b0 b1 b2 W) as H. rewrite E in H.
  unfold height, facing. fold (tnormal v). rewrite (vdot_comm (vsub p (t0 v))) in *.
  assert (Z : vdot (tnormal v) (vsub p (t0 v)) = 0) by (rewrite <- (Ropp_involutive (vdot _ _)), <- H; unfold v0, vdot; vproj; ring).
  destruct rev; [rewrite vdot_scale_l, Z; apply Rmult_0_r|exact Z].
Qed.

Lemma lamp_sampled {T} v vn rev L (r : interaction XR T) p x y : 0 <= x <= 1 -> 0 <= y <= 1 -> i_p r = fin3 p -> 0 < height v rev p -> 0 < tri_area v /\
  area_sample_li (lamp v vn rev L) r (mkP2 (XFin x) (XFin y)) =
    Ok (fin3 (vunit (vsub (corner_point v (1 - sqrt x) (y * sqrt x)) p)), fin3 L, XFin (/ tri_area v), mkVis r (tr_sample (mkTri (ftri v) vn rev) (mkP2 (XFin x) (XFin y)))).
Proof.
  intros Hx Hy Ep Hh. assert (Hv : tnormal v <> v0).
  { intros E. revert Hh. unfold height, facing. fold (tnormal v). rewrite E. destruct rev; unfold vscale, vdot, v0; vproj; lra. }
  pose proof (vnorm_pos _ Hv) as Nv. assert (A : 0 < tri_area v) by (rewrite tri_area_cross; lra). split; [exact A|].
  destruct (C84_sampled T v vn rev L r p x y Hx Hy Ep ltac:(lra)) as (q & d & s & pdf & e & E & Eq & _ & S0 & Nd & At). rewrite Rlt_bool_true in E by exact Hh.
  assert (Ee : e = tr_sample (mkTri (ftri v) vn rev) (mkP2 (XFin x) (XFin y))).
  { symmetry. exact (f_equal (fun z => match z with Ok (_, _, _, m) => v_p1 m | _ => r end) E). }
  assert (Ef : pdf = XFin (/ tri_area v)).
  { pose proof (f_equal (fun z => match z with Ok (_, _, m, _) => m | _ => XNaN end) E) as G. cbn beta iota in G. rewrite <- G. unfold area_sample_li.
    change (sh_sample_ref (al_shape (lamp v vn rev L)) r (mkP2 (XFin x) (XFin y))) with (Ok (tr_sample (T := T) (mkTri (ftri v) vn rev) (mkP2 (XFin x) (XFin y)))). cbn [rbind].
    apply (proj2 (C40_area_pdf T v vn rev r _)). lra. }
  rewrite Ee, sample_point in Eq by lra. apply fin3_inj in Eq. rewrite Eq.
  assert (Q : d = vunit (vsub q p)).
  { assert (Z : vsub q p = vscale s d) by (rewrite At; apply V3_eq; unfold at_t, vsub, vadd, vscale; vproj; ring).
    rewrite Z. unfold vunit. assert (Ns : vnorm (vscale s d) = s).
    { unfold vnorm. rewrite vdot_scale_l, vdot_scale_r. apply vnorm_1_dot in Nd. rewrite Nd. replace (s * (s * 1)) with (s * s) by ring. apply sqrt_square; lra. }
    rewrite Ns. apply V3_eq; unfold vscale; vproj; field; lra. }
  rewrite <- Q, E, Ee, Ef. reflexivity.
Qed.

Lemma matte_pdf {T} (i : interaction XR T) n du wo w k : i_sn i = fin3 n -> i_dpdu i = fin3 du -> du <> v0 -> 0 < vdot w n * vdot wo n ->
  bsdf_pdf (bsdf_add (bsdf_new i) (lambertian (fin3 k))) (fin3 wo) (fin3 w) = XFin (Rabs (vdot w n) / PI).
Proof.
  intros En Ed D0 P. pose proof PI_RGT_0 as PP. set (b := bsdf_add _ _). assert (Fr : frame_is b (vunit du) (vcross n (vunit du)) n) by exact (bsdf_new_frame i n du En Ed D0).
  unfold bsdf_pdf. rewrite !(world_to_local_fin b _ _ _ _ Fr). change (bs_bxdfs b) with [lambertian (fin3 k)]. cbn [length Z.of_nat Z.eqb fold_left].
  change (Z.of_nat 1) with 1%Z. cbn [Z.eqb].
  assert (Zo : forall a, vz (rW (vunit du) (vcross n (vunit du)) n a) = vdot a n) by reflexivity.
  change (feq (vz (fin3 (rW (vunit du) (vcross n (vunit du)) n wo))) f0) with (Req_bool (vdot wo n) 0). rewrite Req_bool_false by nra.
  cbn [lambertian bx_pdf]. unfold lamb_pdf. rewrite same_hemisphere_fin, !Zo. rewrite Rlt_bool_true by nra.
  unfold abs_cos_theta. change (vz (fin3 (rW (vunit du) (vcross n (vunit du)) n w))) with (XFin (vdot w n)). rewrite x_f0. xsimp. cbn [xabs].
  change (@fpi XR _) with (XFin PI). change (Pos.of_succ_nat 0) with 1%positive. rewrite (xdiv_fin _ PI) by lra. cbn [xadd]. rewrite xdiv_fin by lra. f_equal. field. lra.
Qed.

(** What a triangular lamp with radiance [L] gives a matt surface in front of it, by points sampled on the lamp: on average the integral over
    the area of the lamp of cosine x reflectance / pi x radiance x the power heuristic's share of the way of sampling. *)
Theorem C107_lamp : forall (T : Type) (sc : scene XR T (container XR T)) (me : T) (v : tri rv) vn rev (L : rv) (i : interaction XR T) (p n gn du wo k : rv) kd,
  i_p i = fin3 p -> i_sn i = fin3 n -> i_n i = fin3 gn -> i_dpdu i = fin3 du -> i_wo i = fin3 wo -> du <> v0 ->
  kd i = Ok (fin3 k) -> each (fun x => 0 <= x) k -> 0 < height v rev p ->
  (forall q, in_triangle v q -> 0 < vdot (vsub q p) n * vdot wo n /\ 0 < vdot (vsub q p) gn * vdot wo gn) ->
  (forall a b, 0 < a < 1 -> 0 < b < 1 ->
    unoccluded (scene_intersect_p sc) (mkVis i (tr_sample (mkTri (mk3 (fin3 (t0 v)) (fin3 (t1 v)) (fin3 (t2 v))) vn rev) (mkP2 (XFin a) (XFin b)))) = Ok true) ->
  exists B g x, mat_lambertian kd i = Ok B /\ average2 g x /\
    over_triangle v (fun q => let c := Rabs (vdot (vunit (vsub q p)) n) in vscale (c * share (/ tri_area v) (c / PI)) (vprod (vscale (/ PI) k) L)) x /\
    forall a b ld, 0 < a < 1 -> 0 < b < 1 ->
      direct_light sc (area_as_light me (lamp v vn rev L)) i B (mkP2 (XFin a) (XFin b)) (fin3 ld) = Ok (fin3 (vadd ld (g a b))).
Proof.
  intros T sc me v vn rev L i p n gn du wo k kd Ep En Eg Ed Ew D0 Ek Kn Hh Sd Un. pose proof PI_RGT_0 as PP.
  set (A := tri_area v). assert (HA : 0 < A) by (apply (lamp_sampled v vn rev L i p 0 0); auto; lra).
  set (G := fun q => let c := Rabs (vdot (vunit (vsub q p)) n) in vscale (c * share (/ A) (c / PI)) (vprod (vscale (/ PI) k) L)).
  destruct (AreaProofs.triangle_average v G) as (x & X & V); [fold A; lra|..].
  1-3: pose proof (AreaProofs.c2_lamp v p n A HA (fun q Hq => off_plane v rev p q (Rgt_not_eq _ _ Hh) Hq)) as C; unfold G, vscale, vprod; vproj;
    apply Calculus.c2_mult; [exact C|apply Calculus.c2_const].
  set (B := if negb (is_black (fin3 k)) then bsdf_add (bsdf_new i) (lambertian (fin3 k)) else bsdf_new i).
  assert (EB : mat_lambertian kd i = Ok B) by (unfold mat_lambertian; rewrite (tex_clamped_nn kd i k Ek Kn); reflexivity).
  exists B, (fun a b => vscale A (G (corner_point v (1 - sqrt a) (b * sqrt a)))), x. split; [exact EB|]. split; [|split; [exact X|]].
  { replace x with (vscale A (vscale (/ A) x)) by (apply V3_eq; unfold vscale; vproj; field; lra). apply average2_scale. exact V. }
  intros a b ld Ha Hb. destruct (lamp_sampled v vn rev L i p a b ltac:(lra) ltac:(lra) Ep Hh) as (_ & Es). fold A in Es.
  set (q := corner_point v (1 - sqrt a) (b * sqrt a)) in *. assert (Q : in_triangle v q) by (apply sample_in; lra).
  specialize (Un a b Ha Hb). destruct (Sd q Q) as (S1 & S2). pose proof (off_plane v rev p q (Rgt_not_eq _ _ Hh) Q) as Nq. pose proof (vnorm_pos _ Nq) as Pq.
  assert (Pi : 0 < / vnorm (vsub q p)) by now apply Rinv_0_lt_compat.
  assert (S1' : 0 < vdot (vunit (vsub q p)) n * vdot wo n) by (rewrite vunit_dot_l; nra).
  assert (S2' : 0 < vdot (vunit (vsub q p)) gn * vdot wo gn) by (rewrite vunit_dot_l; nra).
  assert (Wn : vdot wo n <> 0) by nra.
  pose proof (C80_matte T i n gn du wo (vunit (vsub q p)) k kd B En Eg Ed D0 Ek Kn EB Wn) as Ef. rewrite Rlt_bool_true in Ef by exact S2'.
  unfold direct_light, area_as_light. cbn [l_sample_li l_is_delta]. rewrite Es. cbn [rbind]. rewrite Ew, Ef, En, v3dot_fin. xsimp. cbn [xabs]. rewrite v3scale_fin.
  set (c := Rabs (vdot (vunit (vsub q p)) n)). set (f := vscale c (vscale (/ PI) k)).
  assert (IA : 0 < / A) by now apply Rinv_0_lt_compat.
  rewrite x_f0. cbn [xlt]. rewrite Rlt_bool_true by exact IA. cbn [andb].
  assert (Gq : G q = vscale (share (/ A) (c / PI)) (vprod f L)) by (unfold G, f; cbv zeta; fold c; apply V3_eq; unfold vscale, vprod; vproj; ring).
  destruct (is_black (fin3 L)) eqn:BL; cbn [negb].
  { apply black_fin, fin3_0 in BL. f_equal. f_equal. rewrite Gq, BL. unfold vprod. vring. }
  destruct (is_black (fin3 f)) eqn:Bf; cbn [negb].
  { apply black_fin, fin3_0 in Bf. f_equal. f_equal. rewrite Gq, Bf. unfold vprod. vring. }
  change (mk3 (fin3 (t0 v)) (fin3 (t1 v)) (fin3 (t2 v))) with (ftri v) in Un. rewrite Un. cbn [rbind].
  assert (K0 : k <> v0).
  { intros E. assert (f = v0) as -> by (unfold f; rewrite E; unfold v0; apply V3_eq; unfold vscale; vproj; ring).
    revert Bf. unfold is_black, fin3, v0. vproj. rewrite x_f0. xsimp. cbn [xeq]. rewrite Req_bool_true by reflexivity. discriminate. }
  unfold B. rewrite (not_black k K0). cbn [negb]. rewrite (matte_pdf i n du wo _ k En Ed D0 S1'). fold c.
  rewrite heuristic_fin by exact IA. rewrite v3mul_fin, v3scale_fin, v3divs_fin, v3add_fin by lra. f_equal. f_equal. f_equal. rewrite Gq. unfold share.
  apply V3_eq; unfold vscale, vprod, vmul; vproj; rewrite Rinv_inv by lra; ring.
Qed.
Print Assumptions C107_lamp.

(** the point of a triangle itself: its average is the centre of gravity *)
Lemma ex_tri_normal : tnormal ex_tri = mkV3 0 0 2.
Proof. unfold tnormal, ex_tri, vcross, vsub. cbn [t0 t1 t2]. apply V3_eq; vproj; ring. Qed.
Example C107_even_example : tri_area ex_tri <> 0 /\ continuous_on ex_tri (fun q => q).
Proof.
  split; [destruct C40_example as (_ & ->); lra|]. intros p eps _ He. exists eps. auto.
Qed.

(** A lamp in the plane z = 0 facing up, and above it a grey surface facing down; the only thing in the scene is the lamp itself. *)
Definition ex_ceiling : interaction XR unit :=
  mkI (fin3 (mkV3 0 0 1)) (fin3 v0) (mkP2 f0 f0) (fin3 (mkV3 0 0 (-1))) (fin3 (mkV3 0 0 (-1))) (fin3 (mkV3 1 0 0)) (fin3 (mkV3 0 1 0)) (fin3 (mkV3 0 0 (-1))) (Some tt).
Definition ex_lit : scene XR unit (container XR unit) :=
  mkScene [area_as_light tt (lamp ex_tri None false ex_glow)]
    (mkCont (bbox_new v3zero v3zero) (tr_intersect_p (mkTri (ftri ex_tri) None false)) (fun r => let! h := tr_intersect (mkTri (ftri ex_tri) None false) r in Ok (option_map fst h))).
Lemma ex_flat q : in_triangle ex_tri q -> vz q = 0.
Proof. intros (b0 & b1 & b2 & _ & ->). unfold comb, ex_tri, vadd, vscale. cbn [t0 t1 t2]. vproj. ring. Qed.
Lemma ex_sampled a b : 0 <= a <= 1 -> 0 <= b <= 1 -> exists q e, in_triangle ex_tri q /\ known (tr_sample (T := unit) (mkTri (ftri ex_tri) None false) (mkP2 (XFin a) (XFin b))) q e (mkV3 0 0 1) /\ vz e = 0.
Proof.
  intros Ha Hb. set (q := corner_point ex_tri (1 - sqrt a) (b * sqrt a)).
  assert (N2 : vnorm (mkV3 0 0 2) = 2) by (unfold vnorm, vdot; vproj; replace (0 * 0 + 0 * 0 + 2 * 2) with (2 * 2) by ring; apply sqrt_square; lra).
  destruct (tr_sample_fin (T := unit) ex_tri None false a b (proj1 Ha)) as (_ & N). cbv zeta in N. rewrite ex_tri_normal in N.
  assert (Un : vunit (mkV3 0 0 2) = mkV3 0 0 1) by (unfold vunit; rewrite N2; apply V3_eq; unfold vscale; vproj; field). rewrite Un in N.
  specialize (N ltac:(intros E; apply (f_equal vz) in E; revert E; unfold v0; vproj; lra)).
  pose proof (sample_point (T := unit) ex_tri None false a b (proj1 Ha)) as P. fold q in P.
  assert (Er : exists e, i_p_err (tr_sample (T := unit) (mkTri (ftri ex_tri) None false) (mkP2 (XFin a) (XFin b))) = fin3 e /\ each (fun x => 0 <= x) e /\ vz e = 0).
  { unfold tr_sample. cbn [i_p_err tr_v px py]. rewrite x_f1. xsimp. rewrite xsqrt_fin by lra. cbn [xsub xmul].
    match goal with |- context [bary_err _ (XFin ?b0) (XFin ?b1) (XFin ?b2)] => destruct (bary_err_fin ex_tri b0 b1 b2) as (e & Ee & E0) end.
    exists e. split; [exact Ee|]. split; [exact E0|]. revert Ee. unfold bary_err, ftri, ex_tri. cbn [t0 t1 t2]. xsimp. rewrite !v3scale_fin. rewrite gamma_fin by lra. rewrite !v3abs_fin, !v3add_fin, v3scale_fin.
    intros Ee. apply fin3_inj in Ee. rewrite <- Ee. unfold vadd, vscale. vproj. rewrite !Rmult_0_r, Rabs_R0. ring. }
  destruct Er as (e & Ee & E0 & Ez). exists q, e. split; [apply sample_in; lra|]. split; [|exact Ez].
  split; [exact P|]. split; [exact Ee|]. split; [exact N|]. split; [exact E0|]. apply vnorm_1_dot. unfold vdot. vproj. ring.
Qed.
Example C107_lamp_example : 0 < height ex_tri false (mkV3 0 0 1) /\
  (forall q, in_triangle ex_tri q -> 0 < vdot (vsub q (mkV3 0 0 1)) (mkV3 0 0 (-1)) * vdot (mkV3 0 0 (-1)) (mkV3 0 0 (-1))) /\
  (forall a b, 0 < a < 1 -> 0 < b < 1 ->
    unoccluded (scene_intersect_p ex_lit) (mkVis ex_ceiling (tr_sample (mkTri (mk3 (fin3 (t0 ex_tri)) (fin3 (t1 ex_tri)) (fin3 (t2 ex_tri))) None false) (mkP2 (XFin a) (XFin b)))) = Ok true) /\
  exists B g x, mat_lambertian (constant_texture (fin3 ex_grey)) ex_ceiling = Ok B /\ average2 g x /\
    forall a b ld, 0 < a < 1 -> 0 < b < 1 ->
      direct_light ex_lit (area_as_light tt (lamp ex_tri None false ex_glow)) ex_ceiling B (mkP2 (XFin a) (XFin b)) (fin3 ld) = Ok (fin3 (vadd ld (g a b))).
Proof.
  set (p := mkV3 0 0 1). assert (Hh : 0 < height ex_tri false p).
  { unfold height, facing. fold (tnormal ex_tri). rewrite ex_tri_normal. unfold vdot, vsub, p, ex_tri. cbn [t0]. vproj. lra. }
  assert (Sd : forall q, in_triangle ex_tri q -> 0 < vdot (vsub q p) (mkV3 0 0 (-1)) * vdot (mkV3 0 0 (-1)) (mkV3 0 0 (-1))).
  { intros q Hq. apply ex_flat in Hq. unfold vdot, vsub, p. vproj. rewrite Hq. lra. }
  assert (Un : forall a b, 0 < a < 1 -> 0 < b < 1 ->
    unoccluded (scene_intersect_p ex_lit) (mkVis ex_ceiling (tr_sample (mkTri (mk3 (fin3 (t0 ex_tri)) (fin3 (t1 ex_tri)) (fin3 (t2 ex_tri))) None false) (mkP2 (XFin a) (XFin b)))) = Ok true).
  { intros a b Ha Hb. change (mk3 (fin3 (t0 ex_tri)) (fin3 (t1 ex_tri)) (fin3 (t2 ex_tri))) with (ftri ex_tri).
    destruct (ex_sampled a b ltac:(lra) ltac:(lra)) as (q & e & Hq & K & Ez). set (j := tr_sample _ _) in *. pose proof (ex_flat q Hq) as Zq.
    unfold unoccluded, scene_intersect_p. cbn [v_p0 v_p1 ex_lit sc_shapes c_intersect_p].
    assert (Ki : known ex_ceiling p v0 (mkV3 0 0 (-1))).
    { split; [reflexivity|]. split; [reflexivity|]. split; [reflexivity|]. split; [unfold each, v0; vproj; lra|]. apply vnorm_1_dot. unfold vdot. vproj. ring. }
    assert (Ti : thickness (mkV3 0 0 (-1)) v0 = 0) by (unfold thickness, v0; vproj; ring).
    assert (Tj : thickness (mkV3 0 0 1) e = 0) by (unfold thickness; vproj; rewrite Ez, Rabs_R0; ring).
    assert (Ej : i_p j = fin3 q) by apply K.
    unfold spawn_ray_to. rewrite Ej. change (i_p ex_ceiling) with (fin3 p). rewrite v3sub_fin, v3neg_fin.
    rewrite (proj2 (origin_at ex_ceiling p v0 _ (vsub q p) Ki)), (proj2 (origin_at j q e _ (vscale (-1) (vsub q p)) K)), Ti, Tj.
    assert (O0 : forall (r n : rv) (c : Prop) (d : {c} + {~ c}), vadd r (vscale (if d then - 0 else 0) n) = r) by (intros; destruct d; apply V3_eq; unfold vadd, vscale; vproj; ring).
    rewrite !O0, v3sub_fin.
    assert (Et : fsub (f1 : XR) (flit 1 4) = XFin (9999 / 10000)).
    { unfold f1, flit. xsimp. cbn [Z.of_nat]. rewrite xdiv_fin by (apply not_0_IZR; discriminate). cbn [xsub xadd xneg]. apply (f_equal XFin). simpl. lra. }
    rewrite Et. destruct Hq as (b0 & b1 & b2 & (_ & _ & _ & Sb) & Eq).
    change (mkTri (ftri ex_tri) None false) with (fin_tri ex_tri None false). rewrite (not_hit ex_tri None false p (vsub q p) (XFin (9999 / 10000)) (mkV3 0 0 1) b0 b1 b2); [reflexivity|..].
    - intros E. apply (f_equal vz) in E. revert E. unfold vsub, p, v0. vproj. rewrite Zq. lra.
    - reflexivity.
    - split; [apply vnorm_1_dot; unfold vdot; vproj; ring|]. unfold ex_tri, vdot, vsub. cbn [t0 t1 t2]. vproj. split; ring.
    - exact Sb.
    - intros x Hx Hm _. rewrite <- Eq. cbn [xle] in Hm. rb. unfold at_t, vdot, vsub, vadd, vscale, p. vproj. rewrite Zq. lra. }
  split; [exact Hh|]. split; [exact Sd|]. split; [exact Un|].
  assert (D0 : mkV3 1 0 0 <> v0) by (intros E; apply (f_equal vx) in E; revert E; unfold v0; vproj; lra).
  destruct (C107_lamp unit ex_lit tt ex_tri None false ex_glow ex_ceiling p (mkV3 0 0 (-1)) (mkV3 0 0 (-1)) (mkV3 1 0 0) (mkV3 0 0 (-1)) ex_grey (constant_texture (fin3 ex_grey))
    eq_refl eq_refl eq_refl eq_refl eq_refl D0 eq_refl ltac:(unfold each, ex_grey; vproj; lra) Hh (fun q Hq => conj (Sd q Hq) (Sd q Hq)) Un) as (B & g & x & EB & V & _ & D).
  exists B, g, x. auto.
Qed.
