(** * C93 for scenes of triangles that are matt or mirrors *)
From Coq Require Import ZArith Reals List Bool Lia Lra Psatz.
From Flocq Require Import Core.
From Verif Require Import Model.Num Model.NumX Model.Vector Model.Common Model.BBox Model.Interaction Model.Shape Model.Triangle Model.Container Model.Sampler
  Model.Sampling Model.Reflection Model.Fresnel Model.Microfacet Model.BxDFs Model.Texture Model.Material Model.Light Model.Scene Model.Path.
From Verif Require Import Spec.RVec Spec.ShapeSpec Spec.SamplerSpec Spec.ShadeSpec Spec.RadianceSpec Spec.EstimatorSpec Spec.PassiveSpec.
From Verif Require Import Proofs.XBase Proofs.RVecProofs Proofs.TriangleProofs Proofs.ShadeProofs Proofs.MatProofs Proofs.MicroProofs.
From Verif Require Import Props.Shapes Props.Shading1 Props.Shading2 Props.Shading3 Props.Frames Props.Radiance Props.Radiance2 Props.Estimator Props.Estimator2 Props.Passive.
Import ListNotations.
Local Open Scope R_scope.

(** a finite spectrum with all channels between 0 and [m] *)
Definition ub (m : R) (v : V3 XR) : Prop := exists r, v = fin3 r /\ upto m r.

Lemma ub_zero m : 0 <= m -> ub m v3zero.
Proof. intros H. exists v0. split; [reflexivity|]. unfold upto, v0. vproj. lra. Qed.
Lemma ub_add a b v w : ub a v -> ub b w -> ub (a + b) (v3add v w).
Proof. intros (r & -> & R) (q & -> & Q). rewrite v3add_fin. eexists. split; [reflexivity|]. revert R Q. unfold upto, vadd. vproj. lra. Qed.
Lemma ub_mul a b v w : 0 <= a -> 0 <= b -> ub a v -> ub b w -> ub (a * b) (v3mul v w).
Proof.
  intros A B (r & -> & R1 & R2 & R3) (q & -> & Q1 & Q2 & Q3). rewrite v3mul_fin. eexists. split; [reflexivity|]. unfold upto, vprod. vproj.
  repeat split; try (apply Rmult_le_pos; lra); apply Rmult_le_compat; lra.
Qed.
Lemma ub_scale a c k v : 0 <= a -> 0 <= k <= c -> ub a v -> ub (a * c) (v3scale v (XFin k)).
Proof.
  intros A K (r & -> & R1 & R2 & R3). rewrite v3scale_fin. eexists. split; [reflexivity|]. unfold upto, vscale. vproj.
  repeat split; try (apply Rmult_le_pos; lra); rewrite Rmult_comm; apply Rmult_le_compat; lra.
Qed.
Lemma ub_divs a c p v : 0 <= a -> 0 < p -> / p <= c -> ub a v -> ub (a * c) (v3divs v (XFin p)).
Proof.
  intros A P C (r & -> & R1 & R2 & R3). rewrite v3divs_fin by lra. assert (0 < / p) by now apply Rinv_0_lt_compat. eexists. split; [reflexivity|]. unfold upto, vscale. vproj.
  repeat split; try (apply Rmult_le_pos; lra); rewrite Rmult_comm; apply Rmult_le_compat; lra.
Qed.
Lemma ub_le a b v : a <= b -> ub a v -> ub b v.
Proof. intros H (r & -> & R). exists r. split; [reflexivity|]. revert R. unfold upto. lra. Qed.
Lemma heuristic_le p q : 0 < p -> exists w, power_heuristic 1 (XFin p) 1 (XFin q) = XFin w /\ 0 <= w <= 1.
Proof.
  intros P. rewrite heuristic_fin by exact P. eexists. split; [reflexivity|]. assert (0 < p * p) by nra. assert (0 <= q * q) by nra.
  assert (I : 0 < / (p * p + q * q)) by (apply Rinv_0_lt_compat; lra). split; [apply Rmult_le_pos; lra|].
  apply (Rmult_le_reg_r (p * p + q * q)); [lra|]. unfold Rdiv. rewrite Rmult_assoc, Rinv_l by lra. lra.
Qed.

(** ** one surface *)
Section M.
  Context {T : Type}.
  Variables (i : interaction XR T) (n du : rv).
  Hypothesis En : i_sn i = fin3 n.
  Hypothesis Ed : i_dpdu i = fin3 du.
  Hypothesis D0 : du <> v0.
  Hypothesis Nn : vnorm n = 1.
  Hypothesis Pd : vdot n du = 0.

  Definition weighs (b : bsdf XR) (wo : V3 XR) : Prop := forall u wi f pdf flag, in_unit (px u) -> in_unit (py u) ->
    bsdf_sample_f b wo u = Ok (wi, f, pdf, flag) -> feq pdf f0 = false ->
    exists d fr p, wi = fin3 d /\ f = fin3 fr /\ pdf = XFin p /\ 0 < p /\ upto 1 (vscale (Rabs (vdot d n) / p) fr).

  Lemma no_sample_not wi f pdf flag (r : res (V3 XR * V3 XR * XR * Z)) : r = Ok no_sample -> r = Ok (wi, f, pdf, flag) -> feq pdf f0 = false -> False.
  Proof.
    intros -> E. unfold no_sample in E. assert (Q : pdf = f0) by congruence. rewrite Q, x_f0. xsimp. cbn [xeq]. rewrite Req_bool_true; [discriminate|reflexivity].
  Qed.
  Lemma level_sample x (o : rv) u : vdot o n = 0 -> in_unit (px u) -> bsdf_sample_f (bsdf_add (bsdf_new i) x) (fin3 o) u = Ok no_sample.
  Proof.
    intros Ho U. unfold bsdf_sample_f. set (B := bsdf_add (bsdf_new i) x).
    pose proof (bsdf_new_frame i n du En Ed D0) as Fr. assert (Fb : frame_is B (vunit du) (vcross n (vunit du)) n) by exact Fr.
    change (bs_bxdfs B) with [x]. change (Z.of_nat (length [x])) with 1%Z. cbn [Z.eqb].
    destruct (in_unit_fin _ U) as (a & -> & Ha). destruct (C51_exact 1 a ltac:(lia) Ha) as (k & Ek & Hk & _). assert (K0 : k = 0%Z) by lia. rewrite Ek, K0.
    cbn [idx Z.ltb Z.compare Z.to_nat nth_error rbind]. rewrite (world_to_local_fin B _ _ _ o Fb). rewrite feq_vz.
    change (vz (rW (vunit du) (vcross n (vunit du)) n o)) with (vdot o n). rewrite Req_bool_true by exact Ho. reflexivity.
  Qed.

  (** what a texture leaves after clamping *)
  Lemma pale_clamped (t : texture XR T (V3 XR)) v : yields pale t -> tex_clamped t i = Ok v -> exists k, v = fin3 k /\ upto 1 k.
  Proof.
    intros Y. unfold tex_clamped. destruct (t i) as [u| |] eqn:E; cbn [rbind]; try discriminate. intros Ev. destruct (Y i u E) as (r & -> & R1 & R2 & R3).
    assert (Q : v = spectrum_clamp (fin3 r) f0 finf) by congruence. rewrite Q, spectrum_clamp_fin. eexists. split; [reflexivity|]. unfold upto. vproj.
    repeat split; try apply Rmax_l; apply Rmax_lub; lra.
  Qed.
  Lemma black_cases (k : rv) : k = v0 /\ is_black (fin3 k) = true \/ k <> v0 /\ is_black (fin3 k) = false.
  Proof. destruct (v0_dec k) as [E|E]; [left; rewrite E; split; [reflexivity|apply black_zero]|right; split; [exact E|now apply not_black]]. Qed.

  Lemma bare_f wo wi : bsdf_f (bsdf_new i) wo wi = v3zero.
  Proof. unfold bsdf_f. now destruct (feq _ _). Qed.
  Lemma one_f x (o w : rv) m : 0 <= m -> (forall a b, ub m (bx_f x a b)) -> ub m (bsdf_f (bsdf_add (bsdf_new i) x) (fin3 o) (fin3 w)).
  Proof.
    intros Hm Hx. unfold bsdf_f. destruct (feq _ _); [now apply ub_zero|]. unfold bsdf_sum. cbn [bsdf_add bsdf_new bs_bxdfs app fold_left].
    destruct (_ || _); [|now apply ub_zero]. apply (ub_le (0 + m)); [lra|]. apply ub_add; [apply ub_zero; lra|apply Hx].
  Qed.

  Lemma plain_facts (m : material XR T) b (o : rv) : plain m -> m i = Ok b -> vdot o o = 1 ->
    (forall w : rv, ub (/ PI) (bsdf_f b (fin3 o) (fin3 w))) /\ weighs b (fin3 o).
  Proof.
    intros Hm Eb Uo. pose proof PI_RGT_0 as Ppi. assert (Ip : 0 < / PI) by now apply Rinv_0_lt_compat.
    assert (Bare : weighs (bsdf_new i) (fin3 o)).
    { intros u wi f pdf flag _ _ E P0. exfalso. apply (no_sample_not wi f pdf flag (bsdf_sample_f (bsdf_new i) (fin3 o) u)); [reflexivity|exact E|exact P0]. }
    assert (One : forall x, (forall a c, 0 <= a < 1 -> 0 <= c < 1 -> vdot o n <> 0 -> exists w f p flag,
        bsdf_sample_f (bsdf_add (bsdf_new i) x) (fin3 o) (mkP2 (XFin a) (XFin c)) = Ok (w, f, XFin p, flag) /\
        (p = 0 \/ 0 < p /\ exists w' f', w = fin3 w' /\ f = fin3 f' /\ upto 1 (vscale (Rabs (vdot w' n) / p) f'))) ->
      weighs (bsdf_add (bsdf_new i) x) (fin3 o)).
    { intros x Hx u wi f pdf flag U1 U2 E P0. destruct (Req_dec (vdot o n) 0) as [Z|Z].
      - exfalso. apply (no_sample_not wi f pdf flag _ (level_sample x o u Z U1) E P0).
      - destruct (in_unit_fin _ U1) as (a & Ea & Ha). destruct (in_unit_fin _ U2) as (c & Ec & Hc). destruct u as [ux uy]. cbn [px py] in Ea, Ec. rewrite Ea, Ec in E.
        destruct (Hx a c Ha Hc Z) as (w & g & p & fl & E' & D). rewrite E in E'. assert (Q : wi = w /\ f = g /\ pdf = XFin p) by (injection E'; auto). destruct Q as (-> & -> & ->).
        destruct D as [-> | (Pp & w' & f' & -> & -> & D)].
        + exfalso. revert P0. rewrite x_f0. xsimp. cbn [xeq]. rewrite Req_bool_true; [discriminate|reflexivity].
        + exists w', f', p. auto. }
    destruct Hm as [kd Y|kr Y].
    - unfold mat_lambertian in Eb. destruct (tex_clamped kd i) as [v| |] eqn:Ev; cbn [rbind] in Eb; try discriminate.
      destruct (pale_clamped kd v Y Ev) as (k & -> & U). destruct (black_cases k) as [(_ & Bk)|(K0 & Bk)]; rewrite Bk in Eb; cbn [negb] in Eb.
      + assert (b = bsdf_new i) as -> by congruence. split; [|exact Bare]. intros w. rewrite bare_f. apply ub_zero. lra.
      + assert (b = bsdf_add (bsdf_new i) (lambertian (fin3 k))) as -> by congruence. split.
        * intros w. apply one_f; [lra|]. intros x y. cbn [lambertian bx_f]. unfold lamb_f. replace (/ PI) with (1 * / PI) by lra.
          change (@fpi XR _) with (XFin PI). apply ub_divs; [lra|exact Ppi|lra|]. exists k. auto.
        * apply One. intros a c Ha Hc Z.
          assert (Kn : each (fun x => 0 <= x) k) by (unfold each; unfold upto in U; tauto).
          destruct (C83_matte T i n du o k a c (constant_texture (fin3 k)) En Ed D0 Nn Pd Z Ha Hc eq_refl Kn K0) as (B & w & f & p & flag & Eb' & Es & D).
          assert (B = bsdf_add (bsdf_new i) (lambertian (fin3 k))) as ->.
          { unfold mat_lambertian in Eb'. rewrite (tex_clamped_nn (constant_texture (fin3 k)) i k eq_refl Kn) in Eb'. cbn [rbind] in Eb'. rewrite Bk in Eb'. cbn [negb] in Eb'. congruence. }
          exists w, f, p, flag. split; [exact Es|]. destruct D as [[D _]|(Pp & w' & f' & -> & -> & D)]; [left; exact D|right].
          split; [exact Pp|]. exists w', f'. rewrite D. auto.
    - unfold mat_mirror in Eb. destruct (tex_clamped kr i) as [v| |] eqn:Ev; cbn [rbind] in Eb; try discriminate.
      destruct (pale_clamped kr v Y Ev) as (k & -> & U). destruct (black_cases k) as [(_ & Bk)|(K0 & Bk)]; rewrite Bk in Eb; cbn [negb] in Eb.
      + assert (b = bsdf_new i) as -> by congruence. split; [|exact Bare]. intros w. rewrite bare_f. apply ub_zero. lra.
      + assert (b = bsdf_add (bsdf_new i) (specular_reflection (fin3 k) fresnel_noop)) as -> by congruence. split.
        * intros w. apply one_f; [lra|]. intros x y. apply ub_zero. lra.
        * apply One. intros a c Ha Hc Z.
          assert (Kn : each (fun x => 0 <= x) k) by (unfold each; unfold upto in U; tauto).
          destruct (C83_mirror T i n du o k a c (constant_texture (fin3 k)) En Ed D0 Nn Pd Z Ha eq_refl Kn K0) as (B & w & f & flag & Eb' & Es & D).
          assert (B = bsdf_add (bsdf_new i) (specular_reflection (fin3 k) fresnel_noop)) as ->.
          { unfold mat_mirror in Eb'. rewrite (tex_clamped_nn (constant_texture (fin3 k)) i k eq_refl Kn) in Eb'. cbn [rbind] in Eb'. rewrite Bk in Eb'. cbn [negb] in Eb'. congruence. }
          exists (fin3 w), (fin3 f), 1, flag. split; [exact Es|]. right. split; [lra|]. exists w, f. rewrite D. auto.
  Qed.
End M.

(** ** the scene *)
Lemma plain_usual {T} (m : material XR T) : plain m -> usual_material m.
Proof. intros [kd Y|kr Y]; [apply usual_lambertian|apply usual_mirror]; intros i v E; destruct (Y i v E) as (r & -> & _); eexists; reflexivity. Qed.

Section Sc.
  Context {T ST : Type}.
  Variables (sm : sampler_ops XR ST) (teq : T -> T -> bool) (ob : T -> object T) (bd : builder XR T) (sc : scene XR T (container XR T)) (M A : R).
  Hypothesis H : triangle_scene ob bd sc.
  Hypothesis HM : forall t, In t (bd_shapes bd ++ bd_areas bd) -> plain (o_mat (ob t)).
  Hypothesis HL : lit_upto ob bd M A.
  Hypothesis M0 : 0 <= M.
  Hypothesis A0 : 0 <= A.
  Hypothesis HS : unit_samples sm.
  Let HN : no_negative_light (ob_surf ob) sc := triangle_scene_ok ob bd sc H.

  Lemma emitted_upto t i w : In t (bd_shapes bd ++ bd_areas bd) -> ub M (area_l (ob_area ob t) i w).
  Proof.
    intros Ht. unfold area_l. destruct (flt _ _); [|now apply ub_zero]. cbn [ob_area al_l]. apply in_app_or in Ht as [Ht|Ht].
    - rewrite (ts_shapes _ _ _ H t Ht). now apply ub_zero.
    - destruct (lu_areas _ _ _ _ HL t Ht) as (e & -> & U & _). exists e. auto.
  Qed.
  Lemma surf_upto i t w : met sc i -> i_shape i = Some t -> ub M (sf_l (ob_surf ob t) i w).
  Proof.
    intros Hi Ht. destruct (met_facts ob bd sc H i Hi) as (s & Hs & Es & _). assert (t = s) by congruence. subst s. now apply emitted_upto.
  Qed.

  Lemma light_upto l i u wi li pdf v : In l (sc_lights sc) -> met sc i -> in_unit (px u) -> in_unit (py u) ->
    l_sample_li l i u = Ok (wi, li, pdf, v) -> is_black li = false -> ub M li /\ exists p, pdf = XFin p /\ 0 < p /\ / p <= A + 1.
  Proof.
    intros Hq Hi U1 U2 E B. destruct (scene_lights ob bd sc H l Hq) as [(f & bb & Hf & ->)|(a & Ha & ->)].
    - destruct (lu_lights _ _ _ _ HL f Hf) as (c & w & -> & Hc & Hw). revert E. unfold distant, distant_as_light. cbn [l_sample_li]. unfold distant_sample_li, distant_pre.
      destruct (bbox_bounding_sphere bb) as [ce ra]. cbn [dl_w dl_l distant_new]. intros E.
      assert (W : li = fin3 c /\ pdf = f1) by (injection E; auto). destruct W as (-> & ->). split; [exists c; auto|]. exists 1. split; [reflexivity|]. lra.
    - cbn [area_as_light l_sample_li] in E. unfold area_sample_li in E. cbn [ob_area al_shape] in E. unfold sh_sample_ref in E. cbn [ob_shape triangle_shape sh_sample rbind] in E.
      set (ps := tr_sample (fin_tri (o_v (ob a)) (o_vn (ob a)) (o_rev (ob a))) u) in *.
      set (w := v3normalize (v3sub (i_p ps) (i_p i))) in *.
      assert (W : wi = w /\ li = area_l (ob_area ob a) ps (v3neg w) /\ pdf = sh_pdf (ob_shape ob a) i w) by (injection E; auto). clear E.
      destruct W as (-> & -> & ->). split; [apply emitted_upto, in_or_app; now right|].
      destruct (ts_areas _ _ _ H a Ha) as [_ Na]. destruct (lu_areas _ _ _ _ HL a Ha) as (e & _ & _ & Le).
      destruct (C40_area_pdf T (o_v (ob a)) (option_map ftri (o_vn (ob a))) (o_rev (ob a)) i w) as [_ Ea]. cbv zeta in Ea.
      exists (/ tri_area (o_v (ob a))). split; [exact (Ea Na)|].
      assert (P : 0 < tri_area (o_v (ob a))) by (rewrite tri_area_cross in *; pose proof (vnorm_nonneg (tnormal (o_v (ob a)))); lra).
      split; [now apply Rinv_0_lt_compat|]. rewrite Rinv_inv. lra.
  Qed.

  Lemma surface_facts i t b : met sc i -> i_shape i = Some t -> sf_scatter (ob_surf ob t) i = Ok b ->
    exists n, i_sn i = fin3 n /\ vdot n n = 1 /\ (forall w : rv, ub (/ PI) (bsdf_f b (i_wo i) (fin3 w))) /\ weighs n b (i_wo i).
  Proof.
    intros Hi Ht Hb. destruct (met_facts ob bd sc H i Hi) as (s & Hs & Es & _ & (o & -> & Uo) & (sn & du & E1 & E2 & Us & Hdu & Pd)).
    assert (t = s) by congruence. subst s. exists sn. split; [exact E1|]. split; [now apply vnorm_1_dot|].
    rewrite (vdot_comm du sn) in Pd. apply (plain_facts i sn du E1 E2 Hdu Us Pd (o_mat (ob t)) b o (HM t Hs) Hb Uo).
  Qed.

  Lemma cos_upto (w n : rv) : vdot w w = 1 -> vdot n n = 1 -> 0 <= Rabs (vdot w n) <= 1.
  Proof.
    intros Uw Un. split; [apply Rabs_pos|]. pose proof (lagrange w n) as G. rewrite Uw, Un in G.
    assert (0 <= vdot (vcross w n) (vcross w n)) by (unfold vdot; nra). apply Rabs_le. nra.
  Qed.

  Lemma light_part l i t b u m ld r : In l (sc_lights sc) -> met sc i -> i_shape i = Some t -> sf_scatter (ob_surf ob t) i = Ok b ->
    in_unit (px u) -> in_unit (py u) -> ub m ld -> direct_light sc l i b u ld = Ok r -> ub (m + M * (A + 1)) r.
  Proof.
    intros Hl Hi Ht Hb U1 U2 Hld. destruct (surface_facts i t b Hi Ht Hb) as (n & En & Un & Hf & _).
    assert (K0 : 0 <= M * (A + 1)) by (apply Rmult_le_pos; lra). assert (Keep : ub (m + M * (A + 1)) ld) by (apply (ub_le m); [lra|exact Hld]).
    unfold direct_light.
    destruct (l_sample_li l i u) as [[[[wi li] pdf] v]| |] eqn:E; cbn [rbind]; try discriminate.
    destruct (flt f0 pdf) eqn:P; cbn [andb]; [|congruence]. destruct (is_black li) eqn:B; cbn [negb]; [congruence|].
    destruct (nl_light _ _ HN l i u wi li pdf v Hl Hi U1 U2 E P B) as ((w & -> & Uw) & _).
    destruct (light_upto l i u (fin3 w) li pdf v Hl Hi U1 U2 E B) as (UL & p & -> & Pp & Ip).
    destruct (nl_f _ _ HN i t b (fin3 w) Hi Ht Hb ltac:(exists w; auto)) as [_ (pb & Epb & _)].
    destruct (is_black (v3scale _ _)); cbn [negb]; [congruence|].
    destruct (unoccluded (scene_intersect_p sc) v) as [ok| |]; cbn [rbind]; try discriminate. destruct ok; [|congruence].
    rewrite En, v3dot_fin. change (fabs (XFin (vdot w n))) with (XFin (Rabs (vdot w n))).
    pose proof PI_RGT_0 as Ppi. assert (Ipi : 0 < / PI) by now apply Rinv_0_lt_compat.
    assert (I1 : / PI <= 1) by (rewrite <- Rinv_1; apply Rinv_le_contravar; [lra|]; pose proof PI2_1; lra).
    assert (U : ub M (v3mul (v3scale (bsdf_f b (i_wo i) (fin3 w)) (XFin (Rabs (vdot w n)))) li)).
    { apply (ub_le (/ PI * 1 * M)); [nra|]. apply ub_mul; [lra|exact M0| |exact UL]. apply ub_scale; [lra|now apply cos_upto|apply Hf]. }
    destruct (l_is_delta l); intros E'.
    - assert (r = v3add ld (v3divs (v3mul (v3scale (bsdf_f b (i_wo i) (fin3 w)) (XFin (Rabs (vdot w n)))) li) (XFin p))) as -> by congruence.
      apply ub_add; [exact Hld|]. apply ub_divs; auto.
    - rewrite Epb in E'. destruct (heuristic_le p pb Pp) as (h & Eh & Hh). rewrite Eh in E'.
      assert (r = v3add ld (v3divs (v3scale (v3mul (v3scale (bsdf_f b (i_wo i) (fin3 w)) (XFin (Rabs (vdot w n)))) li) (XFin h)) (XFin p))) as -> by congruence.
      apply ub_add; [exact Hld|]. apply ub_divs; auto. replace M with (M * 1) by lra. now apply ub_scale.
  Qed.

  Lemma bsdf_part l i t b u m ld r : In l (sc_lights sc) -> met sc i -> i_shape i = Some t -> sf_scatter (ob_surf ob t) i = Ok b ->
    in_unit (px u) -> in_unit (py u) -> ub m ld -> direct_bsdf teq (ob_surf ob) sc l i b u ld = Ok r -> ub (m + M) r.
  Proof.
    intros Hl Hi Ht Hb U1 U2 Hld. destruct (surface_facts i t b Hi Ht Hb) as (n & En & Un & _ & Hw).
    assert (Keep : ub (m + M) ld) by (apply (ub_le m); [lra|exact Hld]). unfold direct_bsdf. destruct (l_is_delta l); [congruence|].
    destruct (bsdf_sample_f b (i_wo i) u) as [[[[wi f] pdf] flag]| |] eqn:E; cbn [rbind]; try discriminate.
    destruct (flt f0 pdf) eqn:P; cbn [andb]; [|congruence].
    destruct (is_black (v3scale f _)) eqn:B; cbn [negb]; [congruence|].
    assert (P0 : feq pdf f0 = false).
    { destruct (feq pdf f0) eqn:Q; auto. exfalso. revert P Q. unfold f0. xsimp. destruct pdf as [|[]|p]; cbn; try discriminate.
      intros P Q. rb. lra. }
    destruct (nl_sample _ _ HN i t b u wi f pdf flag Hi Ht Hb U1 U2 E P0) as (Fw & _).
    destruct (Hw u wi f pdf flag U1 U2 E P0) as (d & fr & p & -> & -> & -> & Pp & W).
    destruct (_ && _); [congruence|].
    destruct (scene_intersect sc (spawn_ray i (fin3 d))) as [[li|]| |] eqn:El; cbn [rbind]; try discriminate; [|congruence].
    destruct (i_shape li) as [s|] eqn:Es; [|discriminate].
    assert (Ml : met sc li).
    { destruct (fin_spawn i (fin3 d) (nl_hit _ _ HN i Hi) Fw) as (Fo & Fd & Ft). exists (spawn_ray i (fin3 d)). auto. }
    assert (Ne : forall e, (if same_addr teq s l then le (ob_surf ob) li (v3neg (fin3 d)) else Ok v3zero) = Ok e -> ub M e).
    { intros e. destruct (same_addr teq s l); [|intros Q; assert (e = v3zero) as -> by congruence; now apply ub_zero]. unfold le. rewrite Es. intros Q.
      assert (e = sf_l (ob_surf ob s) li (v3neg (fin3 d))) as -> by congruence. now apply surf_upto. }
    destruct (if same_addr teq s l then le (ob_surf ob) li (v3neg (fin3 d)) else Ok v3zero) as [e| |]; cbn [rbind]; try discriminate. specialize (Ne e eq_refl).
    intros E'. assert (r = v3add ld (v3divs (v3scale (v3mul (v3scale (fin3 fr) (fabs (v3dot (fin3 d) (i_sn i)))) e)
      (if negb (Z.land flag SPECULAR =? 0)%Z then f1 else power_heuristic 1 (XFin p) 1 (l_pdf_li l i (fin3 d)))) (XFin p))) as -> by congruence.
    apply ub_add; [exact Hld|].
    assert (Hh : exists h, (if negb (Z.land flag SPECULAR =? 0)%Z then f1 else power_heuristic 1 (XFin p) 1 (l_pdf_li l i (fin3 d))) = XFin h /\ 0 <= h <= 1).
    { destruct (negb _); [exists 1; split; [reflexivity|lra]|]. destruct (nl_light_pdf _ _ HN l i (fin3 d) Hl Hi Fw) as (q & -> & _). now apply heuristic_le. }
    destruct Hh as (h & -> & Hh). rewrite En, v3dot_fin. change (fabs (XFin (vdot d n))) with (XFin (Rabs (vdot d n))).
    destruct Ne as (g & -> & G). rewrite v3scale_fin, v3mul_fin, v3scale_fin, v3divs_fin by lra.
    replace (vscale (/ p) (vscale h (vprod (vscale (Rabs (vdot d n)) fr) g))) with (vscale h (vprod (vscale (Rabs (vdot d n) / p) fr) g))
      by (apply V3_eq; unfold vscale, vprod; vproj; field; lra).
    rewrite <- v3scale_fin, <- v3mul_fin. replace M with (1 * M * 1) by lra. apply ub_scale; [lra|exact Hh|].
    apply ub_mul; [lra|exact M0|exists (vscale (Rabs (vdot d n) / p) fr); auto|exists g; auto].
  Qed.

  Lemma direct_upto s i t b d s' : met sc i -> i_shape i = Some t -> sf_scatter (ob_surf ob t) i = Ok b ->
    uniform_sample_one_light sm teq (ob_surf ob) sc s i b = Ok (d, s') -> ub (INR (length (sc_lights sc)) * (M * (A + 2))) d.
  Proof.
    intros Hi Ht Hb. assert (K0 : 0 <= M * (A + 2)) by (apply Rmult_le_pos; lra).
    unfold uniform_sample_one_light. destruct (Z.of_nat (length (sc_lights sc)) =? 0)%Z.
    { intros E. assert (d = v3zero) as -> by congruence. apply ub_zero. apply Rmult_le_pos; [apply pos_INR|exact K0]. }
    destruct (sm_get_1d sm s) as [[u s1]| |]; cbn [rbind]; try discriminate.
    set (k := Z.min _ _). destruct (idx (sc_lights sc) k) as [l| |] eqn:El; cbn [rbind]; try discriminate.
    assert (Hl : In l (sc_lights sc)).
    { unfold idx in El. destruct (k <? 0)%Z; [discriminate|]. destruct (nth_error _ _) eqn:En; [|discriminate].
      apply nth_error_In in En. congruence. }
    unfold estimate_direct.
    destruct (sm_get_2d sm s1) as [[u0 s2]| |] eqn:E0; cbn [rbind]; try discriminate.
    destruct (sm_get_2d sm s2) as [[u1 s3]| |] eqn:E1; cbn [rbind]; try discriminate.
    destruct (proj2 HS _ _ _ E0) as [A00 B0]. destruct (proj2 HS _ _ _ E1) as [A1 B1].
    destruct (direct_light sc l i b u0 v3zero) as [ld| |] eqn:D; cbn [rbind]; try discriminate.
    destruct (direct_bsdf teq (ob_surf ob) sc l i b u1 ld) as [ld'| |] eqn:D'; cbn [rbind]; try discriminate.
    intros E. assert (d = v3scale ld' (fofZ (Z.of_nat (length (sc_lights sc))))) as -> by congruence.
    change (fofZ (Z.of_nat (length (sc_lights sc)))) with (XFin (IZR (Z.of_nat (length (sc_lights sc))))). rewrite <- INR_IZR_INZ, Rmult_comm. apply ub_scale; [exact K0|split; [apply pos_INR|lra]|].
    apply (ub_le (0 + M * (A + 1) + M)); [lra|]. apply (bsdf_part l i t b u1 (0 + M * (A + 1)) ld); auto.
    apply (light_part l i t b u0 0 v3zero); auto. apply ub_zero. lra.
  Qed.

  Lemma plain_passive : passive sm teq (ob_surf ob) sc M (INR (length (sc_lights sc)) * (M * (A + 2))).
  Proof.
    constructor.
    - intros s i d wi f pdf flag s2 w Hi (t & b & s1 & u & Et & Eb & _ & Eu & Es) (n & di & fr & p & En & -> & -> & -> & Pp & ->).
      destruct (surface_facts i t b Hi Et Eb) as (n' & En' & _ & _ & Hw). assert (n' = n) as -> by (apply fin3_inj; congruence).
      destruct (proj2 HS _ _ _ Eu) as [U1 U2]. destruct (Hw u (fin3 di) (fin3 fr) (XFin p) flag U1 U2 Es) as (d' & fr' & p' & E1 & E2 & E3 & _ & W).
      { rewrite x_f0. xsimp. cbn [xeq]. apply Req_bool_false. lra. }
      apply fin3_inj in E1, E2. assert (p' = p) by congruence. subst. exact W.
    - intros i t w e Hi Ht E. destruct (surf_upto i t w Hi Ht) as (r & Er & U). assert (e = r) as -> by (apply fin3_inj; congruence). exact U.
    - intros s i d wi f pdf flag s2 Hi (t & b & s1 & u & Et & Eb & Ed & _ & _). destruct (direct_upto s i t b (fin3 d) s1 Hi Et Eb Ed) as (r & Er & U).
      apply fin3_inj in Er. now rewrite Er.
  Qed.
End Sc.

(** Scenes of triangles that are matt or mirrors and reflect at most everything, with [n] lights of brightness at most
    [M], lamps of area at most [A]: no sample of the radiance has a luminance above 470 M (1 + n (A + 2)).  Missing:
    samples that are 0 among coloured surfaces (see C66); glass, plastic, metal, spheres. *)
Theorem C93_plain_scenes_partial : forall (T ST : Type) (sm : sampler_ops XR ST) (teq : T -> T -> bool) (ob : T -> object T)
    (bd : builder XR T) (sc : scene XR T (container XR T)) (M A : R),
  triangle_scene ob bd sc -> (forall t, In t (bd_shapes bd ++ bd_areas bd) -> plain (o_mat (ob t))) -> lit_upto ob bd M A -> 0 <= M -> 0 <= A ->
  good_samples sm (ob_surf ob) sc ->
  forall fuel s r x s', fin (r_o r) -> unit3 (r_d r) -> xis_nan (r_tmax r) = false -> li sm teq (ob_surf ob) sc fuel s r = Ok (x, s') ->
    exists y, x = fin3 y /\ nn y /\ lum y <= 470 * (M * (1 + INR (length (sc_lights sc)) * (A + 2))).
Proof.
  intros T ST sm teq ob bd sc M A H HM HL M0 A0 HG fuel s r x s' Fo Fd Ft E.
  assert (HS : unit_samples sm) by (destruct HG as [G1 G2 _]; split; assumption).
  pose proof (plain_passive sm teq ob bd sc M A H HM HL M0 A0 HS) as HP.
  assert (D0 : 0 <= INR (length (sc_lights sc)) * (M * (A + 2))) by (apply Rmult_le_pos; [apply pos_INR|apply Rmult_le_pos; lra]).
  destruct (C93_bounded_partial T ST sm teq (ob_surf ob) sc _ _ (triangle_scene_ok ob bd sc H) HG HP M0 D0 fuel s r x s' Fo Fd Ft E) as (p & y & _ & -> & _ & Ny & Ly).
  exists y. split; [reflexivity|]. split; [exact Ny|]. lra.
Qed.
Print Assumptions C93_plain_scenes_partial.

(** the two grey triangles under a distant light of C66 *)
Example C93_example : exists sc, triangle_scene ex_objects ex_scene sc /\ (forall t, In t (bd_shapes ex_scene ++ bd_areas ex_scene) -> plain (o_mat (ex_objects t))) /\
  lit_upto ex_objects ex_scene 3 1 /\ good_samples ex_half (ob_surf ex_objects) sc /\
  passive ex_half Bool.eqb (ob_surf ex_objects) sc 3 (INR 2 * (3 * (1 + 2))).
Proof.
  destruct C66_triangles_example as (sc & H & Hn & G). exists sc. split; [exact H|].
  assert (P : forall t, In t (bd_shapes ex_scene ++ bd_areas ex_scene) -> plain (o_mat (ex_objects t))).
  { intros t [<-|[<-|[]]]; cbn [ex_objects o_mat]; constructor; intros i v E;
      (assert (v = fin3 (mkV3 (1/2) (1/2) (1/2))) as -> by (unfold constant_texture in E; congruence)); eexists; (split; [reflexivity|]); vproj; lra. }
  assert (L : lit_upto ex_objects ex_scene 3 1).
  { constructor.
    - intros f [<-|[]]. exists (mkV3 1 1 1), (mkV3 0 1 2). split; [reflexivity|]. split; [unfold upto; vproj; lra|].
      intros E. apply (f_equal (fun q : rv => vy q)) in E. revert E. unfold v0. vproj. lra.
    - intros t [<-|[]]. exists (mkV3 3 2 1). split; [reflexivity|]. split; [unfold upto; vproj; lra|]. cbn [ex_objects o_v]. rewrite (proj2 C40_example). lra. }
  split; [exact P|]. split; [exact L|]. split; [exact G|]. rewrite <- Hn. apply (plain_passive ex_half Bool.eqb ex_objects ex_scene sc 3 1 H P L); [lra|lra|].
  destruct G as [G1 G2 _]. split; assumption.
Qed.
