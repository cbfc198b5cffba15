(** * Mirrors, smooth plastic, metal and glass in scenes with triangles; debug builds (C70, C89) *)
From Coq Require Import ZArith Reals List Bool Lia Lra Psatz.
From Flocq Require Import Core IEEE754.BinarySingleNaN.
From Verif Require Import Model.Num Model.NumX Model.NumB Model.Vector Model.Common Model.BBox Model.Film Model.Interaction Model.Shape
  Model.Sphere Model.Triangle Model.Container Model.KdTree Model.Matrix Model.Transform Model.Camera Model.Sampler
  Model.Sampling Model.Reflection Model.Fresnel Model.Microfacet Model.BxDFs Model.Texture Model.Material Model.Light Model.Scene
  Model.Path Model.Render Model.HelloWorld.
From Verif Require Import Spec.RVec Spec.SamplerSpec Spec.PathSpec Spec.RenderSpec Spec.KdSpec Spec.TameSpec Spec.WholeSpec.
From Verif Require Import Proofs.XBase Proofs.RVecProofs Proofs.BBase Proofs.FLaws Proofs.Bounds Proofs.SteadyProofs Proofs.SteadySphere Proofs.SteadySample
  Proofs.SteadyCamera Proofs.SteadyMirror Proofs.SteadySmooth Proofs.PathProofs Proofs.SortProofs.
From Verif Require Import Props.RenderProps Props.Film3 Props.Containers Props.Shading1 Props.PathProps Props.Robust2 Props.WholeRender Props.HelloProps.
Import ListNotations.
Local Open Scope Z_scope.

(** the length a direction can have after [k] bounces *)
Definition lev (k : Z) : R := (pw 13 * (302 / 100) ^ Z.to_nat k)%R.
Lemma lev_next k : 0 <= k -> lev (k + 1) = (302 / 100 * lev k)%R.
Proof. intros H. unfold lev. replace (Z.to_nat (k + 1)) with (S (Z.to_nat k)) by lia. cbn [pow]. ring. Qed.
Lemma lev_min k : (pw 13 <= lev k)%R.
Proof. unfold lev. pose proof (bpow_ge_0 radix2 13). assert (1 <= (302 / 100) ^ Z.to_nat k)%R by (apply pow_R1_Rle; lra). nra. Qed.
Lemma lev_max k : 0 <= k <= 64 -> (24 * lev k <= pw 120)%R.
Proof.
  intros H. unfold lev.
  assert (P : ((302 / 100) ^ Z.to_nat k <= (302 / 100) ^ 64)%R) by (apply Rle_pow; [lra|lia]).
  assert (Q : forall x y : R, (0 <= x -> x <= y -> x * x <= y * y)%R) by (intros; nra).
  assert (B : ((302 / 100) ^ 64 <= 5482000000000000000000000000000)%R).
  { set (a := (302 / 100)%R). assert (a0 : (0 <= a)%R) by (unfold a; lra).
    replace (a ^ 64)%R with ((a ^ 32) * (a ^ 32))%R by (rewrite <- pow_add; reflexivity).
    assert (E2 : (0 <= a ^ 2 <= 91204 / 10000)%R) by (unfold a; cbn [pow]; lra).
    assert (D : forall n m z, (0 <= a ^ n <= z)%R -> m = (n + n)%nat -> (0 <= a ^ m <= z * z)%R).
    { intros n m z Hz ->. rewrite pow_add. split; [nra|]. apply Q; lra. }
    pose proof (D 2%nat 4%nat _ E2 eq_refl) as E4. pose proof (D 4%nat 8%nat (8319 / 100)%R ltac:(lra) eq_refl) as E8.
    pose proof (D 8%nat 16%nat 6921%R ltac:(lra) eq_refl) as E16. pose proof (D 16%nat 32%nat 47900300%R ltac:(lra) eq_refl) as E32.
    pose proof (Q (a ^ 32)%R 2294440000000000%R ltac:(lra) ltac:(lra)). lra. }
  assert (E : (pw 13 = 8192)%R) by (cbn; lra). rewrite E.
  assert (E' : (pw 120 = 1329227995784915872903807060280344576)%R) by (cbn; lra). rewrite E'. lra.
Qed.

Section Smooth.
  Context (L : Libm b32) (L64 : Libm b64) {T : Type}.
  Local Existing Instance B32_FOps.
  Local Existing Instance B32_FLaws.
  Local Existing Instance B64_FOps.

  Lemma fit_tame (s : shape b32 T) m : fit L (L64 := L64) s m -> tame_shape L (L64 := L64) s.
  Proof. intros []; auto; constructor; auto; now destruct H. Qed.

  (** ** the components of smooth materials *)
  Lemma quot_val (x y : b32) a b : emb x = XFin a -> emb y = XFin b -> (b <> 0)%R -> (Rabs (a / b) <= 8)%R -> (/ 8 <= Rabs (a / b))%R ->
    exists q, emb (fdiv x y) = XFin q /\ (Rabs (q - a / b) <= / 10000000 * Rabs (a / b))%R.
  Proof.
    intros Ex Ey Hb H8 H1. assert (B : (8 <= pw 127)%R) by (change 8%R with (pw 3); apply bpow_le; lia). pose proof eta_pos as Et.
    destruct (rn_any L (a / b) ltac:(lra)) as (q & Eq & Dq). exists q. rewrite emb_div, Ex, Ey, xdiv_fin by congruence. split; [exact Eq|].
    unfold uu in Dq. assert (eta <= / 1000000000 * Rabs (a / b))%R by lra. lra.
  Qed.

  Lemma glassy_ratio (a b : Z) (K : R) (eta : b32) : (a = 3 /\ b = 2 /\ K = (20002 / 10000)%R) \/ (a = 5 /\ b = 2 /\ K = (10001 / 10000)%R) ->
    fle (fdiv (fofZ b) (fofZ a)) eta = true -> fle eta (fdiv (fofZ a) (fofZ b)) = true -> ratio L K eta.
  Proof.
    intros C H1 H2.
    assert (D : exists lo hi E, emb (fdiv (fofZ b) (fofZ a) : b32) = XFin lo /\ emb (fdiv (fofZ a) (fofZ b) : b32) = XFin hi /\ emb eta = XFin E /\ (lo <= E <= hi)%R /\
      (Rabs (lo - IZR b / IZR a) <= / 10000000)%R /\ (Rabs (hi - IZR a / IZR b) <= / 1000000)%R).
    { assert (Ea : emb (fofZ a : b32) = XFin (IZR a)) by (apply emb_ofZ_exact; destruct C as [(-> & _)|(-> & _)]; cbn; lia).
      assert (Eb : emb (fofZ b : b32) = XFin (IZR b)) by (apply emb_ofZ_exact; destruct C as [(_ & -> & _)|(_ & -> & _)]; cbn; lia).
      assert (Rb : (/ 8 <= IZR b / IZR a <= 1 /\ 1 <= IZR a / IZR b <= 3 /\ IZR a <> 0 /\ IZR b <> 0)%R) by (destruct C as [(-> & -> & _)|(-> & -> & _)]; lra).
      destruct Rb as (R1 & R2 & R3 & R4).
      destruct (quot_val _ _ _ _ Eb Ea R3) as (lo & El & Dl); [rewrite Rabs_pos_eq; lra|rewrite Rabs_pos_eq; lra|].
      destruct (quot_val _ _ _ _ Ea Eb R4) as (hi & Eh & Dh); [rewrite Rabs_pos_eq; lra|rewrite Rabs_pos_eq; lra|].
      rewrite emb_le, El in H1. rewrite emb_le, Eh in H2. rewrite (Rabs_pos_eq (IZR b / IZR a)) in Dl by lra. rewrite (Rabs_pos_eq (IZR a / IZR b)) in Dh by lra.
      destruct (emb eta) as [|[]|E]; try discriminate. cbn [xle] in H1, H2. rb. exists lo, hi, E. repeat split; auto; lra. }
    destruct D as (lo & hi & E & _ & _ & EE & HE & Dl & Dh). apply Rabs_le_inv in Dl, Dh. clear H1 H2.
    assert (HE' : (IZR b / IZR a - / 10000000 <= E <= IZR a / IZR b + / 1000000)%R) by lra. clear Dl Dh HE.
    assert (P : (399 / 1000 <= E <= 2501 / 1000)%R) by (destruct C as [(-> & -> & _)|(-> & -> & _)]; lra).
    assert (Bi : (/ E * E = 1)%R) by (field; lra). assert (Ip : (0 < / E)%R) by (apply Rinv_0_lt_compat; lra).
    intros q [-> | -> ].
    - destruct (quot_val f1 eta 1 E emb_f1 EE ltac:(lra)) as (q & Eq & Dq); rewrite ?Rabs_pos_eq; unfold Rdiv; rewrite ?Rmult_1_l; try lra; try nra.
      exists q. split; [exact Eq|]. rewrite (Rabs_pos_eq (1 / E)) in Dq by (unfold Rdiv; lra). unfold Rdiv in Dq. rewrite Rmult_1_l in Dq. apply Rabs_le_inv in Dq.
      destruct C as [(-> & -> & ->)|(-> & -> & ->)].
      + assert (/ E <= 1500001 / 1000000)%R by nra. lra.
      + assert (/ E <= 2500001 / 1000000)%R by nra. lra.
    - exists E. rewrite (emb_over_1 L eta f1 emb_f1). split; [exact EE|]. destruct C as [(-> & -> & ->)|(-> & -> & ->)]; lra.
  Qed.

  Lemma add_kinds K i (b : bsdf b32) x : (forall y, In y (bs_bxdfs b) -> kind L (T := T) K i y) -> kind L K i x -> forall y, In y (bs_bxdfs (bsdf_add b x)) -> kind L K i y.
  Proof. intros H Hx y Hy. cbn [bsdf_add bs_bxdfs] in Hy. apply in_app_or in Hy as [Hy|[<-|[]]]; auto. Qed.

  Lemma if_kinds K i (b : bsdf b32) x (c : bool) : (forall y, In y (bs_bxdfs b) -> kind L (T := T) K i y) -> kind L K i x ->
    forall y, In y (bs_bxdfs (if c then bsdf_add b x else b)) -> kind L K i y.
  Proof. intros H Hx. destruct c; [now apply add_kinds|exact H]. Qed.

  Definition framed (i : interaction b32 T) (b : bsdf b32) : Prop :=
    bs_sn b = i_sn i /\ bs_s b = v3normalize (i_dpdu i) /\ bs_t b = v3cross (bs_sn b) (bs_s b).
  Lemma framed_new i : framed i (bsdf_new i).
  Proof. repeat split. Qed.
  Lemma framed_add i b x : framed i b -> framed i (bsdf_add b x).
  Proof. exact (fun H => H). Qed.
  Lemma framed_if i b x (c : bool) : framed i b -> framed i (if c then bsdf_add b x else b).
  Proof. intros H. destruct c; exact H. Qed.

  Lemma smooth_bsdf a b K m (i : interaction b32 T) : (a = 3 /\ b = 2 /\ K = (20002 / 10000)%R) \/ (a = 5 /\ b = 2 /\ K = (10001 / 10000)%R) -> smooth L a b m -> firm L K i ->
    exists bs, m i = Ok bs /\ framed i bs /\ (forall x, In x (bs_bxdfs bs) -> kind L K i x) /\ (length (bs_bxdfs bs) <= 100)%nat.
  Proof.
    intros C Hm Fm.
    assert (E0 : forall y, In y (bs_bxdfs (bsdf_new i)) -> kind L K i y) by (intros y []).
    assert (TC : forall t, total t -> exists v, tex_clamped (T := T) t i = Ok v) by (intros t Ht; unfold tex_clamped; destruct (Ht i) as (v & ->); eexists; reflexivity).
    assert (KR : forall r fr, kind L K i (specular_reflection r fr)) by (intros r fr; right; split; [exact Fm|left; eauto]).
    assert (KL : forall r, kind L K i (lambertian r)) by (intros r; left; eauto).
    destruct Hm as [kr Hr|kd ks ro Hd Hs Hro|r eta k ru rv Hr He Hk Hru Hrv|kr kt eta ru rv Hr Ht He Hru Hrv].
    - unfold mat_mirror. destruct (TC kr Hr) as (v & ->). cbn [rbind]. eexists. split; [reflexivity|]. split; [apply framed_if, framed_new|].
      split; [apply if_kinds; auto|]. destruct (negb _); cbn; lia.
    - unfold mat_plastic. destruct (TC kd Hd) as (d & ->). destruct (TC ks Hs) as (s & ->). cbn [rbind]. destruct (Hro i) as (ro' & -> & Z0). cbn [rbind]. rewrite Z0.
      destruct (negb (is_black s)).
      + eexists. split; [reflexivity|]. split; [apply framed_add, framed_if, framed_new|]. split; [apply add_kinds; auto; apply if_kinds; auto|]. destruct (negb _); cbn; lia.
      + eexists. split; [reflexivity|]. split; [apply framed_if, framed_new|]. split; [apply if_kinds; auto|]. destruct (negb _); cbn; lia.
    - unfold mat_metal. destruct (TC r Hr) as (r' & ->). destruct (He i) as (e' & ->). destruct (Hk i) as (k' & ->). destruct (Hru i) as (u' & -> & Zu). destruct (Hrv i) as (v' & -> & Zv).
      cbn [rbind]. rewrite Zu, Zv. cbn [andb]. eexists. split; [reflexivity|]. split; [apply framed_add, framed_new|]. split; [apply add_kinds; auto|]. cbn; lia.
    - unfold mat_glass. destruct (He i) as (e' & -> & H1 & H2). destruct (TC kr Hr) as (r' & ->). destruct (TC kt Ht) as (t' & ->). destruct (Hru i) as (u' & -> & Zu). destruct (Hrv i) as (v' & -> & Zv).
      cbn [rbind]. rewrite Zu, Zv. cbn [andb]. eexists. split; [reflexivity|]. split; [apply framed_if, framed_if, framed_new|]. split.
      + apply if_kinds; [apply if_kinds; auto|]. right. split; [exact Fm|]. right. eexists _, _. split; [reflexivity|]. eapply glassy_ratio; eauto.
      + destruct (negb (is_black r')), (negb (is_black t')); cbn; lia.
  Qed.

  (** ** what is hit, and the directions sampled there *)
  Lemma fit_hit (s : shape b32 T) m r i t : fit L (L64 := L64) s m -> sh_intersect s r = Ok (Some (i, t)) ->
    good_point L 28 i /\ good_frame L i /\ i_wo i = v3neg (r_d r) /\ (matt L m \/ exists a b K, ((a = 3 /\ b = 2 /\ K = (20002 / 10000)%R) \/ (a = 5 /\ b = 2 /\ K = (10001 / 10000)%R)) /\ smooth L a b m /\ firm L K i).
  Proof.
    intros H E. destruct (tame_hit L L64 s r i t (fit_tame s m H) E) as [GP GF]. split; [exact GP|]. split; [exact GF|].
    assert (SP : forall sp : sphere b32, tame_sphere sp -> sh_intersect (sphere_shape (D := b64) (T := T) sp) r = Ok (Some (i, t)) -> firm L (20002 / 10000) i /\ i_wo i = v3neg (r_d r)).
    { intros sp Hs E'. cbn in E'. apply (f_equal (fun q => match q with Ok x => x | _ => None end)) in E'. unfold sp_intersect in E'.
      destruct (sp_has_intersection sp (sp_local_ray sp r)) as [t'|]; [|discriminate].
      apply (f_equal (fun q => match q with Some x => x | None => (i, t) end)) in E'. now apply (sphere_firm L) in E'. }
    destruct H as [s m Hs Hm|sp m Hs Hm|tr m Ht Hm|l tr m Ht Hm].
    - split; [|now left]. destruct Hs as [sp Hs|tr Ht|l tr Ht]; [now apply (SP sp)|cbn in E; now apply (tri_wo L) in E|cbn in E; now apply (tri_wo L) in E].
    - destruct (SP sp Hs E) as [Fm Ew]. split; [exact Ew|]. right. eauto 10.
    - cbn in E. split; [now apply (tri_wo L) in E|]. right. exists 5, 2, (10001 / 10000)%R. split; [auto|]. split; [exact Hm|]. now apply (fair_firm L) in E.
    - cbn in E. split; [now apply (tri_wo L) in E|]. right. exists 5, 2, (10001 / 10000)%R. split; [auto|]. split; [exact Hm|]. now apply (fair_firm L) in E.
  Qed.

  Lemma fit_sample (m : material b32 T) i rho : tame_libm L -> good_frame L i ->
    (matt L m \/ exists a b K, ((a = 3 /\ b = 2 /\ K = (20002 / 10000)%R) \/ (a = 5 /\ b = 2 /\ K = (10001 / 10000)%R)) /\ smooth L a b m /\ firm L K i) ->
    reach L rho (i_wo i) -> (pw 13 <= rho)%R -> (24 * rho <= pw 120)%R ->
    exists b, m i = Ok b /\ forall u, in_unit (px u) -> in_unit (py u) -> exists wi f pdf fl, bsdf_sample_f b (i_wo i) u = Ok (wi, f, pdf, fl) /\
      (feq pdf f0 = false \/ flt f0 pdf = true -> reach L (302 / 100 * rho) wi).
  Proof.
    intros HL GF HM Hwo R1 R2. destruct HM as [(kd & Hk & ->)|(a & b & K & C & Hs & Fm)].
    - unfold mat_lambertian, tex_clamped. destruct (Hk i) as (v & ->). cbn [rbind]. eexists. split; [reflexivity|]. intros u Hx Hy.
      set (c := negb _). destruct (framed_if i (bsdf_new i) (lambertian (spectrum_clamp v f0 finf)) c (framed_new i)) as (F1 & F2 & F3).
      apply (kinds_sample L 1 i); auto; [lra| |destruct c; cbn; lia].
      apply if_kinds; [intros y []|left; eauto].
    - destruct (smooth_bsdf a b K m i C Hs Fm) as (bs & Eb & (F1 & F2 & F3) & Hk & Hl). exists bs. split; [exact Eb|]. intros u Hx Hy.
      apply (kinds_sample L K i); auto. destruct C as [(_ & _ & ->)|(_ & _ & ->)]; lra.
  Qed.

  (** a scene of tame shapes with matt and smooth surfaces, and of tame lights *)
  Record smooth_scene (sh : T -> shape b32 T) (surf : T -> surface b32 T) (sc : scene b32 T (container b32 T)) (l : list T) : Prop := {
    sm_shapes : forall t, In t l -> fit L (L64 := L64) (sh t) (sf_scatter (surf t));
    sm_lights : forall q, In q (sc_lights sc) -> tame_light L q;
    sm_container : holds L sh (sc_shapes sc) l }.

  Lemma smooth_robust sh surf sc l : tame_libm L -> smooth_scene sh surf sc l -> robust_on surf sc (fun k r => reach L (lev k) (r_d r)).
  Proof.
    intros HL [Hs Hq Hc].
    assert (Ht : forall t, In t l -> tame_shape L (L64 := L64) (sh t)) by (intros t Hin; eapply fit_tame; eauto).
    destruct (tame_hits L L64 sh (sc_shapes sc) l Ht Hc) as [G1 G2].
    constructor. intros k r Hk Hr. destruct (G1 r (reach_steady L _ _ Hr)) as (o & Eo & Ho). exists o. split; [exact Eo|]. intros j Ej.
    destruct (Ho j Ej) as (s & i & t & r' & Hin & Ed & Ei & ->).
    destruct (fit_hit (sh s) _ r' i t (Hs s Hin) Ei) as (GP & GF & Ew & HM).
    exists s. split; [reflexivity|]. intros Hk64.
    destruct (fit_sample (sf_scatter (surf s)) (i_with_shape i (Some s)) (lev k) HL GF HM) as (b & Eb & Hb).
    - change (i_wo (i_with_shape i (Some s))) with (i_wo i). rewrite Ew, Ed. now apply reach_neg.
    - apply lev_min.
    - apply lev_max. lia.
    - exists b. split; [exact Eb|]. split.
      + intros u Hx Hy. destruct (Hb u Hx Hy) as (wi & f & pdf & fl & E & R). exists wi, f, pdf, fl. split; [exact E|]. intros P. specialize (R P).
        rewrite lev_next by lia. exact R.
      + intros q u Hql Hx Hy. apply (tame_shadow L L64 sh _ l); auto.
  Qed.

  Lemma calm_ray m cam p : calm_camera L cam -> m = Release \/ upright_camera L cam -> exists r, generate_ray m cam p = Ok r /\ reach L (lev 0) (r_d r).
  Proof.
    intros [Ht Hw] Hm. destruct (camera_dir L 9 cam p Ht ltac:(lia) Hw) as (r & Er & Hr). exists r. split.
    - destruct m; [|exact Er]. destruct Hm as [Hm|Hu]; [discriminate|]. rewrite (camera_debug L); assumption.
    - assert (E : (lev 0 = 2 * pw 12)%R) by (unfold lev; cbn; lra). rewrite E. destruct Hr as [N|V]; [now left|now apply vb_reach].
  Qed.
End Smooth.

(** Proved part, with mirrors and clear glass: builds of both kinds trace every path of a smooth scene -- spheres,
    triangles and triangular lamps of moderate size, matt, reflecting, of smooth plastic, metal or glass, lit by the
    lamps and by distant lights, in either container -- seen by a calm camera to the end, with either sampler; in
    debug builds with at most 84 Halton samples.  Missing: rough surfaces in scenes with triangles. *)
Theorem C70_smooth_partial : forall (L : Libm b32) (L64 : Libm b64) (T : Type) (sh : T -> shape b32 T) (surf : T -> surface b32 T)
    (sc : scene b32 T (container b32 T)) (l : list T) teq (cam : perspective_camera b32) m,
  tame_libm L -> smooth_scene L L64 sh surf sc l -> calm_camera L cam -> m = Release \/ upright_camera L cam ->
  (forall spp b w h s0, area b w h -> halton_new m spp b = Ok s0 -> m = Release \/ spp <= 84 ->
     halton_shade m s0 (shade (halton_ops m) teq surf sc (generate_ray m cam) 66)) /\
  (forall G (rng : G -> b32 * G) spp, (forall g, in_unit (fst (rng g))) -> 1 <= spp ->
     random_shade rng m spp (shade (random_ops rng m) teq surf sc (generate_ray m cam) 66)).
Proof.
  intros L L64 T sh surf sc l teq cam m HL HS HC Hm. pose proof (smooth_robust L L64 sh surf sc l HL HS) as RB. split.
  - intros spp b w h s0 Ha E Hspp. eapply (halton_on b32 T _ (B32_FLaws L)); eauto; [destruct Hspp; [now left|right; lia]|]. intros p. now apply calm_ray.
  - intros G rng spp Hu Hs. eapply (random_on b32 T G _ (B32_FLaws L)); eauto. intros p. now apply calm_ray.
Qed.
Print Assumptions C70_smooth_partial.

(** Whole renders of smooth scenes, in both kinds of builds. *)
Theorem C89_smooth_scenes : forall (L : Libm b32) (L64 : Libm b64) (T : Type) (sh : T -> shape b32 T) (surf : T -> surface b32 T)
    (sc : scene b32 T (container b32 T)) (l : list T) teq (cam : perspective_camera b32) m res flt fm spp k,
  tame_libm L -> smooth_scene L L64 sh surf sc l -> calm_camera L cam -> m = Release \/ upright_camera L cam /\ spp <= 84 ->
  film_args (F := b32) res flt -> film_new m res flt = Ok fm -> 0 <= spp < 2 ^ 32 -> (1 <= k)%nat ->
  (exists s0, halton_new m spp (film_sample_bbox fm) = Ok s0 /\
     whole_render m (halton_ops m) (shade (halton_ops m) teq surf sc (generate_ray m cam) 66) (samples spp) res fm s0 k) /\
  (forall G (rng : G -> b32 * G) g, (forall g, in_unit (fst (rng g))) -> 1 <= spp ->
     whole_render m (random_ops rng m) (shade (random_ops rng m) teq surf sc (generate_ray m cam) 66) (samples spp) res fm
       (random_new spp g) k).
Proof.
  intros L L64 T sh surf sc l teq cam m res flt fm spp k HL HS HC Hm Ha En Hs Hk.
  destruct (C70_smooth_partial L L64 T sh surf sc l teq cam m HL HS HC ltac:(tauto)) as [RH RR]. split.
  - destruct (film_area L m res flt fm Ha En) as (w & h & Har). destruct (Props.HaltonProps.halton_new_total m spp _ w h Har) as (s0 & Eh).
    exists s0. split; [exact Eh|].
    destruct (halton_serves_new (FL := B32_FLaws L) m spp _ w h s0 _ Har Eh Hs ltac:(destruct Hm as [ | [_ Hm] ]; [now left|right; lia]) (RH spp _ w h s0 Har Eh ltac:(tauto)))
      as (I & A & B & left & V & Is & _).
    eapply serves_whole; eauto. unfold samples. lia.
  - intros G rng g Hg H1.
    destruct (random_serves_new (FL := B32_FLaws L) rng m spp g _ Hg Hs ltac:(tauto) (RR G rng spp Hg H1)) as (I & A & B & left & V & Is).
    eapply serves_whole; eauto. unfold samples. lia.
Qed.
Print Assumptions C89_smooth_scenes.

(** The scene of the example program with a ball of glass on a mirror and a plate of metal, under lamps of which one
    is of plastic, seen by the camera of the example program. *)
Definition shiny_surf (t : hw_shape) : surface b32 hw_shape :=
  let _ := B32_FOps Lhello in
  match t with
  | Lamp1 => hw_surf Lamp1
  | Lamp2 => mkSurf (mat_plastic (constant_texture (spectrum_of fhalf)) (constant_texture (spectrum_of f1)) (constant_texture f0)) (area_l (hw_al Lamp2))
  | Ball => mkSurf (mat_glass (constant_texture (spectrum_of f1)) (constant_texture (spectrum_of f1)) (constant_texture (flit 15 1)) (constant_texture f0) (constant_texture f0)) (fun _ _ => v3zero)
  | Floor1 => mkSurf (mat_mirror (constant_texture (spectrum_of (flit 9 1)))) (fun _ _ => v3zero)
  | Floor2 => mkSurf (mat_metal (constant_texture (spectrum_of f1)) (constant_texture (spectrum_of f2)) (constant_texture (spectrum_of f1)) (constant_texture f0) (constant_texture f0)) (fun _ _ => v3zero)
  end.

Lemma hw_fair (L : Libm b32) t : In t [hw_lamp1 (FO := B32_FOps L); hw_lamp2 (FO := B32_FOps L); hw_floor1 (FO := B32_FOps L); hw_floor2 (FO := B32_FOps L)] -> fair_triangle L t.
Proof. intros H. split; [now apply hw_tri_tame|..]; repeat destruct H as [<-|H]; try contradiction; vm_compute; reflexivity. Qed.

Lemma shiny_fit (L64 : Libm b64) t : fit Lhello (L64 := L64) (hw_sh (FO := B32_FOps Lhello) (DO := B64_FOps L64) t) (sf_scatter (shiny_surf t)).
Proof.
  assert (C : forall A (v : A), total (T := hw_shape) (constant_texture v)) by (intros A v i; eexists; reflexivity).
  assert (Z : zero_everywhere Lhello (T := hw_shape) (constant_texture (f0 (O := B32_FOps Lhello)))) by (intros i; eexists; split; [reflexivity|vm_compute; reflexivity]).
  destruct t.
  - apply fit_matt; [apply hw_shapes_tame|]. eexists; (split; [|reflexivity]); intros i; eexists; reflexivity.
  - apply fit_lamp; [apply hw_fair; cbn; tauto|]. apply smooth_plastic; auto.
  - apply fit_sphere; [constructor; [repeat split|..]; vm_compute; reflexivity|]. apply smooth_glass; auto.
    intros i. eexists. split; [reflexivity|]. split; vm_compute; reflexivity.
  - apply fit_triangle; [apply hw_fair; cbn; tauto|]. apply smooth_mirror; auto.
  - apply fit_triangle; [apply hw_fair; cbn; tauto|]. apply smooth_metal; auto.
Qed.

Local Existing Instance B64_FOps.
Local Instance FOhello : FOps b32 := B32_FOps Lhello.
Example C70_smooth_example : forall L64 : Libm b64, let _ := B32_FOps Lhello in let _ := B64_FOps L64 in
  tame_libm Lhello /\
  (exists sc, hw_scene (D := b64) (fun l => Ok (isort edge_cmp l)) Debug = Ok sc /\ smooth_scene Lhello L64 (hw_sh (D := b64)) shiny_surf sc [Ball; Floor1; Floor2; Lamp1; Lamp2]) /\
  (exists cam, hw_camera Debug = Ok cam /\ calm_camera Lhello cam /\ upright_camera Lhello cam).
Proof.
  intros L64 FO DO. unfold FO, DO. clear FO DO. unfold FOhello. split; [apply C90_example|]. split.
  - set (l := [Ball; Floor1; Floor2; Lamp1; Lamp2]). pose proof (isort_ok (edge_cmp (F := b32) (T := hw_shape) (FO := B32_FOps Lhello))) as SO.
    destruct (C44_build b32 hw_shape _ (B32_FLaws Lhello) (hw_sh (D := b64) (FO := B32_FOps Lhello) (DO := B64_FOps L64)) _ Debug l None SO) as (kd & Ek & _); [discriminate|cbn; unfold usize_max; lia|intros; apply hw_boxes|].
    unfold hw_scene, construct. change (bd_shapes hw_builder ++ bd_areas hw_builder) with l. rewrite Ek.
    destruct (hw_box Lhello L64) as (bb & ->).
    cbn [rbind]. eexists. split; [reflexivity|]. constructor.
    + intros t _. apply shiny_fit.
    + cbn [sc_lights]. intros q Hq. cbn in Hq. repeat destruct Hq as [<-|Hq]; try contradiction; apply tame_area; apply hw_tri_tame; cbn; tauto.
    + right. eexists _, Debug, None, kd. eauto.
  - assert (E : match hw_camera (FO := B32_FOps Lhello) Debug with Ok cam =>
        hw_rows Lhello (t_m (c_raster_to_camera cam)) && hw_world (t_m (c_camera_to_world cam)) &&
        (let m := t_m (c_camera_to_world cam) in forallb (fun x => Bleb (Babs x) (Bof_Z (2 ^ 9))) [m00 m; m01 m; m02 m; m10 m; m11 m; m12 m; m20 m; m21 m; m22 m] &&
          is_finite (m30 m) && is_finite (m31 m) && is_finite (m32 m) && negb (feq (m33 m) f0) && negb (feq (m33 (t_m (c_raster_to_camera cam))) f0)) = true | _ => False end) by (vm_compute; reflexivity).
    destruct (hw_camera Debug) as [cam| |]; try contradiction. exists cam. split; [reflexivity|].
    apply andb_prop in E as [E1 E2]. apply andb_prop in E1 as [E1 E3]. cbv zeta in E2. cbn [forallb] in E2.
    repeat match goal with X : _ && _ = true |- _ => apply andb_prop in X as [? ?] end. split.
    + split; [now apply tame_intro|]. cbv zeta. unfold within3, within. cbn [vx vy vz]. auto 12.
    + split; [now apply negb_true_iff|]. cbv zeta. repeat split; auto. now apply negb_true_iff.
Qed.
