(** * Surfaces of every material in scenes of moderate size (C70, C89) *)
From Coq Require Import ZArith Reals List Bool Lia Lra Psatz.
From Flocq Require Import Core IEEE754.BinarySingleNaN.
From Verif Require Import Model.Num Model.NumX Model.NumB Model.Vector Model.Common Model.BBox Model.Film Model.Interaction Model.Shape
  Model.Sphere Model.Triangle Model.Container Model.KdTree Model.Matrix Model.Transform Model.Camera Model.Sampler
  Model.Sampling Model.Reflection Model.Fresnel Model.Microfacet Model.BxDFs Model.Texture Model.Material Model.Light Model.Scene
  Model.Path Model.Render Model.HelloWorld.
From Verif Require Import Spec.RVec Spec.SamplerSpec Spec.PathSpec Spec.RenderSpec Spec.KdSpec Spec.TameSpec Spec.FinishSpec Spec.WholeSpec.
From Verif Require Import Proofs.XBase Proofs.RVecProofs Proofs.BBase Proofs.FLaws Proofs.Bounds Proofs.SteadyProofs Proofs.SteadySphere Proofs.SteadySample
  Proofs.SteadyCamera Proofs.SteadyMirror Proofs.SteadySmooth Proofs.SteadyRough Proofs.PathProofs Proofs.SortProofs.
From Verif Require Import Props.RenderProps Props.Film3 Props.Containers Props.Shading1 Props.PathProps Props.Robust2 Props.WholeRender Props.HelloProps Props.Robust3 Props.Built.
Import ListNotations.
Local Open Scope Z_scope.

Section Any.
  Context (L : Libm b32) (L64 : Libm b64) {T : Type}.
  Local Existing Instance B32_FOps.
  Local Existing Instance B32_FLaws.
  Local Existing Instance B64_FOps.

  Lemma any_tame (s : shape b32 T) m : fit_any L (L64 := L64) s m -> tame_shape L (L64 := L64) s.
  Proof. intros []; [now apply fit_tame in H|constructor; auto..]; now destruct H. Qed.

  (** ** the components of the materials *)
  Lemma add_in (P : bxdf b32 -> Prop) (b : bsdf b32) x : (forall y, In y (bs_bxdfs b) -> P y) -> P x -> forall y, In y (bs_bxdfs (bsdf_add b x)) -> P y.
  Proof. intros H Hx y Hy. cbn [bsdf_add bs_bxdfs] in Hy. apply in_app_or in Hy as [Hy|[<-|[]]]; auto. Qed.
  Lemma if_in (P : bxdf b32 -> Prop) (b : bsdf b32) x (c : bool) : (forall y, In y (bs_bxdfs b) -> P y) -> P x ->
    forall y, In y (bs_bxdfs (if c then bsdf_add b x else b)) -> P y.
  Proof. intros H Hx. destruct c; [now apply add_in|exact H]. Qed.

  Lemma finish_bsdf m (i : interaction b32 T) : finish L m -> clear L i ->
    exists bs, m i = Ok bs /\ framed L i bs /\ (forall x, In x (bs_bxdfs bs) -> kind L (20002 / 10000) i x \/ sort L i x) /\ (length (bs_bxdfs bs) <= 100)%nat.
  Proof.
    intros Hm Cl. pose proof (clear_firm L i Cl) as Fm.
    assert (E0 : forall y, In y (bs_bxdfs (bsdf_new i)) -> kind L (20002 / 10000) i y \/ sort L i y) by (intros y []).
    assert (TC : forall t, total t -> exists v, tex_clamped (T := T) t i = Ok v) by (intros t Ht; unfold tex_clamped; destruct (Ht i) as (v & ->); eexists; reflexivity).
    assert (KR : forall r fr, kind L (20002 / 10000) i (specular_reflection r fr) \/ sort L i (specular_reflection r fr)) by (intros r fr; left; right; split; [exact Fm|left; eauto]).
    assert (KL : forall r, kind L (20002 / 10000) i (lambertian r) \/ sort L i (lambertian r)) by (intros r; left; left; eauto).
    assert (KM : forall r d fr, kind L (20002 / 10000) i (microfacet_reflection r d fr) \/ sort L i (microfacet_reflection r d fr)) by (intros r d fr; right; split; [exact Cl|left; eauto]).
    destruct Hm as [kd Hd|kr Hr|kd ks ro Hd Hs Hro|r eta k ru rv Hr He Hk Hru Hrv|kr kt eta ru rv Hr Ht He Hru Hrv].
    - unfold mat_lambertian. destruct (TC kd Hd) as (v & ->). cbn [rbind]. eexists. split; [reflexivity|]. split; [apply framed_if, framed_new|].
      split; [apply if_in; auto|]. destruct (negb _); cbn; lia.
    - unfold mat_mirror. destruct (TC kr Hr) as (v & ->). cbn [rbind]. eexists. split; [reflexivity|]. split; [apply framed_if, framed_new|].
      split; [apply if_in; auto|]. destruct (negb _); cbn; lia.
    - unfold mat_plastic. destruct (TC kd Hd) as (d & ->). destruct (TC ks Hs) as (s & ->). cbn [rbind]. destruct (Hro i) as (ro' & ->). cbn [rbind].
      destruct (negb (is_black s)).
      + eexists. split; [reflexivity|]. split; [apply framed_add, framed_if, framed_new|]. split; [apply add_in; [apply if_in; auto|destruct (feq ro' f0); auto]|]. destruct (negb _); cbn; lia.
      + eexists. split; [reflexivity|]. split; [apply framed_if, framed_new|]. split; [apply if_in; auto|]. destruct (negb _); cbn; lia.
    - unfold mat_metal. destruct (TC r Hr) as (r' & ->). destruct (He i) as (e' & ->). destruct (Hk i) as (k' & ->). destruct (Hru i) as (u' & ->). destruct (Hrv i) as (v' & ->).
      cbn [rbind]. eexists. split; [reflexivity|]. split; [apply framed_add, framed_new|]. split; [apply add_in; auto; destruct (feq u' f0 && feq v' f0)%bool; auto|]. cbn; lia.
    - unfold mat_glass. destruct (He i) as (e' & -> & H1 & H2). destruct (TC kr Hr) as (r' & ->). destruct (TC kt Ht) as (t' & ->). destruct (Hru i) as (u' & ->). destruct (Hrv i) as (v' & ->).
      assert (RT : ratio L (20002 / 10000) e') by (eapply glassy_ratio; [left; repeat split; reflexivity|exact H1|exact H2]).
      cbn [rbind]. destruct (feq u' f0 && feq v' f0)%bool; (eexists; split; [reflexivity|]; split; [apply framed_if, framed_if, framed_new|]; split;
        [apply if_in; [apply if_in; auto|]|destruct (negb (is_black r')), (negb (is_black t')); cbn; lia]).
      + left. right. split; [exact Fm|]. right. eauto.
      + right. split; [exact Cl|]. right. eauto.
  Qed.

  (** ** what is hit, and the directions sampled there *)
  Definition settled (m : material b32 T) (i : interaction b32 T) : Prop :=
    (matt L m \/ exists a b K, ((a = 3 /\ b = 2 /\ K = (20002 / 10000)%R) \/ (a = 5 /\ b = 2 /\ K = (10001 / 10000)%R)) /\ smooth L a b m /\ firm L K i) \/ finish L m /\ clear L i.

  Lemma any_hit (s : shape b32 T) m r i t : fit_any L (L64 := L64) s m -> sh_intersect s r = Ok (Some (i, t)) ->
    good_point L 28 i /\ good_frame L i /\ i_wo i = v3neg (r_d r) /\ settled m i.
  Proof.
    intros H E. destruct (tame_hit L L64 s r i t (any_tame s m H) E) as [GP GF]. split; [exact GP|]. split; [exact GF|].
    destruct H as [s m Hf|sp m Hs Hm|tr m Ht Hm|l tr m Ht Hm].
    - destruct (fit_hit L L64 s m r i t Hf E) as (_ & _ & Ew & HM). split; [exact Ew|now left].
    - cbn in E. apply (f_equal (fun q => match q with Ok x => x | _ => None end)) in E. unfold sp_intersect in E.
      destruct (sp_has_intersection sp (sp_local_ray sp r)) as [t'|]; [|discriminate].
      apply (f_equal (fun q => match q with Some x => x | None => (i, t) end)) in E.
      pose proof (sphere_clear L sp _ t' i t Hs E) as Cl. apply (sphere_firm L) in E as [_ Ew]; [|exact Hs]. split; [exact Ew|]. right. split; [exact Hm|]. exact Cl.
    - cbn in E. split; [now apply (tri_wo L) in E|]. right. split; [exact Hm|]. apply firm_clear. now apply (fair_firm L) in E.
    - cbn in E. split; [now apply (tri_wo L) in E|]. right. split; [exact Hm|]. apply firm_clear. now apply (fair_firm L) in E.
  Qed.

  Lemma any_sample (m : material b32 T) i rho : fair_libm L -> good_frame L i -> settled m i ->
    reach L rho (i_wo i) -> (pw 13 <= rho)%R -> (24 * rho <= pw 120)%R ->
    exists b, m i = Ok b /\ forall u, in_unit (px u) -> in_unit (py u) -> exists wi f pdf fl, bsdf_sample_f b (i_wo i) u = Ok (wi, f, pdf, fl) /\
      (feq pdf f0 = false \/ flt f0 pdf = true -> reach L (302 / 100 * rho) wi).
  Proof.
    intros HL GF [HM|[Hm Cl]] Hwo R1 R2; [apply fit_sample; auto; now apply fair_tame|].
    destruct (finish_bsdf m i Hm Cl) as (bs & Eb & (F1 & F2 & F3) & Hk & Hl). exists bs. split; [exact Eb|]. intros u Hx Hy.
    apply (sorts_sample L (20002 / 10000) i); auto. lra.
  Qed.

  (** a scene of tame shapes with surfaces of every material, and of tame lights *)
  Record any_scene (sh : T -> shape b32 T) (surf : T -> surface b32 T) (sc : scene b32 T (container b32 T)) (l : list T) : Prop := {
    an_shapes : forall t, In t l -> fit_any L (L64 := L64) (sh t) (sf_scatter (surf t));
    an_lights : forall q, In q (sc_lights sc) -> tame_light L q;
    an_container : holds L sh (sc_shapes sc) l }.

  Lemma any_robust sh surf sc l : fair_libm L -> any_scene sh surf sc l -> robust_on surf sc (fun k r => reach L (lev k) (r_d r)).
  Proof.
    intros HL [Hs Hq Hc].
    assert (Ht : forall t, In t l -> tame_shape L (L64 := L64) (sh t)) by (intros t Hin; eapply any_tame; eauto).
    destruct (tame_hits L L64 sh (sc_shapes sc) l Ht Hc) as [G1 G2].
    constructor. intros k r Hk Hr. destruct (G1 r (reach_steady L _ _ Hr)) as (o & Eo & Ho). exists o. split; [exact Eo|]. intros j Ej.
    destruct (Ho j Ej) as (s & i & t & r' & Hin & Ed & Ei & ->).
    destruct (any_hit (sh s) _ r' i t (Hs s Hin) Ei) as (GP & GF & Ew & HM).
    exists s. split; [reflexivity|]. intros Hk64.
    destruct (any_sample (sf_scatter (surf s)) (i_with_shape i (Some s)) (lev k) HL GF HM) as (b & Eb & Hb).
    - change (i_wo (i_with_shape i (Some s))) with (i_wo i). rewrite Ew, Ed. now apply reach_neg.
    - apply lev_min.
    - apply lev_max. lia.
    - exists b. split; [exact Eb|]. split.
      + intros u Hx Hy. destruct (Hb u Hx Hy) as (wi & f & pdf & fl & E & R). exists wi, f, pdf, fl. split; [exact E|]. intros P. specialize (R P).
        rewrite lev_next by lia. exact R.
      + intros q u Hql Hx Hy. apply (tame_shadow L L64 sh _ l); auto.
  Qed.

  Lemma any_built sh al surf m make (b : builder b32 T) : any_plan L (L64 := L64) sh al (fun t => sf_scatter (surf t)) b -> any_container L m sh make ->
    exists sc, construct sh al make b = Ok sc /\ any_scene sh surf sc (bd_shapes b ++ bd_areas b).
  Proof.
    intros [P1 P2 P3 P4 P5] Hm.
    assert (FT : forall t, In t (bd_shapes b ++ bd_areas b) -> fit_any L (L64 := L64) (sh t) (sf_scatter (surf t))).
    { intros t Ht. apply in_app_or in Ht as [Ht|Ht]; [auto|]. now destruct (P4 t Ht) as (_ & ? & _). }
    destruct (built_parts L L64 sh al m make b P1 P2) as (sc & Ec & Hl & Hc); auto.
    - intros t Ht. eapply any_tame; eauto.
    - intros t Ht. destruct (P4 t Ht) as (? & _ & ?). auto.
    - exists sc. split; [exact Ec|]. constructor; auto.
  Qed.
End Any.

(** Proved part, with all materials of the library, smooth and rough: builds of both kinds trace every path of a
    scene of moderate size -- spheres, triangles and triangular lamps lit by the lamps and by distant lights, in either
    container -- seen by a calm camera to the end, with either sampler; in debug builds with at most 84 Halton samples.
    Missing: scenes that are not of moderate size, for which the claim is false, see [C70_refuted]; glass of a
    refractive index above 3/2 (5/2 if smooth and on a triangle). *)
Theorem C70_finishes_partial : forall (L : Libm b32) (L64 : Libm b64) (T : Type) (sh : T -> shape b32 T) (surf : T -> surface b32 T)
    (sc : scene b32 T (container b32 T)) (l : list T) teq (cam : perspective_camera b32) m,
  fair_libm L -> any_scene L L64 sh surf sc l -> calm_camera L cam -> m = Release \/ upright_camera L cam ->
  (forall spp b w h s0, area b w h -> halton_new m spp b = Ok s0 -> m = Release \/ spp <= 84 ->
     halton_shade m s0 (shade (halton_ops m) teq surf sc (generate_ray m cam) 66)) /\
  (forall G (rng : G -> b32 * G) spp, (forall g, in_unit (fst (rng g))) -> 1 <= spp ->
     random_shade rng m spp (shade (random_ops rng m) teq surf sc (generate_ray m cam) 66)).
Proof.
  intros L L64 T sh surf sc l teq cam m HL HS HC Hm. pose proof (any_robust L L64 sh surf sc l HL HS) as RB. split.
  - intros spp b w h s0 Ha E Hspp. eapply (halton_on b32 T _ (B32_FLaws L)); eauto; [destruct Hspp; [now left|right; lia]|]. intros p. now apply calm_ray.
  - intros G rng spp Hu Hs. eapply (random_on b32 T G _ (B32_FLaws L)); eauto. intros p. now apply calm_ray.
Qed.
Print Assumptions C70_finishes_partial.

(** From the builder to the picture: shapes and lamps of moderate size with surfaces of every material, and distant
    lights, are made into a scene with either container and rendered to the end, under every schedule, in both builds,
    with either sampler. *)
Theorem C89_finishes : forall (L : Libm b32) (L64 : Libm b64) (T : Type) (sh : T -> shape b32 T) (al : T -> area_light b32 T) (surf : T -> surface b32 T)
    (b : builder b32 T) m make teq (cam : perspective_camera b32) res flt fm spp k,
  fair_libm L -> any_plan L (L64 := L64) sh al (fun t => sf_scatter (surf t)) b -> any_container L m sh make ->
  calm_camera L cam -> m = Release \/ upright_camera L cam /\ spp <= 84 ->
  film_args (F := b32) res flt -> film_new m res flt = Ok fm -> 0 <= spp < 2 ^ 32 -> (1 <= k)%nat ->
  exists sc, construct sh al make b = Ok sc /\
  (exists s0, halton_new m spp (film_sample_bbox fm) = Ok s0 /\
     whole_render m (halton_ops m) (shade (halton_ops m) teq surf sc (generate_ray m cam) 66) (samples spp) res fm s0 k) /\
  (forall G (rng : G -> b32 * G) g, (forall g, in_unit (fst (rng g))) -> 1 <= spp ->
     whole_render m (random_ops rng m) (shade (random_ops rng m) teq surf sc (generate_ray m cam) 66) (samples spp) res fm
       (random_new spp g) k).
Proof.
  intros L L64 T sh al surf b m make teq cam res flt fm spp k HL HP HM HC Hm Ha En Hs Hk.
  destruct (any_built L L64 sh al surf m make b HP HM) as (sc & Ec & HS). exists sc. split; [exact Ec|].
  destruct (C70_finishes_partial L L64 T sh surf sc _ teq cam m HL HS HC ltac:(tauto)) as [RH RR]. split.
  - destruct (film_area L m res flt fm Ha En) as (w & h & Har). destruct (Props.HaltonProps.halton_new_total m spp _ w h Har) as (s0 & Eh).
    exists s0. split; [exact Eh|].
    destruct (halton_serves_new (FL := B32_FLaws L) m spp _ w h s0 _ Har Eh Hs ltac:(destruct Hm as [ | [_ Hm] ]; [now left|right; lia]) (RH spp _ w h s0 Har Eh ltac:(tauto)))
      as (I & A & B & left & V & Is & _).
    eapply serves_whole; eauto. unfold samples. lia.
  - intros G rng g Hg H1.
    destruct (random_serves_new (FL := B32_FLaws L) rng m spp g _ Hg Hs ltac:(tauto) (RR G rng spp Hg H1)) as (I & A & B & left & V & Is).
    eapply serves_whole; eauto. unfold samples. lia.
Qed.
Print Assumptions C89_finishes.

(** The builder of the example program with a ball of frosted glass on a mirror and a plate of brushed metal, under
    lamps of which one is of rough plastic, and a sun. *)
Definition frosted_surf (t : hw_shape) : surface b32 hw_shape :=
  let _ := B32_FOps Lhello in
  match t with
  | Lamp1 => hw_surf Lamp1
  | Lamp2 => mkSurf (mat_plastic (constant_texture (spectrum_of fhalf)) (constant_texture (spectrum_of f1)) (constant_texture (flit 3 1))) (area_l (hw_al Lamp2))
  | Ball => mkSurf (mat_glass (constant_texture (spectrum_of f1)) (constant_texture (spectrum_of f1)) (constant_texture (flit 15 1)) (constant_texture (flit 1 1)) (constant_texture (flit 2 1))) (fun _ _ => v3zero)
  | Floor1 => mkSurf (mat_mirror (constant_texture (spectrum_of (flit 9 1)))) (fun _ _ => v3zero)
  | Floor2 => mkSurf (mat_metal (constant_texture (spectrum_of f1)) (constant_texture (spectrum_of f2)) (constant_texture (spectrum_of f1)) (constant_texture (flit 1 2)) (constant_texture fhalf)) (fun _ _ => v3zero)
  end.

Lemma frosted_fit (L64 : Libm b64) t : fit_any Lhello (L64 := L64) (hw_sh (FO := B32_FOps Lhello) (DO := B64_FOps L64) t) (sf_scatter (frosted_surf t)).
Proof.
  assert (C : forall A (v : A), total (T := hw_shape) (constant_texture v)) by (intros A v i; eexists; reflexivity).
  destruct t.
  - apply any_lamp; [apply hw_fair; cbn; tauto|]. apply finish_matt; auto.
  - apply any_lamp; [apply hw_fair; cbn; tauto|]. apply finish_plastic; auto.
  - apply any_sphere; [constructor; [repeat split|..]; vm_compute; reflexivity|]. apply finish_glass; auto.
    intros i. eexists. split; [reflexivity|]. split; vm_compute; reflexivity.
  - apply any_triangle; [apply hw_fair; cbn; tauto|]. apply finish_mirror; auto.
  - apply any_triangle; [apply hw_fair; cbn; tauto|]. apply finish_metal; auto.
Qed.

Example C70_finishes_example : forall L64 : Libm b64, let _ := B32_FOps Lhello in let _ := B64_FOps L64 in
  fair_libm Lhello /\
  any_plan Lhello (L64 := L64) (hw_sh (D := b64)) hw_al (fun t => sf_scatter (frosted_surf t)) shiny_builder /\
  any_container Lhello Debug (hw_sh (D := b64)) (fun l => let! c := simple_new (hw_sh (D := b64)) l in Ok (simple_container (hw_sh (D := b64)) c)) /\
  exists sc, construct (hw_sh (D := b64)) hw_al (fun l => let! c := simple_new (hw_sh (D := b64)) l in Ok (simple_container (hw_sh (D := b64)) c)) shiny_builder = Ok sc /\
    any_scene Lhello L64 (hw_sh (D := b64)) frosted_surf sc (bd_shapes shiny_builder ++ bd_areas shiny_builder).
Proof.
  intros L64 FO DO. unfold FO, DO. clear FO DO. split; [intros x; right; vm_compute; repeat split; reflexivity|].
  assert (P : any_plan Lhello (L64 := L64) (hw_sh (D := b64) (FO := B32_FOps Lhello) (DO := B64_FOps L64)) (hw_al (FO := B32_FOps Lhello)) (fun t => sf_scatter (frosted_surf t)) shiny_builder).
  { constructor.
    + discriminate.
    + reflexivity.
    + intros t _. apply frosted_fit.
    + intros t Ht. cbn in Ht. assert (Ht' : t = Lamp1 \/ t = Lamp2) by (destruct Ht as [<-|[<-|[]]]; auto).
      split; [destruct Ht' as [-> | ->]; reflexivity|]. split; [apply frosted_fit|].
      destruct Ht' as [-> | ->]; eexists _, _; (split; [reflexivity|]); apply hw_tri_tame; cbn; tauto.
    + intros q Hq. cbn in Hq. destruct Hq as [<-|[]]. apply plain_sun_at; vm_compute; reflexivity. }
  split; [exact P|]. split; [now right|]. apply (any_built Lhello L64 _ _ _ Debug); [exact P|now right].
Qed.
