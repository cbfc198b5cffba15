(** * Rendering scenes with triangles and lamps without a panic (C70) *)
From Coq Require Import ZArith Reals List Bool Lia.
From Flocq Require Import IEEE754.BinarySingleNaN.
From Verif Require Import Model.Num Model.NumX Model.NumB Model.Vector Model.Common Model.BBox Model.Film Model.Interaction Model.Shape
  Model.Sphere Model.Triangle Model.Container Model.KdTree Model.Matrix Model.Transform Model.Camera Model.Sampler
  Model.Sampling Model.Reflection Model.Fresnel Model.Microfacet Model.BxDFs Model.Texture Model.Material Model.Light Model.Scene
  Model.Path Model.Render.
From Verif Require Import Spec.SamplerSpec Spec.PathSpec Spec.RenderSpec Spec.KdSpec Spec.TameSpec.
From Verif Require Import Proofs.FLaws Proofs.Bounds Proofs.SteadyProofs Proofs.SteadySphere Proofs.SteadySample Proofs.SteadyCamera Proofs.PathProofs.
From Verif Require Import Props.Containers Props.Shading1 Props.PathProps.
Import ListNotations.
Local Open Scope Z_scope.

(** what the linear scan returns is what some shape returned *)
Lemma last_hit_real {F T} {FO : FOps F} (sh : T -> shape F T) o d l : forall tm i0,
  (forall s tm, In s l -> exists h, sh_intersect (sh s) (mkRay o d tm) = Ok h) ->
  exists ans r', last_hit sh l (mkRay o d tm) i0 = Ok (ans, r') /\
    (ans = i0 \/ exists s i t r, In s l /\ r_d r = d /\ sh_intersect (sh s) r = Ok (Some (i, t)) /\ ans = Some (i_with_shape i (Some s))).
Proof.
  induction l as [|s l IH]; intros tm i0 H; cbn [last_hit]; [eauto 6|]. unfold shape_intersect.
  destruct (H s tm (or_introl eq_refl)) as (h & E). rewrite E. cbn [rbind].
  assert (H' : forall s tm, In s l -> exists h, sh_intersect (sh s) (mkRay o d tm) = Ok h) by (intros; apply H; now right).
  destruct h as [[i t]|]; cbn [rbind].
  - unfold with_tmax. cbn [r_o r_d]. destruct (IH t (Some (i_with_shape i (Some s))) H') as (a & r' & -> & D). exists a, r'. split; [reflexivity|]. right.
    destruct D as [-> |(s' & j & t' & r0 & Hs & Hd & Ej & ->)]; [exists s, i, t, (mkRay o d tm)|exists s', j, t', r0]; repeat split; auto; [now left|now right].
  - destruct (IH tm i0 H') as (a & r' & -> & D). exists a, r'. split; [reflexivity|].
    destruct D as [-> |(s' & j & t' & r0 & Hs & Hd & Ej & ->)]; [now left|right; exists s', j, t', r0; repeat split; auto; now right].
Qed.

Section Tame.
  Context (L : Libm b32) (L64 : Libm b64) {T : Type}.
  Local Existing Instance B32_FOps.
  Local Existing Instance B64_FOps.

  Lemma tame_total (s : shape b32 T) r : tame_shape L (L64 := L64) s -> steady (r_d r) ->
    (exists h, sh_intersect s r = Ok h) /\ (exists h, sh_intersect_p s r = Ok h).
  Proof. intros H Hd. destruct H as [sp Hs|t Ht|l t Ht]; cbn; [split; eauto|now apply tr_total|now apply tr_total]. Qed.

  Lemma tame_hit (s : shape b32 T) r i t : tame_shape L (L64 := L64) s -> sh_intersect s r = Ok (Some (i, t)) -> good_point L 28 i /\ good_frame L i.
  Proof.
    intros H E. destruct H as [sp Hs|tr Ht|l tr Ht]; cbn in E.
    - apply (f_equal (fun q => match q with Ok x => x | _ => None end)) in E. unfold sp_intersect in E.
      destruct (sp_has_intersection sp (sp_local_ray sp r)) as [t'|]; [|discriminate].
      apply (f_equal (fun q => match q with Some x => x | None => (i, t) end)) in E. now apply sphere_hit in E.
    - now apply tri_hit in E.
    - now apply tri_hit in E.
  Qed.

  Lemma matt_sample (m : material b32 T) i : tame_libm L -> matt L m -> good_frame L i ->
    exists b, m i = Ok b /\ forall u, in_unit (px u) -> in_unit (py u) -> exists wi f pdf fl, bsdf_sample_f b (i_wo i) u = Ok (wi, f, pdf, fl) /\
      (feq pdf f0 = false \/ flt f0 pdf = true -> steady wi).
  Proof.
    intros HL (kd & Hk & ->) HF. unfold mat_lambertian, tex_clamped. destruct (Hk i) as (v & ->). cbn [rbind]. eexists. split; [reflexivity|].
    intros u Hx Hy.
    assert (NS : exists wi f pdf fl, Ok no_sample = Ok (wi, f, pdf, fl) /\ (feq pdf f0 = false \/ flt f0 pdf = true -> steady wi)).
    { exists v3zero, v3zero, f0, 0. split; [reflexivity|]. intros [E|E]; cbn in E; discriminate. }
    destruct (is_black _); cbn [negb]; [exact NS|].
    set (r := spectrum_clamp v f0 finf). clearbody r. unfold bsdf_sample_f. cbn [bsdf_add bsdf_new bs_bxdfs app length]. change (Z.of_nat 1 =? 0) with false. cbv iota zeta.
    destruct (C51_binary32 L 1 (px u) ltac:(lia) Hx) as [Hp Hr].
    assert (E0 : bsdf_pick 1 (px u) = 0) by lia. change (Z.of_nat 1) with 1. rewrite E0. cbv iota beta.
    change (idx [lambertian r] 0) with (Ok (lambertian r)). cbn [rbind].
    set (b := bsdf_add (bsdf_new i) (lambertian r)).
    destruct (feq (vz (world_to_local b (i_wo i))) f0); [exact NS|].
    cbn [bx_sample_f lambertian]. pose proof (lamb_bd L r (world_to_local b (i_wo i)) (mkP2 (bsdf_remap 1 (px u)) (py u)) HL Hr Hy) as Bw.
    destruct (lamb_sample r _ _) as [[wi f] pdf] eqn:El. cbn [fst] in Bw.
    destruct (feq pdf f0); [exact NS|].
    change (1 <? 1) with false. rewrite andb_false_r. eexists _, _, _, _. split; [reflexivity|]. intros _.
    destruct (to_world L b wi eq_refl HF Bw) as [N|V]; [eapply vn_steady; exact N|eapply vb_steady; exact V].
  Qed.

  (** a scene of tame shapes and lights *)
  Record tame_scene (sh : T -> shape b32 T) (surf : T -> surface b32 T) (sc : scene b32 T (container b32 T)) (l : list T) : Prop := {
    tm_shapes : forall t, In t l -> tame_shape L (L64 := L64) (sh t) /\ matt L (sf_scatter (surf t));
    tm_lights : forall q, In q (sc_lights sc) -> tame_light L q;
    tm_container : (exists c, simple_new sh l = Ok c /\ sc_shapes sc = simple_container sh c) \/
      (exists srt m md kd, sort_by_ok edge_cmp srt /\ kd_new sh srt m l md = Ok kd /\ sc_shapes sc = kd_container sh kd) }.

  (** what a container over tame shapes returns is what some shape returned for a ray with the same direction *)
  Definition holds (sh : T -> shape b32 T) (c : container b32 T) (l : list T) : Prop :=
    (exists c', simple_new sh l = Ok c' /\ c = simple_container sh c') \/
    (exists srt m md kd, sort_by_ok edge_cmp srt /\ kd_new sh srt m l md = Ok kd /\ c = kd_container sh kd).

  Lemma short_dir (sh : T -> shape b32 T) l r r' : shortened sh l r r' -> r_d r' = r_d r.
  Proof. now destruct 1. Qed.

  Lemma tame_hits sh c l : (forall t, In t l -> tame_shape L (L64 := L64) (sh t)) -> holds sh c l ->
    (forall r, steady (r_d r) -> exists o, c_intersect c r = Ok o /\
       forall j, o = Some j -> exists s i t r', In s l /\ r_d r' = r_d r /\ sh_intersect (sh s) r' = Ok (Some (i, t)) /\ j = i_with_shape i (Some s)) /\
    (forall r, steady (r_d r) -> exists b, c_intersect_p c r = Ok b).
  Proof.
    intros Hs Hc.
    assert (Si : forall o d, steady d -> forall s tm, In s l -> exists h, sh_intersect (sh s) (mkRay o d tm) = Ok h).
    { intros o d Hd s tm Hin. apply tame_total; [now apply Hs|exact Hd]. }
    assert (Sp : forall o d, steady d -> forall s tm, In s l -> exists h, sh_intersect_p (sh s) (mkRay o d tm) = Ok h).
    { intros o d Hd s tm Hin. apply tame_total; [now apply Hs|exact Hd]. }
    destruct Hc as [(c' & Ec & ->)|(srt & m & md & kd & SO & Ek & ->)]; split; intros [o d tm] Hd; cbn [r_d] in Hd.
    - cbn. unfold simple_intersect. assert (si_shapes c' = l) as -> by (unfold simple_new in Ec; destruct (bbox_of_shapes sh l); [|discriminate|discriminate]; cbn in Ec; injection Ec as <-; reflexivity).
      destruct (bbox_intersect _ _); [|exists None; split; [reflexivity|discriminate]].
      destruct (last_hit_real sh o d l tm None (Si o d Hd)) as (a & r' & -> & D). cbn [rbind]. exists a. split; [reflexivity|]. intros j ->.
      destruct D as [D|(s & i & t & r & Hin & Er & E & D)]; [discriminate|]. exists s, i, t, r. repeat split; auto. congruence.
    - cbn. unfold simple_intersect_p. assert (si_shapes c' = l) as -> by (unfold simple_new in Ec; destruct (bbox_of_shapes sh l); [|discriminate|discriminate]; cbn in Ec; injection Ec as <-; reflexivity).
      destruct (bbox_intersect _ _); [|eauto]. apply any_hit_ok. intros s Hin. now apply Sp.
    - destruct (C45_total b32 T _ sh srt m l md kd o d tm SO Ek (Si o d Hd) (Sp o d Hd)) as [(ans & E) _]. cbn. exists ans. split; [exact E|]. intros j ->.
      destruct (C45_real_hits b32 T _ sh srt m l md kd (mkRay o d tm) SO Ek) as [H _]. destruct (H j E) as (s & i & t & r' & Hin & Sh & E' & ->).
      exists s, i, t, r'. repeat split; auto. exact (short_dir _ _ _ _ Sh).
    - destruct (C45_total b32 T _ sh srt m l md kd o d tm SO Ek (Si o d Hd) (Sp o d Hd)) as [_ (ans & E)]. cbn. eauto.
  Qed.

  (** shadow rays from tame points to tame lights *)
  Lemma tame_shadow sh c l (i : interaction b32 T) q u : (forall t, In t l -> tame_shape L (L64 := L64) (sh t)) -> holds sh c l ->
    good_point L 28 i -> tame_light L q -> in_unit (px u) -> in_unit (py u) ->
    exists wi li pdf v, l_sample_li q i u = Ok (wi, li, pdf, v) /\ exists h, c_intersect_p c (spawn_ray_to (v_p0 v) (v_p1 v)) = Ok h.
  Proof.
    intros Hs Hc GP Hq Hx Hy. destruct (tame_hits sh c l Hs Hc) as [_ G2]. destruct Hq as [d Hw Hrad|me e tr Htr]; cbn.
    - unfold distant_sample_li. eexists _, _, _, _. split; [reflexivity|]. apply G2. cbn [v_p0 v_p1].
      apply (shadow_steady L); [exact GP|]. intros Vp. apply sun_point; [exact Vp| |].
      + apply (within3_vb L 1 2); [lia|cbn; lia|exact Hw].
      + apply (within_bd L 24 (2 ^ 24)); [lia|lia|exact Hrad].
    - unfold area_sample_li, sh_sample_ref. cbn [al_shape triangle_shape sh_sample rbind]. eexists _, _, _, _. split; [reflexivity|]. apply G2. cbn [v_p0 v_p1].
      apply (shadow_steady L); [exact GP|]. intros _. now apply tri_light.
  Qed.

  Lemma tame_robust sh surf sc l : tame_libm L -> tame_scene sh surf sc l -> robust_on surf sc (fun _ r => steady (r_d r)).
  Proof.
    intros HL [Hs Hq Hc].
    destruct (tame_hits sh (sc_shapes sc) l (fun t Ht => proj1 (Hs t Ht)) Hc) as [G1 G2].
    constructor. intros k r _ Hr. destruct (G1 r Hr) as (o & Eo & Ho). exists o. split; [exact Eo|]. intros j Ej.
    destruct (Ho j Ej) as (s & i & t & r' & Hin & _ & Ei & ->). destruct (Hs s Hin) as [Ht Hm].
    destruct (tame_hit (sh s) r' i t Ht Ei) as [GP GF].
    destruct (matt_sample (sf_scatter (surf s)) (i_with_shape i (Some s)) HL Hm GF) as (b & Eb & Hb).
    exists s. split; [reflexivity|]. intros _. exists b. split; [exact Eb|]. split; [exact Hb|].
    intros q u Hql Hx Hy. apply (tame_shadow sh _ l); auto. intros t' Ht'. now apply Hs.
  Qed.
End Tame.

(** Proved part, with triangles and lamps: a release build traces every path of a tame scene -- spheres,
    triangles and triangular lamps of moderate size, matt, lit by the lamps and by distant lights, in either
    container -- seen by a tame camera to the end, with either sampler.  Missing: mirrors, glass and rough surfaces
    in scenes with triangles. *)
Theorem C70_tame_partial : forall (L : Libm b32) (L64 : Libm b64) (T : Type) (sh : T -> shape b32 T) (surf : T -> surface b32 T)
    (sc : scene b32 T (container b32 T)) (l : list T) teq (cam : perspective_camera b32),
  tame_libm L -> tame_scene L L64 sh surf sc l -> tame_camera L cam ->
  (forall spp b w h s0, area b w h -> halton_new Release spp b = Ok s0 ->
     halton_shade Release s0 (shade (halton_ops Release) teq surf sc (generate_ray Release cam) 66)) /\
  (forall G (rng : G -> b32 * G) spp, (forall g, in_unit (fst (rng g))) -> 1 <= spp ->
     random_shade rng Release spp (shade (random_ops rng Release) teq surf sc (generate_ray Release cam) 66)).
Proof.
  intros L L64 T sh surf sc l teq cam HL HS HC. pose proof (tame_robust L L64 sh surf sc l HL HS) as RB. split.
  - intros spp b w h s0 Ha E. eapply (halton_on b32 T _ (B32_FLaws L)); eauto. intros p. now apply camera_steady.
  - intros G rng spp Hu Hs. eapply (random_on b32 T G _ (B32_FLaws L)); eauto. intros p. now apply camera_steady.
Qed.
Print Assumptions C70_tame_partial.
