(** * The path tracer stays within its sample dimensions (C18) *)
From Coq Require Import ZArith Reals List Bool Lia ZifyBool Znumtheory Permutation.
From Verif Require Import Model.Num Model.NumX Model.NumB Model.Vector Model.Common Model.BBox Model.Film Model.Interaction Model.Shape
  Model.Sphere Model.Triangle Model.Container Model.KdTree Model.Matrix Model.Transform Model.Camera Model.HaltonTable Model.Sampler
  Model.Sampling Model.Reflection Model.Fresnel Model.Microfacet Model.BxDFs Model.Texture Model.Material Model.Light Model.Scene
  Model.Path Model.Render.
From Verif Require Import Spec.HaltonSpec Spec.SamplerSpec Spec.RenderSpec Spec.PathSpec Spec.KdSpec.
From Verif Require Import Proofs.XBase Proofs.FLaws Proofs.Halton Proofs.HaltonState Proofs.Serves Proofs.PathProofs.
From Verif Require Import Props.HaltonProps Props.RenderProps Props.Containers Props.Shading1.
Import ListNotations.
Local Open Scope Z_scope.

(** However the scene, the surfaces, the lights and the sampler behave, 517 dimensions are enough: with a
    sampler that panics on the 518th, tracing a path gives the same answer. *)
Theorem C18_dimensions : forall (F T ST : Type) (FO : FOps F) (sm : sampler_ops F ST) teq (surf : T -> surface F T) sc fuel s r,
  unration (li (ration sm) teq surf sc fuel (s, 517) r) = li sm teq surf sc fuel s r.
Proof.
  intros. unfold li. refine (proj1 (tracks_loop sm teq surf sc fuel r v3zero (spectrum_of f1) false 0 _ s 517 _)); [lia|]. unfold need. lia.
Qed.
Print Assumptions C18_dimensions.

(** and the loop ends after at most 66 rounds, one intersection test of the path's own ray in each: if nothing
    it calls runs forever, neither does the path tracer *)
Theorem C18_stops : forall (F T ST : Type) (FO : FOps F) (sm : sampler_ops F ST) teq (surf : T -> surface F T) sc s r,
  (forall s, sm_get_1d sm s <> Timeout) -> (forall s, sm_get_2d sm s <> Timeout) -> always_stops surf sc ->
  li sm teq surf sc 66 s r <> Timeout.
Proof. intros F T ST FO sm teq surf sc s r H1 H2 A. unfold li. apply loop_stops; auto; lia. Qed.
Print Assumptions C18_stops.

(** ** the Halton sampler *)

(** For indices below 1627^2 no power of a base on the way to the radical inverse exceeds 32 bits. *)
Lemma bases_fit : forallb (fun p => existsb (fun k => (p ^ Z.of_nat k <? 2 ^ 32) && (2647129 <=? p ^ Z.of_nat k)) (seq 0 32)) halton_bases = true.
Proof. vm_compute. reflexivity. Qed.

Definition h_stock {F} {FO : FOps F} (m : build) (s0 : halton) (n : Z) (s : halton) : Prop :=
  reach (halton_ops (F := F) m) s0 s /\ 2 <= h_dim s /\ h_dim s + n <= 1024 /\ (m = Release \/ h_interval s < 2647129).

Section H.
  Context {F} {FO : FOps F} {FL : FLaws F}.

  Lemma fto_usize_nonneg (x : F) : 0 <= fto_usize x.
  Proof.
    unfold fto_usize. rewrite emb_to_int. unfold xto_int, usize_max. destruct (emb x) as [|[]|r]; try lia.
  Qed.

  Lemma sample_dim_ok m spp b w h s0 s d : area b w h -> halton_new m spp b = Ok s0 -> reach (halton_ops (F := F) m) s0 s ->
    2 <= d < 1024 -> m = Release \/ h_interval s < 2647129 -> exists v : F, sample_dimension m s (h_interval s) d = Ok v.
  Proof.
    intros Ha E R Hd Hm. destruct (new_state m spp b w h s0 Ha E) as (ex & ey & H & I0 & _).
    pose proof (hinv_reach m s0 ex ey s H I0 R) as I. pose proof (hi_interval _ _ I).
    unfold sample_dimension, radical_inverse_prime. replace (d =? 0) with false by lia. replace (d =? 1) with false by lia.
    destruct (idx_bases d ltac:(lia)) as (p & -> & Hp & En). cbn [rbind]. apply prime_ge_2 in Hp.
    destruct Hm as [->|Hm]; [destruct (radical_inverse_release (F := F) p (h_interval s)) as (v & q & Ev & _); eauto|].
    apply nth_error_In in En. pose proof bases_fit as Bf. rewrite forallb_forall in Bf. specialize (Bf p En).
    apply existsb_exists in Bf as (k & _ & Bk). apply (radical_defined m p _ k); lia.
  Qed.

  Lemma halton_stocked m spp b w h s0 : area b w h -> halton_new m spp b = Ok s0 -> stocked (halton_ops (F := F) m) (h_stock (F := F) m s0).
  Proof.
    intros Ha E n s (R & Hd & Hn & Hm). destruct (C13_get_1d_in_unit F FO FL m spp b w h s0 s Ha E R) as (U1 & U2 & _). split; intros H.
    - destruct (sample_dim_ok m spp b w h s0 s (h_dim s) Ha E R ltac:(lia) Hm) as (v & Ev).
      assert (G : halton_get_1d m s = Ok (v, halton_set_dim s (h_dim s + 1))) by (unfold halton_get_1d; rewrite Ev; cbn [rbind]; rewrite u32_of_ok by lia; reflexivity).
      exists v, (halton_set_dim s (h_dim s + 1)). split; [exact G|]. split; [eauto|].
      split; [exact (reach_1d (halton_ops m) s0 s v _ R G)|]. cbn. split; [lia|]. split; [lia|exact Hm].
    - destruct (sample_dim_ok m spp b w h s0 s (h_dim s) Ha E R ltac:(lia) Hm) as (v & Ev).
      destruct (sample_dim_ok m spp b w h s0 s (h_dim s + 1) Ha E R ltac:(lia) Hm) as (v1 & Ev1).
      assert (G : halton_get_2d m s = Ok (mkP2 v v1, halton_set_dim s (h_dim s + 2))).
      { unfold halton_get_2d. rewrite Ev. cbn [rbind]. rewrite u32_of_ok by lia. cbn [rbind]. rewrite Ev1. cbn [rbind]. rewrite u32_of_ok by lia. reflexivity. }
      exists (mkP2 v v1), (halton_set_dim s (h_dim s + 2)). split; [exact G|]. destruct (U2 _ _ G) as [Ux Uy]. split; [exact Ux|]. split; [exact Uy|].
      split; [exact (reach_2d (halton_ops m) s0 s _ _ R G)|]. cbn. split; [lia|]. split; [lia|exact Hm].
  Qed.
End H.

(** In a scene in which nothing panics on rays of [G k] after [k] bounces, a path traced with the Halton sampler
    after its camera sample returns if the camera's rays are in [G 0]. *)
Lemma halton_on : forall (F T : Type) (FO : FOps F) (FL : FLaws F) m spp b w h s0 teq (surf : T -> surface F T) sc G gen,
  area b w h -> halton_new m spp b = Ok s0 -> m = Release \/ (spp + 1) * 31104 <= 2647129 ->
  robust_on surf sc G -> (forall p, exists r, gen p = Ok r /\ G 0 r) ->
  halton_shade m s0 (shade (halton_ops (F := F) m) teq surf sc gen 66).
Proof.
  intros F T FO FL m spp b w h s0 teq surf sc G gen Ha E Hm RB Hg s p R Hd Hs.
  destruct (new_state m spp b w h s0 Ha E) as (_ & _ & _ & _ & Es & _).
  destruct (Hg p) as (r & Er & Gr). unfold shade. rewrite Er. cbn [rbind]. unfold li.
  assert (P : h_stock (F := F) m s0 517 s).
  { split; [exact R|]. split; [lia|]. split; [lia|]. unfold h_small in Hs. rewrite Es in Hs. destruct Hs; [now left|]. destruct Hm; [now left|right; lia]. }
  destruct (ret_loop (halton_ops m) teq surf sc (h_stock m s0) (halton_stocked m spp b w h s0 Ha E)) with (G := G) (fuel := 66%nat) (r := r) (l := v3zero (F := F)) (beta := spectrum_of (F := F) f1) (sp := false) (b := 0) (s := s) (n := 517)
    as (l & s' & El & _ & D); auto; try (unfold need; lia).
  - intros n k st Hk (A1 & A2 & A3 & A4). split; [exact A1|]. split; [lia|]. split; [lia|exact A4].
  - apply fto_usize_nonneg.
  - eauto.
Qed.

(** In a scene in which nothing panics, a path traced with the Halton sampler after its camera sample
    returns. *)
Theorem C18_halton : forall (F T : Type) (FO : FOps F) (FL : FLaws F) m spp b w h s0 teq (surf : T -> surface F T) sc gen,
  area b w h -> halton_new m spp b = Ok s0 -> m = Release \/ (spp + 1) * 31104 <= 2647129 ->
  robust surf sc -> (forall p, exists r, gen p = Ok r) ->
  halton_shade m s0 (shade (halton_ops (F := F) m) teq surf sc gen 66).
Proof.
  intros F T FO FL m spp b w h s0 teq surf sc gen Ha E Hm RB Hg. eapply halton_on; eauto; [apply robust_everywhere, RB|].
  intros p. destruct (Hg p) as (r & Er). eauto.
Qed.
Print Assumptions C18_halton.

(** So a tile of the image is rendered to the end: whatever tile, no panic and no endless loop. *)
Theorem C18_render : forall (F T : Type) (FO : FOps F) (FL : FLaws F) m spp b w h s0 teq (surf : T -> surface F T) sc gen rs flt fm tiles t,
  film_args rs flt -> film_new m rs flt = Ok fm -> tile_items m (film_sample_bbox fm) = Ok tiles -> In t tiles ->
  area b w h -> halton_new m spp b = Ok s0 -> 0 <= spp < 2 ^ 32 -> m = Release \/ (spp + 1) * 31104 <= 2647129 ->
  robust surf sc -> (forall p, exists r, gen p = Ok r) ->
  exists out, render_local m (halton_ops m) (shade (halton_ops (F := F) m) teq surf sc gen 66) (samples spp) fm s0 t = Ok out.
Proof.
  intros F T FO FL m spp b w h s0 teq surf sc gen rs flt fm tiles t Hf En Et Hin Ha E Hs Hm RB Hg.
  destruct (C17_halton F FO FL m (shade (halton_ops m) teq surf sc gen 66) rs flt fm spp b w h s0 tiles t) as (s' & ft & shots & ps & -> & _); eauto.
  - destruct Hm; [now left|right; lia].
  - eapply C18_halton; eauto.
Qed.
Print Assumptions C18_render.

(** ** the random sampler *)
Lemma random_on : forall (F T G : Type) (FO : FOps F) (FL : FLaws F) (rng : G -> F * G) m spp teq (surf : T -> surface F T) sc (Gr : Z -> ray F -> Prop) gen,
  (forall g, in_unit (fst (rng g))) -> 1 <= spp -> robust_on surf sc Gr -> (forall p, exists r, gen p = Ok r /\ Gr 0 r) ->
  random_shade rng m spp (shade (random_ops rng m) teq surf sc gen 66).
Proof.
  intros F T G FO FL rng m spp teq surf sc Gr gen Hu Hspp RB Hg s p Es Hi.
  destruct (Hg p) as (r & Er & Hr). unfold shade. rewrite Er. cbn [rbind]. unfold li.
  set (P := fun (n : Z) (s : random_sampler (G := G)) => rs_spp s = spp /\ 0 <= rs_index s < Z.max 1 spp).
  assert (SP : stocked (random_ops rng m) P).
  { intros n st [H1 H2]. assert (As : random_assert m st = Ok tt) by (unfold random_assert; destruct m; [|reflexivity]; rewrite H1; replace (rs_index st <? spp) with true by lia; reflexivity).
    split; intros _; cbn [random_ops sm_get_1d sm_get_2d]; unfold random_get_1d, random_get_2d; rewrite As; cbn [rbind].
    - destruct (rng (rs_rng st)) as [x g] eqn:Eg. exists x, (mkRS (rs_spp st) (rs_index st) g). split; [reflexivity|]. split; [|split; auto].
      specialize (Hu (rs_rng st)). now rewrite Eg in Hu.
    - destruct (rng (rs_rng st)) as [x g] eqn:Eg. destruct (rng g) as [y g'] eqn:Eg'. exists (mkP2 x y), (mkRS (rs_spp st) (rs_index st) g'). split; [reflexivity|].
      pose proof (Hu (rs_rng st)) as Ux. rewrite Eg in Ux. pose proof (Hu g) as Uy. rewrite Eg' in Uy. split; [exact Ux|]. split; [exact Uy|split; auto]. }
  destruct (ret_loop (random_ops rng m) teq surf sc P SP) with (G := Gr) (fuel := 66%nat) (r := r) (l := v3zero (F := F)) (beta := spectrum_of (F := F) f1) (sp := false) (b := 0) (s := s) (n := 517)
    as (l & s' & El & _ & D); auto; try (unfold need; lia).
  - apply fto_usize_nonneg.
  - split; auto.
  - eauto.
Qed.

Theorem C18_random : forall (F T G : Type) (FO : FOps F) (FL : FLaws F) (rng : G -> F * G) m spp teq (surf : T -> surface F T) sc gen,
  (forall g, in_unit (fst (rng g))) -> 1 <= spp -> robust surf sc -> (forall p, exists r, gen p = Ok r) ->
  random_shade rng m spp (shade (random_ops rng m) teq surf sc gen 66).
Proof.
  intros F T G FO FL rng m spp teq surf sc gen Hu Hspp RB Hg. eapply random_on; eauto; [apply robust_everywhere, RB|].
  intros p. destruct (Hg p) as (r & Er). eauto.
Qed.
Print Assumptions C18_random.

(** ** a family of robust scenes: spheres, distant lights, the library's materials *)

(** a texture that evaluates everywhere: constants, and checkerboards in a release build *)
Definition total_texture {F T A} (t : texture F T A) : Prop := forall i, exists v, t i = Ok v.

Inductive library_material {F T} {FO : FOps F} : material F T -> Prop :=
| lm_lambertian kd : total_texture kd -> library_material (mat_lambertian kd)
| lm_mirror kr : total_texture kr -> library_material (mat_mirror kr)
| lm_plastic kd ks ro : total_texture kd -> total_texture ks -> total_texture ro -> library_material (mat_plastic kd ks ro)
| lm_metal r e k ru rv : total_texture r -> total_texture e -> total_texture k -> total_texture ru -> total_texture rv -> library_material (mat_metal r e k ru rv)
| lm_glass kr kt e ru rv : total_texture kr -> total_texture kt -> total_texture e -> total_texture ru -> total_texture rv -> library_material (mat_glass kr kt e ru rv).

Lemma constant_total {F T A} (v : A) : total_texture (F := F) (T := T) (constant_texture v).
Proof. intros i. unfold constant_texture. eauto. Qed.
Lemma i64_release z : exists v, i64_of Release z = Ok v.
Proof. unfold i64_of. destruct (in_rangeb _ _ _); eauto. Qed.
Lemma checkerboard_total {F T A} {FO : FOps F} map (a b : A) : total_texture (F := F) (T := T) (checkerboard Release map a b).
Proof. intros i. unfold checkerboard. destruct (i64_release (fto_i64 (ffloor (px (map i))) + fto_i64 (ffloor (py (map i))))) as (v & ->). cbn [rbind]. eauto. Qed.

Lemma library_material_ok {F T} {FO : FOps F} (mt : material F T) i : library_material mt ->
  exists b, mt i = Ok b /\ (length (bs_bxdfs b) <= 2)%nat.
Proof.
  assert (C : forall t, total_texture t -> exists v, tex_clamped t i = Ok v).
  { intros t H. destruct (H i) as (v & E). unfold tex_clamped. rewrite E. cbn [rbind]. eauto. }
  intros [kd H1|kr H1|kd ks ro H1 H2 H3|r e k ru rv H1 H2 H3 H4 H5|kr kt e ru rv H1 H2 H3 H4 H5].
  - unfold mat_lambertian. destruct (C _ H1) as (v & ->). cbn [rbind]. destruct (negb _); eexists; (split; [reflexivity|cbn; lia]).
  - unfold mat_mirror. destruct (C _ H1) as (v & ->). cbn [rbind]. destruct (negb _); eexists; (split; [reflexivity|cbn; lia]).
  - unfold mat_plastic. destruct (C _ H1) as (v & ->), (C _ H2) as (v2 & ->), (H3 i) as (v3 & ->). cbn [rbind].
    destruct (negb _), (negb _); eexists; (split; [reflexivity|cbn; lia]).
  - unfold mat_metal. destruct (C _ H1) as (v & ->), (H2 i) as (v2 & ->), (H3 i) as (v3 & ->), (H4 i) as (v4 & ->), (H5 i) as (v5 & ->). cbn [rbind].
    eexists; (split; [reflexivity|cbn; lia]).
  - unfold mat_glass. destruct (C _ H1) as (v & ->), (C _ H2) as (v2 & ->), (H3 i) as (v3 & ->), (H4 i) as (v4 & ->), (H5 i) as (v5 & ->). cbn [rbind].
    destruct (_ && _), (negb _), (negb _); eexists; (split; [reflexivity|cbn; lia]).
Qed.

Lemma last_hit_in {F T} {FO : FOps F} (sh : T -> shape F T) l : forall r i0, (forall s r, In s l -> exists h, sh_intersect (sh s) r = Ok h) ->
  exists o r', last_hit sh l r i0 = Ok (o, r') /\ (o = i0 \/ exists i s, o = Some i /\ In s l /\ i_shape i = Some s).
Proof.
  induction l as [|s l IH]; intros r i0 H; cbn [last_hit]; [eauto 6|]. unfold shape_intersect.
  destruct (H s r (or_introl eq_refl)) as (h & ->). cbn [rbind].
  destruct h as [[i t]|]; cbn [rbind].
  - destruct (IH (with_tmax r t) (Some (i_with_shape i (Some s)))) as (o & r' & -> & D); [intros; apply H; now right|].
    exists o, r'. split; [reflexivity|]. right. destruct D as [->|(j & s' & -> & Hs & Ej)]; [exists (i_with_shape i (Some s)), s|exists j, s']; repeat split; auto; [now left|now right].
  - destruct (IH r i0) as (o & r' & -> & D); [intros; apply H; now right|].
    exists o, r'. split; [reflexivity|]. destruct D as [->|(j & s' & -> & Hs & Ej)]; [now left|right; exists j, s'; repeat split; auto; now right].
Qed.
Lemma any_hit_ok {F T} {FO : FOps F} (sh : T -> shape F T) l r : (forall s, In s l -> exists h, sh_intersect_p (sh s) r = Ok h) -> exists b, any_hit sh l r = Ok b.
Proof.
  induction l as [|s l IH]; intros H; cbn [any_hit]; [eauto|]. destruct (H s (or_introl eq_refl)) as (h & ->). cbn [rbind]. destruct h; [eauto|]. apply IH. intros; apply H; now right.
Qed.

(** In binary32, any libm: spheres with the library's materials, held by either container, lit by distant lights. *)
Theorem C18_sphere_scenes : forall (L : Libm b32) (L64 : Libm b64) (T : Type) (sh : T -> shape b32 T) (surf : T -> surface b32 T)
    (sc : scene b32 T (container b32 T)) (l : list T),
  (forall t, In t l -> (exists s : sphere b32, sh t = sphere_shape (D := b64) s) /\ library_material (sf_scatter (surf t))) ->
  (forall q, In q (sc_lights sc) -> exists d, q = distant_as_light d) ->
  (exists c, simple_new sh l = Ok c /\ sc_shapes sc = simple_container sh c) \/
  (exists srt m md kd, sort_by_ok edge_cmp srt /\ kd_new sh srt m l md = Ok kd /\ sc_shapes sc = kd_container sh kd) ->
  robust surf sc.
Proof.
  intros L L64 T sh surf sc l Hl Hq Hc.
  assert (Si : forall s r, In s l -> exists h, sh_intersect (sh s) r = Ok h) by (intros s r Hs; destruct (Hl s Hs) as [[sp ->] _]; cbn; eauto).
  assert (Sp : forall s r, In s l -> exists h, sh_intersect_p (sh s) r = Ok h) by (intros s r Hs; destruct (Hl s Hs) as [[sp ->] _]; cbn; eauto).
  assert (Sc : forall t i, In t l -> exists b, sf_scatter (surf t) i = Ok b /\ forall wo u, in_unit (px u) -> in_unit (py u) -> exists q, bsdf_sample_f b wo u = Ok q).
  { intros t i Ht. destruct (Hl t Ht) as [_ Hm]. destruct (library_material_ok _ i Hm) as (b & Eb & Hb). exists b. split; [exact Eb|].
    intros wo u U _. apply C51_no_panic; [|exact U]. lia. }
  assert (G : (forall r, exists o, c_intersect (sc_shapes sc) r = Ok o /\ forall i, o = Some i -> exists t, i_shape i = Some t /\ In t l) /\
              (forall r, exists b, c_intersect_p (sc_shapes sc) r = Ok b)).
  { destruct Hc as [(c & Ec & ->)|(srt & m & md & kd & SO & Ek & ->)]; split; intros r.
    - cbn. unfold simple_intersect. assert (si_shapes c = l) as -> by (unfold simple_new in Ec; destruct (bbox_of_shapes sh l); [|discriminate|discriminate]; cbn in Ec; injection Ec as <-; reflexivity).
      destruct (bbox_intersect _ _); [|exists None; split; [reflexivity|discriminate]].
      destruct (last_hit_in sh l r None Si) as (o & r' & -> & D). cbn [rbind]. exists o. split; [reflexivity|]. intros i ->.
      destruct D as [D|(j & s & D & Hs & Ej)]; [discriminate|]. exists s. split; congruence.
    - cbn. unfold simple_intersect_p. assert (si_shapes c = l) as -> by (unfold simple_new in Ec; destruct (bbox_of_shapes sh l); [|discriminate|discriminate]; cbn in Ec; injection Ec as <-; reflexivity).
      destruct (bbox_intersect _ _); [|eauto]. apply any_hit_ok. auto.
    - destruct r as [o d tm]. destruct (C45_total b32 T _ sh srt m l md kd o d tm SO Ek ltac:(auto) ltac:(auto)) as [(ans & E) _]. cbn. exists ans. split; [exact E|]. intros i ->.
      destruct (C45_real_hits b32 T _ sh srt m l md kd (mkRay o d tm) SO Ek) as [H _]. destruct (H i E) as (s & j & t & r' & Hs & _ & _ & ->). exists s. split; [reflexivity|exact Hs].
    - destruct r as [o d tm]. destruct (C45_total b32 T _ sh srt m l md kd o d tm SO Ek ltac:(auto) ltac:(auto)) as [_ (ans & E)]. cbn. eauto. }
  destruct G as [G1 G2]. constructor; [|exact G2|].
  - intros r. destruct (G1 r) as (o & E & H). exists o. split; [exact E|]. intros i Hi. destruct (H i Hi) as (t & Et & Ht).
    destruct (Sc t i Ht) as (b & Eb & Hb). exists t, b. auto.
  - intros q i u Hin. destruct (Hq q Hin) as (d & ->). cbn. unfold distant_sample_li. eauto.
Qed.
Print Assumptions C18_sphere_scenes.

(** A release build's camera always returns. *)
Lemma camera_total {F} {FO : FOps F} (c : perspective_camera F) p : exists r, generate_ray Release c p = Ok r.
Proof. unfold generate_ray, t_point, xf_point. cbn [rbind]. unfold t_ray, xf_ray, xf_point. cbn [rbind]. eauto. Qed.

(** one white sphere under a distant light, 4 samples per pixel, on a 20 x 10 film *)
Example C18_example (L : Libm b32) (L64 : Libm b64) (cam : perspective_camera b32) :
  let sp := mkSphere (mkV3 (fofZ 0) (fofZ 0) (fofZ 5)) (fofZ 1) in
  let sh := fun _ : unit => sphere_shape (F := b32) (D := b64) (T := unit) sp in
  let surf := fun _ : unit => mkSurf (T := unit) (mat_lambertian (constant_texture (spectrum_of f1))) (fun _ _ => v3zero) in
  exists sc fm s0, construct sh (fun _ => mkArea v3zero (sh tt)) (fun l => let! c := simple_new sh l in Ok (simple_container sh c))
      (add_shape (add_light builder_new (fun b => distant_as_light (distant_pre (distant_new (spectrum_of f1) (mkV3 f0 f1 f0)) b))) tt) = Ok sc /\
    film_new Release (mkP2 20 10) (mkFilter (F := b32) f2 (fun _ => f1)) = Ok fm /\
    halton_new Release 4 (film_sample_bbox fm) = Ok s0 /\
    exists out, render_local Release (halton_ops Release) (shade (halton_ops Release) (fun _ _ => true) surf sc (generate_ray Release cam) 66) (samples 4) fm s0
      (mkB2 (mkP2 (-2) (-2)) (mkP2 14 12)) = Ok out.
Proof.
  intros sp sh surf. pose (flt := mkFilter (F := b32) f2 (fun _ => f1)).
  assert (Hf : film_args (mkP2 20 10) flt).
  { unfold film_args. cbn [px py]. do 3 (split; [lia|]). split; vm_compute; reflexivity. }
  destruct (film_args_ok Release _ flt Hf) as (fm & r & En & _).
  assert (Eb : film_sample_bbox fm = mkB2 (mkP2 (-2) (-2)) (mkP2 22 12)).
  { assert (E2 : (let! f := film_new Release (mkP2 20 10) flt in Ok (film_sample_bbox f)) = Ok (mkB2 (mkP2 (-2) (-2)) (mkP2 22 12)))
      by (vm_compute; reflexivity). rewrite En in E2. exact (Ok_inj _ _ E2). }
  assert (Har : area (film_sample_bbox fm) 24 14) by (rewrite Eb; unfold area; cbn [px py b2min b2max]; lia).
  destruct (Props.HaltonProps.halton_new_total Release 4 _ 24 14 Har) as (s0 & Eh).
  eexists. exists fm, s0. split; [reflexivity|]. split; [exact En|]. split; [exact Eh|].
  eapply (C18_render b32 unit _ (B32_FLaws L)) with (rs := mkP2 20 10) (flt := flt) (b := film_sample_bbox fm) (w := 24) (h := 14) (tiles := [mkB2 (mkP2 (-2) (-2)) (mkP2 14 12); mkB2 (mkP2 14 (-2)) (mkP2 22 12)]).
  - exact Hf.
  - exact En.
  - rewrite Eb. vm_compute. reflexivity.
  - now left.
  - exact Har.
  - exact Eh.
  - lia.
  - now left.
  - eapply (C18_sphere_scenes L L64 unit sh surf _ [tt]).
    + intros t _. split; [exists sp; reflexivity|]. apply lm_lambertian, constant_total.
    + intros q [<-|[]]. eexists. reflexivity.
    + left. eexists. split; reflexivity.
  - intros p. apply camera_total.
Qed.
