(** * From the builder to the picture (C89) *)
From Coq Require Import ZArith Reals List Bool Lia Lra.
From Flocq Require Import Core IEEE754.BinarySingleNaN.
From Verif Require Import Model.Num Model.NumX Model.NumB Model.Vector Model.Common Model.BBox Model.Film Model.Interaction Model.Shape
  Model.Sphere Model.Triangle Model.Container Model.KdTree Model.Matrix Model.Transform Model.Camera Model.Sampler
  Model.Sampling Model.Reflection Model.Texture Model.Material Model.Light Model.Scene Model.Path Model.Render Model.HelloWorld.
From Verif Require Import Spec.SamplerSpec Spec.PathSpec Spec.RenderSpec Spec.BoxSpec Spec.KdSpec Spec.TameSpec Spec.WholeSpec.
From Verif Require Import Proofs.XBase Proofs.BBase Proofs.FLaws Proofs.Bounds Proofs.Lengths Proofs.SteadyProofs Proofs.SteadySphere Proofs.SortProofs.
From Verif Require Import Props.RenderProps Props.Film3 Props.Containers Props.Robust2 Props.WholeRender Props.HelloProps Props.Robust3.
Import ListNotations.
Local Open Scope Z_scope.

Section B.
  Context (L : Libm b32) (L64 : Libm b64) {T : Type}.
  Local Existing Instance B32_FOps.
  Local Existing Instance B32_FLaws.
  Local Existing Instance B64_FOps.
  Notation bd := (bd L). Notation vb := (vb L).

  (** ** boxes *)
  Definition boxed (k : Z) (b : bbox3 b32) : Prop := vb k (bmin b) /\ vb k (bmax b).

  Lemma bd_min k (x y : b32) : bd k x -> bd k y -> bd k (fmin x y).
  Proof. intros Hx Hy. destruct (emb_fmin_cases x y) as [-> | ->]; assumption. Qed.
  Lemma bd_max k (x y : b32) : bd k x -> bd k y -> bd k (fmax x y).
  Proof. intros Hx Hy. destruct (emb_fmax_cases x y) as [-> | ->]; assumption. Qed.
  Lemma vb_min k (u v : V3 b32) : vb k u -> vb k v -> vb k (v3min u v).
  Proof. intros (A & B & C) (D & E & G). repeat split; now apply bd_min. Qed.
  Lemma vb_max k (u v : V3 b32) : vb k u -> vb k v -> vb k (v3max u v).
  Proof. intros (A & B & C) (D & E & G). repeat split; now apply bd_max. Qed.
  Lemma boxed_union k (a b : bbox3 b32) : boxed k a -> boxed k b -> boxed k (bbox_union a b).
  Proof. intros [A B] [C D]. split; [now apply vb_min|now apply vb_max]. Qed.
  Lemma boxed_new k (p q : V3 b32) : vb k p -> vb k q -> boxed k (bbox_new p q).
  Proof. intros A B. split; [now apply vb_min|now apply vb_max]. Qed.
  Lemma boxed_fold {A} k (f : A -> bbox3 b32) : forall l b, boxed k b -> (forall x, In x l -> boxed k (f x)) -> boxed k (fold_left (fun b x => bbox_union b (f x)) l b).
  Proof. induction l as [|x l IH]; intros b Hb Hl; [exact Hb|]. cbn [fold_left]. apply IH; [apply boxed_union; auto; apply Hl; now left|]. intros y Hy. apply Hl. now right. Qed.

  Lemma tri_boxed (t : triangle b32) : tame_triangle L t -> boxed 21 (tr_bbox t).
  Proof.
    intros [_ H0 H1 H2 _ _ _]. assert (V : forall v, within3 (2 ^ 20) v -> vb 21 v) by (intros v Hv; apply (vb_mono L 20); [lia|]; apply (within3_vb L 20 (2 ^ 20)); auto; lia).
    destruct (boxed_new 21 _ _ (V _ H0) (V _ H1)) as [A B]. split; [apply vb_min|apply vb_max]; auto.
  Qed.
  Lemma shape_boxed (s : shape b32 T) : tame_shape L (L64 := L64) s -> boxed 21 (sh_bbox s).
  Proof.
    intros [sp Hs|t Ht|l t Ht]; [|now apply tri_boxed|now apply tri_boxed].
    destruct (tame_radius L sp Hs) as (rr & Er & Hr). destruct Hs as [Hc _ _].
    assert (V : vb 20 (sp_center sp)) by (apply (within3_vb L 20 (2 ^ 20)); auto; lia). destruct V as (A & B & C).
    assert (R : bd 20 (sp_radius sp)). { exists rr. split; [exact Er|]. rewrite Rabs_pos_eq; [lra|]. pose proof (bpow_ge_0 radix2 (-20)). lra. }
    cbn [sphere_shape sh_bbox]. unfold sp_bbox. cbv zeta. change 21 with (20 + 1). apply boxed_new; repeat split; cbn [vx vy vz]; (apply bd_sub || apply bd_add); auto; lia.
  Qed.

  Lemma bd_ffin k (x : b32) : bd k x -> ffin x.
  Proof. intros (r & E & _). split; [rewrite emb_nan, E; reflexivity|]. rewrite emb_inf, E. reflexivity. Qed.
  Lemma vb_v3fin k (v : V3 b32) : vb k v -> v3fin v.
  Proof. intros (A & B & C). repeat split; eapply bd_ffin; eauto. Qed.

  Lemma le_min_max (x y : b32) : fis_nan x = false -> fis_nan y = false -> fle (fmin x y) (fmax y x) = true.
  Proof.
    intros Hx Hy. destruct (fmin_lb x y Hx Hy) as [A _]. destruct (fmax_ub y x Hy Hx) as [_ B]. rewrite emb_le in *. eapply xle_trans; eauto.
  Qed.

  Lemma new_ordered k (p q : V3 b32) : vb k p -> vb k q -> box_ordered (bbox_new p q).
  Proof.
    intros Hp Hq. destruct (boxed_new k p q Hp Hq) as [A B]. split; [now apply (vb_v3fin k)|]. split; [now apply (vb_v3fin k)|].
    destruct Hp as (P1 & P2 & P3), Hq as (Q1 & Q2 & Q3). repeat split; apply le_min_max; eapply bd_not_nan; eauto.
  Qed.
  Lemma shape_ordered (s : shape b32 T) : tame_shape L (L64 := L64) s -> box_ordered (sh_bbox s).
  Proof.
    intros H. pose proof (shape_boxed s H) as [V1 V2]. split; [now apply (vb_v3fin 21)|]. split; [now apply (vb_v3fin 21)|].
    assert (TB : forall t : triangle b32, tame_triangle L t -> v3le (bmin (tr_bbox t)) (bmax (tr_bbox t))).
    { intros t [_ H0 H1 H2 _ _ _].
      assert (V : forall v, within3 (2 ^ 20) v -> fis_nan (vx v) = false /\ fis_nan (vy v) = false /\ fis_nan (vz v) = false).
      { intros v Hv. destruct (within3_vb L 20 (2 ^ 20) v) as (A & B & C); auto; try lia. repeat split; eapply bd_not_nan; eauto. }
      destruct (V _ H0) as (A0 & B0 & C0), (V _ H1) as (A1 & B1 & C1), (V _ H2) as (A2 & B2 & C2).
      assert (K : forall x y z : b32, fis_nan x = false -> fis_nan y = false -> fis_nan z = false -> fle (fmin (fmin x y) z) (fmax (fmax y x) z) = true).
      { intros x y z Hx Hy Hz. assert (Nm : fis_nan (fmin x y) = false) by (destruct (emb_fmin_cases x y) as [-> | ->]; auto).
        assert (NM : fis_nan (fmax y x) = false) by (destruct (emb_fmax_cases y x) as [-> | ->]; auto).
        destruct (fmin_lb _ z Nm Hz) as [_ A]. destruct (fmax_ub _ z NM Hz) as [_ B]. rewrite emb_le in *. eapply xle_trans; eauto. }
      repeat split; apply K; auto. }
    destruct H as [sp Hs|t Ht|l t Ht]; [|now apply TB|now apply TB].
    cbn [sphere_shape sh_bbox] in *. unfold sp_bbox in *. cbv zeta in *.
    destruct Hs as [Hc H1 H2]. destruct (tame_radius L sp ltac:(constructor; auto)) as (rr & Er & Hr).
    assert (V : vb 20 (sp_center sp)) by (apply (within3_vb L 20 (2 ^ 20)); auto; lia). destruct V as (A & B & C).
    assert (R : bd 20 (sp_radius sp)). { exists rr. split; [exact Er|]. rewrite Rabs_pos_eq; [lra|]. pose proof (bpow_ge_0 radix2 (-20)). lra. }
    apply (new_ordered 21); change 21 with (20 + 1); repeat split; cbn [vx vy vz]; (apply bd_sub || apply bd_add); auto; lia.
  Qed.

  (** ** the radius told to distant lights *)
  Lemma len_bd k (v : V3 b32) : 0 <= k <= 50 -> vb k v -> bd (k + 1) (v3length v).
  Proof.
    intros Hk (A & B & C). assert (N : bd (2 * k + 2) (sq3 L v)).
    { unfold sq3. replace (2 * k + 2) with (2 * k + 1 + 1) by lia. apply bd_add; [lia| |].
      - apply bd_add; [lia| |]; replace (2 * k) with (k + k) by lia; apply bd_mul; auto; lia.
      - apply (bd_mono L (k + k)); [lia|]. apply bd_mul; auto; lia. }
    pose proof (sq3_nonneg L v (bd_not_nan _ _ _ A) (bd_not_nan _ _ _ B) (bd_not_nan _ _ _ C)) as P.
    destruct N as (q & Eq & Hq). change (v3length v) with (fsqrt (sq3 L v)). unfold Bounds.bd. rewrite emb_sqrt, Eq. rewrite Eq in P. cbn [xle] in P. rb.
    rewrite xsqrt_fin by lra. apply rn_bd; [lia|].
    rewrite Rabs_pos_eq in Hq by lra. rewrite Rabs_pos_eq by apply sqrt_pos. rewrite <- (sqrt_pw (k + 1)). apply sqrt_le_1_alt. replace (2 * (k + 1)) with (2 * k + 2) by lia. exact Hq.
  Qed.

  Lemma bd_within k (x : b32) : 0 <= k <= 24 -> bd k x -> within (2 ^ k) x.
  Proof.
    intros Hk (r & E & Hr). change (fle (fabs x) (fofZ (2 ^ k)) = true). rewrite emb_le, emb_abs, E, emb_ofZ_exact.
    - cbn [xabs xle]. rb. change (2 ^ k)%Z with (radix2 ^ k)%Z. rewrite IZR_Zpower by lia. exact Hr.
    - rewrite Z.abs_eq by lia. apply Z.pow_le_mono_r; lia.
  Qed.

  Lemma half_bd k (x : b32) : -148 <= k <= 127 -> bd (k + 1) x -> bd k (fdiv x f2).
  Proof.
    intros Hk (r & E & Hr). unfold Bounds.bd. rewrite emb_div, E, emb_f2, xdiv_fin by (try lra; rewrite emb_f2; intros Q; injection Q; lra).
    apply rn_bd; [lia|]. rewrite pw_double in Hr. unfold Rdiv. rewrite Rabs_mult, (Rabs_pos_eq (/ 2)) by lra. lra.
  Qed.

  Lemma sphere_radius (b : bbox3 b32) : boxed 21 b -> bd 24 (snd (bbox_bounding_sphere b)).
  Proof.
    intros [A B]. unfold bbox_bounding_sphere. cbv zeta. cbn [snd]. destruct (bbox_point_inside _ _); [|apply bd_0].
    apply (bd_mono L 23); [lia|]. change 23 with (22 + 1). apply len_bd; [lia|]. change 22 with (21 + 1). apply vb_sub; [lia| |exact B].
    destruct (vb_add L 21 _ _ ltac:(lia) A B) as (X & Y & Z). repeat split; cbn [v3divs vx vy vz]; apply half_bd; auto; lia.
  Qed.

  Lemma sun_tame (q : bbox3 b32 -> light b32 T) b : plain_sun L q -> boxed 21 b -> tame_light L (q b).
  Proof.
    intros [l w Fx Fy Fz Hl] Hb. pose proof (sphere_radius b Hb) as R. unfold distant_pre. destruct (bbox_bounding_sphere b) as [c r]. cbn [snd] in R.
    apply tame_sun; cbn [distant_new dl_w dl_radius]; [|now apply bd_within].
    assert (E : forall x : b32, is_finite x = true -> exists a, emb x = XFin a) by (intros x Fx'; exists (B2R x); exact (B2X_fin x Fx')).
    destruct (normalize_bd L w) as (A & B & C).
    - destruct (E _ Fx) as (? & ->), (E _ Fy) as (? & ->), (E _ Fz) as (? & ->). eauto 8.
    - intros Z. unfold long in Hl. change (flt f0 (v3length w) = true) in Hl. rewrite emb_lt, emb_f0, Z in Hl. cbn in Hl. rb. lra.
    - repeat split; (change 2 with (2 ^ 1); apply bd_within; [lia|assumption]).
  Qed.

  (** ** the scene that is built *)
  Definition any_container (m : build) (sh : T -> shape b32 T) (make : list T -> res (container b32 T)) : Prop :=
    (exists srt md, sort_by_ok edge_cmp srt /\ make = (fun l => let! kd := kd_new sh srt m l md in Ok (kd_container sh kd))) \/
    make = (fun l => let! c := simple_new sh l in Ok (simple_container sh c)).

  Lemma built_parts sh al m make (b : builder b32 T) :
    (bd_shapes b ++ bd_areas b)%list <> nil -> Z.of_nat (length (bd_shapes b ++ bd_areas b)) < 2 ^ 64 ->
    (forall t, In t (bd_shapes b ++ bd_areas b) -> tame_shape L (L64 := L64) (sh t)) ->
    (forall t, In t (bd_areas b) -> sh t = area_shape (al t) /\ exists l tri, al t = mkArea l (triangle_shape tri) /\ tame_triangle L tri) ->
    (forall q, In q (bd_lights b) -> plain_sun L q) -> any_container m sh make ->
    exists sc, construct sh al make b = Ok sc /\ (forall q, In q (sc_lights sc) -> tame_light L q) /\ holds L sh (sc_shapes sc) (bd_shapes b ++ bd_areas b).
  Proof.
    intros P1 P2 TS P4 P5 Hm.
    assert (BB : exists bb, scene_bbox sh al b = Ok bb /\ boxed 21 bb).
    { unfold scene_bbox. assert (B0 : exists b0, match bd_shapes b with [] => Ok (bbox_new v3zero v3zero) | _ => bbox_of_shapes sh (bd_shapes b) end = Ok b0 /\ boxed 21 b0).
      { destruct (bd_shapes b) as [|s l] eqn:Es; [eexists; split; [reflexivity|apply boxed_new; repeat split; apply bd_0]|].
        unfold bbox_of_shapes, bbox_of_list. cbn [map]. eexists. split; [reflexivity|].
        replace (fold_left bbox_union (map (fun s0 => sh_bbox (sh s0)) l) (sh_bbox (sh s))) with (fold_left (fun b0 s0 => bbox_union b0 (sh_bbox (sh s0))) l (sh_bbox (sh s))).
        - apply boxed_fold; [apply shape_boxed, TS; now left|]. intros x Hx. apply shape_boxed, TS. right. apply in_or_app. now left.
        - clear. generalize (sh_bbox (sh s)). induction l as [|x l IH]; intros b0; [reflexivity|]. cbn [fold_left map]. apply IH. }
      destruct B0 as (b0 & -> & H0). cbn [rbind]. eexists. split; [reflexivity|]. apply (boxed_fold 21 (fun a => sh_bbox (area_shape (al a)))); [exact H0|].
      intros a Ha. destruct (P4 a Ha) as (<- & _). apply shape_boxed, TS, in_or_app. now right. }
    destruct BB as (bb & Eb & Hb).
    assert (CC : exists c, make (bd_shapes b ++ bd_areas b) = Ok c /\ holds L sh c (bd_shapes b ++ bd_areas b)).
    { destruct Hm as [(srt & md & SO & ->)| ->].
      - destruct (C44_build b32 T _ (B32_FLaws L) sh srt m (bd_shapes b ++ bd_areas b) md SO P1) as (kd & Ek & _); [unfold usize_max; lia|intros s Hs; apply shape_ordered; auto|].
        rewrite Ek. cbn [rbind]. eexists. split; [reflexivity|]. right. eauto 8.
      - destruct (bd_shapes b ++ bd_areas b) as [|s l]; [congruence|]. unfold simple_new at 1, bbox_of_shapes at 1, bbox_of_list at 1. cbn [map rbind]. eexists. split; [reflexivity|].
        left. eexists. split; [reflexivity|]. reflexivity. }
    destruct CC as (c & Ec & Hc). unfold construct. rewrite Eb. cbn [rbind]. rewrite Ec. cbn [rbind]. eexists. split; [reflexivity|].
    split; [|exact Hc]. cbn [sc_lights]. intros q Hq. apply in_app_or in Hq as [Hq|Hq]; apply in_map_iff in Hq as (x & <- & Hx).
    - apply sun_tame; auto.
    - destruct (P4 x Hx) as (_ & l & tri & -> & Ht). now apply tame_area.
  Qed.

  Lemma built sh al surf m make (b : builder b32 T) : smooth_plan L (L64 := L64) sh al (fun t => sf_scatter (surf t)) b -> any_container m sh make ->
    exists sc, construct sh al make b = Ok sc /\ smooth_scene L L64 sh surf sc (bd_shapes b ++ bd_areas b).
  Proof.
    intros [P1 P2 P3 P4 P5] Hm.
    assert (FT : forall t, In t (bd_shapes b ++ bd_areas b) -> fit L (L64 := L64) (sh t) (sf_scatter (surf t))).
    { intros t Ht. apply in_app_or in Ht as [Ht|Ht]; [auto|]. now destruct (P4 t Ht) as (_ & ? & _). }
    destruct (built_parts sh al m make b P1 P2) as (sc & Ec & Hl & Hc); auto.
    - intros t Ht. eapply fit_tame; eauto.
    - intros t Ht. destruct (P4 t Ht) as (? & _ & ?). auto.
    - exists sc. split; [exact Ec|]. constructor; auto.
  Qed.
End B.

(** From the builder to the picture: shapes and lamps of moderate size, matt, reflecting, or of smooth plastic, metal or
    glass, and distant lights are made into a scene with either container and rendered to the end, under every
    schedule, in both builds, with either sampler. *)
Theorem C89_built : forall (L : Libm b32) (L64 : Libm b64) (T : Type) (sh : T -> shape b32 T) (al : T -> area_light b32 T) (surf : T -> surface b32 T)
    (b : builder b32 T) m make teq (cam : perspective_camera b32) res flt fm spp k,
  tame_libm L -> smooth_plan L (L64 := L64) sh al (fun t => sf_scatter (surf t)) b -> any_container L m sh make ->
  calm_camera L cam -> m = Release \/ upright_camera L cam /\ spp <= 84 ->
  film_args (F := b32) res flt -> film_new m res flt = Ok fm -> 0 <= spp < 2 ^ 32 -> (1 <= k)%nat ->
  exists sc, construct sh al make b = Ok sc /\
  (exists s0, halton_new m spp (film_sample_bbox fm) = Ok s0 /\
     whole_render m (halton_ops m) (shade (halton_ops m) teq surf sc (generate_ray m cam) 66) (samples spp) res fm s0 k) /\
  (forall G (rng : G -> b32 * G) g, (forall g, in_unit (fst (rng g))) -> 1 <= spp ->
     whole_render m (random_ops rng m) (shade (random_ops rng m) teq surf sc (generate_ray m cam) 66) (samples spp) res fm
       (random_new spp g) k).
Proof.
  intros L L64 T sh al surf b m make teq cam res flt fm spp k HL HP HM HC Hm Ha En Hs Hk.
  destruct (built L L64 sh al surf m make b HP HM) as (sc & Ec & HS). exists sc. split; [exact Ec|].
  eapply C89_smooth_scenes; eauto.
Qed.
Print Assumptions C89_built.

(** The builder of the example program with shiny surfaces and a sun. *)
Definition shiny_builder : builder b32 hw_shape :=
  let _ := B32_FOps Lhello in
  add_light hw_builder (fun b => distant_as_light (distant_pre (distant_new (spectrum_of f1) (hw_point 1 2 3)) b)).
Example C89_example : forall L64 : Libm b64, let _ := B32_FOps Lhello in let _ := B64_FOps L64 in
  smooth_plan Lhello (L64 := L64) (hw_sh (D := b64)) hw_al (fun t => sf_scatter (shiny_surf t)) shiny_builder /\
  any_container Lhello Debug (hw_sh (D := b64)) (fun l => let! kd := kd_new (hw_sh (D := b64)) (fun l => Ok (isort edge_cmp l)) Debug l None in Ok (kd_container (hw_sh (D := b64)) kd)) /\
  any_container Lhello Debug (hw_sh (D := b64)) (fun l => let! c := simple_new (hw_sh (D := b64)) l in Ok (simple_container (hw_sh (D := b64)) c)).
Proof.
  intros L64 FO DO. unfold FO, DO. clear FO DO. split; [|split; [left|now right]].
  - constructor.
    + discriminate.
    + reflexivity.
    + intros t _. apply shiny_fit.
    + intros t Ht. cbn in Ht. assert (Ht' : t = Lamp1 \/ t = Lamp2) by (destruct Ht as [<-|[<-|[]]]; auto).
      split; [destruct Ht' as [-> | ->]; reflexivity|]. split; [apply shiny_fit|].
      destruct Ht' as [-> | ->]; eexists _, _; (split; [reflexivity|]); apply hw_tri_tame; cbn; tauto.
    + intros q Hq. cbn in Hq. destruct Hq as [<-|[]]. apply plain_sun_at; vm_compute; reflexivity.
  - eexists _, None. split; [apply isort_ok|]. reflexivity.
Qed.
