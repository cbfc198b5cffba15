(** * The radiance of a path is not negative (C66), in exact arithmetic *)
From Coq Require Import ZArith Reals List Bool Lia Lra.
From Flocq Require Import Core IEEE754.BinarySingleNaN.
From Verif Require Import Model.Num Model.NumX Model.NumB Model.Vector Model.Common Model.BBox Model.Interaction Model.Shape Model.Sphere
  Model.Triangle Model.Container Model.Sampler Model.Sampling Model.Reflection Model.Fresnel Model.Microfacet Model.BxDFs Model.Texture
  Model.Material Model.Light Model.Scene Model.Path.
From Verif Require Import Spec.RVec Spec.SamplerSpec Spec.RadianceSpec.
From Verif Require Import Proofs.XBase Proofs.RVecProofs Proofs.MicroProofs.
Import ListNotations.
Local Open Scope R_scope.

Lemma nn3_zero : nn3 v3zero.
Proof. exists v0. split; [reflexivity|]. unfold v0; vproj; lra. Qed.
Lemma nn3_add a b : nn3 a -> nn3 b -> nn3 (v3add a b).
Proof. intros (r & -> & ?) (q & -> & ?). exists (vadd r q). rewrite v3add_fin. split; auto. unfold vadd; vproj; lra. Qed.
Lemma nn3_mul a b : nn3 a -> nn3 b -> nn3 (v3mul a b).
Proof.
  intros (r & -> & R1 & R2 & R3) (q & -> & Q1 & Q2 & Q3). exists (mkV3 (vx r * vx q) (vy r * vy q) (vz r * vz q)).
  split; [reflexivity|]. vproj. auto using Rmult_le_pos.
Qed.
Lemma nn3_scale a k : nn3 a -> nn k -> nn3 (v3scale a k).
Proof.
  intros (r & -> & R1 & R2 & R3) (q & -> & Q). exists (vscale q r). rewrite v3scale_fin. split; auto.
  unfold vscale; vproj; auto using Rmult_le_pos.
Qed.
Lemma nn3_divs a k : nn3 a -> nn k -> k <> XFin 0 -> nn3 (v3divs a k).
Proof.
  intros (r & -> & R1 & R2 & R3) (q & -> & Q) N. assert (q <> 0) by (intros ->; auto).
  exists (vscale (/ q) r). rewrite v3divs_fin by auto. split; auto. assert (0 < / q) by (apply Rinv_0_lt_compat; lra).
  unfold vscale; vproj; repeat split; apply Rmult_le_pos; lra.
Qed.
Lemma nn_pos_neq k : flt f0 k = true -> k <> XFin 0.
Proof. intros H ->. revert H. unfold f0. xsimp. cbn [xlt]. rewrite Rlt_bool_false by lra. discriminate. Qed.
Lemma nn_neq k : feq k f0 = false -> k <> XFin 0.
Proof. intros H ->. revert H. unfold f0. xsimp. cbn [xeq]. rewrite Req_bool_true by lra. discriminate. Qed.
Lemma nn_abs_dot a b : fin a -> fin b -> nn (fabs (v3dot a b)).
Proof. intros (r & ->) (q & ->). rewrite v3dot_fin. exists (Rabs (vdot r q)). split; [reflexivity|apply Rabs_pos]. Qed.
Lemma nn_weight p q : nn p -> nn q -> p <> XFin 0 -> nn (power_heuristic 1 p 1 q).
Proof.
  intros (x & -> & X) (y & -> & Y) N. assert (x <> 0) by (intros ->; auto).
  exists (x * x / (x * x + y * y)). unfold power_heuristic. xsimp. cbn [xmul xadd]. rewrite !Rmult_1_r.
  assert (0 < x * x + y * y) by nra. rewrite xdiv_fin by lra. split; [reflexivity|].
  apply Rmult_le_pos; [nra|]. left. now apply Rinv_0_lt_compat.
Qed.
Lemma nn_Z z : (0 <= z)%Z -> nn (fofZ z).
Proof. intros H. exists (IZR z). split; [reflexivity|]. now apply IZR_le. Qed.
Lemma nn_y v : nn3 v -> nn (spectrum_y v).
Proof.
  intros (r & -> & R1 & R2 & R3). exists (212671 / 1000000 * vx r + 715160 / 1000000 * vy r + 72169 / 1000000 * vz r). split; [|lra].
  unfold spectrum_y, flit, fin3. vproj. xsimp. rewrite !xdiv_fin by (apply not_0_IZR; discriminate). cbn [xmul xadd]. apply (f_equal XFin).
  change (10 ^ Z.of_nat 6)%Z with 1000000%Z. reflexivity.
Qed.
Lemma unit_neg a : unit3 a -> unit3 (v3neg a).
Proof. intros (r & -> & H). rewrite v3neg_fin. eexists; split; [reflexivity|]. revert H. unfold vdot, vscale. vproj. lra. Qed.
Lemma unit_fin a : unit3 a -> fin a.
Proof. intros (r & -> & _). eexists; reflexivity. Qed.

Lemma fin_spawn {T} (i : interaction XR T) d : fin_i i -> unit3 d ->
  fin (r_o (spawn_ray i d)) /\ unit3 (r_d (spawn_ray i d)) /\ xis_nan (r_tmax (spawn_ray i d)) = false.
Proof.
  intros ((p & Ep) & (e & Ee) & (n & En) & _) (v & -> & Hv). split; [|split; [eexists; split; [reflexivity|exact Hv]|reflexivity]].
  unfold spawn_ray, offset_ray_origin. cbn [r_o]. rewrite Ep, Ee, En.
  assert (OC : forall a b, offset_coord (F := XR) a b = b) by (intros; unfold offset_coord; xsimp; destruct (xlt _ _); auto; destruct (xlt _ _); auto).
  rewrite !OC.
  assert (A : v3abs (fin3 n) = fin3 (mkV3 (Rabs (vx n)) (Rabs (vy n)) (Rabs (vz n)))) by reflexivity.
  rewrite A, !v3dot_fin, v3scale_fin.
  destruct (flt _ _); unfold f1; xsimp; cbn [xneg]; rewrite ?v3scale_fin, v3add_fin; eexists; reflexivity.
Qed.

Section C66.
  Context {T ST : Type}.
  Variables (sm : sampler_ops XR ST) (teq : T -> T -> bool) (surf : T -> surface XR T) (sc : scene XR T (container XR T)).
  Hypothesis H : no_negative_light surf sc.
  Hypothesis Hs : good_samples sm surf sc.

  Lemma nn_direct_light l i b t u ld r : In l (sc_lights sc) -> met sc i -> i_shape i = Some t -> sf_scatter (surf t) i = Ok b ->
    in_unit (px u) -> in_unit (py u) -> nn3 ld -> direct_light sc l i b u ld = Ok r -> nn3 r.
  Proof.
    intros Hl Hi Ht Hb U1 U2 Hld. unfold direct_light.
    destruct (l_sample_li l i u) as [[[[wi li] pdf] v]| |] eqn:E; cbn [rbind]; try discriminate.
    destruct (flt f0 pdf) eqn:P; cbn [andb]; [|congruence]. destruct (is_black li) eqn:B; cbn [negb]; [congruence|].
    destruct (nl_light _ _ H l i u wi li pdf v Hl Hi U1 U2 E P B) as (Fw & Nl & Np).
    destruct (nl_f _ _ H i t b wi Hi Ht Hb Fw) as [Nf Nb].
    destruct (nl_hit _ _ H i Hi) as (_ & _ & _ & Fs & _).
    pose proof (nn_pos_neq _ P) as Pn.
    destruct (is_black (v3scale _ _)); cbn [negb]; [congruence|].
    destruct (unoccluded (scene_intersect_p sc) v) as [ok| |]; cbn [rbind]; try discriminate. destruct ok; [|intros [= <-]; auto].
    pose proof (nn3_mul _ _ (nn3_scale _ _ Nf (nn_abs_dot _ _ (unit_fin _ Fw) Fs)) Nl) as N1.
    destruct (l_is_delta l); intros [= <-]; apply nn3_add; auto; apply nn3_divs; auto.
    apply nn3_scale; auto. apply nn_weight; auto.
  Qed.

  Lemma nn_direct_bsdf l i b t u ld r : In l (sc_lights sc) -> met sc i -> i_shape i = Some t -> sf_scatter (surf t) i = Ok b ->
    in_unit (px u) -> in_unit (py u) -> nn3 ld -> direct_bsdf teq surf sc l i b u ld = Ok r -> nn3 r.
  Proof.
    intros Hl Hi Ht Hb U1 U2 Hld. unfold direct_bsdf. destruct (l_is_delta l); [congruence|].
    destruct (bsdf_sample_f b (i_wo i) u) as [[[[wi f] pdf] flag]| |] eqn:E; cbn [rbind]; try discriminate.
    destruct (flt f0 pdf) eqn:P; cbn [andb]; [|congruence].
    destruct (nl_hit _ _ H i Hi) as (Fp & Fe & Fn & Fs & Fwo).
    pose proof (nn_pos_neq _ P) as Pn.
    destruct (is_black (v3scale f _)) eqn:B; cbn [negb]; [congruence|].
    assert (P0 : feq pdf f0 = false).
    { destruct (feq pdf f0) eqn:Q; auto. exfalso. revert P Q. unfold f0. xsimp. destruct pdf as [|[]|p]; cbn; try discriminate.
      intros P Q. rb. lra. }
    destruct (nl_sample _ _ H i t b u wi f pdf flag Hi Ht Hb U1 U2 E P0) as (Fw & Nf & Np).
    destruct (_ && _); [congruence|].
    destruct (scene_intersect sc (spawn_ray i wi)) as [[li|]| |] eqn:El; cbn [rbind]; try discriminate; [|congruence].
    destruct (i_shape li) as [s|] eqn:Es; [|discriminate].
    assert (Ml : met sc li).
    { destruct (fin_spawn i wi (nl_hit _ _ H i Hi) Fw) as (Fo & Fd & Ft). exists (spawn_ray i wi). auto. }
    assert (Ne : forall e, (if same_addr teq s l then le surf li (v3neg wi) else Ok v3zero) = Ok e -> nn3 e).
    { intros e. destruct (same_addr teq s l); [|intros [= <-]; apply nn3_zero]. unfold le. rewrite Es. intros [= <-].
      apply (nl_emitted _ _ H); auto. now apply unit_neg. }
    destruct (if same_addr teq s l then le surf li (v3neg wi) else Ok v3zero) as [e| |]; cbn [rbind]; try discriminate.
    intros [= <-]. apply nn3_add; auto. apply nn3_divs; auto. apply nn3_scale.
    - apply nn3_mul; auto. apply nn3_scale; auto. apply nn_abs_dot; auto using unit_fin.
    - destruct (negb (_ =? 0)%Z); [exists 1; split; [reflexivity|lra]|]. apply nn_weight; auto. now apply (nl_light_pdf _ _ H).
  Qed.

  Lemma nn_one_light s i b t r s' : met sc i -> i_shape i = Some t -> sf_scatter (surf t) i = Ok b ->
    uniform_sample_one_light sm teq surf sc s i b = Ok (r, s') -> nn3 r.
  Proof.
    intros Hi Ht Hb. unfold uniform_sample_one_light. destruct (Z.of_nat (length (sc_lights sc)) =? 0)%Z; [intros [= <- _]; apply nn3_zero|].
    destruct (sm_get_1d sm s) as [[u s1]| |]; cbn [rbind]; try discriminate.
    set (k := Z.min _ _). destruct (idx (sc_lights sc) k) as [l| |] eqn:El; cbn [rbind]; try discriminate.
    assert (Hl : In l (sc_lights sc)).
    { unfold idx in El. destruct (k <? 0)%Z; [discriminate|]. destruct (nth_error _ _) eqn:En; [|discriminate].
      apply nth_error_In in En. congruence. }
    unfold estimate_direct.
    destruct (sm_get_2d sm s1) as [[u0 s2]| |] eqn:E0; cbn [rbind]; try discriminate.
    destruct (sm_get_2d sm s2) as [[u1 s3]| |] eqn:E1; cbn [rbind]; try discriminate.
    destruct (gs_2d _ _ _ Hs _ _ _ E0) as [A0 B0]. destruct (gs_2d _ _ _ Hs _ _ _ E1) as [A1 B1].
    destruct (direct_light sc l i b u0 v3zero) as [ld| |] eqn:D; cbn [rbind]; try discriminate.
    destruct (direct_bsdf teq surf sc l i b u1 ld) as [ld'| |] eqn:D'; cbn [rbind]; try discriminate.
    intros [= <- _]. apply nn3_scale; [|apply nn_Z; lia].
    apply (nn_direct_bsdf l i b t u1 ld); auto. apply (nn_direct_light l i b t u0 v3zero); auto. apply nn3_zero.
  Qed.

  (** the throughput: not negative, and, if no colour is ever taken, positive *)
  Definition carries (beta : V3 XR) : Prop := nn3 beta /\ (colours_kept surf sc -> pos3 beta).

  Lemma carries_step i t b u wi f pdf flag beta : met sc i -> i_shape i = Some t -> sf_scatter (surf t) i = Ok b -> in_unit (px u) -> in_unit (py u) ->
    bsdf_sample_f b (i_wo i) u = Ok (wi, f, pdf, flag) -> feq pdf f0 = false -> is_black f = false -> carries beta ->
    carries (v3mul beta (v3divs (v3scale f (fabs (v3dot wi (i_sn i)))) pdf)).
  Proof.
    intros Hi Et Eb U1 U2 Es P0 Bf [Nb Cb]. destruct (nl_sample _ _ H i t b u wi f pdf flag Hi Et Eb U1 U2 Es P0) as (Fw & Nf & Np).
    destruct (nl_hit _ _ H i Hi) as (_ & _ & _ & Fs & _). split.
    - apply nn3_mul; auto. apply nn3_divs; auto using nn_neq. apply nn3_scale; auto using nn_abs_dot, unit_fin.
    - intros K. destruct (Cb K) as (r & -> & R1 & R2 & R3). destruct (K i t b u wi f pdf flag Hi Et Eb U1 U2 Es P0 Bf) as ((g & -> & G1 & G2 & G3) & d & n & -> & -> & D).
      destruct Np as (p & -> & Hp). assert (Pp : 0 < p) by (pose proof (nn_neq _ P0); assert (p <> 0) by congruence; lra).
      rewrite v3dot_fin. xsimp. cbn [xabs]. rewrite v3scale_fin, v3divs_fin by lra.
      pose proof (Rabs_pos_lt _ D) as A. assert (I : 0 < / p) by now apply Rinv_0_lt_compat.
      set (g' := vscale (/ p) (vscale (Rabs (vdot d n)) g)). exists (mkV3 (vx r * vx g') (vy r * vy g') (vz r * vz g')). split; [reflexivity|]. unfold g', vscale. vproj. repeat split; repeat apply Rmult_lt_0_compat; auto.
  Qed.
  Lemma carries_roulette beta v s s' : carries beta -> sm_get_1d sm s = Ok (v, s') -> flt (fmin (spectrum_y beta) (flit 95 2)) v = false ->
    exists q, fmin (spectrum_y beta) (flit 95 2) = XFin q /\ 0 < q /\ carries (v3divs beta (XFin q)).
  Proof.
    intros [Nb Cb] E1 Q. destruct (nn_y _ Nb) as (y & Ey & Hy). exists (Rmin y (95 / 100)).
    assert (Eq : fmin (spectrum_y beta) (flit 95 2) = XFin (Rmin y (95 / 100))).
    { rewrite Ey, <- x_fmin. f_equal. unfold flit. xsimp. rewrite xdiv_fin by (apply not_0_IZR; discriminate). reflexivity. }
    split; [exact Eq|]. rewrite Eq in Q. assert (Pq : 0 < Rmin y (95 / 100)).
    { destruct (gs_zero _ _ _ Hs) as [Z|K].
      - specialize (Z _ _ _ E1). destruct (gs_1d _ _ _ Hs _ _ _ E1) as [V1 V2]. unfold f0, f1 in *. revert Q Z V1 V2. xsimp. destruct v as [| |v]; cbn [xlt xle]; try discriminate. intros. rb. lra.
        all: destruct s0; discriminate.
      - destruct (Cb K) as (r & -> & R1 & R2 & R3). destruct (nn_y (fin3 r)) as (y' & Ey' & _); [exists r; split; [reflexivity|lra]|].
        assert (Y : spectrum_y (fin3 r) = XFin (212671 / 1000000 * vx r + 715160 / 1000000 * vy r + 72169 / 1000000 * vz r)).
        { unfold spectrum_y, flit, fin3. vproj. xsimp. rewrite !xdiv_fin by (apply not_0_IZR; discriminate). cbn [xmul xadd]. apply (f_equal XFin).
          change (10 ^ Z.of_nat 6)%Z with 1000000%Z. reflexivity. }
        assert (y = 212671 / 1000000 * vx r + 715160 / 1000000 * vy r + 72169 / 1000000 * vz r) by congruence. apply Rmin_glb_lt; lra. }
    split; [exact Pq|]. set (q := Rmin y (95 / 100)) in *. split.
    - apply nn3_divs; auto; [exists q; split; [reflexivity|lra]|intros Z; injection Z; lra].
    - intros K. destruct (Cb K) as (r & -> & R1 & R2 & R3). rewrite v3divs_fin by lra. assert (I : 0 < / q) by now apply Rinv_0_lt_compat.
      eexists. split; [reflexivity|]. unfold vscale. vproj. repeat split; now apply Rmult_lt_0_compat.
  Qed.

  Lemma nn_loop : forall fuel s r l beta sp bo x s', fin (r_o r) -> unit3 (r_d r) -> xis_nan (r_tmax r) = false -> nn3 l -> carries beta ->
    li_loop sm teq surf sc fuel s r l beta sp bo = Ok (x, s') -> nn3 x.
  Proof.
    induction fuel as [|fuel IH]; intros s r l beta sp bo x s' Fo Fd Ft Nl Nb; cbn [li_loop]; [discriminate|].
    destruct (scene_intersect sc r) as [o| |] eqn:Eo; cbn [rbind]; try discriminate.
    set (le' := if (bo =? 0)%Z || sp then _ else _).
    assert (Nle : forall y, le' = Ok y -> nn3 y).
    { intros y. unfold le'. destruct (_ || _); [|congruence]. destruct o as [i|]; [|congruence].
      unfold le. destruct (i_shape i) as [t|] eqn:Et; cbn [rbind]; [|discriminate]. intros [= <-]. apply nn3_add; auto. apply nn3_mul; [apply Nb|].
      apply (nl_emitted _ _ H); auto; [exists r; auto|now apply unit_neg]. }
    destruct le' as [l1| |]; cbn [rbind]; try discriminate. specialize (Nle l1 eq_refl).
    destruct o as [i|]; [|congruence]. destruct (MAX_BOUNCES <? bo)%Z; [congruence|].
    assert (Hi : met sc i) by (exists r; auto).
    unfold compute_scattering. destruct (i_shape i) as [t|] eqn:Et; cbn [rbind]; [|discriminate].
    destruct (sf_scatter (surf t) i) as [b| |] eqn:Eb; cbn [rbind]; try discriminate.
    destruct (uniform_sample_one_light sm teq surf sc s i b) as [[ld s1]| |] eqn:Eu; cbn [rbind]; try discriminate.
    pose proof (nn_one_light _ _ _ _ _ _ Hi Et Eb Eu) as Nld.
    destruct (sm_get_2d sm s1) as [[u s2]| |] eqn:E2; cbn [rbind]; try discriminate.
    destruct (bsdf_sample_f b (i_wo i) u) as [[[[wi f] pdf] flag]| |] eqn:Es; cbn [rbind]; try discriminate.
    assert (Nl2 : nn3 (v3add l1 (v3mul beta ld))) by (apply nn3_add; auto; apply nn3_mul; auto; apply Nb).
    destruct (feq pdf f0) eqn:P0; cbn [orb]; [congruence|]. destruct (is_black f) eqn:Bf; [congruence|].
    destruct (gs_2d _ _ _ Hs _ _ _ E2) as [U1 U2].
    destruct (nl_sample _ _ H i t b u wi f pdf flag Hi Et Eb U1 U2 Es P0) as (Fw & Nf & Np).
    destruct (fin_spawn i wi (nl_hit _ _ H i Hi) Fw) as (Fo' & Fd' & Ft').
    pose proof (carries_step i t b u wi f pdf flag beta Hi Et Eb U1 U2 Es P0 Bf Nb) as Nb'. set (beta' := v3mul beta (v3divs _ _)) in *.
    destruct (3 <? bo + 1)%Z; [|apply IH; auto].
    destruct (sm_get_1d sm s2) as [[v s3]| |] eqn:E1; cbn [rbind]; try discriminate.
    destruct (flt (fmin (spectrum_y beta') (flit 95 2)) v) eqn:Q; [congruence|].
    destruct (carries_roulette beta' v s2 s3 Nb' E1 Q) as (q & -> & Hq & Nq). apply IH; auto.
  Qed.
End C66.

(** If the one-dimensional samples are never exactly 0, or no surface takes one colour and leaves another, the
    radiance is finite and not negative.  Missing: samples that are 0 among coloured surfaces (see below). *)
Theorem C66_partial : forall (T ST : Type) (sm : sampler_ops XR ST) (teq : T -> T -> bool) (surf : T -> surface XR T)
    (sc : scene XR T (container XR T)),
  no_negative_light surf sc -> good_samples sm surf sc ->
  forall fuel s r x s', fin (r_o r) -> unit3 (r_d r) -> xis_nan (r_tmax r) = false -> li sm teq surf sc fuel s r = Ok (x, s') -> nn3 x.
Proof.
  intros T ST sm teq surf sc H Hs fuel s r x s' Fo Fd Ft. apply (nn_loop sm teq surf sc H Hs); auto; [apply nn3_zero|].
  split; [|intros _]; (exists (mkV3 1 1 1); split; [reflexivity|]; vproj; lra).
Qed.
Print Assumptions C66_partial.

(** False when a sample is exactly 0, in binary32 with the library's own parts: a red and a green mirror
    face each other and the sampler returns 0 every time.  After two bounces the throughput is 0, at the
    fourth the path survives the roulette with probability q = 0 because 0 > 0 is false, and dividing the
    throughput by q gives NaN in every channel. *)
Section W66.
  Context (L : Libm b32).
  Definition facing (a b : triangle b32) (t : bool) : shape b32 bool := triangle_shape (if t then a else b).
  Definition mirrors (ca cb : V3 b32) (t : bool) : surface b32 bool :=
    mkSurf (mat_mirror (constant_texture (if t then ca else cb))) (fun _ _ => v3zero).
  Definition facing_scene (a b : triangle b32) : res (scene b32 bool (container b32 bool)) :=
    construct (facing a b) (fun _ => mkArea v3zero (facing a b true))
      (fun l => let! c := simple_new (facing a b) l in Ok (simple_container (facing a b) c)) (add_shape (add_shape builder_new true) false).
  Definition path_of (ca cb : V3 b32) (rng : unit -> b32 * unit) (sc : scene b32 bool (container b32 bool)) (r : ray b32)
    : res (V3 b32 * random_sampler) :=
    li (random_ops rng Release) Bool.eqb (mirrors ca cb) sc 66 (random_new 1 tt) r.
  Definition w_level (z : Z) : triangle b32 :=
    mkTri (mk3 (mkV3 (fofZ (-4)) (fofZ (-4)) (fofZ z)) (mkV3 (fofZ 4) (fofZ (-4)) (fofZ z)) (mkV3 f0 (fofZ 4) (fofZ z))) None false.
  Definition w_red : V3 b32 := mkV3 f1 f0 f0.
  Definition w_green : V3 b32 := mkV3 f0 f1 f0.
  Definition w_zero (g : unit) : b32 * unit := (f0, tt).
  Definition w_look : ray b32 := mkRay (mkV3 f0 f0 f1) (mkV3 f0 f0 (fofZ (-1))) finf.
  Definition all_nan {S} (r : res (V3 b32 * S)) : bool :=
    match r with Ok (l, _) => fis_nan (vx l) && fis_nan (vy l) && fis_nan (vz l) | _ => false end.
  Lemma all_nan_is {S} (r : res (V3 b32 * S)) : all_nan r = true ->
    match r with Ok (l, _) => fis_nan (vx l) = true /\ fis_nan (vy l) = true /\ fis_nan (vz l) = true | _ => False end.
  Proof.
    unfold all_nan. destruct r as [[l s]| |]; try discriminate. intros W.
    apply andb_prop in W as [W W3]. apply andb_prop in W as [W1 W2]. auto.
  Qed.
  Lemma w_nan : match facing_scene (w_level 0) (w_level 2) with Ok sc => all_nan (path_of w_red w_green w_zero sc w_look) = true | _ => False end.
  Proof. vm_compute. reflexivity. Qed.
End W66.

Theorem C66_refuted : forall L : Libm b32,
  exists (a b : triangle b32) (sc : scene b32 bool (container b32 bool)) (ca cb : V3 b32) (rng : unit -> b32 * unit) (r : ray b32),
    in_unit (fst (rng tt)) /\ facing_scene L a b = Ok sc /\
    match path_of L ca cb rng sc r with
    | Ok (l, _) => fis_nan (vx l) = true /\ fis_nan (vy l) = true /\ fis_nan (vz l) = true
    | _ => False
    end.
Proof.
  intros L. pose proof (w_nan L) as W. destruct (facing_scene L (w_level L 0) (w_level L 2)) as [sc| |] eqn:E; try contradiction.
  exists (w_level L 0), (w_level L 2), sc, (w_red L), (w_green L), (w_zero L), (w_look L).
  split; [repeat split; vm_compute; reflexivity|]. split; [exact E|].
  exact (all_nan_is L _ W).
Qed.
Print Assumptions C66_refuted.
