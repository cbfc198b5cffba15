(** * C76, C77, C79: weights, choice of lights, the path as a sum *)
From Coq Require Import ZArith Reals List Bool Lia Lra.
From Flocq Require Import Core.
From Verif Require Import Model.Num Model.NumX Model.Vector Model.Common Model.BBox Model.Interaction Model.Shape Model.Container Model.Sampler
  Model.Sampling Model.Reflection Model.Fresnel Model.Microfacet Model.BxDFs Model.Texture Model.Material Model.Light Model.Scene Model.Path.
From Verif Require Import Spec.RVec Spec.SamplerSpec Spec.ShadeSpec Spec.RadianceSpec Spec.EstimatorSpec.
From Verif Require Import Proofs.XBase Proofs.RVecProofs Proofs.ShadeProofs Proofs.MicroProofs.
From Verif Require Import Props.Frames Props.Radiance Props.Radiance2 Props.Estimator Props.Shading3.
Import ListNotations.
Local Open Scope R_scope.

(** ** C79 *)
Lemma y_fin v : spectrum_y (fin3 v) = XFin (lum v).
Proof.
  unfold spectrum_y, flit, fin3, lum. vproj. xsimp. rewrite !xdiv_fin by (apply not_0_IZR; discriminate). cbn [xmul xadd]. apply (f_equal XFin).
  change (10 ^ Z.of_nat 6)%Z with 1000000%Z. reflexivity.
Qed.
Lemma q_fin v : fmin (spectrum_y (fin3 v)) (flit 95 2) = XFin (survival v).
Proof.
  rewrite y_fin. unfold survival. rewrite <- x_fmin. f_equal. unfold flit. xsimp. rewrite xdiv_fin by (apply not_0_IZR; discriminate).
  change (10 ^ Z.of_nat 2)%Z with 100%Z. reflexivity.
Qed.
Lemma black_fin v : is_black (fin3 v) = true -> fin3 v = v3zero.
Proof.
  unfold is_black, fin3. vproj. rewrite x_f0. xsimp. cbn [xeq]. intros E. apply andb_prop in E as [E E3]. apply andb_prop in E as [E1 E2]. rb.
  rewrite E1, E2, E3. reflexivity.
Qed.

Section C79.
  Context {T ST : Type}.
  Variables (sm : sampler_ops XR ST) (teq : T -> T -> bool) (surf : T -> surface XR T) (sc : scene XR T (container XR T)).
  Hypothesis H : no_negative_light surf sc.
  Hypothesis Hs : good_samples sm surf sc.

  Lemma loop_traces : forall fuel s r l beta sp bo x s', fin (r_o r) -> unit3 (r_d r) -> xis_nan (r_tmax r) = false ->
    carries surf sc (fin3 beta) -> (0 <= bo)%Z ->
    li_loop sm teq surf sc fuel s r (fin3 l) (fin3 beta) sp bo = Ok (x, s') ->
    exists p, traces sm teq surf sc bo beta s r p s' /\ x = fin3 (vadd l (vprod beta (path_sum ((bo =? 0)%Z || sp) p))).
  Proof.
    induction fuel as [|fuel IH]; intros s r l beta sp bo x s' Fo Fd Ft Nb Hbo; cbn [li_loop]; [discriminate|].
    unfold scene_intersect. destruct (c_intersect (sc_shapes sc) r) as [o| |] eqn:Eo; cbn [rbind]; try discriminate.
    destruct o as [i|].
    2:{ intros E. exists Miss. split; [|cbn [path_sum]].
        - replace s' with s; [now constructor|]. destruct (_ || _); cbn [rbind] in E; congruence.
        - replace x with (fin3 l); [f_equal; unfold vprod; vring|]. destruct (_ || _); cbn [rbind] in E; congruence. }
    assert (Hi : met sc i) by (exists r; auto).
    set (lit := (bo =? 0)%Z || sp).
    unfold le, compute_scattering. destruct (i_shape i) as [t|] eqn:Et.
    2:{ destruct lit; cbn [rbind]; [discriminate|]. destruct (MAX_BOUNCES <? bo)%Z eqn:Mb; [|discriminate].
        intros E. exists (Cut v0). split; [|cbn [path_sum]].
        - replace s' with s by congruence. apply (tr_cut sm teq surf sc bo beta s r i v0 Eo); [unfold MAX_BOUNCES in Mb; lia|congruence|reflexivity].
        - replace x with (fin3 l) by congruence. f_equal. unfold vprod. vring. }
    destruct (nl_emitted _ _ H i t (v3neg (r_d r)) Hi Et (unit_neg _ Fd)) as (e & Ee & _).
    set (l1 := vadd l (vprod beta (if lit then e else v0))).
    assert (El : (if lit then let! e := Ok (sf_l (surf t) i (v3neg (r_d r))) in Ok (v3add (fin3 l) (v3mul (fin3 beta) e)) else Ok (fin3 l)) = Ok (fin3 l1)).
    { unfold l1. destruct lit; cbn [rbind]; [rewrite Ee, v3mul_fin, v3add_fin; reflexivity|]. f_equal. f_equal. unfold vprod. vring. }
    rewrite El. cbn [rbind].
    assert (Se : sees surf sc r i e) by (exists t; auto).
    destruct (MAX_BOUNCES <? bo)%Z eqn:Mb.
    { intros E. exists (Cut e). split; [|cbn [path_sum]; assert (x = fin3 l1) as -> by congruence; reflexivity].
      replace s' with s by congruence. apply (tr_cut sm teq surf sc bo beta s r i e Eo); [unfold MAX_BOUNCES in Mb; lia| |congruence]. intros t' Et'. congruence. }
    assert (Bb : (bo <= 64)%Z) by (unfold MAX_BOUNCES in Mb; lia). clear Mb.
    destruct (sf_scatter (surf t) i) as [b| |] eqn:Eb; cbn [rbind]; try discriminate.
    destruct (uniform_sample_one_light sm teq surf sc s i b) as [[ld s1]| |] eqn:Eu; cbn [rbind]; try discriminate.
    destruct (nn_one_light sm teq surf sc H Hs _ _ _ _ _ _ Hi Et Eb Eu) as (d & -> & _).
    destruct (sm_get_2d sm s1) as [[u s2]| |] eqn:E2; cbn [rbind]; try discriminate.
    destruct (bsdf_sample_f b (i_wo i) u) as [[[[wi f] pdf] flag]| |] eqn:Es; cbn [rbind]; try discriminate.
    assert (Sc : scatters sm teq surf sc s i d wi f pdf flag s2) by (exists t, b, s1, u; auto).
    rewrite v3mul_fin, v3add_fin. set (l2 := vadd l1 (vprod beta d)).
    assert (L2 : l2 = vadd l (vprod beta (vadd (if lit then e else v0) d))) by (unfold l2, l1, vprod; vring).
    destruct (gs_2d _ _ _ Hs _ _ _ E2) as [U1 U2].
    destruct (feq pdf f0) eqn:P0; cbn [orb].
    { intros E. exists (Last e d). split; [|cbn [path_sum]; rewrite <- L2; congruence]. replace s' with s2 by congruence.
      eapply tr_absorbed; eauto. left. revert P0. rewrite x_f0. xsimp. destruct pdf as [| |p]; cbn [xeq]; try discriminate. intros P0. rb. congruence. }
    destruct (nl_sample _ _ H i t b u wi f pdf flag Hi Et Eb U1 U2 Es P0) as ((di & -> & Ud) & (fr & -> & F1 & F2 & F3) & (p & -> & Hp)).
    assert (Pp : 0 < p).
    { revert P0. rewrite x_f0. xsimp. cbn [xeq]. intros P0. rb. lra. }
    destruct (is_black (fin3 fr)) eqn:Bf.
    { intros E. exists (Last e d). split; [|cbn [path_sum]; rewrite <- L2; congruence]. replace s' with s2 by congruence.
      eapply tr_absorbed; eauto. right. now apply black_fin. }
    pose proof (nl_hit _ _ H i Hi) as Fi. destruct Fi as (_ & _ & _ & (n & En) & _).
    destruct (fin_spawn i (fin3 di) (nl_hit _ _ H i Hi) (ex_intro _ di (conj eq_refl Ud))) as (Fo' & Fd' & Ft').
    set (w := vscale (Rabs (vdot di n) / p) fr).
    assert (We : weight_of i (fin3 di) (fin3 fr) (XFin p) w) by (exists n, di, fr, p; auto 10).
    assert (Ew : v3divs (v3scale (fin3 fr) (fabs (v3dot (fin3 di) (i_sn i)))) (XFin p) = fin3 w).
    { rewrite En, v3dot_fin. xsimp. cbn [xabs]. rewrite v3scale_fin, v3divs_fin by lra. f_equal. unfold w. apply V3_eq; unfold vscale; vproj; field; lra. }
    rewrite Ew, v3mul_fin.
    assert (Nw : carries surf sc (fin3 (vprod beta w))).
    { rewrite <- v3mul_fin, <- Ew. apply (carries_step surf sc H i t b u (fin3 di) (fin3 fr) (XFin p) flag (fin3 beta) Hi Et Eb U1 U2 Es P0 Bf Nb). }
    assert (Hbo' : (0 <= bo + 1)%Z) by lia.
    destruct (3 <? bo + 1)%Z eqn:B3.
    2:{ intros E. destruct (IH s2 (spawn_ray i (fin3 di)) l2 (vprod beta w) _ _ _ _ Fo' Fd' Ft' Nw Hbo' E) as (p' & Tp & ->).
        assert (Bo : (bo < 3)%Z) by lia. exists (Next e d w 1 (negb (Z.land flag SPECULAR =? 0)%Z) p'). split; [eapply tr_early; eauto|].
        replace (bo + 1 =? 0)%Z with false by lia. f_equal. cbn [path_sum orb]. rewrite L2. unfold vprod. apply V3_eq; unfold vadd, vscale; vproj; field. }
    destruct (sm_get_1d sm s2) as [[v s3]| |] eqn:E1; cbn [rbind]; try discriminate. rewrite q_fin.
    destruct (in_unit_fin _ (gs_1d _ _ _ Hs _ _ _ E1)) as (v' & -> & Hv). set (q := survival (vprod beta w)).
    destruct (flt (XFin q) (XFin v')) eqn:Q.
    { intros E. exists (Last e d). split; [|cbn [path_sum]; rewrite <- L2; congruence]. replace s' with s3 by congruence.
      eapply tr_stopped; eauto; [lia|]. revert Q. xsimp. cbn [xlt]. intros Q. rb. exact Q. }
    destruct (carries_roulette sm surf sc Hs (fin3 (vprod beta w)) (XFin v') s2 s3 Nw E1) as (q' & Eq & Pq & Nq); [rewrite q_fin; exact Q|].
    rewrite q_fin in Eq. assert (Qq : q' = q) by (injection Eq; auto). rewrite Qq in *. clear Qq Eq q'.
    assert (Hq : 0 <= v' <= q).
    { revert Q. xsimp. cbn [xlt]. intros Q. rb. lra. }
    assert (Dq : v3divs (fin3 (vprod beta w)) (XFin q) = fin3 (vscale (/ q) (vprod beta w))) by (apply v3divs_fin; lra). rewrite Dq in *.
    intros E. destruct (IH s3 (spawn_ray i (fin3 di)) l2 _ _ _ _ _ Fo' Fd' Ft' Nq Hbo' E) as (p' & Tp & ->).
    exists (Next e d w q (negb (Z.land flag SPECULAR =? 0)%Z) p'). split; [eapply tr_late; eauto; lia|].
    replace (bo + 1 =? 0)%Z with false by lia. f_equal. cbn [path_sum orb]. rewrite L2. unfold vprod. apply V3_eq; unfold vadd, vscale; vproj; field; lra.
  Qed.
End C79.

(** The radiance of a path is the sum over its surfaces: emission (where it is not part of the direct light
    already counted), direct light, and the scattered fraction of what comes along the rest, divided by the
    probability of having gone on.  Missing: samples that are exactly 0 among coloured surfaces (see C66). *)
Theorem C79_path_sum_partial : forall (T ST : Type) (sm : sampler_ops XR ST) (teq : T -> T -> bool) (surf : T -> surface XR T)
    (sc : scene XR T (container XR T)),
  no_negative_light surf sc -> good_samples sm surf sc ->
  forall fuel s r x s', fin (r_o r) -> unit3 (r_d r) -> xis_nan (r_tmax r) = false ->
    li sm teq surf sc fuel s r = Ok (x, s') ->
    exists p, traces sm teq surf sc 0 (mkV3 1 1 1) s r p s' /\ x = fin3 (path_sum true p).
Proof.
  intros T ST sm teq surf sc H Hs fuel s r x s' Fo Fd Ft E. unfold li in E.
  assert (N1 : carries surf sc (fin3 (mkV3 1 1 1))) by (split; [|intros _]; eexists; (split; [reflexivity|]); vproj; lra).
  change (@v3zero XR _) with (fin3 v0) in E. change (spectrum_of (@f1 XR _)) with (fin3 (mkV3 1 1 1)) in E.
  destruct (loop_traces sm teq surf sc H Hs fuel s r v0 (mkV3 1 1 1) false 0 x s' Fo Fd Ft N1 ltac:(lia) E) as (p & Tp & ->).
  exists p. split; [exact Tp|]. f_equal. cbn [Z.eqb orb]. unfold vprod. vring.
Qed.
Print Assumptions C79_path_sum_partial.

(** the mirror under the lamp *)
Example C79_example : no_negative_light (ex_mirror_surf (fin3 ex_glow)) (ex_mirror_scene (fin3 ex_glow)) /\ good_samples ex_half (ex_mirror_surf (fin3 ex_glow)) (ex_mirror_scene (fin3 ex_glow)) /\
  fin (r_o ex_down) /\ unit3 (r_d ex_down) /\ xis_nan (r_tmax ex_down) = false /\
  path_sum true (Next v0 (vprod ex_grey ex_glow) ex_grey 1 true (Last ex_glow v0)) = vscale 2 (vprod ex_grey ex_glow).
Proof.
  split; [apply ex_mirror_ok, ex_glow_nn|]. split; [apply ex_half_good|]. split; [eexists; reflexivity|]. split; [apply ex_unit; lra|]. split; [reflexivity|].
  cbn [path_sum]. unfold vprod, ex_grey, ex_glow. apply V3_eq; unfold vadd, vscale, v0; vproj; field.
Qed.

(** ** C77: the lights are chosen in equal shares *)

(** Exact arithmetic, [n] lights: a sample in [k/n, (k+1)/n) selects light number [k], and what light [k] is
    estimated to contribute is multiplied by [n]; so the average over the sample is the sum over the lights. *)
Theorem C77_equal_shares : forall (T ST : Type) (sm : sampler_ops XR ST) (teq : T -> T -> bool) (surf : T -> surface XR T)
    (sc : scene XR T (container XR T)) s i b u s1 (k : nat) l,
  let n := INR (length (sc_lights sc)) in
  sm_get_1d sm s = Ok (XFin u, s1) -> nth_error (sc_lights sc) k = Some l -> (Z.of_nat (length (sc_lights sc)) < 2 ^ 63)%Z ->
  INR k / n <= u < (INR k + 1) / n ->
  uniform_sample_one_light sm teq surf sc s i b =
  match estimate_direct sm teq surf sc s1 l i b with
  | Ok (d, s2) => Ok (v3scale d (XFin n), s2) | Panic => Panic | Timeout => Timeout
  end.
Proof.
  intros T ST sm teq surf sc s i b u s1 k l n Eu Ek Hn Hu.
  assert (Lk : (k < length (sc_lights sc))%nat) by (apply nth_error_Some; congruence).
  assert (Np : 0 < n) by (apply lt_0_INR; lia).
  unfold uniform_sample_one_light. replace (Z.of_nat (length (sc_lights sc)) =? 0)%Z with false by lia. rewrite Eu. cbn [rbind].
  assert (Ei : Z.min (fto_usize (fmul (fofZ (Z.of_nat (length (sc_lights sc)))) (XFin u))) (Z.of_nat (length (sc_lights sc)) - 1) = Z.of_nat k).
  { unfold fto_usize. xsimp. cbn [xmul xto_int]. rewrite <- INR_IZR_INZ. fold n.
    assert (Fl : Zfloor (n * u) = Z.of_nat k).
    { apply Zfloor_imp. rewrite plus_IZR, <- INR_IZR_INZ. destruct Hu as [A B]. split.
      - apply Rmult_le_compat_l with (r := n) in A; [|lra]. replace (n * (INR k / n)) with (INR k) in A by (field; lra). exact A.
      - apply Rmult_lt_compat_l with (r := n) in B; [|lra]. replace (n * ((INR k + 1) / n)) with (INR k + 1) in B by (field; lra). exact B. }
    assert (P : 0 <= n * u).
    { apply Rmult_le_pos; [lra|]. apply Rle_trans with (2 := proj1 Hu). apply Rmult_le_pos; [apply pos_INR|left; now apply Rinv_0_lt_compat]. }
    rewrite Ztrunc_floor by exact P. rewrite Fl. unfold usize_max. lia. }
  rewrite Ei. assert (Ex : idx (sc_lights sc) (Z.of_nat k) = Ok l).
  { unfold idx. replace (Z.of_nat k <? 0)%Z with false by lia. rewrite Nat2Z.id, Ek. reflexivity. }
  rewrite Ex. cbn [rbind]. change (fofZ (Z.of_nat (length (sc_lights sc)))) with (XFin (IZR (Z.of_nat (length (sc_lights sc))))).
  rewrite <- INR_IZR_INZ. fold n. destruct (estimate_direct sm teq surf sc s1 l i b) as [[d s2]| |]; reflexivity.
Qed.
Print Assumptions C77_equal_shares.

(** three lights, sample 1/2: the middle one *)
Example C77_example : exists sc : scene XR bool (container XR bool), nth_error (sc_lights sc) 1 = Some (ex_lamp (fin3 ex_glow)) /\
  sm_get_1d ex_half tt = Ok (XFin (1/2), tt) /\ (Z.of_nat (length (sc_lights sc)) < 2 ^ 63)%Z /\
  INR 1 / INR (length (sc_lights sc)) <= 1/2 < (INR 1 + 1) / INR (length (sc_lights sc)).
Proof.
  exists (mkScene [ex_lamp (fin3 v0); ex_lamp (fin3 ex_glow); ex_lamp (fin3 v0)] (sc_shapes (ex_mirror_scene (fin3 ex_glow)))).
  split; [reflexivity|]. split; [reflexivity|]. split; [cbn; lia|]. cbn [sc_lights length INR]. lra.
Qed.

(** ** C76: both ways of sampling a direction together count it once *)
Section C76.
  Context {T : Type}.
  Variables (teq : T -> T -> bool) (surf : T -> surface XR T) (sc : scene XR T (container XR T)).
  Variables (l : light XR T) (i : interaction XR T) (b : bsdf XR) (u0 u1 : P2 XR) (v : vis XR T) (wi L f n : rv) (pl pb : R) (flag : Z).
  (** direction [wi] is sampled from the light, with density [pl], and from the BSDF, with density [pb] *)
  Record both_ways : Prop := {
    bw_light : l_sample_li l i u0 = Ok (fin3 wi, fin3 L, XFin pl, v) /\ 0 < pl;
    bw_clear : unoccluded (scene_intersect_p sc) v = Ok true;
    bw_bsdf : bsdf_sample_f b (i_wo i) u1 = Ok (fin3 wi, fin3 f, XFin pb, flag) /\ 0 < pb /\ Z.land flag SPECULAR = 0%Z;
    bw_same_f : bsdf_f b (i_wo i) (fin3 wi) = fin3 f /\ bsdf_pdf b (i_wo i) (fin3 wi) = XFin pb /\ l_pdf_li l i (fin3 wi) = XFin pl;
    bw_hits : exists j t, c_intersect (sc_shapes sc) (spawn_ray i (fin3 wi)) = Ok (Some j) /\ i_shape j = Some t /\
      same_addr teq t l = true /\ sf_l (surf t) j (v3neg (fin3 wi)) = fin3 L;
    bw_normal : i_sn i = fin3 n;
  }.
End C76.

Lemma fin3_0 g : fin3 g = v3zero -> g = v0.
Proof.
  intros E. unfold fin3, v3zero in E. rewrite x_f0 in E. assert (A : vx g = 0 /\ vy g = 0 /\ vz g = 0) by (injection E; auto).
  apply V3_eq; unfold v0; vproj; tauto.
Qed.

Lemma heuristic_fin a c : 0 < a -> power_heuristic 1 (XFin a) 1 (XFin c) = XFin (a * a / (a * a + c * c)).
Proof.
  intros A. unfold power_heuristic. xsimp. cbn [xmul xadd]. rewrite !Rmult_1_r. rewrite xdiv_fin by nra. reflexivity.
Qed.

(** The two contributions, each times the density of finding it, add up to value x radiance x cosine. *)
Theorem C76_weights : forall (T : Type) (teq : T -> T -> bool) (surf : T -> surface XR T) (sc : scene XR T (container XR T))
    l i b u0 u1 v wi L f n pl pb flag,
  both_ways teq surf sc l i b u0 u1 v wi L f n pl pb flag -> l_is_delta l = false ->
  exists a c, vadd (vscale pl a) (vscale pb c) = vscale (Rabs (vdot wi n)) (vprod f L) /\
    forall ld, direct_light sc l i b u0 (fin3 ld) = Ok (fin3 (vadd ld a)) /\
               direct_bsdf teq surf sc l i b u1 (fin3 ld) = Ok (fin3 (vadd ld c)).
Proof.
  intros T teq surf sc l i b u0 u1 v wi L f n pl pb flag [(El & Pl) Ev (Eb & Pb & Sp) (Ef & Epb & Epl) (j & t & Ej & Et & Sa & EL) En] Dl.
  set (g := vscale (Rabs (vdot wi n)) f).
  assert (Eg : v3scale (fin3 f) (fabs (v3dot (fin3 wi) (i_sn i))) = fin3 g).
  { rewrite En, v3dot_fin. xsimp. cbn [xabs]. now rewrite v3scale_fin. }
  assert (P1 : flt (f0 (F := XR)) (XFin pl) = true) by (rewrite x_f0; xsimp; cbn [xlt]; rb; lra).
  assert (P2 : flt (f0 (F := XR)) (XFin pb) = true) by (rewrite x_f0; xsimp; cbn [xlt]; rb; lra).
  assert (P3 : feq (XFin pl) (f0 (F := XR)) = false) by (rewrite x_f0; xsimp; cbn [xeq]; rb; lra).
  assert (Sum : forall ld, direct_light sc l i b u0 (fin3 ld) =
      Ok (if negb (is_black (fin3 L)) then if negb (is_black (fin3 g)) then fin3 (vadd ld (vscale (/ pl) (vscale (pl * pl / (pl * pl + pb * pb)) (vprod g L))))
          else fin3 ld else fin3 ld) /\
    direct_bsdf teq surf sc l i b u1 (fin3 ld) =
      Ok (if negb (is_black (fin3 g)) then fin3 (vadd ld (vscale (/ pb) (vscale (pb * pb / (pb * pb + pl * pl)) (vprod g L)))) else fin3 ld)).
  { intros ld. unfold direct_light, direct_bsdf. rewrite El, Eb, Dl. cbn [rbind]. rewrite P1, P2, Ef, Eg, Epb, Epl, Sp, P3. cbn [Z.eqb negb andb].
    rewrite Ev. cbn [rbind]. unfold scene_intersect. rewrite Ej. cbn [rbind]. rewrite Et, Sa. unfold le. rewrite Et, EL. cbn [rbind].
    rewrite !heuristic_fin by auto. rewrite !v3mul_fin, !v3scale_fin, !v3divs_fin by lra. rewrite !v3add_fin.
    now destruct (is_black (fin3 L)), (is_black (fin3 g)). }
  destruct (is_black (fin3 g)) eqn:Bg; cbn [negb] in Sum.
  - exists v0, v0. apply black_fin, fin3_0 in Bg. split.
    + transitivity (vprod g L); [rewrite Bg; unfold vprod; vring|unfold g, vprod; vring].
    + intros ld. destruct (Sum ld) as [-> ->]. replace (vadd ld v0) with ld by vring. now destruct (is_black (fin3 L)).
  - destruct (is_black (fin3 L)) eqn:BL; cbn [negb] in Sum.
    + apply black_fin, fin3_0 in BL. exists v0. eexists. split; [|intros ld; destruct (Sum ld) as [-> ->]; replace (vadd ld v0) with ld by vring; split; reflexivity].
      rewrite BL. unfold vprod. apply V3_eq; unfold vadd, vscale, v0; vproj; ring.
    + eexists. eexists. split; [|intros ld; destruct (Sum ld) as [-> ->]; split; reflexivity].
      assert (D : pl * pl + pb * pb <> 0) by nra. assert (D' : pb * pb + pl * pl <> 0) by nra.
      unfold g, vprod. apply V3_eq; unfold vadd, vscale, v0; vproj; field; repeat split; lra.
Qed.
Print Assumptions C76_weights.

(** A distant light can only be found by sampling it: all of value x radiance x cosine comes from there. *)
Theorem C76_delta : forall (T : Type) (teq : T -> T -> bool) (surf : T -> surface XR T) (sc : scene XR T (container XR T))
    l i b u0 u1 v wi L f n pl,
  l_is_delta l = true -> l_sample_li l i u0 = Ok (fin3 wi, fin3 L, XFin pl, v) -> 0 < pl -> unoccluded (scene_intersect_p sc) v = Ok true ->
  bsdf_f b (i_wo i) (fin3 wi) = fin3 f -> i_sn i = fin3 n ->
  exists a, vscale pl a = vscale (Rabs (vdot wi n)) (vprod f L) /\
    forall ld, direct_light sc l i b u0 (fin3 ld) = Ok (fin3 (vadd ld a)) /\ direct_bsdf teq surf sc l i b u1 (fin3 ld) = Ok (fin3 ld).
Proof.
  intros T teq surf sc l i b u0 u1 v wi L f n pl Dl El Pl Ev Ef En.
  set (g := vscale (Rabs (vdot wi n)) f).
  assert (Eg : v3scale (fin3 f) (fabs (v3dot (fin3 wi) (i_sn i))) = fin3 g).
  { rewrite En, v3dot_fin. xsimp. cbn [xabs]. now rewrite v3scale_fin. }
  assert (P1 : flt (f0 (F := XR)) (XFin pl) = true) by (rewrite x_f0; xsimp; cbn [xlt]; rb; lra).
  exists (vscale (/ pl) (vprod g L)). split; [unfold g, vprod; apply V3_eq; unfold vscale; vproj; field; lra|].
  intros ld. unfold direct_light, direct_bsdf. rewrite El, Dl. split; [|reflexivity]. cbn [rbind]. rewrite P1, Ef, Eg, Ev. cbn [rbind andb].
  rewrite v3mul_fin, v3divs_fin, v3add_fin by lra.
  destruct (is_black (fin3 L)) eqn:BL; cbn [negb].
  { apply black_fin, fin3_0 in BL. f_equal. f_equal. rewrite BL. unfold vprod. vring. }
  destruct (is_black (fin3 g)) eqn:Bg; cbn [negb]; [|reflexivity].
  apply black_fin, fin3_0 in Bg. f_equal. f_equal. rewrite Bg. unfold vprod. vring.
Qed.
Print Assumptions C76_delta.

(** Hidden from the light sample, nothing is added. *)
Theorem C76_shadow : forall (T : Type) (sc : scene XR T (container XR T)) l i b u0 v wi L p ld,
  l_sample_li l i u0 = Ok (wi, L, p, v) -> unoccluded (scene_intersect_p sc) v = Ok false -> direct_light sc l i b u0 ld = Ok ld.
Proof.
  intros T sc l i b u0 v wi L p ld El Ev. unfold direct_light. rewrite El. cbn [rbind]. rewrite Ev.
  destruct (_ && _); [|reflexivity]. now destruct (negb _).
Qed.
Print Assumptions C76_shadow.

(** A matte floor of reflectance 1/2 under the lamp; sample (1/2, 1/2) gives the direction straight up, and
    so does the light. *)
Definition ex_floor : bsdf XR := bsdf_add (bsdf_new ex_below) (lambertian (fin3 ex_grey)).
Lemma up_sample : bx_sample_f (lambertian (fin3 ex_grey)) (fin3 (mkV3 0 0 1)) (mkP2 (XFin (1/2)) (XFin (1/2))) =
  (fin3 (mkV3 0 0 1), fin3 (vscale (/ PI) ex_grey), XFin (/ PI)).
Proof.
  pose proof PI_RGT_0 as PP. cbn [lambertian bx_sample_f]. unfold lamb_sample.
  destruct (hemisphere_fin (1/2) (1/2) ltac:(lra) ltac:(lra)) as (w & -> & Uw & Z0 & Zw).
  assert (Z1 : vz w = 1).
  { rewrite Zw. replace (2 * (1/2) - 1) with 0 by lra. rewrite Rabs_R0. unfold Rmax. destruct (Rle_dec 0 0); rewrite Rsqr_0, Rminus_0_r; apply sqrt_1. }
  assert (W : w = mkV3 0 0 1) by (unfold vdot in Uw; rewrite Z1 in Uw; apply V3_eq; vproj; nra).
  rewrite W. change (flt (vz (fin3 (mkV3 0 0 1))) f0) with (Rlt_bool 1 0). rewrite Rlt_bool_false by lra.
  unfold lamb_pdf, lamb_f. rewrite same_hemisphere_fin. vproj. rewrite Rlt_bool_true by lra. xsimp. rewrite v3divs_fin by lra.
  unfold abs_cos_theta, fin3 at 3. vproj. xsimp. cbn [xabs]. rewrite Rabs_R1, xdiv_fin by lra. repeat f_equal. lra.
Qed.
Example C76_example : both_ways Bool.eqb (ex_mirror_surf (fin3 ex_glow)) (ex_mirror_scene (fin3 ex_glow)) (ex_lamp (fin3 ex_glow)) ex_below ex_floor
    (mkP2 (XFin 0) (XFin 0)) (mkP2 (XFin (1/2)) (XFin (1/2))) (mkVis ex_below ex_above) (mkV3 0 0 1) ex_glow (vscale (/ PI) ex_grey) (mkV3 0 0 1) 1 (/ PI)
    (Z.lor REFLECTION DIFFUSE) /\ l_is_delta (ex_lamp (fin3 ex_glow)) = false.
Proof.
  pose proof PI_RGT_0 as PP. assert (IP : 0 < / PI) by now apply Rinv_0_lt_compat.
  assert (D0 : mkV3 1 0 0 <> v0) by (intros E; apply (f_equal (fun q : rv => vx q)) in E; revert E; unfold v0; vproj; lra).
  assert (Cu : coords (mkV3 0 0 1) (mkV3 1 0 0) (mkV3 0 0 1) = mkV3 0 0 1).
  { unfold coords, vunit, vdot, vcross, vscale. apply V3_eq; vproj; ring. }
  assert (N1 : vnorm (mkV3 0 0 1) = 1) by (apply vnorm_1_dot; unfold vdot; vproj; ring).
  assert (Wn : vdot (mkV3 0 0 1) (mkV3 0 0 1) <> 0) by (unfold vdot; vproj; lra).
  split; [|reflexivity]. constructor.
  - split; [reflexivity|lra].
  - reflexivity.
  - split; [|split; [exact IP|reflexivity]]. pose proof up_sample as U. rewrite <- Cu in U at 1.
    destruct (single_sample ex_below (mkV3 0 0 1) (mkV3 1 0 0) (mkV3 0 0 1) (lambertian (fin3 ex_grey)) (1/2) (1/2) _ _ _ eq_refl eq_refl D0 N1
      ltac:(unfold vdot; vproj; ring) Wn ltac:(lra) U) as (w & E & _ & Ew).
    rewrite Req_bool_false in E by lra. unfold ex_floor. change (i_wo ex_below) with (fin3 (mkV3 0 0 1)). rewrite E.
    assert (Q : w = mkV3 0 0 1) by (rewrite Ew; apply V3_eq; unfold vadd, vscale; vproj; ring). rewrite Q. reflexivity.
  - change (i_wo ex_below) with (fin3 (mkV3 0 0 1)). split; [|split; [|reflexivity]].
    + destruct (C80_sides bool ex_below (mkV3 0 0 1) (mkV3 0 0 1) (mkV3 1 0 0) (mkV3 0 0 1) (mkV3 0 0 1) [lambertian (fin3 ex_grey)] (fun _ => vscale (/ PI) ex_grey)
        eq_refl eq_refl eq_refl D0) as (_ & S1 & _).
      { intros x [<-|[]]. cbn [lambertian bx_f]. unfold lamb_f. xsimp. apply v3divs_fin. lra. }
      change (bsdf_adds (bsdf_new ex_below) [lambertian (fin3 ex_grey)]) with ex_floor in S1. rewrite S1; [|exact Wn|unfold vdot; vproj; lra].
      change (filter (fun x : bxdf XR => Z.testbit (bx_flag x) 0) [lambertian (fin3 ex_grey)]) with [lambertian (fin3 ex_grey)].
      cbn [map vsum fold_right]. f_equal. vring.
    + assert (Ew : world_to_local ex_floor (fin3 (mkV3 0 0 1)) = fin3 (mkV3 0 0 1)).
      { rewrite (world_to_local_fin ex_floor _ _ _ (mkV3 0 0 1) (bsdf_new_frame ex_below (mkV3 0 0 1) (mkV3 1 0 0) eq_refl eq_refl D0)).
        f_equal. exact Cu. }
      unfold bsdf_pdf. rewrite Ew. change (bs_bxdfs ex_floor) with [lambertian (fin3 ex_grey)]. cbn [length Z.of_nat Z.eqb Pos.of_succ_nat fold_left].
      change (feq (vz (fin3 (mkV3 0 0 1))) f0) with (Req_bool 1 0). rewrite Req_bool_false by lra. cbn [lambertian bx_pdf]. unfold lamb_pdf.
      rewrite same_hemisphere_fin. vproj. rewrite Rlt_bool_true by lra. unfold abs_cos_theta, fin3. vproj. rewrite x_f0. xsimp. cbn [xabs].
      rewrite Rabs_R1, xdiv_fin by lra. cbn [xadd]. rewrite xdiv_fin by lra. f_equal. field. lra.
  - exists ex_above, false. split; [|split; [reflexivity|split; reflexivity]].
    cbn [ex_mirror_scene sc_shapes c_intersect spawn_ray r_d fin3 vz]. rewrite x_f0. xsimp. cbn [xlt]. rewrite Rlt_bool_false by lra. reflexivity.
  - reflexivity.
Qed.
(** a distant light from straight above *)
Example C76_delta_example : exists l : light XR bool, l_is_delta l = true /\
  l_sample_li l ex_below (mkP2 (XFin 0) (XFin 0)) = Ok (fin3 (mkV3 0 0 1), fin3 ex_glow, XFin 1, mkVis ex_below ex_above) /\
  unoccluded (scene_intersect_p (ex_mirror_scene (fin3 ex_glow))) (mkVis ex_below ex_above) = Ok true /\ i_sn ex_below = fin3 (mkV3 0 0 1).
Proof. exists (mkLight true (fun i _ => Ok (fin3 (mkV3 0 0 1), fin3 ex_glow, XFin 1, mkVis i ex_above)) (fun _ _ => XFin 0) None). auto. Qed.
