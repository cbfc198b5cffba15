(** * C96: matt bodies under distant lights show Lambert's law *)
From Coq Require Import ZArith Reals List Bool Lia Lra Psatz.
From Flocq Require Import Core.
From Verif Require Import Model.Num Model.NumX Model.Vector Model.Common Model.BBox Model.Interaction Model.Shape Model.Sphere Model.Triangle Model.Container Model.Sampler
  Model.Sampling Model.Reflection Model.Fresnel Model.Microfacet Model.BxDFs Model.Texture Model.Material Model.Light Model.Scene Model.Path.
From Verif Require Import Spec.RVec Spec.BoxSpec Spec.ShapeSpec Spec.KdSpec Spec.SamplerSpec Spec.ShadeSpec Spec.RadianceSpec Spec.EstimatorSpec Spec.LambertSpec.
From Verif Require Import Proofs.XBase Proofs.BoxProofs Proofs.RVecProofs Proofs.ShapeProofs Proofs.TriangleProofs Proofs.ShadeProofs Proofs.MatProofs Proofs.MicroProofs.
From Verif Require Import Props.Boxes Props.Shapes Props.Containers Props.Shading1 Props.Shading2 Props.Shading3 Props.Frames Props.Radiance Props.Radiance2 Props.Estimator Props.Estimator2.
Import ListNotations.
Local Open Scope R_scope.

(** ** A point that nothing else of the scene can be seen from *)
Section Exposed.
  Context {T ST : Type}.
  Variables (sm : sampler_ops XR ST) (teq : T -> T -> bool) (surf : T -> surface XR T) (sc : scene XR T (container XR T)).
  Variables (i : interaction XR T) (t : T) (n du wo k : rv).
  Hypothesis Et : i_shape i = Some t.
  Hypothesis Es : surf t = mkSurf (mat_lambertian (constant_texture (fin3 k))) (fun _ _ => v3zero).
  Hypothesis Kn : each (fun x => 0 <= x) k.
  Hypothesis En : i_sn i = fin3 n.
  Hypothesis Eg : i_n i = fin3 n.
  Hypothesis Ed : i_dpdu i = fin3 du.
  Hypothesis D0 : du <> v0.
  Hypothesis Nn : vnorm n = 1.
  Hypothesis Pd : vdot n du = 0.
  Hypothesis Ew : i_wo i = fin3 wo.
  Hypothesis Wn : vdot wo n <> 0.
  (** nothing is met by rays that leave on the side of the viewer *)
  Hypothesis Free : forall w, 0 < vdot w n * vdot wo n -> c_intersect (sc_shapes sc) (spawn_ray i (fin3 w)) = Ok None.

  Lemma matt_bsdf : exists b, sf_scatter (surf t) i = Ok b /\
    (forall w, exists f, bsdf_f b (fin3 wo) (fin3 w) = fin3 f /\
      f = if Rlt_dec 0 (vdot w n * vdot wo n) then vscale (/ PI) k else v0) /\
    forall x y, 0 <= x < 1 -> 0 <= y < 1 -> exists w f p flag, bsdf_sample_f b (fin3 wo) (mkP2 (XFin x) (XFin y)) = Ok (w, f, XFin p, flag) /\
      (p = 0 \/ exists w' f', w = fin3 w' /\ f = fin3 f' /\ p <> 0 /\ 0 < vdot w' n * vdot wo n).
  Proof.
    pose proof PI_RGT_0 as PP. rewrite Es. cbn [sf_scatter]. unfold mat_lambertian.
    rewrite (tex_clamped_nn (constant_texture (fin3 k)) i k eq_refl Kn). cbn [rbind].
    destruct (is_black (fin3 k)) eqn:Bk; cbn [negb].
    - apply black_fin, fin3_0 in Bk. exists (bsdf_new i). split; [reflexivity|]. split.
      + intros w. exists v0. split.
        * unfold bsdf_f. destruct (feq _ _); reflexivity.
        * rewrite Bk. destruct (Rlt_dec _ _); [|reflexivity]. vring.
      + intros x y _ _. exists v3zero, v3zero, 0, 0%Z. split; [reflexivity|left; reflexivity].
    - exists (bsdf_add (bsdf_new i) (lambertian (fin3 k))). split; [reflexivity|]. split.
      + intros w. destruct (C80_sides T i n n du wo w [lambertian (fin3 k)] (fun _ => vscale (/ PI) k) En Eg Ed D0) as (_ & S1 & S2).
        { intros x [<-|[]]. cbn [lambertian bx_f]. unfold lamb_f. xsimp. apply v3divs_fin. lra. }
        change (bsdf_adds (bsdf_new i) [lambertian (fin3 k)]) with (bsdf_add (bsdf_new i) (lambertian (fin3 k))) in S1, S2.
        destruct (Rlt_dec 0 (vdot w n * vdot wo n)) as [L|L].
        * exists (vscale (/ PI) k). split; [|reflexivity]. rewrite S1 by auto.
          change (filter (fun x : bxdf XR => Z.testbit (bx_flag x) 0) [lambertian (fin3 k)]) with [lambertian (fin3 k)]. cbn [map vsum fold_right]. f_equal. vring.
        * exists v0. split; [|reflexivity]. rewrite S2 by (auto; lra). reflexivity.
      + intros x y Hx Hy.
        destruct (C53_lambertian k (coords n du wo) x y) as (w & f & p & Esa & _ & Ep & _ & Sg & H1 & _); [exact Wn|lra|lra|].
        destruct (single_sample i n du wo (lambertian (fin3 k)) x y w f p En Ed D0 Nn Pd Wn Hx Esa) as (w' & E & Wz & _).
        rewrite E. destruct (Req_bool p 0) eqn:P0; rb.
        * exists v3zero, v3zero, 0, 0%Z. split; [reflexivity|left; reflexivity].
        * exists (fin3 w'), (fin3 f), p, (bx_flag (lambertian (fin3 k))). split; [reflexivity|]. right. exists w', f.
          split; [reflexivity|]. split; [reflexivity|]. split; [exact P0|]. rewrite Wz.
          destruct (Req_dec (vz w) 0) as [Z|Z].
          -- exfalso. apply P0. assert (XFin p = XFin 0) as Q; [|congruence]. rewrite <- Ep. cbn [lambertian bx_pdf]. unfold lamb_pdf.
             rewrite same_hemisphere_fin, Z. rewrite Rlt_bool_false by lra. reflexivity.
          -- destruct (H1 Z) as (P & _). revert P. unfold coords. vproj. intros P. lra.
  Qed.

  Variables (ds : list (distant_light XR)).
  Hypothesis El : sc_lights sc = map distant_as_light ds.

  Lemma exposed_li : forall o d s u s1 j q L w0 u2 s2 u3 s3 x y s4 fuel,
    c_intersect (sc_shapes sc) (mkRay o d finf) = Ok (Some i) ->
    sm_get_1d sm s = Ok (XFin u, s1) -> sm_get_2d sm s1 = Ok (u2, s2) -> sm_get_2d sm s2 = Ok (u3, s3) ->
    sm_get_2d sm s3 = Ok (mkP2 (XFin x) (XFin y), s4) -> 0 <= x < 1 -> 0 <= y < 1 ->
    (Z.of_nat (length ds) < 2 ^ 63)%Z ->
    nth_error ds j = Some q -> INR j / INR (length ds) <= u < (INR j + 1) / INR (length ds) ->
    dl_l q = fin3 L -> dl_w q = fin3 w0 ->
    (forall v, distant_sample_li q i u2 = Ok (dl_w q, dl_l q, f1, v) -> 0 < vdot w0 n * vdot wo n -> unoccluded (scene_intersect_p sc) v = Ok true) ->
    li sm teq surf sc (S (S fuel)) s (mkRay o d finf) =
      Ok (fin3 (vscale (INR (length ds)) (lambert k L (vdot (turned n wo) w0))), s4).
  Proof.
    pose proof PI_RGT_0 as PP.
    intros o d s u s1 j q L w0 u2 s2 u3 s3 x y s4 fuel Ei E1 E2 E3 E4 Hx Hy Hn Eq Hu EL EW Clear.
    destruct matt_bsdf as (b & Eb & Bf & Bs).
    assert (Eq' : nth_error (sc_lights sc) j = Some (distant_as_light q)) by (rewrite El; apply map_nth_error; exact Eq).
    assert (Len : length (sc_lights sc) = length ds) by (rewrite El; apply map_length).
    unfold li. cbn [li_loop]. unfold scene_intersect. rewrite Ei. cbn [rbind Z.eqb orb]. unfold le, compute_scattering. rewrite Et, Es. cbn [sf_l rbind].
    change (MAX_BOUNCES <? 0)%Z with false. cbv iota.
    rewrite Es in Eb. rewrite Eb. cbn [rbind].
    assert (EU : uniform_sample_one_light sm teq surf sc s i b = Ok (fin3 (vscale (INR (length ds)) (lambert k L (vdot (turned n wo) w0))), s3)).
    { pose proof (C77_equal_shares T ST sm teq surf sc s i b u s1 j (distant_as_light q)) as C77. cbv zeta in C77. rewrite Len in C77.
      rewrite (C77 E1 Eq' Hn Hu). clear C77. unfold estimate_direct. rewrite E2. cbn [rbind]. rewrite E3. cbn [rbind].
      set (G := lambert k L (vdot (turned n wo) w0)).
      assert (ED : direct_light sc (distant_as_light q) i b u2 v3zero = Ok (fin3 G)).
      { set (v := mkVis i (mkI (v3add (i_p i) (v3scale (dl_w q) (fmul f2 (dl_radius q)))) v3zero (mkP2 f0 f0) v3zero v3zero v3zero v3zero v3zero None)).
        assert (Sa : l_sample_li (distant_as_light q) i u2 = Ok (dl_w q, dl_l q, f1, v)) by reflexivity.
        destruct (Bf w0) as (f & Ef & Vf). destruct (Rlt_dec 0 (vdot w0 n * vdot wo n)) as [P|P].
        - destruct (C76_delta T teq surf sc (distant_as_light q) i b u2 u2 v w0 L f n 1 eq_refl) as (a & Ea & Da).
          + rewrite Sa, EL, EW. reflexivity.
          + lra.
          + apply Clear; [reflexivity|exact P].
          + rewrite Ew. exact Ef.
          + exact En.
          + change (@v3zero XR _) with (fin3 v0). destruct (Da v0) as [-> _]. f_equal. f_equal. transitivity (vscale 1 a); [vring|]. rewrite Ea, Vf.
            unfold G, lambert, turned. assert (Pw : Rmax 0 (vdot (if Rle_dec 0 (vdot n wo) then n else vscale (-1) n) w0) = Rabs (vdot w0 n)).
            { rewrite (vdot_comm n wo). destruct (Rle_dec 0 (vdot wo n)).
              - assert (0 < vdot w0 n) by nra. rewrite (vdot_comm n w0), Rabs_pos_eq, Rmax_right by lra. reflexivity.
              - assert (vdot w0 n < 0) by nra. rewrite vdot_scale_l, (vdot_comm n w0), Rabs_left, Rmax_right by lra. ring. }
            rewrite Pw. unfold vprod. apply V3_eq; unfold vscale; vproj; field; lra.
        - unfold direct_light. rewrite Sa. cbn [rbind]. rewrite Ew, EW, Ef, Vf, En, v3dot_fin. xsimp. cbn [xabs]. rewrite v3scale_fin.
          replace (vscale (Rabs (vdot w0 n)) v0) with v0 by vring. change (is_black (fin3 v0)) with (Req_bool 0 0 && Req_bool 0 0 && Req_bool 0 0)%bool.
          rewrite Req_bool_true by reflexivity. cbn [andb negb].
          replace G with v0; [now destruct (_ && _)%bool|].
          unfold G, lambert, turned. rewrite (vdot_comm n wo). assert (Pw : Rmax 0 (vdot (if Rle_dec 0 (vdot wo n) then n else vscale (-1) n) w0) = 0).
          { apply Rmax_left. destruct (Rle_dec 0 (vdot wo n)); [|rewrite vdot_scale_l]; rewrite (vdot_comm n w0); nra. }
          rewrite Pw. apply V3_eq; unfold vscale, v0; vproj; field; lra. }
      rewrite ED. cbn [rbind]. unfold direct_bsdf. cbn [distant_as_light l_is_delta rbind]. rewrite v3scale_fin. reflexivity. }
    rewrite EU. cbn [rbind]. rewrite E4. cbn [rbind]. rewrite Ew.
    set (G := vscale (INR (length ds)) (lambert k L (vdot (turned n wo) w0))).
    assert (EG : v3add (v3add v3zero (v3mul (spectrum_of f1) v3zero)) (v3mul (spectrum_of f1) (fin3 G)) = fin3 G).
    { change (@v3zero XR _) with (fin3 v0). rewrite (mul_1_l (fin3 v0)), (mul_1_l (fin3 G)), !v3add_fin by (eexists; reflexivity). f_equal. vring. }
    rewrite EG. destruct (Bs x y Hx Hy) as (w & f & p & flag & -> & D). cbn [rbind].
    destruct D as [->|(w' & f' & -> & -> & P0 & Pw)].
    - rewrite x_f0. xsimp. cbn [xeq]. rewrite Req_bool_true by reflexivity. reflexivity.
    - destruct ((_ || _)%bool) eqn:Q; [reflexivity|].
      change (3 <? 0 + 1)%Z with false. cbv iota. rewrite (Free w' Pw). cbn [rbind].
      destruct ((0 + 1 =? 0)%Z || negb (Z.land flag SPECULAR =? 0)%Z)%bool; reflexivity.
  Qed.
End Exposed.

(** ** Everything behind the tangent plane *)

(** what the hit of a body carries *)
Definition hit_carries {T} (i : interaction XR T) (d : rv) : Prop := exists p n e du,
  i_p i = fin3 p /\ i_n i = fin3 n /\ i_sn i = fin3 n /\ i_p_err i = fin3 e /\ i_dpdu i = fin3 du /\ i_wo i = fin3 (vscale (-1) d) /\
  vnorm n = 1 /\ each (fun x => 0 <= x) e /\ vdot n du = 0.
Lemma ball_carries {T} c r o d tmax (i : interaction XR T) x : d <> v0 -> 0 < r ->
  sp_intersect (mkSphere (fin3 c) (XFin r)) (mkRay (fin3 o) (fin3 d) tmax) = Some (i, x) -> hit_carries i d.
Proof.
  intros Hd Hr H. pose proof (sp_has_fin c r o d tmax Hd) as C. cbv zeta in C. unfold sp_intersect in H. change (mkSphere (fin3 c) (XFin r)) with (msp c r) in H.
  destruct (sp_has_intersection _ _) as [t'|]; [|discriminate]. destruct C as (y & -> & _ & _ & On & _).
  destruct (sp_interaction_fin (T := T) c r o d tmax y Hr On) as (phi & theta & err & du & dv & E & _ & _ & _ & Edu & _ & Ee).
  set (q := vsub (at_t o d y) c) in *. rewrite E in H. assert (I : i = mkI (fin3 (at_t o d y)) err (mkP2 (XFin phi) (XFin theta)) (fin3 (vunit q)) (fin3 (vunit q)) du dv (fin3 (vscale (-1) d)) None) by congruence.
  assert (Q0 : q <> v0).
  { intros Q. apply on_sphere_sq in On. fold q in On. rewrite Q in On. unfold vdot, v0 in On. vproj. cbn [vx vy vz] in On. nra. }
  exists (at_t o d y), (vunit q), (vscale (5 / 16777216 / (1 - 5 / 16777216)) (mkV3 (Rabs (vx q)) (Rabs (vy q)) (Rabs (vz q)))), (vscale (2 * PI) (mkV3 (- vy q) (vx q) 0)).
  rewrite I. cbn [i_p i_n i_sn i_p_err i_dpdu i_wo]. repeat (split; [solve [auto]|]). split; [now apply vnorm_unit|]. split.
  - unfold each, vscale. vproj. assert (0 < 5 / 16777216 / (1 - 5 / 16777216)) by (apply Rdiv_lt_0_compat; lra).
    repeat split; (apply Rmult_le_pos; [lra|apply Rabs_pos]).
  - unfold vunit, vdot, vscale. vproj. ring.
Qed.
Lemma facet_carries {T} v rev o d tmax (i : interaction XR T) x : d <> v0 -> xis_nan tmax = false ->
  tr_intersect (fin_tri v None rev) (mkRay (fin3 o) (fin3 d) tmax) = Ok (Some (i, x)) -> hit_carries i d.
Proof.
  intros Hd Hn H. destruct (C72_triangle T v None rev o d tmax i x Hd Hn H) as (p & e & y & Ep & Ee & _ & Ew & Fr).
  destruct (Fr I) as (n & En & Un & sn & du & Es & Edu & _ & _ & Pd).
  destruct (C41_geometric_normal T v None rev o d tmax i x Hd Hn H) as (n' & En' & _ & _ & Esn). specialize (Esn eq_refl).
  assert (n' = n) by (apply fin3_inj; congruence). subst n'. assert (sn = n) by (apply fin3_inj; congruence). subst sn.
  exists p, n, e, du. repeat (split; [assumption|]). split; [|rewrite vdot_comm; exact Pd].
  destruct (max_abs_axis_fin d Hd) as (a & Ea & Ha & Hmax).
  change (fin_tri v None rev) with (mkTri (ftri v) None rev) in H.
  rewrite (tr_intersect_fin o d a v _ rev tmax Ea Ha) in H.
  destruct (rmixed o d a v) eqn:M; [discriminate|]. destruct (Req_bool (TriangleProofs.rdet o d a v) 0) eqn:D; [discriminate|]. rb.
  destruct (rout o d a v tmax) eqn:O; [discriminate|]. destruct (Rle_bool _ _) eqn:L; [discriminate|].
  cbv zeta in H. set (b0 := re0 o d a v / TriangleProofs.rdet o d a v) in *. set (b1 := re1 o d a v / TriangleProofs.rdet o d a v) in *. set (b2 := re2 o d a v / TriangleProofs.rdet o d a v) in *.
  destruct (tr_frame _ _ _ _) as [[[n1 sn1] du1] dv1] eqn:Ef.
  assert (H' : i = _ /\ x = _) by (apply (f_equal (fun q => match q with Ok z => z | _ => None end)) in H; apply BoxProofs.Some_pair_inj in H; destruct H; split; symmetry; eassumption).
  destruct H' as [I _]. rewrite I in Ee. cbn [i_p_err] in Ee. revert Ee.
  unfold bary_err. cbn [ftri t0 t1 t2]. rewrite !v3scale_fin, !v3abs_fin. xsimp. rewrite gamma_fin by lra. rewrite !v3add_fin, v3scale_fin. intros Ee. apply fin3_inj in Ee. rewrite <- Ee.
  unfold each, vscale, vadd. vproj. 
  repeat split; (apply Rmult_le_pos; [unfold gam; apply Rlt_le, Rdiv_lt_0_compat; lra|repeat apply Rplus_le_le_0_compat; apply Rabs_pos]).
Qed.
Lemma offset_origin {T} (i : interaction XR T) p n e v : i_p i = fin3 p -> i_n i = fin3 n -> i_p_err i = fin3 e -> each (fun x => 0 <= x) e ->
  exists c, 0 <= c /\ (vnorm n = 1 -> c <= vnorm e) /\ offset_ray_origin i (fin3 v) = fin3 (vadd p (vscale (if Rlt_dec (vdot n v) 0 then - c else c) n)).
Proof.
  intros Ep En Ee (E1 & E2 & E3). exists (Rabs (vx n) * vx e + Rabs (vy n) * vy e + Rabs (vz n) * vz e). split.
  { pose proof (Rabs_pos (vx n)). pose proof (Rabs_pos (vy n)). pose proof (Rabs_pos (vz n)). nra. }
  split.
  { intros Nn. apply vnorm_1_dot in Nn. pose proof (cauchy_schwarz_norm (mkV3 (Rabs (vx n)) (Rabs (vy n)) (Rabs (vz n))) e) as CS.
    assert (N1 : vnorm (mkV3 (Rabs (vx n)) (Rabs (vy n)) (Rabs (vz n))) = 1).
    { unfold vnorm. rewrite <- sqrt_1. f_equal. rewrite <- Nn. unfold vdot. vproj. rewrite <- !Rabs_mult, !Rabs_pos_eq by apply Rle_0_sqr. reflexivity. }
    rewrite N1 in CS. pose proof (Rle_abs (vdot (mkV3 (Rabs (vx n)) (Rabs (vy n)) (Rabs (vz n))) e)) as A. unfold vdot in A at 1. revert A. vproj. lra. }
  unfold offset_ray_origin. rewrite Ep, Ee, En.
  assert (OC : forall a b, offset_coord (F := XR) a b = b) by (intros; unfold offset_coord; xsimp; destruct (xlt _ _); auto; destruct (xlt _ _); auto).
  rewrite !OC. rewrite v3abs_fin, !v3dot_fin, v3scale_fin. change (vdot (mkV3 (Rabs (vx n)) (Rabs (vy n)) (Rabs (vz n))) e) with (Rabs (vx n) * vx e + Rabs (vy n) * vy e + Rabs (vz n) * vz e).
  set (c := Rabs (vx n) * vx e + _ + _). rewrite x_f0. xsimp. cbn [xlt].
  destruct (Rlt_dec (vdot n v) 0) as [L|L].
  - rewrite Rlt_bool_true by exact L. rewrite x_f1. cbn [xneg]. rewrite v3scale_fin, v3add_fin. apply V3_eq; unfold fin3, vadd, vscale; vproj; apply (f_equal XFin); ring.
  - rewrite Rlt_bool_false by lra. rewrite v3add_fin. reflexivity.
Qed.

Section Scene.
  Context {T : Type}.
  Variables (bod : T -> body) (l : list T).
  Hypothesis Ok_ : forall t, In t l -> body_ok (bod t).
  Hypothesis Ne : l <> [].

  Lemma body_wb o d t : In t l -> d <> v0 -> well_behaved (body_shape bod t) o d.
  Proof.
    intros It Hd. pose proof (Ok_ t It) as B. unfold body_shape. destruct (bod t) as [c r|v]; cbn [body_ok] in B.
    - now apply C43_sphere_ok.
    - now apply C43_triangle_ok.
  Qed.

  (** a hit is on the body, and ahead *)
  Lemma body_hit o d tmax t i x : In t l -> d <> v0 -> xis_nan tmax = false ->
    sh_intersect (body_shape bod t) (mkRay (fin3 o) (fin3 d) tmax) = Ok (Some (i, x)) ->
    exists y, x = XFin y /\ 0 < y /\ xle (XFin y) tmax = true /\ occupies (bod t) (at_t o d y).
  Proof.
    intros It Hd Hn. pose proof (Ok_ t It) as B. unfold body_shape. destruct (bod t) as [c r|v]; cbn [body_ok] in B; intros H.
    - cbn [sphere_shape sh_intersect] in H. pose proof (C35_first_hit T c r o d tmax Hd) as C.
      assert (H' : sp_intersect (mkSphere (fin3 c) (XFin r)) (mkRay (fin3 o) (fin3 d) tmax) = Some (i, x)) by congruence. rewrite H' in C.
      destruct C as (y & -> & Py & Lt & On & _). exists y. repeat split; auto. destruct tmax; cbn [xlt xle] in *; auto. rb. lra.
    - cbn [triangle_shape sh_intersect] in H. destruct (C37_hit_is_real T v None false o d tmax i x Hd Hn H) as (y & b0 & b1 & b2 & -> & Py & Le & W & _ & E & _).
      exists y. repeat split; auto. cbn [occupies]. rewrite <- E. exists b0, b1, b2. auto.
  Qed.

  Variable c : @simple XR T.
  Hypothesis Ec : simple_new (body_shape bod) l = Ok c.

  (** a ray all of whose points are in front of the plane meets nothing *)
  Lemma nothing_met o d tmax p m : d <> v0 -> xis_nan tmax = false ->
    (forall t q, In t l -> occupies (bod t) q -> vdot (vsub q p) m <= 0) ->
    (forall y, 0 < y -> xle (XFin y) tmax = true -> 0 < vdot (vsub (at_t o d y) p) m) ->
    simple_intersect (body_shape bod) c (mkRay (fin3 o) (fin3 d) tmax) = Ok None /\
    simple_intersect_p (body_shape bod) c (mkRay (fin3 o) (fin3 d) tmax) = Ok false.
  Proof.
    intros Hd Hn Behind Front.
    destruct (C43_nearest T (body_shape bod) l o d tmax Ne Hn (fun t It => body_wb o d t It Hd)) as (c' & ans & b & E' & Ea & Na & Eb & Hb).
    assert (c' = c) by congruence. subst c'.
    assert (No : forall t i x, In t l -> sh_intersect (body_shape bod t) (mkRay (fin3 o) (fin3 d) tmax) = Ok (Some (i, x)) -> False).
    { intros t i x It H. destruct (body_hit o d tmax t i x It Hd Hn H) as (y & _ & Py & Le & Oc). pose proof (Behind t _ It Oc). pose proof (Front y Py Le). lra. }
    split.
    - rewrite Ea. destruct ans as [j|]; [|reflexivity]. exfalso. destruct Na as (s & i & x & Is & H & _). exact (No s i x Is H).
    - rewrite Eb. destruct b; [|reflexivity]. exfalso. destruct (proj1 Hb eq_refl) as (s & i & x & Is & H). exact (No s i x Is H).
  Qed.

  (** the box of a body holds its points *)
  Lemma body_boxed t q : In t l -> occupies (bod t) q -> exists lo hi, sh_bbox (body_shape bod t) = mkBB (fin3 lo) (fin3 hi) /\ in_box lo hi q.
  Proof.
    intros It Hq. pose proof (Ok_ t It) as B. unfold body_shape. destruct (bod t) as [b r|v]; cbn [body_ok occupies] in B, Hq.
    - exists (vsub b (mkV3 r r r)), (vadd b (mkV3 r r r)).
      assert (Fm : forall a, fmin (XFin (a - r)) (XFin (a + r)) = XFin (a - r)).
      { intros. unfold fmin. xsimp. cbn [xis_nan xlt]. destruct (Rlt_bool _ _) eqn:E; rb; auto. lra. }
      assert (FM : forall a, fmax (XFin (a + r)) (XFin (a - r)) = XFin (a + r)).
      { intros. rewrite fmax_XFin, Rmax_left by lra. reflexivity. }
      split.
      + cbn [sphere_shape sh_bbox]. unfold sp_bbox, bbox_new, v3min, v3max, v3map2, fin3. cbn [sp_center sp_radius vx vy vz]. xsimp. cbn [xsub xadd].
        rewrite !Fm, !FM. reflexivity.
      + apply on_sphere_sq in Hq. revert Hq. unfold in_box, vdot, vsub, vadd. vproj. intros Hq.
        assert (S : forall z, z * z <= r * r -> - r <= z <= r) by (intros; nra).
        pose proof (Rle_0_sqr (vx q - vx b)) as Q1. pose proof (Rle_0_sqr (vy q - vy b)) as Q2. pose proof (Rle_0_sqr (vz q - vz b)) as Q3. unfold Rsqr in Q1, Q2, Q3.
        pose proof (S (vx q - vx b)) as S1. pose proof (S (vy q - vy b)) as S2. pose proof (S (vz q - vz b)) as S3.
        split; [|split]; [assert (- r <= vx q - vx b <= r) by (apply S1; lra)|assert (- r <= vy q - vy b <= r) by (apply S2; lra)|assert (- r <= vz q - vz b <= r) by (apply S3; lra)]; lra.
    - set (m3 := fun a b c => Rmin (Rmin a b) c). set (M3 := fun a b c => Rmax (Rmax b a) c).
      exists (mkV3 (m3 (vx (t0 v)) (vx (t1 v)) (vx (t2 v))) (m3 (vy (t0 v)) (vy (t1 v)) (vy (t2 v))) (m3 (vz (t0 v)) (vz (t1 v)) (vz (t2 v)))).
      exists (mkV3 (M3 (vx (t0 v)) (vx (t1 v)) (vx (t2 v))) (M3 (vy (t0 v)) (vy (t1 v)) (vy (t2 v))) (M3 (vz (t0 v)) (vz (t1 v)) (vz (t2 v)))).
      assert (L : forall a b c, m3 a b c <= a <= M3 a b c /\ m3 a b c <= b <= M3 a b c /\ m3 a b c <= c <= M3 a b c).
      { intros a b e. unfold m3, M3. pose proof (Rmin_l (Rmin a b) e). pose proof (Rmin_l a b). pose proof (Rmin_r a b). pose proof (Rmin_r (Rmin a b) e).
        pose proof (Rmax_l (Rmax b a) e). pose proof (Rmax_r b a). pose proof (Rmax_l b a). pose proof (Rmax_r (Rmax b a) e). lra. }
      split.
      + assert (Fm : forall a b, fmin (XFin a) (XFin b) = XFin (Rmin a b)).
        { intros. unfold fmin. xsimp. cbn [xis_nan xlt]. unfold Rmin. destruct (Rle_dec a b); destruct (Rlt_bool _ _) eqn:E; rb; auto; f_equal; lra. }
        cbn [triangle_shape sh_bbox]. unfold fin_tri, tr_bbox, bbox_union_point, bbox_new, v3min, v3max, v3map2, fin3. cbn [tr_v t0 t1 t2 vx vy vz bmin bmax].
        rewrite !Fm, !fmax_XFin. reflexivity.
      + destruct Hq as (b0 & b1 & b2 & (H0 & H1 & H2 & Hs) & ->).
        assert (C : forall a b c, m3 a b c <= b0 * a + b1 * b + b2 * c <= M3 a b c).
        { intros a b e. destruct (L a b e) as (La & Lb & Lc). replace b0 with (1 - b1 - b2) by lra. assert (b1 + b2 <= 1) by lra. clear Hs H0. nra. }
        unfold in_box, comb, vadd, vscale. vproj. split; [|split]; apply C.
  Qed.
End Scene.

(** Exact arithmetic.  A scene of matt balls and triangles under distant lights; the ray meets it at [p], which
    is no pole of a ball (see C36) and not grazed; all of the scene lies behind the tangent plane at [p].
    With [n] lights, a sample in [j/n, (j+1)/n) gives [n] times the Lambertian share of light [j], whatever
    the other samples are: the average is the sum over the lights, and one light is rendered without noise. *)
Theorem C96_lambert : forall (T ST : Type) (sm : sampler_ops XR ST) (teq : T -> T -> bool) (bod : T -> body) (rho : T -> rv) (al : T -> area_light XR T)
    (l : list T) (suns : list (rv * rv)) sc,
  (forall t, In t l -> body_ok (bod t) /\ each (fun x => 0 <= x) (rho t)) -> (forall q, In q suns -> snd q <> v0) -> (Z.of_nat (length suns) < 2 ^ 63)%Z ->
  construct (body_shape bod) al (in_simple bod) (sunny suns l) = Ok sc ->
  forall o d i t p n, d <> v0 ->
  c_intersect (sc_shapes sc) (mkRay (fin3 o) (fin3 d) finf) = Ok (Some i) ->
  i_shape i = Some t -> i_p i = fin3 p -> i_n i = fin3 n -> i_dpdu i <> fin3 v0 -> vdot n d <> 0 ->
  let m := turned n (vscale (-1) d) in
  (forall t' x, In t' l -> occupies (bod t') x -> vdot (vsub x p) m <= 0) ->
  (forall e, i_p_err i = fin3 e -> exists ta a tb b, In ta l /\ occupies (bod ta) a /\ In tb l /\ occupies (bod tb) b /\ vnorm e < vdist a b) ->
  forall s u s1 u2 s2 u3 s3 x y s4 j q fuel,
  sm_get_1d sm s = Ok (XFin u, s1) -> sm_get_2d sm s1 = Ok (u2, s2) -> sm_get_2d sm s2 = Ok (u3, s3) ->
  sm_get_2d sm s3 = Ok (mkP2 (XFin x) (XFin y), s4) -> 0 <= x < 1 -> 0 <= y < 1 ->
  nth_error suns j = Some q -> INR j / INR (length suns) <= u < (INR j + 1) / INR (length suns) ->
  li sm teq (matt_surf rho) sc (S (S fuel)) s (mkRay (fin3 o) (fin3 d) finf) =
    Ok (fin3 (vscale (INR (length suns)) (lambert (rho t) (fst q) (vdot m (vunit (snd q))))), s4).
Proof.
  intros T ST sm teq bod rho al l suns sc Hb Hs Hn Hc o d i t p n Hd Hi Et Ep En Hdu Hnd m Behind Wide.
  intros s u s1 u2 s2 u3 s3 x y s4 j q fuel E1 E2 E3 E4 Hx Hy Eq Hu.
  assert (Ok_ : forall t, In t l -> body_ok (bod t)) by (intros; now apply Hb).
  unfold construct, scene_bbox, sunny in Hc. cbn [bd_shapes bd_areas bd_lights fold_left map] in Hc. rewrite !app_nil_r in Hc.
  assert (Fn : xis_nan finf = false) by reflexivity.
  assert (Ne : l <> []).
  { intros ->. cbn [rbind] in Hc. unfold in_simple, simple_new in Hc. cbn in Hc. discriminate. }
  destruct (bbox_of_shapes_fin (body_shape bod) l o d Ne (fun t It => body_wb bod l Ok_ o d t It Hd)) as (LO & HI & Ebb & X1 & X2 & X3 & Sub).
  assert (Hc' : (let! c := in_simple bod l in Ok (mkScene (map (fun l => l (mkBB (fin3 LO) (fin3 HI))) (map sun suns)) c)) = Ok sc).
  { destruct l as [|t0 l']; [congruence|]. rewrite Ebb in Hc. cbn [rbind] in Hc. rewrite app_nil_r in Hc. exact Hc. }
  clear Hc. rename Hc' into Hc. unfold in_simple in Hc. destruct (simple_new (body_shape bod) l) as [c| |] eqn:Ec; cbn [rbind] in Hc; try discriminate.
  assert (Esc : sc = mkScene (map (fun l => l (mkBB (fin3 LO) (fin3 HI))) (map sun suns)) (simple_container (body_shape bod) c)) by congruence.
  clear Hc. rewrite Esc in Hi. cbn [sc_shapes simple_container c_intersect] in Hi.
  destruct (C43_nearest T (body_shape bod) l o d finf Ne Fn (fun t It => body_wb bod l Ok_ o d t It Hd)) as (c' & ans & b & Ec' & Ea & Na & _ & _).
  assert (c' = c) by congruence. subst c'. assert (ans = Some i) by congruence. subst ans.
  destruct Na as (t' & i0 & x0 & It & Hit & Ei & _).
  assert (t' = t) by (rewrite Ei in Et; cbn [marked i_with_shape i_shape] in Et; congruence). subst t'.
  assert (Ca : hit_carries i d).
  { assert (Ca : hit_carries i0 d).
    { pose proof (Ok_ t It) as B. unfold body_shape in Hit. destruct (bod t) as [b' r|v]; cbn [body_ok] in B.
      - cbn [sphere_shape sh_intersect] in Hit. apply (ball_carries b' r o d finf i0 x0 Hd B). congruence.
      - cbn [triangle_shape sh_intersect] in Hit. exact (facet_carries v false o d finf i0 x0 Hd Fn Hit). }
    destruct Ca as (p' & n' & e & du & A). exists p', n', e, du. rewrite Ei. exact A. }
  destruct Ca as (p' & n' & e & du & Ep' & En' & Esn & Ee & Edu & Ewo & Nn & E0 & Pd).
  assert (p' = p) by (apply fin3_inj; congruence). subst p'. assert (n' = n) by (apply fin3_inj; congruence). subst n'.
  assert (D0 : du <> v0) by (intros E; apply Hdu; congruence).
  set (wo := vscale (-1) d) in *. assert (Wn : vdot wo n <> 0).
  { unfold wo. rewrite vdot_scale_l, (vdot_comm d n). lra. }
  assert (Mn : forall w, vdot w m = vdot w n * (if Rle_dec 0 (vdot n wo) then 1 else -1)).
  { intros w. unfold m, turned. fold wo. destruct (Rle_dec 0 (vdot n wo)); [|rewrite vdot_scale_r]; ring. }
  assert (Side : forall w, 0 < vdot w n * vdot wo n <-> 0 < vdot w m).
  { intros w. rewrite Mn, (vdot_comm n wo). destruct (Rle_dec 0 (vdot wo n)); split; nra. }
  assert (Nm : vdot n m = if Rle_dec 0 (vdot n wo) then 1 else -1).
  { rewrite Mn. apply vnorm_1_dot in Nn. rewrite Nn. ring. }
  (* the bounding sphere *)
  destruct (C34_bounding_sphere LO HI X1 X2 X3) as (ctr & rad & Ebs & Ectr & Inside & Corner & _).
  assert (Rp : vnorm e < 2 * rad).
  { destruct (Wide e Ee) as (ta & a & tb & b' & Ia & Oa & Ib & Ob & Far).
    destruct (body_boxed bod l Ok_ ta a Ia Oa) as (la & ha & Ba & Ja). destruct (body_boxed bod l Ok_ tb b' Ib Ob) as (lb & hb & Bb & Jb).
    pose proof (Inside a (Sub ta la ha a Ia Ba Ja)) as Ka. pose proof (Inside b' (Sub tb lb hb b' Ib Bb Jb)) as Kb.
    assert (Tri : vdist a b' <= vdist a ctr + vdist b' ctr).
    { unfold vdist. replace (vsub a b') with (vadd (vsub a ctr) (vscale (-1) (vsub b' ctr))) by vring.
      eapply Rle_trans; [apply vnorm_triangle|]. rewrite vnorm_scale, Rabs_left by lra. lra. }
    lra. }
  assert (Rp' : 0 < rad) by (pose proof (vnorm_nonneg e); lra).
  set (ds := map (fun q : rv * rv => distant_pre (distant_new (fin3 (fst q)) (fin3 (snd q))) (mkBB (fin3 LO) (fin3 HI))) suns).
  assert (Lds : length ds = length suns) by apply map_length.
  rewrite <- Lds in Hu |- *.
  assert (Edist : distant_pre (distant_new (fin3 (fst q)) (fin3 (snd q))) (mkBB (fin3 LO) (fin3 HI)) = mkDistant (fin3 (fst q)) (fin3 (vunit (snd q))) (fin3 ctr) (XFin rad)).
  { unfold distant_pre. rewrite Ebs. unfold distant_new. cbn [dl_l dl_w]. rewrite v3normalize_fin; [reflexivity|]. apply Hs. apply nth_error_In in Eq. exact Eq. }
  set (dq := distant_pre (distant_new (fin3 (fst q)) (fin3 (snd q))) (mkBB (fin3 LO) (fin3 HI))) in *.
  unfold m. fold wo.
  apply (exposed_li sm teq (matt_surf rho) sc i t n du wo (rho t) Et eq_refl (proj2 (Hb t It)) Esn En Edu D0 Nn Pd Ewo Wn) with (ds := ds) (u := u) (s1 := s1) (j := j) (q := dq) (u2 := u2) (s2 := s2) (u3 := u3) (s3 := s3) (x := x) (y := y); auto.
  - (* bounces *)
    intros w Hw. apply Side in Hw. rewrite Esc. cbn [sc_shapes simple_container c_intersect]. unfold spawn_ray.
    destruct (offset_origin i p n e w Ep En Ee E0) as (k & Hk & _ & ->).
    apply (nothing_met bod l Ok_ Ne c Ec _ _ _ p m); [|exact Fn|exact Behind|].
    + intros ->. revert Hw. unfold vdot, v0. vproj. lra.
    + intros z Hz _. set (sg := if Rlt_dec (vdot n w) 0 then - k else k).
      assert (Sg : 0 <= sg * vdot n m).
      { rewrite Nm. rewrite Mn in Hw. unfold sg. rewrite (vdot_comm n w). destruct (Rlt_dec (vdot w n) 0), (Rle_dec 0 (vdot n wo)); nra. }
      assert (V : vdot (vsub (at_t (vadd p (vscale sg n)) w z) p) m = sg * vdot n m + z * vdot w m) by (unfold at_t, vdot, vsub, vadd, vscale; vproj; ring).
      rewrite V. nra.
  - rewrite Esc. unfold ds. cbn [sc_lights]. rewrite !map_map. reflexivity.
  - rewrite Esc. cbn [sc_shapes simple_container c_intersect]. exact Hi.
  - rewrite Lds. exact Hn.
  - unfold ds, dq. now apply map_nth_error with (f := fun q : rv * rv => distant_pre (distant_new (fin3 (fst q)) (fin3 (snd q))) (mkBB (fin3 LO) (fin3 HI))).
  - now rewrite Edist.
  - (* the shadow ray *)
    intros v Hv Hw. apply Side in Hw. set (w := vunit (snd q)) in *. unfold distant_sample_li in Hv. rewrite Edist in Hv. cbn [dl_w dl_l dl_radius] in Hv.
    assert (Ev : v = mkVis i (mkI (fin3 (vadd p (vscale (2 * rad) w))) v3zero (mkP2 f0 f0) v3zero v3zero v3zero v3zero v3zero None)).
    { rewrite Ep in Hv. change (fmul f2 (XFin rad)) with (XFin (2 * rad)) in Hv. rewrite v3scale_fin, v3add_fin in Hv. congruence. }
    rewrite Ev. unfold unoccluded, spawn_ray_to. cbn [v_p0 v_p1 i_p]. rewrite Ep, v3sub_fin, v3neg_fin.
    set (dd := vsub (vadd p (vscale (2 * rad) w)) p). assert (Dd : dd = vscale (2 * rad) w) by (unfold dd; vring).
    destruct (offset_origin i p n e dd Ep En Ee E0) as (k & Hk & Hke & ->).
    destruct (offset_origin (T := T) (mkI (fin3 (vadd p (vscale (2 * rad) w))) v3zero (mkP2 f0 f0) v3zero v3zero v3zero v3zero v3zero None) (vadd p (vscale (2 * rad) w)) v0 v0 (vscale (-1) dd) eq_refl) as (k2 & _ & _ & ->).
    { reflexivity. }
    { reflexivity. }
    { unfold each, v0. vproj. lra. }
    replace (vadd (vadd p (vscale (2 * rad) w)) _) with (vadd p (vscale (2 * rad) w)) by (unfold v0; vring).
    rewrite v3sub_fin. set (sg := if Rlt_dec (vdot n dd) 0 then - k else k).
    assert (Dm : 0 < vdot dd m) by (rewrite Dd, vdot_scale_l; nra).
    assert (Sg : 0 <= sg * vdot n m).
    { rewrite Nm. rewrite Mn in Dm. unfold sg. rewrite (vdot_comm n dd). destruct (Rlt_dec (vdot dd n) 0), (Rle_dec 0 (vdot n wo)); nra. }
    assert (U1 : vnorm w = 1) by (unfold w; apply vnorm_unit; apply Hs; apply nth_error_In in Eq; exact Eq).
    rewrite Esc. unfold scene_intersect_p. cbn [sc_shapes simple_container c_intersect_p].
    match goal with |- context [mkRay ?a ?b ?c] => set (tm := c) end.
    assert (Et' : tm = XFin (9999 / 10000)).
    { unfold tm, f1, flit. xsimp. cbn [Z.of_nat]. rewrite xdiv_fin by (apply not_0_IZR; discriminate). cbn [xsub xadd xneg]. apply (f_equal XFin). simpl. lra. }
    match goal with |- context [fin3 (vsub ?a ?b)] => set (dir := vsub a b) end.
    destruct (nothing_met bod l Ok_ Ne c Ec (vadd p (vscale sg n)) dir tm p m) as (_ & ->); [| |exact Behind| |reflexivity].
    + intros E. assert (E' : vscale (2 * rad) w = vscale sg n).
      { apply (f_equal (fun v => vadd v (vscale sg n))) in E. unfold dir in E. revert E. unfold vsub, vadd, vscale, v0. intros E.
        pose proof (f_equal (fun q : rv => vx q) E) as A1. pose proof (f_equal (fun q : rv => vy q) E) as A2. pose proof (f_equal (fun q : rv => vz q) E) as A3.
        revert A1 A2 A3. vproj. intros. apply V3_eq; vproj; lra. }
      apply (f_equal vnorm) in E'. rewrite !vnorm_scale, U1, Nn, Rabs_pos_eq in E' by lra. specialize (Hke Nn).
      assert (Rabs sg = k) by (unfold sg; destruct (Rlt_dec _ _); [rewrite Rabs_Ropp|]; apply Rabs_pos_eq; exact Hk). lra.
    + rewrite Et'. reflexivity.
    + intros z Hz Hz'. rewrite Et' in Hz'. cbn [xle] in Hz'. rb.
      assert (V : vdot (vsub (at_t (vadd p (vscale sg n)) dir z) p) m = (1 - z) * (sg * vdot n m) + z * vdot dd m).
      { rewrite Dd. unfold dir, at_t, vdot, vsub, vadd, vscale. vproj. ring. }
      rewrite V. assert (0 <= (1 - z) * (sg * vdot n m)) by (apply Rmult_le_pos; lra). nra.
Qed.

(** One ball, seen from outside, off its poles and not grazed: all of the above holds. *)
Theorem C96_ball : forall (ST : Type) (sm : sampler_ops XR ST) (teq : unit -> unit -> bool) (al : unit -> area_light XR unit) (c : rv) (r : R) (rho : rv) (suns : list (rv * rv)) (o d : rv) (x : R),
  0 < r -> each (fun x => 0 <= x) rho -> (forall q, In q suns -> snd q <> v0) -> (Z.of_nat (length suns) < 2 ^ 63)%Z ->
  r < vdist o c -> d <> v0 -> 0 < x ->
  let p := at_t o d x in
  on_sphere c r p -> (forall y, 0 < y < x -> ~ on_sphere c r (at_t o d y)) ->
  vx p <> vx c \/ vy p <> vy c -> vdot (vsub p c) d <> 0 ->
  exists sc, construct (body_shape (fun _ => Ball c r)) al (in_simple (fun _ => Ball c r)) (sunny suns [tt]) = Ok sc /\
  forall s u s1 u2 s2 u3 s3 a b s4 j q fuel,
  sm_get_1d sm s = Ok (XFin u, s1) -> sm_get_2d sm s1 = Ok (u2, s2) -> sm_get_2d sm s2 = Ok (u3, s3) ->
  sm_get_2d sm s3 = Ok (mkP2 (XFin a) (XFin b), s4) -> 0 <= a < 1 -> 0 <= b < 1 ->
  nth_error suns j = Some q -> INR j / INR (length suns) <= u < (INR j + 1) / INR (length suns) ->
  li sm teq (matt_surf (fun _ => rho)) sc (S (S fuel)) s (mkRay (fin3 o) (fin3 d) finf) =
    Ok (fin3 (vscale (INR (length suns)) (lambert rho (fst q) (vdot (vscale (/ r) (vsub p c)) (vunit (snd q))))), s4).
Proof.
  intros ST sm teq al c r rho suns o d x Hr Hrho Hs Hn Out Hd Hx p On First Pole Graze.
  set (bod := fun _ : unit => Ball c r). assert (Ok_ : forall t, In t [tt] -> body_ok (bod t)) by (intros; exact Hr).
  assert (Ne : [tt] <> []) by discriminate. assert (Fn : xis_nan finf = false) by reflexivity.
  destruct (bbox_of_shapes_fin (body_shape bod) [tt] o d Ne (fun t It => body_wb bod [tt] Ok_ o d t It Hd)) as (LO & HI & Ebb & _).
  destruct (C43_nearest unit (body_shape bod) [tt] o d finf Ne Fn (fun t It => body_wb bod [tt] Ok_ o d t It Hd)) as (cc & ans & bb & Ec & Ea & Na & _).
  exists (mkScene (map (fun l => l (mkBB (fin3 LO) (fin3 HI))) (map sun suns)) (simple_container (body_shape bod) cc)).
  assert (Cs : construct (body_shape bod) al (in_simple bod) (sunny suns [tt]) = Ok (mkScene (map (fun l => l (mkBB (fin3 LO) (fin3 HI))) (map sun suns)) (simple_container (body_shape bod) cc))).
  { unfold construct, scene_bbox, sunny. cbn [bd_shapes bd_areas bd_lights fold_left map]. rewrite Ebb. cbn [rbind]. rewrite !app_nil_r.
    unfold in_simple. cbn [app]. rewrite Ec. reflexivity. }
  split; [exact Cs|]. intros s u s1 u2 s2 u3 s3 a b s4 j q fuel E1 E2 E3 E4 Ha Hb Eq Hu.
  pose proof (C35_first_hit unit c r o d finf Hd) as C35. pose proof (sp_has_fin c r o d finf Hd) as C. cbv zeta in C.
  destruct ans as [i|].
  2: { exfalso. specialize (Na tt (or_introl eq_refl)). unfold body_shape, bod in Na. cbn [sphere_shape sh_intersect] in Na. assert (Na2 := Na). clear Na. assert (Na : sp_intersect (T := unit) (mkSphere (fin3 c) (XFin r)) (mkRay (fin3 o) (fin3 d) finf) = None) by congruence.
       rewrite Na in C35. apply (C35 x Hx eq_refl On). }
  destruct Na as (t & i0 & x0 & It & Hit & Ei & _). destruct t.
  unfold body_shape, bod in Hit. cbn [sphere_shape sh_intersect] in Hit.
  unfold sp_intersect in Hit. change (mkSphere (fin3 c) (XFin r)) with (msp c r) in Hit.
  destruct (sp_has_intersection _ _) as [t'|]; [|discriminate]. destruct C as (y & -> & Hy & _ & On' & First').
  assert (y = x).
  { destruct (Rtotal_order x y) as [L|[L|L]]; [|auto|]; exfalso; [apply (First' x); auto|apply (First y); auto]. }
  subst y. destruct (sp_interaction_fin (T := unit) c r o d finf x Hr On) as (phi & theta & err & du & dv & E & _ & _ & _ & Edu & _ & Ee).
  fold p in E, Edu, Ee. set (z := vsub p c) in *. rewrite E in Hit.
  assert (I : i0 = mkI (fin3 p) err (mkP2 (XFin phi) (XFin theta)) (fin3 (vunit z)) (fin3 (vunit z)) du dv (fin3 (vscale (-1) d)) None) by congruence.
  rewrite I in Ei. clear I E Hit. cbn [marked i_with_shape] in Ei.
  assert (Zz : vdot z z = r * r) by (apply on_sphere_sq in On; exact On).
  assert (Nz : vnorm z = r) by (unfold vnorm; rewrite Zz; apply sqrt_square; lra).
  assert (Uz : vunit z = vscale (/ r) z) by (unfold vunit; rewrite Nz; reflexivity).
  (* seen from outside *)
  assert (Zd : vdot z d < 0).
  { destruct (Rlt_dec (vdot z d) 0) as [L|L]; [exact L|]. exfalso. assert (P : 0 < vdot z d) by lra. clear L.
    assert (A : 0 < vdot d d) by (now apply vdot_self_pos).
    assert (O2 : r * r < vdot (vsub o c) (vsub o c)).
    { unfold vdist, vnorm in Out. pose proof (sqrt_sqrt (vdot (vsub o c) (vsub o c)) (vdot_self_nonneg _)). nra. }
    assert (Zo : vdot (vsub o c) (vsub o c) = vdot z z - 2 * x * vdot z d + x * x * vdot d d) by (unfold z, p, at_t, vdot, vsub, vadd, vscale; vproj; ring).
    set (k := 2 * vdot z d / vdot d d). assert (K : k * vdot d d = 2 * vdot z d) by (unfold k; field; lra).
    assert (Kp : 0 < k) by (unfold k; apply Rdiv_lt_0_compat; lra).
    assert (Kx : k < x). { apply (Rmult_lt_reg_r (vdot d d)); [exact A|]. rewrite K. nra. }
    apply (First (x - k)); [lra|]. apply on_sphere_sq. rewrite <- Zz.
    assert (V : vdot (vsub (at_t o d (x - k)) c) (vsub (at_t o d (x - k)) c) = vdot z z - 2 * k * vdot z d + k * (k * vdot d d)) by (unfold z, p, at_t, vdot, vsub, vadd, vscale; vproj; ring).
    rewrite V, K. ring. }
  assert (Tn : turned (vunit z) (vscale (-1) d) = vscale (/ r) z).
  { unfold turned. rewrite Uz. destruct (Rle_dec _ _) as [L|L]; [reflexivity|]. exfalso. apply L. rewrite vdot_scale_l, vdot_scale_r.
    pose proof (Rinv_0_lt_compat r Hr). nra. }
  rewrite <- Tn.
  eapply (C96_lambert unit ST sm teq bod (fun _ => rho) al [tt] suns _ (fun t _ => conj Hr Hrho) Hs Hn Cs o d i tt p (vunit z) Hd); try eassumption.
  - rewrite Ei. reflexivity.
  - rewrite Ei. reflexivity.
  - rewrite Ei. reflexivity.
  - rewrite Ei. cbn [i_dpdu]. rewrite Edu. intros E. apply fin3_inj in E.
    pose proof (f_equal (fun q : rv => vx q) E) as A1. pose proof (f_equal (fun q : rv => vy q) E) as A2. revert A1 A2. unfold vscale, v0, z, vsub. vproj.
    pose proof PI_RGT_0. intros A1 A2. destruct Pole as [N|N]; apply N; nra.
  - rewrite Uz, vdot_scale_l. intros E. apply Rmult_integral in E as [E|E]; [apply (Rinv_neq_0_compat r) in E; lra|lra].
  - rewrite Tn. intros t' q0 _ Hq. unfold bod in Hq. cbn [occupies] in Hq. apply on_sphere_sq in Hq. rewrite vdot_scale_r.
    assert (V : vsub q0 p = vsub (vsub q0 c) z) by (unfold z; vring). rewrite V.
    pose proof (cauchy_schwarz (vsub q0 c) z) as CS. rewrite Hq, Zz in CS.
    assert (vdot (vsub q0 c) z <= r * r) by nra.
    assert (W : vdot (vsub (vsub q0 c) z) z = vdot (vsub q0 c) z - vdot z z) by (unfold vdot, vsub; vproj; ring).
    rewrite W, Zz. pose proof (Rinv_0_lt_compat r Hr). nra.
  - rewrite Ei. cbn [i_p_err]. rewrite Ee. intros e Eer. apply fin3_inj in Eer.
    exists tt, (vadd c (mkV3 r 0 0)), tt, (vsub c (mkV3 r 0 0)). unfold bod. cbn [occupies].
    split; [now left|]. split; [apply on_sphere_sq; unfold vdot, vsub, vadd; vproj; ring|]. split; [now left|]. split; [apply on_sphere_sq; unfold vdot, vsub, vadd; vproj; ring|].
    rewrite <- Eer, vnorm_scale.
    assert (Na' : vnorm (mkV3 (Rabs (vx z)) (Rabs (vy z)) (Rabs (vz z))) = r).
    { rewrite <- Nz. unfold vnorm. f_equal. unfold vdot. vproj. rewrite <- !Rabs_mult, !Rabs_pos_eq by apply Rle_0_sqr. reflexivity. }
    rewrite Na'. unfold vdist. replace (vsub (vadd c (mkV3 r 0 0)) (vsub c (mkV3 r 0 0))) with (vscale (2 * r) (mkV3 1 0 0)) by vring.
    rewrite vnorm_scale. rewrite !Rabs_pos_eq by lra. unfold vnorm at 1, vdot. vproj. replace (1 * 1 + 0 * 0 + 0 * 0) with 1 by ring. rewrite sqrt_1. nra.
Qed.

(** the unit ball seen along the x axis, one light at half a right angle: a [1/sqrt 2] of head-on light *)
Example C96_example : forall al : unit -> area_light XR unit, exists sc,
  construct (body_shape (fun _ => Ball v0 1)) al (in_simple (fun _ => Ball v0 1)) (sunny [(mkV3 1 1 1, mkV3 1 1 0)] [tt]) = Ok sc /\
  li ex_half (fun _ _ => true) (matt_surf (fun _ => mkV3 1 (1/2) 0)) sc 2 tt (mkRay (fin3 (mkV3 3 0 0)) (fin3 (mkV3 (-1) 0 0)) finf) =
    Ok (fin3 (mkV3 (/ sqrt 2 / PI) (/ sqrt 2 / PI / 2) 0), tt).
Proof.
  intros al. assert (S2 : 0 < sqrt 2) by (apply sqrt_lt_R0; lra). pose proof PI_RGT_0.
  assert (On : on_sphere v0 1 (at_t (mkV3 3 0 0) (mkV3 (-1) 0 0) 2)) by (apply on_sphere_sq; unfold vdot, vsub, at_t, vadd, vscale, v0; vproj; ring).
  destruct (C96_ball unit ex_half (fun _ _ => true) al v0 1 (mkV3 1 (1/2) 0) [(mkV3 1 1 1, mkV3 1 1 0)] (mkV3 3 0 0) (mkV3 (-1) 0 0) 2) as (sc & Cs & H0); try lra; auto.
  - unfold each. vproj. lra.
  - intros q [<-|[]] E. apply (f_equal (fun q : rv => vx q)) in E. revert E. unfold v0. cbn [snd]. vproj. lra.
  - reflexivity.
  - unfold vdist, vnorm, vdot, vsub, v0. vproj. replace ((3 - 0) * (3 - 0) + (0 - 0) * (0 - 0) + (0 - 0) * (0 - 0)) with (3 * 3) by ring. rewrite sqrt_square; lra.
  - intros E. apply (f_equal (fun q : rv => vx q)) in E. revert E. unfold v0. vproj. lra.
  - intros y Hy E. apply on_sphere_sq in E. revert E. unfold vdot, vsub, at_t, vadd, vscale, v0. vproj. nra.
  - left. unfold at_t, vadd, vscale, v0. vproj. lra.
  - unfold vdot, vsub, at_t, vadd, vscale, v0. vproj. lra.
  - exists sc. split; [exact Cs|].
    rewrite (H0 tt (1/2) tt (mkP2 (XFin (1/2)) (XFin (1/2))) tt (mkP2 (XFin (1/2)) (XFin (1/2))) tt (1/2) (1/2) tt 0%nat (mkV3 1 1 1, mkV3 1 1 0) 0%nat); auto; try lra.
    2: { cbn [length INR]. lra. }
    cbn [length INR fst snd].
    assert (Co : vdot (vscale (/ 1) (vsub (at_t (mkV3 3 0 0) (mkV3 (-1) 0 0) 2) v0)) (vunit (mkV3 1 1 0)) = / sqrt 2).
    { unfold vunit, vnorm, vdot, vsub, at_t, vadd, vscale, v0. vproj. replace (1 * 1 + 1 * 1 + 0 * 0) with 2 by ring. field. lra. }
    rewrite Co. unfold lambert. rewrite Rmax_right by (left; now apply Rinv_0_lt_compat).
    apply (f_equal (fun v => Ok (fin3 v, tt))). unfold vscale, vprod. apply V3_eq; vproj; field; lra.
Qed.
