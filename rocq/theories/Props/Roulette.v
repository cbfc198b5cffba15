(** * C104: ending paths by chance, and choosing one light by chance, leaves the mean as it is *)
From Coq Require Import ZArith Reals List Bool Lia Lra.
From Flocq Require Import Core.
From Verif Require Import Model.Num Model.NumX Model.Vector Model.Common Model.BBox Model.Interaction Model.Shape Model.Container Model.Sampler
  Model.Sampling Model.Reflection Model.Fresnel Model.Microfacet Model.BxDFs Model.Texture Model.Material Model.Light Model.Scene Model.Path.
From Verif Require Import Spec.RVec Spec.SamplerSpec Spec.ShadeSpec Spec.RadianceSpec Spec.EstimatorSpec Spec.MeanSpec.
From Verif Require Import Proofs.XBase Proofs.RVecProofs Proofs.ShadeProofs Proofs.MicroProofs Proofs.MeanProofs.
From Verif Require Import Props.Frames Props.Radiance Props.Radiance2 Props.Estimator Props.Shading3 Props.Estimator2.
Import ListNotations.
Local Open Scope R_scope.

Definition nonneg (v : rv) : Prop := 0 <= vx v /\ 0 <= vy v /\ 0 <= vz v.
Lemma nonneg_prod a b : nonneg a -> nonneg b -> nonneg (vprod a b).
Proof. intros (A1 & A2 & A3) (B1 & B2 & B3). unfold nonneg, vprod. vproj. auto using Rmult_le_pos. Qed.
Lemma nonneg_scale k a : 0 <= k -> nonneg a -> nonneg (vscale k a).
Proof. intros K (A1 & A2 & A3). unfold nonneg, vscale. vproj. auto using Rmult_le_pos. Qed.
Lemma survival_range v : nonneg v -> 0 <= survival v <= 95 / 100.
Proof. intros (A & B & C). unfold survival, lum. split; [apply Rmin_glb; lra|apply Rmin_r]. Qed.
Lemma survival_0 v : nonneg v -> survival v = 0 -> v = v0.
Proof.
  intros (A & B & C) E. assert (L : lum v = 0).
  { unfold survival, Rmin in E. destruct (Rle_dec _ _) in E; lra. }
  unfold lum in L. apply V3_eq; unfold v0; vproj; lra.
Qed.

Section C104.
  Context {T ST : Type}.
  Variables (sm : sampler_ops XR ST) (teq : T -> T -> bool) (surf : T -> surface XR T) (sc : scene XR T (container XR T)).
  Hypothesis Hl : (Z.of_nat (length (sc_lights sc)) < 2 ^ 63)%Z.

  (** how many numbers choosing a light takes *)
  Definition takes : nat := match sc_lights sc with [] => 0 | _ => 1 end.

  Lemma mean_lights s i b ds s1 m (Q : rv -> ST -> rv -> Prop) a beta : lights_seen sm teq surf sc s i b ds s1 ->
    (forall d, mean m (fun us => Q d (s1 us)) (vadd a (vprod beta d))) ->
    mean (takes + m) (fun us y => exists d st, uniform_sample_one_light sm teq surf sc (s us) i b = Ok (fin3 d, st) /\ Q d st y) (vadd a (vprod beta (vtotal ds))).
  Proof.
    intros [(E & -> & Es)|(N & s0 & G & F)] H.
    - unfold takes. rewrite E. cbn [plus]. apply (mean_sub m (fun us => Q v0 (s1 us))); [|apply H].
      intros us y Hy. exists v0, (s us). split; [|rewrite <- Es; exact Hy]. unfold uniform_sample_one_light. rewrite E. reflexivity.
    - assert (Ek : takes = 1%nat) by (unfold takes; destruct (sc_lights sc); [congruence|reflexivity]). rewrite Ek. cbn [plus].
      assert (Ln : length (sc_lights sc) = length ds) by (clear - F; induction F; cbn; congruence).
      apply mean_parts; [destruct (sc_lights sc); [congruence|cbn in Ln; lia]|].
      intros k d u Hk Hu Hu1. apply (mean_sub m (fun us => Q (vscale (INR (length ds)) d) (s1 us))); [|apply H].
      intros us y Hy. exists (vscale (INR (length ds)) d), (s1 us). split; [|exact Hy].
      assert (X : exists l, nth_error (sc_lights sc) k = Some l /\ forall us, estimate_direct sm teq surf sc (s0 us) l i b = Ok (fin3 d, s1 us)).
      { clear - F Hk. revert k Hk. induction F as [|l d' ls ds' Hd _ IH]; intros [|k] Hk; cbn in Hk; try discriminate.
        - exists l. assert (d' = d) by congruence. subst. auto.
        - apply IH. exact Hk. }
      destruct X as (l & El & Ed).
      rewrite (C77_equal_shares T ST sm teq surf sc (s (u :: us)) i b u (s0 us) k l (G u us Hu1) El Hl) by (rewrite Ln; exact Hu).
      rewrite Ed, v3scale_fin, Ln. reflexivity.
  Qed.

  Lemma lit_sum lit (l beta e d : rv) :
    vadd (vadd l (vprod beta (if lit : bool then e else v0))) (vprod beta d) = vadd l (vprod beta (vadd (if lit then e else v0) d)).
  Proof. unfold vprod. vring. Qed.

  (** one turn of the loop *)
  Lemma turn fuel s r l beta sp bo i e b d s1 u s2 wi f pdf flag : sees surf sc r i e -> (bo <= 64)%Z -> scattering surf i b ->
    uniform_sample_one_light sm teq surf sc s i b = Ok (fin3 d, s1) -> sm_get_2d sm s1 = Ok (u, s2) -> bsdf_sample_f b (i_wo i) u = Ok (wi, f, pdf, flag) ->
    li_loop sm teq surf sc (S fuel) s r (fin3 l) (fin3 beta) sp bo =
    let l2 := fin3 (vadd (vadd l (vprod beta (if (bo =? 0)%Z || sp then e else v0))) (vprod beta d)) in
    if feq pdf f0 || is_black f then Ok (l2, s2)
    else
      let beta := v3mul (fin3 beta) (v3divs (v3scale f (fabs (v3dot wi (i_sn i)))) pdf) in
      if (3 <? bo + 1)%Z then
        let q := fmin (spectrum_y beta) (flit 95 2) in
        let! (v, s3) := sm_get_1d sm s2 in
        if flt q v then Ok (l2, s3)
        else li_loop sm teq surf sc fuel s3 (spawn_ray i wi) l2 (v3divs beta q) (negb (Z.land flag SPECULAR =? 0)%Z) (bo + 1)
      else li_loop sm teq surf sc fuel s2 (spawn_ray i wi) l2 beta (negb (Z.land flag SPECULAR =? 0)%Z) (bo + 1).
  Proof.
    intros (t & Eo & Et & Ee) Bo (t' & Et' & Eb) Eu E2 Es. assert (t' = t) by congruence. subst t'.
    cbn [li_loop]. unfold scene_intersect. rewrite Eo. cbn [rbind]. unfold le, compute_scattering. rewrite Et, Ee.
    assert (El : (if (bo =? 0)%Z || sp then let! e := Ok (fin3 e) in Ok (v3add (fin3 l) (v3mul (fin3 beta) e)) else Ok (fin3 l)) =
      Ok (fin3 (vadd l (vprod beta (if (bo =? 0)%Z || sp then e else v0))))).
    { destruct (_ || _); cbn [rbind]; [rewrite v3mul_fin, v3add_fin; reflexivity|]. f_equal. f_equal. unfold vprod. vring. }
    rewrite El. cbn [rbind]. unfold MAX_BOUNCES. replace (64 <? bo)%Z with false by lia.
    rewrite Eb. cbn [rbind]. rewrite Eu. cbn [rbind]. rewrite E2. cbn [rbind]. rewrite Es. cbn [rbind]. rewrite v3mul_fin, v3add_fin. reflexivity.
  Qed.

  Lemma weight_fin (i : interaction XR T) wi f pdf w : weight_of i wi f pdf w -> v3divs (v3scale f (fabs (v3dot wi (i_sn i)))) pdf = fin3 w /\ feq pdf f0 = false.
  Proof.
    intros (n & di & fr & p & En & -> & -> & -> & Pp & ->). split.
    - rewrite En, v3dot_fin. xsimp. cbn [xabs]. rewrite v3scale_fin, v3divs_fin by lra. f_equal. apply V3_eq; unfold vscale; vproj; field; lra.
    - rewrite x_f0. xsimp. cbn [xeq]. rb. lra.
  Qed.

  Lemma loop_mean : forall bo s r c, follows sm teq surf sc bo s r c -> (0 <= bo <= 65)%Z -> not_negative c ->
    exists n, forall fuel l beta sp, (Z.to_nat (66 - bo) <= fuel)%nat -> nonneg beta ->
      mean n (fun us y => exists s', li_loop sm teq surf sc fuel (s us) r (fin3 l) (fin3 beta) sp bo = Ok (fin3 y, s'))
        (vadd l (vprod beta (chain_sum ((bo =? 0)%Z || sp) c))).
  Proof.
    induction 1 as [bo s r Eo|bo s r i e Se Bo|bo s r i e b ds s1 wi f pdf flag s2 Se Bo Sc Li (u & E2 & Es) Ab
      |bo s r i e b ds s1 wi f pdf flag s2 w c Se Bo Sc Li (u & E2 & Es) Nb We Fo IH
      |bo s r i e b ds s1 wi f pdf flag s2 w s3 c Se Bo Sc Li (u & E2 & Es) Nb We G Fo IH]; intros Hbo Nn.
    - exists 0%nat. intros [|fuel] l beta sp Hf Hb; [lia|]. cbn [mean chain_sum]. exists (s []). cbn [li_loop]. unfold scene_intersect. rewrite Eo. cbn [rbind].
      replace (vadd l (vprod beta v0)) with l by (unfold vprod; vring). destruct (_ || _); reflexivity.
    - exists 0%nat. intros [|fuel] l beta sp Hf Hb; [lia|]. cbn [mean chain_sum]. exists (s []). destruct Se as (t & Eo & Et & Ee).
      cbn [li_loop]. unfold scene_intersect, le, MAX_BOUNCES. rewrite Eo. cbn [rbind]. rewrite Et, Ee. replace (64 <? bo)%Z with true by lia.
      destruct (_ || _); cbn [rbind]; [rewrite v3mul_fin, v3add_fin; reflexivity|]. do 3 f_equal. unfold vprod. vring.
    - exists (takes + 0)%nat. intros [|fuel] l beta sp Hf Hb; [lia|]. cbn [chain_sum]. rewrite <- lit_sum.
      eapply mean_sub; [|apply (mean_lights s i b ds s1 0 (fun d st y => exists s', sm_get_2d sm st = Ok (u, s') /\
        y = vadd (vadd l (vprod beta (if (bo =? 0)%Z || sp then e else v0))) (vprod beta d)) _ beta Li)].
      + intros us y (d & st & Eu & s' & E2' & ->). exists s'. rewrite (turn fuel _ _ _ _ _ _ _ _ _ _ _ _ _ _ _ _ _ Se Bo Sc Eu E2' Es).
        replace (feq pdf f0 || is_black f) with true; [reflexivity|]. symmetry. apply orb_true_iff. destruct Ab as [-> | ->]; [left|right].
        * rewrite x_f0. xsimp. cbn [xeq]. rb. reflexivity.
        * unfold is_black, v3zero. vproj. rewrite x_f0. xsimp. cbn [xeq]. rewrite Req_bool_true by reflexivity. reflexivity.
      + intros d. apply mean_const. intros us. exists (s2 us). split; [apply E2|reflexivity].
    - destruct Nn as (Nw & Nc). destruct (weight_fin _ _ _ _ _ We) as (Ew & P0). destruct IH as (n & IH); [lia|exact Nc|].
      exists (takes + n)%nat. intros [|fuel] l beta sp Hf Hb; [lia|]. cbn [chain_sum]. set (R := chain_sum _ c).
      set (a := vadd (vadd l (vprod beta (if (bo =? 0)%Z || sp then e else v0))) (vprod (vprod beta w) R)).
      replace (vadd l _) with (vadd a (vprod beta (vtotal ds))) by (unfold a, vprod; vring).
      eapply mean_sub; [|apply (mean_lights s i b ds s1 n (fun d st y => exists st2, sm_get_2d sm st = Ok (u, st2) /\ exists s',
        li_loop sm teq surf sc fuel st2 (spawn_ray i wi) (fin3 (vadd (vadd l (vprod beta (if (bo =? 0)%Z || sp then e else v0))) (vprod beta d)))
          (fin3 (vprod beta w)) (negb (Z.land flag SPECULAR =? 0)%Z) (bo + 1) = Ok (fin3 y, s')) _ beta Li)].
      + intros us y (d & st & Eu & st2 & E2' & s' & E'). exists s'. assert (B64 : (bo <= 64)%Z) by lia. rewrite (turn fuel _ _ _ _ _ _ _ _ _ _ _ _ _ _ _ _ _ Se B64 Sc Eu E2' Es).
        rewrite P0, Nb, Ew, v3mul_fin. cbn [orb]. replace (3 <? bo + 1)%Z with false by lia. exact E'.
      + intros d. specialize (IH fuel (vadd (vadd l (vprod beta (if (bo =? 0)%Z || sp then e else v0))) (vprod beta d)) (vprod beta w)
          (negb (Z.land flag SPECULAR =? 0)%Z) ltac:(lia) (nonneg_prod _ _ Hb Nw)).
        replace (bo + 1 =? 0)%Z with false in IH by lia. cbn [orb] in IH. fold R in IH.
        replace (vadd a (vprod beta d)) with (vadd (vadd (vadd l (vprod beta (if (bo =? 0)%Z || sp then e else v0))) (vprod beta d)) (vprod (vprod beta w) R))
          by (unfold a; vring).
        eapply mean_sub; [|exact IH]. intros us y (s' & E'). exists (s2 us). split; [apply E2|]. exists s'. exact E'.
    - destruct Nn as (Nw & Nc). destruct (weight_fin _ _ _ _ _ We) as (Ew & P0). 
      destruct (Z.eq_dec bo 65) as [->|B65]; [lia|]. destruct IH as (n & IH); [lia|exact Nc|].
      exists (takes + S n)%nat. intros [|fuel] l beta sp Hf Hb; [lia|]. cbn [chain_sum]. set (R := chain_sum _ c).
      set (a := vadd (vadd l (vprod beta (if (bo =? 0)%Z || sp then e else v0))) (vprod (vprod beta w) R)).
      replace (vadd l _) with (vadd a (vprod beta (vtotal ds))) by (unfold a, vprod; vring).
      pose proof (nonneg_prod _ _ Hb Nw) as Nb'. pose proof (survival_range _ Nb') as Qr. set (q := survival (vprod beta w)) in *.
      set (l2 := fun d => vadd (vadd l (vprod beta (if (bo =? 0)%Z || sp then e else v0))) (vprod beta d)).
      eapply mean_sub; [|apply (mean_lights s i b ds s1 (S n) (fun d st y => exists st2 v st3, sm_get_2d sm st = Ok (u, st2) /\ sm_get_1d sm st2 = Ok (XFin v, st3) /\
        ((q < v /\ y = l2 d) \/ (v <= q /\ exists s',
        li_loop sm teq surf sc fuel st3 (spawn_ray i wi) (fin3 (l2 d)) (v3divs (fin3 (vprod beta w)) (XFin q))
           (negb (Z.land flag SPECULAR =? 0)%Z) (bo + 1) = Ok (fin3 y, s')))) _ beta Li)].
      + intros us y (d & st & Eu & st2 & v & st3 & E2' & E1' & X).
        assert (X' : exists s', (if flt (XFin q) (XFin v) then Ok (fin3 (l2 d), st3) else li_loop sm teq surf sc fuel st3 (spawn_ray i wi) (fin3 (l2 d)) (v3divs (fin3 (vprod beta w)) (XFin q))
           (negb (Z.land flag SPECULAR =? 0)%Z) (bo + 1)) = Ok (fin3 y, s')).
        { xsimp. cbn [xlt]. destruct X as [(X & ->)|(X & s' & E')].
          - rewrite Rlt_bool_true by exact X. exists st3. reflexivity.
          - rewrite Rlt_bool_false by exact X. exists s'. exact E'. }
        destruct X' as (s' & X'). exists s'. assert (B64 : (bo <= 64)%Z) by lia. rewrite (turn fuel _ _ _ _ _ _ _ _ _ _ _ _ _ _ _ _ _ Se B64 Sc Eu E2' Es).
        cbv zeta. rewrite P0, Nb, Ew, v3mul_fin, q_fin. cbn [orb]. replace (3 <? bo + 1)%Z with true by lia. rewrite E1'. cbn [rbind]. exact X'.
      + intros d. destruct (Req_dec q 0) as [Q0|Q0].
        * pose proof (survival_0 _ Nb' Q0) as Z0.
          replace (vadd a (vprod beta d)) with (l2 d) by (unfold l2, a; rewrite Z0; unfold vprod; vring).
          replace (l2 d) with (vadd (vscale 0 (l2 d)) (vscale (1 - 0) (l2 d))) by vring.
          apply mean_two; [lra|intros v Hv1 Hv2; lra|]. intros v Hv1 Hv2. apply mean_const. intros us.
          exists (s2 (v :: us)), v, (s3 us). split; [apply E2|]. split; [now apply G|]. left. rewrite Q0. split; [exact Hv2|]. vring.
        * assert (Dq : v3divs (fin3 (vprod beta w)) (XFin q) = fin3 (vscale (/ q) (vprod beta w))) by (apply v3divs_fin; lra).
          specialize (IH fuel (l2 d) (vscale (/ q) (vprod beta w)) (negb (Z.land flag SPECULAR =? 0)%Z) ltac:(lia)).
          replace (bo + 1 =? 0)%Z with false in IH by lia. cbn [orb] in IH. fold R in IH. rewrite <- Dq in IH.
          specialize (IH ltac:(apply nonneg_scale; [left; apply Rinv_0_lt_compat; lra|exact Nb'])).
          replace (vadd a (vprod beta d)) with (vadd (vscale q (vadd (l2 d) (vprod (vscale (/ q) (vprod beta w)) R))) (vscale (1 - q) (l2 d))).
          2:{ unfold a, l2, vprod. apply V3_eq; unfold vadd, vscale; vproj; field; lra. }
          apply mean_two; [lra| |].
          -- intros v Hv1 Hv2. eapply mean_sub; [|exact IH]. intros us y (s' & E').
             exists (s2 (v :: us)), v, (s3 us). split; [apply E2|]. split; [now apply G|]. right. split; [exact Hv2|]. exists s'. exact E'.
          -- intros v Hv1 Hv2. apply mean_const. intros us.
             exists (s2 (v :: us)), v, (s3 us). split; [apply E2|]. split; [now apply G|]. left. auto.
  Qed.
End C104.

(** Exact arithmetic.  Directions fixed, the numbers that choose a light and end a path independent of each other and spread evenly
    between 0 and 1: the mean of the radiance found is the sum along the path of the light of all lights, as if
    all lights were looked at and no path ended before its 65th bounce. *)
Theorem C104_mean : forall (T ST : Type) (sm : sampler_ops XR ST) (teq : T -> T -> bool) (surf : T -> surface XR T) (sc : scene XR T (container XR T)) s r c,
  (Z.of_nat (length (sc_lights sc)) < 2 ^ 63)%Z -> follows sm teq surf sc 0 s r c -> not_negative c ->
  exists n, mean n (fun us y => exists s', li sm teq surf sc 66 (s us) r = Ok (fin3 y, s')) (chain_sum true c).
Proof.
  intros T ST sm teq surf sc s r c Hl Fo Nn. destruct (loop_mean sm teq surf sc Hl 0 s r c Fo ltac:(lia) Nn) as (n & H). exists n.
  specialize (H 66%nat v0 (mkV3 1 1 1) false ltac:(cbn; lia) ltac:(unfold nonneg; vproj; lra)). cbn [Z.eqb orb] in H.
  replace (chain_sum true c) with (vadd v0 (vprod (mkV3 1 1 1) (chain_sum true c))); [exact H|]. unfold vprod. apply V3_eq; unfold vadd, v0; vproj; ring.
Qed.
Print Assumptions C104_mean.

(** ** Examples: between glowing matt walls of reflectance 1/2, so that paths go on to the end, under two distant lights;
    every ray meets a wall as at [ex_below]. *)
Definition hall_light (L : rv) : light XR bool :=
  mkLight true (fun i _ => Ok (fin3 (mkV3 0 0 1), fin3 L, XFin 1, mkVis i ex_above)) (fun _ _ => XFin 0) None.
Definition hall : scene XR bool (container XR bool) :=
  mkScene [hall_light ex_glow; hall_light ex_grey] (mkCont (bbox_new v3zero v3zero) (fun _ => Ok false) (fun _ => Ok (Some ex_below))).
Definition hall_surf (_ : bool) : surface XR bool := mkSurf (fun _ => Ok ex_floor) (fun _ _ => fin3 ex_glow).
(** what the wall sends on of the light of a distant light *)
Definition hall_lit (L : rv) : rv := vprod (vscale (/ PI) ex_grey) L.

Lemma hall_sample a c : 0 < a < 1 -> 0 < c < 1 -> exists w p, bsdf_sample_f ex_floor (i_wo ex_below) (mkP2 (XFin a) (XFin c)) =
    Ok (fin3 w, fin3 (vscale (/ PI) ex_grey), XFin p, Z.lor REFLECTION DIFFUSE) /\
  weight_of ex_below (fin3 w) (fin3 (vscale (/ PI) ex_grey)) (XFin p) ex_grey /\ is_black (fin3 (vscale (/ PI) ex_grey)) = false.
Proof.
  intros Ha Hc. pose proof PI_RGT_0 as PP. assert (IP : 0 < / PI) by now apply Rinv_0_lt_compat.
  destruct (hemisphere_fin a c ltac:(lra) ltac:(lra)) as (w & Ew & Uw & Z0 & Zw).
  assert (Z1 : 0 < vz w).
  { rewrite Zw. apply sqrt_lt_R0. set (m := Rmax _ _). assert (M : 0 <= m < 1).
    { unfold m. split; [apply Rle_trans with (2 := Rmax_l _ _), Rabs_pos|]. apply Rmax_lub_lt; apply Rabs_def1; lra. }
    unfold Rsqr. nra. }
  assert (Es : bx_sample_f (lambertian (fin3 ex_grey)) (fin3 (mkV3 0 0 1)) (mkP2 (XFin a) (XFin c)) = (fin3 w, fin3 (vscale (/ PI) ex_grey), XFin (vz w * / PI))).
  { cbn [lambertian bx_sample_f]. unfold lamb_sample. rewrite Ew. change (flt (vz (fin3 (mkV3 0 0 1))) f0) with (Rlt_bool 1 0). rewrite Rlt_bool_false by lra.
    unfold lamb_pdf, lamb_f. rewrite same_hemisphere_fin. vproj. rewrite Rmult_1_l, Rlt_bool_true by lra. xsimp. rewrite v3divs_fin by lra.
    unfold abs_cos_theta, fin3 at 3. vproj. xsimp. cbn [xabs]. rewrite (Rabs_pos_eq (vz w)), xdiv_fin by lra. reflexivity. }
  assert (D0 : mkV3 1 0 0 <> v0) by (intros E; apply (f_equal (fun q : rv => vx q)) in E; revert E; unfold v0; vproj; lra).
  assert (Cu : coords (mkV3 0 0 1) (mkV3 1 0 0) (mkV3 0 0 1) = mkV3 0 0 1).
  { unfold coords, vunit, vdot, vcross, vscale. apply V3_eq; vproj; ring. }
  assert (N1 : vnorm (mkV3 0 0 1) = 1) by (apply vnorm_1_dot; unfold vdot; vproj; ring).
  assert (Wn : vdot (mkV3 0 0 1) (mkV3 0 0 1) <> 0) by (unfold vdot; vproj; lra).
  rewrite <- Cu in Es at 1. assert (Pz : 0 < vz w * / PI) by (apply Rmult_lt_0_compat; lra).
  destruct (single_sample ex_below (mkV3 0 0 1) (mkV3 1 0 0) (mkV3 0 0 1) (lambertian (fin3 ex_grey)) a c _ _ _ eq_refl eq_refl D0 N1
      ltac:(unfold vdot; vproj; ring) Wn ltac:(lra) Es) as (w' & E & Dn & _).
  rewrite Req_bool_false in E by lra. exists w', (vz w * / PI). split; [exact E|]. split.
  - exists (mkV3 0 0 1), w', (vscale (/ PI) ex_grey), (vz w * / PI). split; [reflexivity|]. do 3 (split; [reflexivity|]). split; [exact Pz|].
    rewrite Dn, Rabs_pos_eq by lra. unfold ex_grey. apply V3_eq; unfold vscale; vproj; field; lra.
  - unfold is_black, fin3, vscale, ex_grey. vproj. rewrite x_f0. xsimp. cbn [xeq]. rewrite Req_bool_false by lra. reflexivity.
Qed.
Lemma hall_f : bsdf_f ex_floor (i_wo ex_below) (fin3 (mkV3 0 0 1)) = fin3 (vscale (/ PI) ex_grey).
Proof. destruct C76_example as (B & _). exact (proj1 (bw_same_f _ _ _ _ _ _ _ _ _ _ _ _ _ _ _ _ B)). Qed.
Lemma hall_direct L u0 u1 ld : direct_light hall (hall_light L) ex_below ex_floor u0 (fin3 ld) = Ok (fin3 (vadd ld (hall_lit L))) /\
  direct_bsdf Bool.eqb hall_surf hall (hall_light L) ex_below ex_floor u1 (fin3 ld) = Ok (fin3 ld).
Proof.
  destruct (C76_delta bool Bool.eqb hall_surf hall (hall_light L) ex_below ex_floor u0 u1 (mkVis ex_below ex_above) (mkV3 0 0 1) L (vscale (/ PI) ex_grey)
    (mkV3 0 0 1) 1 eq_refl eq_refl ltac:(lra) eq_refl hall_f eq_refl) as (a & Ea & H).
  assert (X : a = hall_lit L).
  { unfold hall_lit. transitivity (vscale 1 a); [vring|]. rewrite Ea. replace (vdot (mkV3 0 0 1) (mkV3 0 0 1)) with 1 by (unfold vdot; vproj; ring).
    rewrite Rabs_R1. vring. }
  rewrite <- X. apply H.
Qed.

(** numbers for lights and ends one by one from a list, directions always from (1/2, 1/2) *)
Definition one_by_one : sampler_ops XR (list R) :=
  mkSampler (fun s _ => Ok s) (fun s => Ok (false, s)) (fun s => match s with u :: s => Ok (XFin u, s) | [] => Panic end)
    (fun s => Ok (mkP2 (XFin (1/2)) (XFin (1/2)), s)).
Fixpoint hall_chain (n : nat) : chain :=
  match n with
  | O => Far ex_glow
  | S n => Then ex_glow [hall_lit ex_glow; hall_lit ex_grey] ex_grey false (hall_chain n)
  end.
Lemma hall_follows : forall n bo r, (bo = 65 - Z.of_nat n)%Z -> follows one_by_one Bool.eqb hall_surf hall bo (fun us => us) r (hall_chain n).
Proof.
  induction n as [|n IH]; intros bo r Hb; cbn [hall_chain].
  - apply (fo_far _ _ _ _ bo (fun us => us) r ex_below); [exists true; repeat split|lia].
  - destruct (hall_sample (1/2) (1/2) ltac:(lra) ltac:(lra)) as (w & p & Es & We & Nb).
    assert (Se : sees hall_surf hall r ex_below ex_glow) by (exists true; repeat split).
    assert (Sc : scattering hall_surf ex_below ex_floor) by (exists true; split; reflexivity).
    assert (Li : lights_seen one_by_one Bool.eqb hall_surf hall (fun us => us) ex_below ex_floor [hall_lit ex_glow; hall_lit ex_grey] (fun us => us)).
    { right. split; [discriminate|]. exists (fun us => us). split; [reflexivity|].
      assert (X : forall L us, estimate_direct one_by_one Bool.eqb hall_surf hall us (hall_light L) ex_below ex_floor = Ok (fin3 (hall_lit L), us)).
      { intros L us. unfold estimate_direct. cbn [one_by_one sm_get_2d rbind].
        destruct (hall_direct L (mkP2 (XFin (1/2)) (XFin (1/2))) (mkP2 (XFin (1/2)) (XFin (1/2))) v0) as (E1 & _).
        destruct (hall_direct L (mkP2 (XFin (1/2)) (XFin (1/2))) (mkP2 (XFin (1/2)) (XFin (1/2))) (hall_lit L)) as (_ & E2).
        replace (vadd v0 (hall_lit L)) with (hall_lit L) in E1 by vring.
        change (@v3zero XR _) with (fin3 v0). rewrite E1. cbn [rbind]. rewrite E2. reflexivity. }
      repeat constructor; intros us; apply X. }
    assert (St : scatters_to one_by_one (fun us => us) ex_below ex_floor (fin3 w) (fin3 (vscale (/ PI) ex_grey)) (XFin p) (Z.lor REFLECTION DIFFUSE) (fun us => us)).
    { exists (mkP2 (XFin (1/2)) (XFin (1/2))). split; [reflexivity|exact Es]. }
    change false with (negb (Z.land (Z.lor REFLECTION DIFFUSE) SPECULAR =? 0)%Z). destruct (Z_lt_dec bo 3).
    + eapply fo_early; eauto. apply IH. lia.
    + eapply fo_late with (s3 := fun us => us); eauto; [lia|]. apply IH. lia.
Qed.
Example C104_example : (Z.of_nat (length (sc_lights hall)) < 2 ^ 63)%Z /\
  follows one_by_one Bool.eqb hall_surf hall 0 (fun us => us) ex_down (hall_chain 65) /\ not_negative (hall_chain 65).
Proof.
  split; [cbn; lia|]. split; [apply hall_follows; reflexivity|]. generalize 65%nat. induction n as [|n IH]; cbn [hall_chain not_negative]; [exact I|].
  split; [unfold ex_grey; vproj; lra|exact IH].
Qed.
