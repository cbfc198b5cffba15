(** * C105: the mean radiance found is the light that lights and surfaces bring *)
From Coq Require Import ZArith Reals List Bool Lia Lra.
From Flocq Require Import Core.
From Verif Require Import Model.Num Model.NumX Model.Vector Model.Common Model.BBox Model.Interaction Model.Shape Model.Container Model.Sampler
  Model.Sampling Model.Reflection Model.Fresnel Model.Microfacet Model.BxDFs Model.Texture Model.Material Model.Light Model.Scene Model.Path.
From Verif Require Import Spec.RVec Spec.SamplerSpec Spec.ShadeSpec Spec.RadianceSpec Spec.EstimatorSpec Spec.MeanSpec.
From Verif Require Import Proofs.XBase Proofs.RVecProofs Proofs.ShadeProofs Proofs.MicroProofs Proofs.MeanProofs.
From Verif Require Import Props.Frames Props.Radiance Props.Radiance2 Props.Estimator Props.Shading3 Props.Estimator2 Props.Roulette.
Import ListNotations.
Local Open Scope R_scope.

Lemma integral_ext f g a b v : a <= b -> (forall x, a < x < b -> f x = g x) -> integral f a b v -> integral g a b v.
Proof.
  intros Hab E (pr & <-). assert (P0 : integral (fun x => g x - f x) a b (0 * (b - a))) by (apply integral_piece; auto; intros x Hx; rewrite E by exact Hx; ring).
  destruct (integral_lin f (fun x => g x - f x) a b 1 (RiemannInt pr) (0 * (b - a))) as (p & Ep); [exists pr; reflexivity|exact P0|].
  assert (pr' : Riemann_integrable g a b).
  { intros eps. destruct (p eps) as (phi & psi & X & Y). exists phi, psi. split; [|exact Y]. intros t Ht. specialize (X t Ht).
    replace (g t) with (f t + 1 * (g t - f t)) by ring. exact X. }
  exists pr'. apply RiemannInt_P18; [exact Hab|]. intros x Hx. symmetry. now apply E.
Qed.
Lemma average_affine a b g x : average g x -> average (fun u => vadd a (vprod b (g u))) (vadd a (vprod b x)).
Proof.
  assert (J : forall A B (p : rv -> R), integral (fun u => p (g u)) 0 1 (p x) -> integral (fun u => A + B * p (g u)) 0 1 (A + B * p x)).
  { intros A B p H. replace (A + B * p x) with (A * (1 - 0) + B * p x) by ring. apply (integral_lin (fun _ => A) (fun u => p (g u))); [apply integral_const; lra|exact H]. }
  intros (X & Y & Z). unfold average, vadd, vprod. vproj. repeat split; now apply J.
Qed.

(** an experiment of [k] numbers, then one of [m] that is affine in its result *)
Lemma mean_then k : forall m (D : list R -> rv -> Prop) (Q : rv -> list R -> rv -> Prop) a b d,
  mean k D d -> (forall y, mean m (Q y) (vadd a (vprod b y))) ->
  mean (k + m) (fun us z => exists us1 us2 y, us = us1 ++ us2 /\ D us1 y /\ Q y us2 z) (vadd a (vprod b d)).
Proof.
  induction k as [|k IH]; intros m D Q a b d; cbn [mean plus].
  - intros Hd H. eapply mean_sub; [|apply H]. intros us z Hz. exists [], us, d. auto.
  - intros (g & G & A) H. exists (fun u => vadd a (vprod b (g u))). split; [|now apply average_affine].
    intros u Hu. eapply mean_sub; [|apply (IH m (fun us => D (u :: us)) Q a b (g u) (G u Hu) H)].
    intros us z (us1 & us2 & y & -> & Hd & Hq). exists (u :: us1), us2, y. auto.
Qed.
Lemma mean_average2 m (P : list R -> rv -> Prop) g x a b : average2 g x ->
  (forall u v, 0 < u < 1 -> 0 < v < 1 -> mean m (fun us => P (u :: v :: us)) (vadd a (vprod b (g u v)))) ->
  mean (S (S m)) P (vadd a (vprod b x)).
Proof.
  intros (h & A & B) H. cbn [mean]. exists (fun u => vadd a (vprod b (h u))). split; [|now apply average_affine].
  intros u Hu. exists (fun v => vadd a (vprod b (g u v))). split; [|apply average_affine, A, Hu]. intros v Hv. now apply H.
Qed.

Section C105.
  Context {T : Type}.
  Variables (teq : T -> T -> bool) (surf : T -> surface XR T) (sc : scene XR T (container XR T)).
  Hypothesis Hl : (Z.of_nat (length (sc_lights sc)) < 2 ^ 63)%Z.

  (** one light *)
  Lemma mean_light l i b d : light_gives teq surf sc i b l d ->
    mean 4 (fun us1 y => forall us2, estimate_direct ideal teq surf sc (us1 ++ us2) l i b = Ok (fin3 y, us2)) d.
  Proof.
    intros (g & h & x & y & -> & Ag & Ah & Hg & Hh).
    replace (vadd x y) with (vadd y (vprod (mkV3 1 1 1) x)) by (unfold vprod; apply V3_eq; unfold vadd; vproj; ring).
    apply (mean_average2 2 _ g x _ _ Ag). intros u v Hu Hv.
    replace (vadd y _) with (vadd (g u v) (vprod (mkV3 1 1 1) y)) by (unfold vprod; apply V3_eq; unfold vadd; vproj; ring).
    apply (mean_average2 0 _ h y _ _ Ah). intros u' v' Hu' Hv'. cbn [mean app]. intros us2.
    unfold estimate_direct. cbn [ideal sm_get_2d rbind]. change (@v3zero XR _) with (fin3 v0). rewrite Hg by auto. cbn [rbind]. rewrite Hh by auto. cbn [rbind].
    do 3 f_equal. unfold vprod. apply V3_eq; unfold vadd, v0; vproj; ring.
  Qed.

  Definition takes5 : nat := match sc_lights sc with [] => 0 | _ => 5 end.
  Lemma mean_all_lights i b ds : Forall2 (light_gives teq surf sc i b) (sc_lights sc) ds ->
    mean takes5 (fun us1 y => forall us2, uniform_sample_one_light ideal teq surf sc (us1 ++ us2) i b = Ok (fin3 y, us2)) (vtotal ds).
  Proof.
    intros F. unfold takes5. destruct (sc_lights sc) as [|l0 ls] eqn:El.
    - inversion F. cbn [mean]. intros us2. unfold uniform_sample_one_light. rewrite El. reflexivity.
    - rewrite <- El in F, Hl. assert (Ln : length (sc_lights sc) = length ds) by (clear - F; induction F; cbn; congruence).
      replace (vtotal ds) with (vadd v0 (vprod (mkV3 1 1 1) (vtotal ds))) by (unfold vprod; apply V3_eq; unfold vadd, v0; vproj; ring).
      apply mean_parts; [rewrite <- Ln, El; cbn; lia|]. intros k d u Hk Hu Hu1.
      assert (X : exists l, nth_error (sc_lights sc) k = Some l /\ light_gives teq surf sc i b l d).
      { clear - F Hk. revert k Hk. induction F as [|l d' ls ds' Hd _ IH]; intros [|k] Hk; cbn in Hk; try discriminate.
        - exists l. assert (d' = d) by congruence. subst. auto.
        - apply IH. exact Hk. }
      destruct X as (l & El' & Gl). pose proof (mean_light l i b d Gl) as M. set (n := INR (length ds)) in *.
      replace (vadd v0 (vprod (mkV3 1 1 1) (vscale n d))) with (vadd v0 (vprod (mkV3 n n n) d)) by (unfold vprod; apply V3_eq; unfold vadd, vscale, v0; vproj; ring).
      eapply mean_sub; [|apply (mean_then 4 0 _ (fun y us z => us = [] /\ z = vscale n y) v0 (mkV3 n n n) d M)].
      + intros us z (us1 & us3 & y & -> & Hy & -> & ->) us2. rewrite app_nil_r. cbn [app].
        rewrite (C77_equal_shares T (list R) ideal teq surf sc (u :: us1 ++ us2) i b u (us1 ++ us2) k l eq_refl El' Hl) by (rewrite Ln; exact Hu).
        rewrite Hy, v3scale_fin, Ln. reflexivity.
      + intros y. cbn [mean]. split; [reflexivity|]. unfold vprod. apply V3_eq; unfold vadd, vscale, v0; vproj; ring.
  Qed.

  Lemma loop_brings : forall k r e x, brings teq surf sc k r e x -> forall bo m fuel l beta sp, (bo = 65 - Z.of_nat k)%Z -> (0 <= bo)%Z -> (8 * k <= m)%nat -> (k < fuel)%nat -> nonneg beta ->
    mean m (fun us y => exists s', li_loop ideal teq surf sc fuel us r (fin3 l) (fin3 beta) sp bo = Ok (fin3 y, s'))
      (vadd l (vprod beta (vadd (if (bo =? 0)%Z || sp then e else v0) x))).
  Proof.
    induction k as [|k IH]; intros r e x Hb bo m [|fuel] l beta sp Ek Bo Hm Hf Nb; try lia;
      (destruct Hb as [(Eo & -> & ->)|(i & Se & Hb)];
       [apply mean_const; intros us; exists us; cbn [li_loop]; unfold scene_intersect; rewrite Eo; cbn [rbind];
        replace (vadd l _) with l by (unfold vprod; destruct (_ || _); vring); destruct (_ || _); reflexivity|]).
    - rewrite Hb. destruct Se as (t & Eo & Et & Ee).
      apply mean_const. intros us. exists us. cbn [li_loop]. unfold scene_intersect, le, MAX_BOUNCES. rewrite Eo. cbn [rbind]. rewrite Et, Ee. replace (64 <? bo)%Z with true by lia.
      destruct (_ || _); cbn [rbind]; [rewrite v3mul_fin, v3add_fin|]; do 3 f_equal; unfold vprod; vring.
    - destruct Hb as (b & ds & g & y & Sc & -> & Fl & Ag & Hs).
      set (lit := if (bo =? 0)%Z || sp then e else v0). set (l1 := vadd l (vprod beta lit)).
      replace (vadd l (vprod beta (vadd lit (vadd (vtotal ds) y)))) with (vadd (vadd l1 (vprod beta y)) (vprod beta (vtotal ds))) by (unfold l1, vprod; vring).
      assert (T5 : (takes5 <= 5)%nat) by (unfold takes5; destruct (sc_lights sc); lia).
      replace m with (takes5 + S (S (m - 2 - takes5)))%nat by lia. set (m' := (m - 2 - takes5)%nat). assert (Hm' : (8 * k + 1 <= m')%nat) by (unfold m'; lia).
      assert (B64 : (bo <= 64)%Z) by lia.
      eapply mean_sub; [|apply (mean_then takes5 (S (S m')) _ (fun d us z => forall s, uniform_sample_one_light ideal teq surf sc s i b = Ok (fin3 d, us) ->
         exists s', li_loop ideal teq surf sc (S fuel) s r (fin3 l) (fin3 beta) sp bo = Ok (fin3 z, s')) _ _ _ (mean_all_lights i b ds Fl))].
      { intros us z (us1 & us2 & d & -> & Hd & Hq). apply Hq, Hd. }
      intros d. set (l2 := vadd l1 (vprod beta d)).
      replace (vadd (vadd l1 (vprod beta y)) (vprod beta d)) with (vadd l2 (vprod beta y)) by (unfold l2; vring).
      apply (mean_average2 m' _ g y _ _ Ag). intros u v Hu Hv.
      destruct (Hs u v Hu Hv) as (wi & f & pdf & flag & Es & [(Ab & ->)|(w & e' & x' & Bf & We & Nw & Hb & ->)]).
      + apply mean_const. intros us s Eu. exists us. rewrite (turn ideal teq surf sc fuel s r l beta sp bo i e b d (u :: v :: us) _ us wi f pdf flag Se B64 Sc Eu eq_refl Es).
        cbv zeta. replace (feq pdf f0 || is_black f) with true.
        * unfold l2, l1, lit, vprod. do 3 f_equal. vring.
        * symmetry. apply orb_true_iff. destruct Ab as [-> | ->]; [left|right].
          -- rewrite x_f0. xsimp. cbn [xeq]. rb. reflexivity.
          -- unfold is_black, v3zero. vproj. rewrite x_f0. xsimp. cbn [xeq]. rewrite Req_bool_true by reflexivity. reflexivity.
      + destruct (weight_fin _ _ _ _ _ We) as (Ew & P0). set (forced := negb (Z.land flag SPECULAR =? 0)%Z).
        set (R := vadd (if forced then e' else v0) x').
        replace (if (Z.land flag SPECULAR =? 0)%Z then x' else vadd e' x') with R by (unfold R, forced; destruct (Z.land flag SPECULAR =? 0)%Z; cbn [negb]; [symmetry; vring|reflexivity]).
        pose proof (nonneg_prod _ _ Nb Nw) as Nb'.
        assert (Tn : forall us s, uniform_sample_one_light ideal teq surf sc s i b = Ok (fin3 d, u :: v :: us) ->
          li_loop ideal teq surf sc (S fuel) s r (fin3 l) (fin3 beta) sp bo =
          if (3 <? bo + 1)%Z then
            let! (v, s3) := sm_get_1d ideal us in
            if flt (XFin (survival (vprod beta w))) v then Ok (fin3 l2, s3)
            else li_loop ideal teq surf sc fuel s3 (spawn_ray i wi) (fin3 l2) (v3divs (fin3 (vprod beta w)) (XFin (survival (vprod beta w)))) forced (bo + 1)
          else li_loop ideal teq surf sc fuel us (spawn_ray i wi) (fin3 l2) (fin3 (vprod beta w)) forced (bo + 1)).
        { intros us s Eu. rewrite (turn ideal teq surf sc fuel s r l beta sp bo i e b d (u :: v :: us) _ us wi f pdf flag Se B64 Sc Eu eq_refl Es).
          cbv zeta. rewrite P0, Bf, Ew, v3mul_fin, q_fin. reflexivity. }
        assert (Bz : (bo + 1 =? 0)%Z = false) by lia.
        destruct (3 <? bo + 1)%Z eqn:B3.
        2:{ pose proof (IH (spawn_ray i wi) e' x' Hb (bo + 1)%Z m' fuel l2 (vprod beta w) forced ltac:(lia) ltac:(lia) ltac:(lia) ltac:(lia) Nb') as M.
            rewrite Bz in M. cbn [orb] in M. fold R in M.
            replace (vadd l2 (vprod beta (vprod w R))) with (vadd l2 (vprod (vprod beta w) R)) by (unfold vprod; vring).
            eapply mean_sub; [|exact M]. intros us z (s' & E') s Eu. exists s'. rewrite (Tn us s Eu). exact E'. }
        pose proof (survival_range _ Nb') as Qr. set (q := survival (vprod beta w)) in *.
        replace m' with (S (m' - 1)) by lia. 
        destruct (Req_dec q 0) as [Q0|Q0].
        * pose proof (survival_0 _ Nb' Q0) as Z0.
          replace (vadd l2 (vprod beta (vprod w R))) with (vadd (vscale 0 l2) (vscale (1 - 0) l2)).
          2:{ replace (vprod beta (vprod w R)) with (vprod (vprod beta w) R) by (unfold vprod; vring). rewrite Z0. unfold vprod. vring. }
          apply mean_two; [lra|intros t Ht1 Ht2; lra|]. intros t Ht1 Ht2. apply mean_const. intros us s Eu. exists us. rewrite (Tn (t :: us) s Eu). cbn [ideal sm_get_1d rbind].
          xsimp. cbn [xlt]. rewrite Q0, Rlt_bool_true by exact Ht2. reflexivity.
        * assert (Dq : v3divs (fin3 (vprod beta w)) (XFin q) = fin3 (vscale (/ q) (vprod beta w))) by (apply v3divs_fin; lra).
          pose proof (IH (spawn_ray i wi) e' x' Hb (bo + 1)%Z (m' - 1)%nat fuel l2 (vscale (/ q) (vprod beta w)) forced ltac:(lia) ltac:(lia) ltac:(lia) ltac:(lia)
            ltac:(apply nonneg_scale; [left; apply Rinv_0_lt_compat; lra|exact Nb'])) as M.
          rewrite Bz in M. cbn [orb] in M. fold R in M. rewrite <- Dq in M.
          replace (vadd l2 (vprod beta (vprod w R))) with (vadd (vscale q (vadd l2 (vprod (vscale (/ q) (vprod beta w)) R))) (vscale (1 - q) l2)).
          2:{ unfold vprod. apply V3_eq; unfold vadd, vscale; vproj; field; lra. }
          apply mean_two; [lra| |].
          -- intros t Ht1 Ht2. eapply mean_sub; [|exact M]. intros us z (s' & E') s Eu. exists s'. rewrite (Tn (t :: us) s Eu). cbn [ideal sm_get_1d rbind].
             xsimp. cbn [xlt]. rewrite Rlt_bool_false by exact Ht2. exact E'.
          -- intros t Ht1 Ht2. apply mean_const. intros us s Eu. exists us. rewrite (Tn (t :: us) s Eu). cbn [ideal sm_get_1d rbind].
             xsimp. cbn [xlt]. rewrite Rlt_bool_true by exact Ht2. reflexivity.
  Qed.
End C105.

(** Exact arithmetic.  With all its numbers independent and spread evenly between 0 and 1, the radiance the path tracer finds along a ray
    is on average exactly the light that comes along it in at most 65 bounces: what the surface met emits, the light of all lights on it, and
    what it sends on of the light from elsewhere. *)
Theorem C105_transport : forall (T : Type) (teq : T -> T -> bool) (surf : T -> surface XR T) (sc : scene XR T (container XR T)) r e x,
  (Z.of_nat (length (sc_lights sc)) < 2 ^ 63)%Z -> brings teq surf sc 65 r e x ->
  mean 520 (fun us y => exists s', li ideal teq surf sc 66 us r = Ok (fin3 y, s')) (vadd e x).
Proof.
  intros T teq surf sc r e x Hl H.
  pose proof (loop_brings teq surf sc Hl 65 r e x H 0 520 66 v0 (mkV3 1 1 1) false eq_refl ltac:(lia) ltac:(lia) ltac:(lia) ltac:(unfold nonneg; vproj; lra)) as M.
  cbn [Z.eqb orb] in M. replace (vadd e x) with (vadd v0 (vprod (mkV3 1 1 1) (vadd e x))); [exact M|]. unfold vprod. apply V3_eq; unfold vadd, v0; vproj; ring.
Qed.
Print Assumptions C105_transport.

(** between the walls of C104 *)
Fixpoint hall_x (k : nat) : rv :=
  match k with O => v0 | S k => vadd (vtotal [hall_lit ex_glow; hall_lit ex_grey]) (vprod ex_grey (hall_x k)) end.
Lemma average2_const x : average2 (fun _ _ => x) x.
Proof. exists (fun _ => x). split; [intros u _|]; apply average_const. Qed.
Lemma hall_brings : forall k r, brings Bool.eqb hall_surf hall k r ex_glow (hall_x k).
Proof.
  induction k as [|k IH]; intros r; right; exists ex_below; (split; [exists true; repeat split|]); [reflexivity|].
  assert (Lg : forall L, light_gives Bool.eqb hall_surf hall ex_below ex_floor (hall_light L) (hall_lit L)).
  { intros L. exists (fun _ _ => hall_lit L), (fun _ _ => v0), (hall_lit L), v0. split; [vring|]. split; [apply average2_const|]. split; [apply average2_const|].
    split; intros u v ld _ _; [apply (hall_direct L (mkP2 (XFin u) (XFin v)) (mkP2 (XFin u) (XFin v)))|].
    replace (vadd ld v0) with ld by vring. apply (hall_direct L (mkP2 (XFin u) (XFin v)) (mkP2 (XFin u) (XFin v))). }
  exists ex_floor, [hall_lit ex_glow; hall_lit ex_grey], (fun _ _ => vprod ex_grey (hall_x k)), (vprod ex_grey (hall_x k)).
  split; [exists true; split; reflexivity|]. split; [reflexivity|]. split; [repeat constructor; apply Lg|]. split; [apply average2_const|].
  intros u v Hu Hv. destruct (hall_sample u v Hu Hv) as (w & p & Es & We & Nb). do 4 eexists. split; [exact Es|]. right.
  exists ex_grey, ex_glow, (hall_x k). split; [exact Nb|]. split; [exact We|]. split; [unfold ex_grey; vproj; lra|]. split; [apply IH|]. reflexivity.
Qed.
Example C105_example : (Z.of_nat (length (sc_lights hall)) < 2 ^ 63)%Z /\ brings Bool.eqb hall_surf hall 65 ex_down ex_glow (hall_x 65) /\
  0 < vx (hall_x 65).
Proof.
  split; [cbn; lia|]. split; [apply hall_brings|]. assert (P : 0 < / PI) by apply Rinv_0_lt_compat, PI_RGT_0.
  assert (G : forall k, vx (hall_x (S k)) = 7 / 4 * / PI + 1 / 2 * vx (hall_x k)).
  { intros k. cbn [hall_x]. unfold vadd, vtotal, hall_lit, vprod, vscale, ex_grey, ex_glow, fold_right, vadd, v0. vproj. lra. }
  assert (N : forall k, 0 <= vx (hall_x k)) by (induction k as [|k IH]; [unfold hall_x, v0; vproj; lra|rewrite G; lra]).
  rewrite (G 64%nat). specialize (N 64%nat). lra.
Qed.
