(** * Scenes of triangles emit no negative light (C66), in exact arithmetic *)
From Coq Require Import ZArith Reals List Bool Lia Lra.
From Flocq Require Import Core.
From Verif Require Import Model.Num Model.NumX Model.Vector Model.Common Model.BBox Model.Interaction Model.Shape Model.Triangle
  Model.Container Model.KdTree Model.Sampler Model.Sampling Model.Reflection Model.Fresnel Model.Microfacet Model.BxDFs Model.Texture Model.Material
  Model.Light Model.Scene Model.Path.
From Verif Require Import Spec.RVec Spec.BoxSpec Spec.ShapeSpec Spec.ShadeSpec Spec.KdSpec Spec.SamplerSpec Spec.RadianceSpec.
From Verif Require Import Proofs.XBase Proofs.RVecProofs Proofs.TriangleProofs Proofs.ShadeProofs Proofs.MicroProofs.
From Verif Require Import Props.Containers Props.Shapes Props.Shading1 Props.Shading2 Props.FresnelProps Props.MicrofacetProps Props.Frames Props.Radiance.
Import ListNotations.
Local Open Scope R_scope.

(** Shown of spectra along with finiteness: no channel negative; or more. *)
Record lightlike (P : V3 XR -> Prop) : Prop := {
  like_nn : forall v, P v -> nn3 v;
  like_pos : forall v, pos3 v -> P v;
  like_0 : P v3zero;
  like_add : forall a b, P a -> P b -> P (v3add a b);
  like_mul : forall a b, P a -> P b -> P (v3mul a b);
  like_scale : forall a k, P a -> nn k -> P (v3scale a k);
  like_divs : forall a k, P a -> nn k -> k <> XFin 0 -> P (v3divs a k);
}.
Arguments like_nn {P}. Arguments like_pos {P}. Arguments like_0 {P}. Arguments like_add {P}. Arguments like_mul {P}. Arguments like_scale {P}. Arguments like_divs {P}.

Lemma nn3_like : lightlike nn3.
Proof. constructor; auto using nn3_zero, nn3_add, nn3_mul, nn3_scale, nn3_divs. intros v (r & -> & H). exists r. split; [reflexivity|lra]. Qed.

(** positive in every channel, or black *)
Definition even3 (v : V3 XR) : Prop := pos3 v \/ v = v3zero.
Lemma even3_like : lightlike even3.
Proof.
  change (@v3zero XR _) with (fin3 v0) in *. constructor.
  - intros v [(r & -> & H)| ->]; [exists r; split; [reflexivity|lra]|apply nn3_zero].
  - intros v H. now left.
  - now right.
  - intros a b [(r & -> & H)| ->] [(q & -> & K)| ->]; change (@v3zero XR _) with (fin3 v0); rewrite ?v3add_fin.
    + left. eexists. split; [reflexivity|]. unfold vadd. vproj. lra.
    + left. eexists. split; [reflexivity|]. unfold vadd, v0. vproj. lra.
    + left. eexists. split; [reflexivity|]. unfold vadd, v0. vproj. lra.
    + right. change (@v3zero XR _) with (fin3 v0). f_equal. vring.
  - assert (M : forall r q : rv, v3mul (fin3 r) (fin3 q) = fin3 (mkV3 (vx r * vx q) (vy r * vy q) (vz r * vz q))) by reflexivity.
    intros a b [(r & -> & H)| ->] [(q & -> & K)| ->]; change (@v3zero XR _) with (fin3 v0); rewrite ?M.
    + left. eexists. split; [reflexivity|]. vproj. repeat split; now apply Rmult_lt_0_compat.
    + right. change (@v3zero XR _) with (fin3 v0). f_equal. unfold v0. apply V3_eq; vproj; ring.
    + right. change (@v3zero XR _) with (fin3 v0). f_equal. unfold v0. apply V3_eq; vproj; ring.
    + right. change (@v3zero XR _) with (fin3 v0). f_equal. unfold v0. apply V3_eq; vproj; ring.
  - intros a k Ha (q & -> & Q). destruct (Rle_lt_or_eq_dec _ _ Q) as [P|<-]; destruct Ha as [(r & -> & H)| ->]; change (@v3zero XR _) with (fin3 v0); rewrite ?v3scale_fin.
    + left. eexists. split; [reflexivity|]. unfold vscale. vproj. repeat split; now apply Rmult_lt_0_compat.
    + right. change (@v3zero XR _) with (fin3 v0). f_equal. vring.
    + right. change (@v3zero XR _) with (fin3 v0). f_equal. vring.
    + right. change (@v3zero XR _) with (fin3 v0). f_equal. vring.
  - intros a k Ha (q & -> & Q) N. assert (P : 0 < q) by (assert (q <> 0) by congruence; lra). assert (I : 0 < / q) by now apply Rinv_0_lt_compat.
    destruct Ha as [(r & -> & H)| ->]; change (@v3zero XR _) with (fin3 v0); rewrite v3divs_fin by lra.
    + left. eexists. split; [reflexivity|]. unfold vscale. vproj. repeat split; now apply Rmult_lt_0_compat.
    + right. change (@v3zero XR _) with (fin3 v0). f_equal. vring.
Qed.

Lemma nn_0 : nn (XFin 0). Proof. exists 0. split; [reflexivity|lra]. Qed.
Lemma nn_f0 : nn f0. Proof. apply nn_0. Qed.
Lemma nn_add a b : nn a -> nn b -> nn (fadd a b).
Proof. intros (x & -> & X) (y & -> & Y). exists (x + y). split; [reflexivity|lra]. Qed.
Lemma nn_div a k : nn a -> 0 < k -> nn (fdiv a (XFin k)).
Proof.
  intros (x & -> & X) K. exists (x / k). xsimp. rewrite xdiv_fin by lra. split; [reflexivity|].
  apply Rmult_le_pos; [auto|]. left. now apply Rinv_0_lt_compat.
Qed.

Lemma in_unit_fin (x : XR) : in_unit x -> exists r, x = XFin r /\ 0 <= r < 1.
Proof.
  intros (Hf & H0 & H1). destruct x as [|s|r]; try discriminate. exists r. split; [reflexivity|].
  revert H0 H1. cbn [fle flt XR_FOps]. rewrite x_f0, x_f1. cbn [xle xlt]. intros. rb. lra.
Qed.

Lemma clamp_fin x : clamp (XFin x) f0 finf = XFin (Rmax 0 x).
Proof.
  unfold clamp, f0. xsimp. cbn [xlt]. destruct (Rlt_bool x 0) eqn:L; rb; [rewrite Rmax_left by lra; reflexivity|]. rewrite Rmax_right by lra. reflexivity.
Qed.
Lemma spectrum_clamp_fin r : spectrum_clamp (fin3 r) f0 finf = fin3 (mkV3 (Rmax 0 (vx r)) (Rmax 0 (vy r)) (Rmax 0 (vz r))).
Proof. unfold spectrum_clamp, fin3. vproj. rewrite !clamp_fin. reflexivity. Qed.
Lemma clamp_nn3 v : fin v -> nn3 (spectrum_clamp v f0 finf).
Proof. intros (r & ->). rewrite spectrum_clamp_fin. eexists. split; [reflexivity|]. vproj. repeat split; apply Rmax_l. Qed.
Lemma clamp_even v : even v -> even3 (spectrum_clamp v f0 finf).
Proof.
  intros (r & -> & [(A & B & C)|(A & B & C)]); rewrite spectrum_clamp_fin.
  - left. eexists. split; [reflexivity|]. vproj. rewrite !Rmax_right by lra. auto.
  - right. rewrite !Rmax_left by lra. reflexivity.
Qed.

Section P.
Variable P : V3 XR -> Prop.
Hypothesis HP : lightlike P.
Lemma like_of x : nn x -> P (spectrum_of x).
Proof.
  intros (r & -> & H). destruct (Rle_lt_or_eq_dec _ _ H) as [L|<-]; [|apply (like_0 HP)]. apply (like_pos HP). exists (mkV3 r r r). split; [reflexivity|]. vproj. auto.
Qed.

Definition good_bx (x : bxdf XR) : Prop := forall wo, vdot wo wo = 1 -> vz wo <> 0 ->
  (forall wi, vdot wi wi = 1 -> P (bx_f x (fin3 wo) (fin3 wi)) /\ nn (bx_pdf x (fin3 wo) (fin3 wi))) /\
  (forall a b, 0 <= a < 1 -> 0 <= b < 1 -> exists wi f pdf,
     bx_sample_f x (fin3 wo) (mkP2 (XFin a) (XFin b)) = (wi, f, pdf) /\
     (pdf = XFin 0 \/ (exists w, wi = fin3 w /\ vdot w w = 1 /\ vz w <> 0) /\ P f /\ nn pdf)).

(** ** the BSDF from its components *)
Section B.
  Variables (b : bsdf XR) (s n gn : rv).
  Hypothesis Hs : vdot s s = 1.
  Hypothesis Hn : vdot n n = 1.
  Hypothesis Hsn : vdot s n = 0.
  Hypothesis Hf : frame_is b s (vcross n s) n.
  Hypothesis Hg : forall x, In x (bs_bxdfs b) -> good_bx x.

  Lemma good_sum wo wi r : vdot wo wo = 1 -> vz wo <> 0 -> vdot wi wi = 1 ->
    forall l, incl l (bs_bxdfs b) -> forall a, P a ->
    P (fold_left (fun f x => if (r && has_flag x REFLECTION) || (negb r && has_flag x TRANSMISSION)
      then v3add f (bx_f x (fin3 wo) (fin3 wi)) else f) l a).
  Proof.
    intros Ho Hz Hi. induction l as [|x l IH]; intros Hl a Ha; [exact Ha|]. cbn [fold_left].
    apply IH; [intros y Hy; apply Hl; now right|]. destruct (_ || _); [|exact Ha].
    apply (like_add HP); [exact Ha|]. apply (Hg x (Hl x (or_introl eq_refl)) wo Ho Hz). exact Hi.
  Qed.

  Lemma good_pdfs wo wi : vdot wo wo = 1 -> vz wo <> 0 -> vdot wi wi = 1 ->
    forall l, incl l (bs_bxdfs b) -> forall a, nn a -> nn (fold_left (fun p x => fadd p (bx_pdf x (fin3 wo) (fin3 wi))) l a).
  Proof.
    intros Ho Hz Hi. induction l as [|x l IH]; intros Hl a Ha; [exact Ha|]. cbn [fold_left].
    apply IH; [intros y Hy; apply Hl; now right|].
    apply nn_add; [exact Ha|]. apply (Hg x (Hl x (or_introl eq_refl)) wo Ho Hz). exact Hi.
  Qed.

  Lemma good_others wo wi k : vdot wo wo = 1 -> vz wo <> 0 -> vdot wi wi = 1 ->
    forall l, incl l (bs_bxdfs b) -> forall i a, nn a -> nn (other_pdfs l i k (fin3 wo) (fin3 wi) a).
  Proof.
    intros Ho Hz Hi. induction l as [|x l IH]; intros Hl i a Ha; [exact Ha|]. cbn [other_pdfs].
    apply IH; [intros y Hy; apply Hl; now right|]. destruct (i =? k)%Z; [exact Ha|].
    apply nn_add; [exact Ha|]. apply (Hg x (Hl x (or_introl eq_refl)) wo Ho Hz). exact Hi.
  Qed.

  Lemma feq_vz (w : rv) : feq (vz (fin3 w)) f0 = Req_bool (vz w) 0. Proof. reflexivity. Qed.

  Lemma good_bsdf_f wo wi : unit3 wo -> unit3 wi -> P (bsdf_f b wo wi) /\ nn (bsdf_pdf b wo wi).
  Proof.
    intros (o & -> & Ho) (i & -> & Hi). unfold bsdf_f, bsdf_pdf. rewrite !(world_to_local_fin b s (vcross n s) n) by exact Hf.
    pose proof (rW_dot s n Hs Hn Hsn o o) as Wo. pose proof (rW_dot s n Hs Hn Hsn i i) as Wi. rewrite Ho in Wo. rewrite Hi in Wi.
    set (wo := rW s (vcross n s) n o) in *. set (wi := rW s (vcross n s) n i) in *. rewrite feq_vz.
    destruct (Req_bool (vz wo) 0) eqn:Z; rb.
    - split; [apply (like_0 HP)|]. destruct (_ =? 0)%Z; apply nn_f0.
    - split; [apply good_sum; auto; [apply incl_refl|apply (like_0 HP)]|].
      destruct (Z.of_nat (length (bs_bxdfs b)) =? 0)%Z eqn:N; [apply nn_f0|]. apply Z.eqb_neq in N.
      apply nn_div; [|apply IZR_lt; lia]. apply good_pdfs; auto; [apply incl_refl|apply nn_f0].
  Qed.

  Lemma good_bsdf_sample wo u wi f pdf flag : (Z.of_nat (length (bs_bxdfs b)) < 2 ^ 64)%Z -> unit3 wo -> in_unit (px u) -> in_unit (py u) ->
    bsdf_sample_f b wo u = Ok (wi, f, pdf, flag) -> feq pdf f0 = false -> (exists d, wi = fin3 d /\ vdot d d = 1 /\ vdot d n <> 0) /\ P f /\ nn pdf.
  Proof.
    intros Hlen (o & -> & Ho) U1 U2. unfold bsdf_sample_f. rewrite (world_to_local_fin b s (vcross n s) n) by exact Hf.
    pose proof (rW_dot s n Hs Hn Hsn o o) as Wo. rewrite Ho in Wo. set (wo := rW s (vcross n s) n o) in *.
    assert (No : no_sample = (wi, f, pdf, flag) -> feq pdf f0 = false -> False).
    { unfold no_sample. intros E. assert (E' : pdf = f0) by congruence. rewrite E'. unfold f0. xsimp. cbn [xeq]. rewrite Req_bool_true; congruence. }
    destruct (Z.of_nat (length (bs_bxdfs b)) =? 0)%Z eqn:N. { intros E Pz. exfalso. apply No; congruence. }
    apply Z.eqb_neq in N. set (k := bsdf_pick _ _). destruct (idx (bs_bxdfs b) k) as [x| |] eqn:Ex; cbn [rbind]; try discriminate.
    assert (Hx : In x (bs_bxdfs b)).
    { unfold idx in Ex. destruct (k <? 0)%Z; [discriminate|]. destruct (nth_error _ _) eqn:En; [|discriminate]. apply nth_error_In in En. congruence. }
    rewrite feq_vz. destruct (Req_bool (vz wo) 0) eqn:Z; rb. { intros E Pz. exfalso. apply No; congruence. }
    destruct (in_unit_fin _ U1) as (a & Ea & Ha). destruct (in_unit_fin _ U2) as (c & Ec & Hc). rewrite Ea, Ec.
    destruct (C51_exact (Z.of_nat (length (bs_bxdfs b))) a ltac:(lia) Ha) as (k' & _ & _ & _ & Er & R). rewrite Er.
    destruct (Hg x Hx wo Wo Z) as [G1 G2]. destruct (G2 _ c R Hc) as (w & g & p & Es & D). rewrite Es.
    destruct (feq p f0) eqn:P0. { intros E Pz. exfalso. apply No; congruence. }
    destruct D as [-> | ((i & -> & Hi & Zi) & Ng & Np)]. { exfalso. revert P0. unfold f0. xsimp. cbn [xeq]. rewrite Req_bool_true; congruence. }
    rewrite (local_to_world_fin b s (vcross n s) n) by exact Hf. pose proof (rL_dot s n Hs Hn Hsn i i) as Ui. rewrite Hi in Ui.
    assert (Dz : vdot (rL s (vcross n s) n i) n = vz i).
    { assert (S2 : vdot (vcross n s) n = 0) by (unfold vdot, vcross; vproj; ring). unfold rL. rewrite !vdot_add_l, !vdot_scale_l, Hsn, S2, Hn. ring. }
    assert (C : forall g' p', (P g' /\ nn p') ->
      Ok (fin3 (rL s (vcross n s) n i), g', if (1 <? Z.of_nat (length (bs_bxdfs b)))%Z then fdiv p' (fofZ (Z.of_nat (length (bs_bxdfs b)))) else p', bx_flag x) = Ok (wi, f, pdf, flag) ->
      (exists d, wi = fin3 d /\ vdot d d = 1 /\ vdot d n <> 0) /\ P f /\ nn pdf).
    { intros g' p' [G Np'] E. injection E as <- <- <- _. split; [exists (rL s (vcross n s) n i); split; [reflexivity|]; split; [exact Ui|]; rewrite Dz; exact Zi|]. split; [exact G|].
      destruct (1 <? _)%Z; [|exact Np']. apply nn_div; [exact Np'|]. apply IZR_lt. lia. }
    destruct (_ && _); intros E Pz; (eapply C; [|exact E]); [|auto].
    split; [apply good_sum; auto; [apply incl_refl|apply (like_0 HP)]|apply good_others; auto; apply incl_refl].
  Qed.
End B.

(** ** the components *)
Lemma good_lambertian r : P r -> good_bx (lambertian r).
Proof.
  intros Hr wo Ho Hz. pose proof PI_RGT_0 as Ppi. split.
  - intros wi Hi. cbn [lambertian bx_f bx_pdf]. split.
    + unfold lamb_f. apply (like_divs HP); [exact Hr|exists PI; split; [reflexivity|lra]|]. intros E. injection E. lra.
    + unfold lamb_pdf. destruct (same_hemisphere _ _); [|apply nn_f0]. apply nn_div; [|lra]. exists (Rabs (vz wi)). split; [reflexivity|apply Rabs_pos].
  - intros a b Ha Hb. destruct (like_nn HP _ Hr) as (r' & Er & R). rewrite Er in *. destruct (C53_lambertian r' wo a b Hz ltac:(lra) ltac:(lra)) as (w & f & p & E & Ef & Ep & U & _).
    exists (fin3 w), (fin3 f), (XFin p). split; [exact E|]. destruct (Req_dec (vz w) 0) as [Zw|Zw].
    { left. rewrite <- Ep. cbn [lambertian bx_pdf]. unfold lamb_pdf. rewrite same_hemisphere_fin, Zw, Rlt_bool_false by lra. reflexivity. }
    right. split; [exists w; split; [reflexivity|]; split; [now apply vnorm_1_dot|exact Zw]|]. split.
    + rewrite <- Ef. cbn [lambertian bx_f]. unfold lamb_f. apply (like_divs HP); [exact Hr|exists PI; split; [reflexivity|lra]|]. intros E'. injection E'. lra.
    + rewrite <- Ep. cbn [lambertian bx_pdf]. unfold lamb_pdf. destruct (same_hemisphere _ _); [|apply nn_f0]. apply nn_div; [|lra].
      exists (Rabs (vz w)). split; [reflexivity|apply Rabs_pos].
Qed.

Definition good_fresnel (fr : XR -> V3 XR) : Prop := forall c, P (fr (XFin c)).

Lemma good_specular r fr : P r -> good_fresnel fr -> good_bx (specular_reflection r fr).
Proof.
  intros Hr Hf wo Ho Hz. split.
  - intros wi Hi. split; [apply (like_0 HP)|apply nn_f0].
  - intros a b Ha Hb. cbn [specular_reflection bx_sample_f]. unfold sr_sample. do 3 eexists. split; [reflexivity|]. right.
    split; [exists (mkV3 (- vx wo) (- vy wo) (vz wo)); split; [reflexivity|]; split; [revert Ho; unfold vdot; vproj; lra|exact Hz]|].
    split; [|exists 1; split; [reflexivity|lra]]. apply (like_divs HP); [apply (like_mul HP); [exact Hr|apply Hf]| |].
    + exists (Rabs (vz wo)). split; [reflexivity|apply Rabs_pos].
    + change (abs_cos_theta _) with (XFin (Rabs (vz wo))). intros E. injection E. now apply Rabs_no_R0.
Qed.

Lemma good_noop : good_fresnel fresnel_noop.
Proof. intros c. apply like_of. exists 1. split; [reflexivity|lra]. Qed.
Lemma good_dielectric a b : 0 < a -> 0 < b -> good_fresnel (fresnel_dielectric (XFin a) (XFin b)).
Proof. intros Ha Hb c. apply like_of. destruct (C56_range c a b Ha Hb) as (r & E & R). exists r. split; [exact E|lra]. Qed.

Lemma good_channel c e k : metal_channel e k -> pos (cond (fabs (XFin c)) (XFin 1) (XFin e) (XFin k)).
Proof.
  intros (He & Hk & N). pose proof (Rabs_pos c) as Pc.
  assert (E : cond (fabs (XFin c)) (XFin 1) (XFin e) (XFin k) = cond (XFin (rclamp (Rabs c) (-1) 1)) (XFin 1) (XFin e) (XFin k)).
  { unfold cond. assert (Q : clamp (fabs (XFin c)) (fneg f1) f1 = clamp (XFin (rclamp (Rabs c) (-1) 1)) (fneg f1) f1).
    { rewrite x_f1. xsimp. cbn [xabs xneg]. rewrite !x_clamp. f_equal. replace (- (1)) with (-1) by lra. symmetry. apply rclamp_id. apply rclamp_in. lra. }
    rewrite Q. reflexivity. }
  rewrite E. assert (B : 0 <= rclamp (Rabs c) (-1) 1 <= 1).
  { pose proof (rclamp_in (Rabs c) (-1) 1 ltac:(lra)). split; [|lra]. unfold rclamp. rewrite Rlt_bool_false by lra. destruct (Rlt_bool 1 _); lra. }
  destruct (cond_pos (rclamp (Rabs c) (-1) 1) 1 e k ltac:(lra) He Hk B) as (r & Er & Hr); [intros (A1 & A2); destruct N; auto|].
  rewrite Er. exists r. split; [reflexivity|lra].
Qed.

Lemma good_conductor eta k : metal eta k -> good_fresnel (fresnel_conductor (spectrum_of f1) eta k).
Proof.
  intros (e & q & -> & -> & Hx & Hy & Hz) c. rewrite conductor_channels. unfold fin3, spectrum_of. vproj. rewrite x_f1.
  destruct (good_channel c _ _ Hx) as (x & Ex & X). destruct (good_channel c _ _ Hy) as (y & Ey & Y). destruct (good_channel c _ _ Hz) as (z & Ez & Z).
  rewrite Ex, Ey, Ez. apply (like_pos HP). exists (mkV3 x y z). split; [reflexivity|]. vproj. auto.
Qed.

Lemma good_transmission t ea eb : P t -> 0 < ea -> 0 < eb -> good_bx (specular_transmission t (XFin ea) (XFin eb)).
Proof.
  intros Ht Ha Hb wo Ho Hz. split.
  - intros wi Hi. split; [apply (like_0 HP)|apply nn_f0].
  - intros a b Ra Rb. destruct (like_nn HP _ Ht) as (t' & Et & _).
    destruct (C55_transmission t' wo ea eb (mkP2 (XFin a) (XFin b)) (proj2 (vnorm_1_dot wo) Ho) Hz Ha Hb) as (wi & f & p & E & P0 & P1).
    rewrite <- Et in E. exists wi, f, p. split; [exact E|].
    set (ei := if Rlt_bool 0 (vz wo) then ea else eb) in *. set (et := if Rlt_bool 0 (vz wo) then eb else ea) in *.
    assert (Pi : 0 < ei) by (unfold ei; destruct (Rlt_bool _ _); lra). assert (Pt : 0 < et) by (unfold et; destruct (Rlt_bool _ _); lra).
    destruct (Rle_lt_dec et (ei * sqrt (vx wo * vx wo + vy wo * vy wo))) as [L|L]; [left; auto|right].
    destruct (P1 L) as (-> & w & -> & Uw & Opp & _). assert (Zw : vz w <> 0) by (intros Q; rewrite Q in Opp; lra).
    split; [exists w; split; [reflexivity|]; split; [now apply vnorm_1_dot|exact Zw]|].
    split; [|exists 1; split; [reflexivity|lra]].
    revert E. cbn [specular_transmission bx_sample_f]. unfold st_sample.
    assert (E1 : (if flt f0 (cos_theta (fin3 wo)) then (XFin ea, XFin eb) else (XFin eb, XFin ea)) = (XFin ei, XFin et)).
    { change (flt f0 (cos_theta (fin3 wo))) with (Rlt_bool 0 (vz wo)). unfold ei, et. now destruct (Rlt_bool _ _). }
    rewrite E1. destruct (refract _ _ _) as [v|]; [|unfold bx_none; intros E; exfalso; assert (Q : f0 = XFin 1) by congruence; rewrite x_f0 in Q; injection Q; lra].
    intros E. assert (Ev : v = fin3 w) by congruence. subst v.
    assert (Ef : v3divs (v3scale (v3divs (v3mul t (v3sub (spectrum_of f1) (fresnel_dielectric (XFin ea) (XFin eb) (cos_theta (fin3 w)))))
        (abs_cos_theta (fin3 w))) (fmul (XFin ei) (XFin ei))) (fmul (XFin et) (XFin et)) = f) by congruence.
    rewrite <- Ef. destruct (C56_range (vz w) ea eb Ha Hb) as (r & Er & Rr).
    apply (like_divs HP); [apply (like_scale HP); [apply (like_divs HP); [apply (like_mul HP); [exact Ht|]| |]|]| |].
    + assert (Q : v3sub (spectrum_of f1) (fresnel_dielectric (XFin ea) (XFin eb) (cos_theta (fin3 w))) = spectrum_of (XFin (1 - r))); [|rewrite Q; apply like_of; exists (1 - r); split; [reflexivity|lra]].
      unfold fresnel_dielectric, cos_theta. change (vz (fin3 w)) with (XFin (vz w)). rewrite Er.
      unfold spectrum_of. rewrite x_f1. change (@mkV3 XR (XFin 1) (XFin 1) (XFin 1)) with (fin3 (mkV3 1 1 1)). change (@mkV3 XR (XFin r) (XFin r) (XFin r)) with (fin3 (mkV3 r r r)).
      rewrite v3sub_fin. reflexivity.
    + exists (Rabs (vz w)). split; [reflexivity|apply Rabs_pos].
    + change (abs_cos_theta _) with (XFin (Rabs (vz w))). intros Q. injection Q. now apply Rabs_no_R0.
    + exists (ei * ei). split; [reflexivity|nra].
    + exists (et * et). split; [reflexivity|nra].
    + xsimp. cbn [xmul]. intros Q. injection Q. nra.
Qed.

Lemma good_microfacet r ax ay fr : P r -> 0 < ax -> 0 < ay -> good_fresnel fr ->
  good_bx (microfacet_reflection r (mkMf (XFin ax) (XFin ay)) fr).
Proof.
  intros Hr Hx Hy Hf wo Ho Hz.
  assert (Nf : forall wi, vdot wi wi = 1 -> P (mr_f r (mkMf (XFin ax) (XFin ay)) fr (fin3 wo) (fin3 wi))).
  { intros wi Hi. unfold mr_f. change (abs_cos_theta (fin3 wo)) with (XFin (Rabs (vz wo))). change (abs_cos_theta (fin3 wi)) with (XFin (Rabs (vz wi))).
    rewrite x_f0. xsimp. cbn [xeq]. rewrite (Req_bool_false (Rabs (vz wo)) 0) by now apply Rabs_no_R0.
    destruct (Req_bool (Rabs (vz wi)) 0) eqn:Z; rb; cbn [orb]; [apply (like_0 HP)|]. rewrite v3add_fin.
    change (xeq (vx (fin3 (vadd wo wi))) (XFin 0)) with (Req_bool (vx (vadd wo wi)) 0). change (xeq (vy (fin3 (vadd wo wi))) (XFin 0)) with (Req_bool (vy (vadd wo wi)) 0).
    change (xeq (vz (fin3 (vadd wo wi))) (XFin 0)) with (Req_bool (vz (vadd wo wi)) 0).
    destruct (_ && _) eqn:B; [apply (like_0 HP)|].
    assert (N : vadd wo wi <> v0).
    { intros E. rewrite E in B. unfold v0 in B. revert B. vproj. rewrite Req_bool_true by reflexivity. discriminate. }
    rewrite v3normalize_fin by exact N. rewrite v3dot_fin.
    destruct (C58_distribution ax ay (vunit (vadd wo wi)) Hx Hy) as (d & Ed & Hd & _). destruct (C58_shadowing ax ay wo wi) as (go & gi & g & _ & _ & Eg & _ & _ & _ & Hg & _).
    cbv zeta in Eg. rewrite Ed, Eg. pose proof (Rabs_pos_lt _ Hz) as P1. assert (P2 : 0 < Rabs (vz wi)) by (pose proof (Rabs_pos (vz wi)); lra).
    apply (like_divs HP); [apply (like_mul HP); [apply (like_scale HP); [apply (like_scale HP); [exact Hr|exists d; auto]|exists g; split; [reflexivity|lra]]|apply Hf]| |].
    + exists (4 * Rabs (vz wo) * Rabs (vz wi)). split; [reflexivity|]. assert (0 < Rabs (vz wo) * Rabs (vz wi)) by (now apply Rmult_lt_0_compat). lra.
    + intros E. injection E. assert (0 < Rabs (vz wo) * Rabs (vz wi)) by (now apply Rmult_lt_0_compat). lra. }
  assert (Np : forall wh, vz wh <> 0 -> 0 < vdot wh wo -> nn (fdiv (mf_pdf (mkMf (XFin ax) (XFin ay)) (fin3 wh)) (fmul (v3dot (fin3 wh) (fin3 wo)) (fofZ 4)))).
  { intros wh Zh Pd. rewrite v3dot_fin. change (fmul (XFin (vdot wh wo)) (fofZ 4)) with (XFin (vdot wh wo * 4)). apply nn_div; [|lra].
    unfold mf_pdf. change (abs_cos_theta (fin3 wh)) with (XFin (Rabs (vz wh))). apply nn_div; [|now apply Rabs_pos_lt].
    destruct (C58_distribution ax ay wh Hx Hy) as (d & Ed & Hd & _). rewrite Ed. exists d. auto. }
  split.
  - intros wi Hi. cbn [microfacet_reflection bx_f bx_pdf]. split; [now apply Nf|]. unfold mr_pdf. rewrite same_hemisphere_fin.
    destruct (Rlt_bool 0 (vz wo * vz wi)) eqn:S; rb; cbn [negb]; [|apply nn_f0]. rewrite v3add_fin.
    assert (Zs : vz (vadd wo wi) <> 0) by (unfold vadd; vproj; nra).
    assert (N : vadd wo wi <> v0) by (intros E; apply Zs; rewrite E; reflexivity). rewrite v3normalize_fin by exact N.
    pose proof (vnorm_pos _ N) as Pn. assert (Pi : 0 < / vnorm (vadd wo wi)) by (now apply Rinv_0_lt_compat).
    apply Np.
    + unfold vunit, vscale. vproj. apply Rmult_integral_contrapositive_currified; [lra|exact Zs].
    + unfold vunit. rewrite vdot_scale_l. apply Rmult_lt_0_compat; [exact Pi|].
      assert (E : 2 * vdot (vadd wo wi) wo = vdot (vadd wo wi) (vadd wo wi)).
      { revert Ho Hi. unfold vdot, vadd. vproj. intros. lra. }
      pose proof (vdot_self_pos _ N). lra.
  - intros a b Ra Rb. cbn [microfacet_reflection bx_sample_f]. unfold mr_sample. rewrite feq_vz, (Req_bool_false (vz wo) 0) by exact Hz.
    destruct (sample_wh_fin ax ay a b wo Hx Hy Ra Hz) as (t & phi & wh & _ & _ & E & Uh & Sh & _). rewrite E, reflect_fin.
    set (wi := vadd (vscale (-1) wo) (vscale (2 * vdot wo wh) wh)). rewrite same_hemisphere_fin.
    assert (Ui : vdot wi wi = 1).
    { unfold wi. transitivity (vdot wo wo + 4 * (vdot wo wh * vdot wo wh) * (vdot wh wh - 1)); [unfold vdot, vadd, vscale; vproj; ring|rewrite Ho, Uh; ring]. }
    destruct (Rlt_bool 0 (vz wo * vz wi)) eqn:S; rb; cbn [negb]; do 3 eexists; (split; [reflexivity|]); [right|left; reflexivity].
    split; [exists wi; split; [reflexivity|]; split; [exact Ui|intros Zi; rewrite Zi in S; lra]|]. split; [now apply Nf|].
    assert (Zh : vz wh <> 0) by nra. apply Np; [exact Zh|].
    assert (Ez : vz wo * vz wi = - (vz wo * vz wo) + 2 * vdot wo wh * (vz wo * vz wh)) by (unfold wi, vadd, vscale; vproj; ring).
    rewrite vdot_comm. assert (0 < vz wo * vz wo) by nra. nra.
Qed.

(** ** the materials *)
Definition good_bsdf {T} (i : interaction XR T) (b : bsdf XR) : Prop :=
  (exists l, b = bsdf_adds (bsdf_new i) l /\ (length l <= 2)%nat /\ forall x, In x l -> good_bx x).

Variable Q : V3 XR -> Prop.
Hypothesis HQ : forall v, Q v -> P (spectrum_clamp v f0 finf).
Lemma tex_like {T} (t : texture XR T (V3 XR)) i v : yields Q t -> tex_clamped t i = Ok v -> P v.
Proof.
  intros H. unfold tex_clamped. destruct (t i) as [u| |] eqn:E; cbn [rbind]; try discriminate. intros Ev.
  assert (Eq : v = spectrum_clamp u f0 finf) by congruence. rewrite Eq. apply HQ, (H i u E).
Qed.

Lemma feq_0 r : feq (XFin r) f0 = Req_bool r 0. Proof. reflexivity. Qed.

Lemma usual_good {T} (m : material XR T) i b : usual_of Q m -> m i = Ok b -> good_bsdf i b.
Proof.
  assert (One : forall (c : bool) x, good_bx x -> good_bsdf i (if c then bsdf_add (bsdf_new i) x else bsdf_new i)).
  { intros c x Hx. destruct c; [exists [x]|exists []]; (split; [reflexivity|]); (split; [cbn; lia|]); [|intros y []]. intros y [<-|[]]. exact Hx. }
  assert (Two : forall (c d : bool) x y, good_bx x -> good_bx y ->
    good_bsdf i (if d then bsdf_add (if c then bsdf_add (bsdf_new i) x else bsdf_new i) y else if c then bsdf_add (bsdf_new i) x else bsdf_new i)).
  { intros c d x y Hx Hy. destruct d; [|now apply One]. destruct c; [exists [x; y]|exists [y]]; (split; [reflexivity|]); (split; [cbn; lia|]); intros z Hz; cbn in Hz; intuition (subst; auto). }
  intros [kd H1|kr H1|kd ks ro H1 H2 H3|r e k ru rv H1 H2 H3 H4|r e k ru rv H1 H2 H3 H4|kr kt e ru rv H1 H2 H3 H4 H5].
  - unfold mat_lambertian. destruct (tex_clamped kd i) as [v| |] eqn:Ev; cbn [rbind]; try discriminate. intros E.
    apply (tex_like _ _ _ H1) in Ev. apply (f_equal (fun q => match q with Ok z => z | _ => b end)) in E. rewrite <- E. apply One. now apply good_lambertian.
  - unfold mat_mirror. destruct (tex_clamped kr i) as [v| |] eqn:Ev; cbn [rbind]; try discriminate. intros E.
    apply (tex_like _ _ _ H1) in Ev. apply (f_equal (fun q => match q with Ok z => z | _ => b end)) in E. rewrite <- E. apply One. apply good_specular; [exact Ev|apply good_noop].
  - unfold mat_plastic. destruct (tex_clamped kd i) as [v| |] eqn:Ev; cbn [rbind]; try discriminate. destruct (tex_clamped ks i) as [w| |] eqn:Ew; cbn [rbind]; try discriminate.
    apply (tex_like _ _ _ H1) in Ev. apply (tex_like _ _ _ H2) in Ew.
    assert (Gf : good_fresnel (fresnel_dielectric (flit 15 1) f1)).
    { assert (E15 : flit (F := XR) 15 1 = XFin (15 / 10)) by (unfold flit; xsimp; rewrite xdiv_fin by (apply not_0_IZR; discriminate); reflexivity).
      rewrite E15, x_f1. apply good_dielectric; lra. }
    destruct (negb (is_black w)); cbn [negb].
    + destruct (ro i) as [q| |] eqn:Eq; cbn [rbind]; try discriminate. intros E. apply (f_equal (fun q => match q with Ok z => z | _ => b end)) in E. rewrite <- E.
      apply (Two _ true); [now apply good_lambertian|]. destruct (H3 i q Eq) as (rq & -> & Hq). rewrite feq_0. destruct (Req_bool rq 0) eqn:Z; rb; [now apply good_specular|].
      apply good_microfacet; auto; lra.
    + intros E. apply (f_equal (fun q => match q with Ok z => z | _ => b end)) in E. rewrite <- E. apply One. now apply good_lambertian.
  - unfold mat_metal. destruct (tex_clamped r i) as [v| |] eqn:Ev; cbn [rbind]; try discriminate. apply (tex_like _ _ _ H1) in Ev.
    destruct (e i) as [ve| |] eqn:Ee; cbn [rbind]; try discriminate. destruct (k i) as [vk| |] eqn:Ek; cbn [rbind]; try discriminate.
    destruct (ru i) as [u| |] eqn:Eu; cbn [rbind]; try discriminate. destruct (rv i) as [w| |] eqn:Ew; cbn [rbind]; try discriminate.
    intros E. apply (f_equal (fun q => match q with Ok z => z | _ => b end)) in E. rewrite <- E. pose proof (good_conductor _ _ (H2 _ _ _ Ee Ek)) as Gf.
    destruct (H3 _ _ Eu) as (a & -> & Ha). destruct (H4 _ _ Ew) as (c & -> & Hc). rewrite feq_0, Req_bool_false by lra. cbn [andb].
    apply (One true). now apply good_microfacet.
  - unfold mat_metal. destruct (tex_clamped r i) as [v| |] eqn:Ev; cbn [rbind]; try discriminate. apply (tex_like _ _ _ H1) in Ev.
    destruct (e i) as [ve| |] eqn:Ee; cbn [rbind]; try discriminate. destruct (k i) as [vk| |] eqn:Ek; cbn [rbind]; try discriminate.
    destruct (ru i) as [u| |] eqn:Eu; cbn [rbind]; try discriminate. destruct (rv i) as [w| |] eqn:Ew; cbn [rbind]; try discriminate.
    intros E. apply (f_equal (fun q => match q with Ok z => z | _ => b end)) in E. rewrite <- E. pose proof (good_conductor _ _ (H2 _ _ _ Ee Ek)) as Gf.
    rewrite (H3 _ _ Eu), (H4 _ _ Ew), feq_0, Req_bool_true by lra. cbn [andb].
    apply (One true). now apply good_specular.
  - unfold mat_glass. destruct (e i) as [ve| |] eqn:Ee; cbn [rbind]; try discriminate.
    destruct (tex_clamped kr i) as [v| |] eqn:Ev; cbn [rbind]; try discriminate. apply (tex_like _ _ _ H1) in Ev.
    destruct (tex_clamped kt i) as [vt| |] eqn:Et; cbn [rbind]; try discriminate. apply (tex_like _ _ _ H2) in Et.
    destruct (ru i) as [u| |] eqn:Eu; cbn [rbind]; try discriminate. destruct (rv i) as [w| |] eqn:Ew; cbn [rbind]; try discriminate.
    destruct (H3 _ _ Ee) as (a & -> & Ha).
    rewrite (H4 _ _ Eu), (H5 _ _ Ew), feq_0, Req_bool_true by lra. cbn [andb].
    intros E. apply (f_equal (fun q => match q with Ok z => z | _ => b end)) in E. rewrite <- E. rewrite x_f1.
    apply Two; [apply good_specular; [exact Ev|apply good_dielectric; lra]|apply good_transmission; auto; lra].
Qed.

End P.

Lemma one_sided_ok v vn p : one_sided vn -> normals_ok v vn p.
Proof.
  destruct vn as [w|]; [|exact (fun H => H)]. intros (up & U0 & U1 & U2) b0 b1 b2 (B0 & B1 & B2 & S) _ E.
  assert (D : vdot (comb w b0 b1 b2) up = b0 * vdot (t0 w) up + b1 * vdot (t1 w) up + b2 * vdot (t2 w) up) by (unfold comb, vdot, vadd, vscale; vproj; ring).
  rewrite E in D. unfold vdot at 1, v0 in D. revert D. vproj. intros D.
  set (x := vdot (t0 w) up) in *. set (y := vdot (t1 w) up) in *. set (z := vdot (t2 w) up) in *.
  assert (0 <= b0 * x) by (apply Rmult_le_pos; lra). assert (0 <= b1 * y) by (apply Rmult_le_pos; lra). assert (0 <= b2 * z) by (apply Rmult_le_pos; lra).
  assert (b0 * x = 0) by lra. assert (b1 * y = 0) by lra. assert (b2 * z = 0) by lra.
  assert (b0 = 0) by (apply Rmult_integral in H2 as [?|?]; lra). assert (b1 = 0) by (apply Rmult_integral in H3 as [?|?]; lra). assert (b2 = 0) by (apply Rmult_integral in H4 as [?|?]; lra). lra.
Qed.

Lemma last_hit_short {F T} {FO : FOps F} (sh : T -> shape F T) (l0 : list T) r0 l : incl l l0 -> forall r i0 o r',
  shortened sh l0 r0 r -> last_hit sh l r i0 = Ok (o, r') ->
  o = i0 \/ exists s j t q, In s l0 /\ shortened sh l0 r0 q /\ sh_intersect (sh s) q = Ok (Some (j, t)) /\ o = Some (i_with_shape j (Some s)).
Proof.
  induction l as [|s l IH]; intros Hl r i0 o r' Hr; cbn [last_hit]; [intros [= <- _]; now left|].
  unfold shape_intersect. destruct (sh_intersect (sh s) r) as [[[i t]|]| |] eqn:E; cbn [rbind]; try discriminate; intros H.
  - assert (Hs : In s l0) by (apply Hl; now left).
    assert (Hr2 : shortened sh l0 r0 (with_tmax r t)).
    { assert (Eo : forall q, shortened sh l0 r0 q -> r_o q = r_o r0 /\ r_d q = r_d r0) by (intros q Hq; induction Hq; auto).
      unfold with_tmax. destruct (Eo r Hr) as [-> ->]. econstructor; eauto. }
    destruct (IH (fun x Hx => Hl x (or_intror Hx)) _ _ _ _ Hr2 H) as [-> |D]; [|now right]. right. exists s, i, t, r. auto.
  - apply (IH (fun x Hx => Hl x (or_intror Hx)) _ _ _ _ Hr H).
Qed.

Lemma black_zero : is_black (v3zero : V3 XR) = true.
Proof. unfold is_black, v3zero. vproj. rewrite x_f0. xsimp. cbn [xeq]. now rewrite !Req_bool_true by reflexivity. Qed.

Section Sc.
  Context {T : Type}.
  Variables (ob : T -> object T) (bd : builder XR T) (sc : scene XR T (container XR T)).
  Hypothesis H : triangle_scene ob bd sc.
  Let l := bd_shapes bd ++ bd_areas bd.

  Lemma scene_reports r i : c_intersect (sc_shapes sc) r = Ok (Some i) ->
    exists s j t q, In s l /\ shortened (ob_shape ob) l r q /\ sh_intersect (ob_shape ob s) q = Ok (Some (j, t)) /\ i = i_with_shape j (Some s).
  Proof.
    intros E. destruct (ts_made _ _ _ H) as [M|(srt & m & md & SO & M)]; unfold construct in M; fold l in M.
    - destruct (scene_bbox _ _ _) as [bb| |]; cbn [rbind] in M; try discriminate.
      destruct (simple_new (ob_shape ob) l) as [c| |] eqn:Ec; cbn [rbind] in M; try discriminate.
      apply (f_equal (fun q => match q with Ok z => sc_shapes z | _ => sc_shapes sc end)) in M. cbn [sc_shapes] in M. rewrite <- M in E. cbn [simple_container c_intersect] in E.
      unfold simple_intersect in E. assert (Es : si_shapes c = l).
      { unfold simple_new in Ec. destruct (bbox_of_shapes (ob_shape ob) l); cbn [rbind] in Ec; try discriminate. injection Ec as <-. reflexivity. }
      rewrite Es in E. destruct (bbox_intersect _ _); [|discriminate]. destruct (last_hit (ob_shape ob) l r None) as [[o r']| |] eqn:El; cbn [rbind] in E; try discriminate.
      destruct (last_hit_short (ob_shape ob) l r l (incl_refl l) r None o r' (short_refl _ _ _) El) as [D|(s & j & t & q & Hs & Hq & Ei & D)]; [congruence|].
      exists s, j, t, q. split; [exact Hs|]. split; [exact Hq|]. split; [exact Ei|]. congruence.
    - destruct (scene_bbox _ _ _) as [bb| |]; cbn [rbind] in M; try discriminate.
      destruct (kd_new (ob_shape ob) srt m l md) as [kd| |] eqn:Ek; cbn [rbind] in M; try discriminate.
      apply (f_equal (fun q => match q with Ok z => sc_shapes z | _ => sc_shapes sc end)) in M. cbn [sc_shapes] in M. rewrite <- M in E. cbn [kd_container c_intersect] in E.
      apply (C45_real_hits XR T _ (ob_shape ob) srt m l md kd r SO Ek). exact E.
  Qed.

  Lemma shortened_real o d tmax q : d <> v0 -> xis_nan tmax = false ->
    shortened (ob_shape ob) l (mkRay (fin3 o) (fin3 d) tmax) q -> exists tq, q = mkRay (fin3 o) (fin3 d) tq /\ xis_nan tq = false.
  Proof.
    intros Hd Hn S. induction S as [|q s i t S IH Hs E]; [eauto|]. destruct IH as (tq & -> & Hq). cbn [r_o r_d]. exists t. split; [reflexivity|].
    destruct (C72_triangle T _ _ _ o d tq i t Hd Hq E) as (p & e & x & _ & _ & -> & _). reflexivity.
  Qed.

  Lemma met_facts i : met sc i -> exists s, In s l /\ i_shape i = Some s /\ fin_i i /\ unit3 (i_wo i) /\ has_frame i.
  Proof.
    intros ([ro rd tmax] & (o & Eo) & (d & Ed & Ud) & Hn & E). cbn [r_o r_d r_tmax] in *. subst ro rd.
    destruct (scene_reports _ _ E) as (s & j & t & q & Hs & Hq & Ei & ->).
    assert (Hd : d <> v0) by (intros Z; rewrite Z in Ud; unfold vdot, v0 in Ud; revert Ud; vproj; lra).
    destruct (shortened_real o d tmax q Hd Hn Hq) as (tq & -> & Hnq).
    destruct (C72_triangle T _ _ _ o d tq j t Hd Hnq Ei) as (p & e & x & Ep & Ee & _ & Ew & Fr).
    destruct (Fr (one_sided_ok _ _ _ (proj1 (ts_objects _ _ _ H s Hs)))) as (n & En & Un & (sn & du & Es & Edu & Us & Hdu & Pd)).
    exists s. split; [exact Hs|]. split; [reflexivity|]. split.
    - repeat split; cbn; [exists p|exists e|exists n|exists sn|exists (vscale (-1) d)]; assumption.
    - split; [exists (vscale (-1) d); split; [exact Ew|]; rewrite vdot_scale_l, vdot_scale_r, Ud; ring|]. exists sn, du. auto.
  Qed.

  Lemma met_bsdf_of P (Q : V3 XR -> Prop) (HP : lightlike P) (HQ : forall v, Q v -> P (spectrum_clamp v f0 finf)) i t b :
    met sc i -> i_shape i = Some t -> usual_of Q (o_mat (ob t)) -> sf_scatter (ob_surf ob t) i = Ok b ->
    exists s n, i_sn i = fin3 n /\ vdot s s = 1 /\ vdot n n = 1 /\ vdot s n = 0 /\ frame_is b s (vcross n s) n /\ (length (bs_bxdfs b) <= 2)%nat /\
      (forall x, In x (bs_bxdfs b) -> good_bx P x) /\ unit3 (i_wo i).
  Proof.
    intros Hi Ht Hu Hb. destruct (met_facts i Hi) as (s & Hs & Es & _ & Uw & (sn & du & E1 & E2 & Us & Hdu & Pd)).
    assert (t = s) by congruence. subst s. destruct (usual_good P HP Q HQ _ _ _ Hu Hb) as (lx & -> & Hl & Hg).
    destruct (bsdf_adds_fields lx (bsdf_new i)) as (F1 & F2 & F3 & _ & F5). cbn [bsdf_new bs_bxdfs app] in F5.
    pose proof (bsdf_new_frame i sn du E1 E2 Hdu) as Fr. exists (vunit du), sn. split; [exact E1|].
    split; [now apply vunit_dot|]. split; [now apply vnorm_1_dot|]. split; [unfold vunit; rewrite vdot_scale_l, Pd; ring|].
    split; [destruct Fr as (A & B & C); unfold frame_is; rewrite F1, F2, F3; auto|]. rewrite F5. auto.
  Qed.
  Lemma met_bsdf i t b : met sc i -> i_shape i = Some t -> sf_scatter (ob_surf ob t) i = Ok b ->
    exists s n, vdot s s = 1 /\ vdot n n = 1 /\ vdot s n = 0 /\ frame_is b s (vcross n s) n /\ (length (bs_bxdfs b) <= 2)%nat /\
      (forall x, In x (bs_bxdfs b) -> good_bx nn3 x) /\ unit3 (i_wo i).
  Proof.
    intros Hi Ht Hb. destruct (met_facts i Hi) as (s & Hs & Es & _). assert (t = s) by congruence. subst s.
    destruct (met_bsdf_of nn3 fin nn3_like clamp_nn3 i t b Hi Ht (proj2 (ts_objects _ _ _ H t Hs)) Hb) as (s & n & _ & R). exists s, n. exact R.
  Qed.
  Lemma even_kept : (forall t, In t l -> usual_of even (o_mat (ob t))) -> colours_kept (ob_surf ob) sc.
  Proof.
    intros He i t b u wi f pdf flag Hi Ht Hb U1 U2 E P0 Bf. destruct (met_facts i Hi) as (s & Hs & Es & _). assert (t = s) by congruence. subst s.
    destruct (met_bsdf_of even3 even even3_like clamp_even i t b Hi Ht (He t Hs) Hb) as (s & n & En & Us & Un & Usn & Fr & Hl & Hg & Uo).
    destruct (good_bsdf_sample even3 even3_like b s n Us Un Usn Fr Hg (i_wo i) u wi f pdf flag ltac:(lia) Uo U1 U2 E P0) as ((d & -> & _ & Dn) & [Pf|Zf] & _).
    - split; [exact Pf|]. exists d, n. auto.
    - rewrite Zf in Bf. rewrite black_zero in Bf. discriminate.
  Qed.

  Lemma emitted_nn t : In t l -> nn3 (o_l (ob t)).
  Proof.
    intros Ht. apply in_app_or in Ht as [Ht|Ht]; [rewrite (ts_shapes _ _ _ H t Ht); apply nn3_zero|apply (ts_areas _ _ _ H t Ht)].
  Qed.

  Lemma scene_lights q : In q (sc_lights sc) -> (exists f bb, In f (bd_lights bd) /\ q = f bb) \/ (exists a, In a (bd_areas bd) /\ q = area_as_light a (ob_area ob a)).
  Proof.
    assert (C : forall bb, In q (map (fun f => f bb) (bd_lights bd) ++ map (fun a => area_as_light a (ob_area ob a)) (bd_areas bd)) ->
      (exists f bb, In f (bd_lights bd) /\ q = f bb) \/ (exists a, In a (bd_areas bd) /\ q = area_as_light a (ob_area ob a))).
    { intros bb Hq. apply in_app_or in Hq as [Hq|Hq]; apply in_map_iff in Hq as (x & <- & Hx); [left|right]; eauto. }
    intros Hq. destruct (ts_made _ _ _ H) as [M|(srt & m & md & SO & M)]; unfold construct in M; fold l in M.
    - destruct (scene_bbox _ _ _) as [bb| |]; cbn [rbind] in M; try discriminate.
      destruct (simple_new (ob_shape ob) l) as [c| |] eqn:Ec; cbn [rbind] in M; try discriminate.
      apply (f_equal (fun q => match q with Ok z => sc_lights z | _ => sc_lights sc end)) in M. cbn [sc_lights] in M. rewrite <- M in Hq. apply (C bb Hq).
    - destruct (scene_bbox _ _ _) as [bb| |]; cbn [rbind] in M; try discriminate.
      destruct (kd_new (ob_shape ob) srt m l md) as [kd| |] eqn:Ek; cbn [rbind] in M; try discriminate.
      apply (f_equal (fun q => match q with Ok z => sc_lights z | _ => sc_lights sc end)) in M. cbn [sc_lights] in M. rewrite <- M in Hq. apply (C bb Hq).
  Qed.

  Lemma area_pdf_nn a i w : In a (bd_areas bd) -> nn (sh_pdf (ob_shape ob a) i w).
  Proof.
    intros Ha. destruct (ts_areas _ _ _ H a Ha) as [_ Na]. destruct (C40_area_pdf T (o_v (ob a)) (option_map ftri (o_vn (ob a))) (o_rev (ob a)) i w) as [_ E].
    cbv zeta in E. exists (/ tri_area (o_v (ob a))). split; [exact (E Na)|]. rewrite tri_area_cross in *. left. apply Rinv_0_lt_compat.
    pose proof (vnorm_nonneg (tnormal (o_v (ob a)))). lra.
  Qed.

  Lemma triangle_scene_light q i u wi li pdf v : In q (sc_lights sc) -> met sc i -> in_unit (px u) -> in_unit (py u) ->
    l_sample_li q i u = Ok (wi, li, pdf, v) -> is_black li = false -> unit3 wi /\ nn3 li /\ nn pdf.
  Proof.
    intros Hq Hi U1 U2 E B. destruct (met_facts i Hi) as (_ & _ & _ & ((p & Ep) & _) & _).
    destruct (scene_lights q Hq) as [(f & bb & Hf & ->)|(a & Ha & ->)].
    - destruct (ts_lights _ _ _ H f Hf) as (c & w & -> & Hc & Hw). revert E. unfold distant, distant_as_light. cbn [l_sample_li]. unfold distant_sample_li, distant_pre.
      destruct (bbox_bounding_sphere bb) as [ce ra]. cbn [dl_w dl_l distant_new]. rewrite v3normalize_fin by exact Hw. intros E.
      assert (W : wi = fin3 (vunit w) /\ li = c /\ pdf = f1) by (injection E; auto). destruct W as (-> & -> & ->).
      split; [exists (vunit w); split; [reflexivity|now apply vunit_dot]|]. split; [exact Hc|]. exists 1. split; [reflexivity|lra].
    - cbn [area_as_light l_sample_li] in E. unfold area_sample_li in E. cbn [ob_area al_shape] in E. unfold sh_sample_ref in E. cbn [ob_shape triangle_shape sh_sample rbind] in E.
      set (ps := tr_sample (fin_tri (o_v (ob a)) (o_vn (ob a)) (o_rev (ob a))) u) in *.
      set (w := v3normalize (v3sub (i_p ps) (i_p i))) in *.
      assert (W : wi = w /\ li = area_l (ob_area ob a) ps (v3neg w) /\ pdf = sh_pdf (ob_shape ob a) i w) by (injection E; auto). clear E.
      destruct W as (-> & -> & ->). unfold area_l in B |- *. cbn [ob_area al_l] in *.
      destruct (flt f0 (v3dot (v3neg w) (i_n ps))) eqn:L; [|rewrite black_zero in B; discriminate B].
      split; [|split; [apply (ts_areas _ _ _ H a Ha)|now apply area_pdf_nn]].
      destruct (in_unit_fin _ U1) as (x & Ex & Hx). destruct (in_unit_fin _ U2) as (y & Ey & Hy).
      assert (Ps : exists c, i_p ps = fin3 c).
      { unfold ps, tr_sample. cbn [i_p]. change (tr_v (fin_tri (o_v (ob a)) (o_vn (ob a)) (o_rev (ob a)))) with (ftri (o_v (ob a))). rewrite Ex, Ey, x_f1. xsimp. rewrite xsqrt_fin by lra. cbn [xsub xmul].
        rewrite bary_fin. eexists. reflexivity. }
      destruct Ps as (c & Ec). unfold w. rewrite Ec, Ep, v3sub_fin. destruct (v0_dec (vsub c p)) as [Z|Z].
      + exfalso. revert L. unfold w. rewrite Ec, Ep, v3sub_fin, Z.
        assert (N : v3normalize (fin3 v0) = mkV3 XNaN XNaN XNaN).
        { unfold v3normalize. rewrite v3length_fin. assert (E0 : vnorm v0 = 0) by (unfold vnorm, vdot, v0; vproj; rewrite !Rmult_0_l, !Rplus_0_l; apply sqrt_0). rewrite E0.
          unfold v3divs, fin3, v0. vproj. xsimp. cbn [xdiv]. rewrite !Req_bool_true by reflexivity. reflexivity. }
        rewrite N. unfold v3dot, v3neg. vproj. destruct (vx (i_n ps)), (vy (i_n ps)), (vz (i_n ps)); discriminate.
      + rewrite v3normalize_fin by exact Z. exists (vunit (vsub c p)). split; [reflexivity|now apply vunit_dot].
  Qed.

  Lemma triangle_scene_ok : no_negative_light (ob_surf ob) sc.
  Proof.
    constructor.
    - intros i Hi. destruct (met_facts i Hi) as (_ & _ & _ & F & _). exact F.
    - intros i t w Hi Ht _. destruct (met_facts i Hi) as (s & Hs & Es & _). assert (t = s) by congruence. subst s.
      cbn [ob_surf sf_l]. unfold area_l. destruct (flt _ _); [now apply emitted_nn|apply nn3_zero].
    - intros q i u wi li pdf v Hq Hi U1 U2 E _ B. eapply triangle_scene_light; eauto.
    - intros q i wi Hq Hi Hw. destruct (scene_lights q Hq) as [(f & bb & Hf & ->)|(a & Ha & ->)].
      + destruct (ts_lights _ _ _ H f Hf) as (c & w & -> & _). apply nn_f0.
      + now apply area_pdf_nn.
    - intros i t b wi Hi Ht Hb Hw. destruct (met_bsdf i t b Hi Ht Hb) as (s & n & Hs & Hn & Hsn & Fr & _ & Hg & Uo). now apply (good_bsdf_f nn3 nn3_like b s n).
    - intros i t b u wi f pdf flag Hi Ht Hb U1 U2 E P. destruct (met_bsdf i t b Hi Ht Hb) as (s & n & Hs & Hn & Hsn & Fr & Hl & Hg & Uo).
      destruct (good_bsdf_sample nn3 nn3_like b s n Hs Hn Hsn Fr Hg (i_wo i) u wi f pdf flag) as ((d & -> & Ud & _) & R); auto; [lia|]. split; [exists d; auto|exact R].
  Qed.
End Sc.

(** Scenes of triangles with the library's materials, lights and containers: if the one-dimensional
    samples are never exactly 0, the radiance is finite and not negative.  Missing: samples that are 0 (but see
    the next theorem), rough glass, spheres. *)
Theorem C66_triangles_partial : forall (T ST : Type) (sm : sampler_ops XR ST) (teq : T -> T -> bool) (ob : T -> object T)
    (bd : builder XR T) (sc : scene XR T (container XR T)),
  triangle_scene ob bd sc -> good_samples sm (ob_surf ob) sc ->
  forall fuel s r x s', fin (r_o r) -> unit3 (r_d r) -> xis_nan (r_tmax r) = false ->
    li sm teq (ob_surf ob) sc fuel s r = Ok (x, s') -> nn3 x.
Proof.
  intros T ST sm teq ob bd sc H Hs. apply C66_partial; [|exact Hs]. eapply triangle_scene_ok; eauto.
Qed.
Print Assumptions C66_triangles_partial.

(** If no texture of the scene takes one colour and leaves another, this holds for all samples, 0 included. *)
Theorem C66_even_colours_partial : forall (T ST : Type) (sm : sampler_ops XR ST) (teq : T -> T -> bool) (ob : T -> object T)
    (bd : builder XR T) (sc : scene XR T (container XR T)),
  triangle_scene ob bd sc -> (forall t, In t (bd_shapes bd ++ bd_areas bd) -> usual_of even (o_mat (ob t))) -> unit_samples sm ->
  forall fuel s r x s', fin (r_o r) -> unit3 (r_d r) -> xis_nan (r_tmax r) = false ->
    li sm teq (ob_surf ob) sc fuel s r = Ok (x, s') -> nn3 x.
Proof.
  intros T ST sm teq ob bd sc H He [H1 H2]. apply (C66_triangles_partial T ST sm teq ob bd sc H). constructor; [exact H1|exact H2|]. right.
  apply (even_kept ob bd sc H He).
Qed.
Print Assumptions C66_even_colours_partial.

(** two grey Lambertian triangles, one of them emitting, with a distant light, and a sampler that
    always returns 1/2 *)
Definition ex_objects (t : bool) : object bool :=
  if t then mkObj ex_tri None true (mat_lambertian (constant_texture (fin3 (mkV3 (1/2) (1/2) (1/2))))) (fin3 (mkV3 3 2 1))
  else mkObj ex_tri (Some (mk3 (mkV3 0 0 1) (mkV3 0 1 1) (mkV3 1 0 1))) false
         (mat_lambertian (constant_texture (fin3 (mkV3 (1/2) (1/2) (1/2))))) v3zero.
Definition ex_scene : builder XR bool := mkBuilder [distant (fin3 (mkV3 1 1 1)) (fin3 (mkV3 0 1 2))] [false] [true].
Definition ex_const (c : R) : sampler_ops XR unit :=
  mkSampler (fun s _ => Ok s) (fun s => Ok (true, s)) (fun s => Ok (XFin c, s)) (fun s => Ok (mkP2 (XFin c) (XFin c), s)).
Definition ex_half := ex_const (1/2).
Lemma ex_const_unit c : 0 <= c < 1 -> unit_samples (ex_const c).
Proof.
  intros Hc. assert (U : in_unit (XFin c)).
  { unfold in_unit. rewrite x_f0, x_f1. xsimp. cbn [xle xlt]. rewrite Rle_bool_true, Rlt_bool_true by lra. auto. }
  split; [intros s v s' E|intros s u s' E]; cbn [ex_const sm_get_1d sm_get_2d] in E.
  - assert (v = XFin c) as -> by congruence. exact U.
  - assert (u = mkP2 (XFin c) (XFin c)) as -> by congruence. split; apply U.
Qed.
Lemma ex_half_good {T} (surf : T -> surface XR T) sc : good_samples ex_half surf sc.
Proof.
  destruct (ex_const_unit (1/2) ltac:(lra)) as [A B]. constructor; [exact A|exact B|left]. intros s v s' E. cbn [ex_half ex_const sm_get_1d] in E.
  assert (v = XFin (1/2)) as -> by congruence. rewrite x_f0. xsimp. cbn [xlt]. now rewrite Rlt_bool_true by lra.
Qed.
Example C66_triangles_example : exists sc, triangle_scene ex_objects ex_scene sc /\ length (sc_lights sc) = 2%nat /\ good_samples ex_half (ob_surf ex_objects) sc.
Proof.
  assert (X : exists sc, triangle_scene ex_objects ex_scene sc /\ length (sc_lights sc) = 2%nat); [|destruct X as (sc & A & B); exists sc; split; [exact A|]; split; [exact B|apply ex_half_good]].
  eexists. split; [constructor|].
  - left. reflexivity.
  - intros f [<-|[]]. exists (fin3 (mkV3 1 1 1)), (mkV3 0 1 2). split; [reflexivity|]. split; [exists (mkV3 1 1 1); split; [reflexivity|vproj; lra]|].
    intros E. apply (f_equal (fun q : rv => vy q)) in E. revert E. unfold v0. vproj. lra.
  - intros t [<-|[]]. reflexivity.
  - intros t [<-|[]]. split; [exists (mkV3 3 2 1); split; [reflexivity|vproj; lra]|]. cbn [ex_objects o_v]. rewrite (proj2 C40_example). lra.
  - intros t [<-|[<-|[]]]; cbn [ex_objects o_vn o_mat]; (split; [|constructor; intros i v E; assert (v = fin3 (mkV3 (1/2) (1/2) (1/2))) as -> by (unfold constant_texture in E; congruence); eexists; reflexivity]).
    + exists (mkV3 0 0 1). cbn [t0 t1 t2]. unfold vdot; vproj. lra.
    + exact I.
  - reflexivity.
Qed.
(** the same scene with a sampler that always returns 0 *)
Example C66_even_example : unit_samples (ex_const 0) /\ exists sc, triangle_scene ex_objects ex_scene sc /\
  forall t, In t (bd_shapes ex_scene ++ bd_areas ex_scene) -> usual_of even (o_mat (ex_objects t)).
Proof.
  split; [apply ex_const_unit; lra|]. destruct C66_triangles_example as (sc & H & _). exists sc. split; [exact H|].
  intros t [<-|[<-|[]]]; cbn [ex_objects o_mat]; constructor; intros i v E;
    (assert (v = fin3 (mkV3 (1/2) (1/2) (1/2))) as -> by (unfold constant_texture in E; congruence)); eexists; (split; [reflexivity|]); left; vproj; lra.
Qed.
