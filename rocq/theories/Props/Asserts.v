(** * The debug assertions of [clamp] and [has_flag] never fail (C119) *)
From Coq Require Import ZArith Reals List Bool Lia Lra.
From Flocq Require Import Core IEEE754.BinarySingleNaN.
From Verif Require Import Model.Num Model.NumX Model.NumB Model.Vector Model.Common Model.Film Model.Interaction Model.Shape Model.Container Model.Sampler Model.Sampling
  Model.Reflection Model.Fresnel Model.Microfacet Model.BxDFs Model.Texture Model.Material Model.Light Model.Scene Model.Sphere Model.Path Model.Asserted Model.HelloWorld.
From Verif Require Import Proofs.XBase Proofs.BBase Proofs.FLaws.
From Verif Require Import Props.HelloProps Props.Robust3.
Import ListNotations.
Local Open Scope Z_scope.

(** a material of the library, with any textures *)
Inductive stock {F T} {FO : FOps F} : material F T -> Prop :=
  | st_matt kd : stock (mat_lambertian kd)
  | st_mirror kr : stock (mat_mirror kr)
  | st_plastic kd ks ro : stock (mat_plastic kd ks ro)
  | st_metal r e k ru rv : stock (mat_metal r e k ru rv)
  | st_glass kr kt e ru rv : stock (mat_glass kr kt e ru rv).

Section A.
  Context {F T ST : Type} {FO : FOps F} {FL : FLaws F}.

  Lemma clamp_ok m (x lo hi : F) : fle lo hi = true -> clamp_a m x lo hi = Ok (clamp x lo hi).
  Proof. intros H. unfold clamp_a, debug_assert. rewrite H. destruct m; reflexivity. Qed.
  Lemma ones : fle (fneg f1) f1 = true.
  Proof. rewrite emb_le, emb_neg, emb_f1. cbn. rb. lra. Qed.
  Lemma ones' : fle (fofZ (-1)) f1 = true.
  Proof. rewrite emb_le, emb_f1, emb_ofZ_exact by (cbn; lia). cbn. rb. lra. Qed.
  Lemma to_inf : fle f0 finf = true.
  Proof. rewrite emb_le, emb_f0, emb_finf. reflexivity. Qed.
  Lemma to_255 : fle f0 (fofZ 255) = true.
  Proof. rewrite emb_le, emb_f0, emb_ofZ_exact by (cbn; lia). cbn. rb. lra. Qed.

  (** ** flags *)
  Definition flags_ok (b : bsdf F) : Prop := forall x, In x (bs_bxdfs b) -> bx_flag x <= ALL.

  Lemma flag_ok m (x : bxdf F) t : bx_flag x <= ALL -> has_flag_a m x t = Ok (has_flag x t).
  Proof. intros H. unfold has_flag_a, debug_assert. rewrite (proj2 (Z.leb_le _ _) H). destruct m; reflexivity. Qed.

  Lemma sum_ok m r (wo wi : V3 F) : forall l f, (forall x, In x l -> bx_flag x <= ALL) ->
    bsdf_sum_a m l r wo wi f = Ok (fold_left (fun f x => if (r && has_flag x REFLECTION) || (negb r && has_flag x TRANSMISSION) then v3add f (bx_f x wo wi) else f) l f).
  Proof.
    induction l as [|x l IH]; intros f H; [reflexivity|]. cbn [bsdf_sum_a fold_left]. rewrite !flag_ok by (apply H; now left).
    destruct r; cbn [rbind andb orb negb]; rewrite ?orb_false_r; apply IH; intros y Hy; apply H; now right.
  Qed.

  Lemma f_ok m (b : bsdf F) wo wi : flags_ok b -> bsdf_f_a m b wo wi = Ok (bsdf_f b wo wi).
  Proof. intros H. unfold bsdf_f_a, bsdf_f. cbv zeta. destruct (feq _ f0); [reflexivity|]. now rewrite sum_ok. Qed.

  Lemma sample_ok m (b : bsdf F) wo u : flags_ok b -> bsdf_sample_f_a m b wo u = bsdf_sample_f b wo u.
  Proof.
    intros H. unfold bsdf_sample_f_a, bsdf_sample_f. cbv zeta. destruct (_ =? 0); [reflexivity|].
    destruct (idx (bs_bxdfs b) _) as [x| |] eqn:Ei; cbn [rbind]; [|reflexivity..]. destruct (feq _ f0); [reflexivity|].
    destruct (bx_sample_f x _ _) as [[wi f] pdf]. destruct (feq pdf f0); [reflexivity|].
    assert (Hx : bx_flag x <= ALL). { apply H. unfold idx in Ei. destruct (_ <? 0); [discriminate|]. destruct (nth_error _ _) eqn:En; [|discriminate]. apply nth_error_In in En. injection Ei as <-. exact En. }
    rewrite flag_ok by exact Hx. cbn [rbind]. destruct (negb (has_flag x SPECULAR) && _); [|reflexivity].
    rewrite sum_ok by exact H. reflexivity.
  Qed.

  Lemma stock_flags (mt : material F T) i b : stock mt -> mt i = Ok b -> flags_ok b.
  Proof.
    assert (E0 : flags_ok (bsdf_new i)) by (intros x []).
    assert (AD : forall c x, flags_ok c -> bx_flag x <= ALL -> flags_ok (bsdf_add c x)).
    { intros c x Hc Hx y Hy. cbn [bsdf_add bs_bxdfs] in Hy. apply in_app_or in Hy as [Hy|[<-|[]]]; auto. }
    intros [kd|kr|kd ks ro|r e k ru rv|kr kt e ru rv] E.
    - unfold mat_lambertian in E. destruct (tex_clamped kd i) as [v| |]; try discriminate. cbn [rbind] in E. injection E as <-.
      destruct (negb _); auto. apply AD; auto. cbn; unfold ALL; cbn; lia.
    - unfold mat_mirror in E. destruct (tex_clamped kr i) as [v| |]; try discriminate. cbn [rbind] in E. injection E as <-.
      destruct (negb _); auto. apply AD; auto. cbn; unfold ALL; cbn; lia.
    - unfold mat_plastic in E. destruct (tex_clamped kd i) as [d| |]; try discriminate. destruct (tex_clamped ks i) as [s| |]; try discriminate. cbn [rbind] in E.
      assert (D : flags_ok (if negb (is_black d) then bsdf_add (bsdf_new i) (lambertian d) else bsdf_new i)) by (clear E; destruct (negb (is_black d)); auto; apply AD; auto; cbn; unfold ALL; cbn; lia).
      destruct (negb (is_black s)).
      + destruct (ro i) as [q| |]; try discriminate. cbn [rbind] in E. injection E as <-. apply AD; auto. destruct (feq q f0); cbn; unfold ALL; cbn; lia.
      + injection E as <-. exact D.
    - unfold mat_metal in E. destruct (tex_clamped r i) as [r'| |]; try discriminate. destruct (e i) as [e'| |]; try discriminate. destruct (k i) as [k'| |]; try discriminate.
      destruct (ru i) as [u'| |]; try discriminate. destruct (rv i) as [v'| |]; try discriminate. cbn [rbind] in E. injection E as <-. apply AD; auto.
      destruct (_ && _)%bool; cbn; unfold ALL; cbn; lia.
    - unfold mat_glass in E. destruct (e i) as [e'| |]; try discriminate. destruct (tex_clamped kr i) as [r'| |]; try discriminate. destruct (tex_clamped kt i) as [t'| |]; try discriminate.
      destruct (ru i) as [u'| |]; try discriminate. destruct (rv i) as [v'| |]; try discriminate. cbn [rbind] in E.
      destruct (_ && _)%bool; injection E as <-; destruct (negb (is_black r')), (negb (is_black t')); repeat apply AD; auto; cbn; unfold ALL; cbn; lia.
  Qed.

  (** ** the path tracer *)
  Section P.
    Context (m : build) (sm : sampler_ops F ST) (teq : T -> T -> bool) (surf : T -> surface F T) (sc : scene F T (container F T)).

    Lemma light_ok l (i : interaction F T) b u ld : flags_ok b -> direct_light_a m sc l i b u ld = direct_light sc l i b u ld.
    Proof.
      intros H. unfold direct_light_a, direct_light. destruct (l_sample_li l i u) as [[[[wi li] p] v]| |]; cbn [rbind]; [|reflexivity..].
      destruct (_ && _)%bool; [|reflexivity]. now rewrite f_ok.
    Qed.
    Lemma bsdf_ok l (i : interaction F T) b u ld : flags_ok b -> direct_bsdf_a m teq surf sc l i b u ld = direct_bsdf teq surf sc l i b u ld.
    Proof. intros H. unfold direct_bsdf_a, direct_bsdf. now rewrite sample_ok. Qed.
    Lemma estimate_ok s l (i : interaction F T) b : flags_ok b -> estimate_direct_a m sm teq surf sc s l i b = estimate_direct sm teq surf sc s l i b.
    Proof.
      intros H. unfold estimate_direct_a, estimate_direct. destruct (sm_get_2d sm s) as [[u0 s0]| |]; cbn [rbind]; [|reflexivity..].
      destruct (sm_get_2d sm s0) as [[u1 s1]| |]; cbn [rbind]; [|reflexivity..]. rewrite light_ok by exact H.
      destruct (direct_light sc l i b u0 v3zero) as [ld| |]; cbn [rbind]; [|reflexivity..]. now rewrite bsdf_ok.
    Qed.
    Lemma one_ok s (i : interaction F T) b : flags_ok b -> uniform_sample_one_light_a m sm teq surf sc s i b = uniform_sample_one_light sm teq surf sc s i b.
    Proof.
      intros H. unfold uniform_sample_one_light_a, uniform_sample_one_light. cbv zeta. destruct (_ =? 0); [reflexivity|].
      destruct (sm_get_1d sm s) as [[u s']| |]; cbn [rbind]; [|reflexivity..]. destruct (idx _ _) as [l| |]; cbn [rbind]; [|reflexivity..]. now rewrite estimate_ok.
    Qed.
    Lemma loop_ok : (forall t, stock (sf_scatter (surf t))) -> forall fuel s r l beta sp k,
      li_loop_a m sm teq surf sc fuel s r l beta sp k = li_loop sm teq surf sc fuel s r l beta sp k.
    Proof.
      intros H. induction fuel as [|fuel IH]; intros s r l beta sp k; [reflexivity|]. cbn [li_loop_a li_loop].
      destruct (scene_intersect sc r) as [o| |]; cbn [rbind]; [|reflexivity..].
      destruct (if (_ || sp)%bool then _ else Ok l) as [l'| |]; cbn [rbind]; [|reflexivity..]. destruct o as [i|]; [|reflexivity].
      destruct (_ <? k); [reflexivity|]. destruct (compute_scattering surf i) as [b| |] eqn:Eb; cbn [rbind]; [|reflexivity..].
      assert (Hb : flags_ok b). { unfold compute_scattering in Eb. destruct (i_shape i) as [t|]; [|discriminate]. eapply stock_flags; eauto. }
      rewrite one_ok by exact Hb. destruct (uniform_sample_one_light sm teq surf sc s i b) as [[ld s']| |]; cbn [rbind]; [|reflexivity..].
      destruct (sm_get_2d sm s') as [[u s'']| |]; cbn [rbind]; [|reflexivity..]. rewrite sample_ok by exact Hb.
      destruct (bsdf_sample_f b (i_wo i) u) as [[[[wi f] pdf] fl]| |]; cbn [rbind]; [|reflexivity..]. destruct (_ || _)%bool; [reflexivity|].
      cbv zeta. destruct (3 <? k + 1); [|apply IH]. destruct (sm_get_1d sm s'') as [[v s3]| |]; cbn [rbind]; [|reflexivity..]. destruct (flt _ v); [reflexivity|]. apply IH.
    Qed.
  End P.
End A.

(** The bounds handed to [clamp] are in order wherever it is called: in a debug build the functions that call it
    return what they return without the assertion. *)
Theorem C119_clamps : forall (F T : Type) (FO : FOps F) (FL : FLaws F) m,
  (forall c a b, fr_dielectric_a m c a b = Ok (fr_dielectric c a b)) /\
  (forall c a b k, fr_conductor_a m c a b k = Ok (fr_conductor c a b k)) /\
  (forall w, cos_phi_a m w = Ok (cos_phi w) /\ sin_phi_a m w = Ok (sin_phi w)) /\
  (forall c w, quantize_a m c w = Ok (quantize c w)) /\
  (forall (t : texture F T (V3 F)) i, tex_clamped_a m t i = tex_clamped t i) /\
  (forall s r t, let p := ray_position r t in
     sp_theta_a m s (v3scale p (fdiv (sp_radius s) (v3length p))) = Ok (py (i_uv (fst (sp_interaction (T := T) s r t))))).
Proof.
  intros F T FO FL m. split; [|split; [|split; [|split; [|split]]]].
  - intros c a b. unfold fr_dielectric_a. rewrite clamp_ok by exact ones. cbn [rbind]. unfold fr_dielectric. destruct (flt f0 _); destruct (fle f1 _); reflexivity.
  - intros c a b k. unfold fr_conductor_a. rewrite clamp_ok by exact ones. reflexivity.
  - intros w. unfold cos_phi_a, sin_phi_a, cos_phi, sin_phi. cbv zeta. destruct (feq _ f0); [split; reflexivity|]. now rewrite !clamp_ok by exact ones.
  - intros c w. unfold quantize_a. rewrite clamp_ok by exact to_255. reflexivity.
  - intros t i. unfold tex_clamped_a, tex_clamped. destruct (t i) as [v| |]; cbn [rbind]; [|reflexivity..]. unfold spectrum_clamp_a. now rewrite !clamp_ok by exact to_inf.
  - intros s r t. unfold sp_interaction. cbv zeta. set (p := v3scale _ _). unfold sp_theta_a. rewrite clamp_ok by exact ones'. cbn [rbind].
    destruct (sp_partials p) as [du dv]. reflexivity.
Qed.
Print Assumptions C119_clamps.

(** The flags of the components of the library's materials are below the bound that is asserted: the radiance of
    every ray is the same with the assertion and without it, panics included. *)
Theorem C119_flags : forall (F T ST : Type) (FO : FOps F) (FL : FLaws F) m (sm : sampler_ops F ST) (teq : T -> T -> bool) (surf : T -> surface F T)
    (sc : scene F T (container F T)) fuel s r,
  (forall t, stock (sf_scatter (surf t))) ->
  li_a m sm teq surf sc fuel s r = li sm teq surf sc fuel s r /\
  (forall t i b wo wi u, sf_scatter (surf t) i = Ok b ->
     bsdf_f_a m b wo wi = Ok (bsdf_f b wo wi) /\ bsdf_sample_f_a m b wo u = bsdf_sample_f b wo u).
Proof.
  intros F T ST FO FL m sm teq surf sc fuel s r H. split; [now apply loop_ok|].
  intros t i b wo wi u E. pose proof (stock_flags _ _ _ (H t) E) as Hb. split; [now apply f_ok|now apply sample_ok].
Qed.
Print Assumptions C119_flags.

(** The surfaces of the example program with shiny surfaces; and both assertions can fail, for a BxDF with a sixth
    flag and for bounds in the wrong order, in debug builds only. *)
Example C119_example : (forall t, stock (FO := B32_FOps Lhello) (sf_scatter (shiny_surf t))) /\
  (let _ := B32_FOps Lhello in
   let x := mkBxDF 32 (fun _ _ => v3zero (F := b32)) (fun w _ => (w, v3zero, f1)) (fun _ _ => f1) in
   let b := mkBSDF [x] (mkV3 f0 f0 f1) (mkV3 f0 f0 f1) (mkV3 f1 f0 f0) (mkV3 f0 f1 f0) in
   bsdf_f_a Debug b (mkV3 f0 f0 f1) (mkV3 f0 f0 f1) = Panic /\ bsdf_f_a Release b (mkV3 f0 f0 f1) (mkV3 f0 f0 f1) = Ok v3zero /\
   clamp_a Debug f1 f1 (f0 : b32) = Panic /\ clamp_a Release f1 f1 (f0 : b32) = Ok f0).
Proof. split; [intros []; constructor|]. cbv zeta. split; [|split; [|split]]; vm_compute; reflexivity. Qed.
