(** * What the path tracer estimates: proportionality, lights seen directly and in mirrors, weights *)
From Coq Require Import ZArith Reals List Bool Lia Lra.
From Flocq Require Import Core IEEE754.BinarySingleNaN.
From Verif Require Import Model.Num Model.NumX Model.NumB Model.Vector Model.Common Model.BBox Model.Interaction Model.Shape Model.Sphere
  Model.Triangle Model.Container Model.Sampler Model.Sampling Model.Reflection Model.Fresnel Model.Microfacet Model.BxDFs Model.Texture
  Model.Material Model.Light Model.Scene Model.Path.
From Verif Require Import Spec.RVec Spec.SamplerSpec Spec.ShadeSpec Spec.RadianceSpec Spec.EstimatorSpec.
From Verif Require Import Proofs.XBase Proofs.RVecProofs Proofs.ShadeProofs Proofs.MicroProofs.
From Verif Require Import Props.Frames Props.Radiance Props.Radiance2.
Import ListNotations.
Local Open Scope R_scope.

(** ** C75: radiance is proportional to emission *)
Section Dim.
  Variable c : R.
  Hypothesis C : 0 < c.
  Lemma Rsgn_mul x : Rsgn (x * c) = Rsgn x.
  Proof. unfold Rsgn. destruct (Rlt_bool x 0) eqn:E; rb; nra. Qed.
  Lemma Req_mul x : Req_bool (x * c) 0 = Req_bool x 0.
  Proof. destruct (Req_bool x 0) eqn:E; rb; [subst; lra|]. apply Rmult_integral_contrapositive_currified; lra. Qed.
  Lemma cs : Rsgn c = false. Proof. unfold Rsgn. rb. lra. Qed.
  Lemma cn : Req_bool c 0 = false. Proof. rb. lra. Qed.

  Lemma xmul_c_inf s : xmul (XInf s) (XFin c) = XInf s.
  Proof. cbn. rewrite cn, cs. now rewrite xorb_false_r. Qed.
  Lemma dim_add1 x y : xmul (xadd x y) (XFin c) = xadd (xmul x (XFin c)) (xmul y (XFin c)).
  Proof.
    destruct x as [|s|x], y as [|t|y]; rewrite ?xmul_c_inf; cbn [xadd]; rewrite ?xmul_c_inf; try reflexivity.
    - destruct (Bool.eqb s t); [apply xmul_c_inf|reflexivity].
    - cbn. f_equal. lra.
  Qed.
  Lemma dim_mul1 x y : xmul x (xmul y (XFin c)) = xmul (xmul x y) (XFin c).
  Proof.
    destruct x as [|s|x], y as [|t|y]; rewrite ?xmul_c_inf; cbn [xmul]; try reflexivity.
    - now rewrite cn, cs, xorb_false_r.
    - rewrite Req_mul, Rsgn_mul. destruct (Req_bool y 0); [reflexivity|]. now rewrite xmul_c_inf.
    - destruct (Req_bool x 0); [reflexivity|]. now rewrite xmul_c_inf.
    - f_equal. lra.
  Qed.
  Lemma dim_div1 x y : xdiv (xmul x (XFin c)) y = xmul (xdiv x y) (XFin c).
  Proof.
    destruct x as [|s|x], y as [|t|y]; rewrite ?xmul_c_inf; cbn [xmul xdiv]; try reflexivity.
    - now rewrite cn, cs, xorb_false_r.
    - f_equal. lra.
    - rewrite Req_mul, Rsgn_mul. destruct (Req_bool y 0); [|cbn [xmul]; f_equal; unfold Rdiv; ring].
      destruct (Req_bool x 0); [reflexivity|]. now rewrite xmul_c_inf.
  Qed.
  Lemma dim_add a b : v3add (dim c a) (dim c b) = dim c (v3add a b).
  Proof. unfold dim, v3add, v3map2. xsimp. vproj. now rewrite !dim_add1. Qed.
  Lemma dim_mul a b : v3mul a (dim c b) = dim c (v3mul a b).
  Proof. unfold dim, v3mul, v3map2. xsimp. vproj. now rewrite !dim_mul1. Qed.
  Lemma xmul_comm3 x k : xmul (xmul x (XFin c)) k = xmul (xmul x k) (XFin c).
  Proof. rewrite (xmul_comm (xmul x (XFin c)) k), dim_mul1. now rewrite (xmul_comm k x). Qed.
  Lemma dim_scale a k : v3scale (dim c a) k = dim c (v3scale a k).
  Proof. unfold dim, v3scale. xsimp. vproj. now rewrite !xmul_comm3. Qed.
  Lemma dim_divs a k : v3divs (dim c a) k = dim c (v3divs a k).
  Proof.
    unfold dim, v3divs. xsimp. vproj. now rewrite ?dim_div1, ?xmul_comm3.
  Qed.
  Lemma dim_zero : dim c v3zero = v3zero.
  Proof. unfold dim, v3zero, f0. xsimp. vproj. cbn [xmul]. now rewrite Rmult_0_l. Qed.
  Lemma dim_black a : is_black (dim c a) = is_black a.
  Proof.
    assert (K : forall x, xeq (xmul x (XFin c)) (XFin 0) = xeq x (XFin 0)).
    { intros [|s|x]; rewrite ?xmul_c_inf; cbn [xmul xeq]; auto. apply Req_mul. }
    unfold is_black, dim, f0. xsimp. vproj. now rewrite ?K.
  Qed.

  Context {T ST : Type}.
  Variables (sm : sampler_ops XR ST) (teq : T -> T -> bool) (surf surf' : T -> surface XR T) (sc sc' : scene XR T (container XR T)).
  Hypothesis D : dimmed_scene c surf surf' sc sc'.

  Definition dim_fst (p : V3 XR * ST) : V3 XR * ST := (dim c (fst p), snd p).

  Lemma dim_le i w : le surf' i w = res_map (dim c) (le surf i w).
  Proof. unfold le. destruct (i_shape i); [|reflexivity]. cbn. now rewrite (dm_l _ _ _ _ _ D). Qed.
  Lemma dim_direct_light l l' i b u ld : dimmed_light c l l' ->
    direct_light sc' l' i b u (dim c ld) = res_map (dim c) (direct_light sc l i b u ld).
  Proof.
    intros [E1 E2 E3 E4]. unfold direct_light. rewrite E4, E1.
    destruct (l_sample_li l i u) as [[[[wi li] pdf] v]| |]; cbn [res_map rbind]; auto.
    rewrite dim_black. destruct (_ && _); [|reflexivity]. destruct (negb (is_black _)); [|reflexivity].
    unfold scene_intersect_p. rewrite (dm_shapes _ _ _ _ _ D).
    destruct (unoccluded _ v) as [[]| |]; cbn [res_map rbind]; auto.
    destruct (l_is_delta l); cbn [res_map]; f_equal; now rewrite dim_mul, ?dim_scale, dim_divs, dim_add.
  Qed.
  Lemma dim_direct_bsdf l l' i b u ld : dimmed_light c l l' ->
    direct_bsdf teq surf' sc' l' i b u (dim c ld) = res_map (dim c) (direct_bsdf teq surf sc l i b u ld).
  Proof.
    intros [E1 E2 E3 E4]. unfold direct_bsdf. rewrite E1. destruct (l_is_delta l); [reflexivity|].
    destruct (bsdf_sample_f b (i_wo i) u) as [[[[wi f] pdf] flag]| |]; cbn [res_map rbind]; auto.
    destruct (_ && _); [|reflexivity]. rewrite E3. destruct (_ && _); [reflexivity|].
    unfold scene_intersect. rewrite (dm_shapes _ _ _ _ _ D).
    destruct (c_intersect _ _) as [[li|]| |]; cbn [res_map rbind]; auto.
    destruct (i_shape li) as [s|] eqn:Es; [|reflexivity].
    assert (Q : same_addr teq s l' = same_addr teq s l) by (unfold same_addr; now rewrite E2). rewrite Q.
    assert (K : forall e, v3add (dim c ld) (v3divs (v3scale (v3mul (v3scale f (fabs (v3dot wi (i_sn i)))) (dim c e))
        (if negb (Z.land flag SPECULAR =? 0)%Z then f1 else power_heuristic 1 pdf 1 (l_pdf_li l i wi))) pdf)
      = dim c (v3add ld (v3divs (v3scale (v3mul (v3scale f (fabs (v3dot wi (i_sn i)))) e)
        (if negb (Z.land flag SPECULAR =? 0)%Z then f1 else power_heuristic 1 pdf 1 (l_pdf_li l i wi))) pdf))).
    { intros e. now rewrite dim_mul, dim_scale, dim_divs, dim_add. }
    destruct (same_addr teq s l).
    - rewrite dim_le. destruct (le surf li (v3neg wi)) as [e| |]; cbn [res_map rbind]; auto. now rewrite K.
    - cbn [rbind res_map]. rewrite <- (K v3zero), dim_zero. reflexivity.
  Qed.
  Lemma dim_one_light s i b :
    uniform_sample_one_light sm teq surf' sc' s i b = res_map dim_fst (uniform_sample_one_light sm teq surf sc s i b).
  Proof.
    pose proof (dm_lights _ _ _ _ _ D) as DL. unfold uniform_sample_one_light.
    assert (EL : length (sc_lights sc') = length (sc_lights sc)) by (clear - DL; induction DL; cbn; congruence).
    rewrite EL. destruct (_ =? 0)%Z; [cbn; unfold dim_fst; cbn [fst snd]; now rewrite dim_zero|].
    destruct (sm_get_1d sm s) as [[u s1]| |]; cbn [res_map rbind]; auto.
    set (k := Z.min _ _). clearbody k.
    assert (Q : match idx (sc_lights sc) k, idx (sc_lights sc') k with
                | Ok l, Ok l' => dimmed_light c l l' | Panic, Panic => True | _, _ => False end).
    { unfold idx. destruct (k <? 0)%Z; [exact I|]. generalize (Z.to_nat k). clear - DL. induction DL; intros [|n]; cbn; auto. apply IHDL. }
    destruct (idx (sc_lights sc) k) as [l| |], (idx (sc_lights sc') k) as [l'| |]; try contradiction; cbn [res_map rbind]; auto.
    unfold estimate_direct.
    destruct (sm_get_2d sm s1) as [[u0 s2]| |]; cbn [res_map rbind]; auto.
    destruct (sm_get_2d sm s2) as [[u1 s3]| |]; cbn [res_map rbind]; auto.
    rewrite <- dim_zero at 1. rewrite (dim_direct_light l l') by auto.
    destruct (direct_light sc l i b u0 v3zero) as [ld| |]; cbn [res_map rbind]; auto.
    rewrite (dim_direct_bsdf l l') by auto.
    destruct (direct_bsdf teq surf sc l i b u1 ld) as [ld'| |]; cbn [res_map rbind]; auto.
    unfold dim_fst. cbn [fst snd]. now rewrite dim_scale.
  Qed.
  Lemma dim_loop : forall fuel s r l beta sp bo,
    li_loop sm teq surf' sc' fuel s r (dim c l) beta sp bo = res_map dim_fst (li_loop sm teq surf sc fuel s r l beta sp bo).
  Proof.
    induction fuel as [|fuel IH]; intros; cbn [li_loop]; [reflexivity|].
    unfold scene_intersect. rewrite (dm_shapes _ _ _ _ _ D).
    destruct (c_intersect _ r) as [o| |]; cbn [res_map rbind]; auto.
    assert (Q : (if (bo =? 0)%Z || sp then
                   match o with Some i => let! e := le surf' i (v3neg (r_d r)) in Ok (v3add (dim c l) (v3mul beta e)) | None => Ok (dim c l) end
                 else Ok (dim c l)) =
      res_map (dim c) (if (bo =? 0)%Z || sp then
                   match o with Some i => let! e := le surf i (v3neg (r_d r)) in Ok (v3add l (v3mul beta e)) | None => Ok l end
                 else Ok l)).
    { destruct (_ || _); [|reflexivity]. destruct o as [i|]; [|reflexivity]. rewrite dim_le.
      destruct (le surf i _); cbn [res_map rbind]; auto. now rewrite dim_mul, dim_add. }
    rewrite Q. clear Q. destruct (if (bo =? 0)%Z || sp then _ else Ok l) as [l1| |]; cbn [res_map rbind]; auto.
    destruct o as [i|]; [|reflexivity]. destruct (MAX_BOUNCES <? bo)%Z; [reflexivity|].
    assert (Q : compute_scattering surf' i = compute_scattering surf i).
    { unfold compute_scattering. destruct (i_shape i); auto. apply (dm_scatter _ _ _ _ _ D). }
    rewrite Q. destruct (compute_scattering surf i) as [b| |]; cbn [res_map rbind]; auto.
    rewrite dim_one_light. destruct (uniform_sample_one_light sm teq surf sc s i b) as [[ld s1]| |]; cbn [res_map rbind]; auto.
    unfold dim_fst at 1. cbn [fst snd]. rewrite dim_mul, dim_add.
    destruct (sm_get_2d sm s1) as [[u s2]| |]; cbn [res_map rbind]; auto.
    destruct (bsdf_sample_f b (i_wo i) u) as [[[[wi f] pdf] flag]| |]; cbn [res_map rbind]; auto.
    destruct (_ || _); [reflexivity|]. destruct (3 <? bo + 1)%Z; [|apply IH].
    destruct (sm_get_1d sm s2) as [[v s3]| |]; cbn [res_map rbind]; auto.
    destruct (flt _ v); [reflexivity|apply IH].
  Qed.
End Dim.

(** In exact arithmetic, with the same random numbers: multiplying all emission by c > 0 multiplies the
    radiance of every path by c; outcomes other than a radiance are the same. *)
Theorem C75_proportional : forall (T ST : Type) (sm : sampler_ops XR ST) (teq : T -> T -> bool) (c : R)
    (surf surf' : T -> surface XR T) (sc sc' : scene XR T (container XR T)) fuel s r,
  0 < c -> dimmed_scene c surf surf' sc sc' ->
  li sm teq surf' sc' fuel s r = res_map (fun p => (dim c (fst p), snd p)) (li sm teq surf sc fuel s r).
Proof.
  intros T ST sm teq c surf surf' sc sc' fuel s r C D. unfold li. rewrite <- (dim_zero c) at 1.
  now apply (dim_loop c C sm teq surf surf' sc sc' D).
Qed.
Print Assumptions C75_proportional.

(** ** C73, C74: lights seen directly and in a mirror *)

Lemma add_0_l v : fin v -> v3add v3zero v = v.
Proof. intros (r & ->). change v3zero with (fin3 v0). rewrite v3add_fin. f_equal. vring. Qed.
Lemma add_0_r v : fin v -> v3add v v3zero = v.
Proof. intros (r & ->). change v3zero with (fin3 v0). rewrite v3add_fin. f_equal. vring. Qed.
Lemma v3mul_fin a b : v3mul (fin3 a) (fin3 b) = fin3 (vprod a b).
Proof. reflexivity. Qed.
Lemma mul_1_l v : fin v -> v3mul (spectrum_of f1) v = v.
Proof.
  intros (r & ->). rewrite x_f1. change (spectrum_of (XFin 1)) with (fin3 (mkV3 1 1 1)). rewrite v3mul_fin. f_equal.
  unfold vprod. apply V3_eq; vproj; ring.
Qed.
Lemma mul_0_r v : fin v -> v3mul v v3zero = v3zero.
Proof.
  intros (r & ->). change v3zero with (fin3 v0). rewrite v3mul_fin. f_equal. unfold vprod, v0. apply V3_eq; vproj; ring.
Qed.
Lemma scale_0 k : fin3 v0 = v3scale v3zero (XFin k).
Proof. change v3zero with (fin3 v0). rewrite v3scale_fin. f_equal. vring. Qed.

Section Seen.
  Context {T ST : Type}.
  Variables (sm : sampler_ops XR ST) (teq : T -> T -> bool) (surf : T -> surface XR T) (sc : scene XR T (container XR T)).
  Hypothesis H : no_negative_light surf sc.
  Hypothesis H2 : forall s u s', sm_get_2d sm s = Ok (u, s') -> in_unit (px u) /\ in_unit (py u).

  (** light sampling finds nothing where the scattering function vanishes *)
  Lemma dark_direct_light l i b u ld r : In l (sc_lights sc) -> met sc i -> in_unit (px u) -> in_unit (py u) ->
    (forall wi, bsdf_f b (i_wo i) wi = v3zero) -> direct_light sc l i b u ld = Ok r -> r = ld.
  Proof.
    intros Hl Hi U1 U2 Z. unfold direct_light.
    destruct (l_sample_li l i u) as [[[[wi li] pdf] v]| |] eqn:E; cbn [rbind]; try discriminate.
    destruct (flt f0 pdf) eqn:P; cbn [andb]; [|congruence]. destruct (is_black li) eqn:B; cbn [negb]; [congruence|].
    destruct (nl_light _ _ H l i u wi li pdf v Hl Hi U1 U2 E P B) as (Fw & _ & _).
    destruct (nl_hit _ _ H i Hi) as (_ & _ & _ & Fs & _).
    destruct (nn_abs_dot _ _ (unit_fin _ Fw) Fs) as (k & -> & _). rewrite Z, <- scale_0.
    change (fin3 v0) with (@v3zero XR _). rewrite black_zero. cbn [negb]. congruence.
  Qed.
  Lemma empty_f b wo wi : bs_bxdfs b = [] -> bsdf_f b wo wi = v3zero.
  Proof. intros E. unfold bsdf_f. rewrite E. now destruct (feq _ _). Qed.
  Lemma empty_sample b wo u : bs_bxdfs b = [] -> bsdf_sample_f b wo u = Ok no_sample.
  Proof. intros E. unfold bsdf_sample_f. now rewrite E. Qed.
  Lemma idx_in {A} (l : list A) k x : idx l k = Ok x -> In x l.
  Proof. unfold idx. destruct (k <? 0)%Z; [discriminate|]. destruct (nth_error _ _) eqn:E; [|discriminate]. intros [= <-]. now apply nth_error_In in E. Qed.

  Lemma dark_one_light s i b r s' : met sc i -> bs_bxdfs b = [] ->
    uniform_sample_one_light sm teq surf sc s i b = Ok (r, s') -> r = v3zero.
  Proof.
    intros Hi Hb. unfold uniform_sample_one_light. destruct (_ =? 0)%Z; [congruence|].
    destruct (sm_get_1d sm s) as [[u s1]| |]; cbn [rbind]; try discriminate.
    destruct (idx (sc_lights sc) _) as [l| |] eqn:El; cbn [rbind]; try discriminate. apply idx_in in El.
    unfold estimate_direct.
    destruct (sm_get_2d sm s1) as [[u0 s2]| |] eqn:E0; cbn [rbind]; try discriminate.
    destruct (sm_get_2d sm s2) as [[u1 s3]| |] eqn:E1; cbn [rbind]; try discriminate. destruct (H2 _ _ _ E0) as [A0 B0].
    destruct (direct_light sc l i b u0 v3zero) as [ld| |] eqn:D; cbn [rbind]; try discriminate.
    apply dark_direct_light in D; auto using empty_f. subst ld.
    assert (D' : direct_bsdf teq surf sc l i b u1 v3zero = Ok v3zero).
    { unfold direct_bsdf. destruct (l_is_delta l); [reflexivity|]. rewrite empty_sample by auto. unfold no_sample. cbn [rbind].
      rewrite x_f0. xsimp. cbn [xlt]. rewrite Rlt_bool_false by lra. reflexivity. }
    rewrite D'. cbn [rbind]. intros [= <- _]. symmetry. apply (scale_0 (IZR (Z.of_nat (length (sc_lights sc))))).
  Qed.

  (** a path that arrives at a black surface ends there *)
  Lemma dark_end fuel s r l beta sp bo i t b x s' : fin (r_o r) -> unit3 (r_d r) -> xis_nan (r_tmax r) = false ->
    c_intersect (sc_shapes sc) r = Ok (Some i) -> i_shape i = Some t -> sf_scatter (surf t) i = Ok b -> bs_bxdfs b = [] ->
    fin l -> fin beta ->
    li_loop sm teq surf sc fuel s r l beta sp bo = Ok (x, s') ->
    x = if ((bo =? 0)%Z || sp) then v3add l (v3mul beta (sf_l (surf t) i (v3neg (r_d r)))) else l.
  Proof.
    intros Fo Fd Ft Ei Et Eb Hb Fl Fb. assert (Hi : met sc i) by (exists r; auto).
    pose proof (nl_emitted _ _ H i t _ Hi Et (unit_neg _ Fd)) as Ne.
    destruct fuel as [|fuel]; cbn [li_loop]; [discriminate|]. unfold scene_intersect. rewrite Ei. cbn [rbind].
    set (l1 := if (bo =? 0)%Z || sp then v3add l _ else l).
    assert (El : (if (bo =? 0)%Z || sp then let! e := le surf i (v3neg (r_d r)) in Ok (v3add l (v3mul beta e)) else Ok l) = Ok l1).
    { unfold l1, le. rewrite Et. now destruct (_ || _). }
    rewrite El. cbn [rbind]. assert (F1 : fin l1).
    { unfold l1. destruct (_ || _); auto. destruct Fl as (a & ->), Fb as (b' & ->), Ne as (e & -> & _). rewrite v3mul_fin, v3add_fin. eexists; reflexivity. }
    destruct (MAX_BOUNCES <? bo)%Z; [congruence|]. unfold compute_scattering. rewrite Et, Eb. cbn [rbind].
    destruct (uniform_sample_one_light sm teq surf sc s i b) as [[ld s1]| |] eqn:Eu; cbn [rbind]; try discriminate.
    apply dark_one_light in Eu; auto. subst ld.
    destruct (sm_get_2d sm s1) as [[u s2]| |] eqn:E2; cbn [rbind]; try discriminate.
    rewrite empty_sample by auto. unfold no_sample. cbn [rbind]. rewrite x_f0. xsimp. cbn [xeq]. rewrite Req_bool_true by reflexivity. cbn [orb].
    rewrite mul_0_r, add_0_r by auto. congruence.
  Qed.
End Seen.

(** Looking straight at an emitter that reflects nothing, one gets exactly its radiance in that direction. *)
Theorem C74_seen_directly : forall (T ST : Type) (sm : sampler_ops XR ST) (teq : T -> T -> bool) (surf : T -> surface XR T)
    (sc : scene XR T (container XR T)) fuel s r i t b x s',
  no_negative_light surf sc -> (forall s u s', sm_get_2d sm s = Ok (u, s') -> in_unit (px u) /\ in_unit (py u)) ->
  fin (r_o r) -> unit3 (r_d r) -> xis_nan (r_tmax r) = false ->
  c_intersect (sc_shapes sc) r = Ok (Some i) -> i_shape i = Some t -> sf_scatter (surf t) i = Ok b -> bs_bxdfs b = [] ->
  li sm teq surf sc fuel s r = Ok (x, s') -> x = sf_l (surf t) i (v3neg (r_d r)).
Proof.
  intros T ST sm teq surf sc fuel s r i t b x s' H H2 Fo Fd Ft Ei Et Eb Hb E. unfold li in E.
  apply (dark_end sm teq surf sc H H2 fuel s r v3zero (spectrum_of f1) false 0 i t b x s') in E; auto.
  - cbn [Z.eqb orb] in E. rewrite E. assert (F : fin (sf_l (surf t) i (v3neg (r_d r)))).
    { destruct (nl_emitted _ _ H i t (v3neg (r_d r))) as (e & -> & _); [exists r; auto|auto|now apply unit_neg|eexists; reflexivity]. }
    rewrite mul_1_l, add_0_l; auto.
  - exists v0. reflexivity.
  - exists (mkV3 1 1 1). reflexivity.
Qed.
Print Assumptions C74_seen_directly.

(** Light [l] is the one that the next sample selects. *)
Definition chosen {T ST} (sm : sampler_ops XR ST) (sc : scene XR T (container XR T)) (s : ST) (l : light XR T) : Prop :=
  exists u s1, sm_get_1d sm s = Ok (u, s1) /\
    idx (sc_lights sc) (Z.min (fto_usize (fmul (fofZ (Z.of_nat (length (sc_lights sc)))) u)) (Z.of_nat (length (sc_lights sc)) - 1)) = Ok l.

(** [vmirror n w]: [w] reflected about the direction [n] *)
Definition vmirror (n w : rv) : rv := vadd (vscale (-1) w) (vscale (2 * vdot w n) n).

Section Mirror.
  Context {T ST : Type}.
  Variables (sm : sampler_ops XR ST) (teq : T -> T -> bool) (surf : T -> surface XR T) (sc : scene XR T (container XR T)).
  Hypothesis H : no_negative_light surf sc.
  Hypothesis H2 : forall s u s', sm_get_2d sm s = Ok (u, s') -> in_unit (px u) /\ in_unit (py u).
  Variables (k n wo : rv) (i : interaction XR T) (b : bsdf XR).
  Hypothesis Ek : is_black (fin3 k) = false.
  Hypothesis Nk : nn3 (fin3 k).
  Hypothesis En : i_sn i = fin3 n.
  Hypothesis Ew : i_wo i = fin3 wo.
  Hypothesis Hw : vdot wo n <> 0.
  Hypothesis Fr : has_frame i.
  Hypothesis Eb : mat_mirror (constant_texture (fin3 k)) i = Ok b.

  Lemma mirror_bsdf : exists s, vdot s s = 1 /\ vdot n n = 1 /\ vdot s n = 0 /\ frame_is b s (vcross n s) n /\
    bs_bxdfs b = [specular_reflection (fin3 k) fresnel_noop].
  Proof.
    destruct Fr as (sn & du & E1 & E2 & Us & Hdu & Pd). assert (sn = n) as -> .
    { rewrite En in E1. assert (A : vx n = vx sn /\ vy n = vy sn /\ vz n = vz sn) by (unfold fin3 in E1; injection E1; auto). destruct A as (A & B & C). now apply V3_eq. }
    pose proof (bsdf_new_frame i n du E1 E2 Hdu) as F. exists (vunit du).
    split; [now apply vunit_dot|]. split; [now apply vnorm_1_dot|]. split; [unfold vunit; rewrite vdot_scale_l, Pd; ring|].
    assert (Ck : tex_clamped (constant_texture (fin3 k)) i = Ok (fin3 k)).
    { unfold tex_clamped, constant_texture. cbn [rbind]. f_equal. destruct Nk as (r & E & R1 & R2 & R3). rewrite E. clear E.
      unfold spectrum_clamp, fin3. vproj. rewrite x_f0. apply V3_eq; vproj; (unfold clamp; xsimp; cbn [xlt negb]; rewrite Rlt_bool_false by lra; reflexivity). }
    unfold mat_mirror in Eb. rewrite Ck in Eb. cbn [rbind] in Eb. rewrite Ek in Eb. cbn [negb] in Eb. injection Eb as <-. split; [exact F|reflexivity].
  Qed.

  Lemma mirror_sample u : in_unit (px u) ->
    bsdf_sample_f b (i_wo i) u = Ok (fin3 (vmirror n wo), fin3 (vscale (/ Rabs (vdot wo n)) k), XFin 1, 17%Z).
  Proof.
    intros U. destruct mirror_bsdf as (s & Hs & Hn & Hsn & F & B). unfold bsdf_sample_f. rewrite B. cbn [length Z.of_nat Z.eqb Pos.of_succ_nat].
    assert (P : bsdf_pick 1 (px u) = 0%Z).
    { destruct (in_unit_fin _ U) as (x & -> & Hx). unfold bsdf_pick, fto_usize, xint. xsimp. cbn [xmul xint xto_int].
      rewrite Rmult_1_r. assert (Zfloor x = 0%Z) as -> by (apply Zfloor_imp; simpl; lra). rewrite Ztrunc_IZR. reflexivity. }
    rewrite P. cbn [idx Z.ltb Z.compare Z.to_nat nth_error rbind]. unfold idx. cbn [Z.ltb Z.compare Z.to_nat nth_error rbind].
    rewrite Ew, (world_to_local_fin b s (vcross n s) n wo F).
    assert (Zw : feq (vz (fin3 (rW s (vcross n s) n wo))) f0 = false).
    { unfold fin3, rW. vproj. rewrite x_f0. xsimp. cbn [xeq]. rb. exact Hw. }
    rewrite Zw. cbn [specular_reflection bx_sample_f sr_sample].
    assert (E1 : feq (f1 (F := XR)) f0 = false) by (rewrite x_f0, x_f1; xsimp; cbn [xeq]; rb; lra). rewrite E1.
    change (has_flag _ SPECULAR) with true. cbn [negb andb Z.ltb Z.compare Pos.compare Pos.compare_cont bx_flag].
    change (Z.lor REFLECTION SPECULAR) with 17%Z.
    set (wl := mkV3 (- vx (rW s (vcross n s) n wo)) (- vy (rW s (vcross n s) n wo)) (vz (rW s (vcross n s) n wo))).
    change (mkV3 (fneg (vx (fin3 (rW s (vcross n s) n wo)))) (fneg (vy (fin3 (rW s (vcross n s) n wo)))) (vz (fin3 (rW s (vcross n s) n wo)))) with (fin3 wl).
    assert (A : local_to_world b (fin3 wl) = fin3 (vmirror n wo)).
    { rewrite (local_to_world_fin b s (vcross n s) n wl F). f_equal. pose proof (rL_rW s n Hs Hn Hsn wo) as R. cbv zeta in R.
      assert (R2 : rL s (vcross n s) n wl = vadd (vscale (-1) (rL s (vcross n s) n (rW s (vcross n s) n wo))) (vscale (2 * vdot wo n) n)).
      { unfold rL, wl, rW. vring. }
      rewrite R2, R. reflexivity. }
    assert (B' : v3divs (v3mul (fin3 k) (fresnel_noop (cos_theta (fin3 wl)))) (abs_cos_theta (fin3 wl)) = fin3 (vscale (/ Rabs (vdot wo n)) k)).
    { unfold abs_cos_theta, cos_theta, wl, rW. vproj. change (vz (fin3 (mkV3 (- vdot wo s) (- vdot wo (vcross n s)) (vdot wo n)))) with (XFin (vdot wo n)). xsimp. cbn [xabs].
      unfold fresnel_noop. rewrite x_f1. change (spectrum_of (XFin 1)) with (fin3 (mkV3 1 1 1)). rewrite v3mul_fin.
      rewrite v3divs_fin by (apply Rabs_no_R0; exact Hw). f_equal. unfold vprod. vring. }
    rewrite A, B', x_f1. reflexivity.
  Qed.

  Lemma mirror_f w : bsdf_f b (i_wo i) w = v3zero.
  Proof.
    destruct mirror_bsdf as (s & _ & _ & _ & _ & B). unfold bsdf_f. rewrite B. destruct (feq _ _); [reflexivity|].
    unfold bsdf_sum. cbn [fold_left]. destruct (_ || _); [|reflexivity]. cbn [specular_reflection bx_f]. apply add_0_l. exists v0. reflexivity.
  Qed.

  Lemma mirror_cos : v3scale (fin3 (vscale (/ Rabs (vdot wo n)) k)) (fabs (v3dot (fin3 (vmirror n wo)) (i_sn i))) = fin3 k.
  Proof.
    destruct mirror_bsdf as (s & _ & Hn & _). rewrite En, v3dot_fin. xsimp. cbn [xabs]. rewrite v3scale_fin. f_equal.
    assert (D : vdot (vmirror n wo) n = vdot wo n).
    { transitivity (- vdot wo n + 2 * vdot wo n * vdot n n); [unfold vmirror, vdot, vadd, vscale; vproj; ring|]. rewrite Hn. ring. }
    rewrite D. assert (R : Rabs (vdot wo n) <> 0) by (apply Rabs_no_R0; exact Hw). apply V3_eq; unfold vscale; vproj; field; exact R.
  Qed.

  (** What is seen in the reflected direction. *)
  Variables (j : interaction XR T) (t : T) (bj : bsdf XR) (L : rv).
  Hypothesis Ej : c_intersect (sc_shapes sc) (spawn_ray i (fin3 (vmirror n wo))) = Ok (Some j).
  Hypothesis Et : i_shape j = Some t.
  Hypothesis Ebj : sf_scatter (surf t) j = Ok bj.
  Hypothesis Hbj : bs_bxdfs bj = [].
  Hypothesis EL : sf_l (surf t) j (v3neg (fin3 (vmirror n wo))) = fin3 L.

  (** the extra share that direct lighting finds when light [l] is chosen *)
  Definition share (l : light XR T) : rv := if negb (l_is_delta l) && same_addr teq t l then vprod k L else v0.

  Lemma mirror_direct l u : in_unit (px u) -> direct_bsdf teq surf sc l i b u v3zero = Ok (fin3 (share l)).
  Proof.
    intros U. unfold direct_bsdf, share. destruct (l_is_delta l); [reflexivity|]. cbn [negb andb].
    rewrite (mirror_sample u U). cbn [rbind]. rewrite mirror_cos, Ek.
    assert (P : flt (f0 (F := XR)) (XFin 1) = true) by (rewrite x_f0; xsimp; cbn [xlt]; rb; lra). rewrite P.
    change (negb (Z.land 17 SPECULAR =? 0)%Z) with true. cbn [negb andb]. unfold scene_intersect. rewrite Ej. cbn [rbind]. rewrite Et.
    assert (K : forall q, v3add v3zero (v3divs (v3scale (v3mul (fin3 k) (fin3 q)) f1) (XFin 1)) = fin3 (vprod k q)).
    { intros q. change v3zero with (fin3 v0). rewrite v3mul_fin, x_f1, v3scale_fin, v3divs_fin, v3add_fin by lra. f_equal. unfold vprod. apply V3_eq; unfold vadd, vscale, v0; vproj; field. }
    unfold le. rewrite Et, EL. destruct (same_addr teq t l); cbn [rbind].
    - now rewrite K.
    - change (@v3zero XR _) with (fin3 v0) at 2. rewrite K. f_equal. f_equal. unfold vprod, v0. apply V3_eq; vproj; ring.
  Qed.

  Lemma mirror_one_light s x s' : met sc i -> uniform_sample_one_light sm teq surf sc s i b = Ok (x, s') ->
    sc_lights sc = [] /\ x = v3zero \/
    exists l, chosen sm sc s l /\ x = fin3 (vscale (IZR (Z.of_nat (length (sc_lights sc)))) (share l)).
  Proof.
    intros Hi. unfold uniform_sample_one_light. destruct (Z.eqb_spec (Z.of_nat (length (sc_lights sc))) 0) as [Z|Z].
    - left. split; [destruct (sc_lights sc); [reflexivity|cbn in Z; lia]|congruence].
    - destruct (sm_get_1d sm s) as [[u s1]| |] eqn:Eu; cbn [rbind]; try discriminate.
      destruct (idx (sc_lights sc) _) as [l| |] eqn:El; cbn [rbind]; try discriminate. pose proof (idx_in _ _ _ El) as Il.
      unfold estimate_direct.
      destruct (sm_get_2d sm s1) as [[u0 s2]| |] eqn:E0; cbn [rbind]; try discriminate. destruct (H2 _ _ _ E0) as [A0 B0].
      destruct (sm_get_2d sm s2) as [[u1 s3]| |] eqn:E1; cbn [rbind]; try discriminate. destruct (H2 _ _ _ E1) as [A1 B1].
      destruct (direct_light sc l i b u0 v3zero) as [ld| |] eqn:D; cbn [rbind]; try discriminate.
      apply (dark_direct_light surf sc H) in D; auto using mirror_f. subst ld. rewrite mirror_direct by auto. cbn [rbind].
      intros E. right. exists l. split; [exists u, s1; auto|]. change (fofZ (Z.of_nat (length (sc_lights sc)))) with (XFin (IZR (Z.of_nat (length (sc_lights sc))))) in E.
      rewrite v3scale_fin in E. congruence.
  Qed.
End Mirror.

(** What a ray that meets a mirror of colour [k] shows of a black emitter of radiance [L] seen in the
    mirror: k L from following the reflected ray, and once more, n times k L, if the light chosen for direct
    lighting, among n, is that emitter. *)
Record mirror_view {T} (surf : T -> surface XR T) (sc : scene XR T (container XR T)) (r : ray XR) (k : rv) (t : T) (L : rv) : Prop := {
  mv_ray : fin (r_o r) /\ unit3 (r_d r) /\ xis_nan (r_tmax r) = false;
  mv_colour : nn3 (fin3 k) /\ is_black (fin3 k) = false;
  mv_seen : exists i m n wo j bj,
    c_intersect (sc_shapes sc) r = Ok (Some i) /\ i_shape i = Some m /\ has_frame i /\ i_sn i = fin3 n /\ i_wo i = fin3 wo /\ vdot wo n <> 0 /\
    sf_l (surf m) i (v3neg (r_d r)) = v3zero /\ sf_scatter (surf m) i = mat_mirror (constant_texture (fin3 k)) i /\
    c_intersect (sc_shapes sc) (spawn_ray i (fin3 (vmirror n wo))) = Ok (Some j) /\ i_shape j = Some t /\
    sf_scatter (surf t) j = Ok bj /\ bs_bxdfs bj = [] /\ sf_l (surf t) j (v3neg (fin3 (vmirror n wo))) = fin3 L;
}.

Lemma mirror_li {T ST} (sm : sampler_ops XR ST) (teq : T -> T -> bool) (surf : T -> surface XR T) (sc : scene XR T (container XR T)) :
  no_negative_light surf sc -> (forall s u s', sm_get_2d sm s = Ok (u, s') -> in_unit (px u) /\ in_unit (py u)) ->
  forall fuel s r k t L x s', mirror_view surf sc r k t L -> li sm teq surf sc fuel s r = Ok (x, s') ->
  sc_lights sc = [] /\ x = fin3 (vprod k L) \/
  exists l, chosen sm sc s l /\
    x = fin3 (vadd (vscale (IZR (Z.of_nat (length (sc_lights sc)))) (share teq k t L l)) (vprod k L)).
Proof.
  intros H H2 fuel s r k t L x s' [(Fo & Fd & Ft) (Nk & Bk) (i & m & n & wo & j & bj & Ei & Em & Fr & En & Ew & Hw & E0 & Es & Ej & Et & Ebj & Hbj & EL)] E.
  assert (Hi : met sc i) by (exists r; auto).
  unfold li in E. destruct fuel as [|fuel]; cbn [li_loop] in E; [discriminate|]. unfold scene_intersect at 1 in E. rewrite Ei in E. cbn [rbind Z.eqb orb] in E.
  unfold le in E. rewrite Em, E0 in E. cbn [rbind] in E.
  rewrite mul_0_r, add_0_l in E by (first [exists (mkV3 1 1 1); reflexivity|exists v0; reflexivity]).
  change (MAX_BOUNCES <? 0)%Z with false in E. cbv iota in E. unfold compute_scattering in E. rewrite Em, Es in E.
  destruct (mat_mirror (constant_texture (fin3 k)) i) as [b| |] eqn:Eb; cbn [rbind] in E; try discriminate.
  destruct (uniform_sample_one_light sm teq surf sc s i b) as [[ld s1]| |] eqn:Eu; cbn [rbind] in E; try discriminate.
  assert (Q : exists q, ld = fin3 q /\ (sc_lights sc = [] /\ q = v0 \/ exists l, chosen sm sc s l /\ q = vscale (IZR (Z.of_nat (length (sc_lights sc)))) (share teq k t L l))).
  { destruct (mirror_one_light sm teq surf sc H H2 k n wo i b Bk Nk En Ew Hw Fr Eb j t L Ej Et EL s ld s1 Hi Eu) as [(A & ->)|(l & A & ->)].
    - exists v0. auto.
    - eexists. split; [reflexivity|]. right. exists l. auto. }
  destruct Q as (q & -> & Q).
  destruct (sm_get_2d sm s1) as [[u s2]| |] eqn:Eu2; cbn [rbind] in E; try discriminate. destruct (H2 _ _ _ Eu2) as [U1 U2].
  rewrite (mirror_sample k n wo i b Bk Nk En Ew Hw Fr Eb u U1) in E. cbn [rbind] in E.
  assert (P1 : feq (XFin 1) (f0 (F := XR)) = false) by (rewrite x_f0; xsimp; cbn [xeq]; rb; lra). rewrite P1 in E. cbn [orb] in E.
  assert (Bf : is_black (fin3 (vscale (/ Rabs (vdot wo n)) k)) = false).
  { assert (R : 0 < / Rabs (vdot wo n)) by (apply Rinv_0_lt_compat, Rabs_pos_lt, Hw).
    rewrite <- Bk. rewrite <- (dim_black _ R (fin3 k)). f_equal. unfold dim, fin3, vscale. vproj. cbn [xmul]. apply V3_eq; vproj; f_equal; ring. }
  rewrite Bf in E. cbv iota in E. rewrite (mirror_cos k n wo i b Bk Nk En Hw Fr Eb) in E.
  change (0 + 1)%Z with 1%Z in E. change (3 <? 1)%Z with false in E. cbv iota in E. change (negb (Z.land 17 SPECULAR =? 0)%Z) with true in E.
  assert (Kb : v3mul (spectrum_of f1) (v3divs (fin3 k) (XFin 1)) = fin3 k).
  { rewrite v3divs_fin by lra. rewrite mul_1_l by (eexists; reflexivity). f_equal. apply V3_eq; unfold vscale; vproj; field. }
  rewrite Kb in E. rewrite mul_1_l, add_0_l in E by (eexists; reflexivity).
  assert (Uw : unit3 (fin3 (vmirror n wo))).
  { destruct (nl_sample _ _ H i m b u _ _ _ _ Hi Em Es U1 U2 (mirror_sample k n wo i b Bk Nk En Ew Hw Fr Eb u U1) P1) as (A & _). exact A. }
  destruct (fin_spawn i _ (nl_hit _ _ H i Hi) Uw) as (Fo' & Fd' & Ft').
  apply (dark_end sm teq surf sc H H2 fuel s2 _ (fin3 q) (fin3 k) true 1 j t bj x s') in E; auto; try (eexists; reflexivity).
  change ((1 =? 0)%Z || true) with true in E. cbv iota in E. change (r_d (spawn_ray i (fin3 (vmirror n wo)))) with (fin3 (vmirror n wo)) in E.
  rewrite EL, v3mul_fin, v3add_fin in E. subst x.
  destruct Q as [(A & ->)|(l & A & ->)]; [left|right; exists l]; split; auto. f_equal. vring.
Qed.

(** With that emitter as the only light, one sees it twice: 2 k L instead of k L. *)
Theorem C73_counted_twice : forall (T ST : Type) (sm : sampler_ops XR ST) (teq : T -> T -> bool) (surf : T -> surface XR T)
    (sc : scene XR T (container XR T)) fuel s r k t L l x s',
  no_negative_light surf sc -> (forall s u s', sm_get_2d sm s = Ok (u, s') -> in_unit (px u) /\ in_unit (py u)) ->
  mirror_view surf sc r k t L -> sc_lights sc = [l] -> l_is_delta l = false -> l_addr l = Some t -> teq t t = true ->
  li sm teq surf sc fuel s r = Ok (x, s') -> x = fin3 (vscale 2 (vprod k L)).
Proof.
  intros T ST sm teq surf sc fuel s r k t L l x s' H H2 V El Dl Al Tt E.
  destruct (mirror_li sm teq surf sc H H2 fuel s r k t L x s' V E) as [(A & _)|(l' & (u & s1 & _ & Hc) & ->)]; [congruence|].
  assert (l' = l) as -> by (apply idx_in in Hc; rewrite El in Hc; destruct Hc as [|[]]; auto).
  rewrite El. cbn [length]. change (IZR (Z.of_nat 1)) with 1. unfold share, same_addr. rewrite Dl, Al, Tt. cbn [negb andb]. f_equal. vring.
Qed.
Print Assumptions C73_counted_twice.

(** If the light chosen for direct lighting is another one, the value is right: k L.  Missing: the other
    case, where it is wrong. *)
Theorem C73_partial : forall (T ST : Type) (sm : sampler_ops XR ST) (teq : T -> T -> bool) (surf : T -> surface XR T)
    (sc : scene XR T (container XR T)) fuel s r k t L x s',
  no_negative_light surf sc -> (forall s u s', sm_get_2d sm s = Ok (u, s') -> in_unit (px u) /\ in_unit (py u)) ->
  mirror_view surf sc r k t L -> (forall l, chosen sm sc s l -> l_is_delta l = true \/ same_addr teq t l = false) ->
  li sm teq surf sc fuel s r = Ok (x, s') -> x = fin3 (vprod k L).
Proof.
  intros T ST sm teq surf sc fuel s r k t L x s' H H2 V Hc E.
  destruct (mirror_li sm teq surf sc H H2 fuel s r k t L x s' V E) as [(_ & ->)|(l & C & ->)]; [reflexivity|].
  f_equal. assert (S : share teq k t L l = v0) by (unfold share; destruct (Hc l C) as [-> | -> ]; [|rewrite andb_false_r]; reflexivity).
  rewrite S. vring.
Qed.
Print Assumptions C73_partial.

(** A grey mirror under a lamp, given by the two interactions that rays can have: below and above. *)
Definition ex_below : interaction XR bool :=
  mkI (fin3 v0) (fin3 v0) (mkP2 f0 f0) (fin3 (mkV3 0 0 1)) (fin3 (mkV3 0 0 1)) (fin3 (mkV3 1 0 0)) (fin3 (mkV3 0 1 0)) (fin3 (mkV3 0 0 1)) (Some true).
Definition ex_above : interaction XR bool :=
  mkI (fin3 (mkV3 0 0 2)) (fin3 v0) (mkP2 f0 f0) (fin3 (mkV3 0 0 (-1))) (fin3 (mkV3 0 0 (-1))) (fin3 (mkV3 1 0 0)) (fin3 (mkV3 0 1 0)) (fin3 (mkV3 0 0 (-1)))
    (Some false).
Definition ex_grey : rv := mkV3 (1/2) (1/2) (1/2).
Definition ex_glow : rv := mkV3 3 2 1.
Definition ex_mirror_surf (e : V3 XR) (t : bool) : surface XR bool :=
  if t then mkSurf (mat_mirror (constant_texture (fin3 ex_grey))) (fun _ _ => v3zero)
  else mkSurf (mat_lambertian (constant_texture (fin3 v0))) (fun _ _ => e).
Definition ex_lamp (e : V3 XR) : light XR bool :=
  mkLight false (fun i _ => Ok (fin3 (mkV3 0 0 1), e, XFin 1, mkVis i ex_above)) (fun _ _ => XFin 1) (Some false).
Definition ex_mirror_scene (e : V3 XR) : scene XR bool (container XR bool) :=
  mkScene [ex_lamp e] (mkCont (bbox_new v3zero v3zero) (fun _ => Ok false) (fun r => Ok (Some (if flt (vz (r_d r)) f0 then ex_below else ex_above)))).

Lemma ex_hits e i : met (ex_mirror_scene e) i -> i = ex_below \/ i = ex_above.
Proof. intros (r & _ & _ & _ & E). cbn in E. destruct (xlt _ _); [left|right]; congruence. Qed.
Lemma ex_mirror_usual e t : usual_material (sf_scatter (ex_mirror_surf e t)).
Proof. destruct t; [apply usual_mirror|apply usual_lambertian]; intros i v E; unfold constant_texture in E; injection E as <-; eexists; reflexivity. Qed.
Lemma ex_unit z : z * z = 1 -> unit3 (fin3 (mkV3 0 0 z)).
Proof. intros H. eexists; split; [reflexivity|]. unfold vdot; vproj. lra. Qed.
Lemma ex_frame i : i = ex_below \/ i = ex_above -> has_frame i /\ unit3 (i_wo i) /\ fin_i i.
Proof.
  intros [-> | -> ]; (split; [|split; [apply ex_unit; lra|repeat split; eexists; reflexivity]]).
  - exists (mkV3 0 0 1), (mkV3 1 0 0). split; [reflexivity|]. split; [reflexivity|]. split; [unfold unit_dir, vnorm, vdot; vproj; replace (_ + _ + _) with 1 by ring; apply sqrt_1|].
    split; [intros E; apply (f_equal (fun q : rv => vx q)) in E; revert E; unfold v0; vproj; lra|unfold vdot; vproj; ring].
  - exists (mkV3 0 0 (-1)), (mkV3 1 0 0). split; [reflexivity|]. split; [reflexivity|]. split; [unfold unit_dir, vnorm, vdot; vproj; replace (_ + _ + _) with 1 by ring; apply sqrt_1|].
    split; [intros E; apply (f_equal (fun q : rv => vx q)) in E; revert E; unfold v0; vproj; lra|unfold vdot; vproj; ring].
Qed.
Lemma ex_bsdf e i t b : met (ex_mirror_scene e) i -> sf_scatter (ex_mirror_surf e t) i = Ok b ->
  exists s n, vdot s s = 1 /\ vdot n n = 1 /\ vdot s n = 0 /\ frame_is b s (vcross n s) n /\ (length (bs_bxdfs b) <= 2)%nat /\
    (forall x, In x (bs_bxdfs b) -> good_bx nn3 x) /\ unit3 (i_wo i).
Proof.
  intros Hi Hb. destruct (ex_frame i (ex_hits e i Hi)) as ((sn & du & E1 & E2 & Us & Hdu & Pd) & Uw & _).
  destruct (usual_good nn3 nn3_like fin clamp_nn3 _ _ _ (ex_mirror_usual e t) Hb) as (lx & -> & Hl & Hg).
  destruct (bsdf_adds_fields lx (bsdf_new i)) as (F1 & F2 & F3 & _ & F5). cbn [bsdf_new bs_bxdfs app] in F5.
  pose proof (bsdf_new_frame i sn du E1 E2 Hdu) as Fr. exists (vunit du), sn.
  split; [now apply vunit_dot|]. split; [now apply vnorm_1_dot|]. split; [unfold vunit; rewrite vdot_scale_l, Pd; ring|].
  split; [destruct Fr as (A & B & C); unfold frame_is; rewrite F1, F2, F3; auto|]. rewrite F5. auto.
Qed.
Lemma ex_mirror_ok e : nn3 e -> no_negative_light (ex_mirror_surf e) (ex_mirror_scene e).
Proof.
  intros Ne. constructor.
  - intros i Hi. apply (ex_frame i (ex_hits e i Hi)).
  - intros i t w Hi Ht _. destruct t; cbn [ex_mirror_surf sf_l]; [apply nn3_zero|exact Ne].
  - intros l i u wi li pdf v [<-|[]] Hi _ _ E _ _. cbn [ex_lamp l_sample_li] in E.
    assert (W : wi = fin3 (mkV3 0 0 1) /\ li = e /\ pdf = XFin 1) by (injection E; auto). destruct W as (-> & -> & ->).
    split; [apply ex_unit; lra|]. split; [exact Ne|]. exists 1. split; [reflexivity|lra].
  - intros l i wi [<-|[]] Hi _. exists 1. split; [reflexivity|lra].
  - intros i t b wi Hi Ht Hb Hw. destruct (ex_bsdf e i t b Hi Hb) as (s & n & Hs & Hn & Hsn & Fr & _ & Hg & Uo). now apply (good_bsdf_f nn3 nn3_like b s n).
  - intros i t b u wi f pdf flag Hi Ht Hb U1 U2 E P. destruct (ex_bsdf e i t b Hi Hb) as (s & n & Hs & Hn & Hsn & Fr & Hl & Hg & Uo).
    destruct (good_bsdf_sample nn3 nn3_like b s n Hs Hn Hsn Fr Hg (i_wo i) u wi f pdf flag) as ((d & -> & Ud & _) & R); auto; [lia|]. split; [exists d; auto|exact R].
Qed.
Lemma ex_half_2d s u s' : sm_get_2d ex_half s = Ok (u, s') -> in_unit (px u) /\ in_unit (py u).
Proof. apply (proj2 (ex_const_unit (1/2) ltac:(lra))). Qed.
Lemma ex_glow_nn : nn3 (fin3 ex_glow).
Proof. exists ex_glow. split; [reflexivity|]. unfold ex_glow. vproj. lra. Qed.
Lemma ex_black_bsdf : exists b, mat_lambertian (constant_texture (fin3 v0)) ex_above = Ok b /\ bs_bxdfs b = [].
Proof.
  assert (Ck : tex_clamped (constant_texture (fin3 v0)) ex_above = Ok v3zero).
  { unfold tex_clamped, constant_texture. cbn [rbind]. f_equal. unfold spectrum_clamp, fin3, v0, v3zero. vproj. rewrite x_f0.
    apply V3_eq; vproj; (unfold clamp; xsimp; cbn [xlt negb]; rewrite Rlt_bool_false by lra; reflexivity). }
  unfold mat_lambertian. rewrite Ck. cbn [rbind]. rewrite black_zero. cbn [negb]. eexists. split; reflexivity.
Qed.
Definition ex_down : ray XR := mkRay (fin3 (mkV3 0 0 1)) (fin3 (mkV3 0 0 (-1))) (XInf false).
Definition ex_up : ray XR := mkRay (fin3 (mkV3 0 0 1)) (fin3 (mkV3 0 0 1)) (XInf false).

Example C73_example : no_negative_light (ex_mirror_surf (fin3 ex_glow)) (ex_mirror_scene (fin3 ex_glow)) /\
  (forall s u s', sm_get_2d ex_half s = Ok (u, s') -> in_unit (px u) /\ in_unit (py u)) /\
  mirror_view (ex_mirror_surf (fin3 ex_glow)) (ex_mirror_scene (fin3 ex_glow)) ex_down ex_grey false ex_glow /\
  sc_lights (ex_mirror_scene (fin3 ex_glow)) = [ex_lamp (fin3 ex_glow)].
Proof.
  split; [apply ex_mirror_ok, ex_glow_nn|]. split; [exact ex_half_2d|]. split; [|reflexivity]. constructor.
  - split; [eexists; reflexivity|]. split; [apply ex_unit; lra|reflexivity].
  - split; [exists ex_grey; split; [reflexivity|unfold ex_grey; vproj; lra]|].
    unfold is_black, fin3, ex_grey. vproj. rewrite x_f0. xsimp. cbn [xeq]. rewrite Req_bool_false by lra. reflexivity.
  - destruct ex_black_bsdf as (bj & Eb & Hb).
    assert (V : vmirror (mkV3 0 0 1) (mkV3 0 0 1) = mkV3 0 0 1) by (unfold vmirror, vdot; apply V3_eq; unfold vadd, vscale; vproj; ring).
    exists ex_below, true, (mkV3 0 0 1), (mkV3 0 0 1), ex_above, bj. rewrite V.
    split. { cbn [ex_mirror_scene sc_shapes c_intersect ex_down r_d fin3 vz]. rewrite x_f0. xsimp. cbn [xlt]. rewrite Rlt_bool_true by lra. reflexivity. }
    split; [reflexivity|]. split; [apply ex_frame; auto|]. split; [reflexivity|]. split; [reflexivity|]. split; [unfold vdot; vproj; lra|].
    split; [reflexivity|]. split; [reflexivity|].
    split. { cbn [ex_mirror_scene sc_shapes c_intersect spawn_ray r_d fin3 vz]. rewrite x_f0. xsimp. cbn [xlt]. rewrite Rlt_bool_false by lra. reflexivity. }
    split; [reflexivity|]. split; [exact Eb|]. split; [exact Hb|reflexivity].
Qed.
Example C74_example : exists i b, c_intersect (sc_shapes (ex_mirror_scene (fin3 ex_glow))) ex_up = Ok (Some i) /\ i_shape i = Some false /\
  sf_scatter (ex_mirror_surf (fin3 ex_glow) false) i = Ok b /\ bs_bxdfs b = [] /\ sf_l (ex_mirror_surf (fin3 ex_glow) false) i (v3neg (r_d ex_up)) = fin3 ex_glow.
Proof.
  destruct ex_black_bsdf as (bj & Eb & Hb). exists ex_above, bj.
  split. { cbn [ex_mirror_scene sc_shapes c_intersect ex_up r_d fin3 vz]. rewrite x_f0. xsimp. cbn [xlt]. rewrite Rlt_bool_false by lra. reflexivity. }
  split; [reflexivity|]. split; [exact Eb|]. split; [exact Hb|reflexivity].
Qed.
(** the same scene with half the light *)
Example C75_example : dimmed_scene (1/2) (ex_mirror_surf (fin3 ex_glow)) (ex_mirror_surf (dim (1/2) (fin3 ex_glow)))
  (ex_mirror_scene (fin3 ex_glow)) (ex_mirror_scene (dim (1/2) (fin3 ex_glow))).
Proof.
  constructor; [reflexivity| |intros [] i; reflexivity|intros [] i w; [symmetry; apply dim_zero|reflexivity]].
  constructor; [|constructor]. constructor; reflexivity.
Qed.

(** In binary32, with the library's own parts: a white mirror at height 0, above it an emitter of radiance 1
    facing down, and a ray down to the mirror from between them.  The emitter is black, so there are no
    further reflections and one should see radiance 1; the path tracer returns 2. *)
Section W73.
  Context (L : Libm b32).
  Definition two_tris (a b : triangle b32) (t : bool) : shape b32 bool := triangle_shape (if t then a else b).
  Definition lamp (a b : triangle b32) (t : bool) : area_light b32 bool := mkArea (if t then v3zero else spectrum_of f1) (two_tris a b t).
  Definition mirror_and_lamp (a b : triangle b32) (t : bool) : surface b32 bool :=
    if t then mkSurf (mat_mirror (constant_texture (spectrum_of f1))) (fun _ _ => v3zero)
    else mkSurf (mat_lambertian (constant_texture v3zero)) (area_l (lamp a b false)).
  Definition lamp_scene (a b : triangle b32) : res (scene b32 bool (container b32 bool)) :=
    construct (two_tris a b) (lamp a b) (fun l => let! c := simple_new (two_tris a b) l in Ok (simple_container (two_tris a b) c))
      (add_area_light (add_shape builder_new true) false).
  Definition w_lamp : triangle b32 := mkTri (tr_v (w_level L 2)) None true.
  Definition lamp_li (a b : triangle b32) (rng : unit -> b32 * unit) (sc : scene b32 bool (container b32 bool)) (r : ray b32)
    : res (V3 b32 * random_sampler) :=
    li (random_ops rng Release) Bool.eqb (mirror_and_lamp a b) sc 66 (random_new 1 tt) r.
  Definition w_half (g : unit) : b32 * unit := (fhalf, tt).
  Definition w_up : ray b32 := mkRay (mkV3 f0 f0 f1) (mkV3 f0 f0 f1) finf.
  (** the shape that a ray meets *)
  Definition meets (sc : scene b32 bool (container b32 bool)) (r : ray b32) (t : bool) : bool :=
    match c_intersect (sc_shapes sc) r with Ok (Some i) => match i_shape i with Some s => Bool.eqb s t | None => false end | _ => false end.
  Definition shows {S} (r : res (V3 b32 * S)) (z : Z) : bool :=
    match r with Ok (l, _) => feq (vx l) (fofZ z) && feq (vy l) (fofZ z) && feq (vz l) (fofZ z) | _ => false end.
  Lemma w_twice : match lamp_scene (w_level L 0) w_lamp with
    | Ok sc => meets sc (w_look L) true && meets sc w_up false &&
        shows (lamp_li (w_level L 0) w_lamp w_half sc w_up) 1 && shows (lamp_li (w_level L 0) w_lamp w_half sc (w_look L)) 2
    | _ => false end = true.
  Proof. vm_compute. reflexivity. Qed.
End W73.

(** Looking up from a point, one sees the lamp with radiance 1; looking down from the same point at a
    white horizontal mirror, with radiance 2. *)
Theorem C73_refuted : forall L : Libm b32,
  exists (a b : triangle b32) (sc : scene b32 bool (container b32 bool)) (rng : unit -> b32 * unit) (up down : ray b32),
    in_unit (fst (rng tt)) /\ lamp_scene L a b = Ok sc /\
    r_o up = r_o down /\ r_d up = mkV3 f0 f0 f1 /\ r_d down = mkV3 f0 f0 (fofZ (-1)) /\
    meets sc down true = true /\ meets sc up false = true /\
    shows L (lamp_li L a b rng sc up) 1 = true /\ shows L (lamp_li L a b rng sc down) 2 = true.
Proof.
  intros L. pose proof (w_twice L) as W. destruct (lamp_scene L (w_level L 0) (w_lamp L)) as [sc| |] eqn:E; try discriminate.
  apply andb_prop in W as [W W4]. apply andb_prop in W as [W W3]. apply andb_prop in W as [W1 W2].
  exists (w_level L 0), (w_lamp L), sc, (w_half L), (w_up L), (w_look L).
  split; [repeat split; vm_compute; reflexivity|]. split; [exact E|]. split; [reflexivity|]. split; [reflexivity|].
  split; [reflexivity|]. auto.
Qed.
Print Assumptions C73_refuted.
