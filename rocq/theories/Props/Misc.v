(** * Textures, materials and numeric helpers (C67, C68, C69) *)
From Coq Require Import ZArith Reals List Bool Lia Lra.
From Flocq Require Import Core IEEE754.BinarySingleNaN.
From Verif Require Import Model.Num Model.NumX Model.NumB Model.Vector Model.Common Model.Interaction Model.Sampling Model.Reflection
  Model.Fresnel Model.Microfacet Model.BxDFs Model.Texture Model.Material.
From Verif Require Import Proofs.XBase Proofs.FLaws Proofs.MicroProofs Proofs.ShapeProofs.
Import ListNotations.
Local Open Scope R_scope.

(** ** C67: every arithmetic with the laws of [FLaws] *)

(** A colouring of the cells of the plane (of space) with two values that changes from each cell to the
    next along each axis and repeats after two. *)
Definition other {A} (a b c c' : A) : Prop := (c = a /\ c' = b) \/ (c = b /\ c' = a).
Definition alternating2 {A} (a b : A) (pat : Z -> Z -> A) : Prop := forall p q,
  other a b (pat p q) (pat (p + 1)%Z q) /\ other a b (pat p q) (pat p (q + 1)%Z) /\
  pat (p + 2)%Z q = pat p q /\ pat p (q + 2)%Z = pat p q.
Definition alternating3 {A} (a b : A) (pat : Z -> Z -> Z -> A) : Prop := forall p q r,
  other a b (pat p q r) (pat (p + 1)%Z q r) /\ other a b (pat p q r) (pat p (q + 1)%Z r) /\ other a b (pat p q r) (pat p q (r + 1)%Z) /\
  pat (p + 2)%Z q r = pat p q r /\ pat p (q + 2)%Z r = pat p q r /\ pat p q (r + 2)%Z = pat p q r.

Definition in_i64 (z : Z) : Prop := (- 2 ^ 63 <= z < 2 ^ 63)%Z.

Lemma floor_i64 {F} {FO : FOps F} {FL : FLaws F} (v : F) x : emb v = XFin x -> in_i64 (Zfloor x) -> fto_i64 (ffloor v) = Zfloor x.
Proof.
  intros E H. unfold fto_i64. rewrite emb_to_int, emb_floor, E. cbn [xint xto_int]. rewrite Ztrunc_IZR.
  unfold in_i64, i64_min, i64_max in *. lia.
Qed.

Lemma i64_parity m z : (m = Debug -> in_i64 z) -> exists v, i64_of m z = Ok v /\ Z.even v = Z.even z.
Proof.
  intros H. unfold i64_of. destruct (in_rangeb i64_min i64_max z) eqn:E; [eauto|].
  assert (N : ~ in_i64 z).
  { intros [A B]. unfold in_rangeb, i64_min, i64_max in E. rewrite andb_false_iff, !Z.leb_gt in E. lia. }
  destruct m; [exfalso; auto|]. exists (wrap_s 64 z). split; [reflexivity|].
  unfold wrap_s. rewrite Z.even_sub, Z.even_pow by lia. change (Z.even 2) with true.
  rewrite Zmod_eq_full by discriminate. rewrite Z.even_sub, Z.even_add, Z.even_mul.
  rewrite !Z.even_pow by lia. change (Z.even 2) with true. rewrite orb_true_r. destruct (Z.even z); reflexivity.
Qed.

Lemma rem2_even z : (Z.rem z 2 =? 0)%Z = Z.even z.
Proof.
  destruct (Z.even z) eqn:E.
  - apply Z.eqb_eq. apply Z.even_spec in E as [k ->]. rewrite Z.mul_comm. apply Z.rem_mul. discriminate.
  - apply Z.eqb_neq. intros H. apply Z.rem_divide in H; [|discriminate]. destruct H as [k ->].
    rewrite Z.even_mul in E. change (Z.even 2) with true in E. rewrite orb_true_r in E. discriminate.
Qed.

Theorem C67_plane_partial : forall (F T A : Type) (FO : FOps F) (FL : FLaws F) (m : build) (map : interaction F T -> P2 F) (a b : A),
  exists pat, alternating2 a b pat /\
    forall i x y, emb (px (map i)) = XFin x -> emb (py (map i)) = XFin y ->
      in_i64 (Zfloor x) -> in_i64 (Zfloor y) -> (m = Debug -> in_i64 (Zfloor x + Zfloor y)) ->
      checkerboard m map a b i = Ok (pat (Zfloor x) (Zfloor y)).
Proof.
  intros F T A FO FL m map a b. exists (fun p q => if Z.even (p + q) then a else b). split.
  - intros p q. unfold other. rewrite !Z.even_add. change (Z.even 1) with false. change (Z.even 2) with true.
    destruct (Z.even p), (Z.even q); cbn; auto 8.
  - intros i x y Ex Ey Hx Hy Hs. unfold checkerboard. rewrite (floor_i64 _ x Ex Hx), (floor_i64 _ y Ey Hy).
    destruct (i64_parity m _ Hs) as (v & -> & Ev). cbn [rbind]. rewrite rem2_even, Ev. reflexivity.
Qed.
Print Assumptions C67_plane_partial.

Theorem C67_space_partial : forall (F T A : Type) (FO : FOps F) (FL : FLaws F) (m : build) (map : interaction F T -> res (V3 F)) (a b : A),
  exists pat, alternating3 a b pat /\
    forall i p x y z, map i = Ok p -> emb (vx p) = XFin x -> emb (vy p) = XFin y -> emb (vz p) = XFin z ->
      in_i64 (Zfloor x) -> in_i64 (Zfloor y) -> in_i64 (Zfloor z) ->
      (m = Debug -> in_i64 (Zfloor x + Zfloor y) /\ in_i64 (Zfloor x + Zfloor y + Zfloor z)) ->
      checkerboard3 m map a b i = Ok (pat (Zfloor x) (Zfloor y) (Zfloor z)).
Proof.
  intros F T A FO FL m map a b. exists (fun p q r => if Z.even (p + q + r) then a else b). split.
  - intros p q r. unfold other. rewrite !Z.even_add. change (Z.even 1) with false. change (Z.even 2) with true.
    destruct (Z.even p), (Z.even q), (Z.even r); cbn; auto 10.
  - intros i p x y z Em Ex Ey Ez Hx Hy Hz Hs. unfold checkerboard3. rewrite Em. cbn [rbind].
    rewrite (floor_i64 _ x Ex Hx), (floor_i64 _ y Ey Hy), (floor_i64 _ z Ez Hz).
    destruct m.
    + destruct (Hs eq_refl) as [H1 H2].
      assert (I : forall z, in_i64 z -> i64_of Debug z = Ok z).
      { intros w Hw. unfold i64_of. assert (in_rangeb i64_min i64_max w = true) as ->; auto.
        unfold in_i64 in Hw. unfold in_rangeb, i64_min, i64_max. rewrite andb_true_iff, !Z.leb_le. lia. }
      rewrite I by auto. cbn [rbind]. rewrite I by auto. cbn [rbind]. rewrite rem2_even. reflexivity.
    + destruct (i64_parity Release (Zfloor x + Zfloor y)) as (v & -> & Ev); [discriminate|]. cbn [rbind].
      destruct (i64_parity Release (v + Zfloor z)) as (v' & -> & Ev'); [discriminate|]. cbn [rbind].
      rewrite rem2_even, Ev', Z.even_add, Ev, <- Z.even_add. reflexivity.
Qed.
Print Assumptions C67_space_partial.

(** Moving the point one cell along an axis. *)
Theorem C67_one_cell : forall (F T A : Type) (FO : FOps F) (FL : FLaws F) (m : build) (map : interaction F T -> P2 F) (a b : A) i j x y,
  emb (px (map i)) = XFin x -> emb (py (map i)) = XFin y ->
  (emb (px (map j)) = XFin (x + 1) /\ emb (py (map j)) = XFin y) \/ (emb (px (map j)) = XFin x /\ emb (py (map j)) = XFin (y + 1)) ->
  Rabs x <= IZR (2 ^ 61) -> Rabs y <= IZR (2 ^ 61) ->
  exists c c', checkerboard m map a b i = Ok c /\ checkerboard m map a b j = Ok c' /\ other a b c c'.
Proof.
  intros F T A FO FL m map a b i j x y Ex Ey Hj Bx By.
  destruct (C67_plane_partial F T A FO FL m map a b) as (pat & Ha & Hp).
  assert (FB : forall r, Rabs r <= IZR (2 ^ 61) + 1 -> (- 2 ^ 61 - 2 <= Zfloor r <= 2 ^ 61 + 1)%Z).
  { intros r Hr. apply Rabs_le_inv in Hr. split.
    - apply Zfloor_lub. rewrite minus_IZR, opp_IZR. lra.
    - apply le_IZR. eapply Rle_trans; [apply Zfloor_lb|]. rewrite plus_IZR. lra. }
  assert (F1 : forall r, Zfloor (r + 1) = (Zfloor r + 1)%Z).
  { intros r. apply Zfloor_imp. rewrite !plus_IZR. pose proof (Zfloor_lb r). pose proof (Zfloor_ub r). lra. }
  assert (B1 : forall r, Rabs r <= IZR (2 ^ 61) -> Rabs (r + 1) <= IZR (2 ^ 61) + 1).
  { intros r Hr. eapply Rle_trans; [apply Rabs_triang|]. rewrite Rabs_R1. lra. }
  assert (Px := FB x ltac:(lra)). assert (Py := FB y ltac:(lra)).
  unfold in_i64 in Hp.
  exists (pat (Zfloor x) (Zfloor y)). destruct (Ha (Zfloor x) (Zfloor y)) as (A1 & A2 & _).
  destruct Hj as [[Jx Jy]|[Jx Jy]].
  - exists (pat (Zfloor x + 1)%Z (Zfloor y)). rewrite (Hp i x y), <- F1, (Hp j (x + 1) y), F1 by (auto; rewrite ?F1; lia). auto.
  - exists (pat (Zfloor x) (Zfloor y + 1)%Z). rewrite (Hp i x y), <- F1, (Hp j x (y + 1)), F1 by (auto; rewrite ?F1; lia). auto.
Qed.
Print Assumptions C67_one_cell.

(** Not for all finite positions: at (2^62, 2^62) the sum of the two cells overflows and a debug build
    panics (binary32). *)
Definition at_uv (u v : b32) : interaction b32 unit :=
  mkI (mkV3 u v u) (mkV3 u v u) (mkP2 u v) (mkV3 u v u) (mkV3 u v u) (mkV3 u v u) (mkV3 u v u) (mkV3 u v u) None.
Theorem C67_refuted : forall L : Libm b32, exists i : interaction b32 unit,
  fis_finite (px (uv_mapping f1 f1 f0 f0 i)) = true /\ fis_finite (py (uv_mapping f1 f1 f0 f0 i)) = true /\
  checkerboard Debug (uv_mapping f1 f1 f0 f0) true false i = Panic.
Proof. intros L. exists (at_uv (fofZ (2 ^ 62)) (fofZ (2 ^ 62))). repeat split; vm_compute; reflexivity. Qed.
Print Assumptions C67_refuted.

(** cells (-1, 0), (-2, 0), (-3, 0) in binary32 *)
Example C67_example : forall (L : Libm b32) m,
  let tex u := checkerboard m (uv_mapping f1 f1 f0 f0) true false (at_uv (fdiv (fofZ u) (fofZ 2)) fhalf) in
  tex (-1)%Z = Ok false /\ tex (-3)%Z = Ok true /\ tex (-5)%Z = Ok false /\ tex 1%Z = Ok true.
Proof. intros L [] tex; repeat split; vm_compute; reflexivity. Qed.

(** ** C68 *)

(** The library's scattering components with reflectance (or transmittance) [r]. *)
Inductive scatters {F} {FO : FOps F} (r : V3 F) : bxdf F -> Prop :=
| s_lambertian : scatters r (lambertian r)
| s_mirror fr : scatters r (specular_reflection r fr)
| s_glossy d fr : scatters r (microfacet_reflection r d fr)
| s_through ea eb : scatters r (specular_transmission r ea eb)
| s_rough ea eb d : scatters r (microfacet_transmission r ea eb d).

(** No channel is below 0; every channel is 0. *)
Definition not_negative {F} {FO : FOps F} (r : V3 F) : Prop := flt (vx r) f0 = false /\ flt (vy r) f0 = false /\ flt (vz r) f0 = false.
Definition all_zero {F} {FO : FOps F} (r : V3 F) : Prop := feq (vx r) f0 = true /\ feq (vy r) f0 = true /\ feq (vz r) f0 = true.
(** What the material makes of a channel [v] of the texture: [v] itself unless it is below 0. *)
Definition kept {F} {FO : FOps F} (v r : F) : Prop := if flt v f0 then r = f0 else r = v.
Definition reflectance {F} {FO : FOps F} (v r : V3 F) : Prop :=
  kept (vx v) (vx r) /\ kept (vy v) (vy r) /\ kept (vz v) (vz r).

Section C68.
  Context {F T : Type} {FO : FOps F} {FL : FLaws F}.

  Lemma clamp0_kept (v : F) : kept v (clamp v f0 finf).
  Proof.
    unfold kept, clamp. destruct (flt v f0); auto.
    destruct (flt finf v) eqn:E; auto. rewrite emb_lt, emb_finf in E. destruct (emb v) as [|[]|]; discriminate.
  Qed.
  Lemma kept_nneg (v r : F) : kept v r -> flt r f0 = false.
  Proof.
    unfold kept. destruct (flt v f0) eqn:E; intros ->; auto. rewrite emb_lt, emb_f0. cbn. apply Rlt_bool_false. lra.
  Qed.
  Lemma clamped_is (t : texture F T (V3 F)) i v : t i = Ok v -> exists r, tex_clamped t i = Ok r /\ reflectance v r /\ not_negative r.
  Proof.
    intros E. unfold tex_clamped. rewrite E. cbn [rbind]. eexists. split; [reflexivity|].
    assert (R0 : reflectance v (spectrum_clamp v f0 finf)) by (repeat split; apply clamp0_kept).
    split; auto. destruct R0 as (A & B & C). repeat split; eapply kept_nneg; eauto.
  Qed.
  Lemma black_all_zero (r : V3 F) : is_black r = true <-> all_zero r.
  Proof. unfold is_black, all_zero. rewrite !andb_true_iff. tauto. Qed.
End C68.

(** One component with the texture's reflectance, or none if that is black. *)
Definition one_part {F} {FO : FOps F} (v : V3 F) (l : list (bxdf F)) : Prop :=
  exists r, reflectance v r /\ not_negative r /\
    ((all_zero r /\ l = []) \/ (~ all_zero r /\ exists c, l = [c] /\ scatters r c)).

Theorem C68_lambertian_mirror : forall (F T : Type) (FO : FOps F) (FL : FLaws F) (k : texture F T (V3 F)) i v, k i = Ok v ->
  (exists b, mat_lambertian k i = Ok b /\ one_part v (bs_bxdfs b)) /\
  (exists b, mat_mirror k i = Ok b /\ one_part v (bs_bxdfs b)).
Proof.
  intros F T FO FL k i v E. destruct (clamped_is k i v E) as (r & Er & Hr & Hn).
  unfold mat_lambertian, mat_mirror. rewrite Er. cbn [rbind].
  split; eexists; (split; [reflexivity|]); exists r; (split; [exact Hr|split; [exact Hn|]]); rewrite <- black_all_zero;
    destruct (is_black r); cbn [negb bsdf_new bs_bxdfs bsdf_add app]; auto; right; (split; [discriminate|]); eexists; (split; [reflexivity|constructor]).
Qed.
Print Assumptions C68_lambertian_mirror.

(** At most two components, one for each of the two textures that is not black. *)
Theorem C68_plastic : forall (F T : Type) (FO : FOps F) (FL : FLaws F) (kd ks : texture F T (V3 F)) (ro : texture F T F) i d s x,
  kd i = Ok d -> ks i = Ok s -> ro i = Ok x ->
  exists b l1 l2, mat_plastic kd ks ro i = Ok b /\ bs_bxdfs b = l1 ++ l2 /\ one_part d l1 /\ one_part s l2.
Proof.
  intros F T FO FL kd ks ro i d s x Ed Es Ex.
  destruct (clamped_is kd i d Ed) as (r1 & E1 & H1 & N1). destruct (clamped_is ks i s Es) as (r2 & E2 & H2 & N2).
  unfold mat_plastic. rewrite E1, E2, Ex. cbn [rbind].
  assert (P1 : one_part d (if negb (is_black r1) then [lambertian r1] else [])).
  { exists r1. rewrite <- black_all_zero. split; auto. split; auto. destruct (is_black r1); cbn [negb]; auto.
    right. split; [discriminate|]. eexists. split; [reflexivity|constructor]. }
  destruct (is_black r2) eqn:B2; cbn [negb].
  - exists (if negb (is_black r1) then bsdf_add (bsdf_new i) (lambertian r1) else bsdf_new i), (if negb (is_black r1) then [lambertian r1] else []), [].
    split; [reflexivity|]. split; [destruct (is_black r1); reflexivity|]. split; [exact P1|].
    exists r2. rewrite <- black_all_zero. auto.
  - eexists; exists (if negb (is_black r1) then [lambertian r1] else []); eexists. split; [reflexivity|]. split.
    + destruct (is_black r1); cbn [negb bsdf_new bs_bxdfs bsdf_add app]; reflexivity.
    + split; [exact P1|]. exists r2. rewrite <- black_all_zero. split; auto. split; auto. right. split; [congruence|].
      eexists. split; [reflexivity|]. destruct (feq x f0); constructor.
Qed.
Print Assumptions C68_plastic.

Theorem C68_glass : forall (F T : Type) (FO : FOps F) (FL : FLaws F) (kr kt : texture F T (V3 F)) (eta ru rv : texture F T F) i r t e u v,
  kr i = Ok r -> kt i = Ok t -> eta i = Ok e -> ru i = Ok u -> rv i = Ok v ->
  exists b l1 l2, mat_glass kr kt eta ru rv i = Ok b /\ bs_bxdfs b = l1 ++ l2 /\ one_part r l1 /\ one_part t l2.
Proof.
  intros F T FO FL kr kt eta ru rv i r t e u v Er Et Ee Eu Ev.
  destruct (clamped_is kr i r Er) as (r1 & E1 & H1 & N1). destruct (clamped_is kt i t Et) as (r2 & E2 & H2 & N2).
  unfold mat_glass. rewrite E1, E2, Ee, Eu, Ev. cbn [rbind].
  assert (P : forall v r c, reflectance v r -> not_negative r -> scatters r c -> one_part v (if negb (is_black r) then [c] else [])).
  { clear. intros v r c H N S. exists r. rewrite <- black_all_zero. split; auto. split; auto. destruct (is_black r); cbn [negb]; auto.
    right. split; [discriminate|]. eauto. }
  destruct (feq u f0 && feq v f0).
  - eexists. exists (if negb (is_black r1) then [specular_reflection r1 (fresnel_dielectric f1 e)] else []),
      (if negb (is_black r2) then [specular_transmission r2 f1 e] else []).
    split; [reflexivity|]. split; [destruct (is_black r1), (is_black r2); reflexivity|]. split; apply P; auto; constructor.
  - eexists. exists (if negb (is_black r1) then [microfacet_reflection r1 (mkMf u v) (fresnel_dielectric f1 e)] else []),
      (if negb (is_black r2) then [microfacet_transmission r2 f1 e (mkMf u v)] else []).
    split; [reflexivity|]. split; [destruct (is_black r1), (is_black r2); reflexivity|]. split; apply P; auto; constructor.
Qed.
Print Assumptions C68_glass.

(** Metal: always exactly one component, also for a black texture. *)
Theorem C68_metal_partial : forall (F T : Type) (FO : FOps F) (FL : FLaws F) (kr eta k : texture F T (V3 F)) (ru rv : texture F T F) i r e x u v,
  kr i = Ok r -> eta i = Ok e -> k i = Ok x -> ru i = Ok u -> rv i = Ok v ->
  exists b c s, mat_metal kr eta k ru rv i = Ok b /\ bs_bxdfs b = [c] /\ scatters s c /\ reflectance r s /\ not_negative s.
Proof.
  intros F T FO FL kr eta k ru rv i r e x u v Er Ee Ek Eu Ev. destruct (clamped_is kr i r Er) as (r1 & E1 & H1 & N1).
  unfold mat_metal. rewrite E1, Ee, Ek, Eu, Ev. cbn [rbind].
  eexists; eexists; exists r1. split; [reflexivity|]. split; [reflexivity|]. split; [|auto].
  destruct (feq u f0 && feq v f0); constructor.
Qed.
Print Assumptions C68_metal_partial.

Theorem C68_refuted : forall (F T : Type) (FO : FOps F) (i : interaction F T), exists (black eta k : texture F T (V3 F)) (ro : texture F T F) b,
  black i = Ok v3zero /\ mat_metal black eta k ro ro i = Ok b /\ bs_bxdfs b <> [].
Proof.
  intros F T FO i.
  exists (constant_texture v3zero), (constant_texture (spectrum_of f1)), (constant_texture (spectrum_of f1)), (constant_texture f0).
  eexists. split; [reflexivity|]. split; [reflexivity|]. discriminate.
Qed.
Print Assumptions C68_refuted.

(** a texture value (-1, 0, -2) is black for plastic's matt part; (1, -1, 1/2) gives (1, 0, 1/2) *)
Example C68_example : forall (L : Libm b32) (i : interaction b32 unit),
  let v := mkV3 f1 (fofZ (-1)) fhalf in
  exists b c, mat_plastic (constant_texture (mkV3 (fofZ (-1)) f0 (fofZ (-2)))) (constant_texture v) (constant_texture f0) i = Ok b /\
    bs_bxdfs b = [c] /\ scatters (mkV3 f1 f0 fhalf) c.
Proof.
  intros L i v. eexists; eexists. split; [reflexivity|]. split; [reflexivity|].
  exact (s_mirror (mkV3 f1 f0 fhalf) (fresnel_dielectric (flit 15 1) f1)).
Qed.

(** ** C69 *)

(** [clamp], every arithmetic *)
Theorem C69_clamp : forall (F : Type) (FO : FOps F) (FL : FLaws F) (x lo hi : F), fle lo hi = true ->
  (fis_nan x = false -> fle lo (clamp x lo hi) = true /\ fle (clamp x lo hi) hi = true) /\
  (fle lo x = true -> fle x hi = true -> clamp x lo hi = x) /\
  (flt x lo = true -> clamp x lo hi = lo) /\ (flt hi x = true -> clamp x lo hi = hi) /\
  (fis_nan x = true -> clamp x lo hi = x).
Proof.
  intros F FO FL x lo hi H. pose proof (fle_nnan _ _ H) as [Nl Nh]. unfold clamp.
  split; [|split; [|split; [|split]]].
  - intros N. destruct (flt x lo) eqn:A; [split; auto using fle_refl|]. destruct (flt hi x) eqn:B; [split; auto using fle_refl|].
    rewrite flt_nge in A, B by auto. apply negb_false_iff in A, B. auto.
  - intros A B. pose proof (fle_nnan _ _ A) as [_ N]. rewrite flt_nge, A by auto. cbn [negb]. rewrite flt_nge, B by auto. reflexivity.
  - intros ->. reflexivity.
  - intros A. destruct (flt x lo) eqn:B; [|rewrite A; reflexivity]. exfalso.
    rewrite emb_lt in A, B. rewrite emb_le in H. destruct (emb x) as [|[]|], (emb lo) as [|[]|], (emb hi) as [|[]|]; cbn in *; try discriminate.
    rb. lra.
  - intros N. rewrite emb_nan in N. rewrite !emb_lt. destruct (emb x) as [|[]|]; try discriminate. cbn.
    destruct (emb hi) as [|[]|]; reflexivity.
Qed.
Print Assumptions C69_clamp.

(** [quadratic], exact arithmetic; missing: b = c = 0. *)
Theorem C69_quadratic_partial : forall a b c : R, a <> 0 -> b <> 0 \/ c <> 0 ->
  (quadratic (XFin a) (XFin b) (XFin c) = None /\ forall t, a * t * t + b * t + c <> 0) \/
  (exists x y, quadratic (XFin a) (XFin b) (XFin c) = Some (XFin x, XFin y) /\ x <= y /\
     forall t, a * t * t + b * t + c = 0 <-> t = x \/ t = y).
Proof.
  intros a b c Ha Hbc. destruct (Rlt_dec (b * b - 4 * a * c) 0) as [D|D].
  - left. split; [apply quadratic_none; auto|]. intros t E.
    assert (0 <= (2 * a * t + b) * (2 * a * t + b)) by apply Rle_0_sqr.
    assert (K : (2 * a * t + b) * (2 * a * t + b) = 4 * a * (a * t * t + b * t + c) + (b * b - 4 * a * c)) by ring. rewrite E in K. lra.
  - right. apply quadratic_some; auto. lra.
Qed.
Print Assumptions C69_quadratic_partial.

(** x^2 = 0: the second root is reported as NaN. *)
Theorem C69_quadratic_refuted : exists a b c : R, a <> 0 /\ a * 0 * 0 + b * 0 + c = 0 /\
  quadratic (XFin a) (XFin b) (XFin c) = Some (XFin 0, XNaN).
Proof. exists 1, 0, 0. split; [lra|]. split; [lra|]. apply quadratic_zero. lra. Qed.
Print Assumptions C69_quadratic_refuted.

(** luminance, exact arithmetic *)
Theorem C69_luminance : forall r g b : R, exists y, spectrum_y (mkV3 (XFin r) (XFin g) (XFin b)) = XFin y /\
  Rmin r (Rmin g b) <= y <= Rmax r (Rmax g b) /\ (r = g -> g = b -> y = r).
Proof.
  intros r g b. exists (212671 / 1000000 * r + 715160 / 1000000 * g + 72169 / 1000000 * b). split; [|split].
  - unfold spectrum_y, flit. cbn [vx vy vz]. xsimp. rewrite !xdiv_fin by (apply not_0_IZR; discriminate). cbn [xmul xadd]. apply (f_equal XFin).
    change (10 ^ Z.of_nat 6)%Z with 1000000%Z. reflexivity.
  - pose proof (Rmin_l r (Rmin g b)). pose proof (Rmin_r r (Rmin g b)). pose proof (Rmin_l g b). pose proof (Rmin_r g b).
    pose proof (Rmax_l r (Rmax g b)). pose proof (Rmax_r r (Rmax g b)). pose proof (Rmax_l g b). pose proof (Rmax_r g b). lra.
  - intros -> ->. lra.
Qed.
Print Assumptions C69_luminance.

Example C69_example : clamp (XFin 7) (XFin 1) (XFin 5) = XFin 5 /\
  quadratic (XFin 1) (XFin (-3)) (XFin 2) = Some (XFin 1, XFin 2).
Proof.
  split; [unfold clamp; xsimp; cbn; rewrite Rlt_bool_false, Rlt_bool_true by lra; reflexivity|].
  destruct (C69_quadratic_partial 1 (-3) 2) as [(_ & N)|(x & y & -> & L & H)]; [lra|lra|exfalso; apply (N 1); lra|].
  pose proof (proj1 (H 1) ltac:(lra)) as [E1|E1]; pose proof (proj1 (H 2) ltac:(lra)) as [E2|E2]; subst; try lra; auto.
  all: exfalso; lra.
Qed.
