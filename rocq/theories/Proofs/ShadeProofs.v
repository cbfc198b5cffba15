(** * The shading frame and the shading helpers on finite numbers *)
From Coq Require Import ZArith Reals Bool List Lra Lia.
From Flocq Require Import Core.Raux.
From Verif Require Import Model.Num Model.NumX Model.Vector Model.Common Model.Interaction Model.Reflection
  Spec.RVec Spec.ShadeSpec Proofs.XBase Proofs.RVecProofs.
Import ListNotations.
Local Open Scope R_scope.

(** ** The frame *)
Definition rW (s t n v : rv) : rv := mkV3 (vdot v s) (vdot v t) (vdot v n).
Definition rL (s t n v : rv) : rv := vadd (vadd (vscale (vx v) s) (vscale (vy v) t)) (vscale (vz v) n).

(** the frame of a BSDF consists of finite vectors *)
Definition frame_is (b : bsdf XR) (s t n : rv) : Prop :=
  bs_s b = fin3 s /\ bs_t b = fin3 t /\ bs_sn b = fin3 n.

Lemma world_to_local_fin b s t n v : frame_is b s t n -> world_to_local b (fin3 v) = fin3 (rW s t n v).
Proof. intros (Es & Et & En). unfold world_to_local. rewrite Es, Et, En, !v3dot_fin. reflexivity. Qed.

Lemma local_to_world_fin b s t n v : frame_is b s t n -> local_to_world b (fin3 v) = fin3 (rL s t n v).
Proof.
  intros (Es & Et & En). unfold local_to_world. rewrite Es, Et, En. unfold fin3, rL, vadd, vscale. vproj. xsimp. cbn [xmul xadd].
  apply V3_eq; vproj; apply (f_equal XFin); ring.
Qed.

(** expansion of [v] in any three vectors (Cramer) *)
Lemma cramer s t n v : vscale (vdot s (vcross t n)) v =
  vadd (vadd (vscale (vdot v s) (vcross t n)) (vscale (vdot v t) (vcross n s))) (vscale (vdot v n) (vcross s t)).
Proof. vring. Qed.

Lemma bac_cab a b c : vcross a (vcross b c) = vsub (vscale (vdot a c) b) (vscale (vdot a b) c).
Proof. vring. Qed.

Lemma vcross_anti a b : vcross a b = vscale (-1) (vcross b a).
Proof. vring. Qed.

Lemma vscale_1 a : vscale 1 a = a.
Proof. vring. Qed.

(** the frame built from a unit normal and a perpendicular tangent *)
Lemma frame_orthonormal s n : vdot s s = 1 -> vdot n n = 1 -> vdot s n = 0 ->
  orthonormal s (vcross n s) n /\ vcross s (vcross n s) = n /\ vcross (vcross n s) n = s.
Proof.
  intros Hs Hn Hsn. assert (C1 : vcross s (vcross n s) = n).
  { rewrite bac_cab, Hs, Hsn. vring. }
  assert (C2 : vcross (vcross n s) n = s).
  { rewrite vcross_anti, bac_cab, Hn, (vdot_comm n s), Hsn. vring. }
  split; [|auto]. unfold orthonormal.
  rewrite lagrange, (vdot_comm n s), Hsn, Hs, Hn.
  repeat split; try lra; try apply vdot_cross_r.
  rewrite vdot_comm. apply vdot_cross_l.
Qed.

Section Frame.
  Variables s n : rv.
  Hypothesis (Hs : vdot s s = 1) (Hn : vdot n n = 1) (Hsn : vdot s n = 0).
  Let t := vcross n s.

  Lemma rL_rW v : rL s t n (rW s t n v) = v.
  Proof.
    destruct (frame_orthonormal s n Hs Hn Hsn) as (_ & C1 & C2). fold t in C1, C2.
    pose proof (cramer s t n v) as C. rewrite C1, C2, Hs, vscale_1 in C. fold t in C.
    symmetry. exact C.
  Qed.

  Lemma rW_rL v : rW s t n (rL s t n v) = v.
  Proof.
    destruct (frame_orthonormal s n Hs Hn Hsn) as ((_ & Ht & _ & Est & _ & Etn) & _ & _). fold t in Ht, Est, Etn.
    assert (D : forall w, vdot (rL s t n v) w = vx v * vdot s w + vy v * vdot t w + vz v * vdot n w).
    { intros w. unfold rL, vdot, vadd, vscale. vproj. ring. }
    unfold rW. rewrite !D. rewrite (vdot_comm t s), (vdot_comm n s), (vdot_comm n t), Hs, Hn, Hsn, Ht, Est, Etn.
    apply V3_eq; vproj; ring.
  Qed.

  Lemma rL_dot a b : vdot (rL s t n a) (rL s t n b) = vdot a b.
  Proof.
    destruct (frame_orthonormal s n Hs Hn Hsn) as ((_ & Ht & _ & Est & _ & Etn) & _ & _). fold t in Ht, Est, Etn.
    assert (D : forall w, vdot (rL s t n a) w = vx a * vdot s w + vy a * vdot t w + vz a * vdot n w).
    { intros w. unfold rL, vdot, vadd, vscale. vproj. ring. }
    assert (D2 : forall w, vdot w (rL s t n b) = vx b * vdot w s + vy b * vdot w t + vz b * vdot w n).
    { intros w. unfold rL, vdot, vadd, vscale. vproj. ring. }
    rewrite D, !D2. rewrite (vdot_comm t s), (vdot_comm n s), (vdot_comm n t), Hs, Hn, Hsn, Ht, Est, Etn.
    unfold vdot. ring.
  Qed.

  Lemma rW_dot a b : vdot (rW s t n a) (rW s t n b) = vdot a b.
  Proof. rewrite <- rL_dot. now rewrite !rL_rW. Qed.
End Frame.

(** ** Components added to a BSDF do not change its frame *)
Definition bsdf_adds (b : bsdf XR) (l : list (bxdf XR)) : bsdf XR := fold_left bsdf_add l b.

Lemma bsdf_adds_fields l : forall b, bs_s (bsdf_adds b l) = bs_s b /\ bs_t (bsdf_adds b l) = bs_t b /\
  bs_sn (bsdf_adds b l) = bs_sn b /\ bs_gn (bsdf_adds b l) = bs_gn b /\ bs_bxdfs (bsdf_adds b l) = bs_bxdfs b ++ l.
Proof.
  induction l as [|x l IH]; intros b; [cbn; now rewrite app_nil_r|].
  unfold bsdf_adds in *. cbn [fold_left]. destruct (IH (bsdf_add b x)) as (H1 & H2 & H3 & H4 & H5).
  rewrite H1, H2, H3, H4, H5. cbn. now rewrite <- app_assoc.
Qed.

Lemma bsdf_new_frame {T} (i : interaction XR T) n du : i_sn i = fin3 n -> i_dpdu i = fin3 du -> du <> v0 ->
  frame_is (bsdf_new i) (vunit du) (vcross n (vunit du)) n.
Proof.
  intros En Ed Hd. unfold frame_is, bsdf_new. cbn. rewrite En, Ed, v3normalize_fin by auto. auto.
Qed.
