(** * C97: surfaces that do not look at places; lamps and floats break the law *)
From Coq Require Import ZArith Reals List Bool Lia Lra.
From Flocq Require Import Core IEEE754.BinarySingleNaN.
From Verif Require Import Model.Num Model.NumX Model.NumB Model.Vector Model.Common Model.BBox Model.Interaction Model.Shape Model.Sphere Model.Triangle Model.Container Model.Sampler
  Model.Sampling Model.Reflection Model.Texture Model.Material Model.Light Model.Scene Model.Path.
From Verif Require Import Spec.RVec Spec.UnitsSpec Spec.LambertSpec Proofs.XBase Proofs.RVecProofs Proofs.UnitProofs Props.Units Props.Radiance Props.Radiance2 Props.Estimator Props.Lambert.
Import ListNotations.
Local Open Scope R_scope.

(** ** Which of the program's surfaces are placeless *)
Section Surfaces.
  Context {T : Type}.
  (** a texture that depends on a hit only through the texture coordinates, normals and directions *)
  Definition quiet {A} (t : texture XR T A) : Prop := forall i j, alike i j -> t i = t j.
  Lemma quiet_constant {A} (v : A) : quiet (constant_texture v).
  Proof. intros i j _. reflexivity. Qed.
  Lemma quiet_checkerboard {A} m su sv du dv (x y : A) : quiet (checkerboard m (uv_mapping su sv du dv) x y).
  Proof. intros i j (U & _). unfold checkerboard, uv_mapping. rewrite U. reflexivity. Qed.
  Lemma alike_bsdf (i j : interaction XR T) : alike i j -> bsdf_new i = bsdf_new j.
  Proof. intros (_ & N & S & D & _). unfold bsdf_new. rewrite N, S, D. reflexivity. Qed.
  Lemma quiet_clamped t : quiet t -> quiet (tex_clamped t).
  Proof. intros Q i j H. unfold tex_clamped. rewrite (Q i j H). reflexivity. Qed.
  Ltac quiets H := rewrite (alike_bsdf _ _ H); repeat match goal with Q : quiet ?t |- context[?t ?i] => rewrite (Q _ _ H) end;
    repeat match goal with Q : quiet ?t |- context[tex_clamped ?t _] => rewrite (quiet_clamped t Q _ _ H) end; reflexivity.
  Lemma quiet_lambertian kd : quiet kd -> forall i j, alike i j -> mat_lambertian kd i = mat_lambertian kd j.
  Proof. intros Q i j H. unfold mat_lambertian. quiets H. Qed.
  Lemma quiet_mirror kr : quiet kr -> forall i j, alike i j -> mat_mirror kr i = mat_mirror kr j.
  Proof. intros Q i j H. unfold mat_mirror. quiets H. Qed.
  Lemma quiet_plastic kd ks r : quiet kd -> quiet ks -> quiet r -> forall i j, alike i j -> mat_plastic kd ks r i = mat_plastic kd ks r j.
  Proof. intros Q1 Q2 Q3 i j H. unfold mat_plastic. quiets H. Qed.
  Lemma quiet_metal r e k u v : quiet r -> quiet e -> quiet k -> quiet u -> quiet v -> forall i j, alike i j -> mat_metal r e k u v i = mat_metal r e k u v j.
  Proof. intros Q1 Q2 Q3 Q4 Q5 i j H. unfold mat_metal. quiets H. Qed.
  Lemma quiet_glass r t e u v : quiet r -> quiet t -> quiet e -> quiet u -> quiet v -> forall i j, alike i j -> mat_glass r t e u v i = mat_glass r t e u v j.
  Proof. intros Q1 Q2 Q3 Q4 Q5 i j H. unfold mat_glass. quiets H. Qed.
  Lemma dark_placeless (m : material XR T) : (forall i j, alike i j -> m i = m j) -> placeless (mkSurf m (fun _ _ => v3zero)).
  Proof. intros Q i j H. split; [exact (Q i j H)|reflexivity]. Qed.
End Surfaces.

(** The lit ball of [C96_example], in metres about the origin, and in millimetres about another. *)
Example C97_example : forall al : unit -> area_light XR unit, exists sc',
  construct (fun _ => solid_shape (Round (mkSphere (fin3 (mkV3 70 (-30) 11)) (XFin 1000)))) al
    (simple_of (fun _ => solid_shape (Round (mkSphere (fin3 (mkV3 70 (-30) 11)) (XFin 1000)))))
    (far_scene [(fin3 (mkV3 1 1 1), fin3 (mkV3 1 1 0))] [tt]) = Ok sc' /\
  li ex_half (fun _ _ => true) (matt_surf (fun _ => mkV3 1 (1/2) 0)) sc' 2 tt (mkRay (fin3 (mkV3 3070 (-30) 11)) (fin3 (mkV3 (-1) 0 0)) finf) =
    Ok (fin3 (mkV3 (/ sqrt 2 / PI) (/ sqrt 2 / PI / 2) 0), tt).
Proof.
  intros al. destruct (C96_example al) as (sc & Cs & E).
  pose proof (C97_units_partial unit unit ex_half (fun _ _ => true) (matt_surf (fun _ => mkV3 1 (1/2) 0)) (fun _ => Round (mkSphere (fin3 v0) (XFin 1))) al al
    [tt] [(fin3 (mkV3 1 1 1), fin3 (mkV3 1 1 0))] 1000 (mkV3 70 (-30) 11)) as H.
  assert (P : forall t : unit, placeless (matt_surf (fun _ => mkV3 1 (1/2) 0) t)).
  { intros t. apply dark_placeless, quiet_lambertian, quiet_constant. }
  specialize (H ltac:(lra) (or_intror (fun _ _ => I)) P). cbv beta zeta in H.
  assert (M : moved 1000 (mkV3 70 (-30) 11) (Round (mkSphere (fin3 v0) (XFin 1))) = Round (mkSphere (fin3 (mkV3 70 (-30) 11)) (XFin 1000))).
  { unfold moved, shift3, v0. cbn [sp_center sp_radius fin3 vx vy vz shift stretch]. do 2 f_equal; [|f_equal; lra].
    unfold fin3. cbn [vx vy vz]. f_equal; f_equal; lra. }
  rewrite M in H.
  change (construct (fun _ => solid_shape (Round (mkSphere (fin3 v0) (XFin 1)))) al (simple_of (fun _ => solid_shape (Round (mkSphere (fin3 v0) (XFin 1)))))
    (far_scene [(fin3 (mkV3 1 1 1), fin3 (mkV3 1 1 0))] [tt])) with
    (construct (body_shape (fun _ : unit => Ball v0 1)) al (in_simple (fun _ => Ball v0 1)) (sunny [(mkV3 1 1 1, mkV3 1 1 0)] [tt])) in H.
  rewrite Cs in H. clear Cs. destruct (construct _ al _ _) as [sc'| |]; try contradiction.
  exists sc'. split; [reflexivity|]. rewrite <- E, <- (H 2%nat tt (fin3 (mkV3 3 0 0)) (fin3 (mkV3 (-1) 0 0))). do 2 f_equal.
  unfold shift3, fin3. cbn [vx vy vz shift]. f_equal; f_equal; lra.
Qed.

(** ** Lamps and floats break the law *)
Section Witness.
  Context (L : Libm b32).
  Local Open Scope f_scope.
  (** points with whole coordinates; up to 2^24 these are floats *)
  Definition zpt (v : V3 Z) : V3 b32 := mkV3 (fofZ (vx v)) (fofZ (vy v)) (fofZ (vz v)).
  Definition ztri (v : tri (V3 Z)) (rev : bool) : triangle b32 := mkTri (tmap zpt v) None rev.
  Definition exactly (v : V3 Z) : Prop := (Z.abs (vx v) <= 2 ^ 24 /\ Z.abs (vy v) <= 2 ^ 24 /\ Z.abs (vz v) <= 2 ^ 24)%Z.
  Definition twice (v : V3 Z) : V3 Z := mkV3 (2 * vx v)%Z (2 * vy v)%Z (2 * vz v)%Z.
  Definition lowered (d : Z) (v : V3 Z) : V3 Z := mkV3 (vx v) (vy v) (vz v - d)%Z.

  (** a white matt triangle, and a black one, which may glow *)
  Definition floor_and_lamp (a b : triangle b32) (t : bool) : surface b32 bool :=
    if t then mkSurf (mat_lambertian (constant_texture (spectrum_of f1))) (fun _ _ => v3zero)
    else mkSurf (mat_lambertian (constant_texture v3zero)) (area_l (lamp L a b false)).
  Definition floor_and_roof (t : bool) : surface b32 bool :=
    mkSurf (mat_lambertian (constant_texture (if t then spectrum_of f1 else v3zero))) (fun _ _ => v3zero).
  Definition overhead (bb : bbox3 b32) : light b32 bool := distant_as_light (distant_pre (distant_new (spectrum_of f1) (mkV3 f0 f0 f1)) bb).
  Definition sun_scene (a b : triangle b32) : res (scene b32 bool (container b32 bool)) :=
    construct (two_tris L a b) (lamp L a b) (fun l => let! c := simple_new (two_tris L a b) l in Ok (simple_container (two_tris L a b) c))
      (mkBuilder [overhead] [true; false] []).
  Definition red_of {S} (r : res (V3 b32 * S)) : b32 := match r with Ok (l, _) => vx l | _ => fofZ (-1) end.
  (** the light that arrives from the floor along a ray *)
  Definition by_lamp (a b : triangle b32) (sc : scene b32 bool (container b32 bool)) (r : ray b32) : b32 :=
    red_of (li (random_ops (w_half L) Release) Bool.eqb (floor_and_lamp a b) sc 66 (random_new 1 tt) r).
  Definition by_sun (sc : scene b32 bool (container b32 bool)) (r : ray b32) : b32 :=
    red_of (li (random_ops (w_half L) Release) Bool.eqb floor_and_roof sc 66 (random_new 1 tt) r).
  Definition straight_down (eye : V3 Z) : ray b32 := mkRay (zpt eye) (mkV3 f0 f0 (fofZ (-1))) finf.

  Definition level (h z : Z) : tri (V3 Z) := mk3 (mkV3 (- h) (- h) z)%Z (mkV3 h (- h) z)%Z (mkV3 0 h z)%Z.
  Lemma w_units : match lamp_scene L (ztri (level 4 0) false) (ztri (level 1 2) true), lamp_scene L (ztri (tmap twice (level 4 0)) false) (ztri (tmap twice (level 1 2)) true) with
    | Ok sc, Ok sc' => meets sc (straight_down (mkV3 0 0 1)%Z) true && meets sc' (straight_down (twice (mkV3 0 0 1)%Z)) true &&
        flt f0 (by_lamp (ztri (level 4 0) false) (ztri (level 1 2) true) sc (straight_down (mkV3 0 0 1)%Z)) &&
        flt (by_lamp (ztri (level 4 0) false) (ztri (level 1 2) true) sc (straight_down (mkV3 0 0 1)%Z))
            (by_lamp (ztri (tmap twice (level 4 0)) false) (ztri (tmap twice (level 1 2)) true) sc' (straight_down (twice (mkV3 0 0 1)%Z)))
    | _, _ => false end = true.
  Proof. vm_compute. reflexivity. Qed.
  Definition d24 := (2 ^ 24)%Z.
  Lemma w_place : match sun_scene (ztri (level 4 0) false) (ztri (level 4 4) true), sun_scene (ztri (tmap (lowered d24) (level 4 0)) false) (ztri (tmap (lowered d24) (level 4 4)) true) with
    | Ok sc, Ok sc' => meets sc (straight_down (mkV3 0 0 2)%Z) true && meets sc' (straight_down (lowered d24 (mkV3 0 0 2)%Z)) true &&
        feq (by_sun sc (straight_down (mkV3 0 0 2)%Z)) f0 && flt (flit 3 1) (by_sun sc' (straight_down (lowered d24 (mkV3 0 0 2)%Z)))
    | _, _ => false end = true.
  Proof. vm_compute. reflexivity. Qed.
End Witness.

(** A white matt floor under a triangular lamp.  With all lengths written in half the unit, the same
    spot of the floor is brighter: the lamp's density is one over its area, whatever its distance. *)
Theorem C97_lamp_refuted : forall L : Libm b32,
  exists (a b : tri (V3 Z)) (eye : V3 Z) (sc sc' : scene b32 bool (container b32 bool)),
    lamp_scene L (ztri L a false) (ztri L b true) = Ok sc /\
    lamp_scene L (ztri L (tmap twice a) false) (ztri L (tmap twice b) true) = Ok sc' /\
    meets sc (straight_down L eye) true = true /\ meets sc' (straight_down L (twice eye)) true = true /\
    flt f0 (by_lamp L (ztri L a false) (ztri L b true) sc (straight_down L eye)) = true /\
    flt (by_lamp L (ztri L a false) (ztri L b true) sc (straight_down L eye))
      (by_lamp L (ztri L (tmap twice a) false) (ztri L (tmap twice b) true) sc' (straight_down L (twice eye))) = true.
Proof.
  intros L. pose proof (w_units L) as W.
  destruct (lamp_scene L (ztri L (level 4 0) false) (ztri L (level 1 2) true)) as [sc| |] eqn:E; try discriminate.
  destruct (lamp_scene L (ztri L (tmap twice (level 4 0)) false) (ztri L (tmap twice (level 1 2)) true)) as [sc'| |] eqn:E'; try discriminate.
  apply andb_prop in W as [W W4]. apply andb_prop in W as [W W3]. apply andb_prop in W as [W1 W2].
  exists (level 4 0), (level 1 2), (mkV3 0 0 1)%Z, sc, sc'. repeat split; assumption.
Qed.

(** A floor in the shadow of a roof.  2^24 units further down the same floor is lit, because a
    shadow ray starts further above the floor than the roof is. *)
Theorem C97_place_refuted : forall L : Libm b32,
  exists (a b : tri (V3 Z)) (eye : V3 Z) (d : Z) (sc sc' : scene b32 bool (container b32 bool)),
    (forall v, In v [eye; t0 a; t1 a; t2 a; t0 b; t1 b; t2 b] -> exactly v /\ exactly (lowered d v)) /\
    sun_scene L (ztri L a false) (ztri L b true) = Ok sc /\
    sun_scene L (ztri L (tmap (lowered d) a) false) (ztri L (tmap (lowered d) b) true) = Ok sc' /\
    meets sc (straight_down L eye) true = true /\ meets sc' (straight_down L (lowered d eye)) true = true /\
    feq (by_sun L sc (straight_down L eye)) f0 = true /\
    flt (flit 3 1) (by_sun L sc' (straight_down L (lowered d eye))) = true.
Proof.
  intros L. pose proof (w_place L) as W.
  destruct (sun_scene L (ztri L (level 4 0) false) (ztri L (level 4 4) true)) as [sc| |] eqn:E; try discriminate.
  destruct (sun_scene L (ztri L (tmap (lowered d24) (level 4 0)) false) (ztri L (tmap (lowered d24) (level 4 4)) true)) as [sc'| |] eqn:E'; try discriminate.
  apply andb_prop in W as [W W4]. apply andb_prop in W as [W W3]. apply andb_prop in W as [W1 W2].
  exists (level 4 0), (level 4 4), (mkV3 0 0 2)%Z, d24, sc, sc'.
  split; [|repeat split; assumption].
  intros v Hv. cbn in Hv. unfold exactly, lowered, d24.
  repeat (destruct Hv as [<-|Hv]; [cbn; lia|]). contradiction.
Qed.
