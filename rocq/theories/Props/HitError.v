(** * The error bounds of hit points cover the rounding errors (C100, C101) *)
From Coq Require Import ZArith Reals Bool List Lra Lia.
From Flocq Require Import Core BinarySingleNaN.
From Verif Require Import Model.Num Model.NumX Model.NumB Model.Vector Model.Common Model.Interaction Model.Shape Model.Sphere Model.Triangle.
From Verif Require Import Spec.TameSpec Spec.RVec Spec.ShapeSpec Spec.ErrorSpec.
From Verif Require Import Proofs.XBase Proofs.RVecProofs Proofs.BBase Proofs.FLaws Proofs.Bounds Proofs.Lengths Proofs.SteadyProofs Proofs.SteadySphere Proofs.SteadyMirror Proofs.SteadySmooth
  Proofs.HitErr.
Local Open Scope R_scope.

Section P.
  Context (L : Libm b32) (L64 : Libm b64) {T : Type}.
  Local Existing Instance B32_FOps.
  Local Existing Instance B32_FLaws.
  Local Existing Instance B64_FOps.

  Definition vertices_within (z : Z) (s : triangle b32) : Prop := within3 z (t0 (tr_v s)) /\ within3 z (t1 (tr_v s)) /\ within3 z (t2 (tr_v s)).

  (** ** C100: triangles.  In the box around a reported hit there is a point of the triangle. *)
  Theorem C100_hit : forall (s : triangle b32) (r : ray b32) (i : interaction b32 T) t,
    vertices_within (2 ^ 20) s -> within3 (2 ^ 20) (r_o r) -> tr_intersect s r = Ok (Some (i, t)) -> is_nan (vx (i_p i)) = false ->
    exists q, in_triangle (reals3 (tr_v s)) q /\ in_box (i_p i) (i_p_err i) q.
  Proof.
    intros s r i t (V0 & V1 & V2) Ho H N.
    assert (K : forall v : V3 b32, within3 (2 ^ 20) v -> vb L 20 v) by (intros v Hv; eapply (within3_vb L 20); [| |exact Hv]; lia).
    destruct (tri_cover L s r i t (K _ V0) (K _ V1) (K _ V2) (K _ Ho) H N) as (w0 & w1 & w2 & W & Q).
    exists (comb (reals3 (tr_v s)) w0 w1 w2). split; [exists w0, w1, w2; auto|exact Q].
  Qed.

  (** points taken on a lamp are in its plane, and outside the triangle by no more than one unit of the last place of 1 *)
  Theorem C100_sample : forall (s : triangle b32) (u : P2 b32),
    vertices_within (2 ^ 20) s -> is_finite (px u) = true -> 0 <= B2R (px u) <= 1 -> is_finite (py u) = true -> 0 <= B2R (py u) <= 1 ->
    exists w0 w1 w2, 0 <= w0 /\ 0 <= w1 /\ - / 2 ^ 24 <= w2 /\ w0 + w1 + w2 = 1 /\
      in_box (i_p (tr_sample (T := T) s u)) (i_p_err (tr_sample (T := T) s u)) (comb (reals3 (tr_v s)) w0 w1 w2).
  Proof.
    intros s u (V0 & V1 & V2) Fx Hx Fy Hy.
    assert (K : forall v : V3 b32, within3 (2 ^ 20) v -> vb L 20 v) by (intros v Hv; eapply (within3_vb L 20); [| |exact Hv]; lia).
    assert (E : forall x : b32, is_finite x = true -> emb x = XFin (B2R x)) by (intros x F; cbn; apply B2X_fin; exact F).
    destruct (sample_cover L (T := T) s u _ _ (K _ V0) (K _ V1) (K _ V2) (E _ Fx) Hx (E _ Fy) Hy) as (w0 & w1 & w2 & S & W0 & W1 & W2 & Q).
    exists w0, w1, w2. repeat split; auto; [|apply Q..]. unfold uu in W2. lra.
  Qed.

  (** ** C101: spheres.  [near_centre]: the point a ray reaches is neither too far from the centre nor too close to it for its distance to be computed. *)
  Definition measurable (p : V3 b32) : Prop :=
    within3 (2 ^ 24) p /\ Bleb (Bdiv mode_NE (Bof_Z 1) (Bof_Z (2 ^ 50))) (v3length p) = true.

  Lemma sphere_box (s : sphere b32) (r : ray b32) (i : interaction b32 T) t :
    tame_sphere s -> sp_intersect (D := b64) s r = Some (i, t) -> measurable (ray_position (sp_local_ray s r) t) ->
    exists q : rv, vnorm q = B2R (sp_radius s) /\
    forall c : forall A, V3 A -> A, c = @vx \/ c = @vy \/ c = @vz ->
      (B2R (c _ (sp_center s)) = 0 -> Rabs (B2R (c _ (i_p i)) - c _ q) <= B2R (c _ (i_p_err i)) + pw (-130)) /\
      Rabs (B2R (c _ (i_p i)) - (c _ q + B2R (c _ (sp_center s)))) <= B2R (c _ (i_p_err i)) + 101 / 100 * uu * Rabs (B2R (c _ (i_p i))) + pw (-130).
  Proof.
    intros Ts. unfold sp_intersect. destruct (sp_has_intersection s (sp_local_ray s r)) as [t'|]; [|discriminate]. intros E [Hw Hl].
    assert (Et : t' = t).
    { apply (f_equal (fun q => match q with Some z => snd z | None => t' end)) in E. unfold sp_interaction in E. destruct (sp_partials _). exact E. }
    rewrite Et in E. clear Et t'.
    assert (E' : sp_interaction s (sp_local_ray s r) t = (i, t)) by (apply (f_equal (fun q => match q with Some z => z | None => (i, t) end)) in E; exact E).
    apply (within3_vb L 24) in Hw; [|lia|lia]. destruct (vb_val L 24 _ Hw) as (V & HV & Bx & By & Bz).
    assert (P : pw 24 <= pw 50) by (apply bpow_le; lia).
    destruct (len_val L _ V HV) as (l & El); try lra.
    assert (Hl' : pw (-50) <= l). { apply (fair_len L) in El; auto. }
    apply (sphere_cover L s (sp_local_ray s r) t i t V l E' Ts HV); auto; lra.
  Qed.

  (** around the origin the box contains a point of the sphere *)
  Theorem C101_centred : forall (s : sphere b32) (r : ray b32) (i : interaction b32 T) t,
    tame_sphere s -> reals (sp_center s) = v0 -> sp_intersect (D := b64) s r = Some (i, t) -> measurable (ray_position (sp_local_ray s r) t) ->
    exists q, on_sphere v0 (B2R (sp_radius s)) q /\ in_box (i_p i) (i_p_err i) q.
  Proof.
    intros s r i t Ts Hc H M. destruct (sphere_box s r i t Ts H M) as (q & Nq & Q).
    assert (P : pw (-130) <= tiny) by (apply bpow_le; lia).
    exists q. split.
    - unfold on_sphere, vdist. replace (vsub q v0) with q by (destruct q; unfold vsub, v0; cbn; f_equal; ring). rewrite <- Nq. symmetry. apply Rabs_pos_eq, sqrt_pos.
    - pose proof (f_equal (@vx R) Hc) as Cx. pose proof (f_equal (@vy R) Hc) as Cy. pose proof (f_equal (@vz R) Hc) as Cz. cbn in Cx, Cy, Cz.
      repeat split.
      + pose proof (proj1 (Q (@vx) ltac:(auto)) Cx). lra.
      + pose proof (proj1 (Q (@vy) ltac:(auto)) Cy). lra.
      + pose proof (proj1 (Q (@vz) ltac:(auto)) Cz). lra.
  Qed.

  (** elsewhere it does once the rounding of the world coordinates is added to it *)
  Theorem C101_partial : forall (s : sphere b32) (r : ray b32) (i : interaction b32 T) t,
    tame_sphere s -> sp_intersect (D := b64) s r = Some (i, t) -> measurable (ray_position (sp_local_ray s r) t) ->
    exists q, on_sphere (reals (sp_center s)) (B2R (sp_radius s)) q /\ in_box_rel (101 / 100 * / 2 ^ 24) (i_p i) (i_p_err i) q.
  Proof.
    intros s r i t Ts H M. destruct (sphere_box s r i t Ts H M) as (q & Nq & Q).
    assert (P : pw (-130) <= tiny) by (apply bpow_le; lia).
    exists (vadd q (reals (sp_center s))). split.
    - unfold on_sphere, vdist. replace (vsub (vadd q (reals (sp_center s))) (reals (sp_center s))) with q by (destruct q; unfold vsub, vadd; cbn; f_equal; ring).
      rewrite <- Nq. symmetry. apply Rabs_pos_eq, sqrt_pos.
    - replace (/ 2 ^ 24) with uu by (unfold uu; lra). repeat split.
      + pose proof (proj2 (Q (@vx) ltac:(auto))). cbn [reals vadd vx vy vz]. lra.
      + pose proof (proj2 (Q (@vy) ltac:(auto))). cbn [reals vadd vx vy vz]. lra.
      + pose proof (proj2 (Q (@vz) ltac:(auto))). cbn [reals vadd vx vy vz]. lra.
  Qed.
End P.

(** ** Examples *)
Section Ex.
  Context (L : Libm b32) (L64 : Libm b64).
  Local Existing Instance B32_FOps.
  Local Existing Instance B32_FLaws.
  Local Existing Instance B64_FOps.
  Definition bz (z : Z) : b32 := Bof_Z z.
  Definition ex_tri : triangle b32 := mkTri (mk3 (mkV3 (bz 0) (bz 0) (bz 5)) (mkV3 (bz 4) (bz 0) (bz 6)) (mkV3 (bz 0) (bz 7) (bz 8))) None false.
  Definition ex_ray : ray b32 := mkRay (mkV3 (bz 0) (bz 0) (bz 0)) (mkV3 (bz 1) (bz 2) (bz 8)) (B754_infinity false).



  (** a ray meets the triangle in (140, 280, 1120) / 193; the first coordinate that is reported is 12170001 / 2^24, with an error bound of
      10648755 / 2^45 *)
  Example C100_example : vertices_within (2 ^ 20) ex_tri /\ within3 (2 ^ 20) (r_o ex_ray) /\ exists i t,
    tr_intersect (T := unit) ex_tri ex_ray = Ok (Some (i, t)) /\ is_nan (vx (i_p i)) = false /\
    B2SF (vx (i_p i)) = SpecFloat.S754_finite false 12170001 (-24) /\ B2SF (vx (i_p_err i)) = SpecFloat.S754_finite false 10648755 (-45).
  Proof.
    split; [vm_compute; auto 8|]. split; [vm_compute; auto|].
    assert (K : match tr_intersect (T := unit) ex_tri ex_ray with
                | Ok (Some (i, t)) => Some (is_nan (vx (i_p i)), B2SF (vx (i_p i)), B2SF (vx (i_p_err i))) | _ => None end
              = Some (false, SpecFloat.S754_finite false 12170001 (-24), SpecFloat.S754_finite false 10648755 (-45))) by (vm_compute; reflexivity).
    destruct (tr_intersect (T := unit) ex_tri ex_ray) as [[[i t]|]| |]; try discriminate. exists i, t. split; [reflexivity|].
    repeat split; congruence.
  Qed.

  (** the ball around the origin, met by a ray that is not aligned with any axis *)
  Definition ex_mid : sphere b32 := mkSphere (mkV3 (bz 0) (bz 0) (bz 0)) (bz 1).
  Definition ex_shot0 : ray b32 := mkRay (mkV3 (bz (-8)) (bz (-16)) (bz (-23))) (mkV3 (bz 1) (bz 2) (bz 3)) (B754_infinity false).
  Example C101_example : tame_sphere ex_mid /\ reals (sp_center ex_mid) = v0 /\ exists i t,
    sp_intersect (T := unit) (D := b64) ex_mid ex_shot0 = Some (i, t) /\ measurable L (ray_position (sp_local_ray ex_mid ex_shot0) t) /\
    B2SF (vx (i_p i)) = SpecFloat.S754_finite true 14380476 (-25) /\ B2SF (vx (i_p_err i)) = SpecFloat.S754_finite false 8987800 (-46).
  Proof.
    split; [split; vm_compute; auto|]. split; [reflexivity|].
    assert (K : match sp_intersect (T := unit) (D := b64) ex_mid ex_shot0 with
                | Some (i, t) => let p := ray_position (sp_local_ray ex_mid ex_shot0) t in
                    Some ((Bleb (Babs (vx p)) (Bof_Z (2 ^ 24)) && Bleb (Babs (vy p)) (Bof_Z (2 ^ 24)) && Bleb (Babs (vz p)) (Bof_Z (2 ^ 24))
                      && Bleb (Bdiv mode_NE (Bof_Z 1) (Bof_Z (2 ^ 50))) (v3length p))%bool, B2SF (vx (i_p i)), B2SF (vx (i_p_err i))) | _ => None end
              = Some (true, SpecFloat.S754_finite true 14380476 (-25), SpecFloat.S754_finite false 8987800 (-46))) by (vm_compute; reflexivity).
    destruct (sp_intersect (T := unit) (D := b64) ex_mid ex_shot0) as [[i t]|]; [|discriminate]. cbv zeta in K. exists i, t. split; [reflexivity|].
    set (p := ray_position _ t) in *.
    assert (K1 : (Bleb (Babs (vx p)) (Bof_Z (2 ^ 24)) && Bleb (Babs (vy p)) (Bof_Z (2 ^ 24)) && Bleb (Babs (vz p)) (Bof_Z (2 ^ 24))
                      && Bleb (Bdiv mode_NE (Bof_Z 1) (Bof_Z (2 ^ 50))) (v3length p))%bool = true) by congruence.
    split; [|split; congruence]. clear K.
    apply andb_true_iff in K1 as [K1 K4]. apply andb_true_iff in K1 as [K1 K3]. apply andb_true_iff in K1 as [K1 K2].
    split; [repeat split; assumption|exact K4].
  Qed.

  (** a ball far from the origin *)
  Definition ex_ball : sphere b32 := mkSphere (mkV3 (bz (2 ^ 20)) (bz 0) (bz 0)) (bz 1).
  Definition ex_shot : ray b32 := mkRay (mkV3 (bz (2 ^ 20 - 8)) (bz 0) (bz (-8))) (mkV3 (bz 1) (bz 0) (bz 1)) (B754_infinity false).

  Lemma B2R_of (x : b32) f : B2SF x = f -> B2R x = SF2R radix2 f.
  Proof. intros <-. symmetry. apply SF2R_B2SF. Qed.

  Theorem C101_refuted : exists (s : sphere b32) (r : ray b32) (i : interaction b32 unit) t,
    tame_sphere s /\ sp_intersect (D := b64) s r = Some (i, t) /\ measurable L (ray_position (sp_local_ray s r) t) /\
    forall q, on_sphere (reals (sp_center s)) (B2R (sp_radius s)) q -> ~ in_box (i_p i) (i_p_err i) q.
  Proof.
    exists ex_ball, ex_shot.
    assert (K : match sp_intersect (T := unit) (D := b64) ex_ball ex_shot with
                | Some (i, t) => let p := ray_position (sp_local_ray ex_ball ex_shot) t in
                    Some ((Bleb (Babs (vx p)) (Bof_Z (2 ^ 24)) && Bleb (Babs (vy p)) (Bof_Z (2 ^ 24)) && Bleb (Babs (vz p)) (Bof_Z (2 ^ 24))
                      && Bleb (Bdiv mode_NE (Bof_Z 1) (Bof_Z (2 ^ 50))) (v3length p))%bool, (B2SF (vx (i_p i)), B2SF (vy (i_p i)), B2SF (vz (i_p i))), (B2SF (vx (i_p_err i)), B2SF (vy (i_p_err i)), B2SF (vz (i_p_err i)))) | _ => None end
              = Some (true, (SpecFloat.S754_finite false 16777205 (-4), SpecFloat.S754_zero false, SpecFloat.S754_finite true 11863284 (-24)),
                  (SpecFloat.S754_finite false 14829109 (-46), SpecFloat.S754_zero false, SpecFloat.S754_finite false 14829109 (-46)))) by (vm_compute; reflexivity).
    destruct (sp_intersect (T := unit) (D := b64) ex_ball ex_shot) as [[i t]|]; [|discriminate]. cbv zeta in K. exists i, t.
    split; [split; vm_compute; auto|]. split; [reflexivity|].
    set (p := ray_position _ t) in *.
    assert (K1 : (Bleb (Babs (vx p)) (Bof_Z (2 ^ 24)) && Bleb (Babs (vy p)) (Bof_Z (2 ^ 24)) && Bleb (Babs (vz p)) (Bof_Z (2 ^ 24))
                      && Bleb (Bdiv mode_NE (Bof_Z 1) (Bof_Z (2 ^ 50))) (v3length p))%bool = true) by congruence.
    assert (Px : B2SF (vx (i_p i)) = SpecFloat.S754_finite false 16777205 (-4)) by congruence.
    assert (Py : B2SF (vy (i_p i)) = SpecFloat.S754_zero false) by congruence.
    assert (Pz : B2SF (vz (i_p i)) = SpecFloat.S754_finite true 11863284 (-24)) by congruence.
    assert (Ex : B2SF (vx (i_p_err i)) = SpecFloat.S754_finite false 14829109 (-46)) by congruence.
    assert (Ey : B2SF (vy (i_p_err i)) = SpecFloat.S754_zero false) by congruence.
    assert (Ez : B2SF (vz (i_p_err i)) = SpecFloat.S754_finite false 14829109 (-46)) by congruence.
    clear K. apply andb_true_iff in K1 as [K1 K4]. apply andb_true_iff in K1 as [K1 K3]. apply andb_true_iff in K1 as [K1 K2].
    split; [split; [repeat split; assumption|exact K4]|].
    intros q Hq (Bx & By & Bz).
    apply B2R_of in Px, Py, Pz, Ex, Ey, Ez. rewrite Px, Ex in Bx. rewrite Py, Ey in By. rewrite Pz, Ez in Bz. clear Px Py Pz Ex Ey Ez K1 K2 K3 K4 p.
    assert (C : reals (sp_center ex_ball) = mkV3 1048576 0 0 /\ B2R (sp_radius ex_ball) = 1).
    { unfold reals, ex_ball, bz. cbn [sp_center sp_radius vx vy vz]. split; [f_equal|].
      - rewrite (B2R_of (Bof_Z (2 ^ 20)) (SpecFloat.S754_finite false 8388608 (-3))) by (vm_compute; reflexivity). unfold SF2R, F2R. cbn. lra.
      - rewrite (B2R_of (Bof_Z 1) (SpecFloat.S754_finite false 8388608 (-23))) by (vm_compute; reflexivity). unfold SF2R, F2R. cbn. lra. }
    destruct C as [Hc Hr]. rewrite Hc, Hr in Hq. clear Hc Hr.
    assert (Ht : 0 < tiny < / 1000000000) by (unfold tiny; split; [apply bpow_gt_0|apply Rlt_trans with (bpow radix2 (-40)); [apply bpow_lt; lia|cbn; lra]]).
    cbn [SF2R F2R Fnum Fexp cond_Zopp Z.opp bpow] in Bx, By, Bz.
    destruct q as [x y z]. cbn [vx vy vz] in Bx, By, Bz. unfold on_sphere, vdist in Hq. rewrite Rabs_R1 in Hq.
    assert (Hn : vdot (vsub (mkV3 x y z) (mkV3 1048576 0 0)) (vsub (mkV3 x y z) (mkV3 1048576 0 0)) = 1) by (rewrite <- vnorm_sq, Hq; ring).
    unfold vdot, vsub in Hn. cbn [vx vy vz] in Hn.
    apply Rabs_le_inv in Bx, By, Bz. unfold F2R in Bx, Bz. cbn in Bx, By, Bz.
    set (a := x - 1048576) in *. assert (Ba : -6876 / 10000 <= a <= - 6874 / 10000) by (unfold a; lra). clearbody a.
    assert (By' : - / 1000 <= y - 0 <= / 1000) by lra. assert (Bz' : - 7072 / 10000 <= z - 0 <= - 7070 / 10000) by lra. clear Bx By Bz. nra.
  Qed.
End Ex.
