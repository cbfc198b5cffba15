(** * C102: rays that leave a surface do not meet it again *)
From Coq Require Import ZArith Reals List Bool Lia Lra Psatz.
From Flocq Require Import Core.
From Verif Require Import Model.Num Model.NumX Model.Vector Model.Common Model.BBox Model.Interaction Model.Shape Model.Sphere Model.Triangle.
From Verif Require Import Spec.RVec Spec.BoxSpec Spec.ShapeSpec Spec.SelfSpec Spec.ShadeSpec.
From Verif Require Import Proofs.XBase Proofs.RVecProofs Proofs.BoxProofs Proofs.ShapeProofs Proofs.MatProofs Proofs.ShadeProofs Proofs.MicroProofs Proofs.TriangleProofs.
From Verif Require Import Props.Shapes.
Local Open Scope R_scope.

Notation fin_tri v vn rev := (mkTri (mk3 (fin3 (t0 v)) (fin3 (t1 v)) (fin3 (t2 v))) vn rev).
Notation fin_ball c r := (mkSphere (fin3 c) (XFin r)).

(** what is known about a point of a surface: place, error bound and unit normal *)
Definition known {T} (i : interaction XR T) (p e n : rv) : Prop :=
  i_p i = fin3 p /\ i_p_err i = fin3 e /\ i_n i = fin3 n /\ each (fun x => 0 <= x) e /\ vnorm n = 1.

Lemma origin_at {T} (i : interaction XR T) p e n v : known i p e n ->
  0 <= thickness n e /\ offset_ray_origin i (fin3 v) = fin3 (vadd p (vscale (if Rlt_dec (vdot n v) 0 then - thickness n e else thickness n e) n)).
Proof.
  intros (Ep & Ee & En & (E1 & E2 & E3) & Nn). unfold thickness. set (c := _ + _). split.
  { unfold c. pose proof (Rabs_pos (vx n)). pose proof (Rabs_pos (vy n)). pose proof (Rabs_pos (vz n)). nra. }
  unfold offset_ray_origin. rewrite Ep, Ee, En.
  assert (OC : forall a b, offset_coord (F := XR) a b = b) by (intros; unfold offset_coord; xsimp; destruct (xlt _ _); auto; destruct (xlt _ _); auto).
  rewrite !OC. assert (D : v3dot (v3abs (fin3 n)) (fin3 e) = XFin c) by reflexivity. rewrite D, v3dot_fin.
  change (flt (XFin (vdot n v)) f0) with (Rlt_bool (vdot n v) 0).
  destruct (Rlt_dec (vdot n v) 0) as [H|H]; [rewrite Rlt_bool_true by exact H|rewrite Rlt_bool_false by lra].
  - rewrite !v3scale_fin, x_f1. xsimp. cbn [xneg]. rewrite v3scale_fin, v3add_fin. unfold fin3. unfold vadd, vscale. vproj. f_equal; f_equal; ring.
  - rewrite v3scale_fin, v3add_fin. reflexivity.
Qed.

Lemma gam7 : 0 <= gam 7.
Proof. unfold gam. apply Rmult_le_pos; [lra|]. apply Rlt_le, Rinv_0_lt_compat. lra. Qed.

Lemma bary_err_fin (v : tri rv) b0 b1 b2 : exists e, bary_err (ftri v) (XFin b0) (XFin b1) (XFin b2) = fin3 e /\ each (fun x => 0 <= x) e.
Proof.
  unfold bary_err. cbn [ftri t0 t1 t2]. xsimp. rewrite !v3scale_fin. rewrite gamma_fin by lra. rewrite !v3abs_fin, !v3add_fin, v3scale_fin.
  eexists. split; [reflexivity|]. unfold each, vadd, vscale. vproj. pose proof gam7 as G.
  assert (P : forall a b c, 0 <= gam 7 * (Rabs a + Rabs b + Rabs c)) by (intros; apply Rmult_le_pos; [exact G|pose proof (Rabs_pos a); pose proof (Rabs_pos b); pose proof (Rabs_pos c); lra]).
  repeat split; apply P.
Qed.

Lemma tri_known {T} (v : tri rv) vn rev (i : interaction XR T) : of_triangle v vn rev i ->
  exists p e n b0 b1 b2, known i p e n /\ p = comb v b0 b1 b2 /\ b0 + b1 + b2 = 1 /\ unit_normal_of v n.
Proof.
  intros [o d tmax i0 t Hd Hn H|x y Hx Hy Hv].
  - destruct (C41_geometric_normal T v vn rev o d tmax i0 t Hd Hn H) as (n & En & Un & _).
    assert (Er : exists e, i_p_err i0 = fin3 e /\ each (fun x => 0 <= x) e).
    { destruct (max_abs_axis_fin d Hd) as (a & Ea & Ha & Hmax). pose proof H as H'. change (mk3 (fin3 (t0 v)) (fin3 (t1 v)) (fin3 (t2 v))) with (ftri v) in H'.
      rewrite (tr_intersect_fin o d a v vn rev tmax Ea Ha) in H'.
      destruct (rmixed o d a v); [discriminate|]. destruct (Req_bool (rdet o d a v) 0); [discriminate|].
      destruct (rout o d a v tmax); [discriminate|]. destruct (Rle_bool _ _); [discriminate|]. cbv zeta in H'.
      destruct (tr_frame _ _ _ _) as [[[n' sn] du] dv].
      apply (f_equal (fun q => match q with Ok (Some z) => i_p_err (fst z) | _ => v3zero end)) in H'. cbn [fst i_p_err] in H'.
      rewrite <- H'. apply bary_err_fin. }
    destruct Er as (e & Ee & E0). destruct (C37_hit_is_real T v vn rev o d tmax i0 t Hd Hn H) as (x & b0 & b1 & b2 & _ & _ & _ & (_ & _ & _ & S) & Ep & _).
    exists (comb v b0 b1 b2), e, n, b0, b1, b2. repeat (split; [solve [auto]|]). split; [|auto].
    repeat split; auto; apply E0 || apply Un.
  - destruct (tr_sample_fin (T := T) v vn rev x y (proj1 Hx)) as [P N]. specialize (N Hv). cbv zeta in P, N.
    assert (Er : exists e, i_p_err (tr_sample (T := T) (fin_tri v vn rev) (mkP2 (XFin x) (XFin y))) = fin3 e /\ each (fun x => 0 <= x) e).
    { unfold tr_sample. cbn [i_p_err tr_v px py]. rewrite x_f1. xsimp. rewrite xsqrt_fin by lra. cbn [xsub xmul]. apply (bary_err_fin v). }
    destruct Er as (e & Ee & E0).
    assert (U : unit_normal_of v (if rev then vscale (-1) (vunit (tnormal v)) else vunit (tnormal v))) by (destruct rev; [apply unit_normal_opp|]; now apply unit_normal).
    eexists _, e, _, _, _, _. split; [split; [exact P|split; [exact Ee|split; [exact N|split; [exact E0|apply U]]]]|].
    split; [reflexivity|]. split; [ring|exact U].
Qed.

Lemma ball_known {T} c r (i : interaction XR T) : 0 < r -> of_ball c r i ->
  exists p e n, known i p e n /\ vsub p c = vscale r n /\ 0 < thickness n e.
Proof.
  intros Hr [o d tmax i0 t Hd H]. pose proof (sp_has_fin c r o d tmax Hd) as Hh. cbv zeta in Hh.
  unfold sp_intersect in H. unfold msp in Hh. destruct (sp_has_intersection _ _) as [t'|]; [|discriminate].
  destruct Hh as (x & -> & Hx & _ & On & _).
  destruct (sp_interaction_fin (T := T) c r o d tmax x Hr On) as (phi & theta & err & du & dv & E & _ & _ & _ & _ & _ & Eerr). cbv zeta in E, Eerr.
  unfold msp in E. rewrite E in H. apply (f_equal (fun q => match q with Some z => fst z | None => i0 end)) in H. cbn [fst] in H. subst i0.
  set (q := vsub (at_t o d x) c) in *. assert (Hq : vdot q q = r * r) by (apply on_sphere_sq; auto).
  assert (Nq : vnorm q = r) by (unfold vnorm; rewrite Hq; apply sqrt_square; lra).
  assert (Q0 : q <> v0) by (intros E0; rewrite E0 in Hq; unfold vdot, v0 in Hq; cbn in Hq; nra).
  eexists _, _, _. split; [split; [reflexivity|split; [exact Eerr|split; [reflexivity|split]]]|split].
  - assert (G : 0 <= 5 / 16777216 / (1 - 5 / 16777216)) by lra. unfold each, vscale. vproj.
    repeat split; apply Rmult_le_pos; auto using Rabs_pos.
  - now apply vnorm_unit.
  - fold q. unfold vunit. rewrite Nq. unfold vscale. apply V3_eq; vproj; field; lra.
  - set (g := 5 / 16777216 / (1 - 5 / 16777216)). assert (G : 0 < g) by (unfold g; lra).
    assert (Th : thickness (vunit q) (vscale g (mkV3 (Rabs (vx q)) (Rabs (vy q)) (Rabs (vz q)))) = g * r).
    { unfold thickness, vunit. rewrite Nq. unfold vscale. vproj. rewrite !Rabs_mult, (Rabs_pos_eq (/ r)) by (apply Rlt_le, Rinv_0_lt_compat; auto).
      assert (Sq : forall a, Rabs a * Rabs a = a * a) by (intros; rewrite <- Rabs_mult; apply Rabs_pos_eq, Rle_0_sqr).
      replace (/ r * Rabs (vx q) * (g * Rabs (vx q)) + / r * Rabs (vy q) * (g * Rabs (vy q)) + / r * Rabs (vz q) * (g * Rabs (vz q)))
        with (g * / r * (Rabs (vx q) * Rabs (vx q) + Rabs (vy q) * Rabs (vy q) + Rabs (vz q) * Rabs (vz q))) by ring.
      rewrite !Sq. change (vx q * vx q + vy q * vy q + vz q * vz q) with (vdot q q). rewrite Hq. field. lra. }
    rewrite Th. apply Rmult_lt_0_compat; auto.
Qed.

(** a vector perpendicular to the edges is a multiple of the normal *)
Lemma normal_line v n : unit_normal_of v n -> tnormal v = vscale (vdot n (tnormal v)) n.
Proof.
  intros (U & A & B). apply vnorm_1_dot in U. unfold tnormal. set (a := vsub (t1 v) (t0 v)) in *. set (b := vsub (t2 v) (t0 v)) in *.
  assert (Z : vcross n (vcross a b) = v0).
  { assert (I : vcross n (vcross a b) = vsub (vscale (vdot n b) a) (vscale (vdot n a) b)) by (unfold vcross, vsub, vscale, vdot; vproj; apply V3_eq; vproj; ring).
    rewrite I, A, B. unfold v0, vsub, vscale. apply V3_eq; vproj; ring. }
  set (m := vcross a b) in *. assert (J : vcross n (vcross n m) = vsub (vscale (vdot n m) n) (vscale (vdot n n) m)) by (unfold vcross, vsub, vscale, vdot; vproj; apply V3_eq; vproj; ring).
  rewrite Z, U in J. assert (K : vcross n v0 = v0) by (unfold vcross, v0; apply V3_eq; vproj; ring). rewrite K in J.
  pose proof (f_equal vx J) as J1. pose proof (f_equal vy J) as J2. pose proof (f_equal vz J) as J3. revert J1 J2 J3. unfold vsub, vscale, v0. vproj. intros.
  apply V3_eq; vproj; lra.
Qed.

(** a triangle whose plane the ray does not cross is not hit *)
Lemma not_hit v vn rev o d tmax n b0 b1 b2 : d <> v0 -> xis_nan tmax = false -> unit_normal_of v n -> b0 + b1 + b2 = 1 ->
  (forall x, 0 < x -> xle (XFin x) tmax = true -> vdot n d <> 0 -> vdot n (vsub (at_t o d x) (comb v b0 b1 b2)) <> 0) ->
  tr_intersect_p (fin_tri v vn rev) (mkRay (fin3 o) (fin3 d) tmax) = Ok false.
Proof.
  intros Hd Hn U S F. rewrite (C38_triangle XR unit). destruct (C37_no_panic unit v vn rev o d tmax Hd) as (h & Eh). rewrite Eh.
  destruct h as [[i t]|]; auto. exfalso.
  destruct (hit_inv v vn rev o d tmax i t Hd Hn Eh) as (c0 & c1 & c2 & x & _ & (_ & _ & _ & W) & Hx & Hm & P & _ & _ & _ & Nd & _).
  apply (F x Hx Hm).
  - intros E. apply Nd. rewrite (normal_line v n U), vdot_scale_l, E. ring.
  - rewrite <- P. destruct U as (_ & A & B). clear - A B S W. replace c0 with (1 - c1 - c2) by lra. replace b0 with (1 - b1 - b2) by lra.
    revert A B. unfold vdot, comb, vsub, vadd, vscale. vproj. intros A B.
    set (X := vx n) in *; set (Y := vy n) in *; set (Z := vz n) in *.
    set (A0 := X * (vx (t1 v) - vx (t0 v)) + Y * (vy (t1 v) - vy (t0 v)) + Z * (vz (t1 v) - vz (t0 v))) in *.
    set (B0 := X * (vx (t2 v) - vx (t0 v)) + Y * (vy (t2 v) - vy (t0 v)) + Z * (vz (t2 v) - vz (t0 v))) in *.
    transitivity ((c1 - b1) * A0 + (c2 - b2) * B0); [unfold A0, B0; ring|rewrite A, B; ring].
Qed.

(** a ball is not hit from beyond a plane that touches it *)
Lemma ball_not_hit c r o d tmax n p : d <> v0 -> 0 < r -> vnorm n = 1 -> vsub p c = vscale r n ->
  (forall x, 0 < x -> xlt (XFin x) tmax = true -> 0 < vdot n (vsub (at_t o d x) p)) ->
  sp_intersect_p (fin_ball c r) (mkRay (fin3 o) (fin3 d) tmax) = false.
Proof.
  intros Hd Hr Nn Ep F. rewrite (C38_sphere XR XR unit). pose proof (C35_first_hit unit c r o d tmax Hd) as H.
  destruct (sp_intersect _ _) as [[i t]|]; auto. exfalso. destruct H as (x & _ & Hx & Hm & On & _). specialize (F x Hx Hm).
  apply on_sphere_sq in On. apply vnorm_1_dot in Nn. set (y := at_t o d x) in *.
  assert (E : vsub y c = vadd (vsub y p) (vscale r n)) by (rewrite <- Ep; unfold vsub, vadd; apply V3_eq; vproj; ring).
  rewrite E in On. set (w := vsub y p) in *. assert (Q : vdot (vadd w (vscale r n)) (vadd w (vscale r n)) = vdot w w + 2 * r * vdot n w + r * r * vdot n n) by (unfold vdot, vadd, vscale; vproj; ring).
  rewrite Q, Nn in On. assert (0 <= vdot w w) by (unfold vdot; nra). nra.
Qed.

(** ** C102 *)
(** A ray that leaves a triangle, in whatever direction, does not meet it. *)
Theorem C102_triangle : forall (T : Type) (v : tri rv) vn rev (i : interaction XR T) (w : rv), of_triangle v vn rev i -> w <> v0 ->
  tr_intersect_p (fin_tri v vn rev) (spawn_ray i (fin3 w)) = Ok false.
Proof.
  intros T v vn rev i w H Hw. destruct (tri_known v vn rev i H) as (p & e & n & b0 & b1 & b2 & K & Ep & S & U).
  destruct (origin_at i p e n w K) as (C0 & Eo). unfold spawn_ray. rewrite Eo. set (k := thickness n e) in *.
  apply (not_hit v vn rev _ w (XInf false) n b0 b1 b2 Hw eq_refl U S). intros x Hx _ Nw. rewrite <- Ep. destruct U as (U & _). apply vnorm_1_dot in U.
  set (s := if Rlt_dec (vdot n w) 0 then - k else k).
  assert (V : vdot n (vsub (at_t (vadd p (vscale s n)) w x) p) = s * vdot n n + x * vdot n w) by (unfold at_t, vdot, vsub, vadd, vscale; vproj; ring).
  rewrite V, U. unfold s. destruct (Rlt_dec (vdot n w) 0); nra.
Qed.
Print Assumptions C102_triangle.

(** A ray that leaves a ball to the outside does not meet it. *)
Theorem C102_ball : forall (T : Type) (c : rv) (r : R) (i : interaction XR T) (n w : rv), 0 < r -> of_ball c r i -> i_n i = fin3 n -> w <> v0 -> 0 <= vdot n w ->
  sp_intersect_p (fin_ball c r) (spawn_ray i (fin3 w)) = false.
Proof.
  intros T c r i n' w Hr H En' Hw Hs. destruct (ball_known c r i Hr H) as (p & e & n & K & Ep & C1).
  assert (n' = n) as -> by (destruct K as (_ & _ & En & _); apply fin3_inj; congruence).
  destruct (origin_at i p e n w K) as (C0 & Eo). unfold spawn_ray. rewrite Eo. set (k := thickness n e) in *.
  destruct K as (_ & _ & _ & _ & U). apply (ball_not_hit c r _ w (XInf false) n p Hw Hr U Ep). intros x Hx _. apply vnorm_1_dot in U.
  destruct (Rlt_dec (vdot n w) 0); [lra|].
  assert (V : vdot n (vsub (at_t (vadd p (vscale k n)) w x) p) = k * vdot n n + x * vdot n w) by (unfold at_t, vdot, vsub, vadd, vscale; vproj; ring).
  rewrite V, U. nra.
Qed.
Print Assumptions C102_ball.

(** ** Shadow rays *)
(** the ray between two points of surfaces: it starts [k] above the one and ends [k'] above the other, on the sides they see each other from *)
Lemma shadow_ray {T} (i j : interaction XR T) p e n p' e' n' : known i p e n -> known j p' e' n' ->
  let k := if Rlt_dec (vdot n (vsub p' p)) 0 then - thickness n e else thickness n e in
  let k' := if Rlt_dec (vdot n' (vsub p p')) 0 then - thickness n' e' else thickness n' e' in
  spawn_ray_to i j = mkRay (fin3 (vadd p (vscale k n))) (fin3 (vsub (vadd p' (vscale k' n')) (vadd p (vscale k n)))) (XFin (9999 / 10000)).
Proof.
  intros K K' k k'. destruct (origin_at i p e n (vsub p' p) K) as (_ & Eo). destruct (origin_at j p' e' n' (vsub p p') K') as (_ & Eo').
  destruct K as (Ep & _). destruct K' as (Ep' & _). unfold spawn_ray_to. rewrite Ep, Ep', v3sub_fin, v3neg_fin.
  replace (vscale (-1) (vsub p' p)) with (vsub p p') by vring. rewrite Eo, Eo'. fold k k'. rewrite v3sub_fin. f_equal.
  unfold f1, flit. xsimp. cbn [Z.of_nat]. rewrite xdiv_fin by (apply not_0_IZR; discriminate). cbn [xsub xadd xneg]. apply (f_equal XFin). simpl. lra.
Qed.

Lemma unit_dot a b : vnorm a = 1 -> vnorm b = 1 -> Rabs (vdot a b) <= 1.
Proof. intros A B. pose proof (cauchy_schwarz_norm a b) as H. rewrite A, B in H. lra. Qed.

(** the two points are farther apart, across the surface with normal [n], than their error bounds reach *)
Definition apart (p e n p' e' n' : rv) : Prop := thickness n e + thickness n' e' < Rabs (vdot n (vsub p' p)).

Lemma off_plane p e n p' e' n' : vnorm n = 1 -> vnorm n' = 1 -> 0 <= thickness n e -> 0 <= thickness n' e' -> apart p e n p' e' n' ->
  let k := if Rlt_dec (vdot n (vsub p' p)) 0 then - thickness n e else thickness n e in
  let k' := if Rlt_dec (vdot n' (vsub p p')) 0 then - thickness n' e' else thickness n' e' in
  let o := vadd p (vscale k n) in let d := vsub (vadd p' (vscale k' n')) o in
  d <> v0 /\ (forall x, 0 < x <= 1 -> 0 < vdot n (vsub (at_t o d x) p) * vdot n (vsub p' p)).
Proof.
  intros Nn Nn' C C' A k k' o d. unfold apart in A. set (h := vdot n (vsub p' p)) in *. pose proof (unit_dot n n' Nn Nn') as D. apply vnorm_1_dot in Nn.
  set (c := thickness n e) in *. set (c' := thickness n' e') in *.
  assert (V : forall x, vdot n (vsub (at_t o d x) p) = (1 - x) * k * vdot n n + x * (h + k' * vdot n n')).
  { intros x. unfold d, o, h, at_t, vdot, vsub, vadd, vscale. vproj. ring. }
  assert (Kd : Rabs (k' * vdot n n') <= c').
  { assert (Ak : Rabs k' = c').
    { unfold k'. destruct (Rlt_dec (vdot n' (vsub p p')) 0); [rewrite Rabs_Ropp|]; apply Rabs_pos_eq; exact C'. }
    rewrite Rabs_mult, Ak.
    pose proof (Rabs_pos (vdot n n')). nra. }
  apply Rabs_le_inv in Kd. set (g := k' * vdot n n') in *. split.
  - intros E. pose proof (V 1) as V1. pose proof (V 0) as V0. rewrite E in V1, V0.
    assert (Q : at_t o v0 1 = at_t o v0 0) by (unfold at_t, v0, vadd, vscale; apply V3_eq; vproj; ring). rewrite Q, V0, Nn in V1.
    unfold k in V1. fold h in V1. destruct (Rlt_dec h 0); [rewrite (Rabs_left h) in A by lra|rewrite (Rabs_pos_eq h) in A by lra]; lra.
  - intros x (Hx & Hx1). rewrite V, Nn. unfold k. fold h. destruct (Rlt_dec h 0) as [L|L].
    + rewrite (Rabs_left h) in A by lra. assert ((1 - x) * (- c) * 1 <= 0) by nra. assert (x * (h + g) < 0) by nra. nra.
    + rewrite (Rabs_pos_eq h) in A by lra. assert (0 <= (1 - x) * c * 1) by nra. assert (0 < x * (h + g)) by nra. assert (0 < h) by lra. nra.
Qed.

(** the same points seen from the other end *)
Lemma other_end o o' x : at_t o (vsub o' o) x = at_t o' (vsub o o') (1 - x).
Proof. unfold at_t, vadd, vscale, vsub. apply V3_eq; vproj; ring. Qed.

(** A shadow ray between two triangles meets neither of them ... *)
Theorem C102_shadow : forall (T : Type) (v v' : tri rv) vn rev vn' rev' (i j : interaction XR T) (p e n p' e' n' : rv),
  of_triangle v vn rev i -> of_triangle v' vn' rev' j ->
  i_p i = fin3 p -> i_p_err i = fin3 e -> i_n i = fin3 n -> i_p j = fin3 p' -> i_p_err j = fin3 e' -> i_n j = fin3 n' ->
  apart p e n p' e' n' -> apart p' e' n' p e n ->
  tr_intersect_p (fin_tri v vn rev) (spawn_ray_to i j) = Ok false /\ tr_intersect_p (fin_tri v' vn' rev') (spawn_ray_to i j) = Ok false.
Proof.
  intros T v v' vn rev vn' rev' i j p e n p' e' n' Hi Hj Ep Ee En Ep' Ee' En' A A'.
  destruct (tri_known v vn rev i Hi) as (q & eq & m & b0 & b1 & b2 & K & Eq & S & U).
  assert (q = p) as -> by (apply fin3_inj; destruct K as (X & _); congruence).
  assert (eq = e) as -> by (apply fin3_inj; destruct K as (_ & X & _); congruence).
  assert (m = n) as -> by (apply fin3_inj; destruct K as (_ & _ & X & _); congruence).
  destruct (tri_known v' vn' rev' j Hj) as (q & eq & m & b0' & b1' & b2' & K' & Eq' & S' & U').
  assert (q = p') as -> by (apply fin3_inj; destruct K' as (X & _); congruence).
  assert (eq = e') as -> by (apply fin3_inj; destruct K' as (_ & X & _); congruence).
  assert (m = n') as -> by (apply fin3_inj; destruct K' as (_ & _ & X & _); congruence).
  rewrite (shadow_ray i j p e n p' e' n' K K'). 
  destruct (origin_at i p e n v0 K) as (C & _). destruct (origin_at j p' e' n' v0 K') as (C' & _).
  assert (Nn : vnorm n = 1) by apply K. assert (Nn' : vnorm n' = 1) by apply K'.
  destruct (off_plane p e n p' e' n' Nn Nn' C C' A) as (D0 & F). destruct (off_plane p' e' n' p e n Nn' Nn C' C A') as (_ & F').
  cbv zeta in D0, F, F'. set (o := vadd p _) in *. set (o' := vadd p' _) in *. split.
  - apply (not_hit v vn rev o (vsub o' o) (XFin (9999 / 10000)) n b0 b1 b2 D0 eq_refl U S). intros x Hx Hm _ E. cbn [xle] in Hm. rb.
    specialize (F x ltac:(lra)). rewrite <- Eq in E. rewrite E in F. lra.
  - apply (not_hit v' vn' rev' o (vsub o' o) (XFin (9999 / 10000)) n' b0' b1' b2' D0 eq_refl U' S'). intros x Hx Hm _ E. cbn [xle] in Hm. rb.
    specialize (F' (1 - x) ltac:(lra)). rewrite <- Eq', other_end in E. rewrite E in F'. lra.
Qed.
Print Assumptions C102_shadow.

(** ... and the one between a ball and a triangle it faces neither the ball nor the triangle. *)
Theorem C102_shadow_ball : forall (T : Type) (c : rv) (r : R) (v' : tri rv) vn' rev' (i j : interaction XR T) (p e n p' e' n' : rv),
  0 < r -> of_ball c r i -> of_triangle v' vn' rev' j ->
  i_p i = fin3 p -> i_p_err i = fin3 e -> i_n i = fin3 n -> i_p j = fin3 p' -> i_p_err j = fin3 e' -> i_n j = fin3 n' ->
  0 < vdot n (vsub p' p) -> apart p e n p' e' n' -> apart p' e' n' p e n ->
  sp_intersect_p (fin_ball c r) (spawn_ray_to i j) = false /\ tr_intersect_p (fin_tri v' vn' rev') (spawn_ray_to i j) = Ok false.
Proof.
  intros T c r v' vn' rev' i j p e n p' e' n' Hr Hi Hj Ep Ee En Ep' Ee' En' Sd A A'.
  destruct (ball_known c r i Hr Hi) as (q & eq & m & K & Eq & _).
  assert (q = p) as -> by (apply fin3_inj; destruct K as (X & _); congruence).
  assert (eq = e) as -> by (apply fin3_inj; destruct K as (_ & X & _); congruence).
  assert (m = n) as -> by (apply fin3_inj; destruct K as (_ & _ & X & _); congruence).
  destruct (tri_known v' vn' rev' j Hj) as (q & eq & m & b0' & b1' & b2' & K' & Eq' & S' & U').
  assert (q = p') as -> by (apply fin3_inj; destruct K' as (X & _); congruence).
  assert (eq = e') as -> by (apply fin3_inj; destruct K' as (_ & X & _); congruence).
  assert (m = n') as -> by (apply fin3_inj; destruct K' as (_ & _ & X & _); congruence).
  rewrite (shadow_ray i j p e n p' e' n' K K'). 
  destruct (origin_at i p e n v0 K) as (C & _). destruct (origin_at j p' e' n' v0 K') as (C' & _).
  assert (Nn : vnorm n = 1) by apply K. assert (Nn' : vnorm n' = 1) by apply K'.
  destruct (off_plane p e n p' e' n' Nn Nn' C C' A) as (D0 & F). destruct (off_plane p' e' n' p e n Nn' Nn C' C A') as (_ & F').
  cbv zeta in D0, F, F'. set (o := vadd p _) in *. set (o' := vadd p' _) in *. split.
  - apply (ball_not_hit c r o (vsub o' o) (XFin (9999 / 10000)) n p D0 Hr Nn Eq). intros x Hx Hm. cbn [xlt] in Hm. rb.
    specialize (F x ltac:(lra)). clear - F Sd. nra.
  - apply (not_hit v' vn' rev' o (vsub o' o) (XFin (9999 / 10000)) n' b0' b1' b2' D0 eq_refl U' S'). intros x Hx Hm _ E. cbn [xle] in Hm. rb.
    specialize (F' (1 - x) ltac:(lra)). rewrite <- Eq', other_end in E. rewrite E in F'. lra.
Qed.
Print Assumptions C102_shadow_ball.

(** ** What lies in the way is met, however far *)
(** A ray that leaves a surface has the direction asked for and no end: it meets every ball with a point on it. *)
Theorem C102_reaches : forall (T : Type) (i : interaction XR T) (w o c : rv) (r x : R), r_o (spawn_ray i (fin3 w)) = fin3 o -> w <> v0 ->
  0 < x -> on_sphere c r (at_t o w x) -> sp_intersect_p (fin_ball c r) (spawn_ray i (fin3 w)) = true.
Proof.
  intros T i w o c r x Eo Hw Hx On. unfold spawn_ray in *. cbn [r_o] in Eo. rewrite Eo. rewrite (C38_sphere XR XR unit).
  pose proof (C35_first_hit unit c r o w (XInf false) Hw) as H. change finf with (XInf false).
  destruct (sp_intersect _ _) as [[j t]|]; auto. exfalso. apply (H x Hx); auto.
Qed.
(** A shadow ray goes from the one offset point to the other; it meets every ball with a point on the way, up to the last ten-thousandth. *)
Theorem C102_blocked : forall (T : Type) (i j : interaction XR T) (o o' c : rv) (r x : R),
  offset_ray_origin i (v3sub (i_p j) (i_p i)) = fin3 o -> offset_ray_origin j (v3neg (v3sub (i_p j) (i_p i))) = fin3 o' -> o <> o' ->
  0 < x < 9999 / 10000 -> on_sphere c r (vadd (vscale (1 - x) o) (vscale x o')) -> sp_intersect_p (fin_ball c r) (spawn_ray_to i j) = true.
Proof.
  intros T i j o o' c r x Eo Eo' Hd Hx On. unfold spawn_ray_to. rewrite Eo, Eo', v3sub_fin.
  assert (Et : fsub (f1 : XR) (flit 1 4) = XFin (9999 / 10000)).
  { unfold f1, flit. xsimp. cbn [Z.of_nat]. rewrite xdiv_fin by (apply not_0_IZR; discriminate). cbn [xsub xadd xneg]. apply (f_equal XFin). simpl. lra. }
  assert (D : vsub o' o <> v0).
  { intros E. apply Hd. pose proof (f_equal vx E) as E1. pose proof (f_equal vy E) as E2. pose proof (f_equal vz E) as E3. revert E1 E2 E3. unfold vsub, v0. vproj. intros. apply V3_eq; lra. }
  rewrite Et. rewrite (C38_sphere XR XR unit). pose proof (C35_first_hit unit c r o (vsub o' o) (XFin (9999 / 10000)) D) as H.
  destruct (sp_intersect _ _) as [[k t]|]; auto. exfalso. apply (H x); [lra|cbn [xlt]; rb; lra|].
  replace (at_t o (vsub o' o) x) with (vadd (vscale (1 - x) o) (vscale x o')); auto. unfold at_t, vadd, vscale, vsub. apply V3_eq; vproj; ring.
Qed.

(** ** Examples *)
(** the triangle in the plane z = 0 of C37 and one above it, facing down *)
Definition ex_above : tri rv := mk3 (mkV3 (-1) 0 2) (mkV3 0 1 2) (mkV3 1 0 2).
Lemma ex_flat : vcross (vsub (t1 ex_tri) (t0 ex_tri)) (vsub (t2 ex_tri) (t0 ex_tri)) <> v0.
Proof. intros E. apply (f_equal vz) in E. revert E. unfold ex_tri, vcross, vsub, v0. cbn. lra. Qed.
Lemma ex_flat' : vcross (vsub (t1 ex_above) (t0 ex_above)) (vsub (t2 ex_above) (t0 ex_above)) <> v0.
Proof. intros E. apply (f_equal vz) in E. revert E. unfold ex_above, vcross, vsub, v0. cbn. lra. Qed.
Example C102_example : exists i : interaction XR unit, of_triangle ex_tri None false i /\ mkV3 0 0 (-1) <> v0 /\ i_p i = fin3 v0.
Proof.
  destruct C37_example as (i & E & P). exists i. split; [|split; [apply ex_tri_dir|exact P]].
  eapply hit_triangle; [apply ex_tri_dir| |exact E]. reflexivity.
Qed.

Lemma ex_ex : exists (i j : interaction XR unit) p e n p' e' n', of_triangle ex_tri None false i /\ of_triangle ex_above None false j /\
  known i p e n /\ known j p' e' n' /\ apart p e n p' e' n' /\ apart p' e' n' p e n.
Proof.
  set (i := tr_sample (T := unit) (fin_tri ex_tri None false) (mkP2 (XFin 1) (XFin 0))).
  set (j := tr_sample (T := unit) (fin_tri ex_above None false) (mkP2 (XFin 1) (XFin 0))).
  assert (Hi : of_triangle ex_tri None false i) by (apply sample_triangle; [lra|lra|apply ex_flat]).
  assert (Hj : of_triangle ex_above None false j) by (apply sample_triangle; [lra|lra|apply ex_flat']).
  destruct (tri_known _ _ _ i Hi) as (p & e & n & b0 & b1 & b2 & K & _). destruct (tri_known _ _ _ j Hj) as (p' & e' & n' & c0 & c1 & c2 & K' & _).
  exists i, j, p, e, n, p', e', n'. split; auto. split; auto. split; auto. split; auto.
  destruct (tr_sample_fin (T := unit) ex_tri None false 1 0 ltac:(lra)) as [P N]. specialize (N ex_flat). cbv zeta in P, N.
  destruct (tr_sample_fin (T := unit) ex_above None false 1 0 ltac:(lra)) as [P' N']. specialize (N' ex_flat'). cbv zeta in P', N'.
  assert (R1 : sqrt 1 = 1) by apply sqrt_1. rewrite R1 in P, P'.
  assert (Ep : p = mkV3 0 1 0). { destruct K as (X & _). apply fin3_inj. rewrite <- X. unfold i. change (mk3 (fin3 (t0 ex_tri)) (fin3 (t1 ex_tri)) (fin3 (t2 ex_tri))) with (ftri ex_tri). rewrite P. f_equal. unfold comb, ex_tri, vadd, vscale. apply V3_eq; cbn; ring. }
  assert (Ep' : p' = mkV3 1 0 2). { destruct K' as (X & _). apply fin3_inj. rewrite <- X. unfold j. change (mk3 (fin3 (t0 ex_above)) (fin3 (t1 ex_above)) (fin3 (t2 ex_above))) with (ftri ex_above). rewrite P'. f_equal. unfold comb, ex_above, vadd, vscale. apply V3_eq; cbn; ring. }
  assert (U : forall m k, m = mkV3 0 0 k -> k <> 0 -> vunit m = mkV3 0 0 (k / Rabs k)).
  { intros m k -> Hk. unfold vunit, vnorm, vdot. vproj. replace (0 * 0 + 0 * 0 + k * k) with (Rsqr k) by (unfold Rsqr; ring). rewrite sqrt_Rsqr_abs. unfold vscale. vproj. apply V3_eq; vproj; try ring. field. now apply Rabs_no_R0. }
  assert (En : n = mkV3 0 0 1).
  { destruct K as (_ & _ & X & _). apply fin3_inj. rewrite <- X. unfold i. change (mk3 (fin3 (t0 ex_tri)) (fin3 (t1 ex_tri)) (fin3 (t2 ex_tri))) with (ftri ex_tri). rewrite N. f_equal.
    rewrite (U _ 2); [|unfold tnormal, ex_tri, vcross, vsub; apply V3_eq; cbn; ring|lra]. rewrite Rabs_pos_eq by lra. apply V3_eq; vproj; field. }
  assert (En' : n' = mkV3 0 0 (-1)).
  { destruct K' as (_ & _ & X & _). apply fin3_inj. rewrite <- X. unfold j. change (mk3 (fin3 (t0 ex_above)) (fin3 (t1 ex_above)) (fin3 (t2 ex_above))) with (ftri ex_above). rewrite N'. f_equal.
    rewrite (U _ (-2)); [|unfold tnormal, ex_above, vcross, vsub; apply V3_eq; cbn; ring|lra]. rewrite Rabs_left by lra. apply V3_eq; vproj; field. }
  assert (Be : forall (v : tri rv) (b0 b1 b2 : R) (g : rv), bary_err (ftri v) (XFin b0) (XFin b1) (XFin b2) = fin3 g ->
    vz g = (Rabs (vz (t0 v) * b0) + Rabs (vz (t1 v) * b1) + Rabs (vz (t2 v) * b2)) * gam 7).
  { intros v a b c g. unfold bary_err. cbn [ftri t0 t1 t2]. xsimp. rewrite !v3scale_fin. rewrite gamma_fin by lra. rewrite !v3abs_fin, !v3add_fin, v3scale_fin. intros E. apply fin3_inj in E. rewrite <- E.
    unfold vadd, vscale. vproj. rewrite !(Rmult_comm (vz _)). ring. }
  assert (G : 0 <= gam 7 <= / 100). { split; [apply gam7|]. unfold gam. lra. }
  assert (Ee : vz e = 0).
  { destruct K as (_ & X & _). unfold i, tr_sample in X. cbn [i_p_err tr_v px py] in X. rewrite x_f1 in X. revert X. xsimp. rewrite xsqrt_fin by lra. cbn [xsub xmul]. intros X. apply (Be ex_tri) in X. rewrite X. unfold ex_tri. cbn [t0 t1 t2 vz]. rewrite !Rmult_0_l, Rabs_R0. ring. }
  assert (Ee' : 0 <= vz e' <= / 10).
  { destruct K' as (_ & X & _). unfold j, tr_sample in X. cbn [i_p_err tr_v px py] in X. rewrite x_f1 in X. revert X. xsimp. rewrite xsqrt_fin by lra. cbn [xsub xmul]. intros X. apply (Be ex_above) in X. rewrite X, R1. unfold ex_above. cbn [t0 t1 t2 vz].
    replace (2 * (1 - 1)) with 0 by ring. replace (2 * (0 * 1)) with 0 by ring. replace (2 * (1 - (1 - 1) - 0 * 1)) with 2 by ring. rewrite Rabs_R0, (Rabs_pos_eq 2) by lra. lra. }
  unfold apart, thickness. rewrite En, En', Ep, Ep', Ee. unfold vdot, vsub. vproj. rewrite !Rabs_R0, Rabs_R1.
  replace (Rabs (-1)) with 1 by (rewrite Rabs_left; lra).
  replace (0 * (1 - 0) + 0 * (0 - 1) + 1 * (2 - 0)) with 2 by ring. replace (0 * (0 - 1) + 0 * (1 - 0) + -1 * (0 - 2)) with 2 by ring. rewrite (Rabs_pos_eq 2) by lra. lra.
Qed.
Example C102_shadow_example : exists i j : interaction XR unit,
  tr_intersect_p (fin_tri ex_tri None false) (spawn_ray_to i j) = Ok false /\ tr_intersect_p (fin_tri ex_above None false) (spawn_ray_to i j) = Ok false.
Proof.
  destruct ex_ex as (i & j & p & e & n & p' & e' & n' & Hi & Hj & (K1 & K2 & K3 & _) & (K1' & K2' & K3' & _) & A & A'). exists i, j.
  apply (C102_shadow unit ex_tri ex_above None false None false i j p e n p' e' n'); auto.
Qed.
Example C102_ball_example : exists (i : interaction XR unit) n, of_ball (mkV3 0 0 3) 1 i /\ i_n i = fin3 n /\ sp_intersect_p (fin_ball (mkV3 0 0 3) 1) (spawn_ray i (fin3 n)) = false.
Proof.
  destruct C35_example as (i0 & E). set (i := i0). assert (Hb : of_ball (T := unit) (mkV3 0 0 3) 1 i).
  { eapply hit_ball; [|exact E]. intros E0. apply (f_equal vz) in E0. cbn in E0. lra. }
  destruct (ball_known _ _ i Rlt_0_1 Hb) as (p & e & n & (K1 & K2 & K3 & K4 & U) & _ & _). exists i, n. split; auto. split; auto.
  apply vnorm_1_dot in U. apply (C102_ball unit _ 1 i n n Rlt_0_1 Hb K3); [|lra]. intros ->. unfold vdot, v0 in U. cbn in U. lra.
Qed.
