(** * Bounding boxes (C31 - C34) *)
From Coq Require Import ZArith Reals Bool List Lra Lia.
From Flocq Require Import Core IEEE754.BinarySingleNaN.
From Verif Require Import Model.Num Model.NumX Model.NumB Model.Vector Model.Common Model.BBox
  Spec.RVec Spec.BoxSpec Proofs.XBase Proofs.BBase Proofs.FLaws Proofs.RVecProofs Proofs.BoxProofs.
Import ListNotations.
Local Open Scope R_scope.

(** ** C31: every arithmetic with the laws of [FLaws], in particular binary32 with any libm *)
Section C31.
  Context {F : Type} {FO : FOps F} {FL : FLaws F}.

  (** union: contains both boxes, and is contained in every box that does *)
  Theorem C31_union : forall a b : bbox3 F, box_nnan a -> box_nnan b ->
    box_in a (bbox_union a b) /\ box_in b (bbox_union a b) /\
    (forall c, box_in a c -> box_in b c -> box_in (bbox_union a b) c).
  Proof.
    intros a b [A1 A2] [B1 B2]. unfold box_in, bbox_union; cbn [bmin bmax].
    pose proof (v3min_lb _ _ A1 B1). pose proof (v3max_ub _ _ A2 B2).
    repeat split; try tauto; try (apply v3min_glb; tauto); try (apply v3max_lub; tauto).
    all: try (apply v3min_glb; [apply H1|apply H2]); try (apply v3max_lub; [apply H1|apply H2]).
    all: apply H || apply H0.
  Qed.

  Theorem C31_union_point : forall (a : bbox3 F) p, box_nnan a -> v3nnan p ->
    box_in a (bbox_union_point a p) /\ pt_in p (bbox_union_point a p) /\
    (forall c, box_in a c -> pt_in p c -> box_in (bbox_union_point a p) c).
  Proof.
    intros a p [A1 A2] P. unfold box_in, pt_in, bbox_union_point; cbn [bmin bmax].
    pose proof (v3min_lb _ _ A1 P). pose proof (v3max_ub _ _ A2 P).
    split; [tauto|]. split; [tauto|].
    intros c (H2 & H3) (H4 & H5). split; [apply v3min_glb|apply v3max_lub]; auto.
  Qed.

  (** new: orders its corners; the least box that contains both *)
  Theorem C31_new : forall p q : V3 F, v3nnan p -> v3nnan q ->
    v3le (bmin (bbox_new p q)) (bmax (bbox_new p q)) /\
    pt_in p (bbox_new p q) /\ pt_in q (bbox_new p q) /\
    (forall c, pt_in p c -> pt_in q c -> box_in (bbox_new p q) c).
  Proof.
    intros p q P Q. unfold box_in, pt_in, bbox_new; cbn [bmin bmax].
    pose proof (v3min_lb _ _ P Q). pose proof (v3max_ub _ _ Q P).
    split; [eapply v3le_trans; [apply H|apply H0]|]. split; [tauto|]. split; [tauto|].
    intros c (H2 & H3) (H4 & H5). split; [apply v3min_glb|apply v3max_lub]; auto.
  Qed.

  (** the box of a list of shapes; the only panic is the empty list *)
  Theorem C31_list : forall l : list (bbox3 F), Forall box_nnan l ->
    (l = [] /\ bbox_of_list l = Panic) \/
    exists b, bbox_of_list l = Ok b /\ box_nnan b /\ (forall a, In a l -> box_in a b) /\
      (forall c, (forall a, In a l -> box_in a c) -> box_in b c).
  Proof.
    intros [|a l] H; [left; auto|right]. inversion H as [|? ? Ha Hl]; subst. clear H.
    cbn [bbox_of_list]. eexists. split; [reflexivity|].
    assert (G : forall l a, box_nnan a -> Forall box_nnan l ->
      box_nnan (fold_left bbox_union l a) /\ (forall x, In x (a :: l) -> box_in x (fold_left bbox_union l a)) /\
      (forall c, (forall x, In x (a :: l) -> box_in x c) -> box_in (fold_left bbox_union l a) c)).
    { clear - FL. induction l as [|y l IH]; intros a Ha Hl; cbn [fold_left].
      - split; auto. split.
        + intros x [->|[]]. destruct Ha. split; now apply v3le_refl.
        + intros c Hc. apply Hc. now left.
      - inversion Hl as [|? ? Hy Hl']; subst.
        assert (N : box_nnan (bbox_union a y)).
        { destruct Ha, Hy. split; [apply v3min_nnan|apply v3max_nnan]; auto. }
        destruct (IH _ N Hl') as (I1 & I2 & I3). destruct (C31_union a y Ha Hy) as (U1 & U2 & U3).
        split; auto. split.
        + intros x [->|[->|Hx]].
          * eapply box_in_trans; [exact U1|]. apply I2. now left.
          * eapply box_in_trans; [exact U2|]. apply I2. now left.
          * apply I2. now right.
        + intros c Hc. apply I3. intros x [<-|Hx].
          * apply U3; apply Hc; cbn; auto.
          * apply Hc. cbn. auto. }
    destruct (G l a Ha Hl) as (G1 & G2 & G3). auto.
  Qed.

  (** point_inside and overlaps mean what they say *)
  Theorem C31_point_inside : forall (b : bbox3 F) p, bbox_point_inside b p = true <-> pt_in p b.
  Proof.
    intros b p. unfold bbox_point_inside, pt_in, v3le. rewrite !andb_true_iff. tauto.
  Qed.

  Theorem C31_overlaps : forall a b : bbox3 F, v3le (bmin a) (bmax a) -> v3le (bmin b) (bmax b) ->
    (bbox_overlaps a b = true <-> exists p, pt_in p a /\ pt_in p b).
  Proof.
    intros a b Ha Hb.
    assert (E : bbox_overlaps a b = true <-> v3le (bmin b) (bmax a) /\ v3le (bmin a) (bmax b)).
    { unfold bbox_overlaps, v3le. rewrite !andb_true_iff. tauto. }
    rewrite E. split.
    - intros (H1 & H2). exists (v3max (bmin a) (bmin b)).
      pose proof (v3le_nnan _ _ Ha) as [Na _].
      pose proof (v3le_nnan _ _ Hb) as [Nb _].
      destruct (v3max_ub _ _ Na Nb) as (U & V).
      repeat split; try apply U; try apply V; try (apply v3max_lub; auto).
    - intros (p & (A & B) & C & D). split; eapply v3le_trans; eauto.
  Qed.

  (** A point of a box lies in every box that contains it. *)
  Theorem C31_monotone : forall (a b : bbox3 F) p, box_in a b -> pt_in p a -> pt_in p b.
  Proof. intros a b p (A & B) (C & D). split; eapply v3le_trans; eauto. Qed.
End C31.

(** In binary32: the union of [0,1]^3 and [2,3]^3 is [0,3]^3. *)
Example C31_example : forall L : Libm b32,
  let bx (a b : Z) : bbox3 b32 := mkBB (mkV3 (fofZ a) (fofZ a) (fofZ a)) (mkV3 (fofZ b) (fofZ b) (fofZ b)) in
  box_nnan (bx 0%Z 1%Z) /\ box_nnan (bx 2%Z 3%Z) /\
  bbox_of_list [bx 0%Z 1%Z; bx 2%Z 3%Z] = Ok (bx 0%Z 3%Z) /\ bbox_overlaps (bx 0%Z 1%Z) (bx 2%Z 3%Z) = false.
Proof. intros L bx. repeat split. Qed.

(** ** C32: exact arithmetic *)
Theorem C32_finds : forall lo hi o d tmax t,
  in_box lo hi (at_t o d t) -> 0 <= t -> xle (XFin t) tmax = true ->
  exists t0 t1, bbox_intersect (mkBB (fin3 lo) (fin3 hi)) (mkRay (fin3 o) (fin3 d) tmax) = Some (t0, t1) /\
    xle t0 (XFin t) = true /\ xle (XFin t) t1 = true.
Proof.
  intros lo hi o d tmax t (X & Y & Z) Ht Hm. unfold at_t, vadd, vscale in X, Y, Z. cbn [vx vy vz] in X, Y, Z.
  apply (slab_keeps (FL := XR_FLaws)); auto.
  - apply (axis_ok_X _ _ _ (vx lo) (vx hi) (vx o) (vx d)); auto.
  - apply (axis_ok_X _ _ _ (vy lo) (vy hi) (vy o) (vy d)); auto.
  - apply (axis_ok_X _ _ _ (vz lo) (vz hi) (vz o) (vz d)); auto.
Qed.

Theorem C32_none_means_miss : forall lo hi o d tmax,
  bbox_intersect (mkBB (fin3 lo) (fin3 hi)) (mkRay (fin3 o) (fin3 d) tmax) = None ->
  forall t, 0 <= t -> xle (XFin t) tmax = true -> ~ in_box lo hi (at_t o d t).
Proof.
  intros lo hi o d tmax E t Ht Hm Hin.
  destruct (C32_finds lo hi o d tmax t Hin Ht Hm) as (t0 & t1 & E' & _). congruence.
Qed.

(** The test is not needlessly generous: every parameter of a returned interval is within the
    ray, and its point is in the box up to the relative margin 2 gamma(3) < 4e-7. *)
Theorem C32_interval : forall lo hi o d tmax t0 t1,
  vx lo <= vx hi -> vy lo <= vy hi -> vz lo <= vz hi -> d <> v0 -> xis_nan tmax = false ->
  bbox_intersect (mkBB (fin3 lo) (fin3 hi)) (mkRay (fin3 o) (fin3 d) tmax) = Some (t0, t1) ->
  exists a b, t0 = XFin a /\ t1 = XFin b /\ 0 <= a <= b /\ xle (XFin b) tmax = true /\
    forall t, a <= t <= b ->
      let m := 4 / 10000000 * t in
      in_box_margin lo hi (at_t o d t) (mkV3 (m * Rabs (vx d)) (m * Rabs (vy d)) (m * Rabs (vz d))).
Proof.
  intros lo hi o d tmax t0 t1 Hx Hy Hz Hd Ht E. unfold bbox_intersect in E. cbn [r_tmax] in E.
  set (bb := mkBB (fin3 lo) (fin3 hi)) in *. set (r := mkRay (fin3 o) (fin3 d) tmax) in *.
  destruct (slab_step bb r AX f0 tmax) as [[a0 a1]|] eqn:E1; [|discriminate].
  destruct (slab_step bb r AY a0 a1) as [[b0 b1]|] eqn:E2; [|discriminate].
  (* facts about each round, for every parameter in its output *)
  assert (K : forall T, xle t0 (XFin T) = true -> xle (XFin T) t1 = true ->
     0 <= T /\ xle (XFin T) tmax = true /\ axis_ok (FL := XR_FLaws) bb r AX T /\
     axis_ok (FL := XR_FLaws) bb r AY T /\ axis_ok (FL := XR_FLaws) bb r AZ T).
  { intros T L U.
    assert (NN : forall a u v u' v', slab_step bb r a u v = Some (u', v') -> xis_nan u = false -> xis_nan v = false ->
       xis_nan u' = false /\ xis_nan v' = false).
    { intros a u v u' v'. rewrite slab_step_eq. cbv zeta.
      set (f := fmul _ _). set (n := near' bb r a).
      destruct (flt (if flt _ v then _ else v) _); [discriminate|]. intros Q Nu Nv.
      apply Some_pair_inj in Q as [<- <-]. split.
      - destruct (flt u n) eqn:W; auto. change (xlt u n = true) in W. now apply xlt_nan_l in W.
      - destruct (flt f v) eqn:W; auto. change (xlt f v = true) in W. now apply xlt_nan_l in W. }
    destruct (NN _ _ _ _ _ E1 eq_refl Ht) as (Na0 & Na1). destruct (NN _ _ _ _ _ E2 Na0 Na1) as (Nb0 & Nb1).
    destruct (slab_step_inv (FL := XR_FLaws) _ _ _ _ _ _ _ E T L U) as (P1 & P2 & P3 & P4 & _).
    specialize (P1 Nb0). specialize (P2 Nb1). specialize (P3 Nb0). specialize (P4 Nb1).
    destruct (slab_step_inv (FL := XR_FLaws) _ _ _ _ _ _ _ E2 T P1 P2) as (Q1 & Q2 & Q3 & Q4 & _).
    specialize (Q1 Na0). specialize (Q2 Na1). specialize (Q3 Na0). specialize (Q4 Na1).
    destruct (slab_step_inv (FL := XR_FLaws) _ _ _ _ _ _ _ E1 T Q1 Q2) as (S1 & S2 & S3 & S4 & _).
    specialize (S1 eq_refl). specialize (S2 Ht). specialize (S3 eq_refl). specialize (S4 Ht).
    split; [|split; [exact S2|split; [now split|split; now split]]].
    cbn in S1. rb. exact S1. }
  (* non-NaN, ordered, non-negative *)
  assert (Ord : xis_nan t0 = false /\ xis_nan t1 = false /\ xle t0 t1 = true /\ xle (XFin 0) t0 = true /\ xle t1 tmax = true /\
     (forall a, v3get d a <> 0 -> exists w, xle t1 (XFin w) = true)).
  { assert (ST : forall a u v u' v', slab_step bb r a u v = Some (u', v') ->
       xle (XFin 0) u = true -> xis_nan v = false ->
       xle (XFin 0) u' = true /\ xle u' v' = true /\ xis_nan v' = false /\ xle v' v = true /\
       (v3get d a <> 0 -> exists w, xle v' (XFin w) = true)).
    { intros a u v u' v' Q Hu Nv. rewrite slab_step_eq in Q. cbv zeta in Q.
      destruct (flt (if flt _ v then _ else v) _) eqn:W; [discriminate|]. apply Some_pair_inj in Q as [<- <-].
      assert (Fin : v3get d a <> 0 -> exists w, fmul (far' bb r a) sfac = XFin w).
      { intros Hda. unfold far', tnear, tfar. rewrite sfac_X.
        assert (Ea : forall z : rv, v3get (fin3 z) a = XFin (v3get z a)) by (intros z; destruct a; reflexivity).
        unfold bb, r. cbn [bmin bmax r_o r_d]. rewrite !Ea. xsimp. cbn [xsub xneg xadd].
        rewrite !xdiv_fin by auto. destruct (xlt _ _); cbn [xmul]; eauto. }
      set (f := fmul (far' bb r a) sfac) in *. set (n := near' bb r a) in *.
      change (@flt XR XR_FOps) with xlt in *.
      destruct (xlt u n) eqn:W1, (xlt f v) eqn:W2.
      all: pose proof (xle_nan_l _ _ Hu) as (_ & Nu).
      all: try (pose proof (xlt_nan_l _ _ W1) as (_ & Nn)); try (pose proof (xlt_nan_l _ _ W2) as (Nf & _)).
      all: rewrite xlt_not_le in W by auto; apply negb_false_iff in W.
      all: repeat split; auto.
      all: try (apply xle_refl; auto).
      all: try (eapply xle_trans; [exact Hu|now apply xlt_le]).
      all: try (now apply xlt_le).
      all: intros Hda; destruct (Fin Hda) as (w & Ew).
      all: try (exists w; rewrite Ew; apply xle_refl; reflexivity).
      all: rewrite Ew in W2; destruct v as [|[]|y]; try discriminate; try (exists 0; reflexivity).
      all: exists y; apply xle_refl; reflexivity. }
    assert (H0 : xle (XFin 0) f0 = true) by (cbn; rb; lra).
    destruct (ST _ _ _ _ _ E1 H0 Ht) as (A1 & A2 & A3 & A4 & A5).
    destruct (ST _ _ _ _ _ E2 A1 A3) as (B1 & B2 & B3 & B4 & B5).
    destruct (ST _ _ _ _ _ E B1 B3) as (C1 & C2 & C3 & C4 & C5).
    split; [apply (xle_nan_l _ _ C2)|]. split; auto. split; auto. split; auto.
    split; [eapply xle_trans; [exact C4|]; eapply xle_trans; [exact B4|exact A4]|].
    intros a Ha. destruct a.
    - destruct (A5 Ha) as (w & Hw). exists w. eapply xle_trans; [exact C4|]. eapply xle_trans; [exact B4|exact Hw].
    - destruct (B5 Ha) as (w & Hw). exists w. eapply xle_trans; [exact C4|exact Hw].
    - exact (C5 Ha). }
  destruct Ord as (N0 & N1 & Hle & H0 & Hm & Hw).
  assert (W : exists w, xle t1 (XFin w) = true).
  { destruct (Req_dec (vx d) 0) as [Zx|Zx]; [|apply (Hw AX); auto].
    destruct (Req_dec (vy d) 0) as [Zy|Zy]; [|apply (Hw AY); auto].
    destruct (Req_dec (vz d) 0) as [Zz|Zz]; [|apply (Hw AZ); auto].
    exfalso. apply Hd. destruct d. cbn in *. subst. reflexivity. }
  destruct W as (w & W).
  destruct t0 as [|[]|a]; try discriminate; destruct t1 as [|[]|c]; try discriminate.
  exists a, c. cbn in Hle, H0. rb. repeat split; auto.
  all: destruct (K t) as (T0 & _ & KX & KY & KZ); [cbn; rb; tauto|cbn; rb; tauto|].
  all: assert (G : 0 <= (cgam - 1) * t <= 4 / 10000000 * t) by (unfold cgam; lra).
  all: assert (Mono : forall q, (cgam - 1) * t * Rabs q <= 4 / 10000000 * t * Rabs q)
         by (intros q; apply Rmult_le_compat_r; [apply Rabs_pos|tauto]).
  all: pose proof (axis_ok_X_inv bb r AX (vx lo) (vx hi) (vx o) (vx d) eq_refl eq_refl eq_refl eq_refl t KX Hx T0).
  all: pose proof (axis_ok_X_inv bb r AY (vy lo) (vy hi) (vy o) (vy d) eq_refl eq_refl eq_refl eq_refl t KY Hy T0).
  all: pose proof (axis_ok_X_inv bb r AZ (vz lo) (vz hi) (vz o) (vz d) eq_refl eq_refl eq_refl eq_refl t KZ Hz T0).
  all: pose proof (Mono (vx d)); pose proof (Mono (vy d)); pose proof (Mono (vz d)).
  all: unfold at_t, vadd, vscale; vproj; lra.
Qed.

(** A ray along z through the unit cube, with two zero direction components, origin on two faces. *)
Example C32_example :
  in_box v0 (mkV3 1 1 1) (at_t (mkV3 0 1 (-1)) (mkV3 0 0 2) (1 / 2)) /\
  exists t0 t1, bbox_intersect (mkBB (fin3 v0) (fin3 (mkV3 1 1 1)))
    (mkRay (fin3 (mkV3 0 1 (-1))) (fin3 (mkV3 0 0 2)) (XInf false)) = Some (t0, t1).
Proof.
  assert (H : in_box v0 (mkV3 1 1 1) (at_t (mkV3 0 1 (-1)) (mkV3 0 0 2) (1 / 2))).
  { unfold in_box, at_t, vadd, vscale, v0; vproj. lra. }
  split; auto.
  destruct (C32_finds _ _ _ _ (XInf false) _ H) as (t0 & t1 & E & _); [lra|reflexivity|eauto].
Qed.

(** ** C33: binary32 *)
Definition B32v (v : V3 b32) (w : rv) : Prop :=
  B2X (vx v) = XFin (vx w) /\ B2X (vy v) = XFin (vy w) /\ B2X (vz v) = XFin (vz w).

(** No underflow or overflow in the distances of one axis. *)
Definition axis_range (lo hi o d : R) : Prop :=
  in_range (lo - o) /\ in_range (hi - o) /\ (d <> 0 -> in_range ((lo - o) / d) /\ in_range ((hi - o) / d)).

(** A negative zero direction component is harmless only strictly inside the slab. *)
Definition zero_ok (lo hi o : R) (d : b32) : Prop := d = B754_zero true -> lo < o < hi.

(** The exact ray meets the box at parameter [t] (by the relative amount 2^-23 + 2^-48 before the
    end of the ray): the binary32 slab test does not miss it.  Missing from the claim: direction
    components -0.0 with the origin on a face (refuted below), and hits within that distance of the
    ray's end. *)
Theorem C33_slab_rounding_partial : forall (L : Libm b32) (b : bbox3 b32) (r : ray b32) lo hi o d t,
  B32v (bmin b) lo -> B32v (bmax b) hi -> B32v (r_o r) o -> B32v (r_d r) d ->
  axis_range (vx lo) (vx hi) (vx o) (vx d) -> axis_range (vy lo) (vy hi) (vy o) (vy d) ->
  axis_range (vz lo) (vz hi) (vz o) (vz d) ->
  zero_ok (vx lo) (vx hi) (vx o) (vx (r_d r)) -> zero_ok (vy lo) (vy hi) (vy o) (vy (r_d r)) ->
  zero_ok (vz lo) (vz hi) (vz o) (vz (r_d r)) ->
  in_box lo hi (at_t o d t) -> 0 <= t ->
  xle (XFin (t * ((1 + / 16777216) * (1 + / 16777216)))) (B2X (r_tmax r)) = true ->
  exists t0 t1, bbox_intersect b r = Some (t0, t1) /\
    xle (B2X t0) (XFin (t * ((1 + / 16777216) * (1 + / 16777216)))) = true /\
    xle (XFin (t * ((1 + / 16777216) * (1 + / 16777216)))) (B2X t1) = true.
Proof.
  intros L b r lo hi o d t (L1 & L2 & L3) (H1 & H2 & H3) (O1 & O2 & O3) (D1 & D2 & D3) RX RY RZ ZX ZY ZZ (X & Y & Z) Ht Hm.
  unfold at_t, vadd, vscale in X, Y, Z. cbn [vx vy vz] in X, Y, Z.
  assert (P : 0 <= t * ((1 + / 16777216) * (1 + / 16777216))) by (apply Rmult_le_pos; lra).
  assert (K : forall a (lo hi o d : R), B2X (v3get (bmin b) a) = XFin lo -> B2X (v3get (bmax b) a) = XFin hi ->
     B2X (v3get (r_o r) a) = XFin o -> B2X (v3get (r_d r) a) = XFin d -> axis_range lo hi o d ->
     zero_ok lo hi o (v3get (r_d r) a) -> lo <= o + t * d <= hi ->
     axis_ok (FL := B32_FLaws L) b r a (t * ((1 + / 16777216) * (1 + / 16777216)))).
  { clear - Ht. intros a lo hi o d El Eh Eo Ed (R1 & R2 & R3) Zo Hin. destruct (Req_dec d 0) as [D0|D0].
    - assert (exists s, v3get (r_d r) a = (B754_zero s : b32)) as (s & Es).
      { rewrite D0 in Ed. destruct (v3get (r_d r) a) as [s|s| |s m e Hb]; try discriminate; eauto.
        injection Ed as Ed. exfalso.
        destruct s; [assert (F2R (Float radix2 (Z.neg m) e) < 0) by (apply F2R_lt_0; simpl; lia)
                    |assert (0 < F2R (Float radix2 (Z.pos m) e)) by (apply F2R_gt_0; simpl; lia)]; simpl in *; lra. }
      apply (axis_ok_zero_B L b r a lo hi o s); auto.
      + subst d. lra.
      + intros ->. now apply Zo.
    - destruct (R3 D0) as (R4 & R5).
      apply (axis_ok_nonzero (FL := B32_FLaws L) b r a lo hi o d t); auto. }
  apply (slab_keeps (FL := B32_FLaws L)); auto.
  - apply (K AX (vx lo) (vx hi) (vx o) (vx d)); auto.
  - apply (K AY (vy lo) (vy hi) (vy o) (vy d)); auto.
  - apply (K AZ (vz lo) (vz hi) (vz o) (vz d)); auto.
Qed.

(** The ray from (0, 1/2, -1) in direction (-0.0, 0, 1) runs along a face of the unit cube and
    meets it at t = 1; the test says it misses.  The range conditions hold. *)
Definition bz (z : Z) : b32 := binary_normalize 24 128 eq_refl eq_refl mode_NE z 0 false.
Definition bhalf : b32 := binary_normalize 24 128 eq_refl eq_refl mode_NE 1 (-1) false.
Definition c33box : bbox3 b32 := mkBB (mkV3 (bz 0) (bz 0) (bz 0)) (mkV3 (bz 1) (bz 1) (bz 1)).
Definition c33ray : ray b32 :=
  mkRay (mkV3 (bz 0) bhalf (bz (-1))) (mkV3 (B754_zero true) (bz 0) (bz 1)) (B754_infinity false).

Lemma bz_val z : (z = 0 \/ z = 1 \/ z = -1)%Z -> B2X (bz z) = XFin (IZR z).
Proof.
  intros [-> | [-> | ->]]; [reflexivity| |].
  all: cbn; f_equal; unfold F2R; cbn; lra.
Qed.
Lemma bhalf_val : B2X bhalf = XFin (/ 2).
Proof. cbn; f_equal; unfold F2R; cbn; lra. Qed.

Theorem C33_negative_zero_refuted : exists (b : bbox3 b32) (r : ray b32) lo hi o d t,
  B32v (bmin b) lo /\ B32v (bmax b) hi /\ B32v (r_o r) o /\ B32v (r_d r) d /\
  B2X (r_tmax r) = XInf false /\ 0 <= t /\ in_box lo hi (at_t o d t) /\
  forall L : Libm b32, bbox_intersect b r = None.
Proof.
  exists c33box, c33ray, v0, (mkV3 1 1 1), (mkV3 0 (/ 2) (-1)), (mkV3 0 0 1), 1.
  unfold c33box, c33ray, B32v; cbn [bmin bmax r_o r_d vx vy vz r_tmax v0].
  rewrite !bz_val, !bhalf_val by auto.
  repeat (split; [repeat split; auto; lra|]).
  split; [unfold in_box, at_t, vadd, vscale, v0; vproj; lra|].
  intros L. vm_compute. reflexivity.
Qed.

(** The hypotheses of the partial theorem hold for the same ray with +0.0. *)
Example C33_example : forall L : Libm b32,
  let r := mkRay (mkV3 (bz 0) bhalf (bz (-1))) (mkV3 (B754_zero false) (bz 0) (bz 1)) (B754_infinity false) in
  let lo := v0 in let hi := mkV3 1 1 1 in let o := mkV3 0 (/ 2) (-1) in let d := mkV3 0 0 1 in
  B32v (bmin c33box) lo /\ B32v (bmax c33box) hi /\ B32v (r_o r) o /\ B32v (r_d r) d /\
  axis_range 0 1 0 0 /\ axis_range 0 1 (/2) 0 /\ axis_range 0 1 (-1) 1 /\
  zero_ok 0 1 0 (vx (r_d r)) /\ in_box lo hi (at_t o d 1) /\
  exists t0 t1, bbox_intersect c33box r = Some (t0, t1).
Proof.
  intros L r lo hi o d.
  assert (Q : forall x, 1 / 2 <= Rabs x <= 2 -> in_range x).
  { intros x H. right. assert (2 <= IZR (2 ^ 100)) by (apply IZR_le; discriminate).
    assert (/ IZR (2 ^ 100) <= / 2) by (apply Rinv_le; lra). lra. }
  assert (Z0 : forall x, x = 0 -> in_range x) by (intros; now left).
  assert (A1 : axis_range 0 1 0 0).
  { repeat split; try (apply Z0; lra); try lra. apply Q. rewrite Rabs_pos_eq; lra. }
  assert (A2 : axis_range 0 1 (/2) 0).
  { repeat split; try lra; apply Q; unfold Rabs; destruct (Rcase_abs _); lra. }
  assert (A3 : axis_range 0 1 (-1) 1).
  { repeat split; try (intros _); try (apply Q; unfold Rabs; destruct (Rcase_abs _); lra). }
  assert (B1 : B32v (bmin c33box) lo) by (unfold c33box, B32v; cbn [bmin vx vy vz]; rewrite !bz_val by auto; repeat split).
  assert (B2 : B32v (bmax c33box) hi) by (unfold c33box, B32v; cbn [bmax vx vy vz]; rewrite !bz_val by auto; repeat split).
  assert (B3 : B32v (r_o r) o) by (unfold r, B32v; cbn [r_o vx vy vz]; rewrite !bz_val, bhalf_val by auto; repeat split).
  assert (B4 : B32v (r_d r) d) by (unfold r, B32v; cbn [r_d vx vy vz]; rewrite !bz_val by auto; repeat split).
  assert (I : in_box lo hi (at_t o d 1)) by (unfold in_box, at_t, vadd, vscale, lo, hi, o, d, v0; vproj; lra).
  assert (Zx : zero_ok 0 1 0 (vx (r_d r))) by (intros E; discriminate E).
  assert (Zy : zero_ok 0 1 (/ 2) (vy (r_d r))) by (intros E; discriminate E).
  assert (Zz : zero_ok 0 1 (-1) (vz (r_d r))) by (intros E; discriminate E).
  do 9 (split; [assumption|]).
  destruct (C33_slab_rounding_partial L c33box r lo hi o d 1 B1 B2 B3 B4 A1 A2 A3 Zx Zy Zz I) as (t0 & t1 & E & _).
  - lra.
  - reflexivity.
  - eauto.
Qed.

(** ** C34: exact arithmetic *)
Theorem C34_bounding_sphere : forall lo hi,
  vx lo <= vx hi -> vy lo <= vy hi -> vz lo <= vz hi ->
  exists c rad, bbox_bounding_sphere (mkBB (fin3 lo) (fin3 hi)) = (fin3 c, XFin rad) /\
    c = vscale (1 / 2) (vadd lo hi) /\
    (forall p, in_box lo hi p -> vdist p c <= rad) /\
    (* and it is tight: the corners lie on it *)
    vdist lo c = rad /\ vdist hi c = rad.
Proof.
  intros lo hi X Y Z. set (c := vscale (1 / 2) (vadd lo hi)).
  exists c, (vdist hi c).
  assert (Ec : v3divs (v3add (fin3 lo) (fin3 hi)) f2 = fin3 c).
  { rewrite v3add_fin. change (@f2 XR XR_FOps) with (XFin 2). rewrite v3divs_fin by lra. f_equal.
    unfold c. apply V3_eq; unfold vscale, vadd; vproj; lra. }
  split.
  { unfold bbox_bounding_sphere. cbn [bmin bmax]. rewrite Ec.
    assert (I : bbox_point_inside (mkBB (fin3 lo) (fin3 hi)) (fin3 c) = true).
    { unfold bbox_point_inside, fin3, c, vscale, vadd; vproj; xsimp; cbn [bmin bmax vx vy vz xle].
      rewrite !andb_true_iff, !Rle_bool_iff. lra. }
    rewrite I, v3distance_fin. f_equal. f_equal. unfold vdist, vnorm. f_equal. unfold vdot, vsub; vproj; ring. }
  split; auto.
  assert (D : forall p q : rv, vdist p c <= vdist q c <-> vdot (vsub p c) (vsub p c) <= vdot (vsub q c) (vsub q c)).
  { intros p q. unfold vdist, vnorm. split.
    - intros H. apply sqrt_le_0; auto using vdot_self_nonneg.
    - intros H. apply sqrt_le_1; auto using vdot_self_nonneg. }
  split; [|split; auto].
  - intros p (PX & PY & PZ). apply D. unfold vdot, vsub, c, vscale, vadd; vproj.
    assert (Q : forall l h q, l <= h -> l <= q <= h ->
       (q - 1 / 2 * (l + h)) * (q - 1 / 2 * (l + h)) <= (h - 1 / 2 * (l + h)) * (h - 1 / 2 * (l + h))) by (intros; nra).
    pose proof (Q _ _ _ X PX). pose proof (Q _ _ _ Y PY). pose proof (Q _ _ _ Z PZ). lra.
  - unfold vdist, vnorm. f_equal. unfold vdot, vsub, c, vscale, vadd; vproj. field.
Qed.

Example C34_example : exists c, bbox_bounding_sphere (mkBB (fin3 v0) (fin3 (mkV3 2 4 4))) = (fin3 c, XFin 3).
Proof.
  destruct (C34_bounding_sphere v0 (mkV3 2 4 4)) as (c & rad & E & -> & _ & H & _); unfold v0; vproj; try lra.
  unfold v0 in E. eexists. rewrite E. do 2 f_equal. rewrite <- H. unfold vdist, vnorm, vdot, vsub, vscale, vadd, v0; vproj.
  match goal with |- sqrt ?x = _ => replace x with (3 * 3) by field end. apply sqrt_square. lra.
Qed.

Print Assumptions C31_union.
Print Assumptions C31_list.
Print Assumptions C32_finds.
Print Assumptions C32_interval.
Print Assumptions C33_slab_rounding_partial.
Print Assumptions C33_negative_zero_refuted.
Print Assumptions C34_bounding_sphere.
