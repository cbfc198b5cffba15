(** * Lemmas on boxes and the slab test *)
From Coq Require Import ZArith Reals List Bool Lra Lia.
From Flocq Require Import Core IEEE754.BinarySingleNaN.
From Verif Require Import Model.Num Model.NumX Model.NumB Model.Vector Model.Common Model.BBox Spec.RVec Spec.BoxSpec.
From Verif Require Import Proofs.XBase Proofs.BBase Proofs.FLaws Proofs.PpmProofs.
Import ListNotations.
Local Open Scope R_scope.

Lemma Some_pair_inj {A B} (a c : A) (b d : B) : Some (a, b) = Some (c, d) -> a = c /\ b = d.
Proof. intros E. split; congruence. Qed.

Section G.
  Context {F} {FO : FOps F} {FL : FLaws F}.

  Lemma fmin_glb a b c : fle c a = true -> fle c b = true -> fle c (fmin a b) = true.
  Proof. intros. destruct (emb_fmin_cases a b) as [-> | ->]; auto. Qed.
  Lemma fmax_lub a b c : fle a c = true -> fle b c = true -> fle (fmax a b) c = true.
  Proof. intros. destruct (emb_fmax_cases a b) as [-> | ->]; auto. Qed.
  Lemma fmin_nnan a b : fis_nan a = false -> fis_nan b = false -> fis_nan (fmin a b) = false.
  Proof. intros. destruct (emb_fmin_cases a b) as [-> | ->]; auto. Qed.
  Lemma fmax_nnan a b : fis_nan a = false -> fis_nan b = false -> fis_nan (fmax a b) = false.
  Proof. intros. destruct (emb_fmax_cases a b) as [-> | ->]; auto. Qed.

  Lemma v3le_trans (a b c : V3 F) : v3le a b -> v3le b c -> v3le a c.
  Proof. intros (A & B & C) (D & E & G). repeat split; eapply fle_trans; eauto. Qed.
  Lemma v3le_refl (a : V3 F) : v3nnan a -> v3le a a.
  Proof. intros (A & B & C). repeat split; now apply fle_refl. Qed.
  Lemma v3le_nnan (a b : V3 F) : v3le a b -> v3nnan a /\ v3nnan b.
  Proof.
    intros (A & B & C). apply fle_nnan in A, B, C. unfold v3nnan. tauto.
  Qed.
  Lemma v3min_lb (a b : V3 F) : v3nnan a -> v3nnan b -> v3le (v3min a b) a /\ v3le (v3min a b) b.
  Proof.
    intros (A & B & C) (D & E & G). unfold v3le, v3min, v3map2; cbn [vx vy vz].
    repeat split; apply fmin_lb; auto.
  Qed.
  Lemma v3max_ub (a b : V3 F) : v3nnan a -> v3nnan b -> v3le a (v3max a b) /\ v3le b (v3max a b).
  Proof.
    intros (A & B & C) (D & E & G). unfold v3le, v3max, v3map2; cbn [vx vy vz].
    repeat split; apply fmax_ub; auto.
  Qed.
  Lemma v3min_glb (a b c : V3 F) : v3le c a -> v3le c b -> v3le c (v3min a b).
  Proof.
    intros (A & B & C) (D & E & G). unfold v3le, v3min, v3map2; cbn [vx vy vz].
    repeat split; apply fmin_glb; auto.
  Qed.
  Lemma v3max_lub (a b c : V3 F) : v3le a c -> v3le b c -> v3le (v3max a b) c.
  Proof.
    intros (A & B & C) (D & E & G). unfold v3le, v3max, v3map2; cbn [vx vy vz].
    repeat split; apply fmax_lub; auto.
  Qed.
  Lemma v3min_nnan (a b : V3 F) : v3nnan a -> v3nnan b -> v3nnan (v3min a b).
  Proof. intros (A & B & C) (D & E & G). repeat split; apply fmin_nnan; auto. Qed.
  Lemma v3max_nnan (a b : V3 F) : v3nnan a -> v3nnan b -> v3nnan (v3max a b).
  Proof. intros (A & B & C) (D & E & G). repeat split; apply fmax_nnan; auto. Qed.

  Lemma box_in_trans (a b c : bbox3 F) : box_in a b -> box_in b c -> box_in a c.
  Proof. intros [A B] [C D]. split; eapply v3le_trans; eauto. Qed.

  Lemma box_nnan_alt (b : bbox3 F) : box_nnan b <-> v3nnan (bmin b) /\ v3nnan (bmax b).
  Proof. reflexivity. Qed.

  (** ** One round of the slab test keeps a parameter [A] between the computed distances *)
  Definition tnear (b : bbox3 F) (r : ray F) a := fdiv (fsub (v3get (bmin b) a) (v3get (r_o r) a)) (v3get (r_d r) a).
  Definition tfar (b : bbox3 F) (r : ray F) a := fdiv (fsub (v3get (bmax b) a) (v3get (r_o r) a)) (v3get (r_d r) a).
  Definition sfac : F := fadd f1 (fmul f2 (gamma (fofZ 3))).
  Definition near' (b : bbox3 F) r a := if flt (tfar b r a) (tnear b r a) then tfar b r a else tnear b r a.
  Definition far' (b : bbox3 F) r a := if flt (tfar b r a) (tnear b r a) then tnear b r a else tfar b r a.

  Lemma slab_step_eq b r a t0 t1 : slab_step b r a t0 t1 =
    let n := near' b r a in let f := fmul (far' b r a) sfac in
    let t0' := if flt t0 n then n else t0 in let t1' := if flt f t1 then f else t1 in
    if flt t1' t0' then None else Some (t0', t1').
  Proof.
    unfold slab_step, near', far', tnear, tfar, sfac. cbv zeta.
    destruct (flt (fdiv (fsub (v3get (bmax b) a) (v3get (r_o r) a)) (v3get (r_d r) a)) _); reflexivity.
  Qed.

  (** The parameter [A] survives this axis. *)
  Definition axis_ok (b : bbox3 F) r a (A : R) : Prop :=
    xlt (XFin A) (emb (near' b r a)) = false /\ xlt (emb (fmul (far' b r a) sfac)) (XFin A) = false.

  Lemma slab_step_keeps b r a t0 t1 A : axis_ok b r a A ->
    xle (emb t0) (XFin A) = true -> xle (XFin A) (emb t1) = true ->
    exists t0' t1', slab_step b r a t0 t1 = Some (t0', t1') /\
      xle (emb t0') (XFin A) = true /\ xle (XFin A) (emb t1') = true.
  Proof.
    intros [H1 H2] L U. rewrite slab_step_eq. cbv zeta.
    set (n := near' b r a) in *. set (f := fmul (far' b r a) sfac) in *.
    assert (P : xle (emb (if flt t0 n then n else t0)) (XFin A) = true).
    { destruct (flt t0 n) eqn:E; auto. rewrite emb_lt in E. apply xlt_nan_l in E as [_ E].
      rewrite xlt_not_le in H1 by auto. now apply negb_false_iff in H1. }
    assert (Q : xle (XFin A) (emb (if flt f t1 then f else t1)) = true).
    { destruct (flt f t1) eqn:E; auto. rewrite emb_lt in E. apply xlt_nan_l in E as [E _].
      rewrite xlt_not_le in H2 by auto. now apply negb_false_iff in H2. }
    set (t0' := if flt t0 n then n else t0) in *. set (t1' := if flt f t1 then f else t1) in *.
    assert (E : flt t1' t0' = false).
    { pose proof (xle_trans _ _ _ P Q) as R. rewrite emb_lt. rewrite xlt_not_le.
      - now rewrite R.
      - apply (xle_nan_l _ _ R).
      - apply (xle_nan_l _ _ R). }
    rewrite E. eauto 10.
  Qed.

  Lemma slab_keeps b r A : axis_ok b r AX A -> axis_ok b r AY A -> axis_ok b r AZ A ->
    0 <= A -> xle (XFin A) (emb (r_tmax r)) = true ->
    exists t0 t1, bbox_intersect b r = Some (t0, t1) /\
      xle (emb t0) (XFin A) = true /\ xle (XFin A) (emb t1) = true.
  Proof.
    intros X Y Z A0 AT. unfold bbox_intersect.
    destruct (slab_step_keeps b r AX f0 (r_tmax r) A X) as (t0 & t1 & -> & L & U); auto.
    { rewrite emb_f0. simpl. rb. lra. }
    destruct (slab_step_keeps b r AY t0 t1 A Y L U) as (t2 & t3 & -> & L2 & U2).
    exact (slab_step_keeps b r AZ t2 t3 A Z L2 U2).
  Qed.

  (** What a round guarantees when it succeeds. *)
  Lemma slab_step_inv b r a t0 t1 t0' t1' : slab_step b r a t0 t1 = Some (t0', t1') ->
    forall T, xle (emb t0') (XFin T) = true -> xle (XFin T) (emb t1') = true ->
      (fis_nan t0 = false -> xle (emb t0) (XFin T) = true) /\
      (fis_nan t1 = false -> xle (XFin T) (emb t1) = true) /\
      (fis_nan t0 = false -> xlt (XFin T) (emb (near' b r a)) = false) /\
      (fis_nan t1 = false -> xlt (emb (fmul (far' b r a) sfac)) (XFin T) = false) /\
      (fis_nan t0 = false -> fis_nan t0' = false) /\ (fis_nan t1 = false -> fis_nan t1' = false).
  Proof.
    rewrite slab_step_eq. cbv zeta.
    set (n := near' b r a) in *. set (f := fmul (far' b r a) sfac) in *.
    destruct (flt (if flt f t1 then f else t1) _) eqn:E; [discriminate|].
    intros E'. apply Some_pair_inj in E' as [<- <-]. intros T L U.
    rewrite !emb_nan.
    destruct (flt t0 n) eqn:E1, (flt f t1) eqn:E2; rewrite emb_lt in E1, E2.
    all: repeat split; intros N; auto.
    all: try (apply xlt_le in E1; now apply (xle_trans _ _ _ E1)).
    all: try (apply xlt_le in E2; now apply (xle_trans _ _ _ U)).
    all: try (apply (xle_nan_l _ _ L)); try (apply (xle_nan_l _ _ U)).
    all: match goal with |- ?x = false => destruct x eqn:K; auto; exfalso end.
    all: try (pose proof (xle_lt_trans _ _ _ L K) as W; rewrite ?xlt_irrefl in W; congruence).
    all: try (pose proof (xlt_le_trans _ _ _ K U) as W; rewrite ?xlt_irrefl in W; congruence).
  Qed.

  (** The factor [1 + 2 gamma(3)] *)
  Lemma slab_factor : exists c, emb sfac = XFin c /\ 1 + 6 / 16777216 <= c <= 2.
  Proof.
    unfold sfac, gamma, MACHINE_EPSILON.
    assert (M : emb (fmul feps fhalf) = XFin (/ 16777216)).
    { rewrite emb_mul, emb_eps, emb_fhalf. cbn [xmul].
      replace (/ 8388608 * / 2) with (IZR 1 / IZR (2 ^ 24)) by (simpl; lra). rewrite rn_dyadic by (simpl; lia).
      f_equal. simpl. lra. }
    assert (M3 : emb (fmul (fofZ 3) (fmul feps fhalf)) = XFin (3 / 16777216)).
    { rewrite emb_mul, M, emb_ofZ_exact by (simpl; lia). cbn [xmul].
      replace (3 * / 16777216) with (IZR 3 / IZR (2 ^ 24)) by (simpl; lra). rewrite rn_dyadic by (simpl; lia).
      f_equal. }
    assert (S : emb (fsub f1 (fmul (fofZ 3) (fmul feps fhalf))) = XFin (16777213 / 16777216)).
    { rewrite emb_sub, M3, emb_f1. cbn [xsub xneg xadd].
      replace (1 - (3 / 16777216)) with (IZR 16777213 / IZR (2 ^ 24)) by (simpl; lra). rewrite rn_dyadic by (simpl; lia).
      f_equal. }
    set (g := fdiv _ _).
    assert (G : exists x, emb g = XFin x /\ 3 / 16777216 <= x <= 1 / 4).
    { unfold g. rewrite emb_div, M3, S by (rewrite S; intros Q; injection Q; lra). rewrite xdiv_fin by lra.
      assert (Q : 3 / 16777216 <= 3 / 16777216 / (16777213 / 16777216) <= 1 / 4) by lra.
      revert Q. set (q := 3 / 16777216 / (16777213 / 16777216)). intros Q.
      pose proof (rn_le (XFin (IZR 3 / IZR (2 ^ 24))) (XFin q) ltac:(simpl; rb; lra)) as L.
      pose proof (rn_le (XFin q) (XFin (IZR 1 / IZR (2 ^ 2))) ltac:(simpl; rb; lra)) as U.
      rewrite rn_dyadic in L, U by (simpl; lia).
      destruct (rn (XFin q)) as [|[]|x]; try discriminate. exists x. simpl in L, U. rb. split; auto; lra. }
    destruct G as (x & Ex & Hx).
    assert (D : exists y, emb (fmul f2 g) = XFin y /\ 6 / 16777216 <= y <= 1 / 2).
    { rewrite emb_mul, Ex, emb_f2. cbn [xmul].
      pose proof (rn_le (XFin (IZR 3 / IZR (2 ^ 23))) (XFin (2 * x)) ltac:(simpl; rb; lra)) as L.
      pose proof (rn_le (XFin (2 * x)) (XFin (IZR 1 / IZR (2 ^ 1))) ltac:(simpl; rb; lra)) as U.
      rewrite rn_dyadic in L, U by (simpl; lia).
      destruct (rn (XFin (2 * x))) as [|[]|y]; try discriminate. exists y. simpl in L, U. rb. split; auto. lra. }
    destruct D as (y & Ey & Hy).
    rewrite emb_add, emb_f1, Ey. cbn [xadd].
    pose proof (rn_le (XFin (IZR 8388611 / IZR (2 ^ 23))) (XFin (1 + y)) ltac:(simpl; rb; lra)) as L.
    pose proof (rn_le (XFin (1 + y)) (XFin (IZR 2)) ltac:(simpl; rb; lra)) as U.
    rewrite rn_dyadic in L by (simpl; lia). rewrite rn_Z in U by (simpl; lia).
    destruct (rn (XFin (1 + y))) as [|[]|z]; try discriminate. exists z. simpl in L, U. rb. split; auto. lra.
  Qed.

  (** ** Rounding analysis of one axis with a non-zero direction component *)
  Definition in_range (x : R) : Prop := x = 0 \/ / IZR (2 ^ 100) <= Rabs x <= IZR (2 ^ 100).
  Definition u24 : R := / 16777216.

  Lemma p100 : 1 < IZR (2 ^ 100).
  Proof. apply IZR_lt. reflexivity. Qed.

  (** Rounding in the wider range, zero included *)
  Lemma rn_rel x k : (0 <= k <= 125)%Z -> x = 0 \/ / IZR (2 ^ k) <= Rabs x <= IZR (2 ^ k) ->
    exists d, Rabs d <= u24 /\ rn (XFin x) = XFin (x * (1 + d)).
  Proof.
    intros Hk [->|H].
    - exists 0. rewrite Rabs_R0, Rmult_0_l, rn_0. unfold u24. split; [lra|reflexivity].
    - apply rn_err. assert (IZR (2 ^ k) <= IZR (2 ^ 125)) by (apply IZR_le, Z.pow_le_mono_r; lia).
      assert (0 < IZR (2 ^ k)) by (apply IZR_lt, Z.pow_pos_nonneg; lia).
      assert (IZR (2 ^ 125) < IZR (2 ^ 126) /\ IZR (2 ^ 125) < IZR (2 ^ 127)) as [? ?] by (split; apply IZR_lt; reflexivity).
      split; [|lra]. apply Rle_trans with (/ IZR (2 ^ k)); [|lra]. apply Rinv_le; lra.
  Qed.

  (** Computed slab distance: two roundings of the exact one, of the same sign. *)
  Lemma slab_dist lo o d vlo vo vd : emb lo = XFin vlo -> emb o = XFin vo -> emb d = XFin vd -> vd <> 0 ->
    in_range (vlo - vo) -> in_range ((vlo - vo) / vd) ->
    exists k, (1 - u24) * (1 - u24) <= k <= (1 + u24) * (1 + u24) /\
      emb (fdiv (fsub lo o) d) = XFin ((vlo - vo) / vd * k).
  Proof.
    intros El Eo Ed Hd R1 R2.
    destruct (rn_rel (vlo - vo) 100 ltac:(lia) R1) as (d1 & B1 & E1).
    assert (ES : emb (fsub lo o) = XFin ((vlo - vo) * (1 + d1))).
    { rewrite emb_sub, El, Eo. cbn [xsub xneg xadd]. exact E1. }
    apply Rabs_le_inv in B1. unfold u24 in B1.
    destruct (rn_rel ((vlo - vo) * (1 + d1) / vd) 101 ltac:(lia)) as (d2 & B2 & E2).
    { destruct R2 as [R2|R2].
      - left. replace ((vlo - vo) * (1 + d1) / vd) with ((vlo - vo) / vd * (1 + d1)) by (field; auto). rewrite R2. ring.
      - right. replace ((vlo - vo) * (1 + d1) / vd) with ((vlo - vo) / vd * (1 + d1)) by (field; auto).
        rewrite Rabs_mult, (Rabs_pos_eq (1 + d1)) by lra.
        change (2 ^ 101)%Z with (2 * 2 ^ 100)%Z. rewrite mult_IZR. pose proof p100.
        rewrite Rinv_mult. assert (0 < / IZR (2 ^ 100)) by (apply Rinv_0_lt_compat; lra). split; nra. }
    apply Rabs_le_inv in B2. unfold u24 in *.
    exists ((1 + d1) * (1 + d2)). split.
    - split; apply Rmult_le_compat; lra.
    - rewrite emb_div by (rewrite Ed; intros Q; injection Q; auto). rewrite ES, Ed, xdiv_fin by auto. rewrite E2.
      f_equal. field. auto.
  Qed.

  Lemma far_scaled f vf : emb f = XFin (vf : R) -> 0 <= vf -> vf = 0 \/ / IZR (2 ^ 102) <= Rabs vf <= IZR (2 ^ 102) ->
    exists w, emb (fmul f sfac) = XFin w /\ vf * (1 + 6 * u24) * (1 - u24) <= w.
  Proof.
    intros E Hf R. destruct slab_factor as (c & Ec & Hc).
    destruct (rn_rel (vf * c) 104 ltac:(lia)) as (d & B & Er).
    { destruct R as [->|R]; [left; ring|right].
      rewrite Rabs_mult, (Rabs_pos_eq c) by lra.
      change (2 ^ 104)%Z with (2 * (2 * 2 ^ 102))%Z. rewrite !mult_IZR.
      assert (1 < IZR (2 ^ 102)) by (apply IZR_lt; reflexivity).
      rewrite !Rinv_mult. assert (0 < / IZR (2 ^ 102)) by (apply Rinv_0_lt_compat; lra). split; nra. }
    exists (vf * c * (1 + d)). split.
    - rewrite emb_mul, E, Ec. cbn [xmul]. exact Er.
    - apply Rabs_le_inv in B. unfold u24 in *.
      assert (vf * (1 + 6 / 16777216) <= vf * c) by (apply Rmult_le_compat_l; lra).
      assert (0 <= vf * (1 + 6 / 16777216)) by (apply Rmult_le_pos; lra).
      apply Rle_trans with (vf * (1 + 6 / 16777216) * (1 - / 16777216)); [right; field|].
      apply Rmult_le_compat; lra.
  Qed.

  Lemma axis_ok_nonzero b r a lo hi o d t :
    emb (v3get (bmin b) a) = XFin lo -> emb (v3get (bmax b) a) = XFin hi ->
    emb (v3get (r_o r) a) = XFin o -> emb (v3get (r_d r) a) = XFin d -> d <> 0 ->
    in_range (lo - o) -> in_range (hi - o) -> in_range ((lo - o) / d) -> in_range ((hi - o) / d) ->
    lo <= o + t * d <= hi -> 0 <= t ->
    axis_ok b r a (t * ((1 + u24) * (1 + u24))).
  Proof.
    intros El Eh Eo Ed Hd R1 R2 R3 R4 Hin Ht.
    destruct (slab_dist _ _ _ _ _ _ El Eo Ed Hd R1 R3) as (k1 & K1 & E1).
    destruct (slab_dist _ _ _ _ _ _ Eh Eo Ed Hd R2 R4) as (k2 & K2 & E2).
    fold (tnear b r a) in E1. fold (tfar b r a) in E2.
    set (n := (lo - o) / d) in *. set (f := (hi - o) / d) in *.
    assert (S : (n <= t <= f) \/ (f <= t <= n)).
    { assert (En : n * d = lo - o) by (unfold n; field; auto). assert (Ef : f * d = hi - o) by (unfold f; field; auto).
      clearbody n f. destruct (Rtotal_order 0 d) as [P|[P|P]]; [left|congruence|right]; split; nra. }
    assert (W : forall x k, in_range x -> (1 - u24) * (1 - u24) <= k <= (1 + u24) * (1 + u24) ->
              x * k = 0 \/ / IZR (2 ^ 102) <= Rabs (x * k) <= IZR (2 ^ 102)).
    { intros x k [->|R] K; [left; ring|right]. unfold u24 in K.
      rewrite Rabs_mult, (Rabs_pos_eq k) by lra.
      change (2 ^ 102)%Z with (2 * (2 * 2 ^ 100))%Z. rewrite !mult_IZR. pose proof p100.
      rewrite !Rinv_mult. assert (0 < / IZR (2 ^ 100)) by (apply Rinv_0_lt_compat; lra). split; nra. }
    (* any computed lower distance is at most A, any computed upper one, scaled, at least A *)
    assert (LO : forall x k, x <= t -> (1 - u24) * (1 - u24) <= k <= (1 + u24) * (1 + u24) ->
              x * k <= t * ((1 + u24) * (1 + u24))).
    { intros x k X K. unfold u24 in *. destruct (Rle_dec 0 x).
      - apply Rmult_le_compat; lra.
      - assert (x * k <= 0) by (assert (0 < k) by lra; nra).
        assert (0 <= t * ((1 + / 16777216) * (1 + / 16777216))) by (apply Rmult_le_pos; lra). lra. }
    assert (HI : forall y x k, emb y = XFin (x * k) -> in_range x -> t <= x ->
              (1 - u24) * (1 - u24) <= k <= (1 + u24) * (1 + u24) ->
              xlt (emb (fmul y sfac)) (XFin (t * ((1 + u24) * (1 + u24)))) = false).
    { intros y x k Ey R X K.
      assert (P : 0 <= x * k) by (unfold u24 in K; apply Rmult_le_pos; lra).
      destruct (far_scaled y (x * k) Ey P (W _ _ R K)) as (w & -> & Hw). simpl. rb.
      eapply Rle_trans; [|exact Hw].
      apply Rle_trans with (t * ((1 - u24) * (1 - u24) * (1 + 6 * u24) * (1 - u24))).
      - apply Rmult_le_compat_l; auto. unfold u24. lra.
      - apply Rle_trans with (x * k * ((1 + 6 * u24) * (1 - u24))); [|right; ring].
        rewrite !Rmult_assoc. rewrite <- !Rmult_assoc.
        replace (t * (1 - u24) * (1 - u24) * (1 + 6 * u24) * (1 - u24))
          with (t * ((1 - u24) * (1 - u24)) * ((1 + 6 * u24) * (1 - u24))) by ring.
        replace (x * k * (1 + 6 * u24) * (1 - u24)) with (x * k * ((1 + 6 * u24) * (1 - u24))) by ring.
        unfold u24 in *. apply Rmult_le_compat_r; [lra|]. apply Rmult_le_compat; lra. }
    (* the computed order can differ from the exact one only when both orders are fine *)
    unfold axis_ok, near', far'. rewrite emb_lt, E1, E2. cbn [xlt].
    destruct (Rlt_bool (f * k2) (n * k1)) eqn:Sw; rb.
    - rewrite E2. split.
      + simpl. rb. destruct S as [S|S]; [|now apply LO].
        eapply Rle_trans; [apply Rlt_le, Sw|]. now apply LO.
      + destruct S as [S|S]; [|now apply (HI _ n k1)].
        (* then f*k2 < n*k1 although n <= t <= f *)
        assert (P : xlt (emb (fmul (tfar b r a) sfac)) (XFin (t * ((1 + u24) * (1 + u24)))) = false) by (apply (HI _ f k2); tauto).
        assert (Le : xle (emb (fmul (tfar b r a) sfac)) (emb (fmul (tnear b r a) sfac)) = true).
        { destruct slab_factor as (c & Ec & Hc). rewrite !emb_mul, E1, E2, Ec. apply rn_le. simpl. rb. apply Rmult_le_compat_r; lra. }
        destruct (xlt (emb (fmul (tnear b r a) sfac)) _) eqn:X; auto.
        rewrite (xle_lt_trans _ _ _ Le X) in P. discriminate.
    - rewrite E1. split.
      + simpl. rb. destruct S as [S|S]; [now apply LO|].
        eapply Rle_trans; [apply Sw|]. now apply LO.
      + destruct S as [S|S]; [now apply (HI _ f k2)|].
        assert (P : xlt (emb (fmul (tnear b r a) sfac)) (XFin (t * ((1 + u24) * (1 + u24)))) = false) by (apply (HI _ n k1); tauto).
        assert (Le : xle (emb (fmul (tnear b r a) sfac)) (emb (fmul (tfar b r a) sfac)) = true).
        { destruct slab_factor as (c & Ec & Hc). rewrite !emb_mul, E1, E2, Ec. apply rn_le. simpl. rb. apply Rmult_le_compat_r; lra. }
        destruct (xlt (emb (fmul (tfar b r a) sfac)) _) eqn:X; auto.
        rewrite (xle_lt_trans _ _ _ Le X) in P. discriminate.
  Qed.
End G.

(** ** Exact arithmetic *)
Definition cgam : R := 1 + 2 * (3 / 16777216 / (1 - 3 / 16777216)).

Lemma sfac_X : sfac (F := XR) = XFin cgam.
Proof.
  unfold sfac, gamma, MACHINE_EPSILON, f1, f2, fhalf. xsimp. cbn [xmul xsub xneg xadd].
  rewrite (xdiv_fin 1 2) by lra. cbn [xmul xsub xneg xadd]. rewrite xdiv_fin by lra. cbn [xmul xsub xneg xadd].
  f_equal. unfold cgam. lra.
Qed.

Lemma cgam_bounds : 1 <= cgam /\ cgam <= 2.
Proof. unfold cgam. lra. Qed.

Section X.
  Variables (b : bbox3 XR) (r : ray XR) (a : axis) (lo hi o d : R).
  Hypotheses (El : v3get (bmin b) a = XFin lo) (Eh : v3get (bmax b) a = XFin hi)
             (Eo : v3get (r_o r) a = XFin o) (Ed : v3get (r_d r) a = XFin d).

  Lemma axis_ok_X t : lo <= o + t * d <= hi -> 0 <= t -> axis_ok (FL := XR_FLaws) b r a t.
  Proof.
    intros Hin Ht. unfold axis_ok, near', far', tnear, tfar. rewrite El, Eh, Eo, Ed, sfac_X. xsimp.
    cbn [xsub xneg xadd emb XR_FLaws].
    pose proof cgam_bounds as [C1 C2].
    destruct (Req_dec d 0) as [->|Hd].
    - assert (L : lo - o <= 0) by lra. assert (U : 0 <= hi - o) by lra.
      assert (Cc : xmul (XInf false) (XFin cgam) = XInf false).
      { simpl. rewrite Req_bool_false by lra. unfold Rsgn. now rewrite Rlt_bool_false by lra. }
      destruct (Req_dec (lo - o) 0) as [L0|L0], (Req_dec (hi - o) 0) as [U0|U0].
      + rewrite L0, U0, xdiv_zero_zero. split; reflexivity.
      + rewrite L0, xdiv_zero_zero, xdiv_zero_pos by lra. cbn [xlt]. rewrite Cc. split; reflexivity.
      + rewrite U0, xdiv_zero_zero, xdiv_zero_neg by lra. cbn [xlt]. split; reflexivity.
      + rewrite (xdiv_zero_neg (lo - o)), (xdiv_zero_pos (hi - o)) by lra. cbn [xlt negb andb]. rewrite Cc. split; reflexivity.
    - rewrite !xdiv_fin by auto.
      set (n := (lo - o) / d) in *. set (f := (hi - o) / d) in *.
      assert (S : (n <= t <= f) \/ (f <= t <= n)).
      { assert (En : n * d = lo - o) by (unfold n; field; auto). assert (Ef : f * d = hi - o) by (unfold f; field; auto).
        clearbody n f. destruct (Rtotal_order 0 d) as [P|[P|P]]; [left|congruence|right]; split; nra. }
      cbn [xlt]. destruct (Rlt_bool f n) eqn:E; rb; cbn [xmul xlt]; split; rb; try lra; nra.
  Qed.

  (** A parameter that survives is in the slab up to the relative margin of the factor. *)
  Lemma axis_ok_X_inv t : axis_ok (FL := XR_FLaws) b r a t -> lo <= hi -> 0 <= t ->
    lo - (cgam - 1) * t * Rabs d <= o + t * d <= hi + (cgam - 1) * t * Rabs d.
  Proof.
    unfold axis_ok, near', far', tnear, tfar. rewrite El, Eh, Eo, Ed, sfac_X. xsimp.
    cbn [xsub xneg xadd emb XR_FLaws].
    pose proof cgam_bounds as [C1 C2]. intros [H1 H2] Hlh Ht.
    destruct (Req_dec d 0) as [D0|Hd].
    - subst d. rewrite Rabs_R0, !Rmult_0_r.
      revert H1 H2.
      assert (Cc : forall s, xmul (XInf s) (XFin cgam) = XInf s).
      { intros s. simpl. rewrite Req_bool_false by lra. unfold Rsgn. rewrite Rlt_bool_false by lra. now destruct s. }
      destruct (Rtotal_order (lo - o) 0) as [L|[L|L]], (Rtotal_order (hi - o) 0) as [U|[U|U]]; try lra.
      + rewrite !xdiv_zero_neg by lra. cbn [xlt negb andb]. rewrite Cc. discriminate.
      + rewrite !xdiv_zero_pos by lra. cbn [xlt negb andb]. discriminate.
    - rewrite !xdiv_fin in H1, H2 by auto.
      set (n := (lo - o) / d) in *. set (f := (hi - o) / d) in *.
      assert (En : n * d = lo - o) by (unfold n; field; auto). assert (Ef : f * d = hi - o) by (unfold f; field; auto).
      clearbody n f.
      assert (K : 0 <= (cgam - 1) * t * Rabs d) by (apply Rmult_le_pos; [apply Rmult_le_pos; lra|apply Rabs_pos]).
      cbn [xlt] in H1, H2.
      assert (N : exists x y, ((x = n /\ y = f) \/ (x = f /\ y = n)) /\ x <= y /\ x <= t <= y * cgam).
      { destruct (Rlt_bool f n) eqn:E; rb; cbn [xmul xlt] in H1, H2; rb.
        - exists f, n. repeat split; auto; lra.
        - exists n, f. repeat split; auto; lra. }
      destruct N as (x & y & Hxy & Hle & H3).
      assert (Y : t <= y + (cgam - 1) * t).
      { destruct (Rle_dec t y); [nra|]. assert (0 <= (cgam - 1) * (t - y)) by (apply Rmult_le_pos; lra). lra. }
      unfold Rabs. unfold Rabs in K. destruct (Rcase_abs d) as [P|P].
      + assert (x = f /\ y = n) as [-> ->].
        { destruct Hxy as [[-> ->]|]; auto. assert (n = f) by nra. lra. }
        clear H1 H2. split; nra.
      + assert (0 < d) by lra. assert (x = n /\ y = f) as [-> ->].
        { destruct Hxy as [|[-> ->]]; auto. assert (n = f) by nra. lra. }
        clear H1 H2. split; nra.
  Qed.
End X.

(** ** binary32: division by a zero direction component *)
Lemma B32_div_zero (L : Libm b32) (x : b32) s v : B2X x = XFin v -> v <> 0 ->
  B2X (fdiv x (B754_zero s : b32)) = XInf (xorb (Rlt_bool v 0) s).
Proof.
  intros E Hv. destruct x as [z|z| |z m e Hb]; simpl in E; try discriminate.
  - injection E as E. congruence.
  - injection E as E. cbn. f_equal. f_equal. subst v.
    destruct z; symmetry; rb.
    + apply F2R_lt_0. simpl. lia.
    + apply F2R_ge_0. simpl. lia.
Qed.

Lemma B32_div_zero_zero (L : Libm b32) (x : b32) s : B2X x = XFin 0 ->
  B2X (fdiv x (B754_zero s : b32)) = XNaN.
Proof.
  intros E. destruct x as [z|z| |z m e Hb]; simpl in E; try discriminate.
  - reflexivity.
  - injection E as E. exfalso.
    destruct z; [assert (F2R (Float radix2 (Z.neg m) e) < 0) by (apply F2R_lt_0; simpl; lia)
                |assert (0 < F2R (Float radix2 (Z.pos m) e)) by (apply F2R_gt_0; simpl; lia)]; simpl in *; lra.
Qed.

(** A zero direction component: fine when the origin is strictly inside the slab, and for +0 also
    on its faces. *)
Lemma axis_ok_zero_B (L : Libm b32) (b : bbox3 b32) (r : ray b32) a lo hi o s t :
  B2X (v3get (bmin b) a) = XFin lo -> B2X (v3get (bmax b) a) = XFin hi ->
  B2X (v3get (r_o r) a) = XFin o -> v3get (r_d r) a = (B754_zero s : b32) ->
  in_range (lo - o) -> in_range (hi - o) -> lo <= o <= hi -> (s = true -> lo < o < hi) ->
  axis_ok (FL := B32_FLaws L) b r a t.
Proof.
  intros El Eh Eo Ed R1 R2 Hin Hs.
  assert (S : forall (x : b32) vx, B2X x = XFin vx -> in_range (vx - o) ->
     exists w, B2X (fsub x (v3get (r_o r) a)) = XFin w /\ (vx - o = 0 -> w = 0) /\ (vx - o < 0 -> w < 0) /\ (0 < vx - o -> 0 < w)).
  { intros x w Ex R. destruct (rn_rel (FL := B32_FLaws L) (w - o) 100 ltac:(lia) R) as (d & B & E).
    exists ((w - o) * (1 + d)). apply Rabs_le_inv in B. unfold u24 in B. repeat split; try nra.
    pose proof (emb_sub (FLaws := B32_FLaws L) x (v3get (r_o r) a)) as ES.
    etransitivity; [exact ES|]. cbn [emb B32_FLaws]. rewrite Ex, Eo. exact E. }
  destruct (S _ _ El R1) as (w1 & E1 & Z1 & N1 & P1). destruct (S _ _ Eh R2) as (w2 & E2 & Z2 & N2 & P2).
  destruct (slab_factor (FL := B32_FLaws L)) as (c & Ec & Hc).
  assert (Cc : forall (x : b32) s', B2X x = XInf s' -> B2X (fmul x sfac) = XInf s').
  { intros x s' Ex. pose proof (emb_mul (FLaws := B32_FLaws L) x sfac) as EM. cbn [emb B32_FLaws] in Ec.
    etransitivity; [exact EM|]. cbn [emb B32_FLaws]. rewrite Ex, Ec. cbn [xmul]. rewrite Req_bool_false by lra. unfold Rsgn. rewrite Rlt_bool_false by lra.
    destruct s'; reflexivity. }
  assert (Cn : forall x : b32, B2X x = XNaN -> B2X (fmul x sfac) = XNaN).
  { intros x Ex. pose proof (emb_mul (FLaws := B32_FLaws L) x sfac) as EM.
    etransitivity; [exact EM|]. cbn [emb B32_FLaws]. rewrite Ex. reflexivity. }
  assert (T1 : tnear b r a = fdiv (fsub (v3get (bmin b) a) (v3get (r_o r) a)) (B754_zero s : b32)) by (unfold tnear; f_equal; exact Ed).
  assert (T2 : tfar b r a = fdiv (fsub (v3get (bmax b) a) (v3get (r_o r) a)) (B754_zero s : b32)) by (unfold tfar; f_equal; exact Ed).
  unfold axis_ok, near', far'. pose proof (emb_lt (FLaws := B32_FLaws L) (tfar b r a) (tnear b r a)) as EL. rewrite EL.
  cbn [emb B32_FLaws].
  destruct (Req_dec (lo - o) 0) as [L0|L0], (Req_dec (hi - o) 0) as [U0|U0].
  - assert (V1 : B2X (tnear b r a) = XNaN) by (rewrite T1; apply B32_div_zero_zero; rewrite E1; f_equal; auto).
    assert (V2 : B2X (tfar b r a) = XNaN) by (rewrite T2; apply B32_div_zero_zero; rewrite E2; f_equal; auto).
    rewrite V1, V2. cbn [xlt]. rewrite V1, Cn by auto. split; reflexivity.
  - assert (s = false) as -> by (destruct s; auto; specialize (Hs eq_refl); lra).
    assert (V1 : B2X (tnear b r a) = XNaN) by (rewrite T1; apply B32_div_zero_zero; rewrite E1; f_equal; auto).
    assert (V2 : B2X (tfar b r a) = XInf false).
    { rewrite T2, (B32_div_zero L _ _ w2); auto; [|specialize (P2 ltac:(lra)); lra].
      rewrite Rlt_bool_false; [reflexivity|]. specialize (P2 ltac:(lra)); lra. }
    rewrite V1, V2. cbn [xlt]. rewrite V1, (Cc _ false) by auto. split; reflexivity.
  - assert (s = false) as -> by (destruct s; auto; specialize (Hs eq_refl); lra).
    assert (V2 : B2X (tfar b r a) = XNaN) by (rewrite T2; apply B32_div_zero_zero; rewrite E2; f_equal; auto).
    assert (V1 : B2X (tnear b r a) = XInf true).
    { rewrite T1, (B32_div_zero L _ _ w1); auto; [|specialize (N1 ltac:(lra)); lra].
      rewrite Rlt_bool_true; [reflexivity|]. specialize (N1 ltac:(lra)); lra. }
    rewrite V1, V2. cbn [xlt]. rewrite V1, Cn by auto. split; reflexivity.
  - assert (V1 : B2X (tnear b r a) = XInf (negb s)).
    { rewrite T1, (B32_div_zero L _ _ w1); auto; [|specialize (N1 ltac:(lra)); lra].
      rewrite Rlt_bool_true; [reflexivity|]. specialize (N1 ltac:(lra)); lra. }
    assert (V2 : B2X (tfar b r a) = XInf s).
    { rewrite T2, (B32_div_zero L _ _ w2); auto; [|specialize (P2 ltac:(lra)); lra].
      rewrite Rlt_bool_false; [now destruct s|]. specialize (P2 ltac:(lra)); lra. }
    rewrite V1, V2. destruct s; cbn [xlt negb andb].
    + rewrite V2, (Cc _ false) by auto. split; reflexivity.
    + rewrite V1, (Cc _ false) by auto. split; reflexivity.
Qed.
