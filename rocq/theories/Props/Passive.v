(** * C93: a path through surfaces that do not amplify carries a bounded amount of light *)
From Coq Require Import ZArith Reals List Bool Lia Lra Psatz.
From Flocq Require Import Core.
From Verif Require Import Model.Num Model.NumX Model.Vector Model.Common Model.BBox Model.Interaction Model.Shape Model.Container Model.Sampler
  Model.Sampling Model.Reflection Model.Fresnel Model.Microfacet Model.BxDFs Model.Texture Model.Material Model.Light Model.Scene Model.Path.
From Verif Require Import Spec.RVec Spec.SamplerSpec Spec.ShadeSpec Spec.RadianceSpec Spec.EstimatorSpec Spec.PassiveSpec.
From Verif Require Import Proofs.XBase Proofs.RVecProofs Proofs.ShadeProofs Proofs.MicroProofs.
From Verif Require Import Props.Radiance Props.Radiance2 Props.Estimator Props.Estimator2.
Import ListNotations.
Local Open Scope R_scope.

Definition nn (v : rv) : Prop := 0 <= vx v /\ 0 <= vy v /\ 0 <= vz v.

Lemma lum_prod beta x m : nn beta -> upto m x -> 0 <= lum (vprod beta x) <= m * lum beta.
Proof. unfold nn, upto, lum, vprod. vproj. intros (B1 & B2 & B3) (X1 & X2 & X3). split; [|nra].
  assert (0 <= vx beta * vx x) by nra. assert (0 <= vy beta * vy x) by nra. assert (0 <= vz beta * vz x) by nra. lra. Qed.
Lemma lum_nn v : nn v -> 0 <= lum v.
Proof. unfold nn, lum. lra. Qed.
Lemma lum_add a b : lum (vadd a b) = lum a + lum b.
Proof. unfold lum, vadd. vproj. ring. Qed.
Lemma lum_scale c a : lum (vscale c a) = c * lum a.
Proof. unfold lum, vscale. vproj. ring. Qed.
Lemma nn_prod a b : nn a -> nn b -> nn (vprod a b).
Proof. unfold nn, vprod. vproj. intros (?&?&?) (?&?&?). repeat split; now apply Rmult_le_pos. Qed.
Lemma nn_scale c a : 0 <= c -> nn a -> nn (vscale c a).
Proof. unfold nn, vscale. vproj. intros ? (?&?&?). repeat split; now apply Rmult_le_pos. Qed.
Lemma upto_nn m v : upto m v -> nn v.
Proof. unfold upto, nn. tauto. Qed.

Lemma most_pos n : 1 <= most n.
Proof. unfold most. apply pow_R1_Rle. lra. Qed.
Lemma most_S n : most (S n) = 20 / 19 * most n.
Proof. reflexivity. Qed.

(** after [bo] bounces there were [bo - 3] rounds of roulette *)
Definition rounds (bo : Z) : nat := Z.to_nat (bo - 3).

(** what the rest of a path can carry: [k] more surfaces after bounce [bo] *)
Fixpoint rest (k : nat) (n : nat -> nat) : R :=
  match k with O => 0 | S k => most (n O) + rest k (fun j => n (S j)) end.

Section P.
  Context {T ST : Type}.
  Variables (sm : sampler_ops XR ST) (teq : T -> T -> bool) (surf : T -> surface XR T) (sc : scene XR T (container XR T)).
  Variables (E D : R).
  Hypothesis HN : no_negative_light surf sc.
  Hypothesis HS : good_samples sm surf sc.
  Hypothesis HP : passive sm teq surf sc E D.

  (** rays that a path can follow *)
  Definition fine (r : ray XR) : Prop := fin (r_o r) /\ unit3 (r_d r) /\ xis_nan (r_tmax r) = false.
  Lemma fine_met r i e : fine r -> sees surf sc r i e -> met sc i.
  Proof. intros (A & B & C) (t & Ei & _). exists r. auto. Qed.
  Lemma fine_next s i d wi f pdf flag s2 w : met sc i -> scatters sm teq surf sc s i d wi f pdf flag s2 -> weight_of i wi f pdf w -> fine (spawn_ray i wi).
  Proof.
    intros Hi (t & b & s1 & u & Et & Eb & _ & Eu & Es) (n & di & fr & p & _ & _ & _ & Ep & Pp & _).
    destruct (gs_2d _ _ _ HS _ _ _ Eu) as [U1 U2]. apply (fin_spawn i wi (nl_hit _ _ HN i Hi)).
    apply (nl_sample _ _ HN i t b u wi f pdf flag Hi Et Eb U1 U2 Es). rewrite Ep, x_f0. xsimp. cbn [xeq]. apply Req_bool_false. lra.
  Qed.
  Hypothesis HE : 0 <= E.
  Hypothesis HD : 0 <= D.

  (** roulette leaves at most 20/19 of the luminance, or 1 *)
  Lemma roulette_most beta w bo : nn beta -> upto 1 w -> (3 <= bo)%Z -> lum beta <= most (rounds bo) -> 0 < survival (vprod beta w) ->
    nn (vscale (/ survival (vprod beta w)) (vprod beta w)) /\
    lum (vscale (/ survival (vprod beta w)) (vprod beta w)) <= most (rounds (bo + 1)).
  Proof.
    intros Nb Hw Hbo Hl Q. set (q := survival (vprod beta w)) in *. split.
    - apply nn_scale; [left; now apply Rinv_0_lt_compat|]. apply nn_prod; [auto|now apply upto_nn in Hw].
    - rewrite lum_scale. replace (rounds (bo + 1)) with (S (rounds bo)) by (unfold rounds; lia). rewrite most_S. pose proof (most_pos (rounds bo)) as M.
      destruct (lum_prod beta w 1 Nb Hw) as [L0 L1]. rewrite Rmult_1_l in L1. unfold survival in q.
      destruct (Rle_dec (lum (vprod beta w)) (95 / 100)) as [A|A].
      + assert (Eq : q = lum (vprod beta w)) by (unfold q; apply Rmin_left; lra). rewrite <- Eq, Rinv_l by lra. lra.
      + assert (Eq : q = 95 / 100) by (unfold q; apply Rmin_right; lra). rewrite Eq. lra.
  Qed.

  Lemma early_most beta w bo : nn beta -> upto 1 w -> (bo < 3)%Z -> lum beta <= most (rounds bo) ->
    nn (vprod beta w) /\ lum (vprod beta w) <= most (rounds (bo + 1)).
  Proof.
    intros Nb Hw Hbo Hl. split; [apply nn_prod; [auto|now apply upto_nn in Hw]|].
    replace (rounds (bo + 1)) with (rounds bo) by (unfold rounds; lia). destruct (lum_prod beta w 1 Nb Hw) as [_ H]. lra.
  Qed.

  Lemma emit r i e : fine r -> sees surf sc r i e -> upto E e.
  Proof. intros Fr Hs. destruct Hs as (t & A & B & C). apply (pa_emitted _ _ _ _ _ _ HP i t (v3neg (r_d r)) e); auto. apply (fine_met r i e Fr). exists t. auto. Qed.

  Lemma throughput_bounded bo beta s r p s' : traces sm teq surf sc bo beta s r p s' -> fine r -> (bo <= 65)%Z -> nn beta -> lum beta <= most (rounds bo) ->
    Forall (fun b => nn b /\ lum b <= most 62) (throughputs beta p).
  Proof.
    assert (M : forall bo b, nn b -> (bo <= 65)%Z -> lum b <= most (rounds bo) -> nn b /\ lum b <= most 62).
    { intros b0 b Nb Hb Hl. split; [exact Nb|]. eapply Rle_trans; [exact Hl|]. unfold most. apply Rle_pow; [lra|unfold rounds; lia]. }
    intros Tr. induction Tr as [bo beta s r Hm|bo beta s r i e Hi Hb He Hn|bo beta s r i e d wi f pdf flag s' Hs Hb Sc Hz
      |bo beta s r i e d wi f pdf flag w s2 v s' Hs Hb Sc We Hv Hq|bo beta s r i e d wi f pdf flag w s2 p s' Hs Hb Sc We Tr IH
      |bo beta s r i e d wi f pdf flag w s2 v s3 p s' Hs Hb Sc We Hv Hq Q0 Tr IH]; intros Fr Bo Nb Hl; cbn [throughputs].
    - constructor.
    - constructor; [now apply (M bo)|constructor].
    - constructor; [now apply (M bo)|constructor].
    - constructor; [now apply (M bo)|constructor].
    - constructor; [now apply (M bo)|]. pose proof (fine_met _ _ _ Fr Hs) as Mi. pose proof (fine_next _ _ _ _ _ _ _ _ _ Mi Sc We) as Fn.
      pose proof (pa_weight _ _ _ _ _ _ HP _ _ _ _ _ _ _ _ _ Mi Sc We) as Hw.
      destruct (early_most beta w bo Nb Hw Hb Hl) as [N' L'].
      replace (vprod beta (vscale (/ 1) w)) with (vprod beta w) by (unfold vprod; apply V3_eq; unfold vscale; vproj; field).
      apply IH; auto. lia.
    - constructor; [now apply (M bo)|]. pose proof (fine_met _ _ _ Fr Hs) as Mi. pose proof (fine_next _ _ _ _ _ _ _ _ _ Mi Sc We) as Fn.
      pose proof (pa_weight _ _ _ _ _ _ HP _ _ _ _ _ _ _ _ _ Mi Sc We) as Hw.
      destruct (roulette_most beta w bo Nb Hw (proj1 Hb) Hl) as [N' L']; [lra|].
      replace (vprod beta (vscale (/ survival (vprod beta w)) w)) with (vscale (/ survival (vprod beta w)) (vprod beta w))
        by (unfold vprod; apply V3_eq; unfold vscale; vproj; ring).
      apply IH; auto. lia.
  Qed.

  Lemma sum_bounded bo beta s r p s' : traces sm teq surf sc bo beta s r p s' -> fine r -> (0 <= bo <= 65)%Z -> nn beta -> lum beta <= most (rounds bo) ->
    forall lit, nn (path_sum lit p) /\ lum (vprod beta (path_sum lit p)) <= (E + D) * rest (Z.to_nat (66 - bo)) (fun j => rounds (bo + Z.of_nat j)).
  Proof.
    assert (RP : forall k n, 0 <= rest k n).
    { induction k as [|k IHk]; intros n; cbn [rest]; [lra|]. pose proof (most_pos (n O)). pose proof (IHk (fun j => n (S j))). lra. }
    assert (R1 : forall b, (0 <= b <= 65)%Z -> rest (Z.to_nat (66 - b)) (fun j => rounds (b + Z.of_nat j)) =
        most (rounds b) + rest (Z.to_nat (66 - (b + 1))) (fun j => rounds (b + 1 + Z.of_nat j))).
    { intros b Hb. replace (Z.to_nat (66 - b)) with (S (Z.to_nat (66 - (b + 1)))) by lia. cbn [rest]. replace (b + Z.of_nat 0)%Z with b by lia. f_equal.
      generalize (Z.to_nat (66 - (b + 1))) as k. intros k. assert (Ex : forall k n n', (forall j, n j = n' j) -> rest k n = rest k n').
      { clear. induction k as [|k IHk]; intros n n' Hn; cbn [rest]; [reflexivity|]. rewrite Hn. f_equal. apply IHk. intros j. apply Hn. }
      apply Ex. intros j. f_equal. lia. }
    assert (NV : nn v0) by (unfold nn, v0; vproj; lra).
    assert (UE : forall lit e, upto E e -> upto E (if lit : bool then e else v0)) by (intros [] e U; [exact U|unfold upto, v0; vproj; lra]).
    assert (NA : forall a b, nn a -> nn b -> nn (vadd a b)) by (unfold nn, vadd; intros a b (?&?&?) (?&?&?); vproj; lra).
    assert (LB : forall beta e d bo, nn beta -> lum beta <= most (rounds bo) -> upto E e -> upto D d ->
      lum (vprod beta (vadd e d)) <= (E + D) * most (rounds bo)).
    { intros b e d b0 Nb Hl He Hd. replace (vprod b (vadd e d)) with (vadd (vprod b e) (vprod b d)) by (unfold vprod; vring).
      rewrite lum_add. destruct (lum_prod b e E Nb He) as [_ A1]. destruct (lum_prod b d D Nb Hd) as [_ A2].
      pose proof (lum_nn b Nb). nra. }
    intros Tr. induction Tr as [bo beta s r Hm|bo beta s r i e Hi Hb He Hn|bo beta s r i e d wi f pdf flag s' Hs Hb Sc Hz
      |bo beta s r i e d wi f pdf flag w s2 v s' Hs Hb Sc We Hv Hq|bo beta s r i e d wi f pdf flag w s2 p s' Hs Hb Sc We Tr IH
      |bo beta s r i e d wi f pdf flag w s2 v s3 p s' Hs Hb Sc We Hv Hq Q0 Tr IH]; intros Fr Bo Nb Hl lit; cbn [path_sum]; rewrite (R1 bo Bo);
      pose proof (RP (Z.to_nat (66 - (bo + 1))) (fun j => rounds (bo + 1 + Z.of_nat j))) as Rr; set (R' := rest _ _) in *; pose proof (most_pos (rounds bo)) as Mp.
    - split; [exact NV|]. replace (vprod beta v0) with v0 by (unfold vprod; vring). unfold lum, v0. vproj. nra.
    - assert (Ue : upto E e).
      { destruct (i_shape i) as [t|] eqn:Et; [|rewrite Hn by reflexivity; unfold upto, v0; vproj; lra].
        apply (emit r i); [exact Fr|]. exists t. auto. }
      pose proof (UE lit e Ue) as U. split; [now apply upto_nn in U|]. destruct (lum_prod beta _ E Nb U) as [_ A]. pose proof (lum_nn beta Nb). nra.
    - pose proof (UE lit e (emit r i e Fr Hs)) as U. pose proof (pa_direct _ _ _ _ _ _ HP _ _ _ _ _ _ _ _ (fine_met _ _ _ Fr Hs) Sc) as V.
      split; [apply NA; eapply upto_nn; eassumption|]. pose proof (LB beta _ d bo Nb Hl U V). nra.
    - pose proof (UE lit e (emit r i e Fr Hs)) as U. pose proof (pa_direct _ _ _ _ _ _ HP _ _ _ _ _ _ _ _ (fine_met _ _ _ Fr Hs) Sc) as V.
      split; [apply NA; eapply upto_nn; eassumption|]. pose proof (LB beta _ d bo Nb Hl U V). nra.
    - pose proof (UE lit e (emit r i e Fr Hs)) as U. pose proof (pa_direct _ _ _ _ _ _ HP _ _ _ _ _ _ _ _ (fine_met _ _ _ Fr Hs) Sc) as V.
      pose proof (fine_met _ _ _ Fr Hs) as Mi. pose proof (fine_next _ _ _ _ _ _ _ _ _ Mi Sc We) as Fn.
      pose proof (pa_weight _ _ _ _ _ _ HP _ _ _ _ _ _ _ _ _ Mi Sc We) as Hw. destruct (early_most beta w bo Nb Hw Hb Hl) as [N' L'].
      destruct (IH Fn ltac:(lia) N' L' (negb (Z.land flag SPECULAR =? 0)%Z)) as [N2 B2]. fold R' in B2. set (S := path_sum _ p) in *.
      split; [apply NA; [apply NA; eapply upto_nn; eassumption|apply nn_prod; [|exact N2]; apply nn_scale; [lra|now apply upto_nn in Hw]]|].
      pose proof (LB beta _ d bo Nb Hl U V) as B1. set (ed := vadd (if lit then e else v0) d) in *.
      replace (vprod beta (vadd ed (vprod (vscale (/ 1) w) S))) with (vadd (vprod beta ed) (vprod (vprod beta w) S)) by (unfold vprod; apply V3_eq; unfold vadd, vscale; vproj; field).
      rewrite lum_add. lra.
    - pose proof (UE lit e (emit r i e Fr Hs)) as U. pose proof (pa_direct _ _ _ _ _ _ HP _ _ _ _ _ _ _ _ (fine_met _ _ _ Fr Hs) Sc) as V.
      pose proof (fine_met _ _ _ Fr Hs) as Mi. pose proof (fine_next _ _ _ _ _ _ _ _ _ Mi Sc We) as Fn.
      pose proof (pa_weight _ _ _ _ _ _ HP _ _ _ _ _ _ _ _ _ Mi Sc We) as Hw. destruct (roulette_most beta w bo Nb Hw (proj1 Hb) Hl) as [N' L']; [lra|].
      destruct (IH Fn ltac:(lia) N' L' (negb (Z.land flag SPECULAR =? 0)%Z)) as [N2 B2]. fold R' in B2. set (S := path_sum _ p) in *. set (q := survival (vprod beta w)) in *.
      assert (Q : 0 < q) by lra.
      split; [apply NA; [apply NA; eapply upto_nn; eassumption|apply nn_prod; [|exact N2]; apply nn_scale; [left; now apply Rinv_0_lt_compat|now apply upto_nn in Hw]]|].
      pose proof (LB beta _ d bo Nb Hl U V) as B1. set (ed := vadd (if lit then e else v0) d) in *.
      replace (vprod beta (vadd ed (vprod (vscale (/ q) w) S))) with (vadd (vprod beta ed) (vprod (vscale (/ q) (vprod beta w)) S)) by (unfold vprod; apply V3_eq; unfold vadd, vscale; vproj; field; lra).
      rewrite lum_add. lra.
  Qed.
End P.

Lemma most_62 : most 62 <= 243 / 10.
Proof. unfold most. assert ((20 / 19) ^ 62 = IZR (20 ^ 62) / IZR (19 ^ 62)) as ->. { change 62%Z with (Z.of_nat 62). rewrite <- !pow_IZR. unfold Rdiv. rewrite Rpow_mult_distr, pow_inv. reflexivity. }
  apply (Rmult_le_reg_r (IZR (19 ^ 62))); [apply IZR_lt; reflexivity|]. unfold Rdiv. rewrite Rmult_assoc, Rinv_l by (apply not_0_IZR; discriminate).
  rewrite Rmult_1_r. assert (G : forall y z, 10 * y <= 243 * z -> y <= 243 * / 10 * z) by (intros; lra). apply G. clear G.
  rewrite <- !mult_IZR. apply IZR_le. vm_compute. discriminate. Qed.

Lemma rest_66 : rest 66 (fun j => rounds (0 + Z.of_nat j)) <= 470.
Proof.
  assert (Ge : forall k n, rest k (fun j => (n + j)%nat) = 19 * (most (n + k) - most n)).
  { induction k as [|k IH]; intros n; cbn [rest]; [rewrite Nat.add_0_r; ring|]. rewrite Nat.add_0_r.
    assert (X : rest k (fun j => (n + S j)%nat) = rest k (fun j => (S n + j)%nat)).
    { assert (Ex : forall k n n', (forall j, n j = n' j) -> rest k n = rest k n').
      { clear. induction k as [|k IHk]; intros n n' Hn; cbn [rest]; [reflexivity|]. rewrite Hn. f_equal. apply IHk. intros j. apply Hn. }
      apply Ex. intros j. lia. }
    rewrite X, IH. replace (n + S k)%nat with (S n + k)%nat by lia. rewrite (most_S n). field. }
  change (rest 66 (fun j => rounds (0 + Z.of_nat j))) with (most 0 + (most 0 + (most 0 + rest 63 (fun j => rounds (Z.of_nat (3 + j)))))).
  assert (Ex : forall k n n', (forall j, n j = n' j) -> rest k n = rest k n').
  { clear. induction k as [|k IHk]; intros n n' Hn; cbn [rest]; [reflexivity|]. rewrite Hn. f_equal. apply IHk. intros j. apply Hn. }
  rewrite (Ex 63%nat _ (fun j => (0 + j)%nat)) by (intros j; unfold rounds; lia). rewrite Ge. change (0 + 63)%nat with (S 62). rewrite most_S.
  assert (M0 : most 0 = 1) by reflexivity. rewrite M0. pose proof most_62. lra.
Qed.

(** Exact arithmetic, no samples equal to 0 among coloured surfaces (see C66), surfaces that send on at most what they get: whatever the
    samples, the throughput of a path has luminance at most 25 at every surface, and the radiance returned has
    luminance at most 470 times the largest emission plus the largest direct light. *)
Theorem C93_bounded_partial : forall (T ST : Type) (sm : sampler_ops XR ST) (teq : T -> T -> bool) (surf : T -> surface XR T)
    (sc : scene XR T (container XR T)) (E D : R),
  no_negative_light surf sc -> good_samples sm surf sc -> passive sm teq surf sc E D -> 0 <= E -> 0 <= D ->
  forall fuel s r x s', fin (r_o r) -> unit3 (r_d r) -> xis_nan (r_tmax r) = false -> li sm teq surf sc fuel s r = Ok (x, s') ->
    exists p y, traces sm teq surf sc 0 (mkV3 1 1 1) s r p s' /\ x = fin3 y /\
      Forall (fun b => nn b /\ lum b <= 25) (throughputs (mkV3 1 1 1) p) /\
      nn y /\ lum y <= 470 * (E + D).
Proof.
  intros T ST sm teq surf sc E D H Hs HP HE HD fuel s r x s' Fo Fd Ft El.
  destruct (C79_path_sum_partial T ST sm teq surf sc H Hs fuel s r x s' Fo Fd Ft El) as (p & Tr & ->).
  exists p, (path_sum true p). split; [exact Tr|]. split; [reflexivity|].
  assert (N1 : nn (mkV3 1 1 1)) by (unfold nn; vproj; lra). assert (L1 : lum (mkV3 1 1 1) <= most (rounds 0)) by (unfold lum; vproj; change (most (rounds 0)) with 1; lra).
  split.
  - eapply Forall_impl; [|apply (throughput_bounded sm teq surf sc E D H Hs HP 0 _ s r p s' Tr); [split; auto|lia|auto|auto] ]. cbv beta. intros b [A B]. pose proof most_62. split; [exact A|lra].
  - destruct (sum_bounded sm teq surf sc E D H Hs HP HE HD 0 _ s r p s' Tr (conj Fo (conj Fd Ft)) ltac:(lia) N1 L1 true) as [A B]. split; [exact A|].
    replace (vprod (mkV3 1 1 1) (path_sum true p)) with (path_sum true p) in B by (unfold vprod; vring).
    change (Z.to_nat (66 - 0)) with 66%nat in B. pose proof rest_66. nra.
Qed.
Print Assumptions C93_bounded_partial.
