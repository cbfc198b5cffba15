(** * C13-C16, C19-C21: the Halton sampler *)
From Coq Require Import ZArith Reals List Bool Lia Lra ZifyBool Znumtheory.
From Flocq Require Import Core.Raux.
From Verif Require Import Model.Num Model.NumX Model.NumB Model.Vector Model.Common Model.BBox Model.Film Model.HaltonTable Model.Sampler.
From Verif Require Import Spec.HaltonSpec Spec.SamplerSpec Proofs.XBase Proofs.FLaws Proofs.Halton Proofs.HaltonState Proofs.HaltonCRT Proofs.Iter.
Import ListNotations.
Local Open Scope Z_scope.

(** Constructing a sampler for such an area always succeeds. *)
Theorem halton_new_total : forall m spp b w h, area b w h -> exists s0, halton_new m spp b = Ok s0.
Proof.
  intros m spp b w h (Ew & Eh & Hw & Hh).
  destruct (halton_new_ok m spp b) as (s0 & ex & ey & E & _); [lia|lia|]. eauto.
Qed.

(** ** C13 *)
(** In every reachable state, whatever is returned lies in [0,1), in both build modes; and a
    release build does return as long as the dimension is below 1024. *)
Theorem C13_get_1d_in_unit : forall F (FO : FOps F) (FL : FLaws F) m spp b w h s0 s,
  area b w h -> halton_new m spp b = Ok s0 -> reach (halton_ops (F := F) m) s0 s ->
  (forall x s', halton_get_1d m s = Ok (x, s') -> in_unit x) /\
  (forall p s', halton_get_2d m s = Ok (p, s') -> in_unit (px p) /\ in_unit (py p)) /\
  (m = Release -> h_dim s < 1024 -> exists x s', halton_get_1d m s = Ok (x, s')) /\
  (m = Release -> h_dim s + 1 < 1024 -> exists p s', halton_get_2d m s = Ok (p, s')).
Proof.
  intros F FO FL m spp b w h s0 s Ha E R.
  destruct (new_state m spp b w h s0 Ha E) as (ex & ey & H & I0 & _).
  pose proof (hinv_reach m s0 ex ey s H I0 R) as I.
  assert (P : forall idx d (v : F), sample_dimension m s idx d = Ok v -> in_unit v).
  { intros i d v. unfold sample_dimension, radical_inverse_prime.
    destruct (d =? 0).
    - destruct (idx halton_bases 0) as [ba| |]; try discriminate. apply radical_inverse_range.
    - destruct (d =? 1).
      + destruct (py (h_scale s) =? 0); [discriminate|].
        destruct (idx halton_bases 1) as [ba| |]; try discriminate. apply radical_inverse_range.
      + destruct (idx halton_bases d) as [ba| |]; try discriminate. apply radical_inverse_range. }
  assert (T : forall d, m = Release -> 0 <= d < 1024 -> exists v : F, sample_dimension m s (h_interval s) d = Ok v).
  { intros d -> Hd. unfold sample_dimension, radical_inverse_prime.
    rewrite (hi_exp _ _ I), (hi_scale _ _ I), (hs_exp _ _ _ H), (hs_scale _ _ _ H). cbn [px py].
    pose proof (hi_interval _ _ I). pose proof (pow3_bound ey (hs_ey _ _ _ H)).
    destruct (d =? 0).
    - destruct (idx_bases 0) as (pp & -> & Hp & _); [lia|]. cbn [rbind]. apply prime_ge_2 in Hp.
      destruct (radical_inverse_release pp (Z.shiftr (h_interval s) ex)) as (v & q & Ev & _); eauto.
      rewrite Z.shiftr_div_pow2 by (pose proof (hs_ex _ _ _ H); lia).
      pose proof (pow2_bound ex (hs_ex _ _ _ H)).
      split; [apply Z.div_pos; lia|]. apply Z.div_lt_upper_bound; nia.
    - destruct (d =? 1).
      + replace (3 ^ ey =? 0) with false by lia.
        destruct (idx_bases 1) as (pp & -> & Hp & _); [lia|]. cbn [rbind]. apply prime_ge_2 in Hp.
        destruct (radical_inverse_release pp (h_interval s / 3 ^ ey)) as (v & q & Ev & _); eauto.
        split; [apply Z.div_pos; lia|]. apply Z.div_lt_upper_bound; nia.
      + destruct (idx_bases d) as (pp & -> & Hp & _); [lia|]. cbn [rbind]. apply prime_ge_2 in Hp.
        destruct (radical_inverse_release pp (h_interval s)) as (v & q & Ev & _); eauto. }
  pose proof (hi_dim _ _ I) as Hdim.
  split; [|split; [|split]].
  - intros x s'. unfold halton_get_1d. destruct (sample_dimension _ _ _ _) as [v| |] eqn:Ev; try discriminate. cbn [rbind].
    destruct (u32_of m _); try discriminate. cbn [rbind]. intros [= <- <-]. eauto.
  - intros p s'. unfold halton_get_2d. destruct (sample_dimension m s _ _) as [v| |] eqn:Ev; try discriminate. cbn [rbind].
    destruct (u32_of m (h_dim s + 1)) as [d1| |]; try discriminate. cbn [rbind].
    destruct (sample_dimension m s (h_interval s) d1) as [v1| |] eqn:Ev1; try discriminate. cbn [rbind].
    destruct (u32_of m _); try discriminate. cbn [rbind]. intros [= <- <-]. cbn [px py]. eauto.
  - intros Em Hd. unfold halton_get_1d. destruct (T (h_dim s) Em) as [v ->]; [lia|]. cbn [rbind].
    rewrite u32_of_ok by lia. cbn [rbind]. eauto.
  - intros Em Hd. unfold halton_get_2d. destruct (T (h_dim s) Em) as [v ->]; [lia|]. cbn [rbind].
    rewrite u32_of_ok by lia. cbn [rbind]. destruct (T (h_dim s + 1) Em) as [v1 ->]; [lia|]. cbn [rbind].
    rewrite u32_of_ok by lia. cbn [rbind]. eauto.
Qed.
Print Assumptions C13_get_1d_in_unit.

(** The radical inverse itself, for every base and every 32-bit index, with wrap-around. *)
Theorem C13_radical_inverse : forall F (FO : FOps F) (FL : FLaws F) base a,
  2 <= base -> 0 <= a < 2 ^ 32 ->
  exists v : F, radical_inverse Release base a = Ok v /\ in_unit v.
Proof.
  intros F FO FL base a Hb Ha. destruct (radical_inverse_release base a Hb Ha) as (v & q & E & _).
  exists v. split; auto. now apply radical_inverse_range in E.
Qed.
Print Assumptions C13_radical_inverse.

Definition LX : Libm b32 := Build_Libm b32 (fun x => x) (fun x => x) (fun x => x) (fun x => x) (fun x => x)
  (fun x _ => x) (fun x => x) (fun x => x) (fun x _ => x).
#[local] Existing Instance LX.

(** The wrapped case is real: base 2, index 2^31: the power 2^32 wraps to 0. *)
Example C13_example_wrap : exists v : b32, radical_inverse Release 2 (2 ^ 31) = Ok v /\ in_unit v.
Proof. apply C13_radical_inverse; [apply B32_FLaws|lia|lia]. Qed.
Example C13_example_area : exists s0, area (mkB2 (mkP2 (-2) (-2)) (mkP2 642 482)) 644 484 /\
  halton_new Release 16 (mkB2 (mkP2 (-2) (-2)) (mkP2 642 482)) = Ok s0 /\ reach (halton_ops (F := b32) Release) s0 s0.
Proof. eexists. split; [unfold area; cbn; lia|]. split; [vm_compute; reflexivity|constructor]. Qed.

(** ** C14 *)
(** With [n] digits, as long as base^n fits u32: exact digit reversal up to three roundings. *)
Theorem C14_digit_reversal : forall F (FO : FOps F) (FL : FLaws F) m base a n,
  2 <= base -> 0 <= a < 2 ^ 32 -> digit_count base a n -> base ^ Z.of_nat n < 2 ^ 32 ->
  exists (v : F) e, radical_inverse m base a = Ok v /\ (Rabs e <= / 4194304)%R /\
    emb v = XFin (Rmin (1 - / 8388608) (mirrored base a n * (1 + e))).
Proof.
  intros F FO FL m base a n Hb Ha Hc Hf. unfold radical_inverse.
  destruct (digit_count_exists_fuel base 32 a Hb) as (n' & Hc' & Hn'). { exact Ha. }
  assert (n' = n).
  { destruct Hc as [C1 C2], Hc' as [D1 D2].
    destruct (Nat.lt_trichotomy n' n) as [L|[L|L]]; auto; exfalso.
    - specialize (C2 ltac:(lia)). assert (base ^ Z.of_nat n' <= base ^ Z.of_nat (pred n)) by (apply Z.pow_le_mono_r; lia). lia.
    - specialize (D2 ltac:(lia)). assert (base ^ Z.of_nat n <= base ^ Z.of_nat (pred n')) by (apply Z.pow_le_mono_r; lia). lia. }
  subst n'. rewrite (radical_loop_exact m 32 base n a 0 1) by (auto; lia). cbn [rbind]. rewrite Z.mul_1_l.
  set (x := rev_acc base n a 0). pose proof (pow_pos base n Hb) as Hp.
  pose proof (rev_acc_range base n a 0 1 Hb ltac:(lia)) as Hx. fold x in Hx. rewrite Z.mul_1_l in Hx.
  pose proof (rev_acc_mirrored base n a 0 Hb) as Em. fold x in Em. rewrite Rplus_0_l in Em.
  assert (Pn : (0 < IZR (base ^ Z.of_nat n))%R) by (apply IZR_lt; lia).
  assert (Q : (IZR x / IZR (base ^ Z.of_nat n) = mirrored base a n)%R) by (rewrite Em; field; lra).
  assert (V : forall q, emb (fdiv (fofZ x) (fofZ (base ^ Z.of_nat n))) = XFin q ->
    emb (fmin ONE_MINUS_EPSILON (fdiv (fofZ x) (fofZ (base ^ Z.of_nat n)))) = XFin (Rmin (1 - / 8388608) q)).
  { intros q E. unfold fmin. rewrite !emb_nan, emb_OME, emb_lt, emb_OME, E. cbn [xis_nan xlt].
    destruct (Rlt_bool q _) eqn:L; rb.
    - rewrite E. now rewrite Rmin_right by lra.
    - rewrite emb_OME. now rewrite Rmin_left by lra. }
  destruct (Z.eq_dec x 0) as [X0|X0].
  - eexists. exists 0%R. split; [reflexivity|]. split; [rewrite Rabs_R0; lra|].
    rewrite Rplus_0_r, Rmult_1_r, <- Q, X0.
    replace (0 / IZR (base ^ Z.of_nat n))%R with 0%R by (field; lra).
    rewrite <- X0. apply V. rewrite X0.
    assert (En : xle (XFin 1) (emb (fofZ (base ^ Z.of_nat n))) = true).
    { rewrite emb_ofZ. change 1%R with (IZR 1). apply rn_ge_Z; [lia|]. simpl. rb. apply IZR_le. lia. }
    rewrite emb_div.
    + change (fofZ 0) with f0. rewrite emb_f0. destruct (emb (fofZ (base ^ Z.of_nat n))) as [|[]|y]; simpl in En; try discriminate.
      * simpl. apply rn_0.
      * rb. rewrite xdiv_fin by lra. replace (0 / y)%R with 0%R by (field; lra). apply rn_0.
    + intros E. rewrite E in En. simpl in En. rb. lra.
  - destruct (div_Z_err x (base ^ Z.of_nat n)) as (e & He & Ee); [lia|lia|].
    eexists. exists e. split; [reflexivity|]. split; auto. rewrite <- Q. now apply V.
Qed.
Print Assumptions C14_digit_reversal.

(** In exact arithmetic there is no error at all. *)
Theorem C14_digit_reversal_exact : forall m base a n,
  2 <= base -> 0 <= a < 2 ^ 32 -> digit_count base a n -> base ^ Z.of_nat n < 2 ^ 32 ->
  radical_inverse (F := XR) m base a = Ok (XFin (Rmin (1 - / 8388608) (mirrored base a n))).
Proof.
  intros m base a n Hb Ha Hc Hf.
  destruct (digit_count_exists_fuel base 32 a Hb) as (n' & Hc' & Hn'). { exact Ha. }
  assert (n' = n).
  { destruct Hc as [C1 C2], Hc' as [D1 D2].
    destruct (Nat.lt_trichotomy n' n) as [L|[L|L]]; auto; exfalso.
    - specialize (C2 ltac:(lia)). assert (base ^ Z.of_nat n' <= base ^ Z.of_nat (pred n)) by (apply Z.pow_le_mono_r; lia). lia.
    - specialize (D2 ltac:(lia)). assert (base ^ Z.of_nat n <= base ^ Z.of_nat (pred n')) by (apply Z.pow_le_mono_r; lia). lia. }
  subst n'. unfold radical_inverse. rewrite (radical_loop_exact m 32 base n a 0 1) by (auto; lia). cbn [rbind]. rewrite Z.mul_1_l.
  pose proof (pow_pos base n Hb) as Hp. assert (Pn : (0 < IZR (base ^ Z.of_nat n))%R) by (apply IZR_lt; lia).
  pose proof (rev_acc_mirrored base n a 0 Hb) as Em. rewrite Rplus_0_l in Em.
  f_equal. unfold fmin, ONE_MINUS_EPSILON, f1. xsimp. rewrite xdiv_fin by lra. cbn [xis_nan xsub xlt].
  replace (IZR (rev_acc base n a 0) / IZR (base ^ Z.of_nat n))%R with (mirrored base a n) by (rewrite Em; field; lra).
  destruct (Rlt_bool _ _) eqn:L; rb.
  - now rewrite Rmin_right by lra.
  - now rewrite Rmin_left by lra.
Qed.
Print Assumptions C14_digit_reversal_exact.

(** A debug build panics exactly when the power does not fit. *)
Theorem C14_debug_panics_iff : forall F (FO : FOps F) base a n,
  2 <= base -> 0 <= a < 2 ^ 32 -> digit_count base a n ->
  (radical_inverse (F := F) Debug base a = Panic <-> 2 ^ 32 <= base ^ Z.of_nat n).
Proof.
  intros F FO base a n Hb Ha Hc.
  destruct (digit_count_exists_fuel base 32 a Hb) as (n' & Hc' & Hn'). { exact Ha. }
  assert (n' = n).
  { destruct Hc as [C1 C2], Hc' as [D1 D2].
    destruct (Nat.lt_trichotomy n' n) as [L|[L|L]]; auto; exfalso.
    - specialize (C2 ltac:(lia)). assert (base ^ Z.of_nat n' <= base ^ Z.of_nat (pred n)) by (apply Z.pow_le_mono_r; lia). lia.
    - specialize (D2 ltac:(lia)). assert (base ^ Z.of_nat n <= base ^ Z.of_nat (pred n')) by (apply Z.pow_le_mono_r; lia). lia. }
  subst n'. unfold radical_inverse. split.
  - intros E. destruct (Z_lt_le_dec (base ^ Z.of_nat n) (2 ^ 32)) as [L|L]; auto.
    rewrite (radical_loop_exact Debug 32 base n a 0 1) in E by (auto; lia). discriminate.
  - intros L. rewrite (radical_loop_panics 32 base n a 0 1); auto; lia.
Qed.
Print Assumptions C14_debug_panics_iff.

(** Every index has a digit count, so the hypotheses can always be met. *)
Theorem C14_digit_count_exists : forall base a, 2 <= base -> 0 <= a < 2 ^ 32 -> exists n, digit_count base a n.
Proof. intros base a Hb Ha. destruct (digit_count_exists_fuel base 32 a Hb Ha) as (n & H & _). eauto. Qed.

Example C14_example_digits : digit_count 10 1234 4 /\ mirrored 10 1234 4 = (4321 / 10000)%R.
Proof. split; [split; simpl; lia|]. unfold mirrored, digit_at. cbn [seq map fold_right]. vm_compute (Z.of_nat _). vm_compute (Z.pow _ _). vm_compute (Z.div _ _). vm_compute (Z.modulo _ _). lra. Qed.
Example C14_example_value : radical_inverse (F := XR) Debug 10 1234 = Ok (XFin (Rmin (1 - / 8388608) (4321 / 10000))).
Proof.
  destruct C14_example_digits as [H E]. rewrite <- E. apply C14_digit_reversal_exact; auto; simpl; lia.
Qed.
Example C14_example_panic : radical_inverse (F := b32) Debug 3 (2 ^ 32 - 1) = Panic.
Proof. vm_compute. reflexivity. Qed.

(** ** C15 *)
Theorem C15_bases_are_primes : first_primes halton_bases /\ length halton_bases = 1024%nat.
Proof. split; [apply bases_first_primes|reflexivity]. Qed.
Print Assumptions C15_bases_are_primes.

(** Different dimensions use coprime bases. *)
Theorem C15_bases_coprime : forall i j p q,
  nth_error halton_bases i = Some p -> nth_error halton_bases j = Some q -> i <> j -> rel_prime p q.
Proof.
  intros i j p q Hi Hj Hij. destruct (bases_first_primes i p Hi) as (Pp & _ & Lp).
  destruct (bases_first_primes j q Hj) as (Pq & _ & Lq).
  assert (p <> q).
  { destruct (Nat.lt_gt_cases i j) as [D _]. destruct (D Hij) as [L|L].
    - specialize (Lq i p L Hi). lia.
    - specialize (Lp j q L Hj). lia. }
  apply prime_rel_prime; auto. intros D. apply prime_div_prime in D; auto.
Qed.
Print Assumptions C15_bases_coprime.

(** Dimension [d] < 1024 computes the radical inverse in the [d]-th prime; 1024 and above panic. *)
Theorem C15_dimension : forall F (FO : FOps F) m d a, 0 <= d ->
  (d < 1024 -> exists p, nth_error halton_bases (Z.to_nat d) = Some p /\ prime p /\
     radical_inverse_prime (F := F) m d a = radical_inverse m p a) /\
  (1024 <= d -> radical_inverse_prime (F := F) m d a = Panic).
Proof.
  intros F FO m d a Hd. split.
  - intros H. destruct (idx_bases d) as (p & E & Hp & En); [lia|]. exists p. split; auto. split; auto.
    unfold radical_inverse_prime. now rewrite E.
  - intros H. unfold radical_inverse_prime. now rewrite idx_bases_panic.
Qed.
Print Assumptions C15_dimension.

Example C15_example : nth_error halton_bases 9 = Some 29 /\ nth_error halton_bases 1023 = Some 8161.
Proof. split; reflexivity. Qed.

(** ** C16 *)
(** After any history of calls, starting a pixel leads to the same state as on a fresh sampler
    (so do two samplers with different histories); everything drawn afterwards is the same. *)
Theorem C16_history_independent : forall F (FO : FOps F) m spp b w h s0 s,
  area b w h -> halton_new m spp b = Ok s0 -> reach (halton_ops (F := F) m) s0 s ->
  forall p cs,
    halton_start_pixel m s p = halton_start_pixel m s0 p /\
    pixel_stream (halton_ops (F := F) m) p cs s = pixel_stream (halton_ops (F := F) m) p cs s0.
Proof.
  intros F FO m spp b w h s0 s Ha E R p cs.
  destruct (new_state m spp b w h s0 Ha E) as (ex & ey & H & I0 & _).
  pose proof (hinv_reach m s0 ex ey s H I0 R) as I.
  assert (A : halton_start_pixel m s p = halton_start_pixel m s0 p).
  { rewrite (start_pixel_eq m s0 s ex ey p H I). now rewrite (start_pixel_eq m s0 s0 ex ey p H I0). }
  split; auto. unfold pixel_stream. cbn [halton_ops sm_start_pixel]. now rewrite A.
Qed.
Print Assumptions C16_history_independent.

(** Starting a pixel never fails. *)
Theorem C16_start_pixel_total : forall F (FO : FOps F) m spp b w h s0 s p,
  area b w h -> halton_new m spp b = Ok s0 -> reach (halton_ops (F := F) m) s0 s ->
  exists s', halton_start_pixel m s p = Ok s'.
Proof.
  intros F FO m spp b w h s0 s p Ha E R.
  destruct (new_state m spp b w h s0 Ha E) as (ex & ey & H & I0 & _).
  pose proof (hinv_reach m s0 ex ey s H I0 R) as I. rewrite (start_pixel_eq m s0 s ex ey p H I). eauto.
Qed.

(** A non-trivial history: two pixels, some numbers. *)
Definition ex_area := mkB2 (mkP2 (-2) (-2)) (mkP2 642 482).
Definition ex_new := match halton_new Debug 16 ex_area with Ok s => s | _ => mkHalton 0 (mkP2 0 0) 0 0 0 (mkP2 0 0) (mkP2 0 0) 0 (mkP2 0 0) 0 (mkP2 0 0) end.
Example C16_example : area ex_area 644 484 /\ halton_new Debug 16 ex_area = Ok ex_new /\
  exists s, reach (halton_ops (F := b32) Debug) ex_new s /\ h_pixel s = mkP2 300 (-1) /\ h_interval s <> 0.
Proof.
  split; [unfold area; cbn; lia|]. split; [vm_compute; reflexivity|].
  assert (E : exists s1 b s2 b' s3 s4, halton_start_pixel Debug ex_new (mkP2 (-2) 17) = Ok s1 /\
    halton_next_sample Debug s1 = Ok (b, s2) /\ halton_next_sample Debug s2 = Ok (b', s3) /\
    halton_start_pixel Debug s3 (mkP2 300 (-1)) = Ok s4 /\ h_pixel s4 = mkP2 300 (-1) /\ h_interval s4 = 14234).
  { do 6 eexists. repeat (split; [vm_compute; reflexivity|]). vm_compute. reflexivity. }
  destruct E as (s1 & b & s2 & b' & s3 & s4 & E1 & E2 & E3 & E4 & E5 & E6).
  exists s4. split; [|split; [auto|lia]].
  eapply reach_start; [|exact E4]. eapply reach_next; [|exact E3]. eapply reach_next; [|exact E2].
  eapply reach_start; [|exact E1]. constructor.
Qed.

(** ** C19 *)
(** The global index of sample number [n] of pixel [p] on a sampler in state [s]. *)
Definition global_index {F} {FO : FOps F} (m : build) (s : halton) (p : P2 Z) (n : nat) (i : Z) : Prop :=
  exists s1 s2, halton_start_pixel m s p = Ok s1 /\ next_n (halton_ops (F := F) m) n s1 = Ok s2 /\ h_interval s2 = i.

(** No sample number exceeds what 32 bits can index (31104 is the largest stride). *)
Definition few_samples (n : nat) : Prop := (Z.of_nat n + 1) * 31104 < 2 ^ 32.

(** Two pixels of the same aligned 128x128 square, less than the film's (clipped) size apart:
    different pixels, or different sample numbers, never share an index. *)
Theorem C19_disjoint_partial : forall F (FO : FOps F) m spp b w h s0 s s' p q n k i,
  area b w h -> halton_new m spp b = Ok s0 ->
  reach (halton_ops (F := F) m) s0 s -> reach (halton_ops (F := F) m) s0 s' ->
  few_samples n -> few_samples k ->
  px p / 128 = px q / 128 -> py p / 128 = py q / 128 ->
  Z.abs (px p - px q) < Z.min w 128 -> Z.abs (py p - py q) < Z.min h 128 ->
  global_index (F := F) m s p n i -> global_index (F := F) m s' q k i ->
  p = q /\ n = k.
Proof.
  intros F FO m spp b w h s0 s s' p q n k i Ha E R R' Hn Hk Bx By Dx Dy (s1 & s2 & A1 & A2 & A3) (t1 & t2 & C1 & C2 & C3).
  destruct (new_state m spp b w h s0 Ha E) as (ex & ey & H & I0 & _ & [X1 _] & [Y1 _]).
  pose proof (hinv_reach m s0 ex ey s H I0 R) as I. pose proof (hinv_reach m s0 ex ey s' H I0 R') as I'.
  pose proof (stride_bound ex ey (hs_ex _ _ _ H) (hs_ey _ _ _ H)) as Hst. pose proof (hs_stride _ _ _ H) as Es.
  pose proof (off_range s0 ex ey p H) as Op. pose proof (off_range s0 ex ey q H) as Oq. rewrite <- Es in *.
  unfold few_samples in *.
  rewrite (index_of m s0 ex ey p n s s1 s2 H I) in A3; auto; [|nia].
  rewrite (index_of m s0 ex ey q k s' t1 t2 H I') in C3; auto; [|nia].
  rewrite <- C3 in A3.
  assert (Hnk : Z.of_nat n = Z.of_nat k) by nia.
  assert (Eo : off s0 p = off s0 q) by nia.
  destruct (off_inj s0 ex ey p q H Eo) as [Mx My].
  pose proof (pow2_bound ex (hs_ex _ _ _ H)). pose proof (pow3_bound ey (hs_ey _ _ _ H)).
  assert (D : forall a b n, 0 < n -> a mod n = b mod n -> Z.abs (a - b) < n -> a = b).
  { intros a b0 n0 Hn0 Em Hd. assert (Hz : (a - b0) mod n0 = 0) by (rewrite Zminus_mod, Em, Z.sub_diag; apply Z.mod_0_l; lia).
    apply Z.mod_divide in Hz; [|lia]. destruct Hz as [z Hz]. assert (z = 0) by nia. lia. }
  assert (Ex : px p = px q) by (apply (D _ _ (2 ^ ex)); auto; lia).
  assert (Ey : py p = py q).
  { pose proof (Z.div_mod (py p) 128 ltac:(lia)). pose proof (Z.div_mod (py q) 128 ltac:(lia)).
    assert (py p mod 128 = py q mod 128); [|lia]. apply (D _ _ (3 ^ ey)); auto; lia. }
  split; [|lia]. destruct p as [a c], q as [a' c']; cbn in Ex, Ey; congruence.
Qed.
Print Assumptions C19_disjoint_partial.

(** The English claim (any two pixels within one block of base_scale pixels) is false: the row
    is first reduced modulo 128, which is not a multiple of a power of three.  On the sample
    area of a 50x50 film with a filter of radius 2, rows -2 and 45 use the very same indices. *)
Theorem C19_block_refuted : exists b s0 p q i,
  area b 54 54 /\ halton_new Debug 16 b = Ok s0 /\ h_scale s0 = mkP2 64 81 /\
  p <> q /\ Z.abs (px p - px q) < 64 /\ Z.abs (py p - py q) < 81 /\
  (px (b2min b) <= px p < px (b2max b)) /\ (py (b2min b) <= py p < py (b2max b)) /\
  (px (b2min b) <= px q < px (b2max b)) /\ (py (b2min b) <= py q < py (b2max b)) /\
  global_index (F := b32) Debug s0 p 3 i /\ global_index (F := b32) Debug s0 q 3 i.
Proof.
  exists (mkB2 (mkP2 (-2) (-2)) (mkP2 52 52)). eexists. exists (mkP2 0 (-2)), (mkP2 0 45). eexists.
  split; [unfold area; cbn; lia|]. split; [vm_compute; reflexivity|]. split; [reflexivity|].
  split; [congruence|]. cbn [px py b2min b2max]. repeat (split; [lia|]).
  split.
  - eexists. eexists. split; [vm_compute; reflexivity|]. split; [vm_compute; reflexivity|reflexivity].
  - eexists. eexists. split; [vm_compute; reflexivity|]. split; [vm_compute; reflexivity|reflexivity].
Qed.
Print Assumptions C19_block_refuted.

Example C19_example : few_samples 4096 /\ exists i, global_index (F := b32) Debug ex_new (mkP2 77 5) 4096 i.
Proof.
  split; [unfold few_samples; lia|].
  destruct (new_state Debug 16 ex_area 644 484 ex_new) as (ex & ey & H & I0 & _);
    [unfold area; cbn; lia|vm_compute; reflexivity|].
  pose proof (off_range ex_new ex ey (mkP2 77 5) H) as Op.
  pose proof (stride_bound ex ey (hs_ex _ _ _ H) (hs_ey _ _ _ H)) as Hst. pose proof (hs_stride _ _ _ H) as Es.
  destruct (index_exists (F := b32) Debug ex_new ex ey (mkP2 77 5) 4096 ex_new H I0) as (s1 & s2 & E1 & E2 & E3).
  { rewrite Es. lia. }
  eexists. exists s1, s2. eauto.
Qed.

(** ** C20 *)
(** The global Halton point number [i], scaled by the block size, lies in column [x] / row [y]. *)
Definition in_column (i sx x : Z) : Prop :=
  forall n, (7 <= n)%nat -> (IZR x <= IZR sx * mirrored 2 i n < IZR x + 1)%R.
Definition in_row (i sy y : Z) : Prop :=
  forall n, (7 <= n)%nat -> (IZR y <= IZR sy * mirrored 3 i n < IZR y + 1)%R.

Lemma in_column_iff i ex x : 0 <= ex <= 7 -> (in_column i (2 ^ ex) x <-> rev_digits 2 ex i = x).
Proof.
  intros He. split.
  - intros H. specialize (H 7%nat ltac:(lia)). pose proof (mirrored_cell 2 ex i 7 ltac:(lia) ltac:(lia) ltac:(lia)) as M.
    assert (A : (IZR x < IZR (rev_digits 2 ex i + 1))%R) by (rewrite plus_IZR; lra).
    assert (B : (IZR (rev_digits 2 ex i) < IZR (x + 1))%R) by (rewrite plus_IZR; lra).
    apply lt_IZR in A, B. lia.
  - intros <- n Hn. apply mirrored_cell; lia.
Qed.
Lemma in_row_iff i ey y : 0 <= ey <= 5 -> (in_row i (3 ^ ey) y <-> rev_digits 3 ey i = y).
Proof.
  intros He. split.
  - intros H. specialize (H 7%nat ltac:(lia)). pose proof (mirrored_cell 3 ey i 7 ltac:(lia) ltac:(lia) ltac:(lia)) as M.
    assert (A : (IZR y < IZR (rev_digits 3 ey i + 1))%R) by (rewrite plus_IZR; lra).
    assert (B : (IZR (rev_digits 3 ey i) < IZR (y + 1))%R) by (rewrite plus_IZR; lra).
    apply lt_IZR in A, B. lia.
  - intros <- n Hn. apply mirrored_cell; lia.
Qed.

(** What holds: for every film either all columns are right or all rows are right; both when
    the sample area is at most one pixel wide or high. *)
Theorem C20_one_axis_partial : forall F (FO : FOps F) m spp b w h s0,
  area b w h -> halton_new m spp b = Ok s0 ->
  ((forall p n i, 0 <= px p < px (h_scale s0) -> few_samples n ->
      global_index (F := F) m s0 p n i -> in_column i (px (h_scale s0)) (px p)) \/
   (forall p n i, 0 <= py p < py (h_scale s0) -> py p < 128 -> few_samples n ->
      global_index (F := F) m s0 p n i -> in_row i (py (h_scale s0)) (py p))) /\
  (w <= 1 \/ h <= 1 ->
    forall p n i, 0 <= px p < px (h_scale s0) -> 0 <= py p < py (h_scale s0) -> py p < 128 -> few_samples n ->
      global_index (F := F) m s0 p n i ->
      in_column i (px (h_scale s0)) (px p) /\ in_row i (py (h_scale s0)) (py p)).
Proof.
  intros F FO m spp b w h s0 Ha E.
  destruct (new_state m spp b w h s0 Ha E) as (ex & ey & H & I0 & _ & [X1 X2] & [Y1 Y2]).
  pose proof (hs_ex _ _ _ H) as Hex. pose proof (hs_ey _ _ _ H) as Hey.
  destruct (halton_new_signs m spp b s0 ex ey E H) as (S1 & _ & S3).
  pose proof (stride_bound ex ey Hex Hey) as Hst. pose proof (hs_stride _ _ _ H) as Es.
  assert (IX : forall p n i, few_samples n -> global_index (F := F) m s0 p n i -> i = off s0 p + Z.of_nat n * h_stride s0).
  { intros p n i Hf (s1 & s2 & A1 & A2 & A3). pose proof (off_range s0 ex ey p H). unfold few_samples in Hf.
    rewrite <- A3. symmetry. symmetry. eapply index_of; eauto. nia. }
  rewrite (hs_scale _ _ _ H). cbn [px py].
  assert (CX : good_x s0 ex ey -> forall p n i, 0 <= px p < 2 ^ ex -> few_samples n -> global_index (F := F) m s0 p n i -> in_column i (2 ^ ex) (px p)).
  { intros G p n i Hp Hf Hi. apply in_column_iff; auto. rewrite (IX p n i Hf Hi), (cell_x s0 ex ey p) by auto.
    apply Z.mod_small. lia. }
  assert (CY : good_y s0 ex ey -> forall p n i, 0 <= py p < 3 ^ ey -> py p < 128 -> few_samples n -> global_index (F := F) m s0 p n i -> in_row i (3 ^ ey) (py p)).
  { intros G p n i Hp Hlt Hf Hi. apply in_row_iff; auto. rewrite (IX p n i Hf Hi), (cell_y s0 ex ey p) by auto.
    rewrite (Z.mod_small _ 128) by lia. apply Z.mod_small. lia. }
  split.
  - destruct S1 as [G|G]; [left|right]; eauto.
  - intros Hwh p n i Hx Hy Hlt Hf Hi.
    assert (Z0 : ex <= 0 \/ ey <= 0).
    { destruct Ha as (_ & _ & Hw & Hh). destruct Hwh as [W|W].
      - left. destruct X2 as [->|X2]; [lia|]. destruct (Z.eq_dec ex 0); [lia|]. pose proof (pow2_bound (ex - 1) ltac:(lia)). lia.
      - right. destruct Y2 as [->|Y2]; [lia|]. destruct (Z.eq_dec ey 0); [lia|]. pose proof (pow3_bound (ey - 1) ltac:(lia)). lia. }
    destruct (S3 Z0) as [G1 G2]. split; eauto.
Qed.
Print Assumptions C20_one_axis_partial.

(** The property itself is false, and not only in corner cases: for EVERY sample area at least
    two pixels wide and high there is a pixel of the block whose points lie outside it. *)
Theorem C20_every_film_refuted : forall F (FO : FOps F) m spp b w h s0,
  area b w h -> halton_new m spp b = Ok s0 -> 2 <= w -> 2 <= h ->
  exists p i, 0 <= px p < Z.min w 128 /\ 0 <= py p < Z.min h 128 /\ global_index (F := F) m s0 p 0 i /\
    ~ (in_column i (px (h_scale s0)) (px p) /\ in_row i (py (h_scale s0)) (py p)).
Proof.
  intros F FO m spp b w h s0 Ha E Hw2 Hh2.
  destruct (new_state m spp b w h s0 Ha E) as (ex & ey & H & I0 & _ & [X1 X2] & [Y1 Y2]).
  pose proof (hs_ex _ _ _ H) as Hex. pose proof (hs_ey _ _ _ H) as Hey.
  destruct (halton_new_signs m spp b s0 ex ey E H) as (_ & S2 & _).
  assert (Pex : 0 < ex). { destruct (Z.eq_dec ex 0) as [->|]; [|lia]. change (2 ^ 0) with 1 in X1. lia. }
  assert (Pey : 0 < ey). { destruct (Z.eq_dec ey 0) as [->|]; [|lia]. change (3 ^ 0) with 1 in Y1. lia. }
  destruct X2 as [?|X2]; [lia|]. destruct Y2 as [?|Y2]; [lia|].
  set (p := mkP2 (2 ^ (ex - 1)) (3 ^ (ey - 1))).
  pose proof (off_range s0 ex ey p H) as Op. pose proof (stride_bound ex ey Hex Hey) as Hst.
  destruct (index_exists (F := F) m s0 ex ey p 0 s0 H I0) as (s1 & s2 & A1 & A2 & A3); [lia|].
  assert (P2p : 0 < 2 ^ (ex - 1)) by (apply Z.pow_pos_nonneg; lia).
  assert (P3p : 0 < 3 ^ (ey - 1)) by (apply Z.pow_pos_nonneg; lia).
  exists p. eexists. split; [subst p; cbn [px]; lia|]. split; [subst p; cbn [py]; lia|].
  split; [exists s1, s2; split; [exact A1|]; split; [exact A2|exact A3]|].
  rewrite (hs_scale _ _ _ H). cbn [px py] in *. intros [C1 C2].
  apply in_column_iff in C1; auto. apply in_row_iff in C2; auto.
  apply (S2 Pex Pey). split.
  - destruct (Z.eq_dec ((3 ^ ey * px (h_inv s0)) mod 2 ^ ex) (1 mod 2 ^ ex)) as [G|G]; [exact G|].
    exfalso. apply (bad_cell_x s0 ex ey p 0 H Pex G); auto.
  - destruct (Z.eq_dec ((2 ^ ex * py (h_inv s0)) mod 3 ^ ey) (1 mod 3 ^ ey)) as [G|G]; [exact G|].
    exfalso. apply (bad_cell_y s0 ex ey p 0 H Pey G); auto. subst p; cbn [py]. lia.
Qed.
Print Assumptions C20_every_film_refuted.

Example C20_example : exists s0, area ex_area 644 484 /\ halton_new Debug 16 ex_area = Ok s0 /\ h_scale s0 = mkP2 128 243.
Proof. eexists. split; [unfold area; cbn; lia|]. split; [vm_compute; reflexivity|reflexivity]. Qed.

(** ** C21 *)
Theorem C21_camera_sample_in_pixel : forall F (FO : FOps F) (FL : FLaws F) ST (sm : sampler_ops F ST) s s' p pf u,
  Z.abs (px p) < 2 ^ 24 -> Z.abs (py p) < 2 ^ 24 ->
  sm_get_2d sm s = Ok (u, s') -> in_unit (px u) -> in_unit (py u) ->
  get_camera_sample sm s p = Ok (pf, s') ->
  fle (fofZ (px p)) (px pf) = true /\ fle (px pf) (fofZ (px p + 1)) = true /\
  fle (fofZ (py p)) (py pf) = true /\ fle (py pf) (fofZ (py p + 1)) = true.
Proof.
  intros F FO FL ST sm s s' p pf u Hx Hy Hu Ux Uy E. unfold get_camera_sample in E. rewrite Hu in E. cbn [rbind] in E.
  injection E as <-. cbn [px py].
  assert (A : forall z (v : F), Z.abs z < 2 ^ 24 -> in_unit v ->
    fle (fofZ z) (fadd (fofZ z) v) = true /\ fle (fadd (fofZ z) v) (fofZ (z + 1)) = true).
  { intros z v Hz (Hf & Hl & Hu1). rewrite !emb_le, emb_add, !emb_ofZ_exact by lia.
    rewrite emb_le, emb_f0 in Hl. rewrite emb_lt, emb_f1 in Hu1.
    destruct (emb v) as [|[]|q]; simpl in Hl, Hu1; try discriminate. rb.
    split; [apply rn_ge_Z|apply rn_le_Z]; try lia; cbn [xadd xle]; rb; rewrite ?plus_IZR; lra. }
  destruct (A (px p) (px u) Hx Ux), (A (py p) (py u) Hy Uy). auto.
Qed.
Print Assumptions C21_camera_sample_in_pixel.

(** A constant sampler meets the hypotheses; so does the Halton sampler by C13. *)
Example C21_example : in_unit (fhalf : b32) /\
  sm_get_2d (mkSampler (fun s _ => Ok s) (fun s => Ok (false, s)) (fun s => Ok (fhalf, s)) (fun s => Ok (mkP2 fhalf fhalf, s))) tt
    = Ok (mkP2 (fhalf : b32) fhalf, tt).
Proof. split; [unfold in_unit; vm_compute; auto|reflexivity]. Qed.
