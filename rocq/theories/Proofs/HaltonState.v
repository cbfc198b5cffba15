(** * The Halton sampler's state machine *)
From Coq Require Import ZArith Reals List Bool Lia ZifyBool Znumtheory.
From Verif Require Import Model.Num Model.Vector Model.Common Model.BBox Model.Film Model.HaltonTable Model.Sampler.
From Verif Require Import Spec.HaltonSpec Spec.SamplerSpec Spec.Grid Proofs.Halton Proofs.Iter.
Import ListNotations.
Local Open Scope Z_scope.

(** ** The table of bases *)
Definition divides_any (n : Z) (ds : list Z) : bool := existsb (fun d => n mod d =? 0) ds.
Definition primeb (n : Z) : bool := (2 <=? n) && negb (divides_any n (List.filter (fun d => d <? n) (zrange 2 91))).

Lemma small_divisor n d : 1 < d < n -> (d | n) -> exists e, 1 < e < n /\ e * e <= n /\ (e | n).
Proof.
  intros Hd [q E]. destruct (Z_le_gt_dec (d * d) n) as [H|H].
  - exists d. repeat split; try lia. now exists q.
  - exists q. assert (1 < q) by nia. assert (q < n) by nia. assert (q < d) by nia.
    repeat split; try lia; try nia. exists d. lia.
Qed.

Lemma primeb_spec n : n < 8281 -> (primeb n = true <-> prime n).
Proof.
  intros Hn. unfold primeb, divides_any. split.
  - intros H. apply andb_prop in H as [H1 H2]. apply prime_alt. split; [lia|].
    intros d Hd Hdiv. destruct (small_divisor n d Hd Hdiv) as (e & He & Hee & Hediv).
    apply negb_true_iff in H2.
    assert (He91 : e < 91) by nia.
    assert (Ht : existsb (fun d => n mod d =? 0) (List.filter (fun d => d <? n) (zrange 2 91)) = true).
    { apply existsb_exists. exists e. split.
      - apply filter_In. split; [apply In_zrange; lia|lia].
      - apply Zdivide_mod in Hediv. lia. }
    congruence.
  - intros Hp. pose proof (prime_ge_2 n Hp). apply andb_true_iff. split; [lia|].
    apply negb_true_iff. apply Bool.not_true_iff_false. intros H1.
    apply existsb_exists in H1 as (d & Hin & Hd). apply filter_In in Hin as [Hr Hlt].
    apply In_zrange in Hr. apply prime_alt in Hp as [_ Hp]. apply (Hp d); [lia|].
    apply Z.mod_divide; lia.
Qed.

Lemma bases_filter : List.filter primeb (zrange 2 8162) = halton_bases.
Proof. vm_compute. reflexivity. Qed.

Lemma bases_length : length halton_bases = 1024%nat.
Proof. reflexivity. Qed.

Lemma In_bases p : In p halton_bases <-> prime p /\ p <= 8161.
Proof.
  rewrite <- bases_filter, filter_In, In_zrange. split.
  - intros [H1 H2]. split; [|lia]. apply primeb_spec in H2; auto. lia.
  - intros [H1 H2]. pose proof (prime_ge_2 p H1). split; [lia|]. apply primeb_spec; auto. lia.
Qed.

Lemma filter_sorted {A} (R : A -> A -> Prop) f l :
  Sorting.Sorted.StronglySorted R l -> Sorting.Sorted.StronglySorted R (List.filter f l).
Proof.
  induction 1 as [|a l Hs IH Ha]; cbn [List.filter]; [constructor|]. destruct (f a); auto.
  constructor; auto. apply Forall_forall. intros x Hx. apply filter_In in Hx as [Hx _].
  rewrite Forall_forall in Ha. now apply Ha.
Qed.

Lemma bases_sorted : Sorting.Sorted.StronglySorted Z.lt halton_bases.
Proof. rewrite <- bases_filter. apply filter_sorted, zrange_sorted. Qed.

Lemma sorted_nth l i j p q : Sorting.Sorted.StronglySorted Z.lt l ->
  nth_error l i = Some p -> nth_error l j = Some q -> (i < j)%nat -> p < q.
Proof.
  intros H. revert i j. induction H as [|a l Hs IH Ha]; intros i j Hi Hj Hij.
  - now destruct i.
  - destruct j as [|j]; [lia|]. simpl in Hj. destruct i as [|i]; simpl in Hi.
    + injection Hi as <-. rewrite Forall_forall in Ha. apply Ha. now apply nth_error_In in Hj.
    + apply (IH i j); auto. lia.
Qed.

Lemma bases_first_primes : first_primes halton_bases.
Proof.
  intros i p Hi. pose proof (nth_error_In _ _ Hi) as Hin. apply In_bases in Hin as [Hp Hle].
  split; [auto|]. split.
  - intros q Hq Hlt. assert (Hin : In q halton_bases) by (apply In_bases; split; [auto|lia]).
    apply In_nth_error in Hin as [j Hj]. exists j. split; auto.
    destruct (Nat.lt_trichotomy j i) as [H|[H|H]]; auto.
    + subst j. rewrite Hi in Hj. injection Hj. lia.
    + pose proof (sorted_nth _ _ _ _ _ bases_sorted Hi Hj H). lia.
  - intros j q Hj Hq. apply (sorted_nth _ _ _ _ _ bases_sorted Hq Hi Hj).
Qed.

Lemma idx_bases d : 0 <= d < 1024 -> exists p, idx halton_bases d = Ok p /\ prime p /\ nth_error halton_bases (Z.to_nat d) = Some p.
Proof.
  intros Hd. unfold idx. replace (d <? 0) with false by lia.
  destruct (nth_error halton_bases (Z.to_nat d)) as [p|] eqn:E.
  - exists p. split; auto. split; auto. apply nth_error_In in E. now apply In_bases in E.
  - apply nth_error_None in E. rewrite bases_length in E. lia.
Qed.

Lemma idx_bases_panic d : 1024 <= d -> idx halton_bases d = Panic.
Proof.
  intros Hd. unfold idx. replace (d <? 0) with false by lia.
  destruct (nth_error halton_bases (Z.to_nat d)) as [p|] eqn:E; auto.
  assert (H : nth_error halton_bases (Z.to_nat d) <> None) by congruence.
  apply nth_error_Some in H. rewrite bases_length in H. lia.
Qed.

(** ** Construction *)
Lemma pos_mod_ok a b : 0 < b -> pos_mod a b = a mod b.
Proof.
  intros Hb. unfold pos_mod.
  pose proof (Z.quot_rem a b ltac:(lia)) as E.
  destruct (Z.rem a b <? 0) eqn:S.
  - pose proof (Z.rem_bound_abs a b ltac:(lia)).
    apply Z.mod_unique_pos with (q := Z.quot a b - 1); lia.
  - pose proof (Z.rem_bound_abs a b ltac:(lia)).
    apply Z.mod_unique_pos with (q := Z.quot a b); lia.
Qed.

Definition scale_checkb (base emax : Z) (m : build) (bound : Z) : bool :=
  match scale_loop m 32 base bound 1 0 with
  | Ok (s, e) => (s =? base ^ e) && (0 <=? e) && (e <=? emax) && (bound <=? s) && ((e =? 0) || (base ^ (e - 1) <? bound))
  | _ => false
  end.

Lemma scale_ok base emax m bound : (base = 2 /\ emax = 7) \/ (base = 3 /\ emax = 5) -> 0 <= bound <= 128 ->
  exists e, scale_loop m 32 base bound 1 0 = Ok (base ^ e, e) /\ 0 <= e <= emax /\ bound <= base ^ e /\
    (e = 0 \/ base ^ (e - 1) < bound).
Proof.
  intros Hb Hr.
  assert (C : scale_checkb base emax m bound = true).
  { assert (A : forallb (scale_checkb 2 7 Debug) (zrange 0 129) && forallb (scale_checkb 2 7 Release) (zrange 0 129) &&
                forallb (scale_checkb 3 5 Debug) (zrange 0 129) && forallb (scale_checkb 3 5 Release) (zrange 0 129) = true) by (vm_compute; reflexivity).
    rewrite !andb_true_iff, !forallb_forall in A. destruct A as [[[A1 A2] A3] A4].
    assert (In bound (zrange 0 129)) by (apply In_zrange; lia).
    destruct Hb as [[-> ->]|[-> ->]], m; auto. }
  unfold scale_checkb in C. destruct (scale_loop _ _ _ _ _ _) as [[s e]| |]; try discriminate.
  exists e. rewrite !andb_true_iff in C. destruct C as [[[[C1 C2] C3] C4] C5].
  apply Z.eqb_eq in C1. subst s. repeat split; auto; lia.
Qed.

(** what the two inverses satisfy: inverse up to sign *)
Definition pm_inverse (a n i : Z) : Prop := (a * i) mod n = 1 mod n \/ (a * i) mod n = (-1) mod n.

Definition inv_specb (rx ry : res Z) (ex ey : Z) : bool :=
  match rx, ry with
  | Ok ix, Ok iy =>
      (0 <=? ix) && (ix <? 2 ^ ex) && (0 <=? iy) && (iy <? 3 ^ ey) &&
      (((3 ^ ey * ix) mod 2 ^ ex =? 1 mod 2 ^ ex) || ((3 ^ ey * ix) mod 2 ^ ex =? (-1) mod 2 ^ ex)) &&
      (((2 ^ ex * iy) mod 3 ^ ey =? 1 mod 3 ^ ey) || ((2 ^ ex * iy) mod 3 ^ ey =? (-1) mod 3 ^ ey))
  | _, _ => false
  end.

Lemma inv_specb_ok rx ry ex ey : inv_specb rx ry ex ey = true ->
  exists ix iy, rx = Ok ix /\ ry = Ok iy /\
    0 <= ix < 2 ^ ex /\ 0 <= iy < 3 ^ ey /\ pm_inverse (3 ^ ey) (2 ^ ex) ix /\ pm_inverse (2 ^ ex) (3 ^ ey) iy.
Proof.
  unfold inv_specb. destruct rx as [ix| |]; try discriminate. destruct ry as [iy| |]; try discriminate.
  intros C. exists ix, iy. unfold pm_inverse. rewrite !andb_true_iff, !orb_true_iff, !Z.eqb_eq in C.
  destruct C as [[[[[C1 C2] C3] C4] C5] C6]. repeat split; auto; lia.
Qed.

Lemma forallb2 (f : Z -> Z -> bool) l1 l2 : forallb (fun a => forallb (f a) l2) l1 = true ->
  forall a b, In a l1 -> In b l2 -> f a b = true.
Proof.
  intros H a b Ha Hb. rewrite forallb_forall in H. specialize (H a Ha). rewrite forallb_forall in H. auto.
Qed.

Lemma inv_check_all m ex ey : 0 <= ex <= 7 -> 0 <= ey <= 5 ->
  inv_specb (multiplicative_inverse m (3 ^ ey) (2 ^ ex)) (multiplicative_inverse m (2 ^ ex) (3 ^ ey)) ex ey = true.
Proof.
  intros Hx Hy. apply (forallb2 (fun ex ey => inv_specb (multiplicative_inverse m (3 ^ ey) (2 ^ ex)) (multiplicative_inverse m (2 ^ ex) (3 ^ ey)) ex ey) (zrange 0 8) (zrange 0 6)).
  - destruct m; vm_compute; reflexivity.
  - apply In_zrange; lia.
  - apply In_zrange; lia.
Qed.

Lemma inv_ok m ex ey : 0 <= ex <= 7 -> 0 <= ey <= 5 ->
  exists ix iy, multiplicative_inverse m (3 ^ ey) (2 ^ ex) = Ok ix /\ multiplicative_inverse m (2 ^ ex) (3 ^ ey) = Ok iy /\
    0 <= ix < 2 ^ ex /\ 0 <= iy < 3 ^ ey /\ pm_inverse (3 ^ ey) (2 ^ ex) ix /\ pm_inverse (2 ^ ex) (3 ^ ey) iy.
Proof.
  intros Hx Hy. exact (inv_specb_ok _ _ _ _ (inv_check_all m ex ey Hx Hy)).
Qed.

(** ** Static part of the state *)
Record hstat (s : halton) (ex ey : Z) : Prop := {
  hs_ex : 0 <= ex <= 7;
  hs_ey : 0 <= ey <= 5;
  hs_exp : h_exp s = mkP2 ex ey;
  hs_scale : h_scale s = mkP2 (2 ^ ex) (3 ^ ey);
  hs_stride : h_stride s = 2 ^ ex * 3 ^ ey;
  hs_ix : 0 <= px (h_inv s) < 2 ^ ex;
  hs_iy : 0 <= py (h_inv s) < 3 ^ ey;
  hs_pmx : pm_inverse (3 ^ ey) (2 ^ ex) (px (h_inv s));
  hs_pmy : pm_inverse (2 ^ ex) (3 ^ ey) (py (h_inv s)) }.

Definition exps_for (w e base : Z) : Prop :=
  Z.min w 128 <= base ^ e /\ (e = 0 \/ base ^ (e - 1) < Z.min w 128).

Lemma pow2_bound ex : 0 <= ex <= 7 -> 1 <= 2 ^ ex <= 128.
Proof. intros H. assert (2 ^ 0 <= 2 ^ ex <= 2 ^ 7) by (split; apply Z.pow_le_mono_r; lia). lia. Qed.
Lemma pow3_bound ey : 0 <= ey <= 5 -> 1 <= 3 ^ ey <= 243.
Proof. intros H. assert (3 ^ 0 <= 3 ^ ey <= 3 ^ 5) by (split; apply Z.pow_le_mono_r; lia). lia. Qed.

Lemma halton_new_ok m spp b :
  0 <= px (b2max b) - px (b2min b) < 2 ^ 31 -> 0 <= py (b2max b) - py (b2min b) < 2 ^ 31 ->
  exists s0 ex ey, halton_new m spp b = Ok s0 /\ hstat s0 ex ey /\
    exps_for (px (b2max b) - px (b2min b)) ex 2 /\ exps_for (py (b2max b) - py (b2min b)) ey 3 /\
    h_spp s0 = spp /\ h_pixel s0 = mkP2 0 0 /\ h_index s0 = 0 /\ h_dim s0 = 0 /\ h_interval s0 = 0 /\
    h_offset_pixel s0 = mkP2 0 0 /\ h_offset s0 = 0.
Proof.
  intros Hx Hy. unfold halton_new, bbox2_diagonal.
  rewrite !i32_of_ok by lia. cbn [rbind px py].
  unfold K_MAX_RESOLUTION, wrap_u. rewrite !Z.mod_small by lia.
  destruct (scale_ok 2 7 m (Z.min (px (b2max b) - px (b2min b)) 128)) as (ex & -> & Hex & B1 & B2); [auto|lia|].
  destruct (scale_ok 3 5 m (Z.min (py (b2max b) - py (b2min b)) 128)) as (ey & -> & Hey & B3 & B4); [auto|lia|].
  cbn [rbind].
  pose proof (pow2_bound ex Hex). pose proof (pow3_bound ey Hey).
  rewrite u32_of_ok by nia. cbn [rbind].
  destruct (inv_ok m ex ey Hex Hey) as (ix & iy & -> & -> & R1 & R2 & I1 & I2). cbn [rbind].
  do 3 eexists. split; [reflexivity|]. cbn [h_spp h_pixel h_index h_dim h_interval h_offset_pixel h_offset].
  split; [constructor; cbn; eauto|]. unfold exps_for. auto 20.
Qed.

(** ** The offset of a pixel *)
Definition rev_digits (b e a : Z) : Z := rev_acc b (Z.to_nat e) a 0.

Definition off (s : halton) (p : P2 Z) : Z :=
  let '(mkP2 ex ey) := h_exp s in
  (rev_digits 2 ex (px p mod 128) * 3 ^ ey * px (h_inv s) +
   rev_digits 3 ey (py p mod 128) * 2 ^ ex * py (h_inv s)) mod (2 ^ ex * 3 ^ ey).

Lemma inv_radical_loop_ok m n : forall b a x bn, 2 <= b -> 0 <= a -> 0 <= x < bn -> bn * b ^ Z.of_nat n <= 2 ^ 32 ->
  inv_radical_loop m n b a x = Ok (rev_acc b n a x).
Proof.
  induction n as [|n IH]; intros b a x bn Hb Ha Hx Hf; cbn [inv_radical_loop rev_acc]; auto.
  rewrite pow_S in Hf. pose proof (pow_pos b n Hb) as Hp. pose proof (Z.mod_pos_bound a b ltac:(lia)) as Hm.
  assert (Hbb : bn * b <= bn * (b * b ^ Z.of_nat n)).
  { apply Z.mul_le_mono_nonneg_l; [lia|]. rewrite <- (Z.mul_1_r b) at 1. apply Z.mul_le_mono_nonneg_l; lia. }
  assert (Hxb : 0 <= x * b /\ 0 <= x * b + a mod b < bn * b) by nia.
  rewrite (u32_of_ok m (x * b)) by lia. cbn [rbind].
  rewrite u32_of_ok by lia. cbn [rbind].
  apply (IH b (a / b) _ (bn * b)); auto; try lia. apply Z.div_pos; lia.
Qed.

Lemma rev_digits_range b e a : 2 <= b -> 0 <= e -> 0 <= rev_digits b e a < b ^ e.
Proof.
  intros Hb He. unfold rev_digits.
  pose proof (rev_acc_range b (Z.to_nat e) a 0 1 Hb ltac:(lia)) as H.
  rewrite Z2Nat.id in H by lia. lia.
Qed.

Lemma inverse_radical_inverse_ok m b a e : 2 <= b -> 0 <= a -> 0 <= e -> b ^ e <= 2 ^ 32 ->
  inverse_radical_inverse m b a e = Ok (rev_digits b e a).
Proof.
  intros. unfold inverse_radical_inverse, rev_digits. apply inv_radical_loop_ok with (bn := 1); auto; try lia.
  rewrite Z2Nat.id by lia. lia.
Qed.

Lemma off_range s ex ey p : hstat s ex ey -> 0 <= off s p < 2 ^ ex * 3 ^ ey.
Proof.
  intros H. unfold off. rewrite (hs_exp _ _ _ H). pose proof (pow2_bound ex (hs_ex _ _ _ H)).
  pose proof (pow3_bound ey (hs_ey _ _ _ H)). apply Z.mod_pos_bound. nia.
Qed.

Lemma stride_bound ex ey : 0 <= ex <= 7 -> 0 <= ey <= 5 -> 1 <= 2 ^ ex * 3 ^ ey <= 31104.
Proof. intros H1 H2. pose proof (pow2_bound ex H1). pose proof (pow3_bound ey H2). nia. Qed.

Lemma rev_digits_0 b e : 2 <= b -> rev_digits b e 0 = 0.
Proof.
  intros Hb. unfold rev_digits. generalize (Z.to_nat e). intros n.
  induction n as [|n IH]; cbn [rev_acc]; auto.
Qed.

Lemma off_0 s ex ey : hstat s ex ey -> off s (mkP2 0 0) = 0.
Proof.
  intros H. unfold off. rewrite (hs_exp _ _ _ H). cbn [px py].
  change (0 mod 128) with 0. rewrite !rev_digits_0 by lia. cbn [Z.mul Z.add]. apply Z.mod_0_l.
  pose proof (stride_bound ex ey (hs_ex _ _ _ H) (hs_ey _ _ _ H)). lia.
Qed.

Definition with_offset (s : halton) (p : P2 Z) (o : Z) : halton :=
  mkHalton (h_spp s) (h_pixel s) (h_index s) (h_dim s) (h_interval s) (h_scale s) (h_exp s)
          (h_stride s) p o (h_inv s).

Lemma refresh_ok m s ex ey : hstat s ex ey -> h_offset s = off s (h_offset_pixel s) ->
  refresh_offset m s = Ok (with_offset s (h_pixel s) (off s (h_pixel s))).
Proof.
  intros H Hc. unfold refresh_offset.
  pose proof (pow2_bound ex (hs_ex _ _ _ H)) as P2b. pose proof (pow3_bound ey (hs_ey _ _ _ H)) as P3b.
  destruct (negb _) eqn:E.
  - apply negb_true_iff in E.
    rewrite (hs_exp _ _ _ H), (hs_scale _ _ _ H), (hs_stride _ _ _ H). cbn [px py].
    destruct (2 ^ ex * 3 ^ ey >? 1) eqn:Es.
    + unfold offset_round. rewrite !pos_mod_ok by (unfold K_MAX_RESOLUTION; lia).
      unfold K_MAX_RESOLUTION.
      pose proof (Z.mod_pos_bound (px (h_pixel s)) 128 ltac:(lia)).
      pose proof (Z.mod_pos_bound (py (h_pixel s)) 128 ltac:(lia)).
      rewrite !inverse_radical_inverse_ok; try lia; try (pose proof (hs_ex _ _ _ H); pose proof (hs_ey _ _ _ H); lia).
      cbn [rbind].
      replace (2 ^ ex * 3 ^ ey / 2 ^ ex) with (3 ^ ey) by (symmetry; rewrite Z.mul_comm; apply Z.div_mul; lia).
      replace (2 ^ ex * 3 ^ ey / 3 ^ ey) with (2 ^ ex) by (symmetry; apply Z.div_mul; lia).
      pose proof (rev_digits_range 2 ex (px (h_pixel s) mod 128) ltac:(lia) ltac:(pose proof (hs_ex _ _ _ H); lia)) as D0.
      pose proof (rev_digits_range 3 ey (py (h_pixel s) mod 128) ltac:(lia) ltac:(pose proof (hs_ey _ _ _ H); lia)) as D1.
      pose proof (hs_ix _ _ _ H) as Ix. pose proof (hs_iy _ _ _ H) as Iy.
      set (d0 := rev_digits 2 ex _) in *. set (d1 := rev_digits 3 ey _) in *.
      assert (A1 : 0 <= d0 * 3 ^ ey <= 128 * 243) by (split; [apply Z.mul_nonneg_nonneg; lia|apply Z.mul_le_mono_nonneg; lia]).
      assert (A2 : 0 <= d0 * 3 ^ ey * px (h_inv s) <= 128 * 243 * 128) by (split; [apply Z.mul_nonneg_nonneg; lia|apply Z.mul_le_mono_nonneg; lia]).
      assert (A3 : 0 <= d1 * 2 ^ ex <= 243 * 128) by (split; [apply Z.mul_nonneg_nonneg; lia|apply Z.mul_le_mono_nonneg; lia]).
      assert (A4 : 0 <= d1 * 2 ^ ex * py (h_inv s) <= 243 * 128 * 243) by (split; [apply Z.mul_nonneg_nonneg; lia|apply Z.mul_le_mono_nonneg; lia]).
      rewrite (u32_of_ok m (d0 * 3 ^ ey)) by lia. cbn [rbind].
      rewrite (u32_of_ok m (d0 * 3 ^ ey * px (h_inv s))) by lia. cbn [rbind].
      rewrite (u32_of_ok m (0 + d0 * 3 ^ ey * px (h_inv s))) by lia. cbn [rbind].
      rewrite (u32_of_ok m (d1 * 2 ^ ex)) by lia. cbn [rbind].
      rewrite (u32_of_ok m (d1 * 2 ^ ex * py (h_inv s))) by lia. cbn [rbind].
      rewrite u32_of_ok by lia. cbn [rbind].
      unfold with_offset, off. rewrite (hs_exp _ _ _ H), (hs_scale _ _ _ H), (hs_stride _ _ _ H).
      fold d0 d1. rewrite Z.add_0_l. reflexivity.
    + cbn [rbind].
      assert (E1 : 2 ^ ex * 3 ^ ey = 1) by nia.
      unfold with_offset. rewrite (hs_exp _ _ _ H), (hs_scale _ _ _ H), (hs_stride _ _ _ H).
      do 2 f_equal. pose proof (off_range s ex ey (h_pixel s) H). lia.
  - apply negb_false_iff, andb_true_iff in E as [E1 E2]. apply Z.eqb_eq in E1, E2.
    assert (Ep : h_offset_pixel s = h_pixel s).
    { destruct (h_offset_pixel s) as [a b], (h_pixel s) as [c d]; cbn [px py] in *; congruence. }
    rewrite <- Ep, <- Hc. unfold with_offset. destruct s; reflexivity.
Qed.

(** ** Invariant of every reachable state *)
Record hinv (s0 s : halton) : Prop := {
  hi_spp : h_spp s = h_spp s0;
  hi_scale : h_scale s = h_scale s0;
  hi_exp : h_exp s = h_exp s0;
  hi_stride : h_stride s = h_stride s0;
  hi_inv : h_inv s = h_inv s0;
  hi_cache : h_offset s = off s0 (h_offset_pixel s);
  hi_interval : 0 <= h_interval s < 2 ^ 32;
  hi_dim : 0 <= h_dim s < 2 ^ 32;
  hi_index : 0 <= h_index s < 2 ^ 32 }.

Lemma off_static s0 s p : h_exp s = h_exp s0 -> h_inv s = h_inv s0 -> off s p = off s0 p.
Proof. intros E1 E2. unfold off. now rewrite E1, E2. Qed.

Lemma hstat_static s0 s ex ey : h_exp s = h_exp s0 -> h_inv s = h_inv s0 -> h_scale s = h_scale s0 -> h_stride s = h_stride s0 ->
  hstat s0 ex ey -> hstat s ex ey.
Proof. intros E1 E2 E3 E4 []. constructor; congruence. Qed.

Definition at_sample (s0 : halton) (p : P2 Z) (i : Z) (d interval : Z) : halton :=
  mkHalton (h_spp s0) p i d interval (h_scale s0) (h_exp s0) (h_stride s0) p (off s0 p) (h_inv s0).

Lemma start_pixel_eq m s0 s ex ey p : hstat s0 ex ey -> hinv s0 s ->
  halton_start_pixel m s p = Ok (at_sample s0 p 0 0 (off s0 p)).
Proof.
  intros H I. destruct I. unfold halton_start_pixel, halton_reset, get_index_for_sample.
  rewrite (refresh_ok m _ ex ey); cbn.
  2:{ apply (hstat_static s0); auto. }
  2:{ rewrite hi_cache0. symmetry. apply off_static; auto. }
  pose proof (off_range s0 ex ey p H). pose proof (stride_bound ex ey (hs_ex _ _ _ H) (hs_ey _ _ _ H)).
  rewrite (off_static s0) by auto.
  rewrite Z.add_0_r, u32_of_ok by lia. cbn [rbind].
  unfold at_sample. cbn. congruence.
Qed.

Definition stride_of (s0 : halton) := h_stride s0.

Lemma next_sample_eq m s0 ex ey p i d iv : hstat s0 ex ey -> 
  off s0 p + (i + 1) * h_stride s0 < 2 ^ 32 -> 0 <= i -> i + 1 < 2 ^ 32 ->
  halton_next_sample m (at_sample s0 p i d iv) =
    Ok (i + 1 <? h_spp s0, at_sample s0 p (i + 1) 0 (off s0 p + (i + 1) * h_stride s0)).
Proof.
  intros H Hi H0 H1. unfold halton_next_sample. cbn [h_index at_sample].
  rewrite u32_of_ok by lia. cbn [rbind]. unfold halton_reset, get_index_for_sample.
  rewrite (refresh_ok m _ ex ey); cbn.
  2:{ apply (hstat_static s0); auto. }
  2:{ symmetry. apply off_static; auto. }
  rewrite (off_static s0) by auto.
  pose proof (off_range s0 ex ey p H). pose proof (stride_bound ex ey (hs_ex _ _ _ H) (hs_ey _ _ _ H)).
  pose proof (hs_stride _ _ _ H).
  rewrite u32_of_ok by nia. cbn [rbind]. rewrite u32_of_ok by nia. reflexivity.
Qed.

Lemma u32_of_range m z z' : u32_of m z = Ok z' -> 0 <= z' < 2 ^ 32.
Proof.
  unfold u32_of, in_rangeb, u32_max. destruct (_ && _) eqn:E.
  - intros [= <-]. lia.
  - destruct m; [discriminate|]. intros [= <-]. unfold wrap_u. apply Z.mod_pos_bound. lia.
Qed.

Lemma hinv_start s0 ex ey : hstat s0 ex ey -> h_offset s0 = 0 -> h_offset_pixel s0 = mkP2 0 0 ->
  h_interval s0 = 0 -> h_dim s0 = 0 -> h_index s0 = 0 -> hinv s0 s0.
Proof.
  intros H E1 E2 E3 E4 E5. constructor; auto; try lia. rewrite E1, E2. symmetry. eapply off_0; eauto.
Qed.

Lemma hinv_at s0 p i d iv : 0 <= i < 2 ^ 32 -> 0 <= d < 2 ^ 32 -> 0 <= iv < 2 ^ 32 -> hinv s0 (at_sample s0 p i d iv).
Proof. intros. constructor; cbn; auto. Qed.

Section Ops.
  Context {F} {O : FOps F}.

  Lemma hinv_next m s0 s ex ey b s' : hstat s0 ex ey -> hinv s0 s -> halton_next_sample m s = Ok (b, s') ->
    hinv s0 s' /\ h_index s' = 0 + h_index s' /\ b = (h_index s' <? h_spp s0).
  Proof.
    intros H I. unfold halton_next_sample.
    destruct (u32_of m (h_index s + 1)) as [i| |] eqn:Ei; try discriminate. cbn [rbind].
    unfold halton_reset, get_index_for_sample. destruct I.
    rewrite (refresh_ok m _ ex ey); cbn.
    2:{ apply (hstat_static s0); auto. }
    2:{ rewrite hi_cache0. symmetry. apply off_static; auto. }
    rewrite (off_static s0) by auto.
    destruct (u32_of m (i * h_stride s)) as [q| |] eqn:Eq; try discriminate. cbn [rbind].
    destruct (u32_of m (off s0 (h_pixel s) + q)) as [iv| |] eqn:Eiv; try discriminate. cbn [rbind].
    intros [= <- <-]. cbn. rewrite hi_spp0. split; [|auto].
    constructor; cbn; auto; try lia; eauto using u32_of_range.
  Qed.

  Lemma hinv_1d m s0 s (x : F) s' : hinv s0 s -> halton_get_1d m s = Ok (x, s') -> hinv s0 s'.
  Proof.
    intros I. unfold halton_get_1d. destruct (sample_dimension _ _ _ _) as [v| |]; try discriminate. cbn [rbind].
    destruct (u32_of m _) as [d| |] eqn:Ed; try discriminate. cbn [rbind]. intros [= <- <-].
    destruct I. constructor; cbn; auto. eauto using u32_of_range.
  Qed.

  Lemma hinv_2d m s0 s (x : P2 F) s' : hinv s0 s -> halton_get_2d m s = Ok (x, s') -> hinv s0 s'.
  Proof.
    intros I. unfold halton_get_2d. destruct (sample_dimension m s _ _) as [v| |]; try discriminate. cbn [rbind].
    destruct (u32_of m (h_dim s + 1)) as [d1| |] eqn:Ed1; try discriminate. cbn [rbind].
    destruct (sample_dimension m s _ _) as [w| |]; try discriminate. cbn [rbind].
    destruct (u32_of m (h_dim s + 2)) as [d| |] eqn:Ed; try discriminate. cbn [rbind]. intros [= <- <-].
    destruct I. constructor; cbn; auto. eauto using u32_of_range.
  Qed.

  Lemma hinv_reach m s0 ex ey s : hstat s0 ex ey -> hinv s0 s0 ->
    reach (halton_ops (F := F) m) s0 s -> hinv s0 s.
  Proof.
    intros H I0 R. induction R as [|s1 p s2 R IH E|s1 b s2 R IH E|s1 x s2 R IH E|s1 x s2 R IH E]; auto.
    - cbn in E. rewrite (start_pixel_eq m s0 s1 ex ey p H IH) in E. injection E as <-.
      pose proof (off_range s0 ex ey p H). pose proof (stride_bound ex ey (hs_ex _ _ _ H) (hs_ey _ _ _ H)).
      apply hinv_at; lia.
    - exact (proj1 (hinv_next m s0 s1 ex ey b s2 H IH E)).
    - eapply hinv_1d; [exact IH|exact E].
    - eapply hinv_2d; [exact IH|exact E].
  Qed.
End Ops.

Lemma new_state m spp b w h s0 : area b w h -> halton_new m spp b = Ok s0 ->
  exists ex ey, hstat s0 ex ey /\ hinv s0 s0 /\ h_spp s0 = spp /\ exps_for w ex 2 /\ exps_for h ey 3.
Proof.
  intros (Ew & Eh & Hw & Hh) E.
  destruct (halton_new_ok m spp b) as (s0' & ex & ey & E' & H & X & Y & E1 & E2 & E3 & E4 & E5 & E6 & E7);
    [rewrite Ew; lia|rewrite Eh; lia|].
  rewrite E in E'. injection E' as <-. rewrite Ew in X. rewrite Eh in Y.
  exists ex, ey. split; [auto|]. split; [eapply hinv_start; eauto|]. auto.
Qed.
