(** * Which part of the Halton sequence a pixel draws from *)
From Coq Require Import ZArith Reals List Bool Lia Lra ZifyBool Znumtheory.
From Verif Require Import Model.Num Model.Vector Model.Common Model.BBox Model.Film Model.HaltonTable Model.Sampler.
From Verif Require Import Spec.HaltonSpec Spec.SamplerSpec Proofs.Halton Proofs.HaltonState Proofs.Iter.
Import ListNotations.
Local Open Scope Z_scope.

Lemma mod_pow_S b n a : 2 <= b -> a mod b ^ Z.of_nat (S n) = a mod b + b * ((a / b) mod b ^ Z.of_nat n).
Proof. intros Hb. rewrite pow_S. apply Z.rem_mul_r; [lia|]. pose proof (pow_pos b n Hb). lia. Qed.

Lemma rev_acc_inj b n : forall a a' x x', 2 <= b -> rev_acc b n a x = rev_acc b n a' x' ->
  x = x' /\ a mod b ^ Z.of_nat n = a' mod b ^ Z.of_nat n.
Proof.
  induction n as [|n IH]; intros a a' x x' Hb E; cbn [rev_acc] in E.
  - split; auto. change (Z.of_nat 0) with 0. now rewrite Z.pow_0_r, !Z.mod_1_r.
  - apply IH in E as [E1 E2]; auto.
    pose proof (Z.mod_pos_bound a b ltac:(lia)). pose proof (Z.mod_pos_bound a' b ltac:(lia)).
    assert (x = x') by nia. subst x'. assert (Em : a mod b = a' mod b) by lia.
    split; auto. now rewrite !mod_pow_S, Em, E2.
Qed.

Lemma rev_acc_lin b n : forall a x, 2 <= b -> rev_acc b n a x = x * b ^ Z.of_nat n + rev_acc b n a 0.
Proof.
  induction n as [|n IH]; intros a x Hb; cbn [rev_acc].
  - change (Z.of_nat 0) with 0. rewrite Z.pow_0_r. lia.
  - rewrite IH, (IH (a / b) (0 * b + a mod b)), pow_S by auto. ring.
Qed.

Lemma rev_acc_top b n : forall h t x, 2 <= b -> 0 <= h < b -> 0 <= t < b ^ Z.of_nat n ->
  rev_acc b (S n) (h * b ^ Z.of_nat n + t) x = rev_acc b n t x * b + h.
Proof.
  induction n as [|n IH]; intros h t x Hb Hh Ht.
  - cbn [rev_acc]. change (Z.of_nat 0) with 0 in *. rewrite Z.pow_0_r in *.
    assert (t = 0) by lia. subst t. rewrite Z.add_0_r, Z.mul_1_r, Z.mod_small by lia. reflexivity.
  - change (rev_acc b (S (S n)) (h * b ^ Z.of_nat (S n) + t) x) with
      (rev_acc b (S n) ((h * b ^ Z.of_nat (S n) + t) / b) (x * b + (h * b ^ Z.of_nat (S n) + t) mod b)).
    change (rev_acc b (S n) t x) with (rev_acc b n (t / b) (x * b + t mod b)).
    rewrite pow_S. rewrite pow_S in Ht.
    replace (h * (b * b ^ Z.of_nat n) + t) with (t + h * b ^ Z.of_nat n * b) by ring.
    rewrite Z.div_add, Z.mod_add by lia.
    rewrite (Z.add_comm (t / b)), IH; auto.
    split; [apply Z.div_pos; lia|]. apply Z.div_lt_upper_bound; lia.
Qed.

Lemma rev_acc_invol b n : forall a, 2 <= b -> rev_acc b n (rev_acc b n a 0) 0 = a mod b ^ Z.of_nat n.
Proof.
  induction n as [|n IH]; intros a Hb.
  - cbn. now rewrite Z.mod_1_r.
  - change (rev_acc b (S n) a 0) with (rev_acc b n (a / b) (0 * b + a mod b)).
    rewrite (rev_acc_lin b n (a / b)) by auto. rewrite Z.mul_0_l, Z.add_0_l.
    rewrite rev_acc_top; auto.
    + rewrite IH, mod_pow_S by auto. ring.
    + apply Z.mod_pos_bound. lia.
    + pose proof (rev_acc_range b n (a / b) 0 1 Hb ltac:(lia)). lia.
Qed.

Lemma rev_digits_invol b e a : 2 <= b -> 0 <= e -> rev_digits b e (rev_digits b e a) = a mod b ^ e.
Proof. intros Hb He. unfold rev_digits. rewrite rev_acc_invol by auto. now rewrite Z2Nat.id. Qed.

Lemma rev_digits_mod b e a : 2 <= b -> 0 <= e -> rev_digits b e (a mod b ^ e) = rev_digits b e a.
Proof.
  intros Hb He. rewrite <- rev_digits_invol by auto. rewrite rev_digits_invol by auto.
  apply Z.mod_small. apply rev_digits_range; auto.
Qed.

Lemma rev_digits_inj b e a a' : 2 <= b -> 0 <= e -> rev_digits b e a = rev_digits b e a' -> a mod b ^ e = a' mod b ^ e.
Proof.
  intros Hb He E. unfold rev_digits in E. apply rev_acc_inj in E as [_ E]; auto. now rewrite Z2Nat.id in E.
Qed.

(** ** Digits and fractions *)
Lemma mirrored_range b n : forall a, 2 <= b -> (0 <= mirrored b a n < 1)%R.
Proof.
  induction n as [|n IH]; intros a Hb.
  - unfold mirrored. simpl. lra.
  - rewrite mirrored_S by auto. specialize (IH (a / b) Hb).
    pose proof (Z.mod_pos_bound a b ltac:(lia)) as [H1 H2].
    assert (H2' : a mod b <= b - 1) by lia. apply IZR_le in H1, H2'. rewrite minus_IZR in H2'.
    assert (Hb' : (2 <= IZR b)%R) by (apply IZR_le; lia).
    split.
    + apply Rmult_le_pos; [lra|]. apply Rlt_le, Rinv_0_lt_compat. lra.
    + apply Rmult_lt_reg_r with (IZR b); [lra|]. unfold Rdiv. rewrite Rmult_assoc, Rinv_l by lra. lra.
Qed.

Lemma mirrored_split b e n : forall a, 2 <= b ->
  (IZR (b ^ Z.of_nat e) * mirrored b a (e + n) = IZR (rev_acc b e a 0) + mirrored b (a / b ^ Z.of_nat e) n)%R.
Proof.
  induction e as [|e IH]; intros a Hb.
  - change (Z.of_nat 0) with 0. rewrite Z.pow_0_r, Z.div_1_r. cbn [rev_acc plus]. lra.
  - change (S e + n)%nat with (S (e + n)). rewrite mirrored_S by auto.
    cbn [rev_acc]. rewrite rev_acc_lin, Z.mul_0_l, Z.add_0_l by auto.
    rewrite pow_S, <- Z.div_div by (try apply pow_pos; lia).
    rewrite plus_IZR, !mult_IZR. specialize (IH (a / b) Hb).
    assert (IZR b <> 0%R) by (apply not_0_IZR; lia).
    rewrite Rplus_assoc, <- IH. field; auto.
Qed.

(** The fraction scaled by [b^e] has the reversed low digits as integer part. *)
Lemma mirrored_cell b e a n : 2 <= b -> 0 <= e -> (Z.to_nat e <= n)%nat ->
  (IZR (rev_digits b e a) <= IZR (b ^ e) * mirrored b a n < IZR (rev_digits b e a) + 1)%R.
Proof.
  intros Hb He Hn. replace n with (Z.to_nat e + (n - Z.to_nat e))%nat by lia.
  pose proof (mirrored_split b (Z.to_nat e) (n - Z.to_nat e) a Hb) as E. rewrite Z2Nat.id in E by auto.
  rewrite E. unfold rev_digits.
  pose proof (mirrored_range b (n - Z.to_nat e) (a / b ^ e) Hb). lra.
Qed.

(** ** Residues of the offset *)
Lemma off_mod_x s ex ey p : hstat s ex ey ->
  (off s p) mod 2 ^ ex = (rev_digits 2 ex (px p) * (3 ^ ey * px (h_inv s))) mod 2 ^ ex.
Proof.
  intros H. unfold off. rewrite (hs_exp _ _ _ H).
  pose proof (pow2_bound ex (hs_ex _ _ _ H)) as P2b. pose proof (pow3_bound ey (hs_ey _ _ _ H)) as P3b.
  rewrite <- Zmod_div_mod; [|lia|nia|exists (3 ^ ey); ring].
  replace (rev_digits 2 ex (px p mod 128)) with (rev_digits 2 ex (px p)).
  2:{ rewrite <- (rev_digits_mod 2 ex (px p mod 128)), <- (rev_digits_mod 2 ex (px p)) by (pose proof (hs_ex _ _ _ H); lia).
      f_equal. symmetry. symmetry. apply Zmod_div_mod; try lia.
      exists (2 ^ (7 - ex)). rewrite <- Z.pow_add_r by (pose proof (hs_ex _ _ _ H); lia).
      replace (7 - ex + ex) with 7 by lia. reflexivity. }
  set (d := rev_digits 3 ey _). rewrite <- (Z.mod_add _ (d * py (h_inv s)) (2 ^ ex)) by lia.
  replace (d * 2 ^ ex * py (h_inv s)) with (d * py (h_inv s) * 2 ^ ex) by ring.
  rewrite !Z.mod_add by lia. f_equal. ring.
Qed.

Lemma off_mod_y s ex ey p : hstat s ex ey ->
  (off s p) mod 3 ^ ey = (rev_digits 3 ey (py p mod 128) * (2 ^ ex * py (h_inv s))) mod 3 ^ ey.
Proof.
  intros H. unfold off. rewrite (hs_exp _ _ _ H).
  pose proof (pow2_bound ex (hs_ex _ _ _ H)) as P2b. pose proof (pow3_bound ey (hs_ey _ _ _ H)) as P3b.
  rewrite <- Zmod_div_mod; [|lia|nia|exists (2 ^ ex); ring].
  set (d := rev_digits 2 ex _).
  replace (d * 3 ^ ey * px (h_inv s)) with (d * px (h_inv s) * 3 ^ ey) by ring.
  rewrite Z.add_comm, Z.mod_add by lia. f_equal. ring.
Qed.

(** multiplication by something that is its own inverse up to sign is injective *)
Lemma pm_inj a n i d d' : 0 < n -> pm_inverse a n i -> 0 <= d < n -> 0 <= d' < n ->
  (d * (a * i)) mod n = (d' * (a * i)) mod n -> d = d'.
Proof.
  intros Hn Hpm Hd Hd' E.
  assert (Hm : (d * (a * i) - d' * (a * i)) mod n = 0) by (rewrite Zminus_mod, E, Z.sub_diag; apply Z.mod_0_l; lia).
  rewrite <- Z.mul_sub_distr_r in Hm. rewrite Z.mul_mod in Hm by lia.
  assert (H0 : (d - d') mod n = 0).
  { destruct Hpm as [Hp|Hp]; rewrite Hp in Hm; rewrite <- Z.mul_mod in Hm by lia.
    - now rewrite Z.mul_1_r in Hm.
    - replace ((d - d') * -1) with (- (d - d')) in Hm by ring. now apply Z_mod_zero_opp_full in Hm; rewrite Z.opp_involutive in Hm. }
  apply Z.mod_divide in H0; [|lia]. destruct H0 as [q Hq].
  assert (q = 0) by nia. lia.
Qed.

Lemma off_inj s ex ey p q : hstat s ex ey -> off s p = off s q ->
  px p mod 2 ^ ex = px q mod 2 ^ ex /\ (py p mod 128) mod 3 ^ ey = (py q mod 128) mod 3 ^ ey.
Proof.
  intros H E.
  pose proof (pow2_bound ex (hs_ex _ _ _ H)) as P2b. pose proof (pow3_bound ey (hs_ey _ _ _ H)) as P3b.
  pose proof (hs_ex _ _ _ H). pose proof (hs_ey _ _ _ H). split.
  - apply rev_digits_inj; try lia.
    apply (pm_inj (3 ^ ey) (2 ^ ex) (px (h_inv s))); try lia; try (apply rev_digits_range; lia).
    + exact (hs_pmx _ _ _ H).
    + rewrite <- !(off_mod_x s ex ey) by auto. now rewrite E.
  - apply rev_digits_inj; try lia.
    apply (pm_inj (2 ^ ex) (3 ^ ey) (py (h_inv s))); try lia; try (apply rev_digits_range; lia).
    + exact (hs_pmy _ _ _ H).
    + rewrite <- !(off_mod_y s ex ey) by auto. now rewrite E.
Qed.

(** ** The index used for sample [i] of pixel [p] *)
Lemma next_n_eq {F} {FO : FOps F} m s0 ex ey p n : forall i d iv, hstat s0 ex ey -> 0 <= i ->
  off s0 p + (i + Z.of_nat n) * h_stride s0 < 2 ^ 32 ->
  exists d' iv', next_n (halton_ops (F := F) m) n (at_sample s0 p i d iv) = Ok (at_sample s0 p (i + Z.of_nat n) d' iv') /\
    (n = O -> iv' = iv) /\ (n <> O -> d' = 0 /\ iv' = off s0 p + (i + Z.of_nat n) * h_stride s0).
Proof.
  induction n as [|n IH]; intros i d iv H Hi Hf.
  - exists d, iv. cbn [next_n]. rewrite Z.add_0_r. split; auto. split; auto. congruence.
  - pose proof (off_range s0 ex ey p H). pose proof (stride_bound ex ey (hs_ex _ _ _ H) (hs_ey _ _ _ H)).
    pose proof (hs_stride _ _ _ H) as Hs.
    cbn [next_n halton_ops sm_next_sample]. 
    rewrite (next_sample_eq m s0 ex ey); auto; try nia. cbn [rbind].
    destruct (IH (i + 1) 0 (off s0 p + (i + 1) * h_stride s0) H) as (d' & iv' & E & G1 & G2); [lia|nia|].
    exists d', iv'. rewrite E. replace (i + 1 + Z.of_nat n) with (i + Z.of_nat (S n)) in * by lia.
    split; auto. split; [congruence|]. intros _. destruct n as [|n].
    + specialize (G1 eq_refl). cbn [next_n] in E. injection E as Ed Ei. subst iv' d'. split; auto.
    + apply G2. congruence.
Qed.

Lemma index_of {F} {FO : FOps F} m s0 ex ey p n s1 s2 s3 : hstat s0 ex ey -> hinv s0 s1 ->
  off s0 p + Z.of_nat n * h_stride s0 < 2 ^ 32 ->
  halton_start_pixel m s1 p = Ok s2 -> next_n (halton_ops (F := F) m) n s2 = Ok s3 ->
  h_interval s3 = off s0 p + Z.of_nat n * h_stride s0.
Proof.
  intros H I Hf E1 E2. rewrite (start_pixel_eq m s0 s1 ex ey p H I) in E1. injection E1 as <-.
  destruct (next_n_eq (F := F) m s0 ex ey p n 0 0 (off s0 p) H ltac:(lia) ltac:(lia)) as (d' & iv' & E & H1 & H2).
  rewrite E in E2. injection E2 as <-. cbn [h_interval at_sample].
  destruct n as [|n].
  - rewrite (H1 eq_refl). lia.
  - apply H2. congruence.
Qed.

Lemma index_exists {F} {FO : FOps F} m s0 ex ey p n s1 : hstat s0 ex ey -> hinv s0 s1 ->
  off s0 p + Z.of_nat n * h_stride s0 < 2 ^ 32 ->
  exists s2 s3, halton_start_pixel m s1 p = Ok s2 /\ next_n (halton_ops (F := F) m) n s2 = Ok s3 /\
    h_interval s3 = off s0 p + Z.of_nat n * h_stride s0.
Proof.
  intros H I Hf. pose proof (start_pixel_eq m s0 s1 ex ey p H I) as E1.
  destruct (next_n_eq (F := F) m s0 ex ey p n 0 0 (off s0 p) H ltac:(lia) ltac:(lia)) as (d' & iv' & E & _).
  eexists. eexists. split; [exact E1|]. split; [exact E|].
  eapply index_of; eauto.
Qed.

(** ** Signs of the inverses: exactly one axis is right when both scales are > 1 *)
Definition good_x (s : halton) (ex ey : Z) : Prop := (3 ^ ey * px (h_inv s)) mod 2 ^ ex = 1 mod 2 ^ ex.
Definition good_y (s : halton) (ex ey : Z) : Prop := (2 ^ ex * py (h_inv s)) mod 3 ^ ey = 1 mod 3 ^ ey.

Definition sign_specb (rx ry : res Z) (ex ey : Z) : bool :=
  match rx, ry with
  | Ok ix, Ok iy =>
      let gx := (3 ^ ey * ix) mod 2 ^ ex =? 1 mod 2 ^ ex in
      let gy := (2 ^ ex * iy) mod 3 ^ ey =? 1 mod 3 ^ ey in
      (gx || gy) && (if (0 <? ex) && (0 <? ey) then negb (gx && gy) else gx && gy)
  | _, _ => false
  end.

Lemma sign_check_all m ex ey : 0 <= ex <= 7 -> 0 <= ey <= 5 ->
  sign_specb (multiplicative_inverse m (3 ^ ey) (2 ^ ex)) (multiplicative_inverse m (2 ^ ex) (3 ^ ey)) ex ey = true.
Proof.
  intros Hx Hy. apply (forallb2 (fun ex ey => sign_specb (multiplicative_inverse m (3 ^ ey) (2 ^ ex)) (multiplicative_inverse m (2 ^ ex) (3 ^ ey)) ex ey) (zrange 0 8) (zrange 0 6)).
  - destruct m; vm_compute; reflexivity.
  - apply In_zrange; lia.
  - apply In_zrange; lia.
Qed.

Lemma sign_specb_ok rx ry ex ey ix iy : sign_specb rx ry ex ey = true -> rx = Ok ix -> ry = Ok iy ->
  let gx := (3 ^ ey * ix) mod 2 ^ ex = 1 mod 2 ^ ex in
  let gy := (2 ^ ex * iy) mod 3 ^ ey = 1 mod 3 ^ ey in
  (gx \/ gy) /\ (0 < ex -> 0 < ey -> ~ (gx /\ gy)) /\ (ex <= 0 \/ ey <= 0 -> gx /\ gy).
Proof.
  intros C -> ->. unfold sign_specb in C. apply andb_true_iff in C as [C1 C2]. cbv zeta.
  rewrite orb_true_iff, !Z.eqb_eq in C1. split; auto.
  destruct ((0 <? ex) && (0 <? ey)) eqn:E.
  - apply andb_true_iff in E as [Ea Eb]. split; [|lia]. intros _ _ [G1 G2].
    rewrite G1, G2, !Z.eqb_refl in C2. discriminate.
  - split; [lia|]. intros _. rewrite andb_true_iff, !Z.eqb_eq in C2. exact C2.
Qed.

Lemma halton_new_signs m spp b s0 ex ey :
  halton_new m spp b = Ok s0 -> hstat s0 ex ey ->
  (good_x s0 ex ey \/ good_y s0 ex ey) /\
  (0 < ex -> 0 < ey -> ~ (good_x s0 ex ey /\ good_y s0 ex ey)) /\
  (ex <= 0 \/ ey <= 0 -> good_x s0 ex ey /\ good_y s0 ex ey).
Proof.
  intros E H. unfold halton_new in E.
  destruct (bbox2_diagonal m b) as [d| |]; try discriminate. cbn [rbind] in E.
  destruct (scale_loop m 32 2 _ 1 0) as [[sx ex']| |]; try discriminate. cbn [rbind] in E.
  destruct (scale_loop m 32 3 _ 1 0) as [[sy ey']| |]; try discriminate. cbn [rbind] in E.
  destruct (u32_of m (sx * sy)) as [st| |]; try discriminate. cbn [rbind] in E.
  destruct (multiplicative_inverse m sy sx) as [ix| |] eqn:Ex; try discriminate. cbn [rbind] in E.
  destruct (multiplicative_inverse m sx sy) as [iy| |] eqn:Ey; try discriminate. cbn [rbind] in E.
  injection E as <-. destruct H as [Hx Hy He Hs _ _ _ _ _]. cbn in He, Hs. injection He as -> ->. injection Hs as -> ->.
  unfold good_x, good_y. cbn [h_inv px py].
  exact (sign_specb_ok _ _ _ _ _ _ (sign_check_all m ex ey Hx Hy) Ex Ey).
Qed.

Lemma off_good_x s ex ey p : hstat s ex ey -> good_x s ex ey -> off s p mod 2 ^ ex = rev_digits 2 ex (px p).
Proof.
  intros H G. pose proof (pow2_bound ex (hs_ex _ _ _ H)). pose proof (hs_ex _ _ _ H).
  rewrite (off_mod_x s ex ey) by auto. rewrite Z.mul_mod, G, <- Z.mul_mod, Z.mul_1_r by lia.
  apply Z.mod_small. apply rev_digits_range; lia.
Qed.
Lemma off_good_y s ex ey p : hstat s ex ey -> good_y s ex ey -> off s p mod 3 ^ ey = rev_digits 3 ey (py p mod 128).
Proof.
  intros H G. pose proof (pow3_bound ey (hs_ey _ _ _ H)). pose proof (hs_ey _ _ _ H).
  rewrite (off_mod_y s ex ey) by auto. rewrite Z.mul_mod, G, <- Z.mul_mod, Z.mul_1_r by lia.
  apply Z.mod_small. apply rev_digits_range; lia.
Qed.

(** index [off + i*stride] has reversed low digits equal to the pixel coordinate *)
Lemma cell_x s ex ey p i : hstat s ex ey -> good_x s ex ey ->
  rev_digits 2 ex (off s p + i * h_stride s) = px p mod 2 ^ ex.
Proof.
  intros H G. pose proof (pow2_bound ex (hs_ex _ _ _ H)). pose proof (hs_ex _ _ _ H).
  rewrite <- rev_digits_mod by lia. rewrite (hs_stride _ _ _ H).
  replace (i * (2 ^ ex * 3 ^ ey)) with (i * 3 ^ ey * 2 ^ ex) by ring. rewrite Z.mod_add by lia.
  rewrite (off_good_x s ex ey) by auto. apply rev_digits_invol; lia.
Qed.
Lemma cell_y s ex ey p i : hstat s ex ey -> good_y s ex ey ->
  rev_digits 3 ey (off s p + i * h_stride s) = (py p mod 128) mod 3 ^ ey.
Proof.
  intros H G. pose proof (pow3_bound ey (hs_ey _ _ _ H)). pose proof (hs_ey _ _ _ H).
  rewrite <- rev_digits_mod by lia. rewrite (hs_stride _ _ _ H).
  replace (i * (2 ^ ex * 3 ^ ey)) with (i * 2 ^ ex * 3 ^ ey) by ring. rewrite Z.mod_add by lia.
  rewrite (off_good_y s ex ey) by auto. apply rev_digits_invol; lia.
Qed.

(** and when the sign is wrong, they are not, for some pixel *)
Lemma rev_digits_one b e : 2 <= b -> 0 < e -> rev_digits b e (b ^ (e - 1)) = 1.
Proof.
  intros Hb He.
  assert (E : rev_digits b e 1 = b ^ (e - 1)).
  { unfold rev_digits. replace (Z.to_nat e) with (S (Z.to_nat (e - 1))) by lia. cbn [rev_acc].
    rewrite Z.div_small, Z.mod_small by lia. rewrite rev_acc_lin by auto. rewrite Z2Nat.id by lia.
    replace (rev_acc b (Z.to_nat (e - 1)) 0 0) with 0; [lia|].
    symmetry. apply (rev_digits_0 b (e - 1) Hb). }
  rewrite <- E, rev_digits_invol by lia. apply Z.mod_small. split; [lia|].
  apply Z.pow_gt_1; lia.
Qed.

Lemma bad_cell_x s ex ey p i : hstat s ex ey -> 0 < ex -> ~ good_x s ex ey -> px p = 2 ^ (ex - 1) ->
  rev_digits 2 ex (off s p + i * h_stride s) <> px p.
Proof.
  intros H Hp G Ep E. pose proof (pow2_bound ex (hs_ex _ _ _ H)). pose proof (hs_ex _ _ _ H).
  apply (f_equal (rev_digits 2 ex)) in E. rewrite rev_digits_invol in E by lia.
  rewrite (hs_stride _ _ _ H) in E. replace (i * (2 ^ ex * 3 ^ ey)) with (i * 3 ^ ey * 2 ^ ex) in E by ring. rewrite Z.mod_add in E by lia.
  rewrite (off_mod_x s ex ey) in E by auto. rewrite Ep, rev_digits_one, Z.mul_1_l in E by lia.
  apply G. unfold good_x. rewrite E. symmetry. apply Z.mod_small. split; [lia|]. apply Z.pow_gt_1; lia.
Qed.
Lemma bad_cell_y s ex ey p i : hstat s ex ey -> 0 < ey -> ~ good_y s ex ey -> py p = 3 ^ (ey - 1) -> py p < 128 ->
  rev_digits 3 ey (off s p + i * h_stride s) <> py p.
Proof.
  intros H Hp G Ep Hlt E. pose proof (pow3_bound ey (hs_ey _ _ _ H)). pose proof (hs_ey _ _ _ H).
  apply (f_equal (rev_digits 3 ey)) in E. rewrite rev_digits_invol in E by lia.
  rewrite (hs_stride _ _ _ H) in E. replace (i * (2 ^ ex * 3 ^ ey)) with (i * 2 ^ ex * 3 ^ ey) in E by ring. rewrite Z.mod_add in E by lia.
  assert (0 < 3 ^ (ey - 1)) by (apply Z.pow_pos_nonneg; lia).
  rewrite (off_mod_y s ex ey) in E by auto. rewrite (Z.mod_small (py p) 128) in E by lia.
  rewrite Ep, rev_digits_one, Z.mul_1_l in E by lia.
  apply G. unfold good_y. rewrite E. symmetry. apply Z.mod_small. split; [lia|]. apply Z.pow_gt_1; lia.
Qed.
