(** * C94: the samples of a pixel are spread evenly *)
From Coq Require Import ZArith Reals List Bool Lia Lra Psatz ZifyBool Znumtheory Zpow_facts.
From Flocq Require Import Core.Raux.
From Verif Require Import Model.Num Model.NumX Model.NumB Model.Vector Model.Common Model.BBox Model.HaltonTable Model.Sampler.
From Verif Require Import Spec.HaltonSpec Spec.SamplerSpec Spec.StratSpec Proofs.XBase Proofs.FLaws Proofs.Halton Proofs.HaltonState Proofs.HaltonCRT.
From Verif Require Import Props.HaltonProps Props.Dimensions.
Import ListNotations.
Local Open Scope Z_scope.

(** ** the digits of one number *)
Lemma mirrored_0 b k : 2 <= b -> mirrored b 0 k = 0%R.
Proof.
  intros Hb. induction k as [|k IH]; [reflexivity|]. rewrite mirrored_S, Zmod_0_l, Zdiv_0_l, IH by exact Hb.
  assert (0 < IZR b)%R by (apply IZR_lt; lia). field. lra.
Qed.
Lemma mirrored_more b a n k : 2 <= b -> 0 <= a < b ^ Z.of_nat n -> mirrored b a (n + k) = mirrored b a n.
Proof.
  intros Hb Ha. pose proof (mirrored_split b n k a Hb) as E. rewrite (Z.div_small a) in E by lia. rewrite mirrored_0 in E by exact Hb.
  rewrite rev_acc_mirrored in E by exact Hb. assert (0 < IZR (b ^ Z.of_nat n))%R by (apply IZR_lt; lia). nra.
Qed.

Lemma radical_room m b a d : 2 <= b -> 0 <= d -> 0 <= a < b ^ d -> b ^ d < 2 ^ 32 ->
  exists n, (forall k, mirrored b a (n + k) = mirrored b a n) /\ radical_inverse (F := XR) m b a = Ok (XFin (Rmin (1 - / 8388608) (mirrored b a n))).
Proof.
  intros Hb Hd Ha Hf. destruct (digit_count_exists_fuel b 32 a Hb ltac:(cbn; lia)) as (n & Hc & _).
  assert (L : b ^ Z.of_nat n < 2 ^ 32).
  { destruct n as [|n]; [cbn; lia|]. destruct Hc as [_ Hc]. specialize (Hc ltac:(congruence)). cbn [pred] in Hc.
    assert (Z.of_nat n < d) by (apply (Z.pow_lt_mono_r_iff b); lia). assert (b ^ Z.of_nat (S n) <= b ^ d) by (apply Z.pow_le_mono_r; lia). lia. }
  exists n. split; [intros k; apply mirrored_more; auto; destruct Hc; lia|]. apply C14_digit_reversal_exact; auto. lia.
Qed.

(** in which part of the unit interval the mirror image of [a] lies *)
Lemma part_iff m (sd : side) a d v : 2 <= sd_base sd -> 0 <= sd_exp sd -> parts sd <= 2 ^ 23 -> 0 <= sd_cell sd < parts sd ->
  0 <= d -> 0 <= a < sd_base sd ^ d -> sd_base sd ^ d < 2 ^ 32 -> radical_inverse m (sd_base sd) a = Ok v ->
  (in_part sd v <-> a mod parts sd = rev_digits (sd_base sd) (sd_exp sd) (sd_cell sd)).
Proof.
  intros Hb He HB Hj Hd Ha Hf Ev. destruct (radical_room m _ a d Hb Hd Ha Hf) as (n & Hn & Er). unfold parts in *. set (b := sd_base sd) in *. set (e := sd_exp sd) in *. set (j := sd_cell sd) in *.
  assert (v = XFin (Rmin (1 - / 8388608) (mirrored b a n))) as -> by congruence. clear Ev Er.
  pose proof (mirrored_cell b e a (n + Z.to_nat e) Hb He ltac:(lia)) as M. rewrite Hn in M. set (x := mirrored b a n) in *.
  pose proof (rev_digits_range b e a Hb He) as Rg. set (r := rev_digits b e a) in *.
  assert (B1 : (1 <= IZR (b ^ e))%R) by (apply IZR_le; lia). assert (B2 : (IZR (b ^ e) <= 8388608)%R) by (apply IZR_le; exact HB).
  set (B := IZR (b ^ e)) in *.
  assert (M' : (IZR r <= B * Rmin (1 - / 8388608) x < IZR r + 1)%R).
  { assert (IZR r <= B - 1)%R by (unfold B; rewrite <- minus_IZR; apply IZR_le; lia). unfold Rmin. destruct (Rle_dec _ x); [|lra]. split; nra. }
  assert (R1 : a mod b ^ e = rev_digits b e r) by (unfold r; now rewrite rev_digits_invol).
  rewrite R1. split.
  - intros (y & Ey & Y1 & Y2). fold (parts sd) in *. unfold parts in Y1, Y2. fold b e j B in Y1, Y2. assert (y = Rmin (1 - / 8388608) x) by congruence. subst y.
    apply (Rmult_le_compat_r B) in Y1; [|lra]. apply (Rmult_lt_compat_r B) in Y2; [|lra]. unfold Rdiv in Y1, Y2. rewrite Rmult_assoc, Rinv_l, Rmult_1_r in Y1, Y2 by lra.
    assert (A : (IZR j < IZR (r + 1))%R) by (rewrite plus_IZR; lra). assert (C : (IZR r < IZR (j + 1))%R) by (rewrite plus_IZR; lra).
    apply lt_IZR in A, C. f_equal. lia.
  - intros E. apply rev_digits_inj in E; auto. rewrite !Z.mod_small in E by lia. subst r. eexists. split; [reflexivity|]. unfold parts. fold b e j B. rewrite E in M'.
    split; apply (Rmult_le_reg_r B) || apply (Rmult_lt_reg_r B); try lra; unfold Rdiv; rewrite Rmult_assoc, Rinv_l, Rmult_1_r by lra; lra.
Qed.

(** ** many congruences at once *)
Definition cong (x : Z) (t : Z * Z) : Prop := x mod snd t = fst t mod snd t.
Definition prod (l : list (Z * Z)) : Z := fold_right Z.mul 1 (map snd l).
Fixpoint coprimes (l : list (Z * Z)) : Prop :=
  match l with [] => True | t :: l => (forall u, In u l -> rel_prime (snd t) (snd u)) /\ coprimes l end.
Lemma prod_pos l : (forall t, In t l -> 0 < snd t) -> 0 < prod l.
Proof.
  induction l as [|t l IH]; intros H; [reflexivity|]. unfold prod in *. cbn [map fold_right]. pose proof (H t (or_introl eq_refl)).
  specialize (IH (fun u Hu => H u (or_intror Hu))). nia.
Qed.
Lemma prod_coprime c l : (forall u, In u l -> rel_prime c (snd u)) -> rel_prime c (prod l).
Proof.
  induction l as [|t l IH]; intros H; unfold prod in *; cbn [map fold_right].
  - apply rel_prime_sym, rel_prime_1.
  - apply rel_prime_mult; [apply H; now left|apply IH; intros u Hu; apply H; now right].
Qed.
Lemma mod_eq_divide a b n : 0 < n -> (a mod n = b mod n <-> (n | a - b)).
Proof.
  intros Hn. split.
  - intros E. apply Z.mod_divide; [lia|]. rewrite Zminus_mod, E, Z.sub_diag. apply Zmod_0_l.
  - intros [k E]. replace a with (b + k * n) by lia. apply Z_mod_plus_full.
Qed.
Lemma crt l : (forall t, In t l -> 0 < snd t) -> coprimes l -> exists x, forall y, (forall t, In t l -> cong y t) <-> y mod prod l = x mod prod l.
Proof.
  induction l as [|[r c] l IH]; intros Hp Hc.
  - exists 0. intros y. unfold prod. cbn. rewrite !Z.mod_1_r. split; auto. intros _ t [].
  - destruct Hc as [Hc1 Hc2]. destruct IH as [x Hx]; [intros; apply Hp; now right|exact Hc2|].
    assert (Pc : 0 < c) by (apply (Hp (r, c)); now left). assert (Pp : 0 < prod l) by (apply prod_pos; intros; apply Hp; now right).
    pose proof (prod_coprime c l Hc1) as Rp. destruct (rel_prime_bezout _ _ Rp) as [u v Huv].
    exists (x * (u * c) + r * (v * prod l)). intros y. change (prod ((r, c) :: l)) with (c * prod l).
    assert (X1 : (c | x * (u * c) + r * (v * prod l) - r)) by (exists (x * u - r * u); replace (v * prod l) with (1 - u * c) by lia; ring).
    assert (X2 : (prod l | x * (u * c) + r * (v * prod l) - x)) by (exists (r * v - x * v); replace (u * c) with (1 - v * prod l) by lia; ring).
    rewrite mod_eq_divide by nia. set (z := x * (u * c) + r * (v * prod l)) in *. split.
    + intros H. assert (H1 : (c | y - r)) by (apply mod_eq_divide; [exact Pc|]; apply (H (r, c)); now left).
      assert (H2 : (prod l | y - x)) by (apply mod_eq_divide; [exact Pp|]; apply Hx; intros t Ht; apply H; now right).
      assert (D1 : (c | y - z)) by (replace (y - z) with ((y - r) - (z - r)) by lia; now apply Z.divide_sub_r).
      assert (D2 : (prod l | y - z)) by (replace (y - z) with ((y - x) - (z - x)) by lia; now apply Z.divide_sub_r).
      destruct D2 as [q Eq]. rewrite Eq in D1. rewrite Z.mul_comm in D1. apply Gauss in D1; [|exact Rp]. destruct D1 as [q' Eq']. exists q'. rewrite Eq, Eq'. ring.
    + intros [q Eq] t [<-|Ht].
      * unfold cong. cbn [fst snd]. apply mod_eq_divide; [exact Pc|]. replace (y - r) with ((y - z) + (z - r)) by lia. apply Z.divide_add_r; [|exact X1]. exists (q * prod l). lia.
      * revert t Ht. apply Hx. apply mod_eq_divide; [exact Pp|]. replace (y - x) with ((y - z) + (z - x)) by lia. apply Z.divide_add_r; [|exact X2]. exists (q * c). lia.
Qed.
Lemma one_in_run N x n0 : 0 < N -> 0 <= n0 -> exists n : nat, (n0 <= Z.of_nat n < n0 + N /\ Z.of_nat n mod N = x mod N) /\
  forall k : nat, n0 <= Z.of_nat k < n0 + N /\ Z.of_nat k mod N = x mod N -> k = n.
Proof.
  intros HN H0. set (y := n0 + (x - n0) mod N). pose proof (Z.mod_pos_bound (x - n0) N HN) as B.
  exists (Z.to_nat y). rewrite Z2Nat.id by (unfold y; lia). split.
  - split; [unfold y; lia|]. unfold y. rewrite Zplus_mod_idemp_r. f_equal. lia.
  - intros k [K1 K2]. assert (D : (N | Z.of_nat k - y)).
    { apply mod_eq_divide; [exact HN|]. rewrite K2. unfold y. rewrite Zplus_mod_idemp_r. f_equal. lia. }
    destruct D as [q Eq]. assert (q = 0) by (unfold y in *; nia). lia.
Qed.

(** ** the sampler *)
Section S.
  Variables (spp : Z) (b : bbox2) (w h : Z) (s0 : halton).
  Hypothesis Ha : area b w h.
  Hypothesis E0 : halton_new Release spp b = Ok s0.
  Notation sm := (halton_ops (F := XR) Release).

  Lemma next_n_begun (m : build) s : forall n s1 s2, halton_start_pixel m s (h_pixel s1) = Ok s1 \/ True -> begun (F := XR) m s1 -> next_n (halton_ops (F := XR) m) n s1 = Ok s2 -> begun (F := XR) m s2.
  Proof.
    induction n as [|n IH]; intros s1 s2 _ B; cbn [next_n].
    - intros E. assert (s1 = s2) as <- by congruence. exact B.
    - cbn [halton_ops sm_next_sample]. destruct (halton_next_sample m s1) as [[c t]| |] eqn:E; cbn [rbind]; try discriminate. apply IH; [now right|]. right. eauto.
  Qed.
  Lemma next_n_reach n : forall s1 s2 s, reach sm s s1 -> next_n sm n s1 = Ok s2 -> reach sm s s2.
  Proof.
    induction n as [|n IH]; intros s1 s2 s R; cbn [next_n]; [congruence|].
    destruct (sm_next_sample sm s1) as [[c t]| |] eqn:E; cbn [rbind]; try discriminate. apply IH. eapply reach_next; eauto.
  Qed.

  (** what is mirrored in dimension [k] grows by a fixed step from sample to sample *)
  Definition step_in (ex ey : Z) (k : nat) : Z := match k with O => 3 ^ ey | S O => 2 ^ ex | _ => 2 ^ ex * 3 ^ ey end.
  Definition first_in (ex ey : Z) (p : P2 Z) (k : nat) : Z := match k with O => off s0 p / 2 ^ ex | S O => off s0 p / 3 ^ ey | _ => off s0 p end.

  Lemma gives_iff ex ey s p n k v : hstat s0 ex ey -> reach sm s0 s -> off s0 p + Z.of_nat n * h_stride s0 < 2 ^ 32 -> (k < 1024)%nat ->
    (gives sm s p n k v <-> exists c, nth_error halton_bases k = Some c /\ radical_inverse Release c (first_in ex ey p k + Z.of_nat n * step_in ex ey k) = Ok v).
  Proof.
    intros H R Hf Hk. destruct (new_state Release spp b w h s0 Ha E0) as (ex' & ey' & H' & I0 & _).
    assert (ex' = ex /\ ey' = ey) as [-> ->] by (pose proof (hs_exp _ _ _ H); pose proof (hs_exp _ _ _ H'); split; congruence). clear H'.
    pose proof (hinv_reach Release s0 ex ey s H I0 R) as I.
    pose proof (pow2_bound ex (hs_ex _ _ _ H)) as P2b. pose proof (pow3_bound ey (hs_ey _ _ _ H)) as P3b.
    assert (Mi : forall s2, hinv s0 s2 -> h_interval s2 = off s0 p + Z.of_nat n * h_stride s0 -> mirrored_in s2 k = first_in ex ey p k + Z.of_nat n * step_in ex ey k).
    { intros s2 I2 Ei. unfold mirrored_in, first_in, step_in. rewrite Ei, (hi_exp _ _ I2), (hi_scale _ _ I2), (hs_exp _ _ _ H), (hs_scale _ _ _ H), (hs_stride _ _ _ H). cbn [px py].
      destruct k as [|[|k]]; [| |reflexivity].
      - replace (off s0 p + Z.of_nat n * (2 ^ ex * 3 ^ ey)) with (off s0 p + (Z.of_nat n * 3 ^ ey) * 2 ^ ex) by ring. now rewrite Z_div_plus_full by lia.
      - replace (off s0 p + Z.of_nat n * (2 ^ ex * 3 ^ ey)) with (off s0 p + (Z.of_nat n * 2 ^ ex) * 3 ^ ey) by ring. now rewrite Z_div_plus_full by lia. }
    split.
    - intros (s1 & s2 & cs & al & s3 & E1 & E2 & Nc & E3 & Ev). cbn [halton_ops sm_start_pixel] in E1.
      assert (B : begun (F := XR) Release s2) by (apply (next_n_begun Release s n s1 s2); [now right|left; eauto|exact E2]).
      assert (R2 : reach sm s0 s2) by (eapply next_n_reach; [|exact E2]; eapply reach_start; [exact R|exact E1]).
      pose proof (hinv_reach Release s0 ex ey s2 H I0 R2) as I2.
      assert (Ei : h_interval s2 = off s0 p + Z.of_nat n * h_stride s0) by (exact (index_of (F := XR) Release s0 ex ey p n s s1 s2 H I Hf E1 E2)).
      rewrite <- (Mi s2 I2 Ei). apply (C78_own_dimension XR _ Release s2 cs al s3 B); auto.
      rewrite (hi_exp _ _ I2), (hs_exp _ _ _ H). cbn [px]. pose proof (hs_ex _ _ _ H). lia.
    - intros (c & Hc & Er). destruct (index_exists (F := XR) Release s0 ex ey p n s H I Hf) as (s1 & s2 & E1 & E2 & Ei).
      assert (B : begun (F := XR) Release s2) by (apply (next_n_begun Release s n s1 s2); [now right|left; eauto|exact E2]).
      assert (R2 : reach sm s0 s2) by (eapply next_n_reach; [|exact E2]; eapply reach_start; [exact R|exact E1]).
      pose proof (hinv_reach Release s0 ex ey s2 H I0 R2) as I2.
      assert (D2 : h_dim s2 = 0) by (apply (begun_dim (F := XR) Release); exact B).
      assert (T : forall j t, reach sm s0 t -> 0 <= h_dim t -> h_dim t + Z.of_nat j <= 1024 -> exists al t', ask_all sm (repeat C1D j) t = Ok (al, t') /\ length (numbers_of al) = j).
      { induction j as [|j IH]; intros t Rt Dt Bt; cbn [repeat ask_all]; [exists [], t; auto|]. cbn [ask].
        destruct (C13_get_1d_in_unit XR _ _ Release spp b w h s0 t Ha E0 Rt) as (_ & _ & G & _). destruct (G eq_refl ltac:(lia)) as (x & t1 & Et).
        assert (Rt1 : reach sm s0 t1) by (eapply reach_1d; [exact Rt|exact Et]).
        assert (Dt1 : h_dim t1 = h_dim t + 1).
        { revert Et. unfold halton_get_1d. destruct (sample_dimension _ _ _ _); cbn [rbind]; try discriminate. rewrite u32_of_ok by lia. cbn [rbind]. intros E. assert (t1 = halton_set_dim t (h_dim t + 1)) as -> by congruence. reflexivity. }
        destruct (IH t1 Rt1 ltac:(lia) ltac:(lia)) as (al & t' & E & L). cbn [halton_ops sm_get_1d]. rewrite Et. cbn [rbind]. rewrite E. cbn [rbind]. exists (A1D x :: al), t'. split; [reflexivity|].
        unfold numbers_of in *. cbn [flat_map app length]. lia. }
      destruct (T (S k) s2 R2 ltac:(lia) ltac:(lia)) as (al & s3 & E3 & L).
      assert (Nc : ~ In CNext (repeat C1D (S k))) by (intros Hin; apply repeat_spec in Hin; discriminate).
      destruct (nth_error (numbers_of al) k) as [v'|] eqn:Ev; [|apply nth_error_None in Ev; lia].
      destruct (C78_own_dimension XR _ Release s2 (repeat C1D (S k)) al s3 B) with (k := k) (v := v') as (c' & Hc' & Er'); auto.
      { rewrite (hi_exp _ _ I2), (hs_exp _ _ _ H). cbn [px]. pose proof (hs_ex _ _ _ H). lia. }
      rewrite (Mi s2 I2 Ei) in Er'. assert (v' = v) by congruence. subst v'. exists s1, s2, (repeat C1D (S k)), al, s3. auto.
  Qed.

  Lemma step_coprime ex ey k c : hstat s0 ex ey -> nth_error halton_bases k = Some c -> rel_prime c (step_in ex ey k).
  Proof.
    intros H Hc. pose proof (hs_ex _ _ _ H). pose proof (hs_ey _ _ _ H).
    assert (C2 : k <> O -> rel_prime c (2 ^ ex)) by (intros N; apply rel_prime_Zpower_r; [lia|]; apply (C15_bases_coprime k 0 c 2 Hc eq_refl N)).
    assert (C3 : k <> 1%nat -> rel_prime c (3 ^ ey)) by (intros N; apply rel_prime_Zpower_r; [lia|]; apply (C15_bases_coprime k 1 c 3 Hc eq_refl N)).
    destruct k as [|[|k]]; cbn [step_in]; auto. apply rel_prime_mult; auto.
  Qed.
End S.

(** Of the samples of a pixel, any that come one after the other and are as many as there are boxes of some shape, exactly
    one falls into each box: the sides of the box are parts of the unit interval in any choice of dimensions, in
    dimension k the unit interval being cut into a power of the k-th prime number. *)
Theorem C94_even_spread_partial : forall spp b w h s0 s p (n0 : nat) l,
  area b w h -> halton_new Release spp b = Ok s0 -> reach (halton_ops (F := XR) Release) s0 s ->
  NoDup (map sd_dim l) ->
  (forall d, In d l -> nth_error halton_bases (sd_dim d) = Some (sd_base d) /\ 0 <= sd_exp d /\ 0 <= sd_cell d < parts d /\
     parts d <= 2 ^ 23 /\ room (h_stride s0) (sd_base d) (Z.of_nat n0 + boxes l)) ->
  exists! n, (Z.of_nat n0 <= Z.of_nat n < Z.of_nat n0 + boxes l) /\ in_box (halton_ops (F := XR) Release) s p l n.
Proof.
  intros spp b w h s0 s p n0 l Ha E0 R Nd Hl.
  destruct (new_state Release spp b w h s0 Ha E0) as (ex & ey & H & I0 & _).
  pose proof (off_range s0 ex ey p H) as Op. rewrite <- (hs_stride _ _ _ H) in Op.
  pose proof (stride_bound ex ey (hs_ex _ _ _ H) (hs_ey _ _ _ H)) as Hst. rewrite <- (hs_stride _ _ _ H) in Hst.
  pose proof (pow2_bound ex (hs_ex _ _ _ H)) as P2b. pose proof (pow3_bound ey (hs_ey _ _ _ H)) as P3b.
  assert (Pr : forall d, In d l -> 2 <= sd_base d /\ 0 < parts d).
  { intros d Hd. destruct (Hl d Hd) as (Hb & He & _). assert (2 <= sd_base d) by (destruct (bases_first_primes _ _ Hb) as (Hp & _); now apply prime_ge_2).
    split; [lia|]. apply Z.pow_pos_nonneg; lia. }
  assert (Fi : forall d n, In d l -> Z.of_nat n0 <= Z.of_nat n < Z.of_nat n0 + boxes l ->
    exists v, gives (halton_ops (F := XR) Release) s p n (sd_dim d) v /\ (forall v', gives (halton_ops (F := XR) Release) s p n (sd_dim d) v' -> v' = v) /\
      (in_part d v <-> (first_in s0 ex ey p (sd_dim d) + Z.of_nat n * step_in ex ey (sd_dim d)) mod parts d = rev_digits (sd_base d) (sd_exp d) (sd_cell d))).
  { intros d n Hd Hn. destruct (Hl d Hd) as (Hb & He & Hj & H23 & (dg & Dg & Rm1 & Rm2)). destruct (Pr d Hd) as [B2 _].
    assert (Hk : (sd_dim d < 1024)%nat) by (rewrite <- bases_length; apply nth_error_Some; congruence).
    assert (Hf : off s0 p + Z.of_nat n * h_stride s0 < sd_base d ^ dg) by nia.
    set (a := first_in s0 ex ey p (sd_dim d) + Z.of_nat n * step_in ex ey (sd_dim d)).
    assert (Ba : 0 <= a < sd_base d ^ dg).
    { assert (0 <= a <= off s0 p + Z.of_nat n * h_stride s0); [|lia]. unfold a. rewrite (hs_stride _ _ _ H).
      assert (D2 : 0 <= off s0 p / 2 ^ ex <= off s0 p) by (split; [apply Z.div_pos; lia|apply Z.div_le_upper_bound; nia]).
      assert (D3 : 0 <= off s0 p / 3 ^ ey <= off s0 p) by (split; [apply Z.div_pos; lia|apply Z.div_le_upper_bound; nia]).
      assert (G : 3 ^ ey <= 2 ^ ex * 3 ^ ey /\ 2 ^ ex <= 2 ^ ex * 3 ^ ey) by nia.
      destruct (sd_dim d) as [|[|k]]; cbn [first_in step_in]; nia. }
    destruct (radical_room Release (sd_base d) a dg B2 Dg Ba Rm2) as (N & _ & Er).
    exists (XFin (Rmin (1 - / 8388608) (mirrored (sd_base d) a N))). split; [|split].
    - apply (gives_iff spp b w h s0 Ha E0 ex ey); auto; [lia|]. exists (sd_base d). auto.
    - intros v' G. apply (gives_iff spp b w h s0 Ha E0 ex ey) in G; auto; [|lia]. destruct G as (c & Ec & Er'). assert (c = sd_base d) as -> by congruence. fold a in Er'. congruence.
    - apply (part_iff Release d a dg); auto. }
  (* the sample number that solves one congruence *)
  assert (Inv : forall d, In d l -> exists r, forall y, (first_in s0 ex ey p (sd_dim d) + y * step_in ex ey (sd_dim d)) mod parts d = rev_digits (sd_base d) (sd_exp d) (sd_cell d) <-> y mod parts d = r mod parts d).
  { intros d Hd.
    destruct (Hl d Hd) as (Hb & He & Hj & _). destruct (Pr d Hd) as [B2 Pp]. pose proof (step_coprime s0 ex ey _ _ H Hb) as Rp.
    assert (Rq : rel_prime (parts d) (step_in ex ey (sd_dim d))) by (apply rel_prime_sym, rel_prime_Zpower_r; [exact He|]; now apply rel_prime_sym).
    set (t := rev_digits (sd_base d) (sd_exp d) (sd_cell d)). set (f := first_in s0 ex ey p (sd_dim d)). set (g := step_in ex ey (sd_dim d)) in *.
    assert (Ht : 0 <= t < parts d) by (apply rev_digits_range; auto).
    destruct (rel_prime_bezout _ _ Rq) as [u v Huv]. exists ((t - f) * v). intros y.
    rewrite <- (Z.mod_small t (parts d)) at 1 by exact Ht. rewrite !mod_eq_divide by exact Pp. split.
    - intros D. assert (D' : (parts d | g * (y - (t - f) * v))).
      { replace (g * (y - (t - f) * v)) with ((f + y * g - t) + (t - f) * u * parts d).
        + apply Z.divide_add_r; [exact D|]. exists ((t - f) * u). reflexivity.
        + assert (Q : v * g = 1 - u * parts d) by lia. replace (g * (y - (t - f) * v)) with (g * y - (t - f) * (v * g)) by ring. rewrite Q. ring. }
      apply Gauss in D'; auto.
    - intros [q Eq]. exists (g * q - (t - f) * u). replace y with ((t - f) * v + q * parts d) by lia. assert (Q : v * g = 1 - u * parts d) by lia. replace (f + ((t - f) * v + q * parts d) * g - t) with (f - t + (t - f) * (v * g) + q * parts d * g) by ring. rewrite Q. ring. }
  assert (Pick : exists rs : side -> Z, forall d, In d l -> forall y, (first_in s0 ex ey p (sd_dim d) + y * step_in ex ey (sd_dim d)) mod parts d = rev_digits (sd_base d) (sd_exp d) (sd_cell d) <-> y mod parts d = rs d mod parts d).
  { clear -Inv Nd. induction l as [|d l IH]; [exists (fun _ => 0); intros d []|].
    inversion Nd as [|? ? Nd1 Nd2]; subst. destruct IH as [rs Hrs]; [exact Nd2|intros x Hx; apply Inv; now right|].
    destruct (Inv d (or_introl eq_refl)) as [r Hr]. exists (fun x => if Nat.eqb (sd_dim x) (sd_dim d) then r else rs x). intros x [<-|Hx].
    - rewrite Nat.eqb_refl. apply Hr.
    - replace (Nat.eqb (sd_dim x) (sd_dim d)) with false; [now apply Hrs|]. symmetry. apply Nat.eqb_neq. intros E. apply Nd1. rewrite <- E. now apply in_map. }
  destruct Pick as [rs Hrs].
  set (cs := map (fun d => (rs d, parts d)) l).
  assert (Ep : prod cs = boxes l) by (unfold prod, boxes, cs; now rewrite map_map).
  assert (Pc : forall t, In t cs -> 0 < snd t) by (intros t Ht; apply in_map_iff in Ht as (d & <- & Hd); apply (Pr d Hd)).
  assert (Cc : coprimes cs).
  { assert (Co : forall d e, In d l -> In e l -> sd_dim d <> sd_dim e -> rel_prime (parts d) (parts e)).
    { intros d e Hd He N. destruct (Hl d Hd) as (Bd & Ed & _). destruct (Hl e He) as (Be & Ee & _). apply rel_prime_Zpower; auto. eapply C15_bases_coprime; eauto. }
    clear -Co Nd. unfold cs. clear cs. induction l as [|d l IH]; cbn [map coprimes]; [exact I|]. inversion Nd as [|? ? Nd1 Nd2]; subst. split.
    - intros u Hu. apply in_map_iff in Hu as (e & <- & He). cbn [snd]. apply Co; [now left|now right|]. intros E. apply Nd1. rewrite E. now apply in_map.
    - apply IH; auto. intros x y Hx Hy. apply Co; now right. }
  destruct (crt cs Pc Cc) as [x Hx]. rewrite Ep in Hx.
  assert (Pb : 0 < boxes l) by (rewrite <- Ep; now apply prod_pos).
  assert (Bx : forall n, Z.of_nat n0 <= Z.of_nat n < Z.of_nat n0 + boxes l -> (in_box (halton_ops (F := XR) Release) s p l n <-> Z.of_nat n mod boxes l = x mod boxes l)).
  { intros n Hn. rewrite <- Hx. split.
    - intros G t Ht. apply in_map_iff in Ht as (d & <- & Hd). unfold cong. cbn [fst snd]. apply (Hrs d Hd). destruct (Fi d n Hd Hn) as (v & _ & U & F1).
      destruct (G d Hd) as (v' & Gv & Pv). rewrite (U v' Gv) in Pv. now apply F1.
    - intros G d Hd. destruct (Fi d n Hd Hn) as (v & Gv & _ & F1). exists v. split; [exact Gv|]. apply F1. apply (Hrs d Hd). apply (G (rs d, parts d)). unfold cs. apply in_map_iff. eauto. }
  destruct (one_in_run (boxes l) x (Z.of_nat n0) Pb ltac:(lia)) as (n & (N1 & N2) & Un).
  exists n. split; [split; [exact N1|]; now apply Bx|]. intros k [K1 K2]. symmetry. apply Un. split; [exact K1|]. now apply Bx.
Qed.
Print Assumptions C94_even_spread_partial.

(** a film of 644 x 484 samples; four columns, fifths of the third number and nineteenths of the eighth: 380 boxes *)
Definition ex_sampler : halton := match halton_new Release 500 ex_area with Ok s => s | _ => ex_new end.
Example C94_example : area ex_area 644 484 /\ halton_new Release 500 ex_area = Ok ex_sampler /\
  let l := [mkSide 0 2 2 3; mkSide 2 5 1 2; mkSide 7 19 1 0] in
  NoDup (map sd_dim l) /\ boxes l = 380 /\
  (forall d, In d l -> nth_error halton_bases (sd_dim d) = Some (sd_base d) /\ 0 <= sd_exp d /\ 0 <= sd_cell d < parts d /\
     parts d <= 2 ^ 23 /\ room (h_stride ex_sampler) (sd_base d) (Z.of_nat 10 + boxes l)).
Proof.
  split; [unfold area; cbn; lia|]. split; [vm_compute; reflexivity|]. split; [|split; [reflexivity|]].
  - cbn. repeat constructor; cbn; lia.
  - assert (Es : h_stride ex_sampler = 31104) by (vm_compute; reflexivity). rewrite Es.
    intros d [<-|[<-|[<-|[]]]]; cbn [sd_dim sd_base sd_exp sd_cell parts]; (split; [reflexivity|]); (split; [lia|]); (split; [vm_compute; split; congruence|]);
      (split; [vm_compute; congruence|]); [exists 31|exists 13|exists 7]; (split; [lia|]); vm_compute; split; congruence.
Qed.

(** Without room for the digits the claim is false: 1627^3 does not fit 32 bits, and on every film at least 65 samples wide
    and 82 high the samples 86 to 228 of pixel (0,0) all give the same number 1 - 2^-23 in dimension 257, where one in
    each of the 1627 parts is due. *)
Theorem C94_refuted : forall spp b w h s0, area b w h -> 65 <= w -> 82 <= h -> halton_new Release spp b = Ok s0 ->
  exists d, In d [mkSide 257 1627 1 1626] /\ nth_error halton_bases (sd_dim d) = Some (sd_base d) /\ 0 <= sd_cell d < parts d /\ parts d <= 2 ^ 23 /\
    forall n, (86 <= n < 229)%nat -> Z.of_nat n < boxes [d] /\ in_box (halton_ops (F := XR) Release) s0 (mkP2 0 0) [d] n /\
      gives (halton_ops (F := XR) Release) s0 (mkP2 0 0) n 257 (XFin (1 - / 8388608)).
Proof.
  intros spp b w h s0 Ha Hw Hh E0. exists (mkSide 257 1627 1 1626). split; [now left|]. split; [reflexivity|]. split; [vm_compute; split; congruence|]. split; [vm_compute; congruence|].
  destruct (new_state Release spp b w h s0 Ha E0) as (ex & ey & H & I0 & _ & X & Y).
  assert (Ex : ex = 7).
  { pose proof (hs_ex _ _ _ H). destruct X as [X1 _]. destruct (Z_lt_le_dec ex 7) as [L|L]; [|lia]. assert (2 ^ ex <= 2 ^ 6) by (apply Z.pow_le_mono_r; lia). lia. }
  assert (Ey : ey = 5).
  { pose proof (hs_ey _ _ _ H). destruct Y as [Y1 _]. destruct (Z_lt_le_dec ey 5) as [L|L]; [|lia]. assert (3 ^ ey <= 3 ^ 4) by (apply Z.pow_le_mono_r; lia). lia. }
  subst ex ey. pose proof (hs_stride _ _ _ H) as Es. change (2 ^ 7 * 3 ^ 5) with 31104 in Es. pose proof (off_0 s0 7 5 H) as O0.
  assert (Chk : forallb (fun n => match radical_loop Release 32 1627 (Z.of_nat n * 31104) 0 1 with
      Ok (x, bn) => (0 <? bn) && (bn * 8388607 <=? x * 8388608) | _ => false end) (seq 86 143) = true) by (vm_compute; reflexivity).
  rewrite forallb_forall in Chk. intros n Hn. specialize (Chk n ltac:(apply in_seq; lia)).
  assert (G : gives (halton_ops (F := XR) Release) s0 (mkP2 0 0) n 257 (XFin (1 - / 8388608))).
  { apply (gives_iff spp b w h s0 Ha E0 7 5); [exact H|constructor|rewrite O0, Es; lia|lia|]. exists 1627. split; [reflexivity|].
    change (first_in s0 7 5 (mkP2 0 0) 257) with (off s0 (mkP2 0 0)). rewrite O0, Z.add_0_l. change (step_in 7 5 257) with 31104. unfold radical_inverse.
    destruct (radical_loop Release 32 1627 (Z.of_nat n * 31104) 0 1) as [[x bn]| |]; try discriminate. cbn [rbind]. apply andb_prop in Chk as [C1 C2].
    assert (P : (0 < IZR bn)%R) by (apply IZR_lt; lia). assert (Q : (IZR bn * 8388607 <= IZR x * 8388608)%R) by (rewrite <- !mult_IZR; apply IZR_le; lia).
    f_equal. unfold fmin, ONE_MINUS_EPSILON, f1. xsimp. rewrite xdiv_fin by lra. cbn [xis_nan xsub xlt].
    replace (Rlt_bool _ _) with false; [reflexivity|]. symmetry. rb. apply (Rmult_le_reg_r (IZR bn)); [lra|]. unfold Rdiv. rewrite Rmult_assoc, Rinv_l, Rmult_1_r by lra. lra. }
  split; [change (boxes [mkSide 257 1627 1 1626]) with 1627; lia|]. split; [|exact G].
  intros d [<-|[]]. exists (XFin (1 - / 8388608)). split; [exact G|]. eexists. split; [reflexivity|]. cbn [sd_cell]. change (parts (mkSide 257 1627 1 1626)) with 1627. lra.
Qed.
Print Assumptions C94_refuted.
