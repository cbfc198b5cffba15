(** * The bit patterns of binary32 in order: rank of a float *)
From Coq Require Import ZArith Reals Bool List Lra Lia.
From Flocq Require Import Core IEEE754.BinarySingleNaN.
From Flocq Require IEEE754.Binary IEEE754.Bits.
From Verif Require Import Model.Num Model.NumX Model.NumB Proofs.XBase Proofs.BBase.
Local Open Scope Z_scope.

(** the pattern of +infinity *)
Definition K : Z := 2139095040.
Lemma K_pos : 0 < K. Proof. reflexivity. Qed.

(** value of the positive pattern [z] *)
Definition Vp (z : Z) : R :=
  let e := z / 2 ^ 23 in let m := z mod 2 ^ 23 in
  if e =? 0 then (IZR m * bpow radix2 (-149))%R else (IZR (m + 2 ^ 23) * bpow radix2 (e - 150))%R.

Lemma Vp_step z : 0 <= z -> (Vp z < Vp (z + 1))%R.
Proof.
  intros Hz. unfold Vp. pose proof (Z.div_mod z (2 ^ 23) ltac:(lia)) as E. pose proof (Z.mod_pos_bound z (2 ^ 23) ltac:(lia)) as B.
  set (e := z / 2 ^ 23) in *. set (m := z mod 2 ^ 23) in *. assert (0 <= e) by (apply Z.div_pos; lia).
  destruct (Z.eq_dec m (2 ^ 23 - 1)) as [M|M].
  - assert (D : (z + 1) / 2 ^ 23 = e + 1) by (symmetry; apply Z.div_unique with 0; lia).
    assert (R : (z + 1) mod 2 ^ 23 = 0) by (symmetry; apply Z.mod_unique with (e + 1); lia).
    rewrite D, R. replace (e + 1 =? 0) with false by lia. destruct (Z.eqb_spec e 0) as [E0|E0].
    + rewrite E0. change (0 + 1 - 150) with (-149). apply Rmult_lt_compat_r; [apply bpow_gt_0|]. apply IZR_lt. lia.
    + replace (e + 1 - 150) with (1 + (e - 150)) by lia. rewrite bpow_plus, <- Rmult_assoc. change (bpow radix2 1) with (IZR 2). rewrite <- mult_IZR.
      apply Rmult_lt_compat_r; [apply bpow_gt_0|]. apply IZR_lt. lia.
  - assert (D : (z + 1) / 2 ^ 23 = e) by (symmetry; apply Z.div_unique with (m + 1); lia).
    assert (R : (z + 1) mod 2 ^ 23 = m + 1) by (symmetry; apply Z.mod_unique with e; lia).
    rewrite D, R. destruct (e =? 0); (apply Rmult_lt_compat_r; [apply bpow_gt_0|]; apply IZR_lt; lia).
Qed.

Lemma Vp_lt a b : 0 <= a < b -> (Vp a < Vp b)%R.
Proof.
  intros [Ha Hab]. replace b with (a + 1 + Z.of_nat (Z.to_nat (b - a - 1))) by lia. generalize (Z.to_nat (b - a - 1)). intros n. clear Hab b.
  induction n as [|n IH]; [rewrite Z.add_0_r; now apply Vp_step|]. eapply Rlt_trans; [exact IH|].
  replace (a + 1 + Z.of_nat (S n)) with (a + 1 + Z.of_nat n + 1) by lia. apply Vp_step. lia.
Qed.

Lemma Vp_0 : Vp 0 = 0%R.
Proof. unfold Vp. change (0 / 2 ^ 23) with 0. change (0 mod 2 ^ 23) with 0. cbn [Z.eqb]. apply Rmult_0_l. Qed.

Definition V (z : Z) : R := if z <? 0 then (- Vp (- z))%R else Vp z.

Lemma V_lt a b : a < b -> (V a < V b)%R.
Proof.
  intros H. unfold V. destruct (Z.ltb_spec a 0) as [A|A], (Z.ltb_spec b 0) as [B|B]; try lia.
  - apply Ropp_lt_contravar. apply Vp_lt. lia.
  - assert (0 < Vp (- a))%R by (rewrite <- Vp_0; apply Vp_lt; lia). assert (0 <= Vp b)%R.
    { destruct (Z.eq_dec b 0) as [->|]; [rewrite Vp_0; lra|]. rewrite <- Vp_0. apply Rlt_le, Vp_lt. lia. } lra.
  - apply Vp_lt. lia.
Qed.

Definition XV (z : Z) : XR := if z <=? - K then XInf true else if K <=? z then XInf false else XFin (V z).

Lemma XV_lt a b : - K <= a <= K -> - K <= b <= K -> xlt (XV a) (XV b) = (a <? b).
Proof.
  intros Ha Hb. unfold XV. pose proof K_pos as KP.
  destruct (Z.leb_spec a (- K)) as [A|A], (Z.leb_spec b (- K)) as [B|B];
  destruct (Z.leb_spec K a) as [C|C], (Z.leb_spec K b) as [D|D]; cbn [xlt]; try lia.
  destruct (Z.ltb_spec a b) as [L|L].
  - apply Rlt_bool_true. now apply V_lt.
  - apply Rlt_bool_false. destruct (Z.eq_dec a b) as [->|]; [lra|]. apply Rlt_le, V_lt. lia.
Qed.

(** ** Rank *)
Definition rank (x : b32) : Z := let b := bits_of_f32 x in if b <? 2 ^ 31 then b else 2 ^ 31 - b.

Lemma bits_finite s m e B : exists k, 1 <= k < K /\ bits_of_f32 (B754_finite s m e B) = (if s then 2 ^ 31 else 0) + k /\
  Vp k = F2R (Float radix2 (Zpos m) e).
Proof.
  assert (G : Z.pos m < 2 ^ 24 /\ -149 <= e <= 104 /\ (Z.pos m < 2 ^ 23 -> e = -149)).
  { pose proof B as B'. unfold SpecFloat.bounded in B'. apply andb_prop in B'. destruct B' as [A C]. apply Zle_bool_imp_le in C.
    unfold SpecFloat.canonical_mantissa in A. apply Zeq_bool_eq in A. rewrite Zpos_digits2_pos in A. change (SpecFloat.fexp 24 128) with (FLT_exp (-149) 24) in A. unfold FLT_exp in A.
    split; [|split; [lia|]].
    - assert (H : Zdigits radix2 (Z.pos m) <= 24) by lia. pose proof (Zpower_gt_Zdigits radix2 24 (Z.pos m) H) as P. exact P.
    - intros H.
      assert (D : Zdigits radix2 (Z.pos m) <= 23). { destruct (Z.le_gt_cases (Zdigits radix2 (Z.pos m)) 23) as [|Q]; auto. exfalso. pose proof (Zpower_le_Zdigits radix2 23 (Z.pos m) Q) as P. change (Zpower radix2 23) with (2 ^ 23) in P. lia. }
      lia. }
  destruct G as (G1 & G2 & G3). unfold bits_of_f32. cbn [Binary.BSN2B]. unfold Bits.bits_of_b32, Bits.bits_of_binary_float.
  change (Zpower 2 23) with (2 ^ 23). change (SpecFloat.emin (23 + 1) (2 ^ (8 - 1))) with (-149).
  destruct (Z.leb_spec 0 (Z.pos m - 2 ^ 23)) as [L|L].
  - exists ((e + 150) * 2 ^ 23 + (Z.pos m - 2 ^ 23)). split; [unfold K; lia|]. split.
    + unfold Bits.join_bits. rewrite Z.shiftl_mul_pow2 by lia. destruct s; lia.
    + unfold Vp. rewrite Z.add_comm. rewrite Z.div_add, Z.mod_add by lia. rewrite Z.div_small, Z.mod_small by lia.
      replace (0 + (e + 150) =? 0) with false by lia. replace (0 + (e + 150) - 150) with e by lia. replace (Z.pos m - 2 ^ 23 + 2 ^ 23) with (Z.pos m) by lia. reflexivity.
  - exists (Z.pos m). split; [unfold K; lia|]. split.
    + unfold Bits.join_bits. rewrite Z.shiftl_mul_pow2 by lia. destruct s; lia.
    + unfold Vp. rewrite Z.div_small, Z.mod_small by lia. cbn [Z.eqb]. rewrite G3 by lia. reflexivity.
Qed.

Lemma rank_spec x : is_nan x = false -> - K <= rank x <= K /\ B2X x = XV (rank x) /\
  (bits_of_f32 x = rank x /\ 0 <= rank x \/ bits_of_f32 x = 2 ^ 31 - rank x /\ rank x <= 0).
Proof.
  intros N. destruct x as [s|s| |s m e B].
  - assert (R : rank (B754_zero s) = 0) by (destruct s; vm_compute; reflexivity). rewrite R. split; [unfold K; lia|].
    split; [|destruct s; [right|left]; split; try lia; vm_compute; reflexivity]. change (XV 0) with (XFin (Vp 0)). now rewrite Vp_0.
  - assert (R : rank (B754_infinity s) = if s then - K else K) by (destruct s; vm_compute; reflexivity). rewrite R.
    split; [destruct s; unfold K; lia|]. split; [destruct s; reflexivity|]. destruct s; [right|left]; (split; [vm_compute; reflexivity|unfold K; lia]).
  - discriminate N.
  - destruct (bits_finite s m e B) as (k & Hk & E & VK). unfold rank. rewrite E. unfold K in *. destruct s.
    + replace (2 ^ 31 + k <? 2 ^ 31) with false by lia. replace (2 ^ 31 - (2 ^ 31 + k)) with (- k) by lia. split; [lia|].
      split; [|right; lia]. unfold XV. replace (- k <=? - K) with false by (unfold K; lia). replace (K <=? - k) with false by (unfold K; lia).
      unfold V. replace (- k <? 0) with true by lia. rewrite Z.opp_involutive, VK. cbn [B2X B2R cond_Zopp]. f_equal. unfold F2R. cbn [Fnum Fexp]. 
      change (Z.neg m) with (- Z.pos m). rewrite opp_IZR. ring.
    + replace (0 + k <? 2 ^ 31) with true by lia. rewrite Z.add_0_l. split; [lia|]. split; [|left; lia].
      unfold XV. replace (k <=? - K) with false by (unfold K; lia). replace (K <=? k) with false by (unfold K; lia).
      unfold V. replace (k <? 0) with false by lia. rewrite VK. reflexivity.
Qed.

Lemma rank_lt (x y : b32) : is_nan x = false -> is_nan y = false -> Bltb x y = (rank x <? rank y).
Proof.
  intros Nx Ny. destruct (rank_spec x Nx) as (Rx & Ex & _). destruct (rank_spec y Ny) as (Ry & Ey & _).
  rewrite B2X_lt, Ex, Ey. now apply XV_lt.
Qed.

Lemma rank_le (x y : b32) : is_nan x = false -> is_nan y = false -> Bleb x y = (rank x <=? rank y).
Proof.
  intros Nx Ny. destruct (rank_spec x Nx) as (Rx & Ex & _). destruct (rank_spec y Ny) as (Ry & Ey & _).
  rewrite B2X_le, Ex, Ey. pose proof (XV_lt (rank y) (rank x) Ry Rx) as L.
  assert (T : forall a b, a <> XNaN -> b <> XNaN -> xle a b = negb (xlt b a)).
  { intros [|sa|a] [|sb|b] Ha Hb; try congruence; try (destruct sa; reflexivity); try (destruct sb; reflexivity); try (destruct sa, sb; reflexivity).
    cbn [xle xlt]. destruct (Rle_bool a b) eqn:A, (Rlt_bool b a) eqn:B; rb; auto; lra. }
  rewrite T, L. 2,3: unfold XV; destruct (_ <=? _); try discriminate; destruct (_ <=? _); discriminate.
  destruct (Z.ltb_spec (rank y) (rank x)), (Z.leb_spec (rank x) (rank y)); auto; lia.
Qed.

(** a pattern that is no NaN *)
Lemma of_bits z : 0 <= z <= K \/ 2 ^ 31 <= z <= 2 ^ 31 + K ->
  is_nan (f32_of_bits z) = false /\ bits_of_f32 (f32_of_bits z) = z.
Proof.
  intros Hz. unfold f32_of_bits, bits_of_f32, Bits.b32_of_bits, Bits.bits_of_b32.
  assert (R : 0 <= z < 2 ^ (23 + 8 + 1)) by (unfold K in Hz; simpl; lia).
  pose proof (Bits.bits_of_binary_float_of_bits 23 8 eq_refl eq_refl eq_refl z R) as E.
  set (x := Bits.binary_float_of_bits 23 8 eq_refl eq_refl eq_refl z) in *.
  assert (N : Binary.is_nan 24 128 x = false).
  { destruct x as [| |s pl H|]; try reflexivity. exfalso. unfold Bits.bits_of_binary_float, Bits.join_bits in E. rewrite Z.shiftl_mul_pow2 in E by lia.
    change (Zpower 2 8 - 1) with 255 in E. unfold K in Hz. assert (Z.pos pl < 2 ^ 23).
    { apply Z.ltb_lt in H. rewrite Zpos_digits2_pos in H. pose proof (Zpower_gt_Zdigits radix2 23 (Z.pos pl) ltac:(lia)) as P. exact P. }
    destruct s; lia. }
  split; [destruct x; try reflexivity; discriminate N|].
  destruct x as [| |s pl H|]; try discriminate N; exact E.
Qed.

Lemma rank_of_bits_pos z : 0 <= z <= K -> is_nan (f32_of_bits z) = false /\ rank (f32_of_bits z) = z.
Proof.
  intros H. destruct (of_bits z (or_introl H)) as [N E]. split; [exact N|]. unfold rank. rewrite E. unfold K in H. now replace (z <? 2 ^ 31) with true by lia.
Qed.
Lemma rank_of_bits_neg z : 0 <= z <= K -> is_nan (f32_of_bits (2 ^ 31 + z)) = false /\ rank (f32_of_bits (2 ^ 31 + z)) = - z.
Proof.
  intros H. destruct (of_bits (2 ^ 31 + z)) as [N E]; [unfold K in *; lia|]. split; [exact N|]. unfold rank. rewrite E. unfold K in H. replace (2 ^ 31 + z <? 2 ^ 31) with false by lia. lia.
Qed.

Lemma rank_zero s : rank (B754_zero s) = 0.
Proof. destruct s; vm_compute; reflexivity. Qed.
Lemma rank_inf s : rank (B754_infinity s) = if s then - K else K.
Proof. destruct s; vm_compute; reflexivity. Qed.

Lemma rank_inf_iff x : is_nan x = false -> (rank x = K <-> x = B754_infinity false) /\ (rank x = - K <-> x = B754_infinity true).
Proof.
  intros N. destruct (rank_spec x N) as (R & E & _).
  split; (split; [intros H; rewrite H in E; unfold XV, K in E; cbn in E|intros ->; apply rank_inf]).
  - destruct x as [s|[|]| |s m e B]; try discriminate E; reflexivity.
  - destruct x as [s|[|]| |s m e B]; try discriminate E; reflexivity.
Qed.

Lemma rank_eq0 (x : b32) : is_nan x = false -> Beqb x (Bof_Z 0) = (rank x =? 0).
Proof.
  intros N. assert (Nz : is_nan (Bof_Z 0 : b32) = false) by reflexivity. assert (Rz : rank (Bof_Z 0) = 0) by (vm_compute; reflexivity).
  pose proof (rank_lt x _ N Nz) as L1. pose proof (rank_lt _ x Nz N) as L2. rewrite Rz in L1, L2. rewrite B2X_lt in L1, L2. rewrite B2X_eq.
  assert (Ez : B2X (Bof_Z 0 : b32) = XFin 0) by reflexivity. rewrite Ez in *.
  destruct x as [s|[|]| |s m e B]; try discriminate N.
  - rewrite rank_zero. cbn [B2X B2R xeq]. now apply Req_bool_true.
  - rewrite rank_inf. reflexivity.
  - rewrite rank_inf. reflexivity.
  - cbn [B2X xlt xeq] in *. destruct (Req_bool (B2R (B754_finite s m e B)) 0) eqn:Q; rb.
    + rewrite Q in *. rewrite !Rlt_bool_false in * by lra. lia.
    + destruct (Rlt_bool 0 _) eqn:A in L2; destruct (Rlt_bool _ 0) eqn:C in L1; rb; try lra; lia.
Qed.

(** ** The neighbours *)
Lemma up_rank x : is_nan x = false -> is_nan (next_float_up x) = false /\
  rank (next_float_up x) = if rank x =? K then K else rank x + 1.
Proof.
  intros N. unfold next_float_up. rewrite N. destruct (rank_spec x N) as (R & E & Bt).
  assert (Nz : is_nan (Bof_Z 0 : b32) = false) by reflexivity. assert (Rz : rank (Bof_Z 0) = 0) by (vm_compute; reflexivity).
  destruct (rank_inf_iff x N) as [I1 I2].
  destruct (Bis_inf x && Bltb (Bof_Z 0) x) eqn:B1.
  - apply andb_prop in B1. destruct B1 as [B1 B2]. destruct x as [|[|]| |]; try discriminate B1; [discriminate B2|]. rewrite rank_inf. now rewrite Z.eqb_refl.
  - assert (NK : rank x <> K). { intros Q. apply I1 in Q. subst x. discriminate B1. }
    replace (rank x =? K) with false by lia. rewrite (rank_eq0 x N).
    destruct (Z.eqb_spec (rank x) 0) as [Z0|Z0].
    + rewrite Z0. split; vm_compute; reflexivity.
    + rewrite (rank_le _ x Nz N), Rz. destruct (Z.leb_spec 0 (rank x)) as [P|P].
      * destruct Bt as [[Bt _]|[_ Bt]]; [|lia]. rewrite Bt. apply rank_of_bits_pos. lia.
      * destruct Bt as [[_ Bt]|[Bt _]]; [lia|]. rewrite Bt. replace (2 ^ 31 - rank x - 1) with (2 ^ 31 + (- rank x - 1)) by lia.
        destruct (rank_of_bits_neg (- rank x - 1) ltac:(lia)) as [H1 H2]. split; [exact H1|]. rewrite H2. lia.
Qed.

Lemma down_rank x : is_nan x = false -> is_nan (next_float_down x) = false /\
  rank (next_float_down x) = if rank x =? - K then - K else rank x - 1.
Proof.
  intros N. unfold next_float_down. rewrite N. destruct (rank_spec x N) as (R & E & Bt).
  assert (Nz : is_nan (Bof_Z 0 : b32) = false) by reflexivity. assert (Rz : rank (Bof_Z 0) = 0) by (vm_compute; reflexivity).
  destruct (rank_inf_iff x N) as [I1 I2].
  destruct (Bis_inf x && Bltb x (Bof_Z 0)) eqn:B1.
  - apply andb_prop in B1. destruct B1 as [B1 B2]. destruct x as [|[|]| |]; try discriminate B1; [|discriminate B2]. rewrite rank_inf. now rewrite Z.eqb_refl.
  - assert (NK : rank x <> - K). { intros Q. apply I2 in Q. subst x. discriminate B1. }
    replace (rank x =? - K) with false by lia. rewrite (rank_eq0 x N).
    destruct (Z.eqb_spec (rank x) 0) as [Z0|Z0].
    + rewrite Z0. split; vm_compute; reflexivity.
    + rewrite (rank_le x _ N Nz), Rz. destruct (Z.leb_spec (rank x) 0) as [P|P].
      * destruct Bt as [[_ Bt]|[Bt _]]; [lia|]. rewrite Bt. replace (2 ^ 31 - rank x + 1) with (2 ^ 31 + (- rank x + 1)) by lia.
        destruct (rank_of_bits_neg (- rank x + 1) ltac:(lia)) as [H1 H2]. split; [exact H1|]. rewrite H2. lia.
      * destruct Bt as [[Bt _]|[_ Bt]]; [|lia]. rewrite Bt. apply rank_of_bits_pos. lia.
Qed.
