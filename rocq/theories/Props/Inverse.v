(** * C103: the extended Euclidean algorithm and inverses modulo n *)
From Coq Require Import ZArith Znumtheory Lia Bool.
From Verif Require Import Model.Num Model.Sampler.
Local Open Scope Z_scope.

Lemma i64_small m z : - 2 ^ 63 <= z < 2 ^ 63 -> i64_of m z = Ok z.
Proof.
  intros H. unfold i64_of, in_rangeb, i64_min, i64_max. replace ((- 2 ^ 63 <=? z) && (z <=? 2 ^ 63 - 1)) with true; [reflexivity|].
  symmetry. apply andb_true_intro. split; apply Z.leb_le; lia.
Qed.

Lemma gcd_ok m fuel : forall a b, 0 <= a < 2 ^ 32 -> 0 <= b < 2 ^ 32 -> (Z.to_nat b < fuel)%nat ->
  exists x y, extended_gcd m fuel a b = Ok (x, y) /\ x * a + y * b = Z.gcd a b /\ Z.abs x <= Z.max 1 b /\ Z.abs y <= Z.max 1 a.
Proof.
  induction fuel as [|fuel IH]; intros a b Ha Hb Hf; [lia|]. cbn [extended_gcd]. destruct (Z.eqb_spec b 0) as [->|Hb0].
  - exists 1, 0. rewrite Z.gcd_0_r, Z.abs_eq by lia. repeat split; lia.
  - pose proof (Z.mod_pos_bound a b ltac:(lia)) as Hm.
    destruct (IH b (a mod b) ltac:(lia) ltac:(lia) ltac:(lia)) as (xp & yp & E & Bz & Bx & By). rewrite E. cbn [rbind].
    pose proof (Z.div_mod a b Hb0) as D. assert (D0 : 0 <= a / b) by (apply Z.div_pos; lia).
    set (d := a / b) in *. set (r := a mod b) in *.
    assert (Hd : Z.abs (d * yp) <= a).
    { rewrite Z.abs_mul, (Z.abs_eq d) by lia. rewrite Z.max_r in By by lia. nia. }
    assert (Hy : Z.abs (xp - d * yp) <= Z.max 1 a).
    { destruct (Z.eq_dec r 0) as [R0|R0].
      - assert (yp = 0 /\ xp = 1) as [-> ->].
        { rewrite R0 in E. destruct fuel as [|f]; cbn [extended_gcd] in E; [discriminate|]. cbn [Z.eqb] in E.
          assert (I : (1, 0) = (xp, yp)) by congruence. split; congruence. }
        lia.
      - rewrite Z.max_r in By by lia. rewrite Z.max_r in Bx by lia.
        assert (Z.abs (xp - d * yp) <= Z.abs xp + Z.abs (d * yp)) by lia. rewrite Z.abs_mul, (Z.abs_eq d) in H by lia. nia. }
    rewrite i64_small by lia. cbn [rbind]. rewrite i64_small by lia. cbn [rbind].
    exists yp, (xp - d * yp). split; [reflexivity|]. split; [|split; [lia|exact Hy]].
    replace (Z.gcd a b) with (Z.gcd b r); [rewrite <- Bz; rewrite D; ring|].
    unfold r. rewrite Z.gcd_comm, Z.gcd_mod by lia. apply Z.gcd_comm.
Qed.

(** [extended_gcd] returns coefficients of Bezout, in both builds and for all arguments; no overflow and at most [b + 1] calls. *)
Theorem C103_bezout : forall m a b, 0 <= a < 2 ^ 32 -> 0 <= b < 2 ^ 32 ->
  exists x y, extended_gcd m (S (Z.to_nat b)) a b = Ok (x, y) /\ x * a + y * b = Z.gcd a b /\ Z.abs x <= Z.max 1 b /\ Z.abs y <= Z.max 1 a.
Proof. intros m a b Ha Hb. apply gcd_ok; auto. Qed.
Print Assumptions C103_bezout.

Example C103_example : extended_gcd Debug 28 (2 ^ 7) (3 ^ 3) = Ok (-4, 19) /\ -4 * 2 ^ 7 + 19 * 3 ^ 3 = 1.
Proof. split; reflexivity. Qed.

(** [multiplicative_inverse] is the inverse or its opposite ... *)
Theorem C103_inverse_partial : forall m a n, 0 <= a < 2 ^ 32 -> 1 <= n < 2 ^ 32 -> Z.gcd a n = 1 ->
  exists k x y, multiplicative_inverse m a n = Ok k /\ extended_gcd m (S (Z.to_nat n)) a n = Ok (x, y) /\ 0 <= k < n /\
    (0 <= x -> (k * a) mod n = 1 mod n) /\ (x <= 0 -> (k * a) mod n = (-1) mod n).
Proof.
  intros m a n Ha Hn G. destruct (gcd_ok m (S (Z.to_nat n)) a n Ha ltac:(lia) ltac:(lia)) as (x & y & E & B & Bx & _). rewrite G in B.
  exists (Z.abs x mod n), x, y. unfold multiplicative_inverse. rewrite E. cbn [rbind]. destruct (Z.eqb_spec n 0) as [->|_]; [lia|].
  assert (W : wrap_u 32 (Z.abs x) = Z.abs x) by (unfold wrap_u; apply Z.mod_small; lia). rewrite W.
  split; [reflexivity|]. split; [reflexivity|]. split; [apply Z.mod_pos_bound; lia|].
  split; intros H; rewrite Z.mul_mod_idemp_l by lia.
  - rewrite Z.abs_eq by lia. replace (x * a) with (1 + - y * n) by lia. apply Z_mod_plus_full.
  - rewrite Z.abs_neq by lia. replace (- x * a) with (-1 + y * n) by lia. apply Z_mod_plus_full.
Qed.
Print Assumptions C103_inverse_partial.

(** ... and the opposite comes: the sign of the coefficient is dropped. *)
Theorem C103_inverse_refuted : exists a n k, 1 <= a < n /\ Z.gcd a n = 1 /\ (forall m, multiplicative_inverse m a n = Ok k) /\ (k * a) mod n <> 1 mod n.
Proof. exists 2, 3, 1. split; [lia|]. split; [reflexivity|]. split; [intros []; reflexivity|]. vm_compute. discriminate. Qed.
Print Assumptions C103_inverse_refuted.
