(** * Choosing a BSDF component in binary32: the rounded product stays below n *)
From Coq Require Import ZArith Reals Bool List Lra Lia.
From Flocq Require Import Core IEEE754.BinarySingleNaN.
From Verif Require Import Model.Num Model.NumX Model.NumB Model.Vector Model.Reflection
  Proofs.XBase Proofs.BBase Proofs.FLaws.
Local Open Scope R_scope.

Notation fe := (SpecFloat.fexp 24 128).
Notation fmt := (generic_format radix2 fe).
Notation rnd32 := (round radix2 fe ZnearestE).

Lemma fmt_of (m e : Z) : (Z.abs m < 2 ^ 24)%Z -> (-149 <= e)%Z -> fmt (IZR m * bpow radix2 e).
Proof.
  intros Hm He. apply generic_format_FLT. exists (Float radix2 m e); simpl.
  - reflexivity.
  - exact Hm.
  - exact He.
Qed.

Lemma fmt_dec x : fmt x -> exists m e, x = IZR m * bpow radix2 e /\ (Z.abs m < 2 ^ 24)%Z /\ (-149 <= e)%Z.
Proof.
  intros H. change fe with (FLT_exp (-149) 24) in H. apply (FLT_format_generic radix2 (-149) 24) in H.
  destruct H as [f E Hm He]. exists (Fnum f), (Fexp f). repeat split; auto.
Qed.

Lemma fmt_below_1 u : fmt u -> u < 1 -> u <= 1 - bpow radix2 (-24).
Proof.
  intros Hu H. assert (F1 : fmt 1) by (apply (generic_format_bpow radix2 fe 0); vm_compute; discriminate).
  pose proof (pred_ge_gt radix2 fe u 1 Hu F1 H) as P.
  change 1 with (bpow radix2 0) in P. rewrite pred_bpow in P. exact P.
Qed.

Lemma pick_below (u : R) (n : Z) : fmt u -> 0 <= u < 1 -> (1 <= n < 2 ^ 24)%Z -> rnd32 (u * IZR n) < IZR n.
Proof.
  intros Hu [U0 U1] Hn. pose proof (fmt_below_1 u Hu U1) as B.
  set (N := IZR n). assert (HN : 1 <= N) by (apply IZR_le; lia).
  set (y := N - N * bpow radix2 (-24)).
  assert (Uy : u * N <= y) by (unfold y; nra).
  eapply Rle_lt_trans; [apply round_le; [typeclasses eauto|typeclasses eauto|exact Uy]|].
  destruct (mag radix2 N) as [e Me]. specialize (Me ltac:(lra)). rewrite Rabs_pos_eq in Me by lra. destruct Me as [M1 M2].
  assert (He : (1 <= e <= 24)%Z).
  { split.
    - destruct (Z_lt_le_dec e 1) as [C|C]; auto. assert (bpow radix2 e <= bpow radix2 0) by (apply bpow_le; lia). simpl in H. lra.
    - destruct (Z_lt_le_dec 24 e) as [C|C]; auto. assert (bpow radix2 24 <= bpow radix2 (e - 1)) by (apply bpow_le; lia).
      assert (N <= bpow radix2 24 - 1). { change (bpow radix2 24) with (IZR (2 ^ 24)). rewrite <- minus_IZR. apply IZR_le. lia. } lra. }
  assert (P24 : 0 < bpow radix2 (-24)) by apply bpow_gt_0.
  assert (Ylt : y < N) by (unfold y; nra).
  assert (G : exists g, fmt g /\ Rabs (g - y) < N - y).
  { destruct (Req_dec N (bpow radix2 (e - 1))) as [E|E].
    - exists y. split; [|rewrite Rminus_eq_0, Rabs_R0; lra].
      assert (Ey : y = IZR (2 ^ 24 - 1) * bpow radix2 (e - 1 - 24)).
      { unfold y. rewrite E. replace (e - 1 - 24)%Z with (e - 1 + -24)%Z by lia. rewrite bpow_plus. change (IZR (2 ^ 24 - 1)) with 16777215.
        assert (K : bpow radix2 (-24) * 16777216 = 1) by (simpl; lra). set (p := bpow radix2 (-24)) in *. set (r := bpow radix2 (e - 1)) in *.
        transitivity (r * (p * 16777216) - r * p); [rewrite K; ring|ring]. }
      rewrite Ey. apply fmt_of; [reflexivity|lia].
    - set (q := bpow radix2 (e - 24)).
      assert (Q : q = 2 * (bpow radix2 (e - 1) * bpow radix2 (-24))).
      { rewrite <- bpow_plus. change 2 with (bpow radix2 1). rewrite <- bpow_plus. unfold q. f_equal. lia. }
      assert (Q2 : q = bpow radix2 e * bpow radix2 (-24)) by (rewrite <- bpow_plus; reflexivity).
      assert (NQ : exists k, N = IZR k * q /\ (2 <= k < 2 ^ 24)%Z).
      { exists (n * 2 ^ (24 - e))%Z. assert (EN : N = IZR (n * 2 ^ (24 - e)) * q).
        { unfold q. change (2 ^ (24 - e))%Z with (radix_val radix2 ^ (24 - e))%Z. rewrite mult_IZR, IZR_Zpower by lia. rewrite Rmult_assoc, <- bpow_plus. replace (24 - e + (e - 24))%Z with 0%Z by lia. simpl. unfold N. ring. }
        split; [exact EN|]. assert (0 < q) by apply bpow_gt_0. split.
        + apply le_IZR. apply Rmult_le_reg_r with q; auto. rewrite <- EN. rewrite Q. assert (bpow radix2 (-24) <= / 4) by (simpl; lra). pose proof (bpow_gt_0 radix2 (e - 1)). nra.
        + apply lt_IZR. apply Rmult_lt_reg_r with q; auto. rewrite <- EN. rewrite Q2. change (IZR (2 ^ 24)) with 16777216. 
          assert (K : bpow radix2 (-24) * 16777216 = 1) by (simpl; lra). set (p := bpow radix2 (-24)) in *. nra. }
      destruct NQ as (k & EN & Hk). exists (N - q). split.
      + rewrite EN. replace (IZR k * q - q) with (IZR (k - 1) * q) by (rewrite minus_IZR; ring). apply fmt_of; lia.
      + unfold y. assert (bpow radix2 (e - 1) < N) by lra. rewrite Rabs_left1; nra. }
  destruct G as (g & Fg & Dg).
  assert (FN : fmt N) by (apply generic_format_Z; lia).
  assert (Le : rnd32 y <= N) by (apply round_le_generic; [typeclasses eauto|typeclasses eauto|exact FN|lra]).
  destruct Le as [|E]; [assumption|exfalso].
  destruct (round_N_pt radix2 fe (fun x => negb (Z.even x)) y) as [_ Nr]. specialize (Nr g Fg).
  change (round radix2 fe (Znearest (fun x : Z => negb (Z.even x))) y) with (rnd32 y) in Nr.
  rewrite E in Nr. rewrite (Rabs_pos_eq (N - y)) in Nr by lra. lra.
Qed.

Lemma frac_format x : fmt x -> 0 <= x -> fmt (x - IZR (Zfloor x)).
Proof.
  intros Hx H0. destruct (fmt_dec x Hx) as (m & e & E & Hm & He).
  destruct (Z_le_dec 0 e) as [P|P].
  - assert (Ei : x = IZR (m * 2 ^ e)) by (change (2 ^ e)%Z with (radix_val radix2 ^ e)%Z; rewrite mult_IZR, IZR_Zpower by auto; exact E).
    rewrite Ei, Zfloor_IZR. rewrite Rminus_eq_0. apply generic_format_0.
  - set (k := Zfloor x).
    assert (Ek : x - IZR k = IZR (m - k * 2 ^ (- e)) * bpow radix2 e).
    { rewrite minus_IZR, mult_IZR.
      assert (IZR (2 ^ (- e)) * bpow radix2 e = 1).
      { change (2 ^ (- e))%Z with (radix_val radix2 ^ (- e))%Z. rewrite IZR_Zpower by lia. rewrite <- bpow_plus. replace (- e + e)%Z with 0%Z by lia. reflexivity. }
      set (P' := IZR (2 ^ - e)) in *. clearbody k. rewrite E. transitivity (IZR m * bpow radix2 e - IZR k * (P' * bpow radix2 e)); [rewrite H; ring|ring]. }
    assert (0 <= x - IZR k <= x).
    { pose proof (Zfloor_lb x). pose proof (Zfloor_lub 0 x H0). fold k in H, H1. apply IZR_le in H1. simpl in H1. lra. }
    rewrite Ek. apply fmt_of; auto. rewrite Ek in H. rewrite E in H.
    assert (0 < bpow radix2 e) by apply bpow_gt_0.
    assert (0 <= IZR (m - k * 2 ^ (- e)) <= IZR m) by nra.
    destruct H2 as [A1 A2]. apply le_IZR in A1, A2. lia.
Qed.
