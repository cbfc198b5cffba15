(** * Printing and parsing, tone mapping *)
From Coq Require Import ZArith List Bool Ascii Reals Lia Lra ZifyBool.
From Flocq Require Import Core.Raux Core.Generic_fmt.
From Verif Require Import Model.Num Model.NumX Model.Vector Model.Common Model.Film Spec.Ppm.
From Verif Require Import Proofs.XBase Proofs.FLaws.
Import ListNotations.
Local Open Scope Z_scope.

(** ** Decimal numbers *)
Lemma digit_value_digit d : 0 <= d < 10 -> digit_value (digit d) = Some d /\ is_space (digit d) = false.
Proof.
  intros H. assert (C : d = 0 \/ d = 1 \/ d = 2 \/ d = 3 \/ d = 4 \/ d = 5 \/ d = 6 \/ d = 7 \/ d = 8 \/ d = 9) by lia.
  repeat destruct C as [->|C]; try (split; reflexivity). subst. split; reflexivity.
Qed.

Lemma number_from_app acc l l' : number_from acc (l ++ l') = match number_from acc l with Some a => number_from a l' | None => None end.
Proof.
  revert acc. induction l as [|c l IH]; intros acc; cbn [app number_from]; auto.
  destruct (digit_value c); auto.
Qed.

(** [print_nat] puts the decimal digits of [z] in front of [acc]. *)
Lemma print_nat_spec fuel : forall z acc, (1 <= fuel)%nat -> 0 <= z < 10 ^ Z.of_nat fuel ->
  exists l, print_nat fuel z acc = l ++ acc /\ l <> [] /\ number_from 0 l = Some z /\ forallb (fun c => negb (is_space c)) l = true.
Proof.
  induction fuel as [|fuel IH]; intros z acc Hf Hz; [lia|]. cbn [print_nat].
  assert (Hd : 0 <= z mod 10 < 10) by (apply Z.mod_pos_bound; lia).
  destruct (digit_value_digit _ Hd) as [Ed Es].
  destruct (z <? 10) eqn:E.
  - exists [digit (z mod 10)]. split; [reflexivity|]. split; [discriminate|]. cbn [number_from forallb]. rewrite Ed, Es. split; auto.
    now rewrite Z.mod_small by lia.
  - assert (Hq : 0 <= z / 10 < 10 ^ Z.of_nat fuel).
    { split; [apply Z.div_pos; lia|]. apply Z.div_lt_upper_bound; [lia|].
      replace (10 * 10 ^ Z.of_nat fuel) with (10 ^ Z.of_nat (S fuel)); [lia|]. rewrite Nat2Z.inj_succ, Z.pow_succ_r by lia. lia. }
    destruct (IH (z / 10) (digit (z mod 10) :: acc)) as (l & El & Hne & En & Hs); [|exact Hq|].
    { destruct fuel; [|lia]. cbn in Hq. assert (z / 10 = 0) by lia. assert (z < 10); [|lia].
      apply Z.div_small_iff in H; lia. }
    exists (l ++ [digit (z mod 10)]). split; [rewrite El, <- app_assoc; reflexivity|]. split; [destruct l; discriminate|]. split.
    + rewrite number_from_app, En. cbn [number_from]. rewrite Ed. f_equal.
      pose proof (Z.div_mod z 10). lia.
    + rewrite forallb_app, Hs. cbn [forallb]. now rewrite Es.
Qed.

Lemma print_int_spec z : 0 <= z < 2 ^ 32 ->
  exists l, print_int z = l /\ l <> [] /\ number l = Some z /\ forallb (fun c => negb (is_space c)) l = true.
Proof.
  intros Hz. unfold print_int. replace (z <? 0) with false by lia.
  destruct (print_nat_spec 10 z []) as (l & El & Hne & En & Hs); [lia|change (10 ^ Z.of_nat 10) with 10000000000; lia|].
  exists l. rewrite El, app_nil_r. split; auto. split; auto. split; auto. unfold number. destruct l; [congruence|auto].
Qed.

(** ** Tokens *)
Lemma tokens_word l : forall cur c rest, forallb (fun c => negb (is_space c)) l = true -> l <> [] \/ cur <> [] -> is_space c = true ->
  tokens_from cur (l ++ c :: rest) = (rev cur ++ l) :: tokens_from [] rest.
Proof.
  induction l as [|a l IH]; intros cur c rest Hs Hne Hc.
  - cbn [app tokens_from]. rewrite Hc, app_nil_r. destruct cur; [|reflexivity]. destruct Hne; congruence.
  - cbn [forallb] in Hs. apply andb_prop in Hs. destruct Hs as [Ha Hs]. apply negb_true_iff in Ha.
    cbn [app tokens_from]. rewrite Ha, IH; auto; [|right; discriminate]. cbn [rev]. rewrite <- app_assoc. reflexivity.
Qed.

Definition word (z : Z) : list ascii := print_int z.

Lemma tokens_int z c rest : 0 <= z < 2 ^ 32 -> is_space c = true -> tokens (print_int z ++ c :: rest) = print_int z :: tokens rest.
Proof.
  intros Hz Hc. destruct (print_int_spec z Hz) as (l & -> & Hne & _ & Hs). unfold tokens. now rewrite tokens_word by auto.
Qed.

Lemma number_print z : 0 <= z < 2 ^ 32 -> number (print_int z) = Some z.
Proof. intros Hz. destruct (print_int_spec z Hz) as (l & -> & _ & E & _). exact E. Qed.

Lemma tokens_rgb r g b rest : 0 <= r < 2 ^ 32 -> 0 <= g < 2 ^ 32 -> 0 <= b < 2 ^ 32 ->
  tokens (print_rgb (r, g, b) ++ rest) = print_int r :: print_int g :: print_int b :: tokens rest.
Proof.
  intros Hr Hg Hb. unfold print_rgb. rewrite <- !app_assoc. cbn [app].
  rewrite tokens_int by auto. f_equal. rewrite <- !app_assoc. cbn [app].
  rewrite tokens_int by auto. f_equal. rewrite <- !app_assoc. cbn [app]. now rewrite tokens_int by auto.
Qed.

Lemma triples_data (data : list (Z * Z * Z)) :
  (forall r g b, In (r, g, b) data -> 0 <= r <= 255 /\ 0 <= g <= 255 /\ 0 <= b <= 255) ->
  triples (tokens (flat_map print_rgb data)) = Some data.
Proof.
  induction data as [|[[r g] b] data IH]; intros H; [reflexivity|].
  cbn [flat_map]. destruct (H r g b (or_introl eq_refl)) as (Hr & Hg & Hb).
  rewrite tokens_rgb by lia. cbn [triples]. rewrite !number_print by lia. rewrite IH; auto.
  intros r' g' b' Hin. apply (H r' g' b'). now right.
Qed.

Section Q.
  Context {F} {FO : FOps F} {FL : FLaws F}.

  (** ** Clamping and rounding *)
  Lemma emb_lit m k : (Z.abs m <= 2 ^ 24) -> (0 <= k <= 7) ->
    emb (flit m k) = rn (XFin (IZR m / IZR (10 ^ k))).
  Proof.
    intros Hm Hk. assert (Hp : 1 <= 10 ^ k <= 10 ^ 7).
    { split; [pose proof (Z.pow_pos_nonneg 10 k); lia|apply Z.pow_le_mono_r; lia]. }
    assert (Hp' : IZR (10 ^ k) <> 0%R) by (apply not_0_IZR; lia).
    unfold flit. rewrite emb_div; rewrite !emb_ofZ_exact by lia.
    - now rewrite xdiv_fin.
    - intros E. now injection E.
  Qed.

  Lemma clamp_range x : clamp x f0 (fofZ 255) = x /\ emb x = XNaN \/
    exists r, emb (clamp x f0 (fofZ 255)) = XFin r /\ (0 <= r <= 255)%R.
  Proof.
    unfold clamp. rewrite !emb_lt, emb_f0, emb_ofZ_exact by lia.
    destruct (emb x) as [|[]|r] eqn:E; cbn [xlt negb].
    - auto.
    - right. exists 0%R. rewrite emb_f0. split; auto. lra.
    - right. exists 255%R. rewrite emb_ofZ_exact by lia. split; auto. lra.
    - right. destruct (Rlt_bool r 0) eqn:E1; [exists 0%R; rewrite emb_f0; split; auto; lra|].
      destruct (Rlt_bool 255 r) eqn:E2; [exists 255%R; rewrite emb_ofZ_exact by lia; split; auto; lra|].
      exists r. rb. split; auto.
  Qed.

  (** The number written for [x] = 255 gamma + 1/2 *)
  Definition level (x : F) : Z := fto_u32 (fround (clamp x f0 (fofZ 255))).

  Lemma quantize_level c w : quantize c w = level (fadd (fmul (gamma_correct (fdiv c w)) (fofZ 255)) fhalf).
  Proof. reflexivity. Qed.

  Definition level_of (x : XR) : Z :=
    match x with
    | XNaN => 0
    | XInf s => if s then 0 else 255
    | XFin r => Z.max 0 (Z.min 255 (Zround_away r))
    end.

  Lemma round_away_mono x y : (x <= y)%R -> Zround_away x <= Zround_away y.
  Proof. intros H. unfold Zround_away. apply Zrnd_le; auto. apply valid_rnd_N. Qed.
  Lemma round_away_IZR z : Zround_away (IZR z) = z.
  Proof. unfold Zround_away. apply Zrnd_IZR, valid_rnd_N. Qed.

  Lemma level_eq x : level x = level_of (emb x).
  Proof.
    unfold level, clamp. rewrite !emb_lt, emb_f0, emb_ofZ_exact by lia.
    assert (E255 : emb (fofZ 255) = XFin 255) by (apply emb_ofZ_exact; lia).
    assert (H0 : fto_u32 (fround f0) = 0).
    { unfold fto_u32. rewrite emb_to_int, emb_round, emb_f0. cbn [xint xto_int]. rewrite round_away_IZR, Ztrunc_IZR. reflexivity. }
    assert (H255 : fto_u32 (fround (fofZ 255)) = 255).
    { unfold fto_u32. rewrite emb_to_int, emb_round, E255. cbn [xint xto_int]. rewrite round_away_IZR, Ztrunc_IZR. reflexivity. }
    destruct (emb x) as [|[]|r] eqn:E; cbn [xlt negb level_of]; auto.
    - unfold fto_u32. rewrite emb_to_int, emb_round, E. reflexivity.
    - destruct (Rlt_bool r 0) eqn:E1; rb.
      + rewrite H0. pose proof (round_away_mono r 0 ltac:(lra)). rewrite round_away_IZR in H. lia.
      + destruct (Rlt_bool 255 r) eqn:E2; rb.
        * rewrite H255. pose proof (round_away_mono 255 r ltac:(lra)). rewrite round_away_IZR in H. lia.
        * unfold fto_u32. rewrite emb_to_int, emb_round, E. cbn [xint xto_int]. rewrite Ztrunc_IZR.
          pose proof (round_away_mono 0 r ltac:(lra)). pose proof (round_away_mono r 255 ltac:(lra)). rewrite round_away_IZR in *. unfold u32_max. lia.
  Qed.

  Lemma level_of_range x : 0 <= level_of x <= 255.
  Proof. destruct x as [|[]|r]; cbn; lia. Qed.

  Lemma level_of_mono x y : xle x y = true -> level_of x <= level_of y.
  Proof.
    destruct x as [|[]|x], y as [|[]|y]; cbn; try discriminate; try lia. intros H. rb. apply round_away_mono in H. lia.
  Qed.

  Lemma quantize_range c w : 0 <= quantize c w <= 255.
  Proof. rewrite quantize_level, level_eq. apply level_of_range. Qed.
End Q.

(** ** Tone mapping is monotone *)
Section Tone.
  Context {F} {FO : FOps F} {FL : FLaws F}.

  Lemma rn_le_dy x z k : (Z.abs z <= 2 ^ 24) -> 0 <= k <= 100 -> xle x (XFin (IZR z / IZR (2 ^ k))) = true ->
    xle (rn x) (XFin (IZR z / IZR (2 ^ k))) = true.
  Proof. intros Hz Hk H. rewrite <- rn_dyadic by auto. now apply rn_le. Qed.
  Lemma rn_ge_dy x z k : (Z.abs z <= 2 ^ 24) -> 0 <= k <= 100 -> xle (XFin (IZR z / IZR (2 ^ k))) x = true ->
    xle (XFin (IZR z / IZR (2 ^ k))) (rn x) = true.
  Proof. intros Hz Hk H. rewrite <- rn_dyadic by auto. now apply rn_le. Qed.

  Lemma xle_fin a b : xle (XFin a) (XFin b) = true <-> (a <= b)%R.
  Proof. cbn. apply Rle_bool_iff. Qed.

  (** A rounded quotient between two dyadic numbers *)
  Lemma lit_between m k z1 z2 e : Z.abs m <= 2 ^ 24 -> 0 <= k <= 7 -> Z.abs z1 <= 2 ^ 24 -> Z.abs z2 <= 2 ^ 24 -> 0 <= e <= 100 ->
    (IZR z1 / IZR (2 ^ e) <= IZR m / IZR (10 ^ k) <= IZR z2 / IZR (2 ^ e))%R ->
    exists r, emb (flit m k) = XFin r /\ (IZR z1 / IZR (2 ^ e) <= r <= IZR z2 / IZR (2 ^ e))%R.
  Proof.
    intros Hm Hk H1 H2 He H. rewrite emb_lit by auto.
    pose proof (rn_ge_dy (XFin (IZR m / IZR (10 ^ k))) z1 e H1 He ltac:(apply xle_fin; lra)) as A.
    pose proof (rn_le_dy (XFin (IZR m / IZR (10 ^ k))) z2 e H2 He ltac:(apply xle_fin; lra)) as B.
    destruct (rn (XFin (IZR m / IZR (10 ^ k)))) as [|[]|r]; try discriminate.
    exists r. apply xle_fin in A, B. auto.
  Qed.

  Definition tone (v : F) : F := fadd (fmul (gamma_correct v) (fofZ 255)) fhalf.
  Definition knee : F := flit 31308 7.
  Definition gexp : F := fdiv f1 (flit 24 1).

  Lemma knee_val : exists r, emb knee = XFin r /\ (102 / 32768 <= r <= 105 / 32768)%R.
  Proof.
    destruct (lit_between 31308 7 102 105 15) as (r & E & H); [lia..|simpl; lra|]. exists r. simpl in H. split; [auto|lra].
  Qed.
  Lemma lit1055 : exists r, emb (flit 1055 3) = XFin r /\ (17285 / 16384 <= r <= 17286 / 16384)%R.
  Proof.
    destruct (lit_between 1055 3 17285 17286 14) as (r & E & H); [lia..|simpl; lra|]. exists r. simpl in H. split; [auto|lra].
  Qed.
  Lemma lit55 : exists r, emb (flit 55 3) = XFin r /\ (901 / 16384 <= r <= 902 / 16384)%R.
  Proof.
    destruct (lit_between 55 3 901 902 14) as (r & E & H); [lia..|simpl; lra|]. exists r. simpl in H. split; [auto|lra].
  Qed.
  Lemma lit1292 : exists r, emb (flit 1292 2) = XFin r /\ (12 <= r <= 13)%R.
  Proof.
    destruct (lit_between 1292 2 12 13 0) as (r & E & H); [lia..|simpl; lra|]. exists r. simpl in H. split; [auto|lra].
  Qed.

  Lemma xmul_pos_mono r a b : (0 < r)%R -> xle a b = true -> xle (xmul (XFin r) a) (xmul (XFin r) b) = true.
  Proof.
    intros Hr. destruct a as [|[]|a], b as [|[]|b]; cbn; try discriminate; auto;
      rewrite ?(Req_bool_false r 0) by lra; unfold Rsgn; rewrite ?(Rlt_bool_false r 0) by lra; cbn; auto.
    intros H. rb. nra.
  Qed.
  Lemma xadd_mono c a b : xle a b = true -> xle (xadd a (XFin c)) (xadd b (XFin c)) = true.
  Proof. destruct a as [|[]|a], b as [|[]|b]; cbn; try discriminate; auto. intros H. rb. lra. Qed.
  Lemma xsub_mono c a b : xle a b = true -> xle (xsub a (XFin c)) (xsub b (XFin c)) = true.
  Proof. destruct a as [|[]|a], b as [|[]|b]; cbn; try discriminate; auto. intros H. rb. lra. Qed.

  Lemma half_up a k : 1 <= k -> (IZR (a + 2 ^ (k - 1)) / IZR (2 ^ k) = IZR a / IZR (2 ^ k) + / 2)%R.
  Proof.
    intros H. replace (2 ^ k)%Z with (2 * 2 ^ (k - 1))%Z by (rewrite <- Z.pow_succ_r by lia; f_equal; lia).
    assert (P : (0 < IZR (2 ^ (k - 1)))%R) by (apply IZR_lt; pose proof (Z.pow_pos_nonneg 2 (k - 1)); lia).
    rewrite plus_IZR, mult_IZR. field. lra.
  Qed.

  (** The part after [gamma_correct] *)
  Lemma tone_step a b : xle (emb a) (emb b) = true ->
    xle (emb (fadd (fmul a (fofZ 255)) fhalf)) (emb (fadd (fmul b (fofZ 255)) fhalf)) = true.
  Proof.
    intros H. rewrite !emb_add, !emb_mul, emb_ofZ_exact, emb_fhalf by lia. apply rn_le, xadd_mono, rn_le.
    rewrite !(xmul_comm _ (XFin (IZR 255))). apply xmul_pos_mono; auto. lra.
  Qed.

  Lemma emb_tone_le v r z k : emb (gamma_correct v) = r -> Z.abs z <= 2 ^ 16 -> 0 <= k <= 24 -> xle r (XFin (IZR z / IZR (2 ^ k))) = true ->
    Z.abs (z * 255 + 2 ^ (k - 1)) <= 2 ^ 24 -> 1 <= k ->
    xle (emb (tone v)) (XFin (IZR (z * 255 + 2 ^ (k - 1)) / IZR (2 ^ k))) = true.
  Proof.
    intros <- Hz Hk H Hb Hk1. unfold tone. rewrite emb_add, emb_mul, emb_ofZ_exact, emb_fhalf by lia.
    assert (P : (0 < IZR (2 ^ k))%R) by (apply IZR_lt; pose proof (Z.pow_pos_nonneg 2 k); lia).
    assert (E : (IZR (z * 255 + 2 ^ (k - 1)) / IZR (2 ^ k) = IZR (z * 255) / IZR (2 ^ k) + / 2)%R).
    { now apply half_up. }
    apply rn_le_dy; [lia|lia|]. rewrite E. 
    change (XFin (IZR (z * 255) / IZR (2 ^ k) + / 2)) with (xadd (XFin (IZR (z * 255) / IZR (2 ^ k))) (XFin (/ 2))).
    apply xadd_mono. apply rn_le_dy; [lia|lia|].
    replace (IZR (z * 255) / IZR (2 ^ k))%R with (255 * (IZR z / IZR (2 ^ k)))%R by (rewrite mult_IZR; field; lra).
    change (XFin (255 * (IZR z / IZR (2 ^ k)))) with (xmul (XFin 255) (XFin (IZR z / IZR (2 ^ k)))).
    rewrite xmul_comm. apply xmul_pos_mono; auto. lra.
  Qed.

  Lemma emb_tone_ge v r z k : emb (gamma_correct v) = r -> Z.abs z <= 2 ^ 16 -> 0 <= k <= 24 -> xle (XFin (IZR z / IZR (2 ^ k))) r = true ->
    Z.abs (z * 255 + 2 ^ (k - 1)) <= 2 ^ 24 -> 1 <= k ->
    xle (XFin (IZR (z * 255 + 2 ^ (k - 1)) / IZR (2 ^ k))) (emb (tone v)) = true.
  Proof.
    intros <- Hz Hk H Hb Hk1. unfold tone. rewrite emb_add, emb_mul, emb_ofZ_exact, emb_fhalf by lia.
    assert (P : (0 < IZR (2 ^ k))%R) by (apply IZR_lt; pose proof (Z.pow_pos_nonneg 2 k); lia).
    assert (E : (IZR (z * 255 + 2 ^ (k - 1)) / IZR (2 ^ k) = IZR (z * 255) / IZR (2 ^ k) + / 2)%R).
    { now apply half_up. }
    apply rn_ge_dy; [lia|lia|]. rewrite E.
    change (XFin (IZR (z * 255) / IZR (2 ^ k) + / 2)) with (xadd (XFin (IZR (z * 255) / IZR (2 ^ k))) (XFin (/ 2))).
    apply xadd_mono. apply rn_ge_dy; [lia|lia|].
    replace (IZR (z * 255) / IZR (2 ^ k))%R with (255 * (IZR z / IZR (2 ^ k)))%R by (rewrite mult_IZR; field; lra).
    change (XFin (255 * (IZR z / IZR (2 ^ k)))) with (xmul (XFin 255) (XFin (IZR z / IZR (2 ^ k)))).
    rewrite (xmul_comm (emb _)). apply xmul_pos_mono; auto. lra.
  Qed.

  Lemma pw_mono (P : good_powf F) v v' : flt knee v = true -> fle v v' = true -> fle (fpowf v gexp) (fpowf v' gexp) = true.
  Proof. apply (gp_mono P). Qed.
  Lemma pw_one (P : good_powf F) v : fle f1 v = true -> fle f1 (fpowf v gexp) = true.
  Proof. apply (gp_one P). Qed.
  Lemma pw_knee (P : good_powf F) v : flt knee v = true -> xle (XFin (1475 / 16384)) (emb (fpowf v gexp)) = true.
  Proof.
    intros H. pose proof (gp_knee P v H) as Q. rewrite emb_le, emb_div in Q.
    - rewrite !emb_ofZ_exact in Q by lia. rewrite xdiv_fin in Q by lra.
      change 16384%R with (IZR (2 ^ 14)) in *. rewrite rn_dyadic in Q by lia. exact Q.
    - rewrite emb_ofZ_exact by lia. intros E. injection E. lra.
  Qed.

  Lemma gamma_low_mono v v' : fle v knee = true -> fle v' knee = true -> fle v v' = true ->
    xle (emb (gamma_correct v)) (emb (gamma_correct v')) = true.
  Proof.
    intros H1 H2 H. unfold gamma_correct. fold knee. rewrite H1, H2, !emb_mul.
    destruct lit1292 as (r & -> & Hr). rewrite emb_le in H. apply rn_le, xmul_pos_mono; auto. lra.
  Qed.

  Lemma gamma_high_mono (P : good_powf F) v v' : fle v knee = false -> fle v' knee = false -> fle v v' = true ->
    xle (emb (gamma_correct v)) (emb (gamma_correct v')) = true.
  Proof.
    intros H1 H2 H. destruct (fle_nnan _ _ H) as [N1 N2].
    assert (Nk : fis_nan knee = false) by (rewrite emb_nan; destruct knee_val as (r & -> & _); reflexivity).
    assert (K1 : flt knee v = true) by (rewrite flt_nge by auto; now rewrite H1).
    unfold gamma_correct. fold knee. rewrite H1, H2. fold gexp. rewrite !emb_sub, !emb_mul.
    destruct lit1055 as (r & -> & Hr). destruct lit55 as (r2 & -> & Hr2).
    apply rn_le, xsub_mono, rn_le, xmul_pos_mono; [lra|]. pose proof (pw_mono P v v' K1 H) as Q. now rewrite emb_le in Q.
  Qed.

  Lemma round_eq x z : (IZR z - / 2 < x < IZR z + / 2)%R -> Zround_away x = z.
  Proof. intros H. unfold Zround_away. apply Znearest_imp. apply Rabs_def1; lra. Qed.

  Lemma tone_below v : fle v knee = true -> level (tone v) <= 11.
  Proof.
    intros H. rewrite level_eq.
    assert (E : xle (emb (gamma_correct v)) (XFin (IZR 1365 / IZR (2 ^ 15))) = true).
    { unfold gamma_correct. fold knee. rewrite H, emb_mul. destruct lit1292 as (r & -> & Hr). rewrite emb_le in H.
      destruct knee_val as (k & Ek & Hk). rewrite Ek in H. apply rn_le_dy; [lia|lia|].
      eapply xle_trans; [apply xmul_pos_mono; [|exact H]; lra|]. cbn [xmul]. apply xle_fin. simpl. nra. }
    pose proof (emb_tone_le v _ 1365 15 eq_refl ltac:(lia) ltac:(lia) E ltac:(lia) ltac:(lia)) as Q.
    eapply Z.le_trans; [apply level_of_mono; exact Q|]. cbn [level_of]. rewrite (round_eq _ 11); [lia|]. simpl. lra.
  Qed.

  Lemma tone_above (P : good_powf F) v : flt knee v = true -> 11 <= level (tone v).
  Proof.
    intros H. rewrite level_eq.
    assert (Hn : fle v knee = false).
    { assert (Nk : fis_nan knee = false) by (rewrite emb_nan; destruct knee_val as (r & -> & _); reflexivity).
      assert (Nv : fis_nan v = false) by (apply flt_le in H; now apply fle_nnan in H).
      rewrite flt_nge in H by auto. now apply negb_true_iff in H. }
    assert (E : xle (XFin (IZR 654 / IZR (2 ^ 14))) (emb (gamma_correct v)) = true).
    { unfold gamma_correct. fold knee. rewrite Hn. fold gexp. rewrite emb_sub, emb_mul.
      destruct lit1055 as (r & -> & Hr). destruct lit55 as (r2 & -> & Hr2).
      pose proof (pw_knee P v H) as Q.
      apply rn_ge_dy; [lia|lia|].
      assert (M : xle (XFin (IZR 1556 / IZR (2 ^ 14))) (rn (xmul (XFin r) (emb (fpowf v gexp)))) = true).
      { apply rn_ge_dy; [lia|lia|]. eapply xle_trans; [|apply xmul_pos_mono; [|exact Q]; lra]. cbn [xmul]. apply xle_fin. simpl. nra. }
      eapply xle_trans; [|apply xsub_mono; exact M]. cbn [xsub]. apply xle_fin. simpl. lra. }
    pose proof (emb_tone_ge v _ 654 14 eq_refl ltac:(lia) ltac:(lia) E ltac:(lia) ltac:(lia)) as Q.
    eapply Z.le_trans; [|apply level_of_mono; exact Q]. cbn [level_of]. rewrite (round_eq _ 11); [lia|]. simpl. lra.
  Qed.

  Lemma tone_mono (P : good_powf F) v v' : fle v v' = true -> level (tone v) <= level (tone v').
  Proof.
    intros H. destruct (fle_nnan _ _ H) as [N1 N2].
    assert (Nk : fis_nan knee = false) by (rewrite emb_nan; destruct knee_val as (r & -> & _); reflexivity).
    destruct (fle v knee) eqn:E1, (fle v' knee) eqn:E2.
    - rewrite !level_eq. apply level_of_mono, tone_step, gamma_low_mono; auto.
    - apply Z.le_trans with 11; [now apply tone_below|]. apply tone_above; auto. rewrite flt_nge by auto. now rewrite E2.
    - exfalso. rewrite (fle_trans _ _ _ H E2) in E1. discriminate.
    - rewrite !level_eq. apply level_of_mono, tone_step, gamma_high_mono; auto.
  Qed.

  Lemma tone_white (P : good_powf F) v : fle f1 v = true -> level (tone v) = 255.
  Proof.
    intros H. assert (Hn : fle v knee = false).
    { destruct (fle v knee) eqn:E; auto. pose proof (fle_trans _ _ _ H E) as Q. rewrite emb_le, emb_f1 in Q.
      destruct knee_val as (r & Er & Hr). rewrite Er in Q. apply xle_fin in Q. lra. }
    pose proof (level_of_range (emb (tone v))) as R. rewrite level_eq. apply Z.le_antisymm; [lia|].
    assert (E : xle (XFin (IZR 16383 / IZR (2 ^ 14))) (emb (gamma_correct v)) = true).
    { unfold gamma_correct. fold knee. rewrite Hn. fold gexp. rewrite emb_sub, emb_mul.
      destruct lit1055 as (r & -> & Hr). destruct lit55 as (r2 & -> & Hr2).
      pose proof (pw_one P v H) as Q. rewrite emb_le, emb_f1 in Q.
      apply rn_ge_dy; [lia|lia|].
      assert (M : xle (XFin (IZR 17285 / IZR (2 ^ 14))) (rn (xmul (XFin r) (emb (fpowf v gexp)))) = true).
      { apply rn_ge_dy; [lia|lia|]. eapply xle_trans; [|apply xmul_pos_mono; [|exact Q]; lra]. cbn [xmul]. apply xle_fin. simpl. lra. }
      eapply xle_trans; [|apply xsub_mono; exact M]. cbn [xsub]. apply xle_fin. simpl. lra. }
    pose proof (emb_tone_ge v _ 16383 14 eq_refl ltac:(lia) ltac:(lia) E ltac:(lia) ltac:(lia)) as Q.
    apply level_of_mono in Q. cbn [level_of] in Q. rewrite (round_eq _ 255) in Q; [lia|]. simpl. lra.
  Qed.

  Lemma tone_black v : emb v = XFin 0 -> level (tone v) = 1.
  Proof.
    intros E. assert (H : fle v knee = true).
    { rewrite emb_le, E. destruct knee_val as (r & -> & Hr). apply xle_fin. lra. }
    rewrite level_eq. unfold tone, gamma_correct. fold knee. rewrite H, emb_add, !emb_mul, E, emb_fhalf.
    destruct lit1292 as (r & -> & _). cbn [xmul]. rewrite Rmult_0_r, rn_0, emb_ofZ_exact by lia. cbn [xmul]. rewrite Rmult_0_l, rn_0. cbn [xadd].
    rewrite Rplus_0_l, rn_half. cbn [level_of]. replace (Zround_away (/ 2)) with 1; [reflexivity|].
    unfold Zround_away, Znearest. replace (Zfloor (/ 2)) with 0 by (symmetry; apply Zfloor_imp; simpl; lra).
    rewrite Rcompare_Eq by (simpl; lra). simpl. symmetry. apply Zceil_imp. simpl. lra.
  Qed.
End Tone.
