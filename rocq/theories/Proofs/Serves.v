(** * Both samplers deliver max(1, spp) samples per pixel *)
From Coq Require Import ZArith Reals List Bool Lia ZifyBool Znumtheory.
From Verif Require Import Model.Num Model.NumX Model.Vector Model.Common Model.BBox Model.Film Model.HaltonTable Model.Sampler Model.Render.
From Verif Require Import Spec.HaltonSpec Spec.SamplerSpec Spec.RenderSpec.
From Verif Require Import Proofs.XBase Proofs.FLaws Proofs.Halton Proofs.HaltonState.
Import ListNotations.
Local Open Scope Z_scope.

Section S.
  Context {F} {FO : FOps F} {FL : FLaws F}.

  Lemma sample_dim_unit m s i d (v : F) : sample_dimension m s i d = Ok v -> in_unit v.
  Proof.
    unfold sample_dimension, radical_inverse_prime.
    destruct (d =? 0).
    - destruct (idx halton_bases 0) as [ba| |]; try discriminate. apply radical_inverse_range.
    - destruct (d =? 1).
      + destruct (py (h_scale s) =? 0); [discriminate|].
        destruct (idx halton_bases 1) as [ba| |]; try discriminate. apply radical_inverse_range.
      + destruct (idx halton_bases d) as [ba| |]; try discriminate. apply radical_inverse_range.
  Qed.

  Lemma halton_2d_unit m s p s' : halton_get_2d (F := F) m s = Ok (p, s') -> in_unit (px p) /\ in_unit (py p).
  Proof.
    unfold halton_get_2d. destruct (sample_dimension m s _ _) as [v| |] eqn:Ev; try discriminate. cbn [rbind].
    destruct (u32_of m (h_dim s + 1)) as [d1| |]; try discriminate. cbn [rbind].
    destruct (sample_dimension m s (h_interval s) d1) as [v1| |] eqn:Ev1; try discriminate. cbn [rbind].
    destruct (u32_of m _); try discriminate. cbn [rbind]. intros [= <- <-]. cbn [px py]. eauto using sample_dim_unit.
  Qed.

  Lemma radical_defined m base a k : 2 <= base -> 0 <= a < base ^ Z.of_nat k -> base ^ Z.of_nat k < 2 ^ 32 ->
    exists v : F, radical_inverse m base a = Ok v.
  Proof.
    intros Hb Ha Hk. unfold radical_inverse.
    destruct (digit_count_exists_fuel base 32 a Hb) as (n & Hc & Hn); [split; [lia|]; change (2 ^ Z.of_nat 32) with (2 ^ 32); lia|].
    assert (Fit : 1 * base ^ Z.of_nat n < 2 ^ 32).
    { rewrite Z.mul_1_l. destruct Hc as [_ Hc]. eapply Z.le_lt_trans; [|exact Hk]. apply Z.pow_le_mono_r; [lia|].
      destruct (Z.le_gt_cases (Z.of_nat n) (Z.of_nat k)) as [L|L]; [exact L|].
      destruct n as [|n]; [lia|]. specialize (Hc ltac:(lia)). cbn [pred] in Hc.
      assert (base ^ Z.of_nat k <= base ^ Z.of_nat n) by (apply Z.pow_le_mono_r; lia). lia. }
    rewrite (radical_loop_exact m 32 base n a 0 1) by (auto; lia).
    cbn [rbind]. eauto.
  Qed.

  (** The camera sample: dimensions 0 and 1. *)
  Lemma halton_camera m s0 s ex ey : hstat s0 ex ey -> hinv s0 s -> h_dim s = 0 ->
    m = Release \/ h_interval s < 2 ^ 31 ->
    exists u, halton_get_2d (F := F) m s = Ok (u, halton_set_dim s 2).
  Proof.
    intros H I Hd Hm. unfold halton_get_2d. rewrite Hd. cbn [Z.add]. rewrite !(u32_of_ok m) by lia.
    unfold sample_dimension. cbn [Z.eqb rbind Pos.eqb].
    rewrite (hi_exp _ _ I), (hi_scale _ _ I), (hs_exp _ _ _ H), (hs_scale _ _ _ H). cbn [px py].
    pose proof (hi_interval _ _ I) as Hi. pose proof (pow3_bound ey (hs_ey _ _ _ H)). pose proof (pow2_bound ex (hs_ex _ _ _ H)).
    replace (3 ^ ey =? 0) with false by lia.
    assert (S1 : 0 <= Z.shiftr (h_interval s) ex <= h_interval s).
    { rewrite Z.shiftr_div_pow2 by (pose proof (hs_ex _ _ _ H); lia).
      split; [apply Z.div_pos; lia|]. apply Z.div_le_upper_bound; nia. }
    assert (S2 : 0 <= h_interval s / 3 ^ ey <= h_interval s).
    { split; [apply Z.div_pos; lia|]. apply Z.div_le_upper_bound; nia. }
    unfold radical_inverse_prime. change (idx halton_bases 0) with (Ok 2). change (idx halton_bases 1) with (Ok 3). cbn [rbind].
    assert (X : exists v : F, radical_inverse m 2 (Z.shiftr (h_interval s) ex) = Ok v).
    { destruct Hm as [->|Hm].
      - destruct (radical_inverse_release 2 (Z.shiftr (h_interval s) ex)) as (v & q & E & _); [lia|lia|eauto].
      - apply (radical_defined m 2 _ 31); try lia; change (2 ^ Z.of_nat 31) with (2 ^ 31); lia. }
    assert (Y : exists v : F, radical_inverse m 3 (h_interval s / 3 ^ ey) = Ok v).
    { destruct Hm as [->|Hm].
      - destruct (radical_inverse_release 3 (h_interval s / 3 ^ ey)) as (v & q & E & _); [lia|lia|eauto].
      - apply (radical_defined m 3 _ 20); try lia; change (3 ^ Z.of_nat 20) with 3486784401; lia. }
    destruct X as (x & ->), Y as (y & ->). cbn [rbind]. eauto.
  Qed.

  Lemma draws_hinv m s0 s s' : hinv s0 s -> draws (halton_ops (F := F) m) s s' -> hinv s0 s' /\ h_index s' = h_index s /\ h_pixel s' = h_pixel s.
  Proof.
    intros I D. induction D as [|s1 x s2 D [IH1 [IH2 IH3]] E|s1 x s2 D [IH1 [IH2 IH3]] E]; auto.
    - split; [eapply hinv_1d; [exact IH1|exact E]|]. cbn in E. unfold halton_get_1d in E.
      destruct (sample_dimension m s1 _ _); try discriminate. cbn [rbind] in E. destruct (u32_of m _); try discriminate. cbn [rbind] in E.
      injection E as _ <-. cbn. auto.
    - split; [eapply hinv_2d; [exact IH1|exact E]|]. cbn in E. unfold halton_get_2d in E.
      destruct (sample_dimension m s1 _ _); try discriminate. cbn [rbind] in E. destruct (u32_of m (_ + 1)) as [d1| |]; try discriminate. cbn [rbind] in E.
      destruct (sample_dimension m s1 _ d1); try discriminate. cbn [rbind] in E. destruct (u32_of m _); try discriminate. cbn [rbind] in E.
      injection E as _ <-. cbn. auto.
  Qed.

  Lemma draws_reach {ST} (sm : sampler_ops F ST) s0 s s' : reach sm s0 s -> draws sm s s' -> reach sm s0 s'.
  Proof. intros R D. induction D; auto; [eapply reach_1d|eapply reach_2d]; eauto. Qed.

  Definition h_left (s0 s : halton) : nat := Z.to_nat (Z.max 1 (h_spp s0) - h_index s).
  Definition h_between (m : build) (s0 s : halton) : Prop :=
    (reach (halton_ops (F := F) m) s0 s /\ hinv s0 s) /\ h_index s <= Z.max 1 (h_spp s0).
  Definition h_begin (m : build) (s0 s : halton) : Prop :=
    h_between m s0 s /\ h_dim s = 0 /\ h_small m s0 s /\
    exists p i iv, s = at_sample s0 p i 0 iv.
  (** A camera sample has just been drawn: dimension 2. *)
  Definition h_ready (m : build) (s0 s : halton) : Prop := h_between m s0 s /\ h_dim s = 2 /\ h_small m s0 s.

  Lemma halton_serves m s0 ex ey shade : hstat s0 ex ey -> hinv s0 s0 -> 0 <= h_spp s0 < 2 ^ 32 ->
    m = Release \/ (h_spp s0 + 1) * 31104 < 2 ^ 31 ->
    (forall s p, reach (halton_ops (F := F) m) s0 s -> h_dim s = 2 -> h_small m s0 s -> exists l s', shade s p = Ok (l, s') /\ draws (halton_ops (F := F) m) s s') ->
    serves (halton_ops (F := F) m) shade (h_between m s0) (h_begin m s0) (h_ready m s0) (h_left s0) (samples (h_spp s0)).
  Proof.
    intros H I0 Hspp Hm Hsh.
    pose proof (stride_bound ex ey (hs_ex _ _ _ H) (hs_ey _ _ _ H)) as Hst. pose proof (hs_stride _ _ _ H) as Es.
    constructor.
    - intros s p [[Rs I] Hi]. pose proof (start_pixel_eq m s0 s ex ey p H I) as Est. cbn. rewrite Est.
      pose proof (off_range s0 ex ey p H). eexists. split; [reflexivity|]. split; [|unfold h_left, samples; cbn; lia].
      split; [split; [split; [exact (reach_start (halton_ops m) s0 s p _ Rs Est)|apply hinv_at; lia]|cbn; lia]|]. split; [reflexivity|]. split; [right; cbn; nia|eauto].
    - intros s [[[Rs I] Hi] [Hd [Hiv _]]]. destruct (halton_camera m s0 s ex ey H I Hd ltac:(unfold h_small in Hiv; destruct Hiv; [now left|destruct Hm; [now left|right; lia]])) as (u & E).
      exists u, (halton_set_dim s 2). cbn. split; [exact E|].
      split; [split; [split; [split; [exact (reach_2d (halton_ops m) s0 s u _ Rs E)|eapply hinv_2d; [exact I|exact E]]|exact Hi]|split; [reflexivity|exact Hiv]]|].
      split; [reflexivity|eapply halton_2d_unit; exact E].
    - intros s p [[[Rs I] Hi] [Hd Hiv]]. destruct (Hsh s p Rs Hd Hiv) as (l & s' & E & D).
      destruct (draws_hinv m s0 s s' I D) as (I' & Ei & Ep).
      exists l, s'. split; [exact E|]. unfold h_between, h_left. rewrite Ei. split; auto. split; auto. split; auto. now apply (draws_reach _ s0 s).
    - intros s [[Rs I] Hi] Hl. unfold h_left in Hl.
      assert (T : exists b s', halton_next_sample m s = Ok (b, s')).
      { unfold halton_next_sample. pose proof (hi_index _ _ I). rewrite u32_of_ok by lia. cbn [rbind].
        unfold halton_reset, get_index_for_sample. destruct I.
        rewrite (refresh_ok m _ ex ey); cbn.
        2:{ apply (hstat_static s0); auto. }
        2:{ rewrite hi_cache. symmetry. apply off_static; auto. }
        rewrite (off_static s0) by auto. rewrite hi_stride.
        destruct Hm as [->|Hm].
        - destruct (u32_of_release ((h_index s + 1) * h_stride s0)) as (a & -> & _). cbn [rbind].
          destruct (u32_of_release (off s0 (h_pixel s) + a)) as (c & -> & _). cbn [rbind]. eauto.
        - pose proof (off_range s0 ex ey (h_pixel s) H).
          rewrite (u32_of_ok m ((h_index s + 1) * h_stride s0)) by nia. cbn [rbind].
          rewrite u32_of_ok by nia. cbn [rbind]. eauto. }
      destruct T as (b & s' & E). exists b, s'. split; [exact E|].
      destruct (hinv_next m s0 s ex ey b s' H I E) as (I' & _ & Eb).
      assert (Ei : h_index s' = h_index s + 1 /\ h_dim s' = 0 /\ (h_index s + 1 < h_spp s0 -> h_small m s0 s') /\ exists p i iv, s' = at_sample s0 p i 0 iv).
      { revert E. unfold halton_next_sample. pose proof (hi_index _ _ I). rewrite u32_of_ok by lia. cbn [rbind].
        unfold halton_reset, get_index_for_sample. destruct I.
        rewrite (refresh_ok m _ ex ey); cbn.
        2:{ apply (hstat_static s0); auto. }
        2:{ rewrite hi_cache. symmetry. apply off_static; auto. }
        rewrite (off_static s0) by auto. rewrite hi_stride.
        destruct (u32_of m ((h_index s + 1) * h_stride s0)) as [q| |] eqn:Eq; try discriminate. cbn [rbind].
        destruct (u32_of m (off s0 (h_pixel s) + q)) as [iv| |] eqn:Eiv; try discriminate. cbn [rbind].
        intros E. assert (E2 := f_equal (fun r => match r with Ok (_, x) => Some x | _ => None end) E). cbn beta iota in E2.
        injection E2 as <-. cbn [h_index h_dim h_interval]. split; [reflexivity|]. split; [reflexivity|]. split.
        - intros Hlt. unfold h_small. destruct Hm as [->|Hm]; [now left|right]. cbn [h_interval].
          pose proof (off_range s0 ex ey (h_pixel s) H).
          rewrite (u32_of_ok m ((h_index s + 1) * h_stride s0)) in Eq by nia. injection Eq as <-.
          rewrite u32_of_ok in Eiv by nia. injection Eiv as <-. nia.
        - exists (h_pixel s), (h_index s + 1), iv. unfold at_sample. congruence. }
      destruct Ei as (Ei & Ed & Eiv & Ea). unfold h_left. rewrite Ei. assert (R' := reach_next (halton_ops m) s0 s b s' Rs E).
      split; [split; [split; [exact R'|exact I']|lia]|].
      pose proof (hi_index _ _ I). split; [lia|]. split; [rewrite Eb, Ei; lia|]. intros Hb. split; [split; [auto|lia]|]. split; [auto|]. split; [apply Eiv; lia|auto].
  Qed.

  Lemma halton_forgets m s0 ex ey : hstat s0 ex ey -> forgets (halton_ops (F := F) m) (h_between m s0).
  Proof. intros H s s' p [I _] [I' _]. cbn. now rewrite !(start_pixel_eq m s0 _ ex ey p H). Qed.

  (** ** The random sampler *)
  Section R.
    Context {G : Type} (gen : G -> F * G) (m : build) (spp : Z).
    Hypothesis Hgen : forall g, in_unit (fst (gen g)).

    Definition r_between (s : random_sampler (G := G)) : Prop := rs_spp s = spp /\ 0 <= rs_index s <= Z.max 1 spp.
    Definition r_begin (s : random_sampler (G := G)) : Prop := r_between s /\ rs_index s < Z.max 1 spp.
    Definition r_left (s : random_sampler (G := G)) : nat := Z.to_nat (Z.max 1 spp - rs_index s).

    Lemma draws_random s s' : draws (random_ops gen m) s s' -> rs_spp s' = rs_spp s /\ rs_index s' = rs_index s.
    Proof.
      induction 1 as [|s1 x s2 D [IH1 IH2] E|s1 x s2 D [IH1 IH2] E]; auto; cbn in E.
      - unfold random_get_1d in E. destruct (random_assert m s1); try discriminate. cbn [rbind] in E.
        destruct (gen (rs_rng s1)) as [y g]. injection E as <- <-. cbn. auto.
      - unfold random_get_2d in E. destruct (random_assert m s1); try discriminate. cbn [rbind] in E.
        destruct (gen (rs_rng s1)) as [y g]. destruct (gen g) as [z g']. injection E as <- <-. cbn. auto.
    Qed.

    Lemma random_serves shade : 0 <= spp < 2 ^ 32 -> m = Release \/ 1 <= spp ->
      (forall s p, r_begin s -> exists l s', shade s p = Ok (l, s') /\ draws (random_ops gen m) s s') ->
      serves (random_ops gen m) shade r_between r_begin r_begin r_left (samples spp).
    Proof.
      intros Hspp Hm Hsh. constructor.
      - intros s p [E _]. cbn. eexists. split; [reflexivity|]. unfold r_begin, r_between, r_left, samples. cbn. lia.
      - intros s [[E Hi] Hl]. cbn. unfold random_get_2d.
        assert (Ea : random_assert m s = Ok tt).
        { unfold random_assert. destruct m; auto. destruct Hm as [?|Hm]; [discriminate|]. now replace (rs_index s <? rs_spp s) with true by lia. }
        rewrite Ea. cbn [rbind]. pose proof (Hgen (rs_rng s)) as U1. destruct (gen (rs_rng s)) as [x g].
        pose proof (Hgen g) as U2. destruct (gen g) as [y g']. eexists. eexists. split; [reflexivity|].
        unfold r_begin, r_between, r_left. cbn. auto.
      - intros s p Hb. destruct (Hsh s p Hb) as (l & s' & E & D). destruct (draws_random s s' D) as [E1 E2].
        exists l, s'. split; [exact E|]. destruct Hb as [[E3 E4] _]. unfold r_between, r_left. rewrite E1, E2. auto.
      - intros s [E Hi] Hl. unfold r_left in Hl. cbn. unfold random_next_sample. rewrite u32_of_ok by lia. cbn [rbind].
        eexists. eexists. split; [reflexivity|]. unfold r_begin, r_between, r_left. cbn. rewrite E.
        split; [lia|]. split; [lia|]. split; [split; lia|]. intros Hb. lia.
    Qed.
  End R.
End S.
