(** * C108: rounding on the film *)
From Coq Require Import ZArith Reals List Bool Lia Lra Permutation.
From Flocq Require Import Core IEEE754.BinarySingleNaN.
From Verif Require Import Model.Num Model.NumX Model.NumB Model.Vector Model.BBox Model.Film Model.Sampler Model.Render.
From Verif Require Import Spec.Grid Spec.FilmSpec Spec.SamplerSpec Spec.RenderSpec Spec.Ppm Spec.RoundSpec.
From Verif Require Import Proofs.XBase Proofs.BBase Proofs.FLaws Proofs.Iter Proofs.Tiles Proofs.FilmGrid Proofs.FilmOps Proofs.FilmJobs Proofs.RenderLocal Proofs.Threads Proofs.Order Proofs.RoundProofs Proofs.TraceProofs.
From Verif Require Import Props.RenderProps.
Import ListNotations.
Local Open Scope Z_scope.

(** The pixel written to the file is the quotient of the two sums (film.rs:229-231).  However samples
    were added and pixels merged, in binary32 each channel of it is the exact weighted mean of the samples
    that reached the pixel, up to a relative error that grows with the longest chain of additions only. *)
Theorem C108_pixel : forall (L : Libm b32) (t : trace b32) (c : chan),
  moderate (arrived t) -> Z.of_nat (chain t) < 2 ^ 20 ->
  near_mean (chain t) c (arrived t) (fdiv (FOps := B32_FOps L) (sel c (p_color (result t))) (p_wsum (result t))).
Proof.
  intros L t c (Hc & (Hw1 & Hw2) & Hl) Hn. Local Open Scope R_scope.
  pose proof u_range as U. pose proof eta_pos as Te.
  set (n := chain t) in *. set (k := length (arrived t)) in *.
  set (W := weight_sum (arrived t)) in *. set (C := light_sum c (arrived t)) in *.
  assert (Hn' : INR (n + 1) <= IZR (2 ^ 20)).
  { rewrite INR_IZR_INZ. apply IZR_le. lia. }
  assert (Hk : INR k <= IZR (2 ^ 20)). { rewrite INR_IZR_INZ. now apply IZR_le. }
  assert (Ee : IZR (2 ^ 20) * eta = / IZR (2 ^ 130)).
  { unfold eta. change (2 ^ 150)%Z with (2 ^ 20 * 2 ^ 130)%Z. rewrite mult_IZR, Rinv_mult.
    assert (0 < IZR (2 ^ 20)) by now apply IZR_lt. field. split; apply Rgt_not_eq, IZR_lt; reflexivity. }
  assert (S130 : / IZR (2 ^ 130) <= 1).
  { rewrite <- Rinv_1. apply Rinv_le; [lra|]. apply IZR_le. lia. }
  assert (Hke : INR k * eta <= / IZR (2 ^ 130)). { rewrite <- Ee. apply Rmult_le_compat_r; lra. }
  assert (Hk0 : 0 <= INR k * eta) by (apply Rmult_le_pos; [apply pos_INR|lra]).
  assert (HnN : INR (n + 1) * u <= / 16).
  { unfold u. assert (E20 : IZR (2 ^ 20) = 1048576) by reflexivity. rewrite E20 in *. lra. }
  assert (HS : INR (S n) * u <= / 2). { replace (S n) with (n + 1)%nat by lia. lra. }
  destruct (trace_sums L t c Hc Hw2 HS ltac:(fold k; lra)) as (a & b & Na & Nb & Ha & Hb).
  fold n k W C in Ha, Hb.
  pose proof (clean_sums c _ Hc) as (W0 & C0 & C1). fold W C in W0, C0, C1.
  assert (P20 : 0 < / IZR (2 ^ 20)) by (apply Rinv_0_lt_compat, IZR_lt; reflexivity).
  assert (Wp : 0 < W) by lra.
  pose proof (up_le_2 (S n) HS) as Up. pose proof (up_ge (S n)) as Ug. pose proof (up_mono n (S n) ltac:(lia)) as Um. pose proof (up_ge n) as Un.
  pose proof (dn_range n) as Dn. pose proof (dn_range (S n)) as DS.
  assert (Bn : / 2 <= dn n). { pose proof (bernoulli n). rewrite S_INR in HS. lra. }
  set (E := C / W).
  assert (EC : C = E * W) by (unfold E; field; lra).
  assert (E0 : 0 <= E). { apply Rmult_le_pos; auto. apply Rlt_le. now apply Rinv_0_lt_compat. }
  assert (E1 : E <= IZR (2 ^ 90)). { apply (Rmult_le_reg_r W); auto. rewrite <- EC. lra. }
  set (f := INR k * eta / W).
  assert (Ef : INR k * eta = f * W) by (unfold f; field; lra).
  assert (f0 : 0 <= f). { apply Rmult_le_pos; auto. apply Rlt_le. now apply Rinv_0_lt_compat. }
  assert (f1 : f <= / IZR (2 ^ 110)).
  { apply (Rmult_le_reg_r W); auto. rewrite <- Ef. eapply Rle_trans; [exact Hke|].
    apply Rle_trans with (/ IZR (2 ^ 110) * / IZR (2 ^ 20)).
    - change (2 ^ 130)%Z with (2 ^ 110 * 2 ^ 20)%Z. rewrite mult_IZR, Rinv_mult. lra.
    - apply Rmult_le_compat_l; auto. apply Rlt_le, Rinv_0_lt_compat, IZR_lt. reflexivity. }
  rewrite EC, Ef in Ha.
  assert (bp : 0 < b). { assert (/ 2 * W <= dn n * W) by (apply Rmult_le_compat_r; lra). lra. }
  (* the quotient of the two sums *)
  assert (Q1 : a / b <= up (S n) * / dn n * (E + f)).
  { apply (Rmult_le_reg_r b); auto. unfold Rdiv. rewrite Rmult_assoc, Rinv_l, Rmult_1_r by lra.
    eapply Rle_trans; [apply Ha|].
    replace (up (S n) * (E * W + f * W)) with (up (S n) * / dn n * (E + f) * (dn n * W)) by (field; lra).
    apply Rmult_le_compat_l; [|lra]. apply Rmult_le_pos; [|lra]. apply Rmult_le_pos; [lra|]. apply Rlt_le, Rinv_0_lt_compat. lra. }
  assert (Id : 0 < / dn n) by (apply Rinv_0_lt_compat; lra).
  assert (Q2 : dn (S n) * dn n * E - 2 * f <= a / b).
  { apply (Rmult_le_reg_r b); auto. unfold Rdiv. rewrite (Rmult_assoc a), Rinv_l, Rmult_1_r by lra.
    eapply Rle_trans; [|apply Ha]. rewrite Rmult_minus_distr_r.
    assert (b * dn n <= W). { apply Rle_trans with (up n * W * dn n); [apply Rmult_le_compat_r; lra|]. pose proof (up_dn n). nra. }
    assert (dn (S n) * dn n * E * b <= dn (S n) * (E * W)).
    { replace (dn (S n) * dn n * E * b) with (dn (S n) * (E * (b * dn n))) by ring. apply Rmult_le_compat_l; [lra|]. apply Rmult_le_compat_l; lra. }
    assert (/ 2 * W <= b). { eapply Rle_trans; [|apply Hb]. apply Rmult_le_compat_r; lra. }
    assert (f * W <= 2 * f * b). { replace (f * W) with (2 * f * (/ 2 * W)) by field. apply Rmult_le_compat_l; lra. }
    lra. }
  assert (S110 : / IZR (2 ^ 110) <= 1). { rewrite <- Rinv_1. apply Rinv_le; [lra|]. apply IZR_le. lia. }
  assert (Id2 : / dn n <= 2). { rewrite <- (Rinv_inv 2). apply Rinv_le; lra. }
  destruct (nn_div L _ _ a b Na Nb bp) as (v & Nv & Hv).
  { eapply Rle_trans; [exact Q1|]. apply Rle_trans with (2 * 2 * (IZR (2 ^ 90) + 1)).
    - apply Rmult_le_compat; try lra; [apply Rmult_le_pos; lra|]. apply Rmult_le_compat; lra.
    - rewrite big_eq. pose proof p30. pose proof p90. nra. }
  destruct Nv as (Fv & Ev & Pv). split; [exact Fv|]. unfold FO, FO1 in Ev. rewrite Ev. change (exact_mean c (arrived t)) with E. clear Ev Fv.
  (* the factors *)
  assert (Dd : 1 - 2 * (INR (n + 1) * u) <= (1 - u) * (dn (S n) * dn n)).
  { rewrite <- dn_add. change ((1 - u) * dn (S n + n)) with (dn (S (S n + n))).
    eapply Rle_trans; [|apply bernoulli]. replace (S (S n + n)) with ((n + 1) + (n + 1))%nat by lia. rewrite (plus_INR (n + 1)). lra. }
  set (x := INR (n + 1) * u) in *.
  assert (x0 : 0 <= x) by (apply Rmult_le_pos; [apply pos_INR|lra]).
  assert (Uu : (1 + u) * (up (S n) * / dn n) <= 1 + 4 * x).
  { apply (Rmult_le_reg_r (dn (S (S n + n)))); [apply dn_range|].
    assert (E3 : (1 + u) * (up (S n) * / dn n) * dn (S (S n + n)) = up (S (S n)) * dn (S (S n))).
    { replace (S (S n + n)) with (S (S n) + n)%nat by lia. rewrite dn_add. change (up (S (S n))) with ((1 + u) * up (S n)). field. lra. }
    rewrite E3. eapply Rle_trans; [apply up_dn|].
    change (dn (S (S n + n))) with ((1 - u) * dn (S n + n)). rewrite dn_add.
    apply Rle_trans with ((1 + 4 * x) * (1 - 2 * x)); [nra|]. apply Rmult_le_compat_l; lra. }
  assert (Ex : INR (n + 1) / IZR (2 ^ 22) = 4 * x) by (unfold x, u; change (IZR (2 ^ 22)) with 4194304; field).
  rewrite Ex.
  assert (S100 : 3 * / IZR (2 ^ 110) + eta <= / IZR (2 ^ 100)).
  { assert (eta <= / IZR (2 ^ 110)). { unfold eta. apply Rinv_le; [apply IZR_lt; reflexivity|]. apply IZR_le. lia. }
    assert (/ IZR (2 ^ 100) = 1024 * / IZR (2 ^ 110)).
    { change (2 ^ 110)%Z with (1024 * 2 ^ 100)%Z. rewrite mult_IZR, Rinv_mult. lra. }
    assert (0 < / IZR (2 ^ 110)) by (apply Rinv_0_lt_compat, IZR_lt; reflexivity). lra. }
  apply Rabs_le. split.
  - assert ((1 - 2 * x) * E <= (1 - u) * (dn (S n) * dn n) * E) by (apply Rmult_le_compat_r; lra).
    assert ((1 - u) * (dn (S n) * dn n * E - 2 * f) <= (1 - u) * (a / b)) by (apply Rmult_le_compat_l; lra).
    assert (0 <= u * f) by (apply Rmult_le_pos; lra). assert (0 <= x * E) by (apply Rmult_le_pos; lra). lra.
  - assert ((1 + u) * (a / b) <= (1 + u) * (up (S n) * / dn n * (E + f))) by (apply Rmult_le_compat_l; lra).
    assert ((1 + u) * (up (S n) * / dn n) * (E + f) <= (1 + 4 * x) * (E + f)) by (apply Rmult_le_compat_r; lra).
    assert (x * f <= / 2 * f) by (apply Rmult_le_compat_r; lra). lra.
Qed.
Print Assumptions C108_pixel.

(** ** Whole renders *)
Local Open Scope Z_scope.

Section Run.
  Context {F} {FO : FOps F} {FL : FLaws F} {ST : Type}.
  Variable (m : build) (sm : sampler_ops F ST) (shade : ST -> P2 F -> res (V3 F * ST)) (fuel : nat).
  Variables (I A B : ST -> Prop) (left : ST -> nat) (n : nat) (r : R) (fm : film F).
  Hypothesis V : serves sm shade I A B left n.
  Hypothesis W : film_ok r fm.
  Hypothesis Hn : (1 <= n <= fuel)%nat.

  (** The jobs of a complete run: each tile once, in some order. *)
  Lemma run_jobs_of s k y0 j y : I s -> start_sys m fm s k = Ok y0 -> (1 <= k)%nat ->
    steps m sm shade fuel j y0 y -> all_done y ->
    exists js, rfold (run_job m) js fm = Ok (y_film y) /\ Permutation (map fst js) (tile_list (film_sample_bbox fm)) /\
      forall x, In x js -> tile_of_sample_area fm (fst x) /\ produced m sm shade fuel I n fm (fst x) (snd x).
  Proof.
    intros Is E0 Hk Sy Hd.
    pose proof (start_inv m sm shade fuel I n r fm W s k y0 Is E0) as Q0.
    destruct (steps_inv m sm shade fuel I A B left n r fm V W Hn j y0 y [] Q0 Sy) as (js & Q & _ & Len).
    destruct (all_done_inv m sm shade fuel I n r fm y js Q Hd) as (_ & H1 & H2).
    { intros E. rewrite E in Len. unfold start_sys in E0. destruct (tile_iter_new m _); try discriminate. cbn [rbind] in E0. injection E0 as <-.
      cbn in Len. rewrite repeat_length in Len. lia. }
    assert (Pm : Permutation (map fst js) (tile_list (film_sample_bbox fm))).
    { rewrite (si_jobs _ _ _ _ _ _ _ _ _ _ Q), H1. apply Permutation_map. rewrite <- !Permutation_rev. now apply Permutation_sym. }
    exists js. split; [exact (si_film _ _ _ _ _ _ _ _ _ _ Q)|]. split; [exact Pm|].
    intros x Hx. split; [|apply (si_prod _ _ _ _ _ _ _ _ _ _ Q); auto].
    apply (proj1 (tile_list_partitions _ (sample_bbox_tileable r fm W))).
    eapply Permutation_in; [exact Pm|]. now apply in_map.
  Qed.

  Lemma film_at_gget (f : film F) q : film_at f q = gget (film_rect f) (fm_pixels f) q.
  Proof. unfold film_at, gget, goff, film_rect. cbn [px py b2min b2max]. f_equal. f_equal. lia. Qed.
  Lemma on_film_rect (f : film F) q : on_film f q <-> in_rect (film_rect f) q.
  Proof. unfold on_film, in_rect, film_rect. cbn [px py b2min b2max]. tauto. Qed.

  (** Two complete runs splat the same samples onto each pixel. *)
  Lemma two_runs s s' k k' y0 y0' j j' y y' : I s -> I s' -> forgets sm I ->
    start_sys m fm s k = Ok y0 -> (1 <= k)%nat -> steps m sm shade fuel j y0 y -> all_done y ->
    start_sys m fm s' k' = Ok y0' -> (1 <= k')%nat -> steps m sm shade fuel j' y0' y' -> all_done y' ->
    (forall q, in_rect (film_rect fm) q -> gget (film_rect fm) (fm_pixels fm) q = Some pixel_default) ->
    forall q, on_film fm q -> exists t t',
      film_at (y_film y) q = Some (result t) /\ film_at (y_film y') q = Some (result t') /\ Permutation (arrived t) (arrived t') /\
      (chain t <= length (arrived t) + tiles_over fm (tile_list (film_sample_bbox fm)) q)%nat /\
      (chain t' <= length (arrived t) + tiles_over fm (tile_list (film_sample_bbox fm)) q)%nat /\
      (forall x, In x (arrived t) -> finite_nonneg3 (fst x) /\ exists row, In row (fm_table fm) /\ In (snd x) row).
  Proof.
    intros Is Is' Hf E0 Hk Sy Hd E0' Hk' Sy' Hd' Hnew q Hq.
    destruct (run_jobs_of s k y0 j y Is E0 Hk Sy Hd) as (js & R1 & P1 & J1).
    destruct (run_jobs_of s' k' y0' j' y' Is' E0' Hk' Sy' Hd') as (js' & R2 & P2 & J2).
    assert (P : Permutation js js').
    { apply (perm_functional (fun b l => tile_of_sample_area fm b /\ produced m sm shade fuel I n fm b l)); auto.
      - intros b l l' [Hb Q1] [_ Q2]. eapply (produced_functional m sm shade fuel I n r fm W b); eauto.
      - eapply Permutation_trans; [exact P1|]. now apply Permutation_sym. }
    destruct (perm_effects (reaches m r fm) js js' P) as (l & l' & El & El' & Pl & Hl & Hl').
    { intros [b x] Hx. apply run_job_trace; auto. destruct (J1 _ Hx) as [Ht Hp]. eapply produced_job_ok; eauto. }
    destruct (run_jobs_trace m r fm l W Hl fm W eq_refl eq_refl eq_refl) as (f2 & Rf & Ef & G).
    destruct (run_jobs_trace m r fm l' W Hl' fm W eq_refl eq_refl eq_refl) as (f2' & Rf' & Ef' & G').
    rewrite El, R1 in Rf. injection Rf as <-. rewrite El', R2 in Rf'. injection Rf' as <-.
    rewrite !film_at_gget. unfold film_rect in G, G' |- *. rewrite Ef, Ef'. fold (film_rect fm) in G, G' |- *.
    apply on_film_rect in Hq.
    exists (trace_of fm q TNew l), (trace_of fm q TNew l').
    pose proof (trace_of_arrived fm q l TNew) as A1. pose proof (trace_of_arrived fm q l' TNew) as A2. cbn [arrived app] in A1, A2.
    assert (Pf : Permutation (flat_map (fun x => snd x q) (List.filter (covers fm q) l)) (flat_map (fun x => snd x q) (List.filter (covers fm q) l'))).
    { apply Permutation_flat_map. now apply perm_filter. }
    assert (Cnt : forall k : effects, Permutation (map fst (map fst k)) (tile_list (film_sample_bbox fm)) ->
      length (List.filter (covers fm q) k) = tiles_over fm (tile_list (film_sample_bbox fm)) q).
    { intros k0 Pk. unfold tiles_over. rewrite <- (Permutation_length (perm_filter _ _ _ Pk)). clear Pk.
      induction k0 as [|[[b x] e] k0 IH]; auto. cbn [map fst List.filter]. change (covers fm q (b, x, e)) with (inside (film_tile_bbox fm b) q).
      destruct (inside _ q); cbn [length]; auto. }
    split; [exact (G q Hq TNew (Hnew q Hq))|]. split; [exact (G' q Hq TNew (Hnew q Hq))|]. split; [|split; [|split]].
    - eapply Permutation_trans; [exact A1|]. eapply Permutation_trans; [exact Pf|]. now apply Permutation_sym.
    - rewrite (Permutation_length A1), <- (Cnt l) by (rewrite El; exact P1). pose proof (trace_of_chain fm q l TNew) as H. cbn [chain] in H. lia.
    - rewrite (Permutation_length A1), (Permutation_length Pf), <- (Cnt l') by (rewrite El'; exact P2).
      pose proof (trace_of_chain fm q l' TNew) as H. cbn [chain] in H. lia.
    - intros x Hx. eapply Permutation_in in Hx; [|exact A1]. apply in_flat_map in Hx. destruct Hx as ([[b ss] e] & Hin & Hx).
      apply filter_In in Hin. destruct Hin as [Hin _]. destruct (Hl _ Hin) as [Hfr _]. cbn [fst snd] in *.
      destruct (Hfr q) as [_ Hfr2]. destruct (Hfr2 x Hx) as [Hs Hrow]. split; [|exact Hrow].
      assert (Hjs : In (b, ss) js) by (rewrite <- El; change (b, ss) with (fst ((b, ss), e)); now apply in_map).
      destruct (J1 _ Hjs) as [_ (s1 & s2 & ft & shots & ps & _ & _ & _ & _ & _ & El3)]. cbn [snd] in El3. subst ss.
      unfold valid_shots in Hs. rewrite map_map in Hs. apply in_map_iff in Hs. destruct Hs as (sh & Es & Hsh).
      apply filter_In in Hsh. destruct Hsh as [_ Hv]. cbn [snd] in Es. rewrite <- Es. now apply valid_radiance_spec.
  Qed.
End Run.

(** Any arithmetic.  Take any two complete renders of a scene with a sampler that forgets (Halton's does):
    by any numbers of threads, in any interleavings.  Each pixel of the two films results from the same
    samples with the same filter weights, all finite and non-negative, in possibly another order. *)
Theorem C108_same_samples : forall F (FO : FOps F) (FL : FLaws F) ST m sm shade fuel I A B left n res flt fm tiles (s : ST) k k' y0 y0' j j' y y',
  serves sm shade I A B left n -> (1 <= n <= fuel)%nat -> I s -> forgets sm I ->
  film_args res flt -> film_new m res flt = Ok fm -> tile_items m (film_sample_bbox fm) = Ok tiles ->
  start_sys m fm s k = Ok y0 -> (1 <= k)%nat -> steps m sm shade fuel j y0 y -> all_done y ->
  start_sys m fm s k' = Ok y0' -> (1 <= k')%nat -> steps m sm shade fuel j' y0' y' -> all_done y' ->
  forall q, on_film fm q -> exists t t',
    film_at (y_film y) q = Some (result t) /\ film_at (y_film y') q = Some (result t') /\ Permutation (arrived t) (arrived t') /\
    (Nat.max (chain t) (chain t') <= length (arrived t) + tiles_over fm tiles q)%nat /\
    (forall x, In x (arrived t) -> finite_nonneg3 (fst x) /\ exists row, In row (fm_table fm) /\ In (snd x) row).
Proof.
  intros F FO FL ST m sm shade fuel I A B left n res flt fm tiles s k k' y0 y0' j j' y y' V Hn Is Hf Ha En Et E0 Hk Sy Hd E0' Hk' Sy' Hd' q Hq.
  destruct (film_args_ok m res flt Ha) as (fm' & r & E' & W & Er & _ & Ep). rewrite En in E'. injection E' as <-.
  rewrite tile_items_ok in Et by now apply (sample_bbox_tileable r). injection Et as <-.
  destruct (two_runs m sm shade fuel I A B left n r fm V W Hn s s k k' y0 y0' j j' y y') with (q := q) as (t & t' & H1 & H2 & H3 & H4 & H5 & H6); auto.
  - intros q' Hq'. pose proof (goff_range _ _ Hq') as Hg. rewrite gsize_film, Er in Hg. unfold gget. rewrite Ep, nth_error_repeat; [reflexivity|]. apply Z2Nat.inj_lt; lia.
  - exists t, t'. split; [exact H1|]. split; [exact H2|]. split; [exact H3|]. split; [lia|exact H6].
Qed.
Print Assumptions C108_same_samples.

Lemma sum_of_perm f l l' : Permutation l l' -> sum_of f l = sum_of f l'.
Proof.
  induction 1 as [|x l l' P IH|x y l|l l' l'' P IH P' IH']; auto.
  - rewrite !sum_of_cons. now rewrite IH.
  - rewrite !sum_of_cons. lra.
  - congruence.
Qed.
Lemma exact_mean_perm c l l' : Permutation l l' -> exact_mean c l = exact_mean c l'.
Proof. intros P. unfold exact_mean, light_sum, weight_sum. now rewrite !(sum_of_perm _ _ _ P). Qed.
Lemma moderate_perm l l' : Permutation l l' -> moderate l -> moderate l'.
Proof.
  intros P (H1 & H2 & H3). split; [|split].
  - intros s Hs. apply H1. eapply Permutation_in; [apply Permutation_sym|]; eauto.
  - unfold weight_sum in *. now rewrite <- (sum_of_perm _ _ _ P).
  - now rewrite <- (Permutation_length P).
Qed.

Lemma near_mean_le n n' c l v : (n <= n')%nat -> moderate l -> near_mean n c l v -> near_mean n' c l v.
Proof.
  intros Hn (Hc & [Hw _] & _) [Fv H]. split; auto. eapply Rle_trans; [exact H|]. apply Rplus_le_compat_r.
  destruct (clean_sums c l Hc) as (_ & C0 & _).
  assert (0 < / IZR (2 ^ 20))%R by (apply Rinv_0_lt_compat, IZR_lt; reflexivity).
  apply Rmult_le_compat_r.
  - apply Rmult_le_pos; auto. apply Rlt_le, Rinv_0_lt_compat. lra.
  - apply Rmult_le_compat_r; [apply Rlt_le, Rinv_0_lt_compat, IZR_lt; reflexivity|]. apply le_INR. lia.
Qed.

(** Binary32.  Both films show, at every pixel, the exact weighted mean of the same samples up to a relative
    error of 2^-22 for every sample and every tile that reaches the pixel: the schedule of the threads moves
    a channel of the picture by no more than twice that. *)
Theorem C108_schedules : forall (L : Libm b32) ST m sm shade fuel I A B left n res flt (fm : film b32) tiles (s : ST) k k' y0 y0' j j' y y',
  serves sm shade I A B left n -> (1 <= n <= fuel)%nat -> I s -> forgets sm I ->
  film_args res flt -> film_new m res flt = Ok fm -> tile_items m (film_sample_bbox fm) = Ok tiles ->
  start_sys m fm s k = Ok y0 -> (1 <= k)%nat -> steps m sm shade fuel j y0 y -> all_done y ->
  start_sys m fm s k' = Ok y0' -> (1 <= k')%nat -> steps m sm shade fuel j' y0' y' -> all_done y' ->
  forall q, on_film fm q -> exists p p' l,
    film_at (y_film y) q = Some p /\ film_at (y_film y') q = Some p' /\
    (forall x, In x l -> finite_nonneg3 (fst x) /\ exists row, In row (fm_table fm) /\ In (snd x) row) /\
    let d := (length l + tiles_over fm tiles q)%nat in
    (moderate l -> Z.of_nat d < 2 ^ 20 -> forall c,
       let v := fdiv (sel c (p_color p)) (p_wsum p) in let v' := fdiv (sel c (p_color p')) (p_wsum p') in
       near_mean d c l v /\ near_mean d c l v' /\
       (Rabs (B2R v - B2R v') <= 2 * (INR (d + 1) / IZR (2 ^ 22) * exact_mean c l + / IZR (2 ^ 100)))%R).
Proof.
  intros L ST m sm shade fuel I A B left n res flt fm tiles s k k' y0 y0' j j' y y' V Hn Is Hf Ha En Et E0 Hk Sy Hd E0' Hk' Sy' Hd' q Hq.
  destruct (C108_same_samples b32 _ _ ST m sm shade fuel I A B left n res flt fm tiles s k k' y0 y0' j j' y y' V Hn Is Hf Ha En Et E0 Hk Sy Hd E0' Hk' Sy' Hd' q Hq)
    as (t & t' & H1 & H2 & P & Hc & Hx).
  exists (result t), (result t'), (arrived t). split; [exact H1|]. split; [exact H2|]. split; [exact Hx|]. cbv zeta.
  set (d := (length (arrived t) + tiles_over fm tiles q)%nat) in *. intros Hm Hl c.
  assert (N1 : near_mean d c (arrived t) (fdiv (sel c (p_color (result t))) (p_wsum (result t)))).
  { apply (near_mean_le (chain t)); [lia|exact Hm|]. apply C108_pixel; [exact Hm|lia]. }
  assert (N2 : near_mean d c (arrived t) (fdiv (sel c (p_color (result t'))) (p_wsum (result t')))).
  { apply (near_mean_le (chain t')); [lia|exact Hm|].
    pose proof (C108_pixel L t' c (moderate_perm _ _ P Hm) ltac:(lia)) as [Fv H]. split; [exact Fv|]. rewrite (exact_mean_perm c _ _ P). exact H. }
  split; [exact N1|]. split; [exact N2|]. destruct N1 as [_ N1], N2 as [_ N2].
  set (v := B2R (fdiv (sel c (p_color (result t))) _)) in *. set (v' := B2R (fdiv (sel c (p_color (result t'))) _)) in *.
  replace (v - v')%R with ((v - exact_mean c (arrived t)) - (v' - exact_mean c (arrived t)))%R by ring.
  unfold Rminus at 1. eapply Rle_trans; [apply Rabs_triang|]. rewrite Rabs_Ropp. lra.
Qed.
Print Assumptions C108_schedules.

(** The Halton sampler, as the program runs it. *)
Theorem C108_halton : forall (L : Libm b32) m shade res flt (fm : film b32) tiles spp b w h s0 k k' y0 y0' j j' y y',
  film_args res flt -> film_new m res flt = Ok fm -> tile_items m (film_sample_bbox fm) = Ok tiles ->
  area b w h -> halton_new m spp b = Ok s0 -> 0 <= spp < 2 ^ 32 -> m = Release \/ (spp + 1) * 31104 < 2 ^ 31 ->
  halton_shade (F := b32) m s0 shade ->
  start_sys m fm s0 k = Ok y0 -> (1 <= k)%nat -> steps m (halton_ops m) shade (samples spp) j y0 y -> all_done y ->
  start_sys m fm s0 k' = Ok y0' -> (1 <= k')%nat -> steps m (halton_ops m) shade (samples spp) j' y0' y' -> all_done y' ->
  forall q, on_film fm q -> exists p p' l,
    film_at (y_film y) q = Some p /\ film_at (y_film y') q = Some p' /\
    (forall x, In x l -> finite_nonneg3 (fst x) /\ exists row, In row (fm_table fm) /\ In (snd x) row) /\
    let d := (length l + tiles_over fm tiles q)%nat in
    (moderate l -> Z.of_nat d < 2 ^ 20 -> forall c,
       let v := fdiv (sel c (p_color p)) (p_wsum p) in let v' := fdiv (sel c (p_color p')) (p_wsum p') in
       near_mean d c l v /\ near_mean d c l v' /\
       (Rabs (B2R v - B2R v') <= 2 * (INR (d + 1) / IZR (2 ^ 22) * exact_mean c l + / IZR (2 ^ 100)))%R).
Proof.
  intros L m shade res flt fm tiles spp b w h s0 k k' y0 y0' j j' y y' Ha En Et Hb Eh Hs Hm Hsh E0 Hk Sy Hd E0' Hk' Sy' Hd' q Hq.
  destruct (halton_serves_new m spp b w h s0 shade Hb Eh Hs Hm Hsh) as (I & A & B & left & V & Is & Hf).
  apply (C108_schedules L halton m (halton_ops m) shade (samples spp) I A B left (samples spp) res flt fm tiles s0 k k' y0 y0' j j' y y'); auto. unfold samples. lia.
Qed.
Print Assumptions C108_halton.

(** Three samples of weight 1 and radiances 1, 2^-24 and 2^-24 in the red channel, merged in two orders: the
    reds of the finished pixels differ, and both are near the mean. *)
Definition tiny (L : Libm b32) : b32 := fdiv f1 (fofZ (2 ^ 24)).
Definition one_red (L : Libm b32) (x : b32) : trace b32 := TAdd TNew (mkV3 x f0 f0) f1.
Definition in_order (L : Libm b32) : trace b32 := TMerge (TMerge (one_red L f1) (one_red L (tiny L))) (one_red L (tiny L)).
Definition out_of_order (L : Libm b32) : trace b32 := TMerge (one_red L f1) (TMerge (one_red L (tiny L)) (one_red L (tiny L))).

Example C108_example : forall (L : Libm b32),
  let v t := fdiv (sel CR (p_color (result t))) (p_wsum (result t)) in
  moderate (arrived (in_order L)) /\ moderate (arrived (out_of_order L)) /\
  Permutation (arrived (in_order L)) (arrived (out_of_order L)) /\ chain (in_order L) = 3%nat /\
  feq (v (in_order L)) (v (out_of_order L)) = false /\
  near_mean 3 CR (arrived (in_order L)) (v (in_order L)) /\ near_mean 3 CR (arrived (in_order L)) (v (out_of_order L)).
Proof.
  intros L v.
  assert (P : Permutation (arrived (in_order L)) (arrived (out_of_order L))) by (cbn [in_order out_of_order one_red arrived app]; apply Permutation_refl).
  assert (E1 : B2R (f1 : b32) = 1%R) by (unfold B2R, F2R; cbn; lra).
  assert (E0 : B2R (f0 : b32) = 0%R) by reflexivity.
  assert (Et : B2R (tiny L) = (/ 16777216)%R) by (unfold B2R, F2R; cbn; lra).
  assert (M : moderate (arrived (in_order L))).
  { split; [|split].
    - cbn [in_order one_red arrived app]. pose proof p90.
      intros s [<-|[<-|[<-|[]]]]; cbn [fst snd]; (split; [intros []; cbn [sel vx vy vz]|]); (split; [reflexivity|]); rewrite ?E1, ?E0, ?Et; lra.
    - cbn [in_order one_red arrived app]. unfold weight_sum, sum_of. cbn [map fold_right snd]. rewrite E1.
      change (IZR (2 ^ 20)) with 1048576%R. change (IZR (2 ^ 30)) with 1073741824%R. lra.
    - cbn. lia. }
  split; [exact M|]. split; [eapply moderate_perm; eauto|]. split; [exact P|]. split; [reflexivity|]. split; [vm_compute; reflexivity|].
  split; [apply (C108_pixel L (in_order L) CR M); cbn; lia|].
  pose proof (C108_pixel L (out_of_order L) CR (moderate_perm _ _ P M) ltac:(cbn; lia)) as H. exact H.
Qed.
