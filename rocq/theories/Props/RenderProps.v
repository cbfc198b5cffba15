(** * C05, C06, C11, C17: rendering with several threads *)
From Coq Require Import ZArith Reals List Bool Lia Lra Permutation.
From Flocq Require Import Core.Raux.
From Verif Require Import Model.Num Model.NumX Model.NumB Model.Vector Model.Common Model.BBox Model.Film Model.Sampler Model.Render.
From Verif Require Import Spec.Grid Spec.FilmSpec Spec.SamplerSpec Spec.RenderSpec.
From Verif Require Import Proofs.XBase Proofs.FLaws Proofs.Iter Proofs.Tiles Proofs.FilmGrid Proofs.FilmOps Proofs.FilmJobs
  Proofs.RenderLocal Proofs.Threads Proofs.Order Proofs.HaltonState Proofs.Serves.
From Verif Require Props.HaltonProps.
Import ListNotations.
Local Open Scope Z_scope.

Lemma Ok_inj {A} (a b : A) : Ok a = Ok b -> a = b.
Proof. now intros [= ->]. Qed.

Lemma rbind_inv {A B} (e : res A) (f : A -> res B) b : rbind e f = Ok b -> exists a, e = Ok a /\ f a = Ok b.
Proof. destruct e; try discriminate. eauto. Qed.

Lemma partitions_NoDup n b l : partitions n b l -> NoDup l.
Proof.
  intros [Hp Hq]. apply NoDup_nth_error. intros i j Hi E.
  destruct (nth_error l i) as [t|] eqn:Et; [|apply nth_error_None in Et; lia].
  destruct (Hp t (nth_error_In _ _ Et)) as [Hs Hsub]. unfold rect_size_le, rect_sub in *.
  destruct (Hq (b2min t)) as (k & t' & _ & _ & U); [unfold in_rect; lia|].
  assert (Hin : in_rect t (b2min t)) by (unfold in_rect; lia).
  rewrite (U i t Et Hin). symmetry. apply (U j t); auto.
Qed.

Lemma film_args_ok {F} {FO : FOps F} {FL : FLaws F} m res (flt : filter F) : film_args res flt ->
  exists fm r, film_new m res flt = Ok fm /\ film_ok r fm /\ fm_res fm = res /\ fm_table fm = filter_table flt /\
    fm_pixels fm = repeat pixel_default (Z.to_nat (px res * py res)).
Proof.
  intros (Hx & Hy & Ha & H1 & H2). destruct (radius_fin _ H1 H2) as (r & Er & Hr).
  destruct (film_new_ok m res flt r Hx Hy Ha Er Hr) as (fm & E & W & E1 & E2 & _ & E3). exists fm, r. auto 10.
Qed.

(** ** C05 *)
(** For every arithmetic (in particular binary32), build mode, sampler and shading code that
    delivers [n] samples per pixel, film and number [k] of threads: a run has at most 3 steps per
    tile plus one per thread; a thread that has not left its loop can always move; and when all
    threads have left, the tiles taken are the tiles of the film, each once, and the tiles merged
    are the tiles taken. *)
Theorem C05_every_schedule : forall F (FO : FOps F) (FL : FLaws F) ST m sm shade fuel I A B left n res flt fm (s : ST) k,
  serves sm shade I A B left n -> (1 <= n <= fuel)%nat -> I s ->
  film_args res flt -> film_new m res flt = Ok fm ->
  exists y0 tiles, start_sys m fm s k = Ok y0 /\ tile_items m (film_sample_bbox fm) = Ok tiles /\ NoDup tiles /\
    partitions 16 (film_sample_bbox fm) tiles /\
    forall j y, steps m sm shade fuel j y0 y ->
      (j <= 3 * length tiles + k)%nat /\ length (y_threads y) = k /\
      (forall i t, nth_error (y_threads y) i = Some t -> t <> TDone -> exists y', step m sm shade fuel i y y') /\
      (all_done y -> (1 <= k)%nat ->
         map snd (rev (y_taken y)) = tiles /\ Permutation (y_taken y) (y_merged y)).
Proof.
  intros F FO FL ST m sm shade fuel I A B left n res flt fm s k V Hn Is Ha En.
  destruct (film_args_ok m res flt Ha) as (fm' & r & E' & W & _). rewrite En in E'. injection E' as <-.
  pose proof (sample_bbox_tileable r fm W) as Hbb.
  destruct (tile_iter_new_ok m _ Hbb) as (it & Eit & Hi & H0).
  pose (y0 := mkSys (F := F) (ST := ST) it fm (repeat (TNext s) k) [] []).
  assert (Es : start_sys m fm s k = Ok y0) by (unfold start_sys; now rewrite Eit).
  exists y0, (tile_list (film_sample_bbox fm)).
  pose proof (tile_list_partitions _ Hbb) as Hp.
  split; [exact Es|]. split; [now apply tile_items_ok|]. split; [eapply partitions_NoDup; eauto|]. split; [exact Hp|].
  pose proof (start_inv m sm shade fuel I n r fm W s k y0 Is Es) as Q0.
  intros j y Sy.
  destruct (steps_inv m sm shade fuel I A B left n r fm V W Hn j y0 y [] Q0 Sy) as (js & Q & M & L).
  assert (M0 : measure y0 = (3 * length (tile_list (film_sample_bbox fm)) + k)%nat).
  { unfold measure. cbn [y_iter y_threads y0]. rewrite (ti_rest_new _ it Hi H0). unfold tile_list. rewrite map_length. f_equal.
    unfold weights. clear. induction k as [|k IH]; cbn [repeat map]; auto. cbn. f_equal. exact IH. }
  split; [lia|]. split; [rewrite L; apply repeat_length|]. split.
  - intros i t Ht Hd. exact (step_exists m sm shade fuel I A B left n r fm V W Hn y js i t Q Ht Hd).
  - intros Hd Hk. destruct (all_done_inv m sm shade fuel I n r fm y js Q Hd) as (_ & H1 & H2).
    + intros E. rewrite E in L. cbn in L. cbn in L. rewrite repeat_length in L. lia.
    + auto.
Qed.
Print Assumptions C05_every_schedule.

(** The Halton sampler made for any sample area delivers max(1, spp) samples per pixel. *)
Lemma halton_serves_new {F} {FO : FOps F} {FL : FLaws F} m spp b w h s0 shade :
  area b w h -> halton_new m spp b = Ok s0 -> 0 <= spp < 2 ^ 32 -> m = Release \/ (spp + 1) * 31104 < 2 ^ 31 ->
  halton_shade (F := F) m s0 shade ->
  exists I A B left, serves (halton_ops (F := F) m) shade I A B left (samples spp) /\ I s0 /\ forgets (halton_ops (F := F) m) I.
Proof.
  intros Ha E Hs Hm Hsh. destruct (new_state m spp b w h s0 Ha E) as (ex & ey & H & I0 & Espp & _).
  exists (h_between (F := F) m s0), (h_begin (F := F) m s0), (h_ready (F := F) m s0), (h_left s0). split; [|split].
  - rewrite <- Espp in *. eapply halton_serves; eauto.
  - split; [split; [constructor|exact I0]|]. unfold halton_new in E. destruct (bbox2_diagonal m b) as [d| |]; try discriminate. cbn [rbind] in E.
    destruct (scale_loop m 32 2 _ _ _) as [[a c]| |]; try discriminate. cbn [rbind] in E.
    destruct (scale_loop m 32 3 _ _ _) as [[a1 c1]| |]; try discriminate. cbn [rbind] in E.
    destruct (u32_of m (a * a1)); try discriminate. cbn [rbind] in E.
    destruct (multiplicative_inverse m a1 a); try discriminate. cbn [rbind] in E.
    destruct (multiplicative_inverse m a a1); try discriminate. cbn [rbind] in E.
    injection E as <-. cbn [h_index h_spp]. lia.
  - eapply halton_forgets; eauto.
Qed.

Lemma random_serves_new {F} {FO : FOps F} {FL : FLaws F} {G} (gen : G -> F * G) m spp g shade :
  (forall g, in_unit (fst (gen g))) -> 0 <= spp < 2 ^ 32 -> m = Release \/ 1 <= spp -> random_shade gen m spp shade ->
  exists I A B left, serves (random_ops gen m) shade I A B left (samples spp) /\ I (random_new spp g).
Proof.
  intros Hg Hs Hm Hsh. exists (r_between spp), (r_begin spp), (r_begin spp), (r_left spp). split.
  - apply random_serves; auto. intros s p [[E1 E2] E3]. apply Hsh; auto. lia.
  - unfold r_between, random_new. cbn. lia.
Qed.

(** C05 with the Halton sampler, as the program runs it. *)
Theorem C05_halton : forall F (FO : FOps F) (FL : FLaws F) m shade res flt fm spp b w h s0 k,
  film_args res flt -> film_new m res flt = Ok fm ->
  area b w h -> halton_new m spp b = Ok s0 -> 0 <= spp < 2 ^ 32 -> m = Release \/ (spp + 1) * 31104 < 2 ^ 31 ->
  halton_shade (F := F) m s0 shade ->
  exists y0 tiles, start_sys m fm s0 k = Ok y0 /\ tile_items m (film_sample_bbox fm) = Ok tiles /\ NoDup tiles /\
    forall j y, steps m (halton_ops m) shade (samples spp) j y0 y ->
      (j <= 3 * length tiles + k)%nat /\
      (forall i t, nth_error (y_threads y) i = Some t -> t <> TDone -> exists y', step m (halton_ops m) shade (samples spp) i y y') /\
      (all_done y -> (1 <= k)%nat ->
         map snd (rev (y_taken y)) = tiles /\ Permutation (y_taken y) (y_merged y)).
Proof.
  intros F FO FL m shade res flt fm spp b w h s0 k Ha En Hb Eh Hs Hm Hsh.
  destruct (halton_serves_new m spp b w h s0 shade Hb Eh Hs Hm Hsh) as (I & A & B & left & V & Is & _).
  destruct (C05_every_schedule F FO FL halton m (halton_ops m) shade (samples spp) I A B left (samples spp) res flt fm s0 k V)
    as (y0 & tiles & E0 & Et & Nd & _ & H); auto.
  { unfold samples. lia. }
  exists y0, tiles. do 3 (split; [assumption|]). intros j y Sy. destruct (H j y Sy) as (H1 & _ & H2 & H3). auto.
Qed.
Print Assumptions C05_halton.

(** ** C06 *)
(** Any arithmetic: when all threads have left, the film is what one thread computes that renders
    the tiles one after the other in the order in which they were merged. *)
Theorem C06_film_of_merge_order : forall F (FO : FOps F) (FL : FLaws F) ST m sm shade fuel I A B left n res flt fm (s : ST) k y0 j y,
  serves sm shade I A B left n -> (1 <= n <= fuel)%nat -> I s -> forgets sm I ->
  film_args res flt -> film_new m res flt = Ok fm -> start_sys m fm s k = Ok y0 ->
  steps m sm shade fuel j y0 y ->
  exists s', rfold (fun '(s, fm) b => render_tile m sm shade fuel fm s b) (map snd (rev (y_merged y))) (s, fm) = Ok (s', y_film y).
Proof.
  intros F FO FL ST m sm shade fuel I A B left n res flt fm s k y0 j y V Hn Is Hf Ha En E0 Sy.
  destruct (film_args_ok m res flt Ha) as (fm' & r & E' & W & _). rewrite En in E'. injection E' as <-.
  pose proof (start_inv m sm shade fuel I n r fm W s k y0 Is E0) as Q0.
  destruct (steps_inv m sm shade fuel I A B left n r fm V W Hn j y0 y [] Q0 Sy) as (js & Q & _).
  assert (Ht : forall b, In b (map snd (rev (y_merged y))) -> tile_of_sample_area fm b).
  { intros b Hb. apply in_map_iff in Hb. destruct Hb as ([i b'] & <- & Hin). apply in_rev in Hin. cbn [snd].
    eapply taken_in_area; [exact W|exact Q|]. eapply Permutation_in; [apply Permutation_sym, (si_perm _ _ _ _ _ _ _ _ _ _ Q)|].
    apply in_or_app. left. exact Hin. }
  destruct (seq_jobs m sm shade fuel I A B left n r fm V W Hn (map snd (rev (y_merged y))) Ht fm s Is W eq_refl eq_refl eq_refl)
    as (s' & fm2 & js2 & E2 & Em & Hp & R2).
  exists s'. rewrite E2. f_equal. f_equal.
  assert (Ejs : js2 = js).
  { pose proof (si_jobs _ _ _ _ _ _ _ _ _ _ Q) as Ej. pose proof (si_prod _ _ _ _ _ _ _ _ _ _ Q) as Hp'.
    rewrite <- Ej in Em, Ht. clear - W Hf Ht Em Hp Hp'.
    revert js2 Em Hp. induction js as [|[b l] js IH]; intros [|[b2 l2] js2] Em Hp; cbn in Em; try discriminate; auto.
    injection Em as -> Em. f_equal.
    - f_equal. apply (produced_functional m sm shade fuel I n r fm W b); auto.
      + apply Ht. now left.
      + apply (Hp (b, l2)). now left.
      + apply (Hp' (b, l)). now left.
    - apply IH; auto.
      + intros b' Hb'. apply Ht. now right.
      + intros j Hj. apply Hp'. now right.
      + intros j Hj. apply Hp. now right. }
  subst js2. pose proof (si_film _ _ _ _ _ _ _ _ _ _ Q) as Ef. rewrite R2 in Ef. now injection Ef as ->.
Qed.
Print Assumptions C06_film_of_merge_order.

(** Exact arithmetic: the final film of every schedule of any positive number of threads is the
    film of the sequential render. *)
Theorem C06_schedule_independent : forall ST m sm shade fuel I A B left n res flt (fm : film XR) (s : ST) k y0 j y,
  serves sm shade I A B left n -> (1 <= n <= fuel)%nat -> I s -> forgets sm I ->
  film_args res flt -> film_new m res flt = Ok fm -> start_sys m fm s k = Ok y0 -> (1 <= k)%nat ->
  steps m sm shade fuel j y0 y -> all_done y ->
  exists s', render_seq m sm shade fuel fm s = Ok (s', y_film y).
Proof.
  intros ST m sm shade fuel I A B left n res flt fm s k y0 j y V Hn Is Hf Ha En E0 Hk Sy Hd.
  destruct (film_args_ok (FL := XR_FLaws) m res flt Ha) as (fm' & r & E' & W & _). rewrite En in E'. injection E' as <-.
  pose proof (start_inv (FL := XR_FLaws) m sm shade fuel I n r fm W s k y0 Is E0) as Q0.
  destruct (steps_inv (FL := XR_FLaws) m sm shade fuel I A B left n r fm V W Hn j y0 y [] Q0 Sy) as (js & Q & _ & L).
  destruct (all_done_inv (FL := XR_FLaws) m sm shade fuel I n r fm y js Q Hd) as (_ & H1 & H2).
  { intros E. rewrite E in L. unfold start_sys in E0. destruct (tile_iter_new m _); try discriminate. cbn [rbind] in E0. injection E0 as <-.
    cbn in L. rewrite repeat_length in L. lia. }
  pose proof (sample_bbox_tileable r fm W) as Hbb.
  assert (Ht : forall b, In b (tile_list (film_sample_bbox fm)) -> tile_of_sample_area fm b).
  { intros b Hb. now apply (proj1 (tile_list_partitions _ Hbb)). }
  destruct (seq_jobs (FL := XR_FLaws) m sm shade fuel I A B left n r fm V W Hn (tile_list (film_sample_bbox fm)) Ht fm s Is W eq_refl eq_refl eq_refl)
    as (s' & fm2 & js2 & E2 & Em & Hp & R2).
  exists s'. unfold render_seq. rewrite tile_items_ok by auto. cbn [rbind]. rewrite E2. f_equal. f_equal.
  pose proof (si_jobs _ _ _ _ _ _ _ _ _ _ Q) as Ej. pose proof (si_prod _ _ _ _ _ _ _ _ _ _ Q) as Hp'.
  pose proof (si_film _ _ _ _ _ _ _ _ _ _ Q) as Ef.
  assert (Pm : Permutation (map fst js) (map fst js2)).
  { rewrite Ej, Em, H1. apply Permutation_map. rewrite <- !Permutation_rev. now apply Permutation_sym. }
  assert (Ht1 : forall x, In x js -> tile_of_sample_area fm (fst x)).
  { intros x Hx. apply Ht. rewrite <- Em. eapply Permutation_in; [exact Pm|]. now apply in_map. }
  assert (Ht2 : forall x, In x js2 -> tile_of_sample_area fm (fst x)).
  { intros x Hx. apply Ht. rewrite <- Em. now apply in_map. }
  assert (P : Permutation js js2).
  { apply (perm_functional (fun b l => tile_of_sample_area fm b /\ produced m sm shade fuel I n fm b l)); auto.
    intros b l l' [Hb P1] [_ P2]. eapply (produced_functional (FL := XR_FLaws) m sm shade fuel I n r fm W b); eauto. }
  rewrite (run_jobs_perm m r js js2 P fm W) in Ef.
  - rewrite R2 in Ef. now injection Ef as ->.
  - intros [b l] Hx. apply (produced_job_ok (FL := XR_FLaws) m sm shade fuel I n r fm W); [apply (Ht1 _ Hx)|apply (Hp' _ Hx)].
Qed.
Print Assumptions C06_schedule_independent.

Theorem C06_halton : forall m shade res flt (fm : film XR) spp b w h s0 k y0 j y,
  film_args res flt -> film_new m res flt = Ok fm ->
  area b w h -> halton_new m spp b = Ok s0 -> 0 <= spp < 2 ^ 32 -> m = Release \/ (spp + 1) * 31104 < 2 ^ 31 ->
  halton_shade (F := XR) m s0 shade ->
  start_sys m fm s0 k = Ok y0 -> (1 <= k)%nat ->
  steps m (halton_ops m) shade (samples spp) j y0 y -> all_done y ->
  exists s', render_seq m (halton_ops m) shade (samples spp) fm s0 = Ok (s', y_film y).
Proof.
  intros m shade res flt fm spp b w h s0 k y0 j y Ha En Hb Eh Hs Hm Hsh E0 Hk Sy Hd.
  destruct (halton_serves_new (FL := XR_FLaws) m spp b w h s0 shade Hb Eh Hs Hm Hsh) as (I & A & B & left & V & Is & Hf).
  eapply C06_schedule_independent; eauto. unfold samples. lia.
Qed.
Print Assumptions C06_halton.

(** ** C11 *)
Lemma valid_radiance_spec {F} {FO : FOps F} {FL : FLaws F} (l : V3 F) : valid_radiance l = true <-> finite_nonneg3 l.
Proof.
  assert (P : forall x : F, bad_channel x = false <-> finite_nonneg x).
  { intros x. unfold bad_channel, finite_nonneg, nonneg. rewrite emb_le, emb_lt, emb_nan, emb_inf, emb_f0.
    destruct (emb x) as [|[]|r]; simpl; try (split; [discriminate|intros [? ?]; discriminate]).
    destruct (Rle_bool_spec 0 r), (Rlt_bool_spec r 0); try lra; split; auto; try discriminate; intros [? ?]; discriminate. }
  unfold valid_radiance, finite_nonneg3. rewrite negb_true_iff, !orb_false_iff, !P. tauto.
Qed.

(** The radiances that are dropped are exactly those with a NaN, infinite or negative channel. *)
Theorem C11_dropped : forall F (FO : FOps F) (FL : FLaws F) (l : V3 F),
  valid_radiance l = true <-> finite_nonneg3 l.
Proof. intros. apply valid_radiance_spec. Qed.

(** At every moment of every schedule, whatever radiances the shading code returns, the colours and
    weights of the film are neither NaN nor negative. *)
Theorem C11_film_stays_clean : forall F (FO : FOps F) (FL : FLaws F) ST m sm shade fuel I A B left n res flt fm (s : ST) k y0 j y,
  serves sm shade I A B left n -> (1 <= n <= fuel)%nat -> I s ->
  film_args res flt -> film_new m res flt = Ok fm -> good_table (fm_table fm) ->
  start_sys m fm s k = Ok y0 -> steps m sm shade fuel j y0 y ->
  clean_film (y_film y).
Proof.
  intros F FO FL ST m sm shade fuel I A B left n res flt fm s k y0 j y V Hn Is Ha En Hg E0 Sy.
  destruct (film_args_ok m res flt Ha) as (fm' & r & E' & W & _ & _ & Ep). rewrite En in E'. injection E' as <-.
  pose proof (start_inv m sm shade fuel I n r fm W s k y0 Is E0) as Q0.
  destruct (steps_inv m sm shade fuel I A B left n r fm V W Hn j y0 y [] Q0 Sy) as (js & Q & _).
  pose proof (si_jobs _ _ _ _ _ _ _ _ _ _ Q) as Ej. pose proof (si_prod _ _ _ _ _ _ _ _ _ _ Q) as Hp.
  assert (Ht : forall b, In b (map fst js) -> tile_of_sample_area fm b).
  { intros b Hb. rewrite Ej in Hb. apply in_map_iff in Hb. destruct Hb as ([i b'] & <- & Hin). apply in_rev in Hin. cbn [snd].
    eapply taken_in_area; [exact W|exact Q|]. eapply Permutation_in; [apply Permutation_sym, (si_perm _ _ _ _ _ _ _ _ _ _ Q)|].
    apply in_or_app. left. exact Hin. }
  destruct (run_jobs_ok clean_pixel m r fm js W) as (fm1 & E1 & _ & _ & Hc).
  - intros [b l] Hx. apply (produced_job_ok m sm shade fuel I n r fm W); [apply Ht; now apply (in_map fst) in Hx|apply (Hp _ Hx)].
  - apply clean_default.
  - apply clean_merge.
  - intros [b l] Hx c sm1 row w Hs Hr Hw Hcl. cbn [snd] in Hs.
    destruct (Hp _ Hx) as (s1 & s2 & ft & shots & ps & _ & _ & _ & _ & _ & El). cbn [snd] in El. subst l.
    apply clean_add; auto; [|apply (Hg row w Hr Hw)].
    unfold valid_shots in Hs. apply in_map_iff in Hs. destruct Hs as (sh & <- & Hf). apply filter_In in Hf. cbn [snd].
    now apply valid_radiance_spec.
  - rewrite Ep. intros c Hcl. apply repeat_spec in Hcl. subst. apply clean_default.
  - pose proof (si_film _ _ _ _ _ _ _ _ _ _ Q) as Ef. rewrite E1 in Ef. injection Ef as <-. exact Hc.
Qed.
Print Assumptions C11_film_stays_clean.

(** ** C17 *)
(** Rendering a tile takes [n] shots in each pixel of the tile, in order; every position lies in
    its pixel; what is splatted into the tile are the valid ones. *)
Theorem C17_samples_per_pixel : forall F (FO : FOps F) (FL : FLaws F) ST m sm shade fuel I A B left n res flt fm (s : ST) tiles t,
  serves sm shade I A B left n -> (1 <= n <= fuel)%nat -> I s ->
  film_args res flt -> film_new m res flt = Ok fm -> tile_items m (film_sample_bbox fm) = Ok tiles -> In t tiles ->
  exists s' ft shots ps, render_local m sm shade fuel fm s t = Ok (s', ft, rev shots) /\
    enumerates t ps /\ shots_per_pixel n ps shots /\ Forall shot_in_pixel shots.
Proof.
  intros F FO FL ST m sm shade fuel I A B left n res flt fm s tiles t V Hn Is Ha En Et Hin.
  destruct (film_args_ok m res flt Ha) as (fm' & r & E' & W & _). rewrite En in E'. injection E' as <-.
  destruct (tiles_of_film m r fm W) as (tiles' & Et' & Ht). rewrite Et in Et'. injection Et' as <-.
  destruct (render_local_ok sm shade m r fm t I A B left n fuel s V W (Ht t Hin) Hn Is)
    as (s' & ft & shots & ft0 & ps & E & _ & _ & H1 & H2 & H3 & _).
  exists s', ft, shots, ps. auto.
Qed.
Print Assumptions C17_samples_per_pixel.

Theorem C17_halton : forall F (FO : FOps F) (FL : FLaws F) m shade res flt fm spp b w h s0 tiles t,
  film_args res flt -> film_new m res flt = Ok fm -> tile_items m (film_sample_bbox fm) = Ok tiles -> In t tiles ->
  area b w h -> halton_new m spp b = Ok s0 -> 0 <= spp < 2 ^ 32 -> m = Release \/ (spp + 1) * 31104 < 2 ^ 31 ->
  halton_shade (F := F) m s0 shade ->
  exists s' ft shots ps, render_local m (halton_ops m) shade (samples spp) fm s0 t = Ok (s', ft, rev shots) /\
    enumerates t ps /\ shots_per_pixel (samples spp) ps shots /\ Forall shot_in_pixel shots.
Proof.
  intros F FO FL m shade res flt fm spp b w h s0 tiles t Ha En Et Hin Hb Eh Hs Hm Hsh.
  destruct (halton_serves_new m spp b w h s0 shade Hb Eh Hs Hm Hsh) as (I & A & B & left & V & Is & _).
  eapply C17_samples_per_pixel; eauto. unfold samples. lia.
Qed.
Print Assumptions C17_halton.

Theorem C17_random : forall F (FO : FOps F) (FL : FLaws F) G (gen : G -> F * G) g m shade res flt fm spp tiles t,
  film_args res flt -> film_new m res flt = Ok fm -> tile_items m (film_sample_bbox fm) = Ok tiles -> In t tiles ->
  (forall g, in_unit (fst (gen g))) -> 0 <= spp < 2 ^ 32 -> m = Release \/ 1 <= spp -> random_shade gen m spp shade ->
  exists s' ft shots ps, render_local m (random_ops gen m) shade (samples spp) fm (random_new spp g) t = Ok (s', ft, rev shots) /\
    enumerates t ps /\ shots_per_pixel (samples spp) ps shots /\ Forall shot_in_pixel shots.
Proof.
  intros F FO FL G gen g m shade res flt fm spp tiles t Ha En Et Hin Hg Hs Hm Hsh.
  destruct (random_serves_new gen m spp g shade Hg Hs Hm Hsh) as (I & A & B & left & V & Is).
  eapply C17_samples_per_pixel; eauto. unfold samples. lia.
Qed.
Print Assumptions C17_random.

(** With zero samples per pixel a debug build of the random sampler does not render: the assertion
    on the sample index fails on the first camera sample. *)
Theorem C17_random_debug_zero : forall F (FO : FOps F) G (gen : G -> F * G) g p,
  exists s, sm_start_pixel (random_ops gen Debug) (random_new 0 g) p = Ok s /\
    get_camera_sample (random_ops gen Debug) s p = Panic.
Proof. intros. eexists. split; reflexivity. Qed.

(** Every run can be continued until all threads have left. *)
Theorem C05_every_run_finishes : forall F (FO : FOps F) (FL : FLaws F) ST m sm shade fuel I A B left n res flt fm (s : ST) k y0 j y,
  serves sm shade I A B left n -> (1 <= n <= fuel)%nat -> I s ->
  film_args res flt -> film_new m res flt = Ok fm -> start_sys m fm s k = Ok y0 ->
  steps m sm shade fuel j y0 y -> exists j' y', (j <= j')%nat /\ steps m sm shade fuel j' y0 y' /\ all_done y'.
Proof.
  intros F FO FL ST m sm shade fuel I A B left n res flt fm s k y0 j y V Hn Is Ha En E0 Sy.
  destruct (C05_every_schedule F FO FL ST m sm shade fuel I A B left n res flt fm s k V Hn Is Ha En)
    as (y0' & tiles & E0' & _ & _ & _ & H). rewrite E0 in E0'. injection E0' as <-.
  remember (3 * length tiles + k - j)%nat as d eqn:Ed. revert j y Sy Ed.
  induction d as [d IH] using lt_wf_ind. intros j y Sy Ed.
  destruct (H j y Sy) as (Hj & _ & Hp & _).
  assert (Dec : {all_done y} + {exists i t, nth_error (y_threads y) i = Some t /\ t <> TDone}).
  { unfold all_done. clear. induction (y_threads y) as [|t ts IH]; [left; intros ? []|].
    destruct t as [s0|s0 b|s0 b ft|]; try (right; exists O; eexists; split; [reflexivity|discriminate]).
    destruct IH as [IH|IH]; [left|right].
    - intros t [<-|Ht]; auto.
    - destruct IH as (i & t & E & Ht). exists (S i), t. auto. }
  destruct Dec as [D|(i & t & Ei & Et)]; [exists j, y; auto|].
  destruct (Hp i t Ei Et) as (y' & S1).
  assert (Sy' : steps m sm shade fuel (S j) y0 y') by (econstructor; eauto).
  destruct (H (S j) y' Sy') as (Hj' & _).
  destruct (IH (3 * length tiles + k - S j)%nat) with (j := S j) (y := y') as (j' & y2 & L & S2 & D2); auto; [lia|].
  exists j', y2. split; [lia|auto].
Qed.
Print Assumptions C05_every_run_finishes.

(** ** The hypotheses are met *)
(** A 20 x 10 film of radius 2, a box filter, a Halton sampler with 4 samples per pixel, shading
    code that draws a number and returns it as red. *)
Definition red_shade {F} {FO : FOps F} (s : halton) (p : P2 F) : res (V3 F * halton) :=
  let! (x, s) := halton_get_1d (F := F) Release s in Ok (mkV3 x f0 (fneg f1), s).

Lemma red_shade_ok {F} {FO : FOps F} {FL : FLaws F} spp b w h s0 : area b w h -> halton_new Release spp b = Ok s0 ->
  halton_shade (F := F) Release s0 red_shade.
Proof.
  intros Ha E s p R Hd _. destruct (Props.HaltonProps.C13_get_1d_in_unit F FO FL Release spp b w h s0 s Ha E R) as (_ & _ & T & _).
  destruct (T eq_refl ltac:(lia)) as (x & s' & Ex). unfold red_shade. rewrite Ex. cbn [rbind].
  eexists. exists s'. split; [reflexivity|]. eapply draws_1d; [apply draws_refl|exact Ex].
Qed.

Example C05_example : forall (L : Libm b32) k, (1 <= k)%nat ->
  exists fm s0 y0 j y tiles,
    film_new Release (mkP2 20 10) (mkFilter (F := b32) f2 (fun _ => f1)) = Ok fm /\
    halton_new Release 4 (film_sample_bbox fm) = Ok s0 /\ start_sys Release fm s0 k = Ok y0 /\
    steps Release (halton_ops Release) red_shade 4 j y0 y /\ all_done y /\ map snd (rev (y_taken y)) = tiles /\
    tiles = [mkB2 (mkP2 (-2) (-2)) (mkP2 14 12); mkB2 (mkP2 14 (-2)) (mkP2 22 12)] /\
    Permutation (y_taken y) (y_merged y).
Proof.
  intros L k Hk. pose (flt := mkFilter (F := b32) f2 (fun _ => f1)).
  assert (Ha : film_args (mkP2 20 10) flt).
  { unfold film_args. cbn [px py]. do 3 (split; [lia|]). split; vm_compute; reflexivity. }
  destruct (film_args_ok Release _ flt Ha) as (fm & r & En & W & Er & _).
  assert (Eb : film_sample_bbox fm = mkB2 (mkP2 (-2) (-2)) (mkP2 22 12)).
  { assert (E2 : (let! f := film_new Release (mkP2 20 10) flt in Ok (film_sample_bbox f)) = Ok (mkB2 (mkP2 (-2) (-2)) (mkP2 22 12)))
      by (vm_compute; reflexivity). rewrite En in E2. exact (Ok_inj _ _ E2). }
  assert (Har : area (film_sample_bbox fm) 24 14) by (rewrite Eb; unfold area; cbn [px py b2min b2max]; lia).
  destruct (Props.HaltonProps.halton_new_total Release 4 _ 24 14 Har) as (s0 & Eh).
  destruct (C05_halton b32 _ _ Release red_shade (mkP2 20 10) flt fm 4 _ 24 14 s0 k Ha En Har Eh ltac:(lia) (or_introl eq_refl)
    (red_shade_ok 4 _ 24 14 s0 Har Eh)) as (y0 & tiles & E0 & Et & _ & H).
  destruct (halton_serves_new (F := b32) Release 4 _ 24 14 s0 red_shade Har Eh ltac:(lia) (or_introl eq_refl) (red_shade_ok 4 _ 24 14 s0 Har Eh))
    as (I & A & B & left & V & Is & _).
  destruct (C05_every_run_finishes b32 _ _ halton Release (halton_ops Release) red_shade 4 I A B left 4 (mkP2 20 10) flt fm s0 k y0 0 y0)
    as (j & y & _ & Sy & D); auto; [constructor|].
  destruct (H j y Sy) as (_ & _ & Hd). destruct (Hd D Hk) as [Ht Hp].
  exists fm, s0, y0, j, y, tiles. do 6 (split; [assumption|]). split; [|exact Hp].
  rewrite Eb in Et. vm_compute in Et. injection Et as <-. reflexivity.
Qed.

(** C06 in binary32: merging the same three rendered tiles in another order gives another film.
    One pixel, radius 10, box filter; three of the four tiles have a sample at their common corner,
    with radiances 1, 2^-24, 2^-24. *)
Definition LR : Libm b32 :=
  {| m_sin := fun x => x; m_cos := fun x => x; m_tan := fun x => x; m_atan := fun x => x; m_acos := fun x => x;
     m_atan2 := fun x _ => x; m_exp := fun x => x; m_ln := fun x => x; m_powf := fun x _ => x |}.

#[local] Existing Instance LR.
Definition o_flt : filter b32 := mkFilter (fofZ 10) (fun _ => f1).
Definition o_tile (x y x' y' : Z) : bbox2 := mkB2 (mkP2 x y) (mkP2 x' y').
Definition o_job (b : bbox2) (red : b32) : job b32 :=
  (b, [(mkP2 (fofZ 6) (fofZ 6), mkV3 red f0 f0)]).
Definition o_jobs (swap : bool) : list (job b32) :=
  let one := f1 in let tiny := fdiv f1 (fofZ (2 ^ 24)) in
  let a := o_job (o_tile (-10) (-10) 6 6) one in
  let b := o_job (o_tile 6 (-10) 11 6) tiny in
  let c := o_job (o_tile (-10) 6 6 11) tiny in
  if swap then [b; c; a] else [a; b; c].

Definition red_is_one (fm : film b32) : bool :=
  match fm_pixels fm with c :: _ => feq (vx (p_color c)) f1 | [] => false end.

Lemma o_tiles : (let! f := film_new Release (mkP2 1 1) o_flt in tile_items Release (film_sample_bbox f)) =
  Ok [o_tile (-10) (-10) 6 6; o_tile 6 (-10) 11 6; o_tile (-10) 6 6 11; o_tile 6 6 11 11].
Proof. vm_compute. reflexivity. Qed.
Lemma o_run swap :
  (let! f := film_new Release (mkP2 1 1) o_flt in let! f := rfold (run_job Release) (o_jobs swap) f in Ok (red_is_one f)) = Ok (negb swap).
Proof. destruct swap; vm_compute; reflexivity. Qed.

Theorem C06_f32_order_matters :
  exists fm tiles fm1 fm2, film_new Release (mkP2 1 1) o_flt = Ok fm /\ tile_items Release (film_sample_bbox fm) = Ok tiles /\
    Permutation (o_jobs false) (o_jobs true) /\
    (forall j, In j (o_jobs false) -> In (fst j) tiles /\ forall s, In s (snd j) -> pos_in_tile (fst j) (fst s) /\ valid_radiance (snd s) = true) /\
    rfold (run_job Release) (o_jobs false) fm = Ok fm1 /\ rfold (run_job Release) (o_jobs true) fm = Ok fm2 /\ fm1 <> fm2.
Proof.
  assert (Ha : film_args (mkP2 1 1) o_flt).
  { unfold film_args. cbn [px py]. do 3 (split; [lia|]). split; vm_compute; reflexivity. }
  destruct (film_args_ok Release _ o_flt Ha) as (fm & r & En & W & _).
  pose proof (sample_bbox_tileable r fm W) as Hbb.
  pose proof o_tiles as Et. pose proof (o_run false) as E1. pose proof (o_run true) as E2.
  apply rbind_inv in Et. destruct Et as (f0 & Ef & Et). rewrite En in Ef. apply Ok_inj in Ef. subst f0.
  apply rbind_inv in E1. destruct E1 as (f0 & Ef & E1). rewrite En in Ef. apply Ok_inj in Ef. subst f0.
  apply rbind_inv in E2. destruct E2 as (f0 & Ef & E2). rewrite En in Ef. apply Ok_inj in Ef. subst f0.
  apply rbind_inv in E1. destruct E1 as (fm1 & R1 & E1). apply Ok_inj in E1.
  apply rbind_inv in E2. destruct E2 as (fm2 & R2 & E2). apply Ok_inj in E2.
  exists fm. eexists. exists fm1, fm2. split; [exact En|]. split; [exact Et|]. split.
  { exact (Permutation_app_comm [_] [_; _]). }
  split; [|split; [exact R1|split; [exact R2|intros Ef; rewrite Ef, E2 in E1; discriminate E1]]].
  intros j Hj. cbn [o_jobs In] in Hj.
  destruct Hj as [<-|[<-|[<-|[]]]]; (split; [unfold o_job; cbn [fst In]; tauto|]);
    (intros s [<-|[]]; split; [unfold pos_in_tile; repeat split|]; vm_compute; reflexivity).
Qed.
Print Assumptions C06_f32_order_matters.
