(** * C07, C08, C09, C10, C12: pixels, the image file, tone mapping, filter weights *)
From Coq Require Import ZArith Reals String List Bool Ascii Lia Lra Rpower.
From Flocq Require Import Core.Raux Core.Generic_fmt.
From Verif Require Import Model.Num Model.NumX Model.NumB Model.Vector Model.Common Model.BBox Model.Film Model.Render.
From Verif Require Import Spec.Grid Spec.FilmSpec Spec.RenderSpec Spec.Ppm.
From Verif Require Import Proofs.XBase Proofs.FLaws Proofs.FilmOps Proofs.FilmJobs Proofs.PpmProofs.
Import ListNotations.
Local Open Scope Z_scope.

(** ** C07 *)
Lemma total_app f l l' : total f (l ++ l') = (total f l + total f l')%R.
Proof. unfold total. rewrite map_app. induction (map f l) as [|a m IH]; cbn [app fold_right]; [lra|rewrite IH; lra]. Qed.

Lemma run_history_total h :
  (forall c, sel c (p_color (run_history h)) = XFin (total (fun s => sel c (fst s) * snd s)%R (reached h))) /\
  p_wsum (run_history h) = XFin (total snd (reached h)).
Proof.
  induction h as [|h [IHc IHw] l w|h [IHc IHw] h' [IHc' IHw']]; cbn [run_history reached].
  - split; [intros []|]; reflexivity.
  - cbn [pixel_add_sample p_color p_wsum]. split.
    + intros c. pose proof (IHc c) as E. unfold total in *. cbn [map fold_right fst snd].
      destruct c; cbn [sel vx vy vz v3add v3map2 v3scale] in *; rewrite E; cbn; f_equal; lra.
    + rewrite IHw. unfold total. cbn. f_equal. lra.
  - cbn [pixel_merge p_color p_wsum]. split.
    + intros c. rewrite total_app. pose proof (IHc c) as E. pose proof (IHc' c) as E'.
      destruct c; cbn [sel vx vy vz v3add v3map2] in *; rewrite E, E'; reflexivity.
    + rewrite total_app, IHw, IHw'. reflexivity.
Qed.

(** C07.  For every history of additions and merges with non-negative weights of positive sum, each
    channel of the finished pixel is the weighted mean of the samples that reached the pixel, and lies
    between any bounds of the samples with positive weight. *)
Theorem C07_pixel_is_mean : forall (h : history) (c : chan),
  (forall s, In s (reached h) -> (0 <= snd s)%R) -> (0 < total snd (reached h))%R ->
  exists v, fdiv (sel c (p_color (run_history h))) (p_wsum (run_history h)) = XFin v /\
    (v * total snd (reached h) = total (fun s => sel c (fst s) * snd s) (reached h))%R /\
    forall lo hi, (forall s, In s (reached h) -> (0 < snd s)%R -> (lo <= sel c (fst s) <= hi)%R) -> (lo <= v <= hi)%R.
Proof.
  intros h c Hw Hp. destruct (run_history_total h) as [Hc Ew]. rewrite Hc, Ew.
  eexists. split; [apply xdiv_fin; lra|]. split; [field; lra|]. intros lo hi Hb.
  assert (Q : (lo * total snd (reached h) <= total (fun s => sel c (fst s) * snd s) (reached h) <= hi * total snd (reached h))%R).
  { clear Hp Hc Ew. induction (reached h) as [|s l IH]; unfold total in *; cbn [map fold_right]; [lra|].
    specialize (IH ltac:(intros; apply Hw; now right) ltac:(intros; apply Hb; auto; now right)).
    pose proof (Hw s (or_introl eq_refl)) as H0. destruct (Req_dec (snd s) 0) as [E|E]; [rewrite E; lra|].
    pose proof (Hb s (or_introl eq_refl) ltac:(lra)). nra. }
  split; apply (Rmult_le_reg_r (total snd (reached h))); auto; unfold Rdiv; rewrite Rmult_assoc, Rinv_l by lra; lra.
Qed.
Print Assumptions C07_pixel_is_mean.

(** Two samples and a merge: (2 * 1 + 4 * 1/2 + 6 * 1/2) / 2 = 7/2. *)
Example C07_example :
  let v (r : R) := mkV3 r r r in
  let h := HMerge (HAdd (HAdd HNew (v 2%R) 1) (v 4%R) (/ 2)) (HAdd HNew (v 6%R) (/ 2)) in
  (forall s, In s (reached h) -> (0 <= snd s)%R) /\ (0 < total snd (reached h))%R /\
  fdiv (sel CG (p_color (run_history h))) (p_wsum (run_history h)) = XFin (7 / 2).
Proof.
  cbv zeta. split; [|split].
  - cbn. intros s [<-|[<-|[<-|[]]]]; cbn; lra.
  - unfold total. cbn. lra.
  - destruct (run_history_total (HMerge (HAdd (HAdd HNew (mkV3 2 2 2)%R 1) (mkV3 4 4 4)%R (/ 2)) (HAdd HNew (mkV3 6 6 6)%R (/ 2)))) as [Hc Ew].
    rewrite Hc, Ew. unfold total. cbn [reached app map fold_right snd fst sel vy]. cbn [fdiv XR_FOps]. rewrite xdiv_fin by lra. f_equal. field.
Qed.

(** ** C08 *)
Lemma parse_write F (FO : FOps F) (FL : FLaws F) (fm : film F) :
  0 <= px (fm_res fm) < 2 ^ 31 -> 0 <= py (fm_res fm) < 2 ^ 31 ->
  parse_ppm (write_image_ppm fm) = Some (mkImage (px (fm_res fm)) (py (fm_res fm)) 255 (map pixel_rgb (fm_pixels fm))) /\
  (forall r g b, In (r, g, b) (map pixel_rgb (fm_pixels fm)) -> 0 <= r <= 255 /\ 0 <= g <= 255 /\ 0 <= b <= 255).
Proof.
  intros Hx Hy.
  assert (R : forall r g b, In (r, g, b) (map pixel_rgb (fm_pixels fm)) -> 0 <= r <= 255 /\ 0 <= g <= 255 /\ 0 <= b <= 255).
  { intros r g b Hin. apply in_map_iff in Hin. destruct Hin as (p & E & _). unfold pixel_rgb in E.
    pose proof (quantize_range (vx (p_color p)) (p_wsum p)). pose proof (quantize_range (vy (p_color p)) (p_wsum p)).
    pose proof (quantize_range (vz (p_color p)) (p_wsum p)). inversion E; subst. auto. }
  split; [|exact R]. unfold parse_ppm, write_image_ppm.
  assert (T : tokens (("P" :: "3" :: nl :: print_int (px (fm_res fm)) ++ " " :: print_int (py (fm_res fm)) ++ [nl; "2"; "5"; "5"; nl])%char ++
      flat_map (fun p => print_rgb (pixel_rgb p)) (fm_pixels fm)) =
    ["P"; "3"]%char :: print_int (px (fm_res fm)) :: print_int (py (fm_res fm)) :: ["2"; "5"; "5"]%char ::
      tokens (flat_map print_rgb (map pixel_rgb (fm_pixels fm)))).
  { assert (W : forall l c rest, forallb (fun c => negb (is_space c)) l = true -> l <> [] -> is_space c = true ->
      tokens (l ++ c :: rest) = l :: tokens rest) by (intros; unfold tokens; now rewrite tokens_word by auto).
    cbn [app]. rewrite <- !app_assoc. cbn [app]. rewrite <- !app_assoc. cbn [app].
    match goal with |- tokens (?a :: ?b :: ?c :: ?r) = _ => change (a :: b :: c :: r) with ([a; b] ++ c :: r) end.
    rewrite W by (auto; discriminate). f_equal. rewrite tokens_int by (auto; lia). f_equal. rewrite tokens_int by (auto; lia). f_equal.
    match goal with |- tokens (?a :: ?b :: ?c :: ?d :: ?r) = _ => change (a :: b :: c :: d :: r) with ([a; b; c] ++ d :: r) end.
    rewrite W by (auto; discriminate). f_equal. f_equal. rewrite !flat_map_concat_map, map_map. reflexivity. }
  rewrite T. rewrite !number_print by lia. rewrite triples_data by exact R. reflexivity.
Qed.

(** C08.  Whatever the pixels of a film are (also NaN, infinities, never sampled), a parser of plain
    PPM reads back the resolution, 255 and the channel values, pixel (x, y) being number
    width * y + x; the image is complete and all channels are in 0..255. *)
Theorem C08_ppm_round_trip : forall (L : Libm b32) (fm : film b32),
  0 <= px (fm_res fm) < 2 ^ 31 -> 0 <= py (fm_res fm) < 2 ^ 31 ->
  Z.of_nat (length (fm_pixels fm)) = px (fm_res fm) * py (fm_res fm) ->
  exists i, parse_ppm (write_image_ppm fm) = Some i /\ well_formed i /\
    im_w i = px (fm_res fm) /\ im_h i = py (fm_res fm) /\ im_max i = 255 /\
    forall q p, on_film fm q -> film_at fm q = Some p ->
      nth_error (im_data i) (Z.to_nat (im_w i * py q + px q)) =
        Some (quantize (vx (p_color p)) (p_wsum p), quantize (vy (p_color p)) (p_wsum p), quantize (vz (p_color p)) (p_wsum p)).
Proof.
  intros L fm Hx Hy Hl. destruct (parse_write b32 _ _ fm Hx Hy) as [E R].
  eexists. split; [exact E|]. cbn [im_w im_h im_max im_data]. split; [|split; [auto|split; [auto|split; [auto|]]]].
  - unfold well_formed. cbn [im_w im_h im_max im_data]. rewrite map_length. split; [lia|]. split; [lia|]. split; [lia|]. exact R.
  - intros q p _ Hq. unfold film_at in Hq. rewrite nth_error_map, Hq. reflexivity.
Qed.
Print Assumptions C08_ppm_round_trip.

(** The hypothesis holds for every film the program makes: [Film::new], then any jobs (tiles with
    their samples). *)
Theorem C08_every_render : forall (L : Libm b32) m res (flt : filter b32) fm tiles (jobs : list (job b32)) fm',
  film_args res flt -> film_new m res flt = Ok fm -> tile_items m (film_sample_bbox fm) = Ok tiles ->
  (forall j, In j jobs -> In (fst j) tiles /\
     (m = Release \/ forall s, In s (snd j) -> pos_in_tile (fst j) (fst s))) ->
  rfold (run_job m) jobs fm = Ok fm' ->
  exists i, parse_ppm (write_image_ppm fm') = Some i /\ well_formed i /\
    im_w i = px res /\ im_h i = py res /\ im_max i = 255.
Proof.
  intros L m res flt fm tiles jobs fm' (Hx & Hy & Ha & Hr1 & Hr2) En Et Hj Er. destruct (radius_fin _ Hr1 Hr2) as (r & Er' & Hr).
  destruct (film_new_ok m res flt r Hx Hy Ha Er' Hr) as (fm0 & Ef & W & E0 & _). rewrite En in Ef. injection Ef as <-.
  destruct (tiles_of_film m r fm W) as (tiles' & Et' & Ht). rewrite Et in Et'. injection Et' as <-.
  destruct (run_jobs_ok (fun _ => True) m r fm jobs W) as (fm1 & E & W1 & E1 & _); auto.
  - intros j Hin. destruct (Hj j Hin) as [H1 H2]. split; auto.
  - unfold splat_keeps. auto.
  - rewrite E in Er. injection Er as <-. rewrite E0 in E1. pose proof (fo_len _ _ W1) as Hl.
    destruct (C08_ppm_round_trip L fm1) as (i & P & Q & A & B & C & _); rewrite ?E1 in *; [lia|lia|exact Hl|].
    exists i. rewrite A, B. auto.
Qed.
Print Assumptions C08_every_render.

Definition Lone : Libm b32 :=
  {| m_sin := fun x => x; m_cos := fun x => x; m_tan := fun x => x; m_atan := fun x => x; m_acos := fun x => x;
     m_atan2 := fun x _ => x; m_exp := fun x => x; m_ln := fun x => x; m_powf := fun x _ => x |}.
#[local] Existing Instance Lone.

(** A 2 x 1 film with an infinite, a NaN and a negative channel, and a never-sampled pixel. *)
Definition odd_film : film b32 :=
  mkFilm (mkP2 2 1) f1 [] [mkPixel (mkV3 finf (fdiv f0 f0) (fofZ (-1))) f1; pixel_default].
Example C08_example :
  write_image_ppm odd_film = list_ascii_of_string ("P3" ++ String nl ("2 1" ++ String nl ("255" ++ String nl
    ("255 0 0" ++ String nl ("0 0 0" ++ String nl EmptyString)))))%string /\
  parse_ppm (write_image_ppm odd_film) = Some (mkImage 2 1 255 [(255, 0, 0); (0, 0, 0)]).
Proof. split; vm_compute; reflexivity. Qed.

(** ** C09 *)
(** The file is not truncated: an image written over a longer one leaves the end of the old one, and
    the file is not the image; a reader even finds a different image. *)
Theorem C09_exact_file_refuted : exists (old : list ascii) (fm : film b32),
  Z.of_nat (length (fm_pixels fm)) = px (fm_res fm) * py (fm_res fm) /\
  file_after_render old fm <> write_image_ppm fm /\
  parse_ppm (file_after_render old fm) <> parse_ppm (write_image_ppm fm).
Proof.
  exists (write_image_ppm (mkFilm (mkP2 3 1) f1 [] [pixel_default; pixel_default; pixel_default] : film b32)),
    (mkFilm (mkP2 1 1) f1 [] [pixel_default] : film b32).
  split; [reflexivity|]. split; intros E; vm_compute in E; discriminate.
Qed.
Print Assumptions C09_exact_file_refuted.

(** What holds: the file begins with the image, keeps the tail of the old content, and is exactly the image when the
    old content was not longer (in particular when there was no file). *)
Theorem C09_exact_file_partial : forall F (FO : FOps F) (fm : film F) (old : list ascii),
  (exists tail, file_after_render old fm = write_image_ppm fm ++ tail /\ (exists hd, old = hd ++ tail)) /\
  length (file_after_render old fm) = Nat.max (length old) (length (write_image_ppm fm)) /\
  (file_after_render old fm = write_image_ppm fm <-> (length old <= length (write_image_ppm fm))%nat).
Proof.
  intros F FO fm old. unfold file_after_render, write_at_start. set (new := write_image_ppm fm).
  assert (HL : length (new ++ skipn (length new) old) = Nat.max (length old) (length new)) by (rewrite app_length, skipn_length; lia).
  split; [|split; [exact HL|]].
  - exists (skipn (length new) old). split; auto. exists (firstn (length new) old). now rewrite firstn_skipn.
  - split; intros H.
    + apply (f_equal (@length _)) in H. lia.
    + now rewrite skipn_all2, app_nil_r.
Qed.

(** ** C10 *)
(** Black is written as 1, not 0, because 1/2 is added before rounding to nearest. *)
Theorem C10_black_refuted : forall (L : Libm b32), exists (p : pixel b32),
  p_color p = v3zero /\ p_wsum p = f1 /\ pixel_rgb p <> (0, 0, 0).
Proof.
  intros L. exists (mkPixel v3zero f1). split; [auto|]. split; [auto|].
  unfold pixel_rgb. cbn [p_color p_wsum v3zero vx vy vz].
  assert (E : quantize (f0 : b32) f1 = 1).
  { rewrite quantize_level. apply tone_black. rewrite emb_div, emb_f0, emb_f1; [|rewrite emb_f1; intros E; injection E; lra].
    rewrite xdiv_fin by lra. replace (0 / 1)%R with 0%R by field. apply rn_0. }
  rewrite E. discriminate.
Qed.
Print Assumptions C10_black_refuted.

(** Every black channel (0 over any positive weight) is written as 1. *)
Theorem C10_black : forall F (FO : FOps F) (FL : FLaws F) (c w : F), feq c f0 = true -> flt f0 w = true -> fis_inf w = false ->
  quantize c w = 1.
Proof.
  intros F FO FL c w Hc Hw Hi. rewrite quantize_level. apply tone_black.
  rewrite emb_eq, emb_f0 in Hc. rewrite emb_lt, emb_f0 in Hw. rewrite emb_inf in Hi.
  destruct (emb c) as [|[]|x] eqn:Ec; cbn in Hc; try discriminate. destruct (emb w) as [|[]|y] eqn:Ew; cbn in Hw, Hi; try discriminate.
  rb. subst x. rewrite emb_div by (rewrite Ew; intros E; injection E; lra). rewrite Ec, Ew, xdiv_fin by lra.
  replace (0 / y)%R with 0%R by (field; lra). apply rn_0.
Qed.

(** In any arithmetic and with a math library whose powf is monotone at exponent 1/2.4, at least
    1475/16384 (= 0.09003) above the knee 0.0031308 and at least 1 from 1 on: white is 255 and a brighter
    channel never gets a smaller number.  (At the knee the gamma curve itself jumps down; the
    rounded levels do not.) *)
Theorem C10_white_and_monotone_partial : forall F (FO : FOps F) (FL : FLaws F), good_powf F ->
  (forall c w, fle f1 (fdiv c w) = true -> quantize c w = 255) /\
  (forall c w c' w', fle (fdiv c w) (fdiv c' w') = true -> quantize c w <= quantize c' w').
Proof.
  intros F FO FL P. split; intros; rewrite ?quantize_level.
  - now apply tone_white.
  - now apply tone_mono.
Qed.
Print Assumptions C10_white_and_monotone_partial.

Lemma Rpower_knee_low : (1475 / 16384 <= Rpower (31308 / 10000000) (5 / 12))%R.
Proof.
  apply Rnot_lt_le. intros Hc.
  assert (Q : (Rpower (Rpower (31308 / 10000000) (5 / 12)) 12 < Rpower (1475 / 16384) 12)%R).
  { apply Rlt_Rpower_l; [lra|]. split; [apply exp_pos|exact Hc]. }
  rewrite Rpower_mult in Q. replace (5 / 12 * 12)%R with (INR 5) in Q by (simpl; lra). replace 12%R with (INR 12) in Q by (simpl; lra).
  rewrite !Rpower_pow in Q by lra. simpl in Q. lra.
Qed.

Lemma XR_gexp : fdiv f1 (flit 24 1) = XFin (5 / 12).
Proof. unfold f1, flit. cbn [fdiv fofZ XR_FOps]. rewrite !xdiv_fin; simpl; try lra. f_equal. field. Qed.
Lemma XR_knee : (flit 31308 7 : XR) = XFin (31308 / 10000000).
Proof. unfold flit. cbn [fdiv fofZ XR_FOps]. rewrite xdiv_fin; simpl; auto; lra. Qed.

Lemma XR_pow x : (0 < x)%R -> fpowf (XFin x) (XFin (5 / 12)) = XFin (Rpower x (5 / 12)).
Proof. intros H. cbn. rewrite !Req_bool_false, Rlt_bool_false by lra. reflexivity. Qed.
Lemma XR_pow_inf : fpowf (XInf false) (XFin (5 / 12)) = XInf false.
Proof. cbn. rewrite Req_bool_false, Rlt_bool_false by lra. reflexivity. Qed.

Lemma XR_good_powf : good_powf XR.
Proof.
  split; rewrite ?XR_gexp, ?XR_knee.
  - intros v v' Hv H. destruct v as [|[]|x], v' as [|[]|y]; try discriminate; rewrite ?XR_pow_inf; auto.
    + rewrite XR_pow by (cbn in Hv; rb; lra). auto.
    + cbn in Hv, H. rb. rewrite !XR_pow by lra. cbn. rb. apply Rle_Rpower_l; lra.
  - intros v Hv. replace (fdiv (fofZ 1475) (fofZ 16384)) with (XFin (1475 / 16384)) by (cbn [fdiv fofZ XR_FOps]; rewrite xdiv_fin; auto; lra).
    destruct v as [|[]|x]; try discriminate; rewrite ?XR_pow_inf; auto. cbn in Hv. rb. rewrite XR_pow by lra. cbn. rb.
    apply Rle_trans with (Rpower (31308 / 10000000) (5 / 12)); [apply Rpower_knee_low|]. apply Rle_Rpower_l; lra.
  - intros v Hv. destruct v as [|[]|x]; try discriminate; rewrite ?XR_pow_inf; auto. cbn in Hv. rb. rewrite XR_pow by lra. cbn. rb.
    replace 1%R with (Rpower 1 (5 / 12)) at 1; [apply Rle_Rpower_l; lra|]. unfold Rpower. rewrite ln_1, Rmult_0_r. apply exp_0.
Qed.

(** Exact arithmetic, no hypotheses. *)
Theorem C10_white_and_monotone_exact : 
  (forall c w : XR, fle f1 (fdiv c w) = true -> quantize c w = 255) /\
  (forall c w c' w' : XR, fle (fdiv c w) (fdiv c' w') = true -> quantize c w <= quantize c' w').
Proof. apply (C10_white_and_monotone_partial XR _ XR_FLaws XR_good_powf). Qed.
Print Assumptions C10_white_and_monotone_exact.

Lemma Rpower_up : (Rpower (3130801 / 1000000000) (5 / 12) < 904738729 / 10000000000)%R.
Proof.
  apply Rnot_le_lt. intros Hc.
  assert (Q : (Rpower (904738729 / 10000000000) 12 <= Rpower (Rpower (3130801 / 1000000000) (5 / 12)) 12)%R) by (apply Rle_Rpower_l; lra).
  rewrite Rpower_mult in Q. replace (5 / 12 * 12)%R with (INR 5) in Q by (simpl; lra). replace 12%R with (INR 12) in Q by (simpl; lra).
  rewrite !Rpower_pow in Q by lra. simpl in Q. lra.
Qed.

(** The gamma curve itself is not monotone: it jumps down at the knee (exact arithmetic). *)
Theorem C10_gamma_curve_monotone_refuted : exists v v' : XR, flt v v' = true /\ flt (gamma_correct v') (gamma_correct v) = true.
Proof.
  exists (XFin (31308 / 10000000)), (XFin (3130801 / 1000000000)). split; [cbn; rb; lra|].
  unfold gamma_correct. rewrite XR_gexp, XR_knee.
  replace (fle (XFin (31308 / 10000000)) (XFin (31308 / 10000000))) with true by (symmetry; cbn; rb; lra).
  replace (fle (XFin (3130801 / 1000000000)) (XFin (31308 / 10000000))) with false by (symmetry; cbn; rb; lra).
  rewrite XR_pow by lra. pose proof Rpower_up as U.
  assert (E : forall m k, 0 <= k <= 7 -> (flit m k : XR) = XFin (IZR m / IZR (10 ^ k))).
  { intros m k Hk. unfold flit. cbn [fdiv fofZ XR_FOps]. apply xdiv_fin. apply not_0_IZR. apply Z.pow_nonzero; lia. }
  rewrite !E by lia. cbn [fsub fmul flt XR_FOps xsub xmul xlt]. rb.
  change (IZR (10 ^ 3)) with 1000%R. change (IZR (10 ^ 2)) with 100%R. lra.
Qed.
Print Assumptions C10_gamma_curve_monotone_refuted.

Example C10_example : map (fun v : b32 => quantize v f1) [f0; flit 3 3; fhalf; f1; fofZ 7; finf; fdiv f0 f0; fofZ (-1)] = [1; 10; 121; 255; 255; 255; 0; 0].
Proof. vm_compute. reflexivity. Qed.

(** ** C12 *)
Lemma sqr_le_abs a b : (Rabs a <= Rabs b)%R -> (a * a <= b * b)%R.
Proof. intros H. apply Rsqr_le_abs_1 in H. exact H. Qed.
Lemma sqr_lt_abs a b : (Rabs a < Rabs b)%R -> (a * a < b * b)%R.
Proof. intros H. apply Rsqr_lt_abs_1 in H. exact H. Qed.

Section Gauss.
  Context {F} {FO : FOps F} {FL : FLaws F}.

  Definition fin (x : F) : Prop := fis_nan x = false /\ fis_inf x = false.

  Lemma fin_emb x : fin x -> exists r, emb x = XFin r.
  Proof. intros [H1 H2]. rewrite emb_nan in H1. rewrite emb_inf in H2. destruct (emb x) as [| |r]; try discriminate. now exists r. Qed.

  Lemma arg_nonpos alpha d : fle f0 alpha = true -> fin alpha -> fin d -> fle (fmul (fmul (fneg alpha) d) d) f0 = true.
  Proof.
    intros Ha Fa Fd. destruct (fin_emb _ Fa) as (a & Ea). destruct (fin_emb _ Fd) as (x & Ex).
    rewrite emb_le, emb_f0, Ea in Ha. cbn in Ha. rb. rewrite emb_le, emb_mul, emb_mul, emb_neg, Ea, Ex, emb_f0. cbn [xneg xmul].
    destruct (Rtotal_order x 0) as [H|[H|H]].
    - pose proof (rn_ge_Z 0 (XFin (- a * x)) ltac:(lia) ltac:(cbn; rb; nra)) as Q.
      apply rn_le_Z; [lia|]. destruct (rn (XFin (- a * x))) as [|[]|t]; try discriminate; cbn.
      + rewrite Req_bool_false by lra. unfold Rsgn. now rewrite Rlt_bool_true by lra.
      + cbn in Q. rb. nra.
    - subst x. rewrite Rmult_0_r, rn_0. cbn [xmul]. rewrite Rmult_0_r, rn_0. cbn. rb. lra.
    - pose proof (rn_le_Z 0 (XFin (- a * x)) ltac:(lia) ltac:(cbn; rb; nra)) as Q.
      apply rn_le_Z; [lia|]. destruct (rn (XFin (- a * x))) as [|[]|t]; try discriminate; cbn.
      + rewrite Req_bool_false by lra. unfold Rsgn. now rewrite Rlt_bool_false by lra.
      + cbn in Q. rb. nra.
  Qed.

  Lemma le01 x : fle f0 x = true /\ fle x f1 = true -> exists r, emb x = XFin r /\ (0 <= r <= 1)%R.
  Proof.
    intros [H1 H2]. rewrite emb_le, emb_f0 in H1. rewrite emb_le, emb_f1 in H2.
    destruct (emb x) as [|[]|r]; try discriminate. exists r. cbn in H1, H2. rb. auto.
  Qed.

  Lemma gaussian_range alpha e d : good_exp F -> fle f0 alpha = true -> fin alpha -> fin d ->
    fle f0 e = true /\ fle e f1 = true -> exists r, emb (gaussian alpha e d) = XFin r /\ (0 <= r <= 1)%R.
  Proof.
    intros X Ha Fa Fd He. destruct (le01 _ (X _ (arg_nonpos alpha d Ha Fa Fd))) as (u & Eu & Hu). destruct (le01 _ He) as (v & Ev & Hv).
    unfold gaussian. set (t := fsub _ e).
    assert (Et : xle (XFin (-1)) (emb t) = true /\ xle (emb t) (XFin 1) = true).
    { unfold t. rewrite emb_sub, Eu, Ev. cbn [xsub]. split; [apply (rn_ge_Z (-1))|apply (rn_le_Z 1)]; try lia; cbn; rb; lra. }
    destruct (emb t) as [|[]|w] eqn:Ew; try (destruct Et; discriminate). destruct Et as [T1 T2]. cbn in T1, T2. rb.
    unfold fmax. rewrite !emb_nan, emb_lt, emb_f0, Ew. cbn. destruct (Rlt_bool w 0) eqn:E.
    - exists 0%R. rewrite emb_f0. split; auto. lra.
    - rb. exists w. auto.
  Qed.

  (** The parameters of a Gaussian filter: finite, radius squared finite too *)
  Definition gauss_args (radius alpha : F) : Prop :=
    fin radius /\ fin (fsq radius) /\ fin alpha /\ fle f0 alpha = true.

  Lemma gauss_cut radius alpha : good_exp F -> gauss_args radius alpha ->
    fle f0 (fexp (fmul (fneg alpha) (fsq radius))) = true /\ fle (fexp (fmul (fneg alpha) (fsq radius))) f1 = true.
  Proof.
    intros X (_ & Fr & Fa & Ha). apply X. destruct (fin_emb _ Fa) as (a & Ea). destruct (fin_emb _ Fr) as (x & Ex).
    assert (0 <= x)%R.
    { unfold fsq in Ex. rewrite emb_mul in Ex.
      assert (Q : xis_nan (emb radius) = false \/ emb radius = XNaN) by (destruct (emb radius); auto). destruct Q as [Q|Q].
      - assert (P : xle (XFin 0) (rn (xmul (emb radius) (emb radius))) = true).
        { apply (rn_ge_Z 0); [lia|]. destruct (emb radius) as [|[]|r]; try discriminate; cbn; auto. rb. nra. }
        rewrite Ex in P. cbn in P. rb. auto.
      - rewrite Q in Ex. cbn in Ex. rewrite rn_nan in Ex. discriminate. }
    rewrite emb_le, emb_f0, Ea in Ha. cbn in Ha. rb.
    rewrite emb_le, emb_mul, emb_neg, Ea, Ex, emb_f0. cbn [xneg xmul]. apply (rn_le_Z 0); [lia|]. cbn. rb. nra.
  Qed.

  Lemma gauss_eval radius alpha p : good_exp F -> gauss_args radius alpha -> fin (px p) -> fin (py p) ->
    fle f0 (flt_eval (gaussian_filter radius alpha) p) = true /\ fle (flt_eval (gaussian_filter radius alpha) p) f1 = true.
  Proof.
    intros X A Fx Fy. pose proof (gauss_cut radius alpha X A) as C. destruct A as (_ & _ & Fa & Ha).
    cbn [gaussian_filter flt_eval].
    destruct (gaussian_range alpha _ _ X Ha Fa Fx C) as (a & Ea & Ra). destruct (gaussian_range alpha _ _ X Ha Fa Fy C) as (b & Eb & Rb).
    rewrite !emb_le, emb_mul, Ea, Eb, emb_f0, emb_f1. cbn [xmul].
    split; [apply (rn_ge_Z 0)|apply (rn_le_Z 1)]; try lia; cbn; rb; nra.
  Qed.
End Gauss.

(** C12.  In any arithmetic (f32 with any math library whose exp maps non-positive numbers into
    [0, 1]): for finite alpha >= 0, finite radius with finite square and every finite offset, the weight is in [0, 1]
    (so neither negative nor NaN), and does not depend on the order of x and y. *)
Theorem C12_gaussian_weights : forall F (FO : FOps F) (FL : FLaws F), good_exp F ->
  forall (radius alpha : F) (p : P2 F), gauss_args radius alpha -> fin (px p) -> fin (py p) ->
  fle f0 (flt_eval (gaussian_filter radius alpha) p) = true /\ fle (flt_eval (gaussian_filter radius alpha) p) f1 = true /\
  feq (flt_eval (gaussian_filter radius alpha) p) (flt_eval (gaussian_filter radius alpha) (mkP2 (py p) (px p))) = true.
Proof.
  intros F FO FL X radius alpha p A Fx Fy. destruct (gauss_eval radius alpha p X A Fx Fy) as [H1 H2]. split; auto. split; auto.
  pose proof (le01 _ (conj H1 H2)) as (r & E & _). rewrite emb_eq, E. cbn [gaussian_filter flt_eval px py] in *.
  rewrite emb_mul in *. rewrite xmul_comm, E. cbn. rb. reflexivity.
Qed.
Print Assumptions C12_gaussian_weights.

(** So the weight table of a film with a Gaussian filter is what C11 asks for. *)
Theorem C12_gaussian_table : forall F (FO : FOps F) (FL : FLaws F), good_exp F ->
  forall (radius alpha : F), fle f0 radius = true -> fle radius (fofZ (2 ^ 20)) = true -> fin alpha -> fle f0 alpha = true ->
  good_table (filter_table (gaussian_filter radius alpha)).
Proof.
  intros F FO FL X radius alpha Hr1 Hr2 Fa Ha. destruct (radius_fin _ Hr1 Hr2) as (r & Er & Hr).
  assert (A : gauss_args radius alpha).
  { split; [|split; [|split; auto]].
    - unfold fin. rewrite emb_nan, emb_inf, Er. auto.
    - unfold fin, fsq. rewrite emb_nan, emb_inf, emb_mul, Er. cbn [xmul].
      destruct (rn_finite (r * r)) as (q & ->); auto. rewrite Rabs_pos_eq by nra.
      apply Rle_trans with (IZR (2 ^ 20) * IZR (2 ^ 20))%R; [nra|]. rewrite <- mult_IZR. now apply IZR_le. }
  intros row w Hrow Hw. unfold filter_table in Hrow. apply in_map_iff in Hrow. destruct Hrow as (y & <- & Hy). apply in_map_iff in Hw. destruct Hw as (x & <- & Hx).
  assert (Fp : forall z, In z (zrange 0 FILTER_TABLE_WIDTH) -> fin (fdiv (fmul (fadd (fofZ z) fhalf) radius) (fofZ FILTER_TABLE_WIDTH))).
  { intros z Hz. unfold zrange in Hz. apply in_map_iff in Hz. destruct Hz as (k & <- & Hk). apply in_seq in Hk. change (Z.to_nat (FILTER_TABLE_WIDTH - 0)) with 16%nat in Hk.
    rewrite Z.add_0_l. set (z := Z.of_nat k). assert (Hz : 0 <= z < 16) by lia.
    assert (0 <= IZR z <= 15)%R by (split; apply IZR_le; lia).
    unfold fin, FILTER_TABLE_WIDTH. rewrite emb_nan, emb_inf, emb_div by (rewrite emb_ofZ_exact by lia; intros E; injection E; lra).
    rewrite emb_mul, emb_add, !emb_ofZ_exact by lia. rewrite emb_fhalf, Er. cbn [xadd].
    destruct (rn_bound (IZR z + / 2) 16) as (q & -> & Hq); [now apply (rn_Z 16)|rewrite Rabs_pos_eq; lra|]. cbn [xmul].
    assert (Rabs (q * r) <= IZR (2 ^ 24))%R.
    { rewrite Rabs_mult, (Rabs_pos_eq r) by lra. replace (IZR (2 ^ 24)) with (16 * IZR (2 ^ 20))%R by (rewrite <- mult_IZR; reflexivity).
      apply Rmult_le_compat; auto using Rabs_pos; lra. }
    destruct (rn_bound (q * r) (IZR (2 ^ 24))) as (t & -> & Ht); [now apply rn_Z|auto|]. rewrite xdiv_fin by lra.
    destruct (rn_finite (t / 16)) as (u & ->); auto. unfold Rdiv. rewrite Rabs_mult, (Rabs_pos_eq (/ 16)) by lra.
    assert (IZR (2 ^ 24) <= IZR (2 ^ 127))%R by (apply IZR_le; lia). pose proof (Rabs_pos t). lra. }
  destruct (gauss_eval radius alpha (mkP2 _ _) X A (Fp x Hx) (Fp y Hy)) as [H1 H2].
  split; [exact H1|]. destruct (le01 _ (conj H1 H2)) as (v & Ev & _). rewrite emb_inf. cbn [flt_radius gaussian_filter] in *. rewrite Ev. reflexivity.
Qed.
Print Assumptions C12_gaussian_table.

(** Exact arithmetic: the weight is the product of the two cut-off Gaussians of the specification;
    it vanishes from the radius on, does not depend on signs, and does not grow with the distance. *)
Theorem C12_gaussian_exact : forall (radius alpha x y : R), (0 <= alpha)%R -> (0 <= radius)%R ->
  let w x y := flt_eval (gaussian_filter (XFin radius) (XFin alpha)) (mkP2 (XFin x) (XFin y)) in
  w x y = XFin (gauss alpha radius x * gauss alpha radius y) /\
  ((radius <= Rabs x)%R -> w x y = XFin 0) /\ ((radius <= Rabs y)%R -> w x y = XFin 0) /\
  w (- x)%R y = w x y /\ w x (- y)%R = w x y /\ w y x = w x y /\
  (forall x' y', (Rabs x <= Rabs x')%R -> (Rabs y <= Rabs y')%R -> fle (w x' y') (w x y) = true) /\
  ((0 < alpha)%R -> (Rabs x < radius)%R -> (Rabs y < radius)%R -> flt f0 (w x y) = true).
Proof.
  intros radius alpha x y Ha Hr w.
  assert (G : forall d, gaussian (XFin alpha) (fexp (fmul (fneg (XFin alpha)) (fsq (XFin radius)))) (XFin d) = XFin (gauss alpha radius d)).
  { intros d. unfold gaussian, gauss, fsq, fmax, f0. cbn [fsub fmul fneg fexp fis_nan flt fofZ XR_FOps xmul xneg xexp xsub xis_nan xlt].
    rewrite Rmult_assoc. unfold Rmax. destruct (Rlt_bool _ _) eqn:E; rb; destruct (Rle_dec _ _); f_equal; lra. }
  assert (W : forall x y, w x y = XFin (gauss alpha radius x * gauss alpha radius y)).
  { intros u v. unfold w. cbn [gaussian_filter flt_eval px py]. rewrite !G. reflexivity. }
  assert (Z0 : forall d, (radius <= Rabs d)%R -> gauss alpha radius d = 0%R).
  { intros d Hd. unfold gauss. apply Rmax_left. assert (radius * radius <= d * d)%R by (apply sqr_le_abs; rewrite (Rabs_pos_eq radius); auto).
    assert (exp (- alpha * (d * d)) <= exp (- alpha * (radius * radius)))%R; [|lra].
    destruct (Rle_lt_or_eq_dec (- alpha * (d * d)) (- alpha * (radius * radius)) ltac:(nra)) as [H1|H1]; [apply Rlt_le, exp_increasing; auto|rewrite H1; lra]. }
  assert (S0 : forall d, gauss alpha radius (- d) = gauss alpha radius d).
  { intros d. unfold gauss. now rewrite Rmult_opp_opp. }
  assert (P0 : forall d, (0 <= gauss alpha radius d)%R) by (intros; apply Rmax_l).
  assert (M0 : forall d d', (Rabs d <= Rabs d')%R -> (gauss alpha radius d' <= gauss alpha radius d)%R).
  { intros d d' Hd. unfold gauss. apply Rle_max_compat_l. assert (d * d <= d' * d')%R by (apply sqr_le_abs; auto).
    destruct (Rle_lt_or_eq_dec (- alpha * (d' * d')) (- alpha * (d * d)) ltac:(nra)) as [H1|H1]; [apply exp_increasing in H1; lra|rewrite H1; lra]. }
  rewrite !W. split; [auto|]. split; [intros; f_equal; rewrite Z0 by auto; lra|]. split; [intros; f_equal; rewrite (Z0 y) by auto; lra|].
  rewrite !S0. split; [auto|]. split; [auto|]. split; [f_equal; lra|]. split.
  - intros x' y' Hx Hy. rewrite W. cbn. rb. apply Rmult_le_compat; auto.
  - intros Hp Hx Hy. cbn. rb.
    assert (Q : forall d, (Rabs d < radius)%R -> (0 < gauss alpha radius d)%R); [|apply Rmult_lt_0_compat; auto].
    intros d Hd. unfold gauss. apply Rlt_le_trans with (2 := Rmax_r _ _).
    assert (d * d < radius * radius)%R by (apply sqr_lt_abs; now rewrite (Rabs_pos_eq radius)).
    assert (exp (- alpha * (radius * radius)) < exp (- alpha * (d * d)))%R; [|lra]. apply exp_increasing. nra.
Qed.
Print Assumptions C12_gaussian_exact.

(** Exact exp satisfies the hypothesis; a filter with radius 2 and alpha 2. *)
Example C12_example : good_exp XR /\ gauss_args (XFin 2) (XFin 2) /\
  flt f0 (flt_eval (gaussian_filter (XFin 2) (XFin 2)) (mkP2 (XFin 1) (XFin (/ 2)))) = true /\
  flt_eval (gaussian_filter (XFin 2) (XFin 2)) (mkP2 (XFin 2) (XFin (/ 2))) = XFin 0.
Proof.
  split; [|split; [|split]].
  - intros v Hv. destruct v as [|[]|x]; try discriminate; cbn in *; rb; [split; rb; lra|].
    pose proof (exp_pos x). split; rb; [lra|]. destruct (Req_dec x 0) as [->|N]; [rewrite exp_0; lra|].
    assert (exp x < exp 0)%R by (apply exp_increasing; lra). rewrite exp_0 in *. lra.
  - unfold gauss_args, fin. cbn. repeat split; auto. rb. lra.
  - destruct (C12_gaussian_exact 2 2 1 (/ 2)) as (_ & _ & _ & _ & _ & _ & _ & H); try lra. apply H; try lra; apply Rabs_def1; lra.
  - destruct (C12_gaussian_exact 2 2 2 (/ 2)) as (_ & H & _); try lra. apply H. rewrite Rabs_pos_eq; lra.
Qed.
