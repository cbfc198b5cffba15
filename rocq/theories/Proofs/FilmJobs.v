(** * Jobs (tile, samples) on a film: no panic, clean content *)
From Coq Require Import ZArith Reals List Bool Lia Lra ZifyBool.
From Flocq Require Import Core.Raux.
From Verif Require Import Model.Num Model.NumX Model.NumB Model.Vector Model.BBox Model.Film Spec.Grid Spec.FilmSpec.
From Verif Require Import Proofs.XBase Proofs.FLaws Proofs.Iter Proofs.Tiles Proofs.FilmGrid Proofs.FilmOps.
Import ListNotations.
Local Open Scope Z_scope.

Section Jobs.
  Context {F} {O : FOps F} {FL : FLaws F}.

  Lemma radius_fin v : fle f0 v = true -> fle v (fofZ (2 ^ 20)) = true ->
    exists r, emb v = XFin r /\ (0 <= r <= IZR (2 ^ 20))%R.
  Proof.
    rewrite !emb_le, emb_f0, emb_ofZ_exact by lia. intros H1 H2.
    destruct (emb v) as [|[]|r]; simpl in *; try discriminate. exists r. rb. auto.
  Qed.

  (** Tiles handed out are tiles of the sample area. *)
  Lemma tiles_of_film m r fm : film_ok r fm ->
    exists tiles, tile_items m (film_sample_bbox fm) = Ok tiles /\
      forall t, In t tiles -> tile_of_sample_area fm t.
  Proof.
    intros W. pose proof (sample_bbox_tileable r fm W) as Ht.
    exists (tile_list (film_sample_bbox fm)). split; [now apply tile_items_ok|].
    intros t H. now apply (proj1 (tile_list_partitions _ Ht)).
  Qed.

  Lemma tile_coord_bound r fm t : film_ok r fm -> tile_of_sample_area fm t ->
    (- 2 ^ 22 <= px (b2min t) <= 2 ^ 23) /\ (- 2 ^ 22 <= py (b2min t) <= 2 ^ 23) /\
    (- 2 ^ 22 <= px (b2max t) <= 2 ^ 23) /\ (- 2 ^ 22 <= py (b2max t) <= 2 ^ 23).
  Proof.
    intros W [Hs Hsub]. rewrite (sample_bbox_eq r fm W) in Hsub. unfold rect_size_le, rect_sub in *.
    cbn [px py b2min b2max] in *.
    pose proof (sb_lo_spec r fm W) as [Hl _].
    pose proof (sb_hi_spec r fm _ W (fo_x _ _ W)) as [Hx _].
    pose proof (sb_hi_spec r fm _ W (fo_y _ _ W)) as [Hy _]. lia.
  Qed.

  Lemma axis_no_sat r fm v a b : film_ok r fm -> - 2 ^ 22 <= a <= 2 ^ 23 -> - 2 ^ 22 <= b <= 2 ^ 23 ->
    fle (fofZ a) v = true -> fle v (fofZ b) = true ->
    fto_i32 (ffloor (fadd (fsub v fhalf) (fm_radius fm))) < 2 ^ 31 - 1.
  Proof.
    intros W Ha Hb H1 H2. rewrite !emb_le, !emb_ofZ_exact in * by lia.
    destruct (emb v) as [|[]|x] eqn:Ev; simpl in *; try discriminate. rb.
    assert (- 4194304 <= x <= 8388608)%R.
    { split; [eapply Rle_trans; [|exact H1]|eapply Rle_trans; [exact H2|]]; apply IZR_le; lia. }
    destruct (rn_fin (x - / 2) (2 ^ 23)) as (y & Ey & By); [lia|rewrite IZR23; apply Rabs_le; lra|].
    pose proof (fo_r _ _ W) as Er. pose proof (fo_r_range _ _ W) as Hr. rewrite IZR20 in Hr.
    rewrite IZR23 in By. apply Rabs_le_inv in By.
    destruct (rn_fin (y + r) (2 ^ 24)) as (z & Ez & Bz); [lia|rewrite IZR24; apply Rabs_le; lra|].
    rewrite (to_i32_floor _ z); auto.
    - assert (Zfloor z <= 2 ^ 24); [|lia]. apply le_IZR. rewrite IZR24 in *. apply Rabs_le_inv in Bz.
      pose proof (Zfloor_lb z). lra.
    - rewrite emb_add, emb_sub, emb_fhalf, Ev, Er. simpl. rewrite Ey. simpl. exact Ez.
  Qed.

  Lemma in_tile_no_sat m r fm t ft p : film_ok r fm -> tile_of_sample_area fm t -> tile_ok fm ft ->
    pos_in_tile t p -> no_sat m ft p.
  Proof.
    intros W Ht Wt (H1 & H2 & H3 & H4). right. rewrite (to_radius _ _ Wt).
    destruct (tile_coord_bound r fm t W Ht) as (B1 & B2 & B3 & B4).
    split; [apply (axis_no_sat r fm _ (px (b2min t)) (px (b2max t)))|apply (axis_no_sat r fm _ (py (b2min t)) (py (b2max t)))]; auto.
  Qed.

  (** The samples of a job can be splatted in build [m] of a program. *)
  Definition job_ok (m : build) (fm : film F) (j : job F) : Prop :=
    tile_of_sample_area fm (fst j) /\
    (m = Release \/ forall s, In s (snd j) -> pos_in_tile (fst j) (fst s)).

  Lemma tile_ok_same (fm fm' : film F) ft : fm_res fm' = fm_res fm -> fm_radius fm' = fm_radius fm -> fm_table fm' = fm_table fm ->
    tile_ok fm ft -> tile_ok fm' ft.
  Proof. intros H1 H2 H3 []. constructor; auto; try congruence. unfold film_rect in *. now rewrite H1. Qed.

  Lemma tile_area_same (fm fm' : film F) t : fm_res fm' = fm_res fm -> fm_radius fm' = fm_radius fm ->
    tile_of_sample_area fm t -> tile_of_sample_area fm' t.
  Proof. intros H1 H2. unfold tile_of_sample_area, film_sample_bbox. now rewrite H1, H2. Qed.

  (** ** Splatting a list of samples *)
  Definition add_all (m : build) (l : list (P2 F * V3 F)) (ft : film_tile F) : res (film_tile F) :=
    rfold (fun ft s => tile_add_sample m ft (fst s) (snd s)) l ft.

  Definition samples_ok (m : build) (t : bbox2) (l : list (P2 F * V3 F)) : Prop :=
    m = Release \/ forall s, In s l -> pos_in_tile t (fst s).

  Lemma one_no_sat m r fm t ft l s : film_ok r fm -> tile_of_sample_area fm t -> tile_ok fm ft ->
    samples_ok m t l -> In s l -> no_sat m ft (fst s).
  Proof.
    intros W Ht Wt [->|H] Hs; [now left|]. apply (in_tile_no_sat m r fm t); auto.
  Qed.

  (** [G] is a property of pixels that splatting the samples preserves. *)
  Definition splat_keeps (G : pixel F -> Prop) (table : list (list F)) (l : list (P2 F * V3 F)) : Prop :=
    forall c s row w, In s l -> In row table -> In w row -> G c -> G (pixel_add_sample c (snd s) w).

  Lemma splat_weight_in radius table p q d : table_ok table ->
    exists row, In row table /\ In (splat_weight radius table p q d) row.
  Proof.
    intros [Hl Hr]. unfold splat_weight.
    pose proof (table_index_range radius (py q) (py p)). pose proof (table_index_range radius (px q) (px p)).
    exists (nth (Z.to_nat (table_index radius (py q) (py p))) table []).
    assert (Hin : In (nth (Z.to_nat (table_index radius (py q) (py p))) table []) table) by (apply nth_In; lia).
    split; auto. apply nth_In. rewrite Hr by auto. lia.
  Qed.

  Lemma add_all_ok (G : pixel F -> Prop) m r fm t l ft :
    film_ok r fm -> tile_of_sample_area fm t -> tile_ok fm ft -> samples_ok m t l ->
    splat_keeps G (fm_table fm) l -> (forall c, In c (tl_pixels ft) -> G c) ->
    exists ft', add_all m l ft = Ok ft' /\ tile_ok fm ft' /\ tl_bbox ft' = tl_bbox ft /\
      (forall c, In c (tl_pixels ft') -> G c).
  Proof.
    intros W Ht Wt Hs HG Hft.
    destruct (rfold_inv (fun ft' => tile_ok fm ft' /\ tl_bbox ft' = tl_bbox ft /\ (forall c, In c (tl_pixels ft') -> G c))
      (fun ft s => tile_add_sample m ft (fst s) (snd s)) l ft) as (ft' & E & H); [|auto|exists ft'; auto].
    intros ft1 s Hin (Wt1 & Eb & HG1).
    destruct (tile_add_sample_spec m r fm ft1 (fst s) (snd s) f0 W Wt1) as (p & mn & mx & ft2 & _ & E2 & Wt2 & Eb2 & _ & G2).
    { now apply (one_no_sat m r fm t ft1 l). }
    exists ft2. split; [exact E2|]. split; [auto|]. split; [congruence|].
    apply (gget_all G (tl_bbox ft1)).
    - pose proof (to_x _ _ Wt1). lia.
    - rewrite <- Eb2. apply (to_len _ _ Wt2).
    - intros q c Hq Hc. rewrite G2 in Hc by auto.
      destruct (gget_some (tl_bbox ft1) (tl_pixels ft1) q Hq (to_len _ _ Wt1)) as (c1 & Ec1).
      assert (G c1) by (apply HG1; unfold gget in Ec1; eapply nth_error_In; eauto).
      rewrite Ec1 in Hc. destruct (_ && _); simpl in Hc.
      + injection Hc as <-. destruct (splat_weight_in (tl_radius ft1) (tl_table ft1) p q f0) as (row & Hr & Hw).
        { rewrite (to_table _ _ Wt1). apply (fo_table _ _ W). }
        rewrite (to_table _ _ Wt1) in Hr at 1. eapply HG; eauto.
      + congruence.
  Qed.

  Lemma merge_ok (G : pixel F -> Prop) m r fm ft : film_ok r fm -> tile_ok fm ft ->
    (forall a b, G a -> G b -> G (pixel_merge a b)) ->
    (forall c, In c (tl_pixels ft) -> G c) -> (forall c, In c (fm_pixels fm) -> G c) ->
    exists fm', merge_film_tile m fm ft = Ok fm' /\ film_ok r fm' /\ fm_res fm' = fm_res fm /\
      fm_radius fm' = fm_radius fm /\ fm_table fm' = fm_table fm /\ (forall c, In c (fm_pixels fm') -> G c).
  Proof.
    intros W Wt Hm Hft Hfm.
    destruct (merge_spec m r fm ft W Wt) as (fm' & E & W' & E1 & E2 & E3 & Gm).
    exists fm'. do 5 (split; [assumption|]).
    pose proof (fo_x _ _ W) as Hx.
    apply (gget_all G (film_rect fm)).
    - unfold film_rect; cbn [px py b2min b2max]. lia.
    - rewrite gsize_film, <- E1. apply (fo_len _ _ W').
    - intros q c Hq Hc. rewrite Gm in Hc by auto.
      destruct (gget_some (film_rect fm) (fm_pixels fm) q Hq) as (c1 & Ec1).
      { rewrite gsize_film. apply (fo_len _ _ W). }
      assert (G c1) by (apply Hfm; unfold gget in Ec1; eapply nth_error_In; eauto).
      rewrite Ec1 in Hc. destruct (_ && _); [|congruence].
      destruct (gget (tl_bbox ft) (tl_pixels ft) q) as [c2|] eqn:Ec2; [|congruence].
      simpl in Hc. injection Hc as <-. apply Hm; auto. apply Hft. unfold gget in Ec2. eapply nth_error_In; eauto.
  Qed.

  (** ** Jobs *)
  Lemma run_job_ok (G : pixel F -> Prop) m r fm j : film_ok r fm -> job_ok m fm j ->
    G pixel_default -> (forall a b, G a -> G b -> G (pixel_merge a b)) ->
    splat_keeps G (fm_table fm) (snd j) -> (forall c, In c (fm_pixels fm) -> G c) ->
    exists fm', run_job m fm j = Ok fm' /\ film_ok r fm' /\ fm_res fm' = fm_res fm /\
      fm_radius fm' = fm_radius fm /\ fm_table fm' = fm_table fm /\ (forall c, In c (fm_pixels fm') -> G c).
  Proof.
    intros W [Ht Hs] H0 Hm HG Hfm. unfold run_job.
    destruct (get_film_tile_ok m r fm (fst j) W Ht) as (ft & -> & Wt & Eb & Ep). cbn [rbind].
    destruct (add_all_ok G m r fm (fst j) (snd j) ft W Ht Wt Hs HG) as (ft' & E & Wt' & _ & HG').
    { intros c Hc. rewrite Ep in Hc. apply repeat_spec in Hc. now subst. }
    unfold add_all in E. rewrite E. cbn [rbind]. now apply (merge_ok G m r fm ft').
  Qed.

  Lemma run_jobs_ok (G : pixel F -> Prop) m r fm js : film_ok r fm -> (forall j, In j js -> job_ok m fm j) ->
    G pixel_default -> (forall a b, G a -> G b -> G (pixel_merge a b)) ->
    (forall j, In j js -> splat_keeps G (fm_table fm) (snd j)) -> (forall c, In c (fm_pixels fm) -> G c) ->
    exists fm', rfold (run_job m) js fm = Ok fm' /\ film_ok r fm' /\ fm_res fm' = fm_res fm /\ (forall c, In c (fm_pixels fm') -> G c).
  Proof.
    intros W Hj H0 Hm HG Hfm.
    destruct (rfold_inv (fun fm' => film_ok r fm' /\ fm_res fm' = fm_res fm /\ fm_radius fm' = fm_radius fm /\
        fm_table fm' = fm_table fm /\ (forall c, In c (fm_pixels fm') -> G c)) (run_job m) js fm)
      as (fm' & E & W' & E1 & _ & _ & H); [|auto|exists fm'; auto].
    intros fm1 j Hin (W1 & E1 & E2 & E3 & HG1).
    destruct (run_job_ok G m r fm1 j W1) as (fm2 & Er & W2 & F1 & F2 & F3 & HG2); auto.
    - destruct (Hj j Hin) as [Ht Hs]. split; auto. now apply (tile_area_same fm).
    - rewrite E3. auto.
    - exists fm2. split; auto. split; auto. repeat split; try congruence. auto.
  Qed.

  (** ** Clean pixels *)
  Lemma nonneg_emb x : nonneg x <-> xle (XFin 0) (emb x) = true.
  Proof. unfold nonneg. now rewrite emb_le, emb_f0. Qed.

  Lemma nonneg_add a b : nonneg a -> nonneg b -> nonneg (fadd a b).
  Proof.
    rewrite !nonneg_emb, emb_add. intros Ha Hb. change 0%R with (IZR 0). apply rn_ge_Z; [lia|].
    destruct (emb a) as [|[]|x], (emb b) as [|[]|y]; simpl in *; try discriminate; auto. rb. lra.
  Qed.

  Lemma nonneg_mul a b : finite_nonneg a -> finite_nonneg b -> nonneg (fmul a b).
  Proof.
    unfold finite_nonneg. rewrite !nonneg_emb, emb_mul, !emb_inf. intros [Ha Ha'] [Hb Hb']. change 0%R with (IZR 0). apply rn_ge_Z; [lia|].
    destruct (emb a) as [|[]|x], (emb b) as [|[]|y]; simpl in *; try discriminate; auto. rb. now apply Rmult_le_pos.
  Qed.

  Lemma nonneg_0 : nonneg f0.
  Proof. rewrite nonneg_emb, emb_f0. simpl. rb. lra. Qed.

  Lemma clean_default : clean_pixel pixel_default.
  Proof. pose proof nonneg_0. repeat split; auto. Qed.

  Lemma clean_merge a b : clean_pixel a -> clean_pixel b -> clean_pixel (pixel_merge a b).
  Proof.
    intros ((?&?&?)&?) ((?&?&?)&?). unfold pixel_merge, clean_pixel, nonneg3; cbn [p_color p_wsum v3add vx vy vz].
    split; [split; [|split]|]; now apply nonneg_add.
  Qed.

  Lemma clean_add c s w : clean_pixel c -> finite_nonneg3 s -> finite_nonneg w -> clean_pixel (pixel_add_sample c s w).
  Proof.
    intros ((?&?&?)&?) (?&?&?) Hw. assert (nonneg w) by apply Hw.
    unfold pixel_add_sample, clean_pixel, nonneg3; cbn [p_color p_wsum v3add v3scale vx vy vz].
    split; [split; [|split]|]; apply nonneg_add; auto; now apply nonneg_mul.
  Qed.
End Jobs.
