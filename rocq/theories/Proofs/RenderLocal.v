(** * Rendering one tile *)
From Coq Require Import ZArith Reals List Bool Lia Lra ZifyBool.
From Verif Require Import Model.Num Model.NumX Model.Vector Model.BBox Model.Film Model.Sampler Model.Render.
From Verif Require Import Spec.Grid Spec.FilmSpec Spec.SamplerSpec Spec.RenderSpec.
From Verif Require Import Proofs.XBase Proofs.FLaws Proofs.Iter Proofs.Tiles Proofs.FilmGrid Proofs.FilmOps Proofs.FilmJobs.
Import ListNotations.
Local Open Scope Z_scope.

Section L.
  Context {F} {FO : FOps F} {FL : FLaws F} {ST : Type}.
  Variable (sm : sampler_ops F ST) (shade : ST -> P2 F -> res (V3 F * ST)).

  Lemma unit_in_cell z (v : F) : Z.abs z < 2 ^ 24 -> in_unit v ->
    fle (fofZ z) (fadd (fofZ z) v) = true /\ fle (fadd (fofZ z) v) (fofZ (z + 1)) = true.
  Proof.
    intros Hz (Hf & Hl & Hu1). rewrite !emb_le, emb_add, !emb_ofZ_exact by lia.
    rewrite emb_le, emb_f0 in Hl. rewrite emb_lt, emb_f1 in Hu1.
    destruct (emb v) as [|[]|q]; simpl in Hl, Hu1; try discriminate. rb.
    split; [apply rn_ge_Z|apply rn_le_Z]; try lia; cbn [xadd xle]; rb; rewrite ?plus_IZR; lra.
  Qed.

  Lemma camera_sample_cell s s' p pf u : Z.abs (px p) < 2 ^ 24 -> Z.abs (py p) < 2 ^ 24 ->
    sm_get_2d sm s = Ok (u, s') -> in_unit (px u) -> in_unit (py u) ->
    get_camera_sample sm s p = Ok (pf, s') ->
    fle (fofZ (px p)) (px pf) = true /\ fle (px pf) (fofZ (px p + 1)) = true /\
    fle (fofZ (py p)) (py pf) = true /\ fle (py pf) (fofZ (py p + 1)) = true.
  Proof.
    intros Hx Hy Hu Ux Uy E. unfold get_camera_sample in E. rewrite Hu in E. cbn [rbind] in E.
    injection E as <-. cbn [px py].
    destruct (unit_in_cell (px p) (px u) Hx Ux), (unit_in_cell (py p) (py u) Hy Uy). auto.
  Qed.

  Lemma fofZ_le a b : Z.abs a <= 2 ^ 24 -> Z.abs b <= 2 ^ 24 -> a <= b -> fle (fofZ a) (fofZ b) = true.
  Proof. intros. rewrite emb_le, !emb_ofZ_exact by lia. simpl. rb. now apply IZR_le. Qed.

  Lemma shot_in_tile t p pos l : in_rect t p -> 
    (- 2 ^ 22 <= px (b2min t) <= 2 ^ 23) /\ (- 2 ^ 22 <= py (b2min t) <= 2 ^ 23) /\
    (- 2 ^ 22 <= px (b2max t) <= 2 ^ 23) /\ (- 2 ^ 22 <= py (b2max t) <= 2 ^ 23) ->
    shot_in_pixel (p, pos, l) -> pos_in_tile t pos.
  Proof.
    intros [Hx Hy] (B1 & B2 & B3 & B4) (H1 & H2 & H3 & H4). unfold pos_in_tile.
    repeat split; (eapply fle_trans; [|eassumption]) || (eapply fle_trans; [eassumption|]); apply fofZ_le; lia.
  Qed.

  Lemma add_all_app m l1 l2 (ft : film_tile F) : add_all m (l1 ++ l2) ft = (let! ft := add_all m l1 ft in add_all m l2 ft).
  Proof. apply rfold_app. Qed.

  Lemma valid_shots_app (l1 l2 : list (shot (F := F))) : valid_shots (l1 ++ l2) = valid_shots l1 ++ valid_shots l2.
  Proof. unfold valid_shots. now rewrite List.filter_app, map_app. Qed.

  Lemma In_valid_shots s (l : list (shot (F := F))) : In s (valid_shots l) ->
    exists sh, In sh l /\ fst s = snd (fst sh) /\ snd s = snd sh /\ valid_radiance (snd sh) = true.
  Proof.
    intros H. apply in_map_iff in H. destruct H as (sh & <- & H). apply filter_In in H. destruct H. eauto.
  Qed.

  (** The loop over the samples of a pixel; [shots] is in order. *)
  Lemma pixel_loop_ok m r fm t I A B left n : serves sm shade I A B left n ->
    film_ok r fm -> tile_of_sample_area fm t ->
    forall k fuel p s ft log, in_rect t p -> A s -> left s = S k -> (k < fuel)%nat -> tile_ok fm ft ->
    exists s' ft' shots, pixel_loop m sm shade fuel p s ft log = Ok (s', ft', rev shots ++ log) /\ I s' /\ left s' = O /\
      tile_ok fm ft' /\ length shots = S k /\
      Forall (fun sh => fst (fst sh) = p /\ shot_in_pixel sh) shots /\
      add_all m (valid_shots shots) ft = Ok ft'.
  Proof.
    intros V W Ht. pose proof (tile_coord_bound r fm t W Ht) as Bt.
    induction k as [|k IH]; intros fuel p s ft log Hp As Hl Hf Wt; (destruct fuel as [|fuel]; [lia|]); cbn [pixel_loop].
    all: destruct (sv_camera _ _ _ _ _ _ _ V s As) as (u & s1 & Eu & B1 & L1 & Ux & Uy).
    all: assert (Ec : get_camera_sample sm s p = Ok (mkP2 (fadd (fofZ (px p)) (px u)) (fadd (fofZ (py p)) (py u)), s1))
      by (unfold get_camera_sample; now rewrite Eu).
    all: rewrite Ec; cbn [rbind]; set (pf := mkP2 (fadd (fofZ (px p)) (px u)) (fadd (fofZ (py p)) (py u))) in *.
    all: destruct (sv_shade _ _ _ _ _ _ _ V s1 pf B1) as (l & s2 & Es & I2 & L2); rewrite Es; cbn [rbind].
    all: assert (Sh : shot_in_pixel (p, pf, l)) by
      (unfold shot_in_pixel; eapply camera_sample_cell; eauto; destruct Hp as [Hx Hy]; lia).
    all: assert (Ea : exists ft1, (if valid_radiance l then tile_add_sample m ft pf l else Ok ft) = Ok ft1 /\ tile_ok fm ft1
        /\ add_all m (valid_shots [(p, pf, l)]) ft = Ok ft1) by
      (unfold valid_shots, add_all; cbn [List.filter map snd fst];
       destruct (valid_radiance l); cbn [map rfold fst snd];
       [destruct (tile_add_sample_spec m r fm ft pf l f0 W Wt) as (p0 & mn & mx & ft1 & _ & E1 & W1 & _);
         [apply (in_tile_no_sat m r fm t); auto; eapply shot_in_tile; eauto
         |exists ft1; rewrite E1; cbn [rbind]; auto]
       |exists ft; auto]).
    all: destruct Ea as (ft1 & -> & W1 & Ea); cbn [rbind].
    all: destruct (sv_next _ _ _ _ _ _ _ V s2 I2) as (b & s3 & En & I3 & L3 & Hb & HA); [lia|]; rewrite En; cbn [rbind].
    - assert (Hs3 : left s3 = O) by lia. destruct b; [exfalso; apply (proj1 Hb); auto|].
      exists s3, ft1, [(p, pf, l)]. cbn [rev app length].
      do 5 (split; [solve [auto]|]). split; [repeat constructor; cbn [fst snd]; auto; apply Sh|exact Ea].
    - assert (Hs3 : left s3 = S k) by lia. destruct b; [|exfalso; assert (false = true) by (apply Hb; lia); discriminate].
      destruct (IH fuel p s3 ft1 ((p, pf, l) :: log) Hp (HA eq_refl) Hs3) as (s' & ft' & shots & E & I' & L' & W' & N' & Q' & A'); [lia|auto|].
      exists s', ft', ((p, pf, l) :: shots). rewrite E. split; [cbn [rev]; now rewrite <- app_assoc|].
      split; [auto|]. split; [auto|]. split; [auto|]. split; [cbn; lia|]. split; [constructor; auto|].
      change ((p, pf, l) :: shots) with ([(p, pf, l)] ++ shots).
      rewrite valid_shots_app, add_all_app, Ea. exact A'.
  Qed.

  Lemma flat_repeat_shots n p (shots : list (shot (F := F))) : length shots = n ->
    Forall (fun sh => fst (fst sh) = p /\ shot_in_pixel sh) shots ->
    map (fun sh => fst (fst sh)) shots = repeat p n.
  Proof.
    intros <- H. induction H as [|sh l [Hp _] H IH]; cbn [map length repeat]; auto. now rewrite Hp, IH.
  Qed.

  Lemma pixels_loop_ok m r fm t I A B left n fuel : serves sm shade I A B left n ->
    film_ok r fm -> tile_of_sample_area fm t -> (1 <= n <= fuel)%nat ->
    forall ps s ft log, (forall p, In p ps -> in_rect t p) -> I s -> tile_ok fm ft ->
    exists s' ft' shots, pixels_loop m sm shade fuel ps s ft log = Ok (s', ft', rev shots ++ log) /\ I s' /\
      tile_ok fm ft' /\ shots_per_pixel n ps shots /\ Forall shot_in_pixel shots /\
      add_all m (valid_shots shots) ft = Ok ft'.
  Proof.
    intros V W Ht Hn. induction ps as [|p ps IH]; intros s ft log Hps Is Wt; cbn [pixels_loop rfold].
    - exists s, ft, []. unfold pixels_loop. cbn [rfold rev app].
      do 3 (split; [solve [auto]|]). split; [reflexivity|]. split; [constructor|reflexivity].
    - destruct (sv_start _ _ _ _ _ _ _ V s p Is) as (s1 & E1 & A1 & L1).
      destruct (pixel_loop_ok m r fm t I A B left n V W Ht (pred n) fuel p s1 ft log) as (s2 & ft2 & sh & E2 & I2 & L2 & W2 & N2 & Q2 & D2);
        auto; try lia; [apply Hps; now left|].
      destruct (IH s2 ft2 (rev sh ++ log)) as (s3 & ft3 & shs & E3 & I3 & W3 & N3 & Q3 & D3); auto; [intros; apply Hps; now right|].
      exists s3, ft3, (sh ++ shs). unfold pixels_loop in *. cbn [rfold]. rewrite E1. cbn [rbind]. rewrite E2. cbn [rbind].
      rewrite E3. split; [now rewrite rev_app_distr, <- app_assoc|]. split; [auto|]. split; [auto|].
      split. { unfold shots_per_pixel in *. cbn [flat_map]. rewrite map_app. f_equal; [|exact N3]. apply flat_repeat_shots; auto. lia. }
      split. { apply Forall_app. split; auto. eapply Forall_impl; [|exact Q2]. cbn. tauto. }
      rewrite valid_shots_app, add_all_app, D2. exact D3.
  Qed.

  Lemma tile_rect_i32 r fm t : film_ok r fm -> tile_of_sample_area fm t -> rect_i32 t.
  Proof. intros W Ht. pose proof (tile_coord_bound r fm t W Ht). unfold rect_i32. lia. Qed.

  (** Rendering a tile: every pixel gets its samples; the tile holds exactly the valid ones. *)
  Lemma render_local_ok m r fm t I A B left n fuel s : serves sm shade I A B left n ->
    film_ok r fm -> tile_of_sample_area fm t -> (1 <= n <= fuel)%nat -> I s ->
    exists s' ft shots ft0 ps, render_local m sm shade fuel fm s t = Ok (s', ft, rev shots) /\ I s' /\
      tile_ok fm ft /\ enumerates t ps /\ shots_per_pixel n ps shots /\ Forall shot_in_pixel shots /\
      get_film_tile m fm t = Ok ft0 /\ add_all m (valid_shots shots) ft0 = Ok ft.
  Proof.
    intros V W Ht Hn Is. unfold render_local.
    destruct (get_film_tile_ok m r fm t W Ht) as (ft0 & E0 & W0 & _ & _). rewrite E0. cbn [rbind].
    rewrite bbox2_items_ok by (eapply tile_rect_i32; eauto). cbn [rbind].
    pose proof (rect_points_spec t) as Ep. destruct (Ep) as (_ & _ & HIn).
    destruct (pixels_loop_ok m r fm t I A B left n fuel V W Ht Hn (rect_points t) s ft0 []) as (s' & ft & shots & E & I' & W' & N' & Q' & D'); auto.
    { intros p Hp. now apply HIn. }
    exists s', ft, shots, ft0, (rect_points t). rewrite E, app_nil_r. auto 10.
  Qed.

  Lemma shots_in_tile r fm t n ps shots : film_ok r fm -> tile_of_sample_area fm t ->
    enumerates t ps -> shots_per_pixel n ps shots -> Forall (shot_in_pixel (F := F)) shots ->
    forall s, In s (valid_shots shots) -> pos_in_tile t (fst s).
  Proof.
    intros W Ht (_ & _ & HIn) Hn Hq s Hs. destruct (In_valid_shots s shots Hs) as (sh & H1 & E1 & E2 & _).
    rewrite E1. destruct sh as [[p pos] l]. cbn [fst snd] in *.
    eapply shot_in_tile; [|eapply tile_coord_bound; eauto|rewrite Forall_forall in Hq; apply (Hq _ H1)].
    apply HIn. assert (In p (map (fun sh => fst (fst sh)) shots)) by (apply in_map_iff; exists (p, pos, l); auto).
    rewrite Hn in H. apply in_flat_map in H. destruct H as (p' & Hp' & Hr). apply repeat_spec in Hr. now subst.
  Qed.

  (** [render_local] looks at the film's shape only. *)
  Lemma render_local_same m fuel (fm fm' : film F) s t : fm_res fm' = fm_res fm -> fm_radius fm' = fm_radius fm ->
    fm_table fm' = fm_table fm -> render_local m sm shade fuel fm' s t = render_local m sm shade fuel fm s t.
  Proof.
    intros E1 E2 E3. unfold render_local, get_film_tile, film_tile_bbox. now rewrite E1, E2, E3.
  Qed.
  Lemma get_film_tile_same m (fm fm' : film F) t : fm_res fm' = fm_res fm -> fm_radius fm' = fm_radius fm ->
    fm_table fm' = fm_table fm -> get_film_tile m fm' t = get_film_tile m fm t.
  Proof. intros E1 E2 E3. unfold get_film_tile, film_tile_bbox. now rewrite E1, E2, E3. Qed.

  (** If [start_pixel] forgets the past then so does rendering a tile (that has a pixel). *)
  Lemma render_local_forgets m fuel (fm : film F) I s s' t : forgets sm I -> I s -> I s' ->
    tile_of_sample_area fm t -> rect_i32 t ->
    render_local m sm shade fuel fm s t = render_local m sm shade fuel fm s' t.
  Proof.
    intros Hf Is Is' [Hsz _] Hr. unfold render_local. destruct (get_film_tile m fm t) as [ft| |]; auto. cbn [rbind].
    rewrite bbox2_items_ok by auto. cbn [rbind]. pose proof (rect_points_spec t) as (_ & _ & HIn).
    destruct (rect_points t) as [|p ps] eqn:E.
    - exfalso. assert (H : In (b2min t) []); [|exact H]. apply HIn. unfold rect_size_le in Hsz. unfold in_rect. lia.
    - unfold pixels_loop. cbn [rfold]. rewrite (Hf s s' p Is Is'). reflexivity.
  Qed.
End L.
