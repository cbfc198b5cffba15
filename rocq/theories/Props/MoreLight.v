(** * C117: more light makes no pixel darker *)
From Coq Require Import ZArith Reals List Bool Lia Lra.
From Flocq Require Import Core.
From Verif Require Import Model.Num Model.NumX Model.Vector Model.Common Model.BBox Model.Interaction Model.Shape Model.Container
  Model.Sphere Model.Texture Model.Material Model.Sampler Model.Sampling Model.Reflection Model.Light Model.Scene Model.Path Model.Film Model.Render.
From Verif Require Import Spec.RVec Spec.EstimatorSpec Spec.SumSpec.
From Verif Require Import Spec.FilmSpec Spec.SamplerSpec Spec.RenderSpec Spec.BoxSpec Spec.ShapeSpec Spec.ShadeSpec Spec.LambertSpec.
From Verif Require Import Proofs.XBase Proofs.FLaws Proofs.Tiles Proofs.FilmGrid Proofs.FilmOps Proofs.FilmJobs Proofs.RenderLocal Proofs.Order Proofs.ShapeProofs Proofs.RVecProofs Proofs.MatProofs.
From Verif Require Import Props.Film3 Props.RenderProps Props.Radiance2 Props.Accel Props.Lambert Props.Superposition.
From Verif Require Import Proofs.MicroProofs.
Import ListNotations.
Local Open Scope R_scope.

(** ** A pixel to which valid samples were added with weights that are not negative *)
Definition lit (p : pixel XR) : Prop := exists c w, p_color p = fin3 c /\ p_wsum p = XFin w /\
  0 <= vx c /\ 0 <= vy c /\ 0 <= vz c /\ 0 <= w /\ (w = 0 -> c = v0).
Definition good_table (t : list (list XR)) : Prop := forall row w, In row t -> In w row -> exists x, w = XFin x /\ 0 <= x.

Lemma lit_default : lit pixel_default.
Proof. exists v0, 0. unfold v0. vproj. repeat split; lra. Qed.
Lemma lit_add p a w : lit p -> 0 <= vx a -> 0 <= vy a -> 0 <= vz a -> 0 <= w -> lit (pixel_add_sample p (fin3 a) (XFin w)).
Proof.
  intros (c & k & C & K & X & Y & Z & W & H) A1 A2 A3 Hw. exists (vadd c (vscale w a)), (k + w). unfold pixel_add_sample. cbn [p_color p_wsum]. rewrite C, K.
  assert (Sc : v3scale (fin3 a) (XFin w) = fin3 (vscale w a)) by (unfold v3scale, fin3, vscale; xsimp; vproj; cbn [xmul]; f_equal; f_equal; ring).
  rewrite Sc, v3add_fin. split; [reflexivity|]. split; [reflexivity|]. unfold vadd, vscale. vproj. repeat split; try nra.
  intros E. assert (w = 0) by lra. rewrite (H ltac:(lra)). subst w. unfold v0. apply V3_eq; vproj; ring.
Qed.
Lemma lit_merge p q : lit p -> lit q -> lit (pixel_merge p q).
Proof.
  intros (c & k & C & K & X & Y & Z & W & H) (c' & k' & C' & K' & X' & Y' & Z' & W' & H'). exists (vadd c c'), (k + k').
  unfold pixel_merge. cbn [p_color p_wsum]. rewrite C, K, C', K', v3add_fin. split; [reflexivity|]. split; [reflexivity|].
  unfold vadd. vproj. repeat split; try lra. intros E. rewrite (H ltac:(lra)), (H' ltac:(lra)). unfold v0. apply V3_eq; vproj; ring.
Qed.

Lemma upd_all {A} (P : A -> Prop) l k g r : (forall x, P x -> P (g x)) -> Forall P l -> upd l k g = Ok r -> Forall P r.
Proof.
  intros Hg Hl. unfold upd. destruct (idx l k) as [x| |] eqn:E; cbn [rbind]; try discriminate. intros H. apply ok_eq in H. subst r.
  assert (Px : P (g x)) by (apply Hg; rewrite Forall_forall in Hl; apply Hl; eapply idx_In; eauto).
  clear E. revert Hl. generalize (Z.to_nat k). induction l as [|y l IH]; intros [|n] Hl; cbn [set_nth]; auto; inversion Hl; subst; constructor; auto.
Qed.
Lemma rfold_inv {A B} (P : A -> Prop) (f : A -> B -> res A) : (forall x a b, P a -> f a x = Ok b -> P b) -> forall l a b, P a -> rfold f l a = Ok b -> P b.
Proof.
  intros H. induction l as [|x l IH]; intros a b Pa; cbn [rfold]; [intros E; apply ok_eq in E; now subst|].
  destruct (f a x) as [c| |] eqn:E; cbn [rbind]; try discriminate. apply IH. eauto.
Qed.

Definition lit_tile (t : film_tile XR) : Prop := good_table (tl_table t) /\ Forall lit (tl_pixels t).
Definition lit_film (f : film XR) : Prop := good_table (fm_table f) /\ Forall lit (fm_pixels f).

Ltac head_res e := lazymatch e with rbind ?a _ => head_res a | _ => e end.
Tactic Notation "next_res" := lazymatch goal with |- ?e = Ok _ -> _ => let x := head_res e in destruct x; cbn [rbind]; try discriminate end.
Tactic Notation "next_res" ident(v) ident(E) := lazymatch goal with |- ?e = Ok _ -> _ => let x := head_res e in destruct x as [v| |] eqn:E; cbn [rbind]; try discriminate end.
Lemma add_sample_lit m t pf l r : lit_tile t -> valid_radiance l = true -> tile_add_sample m t pf l = Ok r -> lit_tile r.
Proof.
  intros Ht V. destruct (valid_fin l V) as (a & -> & A1 & A2 & A3). unfold tile_add_sample.
  destruct (sample_range m t pf) as [[[p mn] mx]| |]; cbn [rbind]; try discriminate.
  set (ix := map _ _). set (iy := map _ _). clearbody ix iy.
  apply rfold_inv; auto. clear t r Ht. intros y t r Ht. apply rfold_inv; auto. clear t r Ht. intros x t r [GT Ht]. unfold splat_one.
  do 2 next_res. next_res row Er. do 2 next_res. next_res w Ew. next_res off Eo. next_res px Ep. intros H. apply ok_eq in H. subst r.
  split; [exact GT|]. cbn [tl_pixels]. destruct (GT row w) as (w' & -> & Hw); [eapply idx_In; eauto|eapply idx_In; eauto|].
  revert Ep. apply upd_all; auto. intros q Hq. now apply lit_add.
Qed.

Lemma merge_lit m t f r : lit_tile t -> lit_film f -> merge_film_tile m f t = Ok r -> lit_film r.
Proof.
  intros [GT Ht]. unfold merge_film_tile. intros Hf. destruct (bbox2_items m _) as [ps| |]; cbn [rbind]; try discriminate. revert Hf. 
  intros Hf. apply rfold_inv; auto. clear f r Hf. intros p f r [GF Hf]. unfold merge_one.
  next_res o1 E1. next_res o2 E2. next_res q Eq. next_res px Ep. intros H. apply ok_eq in H. subst r. split; [exact GF|]. cbn [fm_pixels].
  revert Ep. apply upd_all; auto. intros x Hx. apply lit_merge; auto. rewrite Forall_forall in Ht. apply Ht. eapply idx_In; eauto.
Qed.

Section Lit.
  Context {ST : Type}.
  Variables (m : build) (sm : sampler_ops XR ST) (sh : ST -> P2 XR -> res (V3 XR * ST)).

  Lemma pixel_loop_lit : forall fuel p s t log r, lit_tile t -> pixel_loop m sm sh fuel p s t log = Ok r -> lit_tile (snd (fst r)).
  Proof.
    induction fuel as [|fuel IH]; intros p s t log r Ht; cbn [pixel_loop]; [discriminate|].
    destruct (get_camera_sample sm s p) as [[pf s0]| |]; cbn [rbind]; try discriminate.
    destruct (sh s0 pf) as [[l s1]| |]; cbn [rbind]; try discriminate.
    assert (K : forall u, (if valid_radiance l then tile_add_sample m t pf l else Ok t) = Ok u -> lit_tile u).
    { intros u. destruct (valid_radiance l) eqn:V; intros H; [eapply add_sample_lit; eauto|apply ok_eq in H; now subst]. }
    destruct (if valid_radiance l then _ else _) as [u| |]; cbn [rbind]; try discriminate. specialize (K u eq_refl).
    destruct (sm_next_sample sm s1) as [[more s3]| |]; cbn [rbind]; try discriminate. destruct more.
    - now apply IH.
    - intros H. apply ok_eq in H. now subst.
  Qed.

  Lemma local_lit fuel f s b r : lit_film f -> render_local m sm sh fuel f s b = Ok r -> lit_tile (snd (fst r)).
  Proof.
    intros [GF Hf]. unfold render_local, get_film_tile, film_tile_new.
    destruct (bbox2_area m _) as [ar| |]; cbn [rbind]; try discriminate.
    unfold alloc_pixels. destruct (ar <? 0)%Z; cbn [rbind]; try discriminate.
    destruct (bbox2_items m b) as [ps| |]; cbn [rbind]; try discriminate. unfold pixels_loop.
    apply (rfold_inv (fun r : ST * film_tile XR * list (shot (F := XR)) => lit_tile (snd (fst r)))).
    - intros p [[s1 t1] g1] r1 Ht. destruct (sm_start_pixel sm s1 p) as [s4| |]; cbn [rbind]; try discriminate. now apply pixel_loop_lit.
    - cbn [fst snd]. split; [exact GF|]. cbn [tl_pixels]. apply Forall_forall. intros x Hx. apply repeat_spec in Hx. subst. apply lit_default.
  Qed.

  Lemma seq_lit fuel f s s1 r : lit_film f -> render_seq m sm sh fuel f s = Ok (s1, r) -> lit_film r.
  Proof.
    intros Hf. unfold render_seq. destruct (tile_items m _) as [tiles| |]; cbn [rbind]; try discriminate. intros H.
    change (lit_film (snd (s1, r))). revert H. apply (rfold_inv (fun r : ST * film XR => lit_film (snd r))); auto.
    intros b [t g] r0 Hg. unfold render_tile. destruct (render_local m sm sh fuel g t b) as [x| |] eqn:L; cbn [rbind]; try discriminate.
    pose proof (local_lit fuel g t b x Hg L) as Hx. destruct x as [[y u] k]. cbn [fst snd] in Hx.
    destruct (merge_film_tile m g u) as [h| |] eqn:M; cbn [rbind]; try discriminate. intros H. apply ok_eq in H. subst. cbn [snd].
    eapply merge_lit; eauto.
  Qed.
End Lit.

(** *** what is written *)
Lemma brighter_level c1 c w : 0 <= w -> c1 <= c -> (w = 0 -> c = c1) -> (quantize (XFin c1) (XFin w) <= quantize (XFin c) (XFin w))%Z.
Proof.
  intros [W|<-] H E; [|rewrite (E eq_refl); lia]. apply C10_white_and_monotone_exact. xsimp. cbn [xdiv]. rewrite !Req_bool_false by lra.
  cbn [xle]. rb. apply Rmult_le_compat_r; auto. left. now apply Rinv_0_lt_compat.
Qed.

Definition no_darker (p1 p : pixel XR) : Prop :=
  match pixel_rgb p1, pixel_rgb p with (r1, g1, b1), (r, g, b) => (r1 <= r /\ g1 <= g /\ b1 <= b)%Z end.

Lemma sum_no_darker ka kb p1 p2 p : each (fun k => 1 <= k) ka -> each (fun k => 0 <= k) kb -> lit p1 -> lit p2 -> pixel_sum ka kb p1 p2 p -> no_darker p1 p.
Proof.
  intros Ka Kb (c1 & w1 & C1 & W1 & X1 & Y1 & Z1 & P1 & H1) (c2 & w2 & C2 & W2 & X2 & Y2 & Z2 & P2 & H2) (a & b & A & B & C & E1 & E2).
  rewrite C1 in A. rewrite C2 in B. apply fin3_inj in A, B. subst a b. rewrite W1 in E1. rewrite W2 in E2. rewrite <- E1 in E2. injection E2 as ->.
  unfold no_darker, pixel_rgb. rewrite C1, C, W1, <- E1. unfold fin3, mix, vadd, vprod. vproj. unfold each in Ka, Kb.
  repeat split; apply brighter_level; auto; try nra; intros E; specialize (H1 E); specialize (H2 E); subst c1 c2; unfold v0; vproj; ring.
Qed.

Lemma new_film_lit m r radius alpha fm : film_new m r (gaussian_filter (XFin radius) (XFin alpha)) = Ok fm -> lit_film fm.
Proof.
  unfold film_new. destruct (i32_of _ _) as [ar| |]; cbn [rbind]; try discriminate. unfold alloc_pixels.
  destruct (ar <? 0)%Z; cbn [rbind]; try discriminate. intros H. apply ok_eq in H. subst fm. split.
  - intros row w. cbn [fm_table]. unfold filter_table. rewrite in_map_iff. intros (y & <- & _). rewrite in_map_iff. intros (x & <- & _).
    assert (Z16 : IZR FILTER_TABLE_WIDTH <> 0) by (apply IZR_neq; discriminate).
    assert (Hh : (fhalf : XR) = XFin (1 / 2)) by (unfold fhalf, f1, f2; xsimp; cbn; rewrite Req_bool_false by lra; reflexivity).
    assert (P : forall z, ((fofZ z + fhalf) * XFin radius / fofZ FILTER_TABLE_WIDTH)%f = XFin ((IZR z + 1 / 2) * radius / IZR FILTER_TABLE_WIDTH)).
    { intros z. rewrite Hh. xsimp. cbn [xadd xmul xdiv]. now rewrite Req_bool_false. }
    unfold gaussian_filter. cbn [flt_eval flt_radius px py]. rewrite !P.
    assert (G : forall e d, exists g, gaussian (XFin alpha) (XFin e) (XFin d) = XFin g /\ 0 <= g).
    { intros e d. unfold gaussian, fmax, f0. xsimp. cbn [xneg xmul xexp xsub xis_nan xlt]. destruct (Rlt_bool _ _) eqn:L; rb; eexists; (split; [reflexivity|]); lra. }
    assert (E : fexp (- XFin alpha * fsq (XFin radius))%f = XFin (exp (- alpha * (radius * radius)))) by (unfold fsq; xsimp; reflexivity).
    rewrite E. destruct (G (exp (- alpha * (radius * radius))) ((IZR x + 1 / 2) * radius / IZR FILTER_TABLE_WIDTH)) as (g1 & -> & N1).
    destruct (G (exp (- alpha * (radius * radius))) ((IZR y + 1 / 2) * radius / IZR FILTER_TABLE_WIDTH)) as (g2 & -> & N2). xsimp. cbn [xmul].
    eexists. split; [reflexivity|]. nra.
  - cbn [fm_pixels]. apply Forall_forall. intros x Hx. apply repeat_spec in Hx. subst. apply lit_default.
Qed.

Lemma all3_at {A} (R : A -> A -> A -> Prop) l1 l2 l : all3 R l1 l2 l -> forall n x1 x, nth_error l1 n = Some x1 -> nth_error l n = Some x ->
  exists x2, nth_error l2 n = Some x2 /\ R x1 x2 x.
Proof. induction 1; intros [|n] y1 y; cbn; try discriminate; eauto. intros [= <-] [= <-]. eauto. Qed.
Lemma all3_length {A} (R : A -> A -> A -> Prop) l1 l2 l : all3 R l1 l2 l -> length l1 = length l.
Proof. induction 1; cbn; congruence. Qed.

(** Exact arithmetic, the same random numbers, a new film with the library's filter.  A scene and another one with the same
    shapes and materials that holds extra light; in the third everything shines at least as much as in the first
    ([ka] times as much, [1 <= ka]) and [kb] times the extra light is added.  If the first two are rendered without a sample
    thrown away, so is the third, and no channel of no pixel of it is written with a lower number than in the first. *)
Theorem C117_no_darker : forall (T ST : Type) (m : build) (sm : sampler_ops XR ST) (teq : T -> T -> bool)
    (surf1 surf2 surf : T -> surface XR T) (sc1 sc2 sc : scene XR T (container XR T)) ka kb gen bounces fuel rs radius alpha fm s s1 s2 r1 r2,
  each (fun k => 1 <= k) ka -> each (fun k => 0 <= k) kb -> sum_scene ka kb surf1 surf2 surf sc1 sc2 sc ->
  film_new m rs (gaussian_filter (XFin radius) (XFin alpha)) = Ok fm ->
  render_seq m sm (only_valid (shade sm teq surf1 sc1 gen bounces)) fuel fm s = Ok (s1, r1) ->
  render_seq m sm (only_valid (shade sm teq surf2 sc2 gen bounces)) fuel fm s = Ok (s2, r2) ->
  exists r, render_seq m sm (shade sm teq surf sc gen bounces) fuel fm s = Ok (s1, r) /\ length (fm_pixels r) = length (fm_pixels r1) /\
    forall n p1 p, nth_error (fm_pixels r1) n = Some p1 -> nth_error (fm_pixels r) n = Some p -> no_darker p1 p.
Proof.
  intros T ST m sm teq surf1 surf2 surf sc1 sc2 sc ka kb gen bounces fuel rs radius alpha fm s s1 s2 r1 r2 Ka Kb D Ef H1 H2.
  destruct (new_film_sum ka kb _ _ _ _ _ Ef) as [Sf FT].
  destruct (C116_picture T ST m sm teq surf1 surf2 surf sc1 sc2 sc ka kb gen bounces fuel fm fm fm s s1 s2 r1 r2 ltac:(unfold each in *; lra) Kb D Sf FT H1 H2) as (_ & r & Er & Sr).
  exists r. split; [exact Er|]. destruct Sr as (_ & _ & _ & _ & _ & _ & A). split; [symmetry; eapply all3_length; eauto|].
  pose proof (new_film_lit _ _ _ _ _ Ef) as L0. pose proof (seq_lit _ _ _ _ _ _ _ _ L0 H1) as [_ L1]. pose proof (seq_lit _ _ _ _ _ _ _ _ L0 H2) as [_ L2].
  rewrite Forall_forall in L1, L2. intros n p1 p N1 N. destruct (all3_at _ _ _ _ A n p1 p N1 N) as (p2 & N2 & S).
  apply (sum_no_darker ka kb p1 p2 p); auto; [apply L1|apply L2]; eapply nth_error_In; eauto.
Qed.
Print Assumptions C117_no_darker.

(** ** Every schedule of the threads *)
Lemma only_valid_below {ST} (sh : ST -> P2 XR -> res (V3 XR * ST)) s p : below (only_valid sh s p) (sh s p).
Proof.
  intros [l t]. unfold only_valid. destruct (sh s p) as [[l' t']| |]; cbn [rbind]; try discriminate.
  destruct (valid_radiance l'); [auto|discriminate].
Qed.
Lemma serves_below {ST} (sm : sampler_ops XR ST) sh1 sh2 I A B left n : (forall s p, below (sh1 s p) (sh2 s p)) ->
  serves sm sh1 I A B left n -> serves sm sh2 I A B left n.
Proof.
  intros H [S1 S2 S3 S4]. constructor; auto. intros s p Hs. destruct (S3 s p Hs) as (l & s' & E & K). exists l, s'. split; auto. now apply H.
Qed.
Lemma seq_exists {ST} m (sm : sampler_ops XR ST) sh fuel I A B left n res flt fm s :
  serves sm sh I A B left n -> (1 <= n <= fuel)%nat -> I s -> film_args res flt -> film_new m res flt = Ok fm ->
  exists s' r, render_seq m sm sh fuel fm s = Ok (s', r).
Proof.
  intros V Hn Is Ha En. destruct (film_args_ok (FL := XR_FLaws) m res flt Ha) as (fm' & r & E' & W & _). rewrite En in E'. injection E' as <-.
  pose proof (sample_bbox_tileable r fm W) as Hbb.
  assert (Ht : forall b, In b (tile_list (film_sample_bbox fm)) -> tile_of_sample_area fm b).
  { intros b Hb. now apply (proj1 (tile_list_partitions _ Hbb)). }
  destruct (seq_jobs (FL := XR_FLaws) m sm sh fuel I A B left n r fm V W Hn (tile_list (film_sample_bbox fm)) Ht fm s Is W eq_refl eq_refl eq_refl)
    as (s' & fm2 & js2 & E2 & _).
  exists s', fm2. unfold render_seq. now rewrite tile_items_ok.
Qed.

(** The threads of two renders, each in any order: whatever the numbers of threads and their schedules, no pixel of the film
    with more light is written darker. *)
Theorem C117_threads : forall (T ST : Type) (m : build) (sm : sampler_ops XR ST) (teq : T -> T -> bool)
    (surf1 surf2 surf : T -> surface XR T) (sc1 sc2 sc : scene XR T (container XR T)) ka kb gen bounces fuel rs radius alpha fm s I A B left n k k' y0 y0' j j' y y',
  each (fun k => 1 <= k) ka -> each (fun k => 0 <= k) kb -> sum_scene ka kb surf1 surf2 surf sc1 sc2 sc ->
  serves sm (only_valid (shade sm teq surf1 sc1 gen bounces)) I A B left n -> serves sm (only_valid (shade sm teq surf2 sc2 gen bounces)) I A B left n ->
  (1 <= n <= fuel)%nat -> I s -> forgets sm I ->
  film_args rs (gaussian_filter (XFin radius) (XFin alpha)) -> film_new m rs (gaussian_filter (XFin radius) (XFin alpha)) = Ok fm ->
  (1 <= k)%nat -> start_sys m fm s k = Ok y0 -> steps m sm (shade sm teq surf1 sc1 gen bounces) fuel j y0 y -> all_done y ->
  (1 <= k')%nat -> start_sys m fm s k' = Ok y0' -> steps m sm (shade sm teq surf sc gen bounces) fuel j' y0' y' -> all_done y' ->
  length (fm_pixels (y_film y')) = length (fm_pixels (y_film y)) /\
  forall i p1 p, nth_error (fm_pixels (y_film y)) i = Some p1 -> nth_error (fm_pixels (y_film y')) i = Some p -> no_darker p1 p.
Proof.
  intros T ST m sm teq surf1 surf2 surf sc1 sc2 sc ka kb gen bounces fuel rs radius alpha fm s I A B left n k k' y0 y0' j j' y y'
    Ka Kb D V1 V2 Hn Is Hf Ha En Hk E0 Sy Dy Hk' E0' Sy' Dy'.
  destruct (seq_exists m sm _ fuel I A B left n _ _ fm s V1 Hn Is Ha En) as (s1 & r1 & R1).
  destruct (seq_exists m sm _ fuel I A B left n _ _ fm s V2 Hn Is Ha En) as (s2 & r2 & R2).
  destruct (C117_no_darker T ST m sm teq surf1 surf2 surf sc1 sc2 sc ka kb gen bounces fuel rs radius alpha fm s s1 s2 r1 r2 Ka Kb D En R1 R2) as (r & R & L & N).
  assert (V1' : serves sm (shade sm teq surf1 sc1 gen bounces) I A B left n) by (eapply serves_below; [apply only_valid_below|exact V1]).
  assert (V : serves sm (shade sm teq surf sc gen bounces) I A B left n).
  { destruct V1 as [S1 S2 S3 S4], V2 as [_ _ S3' _]. constructor; auto. intros t p Ht.
    destruct (S3 t p Ht) as (l1 & t1 & E1 & I1 & L1). destruct (S3' t p Ht) as (l2 & t2 & E2 & _ & _).
    assert (F : forall sf su l t', only_valid (shade sm teq sf su gen bounces) t p = Ok (l, t') -> exists a, l = fin3 a /\ shade sm teq sf su gen bounces t p = Ok (fin3 a, t')).
    { intros sf su l t' E. pose proof (only_valid_below _ t p _ E) as E'. unfold only_valid in E. rewrite E' in E. cbn [rbind] in E.
      destruct (valid_radiance l) eqn:Vl; [|discriminate]. destruct (valid_fin l Vl) as (a & -> & _). eauto. }
    destruct (F _ _ _ _ E1) as (a1 & -> & G1). destruct (F _ _ _ _ E2) as (a2 & -> & G2). unfold shade in *.
    destruct (gen p) as [q| |]; cbn [rbind] in *; try discriminate.
    destruct (C116_superposition T ST sm teq surf1 surf2 surf sc1 sc2 sc ka kb bounces t q a1 a2 t1 t2 D G1 G2) as [_ G]. eauto. }
  destruct (C06_schedule_independent ST m sm _ fuel I A B left n rs _ fm s k y0 j y V1' Hn Is Hf Ha En E0 Hk Sy Dy) as (u1 & Q1).
  destruct (C06_schedule_independent ST m sm _ fuel I A B left n rs _ fm s k' y0' j' y' V Hn Is Hf Ha En E0' Hk' Sy' Dy') as (u & Q).
  apply (below_seq m sm _ _ (only_valid_below _)) in R1. rewrite Q1 in R1. rewrite Q in R. apply ok_pair in R as [_ <-]. apply ok_pair in R1 as [_ <-]. auto.
Qed.
Print Assumptions C117_threads.

(** The ball of [C96_example] under a yellow sun, rendered on a film of 3 by 2 pixels with one sample each; then with a blue
    sun added and everything twice as bright. *)
Definition ex_one : sampler_ops XR bool :=
  mkSampler (fun _ _ => Ok true) (fun _ => Ok (false, false)) (fun s => Ok (XFin (1/2), s)) (fun s => Ok (mkP2 (XFin (1/2)) (XFin (1/2)), s)).
Definition ex_gen (_ : P2 XR) : res (ray XR) := Ok (mkRay (fin3 (mkV3 3 0 0)) (fin3 (mkV3 (-1) 0 0)) finf).
Lemma ex_one_serves (sh : bool -> P2 XR -> res (V3 XR * bool)) a : (forall s p, sh s p = Ok (fin3 a, s)) -> 0 <= vx a -> 0 <= vy a -> 0 <= vz a ->
  serves ex_one (only_valid sh) (fun _ => True) (fun _ => True) (fun _ => True) (fun s => if s then 1%nat else 0%nat) 1.
Proof.
  intros H X Y Z. constructor.
  - intros s p _. exists true. auto.
  - intros s _. exists (mkP2 (XFin (1/2)) (XFin (1/2))), s. split; [reflexivity|]. split; auto. split; auto.
    assert (U : in_unit (XFin (1/2))); [|now split].
    unfold in_unit. rewrite x_f0, x_f1. xsimp. cbn [xle xlt]. rewrite Rle_bool_true, Rlt_bool_true by lra. auto.
  - intros s p _. exists (fin3 a), s. split; auto. unfold only_valid. rewrite H. cbn [rbind]. now rewrite fin_valid.
  - intros s _ Hs. exists false, false. destruct s; [|lia]. do 3 (split; [auto; reflexivity|]). split; [|auto]. split; [discriminate|intros C; now destruct C].
Qed.
Lemma ex_one_sun (al : unit -> area_light XR unit) (a : rv) : exists sc,
  construct (body_shape (fun _ => Ball v0 1)) al (in_simple (fun _ => Ball v0 1)) (sunny [(a, mkV3 1 1 0)] [tt]) = Ok sc /\
  forall s, li ex_one (fun _ _ => true) (matt_surf (fun _ => mkV3 1 (1/2) 0)) sc 2 s (mkRay (fin3 (mkV3 3 0 0)) (fin3 (mkV3 (-1) 0 0)) finf) =
    Ok (fin3 (mkV3 (vx a / sqrt 2 / PI) (vy a / sqrt 2 / PI / 2) 0), s).
Proof.
  assert (S2 : 0 < sqrt 2) by (apply sqrt_lt_R0; lra). pose proof PI_RGT_0.
  assert (On : on_sphere v0 1 (at_t (mkV3 3 0 0) (mkV3 (-1) 0 0) 2)) by (apply on_sphere_sq; unfold vdot, vsub, at_t, vadd, vscale, v0; vproj; ring).
  destruct (C96_ball bool ex_one (fun _ _ => true) al v0 1 (mkV3 1 (1/2) 0) [(a, mkV3 1 1 0)] (mkV3 3 0 0) (mkV3 (-1) 0 0) 2) as (sc & Cs & H0); try lra; auto.
  - unfold each. vproj. lra.
  - intros q [<-|[]] E. apply (f_equal (fun q : rv => vx q)) in E. revert E. unfold v0. cbn [snd]. vproj. lra.
  - reflexivity.
  - unfold vdist, vnorm, vdot, vsub, v0. vproj. replace ((3 - 0) * (3 - 0) + (0 - 0) * (0 - 0) + (0 - 0) * (0 - 0)) with (3 * 3) by ring. rewrite sqrt_square; lra.
  - intros E. apply (f_equal (fun q : rv => vx q)) in E. revert E. unfold v0. vproj. lra.
  - intros y Hy E. apply on_sphere_sq in E. revert E. unfold vdot, vsub, at_t, vadd, vscale, v0. vproj. nra.
  - left. unfold at_t, vadd, vscale, v0. vproj. lra.
  - unfold vdot, vsub, at_t, vadd, vscale, v0. vproj. lra.
  - exists sc. split; [exact Cs|]. intros s.
    rewrite (H0 s (1/2) s (mkP2 (XFin (1/2)) (XFin (1/2))) s (mkP2 (XFin (1/2)) (XFin (1/2))) s (1/2) (1/2) s 0%nat (a, mkV3 1 1 0) 0%nat); auto; try lra.
    2: { cbn [length INR]. lra. }
    cbn [length INR fst snd].
    assert (Co : vdot (vscale (/ 1) (vsub (at_t (mkV3 3 0 0) (mkV3 (-1) 0 0) 2) v0)) (vunit (mkV3 1 1 0)) = / sqrt 2).
    { unfold vunit, vnorm, vdot, vsub, at_t, vadd, vscale, v0. vproj. replace (1 * 1 + 1 * 1 + 0 * 0) with 2 by ring. field. lra. }
    rewrite Co. unfold lambert. rewrite Rmax_right by (left; now apply Rinv_0_lt_compat).
    apply (f_equal (fun v => Ok (fin3 v, s))). unfold vscale, vprod. apply V3_eq; vproj; field; lra.
Qed.
Example C117_example : exists sc1 sc2 sc fm s1 s2 r1 r2,
  let surf := matt_surf (fun _ : unit => mkV3 1 (1/2) 0) in
  let flt := gaussian_filter (XFin 2) (XFin 2) in
  let draw sc := only_valid (shade ex_one (fun _ _ => true) surf sc ex_gen 2) in
  sum_scene (grey 2) (grey 1) surf surf surf sc1 sc2 sc /\ film_args (mkP2 3 2)%Z flt /\ film_new Release (mkP2 3 2)%Z flt = Ok fm /\
  render_seq Release ex_one (draw sc1) 1 fm true = Ok (s1, r1) /\ render_seq Release ex_one (draw sc2) 1 fm true = Ok (s2, r2) /\
  exists r, render_seq Release ex_one (shade ex_one (fun _ _ => true) surf sc ex_gen 2) 1 fm true = Ok (s1, r) /\
    length (fm_pixels r) = length (fm_pixels r1) /\
    forall n p1 p, nth_error (fm_pixels r1) n = Some p1 -> nth_error (fm_pixels r) n = Some p -> no_darker p1 p.
Proof.
  assert (S2 : 0 < / sqrt 2) by (apply Rinv_0_lt_compat, sqrt_lt_R0; lra). assert (Pi : 0 < / PI) by (apply Rinv_0_lt_compat, PI_RGT_0).
  set (sh := body_shape (fun _ : unit => Ball v0 1)). set (rho := fun _ : unit => mkV3 1 (1/2) 0).
  destruct (ex_one_sun (lit_by sh (fun _ => mix (grey 2) (grey 1) v0 v0)) (mix (grey 2) (grey 1) (mkV3 1 1 0) (mkV3 0 1 1))) as (sc & Cs & _).
  destruct (C116_built unit sh (in_simple (fun _ => Ball v0 1)) [(mkV3 1 1 0, mkV3 0 1 1, mkV3 1 1 0)] [tt] [] (fun _ => v0) (fun _ => v0)
    (fun t => mat_lambertian (constant_texture (fin3 (rho t)))) (fun _ => false) (grey 2) (grey 1) sc Cs) as (sc1 & sc2 & C1 & C2 & D).
  destruct (ex_one_sun (lit_by sh (fun _ => v0)) (mkV3 1 1 0)) as (sc1' & C1' & L1).
  destruct (ex_one_sun (lit_by sh (fun _ => v0)) (mkV3 0 1 1)) as (sc2' & C2' & L2).
  assert (sc1' = sc1) by (apply ok_eq; rewrite <- C1, <- C1'; reflexivity). assert (sc2' = sc2) by (apply ok_eq; rewrite <- C2, <- C2'; reflexivity). subst.
  assert (Fa : film_args (mkP2 3 2)%Z (gaussian_filter (XFin 2) (XFin 2))).
  { unfold film_args. cbn [px py gaussian_filter flt_radius]. do 3 (split; [lia|]). rewrite x_f0. xsimp. cbn [xle]. split; apply Rle_bool_true; [lra|]. apply IZR_le. lia. }
  destruct (film_args_ok (FL := XR_FLaws) Release _ _ Fa) as (fm & _ & Ef & _).
  assert (V1 := ex_one_serves (shade ex_one (fun _ _ => true) (matt_surf (fun _ : unit => mkV3 1 (1/2) 0)) sc1 ex_gen 2) _ (fun s p => L1 s)).
  assert (V2 := ex_one_serves (shade ex_one (fun _ _ => true) (matt_surf (fun _ : unit => mkV3 1 (1/2) 0)) sc2 ex_gen 2) _ (fun s p => L2 s)).
  destruct (seq_exists Release ex_one _ 1 _ _ _ _ 1 _ _ fm true (V1 ltac:(vproj; unfold Rdiv; nra) ltac:(vproj; unfold Rdiv; nra) ltac:(vproj; lra)) ltac:(lia) Logic.I Fa Ef) as (s1 & r1 & R1).
  destruct (seq_exists Release ex_one _ 1 _ _ _ _ 1 _ _ fm true (V2 ltac:(vproj; unfold Rdiv; nra) ltac:(vproj; unfold Rdiv; nra) ltac:(vproj; lra)) ltac:(lia) Logic.I Fa Ef) as (s2 & r2 & R2).
  exists sc1, sc2, sc, fm, s1, s2, r1, r2. cbv zeta. split; [exact D|]. split; [exact Fa|]. split; [exact Ef|]. split; [exact R1|]. split; [exact R2|].
  exact (C117_no_darker unit bool Release ex_one (fun _ _ => true) _ _ _ sc1 sc2 sc (grey 2) (grey 1) ex_gen 2 1 _ 2 2 fm true s1 s2 r1 r2 ltac:(unfold each, grey; vproj; lra) ltac:(unfold each, grey; vproj; lra) D Ef R1 R2).
Qed.
