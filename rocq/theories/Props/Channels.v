(** * C118: the colours of light do not mix *)
From Coq Require Import ZArith Reals List Bool Lia Lra.
From Flocq Require Import Core.
From Verif Require Import Model.Num Model.NumX Model.Vector Model.Common Model.BBox Model.Interaction Model.Shape Model.Container
  Model.Sphere Model.Texture Model.Material Model.Sampler Model.Sampling Model.Reflection Model.Light Model.Scene Model.Path Model.Film Model.Render.
From Verif Require Import Spec.RVec Spec.EstimatorSpec Spec.SumSpec Spec.ChannelSpec.
From Verif Require Import Spec.FilmSpec Spec.SamplerSpec Spec.RenderSpec Spec.BoxSpec Spec.ShapeSpec Spec.ShadeSpec Spec.LambertSpec.
From Verif Require Import Proofs.XBase Proofs.FLaws Proofs.Tiles Proofs.FilmGrid Proofs.FilmOps Proofs.FilmJobs Proofs.RenderLocal Proofs.Order Proofs.ShapeProofs Proofs.RVecProofs Proofs.MatProofs.
From Verif Require Import Props.Film3 Props.RenderProps Props.Radiance2 Props.Accel Props.Lambert Props.Superposition Props.MoreLight.
From Verif Require Import Proofs.MicroProofs.
Import ListNotations.
Local Open Scope R_scope.

(** ** Channels as factors: 1 in the channels of [C] and 0 in the others *)
Definition mask (C : channel -> bool) : rv := mkV3 (if C Red then 1 else 0) (if C Green then 1 else 0) (if C Blue then 1 else 0).
Definition outside (C : channel -> bool) : channel -> bool := fun c => negb (C c).
Lemma mask_pos C : each (fun k => 0 <= k) (mask C).
Proof. unfold each, mask. vproj. destruct (C Red), (C Green), (C Blue); repeat split; lra. Qed.
Lemma agree_mix C a b : agree C a b <-> mix (mask C) (mask (outside C)) a b = b.
Proof.
  unfold agree, mix, mask, outside, vprod, vadd. vproj. split.
  - intros H. pose proof (H Red) as HR. pose proof (H Green) as HG. pose proof (H Blue) as HB. unfold chan in HR, HG, HB.
    apply V3_eq; vproj; destruct (C Red), (C Green), (C Blue); cbn [negb]; try rewrite HR by auto; try rewrite HG by auto; try rewrite HB by auto; ring.
  - intros E c Hc. pose proof (f_equal (chan c) E) as Ec. destruct c; unfold chan in *; revert Ec; vproj; rewrite Hc; cbn [negb]; lra.
Qed.
Lemma agree_refl C a : agree C a a.
Proof. intros c _. reflexivity. Qed.
(** nothing in the channels of [C]: the same after removing them *)
Lemma dark_mix C a : (forall c, C c = true -> chan c a = 0) <-> mix (mask (outside C)) v0 a a = a.
Proof.
  unfold mix, mask, outside, vprod, vadd, v0. vproj. split.
  - intros H. pose proof (H Red) as HR. pose proof (H Green) as HG. pose proof (H Blue) as HB. unfold chan in HR, HG, HB.
    apply V3_eq; vproj; destruct (C Red), (C Green), (C Blue); cbn [negb]; try rewrite HR by auto; try rewrite HG by auto; try rewrite HB by auto; ring.
  - intros E c Hc. pose proof (f_equal (chan c) E) as Ec. destruct c; unfold chan in *; revert Ec; vproj; rewrite Hc; cbn [negb]; lra.
Qed.

Lemma agree_sum {T} C (surf1 surf2 : T -> surface XR T) sc1 sc2 : agree_scene C surf1 surf2 sc1 sc2 ->
  sum_scene (mask C) (mask (outside C)) surf1 surf2 surf2 sc1 sc2 sc2.
Proof.
  intros [S N L Sc E]. constructor; auto.
  - intros n l1 l2 l H1 H2 H. assert (l = l2) by congruence. subst l. destruct (L n l1 l2 H1 H2) as [D A P Sa]. constructor; auto.
    intros i u. destruct (Sa i u) as [(wi & a & b & pdf & v & Q1 & Q2 & Ag)|Q]; [left|right; exact Q].
    exists wi, a, b, pdf, v. apply agree_mix in Ag. rewrite Ag. auto.
  - intros t i w. destruct (E t i w) as (a & b & Q1 & Q2 & Ag). exists a, b. apply agree_mix in Ag. rewrite Ag. auto.
Qed.
Lemma dark_sum {T} C (surf : T -> surface XR T) sc : dark_scene C surf sc -> sum_scene (mask (outside C)) v0 surf surf surf sc sc sc.
Proof.
  intros [L E]. constructor; auto.
  - intros n l1 l2 l H1 H2 H. assert (l2 = l) by congruence. assert (l1 = l) by congruence. subst l1 l2. constructor; auto.
    intros i u. destruct (l_sample_li l i u) as [[[[wi a] pdf] v]| |] eqn:Q; [left|right; discriminate|right; discriminate].
    destruct (L l (nth_error_In _ _ H) i u wi a pdf v Q) as (a' & -> & D). exists wi, a', a', pdf, v. apply dark_mix in D. rewrite D. auto.
  - intros t i w. destruct (E t i w) as (a & Q & D). exists a, a. apply dark_mix in D. rewrite D. auto.
Qed.

(** ** Radiance *)
(** Exact arithmetic, the same random numbers.  If all shapes and materials of two scenes are the same and everything shines
    alike in some channels, however it shines in the others, then radiances along a path agree in these channels,
    and the paths use the same random numbers. *)
Theorem C118_radiance : forall (T ST : Type) (sm : sampler_ops XR ST) (teq : T -> T -> bool) C
    (surf1 surf2 : T -> surface XR T) (sc1 sc2 : scene XR T (container XR T)) fuel s r a1 a2 s1 s2,
  agree_scene C surf1 surf2 sc1 sc2 ->
  li sm teq surf1 sc1 fuel s r = Ok (fin3 a1, s1) -> li sm teq surf2 sc2 fuel s r = Ok (fin3 a2, s2) ->
  s1 = s2 /\ agree C a1 a2.
Proof.
  intros T ST sm teq C surf1 surf2 sc1 sc2 fuel s r a1 a2 s1 s2 D H1 H2.
  destruct (C116_superposition _ _ _ _ _ _ _ _ _ _ _ _ _ _ _ _ _ _ _ (agree_sum _ _ _ _ _ D) H1 H2) as [E H]. split; [exact E|].
  rewrite H2 in H. apply ok_pair in H as [H _]. apply fin3_inj in H. apply agree_mix. now symmetry.
Qed.
Print Assumptions C118_radiance.

(** Where nothing shines in some channels, no light has these channels. *)
Theorem C118_dark_radiance : forall (T ST : Type) (sm : sampler_ops XR ST) (teq : T -> T -> bool) C
    (surf : T -> surface XR T) (sc : scene XR T (container XR T)) fuel s r a s1 c,
  dark_scene C surf sc -> li sm teq surf sc fuel s r = Ok (fin3 a, s1) -> C c = true -> chan c a = 0.
Proof.
  intros T ST sm teq C surf sc fuel s r a s1 c D H. revert c.
  pose proof (proj2 (C116_superposition _ _ _ _ _ _ _ _ _ _ _ _ _ _ _ _ _ _ _ (dark_sum _ _ _ D) H H)) as H'.
  rewrite H in H'. apply ok_pair in H' as [H' _]. apply fin3_inj in H'. apply dark_mix. now symmetry.
Qed.
Print Assumptions C118_dark_radiance.

(** ** The picture *)
Lemma all3_pair {A} (R : A -> A -> A -> Prop) l1 l2 l : all3 R l1 l2 l -> forall n x1 x2, nth_error l1 n = Some x1 -> nth_error l2 n = Some x2 ->
  exists x, nth_error l n = Some x /\ R x1 x2 x.
Proof. induction 1; intros [|n] y1 y; cbn; try discriminate; eauto. intros [= <-] [= <-]. eauto. Qed.
Lemma all3_length2 {A} (R : A -> A -> A -> Prop) l1 l2 l : all3 R l1 l2 l -> length l2 = length l.
Proof. induction 1; cbn; congruence. Qed.

Definition same_in (C : channel -> bool) (p1 p2 : pixel XR) : Prop :=
  p_wsum p1 = p_wsum p2 /\ forall c, C c = true -> chan c (p_color p1) = chan c (p_color p2) /\ level c (pixel_rgb p1) = level c (pixel_rgb p2).
Lemma same_pixel C p1 p2 : pixel_sum (mask C) (mask (outside C)) p1 p2 p2 -> same_in C p1 p2.
Proof.
  intros (a & b & C1 & C2 & E & W1 & _). split; [exact W1|]. rewrite C2 in E. apply fin3_inj in E. symmetry in E. apply agree_mix in E.
  intros c Hc. specialize (E c Hc). assert (K : chan c (p_color p1) = chan c (p_color p2)) by (rewrite C1, C2; unfold fin3; destruct c; unfold chan in *; vproj; congruence).
  split; [exact K|]. unfold pixel_rgb. rewrite W1. destruct c; cbn [level chan] in *; now rewrite K.
Qed.

(** Two renders without a sample thrown away to a new film with the library's filter: in the channels in which the two scenes
    shine alike the two pictures have the same colours, and the same numbers are written. *)
Theorem C118_picture : forall (T ST : Type) (m : build) (sm : sampler_ops XR ST) (teq : T -> T -> bool) C
    (surf1 surf2 : T -> surface XR T) (sc1 sc2 : scene XR T (container XR T)) gen bounces fuel rs radius alpha fm s s1 s2 r1 r2,
  agree_scene C surf1 surf2 sc1 sc2 ->
  film_new m rs (gaussian_filter (XFin radius) (XFin alpha)) = Ok fm ->
  render_seq m sm (only_valid (shade sm teq surf1 sc1 gen bounces)) fuel fm s = Ok (s1, r1) ->
  render_seq m sm (only_valid (shade sm teq surf2 sc2 gen bounces)) fuel fm s = Ok (s2, r2) ->
  s1 = s2 /\ length (fm_pixels r1) = length (fm_pixels r2) /\
  forall n p1 p2, nth_error (fm_pixels r1) n = Some p1 -> nth_error (fm_pixels r2) n = Some p2 -> same_in C p1 p2.
Proof.
  intros T ST m sm teq C surf1 surf2 sc1 sc2 gen bounces fuel rs radius alpha fm s s1 s2 r1 r2 D Ef H1 H2.
  destruct (new_film_sum (mask C) (mask (outside C)) _ _ _ _ _ Ef) as [Sf FT].
  destruct (C116_picture T ST m sm teq surf1 surf2 surf2 sc1 sc2 sc2 _ _ gen bounces fuel fm fm fm s s1 s2 r1 r2 (mask_pos _) (mask_pos _) (agree_sum _ _ _ _ _ D) Sf FT H1 H2) as (E & r & Er & Sr).
  split; [exact E|]. pose proof (below_seq m sm _ _ (only_valid_below _) fuel fm s _ H2) as H2'. rewrite H2' in Er. apply ok_pair in Er as [_ <-].
  destruct Sr as (_ & _ & _ & _ & _ & _ & A). split; [eapply all3_length; eauto|]. intros n p1 p2 N1 N2.
  destruct (all3_pair _ _ _ _ A n p1 p2 N1 N2) as (q & N & S). assert (q = p2) by congruence. subst q. now apply same_pixel.
Qed.
Print Assumptions C118_picture.

(** Every schedule of any numbers of threads *)
Theorem C118_threads : forall (T ST : Type) (m : build) (sm : sampler_ops XR ST) (teq : T -> T -> bool) C
    (surf1 surf2 : T -> surface XR T) (sc1 sc2 : scene XR T (container XR T)) gen bounces fuel rs radius alpha fm s I A B left n k k' y0 y0' j j' y y',
  agree_scene C surf1 surf2 sc1 sc2 ->
  serves sm (only_valid (shade sm teq surf1 sc1 gen bounces)) I A B left n -> serves sm (only_valid (shade sm teq surf2 sc2 gen bounces)) I A B left n ->
  (1 <= n <= fuel)%nat -> I s -> forgets sm I ->
  film_args rs (gaussian_filter (XFin radius) (XFin alpha)) -> film_new m rs (gaussian_filter (XFin radius) (XFin alpha)) = Ok fm ->
  (1 <= k)%nat -> start_sys m fm s k = Ok y0 -> steps m sm (shade sm teq surf1 sc1 gen bounces) fuel j y0 y -> all_done y ->
  (1 <= k')%nat -> start_sys m fm s k' = Ok y0' -> steps m sm (shade sm teq surf2 sc2 gen bounces) fuel j' y0' y' -> all_done y' ->
  length (fm_pixels (y_film y)) = length (fm_pixels (y_film y')) /\
  forall i p1 p2, nth_error (fm_pixels (y_film y)) i = Some p1 -> nth_error (fm_pixels (y_film y')) i = Some p2 -> same_in C p1 p2.
Proof.
  intros T ST m sm teq C surf1 surf2 sc1 sc2 gen bounces fuel rs radius alpha fm s I A B left n k k' y0 y0' j j' y y'
    D V1 V2 Hn Is Hf Ha En Hk E0 Sy Dy Hk' E0' Sy' Dy'.
  destruct (seq_exists m sm _ fuel I A B left n _ _ fm s V1 Hn Is Ha En) as (s1 & r1 & R1).
  destruct (seq_exists m sm _ fuel I A B left n _ _ fm s V2 Hn Is Ha En) as (s2 & r2 & R2).
  destruct (C118_picture T ST m sm teq C surf1 surf2 sc1 sc2 gen bounces fuel rs radius alpha fm s s1 s2 r1 r2 D En R1 R2) as (_ & L & N).
  assert (V1' : serves sm (shade sm teq surf1 sc1 gen bounces) I A B left n) by (eapply serves_below; [apply only_valid_below|exact V1]).
  assert (V2' : serves sm (shade sm teq surf2 sc2 gen bounces) I A B left n) by (eapply serves_below; [apply only_valid_below|exact V2]).
  destruct (C06_schedule_independent ST m sm _ fuel I A B left n rs _ fm s k y0 j y V1' Hn Is Hf Ha En E0 Hk Sy Dy) as (u1 & Q1).
  destruct (C06_schedule_independent ST m sm _ fuel I A B left n rs _ fm s k' y0' j' y' V2' Hn Is Hf Ha En E0' Hk' Sy' Dy') as (u & Q).
  apply (below_seq m sm _ _ (only_valid_below _)) in R1, R2. rewrite Q1 in R1. rewrite Q in R2. apply ok_pair in R1 as [_ <-]. apply ok_pair in R2 as [_ <-]. auto.
Qed.
Print Assumptions C118_threads.

(** Where nothing shines in a channel, every pixel has 0 in it, and every pixel that got a sample is written as black in it
    (that is as 1, see C10). *)
Theorem C118_dark_picture : forall (T ST : Type) (m : build) (sm : sampler_ops XR ST) (teq : T -> T -> bool) C
    (surf : T -> surface XR T) (sc : scene XR T (container XR T)) gen bounces fuel rs radius alpha fm s s1 r c,
  dark_scene C surf sc -> film_new m rs (gaussian_filter (XFin radius) (XFin alpha)) = Ok fm ->
  render_seq m sm (only_valid (shade sm teq surf sc gen bounces)) fuel fm s = Ok (s1, r) -> C c = true ->
  forall p, In p (fm_pixels r) -> chan c (p_color p) = XFin 0 /\ (p_wsum p <> XFin 0 -> level c (pixel_rgb p) = 1%Z).
Proof.
  intros T ST m sm teq C surf sc gen bounces fuel rs radius alpha fm s s1 r c D Ef H Hc p Hp.
  destruct (new_film_sum (mask (outside C)) v0 _ _ _ _ _ Ef) as [Sf FT].
  assert (Z0 : each (fun k => 0 <= k) v0) by (unfold each, v0; vproj; repeat split; lra).
  destruct (C116_picture T ST m sm teq surf surf surf sc sc sc _ _ gen bounces fuel fm fm fm s s1 s1 r r (mask_pos _) Z0 (dark_sum _ _ _ D) Sf FT H H) as (_ & r' & Er & Sr).
  pose proof (below_seq m sm _ _ (only_valid_below _) fuel fm s _ H) as H'. rewrite H' in Er. apply ok_pair in Er as [_ <-].
  destruct Sr as (_ & _ & _ & _ & _ & _ & A). apply In_nth_error in Hp as (n & N).
  destruct (all3_pair _ _ _ _ A n p p N N) as (q & N' & S). assert (q = p) by congruence. subst q. destruct S as (a & b & C1 & C2 & C3 & _).
  rewrite C2 in C1. apply fin3_inj in C1. subst b. rewrite C2 in C3. apply fin3_inj in C3. symmetry in C3.
  assert (Z : chan c a = 0) by (revert c Hc; now apply dark_mix). assert (K : chan c (p_color p) = XFin 0) by (rewrite C2; unfold fin3; destruct c; unfold chan in *; vproj; congruence).
  split; [exact K|]. intros W.
  pose proof (seq_lit _ _ _ _ _ _ _ _ (new_film_lit _ _ _ _ _ Ef) H) as [_ L]. rewrite Forall_forall in L.
  destruct (L p (nth_error_In _ _ N)) as (_ & w & _ & Ew & _ & _ & _ & Pw & _). rewrite Ew in W.
  assert (B : quantize (XFin 0) (XFin w) = 1%Z).
  { apply (C10_black XR _ XR_FLaws); [rewrite x_f0; xsimp; cbn [xeq]; now apply Req_bool_true| |reflexivity]. rewrite x_f0. xsimp. cbn [xlt]. apply Rlt_bool_true. assert (w <> 0) by congruence. lra. }
  unfold pixel_rgb. rewrite Ew. destruct c; cbn [level chan] in *; now rewrite K.
Qed.
Print Assumptions C118_dark_picture.

(** ** Scenes from the builder: suns and lamps whose radiances agree in the channels of [C] *)
Theorem C118_built : forall (T : Type) C (sh : T -> shape XR T) (cont : list T -> res (container XR T)) (suns : list (rv * rv * rv)) (l lamps : list T)
    (ea eb : T -> rv) (mat : T -> interaction XR T -> res (bsdf XR)) (is_lamp : T -> bool) sc1 sc2,
  (forall a b w, In (a, b, w) suns -> agree C a b) -> (forall t, agree C (ea t) (eb t)) ->
  construct sh (lit_by sh ea) cont (mkBuilder (map (fun q => match q with (a, b, w) => sun (a, w) end) suns) l lamps) = Ok sc1 ->
  construct sh (lit_by sh eb) cont (mkBuilder (map (fun q => match q with (a, b, w) => sun (b, w) end) suns) l lamps) = Ok sc2 ->
  agree_scene C (lit_surf mat is_lamp (lit_by sh ea)) (lit_surf mat is_lamp (lit_by sh eb)) sc1 sc2.
Proof.
  intros T C sh cont suns l lamps ea eb mat is_lamp sc1 sc2 As Ae.
  assert (Bx : forall e s, scene_bbox sh (lit_by sh e) (mkBuilder s l lamps) = scene_bbox sh (lit_by sh ea) (mkBuilder [] l lamps)) by reflexivity.
  unfold construct. rewrite !(Bx _ (map _ _)). destruct (scene_bbox _ _ _) as [bb| |]; cbn [rbind bd_lights bd_shapes bd_areas]; try discriminate.
  destruct (cont (l ++ lamps)) as [c| |]; cbn [rbind]; try discriminate. intros H1 H2. apply ok_eq in H1, H2. subst sc1 sc2.
  assert (Ar : forall t i v, exists x y, area_l (lit_by sh ea t) i v = fin3 x /\ area_l (lit_by sh eb t) i v = fin3 y /\ agree C x y).
  { intros t i v. unfold area_l, lit_by. cbn [al_l]. destruct (flt _ _); [exists (ea t), (eb t); auto|]. exists v0, v0. repeat split; auto. }
  constructor; cbn [sc_shapes sc_lights]; auto.
  - rewrite !app_length, !map_length. reflexivity.
  - intros n l1 l2. rewrite !map_map. destruct (nth_error suns n) as [[[a b] w]|] eqn:E.
    + assert (Hn : (n < length suns)%nat) by (apply nth_error_Some; congruence).
      rewrite !nth_error_app1 by (now rewrite map_length). rewrite !(map_nth_error _ _ _ E). intros [= <-] [= <-].
      unfold sun, distant_pre, distant_new. destruct (bbox_bounding_sphere bb) as [ce ra]. cbn [dl_l dl_w fst snd].
      constructor; try reflexivity. intros i u. left. cbn [distant_as_light l_sample_li]. unfold distant_sample_li. cbn [dl_l dl_w dl_radius].
      do 5 eexists. split; [reflexivity|]. split; [reflexivity|]. eapply As, nth_error_In, E.
    + apply nth_error_None in E. rewrite !nth_error_app2 by (now rewrite map_length). rewrite !map_length.
      destruct (nth_error lamps (n - length suns)) as [t|] eqn:Et.
      * rewrite !(map_nth_error _ _ _ Et). intros [= <-] [= <-]. constructor; try reflexivity. intros i u.
        cbn [area_as_light l_sample_li]. unfold area_sample_li. change (al_shape (lit_by sh ea t)) with (sh t). change (al_shape (lit_by sh eb t)) with (sh t).
        destruct (sh_sample_ref (sh t) i u) as [q| |]; cbn [rbind]; [left|right; discriminate|right; discriminate].
        destruct (Ar t q (v3neg (v3normalize (v3sub (i_p q) (i_p i))))) as (x & y & -> & -> & G).
        do 5 eexists. split; [reflexivity|]. split; [reflexivity|]. exact G.
      * intros N. exfalso. apply nth_error_None in Et. revert N. rewrite (proj2 (nth_error_None _ _)); [discriminate|now rewrite map_length].
  - intros t i w. unfold lit_surf. cbn [sf_l]. destruct (is_lamp t); [apply Ar|]. exists v0, v0. repeat split; auto.
Qed.
Print Assumptions C118_built.

(** Suns and lamps without light in the channels of [C] *)
Theorem C118_built_dark : forall (T : Type) C (sh : T -> shape XR T) (cont : list T -> res (container XR T)) (suns : list (rv * rv)) (l lamps : list T)
    (e : T -> rv) (mat : T -> interaction XR T -> res (bsdf XR)) (is_lamp : T -> bool) sc,
  (forall a w c, In (a, w) suns -> C c = true -> chan c a = 0) -> (forall t c, C c = true -> chan c (e t) = 0) ->
  construct sh (lit_by sh e) cont (mkBuilder (map sun suns) l lamps) = Ok sc -> dark_scene C (lit_surf mat is_lamp (lit_by sh e)) sc.
Proof.
  intros T C sh cont suns l lamps e mat is_lamp sc As Ae. unfold construct.
  destruct (scene_bbox _ _ _) as [bb| |]; cbn [rbind bd_lights bd_shapes bd_areas]; try discriminate.
  destruct (cont (l ++ lamps)) as [k| |]; cbn [rbind]; try discriminate. intros H. apply ok_eq in H. subst sc.
  assert (Z0 : forall c, chan c v0 = 0) by (intros []; unfold chan, v0; vproj; reflexivity).
  assert (Ar : forall t i v, exists x, area_l (lit_by sh e t) i v = fin3 x /\ forall c, C c = true -> chan c x = 0).
  { intros t i v. unfold area_l, lit_by. cbn [al_l]. destruct (flt _ _); [exists (e t); auto|]. exists v0. auto. }
  split; cbn [sc_lights].
  - intros q Hq. rewrite map_map, in_app_iff, !in_map_iff in Hq. intros i u wi a pdf v.
    destruct Hq as [([a0 w] & <- & Hs)|(t & <- & Ht)].
    + unfold sun, distant_pre, distant_new. destruct (bbox_bounding_sphere bb) as [ce ra]. cbn [dl_l dl_w fst snd distant_as_light l_sample_li].
      unfold distant_sample_li. cbn [dl_l dl_w dl_radius]. intros H. apply ok_eq in H. injection H as <- <- <- <-. exists a0. split; [reflexivity|]. intros c. eapply As, Hs.
    + cbn [area_as_light l_sample_li]. unfold area_sample_li. destruct (sh_sample_ref _ i u) as [q| |]; cbn [rbind]; try discriminate.
      destruct (Ar t q (v3neg (v3normalize (v3sub (i_p q) (i_p i))))) as (x & -> & G). intros H. apply ok_eq in H. injection H as <- <- <- <-. eauto.
  - intros t i w. unfold lit_surf. cbn [sf_l]. destruct (is_lamp t); [apply Ar|]. exists v0. auto.
Qed.
Print Assumptions C118_built_dark.

(** The ball of [C117_example] under a yellow sun and under a sun with the same green but other red and blue: the two pictures are
    the same in green.  The yellow sun has no blue, and nor has its picture. *)
Definition only (c : channel) : channel -> bool := fun d => match c, d with Red, Red | Green, Green | Blue, Blue => true | _, _ => false end.
Example C118_example : exists sc1 sc2 fm s1 s2 r1 r2,
  let surf := matt_surf (fun _ : unit => mkV3 1 (1/2) 0) in
  let flt := gaussian_filter (XFin 2) (XFin 2) in
  let draw sc := only_valid (shade ex_one (fun _ _ => true) surf sc ex_gen 2) in
  agree_scene (only Green) surf surf sc1 sc2 /\ dark_scene (only Blue) surf sc1 /\ film_new Release (mkP2 3 2)%Z flt = Ok fm /\
  render_seq Release ex_one (draw sc1) 1 fm true = Ok (s1, r1) /\ render_seq Release ex_one (draw sc2) 1 fm true = Ok (s2, r2) /\
  (forall n p1 p2, nth_error (fm_pixels r1) n = Some p1 -> nth_error (fm_pixels r2) n = Some p2 -> same_in (only Green) p1 p2) /\
  forall p, In p (fm_pixels r1) -> vz (p_color p) = XFin 0.
Proof.
  assert (S2 : 0 < / sqrt 2) by (apply Rinv_0_lt_compat, sqrt_lt_R0; lra). assert (Pi : 0 < / PI) by (apply Rinv_0_lt_compat, PI_RGT_0).
  set (sh := body_shape (fun _ : unit => Ball v0 1)). set (rho := fun _ : unit => mkV3 1 (1/2) 0).
  destruct (ex_one_sun (lit_by sh (fun _ => v0)) (mkV3 1 1 0)) as (sc1 & C1 & L1).
  destruct (ex_one_sun (lit_by sh (fun _ => v0)) (mkV3 3 1 1)) as (sc2 & C2 & L2).
  assert (D : agree_scene (only Green) (matt_surf rho) (matt_surf rho) sc1 sc2).
  { apply (C118_built unit (only Green) sh (in_simple (fun _ => Ball v0 1)) [(mkV3 1 1 0, mkV3 3 1 1, mkV3 1 1 0)] [tt] [] (fun _ => v0) (fun _ => v0)
      (fun t => mat_lambertian (constant_texture (fin3 (rho t)))) (fun _ => false) sc1 sc2); auto.
    - intros a b w [[= <- <- <-]|[]] c; destruct c; unfold only; try discriminate. intros _. unfold chan. vproj. reflexivity.
    - intros t. apply agree_refl. }
  assert (Dk : dark_scene (only Blue) (matt_surf rho) sc1).
  { apply (C118_built_dark unit (only Blue) sh (in_simple (fun _ => Ball v0 1)) [(mkV3 1 1 0, mkV3 1 1 0)] [tt] [] (fun _ => v0)
      (fun t => mat_lambertian (constant_texture (fin3 (rho t)))) (fun _ => false) sc1); auto.
    - intros a w c [[= <- <-]|[]]; destruct c; unfold only; try discriminate. intros _. unfold chan. vproj. reflexivity.
    - intros t c _. destruct c; unfold chan, v0; vproj; reflexivity. }
  assert (Fa : film_args (mkP2 3 2)%Z (gaussian_filter (XFin 2) (XFin 2))).
  { unfold film_args. cbn [px py gaussian_filter flt_radius]. do 3 (split; [lia|]). rewrite x_f0. xsimp. cbn [xle]. split; apply Rle_bool_true; [lra|]. apply IZR_le. lia. }
  destruct (film_args_ok (FL := XR_FLaws) Release _ _ Fa) as (fm & _ & Ef & _).
  assert (V1 := ex_one_serves (shade ex_one (fun _ _ => true) (matt_surf (fun _ : unit => mkV3 1 (1/2) 0)) sc1 ex_gen 2) _ (fun s p => L1 s)).
  assert (V2 := ex_one_serves (shade ex_one (fun _ _ => true) (matt_surf (fun _ : unit => mkV3 1 (1/2) 0)) sc2 ex_gen 2) _ (fun s p => L2 s)).
  destruct (seq_exists Release ex_one _ 1 _ _ _ _ 1 _ _ fm true (V1 ltac:(vproj; unfold Rdiv; nra) ltac:(vproj; unfold Rdiv; nra) ltac:(vproj; lra)) ltac:(lia) Logic.I Fa Ef) as (s1 & r1 & R1).
  destruct (seq_exists Release ex_one _ 1 _ _ _ _ 1 _ _ fm true (V2 ltac:(vproj; unfold Rdiv; nra) ltac:(vproj; unfold Rdiv; nra) ltac:(vproj; lra)) ltac:(lia) Logic.I Fa Ef) as (s2 & r2 & R2).
  exists sc1, sc2, fm, s1, s2, r1, r2. cbv zeta. split; [exact D|]. split; [exact Dk|]. split; [exact Ef|]. split; [exact R1|]. split; [exact R2|]. split.
  - exact (proj2 (proj2 (C118_picture unit bool Release ex_one (fun _ _ => true) (only Green) _ _ sc1 sc2 ex_gen 2 1 _ 2 2 fm true s1 s2 r1 r2 D Ef R1 R2))).
  - intros p Hp. exact (proj1 (C118_dark_picture unit bool Release ex_one (fun _ _ => true) (only Blue) _ sc1 ex_gen 2 1 _ 2 2 fm true s1 r1 Blue Dk Ef R1 eq_refl p Hp)).
Qed.
