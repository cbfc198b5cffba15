(** * C115: the picture depends on what is met, not on order, repetition or what is out of the way *)
From Coq Require Import ZArith Reals List Bool Lia Lra.
From Flocq Require Import Core.
From Verif Require Import Model.Num Model.NumX Model.Vector Model.BBox Model.Common Model.Interaction Model.Shape Model.Sphere Model.Container Model.KdTree
  Model.Sampler Model.Sampling Model.Reflection Model.Light Model.Scene Model.Path Model.Film Model.Render.
From Verif Require Import Spec.RVec Spec.BoxSpec Spec.ShapeSpec Spec.KdSpec Spec.RenderSpec Spec.WatchSpec.
From Verif Require Import Proofs.XBase Proofs.FLaws Proofs.TriangleProofs Proofs.RVecProofs Proofs.BoxProofs Proofs.ShapeProofs Proofs.SortProofs Props.Shapes Props.Containers Props.Accel.
Import ListNotations.
Local Open Scope R_scope.

Lemma clear_sub {T} (sh : T -> shape XR T) l k r : (forall s, In s k -> In s l) -> clear_ray sh l r -> clear_ray sh k r.
Proof.
  intros H (o & d & tmax & E & Hd & Hn & Hf & Ht). exists o, d, tmax. do 3 (split; [assumption|]). split.
  - intros a s Ha Hs. auto.
  - intros s s' i i' t Hs Hs'. eauto.
Qed.

Lemma nearest_more {T} (sh : T -> shape XR T) l k r a : (forall s, In s l -> In s k) -> rest_missed sh k l r -> nearest sh l r a -> nearest sh k r a.
Proof.
  intros Sub M. destruct a as [j|]; cbn [nearest].
  - intros (s & i & t & Hs & E & Ej & N). exists s, i, t. do 3 (split; [auto|]). intros s' i' t' Hs' E'.
    destruct (M s' Hs') as [H|H]; [eauto|]. congruence.
  - intros N s Hs. destruct (M s Hs); auto.
Qed.
Lemma some_more {T} (sh : T -> shape XR T) l k r : (forall s, In s l -> In s k) -> rest_missed sh k l r -> (some_hit sh l r <-> some_hit sh k r).
Proof.
  intros Sub M. unfold some_hit. split; intros (s & i & t & Hs & E); exists s, i, t; (split; [|exact E]); auto.
  destruct (M s Hs) as [H|H]; [auto|congruence].
Qed.

(** Exact arithmetic.  Containers of two lists of shapes, each simple or a k-d tree of any depth, answer a clear ray alike
    if it misses the shapes that are in one list only: neither order nor repetition nor what is out of the way matters. *)
Theorem C115_agree : forall (T : Type) (sh : T -> shape XR T) m m' l l' c c' r,
  container_of sh m l c -> container_of sh m' l' c' -> l <> [] -> l' <> [] ->
  (Z.of_nat (length l) <= usize_max)%Z -> (Z.of_nat (length l') <= usize_max)%Z ->
  (forall s o d, In s (l ++ l') -> d <> v0 -> well_behaved (sh s) o d) -> clear_ray sh (l ++ l') r ->
  rest_missed sh l l' r -> rest_missed sh l' l r ->
  exists a b, c_intersect c r = Ok a /\ c_intersect c' r = Ok a /\ c_intersect_p c r = Ok b /\ c_intersect_p c' r = Ok b.
Proof.
  intros T sh m m' l l' c c' r H H' Hne Hne' Hlen Hlen' Hw Cl M M'.
  assert (S1 : forall s, In s l -> In s (l ++ l')) by (intros; apply in_or_app; auto).
  assert (S2 : forall s, In s l' -> In s (l ++ l')) by (intros; apply in_or_app; auto).
  assert (M1 : rest_missed sh (l ++ l') l r) by (intros s Hs; apply in_app_or in Hs; destruct Hs as [Hs|Hs]; auto).
  assert (M2 : rest_missed sh (l ++ l') l' r) by (intros s Hs; apply in_app_or in Hs; destruct Hs as [Hs|Hs]; auto).
  destruct (container_answers sh m l c r H Hne Hlen) as (a & b & E1 & N & E2 & B); [auto|now apply (clear_sub sh (l ++ l'))|].
  destruct (container_answers sh m' l' c' r H' Hne' Hlen') as (a' & b' & E1' & N' & E2' & B'); [auto|now apply (clear_sub sh (l ++ l'))|].
  assert (Ea : a = a') by (apply (nearest_unique sh (l ++ l') r); [exact Cl|now apply (nearest_more sh l)|now apply (nearest_more sh l')]). subst a'.
  rewrite (some_more sh l (l ++ l') r S1 M1) in B. rewrite (some_more sh l' (l ++ l') r S2 M2) in B'.
  rewrite <- (bool_same b b' _ B B') in E2'. exists a, b. auto.
Qed.
Print Assumptions C115_agree.

(** The radiance of a ray, random numbers included, and the picture; the lights are the same. *)
Theorem C115_radiance : forall (T ST : Type) (sh : T -> shape XR T) m m' l l' c c' (ok : ray XR -> bool)
    (sm : sampler_ops XR ST) (teq : T -> T -> bool) (surf : T -> surface XR T) (sc : scene XR T (container XR T)) fuel s r x,
  container_of sh m l c -> container_of sh m' l' c' -> l <> [] -> l' <> [] ->
  (Z.of_nat (length l) <= usize_max)%Z -> (Z.of_nat (length l') <= usize_max)%Z ->
  (forall s o d, In s (l ++ l') -> d <> v0 -> well_behaved (sh s) o d) ->
  (forall r, ok r = true -> clear_ray sh (l ++ l') r /\ rest_missed sh l l' r /\ rest_missed sh l' l r) ->
  li sm teq surf (with_container sc (watched ok c)) fuel s r = Ok x ->
  li sm teq surf (with_container sc c) fuel s r = Ok x /\ li sm teq surf (with_container sc c') fuel s r = Ok x.
Proof.
  intros T ST sh m m' l l' c c' ok sm teq surf sc fuel s r x H H' Hne Hne' Hlen Hlen' Hw Hok E.
  assert (A : forall q, ok q = true -> exists a b, c_intersect c q = Ok a /\ c_intersect c' q = Ok a /\ c_intersect_p c q = Ok b /\ c_intersect_p c' q = Ok b).
  { intros q Eq. destruct (Hok q Eq) as (H1 & H2 & H3). exact (C115_agree T sh m m' l l' c c' q H H' Hne Hne' Hlen Hlen' Hw H1 H2 H3). }
  split; [apply (below_li sm teq surf (with_container sc (watched ok c)) (with_container sc c))
         |apply (below_li sm teq surf (with_container sc (watched ok c)) (with_container sc c'))]; auto;
    intros q a; unfold scene_intersect, scene_intersect_p, with_container, watched; cbn [sc_shapes c_intersect c_intersect_p];
    destruct (ok q) eqn:Eq; try discriminate; auto;
    destruct (A q Eq) as (a0 & b0 & E1 & E2 & E3 & E4); congruence.
Qed.
Print Assumptions C115_radiance.

Theorem C115_picture : forall (T ST : Type) (sh : T -> shape XR T) m m' mb l l' c c' (ok : ray XR -> bool)
    (sm : sampler_ops XR ST) (teq : T -> T -> bool) (surf : T -> surface XR T) (sc : scene XR T (container XR T)) gen bounces fuel,
  container_of sh m l c -> container_of sh m' l' c' -> l <> [] -> l' <> [] ->
  (Z.of_nat (length l) <= usize_max)%Z -> (Z.of_nat (length l') <= usize_max)%Z ->
  (forall s o d, In s (l ++ l') -> d <> v0 -> well_behaved (sh s) o d) ->
  (forall r, ok r = true -> clear_ray sh (l ++ l') r /\ rest_missed sh l l' r /\ rest_missed sh l' l r) ->
  let sh0 := shade sm teq surf (with_container sc (watched ok c)) gen bounces in
  let sh1 := shade sm teq surf (with_container sc c) gen bounces in
  let sh2 := shade sm teq surf (with_container sc c') gen bounces in
  (forall fm s x, render_seq mb sm sh0 fuel fm s = Ok x ->
     render_seq mb sm sh1 fuel fm s = Ok x /\ render_seq mb sm sh2 fuel fm s = Ok x) /\
  (forall k y y', steps mb sm sh0 fuel k y y' -> steps mb sm sh1 fuel k y y' /\ steps mb sm sh2 fuel k y y').
Proof.
  intros T ST sh m m' mb l l' c c' ok sm teq surf sc gen bounces fuel H H' Hne Hne' Hlen Hlen' Hw Hok sh0 sh1 sh2.
  assert (B1 : forall s p, below (sh0 s p) (sh1 s p)).
  { intros s p x. unfold sh0, sh1, shade. destruct (gen p) as [r| |]; cbn [rbind]; try discriminate.
    intros E. eapply (C115_radiance T ST sh m m' l l' c c'); eauto. }
  assert (B2 : forall s p, below (sh0 s p) (sh2 s p)).
  { intros s p x. unfold sh0, sh2, shade. destruct (gen p) as [r| |]; cbn [rbind]; try discriminate.
    intros E. eapply (C115_radiance T ST sh m m' l l' c c'); eauto. }
  split.
  - intros fm s x E. split; eapply below_seq; eauto.
  - intros k y y' S. split; eapply below_steps; eauto.
Qed.
Print Assumptions C115_picture.

(** Two shapes met at the same distance: which one is seen depends on the order. *)
Definition twin (s : bool) : shape XR bool := sphere_shape (mkSphere (fin3 v0) (XFin 1)).
Lemma at_4_or_6 x : on_sphere v0 1 (at_t (mkV3 0 0 (-5)) (mkV3 0 0 1) x) <-> x = 4 \/ x = 6.
Proof.
  rewrite on_sphere_sq. unfold vdot, vsub, at_t, vadd, vscale, v0. cbn. split.
  - intros E. assert (H : (x - 4) * (x - 6) = 0) by lra. apply Rmult_integral in H as [|]; lra.
  - intros [->| ->]; lra.
Qed.
Lemma twin_hit s : exists i, sh_intersect (twin s) ex_eye = Ok (Some (i, XFin 4)).
Proof.
  unfold twin, sphere_shape, ex_eye. cbn [sh_intersect].
  pose proof (C35_first_hit bool v0 1 (mkV3 0 0 (-5)) (mkV3 0 0 1) (XInf false) ex_eye_d) as H.
  destruct (sp_intersect _ _) as [[i0 t0]|].
  - destruct H as (x & -> & Hx & _ & On & First). apply at_4_or_6 in On. exists i0. destruct On as [->| ->]; auto.
    exfalso. apply (First 4); [lra|]. apply at_4_or_6. auto.
  - exfalso. apply (H 4); [lra|reflexivity|]. apply at_4_or_6. auto.
Qed.
Lemma twin_not_again s : sh_intersect (twin s) (with_tmax ex_eye (XFin 4)) = Ok None.
Proof.
  unfold twin, sphere_shape, ex_eye, with_tmax. cbn [sh_intersect r_o r_d].
  pose proof (C35_first_hit bool v0 1 (mkV3 0 0 (-5)) (mkV3 0 0 1) (XFin 4) ex_eye_d) as H.
  destruct (sp_intersect _ _) as [[i0 t0]|]; auto. destruct H as (x & -> & Hx & L & On & _). apply at_4_or_6 in On.
  cbn in L. rb. lra.
Qed.
Lemma twin_first s s' : exists c i, simple_new twin [s; s'] = Ok c /\ simple_intersect twin c ex_eye = Ok (Some i) /\ i_shape i = Some s.
Proof.
  destruct (C43_nearest bool twin [s; s'] (mkV3 0 0 (-5)) (mkV3 0 0 1) (XInf false)) as (c & a & b & Ec & Ea & Na & _);
    [discriminate|reflexivity|intros; apply C43_sphere_ok; [apply ex_eye_d|lra]|].
  change (mkRay (fin3 (mkV3 0 0 (-5))) (fin3 (mkV3 0 0 1)) (XInf false)) with ex_eye in *.
  assert (Es : si_shapes c = [s; s']).
  { unfold simple_new in Ec. destruct (bbox_of_shapes _ _); cbn [rbind] in Ec; try discriminate. now injection Ec as <-. }
  destruct (twin_hit s) as (i & Ei). exists c, (i_with_shape i (Some s)). split; auto. split; [|now destruct i].
  unfold simple_intersect in *. destruct (bbox_intersect _ _) as [q|].
  - rewrite Es. cbn [last_hit]. unfold shape_intersect. rewrite Ei. cbn [rbind]. rewrite twin_not_again. reflexivity.
  - injection Ea as <-. cbn [nearest] in Na. rewrite (Na s) in Ei by (left; reflexivity). discriminate.
Qed.
Theorem C115_ties_refuted : exists (sh : bool -> shape XR bool) c c' i i', (forall s o d, d <> v0 -> well_behaved (sh s) o d) /\
  simple_new sh [true; false] = Ok c /\ simple_new sh [false; true] = Ok c' /\
  simple_intersect sh c ex_eye = Ok (Some i) /\ simple_intersect sh c' ex_eye = Ok (Some i') /\ i_shape i <> i_shape i'.
Proof.
  destruct (twin_first true false) as (c & i & E1 & E2 & E3). destruct (twin_first false true) as (c' & i' & E1' & E2' & E3').
  exists twin, c, c', i, i'. split; [intros; apply C43_sphere_ok; auto; lra|]. do 4 (split; [assumption|]). congruence.
Qed.
Print Assumptions C115_ties_refuted.

(** The camera ray of [C109_example] meets two balls; the list in the other order, with one of them twice. *)
Example C115_example : exists c k, container_of ex_ball Debug [true; false] c /\ container_of ex_ball Release [false; true; false] k /\
  (forall s o d, In s ([true; false] ++ [false; true; false]) -> d <> v0 -> well_behaved (ex_ball s) o d) /\
  (forall r, ex_ok r = true -> clear_ray ex_ball ([true; false] ++ [false; true; false]) r /\
     rest_missed ex_ball [true; false] [false; true; false] r /\ rest_missed ex_ball [false; true; false] [true; false] r) /\
  let light q := li ex_sampler Bool.eqb (fun s => ex_glowing (if s then mkV3 1 2 3 else mkV3 9 9 9)) (with_container (mkScene [] c) q) 1 tt ex_eye in
  light (watched ex_ok c) = Ok (fin3 (mkV3 1 2 3), tt) /\ light k = Ok (fin3 (mkV3 1 2 3), tt).
Proof.
  destruct ex_light as (c & _ & Ec & _ & El).
  assert (W : forall l (s : bool) o d, In s l -> d <> v0 -> well_behaved (ex_ball s) o d) by (intros; apply C43_sphere_ok; auto; lra).
  assert (Cl : forall r, ex_ok r = true -> clear_ray ex_ball ([true; false] ++ [false; true; false]) r).
  { intros r Hr. eapply clear_sub; [|exact (ex_clear r Hr)]. intros s _. destruct s; cbn; auto. }
  assert (Ha : forall r, ex_ok r = true -> clear_ray ex_ball ([true; false] ++ [false; true; false]) r /\
     rest_missed ex_ball [true; false] [false; true; false] r /\ rest_missed ex_ball [false; true; false] [true; false] r).
  { intros r Hr. split; [now apply Cl|]. split; intros s _; left; destruct s; cbn; auto. }
  destruct (C46_nearest_partial bool ex_ball (fun l => Ok (isort edge_cmp l)) Release [false; true; false] None (mkV3 0 0 (-5)) (mkV3 0 0 1) (XInf false) (isort_ok edge_cmp))
    as (k & a' & Ek & _); [discriminate|cbn; unfold usize_max; lia|apply ex_eye_d|reflexivity|intros s Hs; eapply W; eauto using ex_eye_d| |].
  { intros a s Ha' Hs. apply (ex_faces a s Ha'). destruct s; cbn; auto. }
  exists (simple_container ex_ball c), (kd_container ex_ball k).
  assert (C1 : container_of ex_ball Debug [true; false] (simple_container ex_ball c)) by (constructor; auto).
  assert (C2 : container_of ex_ball Release [false; true; false] (kd_container ex_ball k)) by (eapply of_kd; [apply isort_ok|exact Ek]).
  split; [exact C1|]. split; [exact C2|]. split; [intros; eapply W; eauto|]. split; [exact Ha|]. cbv zeta. split; [exact El|].
  eapply (C115_radiance bool unit ex_ball Debug Release [true; false] [false; true; false] (simple_container ex_ball c)); eauto; try discriminate; cbn; unfold usize_max; lia.
Qed.

(** A ball beside the way, left out. *)
Definition beside (s : bool) : shape XR bool := sphere_shape (mkSphere (fin3 (if s then v0 else mkV3 10 0 0)) (XFin 1)).
Lemma beside_box (s : bool) : sh_bbox (beside s) = mkBB (fin3 (mkV3 (if s then -1 else 9) (-1) (-1))) (fin3 (mkV3 (if s then 1 else 11) 1 1)).
Proof.
  assert (Fm : forall a b, a <= b -> fmin (XFin a) (XFin b) = XFin a).
  { intros. unfold fmin. xsimp. cbn [xis_nan xlt]. destruct (Rlt_bool _ _) eqn:E; rb; auto. f_equal. lra. }
  assert (FM : forall a b, b <= a -> fmax (XFin a) (XFin b) = XFin a).
  { intros. rewrite fmax_XFin, Rmax_left by lra. reflexivity. }
  unfold beside, sphere_shape, sp_bbox, bbox_new, v3min, v3max, v3map2, fin3, v0. destruct s; cbn [sh_bbox sp_center sp_radius vx vy vz]; xsimp;
    cbn [xsub xadd]; rewrite !Fm, !FM by lra; repeat f_equal; lra.
Qed.
Lemma beside_missed : sh_intersect (beside false) ex_eye = Ok None.
Proof.
  unfold beside, sphere_shape, ex_eye. cbn [sh_intersect].
  pose proof (C35_first_hit bool (mkV3 10 0 0) 1 (mkV3 0 0 (-5)) (mkV3 0 0 1) (XInf false) ex_eye_d) as H.
  destruct (sp_intersect _ _) as [[i0 t0]|]; auto. exfalso. destruct H as (x & _ & _ & _ & On & _). apply on_sphere_sq in On.
  unfold vdot, vsub, at_t, vadd, vscale, v0 in On. cbn in On. pose proof (Rle_0_sqr (x - 5)). unfold Rsqr in *. lra.
Qed.
Example C115_example_left_out : exists c c' i, container_of beside Debug [false; true] c /\ container_of beside Debug [true] c' /\
  clear_ray beside ([false; true] ++ [true]) ex_eye /\ rest_missed beside [false; true] [true] ex_eye /\ rest_missed beside [true] [false; true] ex_eye /\
  c_intersect c ex_eye = Ok (Some i) /\ c_intersect c' ex_eye = Ok (Some i) /\ i_shape i = Some true.
Proof.
  assert (W : forall s o d, d <> v0 -> well_behaved (beside s) o d) by (intros; apply C43_sphere_ok; auto; lra).
  assert (Cl : clear_ray beside ([false; true] ++ [true]) ex_eye).
  { exists (mkV3 0 0 (-5)), (mkV3 0 0 1), (XInf false). split; [reflexivity|]. split; [exact ex_eye_d|]. split; [reflexivity|]. split.
    - intros a s Ha _. rewrite beside_box. destruct a; cbn in Ha; try lra; destruct s; cbn; split; intros [= H]; lra.
    - intros s s' i i' t _ _ E E'. destruct s, s'; auto; rewrite beside_missed in *; discriminate. }
  assert (M1 : rest_missed beside [false; true] [true] ex_eye) by (intros [] _; [left; now left|right; apply beside_missed]).
  assert (M2 : rest_missed beside [true] [false; true] ex_eye) by (intros [] _; left; cbn; auto).
  destruct (C43_nearest bool beside [false; true] (mkV3 0 0 (-5)) (mkV3 0 0 1) (XInf false)) as (c & a & b & Ec & Ea & _);
    [discriminate|reflexivity|intros; apply W, ex_eye_d|].
  destruct (C43_nearest bool beside [true] (mkV3 0 0 (-5)) (mkV3 0 0 1) (XInf false)) as (c' & a' & b' & Ec' & Ea' & Na' & _);
    [discriminate|reflexivity|intros; apply W, ex_eye_d|].
  change (mkRay (fin3 (mkV3 0 0 (-5))) (fin3 (mkV3 0 0 1)) (XInf false)) with ex_eye in *.
  destruct (C115_agree bool beside Debug Debug [false; true] [true] (simple_container beside c) (simple_container beside c') ex_eye)
    as (a0 & _ & E & E' & _); auto; try discriminate; try (now constructor); try (cbn; unfold usize_max; lia).
  destruct a0 as [i|].
  - exists (simple_container beside c), (simple_container beside c'), i. split; [now constructor|]. split; [now constructor|].
    do 5 (split; [assumption|]). cbn in E'. rewrite Ea' in E'. injection E' as ->. cbn [nearest] in Na'.
    destruct Na' as (s & j & t & [<-|[]] & _ & -> & _). now destruct j.
  - exfalso. cbn in E'. rewrite Ea' in E'. injection E' as ->. cbn [nearest] in Na'.
    destruct (twin_hit true) as (j & Ej). specialize (Na' true (or_introl eq_refl)). unfold beside, twin in *. congruence.
Qed.
