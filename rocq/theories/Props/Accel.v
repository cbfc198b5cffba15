(** * C109: the acceleration structure does not change the picture *)
From Coq Require Import ZArith Reals List Bool Lia Lra.
From Flocq Require Import Core.
From Verif Require Import Model.Num Model.NumX Model.Vector Model.BBox Model.Common Model.Interaction Model.Shape Model.Sphere Model.Container Model.KdTree
  Model.Sampler Model.Sampling Model.Reflection Model.Light Model.Scene Model.Path Model.Film Model.Render.
From Verif Require Import Spec.RVec Spec.BoxSpec Spec.ShapeSpec Spec.KdSpec Spec.RenderSpec Spec.WatchSpec.
From Verif Require Import Proofs.XBase Proofs.FLaws Proofs.TriangleProofs Proofs.RVecProofs Proofs.BoxProofs Proofs.ShapeProofs Proofs.SortProofs Props.Shapes Props.Containers.
Import ListNotations.
Local Open Scope Z_scope.

(** ** what succeeds in the first program succeeds alike in the second *)
Definition below {A} (x y : res A) : Prop := forall a, x = Ok a -> y = Ok a.
Lemma below_refl {A} (x : res A) : below x x. Proof. intros a. auto. Qed.
Lemma below_bind {A B} (x y : res A) (k k' : A -> res B) :
  below x y -> (forall a, x = Ok a -> below (k a) (k' a)) -> below (rbind x k) (rbind y k').
Proof. intros H1 H2 b. destruct x as [a| |] eqn:E; cbn [rbind]; try discriminate. rewrite (H1 a eq_refl). cbn [rbind]. now apply H2. Qed.
Lemma below_same {A B} (x : res A) (k k' : A -> res B) : (forall a, below (k a) (k' a)) -> below (rbind x k) (rbind x k').
Proof. intros H. apply below_bind; [apply below_refl|auto]. Qed.
Lemma below_rfold {A B} (f g : A -> B -> res A) l : (forall a b, below (f a b) (g a b)) -> forall a, below (rfold f l a) (rfold g l a).
Proof. intros H. induction l as [|b l IH]; intros a; cbn [rfold]; [apply below_refl|]. apply below_bind; auto. Qed.

Section Li.
  Context {F T ST : Type} {FO : FOps F}.
  Variables (sm : sampler_ops F ST) (teq : T -> T -> bool) (surf : T -> surface F T) (sc sc' : scene F T (container F T)).
  Hypothesis Hl : sc_lights sc = sc_lights sc'.
  Hypothesis Hi : forall r, below (scene_intersect sc r) (scene_intersect sc' r).
  Hypothesis Hp : forall r, below (scene_intersect_p sc r) (scene_intersect_p sc' r).

  Ltac branch := repeat match goal with |- below (if ?b then _ else _) (if ?b then _ else _) => destruct b; [|try apply below_refl]; try apply below_refl end.

  Lemma below_direct_light l i b u ld : below (direct_light sc l i b u ld) (direct_light sc' l i b u ld).
  Proof.
    unfold direct_light. apply below_same. intros [[[wi li] pdf] v]. destruct (_ && _); [|apply below_refl].
    destruct (negb _); [|apply below_refl]. apply below_bind; [|intros; apply below_refl].
    unfold unoccluded. apply below_bind; [apply Hp|intros; apply below_refl].
  Qed.
  Lemma below_direct_bsdf l i b u ld : below (direct_bsdf teq surf sc l i b u ld) (direct_bsdf teq surf sc' l i b u ld).
  Proof.
    unfold direct_bsdf. destruct (l_is_delta l); [apply below_refl|]. apply below_same. intros [[[wi f] pdf] flag].
    destruct (_ && _); [|apply below_refl]. destruct (_ && _); [apply below_refl|].
    apply below_bind; [apply Hi|intros; apply below_refl].
  Qed.
  Lemma below_estimate s l i b : below (estimate_direct sm teq surf sc s l i b) (estimate_direct sm teq surf sc' s l i b).
  Proof.
    unfold estimate_direct. apply below_same. intros [u0 s1]. apply below_same. intros [u1 s2].
    apply below_bind; [apply below_direct_light|]. intros ld _. apply below_bind; [apply below_direct_bsdf|]. intros; apply below_refl.
  Qed.
  Lemma below_one_light s i b : below (uniform_sample_one_light sm teq surf sc s i b) (uniform_sample_one_light sm teq surf sc' s i b).
  Proof.
    unfold uniform_sample_one_light. rewrite Hl. destruct (_ =? _); [apply below_refl|].
    apply below_same. intros [u s1]. apply below_same. intros l. apply below_bind; [apply below_estimate|]. intros; apply below_refl.
  Qed.
  Lemma below_loop fuel : forall s r l beta spec k,
    below (li_loop sm teq surf sc fuel s r l beta spec k) (li_loop sm teq surf sc' fuel s r l beta spec k).
  Proof.
    induction fuel as [|fuel IH]; intros s r l beta spec k; cbn [li_loop]; [apply below_refl|].
    apply below_bind; [apply Hi|]. intros o _. apply below_same. intros l1. destruct o as [i|]; [|apply below_refl].
    destruct (_ <? _)%Z; [apply below_refl|]. apply below_same. intros b. apply below_bind; [apply below_one_light|]. intros [ld s1] _.
    apply below_same. intros [u s2]. apply below_same. intros [[[wi f] pdf] flag]. destruct (_ || _); [apply below_refl|].
    destruct (_ <? _)%Z; [|apply IH]. apply below_same. intros [v s3]. destruct (_ >? _)%f; [apply below_refl|apply IH].
  Qed.
  Lemma below_li fuel s r : below (li sm teq surf sc fuel s r) (li sm teq surf sc' fuel s r).
  Proof. apply below_loop. Qed.
  Lemma below_shade gen fuel s p : below (shade sm teq surf sc gen fuel s p) (shade sm teq surf sc' gen fuel s p).
  Proof. unfold shade, li. apply below_same. intros r. apply below_loop. Qed.
End Li.

Section Render.
  Context {F ST : Type} {FO : FOps F}.
  Variables (m : build) (sm : sampler_ops F ST) (sh1 sh2 : ST -> P2 F -> res (V3 F * ST)).
  Hypothesis H : forall s p, below (sh1 s p) (sh2 s p).

  Lemma below_pixel fuel p : forall s ft log, below (pixel_loop m sm sh1 fuel p s ft log) (pixel_loop m sm sh2 fuel p s ft log).
  Proof.
    induction fuel as [|fuel IH]; intros s ft log; cbn [pixel_loop]; [apply below_refl|].
    apply below_same. intros [pf s1]. apply below_bind; [apply H|]. intros [l s2] _. apply below_same. intros ft1. apply below_same. intros [more s3].
    destruct more; [apply IH|apply below_refl].
  Qed.
  Lemma below_local fuel fm s b : below (render_local m sm sh1 fuel fm s b) (render_local m sm sh2 fuel fm s b).
  Proof.
    unfold render_local. apply below_same. intros ft. apply below_same. intros ps. unfold pixels_loop. apply below_rfold.
    intros [[s1 ft1] log] p. apply below_same. intros s2. apply below_pixel.
  Qed.
  Lemma below_seq fuel fm s : below (render_seq m sm sh1 fuel fm s) (render_seq m sm sh2 fuel fm s).
  Proof.
    unfold render_seq. apply below_same. intros tiles. apply below_rfold. intros [s1 fm1] b. unfold render_tile.
    apply below_bind; [apply below_local|]. intros [[s2 ft] log] _. apply below_refl.
  Qed.
  Lemma below_steps fuel k y y' : steps m sm sh1 fuel k y y' -> steps m sm sh2 fuel k y y'.
  Proof.
    induction 1 as [y|k y y1 i y2 S IH St]; [constructor|]. econstructor; [exact IH|].
    destruct St; econstructor; eauto. eapply below_local; eauto.
  Qed.
End Render.

(** ** The containers agree on clear rays *)
Local Open Scope R_scope.

Lemma xle_both a b : xle a b = true -> xle b a = true -> a = b.
Proof. destruct a as [|[]|x], b as [|[]|y]; cbn; try discriminate; auto. intros H1 H2. rb. f_equal. lra. Qed.

Lemma nearest_unique {T} (sh : T -> shape XR T) l r a b : clear_ray sh l r -> nearest sh l r a -> nearest sh l r b -> a = b.
Proof.
  intros (o & d & tmax & _ & _ & _ & _ & Tie) Ha Hb. destruct a as [j|], b as [j'|]; cbn [nearest] in *; auto.
  - destruct Ha as (s & i & t & Hs & E & -> & N). destruct Hb as (s' & i' & t' & Hs' & E' & -> & N').
    assert (t = t') by (apply xle_both; [exact (N s' i' t' Hs' E')|exact (N' s i t Hs E)]). subst t'.
    assert (s = s') by (eapply Tie; eauto). subst s'. rewrite E in E'. now injection E' as ->.
  - destruct Ha as (s & i & t & Hs & E & _). rewrite (Hb s Hs) in E. discriminate.
  - destruct Hb as (s & i & t & Hs & E & _). rewrite (Ha s Hs) in E. discriminate.
Qed.

Lemma container_answers {T} (sh : T -> shape XR T) m l c r :
  container_of sh m l c -> l <> [] -> (Z.of_nat (length l) <= usize_max)%Z ->
  (forall s o d, In s l -> d <> v0 -> well_behaved (sh s) o d) -> clear_ray sh l r ->
  exists a b, c_intersect c r = Ok a /\ nearest sh l r a /\ c_intersect_p c r = Ok b /\ (b = true <-> some_hit sh l r).
Proof.
  intros Hc Hne Hlen Hw (o & d & tmax & -> & Hd & Hn & Hf & _). destruct Hc as [c E|srt md c SO E].
  - destruct (C43_nearest T sh l o d tmax Hne Hn) as (c' & a & b & E' & H1 & H2 & H3 & H4); [auto|].
    rewrite E in E'. injection E' as <-. exists a, b. auto.
  - destruct (C46_nearest_partial T sh srt m l md o d tmax SO Hne Hlen Hd Hn ltac:(auto) Hf) as (k & a & E' & H1 & H2).
    rewrite E in E'. injection E' as <-.
    destruct (C47_shadow_partial T sh srt m l md o d tmax SO Hne Hlen Hd Hn ltac:(auto) Hf) as (k & b & E' & H3 & H4).
    rewrite E in E'. injection E' as <-. exists a, b. auto.
Qed.

Lemma bool_same (a b : bool) P : (a = true <-> P) -> (b = true <-> P) -> a = b.
Proof. intros [H1 H2] [H3 H4]. destruct a, b; auto. symmetry; apply H4, H1, eq_refl. Qed.

(** Exact arithmetic.  Two containers of the same shapes, each simple or a k-d tree of any depth, answer
    alike for every clear ray. *)
Theorem C109_agree : forall (T : Type) (sh : T -> shape XR T) m m' l c c' r,
  container_of sh m l c -> container_of sh m' l c' -> l <> [] -> (Z.of_nat (length l) <= usize_max)%Z ->
  (forall s o d, In s l -> d <> v0 -> well_behaved (sh s) o d) -> clear_ray sh l r ->
  exists a b, c_intersect c r = Ok a /\ c_intersect c' r = Ok a /\ c_intersect_p c r = Ok b /\ c_intersect_p c' r = Ok b.
Proof.
  intros T sh m m' l c c' r H H' Hne Hlen Hw Cl.
  destruct (container_answers sh m l c r H Hne Hlen Hw Cl) as (a & b & E1 & N & E2 & B).
  destruct (container_answers sh m' l c' r H' Hne Hlen Hw Cl) as (a' & b' & E1' & N' & E2' & B').
  rewrite <- (nearest_unique sh l r a a' Cl N N') in E1'. rewrite <- (bool_same b b' _ B B') in E2'.
  exists a, b. auto.
Qed.

(** The radiance of a ray: if tracing the path with container [c] touches clear rays only, the path with
    any other container of the shapes is the same, random numbers included. *)
Theorem C109_radiance : forall (T ST : Type) (sh : T -> shape XR T) m m' l c c' (ok : ray XR -> bool)
    (sm : sampler_ops XR ST) (teq : T -> T -> bool) (surf : T -> surface XR T) (sc : scene XR T (container XR T)) fuel s r x,
  container_of sh m l c -> container_of sh m' l c' -> l <> [] -> (Z.of_nat (length l) <= usize_max)%Z ->
  (forall s o d, In s l -> d <> v0 -> well_behaved (sh s) o d) ->
  (forall r, ok r = true -> clear_ray sh l r) ->
  li sm teq surf (with_container sc (watched ok c)) fuel s r = Ok x ->
  li sm teq surf (with_container sc c) fuel s r = Ok x /\ li sm teq surf (with_container sc c') fuel s r = Ok x.
Proof.
  intros T ST sh m m' l c c' ok sm teq surf sc fuel s r x H H' Hne Hlen Hw Hok E.
  assert (A : forall q, ok q = true -> exists a b, c_intersect c q = Ok a /\ c_intersect c' q = Ok a /\ c_intersect_p c q = Ok b /\ c_intersect_p c' q = Ok b)
    by (intros q Eq; exact (C109_agree T sh m m' l c c' q H H' Hne Hlen Hw (Hok q Eq))).
  split; [apply (below_li sm teq surf (with_container sc (watched ok c)) (with_container sc c))
         |apply (below_li sm teq surf (with_container sc (watched ok c)) (with_container sc c'))]; auto;
    intros q a; unfold scene_intersect, scene_intersect_p, with_container, watched; cbn [sc_shapes c_intersect c_intersect_p];
    destruct (ok q) eqn:Eq; try discriminate; auto;
    destruct (A q Eq) as (a0 & b0 & E1 & E2 & E3 & E4); congruence.
Qed.

(** The whole picture, by one thread and by any number of threads in any interleaving. *)
Theorem C109_picture : forall (T ST : Type) (sh : T -> shape XR T) m m' mb l c c' (ok : ray XR -> bool)
    (sm : sampler_ops XR ST) (teq : T -> T -> bool) (surf : T -> surface XR T) (sc : scene XR T (container XR T)) gen bounces fuel,
  container_of sh m l c -> container_of sh m' l c' -> l <> [] -> (Z.of_nat (length l) <= usize_max)%Z ->
  (forall s o d, In s l -> d <> v0 -> well_behaved (sh s) o d) ->
  (forall r, ok r = true -> clear_ray sh l r) ->
  let sh0 := shade sm teq surf (with_container sc (watched ok c)) gen bounces in
  let sh1 := shade sm teq surf (with_container sc c) gen bounces in
  let sh2 := shade sm teq surf (with_container sc c') gen bounces in
  (forall fm s x, render_seq mb sm sh0 fuel fm s = Ok x ->
     render_seq mb sm sh1 fuel fm s = Ok x /\ render_seq mb sm sh2 fuel fm s = Ok x) /\
  (forall k y y', steps mb sm sh0 fuel k y y' -> steps mb sm sh1 fuel k y y' /\ steps mb sm sh2 fuel k y y').
Proof.
  intros T ST sh m m' mb l c c' ok sm teq surf sc gen bounces fuel H H' Hne Hlen Hw Hok sh0 sh1 sh2.
  assert (B1 : forall s p, below (sh0 s p) (sh1 s p)).
  { intros s p x. unfold sh0, sh1, shade. destruct (gen p) as [r| |]; cbn [rbind]; try discriminate.
    intros E. eapply (C109_radiance T ST sh m m' l c c'); eauto. }
  assert (B2 : forall s p, below (sh0 s p) (sh2 s p)).
  { intros s p x. unfold sh0, sh2, shade. destruct (gen p) as [r| |]; cbn [rbind]; try discriminate.
    intros E. eapply (C109_radiance T ST sh m m' l c c'); eauto. }
  split.
  - intros fm s x E. split; eapply below_seq; eauto.
  - intros k y y' S. split; eapply below_steps; eauto.
Qed.

(** Two glowing balls one behind the other, seen along the axis: the camera ray is clear, and the simple
    container and the k-d tree both show the light of the nearer ball. *)
Definition ex_ball (s : bool) : shape XR bool := sphere_shape (mkSphere (fin3 (if s then v0 else mkV3 0 0 3)) (XFin 1)).
Definition ex_eye : ray XR := mkRay (fin3 (mkV3 0 0 (-5))) (fin3 (mkV3 0 0 1)) (XInf false).
Definition same3 (a b : V3 XR) : bool := xeq (vx a) (vx b) && xeq (vy a) (vy b) && xeq (vz a) (vz b).
Definition ex_ok (r : ray XR) : bool := same3 (r_o r) (r_o ex_eye) && same3 (r_d r) (r_d ex_eye) && xeq (r_tmax r) (XInf false).
Definition ex_glowing (c : rv) : surface XR bool := mkSurf (fun _ => Ok (mkBSDF [] v3zero v3zero v3zero v3zero)) (fun _ _ => fin3 c).
Definition ex_sampler : sampler_ops XR unit :=
  mkSampler (fun s _ => Ok s) (fun s => Ok (false, s)) (fun s => Ok (XFin (1/2), s)) (fun s => Ok (mkP2 (XFin (1/2)) (XFin (1/2)), s)).

Lemma xeq_fin x r : xeq x (XFin r) = true -> x = XFin r.
Proof. destruct x as [|[]|y]; cbn; try discriminate. intros H. rb. now subst. Qed.
Lemma same3_fin a p : same3 a (fin3 p) = true -> a = fin3 p.
Proof.
  unfold same3, fin3. cbn [vx vy vz]. rewrite !andb_true_iff. intros [[H1 H2] H3].
  destruct a as [x y z]. cbn [vx vy vz] in *. apply xeq_fin in H1, H2, H3. now subst.
Qed.


Lemma ex_eye_d : mkV3 0 0 1 <> v0.
Proof. intros H; apply (f_equal vz) in H; cbn in H; lra. Qed.
Lemma ex_ball_hit (s : bool) i t : sh_intersect (ex_ball s) ex_eye = Ok (Some (i, t)) ->
  exists x, t = XFin x /\ if s then x = 4 \/ x = 6 else x = 7 \/ x = 9.
Proof.
  unfold ex_ball, sphere_shape, ex_eye. cbn [sh_intersect]. intros E.
  destruct s.
  - pose proof (C35_first_hit bool v0 1 (mkV3 0 0 (-5)) (mkV3 0 0 1) (XInf false) ex_eye_d) as H.
    destruct (sp_intersect _ _) as [[i0 t0]|]; [|discriminate]. injection E as -> ->. destruct H as (x & -> & _ & _ & On & _).
    exists x. split; auto. apply on_sphere_sq in On. unfold vdot, vsub, at_t, vadd, vscale, v0 in On. cbn in On.
    assert (H : (x - 4) * (x - 6) = 0) by lra. apply Rmult_integral in H as [|]; lra.
  - pose proof (C35_first_hit bool (mkV3 0 0 3) 1 (mkV3 0 0 (-5)) (mkV3 0 0 1) (XInf false) ex_eye_d) as H.
    destruct (sp_intersect _ _) as [[i0 t0]|]; [|discriminate]. injection E as -> ->. destruct H as (x & -> & _ & _ & On & _).
    exists x. split; auto. apply on_sphere_sq in On. unfold vdot, vsub, at_t, vadd, vscale, v0 in On. cbn in On.
    assert (H : (x - 7) * (x - 9) = 0) by lra. apply Rmult_integral in H as [|]; lra.
Qed.

Lemma ex_ball_box (s : bool) : sh_bbox (ex_ball s) = mkBB (fin3 (mkV3 (-1) (-1) (if s then -1 else 2))) (fin3 (mkV3 1 1 (if s then 1 else 4))).
Proof.
  assert (Fm : forall a b, a <= b -> fmin (XFin a) (XFin b) = XFin a).
  { intros. unfold fmin. xsimp. cbn [xis_nan xlt]. destruct (Rlt_bool _ _) eqn:E; rb; auto. f_equal. lra. }
  assert (FM : forall a b, b <= a -> fmax (XFin a) (XFin b) = XFin a).
  { intros. rewrite fmax_XFin, Rmax_left by lra. reflexivity. }
  unfold ex_ball, sphere_shape, sp_bbox, bbox_new, v3min, v3max, v3map2, fin3, v0. destruct s; cbn [sh_bbox sp_center sp_radius vx vy vz]; xsimp;
    cbn [xsub xadd]; rewrite !Fm, !FM by lra; repeat f_equal; lra.
Qed.
Lemma ex_faces : no_face_plane ex_ball [true; false] (mkV3 0 0 (-5)) (mkV3 0 0 1).
Proof. intros a s Ha _. rewrite ex_ball_box. destruct a; cbn in Ha; try lra; destruct s; cbn; split; intros [= H]; lra. Qed.

Lemma ex_clear r : ex_ok r = true -> clear_ray ex_ball [true; false] r.
Proof.
  unfold ex_ok. rewrite !andb_true_iff. intros [[H1 H2] H3]. apply same3_fin in H1, H2.
  assert (Er : r = ex_eye).
  { destruct r as [o d t]. cbn [r_o r_d r_tmax] in *. unfold ex_eye. f_equal; auto. destruct t as [|[]|x]; cbn in H3; try discriminate; auto. }
  subst r. exists (mkV3 0 0 (-5)), (mkV3 0 0 1), (XInf false). split; [reflexivity|].
  split; [exact ex_eye_d|]. split; [reflexivity|]. split.
  - exact ex_faces.
  - intros s s' i i' t _ _ E E'. apply ex_ball_hit in E, E'. destruct E as (x & -> & Hx), E' as (x' & [= <-] & Hx').
    destruct s, s'; auto; lra.
Qed.
Lemma ex_ball_ok s o d : In s [true; false] -> d <> v0 -> well_behaved (ex_ball s) o d.
Proof. intros _ Hd. apply C43_sphere_ok; auto; lra. Qed.

Lemma ex_light : exists c k, simple_new ex_ball [true; false] = Ok c /\
  kd_new ex_ball (fun l => Ok (isort edge_cmp l)) Debug [true; false] None = Ok k /\
  li ex_sampler Bool.eqb (fun s => ex_glowing (if s then mkV3 1 2 3 else mkV3 9 9 9))
     (with_container (mkScene [] (simple_container ex_ball c)) (watched ex_ok (simple_container ex_ball c))) 1 tt ex_eye = Ok (fin3 (mkV3 1 2 3), tt).
Proof.
  destruct (C43_nearest bool ex_ball [true; false] (mkV3 0 0 (-5)) (mkV3 0 0 1) (XInf false)) as (c & a & b & Ec & Ea & Na & _);
    [discriminate|reflexivity|intros s Hs; apply ex_ball_ok; auto using ex_eye_d|].
  destruct (C46_nearest_partial bool ex_ball (fun l => Ok (isort edge_cmp l)) Debug [true; false] None (mkV3 0 0 (-5)) (mkV3 0 0 1) (XInf false) (isort_ok edge_cmp))
    as (k & a' & Ek & _); [discriminate|cbn; unfold usize_max; lia|apply ex_eye_d|reflexivity|intros s Hs; apply ex_ball_ok; auto using ex_eye_d| |].
  { exact ex_faces. }
  exists c, k. split; auto. split; auto.
  assert (Hok : ex_ok ex_eye = true)
    by (unfold ex_ok, same3; cbn; rewrite !Req_bool_true; auto).
  change (mkRay (fin3 (mkV3 0 0 (-5))) (fin3 (mkV3 0 0 1)) (XInf false)) with ex_eye in *.
  assert (T : sh_intersect (ex_ball true) ex_eye <> Ok None).
  { unfold ex_ball, sphere_shape, ex_eye. cbn [sh_intersect]. intros E.
    pose proof (C35_first_hit bool v0 1 (mkV3 0 0 (-5)) (mkV3 0 0 1) (XInf false) ex_eye_d) as H.
    destruct (sp_intersect _ _) as [[i0 t0]|]; [discriminate|]. apply (H 4); [lra|reflexivity|].
    apply on_sphere_sq. unfold vdot, vsub, at_t, vadd, vscale, v0. cbn. lra. }
  destruct a as [j|]; cbn [nearest] in Na; [|exfalso; apply T, Na; left; reflexivity].
  destruct Na as (s & i & t & Hs & Es & -> & Hmin).
  assert (s = true) as ->.
  { destruct s; auto. exfalso. destruct (sh_intersect (ex_ball true) ex_eye) as [[[i' t']|]| |] eqn:E; try discriminate E; try (now apply T).
    specialize (Hmin true i' t' (or_introl eq_refl) E). apply ex_ball_hit in Es, E. destruct Es as (x & -> & Hx), E as (y & -> & Hy).
    cbn in Hmin. rb. lra. }
  unfold li. cbn [li_loop]. unfold scene_intersect, with_container, watched. cbn [sc_shapes c_intersect]. rewrite Hok.
  cbn [simple_container c_intersect]. rewrite Ea. cbn [rbind]. cbn. rewrite Req_bool_true by auto. cbn [orb].
  unfold v3add, v3mul, v3map2, spectrum_of, v3zero, fin3. xsimp. cbn. do 3 f_equal; f_equal; ring.
Qed.

Example C109_example : exists c k, container_of ex_ball Debug [true; false] c /\ container_of ex_ball Debug [true; false] k /\
  (forall s o d, In s [true; false] -> d <> v0 -> well_behaved (ex_ball s) o d) /\
  (forall r, ex_ok r = true -> clear_ray ex_ball [true; false] r) /\
  let light q := li ex_sampler Bool.eqb (fun s => ex_glowing (if s then mkV3 1 2 3 else mkV3 9 9 9)) (with_container (mkScene [] c) q) 1 tt ex_eye in
  light (watched ex_ok c) = Ok (fin3 (mkV3 1 2 3), tt) /\ light k = Ok (fin3 (mkV3 1 2 3), tt).
Proof.
  destruct ex_light as (c & k & Ec & Ek & El). exists (simple_container ex_ball c), (kd_container ex_ball k).
  assert (C1 : container_of ex_ball Debug [true; false] (simple_container ex_ball c)) by (constructor; auto).
  assert (C2 : container_of ex_ball Debug [true; false] (kd_container ex_ball k)) by (eapply of_kd; [apply isort_ok|exact Ek]).
  split; [exact C1|]. split; [exact C2|]. split; [exact ex_ball_ok|]. split; [exact ex_clear|]. cbv zeta. split; [exact El|].
  eapply (C109_radiance bool unit ex_ball Debug Debug [true; false] (simple_container ex_ball c)); eauto.
  - discriminate.
  - cbn; unfold usize_max; lia.
  - exact ex_ball_ok.
  - exact ex_clear.
Qed.

