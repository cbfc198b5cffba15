(** * C114: shadows are mutual *)
From Coq Require Import ZArith Reals List Bool Lia Lra Psatz.
From Flocq Require Import Core.
From Verif Require Import Model.Num Model.NumX Model.Vector Model.Common Model.BBox Model.Interaction Model.Shape Model.Sphere Model.Triangle Model.Container Model.KdTree Model.Light.
From Verif Require Import Spec.RVec Spec.BoxSpec Spec.ShapeSpec Spec.SelfSpec Spec.ShadeSpec Spec.KdSpec Spec.MutualSpec.
From Verif Require Import Proofs.XBase Proofs.RVecProofs Proofs.BoxProofs Proofs.ShapeProofs Proofs.MatProofs Proofs.ShadeProofs Proofs.MicroProofs Proofs.TriangleProofs.
From Verif Require Import Props.Shapes Props.Containers.
Import ListNotations.
Local Open Scope R_scope.

Lemma lift_fin {T} (i : interaction XR T) p e n v : i_p i = fin3 p -> i_p_err i = fin3 e -> i_n i = fin3 n ->
  offset_ray_origin i (fin3 v) = fin3 (vadd p (vscale (if Rlt_dec (vdot n v) 0 then - thickness n e else thickness n e) n)).
Proof.
  intros Ep Ee En. unfold thickness. set (c := _ + _).
  unfold offset_ray_origin. rewrite Ep, Ee, En.
  assert (OC : forall a b, offset_coord (F := XR) a b = b) by (intros; unfold offset_coord; xsimp; destruct (xlt _ _); auto; destruct (xlt _ _); auto).
  rewrite !OC. assert (D : v3dot (v3abs (fin3 n)) (fin3 e) = XFin c) by reflexivity. rewrite D, v3dot_fin.
  change (flt (XFin (vdot n v)) f0) with (Rlt_bool (vdot n v) 0).
  destruct (Rlt_dec (vdot n v) 0) as [H|H]; [rewrite Rlt_bool_true by exact H|rewrite Rlt_bool_false by lra].
  - rewrite !v3scale_fin, x_f1. xsimp. cbn [xneg]. rewrite v3scale_fin, v3add_fin. unfold fin3. unfold vadd, vscale. vproj. f_equal; f_equal; ring.
  - rewrite v3scale_fin, v3add_fin. reflexivity.
Qed.

Lemma shadow_end : fsub (f1 : XR) (flit 1 4) = XFin (9999 / 10000).
Proof. unfold f1, flit. xsimp. cbn [Z.of_nat]. rewrite xdiv_fin by (apply not_0_IZR; discriminate). cbn [xsub xadd xneg]. apply (f_equal XFin). simpl. lra. Qed.

Lemma shadow_ray {T} (i j : interaction XR T) p e n q e' n' :
  i_p i = fin3 p -> i_p_err i = fin3 e -> i_n i = fin3 n -> i_p j = fin3 q -> i_p_err j = fin3 e' -> i_n j = fin3 n' ->
  spawn_ray_to i j = mkRay (fin3 (lifted p e n q)) (fin3 (vsub (lifted q e' n' p) (lifted p e n q))) (XFin (9999 / 10000)).
Proof.
  intros Ep Ee En Eq Ee' En'. unfold spawn_ray_to. rewrite Ep, Eq, v3sub_fin, v3neg_fin, shadow_end.
  rewrite (lift_fin i p e n) by auto. rewrite (lift_fin j q e' n') by auto. rewrite v3sub_fin.
  assert (E : vscale (-1) (vsub q p) = vsub p q) by (unfold vscale, vsub; apply V3_eq; vproj; ring). rewrite E. reflexivity.
Qed.

(** The ray of the shadow test from [j] to [i] is that from [i] to [j] run backwards. *)
Theorem C114_reversed : forall T (i j : interaction XR T) p e n q e' n',
  i_p i = fin3 p -> i_p_err i = fin3 e -> i_n i = fin3 n -> i_p j = fin3 q -> i_p_err j = fin3 e' -> i_n j = fin3 n' ->
  exists a b, spawn_ray_to i j = mkRay (fin3 a) (fin3 (vsub b a)) (XFin (9999 / 10000)) /\
              spawn_ray_to j i = mkRay (fin3 b) (fin3 (vsub a b)) (XFin (9999 / 10000)) /\
              a = lifted p e n q /\ b = lifted q e' n' p.
Proof.
  intros T i j p e n q e' n' Ep Ee En Eq Ee' En'. exists (lifted p e n q), (lifted q e' n' p).
  split; [now apply shadow_ray|]. split; [now apply shadow_ray|auto].
Qed.
Print Assumptions C114_reversed.

Lemma at_between a b s : at_t a (vsub b a) s = between a b s.
Proof. unfold at_t, between, vadd, vscale, vsub. apply V3_eq; vproj; ring. Qed.
Lemma between_back a b s : between b a s = between a b (1 - s).
Proof. unfold between, vadd, vscale. apply V3_eq; vproj; ring. Qed.

Lemma cut_back a b x : cut_well a b x -> cut_well b a x.
Proof.
  intros H s Hs On. rewrite between_back in On. destruct (H (1 - s) ltac:(lra) On) as (H1 & H2). split; [lra|].
  destruct x as [c r|v vn rev]; [exact I|]. destruct H2 as (R0 & B & M). exists R0. split.
  - intros o k Ho. apply B. cbn in *. tauto.
  - replace (1 - (1 - s)) with s in M by ring. rewrite Rmin_comm in M.
    replace (Rabs (vdot (vcross (vsub (t1 v) (t0 v)) (vsub (t2 v) (t0 v))) (vsub a b))) with
      (Rabs (vdot (vcross (vsub (t1 v) (t0 v)) (vsub (t2 v) (t0 v))) (vsub b a))); [exact M|].
    rewrite <- Rabs_Ropp. f_equal. unfold vdot, vsub. vproj. ring.
Qed.

Lemma apart_dir a b : a <> b -> vsub b a <> v0.
Proof.
  intros Hd E. apply Hd. pose proof (f_equal vx E) as E1. pose proof (f_equal vy E) as E2. pose proof (f_equal vz E) as E3.
  revert E1 E2 E3. unfold vsub, v0. vproj. intros. apply V3_eq; lra.
Qed.

Lemma thing_ok x a d : real_thing x -> d <> v0 -> well_behaved (shape_of x) a d.
Proof. destruct x; intros H Hd; [now apply C43_sphere_ok|now apply C43_triangle_ok]. Qed.

(** a thing of the scene is hit by the shadow ray exactly if it crosses the way *)
Lemma hit_iff x a b : a <> b -> cut_well a b x ->
  (exists i t, sh_intersect (shape_of x) (mkRay (fin3 a) (fin3 (vsub b a)) (XFin (9999 / 10000))) = Ok (Some (i, t))) <->
  (exists s, 0 < s < 1 /\ on_thing x (between a b s)).
Proof.
  intros Hd Hc. pose proof (apart_dir a b Hd) as D. destruct x as [c r|v vn rev]; cbn [shape_of sphere_shape triangle_shape sh_intersect on_thing].
  - pose proof (C35_first_hit thing c r a (vsub b a) (XFin (9999 / 10000)) D) as H. split.
    + intros (i & t & E). destruct (sp_intersect _ _) as [[i' t']|]; [|discriminate]. destruct H as (s & _ & Hs & Hl & On & _).
      cbn [xlt] in Hl. rb. exists s. split; [lra|]. now rewrite <- at_between.
    + intros (s & Hs & On). destruct (Hc s Hs On) as (Hr & _).
      destruct (sp_intersect _ _) as [[i' t']|]; [eauto|]. exfalso. apply (H s); [lra|cbn [xlt]; rb; lra|]. now rewrite at_between.
  - split.
    + intros (i & t & E). destruct (C37_hit_is_real thing v vn rev a (vsub b a) (XFin (9999 / 10000)) i t D eq_refl E) as (s & b0 & b1 & b2 & _ & Hs & Hl & W & _ & C & _).
      cbn [xle] in Hl. rb. exists s. split; [lra|]. exists b0, b1, b2. split; [exact W|]. now rewrite <- at_between, C.
    + intros (s & Hs & On). destruct (Hc s Hs On) as (Hr & R0 & B & M). destruct On as (b0 & b1 & b2 & W & Ec).
      destruct (C37_crossing_is_hit thing v vn rev a (vsub b a) (XFin (9999 / 10000)) b0 b1 b2 s R0 D eq_refl W) as (i & E & _); eauto.
      * now rewrite at_between.
      * lra.
      * cbn [xle]. rb. lra.
      * intros k. apply B. now left.
      * eapply Rlt_le_trans; [exact M|]. apply Rmult_le_compat_r; [apply Rabs_pos|apply Rmin_l].
Qed.

Section Ways.
  Variable (l : list thing) (isect_p : ray XR -> res bool).
  Definition tells (a b : rv) : Prop := exists hit, isect_p (mkRay (fin3 a) (fin3 (vsub b a)) (XFin (9999 / 10000))) = Ok hit /\
    (hit = true <-> some_hit shape_of l (mkRay (fin3 a) (fin3 (vsub b a)) (XFin (9999 / 10000)))).

  Lemma way a b : a <> b -> (forall x, In x l -> cut_well a b x) -> tells a b ->
    exists hit, isect_p (mkRay (fin3 a) (fin3 (vsub b a)) (XFin (9999 / 10000))) = Ok hit /\
      (hit = true <-> exists x s, In x l /\ 0 < s < 1 /\ on_thing x (between a b s)).
  Proof.
    intros Hab Hc (hit & Eh & H). exists hit. split; [exact Eh|]. rewrite H. unfold some_hit. split.
    - intros (x & i & t & Hx & E). destruct (proj1 (hit_iff x a b Hab (Hc x Hx)) (ex_intro _ i (ex_intro _ t E))) as (s & Hs & On). eauto.
    - intros (x & s & Hx & Hs & On). destruct (proj2 (hit_iff x a b Hab (Hc x Hx)) (ex_intro _ s (conj Hs On))) as (i & t & E). eauto.
  Qed.

  Lemma both_ways (i j : interaction XR thing) p e n q e' n' :
    i_p i = fin3 p -> i_p_err i = fin3 e -> i_n i = fin3 n -> i_p j = fin3 q -> i_p_err j = fin3 e' -> i_n j = fin3 n' ->
    let a := lifted p e n q in let b := lifted q e' n' p in
    a <> b -> (forall x, In x l -> cut_well a b x) -> tells a b -> tells b a ->
    exists free, unoccluded isect_p (mkVis i j) = Ok free /\ unoccluded isect_p (mkVis j i) = Ok free /\
      (free = true <-> forall x s, In x l -> 0 < s < 1 -> ~ on_thing x (between a b s)).
  Proof.
    intros Ep Ee En Eq Ee' En' a b Hab Hc T1 T2.
    destruct (way a b Hab Hc T1) as (h1 & E1 & H1).
    destruct (way b a (not_eq_sym Hab) (fun x Hx => cut_back a b x (Hc x Hx)) T2) as (h2 & E2 & H2).
    assert (Eh : h1 = h2).
    { apply eq_true_iff_eq. rewrite H1, H2. split; intros (x & s & Hx & Hs & On); exists x, (1 - s); (split; [exact Hx|split; [lra|]]).
      - rewrite between_back. now replace (1 - (1 - s)) with s by ring.
      - now rewrite <- between_back. }
    subst h2. exists (negb h1). unfold unoccluded. cbn [v_p0 v_p1].
    rewrite (shadow_ray i j p e n q e' n') by auto. rewrite (shadow_ray j i q e' n' p e n) by auto. fold a b. rewrite E1, E2. cbn [rbind].
    split; [reflexivity|]. split; [reflexivity|]. destruct h1; cbn [negb]; split; try discriminate; auto.
    - intros H. destruct (proj1 H1 eq_refl) as (x & s & Hx & Hs & On). now apply H in On.
    - intros _ x s Hx Hs On. assert (false = true) by (apply H1; eauto). discriminate.
  Qed.
End Ways.

(** Seen from either end: the shadow tests give one answer, and it is what stands between the points.  Left out are
    surfaces crossed in the first or last ten-thousandth of the way, and grazed triangles. *)
Theorem C114_mutual_partial : forall (l : list thing) (i j : interaction XR thing) p e n q e' n',
  i_p i = fin3 p -> i_p_err i = fin3 e -> i_n i = fin3 n -> i_p j = fin3 q -> i_p_err j = fin3 e' -> i_n j = fin3 n' ->
  l <> [] -> (forall x, In x l -> real_thing x) ->
  let a := lifted p e n q in let b := lifted q e' n' p in
  a <> b -> (forall x, In x l -> cut_well a b x) ->
  exists c free, simple_new shape_of l = Ok c /\
    unoccluded (c_intersect_p (simple_container shape_of c)) (mkVis i j) = Ok free /\
    unoccluded (c_intersect_p (simple_container shape_of c)) (mkVis j i) = Ok free /\
    (free = true <-> forall x s, In x l -> 0 < s < 1 -> ~ on_thing x (between a b s)).
Proof.
  intros l i j p e n q e' n' Ep Ee En Eq Ee' En' Hne Hl a b Hab Hc.
  assert (T : forall a b, a <> b -> exists c, simple_new shape_of l = Ok c /\ tells l (simple_intersect_p shape_of c) a b).
  { clear - Hne Hl. intros a b Hab.
    destruct (C43_nearest thing shape_of l a (vsub b a) (XFin (9999 / 10000)) Hne eq_refl) as (c & _ & hit & Ec & _ & _ & Eh & H).
    { intros x Hx. apply thing_ok; auto. now apply apart_dir. }
    exists c. split; [exact Ec|]. exists hit. auto. }
  destruct (T a b Hab) as (c & Ec & T1). destruct (T b a (not_eq_sym Hab)) as (c' & Ec' & T2). rewrite Ec in Ec'. injection Ec' as <-.
  destruct (both_ways l _ i j p e n q e' n' Ep Ee En Eq Ee' En' Hab Hc T1 T2) as (free & H). exists c, free. split; [exact Ec|exact H].
Qed.
Print Assumptions C114_mutual_partial.

(** The same with the tree; the way must not lie in a plane through a face of a box (see C47). *)
Theorem C114_tree_partial : forall srt m md (l : list thing) (i j : interaction XR thing) p e n q e' n',
  sort_by_ok edge_cmp srt -> (Z.of_nat (length l) <= usize_max)%Z ->
  i_p i = fin3 p -> i_p_err i = fin3 e -> i_n i = fin3 n -> i_p j = fin3 q -> i_p_err j = fin3 e' -> i_n j = fin3 n' ->
  l <> [] -> (forall x, In x l -> real_thing x) ->
  let a := lifted p e n q in let b := lifted q e' n' p in
  a <> b -> (forall x, In x l -> cut_well a b x) -> no_face_plane shape_of l a (vsub b a) ->
  exists kd free, kd_new shape_of srt m l md = Ok kd /\
    unoccluded (c_intersect_p (kd_container shape_of kd)) (mkVis i j) = Ok free /\
    unoccluded (c_intersect_p (kd_container shape_of kd)) (mkVis j i) = Ok free /\
    (free = true <-> forall x s, In x l -> 0 < s < 1 -> ~ on_thing x (between a b s)).
Proof.
  intros srt m md l i j p e n q e' n' SO Hlen Ep Ee En Eq Ee' En' Hne Hl a b Hab Hc Hf.
  assert (T : forall a b, a <> b -> no_face_plane shape_of l a (vsub b a) -> exists kd, kd_new shape_of srt m l md = Ok kd /\ tells l (kd_intersect_p shape_of kd) a b).
  { clear - SO Hlen Hne Hl. intros a b Hab Hf.
    destruct (C47_shadow_partial thing shape_of srt m l md a (vsub b a) (XFin (9999 / 10000)) SO Hne Hlen (apart_dir a b Hab) eq_refl) as (kd & hit & Ek & Eh & H); auto.
    { intros x Hx. apply thing_ok; auto. now apply apart_dir. }
    exists kd. split; [exact Ek|]. exists hit. auto. }
  assert (Hf' : no_face_plane shape_of l b (vsub a b)).
  { intros k x Hk Hx. assert (K : v3get (vsub b a) k = 0 /\ v3get b k = v3get a k).
    { revert Hk. unfold vsub. destruct k; cbn [v3get vx vy vz]; intros Hk; lra. }
    destruct K as [K1 K2]. rewrite K2. now apply Hf. }
  destruct (T a b Hab Hf) as (kd & Ek & T1). destruct (T b a (not_eq_sym Hab) Hf') as (kd' & Ek' & T2). rewrite Ek in Ek'. injection Ek' as <-.
  destruct (both_ways l _ i j p e n q e' n' Ep Ee En Eq Ee' En' Hab Hc T1 T2) as (free & H). exists kd, free. split; [exact Ek|exact H].
Qed.
Print Assumptions C114_tree_partial.

(** ** Where it fails, and an example *)
Definition spot (p n : rv) : interaction XR thing := mkI (fin3 p) (fin3 v0) (mkP2 f0 f0) (fin3 n) (fin3 n) v3zero v3zero v3zero None.
Lemma lifted_spot p n q : lifted p v0 n q = p.
Proof. unfold lifted, thickness, v0. apply V3_eq; unfold vadd, vscale; vproj; destruct (Rlt_dec _ _); ring. Qed.

(** A ball just before the far end: it throws a shadow one way only. *)
Theorem C114_refuted : exists (c : rv) (r : R) (i j : interaction XR thing) s, 0 < r /\ simple_new shape_of [Ball c r] = Ok s /\
  unoccluded (c_intersect_p (simple_container shape_of s)) (mkVis i j) = Ok true /\
  unoccluded (c_intersect_p (simple_container shape_of s)) (mkVis j i) = Ok false.
Proof.
  set (c := mkV3 0 0 (99995 / 100000)). set (r := 1 / 100000). set (a := v0). set (b := mkV3 0 0 1). set (up := mkV3 0 0 1).
  assert (On : forall t, on_sphere c r (between a b t) <-> (t = 99994 / 100000 \/ t = 99996 / 100000)).
  { intros t. rewrite on_sphere_sq. unfold between, c, r, a, b, vdot, vsub, vadd, vscale, v0. vproj. split; [|intros [-> | ->]; field].
    intros H. assert (E : (t - 99994 / 100000) * (t - 99996 / 100000) = 0) by nra. apply Rmult_integral in E. lra. }
  assert (Hab : a <> b) by (intros E; apply (f_equal vz) in E; cbn in E; lra).
  assert (Hr : 0 < r) by (unfold r; lra).
  assert (T : forall a b, a <> b -> exists s hit, simple_new shape_of [Ball c r] = Ok s /\
     simple_intersect_p shape_of s (mkRay (fin3 a) (fin3 (vsub b a)) (XFin (9999 / 10000))) = Ok hit /\
     (hit = true <-> exists t, 0 < t < 9999 / 10000 /\ on_sphere c r (between a b t))).
  { clear - Hr. intros a b Hab.
    destruct (C43_nearest thing shape_of [Ball c r] a (vsub b a) (XFin (9999 / 10000))) as (s & _ & hit & Es & _ & _ & Eh & H); [discriminate|reflexivity| |].
    { intros x [<-|[]]. apply thing_ok; auto. now apply apart_dir. }
    exists s, hit. split; [exact Es|]. split; [exact Eh|]. rewrite H. unfold some_hit.
    pose proof (C35_first_hit thing c r a (vsub b a) (XFin (9999 / 10000)) (apart_dir a b Hab)) as H35. split.
    - intros (x & i & t & [<-|[]] & E). cbn [shape_of sphere_shape sh_intersect] in E. destruct (sp_intersect _ _) as [[i' t']|]; [|discriminate].
      destruct H35 as (y & _ & Hy & Hl & On & _). cbn [xlt] in Hl. rb. exists y. split; [lra|]. now rewrite <- at_between.
    - intros (t & Ht & On). exists (Ball c r). cbn [shape_of sphere_shape sh_intersect]. destruct (sp_intersect _ _) as [[i' t']|]; [exists i', t'; split; [now left|reflexivity]|].
      exfalso. apply (H35 t); [lra|cbn [xlt]; rb; lra|]. now rewrite at_between. }
  destruct (T a b Hab) as (s & h1 & Es & E1 & H1). destruct (T b a (not_eq_sym Hab)) as (s' & h2 & Es' & E2 & H2). rewrite Es in Es'. injection Es' as <-.
  exists c, r, (spot a up), (spot b up), s. split; [exact Hr|]. split; [exact Es|]. unfold unoccluded. cbn [v_p0 v_p1 c_intersect_p simple_container].
  rewrite (shadow_ray (spot a up) (spot b up) a v0 up b v0 up), (shadow_ray (spot b up) (spot a up) b v0 up a v0 up) by reflexivity.
  rewrite !lifted_spot, E1, E2. cbn [rbind].
  assert (h1 = false) as -> by (destruct h1; auto; exfalso; destruct (proj1 H1 eq_refl) as (t & Ht & O); apply On in O; lra).
  assert (h2 = true) as -> by (apply H2; exists (6 / 100000); split; [lra|]; rewrite between_back; apply On; lra).
  auto.
Qed.
Print Assumptions C114_refuted.

Definition ex_sight : tri rv := mk3 (mkV3 (-1) (-1) 5) (mkV3 1 (-1) 5) (mkV3 0 1 5).
Definition ex_things : list thing := [Ball (mkV3 0 0 3) 1; Trig ex_sight None false].
Definition ex_a : rv := v0.
Definition ex_b : rv := mkV3 0 0 10.
Lemma ex_cut : ex_a <> ex_b /\ (forall x, In x ex_things -> real_thing x) /\ (forall x, In x ex_things -> cut_well ex_a ex_b x) /\
  no_face_plane shape_of ex_things ex_a (vsub ex_b ex_a).
Proof.
  split; [intros E; apply (f_equal vz) in E; cbn in E; lra|]. split; [intros x [<-|[<-|[]]]; cbn; auto; lra|]. split.
  - intros x [<-|[<-|[]]] s Hs On; cbn [on_thing] in On.
    + apply on_sphere_sq in On. revert On. unfold between, ex_a, ex_b, vdot, vsub, vadd, vscale, v0. vproj. intros On. split; [nra|exact I].
    + destruct On as (b0 & b1 & b2 & (W0 & W1 & W2 & WS) & E). pose proof (f_equal vz E) as Ez. revert Ez. unfold between, comb, ex_a, ex_b, ex_sight, vadd, vscale, v0. cbn [t0 t1 t2]. vproj. intros Ez.
      assert (s = 1 / 2) as -> by lra. split; [lra|]. exists 10. split.
      * intros o k Ho. assert (K : o = v0 \/ o = mkV3 0 0 10) by (destruct Ho as [<-|[<-|[]]]; auto).
        destruct K as [-> | ->]; destruct k; cbn [ex_sight t0 t1 t2]; unfold vsub, v0; cbn [v3get vx vy vz]; repeat split; apply Rabs_le; lra.
      * rewrite Rmin_left by lra. unfold vdot, vcross, vsub, ex_sight, ex_a, ex_b, v0. cbn [t0 t1 t2]. vproj.
        match goal with |- _ < _ * Rabs ?e => replace e with 40 by ring end. rewrite Rabs_pos_eq by lra. lra.
  - intros k x Hk Hx. assert (k <> AZ) by (intros ->; revert Hk; unfold vsub, ex_a, ex_b, v0; cbn; lra).
    assert (Fm : forall a b, fmin (XFin a) (XFin b) = XFin (Rmin a b)).
    { intros. unfold fmin. xsimp. cbn [xis_nan xlt]. destruct (Rlt_bool _ _) eqn:E; rb; apply (f_equal XFin); unfold Rmin; destruct (Rle_dec _ _); lra. }
    destruct Hx as [<-|[<-|[]]]; cbn [shape_of sphere_shape triangle_shape sh_bbox].
    + unfold sp_bbox, bbox_new, v3min, v3max, v3map2, fin3. cbn [sp_center sp_radius vx vy vz]. xsimp. cbn [xsub xadd]. rewrite !Fm, !fmax_XFin.
      destruct k; cbn [bmin bmax v3get vx vy vz ex_a v0]; try congruence; split; intros [= E]; revert E;
        rewrite ?(Rmin_left (0 - 1)), ?(Rmax_left (0 + 1)) by lra; lra.
    + unfold tr_bbox, bbox_union_point, bbox_new, v3min, v3max, v3map2, fin3, ex_sight. cbn [tr_v t0 t1 t2 vx vy vz bmin bmax]. xsimp.
      destruct k; cbn [bmin bmax v3get vx vy vz ex_a v0]; try congruence; rewrite ?Fm, ?fmax_XFin; split; intros [= E]; revert E; unfold Rmin, Rmax;
        repeat destruct (Rle_dec _ _); lra.
Qed.

(** Points at (0,0,0) and (0,0,10) with a ball and a triangle in between do not see each other. *)
Example C114_example : forall srt m md, sort_by_ok edge_cmp srt -> exists c kd,
  simple_new shape_of ex_things = Ok c /\ kd_new shape_of srt m ex_things md = Ok kd /\
  forall isect_p, In isect_p [c_intersect_p (simple_container shape_of c); c_intersect_p (kd_container shape_of kd)] ->
    unoccluded isect_p (mkVis (spot ex_a (mkV3 0 0 1)) (spot ex_b (mkV3 0 0 (-1)))) = Ok false /\
    unoccluded isect_p (mkVis (spot ex_b (mkV3 0 0 (-1))) (spot ex_a (mkV3 0 0 1))) = Ok false.
Proof.
  intros srt m md SO. destruct ex_cut as (H1 & H2 & H3 & H4).
  destruct (C114_mutual_partial ex_things (spot ex_a (mkV3 0 0 1)) (spot ex_b (mkV3 0 0 (-1))) ex_a v0 (mkV3 0 0 1) ex_b v0 (mkV3 0 0 (-1)))
    as (c & f1 & Ec & E1 & E1' & F1); try reflexivity; rewrite ?lifted_spot; auto; [discriminate|].
  destruct (C114_tree_partial srt m md ex_things (spot ex_a (mkV3 0 0 1)) (spot ex_b (mkV3 0 0 (-1))) ex_a v0 (mkV3 0 0 1) ex_b v0 (mkV3 0 0 (-1)))
    as (kd & f2 & Ek & E2 & E2' & F2); try reflexivity; rewrite ?lifted_spot; auto; [vm_compute; discriminate|discriminate|].
  rewrite !lifted_spot in F1, F2. exists c, kd. split; [exact Ec|]. split; [exact Ek|].
  assert (On : on_thing (Ball (mkV3 0 0 3) 1) (between ex_a ex_b (1 / 5))).
  { cbn [on_thing]. apply on_sphere_sq. unfold between, ex_a, ex_b, vdot, vsub, vadd, vscale, v0. vproj. field. }
  assert (f1 = false) as -> by (destruct f1; auto; exfalso; apply (proj1 F1 eq_refl (Ball (mkV3 0 0 3) 1) (1 / 5)); [now left|lra|exact On]).
  assert (f2 = false) as -> by (destruct f2; auto; exfalso; apply (proj1 F2 eq_refl (Ball (mkV3 0 0 3) 1) (1 / 5)); [now left|lra|exact On]).
  intros isect_p [<-|[<-|[]]]; auto.
Qed.
