(** * C97 with any container, and for whole pictures *)
From Coq Require Import ZArith Reals List Bool Lia Lra Psatz.
From Flocq Require Import Core.
From Verif Require Import Model.Num Model.NumX Model.Vector Model.Common Model.BBox Model.Interaction Model.Shape Model.Sphere Model.Triangle Model.Container Model.KdTree Model.Sampler
  Model.Sampling Model.Reflection Model.Texture Model.Material Model.Light Model.Scene Model.Path Model.Film Model.Render.
From Verif Require Import Spec.RVec Spec.KdSpec Spec.UnitsSpec Spec.WatchSpec Spec.LambertSpec Spec.RenderSpec.
From Verif Require Import Proofs.XBase Proofs.RVecProofs Proofs.UnitProofs Proofs.SortProofs Props.Shapes Props.Containers Props.Units Props.Units2 Props.Lambert Props.Accel.
Import ListNotations.
Local Open Scope R_scope.

(** balls of positive radius and triangles, at finite places *)
Definition placed (s : solid) : Prop :=
  match s with
  | Round s => exists c r, s = mkSphere (fin3 c) (XFin r) /\ 0 < r
  | Flat s => exists v : tri rv, tr_v s = mk3 (fin3 (t0 v)) (fin3 (t1 v)) (fin3 (t2 v))
  end.

Lemma placed_wb {T} s o d : placed s -> d <> v0 -> well_behaved (solid_shape (T := T) s) o d.
Proof.
  destruct s as [s|s]; cbn [placed solid_shape].
  - intros (c & r & -> & Hr) Hd. now apply C43_sphere_ok.
  - intros (v & E) Hd. destruct s as [tv vn rev]. cbn [tr_v] in E. subst tv. now apply C43_triangle_ok.
Qed.

Section To.
  Variables (k : R) (a : rv).
  Hypothesis Hk : 0 < k.

  Definition move (p : rv) : rv := vadd (vscale k p) a.
  Lemma shift_fin p : shift3 k a (fin3 p) = fin3 (move p).
  Proof. destruct p. reflexivity. Qed.
  Lemma stretch_fin l p : stretch3 l (fin3 p) = fin3 (vscale l p).
  Proof. destruct p. reflexivity. Qed.
  Lemma placed_moved s : placed s -> placed (moved k a s).
  Proof.
    destruct s as [s|s]; cbn [placed moved].
    - intros (c & r & -> & Hr). exists (move c), (k * r). cbn [sp_center sp_radius stretch]. rewrite shift_fin. split; [reflexivity|nra].
    - intros (v & E). exists (tmap move v). cbn [tr_v]. rewrite E. reflexivity.
  Qed.

  Lemma shift_back x b : shift (/ k) (- b / k) (shift k b x) = x.
  Proof. destruct x as [| |x]; cbn; auto. f_equal. field. lra. Qed.
  Lemma stretch_back l x : 0 < l -> stretch (/ l) (stretch l x) = x.
  Proof. intros Hl. destruct x as [| |x]; cbn; auto. f_equal. field. lra. Qed.
  Definition ray_back (l : R) (r : ray XR) : ray XR := ray_to (/ k) (/ l) (vscale (- / k) a) r.
  Lemma back_to l r : 0 < l -> ray_back l (ray_to k l a r) = r.
  Proof.
    intros Hl. unfold ray_back, ray_to. destruct r as [[ox oy oz] [dx dy dz] t]. cbn [r_o r_d r_tmax]. f_equal.
    - unfold shift3. cbn [vx vy vz]. f_equal; (etransitivity; [|apply shift_back]); f_equal; unfold vscale; cbn [vx vy vz]; field; lra.
    - unfold stretch3. cbn [vx vy vz]. now rewrite !stretch_back.
    - rewrite st_st by (apply Rdiv_lt_0_compat; auto using Rinv_0_lt_compat). rewrite (st_same _ 1) by (field; lra). apply st_1.
  Qed.

  Lemma shift_hit b x y : shift k b x = XFin (k * y + b) -> x = XFin y.
  Proof. destruct x as [|[]|x]; cbn; try discriminate. intros [= H]. f_equal. nra. Qed.
  Lemma stretch_inj c x y : 0 < c -> stretch c x = stretch c y -> x = y.
  Proof. intros Hc. destruct x as [|[]|x], y as [|[]|y]; cbn; try discriminate; auto. intros [= H]. f_equal. nra. Qed.
End To.

Section Any.
  Context {T : Type}.
  Variables (k : R) (a : rv) (bod : T -> solid) (ts : list T).
  Hypothesis Hk : 0 < k.
  Hypothesis Ha : a = v0 \/ forall t, In t ts -> is_round (bod t).
  Hypothesis Pl : forall t, In t ts -> placed (bod t).
  Let sh (t : T) : shape XR T := solid_shape (bod t).
  Let sh' (t : T) : shape XR T := solid_shape (moved k a (bod t)).

  (** clear rays stay clear *)
  Lemma clear_to l r : 0 < l -> clear_ray sh ts r -> clear_ray sh' ts (ray_to k l a r).
  Proof.
    intros Hl (o & d & tm & -> & Hd & Hn & Hf & Ht). exists (move k a o), (vscale l d), (stretch (k / l) tm).
    unfold ray_to at 1. cbn [r_o r_d r_tmax]. rewrite shift_fin, stretch_fin. split; [reflexivity|].
    split. { intros H. apply Hd. destruct d as [x y z]. unfold vscale, v0 in H. cbn [vx vy vz] in H. injection H as H1 H2 H3. unfold v0. f_equal; nra. }
    split; [destruct tm; auto|]. split.
    - intros ax s Hx Hs. assert (Hx' : v3get d ax = 0) by (destruct ax; unfold vscale in Hx; cbn in Hx |- *; nra). destruct (Hf ax s Hx' Hs) as [N1 N2].
      unfold sh'. rewrite (solid_box_to k a bod ts Hk Ha s Hs).
      unfold box_to. cbn [bmin bmax]. split; intros E; [apply N1|apply N2]; unfold sh; destruct ax; unfold move, vadd, vscale in E; cbn in E |- *; exact (shift_hit k Hk _ _ _ E).
    - intros s s' i i' t Hs Hs' E E'. pose proof (solid_to k a bod ts Hk Ha l s (mkRay (fin3 o) (fin3 d) tm) Hl Hs) as M.
      pose proof (solid_to k a bod ts Hk Ha l s' (mkRay (fin3 o) (fin3 d) tm) Hl Hs') as M'.
      cbv beta in M, M'. unfold sh' in E, E'. rewrite E in M. rewrite E' in M'.
      destruct (sh_intersect (solid_shape (bod s)) _) as [[[i0 t0]|]| |] eqn:E0 in M; cbn [res_matches hit_matches] in M; try contradiction.
      destruct (sh_intersect (solid_shape (bod s')) _) as [[[i1 t1]|]| |] eqn:E1 in M'; cbn [res_matches hit_matches] in M'; try contradiction.
      destruct M as [_ M], M' as [_ M']. rewrite M in M'. apply stretch_inj in M'; [|now apply Rdiv_lt_0_compat]. subst t1.
      eapply Ht; eauto.
  Qed.

  (** the containers of the moved shapes give the moved answers *)
  Lemma answers_to m m' c c' l r : 0 < l -> ts <> [] -> (Z.of_nat (length ts) <= usize_max)%Z ->
    container_of sh m ts c -> container_of sh' m' ts c' -> clear_ray sh ts r ->
    (l = 1 -> res_matches (opt_matches k a 1) (c_intersect c r) (c_intersect c' (ray_to k l a r))) /\
    c_intersect_p c' (ray_to k l a r) = c_intersect_p c r.
  Proof.
    intros Hl Ne Ln C C' Cl. pose proof (clear_to l r Hl Cl) as Cl'.
    assert (W : forall s o d, In s ts -> d <> v0 -> well_behaved (sh s) o d) by (intros; apply placed_wb; auto).
    assert (W' : forall s o d, In s ts -> d <> v0 -> well_behaved (sh' s) o d) by (intros; apply placed_wb; auto; apply placed_moved; auto).
    destruct (C43_nearest T sh ts v0 (mkV3 1 0 0) (XInf false) Ne eq_refl) as (q & _ & _ & Eq & _).
    { intros s Hs. apply W; auto. intros H. apply (f_equal vx) in H. cbn in H. lra. }
    destruct (C43_nearest T sh' ts v0 (mkV3 1 0 0) (XInf false) Ne eq_refl) as (q' & _ & _ & Eq' & _).
    { intros s Hs. apply W'; auto. intros H. apply (f_equal vx) in H. cbn in H. lra. }
    pose proof (simple_to k a bod ts Hk Ha) as S. fold sh sh' in S. rewrite Eq, Eq' in S. destruct S as (Sb & S).
    destruct (C109_agree T sh m Debug ts c (simple_container sh q) r C ltac:(constructor; auto) Ne Ln W Cl) as (x & b & E1 & E2 & E3 & E4).
    destruct (C109_agree T sh' m' Debug ts c' (simple_container sh' q') _ C' ltac:(constructor; auto) Ne Ln W' Cl') as (x' & b' & E1' & E2' & E3' & E4').
    cbn [simple_container c_intersect c_intersect_p] in E2, E4, E2', E4'. split.
    - intros ->. rewrite E1, E1', <- E2, <- E2'. apply S.
    - rewrite E3, E3', <- E4, <- E4'. unfold simple_intersect_p. rewrite Sb, box_hit_to by (auto; lra).
      destruct (bbox_intersect (si_bbox q) r) as [[]|]; [|reflexivity].
      assert (Es : si_shapes q = ts /\ si_shapes q' = ts).
      { clear - Eq Eq'. unfold simple_new in Eq, Eq'. destruct (bbox_of_shapes sh ts); try discriminate. destruct (bbox_of_shapes sh' ts); try discriminate.
        cbn [rbind] in *. injection Eq as <-. injection Eq' as <-. auto. }
      destruct Es as [-> ->]. apply (any_to k a bod ts Hk Ha l ts r Hl). intros z Hz; exact Hz.
  Qed.
End Any.

(** Exact arithmetic, surfaces that do not read places and lengths.  Balls and triangles [l] in a container [c] under
    distant lights [suns]; the same written down in another unit, balls also from another origin, in any container
    [c'] of the moved shapes.  A path that touches clear rays only has the same radiance in both scenes and uses the
    same random numbers. *)
Theorem C97_containers_partial : forall (T ST : Type) (sm : sampler_ops XR ST) (teq : T -> T -> bool) (surf : T -> surface XR T) (bod : T -> solid) (al al' : T -> area_light XR T)
    (l : list T) (suns : list (V3 XR * V3 XR)) (k : R) (a : rv) m m' c c' (ok : ray XR -> bool) sc sc',
  0 < k -> (a = v0 \/ forall t, In t l -> is_round (bod t)) -> (forall t, In t l -> placed (bod t)) -> (forall t, placeless (surf t)) ->
  l <> [] -> (Z.of_nat (length l) <= usize_max)%Z ->
  let sh t := solid_shape (bod t) in let sh' t := solid_shape (moved k a (bod t)) in
  container_of sh m l c -> container_of sh' m' l c' ->
  construct sh al (fun _ => Ok c) (far_scene suns l) = Ok sc -> construct sh' al' (fun _ => Ok c') (far_scene suns l) = Ok sc' ->
  (forall r, ok r = true -> clear_ray sh l r) ->
  forall fuel s o d x,
  li sm teq surf (with_container sc (watched ok c)) fuel s (mkRay o d finf) = Ok x ->
  li sm teq surf sc fuel s (mkRay o d finf) = Ok x /\
  li sm teq surf sc' fuel s (mkRay (shift3 k a o) d finf) = Ok x.
Proof.
  intros T ST sm teq surf bod al al' l suns k a m m' c c' ok sc sc' Hk Ha Pl Hs Ne Ln sh sh' C C' Es Es' Hok fuel s o d x E.
  unfold construct, scene_bbox, far_scene in Es, Es'. cbn [bd_shapes bd_areas bd_lights fold_left map] in Es, Es'.
  pose proof (boxes_to k a bod l Hk Ha) as B. fold sh sh' in B. rewrite B in Es'.
  destruct (bbox_of_shapes sh l) as [bb| |]; try (destruct l; [now elim Ne|discriminate]). assert (Nl : forall (A : Type) (u v : A), match l with [] => u | _ :: _ => v end = v) by (intros; destruct l; [now elim Ne|reflexivity]). rewrite Nl in Es, Es'. cbn [rbind] in Es, Es'. injection Es as <-. injection Es' as <-. rewrite !app_nil_r, !map_map in *.
  split.
  - revert E. apply below_li; [reflexivity|..]; intros r y; unfold scene_intersect, scene_intersect_p, with_container, watched; cbn [sc_shapes c_intersect c_intersect_p];
      destruct (ok r); try discriminate; auto.
  - set (w := mkCont (c_bbox c') (fun r => if ok (ray_back k a k r) then c_intersect_p c' r else Panic) (fun r => if ok (ray_back k a 1 r) then c_intersect c' r else Panic)).
    assert (E' : li sm teq surf (mkScene (map (fun q => far_light q (box_to k a bb)) suns) w) fuel s (mkRay (shift3 k a o) d finf) = Ok x).
    { assert (R : mkRay (shift3 k a o) d finf = ray_to k 1 a (mkRay o d finf)) by (unfold ray_to; cbn [r_o r_d r_tmax]; rewrite st3_1; reflexivity).
      rewrite R, <- E. unfold li. apply (loop_to sm teq surf k a Hk Hs _ _ suns bb); try reflexivity.
      - intros r. cbn [with_container watched sc_shapes c_intersect w]. rewrite back_to by lra. destruct (ok r) eqn:Er; [|exact I].
        apply (answers_to k a bod l Hk Ha Pl m m' c c' 1 r); auto; lra.
      - intros r. cbn [with_container watched sc_shapes c_intersect_p w]. rewrite back_to by lra. destruct (ok r) eqn:Er; [|reflexivity].
        apply (answers_to k a bod l Hk Ha Pl m m' c c' k r); auto. }
    revert E'. apply below_li; [reflexivity|..]; intros r y; unfold scene_intersect, scene_intersect_p, w; cbn [sc_shapes c_intersect c_intersect_p];
      destruct (ok _); try discriminate; auto.
Qed.
Print Assumptions C97_containers_partial.

(** Whole pictures, by one thread and by any number of threads in any interleaving; the second camera sends out the
    moved rays. *)
Theorem C97_picture_partial : forall (T ST : Type) (sm : sampler_ops XR ST) (teq : T -> T -> bool) (surf : T -> surface XR T) (bod : T -> solid) (al al' : T -> area_light XR T)
    (l : list T) (suns : list (V3 XR * V3 XR)) (k : R) (a : rv) m m' c c' (ok : ray XR -> bool) sc sc' mb gen gen' bounces fuel,
  0 < k -> (a = v0 \/ forall t, In t l -> is_round (bod t)) -> (forall t, In t l -> placed (bod t)) -> (forall t, placeless (surf t)) ->
  l <> [] -> (Z.of_nat (length l) <= usize_max)%Z ->
  let sh t := solid_shape (bod t) in let sh' t := solid_shape (moved k a (bod t)) in
  container_of sh m l c -> container_of sh' m' l c' ->
  construct sh al (fun _ => Ok c) (far_scene suns l) = Ok sc -> construct sh' al' (fun _ => Ok c') (far_scene suns l) = Ok sc' ->
  (forall r, ok r = true -> clear_ray sh l r) ->
  (forall p r, gen p = Ok r -> r_tmax r = finf /\ gen' p = Ok (mkRay (shift3 k a (r_o r)) (r_d r) finf)) ->
  let sh0 := shade sm teq surf (with_container sc (watched ok c)) gen bounces in
  let sh1 := shade sm teq surf sc gen bounces in
  let sh2 := shade sm teq surf sc' gen' bounces in
  (forall fm s x, render_seq mb sm sh0 fuel fm s = Ok x ->
     render_seq mb sm sh1 fuel fm s = Ok x /\ render_seq mb sm sh2 fuel fm s = Ok x) /\
  (forall n y y', steps mb sm sh0 fuel n y y' -> steps mb sm sh1 fuel n y y' /\ steps mb sm sh2 fuel n y y').
Proof.
  intros T ST sm teq surf bod al al' l suns k a m m' c c' ok sc sc' mb gen gen' bounces fuel Hk Ha Pl Hs Ne Ln sh sh' C C' Es Es' Hok Hg sh0 sh1 sh2.
  assert (G : forall s p x, sh0 s p = Ok x -> sh1 s p = Ok x /\ sh2 s p = Ok x).
  { intros s p x. unfold sh0, sh1, sh2, shade. destruct (gen p) as [[o d tm]| |] eqn:Eg; cbn [rbind]; try discriminate.
    destruct (Hg p _ Eg) as (Et & ->). cbn [r_tmax] in Et. subst tm. cbn [rbind r_o r_d].
    apply (C97_containers_partial T ST sm teq surf bod al al' l suns k a m m' c c' ok sc sc'); auto. }
  split.
  - intros fm s x E. split; eapply below_seq; try exact E; intros s' p y Ey; now apply G.
  - intros n y y' S. split; eapply below_steps; try exact S; intros s' p z Ez; now apply G.
Qed.
Print Assumptions C97_picture_partial.

(** The two glowing balls of C109 one behind the other; measured in thousandths and from another origin, and stored in a
    k-d tree, they show the same light. *)
Definition ex_solid (s : bool) : solid := Round (mkSphere (fin3 (if s then v0 else mkV3 0 0 3)) (XFin 1)).
Definition ex_far : rv := mkV3 70 (-30) 11.
Example C97_containers_example : exists c t,
  let sh s := solid_shape (T := bool) (ex_solid s) in let sh' s := solid_shape (T := bool) (moved 1000 ex_far (ex_solid s)) in
  let surf s := ex_glowing (if s : bool then mkV3 1 2 3 else mkV3 9 9 9) in
  simple_new sh [true; false] = Ok c /\ kd_new sh' (fun l => Ok (isort edge_cmp l)) Debug [true; false] None = Ok t /\
  (forall s, placeless (surf s)) /\ (forall r, ex_ok r = true -> clear_ray sh [true; false] r) /\
  li ex_sampler Bool.eqb surf (mkScene [] (kd_container sh' t)) 1 tt (mkRay (fin3 (mkV3 70 (-30) (-4989))) (fin3 (mkV3 0 0 1)) finf) = Ok (fin3 (mkV3 1 2 3), tt).
Proof.
  destruct ex_light as (c & k & Ec & Ek & El).
  assert (Pl : forall s, placed (ex_solid s)) by (intros s; eexists _, 1; split; [reflexivity|lra]).
  assert (D : mkV3 1 1 1 <> v0) by (intros H; apply (f_equal vx) in H; cbn in H; lra).
  destruct (C46_nearest_partial bool (fun s => solid_shape (moved 1000 ex_far (ex_solid s))) (fun l => Ok (isort edge_cmp l)) Debug [true; false] None v0 (mkV3 1 1 1) (XInf false) (isort_ok edge_cmp))
    as (t & a' & Et & _); [discriminate|cbn; unfold usize_max; lia|exact D|reflexivity| | |].
  { intros s _. apply placed_wb; auto. apply placed_moved; auto; lra. }
  { intros x s Hx. exfalso. destruct x; cbn in Hx; lra. }
  exists c, t. cbv zeta. split; [exact Ec|]. split; [exact Et|].
  assert (Ps : forall s : bool, placeless (ex_glowing (if s then mkV3 1 2 3 else mkV3 9 9 9))) by (intros s i j _; split; reflexivity).
  split; [exact Ps|]. split; [exact ex_clear|].
  pose proof (C97_containers_partial bool unit ex_sampler Bool.eqb (fun s => ex_glowing (if s then mkV3 1 2 3 else mkV3 9 9 9)) ex_solid
    (fun s => mkArea (v3zero) (solid_shape (ex_solid s))) (fun s => mkArea (v3zero) (solid_shape (ex_solid s)))
    [true; false] [] 1000 ex_far Debug Debug (simple_container ex_ball c) (kd_container (fun s => solid_shape (moved 1000 ex_far (ex_solid s))) t) ex_ok
    (mkScene [] (simple_container ex_ball c)) (mkScene [] (kd_container (fun s => solid_shape (moved 1000 ex_far (ex_solid s))) t))) as H.
  specialize (H ltac:(lra) (or_intror (fun s _ => I)) (fun s _ => Pl s) Ps ltac:(discriminate) ltac:(cbn; unfold usize_max; lia)). cbv zeta in H.
  specialize (H ltac:(constructor; exact Ec) ltac:(eapply of_kd; [apply isort_ok|exact Et]) eq_refl eq_refl ex_clear 1%nat tt (fin3 (mkV3 0 0 (-5))) (fin3 (mkV3 0 0 1)) _ El).
  destruct H as [_ H]. rewrite <- H. f_equal. f_equal. rewrite shift_fin. f_equal. unfold move, ex_far, vadd, vscale. cbn. f_equal; ring.
Qed.
