(** * Transforms over exact arithmetic *)
From Coq Require Import ZArith Reals Bool List Lra Lia.
From Flocq Require Import Core.Raux.
From Verif Require Import Model.Num Model.NumX Model.Vector Model.Matrix Model.Transform
  Model.Interaction Model.BBox Proofs.XBase Proofs.RVecProofs Spec.RVec Spec.MatSpec Proofs.MatProofs
  Spec.TransformSpec.
Import ListNotations.
Local Open Scope R_scope.

Lemma Ok_inj' {A} (a b : A) : Ok a = Ok b -> a = b.
Proof. now intros [=]. Qed.

(** ** Finite results come from finite arguments *)
Lemma xmul_is_fin a b : is_fin (xmul a b) -> is_fin a /\ is_fin b.
Proof.
  intros [r H]. destruct a as [|s|x], b as [|t|y]; cbn [xmul] in H; try discriminate;
    try (destruct (Req_bool _ _); discriminate).
  split; eexists; reflexivity.
Qed.
Lemma xadd_is_fin a b : is_fin (xadd a b) -> is_fin a /\ is_fin b.
Proof.
  intros [r H]. destruct a as [|s|x], b as [|t|y]; cbn [xadd] in H; try discriminate;
    try (destruct (Bool.eqb _ _); discriminate).
  split; eexists; reflexivity.
Qed.
Lemma xneg_is_fin a : is_fin (xneg a) -> is_fin a.
Proof. intros [r H]. destruct a; try discriminate. eexists; reflexivity. Qed.
Lemma xsub_is_fin a b : is_fin (xsub a b) -> is_fin a /\ is_fin b.
Proof.
  intros [r H]. destruct a as [|s|x], b as [|t|y]; cbn [xsub xadd xneg] in H; try discriminate;
    try (destruct (Bool.eqb _ _); discriminate).
  split; eexists; reflexivity.
Qed.

Lemma mat_mul_is_fin a b : fin_mat (mat_mul a b) -> fin_mat a /\ fin_mat b.
Proof.
  unfold fin_mat, entries, mat_mul. mproj. xsimp. rewrite !Forall_cons_iff. intros H.
  repeat match goal with H : _ /\ _ |- _ => destruct H end.
  repeat match goal with H : is_fin (xadd _ _) |- _ => apply xadd_is_fin in H; destruct H end.
  repeat match goal with H : is_fin (xmul _ _) |- _ => apply xmul_is_fin in H; destruct H end.
  repeat split; auto.
Qed.

Lemma mat_inverse_is_fin b a i :
  mat_inverse b (finm a) = Ok i -> fin_mat i -> rdet a <> 0 /\ i = finm (rinv a).
Proof.
  intros H Hf. destruct (Req_EM_T (rdet a) 0) as [E|E].
  - exfalso. unfold mat_inverse in H. rewrite mat_det_fin, E in H. unfold f0 in H. xsimpin H.
    cbn [xeq] in H. rewrite Req_bool_true in H by auto.
    destruct b; [discriminate|]. injection H as <-.
    apply Forall_inv in Hf. unfold mat_divs in Hf. revert Hf. mproj. xsimp.
    rewrite mat_adj_fin. unfold finm. mproj. cbn [xdiv]. rewrite Req_bool_true by auto.
    intros [r Hr]. destruct (Req_bool _ _); discriminate.
  - rewrite mat_inverse_fin in H by auto. injection H as <-. auto.
Qed.

Lemma good_iff t M N : good t M N <-> t = mkT (finm M) (finm N) /\ rmul M N = rid /\ rmul N M = rid.
Proof. unfold good, two_sided_inverse. rewrite !is_id_prod_rmul. tauto. Qed.

Lemma fin_pair t : fin_mat (t_m t) -> fin_mat (t_inv t) ->
  t = mkT (finm (unfinm (t_m t))) (finm (unfinm (t_inv t))).
Proof. rewrite !fin_mat_iff. destruct t; simpl. intros <- <-. reflexivity. Qed.

Lemma good_mul s t M N M' N' : good s M N -> good t M' N' ->
  good (t_mul s t) (rmul M M') (rmul N' N).
Proof.
  rewrite !good_iff. intros (-> & A & B) (-> & C & D). unfold t_mul; cbn [t_m t_inv].
  rewrite !mat_mul_fin. repeat split.
  - rewrite <- rmul_assoc, (rmul_assoc M'), C, rmul_id_l. auto.
  - rewrite <- rmul_assoc, (rmul_assoc N), B, rmul_id_l. auto.
Qed.

Lemma good_inv t M N : good t M N -> good (t_inverse t) N M.
Proof. rewrite !good_iff. intros (-> & A & B). repeat split; auto. Qed.

Lemma good_from b m t : t_from b m = Ok t -> fin_mat m -> fin_mat (t_inv t) ->
  exists M N, good t M N.
Proof.
  unfold t_from. intros H Hf. apply fin_mat_iff in Hf.
  destruct (mat_inverse b m) as [i| |] eqn:E; try discriminate. cbn [rbind] in H.
  injection H as <-. cbn [t_inv]. rewrite Hf in E. intros Hi.
  destruct (mat_inverse_is_fin _ _ _ E Hi) as [Hd ->].
  exists (unfinm m), (rinv (unfinm m)). apply good_iff. rewrite <- Hf.
  repeat split; auto using rinv_l, rinv_r.
Qed.

Lemma good_from_wf b a : det 4 (ent a) <> 0 -> exists t N, t_from b (finm a) = Ok t /\ good t a N.
Proof.
  intros H. unfold t_from. rewrite mat_inverse_fin by auto. cbn [rbind].
  exists (mkT (finm a) (finm (rinv a))), (rinv a). split; auto. apply good_iff.
  repeat split; auto using rinv_l, rinv_r.
Qed.

Lemma good_translate x y z :
  good (t_translate (XFin x) (XFin y) (XFin z))
    (mkMat 1 0 0 x 0 1 0 y 0 0 1 z 0 0 0 1) (mkMat 1 0 0 (-x) 0 1 0 (-y) 0 0 1 (-z) 0 0 0 1).
Proof.
  apply good_iff. split; [reflexivity|]. split; apply mat_eq; unfold rid; matring; ring.
Qed.

Lemma good_scale x y z : x <> 0 -> y <> 0 -> z <> 0 ->
  good (t_scale (XFin x) (XFin y) (XFin z))
    (mkMat x 0 0 0 0 y 0 0 0 0 z 0 0 0 0 1) (mkMat (/x) 0 0 0 0 (/y) 0 0 0 0 (/z) 0 0 0 0 1).
Proof.
  intros. apply good_iff. split.
  - unfold t_scale, f1. xsimp. rewrite !xdiv_fin by auto. unfold Rdiv. rewrite !Rmult_1_l. reflexivity.
  - split; apply mat_eq; unfold rid; matring; field; auto.
Qed.

Definition rad (deg : R) : R := deg * (PI / 180).

Lemma to_radians_fin x : fto_radians (XFin x) = XFin (rad x).
Proof. unfold fto_radians. xsimp. rewrite xdiv_fin by lra. reflexivity. Qed.

Lemma sc1 x : sin x * sin x + cos x * cos x = 1.
Proof. exact (sin2_cos2 x). Qed.

Lemma good_rotate_x x :
  good (t_rotate_x (XFin x))
    (mkMat 1 0 0 0 0 (cos (rad x)) (- sin (rad x)) 0 0 (sin (rad x)) (cos (rad x)) 0 0 0 0 1)
    (mkMat 1 0 0 0 0 (cos (rad x)) (sin (rad x)) 0 0 (- sin (rad x)) (cos (rad x)) 0 0 0 0 1).
Proof.
  apply good_iff. unfold t_rotate_x, sin_cos_in_degree. rewrite to_radians_fin.
  pose proof (sc1 (rad x)). split; [reflexivity|].
  split; apply mat_eq; unfold rid; matring; try ring; rewrite <- (sc1 (rad x)); ring.
Qed.
Lemma good_rotate_y x :
  good (t_rotate_y (XFin x))
    (mkMat (cos (rad x)) 0 (sin (rad x)) 0 0 1 0 0 (- sin (rad x)) 0 (cos (rad x)) 0 0 0 0 1)
    (mkMat (cos (rad x)) 0 (- sin (rad x)) 0 0 1 0 0 (sin (rad x)) 0 (cos (rad x)) 0 0 0 0 1).
Proof.
  apply good_iff. unfold t_rotate_y, sin_cos_in_degree. rewrite to_radians_fin.
  split; [reflexivity|].
  split; apply mat_eq; unfold rid; matring; try ring; rewrite <- (sc1 (rad x)); ring.
Qed.
Lemma good_rotate_z x :
  good (t_rotate_z (XFin x))
    (mkMat (cos (rad x)) (- sin (rad x)) 0 0 (sin (rad x)) (cos (rad x)) 0 0 0 0 1 0 0 0 0 1)
    (mkMat (cos (rad x)) (sin (rad x)) 0 0 (- sin (rad x)) (cos (rad x)) 0 0 0 0 1 0 0 0 0 1).
Proof.
  apply good_iff. unfold t_rotate_z, sin_cos_in_degree. rewrite to_radians_fin.
  split; [reflexivity|].
  split; apply mat_eq; unfold rid; matring; try ring; rewrite <- (sc1 (rad x)); ring.
Qed.

(** ** Every finite transform carries its inverse *)
Lemma scale_nonzero x : is_fin (xdiv (XFin 1) (XFin x)) -> x <> 0.
Proof.
  intros [r H] ->. cbn [xdiv] in H. rewrite Req_bool_true in H by auto. rewrite Req_bool_false in H by lra. discriminate.
Qed.

Lemma rot_fin a : is_fin (fcos (fto_radians a)) -> is_fin a.
Proof.
  unfold fto_radians. xsimp. rewrite xdiv_fin by lra. intros [r H]. destruct a as [|s|x]; cbn [xmul] in H.
  - discriminate.
  - destruct (Req_bool _ _); discriminate.
  - eexists; reflexivity.
Qed.

Lemma teval_good b e : forall t, teval b e = Ok t -> fin_mat (t_m t) -> fin_mat (t_inv t) ->
  exists M N, good t M N.
Proof.
  induction e; intros t H Hm Hi; cbn [teval] in H.
  - apply Ok_inj' in H; subst t. cbn [t_m t_translate] in Hm. unfold fin_mat, entries in Hm.
    revert Hm. mproj. rewrite !Forall_cons_iff. intros Hm.
    repeat match goal with H : _ /\ _ |- _ => destruct H end.
    repeat match goal with H : is_fin ?a |- _ => is_var a; destruct H; subst end.
    eexists _, _. apply good_translate.
  - apply Ok_inj' in H; subst t.
    assert (F : (is_fin x /\ is_fin y /\ is_fin z) /\
                is_fin (xdiv (XFin 1) x) /\ is_fin (xdiv (XFin 1) y) /\ is_fin (xdiv (XFin 1) z)).
    { unfold fin_mat, entries in Hm, Hi. rewrite !Forall_cons_iff in Hm, Hi. split; tauto. }
    destruct F as (([x' ->] & [y' ->] & [z' ->]) & A & B & C).
    eexists _, _. apply good_scale; apply scale_nonzero; auto.
  - apply Ok_inj' in H; subst t. assert (F : is_fin deg).
    { apply rot_fin. unfold fin_mat, entries in Hm. rewrite !Forall_cons_iff in Hm. tauto. }
    destruct F as [x ->]. eexists _, _. apply good_rotate_x.
  - apply Ok_inj' in H; subst t. assert (F : is_fin deg).
    { apply rot_fin. unfold fin_mat, entries in Hm. rewrite !Forall_cons_iff in Hm. tauto. }
    destruct F as [x ->]. eexists _, _. apply good_rotate_y.
  - apply Ok_inj' in H; subst t. assert (F : is_fin deg).
    { apply rot_fin. unfold fin_mat, entries in Hm. rewrite !Forall_cons_iff in Hm. tauto. }
    destruct F as [x ->]. eexists _, _. apply good_rotate_z.
  - unfold t_perspective in H.
    set (p := mkMat _ _ _ _ _ _ _ _ _ _ _ _ _ _ _ _) in H.
    destruct (t_from b p) as [tp| |] eqn:E; try discriminate. cbn [rbind] in H. apply Ok_inj' in H; subst t.
    unfold t_mul in Hm, Hi; cbn [t_m t_inv] in Hm, Hi.
    apply mat_mul_is_fin in Hm. apply mat_mul_is_fin in Hi. destruct Hm as [Hm1 Hm2], Hi as [Hi1 Hi2].
    set (k := (f1 / ftan _)%f) in *.
    assert (Fk : is_fin k).
    { unfold t_scale in Hm1. cbn [t_m] in Hm1. apply Forall_inv in Hm1. exact Hm1. }
    destruct Fk as [x Ek]. rewrite Ek in *.
    assert (x <> 0).
    { apply scale_nonzero. unfold t_scale in Hi2. cbn [t_inv] in Hi2. apply Forall_inv in Hi2. exact Hi2. }
    assert (t_m tp = p).
    { unfold t_from in E. destruct (mat_inverse b p); try discriminate. cbn [rbind] in E. apply Ok_inj' in E; rewrite <- E. reflexivity. }
    rewrite H0 in Hm2.
    destruct (good_from _ _ _ E Hm2 Hi1) as (M & N & G).
    eexists _, _. apply good_mul; [|exact G]. apply good_scale; auto.
  - unfold t_look_at in H.
    set (p := mkMat _ _ _ _ _ _ _ _ _ _ _ _ _ _ _ _) in H.
    assert (E : t_from b p = Ok t) by exact H.
    assert (t_m t = p).
    { unfold t_from in E. destruct (mat_inverse b p); try discriminate. cbn [rbind] in E. apply Ok_inj' in E; rewrite <- E. reflexivity. }
    rewrite H0 in Hm. apply (good_from _ _ _ E); auto.
  - assert (t_m t = m).
    { unfold t_from in H. destruct (mat_inverse b m); try discriminate. cbn [rbind] in H. apply Ok_inj' in H; rewrite <- H. reflexivity. }
    rewrite H0 in Hm. apply (good_from _ _ _ H); auto.
  - destruct (teval b e) as [t'| |]; try discriminate. cbn [rbind] in H. apply Ok_inj' in H; subst t.
    destruct (IHe t' eq_refl Hi Hm) as (M & N & G). eexists _, _. apply good_inv, G.
  - destruct (teval b e1) as [t1| |]; try discriminate. cbn [rbind] in H.
    destruct (teval b e2) as [t2| |]; try discriminate. cbn [rbind] in H. apply Ok_inj' in H; subst t.
    unfold t_mul in Hm, Hi; cbn [t_m t_inv] in Hm, Hi.
    apply mat_mul_is_fin in Hm. apply mat_mul_is_fin in Hi.
    destruct (IHe1 t1 eq_refl) as (M & N & G); try tauto.
    destruct (IHe2 t2 eq_refl) as (M' & N' & G'); try tauto.
    eexists _, _. apply (good_mul _ _ _ _ _ _ G G').
Qed.

(** ** Sensible arguments give finite transforms *)
Lemma look_at_fin b p l u : l <> p -> vcross u (vsub l p) <> v0 ->
  exists d lf : rv,
    d = vunit (vsub l p) /\ lf = vunit (vcross u (vsub l p)) /\
    vdot d d = 1 /\ vdot lf lf = 1 /\ vdot lf d = 0 /\ vdot lf u = 0 /\
    let up := vcross d lf in
    let M := mkMat (vx lf) (vx up) (vx d) (vx p)
                   (vy lf) (vy up) (vy d) (vy p)
                   (vz lf) (vz up) (vz d) (vz p) 0 0 0 1 in
    exists t N, t_look_at b (fin3 p) (fin3 l) (fin3 u) = Ok t /\ good t M N.
Proof.
  intros Hlp Hc.
  assert (H1 : vsub l p <> v0).
  { intros E. apply Hlp. apply V3_eq; pose proof (f_equal vx E); pose proof (f_equal vy E);
      pose proof (f_equal vz E); unfold vsub, v0 in *; cbn [vx vy vz] in *; lra. }
  assert (H2 : u <> v0).
  { intros ->. apply Hc. vring. }
  set (d := vunit (vsub l p)). set (lf := vunit (vcross u (vsub l p))).
  assert (Nd : 0 < vnorm (vsub l p)) by now apply vnorm_pos.
  assert (Nu : 0 < vnorm u) by now apply vnorm_pos.
  assert (E1 : v3normalize (v3cross (v3normalize (fin3 u)) (fin3 d)) = fin3 lf).
  { rewrite v3normalize_fin, v3cross_fin by auto.
    assert (E : vcross (vunit u) d = vscale (/ vnorm u * / vnorm (vsub l p)) (vcross u (vsub l p))) by (unfold d, vunit; vring).
    assert (P : 0 < / vnorm u * / vnorm (vsub l p)) by (apply Rmult_lt_0_compat; now apply Rinv_0_lt_compat).
    set (k := / vnorm u * / vnorm (vsub l p)) in *.
    rewrite v3normalize_fin.
    - f_equal. rewrite E. unfold lf, vunit. rewrite vnorm_scale, Rabs_pos_eq by lra.
      pose proof (vnorm_pos _ Hc). unfold vscale; vproj. apply V3_eq; vproj; field; lra.
    - rewrite E. intros Z. apply Hc. apply V3_eq; pose proof (f_equal vx Z); pose proof (f_equal vy Z);
      pose proof (f_equal vz Z); unfold vscale, v0 in *; cbn [vx vy vz] in *; nra. }
  assert (Dd : vdot d d = 1) by (apply vunit_dot; auto).
  assert (Dl : vdot lf lf = 1) by (apply vunit_dot; auto).
  assert (Dld : vdot lf d = 0).
  { unfold lf, d, vunit. rewrite vdot_scale_l, vdot_scale_r, (vdot_comm _ (vsub l p)), vdot_cross_r. ring. }
  assert (Dlu : vdot lf u = 0).
  { unfold lf, vunit. rewrite vdot_scale_l, (vdot_comm _ u), vdot_cross_l. ring. }
  exists d, lf. do 6 (split; [solve [reflexivity | assumption]|]).
  cbv zeta. set (up := vcross d lf).
  set (M := mkMat (vx lf) (vx up) (vx d) (vx p) (vy lf) (vy up) (vy d) (vy p)
                  (vz lf) (vz up) (vz d) (vz p) 0 0 0 1).
  assert (Hd : det 4 (ent M) <> 0).
  { assert (E : det 4 (ent M) = vdot lf lf * vdot d d - vdot lf d * vdot lf d).
    { unfold M, up, vcross, vdot.
      cbn [det sumn ent Nat.ltb Nat.leb pow m00 m01 m02 m03 m10 m11 m12 m13 m20 m21 m22 m23 m30 m31 m32 m33 vx vy vz]. ring. }
    rewrite E, Dd, Dl, Dld. lra. }
  destruct (good_from_wf b M Hd) as (t & N & E & G). exists t, N. split; auto.
  unfold t_look_at. rewrite v3sub_fin, (v3normalize_fin (vsub l p)) by auto. fold d.
  rewrite E1. rewrite v3cross_fin. fold up. exact E.
Qed.

Lemma perspective_fin b a n f : 0 < a < 180 -> n <> 0 -> f <> 0 -> n <> f ->
  exists t M N, t_perspective b (XFin a) (XFin n) (XFin f) = Ok t /\ good t M N /\
    let c := / tan (rad a / 2) in
    0 < tan (rad a / 2) /\
    M = mkMat c 0 0 0 0 c 0 0 0 0 (f / (f - n)) (- f * n / (f - n)) 0 0 1 0.
Proof.
  intros Ha Hn Hf Hnf. pose proof PI_RGT_0.
  assert (T : 0 < tan (rad a / 2)).
  { apply tan_gt_0; unfold rad; try nra.  }
  unfold t_perspective. rewrite to_radians_fin. unfold f1, f2, f0. xsimp.
  rewrite xdiv_fin by lra. cbn [xlift]. rewrite xdiv_fin by lra. cbn [xneg xmul xsub].
  rewrite !xdiv_fin by lra.
  set (P := mkMat 1 0 0 0 0 1 0 0 0 0 (f / (f - n)) (- f * n / (f - n)) 0 0 1 0).
  assert (Hd : det 4 (ent P) <> 0).
  { assert (E : det 4 (ent P) = f * n / (f - n)).
    { unfold P. cbn [det sumn ent Nat.ltb Nat.leb pow m00 m01 m02 m03 m10 m11 m12 m13 m20 m21 m22 m23 m30 m31 m32 m33]. field. lra. }
    rewrite E. unfold Rdiv. apply Rmult_integral_contrapositive. split; [nra|]. apply Rinv_neq_0_compat. lra. }
  destruct (good_from_wf b P Hd) as (tp & N & E & G).
  change (t_from b _) with (t_from b (finm P)). rewrite E. cbn [rbind].
  set (c := 1 / tan (rad a / 2)).
  assert (Hc : c <> 0) by (unfold c, Rdiv; rewrite Rmult_1_l; apply Rinv_neq_0_compat; lra).
  pose proof (good_scale c c 1 Hc Hc ltac:(lra)) as Gs.
  eexists _, _, _. split; [reflexivity|]. split; [apply (good_mul _ _ _ _ _ _ Gs G)|].
  cbv zeta. split; auto. unfold c, P. apply mat_eq; matring; field; lra.
Qed.

Lemma teval_wf b e : wf e -> exists t M N, teval b e = Ok t /\ good t M N.
Proof.
  induction e; cbn [wf teval].
  - intros (x' & y' & z' & -> & -> & ->). eexists _, _, _. split; eauto. apply good_translate.
  - intros (x' & y' & z' & -> & -> & -> & ? & ? & ?). eexists _, _, _. split; eauto. apply good_scale; auto.
  - intros (x & ->). eexists _, _, _. split; eauto. apply good_rotate_x.
  - intros (x & ->). eexists _, _, _. split; eauto. apply good_rotate_y.
  - intros (x & ->). eexists _, _, _. split; eauto. apply good_rotate_z.
  - intros (x & y & z & -> & -> & -> & ? & ? & ? & ?).
    destruct (perspective_fin b x y z) as (t & M & N & E & G & _); auto. eauto.
  - intros (x & y & z & -> & -> & -> & ? & ?).
    destruct (look_at_fin b x y z) as (d & lf & _ & _ & _ & _ & _ & _ & t & N & E & G); auto. eauto 6.
  - intros (a & -> & H). destruct (good_from_wf b a H) as (t & N & E & G). eauto 6.
  - intros H. destruct (IHe H) as (t & M & N & E & G). rewrite E. cbn [rbind].
    eexists _, _, _. split; eauto using good_inv.
  - intros [H1 H2]. destruct (IHe1 H1) as (t & M & N & E & G). rewrite E. cbn [rbind].
    destruct (IHe2 H2) as (t' & M' & N' & E' & G'). rewrite E'. cbn [rbind].
    eexists _, _, _. split; eauto using good_mul.
Qed.

(** ** Affine maps *)
Lemma affine_inv M N : rmul M N = rid -> affine M -> affine N.
Proof.
  intros H (A & B & C & D). pose proof (f_equal m30 H). pose proof (f_equal m31 H).
  pose proof (f_equal m32 H). pose proof (f_equal m33 H).
  revert H0 H1 H2 H3. unfold rid. matring. rewrite A, B, C, D. intros.
  unfold affine. repeat split; lra.
Qed.

Lemma good_inj t M N M' N' : good t M N -> good t M' N' -> M = M' /\ N = N'.
Proof.
  intros [-> _] [E _].
  split; apply finm_inj; [exact (f_equal t_m E)|exact (f_equal t_inv E)].
Qed.

Lemma affine_expr_affine b e t M N :
  affine_expr e -> teval b e = Ok t -> good t M N -> affine M.
Proof.
  revert t M N. induction e; intros t M N A E G; cbn [affine_expr teval] in *; try tauto.
  all: try (apply Ok_inj' in E; subst t; destruct G as [G _];
    match type of G with ?t = _ => idtac end;
    pose proof (f_equal (fun t => m30 (t_m t)) G) as E0; pose proof (f_equal (fun t => m31 (t_m t)) G) as E1;
    pose proof (f_equal (fun t => m32 (t_m t)) G) as E2; pose proof (f_equal (fun t => m33 (t_m t)) G) as E3;
    cbn in E0, E1, E2, E3; injection E0; injection E1; injection E2; injection E3; intros;
    repeat split; congruence).
  - unfold t_look_at in E.
    set (p := mkMat _ _ _ _ _ _ _ _ _ _ _ _ _ _ _ _) in E.
    destruct (mat_inverse b p); try discriminate. cbn [rbind] in E. apply Ok_inj' in E.
    destruct G as [G _]. rewrite <- E in G. apply (f_equal t_m) in G. cbn [t_m] in G.
    assert (E0 : m30 p = XFin (m30 M)) by now rewrite G.
    assert (E1 : m31 p = XFin (m31 M)) by now rewrite G.
    assert (E2 : m32 p = XFin (m32 M)) by now rewrite G.
    assert (E3 : m33 p = XFin (m33 M)) by now rewrite G.
    unfold p, f0, f1 in E0, E1, E2, E3. cbn in E0, E1, E2, E3.
    injection E0; injection E1; injection E2; injection E3; intros. repeat split; congruence.
  - unfold t_from in E. destruct (mat_inverse b m); try discriminate. cbn [rbind] in E.
    apply Ok_inj' in E. destruct G as [G _]. rewrite <- E in G. apply (f_equal t_m) in G. cbn [t_m] in G.
    rewrite G in A. destruct A as (A0 & A1 & A2 & A3). cbn [finm m30 m31 m32 m33] in *.
    injection A0; injection A1; injection A2; injection A3; intros. repeat split; congruence.
  - destruct (teval b e) as [t'| |]; try discriminate. cbn [rbind] in E. apply Ok_inj' in E. subst t.
    assert (G' : good t' N M).
    { destruct t' as [ma mb]. apply good_iff in G. apply good_iff. unfold t_inverse in G. cbn [t_m t_inv] in G.
      destruct G as (G & ? & ?). split; auto.
      pose proof (f_equal t_m G) as G1; pose proof (f_equal t_inv G) as G2. cbn [t_m t_inv] in G1, G2.
      now rewrite G1, G2. }
    specialize (IHe _ _ _ A eq_refl G'). apply good_iff in G'. destruct G' as (_ & ? & ?).
    apply (affine_inv N); auto.
  - destruct A as [A1 A2].
    destruct (teval b e1) as [t1| |] eqn:T1; try discriminate. cbn [rbind] in E.
    destruct (teval b e2) as [t2| |] eqn:T2; try discriminate. cbn [rbind] in E.
    apply Ok_inj' in E. subst t.
    assert (F : fin_mat (mat_mul (t_m t1) (t_m t2)) /\ fin_mat (mat_mul (t_inv t2) (t_inv t1))).
    { destruct G as [G _]. 
      pose proof (f_equal t_m G) as G1; pose proof (f_equal t_inv G) as G2. unfold t_mul in G1, G2. cbn [t_m t_inv] in G1, G2.
      rewrite G1, G2. split; apply fin_mat_finm. }
    destruct F as [F1 F2]. apply mat_mul_is_fin in F1. apply mat_mul_is_fin in F2.
    destruct (teval_good b e1 _ T1) as (Ma & Na & Ga); try tauto.
    destruct (teval_good b e2 _ T2) as (Mb & Nb & Gb); try tauto.
    pose proof (IHe1 _ _ _ A1 eq_refl Ga) as (P0 & P1 & P2 & P3).
    pose proof (IHe2 _ _ _ A2 eq_refl Gb) as (Q0 & Q1 & Q2 & Q3).
    destruct (good_inj _ _ _ _ _ G (good_mul _ _ _ _ _ _ Ga Gb)) as [-> _].
    unfold affine. matring. rewrite P0, P1, P2, P3, Q0, Q1, Q2, Q3. repeat split; ring.
Qed.
