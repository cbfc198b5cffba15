(** * From the square to the hemisphere *)
From Coq Require Import Reals Lra Psatz.
From Coquelicot Require Import Rcomplements Hierarchy Continuity Derive RInt RInt_analysis AutoDerive.
From Verif Require Import Model.Vector Spec.RVec Spec.MeanSpec Spec.HemisphereSpec.
From Verif Require Import Proofs.XBase Proofs.RVecProofs Proofs.Calculus Proofs.DiskIntegral.
Local Open Scope R_scope.

Lemma integral_is f a b v : is_RInt f a b v -> integral f a b v.
Proof.
  intros H. assert (pr : Riemann_integrable f a b) by (apply ex_RInt_Reals_0; exists v; exact H). exists pr.
  rewrite <- RInt_Reals. now apply (is_RInt_unique (V := R_CompleteNormedModule)).
Qed.
Lemma integral_I f a b v : cont1 f -> I f a b = v -> integral f a b v.
Proof. intros F <-. now apply integral_is, I_is. Qed.
Lemma is_integral f a b v : integral f a b v -> is_RInt f a b v.
Proof. intros (pr & <-). apply ex_RInt_Reals_aux_1. Qed.

Lemma c1_sqrt : cont1 sqrt.
Proof.
  intros x. destruct (Rle_lt_dec 0 x) as [P|N]; [now apply continuity_pt_sqrt|]. apply continuity_pt_locally. intros eps.
  assert (Q : 0 < - x) by lra. exists (mkposreal _ Q). intros y Hy. change (Rabs (y - x) < - x) in Hy. apply Rabs_def2 in Hy.
  rewrite !sqrt_neg_0 by lra. rewrite Rminus_eq_0, Rabs_R0. apply cond_pos.
Qed.
Lemma c1_max c : cont1 (Rmax c).
Proof.
  apply (c1_ext (fun x => (c + x + Rabs (c - x)) * / 2)).
  - intros x. unfold Rmax. destruct (Rle_dec c x); [rewrite Rabs_left1 by lra|rewrite Rabs_pos_eq by lra]; field.
  - apply c1_mult; [|apply c1_const]. apply c1_plus; [c1s|]. apply (c1_comp Rabs); c1s.
Qed.

(** The disk is kept, what lies outside is drawn to its edge. *)
Definition reach (x y : R) : R := Rmax 1 (sqrt (x * x + y * y)).
Lemma reach_1 x y : 1 <= reach x y.
Proof. apply Rmax_l. Qed.
Lemma reach_in x y : x * x + y * y <= 1 -> reach x y = 1.
Proof. intros H. unfold reach. apply Rmax_left. rewrite <- sqrt_1. now apply sqrt_le_1_alt. Qed.
Lemma c2_x : cont2 (fun x _ => x). Proof. apply (c2_fst (fun x => x)), c1_id. Qed.
Lemma c2_y : cont2 (fun _ y => y). Proof. apply (c2_snd (fun y => y)), c1_id. Qed.
Lemma c2_reach : cont2 reach.
Proof.
  apply (c2_comp1 (Rmax 1)); [apply c1_max|]. apply (c2_comp1 sqrt); [apply c1_sqrt|].
  apply c2_plus; apply c2_mult; first [apply c2_x|apply c2_y].
Qed.
Lemma c2_drawn f : cont2 f -> cont2 (fun x y => f x y * / reach x y).
Proof.
  intros F x y. apply continuity_2d_pt_mult; [apply F|]. apply continuity_2d_pt_inv; [apply c2_reach|]. pose proof (reach_1 x y). lra.
Qed.
Definition dx (x y : R) : R := x * / reach x y.
Definition dy (x y : R) : R := y * / reach x y.
Definition dz (x y : R) : R := sqrt (1 - dx x y * dx x y - dy x y * dy x y).
Lemma c2_dx : cont2 dx. Proof. apply (c2_drawn (fun x _ => x)), c2_x. Qed.
Lemma c2_dy : cont2 dy. Proof. apply (c2_drawn (fun _ y => y)), c2_y. Qed.
Lemma c2_dz : cont2 dz.
Proof.
  apply (c2_comp1 sqrt); [apply c1_sqrt|]. apply c2_minus; [apply c2_minus; [apply c2_const|]|]; apply c2_mult; first [apply c2_dx|apply c2_dy].
Qed.
Lemma drawn_in x y : dx x y * dx x y + dy x y * dy x y <= 1.
Proof.
  unfold dx, dy. pose proof (reach_1 x y) as R1. assert (P : 0 <= x * x + y * y) by nra.
  assert (Q : x * x + y * y <= reach x y * reach x y).
  { rewrite <- (sqrt_sqrt (x * x + y * y)) by exact P. pose proof (sqrt_pos (x * x + y * y)). pose proof (Rmax_r 1 (sqrt (x * x + y * y))) as M.
    change (Rmax 1 (sqrt (x * x + y * y))) with (reach x y) in M. nra. }
  replace (x * / reach x y * (x * / reach x y) + y * / reach x y * (y * / reach x y)) with ((x * x + y * y) * / (reach x y * reach x y)) by (field; lra).
  apply Rmult_le_reg_r with (reach x y * reach x y); [nra|]. rewrite Rmult_assoc, Rinv_l by nra. lra.
Qed.

(** the direction over the point ([x], [y]) of the disk *)
Definition over (s t u : rv) (x y : R) : rv := vadd (vadd (vscale (dx x y) s) (vscale (dy x y) t)) (vscale (dz x y) u).
Lemma over_disk s t u x y : x * x + y * y <= 1 -> over s t u x y = vadd (vadd (vscale x s) (vscale y t)) (vscale (sqrt (1 - x * x - y * y)) u).
Proof. intros H. unfold over, dz, dx, dy. rewrite (reach_in x y H), Rinv_1, !Rmult_1_r. reflexivity. Qed.
Lemma combined_dot s t u a b c : vdot (vadd (vadd (vscale a s) (vscale b t)) (vscale c u)) (vadd (vadd (vscale a s) (vscale b t)) (vscale c u)) =
  a * a * vdot s s + b * b * vdot t t + c * c * vdot u u + 2 * (a * b * vdot s t + a * c * vdot s u + b * c * vdot t u).
Proof. unfold vdot, vadd, vscale. vproj. ring. Qed.
Lemma over_above s t u x y : orthonormal s t u -> above u (over s t u x y).
Proof.
  intros (S & T & U & ST & SU & TU). pose proof (drawn_in x y). unfold over.
  assert (Z : dz x y * dz x y = 1 - dx x y * dx x y - dy x y * dy x y) by (apply sqrt_sqrt; lra).
  split.
  - rewrite combined_dot, S, T, U, ST, SU, TU. lra.
  - assert (E : vdot (vadd (vadd (vscale (dx x y) s) (vscale (dy x y) t)) (vscale (dz x y) u)) u = dx x y * vdot s u + dy x y * vdot t u + dz x y * vdot u u)
      by (unfold vdot, vadd, vscale; vproj; ring).
    rewrite E, U, SU, TU. assert (0 <= dz x y) by apply sqrt_pos. lra.
Qed.
Lemma towards_over s t u theta phi : 0 <= theta <= PI / 2 -> over s t u (sin theta * cos phi) (sin theta * sin phi) = towards s t u theta phi.
Proof.
  intros H. pose proof (sin2_cos2 theta) as A. pose proof (sin2_cos2 phi) as B. unfold Rsqr in A, B.
  assert (E : sin theta * cos phi * (sin theta * cos phi) + sin theta * sin phi * (sin theta * sin phi) = sin theta * sin theta)
    by (transitivity (sin theta * sin theta * (sin phi * sin phi + cos phi * cos phi)); [ring|rewrite B; ring]).
  rewrite over_disk by nra. unfold towards. do 2 f_equal. replace (1 - _ - _) with (cos theta * cos theta) by lra.
  apply sqrt_square. pose proof PI_RGT_0. apply cos_ge_0; lra.
Qed.

Lemma abs_le_norm (v : rv) : Rabs (vx v) <= vnorm v /\ Rabs (vy v) <= vnorm v /\ Rabs (vz v) <= vnorm v.
Proof.
  unfold vnorm, vdot. repeat split; rewrite <- sqrt_Rsqr_abs; apply sqrt_le_1_alt; unfold Rsqr; nra.
Qed.
Lemma norm_le_abs (v : rv) : vnorm v <= Rabs (vx v) + Rabs (vy v) + Rabs (vz v).
Proof.
  pose proof (Rabs_pos (vx v)). pose proof (Rabs_pos (vy v)). pose proof (Rabs_pos (vz v)).
  rewrite <- (sqrt_square (Rabs (vx v) + Rabs (vy v) + Rabs (vz v))) by lra. apply sqrt_le_1_alt. unfold vdot.
  rewrite <- (Rabs_pos_eq (vx v * vx v)), <- (Rabs_pos_eq (vy v * vy v)), <- (Rabs_pos_eq (vz v * vz v)) by nra. rewrite !Rabs_mult. nra.
Qed.
Lemma vdist_sym p q : vdist p q = vdist q p.
Proof. unfold vdist, vnorm. f_equal. unfold vdot, vsub. vproj. ring. Qed.

Section Sampled.
  Variables (s t u : rv).
  Hypothesis O : orthonormal s t u.
  Variable h : rv -> R.
  Hypothesis C : forall p eps, above u p -> 0 < eps -> exists delta, 0 < delta /\ forall q, above u q -> vdist p q < delta -> Rabs (h q - h p) < eps.

  Definition hp (x y : R) : R := h (over s t u x y).
  Lemma c2_hp : cont2 hp.
  Proof.
    intros x y eps. destruct (C (over s t u x y) eps (over_above s t u x y O) (cond_pos eps)) as (d & D0 & D).
    assert (Q : forall (f : rv -> R), (forall a b c, f (vadd (vadd (vscale a s) (vscale b t)) (vscale c u)) = a * f s + b * f t + c * f u) ->
      cont2 (fun x y => f (over s t u x y))).
    { intros f F. apply (c2_ext (fun x y => dx x y * f s + dy x y * f t + dz x y * f u)); [intros; unfold over; now rewrite F|].
      repeat apply c2_plus; apply c2_mult; first [apply c2_dx|apply c2_dy|apply c2_dz|apply c2_const]. }
    assert (P : 0 < d / 4) by lra. set (e := mkposreal _ P).
    destruct (Q (fun v => vx v) ltac:(intros; unfold vadd, vscale; vproj; reflexivity) x y e) as (d1 & H1).
    destruct (Q (fun v => vy v) ltac:(intros; unfold vadd, vscale; vproj; reflexivity) x y e) as (d2 & H2).
    destruct (Q (fun v => vz v) ltac:(intros; unfold vadd, vscale; vproj; reflexivity) x y e) as (d3 & H3).
    assert (M : 0 < Rmin (Rmin d1 d2) d3) by (repeat apply Rmin_glb_lt; apply cond_pos). exists (mkposreal _ M). cbn [pos]. intros a b Ha Hb.
    pose proof (Rmin_l (Rmin d1 d2) d3). pose proof (Rmin_r (Rmin d1 d2) d3). pose proof (Rmin_l d1 d2). pose proof (Rmin_r d1 d2).
    specialize (H1 a b ltac:(lra) ltac:(lra)). specialize (H2 a b ltac:(lra) ltac:(lra)). specialize (H3 a b ltac:(lra) ltac:(lra)). cbn [pos e] in H1, H2, H3.
    apply D; [now apply over_above|]. rewrite vdist_sym. eapply Rle_lt_trans; [apply norm_le_abs|]. unfold vsub. vproj. lra.
  Qed.

  Definition whole : R := / PI * I (fun r => r * turn hp r) 0 1.

  Lemma square_inner a : 0 < a < 1 -> integral (fun b => sq hp (2 * a - 1) (2 * b - 1)) 0 1 (/ 2 * line hp (2 * a - 1)).
  Proof.
    intros A. apply integral_is. pose proof (line_is hp c2_hp (2 * a - 1) ltac:(apply Rabs_le; lra)) as L.
    assert (L' : is_RInt (sq hp (2 * a - 1)) (2 * 0 + -1) (2 * 1 + -1) (line hp (2 * a - 1)))
      by (replace (2 * 0 + -1) with (-1) by ring; replace (2 * 1 + -1) with 1 by ring; exact L).
    clear L. rename L' into L.
    apply (is_RInt_comp_lin (V := R_NormedModule)) in L. apply (is_RInt_scal (V := R_NormedModule) _ 0 1 (/ 2)) in L.
    eapply (is_RInt_ext (V := R_NormedModule)); [|exact L]. intros b _. change (/ 2 * (2 * sq hp (2 * a - 1) (2 * b + -1)) = sq hp (2 * a - 1) (2 * b - 1)).
    replace (2 * b + -1) with (2 * b - 1) by ring. field.
  Qed.
  Lemma square_outer : integral (fun a => / 2 * line hp (2 * a - 1)) 0 1 whole.
  Proof.
    pose proof PI_RGT_0 as P. pose proof (c1_line hp c2_hp) as L. apply integral_I.
    - apply c1_mult; [c1s|]. apply (c1_comp (line hp)); [exact L|c1s].
    - pose proof (I_lin (line hp) 2 (-1) 0 1 L) as E. replace (2 * 0 + -1) with (-1) in E by ring. replace (2 * 1 + -1) with 1 in E by ring.
      rewrite disk_integral in E by apply c2_hp.
      rewrite (I_ext_all _ (fun a => / 4 * (2 * line hp (2 * a + -1)))).
      + rewrite I_scal by (apply c1_mult; [c1s|apply (c1_comp (line hp)); [exact L|c1s]]). rewrite E. unfold whole. field. lra.
      + intros a. replace (2 * a + -1) with (2 * a - 1) by ring. field.
  Qed.

  Lemma c1_sint : cont1 (fun x => turn hp (sin x)).
  Proof. apply (c1_comp (turn hp)); [apply c1_turn, c2_hp|apply c1_sin]. Qed.
  Lemma sphere_inner theta : 0 < theta < PI / 2 ->
    integral (fun phi => cos theta * / PI * h (towards s t u theta phi)) 0 (2 * PI) (cos theta * / PI * turn hp (sin theta)).
  Proof.
    intros H. assert (F : cont1 (fun phi => hp (sin theta * cos phi) (sin theta * sin phi))) by apply (c1_polar hp c2_hp).
    apply integral_I.
    - apply (c1_ext (fun phi => cos theta * / PI * hp (sin theta * cos phi) (sin theta * sin phi))); [|apply c1_mult; [apply c1_const|exact F]].
      intros phi. unfold hp. rewrite towards_over by lra. reflexivity.
    - unfold turn. rewrite <- I_scal by exact F. apply I_ext_all. intros phi. unfold hp. rewrite towards_over by lra. reflexivity.
  Qed.
  Lemma sphere_outer : integral (fun theta => sin theta * (cos theta * / PI * turn hp (sin theta))) 0 (PI / 2) whole.
  Proof.
    pose proof c1_sint as T. apply integral_I; [repeat apply c1_mult; first [apply c1_sin|apply c1_cos|apply c1_const|exact T]|].
    pose proof (RInt_comp (V := R_CompleteNormedModule) (fun r => r * turn hp r) sin cos 0 (PI / 2)) as E.
    rewrite sin_0, sin_PI2 in E.
    unfold whole, I at 2. rewrite <- E.
    - change (I (fun x => sin x * (cos x * / PI * turn hp (sin x))) 0 (PI / 2) = / PI * I (fun y => cos y * (sin y * turn hp (sin y))) 0 (PI / 2)).
      rewrite <- I_scal by (repeat apply c1_mult; first [apply c1_sin|apply c1_cos|exact T]). apply I_ext_all. intros x. ring.
    - intros x _. apply c1_continuous. apply c1_mult; [apply c1_id|apply c1_turn, c2_hp].
    - intros x _. split; [apply is_derive_Reals, derivable_pt_lim_sin|apply c1_continuous, c1_cos].
  Qed.
End Sampled.

(** ** Simple integrals *)
Lemma integral_le f g a b v w : a <= b -> (forall x, a < x < b -> f x <= g x) -> integral f a b v -> integral g a b w -> v <= w.
Proof. intros Hab H F G. exact (is_RInt_le f g a b v w Hab (is_integral _ _ _ _ F) (is_integral _ _ _ _ G) H). Qed.
Lemma integral_by (f df : R -> R) a b : (forall x : R, is_derive f x (df x)) -> cont1 df -> integral df a b (f b - f a).
Proof.
  intros D C. apply integral_is. apply (is_RInt_derive (V := R_CompleteNormedModule) f df a b); intros x _; [apply D|now apply c1_continuous].
Qed.
Lemma int_sin_cos2 a b : integral (fun th => sin th * (cos th * cos th)) a b (- (cos b * cos b * cos b) / 3 - - (cos a * cos a * cos a) / 3).
Proof.
  apply (integral_by (fun th => - (cos th * cos th * cos th) / 3)).
  - intros x. auto_derive; [exact Logic.I|field].
  - repeat apply c1_mult; first [apply c1_sin|apply c1_cos].
Qed.
Lemma int_sin_cos a b : integral (fun th => sin th * cos th) a b (sin b * sin b / 2 - sin a * sin a / 2).
Proof.
  apply (integral_by (fun th => sin th * sin th / 2)).
  - intros x. auto_derive; [exact Logic.I|field].
  - repeat apply c1_mult; first [apply c1_sin|apply c1_cos].
Qed.
