(** * From the square to a triangle *)
From Coq Require Import Reals Lra Psatz.
From Coquelicot Require Import Rcomplements Hierarchy Continuity Derive RInt RInt_analysis AutoDerive.
From Verif Require Import Model.Vector Model.Triangle Spec.RVec Spec.ShapeSpec Spec.MeanSpec Spec.HemisphereSpec Spec.AreaSpec.
From Verif Require Import Proofs.XBase Proofs.RVecProofs Proofs.Calculus Proofs.HemisphereProofs.
Local Open Scope R_scope.

(** The triangle is kept, what lies outside is drawn to its edge. *)
Definition ca (a : R) : R := Rmax 0 (1 - Rmax 0 (1 - a)).
Definition cc (a c : R) : R := Rmax 0 (1 - ca a - Rmax 0 (1 - ca a - c)).
Lemma c1_ca : cont1 ca.
Proof. apply (c1_comp (Rmax 0)); [apply c1_max|]. apply c1_minus; [c1s|]. apply (c1_comp (Rmax 0)); [apply c1_max|c1s]. Qed.
Lemma c2_cc : cont2 cc.
Proof.
  assert (A : cont2 (fun a _ => 1 - ca a)) by (apply (c2_fst (fun a => 1 - ca a)), c1_minus; [c1s|apply c1_ca]).
  apply (c2_comp1 (Rmax 0)); [apply c1_max|]. apply c2_minus; [exact A|].
  apply (c2_comp1 (Rmax 0)); [apply c1_max|]. apply c2_minus; [exact A|apply c2_y].
Qed.
Lemma ca_in a : 0 <= a <= 1 -> ca a = a.
Proof. intros H. unfold ca. rewrite (Rmax_right 0 (1 - a)) by lra. rewrite Rmax_right; lra. Qed.
Lemma cc_in a c : 0 <= a <= 1 -> 0 <= c <= 1 - a -> cc a c = c.
Proof. intros H C. unfold cc. rewrite ca_in by lra. rewrite (Rmax_right 0 (1 - a - c)) by lra. rewrite Rmax_right; lra. Qed.
Lemma ca_01 a : 0 <= ca a <= 1.
Proof. unfold ca. pose proof (Rmax_l 0 (1 - a)). split; [apply Rmax_l|]. apply Rmax_lub; lra. Qed.
Lemma cc_01 a c : 0 <= cc a c <= 1 - ca a.
Proof. unfold cc. pose proof (ca_01 a). pose proof (Rmax_l 0 (1 - ca a - c)). split; [apply Rmax_l|]. apply Rmax_lub; lra. Qed.
Lemma corner_in v a c : 0 <= a -> 0 <= c -> a + c <= 1 -> in_triangle v (corner_point v a c).
Proof.
  intros A C S. exists a, c, (1 - a - c). split; [unfold weights; repeat split; lra|].
  unfold corner_point, comb, vadd, vsub, vscale. apply V3_eq; vproj; ring.
Qed.
Lemma corner_comb v a c : corner_point v a c = comb v a c (1 - a - c).
Proof. unfold corner_point, comb, vadd, vsub, vscale. apply V3_eq; vproj; ring. Qed.

Definition drawn (v : tri rv) (a c : R) : rv := corner_point v (ca a) (cc a c).
Lemma drawn_tri v a c : in_triangle v (drawn v a c).
Proof. pose proof (ca_01 a). pose proof (cc_01 a c). apply corner_in; lra. Qed.
Lemma c2_drawn_lin v (f : rv -> R) : (forall a c, f (corner_point v a c) = f (t2 v) + (a * (f (t0 v) - f (t2 v)) + c * (f (t1 v) - f (t2 v)))) ->
  cont2 (fun x y => f (drawn v x y)).
Proof.
  intros F. apply (c2_ext (fun x y => f (t2 v) + (ca x * (f (t0 v) - f (t2 v)) + cc x y * (f (t1 v) - f (t2 v))))); [intros; unfold drawn; now rewrite F|].
  repeat apply c2_plus; try apply c2_mult; first [apply c2_const|apply (c2_fst ca), c1_ca|apply c2_cc].
Qed.
Lemma c2_vx v : cont2 (fun x y => vx (drawn v x y)).
Proof. apply (c2_drawn_lin v (fun w => vx w)). intros; unfold corner_point, vadd, vsub, vscale; vproj; reflexivity. Qed.
Lemma c2_vy v : cont2 (fun x y => vy (drawn v x y)).
Proof. apply (c2_drawn_lin v (fun w => vy w)). intros; unfold corner_point, vadd, vsub, vscale; vproj; reflexivity. Qed.
Lemma c2_vz v : cont2 (fun x y => vz (drawn v x y)).
Proof. apply (c2_drawn_lin v (fun w => vz w)). intros; unfold corner_point, vadd, vsub, vscale; vproj; reflexivity. Qed.
Lemma c2_of_continuous v (h : rv -> R) :
  (forall p eps, in_triangle v p -> 0 < eps -> exists delta, 0 < delta /\ forall q, in_triangle v q -> vdist p q < delta -> Rabs (h q - h p) < eps) ->
  cont2 (fun a c => h (drawn v a c)).
Proof.
  intros C x y eps. destruct (C (drawn v x y) eps (drawn_tri v x y) (cond_pos eps)) as (d & D0 & D).
  assert (P : 0 < d / 4) by lra. set (e := mkposreal _ P).
  destruct (c2_vx v x y e) as (d1 & H1). destruct (c2_vy v x y e) as (d2 & H2). destruct (c2_vz v x y e) as (d3 & H3).
  assert (M : 0 < Rmin (Rmin d1 d2) d3) by (repeat apply Rmin_glb_lt; apply cond_pos). exists (mkposreal _ M). cbn [pos]. intros a b Ha Hb.
  pose proof (Rmin_l (Rmin d1 d2) d3). pose proof (Rmin_r (Rmin d1 d2) d3). pose proof (Rmin_l d1 d2). pose proof (Rmin_r d1 d2).
  specialize (H1 a b ltac:(lra) ltac:(lra)). specialize (H2 a b ltac:(lra) ltac:(lra)). specialize (H3 a b ltac:(lra) ltac:(lra)). cbn [pos e] in H1, H2, H3.
  apply D; [apply drawn_tri|]. rewrite vdist_sym. eapply Rle_lt_trans; [apply norm_le_abs|]. unfold vsub. vproj. lra.
Qed.
Lemma c2_inv f : cont2 f -> (forall x y, f x y <> 0) -> cont2 (fun x y => / f x y).
Proof. intros F N x y. apply continuity_2d_pt_inv; [apply F|apply N]. Qed.

Section Sampled.
  Variable v : tri rv.
  Variable h : rv -> R.
  Definition tp (a c : R) : R := h (drawn v a c).
  Hypothesis c2_tp : cont2 tp.

  Definition strip (a : R) : R := I (tp a) 0 (1 - a).
  Lemma c1_strip : cont1 strip.
  Proof. apply (I_bounds tp (fun _ => 0) (fun a => 1 - a)); [apply c2_tp|c1s|c1s]. Qed.
  Definition all : R := I strip 0 1.

  (** the area integral *)
  Lemma strip_inner a : 0 < a < 1 -> integral (fun c => h (corner_point v a c)) 0 (1 - a) (strip a).
  Proof.
    intros A. apply integral_is. eapply (is_RInt_ext (V := R_NormedModule)); [|apply I_is, c2_in_y, c2_tp].
    rewrite Rmin_left, Rmax_right by lra. intros c Hc. unfold tp, drawn. now rewrite ca_in, cc_in by lra.
  Qed.
  Lemma strip_outer k : integral (fun a => k * strip a) 0 1 (k * all).
  Proof. apply integral_I; [apply c1_mult; [c1s|apply c1_strip]|]. apply I_scal, c1_strip. Qed.

  (** the average over samples *)
  Definition row (s : R) : R := I (fun y => tp (1 - s) (y * s)) 0 1.
  Lemma c1_row : cont1 row.
  Proof.
    apply (I_param (fun s y => tp (1 - s) (y * s))); [lra|]. apply (c2_comp tp (fun s _ => 1 - s)); [apply c2_tp|apply (c2_fst (fun s => 1 - s)); c1s|].
    apply c2_mult; [apply c2_y|apply c2_x].
  Qed.
  Lemma row_strip s : s * row s = strip (1 - s).
  Proof.
    unfold row, strip. rewrite <- I_scal.
    - rewrite (I_ext_all _ (fun y => s * tp (1 - s) (s * y + 0))).
      + rewrite I_lin by apply c2_in_y, c2_tp. f_equal; ring.
      + intros y. f_equal. f_equal. ring.
    - apply (c1_comp (tp (1 - s)) (fun y => y * s)); [apply c2_in_y, c2_tp|c1s].
  Qed.
  Lemma row_inner x : 0 < x < 1 -> integral (fun y => h (corner_point v (1 - sqrt x) (y * sqrt x))) 0 1 (row (sqrt x)).
  Proof.
    intros X. assert (Sx : 0 <= sqrt x <= 1) by (split; [apply sqrt_pos|rewrite <- sqrt_1; apply sqrt_le_1_alt; lra]).
    apply integral_is. eapply (is_RInt_ext (V := R_NormedModule)); [|apply I_is].
    - rewrite Rmin_left, Rmax_right by lra. intros y Hy. unfold tp, drawn. rewrite ca_in, cc_in by nra. reflexivity.
    - apply (c1_comp (tp (1 - sqrt x)) (fun y => y * sqrt x)); [apply c2_in_y, c2_tp|c1s].
  Qed.
  Lemma row_outer : integral (fun x => row (sqrt x)) 0 1 (2 * all).
  Proof.
    pose proof c1_row as R1. assert (R2 : cont1 (fun x => row (sqrt x))) by (apply (c1_comp row sqrt); [exact R1|apply c1_sqrt]).
    apply integral_I; [exact R2|].
    pose proof (RInt_comp (V := R_CompleteNormedModule) (fun x => row (sqrt x)) (fun s => s * s) (fun s => 2 * s) 0 1) as E.
    cbv beta in E. replace (0 * 0) with 0 in E by ring. replace (1 * 1) with 1 in E by ring.
    unfold I at 1. rewrite <- E.
    - change (I (fun y => (2 * y) * row (sqrt (y * y))) 0 1 = 2 * all).
      rewrite (I_ext _ (fun y => 2 * strip (-1 * y + 1))).
      + assert (S1 : cont1 (fun y => strip (-1 * y + 1))) by (apply (c1_comp strip); [apply c1_strip|c1s]).
        rewrite I_scal by exact S1. f_equal.
        pose proof (I_lin strip (-1) 1 0 1 c1_strip) as L. rewrite I_scal in L by exact S1. replace (-1 * 0 + 1) with 1 in L by ring. replace (-1 * 1 + 1) with 0 in L by ring.
        pose proof (I_chasles strip 0 1 0 c1_strip) as K. rewrite I_point in K. unfold all. lra.
      + rewrite Rmin_left, Rmax_right by lra. intros y Hy. rewrite sqrt_square by lra. rewrite Rmult_assoc, row_strip. f_equal. f_equal. ring.
    - intros x _. now apply c1_continuous.
    - intros x _. split; [auto_derive; [exact Logic.I|ring]|apply c1_continuous; c1s].
  Qed.
End Sampled.

Theorem triangle_average v F : tri_area v <> 0 ->
  cont2 (fun a c => vx (F (drawn v a c))) -> cont2 (fun a c => vy (F (drawn v a c))) -> cont2 (fun a c => vz (F (drawn v a c))) ->
  exists x, over_triangle v F x /\ average2 (fun a b => F (corner_point v (1 - sqrt a) (b * sqrt a))) (vscale (/ tri_area v) x).
Proof.
  intros A0 Cx Cy Cz. set (A := tri_area v) in *. set (hx := fun w => vx (F w)). set (hy := fun w => vy (F w)). set (hz := fun w => vz (F w)).
  exists (mkV3 (2 * A * all v hx) (2 * A * all v hy) (2 * A * all v hz)). split.
  - exists (fun a => mkV3 (strip v hx a) (strip v hy a) (strip v hz a)). split.
    + intros a Ha. repeat split; vproj; [exact (strip_inner v hx Cx a Ha)|exact (strip_inner v hy Cy a Ha)|exact (strip_inner v hz Cz a Ha)].
    + unfold vintegral, vscale. vproj. fold A. split; [|split]; [exact (strip_outer v hx Cx (2 * A))|exact (strip_outer v hy Cy (2 * A))|exact (strip_outer v hz Cz (2 * A))].
  - exists (fun a => mkV3 (row v hx (sqrt a)) (row v hy (sqrt a)) (row v hz (sqrt a))). split.
    + intros a Ha. repeat split; vproj; [exact (row_inner v hx Cx a Ha)|exact (row_inner v hy Cy a Ha)|exact (row_inner v hz Cz a Ha)].
    + assert (E : forall y, / A * (2 * A * y) = 2 * y) by (intros; field; exact A0).
      unfold average, vscale. vproj. rewrite !E. split; [|split]; [exact (row_outer v hx Cx)|exact (row_outer v hy Cy)|exact (row_outer v hz Cz)].
Qed.

Lemma c2_lamp v p n A : 0 < A -> (forall q, in_triangle v q -> vsub q p <> v0) ->
  cont2 (fun x y => Rabs (vdot (vunit (vsub (drawn v x y) p)) n) * share (/ A) (Rabs (vdot (vunit (vsub (drawn v x y) p)) n) / PI)).
Proof.
  intros HA H0. pose proof PI_RGT_0 as PP. set (u := fun x y => vsub (drawn v x y) p).
  assert (U1 : cont2 (fun x y => vx (u x y))) by (apply (c2_minus (fun x y => vx (drawn v x y)) (fun _ _ => vx p)); [apply c2_vx|apply c2_const]).
  assert (U2 : cont2 (fun x y => vy (u x y))) by (apply (c2_minus (fun x y => vy (drawn v x y)) (fun _ _ => vy p)); [apply c2_vy|apply c2_const]).
  assert (U3 : cont2 (fun x y => vz (u x y))) by (apply (c2_minus (fun x y => vz (drawn v x y)) (fun _ _ => vz p)); [apply c2_vz|apply c2_const]).
  assert (D : cont2 (fun x y => vdot (u x y) n)) by (unfold vdot; repeat apply c2_plus; apply c2_mult; (assumption || apply c2_const)).
  assert (N2 : cont2 (fun x y => vdot (u x y) (u x y))) by (unfold vdot; repeat apply c2_plus; apply c2_mult; assumption).
  assert (N : cont2 (fun x y => vnorm (u x y))) by (apply (c2_comp1 sqrt); [apply c1_sqrt|exact N2]).
  assert (N0 : forall x y, vnorm (u x y) <> 0) by (intros; apply Rgt_not_eq, vnorm_pos, H0, drawn_tri).
  assert (W : cont2 (fun x y => vdot (vunit (u x y)) n)).
  { apply (c2_ext (fun x y => / vnorm (u x y) * vdot (u x y) n)); [intros; unfold vunit; now rewrite vdot_scale_l|]. apply c2_mult; [now apply c2_inv|exact D]. }
  assert (Cc : cont2 (fun x y => Rabs (vdot (vunit (u x y)) n))) by (apply (c2_comp1 Rabs); [intros x; apply Rcontinuity_abs|exact W]).
  fold u. change (cont2 (fun x y => Rabs (vdot (vunit (u x y)) n) * share (/ A) (Rabs (vdot (vunit (u x y)) n) / PI))).
  apply c2_mult; [exact Cc|]. unfold share, Rdiv.
  assert (Q : cont2 (fun x y => Rabs (vdot (vunit (u x y)) n) * / PI)) by (apply c2_mult; [exact Cc|apply c2_const]).
  apply c2_mult; [apply c2_const|]. apply c2_inv; [apply c2_plus; [apply c2_const|now apply c2_mult]|].
  intros x y. pose proof (Rinv_0_lt_compat A HA). nra.
Qed.
