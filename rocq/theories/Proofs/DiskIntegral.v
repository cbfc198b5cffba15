(** * The concentric map carries the square to the disk evenly *)
From Coq Require Import Reals Lra Psatz.
From Coquelicot Require Import Rcomplements Hierarchy Continuity Derive RInt RInt_analysis.
From Verif Require Import Proofs.Calculus.
Local Open Scope R_scope.

(** the concentric map on the square [-1, 1]^2, where |y| < |x| *)
Definition cx (x y : R) : R := x * cos (PI / 4 * (y / x)).
Definition cy (x y : R) : R := x * sin (PI / 4 * (y / x)).

Lemma c2_arg (f : R -> R) : cont1 f -> (forall x, Rabs (f x) <= 1) -> cont2 (fun x y => x * f (PI / 4 * (y / x))).
Proof.
  intros F B x y. destruct (Req_dec x 0) as [->|N].
  - intros eps. exists eps. intros u v Hu Hv. rewrite Rmult_0_l, Rminus_0_r. rewrite Rminus_0_r in Hu. rewrite Rabs_mult.
    pose proof (B (PI / 4 * (v / u))). pose proof (Rabs_pos u). pose proof (Rabs_pos (f (PI / 4 * (v / u)))). nra.
  - apply continuity_2d_pt_mult; [apply continuity_2d_pt_id1|]. apply (continuity_1d_2d_pt_comp f); [apply F|].
    apply continuity_2d_pt_mult; [apply continuity_2d_pt_const|]. apply continuity_2d_pt_mult; [apply continuity_2d_pt_id2|].
    apply continuity_2d_pt_inv; [apply continuity_2d_pt_id1|exact N].
Qed.
Lemma c2_cx : cont2 cx.
Proof. apply (c2_arg cos); [apply c1_cos|]. intros x. apply Rabs_le. pose proof (COS_bound x). lra. Qed.
Lemma c2_cy : cont2 cy.
Proof. apply (c2_arg sin); [apply c1_sin|]. intros x. apply Rabs_le. pose proof (SIN_bound x). lra. Qed.

Section Disk.
  Variable g : R -> R -> R.
  Hypothesis G : cont2 g.

  (** what the map makes of [g] in the two wedges *)
  Definition k1 (x y : R) : R := g (cx x y) (cy x y).
  Definition k2 (x y : R) : R := g (cy y x) (cx y x).
  Definition sq (x y : R) : R := if Rlt_dec (Rabs y) (Rabs x) then k1 x y else k2 x y.

  Lemma c2_k1 : cont2 k1.
  Proof. apply (c2_comp g cx cy); [exact G|apply c2_cx|apply c2_cy]. Qed.
  Lemma c2_k2 : cont2 k2.
  Proof. apply (c2_comp g (fun x y => cy y x) (fun x y => cx y x)); [exact G|apply (c2_swap cy), c2_cy|apply (c2_swap cx), c2_cx]. Qed.
  Lemma c2_flip s t k : cont2 k -> cont2 (fun x y => k (s * x) (t * y)).
  Proof. intros K. apply (c2_comp k (fun x _ => s * x) (fun _ y => t * y)); [exact K|apply (c2_fst (fun x => s * x)); c1s|apply (c2_snd (fun x => t * x)); c1s]. Qed.

  (** half a line across the square *)
  Definition half (t x : R) : R := I (fun y => k1 x (t * y)) 0 (Rabs x) + I (fun y => k2 x (t * y)) (Rabs x) 1.

  Lemma c2_flip_y t k : cont2 k -> cont2 (fun x y => k x (t * y)).
  Proof. intros K. apply (c2_comp k (fun x _ => x) (fun _ y => t * y)); [exact K|apply (c2_fst (fun x => x)); c1s|apply (c2_snd (fun x => t * x)); c1s]. Qed.
  Lemma c1_half t : cont1 (half t).
  Proof.
    apply c1_plus.
    - apply (I_bounds (fun x y => k1 x (t * y)) (fun _ => 0) Rabs); [apply c2_flip_y, c2_k1|c1s|c1s].
    - apply (I_bounds (fun x y => k2 x (t * y)) Rabs (fun _ => 1)); [apply c2_flip_y, c2_k2|c1s|c1s].
  Qed.

  Lemma half_is t x : Rabs t = 1 -> Rabs x <= 1 -> is_RInt (fun y => sq x (t * y)) 0 1 (half t x).
  Proof.
    intros T X. unfold half. pose proof (Rabs_pos x) as P. apply (is_RInt_Chasles (V := R_NormedModule) _ 0 (Rabs x) 1).
    - eapply (is_RInt_ext (V := R_NormedModule)); [|apply I_is, (c2_in_y (fun x y => k1 x (t * y))), c2_flip_y, c2_k1].
      intros y Hy. rewrite Rmin_left, Rmax_right in Hy by lra. unfold sq. destruct (Rlt_dec _ _) as [L|L]; [reflexivity|].
      rewrite Rabs_mult, T, (Rabs_pos_eq y) in L by lra. lra.
    - eapply (is_RInt_ext (V := R_NormedModule)); [|apply I_is, (c2_in_y (fun x y => k2 x (t * y))), c2_flip_y, c2_k2].
      intros y Hy. rewrite Rmin_left, Rmax_right in Hy by lra. unfold sq. destruct (Rlt_dec _ _) as [L|L]; [|reflexivity].
      rewrite Rabs_mult, T, (Rabs_pos_eq y) in L by lra. lra.
  Qed.

  Definition line (x : R) : R := half (-1) x + half 1 x.
  Lemma line_is x : Rabs x <= 1 -> is_RInt (sq x) (-1) 1 (line x).
  Proof.
    intros X. apply (is_RInt_Chasles (V := R_NormedModule) _ (-1) 0 1).
    - pose proof (half_is (-1) x ltac:(rewrite Rabs_left; lra) X) as H.
      pose proof (is_RInt_comp_opp (V := R_NormedModule) (fun y => sq x (-1 * y)) 0 (-1) (half (-1) x)) as Q.
      rewrite Ropp_0 in Q. replace (- (-1)) with 1 in Q by ring. specialize (Q H).
      apply (is_RInt_swap (V := R_NormedModule)) in Q. apply (is_RInt_opp (V := R_NormedModule)) in Q.
      change (is_RInt (sq x) (-1) 0 (half (-1) x)).
      replace (half (-1) x) with (opp (opp (half (-1) x))) by apply opp_opp.
      eapply (is_RInt_ext (V := R_NormedModule)); [|exact Q]. intros y _. cbv beta. rewrite opp_opp. f_equal. ring.
    - pose proof (half_is 1 x ltac:(apply Rabs_R1) X) as H. eapply (is_RInt_ext (V := R_NormedModule)); [|exact H]. intros y _. cbv beta. f_equal. ring.
  Qed.
  Lemma c1_line : cont1 line.
  Proof. apply c1_plus; apply c1_half. Qed.

  (** the eight points of the disk at radius [r] and angle [a] from the nearest axis or diagonal *)
  Definition eight (r a : R) : R :=
    g (r * cos a) (r * sin a) + g (r * cos a) (- (r * sin a)) + g (- (r * cos a)) (r * sin a) + g (- (r * cos a)) (- (r * sin a)) +
    (g (r * sin a) (r * cos a) + g (r * sin a) (- (r * cos a)) + g (- (r * sin a)) (r * cos a) + g (- (r * sin a)) (- (r * cos a))).
  Lemma c2_polar (u v : R -> R) : cont1 u -> cont1 v -> cont2 (fun r a => g (r * u a) (r * v a)).
  Proof. intros U V. apply (c2_comp g (fun r a => r * u a) (fun r a => r * v a)); [exact G| |]; apply c2_mult; try (apply (c2_fst (fun r => r)), c1_id); apply c2_snd; assumption. Qed.

  Lemma c2_fold (f : R -> R -> R) : cont2 f -> cont2 (fun x y => f x y + f x (-1 * y) + (f (-1 * x) y + f (-1 * x) (-1 * y))).
  Proof.
    intros F. pose proof (c2_flip 1 (-1) f F) as F1. pose proof (c2_flip (-1) 1 f F) as F2. pose proof (c2_flip (-1) (-1) f F) as F3.
    repeat apply c2_plus; auto.
    - eapply c2_ext; [|exact F1]. intros. cbv beta. f_equal; ring.
    - eapply c2_ext; [|exact F2]. intros. cbv beta. f_equal; ring.
  Qed.
  Definition K1 (x y : R) := k1 x y + k1 x (-1 * y) + (k1 (-1 * x) y + k1 (-1 * x) (-1 * y)).
  Definition K2 (x y : R) := k2 x y + k2 x (-1 * y) + (k2 (-1 * x) y + k2 (-1 * x) (-1 * y)).
  Lemma c2_K1 : cont2 K1. Proof. apply c2_fold, c2_k1. Qed.
  Lemma c2_K2 : cont2 K2. Proof. apply c2_fold, c2_k2. Qed.

  Lemma fold_line x : 0 <= x -> line x + line (-1 * x) = I (K1 x) 0 x + I (K2 x) x 1.
  Proof.
    intros X. unfold line, half. replace (Rabs (-1 * x)) with x by (rewrite Rabs_mult, Rabs_left, (Rabs_pos_eq x) by lra; ring).
    rewrite (Rabs_pos_eq x X).
    assert (E : forall k, cont2 k -> forall a b, I (fun y => k x y + k x (-1 * y) + (k (-1 * x) y + k (-1 * x) (-1 * y))) a b =
      I (fun y => k x (1 * y)) a b + I (fun y => k x (-1 * y)) a b + (I (fun y => k (-1 * x) (1 * y)) a b + I (fun y => k (-1 * x) (-1 * y)) a b)).
    { intros k K a b. pose proof (fun t z => c2_in_y _ z (c2_flip_y t k K)) as C. cbv beta in C.
      assert (C1 : forall z, cont1 (fun y => k z y)) by (intros z; now apply c2_in_y).
      rewrite I_plus; [|apply c1_plus; auto|apply c1_plus; auto]. rewrite !I_plus by auto.
      rewrite (I_ext_all (fun y => k x (1 * y)) (k x)) by (intros; f_equal; ring).
      rewrite (I_ext_all (fun y => k (-1 * x) (1 * y)) (k (-1 * x))) by (intros; f_equal; ring). reflexivity. }
    unfold K1, K2. rewrite (E k1 c2_k1), (E k2 c2_k2). ring.
  Qed.

  Lemma ring_1 x : I (K1 x) 0 x = x * I (fun s => g (x * cos (PI / 4 * s)) (x * sin (PI / 4 * s)) + g (x * cos (PI / 4 * s)) (- (x * sin (PI / 4 * s)))
    + g (- (x * cos (PI / 4 * s))) (x * sin (PI / 4 * s)) + g (- (x * cos (PI / 4 * s))) (- (x * sin (PI / 4 * s)))) 0 1.
  Proof.
    rewrite I_unit by apply c2_in_y, c2_K1. rewrite I_scal by (apply (c1_comp (K1 x)); [apply c2_in_y, c2_K1|c1s]). rewrite Rminus_0_r.
    destruct (Req_dec x 0) as [->|N]; [ring|]. f_equal. apply I_ext_all. intros s. unfold K1, k1, cx, cy. rewrite Rplus_0_r.
    replace (PI / 4 * (x * s / x)) with (PI / 4 * s) by (field; exact N).
    replace (PI / 4 * (-1 * (x * s) / x)) with (- (PI / 4 * s)) by (field; exact N).
    replace (PI / 4 * (x * s / (-1 * x))) with (- (PI / 4 * s)) by (field; lra).
    replace (PI / 4 * (-1 * (x * s) / (-1 * x))) with (PI / 4 * s) by (field; lra).
    rewrite !cos_neg, !sin_neg. set (a := PI / 4 * s).
    replace (x * - sin a) with (- (x * sin a)) by ring. replace (-1 * x * cos a) with (- (x * cos a)) by ring.
    replace (-1 * x * - sin a) with (x * sin a) by ring. replace (-1 * x * sin a) with (- (x * sin a)) by ring. ring.
  Qed.
  Lemma ring_2 y : I (fun x => K2 x y) 0 y = y * I (fun s => g (y * sin (PI / 4 * s)) (y * cos (PI / 4 * s)) + g (y * sin (PI / 4 * s)) (- (y * cos (PI / 4 * s)))
    + g (- (y * sin (PI / 4 * s))) (y * cos (PI / 4 * s)) + g (- (y * sin (PI / 4 * s))) (- (y * cos (PI / 4 * s)))) 0 1.
  Proof.
    assert (C : cont1 (fun x => K2 x y)) by apply c2_in_x, c2_K2.
    rewrite I_unit by exact C. rewrite I_scal by (apply (c1_comp (fun x => K2 x y)); [exact C|c1s]). rewrite Rminus_0_r.
    destruct (Req_dec y 0) as [->|N]; [ring|]. f_equal. apply I_ext_all. intros s. unfold K2, k2, cx, cy. rewrite Rplus_0_r.
    replace (PI / 4 * (y * s / y)) with (PI / 4 * s) by (field; exact N).
    replace (PI / 4 * (-1 * (y * s) / y)) with (- (PI / 4 * s)) by (field; exact N).
    replace (PI / 4 * (y * s / (-1 * y))) with (- (PI / 4 * s)) by (field; lra).
    replace (PI / 4 * (-1 * (y * s) / (-1 * y))) with (PI / 4 * s) by (field; lra).
    rewrite !cos_neg, !sin_neg. set (a := PI / 4 * s).
    replace (y * - sin a) with (- (y * sin a)) by ring. replace (-1 * y * cos a) with (- (y * cos a)) by ring.
    replace (-1 * y * - sin a) with (y * sin a) by ring. replace (-1 * y * sin a) with (- (y * sin a)) by ring. ring.
  Qed.

  Lemma c1_four r (u v : R -> R) : cont1 u -> cont1 v -> cont1 (fun s => g (r * u s) (r * v s) + g (r * u s) (- (r * v s)) + g (- (r * u s)) (r * v s) + g (- (r * u s)) (- (r * v s))).
  Proof.
    intros U V. assert (C : forall p q, cont1 p -> cont1 q -> cont1 (fun s => g (p s) (q s))) by (intros; now apply c2_along).
    repeat apply c1_plus; apply C; c1s.
  Qed.
  Lemma square_eight : I line (-1) 1 = I (fun r => r * I (fun s => eight r (PI / 4 * s)) 0 1) 0 1.
  Proof.
    pose proof c1_line as L.
    assert (E1 : I line (-1) 1 = I (fun x => line x + line (-1 * x)) 0 1).
    { rewrite I_plus; [|exact L|apply (c1_comp line); [exact L|c1s]]. rewrite <- (I_chasles line (-1) 0 1 L), Rplus_comm. f_equal.
      pose proof (I_lin line (-1) 0 0 1 L) as Q. replace (-1 * 0 + 0) with 0 in Q by ring. replace (-1 * 1 + 0) with (-1) in Q by ring.
      pose proof (I_chasles line (-1) 0 (-1) L) as Z. rewrite I_point in Z.
      rewrite (I_scal (-1) (fun y => line (-1 * y + 0))) in Q by (apply (c1_comp line); [exact L|c1s]).
      rewrite (I_ext_all (fun y => line (-1 * y + 0)) (fun y => line (-1 * y))) in Q by (intros; f_equal; ring). lra. }
    rewrite E1. rewrite (I_ext (fun x => line x + line (-1 * x)) (fun x => I (K1 x) 0 x + I (K2 x) x 1)).
    2:{ intros x Hx. rewrite Rmin_left in Hx by lra. apply fold_line. lra. }
    pose proof c2_K1 as C1. pose proof c2_K2 as C2.
    assert (D1 : cont1 (fun x => I (K1 x) 0 x)) by (apply (I_bounds K1 (fun _ => 0) (fun x => x)); [exact C1|c1s|c1s]).
    rewrite I_plus; [|exact D1|apply (I_bounds K2 (fun x => x) (fun _ => 1)); [exact C2|c1s|c1s]].
    rewrite (I_triangle K2 C2). rewrite <- I_plus; [|exact D1|apply (I_bounds (fun y x => K2 x y) (fun _ => 0) (fun x => x)); [now apply c2_swap|c1s|c1s]].
    apply I_ext_all. intros r. rewrite ring_1, ring_2, <- Rmult_plus_distr_l. f_equal. rewrite <- I_plus; [reflexivity| |];
      apply (c1_four r (fun s => _ (PI / 4 * s)) (fun s => _ (PI / 4 * s))).
    all: first [apply (c1_comp sin); [apply c1_sin|c1s] | apply (c1_comp cos); [apply c1_cos|c1s]].
  Qed.

  (** the full turn *)
  Definition turn (r : R) : R := I (fun a => g (r * cos a) (r * sin a)) 0 (2 * PI).
  Lemma c1_polar r : cont1 (fun a => g (r * cos a) (r * sin a)).
  Proof. apply (c2_in_y (fun r a => g (r * cos a) (r * sin a))), (c2_polar cos sin); [apply c1_cos|apply c1_sin]. Qed.
  Lemma c1_turn : cont1 turn.
  Proof. apply (I_param (fun r a => g (r * cos a) (r * sin a))); [pose proof PI_RGT_0; lra|]. apply (c2_polar cos sin); [apply c1_cos|apply c1_sin]. Qed.

  Lemma turn_eight r : turn r = PI / 4 * I (fun s => eight r (PI / 4 * s)) 0 1.
  Proof.
    unfold turn. set (f := fun a => g (r * cos a) (r * sin a)). pose proof (c1_polar r) as F. fold f in F.
    assert (U : forall q, I f (q * (PI / 2)) (q * (PI / 2) + PI / 4) = PI / 4 * I (fun s => f (PI / 4 * s + q * (PI / 2))) 0 1).
    { intros q. rewrite <- I_scal by (apply (c1_comp f); [exact F|c1s]). rewrite I_lin by exact F. f_equal; ring. }
    assert (D : forall q, I f (q * (PI / 2) + PI / 4) ((q + 1) * (PI / 2)) = PI / 4 * I (fun s => f (- (PI / 4) * s + (q + 1) * (PI / 2))) 0 1).
    { intros q. rewrite <- I_scal by (apply (c1_comp f); [exact F|c1s]). pose proof (I_lin f (- (PI / 4)) ((q + 1) * (PI / 2)) 0 1 F) as Q.
      replace (- (PI / 4) * 0 + (q + 1) * (PI / 2)) with ((q + 1) * (PI / 2)) in Q by ring.
      replace (- (PI / 4) * 1 + (q + 1) * (PI / 2)) with (q * (PI / 2) + PI / 4) in Q by (field_simplify; lra).
      pose proof (I_chasles f (q * (PI / 2) + PI / 4) ((q + 1) * (PI / 2)) (q * (PI / 2) + PI / 4) F) as Z. rewrite I_point in Z.
      rewrite (I_scal (- (PI / 4)) (fun s => f (- (PI / 4) * s + (q + 1) * (PI / 2)))) in Q by (apply (c1_comp f); [exact F|c1s]).
      rewrite I_scal by (apply (c1_comp f); [exact F|c1s]). lra. }
    assert (S : forall q, I f (q * (PI / 2)) ((q + 1) * (PI / 2)) =
      PI / 4 * I (fun s => f (PI / 4 * s + q * (PI / 2)) + f (- (PI / 4) * s + (q + 1) * (PI / 2))) 0 1).
    { intros q. rewrite <- (I_chasles f _ (q * (PI / 2) + PI / 4) _ F), U, D, I_plus by (apply (c1_comp f); [exact F|c1s]). ring. }
    assert (T : I f 0 (2 * PI) = I f (0 * (PI / 2)) ((0 + 1) * (PI / 2)) + I f (1 * (PI / 2)) ((1 + 1) * (PI / 2)) +
      (I f (2 * (PI / 2)) ((2 + 1) * (PI / 2)) + I f (3 * (PI / 2)) ((3 + 1) * (PI / 2)))).
    { replace ((0 + 1) * (PI / 2)) with (1 * (PI / 2)) by ring. replace ((1 + 1) * (PI / 2)) with (2 * (PI / 2)) by ring.
      replace ((2 + 1) * (PI / 2)) with (3 * (PI / 2)) by ring. rewrite !I_chasles by exact F. f_equal; lra. }
    rewrite T, !S.
    assert (C : forall q, cont1 (fun s => f (PI / 4 * s + q * (PI / 2)) + f (- (PI / 4) * s + (q + 1) * (PI / 2))))
      by (intros q; apply c1_plus; apply (c1_comp f); [exact F|c1s|exact F|c1s]).
    rewrite <- !Rmult_plus_distr_l. f_equal. rewrite <- !I_plus; try apply C; try (apply c1_plus; apply C).
    apply I_ext_all. intros s. unfold f, eight. set (a := PI / 4 * s). replace (- (PI / 4) * s) with (- a) by (unfold a; ring).
    assert (Q1 : forall x, cos (x + 1 * (PI / 2)) = - sin x /\ sin (x + 1 * (PI / 2)) = cos x).
    { intros x. rewrite Rmult_1_l, cos_plus, sin_plus, cos_PI2, sin_PI2. split; ring. }
    assert (Q2 : forall x, cos (x + 2 * (PI / 2)) = - cos x /\ sin (x + 2 * (PI / 2)) = - sin x).
    { intros x. replace (2 * (PI / 2)) with PI by field. rewrite neg_cos, neg_sin. auto. }
    assert (Q3 : forall x, cos (x + 3 * (PI / 2)) = sin x /\ sin (x + 3 * (PI / 2)) = - cos x).
    { intros x. replace (x + 3 * (PI / 2)) with (x + 1 * (PI / 2) + PI) by field. rewrite neg_cos, neg_sin. destruct (Q1 x) as [-> ->]. split; ring. }
    assert (Q4 : forall x, cos (x + 4 * (PI / 2)) = cos x /\ sin (x + 4 * (PI / 2)) = sin x).
    { intros x. replace (x + 4 * (PI / 2)) with (x + 2 * (PI / 2) + PI) by field. rewrite neg_cos, neg_sin. destruct (Q2 x) as [-> ->]. split; ring. }
    replace (0 * (PI / 2)) with 0 by ring. rewrite Rplus_0_r. replace (0 + 1) with 1 by ring. replace (1 + 1) with 2 by ring.
    replace (2 + 1) with 3 by ring. replace (3 + 1) with 4 by ring.
    rewrite !(proj1 (Q1 _)), !(proj2 (Q1 _)), !(proj1 (Q2 _)), !(proj2 (Q2 _)), !(proj1 (Q3 _)), !(proj2 (Q3 _)), !(proj1 (Q4 _)), !(proj2 (Q4 _)).
    rewrite !cos_neg, !sin_neg.
    rewrite <- !Ropp_mult_distr_r, !Ropp_involutive. ring.
  Qed.

  Theorem disk_integral : I line (-1) 1 = 4 / PI * I (fun r => r * turn r) 0 1.
  Proof.
    pose proof PI_RGT_0 as P. rewrite square_eight. rewrite <- I_scal by (apply c1_mult; [apply c1_id|apply c1_turn]). apply I_ext_all. intros r. rewrite turn_eight. field. lra.
  Qed.
End Disk.
