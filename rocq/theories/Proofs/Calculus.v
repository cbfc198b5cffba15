(** * Integrals of continuous functions of one and two variables *)
From Coq Require Import Reals Lra Psatz.
From Coquelicot Require Import Rcomplements Hierarchy Continuity Derive RInt RInt_analysis.
Local Open Scope R_scope.

Definition cont1 (f : R -> R) : Prop := forall x, continuity_pt f x.
Definition cont2 (f : R -> R -> R) : Prop := forall x y, continuity_2d_pt f x y.

(** ** Continuous functions *)
Lemma c1_continuous f x : cont1 f -> continuous f x.
Proof. intros H. apply continuity_pt_filterlim, H. Qed.

Lemma c1_const c : cont1 (fun _ => c).
Proof. intros x. apply continuity_pt_const. intros a b. reflexivity. Qed.
Lemma c1_id : cont1 (fun x => x).
Proof. intros x. apply continuity_pt_id. Qed.
Lemma c1_plus f g : cont1 f -> cont1 g -> cont1 (fun x => f x + g x).
Proof. intros F G x. now apply continuity_pt_plus. Qed.
Lemma c1_minus f g : cont1 f -> cont1 g -> cont1 (fun x => f x - g x).
Proof. intros F G x. now apply continuity_pt_minus. Qed.
Lemma c1_mult f g : cont1 f -> cont1 g -> cont1 (fun x => f x * g x).
Proof. intros F G x. now apply continuity_pt_mult. Qed.
Lemma c1_opp f : cont1 f -> cont1 (fun x => - f x).
Proof. intros F x. now apply continuity_pt_opp. Qed.
Lemma c1_comp f g : cont1 f -> cont1 g -> cont1 (fun x => f (g x)).
Proof. intros F G x. apply (continuity_pt_comp g f); auto. Qed.
Lemma c1_sin : cont1 sin.
Proof. intros x. apply continuity_sin. Qed.
Lemma c1_cos : cont1 cos.
Proof. intros x. apply continuity_cos. Qed.
Lemma c1_abs : cont1 Rabs.
Proof. intros x. apply Rcontinuity_abs. Qed.
Lemma c1_ext f g : (forall x, f x = g x) -> cont1 f -> cont1 g.
Proof. intros E F x. apply (continuity_pt_ext f); auto. Qed.

Lemma c2_fst f : cont1 f -> cont2 (fun x _ => f x).
Proof. intros F x y. apply (continuity_1d_2d_pt_comp f (fun x _ => x)); [apply F|apply continuity_2d_pt_id1]. Qed.
Lemma c2_snd f : cont1 f -> cont2 (fun _ y => f y).
Proof. intros F x y. apply (continuity_1d_2d_pt_comp f (fun _ y => y)); [apply F|apply continuity_2d_pt_id2]. Qed.
Lemma c2_const c : cont2 (fun _ _ => c).
Proof. intros x y. apply continuity_2d_pt_const. Qed.
Lemma c2_plus f g : cont2 f -> cont2 g -> cont2 (fun x y => f x y + g x y).
Proof. intros F G x y. now apply continuity_2d_pt_plus. Qed.
Lemma c2_minus f g : cont2 f -> cont2 g -> cont2 (fun x y => f x y - g x y).
Proof. intros F G x y. now apply continuity_2d_pt_minus. Qed.
Lemma c2_mult f g : cont2 f -> cont2 g -> cont2 (fun x y => f x y * g x y).
Proof. intros F G x y. now apply continuity_2d_pt_mult. Qed.
Lemma c2_opp f : cont2 f -> cont2 (fun x y => - f x y).
Proof. intros F x y. now apply continuity_2d_pt_opp. Qed.
Lemma c2_comp1 f g : cont1 f -> cont2 g -> cont2 (fun x y => f (g x y)).
Proof. intros F G x y. apply continuity_1d_2d_pt_comp; auto. Qed.
Lemma c2_ext f g : (forall x y, f x y = g x y) -> cont2 f -> cont2 g.
Proof. intros E F x y. apply (continuity_2d_pt_ext f); auto. Qed.

Lemma c2_at_comp f p q x y : continuity_2d_pt f (p x y) (q x y) -> continuity_2d_pt p x y -> continuity_2d_pt q x y ->
  continuity_2d_pt (fun x y => f (p x y) (q x y)) x y.
Proof.
  intros F P Q eps. destruct (F eps) as [d D]. destruct (P d) as [d1 D1]. destruct (Q d) as [d2 D2].
  assert (M : 0 < Rmin d1 d2) by (apply Rmin_glb_lt; apply cond_pos). exists (mkposreal _ M). cbn. intros u v Hu Hv.
  pose proof (Rmin_l d1 d2). pose proof (Rmin_r d1 d2). apply D; [apply D1; lra|apply D2; lra].
Qed.
Lemma c2_comp f p q : cont2 f -> cont2 p -> cont2 q -> cont2 (fun x y => f (p x y) (q x y)).
Proof. intros F P Q x y. apply c2_at_comp; auto. Qed.
Lemma c2_swap f : cont2 f -> cont2 (fun x y => f y x).
Proof. intros F. apply (c2_comp f (fun _ y => y) (fun x _ => x)); [exact F|apply c2_snd, c1_id|apply c2_fst, c1_id]. Qed.

Lemma c2_along f p q : cont2 f -> cont1 p -> cont1 q -> cont1 (fun t => f (p t) (q t)).
Proof.
  intros F P Q t. apply continuity_pt_locally. intros eps. destruct (F (p t) (q t) eps) as [d D].
  pose proof (proj1 (continuity_pt_locally _ _) (P t) d) as [d1 D1]. pose proof (proj1 (continuity_pt_locally _ _) (Q t) d) as [d2 D2].
  assert (M : 0 < Rmin d1 d2) by (apply Rmin_glb_lt; apply cond_pos). exists (mkposreal _ M). intros u Hu.
  pose proof (Rmin_l d1 d2). pose proof (Rmin_r d1 d2).
  assert (B : forall d' : posreal, Rmin d1 d2 <= d' -> ball t d' u) by (intros d' Hd; eapply ball_le; [|exact Hu]; exact Hd).
  apply D; [apply D1, B; lra|apply D2, B; lra].
Qed.
Lemma c2_in_y f x : cont2 f -> cont1 (f x).
Proof. intros F. apply (c2_along f (fun _ => x) (fun y => y)); [exact F|apply c1_const|apply c1_id]. Qed.
Lemma c2_in_x f y : cont2 f -> cont1 (fun x => f x y).
Proof. intros F. apply (c2_along f (fun x => x) (fun _ => y)); [exact F|apply c1_id|apply c1_const]. Qed.

Ltac c1s := repeat first [assumption | apply c1_const | apply c1_id | apply c1_sin | apply c1_cos | apply c1_abs
  | apply c1_plus | apply c1_minus | apply c1_mult | apply c1_opp].

(** ** Integrals of continuous functions *)
Definition I (f : R -> R) (a b : R) : R := RInt f a b.
Lemma I_ex f a b : cont1 f -> ex_RInt f a b.
Proof. intros F. apply (ex_RInt_continuous (V := R_CompleteNormedModule)). intros z _. now apply c1_continuous. Qed.
Lemma I_is f a b : cont1 f -> is_RInt f a b (I f a b).
Proof. intros F. apply (RInt_correct (V := R_CompleteNormedModule)), I_ex, F. Qed.
Lemma I_plus f g a b : cont1 f -> cont1 g -> I (fun x => f x + g x) a b = I f a b + I g a b.
Proof. intros F G. apply (RInt_plus (V := R_CompleteNormedModule)); now apply I_ex. Qed.
Lemma I_minus f g a b : cont1 f -> cont1 g -> I (fun x => f x - g x) a b = I f a b - I g a b.
Proof. intros F G. apply (RInt_minus (V := R_CompleteNormedModule)); now apply I_ex. Qed.
Lemma I_scal k f a b : cont1 f -> I (fun x => k * f x) a b = k * I f a b.
Proof. intros F. apply (RInt_scal (V := R_CompleteNormedModule)); now apply I_ex. Qed.
Lemma I_lin f u v a b : cont1 f -> I (fun y => u * f (u * y + v)) a b = I f (u * a + v) (u * b + v).
Proof. intros F. apply (RInt_comp_lin (V := R_CompleteNormedModule)); now apply I_ex. Qed.
Lemma I_chasles f a b c : cont1 f -> I f a b + I f b c = I f a c.
Proof. intros F. apply (RInt_Chasles (V := R_CompleteNormedModule)); now apply I_ex. Qed.
Lemma I_ext (f g : R -> R) a b : (forall x, Rmin a b < x < Rmax a b -> f x = g x) -> I f a b = I g a b.
Proof. apply (RInt_ext (V := R_CompleteNormedModule)). Qed.
Lemma I_ext_all (f g : R -> R) a b : (forall x, f x = g x) -> I f a b = I g a b.
Proof. intros E. apply I_ext. auto. Qed.

Lemma I_point f a : I f a a = 0.
Proof. apply (RInt_point (V := R_CompleteNormedModule)). Qed.

(** stretched to the unit interval *)
Lemma I_unit f a b : cont1 f -> I f a b = I (fun s => (b - a) * f ((b - a) * s + a)) 0 1.
Proof. intros F. rewrite I_lin by exact F. f_equal; ring. Qed.

Lemma I_param f a b : a <= b -> cont2 f -> cont1 (fun x => I (f x) a b).
Proof.
  intros L F x. apply continuity_pt_locally. intros eps.
  assert (P : 0 < eps / (2 * (b - a + 1))) by (apply Rdiv_lt_0_compat; [apply cond_pos|lra]).
  destruct (uniform_continuity_2d f (x - 1) (x + 1) a b (fun u v _ _ => F u v) (mkposreal _ P)) as [d D].
  assert (M : 0 < Rmin d 1) by (apply Rmin_glb_lt; [apply cond_pos|lra]). exists (mkposreal _ M). intros u Hu.
  change (Rabs (u - x) < Rmin d 1) in Hu. pose proof (Rmin_l d 1). pose proof (Rmin_r d 1). pose proof Hu as Hu'. apply Rabs_def2 in Hu'.
  rewrite <- I_minus by now apply c2_in_y.
  assert (B : Rabs (I (fun y => f u y - f x y) a b) <= (b - a) * (eps / (2 * (b - a + 1)))).
  { apply abs_RInt_le_const; [exact L|apply I_ex, c1_minus; now apply c2_in_y|]. intros t Ht. apply Rlt_le. apply (D x t u t); try lra.
    rewrite Rminus_eq_0, Rabs_R0. apply cond_pos. }
  eapply Rle_lt_trans; [exact B|]. pose proof (cond_pos eps). apply Rmult_lt_reg_r with (2 * (b - a + 1)); [lra|].
  replace ((b - a) * (eps / (2 * (b - a + 1))) * (2 * (b - a + 1))) with ((b - a) * eps) by (field; lra). nra.
Qed.

Lemma I_bounds f p q : cont2 f -> cont1 p -> cont1 q -> cont1 (fun x => I (f x) (p x) (q x)).
Proof.
  intros F P Q. apply (c1_ext (fun x => I (fun s => (q x - p x) * f x ((q x - p x) * s + p x)) 0 1)).
  - intros x. symmetry. now apply I_unit, c2_in_y.
  - apply (I_param (fun x s => (q x - p x) * f x ((q x - p x) * s + p x))); [lra|].
    assert (D : cont2 (fun x _ => q x - p x)) by (apply (c2_fst (fun x => q x - p x)), c1_minus; assumption).
    apply c2_mult; [exact D|]. apply (c2_comp f (fun x _ => x)); [exact F|apply c2_fst, c1_id|].
    apply c2_plus; [apply c2_mult; [exact D|apply c2_snd, c1_id]|now apply c2_fst].
Qed.

Lemma I_deriv f a b : cont1 f -> is_derive (fun b => I f a b) b (f b).
Proof.
  intros F. apply (is_derive_RInt (V := R_NormedModule) f (fun b => I f a b) a b).
  - exists (mkposreal 1 Rlt_0_1). intros y _. now apply I_is.
  - now apply c1_continuous.
Qed.

(** ** The two ways of integrating over a triangle *)
Lemma I_triangle k : cont2 k ->
  I (fun x => I (k x) x 1) 0 1 = I (fun y => I (fun x => k x y) 0 y) 0 1.
Proof.
  intros K. set (A := fun t => I (fun y => I (fun x => k x y) 0 y) 0 t). set (B := fun t => I (fun x => I (k x) x t) 0 t).
  assert (CA : cont1 (fun y => I (fun x => k x y) 0 y)) by (apply (I_bounds (fun y x => k x y) (fun _ => 0) (fun y => y)); [now apply c2_swap|c1s|c1s]).
  assert (CB : forall t, cont1 (fun x => I (k x) x t)) by (intros t; apply (I_bounds k (fun x => x) (fun _ => t)); [exact K|c1s|c1s]).
  assert (DA : forall t, is_derive A t (I (fun x => k x t) 0 t)) by (intros t; apply (I_deriv _ 0 t CA)).
  assert (DK : forall x t, is_derive (fun t => I (k x) x t) t (k x t)) by (intros x t; apply I_deriv; now apply c2_in_y).
  assert (DD : forall t x, Derive (fun z => I (k x) x z) t = k x t) by (intros; apply is_derive_unique, DK).
  assert (CD : cont2 (fun u v => Derive (fun z => I (k v) v z) u)) by (apply (c2_ext (fun u v => k v u)); [intros; now rewrite DD|now apply c2_swap]).
  assert (DB : forall t, is_derive B t (I (fun x => k x t) 0 t)).
  { intros t. pose proof (is_derive_RInt_param_bound_comp (fun t x => I (k x) x t) (fun _ => 0) (fun t => t) t 0 1) as L. cbv beta in L.
    assert (E : I (fun x => k x t) 0 t =
      I (fun x => Derive (fun u => I (k x) x u) t) 0 t + - I (k 0) 0 t * 0 + I (k t) t t * 1).
    { rewrite I_point, (I_ext_all (fun x => Derive (fun u => I (k x) x u) t) (fun x => k x t)) by (intros; apply DD).
      ring. }
    rewrite E. apply L.
    - exists (mkposreal 1 Rlt_0_1). intros y _. now apply I_ex.
    - exists (mkposreal 1 Rlt_0_1). exists (mkposreal 1 Rlt_0_1). intros y _. now apply I_ex.
    - exists (mkposreal 1 Rlt_0_1). exists (mkposreal 1 Rlt_0_1). intros y _. now apply I_ex.
    - apply (is_derive_const (V := R_NormedModule)).
    - apply (is_derive_id (K := R_AbsRing)).
    - exists (mkposreal 1 Rlt_0_1). exists (mkposreal 1 Rlt_0_1). intros y _ x _. eexists. apply DK.
    - intros. apply CD.
    - exists (mkposreal 1 Rlt_0_1). intros. apply CD.
    - exists (mkposreal 1 Rlt_0_1). intros. apply CD.
    - apply CB.
    - apply CB. }
  assert (Z : (fun t => B t - A t) 0 = (fun t => B t - A t) 1).
  { apply (eq_is_derive (V := R_NormedModule) (fun t => B t - A t) 0 1); [|lra]. intros t _.
    pose proof (is_derive_minus (V := R_NormedModule) B A t _ _ (DB t) (DA t)) as D. rewrite minus_eq_zero in D. exact D. }
  cbv beta in Z. assert (A0 : A 0 = 0) by exact (I_point _ 0). assert (B0 : B 0 = 0) by exact (I_point _ 0). rewrite A0, B0 in Z.
  change (B 1 = A 1). clear - Z. generalize dependent (B 1). generalize (A 1). intros. lra.
Qed.
