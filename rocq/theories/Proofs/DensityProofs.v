(** * Differentiating functions of two variables, and the surface elements they span *)
From Coq Require Import Reals Lra Lia.
From Verif Require Import Model.Vector Spec.RVec Spec.DensitySpec Proofs.RVecProofs.
Local Open Scope R_scope.

Lemma d_ext f g a b p q : (forall x y, f x y = g x y) -> differentiable_at g a b p q -> differentiable_at f a b p q.
Proof. intros E D eps He. destruct (D eps He) as (del & Hd & K). exists del. split; [exact Hd|]. intros h k Hh Hk. rewrite !E. now apply K. Qed.

(** it is enough that the functions agree near the point *)
Lemma d_near f g a b p q r : 0 < r -> (forall x y, Rabs (x - a) < r -> Rabs (y - b) < r -> f x y = g x y) ->
  differentiable_at g a b p q -> differentiable_at f a b p q.
Proof.
  intros Hr E D eps He. destruct (D eps He) as (del & Hd & K). exists (Rmin del r). split; [now apply Rmin_pos|]. intros h k Hh Hk.
  pose proof (Rmin_l del r). pose proof (Rmin_r del r).
  rewrite (E (a + h) (b + k)), (E a b).
  - apply K; lra.
  - replace (a - a) with 0 by ring. rewrite Rabs_R0. lra.
  - replace (b - b) with 0 by ring. rewrite Rabs_R0. lra.
  - replace (a + h - a) with h by ring. lra.
  - replace (b + k - b) with k by ring. lra.
Qed.

Lemma d_eq f a b p q p' q' : differentiable_at f a b p q -> p = p' -> q = q' -> differentiable_at f a b p' q'.
Proof. intros D -> ->. exact D. Qed.

Lemma d_const c a b : differentiable_at (fun _ _ => c) a b 0 0.
Proof.
  intros eps He. exists 1. split; [lra|]. intros h k _ _. replace (c - c - (0 * h + 0 * k)) with 0 by ring. rewrite Rabs_R0.
  pose proof (Rabs_pos h). pose proof (Rabs_pos k). apply Rmult_le_pos; lra.
Qed.
Lemma d_fst a b : differentiable_at (fun x _ => x) a b 1 0.
Proof.
  intros eps He. exists 1. split; [lra|]. intros h k _ _. replace (a + h - a - (1 * h + 0 * k)) with 0 by ring. rewrite Rabs_R0.
  pose proof (Rabs_pos h). pose proof (Rabs_pos k). apply Rmult_le_pos; lra.
Qed.
Lemma d_snd a b : differentiable_at (fun _ y => y) a b 0 1.
Proof.
  intros eps He. exists 1. split; [lra|]. intros h k _ _. replace (b + k - b - (0 * h + 1 * k)) with 0 by ring. rewrite Rabs_R0.
  pose proof (Rabs_pos h). pose proof (Rabs_pos k). apply Rmult_le_pos; lra.
Qed.

Lemma d_plus f g a b p q p' q' : differentiable_at f a b p q -> differentiable_at g a b p' q' ->
  differentiable_at (fun x y => f x y + g x y) a b (p + p') (q + q').
Proof.
  intros D1 D2 eps He. destruct (D1 (eps / 2) ltac:(lra)) as (d1 & H1 & K1). destruct (D2 (eps / 2) ltac:(lra)) as (d2 & H2 & K2).
  exists (Rmin d1 d2). split; [now apply Rmin_pos|]. intros h k Hh Hk. pose proof (Rmin_l d1 d2). pose proof (Rmin_r d1 d2).
  specialize (K1 h k ltac:(lra) ltac:(lra)). specialize (K2 h k ltac:(lra) ltac:(lra)).
  replace (f (a + h) (b + k) + g (a + h) (b + k) - (f a b + g a b) - ((p + p') * h + (q + q') * k))
    with ((f (a + h) (b + k) - f a b - (p * h + q * k)) + (g (a + h) (b + k) - g a b - (p' * h + q' * k))) by ring.
  eapply Rle_trans; [apply Rabs_triang|]. lra.
Qed.

Lemma d_lipschitz f a b p q : differentiable_at f a b p q -> exists del M, 0 < del /\ 0 < M /\
  forall h k, Rabs h < del -> Rabs k < del -> Rabs (f (a + h) (b + k) - f a b) <= M * (Rabs h + Rabs k).
Proof.
  intros D. destruct (D 1 ltac:(lra)) as (del & Hd & K). exists del, (Rabs p + Rabs q + 1). split; [exact Hd|].
  pose proof (Rabs_pos p). pose proof (Rabs_pos q). split; [lra|]. intros h k Hh Hk. specialize (K h k Hh Hk).
  replace (f (a + h) (b + k) - f a b) with ((f (a + h) (b + k) - f a b - (p * h + q * k)) + (p * h + q * k)) by ring.
  pose proof (Rabs_pos h). pose proof (Rabs_pos k).
  eapply Rle_trans; [apply Rabs_triang|]. pose proof (Rabs_triang (p * h) (q * k)) as T. rewrite !Rabs_mult in T.
  assert (0 <= Rabs p * Rabs k) by now apply Rmult_le_pos. assert (0 <= Rabs q * Rabs h) by now apply Rmult_le_pos. nra.
Qed.

Lemma d_comp g f a b p q l : differentiable_at f a b p q -> derivable_pt_lim g (f a b) l ->
  differentiable_at (fun x y => g (f x y)) a b (l * p) (l * q).
Proof.
  intros D G eps He. destruct (d_lipschitz f a b p q D) as (d0 & M & H0 & HM & L).
  pose proof (Rabs_pos l) as Pl.
  assert (E1 : 0 < eps / (2 * (Rabs l + 1))) by (apply Rdiv_lt_0_compat; lra).
  assert (E2 : 0 < eps / (2 * M)) by (apply Rdiv_lt_0_compat; lra).
  destruct (D _ E1) as (d1 & H1 & K1). destruct (G _ E2) as (d2 & G2).
  assert (H2 : 0 < d2 / (2 * M)) by (apply Rdiv_lt_0_compat; [apply cond_pos|lra]).
  exists (Rmin d0 (Rmin d1 (d2 / (2 * M)))). split; [repeat apply Rmin_pos; auto|]. intros h k Hh Hk.
  pose proof (Rmin_l d0 (Rmin d1 (d2 / (2 * M)))). pose proof (Rmin_r d0 (Rmin d1 (d2 / (2 * M)))).
  pose proof (Rmin_l d1 (d2 / (2 * M))). pose proof (Rmin_r d1 (d2 / (2 * M))).
  specialize (K1 h k ltac:(lra) ltac:(lra)). specialize (L h k ltac:(lra) ltac:(lra)).
  set (y := f a b) in *. set (dy := f (a + h) (b + k) - y) in *. pose proof (Rabs_pos h) as Ph. pose proof (Rabs_pos k) as Pk.
  assert (B : Rabs dy < d2).
  { eapply Rle_lt_trans; [exact L|]. assert (Q : Rabs h + Rabs k < 2 * (d2 / (2 * M))) by lra.
    apply Rmult_lt_compat_l with (r := M) in Q; [|lra]. replace (M * (2 * (d2 / (2 * M)))) with (pos d2) in Q by (field; lra). exact Q. }
  assert (S : Rabs (g (y + dy) - g y - l * dy) <= eps / (2 * M) * Rabs dy).
  { destruct (Req_dec dy 0) as [Z|Z].
    - rewrite Z, Rplus_0_r. replace (g y - g y - l * 0) with 0 by ring. rewrite Rabs_R0. lra.
    - specialize (G2 dy Z B). replace (g (y + dy) - g y - l * dy) with (((g (y + dy) - g y) / dy - l) * dy) by (field; auto).
      rewrite Rabs_mult. apply Rmult_le_compat_r; [apply Rabs_pos|lra]. }
  replace (f (a + h) (b + k)) with (y + dy) by (unfold dy; ring).
  replace (g (y + dy) - g y - (l * p * h + l * q * k)) with ((g (y + dy) - g y - l * dy) + l * (dy - (p * h + q * k))) by ring.
  eapply Rle_trans; [apply Rabs_triang|]. rewrite (Rabs_mult l).
  assert (T1 : eps / (2 * M) * Rabs dy <= eps / 2 * (Rabs h + Rabs k)).
  { apply Rmult_le_compat_l with (r := eps / (2 * M)) in L; [|lra]. replace (eps / (2 * M) * (M * (Rabs h + Rabs k))) with (eps / 2 * (Rabs h + Rabs k)) in L by (field; lra). exact L. }
  assert (T2 : Rabs l * Rabs (dy - (p * h + q * k)) <= eps / 2 * (Rabs h + Rabs k)).
  { apply Rle_trans with ((Rabs l + 1) * (eps / (2 * (Rabs l + 1)) * (Rabs h + Rabs k))).
    - apply Rmult_le_compat; [exact Pl|apply Rabs_pos|lra|exact K1].
    - right. field. lra. }
  lra.
Qed.

Lemma deriv_sq x : derivable_pt_lim (fun t => t * t) x (2 * x).
Proof. replace (2 * x) with (1 * id x + id x * 1) by (unfold id; ring). apply (derivable_pt_lim_mult id id); apply derivable_pt_lim_id. Qed.
Lemma deriv_scal c x : derivable_pt_lim (fun t => c * t) x c.
Proof. pose proof (derivable_pt_lim_scal id c x 1 (derivable_pt_lim_id x)) as D. rewrite Rmult_1_r in D. exact D. Qed.

Lemma d_scal c f a b p q : differentiable_at f a b p q -> differentiable_at (fun x y => c * f x y) a b (c * p) (c * q).
Proof. intros D. apply (d_comp (fun t => c * t) f a b p q c D). apply deriv_scal. Qed.
Lemma d_opp f a b p q : differentiable_at f a b p q -> differentiable_at (fun x y => - f x y) a b (- p) (- q).
Proof.
  intros D. apply (d_ext _ (fun x y => -1 * f x y)); [intros; ring|]. apply (d_eq _ _ _ (-1 * p) (-1 * q)); [now apply d_scal|ring|ring].
Qed.
Lemma d_minus f g a b p q p' q' : differentiable_at f a b p q -> differentiable_at g a b p' q' ->
  differentiable_at (fun x y => f x y - g x y) a b (p - p') (q - q').
Proof. intros D1 D2. apply (d_plus f (fun x y => - g x y)); [exact D1|now apply d_opp]. Qed.

Lemma d_mult f g a b p q p' q' : differentiable_at f a b p q -> differentiable_at g a b p' q' ->
  differentiable_at (fun x y => f x y * g x y) a b (p * g a b + f a b * p') (q * g a b + f a b * q').
Proof.
  intros D1 D2.
  pose proof (d_comp (fun t => t * t) _ a b _ _ _ (d_plus f g a b p q p' q' D1 D2) (deriv_sq _)) as S1.
  pose proof (d_comp (fun t => t * t) _ a b _ _ _ (d_minus f g a b p q p' q' D1 D2) (deriv_sq _)) as S2.
  pose proof (d_scal (/ 4) _ a b _ _ (d_minus _ _ a b _ _ _ _ S1 S2)) as S. cbv beta in S.
  eapply d_eq; [apply (d_ext _ (fun x y => / 4 * ((f x y + g x y) * (f x y + g x y) - (f x y - g x y) * (f x y - g x y)))); [intros; field|exact S]| |]; field.
Qed.

Lemma d_unique f a b p q p' q' : differentiable_at f a b p q -> differentiable_at f a b p' q' -> p = p' /\ q = q'.
Proof.
  intros D1 D2.
  assert (N : forall e, 0 < e -> Rabs (p - p') <= e /\ Rabs (q - q') <= e).
  { intros e He. destruct (D1 (e / 2) ltac:(lra)) as (d1 & H1 & K1). destruct (D2 (e / 2) ltac:(lra)) as (d2 & H2 & K2).
    set (t := Rmin d1 d2 / 2). pose proof (Rmin_pos d1 d2 H1 H2). pose proof (Rmin_l d1 d2). pose proof (Rmin_r d1 d2).
    assert (Ht : 0 < t) by (unfold t; lra). assert (At : Rabs t = t) by (apply Rabs_pos_eq; lra). assert (A0 : Rabs 0 = 0) by apply Rabs_R0.
    assert (t < d1) by (unfold t; lra). assert (t < d2) by (unfold t; lra).
    split; apply Rmult_le_reg_r with t; auto.
    - specialize (K1 t 0 ltac:(lra) ltac:(lra)). specialize (K2 t 0 ltac:(lra) ltac:(lra)). rewrite At, A0 in *.
      rewrite <- At at 1. rewrite <- Rabs_mult.
      set (F := f (a + t) (b + 0) - f a b) in *. replace ((p - p') * t) with ((F - (p' * t + q' * 0)) - (F - (p * t + q * 0))) by ring.
      eapply Rle_trans; [apply Rabs_triang|]. rewrite Rabs_Ropp. lra.
    - specialize (K1 0 t ltac:(lra) ltac:(lra)). specialize (K2 0 t ltac:(lra) ltac:(lra)). rewrite At, A0 in *.
      rewrite <- At at 1. rewrite <- Rabs_mult.
      set (F := f (a + 0) (b + t) - f a b) in *. replace ((q - q') * t) with ((F - (p' * 0 + q' * t)) - (F - (p * 0 + q * t))) by ring.
      eapply Rle_trans; [apply Rabs_triang|]. rewrite Rabs_Ropp. lra. }
  assert (Z : forall x, (forall e, 0 < e -> Rabs x <= e) -> x = 0).
  { intros x Hx. destruct (Req_dec x 0) as [|C]; auto. pose proof (Rabs_pos_lt x C). specialize (Hx (Rabs x / 2) ltac:(lra)). lra. }
  split; [assert (p - p' = 0) by (apply Z; intros e He; now apply N)|assert (q - q' = 0) by (apply Z; intros e He; now apply N)]; lra.
Qed.

Lemma density_unique f a b g g' : density_at f a b g -> density_at f a b g' -> g = g'.
Proof.
  intros (da & db & (X & Y & Z) & E) (da' & db' & (X' & Y' & Z') & E').
  destruct (d_unique _ _ _ _ _ _ _ X X') as [X1 X2]. destruct (d_unique _ _ _ _ _ _ _ Y Y') as [Y1 Y2]. destruct (d_unique _ _ _ _ _ _ _ Z Z') as [Z1 Z2].
  assert (da = da') as <- by now apply V3_eq. assert (db = db') as <- by now apply V3_eq.
  set (n := vnorm _) in *. assert (n <> 0) by (intros C; rewrite C in E; lra). apply Rmult_eq_reg_l with n; auto. lra.
Qed.

(** ** Vectors *)

Lemma dv_ext f g a b da db : (forall x y, f x y = g x y) -> derivative_at g a b da db -> derivative_at f a b da db.
Proof. intros E (X & Y & Z). repeat split; (eapply d_ext; [|eassumption]); intros; now rewrite E. Qed.
Lemma dv_near f g a b da db r : 0 < r -> (forall x y, Rabs (x - a) < r -> Rabs (y - b) < r -> f x y = g x y) ->
  derivative_at g a b da db -> derivative_at f a b da db.
Proof. intros Hr E (X & Y & Z). repeat split; (eapply d_near; [exact Hr| |eassumption]); intros; now rewrite E. Qed.

Lemma dv_scale k f a b p q da db : differentiable_at k a b p q -> derivative_at f a b da db ->
  derivative_at (fun x y => vscale (k x y) (f x y)) a b (vadd (vscale p (f a b)) (vscale (k a b) da)) (vadd (vscale q (f a b)) (vscale (k a b) db)).
Proof. intros K (X & Y & Z). unfold vscale, vadd. repeat split; vproj; (eapply d_mult; [exact K|assumption]). Qed.
Lemma dv_add f g a b da db da' db' : derivative_at f a b da db -> derivative_at g a b da' db' ->
  derivative_at (fun x y => vadd (f x y) (g x y)) a b (vadd da da') (vadd db db').
Proof. intros (X & Y & Z) (X' & Y' & Z'). unfold vadd. repeat split; vproj; (eapply d_plus; assumption). Qed.
Lemma dv_const c a b : derivative_at (fun _ _ => c) a b v0 v0.
Proof. unfold v0. repeat split; vproj; apply d_const. Qed.
Lemma dv_dot f g a b da db da' db' : derivative_at f a b da db -> derivative_at g a b da' db' ->
  differentiable_at (fun x y => vdot (f x y) (g x y)) a b (vdot da (g a b) + vdot (f a b) da') (vdot db (g a b) + vdot (f a b) db').
Proof.
  intros (X & Y & Z) (X' & Y' & Z').
  pose proof (d_plus _ _ _ _ _ _ _ _ (d_plus _ _ _ _ _ _ _ _ (d_mult _ _ _ _ _ _ _ _ X X') (d_mult _ _ _ _ _ _ _ _ Y Y')) (d_mult _ _ _ _ _ _ _ _ Z Z')) as D.
  eapply d_eq; [exact D| |]; unfold vdot; ring.
Qed.

Lemma density_scale s f a b g : s * s = 1 -> density_at f a b g -> density_at (fun x y => vscale s (f x y)) a b g.
Proof.
  intros Hs (da & db & D & E). pose proof (dv_scale (fun _ _ => s) f a b 0 0 da db (d_const s a b) D) as D2.
  do 2 eexists. split; [exact D2|]. rewrite <- E. f_equal.
  replace (vcross _ _) with (vscale (s * s) (vcross da db)) by vring. rewrite Hs. f_equal. vring.
Qed.

Lemma deriv_inv_sqrt x : 0 < x -> derivable_pt_lim (fun t => / sqrt t) x (- (/ (2 * sqrt x)) / (sqrt x * sqrt x)).
Proof.
  intros Hx. assert (0 < sqrt x) by now apply sqrt_lt_R0.
  replace (- / (2 * sqrt x) / (sqrt x * sqrt x)) with ((0 * sqrt x - / (2 * sqrt x) * 1) / Rsqr (sqrt x)) by (unfold Rsqr; field; lra).
  assert (D : derivable_pt_lim (fct_cte 1 / sqrt)%F x ((0 * sqrt x - / (2 * sqrt x) * fct_cte 1 x) / Rsqr (sqrt x))).
  { apply derivable_pt_lim_div; [apply derivable_pt_lim_const|now apply derivable_pt_lim_sqrt|lra]. }
  unfold fct_cte in D at 2. intros eps He. destruct (D eps He) as (del & K). exists del. intros h Hh Hd. specialize (K h Hh Hd).
  unfold div_fct, fct_cte, Rdiv in K. rewrite !Rmult_1_l in K. unfold Rdiv. exact K.
Qed.

(** the direction of a moving vector: what it sweeps on the unit sphere *)
Lemma dv_unit v a b da db : derivative_at v a b da db -> v a b <> v0 ->
  exists wa wb, derivative_at (fun x y => vunit (v x y)) a b wa wb /\
    vcross wa wb = vscale (vdot (v a b) (vcross da db) / (vdot (v a b) (v a b) * vdot (v a b) (v a b))) (v a b).
Proof.
  intros D N. pose proof (vdot_self_pos _ N) as P. pose proof (dv_dot v v a b da db da db D D) as D2.
  pose proof (d_comp (fun t => / sqrt t) _ a b _ _ _ D2 (deriv_inv_sqrt _ P)) as D3. cbv beta in D3.
  pose proof (dv_scale (fun x y => / vnorm (v x y)) v a b _ _ da db D3 D) as D4.
  do 2 eexists. split; [exact D4|]. cbv beta. set (w := v a b) in *. unfold vnorm. set (n := sqrt (vdot w w)).
  assert (Hn : 0 < n) by (apply sqrt_lt_R0; exact P). assert (Sn : n * n = vdot w w) by (apply sqrt_sqrt; lra).
  rewrite <- Sn. set (A := vdot da w + vdot w da). set (B := vdot db w + vdot w db).
  assert (EA : A = 2 * vdot w da) by (unfold A; rewrite (vdot_comm da w); ring). assert (EB : B = 2 * vdot w db) by (unfold B; rewrite (vdot_comm db w); ring).
  rewrite EA, EB.
  replace (- / (2 * n) / (n * n) * (2 * vdot w da)) with (- (vdot w da) / (n * n * n)) by (field; lra).
  replace (- / (2 * n) / (n * n) * (2 * vdot w db)) with (- (vdot w db) / (n * n * n)) by (field; lra).
  assert (Q : vadd (vscale (n * n) (vcross da db)) (vscale (-1) (vadd (vscale (vdot w da) (vcross w db)) (vscale (vdot w db) (vcross da w)))) = vscale (vdot w (vcross da db)) w).
  { rewrite Sn. vring. }
  transitivity (vscale (/ (n * n * (n * n))) (vscale (vdot w (vcross da db)) w)).
  - rewrite <- Q. apply V3_eq; unfold vcross, vadd, vscale; vproj; field; lra.
  - apply V3_eq; unfold vscale; vproj; field; lra.
Qed.
