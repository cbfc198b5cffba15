(** * Averages of step functions *)
From Coq Require Import ZArith Reals List Lia Lra Psatz.
From Flocq Require Import Core.Raux.
From Verif Require Import Model.Num Model.NumX Model.Vector Spec.RVec Spec.EstimatorSpec Spec.MeanSpec Proofs.XBase Proofs.RVecProofs.
Import ListNotations.
Local Open Scope R_scope.

Lemma step_one f a b c : a < b -> (forall x, a < x < b -> f x = c) -> IsStepFun f a b.
Proof.
  intros Hab F. exists [a; b], [c]. unfold adapted_couple. rewrite Rmin_left, Rmax_right by lra.
  split; [|split; [reflexivity|split; [reflexivity|split; [reflexivity|]]]].
  - intros k Hk. cbn in Hk. assert (k = 0%nat) as -> by lia. cbn. lra.
  - intros k Hk. cbn in Hk. assert (k = 0%nat) as -> by lia. intros x (X1 & X2). cbn in *. apply F. lra.
Qed.

Lemma integral_piece f a b c : a <= b -> (forall x, a < x < b -> f x = c) -> integral f a b (c * (b - a)).
Proof.
  intros Hab F. destruct (Req_dec a b) as [<-|N].
  - exists (RiemannInt_P7 f a). rewrite RiemannInt_P9. ring.
  - assert (L : a < b) by lra. assert (pr : Riemann_integrable f a b).
    { intros eps. exists (mkStepFun (step_one f a b c L F)), (mkStepFun (StepFun_P4 a b 0)). split.
      - intros t _. cbn. unfold fct_cte. rewrite Rminus_diag_eq, Rabs_R0 by reflexivity. lra.
      - rewrite StepFun_P18, Rmult_0_l, Rabs_R0. apply cond_pos. }
    exists pr. rewrite (RiemannInt_P18 pr (RiemannInt_P14 a b c) Hab).
    + apply RiemannInt_P15.
    + intros x Hx. unfold fct_cte. apply F. lra.
Qed.

Lemma integral_join f a b c x y : a <= b <= c -> integral f a b x -> integral f b c y -> integral f a c (x + y).
Proof.
  intros (H1 & H2) (p & <-) (q & <-). exists (RiemannInt_P24 p q). symmetry. apply RiemannInt_P26.
Qed.

Lemma integral_lin f g a b k x y : integral f a b x -> integral g a b y -> integral (fun t => f t + k * g t) a b (x + k * y).
Proof. intros (p & <-) (q & <-). exists (RiemannInt_P10 k p q). apply RiemannInt_P13. Qed.

Lemma integral_const a b c : a <= b -> integral (fun _ => c) a b (c * (b - a)).
Proof. intros H. apply integral_piece; auto. Qed.

(** ** Averages of vectors *)
Lemma average_const x : average (fun _ => x) x.
Proof.
  assert (I : forall c, integral (fun _ => c) 0 1 c).
  { intros c. pose proof (integral_const 0 1 c ltac:(lra)) as H. now replace (c * (1 - 0)) with c in H by ring. }
  repeat split; apply I.
Qed.

Lemma average_two q x y : 0 <= q <= 1 -> average (fun v => if Rle_dec v q then x else y) (vadd (vscale q x) (vscale (1 - q) y)).
Proof.
  intros Hq. assert (I : forall p : rv -> R, integral (fun v => p (if Rle_dec v q then x else y)) 0 1 (p x * (q - 0) + p y * (1 - q))).
  { intros p. apply (integral_join _ 0 q 1); [lra| |].
    - apply integral_piece; [lra|]. intros v Hv. destruct (Rle_dec v q); [reflexivity|lra].
    - apply integral_piece; [lra|]. intros v Hv. destruct (Rle_dec v q); [lra|reflexivity]. }
  repeat split; unfold vadd, vscale; vproj.
  - replace (q * vx x + (1 - q) * vx y) with (vx x * (q - 0) + vx y * (1 - q)) by ring. apply (I (@vx R)).
  - replace (q * vy x + (1 - q) * vy y) with (vy x * (q - 0) + vy y * (1 - q)) by ring. apply (I (@vy R)).
  - replace (q * vz x + (1 - q) * vz y) with (vz x * (q - 0) + vz y * (1 - q)) by ring. apply (I (@vz R)).
Qed.

(** a function constant on each of [n] equal parts *)
Lemma equal_parts (f : R -> R) (n : nat) (c : nat -> R) : (0 < n)%nat ->
  (forall k u, (k < n)%nat -> INR k / INR n <= u < (INR k + 1) / INR n -> f u = c k) ->
  integral f 0 1 (fold_right Rplus 0 (map c (seq 0 n)) / INR n).
Proof.
  intros Hn F. assert (N0 : 0 < INR n) by (apply lt_0_INR; lia).
  assert (P : forall k, (k <= n)%nat -> integral f 0 (INR k / INR n) (fold_right Rplus 0 (map c (seq 0 k)) / INR n)).
  { induction k as [|k IH]; intros Hk.
    - replace (INR 0 / INR n) with 0 by (cbn; field; lra). replace (fold_right Rplus 0 (map c (seq 0 0)) / INR n) with (0 * (0 - 0)) by (cbn; field; lra).
      apply integral_piece; [lra|]. intros; lra.
    - rewrite seq_S, map_app, fold_right_app. cbn [map fold_right plus]. rewrite S_INR.
      assert (E : forall l z, fold_right Rplus z l = fold_right Rplus 0 l + z) by (induction l as [|a l IHl]; intros z; cbn; [ring|rewrite IHl; ring]).
      rewrite E. replace ((fold_right Rplus 0 (map c (seq 0 k)) + (c k + 0)) / INR n) with (fold_right Rplus 0 (map c (seq 0 k)) / INR n + c k * ((INR k + 1) / INR n - INR k / INR n)) by (field; lra).
      assert (Hk0 : 0 <= INR k / INR n) by (apply Rmult_le_pos; [apply pos_INR|left; now apply Rinv_0_lt_compat]).
      assert (Hk1 : INR k / INR n <= (INR k + 1) / INR n) by (apply Rmult_le_compat_r; [left; now apply Rinv_0_lt_compat|lra]).
      apply (integral_join _ 0 (INR k / INR n)); [lra|apply IH; lia|].
      apply integral_piece; [exact Hk1|]. intros x Hx. apply F; [lia|lra]. }
  specialize (P n (le_n n)). replace (INR n / INR n) with 1 in P by (field; lra). exact P.
Qed.

(** ** Means *)
Lemma mean_sub n : forall (P Q : list R -> rv -> Prop) x, (forall us y, P us y -> Q us y) -> mean n P x -> mean n Q x.
Proof.
  induction n as [|n IH]; intros P Q x H; cbn [mean]; [apply H|]. intros (g & G & A). exists g. split; [|exact A].
  intros u Hu. apply (IH (fun us => P (u :: us))); auto.
Qed.
Lemma mean_const n : forall (P : list R -> rv -> Prop) x, (forall us, P us x) -> mean n P x.
Proof.
  induction n as [|n IH]; intros P x H; cbn [mean]; [apply H|]. exists (fun _ => x). split; [|apply average_const].
  intros u _. apply IH. intros us. apply H.
Qed.
Lemma mean_two n (P : list R -> rv -> Prop) q x y : 0 <= q <= 1 -> (forall u, 0 < u < 1 -> u <= q -> mean n (fun us => P (u :: us)) x) ->
  (forall u, 0 < u < 1 -> q < u -> mean n (fun us => P (u :: us)) y) -> mean (S n) P (vadd (vscale q x) (vscale (1 - q) y)).
Proof.
  intros Hq X Y. cbn [mean]. exists (fun v => if Rle_dec v q then x else y). split; [|now apply average_two].
  intros u Hu. destruct (Rle_dec u q); [now apply X|]. apply Y; auto. lra.
Qed.

(** a number that chooses among [n] equal parts *)
Lemma mean_parts m (P : list R -> rv -> Prop) (a b : rv) (ds : list rv) : (0 < length ds)%nat ->
  (forall k d u, nth_error ds k = Some d -> INR k / INR (length ds) <= u < (INR k + 1) / INR (length ds) -> 0 < u < 1 ->
     mean m (fun us => P (u :: us)) (vadd a (vprod b (vscale (INR (length ds)) d)))) ->
  mean (S m) P (vadd a (vprod b (vtotal ds))).
Proof.
  intros Hn H. set (n := length ds) in *. assert (N0 : 0 < INR n) by (apply lt_0_INR; lia).
  set (pick := fun u => nth (Z.to_nat (Zfloor (INR n * u))) ds v0).
  assert (Pk : forall k d u, nth_error ds k = Some d -> INR k / INR n <= u < (INR k + 1) / INR n -> pick u = d).
  { intros k d u Ek Hu. unfold pick. assert (Fl : Zfloor (INR n * u) = Z.of_nat k).
    { apply Zfloor_imp. rewrite plus_IZR, <- INR_IZR_INZ. destruct Hu as [A B]. split.
      - apply Rmult_le_compat_l with (r := INR n) in A; [|lra]. replace (INR n * (INR k / INR n)) with (INR k) in A by (field; lra). exact A.
      - apply Rmult_lt_compat_l with (r := INR n) in B; [|lra]. replace (INR n * ((INR k + 1) / INR n)) with (INR k + 1) in B by (field; lra). exact B. }
    rewrite Fl, Nat2Z.id. now apply nth_error_nth. }
  assert (Ex : forall u, 0 <= u < 1 -> exists k d, nth_error ds k = Some d /\ INR k / INR n <= u < (INR k + 1) / INR n).
  { intros u Hu. set (k := Z.to_nat (Zfloor (INR n * u))). assert (F0 : (0 <= Zfloor (INR n * u))%Z) by (apply Zfloor_lub; cbn; nra).
    assert (E : INR k = IZR (Zfloor (INR n * u))) by (unfold k; rewrite INR_IZR_INZ, Z2Nat.id; auto).
    pose proof (Zfloor_lb (INR n * u)) as L1. pose proof (Zfloor_ub (INR n * u)) as L2. rewrite <- E in L1, L2.
    assert (Kn : (k < n)%nat) by (apply INR_lt; nra).
    destruct (nth_error ds k) as [d|] eqn:Ek; [|apply nth_error_None in Ek; lia]. exists k, d. split; [exact Ek|]. split.
    - apply Rmult_le_reg_l with (INR n); [lra|]. replace (INR n * (INR k / INR n)) with (INR k) by (field; lra). exact L1.
    - apply Rmult_lt_reg_l with (INR n); [lra|]. replace (INR n * ((INR k + 1) / INR n)) with (INR k + 1) by (field; lra). exact L2. }
  cbn [mean]. exists (fun u => vadd a (vprod b (vscale (INR n) (pick u)))). split.
  - intros u Hu. destruct (Ex u ltac:(lra)) as (k & d & Ek & Hk). rewrite (Pk k d u Ek Hk). now apply (H k).
  - assert (I : forall p : rv -> R, p v0 = 0 -> (forall x y, p (vadd x y) = p x + p y) -> integral (fun u => p (pick u)) 0 1 (p (vtotal ds) / INR n)).
    { intros p p0 pa. replace (p (vtotal ds)) with (fold_right Rplus 0 (map (fun k => p (nth k ds v0)) (seq 0 n))).
      - apply equal_parts; [exact Hn|]. intros k u Hk Hu. destruct (nth_error ds k) as [d|] eqn:Ek; [|apply nth_error_None in Ek; unfold n in Hk; lia].
        rewrite (Pk k d u Ek Hu). f_equal. symmetry. now apply nth_error_nth.
      - unfold n. clear - p0 pa. induction ds as [|d l IH]; cbn [length seq map fold_right vtotal]; [symmetry; exact p0|].
        cbn [nth]. rewrite <- seq_shift, map_map. unfold vtotal in IH. cbn [vtotal fold_right]. rewrite pa, <- IH. f_equal. }
    assert (J : forall A B (p : rv -> R), p v0 = 0 -> (forall x y, p (vadd x y) = p x + p y) ->
      integral (fun u => A + B * (INR n * p (pick u))) 0 1 (A + B * p (vtotal ds))).
    { intros A B p p0 pa. replace (A + B * p (vtotal ds)) with (A * (1 - 0) + (B * INR n) * (p (vtotal ds) / INR n)) by (field; lra).
      destruct (integral_lin (fun _ => A) (fun u => p (pick u)) 0 1 (B * INR n) _ _ (integral_const 0 1 A ltac:(lra)) (I p p0 pa)) as (pr & Er).
      assert (pr' : Riemann_integrable (fun u => A + B * (INR n * p (pick u))) 0 1).
      { intros eps. destruct (pr eps) as (phi & psi & X & Y). exists phi, psi. split; [|exact Y].
        intros t Ht. specialize (X t Ht). replace (A + B * (INR n * p (pick t))) with (A + B * INR n * p (pick t)) by ring. exact X. }
      exists pr'. rewrite <- Er. apply RiemannInt_P18; [lra|]. intros; ring. }
    unfold average, vadd, vprod, vscale. vproj. repeat split; apply J; try reflexivity.
Qed.
