(** * Hit points, frames and shadow rays of tame shapes (for C70) *)
From Coq Require Import ZArith Reals Bool List Lra Lia.
From Flocq Require Import Core IEEE754.BinarySingleNaN.
From Verif Require Import Model.Num Model.NumX Model.NumB Model.Vector Model.Common Model.BBox Model.Interaction Model.Shape Model.Sphere Model.Triangle.
From Verif Require Import Spec.TameSpec.
From Verif Require Import Proofs.XBase Proofs.BBase Proofs.FLaws Proofs.Bounds Proofs.Lengths Proofs.RankProofs Props.Floats.
Import ListNotations.
Local Open Scope R_scope.

Section St.
  Context (L : Libm b32) (L64 : Libm b64) {T : Type}.
  Local Existing Instance B32_FOps.
  Local Existing Instance B32_FLaws.
  Notation rnb := (@rn b32 (B32_FOps L) (B32_FLaws L)).
  Notation bd := (bd L). Notation vb := (vb L). Notation nan := (nan L). Notation vn := (vn L). Notation has_nan := (has_nan L).

  (** ** conversions *)
  Lemma within_bd k z x : (0 <= k <= 24)%Z -> (0 <= z <= 2 ^ k)%Z -> within z x -> bd k x.
  Proof. intros Hk Hz H. apply (bd_test L k z); auto. Qed.
  Lemma within3_vb k z v : (0 <= k <= 24)%Z -> (0 <= z <= 2 ^ k)%Z -> within3 z v -> vb k v.
  Proof. intros Hk Hz (A & B & C). repeat split; eapply within_bd; eauto. Qed.

  Lemma nan_is x : nan x <-> is_nan x = true.
  Proof. unfold Bounds.nan. cbn. destruct x; cbn; split; congruence. Qed.
  Lemma bd_is k x : bd k x -> is_nan x = false.
  Proof. intros H. apply (bd_not_nan L) in H. exact H. Qed.
  Lemma vb_steady k v : vb k v -> steady v.
  Proof. intros (A & B & C). left. repeat split; eapply bd_is; eauto. Qed.
  Lemma vn_steady v : vn v -> steady v.
  Proof. intros (A & B & C). right. rewrite nan_is in *. auto. Qed.

  Lemma steady_axis d : steady d -> exists a, max_abs_axis d = Ok a.
  Proof.
    unfold max_abs_axis, largest_axis. destruct d as [x y z]. cbn [v3abs vx vy vz].
    intros [(A & B & C)|(A & B & C)]; cbn [vx vy vz] in *.
    - change (fis_nan x = false) in A. change (fis_nan y = false) in B. change (fis_nan z = false) in C.
      rewrite emb_nan in A, B, C.
      repeat match goal with |- context[if ?b then _ else _] => destruct b eqn:? end; eauto; exfalso.
      all: rewrite ?emb_le, ?emb_lt, ?emb_abs in *; destruct (emb x) as [|[]|a], (emb y) as [|[]|b], (emb z) as [|[]|c]; cbn in *; try discriminate; rb; try discriminate; try lra.
    - destruct x, y, z; try discriminate. cbn. eauto.
  Qed.

  Lemma tr_total (t : triangle b32) r : steady (r_d r) ->
    (exists h, tr_intersect (T := T) t r = Ok h) /\ (exists h, tr_intersect_p t r = Ok h).
  Proof.
    intros H. destruct (steady_axis _ H) as (a & E). unfold tr_intersect, tr_intersect_p. rewrite E. cbn [rbind]. cbv zeta.
    destruct (tr_frame t _ _ _) as [[[n sn] du] dv].
    split; repeat match goal with |- context[if ?b then _ else _] => destruct b end; eauto.
  Qed.

  (** ** barycentric coordinates *)
  Lemma frac_bd (e det : b32) : emb det <> XFin 0 ->
    (xle (XFin 0) (emb e) = true /\ xle (emb e) (emb det) = true) \/ (xle (emb e) (XFin 0) = true /\ xle (emb det) (emb e) = true) ->
    bd 0 (fdiv e det) \/ nan (fdiv e det).
  Proof.
    intros Hd H. unfold Bounds.bd, Bounds.nan. rewrite emb_div by exact Hd.
    destruct (emb det) as [|sd|d] eqn:Ed.
    - exfalso. destruct H as [[H1 H2]|[H1 H2]]; destruct (emb e) as [|[]|]; discriminate.
    - destruct (emb e) as [|se|x] eqn:Ee; cbn [xdiv]; [right; apply rn_nan|right; apply rn_nan|].
      left. exists 0. rewrite rn_0. split; auto. rewrite Rabs_R0. apply bpow_ge_0.
    - destruct (emb e) as [|[]|x] eqn:Ee; try (exfalso; destruct H as [[H1 H2]|[H1 H2]]; discriminate).
      assert (d <> 0) by congruence. left. rewrite xdiv_fin by auto. apply rn_bd; [lia|]. change (pw 0) with 1.
      unfold Rdiv. rewrite Rabs_mult, Rabs_inv. apply Rmult_le_reg_r with (Rabs d); [now apply Rabs_pos_lt|].
      rewrite Rmult_assoc, Rinv_l by now apply Rabs_no_R0. rewrite Rmult_1_r, Rmult_1_l.
      destruct H as [[H1 H2]|[H1 H2]]; cbn in H1, H2; rb; [rewrite !Rabs_pos_eq by lra; lra|].
      rewrite (Rabs_left1 x), (Rabs_left1 d) by lra. lra.
  Qed.

  Lemma xge_add_r x y : xle x (XFin 0) = true -> xle y (XFin 0) = true -> xle (xadd x y) y = true.
  Proof. destruct x as [|[]|a], y as [|[]|b]; cbn; auto. intros. rb. lra. Qed.
  Lemma xge_add_l x y : xle x (XFin 0) = true -> xle y (XFin 0) = true -> xle (xadd x y) x = true.
  Proof. destruct x as [|[]|a], y as [|[]|b]; cbn; auto. intros. rb. lra. Qed.

  (** the common part of both signs *)
  Lemma sum_pos (e0 e1 e2 : b32) : xle (XFin 0) (emb e0) = true -> xle (XFin 0) (emb e1) = true -> xle (XFin 0) (emb e2) = true ->
    forall e, e = e0 \/ e = e1 \/ e = e2 -> xle (emb e) (emb (fadd (fadd e0 e1) e2)) = true.
  Proof.
    intros H0 H1 H2 e He.
    assert (A0 : xle (emb e0) (emb (fadd e0 e1)) = true) by (rewrite (emb_add e0 e1); apply rn_ge_emb; now apply xle_add_l).
    assert (A1 : xle (emb e1) (emb (fadd e0 e1)) = true) by (rewrite (emb_add e0 e1); apply rn_ge_emb; now apply xle_add_r).
    assert (A : xle (XFin 0) (emb (fadd e0 e1)) = true) by exact (xle_trans _ _ _ H0 A0).
    assert (B : xle (emb (fadd e0 e1)) (emb (fadd (fadd e0 e1) e2)) = true) by (rewrite (emb_add (fadd e0 e1) e2); apply rn_ge_emb; now apply xle_add_l).
    assert (C : xle (emb e2) (emb (fadd (fadd e0 e1) e2)) = true) by (rewrite (emb_add (fadd e0 e1) e2); apply rn_ge_emb; now apply xle_add_r).
    destruct He as [-> | [-> | -> ] ]; [exact (xle_trans _ _ _ A0 B)|exact (xle_trans _ _ _ A1 B)|exact C].
  Qed.
  Lemma sum_neg (e0 e1 e2 : b32) : xle (emb e0) (XFin 0) = true -> xle (emb e1) (XFin 0) = true -> xle (emb e2) (XFin 0) = true ->
    forall e, e = e0 \/ e = e1 \/ e = e2 -> xle (emb (fadd (fadd e0 e1) e2)) (emb e) = true.
  Proof.
    intros H0 H1 H2 e He.
    assert (A0 : xle (emb (fadd e0 e1)) (emb e0) = true) by (rewrite (emb_add e0 e1); apply rn_le_emb; now apply xge_add_l).
    assert (A1 : xle (emb (fadd e0 e1)) (emb e1) = true) by (rewrite (emb_add e0 e1); apply rn_le_emb; now apply xge_add_r).
    assert (A : xle (emb (fadd e0 e1)) (XFin 0) = true) by exact (xle_trans _ _ _ A0 H0).
    assert (B : xle (emb (fadd (fadd e0 e1) e2)) (emb (fadd e0 e1)) = true) by (rewrite (emb_add (fadd e0 e1) e2); apply rn_le_emb; now apply xge_add_l).
    assert (C : xle (emb (fadd (fadd e0 e1) e2)) (emb e2) = true) by (rewrite (emb_add (fadd e0 e1) e2); apply rn_le_emb; now apply xge_add_r).
    destruct He as [-> | [-> | -> ] ]; [exact (xle_trans _ _ _ B A0)|exact (xle_trans _ _ _ B A1)|exact C].
  Qed.

  Lemma coords_bd (e0 e1 e2 : b32) :
    (((flt e0 f0 || flt e1 f0 || flt e2 f0) && (flt f0 e0 || flt f0 e1 || flt f0 e2)))%bool = false ->
    feq (fadd (fadd e0 e1) e2) f0 = false ->
    forall e, e = e0 \/ e = e1 \/ e = e2 -> bd 0 (fdiv e (fadd (fadd e0 e1) e2)) \/ nan (fdiv e (fadd (fadd e0 e1) e2)).
  Proof.
    intros H Hd e He.
    assert (Z : emb (fadd (fadd e0 e1) e2) <> XFin 0).
    { intros E. rewrite emb_eq, E, emb_f0 in Hd. cbn in Hd. rb. lra. }
    destruct (fis_nan e0) eqn:N0. { right. apply nan_div_r, nan_add_l, nan_add_l. rewrite emb_nan in N0. unfold Bounds.nan. now destruct (emb e0). }
    destruct (fis_nan e1) eqn:N1. { right. apply nan_div_r, nan_add_l, nan_add_r. rewrite emb_nan in N1. unfold Bounds.nan. now destruct (emb e1). }
    destruct (fis_nan e2) eqn:N2. { right. apply nan_div_r, nan_add_r. rewrite emb_nan in N2. unfold Bounds.nan. now destruct (emb e2). }
    assert (P : forall x : b32, fis_nan x = false -> flt x f0 = false -> xle (XFin 0) (emb x) = true).
    { intros x N Hx. rewrite emb_lt, emb_f0, xlt_not_le in Hx; [now apply negb_false_iff in Hx|now rewrite emb_nan in N|reflexivity]. }
    assert (Q : forall x : b32, fis_nan x = false -> flt f0 x = false -> xle (emb x) (XFin 0) = true).
    { intros x N Hx. rewrite emb_lt, emb_f0, xlt_not_le in Hx; [now apply negb_false_iff in Hx|reflexivity|now rewrite emb_nan in N]. }
    apply frac_bd; [exact Z|]. apply andb_false_iff in H as [H|H]; apply orb_false_iff in H as [H H2]; apply orb_false_iff in H as [H0 H1].
    - left. split; [destruct He as [-> | [-> | -> ] ]; auto|]. apply sum_pos; auto.
    - right. split; [destruct He as [-> | [-> | -> ] ]; auto|]. apply sum_neg; auto.
  Qed.

  (** ** interpolation *)
  Definition unit_or_nan (b : b32) : Prop := bd 0 b \/ nan b.

  Lemma bd_gamma n : n = 5%Z \/ n = 7%Z -> bd 0 (gamma (fofZ n)).
  Proof. intros [-> | -> ]; apply (bd_test L 0 1); try lia; vm_compute; reflexivity. Qed.
  Lemma bd_pi : bd 2 fpi.
  Proof. apply (bd_test L 2 4); try lia. vm_compute. reflexivity. Qed.

  Lemma bary_ok k (v : tri (V3 b32)) b0 b1 b2 : (0 <= k <= 100)%Z -> vb k (t0 v) -> vb k (t1 v) -> vb k (t2 v) ->
    bd 0 b0 -> bd 0 b1 -> bd 0 b2 -> vb (k + 2) (bary v b0 b1 b2) /\ vb (k + 2) (bary_err v b0 b1 b2).
  Proof.
    intros Hk V0 V1 V2 B0 B1 B2.
    assert (S : forall w b, vb k w -> bd 0 b -> vb k (v3scale w b)) by (intros w b Hw Hb; replace k with (k + 0)%Z by lia; apply vb_scale; auto; lia).
    unfold bary, bary_err. split.
    - replace (k + 2)%Z with (k + 1 + 1)%Z by lia. apply vb_add; [lia| |apply (vb_mono L k); [lia|]; auto]. apply vb_add; auto; lia.
    - replace (k + 2)%Z with (k + 2 + 0)%Z by lia. apply vb_scale; [lia| |apply bd_gamma; auto].
      replace (k + 2)%Z with (k + 1 + 1)%Z by lia. apply vb_add; [lia| |apply (vb_mono L k); [lia|]; apply vb_abs; auto]. apply vb_add; try lia; apply vb_abs; auto.
  Qed.
  Lemma vn_abs v : vn v -> vn (v3abs v).
  Proof. intros (A & B & C). repeat split; cbn [v3abs vx vy vz]; now apply nan_abs. Qed.
  Lemma bary_nan (v : tri (V3 b32)) b0 b1 b2 : nan b0 \/ nan b1 \/ nan b2 -> vn (bary v b0 b1 b2) /\ vn (bary_err v b0 b1 b2).
  Proof.
    intros H. unfold bary, bary_err. split.
    - destruct H as [H|[H|H]]; [apply vn_add_l, vn_add_l|apply vn_add_l, vn_add_r|apply vn_add_r]; now apply vn_scale_r.
    - apply vn_scale_l. destruct H as [H|[H|H]]; [apply vn_add_l, vn_add_l|apply vn_add_l, vn_add_r|apply vn_add_r]; now apply vn_abs, vn_scale_r.
  Qed.

  (** what is needed of a point: its normal, position and error bound; its frame *)
  Definition good_point (k : Z) (i : interaction b32 T) : Prop :=
    has_nan (i_n i) \/ (vb 1 (i_n i) /\ ((vb k (i_p i) /\ vb k (i_p_err i)) \/ (vn (i_p i) /\ vn (i_p_err i)))).
  Definition good_frame (i : interaction b32 T) : Prop :=
    has_nan (i_sn i) \/ (vb 1 (i_sn i) /\ (has_nan (v3normalize (i_dpdu i)) \/ vb 1 (v3normalize (i_dpdu i)))).

  Lemma neg1_scale k v : (0 <= k <= 100)%Z -> vb k v -> vb k (v3scale v (fofZ (-1))).
  Proof. intros Hk H. replace k with (k + 0)%Z by lia. apply vb_scale; auto; [lia|]. apply (bd_Z L 0 (-1)); cbn; lia. Qed.

  Lemma long_flt v : long L v -> flt f0 (v3length v) = true.
  Proof. exact (fun H => H). Qed.


  (** the first partial derivative is the first edge *)
  Lemma emb_times_m1 (x m : b32) : emb m = XFin (-1) -> emb (fmul x m) = xneg (emb x).
  Proof.
    intros E. rewrite emb_mul, E.
    replace (xmul (emb x) (XFin (-1))) with (emb (fneg x)).
    - rewrite rn_emb. apply emb_neg.
    - rewrite emb_neg. destruct (emb x) as [|s|r]; cbn; auto.
      + rewrite Req_bool_false by lra. unfold Rsgn. rewrite Rlt_bool_true by lra. now destruct s.
      + f_equal. lra.
  Qed.
  Lemma emb_over_1 (x m : b32) : emb m = XFin 1 -> emb (fdiv x m) = emb x.
  Proof.
    intros E. rewrite emb_div, E by (rewrite E; intros H; injection H; lra).
    replace (xdiv (emb x) (XFin 1)) with (emb x); [apply rn_emb|].
    destruct (emb x) as [|s|r]; cbn; auto.
    - rewrite ?Req_bool_false by lra. unfold Rsgn. rewrite Rlt_bool_false by lra. now destruct s.
    - rewrite Req_bool_false by lra. f_equal. lra.
  Qed.
  Lemma sub_swap (a b m d : b32) : emb m = XFin (-1) -> emb d = XFin 1 -> emb (fdiv (fsub (fmul a m) (fmul b m)) d) = emb (fsub b a).
  Proof.
    intros Em Ed. rewrite emb_over_1 by auto. rewrite !emb_sub, !emb_times_m1 by auto. f_equal.
    destruct (emb a) as [|[]|x], (emb b) as [|[]|y]; cbn; auto. f_equal. lra.
  Qed.
  Lemma emb_m1 : emb (fsub f0 f1 : b32) = XFin (-1).
  Proof. rewrite emb_sub, emb_f0, emb_f1. cbn [xsub xadd xneg]. replace (0 - 1) with (IZR (-1)) by lra. apply rn_Z. cbn. lia. Qed.
  Lemma emb_1m1 : emb (fsub f1 f1 : b32) = XFin 0.
  Proof. rewrite emb_sub, emb_f1. cbn [xsub xadd xneg]. replace (1 - 1) with (IZR 0) by lra. apply rn_Z. cbn. lia. Qed.

  Lemma partial_edge (v : tri (V3 b32)) :
    let e := v3sub (v3sub (t1 v) (t2 v)) (v3sub (t0 v) (t2 v)) in
    let du := fst (tr_partials v) in
    emb (vx du) = emb (vx e) /\ emb (vy du) = emb (vy e) /\ emb (vz du) = emb (vz e).
  Proof.
    cbv zeta. unfold tr_partials. cbn [tr_uv p2subf t0 t1 t2 px py].
    set (m := fsub f0 f1). set (z := fsub f1 f1). set (d := fsub (fmul m m) (fmul m z)).
    assert (E : flt (fabs d) feps = false) by (vm_compute; reflexivity).
    rewrite E. cbn [fst].
    assert (Em : emb m = XFin (-1)) by apply emb_m1.
    assert (Ed : emb d = XFin 1).
    { unfold d. rewrite emb_sub, !emb_times_m1, (emb_mul m z) by auto. rewrite Em. unfold z. rewrite emb_1m1.
      cbn [xneg xmul]. replace (-1 * 0) with 0 by lra. rewrite rn_0. cbn [xsub xadd xneg].
      replace (- (-1) - 0) with (IZR 1) by lra. apply rn_Z. cbn. lia. }
    cbn [v3divs v3sub v3map2 v3scale vx vy vz]. repeat split; now apply sub_swap.
  Qed.

  Lemma emb_len_ext (u v : V3 b32) : emb (vx u) = emb (vx v) -> emb (vy u) = emb (vy v) -> emb (vz u) = emb (vz v) ->
    emb (v3length u) = emb (v3length v).
  Proof. intros A B C. unfold v3length. rewrite !emb_sqrt, !emb_add, !emb_mul, A, B, C. reflexivity. Qed.

  Lemma tame_vb t : tame_triangle L t -> vb 20 (t0 (tr_v t)) /\ vb 20 (t1 (tr_v t)) /\ vb 20 (t2 (tr_v t)).
  Proof. intros H. repeat apply conj; (eapply within3_vb; [| |apply H]; cbn; lia). Qed.

  Lemma tame_frame t b0 b1 b2 n sn du dv : tame_triangle L t -> tr_frame t b0 b1 b2 = (n, sn, du, dv) ->
    vb 1 n /\ vb 1 sn /\ vb 1 (v3normalize du).
  Proof.
    intros H. destruct (tame_vb t H) as (V0 & V1 & V2). unfold tr_frame. rewrite (tt_flat L t H).
    pose proof (partial_edge (tr_v t)) as PE. cbv zeta in PE. destruct (tr_partials (tr_v t)) as [du' dv'] eqn:Ep. cbn [fst] in PE.
    set (m := v3normalize (v3cross _ _)).
    assert (Vm : vb 1 m).
    { unfold m. eapply (normalize_vb L 43); [|apply (tt_cross2 L t H)]. replace 43%Z with (21 + 21 + 1)%Z by lia.
      apply vb_cross; [lia| |]; change 21%Z with (20 + 1)%Z; apply vb_sub; auto; lia. }
    assert (Vm' : vb 1 (if tr_rev t then v3scale m (fofZ (-1)) else m)) by (destruct (tr_rev t); auto; apply neg1_scale; auto; lia).
    clearbody m. intros E.
    pose proof (f_equal (fun q => fst (fst (fst q))) E) as E1. pose proof (f_equal (fun q => snd (fst (fst q))) E) as E2.
    pose proof (f_equal (fun q => snd (fst q)) E) as E3. cbn [fst snd] in E1, E2, E3. clear E. rewrite <- E1, <- E2, <- E3. clear E1 E2 E3 n sn du.
    split; [|split; [exact Vm'|]].
    - destruct (flt _ _); auto. apply neg1_scale; auto. lia.
    - destruct PE as (Px & Py & Pz).
      assert (B : vb 22 (v3sub (v3sub (t1 (tr_v t)) (t2 (tr_v t))) (v3sub (t0 (tr_v t)) (t2 (tr_v t))))).
      { change 22%Z with (20 + 1 + 1)%Z. apply vb_sub; [lia| |]; apply vb_sub; auto; lia. }
      destruct B as ((x & Ex & _) & (y & Ey & _) & (z & Ez & _)).
      apply normalize_bd.
      + exists x, y, z. rewrite Px, Py, Pz. auto.
      + rewrite (emb_len_ext _ _ Px Py Pz). pose proof (long_flt _ (tt_edge L t H)) as Q. intros E. rewrite emb_lt, E, emb_f0 in Q. cbn in Q. rb. lra.
  Qed.

  Lemma tri_hit t r i d : tame_triangle L t -> tr_intersect (T := T) t r = Ok (Some (i, d)) -> good_point 28 i /\ good_frame i.
  Proof.
    intros H. destruct (tame_vb t H) as (V0 & V1 & V2). unfold tr_intersect. destruct (max_abs_axis (r_d r)) as [a| |]; cbn [rbind]; try discriminate.
    cbv zeta. set (vs := tmap (to_ray_space _ _ _ _ _ _) (tr_v t)).
    set (e0 := fsub (fmul (vx (t1 vs)) _) _). set (e1 := fsub (fmul (vx (t2 vs)) _) _). set (e2 := fsub (fmul (vx (t0 vs)) _) _).
    destruct (_ && _)%bool eqn:C1; [discriminate|].
    destruct (feq (fadd (fadd e0 e1) e2) f0) eqn:C2; [discriminate|].
    pose proof (coords_bd e0 e1 e2 C1 C2) as CB. set (det := fadd (fadd e0 e1) e2) in *. clearbody det.
    match goal with |- (if ?b then _ else _) = _ -> _ => destruct b; [discriminate|] end.
    match goal with |- (if ?b then _ else _) = _ -> _ => destruct b; [discriminate|] end.
    destruct (tr_frame t _ _ _) as [[[n sn] du] dv] eqn:Ef. intros E.
    match type of E with Ok (Some (?x, ?y)) = _ => assert (Ei : i = x) by (apply (f_equal (fun q => match q with Ok (Some (z, _)) => z | _ => x end)) in E; symmetry; exact E) end.
    clear E. rewrite Ei. clear Ei i.
    destruct (tame_frame _ _ _ _ _ _ _ _ H Ef) as (F1 & F2 & F3). split.
    - right. cbn [i_n i_p i_p_err]. split; [exact F1|].
      destruct (CB e0 ltac:(auto)) as [B0|B0]; [|right; apply bary_nan; auto].
      destruct (CB e1 ltac:(auto)) as [B1|B1]; [|right; apply bary_nan; auto].
      destruct (CB e2 ltac:(auto)) as [B2|B2]; [|right; apply bary_nan; auto].
      left. destruct (bary_ok 20 (tr_v t) _ _ _ ltac:(lia) V0 V1 V2 B0 B1 B2) as [P Q].
      split; eapply vb_mono; try eassumption; lia.
    - right. cbn [i_sn i_dpdu]. auto.
  Qed.

End St.
