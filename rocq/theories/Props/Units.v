(** * C97: the picture does not depend on the unit of length and on the place of the origin *)
From Coq Require Import ZArith Reals List Bool Lia Lra Psatz.
From Flocq Require Import Core.
From Verif Require Import Model.Num Model.NumX Model.Vector Model.Common Model.BBox Model.Interaction Model.Shape Model.Sphere Model.Triangle Model.Container Model.Sampler
  Model.Sampling Model.Reflection Model.Texture Model.Material Model.Light Model.Scene Model.Path.
From Verif Require Import Spec.RVec Spec.UnitsSpec Proofs.XBase Proofs.RVecProofs Proofs.UnitProofs Props.Shapes.
Import ListNotations.
Local Open Scope R_scope.

Section Units.
  Variables (k l : R) (a : rv).
  Hypothesis Hk : 0 < k.
  Hypothesis Hl : 0 < l.
  Let c := k / l.
  Lemma Hc : 0 < c.
  Proof. unfold c. apply Rdiv_lt_0_compat; auto. Qed.
  Definition ray_to (r : ray XR) : ray XR := mkRay (shift3 k a (r_o r)) (stretch3 l (r_d r)) (stretch c (r_tmax r)).
  Definition box_to (b : bbox3 XR) : bbox3 XR := mkBB (shift3 k a (bmin b)) (shift3 k a (bmax b)).

  Lemma slab_to b r ax t0 t1 : slab_step (box_to b) (ray_to r) ax (stretch c t0) (stretch c t1) =
    match slab_step b r ax t0 t1 with Some (u, v) => Some (stretch c u, stretch c v) | None => None end.
  Proof.
    pose proof Hc as Hc. unfold slab_step, box_to, ray_to. cbn [bmin bmax r_o r_d].
    assert (G : forall x, v3get (shift3 k a x) ax = shift k (v3get a ax) (v3get x ax)) by (intros; destruct ax; reflexivity).
    assert (G' : forall x, v3get (stretch3 l x) ax = stretch l (v3get x ax)) by (intros; destruct ax; reflexivity).
    rewrite !G, G'. xsimp. rewrite !sh_sub, !st_div by auto. fold c.
    set (n := xdiv (xsub (v3get (bmin b) ax) (v3get (r_o r) ax)) (v3get (r_d r) ax)). set (f := xdiv (xsub (v3get (bmax b) ax) (v3get (r_o r) ax)) (v3get (r_d r) ax)).
    rewrite st_lt by auto. destruct (xlt f n); rewrite st_mul_l by auto.
    - set (f' := xmul n _). rewrite !st_lt by auto. destruct (xlt t0 f), (xlt f' t1); rewrite st_lt by auto; destruct (xlt _ _); reflexivity.
    - set (f' := xmul f _). rewrite !st_lt by auto. destruct (xlt t0 n), (xlt f' t1); rewrite st_lt by auto; destruct (xlt _ _); reflexivity.
  Qed.
  Lemma box_hit_to b r : bbox_intersect (box_to b) (ray_to r) = match bbox_intersect b r with Some (u, v) => Some (stretch c u, stretch c v) | None => None end.
  Proof.
    unfold bbox_intersect. replace (@f0 XR _) with (stretch c f0) at 1 by (apply st_0). change (r_tmax (ray_to r)) with (stretch c (r_tmax r)).
    rewrite slab_to. destruct (slab_step b r AX f0 (r_tmax r)) as [[u v]|]; [|reflexivity]. rewrite slab_to.
    destruct (slab_step b r AY u v) as [[u' v']|]; [|reflexivity]. apply slab_to.
  Qed.

  Lemma quadratic_to p q x y z : 0 < p -> 0 < q ->
    quadratic (stretch (p * p) x) (stretch (p * q) y) (stretch (q * q) z) = match quadratic x y z with Some (u, v) => Some (stretch (q / p) u, stretch (q / p) v) | None => None end.
  Proof.
    intros Hp Hq. assert (Pq : 0 < p * q) by nra. assert (Pp : 0 < p * p) by nra. assert (Qq : 0 < q * q) by nra. assert (Dv : 0 < q / p) by (apply Rdiv_lt_0_compat; auto).
    unfold quadratic. xsimp. rewrite (st_mul_r (p * p)), !st_mul by auto.
    rewrite (st_same (p * p * (q * q)) (p * q * (p * q))) by ring. rewrite st_sub by nra. set (dis := xsub _ _).
    unfold f0. xsimp. rewrite st_lt0 by nra. destruct (xlt dis _); [reflexivity|]. rewrite st_sqrt by auto. rewrite st_lt0 by auto.
    set (rt := xsqrt dis).
    assert (E : (if xlt y (XFin (IZR 0)) then xmul (xneg fhalf) (xsub (stretch (p * q) y) (stretch (p * q) rt)) else xmul (xneg fhalf) (xadd (stretch (p * q) y) (stretch (p * q) rt))) =
      stretch (p * q) (if xlt y (XFin (IZR 0)) then xmul (xneg fhalf) (xsub y rt) else xmul (xneg fhalf) (xadd y rt))).
    { destruct (xlt y _); rewrite ?st_sub, ?st_add, st_mul_r by auto; reflexivity. }
    rewrite E. set (w := if xlt y _ then _ else _). rewrite !st_div by auto.
    rewrite (st_same (p * q / (p * p)) (q / p)), (st_same (q * q / (p * q)) (q / p)) by (field; lra).
    rewrite st_lt by auto. destruct (xlt (xdiv z w) (xdiv w x)); reflexivity.
  Qed.
End Units.

(** two hits, in the old and the new coordinates; [l] is the stretch of the ray's direction *)
Definition matches {T} (k : R) (a : rv) (l : R) (i j : interaction XR T) : Prop :=
  i_p j = shift3 k a (i_p i) /\ i_p_err j = stretch3 k (i_p_err i) /\ i_uv j = i_uv i /\ i_n j = i_n i /\ i_sn j = i_sn i /\
  v3normalize (i_dpdu j) = v3normalize (i_dpdu i) /\ i_wo j = stretch3 l (i_wo i) /\ i_shape j = i_shape i.
Definition hit_matches {T} k a l (x y : option (interaction XR T * XR)) : Prop :=
  match x, y with
  | None, None => True
  | Some (i, t), Some (j, u) => matches k a l i j /\ u = stretch (k / l) t
  | _, _ => False
  end.
Definition res_matches {A B} (P : A -> B -> Prop) (x : res A) (y : res B) : Prop :=
  match x, y with Ok u, Ok v => P u v | Panic, Panic => True | Timeout, Timeout => True | _, _ => False end.

Section Balls.
  Variables (k l : R) (a : rv) (s : sphere XR).
  Hypothesis Hk : 0 < k.
  Hypothesis Hl : 0 < l.
  Let s' := mkSphere (shift3 k a (sp_center s)) (stretch k (sp_radius s)).

  Lemma local_to r : sp_local_ray s' (ray_to k l a r) = mkRay (stretch3 k (r_o (sp_local_ray s r))) (stretch3 l (r_d r)) (stretch (k / l) (r_tmax r)).
  Proof. unfold sp_local_ray, sp_world_to_local, ray_to, s'. cbn [sp_center r_o r_d r_tmax]. now rewrite sh3_addneg. Qed.
  Lemma has_to r : sp_has_intersection (D := XR) s' (sp_local_ray s' (ray_to k l a r)) = match sp_has_intersection (D := XR) s (sp_local_ray s r) with Some t => Some (stretch (k / l) t) | None => None end.
  Proof.
    rewrite local_to. unfold sp_has_intersection. cbn [r_o r_d r_tmax s' sp_radius]. set (o := sp_world_to_local s (r_o r)).
    change (r_o (sp_local_ray s r)) with o. change (r_d (sp_local_ray s r)) with (r_d r). change (r_tmax (sp_local_ray s r)) with (r_tmax r).
    unfold stretch3. vproj. xsimp. assert (Kl : 0 < k / l) by (apply Rdiv_lt_0_compat; auto).
    rewrite !st_mul, !st_add, !st_sub by auto. rewrite st_mul_r by nra. rewrite quadratic_to by auto.
    destruct (quadratic _ _ _) as [[u v]|]; [|reflexivity]. unfold f0. xsimp. rewrite !st_gt0, !st_lt by auto.
    destruct (xlt _ u && _); [reflexivity|]. destruct (xlt _ v && _); reflexivity.
  Qed.
  Lemma ball_to {T} r : hit_matches (T := T) k a l (sp_intersect (D := XR) s r) (sp_intersect (D := XR) s' (ray_to k l a r)).
  Proof.
    unfold sp_intersect. rewrite has_to. destruct (sp_has_intersection s (sp_local_ray s r)) as [t|]; [|exact I].
    rewrite local_to. unfold sp_interaction. set (lr := sp_local_ray s r).
    assert (Ep : ray_position (mkRay (stretch3 k (r_o lr)) (stretch3 l (r_d r)) (stretch (k / l) (r_tmax r))) (stretch (k / l) t) = stretch3 k (ray_position lr t)).
    { unfold ray_position. cbn [r_o r_d]. change (r_d lr) with (r_d r). assert (Kl : 0 < k / l) by (apply Rdiv_lt_0_compat; auto).
      rewrite <- st3_add. f_equal. apply v_eq; unfold v3scale, stretch3; vproj; xsimp; rewrite st_mul by auto; apply st_same; field; lra. }
    rewrite Ep. set (p := ray_position lr t). cbn [s' sp_radius].
    rewrite st3_length by auto. xsimp. rewrite st_ratio by auto. rewrite st3_scale by auto. set (q := v3scale p _).
    rewrite st3_normalize, st3_abs, st3_scale by auto.
    assert (Ephi : sp_phi (mkSphere (shift3 k a (sp_center s)) (stretch k (sp_radius s))) (stretch3 k q) = sp_phi s q).
    { unfold sp_phi, stretch3. vproj. cbn [sp_radius]. xsimp. unfold f0. xsimp. rewrite !st_eq0 by auto.
      destruct (xeq (vx q) _ && _); rewrite ?st_mul_r, st_atan2 by auto; reflexivity. }
    fold s' in Ephi |- *. rewrite Ephi. unfold sp_partials. cbn [hit_matches].
    split; [|reflexivity]. unfold matches. cbn [i_p i_p_err i_uv i_n i_sn i_dpdu i_wo i_shape r_d].
    split; [unfold sp_local_to_world; cbn [s' sp_center]; now rewrite sh3_addr|]. split; [reflexivity|].
    split; [unfold stretch3; vproj; xsimp; rewrite st_ratio by auto; reflexivity|].
    split; [reflexivity|]. split; [reflexivity|].
    split; [|split; [|reflexivity]].
    - etransitivity; [|apply (st3_normalize k Hk)]. f_equal. apply v_eq; unfold stretch3; vproj; xsimp; rewrite ?st_mul_r by auto; auto. symmetry. apply st_0.
    - change (r_d lr) with (r_d r). now rewrite st3_neg.
  Qed.
  Lemma ball_box_to : sp_bbox s' = box_to k a (sp_bbox s).
  Proof.
    unfold sp_bbox, bbox_new, box_to, s'. cbn [sp_center sp_radius bmin bmax]. rewrite <- sh3_min, <- sh3_max by auto.
    f_equal; (f_equal; apply v_eq; unfold shift3; vproj; xsimp; rewrite ?sh_subl, ?sh_add; reflexivity).
  Qed.
End Balls.

Section Triangles.
  Variables (k l : R) (s : triangle XR).
  Hypothesis Hk : 0 < k.
  Hypothesis Hl : 0 < l.
  Let s' := mkTri (tmap (shift3 k v0) (tr_v s)) (tr_vn s) (tr_rev s).

  Lemma space_to o ax ay az sx sy p : to_ray_space (shift3 k v0 o) ax ay az sx sy (shift3 k v0 p) = stretch3 k (to_ray_space o ax ay az sx sy p).
  Proof.
    unfold to_ray_space. rewrite sh3_addneg, st3_permute. set (q := v3permute _ _ _ _). apply v_eq; unfold stretch3; vproj; xsimp; rewrite ?st_mul_l, ?st_add by auto; reflexivity.
  Qed.
  Lemma max3_to c x y z : 0 < c -> max3 (stretch c x) (stretch c y) (stretch c z) = stretch c (max3 x y z).
  Proof. intros Hc. unfold max3, max_component, v3abs. vproj. xsimp. rewrite !st_abs, !st_max by auto. reflexivity. Qed.
  Lemma frame_to b0 b1 b2 : exists n sn du dv du' dv', tr_frame s b0 b1 b2 = (n, sn, du, dv) /\ tr_frame s' b0 b1 b2 = (n, sn, du', dv') /\ v3normalize du' = v3normalize du.
  Proof.
    unfold tr_frame. cbn [s' tr_v tr_vn tr_rev tmap t0 t1 t2]. rewrite !sh3_sub, st3_cross, st3_normalize by nra.
    set (n := v3normalize _).
    assert (P : exists du dv dv', tr_partials (tr_v s) = (du, dv) /\ tr_partials (tmap (shift3 k v0) (tr_v s)) = (stretch3 k du, dv')).
    { unfold tr_partials. cbn [tmap t0 t1 t2]. rewrite !sh3_sub.
      assert (D : forall x y, (if flt (fabs (fsub (fmul (px (p2subf (t0 tr_uv) (t2 tr_uv))) (py (p2subf (t1 tr_uv) (t2 tr_uv)))) (fmul (py (p2subf (t0 tr_uv) (t2 tr_uv))) (px (p2subf (t1 tr_uv) (t2 tr_uv)))))) feps then x else y) = y :> V3 XR * V3 XR).
      { intros. unfold tr_uv, p2subf, f0, f1. cbn [t0 t1 t2 px py]. xsimp. cbn [xsub xmul xabs xlt]. rewrite Rlt_bool_false; [reflexivity|].
        replace ((0 - 1) * (0 - 1) - (0 - 1) * (1 - 1)) with 1 by ring. rewrite Rabs_R1. lra. }
      cbn [tr_uv t0 t1 t2] in D |- *. rewrite !D. eexists _, _, _. split; [reflexivity|].
      rewrite !st3_scale, !st3_sub, !st3_divs by auto. reflexivity. }
    destruct P as (du & dv & dv' & -> & ->).
    destruct (tr_vn s) as [vn|].
    - rewrite st3_normalize by auto. set (sn := if fle f0 _ then _ else n). destruct (flt f0 _).
      + eexists _, _, _, _, _, _. split; [reflexivity|]. split; reflexivity.
      + destruct (construct_coordinate_system sn) as [u v]. eexists _, _, _, _, _, _. split; [reflexivity|]. split; reflexivity.
    - eexists _, _, _, _, _, _. split; [reflexivity|]. split; [reflexivity|]. now apply st3_normalize.
  Qed.
  Lemma delta_to c g2 g3 g5 two three mx my mz me det : 0 < c ->
    xdiv (xmul three (xadd (xadd (xmul (xmul g3 (stretch (k * k) me)) (stretch c mz))
       (xmul (stretch c mz) (xmul (xadd (xadd (xmul (xmul g2 (stretch k mx)) (stretch k my)) (xmul (stretch k mx) (xmul (stretch k my) g5))) (xmul (stretch k my) (xmul (stretch k mx) g5))) two)))
       (xmul (stretch (k * k) me) (xmul (stretch c mz) g3)))) (xabs (stretch (k * k) det)) =
    stretch c (xdiv (xmul three (xadd (xadd (xmul (xmul g3 me) mz) (xmul mz (xmul (xadd (xadd (xmul (xmul g2 mx) my) (xmul mx (xmul my g5))) (xmul my (xmul mx g5))) two)))
       (xmul me (xmul mz g3)))) (xabs det)).
  Proof.
    intros Hc. assert (Kk : 0 < k * k) by nra. assert (Kc : 0 < c * (k * k)) by nra.
    rewrite (st_mul_r (k * k)) by auto. rewrite (st_mul (k * k) c) by auto. repeat first [rewrite (st_mul_l k) by auto | rewrite (st_mul_r k) by auto]. rewrite !(st_st k k), !st_add by auto.
    rewrite (st_mul_l (k * k)), (st_mul c (k * k)) by auto. rewrite (st_mul_l c), (st_mul (k * k) c) by auto.
    rewrite !(st_same (k * k * c) (c * (k * k))) by ring. rewrite !st_add, st_abs by auto. rewrite st_mul_r, st_div by auto. apply st_same. field. lra.
  Qed.
  Lemma triangle_to {T} r : res_matches (hit_matches (T := T) k v0 l) (tr_intersect s r) (tr_intersect s' (ray_to k l v0 r)).
  Proof.
    unfold tr_intersect. cbn [ray_to r_d r_o r_tmax]. rewrite st3_axis by auto. destruct (max_abs_axis (r_d r)) as [m| |]; cbn [rbind]; [|exact I|exact I].
    cbv zeta. rewrite st3_permute. set (d := v3permute (r_d r) _ _ _).
    assert (Kl : 0 < k / l) by (apply Rdiv_lt_0_compat; auto). assert (Il : 0 < / l) by now apply Rinv_0_lt_compat. assert (Kk : 0 < k * k) by nra.
    assert (Sx : fdiv (fneg (vx (stretch3 l d))) (vz (stretch3 l d)) = fdiv (fneg (vx d)) (vz d)) by (unfold stretch3; vproj; xsimp; rewrite st_neg, st_ratio by auto; reflexivity).
    assert (Sy : fdiv (fneg (vy (stretch3 l d))) (vz (stretch3 l d)) = fdiv (fneg (vy d)) (vz d)) by (unfold stretch3; vproj; xsimp; rewrite st_neg, st_ratio by auto; reflexivity).
    assert (Sz : fdiv f1 (vz (stretch3 l d)) = stretch (/ l) (fdiv f1 (vz d))) by (unfold stretch3; vproj; xsimp; now rewrite st_div_r by auto).
    rewrite Sx, Sy, Sz. clear Sx Sy Sz.
    set (sx := fdiv (fneg (vx d)) _). set (sy := fdiv (fneg (vy d)) _). set (sz := fdiv f1 _).
    cbn [s' tr_v tmap t0 t1 t2]. rewrite !space_to.
    set (p0 := to_ray_space _ _ _ _ _ _ (t0 (tr_v s))). set (p1 := to_ray_space _ _ _ _ _ _ (t1 (tr_v s))). set (p2 := to_ray_space _ _ _ _ _ _ (t2 (tr_v s))).
    unfold stretch3. vproj. xsimp. rewrite !(st_mul k k), !st_sub by auto.
    set (e0 := xsub (xmul (vx p1) _) _). set (e1 := xsub (xmul (vx p2) _) _). set (e2 := xsub (xmul (vx p0) _) _).
    unfold f0. xsimp. rewrite !st_lt0, !st_gt0 by auto.
    destruct (((xlt e0 _ || _ || _) && _)%bool); [exact I|].
    rewrite !st_add by auto. set (det := xadd (xadd e0 e1) e2). rewrite st_eq0 by auto. destruct (xeq det _); [exact I|].
    rewrite !(st_mul k (/ l)) by auto. change (k * / l) with (k / l). remember (k / l) as c eqn:Ec.
    rewrite !(st_mul c (k * k)), !st_add by nra. set (ts := xadd (xadd _ _) _).
    assert (Klk : 0 < c * (k * k)) by nra. rewrite !st_lt0, !st_gt0, !st_le0, !st_ge0, !st_lt by auto.
    destruct (((xlt det _ && _) || _)%bool); [exact I|].
    rewrite !max3_to by auto. set (mx := max3 (vx p0) _ _). set (my := max3 (vy p0) _ _). set (mz := max3 (xmul _ _) _ _). set (me := max3 e0 e1 e2).
    rewrite !(st_ratio (k * k)) by auto. rewrite (st_div (c * (k * k)) (k * k)) by auto. rewrite (st_same (c * (k * k) / (k * k)) c) by (field; lra).
    set (t := xdiv ts det).
    rewrite (delta_to c) by auto. rewrite st_le by auto. destruct (xle t _); [exact I|].
    destruct (frame_to (xdiv e0 det) (xdiv e1 det) (xdiv e2 det)) as (n & sn & du & dv & du' & dv' & -> & -> & En).
    cbn [res_matches hit_matches]. split; [|rewrite Ec; reflexivity]. unfold matches. cbn [i_p i_p_err i_uv i_n i_sn i_dpdu i_wo i_shape].
    split.
    { unfold bary, tmap. cbn [t0 t1 t2]. rewrite !sh3_0, !st3_scale, !st3_add by auto. reflexivity. }
    split.
    { unfold bary_err, tmap. cbn [t0 t1 t2]. rewrite !sh3_0, !st3_scale, !st3_abs, !st3_add, !st3_scale by auto. reflexivity. }
    split; [reflexivity|]. split; [reflexivity|]. split; [reflexivity|]. split; [exact En|]. split; [|reflexivity].
    apply (st3_neg l (r_d r)).
  Qed.
  Lemma tri_box_to : tr_bbox s' = box_to k v0 (tr_bbox s).
  Proof.
    unfold tr_bbox, bbox_union_point, bbox_new, box_to, s'. cbn [tr_v tmap t0 t1 t2 bmin bmax]. now rewrite !sh3_min, !sh3_max by auto.
  Qed.
End Triangles.

(** ** Shapes, containers, lights *)
Definition opt_matches {T} k a l (x y : option (interaction XR T)) : Prop :=
  match x, y with None, None => True | Some i, Some j => matches k a l i j | _, _ => False end.

Section Scene.
  Context {T : Type}.
  Variables (k : R) (a : rv) (bod : T -> solid) (ts : list T).
  Hypothesis Hk : 0 < k.
  Hypothesis Ha : a = v0 \/ forall t, In t ts -> is_round (bod t).
  Let sh (t : T) : shape XR T := solid_shape (bod t).
  Let sh' (t : T) : shape XR T := solid_shape (moved k a (bod t)).

  Lemma solid_to l t r : 0 < l -> In t ts -> res_matches (hit_matches k a l) (sh_intersect (sh t) r) (sh_intersect (sh' t) (ray_to k l a r)).
  Proof.
    intros Hl It. unfold sh, sh'. destruct (bod t) as [s|s] eqn:E; cbn [solid_shape moved].
    - cbn [sphere_shape sh_intersect res_matches]. now apply ball_to.
    - destruct Ha as [->|R]; [now apply triangle_to|]. exfalso. specialize (R t It). rewrite E in R. exact R.
  Qed.
  Lemma solid_p_to l t r : 0 < l -> In t ts -> sh_intersect_p (sh' t) (ray_to k l a r) = sh_intersect_p (sh t) r.
  Proof.
    intros Hl It. pose proof (solid_to l t r Hl It) as M. revert M. unfold sh, sh'. destruct (bod t) as [s|s]; cbn [solid_shape moved].
    - cbn [sphere_shape sh_intersect sh_intersect_p res_matches]. rewrite !(C38_sphere XR XR T).
      destruct (sp_intersect s r) as [[]|], (sp_intersect _ _) as [[]|]; cbn [hit_matches]; tauto.
    - cbn [triangle_shape sh_intersect sh_intersect_p]. rewrite !(C38_triangle XR T).
      destruct (tr_intersect s r) as [[[]|]| |], (tr_intersect _ _) as [[[]|]| |]; cbn [res_matches hit_matches]; tauto.
  Qed.
  Lemma solid_box_to t : In t ts -> sh_bbox (sh' t) = box_to k a (sh_bbox (sh t)).
  Proof.
    intros It. unfold sh, sh'. destruct (bod t) as [s|s] eqn:E; cbn [solid_shape moved].
    - cbn [sphere_shape sh_bbox]. now apply ball_box_to.
    - destruct Ha as [->|R]; [now apply tri_box_to|]. exfalso. specialize (R t It). rewrite E in R. exact R.
  Qed.
  Lemma union_to b c : bbox_union (box_to k a b) (box_to k a c) = box_to k a (bbox_union b c).
  Proof. unfold bbox_union, box_to. cbn [bmin bmax]. now rewrite sh3_min, sh3_max by auto. Qed.
  Lemma boxes_to : bbox_of_shapes sh' ts = match bbox_of_shapes sh ts with Ok b => Ok (box_to k a b) | Panic => Panic | Timeout => Timeout end.
  Proof.
    unfold bbox_of_shapes. assert (E : map (fun s => sh_bbox (sh' s)) ts = map (box_to k a) (map (fun s => sh_bbox (sh s)) ts)).
    { rewrite map_map. apply map_ext_in. apply solid_box_to. }
    rewrite E. destruct (map (fun s => sh_bbox (sh s)) ts) as [|b l]; [reflexivity|]. cbn [map bbox_of_list]. f_equal.
    clear E. revert b. induction l as [|c l IH]; intros b; [reflexivity|]. cbn [map fold_left]. rewrite union_to. apply IH.
  Qed.
  Lemma any_to l us r : 0 < l -> incl us ts -> any_hit sh' us (ray_to k l a r) = any_hit sh us r.
  Proof.
    intros Hl Hu. induction us as [|t us IH]; [reflexivity|]. cbn [any_hit]. rewrite solid_p_to by (auto; apply Hu; now left).
    destruct (sh_intersect_p (sh t) r) as [[]| |]; cbn [rbind]; auto. apply IH. intros x Hx. apply Hu. now right.
  Qed.
  Lemma last_to us : incl us ts -> forall r i j, opt_matches k a 1 i j ->
    res_matches (fun x y => opt_matches k a 1 (fst x) (fst y)) (last_hit sh us r i) (last_hit sh' us (ray_to k 1 a r) j).
  Proof.
    induction us as [|t us IH]; intros Hu r i j M; [exact M|]. cbn [last_hit]. unfold shape_intersect.
    pose proof (solid_to 1 t r Rlt_0_1 (Hu t (or_introl eq_refl))) as H. assert (Hu' : incl us ts) by (intros x Hx; apply Hu; now right).
    destruct (sh_intersect (sh t) r) as [[[i' t']|]| |], (sh_intersect (sh' t) (ray_to k 1 a r)) as [[[j' u']|]| |]; cbn [res_matches hit_matches] in H; try contradiction; cbn [rbind].
    - destruct H as (H & ->). change (with_tmax (ray_to k 1 a r) (stretch (k / 1) t')) with (ray_to k 1 a (with_tmax r t')). apply IH; [exact Hu'|].
      cbn [opt_matches]. destruct H as (H1 & H2 & H3 & H4 & H5 & H6 & H7 & H8). unfold matches, i_with_shape. cbn. auto 10.
    - apply IH; [exact Hu'|exact M].
    - exact I.
    - exact I.
  Qed.
  Lemma simple_to : match simple_new sh ts, simple_new sh' ts with
    | Ok c, Ok c' => si_bbox c' = box_to k a (si_bbox c) /\ forall r,
        res_matches (opt_matches k a 1) (simple_intersect sh c r) (simple_intersect sh' c' (ray_to k 1 a r)) /\
        simple_intersect_p sh' c' (ray_to k k a r) = simple_intersect_p sh c r
    | Panic, Panic => True | Timeout, Timeout => True | _, _ => False end.
  Proof.
    unfold simple_new. rewrite boxes_to. destruct (bbox_of_shapes sh ts) as [b| |]; cbn [rbind]; auto.
    cbn [si_bbox]. split; [reflexivity|]. intros r. unfold simple_intersect, simple_intersect_p. cbn [si_bbox si_shapes]. rewrite !box_hit_to by (auto; lra). split.
    - destruct (bbox_intersect b r) as [[u v]|]; [|exact I]. pose proof (last_to ts (fun x H => H) r None None I) as H.
      destruct (last_hit sh ts r None) as [[]| |], (last_hit sh' ts (ray_to k 1 a r) None) as [[]| |]; cbn [res_matches] in H; try contradiction; cbn [rbind res_matches]; auto.
    - destruct (bbox_intersect b r) as [[u v]|]; [|reflexivity]. apply any_to; auto. intros x H; exact H.
  Qed.

  Lemma offset_to l m (i j : interaction XR T) v : 0 < m -> matches k a l i j -> offset_ray_origin j (stretch3 m v) = shift3 k a (offset_ray_origin i v).
  Proof.
    intros Hm (Ep & Ee & _ & En & _). unfold offset_ray_origin. rewrite Ep, Ee, En. set (n := i_n i).
    assert (OC : forall x y, offset_coord (F := XR) x y = y) by (intros; unfold offset_coord; xsimp; destruct (xlt _ _); auto; destruct (xlt _ _); auto).
    rewrite !OC. rewrite !st3_dot_r, st3_scale_r by auto. unfold f0. xsimp. rewrite st_lt0 by auto.
    destruct (xlt _ _); rewrite ?st3_scale, sh3_add by auto; reflexivity.
  Qed.
  Lemma spawn_to (i j : interaction XR T) w : matches k a 1 i j -> spawn_ray j w = ray_to k 1 a (spawn_ray i w).
  Proof.
    intros M. unfold spawn_ray, ray_to. cbn [r_o r_d r_tmax]. rewrite <- (offset_to 1 1 i j w Rlt_0_1 M), !st3_1. reflexivity.
  Qed.
  Lemma shadow_to l m (i j i2 j2 : interaction XR T) : matches k a l i j -> matches k a m i2 j2 -> spawn_ray_to j j2 = ray_to k k a (spawn_ray_to i i2).
  Proof.
    intros M N. unfold spawn_ray_to, ray_to. cbn [r_o r_d r_tmax]. rewrite (proj1 M), (proj1 N), sh3_sub, st3_neg.
    rewrite (offset_to l k i j) by auto. rewrite (offset_to m k i2 j2) by auto. rewrite sh3_sub.
    rewrite (st_same (k / k) 1), st_1 by (field; lra). reflexivity.
  Qed.
  Lemma sphere_of_to b : bbox_bounding_sphere (box_to k a b) = (shift3 k a (fst (bbox_bounding_sphere b)), stretch k (snd (bbox_bounding_sphere b))).
  Proof.
    unfold bbox_bounding_sphere. cbn [fst snd].
    assert (C : v3divs (v3add (bmin (box_to k a b)) (bmax (box_to k a b))) f2 = shift3 k a (v3divs (v3add (bmin b) (bmax b)) f2)).
    { unfold f2. apply v_eq; unfold box_to, v3divs, v3add, v3map2, shift3; cbn [bmin bmax]; vproj; xsimp; apply sh_mid. }
    rewrite C. set (ce := v3divs _ _). f_equal.
    assert (P : bbox_point_inside (box_to k a b) (shift3 k a ce) = bbox_point_inside b ce) by (unfold bbox_point_inside, box_to, shift3; cbn [bmin bmax]; vproj; xsimp; now rewrite !sh_le by auto).
    rewrite P. destruct (bbox_point_inside b ce); [|symmetry; apply st_0]. unfold v3distance, box_to. cbn [bmax]. rewrite sh3_sub, st3_length by auto. reflexivity.
  Qed.
  Lemma far_to q b (i j : interaction XR T) l u : matches k a l i j -> exists w e v v',
    l_sample_li (far_light q b) i u = Ok (w, e, f1, v) /\ l_sample_li (far_light q (box_to k a b)) j u = Ok (w, e, f1, v') /\
    spawn_ray_to (v_p0 v') (v_p1 v') = ray_to k k a (spawn_ray_to (v_p0 v) (v_p1 v)).
  Proof.
    intros M. unfold far_light, distant_as_light, distant_pre. cbn [l_sample_li]. rewrite sphere_of_to. destruct (bbox_bounding_sphere b) as [ce ra]. cbn [fst snd].
    unfold distant_sample_li. cbn [dl_w dl_l dl_radius distant_new]. eexists _, _, _, _. split; [reflexivity|]. split; [reflexivity|]. cbn [v_p0 v_p1].
    eapply (shadow_to l l); [exact M|]. unfold matches. cbn [i_p i_p_err i_uv i_n i_sn i_dpdu i_wo i_shape].
    assert (Z : forall m, v3zero = stretch3 m v3zero) by (intros; apply v_eq; unfold stretch3, v3zero, f0; vproj; xsimp; symmetry; apply st_0).
    split; [|repeat (split; [solve [auto]|]); reflexivity].
    rewrite (proj1 M). xsimp. rewrite st_mul_r, st3_scale_r, sh3_add by auto. reflexivity.
  Qed.
End Scene.

(** ** The path *)
Section Path.
  Context {T ST : Type}.
  Variables (sm : sampler_ops XR ST) (teq : T -> T -> bool) (surf : T -> surface XR T) (k : R) (a : rv).
  Hypothesis Hk : 0 < k.
  Hypothesis Hs : forall t, placeless (surf t).
  Variables (sc sc' : scene XR T (container XR T)) (suns : list (V3 XR * V3 XR)) (bb : bbox3 XR).
  Hypothesis L1 : sc_lights sc = map (fun q => far_light q bb) suns.
  Hypothesis L2 : sc_lights sc' = map (fun q => far_light q (box_to k a bb)) suns.
  Hypothesis I1 : forall r, res_matches (opt_matches k a 1) (c_intersect (sc_shapes sc) r) (c_intersect (sc_shapes sc') (ray_to k 1 a r)).
  Hypothesis I2 : forall r, c_intersect_p (sc_shapes sc') (ray_to k k a r) = c_intersect_p (sc_shapes sc) r.

  Lemma direct_to q i j b u ld : matches k a 1 i j -> direct_light sc' (far_light q (box_to k a bb)) j b u ld = direct_light sc (far_light q bb) i b u ld.
  Proof.
    intros M. unfold direct_light. destruct (far_to k a Hk q bb i j 1 u M) as (w & e & v & v' & E1 & E2 & E3). rewrite E1, E2. cbn [rbind].
    destruct M as (_ & _ & _ & _ & Esn & _ & Ewo & _). rewrite st3_1 in Ewo. rewrite Esn, Ewo. change (l_is_delta (far_light q (box_to k a bb))) with true. change (l_is_delta (far_light q bb)) with true.
    unfold unoccluded, scene_intersect_p. rewrite E3, I2. reflexivity.
  Qed.
  Lemma one_light_to s i j b : matches k a 1 i j -> uniform_sample_one_light sm teq surf sc' s j b = uniform_sample_one_light sm teq surf sc s i b.
  Proof.
    intros M. unfold uniform_sample_one_light. rewrite L1, L2, !map_length. destruct (_ =? 0)%Z; [reflexivity|].
    destruct (sm_get_1d sm s) as [[u s1]| |]; cbn [rbind]; auto. set (n := Z.min _ _).
    assert (E : exists q, (idx (map (fun q => far_light q bb) suns) n = Ok (far_light (T := T) q bb) /\ idx (map (fun q => far_light q (box_to k a bb)) suns) n = Ok (far_light (T := T) q (box_to k a bb))) \/
      idx (map (fun q => far_light (T := T) q bb) suns) n = Panic /\ idx (map (fun q => far_light (T := T) q (box_to k a bb)) suns) n = Panic).
    { exists (nth (Z.to_nat n) suns (v3zero, v3zero)). unfold idx. destruct (n <? 0)%Z; [auto|]. rewrite !nth_error_map. destruct (nth_error suns (Z.to_nat n)) eqn:E; cbn; auto.
      left. rewrite (nth_error_nth _ _ _ E). auto. }
    destruct E as (q & [[-> ->]|[-> ->] ]); cbn [rbind]; [|reflexivity].
    unfold estimate_direct. destruct (sm_get_2d sm s1) as [[u2 s2]| |]; cbn [rbind]; auto. destruct (sm_get_2d sm s2) as [[u3 s3]| |]; cbn [rbind]; auto.
    rewrite (direct_to q i j b u2 _ M). destruct (direct_light sc (far_light q bb) i b u2 v3zero); cbn [rbind]; auto.
  Qed.
  Lemma loop_to fuel : forall s r l beta sp n, li_loop sm teq surf sc' fuel s (ray_to k 1 a r) l beta sp n = li_loop sm teq surf sc fuel s r l beta sp n.
  Proof.
    induction fuel as [|fuel IH]; intros s r l beta sp n; [reflexivity|]. cbn [li_loop]. unfold scene_intersect. pose proof (I1 r) as H.
    destruct (c_intersect (sc_shapes sc) r) as [oi| |], (c_intersect (sc_shapes sc') (ray_to k 1 a r)) as [oj| |]; cbn [res_matches] in H; try contradiction; cbn [rbind]; auto.
    change (r_d (ray_to k 1 a r)) with (stretch3 1 (r_d r)). rewrite st3_1.
    destruct oi as [i|], oj as [j|]; cbn [opt_matches] in H; try contradiction; [|reflexivity].
    assert (A : alike j i).
    { destruct H as (_ & _ & H3 & H4 & H5 & H6 & H7 & H8). rewrite st3_1 in H7. unfold alike. auto 10. }
    assert (Le : forall w, le surf j w = le surf i w).
    { intros w. unfold le. assert (A6 : i_shape j = i_shape i) by apply A. rewrite A6. destruct (i_shape i) as [t|]; [|reflexivity]. f_equal. apply Hs. exact A. }
    assert (Sc : compute_scattering surf j = compute_scattering surf i).
    { unfold compute_scattering. assert (A6 : i_shape j = i_shape i) by apply A. rewrite A6. destruct (i_shape i) as [t|]; [|reflexivity]. apply Hs. exact A. }
    rewrite Le. destruct (if _ || _ then _ else _) as [l'| |]; cbn [rbind]; auto. destruct (MAX_BOUNCES <? n)%Z; [reflexivity|].
    rewrite Sc. destruct (compute_scattering surf i) as [b| |]; cbn [rbind]; auto. rewrite (one_light_to s i j b H).
    destruct (uniform_sample_one_light sm teq surf sc s i b) as [[ld s1]| |]; cbn [rbind]; auto. destruct (sm_get_2d sm s1) as [[u s2]| |]; cbn [rbind]; auto.
    destruct A as (_ & _ & Esn & _ & Ewo & _). rewrite Ewo, Esn. destruct (bsdf_sample_f b (i_wo i) u) as [[[[wi f] pdf] flag]| |]; cbn [rbind]; auto.
    destruct ((pdf =? f0)%f || is_black f); [reflexivity|]. rewrite (spawn_to k a Hk i j wi H).
    destruct (3 <? n + 1)%Z; [|apply IH]. destruct (sm_get_1d sm s2) as [[v s3]| |]; cbn [rbind]; auto. destruct (_ <? v)%f; [reflexivity|]. apply IH.
  Qed.
End Path.

(** Exact arithmetic.  Scenes of balls and triangles under distant lights, whose surfaces look at texture
    coordinates, normals and directions but not at places: the radiance along every ray stays the same if all lengths are
    given in another unit; if there are only balls, the origin may be elsewhere too. *)
Theorem C97_units_partial : forall (T ST : Type) (sm : sampler_ops XR ST) (teq : T -> T -> bool) (surf : T -> surface XR T) (bod : T -> solid) (al al' : T -> area_light XR T)
    (l : list T) (suns : list (V3 XR * V3 XR)) (k : R) (a : rv),
  0 < k -> (a = v0 \/ forall t, In t l -> is_round (bod t)) -> (forall t, placeless (surf t)) ->
  let sh t := solid_shape (bod t) in let sh' t := solid_shape (moved k a (bod t)) in
  match construct sh al (simple_of sh) (far_scene suns l), construct sh' al' (simple_of sh') (far_scene suns l) with
  | Ok sc, Ok sc' => forall fuel s o d,
      li sm teq surf sc' fuel s (mkRay (shift3 k a o) d finf) = li sm teq surf sc fuel s (mkRay o d finf)
  | Panic, Panic => l = []
  | _, _ => False
  end.
Proof.
  intros T ST sm teq surf bod al al' l suns k a Hk Ha Hs sh sh'.
  unfold construct, scene_bbox, far_scene. cbn [bd_shapes bd_areas bd_lights fold_left]. rewrite app_nil_r.
  pose proof (simple_to k a bod l Hk Ha) as S. fold sh sh' in S. unfold simple_of. unfold simple_new in S |- *.
  destruct l as [|t0 l']; [reflexivity|]. set (l := t0 :: l') in *.
  pose proof (boxes_to k a bod l Hk Ha) as B. fold sh sh' in B. rewrite B in S |- *.
  destruct (bbox_of_shapes sh l) as [bb| |] eqn:Eb; cbn [rbind] in S |- *; try (unfold bbox_of_shapes, l in Eb; cbn in Eb; discriminate).
  intros fuel s o d. cbn [map]. rewrite !app_nil_r, !map_map. destruct S as (_ & S).
  assert (R : mkRay (shift3 k a o) d finf = ray_to k 1 a (mkRay o d finf)) by (unfold ray_to; cbn [r_o r_d r_tmax]; rewrite st3_1; reflexivity).
  rewrite R. unfold li. apply (loop_to sm teq surf k a Hk Hs _ _ suns bb); try reflexivity.
  - intros r. apply S.
  - intros r. apply S.
Qed.
