(** * C116: the light of two scenes adds up *)
From Coq Require Import ZArith Reals List Bool Lia Lra.
From Flocq Require Import Core.
From Verif Require Import Model.Num Model.NumX Model.Vector Model.Common Model.BBox Model.Interaction Model.Shape Model.Container
  Model.Sphere Model.Texture Model.Material
  Model.Sampler Model.Sampling Model.Reflection Model.Light Model.Scene Model.Path Model.Film Model.Render.
From Verif Require Import Spec.RVec Spec.BoxSpec Spec.ShapeSpec Spec.ShadeSpec Spec.RadianceSpec Spec.EstimatorSpec Spec.LambertSpec Spec.SumSpec.
From Verif Require Import Proofs.XBase Proofs.RVecProofs Proofs.MicroProofs Proofs.MatProofs Proofs.ShapeProofs.
From Verif Require Import Props.Radiance Props.Radiance2 Props.Estimator Props.Lambert.
Import ListNotations.
Local Open Scope R_scope.

(** ** Finite sums have finite terms *)
Definition xfin (x : XR) : Prop := exists r, x = XFin r.
Lemma fin_coords v : fin v <-> xfin (vx v) /\ xfin (vy v) /\ xfin (vz v).
Proof.
  split.
  - intros (r & ->). unfold fin3, xfin. cbn. repeat split; eauto.
  - intros ((x & X) & (y & Y) & (z & Z)). exists (mkV3 x y z). destruct v. cbn in *. now subst.
Qed.
Lemma xadd_fin_inv x y : xfin (xadd x y) -> xfin x /\ xfin y.
Proof. intros (r & E). destruct x as [|s|x], y as [|t|y]; cbn in E; try discriminate; [|split; unfold xfin; eauto]. destruct (Bool.eqb s t); discriminate. Qed.
Lemma xmul_fin_inv x y : xfin (xmul x y) -> xfin x /\ xfin y.
Proof.
  intros (r & E). destruct x as [|s|x], y as [|t|y]; cbn in E; try discriminate; try (split; unfold xfin; eauto; fail).
  - destruct (Req_bool y 0); discriminate.
  - destruct (Req_bool x 0); discriminate.
Qed.
Lemma xdiv_fin_inv x y : xfin (xdiv x y) -> xfin x /\ ((exists s, y = XInf s) \/ exists r, y = XFin r /\ r <> 0).
Proof.
  intros (r & E). destruct x as [|s|x], y as [|t|y]; cbn in E; try discriminate; (split; [unfold xfin; eauto|]); [left; eauto|].
  right. exists y. split; auto. destruct (Req_bool y 0) eqn:Z; rb; auto. destruct (Req_bool x 0); discriminate.
Qed.
Lemma add_fin_inv a b : fin (v3add a b) -> fin a /\ fin b.
Proof.
  rewrite !fin_coords. unfold v3add, v3map2. xsimp. vproj. intros (X & Y & Z).
  apply xadd_fin_inv in X, Y, Z. tauto.
Qed.
Lemma scale_fin_inv a k : fin (v3scale a k) -> fin a.
Proof.
  rewrite !fin_coords. unfold v3scale. xsimp. vproj. intros (X & Y & Z).
  apply xmul_fin_inv in X, Y, Z. tauto.
Qed.

(** ** What a light contributes is additive in its radiance, where it is finite *)
Definition gives (f : V3 XR) (w p : XR) (e : V3 XR) : V3 XR := v3divs (v3scale (v3mul f e) w) p.
Lemma gives1 f w p a b ka kb : xfin (xdiv (xmul (xmul f (XFin a)) w) p) ->
  exists x y, xdiv (xmul (xmul f (XFin a)) w) p = XFin x /\ xdiv (xmul (xmul f (XFin b)) w) p = XFin y /\
    xdiv (xmul (xmul f (XFin (ka * a + kb * b))) w) p = XFin (ka * x + kb * y).
Proof.
  intros H. apply xdiv_fin_inv in H as [H P]. apply xmul_fin_inv in H as [H (w' & ->)]. apply xmul_fin_inv in H as [(f' & ->) _].
  destruct P as [(s & ->)|(q & -> & Q)].
  - exists 0, 0. cbn. repeat split; f_equal; lra.
  - cbn. destruct (Req_bool q 0) eqn:E; rb; [contradiction|]. do 2 eexists. repeat split; f_equal. field. auto.
Qed.
Lemma gives_add f w p a b ka kb : fin (gives f w p (fin3 a)) ->
  exists x y, gives f w p (fin3 a) = fin3 x /\ gives f w p (fin3 b) = fin3 y /\ gives f w p (fin3 (mix ka kb a b)) = fin3 (mix ka kb x y).
Proof.
  unfold gives. rewrite fin_coords. unfold v3divs, v3scale, v3mul, v3map2, fin3, mix, vadd, vprod. xsimp. vproj. intros (X & Y & Z).
  destruct (gives1 _ _ _ _ (vx b) (vx ka) (vx kb) X) as (x & x' & E1 & E2 & E3).
  destruct (gives1 _ _ _ _ (vy b) (vy ka) (vy kb) Y) as (y & y' & E4 & E5 & E6).
  destruct (gives1 _ _ _ _ (vz b) (vz ka) (vz kb) Z) as (z & z' & E7 & E8 & E9).
  exists (mkV3 x y z), (mkV3 x' y' z'). cbn [vx vy vz]. rewrite E1, E2, E3, E4, E5, E6, E7, E8, E9. auto.
Qed.
Lemma gives_0 f w p a : fin (gives f w p (fin3 a)) -> gives f w p (fin3 v0) = fin3 v0.
Proof.
  intros H. destruct (gives_add f w p a v0 v0 v0 H) as (x & y & Ex & Ey & Es).
  assert (E : forall u v, mix v0 v0 u v = v0) by (intros; unfold mix, vprod, vadd, v0; apply V3_eq; vproj; ring). now rewrite !E in Es.
Qed.
Lemma mul_1 (v : V3 XR) : v3scale v f1 = v.
Proof.
  unfold v3scale. destruct v as [x y z]. xsimp. vproj.
  assert (K : forall q, xmul q f1 = q).
  { unfold f1. xsimp. intros [|s|q]; cbn; auto; [|f_equal; lra]. rewrite Req_bool_false by lra. unfold Rsgn. rewrite Rlt_bool_false by lra. now rewrite xorb_false_r. }
  now rewrite !K.
Qed.
Lemma gives_1 f p e : v3divs (v3mul f e) p = gives f f1 p e.
Proof. unfold gives. now rewrite mul_1. Qed.
Lemma black_fin a : is_black (fin3 a) = true <-> a = v0.
Proof.
  unfold is_black, fin3, f0. xsimp. vproj. destruct a as [x y z]. cbn [xeq vx vy vz]. rewrite !andb_true_iff. unfold v0. split.
  - intros [[X Y] Z]. rb. now subst.
  - intros [= -> -> ->]. rewrite Req_bool_true; auto.
Qed.
Lemma ok_eq {A} (a b : A) : Ok a = Ok b -> a = b.
Proof. intros H. exact (f_equal (fun r => match r with Ok x => x | _ => a end) H). Qed.
Lemma ok_inj a b : Ok (fin3 a) = Ok (fin3 b) -> a = b.
Proof. intros H. apply fin3_inj. now apply ok_eq. Qed.
Lemma ok_pair {A B} (a b : A) (s t : B) : Ok (a, s) = Ok (b, t) -> a = b /\ s = t.
Proof. intros H. apply ok_eq in H. split; [exact (f_equal fst H)|exact (f_equal snd H)]. Qed.
Lemma mix_0 ka kb : mix ka kb v0 v0 = v0.
Proof. unfold mix, vprod, vadd, v0. apply V3_eq; vproj; ring. Qed.
Lemma mix_4 ka kb a b c d : vadd (mix ka kb a b) (mix ka kb c d) = mix ka kb (vadd a c) (vadd b d).
Proof. unfold mix, vprod, vscale, vadd. apply V3_eq; vproj; ring. Qed.

Section Sum.
  Context {T ST : Type}.
  Variables (sm : sampler_ops XR ST) (teq : T -> T -> bool) (surf1 surf2 surf : T -> surface XR T) (sc1 sc2 sc : scene XR T (container XR T)).
  Variables (ka kb : rv).
  Notation mx := (mix ka kb).
  Hypothesis D : sum_scene ka kb surf1 surf2 surf sc1 sc2 sc.

  (** *** a result that is finite was so far finite *)
  Lemma direct_light_fin (su : scene XR T (container XR T)) l i b u ld y : direct_light su l i b u ld = Ok y -> fin y -> fin ld.
  Proof.
    unfold direct_light. destruct (l_sample_li l i u) as [[[[wi e] pdf] v]| |]; cbn [rbind]; try discriminate.
    destruct (_ && _); [|congruence]. destruct (negb (is_black _)); [|congruence].
    destruct (unoccluded _ v) as [[]| |]; cbn [rbind]; try discriminate; [|congruence].
    destruct (l_is_delta l); intros [= <-] H; now apply add_fin_inv in H.
  Qed.
  Lemma direct_bsdf_fin (sf : T -> surface XR T) (su : scene XR T (container XR T)) l i b u ld y : direct_bsdf teq sf su l i b u ld = Ok y -> fin y -> fin ld.
  Proof.
    unfold direct_bsdf. destruct (l_is_delta l); [congruence|].
    destruct (bsdf_sample_f b (i_wo i) u) as [[[[wi f] pdf] flag]| |]; cbn [rbind]; try discriminate.
    destruct (_ && _); [|congruence]. destruct (_ && _); [congruence|].
    destruct (scene_intersect su _) as [[j|]| |]; cbn [rbind]; try discriminate; [|congruence].
    destruct (i_shape j); try discriminate. destruct (if same_addr _ _ _ then _ else _); cbn [rbind]; try discriminate.
    intros [= <-] H. now apply add_fin_inv in H.
  Qed.
  Lemma loop_fin (sf : T -> surface XR T) (su : scene XR T (container XR T)) : forall fuel s r l beta sp bo y s', li_loop sm teq sf su fuel s r l beta sp bo = Ok (y, s') -> fin y -> fin l.
  Proof.
    induction fuel as [|fuel IH]; intros *; cbn [li_loop]; [discriminate|].
    destruct (scene_intersect su r) as [o| |]; cbn [rbind]; try discriminate.
    assert (Q : forall l1, (if (bo =? 0)%Z || sp then
                   match o with Some i => let! e := le sf i (v3neg (r_d r)) in Ok (v3add l (v3mul beta e)) | None => Ok l end
                 else Ok l) = Ok l1 -> fin l1 -> fin l).
    { intros l1. destruct (_ || _); [|congruence]. destruct o as [i|]; [|congruence].
      destruct (le sf i _); cbn [rbind]; try discriminate. intros [= <-] H. now apply add_fin_inv in H. }
    destruct (if (bo =? 0)%Z || sp then _ else Ok l) as [l1| |]; cbn [rbind]; try discriminate.
    specialize (Q l1 eq_refl). destruct o as [i|]; [|intros [= <- <-]; auto]. destruct (MAX_BOUNCES <? bo)%Z; [intros [= <- <-]; auto|].
    destruct (compute_scattering sf i) as [b| |]; cbn [rbind]; try discriminate.
    destruct (uniform_sample_one_light sm teq sf su s i b) as [[ld s1]| |]; cbn [rbind]; try discriminate.
    destruct (sm_get_2d sm s1) as [[u s2]| |]; cbn [rbind]; try discriminate.
    destruct (bsdf_sample_f b (i_wo i) u) as [[[[wi f] pdf] flag]| |]; cbn [rbind]; try discriminate.
    assert (R : fin (v3add l1 (v3mul beta ld)) -> fin l) by (intros H; apply add_fin_inv in H; tauto).
    destruct (_ || _); [intros [= <- <-]; auto|]. destruct (3 <? bo + 1)%Z; [|eauto].
    destruct (sm_get_1d sm s2) as [[v s3]| |]; cbn [rbind]; try discriminate.
    destruct (flt _ v); [intros [= <- <-]; auto|eauto].
  Qed.

  (** *** the two halves of the direct light *)
  Lemma sum_direct_light l1 l2 l i b u x1 x2 y1 y2 : sum_light ka kb l1 l2 l ->
    direct_light sc1 l1 i b u (fin3 x1) = Ok (fin3 y1) -> direct_light sc2 l2 i b u (fin3 x2) = Ok (fin3 y2) ->
    direct_light sc l i b u (fin3 (mx x1 x2)) = Ok (fin3 (mx y1 y2)).
  Proof.
    intros [[D1 D2] _ _ S]. unfold direct_light.
    destruct (S i u) as [(wi & a & c & pdf & v & E1 & E2 & E)|N].
    2:{ destruct (l_sample_li l1 i u) as [q| |]; [now destruct (N q)|discriminate|discriminate]. }
    rewrite E1, E2, E. cbn [rbind]. destruct (flt f0 pdf) eqn:P; cbn [andb]; [|intros H1 H2; apply ok_inj in H1, H2; now subst].
    unfold scene_intersect_p. destruct (ss_shapes _ _ _ _ _ _ _ _ D) as [-> ->]. rewrite D1, D2.
    set (f := v3scale (bsdf_f b (i_wo i) wi) (fabs (v3dot wi (i_sn i)))). set (w := power_heuristic _ _ _ _).
    set (G := fun e x => if negb (is_black f) then
        let! ok := unoccluded (c_intersect_p (sc_shapes sc)) v in
        if ok : bool then
          if l_is_delta l then Ok (v3add x (v3divs (v3mul f e) pdf))
          else Ok (v3add x (v3divs (v3scale (v3mul f e) w) pdf))
        else Ok x
      else Ok x).
    change ((if negb (is_black (fin3 a)) then G (fin3 a) (fin3 x1) else Ok (fin3 x1)) = Ok (fin3 y1) ->
            (if negb (is_black (fin3 c)) then G (fin3 c) (fin3 x2) else Ok (fin3 x2)) = Ok (fin3 y2) ->
            (if negb (is_black (fin3 (mx a c))) then G (fin3 (mx a c)) (fin3 (mx x1 x2)) else Ok (fin3 (mx x1 x2))) = Ok (fin3 (mx y1 y2))).
    assert (HG : (forall e x, G e x = Ok x) \/ (forall e x, G e x = Panic) \/ (forall e x, G e x = Timeout) \/
                 exists k, forall e x, G e x = Ok (v3add x (gives f k pdf e))).
    { unfold G. destruct (negb (is_black f)); [|auto]. destruct (unoccluded _ v) as [[]| |]; cbn [rbind]; auto.
      do 3 right. destruct (l_is_delta l); [exists f1; intros; now rewrite gives_1|exists w; reflexivity]. }
    clearbody G.
    assert (B : forall e x y, (forall e x, G e x = Ok x) -> (if negb (is_black e) then G e (fin3 x) else Ok (fin3 x)) = Ok (fin3 y) -> x = y).
    { intros e x y H. destruct (negb _); rewrite ?H; intros E0; now apply ok_inj. }
    assert (Kb : is_black (fin3 v0) = true) by now apply black_fin.
    destruct HG as [HG|[HG|[HG|(k & HG)]]].
    - intros H1 H2. apply B in H1, H2; auto. subst. destruct (negb _); now rewrite ?HG.
    - destruct (is_black (fin3 a)) eqn:Ka; cbn [negb]; rewrite ?HG; try discriminate.
      destruct (is_black (fin3 c)) eqn:Kc; cbn [negb]; rewrite ?HG; try discriminate.
      intros H1 H2. apply ok_inj in H1, H2. subst. apply black_fin in Ka, Kc. subst. now rewrite mix_0, Kb.
    - destruct (is_black (fin3 a)) eqn:Ka; cbn [negb]; rewrite ?HG; try discriminate.
      destruct (is_black (fin3 c)) eqn:Kc; cbn [negb]; rewrite ?HG; try discriminate.
      intros H1 H2. apply ok_inj in H1, H2. subst. apply black_fin in Ka, Kc. subst. now rewrite mix_0, Kb.
    - rewrite !HG. clear B.
      assert (Part : forall e x y, (if negb (is_black (fin3 e)) then Ok (v3add (fin3 x) (gives f k pdf (fin3 e))) else Ok (fin3 x)) = Ok (fin3 y) ->
        (e = v0 /\ y = x) \/ exists z, gives f k pdf (fin3 e) = fin3 z /\ y = vadd x z).
      { intros e x y. destruct (is_black (fin3 e)) eqn:Ke; cbn [negb]; intros E0.
        - left. apply black_fin in Ke. apply ok_inj in E0. auto.
        - right. apply ok_eq in E0. assert (Fz : fin (gives f k pdf (fin3 e))) by (apply (add_fin_inv (fin3 x)); rewrite E0; eexists; reflexivity).
          destruct Fz as (z & Ez). exists z. split; auto. rewrite Ez, v3add_fin in E0. symmetry. now apply fin3_inj. }
      intros H1 H2. apply Part in H1, H2. clear Part.
      assert (W : (a = v0 /\ c = v0 /\ y1 = x1 /\ y2 = x2) \/
        exists z1 z2, y1 = vadd x1 z1 /\ y2 = vadd x2 z2 /\ gives f k pdf (fin3 v0) = fin3 v0 /\ gives f k pdf (fin3 (mx a c)) = fin3 (mx z1 z2)).
      { assert (Fin : forall z, fin (fin3 z)) by (intros z; eexists; reflexivity).
        assert (V0 : forall x, x = vadd x v0) by (intros; vring).
        destruct H1 as [[-> ->]|(z1 & E1' & ->)], H2 as [[-> ->]|(z2 & E2' & ->)]; [auto| | |]; right.
        - exists v0, z2. assert (Z0 : gives f k pdf (fin3 v0) = fin3 v0) by (apply (gives_0 f k pdf c); now rewrite E2').
          repeat split; auto. destruct (gives_add f k pdf v0 c ka kb) as (z1' & z2' & A1 & A2 & A3); [now rewrite Z0|].
          rewrite Z0 in A1. rewrite E2' in A2. apply fin3_inj in A1, A2. now subst.
        - exists z1, v0. assert (Z0 : gives f k pdf (fin3 v0) = fin3 v0) by (apply (gives_0 f k pdf a); now rewrite E1').
          repeat split; auto. destruct (gives_add f k pdf a v0 ka kb) as (z1' & z2' & A1 & A2 & A3); [now rewrite E1'|].
          rewrite E1' in A1. rewrite Z0 in A2. apply fin3_inj in A1, A2. now subst.
        - exists z1, z2. assert (Z0 : gives f k pdf (fin3 v0) = fin3 v0) by (apply (gives_0 f k pdf a); now rewrite E1').
          repeat split; auto. destruct (gives_add f k pdf a c ka kb) as (z1' & z2' & A1 & A2 & A3); [now rewrite E1'|].
          rewrite E1' in A1. rewrite E2' in A2. apply fin3_inj in A1, A2. now subst. }
      destruct W as [(-> & -> & -> & ->)|(z1 & z2 & -> & -> & Z0 & Es)]; [now rewrite mix_0, Kb|].
      rewrite Es, v3add_fin, mix_4. destruct (is_black (fin3 (mx a c))) eqn:Ks; cbn [negb]; [|reflexivity].
      apply black_fin in Ks. rewrite Ks, Z0 in Es. apply fin3_inj in Es. rewrite <- mix_4, <- Es. do 2 f_equal. vring.
  Qed.

  Lemma sum_direct_bsdf l1 l2 l i b u x1 x2 y1 y2 : sum_light ka kb l1 l2 l ->
    direct_bsdf teq surf1 sc1 l1 i b u (fin3 x1) = Ok (fin3 y1) -> direct_bsdf teq surf2 sc2 l2 i b u (fin3 x2) = Ok (fin3 y2) ->
    direct_bsdf teq surf sc l i b u (fin3 (mx x1 x2)) = Ok (fin3 (mx y1 y2)).
  Proof.
    intros [[D1 D2] [A1 A2] Pd _]. unfold direct_bsdf. rewrite D1, D2.
    assert (Same : Ok (fin3 x1) = Ok (fin3 y1) -> Ok (fin3 x2) = Ok (fin3 y2) -> Ok (fin3 (mx x1 x2)) = Ok (fin3 (mx y1 y2))).
    { intros H1 H2. apply ok_inj in H1, H2. now subst. }
    destruct (l_is_delta l); [exact Same|].
    destruct (bsdf_sample_f b (i_wo i) u) as [[[[wi f] pdf] flag]| |]; cbn [rbind]; try discriminate.
    destruct (_ && _); [|exact Same]. destruct (Pd i wi) as [-> ->]. destruct (_ && _); [exact Same|].
    unfold scene_intersect. destruct (ss_shapes _ _ _ _ _ _ _ _ D) as [-> ->].
    destruct (c_intersect _ _) as [[j|]| |]; cbn [rbind]; try discriminate; [|exact Same].
    destruct (i_shape j) as [t|] eqn:Ej; try discriminate.
    assert (Q1 : same_addr teq t l1 = same_addr teq t l) by (unfold same_addr; now rewrite A1).
    assert (Q2 : same_addr teq t l2 = same_addr teq t l) by (unfold same_addr; now rewrite A2). rewrite Q1, Q2.
    set (k := if negb _ then f1 else _). set (g := v3scale f _). clearbody k g.
    assert (Sum : forall a c, Ok (v3add (fin3 x1) (v3divs (v3scale (v3mul g (fin3 a)) k) pdf)) = Ok (fin3 y1) ->
                              Ok (v3add (fin3 x2) (v3divs (v3scale (v3mul g (fin3 c)) k) pdf)) = Ok (fin3 y2) ->
                              Ok (v3add (fin3 (mx x1 x2)) (v3divs (v3scale (v3mul g (fin3 (mx a c))) k) pdf)) = Ok (fin3 (mx y1 y2))).
    { intros a c. fold (gives g k pdf (fin3 a)) (gives g k pdf (fin3 c)) (gives g k pdf (fin3 (mx a c))). intros H1 H2.
      apply ok_eq in H1, H2.
      destruct (gives_add g k pdf a c ka kb) as (z1 & z2 & E1 & E2 & E3); [apply (add_fin_inv (fin3 x1)); rewrite H1; eexists; reflexivity|].
      rewrite E1, v3add_fin in H1. rewrite E2, v3add_fin in H2. apply fin3_inj in H1, H2. subst. rewrite E3, v3add_fin, mix_4. reflexivity. }
    destruct (same_addr teq t l).
    - unfold le. rewrite Ej. destruct (ss_l _ _ _ _ _ _ _ _ D t j (v3neg wi)) as (a & c & -> & -> & ->). cbn [rbind]. apply Sum.
    - cbn [rbind]. change v3zero with (fin3 v0). specialize (Sum v0 v0). now rewrite mix_0 in Sum.
  Qed.

  Lemma idx_nth {A} (l : list A) k x : idx l k = Ok x -> (0 <= k)%Z /\ nth_error l (Z.to_nat k) = Some x.
  Proof. unfold idx. destruct (k <? 0)%Z eqn:E; [discriminate|]. destruct (nth_error _ _); [|discriminate]. intros [= ->]. split; auto. lia. Qed.

  Lemma sum_one_light s i b y1 y2 s1 s2 :
    uniform_sample_one_light sm teq surf1 sc1 s i b = Ok (fin3 y1, s1) -> uniform_sample_one_light sm teq surf2 sc2 s i b = Ok (fin3 y2, s2) ->
    s1 = s2 /\ uniform_sample_one_light sm teq surf sc s i b = Ok (fin3 (mx y1 y2), s1).
  Proof.
    unfold uniform_sample_one_light. destruct (ss_number _ _ _ _ _ _ _ _ D) as [N1 N2]. rewrite N1, N2.
    destruct (_ =? 0)%Z.
    { change v3zero with (fin3 v0). intros H1 H2. apply ok_pair in H1 as [H1 H1'], H2 as [H2 H2']. apply fin3_inj in H1, H2. subst. split; auto. now rewrite mix_0. }
    destruct (sm_get_1d sm s) as [[u s0]| |]; cbn [rbind]; try discriminate.
    set (k := Z.min _ _). clearbody k. set (n := fofZ _).
    destruct (idx (sc_lights sc1) k) as [l1| |] eqn:E1; cbn [rbind]; try discriminate.
    destruct (idx (sc_lights sc2) k) as [l2| |] eqn:E2; cbn [rbind]; try discriminate.
    apply idx_nth in E1 as [Hk E1]. apply idx_nth in E2 as [_ E2].
    assert (E : exists l, idx (sc_lights sc) k = Ok l /\ nth_error (sc_lights sc) (Z.to_nat k) = Some l).
    { assert (L : (Z.to_nat k < length (sc_lights sc))%nat) by (rewrite <- N1; apply nth_error_Some; congruence).
      destruct (nth_error (sc_lights sc) (Z.to_nat k)) as [l|] eqn:E; [|apply nth_error_Some in L; congruence].
      exists l. split; auto. unfold idx. rewrite E. destruct (k <? 0)%Z eqn:X; auto. lia. }
    destruct E as (l & El & Nl). pose proof (ss_lights _ _ _ _ _ _ _ _ D _ _ _ _ E1 E2 Nl) as SL. rewrite El. cbn [rbind].
    unfold estimate_direct. destruct (sm_get_2d sm s0) as [[u0 s3]| |]; cbn [rbind]; try discriminate.
    destruct (sm_get_2d sm s3) as [[u1 s4]| |]; cbn [rbind]; try discriminate.
    destruct (direct_light sc1 l1 i b u0 v3zero) as [p1| |] eqn:P1; cbn [rbind]; try discriminate.
    destruct (direct_bsdf teq surf1 sc1 l1 i b u1 p1) as [q1| |] eqn:Q1; cbn [rbind]; try discriminate.
    destruct (direct_light sc2 l2 i b u0 v3zero) as [p2| |] eqn:P2; cbn [rbind]; try discriminate.
    destruct (direct_bsdf teq surf2 sc2 l2 i b u1 p2) as [q2| |] eqn:Q2; cbn [rbind]; try discriminate.
    intros H1 H2. apply ok_pair in H1 as [H1 <-], H2 as [H2 <-]. split; auto.
    assert (Fq1 : fin q1) by (apply (scale_fin_inv q1 n); rewrite H1; eexists; reflexivity).
    assert (Fq2 : fin q2) by (apply (scale_fin_inv q2 n); rewrite H2; eexists; reflexivity).
    pose proof (direct_bsdf_fin _ _ _ _ _ _ _ _ Q1 Fq1) as (p1' & ->). pose proof (direct_bsdf_fin _ _ _ _ _ _ _ _ Q2 Fq2) as (p2' & ->).
    destruct Fq1 as (q1' & ->), Fq2 as (q2' & ->). change v3zero with (fin3 v0) in *.
    pose proof (sum_direct_light l1 l2 l i b u0 v0 v0 p1' p2' SL P1 P2) as P. rewrite mix_0 in P. rewrite P. cbn [rbind].
    rewrite (sum_direct_bsdf l1 l2 l i b u1 p1' p2' q1' q2' SL Q1 Q2). cbn [rbind]. do 2 f_equal.
    unfold n in *. clear - H1 H2. revert H1 H2. unfold v3scale, fin3, mix, vprod, vscale, vadd. xsimp. vproj. cbn [xmul]. intros [= A1 A2 A3] [= B1 B2 B3].
    f_equal; f_equal; nra.
  Qed.

  Lemma mul_add beta a c x1 x2 y1 y2 : v3add (fin3 x1) (v3mul beta (fin3 a)) = fin3 y1 -> v3add (fin3 x2) (v3mul beta (fin3 c)) = fin3 y2 ->
    v3add (fin3 (mx x1 x2)) (v3mul beta (fin3 (mx a c))) = fin3 (mx y1 y2).
  Proof.
    intros H1 H2. assert (Fb : fin beta).
    { assert (F0 : fin (v3mul beta (fin3 a))) by (apply (add_fin_inv (fin3 x1)); rewrite H1; eexists; reflexivity).
      revert F0. rewrite !fin_coords. unfold v3mul, v3map2. xsimp. vproj. intros (X & Y & Z). apply xmul_fin_inv in X, Y, Z. tauto. }
    destruct Fb as (q & ->). rewrite v3mul_fin, v3add_fin in H1, H2. apply fin3_inj in H1, H2. subst. rewrite v3mul_fin, v3add_fin. f_equal.
    unfold mix, vprod, vadd. cbn [vx vy vz]. f_equal; ring.
  Qed.

  Lemma sum_loop : forall fuel s r x1 x2 beta sp bo y1 y2 s1 s2,
    li_loop sm teq surf1 sc1 fuel s r (fin3 x1) beta sp bo = Ok (fin3 y1, s1) ->
    li_loop sm teq surf2 sc2 fuel s r (fin3 x2) beta sp bo = Ok (fin3 y2, s2) ->
    s1 = s2 /\ li_loop sm teq surf sc fuel s r (fin3 (mx x1 x2)) beta sp bo = Ok (fin3 (mx y1 y2), s1).
  Proof.
    induction fuel as [|fuel IH]; intros *; cbn [li_loop]; [discriminate|].
    unfold scene_intersect. destruct (ss_shapes _ _ _ _ _ _ _ _ D) as [-> ->].
    destruct (c_intersect _ r) as [o| |]; cbn [rbind]; try discriminate.
    set (S0 := fun sf x => if (bo =? 0)%Z || sp then
                   match o with Some i => let! e := le sf i (v3neg (r_d r)) in Ok (v3add x (v3mul beta e)) | None => Ok x end
                 else Ok x).
    change (if (bo =? 0)%Z || sp then
                   match o with Some i => let! e := le surf1 i (v3neg (r_d r)) in Ok (v3add (fin3 x1) (v3mul beta e)) | None => Ok (fin3 x1) end
                 else Ok (fin3 x1)) with (S0 surf1 (fin3 x1)).
    change (if (bo =? 0)%Z || sp then
                   match o with Some i => let! e := le surf2 i (v3neg (r_d r)) in Ok (v3add (fin3 x2) (v3mul beta e)) | None => Ok (fin3 x2) end
                 else Ok (fin3 x2)) with (S0 surf2 (fin3 x2)).
    change (if (bo =? 0)%Z || sp then
                   match o with Some i => let! e := le surf i (v3neg (r_d r)) in Ok (v3add (fin3 (mx x1 x2)) (v3mul beta e)) | None => Ok (fin3 (mx x1 x2)) end
                 else Ok (fin3 (mx x1 x2))) with (S0 surf (fin3 (mx x1 x2))).
    assert (QS : forall z1 z2, S0 surf1 (fin3 x1) = Ok (fin3 z1) -> S0 surf2 (fin3 x2) = Ok (fin3 z2) -> S0 surf (fin3 (mx x1 x2)) = Ok (fin3 (mx z1 z2))).
    { intros z1 z2. unfold S0.
      assert (Same : Ok (fin3 x1) = Ok (fin3 z1) -> Ok (fin3 x2) = Ok (fin3 z2) -> Ok (fin3 (mx x1 x2)) = Ok (fin3 (mx z1 z2))).
      { intros H1 H2. apply ok_inj in H1, H2. now subst. }
      destruct (_ || _); [|exact Same]. destruct o as [i|]; [|exact Same]. unfold le. destruct (i_shape i) as [t|]; [|discriminate].
      destruct (ss_l _ _ _ _ _ _ _ _ D t i (v3neg (r_d r))) as (a & c & -> & -> & ->). cbn [rbind]. intros H1 H2. apply ok_eq in H1, H2.
      f_equal. now apply mul_add. }
    clearbody S0.
    destruct (S0 surf1 (fin3 x1)) as [l1| |] eqn:G1; cbn [rbind]; try discriminate.
    destruct (S0 surf2 (fin3 x2)) as [l2| |] eqn:G2; cbn [rbind]; try discriminate.
    destruct o as [i|].
    2:{ intros H1 H2. apply ok_pair in H1 as [-> <-], H2 as [-> <-]. split; auto. now rewrite (QS y1 y2). }
    destruct (MAX_BOUNCES <? bo)%Z.
    { intros H1 H2. apply ok_pair in H1 as [-> <-], H2 as [-> <-]. split; auto. now rewrite (QS y1 y2). }
    assert (Q1 : compute_scattering surf1 i = compute_scattering surf i)
      by (unfold compute_scattering; destruct (i_shape i); auto; apply (ss_scatter _ _ _ _ _ _ _ _ D)).
    assert (Q2 : compute_scattering surf2 i = compute_scattering surf i)
      by (unfold compute_scattering; destruct (i_shape i); auto; apply (ss_scatter _ _ _ _ _ _ _ _ D)).
    rewrite Q1, Q2. destruct (compute_scattering surf i) as [b| |]; cbn [rbind]; try discriminate.
    destruct (uniform_sample_one_light sm teq surf1 sc1 s i b) as [[d1 t1]| |] eqn:U1; cbn [rbind]; try discriminate.
    destruct (uniform_sample_one_light sm teq surf2 sc2 s i b) as [[d2 t2]| |] eqn:U2; cbn [rbind]; try discriminate.
    (* whatever comes next, the sums so far are finite *)
    assert (Step : forall (k1 k2 k : V3 XR -> ST -> res (V3 XR * ST)),
      (forall x t y t', k1 x t = Ok (y, t') -> fin y -> fin x) -> (forall x t y t', k2 x t = Ok (y, t') -> fin y -> fin x) ->
      (forall z1 z2 t, k1 (fin3 z1) t = Ok (fin3 y1, s1) -> k2 (fin3 z2) t = Ok (fin3 y2, s2) -> s1 = s2 /\ k (fin3 (mx z1 z2)) t = Ok (fin3 (mx y1 y2), s1)) ->
      k1 (v3add l1 (v3mul beta d1)) t1 = Ok (fin3 y1, s1) -> k2 (v3add l2 (v3mul beta d2)) t2 = Ok (fin3 y2, s2) ->
      s1 = s2 /\ (let! q := S0 surf (fin3 (mx x1 x2)) in
        let! (ld, t) := uniform_sample_one_light sm teq surf sc s i b in k (v3add q (v3mul beta ld)) t) = Ok (fin3 (mx y1 y2), s1)).
    { intros k1 k2 k K1 K2 K H1 H2.
      assert (Fy : forall y, fin (fin3 y)) by (intros y; eexists; reflexivity).
      pose proof (K1 _ _ _ _ H1 (Fy _)) as F1. pose proof (K2 _ _ _ _ H2 (Fy _)) as F2.
      destruct (add_fin_inv _ _ F1) as [(l1' & ->) M1]. destruct (add_fin_inv _ _ F2) as [(l2' & ->) M2].
      assert (Fd : forall d, fin (v3mul beta d) -> fin d).
      { intros d. rewrite !fin_coords. unfold v3mul, v3map2. xsimp. vproj. intros (X & Y & Z). apply xmul_fin_inv in X, Y, Z. tauto. }
      destruct (Fd _ M1) as (d1' & ->). destruct (Fd _ M2) as (d2' & ->).
      destruct (sum_one_light s i b d1' d2' t1 t2 U1 U2) as [<- U]. rewrite (QS l1' l2' eq_refl eq_refl), U. cbn [rbind].
      destruct F1 as (z1 & E1), F2 as (z2 & E2). rewrite (mul_add beta d1' d2' l1' l2' z1 z2 E1 E2).
      rewrite E1 in H1. rewrite E2 in H2. now apply K. }
    set (k0 := fun sf su (l0 : V3 XR) t =>
      let! (u, s) := sm_get_2d sm t in
          let! (wi, f, pdf, flag) := bsdf_sample_f b (i_wo i) u in
          if (feq pdf f0) || is_black f then Ok (l0, s)
          else
            let beta := v3mul beta (v3divs (v3scale f (fabs (v3dot wi (i_sn i)))) pdf) in
            let specular := negb (Z.land flag SPECULAR =? 0)%Z in
            let r := spawn_ray i wi in
            let bounces := (bo + 1)%Z in
            if (3 <? bounces)%Z then
              let q := fmin (spectrum_y beta) (flit 95 2) in
              let! (v, s) := sm_get_1d sm s in
              if flt q v then Ok (l0, s)
              else li_loop sm teq sf su fuel s r l0 (v3divs beta q) specular bounces
            else li_loop sm teq sf su fuel s r l0 beta specular bounces).
    assert (KF : forall sf su x t y t', k0 sf su x t = Ok (y, t') -> fin y -> fin x).
    { intros sf su x t y t'. unfold k0. destruct (sm_get_2d sm t) as [[u s3]| |]; cbn [rbind]; try discriminate.
      destruct (bsdf_sample_f b (i_wo i) u) as [[[[wi f] pdf] flag]| |]; cbn [rbind]; try discriminate.
      destruct (_ || _); [intros [= <- <-]; auto|]. cbv zeta. destruct (3 <? bo + 1)%Z; [|apply loop_fin].
      destruct (sm_get_1d sm s3) as [[v s4]| |]; cbn [rbind]; try discriminate.
      destruct (flt _ v); [intros [= <- <-]; auto|apply loop_fin]. }
    exact (Step (k0 surf1 sc1) (k0 surf2 sc2) (k0 surf sc) (KF surf1 sc1) (KF surf2 sc2) ltac:(
      intros z1 z2 t; unfold k0; destruct (sm_get_2d sm t) as [[u s3]| |]; cbn [rbind]; try discriminate;
      destruct (bsdf_sample_f b (i_wo i) u) as [[[[wi f] pdf] flag]| |]; cbn [rbind]; try discriminate;
      destruct (_ || _); [intros H1 H2; apply ok_pair in H1 as [H1 <-], H2 as [H2 <-]; apply fin3_inj in H1, H2; subst; auto|];
      cbv zeta; destruct (3 <? bo + 1)%Z; [|apply IH];
      destruct (sm_get_1d sm s3) as [[v s4]| |]; cbn [rbind]; try discriminate;
      destruct (flt _ v); [intros H1 H2; apply ok_pair in H1 as [H1 <-], H2 as [H2 <-]; apply fin3_inj in H1, H2; subst; auto|apply IH])).
  Qed.
End Sum.

(** Exact arithmetic, the same random numbers: if a path has a finite radiance in two scenes that differ in what shines only,
    its radiance in the scene where [ka] times the first and [kb] times the second shine is [ka] times the first radiance
    plus [kb] times the second; the paths use the same random numbers. *)
Theorem C116_superposition : forall (T ST : Type) (sm : sampler_ops XR ST) (teq : T -> T -> bool)
    (surf1 surf2 surf : T -> surface XR T) (sc1 sc2 sc : scene XR T (container XR T)) ka kb fuel s r a1 a2 s1 s2,
  sum_scene ka kb surf1 surf2 surf sc1 sc2 sc ->
  li sm teq surf1 sc1 fuel s r = Ok (fin3 a1, s1) -> li sm teq surf2 sc2 fuel s r = Ok (fin3 a2, s2) ->
  s1 = s2 /\ li sm teq surf sc fuel s r = Ok (fin3 (vadd (vprod ka a1) (vprod kb a2)), s1).
Proof.
  intros T ST sm teq surf1 surf2 surf sc1 sc2 sc ka kb fuel s r a1 a2 s1 s2 D H1 H2. unfold li in *. change v3zero with (fin3 v0) in *.
  rewrite <- (mix_0 ka kb) at 1. now apply (sum_loop sm teq surf1 surf2 surf sc1 sc2 sc ka kb D fuel s r v0 v0 (spectrum_of f1) false 0%Z).
Qed.
Print Assumptions C116_superposition.

(** In particular: a coloured filter before every light is a filter before the camera; twice the light is twice the radiance;
    and where no light has red, nothing is red. *)
Theorem C116_tinted : forall (T ST : Type) (sm : sampler_ops XR ST) (teq : T -> T -> bool)
    (surf1 surf : T -> surface XR T) (sc1 sc : scene XR T (container XR T)) k fuel s r a s1,
  sum_scene k v0 surf1 surf1 surf sc1 sc1 sc -> li sm teq surf1 sc1 fuel s r = Ok (fin3 a, s1) ->
  li sm teq surf sc fuel s r = Ok (fin3 (vprod k a), s1).
Proof.
  intros T ST sm teq surf1 surf sc1 sc k fuel s r a s1 D H. rewrite (proj2 (C116_superposition _ _ _ _ _ _ _ _ _ _ _ _ _ _ _ _ _ _ _ D H H)).
  do 3 f_equal. unfold vprod, vadd, v0. apply V3_eq; vproj; ring.
Qed.
Print Assumptions C116_tinted.
Theorem C116_brighter : forall (T ST : Type) (sm : sampler_ops XR ST) (teq : T -> T -> bool)
    (surf1 surf : T -> surface XR T) (sc1 sc : scene XR T (container XR T)) k fuel s r a s1,
  sum_scene (grey k) v0 surf1 surf1 surf sc1 sc1 sc -> li sm teq surf1 sc1 fuel s r = Ok (fin3 a, s1) ->
  li sm teq surf sc fuel s r = Ok (fin3 (vscale k a), s1).
Proof. intros. eapply C116_tinted in H; [|eassumption]. exact H. Qed.
Print Assumptions C116_brighter.

(** The library's lights: two distant lights in the same place, two lamps of the same shape, and what a lamp shows. *)
Theorem C116_lights : forall (T : Type) ka kb (a b : rv) (w c : V3 XR) (rad : XR),
  sum_light (T := T) ka kb (distant_as_light (mkDistant (fin3 a) w c rad)) (distant_as_light (mkDistant (fin3 b) w c rad))
    (distant_as_light (mkDistant (fin3 (mix ka kb a b)) w c rad)) /\
  forall (me : T) (sh : shape XR T),
  sum_light ka kb (area_as_light me (mkArea (fin3 a) sh)) (area_as_light me (mkArea (fin3 b) sh)) (area_as_light me (mkArea (fin3 (mix ka kb a b)) sh)) /\
  forall i v, exists x y, area_l (mkArea (fin3 a) sh) i v = fin3 x /\ area_l (mkArea (fin3 b) sh) i v = fin3 y /\
    area_l (mkArea (fin3 (mix ka kb a b)) sh) i v = fin3 (mix ka kb x y).
Proof.
  intros T ka kb a b w c rad.
  assert (A : forall (sh : shape XR T) i v, exists x y, area_l (mkArea (fin3 a) sh) i v = fin3 x /\ area_l (mkArea (fin3 b) sh) i v = fin3 y /\
    area_l (mkArea (fin3 (mix ka kb a b)) sh) i v = fin3 (mix ka kb x y)).
  { intros sh i v. unfold area_l. cbn [al_l]. destruct (flt _ _); [exists a, b; auto|].
    exists v0, v0. rewrite mix_0. auto. }
  split; [|intros me sh; split; [|exact (A sh)]].
  - constructor; [split; reflexivity|split; reflexivity|split; reflexivity|]. intros i u. left.
    cbn [distant_as_light l_sample_li]. unfold distant_sample_li. cbn [dl_l dl_w dl_radius]. do 5 eexists. repeat split; reflexivity.
  - constructor; [split; reflexivity|split; reflexivity|split; reflexivity|]. intros i u.
    cbn [area_as_light l_sample_li]. unfold area_sample_li. cbn [al_shape].
    destruct (sh_sample_ref sh i u) as [q| |]; cbn [rbind]; [left|right; discriminate|right; discriminate].
    destruct (A sh q (v3neg (v3normalize (v3sub (i_p q) (i_p i))))) as (x & y & -> & -> & ->).
    do 5 eexists. repeat split; reflexivity.
Qed.
Print Assumptions C116_lights.

(** Scenes from the builder: suns with radiances a and b and direction w, lamps [t] with radiances [ea t] and [eb t], and both mixed;
    any materials, any container. *)
Definition lit_by {T} (sh : T -> shape XR T) (e : T -> rv) (t : T) : area_light XR T := mkArea (fin3 (e t)) (sh t).
Definition lit_surf {T} (mat : T -> interaction XR T -> res (bsdf XR)) (is_lamp : T -> bool) (al : T -> area_light XR T) (t : T) : surface XR T :=
  mkSurf (mat t) (if is_lamp t then area_l (al t) else fun _ _ => v3zero).
Theorem C116_built : forall (T : Type) (sh : T -> shape XR T) (cont : list T -> res (container XR T)) (suns : list (rv * rv * rv)) (l lamps : list T)
    (ea eb : T -> rv) (mat : T -> interaction XR T -> res (bsdf XR)) (is_lamp : T -> bool) ka kb sc,
  let scene_of e pick := construct sh (lit_by sh e) cont (mkBuilder (map sun (map pick suns)) l lamps) in
  let esum t := mix ka kb (ea t) (eb t) in
  scene_of esum (fun q => match q with (a, b, w) => (mix ka kb a b, w) end) = Ok sc ->
  exists sc1 sc2, scene_of ea (fun q => match q with (a, b, w) => (a, w) end) = Ok sc1 /\
    scene_of eb (fun q => match q with (a, b, w) => (b, w) end) = Ok sc2 /\
    sum_scene ka kb (lit_surf mat is_lamp (lit_by sh ea)) (lit_surf mat is_lamp (lit_by sh eb)) (lit_surf mat is_lamp (lit_by sh esum)) sc1 sc2 sc.
Proof.
  intros T sh cont suns l lamps ea eb mat is_lamp ka kb sc scene_of esum. unfold scene_of. clear scene_of.
  assert (Bx : forall e s, scene_bbox sh (lit_by sh e) (mkBuilder s l lamps) = scene_bbox sh (lit_by sh ea) (mkBuilder [] l lamps)) by reflexivity.
  unfold construct. rewrite !(Bx _ (map sun _)). destruct (scene_bbox _ _ _) as [bb| |]; cbn [rbind bd_lights bd_shapes bd_areas]; try discriminate.
  destruct (cont (l ++ lamps)) as [c| |]; cbn [rbind]; try discriminate. intros H. apply ok_eq in H. subst sc.
  do 2 eexists. split; [reflexivity|]. split; [reflexivity|]. constructor; cbn [sc_shapes sc_lights].
  - split; reflexivity.
  - rewrite !app_length, !map_length. split; reflexivity.
  - intros n l1 l2 l0. rewrite !map_map.
    assert (Ln : forall (f : rv * rv * rv -> light XR T) (g : T -> light XR T) q, nth_error (map f suns ++ map g lamps) n = Some q ->
      (exists x, nth_error suns n = Some x /\ q = f x) \/ (nth_error suns n = None /\ exists t, nth_error lamps (n - length suns) = Some t /\ q = g t)).
    { intros f g q H. destruct (nth_error suns n) as [x|] eqn:E.
      - left. exists x. split; auto. rewrite nth_error_app1 in H by (rewrite map_length; apply nth_error_Some; congruence).
        rewrite (map_nth_error f n suns E) in H. congruence.
      - right. split; auto. apply nth_error_None in E. rewrite nth_error_app2 in H by (rewrite map_length; auto). rewrite map_length in H.
        destruct (nth_error lamps (n - length suns)) as [t|] eqn:E'.
        + exists t. split; auto. rewrite (map_nth_error g _ _ E') in H. congruence.
        + apply nth_error_None in E'. assert (N : nth_error (map g lamps) (n - length suns) = None) by (apply nth_error_None; rewrite map_length; auto). congruence. }
    intros H1 H2 H0. apply Ln in H1, H2, H0. destruct H0 as [(x & E & ->)|(E & t & Et & ->)].
    + destruct H1 as [(x1 & E1 & ->)|[E1 _]]; [|congruence]. destruct H2 as [(x2 & E2 & ->)|[E2 _]]; [|congruence].
      assert (x1 = x) by congruence. assert (x2 = x) by congruence. subst. destruct x as [[a b] w]. unfold sun, distant_pre, distant_new. cbn [fst snd].
      destruct (bbox_bounding_sphere bb) as [ce ra]. cbn [dl_l dl_w]. apply (C116_lights T ka kb a b (v3normalize (fin3 w)) ce ra).
    + destruct H1 as [(x1 & E1 & _)|(_ & t1 & E1 & ->)]; [congruence|]. destruct H2 as [(x2 & E2 & _)|(_ & t2 & E2 & ->)]; [congruence|].
      assert (t1 = t) by congruence. assert (t2 = t) by congruence. subst. unfold lit_by, esum.
      apply (C116_lights T ka kb (ea t) (eb t) v3zero v3zero f0).
  - intros; split; reflexivity.
  - intros t i w. unfold lit_surf. cbn [sf_l]. destruct (is_lamp t).
    + unfold lit_by, esum. exact (proj2 (proj2 (C116_lights T ka kb (ea t) (eb t) v3zero v3zero f0) t (sh t)) i w).
    + exists v0, v0. rewrite mix_0. auto.
Qed.
Print Assumptions C116_built.

(** ** The picture *)

Lemma all3_nth {A} (R : A -> A -> A -> Prop) l1 l2 l : all3 R l1 l2 l -> forall n x1 x2, nth_error l1 n = Some x1 -> nth_error l2 n = Some x2 ->
  exists x, nth_error l n = Some x /\ R x1 x2 x.
Proof. induction 1; intros [|n] y1 y2; cbn; try discriminate; eauto. intros [= <-] [= <-]. eauto. Qed.
Lemma all3_set {A} (R : A -> A -> A -> Prop) l1 l2 l y1 y2 y : R y1 y2 y -> all3 R l1 l2 l -> forall n, all3 R (set_nth l1 n y1) (set_nth l2 n y2) (set_nth l n y).
Proof. intros Hy. induction 1; intros [|n]; cbn; constructor; auto. Qed.
Lemma all3_idx {A} (R : A -> A -> A -> Prop) l1 l2 l k x1 x2 : all3 R l1 l2 l -> idx l1 k = Ok x1 -> idx l2 k = Ok x2 -> exists x, idx l k = Ok x /\ R x1 x2 x.
Proof.
  intros H E1 E2. apply idx_nth in E1 as [K E1]. apply idx_nth in E2 as [_ E2]. destruct (all3_nth R _ _ _ H _ _ _ E1 E2) as (x & E & Hx).
  exists x. split; auto. unfold idx. rewrite E. destruct (k <? 0)%Z eqn:Z; auto. lia.
Qed.
Lemma all3_upd {A} (R : A -> A -> A -> Prop) l1 l2 l k g1 g2 g r1 r2 : all3 R l1 l2 l -> (forall x1 x2 x, R x1 x2 x -> R (g1 x1) (g2 x2) (g x)) ->
  upd l1 k g1 = Ok r1 -> upd l2 k g2 = Ok r2 -> exists r, upd l k g = Ok r /\ all3 R r1 r2 r.
Proof.
  intros H Hg. unfold upd. destruct (idx l1 k) as [x1| |] eqn:E1; cbn [rbind]; try discriminate.
  destruct (idx l2 k) as [x2| |] eqn:E2; cbn [rbind]; try discriminate. destruct (all3_idx R _ _ _ _ _ _ H E1 E2) as (x & -> & Hx). cbn [rbind].
  intros H1 H2. apply ok_eq in H1, H2. subst. eexists. split; [reflexivity|]. apply all3_set; auto.
Qed.
Lemma rfold3 {A B} (R : A -> A -> A -> Prop) (f1 f2 f : A -> B -> res A) :
  (forall x a1 a2 a b1 b2, R a1 a2 a -> f1 a1 x = Ok b1 -> f2 a2 x = Ok b2 -> exists b, f a x = Ok b /\ R b1 b2 b) ->
  forall l a1 a2 a b1 b2, R a1 a2 a -> rfold f1 l a1 = Ok b1 -> rfold f2 l a2 = Ok b2 -> exists b, rfold f l a = Ok b /\ R b1 b2 b.
Proof.
  intros H. induction l as [|x l IH]; intros * Ra; cbn [rfold].
  - intros H1 H2. apply ok_eq in H1, H2. subst. eauto.
  - destruct (f1 a1 x) as [c1| |] eqn:E1; cbn [rbind]; try discriminate. destruct (f2 a2 x) as [c2| |] eqn:E2; cbn [rbind]; try discriminate.
    destruct (H x _ _ _ _ _ Ra E1 E2) as (c & -> & Hc). cbn [rbind]. eauto.
Qed.

Definition fin_table (t : list (list XR)) : Prop := forall row w, In row t -> In w row -> xfin w.

Section Film.
Variables (ka kb : rv).
Notation mx := (mix ka kb).
Notation pixel_sum := (pixel_sum ka kb).
Notation film_sum := (film_sum ka kb).
Definition tile_sum (t1 t2 t : film_tile XR) : Prop :=
  tl_bbox t1 = tl_bbox t /\ tl_bbox t2 = tl_bbox t /\ tl_radius t1 = tl_radius t /\ tl_radius t2 = tl_radius t /\
  tl_table t1 = tl_table t /\ tl_table t2 = tl_table t /\ fin_table (tl_table t) /\ all3 pixel_sum (tl_pixels t1) (tl_pixels t2) (tl_pixels t).

Lemma pixel_sum_default : pixel_sum pixel_default pixel_default pixel_default.
Proof. exists v0, v0. rewrite mix_0. repeat split; reflexivity. Qed.
Lemma all3_repeat {A} (R : A -> A -> A -> Prop) x n : R x x x -> all3 R (repeat x n) (repeat x n) (repeat x n).
Proof. intros H. induction n; cbn; constructor; auto. Qed.

Lemma idx_In {A} (l : list A) k x : idx l k = Ok x -> In x l.
Proof. intros H. apply idx_nth in H as [_ H]. now apply nth_error_In in H. Qed.

Ltac first_res e := lazymatch e with rbind ?a _ => first_res a | _ => e end.
Tactic Notation "next_res" := lazymatch goal with |- ?e = Ok _ -> _ => let x := first_res e in destruct x; cbn [rbind]; try discriminate end.
Tactic Notation "next_res" ident(v) ident(E) := lazymatch goal with |- ?e = Ok _ -> _ => let x := first_res e in destruct x as [v| |] eqn:E; cbn [rbind]; try discriminate end.
Lemma splat_sum m a b p x y ix iy mn t1 t2 t r1 r2 : p = mx a b -> tile_sum t1 t2 t ->
  splat_one m (tl_table t1) ix iy mn (fin3 a) t1 x y = Ok r1 -> splat_one m (tl_table t2) ix iy mn (fin3 b) t2 x y = Ok r2 ->
  exists r, splat_one m (tl_table t) ix iy mn (fin3 p) t x y = Ok r /\ tile_sum r1 r2 r.
Proof.
  intros -> (B1 & B2 & R1 & R2 & T1 & T2 & FT & P). unfold splat_one, tile_pixel_offset. rewrite B1, B2, R1, R2, T1, T2.
  do 2 next_res. next_res row Er. do 2 next_res. next_res w Ew. do 5 next_res.
  assert (Fw : xfin w) by (apply (FT row); eapply idx_In; eauto). destruct Fw as (w' & ->).
  match goal with |- context [upd (tl_pixels t1) ?k _] => set (kk := k) end.
  destruct (upd (tl_pixels t1) kk _) as [q1| |] eqn:U1; cbn [rbind]; try discriminate.
  destruct (upd (tl_pixels t2) kk _) as [q2| |] eqn:U2; cbn [rbind]; try discriminate.
  intros H1 H2. apply ok_eq in H1, H2. subst.
  destruct (fun H => all3_upd pixel_sum _ _ _ kk _ _ (fun p => pixel_add_sample p (fin3 (mx a b)) (XFin w')) q1 q2 P H U1 U2) as (q & -> & Hq).
  { intros p1 p2 p0 (c & d & C1 & C2 & C0 & W1 & W2). unfold pixel_add_sample. exists (vadd c (vscale w' a)), (vadd d (vscale w' b)). cbn [p_color p_wsum].
    rewrite C1, C2, C0, W1, W2. assert (Sc : forall v, v3scale (fin3 v) (XFin w') = fin3 (vscale w' v)).
    { intros v. unfold v3scale, fin3, vscale. xsimp. vproj. cbn [xmul]. f_equal; f_equal; ring. }
    rewrite !Sc, !v3add_fin. repeat split; try reflexivity. f_equal. unfold mix, vprod, vscale, vadd. apply V3_eq; vproj; ring. }
  cbn [rbind]. eexists. split; [reflexivity|]. unfold tile_sum. cbn [tl_bbox tl_radius tl_table tl_pixels]. auto 10.
Qed.

Lemma add_sample_sum m a b pf t1 t2 t r1 r2 : tile_sum t1 t2 t ->
  tile_add_sample m t1 pf (fin3 a) = Ok r1 -> tile_add_sample m t2 pf (fin3 b) = Ok r2 ->
  exists r, tile_add_sample m t pf (fin3 (mx a b)) = Ok r /\ tile_sum r1 r2 r.
Proof.
  intros S. unfold tile_add_sample, sample_range. pose proof S as (B1 & B2 & R1 & R2 & _). rewrite B1, B2, R1, R2.
  match goal with |- context [rbind (rbind (i32_of m ?e) _) _] => destruct (i32_of m e); cbn [rbind]; try discriminate end.
  match goal with |- context [rbind (rbind (i32_of m ?e) _) _] => destruct (i32_of m e); cbn [rbind]; try discriminate end.
  apply (rfold3 tile_sum); auto. intros y u1 u2 u v1 v2 Su. apply (rfold3 tile_sum); auto.
  intros x w1 w2 w z1 z2 Sw. now apply splat_sum.
Qed.

Definition fm_sum (f1 f2 f : film XR) : Prop := film_sum f1 f2 f /\ fin_table (fm_table f).

Lemma merge_sum m t1 t2 t f1 f2 f r1 r2 : tile_sum t1 t2 t -> fm_sum f1 f2 f ->
  merge_film_tile m f1 t1 = Ok r1 -> merge_film_tile m f2 t2 = Ok r2 -> exists r, merge_film_tile m f t = Ok r /\ fm_sum r1 r2 r.
Proof.
  intros (B1 & B2 & R1 & R2 & T1 & T2 & FT & P) Sf. unfold merge_film_tile. rewrite B1, B2.
  destruct (bbox2_items m (tl_bbox t)) as [ps| |]; cbn [rbind]; try discriminate. apply (rfold3 fm_sum); auto. clear f1 f2 f r1 r2 Sf.
  intros p f1 f2 f r1 r2 [(E1 & E2 & Q1 & Q2 & U1 & U2 & Pf) FF]. unfold merge_one, film_pixel_offset, tile_pixel_offset. rewrite B1, B2, E1, E2, Q1, Q2, U1, U2.
  repeat match goal with |- context [rbind (i32_of m ?e) _] => destruct (i32_of m e); cbn [rbind]; try discriminate end.
  match goal with |- context [idx (tl_pixels t1) ?k] => set (k1 := k) end.
  destruct (idx (tl_pixels t1) k1) as [q1| |] eqn:I1; cbn [rbind]; try discriminate.
  destruct (idx (tl_pixels t2) k1) as [q2| |] eqn:I2; cbn [rbind]; try discriminate.
  destruct (all3_idx pixel_sum _ _ _ _ _ _ P I1 I2) as (q & -> & Hq). cbn [rbind].
  match goal with |- context [upd (fm_pixels f1) ?k _] => set (k2 := k) end.
  destruct (upd (fm_pixels f1) k2 _) as [z1| |] eqn:V1; cbn [rbind]; try discriminate.
  destruct (upd (fm_pixels f2) k2 _) as [z2| |] eqn:V2; cbn [rbind]; try discriminate.
  intros H1 H2. apply ok_eq in H1, H2. subst.
  destruct (fun H => all3_upd pixel_sum _ _ _ k2 _ _ (fun p => pixel_merge p q) z1 z2 Pf H V1 V2) as (z & -> & Hz).
  { destruct Hq as (qa & qb & C1 & C2 & C0 & W1 & W2). intros p1 p2 p0 (c & d & D1 & D2 & D0 & X1 & X2). exists (vadd c qa), (vadd d qb).
    unfold pixel_merge. cbn [p_color p_wsum]. rewrite C1, C2, C0, W1, W2, D1, D2, D0, X1, X2, !v3add_fin, mix_4. repeat split; reflexivity. }
  cbn [rbind]. eexists. split; [reflexivity|]. split; [|exact FF]. unfold film_sum. cbn [fm_res fm_radius fm_table fm_pixels]. auto 10.
Qed.

Section Picture.
  Context {ST : Type}.
  Hypotheses (Pa : each (fun k => 0 <= k) ka) (Pb : each (fun k => 0 <= k) kb).
  Variables (m : build) (sm : sampler_ops XR ST) (sh1 sh2 sh : ST -> P2 XR -> res (V3 XR * ST)).
  Hypothesis Sh : forall s p a1 a2 s1 s2, sh1 s p = Ok (fin3 a1, s1) -> sh2 s p = Ok (fin3 a2, s2) ->
    s1 = s2 /\ sh s p = Ok (fin3 (mx a1 a2), s1).

  Lemma valid_fin l : valid_radiance l = true -> exists a, l = fin3 a /\ 0 <= vx a /\ 0 <= vy a /\ 0 <= vz a.
  Proof.
    unfold valid_radiance, bad_channel, f0. destruct l as [x y z]. xsimp. vproj. rewrite negb_true_iff, !orb_false_iff. intros ((X & Y) & Z).
    destruct x as [|[]|x], y as [|[]|y], z as [|[]|z]; cbn in *; try (decompose [and] X; decompose [and] Y; decompose [and] Z; discriminate).
    exists (mkV3 x y z). split; [reflexivity|]. vproj. destruct X as [_ X], Y as [_ Y], Z as [_ Z]. rb. lra.
  Qed.
  Lemma fin_valid a : 0 <= vx a -> 0 <= vy a -> 0 <= vz a -> valid_radiance (fin3 a) = true.
  Proof.
    intros X Y Z. unfold valid_radiance, bad_channel, f0, fin3. xsimp. vproj. cbn [xlt fis_nan fis_inf]. rewrite !Rlt_bool_false by assumption. reflexivity.
  Qed.

  Lemma pixel_loop_sum : forall fuel p s t1 t2 t log1 log2 log r1 r2, tile_sum t1 t2 t ->
    pixel_loop m sm (only_valid sh1) fuel p s t1 log1 = Ok r1 -> pixel_loop m sm (only_valid sh2) fuel p s t2 log2 = Ok r2 ->
    exists u1 u2 u k1 k2 k s', r1 = (s', u1, k1) /\ r2 = (s', u2, k2) /\ pixel_loop m sm sh fuel p s t log = Ok (s', u, k) /\ tile_sum u1 u2 u.
  Proof.
    induction fuel as [|fuel IH]; intros * St; cbn [pixel_loop]; [discriminate|].
    destruct (get_camera_sample sm s p) as [[pf s0]| |]; cbn [rbind]; try discriminate.
    unfold only_valid at 1. destruct (sh1 s0 pf) as [[l1 s1]| |] eqn:E1; cbn [rbind]; try discriminate.
    destruct (valid_radiance l1) eqn:V1; cbn [rbind]; try discriminate.
    unfold only_valid at 2. destruct (sh2 s0 pf) as [[l2 s2]| |] eqn:E2; cbn [rbind]; try (intros; discriminate).
    destruct (valid_radiance l2) eqn:V2; cbn [rbind]; try (intros; discriminate).
    destruct (valid_fin l1 V1) as (a1 & -> & X1 & Y1 & Z1). destruct (valid_fin l2 V2) as (a2 & -> & X2 & Y2 & Z2).
    destruct (Sh _ _ _ _ _ _ E1 E2) as [<- E]. rewrite V1, V2, E. cbn [rbind]. rewrite fin_valid by (unfold mix, vprod, vadd; unfold each in Pa, Pb; vproj; nra).
    destruct (tile_add_sample m t1 pf (fin3 a1)) as [u1| |] eqn:A1; cbn [rbind]; try discriminate.
    destruct (tile_add_sample m t2 pf (fin3 a2)) as [u2| |] eqn:A2; cbn [rbind]; try (intros; discriminate).
    destruct (add_sample_sum m a1 a2 pf t1 t2 t u1 u2 St A1 A2) as (u & -> & Su). cbn [rbind].
    destruct (sm_next_sample sm s1) as [[more s3]| |]; cbn [rbind]; try discriminate. destruct more.
    - apply IH; auto.
    - intros H1 H2. apply ok_eq in H1, H2. subst. do 7 eexists. repeat (split; [reflexivity|]). exact Su.
  Qed.

  Definition st_sum (x1 x2 x : ST * film_tile XR * list (shot (F := XR))) : Prop :=
    fst (fst x1) = fst (fst x) /\ fst (fst x2) = fst (fst x) /\ tile_sum (snd (fst x1)) (snd (fst x2)) (snd (fst x)).

  Lemma local_sum fuel f1 f2 f s b r1 r2 : fm_sum f1 f2 f ->
    render_local m sm (only_valid sh1) fuel f1 s b = Ok r1 -> render_local m sm (only_valid sh2) fuel f2 s b = Ok r2 ->
    exists r, render_local m sm sh fuel f s b = Ok r /\ st_sum r1 r2 r.
  Proof.
    intros [(E1 & E2 & Q1 & Q2 & U1 & U2 & Pf) FF]. unfold render_local, get_film_tile, film_tile_bbox, film_tile_new. rewrite E1, E2, Q1, Q2, U1, U2.
    set (bx := bbox2_new _ _). destruct (bbox2_area m bx) as [ar| |]; cbn [rbind]; try discriminate.
    unfold alloc_pixels. destruct (ar <? 0)%Z; cbn [rbind]; try discriminate.
    destruct (bbox2_items m b) as [ps| |]; cbn [rbind]; try discriminate. unfold pixels_loop. apply (rfold3 st_sum).
    - intros p [[s1 t1] g1] [[s2 t2] g2] [[s3 t3] g3] b1 b2 (S1 & S2 & St). cbn [fst snd] in S1, S2, St. subst s1 s2.
      destruct (sm_start_pixel sm s3 p) as [s4| |]; cbn [rbind]; try discriminate. intros H1 H2.
      destruct (pixel_loop_sum fuel p s4 t1 t2 t3 g1 g2 g3 b1 b2 St H1 H2) as (u1 & u2 & u & k1 & k2 & k & s' & -> & -> & E & Su).
      exists (s', u, k). split; [exact E|]. unfold st_sum. cbn [fst snd]. auto.
    - unfold st_sum. cbn [fst snd]. split; [reflexivity|]. split; [reflexivity|]. unfold tile_sum. cbn [tl_bbox tl_radius tl_table tl_pixels].
      do 6 (split; [reflexivity|]). split; [exact FF|]. apply all3_repeat, pixel_sum_default.
  Qed.

  Lemma seq_sum fuel f1 f2 f s s1 s2 r1 r2 : fm_sum f1 f2 f ->
    render_seq m sm (only_valid sh1) fuel f1 s = Ok (s1, r1) -> render_seq m sm (only_valid sh2) fuel f2 s = Ok (s2, r2) ->
    s1 = s2 /\ exists r, render_seq m sm sh fuel f s = Ok (s1, r) /\ fm_sum r1 r2 r.
  Proof.
    intros Sf. unfold render_seq. assert (Bx : film_sample_bbox f1 = film_sample_bbox f /\ film_sample_bbox f2 = film_sample_bbox f).
    { destruct Sf as [(E1 & E2 & Q1 & Q2 & _) _]. unfold film_sample_bbox. now rewrite E1, E2, Q1, Q2. }
    destruct Bx as [-> ->]. destruct (tile_items m (film_sample_bbox f)) as [tiles| |]; cbn [rbind]; try discriminate. intros H1 H2.
    pose (R := fun x1 x2 x : ST * film XR => fst x1 = fst x /\ fst x2 = fst x /\ fm_sum (snd x1) (snd x2) (snd x)).
    destruct (rfold3 R (fun '(s, fm) b => render_tile m sm (only_valid sh1) fuel fm s b) (fun '(s, fm) b => render_tile m sm (only_valid sh2) fuel fm s b)
      (fun '(s, fm) b => render_tile m sm sh fuel fm s b)) with (2 := conj (eq_refl s) (conj (eq_refl s) Sf) : R (s, f1) (s, f2) (s, f)) (3 := H1) (4 := H2) as ([s' r] & E & S1 & S2 & Sr).
    - intros b [t1 g1] [t2 g2] [t3 g3] b1 b2 (S1 & S2 & Sg). cbn [fst snd] in S1, S2, Sg. subst t1 t2. unfold render_tile.
      destruct (render_local m sm (only_valid sh1) fuel g1 t3 b) as [x1| |] eqn:L1; cbn [rbind]; try discriminate.
      destruct (render_local m sm (only_valid sh2) fuel g2 t3 b) as [x2| |] eqn:L2; cbn [rbind]; try (intros; discriminate).
      destruct (local_sum fuel g1 g2 g3 t3 b x1 x2 Sg L1 L2) as (x & -> & X1 & X2 & Xt). cbn [rbind].
      destruct x1 as [[y1 u1] k1], x2 as [[y2 u2] k2], x as [[y u] k]. cbn [fst snd] in X1, X2, Xt. subst y1 y2.
      destruct (merge_film_tile m g1 u1) as [h1| |] eqn:M1; cbn [rbind]; try discriminate.
      destruct (merge_film_tile m g2 u2) as [h2| |] eqn:M2; cbn [rbind]; try (intros; discriminate).
      destruct (merge_sum m u1 u2 u g1 g2 g3 h1 h2 Xt Sg M1 M2) as (h & -> & Sh'). cbn [rbind]. intros H3 H4. apply ok_eq in H3, H4. subst.
      eexists. split; [reflexivity|]. unfold R. cbn [fst snd]. auto.
    - cbn [fst snd] in *. subst. split; [congruence|]. exists r. split; [congruence|exact Sr].
  Qed.
End Picture.
End Film.

(** Exact arithmetic.  Films with a finite filter table; two scenes that are rendered without a sample being thrown away.
    The scene where both shine, [ka] and [kb] times as bright, renders, and its film is the sum: at every pixel the colours add
    up and the weights are the same, so that what is shown before gamma correction adds up. *)
Theorem C116_picture : forall (T ST : Type) (m : build) (sm : sampler_ops XR ST) (teq : T -> T -> bool)
    (surf1 surf2 surf : T -> surface XR T) (sc1 sc2 sc : scene XR T (container XR T)) ka kb gen bounces fuel fm1 fm2 fm s s1 s2 r1 r2,
  each (fun k => 0 <= k) ka -> each (fun k => 0 <= k) kb -> sum_scene ka kb surf1 surf2 surf sc1 sc2 sc ->
  film_sum ka kb fm1 fm2 fm -> (forall row w, In row (fm_table fm) -> In w row -> exists x, w = XFin x) ->
  render_seq m sm (only_valid (shade sm teq surf1 sc1 gen bounces)) fuel fm1 s = Ok (s1, r1) ->
  render_seq m sm (only_valid (shade sm teq surf2 sc2 gen bounces)) fuel fm2 s = Ok (s2, r2) ->
  s1 = s2 /\ exists r, render_seq m sm (shade sm teq surf sc gen bounces) fuel fm s = Ok (s1, r) /\ film_sum ka kb r1 r2 r.
Proof.
  intros T ST m sm teq surf1 surf2 surf sc1 sc2 sc ka kb gen bounces fuel fm1 fm2 fm s s1 s2 r1 r2 Pa Pb D Sf FT H1 H2.
  destruct (seq_sum ka kb Pa Pb m sm (shade sm teq surf1 sc1 gen bounces) (shade sm teq surf2 sc2 gen bounces) (shade sm teq surf sc gen bounces)) with (2 := conj Sf FT : fm_sum ka kb fm1 fm2 fm) (3 := H1) (4 := H2)
    as [E (r & Er & Sr & _)].
  - intros s0 p a1 a2 t1 t2. unfold shade. destruct (gen p) as [q| |]; cbn [rbind]; try discriminate. now apply C116_superposition.
  - split; [exact E|]. exists r. auto.
Qed.
Print Assumptions C116_picture.

(** what a pixel shows *)
Theorem C116_shown : forall ka kb p1 p2 p w, pixel_sum ka kb p1 p2 p -> p_wsum p = XFin w -> w <> 0 -> exists a b,
  v3divs (p_color p1) (p_wsum p1) = fin3 a /\ v3divs (p_color p2) (p_wsum p2) = fin3 b /\ v3divs (p_color p) (p_wsum p) = fin3 (vadd (vprod ka a) (vprod kb b)).
Proof.
  intros ka kb p1 p2 p w (a & b & C1 & C2 & C & W1 & W2) W Hw. rewrite C1, C2, C, W1, W2, W.
  exists (vscale (/ w) a), (vscale (/ w) b).
  unfold v3divs, fin3, mix, vprod, vscale, vadd. xsimp. vproj. cbn [xdiv]. rewrite !Req_bool_false by assumption. repeat split; (apply V3_eq; vproj; f_equal; field; assumption).
Qed.
Print Assumptions C116_shown.

(** A new film is the sum of itself and itself, with a finite table. *)
Lemma new_film_sum ka kb m r radius alpha fm : film_new m r (gaussian_filter (XFin radius) (XFin alpha)) = Ok fm ->
  film_sum ka kb fm fm fm /\ forall row w, In row (fm_table fm) -> In w row -> exists x, w = XFin x.
Proof.
  unfold film_new. destruct (i32_of _ _) as [ar| |]; cbn [rbind]; try discriminate. unfold alloc_pixels.
  destruct (ar <? 0)%Z; cbn [rbind]; try discriminate. intros H. apply ok_eq in H. subst fm. split.
  - unfold film_sum. cbn [fm_res fm_radius fm_table fm_pixels]. do 6 (split; [reflexivity|]). apply all3_repeat, pixel_sum_default.
  - intros row w. cbn [fm_table]. unfold filter_table. rewrite in_map_iff. intros (y & <- & _). rewrite in_map_iff. intros (x & <- & _).
    assert (Z16 : IZR FILTER_TABLE_WIDTH <> 0) by (apply IZR_neq; discriminate).
    assert (Hh : (fhalf : XR) = XFin (1 / 2)) by (unfold fhalf, f1, f2; xsimp; cbn; rewrite Req_bool_false by lra; reflexivity).
    assert (P : forall z, ((fofZ z + fhalf) * XFin radius / fofZ FILTER_TABLE_WIDTH)%f = XFin ((IZR z + 1 / 2) * radius / IZR FILTER_TABLE_WIDTH)).
    { intros z. rewrite Hh. xsimp. cbn [xadd xmul xdiv]. now rewrite Req_bool_false. }
    unfold gaussian_filter. cbn [flt_eval flt_radius px py]. rewrite !P.
    assert (G : forall e d, exists g, gaussian (XFin alpha) (XFin e) (XFin d) = XFin g).
    { intros e d. unfold gaussian, fmax, f0. xsimp. cbn [xneg xmul xexp xsub xis_nan xlt]. destruct (Rlt_bool _ _); eauto. }
    assert (E : fexp (- XFin alpha * fsq (XFin radius))%f = XFin (exp (- alpha * (radius * radius)))) by (unfold fsq; xsimp; reflexivity).
    rewrite E. destruct (G (exp (- alpha * (radius * radius))) ((IZR x + 1 / 2) * radius / IZR FILTER_TABLE_WIDTH)) as (g1 & ->).
    destruct (G (exp (- alpha * (radius * radius))) ((IZR y + 1 / 2) * radius / IZR FILTER_TABLE_WIDTH)) as (g2 & ->). xsimp. cbn [xmul]. eauto.
Qed.

(** The ball of [C96_example] under a yellow and a blue sun, and under both, the first twice as bright and the second without its green. *)
Lemma ex_sun (al : unit -> area_light XR unit) (a : rv) : exists sc,
  construct (body_shape (fun _ => Ball v0 1)) al (in_simple (fun _ => Ball v0 1)) (sunny [(a, mkV3 1 1 0)] [tt]) = Ok sc /\
  li ex_half (fun _ _ => true) (matt_surf (fun _ => mkV3 1 (1/2) 0)) sc 2 tt (mkRay (fin3 (mkV3 3 0 0)) (fin3 (mkV3 (-1) 0 0)) finf) =
    Ok (fin3 (mkV3 (vx a / sqrt 2 / PI) (vy a / sqrt 2 / PI / 2) 0), tt).
Proof.
  assert (S2 : 0 < sqrt 2) by (apply sqrt_lt_R0; lra). pose proof PI_RGT_0.
  assert (On : on_sphere v0 1 (at_t (mkV3 3 0 0) (mkV3 (-1) 0 0) 2)) by (apply on_sphere_sq; unfold vdot, vsub, at_t, vadd, vscale, v0; vproj; ring).
  destruct (C96_ball unit ex_half (fun _ _ => true) al v0 1 (mkV3 1 (1/2) 0) [(a, mkV3 1 1 0)] (mkV3 3 0 0) (mkV3 (-1) 0 0) 2) as (sc & Cs & H0); try lra; auto.
  - unfold each. vproj. lra.
  - intros q [<-|[]] E. apply (f_equal (fun q : rv => vx q)) in E. revert E. unfold v0. cbn [snd]. vproj. lra.
  - reflexivity.
  - unfold vdist, vnorm, vdot, vsub, v0. vproj. replace ((3 - 0) * (3 - 0) + (0 - 0) * (0 - 0) + (0 - 0) * (0 - 0)) with (3 * 3) by ring. rewrite sqrt_square; lra.
  - intros E. apply (f_equal (fun q : rv => vx q)) in E. revert E. unfold v0. vproj. lra.
  - intros y Hy E. apply on_sphere_sq in E. revert E. unfold vdot, vsub, at_t, vadd, vscale, v0. vproj. nra.
  - left. unfold at_t, vadd, vscale, v0. vproj. lra.
  - unfold vdot, vsub, at_t, vadd, vscale, v0. vproj. lra.
  - exists sc. split; [exact Cs|].
    rewrite (H0 tt (1/2) tt (mkP2 (XFin (1/2)) (XFin (1/2))) tt (mkP2 (XFin (1/2)) (XFin (1/2))) tt (1/2) (1/2) tt 0%nat (a, mkV3 1 1 0) 0%nat); auto; try lra.
    2: { cbn [length INR]. lra. }
    cbn [length INR fst snd].
    assert (Co : vdot (vscale (/ 1) (vsub (at_t (mkV3 3 0 0) (mkV3 (-1) 0 0) 2) v0)) (vunit (mkV3 1 1 0)) = / sqrt 2).
    { unfold vunit, vnorm, vdot, vsub, at_t, vadd, vscale, v0. vproj. replace (1 * 1 + 1 * 1 + 0 * 0) with 2 by ring. field. lra. }
    rewrite Co. unfold lambert. rewrite Rmax_right by (left; now apply Rinv_0_lt_compat).
    apply (f_equal (fun v => Ok (fin3 v, tt))). unfold vscale, vprod. apply V3_eq; vproj; field; lra.
Qed.
Example C116_example : exists sc1 sc2 sc,
  let surf := matt_surf (fun _ : unit => mkV3 1 (1/2) 0) in
  let light sc := li ex_half (fun _ _ => true) surf sc 2 tt (mkRay (fin3 (mkV3 3 0 0)) (fin3 (mkV3 (-1) 0 0)) finf) in
  sum_scene (grey 2) (mkV3 3 0 1) surf surf surf sc1 sc2 sc /\
  light sc1 = Ok (fin3 (mkV3 (1 / sqrt 2 / PI) (1 / sqrt 2 / PI / 2) 0), tt) /\
  light sc2 = Ok (fin3 (mkV3 (0 / sqrt 2 / PI) (1 / sqrt 2 / PI / 2) 0), tt) /\
  light sc = Ok (fin3 (vadd (vprod (grey 2) (mkV3 (1 / sqrt 2 / PI) (1 / sqrt 2 / PI / 2) 0)) (vprod (mkV3 3 0 1) (mkV3 (0 / sqrt 2 / PI) (1 / sqrt 2 / PI / 2) 0))), tt).
Proof.
  set (sh := body_shape (fun _ : unit => Ball v0 1)). set (rho := fun _ : unit => mkV3 1 (1/2) 0).
  destruct (ex_sun (lit_by sh (fun _ => mix (grey 2) (mkV3 3 0 1) v0 v0)) (mix (grey 2) (mkV3 3 0 1) (mkV3 1 1 0) (mkV3 0 1 1))) as (sc & Cs & _).
  destruct (C116_built unit sh (in_simple (fun _ => Ball v0 1)) [(mkV3 1 1 0, mkV3 0 1 1, mkV3 1 1 0)] [tt] [] (fun _ => v0) (fun _ => v0)
    (fun t => mat_lambertian (constant_texture (fin3 (rho t)))) (fun _ => false) (grey 2) (mkV3 3 0 1) sc Cs) as (sc1 & sc2 & C1 & C2 & D).
  destruct (ex_sun (lit_by sh (fun _ => v0)) (mkV3 1 1 0)) as (sc1' & C1' & L1).
  destruct (ex_sun (lit_by sh (fun _ => v0)) (mkV3 0 1 1)) as (sc2' & C2' & L2).
  assert (sc1' = sc1) by (apply ok_eq; rewrite <- C1, <- C1'; reflexivity). assert (sc2' = sc2) by (apply ok_eq; rewrite <- C2, <- C2'; reflexivity). subst.
  exists sc1, sc2, sc. cbv zeta. split; [exact D|]. split; [exact L1|]. split; [exact L2|].
  exact (proj2 (C116_superposition unit unit ex_half (fun _ _ => true) _ _ _ sc1 sc2 sc (grey 2) (mkV3 3 0 1) 2 tt _ _ _ tt tt D L1 L2)).
Qed.
