(** * Lemmas about the path tracer's use of sample dimensions *)
From Coq Require Import ZArith List Bool Lia ZifyBool.
From Verif Require Import Model.Num Model.Vector Model.Common Model.Interaction Model.Shape Model.Container Model.Sampler
  Model.Sampling Model.Reflection Model.Light Model.Scene Model.Path Spec.SamplerSpec Spec.PathSpec.
Import ListNotations.
Local Open Scope Z_scope.

(** dimensions that may still be used when [b] bounces have been made *)
Definition need (b : Z) : Z := 7 * (65 - b) + (65 - Z.max b 3).

Section P.
  Context {F T ST : Type} {FO : FOps F}.
  Variables (sm : sampler_ops F ST) (teq : T -> T -> bool) (surf : T -> surface F T).
  Variable (sc : scene F T (container F T)).

  Lemma unr_bind {A B} (r : res (A * (ST * Z))) (q : res (A * ST)) (k : A * (ST * Z) -> res (B * (ST * Z))) (k' : A * ST -> res (B * ST)) :
    unration r = q -> (forall a s n, r = Ok (a, (s, n)) -> unration (k (a, (s, n))) = k' (a, s)) ->
    unration (rbind r k) = rbind q k'.
  Proof. intros <- H. destruct r as [[a [s n]]| |]; cbn; auto. Qed.

  Lemma unr_plain {A B} (r : res A) (k : A -> res (B * (ST * Z))) (k' : A -> res (B * ST)) :
    (forall a, r = Ok a -> unration (k a) = k' a) -> unration (rbind r k) = rbind r k'.
  Proof. intros H. destruct r; cbn; auto. Qed.

  Lemma ration_1d s n : 1 <= n -> unration (sm_get_1d (ration sm) (s, n)) = sm_get_1d sm s /\
    (forall x s' k, sm_get_1d (ration sm) (s, n) = Ok (x, (s', k)) -> k = n - 1).
  Proof.
    intros H. cbn. replace (n <? 1) with false by lia. destruct (sm_get_1d sm s) as [[x s']| |]; cbn; split; auto; congruence.
  Qed.
  Lemma ration_2d s n : 2 <= n -> unration (sm_get_2d (ration sm) (s, n)) = sm_get_2d sm s /\
    (forall x s' k, sm_get_2d (ration sm) (s, n) = Ok (x, (s', k)) -> k = n - 2).
  Proof.
    intros H. cbn. replace (n <? 2) with false by lia. destruct (sm_get_2d sm s) as [[x s']| |]; cbn; split; auto; congruence.
  Qed.

  (** [g] on the rationed sampler does what [g'] does and uses at most [c] dimensions *)
  Definition tracks {A} (c : Z) (g : ST * Z -> res (A * (ST * Z))) (g' : ST -> res (A * ST)) : Prop :=
    forall s n, c <= n -> unration (g (s, n)) = g' s /\ (forall a s' k, g (s, n) = Ok (a, (s', k)) -> n - c <= k).

  Lemma tracks_1d : tracks 1 (sm_get_1d (ration sm)) (sm_get_1d sm).
  Proof. intros s n H. destruct (ration_1d s n H) as [H1 H2]. split; auto. intros a s' k E. apply H2 in E. lia. Qed.
  Lemma tracks_2d : tracks 2 (sm_get_2d (ration sm)) (sm_get_2d sm).
  Proof. intros s n H. destruct (ration_2d s n H) as [H1 H2]. split; auto. intros a s' k E. apply H2 in E. lia. Qed.

  Lemma tracks_bind {A B} c c1 g g' (k : A -> ST * Z -> res (B * (ST * Z))) (k' : A -> ST -> res (B * ST)) :
    0 <= c -> 0 <= c1 -> tracks c g g' -> (forall a, tracks c1 (k a) (k' a)) ->
    tracks (c + c1) (fun s => let! (a, s) := g s in k a s) (fun s => let! (a, s) := g' s in k' a s).
  Proof.
    intros Hc Hc1 G K s n Hn. destruct (G s n ltac:(lia)) as [G1 G2]. rewrite <- G1.
    destruct (g (s, n)) as [[a [s' j]]| |]; cbn; try (split; [reflexivity|congruence]).
    specialize (G2 a s' j eq_refl). destruct (K a s' j ltac:(lia)) as [K1 K2]. split; auto.
    intros b s2 j2 E. apply K2 in E. lia.
  Qed.
  Lemma tracks_plain {A B} c (r : res A) (k : A -> ST * Z -> res (B * (ST * Z))) (k' : A -> ST -> res (B * ST)) :
    (forall a, tracks c (k a) (k' a)) -> tracks c (fun s => let! a := r in k a s) (fun s => let! a := r in k' a s).
  Proof. intros K s n Hn. destruct r as [a| |]; cbn; try (split; [reflexivity|congruence]). now apply K. Qed.
  Lemma tracks_ok {A} c (a : A) : 0 <= c -> tracks c (fun s => Ok (a, s)) (fun s => Ok (a, s)).
  Proof. intros Hc s n Hn. cbn. split; auto. intros b s' k E. injection E as <- <- <-. lia. Qed.
  Lemma tracks_le {A} c c1 (g : ST * Z -> res (A * (ST * Z))) g' : c <= c1 -> tracks c g g' -> tracks c1 g g'.
  Proof. intros H G s n Hn. destruct (G s n ltac:(lia)) as [G1 G2]. split; auto. intros a s' k E. apply G2 in E. lia. Qed.

  Lemma tracks_direct l i b : tracks 4 (fun s => estimate_direct (ration sm) teq surf sc s l i b) (fun s => estimate_direct sm teq surf sc s l i b).
  Proof.
    unfold estimate_direct.
    apply (tracks_bind 2 2 _ _ (fun x s => let! (y, s) := sm_get_2d (ration sm) s in _) (fun x s => let! (y, s) := sm_get_2d sm s in _));
      [lia|lia|apply tracks_2d|]. intros x.
    apply (tracks_bind 2 0 _ _ (fun y s => let! ld := direct_light sc l i b x v3zero in let! ld := direct_bsdf teq surf sc l i b y ld in Ok (ld, s)) (fun y s => _));
      [lia|lia|apply tracks_2d|]. intros y.
    apply (tracks_plain 0 _ (fun ld s => let! ld := direct_bsdf teq surf sc l i b y ld in Ok (ld, s)) (fun ld s => let! ld := direct_bsdf teq surf sc l i b y ld in Ok (ld, s))). intros ld.
    apply (tracks_plain 0 _ (fun ld s => Ok (ld, s)) (fun ld s => Ok (ld, s))). intros ld'. now apply tracks_ok.
  Qed.

  Lemma tracks_one_light i b : tracks 5 (fun s => uniform_sample_one_light (ration sm) teq surf sc s i b) (fun s => uniform_sample_one_light sm teq surf sc s i b).
  Proof.
    unfold uniform_sample_one_light. destruct (Z.of_nat (length (sc_lights sc)) =? 0); [apply tracks_ok; lia|].
    apply (tracks_bind 1 4 _ _ (fun u s => let! l := _ in let! (ld, s) := estimate_direct (ration sm) teq surf sc s l i b in _) (fun u s => _));
      [lia|lia|apply tracks_1d|]. intros u.
    apply (tracks_plain 4 _ (fun l s => let! (ld, s) := estimate_direct (ration sm) teq surf sc s l i b in _) (fun l s => let! (ld, s) := estimate_direct sm teq surf sc s l i b in _)). intros l.
    refine (tracks_bind 4 0 (fun s => estimate_direct (ration sm) teq surf sc s l i b) (fun s => estimate_direct sm teq surf sc s l i b) _ _ _ _ (tracks_direct l i b) _); [lia|lia|].
    intros ld. apply tracks_ok. lia.
  Qed.

  Lemma tracks_loop fuel : forall r l beta sp b, 0 <= b <= 65 ->
    tracks (need b) (fun s => li_loop (ration sm) teq surf sc fuel s r l beta sp b) (fun s => li_loop sm teq surf sc fuel s r l beta sp b).
  Proof.
    induction fuel as [|fuel IH]; intros r l beta sp b Hb; [intros s n Hn; cbn; split; [reflexivity|congruence]|].
    cbn [li_loop]. assert (N0 : 0 <= need b) by (unfold need; lia).
    apply tracks_plain. intros o. apply tracks_plain. intros l1. destruct o as [i|]; [|now apply tracks_ok].
    destruct (MAX_BOUNCES <? b) eqn:Eb; [now apply tracks_ok|]. unfold MAX_BOUNCES in Eb.
    apply tracks_plain. intros bs.
    apply (tracks_le (5 + (2 + (need b - 7)))); [lia|].
    refine (tracks_bind 5 (2 + (need b - 7)) (fun s => uniform_sample_one_light (ration sm) teq surf sc s i bs) (fun s => uniform_sample_one_light sm teq surf sc s i bs) _ _ _ _ (tracks_one_light i bs) _); [lia|unfold need; lia|]. intros ld.
    refine (tracks_bind 2 (need b - 7) (sm_get_2d (ration sm)) (sm_get_2d sm) _ _ _ _ tracks_2d _); [lia|unfold need; lia|]. intros u.
    apply tracks_plain. intros [[[wi f] pdf] flag].
    destruct (_ || _); [apply tracks_ok; unfold need; lia|].
    destruct (3 <? b + 1) eqn:E3.
    - apply (tracks_le (1 + need (b + 1))); [unfold need; lia|].
      refine (tracks_bind 1 (need (b + 1)) (sm_get_1d (ration sm)) (sm_get_1d sm) _ _ _ _ tracks_1d _); [lia|unfold need; lia|]. intros v.
      destruct (flt _ _); [apply tracks_ok; unfold need; lia|]. apply IH. lia.
    - apply (tracks_le (need (b + 1))); [unfold need; lia|]. apply IH. lia.
  Qed.

  (** ** fuel *)
  Hypothesis ST1 : forall s, sm_get_1d sm s <> Timeout.
  Hypothesis ST2 : forall s, sm_get_2d sm s <> Timeout.
  Hypothesis AS : always_stops surf sc.

  Lemma bind_stops {A B} (r : res A) (k : A -> res B) : r <> Timeout -> (forall a, r = Ok a -> k a <> Timeout) -> rbind r k <> Timeout.
  Proof. destruct r; cbn; auto; congruence. Qed.
  Lemma idx_stops {A} (l : list A) i : idx l i <> Timeout.
  Proof. unfold idx. destruct (i <? 0); [discriminate|]. destruct (nth_error _ _); discriminate. Qed.
  Lemma sample_f_stops (b : bsdf F) wo u : bsdf_sample_f b wo u <> Timeout.
  Proof.
    unfold bsdf_sample_f. destruct (_ =? 0); [discriminate|]. apply bind_stops; [apply idx_stops|]. intros x _.
    destruct (feq _ f0); [discriminate|]. destruct (bx_sample_f _ _ _) as [[wi f] p]. destruct (feq p f0); [discriminate|].
    destruct (_ && _); discriminate.
  Qed.
  Lemma le_stops (i : interaction F T) w : le surf i w <> Timeout.
  Proof. unfold le. destruct (i_shape i); discriminate. Qed.

  Lemma direct_stops s l i b : In l (sc_lights sc) -> estimate_direct sm teq surf sc s l i b <> Timeout.
  Proof.
    intros Hl. unfold estimate_direct. apply bind_stops; [apply ST2|]. intros [u0 s1] _. apply bind_stops; [apply ST2|]. intros [u1 s2] _.
    apply bind_stops.
    - unfold direct_light. apply bind_stops; [apply (as_lights _ _ AS); auto|]. intros [[[wi li] p] v] _.
      destruct (_ && _); [|discriminate]. destruct (negb _); [|discriminate].
      apply bind_stops; [unfold unoccluded; apply bind_stops; [apply (as_isect_p _ _ AS)|discriminate]|].
      intros [] _; [|discriminate]. destruct (l_is_delta l); discriminate.
    - intros ld _. apply bind_stops; [|discriminate]. unfold direct_bsdf. destruct (l_is_delta l); [discriminate|].
      apply bind_stops; [apply sample_f_stops|]. intros [[[wi f] p] fl] _. destruct (_ && _); [|discriminate]. destruct (_ && _); [discriminate|].
      apply bind_stops; [apply (as_isect _ _ AS)|]. intros [j|] _; [|discriminate]. destruct (i_shape j); [|discriminate].
      apply bind_stops; [|discriminate]. destruct (same_addr _ _ _); [apply le_stops|discriminate].
  Qed.

  Lemma one_light_stops s i b : uniform_sample_one_light sm teq surf sc s i b <> Timeout.
  Proof.
    unfold uniform_sample_one_light. destruct (_ =? 0); [discriminate|]. apply bind_stops; [apply ST1|]. intros [u s1] _.
    apply bind_stops; [apply idx_stops|]. intros l El. apply bind_stops; [|intros []; discriminate]. apply direct_stops.
    unfold idx in El. destruct (_ <? 0); [discriminate|]. destruct (nth_error _ _) as [l'|] eqn:E; [|discriminate]. apply nth_error_In in E. congruence.
  Qed.

  Lemma loop_stops fuel : forall s r l beta sp b, 0 <= b <= 65 -> 66 - b <= Z.of_nat fuel ->
    li_loop sm teq surf sc fuel s r l beta sp b <> Timeout.
  Proof.
    induction fuel as [|fuel IH]; intros s r l beta sp b Hb Hf; [lia|]. cbn [li_loop].
    apply bind_stops; [apply (as_isect _ _ AS)|]. intros o _.
    apply bind_stops.
    { destruct (_ || _); [|discriminate]. destruct o; [|discriminate]. apply bind_stops; [apply le_stops|discriminate]. }
    intros l1 _. destruct o as [i|]; [|discriminate]. destruct (MAX_BOUNCES <? b) eqn:Eb; [discriminate|]. unfold MAX_BOUNCES in Eb.
    apply bind_stops; [unfold compute_scattering; destruct (i_shape i); [apply (as_scatter _ _ AS)|discriminate]|]. intros bs _.
    apply bind_stops; [apply one_light_stops|]. intros [ld s1] _. apply bind_stops; [apply ST2|]. intros [u s2] _.
    apply bind_stops; [apply sample_f_stops|]. intros [[[wi f] pdf] flag] _. destruct (_ || _); [discriminate|].
    destruct (3 <? b + 1); [|apply IH; lia]. apply bind_stops; [apply ST1|]. intros [v s3] _. destruct (flt _ _); [discriminate|]. apply IH; lia.
  Qed.
End P.

(** ** a robust scene and a stocked sampler *)
Section R.
  Context {F T ST : Type} {FO : FOps F}.
  Variables (sm : sampler_ops F ST) (teq : T -> T -> bool) (surf : T -> surface F T).
  Variable (sc : scene F T (container F T)).
  Variable P : Z -> ST -> Prop.
  Hypothesis SP : stocked sm P.
  Hypothesis Pmono : forall n k s, k <= n -> P n s -> P k s.
  Variable G : Z -> ray F -> Prop.
  Hypothesis RB : robust_on surf sc G.
  Hypothesis Small : forall x : F, 0 <= fto_usize x.

  (** returns, having used at most [c] of [n] dimensions *)
  Definition returns {A} (c : Z) (g : ST -> res (A * ST)) : Prop :=
    forall s n, c <= n -> P n s -> exists a s', g s = Ok (a, s') /\ P (n - c) s' /\ draws sm s s'.

  Lemma draws_trans s s1 s2 : draws sm s s1 -> draws sm s1 s2 -> draws sm s s2.
  Proof. intros D D'. induction D'; auto; [eapply draws_1d|eapply draws_2d]; eauto. Qed.

  Lemma returns_ok {A} c (a : A) : 0 <= c -> returns c (fun s => Ok (a, s)).
  Proof. intros Hc s n Hn Hp. exists a, s. repeat split; [apply (Pmono n); auto; lia|constructor]. Qed.
  Lemma returns_le {A} c c1 (g : ST -> res (A * ST)) : c <= c1 -> returns c g -> returns c1 g.
  Proof. intros H Gg s n Hn Hp. destruct (Gg s n ltac:(lia) Hp) as (a & s' & E & H1 & H2). exists a, s'. repeat split; auto. apply (Pmono (n - c)); auto. lia. Qed.
  Lemma returns_bind {A B} c c1 (g : ST -> res (A * ST)) (k : A -> ST -> res (B * ST)) :
    0 <= c -> 0 <= c1 -> returns c g -> (forall a, returns c1 (k a)) -> returns (c + c1) (fun s => let! (a, s) := g s in k a s).
  Proof.
    intros Hc Hc1 Gg K s n Hn Hp. destruct (Gg s n ltac:(lia) Hp) as (a & s1 & E & H1 & H2). rewrite E. cbn [rbind].
    destruct (K a s1 (n - c) ltac:(lia) H1) as (b & s2 & E2 & H3 & H4). exists b, s2. split; [auto|]. split; [apply (Pmono (n - c - c1)); auto; lia|]. eapply draws_trans; eauto.
  Qed.
  Lemma returns_plain {A B} c (r : res A) (k : A -> ST -> res (B * ST)) : (exists a, r = Ok a /\ returns c (k a)) -> returns c (fun s => let! a := r in k a s).
  Proof. intros (a & -> & K). exact K. Qed.

  Lemma ret_1d {B} c (k : F -> ST -> res (B * ST)) : 0 <= c -> (forall x, in_unit x -> returns c (k x)) -> returns (1 + c) (fun s => let! (x, s) := sm_get_1d sm s in k x s).
  Proof.
    intros Hc K s n Hn Hp. destruct (SP n s Hp) as [H _]. destruct (H ltac:(lia)) as (x & s1 & E & U & H1). rewrite E. cbn [rbind].
    destruct (K x U s1 (n - 1) ltac:(lia) H1) as (b & s2 & E2 & H3 & H4). exists b, s2. split; [auto|]. split; [apply (Pmono (n - 1 - c)); auto; lia|].
    eapply draws_trans; [|exact H4]. eapply draws_1d; [constructor|exact E].
  Qed.
  Lemma ret_2d {B} c (k : P2 F -> ST -> res (B * ST)) : 0 <= c -> (forall x, in_unit (px x) -> in_unit (py x) -> returns c (k x)) -> returns (2 + c) (fun s => let! (x, s) := sm_get_2d sm s in k x s).
  Proof.
    intros Hc K s n Hn Hp. destruct (SP n s Hp) as [_ H]. destruct (H ltac:(lia)) as (x & s1 & E & U & U' & H1). rewrite E. cbn [rbind].
    destruct (K x U U' s1 (n - 2) ltac:(lia) H1) as (b & s2 & E2 & H3 & H4). exists b, s2. split; [auto|]. split; [apply (Pmono (n - 2 - c)); auto; lia|].
    eapply draws_trans; [|exact H4]. eapply draws_2d; [constructor|exact E].
  Qed.

  (** an interaction on a surface of the scene and its BSDF *)
  Definition good_bsdf (k : Z) (i : interaction F T) (b : bsdf F) : Prop :=
    (forall u, in_unit (px u) -> in_unit (py u) -> exists wi f pdf fl, bsdf_sample_f b (i_wo i) u = Ok (wi, f, pdf, fl) /\
      (feq pdf f0 = false \/ flt f0 pdf = true -> G (k + 1) (spawn_ray i wi))) /\
    (forall l u, In l (sc_lights sc) -> in_unit (px u) -> in_unit (py u) -> exists wi li pdf v, l_sample_li l i u = Ok (wi, li, pdf, v) /\
      exists h, c_intersect_p (sc_shapes sc) (spawn_ray_to (v_p0 v) (v_p1 v)) = Ok h).

  Lemma hit_le k r i w : 0 <= k <= 65 -> G k r -> c_intersect (sc_shapes sc) r = Ok (Some i) -> exists e, le surf i w = Ok e.
  Proof.
    intros Hk Gr E. destruct (ro_isect _ _ _ RB k r Hk Gr) as (o & E' & H). rewrite E in E'. assert (o = Some i) by congruence. destruct (H i H0) as (t & Et & _).
    unfold le. rewrite Et. eauto.
  Qed.

  Lemma ret_direct k l i b : 0 <= k <= 64 -> In l (sc_lights sc) -> good_bsdf k i b -> returns 4 (fun s => estimate_direct sm teq surf sc s l i b).
  Proof.
    intros Hk Hl [Gb Gl]. unfold estimate_direct. apply (ret_2d 2); [lia|]. intros u0 U0 U0'. apply (ret_2d 0); [lia|]. intros u1 U1 U1'.
    apply returns_plain.
    assert (D : exists ld, direct_light sc l i b u0 v3zero = Ok ld).
    { unfold direct_light. destruct (Gl l u0 Hl U0 U0') as (wi & li & p & v & -> & h & Eh). cbn [rbind].
      destruct (_ && _); [|eauto]. destruct (negb _); [|eauto]. unfold unoccluded, scene_intersect_p.
      rewrite Eh. cbn [rbind]. destruct (negb h); [|eauto]. destruct (l_is_delta l); eauto. }
    destruct D as (ld & ->). exists ld. split; [reflexivity|]. apply returns_plain.
    assert (D : exists ld', direct_bsdf teq surf sc l i b u1 ld = Ok ld').
    { unfold direct_bsdf. destruct (l_is_delta l); [eauto|]. destruct (Gb u1 U1 U1') as (wi & f & p & fl & -> & Gr). cbn [rbind].
      destruct (flt f0 p) eqn:Ep; cbn [andb]; [|eauto]. destruct (negb _); [|eauto]. specialize (Gr (or_intror eq_refl)). destruct (_ && _); [eauto|]. unfold scene_intersect.
      assert (Hk' : 0 <= k + 1 <= 65) by lia. destruct (ro_isect _ _ _ RB (k + 1) (spawn_ray i wi) Hk' Gr) as (o & E & H). rewrite E. cbn [rbind]. destruct o as [j|]; [|eauto].
      destruct (H j eq_refl) as (t & -> & _). destruct (same_addr _ _ _); [|cbn [rbind]; eauto].
      destruct (hit_le (k + 1) _ j (v3neg wi) Hk' Gr E) as (e & ->). cbn [rbind]. eauto. }
    destruct D as (ld' & ->). exists ld'. split; [reflexivity|]. now apply returns_ok.
  Qed.

  Lemma ret_one_light k i b : 0 <= k <= 64 -> good_bsdf k i b -> returns 5 (fun s => uniform_sample_one_light sm teq surf sc s i b).
  Proof.
    intros Hk64 Gb. unfold uniform_sample_one_light. destruct (Z.of_nat (length (sc_lights sc)) =? 0) eqn:E0; [apply returns_ok; lia|].
    apply (ret_1d 4); [lia|]. intros u U. apply returns_plain.
    set (j := Z.min _ _). assert (Hk : 0 <= j < Z.of_nat (length (sc_lights sc))).
    { unfold j. pose proof (Small (fmul (fofZ (Z.of_nat (length (sc_lights sc)))) u)). lia. }
    unfold idx. replace (j <? 0) with false by lia. destruct (nth_error (sc_lights sc) (Z.to_nat j)) as [l|] eqn:El; [|apply nth_error_None in El; lia].
    exists l. split; [reflexivity|]. apply nth_error_In in El.
    refine (returns_bind 4 0 (fun s => estimate_direct sm teq surf sc s l i b) (fun ld s => Ok (_, s)) _ _ (ret_direct k l i b Hk64 El Gb) _); [lia|lia|]. intros ld. now apply returns_ok.
  Qed.

  Lemma ret_loop fuel : forall r l beta sp b, G b r -> 0 <= b <= 65 -> 66 - b <= Z.of_nat fuel ->
    returns (need b) (fun s => li_loop sm teq surf sc fuel s r l beta sp b).
  Proof.
    induction fuel as [|fuel IH]; intros r l beta sp b Gr Hb Hf; [lia|]. cbn [li_loop].
    assert (N0 : 0 <= need b) by (unfold need; lia).
    destruct (ro_isect _ _ _ RB b r Hb Gr) as (o & E & H). apply returns_plain. exists o. split; [exact E|].
    apply returns_plain.
    assert (X : exists l1, (if (b =? 0) || sp then match o with Some i => let! e := le surf i (v3neg (r_d r)) in Ok (v3add l (v3mul beta e)) | None => Ok l end else Ok l) = Ok l1).
    { destruct (_ || _); [|eauto]. destruct o as [i|]; [|eauto]. destruct (hit_le b r i (v3neg (r_d r)) Hb Gr E) as (e & ->). cbn [rbind]. eauto. }
    destruct X as (l1 & ->). exists l1. split; [reflexivity|]. destruct o as [i|]; [|now apply returns_ok].
    destruct (MAX_BOUNCES <? b) eqn:Eb; [now apply returns_ok|]. unfold MAX_BOUNCES in Eb.
    assert (Hb64 : 0 <= b <= 64) by lia. destruct (H i eq_refl) as (t & Et & H'). destruct (H' (proj2 Hb64)) as (bs & Es & Gb).
    apply returns_plain. exists bs. split; [unfold compute_scattering; now rewrite Et|].
    apply (returns_le (5 + (2 + (need b - 7)))); [lia|].
    refine (returns_bind 5 (2 + (need b - 7)) (fun s => uniform_sample_one_light sm teq surf sc s i bs) _ _ _ (ret_one_light b i bs Hb64 Gb) _); [lia|unfold need; lia|]. intros ld.
    apply ret_2d; [unfold need; lia|]. intros u U U'. apply returns_plain. destruct (proj1 Gb u U U') as (wi & f & pdf & flag & -> & Gw).
    eexists. split; [reflexivity|]. cbn beta iota.
    destruct (feq pdf f0) eqn:Ep; cbn [orb]; [apply returns_ok; unfold need; lia|]. specialize (Gw (or_introl eq_refl)).
    destruct (is_black f); [apply returns_ok; unfold need; lia|].
    destruct (3 <? b + 1) eqn:E3.
    - apply (returns_le (1 + need (b + 1))); [unfold need; lia|]. apply ret_1d; [unfold need; lia|]. intros v V.
      destruct (flt _ _); [apply returns_ok; unfold need; lia|]. apply IH; auto; lia.
    - apply (returns_le (need (b + 1))); [unfold need; lia|]. apply IH; auto; lia.
  Qed.
End R.

Lemma robust_everywhere {F T} {FO : FOps F} (surf : T -> surface F T) (sc : scene F T (container F T)) : robust surf sc -> robust_on surf sc (fun _ _ => True).
Proof.
  intros RB. constructor. intros k r _ _. destruct (rb_isect _ _ RB r) as (o & E & H). exists o. split; [exact E|]. intros i Hi.
  destruct (H i Hi) as (t & b & Et & Es & Gb). exists t. split; [exact Et|]. intros _. exists b. repeat split; auto.
  - intros u U U'. destruct (Gb (i_wo i) u U U') as ([[[wi f] pdf] fl] & Eq). exists wi, f, pdf, fl. auto.
  - intros l u Hl _ _. destruct (rb_lights _ _ RB l i u Hl) as ([[[wi li] p] v] & Eq). exists wi, li, p, v. split; [exact Eq|]. apply (rb_isect_p _ _ RB).
Qed.
