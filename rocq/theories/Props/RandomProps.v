(** * C91, C92: the numbers of the random sampler *)
From Coq Require Import ZArith Reals List Bool Lia Permutation.
From Flocq Require Import IEEE754.BinarySingleNaN.
From Verif Require Import Model.Num Model.NumX Model.NumB Model.Vector Model.Common Model.BBox Model.Film Model.Sampler Model.Render.
From Verif Require Import Spec.Grid Spec.FilmSpec Spec.SamplerSpec Spec.RenderSpec Spec.StreamSpec.
From Verif Require Import Proofs.FLaws Proofs.Iter Proofs.Tiles Proofs.FilmGrid Proofs.RenderLocal Proofs.Threads Proofs.Serves.
From Verif Require Import Props.RenderProps.
Import ListNotations.

(** ** C91 *)
Section A.
  Context {F G : Type} (gen : G -> F * G) (m : build).
  Notation sm := (random_ops gen m).

  Lemma outputs_app a b g : outputs gen (a + b) g = outputs gen a g ++ outputs gen b (after gen a g).
  Proof. revert g. induction a as [|a IH]; intros g; cbn [outputs after plus app]; [reflexivity|]. now rewrite IH. Qed.
  Lemma after_app a b g : after gen (a + b) g = after gen b (after gen a g).
  Proof. revert g. induction a as [|a IH]; intros g; cbn [after plus]; [reflexivity|]. now rewrite IH. Qed.

  Lemma ask_in_order c s a s' : ask sm c s = Ok (a, s') ->
    answers c a /\ given a = outputs gen (asks_for c) (rs_rng s) /\ rs_rng s' = after gen (asks_for c) (rs_rng s).
  Proof.
    destruct c; cbn [ask random_ops sm_next_sample sm_get_1d sm_get_2d asks_for outputs after].
    - unfold random_next_sample. destruct (u32_of m _) as [i| |]; cbn [rbind]; try discriminate. intros E.
      apply Ok_inj in E. injection E as <- <-. repeat split.
    - unfold random_get_1d. destruct (random_assert m s); cbn [rbind]; try discriminate.
      destruct (gen (rs_rng s)) as [x g]. cbn [rbind fst snd]. intros E. apply Ok_inj in E. injection E as <- <-. repeat split.
    - unfold random_get_2d. destruct (random_assert m s); cbn [rbind]; try discriminate.
      destruct (gen (rs_rng s)) as [x g]. cbn [fst snd]. destruct (gen g) as [y g']. cbn [rbind fst snd]. intros E. apply Ok_inj in E. injection E as <- <-.
      repeat split.
  Qed.

  Lemma ask_all_in_order cs : forall s al s', ask_all sm cs s = Ok (al, s') ->
    Forall2 answers cs al /\ flat_map given al = outputs gen (wanted cs) (rs_rng s) /\ rs_rng s' = after gen (wanted cs) (rs_rng s).
  Proof.
    induction cs as [|c cs IH]; intros s al s'; cbn [ask_all].
    - intros E. apply Ok_inj in E. injection E as <- <-. repeat split. constructor.
    - destruct (ask sm c s) as [[a s1]| |] eqn:Ec; cbn [rbind]; try discriminate.
      destruct (ask_all sm cs s1) as [[bl s2]| |] eqn:Ea; cbn [rbind]; try discriminate. intros E. apply Ok_inj in E. injection E as <- <-.
      apply ask_in_order in Ec as (H1 & H2 & H3). apply IH in Ea as (K1 & K2 & K3). rewrite H3 in K2, K3. unfold wanted in *. cbn [map list_sum fold_right flat_map].
      change (fold_right Init.Nat.add 0%nat (map asks_for cs)) with (list_sum (map asks_for cs)).
      split; [now constructor|]. rewrite outputs_app, after_app, H2, K2. now split.
  Qed.

  (** Whatever is asked for, pixel after pixel: the numbers handed out are the numbers the generator puts out, in
      order, none left out and none used twice, and the generator goes on behind them. *)
  Theorem C91_in_order : forall plan s al s', ask_plan sm plan s = Ok (al, s') ->
    Forall2 answers (plan_calls plan) al /\
    flat_map given al = outputs gen (wanted (plan_calls plan)) (rs_rng s) /\ rs_rng s' = after gen (wanted (plan_calls plan)) (rs_rng s).
  Proof.
    induction plan as [|[p cs] plan IH]; intros s al s'; cbn [ask_plan].
    - intros E. apply Ok_inj in E. injection E as <- <-. repeat split. constructor.
    - cbn [random_ops sm_start_pixel]. unfold random_start_pixel. cbn [rbind].
      destruct (ask_all sm cs _) as [[bl s1]| |] eqn:Ea; cbn [rbind]; try discriminate.
      destruct (ask_plan sm plan s1) as [[cl s2]| |] eqn:Ep; cbn [rbind]; try discriminate. intros E. apply Ok_inj in E. injection E as <- <-.
      apply ask_all_in_order in Ea as (H1 & H2 & H3). apply IH in Ep as (K1 & K2 & K3). cbn [rs_rng] in *. rewrite H3 in K2, K3.
      unfold plan_calls, wanted in *. cbn [flat_map snd]. rewrite map_app, list_sum_app, outputs_app, after_app, flat_map_app, H2, K2.
      split; [now apply Forall2_app|]. now split.
  Qed.
End A.
Print Assumptions C91_in_order.

(** A release build answers whatever is asked. *)
Theorem C91_release_answers : forall F G (gen : G -> F * G) plan s, exists al s', ask_plan (random_ops gen Release) plan s = Ok (al, s').
Proof.
  intros F G gen. assert (A : forall cs s, exists al s', ask_all (random_ops gen Release) cs s = Ok (al, s')).
  { induction cs as [|c cs IH]; intros s; cbn [ask_all]; [eauto|].
    destruct c; cbn [ask random_ops sm_next_sample sm_get_1d sm_get_2d].
    - unfold random_next_sample. assert (U : exists i, u32_of Release (rs_index s + 1) = Ok i) by (unfold u32_of; destruct (in_rangeb _ _ _); eauto).
      destruct U as (i & ->). cbn [rbind]. destruct (IH (mkRS (rs_spp s) i (rs_rng s))) as (al & s' & E). rewrite E. cbn [rbind]. eauto.
    - unfold random_get_1d, random_assert. cbn [rbind]. destruct (gen (rs_rng s)) as [x g]. cbn [rbind].
      destruct (IH (mkRS (rs_spp s) (rs_index s) g)) as (al & s' & E). rewrite E. cbn [rbind]. eauto.
    - unfold random_get_2d, random_assert. cbn [rbind]. destruct (gen (rs_rng s)) as [x g]. destruct (gen g) as [y g']. cbn [rbind].
      destruct (IH (mkRS (rs_spp s) (rs_index s) g')) as (al & s' & E). rewrite E. cbn [rbind]. eauto. }
  induction plan as [|[p cs] plan IH]; intros s; cbn [ask_plan]; [eauto|]. cbn [random_ops sm_start_pixel]. unfold random_start_pixel. cbn [rbind].
  destruct (A cs (mkRS (rs_spp s) 0 (rs_rng s))) as (al & s1 & E1). rewrite E1. cbn [rbind].
  destruct (IH s1) as (bl & s2 & E2). rewrite E2. cbn [rbind]. eauto.
Qed.
Print Assumptions C91_release_answers.

(** Two pixels, two and one samples, a generator that counts. *)
Example C91_example : exists al s', ask_plan (random_ops (F := nat) (numbered (fun n => n * n)%nat) Debug)
    [(mkP2 3 4, [C2D; C1D; CNext; C2D]); (mkP2 4 4, [C1D])]%Z (random_new 2 5%nat) = Ok (al, s') /\
  al = [A2D (mkP2 25 36); A1D 49; ANext true; A2D (mkP2 64 81); A1D 100]%nat /\ rs_rng s' = 11%nat.
Proof. eexists _, _. repeat split. Qed.

(** ** C92 *)
Section B.
  Context {F : Type} {FO : FOps F} (f : nat -> F) (m : build).
  Notation ST := (random_sampler (G := nat)).
  Notation sm := (random_ops (numbered f) m).
  Variable (shade : ST -> P2 F -> res (V3 F * ST)).
  Hypothesis Hsh : forall s p l s', shade s p = Ok (l, s') -> draws sm s s'.

  Lemma get_1d_pos s x s' : sm_get_1d sm s = Ok (x, s') -> rs_rng s' = S (rs_rng s).
  Proof.
    cbn [random_ops sm_get_1d]. unfold random_get_1d. destruct (random_assert m s); cbn [rbind numbered]; try discriminate.
    intros E. apply Ok_inj in E. now injection E as <- <-.
  Qed.
  Lemma get_2d_pos s x s' : sm_get_2d sm s = Ok (x, s') -> rs_rng s' = S (S (rs_rng s)).
  Proof.
    cbn [random_ops sm_get_2d]. unfold random_get_2d. destruct (random_assert m s); cbn [rbind numbered]; try discriminate.
    intros E. apply Ok_inj in E. now injection E as <- <-.
  Qed.
  Lemma draws_pos s s' : draws sm s s' -> (rs_rng s <= rs_rng s')%nat.
  Proof. induction 1 as [|s1 x s2 _ IH E|s1 x s2 _ IH E]; [lia| |]; [apply get_1d_pos in E|apply get_2d_pos in E]; lia. Qed.

  Lemma pixel_loop_pos fuel : forall p s ft log s' ft' log', pixel_loop m sm shade fuel p s ft log = Ok (s', ft', log') ->
    (rs_rng s + 2 * length log' <= rs_rng s' + 2 * length log)%nat.
  Proof.
    induction fuel as [|fuel IH]; intros p s ft log s' ft' log'; cbn [pixel_loop]; [discriminate|]. intros E.
    apply rbind_inv in E as ([pf s1] & E1 & E). apply rbind_inv in E as ([l s2] & E2 & E). apply rbind_inv in E as (ft1 & _ & E).
    apply rbind_inv in E as ([more s3] & E3 & E).
    unfold get_camera_sample in E1. apply rbind_inv in E1 as ([u s1'] & E1 & E1'). apply Ok_inj in E1'. assert (s1' = s1) as -> by congruence.
    apply get_2d_pos in E1. apply Hsh, draws_pos in E2.
    assert (E4 : rs_rng s3 = rs_rng s2).
    { cbn [random_ops sm_next_sample] in E3. unfold random_next_sample in E3. apply rbind_inv in E3 as (i & _ & E3). apply Ok_inj in E3. now injection E3 as _ <-. }
    destruct more.
    - apply IH in E. cbn [length] in E. lia.
    - apply Ok_inj in E. injection E as <- <- <-. cbn [length]. lia.
  Qed.
  Lemma pixels_loop_pos fuel ps : forall s ft log s' ft' log', pixels_loop m sm shade fuel ps s ft log = Ok (s', ft', log') ->
    (rs_rng s + 2 * length log' <= rs_rng s' + 2 * length log)%nat.
  Proof.
    induction ps as [|p ps IH]; intros s ft log s' ft' log'; unfold pixels_loop; cbn [rfold].
    - intros E. apply Ok_inj in E. injection E as <- <- <-. lia.
    - intros E. apply rbind_inv in E as ([[s1 ft1] log1] & E1 & E). apply IH in E. cbn [random_ops sm_start_pixel] in E1. unfold random_start_pixel in E1. cbn [rbind] in E1.
      apply pixel_loop_pos in E1. cbn [rs_rng] in E1. lia.
  Qed.
  Lemma render_local_pos fuel fm s b s' ft log : render_local m sm shade fuel fm s b = Ok (s', ft, log) -> (rs_rng s + 2 * length log <= rs_rng s')%nat.
  Proof.
    unfold render_local. intros E. apply rbind_inv in E as (ft0 & _ & E). apply rbind_inv in E as (ps & _ & E). apply pixels_loop_pos in E. cbn [length] in E. lia.
  Qed.

  Definition at_pos (i a : nat) (h : list (nat * bbox2 * nat * nat)) (t : thread F ST) : Prop :=
    match t with
    | TNext s | TRender s _ | TMerge s _ _ => one_after_another i a (rs_rng s) h
    | TDone => exists b, one_after_another i a b h
    end.

  Lemma nth_set_same {A} (l : list A) i x y : nth_error l i = Some y -> nth_error (set_nth l i x) i = Some x.
  Proof. revert i. induction l as [|z l IH]; intros [|i]; cbn; try discriminate; auto. Qed.
  Lemma nth_set_other {A} (l : list A) i j x : i <> j -> nth_error (set_nth l i x) j = nth_error l j.
  Proof. revert i j. induction l as [|z l IH]; intros [|i] [|j] N; cbn; auto; try congruence. Qed.

  (** Each thread uses the numbers of the stream one after the other: whatever a thread has rendered, each tile
      begins with the number after the last one of the thread's tile before. *)
  Theorem C92_each_thread_partial : forall fm s k y0 fuel h y i, start_sys m fm s k = Ok y0 -> history f m shade fuel y0 h y -> (i < k)%nat ->
    exists b, one_after_another i (rs_rng s) b h.
  Proof.
    intros fm s k y0 fuel h y i E0 H Hi.
    assert (Q : exists t, nth_error (y_threads y) i = Some t /\ at_pos i (rs_rng s) h t).
    { unfold start_sys in E0. apply rbind_inv in E0 as (it & _ & E0). apply Ok_inj in E0. subst y0.
      induction H as [|h y y' j t b t' ft H (u & Eu & IH) St E1 E2|h y y' j H (u & Eu & IH) St N].
      - exists (TNext s). cbn [y_threads at_pos one_after_another]. split; [|reflexivity]. now apply nth_error_repeat.
      - cbn [one_after_another]. destruct (Nat.eqb_spec j i) as [->|Nj].
        + assert (u = TRender t b) by congruence. subst u. exists (TMerge t' b ft). split; [exact E2|]. cbn [at_pos one_after_another] in *.
          rewrite Nat.eqb_refl. split; [reflexivity|]. split; [|exact IH].
          inversion St as [? ? ? ? ? X|? ? ? ? X|? ? r c r' ft' lg X R|? ? ? ? ? ? X]; subst; cbn [y_threads] in *; try congruence.
          rewrite (nth_set_same _ _ _ _ X) in E2. assert (r' = t') by congruence. assert (r = t) by congruence. subst r r'. apply render_local_pos in R. lia.
        + exists u. split.
          * inversion St; subst; cbn [y_threads]; rewrite nth_set_other by auto; exact Eu.
          * destruct u; cbn [at_pos one_after_another] in *; destruct (Nat.eqb_spec j i); try congruence; auto.
      - destruct (Nat.eq_dec j i) as [->|Nj].
        + inversion St as [? ? ? ? ? X|? ? ? ? X|? ? r c r' ft' lg X R|? ? ? ? ? ? X]; subst; cbn [y_threads] in *; rewrite (nth_set_same _ _ _ _ X);
            rewrite Eu in X; injection X as ->; eexists; (split; [reflexivity|]); cbn [at_pos] in *; eauto.
          exfalso. eapply N. exact Eu.
        + exists u. split; [|exact IH]. inversion St; subst; cbn [y_threads]; rewrite nth_set_other by auto; exact Eu. }
    destruct Q as (t & _ & A). destruct t; cbn [at_pos] in A; eauto.
  Qed.
End B.
Print Assumptions C92_each_thread_partial.

(** False for two threads, whatever the generator: the threads begin with copies of the same generator, so the
    first tile of each is rendered with the same random numbers.  A 20 x 10 film of radius 2 (two tiles). *)
Theorem C92_refuted : exists (res : P2 Z) (flt : Libm b32 -> filter b32), forall (L : Libm b32) (f : nat -> b32) spp shade,
  (forall n, in_unit (f n)) -> (1 <= spp < 2 ^ 32)%Z -> random_shade (numbered f) Release spp shade ->
  (forall s p l s', shade s p = Ok (l, s') -> draws (random_ops (numbered f) Release) s s') ->
  exists fm y0 y h b1 b2 n1 n2, film_new Release res (flt L) = Ok fm /\ start_sys Release fm (random_new spp 0%nat) 2 = Ok y0 /\
    history f Release shade (samples spp) y0 h y /\ b1 <> b2 /\
    In (0, b1, 0, n1)%nat h /\ In (1, b2, 0, n2)%nat h /\ (0 < n1)%nat /\ (0 < n2)%nat.
Proof.
  exists (mkP2 20 10)%Z, (fun L => mkFilter (F := b32) f2 (fun _ => f1)). intros L f spp shade Hf Hs Hr Hd.
  pose (flt := mkFilter (F := b32) f2 (fun _ => f1)). fold flt.
  assert (Ha : film_args (mkP2 20 10)%Z flt).
  { unfold film_args. cbn [px py]. do 3 (split; [lia|]). split; vm_compute; reflexivity. }
  destruct (film_args_ok Release _ flt Ha) as (fm & r & En & W & Er & _).
  assert (Eb : film_sample_bbox fm = mkB2 (mkP2 (-2) (-2))%Z (mkP2 22 12)%Z).
  { assert (E2 : (let! f := film_new Release (mkP2 20 10)%Z flt in Ok (film_sample_bbox f)) = Ok (mkB2 (mkP2 (-2) (-2))%Z (mkP2 22 12)%Z))
      by (vm_compute; reflexivity). rewrite En in E2. exact (Ok_inj _ _ E2). }
  set (b1 := mkB2 (mkP2 (-2) (-2))%Z (mkP2 14 12)%Z). set (b2 := mkB2 (mkP2 14 (-2))%Z (mkP2 22 12)%Z).
  assert (Et : tile_items Release (film_sample_bbox fm) = Ok [b1; b2]) by (rewrite Eb; vm_compute; reflexivity).
  assert (Hi : exists it it1 it2, tile_iter_new Release (film_sample_bbox fm) = Ok it /\ next_tile Release it = Ok (Some b1, it1) /\
    next_tile Release it1 = Ok (Some b2, it2)) by (rewrite Eb; eexists _, _, _; repeat split; vm_compute; reflexivity).
  destruct Hi as (it & it1 & it2 & E0 & E1 & E2).
  set (s := random_new spp 0%nat).
  assert (Hg : forall g, in_unit (fst (numbered f g))) by (intros g; apply Hf).
  assert (R : forall b, In b [b1; b2] -> exists s' ft log, render_local Release (random_ops (numbered f) Release) shade (samples spp) fm s b = Ok (s', ft, log) /\
      (0 < rs_rng s')%nat).
  { intros b Hb. destruct (C17_random b32 _ (B32_FLaws L) nat (numbered f) 0%nat Release shade _ flt fm spp _ b Ha En Et Hb Hg ltac:(lia) (or_introl eq_refl) Hr)
      as (s' & ft & shots & ps & E & Hen & Hsp & _).
    exists s', ft, (rev shots). split; [exact E|]. pose proof (render_local_pos f Release shade Hd _ _ _ _ _ _ _ E) as Hp. rewrite rev_length in Hp.
    assert (shots <> []).
    { intros ->. unfold shots_per_pixel in Hsp. cbn [map] in Hsp. destruct ps as [|p ps].
      - destruct Hen as [_ [_ Hen] ]. pose proof (proj2 (Hen (b2min b))) as Q. apply Q. destruct Hb as [<-|[<-|[]]]; vm_compute; repeat split; congruence.
      - cbn [flat_map] in Hsp. unfold samples in Hsp. destruct (Z.to_nat (Z.max 1 spp)) eqn:Z1; [lia|]. discriminate. }
    destruct shots; [congruence|]. cbn [length] in Hp. lia. }
  destruct (R b1) as (s1 & ft1 & log1 & R1 & P1); [now left|]. destruct (R b2) as (s2 & ft2 & log2 & R2 & P2); [right; now left|].
  pose (y0 := mkSys (F := b32) it fm [TNext s; TNext s] [] []).
  pose (ya := mkSys (F := b32) it1 fm [TRender s b1; TNext s] [(0%nat, b1)] []).
  pose (yb := mkSys (F := b32) it2 fm [TRender s b1; TRender s b2] [(1%nat, b2); (0%nat, b1)] []).
  pose (yc := mkSys (F := b32) it2 fm [TMerge s1 b1 ft1; TRender s b2] [(1%nat, b2); (0%nat, b1)] []).
  pose (yd := mkSys (F := b32) it2 fm [TMerge s1 b1 ft1; TMerge s2 b2 ft2] [(1%nat, b2); (0%nat, b1)] []).
  exists fm, y0, yd, [(1%nat, b2, 0%nat, rs_rng s2); (0%nat, b1, 0%nat, rs_rng s1)], b1, b2, (rs_rng s1), (rs_rng s2).
  split; [exact En|]. split; [unfold start_sys; rewrite E0; reflexivity|].
  split; [|split; [discriminate|]; split; [right; now left|]; split; [now left|]; now split].
  assert (Ha0 : history f Release shade (samples spp) y0 [] ya).
  { eapply history_other with (i := 0%nat); [apply history_0| |intros ? ?; discriminate].
    exact (step_take Release (random_ops (numbered f) Release) shade (samples spp) y0 0 s b1 it1 eq_refl E1). }
  assert (Hb0 : history f Release shade (samples spp) y0 [] yb).
  { eapply history_other with (i := 1%nat); [exact Ha0| |intros ? ?; discriminate].
    exact (step_take Release (random_ops (numbered f) Release) shade (samples spp) ya 1 s b2 it2 eq_refl E2). }
  assert (Hc0 : history f Release shade (samples spp) y0 [(0%nat, b1, 0%nat, rs_rng s1)] yc).
  { eapply (history_render f Release shade (samples spp) y0 [] yb yc 0%nat s b1 s1 ft1); [exact Hb0| |reflexivity|reflexivity].
    exact (step_render Release (random_ops (numbered f) Release) shade (samples spp) yb 0 s b1 s1 ft1 log1 eq_refl R1). }
  eapply (history_render f Release shade (samples spp) y0 _ yc yd 1%nat s b2 s2 ft2); [exact Hc0| |reflexivity|reflexivity].
  exact (step_render Release (random_ops (numbered f) Release) shade (samples spp) yc 1 s b2 s2 ft2 log2 eq_refl R2).
Qed.
Print Assumptions C92_refuted.

(** The hypotheses are met: a stream of zeros, shading code that draws a number and returns it as red. *)
Example C92_example (L : Libm b32) : let f := fun _ : nat => f0 (F := b32) in
  let shade (s : random_sampler (G := nat)) (_ : P2 b32) := let! (x, s) := random_get_1d (numbered f) Release s in Ok (mkV3 x f0 f0, s) in
  (forall n, in_unit (f n)) /\ random_shade (numbered f) Release 3 shade /\
  (forall s p l s', shade s p = Ok (l, s') -> draws (random_ops (numbered f) Release) s s').
Proof.
  intros f shade. split; [intros n; vm_compute; auto|].
  assert (D : forall s p l s', shade s p = Ok (l, s') -> draws (random_ops (numbered f) Release) s s').
  { intros s p l s' E. unfold shade in E. apply rbind_inv in E as ([x s1] & E1 & E). apply Ok_inj in E. assert (s1 = s') as -> by congruence.
    eapply draws_1d; [apply draws_refl|exact E1]. }
  split; [|exact D]. intros s p _ _.
  assert (E : exists l s', shade s p = Ok (l, s')) by (eexists _, _; reflexivity). destruct E as (l & s' & E). exists l, s'. split; [exact E|]. eapply D, E.
Qed.
