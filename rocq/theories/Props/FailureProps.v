(** * C113: a failed render leaves the old picture, and a written picture comes from a run without failure *)
From Coq Require Import ZArith Reals List Bool Lia Permutation Ascii.
From Verif Require Import Model.Num Model.NumX Model.NumB Model.Vector Model.BBox Model.Film Model.Sampler Model.Render Model.Failure.
From Verif Require Import Spec.Grid Spec.FilmSpec Spec.SamplerSpec Spec.RenderSpec Spec.FailureSpec.
From Verif Require Import Proofs.XBase Proofs.FLaws Proofs.Iter Proofs.Tiles Proofs.FilmGrid Proofs.FilmOps Proofs.FilmJobs Proofs.RenderLocal Proofs.Threads.
From Verif Require Import Props.RenderProps.
Import ListNotations.
Local Open Scope Z_scope.

Lemma set_nth_length {A} (l : list A) : forall i x, length (set_nth l i x) = length l.
Proof. induction l as [|a l IH]; intros [|i] x; cbn; auto. Qed.

Lemma rfold_keeps {A S} (P : S -> Prop) (f : S -> A -> res S) l :
  (forall s a s', P s -> f s a = Ok s' -> P s') -> forall s s', P s -> rfold f l s = Ok s' -> P s'.
Proof.
  intros H. induction l as [|a l IH]; cbn [rfold]; intros s s' Hs E.
  - injection E as <-. exact Hs.
  - destruct (f s a) as [s1| |] eqn:E1; cbn [rbind] in E; try discriminate. eauto.
Qed.

(** What comes out of rendering a tile fits the film, whatever the sampler and the shading code do. *)
Section Fits.
  Context {F} {FO : FOps F} {FL : FLaws F} {ST : Type}.
  Variable (m : build) (sm : sampler_ops F ST) (shade : ST -> P2 F -> res (V3 F * ST)).

  Lemma splat_keeps fm tb ix iy mn sample (t t' : film_tile F) x y : tile_ok fm t -> splat_one m tb ix iy mn sample t x y = Ok t' -> tile_ok fm t'.
  Proof.
    intros H. unfold splat_one.
    repeat (match goal with |- rbind ?e _ = _ -> _ => destruct e eqn:?E; cbn [rbind]; try discriminate end).
    match goal with E : upd _ _ _ = Ok _ |- _ => rename E into Eu end.
    unfold upd in Eu. destruct (idx (tl_pixels t) _); cbn [rbind] in Eu; try discriminate. injection Eu as <-.
    intros [= <-]. destruct H. constructor; cbn; auto. now rewrite set_nth_length.
  Qed.

  Lemma add_keeps fm (t t' : film_tile F) p l : tile_ok fm t -> tile_add_sample m t p l = Ok t' -> tile_ok fm t'.
  Proof.
    intros H. unfold tile_add_sample. destruct (sample_range m t p) as [[[q mn] mx]| |]; cbn [rbind]; try discriminate.
    cbv zeta. apply rfold_keeps; [|exact H]. intros s y s' Hs. cbn beta. apply rfold_keeps; [|exact Hs].
    intros s1 x s2 H1. now apply splat_keeps.
  Qed.

  Lemma pixel_keeps fm fuel : forall p s ft log s' ft' log', tile_ok fm ft ->
    pixel_loop m sm shade fuel p s ft log = Ok (s', ft', log') -> tile_ok fm ft'.
  Proof.
    induction fuel as [|fuel IH]; intros p s ft log s' ft' log' H; cbn [pixel_loop]; [discriminate|].
    destruct (get_camera_sample sm s p) as [[pf s1]| |]; cbn [rbind]; try discriminate.
    destruct (shade s1 pf) as [[l s2]| |]; cbn [rbind]; try discriminate.
    destruct (if valid_radiance l then _ else _) as [ft1| |] eqn:E; cbn [rbind]; try discriminate.
    assert (H1 : tile_ok fm ft1).
    { destruct (valid_radiance l); [now apply (add_keeps fm ft ft1 pf l)|]. injection E as <-. exact H. }
    destruct (sm_next_sample sm s2) as [[more s3]| |]; cbn [rbind]; try discriminate.
    destruct more; [now apply IH|]. intros [= <- <- <-]. exact H1.
  Qed.

  Lemma local_fits r fuel fm s b s' ft log : film_ok r fm -> tile_of_sample_area fm b ->
    render_local m sm shade fuel fm s b = Ok (s', ft, log) -> tile_ok fm ft.
  Proof.
    intros W Hb. unfold render_local. destruct (get_film_tile_ok m r fm b W Hb) as (ft0 & -> & H0 & _). cbn [rbind].
    destruct (bbox2_items m b) as [ps| |]; cbn [rbind]; try discriminate.
    unfold pixels_loop. intros E.
    apply (rfold_keeps (fun x => tile_ok fm (snd (fst x))) _ _) in E; [exact E| |exact H0].
    intros [[s1 f1] l1] p [[s2 f2] l2] H1. cbn [fst snd] in *. destruct (sm_start_pixel sm s1 p); cbn [rbind]; try discriminate. now apply pixel_keeps.
  Qed.
End Fits.

Section R.
  Context {F} {FO : FOps F} {FL : FLaws F} {ST : Type}.
  Variable (m : build) (sm : sampler_ops F ST) (shade : ST -> P2 F -> res (V3 F * ST)) (fuel : nat).
  Variables (r : R) (fm0 : film F) (old : list ascii) (y0 : sys F ST).
  Hypothesis W0 : film_ok r fm0.

  Let bb := film_sample_bbox fm0.
  Let Hbb : tileable bb := sample_bbox_tileable r fm0 W0.

  Definition holds (i : nat) (t : life F ST) : list (nat * bbox2) := match t with Alive t => own i t | Fallen l => l end.
  Fixpoint held (k : nat) (ts : list (life F ST)) : list (nat * bbox2) :=
    match ts with [] => [] | t :: ts => holds k t ++ held (S k) ts end.
  Lemma held_app k l1 l2 : held k (l1 ++ l2) = held k l1 ++ held (k + length l1) l2.
  Proof.
    revert k. induction l1 as [|t l1 IH]; intros k; cbn [app held length].
    - now rewrite Nat.add_0_r.
    - rewrite IH, app_assoc. do 2 f_equal. lia.
  Qed.

  Definition load (t : life F ST) : nat := match t with Alive t => weight t | Fallen _ => 0 end.
  Definition loads (ts : list (life F ST)) : nat := list_sum (map load ts).
  Lemma loads_mid l1 t l2 : loads (l1 ++ t :: l2) = (load t + loads (l1 ++ l2))%nat.
  Proof. unfold loads. rewrite !map_app, !list_sum_app. cbn [map]. change (list_sum (load t :: map load l2)) with (load t + list_sum (map load l2))%nat. lia. Qed.
  Definition togo (u : run F ST) : nat := match u_boss u with Joining i => S (length (u_threads u)) - i | _ => 0 end.
  Definition fmeasure (u : run F ST) : nat := 3 * length (ti_rest (u_iter u)) + loads (u_threads u) + togo u.

  Definition strip (t : life F ST) : thread F ST := match t with Alive t => t | Fallen _ => TDone end.
  Definition proj (u : run F ST) : sys F ST :=
    mkSys (u_iter u) (u_film u) (map strip (u_threads u)) (u_taken u) (u_merged u).

  Definition boss_ok (u : run F ST) : Prop :=
    match u_boss u with
    | Joining i => u_file u = old /\ (i <= length (u_threads u))%nat /\
                   forall j, (j < i)%nat -> nth_error (u_threads u) j = Some (Alive TDone)
    | Failed => u_file u = old /\ somebody_fell u
    | Written => u_file u = file_after_render old (u_film u) /\ forall t, In t (u_threads u) -> t = Alive TDone
    end.

  Record finv (u : run F ST) : Prop := {
    v_iter : ti_inv bb (u_iter u);
    v_pi : u_iter_poisoned u = false;
    v_pf : u_film_poisoned u = false;
    v_tiles : tile_list bb = map snd (rev (u_taken u)) ++ map (tile_at bb) (ti_rest (u_iter u));
    v_perm : Permutation (u_taken u) (u_merged u ++ held 0 (u_threads u));
    v_ok : film_ok r (u_film u);
    v_shape : same_shape fm0 (u_film u);
    v_thr : forall s b ft, In (Alive (TMerge s b ft)) (u_threads u) -> tile_ok fm0 ft;
    v_done : In (Alive TDone) (u_threads u) -> ti_rest (u_iter u) = [];
    v_boss : boss_ok u;
    v_clean : ~ somebody_fell u -> exists j, steps m sm shade fuel j y0 (proj u) }.

  Lemma held_listed (u : run F ST) i t b : finv u -> nth_error (u_threads u) i = Some t -> In (i, b) (holds i t) -> In b (tile_list bb).
  Proof.
    intros Q Ht Ho. rewrite (v_tiles _ Q). apply in_or_app. left.
    apply in_map_iff. exists (i, b). split; auto. apply in_rev. rewrite rev_involutive.
    eapply Permutation_in; [apply Permutation_sym, (v_perm _ Q)|]. apply in_or_app. right.
    destruct (set_nth_split _ i t t Ht) as (l1 & l2 & E & _ & L). rewrite E, held_app.
    apply in_or_app. right. cbn [held]. apply in_or_app. left. now rewrite L.
  Qed.
  Lemma held_in (u : run F ST) i t b : finv u -> nth_error (u_threads u) i = Some t -> In (i, b) (holds i t) -> tile_of_sample_area fm0 b.
  Proof. intros Q Ht Ho. apply (tile_in_area r fm0 W0). now apply (held_listed u i t). Qed.

  Lemma fell_keep (u : run F ST) i t t' l : nth_error (u_threads u) i = Some (Alive t) -> In (Fallen l) (u_threads u) -> In (Fallen l) (put u i t').
  Proof.
    intros Ht Hl. unfold put. destruct (set_nth_split _ i _ t' Ht) as (l1 & l2 & E & -> & _). rewrite E in Hl.
    apply in_app_or in Hl. apply in_or_app. destruct Hl as [Hl|[Hl|Hl]]; [now left|discriminate|right; now right].
  Qed.

  (** what a worker's move does to the main thread's part of the invariant *)
  Lemma boss_keep (u : run F ST) i t t' it pi fm pf tk mg : finv u -> nth_error (u_threads u) i = Some (Alive t) -> t <> TDone ->
    boss_ok (mkRun it pi fm pf (put u i t') (u_boss u) (u_file u) tk mg).
  Proof.
    intros Q Ht Hd. pose proof (v_boss _ Q) as B. unfold boss_ok in *. cbn [u_boss u_file u_threads u_film] in *.
    destruct (u_boss u) as [k| |].
    - destruct B as (B1 & B2 & B3). split; [exact B1|]. unfold put. rewrite set_nth_length. split; [exact B2|].
      intros j Hj. specialize (B3 j Hj). destruct (set_nth_split _ i _ t' Ht) as (l1 & l2 & E & -> & L). rewrite E in B3.
      destruct (Nat.eq_dec j i) as [->|Hn].
      + rewrite nth_error_app2, L, Nat.sub_diag in B3 by lia. cbn in B3. congruence.
      + destruct (lt_dec j i) as [Hl|Hl].
        * rewrite nth_error_app1 in * by lia. exact B3.
        * rewrite nth_error_app2 in * by lia. destruct (j - length l1)%nat eqn:Ej; [lia|]. exact B3.
    - destruct B as (_ & B2). exfalso. apply nth_error_In in Ht. apply B2 in Ht. congruence.
    - destruct B as (B1 & l & B2). split; [exact B1|]. exists l. cbn [u_threads]. eapply fell_keep; eauto.
  Qed.

  Lemma strip_put (u : run F ST) i t : map strip (put u i t) = set_nth (map strip (u_threads u)) i (strip t).
  Proof. unfold put. generalize (u_threads u) as l. intros l. revert i. induction l as [|x l IH]; intros [|i]; cbn; congruence. Qed.

  Lemma clean_keep (u : run F ST) i t t' it pi fm pf tk mg :
    finv u -> nth_error (u_threads u) i = Some (Alive t) ->
    (forall y, y = proj u -> nth_error (y_threads y) i = Some t -> step m sm shade fuel i y
       (mkSys it fm (set_nth (y_threads y) i (strip t')) tk mg)) \/ (exists l, t' = Fallen l) ->
    let u' := mkRun it pi fm pf (put u i t') (u_boss u) (u_file u) tk mg in
    ~ somebody_fell u' -> exists j, steps m sm shade fuel j y0 (proj u').
  Proof.
    intros Q Ht [Hs|(l & ->)] u' Hf.
    - destruct (v_clean _ Q) as (j & Hj).
      { intros (l & Hl). apply Hf. exists l. cbn [u' u_threads]. eapply fell_keep; eauto. }
      exists (S j). eapply steps_S; [exact Hj|]. unfold proj at 2. cbn [u' u_iter u_film u_threads u_taken u_merged].
      rewrite strip_put. apply Hs; [reflexivity|]. cbn [proj y_threads]. rewrite nth_error_map, Ht. reflexivity.
    - exfalso. apply Hf. exists l. cbn [u' u_threads]. unfold put. destruct (set_nth_split _ i _ (Fallen l) Ht) as (l1 & l2 & _ & -> & _).
      apply in_or_app. right. now left.
  Qed.

  Lemma done_keep (u : run F ST) i t (t' : life F ST) : nth_error (u_threads u) i = Some (Alive t) -> t' <> Alive TDone ->
    In (Alive TDone) (put u i t') -> In (Alive TDone) (u_threads u).
  Proof.
    intros Ht Hn Hd. unfold put in Hd. destruct (set_nth_split _ i _ t' Ht) as (l1 & l2 & E & E' & _). rewrite E' in Hd. rewrite E.
    apply in_app_or in Hd. apply in_or_app. destruct Hd as [Hd|[Hd|Hd]]; [now left|congruence|right; now right].
  Qed.
  Lemma merge_keep (u : run F ST) i t (t' : life F ST) : nth_error (u_threads u) i = Some (Alive t) ->
    (forall s b ft, In (Alive (TMerge s b ft)) (u_threads u) -> tile_ok fm0 ft) ->
    (forall s b ft, t' = Alive (TMerge s b ft) -> tile_ok fm0 ft) ->
    forall s b ft, In (Alive (TMerge s b ft)) (put u i t') -> tile_ok fm0 ft.
  Proof.
    intros Ht H1 H2 s b ft Hd. unfold put in Hd. destruct (set_nth_split _ i _ t' Ht) as (l1 & l2 & E & E' & _). rewrite E' in Hd. rewrite E in H1.
    apply in_app_or in Hd. destruct Hd as [Hd|[Hd|Hd]].
    - apply (H1 s b). apply in_or_app. now left.
    - now apply (H2 s b).
    - apply (H1 s b). apply in_or_app. right. now right.
  Qed.

  (** the tiles held, when thread [i] changes *)
  Lemma held_put (u : run F ST) i t t' : nth_error (u_threads u) i = Some (Alive t) ->
    exists a c, held 0 (u_threads u) = a ++ own i t ++ c /\ held 0 (put u i t') = a ++ holds i t' ++ c.
  Proof.
    intros Ht. unfold put. destruct (set_nth_split _ i _ t' Ht) as (l1 & l2 & E & E' & L). rewrite E', E, !held_app. cbn [held holds]. rewrite L.
    cbn [Nat.add]. eauto.
  Qed.
  Lemma loads_put (u : run F ST) i t t' : nth_error (u_threads u) i = Some (Alive t) ->
    (loads (put u i t') + weight t = loads (u_threads u) + load t')%nat.
  Proof.
    intros Ht. unfold put. destruct (set_nth_split _ i _ t' Ht) as (l1 & l2 & E & E' & L). rewrite E', E, !loads_mid. cbn [load]. lia.
  Qed.
  Lemma togo_put (u : run F ST) i t' it pi fm pf tk mg : togo (mkRun it pi fm pf (put u i t') (u_boss u) (u_file u) tk mg) = togo u.
  Proof. unfold togo. cbn [u_boss u_threads]. unfold put. now rewrite set_nth_length. Qed.

  Lemma move_inv u u' : finv u -> move m sm shade fuel u u' ->
    finv u' /\ (fmeasure u' < fmeasure u)%nat /\ length (u_threads u') = length (u_threads u).
  Proof.
    intros Q S. destruct S as [u i s b it Ht Hp En|u i s it Ht Hp En|u i s it Ht Hp En|u i s Ht Hp|u i s b s' ft log Ht Er|u i s b Ht Er
      |u i s b ft fm Ht Hp Em|u i s b ft fm Ht Hp Em|u i s b ft Ht Hp|u i Hb Ht|u i l Hb Ht|u Hb Hp|u Hb Hp].
    - (* take *)
      pose proof (next_tile_spec m 1 1 r fm0 W0 (conj (le_n _) (le_n _)) (u_iter u) (v_iter _ Q)) as N. rewrite En in N. fold bb in N.
      destruct (ti_rest (u_iter u)) as [|p rest] eqn:Er; [destruct N as (it' & E & _); discriminate|].
      destruct N as (it' & [= -> <-] & Hi & Hr).
      pose proof (loads_put u i _ (Alive (TRender s (tile_at bb p))) Ht) as LP. cbn [load weight] in LP.
      split; [|split; [unfold fmeasure; rewrite togo_put; cbn [u_threads u_iter]; rewrite Er, Hr; cbn [length]; lia|cbn [u_threads]; apply set_nth_length]].
      constructor; cbn [u_iter u_iter_poisoned u_film u_film_poisoned u_threads u_taken u_merged]; auto; try apply Q.
      + cbn [rev]. rewrite map_app, <- app_assoc. cbn [map app snd]. rewrite Hr, (v_tiles _ Q), Er. reflexivity.
      + destruct (held_put u i _ (Alive (TRender s (tile_at bb p))) Ht) as (a & c & E1 & ->). cbn [holds own app] in *.
        rewrite app_assoc. apply Permutation_cons_app. rewrite <- app_assoc, <- E1. apply Q.
      + eapply merge_keep; eauto; [apply Q|discriminate].
      + intros Hd. eapply done_keep in Hd; eauto; [|discriminate]. apply (v_done _ Q) in Hd. rewrite Er in Hd. discriminate.
      + eapply boss_keep; eauto; discriminate.
      + eapply clean_keep; eauto. left. intros y -> Hy. cbn [strip]. eapply (step_take m sm shade fuel (proj u)); eauto.
    - (* finish *)
      pose proof (next_tile_spec m 1 1 r fm0 W0 (conj (le_n _) (le_n _)) (u_iter u) (v_iter _ Q)) as N. rewrite En in N. fold bb in N.
      destruct (ti_rest (u_iter u)) as [|p rest] eqn:Er; [|destruct N as (it' & E & _); discriminate].
      destruct N as (it' & [= <-] & Hi & Hr).
      pose proof (loads_put u i _ (Alive TDone) Ht) as LP. cbn [load weight] in LP.
      split; [|split; [unfold fmeasure; rewrite togo_put; cbn [u_threads u_iter]; rewrite Er, Hr; cbn [length]; lia|cbn [u_threads]; apply set_nth_length]].
      constructor; cbn [u_iter u_iter_poisoned u_film u_film_poisoned u_threads u_taken u_merged]; auto; try apply Q.
      + rewrite Hr, (v_tiles _ Q), Er. reflexivity.
      + destruct (held_put u i _ (Alive TDone) Ht) as (a & c & E1 & ->). cbn [holds own app] in *. rewrite <- E1. apply Q.
      + eapply merge_keep; eauto; [apply Q|discriminate].
      + eapply boss_keep; eauto; discriminate.
      + eapply clean_keep; eauto. left. intros y -> Hy. cbn [strip]. eapply (step_finish m sm shade fuel (proj u)); eauto.
    - exfalso. pose proof (next_tile_spec m 1 1 r fm0 W0 (conj (le_n _) (le_n _)) (u_iter u) (v_iter _ Q)) as N. rewrite En in N.
      destruct (ti_rest (u_iter u)); destruct N as (it' & E & _); discriminate.
    - exfalso. rewrite (v_pi _ Q) in Hp. discriminate.
    - (* render *)
      assert (Hb : tile_of_sample_area fm0 b) by (eapply held_in; eauto; now left).
      destruct (v_shape _ Q) as (E1 & E2 & E3).
      assert (Tk : tile_ok fm0 ft).
      { apply (local_fits m sm shade r fuel fm0 s b s' ft log W0 Hb). now rewrite <- (render_local_same sm shade m fuel fm0 (u_film u)). }
      pose proof (loads_put u i _ (Alive (TMerge s' b ft)) Ht) as LP. cbn [load weight] in LP.
      split; [|split; [unfold fmeasure; rewrite togo_put; cbn [u_threads u_iter]; lia|cbn [u_threads]; apply set_nth_length]].
      constructor; cbn [u_iter u_iter_poisoned u_film u_film_poisoned u_threads u_taken u_merged]; auto; try apply Q.
      + destruct (held_put u i _ (Alive (TMerge s' b ft)) Ht) as (a & c & E4 & ->). cbn [holds own] in *. rewrite <- E4. apply Q.
      + eapply merge_keep; eauto; [apply Q|]. intros s1 b1 ft1 [= <- <- <-]. exact Tk.
      + intros Hd. eapply done_keep in Hd; eauto; [|discriminate]. now apply (v_done _ Q).
      + eapply boss_keep; eauto; discriminate.
      + eapply clean_keep; eauto. left. intros y -> Hy. cbn [strip]. eapply (step_render m sm shade fuel (proj u)); eauto.
    - (* the rendering panics *)
      pose proof (loads_put u i _ (Fallen [(i, b)]) Ht) as LP. cbn [load weight] in LP.
      split; [|split; [unfold fmeasure; rewrite togo_put; cbn [u_threads u_iter]; lia|cbn [u_threads]; apply set_nth_length]].
      constructor; cbn [u_iter u_iter_poisoned u_film u_film_poisoned u_threads u_taken u_merged]; auto; try apply Q.
      + destruct (held_put u i _ (Fallen [(i, b)]) Ht) as (a & c & E4 & ->). cbn [holds own] in *. rewrite <- E4. apply Q.
      + eapply merge_keep; eauto; [apply Q|discriminate].
      + intros Hd. eapply done_keep in Hd; eauto; [|discriminate]. now apply (v_done _ Q).
      + eapply boss_keep; eauto; discriminate.
      + eapply clean_keep; eauto.
    - (* merge *)
      assert (Tk : tile_ok fm0 ft) by (eapply (v_thr _ Q); eapply nth_error_In; eauto).
      destruct (v_shape _ Q) as (E1 & E2 & E3).
      destruct (merge_spec m r (u_film u) ft (v_ok _ Q)) as (fm' & E & W' & F1 & F2 & F3 & _).
      { eapply tile_ok_same; [..|exact Tk]; auto. }
      rewrite Em in E. injection E as <-.
      pose proof (loads_put u i _ (Alive (TNext s)) Ht) as LP. cbn [load weight] in LP.
      split; [|split; [unfold fmeasure; rewrite togo_put; cbn [u_threads u_iter]; lia|cbn [u_threads]; apply set_nth_length]].
      constructor; cbn [u_iter u_iter_poisoned u_film u_film_poisoned u_threads u_taken u_merged]; auto; try apply Q.
      + destruct (held_put u i _ (Alive (TNext s)) Ht) as (a & c & E4 & ->). cbn [holds own app] in *.
        eapply Permutation_trans; [apply Q|]. rewrite E4. cbn [app]. rewrite !app_assoc. symmetry. apply Permutation_middle.
      + repeat split; congruence.
      + eapply merge_keep; eauto; [apply Q|discriminate].
      + intros Hd. eapply done_keep in Hd; eauto; [|discriminate]. now apply (v_done _ Q).
      + eapply boss_keep; eauto; discriminate.
      + eapply clean_keep; eauto. left. intros y -> Hy. cbn [strip]. eapply (step_merge m sm shade fuel (proj u)); eauto.
    - exfalso. assert (Tk : tile_ok fm0 ft) by (eapply (v_thr _ Q); eapply nth_error_In; eauto).
      destruct (v_shape _ Q) as (E1 & E2 & E3).
      destruct (merge_spec m r (u_film u) ft (v_ok _ Q)) as (fm' & E & _).
      { eapply tile_ok_same; [..|exact Tk]; auto. }
      congruence.
    - exfalso. rewrite (v_pf _ Q) in Hp. discriminate.
    - (* join *)
      pose proof (v_boss _ Q) as B. unfold boss_ok in B. rewrite Hb in B. destruct B as (B1 & B2 & B3).
      assert (Hi : (i < length (u_threads u))%nat) by (apply nth_error_Some; congruence).
      split; [|split; [unfold fmeasure, togo; cbn [u_threads u_iter u_boss]; rewrite Hb; lia|reflexivity]].
      destruct Q. constructor; cbn [u_iter u_iter_poisoned u_film u_film_poisoned u_threads u_taken u_merged]; auto.
      unfold boss_ok. cbn [u_boss u_file u_threads]. split; [exact B1|]. split; [lia|]. intros j Hj.
      destruct (Nat.eq_dec j i) as [->|]; [exact Ht|]. apply B3. lia.
    - (* join a fallen thread *)
      pose proof (v_boss _ Q) as B. unfold boss_ok in B. rewrite Hb in B. destruct B as (B1 & B2 & B3).
      assert (Hi : (i < length (u_threads u))%nat) by (apply nth_error_Some; congruence).
      split; [|split; [unfold fmeasure, togo; cbn [u_threads u_iter u_boss]; rewrite Hb; lia|reflexivity]].
      destruct Q. constructor; cbn [u_iter u_iter_poisoned u_film u_film_poisoned u_threads u_taken u_merged]; auto.
      unfold boss_ok. cbn [u_boss u_file u_threads]. split; [exact B1|]. exists l. cbn [u_threads]. eapply nth_error_In; eauto.
    - (* write *)
      pose proof (v_boss _ Q) as B. unfold boss_ok in B. rewrite Hb in B. destruct B as (B1 & B2 & B3).
      split; [|split; [unfold fmeasure, togo; cbn [u_threads u_iter u_boss]; rewrite Hb; lia|reflexivity]].
      destruct Q. constructor; cbn [u_iter u_iter_poisoned u_film u_film_poisoned u_threads u_taken u_merged]; auto.
      unfold boss_ok. cbn [u_boss u_file u_threads u_film]. split; [now rewrite B1|]. intros t Hin.
      apply In_nth_error in Hin. destruct Hin as (j & Hj). assert (j < length (u_threads u))%nat by (apply nth_error_Some; congruence).
      rewrite B3 in Hj by auto. congruence.
    - exfalso. rewrite (v_pf _ Q) in Hp. discriminate.
  Qed.

  Lemma moves_inv k u0 u : finv u0 -> moves m sm shade fuel k u0 u ->
    finv u /\ (k + fmeasure u <= fmeasure u0)%nat /\ length (u_threads u) = length (u_threads u0).
  Proof.
    intros Q S. induction S as [u|k u u' u'' S IH S1].
    - split; auto.
    - destruct (IH Q) as (Q1 & M1 & L1). destruct (move_inv u' u'' Q1 S1) as (Q2 & M2 & L2).
      split; [auto|]. split; [lia|congruence].
  Qed.

  Definition samplers_ok (I : ST -> Prop) (u : run F ST) : Prop :=
    forall t s, In (Alive t) (u_threads u) -> sampler_of t = Some s -> I s.

  Lemma render_returns I u i s b : finv u -> returns m sm shade fuel I fm0 -> I s -> nth_error (u_threads u) i = Some (Alive (TRender s b)) ->
    match render_local m sm shade fuel (u_film u) s b with Ok (s', _, _) => I s' | Panic => True | Timeout => False end.
  Proof.
    intros Q Hret Is Ht. destruct (v_shape _ Q) as (E1 & E2 & E3). rewrite (render_local_same sm shade m fuel fm0) by auto.
    eapply Hret; [apply tile_items_ok; now apply (sample_bbox_tileable r)| |exact Is].
    eapply held_listed; [exact Q|exact Ht|]. now left.
  Qed.

  Lemma samplers_kept I u u' : returns m sm shade fuel I fm0 -> finv u -> samplers_ok I u -> move m sm shade fuel u u' -> samplers_ok I u'.
  Proof.
    intros Hret Q H S.
    assert (K : forall i t, (forall t' s, t = Alive t' -> sampler_of t' = Some s -> I s) -> forall t' s, In (Alive t') (put u i t) -> sampler_of t' = Some s -> I s).
    { intros i t Ht t' s Hin. unfold put in Hin. unfold samplers_ok in H. revert H Hin. generalize (u_threads u) as ts. intros ts. revert i. induction ts as [|x ts IHt]; intros [|i] H Hin; cbn in Hin; try contradiction.
      - destruct Hin as [Hl|Hl]; [now apply Ht|]. apply H. now right.
      - destruct Hin as [Hl|Hl]; [apply H; now left|]. eapply IHt; [|exact Hl]. intros t0 s0 H0; apply H; now right. }
    destruct S; unfold samplers_ok; cbn [u_threads]; try exact H; apply K; intros t' s0 E; inversion E; subst; cbn [sampler_of]; intros [= <-].
    - eapply H; [eapply nth_error_In; eauto|reflexivity].
    - assert (Is : I s) by (eapply H; [eapply nth_error_In; eauto|reflexivity]).
      match goal with Hn : nth_error _ i = Some _, Hr : render_local _ _ _ _ _ _ _ = Ok _ |- _ => pose proof (render_returns I _ _ _ _ Q Hret Is Hn) as X; rewrite Hr in X; exact X end.
    - eapply H; [eapply nth_error_In; eauto|reflexivity].
  Qed.

  Lemma worker_moves I u i t : finv u -> returns m sm shade fuel I fm0 -> samplers_ok I u -> nth_error (u_threads u) i = Some (Alive t) -> t <> TDone ->
    exists u', move m sm shade fuel u u'.
  Proof.
    intros Q Hret HI Ht Hd.
    destruct t as [s|s b|s b ft|]; [| | |congruence].
    - pose proof (next_tile_spec m 1 1 r fm0 W0 (conj (le_n _) (le_n _)) (u_iter u) (v_iter _ Q)) as N.
      destruct (ti_rest (u_iter u)) as [|p l]; destruct N as (it & E & _); eexists.
      + eapply mv_finish; eauto. apply Q.
      + eapply mv_take; eauto. apply Q.
    - assert (Is : I s) by (eapply HI; [eapply nth_error_In; eauto|reflexivity]).
      pose proof (render_returns I u i s b Q Hret Is Ht) as X.
      destruct (render_local m sm shade fuel (u_film u) s b) as [[[s' ft] log]| |] eqn:E; [..|destruct X].
      + eexists. eapply mv_render; eauto.
      + eexists. eapply mv_render_panics; eauto.
    - assert (Tk : tile_ok fm0 ft) by (eapply (v_thr _ Q); eapply nth_error_In; eauto).
      destruct (v_shape _ Q) as (E1 & E2 & E3).
      destruct (merge_spec m r (u_film u) ft (v_ok _ Q)) as (fm' & E & _).
      { eapply tile_ok_same; [..|exact Tk]; auto. }
      eexists. eapply mv_merge; eauto. apply Q.
  Qed.

  Lemma boss_moves I u i : finv u -> returns m sm shade fuel I fm0 -> samplers_ok I u -> u_boss u = Joining i -> exists u', move m sm shade fuel u u'.
  Proof.
    intros Q Hret HI Hb. pose proof (v_boss _ Q) as B. unfold boss_ok in B. rewrite Hb in B. destruct B as (_ & B2 & _).
    destruct (nth_error (u_threads u) i) as [[t|l]|] eqn:E.
    - destruct t; try (eapply worker_moves; eauto; discriminate). eexists. eapply mv_join; eauto.
    - eexists. eapply mv_join_panics; eauto.
    - apply nth_error_None in E. assert (i = length (u_threads u)) by lia. subst. eexists. eapply mv_write; eauto. apply Q.
  Qed.

  Lemma held_over u k : (forall t, In t (u_threads u) -> t = Alive TDone \/ exists l, t = Fallen l) -> held k (u_threads u) = lost u.
  Proof.
    unfold lost. generalize (u_threads u) as ts. intros ts. revert k. induction ts as [|t ts IH]; intros k H; [reflexivity|]. cbn [held flat_map].
    rewrite IH by (intros; apply H; now right). destruct (H t (or_introl eq_refl)) as [->|(l & ->)]; reflexivity.
  Qed.
End R.

Lemma start_run_inv {F} {FO : FOps F} {FL : FLaws F} {ST} m sm shade fuel r fm (s : ST) k old u0 : film_ok r fm -> start_run m fm s k old = Ok u0 ->
  exists y0, start_sys m fm s k = Ok y0 /\ finv m sm shade fuel r fm old y0 u0 /\
    fmeasure u0 = (3 * length (tile_list (film_sample_bbox fm)) + 2 * k + 1)%nat /\ length (u_threads u0) = k.
Proof.
  intros W. unfold start_run, start_sys. pose proof (sample_bbox_tileable r fm W) as Hbb.
  destruct (tile_iter_new_ok m _ Hbb) as (it & -> & Hi & H0). cbn [rbind]. intros [= <-]. eexists. split; [reflexivity|].
  assert (N : forall t : life F ST, In t (repeat (Alive (TNext s)) k) -> t = Alive (TNext s)) by (intros t Ht; now apply repeat_spec in Ht).
  split; [|split].
  - constructor; cbn [u_iter u_iter_poisoned u_film u_film_poisoned u_threads u_taken u_merged]; auto.
    + cbn [rev map app]. unfold tile_list. now rewrite (ti_rest_new _ it Hi H0).
    + cbn [app]. clear. generalize O. induction k as [|k IH]; intros j; cbn [repeat held holds own app]; auto.
    + repeat split; auto.
    + intros s1 b ft H. apply N in H. discriminate.
    + intros H. apply N in H. discriminate.
    + unfold boss_ok. cbn [u_boss u_file u_threads]. split; [reflexivity|]. split; [lia|]. intros j Hj. lia.
    + intros _. exists O. unfold proj. cbn [u_iter u_film u_threads u_taken u_merged]. assert (Hm : map strip (repeat (Alive (TNext s)) k) = repeat (TNext (F:=F) s) k) by (clear; induction k as [|k IH]; cbn; [reflexivity|]; now rewrite IH). rewrite Hm. apply steps_0.
  - unfold fmeasure, togo. cbn [u_iter u_threads u_boss]. rewrite repeat_length, (ti_rest_new _ it Hi H0). unfold tile_list. rewrite map_length.
    assert (L : loads (repeat (Alive (TNext s)) k) = k) by (clear N; induction k as [|k IH]; cbn [repeat]; [reflexivity|]; etransitivity; [apply (loads_mid (F:=F) (ST:=ST) [])|]; cbn [app load weight]; rewrite IH; reflexivity). rewrite L. lia.
  - apply repeat_length.
Qed.

(** Whatever the sampler and the shading code do: as long as the main thread has not finished, and for good if any
    thread has failed, the file holds what it held before; once the picture is written, no thread has failed, the
    threads have run as in a render without failures (so all that is shown about those holds), every tile was merged
    exactly once if there was a thread at all, and the picture is that of the finished film. *)
Theorem C113_all_or_nothing : forall F (FO : FOps F) (FL : FLaws F) ST m sm shade fuel res flt fm (s : ST) k old u0 j u,
  film_args res flt -> film_new m res flt = Ok fm -> start_run m fm s k old = Ok u0 -> moves m sm shade fuel j u0 u ->
  (u_boss u <> Written -> u_file u = old) /\
  (somebody_fell u -> u_boss u <> Written) /\
  (u_boss u = Failed -> somebody_fell u) /\
  (u_boss u = Written -> u_file u = file_after_render old (u_film u) /\
     exists y0 j' y tiles, start_sys m fm s k = Ok y0 /\ steps m sm shade fuel j' y0 y /\ all_done y /\
       y_film y = u_film u /\ y_merged y = u_merged u /\ tile_items m (film_sample_bbox fm) = Ok tiles /\
       ((1 <= k)%nat -> Permutation (map snd (u_merged u)) tiles)).
Proof.
  intros F FO FL ST m sm shade fuel res flt fm s k old u0 j u Ha En E0 Mv.
  destruct (film_args_ok m res flt Ha) as (fm' & r & E' & W & _). rewrite En in E'. injection E' as <-.
  destruct (start_run_inv m sm shade fuel r fm s k old u0 W E0) as (y0 & Ey & Q0 & _ & L0).
  destruct (moves_inv m sm shade fuel r fm old y0 W j u0 u Q0 Mv) as (Q & _ & L).
  pose proof (v_boss _ _ _ _ _ _ _ _ _ Q) as B. unfold boss_ok in B.
  assert (Over : u_boss u = Written -> forall t, In t (u_threads u) -> t = Alive TDone) by (intros Hw; rewrite Hw in B; apply B).
  split; [|split; [|split]].
  - destruct (u_boss u); [intros _; apply B|congruence|intros _; apply B].
  - intros (l & Hl) Hw. apply Over in Hl; [discriminate|exact Hw].
  - intros Hf. rewrite Hf in B. apply B.
  - intros Hw. specialize (Over Hw). rewrite Hw in B. split; [apply B|].
    destruct (v_clean _ _ _ _ _ _ _ _ _ Q) as (j' & Hj'). { intros (l & Hl). apply Over in Hl. discriminate. }
    exists y0, j', (proj u), (tile_list (film_sample_bbox fm)). split; [exact Ey|]. split; [exact Hj'|]. split.
    { intros t Ht. unfold proj in Ht. cbn [y_threads] in Ht. apply in_map_iff in Ht. destruct Ht as (x & <- & Hx). apply Over in Hx. subst x. reflexivity. }
    split; [reflexivity|]. split; [reflexivity|]. split; [apply tile_items_ok; now apply (sample_bbox_tileable r)|]. intros Hk.
    rewrite (v_tiles _ _ _ _ _ _ _ _ _ Q), (v_done _ _ _ _ _ _ _ _ _ Q).
    + cbn [map]. rewrite app_nil_r. apply Permutation_map. eapply Permutation_trans; [|apply Permutation_rev].
      apply Permutation_sym. pose proof (v_perm _ _ _ _ _ _ _ _ _ Q) as P. rewrite held_over in P by (intros; left; auto).
      assert (Z : lost u = []). { unfold lost. revert Over. clear. generalize (u_threads u) as ts. induction ts as [|t ts IH]; intros H; [reflexivity|]. cbn [flat_map]. rewrite (H t) by now left. cbn [app]. apply IH. intros; apply H; now right. }
      rewrite Z, app_nil_r in P. exact P.
    + destruct (u_threads u) as [|t ts]; [cbn in L; lia|]. left. apply Over. now left.
Qed.
Print Assumptions C113_all_or_nothing.

(** No failure of a thread blocks the render: if the rendering of a tile always comes back, well or by a panic,
    then as long as the main thread has neither written nor failed something can move, nothing goes on for ever, and
    every run can be brought to its end. *)
Theorem C113_ends : forall F (FO : FOps F) (FL : FLaws F) ST m sm shade fuel (I : ST -> Prop) res flt fm s k old,
  film_args res flt -> film_new m res flt = Ok fm -> returns m sm shade fuel I fm -> I s ->
  exists u0 tiles, start_run m fm s k old = Ok u0 /\ tile_items m (film_sample_bbox fm) = Ok tiles /\
    forall j u, moves m sm shade fuel j u0 u -> (j <= 3 * length tiles + 2 * k + 1)%nat /\
      (u_boss u = Written \/ u_boss u = Failed \/ exists u', move m sm shade fuel u u') /\
      exists j' u', moves m sm shade fuel j' u u' /\ (u_boss u' = Written \/ u_boss u' = Failed).
Proof.
  intros F FO FL ST m sm shade fuel I res flt fm s k old Ha En Hret Is.
  destruct (film_args_ok m res flt Ha) as (fm' & r & E' & W & _). rewrite En in E'. injection E' as <-.
  pose proof (sample_bbox_tileable r fm W) as Hbb.
  destruct (tile_iter_new_ok m _ Hbb) as (it & Eit & _).
  assert (E0 : exists u0, start_run m fm s k old = Ok u0) by (unfold start_run; rewrite Eit; cbn [rbind]; eauto).
  destruct E0 as (u0 & E0). exists u0, (tile_list (film_sample_bbox fm)). split; [exact E0|]. split; [now apply tile_items_ok|].
  destruct (start_run_inv m sm shade fuel r fm s k old u0 W E0) as (y0 & Ey & Q0 & M0 & L0).
  assert (S0 : samplers_ok I u0).
  { revert E0. unfold start_run. rewrite Eit. cbn [rbind]. intros [= <-] t s1. cbn [u_threads]. intros Ht. apply repeat_spec in Ht. injection Ht as ->. intros [= <-]. exact Is. }
  assert (Inv : forall j u, moves m sm shade fuel j u0 u -> finv m sm shade fuel r fm old y0 u /\ samplers_ok I u).
  { intros j u Mv. split; [now apply (moves_inv m sm shade fuel r fm old y0 W j u0 u Q0 Mv)|].
    remember u0 as v eqn:Ev in Mv. induction Mv as [v|j v u u' Mv IH S]; subst; [exact S0|].
    eapply samplers_kept; [exact W|exact Hret| |now apply IH|exact S]. now apply (moves_inv m sm shade fuel r fm old y0 W j u0 u Q0 Mv). }
  assert (Go : forall j u, moves m sm shade fuel j u0 u -> u_boss u = Written \/ u_boss u = Failed \/ exists u', move m sm shade fuel u u').
  { intros j u Mv. destruct (Inv j u Mv) as [Q HI].
    destruct (u_boss u) as [i| |] eqn:Eb; auto. right. right. eapply boss_moves; eauto. }
  intros j u Mv. destruct (moves_inv m sm shade fuel r fm old y0 W j u0 u Q0 Mv) as (_ & M & _).
  split; [lia|]. split; [now apply (Go j)|].
  assert (Cons : forall j0 (a b c : run F ST), move m sm shade fuel a b -> moves m sm shade fuel j0 b c -> moves m sm shade fuel (S j0) a c).
  { intros j0 a b c S Mv'. induction Mv' as [b|j0 b c d Mv' IH S']; [eapply moves_S; [apply moves_0|exact S]|]. eapply moves_S; [now apply IH|exact S']. }
  remember (fmeasure u0 - j)%nat as d eqn:Ed. revert j u Mv M Ed. induction d as [d IH] using lt_wf_ind. intros j u Mv M Ed.
  destruct (Go j u Mv) as [H|[H|(u' & H)]]; [exists O, u; split; [apply moves_0|auto]..|].
  assert (Mv' : moves m sm shade fuel (S j) u0 u') by (eapply moves_S; eauto).
  destruct (moves_inv m sm shade fuel r fm old y0 W _ _ _ Q0 Mv') as (_ & M' & _).
  destruct (IH (fmeasure u0 - S j)%nat ltac:(lia) (S j) u' Mv' M' eq_refl) as (j' & u'' & H1 & H2).
  exists (S j'), u''. split; [eapply Cons; eauto|auto].
Qed.
Print Assumptions C113_ends.

(** The Halton sampler with shading code that may panic at any time is of that kind. *)
Section Calm.
  Context {F} {FO : FOps F} {ST : Type}.
  Variable (m : build) (sm : sampler_ops F ST) (shade : ST -> P2 F -> res (V3 F * ST)).
  Definition calm (s : ST) (p : P2 F) : res (V3 F * ST) :=
    match shade s p with Panic => Ok (mkV3 f0 f0 f0, s) | x => x end.

  Lemma calm_pixel fuel : forall p s ft log,
    pixel_loop m sm shade fuel p s ft log = Panic \/ pixel_loop m sm shade fuel p s ft log = pixel_loop m sm calm fuel p s ft log.
  Proof.
    induction fuel as [|fuel IH]; intros p s ft log; cbn [pixel_loop]; auto.
    destruct (get_camera_sample sm s p) as [[pf s1]| |]; cbn [rbind]; auto.
    unfold calm at 1. destruct (shade s1 pf) as [[l s2]| |] eqn:E; cbn [rbind]; auto.
    destruct (if valid_radiance l then _ else _) as [ft1| |]; cbn [rbind]; auto.
    destruct (sm_next_sample sm s2) as [[more s3]| |]; cbn [rbind]; auto. destruct more; auto.
  Qed.

  Lemma calm_local fuel fm s b :
    render_local m sm shade fuel fm s b = Panic \/ render_local m sm shade fuel fm s b = render_local m sm calm fuel fm s b.
  Proof.
    unfold render_local. destruct (get_film_tile m fm b) as [ft| |]; cbn [rbind]; auto.
    destruct (bbox2_items m b) as [ps| |]; cbn [rbind]; auto. unfold pixels_loop. generalize (@nil (@shot F)) as log. revert s ft.
    induction ps as [|p ps IH]; intros s ft log; cbn [rfold]; auto.
    destruct (sm_start_pixel sm s p) as [s1| |]; cbn [rbind]; auto.
    destruct (calm_pixel fuel p s1 ft log) as [->| ->]; cbn [rbind]; auto.
    destruct (pixel_loop m sm calm fuel p s1 ft log) as [[[s2 ft2] log2]| |]; cbn [rbind]; auto.
  Qed.
End Calm.

Theorem C113_halton : forall F (FO : FOps F) (FL : FLaws F) m shade res flt fm spp b w h s0 k old,
  film_args res flt -> film_new m res flt = Ok fm -> area b w h -> halton_new m spp b = Ok s0 -> 0 <= spp < 2 ^ 32 ->
  m = Release \/ (spp + 1) * 31104 < 2 ^ 31 -> halton_may_panic (F := F) m s0 shade ->
  exists u0 tiles, start_run m fm s0 k old = Ok u0 /\ tile_items m (film_sample_bbox fm) = Ok tiles /\
    forall j u, moves m (halton_ops m) shade (samples spp) j u0 u -> (j <= 3 * length tiles + 2 * k + 1)%nat /\
      (u_boss u = Written \/ u_boss u = Failed \/ exists u', move m (halton_ops m) shade (samples spp) u u') /\
      exists j' u', moves m (halton_ops m) shade (samples spp) j' u u' /\ (u_boss u' = Written \/ u_boss u' = Failed).
Proof.
  intros F FO FL m shade res flt fm spp b w h s0 k old Ha En Hb Eh Hs Hm Hsh.
  assert (Hc : halton_shade (F := F) m s0 (calm shade)).
  { intros s p H1 H2 H3. unfold calm. destruct (Hsh s p H1 H2 H3) as [E|(l & s' & E & D)]; rewrite E; eauto.
    eexists _, s. split; [reflexivity|]. apply draws_refl. }
  destruct (halton_serves_new m spp b w h s0 (calm shade) Hb Eh Hs Hm Hc) as (I & A & B & left & V & Is & _).
  apply (C113_ends F FO FL halton m (halton_ops m) shade (samples spp) I res flt fm s0 k old Ha En); [|exact Is].
  destruct (film_args_ok m res flt Ha) as (fm' & r & E' & W & _). rewrite En in E'. injection E' as <-.
  intros tiles s t Et Ht Hi. rewrite tile_items_ok in Et by now apply (sample_bbox_tileable r). injection Et as <-.
  destruct (calm_local m (halton_ops m) shade (samples spp) fm s t) as [E|E]; rewrite E; [exact Logic.I|].
  destruct (render_local_ok (halton_ops m) (calm shade) m r fm t I A B left (samples spp) (samples spp) s V W) as (s' & ft & shots & ft0 & ps & E1 & I1 & _); auto.
  - now apply (tile_in_area r fm W).
  - unfold samples. lia.
  - rewrite E1. exact I1.
Qed.
Print Assumptions C113_halton.

(** A failing thread takes down its own tile only: no lock is ever poisoned, and when all threads are through and
    one has left its loop in the ordinary way, every tile was merged once or was in the hands of a thread that
    failed, at most one in each. *)
Theorem C113_others_go_on : forall F (FO : FOps F) (FL : FLaws F) ST m sm shade fuel res flt fm (s : ST) k old u0 j u,
  film_args res flt -> film_new m res flt = Ok fm -> start_run m fm s k old = Ok u0 -> moves m sm shade fuel j u0 u ->
  u_iter_poisoned u = false /\ u_film_poisoned u = false /\
  (all_over u -> In (Alive TDone) (u_threads u) -> exists tiles, tile_items m (film_sample_bbox fm) = Ok tiles /\
     Permutation (map snd (u_merged u ++ lost u)) tiles /\
     (length (lost u) <= length (List.filter (fun t => match t with Fallen _ => true | Alive _ => false end) (u_threads u)))%nat).
Proof.
  intros F FO FL ST m sm shade fuel res flt fm s k old u0 j u Ha En E0 Mv.
  destruct (film_args_ok m res flt Ha) as (fm' & r & E' & W & _). rewrite En in E'. injection E' as <-.
  destruct (start_run_inv m sm shade fuel r fm s k old u0 W E0) as (y0 & Ey & Q0 & _ & L0).
  destruct (moves_inv m sm shade fuel r fm old y0 W j u0 u Q0 Mv) as (Q & _ & L).
  split; [apply Q|]. split; [apply Q|]. intros Ov Hd. exists (tile_list (film_sample_bbox fm)).
  split; [apply tile_items_ok; now apply (sample_bbox_tileable r)|]. split.
  - rewrite (v_tiles _ _ _ _ _ _ _ _ _ Q), (v_done _ _ _ _ _ _ _ _ _ Q) by exact Hd.
    cbn [map]. rewrite app_nil_r. apply Permutation_map. eapply Permutation_trans; [|apply Permutation_rev].
    apply Permutation_sym. pose proof (v_perm _ _ _ _ _ _ _ _ _ Q) as P. now rewrite held_over in P.
  - assert (One : forall l, In (Fallen l) (u_threads u) -> (length l <= 1)%nat).
    { assert (S1 : forall l, In (Fallen l) (u_threads u0) -> (length l <= 1)%nat).
      { revert E0. unfold start_run. destruct (tile_iter_new m _); cbn [rbind]; try discriminate. intros [= <-]. cbn [u_threads]. intros l Hl. apply repeat_spec in Hl. discriminate. }
      revert S1. clear - Mv. intros S1. induction Mv as [u|j u0 u u' Mv IH S]; [exact S1|]. specialize (IH S1). clear - IH S.
      assert (K : forall i t, (forall l, t = Fallen l -> (length l <= 1)%nat) -> forall l, In (Fallen l) (put u i t) -> (length l <= 1)%nat).
      { intros i t Ht l Hl. unfold put in Hl. revert IH Hl. generalize (u_threads u) as ts. intros ts. revert i. induction ts as [|x ts IHt]; intros [|i] IH Hl; cbn in Hl; try contradiction.
        - destruct Hl as [Hl|Hl]; [now apply Ht|]. apply IH. now right.
        - destruct Hl as [Hl|Hl]; [apply IH; now left|]. eapply IHt; [|exact Hl]. intros; apply IH; now right. }
      destruct S; cbn [u_threads]; try exact IH; apply K; intros l0 E; inversion E; subst; cbn; lia. }
    unfold lost. revert One. clear. generalize (u_threads u) as ts. induction ts as [|t ts IH]; intros One; [reflexivity|]. cbn [flat_map List.filter].
    rewrite app_length. assert (IH' := IH (fun l Hl => One l (or_intror Hl))). destruct t as [t|l]; cbn [length]; [exact IH'|].
    specialize (One l (or_introl eq_refl)). lia.
Qed.
Print Assumptions C113_others_go_on.

(** A film of one pixel; a sampler that gives one sample for each pixel; shading code that panics. *)
Definition small_flt (L : Libm b32) : filter b32 := mkFilter (F := b32) f1 (fun _ => f1).
Definition one_sample (L : Libm b32) : sampler_ops b32 unit :=
  mkSampler (fun s _ => Ok s) (fun s => Ok (false, s)) (fun s => Ok (f0, s)) (fun s => Ok (mkP2 f0 f0, s)).
Definition bad_shade (s : unit) (p : P2 b32) : res (V3 b32 * unit) := Panic.

Lemma small_film (L : Libm b32) : film_args (mkP2 1 1) (small_flt L) /\
  exists fm, film_new Release (mkP2 1 1) (small_flt L) = Ok fm /\ film_sample_bbox fm = mkB2 (mkP2 (-1) (-1)) (mkP2 2 2).
Proof.
  assert (Ha : film_args (mkP2 1 1) (small_flt L)).
  { unfold film_args. cbn [px py]. do 3 (split; [lia|]). split; vm_compute; reflexivity. }
  split; [exact Ha|]. destruct (film_args_ok Release _ _ Ha) as (fm & r & En & _). exists fm. split; [exact En|].
  assert (E2 : (let! f := film_new Release (mkP2 1 1) (small_flt L) in Ok (film_sample_bbox f)) = Ok (mkB2 (mkP2 (-1) (-1)) (mkP2 2 2)))
    by (vm_compute; reflexivity). rewrite En in E2. exact (Ok_inj _ _ E2).
Qed.

(** With no threads at all ([render(0)]; [max_threads] is a [u8]) a picture is written though no tile was rendered:
    that there is a thread cannot be left out of [C113_all_or_nothing]. *)
Theorem C113_no_threads_refuted : forall L : Libm b32, exists res flt fm u0 u tiles,
  film_args res flt /\ film_new Release res flt = Ok fm /\ start_run Release fm tt 0 [] = Ok u0 /\
  moves Release (one_sample L) bad_shade 1 1 u0 u /\ u_boss u = Written /\ u_file u = write_image_ppm fm /\ u_merged u = [] /\
  tile_items Release (film_sample_bbox fm) = Ok tiles /\ tiles <> [].
Proof.
  intros L. destruct (small_film L) as (Ha & fm & En & Eb).
  exists (mkP2 1 1), (small_flt L), fm.
  assert (Et : tile_items Release (film_sample_bbox fm) = Ok [mkB2 (mkP2 (-1) (-1)) (mkP2 2 2)]) by (rewrite Eb; vm_compute; reflexivity).
  destruct (film_args_ok Release _ _ Ha) as (fm' & r & E' & W & _). rewrite En in E'. injection E' as <-.
  destruct (tile_iter_new_ok Release _ (sample_bbox_tileable r fm W)) as (it & Eit & _). unfold start_run. rewrite Eit. cbn [rbind].
  do 3 eexists. split; [exact Ha|]. split; [exact En|]. split; [reflexivity|]. split; [eapply moves_S; [apply moves_0|]; apply mv_write; reflexivity|].
  cbn [u_boss u_file u_merged u_film]. split; [reflexivity|]. split; [unfold file_after_render, write_at_start; now rewrite skipn_nil, app_nil_r|].
  split; [reflexivity|]. split; [exact Et|]. discriminate.
Qed.
Print Assumptions C113_no_threads_refuted.

(** Two threads on one tile: the first takes it and falls, the second finds nothing more and leaves in order, the main
    thread panics on joining the first, and the file is as it was. *)
Example C113_example : forall (L : Libm b32) old, exists fm u0 u,
  film_args (mkP2 1 1) (small_flt L) /\ film_new Release (mkP2 1 1) (small_flt L) = Ok fm /\
  returns Release (one_sample L) bad_shade 1 (fun _ => True) fm /\ start_run Release fm tt 2 old = Ok u0 /\
  moves Release (one_sample L) bad_shade 1 4 u0 u /\
  u_boss u = Failed /\ u_file u = old /\ all_over u /\ In (Alive TDone) (u_threads u) /\ u_merged u = [] /\
  lost u = [(O, mkB2 (mkP2 (-1) (-1)) (mkP2 2 2))].
Proof.
  intros L old. destruct (small_film L) as (Ha & fm & En & Eb).
  destruct (film_args_ok Release _ _ Ha) as (fm' & r & E' & W & _). rewrite En in E'. injection E' as <-.
  set (b0 := mkB2 (mkP2 (-1) (-1)) (mkP2 2 2)) in *.
  assert (It : exists it it1 it2, tile_iter_new Release (film_sample_bbox fm) = Ok it /\
     next_tile Release it = Ok (Some b0, it1) /\ next_tile Release it1 = Ok (None, it2)).
  { rewrite Eb. exists (mkTI b0 (mkP2 1 1) (mkP2 0 0)), (mkTI b0 (mkP2 1 1) (mkP2 1 0)), (mkTI b0 (mkP2 1 1) (mkP2 0 1)). unfold b0. split; [|split]; vm_compute; reflexivity. }
  destruct It as (it & it1 & it2 & E0 & E1 & E2).
  assert (P : render_local Release (one_sample L) bad_shade 1 fm tt b0 = Panic).
  { unfold render_local. destruct (get_film_tile_ok Release r fm b0 W) as (ft0 & -> & _).
    { apply (tile_in_area r fm W). rewrite Eb. vm_compute. auto. }
    reflexivity. }
  assert (Ren : returns Release (one_sample L) bad_shade 1 (fun _ => True) fm).
  { intros tiles [] b Et Hb _. rewrite Eb in Et. vm_compute in Et. injection Et as <-. destruct Hb as [<-|[]]. fold b0. rewrite P. exact I. }
  exists fm. unfold start_run. rewrite E0. cbn [rbind].
  do 2 eexists. split; [exact Ha|]. split; [exact En|]. split; [exact Ren|]. split; [reflexivity|]. split.
  { eapply moves_S; [eapply moves_S; [eapply moves_S; [eapply moves_S; [apply moves_0|]|]|]|].
    - eapply (mv_take _ _ _ _ _ O); [reflexivity|reflexivity|exact E1].
    - eapply (mv_finish _ _ _ _ _ 1%nat); [reflexivity|reflexivity|exact E2].
    - eapply (mv_render_panics _ _ _ _ _ O); [reflexivity|exact P].
    - eapply (mv_join_panics _ _ _ _ _ O); reflexivity. }
  cbn. do 2 (split; [reflexivity|]). split; [|auto].
  intros t [<-|[<-|[]]]; eauto.
Qed.
