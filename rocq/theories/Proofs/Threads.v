(** * The render threads: invariant over all schedules *)
From Coq Require Import ZArith Reals List Bool Lia Permutation.
From Verif Require Import Model.Num Model.NumX Model.Vector Model.BBox Model.Film Model.Sampler Model.Render.
From Verif Require Import Spec.Grid Spec.FilmSpec Spec.SamplerSpec Spec.RenderSpec.
From Verif Require Import Proofs.XBase Proofs.FLaws Proofs.Iter Proofs.Tiles Proofs.FilmGrid Proofs.FilmOps Proofs.FilmJobs Proofs.RenderLocal.
Import ListNotations.
Local Open Scope Z_scope.

Lemma set_nth_split {A} (l : list A) i a x : nth_error l i = Some a ->
  exists l1 l2, l = l1 ++ a :: l2 /\ set_nth l i x = l1 ++ x :: l2 /\ length l1 = i.
Proof.
  revert i. induction l as [|b l IH]; intros [|i] H; cbn in *; try discriminate.
  - injection H as ->. exists [], l. auto.
  - destruct (IH i H) as (l1 & l2 & -> & E & L). exists (b :: l1), l2. cbn. rewrite E, L. auto.
Qed.

Section T.
  Context {F} {FO : FOps F} {FL : FLaws F} {ST : Type}.
  Variable (m : build) (sm : sampler_ops F ST) (shade : ST -> P2 F -> res (V3 F * ST)) (fuel : nat).
  Variables (I A B : ST -> Prop) (left : ST -> nat) (n : nat) (r : R) (fm0 : film F).
  Hypothesis V : serves sm shade I A B left n.
  Hypothesis W0 : film_ok r fm0.
  Hypothesis Hn : (1 <= n <= fuel)%nat.

  Let bb := film_sample_bbox fm0.
  Let Hbb : tileable bb := sample_bbox_tileable r fm0 W0.

  Definition own (i : nat) (t : thread F ST) : list (nat * bbox2) :=
    match t with TRender _ b => [(i, b)] | TMerge _ b _ => [(i, b)] | _ => [] end.
  Fixpoint inflight (k : nat) (ts : list (thread F ST)) : list (nat * bbox2) :=
    match ts with [] => [] | t :: ts => own k t ++ inflight (S k) ts end.

  Lemma inflight_app k l1 l2 : inflight k (l1 ++ l2) = inflight k l1 ++ inflight (k + length l1) l2.
  Proof.
    revert k. induction l1 as [|t l1 IH]; intros k; cbn [app inflight length].
    - now rewrite Nat.add_0_r.
    - rewrite IH, app_assoc. do 2 f_equal. lia.
  Qed.

  Definition weight (t : thread F ST) : nat :=
    match t with TNext _ => 1 | TRender _ _ => 3 | TMerge _ _ _ => 2 | TDone => 0 end.
  Definition weights (ts : list (thread F ST)) : nat := list_sum (map weight ts).
  Definition measure (y : sys F ST) : nat := 3 * length (ti_rest (y_iter y)) + weights (y_threads y).

  Lemma weights_mid l1 t l2 : weights (l1 ++ t :: l2) = (weight t + weights (l1 ++ l2))%nat.
  Proof. unfold weights. rewrite !map_app, !list_sum_app. cbn [map]. change (list_sum (weight t :: map weight l2)) with (weight t + list_sum (map weight l2))%nat. lia. Qed.

  (** The samples [l] are what rendering tile [b] from some sampler state splats. *)
  Definition produced (b : bbox2) (l : list (P2 F * V3 F)) : Prop :=
    exists s s' ft shots ps, I s /\ render_local m sm shade fuel fm0 s b = Ok (s', ft, rev shots) /\
      enumerates b ps /\ shots_per_pixel n ps shots /\ Forall shot_in_pixel shots /\ l = valid_shots shots.

  Definition thread_ok (t : thread F ST) : Prop :=
    match t with
    | TNext s => I s
    | TRender s b => I s
    | TMerge s b ft => I s /\ tile_ok fm0 ft /\ exists ft0 l, produced b l /\ get_film_tile m fm0 b = Ok ft0 /\ add_all m l ft0 = Ok ft
    | TDone => True
    end.

  Definition same_shape (fm : film F) : Prop :=
    fm_res fm = fm_res fm0 /\ fm_radius fm = fm_radius fm0 /\ fm_table fm = fm_table fm0.

  Record sinv (y : sys F ST) (js : list (job F)) : Prop := {
    si_iter : ti_inv bb (y_iter y);
    si_tiles : tile_list bb = map snd (rev (y_taken y)) ++ map (tile_at bb) (ti_rest (y_iter y));
    si_perm : Permutation (y_taken y) (y_merged y ++ inflight 0 (y_threads y));
    si_ok : film_ok r (y_film y);
    si_shape : same_shape (y_film y);
    si_film : rfold (run_job m) js fm0 = Ok (y_film y);
    si_jobs : map fst js = map snd (rev (y_merged y));
    si_prod : forall j, In j js -> produced (fst j) (snd j);
    si_thr : forall t, In t (y_threads y) -> thread_ok t;
    si_done : In TDone (y_threads y) -> ti_rest (y_iter y) = [] }.

  Lemma next_tile_spec it : ti_inv bb it ->
    match ti_rest it with
    | [] => exists it', next_tile m it = Ok (None, it') /\ ti_inv bb it' /\ ti_rest it' = []
    | p :: l => exists it', next_tile m it = Ok (Some (tile_at bb p), it') /\ ti_inv bb it' /\ ti_rest it' = l
    end.
  Proof.
    intros H. pose proof (tile_next_spec m (S (S (Z.to_nat (py (ti_n it) - py (ti_i it))))) bb it Hbb H ltac:(lia)) as S.
    unfold next_tile. destruct (ti_rest it); auto. destruct S as (it' & E & H1 & H2 & _). eauto.
  Qed.

  Lemma tile_in_area t : In t (tile_list bb) -> tile_of_sample_area fm0 t.
  Proof. intros H. now apply (proj1 (tile_list_partitions bb Hbb)). Qed.

  Lemma taken_in_area y js i b : sinv y js -> In (i, b) (y_taken y) -> tile_of_sample_area fm0 b.
  Proof.
    intros Q H. apply tile_in_area. rewrite (si_tiles _ _ Q). apply in_or_app. left.
    apply in_map_iff. exists (i, b). split; auto. now apply in_rev in H.
  Qed.

  Lemma inflight_in y js i b t : sinv y js -> nth_error (y_threads y) i = Some t -> In (i, b) (own i t) ->
    tile_of_sample_area fm0 b.
  Proof.
    intros Q Ht Ho. apply (taken_in_area y js i b Q).
    eapply Permutation_in; [apply Permutation_sym, (si_perm _ _ Q)|]. apply in_or_app. right.
    destruct (set_nth_split _ i t t Ht) as (l1 & l2 & E & _ & L). rewrite E, inflight_app.
    apply in_or_app. right. cbn [inflight]. apply in_or_app. left. now rewrite L.
  Qed.

  (** Where thread [i] is, seen from the whole list *)
  Ltac split_threads Ht E' :=
    match type of Ht with nth_error ?l ?i = Some ?t =>
      match goal with |- context [set_nth l i ?x] =>
        let l1 := fresh "l1" in let l2 := fresh "l2" in let E := fresh "E" in let L := fresh "L" in
        destruct (set_nth_split l i t x Ht) as (l1 & l2 & E & E' & L) end end.

  Lemma start_inv s k y0 : I s -> start_sys m fm0 s k = Ok y0 -> sinv y0 [].
  Proof.
    intros Is. unfold start_sys. fold bb. destruct (tile_iter_new_ok m bb Hbb) as (it & -> & Hi & H0). cbn [rbind].
    intros [= <-]. constructor; cbn [y_iter y_film y_threads y_taken y_merged]; auto.
    - cbn [rev map app]. unfold tile_list. now rewrite (ti_rest_new bb it Hi H0).
    - cbn [app]. generalize O. induction k as [|k IH]; intros j; cbn [repeat inflight own app]; auto.
    - repeat split; auto.
    - intros j [].
    - intros t Ht. apply repeat_spec in Ht. now subst.
    - intros Ht. apply repeat_spec in Ht. discriminate.
  Qed.

  Lemma thread_ok_set l1 l2 (t t' : thread F ST) :
    (forall x, In x (l1 ++ t :: l2) -> thread_ok x) -> thread_ok t' -> forall x, In x (l1 ++ t' :: l2) -> thread_ok x.
  Proof.
    intros H Ht x Hx. apply in_app_or in Hx. destruct Hx as [Hx|[<-|Hx]]; auto; apply H, in_or_app; cbn; auto.
  Qed.

  Lemma done_set l1 l2 (t t' : thread F ST) : t' <> TDone -> In TDone (l1 ++ t' :: l2) -> In TDone (l1 ++ t :: l2).
  Proof. intros H Hx. apply in_app_or in Hx. apply in_or_app. destruct Hx as [Hx|[Hx|Hx]]; cbn; auto. contradiction. Qed.

  Lemma step_inv i y y' js : sinv y js -> step m sm shade fuel i y y' ->
    exists js', sinv y' js' /\ (measure y' < measure y)%nat /\ length (y_threads y') = length (y_threads y) /\
      (js' = js \/ exists b l, js' = js ++ [(b, l)] /\ produced b l).
  Proof.
    intros Q S. destruct S as [y i s b it Ht En|y i s it Ht En|y i s b s' ft log Ht Er|y i s b ft fm Ht Em].
    - (* take *)
      pose proof (next_tile_spec (y_iter y) (si_iter _ _ Q)) as N. rewrite En in N.
      destruct (ti_rest (y_iter y)) as [|p rest] eqn:Er; [destruct N as (it' & E & _); discriminate|].
      destruct N as (it' & [= -> <-] & Hi & Hr).
      exists js. unfold measure. cbn [y_threads y_iter]. split_threads Ht E'. rewrite E', E, !weights_mid. cbn [weight].
      split; [|split; [rewrite Er, Hr; cbn [length]; lia|split; [rewrite !app_length; cbn; lia|auto]]].
      destruct Q. constructor; cbn [y_iter y_film y_threads y_taken y_merged]; auto.
      + cbn [rev]. rewrite map_app, <- app_assoc. cbn [map app snd]. rewrite Hr, si_tiles0, Er. reflexivity.
      + rewrite inflight_app. cbn [inflight own app]. rewrite L. rewrite E, inflight_app in si_perm0. cbn [inflight own app] in si_perm0.
        rewrite L in si_perm0. rewrite app_assoc. apply Permutation_cons_app. now rewrite <- app_assoc.
      + rewrite E in si_thr0. eapply thread_ok_set; [exact si_thr0|]. cbn. apply (si_thr0 (TNext s)), in_or_app. right. now left.
      + intros Hd. apply (done_set l1 l2 (TNext s)) in Hd; [|discriminate]. rewrite <- E in Hd.
        specialize (si_done0 Hd). rewrite Er in si_done0. discriminate.
    - (* finish *)
      pose proof (next_tile_spec (y_iter y) (si_iter _ _ Q)) as N. rewrite En in N.
      destruct (ti_rest (y_iter y)) as [|p rest] eqn:Er; [|destruct N as (it' & E & _); discriminate].
      destruct N as (it' & [= <-] & Hi & Hr).
      exists js. unfold measure. cbn [y_threads y_iter]. split_threads Ht E'. rewrite E', E, !weights_mid. cbn [weight].
      split; [|split; [rewrite Er, Hr; cbn [length]; lia|split; [rewrite !app_length; cbn; lia|auto]]].
      destruct Q. constructor; cbn [y_iter y_film y_threads y_taken y_merged]; auto.
      + rewrite Hr, si_tiles0, Er. reflexivity.
      + rewrite inflight_app. cbn [inflight own app]. rewrite E, inflight_app in si_perm0. exact si_perm0.
      + rewrite E in si_thr0. eapply thread_ok_set; [exact si_thr0|]. exact Logic.I.
    - (* render *)
      assert (Hb : tile_of_sample_area fm0 b) by (eapply (inflight_in y js i b); eauto; now left).
      assert (Is : I s) by (apply (si_thr _ _ Q (TRender s b)); eapply nth_error_In; eauto).
      destruct (si_shape _ _ Q) as (E1 & E2 & E3).
      rewrite (render_local_same sm shade m fuel fm0 (y_film y)) in Er by auto.
      destruct (render_local_ok sm shade m r fm0 b I A B left n fuel s V W0 Hb Hn Is)
        as (s1 & ft1 & shots & ft0 & ps & R1 & I1 & T1 & P1 & N1 & Q1 & G1 & D1).
      rewrite R1 in Er. injection Er as <- <- <-.
      exists js. unfold measure. cbn [y_threads y_iter]. split_threads Ht E'. rewrite E', E, !weights_mid. cbn [weight].
      split; [|split; [lia|split; [rewrite !app_length; cbn; lia|auto]]].
      destruct Q. constructor; cbn [y_iter y_film y_threads y_taken y_merged]; auto.
      + rewrite inflight_app. cbn [inflight own app]. rewrite E, inflight_app in si_perm0. exact si_perm0.
      + rewrite E in si_thr0. eapply thread_ok_set; [exact si_thr0|]. cbn.
        split; [auto|]. split; [auto|]. exists ft0, (valid_shots shots). split; [|auto].
        exists s, s1, ft1, shots, ps. auto 10.
      + intros Hd. apply (done_set l1 l2 (TRender s b)) in Hd; [|discriminate]. rewrite <- E in Hd. auto.
    - (* merge *)
      destruct (si_thr _ _ Q (TMerge s b ft)) as (Is & Wt & ft0 & l & Pr & Eg & Ea); [eapply nth_error_In; eauto|].
      destruct (si_shape _ _ Q) as (E1 & E2 & E3).
      destruct (merge_spec m r (y_film y) ft (si_ok _ _ Q)) as (fm' & E & W' & F1 & F2 & F3 & _).
      { eapply tile_ok_same; [..|exact Wt]; auto. }
      rewrite Em in E. injection E as <-.
      exists (js ++ [(b, l)]). unfold measure. cbn [y_threads y_iter]. split_threads Ht E'. rewrite E', E, !weights_mid. cbn [weight].
      split; [|split; [lia|split; [rewrite !app_length; cbn; lia|right; eauto]]].
      destruct Q. constructor; cbn [y_iter y_film y_threads y_taken y_merged]; auto.
      + rewrite inflight_app. cbn [inflight own app]. rewrite L. rewrite E, inflight_app in si_perm0. cbn [inflight own app] in si_perm0.
        rewrite L in si_perm0. eapply Permutation_trans; [exact si_perm0|].
        cbn [Nat.add]. rewrite app_assoc. eapply Permutation_trans; [apply Permutation_sym, Permutation_middle|]. rewrite <- app_assoc. reflexivity.
      + repeat split; congruence.
      + rewrite rfold_app, si_film0. cbn [rbind rfold]. unfold run_job. cbn [fst snd].
        rewrite (get_film_tile_same m fm0 (y_film y)), Eg by auto. cbn [rbind]. unfold add_all in Ea. rewrite Ea. cbn [rbind]. now rewrite Em.
      + cbn [rev]. rewrite !map_app. f_equal. exact si_jobs0.
      + intros j Hj. apply in_app_or in Hj. destruct Hj as [Hj|[<-|[]]]; auto.
      + rewrite E in si_thr0. eapply thread_ok_set; [exact si_thr0|]. exact Is.
      + intros Hd. apply (done_set l1 l2 (TMerge s b ft)) in Hd; [|discriminate]. rewrite <- E in Hd. auto.
  Qed.

  Lemma steps_inv k y0 y js : sinv y0 js -> steps m sm shade fuel k y0 y ->
    exists js', sinv y js' /\ (k + measure y <= measure y0)%nat /\ length (y_threads y) = length (y_threads y0).
  Proof.
    intros Q S. induction S as [y|k y y' i y'' S IH S1].
    - exists js. split; auto.
    - destruct (IH Q) as (js1 & Q1 & M1 & L1). destruct (step_inv i y' y'' js1 Q1 S1) as (js2 & Q2 & M2 & L2 & _).
      exists js2. split; [auto|]. split; [lia|congruence].
  Qed.

  Lemma step_exists y js i t : sinv y js -> nth_error (y_threads y) i = Some t -> t <> TDone ->
    exists y', step m sm shade fuel i y y'.
  Proof.
    intros Q Ht Hd. pose proof (si_thr _ _ Q t (nth_error_In _ _ Ht)) as Tk.
    destruct (si_shape _ _ Q) as (E1 & E2 & E3).
    destruct t as [s|s b|s b ft|]; [| | |congruence].
    - pose proof (next_tile_spec (y_iter y) (si_iter _ _ Q)) as N.
      destruct (ti_rest (y_iter y)) as [|p l]; destruct N as (it & E & _); eexists.
      + eapply step_finish; eauto.
      + eapply step_take; eauto.
    - assert (Hb : tile_of_sample_area fm0 b) by (eapply (inflight_in y js i b); eauto; now left).
      destruct (render_local_ok sm shade m r fm0 b I A B left n fuel s V W0 Hb Hn Tk)
        as (s1 & ft1 & shots & ft0 & ps & R1 & _).
      eexists. eapply step_render; eauto. rewrite (render_local_same sm shade m fuel fm0) by auto. exact R1.
    - destruct Tk as (Is & Wt & _).
      destruct (merge_spec m r (y_film y) ft (si_ok _ _ Q)) as (fm' & E & _).
      { eapply tile_ok_same; [..|exact Wt]; auto. }
      eexists. eapply step_merge; eauto.
  Qed.

  Lemma all_done_inv y js : sinv y js -> all_done y -> y_threads y <> [] ->
    ti_rest (y_iter y) = [] /\ tile_list bb = map snd (rev (y_taken y)) /\ Permutation (y_taken y) (y_merged y).
  Proof.
    intros Q D Hne. assert (Hr : ti_rest (y_iter y) = []).
    { apply (si_done _ _ Q). destruct (y_threads y) as [|t ts] eqn:E; [congruence|]. left. apply D. rewrite E. now left. }
    split; [auto|]. split.
    - rewrite (si_tiles _ _ Q), Hr. cbn [map]. now rewrite app_nil_r.
    - eapply Permutation_trans; [apply (si_perm _ _ Q)|].
      assert (Z : forall ts k, (forall t, In t ts -> t = TDone) -> inflight k ts = []).
      { induction ts as [|t ts IH]; intros k H; cbn [inflight]; auto. rewrite (H t) by now left. cbn. apply IH. intros; apply H; now right. }
      rewrite Z by (intros t Ht; apply D; auto). now rewrite app_nil_r.
  Qed.
End T.
