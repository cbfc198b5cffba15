(** * What happened to one pixel of the film *)
From Coq Require Import ZArith Reals List Bool Lia Permutation.
From Verif Require Import Model.Num Model.NumX Model.NumB Model.Vector Model.BBox Model.Film Model.Sampler Model.Render.
From Verif Require Import Spec.Grid Spec.FilmSpec Spec.SamplerSpec Spec.RenderSpec Spec.Ppm Spec.RoundSpec.
From Verif Require Import Proofs.XBase Proofs.FLaws Proofs.Iter Proofs.Tiles Proofs.FilmGrid Proofs.FilmOps Proofs.FilmJobs Proofs.RenderLocal Proofs.Threads Proofs.Order.
Import ListNotations.
Local Open Scope Z_scope.

Section Trace.
  Context {F} {FO : FOps F} {FL : FLaws F}.

  (** a pixel to which nothing but samples were added, the last one first *)
  Fixpoint splats (l : list (V3 F * F)) : trace F :=
    match l with [] => TNew | s :: l => TAdd (splats l) (fst s) (snd s) end.
  Lemma splats_arrived l : arrived (splats l) = l.
  Proof. induction l as [|[a w] l IH]; cbn; [auto|now rewrite IH]. Qed.
  Lemma splats_chain l : chain (splats l) = length l.
  Proof. induction l as [|s l IH]; cbn; [auto|now rewrite IH]. Qed.

  (** the samples came from [l], with weights of the filter table, each at most once *)
  Definition from (table : list (list F)) (l : list (P2 F * V3 F)) (a : list (V3 F * F)) : Prop :=
    (length a <= length l)%nat /\
    forall s, In s a -> In (fst s) (map snd l) /\ exists row, In row table /\ In (snd s) row.

  Lemma add_all_trace m r fm t l : forall ft,
    film_ok r fm -> tile_of_sample_area fm t -> tile_ok fm ft -> samples_ok m t l ->
    exists ft' (e : P2 Z -> list (V3 F * F)), add_all m l ft = Ok ft' /\ tile_ok fm ft' /\ tl_bbox ft' = tl_bbox ft /\
      forall q, from (fm_table fm) l (e q) /\
        (in_rect (tl_bbox ft) q -> forall a, gget (tl_bbox ft) (tl_pixels ft) q = Some (result (splats a)) ->
          gget (tl_bbox ft) (tl_pixels ft') q = Some (result (splats (e q ++ a)))).
  Proof.
    induction l as [|s l IH]; intros ft W Ht Wt Hs.
    - exists ft, (fun _ => []). split; [reflexivity|]. split; [auto|]. split; [auto|]. intros q. split.
      + split; [cbn; lia|]. intros x [].
      + intros Hq a Ea. exact Ea.
    - destruct (tile_add_sample_spec m r fm ft (fst s) (snd s) f0 W Wt) as (p & mn & mx & ft2 & _ & E2 & Wt2 & Eb2 & _ & G2).
      { apply (one_no_sat m r fm t ft (s :: l)); auto. now left. }
      destruct (IH ft2 W Ht Wt2) as (ft' & e & E & Wt' & Eb & G).
      { destruct Hs as [->|Hs]; [now left|right]. intros x Hx. apply Hs. now right. }
      set (hit := fun q => (px mn <=? px q) && (px q <? px mx) && ((py mn <=? py q) && (py q <? py mx))) in *.
      set (w := fun q => splat_weight (tl_radius ft) (tl_table ft) p q f0) in *.
      exists ft', (fun q => if hit q then e q ++ [(snd s, w q)] else e q).
      unfold add_all. cbn [rfold]. rewrite E2. cbn [rbind]. split; [exact E|]. split; [auto|]. split; [congruence|].
      intros q. rewrite Eb2 in G. destruct (G q) as [[Hl Hf] Gq]. split.
      + assert (Hf' : forall x, In x (e q) -> In (fst x) (map snd (s :: l)) /\ exists row, In row (fm_table fm) /\ In (snd x) row).
        { intros x Hx. destruct (Hf x Hx) as [H1 H2]. split; [right; auto|auto]. }
        destruct (hit q); (split; [rewrite ?app_length; cbn; lia|]); auto.
        intros x Hx. apply in_app_or in Hx. destruct Hx as [Hx|[<-|[]]]; auto.
        cbn [fst snd map]. split; [now left|].
        destruct (splat_weight_in (tl_radius ft) (tl_table ft) p q f0) as (row & Hr & Hw).
        { rewrite (to_table _ _ Wt). apply (fo_table _ _ W). }
        exists row. split; [rewrite <- (to_table _ _ Wt); exact Hr|exact Hw].
      + intros Hq a Ea. pose proof (G2 q Hq) as Eq. fold (hit q) (w q) in Eq. rewrite Ea in Eq. cbn [option_map] in Eq.
        destruct (hit q).
        * rewrite <- app_assoc. apply (Gq Hq ((snd s, w q) :: a) Eq).
        * apply (Gq Hq a Eq).
  Qed.

  Lemma inside_spec b q : inside b q = true <-> in_rect b q.
  Proof. unfold inside, in_rect. rewrite !andb_true_iff, !Z.leb_le, !Z.ltb_lt. tauto. Qed.

  (** [e] gives for every pixel the samples with which job [j] reaches it. *)
  Definition reaches (m : build) (r : R) (fm : film F) (j : job F) (e : P2 Z -> list (V3 F * F)) : Prop :=
    (forall q, from (fm_table fm) (snd j) (e q)) /\
    forall fm1, film_ok r fm1 -> fm_res fm1 = fm_res fm -> fm_radius fm1 = fm_radius fm -> fm_table fm1 = fm_table fm ->
      exists fm2, run_job m fm1 j = Ok fm2 /\ film_ok r fm2 /\ fm_res fm2 = fm_res fm /\ fm_radius fm2 = fm_radius fm /\ fm_table fm2 = fm_table fm /\
        forall q, in_rect (film_rect fm) q -> forall t, gget (film_rect fm) (fm_pixels fm1) q = Some (result t) ->
          gget (film_rect fm) (fm_pixels fm2) q =
            Some (result (if inside (film_tile_bbox fm (fst j)) q then TMerge t (splats (e q)) else t)).

  Lemma run_job_trace m r fm j : film_ok r fm -> job_ok m fm j -> exists e, reaches m r fm j e.
  Proof.
    intros W [Ht Hs].
    destruct (get_film_tile_ok m r fm (fst j) W Ht) as (ft & Eg & Wt & Eb & Ep).
    destruct (film_tile_bbox_eq r fm (fst j) W Ht) as (Eb0 & _). rewrite <- Eb0 in Eb, Ep. clear Eb0.
    destruct (add_all_trace m r fm (fst j) (snd j) ft W Ht Wt Hs) as (ft' & e & E & Wt' & Eb' & G).
    set (b := film_tile_bbox fm (fst j)) in *. rewrite Eb in *.
    assert (Hnew : forall q, in_rect b q -> gget b (tl_pixels ft) q = Some (result (splats []))).
    { intros q Hq. pose proof (goff_range b q Hq) as Hg. unfold gget. rewrite Ep, nth_error_repeat; [reflexivity|]. apply Z2Nat.inj_lt; lia. }
    exists e. split; [intros q; apply G|]. intros fm1 W1 E1 E2 E3.
    assert (Wt1 : tile_ok fm1 ft') by (eapply tile_ok_same; eauto).
    destruct (merge_spec m r fm1 ft' W1 Wt1) as (fm2 & Em & W2 & F1 & F2 & F3 & M).
    exists fm2. unfold run_job. rewrite (get_film_tile_same m fm fm1), Eg by auto. cbn [rbind].
    unfold add_all in E. rewrite E. cbn [rbind].
    split; [exact Em|]. split; [auto|]. split; [congruence|]. split; [congruence|]. split; [congruence|].
    assert (Er : film_rect fm1 = film_rect fm) by (unfold film_rect; congruence). rewrite Er, Eb' in M.
    intros q Hq t Et. rewrite (M q Hq). fold b. rewrite Et. unfold inside at 1.
    destruct (_ && _) eqn:Ei; [|reflexivity]. fold (inside b q) in Ei.
    apply inside_spec in Ei. destruct (G q) as [_ Gq]. rewrite (Gq Ei [] (Hnew q Ei)), app_nil_r. reflexivity.
  Qed.

  (** ** A list of jobs *)
  Definition effects := list (job F * (P2 Z -> list (V3 F * F))).

  Fixpoint trace_of (fm : film F) (q : P2 Z) (t : trace F) (l : effects) : trace F :=
    match l with
    | [] => t
    | (j, e) :: l => trace_of fm q (if inside (film_tile_bbox fm (fst j)) q then TMerge t (splats (e q)) else t) l
    end.

  Definition covers (fm : film F) (q : P2 Z) (x : job F * (P2 Z -> list (V3 F * F))) : bool := inside (film_tile_bbox fm (fst (fst x))) q.

  Lemma run_jobs_trace m r fm l : film_ok r fm -> (forall x, In x l -> reaches m r fm (fst x) (snd x)) ->
    forall fm1, film_ok r fm1 -> fm_res fm1 = fm_res fm -> fm_radius fm1 = fm_radius fm -> fm_table fm1 = fm_table fm ->
    exists fm2, rfold (run_job m) (map fst l) fm1 = Ok fm2 /\ fm_res fm2 = fm_res fm /\
      forall q, in_rect (film_rect fm) q -> forall t, gget (film_rect fm) (fm_pixels fm1) q = Some (result t) ->
        gget (film_rect fm) (fm_pixels fm2) q = Some (result (trace_of fm q t l)).
  Proof.
    intros W. induction l as [|[j e] l IH]; intros Hl fm1 W1 E1 E2 E3.
    - exists fm1. split; [reflexivity|]. split; auto.
    - destruct (Hl (j, e) (or_introl eq_refl)) as [_ H]. cbn [fst snd] in H.
      destruct (H fm1 W1 E1 E2 E3) as (fm2 & R & W2 & F1 & F2 & F3 & G).
      destruct (IH (fun x Hx => Hl x (or_intror Hx)) fm2 W2 F1 F2 F3) as (fm3 & R3 & E4 & G3).
      exists fm3. cbn [map fst rfold]. rewrite R. cbn [rbind]. split; [exact R3|]. split; [exact E4|].
      intros q Hq t Et. cbn [trace_of]. apply G3; auto.
  Qed.

  Lemma trace_of_arrived fm q l : forall t,
    Permutation (arrived (trace_of fm q t l)) (arrived t ++ flat_map (fun x => snd x q) (List.filter (covers fm q) l)).
  Proof.
    induction l as [|[j e] l IH]; intros t; cbn [trace_of List.filter].
    - cbn [flat_map]. now rewrite app_nil_r.
    - unfold covers at 1. cbn [fst snd]. destruct (inside (film_tile_bbox fm (fst j)) q).
      + eapply Permutation_trans; [apply IH|]. cbn [arrived flat_map snd]. now rewrite splats_arrived, app_assoc.
      + apply IH.
  Qed.

  Lemma trace_of_chain fm q l : forall t,
    (chain (trace_of fm q t l) <= chain t + length (flat_map (fun x => snd x q) (List.filter (covers fm q) l)) + length (List.filter (covers fm q) l))%nat.
  Proof.
    induction l as [|[j e] l IH]; intros t; cbn [trace_of List.filter].
    - cbn [flat_map length]. lia.
    - change (covers fm q (j, e)) with (inside (film_tile_bbox fm (fst j)) q). destruct (inside (film_tile_bbox fm (fst j)) q); [|apply IH].
      eapply Nat.le_trans; [apply IH|]. cbn [flat_map chain length snd]. rewrite splats_chain, app_length. lia.
  Qed.
End Trace.

Lemma perm_filter {A} (f : A -> bool) l l' : Permutation l l' -> Permutation (List.filter f l) (List.filter f l').
Proof.
  induction 1 as [|x l l' P IH|x y l|l l' l'' P IH P' IH']; cbn [List.filter]; auto.
  - destruct (f x); auto.
  - destruct (f x), (f y); auto. apply perm_swap.
  - eapply Permutation_trans; eauto.
Qed.

(** Two lists of jobs with the same effects, in another order. *)
Lemma perm_effects {A B} (P : A -> B -> Prop) (l l' : list A) : Permutation l l' -> (forall x, In x l -> exists e, P x e) ->
  exists k k', map fst k = l /\ map fst k' = l' /\ Permutation k k' /\ (forall x, In x k -> P (fst x) (snd x)) /\ (forall x, In x k' -> P (fst x) (snd x)).
Proof.
  intros Hp He.
  assert (H : exists k : list (A * B), map fst k = l /\ forall x, In x k -> P (fst x) (snd x)).
  { clear Hp. induction l as [|a l IH].
    - exists []. split; auto. intros x [].
    - destruct IH as (k & E & H). { intros x Hx. apply He. now right. }
      destruct (He a (or_introl eq_refl)) as (e & Pe). exists ((a, e) :: k). cbn [map fst]. split; [now rewrite E|].
      intros x [<-|Hx]; auto. }
  destruct H as (k & E & H). rewrite <- E in Hp. apply Permutation_sym in Hp.
  destruct (Permutation_map_inv _ _ Hp) as (k' & E' & Hp').
  exists k, k'. split; auto. split; auto. split; auto. split; auto. intros x Hx. apply H. eapply Permutation_in; [apply Permutation_sym|]; eauto.
Qed.
