(** * The order in which tiles are merged *)
From Coq Require Import ZArith Reals List Bool Lia Lra Permutation.
From Verif Require Import Model.Num Model.NumX Model.Vector Model.BBox Model.Film Model.Sampler Model.Render.
From Verif Require Import Spec.Grid Spec.FilmSpec Spec.SamplerSpec Spec.RenderSpec.
From Verif Require Import Proofs.XBase Proofs.FLaws Proofs.Iter Proofs.Tiles Proofs.FilmGrid Proofs.FilmOps Proofs.FilmJobs Proofs.RenderLocal Proofs.Threads.
Import ListNotations.
Local Open Scope Z_scope.

Lemma xadd_comm a b : xadd a b = xadd b a.
Proof. destruct a as [|[]|x], b as [|[]|y]; simpl; auto. now rewrite Rplus_comm. Qed.
Lemma xadd_assoc a b c : xadd (xadd a b) c = xadd a (xadd b c).
Proof. destruct a as [|[]|x], b as [|[]|y], c as [|[]|z]; simpl; auto. now rewrite Rplus_assoc. Qed.
Lemma xadd_swap a b c : xadd (xadd a b) c = xadd (xadd a c) b.
Proof. now rewrite !xadd_assoc, (xadd_comm b). Qed.

Lemma pixel_merge_swap (c d e : pixel XR) : pixel_merge (pixel_merge c d) e = pixel_merge (pixel_merge c e) d.
Proof.
  unfold pixel_merge. cbn [p_color p_wsum]. unfold v3add, v3map2. cbn [vx vy vz fadd XR_FOps].
  f_equal; [f_equal|]; apply xadd_swap.
Qed.

Section Eff.
  Context {F} {FO : FOps F} {FL : FLaws F}.

  (** The effect of a job on each pixel of a film. *)
  Lemma run_job_effect m r fm j : film_ok r fm -> job_ok m fm j ->
    exists e : P2 Z -> option (pixel F), forall fm1, film_ok r fm1 -> fm_res fm1 = fm_res fm -> fm_radius fm1 = fm_radius fm -> fm_table fm1 = fm_table fm ->
      exists fm2, run_job m fm1 j = Ok fm2 /\ film_ok r fm2 /\ fm_res fm2 = fm_res fm /\ fm_radius fm2 = fm_radius fm /\ fm_table fm2 = fm_table fm /\
        forall q, in_rect (film_rect fm) q ->
          gget (film_rect fm) (fm_pixels fm2) q =
            match e q with
            | Some c => option_map (fun c0 => pixel_merge c0 c) (gget (film_rect fm) (fm_pixels fm1) q)
            | None => gget (film_rect fm) (fm_pixels fm1) q
            end.
  Proof.
    intros W [Ht Hs].
    destruct (get_film_tile_ok m r fm (fst j) W Ht) as (ft & Eg & Wt & _ & _).
    destruct (add_all_ok (fun _ => True) m r fm (fst j) (snd j) ft W Ht Wt Hs) as (ft' & E & Wt' & _); auto.
    { unfold splat_keeps. auto. }
    eexists. intros fm1 W1 E1 E2 E3.
    assert (Wt1 : tile_ok fm1 ft') by (eapply tile_ok_same; eauto).
    destruct (merge_spec m r fm1 ft' W1 Wt1) as (fm2 & Em & W2 & F1 & F2 & F3 & G).
    exists fm2. unfold run_job. rewrite (get_film_tile_same m fm fm1), Eg by auto. cbn [rbind].
    unfold add_all in E. rewrite E. cbn [rbind].
    split; [exact Em|]. split; [auto|]. split; [congruence|]. split; [congruence|]. split; [congruence|].
    assert (Er : film_rect fm1 = film_rect fm) by (unfold film_rect; congruence). rewrite Er in G.
    intros q Hq. rewrite (G q Hq). reflexivity.
  Qed.

  Lemma film_ext r (a b : film F) : film_ok r a -> film_ok r b -> fm_res a = fm_res b -> fm_radius a = fm_radius b -> fm_table a = fm_table b ->
    (forall q, in_rect (film_rect a) q -> gget (film_rect a) (fm_pixels a) q = gget (film_rect a) (fm_pixels b) q) -> a = b.
  Proof.
    intros Wa Wb E1 E2 E3 G.
    assert (E4 : fm_pixels a = fm_pixels b).
    { apply (gget_ext (film_rect a)); auto.
      - unfold film_rect; cbn [px py b2min b2max]. pose proof (fo_x _ _ Wa). lia.
      - rewrite gsize_film. apply (fo_len _ _ Wa).
      - rewrite gsize_film, E1. apply (fo_len _ _ Wb). }
    destruct a, b; cbn in *; congruence.
  Qed.

  Lemma run_jobs_defined m r fm js : film_ok r fm -> (forall j, In j js -> job_ok m fm j) ->
    exists fm', rfold (run_job m) js fm = Ok fm' /\ film_ok r fm' /\ fm_res fm' = fm_res fm /\ fm_radius fm' = fm_radius fm /\ fm_table fm' = fm_table fm.
  Proof.
    intros W Hj.
    destruct (rfold_inv (fun fm' => film_ok r fm' /\ fm_res fm' = fm_res fm /\ fm_radius fm' = fm_radius fm /\ fm_table fm' = fm_table fm) (run_job m) js fm)
      as (fm' & E & H); [|auto|exists fm'; auto].
    intros fm1 j Hin (W1 & E1 & E2 & E3).
    destruct (run_job_effect m r fm j W (Hj j Hin)) as (e & He).
    destruct (He fm1 W1 E1 E2 E3) as (fm2 & R & W2 & A1 & A2 & A3 & _). exists fm2. auto.
  Qed.
End Eff.

(** In exact arithmetic jobs commute. *)
Lemma run_job_comm m r (fm : film XR) j1 j2 : film_ok r fm -> job_ok m fm j1 -> job_ok m fm j2 ->
  (let! f := run_job m fm j1 in run_job m f j2) = (let! f := run_job m fm j2 in run_job m f j1).
Proof.
  intros W J1 J2.
  destruct (run_job_effect (FL := XR_FLaws) m r fm j1 W J1) as (e1 & H1).
  destruct (run_job_effect (FL := XR_FLaws) m r fm j2 W J2) as (e2 & H2).
  destruct (H1 fm W eq_refl eq_refl eq_refl) as (f1 & R1 & W1 & A1 & A2 & A3 & G1).
  destruct (H2 fm W eq_refl eq_refl eq_refl) as (f2 & R2 & W2 & B1 & B2 & B3 & G2).
  destruct (H2 f1 W1 A1 A2 A3) as (f12 & R12 & W12 & C1 & C2 & C3 & G12).
  destruct (H1 f2 W2 B1 B2 B3) as (f21 & R21 & W21 & D1 & D2 & D3 & G21).
  rewrite R1, R2. cbn [rbind]. rewrite R12, R21. f_equal.
  apply (film_ext (FL := XR_FLaws) r); try congruence; auto.
  assert (Er : film_rect f12 = film_rect fm) by (unfold film_rect; congruence). rewrite Er.
  intros q Hq. rewrite G12, G1, G21, G2 by auto.
  destruct (e1 q) as [c1|], (e2 q) as [c2|], (gget (film_rect fm) (fm_pixels fm) q) as [c|]; cbn [option_map]; auto.
  now rewrite pixel_merge_swap.
Qed.

Lemma run_jobs_perm m r js js' : Permutation js js' -> forall fm : film XR, film_ok r fm -> (forall j, In j js -> job_ok m fm j) ->
  rfold (run_job m) js fm = rfold (run_job m) js' fm.
Proof.
  induction 1 as [|j l l' P IH|j1 j2 l|l l' l'' P1 IH1 P2 IH2]; intros fm W Hj; auto.
  - cbn [rfold].
    destruct (run_job_effect (FL := XR_FLaws) m r fm j W (Hj j (or_introl eq_refl))) as (e & H).
    destruct (H fm W eq_refl eq_refl eq_refl) as (f1 & R1 & W1 & A1 & A2 & A3 & _). rewrite R1. cbn [rbind].
    apply IH; auto. intros j' Hj'. destruct (Hj j' (or_intror Hj')) as [T S]. split; auto. eapply tile_area_same; [| |exact T]; auto.
  - cbn [rfold]. pose proof (run_job_comm m r fm j2 j1 W (Hj j2 (or_introl eq_refl)) (Hj j1 (or_intror (or_introl eq_refl)))) as E.
    destruct (run_job_effect (FL := XR_FLaws) m r fm j1 W (Hj j1 (or_intror (or_introl eq_refl)))) as (e1 & H1).
    destruct (run_job_effect (FL := XR_FLaws) m r fm j2 W (Hj j2 (or_introl eq_refl))) as (e2 & H2).
    destruct (H1 fm W eq_refl eq_refl eq_refl) as (f1 & R1 & _).
    destruct (H2 fm W eq_refl eq_refl eq_refl) as (f2 & R2 & _).
    rewrite R1, R2 in *. cbn [rbind] in *. now rewrite E.
  - rewrite IH1 by auto. apply IH2; auto. intros j Hj'. apply Hj. eapply Permutation_in; [apply Permutation_sym; exact P1|auto].
Qed.

Lemma perm_functional {A B} (P : A -> B -> Prop) (l l' : list (A * B)) :
  (forall a b b', P a b -> P a b' -> b = b') -> (forall x, In x l -> P (fst x) (snd x)) -> (forall x, In x l' -> P (fst x) (snd x)) ->
  Permutation (map fst l) (map fst l') -> Permutation l l'.
Proof.
  intros Hf H1 H2 Hp. destruct (Permutation_map_inv _ _ Hp) as (l3 & E & P3).
  assert (E3 : l = l3).
  { assert (H3 : forall x, In x l3 -> P (fst x) (snd x)).
    { intros x Hx. apply H2. eapply Permutation_in; [apply Permutation_sym; exact P3|auto]. }
    clear - Hf H1 H3 E. revert l3 E H3. induction l as [|[a b] l IH]; intros [|[a' b'] l3] E H3; cbn in E; try discriminate; auto.
    injection E as Ea E. subst a'. f_equal.
    - f_equal. apply (Hf a); [apply (H1 (a, b)); now left|apply (H3 (a, b')); now left].
    - apply IH; auto; intros; [apply H1|apply H3]; now right. }
  subst l3. now apply Permutation_sym.
Qed.

Section Seq.
  Context {F} {FO : FOps F} {FL : FLaws F} {ST : Type}.
  Variable (m : build) (sm : sampler_ops F ST) (shade : ST -> P2 F -> res (V3 F * ST)) (fuel : nat).
  Variables (I A B : ST -> Prop) (left : ST -> nat) (n : nat) (r : R) (fm0 : film F).
  Hypothesis V : serves sm shade I A B left n.
  Hypothesis W0 : film_ok r fm0.
  Hypothesis Hn : (1 <= n <= fuel)%nat.

  Let prod := produced m sm shade fuel I n fm0.

  Lemma produced_functional b l l' : forgets sm I -> tile_of_sample_area fm0 b -> prod b l -> prod b l' -> l = l'.
  Proof.
    intros Hf Hb (s & s' & ft & sh & ps & Is & R & _ & _ & _ & ->) (t & t' & ft2 & sh2 & ps2 & It & R2 & _ & _ & _ & ->).
    rewrite (render_local_forgets sm shade m fuel fm0 I t s b) in R2; auto.
    - rewrite R in R2. injection R2 as _ _ E. apply (f_equal (@rev _)) in E. rewrite !rev_involutive in E. now subst.
    - eapply tile_rect_i32; eauto.
  Qed.

  Lemma produced_job_ok b l : tile_of_sample_area fm0 b -> prod b l -> job_ok m fm0 (b, l).
  Proof.
    intros Hb (s & s' & ft & sh & ps & Is & R & Hp & Hs & Hq & ->). split; [exact Hb|]. right. cbn [fst snd].
    eapply shots_in_tile; eauto.
  Qed.

  (** Rendering a list of tiles one after the other *)
  Lemma seq_jobs tiles : (forall b, In b tiles -> tile_of_sample_area fm0 b) -> forall fm s, I s ->
    film_ok r fm -> fm_res fm = fm_res fm0 -> fm_radius fm = fm_radius fm0 -> fm_table fm = fm_table fm0 ->
    exists s' fm' js, rfold (fun '(s, fm) b => render_tile m sm shade fuel fm s b) tiles (s, fm) = Ok (s', fm') /\
      map fst js = tiles /\ (forall j, In j js -> prod (fst j) (snd j)) /\ rfold (run_job m) js fm = Ok fm'.
  Proof.
    induction tiles as [|b tiles IH]; intros Ht fm s Is W E1 E2 E3.
    - exists s, fm, []. cbn. repeat split; auto. intros j [].
    - cbn [rfold]. unfold render_tile at 1. pose proof (Ht b (or_introl eq_refl)) as Hb.
      rewrite (render_local_same sm shade m fuel fm0 fm) by auto.
      destruct (render_local_ok sm shade m r fm0 b I A B left n fuel s V W0 Hb Hn Is)
        as (s1 & ft1 & shots & ft0 & ps & R1 & I1 & T1 & P1 & N1 & Q1 & G1 & D1).
      rewrite R1. cbn [rbind].
      destruct (merge_spec m r fm ft1 W) as (fm1 & Em & W1 & F1 & F2 & F3 & _).
      { eapply tile_ok_same; [..|exact T1]; auto. }
      rewrite Em. cbn [rbind].
      destruct (IH (fun b' H => Ht b' (or_intror H)) fm1 s1 I1 W1) as (s' & fm' & js & R & M & Pr & J); try congruence.
      exists s', fm', ((b, valid_shots shots) :: js). split; [exact R|]. split; [cbn; now rewrite M|]. split.
      + intros j [<-|Hj]; auto. cbn [fst snd]. exists s, s1, ft1, shots, ps. auto 10.
      + cbn [rfold]. unfold run_job at 1. cbn [fst snd]. rewrite (get_film_tile_same m fm0 fm), G1 by auto. cbn [rbind].
        unfold add_all in D1. rewrite D1. cbn [rbind]. rewrite Em. cbn [rbind]. exact J.
  Qed.
End Seq.
