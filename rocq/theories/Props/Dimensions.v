(** * C78: every number of a Halton sample has a dimension of its own *)
From Coq Require Import ZArith Reals List Bool Lia ZifyBool.
From Verif Require Import Model.Num Model.NumX Model.NumB Model.Vector Model.Common Model.BBox Model.HaltonTable Model.Sampler.
From Verif Require Import Spec.HaltonSpec Spec.SamplerSpec Proofs.FLaws Proofs.Halton.
From Verif Require Import Props.HaltonProps.
Import ListNotations.
Local Open Scope Z_scope.

(** all the numbers of some answers, in the order in which they were given *)
Definition numbers {F} (al : list (answer F)) : list F :=
  flat_map (fun a => match a with ANext _ => [] | A1D x => [x] | A2D p => [px p; py p] end) al.

(** a sampler that has just begun a sample *)
Definition begun {F} {FO : FOps F} (m : build) (s : halton) : Prop :=
  (exists s0 p, halton_start_pixel m s0 p = Ok s) \/ (exists s0 b, halton_next_sample m s0 = Ok (b, s)).

(** What is mirrored in dimension [k]: the number of the sample; in the first two dimensions without the
    digits that select the pixel. *)
Definition mirrored_in (s : halton) (k : nat) : Z :=
  match k with
  | O => h_interval s / 2 ^ px (h_exp s)
  | S O => h_interval s / py (h_scale s)
  | _ => h_interval s
  end.

Section S.
  Context {F : Type} {FO : FOps F}.
  Variable m : build.

  Lemma sample_dimension_is s d (v : F) : 0 <= d -> 0 <= px (h_exp s) -> sample_dimension m s (h_interval s) d = Ok v ->
    d < 1024 /\ exists p, nth_error halton_bases (Z.to_nat d) = Some p /\ radical_inverse m p (mirrored_in s (Z.to_nat d)) = Ok v.
  Proof.
    intros Hd He E. unfold sample_dimension in E.
    assert (B : forall a, radical_inverse_prime m d a = Ok v -> d < 1024 /\ exists p, nth_error halton_bases (Z.to_nat d) = Some p /\ radical_inverse m p a = Ok v).
    { intros a Ea. destruct (C15_dimension F FO m d a Hd) as [L R]. destruct (Z_lt_le_dec d 1024) as [l|l].
      - split; [exact l|]. destruct (L l) as (p & Hp & _ & Er). exists p. split; [exact Hp|congruence].
      - rewrite (R l) in Ea. discriminate. }
    destruct (Z.eqb_spec d 0) as [->|N0].
    - change (Z.to_nat 0) with O in *. cbn [mirrored_in]. rewrite <- Z.shiftr_div_pow2 by exact He. apply B. exact E.
    - destruct (Z.eqb_spec d 1) as [->|N1].
      + change (Z.to_nat 1) with 1%nat in *. cbn [mirrored_in]. destruct (py (h_scale s) =? 0); [discriminate|]. apply B. exact E.
      + replace (mirrored_in s (Z.to_nat d)) with (h_interval s); [now apply B|].
        unfold mirrored_in. destruct (Z.to_nat d) as [|[|k]] eqn:K; [lia|lia|reflexivity].
  Qed.

  Lemma served : forall cs s al s', ~ In CNext cs -> 0 <= h_dim s -> 0 <= px (h_exp s) ->
    ask_all (halton_ops (F := F) m) cs s = Ok (al, s') ->
    forall k v, nth_error (numbers al) k = Some v ->
      exists p, nth_error halton_bases (Z.to_nat (h_dim s) + k) = Some p /\ radical_inverse m p (mirrored_in s (Z.to_nat (h_dim s) + k)) = Ok v.
  Proof.
    induction cs as [|c cs IH]; intros s al s' Hc Hd He; cbn [ask_all].
    - intros E k v. assert (al = []) as -> by congruence. destruct k; discriminate.
    - destruct c; [exfalso; apply Hc; now left| |]; cbn [ask halton_ops sm_get_1d sm_get_2d].
      + unfold halton_get_1d. destruct (sample_dimension m s (h_interval s) (h_dim s)) as [x| |] eqn:Ex; cbn [rbind]; try discriminate.
        destruct (sample_dimension_is s (h_dim s) x Hd He Ex) as (Lt & p & Hp & Er). rewrite (u32_of_ok m (h_dim s + 1)) by lia. cbn [rbind].
        destruct (ask_all _ cs _) as [[al' s2]| |] eqn:Ea; cbn [rbind]; try discriminate. intros E. assert (al = A1D x :: al') as -> by congruence.
        intros [|k] v; cbn [numbers flat_map app nth_error].
        * intros [= <-]. exists p. rewrite Nat.add_0_r. auto.
        * intros Ev. apply IH with (k := k) (v := v) in Ea; auto; [|intros N; apply Hc; now right|cbn; lia].
          cbn [halton_set_dim h_dim] in Ea. replace (Z.to_nat (h_dim s) + S k)%nat with (Z.to_nat (h_dim s + 1) + k)%nat by lia. exact Ea.
      + unfold halton_get_2d. destruct (sample_dimension m s (h_interval s) (h_dim s)) as [x| |] eqn:Ex; cbn [rbind]; try discriminate.
        destruct (sample_dimension_is s (h_dim s) x Hd He Ex) as (Lt & p & Hp & Er). rewrite (u32_of_ok m (h_dim s + 1)) by lia. cbn [rbind].
        destruct (sample_dimension m s (h_interval s) (h_dim s + 1)) as [y| |] eqn:Ey; cbn [rbind]; try discriminate.
        destruct (sample_dimension_is s (h_dim s + 1) y) as (Lt' & p' & Hp' & Er'); auto; [lia|]. rewrite (u32_of_ok m (h_dim s + 2)) by lia. cbn [rbind].
        destruct (ask_all _ cs _) as [[al' s2]| |] eqn:Ea; cbn [rbind]; try discriminate. intros E. assert (al = A2D (mkP2 x y) :: al') as -> by congruence.
        intros [|[|k]] v; cbn [numbers flat_map app nth_error px py].
        * intros [= <-]. exists p. rewrite Nat.add_0_r. auto.
        * intros [= <-]. exists p'. replace (Z.to_nat (h_dim s) + 1)%nat with (Z.to_nat (h_dim s + 1)) by lia. auto.
        * intros Ev. apply IH with (k := k) (v := v) in Ea; auto; [|intros N; apply Hc; now right|cbn; lia].
          cbn [halton_set_dim h_dim] in Ea. replace (Z.to_nat (h_dim s) + S (S k))%nat with (Z.to_nat (h_dim s + 2) + k)%nat by lia. exact Ea.
  Qed.

  Lemma reset_dim s s' : halton_reset m s = Ok s' -> h_dim s' = 0.
  Proof.
    unfold halton_reset, get_index_for_sample. destruct (refresh_offset m s) as [t| |] eqn:Er; cbn [rbind]; try discriminate.
    destruct (u32_of m (h_index t * h_stride t)) as [a| |]; cbn [rbind]; try discriminate.
    destruct (u32_of m (h_offset t + a)) as [b| |]; cbn [rbind]; try discriminate. intros E. injection E as <-. reflexivity.
  Qed.
  Lemma begun_dim s : begun (F := F) m s -> h_dim s = 0.
  Proof.
    intros [(s0 & p & E)|(s0 & b & E)].
    - unfold halton_start_pixel in E. now apply reset_dim in E.
    - unfold halton_next_sample in E. destruct (u32_of m (h_index s0 + 1)) as [i| |]; cbn [rbind] in E; try discriminate.
      destruct (halton_reset m _) as [t| |] eqn:Er; cbn [rbind] in E; try discriminate. apply reset_dim in Er. assert (s = t) as -> by congruence. exact Er.
  Qed.
End S.

(** After a sample has begun, number [k] of those handed out, however they are asked for, is the mirror
    image of the sample's number in the [k]-th prime base: no dimension is used twice or left out. *)
Theorem C78_own_dimension : forall F (FO : FOps F) m s cs al s',
  begun (F := F) m s -> 0 <= px (h_exp s) -> ~ In CNext cs -> ask_all (halton_ops (F := F) m) cs s = Ok (al, s') ->
  forall k v, nth_error (numbers al) k = Some v ->
    exists p, nth_error halton_bases k = Some p /\ radical_inverse m p (mirrored_in s k) = Ok v.
Proof.
  intros F FO m s cs al s' B He Hc E k v Hv. pose proof (begun_dim (F := F) m s B) as D.
  destruct (served m cs s al s' Hc ltac:(lia) He E k v Hv) as (p & Hp & Er). rewrite D in Hp, Er. exists p. auto.
Qed.
Print Assumptions C78_own_dimension.

(** The first two numbers place the sample on the film: position = pixel + (number 0, number 1). *)
Theorem C78_camera_sample : forall F (FO : FOps F) m s p pf s',
  begun (F := F) m s -> 0 <= px (h_exp s) -> get_camera_sample (halton_ops (F := F) m) s p = Ok (pf, s') ->
  exists x y : F, radical_inverse m 2 (mirrored_in s 0) = Ok x /\ radical_inverse m 3 (mirrored_in s 1) = Ok y /\
    pf = mkP2 (fadd (fofZ (px p)) x) (fadd (fofZ (py p)) y).
Proof.
  intros F FO m s p pf s' B He E. unfold get_camera_sample in E. destruct (sm_get_2d (halton_ops m) s) as [[u s1]| |] eqn:Eu; cbn [rbind] in E; try discriminate.
  assert (A : ask_all (halton_ops (F := F) m) [C2D] s = Ok ([A2D u], s1)) by (cbn [ask_all ask]; rewrite Eu; reflexivity).
  assert (N : ~ In CNext [C2D]) by (intros [|[]]; discriminate).
  destruct (C78_own_dimension F FO m s [C2D] _ _ B He N A 0 (px u) eq_refl) as (p0 & H0 & R0).
  destruct (C78_own_dimension F FO m s [C2D] _ _ B He N A 1 (py u) eq_refl) as (p1 & H1 & R1).
  assert (p0 = 2) as -> by (cbn in H0; congruence). assert (p1 = 3) as -> by (cbn in H1; congruence).
  exists (px u), (py u). split; [exact R0|]. split; [exact R1|congruence].
Qed.
Print Assumptions C78_camera_sample.

(** a film of 644 x 484, second sample of a pixel, seven numbers in four calls *)
#[local] Existing Instance LX.
Definition ex_first : halton := match halton_start_pixel Debug ex_new (mkP2 5 17) with Ok s => s | _ => ex_new end.
Definition ex_second : halton := match halton_next_sample Debug ex_first with Ok (_, s) => s | _ => ex_new end.
Example C78_example : begun (F := b32) Debug ex_second /\ 0 <= px (h_exp ex_second) /\ h_interval ex_second <> 0 /\
  match ask_all (halton_ops (F := b32) Debug) [C2D; C1D; C2D; C2D] ex_second with Ok (al, _) => length (numbers al) = 7%nat | _ => False end.
Proof.
  split; [right; exists ex_first, true; vm_compute; reflexivity|]. split; [vm_compute; discriminate|]. split; [vm_compute; discriminate|].
  vm_compute. reflexivity.
Qed.
