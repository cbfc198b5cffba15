(** * Iteration over integer rectangles *)
From Coq Require Import ZArith List Bool Lia Sorting.Sorted ZifyBool.
From Verif Require Import Model.Num Model.Vector Model.BBox Model.Film Spec.Grid.
Import ListNotations.
Local Open Scope Z_scope.

(** ** Machine integers in range *)
Lemma i32_of_ok m z : - 2 ^ 31 <= z <= 2 ^ 31 - 1 -> i32_of m z = Ok z.
Proof.
  intros H. unfold i32_of, in_rangeb, i32_min, i32_max.
  replace ((- 2 ^ 31 <=? z) && (z <=? 2 ^ 31 - 1)) with true by lia. reflexivity.
Qed.

Lemma i32_as_usize_ok z : 0 <= z < 2 ^ 63 -> i32_as_usize z = z.
Proof. intros H. unfold i32_as_usize, wrap_u. apply Z.mod_small. lia. Qed.

(** ** Ranges *)
Lemma zrange_nil lo hi : hi <= lo -> zrange lo hi = [].
Proof. intros H. unfold zrange. replace (Z.to_nat (hi - lo)) with O by lia. reflexivity. Qed.

Lemma zrange_cons lo hi : lo < hi -> zrange lo hi = lo :: zrange (lo + 1) hi.
Proof.
  intros H. unfold zrange.
  replace (Z.to_nat (hi - lo)) with (S (Z.to_nat (hi - (lo + 1)))) by lia.
  simpl. f_equal; [lia|].
  rewrite <- seq_shift, map_map. apply map_ext. intros a. lia.
Qed.

Lemma In_zrange lo hi z : In z (zrange lo hi) <-> lo <= z < hi.
Proof.
  unfold zrange. rewrite in_map_iff. split.
  - intros (k & <- & Hk). apply in_seq in Hk. lia.
  - intros H. exists (Z.to_nat (z - lo)). split; [lia|]. apply in_seq. lia.
Qed.

Lemma zrange_length lo hi : length (zrange lo hi) = Z.to_nat (hi - lo).
Proof. unfold zrange. now rewrite map_length, seq_length. Qed.

Lemma nth_error_zrange lo hi i : lo <= i < hi ->
  nth_error (zrange lo hi) (Z.to_nat (i - lo)) = Some i.
Proof.
  intros H. unfold zrange. rewrite nth_error_map.
  rewrite (nth_error_nth' _ O) by (rewrite seq_length; lia).
  rewrite seq_nth by lia. simpl. f_equal. lia.
Qed.

Lemma zrange_sorted lo hi : StronglySorted Z.lt (zrange lo hi).
Proof.
  remember (Z.to_nat (hi - lo)) as n eqn:E. revert lo E.
  induction n; intros lo E.
  - rewrite zrange_nil by lia. constructor.
  - rewrite zrange_cons by lia. constructor.
    + apply IHn. lia.
    + apply Forall_forall. intros z Hz. apply In_zrange in Hz. lia.
Qed.

(** ** Rows and rectangles as lists *)
Definition row (x0 x1 y : Z) : list (P2 Z) := map (fun x => mkP2 x y) (zrange x0 x1).
Definition rows (x0 x1 y0 y1 : Z) : list (P2 Z) :=
  flat_map (row x0 x1) (zrange y0 y1).

Lemma In_row x0 x1 y p : In p (row x0 x1 y) <-> x0 <= px p < x1 /\ py p = y.
Proof.
  unfold row. rewrite in_map_iff. split.
  - intros (x & <- & H). apply In_zrange in H. simpl. lia.
  - intros [H E]. exists (px p). split; [destruct p; simpl in *; congruence|].
    now apply In_zrange.
Qed.

Lemma In_rows x0 x1 y0 y1 p :
  In p (rows x0 x1 y0 y1) <-> x0 <= px p < x1 /\ y0 <= py p < y1.
Proof.
  unfold rows. rewrite in_flat_map. split.
  - intros (y & Hy & Hp). apply In_zrange in Hy. apply In_row in Hp. lia.
  - intros H. exists (py p). rewrite In_zrange, In_row. lia.
Qed.

Lemma row_sorted x0 x1 y : StronglySorted row_major_lt (row x0 x1 y).
Proof.
  unfold row. pose proof (zrange_sorted x0 x1) as H. induction H as [|a l S IH HF]; simpl; constructor; auto.
  apply Forall_forall. intros p Hp. apply in_map_iff in Hp. destruct Hp as (z & <- & Hz).
  rewrite Forall_forall in HF. right. simpl. auto.
Qed.

Lemma SSorted_app {A} (R : A -> A -> Prop) l1 l2 :
  StronglySorted R l1 -> StronglySorted R l2 ->
  (forall a b, In a l1 -> In b l2 -> R a b) -> StronglySorted R (l1 ++ l2).
Proof.
  induction 1 as [|a l S IH HF]; simpl; intros S2 C; auto.
  constructor.
  - apply IH; simpl in *; auto.
  - apply Forall_app. split; auto. apply Forall_forall. intros b Hb. apply C; simpl; auto.
Qed.

Lemma rows_sorted x0 x1 y0 y1 : StronglySorted row_major_lt (rows x0 x1 y0 y1).
Proof.
  unfold rows. remember (Z.to_nat (y1 - y0)) as n eqn:E. revert y0 E.
  induction n; intros y0 E.
  - rewrite zrange_nil by lia. constructor.
  - rewrite zrange_cons by lia. simpl. apply SSorted_app.
    + apply row_sorted.
    + apply IHn. lia.
    + intros a b Ha Hb. apply In_row in Ha.
      apply (proj1 (In_rows x0 x1 (y0 + 1) y1 b)) in Hb. left. lia.
Qed.

Lemma SSorted_NoDup l : StronglySorted row_major_lt l -> NoDup l.
Proof.
  induction 1 as [|a l S IH HF]; constructor; auto.
  intros Hin. rewrite Forall_forall in HF. specialize (HF _ Hin).
  unfold row_major_lt in HF. lia.
Qed.

(** ** The iterator *)
Definition it_inv (it : bbox2_iter) : Prop :=
  - 2 ^ 31 <= it_minx it < 2 ^ 31 /\ it_minx it <= it_x it < 2 ^ 31 /\ - 2 ^ 31 <= it_y it /\
  - 2 ^ 31 <= px (it_max it) < 2 ^ 31 /\ - 2 ^ 31 <= py (it_max it) < 2 ^ 31.

(** what is still to come *)
Definition it_rest (it : bbox2_iter) : list (P2 Z) :=
  if it_y it <? py (it_max it)
  then row (it_x it) (px (it_max it)) (it_y it)
       ++ rows (it_minx it) (px (it_max it)) (it_y it + 1) (py (it_max it))
  else [].

Lemma bbox2_next_spec m fuel it :
  it_inv it -> (Z.to_nat (py (it_max it) - it_y it) < fuel)%nat ->
  match it_rest it with
  | [] => exists it', bbox2_next m fuel it = Ok (None, it')
  | p :: l => exists it', bbox2_next m fuel it = Ok (Some p, it') /\ it_inv it' /\ it_rest it' = l
      /\ it_max it' = it_max it /\ it_y it <= it_y it'
  end.
Proof.
  revert it. induction fuel as [|fuel IH]; intros it Hinv Hf; [lia|].
  destruct it as [[mx my] minx x y]. unfold it_inv in Hinv. simpl in *.
  unfold it_rest. simpl.
  destruct (y >=? my) eqn:Ey.
  { replace (y <? my) with false by lia. eauto. }
  replace (y <? my) with true by lia.
  destruct (x >=? mx) eqn:Ex.
  - rewrite i32_of_ok by lia. simpl.
    unfold row at 1. rewrite zrange_nil by lia. simpl.
    specialize (IH (mkIt (mkP2 mx my) minx minx (y + 1))).
    unfold it_rest, it_inv in IH. simpl in IH.
    destruct (y + 1 <? my) eqn:Ey1.
    + unfold rows. rewrite zrange_cons by lia. simpl.
      fold (rows minx mx (y + 1 + 1) my).
      specialize (IH ltac:(lia) ltac:(lia)).
      destruct (row minx mx (y + 1) ++ rows minx mx (y + 1 + 1) my) eqn:E.
      * destruct IH as (it' & IH). eauto.
      * destruct IH as (it' & IH1 & IH2 & IH3 & IH4 & IH5). exists it'. repeat split; auto; try apply IH2. lia.
    + unfold rows. rewrite zrange_nil by lia. simpl.
      destruct (IH ltac:(lia) ltac:(lia)) as (it' & IH'). eauto.
  - unfold row. rewrite zrange_cons by lia. simpl.
    rewrite i32_of_ok by lia. simpl.
    eexists. split; [reflexivity|]. unfold it_inv, it_rest. simpl.
    replace (y <? my) with true by lia. repeat split; try lia.
Qed.

Lemma bbox2_collect_spec m inner n it :
  it_inv it -> (Z.to_nat (py (it_max it) - it_y it) < inner)%nat ->
  (length (it_rest it) < n)%nat ->
  bbox2_collect m inner n it = Ok (it_rest it).
Proof.
  revert it. induction n as [|n IH]; intros it Hinv Hi Hn; [lia|]. simpl.
  pose proof (bbox2_next_spec m inner it Hinv Hi) as H.
  destruct (it_rest it) as [|p l] eqn:E.
  - destruct H as (it' & ->). reflexivity.
  - destruct H as (it' & -> & Hinv' & Hr & Hm & Hy). simpl.
    rewrite IH; auto.
    + simpl. now rewrite Hr.
    + rewrite Hm. lia.
    + rewrite Hr. simpl in Hn. lia.
Qed.

Lemma row_length x0 x1 y : length (row x0 x1 y) = Z.to_nat (x1 - x0).
Proof. unfold row. now rewrite map_length, zrange_length. Qed.

Lemma rows_length x0 x1 y0 y1 :
  length (rows x0 x1 y0 y1) = (Z.to_nat (x1 - x0) * Z.to_nat (y1 - y0))%nat.
Proof.
  unfold rows. remember (Z.to_nat (y1 - y0)) as n eqn:E. revert y0 E.
  induction n; intros y0 E.
  - rewrite zrange_nil by lia. simpl. lia.
  - rewrite zrange_cons by lia. simpl. rewrite app_length, row_length, IHn by lia. lia.
Qed.

Lemma it_rest_new b : rect_i32 b ->
  it_rest (bbox2_iter_new b) =
  rows (px (b2min b)) (px (b2max b)) (py (b2min b)) (py (b2max b)).
Proof.
  intros _. unfold it_rest, bbox2_iter_new. simpl.
  destruct (_ <? _) eqn:E.
  - unfold rows at 2. rewrite zrange_cons by lia. reflexivity.
  - unfold rows. rewrite zrange_nil by lia. reflexivity.
Qed.

Definition rect_points (b : bbox2) : list (P2 Z) :=
  rows (px (b2min b)) (px (b2max b)) (py (b2min b)) (py (b2max b)).

Lemma rect_points_spec b : enumerates b (rect_points b).
Proof.
  unfold enumerates, rect_points. split; [apply rows_sorted|split].
  - apply SSorted_NoDup, rows_sorted.
  - intros p. apply In_rows.
Qed.

Lemma bbox2_collect_ok m b inner n : rect_i32 b ->
  (Z.to_nat (py (b2max b) - py (b2min b)) < inner)%nat ->
  (Z.to_nat (px (b2max b) - px (b2min b)) * Z.to_nat (py (b2max b) - py (b2min b)) < n)%nat ->
  bbox2_collect m inner n (bbox2_iter_new b) = Ok (rect_points b).
Proof.
  intros H Hi Hn. rewrite bbox2_collect_spec.
  - now rewrite it_rest_new.
  - unfold it_inv, bbox2_iter_new, rect_i32 in *. simpl. lia.
  - exact Hi.
  - rewrite it_rest_new by auto. rewrite rows_length. exact Hn.
Qed.

Lemma bbox2_items_ok m b : rect_i32 b -> bbox2_items m b = Ok (rect_points b).
Proof.
  intros H. apply bbox2_collect_ok; auto; [lia|].
  set (dx := px (b2max b) - px (b2min b)). set (dy := py (b2max b) - py (b2min b)).
  replace (Z.to_nat dx) with (Z.to_nat (Z.max 0 dx)) by lia.
  replace (Z.to_nat dy) with (Z.to_nat (Z.max 0 dy)) by lia.
  rewrite <- Z2Nat.inj_mul by lia. lia.
Qed.
