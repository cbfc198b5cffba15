(** * The tile iterator *)
From Coq Require Import ZArith List Bool Lia ZifyBool Sorting.Sorted.
From Verif Require Import Model.Num Model.Vector Model.BBox Model.Film Spec.Grid Proofs.Iter.
Import ListNotations.
Local Open Scope Z_scope.
Ltac Zify.zify_post_hook ::= Z.to_euclidean_division_equations.

(** The rectangle is ordered and tile arithmetic stays within i32. *)
Definition tileable (b : bbox2) : Prop :=
  (- 2 ^ 31 <= px (b2min b) <= px (b2max b)) /\ (- 2 ^ 31 <= py (b2min b) <= py (b2max b)) /\
  px (b2max b) + 16 < 2 ^ 31 /\ py (b2max b) + 16 < 2 ^ 31 /\
  px (b2max b) - px (b2min b) + 16 < 2 ^ 31 /\ py (b2max b) - py (b2min b) + 16 < 2 ^ 31.

Definition tile_at (b : bbox2) (i : P2 Z) : bbox2 :=
  mkB2 (mkP2 (px (b2min b) + 16 * px i) (py (b2min b) + 16 * py i))
       (mkP2 (Z.min (px (b2min b) + 16 * px i + 16) (px (b2max b)))
             (Z.min (py (b2min b) + 16 * py i + 16) (py (b2max b)))).

Definition n_tiles (lo hi : Z) : Z := (hi - lo + 15) / 16.

Definition ti_inv (b : bbox2) (it : tile_iter) : Prop :=
  ti_bbox it = b /\
  ti_n it = mkP2 (n_tiles (px (b2min b)) (px (b2max b))) (n_tiles (py (b2min b)) (py (b2max b))) /\
  0 <= px (ti_i it) <= px (ti_n it) /\ 0 <= py (ti_i it).

Definition ti_rest (it : tile_iter) : list (P2 Z) :=
  if py (ti_i it) <? py (ti_n it)
  then row (px (ti_i it)) (px (ti_n it)) (py (ti_i it))
       ++ rows 0 (px (ti_n it)) (py (ti_i it) + 1) (py (ti_n it))
  else [].

Lemma p2min_new b x y :
  x <= px (b2max b) -> y <= py (b2max b) ->
  bbox2_new (mkP2 x y) (p2min (mkP2 (x + 16) (y + 16)) (b2max b)) =
  mkB2 (mkP2 x y) (mkP2 (Z.min (x + 16) (px (b2max b))) (Z.min (y + 16) (py (b2max b)))).
Proof.
  intros Hx Hy. unfold bbox2_new, p2min, p2max. simpl.
  destruct (x + 16 <? px (b2max b)) eqn:?, (y + 16 <? py (b2max b)) eqn:?;
  f_equal; f_equal;
  repeat match goal with |- context [if ?c then _ else _] => destruct c eqn:? end; lia.
Qed.

Lemma tile_next_spec m fuel b it :
  tileable b -> ti_inv b it -> (Z.to_nat (py (ti_n it) - py (ti_i it)) < fuel)%nat ->
  match ti_rest it with
  | [] => exists it', tile_next m fuel it = Ok (None, it') /\ ti_inv b it' /\ ti_rest it' = []
  | p :: l => exists it', tile_next m fuel it = Ok (Some (tile_at b p), it') /\ ti_inv b it'
      /\ ti_rest it' = l /\ py (ti_i it) <= py (ti_i it')
  end.
Proof.
  intros Hb. revert it. induction fuel as [|fuel IH]; intros it Hinv Hf; [lia|].
  destruct it as [bb [nx ny] [x y]]. unfold ti_inv in Hinv. simpl in *.
  destruct Hinv as (-> & Hn & Hx & Hy). injection Hn as Hnx Hny.
  unfold ti_rest. simpl.
  assert (Hbnd : ny * 16 <= py (b2max b) - py (b2min b) + 15 /\ nx * 16 <= px (b2max b) - px (b2min b) + 15).
  { unfold n_tiles in *. lia. }
  unfold tileable in Hb.
  destruct (y >=? ny) eqn:Ey.
  { replace (y <? ny) with false by lia. eexists. split; [reflexivity|].
    unfold ti_inv, ti_rest. cbn [ti_bbox ti_n ti_i px py]. replace (y <? ny) with false by lia.
    repeat split; try lia; congruence. }
  replace (y <? ny) with true by lia.
  destruct (x >=? nx) eqn:Ex.
  - rewrite i32_of_ok by lia. simpl.
    unfold row at 1. rewrite zrange_nil by lia. simpl.
    specialize (IH (mkTI b (mkP2 nx ny) (mkP2 0 (y + 1)))).
    unfold ti_rest, ti_inv in IH. simpl in IH.
    assert (HI : b = b /\ mkP2 nx ny =
      mkP2 (n_tiles (px (b2min b)) (px (b2max b))) (n_tiles (py (b2min b)) (py (b2max b)))
      /\ 0 <= 0 <= nx /\ 0 <= y + 1).
    { repeat split; try congruence; try lia; unfold n_tiles in *; lia. }
    specialize (IH HI ltac:(lia)).
    destruct (y + 1 <? ny) eqn:Ey1.
    + unfold rows. rewrite zrange_cons by lia. simpl.
      fold (rows 0 nx (y + 1 + 1) ny).
      destruct (row 0 nx (y + 1) ++ rows 0 nx (y + 1 + 1) ny) eqn:E.
      * destruct IH as (it' & IH). eauto.
      * destruct IH as (it' & IH1 & IH2 & IH3 & IH4). exists it'.
        split; [exact IH1|]. split; [exact IH2|]. split; [exact IH3|]. lia.
    + unfold rows. rewrite zrange_nil by lia. simpl.
      destruct IH as (it' & IH'). eauto.
  - unfold row. rewrite zrange_cons by lia. simpl.
    unfold TILE_SIZE.
    assert (Hxx : x * 16 < px (b2max b) - px (b2min b)) by (unfold n_tiles in *; lia).
    assert (Hyy : y * 16 < py (b2max b) - py (b2min b)) by (unfold n_tiles in *; lia).
    rewrite (i32_of_ok m (x * 16)) by lia. simpl.
    rewrite (i32_of_ok m (y * 16)) by lia. simpl.
    rewrite (i32_of_ok m (px _ + _)) by lia. simpl.
    rewrite (i32_of_ok m (py _ + _)) by lia. simpl.
    rewrite (i32_of_ok m (px _ + _ + _)) by lia. simpl.
    rewrite (i32_of_ok m (py _ + _ + _)) by lia. simpl.
    rewrite (i32_of_ok m (x + 1)) by lia. simpl.
    rewrite p2min_new by lia.
    eexists. split.
    + unfold tile_at. simpl. rewrite (Z.mul_comm x), (Z.mul_comm y). reflexivity.
    + unfold ti_inv, ti_rest. simpl. replace (y <? ny) with true by lia.
      repeat split; try lia; congruence.
Qed.

Lemma tile_collect_spec m inner n b it :
  tileable b -> ti_inv b it -> (Z.to_nat (py (ti_n it) - py (ti_i it)) < inner)%nat ->
  (length (ti_rest it) < n)%nat ->
  tile_collect m inner n it = Ok (map (tile_at b) (ti_rest it)).
Proof.
  intros Hb. revert it. induction n as [|n IH]; intros it Hinv Hi Hn; [lia|]. simpl.
  pose proof (tile_next_spec m inner b it Hb Hinv Hi) as H.
  destruct (ti_rest it) as [|p l] eqn:E.
  - destruct H as (it' & -> & _). reflexivity.
  - destruct H as (it' & -> & Hinv' & Hr & Hy). simpl.
    rewrite IH; auto.
    + simpl. now rewrite Hr.
    + destruct Hinv as (_ & En & _), Hinv' as (_ & En' & _). rewrite En' in *. rewrite <- En. lia.
    + rewrite Hr. simpl in Hn. lia.
Qed.

Lemma tile_iter_new_ok m b : tileable b -> exists it, tile_iter_new m b = Ok it /\ ti_inv b it /\ ti_i it = mkP2 0 0.
Proof.
  intros Hb. unfold tile_iter_new, bbox2_diagonal, TILE_SIZE. unfold tileable in Hb.
  rewrite (i32_of_ok m (px _ - _)) by lia. simpl.
  rewrite (i32_of_ok m (py _ - _)) by lia. simpl.
  rewrite (i32_of_ok m (px _ - _ + _)) by lia. simpl.
  rewrite (i32_of_ok m (py _ - _ + _)) by lia. simpl.
  rewrite (i32_of_ok m (px _ - _ + _ - _)) by lia. simpl.
  rewrite (i32_of_ok m (py _ - _ + _ - _)) by lia. simpl.
  eexists. split; [reflexivity|]. split; [|reflexivity].
  unfold ti_inv. simpl. unfold n_tiles.
  repeat split; try lia.
  rewrite !Z.quot_div_nonneg by lia. f_equal; f_equal; lia.
Qed.

Definition tile_list (b : bbox2) : list bbox2 :=
  map (tile_at b) (rows 0 (n_tiles (px (b2min b)) (px (b2max b)))
                        0 (n_tiles (py (b2min b)) (py (b2max b)))).

Lemma ti_rest_new b it : ti_inv b it -> ti_i it = mkP2 0 0 ->
  ti_rest it = rows 0 (n_tiles (px (b2min b)) (px (b2max b)))
                    0 (n_tiles (py (b2min b)) (py (b2max b))).
Proof.
  intros (_ & Hn & _) Hi. unfold ti_rest. rewrite Hi, Hn. simpl.
  destruct (_ <? _) eqn:E.
  - unfold rows at 2. rewrite zrange_cons by lia. reflexivity.
  - unfold rows. rewrite (zrange_nil 0 (n_tiles (py _) _)) by lia. reflexivity.
Qed.

Lemma tile_items_ok m b : tileable b -> tile_items m b = Ok (tile_list b).
Proof.
  intros Hb. unfold tile_items.
  destruct (tile_iter_new_ok m b Hb) as (it & -> & Hinv & Hi). cbn [rbind].
  rewrite (tile_collect_spec m _ _ b); auto.
  - unfold tile_list. now rewrite (ti_rest_new b).
  - rewrite Hi. simpl. lia.
  - rewrite (ti_rest_new b) by auto. rewrite rows_length.
    destruct Hinv as (_ & -> & _). simpl.
    set (a := n_tiles _ _). set (c := n_tiles _ _).
    rewrite !Z.sub_0_r.
    replace (Z.to_nat a) with (Z.to_nat (Z.max 0 a)) by lia.
    replace (Z.to_nat c) with (Z.to_nat (Z.max 0 c)) by lia.
    rewrite <- Z2Nat.inj_mul by lia. lia.
Qed.

Lemma tile_list_partitions b : tileable b -> partitions 16 b (tile_list b).
Proof.
  intros Hb. unfold tileable in Hb. split.
  - intros t Ht. apply in_map_iff in Ht. destruct Ht as (i & <- & Hi).
    apply In_rows in Hi. unfold n_tiles in Hi.
    unfold rect_size_le, rect_sub, tile_at. cbn [px py b2min b2max]. lia.
  - intros p Hp. unfold in_rect in Hp.
    set (i := mkP2 ((px p - px (b2min b)) / 16) ((py p - py (b2min b)) / 16)).
    assert (Hi : In i (rows 0 (n_tiles (px (b2min b)) (px (b2max b)))
                            0 (n_tiles (py (b2min b)) (py (b2max b))))).
    { apply In_rows. unfold i, n_tiles. simpl. lia. }
    destruct (In_nth_error _ _ Hi) as (k & Hk).
    exists k, (tile_at b i). unfold tile_list. split; [|split].
    + rewrite nth_error_map, Hk. reflexivity.
    + unfold in_rect, tile_at, i. cbn [px py b2min b2max]. lia.
    + intros k' t' Hk' Hp'. rewrite nth_error_map in Hk'.
      destruct (nth_error (rows _ _ _ _) k') as [i'|] eqn:Ei'; [|discriminate].
      simpl in Hk'. injection Hk' as <-.
      assert (i' = i).
      { unfold in_rect, tile_at in Hp'. cbn [px py b2min b2max] in Hp'.
        destruct i' as [ix iy]. unfold i. cbn [px py b2min b2max] in *. f_equal; lia. }
      subst i'.
      pose proof (SSorted_NoDup _ (rows_sorted 0 (n_tiles (px (b2min b)) (px (b2max b)))
         0 (n_tiles (py (b2min b)) (py (b2max b))))) as ND.
      rewrite NoDup_nth_error in ND. symmetry. apply ND.
      * apply nth_error_Some. congruence.
      * congruence.
Qed.
