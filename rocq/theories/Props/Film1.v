(** * C01, C02: rectangles and tiles *)
From Coq Require Import ZArith List Bool Lia.
From Verif Require Import Model.Num Model.Vector Model.BBox Model.Film Spec.Grid.
From Verif Require Import Proofs.Iter Proofs.Tiles.
Import ListNotations.
Local Open Scope Z_scope.

(** C01. Iterating over any i32 rectangle, in both build modes, ends without overflow after
    having produced exactly the points of the rectangle, once each, row by row. *)
Theorem C01_rect_iteration : forall (m : build) (b : bbox2),
  rect_i32 b ->
  exists l, bbox2_items m b = Ok l /\ enumerates b l.
Proof. intros m b H. exists (rect_points b). split; [now apply bbox2_items_ok|apply rect_points_spec]. Qed.
Print Assumptions C01_rect_iteration.

(** The result does not depend on the fuel of the model, as long as there is enough. *)
Theorem C01_rect_iteration_fuel : forall (m : build) (b : bbox2),
  rect_i32 b ->
  exists l n0, enumerates b l /\
    forall inner n, (n0 <= inner)%nat -> (n0 <= n)%nat ->
      bbox2_collect m inner n (bbox2_iter_new b) = Ok l.
Proof.
  intros m b H. exists (rect_points b).
  exists (S (Z.to_nat (py (b2max b) - py (b2min b)) +
             Z.to_nat (px (b2max b) - px (b2min b)) * Z.to_nat (py (b2max b) - py (b2min b)))%nat).
  split; [apply rect_points_spec|]. intros inner n H1 H2.
  apply bbox2_collect_ok; auto;
  revert H1 H2; generalize (Z.to_nat (px (b2max b) - px (b2min b)) * Z.to_nat (py (b2max b) - py (b2min b)))%nat;
  intros k H1 H2; lia.
Qed.
Print Assumptions C01_rect_iteration_fuel.

Example C01_example : bbox2_items Debug (mkB2 (mkP2 2 2) (mkP2 4 4)) =
  Ok [mkP2 2 2; mkP2 3 2; mkP2 2 3; mkP2 3 3].
Proof. reflexivity. Qed.
Example C01_example_inverted : bbox2_items Debug (mkB2 (mkP2 5 2) (mkP2 2 4)) = Ok [].
Proof. reflexivity. Qed.
Example C01_example_edge :
  bbox2_items Debug (mkB2 (mkP2 (2 ^ 31 - 3) (2 ^ 31 - 2)) (mkP2 (2 ^ 31 - 1) (2 ^ 31 - 1))) =
  Ok [mkP2 (2 ^ 31 - 3) (2 ^ 31 - 2); mkP2 (2 ^ 31 - 2) (2 ^ 31 - 2)].
Proof. reflexivity. Qed.

(** C02. The tiles of a sample area partition it into pieces of at most 16 by 16. *)
Theorem C02_tiles_partition : forall (m : build) (b : bbox2),
  tileable b ->
  exists l, tile_items m b = Ok l /\ partitions 16 b l.
Proof. intros m b H. exists (tile_list b). split; [now apply tile_items_ok|now apply tile_list_partitions]. Qed.
Print Assumptions C02_tiles_partition.

Example C02_example : tile_items Debug (mkB2 (mkP2 (-2) (-2)) (mkP2 30 15)) =
  Ok [mkB2 (mkP2 (-2) (-2)) (mkP2 14 14); mkB2 (mkP2 14 (-2)) (mkP2 30 14);
      mkB2 (mkP2 (-2) 14) (mkP2 14 15); mkB2 (mkP2 14 14) (mkP2 30 15)].
Proof. reflexivity. Qed.
Example C02_example_hyp : tileable (mkB2 (mkP2 (-2) (-2)) (mkP2 30 15)).
Proof. unfold tileable; simpl; lia. Qed.
