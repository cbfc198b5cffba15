(** * Specification vocabulary: integer points, rectangles, row-major order *)
From Coq Require Import ZArith List Sorting.Sorted.
From Verif Require Import Model.Vector Model.BBox.
Local Open Scope Z_scope.

(** A point lies in the half-open rectangle. *)
Definition in_rect (b : bbox2) (p : P2 Z) : Prop :=
  px (b2min b) <= px p < px (b2max b) /\ py (b2min b) <= py p < py (b2max b).

(** Row-major order: first rows, then columns. *)
Definition row_major_lt (p q : P2 Z) : Prop :=
  py p < py q \/ (py p = py q /\ px p < px q).

(** [l] enumerates the points of [b], each once, in row-major order. *)
Definition enumerates (b : bbox2) (l : list (P2 Z)) : Prop :=
  StronglySorted row_major_lt l /\ NoDup l /\ (forall p, In p l <-> in_rect b p).

(** All corners are 32-bit integers. *)
Definition rect_i32 (b : bbox2) : Prop :=
  (- 2 ^ 31 <= px (b2min b) < 2 ^ 31) /\ (- 2 ^ 31 <= py (b2min b) < 2 ^ 31) /\
  (- 2 ^ 31 <= px (b2max b) < 2 ^ 31) /\ (- 2 ^ 31 <= py (b2max b) < 2 ^ 31).

(** A rectangle is non-empty and at most [n] by [n]. *)
Definition rect_size_le (n : Z) (b : bbox2) : Prop :=
  0 < px (b2max b) - px (b2min b) <= n /\ 0 < py (b2max b) - py (b2min b) <= n.

Definition rect_sub (a b : bbox2) : Prop :=
  px (b2min b) <= px (b2min a) /\ px (b2max a) <= px (b2max b) /\
  py (b2min b) <= py (b2min a) /\ py (b2max a) <= py (b2max b).

(** [l] cuts [b] into non-empty pieces of at most [n] by [n]: every point of [b] lies in the
    piece at exactly one position of [l], every piece lies inside [b]. *)
Definition partitions (n : Z) (b : bbox2) (l : list bbox2) : Prop :=
  (forall t, In t l -> rect_size_le n t /\ rect_sub t b) /\
  (forall p, in_rect b p ->
     exists k t, nth_error l k = Some t /\ in_rect t p /\
       forall k' t', nth_error l k' = Some t' -> in_rect t' p -> k' = k).
