(** * How a pixel of the film came about, and what it should be

    Independent vocabulary for C108: the sequence of splats and merges that made a pixel, in any
    arithmetic, and the exact weighted mean of the binary32 samples that reached it. *)
From Coq Require Import ZArith Reals List.
From Flocq Require Import Core IEEE754.BinarySingleNaN.
From Verif Require Import Model.Num Model.NumB Model.Vector Model.BBox Model.Film Spec.Ppm.
Import ListNotations.
Local Open Scope R_scope.

(** A new pixel, a pixel a sample was added to, a pixel another one was merged into. *)
Inductive trace (F : Type) : Type :=
| TNew
| TAdd (t : trace F) (l : V3 F) (w : F)
| TMerge (t t' : trace F).
Arguments TNew {F}. Arguments TAdd {F}. Arguments TMerge {F}.

(** The samples (radiance and filter weight) that reached the pixel. *)
Fixpoint arrived {F} (t : trace F) : list (V3 F * F) :=
  match t with
  | TNew => []
  | TAdd t l w => (l, w) :: arrived t
  | TMerge t t' => arrived t ++ arrived t'
  end.

(** What the code computes along the trace. *)
Fixpoint result {F} {FO : FOps F} (t : trace F) : pixel F :=
  match t with
  | TNew => pixel_default
  | TAdd t l w => pixel_add_sample (result t) l w
  | TMerge t t' => pixel_merge (result t) (result t')
  end.

(** The longest chain of additions in it. *)
Fixpoint chain {F} (t : trace F) : nat :=
  match t with
  | TNew => 0
  | TAdd t _ _ => S (chain t)
  | TMerge t t' => S (Nat.max (chain t) (chain t'))
  end.

(** The reals the binary32 samples stand for. *)
Definition sum_of (f : V3 b32 * b32 -> R) (l : list (V3 b32 * b32)) : R := fold_right Rplus 0 (map f l).
Definition light_sum (c : chan) (l : list (V3 b32 * b32)) : R := sum_of (fun s => B2R (sel c (fst s)) * B2R (snd s)) l.
Definition weight_sum (l : list (V3 b32 * b32)) : R := sum_of (fun s => B2R (snd s)) l.
(** The exact weighted mean of a channel *)
Definition exact_mean (c : chan) (l : list (V3 b32 * b32)) : R := light_sum c l / weight_sum l.

(** Samples of a size at which nothing overflows: finite non-negative channels of at most 2^90, finite
    non-negative weights of sum at most 2^30; at most 2^20 samples whose weights sum to at least 2^-20. *)
Definition moderate (l : list (V3 b32 * b32)) : Prop :=
  (forall s, In s l ->
     (forall c, is_finite (sel c (fst s)) = true /\ 0 <= B2R (sel c (fst s)) <= IZR (2 ^ 90)) /\
     is_finite (snd s) = true /\ 0 <= B2R (snd s)) /\
  / IZR (2 ^ 20) <= weight_sum l <= IZR (2 ^ 30) /\ (Z.of_nat (length l) <= 2 ^ 20)%Z.

(** [v] is the mean of the samples up to a relative error of (n + 1) / 2^22, where n additions and merges
    follow one another, and up to light too faint for binary32. *)
Definition near_mean (n : nat) (c : chan) (l : list (V3 b32 * b32)) (v : b32) : Prop :=
  is_finite v = true /\
  Rabs (B2R v - exact_mean c l) <= INR (n + 1) / IZR (2 ^ 22) * exact_mean c l + / IZR (2 ^ 100).

(** A pixel lies in a rectangle (half open). *)
Definition inside (b : bbox2) (q : P2 Z) : bool :=
  ((px (b2min b) <=? px q) && (px q <? px (b2max b)) && ((py (b2min b) <=? py q) && (py q <? py (b2max b))))%Z%bool.
(** How many of the tiles can reach the pixel *)
Definition tiles_over {F} {FO : FOps F} (fm : film F) (tiles : list bbox2) (q : P2 Z) : nat :=
  length (List.filter (fun b => inside (film_tile_bbox fm b) q) tiles).
