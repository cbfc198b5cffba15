(** * Specification vocabulary: using a sampler through its interface *)
From Coq Require Import ZArith List.
From Verif Require Import Model.Num Model.Vector Model.BBox Model.Sampler.
Import ListNotations.

Section S.
  Context {F ST : Type} (sm : sampler_ops F ST).

  (** [reach s s']: some sequence of interface calls that all return leads from [s] to [s']. *)
  Inductive reach (s : ST) : ST -> Prop :=
  | reach_refl : reach s s
  | reach_start s1 p s2 : reach s s1 -> sm_start_pixel sm s1 p = Ok s2 -> reach s s2
  | reach_next s1 b s2 : reach s s1 -> sm_next_sample sm s1 = Ok (b, s2) -> reach s s2
  | reach_1d s1 x s2 : reach s s1 -> sm_get_1d sm s1 = Ok (x, s2) -> reach s s2
  | reach_2d s1 x s2 : reach s s1 -> sm_get_2d sm s1 = Ok (x, s2) -> reach s s2.

  (** Calls made while a pixel is being rendered, and everything they return. *)
  Inductive call := CNext | C1D | C2D.
  Inductive answer := ANext (more : bool) | A1D (x : F) | A2D (p : P2 F).

  Definition ask (c : call) (s : ST) : res (answer * ST) :=
    match c with
    | CNext => let! (b, s) := sm_next_sample sm s in Ok (ANext b, s)
    | C1D => let! (x, s) := sm_get_1d sm s in Ok (A1D x, s)
    | C2D => let! (x, s) := sm_get_2d sm s in Ok (A2D x, s)
    end.

  Fixpoint ask_all (cs : list call) (s : ST) : res (list answer * ST) :=
    match cs with
    | [] => Ok ([], s)
    | c :: cs => let! (a, s) := ask c s in let! (al, s) := ask_all cs s in Ok (a :: al, s)
    end.

  (** The sample stream of pixel [p]: the answers to the calls [cs] after [start_pixel p]. *)
  Definition pixel_stream (p : P2 Z) (cs : list call) (s : ST) : res (list answer) :=
    let! s := sm_start_pixel sm s p in
    let! (al, _) := ask_all cs s in
    Ok al.

  (** Some sequence of [get_1d] and [get_2d] calls leads from [s] to [s']. *)
  Inductive draws (s : ST) : ST -> Prop :=
  | draws_refl : draws s s
  | draws_1d s1 x s2 : draws s s1 -> sm_get_1d sm s1 = Ok (x, s2) -> draws s s2
  | draws_2d s1 x s2 : draws s s1 -> sm_get_2d sm s1 = Ok (x, s2) -> draws s s2.

  (** [start_next_sample] called [n] times *)
  Fixpoint next_n (n : nat) (s : ST) : res ST :=
    match n with
    | O => Ok s
    | S n => let! (_, s) := sm_next_sample sm s in next_n n s
    end.
End S.
Arguments answer : clear implicits.

(** In [0,1): finite, not negative, below 1. *)
Definition in_unit {F} {FO : FOps F} (x : F) : Prop :=
  fis_finite x = true /\ fle f0 x = true /\ flt x f1 = true.

Local Open Scope Z_scope.
(** A sampling area: non-negative size that fits i32. *)
Definition area (b : bbox2) (w h : Z) : Prop :=
  px (b2max b) - px (b2min b) = w /\ py (b2max b) - py (b2min b) = h /\ 0 <= w < 2 ^ 31 /\ 0 <= h < 2 ^ 31.
