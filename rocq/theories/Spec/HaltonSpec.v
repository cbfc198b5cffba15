(** * Specification vocabulary for the Halton sampler *)
From Coq Require Import ZArith Reals List Znumtheory.
Import ListNotations.
Local Open Scope Z_scope.

(** Digit [i] of [a] in base [b]. *)
Definition digit_at (b a : Z) (i : nat) : Z := (a / b ^ Z.of_nat i) mod b.

(** The digits of [a] mirrored at the radix point: sum of d_i / b^(i+1), over [n] digits. *)
Definition mirrored (b a : Z) (n : nat) : R :=
  fold_right Rplus 0%R (map (fun i => (IZR (digit_at b a i) / IZR (b ^ Z.of_nat (S i)))%R) (seq 0 n)).

(** [n] is the number of base-[b] digits of [a] (0 has none). *)
Definition digit_count (b a : Z) (n : nat) : Prop :=
  a < b ^ Z.of_nat n /\ (n <> O -> b ^ Z.of_nat (pred n) <= a).

(** [l] is the increasing list of all primes up to its last element. *)
Definition first_primes (l : list Z) : Prop :=
  forall i p, nth_error l i = Some p ->
    prime p /\ (forall q, prime q -> q < p -> exists j, (j < i)%nat /\ nth_error l j = Some q) /\
    (forall j q, (j < i)%nat -> nth_error l j = Some q -> q < p).
