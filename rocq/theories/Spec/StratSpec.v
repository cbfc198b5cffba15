(** * Specification vocabulary: even spread of a pixel's samples (C94) *)
From Coq Require Import ZArith Reals List.
From Verif Require Import Model.Num Model.NumX Model.Vector Model.Sampler.
From Verif Require Import Spec.SamplerSpec.
Import ListNotations.
Local Open Scope Z_scope.

(** all the numbers of some answers, in the order in which they were given *)
Definition numbers_of {F} (al : list (answer F)) : list F :=
  flat_map (fun a => match a with ANext _ => [] | A1D x => [x] | A2D p => [px p; py p] end) al.

(** Started on pixel [p], the sampler hands out [v] as number [k] of the pixel's sample [n]. *)
Definition gives {F ST} (sm : sampler_ops F ST) (s : ST) (p : P2 Z) (n k : nat) (v : F) : Prop :=
  exists s1 s2 cs al s3, sm_start_pixel sm s p = Ok s1 /\ next_n sm n s1 = Ok s2 /\ ~ In CNext cs /\
    ask_all sm cs s2 = Ok (al, s3) /\ nth_error (numbers_of al) k = Some v.

(** One side of a box in the space of all numbers of a sample: in dimension [sd_dim], of the [sd_base]^[sd_exp] equal
    parts of the unit interval, part number [sd_cell]. *)
Record side := mkSide { sd_dim : nat; sd_base : Z; sd_exp : Z; sd_cell : Z }.
Definition parts (d : side) : Z := sd_base d ^ sd_exp d.
Definition in_part (d : side) (v : XR) : Prop := exists x, v = XFin x /\ (IZR (sd_cell d) / IZR (parts d) <= x < (IZR (sd_cell d) + 1) / IZR (parts d))%R.

(** how many boxes of that shape fill the unit cube *)
Definition boxes (l : list side) : Z := fold_right Z.mul 1 (map parts l).

Definition in_box {ST} (sm : sampler_ops XR ST) (s : ST) (p : P2 Z) (l : list side) (n : nat) : Prop :=
  forall d, In d l -> exists v, gives sm s p n (sd_dim d) v /\ in_part d v.

(** The numbers of the samples below [N] have at most [d] digits in base [b], and [d] digits fit 32 bits; [stride] is the
    step from one sample of a pixel to the next. *)
Definition room (stride b N : Z) : Prop := exists d, 0 <= d /\ N * stride <= b ^ d < 2 ^ 32.
