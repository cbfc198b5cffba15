(** * Specification vocabulary for films *)
From Coq Require Import ZArith List Bool.
From Verif Require Import Model.Num Model.Vector Model.BBox Model.Film.
Import ListNotations.
Local Open Scope Z_scope.

Section S.
  Context {F} {O : FOps F}.

  (** One unit of work of a render thread: a tile and the samples splatted into it. *)
  Definition job : Type := bbox2 * list (P2 F * V3 F).

  Definition run_job (m : build) (fm : film F) (j : job) : res (film F) :=
    let! ft := get_film_tile m fm (fst j) in
    let! ft := rfold (fun ft s => tile_add_sample m ft (fst s) (snd s)) (snd j) ft in
    merge_film_tile m fm ft.

  (** A film position in the closed rectangle of a tile. *)
  Definition pos_in_tile (b : bbox2) (p : P2 F) : Prop :=
    fle (fofZ (px (b2min b))) (px p) = true /\ fle (px p) (fofZ (px (b2max b))) = true /\
    fle (fofZ (py (b2min b))) (py p) = true /\ fle (py p) (fofZ (py (b2max b))) = true.

  (** Neither NaN nor negative *)
  Definition nonneg (x : F) : Prop := fle f0 x = true.
  Definition finite_nonneg (x : F) : Prop := nonneg x /\ fis_inf x = false.

  Definition nonneg3 (v : V3 F) : Prop := nonneg (vx v) /\ nonneg (vy v) /\ nonneg (vz v).
  Definition finite_nonneg3 (v : V3 F) : Prop :=
    finite_nonneg (vx v) /\ finite_nonneg (vy v) /\ finite_nonneg (vz v).

  Definition clean_pixel (p : pixel F) : Prop := nonneg3 (p_color p) /\ nonneg (p_wsum p).
  Definition clean_film (fm : film F) : Prop := forall p, In p (fm_pixels fm) -> clean_pixel p.

  (** All weights of a filter table are finite and non-negative. *)
  Definition good_table (t : list (list F)) : Prop :=
    forall row w, In row t -> In w row -> finite_nonneg w.
End S.
Arguments job : clear implicits.

(** ** What splatting should do, in exact arithmetic *)
From Coq Require Import Reals.
From Flocq Require Import Core.Raux.
From Verif Require Import Model.NumX.
Local Open Scope R_scope.

(** The centre of pixel [q] is within [r] of coordinate [x]. *)
Definition covers (r x : R) (q : Z) : Prop := Rabs (IZR q + / 2 - x) <= r.

(** The cell of the 16-cell table for that distance. *)
Definition cell (r x : R) (q : Z) : Z := Z.min 15 (Zfloor (Rabs (IZR q + / 2 - x) / r * 16)).

Definition cell_weight (r : R) (table : list (list XR)) (pos : R * R) (q : P2 Z) : XR :=
  nth (Z.to_nat (cell r (fst pos) (px q))) (nth (Z.to_nat (cell r (snd pos) (py q))) table []) XNaN.

(** A pixel after a sample (position, radiance) has been spread over the film. *)
Definition deposit (r : R) (table : list (list XR)) (q : P2 Z) (c : pixel XR) (s : (R * R) * V3 XR) : pixel XR :=
  let '(pos, l) := s in
  if Rle_bool (Rabs (IZR (px q) + / 2 - fst pos)) r && Rle_bool (Rabs (IZR (py q) + / 2 - snd pos)) r then
    let w := cell_weight r table pos q in
    mkPixel (mkV3 (xadd (vx (p_color c)) (xmul (vx l) w))
                  (xadd (vy (p_color c)) (xmul (vy l) w))
                  (xadd (vz (p_color c)) (xmul (vz l) w)))
            (xadd (p_wsum c) w)
  else c.

(** The pixel of a film at [q] (row-major storage). *)
Definition film_at {F} (fm : film F) (q : P2 Z) : option (pixel F) :=
  nth_error (fm_pixels fm) (Z.to_nat (px (fm_res fm) * py q + px q)).
Definition on_film {F} (fm : film F) (q : P2 Z) : Prop :=
  (0 <= px q < px (fm_res fm) /\ 0 <= py q < py (fm_res fm))%Z.
