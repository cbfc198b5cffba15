(** * The k-d tree as the greedy tree for the surface area cost

    The scene is given by real boxes [blo s], [bhi s] of the shapes; the cell of a node is the box
    with the corners [lo], [hi]. *)
From Coq Require Import ZArith Reals List Bool Permutation.
From Verif Require Import Model.Num Model.NumX Model.Vector Model.KdTree Spec.RVec.
Import ListNotations.
Local Open Scope R_scope.

(** the coordinate of a vector along an axis, and the vector with that coordinate replaced *)
Definition crd (p : rv) (a : axis) : R := match a with AX => vx p | AY => vy p | AZ => vz p end.
Definition with_crd (p : rv) (a : axis) (x : R) : rv :=
  match a with AX => mkV3 x (vy p) (vz p) | AY => mkV3 (vx p) x (vz p) | AZ => mkV3 (vx p) (vy p) x end.

(** the area of the six faces of the box *)
Definition faces (lo hi : rv) : R :=
  let d := vsub hi lo in 2 * (vx d * vy d) + 2 * (vy d * vz d) + 2 * (vz d * vx d).

(** The expected cost of a node that is split at [t] into cells with [nb] and [na] shapes: one step
    down, and a test of 80 for each shape of the cells that are hit, the chance of a hit being the
    share of the face area; half of that if a cell is empty. *)
Definition sah (lo hi : rv) (a : axis) (t : R) (nb na : nat) : R :=
  1 + 80 * (if (Nat.eqb nb 0 || Nat.eqb na 0)%bool then 1 / 2 else 1) *
      (faces lo (with_crd hi a t) / faces lo hi * INR nb + faces (with_crd lo a t) hi / faces lo hi * INR na).
(** the cost of testing all shapes *)
Definition flat_cost (n : nat) : R := 80 * INR n.

Section Tree.
  Context {T : Type}.
  Variables blo bhi : T -> rv.

  (** how many shapes begin before [t], begin at or before it, end after it, end at or after it *)
  Definition count (P : T -> bool) (l : list T) : nat := length (filter P l).
  Definition Rltb (x y : R) : bool := if Rlt_dec x y then true else false.
  Definition Rleb (x y : R) : bool := if Rle_dec x y then true else false.
  Definition begin_before (l : list T) a t : nat := count (fun s => Rltb (crd (blo s) a) t) l.
  Definition begin_upto (l : list T) a t : nat := count (fun s => Rleb (crd (blo s) a) t) l.
  Definition end_after (l : list T) a t : nat := count (fun s => Rltb t (crd (bhi s) a)) l.
  Definition end_from (l : list T) a t : nat := count (fun s => Rleb t (crd (bhi s) a)) l.

  (** [t] lies strictly inside the cell, which is more than a segment *)
  Definition inside (lo hi : rv) a t : Prop := crd lo a < t < crd hi a /\ 0 < faces lo hi.
  (** a plane at which a shape begins or ends *)
  Definition at_begin (l : list T) a t : Prop := exists s, In s l /\ crd (blo s) a = t.
  Definition at_end (l : list T) a t : Prop := exists s, In s l /\ crd (bhi s) a = t.
  Definition can_split (lo hi : rv) (l : list T) a : Prop := exists t, inside lo hi a t /\ (at_begin l a t \/ at_end l a t).

  (** [axs] in this order: the longest side of the cell, then the following axes *)
  Definition longest (lo hi : rv) (a : axis) : Prop := forall b, crd (vsub hi lo) b <= crd (vsub hi lo) a.

  (** The shapes [below] and [above] of the two cells, when the cell is split at [t]: the shapes
      that begin before [t] (of those that begin at [t] any number), those that end after it
      (of those that end at [t] any number); and none is lost. *)
  Definition shares (l : list T) a t (below above : list T) : Prop :=
    (exists rest, Permutation l (below ++ rest) /\ Forall (fun s => crd (blo s) a <= t) below /\ Forall (fun s => t <= crd (blo s) a) rest) /\
    (exists rest, Permutation l (above ++ rest) /\ Forall (fun s => t <= crd (bhi s) a) above /\ Forall (fun s => crd (bhi s) a <= t) rest) /\
    (forall s, In s l -> In s below \/ In s above).

  (** The split at [t] is along the first axis with any plane to split at, and no plane of that axis
      costs less. *)
  Definition best_split (lo hi : rv) (l : list T) a t (below above : list T) : Prop :=
    inside lo hi a t /\ (at_begin l a t \/ at_end l a t) /\ shares l a t below above /\
    (exists a0, longest lo hi a0 /\
       (a = a0 \/ (a = axis_next a0 /\ ~ can_split lo hi l a0) \/
        (a = axis_next (axis_next a0) /\ ~ can_split lo hi l a0 /\ ~ can_split lo hi l (axis_next a0)))) /\
    (forall t', inside lo hi a t' -> at_begin l a t' ->
       sah lo hi a t (length below) (length above) <= sah lo hi a t' (begin_before l a t') (end_from l a t')) /\
    (forall t', inside lo hi a t' -> at_end l a t' ->
       sah lo hi a t (length below) (length above) <= sah lo hi a t' (begin_upto l a t') (end_after l a t')).

  (** the shapes listed in a leaf *)
  Definition listed {F} (nd : node F T) : option (list T) :=
    match nd with NSplit _ _ _ => None | NEmpty => Some [] | NShape s => Some [s] | NShapes l => Some l end.

  (** one bad split more if the best split costs more than none *)
  Definition bad_after (bad : Z) (c : R) (n : nat) : Z := if Rlt_dec (flat_cost n) c then (bad + 1)%Z else bad.
  Definition too_dear (bad : Z) (c : R) (n : nat) : Prop :=
    (4 * flat_cost n < c /\ (n < 16)%nat) \/ bad_after bad c n = 3%Z.

  (** Node [i] of the vector is the root of a greedy tree for the shapes [l] in the cell [lo], [hi],
      with [depth] levels left, after [bad] bad splits. *)
  Inductive greedy (nodes : list (node XR T)) : Z -> nat -> Z -> rv -> rv -> list T -> Prop :=
  | greedy_leaf i depth bad lo hi l nd :
      idx nodes i = Ok nd -> listed nd = Some l ->
      ((length l <= 8)%nat \/ depth = 0%nat \/ (forall a, ~ can_split lo hi l a) \/
       (exists a t below above, best_split lo hi l a t below above /\
          too_dear bad (sah lo hi a t (length below) (length above)) (length l))) ->
      greedy nodes i depth bad lo hi l
  | greedy_split i depth bad lo hi l a t ab below above :
      idx nodes i = Ok (NSplit a (XFin t) ab) ->
      (8 < length l)%nat -> best_split lo hi l a t below above ->
      let c := sah lo hi a t (length below) (length above) in
      ~ too_dear bad c (length l) ->
      greedy nodes (i + 1) depth (bad_after bad c (length l)) lo (with_crd hi a t) below ->
      greedy nodes ab depth (bad_after bad c (length l)) (with_crd lo a t) hi above ->
      greedy nodes i (S depth) bad lo hi l.
End Tree.

(** [cell nodes i lo hi j lo' hi']: if node [i] has the cell [lo], [hi] then its descendant [j] has
    the cell [lo'], [hi'] *)
Inductive cell {T} (nodes : list (node XR T)) : Z -> rv -> rv -> Z -> rv -> rv -> Prop :=
| cell_self i lo hi : cell nodes i lo hi i lo hi
| cell_below i lo hi a t ab j lo' hi' : idx nodes i = Ok (NSplit a (XFin t) ab) ->
    cell nodes (i + 1) lo (with_crd hi a t) j lo' hi' -> cell nodes i lo hi j lo' hi'
| cell_above i lo hi a t ab j lo' hi' : idx nodes i = Ok (NSplit a (XFin t) ab) ->
    cell nodes ab (with_crd lo a t) hi j lo' hi' -> cell nodes i lo hi j lo' hi'.

(** the box of the shape and the cell have a point in common *)
Definition touches (blo bhi lo hi : rv) : Prop := forall a, crd blo a <= crd hi a /\ crd lo a <= crd bhi a.
