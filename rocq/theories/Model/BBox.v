(** * bbox.rs: three-dimensional boxes over floats, two-dimensional boxes over i32 *)
From Coq Require Import ZArith List Bool.
From Verif Require Import Model.Num Model.Vector Model.Common.
Import ListNotations.
Local Open Scope Z_scope.

(** bbox.rs:12-15 *)
Record bbox3 (F : Type) := mkBB { bmin : V3 F; bmax : V3 F }.
Arguments mkBB {F}. Arguments bmin {F}. Arguments bmax {F}.

Section B.
  Context {F} {O : FOps F}.
  Local Open Scope f_scope.

  (** bbox.rs:18-23 [new] *)
  Definition bbox_new (a b : V3 F) : bbox3 F := mkBB (v3min a b) (v3max b a).

  (** bbox.rs:70-75 [union] *)
  Definition bbox_union (a b : bbox3 F) : bbox3 F :=
    mkBB (v3min (bmin a) (bmin b)) (v3max (bmax a) (bmax b)).

  (** bbox.rs:77-82 [union_point] *)
  Definition bbox_union_point (a : bbox3 F) (p : V3 F) : bbox3 F :=
    mkBB (v3min (bmin a) p) (v3max (bmax a) p).

  (** bbox.rs:25-27 [bbox_of_shapes], on the list of the shapes' boxes: [shapes[0]] panics
      on an empty slice. *)
  Definition bbox_of_list (l : list (bbox3 F)) : res (bbox3 F) :=
    match l with
    | [] => Panic
    | b :: l => Ok (fold_left bbox_union l b)
    end.

  (** bbox.rs:29-31 [diagonal] *)
  Definition bbox_diagonal (b : bbox3 F) : V3 F := v3sub (bmax b) (bmin b).

  (** bbox.rs:33-36 [surface_area] *)
  Definition bbox_surface_area (b : bbox3 F) : F :=
    let d := bbox_diagonal b in (vx d * vy d + vx d * vz d + vy d * vz d) * f2.

  (** bbox.rs:38-46 [max_extent] *)
  Definition bbox_max_extent (b : bbox3 F) : res axis := largest_axis (bbox_diagonal b).

  (** bbox.rs:64-68 [point_inside] *)
  Definition bbox_point_inside (b : bbox3 F) (p : V3 F) : bool :=
    (vx (bmin b) <=? vx p) && (vx p <=? vx (bmax b)) &&
    (vy (bmin b) <=? vy p) && (vy p <=? vy (bmax b)) &&
    (vz (bmin b) <=? vz p) && (vz p <=? vz (bmax b)).

  (** bbox.rs:58-62 [overlaps] *)
  Definition bbox_overlaps (a b : bbox3 F) : bool :=
    (vx (bmin b) <=? vx (bmax a)) && (vx (bmin a) <=? vx (bmax b)) &&
    (vy (bmin b) <=? vy (bmax a)) && (vy (bmin a) <=? vy (bmax b)) &&
    (vz (bmin b) <=? vz (bmax a)) && (vz (bmin a) <=? vz (bmax b)).

  (** bbox.rs:48-56 [bounding_sphere] *)
  Definition bbox_bounding_sphere (b : bbox3 F) : V3 F * F :=
    let center := v3divs (v3add (bmin b) (bmax b)) f2 in
    let radius := if bbox_point_inside b center then v3distance center (bmax b) else f0 in
    (center, radius).

  (** bbox.rs:90-104: one round of the slab loop *)
  Definition slab_step (b : bbox3 F) (r : ray F) (a : axis) (t0 t1 : F) : option (F * F) :=
    let t_near := (v3get (bmin b) a - v3get (r_o r) a) / v3get (r_d r) a in
    let t_far := (v3get (bmax b) a - v3get (r_o r) a) / v3get (r_d r) a in
    let '(t_near, t_far) := if t_near >? t_far then (t_far, t_near) else (t_near, t_far) in
    let t_far := t_far * (f1 + f2 * gamma (fofZ 3)) in
    let t0 := if t_near >? t0 then t_near else t0 in
    let t1 := if t_far <? t1 then t_far else t1 in
    if t0 >? t1 then None else Some (t0, t1).

  (** bbox.rs:84-109 [intersect] *)
  Definition bbox_intersect (b : bbox3 F) (r : ray F) : option (F * F) :=
    match slab_step b r AX f0 (r_tmax r) with
    | None => None
    | Some (t0, t1) =>
      match slab_step b r AY t0 t1 with
      | None => None
      | Some (t0, t1) => slab_step b r AZ t0 t1
      end
    end.
End B.

(** ** Two-dimensional integer boxes *)

(** bbox.rs:113-116, 139 [BBox2i] *)
Record bbox2 := mkB2 { b2min : P2 Z; b2max : P2 Z }.

(** vector.rs:267-281 [min], [max] on i32 *)
Definition p2min (a b : P2 Z) : P2 Z :=
  mkP2 (if px a <? px b then px a else px b) (if py a <? py b then py a else py b).
Definition p2max (a b : P2 Z) : P2 Z :=
  mkP2 (if px a >? px b then px a else px b) (if py a >? py b then py a else py b).

(** bbox.rs:119-124 [BBox2::new] *)
Definition bbox2_new (a b : P2 Z) : bbox2 := mkB2 (p2min a b) (p2max b a).

(** bbox.rs:128-130 [diagonal] at i32 *)
Definition bbox2_diagonal (m : build) (b : bbox2) : res (P2 Z) :=
  let! x := i32_of m (px (b2max b) - px (b2min b)) in
  let! y := i32_of m (py (b2max b) - py (b2min b)) in
  Ok (mkP2 x y).

(** bbox.rs:132-135 [area] at i32 *)
Definition bbox2_area (m : build) (b : bbox2) : res Z :=
  let! d := bbox2_diagonal m b in i32_of m (px d * py d).

(** bbox.rs:167-172 [BBox2iIter] *)
Record bbox2_iter := mkIt { it_max : P2 Z; it_minx : Z; it_x : Z; it_y : Z }.

(** bbox.rs:175-182 [BBox2iIter::new], 143-145 [iter] *)
Definition bbox2_iter_new (b : bbox2) : bbox2_iter :=
  mkIt (b2max b) (px (b2min b)) (px (b2min b)) (py (b2min b)).

(** bbox.rs:187-200 [BBox2iIter::next].  The [loop] is run with fuel. *)
Fixpoint bbox2_next (m : build) (fuel : nat) (it : bbox2_iter) : res (option (P2 Z) * bbox2_iter) :=
  match fuel with
  | O => Timeout
  | S fuel =>
    if it_y it >=? py (it_max it) then Ok (None, it)
    else if it_x it >=? px (it_max it) then
      let! y := i32_of m (it_y it + 1) in
      bbox2_next m fuel (mkIt (it_max it) (it_minx it) (it_minx it) y)
    else
      let! x := i32_of m (it_x it + 1) in
      Ok (Some (mkP2 (it_x it) (it_y it)), mkIt (it_max it) (it_minx it) x (it_y it))
  end.

(** A [for] loop over the iterator: collect up to [n] items; [Timeout] if it has not ended by
    then.  [inner] is the fuel of each [next]. *)
Fixpoint bbox2_collect (m : build) (inner n : nat) (it : bbox2_iter) : res (list (P2 Z)) :=
  match n with
  | O => Timeout
  | S n =>
    let! (o, it) := bbox2_next m inner it in
    match o with
    | None => Ok []
    | Some p => let! l := bbox2_collect m inner n it in Ok (p :: l)
    end
  end.

(** The items of [bbox.iter()], with fuel that [Proofs/Iter.v] shows to be sufficient. *)
Definition bbox2_items (m : build) (b : bbox2) : res (list (P2 Z)) :=
  let dx := Z.max 0 (px (b2max b) - px (b2min b)) in
  let dy := Z.max 0 (py (b2max b) - py (b2min b)) in
  bbox2_collect m (S (S (Z.to_nat dy))) (S (Z.to_nat (dx * dy))) (bbox2_iter_new b).
