(** * Containers: sorting, trees stored in a vector, shapes with a single first hit *)
From Coq Require Import ZArith Reals List Bool Permutation Sorted.
From Verif Require Import Model.Num Model.NumX Model.Vector Model.BBox Model.Interaction Model.Shape
  Model.Container Model.KdTree Spec.RVec Spec.BoxSpec Proofs.XBase.
Import ListNotations.
Local Open Scope R_scope.

(** The promise of the standard library's [slice::sort_by]: it ends; if it returns, the elements
    are permuted; if the comparison is a total order on the elements, it returns them sorted. *)
Definition total_cmp {A} (cmp : A -> A -> comparison) (l : list A) : Prop :=
  (forall a b, In a l -> In b l -> cmp a b = CompOpp (cmp b a)) /\
  (forall a b c, In a l -> In b l -> In c l -> cmp a b <> Gt -> cmp b c <> Gt -> cmp a c <> Gt).
Definition sort_by_ok {A} (cmp : A -> A -> comparison) (srt : list A -> res (list A)) : Prop :=
  forall l, srt l <> Timeout /\ (forall l', srt l = Ok l' -> Permutation l l') /\
    (total_cmp cmp l -> exists l', srt l = Ok l' /\ StronglySorted (fun a b => cmp a b <> Gt) l').

(** Node vectors: [steps nodes i k j] says that node [j] is [k] child links below node [i]; the
    children of an interior node [i] are [i + 1] and the stored index. *)
Section Nodes.
  Context {F T : Type}.
  Inductive steps (nodes : list (node F T)) : Z -> nat -> Z -> Prop :=
  | steps_0 i : steps nodes i 0 i
  | steps_below i k j a t ab : idx nodes i = Ok (NSplit a t ab) -> steps nodes (i + 1) k j -> steps nodes i (S k) j
  | steps_above i k j a t ab : idx nodes i = Ok (NSplit a t ab) -> steps nodes ab k j -> steps nodes i (S k) j.

  (** the shape is listed in the leaf [nd] *)
  Definition in_leaf (s : T) (nd : node F T) : Prop :=
    match nd with NSplit _ _ _ => False | NEmpty => False | NShape s' => s = s' | NShapes l => In s l end.
End Nodes.

(** Finite numbers, and boxes with finite ordered corners *)
Definition ffin {F} {FO : FOps F} (x : F) : Prop := fis_nan x = false /\ fis_inf x = false.
Definition v3fin {F} {FO : FOps F} (p : V3 F) : Prop := ffin (vx p) /\ ffin (vy p) /\ ffin (vz p).
Definition box_ordered {F} {FO : FOps F} (b : bbox3 F) : Prop :=
  v3fin (bmin b) /\ v3fin (bmax b) /\ v3le (bmin b) (bmax b).

(** A ray obtained from [r] by lowering [t_max] to parameters of hits on shapes of [l] *)
Inductive shortened {F T} {FO : FOps F} (sh : T -> shape F T) (l : list T) (r : ray F) : ray F -> Prop :=
| short_refl : shortened sh l r r
| short_hit r' s i t : shortened sh l r r' -> In s l -> sh_intersect (sh s) r' = Ok (Some (i, t)) ->
    shortened sh l r (mkRay (r_o r) (r_d r) t).

(** A shape that behaves like a closed surface of which the ray from [o] along [d] sees the first
    point only: a fixed hit [h], reported for exactly the rays that are long enough (at equality
    the shape may decide either way), with [intersect_p] agreeing; the hit is ahead of the origin
    and in the shape's box. *)
Definition one_hit {T} (s : shape XR T) (o d : rv) (h : option (interaction XR T * R)) : Prop :=
  (forall tmax, xis_nan tmax = false ->
    match h with
    | None => sh_intersect s (mkRay (fin3 o) (fin3 d) tmax) = Ok None /\
              sh_intersect_p s (mkRay (fin3 o) (fin3 d) tmax) = Ok false
    | Some (i, t) => exists b, sh_intersect s (mkRay (fin3 o) (fin3 d) tmax) = Ok (if b : bool then Some (i, XFin t) else None) /\
        sh_intersect_p s (mkRay (fin3 o) (fin3 d) tmax) = Ok b /\
        (xlt (XFin t) tmax = true -> b = true) /\ (xlt tmax (XFin t) = true -> b = false)
    end) /\
  match h with
  | None => True
  | Some (_, t) => 0 < t /\ exists lo hi, sh_bbox s = mkBB (fin3 lo) (fin3 hi) /\ in_box lo hi (at_t o d t)
  end.
Definition well_behaved {T} (s : shape XR T) (o d : rv) : Prop :=
  (exists lo hi, sh_bbox s = mkBB (fin3 lo) (fin3 hi) /\ vx lo <= vx hi /\ vy lo <= vy hi /\ vz lo <= vz hi) /\
  exists h, one_hit s o d h.

(** The answer [ans] of an [intersect] query with ray [r]: the nearest hit of the listed shapes,
    tagged with its shape; none only if no shape reports a hit. *)
(** the hit [i] of shape [s], marked with [s] and otherwise unchanged *)
Definition marked {F T} (i : interaction F T) (s : T) : interaction F T :=
  mkI (i_p i) (i_p_err i) (i_uv i) (i_n i) (i_sn i) (i_dpdu i) (i_dpdv i) (i_wo i) (Some s).
Definition nearest {T} (sh : T -> shape XR T) (l : list T) (r : ray XR) (ans : option (interaction XR T)) : Prop :=
  match ans with
  | None => forall s, In s l -> sh_intersect (sh s) r = Ok None
  | Some j => exists s i t, In s l /\ sh_intersect (sh s) r = Ok (Some (i, t)) /\ j = marked i s /\
      forall s' i' t', In s' l -> sh_intersect (sh s') r = Ok (Some (i', t')) -> xle t t' = true
  end.
Definition some_hit {T} (sh : T -> shape XR T) (l : list T) (r : ray XR) : Prop :=
  exists s i t, In s l /\ sh_intersect (sh s) r = Ok (Some (i, t)).
