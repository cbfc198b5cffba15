(** * container.rs and container_simple.rs

    [T] stands for [Arc<Shape>]; [sh] gives the methods of a shape. *)
From Coq Require Import ZArith List Bool.
From Verif Require Import Model.Num Model.Vector Model.BBox Model.Interaction Model.Shape.
Import ListNotations.
Local Open Scope Z_scope.

(** container.rs:6-12 *)
Record container (F T : Type) := mkCont {
  c_bbox : bbox3 F;
  c_intersect_p : ray F -> res bool;
  c_intersect : ray F -> res (option (interaction F T));
}.
Arguments mkCont {F T}. Arguments c_bbox {F T}. Arguments c_intersect_p {F T}. Arguments c_intersect {F T}.

Section C.
  Context {F T : Type} {FO : FOps F}.
  Variable sh : T -> shape F T.

  (** bbox.rs:25-27 [bbox_of_shapes] *)
  Definition bbox_of_shapes (l : list T) : res (bbox3 F) := bbox_of_list (map (fun s => sh_bbox (sh s)) l).

  (** container_simple.rs:31-35 and container_kdtree.rs:264-268: a loop over shapes that returns
      [true] at the first hit *)
  Fixpoint any_hit (l : list T) (r : ray F) : res bool :=
    match l with
    | [] => Ok false
    | s :: l => let! b := sh_intersect_p (sh s) r in if b then Ok true else any_hit l r
    end.

  (** container_simple.rs:48-53 and container_kdtree.rs:348-353: a loop over shapes that keeps
      the last hit and the shortened ray *)
  Fixpoint last_hit (l : list T) (r : ray F) (i : option (interaction F T))
    : res (option (interaction F T) * ray F) :=
    match l with
    | [] => Ok (i, r)
    | s :: l =>
      let! (j, r) := shape_intersect s (sh s) r in
      last_hit l r (match j with Some _ => j | None => i end)
    end.

  (** container_simple.rs:9-12, 15-18 [Simple::new] *)
  Record simple := mkSimple { si_shapes : list T; si_bbox : bbox3 F }.
  Definition simple_new (l : list T) : res simple :=
    let! b := bbox_of_shapes l in Ok (mkSimple l b).

  (** container_simple.rs:26-38 *)
  Definition simple_intersect_p (c : simple) (r : ray F) : res bool :=
    match bbox_intersect (si_bbox c) r with
    | None => Ok false
    | Some _ => any_hit (si_shapes c) r
    end.

  (** container_simple.rs:40-56 *)
  Definition simple_intersect (c : simple) (r : ray F) : res (option (interaction F T)) :=
    match bbox_intersect (si_bbox c) r with
    | None => Ok None
    | Some _ => let! (i, r) := last_hit (si_shapes c) r None in Ok i
    end.

  (** container_simple.rs:21-57 *)
  Definition simple_container (c : simple) : container F T :=
    mkCont (si_bbox c) (simple_intersect_p c) (simple_intersect c).
End C.
