(** * Matrices as functions of two indices *)
From Coq Require Import Reals List.
From Verif Require Import Model.Vector Model.NumX Model.Matrix Spec.RVec.
Local Open Scope R_scope.

(** [f 0 + ... + f (n-1)] *)
Fixpoint sumn (n : nat) (f : nat -> R) : R :=
  match n with O => 0 | S n => sumn n f + f n end.

(** Determinant by expansion along the first row, for any size *)
Fixpoint det (n : nat) (A : nat -> nat -> R) : R :=
  match n with
  | O => 1
  | S k => sumn n (fun j => (-1) ^ j * A O j
                            * det k (fun r c => A (S r) (if Nat.ltb c j then c else S c)))
  end.

Definition ent (a : mat R) (i j : nat) : R :=
  match i, j with
  | 0, 0 => m00 a | 0, 1 => m01 a | 0, 2 => m02 a | 0, 3 => m03 a
  | 1, 0 => m10 a | 1, 1 => m11 a | 1, 2 => m12 a | 1, 3 => m13 a
  | 2, 0 => m20 a | 2, 1 => m21 a | 2, 2 => m22 a | 2, 3 => m23 a
  | 3, 0 => m30 a | 3, 1 => m31 a | 3, 2 => m32 a | 3, 3 => m33 a
  | _, _ => 0%R
  end%nat.

Definition delta (i j : nat) : R := if Nat.eqb i j then 1 else 0.

(** entry (i,j) of the product *)
Definition prod_ent (a b : mat R) (i j : nat) : R := sumn 4 (fun k => ent a i k * ent b k j).

(** [a * b] is the identity *)
Definition is_id_prod (a b : mat R) : Prop :=
  forall i j, (i < 4)%nat -> (j < 4)%nat -> prod_ent a b i j = delta i j.

Definition two_sided_inverse (a b : mat R) : Prop := is_id_prod a b /\ is_id_prod b a.

(** A real matrix seen in extended arithmetic *)
Definition finm (a : mat R) : mat XR :=
  mkMat (XFin (m00 a)) (XFin (m01 a)) (XFin (m02 a)) (XFin (m03 a))
        (XFin (m10 a)) (XFin (m11 a)) (XFin (m12 a)) (XFin (m13 a))
        (XFin (m20 a)) (XFin (m21 a)) (XFin (m22 a)) (XFin (m23 a))
        (XFin (m30 a)) (XFin (m31 a)) (XFin (m32 a)) (XFin (m33 a)).

Definition entries {F} (a : mat F) : list F :=
  (m00 a :: m01 a :: m02 a :: m03 a :: m10 a :: m11 a :: m12 a :: m13 a ::
   m20 a :: m21 a :: m22 a :: m23 a :: m30 a :: m31 a :: m32 a :: m33 a :: nil)%list.

(** Coordinate [i] of the image of the homogeneous vector (x, y, z, w) *)
Definition hom (a : mat R) (v : rv) (w : R) (i : nat) : R :=
  ent a i 0 * vx v + ent a i 1 * vy v + ent a i 2 * vz v + ent a i 3 * w.

(** the last row is (0, 0, 0, 1): the map is affine *)
Definition affine (a : mat R) : Prop :=
  m30 a = 0 /\ m31 a = 0 /\ m32 a = 0 /\ m33 a = 1.
