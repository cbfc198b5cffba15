(** * With rounding the order of the corners shows in the last bits (C120) *)
From Coq Require Import ZArith Bool List.
From Verif Require Import Model.Num Model.NumB Model.Vector Model.Common Model.BBox Model.Interaction Model.Shape Model.Triangle
  Props.VertexOrder.
Import ListNotations.
Local Open Scope Z_scope.

Lemma unpack (FO : FOps b32) (v : tri (V3 b32)) (p : order) (r : ray b32) :
  match tr_intersect (T := unit) (mkTri v None false) r, tr_intersect (T := unit) (mkTri (reorder p v) None false) r with
  | Ok (Some (i, t)), Ok (Some (i', t')) => negb (odd_order p) && feq t t' && flt (vx (i_p i')) (vx (i_p i))
  | _, _ => false end = true ->
  exists (i i' : interaction b32 unit) (t t' : b32),
    odd_order p = false /\
    tr_intersect (mkTri v None false) r = Ok (Some (i, t)) /\
    tr_intersect (mkTri (reorder p v) None false) r = Ok (Some (i', t')) /\
    feq t t' = true /\ flt (vx (i_p i')) (vx (i_p i)) = true.
Proof.
  intros H.
  destruct (tr_intersect (T := unit) (mkTri v None false) r) as [[[i t]|]| |]; try discriminate.
  destruct (tr_intersect (T := unit) (mkTri (reorder p v) None false) r) as [[[i' t']|]| |]; try discriminate.
  apply andb_true_iff in H as [A B]. apply andb_true_iff in A as [A C]. apply negb_true_iff in A.
  exists i, i', t, t'. auto.
Qed.

Definition whole (x y z : Z) : V3 b32 := mkV3 (Bof_Z x) (Bof_Z y) (Bof_Z z).

(** In single precision the point of the hit does depend on the order: the ray from (0, 0, 1) downwards meets
    the triangle (5, 1, 0), (-1, 4, 0), (-3, -2, 0) at one place if the corners come in this order, and at
    another (less than a ten-millionth of a unit away) if they are passed round. *)
Theorem C120_rounding_refuted : forall L : Libm b32, let _ := B32_FOps L in
  exists (v : tri (V3 b32)) (p : order) (r : ray b32) (i i' : interaction b32 unit) (t t' : b32),
    odd_order p = false /\
    tr_intersect (mkTri v None false) r = Ok (Some (i, t)) /\
    tr_intersect (mkTri (reorder p v) None false) r = Ok (Some (i', t')) /\
    feq t t' = true /\ flt (vx (i_p i')) (vx (i_p i)) = true.
Proof.
  intros L FO. exists (mk3 (whole 5 1 0) (whole (-1) 4 0) (whole (-3) (-2) 0)), O201, (mkRay (whole 0 0 1) (whole 0 0 (-1)) (Bof_Z 5)).
  apply (unpack (B32_FOps L)). vm_compute. reflexivity.
Qed.
