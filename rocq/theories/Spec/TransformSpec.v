(** * Expressions of transform constructors *)
From Coq Require Import ZArith Reals List.
From Verif Require Import Model.Num Model.NumX Model.Vector Model.Matrix Model.Transform
  Proofs.XBase Spec.RVec Spec.MatSpec.
Local Open Scope R_scope.

(** Every way the public interface offers to obtain a transform; the arguments are arbitrary
    extended reals. *)
Inductive texpr : Type :=
| ETranslate (x y z : XR)
| EScale (x y z : XR)
| ERotX (deg : XR)
| ERotY (deg : XR)
| ERotZ (deg : XR)
| EPersp (fov n f : XR)
| ELookAt (pos look up : V3 XR)
| EFrom (m : mat XR)
| EInv (e : texpr)
| EMul (a b : texpr).

Fixpoint teval (b : build) (e : texpr) : res (transform XR) :=
  match e with
  | ETranslate x y z => Ok (t_translate x y z)
  | EScale x y z => Ok (t_scale x y z)
  | ERotX d => Ok (t_rotate_x d)
  | ERotY d => Ok (t_rotate_y d)
  | ERotZ d => Ok (t_rotate_z d)
  | EPersp fov n f => t_perspective b fov n f
  | ELookAt p l u => t_look_at b p l u
  | EFrom m => t_from b m
  | EInv e => let! t := teval b e in Ok (t_inverse t)
  | EMul s t => let! s := teval b s in let! t := teval b t in Ok (t_mul s t)
  end.

(** The arguments for which the constructors make mathematical sense *)
Fixpoint wf (e : texpr) : Prop :=
  match e with
  | ETranslate x y z => exists a b c, x = XFin a /\ y = XFin b /\ z = XFin c
  | EScale x y z =>
      exists a b c, x = XFin a /\ y = XFin b /\ z = XFin c /\ a <> 0 /\ b <> 0 /\ c <> 0
  | ERotX d | ERotY d | ERotZ d => exists a, d = XFin a
  | EPersp fov n f =>
      exists a p q, fov = XFin a /\ n = XFin p /\ f = XFin q /\
        0 < a < 180 /\ p <> 0 /\ q <> 0 /\ p <> q
  | ELookAt p l u =>
      exists p' l' u', p = fin3 p' /\ l = fin3 l' /\ u = fin3 u' /\
        l' <> p' /\ vcross u' (vsub l' p') <> v0
  | EFrom m => exists a, m = finm a /\ det 4 (ent a) <> 0
  | EInv e => wf e
  | EMul a b => wf a /\ wf b
  end.

(** Expressions that describe affine maps *)
Fixpoint affine_expr (e : texpr) : Prop :=
  match e with
  | EPersp _ _ _ => False
  | EFrom m => m30 m = XFin 0 /\ m31 m = XFin 0 /\ m32 m = XFin 0 /\ m33 m = XFin 1
  | EInv e => affine_expr e
  | EMul a b => affine_expr a /\ affine_expr b
  | _ => True
  end.

(** A pair of finite matrices, one inverse to the other *)
Definition good (t : transform XR) (M N : mat R) : Prop :=
  t = mkT (finm M) (finm N) /\ two_sided_inverse M N.

Definition ex : rv := mkV3 1 0 0.
Definition ey : rv := mkV3 0 1 0.
Definition ez : rv := mkV3 0 0 1.
