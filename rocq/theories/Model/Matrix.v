(** * matrix.rs: 4x4 matrices

    The nested array [[f32; 4]; 4] is a record of 16 fields [mij] (row i, column j). *)
From Coq Require Import ZArith List Bool.
From Verif Require Import Model.Num.
Local Open Scope Z_scope.

(** matrix.rs:5-7 *)
Record mat (F : Type) := mkMat {
  m00 : F; m01 : F; m02 : F; m03 : F;
  m10 : F; m11 : F; m12 : F; m13 : F;
  m20 : F; m21 : F; m22 : F; m23 : F;
  m30 : F; m31 : F; m32 : F; m33 : F;
}.
Arguments mkMat {F}. Arguments m00 {F}. Arguments m01 {F}. Arguments m02 {F}. Arguments m03 {F}. Arguments m10 {F}. Arguments m11 {F}. Arguments m12 {F}. Arguments m13 {F}. Arguments m20 {F}. Arguments m21 {F}. Arguments m22 {F}. Arguments m23 {F}. Arguments m30 {F}. Arguments m31 {F}. Arguments m32 {F}. Arguments m33 {F}.

Section M.
  Context {F} {O : FOps F}.
  Local Open Scope f_scope.

  (** matrix.rs:30-37 [transpose] *)
  Definition mat_transpose (a : mat F) : mat F :=
    mkMat (m00 a) (m10 a) (m20 a) (m30 a)
          (m01 a) (m11 a) (m21 a) (m31 a)
          (m02 a) (m12 a) (m22 a) (m32 a)
          (m03 a) (m13 a) (m23 a) (m33 a).

  (** matrix.rs:42-57: the entries [r[i][j]] before the division *)
  Definition mat_adjugate (a : mat F) : mat F :=
    mkMat
      (m12 a * m23 a * m31 a - m13 a * m22 a * m31 a + m13 a * m21 a * m32 a - m11 a * m23 a * m32 a - m12 a * m21 a * m33 a + m11 a * m22 a * m33 a)
      (m03 a * m22 a * m31 a - m02 a * m23 a * m31 a - m03 a * m21 a * m32 a + m01 a * m23 a * m32 a + m02 a * m21 a * m33 a - m01 a * m22 a * m33 a)
      (m02 a * m13 a * m31 a - m03 a * m12 a * m31 a + m03 a * m11 a * m32 a - m01 a * m13 a * m32 a - m02 a * m11 a * m33 a + m01 a * m12 a * m33 a)
      (m03 a * m12 a * m21 a - m02 a * m13 a * m21 a - m03 a * m11 a * m22 a + m01 a * m13 a * m22 a + m02 a * m11 a * m23 a - m01 a * m12 a * m23 a)
      (m13 a * m22 a * m30 a - m12 a * m23 a * m30 a - m13 a * m20 a * m32 a + m10 a * m23 a * m32 a + m12 a * m20 a * m33 a - m10 a * m22 a * m33 a)
      (m02 a * m23 a * m30 a - m03 a * m22 a * m30 a + m03 a * m20 a * m32 a - m00 a * m23 a * m32 a - m02 a * m20 a * m33 a + m00 a * m22 a * m33 a)
      (m03 a * m12 a * m30 a - m02 a * m13 a * m30 a - m03 a * m10 a * m32 a + m00 a * m13 a * m32 a + m02 a * m10 a * m33 a - m00 a * m12 a * m33 a)
      (m02 a * m13 a * m20 a - m03 a * m12 a * m20 a + m03 a * m10 a * m22 a - m00 a * m13 a * m22 a - m02 a * m10 a * m23 a + m00 a * m12 a * m23 a)
      (m11 a * m23 a * m30 a - m13 a * m21 a * m30 a + m13 a * m20 a * m31 a - m10 a * m23 a * m31 a - m11 a * m20 a * m33 a + m10 a * m21 a * m33 a)
      (m03 a * m21 a * m30 a - m01 a * m23 a * m30 a - m03 a * m20 a * m31 a + m00 a * m23 a * m31 a + m01 a * m20 a * m33 a - m00 a * m21 a * m33 a)
      (m01 a * m13 a * m30 a - m03 a * m11 a * m30 a + m03 a * m10 a * m31 a - m00 a * m13 a * m31 a - m01 a * m10 a * m33 a + m00 a * m11 a * m33 a)
      (m03 a * m11 a * m20 a - m01 a * m13 a * m20 a - m03 a * m10 a * m21 a + m00 a * m13 a * m21 a + m01 a * m10 a * m23 a - m00 a * m11 a * m23 a)
      (m12 a * m21 a * m30 a - m11 a * m22 a * m30 a - m12 a * m20 a * m31 a + m10 a * m22 a * m31 a + m11 a * m20 a * m32 a - m10 a * m21 a * m32 a)
      (m01 a * m22 a * m30 a - m02 a * m21 a * m30 a + m02 a * m20 a * m31 a - m00 a * m22 a * m31 a - m01 a * m20 a * m32 a + m00 a * m21 a * m32 a)
      (m02 a * m11 a * m30 a - m01 a * m12 a * m30 a - m02 a * m10 a * m31 a + m00 a * m12 a * m31 a + m01 a * m10 a * m32 a - m00 a * m11 a * m32 a)
      (m01 a * m12 a * m20 a - m02 a * m11 a * m20 a + m02 a * m10 a * m21 a - m00 a * m12 a * m21 a - m01 a * m10 a * m22 a + m00 a * m11 a * m22 a).

  (** matrix.rs:59-65: the number [d] *)
  Definition mat_det (a : mat F) : F :=
    m03 a * m12 a * m21 a * m30 a - m02 a * m13 a * m21 a * m30 a
    - m03 a * m11 a * m22 a * m30 a + m01 a * m13 a * m22 a * m30 a
    + m02 a * m11 a * m23 a * m30 a - m01 a * m12 a * m23 a * m30 a
    - m03 a * m12 a * m20 a * m31 a + m02 a * m13 a * m20 a * m31 a
    + m03 a * m10 a * m22 a * m31 a - m00 a * m13 a * m22 a * m31 a
    - m02 a * m10 a * m23 a * m31 a + m00 a * m12 a * m23 a * m31 a
    + m03 a * m11 a * m20 a * m32 a - m01 a * m13 a * m20 a * m32 a
    - m03 a * m10 a * m21 a * m32 a + m00 a * m13 a * m21 a * m32 a
    + m01 a * m10 a * m23 a * m32 a - m00 a * m11 a * m23 a * m32 a
    - m02 a * m11 a * m20 a * m33 a + m01 a * m12 a * m20 a * m33 a
    + m02 a * m10 a * m21 a * m33 a - m00 a * m12 a * m21 a * m33 a
    - m01 a * m10 a * m22 a * m33 a + m00 a * m11 a * m22 a * m33 a.

  (** matrix.rs:91-102 [Div<f32>] *)
  Definition mat_divs (a : mat F) (n : F) : mat F :=
    mkMat (m00 a / n) (m01 a / n) (m02 a / n) (m03 a / n)
          (m10 a / n) (m11 a / n) (m12 a / n) (m13 a / n)
          (m20 a / n) (m21 a / n) (m22 a / n) (m23 a / n)
          (m30 a / n) (m31 a / n) (m32 a / n) (m33 a / n).

  (** matrix.rs:39-71 [inverse]; the assertion of line 66 is a debug assertion *)
  Definition mat_inverse (b : build) (a : mat F) : res (mat F) :=
    let d := mat_det a in
    match b with
    | Debug => if d =? f0 then Panic else Ok (mat_divs (mat_adjugate a) d)
    | Release => Ok (mat_divs (mat_adjugate a) d)
    end.

  (** matrix.rs:74-89 [Mul] *)
  Definition mat_mul (a b : mat F) : mat F :=
    mkMat
      (m00 a * m00 b + m01 a * m10 b + m02 a * m20 b + m03 a * m30 b)
      (m00 a * m01 b + m01 a * m11 b + m02 a * m21 b + m03 a * m31 b)
      (m00 a * m02 b + m01 a * m12 b + m02 a * m22 b + m03 a * m32 b)
      (m00 a * m03 b + m01 a * m13 b + m02 a * m23 b + m03 a * m33 b)
      (m10 a * m00 b + m11 a * m10 b + m12 a * m20 b + m13 a * m30 b)
      (m10 a * m01 b + m11 a * m11 b + m12 a * m21 b + m13 a * m31 b)
      (m10 a * m02 b + m11 a * m12 b + m12 a * m22 b + m13 a * m32 b)
      (m10 a * m03 b + m11 a * m13 b + m12 a * m23 b + m13 a * m33 b)
      (m20 a * m00 b + m21 a * m10 b + m22 a * m20 b + m23 a * m30 b)
      (m20 a * m01 b + m21 a * m11 b + m22 a * m21 b + m23 a * m31 b)
      (m20 a * m02 b + m21 a * m12 b + m22 a * m22 b + m23 a * m32 b)
      (m20 a * m03 b + m21 a * m13 b + m22 a * m23 b + m23 a * m33 b)
      (m30 a * m00 b + m31 a * m10 b + m32 a * m20 b + m33 a * m30 b)
      (m30 a * m01 b + m31 a * m11 b + m32 a * m21 b + m33 a * m31 b)
      (m30 a * m02 b + m31 a * m12 b + m32 a * m22 b + m33 a * m32 b)
      (m30 a * m03 b + m31 a * m13 b + m32 a * m23 b + m33 a * m33 b).
End M.
