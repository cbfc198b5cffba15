(** * Results, machine integers and the floating-point interface

    Everything in [Model/] is written over the class [FOps] below and is
    instantiated in [NumB.v] (IEEE binary32) and [NumX.v] (exact arithmetic with
    NaN and infinities). *)
From Coq Require Import ZArith List Bool Lia.
Import ListNotations.
Local Open Scope Z_scope.

(** ** Results: a Rust computation returns, panics, or (model only) runs out of fuel. *)
Inductive res (A : Type) : Type :=
| Ok (a : A)
| Panic
| Timeout.
Arguments Ok {A} a.
Arguments Panic {A}.
Arguments Timeout {A}.

Definition rbind {A B} (r : res A) (k : A -> res B) : res B :=
  match r with Ok a => k a | Panic => Panic | Timeout => Timeout end.

Notation "'let!' x ':=' e 'in' k" := (rbind e (fun x => k))
  (at level 200, x pattern, e at level 100, k at level 200, right associativity).

Definition rmap {A B} (f : A -> B) (r : res A) : res B :=
  match r with Ok a => Ok (f a) | Panic => Panic | Timeout => Timeout end.

(** Left fold in the result monad: a Rust [for] loop whose body can panic. *)
Fixpoint rfold {A S} (f : S -> A -> res S) (l : list A) (s : S) : res S :=
  match l with
  | [] => Ok s
  | a :: l => let! s := f s a in rfold f l s
  end.

(** Map in the result monad. *)
Fixpoint rmapm {A B} (f : A -> res B) (l : list A) : res (list B) :=
  match l with
  | [] => Ok []
  | a :: l => let! b := f a in let! bs := rmapm f l in Ok (b :: bs)
  end.

(** Slice indexing [v[i]] with a [usize] index: panics out of range. *)
Definition idx {A} (l : list A) (i : Z) : res A :=
  if i <? 0 then Panic
  else match nth_error l (Z.to_nat i) with Some a => Ok a | None => Panic end.

Fixpoint set_nth {A} (l : list A) (n : nat) (a : A) : list A :=
  match l, n with
  | [], _ => []
  | _ :: l, O => a :: l
  | x :: l, S n => x :: set_nth l n a
  end.

(** [v[i] = f(v[i])] *)
Definition upd {A} (l : list A) (i : Z) (f : A -> A) : res (list A) :=
  let! a := idx l i in Ok (set_nth l (Z.to_nat i) (f a)).

(** ** Machine integers.  Rust's overflow behaviour depends on the build profile. *)
Inductive build := Debug | Release.

Definition i32_min : Z := - 2 ^ 31.
Definition i32_max : Z := 2 ^ 31 - 1.
Definition u32_max : Z := 2 ^ 32 - 1.
Definition i64_min : Z := - 2 ^ 63.
Definition i64_max : Z := 2 ^ 63 - 1.
Definition usize_max : Z := 2 ^ 64 - 1.

Definition in_i32 (z : Z) : Prop := i32_min <= z <= i32_max.
Definition in_u32 (z : Z) : Prop := 0 <= z <= u32_max.

Definition in_rangeb (lo hi z : Z) : bool := (lo <=? z) && (z <=? hi).

Definition wrap_u (bits z : Z) : Z := z mod 2 ^ bits.
Definition wrap_s (bits z : Z) : Z := (z + 2 ^ (bits - 1)) mod 2 ^ bits - 2 ^ (bits - 1).

(** Result of an i32 operation whose mathematical value is [z]. *)
Definition i32_of (b : build) (z : Z) : res Z :=
  if in_rangeb i32_min i32_max z then Ok z
  else match b with Debug => Panic | Release => Ok (wrap_s 32 z) end.

(** Result of a u32 operation whose mathematical value is [z]. *)
Definition u32_of (b : build) (z : Z) : res Z :=
  if in_rangeb 0 u32_max z then Ok z
  else match b with Debug => Panic | Release => Ok (wrap_u 32 z) end.

(** Result of a usize operation whose mathematical value is [z]. *)
Definition usize_of (b : build) (z : Z) : res Z :=
  if in_rangeb 0 usize_max z then Ok z
  else match b with Debug => Panic | Release => Ok (wrap_u 64 z) end.

(** Result of an i64 operation whose mathematical value is [z]. *)
Definition i64_of (b : build) (z : Z) : res Z :=
  if in_rangeb i64_min i64_max z then Ok z
  else match b with Debug => Panic | Release => Ok (wrap_s 64 z) end.

(** [i32 as usize] (sign extension to 64 bits). *)
Definition i32_as_usize (z : Z) : Z := wrap_u 64 z.

(** ** Floating point *)
Class FOps (F : Type) : Type := {
  fadd : F -> F -> F;
  fsub : F -> F -> F;
  fmul : F -> F -> F;
  fdiv : F -> F -> F;
  fneg : F -> F;
  fabs : F -> F;
  fsqrt : F -> F;
  (** IEEE comparisons: false as soon as one side is NaN. *)
  flt : F -> F -> bool;
  fle : F -> F -> bool;
  feq : F -> F -> bool;
  fis_nan : F -> bool;
  fis_inf : F -> bool;
  (** correctly rounded conversion of an integer ([z as f32], integer literals) *)
  fofZ : Z -> F;
  finf : F;
  (** f32::EPSILON = 2^-23, f32::MAX, f32::consts::PI *)
  feps : F;
  fmaxv : F;
  fpi : F;
  ffloor : F -> F;
  fceil : F -> F;
  (** f32::round: to nearest, ties away from zero *)
  fround : F -> F;
  (** [x as iN]: truncation, saturating at [lo], [hi]; NaN gives 0 *)
  fto_int : Z -> Z -> F -> Z;
  (** common.rs:34-68 *)
  fnext_up : F -> F;
  fnext_down : F -> F;
  fsin : F -> F;
  fcos : F -> F;
  ftan : F -> F;
  fatan : F -> F;
  facos : F -> F;
  fatan2 : F -> F -> F;
  fexp : F -> F;
  fln : F -> F;
  fpowf : F -> F -> F;
}.

Declare Scope f_scope.
Delimit Scope f_scope with f.
Infix "+" := fadd : f_scope.
Infix "-" := fsub : f_scope.
Infix "*" := fmul : f_scope.
Infix "/" := fdiv : f_scope.
Notation "- x" := (fneg x) : f_scope.
Infix "<?" := flt : f_scope.
Infix "<=?" := fle : f_scope.
Infix "=?" := feq : f_scope.
Notation "x >? y" := (flt y x) (only parsing) : f_scope.
Notation "x >=? y" := (fle y x) (only parsing) : f_scope.

Section Derived.
  Context {F} {O : FOps F}.
  Local Open Scope f_scope.

  (** Integer literals [0.], [1.], [2.], ... *)
  Definition f0 : F := fofZ 0.
  Definition f1 : F := fofZ 1.
  Definition f2 : F := fofZ 2.

  (** Decimal literal [m * 10^-k]: both integers are exactly representable, so the
      quotient is the correctly rounded literal. *)
  Definition flit (m k : Z) : F := fofZ m / fofZ (10 ^ k)%Z.

  (** 0.5 *)
  Definition fhalf : F := fofZ 1 / fofZ 2.

  (** f32::max / f32::min: a NaN argument is ignored. *)
  Definition fmax (a b : F) : F :=
    if fis_nan a then b else if fis_nan b then a else if a <? b then b else a.
  Definition fmin (a b : F) : F :=
    if fis_nan a then b else if fis_nan b then a else if b <? a then b else a.

  (** x.powi(2) *)
  Definition fsq (x : F) : F := x * x.

  (** f32::to_radians *)
  Definition fto_radians (x : F) : F := x * (fpi / fofZ 180).

  Definition fto_i32 : F -> Z := fto_int i32_min i32_max.
  Definition fto_u32 : F -> Z := fto_int 0 u32_max.
  Definition fto_usize : F -> Z := fto_int 0 usize_max.
  Definition fto_i64 : F -> Z := fto_int i64_min i64_max.

  Definition fis_finite (x : F) : bool := negb (fis_nan x) && negb (fis_inf x).
End Derived.

(** ** The f32 <-> f64 conversions used by the sphere code ([f64::from], [as f32]) *)
Class F64Link (F D : Type) : Type := {
  fwiden : F -> D;
  fnarrow : D -> F;
}.
