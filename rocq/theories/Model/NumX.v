(** * Exact arithmetic: real numbers extended with NaN and infinities

    IEEE-754 semantics without rounding and with a single (unsigned) zero.
    Simplifications with respect to IEEE: no rounding, no overflow, one zero
    ([x/0] has the sign of [x]), next_up/next_down are the identity, and constants
    such as PI are the mathematical ones. *)
From Coq Require Import ZArith Reals Bool List Lra.
From Flocq Require Import Core.Raux Core.Zaux Core.Round_NE Core.Generic_fmt.
From Verif Require Import Model.Num.
Local Open Scope R_scope.

Inductive XR : Type :=
| XNaN
| XInf (s : bool)   (* true: negative *)
| XFin (r : R).

Definition Rsgn (r : R) : bool := Rlt_bool r 0.

Definition xadd (a b : XR) : XR :=
  match a, b with
  | XFin x, XFin y => XFin (x + y)
  | XNaN, _ | _, XNaN => XNaN
  | XInf s, XInf t => if Bool.eqb s t then XInf s else XNaN
  | XInf s, _ => XInf s
  | _, XInf s => XInf s
  end.

Definition xneg (a : XR) : XR :=
  match a with XNaN => XNaN | XInf s => XInf (negb s) | XFin x => XFin (- x) end.

Definition xsub (a b : XR) : XR :=
  match a, b with
  | XFin x, XFin y => XFin (x - y)
  | _, _ => xadd a (xneg b)
  end.

Definition xmul (a b : XR) : XR :=
  match a, b with
  | XFin x, XFin y => XFin (x * y)
  | XNaN, _ | _, XNaN => XNaN
  | XInf s, XInf t => XInf (xorb s t)
  | XInf s, XFin x | XFin x, XInf s =>
      if Req_bool x 0 then XNaN else XInf (xorb s (Rsgn x))
  end.

Definition xdiv (a b : XR) : XR :=
  match a, b with
  | XFin x, XFin y =>
      if Req_bool y 0
      then if Req_bool x 0 then XNaN else XInf (Rsgn x)
      else XFin (x / y)
  | XNaN, _ | _, XNaN => XNaN
  | XInf s, XInf t => XNaN
  | XInf s, XFin y => XInf (xorb s (Rsgn y))
  | XFin x, XInf t => XFin 0
  end.

Definition xabs (a : XR) : XR :=
  match a with XNaN => XNaN | XInf _ => XInf false | XFin x => XFin (Rabs x) end.

Definition xsqrt (a : XR) : XR :=
  match a with
  | XNaN => XNaN
  | XInf s => if s then XNaN else XInf false
  | XFin x => if Rlt_bool x 0 then XNaN else XFin (sqrt x)
  end.

Definition xlt (a b : XR) : bool :=
  match a, b with
  | XNaN, _ | _, XNaN => false
  | XFin x, XFin y => Rlt_bool x y
  | XInf s, XInf t => s && negb t
  | XInf s, XFin _ => s
  | XFin _, XInf t => negb t
  end.

Definition xle (a b : XR) : bool :=
  match a, b with
  | XNaN, _ | _, XNaN => false
  | XFin x, XFin y => Rle_bool x y
  | XInf s, XInf t => s || negb t
  | XInf s, XFin _ => s
  | XFin _, XInf t => negb t
  end.

Definition xeq (a b : XR) : bool :=
  match a, b with
  | XFin x, XFin y => Req_bool x y
  | XInf s, XInf t => Bool.eqb s t
  | _, _ => false
  end.

Definition xis_nan (a : XR) : bool := match a with XNaN => true | _ => false end.
Definition xis_inf (a : XR) : bool := match a with XInf _ => true | _ => false end.

Definition xlift (f : R -> R) (a : XR) : XR :=
  match a with XFin x => XFin (f x) | _ => XNaN end.

Definition xint (f : R -> Z) (a : XR) : XR :=
  match a with XFin x => XFin (IZR (f x)) | _ => a end.

(** Truncation, then saturation *)
Definition xto_int (lo hi : Z) (a : XR) : Z :=
  match a with
  | XNaN => 0%Z
  | XInf s => if s then lo else hi
  | XFin x => Z.max lo (Z.min hi (Ztrunc x))
  end.

(** Ties away from zero (f32::round) *)
Definition Zround_away (x : R) : Z := Znearest (Zle_bool 0) x.

Definition xexp (a : XR) : XR :=
  match a with
  | XNaN => XNaN
  | XInf s => if s then XFin 0 else XInf false
  | XFin x => XFin (exp x)
  end.

Definition xln (a : XR) : XR :=
  match a with
  | XNaN => XNaN
  | XInf s => if s then XNaN else XInf false
  | XFin x => if Rlt_bool x 0 then XNaN else if Req_bool x 0 then XInf true else XFin (ln x)
  end.

Definition xatan (a : XR) : XR :=
  match a with
  | XNaN => XNaN
  | XInf s => XFin (if s then - (PI / 2) else PI / 2)
  | XFin x => XFin (atan x)
  end.

Definition xacos (a : XR) : XR :=
  match a with
  | XFin x => if Rlt_bool 1 (Rabs x) then XNaN else XFin (acos x)
  | _ => XNaN
  end.

(** atan2 y x, for finite arguments *)
Definition Ratan2 (y x : R) : R :=
  if Rlt_bool 0 x then atan (y / x)
  else if Rlt_bool x 0 then (if Rlt_bool y 0 then atan (y / x) - PI else atan (y / x) + PI)
  else if Rlt_bool 0 y then PI / 2
  else if Rlt_bool y 0 then - (PI / 2)
  else 0.

Definition xatan2 (a b : XR) : XR :=
  match a, b with
  | XFin y, XFin x => XFin (Ratan2 y x)
  | _, _ => XNaN   (* simplification: infinite arguments do not occur *)
  end.

(** pow, for finite arguments; a negative base gives NaN (integer exponents are
    written with multiplications in the model). *)
Definition xpowf (a b : XR) : XR :=
  match a, b with
  | XFin x, XFin y =>
      if Req_bool y 0 then XFin 1
      else if Rlt_bool x 0 then XNaN
      else if Req_bool x 0 then (if Rlt_bool y 0 then XInf false else XFin 0)
      else XFin (Rpower x y)
  | XInf false, XFin y =>
      if Req_bool y 0 then XFin 1 else if Rlt_bool y 0 then XFin 0 else XInf false
  | _, _ => XNaN
  end.

#[global] Instance XR_FOps : FOps XR := {
  fadd := xadd; fsub := xsub; fmul := xmul; fdiv := xdiv; fneg := xneg; fabs := xabs;
  fsqrt := xsqrt; flt := xlt; fle := xle; feq := xeq; fis_nan := xis_nan; fis_inf := xis_inf;
  fofZ := fun z => XFin (IZR z);
  finf := XInf false;
  feps := XFin (/ 8388608);
  fmaxv := XFin (16777215 * IZR (2 ^ 104));
  fpi := XFin PI;
  ffloor := xint Zfloor; fceil := xint Zceil; fround := xint Zround_away;
  fto_int := xto_int;
  fnext_up := fun x => x; fnext_down := fun x => x;
  fsin := xlift sin; fcos := xlift cos; ftan := xlift tan; fatan := xatan; facos := xacos;
  fatan2 := xatan2; fexp := xexp; fln := xln; fpowf := xpowf;
}.

#[global] Instance XR_Link : F64Link XR XR := {
  fwiden := fun x => x; fnarrow := fun x => x;
}.
