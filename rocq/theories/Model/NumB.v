(** * IEEE-754 binary32 / binary64 (Flocq), round to nearest even

    The transcendental functions are not specified by IEEE; they are the fields of
    [Libm], over which every binary32 theorem quantifies. *)
From Coq Require Import ZArith Bool List.
From Flocq Require Import Core IEEE754.BinarySingleNaN.
From Flocq Require IEEE754.Binary IEEE754.Bits.
From Verif Require Import Model.Num.
Local Open Scope Z_scope.

Definition b32 : Type := binary_float 24 128.
Definition b64 : Type := binary_float 53 1024.

#[global] Instance prec32 : Prec_gt_0 24 := eq_refl.
#[global] Instance prec32_emax : Prec_lt_emax 24 128 := eq_refl.
#[global] Instance prec64 : Prec_gt_0 53 := eq_refl.
#[global] Instance prec64_emax : Prec_lt_emax 53 1024 := eq_refl.

Section Generic.
  Context {prec emax : Z} {Hp : Prec_gt_0 prec} {He : Prec_lt_emax prec emax}.
  Notation bf := (binary_float prec emax).

  Definition Bof_Z (z : Z) : bf := binary_normalize prec emax _ _ mode_NE z 0 false.

  Definition Bis_inf (x : bf) : bool :=
    match x with B754_infinity _ => true | _ => false end.

  Definition Bto_int (lo hi : Z) (x : bf) : Z :=
    match x with
    | B754_nan => 0
    | B754_infinity s => if s then lo else hi
    | _ => Z.max lo (Z.min hi (Btrunc x))
    end.
End Generic.

(** ** Bit patterns: [transmute::<f32, u32>] and back (one NaN pattern only) *)
Definition bits_of_f32 (x : b32) : Z :=
  Bits.bits_of_b32 (Binary.BSN2B 24 128 Bits.default_nan_pl32 x).
Definition f32_of_bits (z : Z) : b32 := Binary.B2BSN 24 128 (Bits.b32_of_bits z).

(** common.rs:34-50 [next_float_down].  NaN: the payload arithmetic of the code is not
    modelled, the result is NaN. *)
Definition next_float_down (x : b32) : b32 :=
  if is_nan x then x else
  if Bis_inf x && Bltb x (Bof_Z 0) then x else
  let x := if Beqb x (Bof_Z 0) then B754_zero true else x in
  let bits := bits_of_f32 x in
  let bits := if Bleb x (Bof_Z 0) then bits + 1 else bits - 1 in
  f32_of_bits bits.

(** common.rs:52-68 [next_float_up] *)
Definition next_float_up (x : b32) : b32 :=
  if is_nan x then x else
  if Bis_inf x && Bltb (Bof_Z 0) x then x else
  let x := if Beqb x (Bof_Z 0) then B754_zero false else x in
  let bits := bits_of_f32 x in
  let bits := if Bleb (Bof_Z 0) x then bits + 1 else bits - 1 in
  f32_of_bits bits.

(** ** Transcendental functions of the platform *)
Record Libm (F : Type) : Type := {
  m_sin : F -> F; m_cos : F -> F; m_tan : F -> F; m_atan : F -> F; m_acos : F -> F;
  m_atan2 : F -> F -> F; m_exp : F -> F; m_ln : F -> F; m_powf : F -> F -> F;
}.
Existing Class Libm.

#[global] Instance B32_FOps (L : Libm b32) : FOps b32 := {
  fadd := Bplus mode_NE; fsub := Bminus mode_NE; fmul := Bmult mode_NE; fdiv := Bdiv mode_NE;
  fneg := Bopp; fabs := Babs; fsqrt := Bsqrt mode_NE;
  flt := Bltb; fle := Bleb; feq := Beqb; fis_nan := is_nan; fis_inf := Bis_inf;
  fofZ := Bof_Z;
  finf := B754_infinity false;
  feps := binary_normalize 24 128 _ _ mode_NE 1 (-23) false;
  fmaxv := Bmax_float;
  fpi := binary_normalize 24 128 _ _ mode_NE 13176795 (-22) false;
  ffloor := Bnearbyint mode_DN; fceil := Bnearbyint mode_UP; fround := Bnearbyint mode_NA;
  fto_int := Bto_int;
  fnext_up := next_float_up; fnext_down := next_float_down;
  fsin := m_sin _ L; fcos := m_cos _ L; ftan := m_tan _ L; fatan := m_atan _ L;
  facos := m_acos _ L; fatan2 := m_atan2 _ L; fexp := m_exp _ L; fln := m_ln _ L;
  fpowf := m_powf _ L;
}.

(** f64 is used only by [quadratic] and the sphere intersection: no transcendental function
    is applied to it, but the interface wants them. *)
#[global] Instance B64_FOps (L : Libm b64) : FOps b64 := {
  fadd := Bplus mode_NE; fsub := Bminus mode_NE; fmul := Bmult mode_NE; fdiv := Bdiv mode_NE;
  fneg := Bopp; fabs := Babs; fsqrt := Bsqrt mode_NE;
  flt := Bltb; fle := Bleb; feq := Beqb; fis_nan := is_nan; fis_inf := Bis_inf;
  fofZ := Bof_Z;
  finf := B754_infinity false;
  feps := binary_normalize 53 1024 _ _ mode_NE 1 (-52) false;
  fmaxv := Bmax_float;
  fpi := binary_normalize 53 1024 _ _ mode_NE 884279719003555 (-48) false;
  ffloor := Bnearbyint mode_DN; fceil := Bnearbyint mode_UP; fround := Bnearbyint mode_NA;
  fto_int := Bto_int;
  fnext_up := Bsucc; fnext_down := Bpred;
  fsin := m_sin _ L; fcos := m_cos _ L; ftan := m_tan _ L; fatan := m_atan _ L;
  facos := m_acos _ L; fatan2 := m_atan2 _ L; fexp := m_exp _ L; fln := m_ln _ L;
  fpowf := m_powf _ L;
}.

(** [f64::from(x)] and [x as f32] *)
Definition Bconv {p e p' e'} {Hp : Prec_gt_0 p'} {He : Prec_lt_emax p' e'}
  (x : binary_float p e) : binary_float p' e' :=
  match x with
  | B754_nan => B754_nan
  | B754_infinity s => B754_infinity s
  | B754_zero s => B754_zero s
  | B754_finite s m e _ => binary_normalize p' e' _ _ mode_NE (cond_Zopp s (Zpos m)) e s
  end.

#[global] Instance B_Link : F64Link b32 b64 := {
  fwiden := Bconv; fnarrow := Bconv;
}.
