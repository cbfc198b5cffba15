(** * common.rs *)
From Coq Require Import ZArith List Bool.
From Verif Require Import Model.Num Model.Vector.
Local Open Scope Z_scope.

Section C.
  Context {F} {O : FOps F}.
  Local Open Scope f_scope.

  (** common.rs:9 *)
  Definition MACHINE_EPSILON : F := feps * fhalf.
  (** common.rs:11 *)
  Definition ONE_MINUS_EPSILON : F := f1 - feps.

  (** common.rs:15-24 [clamp] (the debug assertion low <= high is not modelled) *)
  Definition clamp (x low high : F) : F :=
    if x <? low then low else if x >? high then high else x.

  (** common.rs:26-28 [lerp] *)
  Definition lerp (t v1 v2 : F) : F := (f1 - t) * v1 + t * v2.

  (** common.rs:30-32 [gamma] *)
  Definition gamma (x : F) : F := (x * MACHINE_EPSILON) / (f1 - x * MACHINE_EPSILON).

  (** common.rs:70-89 [quadratic]; used at f64 *)
  Definition quadratic (a b c : F) : option (F * F) :=
    let discrim := b * b - fofZ 4 * a * c in
    if discrim <? f0 then None
    else
      let root_discrim := fsqrt discrim in
      let q := if b <? f0 then (- fhalf) * (b - root_discrim) else (- fhalf) * (b + root_discrim) in
      let t0 := q / a in
      let t1 := c / q in
      if t0 >? t1 then Some (t1, t0) else Some (t0, t1).

  (** spectrum.rs:39-45 [Spectrum::clamp] *)
  Definition spectrum_clamp (s : V3 F) (low high : F) : V3 F :=
    mkV3 (clamp (vx s) low high) (clamp (vy s) low high) (clamp (vz s) low high).
End C.
