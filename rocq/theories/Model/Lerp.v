(** * spectrum.rs: interpolation of colours *)
From Verif Require Import Model.Num Model.Vector.

Section L.
  Context {F} {O : FOps F}.
  Local Open Scope f_scope.

  (** spectrum.rs:35-37 [Spectrum::lerp] *)
  Definition spectrum_lerp (a s : V3 F) (t : F) : V3 F := v3add (v3scale a (f1 - t)) (v3scale s t).
End L.
