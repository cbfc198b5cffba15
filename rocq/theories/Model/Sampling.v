(** * sampling.rs *)
From Coq Require Import ZArith List Bool.
From Verif Require Import Model.Num Model.Vector Model.Common.
Local Open Scope Z_scope.

Section S.
  Context {F} {FO : FOps F}.
  Local Open Scope f_scope.

  (** sampling.rs:4-18 [concentric_sample_disk] *)
  Definition concentric_sample_disk (u : P2 F) : P2 F :=
    let u := mkP2 (px u * f2 + - f1) (py u * f2 + - f1) in
    if (px u =? f0) && (py u =? f0) then u
    else
      let '(theta, r) :=
        if fabs (px u) >? fabs (py u)
        then ((fpi / fofZ 4) * (py u / px u), px u)
        else ((fpi / f2) - (fpi / fofZ 4) * (px u / py u), py u) in
      mkP2 (fcos theta * r) (fsin theta * r).

  (** sampling.rs:20-24 [cosine_sample_hemisphere] *)
  Definition cosine_sample_hemisphere (u : P2 F) : V3 F :=
    let '(mkP2 x y) := concentric_sample_disk u in
    let z := fsqrt (fmax (f1 - x * x - y * y) f0) in
    mkV3 x y z.

  (** sampling.rs:26-30 [power_heuristic] *)
  Definition power_heuristic (n1 : Z) (pdf1 : F) (n2 : Z) (pdf2 : F) : F :=
    let f := pdf1 * fofZ n1 in
    let g := pdf2 * fofZ n2 in
    (f * f) / (f * f + g * g).
End S.
