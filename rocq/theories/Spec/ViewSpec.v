(** * Where a point of the world belongs on the film: central projection *)
From Coq Require Import Reals.
From Verif Require Import Model.Vector Spec.RVec.
Local Open Scope R_scope.

(** The axes of an observer at [p] who looks at [l] with [u] pointing upwards: ahead, sideways
    (perpendicular to [u] and to the view; the right hand side in a left-handed world), and upwards. *)
Definition ahead (p l : rv) : rv := vunit (vsub l p).
Definition aside (p l u : rv) : rv := vunit (vcross u (vsub l p)).
Definition upwards (p l u : rv) : rv := vcross (ahead p l) (aside p l u).

(** Central projection onto the plane at distance 1 / tan (fov / 2), [fov] in degrees; then the window [wmin], [wmax]
    of that plane is stretched over the film with its upper left corner at (0, 0). *)
Definition projected (p l u : rv) (fov : R) (wmin wmax res : P2 R) (P : rv) : P2 R :=
  let d := vsub P p in
  let k := tan (fov * PI / 360) in
  let sx := vdot d (aside p l u) / (vdot d (ahead p l) * k) in
  let sy := vdot d (upwards p l u) / (vdot d (ahead p l) * k) in
  mkP2 ((sx - px wmin) / (px wmax - px wmin) * px res) ((py wmax - sy) / (py wmax - py wmin) * py res).
