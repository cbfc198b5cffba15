(** * Specification vocabulary: resources used by the path tracer *)
From Coq Require Import ZArith List Bool.
From Verif Require Import Model.Num Model.Vector Model.Interaction Model.Shape Model.Container Model.Sampler
  Model.Reflection Model.Light Model.Scene Model.Path Spec.SamplerSpec.
Import ListNotations.
Local Open Scope Z_scope.

(** A sampler that hands out a fixed number of sample dimensions and panics when asked for more.
    The number left is kept beside the sampler's state. *)
Definition ration {F ST} (sm : sampler_ops F ST) : sampler_ops F (ST * Z) :=
  mkSampler
    (fun s p => let! s' := sm_start_pixel sm (fst s) p in Ok (s', snd s))
    (fun s => let! (b, s') := sm_next_sample sm (fst s) in Ok (b, (s', snd s)))
    (fun s => if snd s <? 1 then Panic else let! (x, s') := sm_get_1d sm (fst s) in Ok (x, (s', snd s - 1)))
    (fun s => if snd s <? 2 then Panic else let! (x, s') := sm_get_2d sm (fst s) in Ok (x, (s', snd s - 2))).

(** Forget the number left. *)
Definition unration {A ST} (r : res (A * (ST * Z))) : res (A * ST) :=
  match r with Ok (a, (s, _)) => Ok (a, s) | Panic => Panic | Timeout => Timeout end.

(** [P n s]: a sampler in state [s] has [n] more dimensions with values in [0,1). *)
Definition stocked {F ST} {FO : FOps F} (sm : sampler_ops F ST) (P : Z -> ST -> Prop) : Prop :=
  forall n s, P n s ->
    (1 <= n -> exists x s', sm_get_1d sm s = Ok (x, s') /\ in_unit x /\ P (n - 1) s') /\
    (2 <= n -> exists x s', sm_get_2d sm s = Ok (x, s') /\ in_unit (px x) /\ in_unit (py x) /\ P (n - 2) s').

Section P.
  Context {F T : Type} {FO : FOps F}.
  Variables (surf : T -> surface F T) (sc : scene F T (container F T)).

  (** Nothing in the scene panics or runs forever, whatever it is asked. *)
  Record robust : Prop := {
    rb_isect : forall r, exists o, c_intersect (sc_shapes sc) r = Ok o /\
      forall i, o = Some i -> exists t b, i_shape i = Some t /\ sf_scatter (surf t) i = Ok b /\
        forall wo u, in_unit (px u) -> in_unit (py u) -> exists q, bsdf_sample_f b wo u = Ok q;
    rb_isect_p : forall r, exists b, c_intersect_p (sc_shapes sc) r = Ok b;
    rb_lights : forall l i u, In l (sc_lights sc) -> exists q, l_sample_li l i u = Ok q;
  }.

  (** Nothing in the scene panics or runs forever as long as the path starts with a ray of [G 0] and is
      continued as the path tracer does; the rays it continues with after [k] bounces are in [G k].  After 65
      bounces only the surface that was hit is asked for. *)
  Record robust_on (G : Z -> ray F -> Prop) : Prop := {
    ro_isect : forall k r, 0 <= k <= 65 -> G k r -> exists o, c_intersect (sc_shapes sc) r = Ok o /\
      forall i, o = Some i -> exists t, i_shape i = Some t /\ (k <= 64 -> exists b, sf_scatter (surf t) i = Ok b /\
        (forall u, in_unit (px u) -> in_unit (py u) -> exists wi f pdf fl, bsdf_sample_f b (i_wo i) u = Ok (wi, f, pdf, fl) /\
          (feq pdf f0 = false \/ flt f0 pdf = true -> G (k + 1) (spawn_ray i wi))) /\
        (forall l u, In l (sc_lights sc) -> in_unit (px u) -> in_unit (py u) -> exists wi li pdf v, l_sample_li l i u = Ok (wi, li, pdf, v) /\
          exists h, c_intersect_p (sc_shapes sc) (spawn_ray_to (v_p0 v) (v_p1 v)) = Ok h));
  }.

  (** Nothing in the scene runs forever. *)
  Record always_stops : Prop := {
    as_isect : forall r, c_intersect (sc_shapes sc) r <> Timeout;
    as_isect_p : forall r, c_intersect_p (sc_shapes sc) r <> Timeout;
    as_lights : forall l i u, In l (sc_lights sc) -> l_sample_li l i u <> Timeout;
    as_scatter : forall t i, sf_scatter (surf t) i <> Timeout;
  }.
End P.
