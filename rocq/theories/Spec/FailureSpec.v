(** * Specification vocabulary: renders in which threads may fail *)
From Coq Require Import ZArith List Bool Ascii.
From Verif Require Import Model.Num Model.Vector Model.BBox Model.Film Model.Sampler Model.Render Model.Failure.
From Verif Require Import Spec.SamplerSpec Spec.RenderSpec.
Import ListNotations.

Section S.
  Context {F ST : Type} {FO : FOps F}.
  Variable (m : build) (sm : sampler_ops F ST) (shade : ST -> P2 F -> res (V3 F * ST)) (fuel : nat).

  (** [k] moves of any of the threads *)
  Inductive moves : nat -> run F ST -> run F ST -> Prop :=
  | moves_0 u : moves O u u
  | moves_S k u u' u'' : moves k u u' -> move m sm shade fuel u' u'' -> moves (S k) u u''.

  Definition somebody_fell (u : run F ST) : Prop := exists l, In (Fallen l) (u_threads u).

  (** every thread has left its loop or has fallen *)
  Definition all_over (u : run F ST) : Prop := forall t, In t (u_threads u) -> t = Alive TDone \/ exists l, t = Fallen l.

  (** the tiles that went down with their threads *)
  Definition lost (u : run F ST) : list (nat * bbox2) :=
    flat_map (fun t => match t with Fallen l => l | Alive _ => [] end) (u_threads u).

  (** rendering a tile of the film comes to an end, well or with a panic; [I] holds of the samplers throughout *)
  Definition returns (I : ST -> Prop) (fm : film F) : Prop :=
    forall tiles s b, tile_items m (film_sample_bbox fm) = Ok tiles -> In b tiles -> I s ->
      match render_local m sm shade fuel fm s b with Ok (s', _, _) => I s' | Panic => True | Timeout => False end.

  Definition sampler_of (t : thread F ST) : option ST :=
    match t with TNext s | TRender s _ | TMerge s _ _ => Some s | TDone => None end.
End S.

(** Shading code that, called after the camera sample of a Halton sampler made as [s0], panics or returns, and uses the
    sampler only to draw numbers. *)
Definition halton_may_panic {F} {FO : FOps F} (m : build) (s0 : halton) (shade : halton -> P2 F -> res (V3 F * halton)) : Prop :=
  forall s p, reach (halton_ops (F := F) m) s0 s -> h_dim s = 2%Z -> h_small m s0 s ->
    shade s p = Panic \/ exists l s', shade s p = Ok (l, s') /\ draws (halton_ops (F := F) m) s s'.
