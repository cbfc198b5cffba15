(** * Averages over random numbers (C104) *)
From Coq Require Import ZArith Reals List.
From Verif Require Import Model.Num Model.NumX Model.Vector Model.Interaction Model.Shape Model.Container Model.Sampler Model.Reflection
  Model.Light Model.Scene Model.Path.
From Verif Require Import Spec.RVec Spec.EstimatorSpec Proofs.XBase.
Import ListNotations.
Local Open Scope R_scope.

(** the integral from [a] to [b] of [f] exists and is [v] *)
Definition integral (f : R -> R) (a b v : R) : Prop := exists pr : Riemann_integrable f a b, RiemannInt pr = v.
(** the average over a number spread evenly between 0 and 1 *)
Definition average (g : R -> rv) (x : rv) : Prop :=
  integral (fun u => vx (g u)) 0 1 (vx x) /\ integral (fun u => vy (g u)) 0 1 (vy x) /\ integral (fun u => vz (g u)) 0 1 (vz x).

(** [mean n out x]: an experiment that takes [n] independent numbers spread evenly between 0 and 1, with result [y]
    when [out numbers y], has mean [x] *)
Fixpoint mean (n : nat) (out : list R -> rv -> Prop) (x : rv) : Prop :=
  match n with
  | O => out [] x
  | S n => exists g, (forall u, 0 < u < 1 -> mean n (fun us => out (u :: us)) (g u)) /\ average g x
  end.

(** The light along a path of surfaces, if every light were looked at from every surface and the path were never ended by chance. *)
Inductive chain :=
| Sky
| Far (emitted : rv)
| End (emitted : rv) (lights : list rv)
| Then (emitted : rv) (lights : list rv) (w : rv) (forced : bool) (rest : chain).
Definition vtotal (l : list rv) : rv := fold_right vadd v0 l.
Fixpoint chain_sum (lit : bool) (c : chain) : rv :=
  match c with
  | Sky => v0
  | Far e => if lit then e else v0
  | End e ds => vadd (if lit then e else v0) (vtotal ds)
  | Then e ds w sp c => vadd (vadd (if lit then e else v0) (vtotal ds)) (vprod w (chain_sum sp c))
  end.
(** no surface takes away more than everything *)
Fixpoint not_negative (c : chain) : Prop :=
  match c with Then _ _ w _ c => (0 <= vx w /\ 0 <= vy w /\ 0 <= vz w) /\ not_negative c | _ => True end.

Section Follow.
  Context {T ST : Type}.
  Variables (sm : sampler_ops XR ST) (teq : T -> T -> bool) (surf : T -> surface XR T) (sc : scene XR T (container XR T)).

  (** The sampler is a function of the numbers that will choose lights and end paths: at point [i] it hands out the first of them
      to choose a light, and what a light is found to contribute does not depend on the others. *)
  Definition lights_seen (s : list R -> ST) (i : interaction XR T) (b : bsdf XR) (ds : list rv) (s1 : list R -> ST) : Prop :=
    (sc_lights sc = [] /\ ds = [] /\ forall us, s1 us = s us) \/
    (sc_lights sc <> [] /\ exists s0, (forall u us, 0 < u < 1 -> sm_get_1d sm (s (u :: us)) = Ok (XFin u, s0 us)) /\
      Forall2 (fun l d => forall us, estimate_direct sm teq surf sc (s0 us) l i b = Ok (fin3 d, s1 us)) (sc_lights sc) ds).
  (** Then it hands out a direction. *)
  Definition scatters_to (s1 : list R -> ST) (i : interaction XR T) (b : bsdf XR) wi f pdf flag (s2 : list R -> ST) : Prop :=
    exists u, (forall us, sm_get_2d sm (s1 us) = Ok (u, s2 us)) /\ bsdf_sample_f b (i_wo i) u = Ok (wi, f, pdf, flag).
  Definition scattering (i : interaction XR T) (b : bsdf XR) : Prop := exists t, i_shape i = Some t /\ sf_scatter (surf t) i = Ok b.

  (** [follows bo s r c]: with directions as the sampler gives them, the ray [r] after [bo] bounces meets the surfaces [c]. *)
  Inductive follows : Z -> (list R -> ST) -> ray XR -> chain -> Prop :=
  | fo_sky bo s r : c_intersect (sc_shapes sc) r = Ok None -> follows bo s r Sky
  | fo_far bo s r i e : sees surf sc r i e -> (64 < bo)%Z -> follows bo s r (Far e)
  | fo_end bo s r i e b ds s1 wi f pdf flag s2 : sees surf sc r i e -> (bo <= 64)%Z -> scattering i b -> lights_seen s i b ds s1 ->
      scatters_to s1 i b wi f pdf flag s2 -> pdf = XFin 0 \/ f = v3zero -> follows bo s r (End e ds)
  | fo_early bo s r i e b ds s1 wi f pdf flag s2 w c : sees surf sc r i e -> (bo < 3)%Z -> scattering i b -> lights_seen s i b ds s1 ->
      scatters_to s1 i b wi f pdf flag s2 -> is_black f = false -> weight_of i wi f pdf w ->
      follows (bo + 1) s2 (spawn_ray i wi) c -> follows bo s r (Then e ds w (negb (Z.land flag SPECULAR =? 0)%Z) c)
  | fo_late bo s r i e b ds s1 wi f pdf flag s2 w s3 c : sees surf sc r i e -> (3 <= bo <= 64)%Z -> scattering i b -> lights_seen s i b ds s1 ->
      scatters_to s1 i b wi f pdf flag s2 -> is_black f = false -> weight_of i wi f pdf w ->
      (forall v us, 0 < v < 1 -> sm_get_1d sm (s2 (v :: us)) = Ok (XFin v, s3 us)) ->
      follows (bo + 1) s3 (spawn_ray i wi) c -> follows bo s r (Then e ds w (negb (Z.land flag SPECULAR =? 0)%Z) c).
End Follow.

(** ** All numbers by chance (C105) *)

(** a sampler that hands out the numbers of a list one by one *)
Definition ideal : sampler_ops XR (list R) :=
  mkSampler (fun s _ => Ok s) (fun s => Ok (false, s))
    (fun s => match s with u :: s => Ok (XFin u, s) | [] => Panic end)
    (fun s => match s with u :: v :: s => Ok (mkP2 (XFin u) (XFin v), s) | _ => Panic end).

(** the average over two numbers *)
Definition average2 (g : R -> R -> rv) (x : rv) : Prop := exists h, (forall u, 0 < u < 1 -> average (g u) (h u)) /\ average h x.

Section Transport.
  Context {T : Type}.
  Variables (teq : T -> T -> bool) (surf : T -> surface XR T) (sc : scene XR T (container XR T)).

  (** Light [l] at [i]: [x] on average by directions sampled from the light, [y] by directions sampled from the surface. *)
  Definition light_gives (i : interaction XR T) (b : bsdf XR) (l : light XR T) (d : rv) : Prop :=
    exists g h x y, d = vadd x y /\ average2 g x /\ average2 h y /\
      (forall u v ld, 0 < u < 1 -> 0 < v < 1 -> direct_light sc l i b (mkP2 (XFin u) (XFin v)) (fin3 ld) = Ok (fin3 (vadd ld (g u v)))) /\
      (forall u v ld, 0 < u < 1 -> 0 < v < 1 -> direct_bsdf teq surf sc l i b (mkP2 (XFin u) (XFin v)) (fin3 ld) = Ok (fin3 (vadd ld (h u v)))).

  (** [brings k r e x]: along [r] come [e], emitted by the surface met, and [x], scattered by it in at most [k] bounces.
      What is scattered is the light of all the lights and, on average over the directions sampled, value x cosine / density of what comes from there;
      what is emitted there counts only for mirrors, being the light of a light otherwise. *)
  Fixpoint brings (k : nat) (r : ray XR) (e x : rv) : Prop :=
    (c_intersect (sc_shapes sc) r = Ok None /\ e = v0 /\ x = v0) \/
    exists i, sees surf sc r i e /\
      match k with
      | O => x = v0
      | S k => exists b ds g y, scattering surf i b /\ x = vadd (vtotal ds) y /\ Forall2 (light_gives i b) (sc_lights sc) ds /\ average2 g y /\
          forall u v, 0 < u < 1 -> 0 < v < 1 -> exists wi f pdf flag, bsdf_sample_f b (i_wo i) (mkP2 (XFin u) (XFin v)) = Ok (wi, f, pdf, flag) /\
            (((pdf = XFin 0 \/ f = v3zero) /\ g u v = v0) \/
             exists w e' x', is_black f = false /\ weight_of i wi f pdf w /\ (0 <= vx w /\ 0 <= vy w /\ 0 <= vz w) /\ brings k (spawn_ray i wi) e' x' /\
               g u v = vprod w (if (Z.land flag SPECULAR =? 0)%Z then x' else vadd e' x'))
      end.
End Transport.
