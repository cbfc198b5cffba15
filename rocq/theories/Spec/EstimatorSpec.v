(** * Scenes that differ in brightness only, and light transport at one point *)
From Coq Require Import ZArith Reals List.
From Verif Require Import Model.Num Model.NumX Model.Vector Model.Interaction Model.Shape Model.Container Model.Sampler Model.Reflection
  Model.Light Model.Scene Model.Path.
From Verif Require Import Spec.RVec Proofs.XBase.
Local Open Scope R_scope.

(** the same outcome, with the result put through [g] *)
Definition res_map {A B} (g : A -> B) (r : res A) : res B :=
  match r with Ok a => Ok (g a) | Panic => Panic | Timeout => Timeout end.

(** [dim c v]: every channel of [v] times [c] *)
Definition dim (c : R) (v : V3 XR) : V3 XR := mkV3 (xmul (vx v) (XFin c)) (xmul (vy v) (XFin c)) (xmul (vz v) (XFin c)).

Section S.
  Context {T : Type}.
  Variable c : R.

  (** The second light is the first one with its radiance times [c]. *)
  Record dimmed_light (l l' : light XR T) : Prop := {
    dm_delta : l_is_delta l' = l_is_delta l;
    dm_addr : l_addr l' = l_addr l;
    dm_pdf : forall i w, l_pdf_li l' i w = l_pdf_li l i w;
    dm_sample : forall i u,
      l_sample_li l' i u = res_map (fun q => match q with (wi, li, pdf, v) => (wi, dim c li, pdf, v) end) (l_sample_li l i u);
  }.

  (** The second scene is the first one with all emission times [c]. *)
  Record dimmed_scene (surf surf' : T -> surface XR T) (sc sc' : scene XR T (container XR T)) : Prop := {
    dm_shapes : sc_shapes sc' = sc_shapes sc;
    dm_lights : Forall2 dimmed_light (sc_lights sc) (sc_lights sc');
    dm_scatter : forall t i, sf_scatter (surf' t) i = sf_scatter (surf t) i;
    dm_l : forall t i w, sf_l (surf' t) i w = dim c (sf_l (surf t) i w);
  }.
End S.

(** ** A path as a sum *)

(** channel by channel *)
Definition vprod (a b : rv) : rv := mkV3 (vx a * vx b) (vy a * vy b) (vz a * vz b).
(** luminance, spectrum.rs:21-25 *)
Definition lum (v : rv) : R := 212671 / 1000000 * vx v + 715160 / 1000000 * vy v + 72169 / 1000000 * vz v.

(** A path: at each surface the radiance emitted towards the viewer, the light coming there directly from
    the lights, the fraction [w] of what comes along the rest that goes on to the viewer, the probability [q]
    of having been continued, and whether the direction of the rest is forced (a mirror). *)
Inductive path :=
| Miss
| Cut (emitted : rv)
| Last (emitted direct : rv)
| Next (emitted direct w : rv) (q : R) (forced : bool) (rest : path).

(** Its radiance: emission, direct light, and w/q times the radiance of the rest.  Emission counts at the
    first surface and after forced directions; elsewhere it is part of the direct light of the surface before. *)
Fixpoint path_sum (lit : bool) (p : path) : rv :=
  match p with
  | Miss => v0
  | Cut e => if lit then e else v0
  | Last e d => vadd (if lit then e else v0) d
  | Next e d w q sp p => vadd (vadd (if lit then e else v0) d) (vprod (vscale (/ q) w) (path_sum sp p))
  end.

Section Trace.
  Context {T ST : Type}.
  Variables (sm : sampler_ops XR ST) (teq : T -> T -> bool) (surf : T -> surface XR T) (sc : scene XR T (container XR T)).

  (** The ray [r] meets surface [i], which emits [e] back; *)
  Definition sees (r : ray XR) (i : interaction XR T) (e : rv) : Prop :=
    exists t, c_intersect (sc_shapes sc) r = Ok (Some i) /\ i_shape i = Some t /\ sf_l (surf t) i (v3neg (r_d r)) = fin3 e.
  (** direct light [d] is found there and direction [wi] sampled, with scattering value [f] and density [pdf]. *)
  Definition scatters (s : ST) (i : interaction XR T) (d : rv) (wi f : V3 XR) (pdf : XR) (flag : Z) (s2 : ST) : Prop :=
    exists t b s1 u, i_shape i = Some t /\ sf_scatter (surf t) i = Ok b /\
      uniform_sample_one_light sm teq surf sc s i b = Ok (fin3 d, s1) /\ sm_get_2d sm s1 = Ok (u, s2) /\
      bsdf_sample_f b (i_wo i) u = Ok (wi, f, pdf, flag).
  (** the fraction that goes on: value times cosine over density *)
  Definition weight_of (i : interaction XR T) (wi f : V3 XR) (pdf : XR) (w : rv) : Prop :=
    exists n di fr p, i_sn i = fin3 n /\ wi = fin3 di /\ f = fin3 fr /\ pdf = XFin p /\ 0 < p /\ w = vscale (Rabs (vdot di n) / p) fr.
  Definition survival (beta : rv) : R := Rmin (lum beta) (95 / 100).

  (** [traces bo beta s r p s']: path [p] is what the path tracer follows from ray [r] after [bo] bounces with
      throughput [beta], drawing samples from state [s] to [s'].  From the fourth bounce on, a path goes on
      if the next sample is at most the survival probability. *)
  Inductive traces : Z -> rv -> ST -> ray XR -> path -> ST -> Prop :=
  | tr_miss bo beta s r : c_intersect (sc_shapes sc) r = Ok None -> traces bo beta s r Miss s
  | tr_cut bo beta s r i e : c_intersect (sc_shapes sc) r = Ok (Some i) -> (64 < bo)%Z ->
      (forall t, i_shape i = Some t -> sf_l (surf t) i (v3neg (r_d r)) = fin3 e) -> (i_shape i = None -> e = v0) -> traces bo beta s r (Cut e) s
  | tr_absorbed bo beta s r i e d wi f pdf flag s' : sees r i e -> (bo <= 64)%Z -> scatters s i d wi f pdf flag s' ->
      pdf = XFin 0 \/ f = v3zero -> traces bo beta s r (Last e d) s'
  | tr_stopped bo beta s r i e d wi f pdf flag w s2 v s' : sees r i e -> (3 <= bo <= 64)%Z -> scatters s i d wi f pdf flag s2 ->
      weight_of i wi f pdf w -> sm_get_1d sm s2 = Ok (XFin v, s') -> survival (vprod beta w) < v ->
      traces bo beta s r (Last e d) s'
  | tr_early bo beta s r i e d wi f pdf flag w s2 p s' : sees r i e -> (bo < 3)%Z -> scatters s i d wi f pdf flag s2 ->
      weight_of i wi f pdf w -> traces (bo + 1) (vprod beta w) s2 (spawn_ray i wi) p s' ->
      traces bo beta s r (Next e d w 1 (negb (Z.land flag SPECULAR =? 0)%Z) p) s'
  | tr_late bo beta s r i e d wi f pdf flag w s2 v s3 p s' : sees r i e -> (3 <= bo <= 64)%Z -> scatters s i d wi f pdf flag s2 ->
      weight_of i wi f pdf w -> sm_get_1d sm s2 = Ok (XFin v, s3) -> 0 <= v <= survival (vprod beta w) -> 0 < survival (vprod beta w) ->
      traces (bo + 1) (vscale (/ survival (vprod beta w)) (vprod beta w)) s3 (spawn_ray i wi) p s' ->
      traces bo beta s r (Next e d w (survival (vprod beta w)) (negb (Z.land flag SPECULAR =? 0)%Z) p) s'.
End Trace.
