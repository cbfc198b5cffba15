(** * Streams of random numbers and who uses them (C91, C92) *)
From Coq Require Import ZArith List Bool.
From Verif Require Import Model.Num Model.Vector Model.BBox Model.Film Model.Sampler Model.Render.
From Verif Require Import Spec.SamplerSpec Spec.RenderSpec.
Import ListNotations.

(** The first [n] numbers a generator puts out, and its state after them. *)
Section G.
  Context {F G : Type} (gen : G -> F * G).
  Fixpoint outputs (n : nat) (g : G) : list F :=
    match n with O => [] | S n => fst (gen g) :: outputs n (snd (gen g)) end.
  Fixpoint after (n : nat) (g : G) : G :=
    match n with O => g | S n => after n (snd (gen g)) end.
End G.

(** The calls made for several pixels, one pixel after the other, and everything they return. *)
Section P.
  Context {F ST : Type} (sm : sampler_ops F ST).
  Fixpoint ask_plan (plan : list (P2 Z * list call)) (s : ST) : res (list (answer F) * ST) :=
    match plan with
    | [] => Ok ([], s)
    | (p, cs) :: plan =>
      let! s := sm_start_pixel sm s p in
      let! (al, s) := ask_all sm cs s in
      let! (bl, s) := ask_plan plan s in
      Ok (al ++ bl, s)
    end.
End P.

(** how many numbers a call asks for *)
Definition asks_for (c : call) : nat := match c with CNext => 0 | C1D => 1 | C2D => 2 end.
Definition plan_calls (plan : list (P2 Z * list call)) : list call := flat_map snd plan.
Definition wanted (cs : list call) : nat := list_sum (map asks_for cs).

(** the numbers in an answer *)
Definition given {F} (a : answer F) : list F :=
  match a with ANext _ => [] | A1D x => [x] | A2D p => [px p; py p] end.
Definition answers {F} (c : call) (a : answer F) : Prop :=
  match c, a with CNext, ANext _ | C1D, A1D _ | C2D, A2D _ => True | _, _ => False end.

(** A generator as a numbered stream: its state is the number of values it has put out. *)
Definition numbered {F} (f : nat -> F) (n : nat) : F * nat := (f n, S n).

(** Runs of the render threads with a record, latest first, of the tiles rendered: the thread, the tile, and the
    positions in the stream of the thread's generator before and after it. *)
Section H.
  Context {F : Type} {FO : FOps F} (f : nat -> F) (m : build).
  Notation ST := (random_sampler (G := nat)).
  Variable (shade : ST -> P2 F -> res (V3 F * ST)) (fuel : nat).
  Inductive history (y0 : sys F ST) : list (nat * bbox2 * nat * nat) -> sys F ST -> Prop :=
  | history_0 : history y0 [] y0
  | history_render h y y' i s b s' ft : history y0 h y -> step m (random_ops (numbered f) m) shade fuel i y y' ->
      nth_error (y_threads y) i = Some (TRender s b) -> nth_error (y_threads y') i = Some (TMerge s' b ft) ->
      history y0 ((i, b, rs_rng s, rs_rng s') :: h) y'
  | history_other h y y' i : history y0 h y -> step m (random_ops (numbered f) m) shade fuel i y y' ->
      (forall s b, nth_error (y_threads y) i <> Some (TRender s b)) -> history y0 h y'.
End H.

(** the tiles of a record, latest first, that thread [i] rendered use the numbers from [a] to [b] of the stream one
    after the other *)
Fixpoint one_after_another (i a b : nat) (h : list (nat * bbox2 * nat * nat)) : Prop :=
  match h with
  | [] => a = b
  | (i', _, x, y) :: h => if Nat.eqb i' i then y = b /\ (x <= y)%nat /\ one_after_another i a x h else one_after_another i a b h
  end.
