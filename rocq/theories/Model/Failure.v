(** * integrator.rs:41-82 when threads fail: unwinding, poisoned locks, joining, the output file *)
From Coq Require Import ZArith List Bool Ascii.
From Verif Require Import Model.Num Model.Vector Model.Common Model.BBox Model.Film Model.Sampler Model.Render.
Import ListNotations.
Local Open Scope Z_scope.

(** Model/Render.v has steps only for what goes well.  Here a thread may also panic: it unwinds and is gone, and a
    mutex it held while panicking is poisoned for good ([lock().unwrap()] on it panics).  The main thread joins the
    threads in order (integrator.rs:72) and panics at the first one that has fallen; after the last it opens the
    file and writes the picture (lines 74-81).  Panics of the file system calls and running out of memory are not
    modelled.  Other threads go on when the main thread has panicked; in a program they would be killed. *)
Section Failure.
  Context {F} {FO : FOps F} {ST : Type}.
  Variable (m : build) (sm : sampler_ops F ST) (shade : ST -> P2 F -> res (V3 F * ST)) (fuel : nat).

  Inductive life : Type :=
  | Alive (t : thread F ST)
  | Fallen (lost : list (nat * bbox2)).     (* ghost: the tile it held *)

  (** the main thread: about to join thread [i]; finished with the file written; panicked *)
  Inductive boss : Type := Joining (i : nat) | Written | Failed.

  Record run := mkRun {
    u_iter : tile_iter;
    u_iter_poisoned : bool;
    u_film : film F;
    u_film_poisoned : bool;
    u_threads : list life;
    u_boss : boss;
    u_file : list ascii;
    u_taken : list (nat * bbox2);           (* ghost: thread and tile, latest first *)
    u_merged : list (nat * bbox2) }.        (* ghost *)

  Definition put (u : run) (i : nat) (t : life) : list life := set_nth (u_threads u) i t.

  Inductive move : run -> run -> Prop :=
  (* integrator.rs:60-63: take a tile *)
  | mv_take : forall u i s b it,
      nth_error (u_threads u) i = Some (Alive (TNext s)) -> u_iter_poisoned u = false ->
      next_tile m (u_iter u) = Ok (Some b, it) ->
      move u (mkRun it false (u_film u) (u_film_poisoned u) (put u i (Alive (TRender s b))) (u_boss u) (u_file u)
                ((i, b) :: u_taken u) (u_merged u))
  | mv_finish : forall u i s it,
      nth_error (u_threads u) i = Some (Alive (TNext s)) -> u_iter_poisoned u = false ->
      next_tile m (u_iter u) = Ok (None, it) ->
      move u (mkRun it false (u_film u) (u_film_poisoned u) (put u i (Alive TDone)) (u_boss u) (u_file u)
                (u_taken u) (u_merged u))
  (* a panic in [next] leaves the iterator in some state and its lock poisoned *)
  | mv_take_panics : forall u i s it,
      nth_error (u_threads u) i = Some (Alive (TNext s)) -> u_iter_poisoned u = false ->
      next_tile m (u_iter u) = Panic ->
      move u (mkRun it true (u_film u) (u_film_poisoned u) (put u i (Fallen [])) (u_boss u) (u_file u)
                (u_taken u) (u_merged u))
  | mv_take_poisoned : forall u i s,
      nth_error (u_threads u) i = Some (Alive (TNext s)) -> u_iter_poisoned u = true ->
      move u (mkRun (u_iter u) true (u_film u) (u_film_poisoned u) (put u i (Fallen [])) (u_boss u) (u_file u)
                (u_taken u) (u_merged u))
  (* integrator.rs:64, 94-115: render the tile; no lock is held *)
  | mv_render : forall u i s b s' ft log,
      nth_error (u_threads u) i = Some (Alive (TRender s b)) ->
      render_local m sm shade fuel (u_film u) s b = Ok (s', ft, log) ->
      move u (mkRun (u_iter u) (u_iter_poisoned u) (u_film u) (u_film_poisoned u) (put u i (Alive (TMerge s' b ft)))
                (u_boss u) (u_file u) (u_taken u) (u_merged u))
  | mv_render_panics : forall u i s b,
      nth_error (u_threads u) i = Some (Alive (TRender s b)) ->
      render_local m sm shade fuel (u_film u) s b = Panic ->
      move u (mkRun (u_iter u) (u_iter_poisoned u) (u_film u) (u_film_poisoned u) (put u i (Fallen [(i, b)]))
                (u_boss u) (u_file u) (u_taken u) (u_merged u))
  (* integrator.rs:117, film.rs:80-83: merge under the lock of the film *)
  | mv_merge : forall u i s b ft fm,
      nth_error (u_threads u) i = Some (Alive (TMerge s b ft)) -> u_film_poisoned u = false ->
      merge_film_tile m (u_film u) ft = Ok fm ->
      move u (mkRun (u_iter u) (u_iter_poisoned u) fm false (put u i (Alive (TNext s)))
                (u_boss u) (u_file u) (u_taken u) ((i, b) :: u_merged u))
  | mv_merge_panics : forall u i s b ft fm,
      nth_error (u_threads u) i = Some (Alive (TMerge s b ft)) -> u_film_poisoned u = false ->
      merge_film_tile m (u_film u) ft = Panic ->
      move u (mkRun (u_iter u) (u_iter_poisoned u) fm true (put u i (Fallen [(i, b)]))
                (u_boss u) (u_file u) (u_taken u) (u_merged u))
  | mv_merge_poisoned : forall u i s b ft,
      nth_error (u_threads u) i = Some (Alive (TMerge s b ft)) -> u_film_poisoned u = true ->
      move u (mkRun (u_iter u) (u_iter_poisoned u) (u_film u) true (put u i (Fallen [(i, b)]))
                (u_boss u) (u_file u) (u_taken u) (u_merged u))
  (* integrator.rs:72: join the next thread *)
  | mv_join : forall u i,
      u_boss u = Joining i -> nth_error (u_threads u) i = Some (Alive TDone) ->
      move u (mkRun (u_iter u) (u_iter_poisoned u) (u_film u) (u_film_poisoned u) (u_threads u)
                (Joining (S i)) (u_file u) (u_taken u) (u_merged u))
  | mv_join_panics : forall u i l,
      u_boss u = Joining i -> nth_error (u_threads u) i = Some (Fallen l) ->
      move u (mkRun (u_iter u) (u_iter_poisoned u) (u_film u) (u_film_poisoned u) (u_threads u)
                Failed (u_file u) (u_taken u) (u_merged u))
  (* integrator.rs:74-81, film.rs:88-108: write the picture under the lock of the film *)
  | mv_write : forall u,
      u_boss u = Joining (length (u_threads u)) -> u_film_poisoned u = false ->
      move u (mkRun (u_iter u) (u_iter_poisoned u) (u_film u) false (u_threads u)
                Written (file_after_render (u_file u) (u_film u)) (u_taken u) (u_merged u))
  | mv_write_poisoned : forall u,
      u_boss u = Joining (length (u_threads u)) -> u_film_poisoned u = true ->
      move u (mkRun (u_iter u) (u_iter_poisoned u) (u_film u) true (u_threads u)
                Failed (u_file u) (u_taken u) (u_merged u)).

  (** integrator.rs:41-70: [n] threads, each with a clone of the sampler; [old] is in the file *)
  Definition start_run (fm : film F) (s : ST) (n : nat) (old : list ascii) : res run :=
    let! it := tile_iter_new m (film_sample_bbox fm) in
    Ok (mkRun it false fm false (repeat (Alive (TNext s)) n) (Joining O) old [] []).
End Failure.
Arguments life : clear implicits.
Arguments run : clear implicits.
