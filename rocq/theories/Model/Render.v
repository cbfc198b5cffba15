(** * integrator.rs:31-118: rendering a tile, the render threads, the output file *)
From Coq Require Import ZArith List Bool Ascii.
From Verif Require Import Model.Num Model.Vector Model.Common Model.BBox Model.Film Model.Sampler.
Import ListNotations.
Local Open Scope Z_scope.

Section Tile.
  Context {F} {FO : FOps F} {ST : Type}.
  Variable (m : build) (sm : sampler_ops F ST).
  (** camera.generate_ray followed by li (integrator.rs:102-103); modelled in Model/Path.v.  It
      may draw from the sampler. *)
  Variable shade : ST -> P2 F -> res (V3 F * ST).

  (** integrator.rs:105 *)
  Definition bad_channel (x : F) : bool := fis_nan x || fis_inf x || flt x f0.
  Definition valid_radiance (l : V3 F) : bool :=
    negb (bad_channel (vx l) || bad_channel (vy l) || bad_channel (vz l)).

  (** What was sampled (ghost): the pixel, the film position, the radiance. *)
  Definition shot : Type := P2 Z * P2 F * V3 F.

  (** integrator.rs:100-114: the loop over the samples of a pixel.  The list of shots (latest
      first) is a ghost record of what happened. *)
  Fixpoint pixel_loop (fuel : nat) (pixel : P2 Z) (s : ST) (ft : film_tile F) (log : list shot)
    : res (ST * film_tile F * list shot) :=
    match fuel with
    | O => Timeout
    | S fuel =>
      let! (p_film, s) := get_camera_sample sm s pixel in
      let! (l, s) := shade s p_film in
      let! ft := (if valid_radiance l then tile_add_sample m ft p_film l else Ok ft) in
      let! (more, s) := sm_next_sample sm s in
      let log := (pixel, p_film, l) :: log in
      if more : bool then pixel_loop fuel pixel s ft log else Ok (s, ft, log)
    end.

  (** integrator.rs:97-115: all pixels of the tile *)
  Definition pixels_loop (fuel : nat) (ps : list (P2 Z)) (s : ST) (ft : film_tile F) (log : list shot)
    : res (ST * film_tile F * list shot) :=
    rfold (fun '(s, ft, log) p =>
      let! s := sm_start_pixel sm s p in
      pixel_loop fuel p s ft log) ps (s, ft, log).

  (** integrator.rs:94-115: everything [render] does before the merge; thread-local *)
  Definition render_local (fuel : nat) (fm : film F) (s : ST) (b : bbox2) : res (ST * film_tile F * list shot) :=
    let! ft := get_film_tile m fm b in
    let! ps := bbox2_items m b in
    pixels_loop fuel ps s ft [].

  (** integrator.rs:94-118 [IntegratorLocal::render] *)
  Definition render_tile (fuel : nat) (fm : film F) (s : ST) (b : bbox2) : res (ST * film F) :=
    let! (s, ft, _) := render_local fuel fm s b in
    let! fm := merge_film_tile m fm ft in
    Ok (s, fm).

  (** The whole film by one thread: integrator.rs:60-67 without concurrency *)
  Definition render_seq (fuel : nat) (fm : film F) (s : ST) : res (ST * film F) :=
    let! tiles := tile_items m (film_sample_bbox fm) in
    rfold (fun '(s, fm) b => render_tile fuel fm s b) tiles (s, fm).
End Tile.

(** ** The threads of integrator.rs:41-72

    The threads share the tile iterator (one mutex) and the film (one mutex); everything else is
    thread-local.  A step of the system is one of: take the next tile (lock, next, unlock); render
    the tile locally; merge (lock, merge, unlock).  A step that would panic is not a step: the
    theorems show that no thread is ever stuck. *)
Section Threads.
  Context {F} {FO : FOps F} {ST : Type}.
  Variable (m : build) (sm : sampler_ops F ST) (shade : ST -> P2 F -> res (V3 F * ST)) (fuel : nat).

  Inductive thread : Type :=
  | TNext (s : ST)                              (* line 60: about to lock the iterator *)
  | TRender (s : ST) (b : bbox2)                (* line 64: owns tile b *)
  | TMerge (s : ST) (b : bbox2) (ft : film_tile F) (* line 117: about to lock the film *)
  | TDone.                                     (* left the loop *)

  Record sys := mkSys {
    y_iter : tile_iter;
    y_film : film F;
    y_threads : list thread;
    y_taken : list (nat * bbox2);              (* ghost: thread and tile, latest first *)
    y_merged : list (nat * bbox2) }.           (* ghost *)

  (** [iter.next()] with fuel that is always enough *)
  Definition next_tile (it : tile_iter) : res (option bbox2 * tile_iter) :=
    tile_next m (S (S (Z.to_nat (py (ti_n it) - py (ti_i it))))) it.

  (** [step i y y']: thread [i] moves. *)
  Inductive step : nat -> sys -> sys -> Prop :=
  | step_take : forall y i s b it,
      nth_error (y_threads y) i = Some (TNext s) ->
      next_tile (y_iter y) = Ok (Some b, it) ->
      step i y (mkSys it (y_film y) (set_nth (y_threads y) i (TRender s b)) ((i, b) :: y_taken y) (y_merged y))
  | step_finish : forall y i s it,
      nth_error (y_threads y) i = Some (TNext s) ->
      next_tile (y_iter y) = Ok (None, it) ->
      step i y (mkSys it (y_film y) (set_nth (y_threads y) i TDone) (y_taken y) (y_merged y))
  | step_render : forall y i s b s' ft log,
      nth_error (y_threads y) i = Some (TRender s b) ->
      render_local m sm shade fuel (y_film y) s b = Ok (s', ft, log) ->
      step i y (mkSys (y_iter y) (y_film y) (set_nth (y_threads y) i (TMerge s' b ft)) (y_taken y) (y_merged y))
  | step_merge : forall y i s b ft fm,
      nth_error (y_threads y) i = Some (TMerge s b ft) ->
      merge_film_tile m (y_film y) ft = Ok fm ->
      step i y (mkSys (y_iter y) fm (set_nth (y_threads y) i (TNext s)) (y_taken y) ((i, b) :: y_merged y)).

  (** integrator.rs:42-70: [n] threads, each with a clone of the sampler *)
  Definition start_sys (fm : film F) (s : ST) (n : nat) : res sys :=
    let! it := tile_iter_new m (film_sample_bbox fm) in
    Ok (mkSys it fm (repeat (TNext s) n) [] []).
End Threads.
Arguments thread : clear implicits.
Arguments sys : clear implicits.

(** ** The output file (integrator.rs:74-81): opened for writing at position 0, created if
    missing, not truncated.  The content afterwards: *)
Definition write_at_start {A} (old bytes : list A) : list A := bytes ++ skipn (length bytes) old.

Definition file_after_render {F} {O : FOps F} (old : list ascii) (fm : film F) : list ascii :=
  write_at_start old (write_image_ppm fm).
