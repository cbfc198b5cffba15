(** * film.rs: film, tiles, tile iterator, splatting, merging, PPM output; filter.rs *)
From Coq Require Import ZArith List Bool Ascii String.
From Verif Require Import Model.Num Model.Vector Model.Common Model.BBox.
Import ListNotations.
Local Open Scope Z_scope.

(** film.rs:11 *)
Definition FILTER_TABLE_WIDTH : Z := 16.
(** film.rs:14 *)
Definition TILE_SIZE : Z := 16.

(** A Rust range [lo..hi] of i32. *)
Definition zrange (lo hi : Z) : list Z :=
  map (fun k => lo + Z.of_nat k) (seq 0 (Z.to_nat (hi - lo))).

(** film.rs:165-169 [FilmTileIter] *)
Record tile_iter := mkTI { ti_bbox : bbox2; ti_n : P2 Z; ti_i : P2 Z }.

(** film.rs:172-179 [FilmTileIter::new]: (diagonal + 16 - 1) / 16, component-wise, in i32 *)
Definition tile_iter_new (m : build) (b : bbox2) : res tile_iter :=
  let! d := bbox2_diagonal m b in
  let! ax := i32_of m (px d + TILE_SIZE) in
  let! ay := i32_of m (py d + TILE_SIZE) in
  let! ax := i32_of m (ax - 1) in
  let! ay := i32_of m (ay - 1) in
  Ok (mkTI b (mkP2 (Z.quot ax TILE_SIZE) (Z.quot ay TILE_SIZE)) (mkP2 0 0)).

(** film.rs:184-199 [FilmTileIter::next] *)
Fixpoint tile_next (m : build) (fuel : nat) (it : tile_iter) : res (option bbox2 * tile_iter) :=
  match fuel with
  | O => Timeout
  | S fuel =>
    if py (ti_i it) >=? py (ti_n it) then Ok (None, it)
    else if px (ti_i it) >=? px (ti_n it) then
      let! y := i32_of m (py (ti_i it) + 1) in
      tile_next m fuel (mkTI (ti_bbox it) (ti_n it) (mkP2 0 y))
    else
      let! ox := i32_of m (px (ti_i it) * TILE_SIZE) in
      let! oy := i32_of m (py (ti_i it) * TILE_SIZE) in
      let! minx := i32_of m (px (b2min (ti_bbox it)) + ox) in
      let! miny := i32_of m (py (b2min (ti_bbox it)) + oy) in
      let! maxx := i32_of m (minx + TILE_SIZE) in
      let! maxy := i32_of m (miny + TILE_SIZE) in
      let tmax := p2min (mkP2 maxx maxy) (b2max (ti_bbox it)) in
      let tile := bbox2_new (mkP2 minx miny) tmax in
      let! x := i32_of m (px (ti_i it) + 1) in
      Ok (Some tile, mkTI (ti_bbox it) (ti_n it) (mkP2 x (py (ti_i it))))
  end.

(** Draining the iterator: at most [n] calls of [next]. *)
Fixpoint tile_collect (m : build) (inner n : nat) (it : tile_iter) : res (list bbox2) :=
  match n with
  | O => Timeout
  | S n =>
    let! (o, it) := tile_next m inner it in
    match o with
    | None => Ok []
    | Some t => let! l := tile_collect m inner n it in Ok (t :: l)
    end
  end.

(** All tiles of a sample area, with fuel that [Proofs/Tiles.v] shows to be sufficient. *)
Definition tile_items (m : build) (b : bbox2) : res (list bbox2) :=
  let! it := tile_iter_new m b in
  let nx := Z.max 0 (px (ti_n it)) in
  let ny := Z.max 0 (py (ti_n it)) in
  tile_collect m (S (S (Z.to_nat ny))) (S (Z.to_nat (nx * ny))) it.

Section Film.
  Context {F} {O : FOps F}.
  Local Open Scope f_scope.

  (** film.rs:203-206 [Pixel] *)
  Record pixel := mkPixel { p_color : V3 F; p_wsum : F }.

  (** #[derive(Default)] *)
  Definition pixel_default : pixel := mkPixel v3zero f0.

  (** film.rs:209-212 [Pixel::add_sample] *)
  Definition pixel_add_sample (p : pixel) (sample : V3 F) (w : F) : pixel :=
    mkPixel (v3add (p_color p) (v3scale sample w)) (p_wsum p + w).

  (** film.rs:214-217 [Pixel::merge] *)
  Definition pixel_merge (p q : pixel) : pixel :=
    mkPixel (v3add (p_color p) (p_color q)) (p_wsum p + p_wsum q).

  (** filter.rs:3-8 [trait Filter] *)
  Record filter := mkFilter { flt_radius : F; flt_eval : P2 F -> F }.

  (** filter.rs:25-27 [GaussianFilter::gaussian] with the fields alpha and exp *)
  Definition gaussian (alpha e d : F) : F := fmax (fexp (- alpha * d * d) - e) f0.

  (** filter.rs:16-38 [GaussianFilter] *)
  Definition gaussian_filter (radius alpha : F) : filter :=
    let e := fexp (- alpha * fsq radius) in
    mkFilter radius (fun p => gaussian alpha e (px p) * gaussian alpha e (py p)).

  (** film.rs:18-23 [Film] (the mutex is part of the model of [render]) *)
  Record film := mkFilm {
    fm_res : P2 Z;
    fm_radius : F;
    fm_table : list (list F);   (* row y, column x *)
    fm_pixels : list pixel }.

  (** film.rs:29-39: the filter table *)
  Definition filter_table (flt : filter) : list (list F) :=
    map (fun y => map (fun x =>
      flt_eval flt (mkP2 ((fofZ x + fhalf) * flt_radius flt / fofZ FILTER_TABLE_WIDTH)
                         ((fofZ y + fhalf) * flt_radius flt / fofZ FILTER_TABLE_WIDTH)))
      (zrange 0 FILTER_TABLE_WIDTH)) (zrange 0 FILTER_TABLE_WIDTH).

  (** Allocating [n] default pixels, [n] being an i32 cast to usize: a negative [n] becomes an
      impossible capacity and [Vec::with_capacity] panics. *)
  Definition alloc_pixels (n : Z) : res (list pixel) :=
    if (n <? 0)%Z then Panic else Ok (repeat pixel_default (Z.to_nat n)).

  (** film.rs:26-51 [Film::new]; the u32 resolution is cast to i32 *)
  Definition film_new (m : build) (r : P2 Z) (flt : filter) : res film :=
    let r := mkP2 (wrap_s 32 (px r)) (wrap_s 32 (py r)) in
    let! area := i32_of m (px r * py r) in
    let! pixels := alloc_pixels area in
    Ok (mkFilm r (flt_radius flt) (filter_table flt) pixels).

  (** film.rs:53-58 [sample_bbox] *)
  Definition film_sample_bbox (fm : film) : bbox2 :=
    let lo := fto_i32 (ffloor (f0 + fhalf - fm_radius fm)) in
    let hi (r : Z) := fto_i32 (fceil (fofZ r - fhalf + fm_radius fm)) in
    bbox2_new (mkP2 lo lo) (mkP2 (hi (px (fm_res fm))) (hi (py (fm_res fm)))).

  (** film.rs:109-114 [FilmTile] *)
  Record film_tile := mkTile {
    tl_bbox : bbox2;
    tl_radius : F;
    tl_table : list (list F);
    tl_pixels : list pixel }.

  (** film.rs:117-128 [FilmTile::new] *)
  Definition film_tile_new (m : build) (b : bbox2) (radius : F) (table : list (list F)) : res film_tile :=
    let! area := bbox2_area m b in
    let! pixels := alloc_pixels area in
    Ok (mkTile b radius table pixels).

  (** film.rs:65-70: the pixels of the film a tile can touch *)
  Definition film_tile_bbox (fm : film) (b : bbox2) : bbox2 :=
    let lo (z : Z) := fto_i32 (fceil (fofZ z - fhalf - fm_radius fm)) in
    let hi (z : Z) := fto_i32 (ffloor (fofZ z + fhalf + fm_radius fm)) in
    let mn := mkP2 (lo (px (b2min b))) (lo (py (b2min b))) in
    let mx := mkP2 (hi (px (b2max b))) (hi (py (b2max b))) in
    bbox2_new (p2max mn (mkP2 0%Z 0%Z)) (p2min mx (fm_res fm)).

  (** film.rs:64-72 [get_film_tile] *)
  Definition get_film_tile (m : build) (fm : film) (b : bbox2) : res film_tile :=
    film_tile_new m (film_tile_bbox fm b) (fm_radius fm) (fm_table fm).

  (** film.rs:74-77 [Film::pixel_offset] *)
  Definition film_pixel_offset (m : build) (fm : film) (p : P2 Z) : res Z :=
    let! a := i32_of m (px (fm_res fm) * py p) in
    let! o := i32_of m (a + px p) in
    Ok (i32_as_usize o).

  (** film.rs:130-135 [FilmTile::pixel_offset] *)
  Definition tile_pixel_offset (m : build) (t : film_tile) (x y : Z) : res Z :=
    let! x := i32_of m (x - px (b2min (tl_bbox t))) in
    let! y := i32_of m (y - py (b2min (tl_bbox t))) in
    let! w := i32_of m (px (b2max (tl_bbox t)) - px (b2min (tl_bbox t))) in
    let! a := i32_of m (w * y) in
    let! o := i32_of m (a + x) in
    Ok (i32_as_usize o).

  (** film.rs:138-142: the pixels a sample at [p_film] touches, clipped to the tile *)
  Definition sample_range (m : build) (t : film_tile) (p_film : P2 F) : res (P2 F * P2 Z * P2 Z) :=
    let p := mkP2 (px p_film - fhalf) (py p_film - fhalf) in
    let lo (v : F) := fto_i32 (fceil (v - tl_radius t)) in
    let hi (v : F) := fto_i32 (ffloor (v + tl_radius t)) in
    let mn := mkP2 (lo (px p)) (lo (py p)) in
    let! hx := i32_of m (hi (px p) + 1) in
    let! hy := i32_of m (hi (py p) + 1) in
    Ok (p, p2max mn (b2min (tl_bbox t)), p2min (mkP2 hx hy) (b2max (tl_bbox t))).

  (** film.rs:149-150: filter table index for pixel coordinate [z] and sample coordinate [v] *)
  Definition table_index (radius : F) (z : Z) (v : F) : Z :=
    Z.min (fto_usize (ffloor (fabs ((fofZ z - v) / radius * fofZ FILTER_TABLE_WIDTH))))
          (FILTER_TABLE_WIDTH - 1).

  (** film.rs:156-159: one pixel of the splat *)
  Definition splat_one (m : build) (table : list (list F)) (ix iy : list Z) (mn : P2 Z)
      (sample : V3 F) (t : film_tile) (x y : Z) : res film_tile :=
    let! dy := i32_of m (y - py mn) in
    let! jy := idx iy (i32_as_usize dy) in
    let! row := idx table jy in
    let! dx := i32_of m (x - px mn) in
    let! jx := idx ix (i32_as_usize dx) in
    let! w := idx row jx in
    let! off := tile_pixel_offset m t x y in
    let! pixels := upd (tl_pixels t) off (fun p => pixel_add_sample p sample w) in
    Ok (mkTile (tl_bbox t) (tl_radius t) (tl_table t) pixels).

  (** film.rs:137-162 [FilmTile::add_sample] *)
  Definition tile_add_sample (m : build) (t : film_tile) (p_film : P2 F) (sample : V3 F) : res film_tile :=
    let! (p, mn, mx) := sample_range m t p_film in
    let ix := map (fun z => table_index (tl_radius t) z (px p)) (zrange (px mn) (px mx)) in
    let iy := map (fun z => table_index (tl_radius t) z (py p)) (zrange (py mn) (py mx)) in
    rfold (fun t y =>
      rfold (fun t x => splat_one m (tl_table t) ix iy mn sample t x y) (zrange (px mn) (px mx)) t)
      (zrange (py mn) (py mx)) t.

  (** film.rs:82: one pixel of the merge *)
  Definition merge_one (m : build) (tile : film_tile) (fm : film) (p : P2 Z) : res film :=
    let! fo := film_pixel_offset m fm p in
    let! to := tile_pixel_offset m tile (px p) (py p) in
    let! q := idx (tl_pixels tile) to in
    let! pixels := upd (fm_pixels fm) fo (fun p => pixel_merge p q) in
    Ok (mkFilm (fm_res fm) (fm_radius fm) (fm_table fm) pixels).

  (** film.rs:79-84 [merge_film_tile] (body of the critical section) *)
  Definition merge_film_tile (m : build) (fm : film) (tile : film_tile) : res film :=
    let! ps := bbox2_items m (tl_bbox tile) in
    rfold (merge_one m tile) ps fm.

  (** film.rs:220-226 [gamma_correct] *)
  Definition gamma_correct (v : F) : F :=
    if v <=? flit 31308 7 then flit 1292 2 * v
    else flit 1055 3 * fpowf v (f1 / flit 24 1) - flit 55 3.

  (** film.rs:96,101-103: the number written for a channel *)
  Definition quantize (c w : F) : Z :=
    fto_u32 (fround (clamp (gamma_correct (c / w) * fofZ 255 + fhalf) f0 (fofZ 255))).

  Definition pixel_rgb (p : pixel) : Z * Z * Z :=
    (quantize (vx (p_color p)) (p_wsum p), quantize (vy (p_color p)) (p_wsum p),
     quantize (vz (p_color p)) (p_wsum p)).
End Film.

Arguments pixel : clear implicits.
Arguments filter : clear implicits.
Arguments film : clear implicits.
Arguments film_tile : clear implicits.

(** ** Text output *)
Local Open Scope char_scope.

Definition digit (z : Z) : ascii := ascii_of_nat (48 + Z.to_nat z).

(** Rust's [{}] for a non-negative integer, most significant digit first.  [fuel] digits. *)
Fixpoint print_nat (fuel : nat) (z : Z) (acc : list ascii) : list ascii :=
  match fuel with
  | O => acc
  | S fuel =>
    let acc := digit (z mod 10) :: acc in
    if (z <? 10)%Z then acc else print_nat fuel (z / 10) acc
  end.

(** [{}] for i32 and u32: at most ten digits *)
Definition print_int (z : Z) : list ascii :=
  if (z <? 0)%Z then "-"%char :: print_nat 10 (- z) [] else print_nat 10 z [].

Definition nl : ascii := "010"%char.

Definition print_rgb (c : Z * Z * Z) : list ascii :=
  let '(r, g, b) := c in
  print_int r ++ " "%char :: print_int g ++ " "%char :: print_int b ++ [nl].

(** film.rs:87-106 [write_image_ppm]: the bytes written *)
Definition write_image_ppm {F} {O : FOps F} (fm : film F) : list ascii :=
  ("P"%char :: "3"%char :: nl ::
   print_int (px (fm_res fm)) ++ " "%char :: print_int (py (fm_res fm)) ++
   [nl; "2"%char; "5"%char; "5"%char; nl])
  ++ flat_map (fun p => print_rgb (pixel_rgb p)) (fm_pixels fm).
