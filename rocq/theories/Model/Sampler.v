(** * sampler.rs, sampler_random.rs, sampler_halton.rs *)
From Coq Require Import ZArith List Bool.
From Verif Require Import Model.Num Model.Vector Model.Common Model.BBox Model.HaltonTable.
Import ListNotations.
Local Open Scope Z_scope.

(** ** sampler.rs:4-23 [trait Sampler]; the state is the implementing struct *)
Record sampler_ops (F S : Type) := mkSampler {
  sm_start_pixel : S -> P2 Z -> res S;
  sm_next_sample : S -> res (bool * S);
  sm_get_1d : S -> res (F * S);
  sm_get_2d : S -> res (P2 F * S) }.
Arguments mkSampler {F S}.
Arguments sm_start_pixel {F S}. Arguments sm_next_sample {F S}.
Arguments sm_get_1d {F S}. Arguments sm_get_2d {F S}.

(** sampler.rs:18-22 [get_camera_sample] *)
Definition get_camera_sample {F} {O : FOps F} {S} (sm : sampler_ops F S) (s : S) (p : P2 Z) : res (P2 F * S) :=
  let! (u, s) := sm_get_2d sm s in
  Ok (mkP2 (fadd (fofZ (px p)) (px u)) (fadd (fofZ (py p)) (py u)), s).

(** ** sampler_random.rs.  The generator is an arbitrary state machine [gen]. *)
Section Random.
  Context {F : Type} {G : Type} (gen : G -> F * G) (m : build).

  (** sampler_random.rs:8-14 *)
  Record random_sampler := mkRS { rs_spp : Z; rs_index : Z; rs_rng : G }.

  (** sampler_random.rs:17-23 *)
  Definition random_new (spp : Z) (g : G) : random_sampler := mkRS spp 0 g.

  (** sampler_random.rs:27-29 *)
  Definition random_start_pixel (s : random_sampler) (_ : P2 Z) : res random_sampler :=
    Ok (mkRS (rs_spp s) 0 (rs_rng s)).

  (** sampler_random.rs:31-34 *)
  Definition random_next_sample (s : random_sampler) : res (bool * random_sampler) :=
    let! i := u32_of m (rs_index s + 1) in
    Ok (i <? rs_spp s, mkRS (rs_spp s) i (rs_rng s)).

  (** the debug assertion of lines 37 and 42 *)
  Definition random_assert (s : random_sampler) : res unit :=
    match m with
    | Debug => if rs_index s <? rs_spp s then Ok tt else Panic
    | Release => Ok tt
    end.

  (** sampler_random.rs:36-39 *)
  Definition random_get_1d (s : random_sampler) : res (F * random_sampler) :=
    let! _ := random_assert s in
    let (x, g) := gen (rs_rng s) in
    Ok (x, mkRS (rs_spp s) (rs_index s) g).

  (** sampler_random.rs:41-44 *)
  Definition random_get_2d (s : random_sampler) : res (P2 F * random_sampler) :=
    let! _ := random_assert s in
    let (x, g) := gen (rs_rng s) in
    let (y, g) := gen g in
    Ok (mkP2 x y, mkRS (rs_spp s) (rs_index s) g).

  Definition random_ops : sampler_ops F random_sampler :=
    mkSampler random_start_pixel random_next_sample random_get_1d random_get_2d.
End Random.

(** ** sampler_halton.rs *)

(** sampler_halton.rs:9 *)
Definition K_MAX_RESOLUTION : Z := 128.

(** sampler_halton.rs:147-151: the digit loop; [fuel] iterations at most *)
Fixpoint radical_loop (m : build) (fuel : nat) (base a x base_n : Z) : res (Z * Z) :=
  if a >? 0 then
    match fuel with
    | O => Timeout
    | S fuel =>
      let! xb := u32_of m (x * base) in
      let! x := u32_of m (xb + a mod base) in
      let! base_n := u32_of m (base_n * base) in
      radical_loop m fuel base (a / base) x base_n
    end
  else Ok (x, base_n).

(** sampler_halton.rs:144-153 [radical_inverse]; 32 iterations suffice for base >= 2.
    (base 0 would panic at [%]; it never occurs.) *)
Definition radical_inverse {F} {O : FOps F} (m : build) (base a : Z) : res F :=
  let! (x, base_n) := radical_loop m 32 base a 0 1 in
  Ok (fmin ONE_MINUS_EPSILON (fdiv (fofZ x) (fofZ base_n))).

(** sampler_halton.rs:155-1183 [radical_inverse_prime] *)
Definition radical_inverse_prime {F} {O : FOps F} (m : build) (base_index a : Z) : res F :=
  let! base := idx halton_bases base_index in
  radical_inverse m base a.

(** sampler_halton.rs:1185-1193 [inverse_radical_inverse] *)
Fixpoint inv_radical_loop (m : build) (n : nat) (base a x : Z) : res Z :=
  match n with
  | O => Ok x
  | S n =>
    let! xb := u32_of m (x * base) in
    let! x := u32_of m (xb + a mod base) in
    inv_radical_loop m n base (a / base) x
  end.
Definition inverse_radical_inverse (m : build) (base a n_digits : Z) : res Z :=
  inv_radical_loop m (Z.to_nat n_digits) base a 0.

(** sampler_halton.rs:1203-1211 [extended_gcd] on u32 arguments, i64 results *)
Fixpoint extended_gcd (m : build) (fuel : nat) (a b : Z) : res (Z * Z) :=
  match fuel with
  | O => Timeout
  | S fuel =>
    if b =? 0 then Ok (1, 0)
    else
      let d := a / b in
      let! (xp, yp) := extended_gcd m fuel b (a mod b) in
      let! dy := i64_of m (d * yp) in
      let! y := i64_of m (xp - dy) in
      Ok (yp, y)
  end.

(** sampler_halton.rs:1195-1198 [multiplicative_inverse]: |x| truncated to u32, mod n.
    The second argument of [extended_gcd] decreases, so [n + 1] calls suffice. *)
Definition multiplicative_inverse (m : build) (a n : Z) : res Z :=
  let! (x, _) := extended_gcd m (S (Z.to_nat n)) a n in
  if n =? 0 then Panic else Ok (wrap_u 32 (Z.abs x) mod n).

(** sampler_halton.rs:1213-1220 [pos_mod] *)
Definition pos_mod (a b : Z) : Z :=
  let r := Z.rem a b in if r <? 0 then r + b else r.

(** sampler_halton.rs:12-33 [HaltonSampler] *)
Record halton := mkHalton {
  h_spp : Z;
  h_pixel : P2 Z;
  h_index : Z;                (* current_pixel_sample_index *)
  h_dim : Z;                  (* dimension *)
  h_interval : Z;             (* interval_sample_index *)
  h_scale : P2 Z;             (* base_scale *)
  h_exp : P2 Z;               (* base_exp *)
  h_stride : Z;               (* sample_stride *)
  h_offset_pixel : P2 Z;      (* pixel_for_offset *)
  h_offset : Z;               (* offset_for_current_pixel *)
  h_inv : P2 Z }.             (* mul_inverse *)

(** sampler_halton.rs:42-47: smallest power of [base] that is >= bound *)
Fixpoint scale_loop (m : build) (fuel : nat) (base bound scale exp : Z) : res (Z * Z) :=
  if scale <? bound then
    match fuel with
    | O => Timeout
    | S fuel =>
      let! scale := u32_of m (scale * base) in
      let! exp := u32_of m (exp + 1) in
      scale_loop m fuel base bound scale exp
    end
  else Ok (scale, exp).

(** sampler_halton.rs:36-72 [HaltonSampler::new] *)
Definition halton_new (m : build) (spp : Z) (b : bbox2) : res halton :=
  let! d := bbox2_diagonal m b in
  let bound (r : Z) := wrap_u 32 (Z.min r K_MAX_RESOLUTION) in
  let! (sx, ex) := scale_loop m 32 2 (bound (px d)) 1 0 in
  let! (sy, ey) := scale_loop m 32 3 (bound (py d)) 1 0 in
  let! stride := u32_of m (sx * sy) in
  let! ix := multiplicative_inverse m sy sx in
  let! iy := multiplicative_inverse m sx sy in
  Ok (mkHalton spp (mkP2 0 0) 0 0 0 (mkP2 sx sy) (mkP2 ex ey) stride (mkP2 0 0) 0 (mkP2 ix iy)).

(** sampler_halton.rs:83-88: one round of the offset loop *)
Definition offset_round (m : build) (stride offset base p exp scale inv : Z) : res Z :=
  let! d := inverse_radical_inverse m base p exp in
  let! a := u32_of m (d * (stride / scale)) in
  let! b := u32_of m (a * inv) in
  u32_of m (offset + b).

(** sampler_halton.rs:76-93: recompute the offset if the pixel changed *)
Definition refresh_offset (m : build) (s : halton) : res halton :=
  let same := (px (h_offset_pixel s) =? px (h_pixel s)) && (py (h_offset_pixel s) =? py (h_pixel s)) in
  if negb same then
    let! o :=
      (if h_stride s >? 1 then
        let pm := mkP2 (pos_mod (px (h_pixel s)) K_MAX_RESOLUTION) (pos_mod (py (h_pixel s)) K_MAX_RESOLUTION) in
        let! o := offset_round m (h_stride s) 0 2 (px pm) (px (h_exp s)) (px (h_scale s)) (px (h_inv s)) in
        let! o := offset_round m (h_stride s) o 3 (py pm) (py (h_exp s)) (py (h_scale s)) (py (h_inv s)) in
        Ok (o mod h_stride s)
      else Ok 0) in
    Ok (mkHalton (h_spp s) (h_pixel s) (h_index s) (h_dim s) (h_interval s) (h_scale s) (h_exp s)
          (h_stride s) (h_pixel s) o (h_inv s))
  else Ok s.

(** sampler_halton.rs:75-95 [get_index_for_sample] *)
Definition get_index_for_sample (m : build) (s : halton) : res (Z * halton) :=
  let! s := refresh_offset m s in
  let! p := u32_of m (h_index s * h_stride s) in
  let! i := u32_of m (h_offset s + p) in
  Ok (i, s).

(** dimension = 0; interval_sample_index = get_index_for_sample() *)
Definition halton_reset (m : build) (s : halton) : res halton :=
  let! (i, s) := get_index_for_sample m s in
  Ok (mkHalton (h_spp s) (h_pixel s) (h_index s) 0 i (h_scale s) (h_exp s)
        (h_stride s) (h_offset_pixel s) (h_offset s) (h_inv s)).

(** sampler_halton.rs:108-116 [start_pixel] *)
Definition halton_start_pixel (m : build) (s : halton) (p : P2 Z) : res halton :=
  halton_reset m (mkHalton (h_spp s) p 0 (h_dim s) (h_interval s) (h_scale s) (h_exp s)
        (h_stride s) (h_offset_pixel s) (h_offset s) (h_inv s)).

(** sampler_halton.rs:118-125 [start_next_sample] *)
Definition halton_next_sample (m : build) (s : halton) : res (bool * halton) :=
  let! i := u32_of m (h_index s + 1) in
  let! s := halton_reset m (mkHalton (h_spp s) (h_pixel s) i (h_dim s) (h_interval s) (h_scale s) (h_exp s)
        (h_stride s) (h_offset_pixel s) (h_offset s) (h_inv s)) in
  Ok (h_index s <? h_spp s, s).

(** sampler_halton.rs:98-104 [sample_dimension].  ([index >> exp] cannot overflow: exp <= 7.) *)
Definition sample_dimension {F} {O : FOps F} (m : build) (s : halton) (index d : Z) : res F :=
  if d =? 0 then radical_inverse_prime m 0 (Z.shiftr index (px (h_exp s)))
  else if d =? 1 then
    if py (h_scale s) =? 0 then Panic else radical_inverse_prime m 1 (index / py (h_scale s))
  else radical_inverse_prime m d index.

Definition halton_set_dim (s : halton) (d : Z) : halton :=
  mkHalton (h_spp s) (h_pixel s) (h_index s) d (h_interval s) (h_scale s) (h_exp s)
        (h_stride s) (h_offset_pixel s) (h_offset s) (h_inv s).

(** sampler_halton.rs:127-132 [get_1d] *)
Definition halton_get_1d {F} {O : FOps F} (m : build) (s : halton) : res (F * halton) :=
  let! v := sample_dimension m s (h_interval s) (h_dim s) in
  let! d := u32_of m (h_dim s + 1) in
  Ok (v, halton_set_dim s d).

(** sampler_halton.rs:134-141 [get_2d] *)
Definition halton_get_2d {F} {O : FOps F} (m : build) (s : halton) : res (P2 F * halton) :=
  let! x := sample_dimension m s (h_interval s) (h_dim s) in
  let! d1 := u32_of m (h_dim s + 1) in
  let! y := sample_dimension m s (h_interval s) d1 in
  let! d := u32_of m (h_dim s + 2) in
  Ok (mkP2 x y, halton_set_dim s d).

Definition halton_ops {F} {O : FOps F} (m : build) : sampler_ops F halton :=
  mkSampler (halton_start_pixel m) (halton_next_sample m) (halton_get_1d m) (halton_get_2d m).
