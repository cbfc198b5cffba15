# A machine-checked model of pt.rs

`/repo` (laurence6/pt.rs, a Rust path tracer) is modelled by hand, function by function, in Coq 8.16.1
(`rocq/theories`). Nothing of `/repo` is executed. This file says what is modelled, how each property of
`properties.jsonl` is stated and proved, and what has to be trusted.

## 1. Layers

* `Model/`  Gallina transcription of the Rust code. Every definition cites file and lines.
* `Spec/`   small independent specifications (mathematical definitions that mention no model helper).
* `Proofs/` lemmas.
* `Props/`  one file per property group: the theorems named in `MANIFEST.json`, examples that meet their
  hypotheses, and `Print Assumptions`.

## 2. Numbers

The code computes in `f32` (and `f64` in `quadratic`). The model is written once, over a type class
`FOps F` of floating-point operations (add, sub, mul, div, neg, abs, sqrt, comparisons that are false on NaN,
floor/ceil/round, int conversions with Rust's saturating `as`, next-up/down, transcendental functions), and is
instantiated twice:

* **B32** – exact IEEE-754 binary32 with round-to-nearest-even, NaN, infinities and signed zeros, as defined by
  Flocq (`BinarySingleNaN`). sin/cos/tan/acos/atan2/exp/ln/pow are *parameters* (a record `Libm` of arbitrary
  functions); binary32 theorems hold for every libm (or state what they need of it).
  NaN payloads are not modelled.
* **XR** – exact arithmetic: `XNaN | XInf s | XFin (r : R)` with IEEE rules for NaN and infinities
  (`x/0 = ±inf`, `0/0 = NaN`, `inf-inf = NaN`, `0*inf = NaN`) but no rounding and a single zero. Used for geometric
  properties which are only meaningful up to rounding. A theorem about XR says: the algorithm is right; it does
  not bound rounding errors. Statements in the English text marked "(exact arithmetic)" are XR theorems.

Arithmetic-independent theorems (structure, termination, agreement of two functions) are proved for *every* `FOps`
instance, so they hold for B32 in particular.

Decimal literals `m·10^-k` are modelled by the correctly rounded quotient of two exactly representable integers, which is
the correctly rounded literal.

Integers are `Z` with explicit range checks / wrap-around; results that can panic live in `res A := Ok a | Panic | Timeout`
where `Timeout` stands for exhausted fuel and is always proved unreachable where a theorem claims termination.
The build mode (`Debug` panics on overflow, `Release` wraps) is a parameter where it matters.

## 3. Trait objects, sharing, concurrency

* `dyn Shape`, `dyn BxDF`, `dyn Material`, `dyn Light`, `dyn Sampler`: records of functions, so theorems quantify over
  arbitrary implementations, also ones not in the repository.
* `Arc` identity (`same_addr`) is modelled by natural-number ids.
* `Mutex`/threads in `Integrator::render`: a small-step transition system whose atomic steps are "lock the tile iterator and
  take a tile", "render the tile locally", "lock the film and merge". Theorems quantify over all interleavings.
  Not modelled: the channel of the (removed) progress printing, operating-system failures of `spawn`.

## 4. Properties

"Any" = proved for every `FOps`; "B32" = IEEE binary32; "XR" = exact arithmetic; "Z" = integers.

| id | modelled | how |
|----|----------|-----|
| C01 | `BBox2iIter` as a state machine over i32 | Z; run = spec list (row-major product), by induction; overflow freedom from bounds |
| C02 | `FilmTileIter` | Z; partition proved through exists-unique tile of a pixel |
| C03 | film, tile, `add_sample`, `merge_film_tile` with array accesses returning Panic | B32; monotonicity of rounding |
| C04 | same functions | XR; set of touched pixels = {p : |p+1/2-s|<=r} |
| C05 | render loop as transition system | invariants over reachable states; measure for termination |
| C06 | same + Halton sampler | XR: merge is commutative/associative; f32: refuted by a witness |
| C07 | `Pixel` | XR; induction over histories |
| C08 | `write_image_ppm`, decimal printing | B32; independent parser in Spec; parse (print film) |
| C09 | file as byte list, `OpenOptions` without truncate | refuted (stale tail) + partial (prefix; exact for new files) |
| C10 | `gamma_correct` and quantisation | refuted for black; monotone part proved |
| C11 | sample filter in `IntegratorLocal::render` + film | B32; invariant over histories |
| C12 | `GaussianFilter` | XR for analytic part, B32 for sign |
| C13,C14 | `radical_inverse` with u32 wrap, both build modes | B32 + Z |
| C15 | table of bases | computed: sieve-free primality check by reflection, all primes up to 8161 covered |
| C16 | `HaltonSampler` state machine | invariant "cached offset belongs to cached pixel" |
| C17 | sample loop of `IntegratorLocal::render`, both samplers | Z |
| C18 | `li` over an instrumented sampler | Any; counts dimensions |
| C19,C20 | index computation | Z modular arithmetic; C20 refuted (abs instead of mod), C19 refuted (row mod 128 before mod 3^k) with a partial result |
| C21 | `get_camera_sample` | B32 |
| C22-C28 | `Matrix`, `Transform` | XR / R, ring/field |
| C29 | `PerspectiveCamera` | XR |
| C30 | BBox transform | refuted for rotations; partial: holds iff each matrix row has entries of one sign |
| C31 | `BBox3f` | B32 via order lemmas |
| C32 | slab test | XR; -0.0 counterexample in B32 |
| C33 | slab test | B32, error analysis with Flocq; partial if range conditions are needed |
| C34 | bounding sphere | XR |
| C35,C36 | sphere | XR (C36 at poles refuted) |
| C37 | triangle | XR |
| C38 | both shapes | Any |
| C39 | both shapes | XR |
| C40-C42 | triangle sampling, normals, meshes | XR / Any |
| C43 | simple container | XR (any list of shapes with one first hit per ray; spheres and triangles qualify) |
| C44 | k-d tree build | FLaws (B32 and XR), every `sort_by` |
| C45 | k-d tree traversal | Any |
| C46,C47 | k-d tree | refuted in B32 (ray in a split plane: 0/0 ends the loop early); partial in XR for all other rays |
| C48 | `Builder` calls and `construct` | Any; every sequence of calls, both containers |
| C49 | `DistantLight`, shadow rays | XR: where the far end lies; B32 witness that an occluder at the opposite corner is missed |
| C50 | `Bsdf::new`, local frames | XR |
| C51 | choice of a component and rescaled sample | B32 (all floats in [0,1)), XR for which one |
| C52 | `Bsdf::sample_f`, `pdf`, `f` | XR; for components whose pdf matches their sampler, then for the library's |
| C53-C55 | Lambertian, mirror, refraction | XR |
| C56,C57 | Fresnel formulas | XR; conductor refuted at 0/0 (XR and B32 witnesses) |
| C58,C59 | Trowbridge-Reitz distribution | XR; the pdf is refuted (divides by the cosine twice), the right density of the sampler is proved |
| C60,C61 | power heuristic, disk and hemisphere warps | XR |
| C62,C63 | area lights | XR / Any; pdf refuted, spheres refuted (sampling panics) |
| C64,C65 | ray offset, next float | B32 on bit patterns |
| C66 | `li`, whole scenes | XR invariant of the path loop (a throughput whose luminance is positive, or all samples positive); then all triangle scenes meet the invariant; B32 witness for a sample 0 |
| C67,C68 | textures, materials | Any |
| C69 | `clamp`, `quadratic`, luminance | Any / XR |
| C70 | `li`, whole scenes | B32: sphere scenes, and scenes of moderate size with triangles and lamps with surfaces of every material, smooth or rough (`Spec/TameSpec.v`, `Spec/FinishSpec.v`), never panic; witness that triangle scenes can |
| C71,C72 | coordinate systems, hit frames | XR; sphere poles refuted |
| C73 | `li`, `estimate_direct` on mirrors | XR: the exact result; B32 witness that a lamp in a mirror is counted twice |
| C74,C75 | `li` | XR; simulation between the two runs for C75 |
| C76,C77 | `estimate_direct`, choice of the light | XR |
| C78 | Halton sampler | Any; induction over the script of requests |
| C79 | `li` | XR; an inductive specification of traced paths and the sum along them |
| C80-C83 | `Bsdf::f`, `Bsdf::sample_f`, smooth materials | XR; plastic refuted (indices in the wrong order) |
| C84 | `AreaLight::l`, `sample_li`, `Triangle::sample`, `intersect` | XR; refuted for vertex normals against the winding |
| C85 | texture mappings and checkerboards | XR |
| C86 | `MicrofacetTransmission`, GGX terms | XR; refuted (no test that a microfacet joins the directions; NaN for equal indices) |
| C87 | `LambertianReflection`, `cosine_sample_hemisphere` | XR; density by change of variables (`Spec/DensitySpec.v`) |
| C88 | rough reflection and transmission samplers | XR; refuted (the reported density lacks the squared cosine of the half vector) |
| C89 | the whole program from the scene builder on | B32; C70 for scenes of moderate size put into the transition system of C05, with the file of C09; the radius told to distant lights is bounded from the boxes |
| C90 | examples/helloworld.rs | B32; the set-up computed, then C89, C17 and C11 |
| C91 | sampler_random.rs | any number type; induction over the calls |
| C92 | sampler_random.rs, render threads | a record of the stream positions per tile; induction over the steps; a two-thread run as witness |
| C93 | `li`, matt and mirror scenes | XR; the roulette gives luminance at most (20/19)^n, summed along the path specification of C79 |
| C94 | `sample_dimension`, `radical_inverse` | XR, release; Chinese remainder over the stride of the pixel and the bases; the refutation computes the wrap-around of 1627^3 in 32 bits |
| C95 | `kd_build`, `try_axes`, `scan_step`, `split_cost` | XR; the running counts of the sweep equal the sizes of the lists handed on; ties are compared with the first begin and the last end at a plane |
| C96 | `li` on a scene from `construct`: `simple_intersect`, `sp_intersect`, `tr_intersect`, `distant_sample_li`, `spawn_ray`, `spawn_ray_to`, `bsdf_f`, `lambertian` | XR; the whole path from the builder to the radiance; the hit's error bound must be smaller than the scene's extent, else the shadow ray may have no direction |
| C97 | `li` on scenes from `construct` before and after a change of unit and origin: `sp_intersect`, `tr_intersect`, `bbox_intersect`, `simple_intersect`, `spawn_ray`, `spawn_ray_to`, `distant_sample_li` | XR for the law, distant lights only; k-d trees and whole pictures through C109; displacement only for balls (the error bound of a triangle's hit is proportional to its coordinates); refutations for lamps and for displaced triangles in B32 |
| C98 | `xf_interaction` | XR; the error bounds only for matrices without negative entries, refuted for rotations |
| C99 | `tr_partials`, `tr_intersect`, `sp_area` | XR |
| C100 | `tr_intersect`, `tr_sample`, `bary_err` | B32; the exact triangle point with the computed weights, normalised, against forward error bounds gamma(7); lengths below 2^-100 absorb underflow |
| C101 | `sp_intersect`, `sp_interaction` | B32; the sphere point on the line from the centre through the computed point; refuted for centres far from the origin |
| C102 | `spawn_ray`, `spawn_ray_to`, `tr_intersect_p`, `sp_intersect_p` | XR; heights over the tangent plane; the error box of a point has a thickness along the normal, by which origins are displaced |
| C103 | `extended_gcd`, `multiplicative_inverse` | integers; induction on the second argument |
| C104 | `li_loop`, `uniform_sample_one_light` | XR; iterated Riemann integrals (`mean`); step functions over roulette and light numbers; induction on the path |
| C105 | `li_loop`, `estimate_direct`, `uniform_sample_one_light` | XR; a sampler that hands out a list of numbers; induction on the bounces left |
| C106 | `concentric_sample_disk`, `cosine_sample_hemisphere`, `lamb_sample`, `mat_lambertian`, `bsdf_sample_f` | XR; Coquelicot integrals: wedges of the square onto octants of the disk, the triangle integrated in both orders, radius = sine of the angle |
| C107 | `tr_sample`, `area_sample_li`, `direct_light`, `lamb_pdf`, `power_heuristic` | XR; substitution root of the first number, the triangle as strips; continuity of the integrand on the lamp |
| C108 | `pixel_add_sample`, `pixel_merge`, `merge_film_tile`, `render_tile`, threads | B32 (and any arithmetic for the samples); trace of a pixel, Flocq's relative errors of sums, products and quotients, Bernoulli |
| C109 | both containers under `li`, `render_seq`, threads | XR; a container that panics on rays that are not clear, and a simulation: what succeeds with it succeeds alike with either container |
| C110 | flags of the five BxDFs, `bsdf_sample_f`, materials | XR; case analysis on the materials, frame isometry of C50 |
| C111 | `lerp`, `Spectrum::lerp` | XR; binary32 with relative errors, ends through exact rounding of representable values |
| C112 | `look_at`, `perspective`, `PerspectiveCamera` | XR; coordinates in the observer's frame, C27 and C29 |
| C113 | `Integrator::render` with panicking threads (Model/Failure.v) | any `FLaws`; unwinding poisons the lock held, `join().unwrap()` passes the panic on; invariant over C05 |
| C114 | `spawn_ray_to`, `offset_ray_origin`, `unoccluded` with both containers | XR; reversal of the ray, then C35, C37, C43, C47 |
| C115 | `Simple`, `KdTree`, `Scene`, `li`, `render` over two lists of shapes | XR; the nearest hit over the joint list is unique, then as C109 |
| C116 | `li`, `estimate_direct`, lights, `construct`, film accumulation over three scenes | XR; finite sums have finite terms, so every contribution distributes |
| C117 | whole render of two scenes, one with more light; what is written | XR; from C116, that the film stays non-negative, C10 and C06 |
| C118 | two scenes that shine alike in some channels, radiance and whole render | XR; from C116 with factors 0 and 1 per channel, and C06 |
| C119 | functions with the debug assertions of `clamp` and of the flag test against the same without, whole path tracer for the flags | every arithmetic with FLaws |
| C120 | all six orders of the corners of a triangle: same hit, shadow, area and box; normals up to the side | exact arithmetic, finite corners |

Refuted properties keep their full English statement; MANIFEST lists the `_refuted` theorem with a concrete witness and the
`_partial` theorem that does hold.

## 5. What is modelled and what is not

Every function of `/repo/src` with behaviour of its own has a definition in `Model/`:

| source | model |
|--------|-------|
| axis.rs, vector.rs, vector_macro.rs, spectrum.rs, matrix.rs, transform.rs | Vector.v, Matrix.v, Transform.v |
| common.rs | Common.v, Num.v, NumB.v |
| bbox.rs, ray.rs, interaction.rs | BBox.v, Interaction.v |
| shape.rs, shape_sphere.rs, shape_triangle.rs | Shape.v, Sphere.v, Triangle.v |
| container.rs, container_simple.rs, container_kdtree.rs | Container.v, KdTree.v |
| film.rs, filter.rs | Film.v |
| sampler.rs, sampler_halton.rs, sampler_random.rs, sampling.rs | Sampler.v, HaltonTable.v, Sampling.v |
| camera.rs | Camera.v |
| reflection.rs, bxdf_*.rs, fresnel.rs, microfacet.rs | Reflection.v, BxDFs.v, Fresnel.v, Microfacet.v |
| texture.rs, material*.rs | Texture.v, Material.v |
| light.rs, scene.rs | Light.v, Scene.v |
| integrator.rs | Render.v (threads, tiles, sample loop), Path.v (radiance), Asserted.v (with all debug assertions) |
| examples/helloworld.rs | HelloWorld.v |

Simplifications, each also noted at its definition:

* `x.powi(2)` is `x * x`.
* The `debug_assert!`s of the flag test in reflection.rs and of `clamp` are left out of the model's main files; Asserted.v repeats the
  functions with them, and C119 shows that they never fail.
* Pointer equality of shapes and lights is a decidable equality on ids (`teq`, `l_addr`).
* A builder's lights are functions of the scene box: `pre_process` runs once, in `construct`.
* `Vec::sort_by` is any function with the documented promise (`sort_by_ok`), not the algorithm of the library.
* `f32::sin` and the other transcendental functions are arbitrary in B32 and the mathematical ones in XR.

Not modelled: memory allocation and out-of-memory (for instance `Vec::with_capacity` in film.rs:145-146), stack depth, `lib.rs` and
`api.rs` (re-exports only), `Debug` formatting, the generator inside `rand` (the random sampler is an arbitrary stream of values),
file-system errors, printing of progress, wall-clock time, NaN payloads.

## 6. Trusted base

* The Coq 8.16.1 kernel, with its virtual machine for `vm_compute` steps (`coqchk` re-checks them without it).
* The standard-library axioms that `Print Assumptions` lists, theorem by theorem, in `ASSUMPTIONS.md`: `functional_extensionality_dep`,
  `ClassicalDedekindReals.sig_forall_dec`, `ClassicalDedekindReals.sig_not_dec` (the real numbers) and `Classical_Prop.classic` (real analysis
  Flocq and Coquelicot). No axiom is added here.
* The faithfulness of the hand transcription in `Model/`, and of the specifications in `Spec/` and in the theorem statements.

## 7. Tests of the theorems

`seeded/edits*.json` are edits of the model in the style of programming errors; `tools/mutate.py` applies each to a scratch copy, rebuilds
and reports which theorems fail; `seeded/LOG.jsonl` is the record, with the theorems that were tightened because of it.
