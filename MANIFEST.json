{
 "claims": [
  {
   "property": "C01",
   "status": "proved",
   "theorems": [
    "C01_rect_iteration",
    "C01_rect_iteration_fuel"
   ],
   "note": "all i32 rectangles, both build modes"
  },
  {
   "property": "C02",
   "status": "proved",
   "theorems": [
    "C02_tiles_partition"
   ],
   "note": "all ordered rectangles for which corner+16 and size+16 fit i32"
  },
  {
   "property": "C03",
   "status": "proved",
   "theorems": [
    "C03_film_never_panics"
   ],
   "note": "binary32 (any libm) and exact arithmetic, both build modes; resolution up to 2^22, radius up to 2^20"
  },
  {
   "property": "C04",
   "status": "proved",
   "theorems": [
    "C04_splat_exact",
    "C04_film_new_ok"
   ],
   "note": "exact arithmetic"
  },
  {
   "property": "C05",
   "status": "proved",
   "theorems": [
    "C05_every_schedule",
    "C05_every_run_finishes",
    "C05_halton"
   ],
   "note": "any arithmetic, sampler and shading code that serves samples without panicking; proved to be met by the Halton sampler; threads are a transition system with lock-protected atomic steps"
  },
  {
   "property": "C06",
   "status": "proved",
   "theorems": [
    "C06_schedule_independent",
    "C06_halton",
    "C06_film_of_merge_order",
    "C06_f32_order_matters"
   ],
   "note": "equality in exact arithmetic; in any arithmetic the film is that of a sequential render in merge order; binary32 witness that the order matters"
  },
  {
   "property": "C07",
   "status": "proved",
   "theorems": [
    "C07_pixel_is_mean"
   ],
   "note": "exact arithmetic"
  },
  {
   "property": "C08",
   "status": "proved",
   "theorems": [
    "C08_ppm_round_trip",
    "C08_every_render"
   ],
   "note": "binary32, any libm, any pixel contents"
  },
  {
   "property": "C09",
   "status": "partial",
   "theorems": [
    "C09_exact_file_refuted",
    "C09_exact_file_partial"
   ],
   "note": "false in the code: the file is opened without truncate, so the tail of a longer old file stays. Proved: the file is the image followed by the old tail, and exactly the image iff the old content was not longer"
  },
  {
   "property": "C10",
   "status": "partial",
   "theorems": [
    "C10_black_refuted",
    "C10_black",
    "C10_white_and_monotone_partial",
    "C10_white_and_monotone_exact",
    "C10_gamma_curve_monotone_refuted"
   ],
   "note": "black is written as 1 (0.5 is added before rounding), in every arithmetic; white and monotone levels proved in exact arithmetic, and in binary32 under stated properties of powf"
  },
  {
   "property": "C100",
   "status": "proved",
   "theorems": [
    "C100_hit",
    "C100_sample"
   ],
   "note": "binary32; vertices and ray origins up to 2^20, up to 2^-100; a degenerate hit with a point that is not a number is excluded"
  },
  {
   "property": "C101",
   "status": "partial",
   "theorems": [
    "C101_centred",
    "C101_partial",
    "C101_refuted"
   ],
   "note": "false in the code: the error bound ignores the rounding of adding the centre (witness: unit ball at 2^20 on the x axis). Proved in binary32 for spheres around the origin, and for all centres with one more relative rounding error"
  },
  {
   "property": "C102",
   "status": "proved",
   "theorems": [
    "C102_triangle",
    "C102_ball",
    "C102_shadow",
    "C102_shadow_ball",
    "C102_reaches",
    "C102_blocked"
   ],
   "note": "exact arithmetic"
  },
  {
   "property": "C103",
   "status": "partial",
   "theorems": [
    "C103_bezout",
    "C103_inverse_partial",
    "C103_inverse_refuted"
   ],
   "note": "false in the code for the inverse: the sign of the coefficient is dropped (witness: 2 modulo 3). Proved: Bezout coefficients for all arguments, and that the result is the inverse or its opposite according to the sign"
  },
  {
   "property": "C104",
   "status": "proved",
   "theorems": [
    "C104_mean"
   ],
   "note": "exact arithmetic; directions given, lights and ends by independent even numbers"
  },
  {
   "property": "C105",
   "status": "proved",
   "theorems": [
    "C105_transport"
   ],
   "note": "exact arithmetic; independent even numbers (not the Halton points), averages over numbers rather than solid angles"
  },
  {
   "property": "C106",
   "status": "proved",
   "theorems": [
    "C106_matte",
    "C106_rendering_equation",
    "C106_edges"
   ],
   "note": "exact arithmetic; integrals are iterated Riemann integrals; light with edges only where both sides are assumed to exist"
  },
  {
   "property": "C107",
   "status": "proved",
   "theorems": [
    "C107_even",
    "C107_lamp"
   ],
   "note": "exact arithmetic; iterated Riemann integrals; the lamp is wholly in view; the integrand lacks the falloff with distance, as the code does (C62, C97)"
  },
  {
   "property": "C108",
   "status": "proved",
   "theorems": [
    "C108_pixel",
    "C108_same_samples",
    "C108_schedules",
    "C108_halton"
   ],
   "note": "binary32; samples of moderate size, fewer than 2^20 of them and of tiles reaching a pixel"
  },
  {
   "property": "C109",
   "status": "proved",
   "theorems": [
    "C109_agree",
    "C109_radiance",
    "C109_picture"
   ],
   "note": "exact arithmetic; the traced rays meet no two shapes at one distance and run in no plane of a box's face"
  },
  {
   "property": "C11",
   "status": "proved",
   "theorems": [
    "C11_film_stays_clean",
    "C11_dropped"
   ],
   "note": "binary32 (any libm) and exact arithmetic, every moment of every schedule; filter table hypothesis"
  },
  {
   "property": "C110",
   "status": "proved",
   "theorems": [
    "C110_components",
    "C110_sampled"
   ],
   "note": "exact arithmetic; glass with an index above 0; sampled directions that are finite"
  },
  {
   "property": "C111",
   "status": "proved",
   "theorems": [
    "C111_between",
    "C111_channels",
    "C111_rounding",
    "C111_refuted"
   ],
   "note": "C111_refuted: in binary32 the value may lie outside the interval, by the rounding error only"
  },
  {
   "property": "C112",
   "status": "proved",
   "theorems": [
    "C112_projection",
    "C112_upright"
   ],
   "note": "exact arithmetic; camera not at the point looked at, up not along the view"
  },
  {
   "property": "C113",
   "status": "proved",
   "theorems": [
    "C113_all_or_nothing",
    "C113_ends",
    "C113_halton",
    "C113_others_go_on",
    "C113_no_threads_refuted"
   ],
   "note": "any arithmetic, arbitrary sampler and shading code; panics of file system calls not modelled; that there is a thread is needed for the tiles, refuted without"
  },
  {
   "property": "C114",
   "status": "partial",
   "theorems": [
    "C114_reversed",
    "C114_mutual_partial",
    "C114_tree_partial",
    "C114_refuted"
   ],
   "note": "exact arithmetic; surfaces in the first or last ten-thousandth of the way and grazed triangles are excluded, refuted without"
  },
  {
   "property": "C115",
   "status": "proved",
   "theorems": [
    "C115_agree",
    "C115_radiance",
    "C115_picture",
    "C115_ties_refuted"
   ],
   "note": "exact arithmetic; rays that run in a face of a box or meet two shapes at one distance are excluded, the latter refuted without; lights that depend on the box of the scene are held fixed"
  },
  {
   "property": "C116",
   "status": "proved",
   "theorems": [
    "C116_superposition",
    "C116_tinted",
    "C116_brighter",
    "C116_lights",
    "C116_built",
    "C116_picture",
    "C116_shown"
   ],
   "note": "exact arithmetic, the same random numbers; radiances must be finite and, for the film, acceptable to it"
  },
  {
   "property": "C117",
   "status": "proved",
   "theorems": [
    "C117_no_darker",
    "C117_threads"
   ],
   "note": "exact arithmetic, the same random numbers; samples must be acceptable to the film"
  },
  {
   "property": "C118",
   "status": "proved",
   "theorems": [
    "C118_radiance",
    "C118_dark_radiance",
    "C118_picture",
    "C118_threads",
    "C118_dark_picture",
    "C118_built",
    "C118_built_dark"
   ],
   "note": "exact arithmetic, the same random numbers; radiances must be finite and, for the film, acceptable to it"
  },
  {
   "property": "C119",
   "status": "proved",
   "theorems": [
    "C119_clamps",
    "C119_flags"
   ],
   "note": "every arithmetic that keeps the laws of Proofs/FLaws.v, so both exact and single-precision numbers; materials of the library, any textures"
  },
  {
   "property": "C12",
   "status": "proved",
   "theorems": [
    "C12_gaussian_weights",
    "C12_gaussian_table",
    "C12_gaussian_exact"
   ],
   "note": "range and x/y symmetry in binary32 for a libm whose exp maps (-inf,0] into [0,1]; vanishing, decrease, sign symmetry in exact arithmetic"
  },
  {
   "property": "C120",
   "status": "proved",
   "theorems": [
    "C120_order",
    "C120_shading",
    "C120_shadow_area_box",
    "C120_mesh",
    "C120_rounding_refuted"
   ],
   "note": "exact arithmetic, meshes in any arithmetic (with rounding the sums are taken in another order; C120_rounding_refuted is a triangle for which the point differs in its last bits); finite corners and vertex normals; the texture coordinates do depend on the order, as the program gives the corners fixed coordinates"
  },
  {
   "property": "C13",
   "status": "proved",
   "theorems": [
    "C13_get_1d_in_unit",
    "C13_radical_inverse"
   ],
   "note": "binary32 (any libm) and exact arithmetic, release wrap-around included"
  },
  {
   "property": "C14",
   "status": "proved",
   "theorems": [
    "C14_digit_reversal",
    "C14_digit_reversal_exact",
    "C14_debug_panics_iff",
    "C14_digit_count_exists"
   ],
   "note": "exact value in exact arithmetic, one rounding of it in binary32"
  },
  {
   "property": "C15",
   "status": "proved",
   "theorems": [
    "C15_bases_are_primes",
    "C15_bases_coprime",
    "C15_dimension"
   ],
   "note": "the table itself is checked, not a sieve"
  },
  {
   "property": "C16",
   "status": "proved",
   "theorems": [
    "C16_history_independent",
    "C16_start_pixel_total"
   ],
   "note": "every number type, both build modes"
  },
  {
   "property": "C17",
   "status": "proved",
   "theorems": [
    "C17_samples_per_pixel",
    "C17_halton",
    "C17_random",
    "C17_random_debug_zero"
   ],
   "note": "debug builds: Halton needs (spp+1)*31104 < 2^31, random needs spp >= 1 (with 0 it panics)"
  },
  {
   "property": "C18",
   "status": "proved",
   "theorems": [
    "C18_dimensions",
    "C18_stops",
    "C18_halton",
    "C18_render",
    "C18_random",
    "C18_sphere_scenes"
   ],
   "note": "every arithmetic; C18_dimensions and C18_stops for every scene, sampler and surface; C18_halton and C18_render: release builds, and debug builds up to 84 samples per pixel (beyond, the radical inverse overflows 32 bits, see C14); C18_sphere_scenes shows real scenes that meet the hypothesis"
  },
  {
   "property": "C19",
   "status": "partial",
   "theorems": [
    "C19_disjoint_partial",
    "C19_block_refuted"
   ],
   "note": "false as stated: rows are reduced mod 128 before mod 3^k, so two rows of one block can share indices (witness on a 50x50 film). Proved for pixels of the same aligned 128x128 square less than the clipped film size apart"
  },
  {
   "property": "C20",
   "status": "partial",
   "theorems": [
    "C20_one_axis_partial",
    "C20_every_film_refuted"
   ],
   "note": "the code takes the absolute value of a negative Bezout coefficient: false for every sample area at least 2x2; one axis is always right"
  },
  {
   "property": "C21",
   "status": "proved",
   "theorems": [
    "C21_camera_sample_in_pixel"
   ],
   "note": "binary32 and exact arithmetic, any sampler returning values in [0,1), pixels below 2^24"
  },
  {
   "property": "C22",
   "status": "proved",
   "theorems": [
    "C22_matrix_inverse"
   ],
   "note": "exact arithmetic; the determinant is a separate cofactor expansion"
  },
  {
   "property": "C23",
   "status": "proved",
   "theorems": [
    "C23_carries_inverse",
    "C23_sensible_arguments"
   ],
   "note": "exact arithmetic; every expression of constructors and operations"
  },
  {
   "property": "C24",
   "status": "proved",
   "theorems": [
    "C24_inverse",
    "C24_points",
    "C24_affine",
    "C24_affine_expressions",
    "C24_projective_vectors_refuted"
   ],
   "note": "exact arithmetic; the last theorem shows that vectors need affine transforms"
  },
  {
   "property": "C25",
   "status": "proved",
   "theorems": [
    "C25_compose_points",
    "C25_compose_vectors",
    "C25_compose_normals"
   ],
   "note": "exact arithmetic"
  },
  {
   "property": "C26",
   "status": "proved",
   "theorems": [
    "C26_normals_stay_perpendicular"
   ],
   "note": "exact arithmetic"
  },
  {
   "property": "C27",
   "status": "proved",
   "theorems": [
    "C27_look_at"
   ],
   "note": "exact arithmetic"
  },
  {
   "property": "C28",
   "status": "proved",
   "theorems": [
    "C28_rotates",
    "C28_isometry",
    "C28_angles_add"
   ],
   "note": "exact arithmetic"
  },
  {
   "property": "C29",
   "status": "proved",
   "theorems": [
    "C29_camera_ray",
    "C29_corners",
    "C29_look_at_camera"
   ],
   "note": "exact arithmetic; field of view in (0,180) degrees, 0 < near < far"
  },
  {
   "property": "C30",
   "status": "partial",
   "theorems": [
    "C30_refuted",
    "C30_one_sign_rows_partial"
   ],
   "note": "false in the code: only two corners are transformed (rotation by 45 degrees loses a corner); exact arithmetic; holds for an affine transform iff each row of its matrix has entries of one sign"
  },
  {
   "property": "C31",
   "status": "proved",
   "theorems": [
    "C31_union",
    "C31_union_point",
    "C31_new",
    "C31_list",
    "C31_point_inside",
    "C31_overlaps",
    "C31_monotone"
   ],
   "note": "every arithmetic with the FLaws laws: binary32 (any libm) and exact arithmetic"
  },
  {
   "property": "C32",
   "status": "proved",
   "theorems": [
    "C32_finds",
    "C32_none_means_miss",
    "C32_interval"
   ],
   "note": "exact arithmetic; also the converse up to the relative margin of gamma(3)"
  },
  {
   "property": "C33",
   "status": "partial",
   "theorems": [
    "C33_slab_rounding_partial",
    "C33_negative_zero_refuted"
   ],
   "note": "false for direction components -0.0 with the origin on a face (witness); proved otherwise when distances are in 2^-100..2^100 or zero and the hit is a relative 2^-23 before the ray's end"
  },
  {
   "property": "C34",
   "status": "proved",
   "theorems": [
    "C34_bounding_sphere"
   ],
   "note": "exact arithmetic; also tight"
  },
  {
   "property": "C35",
   "status": "proved",
   "theorems": [
    "C35_first_hit"
   ],
   "note": "exact arithmetic; any t_max, NaN included"
  },
  {
   "property": "C36",
   "status": "partial",
   "theorems": [
    "C36_hit_geometry_partial",
    "C36_poles_refuted"
   ],
   "note": "exact arithmetic, positive radius; false at the two poles, where the tangents are zero and NaN (witness); proved everywhere else, with the tangents equal to the derivatives of the parametrisation"
  },
  {
   "property": "C37",
   "status": "proved",
   "theorems": [
    "C37_hit_is_real",
    "C37_crossing_is_hit",
    "C37_no_panic"
   ],
   "note": "exact arithmetic; the error bound is t abs(N.d) <= 2.6e-5 R^3 with R the coordinate distance of the vertices"
  },
  {
   "property": "C38",
   "status": "proved",
   "theorems": [
    "C38_triangle",
    "C38_sphere",
    "C38_shapes"
   ],
   "note": "every arithmetic, binary32 with NaN included, panics included"
  },
  {
   "property": "C39",
   "status": "proved",
   "theorems": [
    "C39_triangle",
    "C39_sphere"
   ],
   "note": "exact arithmetic"
  },
  {
   "property": "C40",
   "status": "proved",
   "theorems": [
    "C40_sample",
    "C40_area_pdf",
    "C40_uniform"
   ],
   "note": "exact arithmetic; also uniform: constant area element, and onto the triangle"
  },
  {
   "property": "C41",
   "status": "partial",
   "theorems": [
    "C41_geometric_normal",
    "C41_reversal",
    "C41_shading_normal_partial",
    "C41_shading_normal_refuted"
   ],
   "note": "exact arithmetic; false in the code: opposite vertex normals give a NaN shading normal (len >= 0. instead of len > 0.); reversal keeps the geometric normal when it is perpendicular to the shading normal"
  },
  {
   "property": "C42",
   "status": "proved",
   "theorems": [
    "C42_mesh"
   ],
   "note": "every arithmetic"
  },
  {
   "property": "C43",
   "status": "proved",
   "theorems": [
    "C43_nearest",
    "C43_sphere_ok",
    "C43_triangle_ok",
    "C43_empty"
   ],
   "note": "exact arithmetic; for every list of shapes with a single first hit per ray inside their box, which spheres and triangles are shown to be; an empty list panics"
  },
  {
   "property": "C44",
   "status": "proved",
   "theorems": [
    "C44_build"
   ],
   "note": "every arithmetic with the order laws, binary32 included, both builds, every function with the promise of sort_by"
  },
  {
   "property": "C45",
   "status": "proved",
   "theorems": [
    "C45_total",
    "C45_rounds",
    "C45_real_hits",
    "C45_shorter"
   ],
   "note": "every arithmetic, NaN included; C45_shorter (t_max no larger) for arithmetics with the order laws and shapes that respect t_max"
  },
  {
   "property": "C46",
   "status": "partial",
   "theorems": [
    "C46_nearest_partial",
    "C46_refuted"
   ],
   "note": "false in the code: a ray that runs in the plane of a split misses a triangle touching that plane (binary32 witness); exact arithmetic proof for rays not running in the plane of a box face"
  },
  {
   "property": "C47",
   "status": "partial",
   "theorems": [
    "C47_shadow_partial",
    "C47_refuted"
   ],
   "note": "false in the code, same witness as C46; exact arithmetic proof for rays not running in the plane of a box face"
  },
  {
   "property": "C48",
   "status": "proved",
   "theorems": [
    "C48",
    "C48_fails_simple",
    "C48_fails_kd"
   ],
   "note": "every arithmetic, every sequence of builder calls; boxes without NaN; C48_fails_simple needs no hypothesis"
  },
  {
   "property": "C49",
   "status": "partial",
   "theorems": [
    "C49_far_end",
    "C49_covered_partial",
    "C49_refuted"
   ],
   "note": "exact arithmetic: the far end is outside the box or the opposite corner; the shadow ray stops at 0.9999 of the way, so an occluder near the opposite corner is missed (binary32 witness)"
  },
  {
   "property": "C50",
   "status": "proved",
   "theorems": [
    "C50_isometry"
   ],
   "note": "exact arithmetic; any list of components; also shows the normal goes to the z axis and dpdu to the x axis"
  },
  {
   "property": "C51",
   "status": "proved",
   "theorems": [
    "C51_binary32",
    "C51_exact",
    "C51_no_panic"
   ],
   "note": "binary32 for every float in [0,1) and fewer than 2^24 components; C51_exact says which component in exact arithmetic"
  },
  {
   "property": "C52",
   "status": "proved",
   "theorems": [
    "C52_sampling_agrees",
    "C52_library_agrees"
   ],
   "note": "exact arithmetic, unit vectors and a proper frame; for any components whose own pdf matches their sampler, which the three non-specular components of the library are shown to do"
  },
  {
   "property": "C53",
   "status": "proved",
   "theorems": [
    "C53_lambertian"
   ],
   "note": "exact arithmetic, every sample in the closed unit square; the ratio is the albedo whenever the direction is off the horizon, which it is for every sample in the open square"
  },
  {
   "property": "C54",
   "status": "proved",
   "theorems": [
    "C54_mirror"
   ],
   "note": "exact arithmetic, any Fresnel term"
  },
  {
   "property": "C55",
   "status": "proved",
   "theorems": [
    "C55_snell",
    "C55_transmission",
    "C55_wrong_side_refuted"
   ],
   "note": "exact arithmetic; with a normal on the far side refract stays on the incoming side (witness), which specular transmission never asks for"
  },
  {
   "property": "C56",
   "status": "proved",
   "theorems": [
    "C56_range",
    "C56_total_reflection",
    "C56_normal_incidence",
    "C56_equations",
    "C56_partner"
   ],
   "note": "exact arithmetic, every cosine"
  },
  {
   "property": "C57",
   "status": "partial",
   "theorems": [
    "C57_range_partial",
    "C57_refuted",
    "C57_binary32_refuted",
    "C57_normal_incidence",
    "C57_dielectric"
   ],
   "note": "false in the code: 0/0 when the cosine is 0, eta_t = eta_i and k = 0 (exact and binary32 witnesses); proved in exact arithmetic for everything else, with the value at normal incidence and agreement with the dielectric formula for k = 0"
  },
  {
   "property": "C58",
   "status": "proved",
   "theorems": [
    "C58_distribution",
    "C58_shadowing",
    "C58_symmetric",
    "C58_formulas"
   ],
   "note": "exact arithmetic, every finite direction (unit ones for the symmetry), any Fresnel term"
  },
  {
   "property": "C59",
   "status": "partial",
   "theorems": [
    "C59_density_partial",
    "C59_all_roughness_partial",
    "C59_refuted"
   ],
   "note": "false in the code: it reports D/cos where the sampler has density D cos (for roughness 1 the reported density has mass 2 ln 2 over a cap of probability 3/4); proved: D cos is the density of the sampler, for all roughnesses along x and y"
  },
  {
   "property": "C60",
   "status": "proved",
   "theorems": [
    "C60_weights"
   ],
   "note": "exact arithmetic, any positive sample counts"
  },
  {
   "property": "C61",
   "status": "proved",
   "theorems": [
    "C61_disk",
    "C61_hemisphere"
   ],
   "note": "exact arithmetic, closed unit square"
  },
  {
   "property": "C62",
   "status": "partial",
   "theorems": [
    "C62_reported_partial",
    "C62_consistent",
    "C62_refuted"
   ],
   "note": "false in the code: the reported pdf is the constant 1/area, positive in directions that miss the light, and integrates to 4 pi / area"
  },
  {
   "property": "C63",
   "status": "partial",
   "theorems": [
    "C63_triangle_partial",
    "C63_sphere_panics",
    "C63_refuted"
   ],
   "note": "false in the code: sampling a sphere light panics (unimplemented); triangles succeed"
  },
  {
   "property": "C64",
   "status": "proved",
   "theorems": [
    "C64_binary32",
    "C64_exact"
   ],
   "note": "binary32: every coordinate, every finite offset and point, all directions; exact arithmetic: the whole error box is left behind"
  },
  {
   "property": "C65",
   "status": "proved",
   "theorems": [
    "C65_up",
    "C65_down"
   ],
   "note": "binary32, every non-NaN float"
  },
  {
   "property": "C66",
   "status": "partial",
   "theorems": [
    "C66_partial",
    "C66_triangles_partial",
    "C66_even_colours_partial",
    "C66_refuted"
   ],
   "note": "exact arithmetic: scenes where emission, BSDF values and densities are non-negative (shown for all scenes of triangles with the library's materials other than rough glass, distant and area lights, either container), and one-dimensional samples never exactly 0 or every scattering keeping all three channels (shown for triangle scenes with even colours, for all samples in [0,1)); missing: samples equal to 0 among surfaces that take one colour out; false in the code for a sample equal to 0: the roulette divides a zero throughput by q = 0 and the radiance is NaN (binary32 witness)"
  },
  {
   "property": "C67",
   "status": "partial",
   "theorems": [
    "C67_plane_partial",
    "C67_space_partial",
    "C67_one_cell",
    "C67_refuted"
   ],
   "note": "every arithmetic, both build modes, positions whose cell numbers (and, in debug builds, their sum) fit 64 bits; beyond, a debug build panics (binary32 witness)"
  },
  {
   "property": "C68",
   "status": "partial",
   "theorems": [
    "C68_lambertian_mirror",
    "C68_plastic",
    "C68_glass",
    "C68_metal_partial",
    "C68_refuted"
   ],
   "note": "every arithmetic; false for metal, which adds its component for a black texture too"
  },
  {
   "property": "C69",
   "status": "partial",
   "theorems": [
    "C69_clamp",
    "C69_quadratic_partial",
    "C69_quadratic_refuted",
    "C69_luminance"
   ],
   "note": "clamp in every arithmetic, quadratic and luminance in exact arithmetic; quadratic reports NaN as second root of a x^2 = 0"
  },
  {
   "property": "C70",
   "status": "partial",
   "theorems": [
    "C70_finishes_partial",
    "C70_spheres_partial",
    "C70_tame_partial",
    "C70_smooth_partial",
    "C70_refuted"
   ],
   "note": "false in the code: scene radius overflows to infinity, the shadow ray of a distant light gets direction (inf, NaN, inf), and the triangle test panics (binary32 witness); proved for sphere scenes under distant lights, and for scenes of moderate size with spheres, triangles and triangular lamps with surfaces of every material of the library, smooth or rough, in both builds; moderate size: see Spec/TameSpec.v and Spec/FinishSpec.v"
  },
  {
   "property": "C71",
   "status": "proved",
   "theorems": [
    "C71"
   ],
   "note": "exact arithmetic"
  },
  {
   "property": "C72",
   "status": "partial",
   "theorems": [
    "C72_triangle",
    "C72_sphere_partial",
    "C72_refuted"
   ],
   "note": "exact arithmetic; false at the poles of a sphere, where the tangent is zero; vertex normals must not interpolate to zero"
  },
  {
   "property": "C73",
   "status": "partial",
   "theorems": [
    "C73_partial",
    "C73_counted_twice",
    "C73_refuted"
   ],
   "note": "false in the code: the lamp is counted once as direct light through the specular BSDF sample and once more as emission after the specular bounce (binary32 witness: a white mirror shows a lamp of radiance 1 with radiance 2); proved: it is right exactly when the chosen light is not that lamp, and otherwise too large by the direct light"
  },
  {
   "property": "C74",
   "status": "proved",
   "theorems": [
    "C74_seen_directly"
   ],
   "note": "exact arithmetic"
  },
  {
   "property": "C75",
   "status": "proved",
   "theorems": [
    "C75_proportional"
   ],
   "note": "exact arithmetic"
  },
  {
   "property": "C76",
   "status": "proved",
   "theorems": [
    "C76_weights",
    "C76_delta",
    "C76_shadow"
   ],
   "note": "exact arithmetic"
  },
  {
   "property": "C77",
   "status": "proved",
   "theorems": [
    "C77_equal_shares"
   ],
   "note": "exact arithmetic"
  },
  {
   "property": "C78",
   "status": "proved",
   "theorems": [
    "C78_own_dimension",
    "C78_camera_sample"
   ],
   "note": "-"
  },
  {
   "property": "C79",
   "status": "partial",
   "theorems": [
    "C79_path_sum_partial",
    "C66_refuted"
   ],
   "note": "exact arithmetic; the rest is false: with one-dimensional samples equal to 0 among surfaces that take one colour out the result can be NaN (C66_refuted)"
  },
  {
   "property": "C80",
   "status": "proved",
   "theorems": [
    "C80_sides",
    "C80_matte"
   ],
   "note": "exact arithmetic"
  },
  {
   "property": "C81",
   "status": "proved",
   "theorems": [
    "C81_glass"
   ],
   "note": "exact arithmetic"
  },
  {
   "property": "C82",
   "status": "partial",
   "theorems": [
    "C82_straight_partial",
    "C82_everything",
    "C82_refuted"
   ],
   "note": "false in the code: the indices are passed in the wrong order, so from an angle of 42 degrees the coat reflects everything; right when seen straight on"
  },
  {
   "property": "C83",
   "status": "proved",
   "theorems": [
    "C83_matte",
    "C83_mirror",
    "C83_metal"
   ],
   "note": "exact arithmetic"
  },
  {
   "property": "C84",
   "status": "partial",
   "theorems": [
    "C84_sampled",
    "C84_seen",
    "C84_both_ways",
    "C84_refuted"
   ],
   "note": "exact arithmetic; proved for lamps without normals at their vertices; false with vertex normals that point against the winding, which turn the lamp round for rays but not for sampling"
  },
  {
   "property": "C85",
   "status": "proved",
   "theorems": [
    "C85_plane",
    "C85_space"
   ],
   "note": "exact arithmetic"
  },
  {
   "property": "C86",
   "status": "partial",
   "theorems": [
    "C86_same_side",
    "C86_walter",
    "C86_reciprocal",
    "C86_sampled",
    "C86_refuted",
    "C86_same_index_refuted"
   ],
   "note": "exact arithmetic; false in the code: light passes between directions that no microfacet joins, and equal indices give NaN"
  },
  {
   "property": "C87",
   "status": "proved",
   "theorems": [
    "C87_matte_density"
   ],
   "note": "exact arithmetic; change of variables: density as the inverse of the surface element of a differentiable one-to-one map"
  },
  {
   "property": "C88",
   "status": "partial",
   "theorems": [
    "C88_reflection_partial",
    "C88_refraction_partial",
    "C88_refuted"
   ],
   "note": "exact arithmetic; false in the code: the true density is the reported one times the squared cosine of the half vector (proved for reflection and for transmission between different indices)"
  },
  {
   "property": "C89",
   "status": "proved",
   "theorems": [
    "C89_finishes",
    "C89_built",
    "C89_smooth_scenes",
    "C89_matt_scenes"
   ],
   "note": "binary32; moderate size means coordinates within 2^20, triangles not degenerate, refractive indices between 2/3 and 3/2 (between 2/5 and 5/2 for smooth glass on triangles), see Spec/TameSpec.v and Spec/FinishSpec.v"
  },
  {
   "property": "C90",
   "status": "proved",
   "theorems": [
    "C90_helloworld",
    "C90_samples",
    "C90_clean"
   ],
   "note": "binary32, release builds; sin, cos in [-1,1], tan roughly right near 0.27, exp of non-positive numbers in [0,1] assumed of the library; the old output file must not be longer than the new one"
  },
  {
   "property": "C91",
   "status": "proved",
   "theorems": [
    "C91_in_order",
    "C91_release_answers",
    "C91_debug_answers",
    "C91_obedient"
   ],
   "note": "all number types; the generator is an arbitrary state machine"
  },
  {
   "property": "C92",
   "status": "partial",
   "theorems": [
    "C92_each_thread_partial",
    "C92_refuted"
   ],
   "note": "within one thread the tiles use consecutive numbers; across threads the claim is false in the code: every thread clones the same generator, so the first tiles of two threads share their numbers (binary32 witness film, any generator)"
  },
  {
   "property": "C93",
   "status": "partial",
   "theorems": [
    "C93_bounded_partial",
    "C93_plain_scenes_partial",
    "C66_refuted"
   ],
   "note": "exact arithmetic; false for samples equal to 0 among surfaces that take one colour out (C66_refuted); shown from the scene only for matt and mirror triangles"
  },
  {
   "property": "C94",
   "status": "partial",
   "theorems": [
    "C94_even_spread_partial",
    "C94_refuted"
   ],
   "note": "exact arithmetic, release builds; missing: dimensions and sample numbers whose digits exceed 32 bits, where the claim is false in the code: the power of the base wraps around and samples 86 to 228 of a pixel coincide in dimension 257"
  },
  {
   "property": "C95",
   "status": "proved",
   "theorems": [
    "C95_greedy",
    "C95_leaf_shapes"
   ],
   "note": "exact arithmetic"
  },
  {
   "property": "C96",
   "status": "proved",
   "theorems": [
    "C96_lambert",
    "C96_ball"
   ],
   "note": "exact arithmetic; simple container; the error bound of the hit must be smaller than the scene"
  },
  {
   "property": "C97",
   "status": "partial",
   "theorems": [
    "C97_units_partial",
    "C97_containers_partial",
    "C97_picture_partial",
    "C97_lamp_refuted",
    "C97_place_refuted"
   ],
   "note": "proved in exact arithmetic for distant lights: any unit and, for balls, any origin; with the simple container for all rays, with k-d trees and for whole pictures as long as the paths touch clear rays (see C109); false in the code for lamps (their density is one over the area at every distance) and for triangles in binary32 far from the origin (shadow rays start at a distance proportional to the coordinates)"
  },
  {
   "property": "C98",
   "status": "partial",
   "theorems": [
    "C98_moved_partial",
    "C98_error_partial",
    "C98_error_refuted"
   ],
   "note": "exact arithmetic; false in the code for the error bounds: they are moved like a direction and turn negative under rotations (witness: half a turn about z); proved for matrices without negative entries"
  },
  {
   "property": "C99",
   "status": "proved",
   "theorems": [
    "C99_tangents",
    "C99_sphere_area"
   ],
   "note": "exact arithmetic"
  }
 ]
}
