# What `Print Assumptions` lists

Written by `tools/assumptions.py`. All are axioms of the standard library.

## Closed under the global context

C01_rect_iteration, C01_rect_iteration_fuel, C02_tiles_partition, C09_exact_file_partial, C14_debug_panics_iff, C14_digit_count_exists, C15_bases_are_primes, C15_bases_coprime, C15_dimension, C16_history_independent, C16_start_pixel_total, C17_random_debug_zero, C19_disjoint_partial, C24_inverse, C31_point_inside, C38_triangle, C38_sphere, C38_shapes, C42_mesh, C43_empty, C45_total, C45_rounds, C45_real_hits, C18_dimensions, C18_stops, C48_fails_simple, C62_consistent, C63_triangle_partial, C63_sphere_panics, C68_refuted, C78_own_dimension, C78_camera_sample, C91_in_order, C91_release_answers, C91_debug_answers, C91_obedient, C92_each_thread_partial, C103_bezout, C103_inverse_partial, C103_inverse_refuted, C120_mesh

## `ClassicalDedekindReals.sig_forall_dec`, `FunctionalExtensionality.functional_extensionality_dep`

C20_one_axis_partial, C20_every_film_refuted, C29_corners

## `ClassicalDedekindReals.sig_forall_dec`, `ClassicalDedekindReals.sig_not_dec`, `FunctionalExtensionality.functional_extensionality_dep`

C05_every_schedule, C05_every_run_finishes, C05_halton, C06_film_of_merge_order, C10_black, C10_white_and_monotone_partial, C11_film_stays_clean, C11_dropped, C12_gaussian_weights, C12_gaussian_table, C13_get_1d_in_unit, C13_radical_inverse, C14_digit_reversal, C17_samples_per_pixel, C17_halton, C17_random, C21_camera_sample_in_pixel, C31_union, C31_union_point, C31_new, C31_list, C31_overlaps, C31_monotone, C44_build, C45_shorter, C18_halton, C18_render, C18_random, C48, C48_fails_kd, C67_plane_partial, C67_space_partial, C67_one_cell, C68_lambertian_mirror, C68_plastic, C68_glass, C68_metal_partial, C69_clamp, C108_same_samples, C112_upright, C113_all_or_nothing, C113_ends, C113_halton, C113_others_go_on, C119_clamps, C119_flags

## `ClassicalDedekindReals.sig_forall_dec`, `ClassicalDedekindReals.sig_not_dec`, `Classical_Prop.classic`, `FunctionalExtensionality.functional_extensionality_dep`

C03_film_never_panics, C04_splat_exact, C04_film_new_ok, C06_schedule_independent, C06_halton, C06_f32_order_matters, C07_pixel_is_mean, C08_ppm_round_trip, C08_every_render, C09_exact_file_refuted, C10_black_refuted, C10_white_and_monotone_exact, C10_gamma_curve_monotone_refuted, C12_gaussian_exact, C14_digit_reversal_exact, C19_block_refuted, C22_matrix_inverse, C23_carries_inverse, C23_sensible_arguments, C24_points, C24_affine, C24_affine_expressions, C24_projective_vectors_refuted, C25_compose_points, C25_compose_vectors, C25_compose_normals, C26_normals_stay_perpendicular, C27_look_at, C28_rotates, C28_isometry, C28_angles_add, C29_camera_ray, C29_look_at_camera, C30_refuted, C30_one_sign_rows_partial, C32_finds, C32_none_means_miss, C32_interval, C33_slab_rounding_partial, C33_negative_zero_refuted, C34_bounding_sphere, C35_first_hit, C36_hit_geometry_partial, C36_poles_refuted, C37_hit_is_real, C37_crossing_is_hit, C37_no_panic, C39_triangle, C39_sphere, C40_sample, C40_area_pdf, C40_uniform, C41_geometric_normal, C41_reversal, C41_shading_normal_partial, C41_shading_normal_refuted, C43_nearest, C43_sphere_ok, C43_triangle_ok, C46_nearest_partial, C46_refuted, C47_shadow_partial, C47_refuted, C50_isometry, C51_binary32, C51_exact, C51_no_panic, C52_sampling_agrees, C52_library_agrees, C53_lambertian, C54_mirror, C55_snell, C55_transmission, C55_wrong_side_refuted, C56_range, C56_total_reflection, C56_normal_incidence, C56_equations, C56_partner, C57_range_partial, C57_refuted, C57_binary32_refuted, C57_normal_incidence, C57_dielectric, C60_weights, C61_disk, C61_hemisphere, C58_distribution, C58_shadowing, C58_symmetric, C58_formulas, C59_density_partial, C59_all_roughness_partial, C59_refuted, C64_binary32, C64_exact, C65_up, C65_down, C18_sphere_scenes, C70_finishes_partial, C70_spheres_partial, C70_tame_partial, C70_smooth_partial, C70_refuted, C49_far_end, C49_covered_partial, C49_refuted, C62_reported_partial, C62_refuted, C63_refuted, C67_refuted, C69_quadratic_partial, C69_quadratic_refuted, C69_luminance, C66_partial, C66_triangles_partial, C66_even_colours_partial, C66_refuted, C71, C72_triangle, C72_sphere_partial, C72_refuted, C73_partial, C73_counted_twice, C73_refuted, C74_seen_directly, C75_proportional, C76_weights, C76_delta, C76_shadow, C77_equal_shares, C79_path_sum_partial, C66_refuted, C80_sides, C80_matte, C81_glass, C82_straight_partial, C82_everything, C82_refuted, C83_matte, C83_mirror, C83_metal, C84_sampled, C84_seen, C84_both_ways, C84_refuted, C85_plane, C85_space, C86_same_side, C86_walter, C86_reciprocal, C86_sampled, C86_refuted, C86_same_index_refuted, C87_matte_density, C88_reflection_partial, C88_refraction_partial, C88_refuted, C89_finishes, C89_built, C89_smooth_scenes, C89_matt_scenes, C90_helloworld, C90_samples, C90_clean, C92_refuted, C93_bounded_partial, C93_plain_scenes_partial, C66_refuted, C94_even_spread_partial, C94_refuted, C95_greedy, C95_leaf_shapes, C96_lambert, C96_ball, C97_units_partial, C97_containers_partial, C97_picture_partial, C97_lamp_refuted, C97_place_refuted, C98_moved_partial, C98_error_partial, C98_error_refuted, C99_tangents, C99_sphere_area, C100_hit, C100_sample, C101_centred, C101_partial, C101_refuted, C102_triangle, C102_ball, C102_shadow, C102_shadow_ball, C102_reaches, C102_blocked, C104_mean, C105_transport, C106_matte, C106_rendering_equation, C106_edges, C107_even, C107_lamp, C108_pixel, C108_schedules, C108_halton, C109_agree, C109_radiance, C109_picture, C110_components, C110_sampled, C111_between, C111_channels, C111_rounding, C111_refuted, C112_projection, C113_no_threads_refuted, C114_reversed, C114_mutual_partial, C114_tree_partial, C114_refuted, C115_agree, C115_radiance, C115_picture, C115_ties_refuted, C116_superposition, C116_tinted, C116_brighter, C116_lights, C116_built, C116_picture, C116_shown, C117_no_darker, C117_threads, C118_radiance, C118_dark_radiance, C118_picture, C118_threads, C118_dark_picture, C118_built, C118_built_dark, C120_order, C120_shading, C120_shadow_area_box, C120_rounding_refuted
