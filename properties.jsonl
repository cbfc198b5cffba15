{"id": "C01", "title": "Rectangle iteration visits every pixel once", "statement": "Iterating over an integer rectangle yields exactly the integer points with min <= p < max in both coordinates, each exactly once, in row-major order, and then ends; for empty or inverted rectangles it yields nothing. No i32 operation of the iterator overflows.", "quantifier": "every rectangle with i32 corners", "why_tests_cant": "there are 2^128 rectangles; the unit test tries four", "anchors": ["src/bbox.rs: BBox2i::iter, BBox2iIter::next"]}
{"id": "C02", "title": "Tiles partition the sample area", "statement": "The tiles a film hands out for rendering are non-empty, at most 16x16, lie inside the sample area, and every pixel of the sample area lies in exactly one tile.", "quantifier": "every sample area whose size fits i32 arithmetic", "why_tests_cant": "the partition must hold for every size modulo 16 and every offset", "anchors": ["src/film.rs: FilmTileIter::new, FilmTileIter::next, Film::iter"]}
{"id": "C03", "title": "Film indexing never goes out of bounds", "statement": "For every film, filter radius, tile handed out and sample position in that tile, splatting the sample and merging the tile reads and writes only existing pixels and filter-table entries: there is no index panic, in IEEE binary32 arithmetic with all its rounding.", "quantifier": "every resolution and radius (up to a stated size), every tile, every f32 sample position", "why_tests_cant": "off-by-one errors in rounding only show for particular float values", "anchors": ["src/film.rs: Film::sample_bbox, Film::get_film_tile, FilmTile::add_sample, FilmTile::pixel_offset, Film::merge_film_tile, Film::pixel_offset"]}
{"id": "C04", "title": "A sample reaches exactly the pixels under the filter", "statement": "Splatting a sample into its tile and merging the tile adds weight*radiance and weight to exactly those film pixels whose centre is within the filter radius of the sample in both axes, with the table weight for that offset; clipping to the tile never loses a contribution, and no other pixel changes.", "quantifier": "every film, radius, tile, sample position and radiance (exact arithmetic)", "why_tests_cant": "needs all positions of a sample relative to all tile borders", "anchors": ["src/film.rs: Film::get_film_tile, FilmTile::add_sample, Film::merge_film_tile, Pixel::add_sample, Pixel::merge"]}
{"id": "C05", "title": "Every tile is rendered and merged exactly once under every schedule", "statement": "Whatever the number of threads (at least one) and however they interleave, when all threads have finished each tile has been taken by exactly one thread and merged into the film exactly once, and every run finishes: no schedule can be extended forever and none gets stuck before all threads are done.", "quantifier": "every thread count and every interleaving of lock acquisitions", "why_tests_cant": "tests run one schedule out of exponentially many", "anchors": ["src/integrator.rs: Integrator::render", "src/film.rs: FilmTileIter::next, Film::merge_film_tile"]}
{"id": "C06", "title": "The rendered film does not depend on threads or schedule", "statement": "With a sampler whose sample stream for a pixel depends only on the pixel (the Halton sampler), the final film equals the film of a sequential single-threaded render, for every thread count and schedule, in exact arithmetic. In f32 the merge order can change the last bits.", "quantifier": "every thread count, every schedule, every scene", "why_tests_cant": "interleavings are not controllable from a test", "anchors": ["src/integrator.rs: Integrator::render, IntegratorLocal::render", "src/film.rs: Pixel::merge"]}
{"id": "C07", "title": "A pixel is a weighted average of its samples", "statement": "The colour of a finished pixel (accumulated colour over accumulated weight) lies between the smallest and largest radiance of the samples that reached it, for any history of add/merge operations with non-negative weights of positive sum.", "quantifier": "every history of add_sample and merge operations (exact arithmetic)", "why_tests_cant": "quantifies over all histories", "anchors": ["src/film.rs: Pixel::add_sample, Pixel::merge, Film::write_image_ppm"]}
{"id": "C08", "title": "The written image is well-formed plain PPM", "statement": "Whatever the film contains (also NaN, infinities, never-sampled pixels), the bytes written are a P3 file: header P3, width, height, 255, and then exactly width*height triples in row-major order, each channel an integer in 0..255; a PPM parser reads back exactly the width, height and channel values.", "quantifier": "every film content, in IEEE binary32", "why_tests_cant": "film contents are unbounded, including NaN and infinities", "anchors": ["src/film.rs: Film::write_image_ppm, gamma_correct", "src/common.rs: clamp"]}
{"id": "C09", "title": "After a render the output file holds exactly the image", "statement": "After render() returns, output.ppm contains the image and nothing else, whatever the file contained before.", "quantifier": "every previous content of output.ppm", "why_tests_cant": "depends on leftover state of earlier runs", "anchors": ["src/integrator.rs: Integrator::render (OpenOptions without truncate)"]}
{"id": "C10", "title": "Tone mapping of extreme values", "statement": "Black (radiance 0) is written as 0, white (radiance 1 or more) as 255, and a brighter channel never gets a smaller number.", "quantifier": "every channel value", "why_tests_cant": "monotonicity is a statement about all pairs", "anchors": ["src/film.rs: gamma_correct, Film::write_image_ppm"]}
{"id": "C11", "title": "Invalid radiance never reaches the film", "statement": "The film's accumulated colours and weights are never NaN and never negative, whatever radiances the path tracer produces: a sample with a NaN, infinite or negative channel is dropped.", "quantifier": "every sequence of computed radiances, in IEEE binary32, for a filter table with finite non-negative weights", "why_tests_cant": "NaN can come from any numerical corner case", "anchors": ["src/integrator.rs: IntegratorLocal::render", "src/film.rs: FilmTile::add_sample, Pixel::merge"]}
{"id": "C12", "title": "Filter weights are non-negative and symmetric", "statement": "The Gaussian reconstruction filter never returns a negative or NaN weight for finite parameters, vanishes at its radius, decreases with distance and is symmetric in x and y.", "quantifier": "every radius, alpha >= 0 and offset", "why_tests_cant": "real-valued inputs", "anchors": ["src/filter.rs: GaussianFilter"]}
{"id": "C13", "title": "Halton samples lie in [0,1)", "statement": "Every number the Halton sampler returns is a finite f32 in [0, 1), for every dimension below 1024 and every 32-bit index, in release builds including integer wrap-around.", "quantifier": "every 32-bit index and every base", "why_tests_cant": "2^32 indices times 1024 bases", "anchors": ["src/sampler_halton.rs: radical_inverse, radical_inverse_prime, HaltonSampler::get_1d, get_2d"]}
{"id": "C14", "title": "Halton values are the radical inverse", "statement": "The returned value is the base-b digit reversal of the index read as a fraction, rounded to f32 and capped below 1, as long as the smallest power of b above the index fits in 32 bits; a debug build panics exactly when it does not fit.", "quantifier": "every index and base >= 2", "why_tests_cant": "the overflow boundary is different for each of 1024 bases", "anchors": ["src/sampler_halton.rs: radical_inverse"]}
{"id": "C15", "title": "Halton bases are the first 1024 primes", "statement": "Dimension d uses the d-th prime, so different dimensions use coprime bases; dimension 1024 and above panics.", "quantifier": "all dimensions", "why_tests_cant": "a single typo in 1024 literals would go unnoticed", "anchors": ["src/sampler_halton.rs: radical_inverse_prime"]}
{"id": "C16", "title": "A pixel's Halton samples do not depend on history", "statement": "The sample stream of a pixel after start_pixel is the same for a fresh sampler, for a sampler that rendered any other pixels before, and for any clone: it is a function of the pixel and the sample number only.", "quantifier": "every history of sampler calls", "why_tests_cant": "quantifies over call histories", "anchors": ["src/sampler_halton.rs: HaltonSampler::start_pixel, start_next_sample, get_index_for_sample"]}
{"id": "C17", "title": "Every pixel gets the requested number of samples", "statement": "Rendering a tile takes exactly max(1, samples_per_pixel) camera samples in each pixel of the tile, in order, with both samplers.", "quantifier": "every tile and samples_per_pixel", "why_tests_cant": "loop bound off-by-one for all values", "anchors": ["src/integrator.rs: IntegratorLocal::render", "src/sampler_halton.rs: start_next_sample", "src/sampler_random.rs: start_next_sample"]}
{"id": "C18", "title": "A path never runs out of sample dimensions", "statement": "Tracing one camera path draws at most 517 sample dimensions after the two of the camera sample (519 in all, fewer than 1024) and ends after at most 66 rounds, each testing the path's own ray once, so rendering with the Halton sampler never panics for lack of dimensions.", "quantifier": "every scene, material and random stream", "why_tests_cant": "path lengths depend on the scene and on chance", "anchors": ["src/integrator.rs: IntegratorLocal::li, estimate_direct, uniform_sample_one_light, MAX_BOUNCES", "src/sampler_halton.rs: radical_inverse_prime"]}
{"id": "C19", "title": "Pixels draw from disjoint parts of the Halton sequence", "statement": "Within a block of base_scale pixels, two different pixels never use the same global Halton index.", "quantifier": "every film size, every pair of pixels and sample numbers", "why_tests_cant": "pairs of pixels times sample numbers", "anchors": ["src/sampler_halton.rs: HaltonSampler::new, get_index_for_sample, inverse_radical_inverse"]}
{"id": "C20", "title": "A pixel's Halton points fall in the pixel", "statement": "The global Halton point chosen for a pixel, scaled to the block, lies in that pixel (the point of the CRT-based index computation).", "quantifier": "every film size and pixel", "why_tests_cant": "needs the modular inverse to be right for every film size", "anchors": ["src/sampler_halton.rs: multiplicative_inverse, extended_gcd, get_index_for_sample"]}
{"id": "C21", "title": "Camera samples stay in their pixel", "statement": "The film position generated for a pixel lies in the closed unit square of that pixel, in binary32.", "quantifier": "every pixel coordinate up to 2^23 and every sample in [0,1)", "why_tests_cant": "rounding of pixel + sample", "anchors": ["src/sampler.rs: Sampler::get_camera_sample"]}
{"id": "C22", "title": "Matrix inverse", "statement": "For every 4x4 matrix with non-zero determinant, inverse() returns the two-sided inverse; the number it divides by is the determinant.", "quantifier": "all matrices (exact arithmetic)", "why_tests_cant": "16 real parameters", "anchors": ["src/matrix.rs: Matrix::inverse, Mul, Div, transpose"]}
{"id": "C23", "title": "Transforms always carry their true inverse", "statement": "Every transform that can be built from translate, scale (non-zero), rotate_x/y/z, perspective, look_at, from(matrix), inverse and products satisfies m * m_inv = m_inv * m = identity.", "quantifier": "every finite expression of transform constructors and operations (exact arithmetic)", "why_tests_cant": "unbounded expression trees", "anchors": ["src/transform.rs: Transform"]}
{"id": "C24", "title": "apply and inverse_apply undo each other", "statement": "For every such transform, inverse_apply(apply(x)) = x for points whenever the homogeneous coordinate does not vanish; for affine transforms (everything but perspective and general matrices) also for vectors, normals and rays. For a projective transform a vector is not recovered.", "quantifier": "every transform and every point, vector, normal, ray", "why_tests_cant": "real-valued inputs", "anchors": ["src/transform.rs: Transform::apply, inverse_apply, Transformable impls"]}
{"id": "C25", "title": "Products of transforms compose", "statement": "(s * t).apply(x) = s.apply(t.apply(x)) for points (projective ones included), and for vectors and normals of affine transforms.", "quantifier": "all transforms and inputs", "why_tests_cant": "real-valued inputs", "anchors": ["src/transform.rs: Mul, Transformable"]}
{"id": "C26", "title": "Normals stay perpendicular", "statement": "The dot product of a normal and a vector is unchanged when both are transformed, so a normal stays perpendicular to the surface.", "quantifier": "every invertible affine transform", "why_tests_cant": "real-valued inputs", "anchors": ["src/transform.rs: impl Transformable for Normal3f, Vector3f"]}
{"id": "C27", "title": "look_at is the rigid camera placement", "statement": "look_at(pos, look, up) maps the origin to pos, the z axis to the unit view direction, keeps lengths and angles, is orientation as documented, whenever pos <> look and up is not parallel to the view direction.", "quantifier": "all camera placements", "why_tests_cant": "real-valued inputs", "anchors": ["src/transform.rs: Transform::look_at"]}
{"id": "C28", "title": "Rotations are rotations", "statement": "rotate_x/y/z preserve lengths and their axis, and rotating by a then b equals rotating by a+b.", "quantifier": "all angles", "why_tests_cant": "real-valued inputs", "anchors": ["src/transform.rs: rotate_x, rotate_y, rotate_z, compute_sin_cos_in_degree"]}
{"id": "C29", "title": "Camera rays start at the camera and go through the film point", "statement": "generate_ray returns a ray with infinite extent whose origin is the camera position and whose unit direction goes through the screen-window point that corresponds to the film position: film corners map to window corners.", "quantifier": "every camera, screen window, resolution, film position", "why_tests_cant": "real-valued inputs", "anchors": ["src/camera.rs: PerspectiveCamera::new, generate_ray", "src/transform.rs: perspective"]}
{"id": "C30", "title": "Transforming a bounding box bounds the transformed contents", "statement": "If a point lies in a box then the transformed point lies in the transformed box.", "quantifier": "all transforms, boxes, points", "why_tests_cant": "the failure needs a rotation", "anchors": ["src/transform.rs: impl Transformable for BBox3f"]}
{"id": "C31", "title": "Box union is the least enclosing box", "statement": "union and union_point contain their arguments and are contained in every box containing both; the box of a list of shapes contains every shape's box; BBox::new orders its corners. Holds in binary32 for non-NaN corners.", "quantifier": "all boxes and lists of shapes", "why_tests_cant": "unbounded lists", "anchors": ["src/bbox.rs: BBox3f::new, union, union_point, bbox_of_shapes, point_inside, overlaps"]}
{"id": "C32", "title": "The slab test finds every box a ray meets", "statement": "If some point of the ray with parameter between 0 and t_max lies in the box then intersect returns an interval containing that parameter, and if it returns none then there is no such point.", "quantifier": "all rays (zero direction components included) and boxes (exact arithmetic)", "why_tests_cant": "corner cases with zero components, NaN and rounding", "anchors": ["src/bbox.rs: BBox3f::intersect"]}
{"id": "C33", "title": "The slab test survives rounding", "statement": "In binary32 arithmetic the slab test never misses a box that the exact ray meets, barring overflow and underflow.", "quantifier": "all binary32 rays and boxes in range", "why_tests_cant": "the error bound must cover all rounding patterns", "anchors": ["src/bbox.rs: BBox3f::intersect", "src/common.rs: gamma"]}
{"id": "C34", "title": "Bounding sphere contains the box", "statement": "The sphere returned for a box contains every point of the box.", "quantifier": "all boxes and points (exact arithmetic)", "why_tests_cant": "real-valued inputs", "anchors": ["src/bbox.rs: BBox3f::bounding_sphere"]}
{"id": "C35", "title": "Sphere intersection is the first hit", "statement": "intersect reports the smallest parameter t with 0 < t < t_max at which the ray is on the sphere, and none exactly when there is no such t.", "quantifier": "all spheres and rays with non-zero direction (exact arithmetic)", "why_tests_cant": "real-valued inputs", "anchors": ["src/shape_sphere.rs: has_intersection, intersect", "src/common.rs: quadratic"]}
{"id": "C36", "title": "Sphere hit geometry", "statement": "At a sphere hit the reported point is on the sphere and on the ray, the normal is the unit outward normal, both tangents are perpendicular to the normal and to each other, and uv is in range.", "quantifier": "all spheres of positive radius and hits (exact arithmetic)", "why_tests_cant": "the poles are a measure-zero corner case", "anchors": ["src/shape_sphere.rs: compute_interaction, compute_partial_derivative"]}
{"id": "C37", "title": "Triangle intersection is correct", "statement": "A reported hit is a point of the triangle (barycentric coordinates non-negative, summing to 1) lying on the ray at the reported t, with 0 < t <= t_max; conversely if the ray crosses the triangle transversally at t in (error bound, t_max] the hit is reported.", "quantifier": "all triangles and rays with non-zero direction (exact arithmetic)", "why_tests_cant": "real-valued inputs, all dominant axes and orientations", "anchors": ["src/shape_triangle.rs: Triangle::intersect", "src/vector.rs: max_abs_axis, permute"]}
{"id": "C38", "title": "Shadow test and hit test agree", "statement": "For spheres and triangles intersect_p(ray) is true exactly when intersect(ray) returns a hit, bit for bit in binary32.", "quantifier": "all shapes and rays, NaN included", "why_tests_cant": "two 60-line copies of one algorithm must agree on every input", "anchors": ["src/shape_sphere.rs", "src/shape_triangle.rs: intersect_p, intersect"]}
{"id": "C39", "title": "Bounding boxes contain the hits", "statement": "Every point at which a ray is reported to hit a sphere or triangle lies in that shape's bounding box.", "quantifier": "all shapes and rays (exact arithmetic)", "why_tests_cant": "real-valued inputs", "anchors": ["src/shape_sphere.rs: bbox", "src/shape_triangle.rs: bbox"]}
{"id": "C40", "title": "Triangle sampling", "statement": "sample(u) returns a point of the triangle for every u in [0,1]^2, with the triangle's unit normal, and the pdf is the reciprocal of the true area.", "quantifier": "all triangles and samples (exact arithmetic)", "why_tests_cant": "real-valued inputs", "anchors": ["src/shape_triangle.rs: sample, area", "src/shape.rs: Shape::pdf"]}
{"id": "C41", "title": "Triangle normals", "statement": "The reported geometric normal is a unit vector perpendicular to the triangle, on the same side as the shading normal; reversing the orientation flips both; the shading normal is finite whenever the vertex normals are.", "quantifier": "all non-degenerate triangles, vertex normals, hits (exact arithmetic)", "why_tests_cant": "interpolated normals can cancel", "anchors": ["src/shape_triangle.rs: intersect"]}
{"id": "C42", "title": "Triangle meshes", "statement": "new_triangle_mesh returns one triangle per index triple in order with exactly the addressed vertices and normals, and panics exactly when an index is out of range.", "quantifier": "all meshes", "why_tests_cant": "unbounded lists", "anchors": ["src/shape_triangle.rs: new_triangle_mesh"]}
{"id": "C43", "title": "The simple container returns the nearest hit", "statement": "intersect returns a hit of a shape of the container with the smallest parameter among all shapes' hits, tagged with that shape, and none exactly when no shape is hit; intersect_p is true exactly when some shape is hit.", "quantifier": "all lists of shapes and rays", "why_tests_cant": "unbounded lists", "anchors": ["src/container_simple.rs", "src/shape.rs: intersect"]}
{"id": "C44", "title": "Building the k-d tree loses no shape", "statement": "KdTree::new terminates without panic for every non-empty list of shapes with ordered boxes and every depth; every shape is in some leaf, leaves hold only given shapes, child indices are in range, and the depth limit is respected.", "quantifier": "all lists of shapes, all depth limits", "why_tests_cant": "unbounded recursion", "anchors": ["src/container_kdtree.rs: KdTree::new, build, Node::new_leaf"]}
{"id": "C45", "title": "k-d tree queries terminate and only report real hits", "statement": "For any arithmetic (binary32 with NaN included) a query on a built tree terminates, never indexes out of range, and a reported hit is a hit reported by one of the shapes of the tree for that ray with a t_max no larger than the query's; intersect_p true implies some shape is hit.", "quantifier": "all trees and rays, NaN included", "why_tests_cant": "unbounded trees, NaN comparisons", "anchors": ["src/container_kdtree.rs: intersect, intersect_p"]}
{"id": "C46", "title": "The k-d tree returns the nearest hit", "statement": "intersect on a k-d tree returns a hit with the smallest parameter over all shapes, exactly as the simple container does.", "quantifier": "all lists of shapes with correct boxes, all rays (exact arithmetic)", "why_tests_cant": "unbounded trees, all rays", "anchors": ["src/container_kdtree.rs: build, intersect"]}
{"id": "C47", "title": "k-d tree shadow queries agree with brute force", "statement": "intersect_p on a k-d tree is true exactly when some shape is hit.", "quantifier": "all lists of shapes with correct boxes, all rays (exact arithmetic)", "why_tests_cant": "unbounded trees, all rays", "anchors": ["src/container_kdtree.rs: build, intersect_p"]}
{"id": "C48", "title": "Scene construction keeps everything", "statement": "construct puts every added light and area light (in order) into the scene's lights and every shape and area light into the container, and tells every light a box that encloses all shapes; it fails only when there is no shape at all.", "quantifier": "every sequence of builder calls", "why_tests_cant": "call histories", "anchors": ["src/scene.rs: Builder"]}
{"id": "C49", "title": "Shadow rays of distant lights cross the whole scene", "statement": "The far end of the shadow ray of a distant light is outside the scene's box, so every occluder in the scene towards the light is tested.", "quantifier": "all scenes, all surface points", "why_tests_cant": "real-valued inputs", "anchors": ["src/light.rs: DistantLight::pre_process, sample_li", "src/interaction.rs: spawn_ray_to"]}
{"id": "C50", "title": "Shading coordinates are an isometry", "statement": "For an interaction with unit shading normal perpendicular to dpdu <> 0, world-to-local and local-to-world are mutually inverse and preserve dot products.", "quantifier": "all such frames and vectors", "why_tests_cant": "real-valued inputs", "anchors": ["src/reflection.rs: BSDF::new, world_to_local, local_to_world"]}
{"id": "C51", "title": "BSDF component selection is in range", "statement": "Sampling a BSDF with any sample in [0,1) picks an existing component and remaps the sample into [0,1), in binary32, for any number of components.", "quantifier": "every f32 in [0,1), every component count below 2^24", "why_tests_cant": "rounding of sample * n", "anchors": ["src/reflection.rs: BSDF::sample_f"]}
{"id": "C52", "title": "BSDF sampling agrees with evaluation", "statement": "When sample_f picks a non-specular component of a multi-component BSDF, the returned value and pdf equal f and pdf evaluated for the returned direction.", "quantifier": "all BSDFs, directions and samples", "why_tests_cant": "any list of components", "anchors": ["src/reflection.rs: BSDF::sample_f, f, pdf"]}
{"id": "C53", "title": "Lambertian reflection", "statement": "A sampled direction is a unit vector in the hemisphere of the outgoing direction, and value * cosine / pdf equals the albedo exactly.", "quantifier": "all directions, samples, albedos", "why_tests_cant": "real-valued inputs", "anchors": ["src/bxdf_lambertian_reflection.rs", "src/sampling.rs"]}
{"id": "C54", "title": "Mirror reflection", "statement": "A perfect mirror returns the mirrored direction (same length, same elevation, opposite azimuth) and value * cosine / pdf equals reflectance * Fresnel factor, never more than the reflectance.", "quantifier": "all directions and reflectances", "why_tests_cant": "real-valued inputs", "anchors": ["src/bxdf_specular_reflection.rs", "src/reflection.rs: reflect"]}
{"id": "C55", "title": "Refraction obeys Snell's law", "statement": "refract of a unit vector about a unit normal returns a unit vector below the normal - on the other side when the normal is on the side of the incoming direction, as it is for specular transmission - in the plane of incidence, with sine scaled by eta, and none exactly on total internal reflection.", "quantifier": "all unit vectors and eta", "why_tests_cant": "real-valued inputs", "anchors": ["src/reflection.rs: refract", "src/bxdf_specular_transmission.rs"]}
{"id": "C56", "title": "Dielectric Fresnel reflectance", "statement": "The reflectance lies in [0,1], is 1 under total internal reflection, equals ((a-b)/(a+b))^2 at normal incidence, and is the same for a ray and its refracted partner.", "quantifier": "all angles and indices of refraction > 0", "why_tests_cant": "real-valued inputs", "anchors": ["src/fresnel.rs: fr_dielectric"]}
{"id": "C57", "title": "Conductor Fresnel reflectance", "statement": "The reflectance of a metal lies in [0,1].", "quantifier": "all angles, eta > 0 and k >= 0", "why_tests_cant": "real-valued inputs", "anchors": ["src/fresnel.rs: fr_conductor"]}
{"id": "C58", "title": "Microfacet terms", "statement": "The distribution of normals is GGX and the shadowing is Smith's; the distribution is non-negative, the shadowing terms lie in [0,1] with g <= g1, and the microfacet reflection is symmetric in its two directions.", "quantifier": "all roughnesses > 0 and directions", "why_tests_cant": "real-valued inputs", "anchors": ["src/microfacet.rs", "src/bxdf_microfacet_reflection.rs: f"]}
{"id": "C59", "title": "Microfacet pdf is the density of the sampler", "statement": "The pdf reported for a sampled half vector is the density of the distribution the half vector is drawn from.", "quantifier": "all roughnesses and samples", "why_tests_cant": "a density cannot be tested pointwise", "anchors": ["src/microfacet.rs: sample_wh, pdf"]}
{"id": "C60", "title": "Multiple importance sampling weights", "statement": "The two power-heuristic weights lie in [0,1] and add up to 1 when at least one pdf is positive.", "quantifier": "all non-negative pdfs", "why_tests_cant": "real-valued inputs", "anchors": ["src/sampling.rs: power_heuristic"]}
{"id": "C61", "title": "Disk and hemisphere mappings", "statement": "concentric_sample_disk maps the unit square into the unit disk, cosine_sample_hemisphere maps it to unit vectors with z >= 0.", "quantifier": "all samples in [0,1]^2", "why_tests_cant": "real-valued inputs", "anchors": ["src/sampling.rs"]}
{"id": "C62", "title": "Area light density", "statement": "The pdf an area light reports for a direction is a probability density over directions: it integrates to 1 and is zero for directions that miss the light.", "quantifier": "all area lights", "why_tests_cant": "an integral over all directions", "anchors": ["src/light.rs: AreaLight::sample_li, pdf_li", "src/shape.rs: Shape::pdf"]}
{"id": "C63", "title": "Any shape can be an area light", "statement": "AreaLight::new accepts any shape; sampling a light built from any shape the library offers succeeds.", "quantifier": "all shapes", "why_tests_cant": "dynamic dispatch", "anchors": ["src/light.rs: AreaLight", "src/shape_sphere.rs: sample"]}
{"id": "C64", "title": "Spawned rays leave the surface", "statement": "In binary32 every coordinate of the origin of a ray spawned from a surface point lies at least the offset n*(|n|.err), as computed in f32 and turned to the side the ray goes, away from the point (compared as exact real numbers), and strictly moved whenever that offset is not zero. In exact arithmetic with a unit normal the origin is on the ray's side of every point of the error box.", "quantifier": "every surface point, error bound, normal, direction", "why_tests_cant": "rounding direction for all floats", "anchors": ["src/interaction.rs: offset_ray_origin, spawn_ray", "src/common.rs: next_float_up, next_float_down"]}
{"id": "C65", "title": "Adjacent floats", "statement": "next_float_up/next_float_down return the least float above / greatest float below their argument, for every non-NaN bit pattern, with infinities as fixed ends.", "quantifier": "all 2^32 bit patterns", "why_tests_cant": "bit-pattern arithmetic", "anchors": ["src/common.rs: next_float_up, next_float_down"]}
{"id": "C66", "title": "Radiance is non-negative", "statement": "If all lights emit non-negative radiance and all BSDF values are non-negative with positive pdfs, the radiance computed for a camera ray is non-negative.", "quantifier": "every scene and random stream (exact arithmetic)", "why_tests_cant": "unbounded path space", "anchors": ["src/integrator.rs: li, estimate_direct, uniform_sample_one_light"]}
{"id": "C67", "title": "Checkerboard textures alternate", "statement": "A checkerboard changes value when moving one cell along an axis and repeats after two, for all positions including negative ones.", "quantifier": "all finite positions", "why_tests_cant": "sign of % for negative operands", "anchors": ["src/texture.rs: CheckerboardTexture, Checkerboard3DTexture"]}
{"id": "C68", "title": "Materials are physically plausible", "statement": "Each material turns texture values into reflectances that are never negative, adds no component for a black texture, and at most two components.", "quantifier": "all textures and interactions", "why_tests_cant": "all texture values", "anchors": ["src/material_*.rs", "src/spectrum.rs: clamp, is_black"]}
{"id": "C69", "title": "Numeric helpers", "statement": "clamp returns a value between its bounds (the argument itself when in range) and passes NaN through; quadratic returns the two real roots in order and none exactly when there are none; luminance of grey is the grey value and lies between the smallest and largest channel.", "quantifier": "all inputs", "why_tests_cant": "real-valued inputs", "anchors": ["src/common.rs: clamp, quadratic", "src/spectrum.rs: y"]}
{"id": "C70", "title": "Tracing a path never panics", "statement": "In a scene of non-degenerate spheres and triangles with finite coordinates, library materials and distant lights, tracing a camera path in a release build returns a radiance: it neither panics nor runs forever.", "quantifier": "every scene, camera ray and random stream (binary32)", "why_tests_cant": "panics depend on NaN components that arise only for rare geometry and sample values", "anchors": ["src/integrator.rs: li, estimate_direct", "src/vector.rs: max_abs_axis", "src/light.rs: DistantLight::pre_process, sample_li", "src/shape_triangle.rs: intersect, intersect_p"]}
{"id": "C71", "title": "Coordinate system of a direction", "statement": "construct_coordinate_system of a unit vector v returns two vectors that form, with v, an orthonormal frame, the second being v cross the first.", "quantifier": "every unit vector (exact arithmetic)", "why_tests_cant": "real-valued inputs; the two branches meet on a surface of directions", "anchors": ["src/vector.rs: construct_coordinate_system"]}
{"id": "C72", "title": "Every hit carries a usable shading frame", "statement": "The interaction of a ray with a sphere or triangle has a finite position and unit normal, an outgoing direction opposite to the ray, and a unit shading normal with a non-zero tangent perpendicular to it, so that the BSDF's local frame is orthonormal.", "quantifier": "every sphere, triangle (with or without vertex normals) and ray (exact arithmetic)", "why_tests_cant": "fails only at isolated points of a surface", "anchors": ["src/shape_sphere.rs: intersect", "src/shape_triangle.rs: intersect", "src/bsdf.rs: new"]}
{"id": "C73", "title": "Light seen in a mirror is counted once", "statement": "A camera ray that meets a mirror of reflectance k, and whose mirror image meets a lamp of radiance L that scatters nothing, returns k times L: what one would see looking at the lamp directly, times the reflectance.", "quantifier": "all scenes, rays and samples", "why_tests_cant": "depends on two distant pieces of the integrator (direct light and emission after a specular bounce)", "anchors": ["src/integrator.rs: estimate_direct, li", "src/bxdf_specular_reflection.rs"]}
{"id": "C74", "title": "A lamp seen directly shows its own radiance", "statement": "A camera ray that meets a shape emitting radiance L towards it, with a material that scatters nothing, returns exactly L.", "quantifier": "all scenes, lights, samplers and rays", "why_tests_cant": "all scenes and samples", "anchors": ["src/integrator.rs: li"]}
{"id": "C75", "title": "Radiance is proportional to the light", "statement": "Multiplying the emission of all lights and surfaces by c > 0 multiplies the radiance returned along every ray by c, for the same samples, and leaves the samples consumed unchanged.", "quantifier": "all scenes, rays, samplers and factors (exact arithmetic)", "why_tests_cant": "two runs on different scenes are compared", "anchors": ["src/integrator.rs: li, estimate_direct, uniform_sample_one_light"]}
{"id": "C76", "title": "Two ways of sampling a direction count it once", "statement": "In estimate_direct, a direction found both by sampling the light (density pl) and by sampling the BSDF (density pb) contributes a and c with pl*a + pb*c = value * radiance * cosine; for a distant light all of it comes from the light sample; an occluded light sample contributes nothing.", "quantifier": "all scenes, surfaces, lights and directions (exact arithmetic)", "why_tests_cant": "an identity between two random estimators", "anchors": ["src/integrator.rs: estimate_direct", "src/sampling.rs: power_heuristic"]}
{"id": "C77", "title": "Lights are chosen in equal shares", "statement": "With n lights a sample in [k/n, (k+1)/n) chooses light k, and its estimate is multiplied by n.", "quantifier": "all numbers of lights below 2^63 and all samples (exact arithmetic)", "why_tests_cant": "every n", "anchors": ["src/integrator.rs: uniform_sample_one_light"]}
{"id": "C78", "title": "Every request gets its own sample dimension", "statement": "The Halton sampler answers the successive requests of one camera sample from consecutive dimensions that never overlap: the k-th number handed out after a sample begins is the radical inverse in the k-th base of that sample's own (mirrored) index, so the film position comes from bases 2 and 3.", "quantifier": "all scripts of requests, pixels and sample numbers", "why_tests_cant": "a script of any length", "anchors": ["src/sampler_halton.rs", "src/sampler.rs: get_camera_sample"]}
{"id": "C79", "title": "Radiance is the sum over the path", "statement": "The radiance returned by li is the sum along the traced path: emission at the first surface and after specular bounces, direct light at each surface, each times the product of value * cosine / density over the bounces before it, and divided by the survival probability min(luminance, 0.95) for each bounce beyond the third that survived the roulette.", "quantifier": "all scenes with non-negative light, rays and samplers (exact arithmetic)", "why_tests_cant": "paths of any length", "anchors": ["src/integrator.rs: li"]}
{"id": "C80", "title": "The two sides of a surface", "statement": "The value of a BSDF for directions on the same side of the geometric surface is the sum of its reflecting components, for directions on different sides the sum of its transmitting ones, and 0 along the surface; a matte material has value reflectance/pi on one side and 0 through it.", "quantifier": "all interactions, directions and component lists (exact arithmetic)", "why_tests_cant": "any list of components", "anchors": ["src/reflection.rs: BSDF::f, has_flag", "src/material_lambertian_reflection.rs"]}
{"id": "C81", "title": "Smooth glass splits the light", "statement": "Reflected and refracted beam at a smooth dielectric carry shares R and 1 - R of the light (the refracted one after undoing the squared ratio of indices), with one and the same R in [0,1]; under total reflection R = 1 and there is no refracted beam.", "quantifier": "all directions and positive indices (exact arithmetic)", "why_tests_cant": "an identity between two BxDFs evaluated at different angles", "anchors": ["src/bxdf_specular_transmission.rs", "src/bxdf_specular_reflection.rs", "src/fresnel.rs"]}
{"id": "C82", "title": "Plastic reflects like a body of index 1.5", "statement": "The polished plastic material reflects, at every angle, the Fresnel share of a body of index 1.5 in air.", "quantifier": "all directions above the surface (exact arithmetic)", "why_tests_cant": "real-valued angles", "anchors": ["src/material_plastic.rs", "src/fresnel.rs: fr_dielectric"]}
{"id": "C83", "title": "One bounce never amplifies", "statement": "A bounce off a matte surface or mirror of reflectance k multiplies the path's weight by exactly k (or ends the path); off polished metal by a factor between 0 and k in every channel.", "quantifier": "all interactions, directions, samples, reflectances and metal constants (exact arithmetic)", "why_tests_cant": "real-valued inputs", "anchors": ["src/reflection.rs: BSDF::sample_f", "src/material_*.rs", "src/bxdf_*.rs"]}
{"id": "C84", "title": "A lamp shines from its front, whichever way it is reached", "statement": "A triangular lamp sampled from a point off its plane returns a point of the triangle, the unit direction to it, the shadow segment to it, and the lamp's radiance if the point is in front of the lamp and black if it is behind; a ray from the same point that meets the lamp sees the same radiance.", "quantifier": "all triangles, orientations, radiances, points off the plane, samples and rays (exact arithmetic)", "why_tests_cant": "real-valued positions and the sign of a normal computed in two places", "anchors": ["src/light.rs: AreaLight::l, AreaLight::sample_li", "src/shape_triangle.rs: sample, intersect"]}
{"id": "C85", "title": "Where a checkerboard lies", "statement": "A checkerboard on surface coordinates shows its first value exactly on the squares where the whole parts of u*su+du and v*sv+dv have an even sum; a solid one where the whole parts of the transformed point's coordinates do.", "quantifier": "all scales, offsets, transforms and points with coordinates below 2^61 (exact arithmetic)", "why_tests_cant": "real-valued coordinates", "anchors": ["src/texture.rs: UVMapping2D::map, IdentityMapping3D::map, evaluate"]}
{"id": "C86", "title": "Rough glass refracts through microfacets", "statement": "The rough transmission component is black with density 0 between directions on the same side; between directions on different sides it has the value and density of refraction through the microfacet that joins them (Walter et al.), and is black if there is none; it is reciprocal up to the squares of the indices; what it samples passes through the sampled microfacet.", "quantifier": "all roughnesses, indices, unit directions and samples (exact arithmetic)", "why_tests_cant": "real-valued directions", "anchors": ["src/bxdf_microfacet_transmission.rs", "src/microfacet.rs"]}
{"id": "C87", "title": "A matte surface samples by the density it reports", "statement": "The directions a matte surface samples are spread over the side of the outgoing direction, each reached by one sample, with the density (per solid angle) that the component reports, both with the sample and when asked for the direction.", "quantifier": "all reflectances, outgoing directions and samples off the diagonals of the unit square (exact arithmetic)", "why_tests_cant": "a density cannot be tested pointwise", "anchors": ["src/bxdf_lambertian_reflection.rs: sample_f, pdf", "src/sampling.rs: cosine_sample_hemisphere, concentric_sample_disk"]}
{"id": "C88", "title": "A rough surface samples by the density it reports", "statement": "The directions sampled by rough reflection and rough transmission are each reached by one sample and have the density (per solid angle) that the component reports, both with the sample and when asked for the direction.", "quantifier": "all roughnesses, indices, outgoing directions and samples (exact arithmetic)", "why_tests_cant": "a density cannot be tested pointwise", "anchors": ["src/bxdf_microfacet_reflection.rs: sample_f, pdf", "src/bxdf_microfacet_transmission.rs: sample_f, pdf", "src/microfacet.rs: sample_wh, pdf"]}
{"id": "C89", "title": "A whole render ends and writes the picture", "statement": "Building a scene of moderate size from spheres, triangles, triangular lamps and distant lights, with surfaces of every material of the library, smooth or rough, and rendering it never panics: the builder returns a scene, under every schedule of the threads each thread can go on until it leaves, the number of steps is bounded, and when all threads have left, every tile has been rendered and merged exactly once and the output file is a well-formed picture of the film's resolution with the film's colours.", "quantifier": "all such scenes, both containers, cameras, films, numbers of samples and threads, schedules, both samplers, release builds and (with at most 84 samples per pixel) debug builds, all mathematical libraries with sines and cosines in [-1,1] whose squares add up to at most 1.001 (binary32)", "why_tests_cant": "unbounded scenes, schedules and float inputs", "anchors": ["src/integrator.rs: render, li", "src/film.rs", "src/sampler.rs", "examples/helloworld.rs"]}
{"id": "C90", "title": "The example program renders its picture", "statement": "The program examples/helloworld.rs, built for release, sets up its scene, film, sampler and camera without a panic; its four threads finish under every schedule, each pixel of each tile gets 500 shots within the pixel, the film never holds a NaN or a negative value, and the output file is a well-formed 1600 x 1280 picture.", "quantifier": "all schedules, all implementations of sort_by with the documented promise, all mathematical libraries with roughly right sin, cos, tan and exp (binary32)", "why_tests_cant": "schedules and libraries differ between machines; one run shows one schedule", "anchors": ["examples/helloworld.rs", "src/integrator.rs", "src/scene.rs", "src/container_kdtree.rs", "src/camera.rs"]}
{"id": "C91", "title": "The random sampler hands out its generator's numbers in order", "statement": "Whatever the calls on a random sampler for a series of pixels, the numbers in the answers, read in order, are exactly the next numbers of its generator: none is skipped, used twice or changed, and afterwards the generator stands right behind the last one. In release builds every such series of calls is answered. In debug builds it is answered exactly if, for every pixel, all numbers are asked for within the first samples_per_pixel samples; otherwise the program panics. A caller that stops asking when it is told that there are no more samples is always answered.", "quantifier": "all generators, states, pixels, series of calls, number types", "why_tests_cant": "the number of calls and generators is unbounded", "anchors": ["src/sampler_random.rs:7-48"]}
{"id": "C92", "title": "No random number is used for two tiles", "statement": "When a picture is rendered with the random sampler, different tiles use different random numbers of the seeded stream. (Every tile of one thread uses the numbers that follow those of the thread's tile before; but all threads start with a copy of the same generator, so that the first tiles of two threads are rendered with the same numbers.)", "quantifier": "all films, schedules, numbers of threads and samples", "why_tests_cant": "depends on the schedule of the threads; pictures look plausible with repeated noise", "anchors": ["src/integrator.rs:40-75", "src/sampler_random.rs:7-30"]}
{"id": "C93", "title": "A path among surfaces that do not amplify carries bounded light", "statement": "If no surface sends on more than it receives, none emits more than E and none gets more than D from the lights directly, then the luminance of the throughput of a path is at most 25 at every surface and the luminance of a sample of the radiance at most 470 (E + D), however many surfaces the path meets. Scenes of matt and mirror triangles with n lights of brightness at most M and lamps of area at most A are such, with E = M and D = n M (A + 2).", "quantifier": "all scenes, rays, sampler states, depths (exact arithmetic)", "why_tests_cant": "the bound is over all paths; fireflies are rare", "anchors": ["src/integrator.rs: li, uniform_sample_one_light, estimate_direct", "src/bxdf_lambertian_reflection.rs", "src/bxdf_specular_reflection.rs"]}
{"id": "C94", "title": "The samples of a pixel are spread evenly", "statement": "Cut the unit range of each of several dimensions of the Halton sampler into b^e equal parts, b being the base of the dimension. Of any run of consecutive samples of a pixel as long as the number of boxes so made, exactly one falls into each box. (This holds as long as the digits fit 32 bits; beyond that it fails: in dimension 257 the samples 86 to 228 of pixel (0,0) all get the same number 1 - 2^-23.)", "quantifier": "all pixels, films, choices of dimensions, exponents and boxes, all starting samples (exact arithmetic, release builds)", "why_tests_cant": "the number of boxes and runs is unbounded; unevenness only shows as a little more noise", "anchors": ["src/sampler_halton.rs"]}
{"id": "C95", "title": "The k-d tree splits where it is cheapest", "statement": "The tree built for a list of shapes is the greedy tree for the surface area cost: a node is split along the first axis (longest side of its cell first) with a plane to split at, at a plane where a shape's box begins or ends and no other such plane of the axis costs less, the cost being 1 + 80 times the shapes of the two cells weighted by their share of the face area (half if one is empty) and computed with the numbers of shapes the two cells really get; a node is a leaf only if it has at most 8 shapes, the depth is used up, no plane lies inside its cell, or the best split is too dear (four times the cost of no split with fewer than 16 shapes, or the third bad split on the way). Each cell gets the shapes that begin before the plane, or end after it, and a leaf lists only shapes whose boxes touch its cell.", "quantifier": "all lists of shapes with finite boxes, all depth limits, all sorting functions (exact arithmetic)", "why_tests_cant": "a worse tree gives the same pictures, only slower; counts maintained in the sweep matter at ties", "anchors": ["src/container_kdtree.rs:49-198"]}
{"id": "C96", "title": "Matt bodies under distant lights follow Lambert's law", "statement": "Take a scene of matt balls and triangles under distant lights, and a point of it that a ray meets (no pole of a ball, not grazed) such that no part of the scene rises above the tangent plane at the point. The radiance returned for the ray is then free of noise except for the choice among the n lights: if light j is picked, it is n times (reflectance / pi) x (radiance of light j) x (cosine between the normal on the viewer's side and the light's direction), and zero if the light is behind the surface; each light is picked for 1/n of the numbers the sampler can give. A single ball seen from outside always meets these conditions.", "quantifier": "all scenes of matt balls and triangles in the simple container, all reflectances and lights, all rays, all samplers (exact arithmetic)", "why_tests_cant": "a wrong factor (pi, a light counted twice, a cosine of the wrong side) still gives plausible pictures; a test compares pictures with a tolerance", "anchors": ["src/integrator.rs", "src/light.rs", "src/bxdf_lambertian_reflection.rs", "src/interaction.rs", "src/scene.rs"]}
{"id": "C97", "title": "A picture does not depend on the unit of length or on where the origin is", "statement": "Write the same scene down with another unit of length (all coordinates and radii multiplied by k > 0) and about another origin, and look at it from the camera position written down in the same way. The radiance returned for every ray and every stream of random numbers is the same.", "quantifier": "all scenes of balls and triangles, all k > 0, all displacements, all rays, all samplers, all materials that do not read positions", "why_tests_cant": "a test renders a scene in one unit; absolute tolerances and densities that lack a distance show only when the unit changes", "anchors": ["src/integrator.rs", "src/light.rs", "src/interaction.rs", "src/shape_sphere.rs", "src/shape_triangle.rs", "src/container_simple.rs", "src/bbox.rs"]}
{"id": "C98", "title": "Moving a hit moves everything about it", "statement": "Applying an affine transform to an interaction moves its point as a point, its tangents and its outgoing direction as directions, and its normals so that their products with all moved directions stay the same; texture coordinates and shape stay; points within the error bounds stay within the moved error bounds.", "quantifier": "all interactions with finite values, all affine transforms with an inverse", "why_tests_cant": "a test checks one transform; uniform scalings and rotations hide normals moved as vectors, and shifts hide the error bounds", "anchors": ["src/transform.rs", "src/interaction.rs"]}
{"id": "C99", "title": "Tangents and areas are derivatives", "statement": "The tangents reported at a hit of a triangle without vertex normals are the derivatives of the position by the texture coordinates, and they are independent; the area reported for a sphere is the derivative of its volume by the radius.", "quantifier": "all triangles, all rays, all hits; all radii", "why_tests_cant": "a test can compare a few points; the second tangent is not visible in pictures of matt scenes", "anchors": ["src/shape_triangle.rs", "src/shape_sphere.rs"]}
{"id": "C100", "title": "Error bounds of triangle hits cover the rounding errors", "statement": "In single precision, the box around a reported hit point of a triangle, with the reported error bound as half size, contains a point of the triangle; the same holds for points sampled on a triangle.", "quantifier": "all triangles and rays with coordinates up to 2^20, all hits, all random numbers in [0,1); lengths below 2^-100 are not told apart", "why_tests_cant": "the bound is a few units in the last place and is nearly always generous; a test does not meet the worst case of the roundings", "anchors": ["src/shape_triangle.rs", "src/common.rs", "src/interaction.rs"]}
{"id": "C101", "title": "Error bounds of sphere hits cover the rounding errors", "statement": "In single precision, the box around a reported hit point of a sphere, with the reported error bound as half size, contains a point of the sphere.", "quantifier": "all spheres, rays and hits in a common range of sizes", "why_tests_cant": "spheres near the origin are fine; the error of moving the hit to the place of the sphere grows with the distance of the sphere from the origin", "anchors": ["src/shape_sphere.rs", "src/common.rs", "src/interaction.rs"]}
{"id": "C102", "title": "A surface does not shadow itself", "statement": "A ray spawned at a point of a triangle does not meet that triangle, and a ray spawned to the outside at a point of a ball does not meet that ball. A shadow ray from a ball or triangle to a sampled point of a triangle meets neither of the two, when the two points are farther from each other's tangent planes than their error bounds reach. Spawned rays have no end and shadow rays end a ten-thousandth before the other point: everything in between is met.", "quantifier": "all triangles, balls, hits, samples and directions (exact arithmetic)", "why_tests_cant": "dark speckles appear at rare angles; a test sees a few rays", "anchors": ["src/interaction.rs", "src/shape_triangle.rs", "src/shape_sphere.rs"]}
{"id": "C103", "title": "Extended Euclid and modular inverses", "statement": "extended_gcd(a, b) returns x and y with x a + y b = gcd(a, b) without overflow, and multiplicative_inverse(a, n) is the inverse of a modulo n.", "quantifier": "all u32 arguments, debug and release builds", "why_tests_cant": "the sign of the coefficient alternates with the number of division steps, so about half of all arguments work", "anchors": ["src/sampler_halton.rs"]}
{"id": "C104", "title": "Ending paths and choosing lights by chance leaves the mean unchanged", "statement": "With the directions of a path given, and the numbers that choose one of the lights and that end paths independent and evenly spread between 0 and 1, the mean of the radiance found along a ray is the sum along the path of what all the lights contribute, as if every light were looked at and no path ended by chance.", "quantifier": "all scenes, rays, numbers of lights and paths whose throughput is not negative (exact arithmetic)", "why_tests_cant": "a bias of a few per cent in a mean is hidden by noise; the mean is an integral over hundreds of numbers", "anchors": ["src/integrator.rs", "src/spectrum.rs"]}
{"id": "C105", "title": "The mean radiance obeys the light transport equation", "statement": "When all the numbers drawn are independent and evenly spread between 0 and 1, the radiance found along a ray is on average what the surface met emits, plus the light of all lights on it, plus the average over sampled directions of value times cosine over density of the light from there, and so on for at most 65 bounces; emission met after a bounce counts only if the direction was forced.", "quantifier": "all scenes and rays for which these averages exist (exact arithmetic)", "why_tests_cant": "an integral in 520 dimensions cannot be tested; a test sees single samples", "anchors": ["src/integrator.rs", "src/spectrum.rs"]}
{"id": "C106", "title": "What a matt surface scatters is an integral over the directions above it", "statement": "For light coming to a matt surface of reflectance k, the average over the two random numbers of value times cosine over density times the light from the sampled direction is the integral, over the solid angle of the directions on the viewer's side, of k / pi times the light times the cosine; and with this the transport equation at a matt surface is the rendering equation. For light with edges the same holds wherever both sides exist.", "quantifier": "all surfaces, frames, viewing directions and lights continuous over the hemisphere (or squeezed between continuous ones)", "why_tests_cant": "an equality of integrals over a continuum; sampling only approaches it", "anchors": ["src/sampling.rs", "src/bxdf_lambertian_reflection.rs", "src/material_lambertian_reflection.rs", "src/reflection.rs"]}
{"id": "C107", "title": "Sampling a triangular lamp is integrating over its area", "statement": "Points sampled on a triangle are spread evenly over it: the average over the two random numbers of any continuous function of the sampled point is the integral of the function over the area of the triangle, divided by the area. So what a triangular lamp in full view gives a matt surface by points sampled on the lamp is, on average, the integral over the lamp's area of cosine times reflectance / pi times radiance times the power heuristic's share of the density one over the area against the density cosine / pi.", "quantifier": "all triangles with non-zero area, continuous functions on them, matt surfaces in front of the lamp and radiances", "why_tests_cant": "an equality of integrals over a continuum; sampling only approaches it", "anchors": ["src/shape_triangle.rs", "src/light.rs", "src/integrator.rs", "src/material_lambertian_reflection.rs"]}
{"id": "C108", "title": "Rounding on the film: the schedule moves a pixel by no more than its rounding error", "statement": "In binary32, however samples were splatted and tiles merged, each channel of a finished pixel is the exact weighted mean of the samples that reached it, up to a relative error of 2^-22 for each addition in the longest chain (and 2^-100 for light too faint for the format). Any two complete renders with the Halton sampler, by any numbers of threads in any interleavings, splat the same finite non-negative samples with the same filter weights onto each pixel; so their pictures differ at a pixel by no more than twice that error, counted for every sample and every tile that reaches the pixel.", "quantifier": "all sequences of splats and merges; all schedules, thread counts, scenes and samplers that forget; all libms; samples of moderate size (channels up to 2^90, weights summing to 2^-20 .. 2^30)", "why_tests_cant": "bits of the picture do depend on the schedule (C06), so two renders cannot be compared for equality; a test cannot enumerate the schedules nor tell a rounding error from a lost sample", "anchors": ["src/film.rs", "src/integrator.rs", "src/sampler_halton.rs"]}
{"id": "C109", "title": "The acceleration structure does not change the picture", "statement": "In exact arithmetic, two containers of the same shapes, each the simple list or a k-d tree of any depth, answer alike for every ray that meets no two shapes at the same distance and does not run in the plane of a face of a shape's box. Hence if every ray traced while rendering with one of them is of that kind, rendering with the other gives the same radiance for each camera ray, the same random numbers used, and the same picture, by one thread or by any number of threads in any interleaving.", "quantifier": "all lists of spheres and triangles (any well-behaved shapes), both containers, all depths and orders of equal edges, all materials, lights, samplers, cameras, schedules", "why_tests_cant": "a test renders a few scenes with each structure; a shape lost in one leaf of one tree shows only for the rays that pass there", "anchors": ["src/container_simple.rs", "src/container_kdtree.rs", "src/integrator.rs", "src/scene.rs"]}
{"id": "C110", "title": "Surface components are labelled for what they do", "statement": "Every component of every surface made by a material of the library is labelled as reflecting or as transmitting and not both; one labelled specular is black for any two given directions, and one not labelled specular has, for a direction it sampled, the very value it returned with it; a sampled direction is on the viewer's side of the shading surface exactly when the component, and the label that BSDF sampling returns with the direction, says reflection.", "quantifier": "all five materials, textures, interactions with a shading frame, outgoing directions, sample values", "why_tests_cant": "the integrator decides by the label whether the next lamp is counted, and evaluation decides by it which components take part; a wrong label only shifts brightness in some configurations", "anchors": ["src/reflection.rs", "src/bxdf_lambertian_reflection.rs", "src/bxdf_specular_reflection.rs", "src/bxdf_specular_transmission.rs", "src/bxdf_microfacet_reflection.rs", "src/bxdf_microfacet_transmission.rs", "src/material_glass.rs"]}
{"id": "C111", "title": "Interpolation runs from one end to the other", "statement": "Interpolating between two values gives the first at 0, the second at 1, values between the two in between, and in order; in binary32 both ends are met exactly and values in between are right to a relative error of 2^-22 (they may exceed both ends by that much: a fifth of the way from 13 to 13 is above 13). A colour is interpolated channel by channel with the same operation.", "quantifier": "all parameters in [0,1], all end values (finite, and in binary32 nonnegative up to 2^120), both arithmetics", "why_tests_cant": "the function has no caller and no test; a swap of the ends or a form that misses the far end by an ulp shows only at exact end values", "anchors": ["src/common.rs", "src/spectrum.rs"]}
{"id": "C112", "title": "The world is drawn where it stands", "statement": "For a camera placed by look_at with a perspective projection, a point of the world lies on the ray of a film position exactly if it is in front of the camera and the film position is its central projection; the picture stands upright: of two points at one depth the one further towards the up vector is nearer to the top row and the one further towards up x view is nearer to the right edge, points on one line of sight coincide, size falls with the inverse of the depth, and the point looked at is in the middle of a centred window.", "quantifier": "all camera placements, fields of view, windows, resolutions, film positions and world points", "why_tests_cant": "real-valued inputs through four composed matrices; a mirrored or squeezed picture looks plausible", "anchors": ["src/camera.rs", "src/transform.rs"]}
{"id": "C113", "title": "A failed render leaves the old picture", "statement": "Whatever the sampler and the shading code do, and however the threads are scheduled: until the main thread writes the picture the file keeps its old contents, and if any thread panics the main thread panics on joining and never touches the file; if the picture is written, no thread has panicked, the run is one of the runs without failures and every tile was merged exactly once (given at least one thread). A panicking thread poisons no lock and takes only its own tile with it, the others finish the rest, and every run ends, written or failed, in at most 3 tiles + 2 threads + 1 moves. With no threads at all an unrendered picture is written.", "quantifier": "all films, samplers, shading code with panics anywhere, numbers of threads, old file contents and schedules", "why_tests_cant": "the failures and their interleaving with the other threads and with joining are chosen by scheduler and scene; exhaustively many schedules", "anchors": ["src/integrator.rs", "src/film.rs"]}
{"id": "C114", "title": "Shadows are mutual", "statement": "The shadow ray from one surface point to another is the reverse of the one back, with the same two lifted end points; hence in scenes of balls and triangles, kept in a list or a tree, one point is unoccluded from the other exactly if the other is from the one, and exactly if no surface crosses the way between them - provided that no surface is crossed in the first or last ten-thousandth of the way and triangles are not grazed. Without that it is false: a small ball just before the far end throws a shadow one way only.", "quantifier": "all scenes of balls and triangles and all pairs of surface points, exact arithmetic", "why_tests_cant": "real-valued positions; the failing cases lie in a ten-thousandth of the way", "anchors": ["src/interaction.rs", "src/light.rs"]}
{"id": "C115", "title": "Order, repetition and what is out of the way do not matter", "statement": "In exact arithmetic, two scenes with the same lights whose containers (the simple list or a k-d tree, of any depth limits and sorts) hold two lists of shapes answer a ray alike if the ray is finite, runs in no face of a shape's box, meets no two shapes at one distance, and misses every shape that is in only one of the lists. So the radiance of a path, random numbers included, and the whole picture, rendered in one thread or by any schedule of threads, are the same if all rays traced are of this kind: reordering the shapes, giving one twice, or leaving out what no ray meets changes nothing. For two shapes met at the same distance the order decides which is seen.", "quantifier": "all shape lists, containers, depth limits, sorts, rays, surfaces, lights, samplers, fuels, films and thread schedules", "why_tests_cant": "a test renders a few scenes in a few orders; this is for all lists of shapes, all trees and all schedules", "anchors": ["src/container_simple.rs", "src/container_kdtree.rs", "src/scene.rs", "src/integrator.rs"]}
{"id": "C116", "title": "The light of scenes adds up and scales", "statement": "In exact arithmetic, take three scenes with the same shapes and materials in which the lights stand in the same places, and the third shines everywhere with a times the light of the first and b times the light of the second, where a and b are factors for each colour channel (a light that is off is there with radiance 0). With the same random numbers, a path of finite radiance in the first two scenes has in the third a times the first radiance plus b times the second, and uses the same numbers; in particular a scene k times as bright gives k times the radiance, and a colour filter before every light is one before the camera. If a and b are not negative and two films are rendered without a sample being thrown away, the third scene renders too, its film has at every pixel the colours combined in the same way and the same weights, and so is what a pixel shows before gamma correction. The scenes that the builder makes from distant lights and lamps whose radiances are combined are of this kind.", "quantifier": "all scenes, materials, containers, lights, factors, samplers, rays, films with finite filter tables, fuels", "why_tests_cant": "needs all scenes and all random numbers; a renderer that treats dark lights specially or clamps would pass on most scenes", "anchors": ["src/integrator.rs", "src/light.rs", "src/scene.rs", "src/film.rs"]}
{"id": "C117", "title": "More light makes no pixel darker", "statement": "In exact arithmetic and with the same random numbers, take a scene and the same scene with everything shining at least as much (a factor of 1 or more) and further light added. If the scene and the further light alone are rendered to a new film with the Gaussian filter without a sample being thrown away, the brighter scene renders too, and no channel of any pixel is written with a smaller number than before. This holds for every number of threads and every schedule of the two renders.", "quantifier": "all scenes, materials, containers, lights, factors, samplers, films, numbers of threads and schedules", "why_tests_cant": "needs all scenes, all random numbers and all schedules", "anchors": ["src/integrator.rs", "src/light.rs", "src/film.rs", "src/filter.rs"]}
{"id": "C118", "title": "The colours of light do not mix", "statement": "In exact arithmetic and with the same random numbers, take two scenes with the same shapes and materials in which everything shines alike in some of the three colour channels and anyhow in the others. Paths of finite radiance have the same radiance in these channels and use the same random numbers. If both scenes are rendered to a new film with the Gaussian filter without a sample being thrown away, then by any number of threads in any schedule the pixels have the same weights, the same colour sums in these channels, and the same numbers are written for them. In a scene in which nothing shines in a channel, every radiance and every pixel has 0 in that channel, and pixels with a sample are written in it as black is. Scenes that the builder makes from distant lights and lamps whose radiances agree (or are 0) in these channels are of this kind.", "quantifier": "all scenes, materials, containers, lights, sets of channels, samplers, films, numbers of threads and schedules", "why_tests_cant": "needs all scenes, materials and random numbers; a path that picks its light or ends its path by colour would break it only in some pictures", "anchors": ["src/integrator.rs", "src/light.rs", "src/film.rs", "src/spectrum.rs"]}
{"id": "C119", "title": "The assertions on clamp bounds and BxDF flags never fail", "statement": "In a debug build no call of clamp in the program is made with bounds in the wrong order, whatever is clamped (NaN included): the Fresnel formulas, the azimuths of a direction, the numbers written to the picture, the clamped textures of the materials and the polar angle of a sphere come out as in a release build. No BxDF that the materials of the library put into a BSDF, with any textures, has a flag above ALL, so evaluating and sampling the BSDF, and tracing any path through any scene of such materials, gives the same result with the assertion as without it, the random numbers used and any other panic included.", "quantifier": "all numbers, textures, materials of the library, scenes, containers, lights, samplers and rays, in exact and in single-precision arithmetic", "why_tests_cant": "needs all inputs of all callers; an assertion that fails only for a rare material or value would stop a render midway", "anchors": ["src/common.rs", "src/reflection.rs", "src/fresnel.rs", "src/film.rs", "src/spectrum.rs", "src/shape_sphere.rs", "src/integrator.rs"]}
{"id": "C120", "title": "The order of a triangle's corners does not matter", "statement": "In exact arithmetic the order in which the three corners of a triangle are listed does not decide what a ray meets: in all six orders the ray misses, or it meets the triangle at the same parameter and point, with the same error bound, towards the same viewer; the shadow test, the area and the bounding box are the same too. Without vertex normals the unit normals are the same after an even number of exchanges and turned over after an odd number. With vertex normals listed in the same order the shading normal is the same in all orders, and so is the geometric normal unless the shading normal is perpendicular to it. A mesh whose index lists give the corners of each face in an order of its own consists of the same triangles in these orders. With rounding the point of a hit can differ in its last bits.", "quantifier": "all triangles with finite corners and vertex normals (degenerate ones included), all six orders, both orientations, all rays with a direction and any length that is a number", "why_tests_cant": "a test fires some rays at some triangles; the watertight test, its error bound and the interpolation treat the three corners in different expressions, and an asymmetry would show only for some rays near an edge or at grazing angles", "anchors": ["src/shape_triangle.rs"]}
