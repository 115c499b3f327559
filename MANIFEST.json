{
 "claims": [
  {
   "property": "C01",
   "status": "proved",
   "theorems": [
    "C01_notifications_describe_state"
   ],
   "note": "Any scalar type, any operations (also calls made by listeners from inside OnNextFrame), any listener."
  },
  {
   "property": "C02",
   "status": "partial",
   "theorems": [
    "C02_oneshot_visits_range",
    "C02_silent_after_stop_refuted"
   ],
   "note": "Frames, state and notifications are exact for ranges of two or more frames; the claim that the notifications are only those of the visited frames is false: OnNextFrame is delivered again after OnStop."
  },
  {
   "property": "C03",
   "status": "proved",
   "theorems": [
    "C03_loop_cycles"
   ],
   "note": "Exact reals."
  },
  {
   "property": "C04",
   "status": "partial",
   "theorems": [
    "C04_pingpong_bounces",
    "C04_pingpong_single_frame_refuted"
   ],
   "note": "Proved for ranges of two or more frames; a single-frame range is left by the playback (finding)."
  },
  {
   "property": "C05",
   "status": "proved",
   "theorems": [
    "C05_interpolator_range",
    "C05_interpolator_range_float",
    "C05_update_additive",
    "C05_update_idle"
   ],
   "note": "Additivity holds while the playback is still playing at the cut (exact reals). The range is proved for exact reals and for double precision."
  },
  {
   "property": "C06",
   "status": "proved",
   "theorems": [
    "C06_pause_transparent"
   ],
   "note": "Any scalar type."
  },
  {
   "property": "C07",
   "status": "partial",
   "theorems": [
    "C07_loop_backward_mirrors",
    "C07_oneshot_backward_refuted"
   ],
   "note": "Loop mirrors; one-shot playback with negative speed stops at once (finding)."
  },
  {
   "property": "C08",
   "status": "partial",
   "theorems": [
    "C08_update_terminates_exact",
    "C08_update_terminates_refuted",
    "C08_update_returns_float"
   ],
   "note": "Terminates over exact reals; false over binary64 (finding): there it returns exactly if the advanced interpolator is below 2^53 + 4 in size."
  },
  {
   "property": "C61",
   "status": "partial",
   "theorems": [
    "C61_list_loop_cycles",
    "C61_stop_rewinds_list"
   ],
   "note": "Step k shows entry k mod n for k >= 1; the very first displayed frame is the first argument of Play, not the first list entry."
  },
  {
   "property": "C62",
   "status": "partial",
   "theorems": [
    "C62_frames_in_range",
    "C62_next_frame_in_range_refuted"
   ],
   "note": "Holds for ranges of two or more frames; a single-frame range keeps a stale next frame (finding)."
  },
  {
   "property": "C09",
   "status": "partial",
   "theorems": [
    "C09_tracks_interpolate_from_zero",
    "C09_track_value_unique",
    "C09_listing_order_irrelevant",
    "C09_sort_determined",
    "C09_keys_are_not_offset_partial",
    "C09_tracks_interpolate_refuted",
    "C09_duplicate_frames_refuted"
   ],
   "note": "Proved for sequences whose first frame is 0 and distinct frames; false for later first frames (keys are not offset) and for duplicate frames (findings)."
  },
  {
   "property": "C10",
   "status": "partial",
   "theorems": [
    "C10_common_frame_range",
    "C10_greatest_frame_refuted"
   ],
   "note": "Proved for frames below the greatest std::size_t; at that value the end wraps to 0 (finding)."
  },
  {
   "property": "C11",
   "status": "partial",
   "theorems": [
    "C11_sampling_clamped_and_safe",
    "C11_sampling_exact_at_ends",
    "C11_sampling_after_clear_refuted"
   ],
   "note": "Proved for histories without ClearKeys; after ClearKeys sampling is out of bounds (finding)."
  },
  {
   "property": "C12",
   "status": "partial",
   "theorems": [
    "C12_rebuild_independent_nonempty",
    "C12_clear_then_build",
    "C12_rebuild_independent_refuted"
   ],
   "note": "Proved for non-empty tracks and after ClearKeys; false for empty tracks (finding)."
  },
  {
   "property": "C13",
   "status": "proved",
   "theorems": [
    "C13_enumeration_is_preorder"
   ],
   "note": ""
  },
  {
   "property": "C14",
   "status": "proved",
   "theorems": [
    "C14_buffers_within_bounds"
   ],
   "note": ""
  },
  {
   "property": "C15",
   "status": "proved",
   "theorems": [
    "C15_matrices_are_path_products",
    "C15_local_matrices"
   ],
   "note": ""
  },
  {
   "property": "C16",
   "status": "proved",
   "theorems": [
    "C16_bind_pose_neutral",
    "C16_pose_space_roundtrip"
   ],
   "note": "Over any matrices satisfying the group laws for invertible elements."
  },
  {
   "property": "C17",
   "status": "partial",
   "theorems": [
    "C17_remove_returns_joint_refuted",
    "C17_remove_unknown",
    "C17_removed_joint_reusable_refuted"
   ],
   "note": "False of the code (finding): erase-then-move destroys the joint and hands out its successor. Only the not-found case holds."
  },
  {
   "property": "C18",
   "status": "proved",
   "theorems": [
    "C18_copy_duplicates",
    "C18_add_sets_parent"
   ],
   "note": ""
  },
  {
   "property": "C29",
   "status": "partial",
   "theorems": [
    "C29_insert_is_least_box",
    "C29_insert_order_irrelevant",
    "C29_nan_ignored",
    "C29_scalar_instances",
    "C29_infinity_not_tight_refuted"
   ],
   "note": "Proved for every strict weak order (instances: 32-bit integers, binary64 without NaN); the box is least only if the components lie between lowest() and max(), false for infinities (finding)."
  },
  {
   "property": "C30",
   "status": "partial",
   "theorems": [
    "C30_predicates_exact",
    "C30_repair",
    "C30_inside_of_invalid_refuted"
   ],
   "note": "Proved for valid boxes; InsideOf is not inclusion of the point sets if the inner box is invalid."
  },
  {
   "property": "C31",
   "status": "partial",
   "theorems": [
    "C31_lanes_agree",
    "C31_float_lanes",
    "C31_centers_and_sizes",
    "C31_repair_refuted",
    "C31_contains_points_refuted",
    "C31_nan_insert_refuted",
    "C31_sizes_refuted"
   ],
   "note": "Reset, Insert, InsideOf, Contains(box) and Overlap agree for all IEEE binary32 patterns but NaN, centers bit for bit for finite boxes, sizes for valid ones; Repair, Contains(points), NaN insertion and sizes of boxes with exchanged bounds do not (findings)."
  },
  {
   "property": "C32",
   "status": "proved",
   "theorems": [
    "C32_edges_2d",
    "C32_edges_3d"
   ],
   "note": "For boxes with distinct min and max coordinates."
  },
  {
   "property": "C19",
   "status": "proved",
   "theorems": [
    "C19_edges_exact",
    "C19_sort_determined"
   ],
   "note": ""
  },
  {
   "property": "C20",
   "status": "partial",
   "theorems": [
    "C20_silhouette_characterised",
    "C20_zero_tolerance",
    "C20_kept_edges_are_bent",
    "C20_tolerance_angle_refuted"
   ],
   "note": "Which edges are kept is characterised exactly; for zero tolerance, and in the direction 'kept edges are bent by more than the tolerance', the claim holds; the converse is false because the sine of the tolerance is compared with 1 - cosine (finding)."
  },
  {
   "property": "C21",
   "status": "partial",
   "theorems": [
    "C21_neighbors_are_the_ball",
    "C21_edge_bond_is_common_side",
    "C21_degenerate_edge_bond_refuted"
   ],
   "note": "Ball property proved for all depths; 'two common corners' means a common side except for degenerate triangles (finding)."
  },
  {
   "property": "C22",
   "status": "proved",
   "theorems": [
    "C22_find_triangles_exact"
   ],
   "note": ""
  },
  {
   "property": "C23",
   "status": "partial",
   "theorems": [
    "C23_append_preserves",
    "C23_append_associative",
    "C23_add_preserves",
    "C23_self_append_refuted"
   ],
   "note": "Proved for distinct mesh objects; appending a mesh to itself writes out of bounds (finding)."
  },
  {
   "property": "C24",
   "status": "proved",
   "theorems": [
    "C24_bounding_box_tight",
    "C24_faces_touch"
   ],
   "note": "For comparable coordinates between lowest() and max(), i.e. all finite floats; see C29 for infinities."
  },
  {
   "property": "C25",
   "status": "proved",
   "theorems": [
    "C25_multi_threaded_equals_sequential",
    "C25_executions_end"
   ],
   "note": "All interleavings of the atomic steps of the workers and the caller; NaN and infinities included."
  },
  {
   "property": "C26",
   "status": "proved",
   "theorems": [
    "C26_interpolation_writes_described_attributes",
    "C26_barycentric",
    "C26_corners_and_linearity"
   ],
   "note": "Over exact reals, descriptors in units of sizeof(Real)."
  },
  {
   "property": "C41",
   "status": "partial",
   "theorems": [
    "C41_three_points_on_plane",
    "C41_point_on_plane",
    "C41_flip_negates",
    "C41_normalize_keeps_plane",
    "C41_member_point",
    "C41_member_point_refuted",
    "C41_four_scalars_refuted",
    "C41_four_scalars_mirrored"
   ],
   "note": "The four-scalar constructor describes n*x = d instead of the documented n*x + d = 0 for both equations (finding); MemberPoint needs a unit normal."
  },
  {
   "property": "C42",
   "status": "proved",
   "theorems": [
    "C42_distance_and_closest_point",
    "C42_closest_point_refuted",
    "C42_point_relation",
    "C42_box_relation"
   ],
   "note": "Closest point for unit normals (refuted for others); behind means: no point strictly in front."
  },
  {
   "property": "C43",
   "status": "partial",
   "theorems": [
    "C43_two_planes",
    "C43_three_planes_partial",
    "C43_three_planes_refuted",
    "C43_no_common_point_refuted"
   ],
   "note": "Reported lines and points are exact; the three-plane point is missed if it is on the backward half of the line of the first two planes (finding), and planes without a common point may be reported to meet at infinity (finding)."
  },
  {
   "property": "C44",
   "status": "partial",
   "theorems": [
    "C44_ray_hits",
    "C44_segment_hits",
    "C44_parallel_ray_refuted"
   ],
   "note": "Exact outside the parallel case; a parallel ray may be reported as a hit at infinity (finding)."
  },
  {
   "property": "C57",
   "status": "partial",
   "theorems": [
    "C57_hull_membership",
    "C57_sphere_outside",
    "C57_sphere_center_inside",
    "C57_sphere_inside_refuted",
    "C57_frustum_mirrored",
    "C57_frustum_refuted",
    "C57_frustum_corrected",
    "C57_frustum_corners_partial"
   ],
   "note": "Hull membership is exact, spheres reported outside are outside; frusta are wrong because of the four-scalar plane constructor (finding)."
  },
  {
   "property": "C59",
   "status": "partial",
   "theorems": [
    "C59_cone_in_front",
    "C59_closest_point_partial",
    "C59_closest_point_refuted"
   ],
   "note": "The in-front test is exact; the closest point is only right for cones in front of the plane (finding)."
  },
  {
   "property": "C63",
   "status": "partial",
   "theorems": [
    "C63_transform_plane_partial",
    "C63_alternate_equation_refuted",
    "C63_scaling_refuted"
   ],
   "note": "Right for n*x = d and rigid motions; wrong for n*x + d = 0 (finding)."
  },
  {
   "property": "C64",
   "status": "partial",
   "theorems": [
    "C64_box_distance",
    "C64_oriented_box_distance",
    "C64_unsigned_refuted"
   ],
   "note": "The nearest distance is exact; the documented unsignedness is refuted."
  },
  {
   "property": "C27",
   "status": "partial",
   "theorems": [
    "C27_clip_triangle_partial",
    "C27_count_refuted"
   ],
   "note": "Exact reals. Everything but the vertex count of the front polygon is proved, plus coverage and orientation; the documented \"three or four vertices\" is refuted for a corner on the plane with the others behind."
  },
  {
   "property": "C28",
   "status": "proved",
   "theorems": [
    "C28_clip_mesh",
    "C28_nothing_lost",
    "C28_in_place_refuted"
   ],
   "note": "Exact reals; side tests with the tolerance eps of the code. Aliasing the input with an output mesh loses the mesh (C28_in_place_refuted)."
  },
  {
   "property": "C33",
   "status": "partial",
   "theorems": [
    "C33_first_hit_partial",
    "C33_all_directions",
    "C33_ray_overloads",
    "C33_small_component_refuted",
    "C33_empty_box_refuted"
   ],
   "note": "Exact for nonempty boxes and directions whose components are zero or at least eps; smaller components are treated as zero (findings)."
  },
  {
   "property": "C34",
   "status": "partial",
   "theorems": [
    "C34_point_overload_partial",
    "C34_overloads_agree_partial",
    "C34_overloads_refuted"
   ],
   "note": "The overload returning the point is exact; the boolean overload compares the parameter with the segment length and is wrong for lengths other than one (finding)."
  },
  {
   "property": "C45",
   "status": "partial",
   "theorems": [
    "C45_closest_point_partial",
    "C45_single_point_refuted",
    "C45_closest_segment_partial",
    "C45_ends_on_segments",
    "C45_short_segment_refuted",
    "C45_rays_partial",
    "C45_rays_refuted",
    "C45_distance_partial"
   ],
   "note": "Optimality proved for segments that are not shorter than the tolerance; rays are treated as infinite lines (finding)."
  },
  {
   "property": "C46",
   "status": "partial",
   "theorems": [
    "C46_first_hit_partial",
    "C46_hit_iff",
    "C46_inside_refuted",
    "C46_direction_refuted"
   ],
   "note": "Exact for normalized directions and origins outside; the documented freedom to pass unnormalized directions is refuted."
  },
  {
   "property": "C58",
   "status": "partial",
   "theorems": [
    "C58_sphere_volume",
    "C58_sphere_area",
    "C58_sphere_same",
    "C58_cone_angle",
    "C58_ranges_refuted"
   ],
   "note": "Exact reals; holds for non-negative sizes and angles inside (-90, 90) degrees with non-zero height, refuted outside."
  },
  {
   "property": "C65",
   "status": "proved",
   "theorems": [
    "C65_sphere_volume",
    "C65_cone_volume",
    "C65_sphere_area"
   ],
   "note": "Exact reals; volume as the integral of cross-section areas, area as derivative of the volume."
  },
  {
   "property": "C47",
   "status": "proved",
   "theorems": [
    "C47_inside",
    "C47_closest_point",
    "C47_barycentric",
    "C47_precomputed",
    "C47_ray",
    "C47_segment",
    "C47_from_behind_refuted",
    "C47_shared_edge_refuted",
    "C47_inside_refuted"
   ],
   "note": "Exact reals. The closest point is exact for every triangle, degenerate ones included. Hits are one-sided; the precomputed variant excludes the edges, so that a ray through a shared edge misses both triangles (finding)."
  },
  {
   "property": "C48",
   "status": "proved",
   "theorems": [
    "C48_round_trip",
    "C48_round_trip_point",
    "C48_round_trip_2d",
    "C48_round_trip_point_2d",
    "C48_triangle",
    "C48_triangle_2d",
    "C48_degenerate"
   ],
   "note": "Exact reals, all non-degenerate triangles; degenerate triangles divide by zero."
  },
  {
   "property": "C66",
   "status": "proved",
   "theorems": [
    "C66_sound",
    "C66_complete",
    "C66_coplanar_refuted",
    "C66_whole_segment_refuted"
   ],
   "note": "Exact reals. Coplanar triangles are never reported; the returned segment may be a single point of a longer intersection (findings)."
  },
  {
   "property": "C67",
   "status": "proved",
   "theorems": [
    "C67_closest_segment"
   ],
   "note": "Exact reals; edges longer than the tolerance, distances below the largest number."
  },
  {
   "property": "C35",
   "status": "proved",
   "theorems": [
    "C35_values",
    "C35_partition_of_unity",
    "C35_exact_degrees",
    "C35_degree_21_refuted",
    "C35_division_by_zero_refuted"
   ],
   "note": "Exact reals, 64-bit factorials as in the code: 20 is exactly the largest degree that works; from 66 on the program divides by zero (finding)."
  },
  {
   "property": "C36",
   "status": "proved",
   "theorems": [
    "C36_de_casteljau",
    "C36_end_points",
    "C36_convex_hull",
    "C36_affine_invariant",
    "C36_reversal",
    "C36_single_point_refuted",
    "C36_many_points_refuted",
    "C36_linear_precision"
   ],
   "note": "Exact reals, 2 to 21 control points; a single point gives the zero vector (finding)."
  },
  {
   "property": "C37",
   "status": "proved",
   "theorems": [
    "C37_reads_back",
    "C37_order_65535_refuted",
    "C37_curve_of_curves",
    "C37_corners",
    "C37_sides",
    "C37_convex_hull",
    "C37_order_zero_refuted",
    "C37_linear_precision"
   ],
   "note": "Addressing for orders up to 65534 (32-bit arithmetic), evaluation for orders 1 to 20; order 0 evaluates to zero (finding)."
  },
  {
   "property": "C38",
   "status": "partial",
   "theorems": [
    "C38_addresses_partial",
    "C38_small_orders",
    "C38_corner_lost_refuted"
   ],
   "note": "True for orders up to 2. For every order from 3 on the corner (0, order) cannot be stored (finding); the theorem says exactly which places are lost, and that no place overwrites another."
  },
  {
   "property": "C39",
   "status": "proved",
   "theorems": [
    "C39_interpolates",
    "C39_clamped",
    "C39_continuously_differentiable",
    "C39_natural_cubic",
    "C39_no_expansion_is_polyline",
    "C39_linear_refuted",
    "C39_single_point_refuted",
    "C39_index_in_range"
   ],
   "note": "The spline takes the i-th point at i/(n-1), is continuously differentiable, and with expansion 1 is the natural cubic spline. Without expansion it follows the polyline, but not with linear parametrisation. Building from fewer than two points leaves the old curve. The polynomial index is in range also in binary64."
  },
  {
   "property": "C40",
   "status": "proved",
   "theorems": [
    "C40_always_defined",
    "C40_history",
    "C40_convex_combination",
    "C40_convex_hull",
    "C40_local",
    "C40_order_one_is_polyline",
    "C40_ends_refuted",
    "C40_last_spans_refuted",
    "C40_order_first_refuted"
   ],
   "note": "Evaluation is always defined and is a combination with non-negative weights of existing control points, local in the knots; the weights sum to one up to the order-th knot from the end. Beyond it, and at and after the last knot, they do not: the curve never reaches its last control point. SetOrder on an empty spline leaves order 0."
  },
  {
   "property": "C49",
   "status": "proved",
   "theorems": [
    "C49_projection_never_stale",
    "C49_transform2_never_stale",
    "C49_transform3_never_stale",
    "C49_default_fov_refuted"
   ],
   "note": "Every matrix returned in any sequence of calls is that of the values last set. The documented default field of view is not the actual one."
  },
  {
   "property": "C50",
   "status": "proved",
   "theorems": [
    "C50_turn_rotates",
    "C50_rotate_meaning",
    "C50_turn_is_rigid",
    "C50_turn_order_refuted",
    "C50_turn_plane_refuted",
    "C50_turn_plane_general_refuted"
   ],
   "note": "In space the position turns about the pivot. The orientation turns along only if GaussianLib's quaternion product applies the left factor first, which the repository does not show: both cases are stated. In the plane Turn is not a rotation."
  },
  {
   "property": "C60",
   "status": "proved",
   "theorems": [
    "C60_directions",
    "C60_unit_and_perpendicular",
    "C60_handedness_refuted",
    "C60_epsilon_refuted",
    "C60_skew_refuted"
   ],
   "note": "Unit vectors, tangents perpendicular to the normal, tangent along the first and bitangent against the second texture direction. The handedness is not fixed: it follows the texture's. For mirrored triangles with a sine below epsilon the tangents point the wrong way."
  },
  {
   "property": "C51",
   "status": "partial",
   "theorems": [
    "C51_only_append",
    "C51_returns",
    "C51_returns_refuted"
   ],
   "note": "All twelve generators, all target meshes: whenever a generator returns it has only appended; it returns without assertion failure or undefined behaviour for fewer than 2^32 vertices. A segment count of 2^32-1 makes a loop endless (finding)."
  },
  {
   "property": "C52",
   "status": "proved",
   "theorems": [
    "C52_counts"
   ],
   "note": "All twelve generators."
  },
  {
   "property": "C53",
   "status": "partial",
   "theorems": [
    "C53_oriented_partial",
    "C53_watertight_partial",
    "C53_oriented_refuted"
   ],
   "note": "Proved up to 2^32 new vertices; beyond, indices wrap and triangles are generated twice (finding)."
  },
  {
   "property": "C54",
   "status": "proved",
   "theorems": [
    "C54_alternate_grid"
   ],
   "note": "All twelve generators; the triangle lists differ only in the diagonals of quadrilaterals."
  },
  {
   "property": "C55",
   "status": "partial",
   "theorems": [
    "C55_on_surface",
    "C55_torus_equation",
    "C55_unit_normals_partial",
    "C55_cone_normals",
    "C55_cone_normals_refuted"
   ],
   "note": "All vertices are on the surface; normals are unit vectors except on cone mantles, whose inner rows have shorter normals (finding)."
  },
  {
   "property": "C56",
   "status": "partial",
   "theorems": [
    "C56_indices_partial",
    "C56_ellipsoid_wraps",
    "C56_indices_refuted"
   ],
   "note": "Holds up to 2^32 new vertices and fails beyond (finding); the limit is sharp for ellipsoids."
  },
  {
   "property": "C68",
   "status": "partial",
   "theorems": [
    "C68_closed_partial",
    "C68_spiral",
    "C68_spiral_refuted"
   ],
   "note": "Proved up to 2^32 new vertices for all generators of solids with their covers; a spiral with both covers is closed if and only if turns times segments is a whole number: otherwise the top cover is not attached to the tube (finding)."
  },
  {
   "property": "C69",
   "status": "partial",
   "theorems": [
    "C69_front_is_normal_partial",
    "C69_front_is_outside",
    "C69_front_is_normal_refuted",
    "C69_spiral",
    "C69_spiral_third_refuted",
    "C69_tube_sides",
    "C69_tube_outside",
    "C69_tube_flat_refuted"
   ],
   "note": "Outside: all cuboids, ellipsoids, cones, cylinders and capsules with positive extents. Normals: these, pies, pipes and tori if cross sections are circles; on elliptic cylinders stored normals can look to the back (finding). Up to 2^32 vertices. Spirals with round tubes: two corners of each triangle of the tube (the normal of the third may look to the back on steep spirals, refuted); all corners of the covers, where the stored top normals are wrong (C74). Tubes around closed curves and torus knots: an exact formula for two corners of each triangle, and outside for steps that are longer than the radius and bend little; with three segments such a tube is flat (finding). Bezier patches: C75."
  },
  {
   "property": "C70",
   "status": "partial",
   "theorems": [
    "C70_in_image",
    "C70_torus",
    "C70_spiral",
    "C70_torus_refuted"
   ],
   "note": "Proved for all generators except tori and spirals; pipes need 0 <= inner <= outer radius and positive outer radius. Tori use [-1,0] instead of [0,1] (refuted). Spirals use [-turns, 1]."
  },
  {
   "property": "C71",
   "status": "partial",
   "theorems": [
    "C71_not_mirrored",
    "C71_pipe",
    "C71_curve_refuted"
   ],
   "note": "Proved for cuboids, ellipsoids, cones, cylinders, pies (angle below a full turn), capsules, tori, spirals and Bezier patches; pipes of circles are mirrored exactly on the inner mantle, tubes around curves and torus knots everywhere except at the seams (findings). Up to 2^32 vertices."
  },
  {
   "property": "C72",
   "status": "proved",
   "theorems": [
    "C72_parameters"
   ],
   "note": "All twelve generators; radii are not zero where the surface would be degenerate (pipes: positive)."
  },
  {
   "property": "C73",
   "status": "partial",
   "theorems": [
    "C73_rings_partial",
    "C73_seam",
    "C73_knots_closed",
    "C73_knot_is_tube",
    "C73_vertical_refuted",
    "C73_open_refuted"
   ],
   "note": "Proved for closed curves, and for open curves up to the last two rings, where the step is not vertical. Refuted: on a vertical step the ring collapses to a point with zero normals; on open curves the last rings are aligned to the start of the curve."
  },
  {
   "property": "C74",
   "status": "partial",
   "theorems": [
    "C74_perpendicular_partial",
    "C74_cone_refuted",
    "C74_spiral_refuted",
    "C74_ellipsoid_refuted",
    "C74_cylinder_refuted"
   ],
   "note": "Proved for cuboids, spheres, and cylinders, pipes, pies, capsules with circular cross sections and tori of equal proportions. Refuted (findings): on cones normals are right at one height only; on spirals they ignore the slope, and the normal of the top cover has the wrong sign in z; ellipsoids and elliptic cylinders are lit like spheres and circular cylinders. Tubes around curves and torus knots: see C73. Bezier patches: see C75."
  },
  {
   "property": "C75",
   "status": "proved",
   "theorems": [
    "C75_normals",
    "C75_flat_normals",
    "C75_flat_front"
   ],
   "note": "Chords have parameter length 1/100. Flat patches: control points on a grid of parallelograms, order 1 to 20, up to 2^32 vertices for the front."
  },
  {
   "property": "C76",
   "status": "proved",
   "theorems": [
    "C76_velocity",
    "C76_end_velocities"
   ],
   "note": "2 to 21 control points: beyond, the factorials of the weights overflow (C35, C36)."
  },
  {
   "property": "C77",
   "status": "proved",
   "theorems": [
    "C77_winds",
    "C77_on_torus",
    "C77_knot_iff_coprime"
   ],
   "note": "Radii of the ring are not zero; inner radius at least 1 (above 1 for the last theorem, the default is 2)."
  },
  {
   "property": "C78",
   "status": "partial",
   "theorems": [
    "C78_center_size",
    "C78_integer_center_partial",
    "C78_integer_center_refuted",
    "C78_integer_size",
    "C78_double_center",
    "C78_double_center_refuted"
   ],
   "note": "Exact for real bounds and, if defined, for integers. In double precision the center is inside of the box unless a sum of bounds overflows. The center of an integer box is undefined behaviour if the sum of two bounds overflows, although center and size are representable (finding)."
  },
  {
   "property": "C79",
   "status": "partial",
   "theorems": [
    "C79_from_corners",
    "C79_from_axes",
    "C79_flat_box_refuted",
    "C79_update_refuted"
   ],
   "note": "Constructors are exact. UpdateHalfSize sets all half sizes of an already updated box to one (finding); flat boxes cannot be built from axes (finding). Boxes from corners assume that vectors are zero-initialized."
  },
  {
   "property": "C80",
   "status": "partial",
   "theorems": [
    "C80_angle_sum",
    "C80_angle_of_corner",
    "C80_base_height",
    "C80_area_and_angle",
    "C80_area_adds_up",
    "C80_area_sign_refuted"
   ],
   "note": "Angles: 2D and 3D. Area: 2D, negative for clockwise triangles (finding); the 3D function returns a vector as a scalar and cannot be instantiated (finding). Gs::Angle is modelled as the arc cosine of the normalized product."
  },
  {
   "property": "C81",
   "status": "partial",
   "theorems": [
    "C81_matrix_of_frames",
    "C81_sampling_safe",
    "C81_sampling_after_clear_refuted",
    "C81_late_start_refuted"
   ],
   "note": "Proved for sequences whose first keyframe is at frame 0; others show the pose of the wrong frame (finding), and sampling after ClearKeys reads outside of the arrays (finding). Gs::Slerp is an arbitrary function; matrix functions of GaussianLib are modelled by their meaning."
  },
  {
   "property": "C82",
   "status": "proved",
   "theorems": [
    "C82_oneshot_pose",
    "C82_oneshot_end_pose",
    "C82_loop_pose",
    "C82_loop_backward_pose",
    "C82_pingpong_pose"
   ],
   "note": "Real time steps; sequences that begin at frame 0. The end pose needs that interpolating between equal rotations has no effect. One-shot playbacks at negative speed stop at once (C07)."
  },
  {
   "property": "C83",
   "status": "partial",
   "theorems": [
    "C83_origin_irrelevant",
    "C83_volume_partial",
    "C83_volume_converges_partial",
    "C83_spiral_partial",
    "C83_spiral_converges_partial"
   ],
   "note": "Exact volume for all extents and segment counts with all covers, up to 2^32 vertices, spirals of every shape included. Missing: knots and tubes around curves."
  },
  {
   "property": "C84",
   "status": "proved",
   "theorems": [
    "C84_smooth",
    "C84_rising",
    "C84_order_one_kink_refuted"
   ],
   "note": "Real scalars. Between the first and the last knot; rising up to the order-th knot from the end, where the weights sum to one (C40). Order one is only continuous."
  },
  {
   "property": "C85",
   "status": "proved",
   "theorems": [
    "C85_distance",
    "C85_point_relation",
    "C85_front",
    "C85_box_relation",
    "C85_agree",
    "C85_axis_exact",
    "C85_on_plane_refuted"
   ],
   "note": "IEEE binary64, rounding to nearest, no contraction to fused operations; the products of Gs::Dot (absent) are added from left to right. The refutation shows that the bound cannot be dropped: a point exactly on a plane can be put behind it."
  },
  {
   "property": "C86",
   "status": "partial",
   "theorems": [
    "C86_corners_partial",
    "C86_corner_lost_refuted",
    "C86_rectangle_refuted",
    "C86_box_of_reported",
    "C86_box_partial",
    "C86_box_refuted"
   ],
   "note": "The claim does not hold of the code: a corner behind the world origin along its edge is reported as (0, 0, 0), because the edge is intersected as a ray; this happens to at least one corner of every rectangular far side, and the box then misses points of the frustum. Proved: exactly which corners are lost, the box is least around what is reported, and the full claim where no corner is lost."
  },
  {
   "property": "C87",
   "status": "partial",
   "theorems": [
    "C87_parts_add_up_partial",
    "C87_never_less",
    "C87_overlap_refuted"
   ],
   "note": "Exact if no corner is nearer to the plane than the tolerance without being on it. Otherwise a sliver next to such a corner is in both meshes (finding); nothing is ever lost."
  },
  {
   "property": "C88",
   "status": "proved",
   "theorems": [
    "C88_loop_any_arithmetic",
    "C88_pingpong_any_arithmetic",
    "C88_oneshot_any_arithmetic",
    "C88_backward_any_arithmetic",
    "C88_loop_drift",
    "C88_pingpong_drift",
    "C88_oneshot_drift",
    "C88_same_frame_refuted"
   ],
   "note": "Drift is bounded for forward playback with at most 2^50 frames per update. The exact frame is not always shown: ten updates of 0.1 s at one frame per second do not reach the second frame (finding)."
  },
  {
   "property": "C89",
   "status": "proved",
   "theorems": [
    "C89_bounding_box",
    "C89_new_vertices",
    "C89_division_points",
    "C89_within_shape",
    "C89_extent",
    "C89_exact",
    "C89_close"
   ],
   "note": "Real arithmetic. Pies, spirals, knots, curves and Bezier patches are not part of it; the tube of a torus must not be thicker than its ring."
  },
  {
   "property": "C90",
   "status": "partial",
   "theorems": [
    "C90_open_only_along_plane_partial",
    "C90_borders_partial",
    "C90_volumes_partial",
    "C90_generated_solids",
    "C90_tolerance_refuted"
   ],
   "note": "Exact reals; edges are compared by positions. Proved if no corner is nearer to the plane than the tolerance without being on it, in particular always for tolerance 0. Otherwise false (finding): the edge between a corner within the tolerance and a corner far from the plane is split in one of its two triangles only."
  },
  {
   "property": "C91",
   "status": "partial",
   "theorems": [
    "C91_first_hit",
    "C91_start_inside",
    "C91_test",
    "C91_nan_ignored",
    "C91_unbounded",
    "C91_corner_refuted",
    "C91_behind_refuted"
   ],
   "note": "Everything but the last sentence is proved. Refuted (findings): a ray through a corner of a box can be missed, because 49 * (1/49) < 1, and a box behind the origin by a denormalized number is reported at parameter 0."
  },
  {
   "property": "C92",
   "status": "partial",
   "theorems": [
    "C92_play_again",
    "C92_play_again_any",
    "C92_pingpong_refuted"
   ],
   "note": "Proved for the one-shot, loop and list listeners. Refuted (finding) for the ping-pong listener: it swaps the ends of the range, so playing again after an odd number of turns plays the range backwards; the speed is kept there too."
  },
  {
   "property": "C93",
   "status": "partial",
   "theorems": [
    "C93_cut",
    "C93_crack_refuted",
    "C93_lost_refuted"
   ],
   "note": "Proved for triangles without corners within the tolerance, if the tolerance is at least one part in 2^47 of the terms of the distances. Refuted (findings): triangles that share an edge are cut at different points of it (the result depends on the direction of the edge), so that cutting a mesh opens cracks; with coordinates that are large for the tolerance a part of a triangle is lost, because its polygon has only two corners."
  },
  {
   "property": "C94",
   "status": "partial",
   "theorems": [
    "C94_interpolator",
    "C94_steady",
    "C94_sample",
    "C94_end_refuted"
   ],
   "note": "Proved for the built tracks, and for samples with parameters from 0 to below 1, for Gs::Lerp as (b - a) * t + a. Refuted (finding) for the parameter 1: the sample may go beyond the second frame, and a positive scaling may become zero."
  },
  {
   "property": "C95",
   "status": "partial",
   "theorems": [
    "C95_end_points",
    "C95_accuracy",
    "C95_in_box",
    "C95_hull_refuted"
   ],
   "note": "The ends and the accuracy are proved; that the curve never leaves the box is refuted: rounding takes a curve with equal control points out of them. The accuracy of std::pow is a hypothesis (accurate_pow), met by the correctly rounded function (good_pow_accurate)."
  },
  {
   "property": "C96",
   "status": "partial",
   "theorems": [
    "C96_point",
    "C96_sphere",
    "C96_unit",
    "C96_hull",
    "C96_exact_refuted"
   ],
   "note": "Everything but the last sentence is proved; as in C57 the sides are those of the mirrored point with the opposite sign. The last sentence is refuted: a point exactly on a side is reported outside. The length is taken to be the rounded square root of the rounded dot product (GaussianLib is not in the repository)."
  },
  {
   "property": "C97",
   "status": "partial",
   "theorems": [
    "C97_sure_hit",
    "C97_reported",
    "C97_coordinates",
    "C97_accuracy",
    "C97_no_leak",
    "C97_leak_refuted",
    "C97_nan_refuted"
   ],
   "note": "Proved: sure hits, reported hits, sign, sum and accuracy of finite coordinates, and that no ray slips through if the common edge is the last edge (c to a) of one triangle and the first or second one of the other, because the two edge values are then computed with opposite signs. Refuted: if the common edge is the second one (b to c) of both triangles, a ray through a point of the common edge that is far from all other edges misses both; and a ray from far away that misses a triangle is reported to hit it, with undefined coordinates. Products are taken to be added from left to right (GaussianLib is not in the repository)."
  },
  {
   "property": "C98",
   "status": "partial",
   "theorems": [
    "C98_cylinder",
    "C98_seam",
    "C98_rims",
    "C98_torus",
    "C98_seam_refuted",
    "C98_rims_refuted"
   ],
   "note": "Proved: the distances from the exact points for cylinders and tori, the width of the seam, and that covers and mantle fit exactly for up to 48 rows and rings. Refuted: with 8 columns the seam is never exactly closed, whatever the sine is, because twice the number pi in double precision is not a full turn; with 49 rings the rim of a cover is not the last row of the mantle, because 49 * (1 / 49) is rounded to less than 1."
  },
  {
   "property": "C99",
   "status": "partial",
   "theorems": [
    "C99_sure_hit",
    "C99_reported",
    "C99_on_sphere",
    "C99_point",
    "C99_graze_refuted"
   ],
   "note": "Proved: sure hits, reported hits, the sign of the parameter and that its point is on the sphere up to the slack. Refuted without the slack: from far away, a ray through the inside of a sphere is reported to miss it, and a ray that passes the sphere at a quarter of its radius is reported to hit it, because the square of the distance absorbs the squares of the small coordinates."
  },
  {
   "property": "C100",
   "status": "partial",
   "theorems": [
    "C100_mantle",
    "C100_order",
    "C100_grid",
    "C100_cover",
    "C100_face",
    "C100_edges",
    "C100_edges_refuted"
   ],
   "note": "Proved: coordinates in the image, their order and accuracy, and the extent of faces. The last column is exactly at half the size for up to 48 segments; refuted in general: with 49 segments the last column of a face of size 1 falls short of 1/2. The turning of the faces into place (a quaternion of GaussianLib) is not modelled."
  },
  {
   "property": "C101",
   "status": "partial",
   "theorems": [
    "C101_near",
    "C101_through",
    "C101_joints",
    "C101_first",
    "C101_last",
    "C101_last_refuted",
    "C101_nan_refuted"
   ],
   "note": "Proved: accuracy at every parameter, at the control points and at the joints, the first point exactly. Refuted: that the curve ends exactly at its last point (the default spline through 0, 2, 1 ends at 1 + 2^-52), and that NaN is a harmless parameter."
  },
  {
   "property": "C102",
   "status": "partial",
   "theorems": [
    "C102_near",
    "C102_local",
    "C102_octant",
    "C102_outside",
    "C102_close_knots_refuted"
   ],
   "note": "Proved for knots that are equal or at least 2^-500 apart. Refuted without that: with the knots 0, 2^-1074 and 1 the polyline at 1/2 is NaN."
  },
  {
   "property": "C103",
   "status": "partial",
   "theorems": [
    "C103_near",
    "C103_no_nearer",
    "C103_distance",
    "C103_ends",
    "C103_beyond_refuted",
    "C103_short_refuted"
   ],
   "note": "Proved for segments of length at least 2^-200 and coordinates up to 2^200. Refuted: that the result lies within the segment's box (the closest point to (3, 4, 0) on the segment from the origin to (3, 4, 0) is (3 + 2^-51, 4, 0)), and that short segments work."
  },
  {
   "property": "C104",
   "status": "partial",
   "theorems": [
    "C104_accuracy",
    "C104_in_box",
    "C104_sides",
    "C104_no_gap",
    "C104_corners",
    "C104_hull_refuted"
   ],
   "note": "The accuracy, the sides, the corners and the meeting of neighbouring patches are proved; that the patch never leaves the box is refuted (C104_hull_refuted): rounding takes a patch with equal control points out of them. The accuracy of std::pow is a hypothesis (accurate_pow), met by the correctly rounded function."
  },
  {
   "property": "C105",
   "status": "partial",
   "theorems": [
    "C105_apart",
    "C105_across",
    "C105_segment_point",
    "C105_towards",
    "C105_away",
    "C105_ray_point",
    "C105_away_refuted",
    "C105_closest"
   ],
   "note": "Proved for segments and rays up to about 2^500. Refuted: that a ray leading away is never reported to hit; if it starts 2^-600 in front of the plane with a direction of length 2^500, the quotient underflows to -0, which is not less than 0. A ray that is nearly parallel can be reported to hit at infinity; the accuracy theorem is about finite points."
  },
  {
   "property": "C106",
   "status": "partial",
   "theorems": [
    "C106_ellipsoid",
    "C106_surface",
    "C106_closed",
    "C106_cone",
    "C106_cone_cover",
    "C106_cone_rims",
    "C106_cone_rims_refuted"
   ],
   "note": "The conversion of spherical coordinates is not in the repository and is taken to be sin theta * cos phi, sin theta * sin phi, cos theta. Refuted: that mantle and bottom of a cone always meet exactly; with 49 rings the rim of the bottom is smaller than that of the mantle."
  },
  {
   "property": "C107",
   "status": "partial",
   "theorems": [
    "C107_mantles",
    "C107_covers",
    "C107_inner_rims",
    "C107_outer_rims",
    "C107_outer_rims_refuted"
   ],
   "note": "Refuted: that the outer rims of the covers have the vertices of the outer mantle. The vertices come from Lerp(inner, outer, 1), computed as (outer - inner) * 1 + inner, and (0.9 - 0.2) + 0.2 is less than 0.9."
  },
  {
   "property": "C108",
   "status": "partial",
   "theorems": [
    "C108_caps",
    "C108_closed",
    "C108_rims",
    "C108_rims_refuted"
   ],
   "note": "The conversion of spherical coordinates is not in the repository and is taken to be sin theta * cos phi, sin theta * sin phi, cos theta. Refuted: that half-sphere and mantle share the vertices of the rim; the cosine of the rounded quarter turn is not 0."
  },
  {
   "property": "C109",
   "status": "partial",
   "theorems": [
    "C109_image",
    "C109_near",
    "C109_image_refuted"
   ],
   "note": "Refuted without the bound on the radii: with the smallest positive number as radius, 1 / (2 * radius) is infinite and so are texture coordinates."
  },
  {
   "property": "C110",
   "status": "partial",
   "theorems": [
    "C110_cartesian",
    "C110_corners",
    "C110_between",
    "C110_between_refuted",
    "C110_barycentric",
    "C110_sum",
    "C110_third",
    "C110_first",
    "C110_second",
    "C110_first_refuted"
   ],
   "note": "Refuted: interpolating three equal values 0.7 with weights that add up to exactly 1 can give a larger value; the first corner of the triangle (7, 3, 0), (0, 0, 0), (0, 7, 0) has the first coordinate 0.9999999999999999."
  },
  {
   "property": "C111",
   "status": "partial",
   "theorems": [
    "C111_lower",
    "C111_attained",
    "C111_misses",
    "C111_meets",
    "C111_point",
    "C111_closest",
    "C111_unsigned_refuted"
   ],
   "note": "Refuted: the distance of a box is not unsigned, as for exact numbers (C64). Oriented boxes: see C112."
  },
  {
   "property": "C112",
   "status": "proved",
   "theorems": [
    "C112_lower",
    "C112_attained",
    "C112_misses",
    "C112_meets"
   ],
   "note": ""
  },
  {
   "property": "C113",
   "status": "partial",
   "theorems": [
    "C113_member",
    "C113_first",
    "C113_second_refuted",
    "C113_flip"
   ],
   "note": "Refuted for the second point: the plane through (1, 0, 0), (0, 3, 0) and (0, 0, 7) has signed distance -2^-53 to (0, 3, 0)."
  },
  {
   "property": "C114",
   "status": "partial",
   "theorems": [
    "C114_near",
    "C114_swap",
    "C114_degenerate",
    "C114_rotate_refuted"
   ],
   "note": "Refuted for turning the corners around: the triangle (1, 0, 0), (0, 2^-60, 0), (2^-59, 2^-60, 0) has the normal 0 when computed at its first corner, but not at its second one."
  },
  {
   "property": "C115",
   "status": "partial",
   "theorems": [
    "C115_near",
    "C115_origin",
    "C115_forward",
    "C115_moves_refuted"
   ],
   "note": "Refuted for strict movement: the ray from (1, 1, 1) along (1, 1, 1) has the same point at 0 and at 2^-60."
  }
 ]
}