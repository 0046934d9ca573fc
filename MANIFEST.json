{
 "claims": [
  {
   "property": "C01",
   "status": "proved",
   "theorems": [
    "C01_draws_in_range",
    "C01_stream_in_range"
   ],
   "note": "Z model, all histories of API calls."
  },
  {
   "property": "C02",
   "status": "proved",
   "theorems": [
    "C02_full_period",
    "C02_bad_seeds_refuted"
   ],
   "note": "Z model. The two 32-bit seeds divisible by 2^31-1 are a finding (zero stream)."
  },
  {
   "property": "C03",
   "status": "proved",
   "theorems": [
    "C03_float_ranges",
    "C03_float_range_ab",
    "C03_float_incl_ab",
    "C03_overflow_refuted"
   ],
   "note": "binary32 (Flocq). Also covers Float(a,b) and FloatIncl(a,b); finding when b-a overflows."
  },
  {
   "property": "C04",
   "status": "proved",
   "theorems": [
    "C04_int_range",
    "C04_overflow_undefined"
   ],
   "note": "binary32 (Flocq); also shows the clamp after the computation is dead code."
  },
  {
   "property": "C05",
   "status": "proved",
   "theorems": [
    "C05_intfast_nonzero",
    "C05_multiplier_one_refuted"
   ],
   "note": "Z model, every state; multiplier 1 is a finding."
  },
  {
   "property": "C06",
   "status": "proved",
   "theorems": [
    "C06_half_round_trip",
    "C06_half_round_trip_refuted",
    "C06_positive_infinity_becomes_negative_refuted"
   ],
   "note": "All 2^16 patterns. The unrestricted round trip is false: every positive infinity or NaN comes back with the sign bit set (255<<10 overflows the 16-bit word)."
  },
  {
   "property": "C07",
   "status": "proved",
   "theorems": [
    "C07_half_decode_value",
    "C07_half_denormal_refuted"
   ],
   "note": "All patterns; every half denormal is decoded 2^112 times too small."
  },
  {
   "property": "C08",
   "status": "proved",
   "theorems": [
    "C08_half_truncates",
    "C08_half_out_of_range"
   ],
   "note": "All float words; values are exact real numbers."
  },
  {
   "property": "C09",
   "status": "proved",
   "theorems": [
    "C09_minifloat_round_trip",
    "C09_minifloat_infinity_refuted"
   ],
   "note": "Every layout and pattern."
  },
  {
   "property": "C10",
   "status": "proved",
   "theorems": [
    "C10_is_pow2",
    "C10_round_up",
    "C10_round_down",
    "C10_round_multiple"
   ],
   "note": "All 32/64-bit words, wrap-around modelled."
  },
  {
   "property": "C11",
   "status": "proved",
   "theorems": [
    "C11_count_bits",
    "C11_masks",
    "C11_masks64",
    "C11_pack_extract",
    "C11_extract_lsb",
    "C11_extract_lsb_high_refuted",
    "C11_binary_string"
   ],
   "note": "All words; the ExtractLSB defect for high bits is a refutation."
  },
  {
   "property": "C12",
   "status": "proved",
   "theorems": [
    "C12_tab",
    "C12_tab_outside",
    "C12_rec",
    "C12_rec_outside_refuted",
    "C12_factorial",
    "C12_factorial_overflow"
   ],
   "note": "Loops and recursion for all n,k; int overflow is modelled. CombinatorialRec answers 1 outside 0..n."
  },
  {
   "property": "C13",
   "status": "proved",
   "theorems": [
    "C13_pow_uint",
    "C13_pow_int",
    "C13_pow_int_min"
   ],
   "note": "Real arithmetic, all exponents."
  },
  {
   "property": "C14",
   "status": "proved",
   "theorems": [
    "C14_float",
    "C14_double"
   ],
   "note": "All bit patterns of float and double."
  },
  {
   "property": "C15",
   "status": "proved",
   "theorems": [
    "C15_add",
    "C15_add_narrow",
    "C15_sub",
    "C15_add_sub_defined",
    "C15_compare",
    "C15_compare_int",
    "C15_int_frac",
    "C15_mul_precise",
    "C15_mul_precise_defined",
    "C15_mul_precise_overflow_refuted",
    "C15_mul_extra_fast",
    "C15_div_extra_fast",
    "C15_ratio_constructor",
    "C15_int_operands",
    "C15_mul_fast"
   ],
   "note": "All widths and formats; the header's no-overflow claim for MulPrecise is refuted for 16.16."
  },
  {
   "property": "C16",
   "status": "proved",
   "theorems": [
    "C16_min",
    "C16_max",
    "C16_min_max_many",
    "C16_clamp",
    "C16_clamp01_f32"
   ],
   "note": "Generic over ordered scalars; instances for the reals and for non-NaN binary32."
  },
  {
   "property": "C17",
   "status": "proved",
   "theorems": [
    "C17_modpos",
    "C17_frac",
    "C17_round",
    "C17_pingpong",
    "C17_pingpong_negative_refuted",
    "C17_modpos_f32",
    "C17_frac_f32",
    "C17_f32_half_open_refuted"
   ],
   "note": "Real arithmetic: half-open ranges. Binary32: closed ranges for every finite input, and the half-open ranges refuted. PingPongMod refuted for negative input."
  },
  {
   "property": "C18",
   "status": "proved",
   "theorems": [
    "C18_two_roots",
    "C18_no_roots",
    "C18_one_root",
    "C18_outcomes"
   ],
   "note": "Real arithmetic; the one-root branch with its exact tolerance."
  },
  {
   "property": "C19",
   "status": "proved",
   "theorems": [
    "C19_enclose_history",
    "C19_enclose_order",
    "C19_from_negative_infinity_f32",
    "C19_set_from_points_f32",
    "C19_enclose_shapes",
    "C19_set_from_shapes"
   ],
   "note": "Exact in binary32 for points, boxes, segments, triangles; over R for spheres, OBBs, capsules."
  },
  {
   "property": "C20",
   "status": "proved",
   "theorems": [
    "C20_contains_point",
    "C20_contains_box",
    "C20_intersection",
    "C20_disjoint",
    "C20_symmetric",
    "C20_intersects",
    "C20_contains_shapes"
   ],
   "note": "Order-only parts hold in binary32 as well as R."
  },
  {
   "property": "C21",
   "status": "proved",
   "theorems": [
    "C21_closest_inside",
    "C21_closest_nearest",
    "C21_distance",
    "C21_closest_nearest_f32"
   ],
   "note": ""
  },
  {
   "property": "C22",
   "status": "proved",
   "theorems": [
    "C22_box_sphere"
   ],
   "note": "Over R."
  },
  {
   "property": "C23",
   "status": "proved",
   "theorems": [
    "C23_line_box",
    "C23_ray_and_line",
    "C23_segment",
    "C23_near_parallel_refuted"
   ],
   "note": "Over R; the refuted theorem records the near-parallel tolerance finding."
  },
  {
   "property": "C24",
   "status": "proved",
   "theorems": [
    "C24_extreme_point",
    "C24_project_to_axis",
    "C24_corners",
    "C24_edges",
    "C24_point_on_edge",
    "C24_point_on_edge_bijective",
    "C24_point_on_edge_numbering_refuted",
    "C24_faces",
    "C24_point_inside",
    "C24_minimal_enclosing_sphere",
    "C24_maximal_contained_sphere",
    "C24_extreme_points_of_array",
    "C24_volume_surface"
   ],
   "note": ""
  },
  {
   "property": "C25",
   "status": "proved",
   "theorems": [
    "C25_transform",
    "C25_translate_scale",
    "C25_quat_refuted",
    "C25_quat_actual"
   ],
   "note": " Finding: the quaternion overload of TransformAsAABB does not enclose the rotated box (C25_quat_refuted)."
  },
  {
   "property": "C26",
   "status": "proved",
   "theorems": [
    "C26_normalize",
    "C26_scale_to_length",
    "C26_clamp_length",
    "C26_clamp_length2",
    "C26_distance_metric",
    "C26_dot_cross"
   ],
   "note": "Real arithmetic."
  },
  {
   "property": "C27",
   "status": "proved",
   "theorems": [
    "C27_perpendicular",
    "C27_perpendicular_default",
    "C27_another_perpendicular",
    "C27_perpendicular_basis",
    "C27_perpendicular_basis_unnormalized_refuted"
   ],
   "note": "Real arithmetic. PerpendicularBasis is refuted for inputs that are not of unit length."
  },
  {
   "property": "C28",
   "status": "proved",
   "theorems": [
    "C28_reflect",
    "C28_project",
    "C28_decompose",
    "C28_refract_tangential",
    "C28_refract_straight_refuted"
   ],
   "note": "Real arithmetic. Refract obeys Snell's law only for the tangential part; its normal part is wrong (refuted)."
  },
  {
   "property": "C29",
   "status": "proved",
   "theorems": [
    "C29_orthogonalize",
    "C29_orthonormalize"
   ],
   "note": "Real arithmetic."
  },
  {
   "property": "C30",
   "status": "proved",
   "theorems": [
    "C30_InverseMatrix",
    "C30_InverseMatrix_complete",
    "C30_Inverse",
    "C30_Inverse_complete",
    "C30_InverseFast",
    "C30_InverseSymmetric",
    "C30_InverseOrthogonal",
    "C30_InverseOrthonormal",
    "C30_InverseTranspose",
    "C30_InverseFast_small_refuted"
   ],
   "note": "Gauss-Jordan for every matrix size; success means a two-sided inverse, and every invertible matrix is inverted once the tolerance is small enough. Refuted: IsInvertible/InverseFast reject small invertible matrices."
  },
  {
   "property": "C31",
   "status": "proved",
   "theorems": [
    "C31_SolveAxb",
    "C31_SolveAxb_complete"
   ],
   "note": "The returned x is the unique solution; failure implies the matrix nearly annihilates a vector of length at least one."
  },
  {
   "property": "C32",
   "status": "proved",
   "theorems": [
    "C32_product_composition",
    "C32_mixed_products",
    "C32_determinant",
    "C32_determinant4",
    "C32_linear",
    "C32_shear",
    "C32_predicates"
   ],
   "note": ""
  },
  {
   "property": "C33",
   "status": "proved",
   "theorems": [
    "C33_LU",
    "C33_LU_complete",
    "C33_LUDecompose",
    "C33_Cholesky_refuted",
    "C33_CholeskyDecompose_refuted",
    "C33_Cholesky_f32_refuted",
    "C33_CholeskyDecompose_f32_refuted",
    "C33_pivot",
    "C33_pivot4"
   ],
   "note": "LU correct and complete for every size. Cholesky is refuted: it never succeeds for sizes of at least two, over R and in binary32."
  },
  {
   "property": "C34",
   "status": "proved",
   "theorems": [
    "C34_affine_inverses",
    "C34_affine_templates_refuted",
    "C34_BatchTransform",
    "C34_BatchTransformDir_refuted",
    "C34_Adjugate",
    "C34_Adjugate_refuted",
    "C34_affine_templates"
   ],
   "note": ""
  },
  {
   "property": "C35",
   "status": "proved",
   "theorems": [
    "C35_rotation",
    "C35_composition",
    "C35_inverse",
    "C35_algebra",
    "C35_normalize",
    "C35_matrix_products",
    "C35_equals"
   ],
   "note": "Real arithmetic, scalar path."
  },
  {
   "property": "C36",
   "status": "proved",
   "theorems": [
    "C36_round_trip",
    "C36_back",
    "C36_sign",
    "C36_decompose"
   ],
   "note": "Real arithmetic; every branch of SetQuatFrom."
  },
  {
   "property": "C37",
   "status": "proved",
   "theorems": [
    "C37_matrix",
    "C37_quat",
    "C37_quat_parallel_refuted",
    "C37_LookAt"
   ],
   "note": "The matrix version is proved for all pairs of unit vectors. The quaternion version is proved away from (anti)parallel pairs; there it returns a half turn about X, which is a finding (C37_quat_parallel_refuted)."
  },
  {
   "property": "C38",
   "status": "proved",
   "theorems": [
    "C38_axis_angle",
    "C38_elementary",
    "C38_euler",
    "C38_axis_angle_of_quat"
   ],
   "note": "Real sine and cosine in place of the C library's."
  },
  {
   "property": "C39",
   "status": "proved",
   "theorems": [
    "C39_through_points",
    "C39_containing",
    "C39_distance",
    "C39_mirror",
    "C39_point",
    "C39_signed_distance_objects",
    "C39_signed_distance_ray_refuted",
    "C39_distance_objects"
   ],
   "note": "Over the reals. SignedDistance(Ray) pointing against the normal is wrong (refuted), a consequence of the typo in Ray::ProjectToAxis."
  },
  {
   "property": "C40",
   "status": "proved",
   "theorems": [
    "C40_transform",
    "C40_rotation",
    "C40_translate_actual",
    "C40_translate_refuted"
   ],
   "note": "Over the reals. Transform moves the point set but keeps a unit normal only for rotations; Translate moves the plane the wrong way (actual behaviour proved, stated behaviour refuted)."
  },
  {
   "property": "C41",
   "status": "proved",
   "theorems": [
    "C41_line",
    "C41_ray",
    "C41_segment",
    "C41_segment_sign",
    "C41_sphere_box_triangle",
    "C41_vertices",
    "C41_two_planes",
    "C41_parallel_planes",
    "C41_three_planes",
    "C41_three_planes_parallel_refuted",
    "C41_circle",
    "C41_closest_ray",
    "C41_closest_segment",
    "C41_closest_segment_parallel_refuted",
    "C41_contains",
    "C41_contains_line",
    "C41_contains_circle",
    "C41_sides",
    "C41_set_equals",
    "C41_parallel_opposite_refuted",
    "C41_dihedral_actual",
    "C41_dihedral_refuted",
    "C41_project_objects"
   ],
   "note": "Over the reals, outside the coded parallel tolerances; the refuted theorems record where the code departs from its documentation."
  },
  {
   "property": "C42",
   "status": "proved",
   "theorems": [
    "C42_clip_segment",
    "C42_clip_segment_from_plane_refuted",
    "C42_clip_line",
    "C42_clip_line_in_plane_refuted",
    "C42_clip_triangle"
   ],
   "note": "Over the reals. Segments: no tolerance needed; exception as refuted. Triangles: edges between 1e-6 and 1e4 long."
  },
  {
   "property": "C43",
   "status": "proved",
   "theorems": [
    "C43_line_line",
    "C43_line_ray",
    "C43_line_segment",
    "C43_ray_line",
    "C43_ray_ray",
    "C43_ray_segment",
    "C43_segment_line",
    "C43_segment_ray",
    "C43_segment_segment",
    "C43_point",
    "C43_distances_line",
    "C43_distances_ray",
    "C43_distances_segment",
    "C43_distance_sphere_capsule",
    "C43_segments_intersect",
    "C43_segment_line_parameters_swapped_refuted"
   ],
   "note": "over the reals, for unit directions and segments with two distinct ends, parallel ones included; the returned pair attains the minimum over the two point sets; finding: LineSegment::Distance(Line, d, d2) returns the two parameters in swapped order"
  },
  {
   "property": "C44",
   "status": "proved",
   "theorems": [
    "C44_contains_point",
    "C44_contains_shapes",
    "C44_contains_balls",
    "C44_intersect_line",
    "C44_line",
    "C44_ray",
    "C44_ray_count_refuted",
    "C44_segment",
    "C44_segment_point_refuted",
    "C44_distances",
    "C44_closest_point",
    "C44_plane_circle",
    "C44_extreme",
    "C44_project",
    "C44_project_refuted",
    "C44_transforms",
    "C44_boxes",
    "C44_maximal_box_refuted",
    "C44_volume",
    "C44_measures"
   ],
   "note": "over the reals; shapes as point sets; the _refuted theorems are findings about the code: ray count from inside, segment hit point, half-size maximal box, non-unit projection axis"
  },
  {
   "property": "C45",
   "status": "proved",
   "theorems": [
    "C45_enclose_point",
    "C45_enclose_shrinks_refuted",
    "C45_history",
    "C45_order",
    "C45_enclose_shapes",
    "C45_enclose_sphere",
    "C45_enclose_sphere_refuted",
    "C45_enclose_capsule",
    "C45_extend_radius",
    "C45_extend_history",
    "C45_fast",
    "C45_fast_refuted"
   ],
   "note": "over the reals, for radius at least 1 (or the exact per-call condition in C45_enclose_point); the _refuted theorems give spheres that lose points, a sphere that is not enclosed, and (in binary32) a NaN result for four corners of a square"
  },
  {
   "property": "C46",
   "status": "proved",
   "theorems": [
    "C46_barycentric",
    "C46_any_point",
    "C46_point",
    "C46_inside",
    "C46_contains",
    "C46_contains_seg_tri"
   ],
   "note": "BarycentricUVW inverts Point for every point of the plane; off the plane it projects along the main axis; Contains is characterised exactly including its 1e-3 and thickness tolerances."
  },
  {
   "property": "C47",
   "status": "proved",
   "theorems": [
    "C47_point",
    "C47_outline",
    "C47_segment",
    "C47_line",
    "C47_distances",
    "C47_triangle",
    "C47_small_refuted"
   ],
   "note": "Nearest points from a triangle to a point, its outline, a segment, a line, a sphere, a capsule and another triangle. Refuted: a small triangle crossed by a segment gets two different points."
  },
  {
   "property": "C48",
   "status": "proved",
   "theorems": [
    "C48_line_triangle",
    "C48_intersects",
    "C48_small_refuted"
   ],
   "note": "IntersectLineTri is characterised by an equivalence with its tolerances; line, ray and segment overloads follow. Refuted: the absolute determinant tolerance misses small triangles."
  },
  {
   "property": "C49",
   "status": "proved",
   "theorems": [
    "C49_box",
    "C49_degenerate_refuted"
   ],
   "note": "Both directions: true implies the closed sets meet, an open-box meeting implies true. Refuted: for a degenerate triangle inside the box it returns false."
  },
  {
   "property": "C50",
   "status": "proved",
   "theorems": [
    "C50_contains",
    "C50_contains_shapes",
    "C50_from_sphere",
    "C50_distances",
    "C50_closest",
    "C50_thin_refuted",
    "C50_extreme",
    "C50_project",
    "C50_height",
    "C50_cross_section",
    "C50_point_inside",
    "C50_point_inside_onto",
    "C50_surface",
    "C50_boxes",
    "C50_intersects",
    "C50_intersects_triangle",
    "C50_transforms",
    "C50_volume",
    "C50_ends"
   ],
   "note": "Exact reals. The smallest axis-aligned box, the oriented box touching on every side, and volume and surface included. Finding: ClosestPoint of a point outside a capsule but within 0.001 of its axis is not the nearest point (C50_thin_refuted). Triangle intersection is exact outside the tolerance of the line/triangle test."
  },
  {
   "property": "C51",
   "status": "proved",
   "theorems": [
    "C51_contains",
    "C51_corners",
    "C51_contains_shapes",
    "C51_contained",
    "C51_closest",
    "C51_sphere",
    "C51_extreme",
    "C51_project",
    "C51_plane",
    "C51_bounds",
    "C51_point_inside",
    "C51_edges",
    "C51_point_on_edge_actual",
    "C51_edge_numbering_refuted",
    "C51_faces",
    "C51_face_numbering_refuted",
    "C51_local",
    "C51_enclose",
    "C51_volume",
    "C51_transforms",
    "C51_transform_frame",
    "C51_transform_flat_refuted",
    "C51_scale",
    "C51_scale_uniform",
    "C51_scale_nonuniform_refuted",
    "C51_set_from",
    "C51_ray_and_line",
    "C51_segment",
    "C51_triangle",
    "C51_enclosing_sphere",
    "C51_extreme_points",
    "C51_fixed_orientation",
    "C51_compatible_edges",
    "C51_opposing_edges",
    "C51_antipodal",
    "C51_circle_faces",
    "C51_sorted_array_actual",
    "C51_sorted_array_refuted",
    "C51_diagonals"
   ],
   "note": "exact arithmetic; boxes with orthonormal axes. Refutations record index-numbering mismatches, flat-box transforms and the broken sorted search; ray/segment directions not nearly perpendicular to an axis without being exactly so."
  },
  {
   "property": "C52",
   "status": "proved",
   "theorems": [
    "C52_sat",
    "C52_disjoint",
    "C52_exact",
    "C52_tolerance",
    "C52_from_aabb",
    "C52_aabb",
    "C52_default_refuted"
   ],
   "note": "any non-negative epsilon; exactness for the epsilon-free test and the tolerance band for the default one"
  },
  {
   "property": "C53",
   "status": "proved",
   "theorems": [
    "C53_build_never_out_of_bounds",
    "C53_every_object_in_a_leaf",
    "C53_leaves_hold_only_objects",
    "C53_leaves_own_their_bucket"
   ],
   "note": "For every list of objects without NaN coordinates, in binary32."
  },
  {
   "property": "C54",
   "status": "proved",
   "theorems": [
    "C54_query_visits",
    "C54_query_outside_root",
    "C54_query_complete"
   ],
   "note": "For every list of objects and query box without NaN coordinates, in binary32, every early-stopping visitor."
  },
  {
   "property": "C55",
   "status": "proved",
   "theorems": [
    "C55_height",
    "C55_depth",
    "C55_nodes_reachable",
    "C55_counts",
    "C55_childIndex_fits",
    "C55_query_stack_safe",
    "C55_query_after_clear_refuted"
   ],
   "note": "Query after Clear dereferences a null root: proved as a refutation."
  },
  {
   "property": "C56",
   "status": "partial",
   "theorems": [
    "C56_ray_query_safe",
    "C56_ray_query_complete_partial",
    "C56_axis_parallel_refuted",
    "C56_near_split_exit_refuted"
   ],
   "note": "Safety holds in binary32 for every ray. Completeness in binary32 is false (two refutations); it is proved in exact arithmetic with infinities for rays that avoid the two refuted situations."
  },
  {
   "property": "C57",
   "status": "proved",
   "theorems": [
    "C57_contents",
    "C57_no_invalid_access",
    "C57_terminates",
    "C57_remove_after_clear_refuted",
    "C57_add_before_clear_refuted",
    "C57_growth_towards"
   ],
   "note": "Every scalar type (binary32 included), every rectangle; histories as documented (Clear first, an object stored at most once, objects of a cleared tree not removed). Termination over the reals for boxes of positive size. Outside that contract the refuted theorems show the invalid accesses."
  },
  {
   "property": "C58",
   "status": "proved",
   "theorems": [
    "C58_query_complete",
    "C58_query_complete_binary32",
    "C58_growth_binary32_refuted"
   ],
   "note": "Exact reals for every history with root growth; binary32 while the root does not grow. With root growth in binary32 the claim is false (refuted theorem)."
  },
  {
   "property": "C59",
   "status": "proved",
   "theorems": [
    "C59_pairs",
    "C59_pairs_binary32",
    "C59_touching_refuted"
   ],
   "note": "Each pair once and only intersecting pairs; complete for rectangles overlapping with positive area that both meet the query. Pairs that only touch can be missed (refuted theorem). Binary32 while the root does not grow."
  },
  {
   "property": "C60",
   "status": "proved",
   "theorems": [
    "C60_counts",
    "C60_height",
    "C60_children_tile",
    "C60_root_region"
   ],
   "note": "Counts and height for every scalar type; tiling over the reals."
  },
  {
   "property": "C61",
   "status": "proved",
   "theorems": [
    "C61_minifloat_decode_value",
    "C61_minifloat_truncates",
    "C61_unsigned_clamps_negative",
    "C61_unsigned_negative_denormal_refuted"
   ],
   "note": "Every layout; negative denormals in unsigned layouts are not clamped (refutation)."
  },
  {
   "property": "C62",
   "status": "proved",
   "theorems": [
    "C62_lerp_inverse",
    "C62_ramp",
    "C62_lerp_mod",
    "C62_sign",
    "C62_step",
    "C62_equal_rel"
   ],
   "note": ""
  },
  {
   "property": "C63",
   "status": "proved",
   "theorems": [
    "C63_ordinal_monotone",
    "C63_equal_ulps",
    "C63_equal_ulps_overflow_refuted"
   ],
   "note": "Bit-pattern model; overflow case refuted."
  },
  {
   "property": "C64",
   "status": "proved",
   "theorems": [
    "C64_smooth_start",
    "C64_smooth_stop",
    "C64_smooth_step",
    "C64_symmetry",
    "C64_smooth_step_flat"
   ],
   "note": "Real arithmetic."
  },
  {
   "property": "C65",
   "status": "proved",
   "theorems": [
    "C65_transform_ops",
    "C65_translate4",
    "C65_translate4_projective_refuted",
    "C65_about_point",
    "C65_ScaleAlongAxis_refuted"
   ],
   "note": ""
  },
  {
   "property": "C66",
   "status": "proved",
   "theorems": [
    "C66_view_volume",
    "C66_image"
   ],
   "note": ""
  },
  {
   "property": "C67",
   "status": "proved",
   "theorems": [
    "C67_Decompose",
    "C67_FromTRS",
    "C67_RemoveScale_refuted",
    "C67_remove_scale"
   ],
   "note": ""
  },
  {
   "property": "C68",
   "status": "proved",
   "theorems": [
    "C68_plane_matrices",
    "C68_LookAt",
    "C68_LookAt_eye"
   ],
   "note": ""
  },
  {
   "property": "C69",
   "status": "proved",
   "theorems": [
    "C69_elements",
    "C69_clamp",
    "C69_elements_f32",
    "C69_reductions",
    "C69_lerp",
    "C69_perpendicular",
    "C69_normalized",
    "C69_orthonormal_predicates",
    "C69_equals",
    "C69_componentwise"
   ],
   "note": ""
  },
  {
   "property": "C70",
   "status": "proved",
   "theorems": [
    "C70_length",
    "C70_normalize",
    "C70_scale_to_length",
    "C70_perp",
    "C70_project",
    "C70_reflect",
    "C70_lerp",
    "C70_elements",
    "C70_orthogonalize_refuted",
    "C70_orthogonalize_unit",
    "C70_refract_straight_refuted",
    "C70_negate"
   ],
   "note": ""
  },
  {
   "property": "C71",
   "status": "proved",
   "theorems": [
    "C71_predicates",
    "C71_enclose",
    "C71_distance",
    "C71_coordinates",
    "C71_transform"
   ],
   "note": ""
  },
  {
   "property": "C72",
   "status": "proved",
   "theorems": [
    "C72_extract",
    "C72_recover"
   ],
   "note": "All twelve orders, over the reals with the real arc functions."
  },
  {
   "property": "C73",
   "status": "proved",
   "theorems": [
    "C73_angles",
    "C73_spherical",
    "C73_spherical_small",
    "C73_spherical_back",
    "C73_spherical_normalized",
    "C73_polar",
    "C73_AngleBetween2",
    "C73_AngleBetween2_refuted"
   ],
   "note": "Finding: float2::AngleBetween divides the angle instead of the cosine by the lengths."
  },
  {
   "property": "C74",
   "status": "proved",
   "theorems": [
    "C74_lerp",
    "C74_slerp",
    "C74_slerp_vector",
    "C74_slerp_vector_abs",
    "C74_orientations",
    "C74_shortest_refuted",
    "C74_slerp_vector_refuted"
   ],
   "note": "Findings: AngleBetween is not the shortest route for quaternions with negative inner product; SlerpVector(a,a,t) leaves a."
  },
  {
   "property": "C75",
   "status": "proved",
   "theorems": [
    "C75_transforms",
    "C75_from_segment",
    "C75_cut",
    "C75_extreme",
    "C75_project_segment",
    "C75_project_line",
    "C75_project_ray",
    "C75_project_ray_negative_refuted",
    "C75_contains",
    "C75_contains_segment",
    "C75_contains_ray_refuted",
    "C75_equals_ray_segment",
    "C75_equals_line"
   ],
   "note": "over the reals; findings: Ray::ProjectToAxis uses -1e4 for -1e-4, Contains compares the squared distance with the threshold, Line::Contains(Ray) rejects rays on the line that point the other way"
  },
  {
   "property": "C76",
   "status": "proved",
   "theorems": [
    "C76_basis",
    "C76_points",
    "C76_extreme",
    "C76_closest_disc",
    "C76_closest_edge",
    "C76_transforms",
    "C76_intersects_disc_actual",
    "C76_intersects_disc_refuted",
    "C76_overloads_refuted",
    "C76_near_axis_refuted",
    "C76_intersects_disc_miss"
   ],
   "note": "Exact reals. Findings: IntersectsDisc reports the opposite, GetPoint(angle) and GetPoint(angle, 1) go opposite ways round, and nearly axial directions leave the circle."
  },
  {
   "property": "C78",
   "status": "proved",
   "theorems": [
    "C78_fit3",
    "C78_fit4",
    "C78_optimal2",
    "C78_optimal3",
    "C78_optimal4",
    "C78_optimal5",
    "C78_up_to_four",
    "C78_fuel",
    "C78_array_refuted"
   ],
   "note": "over the reals; the array version is modelled with fuel (C78_fuel: results do not depend on it) and refuted: a concrete run of the code's own loop returns a sphere that misses the first of six points by 0.38"
  },
  {
   "property": "C79",
   "status": "proved",
   "theorems": [
    "C79_triangulate",
    "C79_too_few",
    "C79_random"
   ],
   "note": "over the reals; positions only (normals and texture coordinates are not modelled); finding: with ccwIsFrontFacing the triangles are clockwise seen from outside in a right-handed frame"
  },
  {
   "property": "C80",
   "status": "proved",
   "theorems": [
    "C80_measures",
    "C80_planes",
    "C80_extreme",
    "C80_bounds",
    "C80_areas",
    "C80_transforms",
    "C80_degenerate",
    "C80_degenerate_refuted",
    "C80_random"
   ],
   "note": "SignedArea and Area2D return twice the area. Refuted: IsDegenerate does not report collinear corners."
  },
  {
   "property": "C81",
   "status": "proved",
   "theorems": [
    "C81_crossing",
    "C81_apart",
    "C81_parallel",
    "C81_coplanar",
    "C81_corner_refuted",
    "C81_uninitialised_refuted"
   ],
   "note": "Exact when the planes cross and neither vertex b lies in the other plane between a and c; refuted in that excluded case, and ClosestPoint(Triangle) reads an unwritten segment when one coplanar triangle contains the other's corner a."
  },
  {
   "property": "C82",
   "status": "proved",
   "theorems": [
    "C82_box_box",
    "C82_box_triangle",
    "C82_triangle_box",
    "C82_triangle_triangle"
   ],
   "note": "Exact separating axis theorem for every pairing of boxes and triangles, coplanar triangles included."
  },
  {
   "property": "C83",
   "status": "proved",
   "theorems": [
    "C83_hull",
    "C83_exact",
    "C83_line",
    "C83_copy",
    "C83_halfplanes",
    "C83_contains",
    "C83_contains_polygon",
    "C83_small_hull_refuted"
   ],
   "note": "Exact real arithmetic; PerpDot2D is evaluated without the double rounding. std::sort modelled by insertion sort on the same comparator."
  },
  {
   "property": "C84",
   "status": "proved",
   "theorems": [
    "C84_planes",
    "C84_corners",
    "C84_edges",
    "C84_extreme",
    "C84_aabb",
    "C84_obb",
    "C84_points",
    "C84_rays",
    "C84_closest",
    "C84_directions",
    "C84_transform"
   ],
   "note": "Exact reals. ClosestPoint of a perspective frustum (through Polyhedron) is not modelled."
  },
  {
   "property": "C85",
   "status": "proved",
   "theorems": [
    "C85_caches",
    "C85_world",
    "C85_set_world",
    "C85_project",
    "C85_contains",
    "C85_aspect",
    "C85_screen",
    "C85_stale_refuted",
    "C85_contains_behind_refuted",
    "C85_aspect_refuted"
   ],
   "note": "Exact reals. The refuted theorems record what the code does instead."
  },
  {
   "property": "C86",
   "status": "proved",
   "theorems": [
    "C86_contains",
    "C86_aabb",
    "C86_sphere",
    "C86_frustum"
   ],
   "note": "Exact reals. ToPolyhedron is not modelled."
  },
  {
   "property": "C87",
   "status": "proved",
   "theorems": [
    "C87_miss",
    "C87_hit",
    "C87_test",
    "C87_shapes",
    "C87_frustum",
    "C87_capsule",
    "C87_small_refuted"
   ],
   "note": "Over the reals. The bounds 0.043 and 0.001 are the tolerances the code builds in; C87_small_refuted shows a false positive at distance 0.029. Whether 50 iterations suffice is not claimed."
  },
  {
   "property": "C88",
   "status": "proved",
   "theorems": [
    "C88_miss",
    "C88_hit",
    "C88_test",
    "C88_shapes",
    "C88_polygons",
    "C88_near_refuted"
   ],
   "note": "Exact reals; the loop's answers, not its termination."
  },
  {
   "property": "C89",
   "status": "proved",
   "theorems": [
    "C89_collide",
    "C89_separates",
    "C89_distance",
    "C89_depth",
    "C89_result",
    "C89_winding",
    "C89_winding_refuted",
    "C89_clockwise_refuted",
    "C89_short_edge_refuted",
    "C89_points_refuted"
   ],
   "note": "Exact reals; strictly convex counter-clockwise polygons."
  },
  {
   "property": "C90",
   "status": "proved",
   "theorems": [
    "C90_plane",
    "C90_basis",
    "C90_planar",
    "C90_convex",
    "C90_edge_normals",
    "C90_concave_refuted",
    "C90_planar_refuted",
    "C90_star_refuted"
   ],
   "note": "Over the reals, for vertex lists that are the image of plane points under an isometric embedding."
  },
  {
   "property": "C91",
   "status": "proved",
   "theorems": [
    "C91_sound",
    "C91_complete",
    "C91_even_odd",
    "C91_tiny_refuted",
    "C91_thickness_refuted"
   ],
   "note": "Over the reals."
  },
  {
   "property": "C92",
   "status": "proved",
   "theorems": [
    "C92_area",
    "C92_point_on_edge",
    "C92_extremes",
    "C92_plane",
    "C92_centroid_refuted",
    "C92_images"
   ],
   "note": "Over the reals; PointOnEdge for distinct consecutive vertices."
  },
  {
   "property": "C93",
   "status": "proved",
   "theorems": [
    "C93_line",
    "C93_ray",
    "C93_segment",
    "C93_contains_segment",
    "C93_in_plane_refuted",
    "C93_contains2D_refuted"
   ],
   "note": "Over the reals, through the shapes' own plane intersection tests and the crossing test of the polygon. C93_in_plane_refuted: finding for segments in the plane."
  },
  {
   "property": "C94",
   "status": "proved",
   "theorems": [
    "C94_triangles",
    "C94_convex",
    "C94_closest",
    "C94_area",
    "C94_concave_refuted"
   ],
   "note": "Over the reals; general polygons: orientation and area only (a self-overlapping cover is not excluded beyond that). C94_concave_refuted: finding for polygons starting at a concave corner."
  },
  {
   "property": "C95",
   "status": "proved",
   "theorems": [
    "C95_closed",
    "C95_closed_valid",
    "C95_valid",
    "C95_edges",
    "C95_num_edges",
    "C95_flip",
    "C95_adjacency"
   ],
   "note": ""
  },
  {
   "property": "C96",
   "status": "proved",
   "theorems": [
    "C96_degenerate",
    "C96_search",
    "C96_search_refuted",
    "C96_redundant",
    "C96_swap",
    "C96_canonical",
    "C96_canonical_unique",
    "C96_contains_actual",
    "C96_contains_refuted",
    "C96_contains_canonical"
   ],
   "note": "Refuted: the search for a missing value does not stop; ContainsFace does not recognise cyclic shifts."
  },
  {
   "property": "C97",
   "status": "proved",
   "theorems": [
    "C97_merge",
    "C97_solids",
    "C97_capsule"
   ],
   "note": "The choice of the deleted faces (a plane test) is a parameter here."
  },
  {
   "property": "C98",
   "status": "proved",
   "theorems": [
    "C98_contains",
    "C98_contains_objects",
    "C98_clip",
    "C98_intersects",
    "C98_short_refuted",
    "C98_closest",
    "C98_closest_refuted"
   ],
   "note": "Clip and line tests for directions not within the code's near-parallel threshold of a face; C98_short_refuted records the finding for short segments. C98_closest: for faces that are whole facets (no facet cut into several faces)."
  },
  {
   "property": "C99",
   "status": "proved",
   "theorems": [
    "C99_merge",
    "C99_merge_all"
   ],
   "note": "Exact reals. convex_solid and tidy are the invariant every merge preserves."
  },
  {
   "property": "C100",
   "status": "proved",
   "theorems": [
    "C100_extremes",
    "C100_nearest",
    "C100_local",
    "C100_climb"
   ],
   "note": "Exact reals. C100_climb needs every used vertex to be a proper corner and the tidiness that merging preserves."
  },
  {
   "property": "C101",
   "status": "proved",
   "theorems": [
    "C101_volume",
    "C101_convex",
    "C101_convex_iff",
    "C101_tiny_refuted",
    "C101_orient",
    "C101_transform",
    "C101_translate",
    "C101_centroid",
    "C101_centroid_refuted",
    "C101_planar",
    "C101_planar_reject",
    "C101_linear",
    "C101_box",
    "C101_small_faces"
   ],
   "note": "Over R. C101_centroid_refuted: square pyramid, ConvexCentroid off the axis. C101_tiny_refuted: IsConvex accepts any polyhedron of diameter at most 1/100."
  },
  {
   "property": "C102",
   "status": "proved",
   "theorems": [
    "C102_point",
    "C102_pair",
    "C102_distances",
    "C102_tests",
    "C102_forms",
    "C102_ranges",
    "C102_crossing",
    "C102_same_line",
    "C102_near_refuted"
   ],
   "note": "Over the reals. Nearest points for segments of positive length. The crossing test is exact away from parallel directions and on a common line; for nearly parallel segments it is wrong (C102_near_refuted: segments 0.05 apart reported as intersecting). Contains compares the squared distance with the threshold."
  },
  {
   "property": "C103",
   "status": "proved",
   "theorems": [
    "C103_closest",
    "C103_barycentric_actual",
    "C103_barycentric_refuted",
    "C103_unit_barycentric",
    "C103_parts",
    "C103_extents",
    "C103_transforms",
    "C103_degenerate",
    "C103_degenerate_refuted",
    "C103_random"
   ],
   "note": "Over the reals, triangles of nonzero area. BarycentricUVW omits the division by the area (C103_barycentric_refuted) and so is right only for unit area; IsDegenerate misses collinear corners (C103_degenerate_refuted)."
  },
  {
   "property": "C104",
   "status": "proved",
   "theorems": [
    "C104_disc",
    "C104_three",
    "C104_array",
    "C104_array_refuted",
    "C104_small_refuted",
    "C104_random"
   ],
   "note": "Over the reals. The array result needs four or more hull corners: with three corners a corner can be swapped to pts[3], which the loop never examines (C104_array_refuted, missed by more than 0.4). Triangles with doubled area squared below 1e-5 are treated as flat (C104_small_refuted: radius 40% too large)."
  },
  {
   "property": "C105",
   "status": "proved",
   "theorems": [
    "C105_soa_layout",
    "C105_soa_ray",
    "C105_soa_exact",
    "C105_cpp_ray",
    "C105_set_simd_actual",
    "C105_padding_actual",
    "C105_padding_refuted",
    "C105_stride_refuted",
    "C105_padding_shape"
   ],
   "note": "Over exact extended reals (finite coordinates); the reciprocal instruction is any function of relative error at most e < 1. Findings: Set passes the old triangle count to the SIMD layouts (mesh stays empty), the -infinity padding of SetConvex turns its lane into NaN and loses hits, the plain query ignores vertexSizeBytes (binary32 witnesses)."
  },
  {
   "property": "C106",
   "status": "proved",
   "theorems": [
    "C106_elements",
    "C106_max_element_actual",
    "C106_min_max",
    "C106_clamp",
    "C106_elements_f32",
    "C106_max_element_refuted",
    "C106_lengths",
    "C106_distances",
    "C106_normalize",
    "C106_normalize3",
    "C106_normalize_w",
    "C106_scale_to_length",
    "C106_predicates",
    "C106_cross",
    "C106_perpendicular",
    "C106_perpendicular_default",
    "C106_another_perpendicular",
    "C106_perpendicular3",
    "C106_perpendicular_basis",
    "C106_project",
    "C106_project_norm",
    "C106_reflect",
    "C106_reflect3",
    "C106_refract_tangential",
    "C106_refract_refuted",
    "C106_orthonormalize2",
    "C106_orthonormalize3",
    "C106_are_orthonormal",
    "C106_lerp",
    "C106_collinear",
    "C106_angle",
    "C106_angle3",
    "C106_angle_norm",
    "C106_spherical",
    "C106_spherical_back",
    "C106_outer",
    "C106_sums",
    "C106_componentwise"
   ],
   "note": "MaxElement and the normal part of Refract are refuted (C106_max_element_refuted, C106_refract_refuted) and described by C106_max_element_actual and C106_refract_tangential; SIMD branches, Refract outside unit vectors and random directions are not covered."
  },
  {
   "property": "C107",
   "status": "proved",
   "theorems": [
    "C107_smallest",
    "C107_close_points_refuted"
   ],
   "note": "Over exact reals. Hypothesis: different input points are more than 1e-3 apart (the hull step merges closer ones; C107_close_points_refuted shows a merged point left outside the rectangle). The loop is modelled with fuel; the theorem gives a sufficient fuel, so it also states termination."
  },
  {
   "property": "C108",
   "status": "proved",
   "theorems": [
    "C108_one_edge",
    "C108_encloses",
    "C108_planar",
    "C108_one_point",
    "C108_two_points_actual",
    "C108_two_points_refuted",
    "C108_collinear_refuted"
   ],
   "note": "The claim holds for one fixed edge and for coplanar points that are not on a line; it is false for two points not exactly 1 apart and for three or more points on a line (refuted with the returned box)."
  },
  {
   "property": "C109",
   "status": "proved",
   "theorems": [
    "C109_vectors",
    "C109_dir2",
    "C109_rotations",
    "C109_perpendicular",
    "C109_perpendicular_refuted",
    "C109_aabb",
    "C109_obb",
    "C109_capsule",
    "C109_polygon",
    "C109_frustum_fast",
    "C109_frustum_uniform",
    "C109_frustum_refuted"
   ],
   "note": "Over the reals, for arbitrary sequences of draws; C03 and C04 bound the draws themselves."
  },
  {
   "property": "C110",
   "status": "proved",
   "theorems": [
    "C110_between",
    "C110_newer",
    "C110_order",
    "C110_later_refuted",
    "C110_milliseconds"
   ],
   "note": "64-bit unsigned ticks."
  },
  {
   "property": "C111",
   "status": "proved",
   "theorems": [
    "C111_obb",
    "C111_obb_left_refuted",
    "C111_aabb",
    "C111_frustum",
    "C111_box_volume",
    "C111_frustum_volume",
    "C111_polygon",
    "C111_triangle"
   ],
   "note": "Conversions of AABB, OBB, Frustum, Polygon and Triangle to Polyhedron, for every non-degenerate input over the reals; volumes where the faces have an area above 1e-4 (below it Polygon::NormalCCW cannot be used). Boxes with left-handed axes come out inside out (C111_obb_left_refuted)."
  },
  {
   "property": "C112",
   "status": "proved",
   "theorems": [
    "C112_box_contains",
    "C112_box_encloses",
    "C112_box_contains_exact",
    "C112_box_encloses_exact",
    "C112_empty_f32",
    "C112_contains_frustum",
    "C112_frustum_in_frustum",
    "C112_sphere_encloses",
    "C112_signed_distance",
    "C112_cut",
    "C112_plane_holds_polygon",
    "C112_plane_holds_few",
    "C112_plane_tolerance_refuted"
   ],
   "note": "Over the reals; the box tests also exactly in binary32 (no NaN). A polygon or polyhedron is the convex hull of its vertices. Sphere::Enclose needs radius at least 1 as in C45. The tolerance of Plane::Contains(Polygon) is on the plane's coefficients, not on the vertices: see C112_plane_tolerance_refuted."
  },
  {
   "property": "C113",
   "status": "proved",
   "theorems": [
    "C113_sphere",
    "C113_capsule",
    "C113_closest_segment"
   ],
   "note": "Reals; convex polygons in every frame of every plane, every number of vertices. For capsules and segments the axis stays off the polygon's plane (exact), or crosses the polygon steeply (found); an axis lying in the plane is left to the triangle results C47/C50."
  },
  {
   "property": "C114",
   "status": "proved",
   "theorems": [
    "C114_aabb",
    "C114_obb"
   ],
   "note": "Reals; convex polygons with any number of corners in every frame of every plane. Completeness assumes that the GJK early-out ends within its 50 iterations (C87) and covers the case that the outline meets the box and the case that it stays more than 1/5000 away from the box; the Frustum overload uses the same code with a GJK segment test and is not instantiated."
  },
  {
   "property": "C115",
   "status": "proved",
   "theorems": [
    "C115_across",
    "C115_symmetric"
   ],
   "note": "Over R. Two convex polygons of any size. The answer is sound up to 1/5000, and complete when the crossing outline runs more than 1/5000 inside the other polygon. The order of the two polygons does not matter, with no hypothesis on their shape. The parallel-plane branch (Polygon.cpp:649-690) and the Triangle overload are not modelled."
  }
 ]
}
