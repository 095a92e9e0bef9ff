{
 "claims": [
  {
   "property": "C01",
   "status": "proved",
   "theorems": [
    "C01_find_span"
   ],
   "note": "All parameters, all knot vectors with non-decreasing knots and n+p+1 entries."
  },
  {
   "property": "C02",
   "status": "proved",
   "theorems": [
    "C02_basis_funcs"
   ],
   "note": "All degrees the stack evaluator accepts (<= 24), every parameter of the domain, end included."
  },
  {
   "property": "C03",
   "status": "proved",
   "theorems": [
    "C03_partition_computed",
    "C03_partition_all",
    "C03_any_parameter"
   ],
   "note": "For the values basis_funcs returns, at any parameter of the line (C03_any_parameter), and for all n recursive basis functions. Degrees up to 24 for basis_funcs (its stack arrays)."
  },
  {
   "property": "C04",
   "status": "proved",
   "theorems": [
    "C04_nonneg_computed",
    "C04_local_support",
    "C04_range_computed",
    "C04_range"
   ],
   "note": "Values in [0,1] (C04_range_computed, C04_range); recursive basis functions vanish outside [k_i, k_{i+p+1}), the right end of the domain excepted."
  },
  {
   "property": "C05",
   "status": "partial",
   "theorems": [
    "C05_basis_function",
    "C05_close_knots_refuted",
    "C05_derivative",
    "C05_above"
   ],
   "note": "The full statement is refuted by C05_close_knots_refuted (knots closer than knot_eps); proved by C05_basis_function for knots equal or further apart than knot_eps and repeated at the end, and by C05_derivative and C05_above for the derivatives."
  },
  {
   "property": "C06",
   "status": "proved",
   "theorems": [
    "C06_eval_value",
    "C06_value"
   ],
   "note": "Degrees <= 24 for every valid knot vector; higher degrees on knots separated by more than knot_eps."
  },
  {
   "property": "C07",
   "status": "proved",
   "theorems": [
    "C07_convex_hull"
   ],
   "note": ""
  },
  {
   "property": "C08",
   "status": "partial",
   "theorems": [
    "C08_affine",
    "C08_transform",
    "C08_translate",
    "C08_rotate_plane",
    "C08_rotate_space",
    "C08_scale",
    "C08_scale_coord",
    "C08_derivatives",
    "C08_rational_derivatives_partial",
    "C08_zero_weight_refuted"
   ],
   "note": "proved for curves and surfaces, polynomial or with positive weights: C08_transform and its instances for translation, rotation and scaling; C08_derivatives for the derivatives of every order of polynomial objects; C08_rational_derivatives_partial for rational ones up to order 20 (above it the factorials of the code wrap). For rational objects with a zero weight the full statement is refuted by C08_zero_weight_refuted. The overloads taking a Matrix4 do not compile and are not modelled; an affine matrix function on points is a case of trf in C08_transform."
  },
  {
   "property": "C09",
   "status": "proved",
   "theorems": [
    "C09_start",
    "C09_end",
    "C09_tangent_start",
    "C09_tangent_end"
   ],
   "note": "Positions and end tangents."
  },
  {
   "property": "C10",
   "status": "proved",
   "theorems": [
    "C10_total",
    "C10_derivative_inside",
    "C10_derivative_right",
    "C10_derivative_left_end",
    "C10_above_degree"
   ],
   "note": "Every order, two-sided inside spans, right derivative at knots, left derivative at the end of the domain."
  },
  {
   "property": "C11",
   "status": "proved",
   "theorems": [
    "C11_eval_ders",
    "C11_derivatives"
   ],
   "note": "Curves, free function and member; surfaces are under C29, rational curves under C12 and C13."
  },
  {
   "property": "C12",
   "status": "partial",
   "theorems": [
    "C12_value",
    "C12_convex_hull",
    "C12_equal_weights",
    "C12_total_partial",
    "C12_derivative_inside_partial",
    "C12_derivative_right_partial",
    "C12_derivative_left_end_partial",
    "C12_derivatives_agree_partial",
    "C12_order21_refuted"
   ],
   "note": "Value, hull, equal weights, and derivatives up to order 20 proved; full statement refuted at order 21 by C12_order21_refuted (21! wraps in size_t)."
  },
  {
   "property": "C13",
   "status": "partial",
   "theorems": [
    "C13_add_weights",
    "C13_add_separate",
    "C13_separate_add",
    "C13_merge_partial",
    "C13_merge_short_refuted",
    "C13_merge_long_refuted"
   ],
   "note": "add_weights_coord/separate_weights proved; rejection of a size mismatch by merge_weights refuted by C13_merge_short_refuted and C13_merge_long_refuted."
  },
  {
   "property": "C14",
   "status": "partial",
   "theorems": [
    "C14_value",
    "C14_derivatives",
    "C14_rational_value",
    "C14_total_refuted"
   ],
   "note": "Both directions proved for value, derivatives and the rational value (order 0) of every curve whose first and last spans are non-empty; 'never otherwise for a validly constructed curve' refuted by C14_total_refuted."
  },
  {
   "property": "C15",
   "status": "partial",
   "theorems": [
    "C15_constructor_accepts",
    "C15_constructor_rejects",
    "C15_constructor_refuted",
    "C15_changeBounds_refuted",
    "C15_trim_refuted",
    "C15_copyKnots_refuted",
    "C15_trim_bounds_refuted",
    "C15_history"
   ],
   "note": "Constructor accepts exactly the admissible data up to 2 eps in the knot order (exact refuted by C15_constructor_refuted). C15_history: class invariant over every finite history of insertKnot(s), removeKnot, reverse, trim, changeBounds, increaseDegree, copyPoles with meaningful arguments from a clamped curve; false for meaningless arguments (C15_*_refuted)."
  },
  {
   "property": "C16",
   "status": "proved",
   "theorems": [
    "C16_insert_knots",
    "C16_below_undefined"
   ],
   "note": "Any knot of the half-open domain, any number of copies, all derivatives. C16_below_undefined records the undefined behaviour below the first knot."
  },
  {
   "property": "C17",
   "status": "partial",
   "theorems": [
    "C17_multiplicity",
    "C17_saturated",
    "C17_zero_insertions_refuted"
   ],
   "note": "Saturation proved by C17_multiplicity and C17_saturated; the clause about zero insertions is refuted by C17_zero_insertions_refuted."
  },
  {
   "property": "C18",
   "status": "partial",
   "theorems": [
    "C18_zero_untouched",
    "C18_removes_what_it_reports",
    "C18_removes_removable",
    "C18_inverts_insertion",
    "C18_first_knot_undefined",
    "C18_last_knot_undefined",
    "C18_only_copies_refuted"
   ],
   "note": "Exact inverse of insertion and exactness for every removable knot (interior, at most its multiplicity, multiplicity <= degree), untouched on 0, count reported: proved. 'Removes only copies of u' is refuted by C18_only_copies_refuted when more copies are requested than exist; end knots of clamped vectors are undefined behaviour (C18_first/last_knot_undefined)."
  },
  {
   "property": "C19",
   "status": "proved",
   "theorems": [
    "C19_trim"
   ],
   "note": "Both argument orders, all derivatives on [u1,u2), value at u2; a bound within knot_eps of the old end is left in place."
  },
  {
   "property": "C20",
   "status": "partial",
   "theorems": [
    "C20_reverse",
    "C20_soft_trim_refuted"
   ],
   "note": "Proved for every curve whose bounds are its end knots, all parameters and orders; full statement (any bounds) refuted by C20_soft_trim_refuted."
  },
  {
   "property": "C21",
   "status": "proved",
   "theorems": [
    "C21_changeBounds",
    "C21_zero_length"
   ],
   "note": "Knots, bounds, values and all derivatives; zero-length domain gives a division by zero (C21_zero_length)."
  },
  {
   "property": "C22",
   "status": "partial",
   "theorems": [
    "C22_bezier",
    "C22_overflow_refuted",
    "C22_increase_degree",
    "C22_increaseDegree",
    "C22_increaseDegreeU",
    "C22_increaseDegreeV"
   ],
   "note": "Proved for segments, curves and surfaces up to degree 12 (all derivative orders, clamped knots with inner multiplicity at most the degree); the full statement is refuted by C22_overflow_refuted: from degree 13 on the binomials overflow int"
  },
  {
   "property": "C23",
   "status": "proved",
   "theorems": [
    "C23_segments"
   ],
   "note": "For clamped knot vectors with distinct knots more than knot_eps apart and inner multiplicity at most the degree"
  },
  {
   "property": "C24",
   "status": "partial",
   "theorems": [
    "C24_flat",
    "C24_round_trip",
    "C24_variants_agree_refuted"
   ],
   "note": "flat_knots and the round trip proved for all inputs; agreement of the two unflat variants refuted at knots exactly eps apart by C24_variants_agree_refuted."
  },
  {
   "property": "C25",
   "status": "partial",
   "theorems": [
    "C25_simple",
    "C25_simple_range",
    "C25_uniform_refuted",
    "C25_mult",
    "C25_mult_range"
   ],
   "note": "Multiplicities, length, clamping and knot values of every builder proved; uniform spacing of build_simple_mult_flat_knots(u1,u2,n,p) refuted by C25_uniform_refuted (last span is twice as long)."
  },
  {
   "property": "C26",
   "status": "partial",
   "theorems": [
    "C26_insert_ordered",
    "C26_insert_unique",
    "C26_unique_refuted"
   ],
   "note": "insert_ordered proved; insert_unique_ordered proved sorted and containing the value; uniqueness refuted by C26_unique_refuted (the predecessor is not compared)."
  },
  {
   "property": "C27",
   "status": "partial",
   "theorems": [
    "C27_unify_knots",
    "C27_unify_curves_knots",
    "C27_unify_degree",
    "C27_close_knots_refuted",
    "C27_degree_zero_refuted"
   ],
   "note": "Full statement refuted by C27_close_knots_refuted (knots closer than the tolerance) and C27_degree_zero_refuted. Proved by C27_unify_knots and C27_unify_curves_knots for any number of clamped curves of one degree whose knots, moved to the first interval, are equal or more than the tolerance apart; C27_unify_degree for the degree step (degrees up to 12)."
  },
  {
   "property": "C28",
   "status": "partial",
   "theorems": [
    "C28_join",
    "C28_join_rational",
    "C28_trimmed_refuted",
    "C28_overflow_refuted"
   ],
   "note": "Full statement refuted by C28_trimmed_refuted (bounds other than the end knots) and C28_overflow_refuted (degree 13). Proved by C28_join (polynomial) and C28_join_rational (either or both rational) for clamped curves of degree up to 12 with natural bounds; the position holds on both closed intervals, derivatives of the first curve on its half-open interval; for a polynomial operand of a rational join, derivative orders up to 20."
  },
  {
   "property": "C29",
   "status": "partial",
   "theorems": [
    "C29_value",
    "C29_rows_first",
    "C29_cols_first",
    "C29_partial_u",
    "C29_partial_v",
    "C29_table",
    "C29_outside",
    "C29_rational_value",
    "C29_rational_u_partial",
    "C29_rational_v_partial",
    "C29_constructor_refuted"
   ],
   "note": "Value = tensor sum, both nested evaluation orders at every order, partial derivatives, derivatives() table, guards and the rational quotient proved; rational derivatives proved up to order 20 (_partial); C29_constructor_refuted: the constructor accepts wrapped pole counts."
  },
  {
   "property": "C30",
   "status": "partial",
   "theorems": [
    "C30_invertUV",
    "C30_flat_transpose",
    "C30_flat_involution",
    "C30_transpose",
    "C30_transpose_involution",
    "C30_blocked",
    "C30_block_zero_refuted",
    "C30_blocked_empty_refuted"
   ],
   "note": "Proved for every grid and block size >= 1; C30_block_zero_refuted (block size 0 never ends) and C30_blocked_empty_refuted (no rows)."
  },
  {
   "property": "C31",
   "status": "partial",
   "theorems": [
    "C31_polesU",
    "C31_polesV",
    "C31_pole_partial",
    "C31_pole_refuted",
    "C31_reject_refuted",
    "C31_accept_refuted",
    "C31_polesU_past_refuted",
    "C31_polesU_beyond_refuted"
   ],
   "note": "polesU/polesV proved inside the grid; pole(i,j) has its indices exchanged: full statement refuted by C31_pole_refuted, C31_reject_refuted, C31_accept_refuted; C31_pole_partial gives what it returns; the overflow promise of polesU is refuted."
  },
  {
   "property": "C32",
   "status": "partial",
   "theorems": [
    "C32_isoU",
    "C32_isoV",
    "C32_band_refuted"
   ],
   "note": "isoU/isoV proved on the whole domain for degree >= 1 (the end needs end-clamped knots); C32_band_refuted: undefined in the tolerance band below the start."
  },
  {
   "property": "C33",
   "status": "partial",
   "theorems": [
    "C33_insertKnotU",
    "C33_insertKnotV",
    "C33_reverseU",
    "C33_reverseV",
    "C33_changeUBounds",
    "C33_changeVBounds",
    "C33_trimU",
    "C33_trimV",
    "C33_trim_order_refuted"
   ],
   "note": "insertKnotU/V, reverseU/V, trimU/V, changeU/VBounds proved; increaseDegreeU/V are under C22; C33_trim_order_refuted for decreasing trim bounds."
  },
  {
   "property": "C34",
   "status": "proved",
   "theorems": [
    "C34_band_lu"
   ],
   "note": "band_lu factorise/solve over R: never undefined on a full band storage; success iff an LU factorisation without row exchanges with pivots above 16 machine-eps * scale and multipliers <= 1e4 exists; solve(b) then satisfies A x = b"
  },
  {
   "property": "C35",
   "status": "proved",
   "theorems": [
    "C35_interpolate",
    "C35_defined",
    "C35_polyline",
    "C35_hermite",
    "C35_constraints",
    "C35_end_constraints",
    "C35_batch"
   ],
   "note": "interpolate, Hermite, constraint lists, end points + constraints, batches; Eigen's sparse/dense LU is an argument assumed to return only solutions (exact_solver); band LU path is proved; domain: evaluable (p<=24, or clamped separated knots)"
  },
  {
   "property": "C36",
   "status": "proved",
   "theorems": [
    "C36_bound_fixed",
    "C36_approx",
    "C36_free",
    "C36_sizes"
   ],
   "note": "approx_bound_fixed, free approx, approx(u) : ends exact, least squares optimal per coordinate over all competitors; Eigen's LDLT is an argument assumed to return only solutions; needs at least two poles (p = 0 with one pole is undefined in the code)"
  },
  {
   "property": "C37",
   "status": "partial",
   "theorems": [
    "C37_batch",
    "C37_batch_values",
    "C37_batch_first_error",
    "C37_slots",
    "C37_progress",
    "C37_transform_partial",
    "C37_transform_refuted"
   ],
   "note": "build_batch: proved in full (C37_batch, _values, _first_error, _slots, _progress) for every complete interleaving. transform_threshold: proved when the function does not throw (C37_transform_partial); refuted otherwise by C37_transform_refuted (std::terminate above the gate)."
  },
  {
   "property": "C38",
   "status": "proved",
   "theorems": [
    "C38_make_range",
    "C38_make_range2",
    "C38_make_range3",
    "C38_make_range_int"
   ],
   "note": "All make_range overloads, for every size; size_t wrap and int overflow of the integer overload are outside the model."
  },
  {
   "property": "C39",
   "status": "partial",
   "theorems": [
    "C39_ellipse",
    "C39_circle",
    "C39_segment_normalized",
    "C39_segment",
    "C39_segment_point_refuted"
   ],
   "note": "C39_segment_point_refuted: the unnormalised segment between coincident points evaluates to 0/0; proved in full for ellipses, circles, normalised segments and distinct points."
  },
  {
   "property": "C40",
   "status": "partial",
   "theorems": [
    "C40_derivate",
    "C40_integrate",
    "C40_break_refuted",
    "C40_degree_zero_refuted"
   ],
   "note": "Refuted for curves that jump at an inner knot (C40_break_refuted) and for degree 0 (C40_degree_zero_refuted); proved for every other degree, knots and order."
  },
  {
   "property": "C41",
   "status": "partial",
   "theorems": [
    "C41_trimmed",
    "C41_reversed",
    "C41_extended",
    "C41_extended_clamped",
    "C41_clamped_derivative_refuted",
    "C41_reparametrized",
    "C41_reparametrized_order_refuted",
    "C41_composite"
   ],
   "note": "trimmed, reversed, extended, reparametrized (orders 0-2), composite: proved. Full statement refuted: clamped extension returns the end derivative outside (C41_clamped_derivative_refuted), reparametrized orders above 2 throw (C41_reparametrized_order_refuted)."
  },
  {
   "property": "C42",
   "status": "partial",
   "theorems": [
    "C42_first_partial",
    "C42_second_partial",
    "C42_second_refuted"
   ],
   "note": "value and first derivative proved (C42_first_partial); second derivative refuted by C42_second_refuted, proved when both parameter functions have equal second derivatives (C42_second_partial)."
  },
  {
   "property": "C43",
   "status": "partial",
   "theorems": [
    "C43_rotation_plane",
    "C43_rotation_centre",
    "C43_rotation_space",
    "C43_null_axis_refuted",
    "C43_frame",
    "C43_frame_distance",
    "C43_from_to_partial",
    "C43_from_to_refuted"
   ],
   "note": "rotations in the plane and in space, frame to world, distances: proved (C43_rotation_plane, _centre, _space, C43_frame, C43_frame_distance). Full statement refuted for build_trf_matrix(from,to) by C43_from_to_refuted (the matrix of from is not inverted); proved when from has the world axes by C43_from_to_partial. Null axis divides by zero (C43_null_axis_refuted)."
  },
  {
   "property": "C44",
   "status": "proved",
   "theorems": [
    "C44_hard_nodes",
    "C44_short_section_refuted"
   ],
   "note": "whenever the mesher returns, for every number of curves, blend order and section sizes: the rows and columns at the hard parameters are points of the curves at non-decreasing parameters through the hard ones; exact linear solver and arc length law as arguments; order + slope control at most 12 (the degree up to which the evaluator has no tolerance issue). A section of one point is undefined (C44_short_section_refuted); the section size computation is not modelled"
  },
  {
   "property": "C45",
   "status": "proved",
   "theorems": [
    "C45_make_face",
    "C45_from_points",
    "C45_too_short",
    "C45_walk"
   ],
   "note": "make_face, faces from points, walking around a face"
  },
  {
   "property": "C46",
   "status": "proved",
   "theorems": [
    "C46_step",
    "C46_history"
   ],
   "note": "all histories of nine editing operations, on every heap"
  },
  {
   "property": "C47",
   "status": "proved",
   "theorems": [
    "C47_flip",
    "C47_twice",
    "C47_apart"
   ],
   "note": "flip, flipping twice, faces that share no edge"
  },
  {
   "property": "C48",
   "status": "proved",
   "theorems": [
    "C48_add_vertex"
   ],
   "note": "any closed chain of half-edges of removed faces, any number of them"
  },
  {
   "property": "C49",
   "status": "proved",
   "theorems": [
    "C49_insertion",
    "C49_inserted"
   ],
   "note": "exact reals; delaunay geometry in Spec_Tess/Spec_Geom"
  },
  {
   "property": "C50",
   "status": "proved",
   "theorems": [
    "C50_remove_faces",
    "C50_erase_face",
    "C50_repair"
   ],
   "note": "remove_faces, eraseFace and repairVertexEdges on every mesh"
  },
  {
   "property": "C51",
   "status": "proved",
   "theorems": [
    "C51_loops",
    "C51_closed"
   ],
   "note": "any list of half-edges; boundaries of face sets give closed loops"
  },
  {
   "property": "C52",
   "status": "proved",
   "theorems": [
    "C52_boundary"
   ],
   "note": "every mesh and every set of its faces"
  },
  {
   "property": "C53",
   "status": "proved",
   "theorems": [
    "C53_in_circle",
    "C53_circle_center"
   ],
   "note": "Over the reals: sign of in_circle against any circle through the three points, both orientations; circle_center equidistant, refused exactly when the doubled area is below the tolerance. Rounding is out of this model."
  },
  {
   "property": "C54",
   "status": "proved",
   "theorems": [
    "C54_exact_sign",
    "C54_exact_sign_gradual",
    "C54_exact_sign_double",
    "C54_exact_sign_float",
    "C54_underflow_refuted"
   ],
   "note": "for every precision p >= 10 with unbounded exponents (C54_exact_sign), and with gradual underflow when coordinates are multiples of 2^s with 2s >= emin+4p (C54_exact_sign_gradual, instances for double and float); C54_underflow_refuted shows the sign is lost when a product underflows. Overflow is not modelled."
  },
  {
   "property": "C55",
   "status": "proved",
   "theorems": [
    "C55_in_triangle",
    "C55_flat_refuted",
    "C55_barycentric",
    "C55_barycentric_doc_refuted",
    "C55_is_inside"
   ],
   "note": "is_inside: for every polygon that is the boundary of a set of triangles of a mesh without overlap, every point on the boundary or further from it than the tolerance. Degenerate triangles: C55_flat_refuted says what in_triangle answers."
  },
  {
   "property": "C56",
   "status": "proved",
   "theorems": [
    "C56_crossing",
    "C56_symmetric",
    "C56_complete",
    "C56_on_segment"
   ],
   "note": "Sound for any tolerance >= 0, symmetric for any arguments, complete with margins; on_segment sound and complete up to its tolerance."
  },
  {
   "property": "C57",
   "status": "partial",
   "theorems": [
    "C57_connected_partial",
    "C57_add_edge_partial",
    "C57_accepts",
    "C57_refused",
    "C57_closed",
    "C57_closed_accepts_none",
    "C57_tolerance_refuted",
    "C57_shared_edge_refuted",
    "C57_end_points_refuted"
   ],
   "note": "connectedness proved for every sequence of addEdge calls on distinct edges whose tolerance is at least the wire's and whose projection is not worse than the distance to their end vertices (C57_connected_partial, C57_add_edge_partial); closedness, acceptance and refusal proved in full (C57_closed, _closed_accepts_none, _accepts, _refused); full statement refuted by C57_tolerance_refuted, C57_shared_edge_refuted and (for coincident points) C57_end_points_refuted"
  },
  {
   "property": "C58",
   "status": "proved",
   "theorems": [
    "C58_curve",
    "C58_surface",
    "C58_revolution",
    "C58_wrong_dim",
    "C58_unsupported",
    "C58_not_a_real",
    "C58_bounds_refuted",
    "C58_close_knots_refuted",
    "C58_trimmed_refuted",
    "C58_on_revolution_refuted"
   ],
   "note": "C58_curve, C58_surface and C58_revolution cover B-spline curves and surfaces (rational or not), curves on them and surfaces of revolution, for every constructor-valid object with separated knots, non-zero weights and degree below 2^32, on the in-memory JSON tree; the decimal text form (rapidjson Writer and Parse) is not modelled. Custom bounds, knots within the tolerance, trimmed curves and curves on a surface of revolution are not restored (refuted theorems)."
  },
  {
   "property": "C59",
   "status": "partial",
   "theorems": [
    "C59_split_partial",
    "C59_pieces",
    "C59_lone_field_refuted",
    "C59_non_ascii_refuted",
    "C59_wrong_number",
    "C59_accepted",
    "C59_read_partial"
   ],
   "note": "proved for ASCII lines that contain the separator (C59_split_partial, _wrong_number, _accepted, _read_partial); full statement refuted by C59_lone_field_refuted (a line without separator yields no field) and C59_non_ascii_refuted (isspace on a negative char)"
  },
  {
   "property": "C60",
   "status": "partial",
   "theorems": [
    "C60_split_refuted"
   ],
   "note": "full statement refuted by C60_split_refuted: two half-edges stay unlinked and the new vertex refers to a half-edge that ends elsewhere"
  },
  {
   "property": "C61",
   "status": "partial",
   "theorems": [
    "C61_is_boundary_refuted",
    "C61_is_boundary_inverted_partial",
    "C61_interior_partial"
   ],
   "note": "full statement refuted by C61_is_boundary_refuted; the answer is inverted in every mesh (C61_is_boundary_inverted_partial)"
  },
  {
   "property": "C62",
   "status": "partial",
   "theorems": [
    "C62_scale_weights",
    "C62_scaled_weights_refuted"
   ],
   "note": "scale_weights proved; scaled_weights refuted by C62_scaled_weights_refuted (mean_value ignored)."
  },
  {
   "property": "C63",
   "status": "partial",
   "theorems": [
    "C63_factorial_size",
    "C63_factorial_int",
    "C63_binomial_size_partial",
    "C63_binomial_int_partial",
    "C63_binomial_size_refuted",
    "C63_binomial_int_refuted"
   ],
   "note": "Exact results characterised for all n; claim for every result that fits refuted by C63_binomial_size_refuted and C63_binomial_int_refuted."
  },
  {
   "property": "C64",
   "status": "partial",
   "theorems": [
    "C64_origin_partial",
    "C64_axis_partial",
    "C64_off_axis_refuted",
    "C64_derivative_refuted"
   ],
   "note": "full statement refuted by C64_off_axis_refuted (axis not through the origin of coordinates) and C64_derivative_refuted (frame not at the origin, order >= 1 in u); proved for a frame at the origin (C64_origin_partial) and, for values and v-derivatives, for axes through the origin (C64_axis_partial)."
  },
  {
   "property": "C65",
   "status": "proved",
   "theorems": [
    "C65_smooth"
   ],
   "note": "Continuity of every order up to p - m and differentiability below, at every interior parameter."
  },
  {
   "property": "C66",
   "status": "proved",
   "theorems": [
    "C66_poles",
    "C66_support_needed"
   ],
   "note": "Under full support, which C66_support_needed shows necessary."
  },
  {
   "property": "C67",
   "status": "partial",
   "theorems": [
    "C67_parametrization",
    "C67_adimension_refuted"
   ],
   "note": "Parametrisation proved for the three modes; adimension mapping onto [0,1] refuted by C67_adimension_refuted when the list does not start at 0."
  },
  {
   "property": "C68",
   "status": "partial",
   "theorems": [
    "C68_mesh_unchanged",
    "C68_recovery_refuted"
   ],
   "note": "full statement refuted by C68_recovery_refuted (the convexity test is inverted); C68_mesh_unchanged shows what it does instead"
  },
  {
   "property": "C69",
   "status": "proved",
   "theorems": [
    "C69_triangulation"
   ],
   "note": "Exact arithmetic; by_address is the order of the vertex addresses."
  },
  {
   "property": "C70",
   "status": "partial",
   "theorems": [
    "C70_line",
    "C70_line_bounds_refuted",
    "C70_circle_plane",
    "C70_circle_frame",
    "C70_circle_axis_partial",
    "C70_circle_axis_refuted"
   ],
   "note": "circles in the plane and from an orthogonal frame, line evaluation: proved. Line bounds exclude the first point (C70_line_bounds_refuted); circle from an axis is degenerate in general (C70_circle_axis_refuted), proved when the smallest axis coordinate is 0 (C70_circle_axis_partial)."
  },
  {
   "property": "C71",
   "status": "partial",
   "theorems": [
    "C71_which_triangles_partial",
    "C71_covers_hull_refuted"
   ],
   "note": "full statement refuted by C71_covers_hull_refuted (triangles of the hull whose circle reaches a corner of the enclosing box are lost); proved for triangles whose circle also excludes the frame corners by C71_which_triangles_partial"
  },
  {
   "property": "C72",
   "status": "proved",
   "theorems": [
    "C72_grid",
    "C72_grid_returns"
   ],
   "note": "Exact arithmetic; the dense LU of Eigen is any solver that only returns solutions (C72_grid), and one that returns for every nonsingular matrix (C72_grid_returns)."
  },
  {
   "property": "C73",
   "status": "proved",
   "theorems": [
    "C73_constraints",
    "C73_rejects",
    "C73_constraints_returns"
   ],
   "note": "Exact arithmetic; the dense LU of Eigen is any solver that only returns solutions; existence when the constraints determine the poles."
  },
  {
   "property": "C74",
   "status": "proved",
   "theorems": [
    "C74_loft",
    "C74_loft_knots",
    "C74_loft_auto",
    "C74_loft_rational",
    "C74_loft_knots_rational",
    "C74_loft_auto_rational",
    "C74_loft_returns",
    "C74_loft_auto_returns"
   ],
   "note": "Exact arithmetic; sections of degree at most 12 whose rescaled knots are equal or more than the tolerance apart; the loft along a spine is not part of it."
  },
  {
   "property": "C75",
   "status": "proved",
   "theorems": [
    "C75_interpolate_returns",
    "C75_solver",
    "C75_averages",
    "C75_unique"
   ],
   "note": "Exact arithmetic; degree at most 24 (below the tolerance-dependent recursion), the fallback solver of Eigen returns for every nonsingular matrix."
  },
  {
   "property": "C77",
   "status": "proved",
   "theorems": [
    "C77_grid",
    "C77_grid_returns",
    "C77_resolve",
    "C77_constraints",
    "C77_constraints_returns",
    "C77_rejects"
   ],
   "note": "Exact arithmetic; LDLT is any solver that only returns solutions, the pivoted QR any least squares solver."
  },
  {
   "property": "C78",
   "status": "partial",
   "theorems": [
    "C78_unify_surfaces",
    "C78_gordon",
    "C78_gordon_returns",
    "C78_overhang_refuted"
   ],
   "note": "full statement refuted by C78_overhang_refuted (curves that end beyond the outer curves of the other family); proved by C78_gordon and C78_gordon_returns for networks whose crossings go from bound to bound. extrema_curve_curve is an argument."
  },
  {
   "property": "C76",
   "status": "partial",
   "theorems": [
    "C76_spine",
    "C76_spine_rational",
    "C76_two_returns_partial",
    "C76_uneven_refuted"
   ],
   "note": "The carried sections and the crossing direction are proved for any number of sections by C76_spine and C76_spine_rational whenever the loft returns. That it always returns is refuted by C76_uneven_refuted (three unevenly spaced sections) and proved for two sections by C76_two_returns_partial."
  },
  {
   "property": "C79",
   "status": "partial",
   "theorems": [
    "C79_delta",
    "C79_point",
    "C79_returns",
    "C79_free",
    "C79_in_place",
    "C79_constraints_refuted",
    "C79_two_poles_refuted"
   ],
   "note": "Full statement refuted by C79_constraints_refuted (list version) and C79_two_poles_refuted (two poles, fixed ends). Proved: C79_delta (any window and constraints), C79_point, C79_returns, C79_free, C79_in_place."
  },
  {
   "property": "C80",
   "status": "partial",
   "theorems": [
    "C80_positions",
    "C80_point",
    "C80_returns",
    "C80_free",
    "C80_in_place",
    "C80_derivative_refuted"
   ],
   "note": "Derivative constraints refuted by C80_derivative_refuted. Proved for positions: C80_positions, C80_point, C80_returns, C80_free, C80_in_place."
  },
  {
   "property": "C81",
   "status": "partial",
   "theorems": [
    "C81_least_squares",
    "C81_returns",
    "C81_carries",
    "C81_default",
    "C81_rows_refuted",
    "C81_domain_refuted"
   ],
   "note": "least squares optimality, existence and reproduction of the sections proved (C81_least_squares, C81_returns, C81_carries, C81_default); that stations in order suffice is refuted by C81_rows_refuted, and that v is brought to [0, 1] by C81_domain_refuted"
  },
  {
   "property": "C82",
   "status": "partial",
   "theorems": [
    "C82_connect",
    "C82_connect_scaled",
    "C82_connect_n",
    "C82_extension",
    "C82_extended_end",
    "C82_extended_start",
    "C82_extended",
    "C82_extended_speed_refuted"
   ],
   "note": "connections by c2_connect (plain and with factors), c3_connect and cn_connect (degree above the order), and extensions to a point or by a length at either end of polynomial clamped curves proved as stated; the expected parameter length is refuted by C82_extended_speed_refuted; the elliptic connections are not proved and rational curves are not covered."
  },
  {
   "property": "C83",
   "status": "partial",
   "theorems": [
    "C83_join",
    "C83_join_refuses",
    "C83_split_u",
    "C83_split_v",
    "C83_extention",
    "C83_short_curve_refuted",
    "C83_extended_to_curve",
    "C83_extended_length",
    "C83_extended_sides"
   ],
   "note": "C83_join, C83_split_u, C83_split_v, C83_extention, C83_extended_to_curve, C83_extended_length and C83_extended_sides prove the statement for clamped non-rational surfaces whose edge curve has the knots of the edge; for the extension by a length the least squares curve is assumed to be returned by the solver, and at the start sides the old points are found at shifted parameters. C83_join_refuses: other knots in v are refused. C83_short_curve_refuted: a curve with fewer poles is read out of bounds."
  },
  {
   "property": "C84",
   "status": "partial",
   "theorems": [
    "C84_sampling",
    "C84_points",
    "C84_bspline",
    "C84_surface_u",
    "C84_surface_v",
    "C84_grid",
    "C84_grid_returns",
    "C84_max_refuted",
    "C84_middle_refuted",
    "C84_closed_refuted",
    "C84_surface_refuted"
   ],
   "note": "Proved: C84_sampling, C84_points, C84_bspline, C84_surface_u/v, C84_grid. That n_max_pts bounds the count, that the deviation holds away from the middle of a step, that closed curves are refined and that the sampling of surfaces ends are refuted by C84_max_refuted, C84_middle_refuted, C84_closed_refuted and C84_surface_refuted."
  },
  {
   "property": "C85",
   "status": "partial",
   "theorems": [
    "C85_tangent",
    "C85_tangent_zero",
    "C85_normal2",
    "C85_normal3",
    "C85_agree_refuted"
   ],
   "note": "Each direction proved; that the plane and space overloads agree is refuted by C85_agree_refuted, which gives the exact relation."
  },
  {
   "property": "C86",
   "status": "partial",
   "theorems": [
    "C86_length",
    "C86_length_refuses",
    "C86_law",
    "C86_adaptive",
    "C86_adaptive_refuted"
   ],
   "note": "Proved for exact quadratures and additive lengths; the insertion of further parameters is refuted by C86_adaptive_refuted (undefined behaviour)."
  },
  {
   "property": "C87",
   "status": "partial",
   "theorems": [
    "C87_plane",
    "C87_plane_refuses",
    "C87_space",
    "C87_derivative_refuted",
    "C87_straight_refuted",
    "C87_points",
    "C87_points_returns",
    "C87_surface"
   ],
   "note": "Plane offsets, points in space and offset surfaces proved for all inputs. The derivative in space is refuted by C87_derivative_refuted and C87_straight_refuted."
  },
  {
   "property": "C88",
   "status": "partial",
   "theorems": [
    "C88_curve_point",
    "C88_curve_point_from",
    "C88_curve_point_returns",
    "C88_surf_point",
    "C88_surf_point_returns",
    "C88_curve_curve",
    "C88_curve_curve_returns",
    "C88_surf_curve",
    "C88_surf_curve_refuted",
    "C88_gradient_curve",
    "C88_gradient_surf",
    "C88_gradient_refuted",
    "C88_gradient_surf_curve_refuted",
    "C88_lines",
    "C88_parallel_refuted",
    "C88_coordinate",
    "C88_coordinate_refuses",
    "C88_min_partial",
    "C88_max_partial",
    "C88_min_refuted",
    "C88_max_refuted",
    "C88_second_derivative",
    "C88_curvature_refuted",
    "C88_rolling_ball",
    "C88_newton_refuted"
   ],
   "note": "Searches proved for every minimiser meeting the stated hypotheses, with the squared distance as what is returned. Refuted: distance (squared), bracketed surface and curve (C88_surf_curve_refuted), two gradients, extreme coordinates in general (C88_min_refuted, C88_max_refuted; C88_min_partial and C88_max_partial prove the nonnegative case), curvature (C88_curvature_refuted), newton_solve."
  },
  {
   "property": "C89",
   "status": "partial",
   "theorems": [
    "C89_window",
    "C89_passes",
    "C89_fixed",
    "C89_in_range",
    "C89_translation",
    "C89_hull_refuted",
    "C89_binding_one_pass",
    "C89_binding_refuted",
    "C89_neighbours_self",
    "C89_neighbours_refuted",
    "C89_laplacian_still",
    "C89_laplacian_refuted",
    "C89_laplacian_corner_refuted"
   ],
   "note": "Elliptic smoothing: window, passes, fixed grids, range and translation proved (C89_window, C89_passes, C89_fixed, C89_in_range, C89_translation); the box refuted by C89_hull_refuted; the Python function by C89_binding_refuted (C89_binding_one_pass says what it does); neighbours and Laplacian smoothing by C89_neighbours_refuted, C89_laplacian_refuted, C89_laplacian_corner_refuted (C89_neighbours_self, C89_laplacian_still say what they do on every mesh)."
  },
  {
   "property": "C90",
   "status": "partial",
   "theorems": [
    "C90_refined",
    "C90_rounds",
    "C90_max_edge_size",
    "C90_distance",
    "C90_stop_refuted",
    "C90_no_faces_refuted"
   ],
   "note": "The clause on stopping is refuted by C90_stop_refuted: one point is inserted even if every face meets the limit; C90_no_faces_refuted: undefined with no faces. Everything else is proved: C90_refined for every measure, C90_rounds for every measure that an insertion leaves unchanged on kept faces, and C90_max_edge_size and C90_distance show that the library's measures are such."
  },
  {
   "property": "C91",
   "status": "partial",
   "theorems": [
    "C91_iteration",
    "C91_iterators_refuted",
    "C91_max_element_refuted",
    "C91_area"
   ],
   "note": "Iteration and area are proved in full, for every schedule of the reduction. That the iterators obey the rules of standard algorithms is refuted by C91_iterators_refuted and C91_max_element_refuted."
  },
  {
   "property": "C92",
   "status": "partial",
   "theorems": [
    "C92_max_edge_size",
    "C92_distance",
    "C92_flat_refuted",
    "C92_split_point_refuted"
   ],
   "note": "MaxEdgeSize and DistanceMeshSurface2 are proved as stated except that the point is (0, 0) where nothing exceeds 0. That the point lies in the triangulation is refuted by C92_flat_refuted, and the claim on TriangleShapeEdgeSplit by C92_split_point_refuted."
  },
  {
   "property": "C93",
   "status": "partial",
   "theorems": [
    "C93_new",
    "C93_ends",
    "C93_even",
    "C93_sizes",
    "C93_four",
    "C93_growth",
    "C93_no_points_refuted",
    "C93_three_refuted",
    "C93_order_refuted",
    "C93_leaves_refuted",
    "C93_stale_refuted"
   ],
   "note": "Number of points, ends, even spreading, sizes and growths proved; the order along the curve is refuted by C93_order_refuted and C93_leaves_refuted, and the calls on two or three points or before set_n_points fail (C93_three_refuted, C93_no_points_refuted)."
  },
  {
   "property": "C94",
   "status": "partial",
   "theorems": [
    "C94_curve",
    "C94_surface",
    "C94_space_curve",
    "C94_space_surface",
    "C94_rational_curve",
    "C94_rational_surface",
    "C94_plane_refuted",
    "C94_revolution",
    "C94_revolution_value_partial",
    "C94_off_axis_refuted",
    "C94_trim_refuted"
   ],
   "note": "Curves and surfaces: C94_curve and C94_surface for the data, C94_space_curve, C94_space_surface, C94_rational_curve and C94_rational_surface for the points of objects in space. Full statement refuted by C94_plane_refuted (plane curves), C94_off_axis_refuted and C94_trim_refuted (surfaces of revolution); C94_revolution gives the surface exported, C94_revolution_value_partial its agreement with value() for an axis through the origin and an untrimmed profile."
  },
  {
   "property": "C95",
   "status": "partial",
   "theorems": [
    "C95_device",
    "C95_above",
    "C95_derivative_refuted",
    "C95_derivative_partial"
   ],
   "note": "Full statement refuted by C95_derivative_refuted; order 0 proved by C95_device, orders above the degree by C95_above, the first derivative of the last function by C95_derivative_partial."
  },
  {
   "property": "C96",
   "status": "partial",
   "theorems": [
    "C96_max_edge_size_surface",
    "C96_distance",
    "C96_shape",
    "C96_shape_least",
    "C96_local",
    "C96_shape2_refuted",
    "C96_deviation",
    "C96_deviation_refuted",
    "C96_deviation2",
    "C96_deviation2_plane"
   ],
   "note": "Size, distance, ratio and turn proved (C96_max_edge_size_surface, C96_distance, C96_shape, C96_shape_least, C96_local, C96_deviation2). DeviationMeshSurface is 2 on a plane (C96_deviation_refuted; what it returns is in C96_deviation), and TriangleShape2 depends on size (C96_shape2_refuted)."
  },
  {
   "property": "C97",
   "status": "proved",
   "theorems": [
    "C97_curve",
    "C97_unit",
    "C97_lists",
    "C97_surface_u",
    "C97_surface_v"
   ],
   "note": "C97_curve is the statement for curves, C97_surface_u and C97_surface_v for surfaces; C97_unit and C97_lists complete it. The one-pass derivatives of B-splines are taken as the calls of value (C12)."
  },
  {
   "property": "C98",
   "status": "partial",
   "theorems": [
    "C98_perimeter",
    "C98_incenter",
    "C98_deviation",
    "C98_deviation_plane",
    "C98_coordinates",
    "C98_small_refuted",
    "C98_sphere_nan_refuted",
    "C98_sphere_refuted"
   ],
   "note": "perimeter, incenter, surface_triangle_deviation and computeUV proved; the throw of computeUV is refuted by C98_small_refuted, sphere_center by C98_sphere_nan_refuted and C98_sphere_refuted."
  },
  {
   "property": "C99",
   "status": "partial",
   "theorems": [
    "C99_internal",
    "C99_external",
    "C99_edges_ccw",
    "C99_face_ccw",
    "C99_face_ccw_refuted"
   ],
   "note": "refuted by C99_face_ccw_refuted: are_face_ccw accepts flat faces (C99_face_ccw says exactly what it accepts); the rest of the statement is proved (C99_internal, C99_external, C99_edges_ccw)"
  }
 ]
}